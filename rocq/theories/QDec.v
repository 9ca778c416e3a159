(** * QDec: decimal rationals m * 10^e. Auxiliary lemmas for the proofs. *)
From Coq Require Import ZArith QArith Qround Qpower Qabs List Bool Lia.
From Verif Require Import Spec.
Open Scope Z_scope.

Definition p10 (e : Z) : Q := (ten ^ e)%Q.
Definition dec (m e : Z) : Q := (inject_Z m * p10 e)%Q.

Lemma ten_nz : ~ (ten == 0)%Q.
Proof. unfold ten, Qeq; simpl; lia. Qed.

Lemma ten_pos : (0 < ten)%Q.
Proof. reflexivity. Qed.

Lemma p10_pos e : (0 < p10 e)%Q.
Proof. apply Qpower_0_lt. exact ten_pos. Qed.

Lemma p10_nz e : ~ (p10 e == 0)%Q.
Proof. intro H. pose proof (p10_pos e) as P. rewrite H in P. discriminate P. Qed.

Lemma p10_add a b : (p10 (a + b) == p10 a * p10 b)%Q.
Proof. apply Qpower_plus. exact ten_nz. Qed.

Lemma p10_0 : (p10 0 == 1)%Q.
Proof. reflexivity. Qed.

Lemma p10_opp e : (p10 e * p10 (- e) == 1)%Q.
Proof. rewrite <- p10_add. rewrite Z.add_opp_diag_r. reflexivity. Qed.

Lemma p10_Z k : 0 <= k -> (p10 k == inject_Z (10 ^ k))%Q.
Proof. intro H. unfold p10, ten. symmetry. apply Zpower_Qpower. exact H. Qed.

Lemma NB_ten4 : (NB == ten ^ 4)%Q.
Proof. reflexivity. Qed.

Lemma NB_pow e : (NB ^ e == p10 (4 * e))%Q.
Proof. unfold p10. rewrite Qpower_mult. rewrite <- NB_ten4. reflexivity. Qed.

Lemma limit_p10 : (limit == p10 (4 * 32768))%Q.
Proof. unfold limit. apply NB_pow. Qed.

Global Opaque limit.

Lemma dec_shift m e k : 0 <= k -> (dec (m * 10 ^ k) e == dec m (e + k))%Q.
Proof.
  intro H. unfold dec. rewrite inject_Z_mult, p10_add, <- (p10_Z k H). ring.
Qed.

Lemma dec_lt_iff a b e : (dec a e < dec b e)%Q <-> a < b.
Proof.
  unfold dec. rewrite (Qmult_lt_r _ _ _ (p10_pos e)). rewrite <- Zlt_Qlt. reflexivity.
Qed.

Lemma dec_le_iff a b e : (dec a e <= dec b e)%Q <-> a <= b.
Proof.
  unfold dec. rewrite (Qmult_le_r _ _ _ (p10_pos e)). rewrite <- Zle_Qle. reflexivity.
Qed.

Lemma inject_Z_inj a b : (inject_Z a == inject_Z b)%Q <-> a = b.
Proof. unfold Qeq, inject_Z; cbn. lia. Qed.

Lemma dec_eq_iff a b e : (dec a e == dec b e)%Q <-> a = b.
Proof.
  unfold dec. split; intro H.
  - apply Qmult_inj_r in H; [ now apply inject_Z_inj | apply p10_nz ].
  - now subst.
Qed.

Lemma dec_add a b e : (dec a e + dec b e == dec (a + b) e)%Q.
Proof. unfold dec. rewrite inject_Z_plus. ring. Qed.

Lemma dec_opp a e : (- dec a e == dec (- a) e)%Q.
Proof. unfold dec. rewrite inject_Z_opp. ring. Qed.

Lemma dec_sub a b e : (dec a e - dec b e == dec (a - b) e)%Q.
Proof. unfold Z.sub. rewrite <- dec_add, <- dec_opp. ring. Qed.

Lemma dec_mul a b e f : (dec a e * dec b f == dec (a * b) (e + f))%Q.
Proof. unfold dec. rewrite inject_Z_mult, p10_add. ring. Qed.

Lemma dec_0 e : (dec 0 e == 0)%Q.
Proof. unfold dec. ring. Qed.

Lemma dec_p10 a e f : (dec a e * p10 f == dec a (e + f))%Q.
Proof. unfold dec. rewrite p10_add. ring. Qed.

Lemma dec_Z a : (dec a 0 == inject_Z a)%Q.
Proof. unfold dec. rewrite p10_0. ring. Qed.

Lemma dec_Zshift a e : 0 <= e -> (dec a e == inject_Z (a * 10 ^ e))%Q.
Proof. intro H. unfold dec. rewrite (p10_Z e H), inject_Z_mult. reflexivity. Qed.

Lemma dec_eq0 a e : (dec a e == 0)%Q <-> a = 0.
Proof. rewrite <- (dec_0 e). apply dec_eq_iff. Qed.

Lemma Qabs_dec a e : (Qabs (dec a e) == dec (Z.abs a) e)%Q.
Proof.
  unfold dec. rewrite Qabs_Qmult. rewrite (Qabs_pos (p10 e)) by (apply Qlt_le_weak, p10_pos).
  destruct (Z.abs_spec a) as [[H E] | [H E]]; rewrite E.
  - rewrite Qabs_pos; [reflexivity|]. change 0%Q with (inject_Z 0). now rewrite <- Zle_Qle.
  - rewrite Qabs_neg; [now rewrite inject_Z_opp|].
    change 0%Q with (inject_Z 0). rewrite <- Zle_Qle. lia.
Qed.

Lemma p10_lt a b : a < b -> (p10 a < p10 b)%Q.
Proof.
  intro H. replace b with (a + (b - a)) by lia. rewrite p10_add, (p10_Z (b - a)) by lia.
  rewrite <- (Qmult_1_r (p10 a)) at 1.
  rewrite (Qmult_lt_l _ _ _ (p10_pos a)).
  change 1%Q with (inject_Z 1). rewrite <- Zlt_Qlt.
  apply Z.pow_gt_1; lia.
Qed.

Lemma p10_le a b : a <= b -> (p10 a <= p10 b)%Q.
Proof.
  intro H. destruct (Z.eq_dec a b) as [->|N]; [apply Qle_refl|].
  apply Qlt_le_weak, p10_lt. lia.
Qed.

Lemma p10_lt_iff a b : (p10 a < p10 b)%Q <-> a < b.
Proof.
  split; intro H; [|now apply p10_lt].
  destruct (Z_lt_le_dec a b) as [L|L]; [exact L|].
  apply p10_le in L. exfalso. apply (Qlt_not_le _ _ H L).
Qed.

Lemma p10_le_iff a b : (p10 a <= p10 b)%Q <-> a <= b.
Proof.
  split; intro H; [|now apply p10_le].
  destruct (Z_lt_le_dec b a) as [L|L]; [|exact L].
  apply p10_lt in L. exfalso. apply (Qlt_not_le _ _ L H).
Qed.

Lemma dec_1 e : (dec 1 e == p10 e)%Q.
Proof. unfold dec. ring. Qed.

Lemma Qfloor_comp' q r : (q == r)%Q -> Qfloor q = Qfloor r.
Proof. intro H. apply Qfloor_comp. exact H. Qed.

(** floor of a scaled-down integer *)
Lemma Qfloor_dec_neg m r : 0 <= r -> Qfloor (dec m (- r)) = m / 10 ^ r.
Proof.
  intro H. assert (P : 0 < 10 ^ r) by (apply Z.pow_pos_nonneg; lia).
  rewrite Zdiv_Qdiv. apply Qfloor_comp. unfold dec, Qdiv.
  rewrite <- (p10_Z r H).
  assert (E : (p10 (- r) == / p10 r)%Q).
  { unfold p10. apply Qpower_opp. }
  rewrite E. reflexivity.
Qed.

Lemma Qfloor_dec_pos m e : 0 <= e -> Qfloor (dec m e) = m * 10 ^ e.
Proof. intro H. rewrite (Qfloor_comp _ _ (dec_Zshift m e H)). apply Qfloor_Z. Qed.
