(** * FloatGrid: rounding to a binary format. *)
From Coq Require Import ZArith QArith Qabs Qpower Lia Lqa Bool List.
From Verif Require Import Base Flt FltFacts SpecDouble Float.
Open Scope Z_scope.

Definition p2 (e : Z) : Q := (2 ^ e)%Q.

Lemma two_nz : ~ (2 == 0)%Q. Proof. discriminate. Qed.
Lemma p2_pos e : (0 < p2 e)%Q.
Proof. apply Qpower_0_lt. reflexivity. Qed.
Lemma p2_add a b : (p2 (a + b) == p2 a * p2 b)%Q.
Proof. apply Qpower_plus. exact two_nz. Qed.
Lemma p2_opp e : (p2 e * p2 (- e) == 1)%Q.
Proof. rewrite <- p2_add, Z.add_opp_diag_r. reflexivity. Qed.
Lemma p2_Z k : 0 <= k -> (p2 k == inject_Z (2 ^ k))%Q.
Proof. intro H. unfold p2. symmetry. apply Zpower_Qpower. exact H. Qed.
Lemma p2_lt a b : a < b -> (p2 a < p2 b)%Q.
Proof.
  intro H. replace b with (a + (b - a)) by lia. rewrite p2_add, (p2_Z (b - a)) by lia.
  rewrite <- (Qmult_1_r (p2 a)) at 1. rewrite (Qmult_lt_l _ _ _ (p2_pos a)).
  change 1%Q with (inject_Z 1). rewrite <- Zlt_Qlt. apply Z.pow_gt_1; lia.
Qed.
Lemma p2_le a b : a <= b -> (p2 a <= p2 b)%Q.
Proof. intro H. destruct (Z.eq_dec a b) as [->|N]; [apply Qle_refl|]. apply Qlt_le_weak, p2_lt. lia. Qed.
Lemma p2_lt_iff a b : (p2 a < p2 b)%Q <-> a < b.
Proof.
  split; [|apply p2_lt]. intro H. destruct (Z_lt_le_dec a b) as [L|L]; [exact L|].
  apply p2_le in L. exfalso. apply (Qlt_irrefl (p2 a)). eapply Qlt_le_trans; eauto.
Qed.
Lemma p2_1 : (p2 1 == 2)%Q. Proof. reflexivity. Qed.
Lemma p2_step e : (p2 (e + 1) == 2 * p2 e)%Q.
Proof. rewrite p2_add, p2_1. ring. Qed.

Lemma Qabs_p2 m e : (Qabs (inject_Z m * p2 e) == inject_Z (Z.abs m) * p2 e)%Q.
Proof.
  rewrite Qabs_Qmult, (Qabs_pos (p2 e)) by (apply Qlt_le_weak, p2_pos). reflexivity.
Qed.

(** the exponent found by [flexp] *)
Lemma Qabs_frac (x : Q) : (Qabs x * inject_Z (QDen x) == inject_Z (Z.abs (Qnum x)))%Q.
Proof. destruct x as [n d]. unfold Qabs, inject_Z, Qeq, Qmult. cbn. nia. Qed.

Lemma cross x e : (p2 e <= Qabs x)%Q <-> QDen x * 2 ^ Z.max 0 e <= Z.abs (Qnum x) * 2 ^ Z.max 0 (- e).
Proof.
  rewrite Zle_Qle, !inject_Z_mult, <- !p2_Z by lia. rewrite <- Qabs_frac.
  set (d := inject_Z (QDen x)). assert (D : (0 < d)%Q) by (unfold d; change 0%Q with (inject_Z 0); rewrite <- Zlt_Qlt; lia).
  assert (E : (p2 (Z.max 0 e) == p2 e * p2 (Z.max 0 (- e)))%Q) by (rewrite <- p2_add; apply Qpower_comp; [reflexivity|lia]).
  rewrite E. pose proof (p2_pos (Z.max 0 (- e))) as P. rewrite <- (Qmult_le_r (p2 e) (Qabs x) (d * p2 (Z.max 0 (- e)))) by (apply Qmult_lt_0_compat; assumption).
  split; intro H; [|]; (eapply Qle_trans; [|eapply Qle_trans; [exact H|]]); apply Qle_lteq; right; ring.
Qed.

Lemma flexp_bounds x : Qnum x <> 0 -> (p2 (flexp x + 52) <= Qabs x)%Q /\ (Qabs x < p2 (flexp x + 53))%Q.
Proof.
  intro N. unfold flexp. set (n := Z.abs (Qnum x)). assert (Hn : 0 < n) by (unfold n; lia).
  set (d := QDen x). assert (Hd : 0 < d) by (unfold d; lia).
  pose proof (Z.log2_spec n Hn) as [N1 N2]. pose proof (Z.log2_spec d Hd) as [D1 D2].
  pose proof (Z.log2_nonneg n) as A0. pose proof (Z.log2_nonneg d) as B0.
  set (a := Z.log2 n) in *. set (b := Z.log2 d) in *. set (k := a - b).
  assert (Dp : (0 < inject_Z d)%Q) by (change 0%Q with (inject_Z 0); now rewrite <- Zlt_Qlt).
  assert (U : (Qabs x < p2 (k + 1))%Q).
  { rewrite <- (Qmult_lt_r _ _ _ Dp). unfold d. rewrite Qabs_frac. fold n. fold d.
    apply Qlt_le_trans with (p2 (a + 1)).
    - rewrite p2_Z by lia. rewrite <- Zlt_Qlt. exact N2.
    - replace (a + 1) with (k + 1 + b) by (unfold k; lia). rewrite p2_add. apply Qmult_le_l; [apply p2_pos|].
      rewrite p2_Z by lia. rewrite <- Zle_Qle. exact D1. }
  assert (W : (p2 (k - 1) <= Qabs x)%Q).
  { rewrite <- (Qmult_le_r _ _ _ Dp). unfold d. rewrite Qabs_frac. fold n. fold d.
    apply Qle_trans with (p2 a).
    - replace a with (k - 1 + (b + 1)) by (unfold k; lia). rewrite p2_add. apply Qmult_le_l; [apply p2_pos|].
      rewrite p2_Z by lia. rewrite <- Zle_Qle. replace (b + 1) with (Z.succ b) by lia. lia.
    - rewrite p2_Z by lia. rewrite <- Zle_Qle. exact N1. }
  destruct (Z.leb_spec (d * 2 ^ Z.max 0 k) (n * 2 ^ Z.max 0 (- k))) as [L|L].
  - replace (k - 52 + 52) with k by lia. replace (k - 52 + 53) with (k + 1) by lia. split; [|exact U]. now apply cross.
  - replace (k - 53 + 52) with (k - 1) by lia. replace (k - 53 + 53) with k by lia. split; [exact W|].
    apply Qnot_le_lt. intro H. apply cross in H. unfold n, d in L. lia.
Qed.

(** ** Nearest integer *)
Lemma rneq_err x : (Qabs (inject_Z (rneq x) - x) <= 1 # 2)%Q.
Proof.
  unfold rneq. destruct x as [n d]. cbn [Qnum Qden]. pose proof (rne_err n (Z.pos d) ltac:(lia)) as H.
  unfold Qabs, Qle, Qminus, Qplus, Qopp, inject_Z. cbn. destruct (_ + _) eqn:E; cbn; nia.
Qed.

Lemma inj_lt a b : (inject_Z a < inject_Z b)%Q <-> a < b. Proof. now rewrite Zlt_Qlt. Qed.
Lemma inj_le a b : (inject_Z a <= inject_Z b)%Q <-> a <= b. Proof. now rewrite Zle_Qle. Qed.

Lemma rneq_nearest x k : (Qabs (inject_Z (rneq x) - x) <= Qabs (inject_Z k - x))%Q.
Proof.
  pose proof (rneq_err x) as H. set (r := rneq x) in *. destruct (Z.eq_dec k r) as [->|N]; [apply Qle_refl|].
  apply Qle_trans with (1 # 2); [exact H|]. apply Qabs_Qle_condition in H. destruct H as [H1 H2].
  destruct (Z_lt_le_dec k r) as [L|L].
  - assert (K : (inject_Z k <= inject_Z r - 1)%Q) by (change 1%Q with (inject_Z 1); 
      unfold Qminus; rewrite <- inject_Z_opp, <- inject_Z_plus; apply inj_le; lia).
    rewrite Qabs_neg by lra. lra.
  - assert (K : (inject_Z r + 1 <= inject_Z k)%Q) by (change 1%Q with (inject_Z 1); rewrite <- inject_Z_plus; apply inj_le; lia).
    rewrite Qabs_pos by lra. lra.
Qed.

(** ties go to the even neighbour *)
Lemma rneq_tie_hi x K : Z.even K = true -> ((inject_Z K - (1 # 2) <= x)%Q <-> K <= rneq x).
Proof.
  intro Ev. unfold rneq, rne. destruct x as [n d]. cbn [Qnum Qden]. set (D := Z.pos d).
  pose proof (Z.div_mod n D ltac:(lia)) as E. pose proof (Z.mod_pos_bound n D ltac:(lia)) as M.
  set (q := n / D) in *. set (r := n mod D) in *.
  assert (X : (inject_Z K - (1 # 2) <= n # d)%Q <-> 2 * K * D - D <= 2 * n).
  { unfold Qle, Qminus, Qplus, Qopp, inject_Z. cbn [Qnum Qden]. rewrite ?Pos.mul_1_l. fold D. change (Z.pos 2) with 2. change (Z.pos 1) with 1. lia. }
  rewrite X. destruct (Z.ltb_spec (2 * r) D); [|destruct (Z.ltb_spec D (2 * r)); [|destruct (Z.even q) eqn:Eq]].
  - split; intro; nia.
  - split; intro; nia.
  - split; intro H1; [|nia]. assert (K <= q + 1) by nia. destruct (Z.eq_dec K (q + 1)) as [->|]; [|lia].
    rewrite Z.even_add, Eq in Ev. discriminate.
  - split; intro; nia.
Qed.

Lemma rneq_tie_lo x K : Z.even K = true -> ((x <= inject_Z K + (1 # 2))%Q <-> rneq x <= K).
Proof.
  intro Ev. unfold rneq, rne. destruct x as [n d]. cbn [Qnum Qden]. set (D := Z.pos d).
  pose proof (Z.div_mod n D ltac:(lia)) as E. pose proof (Z.mod_pos_bound n D ltac:(lia)) as M.
  set (q := n / D) in *. set (r := n mod D) in *.
  assert (X : (n # d <= inject_Z K + (1 # 2))%Q <-> 2 * n <= 2 * K * D + D).
  { unfold Qle, Qminus, Qplus, Qopp, inject_Z. cbn [Qnum Qden]. rewrite ?Pos.mul_1_l. fold D. change (Z.pos 2) with 2. change (Z.pos 1) with 1. lia. }
  rewrite X. destruct (Z.ltb_spec (2 * r) D); [|destruct (Z.ltb_spec D (2 * r)); [|destruct (Z.even q) eqn:Eq]].
  - split; intro; nia.
  - split; intro; nia.
  - split; intro; nia.
  - split; intro H1; [|nia]. assert (q <= K) by nia. destruct (Z.eq_dec K q) as [->|]; [congruence|lia].
Qed.

(** ** [to_grid] rounds to nearest *)
Lemma scale_down q e : ((q * p2 (- e)) * p2 e == q)%Q.
Proof. rewrite <- Qmult_assoc, (Qmult_comm (p2 (- e))), p2_opp. ring. Qed.

Lemma Qabs_scale q e : (Qabs (q * p2 e) == Qabs q * p2 e)%Q.
Proof. rewrite Qabs_Qmult, (Qabs_pos (p2 e)) by (apply Qlt_le_weak, p2_pos). reflexivity. Qed.

Lemma dist_scale k q e : (Qabs (inject_Z k * p2 e - q) == Qabs (inject_Z k - q * p2 (- e)) * p2 e)%Q.
Proof.
  rewrite <- Qabs_scale. apply Qabs_wd. rewrite <- (scale_down q e) at 1. ring.
Qed.

Lemma to_grid_nz F q : Qnum q <> 0 -> to_grid F q = (inject_Z (rneq (q * 2 ^ (- last_place F q))) * 2 ^ last_place F q)%Q.
Proof. intro N. unfold to_grid. destruct (Z.eqb_spec (Qnum q) 0); [contradiction|reflexivity]. Qed.

Lemma scaled_bound F q : 0 < f_prec F -> Qnum q <> 0 ->
  (Qabs (q * p2 (- last_place F q)) < inject_Z (2 ^ f_prec F))%Q.
Proof.
  intros P N. destruct (flexp_bounds q N) as [_ U]. set (e := last_place F q). rewrite Qabs_scale.
  rewrite <- p2_Z by lia. apply (Qmult_lt_r _ _ _ (p2_pos e)). rewrite scale_down.
  rewrite <- p2_add. eapply Qlt_le_trans; [exact U|]. apply p2_le. unfold e, last_place. lia.
Qed.

Lemma rneq_bound F q : 0 < f_prec F -> Qnum q <> 0 ->
  Z.abs (rneq (q * p2 (- last_place F q))) <= 2 ^ f_prec F.
Proof.
  intros P N. pose proof (scaled_bound F q P N) as B. set (x := (q * p2 (- last_place F q))%Q) in *. set (K := 2 ^ f_prec F) in *.
  assert (Ev : Z.even K = true) by (unfold K; replace (f_prec F) with (1 + (f_prec F - 1)) by lia; rewrite Z.pow_add_r by lia; now rewrite Z.even_mul).
  assert (Ev' : Z.even (- K) = true) by now rewrite Z.even_opp.
  apply Qabs_Qlt_condition in B. destruct B as [B1 B2]. apply Z.abs_le. split.
  - apply (proj1 (rneq_tie_hi x (- K) Ev')). rewrite inject_Z_opp. lra.
  - apply (proj1 (rneq_tie_lo x K Ev)). lra.
Qed.

Lemma to_grid_on F q : 0 < f_prec F -> on_grid F (to_grid F q).
Proof.
  intro P. destruct (Z.eq_dec (Qnum q) 0) as [Z0|N].
  - unfold to_grid. rewrite Z0. exists 0, (f_emin F). split; [|split; [lia|cbn [Z.eqb]; ring]]. cbn [Z.abs]. apply Z.pow_pos_nonneg; lia.
  - rewrite to_grid_nz by assumption. pose proof (rneq_bound F q P N) as B. set (e := last_place F q) in *. change (2 ^ (- e))%Q with (p2 (- e)). set (m := rneq _) in *.
    assert (He : f_emin F <= e) by (unfold e, last_place; lia).
    destruct (Z.eq_dec (Z.abs m) (2 ^ f_prec F)) as [Em|Nm]; [|exists m, e; split; [lia|split; [exact He|reflexivity]]].
    assert (Pp : 2 ^ f_prec F = 2 * 2 ^ (f_prec F - 1)) by (replace (f_prec F) with (1 + (f_prec F - 1)) at 1 by lia; rewrite Z.pow_add_r by lia; reflexivity).
    pose proof (Z.pow_pos_nonneg 2 (f_prec F - 1) ltac:(lia) ltac:(lia)) as Pq.
    exists (m / 2), (e + 1). assert (Hm : m = 2 * (m / 2)).
    { apply Z.div_exact; [lia|]. destruct (Z.abs_eq_or_opp m) as [A|A]; rewrite A in Em.
      - rewrite Em, Pp, Z.mul_comm. apply Z.mod_mul. lia.
      - replace m with (- 2 ^ (f_prec F - 1) * 2) by lia. apply Z.mod_mul. lia. }
    split; [lia|]. split; [lia|]. change (2 ^ e)%Q with (p2 e). change (2 ^ (e + 1))%Q with (p2 (e + 1)). rewrite p2_step.
    rewrite Hm at 1. rewrite inject_Z_mult. change (inject_Z 2) with 2%Q. ring.
Qed.

Lemma num_zero (q : Q) : Qnum q = 0 <-> (q == 0)%Q.
Proof. unfold Qeq. cbn. lia. Qed.

Lemma to_grid_nearest F q : 0 < f_prec F -> nearest F q (to_grid F q).
Proof.
  intro P. split; [now apply to_grid_on|]. intros g (m' & e' & Hm & He & Hg).
  destruct (Z.eq_dec (Qnum q) 0) as [Z0|N].
  { unfold to_grid. rewrite Z0. cbn [Z.eqb]. apply num_zero in Z0. rewrite Z0. apply Qabs_nonneg. }
  rewrite to_grid_nz by assumption. set (e := last_place F q). change (2 ^ (- e))%Q with (p2 (- e)). change (2 ^ e)%Q with (p2 e).
  change (2 ^ e')%Q with (p2 e') in Hg. rewrite dist_scale.
  assert (R : forall k, (Qabs (inject_Z (rneq (q * p2 (- e))) - q * p2 (- e)) * p2 e <= Qabs (inject_Z k * p2 e - q))%Q).
  { intro k. rewrite (dist_scale k). apply Qmult_le_r; [apply p2_pos|]. apply rneq_nearest. }
  destruct (Z_le_gt_dec e e') as [L|L].
  - assert (G : (g == inject_Z (m' * 2 ^ (e' - e)) * p2 e)%Q).
    { rewrite Hg, inject_Z_mult, <- p2_Z by lia. rewrite <- Qmult_assoc, <- p2_add. replace (e' - e + e) with e' by lia. reflexivity. }
    rewrite G. apply R.
  - destruct (flexp_bounds q N) as [Lo _]. assert (Ee : e = flexp q + 53 - f_prec F) by (unfold e, last_place in *; lia).
    set (h := 2 ^ (f_prec F - 1)).
    assert (Hh : (inject_Z h * p2 e <= Qabs q)%Q).
    { unfold h. rewrite <- p2_Z by lia. rewrite <- p2_add. replace (f_prec F - 1 + e) with (flexp q + 52) by lia. exact Lo. }
    assert (Gh : (Qabs g <= inject_Z h * p2 e)%Q).
    { rewrite Hg, Qabs_p2. apply Qle_trans with (p2 (f_prec F) * p2 e')%Q.
      - apply Qmult_le_r; [apply p2_pos|]. rewrite p2_Z by lia. apply inj_le. lia.
      - unfold h. rewrite <- p2_Z by lia. rewrite <- !p2_add. apply p2_le. lia. }
    assert (hp : (0 <= inject_Z h * p2 e)%Q) by (eapply Qle_trans; [apply Qabs_nonneg|exact Gh]).
    destruct (Qlt_le_dec q 0) as [S|S].
    + eapply Qle_trans; [apply (R (- h))|]. rewrite inject_Z_opp. rewrite (Qabs_neg q) in Hh by lra.
      apply Qabs_Qle_condition in Gh. setoid_replace (- inject_Z h * p2 e)%Q with (- (inject_Z h * p2 e))%Q by ring.
      rewrite !Qabs_pos by lra. lra.
    + eapply Qle_trans; [apply (R h)|]. rewrite (Qabs_pos q) in Hh by lra. apply Qabs_Qle_condition in Gh.
      rewrite !Qabs_neg by lra. lra.
Qed.

Lemma to_grid_err F q : 0 < f_prec F ->
  (Qabs (to_grid F q - q) <= Qabs q * p2 (- f_prec F) \/ Qabs (to_grid F q - q) <= p2 (f_emin F - 1))%Q.
Proof.
  intro P. destruct (Z.eq_dec (Qnum q) 0) as [Z0|N].
  { unfold to_grid. rewrite Z0. cbn [Z.eqb]. apply num_zero in Z0. right. rewrite Z0. change (Qabs (0 - 0)) with 0%Q. apply Qlt_le_weak, p2_pos. }
  rewrite to_grid_nz by assumption. pose proof (rneq_err (q * p2 (- last_place F q))) as E. destruct (flexp_bounds q N) as [Lo _].
  change (2 ^ (- last_place F q))%Q with (p2 (- last_place F q)). change (2 ^ last_place F q)%Q with (p2 (last_place F q)).
  rewrite dist_scale. set (D := Qabs _) in *. pose proof (p2_pos (last_place F q)) as Pp.
  assert (H : (D * p2 (last_place F q) <= p2 (last_place F q - 1))%Q).
  { replace (last_place F q) with (last_place F q - 1 + 1) at 1 by lia. rewrite p2_step.
    pose proof (p2_pos (last_place F q - 1)) as P1. setoid_replace (p2 (last_place F q - 1)) with ((1 # 2) * (2 * p2 (last_place F q - 1)))%Q at 2 by ring.
    apply Qmult_le_r; [lra|exact E]. }
  unfold last_place in H at 2. unfold last_place in *. destruct (Z.max_spec (f_emin F) (flexp q + 53 - f_prec F)) as [[A B]|[A B]]; rewrite B in *.
  - left. eapply Qle_trans; [exact H|]. replace (flexp q + 53 - f_prec F - 1) with (flexp q + 52 + - f_prec F) by lia. rewrite p2_add.
    apply Qmult_le_r; [apply p2_pos|exact Lo].
  - right. exact H.
Qed.

Lemma nearest_err F q f : 0 < f_prec F -> nearest F q f ->
  (Qabs (f - q) <= Qabs q * p2 (- f_prec F) \/ Qabs (f - q) <= p2 (f_emin F - 1))%Q.
Proof.
  intros P [_ H]. specialize (H _ (to_grid_on F q P)). destruct (to_grid_err F q P); [left|right]; eapply Qle_trans; eauto.
Qed.

(** values of the format are their own rounding *)
Lemma nearest_self F q f : on_grid F q -> nearest F q f -> (f == q)%Q.
Proof.
  intros G [_ H]. specialize (H q G). setoid_replace (q - q)%Q with 0%Q in H by ring. change (Qabs 0) with 0%Q in H.
  apply Qabs_Qle_condition in H. lra.
Qed.

Lemma to_format_rounds F q : 0 < f_prec F -> rounds_to F q (to_format F q).
Proof.
  intro P. pose proof (to_grid_nearest F q P) as N. unfold to_format. destruct (Qle_bool (2 ^ f_emax F) (Qabs (to_grid F q))) eqn:E.
  - apply Qle_bool_iff in E. exists (to_grid F q). split; [exact N|]. split; [exact E|]. rewrite Z.ltb_lt. unfold Qlt. cbn. lia.
  - split; [exact N|]. apply Qnot_le_lt. intro H. apply Qle_bool_iff in H. congruence.
Qed.

Lemma grid_sub q : on_grid binary32 q -> on_grid binary64 q.
Proof. intros (m & e & A & B & C). exists m, e. cbn [f_prec f_emin binary32 binary64] in *. split; [lia|]. split; [lia|exact C]. Qed.
