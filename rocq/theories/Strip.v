(** * Strip: removing leading and trailing zero digits. *)
From Coq Require Import ZArith QArith Qround Qpower Qabs List Bool Lia.
From Verif Require Import Base Var Spec QDec Digits Arith.
Import ListNotations.
Open Scope Z_scope.

Lemma drop_zeros_split ds : exists k, ds = repeat 0 k ++ drop_zeros ds.
Proof.
  induction ds as [|d t [k IH]]; [now exists O|]. cbn [drop_zeros].
  destruct (Z.eqb_spec d 0) as [->|N].
  - exists (S k). cbn. now f_equal.
  - now exists O.
Qed.

Lemma drop_zeros_head ds d t : drop_zeros ds = d :: t -> d <> 0.
Proof.
  induction ds as [|x l IH]; cbn [drop_zeros]; [discriminate|].
  destruct (Z.eqb_spec x 0) as [->|N]; [exact IH|]. intro E. congruence.
Qed.

Lemma Forall_drop_zeros (P : Z -> Prop) ds : Forall P ds -> Forall P (drop_zeros ds).
Proof.
  intro H. destruct (drop_zeros_split ds) as [k E]. rewrite E in H. now apply Forall_app in H.
Qed.

Lemma drop_zeros_nz ds : (forall d t, ds = d :: t -> d <> 0) -> drop_zeros ds = ds.
Proof.
  destruct ds as [|d t]; [reflexivity|]. intro H. cbn [drop_zeros].
  destruct (Z.eqb_spec d 0) as [E|N]; [|reflexivity]. exfalso. now apply (H d t eq_refl).
Qed.

Lemma repeat_0_rev k : rev (repeat 0 k) = repeat 0 k.
Proof.
  induction k as [|k IH]; [reflexivity|]. cbn [repeat rev]. rewrite IH.
  clear IH. induction k as [|k IH]; [reflexivity|]. cbn. now f_equal.
Qed.

Lemma rev_drop_split ds : exists k, ds = rev (drop_zeros (rev ds)) ++ repeat 0 k.
Proof.
  destruct (drop_zeros_split (rev ds)) as [k E]. exists k.
  apply (f_equal (@rev Z)) in E. rewrite rev_involutive, rev_app_distr, repeat_0_rev in E. exact E.
Qed.

Lemma lenz_repeat {A} (a : A) k : lenz (repeat a k) = Z.of_nat k.
Proof. unfold lenz. now rewrite repeat_length. Qed.

Lemma drop_zeros_repeat k : drop_zeros (repeat 0 k) = [].
Proof. induction k; cbn; auto. Qed.

(** everything about [strip] *)
Lemma strip_dscale v : dscale (strip v) = dscale v.
Proof. unfold strip. destruct (rev _); reflexivity. Qed.

Lemma strip_spec v : Forall dig (digits v) -> sign v <> SNaN ->
  stripped (strip v) /\ (vval (strip v) == vval v)%Q.
Proof.
  intros D N. unfold strip.
  destruct (drop_zeros_split (digits v)) as [k E1].
  set (lead := drop_zeros (digits v)) in *.
  destruct (rev_drop_split lead) as [m E2].
  set (ds := rev (drop_zeros (rev lead))) in *.
  assert (Dl : Forall dig lead) by (apply Forall_drop_zeros; exact D).
  assert (Dd : Forall dig ds) by (rewrite E2 in Dl; now apply Forall_app in Dl).
  assert (V : mag v = dval ds * 10000 ^ Z.of_nat m).
  { unfold mag. rewrite E1, dval_app, dval_repeat0, E2, dval_app, dval_repeat0, lenz_repeat. lia. }
  assert (L : ndigits v = Z.of_nat k + lenz ds + Z.of_nat m).
  { unfold ndigits. rewrite E1, lenz_app, E2, lenz_app, !lenz_repeat. lia. }
  assert (L' : lenz lead = lenz ds + Z.of_nat m).
  { rewrite E2, lenz_app, lenz_repeat. lia. }
  assert (Hlast : forall d t, ds = t ++ [d] -> d <> 0).
  { intros d t E. unfold ds in E. apply (drop_zeros_head (rev lead) d (rev t)).
    rewrite <- (rev_involutive (drop_zeros (rev lead))), E, rev_app_distr. reflexivity. }
  assert (Hfirst : forall d t, ds = d :: t -> d <> 0).
  { intros d t E. apply (drop_zeros_head (digits v) d (t ++ repeat 0 m)).
    fold lead. rewrite E2, E. reflexivity. }
  destruct ds as [|d0 t0] eqn:Ed.
  - split.
    + constructor; cbn; auto; try discriminate.
    + unfold vval, smag, mag at 1. cbn [digits sign]. rewrite dec_0.
      rewrite V. cbn [dval]. rewrite Z.mul_0_l, Z.mul_0_r. now rewrite dec_0.
  - split.
    + constructor; cbn [digits sign weight]; auto.
      intro E; discriminate E.
    + unfold vval, smag, lsd, ndigits. cbn [digits sign weight].
      rewrite V. unfold mag at 1. cbn [digits].
      rewrite pB_ten by lia. rewrite Z.mul_assoc. rewrite dec_shift by lia.
      apply Qeq_refl || idtac.
      fold (ndigits v). rewrite L', L.
      now replace (4 * (weight v + 1 - (Z.of_nat k + lenz (d0 :: t0) + Z.of_nat m)) + 4 * Z.of_nat m)
        with (4 * (weight v - (Z.of_nat k + lenz (d0 :: t0) + Z.of_nat m - (lenz (d0 :: t0) + Z.of_nat m)) + 1 - lenz (d0 :: t0))) by lia.
Qed.

Lemma strip_id v : stripped v -> strip v = v.
Proof.
  intro S. unfold strip. rewrite (drop_zeros_nz (digits v)) by apply S.
  rewrite (drop_zeros_nz (rev (digits v))).
  - rewrite rev_involutive. destruct v as [w s g ds]. cbn [digits weight dscale sign] in *.
    unfold ndigits. cbn [digits]. destruct ds as [|d t].
    + destruct (st_zero _ S eq_refl) as [A B]. cbn in A, B. now subst.
    + f_equal. lia.
  - intros d t E. apply (st_last v S d (rev t)).
    rewrite <- (rev_involutive (digits v)), E. reflexivity.
Qed.

(** strip never raises the weight of a non-zero variable *)
Lemma strip_weight v : digits (strip v) <> [] -> weight (strip v) <= weight v.
Proof.
  unfold strip. destruct (drop_zeros_split (digits v)) as [k E1].
  set (lead := drop_zeros (digits v)) in *.
  assert (L : ndigits v = Z.of_nat k + lenz lead).
  { unfold ndigits. rewrite E1, lenz_app, lenz_repeat. reflexivity. }
  destruct (rev (drop_zeros (rev lead))) as [|d t] eqn:E; cbn [digits weight]; intro N.
  - congruence.
  - lia.
Qed.

Lemma strip_weight_lb v : Forall dig (digits v) -> digits (strip v) <> [] ->
  weight v - ndigits v < weight (strip v).
Proof.
  intro D. unfold strip. destruct (drop_zeros_split (digits v)) as [k E1].
  set (lead := drop_zeros (digits v)) in *.
  assert (L : ndigits v = Z.of_nat k + lenz lead).
  { unfold ndigits. rewrite E1, lenz_app, lenz_repeat. reflexivity. }
  destruct (rev (drop_zeros (rev lead))) as [|d t] eqn:E; cbn [digits weight]; intro N.
  - congruence.
  - assert (1 <= lenz lead); [|lia].
    destruct lead; [discriminate E|]. rewrite lenz_cons. pose proof (lenz_nonneg lead). lia.
Qed.
