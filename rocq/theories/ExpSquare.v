(** * ExpSquare: squaring back (var.rs 2003-2008), and the error of exp as a whole. *)
From Coq Require Import Reals Qreals Lra Lia ZArith QArith Qabs List Bool.
From Verif Require Import Base Var Flt Transc Spec SpecRoot QDec Digits Arith Strip Round AddSub Signed Make Api2 Sqrt DivFast
  LnOps LnSqrt LnQR LnRed LnSeries LnSig ExpReal ExpRed ExpSeries.
Import ListNotations.
Open Scope R_scope.

Lemma rel_ln a b e : 0 < b -> 0 <= e <= 1 / 100 -> Rabs (a - b) <= e * b -> 0 < a /\ Rabs (ln a - ln b) <= 102 / 100 * e.
Proof.
  intros B E H. apply Rabs_between in H.
  assert (L : b * (1 - e) <= a) by lra. assert (U : a <= b * (1 + e)) by lra.
  assert (P0 : 0 < b * (1 - e)) by (apply Rmult_lt_0_compat; lra). assert (A : 0 < a) by lra. split; [exact A|].
  pose proof (ln_mono _ _ P0 L) as H1. pose proof (ln_mono _ _ A U) as H2. rewrite ln_mult in H1, H2 by lra.
  pose proof (ln_up (1 + e) ltac:(lra)) as H3. pose proof (ln_low (1 - e) ltac:(lra)) as H4.
  assert (H5 : / (1 - e) <= 1 + e * (102 / 100)).
  { apply (Rmult_le_reg_l (1 - e)); [lra|]. rewrite Rinv_r by lra.
    assert (0 <= e * (2 / 100 - e * (102 / 100))) by (apply Rmult_le_pos; lra). lra. }
  apply Rabs_le. lra.
Qed.

Lemma ln_weight_range v : semi v -> digits v <> [] -> 0 < rv v -> IZR (4 * weight v) * ln 10 <= ln (rv v) /\
  ln (rv v) < IZR (4 * (weight v + 1)) * ln 10.
Proof.
  intros S N P. destruct (semi_range v S N) as [A B]. apply Qle_Rle in A. apply Qlt_Rlt in B.
  rewrite Q2R_abs, Q2R_p10 in A, B. fold (rv v) in A, B. rewrite Rabs_pos_eq in A, B by lra.
  split; rewrite <- ln_e10.
  - apply ln_mono; [apply e10_pos|exact A].
  - apply ln_increasing; [exact P|exact B].
Qed.
Lemma pos_digits v : semi v -> 0 < rv v -> digits v <> [].
Proof. intros S P E. rewrite (rv_eq _ _ (vval_empty v E)), RMicromega.Q2R_0 in P. lra. Qed.

(** bounds on the weight from the logarithm *)
Lemma weight_ln v l k : semi v -> 0 < rv v -> Rabs (ln (rv v)) <= l -> (0 <= k)%Z -> l <= 92 / 10 * IZR k -> (- k - 1 <= weight v <= k)%Z.
Proof.
  intros S P H K L. destruct (ln_weight_range v S (pos_digits v S P) P) as [A B]. apply Rabs_between in H.
  pose proof ln_10_range as R. rewrite mult_IZR in A, B. assert (K0 : 0 <= IZR k) by (apply IZR_le; lia). split.
  - destruct (Z_le_gt_dec (- k - 1) (weight v)) as [G|G]; [exact G|exfalso].
    assert (G2 : IZR (weight v + 1) <= - IZR k - 1).
    { replace (- IZR k - 1) with (IZR (- k - 1)) by (rewrite minus_IZR, opp_IZR; reflexivity). apply IZR_le. lia. }
    assert (4 * IZR (weight v + 1) * ln 10 <= 4 * (- IZR k - 1) * (23 / 10)); [|lra].
    assert (0 <= (- IZR k - 1 - IZR (weight v + 1)) * ln 10) by (apply Rmult_le_pos; lra).
    assert (0 <= (IZR k + 1) * (ln 10 - 23 / 10)) by (apply Rmult_le_pos; lra). lra.
  - destruct (Z_le_gt_dec (weight v) k) as [G|G]; [exact G|exfalso].
    assert (G2 : IZR k + 1 <= IZR (weight v)).
    { replace (IZR k + 1) with (IZR (k + 1)) by (rewrite plus_IZR; reflexivity). apply IZR_le. lia. }
    assert (4 * (IZR k + 1) * (23 / 10) <= 4 * IZR (weight v) * ln 10); [|lra].
    assert (0 <= (IZR (weight v) - (IZR k + 1)) * ln 10) by (apply Rmult_le_pos; lra).
    assert (0 <= (IZR k + 1) * (ln 10 - 23 / 10)) by (apply Rmult_le_pos; lra). lra.
Qed.

Definition sq_scale (sig : Z) (v : var) : Z := Z.max (sig - weight v * 2 * DEC_DIGITS) NUMERIC_MIN_DISPLAY_SCALE.

Lemma square_step c v sig : (8 <= sig <= 3700)%Z -> tidy v -> 0 < rv v -> (ndigits v <= 4103)%Z -> Rabs (ln (rv v)) <= 6002 ->
  exists r, mul_common c v v (sq_scale sig v) = Ret r /\ tidy r /\ 0 < rv r /\ (ndigits r <= 4103)%Z /\
    Rabs (ln (rv r) - 2 * ln (rv v)) <= 93 / 100 * e10 (- sig).
Proof.
  intros Hs T P N L. pose proof (weight_ln v 6002 653 (proj1 T) P L ltac:(lia) ltac:(lra)) as W.
  set (s := sq_scale sig v). assert (Es : s = Z.max (sig - 8 * weight v) 0) by (unfold s, sq_scale, DEC_DIGITS, NUMERIC_MIN_DISPLAY_SCALE; lia).
  destruct (mul_op c v v s 4104 (proj1 T) (proj1 T) ltac:(lia) ltac:(lia)) as (r & E & O).
  exists r. split; [exact E|]. pose proof (off_item _ _ _ _ O) as I. split; [apply I|].
  apply off_by_R in O. rewrite Q2R_mult in O. fold (rv v) in O.
  replace (Q2R ((1 # 2) + inject_Z 4104 * (1 # 10000))) with (9104 / 10000) in O.
  2:{ rewrite Q2R_plus, Q2R_mult. unfold Q2R. cbn. lra. }
  destruct (ln_weight_range v (proj1 T) (pos_digits v (proj1 T) P) P) as [A _].
  assert (A2 : e10 (4 * weight v) <= rv v).
  { rewrite <- (exp_ln (rv v) P), <- (exp_ln (e10 (4 * weight v)) (e10_pos _)). apply exp_mono. rewrite ln_e10. exact A. }
  assert (A3 : e10 (8 * weight v) <= rv v * rv v).
  { replace (8 * weight v)%Z with (4 * weight v + 4 * weight v)%Z by lia. rewrite e10_add. pose proof (e10_pos (4 * weight v)).
    apply Rmult_le_compat; lra. }
  assert (A4 : e10 (- s) <= e10 (- sig) * (rv v * rv v)).
  { apply (Rle_trans _ (e10 (- sig) * e10 (8 * weight v))).
    - rewrite <- e10_add. apply e10_le. lia.
    - apply Rmult_le_compat_l; [left; apply e10_pos|exact A3]. }
  pose proof (e10_small sig ltac:(lia)) as U. set (u := e10 (- sig)) in *.
  assert (B0 : 0 < rv v * rv v) by (apply Rmult_lt_0_compat; exact P).
  destruct (rel_ln (rv r) (rv v * rv v) (9104 / 10000 * u) B0 ltac:(lra)) as [Pr Lr]; [lra|].
  rewrite ln_mult in Lr by exact P. replace (ln (rv v) + ln (rv v)) with (2 * ln (rv v)) in Lr by ring.
  split; [exact Pr|]. split; [|lra].
  assert (Br : Rabs (ln (rv r)) <= 12005).
  { replace (ln (rv r)) with ((ln (rv r) - 2 * ln (rv v)) + 2 * ln (rv v)) by ring. eapply Rle_trans; [apply Rabs_triang|].
    rewrite (Rabs_mult 2), (Rabs_pos_eq 2) by lra. lra. }
  pose proof (weight_ln r 12005 1305 (proj1 (it_tidy _ _ I)) Pr Br ltac:(lia) ltac:(lra)) as Wr.
  pose proof (tidy_len r s (it_tidy _ _ I) (it_mult _ _ I) ltac:(lia)). lia.
Qed.

Lemma exp_square_spec c sig : (8 <= sig <= 3700)%Z -> forall k v t d, tidy v -> 0 < rv v -> (ndigits v <= 4103)%Z ->
  0 <= d -> Rabs (ln (rv v) - t) <= d -> 2 ^ k * (Rabs t + d + 93 / 100 * e10 (- sig)) <= 6002 ->
  exists r, exp_square c k v sig = Ret r /\ tidy r /\ 0 < rv r /\ Rabs (ln (rv r) - 2 ^ k * t) <= 2 ^ k * (d + 93 / 100 * e10 (- sig)).
Proof.
  intro Hs. pose proof (e10_pos (- sig)) as U. set (u := e10 (- sig)) in *.
  induction k as [|k IH]; intros v t d T P N D H B; cbn [exp_square pow] in *.
  - exists v. split; [reflexivity|]. split; [exact T|]. split; [exact P|]. replace (1 * t) with t by ring. lra.
  - fold (sq_scale sig v). pose proof (Rabs_pos t) as P0.
    assert (K1 : 1 <= 2 ^ k) by (apply pow_R1_Rle; lra).
    assert (Bv : Rabs (ln (rv v)) <= 6002).
    { replace (ln (rv v)) with ((ln (rv v) - t) + t) by ring. eapply Rle_trans; [apply Rabs_triang|].
      assert (1 * (Rabs t + d + 93 / 100 * u) <= 2 * 2 ^ k * (Rabs t + d + 93 / 100 * u)) by (apply Rmult_le_compat_r; lra). lra. }
    destruct (square_step c v sig Hs T P N Bv) as (r & -> & Tr & Pr & Nr & Lr). cbn [bind]. fold u in Lr.
    destruct (IH r (2 * t) (2 * d + 93 / 100 * u) Tr Pr Nr) as (r' & E & Tr' & Pr' & Lr'); [lra| | |].
    + replace (ln (rv r) - 2 * t) with ((ln (rv r) - 2 * ln (rv v)) + 2 * (ln (rv v) - t)) by ring.
      eapply Rle_trans; [apply Rabs_triang|]. rewrite (Rabs_mult 2 (_ - _)), (Rabs_pos_eq 2) by lra. lra.
    + rewrite Rabs_mult, (Rabs_pos_eq 2) by lra. lra.
    + exists r'. split; [exact E|]. split; [exact Tr'|]. split; [exact Pr'|].
      replace (2 * 2 ^ k * t) with (2 ^ k * (2 * t)) by ring.
      eapply Rle_trans; [exact Lr'|]. right. ring.
Qed.
