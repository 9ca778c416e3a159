(** * LnRed: the range reduction of the logarithm (var.rs 1780-1791). *)
From Coq Require Import Reals Qreals Lra Lia ZArith QArith Qabs List Bool.
From Verif Require Import Base Var Flt Transc Spec SpecRoot QDec Digits Arith Strip Round AddSub Signed Make Api2 Sqrt LnOps LnSqrt LnQR.
Import ListNotations.
Open Scope R_scope.

Lemma arg_rv x : arg x -> 0 < rv x.
Proof. intro A. apply Q2R_pos. apply A. Qed.

(** [fact] is 2^(k+1) *)
Definition pow2 (k : nat) (fact : var) : Prop :=
  stripped fact /\ dscale fact = 0%Z /\ (vval fact == inject_Z (2 ^ (Z.of_nat k + 1)))%Q.

Lemma two_st : stripped TWO.
Proof.
  constructor; cbn; try discriminate.
  - repeat constructor; unfold dig; lia.
  - intros d t E. injection E as <- _. lia.
  - intros d t E. destruct t as [|? [|? ?]]; cbn in E; [injection E as <-; lia|discriminate..].
Qed.
Lemma two_val : (vval TWO == 2)%Q.
Proof. vm_compute. reflexivity. Qed.

Lemma pow2_0 : pow2 0 TWO.
Proof. split; [apply two_st|]. split; [reflexivity|]. exact two_val. Qed.

Lemma pow2_S c k fact : pow2 k fact -> exists r, mul_common c fact TWO 0 = Ret r /\ pow2 (S k) r.
Proof.
  intros (T & D & V).
  assert (N : digits fact <> []).
  { intro E. rewrite (vval_empty fact E) in V. change 0%Q with (inject_Z 0) in V.
    apply (proj1 (inject_Z_inj _ _)) in V. pose proof (Z.pow_pos_nonneg 2 (Z.of_nat k + 1)). lia. }
  destruct (mul_exact c fact TWO 0 0 T two_st N ltac:(discriminate) ltac:(lia) ltac:(lia)) as (r & E & Tr & Dr & Vr).
  { apply (mult_comp _ _ _ (Qeq_sym _ _ V)). apply mult_Z. lia. }
  { apply (mult_comp _ _ _ (Qeq_sym _ _ two_val)). apply (mult_Z 2). lia. }
  exists r. split; [exact E|]. split; [exact Tr|]. split; [exact Dr|].
  rewrite Vr, V, two_val. change 2%Q with (inject_Z 2). rewrite <- inject_Z_mult.
  replace (Z.of_nat (S k) + 1)%Z with (Z.of_nat k + 1 + 1)%Z by lia. rewrite (Z.pow_add_r 2 (Z.of_nat k + 1) 1) by lia. reflexivity.
Qed.

(** After [k] square roots of a number with logarithm [la]. *)
Record reduced (la : R) (S : Z) (k : nat) (x fact : var) : Prop := {
  re_arg : arg x;
  re_fact : pow2 k fact;
  re_err : Rabs (ln (rv x) - la / 2 ^ k) <= 102 / 100 * e10 (- S);
  re_count : k = O \/ 2 ^ k <= 225 / 10 * Rabs la
}.

Lemma e10_small S : (8 <= S)%Z -> 0 < e10 (- S) <= / 100000000.
Proof. intro H. split; [apply e10_pos|]. rewrite <- e10_m8. apply e10_le. lia. Qed.

Lemma reduced_step la S k x r : (8 <= S)%Z ->
  Rabs (ln (rv x) - la / 2 ^ k) <= 102 / 100 * e10 (- S) -> 9 / 100 < Rabs (ln (rv x)) ->
  Rabs (ln (rv r) - ln (rv x) / 2) <= 51 / 100 * e10 (- S) ->
  Rabs (ln (rv r) - la / 2 ^ Datatypes.S k) <= 102 / 100 * e10 (- S) /\ 2 ^ Datatypes.S k <= 225 / 10 * Rabs la.
Proof.
  intros HS H1 H2 H3. pose proof (e10_small S HS) as U. pose proof (pow_lt 2 k ltac:(lra)) as P.
  assert (E : la / 2 ^ Datatypes.S k = (la / 2 ^ k) / 2) by (cbn [pow]; field; lra).
  split.
  - rewrite E. replace (ln (rv r) - la / 2 ^ k / 2) with ((ln (rv r) - ln (rv x) / 2) + (ln (rv x) - la / 2 ^ k) / 2) by (unfold Rdiv; ring).
    eapply Rle_trans; [apply Rabs_triang|].
    assert (Rabs ((ln (rv x) - la / 2 ^ k) / 2) <= 51 / 100 * e10 (- S)).
    { unfold Rdiv at 1. rewrite Rabs_mult, (Rabs_pos_eq (/ 2)) by lra. lra. }
    lra.
  - assert (A : 8999 / 100000 <= Rabs (la / 2 ^ k)).
    { pose proof (Rabs_triang_inv (ln (rv x)) (la / 2 ^ k)) as T. lra. }
    unfold Rdiv in A at 2. rewrite Rabs_mult, (Rabs_pos_eq (/ 2 ^ k)) in A by (left; now apply Rinv_0_lt_compat).
    apply (Rmult_le_compat_r (2 ^ k)) in A; [|lra]. rewrite Rmult_assoc, Rinv_l, Rmult_1_r in A by lra.
    cbn [pow]. lra.
Qed.

Lemma ln_reduce_S c f sf keep x fact rscale :
  ln_reduce c (S f) sf keep x fact rscale =
  (b <- keep x ;;
   if (b : bool) then
     x' <- sqrt_common c sf x (Z.max (rscale - Z.quot (weight x * DEC_DIGITS) 2 + 8) NUMERIC_MIN_DISPLAY_SCALE) ;;
     fact' <- mul_common c fact TWO 0 ;;
     ln_reduce c f sf keep x' fact' rscale
   else Ret (x, fact)).
Proof. reflexivity. Qed.

Lemma local_scale rscale w :
  Z.max (rscale - Z.quot (w * DEC_DIGITS) 2 + 8) NUMERIC_MIN_DISPLAY_SCALE = Z.max (rscale + 8 - 2 * w) 0.
Proof.
  change DEC_DIGITS with 4%Z. change NUMERIC_MIN_DISPLAY_SCALE with 0%Z.
  replace (w * 4)%Z with (2 * w * 2)%Z by ring. rewrite Z.quot_mul by lia. lia.
Qed.

Lemma reduce_spec c sf keep rscale la (P : var -> Prop) : (0 <= rscale <= 8000)%Z ->
  (forall x, arg x -> exists b, keep x = Ret b /\ (b = true -> 9 / 100 < Rabs (ln (rv x)))) ->
  (forall x r, arg x -> arg r -> keep x = Ret true -> Rabs (ln (rv r) - ln (rv x) / 2) <= 51 / 100 * e10 (- (rscale + 8)) -> P r) ->
  forall fuel k x fact, reduced la (rscale + 8) k x fact -> P x ->
  let o := ln_reduce c fuel sf keep x fact rscale in
  o = Diverge \/ (o = Panic WArith /\ dbg c = true) \/
  (exists k' x' fact', o = Ret (x', fact') /\ reduced la (rscale + 8) k' x' fact' /\ P x' /\ keep x' = Ret false).
Proof.
  intros HR HK HP. induction fuel as [|f IH]; intros k x fact R Px o; subst o; [now left|].
  rewrite ln_reduce_S. destruct (HK x (re_arg _ _ _ _ _ R)) as (b & Eb & Hb). rewrite Eb. cbn [bind].
  destruct b.
  2:{ right. right. exists k, x, fact. auto. }
  rewrite local_scale. pose proof (re_arg _ _ _ _ _ R) as A.
  pose proof (ag_wt _ A) as W.
  destruct (sqrt_op c sf x (rscale + 8) (Z.max (rscale + 8 - 2 * weight x) 0) A ltac:(lia) eq_refl ltac:(lia))
    as [->|[[-> D]|(r & -> & Ar & Cr)]]; cbn [bind]; [now left|right; left; now split|].
  destruct (pow2_S c k fact (re_fact _ _ _ _ _ R)) as (fact' & -> & F'). cbn [bind].
  assert (H3 : Rabs (ln (rv r) - ln (rv x) / 2) <= 51 / 100 * e10 (- (rscale + 8))).
  { apply (close_root_ln _ _ (weight x) (rscale + 8) (Z.max (rscale + 8 - 2 * weight x) 0)); auto; try lia.
    - apply (arg_range x A).
    - apply Ar. }
  destruct (reduced_step la (rscale + 8) k x r ltac:(lia) (re_err _ _ _ _ _ R) (Hb eq_refl) H3) as [E1 E2].
  apply (IH (S k)); [|now apply (HP x r)].
  constructor; auto.
Qed.

(** The two loop conditions *)
Lemma cmp_const c x y : arg x -> stripped y ->
  exists s, cmp_common c x y = Ret s /\ ((s = 0%Z /\ rv x = rv y) \/ (s = 1%Z /\ rv y < rv x) \/ (s = (-1)%Z /\ rv x < rv y)).
Proof.
  intros A T. pose proof (ag_semi _ A) as Sx. pose proof (stripped_semi _ T) as Sy.
  destruct (cmp_common_spec c x y (sm_digits _ Sx) (sm_digits _ Sy) (sm_nan _ Sx) (sm_nan _ Sy) (semi_nze _ Sx) (semi_nze _ Sy)) as (s & E & H).
  exists s. split; [exact E|]. destruct H as [[-> H]|[[-> H]|[-> H]]].
  - left. split; [reflexivity|]. now apply Qeq_eqR.
  - right. left. split; [reflexivity|]. now apply Qlt_Rlt.
  - right. right. split; [reflexivity|]. now apply Qlt_Rlt.
Qed.

Lemma nine_st : stripped ZERO_POINT_NINE.
Proof.
  constructor; cbn; try discriminate.
  - repeat constructor; unfold dig; lia.
  - intros d t E. injection E as <- _. lia.
  - intros d t E. destruct t as [|? [|? ?]]; cbn in E; [injection E as <-; lia|discriminate..].
Qed.
Lemma eleven_st : stripped ONE_POINT_ONE.
Proof.
  constructor; cbn; try discriminate.
  - repeat constructor; unfold dig; lia.
  - intros d t E. injection E as <- _. lia.
  - intros d t E. destruct t as [|? [|? [|? ?]]]; cbn in E; try discriminate; injection E as _ <-; lia.
Qed.
Lemma rv_nine : rv ZERO_POINT_NINE = 9 / 10.
Proof. unfold rv. rewrite (Qeq_eqR _ (9 # 10)) by (vm_compute; reflexivity). unfold Q2R. cbn. lra. Qed.
Lemma rv_eleven : rv ONE_POINT_ONE = 11 / 10.
Proof. unfold rv. rewrite (Qeq_eqR _ (11 # 10)) by (vm_compute; reflexivity). unfold Q2R. cbn. lra. Qed.

Definition keep_low (c : cfg) : var -> outcome bool := fun x => s <- cmp_common c x ZERO_POINT_NINE ;; Ret (s <=? 0)%Z.
Definition keep_high (c : cfg) : var -> outcome bool := fun x => s <- cmp_common c x ONE_POINT_ONE ;; Ret (0 <=? s)%Z.

Lemma keep_low_spec c x : arg x ->
  (keep_low c x = Ret true /\ rv x <= 9 / 10) \/ (keep_low c x = Ret false /\ 9 / 10 < rv x).
Proof.
  intro A. unfold keep_low. destruct (cmp_const c x _ A nine_st) as (s & -> & H). rewrite rv_nine in H. cbn [bind].
  destruct H as [[-> H]|[[-> H]|[-> H]]]; cbn; [left|right|left]; (split; [reflexivity|lra]).
Qed.
Lemma keep_high_spec c x : arg x ->
  (keep_high c x = Ret true /\ 11 / 10 <= rv x) \/ (keep_high c x = Ret false /\ rv x < 11 / 10).
Proof.
  intro A. unfold keep_high. destruct (cmp_const c x _ A eleven_st) as (s & -> & H). rewrite rv_eleven in H. cbn [bind].
  destruct H as [[-> H]|[[-> H]|[-> H]]]; cbn; [left|left|right]; (split; [reflexivity|lra]).
Qed.

Lemma ln_nine x : 0 < x <= 9 / 10 -> ln x <= - (1 / 10).
Proof. intro H. pose proof (ln_up x ltac:(lra)). lra. Qed.
Lemma ln_eleven x : 11 / 10 <= x -> 90909 / 1000000 <= ln x.
Proof.
  intro H. pose proof (ln_low x ltac:(lra)). assert (/ x <= / (11 / 10)) by (apply Rinv_le_contravar; lra). lra.
Qed.

(** Both loops *)
Theorem both_loops c fuel v rscale : arg v -> (0 <= rscale <= 8000)%Z ->
  let o := ('(x, fact) <- ln_reduce c fuel fuel (keep_low c) v TWO rscale ;;
            ln_reduce c fuel fuel (keep_high c) x fact rscale) in
  o = Diverge \/ (o = Panic WArith /\ dbg c = true) \/
  (exists k x fact, o = Ret (x, fact) /\ reduced (ln (rv v)) (rscale + 8) k x fact /\ 9 / 10 < rv x < 11 / 10).
Proof.
  intros A HR. cbv zeta.
  assert (R0 : reduced (ln (rv v)) (rscale + 8) 0 v TWO).
  { constructor; auto using pow2_0. cbn [pow]. replace (ln (rv v) - ln (rv v) / 1) with 0 by field. rewrite Rabs_R0.
    pose proof (e10_pos (- (rscale + 8))). lra. }
  destruct (reduce_spec c fuel (keep_low c) rscale (ln (rv v)) (fun _ => True) HR) with (fuel := fuel) (k := O) (x := v) (fact := TWO)
    as [->|[[-> D]|(k & x & fact & -> & R1 & _ & K1)]]; auto.
  { intros x Ax. destruct (keep_low_spec c x Ax) as [[E H]|[E H]]; rewrite E.
    - exists true. split; [reflexivity|]. intros _. pose proof (arg_rv x Ax). pose proof (ln_nine (rv x) ltac:(lra)).
      rewrite Rabs_left; lra.
    - exists false. split; [reflexivity|discriminate]. }
  cbn [bind].
  assert (L9 : 9 / 10 < rv x).
  { destruct (keep_low_spec c x (re_arg _ _ _ _ _ R1)) as [[E _]|[_ H]]; [congruence|exact H]. }
  destruct (reduce_spec c fuel (keep_high c) rscale (ln (rv v)) (fun x => 9 / 10 < rv x) HR) with (fuel := fuel) (k := k) (x := x) (fact := fact)
    as [->|[[-> D]|(k' & x' & fact' & -> & R2 & L9' & K2)]]; auto.
  { intros y Ay. destruct (keep_high_spec c y Ay) as [[E H]|[E H]]; rewrite E.
    - exists true. split; [reflexivity|]. intros _. pose proof (ln_eleven (rv y) H). rewrite Rabs_pos_eq; lra.
    - exists false. split; [reflexivity|discriminate]. }
  { intros y r Ay Ar Ey Hr. destruct (keep_high_spec c y Ay) as [[_ H]|[E _]]; [|congruence].
    pose proof (ln_eleven (rv y) H) as H1. pose proof (e10_small (rscale + 8) ltac:(lia)) as U.
    apply Rabs_between in Hr. pose proof (arg_rv r Ar) as Pr.
    assert (0 < ln (rv r)) by lra. pose proof (ln_up (rv r) Pr). lra. }
  right. right. exists k', x', fact'. split; [reflexivity|]. split; [exact R2|]. split; [exact L9'|].
  destruct (keep_high_spec c x' (re_arg _ _ _ _ _ R2)) as [[E _]|[_ H]]; [congruence|exact H].
Qed.
