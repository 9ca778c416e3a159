(** * ExpApi: domain, trivial values and overflow of ln, log and exp at the public entry points. *)
From Coq Require Import ZArith QArith Qabs List Bool Lia Lqa.
From Verif Require Import Base Var Binary Num Flt Transc Spec SpecApi SpecFloat QDec Digits Arith Strip
  Round Trunc AddSub Signed Codec Make Api1 Api2 PowLoop PowApi MulNear LogApi.
Import ListNotations.
Open Scope Z_scope.

Lemma two_st : stripped TWO.
Proof.
  constructor; cbn [TWO digits weight sign].
  - constructor; [unfold dig; lia|constructor].
  - intros d t E. injection E as <- <-. lia.
  - intros d p E. destruct p as [|? [|]]; try discriminate E. injection E as <-. lia.
  - discriminate.
  - discriminate.
Qed.
Lemma ten_st : stripped TEN.
Proof.
  constructor; cbn [TEN digits weight sign].
  - constructor; [unfold dig; lia|constructor].
  - intros d t E. injection E as <- <-. lia.
  - intros d p E. destruct p as [|? [|]]; try discriminate E. injection E as <-. lia.
  - discriminate.
  - discriminate.
Qed.

Definition log_message (q : Q) : msg := if Qeq_bool q 0 then MLogZero else MLogNeg.

Lemma Qeq_bool_comp p q : (p == q)%Q -> Qeq_bool p 0 = Qeq_bool q 0.
Proof. intro E. destruct (Qeq_bool q 0) eqn:K; [apply Qeq_bool_iff in K; apply Qeq_bool_iff; lra|]. apply not_true_is_false. intro K'. apply Qeq_bool_iff in K'. rewrite E in K'. apply Qeq_bool_iff in K'. congruence. Qed.

Theorem ln_api_domain c m fuel x q s : stores (be_varlen c) x q s -> (q <= 0)%Q ->
  num_ln c m fuel x = Panic (WMsg (log_message q)) /\ num_log2 c m fuel x = Panic (WMsg (log_message q)) /\
  num_log10 c m fuel x = Panic (WMsg (log_message q)).
Proof.
  intros H Q. destruct (stores_elim _ _ _ _ H) as (v & C & -> & V & _). pose proof (canon_storable v C) as St. pose proof (cn_st v C) as T.
  rewrite <- V in Q. unfold num_ln, num_log2, num_log10. rewrite (num_is_nan_spec c v St). cbn [bind]. rewrite (as_var_spec c v St). cbn [bind].
  rewrite (ln_domain c m fuel v T Q), (log_domain c m fuel v TWO T two_st (or_introl Q)), (log_domain c m fuel v TEN T ten_st (or_introl Q)).
  unfold log_message. rewrite (Qeq_bool_comp _ _ V). cbn [bind].
  destruct (Qlt_le_dec 0 (vval v)) as [K|K]; [exfalso; lra|]. repeat split.
Qed.

Theorem log_api_domain c m fuel x q s b p sb : stores (be_varlen c) x q s -> stores (be_varlen c) b p sb ->
  (q <= 0)%Q \/ (p <= 0)%Q ->
  num_log c m fuel x b = Panic (WMsg (if Qlt_le_dec 0 q then log_message p else log_message q)).
Proof.
  intros H1 H2 Q. destruct (stores_elim _ _ _ _ H1) as (v & C & -> & V & _). pose proof (canon_storable v C) as St. pose proof (cn_st v C) as T.
  destruct (stores_elim _ _ _ _ H2) as (w & C' & -> & V' & _). pose proof (canon_storable w C') as St'. pose proof (cn_st w C') as T'.
  rewrite <- V, <- V' in Q. unfold num_log. rewrite (num_is_nan_spec c v St), (num_is_nan_spec c w St'). cbn [bind].
  rewrite (as_var_spec c v St). cbn [bind]. rewrite (as_var_spec c w St'). cbn [bind]. rewrite (log_domain c m fuel v w T T' Q). cbn [bind].
  unfold log_message. rewrite (Qeq_bool_comp _ _ V), (Qeq_bool_comp _ _ V').
  destruct (Qlt_le_dec 0 (vval v)) as [K|K], (Qlt_le_dec 0 q) as [K'|K']; try reflexivity; exfalso; lra.
Qed.

Theorem log_api_base_one c m fuel x b sb y : valid (be_varlen c) x -> stores (be_varlen c) b 1 sb ->
  ~ stores_nan (be_varlen c) x -> num_log c m fuel x b <> Ret y.
Proof.
  intros [N|(q & s & H1)] H2 NN; [contradiction|]. destruct (stores_elim _ _ _ _ H1) as (v & C & -> & V & _). pose proof (canon_storable v C) as St.
  destruct (stores_elim _ _ _ _ H2) as (w & C' & -> & V' & _). pose proof (canon_storable w C') as St'.
  unfold num_log. rewrite (num_is_nan_spec c v St), (num_is_nan_spec c w St'). cbn [bind].
  rewrite (as_var_spec c v St). cbn [bind]. rewrite (as_var_spec c w St'). cbn [bind].
  rewrite (is_one w (cn_st w C') V'). pose proof (log_base_one c m fuel v (dscale w)) as K.
  destruct (log_var c m fuel v (one (dscale w))) as [r| | |]; [|discriminate..]. exfalso. apply (K r); [apply C'|reflexivity].
Qed.

Theorem ln_api_one c m f x s : stores (be_varlen c) x 1 s ->
  exists y, num_ln c m (S f) x = Ret y /\ stores (be_varlen c) y 0 (Z.min 1000 (Z.max 16 s)).
Proof.
  intros H. destruct (stores_elim _ _ _ _ H) as (v & C & -> & V & E). pose proof (canon_storable v C) as St.
  unfold num_ln. rewrite (num_is_nan_spec c v St). cbn [bind]. rewrite (as_var_spec c v St). cbn [bind].
  rewrite (is_one v (cn_st v C) V), E. assert (B : 0 <= s <= 16383) by (rewrite <- E; apply C). rewrite ln_var_one by exact B. cbn [bind].
  set (rs := Z.min 1000 (Z.max 16 s)) in *. assert (R : 0 <= rs <= 1000) by lia. clearbody rs.
  destruct (make_no_overflow_spec c (Var 0 rs SPos [])) as (b & Eb & Sb); cbn [digits sign dscale weight]; try constructor; try discriminate; try lia.
  { exists 0. rewrite vval_empty by reflexivity. ring. }
  exists b. split; [exact Eb|]. apply (stores_ext _ _ (vval (Var 0 rs SPos []))); [now apply vval_empty|exact Sb].
Qed.

(** ** exp *)
Lemma zero_expressible v : digits v = [] -> SpecDouble.expressible (vval v) (dscale v).
Proof. intro D. exists 0. rewrite (vval_empty v D). ring. Qed.

Lemma exp_var_zero c m f s q : float_sound m -> 0 <= s <= 16383 -> q = Var 0 s SPos [] ->
  exists r, exp_var c m (S f) q = Ret (Some r) /\ Forall dig (digits r) /\ sign r <> SNaN /\ dscale r = Z.min 1000 (Z.max 16 s) /\
    (vval r == 1)%Q /\ -1 <= weight r <= 1.
Proof.
  intros FS H ->. set (z := Var 0 s SPos []). assert (T : stripped z) by apply stripped_zero.
  destruct (fs_int m FS z 0 T (proj1 H) (zero_expressible z eq_refl) (vval_empty z eq_refl) ltac:(cbn; lia)) as (fz & Ef & Vf).
  assert (M0 : forall q, f2i (fmul fz q) = 0).
  { intro q. unfold fmul. assert (E : (fz * q == 0)%Q) by (rewrite Vf; ring).
    unfold fl. replace (Qnum (fz * q) =? 0) with true; [reflexivity|]. symmetry. apply Z.eqb_eq. unfold Qeq in E. cbn [Qnum Qden] in E. lia. }
  assert (A0 : (Qabs fz == 0)%Q) by (rewrite Vf; reflexivity).
  unfold exp_var. rewrite (nan_ok c z) by discriminate. cbn [bind]. rewrite Ef. cbn [expect bind]. cbv zeta.
  assert (N : (fmul fz LOG10_E == 0)%Q).
  { unfold fmul. assert (E : (fz * LOG10_E == 0)%Q) by (rewrite Vf; ring). unfold fl. replace (Qnum (fz * LOG10_E) =? 0) with true; [reflexivity|].
    symmetry. apply Z.eqb_eq. unfold Qeq in E. cbn [Qnum Qden] in E. lia. }
  replace (Qle_bool (-2000) (fmul fz LOG10_E)) with true by (symmetry; apply Qle_bool_iff; rewrite N; lra).
  replace (Qle_bool (fmul fz LOG10_E) 2000) with true by (symmetry; apply Qle_bool_iff; rewrite N; lra). cbv iota.
  rewrite M0. change NUMERIC_MIN_SIG_DIGITS with 16. change (16 - 0) with 16. change (dscale z) with s. unfold clamp_scale.
  change NUMERIC_MIN_DISPLAY_SCALE with 0. change NUMERIC_MAX_DISPLAY_SCALE with 1000.
  replace (Z.min (Z.max (Z.max 16 s) 0) 1000) with (Z.min 1000 (Z.max 16 s)) by lia.
  set (rs := Z.min 1000 (Z.max 16 s)). assert (R : 16 <= rs <= 1000) by (unfold rs; lia). clearbody rs.
  unfold exp_common. rewrite (nan_ok c z) by discriminate. cbn [bind]. rewrite Ef. cbn [expect bind].
  replace (Qle_bool 6000 (Qabs fz)) with false.
  2:{ symmetry. apply not_true_is_false. intro K. apply Qle_bool_iff in K. rewrite A0 in K. lra. }
  cbv zeta. replace (Qle_bool (Qabs fz) (fl (1 # 100))) with true.
  2:{ symmetry. apply Qle_bool_iff. rewrite A0. vm_compute. discriminate. }
  cbn [negb]. cbv iota. cbn [bind]. rewrite M0.
  replace (f2i (fmul (inject_Z 0) LOG10_2)) with 0 by (vm_compute; reflexivity).
  replace (Z.max (1 + 0 + rs + 0) 0 + 8 - 1) with (rs + 8) by lia.
  destruct (add_common_spec c ONE z) as (r1 & E1 & A1); try discriminate; try exact (one_st 0 : stripped ONE).
  { exact (st_digits _ (one_st 0)). } { constructor. } { change (dscale ONE) with 0. change (dscale z) with s. lia. }
  rewrite E1. cbn [bind]. rewrite mul_zero by (try discriminate; now left). rewrite zero_scaled_ok by lia. cbn [bind].
  change (div_fast_common c {| weight := 0; dscale := rs + 8; sign := SPos; digits := [] |} TWO (rs + 8) true)
    with (dassert c (negb (is_nan (Var 0 (rs + 8) SPos []))) ;;; dassert c (negb (is_nan TWO)) ;;; z <- zero_scaled c (rs + 8) ;; Ret (Some z)).
  rewrite (nan_ok c (Var 0 (rs + 8) SPos [])), (nan_ok c TWO) by discriminate. cbn [bind]. rewrite zero_scaled_ok by lia. cbn [bind expect exp_series].
  change (ndigits {| weight := 0; dscale := rs + 8; sign := SPos; digits := [] |} =? 0) with true. cbv iota. cbn [bind Z.to_nat exp_square].
  assert (V1 : (vval r1 == 1)%Q) by (rewrite (as_val _ _ _ A1), (vval_empty z eq_refl); reflexivity).
  destruct (round_common_spec c r1 rs (sm_digits _ (as_semi _ _ _ A1)) (sm_nan _ (as_semi _ _ _ A1))) as (r & Er & Rr). rewrite Er. cbn [bind].
  exists r. split; [reflexivity|]. split; [apply Rr|]. split; [apply Rr|]. split; [rewrite (rd_scale _ _ _ _ Rr); lia|].
  split.
  - rewrite (rd_val _ _ _ _ Rr). rewrite (round_at_comp _ _ _ V1). apply round_at_mult. exists (10 ^ rs). rewrite Qmult_1_l. apply p10_Z. lia.
  - assert (W : weight r1 = 0).
    { assert (D : digits r1 <> []) by (intro K; rewrite (vval_empty r1 K) in V1; discriminate V1).
      pose proof (semi_lb r1 (as_semi _ _ _ A1) D) as L. rewrite V1 in L. change (Qabs 1) with 1%Q in L.
      pose proof (mag_lt r1 (sm_digits _ (as_semi _ _ _ A1))) as U. rewrite V1 in U. change (Qabs 1) with 1%Q in U.
      rewrite <- p10_0 in L at 1. rewrite <- p10_0 in U at 1. apply (proj1 (p10_le_iff _ _)) in L. apply (proj1 (p10_lt_iff _ _)) in U. lia. }
    destruct (rd_weight _ _ _ _ Rr) as [K|[[K _]|[K _]]]; lia.
Qed.

Theorem exp_api_zero c m f x s : float_sound m -> stores (be_varlen c) x 0 s ->
  exists y, num_exp c m (S f) x = Ret (Some y) /\ stores (be_varlen c) y 1 (Z.min 1000 (Z.max 16 s)).
Proof.
  intros FS H. destruct (stores_elim _ _ _ _ H) as (v & C & -> & V & E). pose proof (canon_storable v C) as St.
  unfold num_exp. rewrite (num_is_nan_spec c v St). cbn [bind]. rewrite (as_var_spec c v St). cbn [bind].
  assert (B : 0 <= s <= 16383) by (rewrite <- E; apply C).
  assert (Z : v = Var 0 s SPos []).
  { apply stripped_unique; [apply C|apply stripped_zero|exact E|]. rewrite V. symmetry. now apply vval_empty. }
  destruct (exp_var_zero c m f s v FS B Z) as (r & Er & D & N & S & Vr & W). rewrite Er. cbn [bind make_result_opt].
  destruct (make_result_spec c r 1 (Z.min 1000 (Z.max 16 s))) as (o & Eo & [R _]); auto; try lia.
  { exists (10 ^ Z.min 1000 (Z.max 16 s)). rewrite Qmult_1_l. apply p10_Z. lia. }
  destruct R as (y & -> & Y). { change (Qabs 1) with 1%Q. rewrite limit_p10, <- p10_0. apply p10_lt. lia. }
  exists y. now split.
Qed.

Theorem exp_api_big c m fuel x q s : float_sound m -> stores (be_varlen c) x q s -> (6000 <= Qabs q)%Q ->
  num_exp c m fuel x = Ret None.
Proof.
  intros FS H Q. destruct (stores_elim _ _ _ _ H) as (v & C & -> & V & E). pose proof (canon_storable v C) as St.
  unfold num_exp. rewrite (num_is_nan_spec c v St). cbn [bind]. rewrite (as_var_spec c v St). cbn [bind].
  assert (Q' : (6000 <= Qabs (vval v))%Q) by now rewrite V.
  destruct (fs_big m FS v 6000 (cn_st v C) (proj1 (cn_scale v C)) (canon_mult v C) ltac:(vm_compute; split; discriminate) Q') as (f & Ef & Lf).
  unfold exp_var. rewrite (nan_ok c v (st_nan _ (cn_st v C))). cbn [bind]. rewrite Ef. cbn [expect bind]. cbv zeta.
  unfold exp_common. rewrite (nan_ok c v (st_nan _ (cn_st v C))). cbn [bind]. rewrite Ef. cbn [expect bind].
  replace (Qle_bool 6000 (Qabs f)) with true by (symmetry; now apply Qle_bool_iff). reflexivity.
Qed.
