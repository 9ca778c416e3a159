(** * ExpFin: accuracy of exp at the API (num.rs 843-859). *)
From Coq Require Import Reals Qreals Lra Lia ZArith QArith Qabs List Bool.
From Verif Require Import Base Var Binary Num Flt Transc Spec SpecApi SpecRoot SpecFloat QDec Digits Arith Strip Round AddSub Signed Codec Make Api2 Sqrt
  DivFast PowLoop LnOps LnSqrt LnQR LnRed LnSeries LnReal LnSig LnApi ExpReal ExpRed ExpSeries ExpSquare ExpAcc.
Import ListNotations.
Open Scope R_scope.

(** the conversion of an argument below 6000 *)
Lemma fs_below m v : float_sound m -> stripped v -> (0 <= dscale v)%Z -> SpecDouble.expressible (vval v) (dscale v) -> Rabs (rv v) < 6000 ->
  exists f, f_of_var m v = Some f /\ Rabs (Q2R f - rv v) <= 7 * / 1000000000000.
Proof.
  intros FS S Hd Hx H. assert (B : (Qabs (vval v) <= p10 300)%Q).
  { apply Rle_Qle. rewrite Q2R_abs, Q2R_p10. fold (rv v). assert (e10 4 <= e10 300) by (apply e10_le; lia).
    assert (E : e10 4 = 10000) by (unfold powerRZ; replace (Pos.to_nat 4) with 4%nat by reflexivity; cbn [pow]; ring). lra. }
  destruct (fs_near m FS v S Hd Hx B) as (f & E & K). exists f. split; [exact E|].
  change (ten ^ (-15))%Q with (p10 (-15)) in K. change (ten ^ (-300))%Q with (p10 (-300)) in K.
  apply Qabs_le_R in K. rewrite Q2R_minus, Q2R_plus, Q2R_mult, !Q2R_p10, Q2R_abs in K. fold (rv v) in K.
  assert (L : e10 (-300) <= e10 (-15)) by (apply e10_le; lia).
  assert (E15 : e10 (-15) = / 1000000000000000) by (unfold powerRZ; f_equal; replace (Pos.to_nat 15) with 15%nat by reflexivity; cbn [pow]; ring).
  rewrite E15 in *. lra.
Qed.

(** the scale chosen *)
Definition exp_scale (f : Q) (ds : Z) : Z :=
  let val := fmul f LOG10_E in
  let val := if Qle_bool (-2000) val then val else (-2000)%Q in
  let val := if Qle_bool val 2000 then val else 2000%Q in
  clamp_scale (Z.max (NUMERIC_MIN_SIG_DIGITS - f2i val) ds).

Lemma exp_scale_range f ds : (0 <= ds)%Z -> (Z.min 1000 ds <= exp_scale f ds <= 1000)%Z.
Proof.
  intro H. unfold exp_scale, clamp_scale. change NUMERIC_MIN_DISPLAY_SCALE with 0%Z. change NUMERIC_MAX_DISPLAY_SCALE with 1000%Z. lia.
Qed.

Lemma e10_15 : e10 15 = 1000000000000000.
Proof. unfold powerRZ. replace (Pos.to_nat 15) with 15%nat by reflexivity. cbn [pow]. ring. Qed.

Lemma exp_scale_digits f ds y : Rabs (Q2R f - y) <= / 1000000000 -> Rabs y <= 6000 ->
  exp_scale f ds = 1000%Z \/ 900000000000000 <= exp y * e10 (exp_scale f ds).
Proof.
  intros F Y. assert (F8 : Rabs (Q2R f - y) <= / 100000000) by lra. assert (Y1 : Rabs y <= 6030) by lra.
  pose proof (fmul_near f LOG10_E y 1 F8 LOG10_E_near Y1 ltac:(lra)) as N. rewrite Rmult_1_r in N. apply Rabs_between in N.
  pose proof (fmul_trunc f LOG10_E y 1 F8 LOG10_E_near Y1 ltac:(lra)) as T. rewrite Rmult_1_r in T. apply Rabs_between in T.
  unfold exp_scale. set (w := fmul f LOG10_E) in *. pose proof ln_10_range as R10.
  change NUMERIC_MIN_SIG_DIGITS with 16%Z. unfold clamp_scale. change NUMERIC_MIN_DISPLAY_SCALE with 0%Z. change NUMERIC_MAX_DISPLAY_SCALE with 1000%Z.
  destruct (Qle_bool (-2000) w) eqn:C1.
  2:{ left. change (if Qle_bool (-2000) 2000 then (-2000)%Q else 2000%Q) with (-2000)%Q. change (f2i (-2000)) with (-2000)%Z. lia. }
  destruct (Qle_bool w 2000) eqn:C2.
  - destruct (Z_le_gt_dec 1000 (Z.max (16 - f2i w) ds)) as [G|G]; [left; lia|right].
    set (s := Z.min (Z.max (Z.max (16 - f2i w) ds) 0) 1000). assert (Hs : (16 - f2i w <= s)%Z) by lia.
    assert (L : e10 (16 - f2i w) <= e10 s) by now apply e10_le.
    apply (Rle_trans _ (exp y * e10 (16 - f2i w))); [|apply Rmult_le_compat_l; [left; apply exp_pos|exact L]].
    rewrite e10_exp, <- exp_plus. apply (Rle_trans _ (e10 15 * exp (- (/ 10000)))).
    + rewrite e10_15. pose proof (exp_ineq1_le (- (/ 10000))). lra.
    + rewrite e10_exp, <- exp_plus. apply exp_mono. rewrite minus_IZR. lra.
  - right. assert (L : 2000 <= Q2R w).
    { destruct (Qlt_le_dec 2000 w) as [K|K]; [|apply Qle_bool_iff in K; congruence].
      apply Qlt_Rlt in K. replace (Q2R 2000) with 2000 in K by (unfold Q2R; cbn; lra). lra. }
    change (f2i 2000) with 2000%Z. set (s := Z.min (Z.max (Z.max (16 - 2000) ds) 0) 1000).
    assert (L1 : e10 0 <= e10 s) by (apply e10_le; unfold s; lia). change (e10 0) with 1 in L1.
    apply (Rle_trans _ (exp y * 1)); [|apply Rmult_le_compat_l; [left; apply exp_pos|exact L1]].
    assert (Ly : 15 * ln 10 <= y).
    { assert (2000 * (23 / 10) <= Q2R w * ln 10) by (apply Rmult_le_compat; lra). lra. }
    pose proof (exp_mono _ _ Ly) as X. rewrite <- (e10_exp 15), e10_15 in X. lra.
Qed.

Theorem exp_api c m fuel x q s : float_sound m -> stores (be_varlen c) x q s -> (Qabs q < 6000)%Q -> (4000 <= Z.of_nat fuel)%Z ->
  (num_exp c m fuel x = Ret None /\ 6000 - / 100000000000 <= Rabs (Q2R q)) \/
  (exists y r s', num_exp c m fuel x = Ret (Some y) /\ stores (be_varlen c) y r s' /\ (Z.min 1000 s <= s' <= 1000)%Z /\
     Rabs (Q2R r - exp (Q2R q)) <= 504 / 1000 * powerRZ 10 (- s') /\
     (s' = 1000%Z \/ 900000000000000 <= exp (Q2R q) * powerRZ 10 s')).
Proof.
  intros FS H Q Hf. destruct (stores_elim _ _ _ _ H) as (v & C & -> & V & E). pose proof (canon_storable v C) as St.
  pose proof (cn_st v C) as S. pose proof (cn_scale v C) as Sc.
  unfold num_exp. rewrite (num_is_nan_spec c v St). cbn [bind]. rewrite (as_var_spec c v St). cbn [bind].
  assert (Rq : Q2R q = rv v) by (symmetry; now apply rv_eq). rewrite Rq.
  assert (B : Rabs (rv v) < 6000).
  { rewrite <- Rq, <- Q2R_abs. apply Qlt_Rlt in Q. replace (Q2R 6000) with 6000 in Q by (unfold Q2R; cbn; lra). exact Q. }
  destruct (fs_below m v FS S (proj1 Sc) (canon_mult v C) B) as (f & Ef & F).
  unfold exp_var. rewrite (nan_ok c v (st_nan _ S)). cbn [bind]. rewrite Ef. cbn [expect bind]. cbv zeta. fold (exp_scale f (dscale v)).
  pose proof (exp_scale_range f (dscale v) ltac:(lia)) as Rs. set (rs := exp_scale f (dscale v)) in *.
  destruct (Rlt_le_dec (Rabs (Q2R f)) 6000) as [L|L].
  - right. destruct (exp_common_spec c m fuel v f rs S Sc (canon_mult v C) Ef ltac:(lra) L ltac:(lia) Hf)
      as (r & -> & Dr & Nr & Sr & Mr & Wr & Er). cbn [bind].
    destruct (make_result_spec c r (vval r) rs Dr Nr Sr) as (o & Eo & [K1 _]); [lia|reflexivity|exact Mr|lia|lia|].
    destruct K1 as (y & -> & Sy).
    { apply Qnot_le_lt. intro K. pose proof (above_limit_weight r Dr K). lia. }
    exists y, (vval r), rs. split; [exact Eo|]. split; [exact Sy|]. split; [lia|]. split; [exact Er|].
    apply exp_scale_digits; lra.
  - left. split.
    + unfold exp_common. rewrite (nan_ok c v (st_nan _ S)). cbn [bind]. rewrite Ef. cbn [expect bind].
      assert (T : Qle_bool 6000 (Qabs f) = true).
      { apply Qle_bool_iff, Rle_Qle. rewrite Q2R_abs. replace (Q2R 6000) with 6000 by (unfold Q2R; cbn; lra). exact L. }
      rewrite T. reflexivity.
    + pose proof (Rabs_triang (rv v) (Q2R f - rv v)) as T. replace (rv v + (Q2R f - rv v)) with (Q2R f) in T by ring. lra.
Qed.
