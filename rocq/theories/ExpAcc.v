(** * ExpAcc: accuracy of exp (var.rs 1938-2013, 2559-2585). *)
From Coq Require Import Reals Qreals Lra Lia ZArith QArith Qabs List Bool.
From Verif Require Import Base Var Flt Transc Spec SpecRoot QDec Digits Arith Strip Round AddSub Signed Make Api2 Sqrt DivFast PowLoop
  LnOps LnSqrt LnQR LnRed LnSeries LnReal LnSig ExpReal ExpRed ExpSeries ExpSquare.
Import ListNotations.
Open Scope R_scope.

(** the constants *)
Lemma LOG10_E_near : Rabs (Q2R LOG10_E * ln 10 - 1) <= / 1000000000.
Proof.
  pose proof LN_10_near as A. apply Rabs_between in A.
  assert (B : (999999999999 # 1000000000000 <= LOG10_E * LN_10 <= 1000000000001 # 1000000000000)%Q) by (vm_compute; split; discriminate).
  assert (C : (43 # 100 <= LOG10_E <= 44 # 100)%Q) by (vm_compute; split; discriminate).
  destruct B as [B1 B2]. destruct C as [C1 C2]. apply Qle_Rle in B1, B2, C1, C2. rewrite Q2R_mult in B1, B2.
  unfold Q2R at 1 in B1. unfold Q2R at 3 in B2. unfold Q2R at 1 in C1. unfold Q2R at 2 in C2. cbn [Qnum Qden] in *.
  set (e := Q2R LOG10_E) in *. set (l := Q2R LN_10) in *. clearbody e l.
  replace (e * ln 10 - 1) with ((e * l - 1) - e * (l - ln 10)) by ring. eapply Rle_trans; [apply Rabs_triang|]. rewrite Rabs_Ropp.
  assert (H1 : Rabs (e * l - 1) <= / 1000000000000) by (apply Rabs_le; lra).
  assert (H2 : Rabs (e * (l - ln 10)) <= 44 / 100 * / 10000000000).
  { apply Rabs_mul_le; apply Rabs_le; lra. }
  lra.
Qed.
Lemma LOG10_2_near : Rabs (Q2R LOG10_2 * ln 10 - ln 2) <= / 1000000000.
Proof.
  pose proof LN_10_near as A. apply Rabs_between in A. pose proof (Rabs_between _ _ ln_2_bound) as D.
  set (p := (2 * artQ 13 (1 # 3))%Q) in *.
  assert (B : (- (1 # 100000000000) <= LOG10_2 * LN_10 - p <= 1 # 100000000000)%Q) by (vm_compute; split; discriminate).
  assert (C : (30 # 100 <= LOG10_2 <= 31 # 100)%Q) by (vm_compute; split; discriminate).
  clearbody p.
  destruct B as [B1 B2]. destruct C as [C1 C2]. apply Qle_Rle in B1, B2, C1, C2. rewrite Q2R_minus, Q2R_mult in B1, B2. rewrite Q2R_opp in B1.
  unfold Q2R at 1 in B1. unfold Q2R at 4 in B2. unfold Q2R at 1 in C1. unfold Q2R at 2 in C2. cbn [Qnum Qden] in *.
  set (e := Q2R LOG10_2) in *. set (l := Q2R LN_10) in *. set (a := Q2R p) in *. clearbody e l a.
  replace (e * ln 10 - ln 2) with ((e * l - a) - e * (l - ln 10) + (a - ln 2)) by ring.
  eapply Rle_trans; [apply Rabs_triang|]. eapply Rle_trans; [apply Rplus_le_compat_r, Rabs_triang|]. rewrite Rabs_Ropp.
  assert (H1 : Rabs (e * l - a) <= / 100000000000) by (apply Rabs_le; lra).
  assert (H2 : Rabs (e * (l - ln 10)) <= 31 / 100 * / 10000000000).
  { apply Rabs_mul_le; apply Rabs_le; lra. }
  assert (H3 : Rabs (a - ln 2) <= / 1000000000000) by (apply Rabs_le; lra).
  lra.
Qed.

(** an estimate of a decimal exponent, truncated *)
Lemma f2i_near_R x : Rabs (Q2R x) <= 10000 -> Rabs (IZR (f2i x) - Q2R x) < 1.
Proof.
  intro H. assert (B : (Qabs x < 2147483647)%Q).
  { apply Rlt_Qlt. rewrite Q2R_abs. replace (Q2R 2147483647) with 2147483647 by (unfold Q2R; cbn; lra). lra. }
  pose proof (f2i_near x B) as K. apply Qlt_Rlt in K. rewrite Q2R_abs, Q2R_minus, Q2R_Z in K.
  replace (Q2R 1) with 1 in K by (unfold Q2R; cbn; lra). exact K.
Qed.

(** the float times a constant, in natural logarithms *)
Lemma fmul_near f k y l : Rabs (Q2R f - y) <= / 100000000 -> Rabs (Q2R k * ln 10 - l) <= / 1000000000 -> Rabs y <= 6030 -> 0 <= l <= 1 ->
  Rabs (Q2R (fmul f k) * ln 10 - y * l) <= / 50000.
Proof.
  intros F K Y L. unfold fmul. pose proof (fl_rel_R (f * k)) as E. rewrite Q2R_mult in E. pose proof ln_10_range as R.
  set (w := Q2R (fl (f * k))) in *. set (a := Q2R f) in *. set (b := Q2R k) in *. clearbody w a b.
  apply Rabs_between in K. pose proof F as F'. apply Rabs_between in F. apply Rabs_between in Y.
  assert (A : Rabs a <= 6031) by (apply Rabs_le; lra).
  assert (Bb : Rabs (b * ln 10) <= 11 / 10) by (apply Rabs_le; lra).
  assert (M : Rabs (a * b * ln 10) <= 6031 * (11 / 10)) by (replace (a * b * ln 10) with (a * (b * ln 10)) by ring; now apply Rabs_mul_le).
  assert (E1 : Rabs ((w - a * b) * ln 10) <= Rabs (a * b * ln 10) * / 9007199254740992).
  { rewrite !(Rabs_mult _ (ln 10)), (Rabs_pos_eq (ln 10)) by lra.
    replace (Rabs (a * b) * ln 10 * / 9007199254740992) with (Rabs (a * b) * / 9007199254740992 * ln 10) by ring.
    apply Rmult_le_compat_r; [lra|exact E]. }
  assert (K' : Rabs (b * ln 10 - l) <= / 1000000000) by (apply Rabs_le; lra).
  assert (E2 : Rabs (a * (b * ln 10 - l)) <= 6031 * / 1000000000) by now apply Rabs_mul_le.
  assert (E3 : Rabs ((a - y) * l) <= / 100000000 * 1) by (apply Rabs_mul_le; [exact F'|apply Rabs_le; lra]).
  replace (w * ln 10 - y * l) with ((w - a * b) * ln 10 + a * (b * ln 10 - l) + (a - y) * l) by ring.
  eapply Rle_trans; [apply Rabs_triang|]. eapply Rle_trans; [apply Rplus_le_compat_r, Rabs_triang|]. lra.
Qed.
Lemma fmul_trunc f k y l : Rabs (Q2R f - y) <= / 100000000 -> Rabs (Q2R k * ln 10 - l) <= / 1000000000 -> Rabs y <= 6030 -> 0 <= l <= 1 ->
  Rabs (IZR (f2i (fmul f k)) * ln 10 - y * l) <= ln 10 + / 50000.
Proof.
  intros F K Y L. pose proof (fmul_near f k y l F K Y L) as H. pose proof ln_10_range as R. set (w := Q2R (fmul f k)) in *.
  assert (Yl : Rabs (y * l) <= 6030 * 1) by (apply Rabs_mul_le; [exact Y|apply Rabs_le; lra]).
  assert (W : Rabs w <= 10000).
  { pose proof H as H'. apply Rabs_between in H', Yl. assert (G : Rabs (w * ln 10) <= 6031) by (apply Rabs_le; lra).
    rewrite Rabs_mult, (Rabs_pos_eq (ln 10)) in G by lra. pose proof (Rabs_pos w).
    assert (Rabs w * (23 / 10) <= Rabs w * ln 10) by (apply Rmult_le_compat_l; lra). lra. }
  pose proof (f2i_near_R (fmul f k) W) as N. fold w in N.
  replace (IZR (f2i (fmul f k)) * ln 10 - y * l) with ((IZR (f2i (fmul f k)) - w) * ln 10 + (w * ln 10 - y * l)) by ring.
  eapply Rle_trans; [apply Rabs_triang|]. rewrite (Rabs_mult _ (ln 10)), (Rabs_pos_eq (ln 10)) by lra.
  assert (Rabs (IZR (f2i (fmul f k)) - w) * ln 10 <= 1 * ln 10) by (apply Rmult_le_compat_r; lra). lra.
Qed.

Lemma e10_exp z : e10 z = exp (IZR z * ln 10).
Proof. rewrite <- ln_e10, exp_ln; [reflexivity|apply e10_pos]. Qed.

(** exp from its logarithm *)
Lemma exp_off r y d : 0 < r -> Rabs (ln r - y) <= d -> d <= 1 / 2 -> Rabs (r - exp y) <= exp y * (2 * d).
Proof.
  intros P H D. apply Rabs_between in H. pose proof (exp_pos y) as Py.
  replace r with (exp y * exp (ln r - y)) by (rewrite <- exp_plus; replace (y + (ln r - y)) with (ln r) by ring; now apply exp_ln).
  set (t := ln r - y) in *.
  replace (exp y * exp t - exp y) with (exp y * (exp t - 1)) by ring. rewrite Rabs_mult, (Rabs_pos_eq (exp y)) by lra.
  apply Rmult_le_compat_l; [lra|]. pose proof (exp_ineq1_le t) as L. pose proof (exp_ineq1_le (- t)) as L2. rewrite exp_Ropp in L2.
  pose proof (exp_pos t) as Pt. apply Rabs_le. split; [lra|].
  assert (G : exp t * (1 - t) <= 1).
  { assert (K : exp t * (1 + - t) <= exp t * / exp t) by (apply Rmult_le_compat_l; lra). rewrite Rinv_r in K by lra. lra. }
  destruct (Rle_lt_dec t 0) as [T0|T0].
  - assert (exp t <= exp 0) by now apply exp_mono. rewrite exp_0 in *. lra.
  - assert (T1 : exp t <= 2).
    { assert (exp t * (1 / 2) <= exp t * (1 - t)) by (apply Rmult_le_compat_l; lra). lra. }
    assert (exp t * t <= 2 * t) by (apply Rmult_le_compat_r; lra). lra.
Qed.

(** guard digits outweigh the linear growth of the error *)
Lemma linear_vs_ten sig : (8 <= sig)%Z -> (5 * IZR sig + 3) * e10 (- sig) <= 43 * / 100000000.
Proof.
  intro H. set (k := (sig - 8)%Z). replace sig with (k + 8)%Z by lia. assert (K : (0 <= k)%Z) by lia.
  replace (- (k + 8))%Z with (-8 + - k)%Z by lia. rewrite e10_add, e10_m8, plus_IZR.
  assert (G : 1 + 9 * IZR k <= e10 k).
  { rewrite <- (Z2Nat.id k) by lia. rewrite <- pow_powerRZ, <- INR_IZR_INZ. generalize (Z.to_nat k). clear. intro n.
    pose proof (poly n 9 ltac:(lra)) as Q. replace (1 + 9) with 10 in Q by ring. lra. }
  assert (K0 : 0 <= IZR k) by (apply IZR_le; lia). pose proof (e10_opp k) as O. pose proof (e10_pos (- k)) as P.
  assert (A : (5 * (IZR k + 8) + 3) * e10 (- k) <= 43); [|lra].
  replace 43 with (43 * e10 k * e10 (- k)) by (rewrite Rmult_assoc, O; ring).
  apply Rmult_le_compat_r; [lra|]. lra.
Qed.

Lemma pow2_Z n : (0 <= n)%Z -> 2 ^ Z.to_nat n = IZR (2 ^ n).
Proof. intro H. rewrite pow_IZR. f_equal. rewrite Z2Nat.id by lia. reflexivity. Qed.

(** the argument reduction as a whole *)
Lemma exp_arg c fuel v f : stripped v -> (0 <= dscale v <= 16383)%Z -> mult (vval v) (dscale v) ->
  Rabs (Q2R f - rv v) <= / 1000000000 -> Rabs (Q2R f) < 6000 -> (20 <= Z.of_nat fuel)%Z ->
  exists n x,
    (if negb (Qle_bool (Qabs f) (fl (1 # 100))) then
         '(ndiv2, tmp) <- exp_reduce c fuel (fdiv f 2) 1 TWO ;;
         o <- div_fast_common c v tmp (dscale v + ndiv2) true ;;
         x <- expect o MDivZero ;;
         Ret (ndiv2, x)
       else Ret (0, v)%Z) = Ret (n, x) /\ (0 <= n <= 20)%Z /\ small x /\ rv v = IZR (2 ^ n) * rv x.
Proof.
  intros S D M F B Hf. apply Rabs_between in F.
  assert (Wv : (weight v <= 0)%Z).
  { apply weight_small; [now apply stripped_semi|]. assert (Rabs (rv v) <= 6001); [|lra].
    assert (B' : Rabs (Q2R f) <= 6000) by lra. apply Rabs_between in B'. apply Rabs_le. lra. }
  destruct (negb (Qle_bool (Qabs f) (fl (1 # 100)))) eqn:C.
  - apply cent_false in C.
    assert (N : digits v <> []).
    { intro E. assert (R0 : rv v = 0) by (rewrite (rv_eq _ _ (vval_empty v E)); apply RMicromega.Q2R_0). rewrite R0 in F.
      assert (Rabs (Q2R f) <= / 1000000000) by (apply Rabs_le; lra). lra. }
    destruct (exp_reduce_spec c (Q2R f) ltac:(lra) 19 1 fuel (fdiv f 2) TWO) as (n & t & -> & Hn & Tn & L); try lia.
    { change (IZR (2 ^ 1)) with 2. replace (IZR 1 * (2 * / 10000000000000000)) with (0 + 2 * / 10000000000000000) by ring.
      replace (Q2R (fdiv f 2) * 2) with (Q2R (fdiv f 2) * (2 * 1)) by ring. apply half_step; try lra.
      replace (Q2R f * 1 - Q2R f) with 0 by ring. rewrite Rabs_R0. lra. }
    { exact twos_one. }
    cbn [bind].
    destruct (div_two c v t n S N D M ltac:(lia) Hn Tn) as (x & -> & Sx & Dx & Mx & Vx). cbn [expect bind].
    exists n, x. split; [reflexivity|]. split; [lia|].
    assert (P : 2 <= IZR (2 ^ n)). { change 2 with (IZR (2 ^ 1)). apply IZR_le. apply Z.pow_le_mono_r; lia. }
    assert (E : rv v = IZR (2 ^ n) * rv x).
    { unfold rv. rewrite <- (Qeq_eqR _ _ Vx), Q2R_mult, Q2R_Z. ring. }
    split; [|exact E]. constructor; [now apply stripped_tidy|lia|rewrite Dx; exact Mx|].
    apply (Rmult_le_reg_l (IZR (2 ^ n))); [lra|]. rewrite <- (Rabs_pos_eq (IZR (2 ^ n))) at 1 by lra. rewrite <- Rabs_mult, <- E.
    apply Rabs_between in L. apply Rabs_le. lra.
  - apply cent_true in C. exists 0%Z, v. split; [reflexivity|]. split; [lia|]. split; [|change (IZR (2 ^ 0)) with 1; ring].
    apply Rabs_between in C. constructor; [now apply stripped_tidy|lia|exact M|]. apply Rabs_le. lra.
Qed.

Lemma exp_common_spec c m fuel v f rs : stripped v -> (0 <= dscale v <= 16383)%Z -> mult (vval v) (dscale v) ->
  f_of_var m v = Some f -> Rabs (Q2R f - rv v) <= / 1000000000 -> Rabs (Q2R f) < 6000 -> (0 <= rs <= 1000)%Z ->
  (4000 <= Z.of_nat fuel)%Z ->
  exists r, exp_common c m fuel v rs = Ret (Some r) /\ Forall dig (digits r) /\ sign r <> SNaN /\ dscale r = rs /\
    mult (vval r) rs /\ (-1000 <= weight r <= 1000)%Z /\ Rabs (rv r - exp (rv v)) <= 504 / 1000 * e10 (- rs).
Proof.
  intros S D M Ff F B HR Hf. unfold exp_common. rewrite (nan_ok c v (st_nan _ S)). cbn [bind]. rewrite Ff. cbn [expect bind].
  assert (Q6 : Qle_bool 6000 (Qabs f) = false).
  { destruct (Qle_bool 6000 (Qabs f)) eqn:E; [exfalso|reflexivity]. apply Qle_bool_iff, Qle_Rle in E. rewrite Q2R_abs in E.
    replace (Q2R 6000) with 6000 in E by (unfold Q2R; cbn; lra). lra. }
  rewrite Q6. cbv zeta.
  destruct (exp_arg c fuel v f S D M F B ltac:(lia)) as (n & x & -> & Hn & Sx & Ev). cbn [bind].
  assert (Fv : Rabs (rv v) <= 6001).
  { assert (B' : Rabs (Q2R f) <= 6000) by lra. apply Rabs_between in B'. apply Rabs_between in F. apply Rabs_le. lra. }
  assert (F8 : Rabs (Q2R f - rv v) <= / 100000000) by lra.
  pose proof (fmul_trunc f LOG10_E (rv v) 1 F8 LOG10_E_near ltac:(lra) ltac:(lra)) as Hd.
  set (dw := f2i (fmul f LOG10_E)) in *. rewrite Rmult_1_r in Hd.
  assert (Hn2 : Rabs (IZR n) <= 6001) by (apply Rabs_le; assert (0 <= IZR n <= 20) by (split; apply IZR_le; lia); lra).
  assert (ln2 : 0 <= ln 2 <= 1).
  { pose proof (ln_up 2 ltac:(lra)). pose proof (ln_low 2 ltac:(lra)). lra. }
  assert (F0 : Rabs (Q2R (inject_Z n) - IZR n) <= / 100000000) by (rewrite Q2R_Z; replace (IZR n - IZR n) with 0 by ring; rewrite Rabs_R0; lra).
  pose proof (fmul_trunc (inject_Z n) LOG10_2 (IZR n) (ln 2) F0 LOG10_2_near ltac:(lra) ln2) as Ht.
  set (t := f2i (fmul (inject_Z n) LOG10_2)) in *.
  pose proof ln_10_range as R10. apply Rabs_between in Hd. apply Rabs_between in Ht. pose proof Fv as Fv'. apply Rabs_between in Fv'.
  assert (In : 0 <= IZR n <= 20) by (split; apply IZR_le; lia).
  assert (In2 : 0 <= IZR n * ln 2 <= 20) by (split; [apply Rmult_le_pos; lra|assert (IZR n * ln 2 <= 20 * 1) by (apply Rmult_le_compat; lra); lra]).
  assert (Dw : (dw <= 2611)%Z).
  { apply le_IZR. destruct (Rle_lt_dec (IZR dw) 2611) as [G|G]; [exact G|exfalso].
    assert (2611 * (23 / 10) <= IZR dw * ln 10) by (apply Rmult_le_compat; lra). lra. }
  assert (Tt : (t <= 10)%Z).
  { apply le_IZR. destruct (Rle_lt_dec (IZR t) 10) as [G|G]; [exact G|exfalso].
    assert (10 * (23 / 10) <= IZR t * ln 10) by (apply Rmult_le_compat; lra). lra. }
  set (sig := (Z.max (1 + dw + rs + t) 0 + 8)%Z).
  assert (Hs : (8 <= sig <= 3700)%Z) by lia.
  (* the guard digits *)
  assert (G : exp (rv v) * IZR (2 ^ n) * e10 (- sig) <= 101 / 100 * / 10000000 * e10 (- rs)).
  { assert (P2 : IZR (2 ^ n) = exp (IZR n * ln 2)).
    { rewrite <- pow2_Z by lia. rewrite <- (exp_ln (2 ^ Z.to_nat n)) by (apply pow_lt; lra). rewrite ln_pow by lra.
      rewrite INR_IZR_INZ, Z2Nat.id by lia. reflexivity. }
    rewrite P2, (e10_exp (- sig)), <- !exp_plus.
    assert (E7 : / 10000000 = e10 (-7)) by (unfold powerRZ; f_equal; replace (Pos.to_nat 7) with 7%nat by reflexivity; cbn [pow]; ring).
    rewrite E7, Rmult_assoc, <- e10_add, (e10_exp (-7 + - rs)).
    assert (X : 1 <= 101 / 100 * exp (- (/ 10000))).
    { pose proof (exp_ineq1_le (- (/ 10000))). lra. }
    apply (Rle_trans _ (101 / 100 * exp (- (/ 10000)) * exp (rv v + IZR n * ln 2 + IZR (- sig) * ln 10))).
    { pose proof (exp_pos (rv v + IZR n * ln 2 + IZR (- sig) * ln 10)).
      rewrite <- (Rmult_1_l (exp (rv v + _ + _))) at 1. apply Rmult_le_compat_r; lra. }
    rewrite Rmult_assoc, <- exp_plus. apply Rmult_le_compat_l; [lra|]. apply exp_mono.
    assert (Sg : IZR (9 + dw + rs + t) <= IZR sig) by (apply IZR_le; unfold sig; lia).
    assert (Sg2 : IZR (9 + dw + rs + t) * ln 10 <= IZR sig * ln 10) by (apply Rmult_le_compat_r; lra).
    rewrite !plus_IZR in Sg2. rewrite opp_IZR, plus_IZR, opp_IZR. lra. }
  destruct (exp_taylor c fuel (sig - 1) x ltac:(lia) Sx ltac:(lia)) as (r0 & E0 & T0 & G0 & D0 & M0 & Er0).
  set (K := fun result => result <- exp_square c (Z.to_nat n) result sig ;; r <- round_common c result rs ;; Ret (Some r)).
  match goal with |- exists r, ?P = _ /\ _ => assert (EP : P = (result <- (result <- add_common c ONE x ;;
             elem <- mul_common c x x (sig - 1) ;;
             o <- div_fast_common c elem TWO (sig - 1) true ;;
             elem <- expect o MDivZero ;;
             exp_series c fuel result elem x TWO (sig - 1)) ;; K result)) end.
  { unfold K. destruct (add_common c ONE x) as [a|w| |]; cbn [bind]; try reflexivity.
    destruct (mul_common c x x (sig - 1)) as [a1|w| |]; cbn [bind]; try reflexivity.
    destruct (div_fast_common c a1 TWO (sig - 1) true) as [a2|w| |]; cbn [bind]; try reflexivity.
    destruct (expect a2 MDivZero) as [a3|w| |]; cbn [bind]; reflexivity. }
  rewrite EP, E0. cbn [bind]. unfold K. clear EP K.
  set (y := rv x) in *. pose proof (sm_abs _ Sx) as Ay. fold y in Ay.
  (* the series error, relative *)
  pose proof (e10_small sig ltac:(lia)) as U. set (u := e10 (- sig)) in *.
  assert (Eu : e10 (- (sig - 1)) = 10 * u).
  { replace (- (sig - 1))%Z with (1 + - sig)%Z by lia. rewrite e10_add. unfold u. f_equal. unfold powerRZ. replace (Pos.to_nat 1) with 1%nat by reflexivity. ring. }
  rewrite Eu, minus_IZR in Er0. assert (Is : 8 <= IZR sig <= 3700) by (split; apply IZR_le; lia).
  assert (Ey : 98 / 100 <= exp y).
  { pose proof (exp_ineq1_le y). apply Rabs_between in Ay. lra. }
  pose proof (linear_vs_ten sig ltac:(lia)) as LT. fold u in LT.
  assert (E1 : Rabs (rv r0 - exp y) <= (49 / 10 * IZR sig + 11 / 10) * u * exp y).
  { eapply Rle_trans; [exact Er0|]. apply (Rle_trans _ ((49 / 10 * IZR sig + 11 / 10) * u * (98 / 100))).
    - assert (0 <= u * (IZR sig - 8)) by (apply Rmult_le_pos; lra). lra.
    - apply Rmult_le_compat_l; [apply Rmult_le_pos; lra|exact Ey]. }
  set (e0 := (49 / 10 * IZR sig + 11 / 10) * u) in *.
  assert (E0b : 0 <= e0 <= 1 / 100) by (unfold e0; split; [apply Rmult_le_pos; lra|]; lra).
  destruct (rel_ln (rv r0) (exp y) e0 (exp_pos y) E0b E1) as [P0 L0]. rewrite ln_exp in L0.
  assert (d0 : 102 / 100 * e0 <= (5 * IZR sig + 2) * u).
  { unfold e0. assert (0 <= (5 * IZR sig + 2 - 102 / 100 * (49 / 10 * IZR sig + 11 / 10)) * u) by (apply Rmult_le_pos; lra). lra. }
  (* squaring *)
  assert (P2 : 0 < IZR (2 ^ n) <= 1048576).
  { split; [apply IZR_two; lia|]. change 1048576 with (IZR (2 ^ 20)). apply IZR_le. apply Z.pow_le_mono_r; lia. }
  assert (Sm : IZR (2 ^ n) * ((5 * IZR sig + 2) * u + 93 / 100 * u) <= 46 / 100).
  { assert (IZR (2 ^ n) * ((5 * IZR sig + 2) * u + 93 / 100 * u) <= 1048576 * (43 * / 100000000)); [|lra].
    apply Rmult_le_compat; try lra. }
  destruct (exp_square_spec c sig Hs (Z.to_nat n) r0 y ((5 * IZR sig + 2) * u) T0 P0) as (r1 & -> & T1 & P1 & L1).
  { assert (W0 : (weight r0 <= 0)%Z).
    { apply weight_small; [apply T0|]. rewrite Rabs_pos_eq by lra.
      assert (exp y <= 103 / 100) by (apply Rabs_between in Ay; eapply Rle_trans; [apply (exp_mono y (2 / 100)); lra|apply exp_small; lra]).
      apply Rabs_between in E1. assert (e0 * exp y <= 1 / 100 * (103 / 100)) by (apply Rmult_le_compat; lra). lra. }
    pose proof (tidy_len r0 16403 T0 M0 ltac:(lia)). lia. }
  { apply Rmult_le_pos; lra. }
  { lra. }
  { fold u. rewrite pow2_Z by lia. replace (IZR (2 ^ n) * (Rabs y + (5 * IZR sig + 2) * u + 93 / 100 * u))
      with (IZR (2 ^ n) * Rabs y + IZR (2 ^ n) * ((5 * IZR sig + 2) * u + 93 / 100 * u)) by ring.
    rewrite <- (Rabs_pos_eq (IZR (2 ^ n))) at 1 by lra. rewrite <- Rabs_mult, <- Ev. lra. }
  cbn [bind]. rewrite pow2_Z, <- Ev in L1 by lia. fold u in L1.
  pose proof (exp_off (rv r1) (rv v) _ P1 L1 ltac:(lra)) as O1.
  destruct (round_common_spec c r1 rs (sm_digits _ (proj1 T1)) (sm_nan _ (proj1 T1))) as (r & -> & Rd). cbn [bind].
  exists r. split; [reflexivity|]. split; [apply Rd|]. split; [apply Rd|]. split; [apply Rd|].
  pose proof (rd_val _ _ _ _ Rd) as Vr.
  split; [apply (mult_comp _ _ _ (Qeq_sym _ _ Vr)); apply mult_round; lia|]. split.
  - assert (B1 : Rabs (ln (rv r1)) <= 6002).
    { replace (ln (rv r1)) with ((ln (rv r1) - rv v) + rv v) by ring. eapply Rle_trans; [apply Rabs_triang|]. lra. }
    pose proof (weight_ln r1 6002 653 (proj1 T1) P1 B1 ltac:(lia) ltac:(lra)) as W1.
    destruct (rd_weight _ _ _ _ Rd) as [W|[[W _]|[W _]]]; lia.
  - pose proof (round_at_off (vval r1) rs) as Ro. rewrite <- Vr in Ro. apply Qabs_le_R in Ro. rewrite Q2R_minus, Q2R_mult, Q2R_p10 in Ro.
    fold (rv r) in Ro. fold (rv r1) in Ro. replace (Q2R (1 # 2)) with (1 / 2) in Ro by (unfold Q2R; cbn; lra).
    replace (rv r - exp (rv v)) with ((rv r - rv r1) + (rv r1 - exp (rv v))) by ring. eapply Rle_trans; [apply Rabs_triang|].
    assert (O2 : exp (rv v) * (2 * (IZR (2 ^ n) * ((5 * IZR sig + 2) * u + 93 / 100 * u))) <= 4 / 1000 * e10 (- rs)); [|lra].
    replace (exp (rv v) * (2 * (IZR (2 ^ n) * ((5 * IZR sig + 2) * u + 93 / 100 * u))))
      with ((exp (rv v) * IZR (2 ^ n) * u) * (2 * (5 * IZR sig + 293 / 100))) by field.
    pose proof (e10_pos (- rs)) as Prs.
    assert (Pg : 0 <= exp (rv v) * IZR (2 ^ n) * u).
    { apply Rmult_le_pos; [apply Rmult_le_pos; [left; apply exp_pos|lra]|lra]. }
    apply (Rle_trans _ (101 / 100 * / 10000000 * e10 (- rs) * (2 * (5 * 3700 + 293 / 100)))); [|lra].
    apply Rmult_le_compat; lra.
Qed.
