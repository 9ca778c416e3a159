(** * PowFrac: accuracy of powers with an exponent that is no i32 (var.rs 2045-2098). *)
From Coq Require Import Reals Qreals Lra Lia ZArith QArith Qabs List Bool.
From Verif Require Import Base Var Binary Num Flt Transc Spec SpecApi SpecLn SpecFloat QDec Digits Arith Strip AddSub Signed Codec Make Api2 PowApi Sqrt DivFast
  PowLoop LogApi ExpApi LnOps LnSqrt LnQR LnRed LnSeries LnApi LnSig LogAcc ExpReal ExpRed ExpAcc ExpFin.
Import ListNotations.
Open Scope R_scope.

(** the decimal weight of the logarithm *)
Record dweight (c : cfg) (m : libm) (v : var) (d : Z) : Prop := {
  dw_eq : estimate_ln_dweight c m v = Ret d;
  dw_range : (-992 < d <= 5)%Z;
  dw_lo : e10 d <= Rabs (ln (rv v)) * (111 / 10);
  dw_hi : Rabs (ln (rv v)) <= 23 * e10 d
}.

Lemma e10_5 : e10 5 = 100000.
Proof. unfold powerRZ. replace (Pos.to_nat 5) with 5%nat by reflexivity. cbn [pow]. ring. Qed.
Lemma e10_6 : e10 6 = 1000000.
Proof. unfold powerRZ. replace (Pos.to_nat 6) with 6%nat by reflexivity. cbn [pow]. ring. Qed.

Lemma dweight_ok c m v : logs_near (f_log10 m) (f_ln m) -> arg v -> stripped v -> e10 (-990) <= Rabs (rv v - 1) -> exists d, dweight c m v d.
Proof.
  intros N A S H. assert (N1 : rv v <> 1).
  { intro K. rewrite K in H. replace (1 - 1) with 0 in H by ring. rewrite Rabs_R0 in H. pose proof (e10_pos (-990)). lra. }
  destruct (estimate_any c m v N A S N1) as (d & E & B & K1 & K2 & K3). exists d. constructor; auto.
  pose proof (ln_arg_bound v A) as L.
  destruct (estimate_range 990 v d ltac:(lia) A K2 (fun _ => K1) (fun K => False_ind _ (N1 K)) (or_intror H)) as [G _]. split; [exact G|].
  assert (d < 6)%Z; [|lia]. apply e10_lt_inv. rewrite e10_6. apply (Rle_lt_trans _ (Rmax 1 (Rabs (ln (rv v)) * (1001 / 1000)))); [exact K3|].
  apply Rmax_lub_lt; lra.
Qed.

(** one evaluation of exponent * ln(base) *)
Lemma ln_times c m fuel v e d s : arg v -> stripped v -> stripped e -> dweight c m v d -> (0 <= s <= 4650)%Z -> (s <= 4100 \/ d <= -400)%Z ->
  let y := rv e * ln (rv v) in
  let o := (ln_base <- ln_common c fuel v s ;; mul_common c ln_base e s) in
  o = Diverge \/ (o = Panic WArith /\ dbg c = true) \/
  (exists w, o = Ret w /\ stripped w /\ dscale w = s /\ mult (vval w) s /\
     Rabs (rv w - y) <= (Rabs y * (557 / 100 * e10 (- d) + 95 / 100000) + 618 / 1000) * e10 (- s)).
Proof.
  intros A Sv Se W Hs Hsd. cbv zeta.
  destruct (ln_common_spec c fuel v s A ltac:(lia)) as [->|[[-> D]|(r & -> & T & Ds & M & Er)]]; cbn [bind]; [now left|right; left; now split|].
  right. right. pose proof (ln_arg_bound v A) as La. set (L := ln (rv v)) in *.
  assert (S1 : 0 <= IZR s <= 4650) by (split; apply IZR_le; lia). pose proof (e10_pos (- s)) as Ps. pose proof (Rabs_pos L) as L0.
  assert (Wr : (weight r <= 2)%Z).
  { apply (semi_weight r 2); [now apply stripped_semi|lia|]. apply rv_lt_Q. rewrite Q2R_p10. change (4 * (2 + 1))%Z with 12%Z.
    assert (K7 : e10 7 <= e10 12) by (apply e10_le; lia). rewrite e10_7 in K7.
    assert (P1 : e10 (- s) <= e10 0) by (apply e10_le; lia). change (e10 0) with 1 in P1.
    assert (U : ln_error s L <= 1000 * e10 (- s)).
    { unfold ln_error. apply Rmult_le_compat_r; [lra|].
      assert ((1 + 23 * Rabs L) * (IZR s + 10) <= (1 + 23 * 302000) * 5010) by (apply Rmult_le_compat; lra). lra. }
    pose proof (Rabs_triang (rv r - L) L) as Tr. replace (rv r - L + L) with (rv r) in Tr by ring. lra. }
  pose proof (tidy_len r s (stripped_tidy _ T) M ltac:(lia)) as Lr.
  destruct (mul_op c r e s 1170 (stripped_semi _ T) (stripped_semi _ Se) ltac:(lia) ltac:(lia)) as (w & -> & O).
  exists w. split; [reflexivity|]. pose proof (off_by_R _ _ _ _ O) as Ew. destruct O as (Tw & Dw & Mw & _).
  split; [exact Tw|]. split; [exact Dw|]. split; [exact Mw|].
  rewrite Q2R_mult in Ew. fold (rv r) (rv e) in Ew.
  replace (Q2R ((1 # 2) + inject_Z 1170 * (1 # 10000))) with (6170 / 10000) in Ew by (rewrite Q2R_plus, Q2R_mult; unfold Q2R; cbn; lra).
  set (E := rv e) in *. pose proof (e10_opp d) as Od. pose proof (e10_pos d) as Pd. pose proof (e10_pos (- d)) as Pd'.
  pose proof (dw_lo _ _ _ _ W) as Lo. fold L in Lo. pose proof (Rabs_pos E) as E0.
  assert (HE : Rabs E <= 111 / 10 * (Rabs (E * L) * e10 (- d))).
  { rewrite Rabs_mult. assert (K : e10 d * e10 (- d) <= Rabs L * (111 / 10) * e10 (- d)) by (apply Rmult_le_compat_r; lra). rewrite Od in K.
    assert (K2 : Rabs E * 1 <= Rabs E * (Rabs L * (111 / 10) * e10 (- d))) by (apply Rmult_le_compat_l; lra). lra. }
  assert (M1 : Rabs (rv r * E - E * L) <= Rabs E * ln_error s L).
  { replace (rv r * E - E * L) with (E * (rv r - L)) by ring. rewrite Rabs_mult. apply Rmult_le_compat_l; lra. }
  assert (M2 : Rabs E * ln_error s L <= (Rabs (E * L) * (557 / 100 * e10 (- d) + 95 / 100000)) * e10 (- s)).
  { unfold ln_error. rewrite <- Rmult_assoc. apply Rmult_le_compat_r; [lra|].
    assert (X4 : IZR s <= 4100 \/ Rabs L <= 1).
    { destruct Hsd as [K|K]; [left; now apply IZR_le|right]. eapply Rle_trans; [exact (dw_hi _ _ _ _ W)|].
      assert (G : e10 d <= e10 (-8)) by (apply e10_le; lia). rewrite e10_m8 in G. lra. }
    set (z := Rabs (E * L)) in *. assert (Z0 : 0 <= z) by apply Rabs_pos. assert (Z1 : 0 <= z * e10 (- d)) by (apply Rmult_le_pos; lra).
    destruct X4 as [S4|L1].
    2:{ assert (X : (1 + 23 * Rabs L) * (IZR s + 10) <= 24 * 4660) by (apply Rmult_le_compat; lra).
        assert (X2 : Rabs E * (5003 / 10000 + (1 + 23 * Rabs L) * (IZR s + 10) / 100000000) <= Rabs E * (5003 / 10000 + 24 * 4660 / 100000000))
          by (apply Rmult_le_compat_l; lra). lra. }
    assert (X : (1 + 23 * Rabs L) * (IZR s + 10) <= (1 + 23 * Rabs L) * 4110) by (apply Rmult_le_compat_l; lra).
    assert (X2 : Rabs E * (5003 / 10000 + (1 + 23 * Rabs L) * (IZR s + 10) / 100000000) <= Rabs E * (5003 / 10000 + (1 + 23 * Rabs L) * 4110 / 100000000))
      by (apply Rmult_le_compat_l; lra).
    eapply Rle_trans; [exact X2|].
    replace (Rabs E * (5003 / 10000 + (1 + 23 * Rabs L) * 4110 / 100000000))
      with (Rabs E * (5003 / 10000 + 4110 / 100000000) + (Rabs E * Rabs L) * (23 * 4110 / 100000000)) by field.
    rewrite <- Rabs_mult. fold z. lra. }
  replace (rv w - E * L) with ((rv w - rv r * E) + (rv r * E - E * L)) by ring. eapply Rle_trans; [apply Rabs_triang|]. lra.
Qed.

(** the first, rough evaluation *)
Lemma rough_err y d : (d <= 5)%Z -> (Rabs y * (557 / 100 * e10 (- d) + 95 / 100000) + 618 / 1000) * e10 (- (8 - d)) <= Rabs y * (101 / 100000000) + 62 / 100000.
Proof.
  intro H. replace (- (8 - d))%Z with (d + -8)%Z by lia. rewrite e10_add, e10_m8. pose proof (e10_opp d) as O. pose proof (e10_pos d) as P.
  assert (U : e10 d <= e10 5) by (apply e10_le; lia). rewrite e10_5 in U. pose proof (Rabs_pos y) as Y.
  replace ((Rabs y * (557 / 100 * e10 (- d) + 95 / 100000) + 618 / 1000) * (e10 d * / 100000000))
    with (Rabs y * (557 / 100 * (e10 d * e10 (- d)) + 95 / 100000 * e10 d) * / 100000000 + 618 / 1000 * e10 d * / 100000000) by ring.
  rewrite O.
  assert (Rabs y * (557 / 100 * 1 + 95 / 100000 * e10 d) <= Rabs y * (557 / 100 * 1 + 95 / 100000 * 100000)) by (apply Rmult_le_compat_l; lra). lra.
Qed.

Lemma limit_602 : (6019 <= fmul 2000 (fl (301 # 100)) <= 60201 # 10)%Q.
Proof. split; vm_compute; discriminate. Qed.

Lemma exp_near t h : Rabs t <= h -> h <= / 10 -> Rabs (exp t - 1) <= 10 / 9 * h.
Proof.
  intros H D. apply Rabs_between in H. pose proof (exp_ineq1_le t) as L. pose proof (exp_ineq1_le (- t)) as L2. rewrite exp_Ropp in L2.
  pose proof (exp_pos t) as Pt. apply Rabs_le. split; [lra|].
  assert (G : exp t * (1 - t) <= 1).
  { assert (K : exp t * (1 + - t) <= exp t * / exp t) by (apply Rmult_le_compat_l; lra). rewrite Rinv_r in K by lra. lra. }
  destruct (Rle_lt_dec t 0) as [T0|T0].
  - assert (exp t <= exp 0) by now apply exp_mono. rewrite exp_0 in *. lra.
  - assert (T1 : exp t <= 10 / 9).
    { assert (exp t * (9 / 10) <= exp t * (1 - t)) by (apply Rmult_le_compat_l; lra). lra. }
    assert (exp t * t <= 10 / 9 * t) by (apply Rmult_le_compat_r; lra). lra.
Qed.

(** up to the second evaluation *)
Definition second (c : cfg) (m : libm) (fuel : nat) (v e : var) (R s : Z) : outcome (option var) :=
  (ln_num <- (ln_base <- ln_common c fuel v s ;; mul_common c ln_base e s) ;; exp_common c m fuel ln_num R).

Lemma power_start c m fuel v e : logs_near (f_log10 m) (f_ln m) -> float_sound m -> arg v -> stripped v -> stripped e ->
  (0 <= dscale e <= 16383)%Z -> e10 (-990) <= Rabs (rv v - 1) -> ~ (exists n, (vval e == inject_Z n)%Q /\ (-2147483648 <= n < 2147483648)%Z) ->
  let y := rv e * ln (rv v) in
  let o := power_common c m fuel v e in
  o = Diverge \/ (o = Panic WArith /\ dbg c = true) \/ (o = Ret None /\ 6018 < Rabs y) \/
  (exists d t R, dweight c m v d /\ Rabs y <= 60202 / 10 /\ Rabs (IZR t * ln 10 - y) <= ln 10 + 71 / 10000 /\
     R = Z.min 1000 (Z.max 0 (Z.max (16 - t) (Z.max (dscale v) (dscale e)))) /\
     o = second c m fuel v e R (Z.max (R + t - d + 8) 0)).
Proof.
  intros N FS A Sv Se De Aw NI. cbv zeta. destruct (dweight_ok c m v N A Sv Aw) as (d & W). pose proof (dw_range _ _ _ _ W) as Rd.
  unfold power_common. rewrite (nan_ok c v (st_nan _ Sv)), (nan_ok c e (st_nan _ Se)). cbn [bind].
  destruct (int_or_not c e Se) as [K|K]; [now destruct NI|]. rewrite K. clear K. cbn [bind].
  pose proof (ag_pos _ A) as P. destruct (cmp_zero c v Sv) as (z & -> & Hz). cbn [bind].
  assert (z = 1%Z) as ->. { destruct Hz as [[_ K]|[[G _]|[_ K]]]; [exfalso; rewrite K in P; now apply Qlt_irrefl in P|exact G|].
    exfalso. apply (Qlt_irrefl 0). eapply Qlt_trans; [exact P|exact K]. }
  change (1 =? 0)%Z with false. cbv iota. rewrite (dw_eq _ _ _ _ W). cbn [bind].
  rewrite (i32_fits c (8 - d)) by lia. cbn [bind].
  replace (clamp_scale (8 - d)) with (8 - d)%Z.
  2:{ unfold clamp_scale. change NUMERIC_MIN_DISPLAY_SCALE with 0%Z. change NUMERIC_MAX_DISPLAY_SCALE with 1000%Z. lia. }
  pose proof (ln_times c m fuel v e d (8 - d) A Sv Se W ltac:(lia) ltac:(lia)) as H1. cbv zeta in H1.
  destruct (ln_common c fuel v (8 - d)) as [b|w| |]; cbn [bind] in H1 |- *.
  2:{ destruct H1 as [H1|[H1|(w' & H1 & _)]]; [discriminate|right; left; destruct H1 as [H1 H2]; split; [congruence|exact H2]|discriminate]. }
  2:{ destruct H1 as [H1|[H1|(w' & H1 & _)]]; [discriminate|destruct H1; discriminate|discriminate]. }
  2:{ now left. }
  destruct (mul_common c b e (8 - d)) as [w|x| |]; cbn [bind].
  2:{ destruct H1 as [H1|[H1|(w' & H1 & _)]]; [discriminate|right; left; destruct H1 as [H1 H2]; split; [congruence|exact H2]|discriminate]. }
  2:{ destruct H1 as [H1|[H1|(w' & H1 & _)]]; [discriminate|destruct H1; discriminate|discriminate]. }
  2:{ now left. }
  destruct H1 as [H1|[[H1 _]|(w' & H1 & Tw & Dw & Mw & Ew)]]; [discriminate|discriminate|]. injection H1 as <-.
  set (y := rv e * ln (rv v)) in *. pose proof (Rle_trans _ _ _ Ew (rough_err y d ltac:(lia))) as E1. clear Ew.
  assert (Dw0 : (0 <= dscale w)%Z) by lia. assert (Mx : SpecDouble.expressible (vval w) (dscale w)) by (rewrite Dw; exact Mw).
  pose proof limit_602 as [Lq Uq]. apply Qle_Rle in Lq, Uq. replace (Q2R 6019) with 6019 in Lq by (unfold Q2R; cbn; lra).
  replace (Q2R (60201 # 10)) with (60201 / 10) in Uq by (unfold Q2R; cbn; lra).
  set (lim := fmul 2000 (fl (301 # 100))) in *.
  assert (Ff : exists f, f_of_var m w = Some f /\ ((lim < Qabs f)%Q /\ 6018 < Rabs y \/ (Qabs f <= lim)%Q /\ Rabs y <= 60202 / 10 /\ Rabs (rv w) <= 6030 /\ Rabs (Q2R f - rv w) <= / 100000000)).
  { pose proof (Rabs_triang (rv w - y) y) as Ty. replace (rv w - y + y) with (rv w) in Ty by ring.
    pose proof (Rabs_triang (y - rv w) (rv w)) as Ty2. replace (y - rv w + rv w) with y in Ty2 by ring. rewrite (Rabs_minus_sym y) in Ty2.
    pose proof (Rabs_pos y) as Y0.
    destruct (Rle_lt_dec (Rabs (rv w)) 7000) as [Lw|Lw].
    - assert (B : (Qabs (vval w) <= p10 300)%Q).
      { apply Rle_Qle. rewrite Q2R_abs, Q2R_p10. fold (rv w). assert (e10 7 <= e10 300) by (apply e10_le; lia). rewrite e10_7 in *. lra. }
      destruct (fs_near m FS w Tw Dw0 Mx B) as (f & Ef & K). exists f. split; [exact Ef|].
      change (ten ^ (-15))%Q with (p10 (-15)) in K. change (ten ^ (-300))%Q with (p10 (-300)) in K.
      apply Qabs_le_R in K. rewrite Q2R_minus, Q2R_plus, Q2R_mult, !Q2R_p10, Q2R_abs in K. fold (rv w) in K.
      assert (L : e10 (-300) <= e10 (-15)) by (apply e10_le; lia).
      assert (E15 : e10 (-15) = / 1000000000000000) by (unfold powerRZ; f_equal; replace (Pos.to_nat 15) with 15%nat by reflexivity; cbn [pow]; ring).
      rewrite E15 in *.
      pose proof (Rabs_triang (Q2R f - rv w) (rv w)) as Tf. replace (Q2R f - rv w + rv w) with (Q2R f) in Tf by ring.
      pose proof (Rabs_triang (rv w - Q2R f) (Q2R f)) as Tf2. replace (rv w - Q2R f + Q2R f) with (rv w) in Tf2 by ring. rewrite (Rabs_minus_sym (rv w)) in Tf2.
      destruct (Qlt_le_dec lim (Qabs f)) as [G|G].
      + left. split; [exact G|]. apply Qlt_Rlt in G. rewrite Q2R_abs in G. lra.
      + right. split; [exact G|]. apply Qle_Rle in G. rewrite Q2R_abs in G. lra.
    - assert (B : (inject_Z 7000 <= Qabs (vval w))%Q) by (apply Rle_Qle; rewrite Q2R_abs, Q2R_Z; fold (rv w); lra).
      destruct (fs_big m FS w 7000 Tw Dw0 Mx ltac:(vm_compute; split; discriminate) B) as (f & Ef & K). exists f. split; [exact Ef|]. left.
      apply Qle_Rle in K. rewrite Q2R_Z in K. split; [apply Rlt_Qlt; lra|lra]. }
  destruct Ff as (f & Ef & Hf). rewrite Ef. cbn [expect bind].
  destruct Hf as [[G Gy]|(G & Gy & Gw & Gf)].
  { replace (Qle_bool (Qabs f) lim) with false; [right; right; left; now split|].
    symmetry. apply not_true_is_false. intro K. apply Qle_bool_iff in K. exact (Qlt_not_le _ _ G K). }
  replace (Qle_bool (Qabs f) lim) with true by (symmetry; now apply Qle_bool_iff). cbn [negb]. cbv iota zeta.
  pose proof (fmul_trunc f LOG10_E (rv w) 1 Gf LOG10_E_near Gw ltac:(lra)) as Ht. rewrite Rmult_1_r in Ht.
  set (t := f2i (fmul f LOG10_E)) in *. pose proof ln_10_range as R10.
  assert (Hty : Rabs (IZR t * ln 10 - y) <= ln 10 + 71 / 10000).
  { replace (IZR t * ln 10 - y) with ((IZR t * ln 10 - rv w) + (rv w - y)) by ring. eapply Rle_trans; [apply Rabs_triang|]. lra. }
  assert (Bt : (-2650 <= t <= 2650)%Z).
  { pose proof Hty as H'. apply Rabs_between in H'. pose proof Gy as Gy'. apply Rabs_between in Gy'. split; apply le_IZR.
    - destruct (Rle_lt_dec (-2650) (IZR t)) as [K|K]; [exact K|exfalso]. assert (IZR t * ln 10 <= -2650 * ln 10) by (apply Rmult_le_compat_r; lra). lra.
    - destruct (Rle_lt_dec (IZR t) 2650) as [K|K]; [exact K|exfalso]. assert (2650 * ln 10 <= IZR t * ln 10) by (apply Rmult_le_compat_r; lra). lra. }
  change NUMERIC_MIN_SIG_DIGITS with 16%Z. change NUMERIC_MIN_DISPLAY_SCALE with 0%Z. pose proof (ag_scale _ A) as Dv.
  set (R := clamp_scale (Z.max (Z.max (16 - t) (dscale v)) (dscale e))).
  assert (ER : R = Z.min 1000 (Z.max 0 (Z.max (16 - t) (Z.max (dscale v) (dscale e))))).
  { unfold R, clamp_scale. change NUMERIC_MIN_DISPLAY_SCALE with 0%Z. change NUMERIC_MAX_DISPLAY_SCALE with 1000%Z. lia. }
  clearbody R t. rewrite (i32_fits c (R + t - d + 8)) by lia. cbn [bind].
  right. right. right. exists d, t, R. split; [exact W|]. split; [exact Gy|]. split; [exact Hty|]. split; [exact ER|].
  unfold second. destruct (ln_common c fuel v (Z.max (R + t - d + 8) 0)); reflexivity.
Qed.

Lemma t_range t y : Rabs y <= 60202 / 10 -> Rabs (IZR t * ln 10 - y) <= ln 10 + 71 / 10000 -> (-2650 <= t <= 2650)%Z.
Proof.
  intros Gy H'. pose proof ln_10_range as R10. apply Rabs_between in H'. apply Rabs_between in Gy. split; apply le_IZR.
  - destruct (Rle_lt_dec (-2650) (IZR t)) as [K|K]; [exact K|exfalso]. assert (IZR t * ln 10 <= -2650 * ln 10) by (apply Rmult_le_compat_r; lra). lra.
  - destruct (Rle_lt_dec (IZR t) 2650) as [K|K]; [exact K|exfalso]. assert (2650 * ln 10 <= IZR t * ln 10) by (apply Rmult_le_compat_r; lra). lra.
Qed.

(** the second evaluation: its error, scaled *)
Lemma fine_err y d g s : (d <= 5)%Z -> Rabs y <= 60202 / 10 -> (g - d + 8 <= s)%Z ->
  (Rabs y * (557 / 100 * e10 (- d) + 95 / 100000) + 618 / 1000) * e10 (- s) <= 668 / 100000 * e10 (- g).
Proof.
  intros H Y G. pose proof (e10_opp d) as O. pose proof (e10_pos d) as P. pose proof (e10_pos (- d)) as P'. pose proof (e10_pos (- g)) as Pg. pose proof (Rabs_pos y) as Y0.
  assert (U : e10 d <= e10 5) by (apply e10_le; lia). rewrite e10_5 in U.
  assert (Q : e10 (- s) <= e10 (- g) * (e10 d * / 100000000)).
  { replace (e10 (- g) * (e10 d * / 100000000)) with (e10 (- (g - d + 8))); [apply e10_le; lia|].
    replace (- (g - d + 8))%Z with (- g + (d + -8))%Z by lia. now rewrite !e10_add, e10_m8. }
  assert (C0 : 0 <= Rabs y * (557 / 100 * e10 (- d) + 95 / 100000) + 618 / 1000).
  { assert (0 <= Rabs y * (557 / 100 * e10 (- d) + 95 / 100000)) by (apply Rmult_le_pos; lra). lra. }
  eapply Rle_trans; [apply Rmult_le_compat_l; [exact C0|exact Q]|].
  replace ((Rabs y * (557 / 100 * e10 (- d) + 95 / 100000) + 618 / 1000) * (e10 (- g) * (e10 d * / 100000000)))
    with ((Rabs y * (557 / 100 * (e10 d * e10 (- d)) + 95 / 100000 * e10 d) + 618 / 1000 * e10 d) * / 100000000 * e10 (- g)) by ring.
  rewrite O. apply Rmult_le_compat_r; [lra|].
  assert (Rabs y * (557 / 100 * 1 + 95 / 100000 * e10 d) <= 60202 / 10 * (557 / 100 * 1 + 95 / 100000 * 100000)) by (apply Rmult_le_compat; lra). lra.
Qed.

Theorem power_frac_spec c m fuel v e : logs_near (f_log10 m) (f_ln m) -> float_sound m -> arg v -> stripped v -> stripped e ->
  (0 <= dscale e <= 16383)%Z -> e10 (-990) <= Rabs (rv v - 1) -> ~ (exists n, (vval e == inject_Z n)%Q /\ (-2147483648 <= n < 2147483648)%Z) ->
  (4000 <= Z.of_nat fuel)%Z ->
  let y := rv e * ln (rv v) in
  let o := power_common c m fuel v e in
  o = Diverge \/ (o = Panic WArith /\ dbg c = true) \/ (o = Ret None /\ (- (1000 * ln 10) <= y -> 5999 <= y)) \/
  (exists r rs, o = Ret (Some r) /\ Forall dig (digits r) /\ sign r <> SNaN /\ dscale r = rs /\ mult (vval r) rs /\ (-1000 <= weight r <= 1000)%Z /\
     (Z.min 1000 (Z.max (dscale v) (dscale e)) <= rs <= 1000)%Z /\ Rabs y <= 60202 / 10 /\
     (- (1000 * ln 10) <= y -> y <= 6001 /\ Rabs (rv r - exp y) <= 58 / 100 * e10 (- rs) /\
        (rs = 1000%Z \/ 900000000000000 <= exp y * e10 rs))).
Proof.
  intros N FS A Sv Se De Aw NI Hf. cbv zeta.
  destruct (power_start c m fuel v e N FS A Sv Se De Aw NI) as [H|[H|[[H Hy]|(d & t & R & W & By & Ht & ER & ->)]]];
    [now left|right; now left|right; right; left; split; [exact H|]|].
  { intro G. pose proof ln_10_range. destruct (Rle_lt_dec 0 (rv e * ln (rv v))) as [K|K]; [rewrite Rabs_pos_eq in Hy by exact K; lra|].
    rewrite Rabs_left in Hy by exact K. lra. }
  set (y := rv e * ln (rv v)) in *. pose proof (t_range t y By Ht) as Bt. pose proof (dw_range _ _ _ _ W) as Rd. pose proof ln_10_range as R10.
  pose proof (ag_scale _ A) as Dv. assert (HR : (0 <= R <= 1000)%Z) by lia.
  unfold second. set (s := Z.max (R + t - d + 8) 0).
  pose proof (ln_times c m fuel v e d s A Sv Se W ltac:(unfold s; lia) ltac:(unfold s; lia)) as H. cbv zeta in H. fold y in H.
  destruct H as [->|[[-> D]|(w & -> & Tw & Dw & Mw & Ew)]]; cbn [bind]; [now left|right; left; now split|].
  pose proof (fine_err y d (R + t) s ltac:(lia) By ltac:(unfold s; lia)) as Fe. pose proof (Rle_trans _ _ _ Ew Fe) as E2. clear Ew Fe.
  assert (Sm : - (1000 * ln 10) <= y -> 668 / 100000 * e10 (- (R + t)) <= 668 / 10000).
  { intro G. apply Rabs_between in Ht. assert (T1 : (-1001 <= t)%Z).
    { assert (-1002 < t)%Z; [|lia]. apply lt_IZR. destruct (Rlt_le_dec (-1002) (IZR t)) as [K|K]; [exact K|exfalso].
      assert (IZR t * ln 10 <= -1002 * ln 10) by (apply Rmult_le_compat_r; lra). lra. }
    assert (U : e10 (- (R + t)) <= e10 1) by (apply e10_le; lia). rewrite e10_1 in U. lra. }
  assert (Hs : (0 <= dscale w <= 16383)%Z) by (rewrite Dw; unfold s; lia). assert (Mx : mult (vval w) (dscale w)) by (rewrite Dw; exact Mw).
  assert (None_ok : forall f, f_of_var m w = Some f -> 6000 <= Rabs (Q2R f) -> exp_common c m fuel w R = Ret None).
  { intros f Ef L. unfold exp_common. rewrite (nan_ok c w (st_nan _ Tw)). cbn [bind]. rewrite Ef. cbn [expect bind].
    assert (T : Qle_bool 6000 (Qabs f) = true).
    { apply Qle_bool_iff, Rle_Qle. rewrite Q2R_abs. replace (Q2R 6000) with 6000 by (unfold Q2R; cbn; lra). exact L. }
    rewrite T. reflexivity. }
  assert (None_y : 6000 - / 10000 <= Rabs (rv w) -> - (1000 * ln 10) <= y -> 5999 <= y).
  { intros L G. specialize (Sm G). assert (Rabs (rv w - y) <= 668 / 10000) by lra.
    pose proof (Rabs_triang (rv w - y) y) as Ty. replace (rv w - y + y) with (rv w) in Ty by ring.
    destruct (Rle_lt_dec 0 y) as [K|K]; [rewrite (Rabs_pos_eq y) in Ty by exact K; lra|]. rewrite (Rabs_left y) in Ty by exact K. lra. }
  destruct (Rlt_le_dec (Rabs (rv w)) 6000) as [L|L].
  2:{ right. right. left. assert (B : (inject_Z 6000 <= Qabs (vval w))%Q) by (apply Rle_Qle; rewrite Q2R_abs, Q2R_Z; exact L).
      destruct (fs_big m FS w 6000 Tw (proj1 Hs) Mx ltac:(vm_compute; split; discriminate) B) as (f & Ef & K).
      apply Qle_Rle in K. rewrite Q2R_Z, Q2R_abs in K. split; [exact (None_ok f Ef K)|apply None_y; lra]. }
  destruct (fs_below m w FS Tw (proj1 Hs) Mx L) as (f & Ef & F).
  destruct (Rlt_le_dec (Rabs (Q2R f)) 6000) as [Lf|Lf].
  2:{ right. right. left. split; [exact (None_ok f Ef Lf)|]. apply None_y.
      pose proof (Rabs_triang (rv w) (Q2R f - rv w)) as T. replace (rv w + (Q2R f - rv w)) with (Q2R f) in T by ring. lra. }
  right. right. right.
  destruct (exp_common_spec c m fuel w f R Tw Hs Mx Ef ltac:(lra) Lf ltac:(lia) Hf) as (r & -> & Dr & Nr & Sr & Mr & Wr & Er).
  exists r, R. split; [reflexivity|]. split; [exact Dr|]. split; [exact Nr|]. split; [exact Sr|]. split; [exact Mr|]. split; [exact Wr|].
  split; [lia|]. split; [exact By|]. intro G. specialize (Sm G).
  assert (Hw : Rabs (rv w - y) <= 668 / 10000) by lra. split.
  { apply Rabs_between in Hw. pose proof (Rle_abs (rv w)). lra. }
  pose proof (exp_pos y) as Py. apply Rabs_between in Ht. split.
  - pose proof (exp_near _ _ E2 ltac:(lra)) as X.
    assert (Uy : exp y <= 10073 / 1000 * e10 t).
    { apply (Rle_trans _ (exp (IZR t * ln 10 + (ln 10 + 71 / 10000)))); [apply exp_mono; lra|]. rewrite !exp_plus, <- e10_exp, exp_ln by lra.
      pose proof (exp_near (71 / 10000) (71 / 10000) ltac:(rewrite Rabs_pos_eq; lra) ltac:(lra)) as X2. apply Rabs_between in X2.
      pose proof (e10_pos t) as Pt. assert (E71 : exp (71 / 10000) <= 10073 / 10000).
      { pose proof (exp_ineq1_le (- (71 / 10000))) as L2. rewrite exp_Ropp in L2. pose proof (exp_pos (71 / 10000)) as P7.
        assert (K : exp (71 / 10000) * (1 + - (71 / 10000)) <= exp (71 / 10000) * / exp (71 / 10000)) by (apply Rmult_le_compat_l; lra).
        rewrite Rinv_r in K by lra. lra. }
      assert (e10 t * (10 * exp (71 / 10000)) <= e10 t * (10 * (10073 / 10000))) by (apply Rmult_le_compat_l; lra). lra. }
    assert (Xy : Rabs (exp (rv w) - exp y) <= exp y * (10 / 9 * (668 / 100000 * e10 (- (R + t))))).
    { replace (rv w) with (y + (rv w - y)) by ring. rewrite exp_plus. replace (exp y * exp (y + (rv w - y) - y) - exp y) with (exp y * (exp (rv w - y) - 1)).
      2:{ replace (y + (rv w - y) - y) with (rv w - y) by ring. ring. }
      replace (exp y * exp (rv w - y) - exp y) with (exp y * (exp (rv w - y) - 1)) by ring.
      rewrite Rabs_mult, (Rabs_pos_eq (exp y)) by lra. apply Rmult_le_compat_l; lra. }
    assert (Et : e10 t * e10 (- (R + t)) = e10 (- R)) by (rewrite <- e10_add; f_equal; lia).
    pose proof (e10_pos (- (R + t))) as Pg.
    assert (Z : exp y * (10 / 9 * (668 / 100000 * e10 (- (R + t)))) <= (10073 / 1000 * e10 t) * (10 / 9 * (668 / 100000 * e10 (- (R + t)))))
      by (apply Rmult_le_compat_r; lra).
    replace ((10073 / 1000 * e10 t) * (10 / 9 * (668 / 100000 * e10 (- (R + t))))) with (10073 / 1000 * (10 / 9 * (668 / 100000)) * (e10 t * e10 (- (R + t)))) in Z by field.
    rewrite Et in Z. pose proof (e10_pos (- R)) as PR.
    replace (rv r - exp y) with ((rv r - exp (rv w)) + (exp (rv w) - exp y)) by ring. eapply Rle_trans; [apply Rabs_triang|]. lra.
  - destruct (Z.eq_dec R 1000) as [K|K]; [now left|right].
    assert (L1 : e10 (16 - t) <= e10 R) by (apply e10_le; lia).
    apply (Rle_trans _ (exp y * e10 (16 - t))); [|apply Rmult_le_compat_l; lra].
    rewrite e10_exp, <- exp_plus. apply (Rle_trans _ (e10 15 * exp (- (1 / 100)))).
    + rewrite e10_15. pose proof (exp_ineq1_le (- (1 / 100))). lra.
    + rewrite e10_exp, <- exp_plus. apply exp_mono. rewrite minus_IZR. lra.
Qed.
