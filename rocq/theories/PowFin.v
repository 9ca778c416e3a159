(** * PowFin: fractional powers at the API (num.rs 870-882), and tiny powers that come out as one. *)
From Coq Require Import Reals Qreals Lra Lia ZArith QArith Qabs Qpower List Bool.
From Verif Require Import Base Var Binary Format Parse Convert Num Flt Transc Spec SpecApi SpecLibm SpecLn SpecFloat QDec Digits Arith Strip AddSub Signed Codec Make Api2 PowApi MulNear Sqrt DivFast
  PowLoop LogApi ExpApi LnOps LnSqrt LnQR LnRed LnSeries LnApi LnSig LogAcc ExpReal ExpRed ExpAcc ExpFin PowFrac.
Import ListNotations.
Open Scope R_scope.

Definition no_i32 (p : Q) : Prop := ~ exists n, (p == inject_Z n)%Q /\ (-2147483648 <= n < 2147483648)%Z.

Lemma is_one_near_at k0 r : (0 <= k0)%Z -> mult (vval r) k0 -> Rabs (rv r - 1) <= 504 / 1000 * e10 (- k0) -> (vval r == 1)%Q.
Proof.
  intros Hk (k & K) H. pose proof (p10_opp k0) as O.
  assert (V : rv r = IZR k * e10 (- k0)).
  { unfold rv. rewrite <- Q2R_Z, <- Q2R_p10, <- Q2R_mult. apply Qeq_eqR. rewrite <- K, <- Qmult_assoc, O. ring. }
  pose proof (e10_opp k0) as O'. rewrite V in H. pose proof (e10_pos (- k0)) as P.
  assert (Z10 : e10 k0 = IZR (10 ^ k0)) by (rewrite <- Q2R_p10, (Qeq_eqR _ _ (p10_Z k0 Hk)); apply Q2R_Z).
  assert (Ek : k = (10 ^ k0)%Z).
  { replace 1 with (e10 k0 * e10 (- k0)) in H. rewrite Z10 in H. set (n := (10 ^ k0)%Z) in *. clearbody n.
    rewrite <- Rmult_minus_distr_r, Rabs_mult, (Rabs_pos_eq (e10 (- k0))) in H by lra. apply Rmult_le_reg_r in H; [|exact P].
    rewrite <- minus_IZR, <- abs_IZR in H. assert (IZR (Z.abs (k - n)) < 1) as H' by lra. apply lt_IZR in H'. lia. }
  apply eqR_Qeq. fold (rv r). rewrite RMicromega.Q2R_1, V, Ek, <- Z10. exact O'.
Qed.
Lemma is_one_near r : mult (vval r) 1000 -> Rabs (rv r - 1) <= 504 / 1000 * e10 (-1000) -> (vval r == 1)%Q.
Proof. exact (is_one_near_at 1000 r ltac:(lia)). Qed.

(** one to any power that is no i32 *)
Theorem power_one c m fuel v e : float_sound m -> stripped v -> (vval v == 1)%Q -> (0 <= dscale v <= 16383)%Z -> stripped e ->
  (0 <= dscale e <= 16383)%Z -> no_i32 (vval e) -> (4000 <= Z.of_nat fuel)%Z ->
  exists r, power_common c m fuel v e = Ret (Some r) /\ Forall dig (digits r) /\ sign r <> SNaN /\
     dscale r = Z.min 1000 (Z.max 16 (Z.max (dscale v) (dscale e))) /\ mult (vval r) (dscale r) /\ (-1000 <= weight r <= 1000)%Z /\ (vval r == 1)%Q.
Proof.
  intros FS Sv V1 Dv Se De NI Hf. destruct fuel as [|f0]; [lia|].
  unfold power_common. rewrite (nan_ok c v (st_nan _ Sv)), (nan_ok c e (st_nan _ Se)). cbn [bind].
  destruct (int_or_not c e Se) as [K|K]; [now destruct NI|]. rewrite K. clear K. cbn [bind].
  destruct (cmp_zero c v Sv) as (z & -> & Hz). cbn [bind].
  assert (z = 1%Z) as ->. { destruct Hz as [[_ K]|[[G _]|[_ K]]]; [exfalso; rewrite V1 in K; discriminate K|exact G|].
    exfalso. rewrite V1 in K. discriminate K. }
  change (1 =? 0)%Z with false. cbv iota. rewrite (is_one v Sv V1). rewrite estimate_one by exact Dv. cbn [bind].
  change (i32 c (8 - 0)) with (i32 c 8). rewrite (i32_fits c 8) by lia. cbn [bind].
  change (clamp_scale 8) with 8%Z. rewrite (ln_common_one c f0 (dscale v) 8) by lia. cbn [bind].
  rewrite mul_zero by (try discriminate; try apply Se; now left). rewrite zero_scaled_ok by lia. cbn [bind].
  set (z8 := Var 0 8 SPos []). assert (Tz8 : stripped z8) by apply stripped_zero.
  destruct (fs_int m FS z8 0 Tz8 ltac:(cbn; lia) (zero_expressible z8 eq_refl) (vval_empty z8 eq_refl) ltac:(cbn; lia)) as (f & Ef & Vf).
  rewrite Ef. cbn [expect bind].
  assert (M0 : f2i (fmul f LOG10_E) = 0%Z).
  { unfold fmul. assert (E : (f * LOG10_E == 0)%Q) by (rewrite Vf; ring).
    unfold fl. replace (Qnum (f * LOG10_E) =? 0)%Z with true; [reflexivity|]. symmetry. apply Z.eqb_eq. unfold Qeq in E. cbn [Qnum Qden] in E. lia. }
  replace (Qle_bool (Qabs f) (fmul 2000 (fl (301 # 100)))) with true.
  2:{ symmetry. apply Qle_bool_iff. rewrite Vf. destruct limit_602 as [L _]. eapply Qle_trans; [|exact L]. vm_compute. discriminate. }
  cbn [negb]. cbv iota zeta. rewrite M0. change NUMERIC_MIN_SIG_DIGITS with 16%Z. change NUMERIC_MIN_DISPLAY_SCALE with 0%Z. change (16 - 0)%Z with 16%Z.
  change (dscale (one (dscale v))) with (dscale v).
  set (R := clamp_scale (Z.max (Z.max 16 (dscale v)) (dscale e))).
  assert (ER : R = Z.min 1000 (Z.max 16 (Z.max (dscale v) (dscale e)))).
  { unfold R, clamp_scale. change NUMERIC_MIN_DISPLAY_SCALE with 0%Z. change NUMERIC_MAX_DISPLAY_SCALE with 1000%Z. lia. }
  clearbody R. rewrite (i32_fits c (R + 0 - 0 + 8)) by lia. cbn [bind]. set (s := Z.max (R + 0 - 0 + 8) 0). assert (Hs : (0 <= s <= 1008)%Z) by (unfold s; lia).
  clearbody s. rewrite (ln_common_one c f0 (dscale v) s) by lia. cbn [bind].
  rewrite mul_zero by (try discriminate; try apply Se; now left). rewrite zero_scaled_ok by lia. cbn [bind].
  set (z := Var 0 s SPos []). assert (Tz : stripped z) by apply stripped_zero.
  destruct (fs_int m FS z 0 Tz ltac:(cbn; lia) (zero_expressible z eq_refl) (vval_empty z eq_refl) ltac:(cbn; lia)) as (f' & Ef' & Vf').
  assert (F0 : Q2R f' = 0) by (rewrite (Qeq_eqR _ _ Vf'); apply RMicromega.Q2R_0).
  assert (Z0 : rv z = 0) by (rewrite (rv_eq _ _ (vval_empty z eq_refl)); apply RMicromega.Q2R_0).
  destruct (exp_common_spec c m (S f0) z f' R Tz ltac:(cbn; lia) (zero_expressible z eq_refl) Ef') as (r & -> & Dr & Nr & Sr & Mr & Wr & Er); [| |lia|exact Hf|].
  { rewrite F0, Z0, Rminus_diag_eq, Rabs_R0 by reflexivity. lra. } { rewrite F0, Rabs_R0. lra. }
  exists r. rewrite Z0, exp_0 in Er. split; [reflexivity|]. split; [exact Dr|]. split; [exact Nr|]. split; [congruence|]. split; [now rewrite Sr|]. split; [exact Wr|].
  apply (is_one_near_at R); [lia|exact Mr|exact Er].
Qed.

(** the logarithm of a base near one, at scale zero, is zero; its multiples are zero; and exp 0 = 1 *)
Theorem power_tiny c m fuel v e : logs_near (f_log10 m) (f_ln m) -> float_sound m -> arg v -> stripped v -> stripped e ->
  (0 <= dscale e <= 16383)%Z -> 9 / 100 <= Rabs (ln (rv v)) <= 49 / 100 -> / 10 <= Rabs (rv v - 1) -> no_i32 (vval e) -> (4000 <= Z.of_nat fuel)%Z ->
  -6000 <= rv e * ln (rv v) <= - (1020 * ln 10) ->
  let o := power_common c m fuel v e in
  o = Diverge \/ (o = Panic WArith /\ dbg c = true) \/
  (exists r, o = Ret (Some r) /\ Forall dig (digits r) /\ sign r <> SNaN /\ dscale r = 1000%Z /\ mult (vval r) 1000 /\ (-1000 <= weight r <= 1000)%Z /\
     (vval r == 1)%Q).
Proof.
  intros N FS A Sv Se De HL H1 NI Hf Hy. cbv zeta. pose proof ln_10_range as R10.
  assert (Aw : e10 (-990) <= Rabs (rv v - 1)).
  { assert (e10 (-990) <= e10 (-1)) by (apply e10_le; lia). rewrite e10_m1 in *. lra. }
  assert (Ay : Rabs (rv e * ln (rv v)) <= 6000) by (apply Rabs_le; lra).
  destruct (power_start c m fuel v e N FS A Sv Se De Aw NI) as [H|[H|[[H K]|(d & t & R & W & By & Ht & ER & ->)]]];
    [now left|right; now left|lra|].
  set (y := rv e * ln (rv v)) in *. pose proof (t_range t y By Ht) as Bt. pose proof (ag_scale _ A) as Dv.
  assert (Hd : (-2 <= d)%Z).
  { assert (-3 < d)%Z; [|lia]. apply e10_lt_inv. pose proof (e10_opp 3) as O. change (- (3))%Z with (-3)%Z in O. pose proof (dw_hi _ _ _ _ W).
    replace (e10 3) with 1000 in O by (unfold powerRZ; replace (Pos.to_nat 3) with 3%nat by reflexivity; cbn [pow]; ring). lra. }
  assert (T : (t <= -1018)%Z).
  { assert (t < -1017)%Z; [|lia]. apply lt_IZR. apply Rabs_between in Ht. destruct (Rlt_le_dec (IZR t) (-1017)) as [K|K]; [exact K|exfalso].
    assert (-1017 * ln 10 <= IZR t * ln 10) by (apply Rmult_le_compat_r; lra). lra. }
  assert (R = 1000%Z) as -> by lia. replace (Z.max (1000 + t - d + 8) 0) with 0%Z by lia.
  unfold second.
  destruct (ln_common_spec c fuel v 0 A ltac:(lia)) as [->|[[-> D]|(b & -> & Tb & Sb & Mb & Eb)]]; cbn [bind]; [now left|right; left; now split|].
  assert (Zb : digits b = []).
  { apply semi_zero; [now apply stripped_semi|]. destruct Mb as (k & K). rewrite p10_0, Qmult_1_r in K.
    assert (Rb : rv b = IZR k) by (rewrite (rv_eq _ _ K); apply Q2R_Z).
    unfold ln_error in Eb. change (powerRZ 10 (- 0)) with 1 in Eb. change (IZR 0) with 0 in Eb.
    pose proof (Rabs_triang (rv b - ln (rv v)) (ln (rv v))) as Tr. replace (rv b - ln (rv v) + ln (rv v)) with (rv b) in Tr by ring.
    assert (B1 : Rabs (rv b) < 1) by lra. rewrite Rb, <- abs_IZR in B1. apply lt_IZR in B1. assert (k = 0)%Z by lia. subst k. exact K. }
  rewrite mul_zero by (try apply Tb; try apply Se; now left). rewrite zero_scaled_ok by lia. cbn [bind].
  set (z := Var 0 0 SPos []). assert (Tz : stripped z) by apply stripped_zero.
  destruct (fs_int m FS z 0 Tz ltac:(cbn; lia) (zero_expressible z eq_refl) (vval_empty z eq_refl) ltac:(cbn; lia)) as (f & Ef & Vf).
  assert (F0 : Q2R f = 0) by (rewrite (Qeq_eqR _ _ Vf); apply RMicromega.Q2R_0).
  assert (Z0 : rv z = 0) by (rewrite (rv_eq _ _ (vval_empty z eq_refl)); apply RMicromega.Q2R_0).
  destruct (exp_common_spec c m fuel z f 1000 Tz ltac:(cbn; lia) (zero_expressible z eq_refl) Ef) as (r & -> & Dr & Nr & Sr & Mr & Wr & Er); [| |lia|exact Hf|].
  { rewrite F0, Z0, Rminus_diag_eq, Rabs_R0 by reflexivity. lra. } { rewrite F0, Rabs_R0. lra. }
  right. right. exists r. rewrite Z0, exp_0 in Er. change (- (1000))%Z with (-1000)%Z in Er.
  split; [reflexivity|]. split; [exact Dr|]. split; [exact Nr|]. split; [exact Sr|]. split; [exact Mr|]. split; [exact Wr|]. now apply is_one_near.
Qed.

(** ** The entry point *)
Lemma pow_make c r rs : Forall dig (digits r) -> sign r <> SNaN -> dscale r = rs -> mult (vval r) rs -> (-1000 <= weight r <= 1000)%Z -> (0 <= rs <= 1000)%Z ->
  exists y, (if is_nan r then b <- nan_buf c ;; Ret (Some b) else make_result c r) = Ret (Some y) /\ stores (be_varlen c) y (vval r) rs.
Proof.
  intros Dr Nr Sr Mr Wr Hr. rewrite (not_nan' r Nr).
  destruct (make_result_spec c r (vval r) rs Dr Nr Sr) as (o & Eo & [K1 _]); [lia|reflexivity|exact Mr|lia|lia|].
  destruct K1 as (y & -> & Sy).
  { apply Qnot_le_lt. intro K. pose proof (above_limit_weight r Dr K). lia. }
  exists y. now split.
Qed.

Lemma pow_open c m fuel v e : canon v -> canon e -> (0 < vval v)%Q ->
  num_pow c m fuel (layout (be_varlen c) (to_number v)) (layout (be_varlen c) (to_number e)) =
    o <- power_common c m fuel v e ;;
    match o with None => Ret None | Some r => if is_nan r then b <- nan_buf c ;; Ret (Some b) else make_result c r end.
Proof.
  intros C1 C2 P. rewrite num_pow_unfold by assumption.
  rewrite (pow_go c m fuel v e (cn_st v C1) (cn_st e C2)); [reflexivity| |left; now apply Qlt_le_weak].
  intros [K _]. rewrite K in P. now apply Qlt_irrefl in P.
Qed.

Theorem pow_frac_api c m fuel x q s e p se : logs_near (f_log10 m) (f_ln m) -> float_sound m ->
  stores (be_varlen c) x q s -> stores (be_varlen c) e p se -> (0 < q)%Q -> (ten ^ (-990) <= Qabs (q - 1))%Q -> no_i32 p -> (4000 <= Z.of_nat fuel)%Z ->
  let y := Q2R p * ln (Q2R q) in
  let o := num_pow c m fuel x e in
  o = Diverge \/ (o = Panic WArith /\ dbg c = true) \/ (o = Ret None /\ (- (1000 * ln 10) <= y -> 5999 <= y)) \/
  (exists z r s', o = Ret (Some z) /\ stores (be_varlen c) z r s' /\ (Z.min 1000 (Z.max s se) <= s' <= 1000)%Z /\ Rabs y <= 60202 / 10 /\
     (- (1000 * ln 10) <= y -> y <= 6001 /\ Rabs (Q2R r - exp y) <= 58 / 100 * e10 (- s') /\ (s' = 1000%Z \/ 900000000000000 <= exp y * e10 s'))).
Proof.
  intros N FS H H' Q Hq NI Hf. cbv zeta. destruct (stores_elim _ _ _ _ H) as (v & C & -> & V & E). destruct (stores_elim _ _ _ _ H') as (w & C' & -> & V' & E').
  assert (P : (0 < vval v)%Q) by now rewrite V. rewrite (pow_open c m fuel v w C C' P). pose proof (canon_arg v C P) as A.
  assert (Aw : e10 (-990) <= Rabs (rv v - 1)).
  { apply Qle_Rle in Hq. change (ten ^ (-990))%Q with (p10 (-990)) in Hq. rewrite Q2R_p10, Q2R_abs, Q2R_minus, RMicromega.Q2R_1, <- (Qeq_eqR _ _ V) in Hq. exact Hq. }
  assert (NI' : no_i32 (vval w)) by (intros (n & K & B); apply NI; exists n; split; [now rewrite <- V'|exact B]).
  rewrite <- (Qeq_eqR _ _ V), <- (Qeq_eqR _ _ V'). fold (rv v) (rv w).
  destruct (power_frac_spec c m fuel v w N FS A (cn_st _ C) (cn_st _ C') (cn_scale _ C') Aw NI' Hf)
    as [->|[[-> D]|[[-> G]|(r & rs & -> & Dr & Nr & Sr & Mr & Wr & Br & By & Gr)]]]; cbn [bind];
    [now left|right; left; now split|right; right; left; now split|].
  right. right. right. pose proof (cn_scale _ C). destruct (pow_make c r rs Dr Nr Sr Mr Wr ltac:(lia)) as (z & -> & Sz).
  exists z, (vval r), rs. split; [reflexivity|]. split; [exact Sz|]. split; [lia|]. split; [exact By|exact Gr].
Qed.

Theorem pow_tiny_api c m fuel x q s e p se : logs_near (f_log10 m) (f_ln m) -> float_sound m ->
  stores (be_varlen c) x q s -> stores (be_varlen c) e p se ->
  ((2 # 3) <= q <= (9 # 10) \/ (11 # 10) <= q <= (3 # 2))%Q -> no_i32 p -> (4000 <= Z.of_nat fuel)%Z ->
  -6000 <= Q2R p * ln (Q2R q) <= - (1020 * ln 10) ->
  let o := num_pow c m fuel x e in
  o = Diverge \/ (o = Panic WArith /\ dbg c = true) \/ (exists z, o = Ret (Some z) /\ stores (be_varlen c) z 1 1000).
Proof.
  intros N FS H H' Q NI Hf Hy. cbv zeta. destruct (stores_elim _ _ _ _ H) as (v & C & -> & V & E). destruct (stores_elim _ _ _ _ H') as (w & C' & -> & V' & E').
  assert (NI' : no_i32 (vval w)) by (intros (n & K & B); apply NI; exists n; split; [now rewrite <- V'|exact B]).
  rewrite <- (Qeq_eqR _ _ V), <- (Qeq_eqR _ _ V') in Hy. fold (rv v) (rv w) in Hy.
  assert (HR : 2 / 3 <= rv v <= 9 / 10 \/ 11 / 10 <= rv v <= 3 / 2).
  { unfold rv. rewrite (Qeq_eqR _ _ V). destruct Q as [[Q1 Q2]|[Q1 Q2]]; apply Qle_Rle in Q1, Q2; unfold Q2R at 1 in Q1; unfold Q2R at 2 in Q2; cbn [Qnum Qden] in Q1, Q2; lra. }
  assert (P : (0 < vval v)%Q) by (apply Rlt_Qlt; rewrite RMicromega.Q2R_0; fold (rv v); lra).
  rewrite (pow_open c m fuel v w C C' P). pose proof (canon_arg v C P) as A.
  assert (L1 : ln (3 / 2) <= 49 / 100).
  { assert (G : ln (3 / 2) <= ln (1225 / 1000 * (1225 / 1000))) by (apply ln_mono; lra). rewrite ln_mult in G by lra. pose proof (ln_up (1225 / 1000) ltac:(lra)). lra. }
  assert (HL : 9 / 100 <= Rabs (ln (rv v)) <= 49 / 100 /\ / 10 <= Rabs (rv v - 1)).
  { destruct HR as [HR|HR].
    - pose proof (ln_nine (rv v) ltac:(lra)). assert (G : ln (2 / 3) <= ln (rv v)) by (apply ln_mono; lra).
      replace (2 / 3) with (/ (3 / 2)) in G by lra. rewrite ln_Rinv in G by lra. rewrite !Rabs_left by lra. lra.
    - pose proof (ln_eleven (rv v) ltac:(lra)). assert (G : ln (rv v) <= ln (3 / 2)) by (apply ln_mono; lra). rewrite !Rabs_pos_eq by lra. lra. }
  destruct (power_tiny c m fuel v w N FS A (cn_st _ C) (cn_st _ C') (cn_scale _ C') (proj1 HL) (proj2 HL) NI' Hf Hy)
    as [->|[[-> D]|(r & -> & Dr & Nr & Sr & Mr & Wr & Vr)]]; cbn [bind]; [now left|right; left; now split|].
  right. right. destruct (pow_make c r 1000 Dr Nr Sr Mr Wr ltac:(lia)) as (z & -> & Sz). exists z. split; [reflexivity|].
  apply (stores_ext _ _ (vval r)); [exact Vr|exact Sz].
Qed.

(** ** The four statements *)
Lemma Rpower_ge a b k : e10 k <= Rpower a b -> IZR k * ln 10 <= b * ln a.
Proof.
  intros H. unfold Rpower in H. rewrite e10_exp in H. destruct (Rle_or_lt (IZR k * ln 10) (b * ln a)) as [G|G]; [exact G|].
  apply exp_increasing in G. lra.
Qed.
Lemma Rpower_le_e10 a b k : Rpower a b <= e10 k -> b * ln a <= IZR k * ln 10.
Proof.
  intros H. unfold Rpower in H. rewrite e10_exp in H. destruct (Rle_or_lt (b * ln a) (IZR k * ln 10)) as [G|G]; [exact G|].
  apply exp_increasing in G. lra.
Qed.

Lemma Rpower_between a b j k : IZR j * ln 10 <= b * ln a <= IZR k * ln 10 -> e10 j <= Rpower a b <= e10 k.
Proof. intros [H1 H2]. unfold Rpower. rewrite !e10_exp. split; now apply exp_mono. Qed.

Lemma no_i32_intro p : (forall n, (p == inject_Z n)%Q -> ~ (-2147483648 <= n < 2147483648)%Z) -> no_i32 p.
Proof. intros H (n & E & B). exact (H n E B). Qed.

Theorem pow_frac_accurate : forall c m fuel x q s e p se, logs_near (f_log10 m) (f_ln m) -> float_sound m ->
  stores (be_varlen c) x q s -> stores (be_varlen c) e p se -> (0 < q)%Q -> (ten ^ (-990) <= Qabs (q - 1))%Q ->
  (forall n, (p == inject_Z n)%Q -> ~ (-2147483648 <= n < 2147483648)%Z) -> (4000 <= Z.of_nat fuel)%Z ->
  powerRZ 10 (-1000) <= Rpower (Q2R q) (Q2R p) <= powerRZ 10 2600 ->
  num_pow c m fuel x e = Diverge \/
  (num_pow c m fuel x e = Panic WArith /\ dbg c = true) \/
  (exists z r s', num_pow c m fuel x e = Ret (Some z) /\ stores (be_varlen c) z r s' /\ (Z.min 1000 (Z.max s se) <= s' <= 1000)%Z /\
     Rabs (Q2R r - Rpower (Q2R q) (Q2R p)) <= 58 / 100 * powerRZ 10 (- s')).
Proof.
  intros c m fuel x q s e p se N FS H H' Q Hq NI Hf [B1 B2]. apply Rpower_ge in B1. apply Rpower_le_e10 in B2. pose proof ln_10_range.
  destruct (pow_frac_api c m fuel x q s e p se N FS H H' Q Hq (no_i32_intro p NI) Hf) as [K|[K|[[K G]|(z & r & s' & K & S & B & _ & G)]]];
    [now left|right; now left| |right; right].
  - exfalso. specialize (G ltac:(lra)). lra.
  - exists z, r, s'. split; [exact K|]. split; [exact S|]. split; [exact B|]. exact (proj1 (proj2 (G ltac:(lra)))).
Qed.

Theorem pow_frac_refuses : forall c m fuel x q s e p se, logs_near (f_log10 m) (f_ln m) -> float_sound m ->
  stores (be_varlen c) x q s -> stores (be_varlen c) e p se -> (0 < q)%Q -> (ten ^ (-990) <= Qabs (q - 1))%Q ->
  (forall n, (p == inject_Z n)%Q -> ~ (-2147483648 <= n < 2147483648)%Z) -> (4000 <= Z.of_nat fuel)%Z ->
  (powerRZ 10 2610 <= Rpower (Q2R q) (Q2R p) \/ Rpower (Q2R q) (Q2R p) <= powerRZ 10 (-2620)) ->
  num_pow c m fuel x e = Diverge \/
  (num_pow c m fuel x e = Panic WArith /\ dbg c = true) \/
  num_pow c m fuel x e = Ret None.
Proof.
  intros c m fuel x q s e p se N FS H H' Q Hq NI Hf B. pose proof ln_10_range.
  destruct (pow_frac_api c m fuel x q s e p se N FS H H' Q Hq (no_i32_intro p NI) Hf) as [K|[K|[[K G]|(z & r & s' & K & S & _ & Y & G)]]];
    [now left|right; now left|right; now right|exfalso].
  destruct B as [B|B]; [apply Rpower_ge in B|apply Rpower_le_e10 in B].
  - destruct (G ltac:(lra)) as [G' _]. lra.
  - apply Rabs_between in Y. lra.
Qed.

Theorem pow_frac_digits : forall c m fuel x q s e p se z, logs_near (f_log10 m) (f_ln m) -> float_sound m ->
  stores (be_varlen c) x q s -> stores (be_varlen c) e p se -> (0 < q)%Q -> (ten ^ (-990) <= Qabs (q - 1))%Q ->
  (forall n, (p == inject_Z n)%Q -> ~ (-2147483648 <= n < 2147483648)%Z) -> (4000 <= Z.of_nat fuel)%Z ->
  powerRZ 10 (-1000) <= Rpower (Q2R q) (Q2R p) -> num_pow c m fuel x e = Ret (Some z) ->
  exists r s', stores (be_varlen c) z r s' /\ (s' = 1000%Z \/ 900000000000000 <= Rpower (Q2R q) (Q2R p) * powerRZ 10 s').
Proof.
  intros c m fuel x q s e p se z N FS H H' Q Hq NI Hf B E. apply Rpower_ge in B.
  destruct (pow_frac_api c m fuel x q s e p se N FS H H' Q Hq (no_i32_intro p NI) Hf) as [K|[[K _]|[[K _]|(z' & r & s' & K & S & _ & _ & G)]]];
    [congruence|congruence|congruence|].
  exists r, s'. replace z with z' by congruence. split; [exact S|]. exact (proj2 (proj2 (G ltac:(lra)))).
Qed.

Theorem pow_tiny_is_one : forall c m fuel x q s e p se, logs_near (f_log10 m) (f_ln m) -> float_sound m ->
  stores (be_varlen c) x q s -> stores (be_varlen c) e p se ->
  ((2 # 3) <= q <= (9 # 10) \/ (11 # 10) <= q <= (3 # 2))%Q ->
  (forall n, (p == inject_Z n)%Q -> ~ (-2147483648 <= n < 2147483648)%Z) -> (4000 <= Z.of_nat fuel)%Z ->
  powerRZ 10 (-2600) <= Rpower (Q2R q) (Q2R p) <= powerRZ 10 (-1020) ->
  num_pow c m fuel x e = Diverge \/
  (num_pow c m fuel x e = Panic WArith /\ dbg c = true) \/
  (exists z, num_pow c m fuel x e = Ret (Some z) /\ stores (be_varlen c) z 1 1000).
Proof.
  intros c m fuel x q s e p se N FS H H' Q NI Hf [B1 B2]. apply Rpower_ge in B1. apply Rpower_le_e10 in B2. pose proof ln_10_range.
  apply (pow_tiny_api c m fuel x q s e p se N FS H H' Q (no_i32_intro p NI) Hf). lra.
Qed.

Theorem pow_base_one c m fuel x s e p se : float_sound m ->
  stores (be_varlen c) x 1 s -> stores (be_varlen c) e p se ->
  (forall n, (p == inject_Z n)%Q -> ~ (-2147483648 <= n < 2147483648)%Z) -> (4000 <= Z.of_nat fuel)%Z ->
  exists z, num_pow c m fuel x e = Ret (Some z) /\ stores (be_varlen c) z 1 (Z.min 1000 (Z.max 16 (Z.max s se))).
Proof.
  intros FS H H' NI Hf. destruct (stores_elim _ _ _ _ H) as (v & C & -> & V & E). destruct (stores_elim _ _ _ _ H') as (w & C' & -> & V' & E').
  assert (P : (0 < vval v)%Q) by now rewrite V. rewrite (pow_open c m fuel v w C C' P).
  assert (NI' : no_i32 (vval w)) by (intros (n & K & B); apply (NI n); [now rewrite <- V'|exact B]).
  destruct (power_one c m fuel v w FS (cn_st _ C) V (cn_scale _ C) (cn_st _ C') (cn_scale _ C') NI' Hf) as (r & -> & Dr & Nr & Sr & Mr & Wr & Vr). cbn [bind].
  rewrite E, E' in Sr. pose proof (cn_scale _ C). pose proof (cn_scale _ C').
  destruct (pow_make c r (dscale r) Dr Nr eq_refl Mr Wr ltac:(lia)) as (z & -> & Sz). exists z. split; [reflexivity|].
  rewrite <- Sr. apply (stores_ext _ _ (vval r)); [exact Vr|exact Sz].
Qed.

(** one to a power that is an i32 *)
Lemma close_to_one r k : (0 <= k)%Z -> mult r k -> (Qabs (r - 1) <= (500000001 # 1000000000) * ten ^ (- k))%Q -> (r == 1)%Q.
Proof.
  intros Hk (n & K) H. change (ten ^ (- k))%Q with (p10 (- k)) in H. pose proof (p10_pos k) as P. pose proof (p10_opp k) as O.
  pose proof (p10_Z k Hk) as Z10.
  assert (A : (Qabs (r * p10 k - 1 * p10 k) <= 500000001 # 1000000000)%Q).
  { setoid_replace (r * p10 k - 1 * p10 k)%Q with ((r - 1) * p10 k)%Q by ring. rewrite Qabs_Qmult, (Qabs_pos (p10 k)) by (apply Qlt_le_weak; exact P).
    eapply Qle_trans; [apply Qmult_le_compat_r; [exact H|apply Qlt_le_weak; exact P]|]. rewrite <- Qmult_assoc, (Qmult_comm (p10 (- k))), O, Qmult_1_r. apply Qle_refl. }
  rewrite K, Qmult_1_l, Z10 in A. unfold Qminus in A. rewrite <- inject_Z_opp, <- inject_Z_plus in A.
  change (Qabs (inject_Z (n + - 10 ^ k))) with (inject_Z (Z.abs (n + - 10 ^ k))) in A.
  assert (n = 10 ^ k)%Z as ->.
  { assert (L : (inject_Z (Z.abs (n + - 10 ^ k)) < inject_Z 1)%Q) by (eapply Qle_lt_trans; [exact A|reflexivity]). rewrite <- Zlt_Qlt in L. lia. }
  rewrite <- Z10 in K. apply (Qmult_inj_r _ _ (p10 k)); [intro E; rewrite E in P; discriminate P|]. rewrite K. ring.
Qed.

Theorem pow_base_one_int c m fuel x s e n se : log10_sound (f_log10 m) -> ln_sound (f_ln m) ->
  stores (be_varlen c) x 1 s -> stores (be_varlen c) e (inject_Z n) se -> (- 2 ^ 31 < n < 2 ^ 31)%Z ->
  (0 <= n)%Z \/ (s <= 60)%Z \/ dbg c = false ->
  exists z, num_pow c m fuel x e = Ret (Some z) /\ stores (be_varlen c) z 1 (Z.min 1000 (Z.max 16 s)).
Proof.
  intros LG LN H H' Hn C. fold (pow_scale_of s). assert (Hs : (16 <= pow_scale_of s <= 1000)%Z) by (unfold pow_scale_of; lia).
  assert (One : (1 ^ n == 1)%Q) by apply Qpower_1. destruct (Z_le_gt_dec 0 n) as [N|N].
  - destruct (pow_exact c m fuel x 1 s e n se LG LN H H' ltac:(lia)) as (o & E & [R _]).
    + exists (10 ^ pow_scale_of s)%Z. rewrite One, Qmult_1_l. change (ten ^ pow_scale_of s)%Q with (p10 (pow_scale_of s)). apply p10_Z. lia.
    + left. exists 1%Z. reflexivity.
    + destruct R as (z & -> & Z). { rewrite One. change (Qabs 1) with 1%Q. rewrite limit_p10, <- p10_0. apply p10_lt. lia. }
      exists z. split; [exact E|]. apply (stores_ext _ _ (1 ^ n)%Q); [exact One|exact Z].
  - destruct (pow_inverse c m fuel x 1 s e n se LG H H' ltac:(lia)) as (z & r & E & S & B).
    + exists 1%Z. reflexivity.
    + discriminate.
    + destruct C as [C|C]; [lia|exact C].
    + exists z. split; [exact E|]. apply (stores_ext _ _ r); [|exact S]. rewrite One in B. apply (close_to_one r (pow_scale_of s)); [lia| |exact B].
      destruct (stores_elim _ _ _ _ S) as (v & Cv & _ & Vv & Ev). rewrite <- Ev. apply (mult_comp (vval v)); [exact Vv|]. apply (canon_mult v Cv).
Qed.
