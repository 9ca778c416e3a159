(** * LogAcc: accuracy of the logarithm to a base (var.rs 1888-1922, num.rs 796-838). *)
From Coq Require Import Reals Qreals Lra Lia ZArith QArith Qabs List Bool.
From Verif Require Import Base Var Binary Num Flt Transc Spec SpecApi SpecLn QDec Digits Arith Strip AddSub Signed Codec Make PowApi Sqrt DivFast LogApi ExpApi
  LnOps LnSqrt LnQR LnRed LnSeries LnApi LnSig.
Import ListNotations.
Open Scope R_scope.

Lemma ln_arg_bound v : arg v -> Rabs (ln (rv v)) <= 302000.
Proof.
  intro A. destruct (arg_range v A) as [Lo Hi]. apply Qle_Rle in Lo. apply Qlt_Rlt in Hi. rewrite Q2R_p10 in Lo, Hi. fold (rv v) in *.
  pose proof (ag_wt _ A) as W. pose proof ln_10_range as R.
  pose proof (ln_mono _ _ (e10_pos _) Lo) as G1. pose proof (ln_mono _ _ (arg_rv v A) (Rlt_le _ _ Hi)) as G2.
  rewrite ln_e10 in G1, G2.
  assert (Z1 : -16384 <= IZR (4 * weight v)) by (apply IZR_le; lia).
  assert (Z2 : IZR (4 * (weight v + 1)) <= 131072) by (apply IZR_le; lia).
  apply Rabs_le. split.
  - apply Rle_trans with (-16384 * ln 10); [lra|]. eapply Rle_trans; [|exact G1]. apply Rmult_le_compat_r; lra.
  - eapply Rle_trans; [exact G2|]. apply Rle_trans with (131072 * ln 10); [apply Rmult_le_compat_r; lra|lra].
Qed.

Lemma ln_error_bound s l : (0 <= s <= 2000)%Z -> Rabs l <= 302000 -> ln_error s l <= 141 * e10 (- s).
Proof.
  intros Hs Hl. unfold ln_error. apply Rmult_le_compat_r; [left; apply e10_pos|]. pose proof (Rabs_pos l).
  assert (S2 : 0 <= IZR s <= 2000) by (split; apply IZR_le; lia).
  assert (K : (1 + 23 * Rabs l) * (IZR s + 10) <= 6946001 * 2010) by (apply Rmult_le_compat; lra). lra.
Qed.
Lemma ln_error_bound2 s l : (0 <= s <= 5000)%Z -> Rabs l <= 1 -> ln_error s l <= 141 * e10 (- s).
Proof.
  intros Hs Hl. unfold ln_error. apply Rmult_le_compat_r; [left; apply e10_pos|]. pose proof (Rabs_pos l).
  assert (S2 : 0 <= IZR s <= 5000) by (split; apply IZR_le; lia).
  assert (K : (1 + 23 * Rabs l) * (IZR s + 10) <= 24 * 5010) by (apply Rmult_le_compat; lra). lra.
Qed.
Lemma ln_error_bound3 s l : (0 <= s <= 3000)%Z -> Rabs l <= 302000 -> ln_error s l <= 210 * e10 (- s).
Proof.
  intros Hs Hl. unfold ln_error. apply Rmult_le_compat_r; [left; apply e10_pos|]. pose proof (Rabs_pos l).
  assert (S2 : 0 <= IZR s <= 3000) by (split; apply IZR_le; lia).
  assert (K : (1 + 23 * Rabs l) * (IZR s + 10) <= 6946001 * 3010) by (apply Rmult_le_compat; lra). lra.
Qed.

(** the estimate of the decimal weight of ln *)
Lemma estimate_all c m v : logs_near (f_log10 m) (f_ln m) -> arg v -> stripped v ->
  exists d, estimate_ln_dweight c m v = Ret d /\ (-500000 <= d <= 500000)%Z /\ Rabs (ln (rv v)) <= 23 * e10 d /\
    (rv v = 1 -> d = 0%Z) /\ (rv v <> 1 -> e10 d <= Rabs (ln (rv v)) * (111 / 10)).
Proof.
  intros N A S. destruct (Req_dec (rv v) 1) as [E|E].
  - assert (V : (vval v == 1)%Q) by (apply eqR_Qeq; rewrite RMicromega.Q2R_1; exact E).
    exists 0%Z. rewrite (is_one v S V). rewrite estimate_one by apply A. split; [reflexivity|]. split; [lia|].
    rewrite <- (is_one v S V), E, ln_1, Rabs_R0. change (e10 0) with 1. split; [lra|]. split; [auto|]. intro K. now destruct K.
  - destruct (estimate_any c m v N A S E) as (d & Ed & B & K1 & K2 & _). exists d. split; [exact Ed|]. split; [exact B|]. split; [exact K2|].
    split; [intro K; now destruct E|auto].
Qed.

Lemma ln_away x D : 0 < x -> 0 < D <= / 10 -> D <= Rabs (x - 1) -> D / 2 <= Rabs (ln x).
Proof.
  intros P HD H. destruct (Rlt_le_dec x (9 / 10)) as [L|L].
  { pose proof (ln_nine x ltac:(lra)). rewrite Rabs_left by lra. lra. }
  destruct (Rlt_le_dec (11 / 10) x) as [G|G].
  { pose proof (ln_eleven x ltac:(lra)). rewrite Rabs_pos_eq by lra. lra. }
  pose proof (ln_one_lo x ltac:(lra)). lra.
Qed.

Lemma e10_lt_inv a b : e10 a < e10 b -> (a < b)%Z.
Proof. intro H. destruct (Z_lt_le_dec a b) as [L|L]; [exact L|]. pose proof (e10_le b a L). lra. Qed.
Lemma e10_2 : e10 2 = 100.
Proof. unfold powerRZ. replace (Pos.to_nat 2) with 2%nat by reflexivity. cbn [pow]. ring. Qed.
Lemma e10_7 : e10 7 = 10000000.
Proof. unfold powerRZ. replace (Pos.to_nat 7) with 7%nat by reflexivity. cbn [pow]. ring. Qed.

Lemma estimate_range k v d : (1 <= k)%Z -> arg v -> Rabs (ln (rv v)) <= 23 * e10 d -> (rv v <> 1 -> e10 d <= Rabs (ln (rv v)) * (111 / 10)) -> (rv v = 1 -> d = 0%Z) ->
  (rv v = 1 \/ e10 (- k) <= Rabs (rv v - 1)) -> (- (k + 2) < d < 7)%Z.
Proof.
  intros Hk A U L Z H. destruct (Req_dec (rv v) 1) as [E|E]; [rewrite (Z E); lia|]. specialize (L E). destruct H as [H|H]; [now destruct E|].
  pose proof (ln_arg_bound v A) as B. split.
  - apply e10_lt_inv. assert (D0 : 0 < e10 (- k) <= / 10) by (split; [apply e10_pos|rewrite <- e10_m1; apply e10_le; lia]).
    pose proof (ln_away _ _ (arg_rv v A) D0 H) as K. replace (- (k + 2))%Z with (- k + -2)%Z by lia. rewrite e10_add.
    assert (E2 : e10 (-2) = / 100) by (pose proof (e10_opp 2) as O; rewrite e10_2 in O; change (-(2))%Z with (-2)%Z in O; lra).
    rewrite E2. lra.
  - apply e10_lt_inv. rewrite e10_7. lra.
Qed.

(** the quotient of two slightly wrong logarithms *)
Lemma quotient_error B L e1 e2 b n R : e10 b <= Rabs B * (111 / 10) -> Rabs L <= 23 * e10 n ->
  Rabs e1 <= 141 * e10 (- (R + n - 2 * b + 8)) -> Rabs e2 <= 210 * e10 (- (R - b + 8)) -> Rabs e1 <= Rabs B / 1000 ->
  Rabs ((L + e2) / (B + e1) - L / B) <= 42 / 10000 * e10 (- R) /\ B + e1 <> 0.
Proof.
  intros HB HL H1 H2 Hs. pose proof (e10_pos b) as Pb. pose proof (e10_pos n) as Pn. pose proof (e10_pos (- R)) as PR.
  assert (B0 : 0 < Rabs B) by lra. assert (NB : B <> 0) by (intro K; rewrite K, Rabs_R0 in B0; lra).
  pose proof (Rabs_triang_inv B (- e1)) as T. rewrite Rabs_Ropp in T. replace (B - - e1) with (B + e1) in T by ring.
  assert (NB' : B + e1 <> 0) by (intro K; rewrite K, Rabs_R0 in T; lra).
  split; [|exact NB'].
  replace ((L + e2) / (B + e1) - L / B) with ((e2 - e1 * (L / B)) / (B + e1)) by (field; auto).
  unfold Rdiv at 1. rewrite Rabs_mult, Rabs_inv. set (y := Rabs (B + e1)) in *.
  apply (Rmult_le_reg_r y); [lra|]. rewrite Rmult_assoc, Rinv_l, Rmult_1_r by lra.
  eapply Rle_trans; [apply Rabs_triang|]. rewrite Rabs_Ropp, Rabs_mult.
  assert (Q : Rabs (L / B) <= 2554 / 10 * (e10 n * e10 (- b))).
  { unfold Rdiv. rewrite Rabs_mult, Rabs_inv. apply (Rmult_le_reg_r (Rabs B)); [exact B0|]. rewrite Rmult_assoc, Rinv_l, Rmult_1_r by lra.
    eapply Rle_trans; [exact HL|]. pose proof (e10_opp b) as O. pose proof (e10_pos (- b)) as Pb'.
    assert (K : e10 b * e10 (- b) <= Rabs B * (111 / 10) * e10 (- b)) by (apply Rmult_le_compat_r; lra). rewrite O in K.
    assert (K2 : e10 n * 1 <= e10 n * (Rabs B * (111 / 10) * e10 (- b))) by (apply Rmult_le_compat_l; lra).
    replace (2554 / 10 * (e10 n * e10 (- b)) * Rabs B) with (2554 / 111 * (e10 n * (Rabs B * (111 / 10) * e10 (- b)))) by field. lra. }
  assert (E1 : e10 (- (R + n - 2 * b + 8)) = e10 (- R) * e10 (- n) * (e10 b * e10 b) * / 100000000).
  { replace (- (R + n - 2 * b + 8))%Z with (- R + - n + (b + b) + -8)%Z by lia. now rewrite !e10_add, e10_m8. }
  assert (E2 : e10 (- (R - b + 8)) = e10 (- R) * e10 b * / 100000000).
  { replace (- (R - b + 8))%Z with (- R + b + -8)%Z by lia. now rewrite !e10_add, e10_m8. }
  rewrite E1 in H1. rewrite E2 in H2.
  assert (M : Rabs e1 * Rabs (L / B) <= (141 * (e10 (- R) * e10 (- n) * (e10 b * e10 b) * / 100000000)) * (2554 / 10 * (e10 n * e10 (- b)))).
  { apply Rmult_le_compat; auto using Rabs_pos. }
  pose proof (e10_opp b) as Ob. pose proof (e10_opp n) as On.
  replace ((141 * (e10 (- R) * e10 (- n) * (e10 b * e10 b) * / 100000000)) * (2554 / 10 * (e10 n * e10 (- b))))
    with (141 * 2554 / 1000000000 * (e10 (- R) * e10 b) * ((e10 b * e10 (- b)) * (e10 n * e10 (- n)))) in M by field.
  rewrite Ob, On in M. set (w := e10 (- R) * e10 b) in *.
  assert (W : w <= e10 (- R) * (Rabs B * (111 / 10))) by (apply Rmult_le_compat_l; lra).
  assert (Y : e10 (- R) * (Rabs B * (999 / 1000)) <= e10 (- R) * y) by (apply Rmult_le_compat_l; lra).
  set (t := e10 (- R) * Rabs B) in *.
  replace (e10 (- R) * (Rabs B * (111 / 10))) with (111 / 10 * t) in W by (unfold t; ring).
  replace (e10 (- R) * (Rabs B * (999 / 1000))) with (999 / 1000 * t) in Y by (unfold t; ring).
  replace (42 / 10000 * e10 (- R) * y) with (42 / 10000 * (e10 (- R) * y)) by ring. assert (0 <= w) by (apply Rmult_le_pos; lra). lra.
Qed.

Lemma ln_item_bounds rs r l : (0 <= rs <= 5000)%Z -> stripped r -> dscale r = rs -> mult (vval r) rs -> Rabs l <= 302000 ->
  Rabs (rv r - l) <= 210 * e10 (- rs) -> (weight r <= 2)%Z /\ (ndigits r <= 1300)%Z.
Proof.
  intros Hs T D M L E. assert (P1 : e10 (- rs) <= e10 0) by (apply e10_le; lia). change (e10 0) with 1 in P1.
  assert (W : (weight r <= 2)%Z).
  { apply (semi_weight r 2); [now apply stripped_semi|lia|]. apply rv_lt_Q. rewrite Q2R_p10. change (4 * (2 + 1))%Z with 12%Z.
    assert (K7 : e10 7 <= e10 12) by (apply e10_le; lia). rewrite e10_7 in K7.
    pose proof (Rabs_triang (rv r - l) l) as Tr. replace (rv r - l + l) with (rv r) in Tr by ring. lra. }
  split; [exact W|]. pose proof (tidy_len r rs (stripped_tidy _ T) M ltac:(lia)). lia.
Qed.

(** log of a number away from 1 (or 1 itself) to a base away from 1 *)
Theorem log_common_spec c m fuel v b : logs_near (f_log10 m) (f_ln m) -> arg v -> stripped v -> arg b -> stripped b ->
  (rv v = 1 \/ e10 (-990) <= Rabs (rv v - 1)) -> e10 (-1980) <= Rabs (rv b - 1) ->
  let o := log_common c m fuel v b in
  o = Diverge \/ (o = Panic WArith /\ dbg c = true) \/
  (exists r rs, o = Ret r /\ stripped r /\ dscale r = rs /\ mult (vval r) rs /\
     (Z.min 1000 (Z.max (dscale v) (dscale b)) <= rs <= 1000)%Z /\ (weight r <= 500)%Z /\
     Rabs (rv r - ln (rv v) / ln (rv b)) <= 505 / 1000 * e10 (- rs) /\
     (rs = 1000%Z \/ rv v = 1 \/ 39000000000000 <= Rabs (ln (rv v) / ln (rv b)) * e10 rs)).
Proof.
  intros N Av Sv Ab Sb Hv Hb. cbv zeta.
  assert (Nb : rv b <> 1).
  { intro K. rewrite K in Hb. replace (1 - 1) with 0 in Hb by ring. rewrite Rabs_R0 in Hb. pose proof (e10_pos (-1980)). lra. }
  destruct (estimate_all c m v N Av Sv) as (n & En & Bn & Un & Zn & Ln).
  destruct (estimate_all c m b N Ab Sb) as (d & Ed & Bd & Ud & Zd & Ld). specialize (Ld Nb) as Ld'.
  pose proof (estimate_range 990 v n ltac:(lia) Av Un Ln Zn Hv) as Rn. pose proof (estimate_range 1980 b d ltac:(lia) Ab Ud Ld Zd (or_intror Hb)) as Rd.
  unfold log_common. rewrite (nan_ok c v (st_nan _ Sv)), (nan_ok c b (st_nan _ Sb)). cbn [bind].
  assert (Db : (if dbg c then s <- cmp_common c v ZERO ;; dassert c (0 <? s)%Z else Ret tt) = Ret tt).
  { destruct (cmp_zero c v Sv) as (z & -> & Hz). pose proof (ag_pos _ Av) as P.
    assert (z = 1%Z) as ->. { destruct Hz as [[_ K]|[[G _]|[_ K]]]; [exfalso; rewrite K in P; now apply Qlt_irrefl in P|exact G|].
      exfalso. apply (Qlt_irrefl 0). eapply Qlt_trans; [exact P|exact K]. }
    cbn [bind]. destruct (dbg c); [apply dassert_ok; reflexivity|reflexivity]. }
  rewrite Db. cbn [bind]. rewrite Ed, En. cbn [bind]. change NUMERIC_MIN_SIG_DIGITS with 16%Z.
  rewrite (i32_fits c (n - d)) by lia. cbn [bind]. rewrite (i32_fits c (16 - (n - d))) by lia. cbn [bind].
  set (R := clamp_scale (Z.max (Z.max (16 - (n - d)) (dscale b)) (dscale v))).
  assert (ER : R = Z.min (Z.max (Z.max (Z.max (16 - (n - d)) (dscale b)) (dscale v)) 0) 1000) by reflexivity. clearbody R.
  pose proof (ag_scale _ Av) as Dv. pose proof (ag_scale _ Ab) as Dbb.
  assert (HR : (0 <= R <= 1000 /\ (R = 1000 \/ 16 - (n - d) <= R))%Z) by lia.
  change NUMERIC_MIN_DISPLAY_SCALE with 0%Z.
  rewrite (i32_fits c (R + (n - d))) by lia. cbn [bind]. rewrite (i32_fits c (R + (n - d) - d)) by lia. cbn [bind].
  rewrite (i32_fits c (R + (n - d) - d + 8)) by lia. cbn [bind]. rewrite (i32_fits c (R + (n - d) - n)) by lia. cbn [bind].
  rewrite (i32_fits c (R + (n - d) - n + 8)) by lia. cbn [bind].
  set (s1 := Z.max (R + (n - d) - d + 8) 0). set (s2 := Z.max (R + (n - d) - n + 8) 0).
  assert (H1 : (0 <= s1 <= 5000 /\ s1 = R + n - 2 * d + 8)%Z) by (unfold s1; lia).
  assert (H2 : (0 <= s2 <= 3000 /\ s2 = R - d + 8)%Z) by (unfold s2; lia). clearbody s1 s2.
  destruct (ln_common_spec c fuel b s1 Ab ltac:(lia)) as [->|[[-> D]|(rb & -> & Tb & Sb1 & Mb & Eb)]]; cbn [bind];
    [now left|right; left; now split|].
  destruct (ln_common_spec c fuel v s2 Av ltac:(lia)) as [->|[[-> D]|(rn & -> & Tn & Sn1 & Mn & Ern)]]; cbn [bind];
    [now left|right; left; now split|].
  pose proof (ln_arg_bound v Av) as Lv. pose proof (ln_arg_bound b Ab) as Lb.
  assert (B1 : ln_error s1 (ln (rv b)) <= 141 * e10 (- s1)).
  { destruct (Z_le_gt_dec s1 2000) as [K|K]; [apply ln_error_bound; [lia|exact Lb]|]. apply ln_error_bound2; [lia|].
    eapply Rle_trans; [exact Ud|]. assert (G : e10 d <= e10 (-8)) by (apply e10_le; lia). rewrite e10_m8 in G. lra. }
  pose proof (Rle_trans _ _ _ Eb B1) as E1.
  pose proof (Rle_trans _ _ _ Ern (ln_error_bound3 s2 _ ltac:(lia) Lv)) as E2.
  destruct (ln_item_bounds s1 rb _ ltac:(lia) Tb Sb1 Mb Lb ltac:(pose proof (e10_pos (- s1)); lra)) as [Wb Nbd].
  destruct (ln_item_bounds s2 rn _ ltac:(lia) Tn Sn1 Mn Lv E2) as [Wn Nnd].
  set (B := ln (rv b)) in *. set (L := ln (rv v)) in *.
  assert (Sm : Rabs (rv rb - B) <= Rabs B / 1000).
  { eapply Rle_trans; [exact E1|]. assert (G : e10 (- s1) <= e10 (d - 8)) by (apply e10_le; lia).
    replace (d - 8)%Z with (d + -8)%Z in G by lia. rewrite !e10_add, e10_m8 in G. pose proof (e10_pos d). lra. }
  replace s1 with (R + n - 2 * d + 8)%Z in E1 by lia. replace s2 with (R - d + 8)%Z in E2 by lia.
  destruct (quotient_error B L (rv rb - B) (rv rn - L) d n R Ld' Un E1 E2 Sm) as [Qe Nz].
  replace (L + (rv rn - L)) with (rv rn) in Qe by ring. replace (B + (rv rb - B)) with (rv rb) in Qe, Nz by ring.
  assert (NzQ : ~ (vval rb == 0)%Q). { intro K. apply Nz. unfold rv. rewrite (Qeq_eqR _ _ K). apply RMicromega.Q2R_0. }
  assert (Nzd : digits rb <> []) by (intro K; apply NzQ; now apply vval_empty).
  assert (Wb2 : (-4096 <= weight rb)%Z) by (apply weight_lb; [apply Tb|lia|rewrite Sb1; exact Mb|exact NzQ]).
  destruct (div_op c rn rb R (stripped_semi _ Tn) (stripped_semi _ Tb) Nzd) as [(r & -> & O)|(Dd & _ & ->)].
  { split; [lia|]. split; [lia|lia]. } { lia. }
  2:{ right. left. now split. }
  right. right. exists r, R. cbn [bind expect]. split; [reflexivity|]. pose proof (off_by_R _ _ _ _ O) as Er. destruct O as (Tr & Dr & Mr & _).
  split; [exact Tr|]. split; [exact Dr|]. split; [exact Mr|]. split; [lia|].
  rewrite Q2R_div in Er by exact NzQ. fold (rv rn) (rv rb) in Er.
  assert (Tny : Q2R ((1 # 2) + tiny) <= 5001 / 10000) by (unfold tiny; rewrite Q2R_plus; unfold Q2R; cbn; lra).
  pose proof (e10_pos (- R)) as PR.
  assert (Fin : Rabs (rv r - L / B) <= 505 / 1000 * e10 (- R)).
  { replace (rv r - L / B) with ((rv r - rv rn / rv rb) + (rv rn / rv rb - L / B)) by ring.
    eapply Rle_trans; [apply Rabs_triang|].
    assert (Q2R ((1 # 2) + tiny) * e10 (- R) <= 5001 / 10000 * e10 (- R)) by (apply Rmult_le_compat_r; lra). lra. }
  assert (B0 : 0 < Rabs B) by (pose proof (e10_pos d); lra).
  split; [|split; [exact Fin|]].
  - apply (semi_weight r 500); [now apply stripped_semi|lia|]. apply rv_lt_Q. rewrite Q2R_p10. change (4 * (500 + 1))%Z with 2004%Z.
    assert (P0 : e10 (- R) <= e10 0) by (apply e10_le; lia). change (e10 0) with 1 in P0.
    assert (Q : Rabs (L / B) <= 10000000 * e10 1982).
    { unfold Rdiv. rewrite Rabs_mult, Rabs_inv. apply (Rmult_le_reg_r (Rabs B)); [exact B0|]. rewrite Rmult_assoc, Rinv_l, Rmult_1_r by lra.
      assert (G : e10 (-1982) <= e10 d) by (apply e10_le; lia).
      assert (G2 : e10 1982 * e10 (-1982) <= e10 1982 * (Rabs B * (111 / 10))) by (apply Rmult_le_compat_l; [left; apply e10_pos|lra]).
      pose proof (e10_opp 1982) as O4. change (- (1982))%Z with (-1982)%Z in O4. rewrite O4 in G2. replace (10000000 * e10 1982 * Rabs B) with (100000000 / 111 * (e10 1982 * (Rabs B * (111 / 10)))) by field. lra. }
    pose proof (Rabs_triang (rv r - L / B) (L / B)) as Tr2. replace (rv r - L / B + L / B) with (rv r) in Tr2 by ring.
    assert (G : e10 1990 <= e10 2004) by (apply e10_le; lia).
    replace (e10 1990) with (e10 1982 * (10 * 10000000)) in G.
    2:{ change 1990%Z with (1982 + (1 + 7))%Z. rewrite !e10_add, e10_7, e10_1. reflexivity. }
    assert (e10 0 <= e10 1982) as G0 by (apply e10_le; lia). change (e10 0) with 1 in G0. lra.
  - destruct (Z.eq_dec R 1000) as [K|K]; [now left|right]. destruct (Req_dec (rv v) 1) as [Ev|Ev]; [now left|right]. specialize (Ln Ev).
    assert (G : e10 (16 - n + d) <= e10 R) by (apply e10_le; lia).
    apply (Rle_trans _ (Rabs (L / B) * e10 (16 - n + d))); [|apply Rmult_le_compat_l; [apply Rabs_pos|exact G]].
    assert (E16 : e10 (16 - n + d) = 10000000000000000 * (e10 (- n) * e10 d)).
    { replace (16 - n + d)%Z with (8 + (8 + (- n + d)))%Z by lia. rewrite !e10_add.
      replace (e10 8) with 100000000 by (unfold powerRZ; replace (Pos.to_nat 8) with 8%nat by reflexivity; cbn [pow]; ring). ring. }
    rewrite E16. unfold Rdiv. rewrite Rabs_mult, Rabs_inv.
    apply (Rmult_le_reg_r (Rabs B)); [exact B0|].
    replace (Rabs L * / Rabs B * (10000000000000000 * (e10 (- n) * e10 d)) * Rabs B) with (10000000000000000 * ((Rabs L * e10 (- n)) * e10 d)) by (field; lra).
    assert (X : / (111 / 10) <= Rabs L * e10 (- n)).
    { pose proof (e10_opp n) as O2. assert (e10 n * e10 (- n) <= Rabs L * (111 / 10) * e10 (- n)) by (apply Rmult_le_compat_r; [left; apply e10_pos|lra]). lra. }
    assert (X2 : / (111 / 10) * (Rabs B / 23) <= (Rabs L * e10 (- n)) * e10 d) by (apply Rmult_le_compat; lra). lra.
Qed.

(** The shape of the outcome, however close to 1 the number is. *)
Theorem log_common_shape c m fuel v b : logs_near (f_log10 m) (f_ln m) -> arg v -> stripped v -> arg b -> stripped b ->
  e10 (-1980) <= Rabs (rv b - 1) ->
  let o := log_common c m fuel v b in
  o = Diverge \/ (o = Panic WArith /\ dbg c = true) \/ o = Panic (WMsg MDivZero) \/
  (exists r rs, o = Ret r /\ stripped r /\ dscale r = rs /\ mult (vval r) rs /\
     (Z.min 1000 (Z.max (dscale v) (dscale b)) <= rs <= 1000)%Z /\ (weight r <= 1300)%Z).
Proof.
  intros N Av Sv Ab Sb Hb. cbv zeta.
  destruct (estimate_all c m v N Av Sv) as (n & En & Bn & Un & Zn & Ln).
  destruct (estimate_all c m b N Ab Sb) as (d & Ed & Bd & Ud & Zd & Ld).
  pose proof (estimate_range 1980 b d ltac:(lia) Ab Ud Ld Zd (or_intror Hb)) as Rd.
  pose proof (ln_arg_bound v Av) as Lv. pose proof (ln_arg_bound b Ab) as Lb.
  assert (Rn : (n < 7)%Z).
  { destruct (Req_dec (rv v) 1) as [K|K]; [rewrite (Zn K); lia|]. specialize (Ln K). apply e10_lt_inv. rewrite e10_7. lra. }
  unfold log_common. rewrite (nan_ok c v (st_nan _ Sv)), (nan_ok c b (st_nan _ Sb)). cbn [bind].
  assert (Db : (if dbg c then s <- cmp_common c v ZERO ;; dassert c (0 <? s)%Z else Ret tt) = Ret tt).
  { destruct (cmp_zero c v Sv) as (z & -> & Hz). pose proof (ag_pos _ Av) as P.
    assert (z = 1%Z) as ->. { destruct Hz as [[_ K]|[[G _]|[_ K]]]; [exfalso; rewrite K in P; now apply Qlt_irrefl in P|exact G|].
      exfalso. apply (Qlt_irrefl 0). eapply Qlt_trans; [exact P|exact K]. }
    cbn [bind]. destruct (dbg c); [apply dassert_ok; reflexivity|reflexivity]. }
  rewrite Db. cbn [bind]. rewrite Ed, En. cbn [bind]. change NUMERIC_MIN_SIG_DIGITS with 16%Z.
  rewrite (i32_fits c (n - d)) by lia. cbn [bind]. rewrite (i32_fits c (16 - (n - d))) by lia. cbn [bind].
  set (R := clamp_scale (Z.max (Z.max (16 - (n - d)) (dscale b)) (dscale v))).
  assert (ER : R = Z.min (Z.max (Z.max (Z.max (16 - (n - d)) (dscale b)) (dscale v)) 0) 1000) by reflexivity. clearbody R.
  pose proof (ag_scale _ Av) as Dv. pose proof (ag_scale _ Ab) as Dbb.
  change NUMERIC_MIN_DISPLAY_SCALE with 0%Z.
  rewrite (i32_fits c (R + (n - d))) by lia. cbn [bind]. rewrite (i32_fits c (R + (n - d) - d)) by lia. cbn [bind].
  rewrite (i32_fits c (R + (n - d) - d + 8)) by lia. cbn [bind]. rewrite (i32_fits c (R + (n - d) - n)) by lia. cbn [bind].
  rewrite (i32_fits c (R + (n - d) - n + 8)) by lia. cbn [bind].
  set (s1 := Z.max (R + (n - d) - d + 8) 0). set (s2 := Z.max (R + (n - d) - n + 8) 0).
  assert (H1 : (0 <= s1 <= 5000 /\ (s1 <= 2000 \/ d <= -400))%Z) by (unfold s1; lia).
  assert (H2 : (0 <= s2 <= 3000)%Z) by (unfold s2; lia). clearbody s1 s2.
  destruct (ln_common_spec c fuel b s1 Ab ltac:(lia)) as [->|[[-> D]|(rb & -> & Tb & Sb1 & Mb & Eb)]]; cbn [bind];
    [now left|right; left; now split|].
  destruct (ln_common_spec c fuel v s2 Av ltac:(lia)) as [->|[[-> D]|(rn & -> & Tn & Sn1 & Mn & Ern)]]; cbn [bind];
    [now left|right; left; now split|].
  assert (B1 : ln_error s1 (ln (rv b)) <= 141 * e10 (- s1)).
  { destruct (Z_le_gt_dec s1 2000) as [K|K]; [apply ln_error_bound; [lia|exact Lb]|]. apply ln_error_bound2; [lia|].
    eapply Rle_trans; [exact Ud|]. assert (G : e10 d <= e10 (-8)) by (apply e10_le; lia). rewrite e10_m8 in G. lra. }
  pose proof (Rle_trans _ _ _ Eb B1) as E1.
  pose proof (Rle_trans _ _ _ Ern (ln_error_bound3 s2 _ ltac:(lia) Lv)) as E2.
  destruct (ln_item_bounds s1 rb _ ltac:(lia) Tb Sb1 Mb Lb ltac:(pose proof (e10_pos (- s1)); lra)) as [Wb Nbd].
  destruct (ln_item_bounds s2 rn _ ltac:(lia) Tn Sn1 Mn Lv E2) as [Wn Nnd].
  destruct (digits rb) as [|db tb] eqn:Edb.
  { right. right. left. unfold div_fast_common. rewrite (nan_ok c rn (st_nan _ Tn)), (nan_ok c rb (st_nan _ Tb)). cbn [bind].
    unfold ndigits. rewrite Edb. reflexivity. }
  assert (Nzd : digits rb <> []) by congruence.
  assert (NzQ : ~ (vval rb == 0)%Q) by (intro K; apply Nzd; now apply (semi_zero_iff rb (stripped_semi _ Tb))).
  assert (Wb2 : (-4096 <= weight rb)%Z) by (apply weight_lb; [apply Tb|lia|rewrite Sb1; exact Mb|exact NzQ]).
  destruct (div_op c rn rb R (stripped_semi _ Tn) (stripped_semi _ Tb) Nzd) as [(r & -> & O)|(Dd & _ & ->)].
  { split; [lia|]. split; [lia|lia]. } { lia. }
  2:{ right. left. now split. }
  right. right. right. exists r, R. cbn [bind expect]. split; [reflexivity|]. pose proof (off_by_R _ _ _ _ O) as Er. destruct O as (Tr & Dr & Mr & _).
  split; [exact Tr|]. split; [exact Dr|]. split; [exact Mr|]. split; [lia|].
  rewrite Q2R_div in Er by exact NzQ. fold (rv rn) (rv rb) in Er.
  assert (Tny : Q2R ((1 # 2) + tiny) <= 5001 / 10000) by (unfold tiny; rewrite Q2R_plus; unfold Q2R; cbn; lra).
  pose proof (e10_pos (- R)) as PR. assert (P0 : e10 (- R) <= e10 0) by (apply e10_le; lia). change (e10 0) with 1 in P0.
  assert (Er2 : Rabs (rv r - rv rn / rv rb) <= 1).
  { eapply Rle_trans; [exact Er|]. assert (Q2R ((1 # 2) + tiny) * e10 (- R) <= 5001 / 10000 * e10 (- R)) by (apply Rmult_le_compat_r; lra). lra. }
  assert (Hn : Rabs (rv rn) <= 10000000).
  { assert (P2 : e10 (- s2) <= e10 0) by (apply e10_le; lia). change (e10 0) with 1 in P2. set (L := ln (rv v)) in *.
    pose proof (Rabs_triang (rv rn - L) L) as Tr2. replace (rv rn - L + L) with (rv rn) in Tr2 by ring. lra. }
  assert (Hbl : e10 (-5000) <= Rabs (rv rb)).
  { apply (Rle_trans _ (e10 (- s1))); [apply e10_le; lia|]. unfold rv. rewrite <- Q2R_p10, <- Q2R_abs. apply Qle_Rle, mult_lb; [exact Mb|exact NzQ]. }
  pose proof (e10_pos (-5000)) as P5. pose proof (e10_pos 5000) as P5'.
  assert (Q : Rabs (rv rn / rv rb) <= 10000000 * e10 5000).
  { unfold Rdiv. rewrite Rabs_mult, Rabs_inv. apply (Rmult_le_reg_r (Rabs (rv rb))); [lra|]. rewrite Rmult_assoc, Rinv_l, Rmult_1_r by lra.
    pose proof (e10_opp 5000) as O4. change (- (5000))%Z with (-5000)%Z in O4.
    assert (G2 : e10 5000 * e10 (-5000) <= e10 5000 * Rabs (rv rb)) by (apply Rmult_le_compat_l; lra). rewrite O4 in G2. lra. }
  apply (semi_weight r 1300); [now apply stripped_semi|lia|]. apply rv_lt_Q. rewrite Q2R_p10. change (4 * (1300 + 1))%Z with 5204%Z.
  pose proof (Rabs_triang (rv r - rv rn / rv rb) (rv rn / rv rb)) as Tr2. replace (rv r - rv rn / rv rb + rv rn / rv rb) with (rv r) in Tr2 by ring.
  assert (G : e10 5008 <= e10 5204) by (apply e10_le; lia).
  replace (e10 5008) with (e10 5000 * (10 * 10000000)) in G.
  2:{ change 5008%Z with (5000 + (1 + 7))%Z. rewrite !e10_add, e10_7, e10_1. reflexivity. }
  assert (e10 0 <= e10 5000) as G0 by (apply e10_le; lia). change (e10 0) with 1 in G0. lra.
Qed.
