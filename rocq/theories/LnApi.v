(** * LnApi: the accuracy of the natural logarithm (var.rs 1764-1838). *)
From Coq Require Import Reals Qreals Lra Lia ZArith QArith Qabs List Bool.
From Verif Require Import Base Var Binary Num Flt Transc Spec SpecApi SpecRoot SpecLn QDec Digits Arith Strip Round AddSub Signed Codec Make Api1 Api2 Sqrt
  DivFast PowApi LnOps LnSqrt LnQR LnRed LnReal LnSeries.
Import ListNotations.
Open Scope R_scope.

Lemma mult_self v : mult (vval v) (Z.max 0 (- (4 * lsd v))).
Proof. unfold vval. apply mult_dec. lia. Qed.

Lemma e10_m1 : e10 (-1) = / 10.
Proof. unfold powerRZ. f_equal. replace (Pos.to_nat 1) with 1%nat by reflexivity. cbn [pow]. ring. Qed.
Lemma e10_1 : e10 1 = 10.
Proof. unfold powerRZ.  replace (Pos.to_nat 1) with 1%nat by reflexivity. cbn [pow]. ring. Qed.
Lemma near_one_weight x : arg x -> 9 / 10 < rv x < 11 / 10 -> (-1 <= weight x <= 0)%Z.
Proof.
  intros A H. destruct (arg_range x A) as [Lo Hi]. apply Qle_Rle in Lo. apply Qlt_Rlt in Hi. rewrite Q2R_p10 in Lo, Hi. fold (rv x) in *.
  split.
  - destruct (Z_le_gt_dec (-1) (weight x)) as [L|L]; [exact L|exfalso].
    assert (K : e10 (4 * (weight x + 1)) <= e10 (-1)) by (apply e10_le; lia).
    rewrite e10_m1 in K. lra.
  - destruct (Z_le_gt_dec (weight x) 0) as [L|L]; [exact L|exfalso].
    assert (K : e10 1 <= e10 (4 * weight x)) by (apply e10_le; lia).
    rewrite e10_1 in K. lra.
Qed.

Lemma rv_one : rv ONE = 1.
Proof. unfold rv. rewrite (Qeq_eqR _ 1%Q) by (vm_compute; reflexivity). apply RMicromega.Q2R_1. Qed.

(** (x-1)/(x+1) *)
Lemma first_term x : 9 / 10 < x < 11 / 10 ->
  let t := (x - 1) / (x + 1) in Rabs t <= 1 / 19 /\ ln (1 + t) - ln (1 - t) = ln x.
Proof.
  intros H t. assert (P : 0 < x + 1) by lra.
  assert (E1 : 1 + t = 2 * x * / (x + 1)) by (unfold t; field; lra).
  assert (E2 : 1 - t = 2 * / (x + 1)) by (unfold t; field; lra).
  pose proof (Rinv_0_lt_compat _ P) as Pi. split.
  - assert (B : - (1 / 19) * (x + 1) <= x - 1 <= 1 / 19 * (x + 1)) by lra.
    apply Rabs_le. unfold t. split.
    + apply (Rmult_le_reg_r (x + 1)); [exact P|]. unfold Rdiv at 2. rewrite Rmult_assoc, Rinv_l by lra. lra.
    + apply (Rmult_le_reg_r (x + 1)); [exact P|]. unfold Rdiv at 1. rewrite Rmult_assoc, Rinv_l by lra. lra.
  - rewrite E1, E2, !ln_mult by (try assumption; lra). ring.
Qed.

(** The series part *)
Lemma ln_tail c fuel x S : arg x -> 9 / 10 < rv x < 11 / 10 -> (8 <= S <= 5008)%Z ->
  let o := (result <- sub_common c x ONE ;;
            elem <- add_common c x ONE ;;
            o <- div_fast_common c result elem S true ;;
            result <- expect o MDivZero ;;
            x <- mul_common c result result S ;;
            ln_series c fuel result result x ONE S) in
  (o = Diverge /\ (2 * Z.of_nat fuel <= S)%Z) \/ (o = Panic WArith /\ dbg c = true /\ ~ mult (vval x) 80) \/
  (exists r, o = Ret r /\ item S r /\ Rabs (2 * rv r - ln (rv x)) <= (249 / 100 + 73 / 100 * IZR S) * e10 (- S)).
Proof.
  intros A H HS. cbv zeta. pose proof (near_one_weight x A H) as W. pose proof (ag_scale _ A) as Ds.
  destruct (sub_op c x ONE (ag_semi _ A) (stripped_semi _ one_st0) Ds ltac:(cbn; lia)) as (r1 & -> & T1 & _ & V1). cbn [bind].
  destruct (add_op c x ONE (ag_semi _ A) (stripped_semi _ one_st0) Ds ltac:(cbn; lia)) as (r2 & -> & T2 & _ & V2). cbn [bind].
  assert (R1 : rv r1 = rv x - 1) by (rewrite (rv_eq _ _ V1), Q2R_minus; fold (rv x); fold (rv ONE); rewrite rv_one; ring).
  assert (R2 : rv r2 = rv x + 1) by (rewrite (rv_eq _ _ V2), Q2R_plus; fold (rv x); fold (rv ONE); rewrite rv_one; ring).
  assert (B1 : (weight r1 <= 0)%Z).
  { apply (semi_weight r1 0); [apply T1|lia|]. apply rv_lt_Q. rewrite Q2R_p10, R1.
    assert (K : e10 0 <= e10 (4 * (0 + 1))) by (apply e10_le; lia). change (e10 0) with 1 in K.
    apply (Rlt_le_trans _ 1); [|exact K]. apply Rabs_def1; lra. }
  assert (N2 : digits r2 <> []).
  { intro E. assert (rv r2 = 0) by (rewrite (rv_eq _ _ (vval_empty r2 E)); apply RMicromega.Q2R_0). lra. }
  assert (B2 : (0 <= weight r2)%Z).
  { destruct (semi_range r2 (proj1 T2) N2) as [_ U]. apply Qlt_Rlt in U. rewrite Q2R_p10, Q2R_abs in U. fold (rv r2) in U.
    rewrite R2, Rabs_pos_eq in U by lra. destruct (Z_le_gt_dec 0 (weight r2)) as [L|L]; [exact L|exfalso].
    assert (K : e10 (4 * (weight r2 + 1)) <= e10 0) by (apply e10_le; lia). change (e10 0) with 1 in K. lra. }
  assert (L1 : (ndigits r1 <= 200000)%Z).
  { set (s := Z.max 0 (- (4 * lsd x))). pose proof (ag_len _ A) as Lx.
    assert (Hs : (0 <= s <= 4 * 100001)%Z) by (unfold s, lsd; unfold ndigits in *; pose proof (lenz_nonneg (digits x)); lia).
    pose proof (tidy_len r1 s T1) as K.
    assert (4 * ndigits r1 < 4 * Z.max 0 (weight r1 + 1) + 4 + s)%Z; [|lia].
    apply K; [|lia]. apply (mult_comp _ _ _ (Qeq_sym _ _ V1)). apply mult_sub; [apply mult_self|].
    apply (mult_up _ 0); [lia|]. apply (mult_comp (inject_Z 1)); [vm_compute; reflexivity|]. apply mult_Z. lia. }
  destruct (div_op c r1 r2 S (proj1 T1) (proj1 T2) N2) as [(r & -> & O)|(D & G21 & ->)]; [unfold df_bounds; lia|lia| |].
  2:{ right. left. split; [reflexivity|]. split; [exact D|]. intro M80.
      assert (W2 : (weight r2 <= 0)%Z).
      { apply (semi_weight r2 0); [apply T2|lia|]. apply rv_lt_Q. rewrite Q2R_p10, R2, Rabs_pos_eq by lra.
        assert (K : e10 1 <= e10 (4 * (0 + 1))) by (apply e10_le; lia). rewrite e10_1 in K. lra. }
      assert (M2 : mult (vval r2) 80).
      { apply (mult_comp _ _ _ (Qeq_sym _ _ V2)). apply mult_add; [exact M80|].
        apply (mult_comp (inject_Z 1)); [vm_compute; reflexivity|]. apply mult_Z. lia. }
      pose proof (tidy_len r2 80 T2 M2 ltac:(lia)). lia. }
  cbn [bind expect]. destruct (first_term (rv x) H) as [Ht Hl]. set (t := (rv x - 1) / (rv x + 1)) in *.
  assert (E0 : Rabs (rv r - t) <= 500000001 / 1000000000 * e10 (- S)).
  { pose proof (off_by_R _ _ _ _ O) as K. rewrite Q2R_div in K.
    2:{ intro Z. apply N2. now apply (semi_zero_iff r2 (proj1 T2)). }
    fold (rv r1) in K. fold (rv r2) in K. rewrite R1, R2 in K.
    replace (Q2R ((1 # 2) + tiny)) with (500000001 / 1000000000) in K; [exact K|].
    rewrite Q2R_plus. unfold Q2R, tiny. cbn. lra. }
  pose proof (e10_small S ltac:(lia)) as U. set (u := e10 (- S)) in *.
  pose proof (off_item _ _ _ _ O) as I0.
  assert (B0 : Rabs (rv r) <= 1).
  { replace (rv r) with (t + (rv r - t)) by ring. eapply Rle_trans; [apply Rabs_triang|]. lra. }
  destruct (item_mul c S r r I0 I0 B0 B0 ltac:(lia)) as (y & -> & Iy & Ey). cbn [bind]. fold u in Ey.
  assert (Ey2 : Rabs (rv y - t * t) <= 68 / 100 * u).
  { pose proof (mul_err _ _ _ _ _ _ E0 E0) as M.
    replace (rv y - t * t) with ((rv y - rv r * rv r) + (rv r * rv r - t * t)) by ring.
    eapply Rle_trans; [apply Rabs_triang|]. pose proof (Rabs_pos t).
    assert ((Rabs t + 500000001 / 1000000000 * u) * (500000001 / 1000000000 * u) <= (1 / 19 + 1 / 1000) * (500000001 / 1000000000 * u))
      by (apply Rmult_le_compat_r; lra).
    assert (Rabs t * (500000001 / 1000000000 * u) <= 1 / 19 * (500000001 / 1000000000 * u)) by (apply Rmult_le_compat_r; lra).
    lra. }
  assert (S0 : ser S t 0 r r ONE).
  { constructor; auto.
    - replace (art 1 t) with t by (cbn; field). fold u. cbn [INR]. lra.
    - replace (t ^ (2 * 0 + 1)) with t by (cbn; ring). fold u. lra.
    - exact one_int.
    - lia. }
  destruct (series_spec c S t y HS Ht Iy Ey2 fuel 0 r r ONE S0) as [[-> Hd]|(z & -> & Iz & Ez)]; [left; split; [reflexivity|lia]|].
  right. right. exists z. rewrite Hl in Ez. auto.
Qed.

Lemma ln_common_unfold c fuel v rscale : arg v ->
  ln_common c fuel v rscale =
  ('(x, fact) <- ('(x, fact) <- ln_reduce c fuel fuel (keep_low c) v TWO rscale ;;
                  ln_reduce c fuel fuel (keep_high c) x fact rscale) ;;
   result <- (result <- sub_common c x ONE ;;
              elem <- add_common c x ONE ;;
              o <- div_fast_common c result elem (rscale + 8) true ;;
              result <- expect o MDivZero ;;
              x <- mul_common c result result (rscale + 8) ;;
              ln_series c fuel result result x ONE (rscale + 8)) ;;
   mul_common c result fact rscale).
Proof.
  intro A. unfold ln_common. rewrite (nan_ok c v (sm_nan _ (ag_semi _ A))). cbn [bind].
  assert (E : (if dbg c then s <- cmp_common c v ZERO ;; dassert c (0 <? s)%Z else Ret tt) = Ret tt).
  { destruct (cmp_const c v ZERO A ZERO_st) as (s & -> & Hs). assert (Z : rv ZERO = 0).
    { rewrite (rv_eq _ _ ZERO_val). apply RMicromega.Q2R_0. }
    pose proof (arg_rv v A). destruct Hs as [[-> K]|[[-> K]|[-> K]]]; try (exfalso; lra). destruct (dbg c); [|reflexivity].
    cbn [bind]. now rewrite dassert_ok. }
  rewrite E. cbn [bind]. unfold keep_low, keep_high.
  set (k1 := fun x : var => s <- cmp_common c x ZERO_POINT_NINE ;; Ret (s <=? 0)%Z).
  set (k2 := fun x : var => s <- cmp_common c x ONE_POINT_ONE ;; Ret (0 <=? s)%Z).
  destruct (ln_reduce c fuel fuel k1 v TWO rscale) as [[x1 f1]|w| |]; cbn [bind]; try reflexivity.
  destruct (ln_reduce c fuel fuel k2 x1 f1 rscale) as [[x f]|w| |]; cbn [bind]; try reflexivity.
  destruct (sub_common c x ONE) as [a|w| |]; cbn [bind]; try reflexivity.
  destruct (add_common c x ONE) as [b|w| |]; cbn [bind]; try reflexivity.
  destruct (div_fast_common c a b (rscale + 8) true) as [d|w| |]; cbn [bind]; try reflexivity.
  destruct (expect d MDivZero) as [e|w| |]; cbn [bind]; try reflexivity.
  destruct (mul_common c e e (rscale + 8)) as [y|w| |]; cbn [bind]; reflexivity.
Qed.

Lemma Rabs_ln_arg v : arg v -> Rabs (ln (rv v)) <= 1180000.
Proof.
  intro A. destruct (arg_range v A) as [Lo Hi]. apply Qle_Rle in Lo. apply Qlt_Rlt in Hi. rewrite Q2R_p10 in Lo, Hi. fold (rv v) in *.
  pose proof (ag_wt _ A) as W. pose proof ln_10_pos as [P9 L9].
  pose proof (ln_mono _ _ (e10_pos _) Lo) as G1. pose proof (ln_mono _ _ (arg_rv v A) (Rlt_le _ _ Hi)) as G2.
  rewrite ln_e10 in G1, G2.
  assert (Z1 : -16384 <= IZR (4 * weight v)) by (apply IZR_le; lia).
  assert (Z2 : IZR (4 * (weight v + 1)) <= 131072) by (apply IZR_le; lia).
  assert (-16384 * ln 10 <= IZR (4 * weight v) * ln 10) by (apply Rmult_le_compat_r; lra).
  assert (IZR (4 * (weight v + 1)) * ln 10 <= 131072 * ln 10) by (apply Rmult_le_compat_r; lra).
  apply Rabs_le. lra.
Qed.

Lemma IZR_pow2 k : IZR (2 ^ (Z.of_nat k + 1)) = 2 * 2 ^ k.
Proof.
  rewrite Z.pow_add_r by lia. rewrite mult_IZR, Z.pow_1_r. rewrite <- pow_IZR. ring.
Qed.

Lemma pow2_len k fact : pow2 k fact -> 2 * 2 ^ k < 100000000 -> (ndigits fact <= 2)%Z.
Proof.
  intros (T & D & V) H. assert (R : rv fact = 2 * 2 ^ k) by (rewrite (rv_eq _ _ V), Q2R_Z; apply IZR_pow2).
  pose proof (pow_lt 2 k ltac:(lra)) as P.
  assert (W : (weight fact <= 1)%Z).
  { apply (semi_weight fact 1); [now apply stripped_semi|lia|]. apply rv_lt_Q. rewrite Q2R_p10, R, Rabs_pos_eq by lra.
    change (4 * (1 + 1))%Z with 8%Z.
    replace (e10 8) with 100000000; [exact H|].
    unfold powerRZ. replace (Pos.to_nat 8) with 8%nat by reflexivity. cbn [pow]. ring. }
  pose proof (tidy_len fact 0 (stripped_tidy _ T)) as K.
  assert (4 * ndigits fact < 4 * Z.max 0 (weight fact + 1) + 4 + 0)%Z; [|lia]. apply K; [|lia].
  apply (mult_comp _ _ _ (Qeq_sym _ _ V)). apply mult_Z. lia.
Qed.

Theorem ln_common_spec c fuel v rscale : arg v -> (0 <= rscale <= 5000)%Z ->
  let o := ln_common c fuel v rscale in
  o = Diverge \/ (o = Panic WArith /\ dbg c = true) \/
  (exists r, o = Ret r /\ stripped r /\ dscale r = rscale /\ mult (vval r) rscale /\
     Rabs (rv r - ln (rv v)) <= ln_error rscale (ln (rv v))).
Proof.
  intros A HR o. subst o. rewrite (ln_common_unfold c fuel v rscale A).
  destruct (both_loops c fuel v rscale A ltac:(lia)) as [->|[[-> D]|(k & x & fact & -> & Re & Hx)]]; cbn [bind];
    [now left|right; left; auto|].
  destruct Re as [Ax Pf Er Ct].
  destruct (ln_tail c fuel x (rscale + 8) Ax Hx ltac:(lia)) as [[-> _]|[[-> [D _]]|(r & -> & Ir & Err)]]; cbn [bind];
    [now left|right; left; auto|].
  right. right. pose proof (Rabs_ln_arg v A) as Bl. set (l := ln (rv v)) in *. pose proof (Rabs_pos l) as L0.
  pose proof (pow_lt 2 k ltac:(lra)) as P2.
  assert (C2 : 2 ^ k <= 1 + 225 / 10 * Rabs l).
  { destruct Ct as [->|Ct]; [cbn [pow]; lra|lra]. }
  pose proof (pow2_len k fact Pf ltac:(lra)) as Lf. destruct Pf as (Tf & Df & Vf).
  destruct (mul_op c r fact rscale 3 (proj1 (it_tidy _ _ Ir)) (stripped_semi _ Tf) ltac:(lia) ltac:(lia)) as (y & -> & O).
  exists y. split; [reflexivity|]. pose proof (off_by_R _ _ _ _ O) as Ey. destruct O as (Ty & Dy & My & _).
  split; [exact Ty|]. split; [exact Dy|]. split; [exact My|].
  rewrite Q2R_mult in Ey. fold (rv r) in Ey. rewrite (Qeq_eqR _ _ Vf), Q2R_Z, IZR_pow2 in Ey.
  replace (Q2R ((1 # 2) + inject_Z 3 * (1 # 10000))) with (5003 / 10000) in Ey.
  2:{ rewrite Q2R_plus, Q2R_mult. unfold Q2R. cbn. lra. }
  set (S := (rscale + 8)%Z) in *.
  assert (ES : e10 (- S) = e10 (- rscale) * / 100000000).
  { unfold S. replace (- (rscale + 8))%Z with (- rscale + -8)%Z by lia. now rewrite e10_add, e10_m8. }
  assert (IS : IZR S = IZR rscale + 8) by (unfold S; now rewrite plus_IZR).
  assert (G : Rabs (2 * rv r - l / 2 ^ k) <= (351 / 100 + 73 / 100 * IZR S) * e10 (- S)).
  { replace (2 * rv r - l / 2 ^ k) with ((2 * rv r - ln (rv x)) + (ln (rv x) - l / 2 ^ k)) by ring.
    eapply Rle_trans; [apply Rabs_triang|]. lra. }
  assert (G2 : Rabs (rv r * (2 * 2 ^ k) - l) <= 2 ^ k * ((351 / 100 + 73 / 100 * IZR S) * e10 (- S))).
  { replace (rv r * (2 * 2 ^ k) - l) with (2 ^ k * (2 * rv r - l / 2 ^ k)) by (field; lra).
    rewrite Rabs_mult, (Rabs_pos_eq (2 ^ k)) by lra. apply Rmult_le_compat_l; lra. }
  assert (R0 : 0 <= IZR rscale) by (apply IZR_le; lia). pose proof (e10_pos (- rscale)) as U. set (u := e10 (- rscale)) in *.
  replace (rv y - l) with ((rv y - rv r * (2 * 2 ^ k)) + (rv r * (2 * 2 ^ k) - l)) by ring.
  eapply Rle_trans; [apply Rabs_triang|]. unfold ln_error. fold u.
  assert (G3 : 2 ^ k * ((351 / 100 + 73 / 100 * IZR S) * e10 (- S)) <= (1 + 23 * Rabs l) * ((IZR rscale + 10) * (u * / 100000000))).
  { apply Rmult_le_compat; [lra| |lra|].
    - rewrite ES, IS. apply Rmult_le_pos; [lra|]. apply Rmult_le_pos; lra.
    - rewrite ES, IS. apply Rmult_le_compat_r; [apply Rmult_le_pos; lra|]. lra. }
  unfold Rdiv in *. lra.
Qed.

(** Between 0.9 and 1.1 no square root is taken: the computation ends. *)
Lemma ln_common_ends c fuel v rscale : arg v -> 9 / 10 < rv v < 11 / 10 -> (0 <= rscale <= 5000)%Z -> (rscale + 8 < 2 * Z.of_nat fuel)%Z ->
  (dbg c = true -> mult (vval v) 80) -> exists r, ln_common c fuel v rscale = Ret r.
Proof.
  intros A H HR HF HM. rewrite (ln_common_unfold c fuel v rscale A). destruct fuel as [|f]; [lia|].
  rewrite !ln_reduce_S. destruct (keep_low_spec c v A) as [[_ K]|[-> _]]; [lra|]. cbn [bind].
  rewrite ln_reduce_S. destruct (keep_high_spec c v A) as [[_ K]|[-> _]]; [lra|]. cbn [bind].
  destruct (ln_tail c (S f) v (rscale + 8) A H ltac:(lia)) as [[_ K]|[[_ [D M]]|(r & -> & Ir & Err)]]; cbn [bind]; [lia|exfalso; auto|].
  destruct (mul_op c r TWO rscale _ (proj1 (it_tidy _ _ Ir)) (stripped_semi _ two_st) ltac:(lia) (Z.le_refl _)) as (y & -> & _).
  now exists y.
Qed.

(** ** The function *)
Lemma estimate_outcome c m v : arg v ->
  (exists d, estimate_ln_dweight c m v = Ret d) \/ (estimate_ln_dweight c m v = Panic WArith /\ dbg c = true).
Proof.
  intro A. unfold estimate_ln_dweight. rewrite (nan_ok c v (sm_nan _ (ag_semi _ A))). cbn [bind].
  destruct (cmp_const c v _ A nine_st) as (lo & -> & _). cbn [bind].
  assert (H : exists hi, (if (0 <=? lo)%Z then cmp_common c v ONE_POINT_ONE else Ret 1%Z) = Ret hi).
  { destruct (0 <=? lo)%Z; [|now exists 1%Z]. destruct (cmp_const c v _ A eleven_st) as (hi & -> & _). now exists hi. }
  destruct H as (hi & ->). cbn [bind]. destruct ((0 <=? lo) && (hi <=? 0))%Z.
  - destruct (sub_op c v ONE (ag_semi _ A) (stripped_semi _ one_st0) (ag_scale _ A) ltac:(cbn; lia)) as (r & -> & _). cbn [bind].
    destruct (Z.ltb_spec 0 (ndigits r)) as [L|L]; [|left; now exists 0%Z].
    unfold ndigits in L. destruct (digits r) as [|d t]; [cbn in L; lia|]. change (index (d :: t) 0) with (Ret d). cbn [bind].
    unfold i32, arith. destruct (fits 32 _); [left; eexists; reflexivity|].
    destruct (dbg c) eqn:D; [right; split; reflexivity|left; eexists; reflexivity].
  - pose proof (arg_nz v A) as N. unfold ndigits. destruct (digits v) as [|d t] eqn:E; [congruence|].
    destruct (0 <? lenz (d :: t))%Z; [|left; now exists 0%Z].
    change (index (d :: t) 0) with (Ret d). cbn [bind]. left.
    destruct (Z.ltb_spec 1 (lenz (d :: t))) as [L|L]; [|eexists; reflexivity].
    destruct t as [|d' t]; [cbn in L; lia|]. change (index (d :: d' :: t) 1) with (Ret d'). cbn [bind]. eexists. reflexivity.
Qed.

Lemma canon_arg v : canon v -> (0 < vval v)%Q -> arg v.
Proof.
  intros C P. pose proof (cn_scale v C) as S. pose proof (canon_ndigits v C). pose proof (cn_weight v C).
  assert (-4096 <= weight v)%Z.
  { apply weight_lb; [apply C|exact S|now apply canon_mult|]. intro E. rewrite E in P. now apply Qlt_irrefl in P. }
  constructor; auto; try lia. now apply canon_semi.
Qed.

Lemma ln_var_spec c m fuel v : canon v -> (0 < vval v)%Q ->
  let o := ln_var c m fuel v in
  o = Diverge \/ (o = Panic WArith /\ dbg c = true) \/
  (exists d rs r, estimate_ln_dweight c m v = Ret d /\
     (exists dx, i32 c (16 - d) = Ret dx /\ rs = Z.min (Z.max (Z.max dx (dscale v)) 0) 1000) /\
     o = Ret r /\ stripped r /\ dscale r = rs /\ mult (vval r) rs /\
     Rabs (rv r - ln (rv v)) <= ln_error rs (ln (rv v))).
Proof.
  intros C P o. subst o. pose proof (canon_arg v C P) as A. unfold ln_var. rewrite (nan_ok c v (canon_nan v C)). cbn [bind].
  destruct (cmp_zero c v (cn_st v C)) as (s & -> & Hs). cbn [bind].
  assert (s = 1%Z) as ->. { destruct Hs as [[_ K]|[[E _]|[_ K]]]; [exfalso; rewrite K in P; now apply Qlt_irrefl in P|exact E|].
    exfalso. apply (Qlt_irrefl 0). eapply Qlt_trans; [exact P|exact K]. }
  change (negb (1 =? 0))%Z with true. change (0 <? 1)%Z with true. cbn [assert_msg bind].
  destruct (estimate_outcome c m v A) as [[d Ed]|[-> D]]; [|right; left; now split].
  rewrite Ed. cbn [bind].
  change NUMERIC_MIN_SIG_DIGITS with 16%Z.
  destruct (i32 c (16 - d)) as [dx|w| |] eqn:Ex.
  2:{ unfold i32, arith in Ex. destruct (fits 32 (16 - d)); [discriminate|]. destruct (dbg c); [|discriminate]. injection Ex as <-.
      right. left. now split. }
  2:{ unfold i32, arith in Ex. destruct (fits 32 (16 - d)); [discriminate|]. destruct (dbg c); discriminate. }
  2:{ unfold i32, arith in Ex. destruct (fits 32 (16 - d)); [discriminate|]. destruct (dbg c); discriminate. }
  cbn [bind]. set (rs := clamp_scale (Z.max dx (dscale v))).
  assert (Ers : rs = Z.min (Z.max (Z.max dx (dscale v)) 0) 1000) by reflexivity.
  destruct (ln_common_spec c fuel v rs A ltac:(lia)) as [->|[[-> D]|(r & -> & T & Dr & M & Er)]]; [now left|right; left; now split|].
  right. right. exists d, rs, r. split; [reflexivity|]. split; [exists dx; now split|]. auto 6.
Qed.

Lemma ln_weight r rs l : stripped r -> (0 <= rs <= 1000)%Z -> Rabs l <= 1180000 -> Rabs (rv r - l) <= ln_error rs l -> (weight r <= 2)%Z.
Proof.
  intros T H L E. apply (semi_weight r 2); [now apply stripped_semi|lia|]. apply rv_lt_Q. rewrite Q2R_p10.
  change (4 * (2 + 1))%Z with 12%Z.
  assert (K : e10 8 <= e10 12) by (apply e10_le; lia).
  assert (E8 : e10 8 = 100000000) by (unfold powerRZ; replace (Pos.to_nat 8) with 8%nat by reflexivity; cbn [pow]; ring).
  apply (Rlt_le_trans _ (e10 8)); [|exact K]. rewrite E8.
  assert (U : ln_error rs l <= 10000).
  { unfold ln_error. pose proof (Rabs_pos l). assert (R0 : 0 <= IZR rs <= 1000) by (split; apply IZR_le; lia).
    assert (U1 : e10 (- rs) <= e10 0) by (apply e10_le; lia). change (e10 0) with 1 in U1. pose proof (e10_pos (- rs)) as U0.
    assert (B : 0 <= (1 + 23 * Rabs l) * (IZR rs + 10) <= (1 + 23 * 1180000) * 1010).
    { split; [apply Rmult_le_pos; lra|apply Rmult_le_compat; lra]. }
    assert (B2 : 0 <= 5003 / 10000 + (1 + 23 * Rabs l) * (IZR rs + 10) / 100000000 <= 10000) by lra.
    rewrite <- (Rmult_1_r 10000). apply Rmult_le_compat; lra. }
  replace (rv r) with (l + (rv r - l)) by ring. eapply Rle_lt_trans; [apply Rabs_triang|]. lra.
Qed.

Theorem ln_api c m fuel x q s : stores (be_varlen c) x q s -> (0 < q)%Q ->
  let o := num_ln c m fuel x in
  o = Diverge \/ (o = Panic WArith /\ dbg c = true) \/
  (exists y r s', o = Ret y /\ stores (be_varlen c) y r s' /\ (Z.min 1000 s <= s' <= 1000)%Z /\
     Rabs (Q2R r - ln (Q2R q)) <= ln_error s' (ln (Q2R q))).
Proof.
  intros H Q. cbv zeta. destruct (stores_elim _ _ _ _ H) as (v & C & -> & V & E). pose proof (canon_storable v C) as St.
  unfold num_ln. rewrite (num_is_nan_spec c v St). cbn [bind]. rewrite (as_var_spec c v St). cbn [bind].
  assert (P : (0 < vval v)%Q) by now rewrite V.
  destruct (ln_var_spec c m fuel v C P) as [->|[[-> D]|(d & rs & r & _ & (dx & _ & Ers) & -> & T & Dr & M & Er)]]; cbn [bind];
    [now left|right; left; now split|].
  pose proof (cn_scale v C) as Sv. pose proof (Rabs_ln_arg v (canon_arg v C P)) as Bl.
  pose proof (ln_weight r rs _ T ltac:(lia) Bl Er) as W.
  destruct (make_no_overflow_spec c r) as (y & Ey & Sy).
  { apply T. } { apply T. } { lia. } { rewrite Dr. exact M. } { lia. }
  right. right. exists y, (vval r), rs. split; [exact Ey|]. split; [rewrite <- Dr; exact Sy|]. split; [lia|].
  fold (rv r). rewrite <- (Qeq_eqR _ _ V). exact Er.
Qed.
