(** * MachLnTail: the series part of the logarithm and the whole of it, machine level (MachLn.v) against Transc.v. *)
From Coq Require Import Reals Qreals Lra Lia ZArith QArith Qabs List Bool.
From Verif Require Import Base Var Binary Format Parse Convert Num Flt Transc Data Spec SpecApi SpecRoot SpecLn SpecData SpecMach QDec Digits Arith Strip Round AddSub Signed Codec Make Api1 Api2 Sqrt
  DivFast PowApi LnOps LnSqrt LnQR LnRed LnReal LnSeries LnApi LnStep DataSim DataBuf DataApi
  Mach MachSim MachAdd MachMul MachDiv MachApi MachText MachConv MachFast MachDivFast MachSqrt MachPow MachPowSim MachLn MachLnSim.
Import ListNotations.
Open Scope Z_scope.

Lemma tidy_low v s : tidy v -> mult (vval v) s -> 0 <= s -> - s - 4 <= 4 * weight v \/ weight v = 0.
Proof.
  intros T M Hs. destruct (digits v) as [|d t] eqn:E.
  - right. exact (sm_zero v (proj1 T) E).
  - left. assert (N : digits v <> []) by congruence. destruct (semi_range v (proj1 T) N) as [_ U].
    assert (L : (p10 (- s) <= Qabs (vval v))%Q) by (apply mult_lb; [exact M|]; intro Z0; apply N; now apply (semi_zero_iff v (proj1 T))).
    pose proof (Qle_lt_trans _ _ _ L U) as K. apply (proj1 (p10_lt_iff _ _)) in K. lia.
Qed.

(** x - 1 and x + 1 *)
Record parts (c : cfg) (x r1 r2 : var) : Prop := {
  pt_sub : sub_common c x ONE = Ret r1;
  pt_add : add_common c x ONE = Ret r2;
  pt_t1 : tidy r1;
  pt_t2 : tidy r2;
  pt_v1 : (rv r1 = rv x - 1)%R;
  pt_v2 : (rv r2 = rv x + 1)%R;
  pt_w1 : weight r1 <= 0;
  pt_w2 : 0 <= weight r2;
  pt_l1 : ndigits r1 <= 200000;
  pt_nz : digits r2 <> [];
  pt_in1 : within 300000 r1;
  pt_in2 : within 300000 r2
}.
Lemma near_parts c x : arg x -> (9 / 10 < rv x < 11 / 10)%R -> exists r1 r2, parts c x r1 r2.
Proof.
  intros A H. pose proof (near_one_weight x A H) as W. pose proof (ag_scale _ A) as Ds.
  destruct (sub_op c x ONE (ag_semi _ A) (stripped_semi _ one_st0) Ds ltac:(cbn; lia)) as (r1 & E1 & T1 & D1 & V1).
  destruct (add_op c x ONE (ag_semi _ A) (stripped_semi _ one_st0) Ds ltac:(cbn; lia)) as (r2 & E2 & T2 & D2 & V2).
  assert (R1 : (rv r1 = rv x - 1)%R) by (rewrite (rv_eq _ _ V1), Q2R_minus; fold (rv x); fold (rv ONE); rewrite rv_one; ring).
  assert (R2 : (rv r2 = rv x + 1)%R) by (rewrite (rv_eq _ _ V2), Q2R_plus; fold (rv x); fold (rv ONE); rewrite rv_one; ring).
  assert (B1 : weight r1 <= 0).
  { apply (semi_weight r1 0); [apply T1|lia|]. apply rv_lt_Q. rewrite Q2R_p10, R1.
    assert (K : (e10 0 <= e10 (4 * (0 + 1)))%R) by (apply e10_le; lia). change (e10 0) with 1%R in K.
    apply (Rlt_le_trans _ 1); [|exact K]. apply Rabs_def1; lra. }
  assert (N2 : digits r2 <> []).
  { intro E. assert (rv r2 = 0)%R by (rewrite (rv_eq _ _ (vval_empty r2 E)); apply RMicromega.Q2R_0). lra. }
  assert (B2 : 0 <= weight r2 <= 0).
  { split.
    - destruct (semi_range r2 (proj1 T2) N2) as [_ U]. apply Qlt_Rlt in U. rewrite Q2R_p10, Q2R_abs in U. fold (rv r2) in U.
      rewrite R2, Rabs_pos_eq in U by lra. destruct (Z_le_gt_dec 0 (weight r2)) as [L|L]; [exact L|exfalso].
      assert (K : (e10 (4 * (weight r2 + 1)) <= e10 0)%R) by (apply e10_le; lia). change (e10 0) with 1%R in K. lra.
    - apply (semi_weight r2 0); [apply T2|lia|]. apply rv_lt_Q. rewrite Q2R_p10, R2, Rabs_pos_eq by lra.
      assert (K : (e10 1 <= e10 (4 * (0 + 1)))%R) by (apply e10_le; lia). rewrite e10_1 in K. lra. }
  set (s := Z.max 0 (- (4 * lsd x))). pose proof (ag_len _ A) as Lx.
  assert (Hs : 0 <= s <= 4 * 100001) by (unfold s, lsd; unfold ndigits in *; pose proof (lenz_nonneg (digits x)); lia).
  assert (M1 : mult (vval ONE) s).
  { apply (mult_up _ 0); [lia|]. apply (mult_comp (inject_Z 1)); [vm_compute; reflexivity|]. apply mult_Z. lia. }
  assert (Mr1 : mult (vval r1) s) by (apply (mult_comp _ _ _ (Qeq_sym _ _ V1)); apply mult_sub; [apply mult_self|exact M1]).
  assert (Mr2 : mult (vval r2) s) by (apply (mult_comp _ _ _ (Qeq_sym _ _ V2)); apply mult_add; [apply mult_self|exact M1]).
  pose proof (tidy_len r1 s T1 Mr1 ltac:(lia)) as L1. pose proof (tidy_len r2 s T2 Mr2 ltac:(lia)) as L2.
  pose proof (tidy_low r1 s T1 Mr1 ltac:(lia)) as W1.
  exists r1, r2. constructor; auto; try lia; unfold within; rewrite ?D1, ?D2; change (dscale ONE) with 0; lia.
Qed.

(** (x-1)/(x+1) *)
Lemma first_item c x r1 r2 S r : arg x -> (9 / 10 < rv x < 11 / 10)%R -> 8 <= S <= 5008 -> parts c x r1 r2 ->
  div_fast_common c r1 r2 S true = Ret (Some r) ->
  let t := ((rv x - 1) / (rv x + 1))%R in
  item S r /\ (Rabs t <= 1 / 19)%R /\ (Rabs (rv r) <= 1)%R /\ (Rabs (rv r - t) <= 500000001 / 1000000000 * e10 (- S))%R /\
  exists y, mul_common c r r S = Ret y /\ item S y /\ (Rabs (rv y - t * t) <= 68 / 100 * e10 (- S))%R.
Proof.
  intros A H HS [_ _ T1 T2 R1 R2 B1 B2 L1 N2 _ _] Er t.
  destruct (div_op c r1 r2 S (proj1 T1) (proj1 T2) N2) as [(r' & E & O)|(_ & _ & E)]; [unfold df_bounds; lia|lia| |];
    rewrite Er in E; [|discriminate]. apply Ret_inj in E. injection E as <-.
  destruct (first_term (rv x) H) as [Ht _]. fold t in Ht.
  assert (E0 : (Rabs (rv r - t) <= 500000001 / 1000000000 * e10 (- S))%R).
  { pose proof (off_by_R _ _ _ _ O) as K. rewrite Q2R_div in K.
    2:{ intro Z. apply N2. now apply (semi_zero_iff r2 (proj1 T2)). }
    fold (rv r1) in K. fold (rv r2) in K. rewrite R1, R2 in K.
    replace (Q2R ((1 # 2) + tiny)) with (500000001 / 1000000000)%R in K; [exact K|].
    rewrite Q2R_plus. unfold Q2R, tiny. cbn. lra. }
  pose proof (e10_small S ltac:(lia)) as U. set (u := e10 (- S)) in *.
  pose proof (off_item _ _ _ _ O) as I0.
  assert (B0 : (Rabs (rv r) <= 1)%R).
  { replace (rv r) with (t + (rv r - t))%R by ring. eapply Rle_trans; [apply Rabs_triang|]. lra. }
  destruct (item_mul c S r r I0 I0 B0 B0 ltac:(lia)) as (y & Em & Iy & Ey). fold u in Ey.
  split; [exact I0|]. split; [exact Ht|]. split; [exact B0|]. split; [exact E0|]. exists y. split; [exact Em|]. split; [exact Iy|].
  pose proof (mul_err _ _ _ _ _ _ E0 E0) as M.
  replace (rv y - t * t)%R with ((rv y - rv r * rv r) + (rv r * rv r - t * t))%R by ring.
  eapply Rle_trans; [apply Rabs_triang|]. pose proof (Rabs_pos t).
  assert ((Rabs t + 500000001 / 1000000000 * u) * (500000001 / 1000000000 * u) <= (1 / 19 + 1 / 1000) * (500000001 / 1000000000 * u))%R
    by (apply Rmult_le_compat_r; lra).
  assert (Rabs t * (500000001 / 1000000000 * u) <= 1 / 19 * (500000001 / 1000000000 * u))%R by (apply Rmult_le_compat_r; lra).
  lra.
Qed.
Lemma first_ser S t r : 8 <= S <= 5008 -> item S r -> (Rabs (rv r - t) <= 500000001 / 1000000000 * e10 (- S))%R -> ser S t 0 r r ONE.
Proof.
  intros HS I E. pose proof (e10_pos (- S)) as U. constructor; auto.
  - replace (art 1 t) with t by (cbn; field). cbn [INR]. lra.
  - replace (t ^ (2 * 0 + 1))%R with t by (cbn; ring). lra.
  - exact one_int.
  - lia.
Qed.

Lemma ln_common_m c b fuel p v rscale : arg v -> mrep 40000 p v -> 0 <= rscale <= 5000 ->
  sim (mrep 100000) (m_ln_common c b fuel p rscale) (ln_common c fuel v rscale).
Proof.
  intros A M HR. assert (Mb : mrep big p v) by (apply (in_big 40000); [unfold big; lia|exact M]).
  unfold m_ln_common, ln_common, m_nan, is_nan. rewrite (rp_sign p v (proj1 M)). apply sim_same. intros _ _.
  assert (Z0 : m_cmp_common c p m_zero = cmp_common c v ZERO).
  { change ZERO with zero_var. apply (cmp_common_m c 40000); [lia|exact M|]. exact (mrep_mono 50 40000 _ _ ltac:(lia) zero_m). }
  rewrite Z0. apply sim_same. intros _ _.
  destruct (clone_m c (b 0%nat 0%nat) 40000 p v ltac:(lia) M) as (x0 & Ex & Mx). rewrite Ex, bind_ret.
  destruct (clone_m c (b 0%nat 1%nat) 2 M_TWO TWO ltac:(lia) (two_m 2 ltac:(lia))) as (f0 & Ef & Mf). rewrite Ef, bind_ret.
  set (la := ln (rv v)). pose proof (Rabs_ln_arg v A) as Hla. fold la in Hla.
  assert (R0 : reduced la (rscale + 8) 0 v TWO).
  { constructor; auto using pow2_0. cbn [pow]. unfold la. replace (ln (rv v) - ln (rv v) / 1)%R with 0%R by field. rewrite Rabs_R0.
    pose proof (e10_pos (- (rscale + 8))). lra. }
  assert (KL : forall x, arg x -> exists t, keep_low c x = Ret t /\ (t = true -> 9 / 100 < Rabs (ln (rv x)))%R).
  { intros x Ax. destruct (keep_low_spec c x Ax) as [[E H]|[E H]]; rewrite E.
    - exists true. split; [reflexivity|]. intros _. pose proof (arg_rv x Ax). pose proof (ln_nine (rv x) ltac:(lra)). rewrite Rabs_left; lra.
    - exists false. split; [reflexivity|discriminate]. }
  assert (KH : forall x, arg x -> exists t, keep_high c x = Ret t /\ (t = true -> 9 / 100 < Rabs (ln (rv x)))%R).
  { intros y Ay. destruct (keep_high_spec c y Ay) as [[E H]|[E H]]; rewrite E.
    - exists true. split; [reflexivity|]. intros _. pose proof (ln_eleven (rv y) H). rewrite Rabs_pos_eq; lra.
    - exists false. split; [reflexivity|discriminate]. }
  apply (sim_bind (fun r r' => (mrep big (fst r) (fst r') /\ mrep big (snd r) (snd r')) /\
    exists k, reduced la (rscale + 8) k (fst r') (snd r') /\ 9 / 10 < rv (fst r'))%R).
  { apply sim_spec.
    - apply (reduce_m c fuel (keep_low c) _ rscale la HR Hla KL (m_keep_low c) fuel _ 0%nat 0%nat); [exact R0|apply (in_big (40000 + 5))|apply (in_big (2 + 5))];
        (unfold big; lia) || assumption.
    - intros [x fact] E. cbn [fst snd]. change (ln_reduce c fuel fuel (keep_low c) v TWO rscale = Ret (x, fact)) in E.
      destruct (reduce_spec c fuel (keep_low c) rscale la (fun _ => True) ltac:(lia) KL (fun _ _ _ _ _ _ => Logic.I) fuel 0%nat v TWO R0 Logic.I)
        as [H|[[H _]|(k & x' & f' & H & R1 & _ & K1)]]; rewrite H in E; try discriminate.
      apply Ret_inj in E. injection E as -> ->. exists k. split; [exact R1|].
      destruct (keep_low_spec c x (re_arg _ _ _ _ _ R1)) as [[E _]|[_ L]]; [congruence|exact L]. }
  intros [px pf] [x fact] [[Mx1 Mf1] (k & R1 & L9)]. cbn [fst snd] in *.
  apply (sim_bind (fun r r' => (mrep big (fst r) (fst r') /\ mrep big (snd r) (snd r')) /\
    exists k, reduced la (rscale + 8) k (fst r') (snd r') /\ 9 / 10 < rv (fst r') < 11 / 10)%R).
  { apply sim_spec.
    - apply (reduce_m c fuel (keep_high c) _ rscale la HR Hla KH (m_keep_high c) fuel _ 0%nat k); assumption.
    - intros [x2 fact2] E. cbn [fst snd]. change (ln_reduce c fuel fuel (keep_high c) x fact rscale = Ret (x2, fact2)) in E.
      destruct (reduce_spec c fuel (keep_high c) rscale la (fun x => 9 / 10 < rv x)%R ltac:(lia) KH) with (fuel := fuel) (k := k) (x := x) (fact := fact)
        as [H|[[H _]|(k2 & x' & f' & H & R2 & L9' & K1)]]; auto; try (rewrite H in E; try discriminate).
      { intros y r Ay Ar Ey Hr. destruct (keep_high_spec c y Ay) as [[_ H]|[E' _]]; [|congruence].
        pose proof (ln_eleven (rv y) H) as H1. pose proof (e10_small (rscale + 8) ltac:(lia)) as U.
        apply Rabs_between in Hr. pose proof (arg_rv r Ar) as Pr.
        assert (0 < ln (rv r))%R by lra. pose proof (ln_up (rv r) Pr). lra. }
      apply Ret_inj in E. injection E as -> ->. exists k2. split; [exact R2|]. split; [exact L9'|].
      destruct (keep_high_spec c x2 (re_arg _ _ _ _ _ R2)) as [[E _]|[_ L]]; [congruence|exact L]. }
  clear px pf x fact Mx1 Mf1 k R1 L9.
  intros [px pf] [x fact] [[Mx1 Mf1] (k & R1 & Hx)]. cbn [fst snd] in *.
  rewrite i32_ok by lia. rewrite bind_ret. set (S := rscale + 8). assert (HS : 8 <= S <= 5008) by (unfold S; lia).
  pose proof (re_arg _ _ _ _ _ R1) as Ax. destruct (near_parts c x Ax Hx) as (r1 & r2 & Pt).
  assert (O1 : mrep big M_ONE ONE) by (apply one_m; unfold big; lia). assert (W1 : within 110000 ONE) by (unfold within; cbn; lia).
  apply (sim_bind (fun g g' => mrep (10 * 110000 + 100) g g' /\ g' = r1)).
  { apply sim_spec; [apply sub_t; auto; [lia|now apply arg_within]|]. intros g E. rewrite (pt_sub _ _ _ _ Pt) in E. now apply Ret_inj in E. }
  intros p1 g [Mr1 ->].
  apply (sim_bind (fun g g' => mrep (10 * 110000 + 100) g g' /\ g' = r2)).
  { apply sim_spec; [apply add_t; auto; [lia|now apply arg_within]|]. intros g E. rewrite (pt_add _ _ _ _ Pt) in E. now apply Ret_inj in E. }
  intros p2 g [Mr2 ->].
  apply (sim_bind (fun o o' => orel (mrep (8 * 300000 + 200)) o o' /\ div_fast_common c r1 r2 S true = Ret o')).
  { apply sim_spec; [apply div_fast_m; [lia|lia| | |apply Pt|apply Pt]; apply (in_big (10 * 110000 + 100)); (unfold big; lia) || assumption|].
    intros g E. exact E. }
  intros o o' [Mo Eo]. destruct o as [pr|], o' as [r|]; try contradiction; [|reflexivity]. cbn [orel] in Mo. cbn [expect]. rewrite !bind_ret.
  destruct (first_item c x r1 r2 S r Ax Hx HS Pt Eo) as (Ir & Ht & Br & Er & y & Em & Iy & Ey).
  set (t := ((rv x - 1) / (rv x + 1))%R) in *.
  destruct (clone_m c (b 0%nat 5%nat) (8 * 300000 + 200) pr r ltac:(lia) Mo) as (px2 & Ec & Mc). rewrite Ec, bind_ret.
  pose proof (item_within S r Ir Br ltac:(lia)) as Wr.
  assert (Mrb : mrep big pr r) by (apply (in_big (8 * 300000 + 200)); (unfold big; lia) || assumption).
  apply (sim_bind (fun g g' => mrep (16 * 6000 + 70) g g' /\ g' = y)).
  { apply sim_spec; [apply mul_t; auto; try lia; exact (item_dig _ _ Ir)|]. intros g E. rewrite Em in E. now apply Ret_inj in E. }
  intros py g [My ->].
  destruct (clone_m c (b 0%nat 7%nat) 1 M_ONE ONE ltac:(lia) (one_m 1 ltac:(lia))) as (n0 & En & Mn). rewrite En, bind_ret.
  pose proof (first_ser S t r HS Ir Er) as S0.
  apply (sim_bind (fun g g' => mrep big g g' /\ item S g' /\ (Rabs (rv g') <= 1)%R)).
  { apply sim_spec.
    - apply (series_m c S t y HS Ht Iy Ey py) with (m := 0%nat); auto; [apply (in_big (16 * 6000 + 70))|apply (in_big (8 * 300000 + 200 + 5))|apply (in_big (1 + 5))]; (unfold big; lia) || assumption.
    - intros g E. destruct (series_spec c S t y HS Ht Iy Ey fuel 0%nat r r ONE S0) as [[H _]|(z & H & Iz & Ez)]; rewrite H in E; [discriminate|].
      apply Ret_inj in E. subst z. split; [exact Iz|].
      destruct (first_term (rv x) Hx) as [_ Hl]. fold t in Hl. rewrite Hl in Ez.
      pose proof (ln_up (rv x) ltac:(lra)) as U1. pose proof (ln_low (rv x) ltac:(lra)) as U2.
      assert (U3 : (/ rv x <= / (9 / 10))%R) by (apply Rinv_le_contravar; lra).
      assert (Hl1 : (Rabs (ln (rv x)) <= 12 / 100)%R) by (apply Rabs_le; lra).
      pose proof (e10_small S ltac:(lia)) as U. assert (IS : (8 <= IZR S <= 5008)%R) by (split; apply IZR_le; lia).
      assert (((249 / 100 + 73 / 100 * IZR S) * e10 (- S) <= (249 / 100 + 73 / 100 * 5008) * / 100000000)%R) by (apply Rmult_le_compat; lra).
      assert (T2 : (Rabs (2 * rv g) <= 1)%R).
      { replace (2 * rv g)%R with ((2 * rv g - ln (rv x)) + ln (rv x))%R by ring. eapply Rle_trans; [apply Rabs_triang|]. lra. }
      rewrite Rabs_mult, (Rabs_pos_eq 2) in T2 by lra. pose proof (Rabs_pos (rv g)). lra. }
  intros pz z (Mz & Iz & Bz). pose proof (item_within S z Iz Bz ltac:(lia)) as Wz. pose proof (reduced_within _ _ _ _ _ Hla R1) as Wf.
  pose proof (re_fact _ _ _ _ _ R1) as Pf.
  apply (sim_weaken (16 * 6000 + 70)); [lia|].
  apply mul_t; auto; try lia; [exact (item_dig _ _ Iz)|apply Pf|apply (within_mono 10); [lia|exact Wf]].
Qed.
