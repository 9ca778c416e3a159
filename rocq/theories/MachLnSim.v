(** * MachLnSim: the logarithm, machine level (MachLn.v) against Transc.v. *)
From Coq Require Import Reals Qreals Lra Lia ZArith QArith Qabs List Bool.
From Verif Require Import Base Var Binary Format Parse Convert Num Flt Transc Data Spec SpecApi SpecRoot SpecLn SpecData SpecMach QDec Digits Arith Strip Round AddSub Signed Codec Make Api1 Api2 Sqrt
  DivFast PowApi LnOps LnSqrt LnQR LnRed LnReal LnSeries LnApi LnStep DataSim DataBuf DataApi
  Mach MachSim MachAdd MachMul MachDiv MachApi MachText MachConv MachFast MachDivFast MachSqrt MachPow MachPowSim MachLn.
Import ListNotations.
Open Scope Z_scope.

Lemma two_m B : 2 <= B -> mrep B M_TWO TWO.
Proof.
  intro H. split; constructor; cbn [p_nd p_weight p_dscale p_sign p_cow M_TWO]; try reflexivity; try lia.
  - now exists [].
  - change (lenz [2]) with 1. lia.
Qed.
Lemma nine_m B : 2 <= B -> mrep B M_ZERO_POINT_NINE ZERO_POINT_NINE.
Proof.
  intro H. split; constructor; cbn [p_nd p_weight p_dscale p_sign p_cow M_ZERO_POINT_NINE]; try reflexivity; try lia.
  - now exists [].
  - change (lenz [9000]) with 1. lia.
Qed.
Lemma eleven_m B : 2 <= B -> mrep B M_ONE_POINT_ONE ONE_POINT_ONE.
Proof.
  intro H. split; constructor; cbn [p_nd p_weight p_dscale p_sign p_cow M_ONE_POINT_ONE]; try reflexivity; try lia.
  - now exists [].
  - change (lenz [1; 1000]) with 2. lia.
Qed.

Lemma sub_bor c a p q v w : mrep big p v -> mrep big q w -> m_sub_common c a p q = m_sub_common c a (bor v) (bor w).
Proof.
  intros M1 M2. pose proof (bor_m big v (mrep_within _ _ _ M1)) as N1. pose proof (bor_m big w (mrep_within _ _ _ M2)) as N2.
  unfold m_sub_common, m_add_abs, m_sub_abs, m_cmp_abs, m_nan, m_pos, m_neg. 
  rewrite !(m_digits_ok c big p v), !(m_digits_ok c big q w), !(m_digits_ok c big (bor v) v), !(m_digits_ok c big (bor w) w) by (assumption || lia).
  fields p v q w M1 M2 N1 N2. reflexivity.
Qed.
Lemma sub_t c a B p q v w : 0 <= B <= 3000000 -> mrep big p v -> mrep big q w -> within B v -> within B w ->
  sim (mrep (10 * B + 100)) (m_sub_common c a p q) (sub_common c v w).
Proof. intros LB M1 M2 W1 W2. rewrite (sub_bor c a p q v w M1 M2). apply sub_common_m; auto using bor_m. Qed.

Lemma arg_within x : arg x -> within 110000 x.
Proof. intros [_ _ L W S]. unfold within. lia. Qed.

Lemma in_big B p v : B <= big -> mrep B p v -> mrep big p v.
Proof. intros H M. exact (mrep_mono B big p v H M). Qed.

(** ** the factor *)
Lemma pow2_within k fact : pow2 k fact -> (2 * 2 ^ k < 100000000)%R -> within 10 fact.
Proof.
  intros P H. pose proof (pow2_len k fact P H) as L. destruct P as (T & D & V). unfold within. rewrite D. split; [lia|]. split; [|lia].
  assert (R : (rv fact = 2 * 2 ^ k)%R) by (rewrite (rv_eq _ _ V), Q2R_Z; apply IZR_pow2).
  pose proof (pow_lt 2 k ltac:(lra)) as P2.
  assert (N : digits fact <> []).
  { intro E. assert (rv fact = 0)%R by (rewrite (rv_eq _ _ (vval_empty fact E)); apply RMicromega.Q2R_0). lra. }
  destruct (stripped_range fact T N) as [A B]. apply Qlt_Rlt in B. rewrite Q2R_p10, Q2R_abs in B. fold (rv fact) in B.
  apply Qle_Rle in A. rewrite Q2R_p10, Q2R_abs in A. fold (rv fact) in A. rewrite R, Rabs_pos_eq in A, B by lra.
  assert (P1 : (1 <= 2 ^ k)%R) by (pose proof (pow_incr 1 2 k ltac:(lra)) as K; rewrite pow1 in K; exact K).
  split.
  - destruct (Z_le_gt_dec (-10) (weight fact)) as [K|K]; [exact K|exfalso].
    assert (G : (e10 (4 * (weight fact + 1)) <= e10 0)%R) by (apply e10_le; lia). change (e10 0) with 1%R in G. lra.
  - destruct (Z_le_gt_dec (weight fact) 10) as [K|K]; [exact K|exfalso].
    assert (G : (e10 8 <= e10 (4 * weight fact))%R) by (apply e10_le; lia).
    replace (e10 8) with 100000000%R in G; [lra|].
    unfold powerRZ. replace (Pos.to_nat 8) with 8%nat by reflexivity. cbn [pow]. ring.
Qed.

Lemma reduced_within la S k x fact : (Rabs la <= 1180000)%R -> reduced la S k x fact -> within 10 fact.
Proof.
  intros H [_ P _ Ct]. apply (pow2_within k); [exact P|]. pose proof (Rabs_pos la). destruct Ct as [->|Ct]; [cbn [pow]; lra|lra].
Qed.

(** ** range reduction *)
Lemma reduce_m c sf keep mkeep rscale la : 0 <= rscale <= 5000 -> (Rabs la <= 1180000)%R ->
  (forall x, arg x -> exists b, keep x = Ret b /\ (b = true -> 9 / 100 < Rabs (ln (rv x)))%R) ->
  (forall p x, mrep big p x -> arg x -> mkeep p = keep x) ->
  forall fuel b n k p f x fact, reduced la (rscale + 8) k x fact -> mrep big p x -> mrep big f fact ->
  sim (fun r r' => mrep big (fst r) (fst r') /\ mrep big (snd r) (snd r'))
    (m_ln_reduce c b fuel sf n mkeep p f rscale) (ln_reduce c fuel sf keep x fact rscale).
Proof.
  intros HR Hla HK HM. induction fuel as [|fl IH]; intros b n k p f x fact R Mp Mf; [exact Logic.I|].
  rewrite ln_reduce_S. cbn [m_ln_reduce]. pose proof (re_arg _ _ _ _ _ R) as A. rewrite (HM p x Mp A).
  destruct (HK x A) as (t & Et & Ht). rewrite Et, !bind_ret. destruct t; [|split; assumption].
  pose proof (ag_wt _ A) as W. rewrite (rp_weight p x (proj1 Mp)). change DEC_DIGITS with 4.
  assert (Q : Z.quot (weight x * 4) 2 = 2 * weight x) by (replace (weight x * 4) with (2 * weight x * 2) by ring; rewrite Z.quot_mul by lia; lia).
  rewrite (i32_ok c (weight x * 4)) by lia. rewrite bind_ret, Q. rewrite (i32_ok c (rscale - 2 * weight x)) by lia. rewrite bind_ret.
  rewrite i32_ok by lia. rewrite bind_ret. change NUMERIC_MIN_DISPLAY_SCALE with 0.
  replace (Z.max (rscale - 2 * weight x + 8) 0) with (Z.max (rscale + 8 - 2 * weight x) 0) by lia.
  set (L := Z.max (rscale + 8 - 2 * weight x) 0).
  assert (HL : 0 <= L <= 16375) by (unfold L; lia).
  assert (I : input x (L + 8)).
  { destruct A as [Sx Px Lx Wx Dx]. constructor; auto; lia. }
  pose proof (re_fact _ _ _ _ _ R) as Pf. pose proof (reduced_within _ _ _ _ _ Hla R) as Wf.
  apply (sim_bind (fun r r' => mrep 7000010 r r' /\ arg r' /\ close_root (vval x) (vval r') (root_error L))).
  - apply sim_spec; [apply sqrt_core_m; auto; [now apply arg_within|now apply arg_sign]|]. intros r E.
    destruct (sqrt_op c sf x (rscale + 8) L A ltac:(lia) eq_refl ltac:(lia)) as [H|[[H _]|(r' & H & Ar & Cr)]]; rewrite E in H; try discriminate.
    apply Ret_inj in H. subst r'. now split.
  - intros r r' (Mr & Ar & Cr). destruct (pow2_S c k fact Pf) as (fact' & Ef & Pf').
    assert (H3 : (Rabs (ln (rv r') - ln (rv x) / 2) <= 51 / 100 * e10 (- (rscale + 8)))%R).
    { apply (close_root_ln _ _ (weight x) (rscale + 8) L); auto; try (unfold L; lia); [apply (arg_range x A)|apply Ar]. }
    destruct (reduced_step la (rscale + 8) k x r' ltac:(lia) (re_err _ _ _ _ _ R) (Ht eq_refl) H3) as [E1 E2].
    apply (sim_bind (fun g g' => mrep (16 * 10 + 70) g g' /\ g' = fact')).
    + apply sim_spec; [apply mul_t; auto; try lia; [apply Pf|apply two_st|apply two_m; unfold big; lia|unfold within; cbn; lia]|].
      intros g E. rewrite Ef in E. now apply Ret_inj in E.
    + intros g g' [Mg ->]. apply (IH b _ (Datatypes.S k)); [constructor; auto|apply (in_big 7000010)|apply (in_big (16 * 10 + 70))]; (unfold big; lia) || assumption.
Qed.

Lemma m_keep_low c p x : mrep big p x -> arg x -> (s <- m_cmp_common c p M_ZERO_POINT_NINE ;; Ret (s <=? 0)) = keep_low c x.
Proof.
  intros M A. unfold keep_low. rewrite (cmp_t c 110000 p _ x ZERO_POINT_NINE); [reflexivity|lia|exact M|apply nine_m; unfold big; lia|now apply arg_within|unfold within; cbn; lia].
Qed.
Lemma m_keep_high c p x : mrep big p x -> arg x -> (s <- m_cmp_common c p M_ONE_POINT_ONE ;; Ret (0 <=? s)) = keep_high c x.
Proof.
  intros M A. unfold keep_high. rewrite (cmp_t c 110000 p _ x ONE_POINT_ONE); [reflexivity|lia|exact M|apply eleven_m; unfold big; lia|now apply arg_within|unfold within; cbn; lia].
Qed.

(** ** the series *)
Lemma item_within S v : item S v -> (Rabs (rv v) <= 1)%R -> 0 <= S <= 5008 -> within 6000 v.
Proof.
  intros I H HS. pose proof (item_len S v I H ltac:(lia)) as L. pose proof (item_weight S v I H) as W. unfold within. rewrite (it_scale _ _ I).
  split; [lia|]. split; [|lia]. split; [|lia]. destruct (digits v) as [|d t] eqn:E.
  - rewrite (sm_zero v (proj1 (it_tidy _ _ I)) E). lia.
  - assert (N : digits v <> []) by congruence. pose proof (item_low S v I N). lia.
Qed.
Lemma smallint_within n v : 1 <= n < 10000 -> smallint n v -> within 10 v.
Proof.
  intros H I. destruct (smallint_facts n v H I) as (N & W0 & L & _). unfold within. rewrite (si_scale _ _ I). split; [lia|]. split; [|lia].
  split; [lia|]. enough (weight v <= 0) by lia.
  apply (semi_weight v 0); [apply I|lia|]. rewrite (si_val _ _ I), Qabs_pos by (change 0%Q with (inject_Z 0); rewrite <- Zle_Qle; lia).
  change (4 * (0 + 1)) with 4. rewrite (p10_Z 4) by lia. rewrite <- Zlt_Qlt. lia.
Qed.
Lemma item_dig S v : item S v -> Forall dig (digits v).
Proof. intro I. exact (sm_digits _ (proj1 (it_tidy _ _ I))). Qed.

Lemma series_m c S t y : 8 <= S <= 5008 -> (Rabs t <= 1 / 19)%R -> item S y ->
  (Rabs (rv y - t * t) <= 68 / 100 * e10 (- S))%R -> forall q, mrep big q y ->
  forall fuel b n m p px pn result xx ni, ser S t m result xx ni -> mrep big p result -> mrep big px xx -> mrep big pn ni ->
  sim (mrep big) (m_ln_series c b fuel n p px q pn S) (ln_series c fuel result xx y ni S).
Proof.
  intros HS HT Iy Ey q Mq. induction fuel as [|f IH]; intros b n m p px pn result xx ni R Mp Mx Mn; [exact Logic.I|].
  rewrite ln_series_S. cbn [m_ln_series].
  destruct (series_step c S t y HS HT Iy Ey m result xx ni R)
    as (Bx & By & ni' & xx' & elem & Ea & Ni' & Hn & Em & Ix' & Bx' & Ed & Ie & Be & K).
  pose proof (ser_result S t m result xx ni HS HT R) as Br.
  pose proof (item_within S xx (sr_xx _ _ _ _ _ _ R) Bx ltac:(lia)) as Wx. pose proof (item_within S y Iy By ltac:(lia)) as Wy.
  pose proof (item_within S xx' Ix' Bx' ltac:(lia)) as Wx'. pose proof (item_within S elem Ie Be ltac:(lia)) as We.
  pose proof (item_within S result (sr_res _ _ _ _ _ _ R) Br ltac:(lia)) as Wr.
  pose proof (smallint_within (2 * Z.of_nat m + 1) ni ltac:(lia) (sr_ni _ _ _ _ _ _ R)) as Wn. pose proof (smallint_within (2 * Z.of_nat m + 1 + 2) ni' ltac:(lia) Ni') as Wn'.
  apply (sim_bind (fun g g' => mrep (10 * 10 + 100) g g' /\ g' = ni')).
  { apply sim_spec; [apply add_t; auto; [lia|apply two_m; unfold big; lia|unfold within; cbn; lia]|]. intros g E. rewrite Ea in E. now apply Ret_inj in E. }
  intros pn' g [Mn' ->].
  apply (sim_bind (fun g g' => mrep (16 * 6000 + 70) g g' /\ g' = xx')).
  { apply sim_spec; [apply mul_t; auto; try lia; [exact (item_dig _ _ (sr_xx _ _ _ _ _ _ R))|exact (item_dig _ _ Iy)]|]. intros g E. rewrite Em in E. now apply Ret_inj in E. }
  intros px' g [Mx' ->].
  apply (sim_bind (fun o o' => orel (mrep (8 * 6000 + 200)) o o' /\ o' = Some elem)).
  { apply sim_spec; [apply div_fast_m; auto; try lia; [apply (in_big (16 * 6000 + 70))|apply (in_big (10 * 10 + 100))|apply (within_mono 10)]; (unfold big; lia) || assumption || lia|].
    intros g E. rewrite Ed in E. now apply Ret_inj in E. }
  intros o o' [Mo ->]. destruct o as [pe|]; [|contradiction]. cbn [orel] in Mo. cbn [expect]. rewrite !bind_ret.
  rewrite (rp_nd pe elem (proj1 Mo)). destruct (Z.eqb_spec (ndigits elem) 0) as [Z0|Z0]; [exact Mp|].
  assert (Ne : digits elem <> []) by (intro E; apply Z0; unfold ndigits; rewrite E; reflexivity).
  destruct (K Ne) as (res' & Er & R'). clear K. pose proof (ser_result S t _ _ _ _ HS HT R') as Br'.
  pose proof (item_within S res' (sr_res _ _ _ _ _ _ R') Br' ltac:(lia)) as Wr'.
  apply (sim_bind (fun g g' => mrep (10 * 6000 + 100) g g' /\ g' = res')).
  { apply sim_spec; [apply add_t; auto; [lia|]; apply (in_big (8 * 6000 + 200)); (unfold big; lia) || assumption|]. intros g E. rewrite Er in E. now apply Ret_inj in E. }
  intros pr g [Mr ->]. change DEC_DIGITS with 4. rewrite i32_ok by lia. rewrite bind_ret.
  rewrite (rp_weight pr res' (proj1 Mr)), (rp_weight pe elem (proj1 Mo)).
  pose proof (Z.quot_rem' (S * 2) 4). pose proof (Z.rem_bound_abs (S * 2) 4 ltac:(lia)). destruct Wr' as (_ & Wr' & _).
  rewrite i32_ok by lia. rewrite bind_ret.
  destruct (weight elem <? weight res' - Z.quot (S * 2) 4); [apply (in_big (10 * 6000 + 100)); (unfold big; lia) || assumption|].
  apply (IH b _ (Datatypes.S m)); auto; [apply (in_big (10 * 6000 + 100))|apply (in_big (16 * 6000 + 70))|apply (in_big (10 * 10 + 100))]; (unfold big; lia) || assumption.
Qed.
