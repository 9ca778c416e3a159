(** * MachExpSim: exp, machine level (MachExp.v) against Transc.v. *)
From Coq Require Import Reals Qreals Lra Lia ZArith QArith Qabs List Bool.
From Verif Require Import Base Var Binary Format Parse Convert Num Flt Transc Data Spec SpecApi SpecRoot SpecLn SpecFloat SpecData SpecMach QDec Digits Arith Strip Round AddSub Signed Codec Make Api1 Api2 Sqrt
  DivFast PowApi LnOps LnSqrt LnQR LnRed LnReal LnSeries LnApi LnSig LnStep FormatApi ExpReal ExpRed ExpSeries ExpSquare ExpAcc ExpFin ExpStep DataSim DataBuf DataApi
  Mach MachSim MachAdd MachMul MachDiv MachApi MachText MachConv MachFast MachDivFast MachSqrt MachPow MachPowSim MachLn MachLnSim MachLnTail MachExp.
Import ListNotations.
Open Scope Z_scope.

Definition mid : Z := 10000000.
Lemma to_mid B p v : B <= mid -> mrep B p v -> mrep mid p v.
Proof. intros H M. exact (mrep_mono B mid p v H M). Qed.
Lemma mid_big p v : mrep mid p v -> mrep big p v.
Proof. apply in_big. unfold mid, big. lia. Qed.

(** ** the conversion *)
Lemma to_f64_m c m B p v : 0 <= B <= 100000000 -> mrep B p v -> stripped v -> 0 <= dscale v -> mult (vval v) (dscale v) ->
  m_to_f64 c m p = expect (f_of_var m v) MUnwrap.
Proof.
  intros LB M S D Mu. unfold m_to_f64. rewrite (write_m c B p v LB M). destruct (write_wide c v S D Mu) as (t & E & _). rewrite E, bind_ret.
  rewrite (m_digits_ok c B p v) by (unfold big; lia || exact M). rewrite bind_ret.
  rewrite (rp_weight p v (proj1 M)), (rp_dscale p v (proj1 M)), (rp_sign p v (proj1 M)). destruct v. reflexivity.
Qed.

(** ** halving the argument *)
Lemma twos_within n v : 1 <= n <= 20 -> twos n v -> within 10 v.
Proof.
  intros Hn T. destruct (twos_facts n v Hn T) as (N & W & L). destruct T as [T D V]. unfold within. rewrite D. split; [lia|]. split; [|lia].
  split; [lia|]. enough (weight v <= 1) by lia. apply (semi_weight v 1); [apply T|lia|]. rewrite V.
  assert (P : 2 ^ 1 <= 2 ^ n <= 2 ^ 20) by (split; apply Z.pow_le_mono_r; lia). change (2 ^ 1) with 2 in P. change (2 ^ 20) with 1048576 in P.
  rewrite Qabs_pos by (change 0%Q with (inject_Z 0); rewrite <- Zle_Qle; lia). change (4 * (1 + 1)) with 8. rewrite (p10_Z 8) by lia.
  rewrite <- Zlt_Qlt. lia.
Qed.
Lemma exp_reduce_m c f : (Rabs f <= 6000)%R -> forall k i fuel b j val p tmp, i + Z.of_nat k = 20 -> 1 <= i ->
  (Rabs (Q2R val * IZR (2 ^ i) - f) <= IZR i * (2 * / 10000000000000000) * Rabs f)%R -> twos i tmp -> mrep mid p tmp ->
  sim (fun r r' => fst r = fst r' /\ mrep mid (snd r) (snd r')) (m_exp_reduce c b fuel j val i p) (exp_reduce c fuel val i tmp).
Proof.
  intros F. induction k as [|k IH]; intros i fuel b j val p tmp Hk Hi H T M; (destruct fuel as [|fuel]; [exact Logic.I|]); cbn [exp_reduce m_exp_reduce].
  all: assert (Pi : (0 < IZR (2 ^ i))%R) by (apply IZR_two; lia).
  all: assert (Ii : (0 <= IZR i <= 20)%R) by (split; apply IZR_le; lia).
  all: pose proof (Rabs_pos f) as F0.
  all: assert (E1 : (IZR i * (2 * / 10000000000000000) * Rabs f <= / 1000000 * Rabs f)%R) by (apply Rmult_le_compat_r; lra).
  all: destruct (negb (Qle_bool (Qabs val) (fl (1 # 100)))) eqn:C.
  2,4: split; [reflexivity|exact M].
  - exfalso. replace i with 20 in * by lia. apply cent_false in C.
    change (IZR (2 ^ 20)) with 1048576%R in *.
    pose proof (Rabs_triang (Q2R val * 1048576 - f) f) as Tr. replace (Q2R val * 1048576 - f + f)%R with (Q2R val * 1048576)%R in Tr by ring.
    rewrite (Rabs_mult (Q2R val)), (Rabs_pos_eq 1048576) in Tr by lra. lra.
  - rewrite i32_ok by lia. rewrite bind_ret. destruct (twos_next c i tmp ltac:(lia) T) as (t' & Et & T').
    pose proof (twos_within i tmp ltac:(lia) T) as W. apply mid_big in M.
    apply (sim_bind (fun g g' => mrep (10 * 10 + 100) g g' /\ g' = t')).
    { apply sim_spec; [apply add_t; auto; lia|]. intros g E. rewrite Et in E. now apply Ret_inj in E. }
    intros p' g [Mg ->]. apply IH; auto; try lia; [|apply (to_mid (10 * 10 + 100)); [unfold mid; lia|exact Mg]].
    assert (E2 : (IZR (2 ^ (i + 1)) = 2 * IZR (2 ^ i))%R).
    { rewrite <- (mult_IZR 2). f_equal. rewrite Z.pow_add_r by lia. change (2 ^ 1) with 2. lia. }
    rewrite E2. replace (IZR (i + 1)) with (IZR i + 1)%R by (rewrite plus_IZR; reflexivity).
    replace ((IZR i + 1) * (2 * / 10000000000000000))%R with (IZR i * (2 * / 10000000000000000) + 2 * / 10000000000000000)%R by ring.
    apply half_step; [exact Pi|lra|exact H].
Qed.

(** ** the series *)
Lemma small_within x : small x -> within 17000 x.
Proof.
  intro S. pose proof (small_len x S) as L. destruct S as [T D M A]. pose proof (weight_small x (proj1 T) ltac:(lra)) as W.
  pose proof (tidy_low x _ T M ltac:(lia)) as Lo. unfold within. unfold ndigits in *. pose proof (lenz_nonneg (digits x)). lia.
Qed.
Lemma sum_within v : tidy v -> 0 <= dscale v <= 16403 -> mult (vval v) 16403 -> (Rabs (rv v - 1) <= 12 / 1000)%R -> within 17000 v /\ ndigits v <= 4103.
Proof.
  intros T D M A. apply Rabs_between in A. pose proof (weight_small v (proj1 T) ltac:(rewrite Rabs_pos_eq; lra)) as W.
  pose proof (tidy_low v _ T M ltac:(lia)) as Lo. pose proof (tidy_len v _ T M ltac:(lia)) as L. unfold within. unfold ndigits in *. pose proof (lenz_nonneg (digits v)). lia.
Qed.

Lemma exp_series_m c S x : 7 <= S <= 3700 -> small x -> forall q, mrep mid q x ->
  forall fuel b n j p pe pn result elem ni, etay S x j result elem ni -> mrep mid p result -> mrep mid pe elem -> mrep mid pn ni ->
  sim (mrep mid) (m_exp_series c b fuel n p pe q pn S) (exp_series c fuel result elem x ni S).
Proof.
  intros HS Sx q Mq. pose proof (small_within x Sx) as Wx. apply mid_big in Mq. pose proof (sm_digits _ (proj1 (sm_tidy _ Sx))) as Dx.
  induction fuel as [|f IH]; intros b n j p pe pn result elem ni R M Me Mn; [exact Logic.I|].
  rewrite exp_series_S. cbn [m_exp_series]. rewrite (rp_nd pe elem (proj1 Me)).
  destruct (Z.eqb_spec (ndigits elem) 0) as [Z0|Z0]; [exact M|].
  assert (Ne : digits elem <> []) by (intro E; apply Z0; unfold ndigits; rewrite E; reflexivity).
  destruct (exp_series_step c S x HS Sx j result elem ni R Ne) as (res' & w & ni' & elem' & Ea & Em & Iw & Bw & En & Ed & R').
  destruct (et_bounds S x j result elem ni HS Sx R) as [Be Br].
  destruct (sum_within result (et_tidy _ _ _ _ _ _ R) (et_scale _ _ _ _ _ _ R) (et_mult _ _ _ _ _ _ R) Br) as [Wr _].
  pose proof (item_within S elem (et_elem _ _ _ _ _ _ R) ltac:(lra) ltac:(lia)) as We.
  pose proof (item_within S w Iw Bw ltac:(lia)) as Ww. pose proof (et_cnt _ _ _ _ _ _ R) as Cn. pose proof (et_two _ _ _ _ _ _ R) as J2.
  pose proof (et_cnt _ _ _ _ _ _ R') as Cn'.
  pose proof (smallint_within (Z.of_nat j) ni ltac:(lia) (et_ni _ _ _ _ _ _ R)) as Wn.
  pose proof (smallint_within (Z.of_nat (Datatypes.S j)) ni' ltac:(lia) (et_ni _ _ _ _ _ _ R')) as Wn'.
  apply mid_big in M, Me, Mn.
  apply (sim_bind (fun g g' => mrep (10 * 17000 + 100) g g' /\ g' = res')).
  { apply sim_spec; [apply add_t; auto; [lia|apply (within_mono 6000); [lia|exact We]]|]. intros g E. rewrite Ea in E. now apply Ret_inj in E. }
  intros p' g [Mr ->].
  apply (sim_bind (fun g g' => mrep (16 * 17000 + 70) g g' /\ g' = w)).
  { apply sim_spec; [apply mul_t; auto; try lia; [exact (item_dig _ _ (et_elem _ _ _ _ _ _ R))|apply (within_mono 6000); [lia|exact We]]|].
    intros g E. rewrite Em in E. now apply Ret_inj in E. }
  intros pw g [Mw ->].
  apply (sim_bind (fun g g' => mrep (10 * 10 + 100) g g' /\ g' = ni')).
  { apply sim_spec; [apply add_t; auto; [lia|apply one_m; unfold big; lia|unfold within; cbn; lia]|]. intros g E. rewrite En in E. now apply Ret_inj in E. }
  intros pn' g [Mn' ->].
  apply (sim_bind (fun o o' => orel (mrep (8 * 6000 + 200)) o o' /\ o' = Some elem')).
  { apply sim_spec; [apply div_fast_m; auto; try lia; [apply (in_big (16 * 17000 + 70))|apply (in_big (10 * 10 + 100))|apply (within_mono 10)]; (unfold big; lia) || assumption || lia|].
    intros g E. rewrite Ed in E. now apply Ret_inj in E. }
  intros o o' [Mo ->]. destruct o as [pe'|]; [|contradiction]. cbn [orel] in Mo. cbn [expect]. rewrite !bind_ret.
  apply (IH b _ (Datatypes.S j)); auto; [apply (to_mid (10 * 17000 + 100))|apply (to_mid (8 * 6000 + 200))|apply (to_mid (10 * 10 + 100))]; (unfold mid; lia) || assumption.
Qed.

Lemma exp_start c S x : 7 <= S <= 3700 -> small x ->
  exists res w elem, add_common c ONE x = Ret res /\ mul_common c x x S = Ret w /\ item S w /\ (Rabs (rv w) <= 1)%R /\
    div_fast_common c w TWO S true = Ret (Some elem) /\ etay S x 2 res elem TWO.
Proof.
  intros HS Sx. pose proof (sm_abs _ Sx) as Ax. pose proof (sm_tidy _ Sx) as Tx. pose proof (small_len x Sx) as Lx.
  assert (R1 : (rv ONE = 1)%R) by (rewrite (rv_eq ONE _ (si_val _ _ one_int)); apply Q2R_Z).
  destruct (add_big c ONE x (stripped_semi _ one_st0) (proj1 Tx) eq_refl) as (res & Ea & Tr & Gr & Dr & Vr).
  { apply Rlt_Qlt. rewrite Q2R_abs. fold (rv x). fold (rv ONE). rewrite R1. lra. }
  destruct (mul_op c x x S 4103 (proj1 Tx) (proj1 Tx) ltac:(lia) ltac:(lia)) as (w & Em & Ow).
  pose proof (off_item _ _ _ _ Ow) as Iw. apply off_by_R in Ow. rewrite Q2R_mult in Ow. fold (rv x) in Ow.
  replace (Q2R ((1 # 2) + inject_Z 4103 * (1 # 10000))) with (9103 / 10000)%R in Ow.
  2:{ rewrite Q2R_plus, Q2R_mult. unfold Q2R. cbn. lra. }
  set (y := rv x) in *. set (u := e10 (- S)) in *.
  assert (U : (0 < u <= 1)%R).
  { split; [apply e10_pos|]. change 1%R with (e10 0). apply e10_le. lia. }
  assert (Bw : (Rabs (rv w) <= 1)%R).
  { replace (rv w) with ((rv w - y * y) + y * y)%R by ring. eapply Rle_trans; [apply Rabs_triang|].
    pose proof (Rabs_mul_le _ _ _ _ Ax Ax). lra. }
  destruct (item_div c S w 2 TWO Iw Bw ltac:(lia) ltac:(lia) two_int) as (elem & Ed & Ie & Ee). fold u in Ee.
  exists res, w, elem. repeat (split; [assumption|]). constructor; auto; try lia.
  - rewrite Dr. pose proof (sm_scale _ Sx). change (dscale ONE) with 0. lia.
  - apply (mult_comp _ _ _ (Qeq_sym _ _ Vr)). apply mult_add.
    + apply (mult_comp (inject_Z 1)); [symmetry; exact (si_val _ _ one_int)|apply mult_Z; lia].
    + apply (mult_up _ (dscale x)); [apply Sx|apply Sx].
  - rewrite (rv_eq _ _ Vr), Q2R_plus. fold (rv ONE). fold (rv x). rewrite R1. cbn [tay fact pow Nat.mul Nat.add INR]. fold y.
    replace (1 + y - (0 + 1 / 1 + y * 1 / 1))%R with 0%R by field. rewrite Rabs_R0. apply Rmult_le_pos; [lra|left; apply e10_pos].
  - fold y. fold u. replace (INR (fact 2)) with 2%R by (cbn; lra). cbn [pow].
    replace (rv elem - y * (y * 1) / 2)%R with ((rv elem - rv w / 2) + (rv w - y * y) * / 2)%R by field.
    eapply Rle_trans; [apply Rabs_triang|]. rewrite (Rabs_mult _ (/ 2)), (Rabs_pos_eq (/ 2)) by lra. lra.
  - apply two_int.
Qed.

(** ** squaring *)
Lemma exp_square_m c sig : 8 <= sig <= 3700 -> forall k b n p v t d, tidy v -> (0 < rv v)%R -> ndigits v <= 4103 -> 0 <= dscale v <= 16403 ->
  (0 <= d)%R -> (Rabs (ln (rv v) - t) <= d)%R -> (2 ^ k * (Rabs t + d + 93 / 100 * e10 (- sig)) <= 6002)%R -> mrep mid p v ->
  sim (mrep mid) (m_exp_square c b k n p sig) (exp_square c k v sig).
Proof.
  intro Hs. pose proof (e10_pos (- sig)) as U. set (u := e10 (- sig)) in *.
  induction k as [|k IH]; intros b n p v t d T P N Ds D H B M; cbn [exp_square m_exp_square pow] in *; [exact M|].
  pose proof (Rabs_pos t) as P0. assert (K1 : (1 <= 2 ^ k)%R) by (apply pow_R1_Rle; lra).
  assert (Bv : (Rabs (ln (rv v)) <= 6002)%R).
  { replace (ln (rv v)) with ((ln (rv v) - t) + t)%R by ring. eapply Rle_trans; [apply Rabs_triang|].
    assert (1 * (Rabs t + d + 93 / 100 * u) <= 2 * 2 ^ k * (Rabs t + d + 93 / 100 * u))%R by (apply Rmult_le_compat_r; lra). lra. }
  pose proof (weight_ln v 6002 653 (proj1 T) P Bv ltac:(lia) ltac:(lra)) as W.
  rewrite (rp_weight p v (proj1 M)). change DEC_DIGITS with 4. rewrite i32_ok by lia. rewrite bind_ret. rewrite i32_ok by lia. rewrite bind_ret.
  rewrite i32_ok by lia. rewrite bind_ret.
  destruct (square_step c v sig Hs T P N Bv) as (r & Er & Tr & Pr & Nr & Lr). fold u in Lr.
  assert (Hq : sq_scale sig v = Z.max (sig - weight v * 2 * 4) NUMERIC_MIN_DISPLAY_SCALE) by reflexivity. rewrite <- Hq.
  assert (Rq : 0 <= sq_scale sig v <= 9000) by (rewrite Hq; change NUMERIC_MIN_DISPLAY_SCALE with 0; lia).
  assert (Dr : dscale r = sq_scale sig v).
  { destruct (mul_op c v v (sq_scale sig v) 4104 (proj1 T) (proj1 T) ltac:(lia) ltac:(lia)) as (r' & E & O). rewrite Er in E. apply Ret_inj in E. subst r'.
    exact (it_scale _ _ (off_item _ _ _ _ O)). }
  assert (Wv : within 17000 v) by (unfold within, ndigits in *; pose proof (lenz_nonneg (digits v)); lia).
  pose proof (sm_digits _ (proj1 T)) as Dg. apply mid_big in M.
  apply (sim_bind (fun g g' => mrep (16 * 17000 + 70) g g' /\ g' = r)).
  { apply sim_spec; [apply mul_t; auto; lia|]. intros g E. rewrite Er in E. now apply Ret_inj in E. }
  intros p' g [Mr ->]. apply (IH b _ p' r (2 * t)%R (2 * d + 93 / 100 * u)%R Tr Pr Nr); [lia|lra| | |apply (to_mid (16 * 17000 + 70)); [unfold mid; lia|exact Mr]].
  - replace (ln (rv r) - 2 * t)%R with ((ln (rv r) - 2 * ln (rv v)) + 2 * (ln (rv v) - t))%R by ring.
    eapply Rle_trans; [apply Rabs_triang|]. rewrite (Rabs_mult 2 (_ - _)), (Rabs_pos_eq 2) by lra. lra.
  - rewrite Rabs_mult, (Rabs_pos_eq 2) by lra. lra.
Qed.

(** ** the whole *)
Lemma exp_sig f y n : (Rabs (Q2R f - y) <= / 1000000000)%R -> (Rabs (Q2R f) < 6000)%R -> 0 <= n <= 20 ->
  -2611 <= f2i (fmul f LOG10_E) <= 2611 /\ -10 <= f2i (fmul (inject_Z n) LOG10_2) <= 10.
Proof.
  intros F B Hn.
  assert (Fv : (Rabs y <= 6001)%R).
  { assert (B' : (Rabs (Q2R f) <= 6000)%R) by lra. apply Rabs_between in B'. apply Rabs_between in F. apply Rabs_le. lra. }
  assert (F8 : (Rabs (Q2R f - y) <= / 100000000)%R) by lra.
  pose proof (fmul_trunc f LOG10_E y 1 F8 LOG10_E_near ltac:(lra) ltac:(lra)) as Hd.
  set (dw := f2i (fmul f LOG10_E)) in *. clearbody dw. rewrite Rmult_1_r in Hd.
  assert (In : (0 <= IZR n <= 20)%R) by (split; apply IZR_le; lia).
  assert (Hn2 : (Rabs (IZR n) <= 6001)%R) by (apply Rabs_le; lra).
  assert (ln2 : (0 <= ln 2 <= 1)%R).
  { pose proof (ln_up 2 ltac:(lra)). pose proof (ln_low 2 ltac:(lra)). lra. }
  assert (F0 : (Rabs (Q2R (inject_Z n) - IZR n) <= / 100000000)%R) by (rewrite Q2R_Z; replace (IZR n - IZR n)%R with 0%R by ring; rewrite Rabs_R0; lra).
  pose proof (fmul_trunc (inject_Z n) LOG10_2 (IZR n) (ln 2) F0 LOG10_2_near ltac:(lra) ln2) as Ht.
  set (t := f2i (fmul (inject_Z n) LOG10_2)) in *. clearbody t.
  pose proof ln_10_range as R10. apply Rabs_between in Hd. apply Rabs_between in Ht. apply Rabs_between in Fv.
  assert (In2 : (0 <= IZR n * ln 2 <= 20)%R) by (split; [apply Rmult_le_pos; lra|assert (IZR n * ln 2 <= 20 * 1)%R by (apply Rmult_le_compat; lra); lra]).
  assert (Sc : forall z k, (Rabs (IZR z * ln 10) <= 23 / 10 * IZR k)%R -> - k <= z <= k).
  { intros z k H. rewrite Rabs_mult, (Rabs_pos_eq (ln 10)) in H by lra.
    assert (G : (Rabs (IZR z) <= IZR k)%R).
    { destruct (Rle_lt_dec (Rabs (IZR z)) (IZR k)) as [G|G]; [exact G|exfalso]. pose proof (Rabs_pos (IZR z)).
      assert (Rabs (IZR z) * (23 / 10) <= Rabs (IZR z) * ln 10)%R by (apply Rmult_le_compat_l; lra). lra. }
    apply Rabs_between in G. rewrite <- opp_IZR in G. split; apply le_IZR; lra. }
  split; [apply (Sc dw 2611)|apply (Sc t 10)]; apply Rabs_le; lra.
Qed.

Lemma exp_mid x n sig r y : 8 <= sig <= 3700 -> small x -> 0 <= n <= 20 -> (y = IZR (2 ^ n) * rv x)%R -> (Rabs y <= 6001)%R ->
  tidy r -> 0 <= dscale r <= 16403 -> mult (vval r) 16403 -> (Rabs (rv r - exp (rv x)) <= (48 / 100 * IZR (sig - 1) + 52 / 100) * e10 (- (sig - 1)))%R ->
  let d := ((5 * IZR sig + 2) * e10 (- sig))%R in
  (0 < rv r)%R /\ ndigits r <= 4103 /\ (0 <= d)%R /\ (Rabs (ln (rv r) - rv x) <= d)%R /\
  (2 ^ Z.to_nat n * (Rabs (rv x) + d + 93 / 100 * e10 (- sig)) <= 6002)%R.
Proof.
  intros Hs Sx Hn Ey Fv T0 D0 M0 Er0 d.
  set (z := rv x) in *. pose proof (sm_abs _ Sx) as Ay. fold z in Ay.
  pose proof (e10_small sig ltac:(lia)) as U. unfold d. clear d. set (u := e10 (- sig)) in *.
  assert (Eu : (e10 (- (sig - 1)) = 10 * u)%R).
  { replace (- (sig - 1)) with (1 + - sig) by lia. rewrite e10_add. unfold u. f_equal. unfold powerRZ. replace (Pos.to_nat 1) with 1%nat by reflexivity. ring. }
  rewrite Eu, minus_IZR in Er0. assert (Is : (8 <= IZR sig <= 3700)%R) by (split; apply IZR_le; lia).
  assert (Ez : (98 / 100 <= exp z)%R).
  { pose proof (exp_ineq1_le z). apply Rabs_between in Ay. lra. }
  pose proof (linear_vs_ten sig ltac:(lia)) as LT. fold u in LT.
  assert (E1 : (Rabs (rv r - exp z) <= (49 / 10 * IZR sig + 11 / 10) * u * exp z)%R).
  { eapply Rle_trans; [exact Er0|]. apply (Rle_trans _ ((49 / 10 * IZR sig + 11 / 10) * u * (98 / 100))).
    - assert (0 <= u * (IZR sig - 8))%R by (apply Rmult_le_pos; lra). lra.
    - apply Rmult_le_compat_l; [apply Rmult_le_pos; lra|exact Ez]. }
  set (e0 := ((49 / 10 * IZR sig + 11 / 10) * u)%R) in *.
  assert (E0b : (0 <= e0 <= 1 / 100)%R) by (unfold e0; split; [apply Rmult_le_pos; lra|]; lra).
  destruct (rel_ln (rv r) (exp z) e0 (exp_pos z) E0b E1) as [P0 L0]. rewrite ln_exp in L0.
  assert (d0 : (102 / 100 * e0 <= (5 * IZR sig + 2) * u)%R).
  { unfold e0. assert (0 <= (5 * IZR sig + 2 - 102 / 100 * (49 / 10 * IZR sig + 11 / 10)) * u)%R by (apply Rmult_le_pos; lra). lra. }
  assert (P2 : (0 < IZR (2 ^ n) <= 1048576)%R).
  { split; [apply IZR_two; lia|]. change 1048576%R with (IZR (2 ^ 20)). apply IZR_le. apply Z.pow_le_mono_r; lia. }
  assert (Sm : (IZR (2 ^ n) * ((5 * IZR sig + 2) * u + 93 / 100 * u) <= 46 / 100)%R).
  { assert (IZR (2 ^ n) * ((5 * IZR sig + 2) * u + 93 / 100 * u) <= 1048576 * (43 * / 100000000))%R; [|lra].
    apply Rmult_le_compat; try lra. }
  split; [exact P0|]. split.
  { assert (W0 : weight r <= 0).
    { apply weight_small; [apply T0|]. rewrite Rabs_pos_eq by lra.
      assert (exp z <= 103 / 100)%R by (apply Rabs_between in Ay; eapply Rle_trans; [apply (exp_mono z (2 / 100)); lra|apply exp_small; lra]).
      apply Rabs_between in E1. assert (e0 * exp z <= 1 / 100 * (103 / 100))%R by (apply Rmult_le_compat; lra). lra. }
    pose proof (tidy_len r 16403 T0 M0 ltac:(lia)). lia. }
  split; [apply Rmult_le_pos; lra|]. split; [lra|].
  rewrite pow2_Z by lia. replace (IZR (2 ^ n) * (Rabs z + (5 * IZR sig + 2) * u + 93 / 100 * u))%R
      with (IZR (2 ^ n) * Rabs z + IZR (2 ^ n) * ((5 * IZR sig + 2) * u + 93 / 100 * u))%R by ring.
  rewrite <- (Rabs_pos_eq (IZR (2 ^ n))) at 1 by lra. rewrite <- Rabs_mult, <- Ey. lra.
Qed.

Lemma exp_arg_m c b fuel p v f : stripped v -> 0 <= dscale v <= 16383 -> mult (vval v) (dscale v) ->
  (Rabs (Q2R f - rv v) <= / 1000000000)%R -> (Rabs (Q2R f) < 6000)%R -> 20 <= Z.of_nat fuel -> mrep mid p v ->
  sim (fun r r' => (fst r = fst r' /\ mrep mid (snd r) (snd r')) /\ 0 <= fst r' <= 20 /\ small (snd r') /\ (rv v = IZR (2 ^ fst r') * rv (snd r'))%R)
    (if negb (Qle_bool (Qabs f) (fl (1 # 100))) then
         tmp <- m_clone c (b 0%nat 1%nat) M_TWO ;;
         '(ndiv2, tmp) <- m_exp_reduce c (b 1%nat) fuel 0 (fdiv f 2) 1 tmp ;;
         local_rscale <- i32 c (p_dscale p + ndiv2) ;;
         o <- m_div_fast_common c (b 0%nat 2%nat) p tmp local_rscale true ;;
         x <- expect o MDivZero ;;
         Ret (ndiv2, x)
       else Ret (0, p))
    (if negb (Qle_bool (Qabs f) (fl (1 # 100))) then
         '(ndiv2, tmp) <- exp_reduce c fuel (fdiv f 2) 1 TWO ;;
         o <- div_fast_common c v tmp (dscale v + ndiv2) true ;;
         x <- expect o MDivZero ;;
         Ret (ndiv2, x)
       else Ret (0, v)).
Proof.
  intros S D M F B Hf Mp. apply sim_spec.
  2:{ intros [n x] E. destruct (exp_arg c fuel v f S D M F B Hf) as (n' & x' & E' & Hn & Sx & Ex). rewrite E' in E. apply Ret_inj in E. injection E as -> ->.
      cbn [fst snd]. auto. }
  assert (Wv : weight v <= 0).
  { apply weight_small; [now apply stripped_semi|]. assert (Rabs (rv v) <= 6001)%R; [|lra].
    assert (B' : (Rabs (Q2R f) <= 6000)%R) by lra. apply Rabs_between in B', F. apply Rabs_le. lra. }
  assert (W : within 17000 v).
  { pose proof (tidy_low v _ (stripped_tidy v S) M ltac:(lia)) as Lo. pose proof (tidy_len v _ (stripped_tidy v S) M ltac:(lia)) as L.
    unfold within, ndigits in *. pose proof (lenz_nonneg (digits v)). lia. }
  destruct (negb (Qle_bool (Qabs f) (fl (1 # 100)))) eqn:C; [|split; [reflexivity|exact Mp]].
  destruct (clone_m c (b 0%nat 1%nat) 2 M_TWO TWO ltac:(lia) (two_m 2 ltac:(lia))) as (f0 & Ef & Mf). rewrite Ef, bind_ret.
  assert (H1 : (Rabs (Q2R (fdiv f 2) * IZR (2 ^ 1) - Q2R f) <= IZR 1 * (2 * / 10000000000000000) * Rabs (Q2R f))%R).
  { change (IZR (2 ^ 1)) with 2%R. replace (IZR 1 * (2 * / 10000000000000000))%R with (0 + 2 * / 10000000000000000)%R by ring.
    replace (Q2R (fdiv f 2) * 2)%R with (Q2R (fdiv f 2) * (2 * 1))%R by ring. apply half_step; try lra.
    replace (Q2R f * 1 - Q2R f)%R with 0%R by ring. rewrite Rabs_R0. lra. }
  apply (sim_bind (fun r r' => (fst r = fst r' /\ mrep mid (snd r) (snd r')) /\ 1 <= fst r' <= 20 /\ twos (fst r') (snd r'))).
  { apply sim_spec; [apply (exp_reduce_m c (Q2R f) ltac:(lra) 19 1); try lia; auto; [exact twos_one|apply (to_mid (2 + 5)); [unfold mid; lia|exact Mf]]|].
    intros [n t] E. destruct (exp_reduce_spec c (Q2R f) ltac:(lra) 19 1 fuel (fdiv f 2) TWO) as (n' & t' & E' & Hn & Tn & L); try lia; auto using twos_one.
    rewrite E' in E. apply Ret_inj in E. injection E as -> ->. now split. }
  intros [n' pt] [n t] ((E & Mt) & Hn & Tn). cbn [fst snd] in *. subst n'.
  rewrite (rp_dscale p v (proj1 Mp)). rewrite i32_ok by lia. rewrite bind_ret. apply mid_big in Mp, Mt.
  apply (sim_bind (orel (mrep (8 * 17000 + 200)))).
  { apply div_fast_m; auto; try lia. apply (within_mono 10); [lia|now apply (twos_within n)]. }
  intros o o' Mo. destruct o as [px|], o' as [x|]; try contradiction; [|reflexivity]. cbn [orel expect] in *. rewrite !bind_ret. cbn [sim fst snd].
  split; [reflexivity|]. apply (to_mid (8 * 17000 + 200)); [unfold mid; lia|exact Mo].
Qed.

Lemma exp_common_m c b m fuel p v f rs : stripped v -> 0 <= dscale v <= 16383 -> mult (vval v) (dscale v) ->
  f_of_var m v = Some f -> (Rabs (Q2R f - rv v) <= / 1000000000)%R \/ (6000 <= Rabs (Q2R f))%R -> 0 <= rs <= 1000 ->
  4000 <= Z.of_nat fuel -> mrep 5000000 p v ->
  sim (orel (mrep (mid + 10))) (m_exp_common c b m fuel p rs) (exp_common c m fuel v rs).
Proof.
  intros S D M Ff HF HR Hf Mp. unfold m_exp_common, exp_common, m_nan, is_nan. rewrite (rp_sign p v (proj1 Mp)). apply sim_same. intros _ _.
  destruct (clone_m c (b 0%nat 0%nat) 5000000 p v ltac:(lia) Mp) as (x0 & Ex & Mx). rewrite Ex, bind_ret.
  rewrite (to_f64_m c m (5000000 + 5) x0 v) by (lia || assumption). rewrite Ff. cbn [expect]. rewrite !bind_ret.
  destruct (Qle_bool 6000 (Qabs f)) eqn:Q6; [exact Logic.I|].
  assert (B : (Rabs (Q2R f) < 6000)%R).
  { destruct (Rlt_le_dec (Rabs (Q2R f)) 6000) as [L|L]; [exact L|exfalso].
    assert (T : Qle_bool 6000 (Qabs f) = true); [|congruence].
    apply Qle_bool_iff, Rle_Qle. rewrite Q2R_abs. replace (Q2R 6000) with 6000%R by (unfold Q2R; cbn; lra). exact L. }
  assert (F : (Rabs (Q2R f - rv v) <= / 1000000000)%R) by (destruct HF as [F|F]; [exact F|lra]). clear HF. cbv zeta.
  assert (Fv : (Rabs (rv v) <= 6001)%R).
  { assert (B' : (Rabs (Q2R f) <= 6000)%R) by lra. apply Rabs_between in B'. apply Rabs_between in F. apply Rabs_le. lra. }
  apply (sim_bind (fun r r' => (fst r = fst r' /\ mrep mid (snd r) (snd r')) /\ 0 <= fst r' <= 20 /\ small (snd r') /\ (rv v = IZR (2 ^ fst r') * rv (snd r'))%R)).
  { apply exp_arg_m; auto; [lia|]. apply (to_mid (5000000 + 5)); [unfold mid; lia|exact Mx]. }
  intros [n' px] [n x] ((E & Mx') & Hn & Sx & Ev). cbn [fst snd] in *. subst n'.
  destruct (exp_sig f (rv v) n F B Hn) as [Hd Ht].
  set (dw := f2i (fmul f LOG10_E)) in *. clearbody dw. set (t := f2i (fmul (inject_Z n) LOG10_2)) in *. clearbody t.
  rewrite i32_ok by lia. rewrite bind_ret. rewrite i32_ok by lia. rewrite bind_ret. rewrite i32_ok by lia. rewrite bind_ret. rewrite i32_ok by lia. rewrite bind_ret. rewrite i32_ok by lia. rewrite bind_ret.
  set (sig := Z.max (1 + dw + rs + t) 0 + 8). assert (Hs : 8 <= sig <= 3700) by (unfold sig; lia). clearbody sig.
  destruct (exp_start c (sig - 1) x ltac:(lia) Sx) as (res & w & elem & Ea & Em & Iw & Bw & Ed & R0).
  pose proof (small_within x Sx) as Wx. pose proof (sm_digits _ (proj1 (sm_tidy _ Sx))) as Dx. pose proof (mid_big _ _ Mx') as Mxb.
  apply (sim_bind (fun g g' => mrep (10 * 17000 + 100) g g' /\ g' = res)).
  { apply sim_spec; [apply add_t; auto; [lia|apply one_m; unfold big; lia|unfold within; cbn; lia]|]. intros g E. rewrite Ea in E. now apply Ret_inj in E. }
  intros pr g [Mr ->].
  apply (sim_bind (fun g g' => mrep (16 * 17000 + 70) g g' /\ g' = w)).
  { apply sim_spec; [apply mul_t; auto; lia|]. intros g E. rewrite Em in E. now apply Ret_inj in E. }
  intros pw g [Mw ->].
  destruct (clone_m c (b 0%nat 5%nat) 2 M_TWO TWO ltac:(lia) (two_m 2 ltac:(lia))) as (n0 & En & Mn). rewrite En, bind_ret.
  pose proof (item_within (sig - 1) w Iw Bw ltac:(lia)) as Ww.
  apply (sim_bind (fun o o' => orel (mrep (8 * 6000 + 200)) o o' /\ o' = Some elem)).
  { apply sim_spec; [apply div_fast_m; auto; try lia; [apply (in_big (16 * 17000 + 70))|apply (in_big (2 + 5))|unfold within; cbn]; (unfold big; lia) || assumption || lia|].
    intros g E. rewrite Ed in E. now apply Ret_inj in E. }
  intros o o' [Mo ->]. destruct o as [pe|]; [|contradiction]. cbn [orel] in Mo. cbn [expect]. rewrite !bind_ret.
  apply (sim_bind (fun g g' => mrep mid g g' /\ tidy g' /\ 0 <= dscale g' <= 16403 /\ mult (vval g') 16403 /\
    (Rabs (rv g' - exp (rv x)) <= (48 / 100 * IZR (sig - 1) + 52 / 100) * e10 (- (sig - 1)))%R)).
  { apply sim_spec.
    - apply (exp_series_m c (sig - 1) x ltac:(lia) Sx px Mx') with (j := 2%nat); auto; [apply (to_mid (10 * 17000 + 100))|apply (to_mid (8 * 6000 + 200))|apply (to_mid (2 + 5))]; (unfold mid; lia) || assumption.
    - intros g E. destruct (exp_series_spec c (sig - 1) x ltac:(lia) Sx fuel 2 res elem TWO ltac:(lia) R0) as (r & E' & Tr & Gr & Dr & Mu & Er).
      rewrite E' in E. apply Ret_inj in E. subst r. auto. }
  intros pg g (Mg & Tg & Dg & Mug & Erg).
  destruct (exp_mid x n sig g (rv v) Hs Sx Hn Ev Fv Tg Dg Mug Erg) as (Pg & Ng & Hd0 & Hl & Hb).
  apply (sim_bind (mrep mid)).
  { exact (exp_square_m c sig Hs (Z.to_nat n) _ _ pg g (rv x) _ Tg Pg Ng Dg Hd0 Hl Hb Mg). }
  intros pz z Mz. apply (sim_bind (mrep (mid + 10))); [apply round_m; [unfold mid; lia|unfold mid; lia|exact Mz]|].
  intros pq q Mq. exact Mq.
Qed.
