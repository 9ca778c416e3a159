(** * MachNeg: the logarithm of a negative base, machine level: never a result, the same outcome as at the byte level.

    A negative base with an integer exponent outside i32 reaches the logarithm: in debug builds its assertion
    panics, in release builds the square root iteration on the negative number never settles (PowNeg.v). The
    machine model follows it step by step, so it too only panics or runs forever. *)
From Coq Require Import ZArith QArith Qabs List Bool Lia Lqa.
From Verif Require Import Base Var Binary Format Parse Convert Num Flt Transc Data Spec SpecApi SpecRoot SpecLn SpecLibm SpecData SpecMach QDec Digits Arith Strip Round AddSub Signed Codec Make Api1 Api2 Sqrt
  LnSeries DivQ DivFast ConvertApi PowApi PowNeg LnOps DataSim DataBuf DataApi PowFin
  Mach MachSim MachAdd MachMul MachDiv MachApi MachText MachConv MachFast MachDivFast MachSqrt MachPow MachPowSim MachPowApi MachLn MachLnSim MachLnTail MachLnApi MachExp MachExpSim MachExpApi MachFrac MachFracSim.
Import ListNotations.
Open Scope Z_scope.

(** an iterate: any sign *)
Record nlive (x : var) : Prop := { nl_st : nstate x; nl_in : within 41000 x; nl_top : (Qabs (vval x) <= ceiling)%Q }.

(** the number whose root is taken *)
Record ninput (v : var) (ls : Z) : Prop := {
  ni_st : semi v;
  ni_nz : digits v <> [];
  ni_len : ndigits v <= 200000;
  ni_wt : weight v <= 32767;
  ni_ls : 0 <= ls <= 16383 }.

Lemma nz_val x : stripped x -> digits x <> [] -> ~ (vval x == 0)%Q.
Proof. intros T N E. apply N. now apply stripped_zero_iff. Qed.

Lemma nbounds v ls x : ninput v ls -> nstate x -> digits x <> [] -> df_bounds v x ls.
Proof. intros I V N. unfold df_bounds. pose proof (ns_wt _ V N). pose proof (ni_len _ _ I). pose proof (ni_wt _ _ I). pose proof (ni_ls _ _ I). lia. Qed.

Lemma nquotient v ls x : ninput v ls -> nstate x -> digits x <> [] -> (Qabs (vval v / vval x) <= p10 147456)%Q.
Proof.
  intros I V N. pose proof (ns_wt _ V N) as W. pose proof (ni_wt _ _ I). pose proof (nz_val x (ns_st _ V) N) as Z0.
  destruct (stripped_range x (ns_st _ V) N) as [A _]. destruct (semi_range v (ni_st _ _ I) (ni_nz _ _ I)) as [_ U].
  assert (P : (0 < Qabs (vval x))%Q) by (apply (Qlt_le_trans _ (p10 (4 * weight x))); [apply p10_pos|exact A]).
  assert (E : (Qabs (vval v / vval x) * Qabs (vval x) == Qabs (vval v))%Q).
  { rewrite <- Qabs_Qmult. apply Qabs_wd. field. exact Z0. }
  apply (Qmult_lt_0_le_reg_r _ _ (Qabs (vval x)) P). rewrite E.
  apply (Qle_trans _ (p10 147456 * p10 (-16384))).
  - rewrite <- p10_add. change (147456 + -16384) with 131072.
    apply (Qle_trans _ (p10 (4 * (weight v + 1)))); [now apply Qlt_le_weak|apply p10_le; lia].
  - rewrite !(Qmult_comm (p10 147456)). apply Qmult_le_compat_r; [|apply Qlt_le_weak, p10_pos].
    apply (Qle_trans _ (p10 (4 * weight x))); [apply p10_le; lia|exact A].
Qed.

Lemma nquotient_within c v ls x s : ninput v ls -> nstate x -> digits x <> [] ->
  div_fast_common c v x ls true = Ret (Some s) -> within 41000 s.
Proof.
  intros I V N E. pose proof (ni_ls _ _ I) as L.
  destruct (div_fast_semi c v x ls (ni_st _ _ I) (stripped_semi _ (ns_st _ V)) (ni_nz _ _ I) N (nbounds v ls x I V N)) as [(s' & E' & Ts & Ds & R)|(_ & _ & E')];
    rewrite E in E'; [|discriminate]. apply Ret_inj in E'. injection E' as <-.
  destruct (nearly_units _ _ _ R) as (k & Ks & A). apply tight; [exact Ts|lia|rewrite Ds; now apply (units_mult _ _ k)|].
  pose proof (nquotient v ls x I V N) as Q1. rewrite top_eq. pose proof low_big as LB.
  assert (A' : (Qabs (vval s - vval v / vval x) <= 1)%Q).
  { pose proof (p10_pos (- ls)) as P. pose proof (unit_le_1 ls ltac:(lia)) as U. pose proof (p10_opp ls) as O.
    setoid_replace (vval s - vval v / vval x)%Q with ((inject_Z k - vval v / vval x * p10 ls) * p10 (- ls))%Q.
    - rewrite Qabs_Qmult, (Qabs_pos (p10 (- ls))) by lra.
      apply (Qle_trans _ (1 * p10 (- ls))); [|lra]. apply Qmult_le_compat_r; [|lra].
      eapply Qle_trans; [exact A|discriminate].
    - rewrite Ks. setoid_replace ((inject_Z k - vval v / vval x * p10 ls) * p10 (- ls))%Q
        with (inject_Z k * p10 (- ls) - vval v / vval x * (p10 ls * p10 (- ls)))%Q by ring. rewrite O. ring. }
  generalize dependent (vval v / vval x)%Q. intros y _ _ Q1 A'. apply Qabs_Qle_condition in A', Q1. apply Qabs_Qle_condition.
  generalize dependent (p10 147456). intros t Q1 LB. split; lra.
Qed.

Lemma nnext_top v ls x x' k : ninput v ls -> nstate x -> digits x <> [] -> (Qabs (vval x) <= ceiling)%Q ->
  (vval x' == inject_Z k * p10 (- ls))%Q -> step (vval v) (vval x) ls k -> (Qabs (vval x') <= ceiling)%Q.
Proof.
  intros I V N H Vx (s & A & K). pose proof (nquotient v ls x I V N) as Q1. pose proof low_big as LB.
  pose proof (ni_ls _ _ I) as L. pose proof top_eq as TE. generalize dependent ceiling. intros T H TE.
  pose proof (p10_pos (- ls)) as P. pose proof (unit_le_1 ls ltac:(lia)) as U. pose proof (p10_opp ls) as O.
  apply Qabs_Qle_condition in A, K, H, Q1. apply Qabs_Qle_condition. 
  set (y := (vval v / vval x)%Q) in *. clearbody y. set (u := p10 (- ls)) in *. set (p := p10 ls) in *. clearbody u p.
  set (t := p10 147456) in *. clearbody t.
  assert (E1 : (2 * inject_Z k * u == 2 * vval x')%Q) by (rewrite Vx; ring).
  assert (E2 : ((vval x * p + y * p + 2) * u == vval x + y + 2 * u)%Q).
  { setoid_replace ((vval x * p + y * p + 2) * u)%Q with (vval x * (p * u) + y * (p * u) + 2 * u)%Q by ring. rewrite O. ring. }
  assert (E3 : ((vval x * p + y * p - 2) * u == vval x + y - 2 * u)%Q).
  { setoid_replace ((vval x * p + y * p - 2) * u)%Q with (vval x * (p * u) + y * (p * u) - 2 * u)%Q by ring. rewrite O. ring. }
  assert (S : (2 * inject_Z k <= vval x * p + y * p + 2)%Q) by (unfold tiny in A; lra).
  assert (S2 : (vval x * p + y * p - 2 <= 2 * inject_Z k)%Q) by (unfold tiny in A; lra).
  assert (S' : (2 * inject_Z k * u <= (vval x * p + y * p + 2) * u)%Q) by (apply Qmult_le_compat_r; lra).
  assert (S2' : ((vval x * p + y * p - 2) * u <= 2 * inject_Z k * u)%Q) by (apply Qmult_le_compat_r; lra).
  rewrite E1, E2 in S'. rewrite E1, E3 in S2'. rewrite TE in H |- *. split; lra.
Qed.

(** ** one iteration *)
Lemma nnewton_live c v ls x x' : ninput v ls -> nlive x -> newton c v x ls = Ret x' -> nlive x'.
Proof.
  intros I [V W H] E. destruct (digits x) as [|d t] eqn:Ed.
  - rewrite (newton_zero c v x ls (ni_st _ _ I) (ns_st _ V) Ed) in E. discriminate.
  - assert (N : digits x <> []) by congruence. pose proof (ni_ls _ _ I) as L.
    destruct (newton_spec c v x ls (ni_st _ _ I) (ns_st _ V) (ni_nz _ _ I) N (nbounds v ls x I V N) L (ns_scale _ V)) as [(y & k & E' & Tx & Dx & Vx & St)|(_ & _ & E')];
      rewrite E in E'; [|discriminate]. apply Ret_inj in E'. subst y. pose proof (nnext_top v ls x x' k I V N H Vx St) as H'.
    assert (M : mult (vval x') (dscale x')) by (rewrite Dx; now apply (units_mult _ _ k)).
    constructor; [|apply tight; auto; lia|exact H']. constructor; [exact Tx|lia|]. intro Nx'. apply weight_lb; [apply Tx|lia|exact M|now apply nz_val].
Qed.

Lemma nnewton_m c a n p r v ls x : ninput v ls -> within 110000 v -> nlive x -> mrep big p v -> mrep big r x ->
  sim (mrep 7000000) (m_newton c a n p r ls) (newton c v x ls).
Proof.
  intros I Wv [V Wx Tx] Mp Mr. pose proof (ni_ls _ _ I) as L. unfold m_newton, newton.
  apply (sim_bind (fun o o' => orel (mrep (8 * 110000 + 200)) o o' /\ forall s, o' = Some s -> within 41000 s /\ semi s /\ dscale s = ls)).
  - apply sim_spec; [apply div_fast_m; auto; try lia; now apply (within_mono 41000)|]. intros o E s ->.
    destruct (digits x) as [|d t] eqn:Ed.
    + exfalso. revert E. unfold div_fast_common, ndigits. rewrite Ed.
      rewrite (nan_ok c v (sm_nan _ (ni_st _ _ I))), (nan_ok c x (st_nan _ (ns_st _ V))). discriminate.
    + assert (N : digits x <> []) by congruence. split; [exact (nquotient_within c v ls x s I V N E)|].
      destruct (div_fast_semi c v x ls (ni_st _ _ I) (stripped_semi _ (ns_st _ V)) (ni_nz _ _ I) N (nbounds v ls x I V N)) as [(s' & E' & Ts & Ds & _)|(_ & _ & E')];
        rewrite E in E'; [|discriminate]. apply Ret_inj in E'. injection E' as <-. split; [now apply stripped_semi|exact Ds].
  - intros o o' [Ro Wo]. destruct o as [s|], o' as [s'|]; cbn [orel] in Ro; try contradiction; [|reflexivity].
    cbn [expect bind]. destruct (Wo s' eq_refl) as (Ws & Ts & Ds).
    apply (sim_bind (fun t t' => mrep (10 * 41000 + 100) t t' /\ Forall dig (digits t'))).
    + apply sim_spec; [apply add_t; auto; try lia; apply (mrep_mono (8 * 110000 + 200)); [unfold big; lia|exact Ro]|].
      intros t E. pose proof (ns_scale _ V).
      destruct (add_common_spec c x s' (st_digits _ (ns_st _ V)) (sm_digits _ Ts) (st_nan _ (ns_st _ V)) (sm_nan _ Ts)) as (t' & E' & At); [lia|].
      rewrite E in E'. apply Ret_inj in E'. subst t'. apply At.
    + intros t t' [Mt Dt]. apply (sim_weaken (16 * 410100 + 70)); [lia|].
      apply mul_t; auto; try lia.
      * repeat constructor; unfold dig; lia.
      * apply (mrep_mono (10 * 41000 + 100)); [unfold big; lia|exact Mt].
      * exact half_m.
      * apply (within_mono (10 * 41000 + 100)); [lia|]. exact (mrep_within _ _ _ Mt).
      * cbv; intuition discriminate.
Qed.

Lemma nloop_m c a v ls p : ninput v ls -> within 110000 v -> mrep big p v -> forall fuel n r l x, nlive x -> mrep big r x -> mrep big l x ->
  sim (mrep 7000000) (m_sqrt_loop c a fuel n p r l ls) (sqrt_loop c fuel v x x ls).
Proof.
  intros I Wv Mp. induction fuel as [|f IH]; intros n r l x V Mr Ml; [exact Logic.I|]. rewrite m_sqrt_loop_S, sqrt_loop_S.
  apply (sim_bind (fun r' x' => mrep 7000000 r' x' /\ nlive x')).
  - apply sim_spec; [now apply nnewton_m|]. intros x' E. exact (nnewton_live c v ls x x' I V E).
  - intros r' x' [Mr' V']. rewrite (cmp_t c 41000 r' l x' x); [|lia|apply (mrep_mono 7000000); [unfold big; lia|exact Mr']|exact Ml|apply V'|apply V].
    apply sim_same. intros o _. destruct (o =? 0); [exact Mr'|].
    destruct (clone_m c (a (n + 3)%nat) 7000000 r' x' ltac:(lia) Mr') as (y & Ey & My). rewrite Ey. cbn [bind].
    apply IH; [exact V'|apply (mrep_mono 7000000)|apply (mrep_mono (7000000 + 5))]; (unfold big; lia) || assumption.
Qed.

(** the first guess *)
Lemma nguess v i w : dig i -> i <> 0 -> -4096 <= weight v <= 32767 -> w = Z.quot (weight v) 2 -> nlive (Var w 0 SPos [i]).
Proof.
  intros Gd Gn W ->. pose proof (Z.quot_rem' (weight v) 2). pose proof (Z.rem_bound_abs (weight v) 2 ltac:(lia)).
  assert (T : stripped (Var (Z.quot (weight v) 2) 0 SPos [i])).
  { constructor; cbn [digits weight sign dscale]; try discriminate.
    - repeat constructor; exact Gd || apply Gd.
    - intros d' t' H'. congruence.
    - intros d' t' H'. destruct t' as [|? [|? ?]]; cbn in H'; congruence. }
  constructor.
  - constructor; cbn [digits weight sign dscale]; [exact T|lia|lia].
  - unfold within, ndigits. cbn [digits weight dscale]. change (lenz [i]) with 1. lia.
  - destruct (stripped_range _ T) as [_ U]; [discriminate|]. cbn [weight] in U.
    apply (Qle_trans _ (p10 (4 * (Z.quot (weight v) 2 + 1)))); [now apply Qlt_le_weak|]. apply p10_le. lia.
Qed.

Lemma nsqrt_m c a fuel p v L : ninput v (L + 8) -> -4096 <= weight v -> within 110000 v -> mrep big p v -> 0 <= L <= 16375 ->
  sim (mrep 7000010) (m_sqrt_common c a fuel p L) (sqrt_common c fuel v L).
Proof.
  intros I W Wv M HL. pose proof M as [R F]. pose proof (ni_wt _ _ I) as W2. unfold m_sqrt_common, sqrt_common, m_pos, is_positive.
  rewrite (rp_sign p v R). apply sim_same. intros _ _. rewrite i32_ok by lia. cbn [bind]. cbv zeta. rewrite (rp_nd p v R).
  pose proof (ni_nz _ _ I) as Nd.
  destruct (Z.eqb_spec (ndigits v) 0) as [N|N].
  { exfalso. apply Nd. apply ndigits_0. now apply Z.eqb_eq. }
  destruct (m_new_ok c (a 0%nat) 1 ltac:(lia)) as (d & l & Ed & Od & Dd & Ll & Wd & Sl). rewrite Ed. cbn [bind]. rewrite Sl. cbn [bind].
  pose proof (lenz_nonneg (digits v)). unfold ndigits in N.
  rewrite (digit0_ok c big p v) by (unfold ndigits; assumption || lia).
  unfold sqrt_guess in *. rewrite bind_assoc. apply sim_same. intros d0 E0. cbn [bind]. cbv zeta.
  set (i := if Z.quot d0 2 =? 0 then 1 else Z.quot d0 2) in *.
  assert (Gi : dig i /\ i <> 0).
  { destruct (digits v) as [|z u] eqn:Ev; [congruence|]. change (index (z :: u) 0) with (Ret z) in E0. apply Ret_inj in E0. subst z.
    pose proof (sm_digits _ (ni_st _ _ I)) as G. rewrite Ev in G. apply Forall_inv in G. unfold dig in *. unfold i.
    rewrite Z.quot_div_nonneg by lia. pose proof (Z.div_mod d0 2 ltac:(lia)). pose proof (Z.mod_pos_bound d0 2 ltac:(lia)).
    destruct (Z.eqb_spec (d0 / 2) 0); lia. }
  clearbody i. destruct Gi as [Gd Gn].
  assert (ES : set_checked l 0 i = Ret [i]).
  { destruct l as [|y [|z u]]; [change (lenz (@nil Z)) with 0 in Ll; lia|reflexivity|]. rewrite !lenz_cons in Ll. pose proof (lenz_nonneg u). lia. }
  rewrite ES. cbn [bind]. rewrite (rp_weight p v R).
  pose proof (Z.quot_rem' (weight v) 2). pose proof (Z.rem_bound_abs (weight v) 2 ltac:(lia)). destruct Wv as (Wv1 & Wv2 & Wv3).
  assert (Mg : mrep 50000 (PVar 1 (Z.quot (weight v) 2) 0 SPos (Owned (write_back d [i]))) (Var (Z.quot (weight v) 2) 0 SPos [i])).
  { apply (fresh_mrep 50000 d l [i] 1); auto; lia. }
  destruct (clone_m c (a 1%nat) 50000 _ _ ltac:(lia) Mg) as (y & Ey & My). rewrite Ey. cbn [bind].
  apply (sim_bind (mrep 7000000)).
  - apply nloop_m; [exact I|now repeat split|exact M|apply (nguess v); auto| |];
        [apply (mrep_mono 50000)|apply (mrep_mono (50000 + 5))]; (unfold big; lia) || assumption.
  - intros r x Mr. apply (sim_mono (mrep (7000000 + 10))); [intros ? ? HH; exact HH|]. apply round_m; [lia|lia|exact Mr].
Qed.

(** ** the logarithm *)
Lemma sim_dead {A B C D} (R : A -> B -> Prop) (x : outcome A) (y : outcome B) (f : A -> outcome C) (g : B -> outcome D) (Q : C -> D -> Prop) :
  sim R x y -> dead y -> sim Q (bind x f) (bind y g).
Proof. intros S [->|[w ->]]; destruct x; cbn [sim] in S; try contradiction; [exact Logic.I|exact S]. Qed.
Lemma dead_sim {A B} (R Q : A -> B -> Prop) (x : outcome A) (y : outcome B) : sim R x y -> dead y -> sim Q x y.
Proof. intros S [->|[w ->]]; destruct x; cbn [sim] in S; try contradiction; [exact Logic.I|exact S]. Qed.

Lemma nln_m c b fuel p v rs : canon v -> (vval v < 0)%Q -> mrep 40000 p v -> 0 <= rs <= 1000 ->
  sim (fun _ _ => False) (m_ln_common c b fuel p rs) (ln_common c fuel v rs).
Proof.
  intros C Ng M HR. pose proof (cn_st v C) as S. assert (Mb : mrep big p v) by (apply (in_big 40000); [unfold big; lia|exact M]).
  assert (N : digits v <> []) by (intro E; rewrite (vval_empty v E) in Ng; now apply Qlt_irrefl in Ng).
  assert (Wl : -4096 <= weight v) by (apply weight_lb; [apply S|apply C|now apply canon_mult|lra]).
  unfold m_ln_common, ln_common, m_nan, is_nan. rewrite (rp_sign p v (proj1 M)). apply sim_same. intros _ _.
  rewrite (cmp_zero_m c p v M). apply sim_same. intros u Eu.
  assert (D : dbg c = false).
  { destruct (dbg c) eqn:D; [exfalso|reflexivity]. destruct (cmp_zero c v S) as (s & Es & Hs). rewrite Es in Eu. cbn [bind] in Eu.
    assert (s = -1) as -> by (destruct Hs as [[_ K]|[[_ K]|[K _]]]; [lra|lra|exact K]).
    unfold dassert in Eu. rewrite D in Eu. discriminate. }
  destruct (clone_m c (b 0%nat 0%nat) 40000 p v ltac:(lia) M) as (x0 & Ex & Mx). rewrite Ex, bind_ret.
  destruct (clone_m c (b 0%nat 1%nat) 2 M_TWO TWO ltac:(lia) (two_m 2 ltac:(lia))) as (f0 & Ef & Mf). rewrite Ef, bind_ret.
  destruct fuel as [|f]; [exact Logic.I|]. cbn [ln_reduce m_ln_reduce]. rewrite !bind_assoc.
  assert (Mx' : mrep big x0 v) by (apply (in_big (40000 + 5)); [unfold big; lia|exact Mx]).
  pose proof (canon_ndigits v C) as Ln. pose proof (cn_weight v C) as Wu. pose proof (cn_scale v C) as Sc.
  assert (Wv : within 110000 v) by (unfold within; lia).
  rewrite (cmp_t c 110000 x0 M_ZERO_POINT_NINE v ZERO_POINT_NINE); [|lia|exact Mx'|apply nine_m; unfold big; lia|exact Wv|unfold within; cbn; lia].
  assert (S9 : stripped ZERO_POINT_NINE).
  { constructor; cbn; try discriminate.
    - repeat constructor; discriminate.
    - intros d t E. injection E as <- _. discriminate.
    - intros d t E. destruct t as [|? [|]]; try discriminate. injection E as <-. discriminate. }
  destruct (cmp_st c v ZERO_POINT_NINE S S9) as (lo & El & Hl). rewrite El, !bind_ret.
  assert (V9 : (vval ZERO_POINT_NINE == 9 # 10)%Q) by reflexivity.
  assert (lo = -1) as -> by (destruct Hl as [[? ?]|[[? ?]|[? ?]]]; [rewrite V9 in *; lra|rewrite V9 in *; lra|assumption]).
  change (-1 <=? 0) with true. cbv iota. change DEC_DIGITS with 4. change NUMERIC_MIN_DISPLAY_SCALE with 0.
  assert (Q4 : Z.quot (weight v * 4) 2 = 2 * weight v).
  { replace (weight v * 4) with (2 * weight v * 2) by lia. apply Z.quot_mul. lia. }
  rewrite (rp_weight x0 v (proj1 Mx')). rewrite (i32_ok c (weight v * 4)) by lia. rewrite !bind_ret, Q4.
  rewrite (i32_ok c (rs - 2 * weight v)) by lia. rewrite !bind_ret. rewrite i32_ok by lia. rewrite !bind_ret.
  rewrite !bind_assoc.
  eapply sim_dead.
  - apply (nsqrt_m c _ (Datatypes.S f) x0 v (Z.max (rs - 2 * weight v + 8) 0)); auto; try lia.
    constructor; auto; try lia. now apply stripped_semi.
  - apply neg_sqrt; auto; lia.
Qed.

(** ** the estimate before it *)
Lemma nestimate_m c a m p v : canon v -> mrep 40000 p v -> m_estimate_ln_dweight c a m p = estimate_ln_dweight c m v.
Proof.
  intros C M. pose proof (stripped_semi _ (cn_st v C)) as Sm. pose proof (cn_scale v C) as Sc.
  unfold m_estimate_ln_dweight, estimate_ln_dweight, m_nan, is_nan. rewrite (rp_sign p v (proj1 M)).
  apply bind_ext. intros _ _. rewrite (cmp_common_m c 40000 p _ v ZERO_POINT_NINE) by (lia || exact M || (apply nine_m; lia)).
  apply bind_ext. intros lo _. rewrite (cmp_common_m c 40000 p _ v ONE_POINT_ONE) by (lia || exact M || (apply eleven_m; lia)).
  apply bind_ext. intros hi _. rewrite (rp_nd p v (proj1 M)), (rp_weight p v (proj1 M)). change DEC_DIGITS with 4. change NBASE with 10000.
  destruct ((0 <=? lo) && (hi <=? 0)).
  - destruct (sub_op c v ONE Sm (stripped_semi _ one_st0) Sc ltac:(cbn; lia)) as (r & E & _).
    pose proof (sub_common_m c a 40000 p M_ONE v ONE ltac:(lia) M (one_m 40000 ltac:(lia))) as S. rewrite E in S |- *.
    destruct (m_sub_common c a p M_ONE) as [x| | |]; try contradiction. cbn [sim] in S. rewrite !bind_ret.
    rewrite (rp_nd x r (proj1 S)), (rp_weight x r (proj1 S)). destruct (0 <? ndigits r); [|reflexivity].
    pose proof (mrep_within _ _ _ S) as (_ & W & _). rewrite i32_ok by lia. rewrite bind_ret.
    rewrite (m_digits_ok c (10 * 40000 + 100) x r) by (unfold big; lia || exact S). rewrite bind_ret. reflexivity.
  - destruct (0 <? ndigits v); [|reflexivity]. rewrite (m_digits_ok c 40000 p v) by (unfold big; lia || exact M). rewrite bind_ret.
    apply bind_ext. intros d0 E0. pose proof (mrep_within _ _ _ M) as (_ & W & _). rewrite i32_ok by lia. rewrite bind_ret.
    assert (D : forall i d, index (digits v) i = Ret d -> 0 <= d < 10000).
    { intros i d E. unfold index in E. destruct (i <? 0); [discriminate|]. destruct (nth_error (digits v) (Z.to_nat i)) as [x|] eqn:En; [|discriminate].
      apply Ret_inj in E. subst x. apply nth_error_In in En. pose proof (sm_digits _ Sm) as F. rewrite Forall_forall in F. pose proof (F d En) as G. unfold dig in G. change NBASE with 10000 in G. lia. }
    pose proof (D 0 d0 E0). destruct (1 <? ndigits v); [|reflexivity]. rewrite i32_ok by lia. rewrite !bind_ret.
    destruct (index (digits v) 1) as [d1| | |] eqn:E1; try reflexivity. pose proof (D 1 d1 E1). rewrite !bind_ret. rewrite i32_ok by lia. rewrite !bind_ret. rewrite i32_ok by lia.
    rewrite !bind_ret. reflexivity.
Qed.

(** ** the power *)
Lemma frac_neg_m c b m fuel p q v e : canon v -> (vval v < 0)%Q -> stripped e -> mrep 40000 p v -> no_i32 (vval e) ->
  sim exp_rel (m_power_frac c b m fuel p q) (power_common c m fuel v e).
Proof.
  intros C Ng Se Mp NI. pose proof (cn_st v C) as Sv. unfold m_power_frac, power_common. rewrite (nan_ok c v (st_nan _ Sv)), (nan_ok c e (st_nan _ Se)), !bind_ret.
  destruct (int_or_not c e Se) as [K|K]; [now destruct NI|]. rewrite K, bind_ret. clear K.
  rewrite (cmp_zero_m c p v Mp). destruct (cmp_zero c v Sv) as (z & Ez & Hz). rewrite Ez, !bind_ret.
  assert (z = -1) as -> by (destruct Hz as [[_ K]|[[_ K]|[K _]]]; [lra|lra|exact K]).
  change (-1 =? 0) with false. cbv iota. rewrite (nestimate_m c _ m p v C Mp). apply sim_same. intros d _. apply sim_same. intros t _. cbv zeta.
  apply (sim_bind (fun _ _ => False)); [|intros ? ? []].
  apply nln_m; auto. unfold clamp_scale. change NUMERIC_MIN_DISPLAY_SCALE with 0. change NUMERIC_MAX_DISPLAY_SCALE with 1000. lia.
Qed.
