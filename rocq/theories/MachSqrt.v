(** * MachSqrt: square root, machine level (MachFast.v) against Transc.v. *)
From Coq Require Import ZArith QArith Qabs List Bool Lia Lqa.
From Verif Require Import Base Var Binary Format Parse Convert Num Flt Transc Data Spec SpecApi SpecData SpecMach QDec Digits Strip Round
  Signed AddSub Arith Codec Make DivQ DivFast Api2 SpecRoot Sqrt SqrtApi SqrtConv SqrtEnd LnOps PowNear DataSim DataBuf DataApi
  Mach MachSim MachAdd MachMul MachDiv MachApi MachFast MachDivFast.
Import ListNotations.
Open Scope Z_scope.

(** no iterate exceeds [ceiling] *)
Definition ceiling : Q := p10 147460.

Lemma units_mult x ls k : (x == inject_Z k * p10 (- ls))%Q -> mult x ls.
Proof.
  intro V. exists k. rewrite V. pose proof (p10_opp ls) as O.
  setoid_replace (inject_Z k * p10 (- ls) * p10 ls)%Q with (inject_Z k * (p10 ls * p10 (- ls)))%Q by ring.
  rewrite O. ring.
Qed.

Lemma tight x : stripped x -> 0 <= dscale x <= 16383 -> mult (vval x) (dscale x) -> (Qabs (vval x) <= ceiling)%Q -> within 41000 x.
Proof.
  intros T D M H. unfold within. destruct (digits x) as [|d t] eqn:E.
  - destruct (st_zero x T E) as [_ W]. unfold ndigits. rewrite E. change (lenz (@nil Z)) with 0. lia.
  - assert (N : digits x <> []) by congruence. destruct (stripped_range x T N) as [A _].
    pose proof (Qle_trans _ _ _ A H) as K. unfold ceiling in K. apply (proj1 (p10_le_iff _ _)) in K.
    pose proof (ndigits_size x T N M). assert (-4096 <= weight x).
    { apply weight_lb; auto; [apply T|]. intro Z0. apply N. now apply stripped_zero_iff. }
    lia.
Qed.

(** the quotient of one iteration *)
Lemma quotient_bound v ls x : input v ls -> inv v ls x -> digits x <> [] -> (vval v / vval x <= p10 147456)%Q.
Proof.
  intros I V N. pose proof (in_nz _ _ I) as Nv. pose proof (iv_wt _ _ _ V N) as W. pose proof (in_wt _ _ I).
  pose proof (stripped_pos x (iv_st _ _ _ V) N (iv_pos _ _ _ V)) as P.
  destruct (stripped_range x (iv_st _ _ _ V) N) as [A _]. rewrite (Qabs_pos _ (iv_pos _ _ _ V)) in A.
  destruct (semi_range v (in_st _ _ I) Nv) as [_ U]. rewrite (Qabs_pos (vval v)) in U by apply Qlt_le_weak, I.
  apply Qle_shift_div_r; [exact P|].
  apply (Qle_trans _ (p10 147456 * p10 (-16384))).
  - rewrite <- p10_add. change (147456 + -16384) with 131072.
    apply (Qle_trans _ (p10 (4 * (weight v + 1)))); [now apply Qlt_le_weak|apply p10_le; lia].
  - rewrite !(Qmult_comm (p10 147456)). apply Qmult_le_compat_r; [|apply Qlt_le_weak, p10_pos].
    apply (Qle_trans _ (p10 (4 * weight x))); [apply p10_le; lia|exact A].
Qed.

Lemma top_eq : (ceiling == p10 147456 * 10000)%Q.
Proof. unfold ceiling. replace 147460 with (147456 + 4) by lia. rewrite p10_add. change (p10 4) with 10000%Q. reflexivity. Qed.
Lemma low_big : (1000 <= p10 147456)%Q.
Proof. apply (Qle_trans _ (p10 3)); [change (p10 3) with 1000%Q; lra|apply p10_le; lia]. Qed.

Lemma unit_le_1 ls : 0 <= ls -> (p10 (- ls) <= 1)%Q.
Proof. intro L. rewrite <- p10_0. apply p10_le. lia. Qed.

Lemma quotient_within c v ls x s : input v ls -> inv v ls x -> digits x <> [] ->
  div_fast_common c v x ls true = Ret (Some s) -> within 41000 s.
Proof.
  intros I V N E. pose proof (in_nz _ _ I) as Nv. pose proof (in_ls _ _ I) as L.
  assert (Bd : df_bounds v x ls).
  { unfold df_bounds. pose proof (iv_wt _ _ _ V N). pose proof (in_len _ _ I). pose proof (in_wt _ _ I). lia. }
  destruct (div_fast_semi c v x ls (in_st _ _ I) (stripped_semi _ (iv_st _ _ _ V)) Nv N Bd) as [(s' & E' & Ts & Ds & R)|(_ & _ & E')];
    rewrite E in E'; [|discriminate]. apply Ret_inj in E'. injection E' as <-.
  destruct (nearly_units _ _ _ R) as (k & Ks & A). apply tight; [exact Ts|lia|rewrite Ds; now apply (units_mult _ _ k)|].
  pose proof (quotient_bound v ls x I V N) as Q1. rewrite top_eq. pose proof low_big as LB.
  assert (Q0 : (0 <= vval v / vval x)%Q).
  { apply Qle_shift_div_l; [apply stripped_pos; [apply V|exact N|apply V]|]. rewrite Qmult_0_l. apply Qlt_le_weak, I. }
  assert (A' : (Qabs (vval s - vval v / vval x) <= 1)%Q).
  { pose proof (p10_pos (- ls)) as P. pose proof (unit_le_1 ls ltac:(lia)) as U. pose proof (p10_opp ls) as O.
    setoid_replace (vval s - vval v / vval x)%Q with ((inject_Z k - vval v / vval x * p10 ls) * p10 (- ls))%Q.
    - rewrite Qabs_Qmult, (Qabs_pos (p10 (- ls))) by lra.
      apply (Qle_trans _ (1 * p10 (- ls))); [|lra]. apply Qmult_le_compat_r; [|lra].
      eapply Qle_trans; [exact A|discriminate].
    - rewrite Ks. setoid_replace ((inject_Z k - vval v / vval x * p10 ls) * p10 (- ls))%Q
        with (inject_Z k * p10 (- ls) - vval v / vval x * (p10 ls * p10 (- ls)))%Q by ring. rewrite O. ring. }
  generalize dependent (vval v / vval x)%Q. intros y _ _ Q1 Q0 A'. apply Qabs_Qle_condition in A'. apply Qabs_Qle_condition.
  generalize dependent (p10 147456). intros t Q1 LB. split; lra.
Qed.

(** the next iterate stays below [ceiling] *)
Lemma next_top v ls x x' k : input v ls -> inv v ls x -> digits x <> [] -> (vval x <= ceiling)%Q ->
  (vval x' == inject_Z k * p10 (- ls))%Q -> step (vval v) (vval x) ls k -> (vval x' <= ceiling)%Q.
Proof.
  intros I V N H Vx (s & A & K). pose proof (quotient_bound v ls x I V N) as Q1. pose proof low_big as LB.
  pose proof (in_ls _ _ I) as L. pose proof top_eq as TE. generalize dependent ceiling. intros T H TE.
  pose proof (p10_pos (- ls)) as P. pose proof (unit_le_1 ls ltac:(lia)) as U. pose proof (p10_opp ls) as O.
  apply Qabs_Qle_condition in A, K. destruct A as [_ A], K as [_ K].
  set (y := (vval v / vval x)%Q) in *. clearbody y. set (u := p10 (- ls)) in *. set (p := p10 ls) in *. clearbody u p.
  set (t := p10 147456) in *. clearbody t.
  assert (S : (2 * inject_Z k <= vval x * p + y * p + 2)%Q) by (unfold tiny in A; lra).
  assert (S' : (2 * inject_Z k * u <= (vval x * p + y * p + 2) * u)%Q) by (apply Qmult_le_compat_r; lra).
  assert (E1 : (2 * inject_Z k * u == 2 * vval x')%Q) by (rewrite Vx; ring).
  assert (E2 : ((vval x * p + y * p + 2) * u == vval x + y + 2 * u)%Q).
  { setoid_replace ((vval x * p + y * p + 2) * u)%Q with (vval x * (p * u) + y * (p * u) + 2 * u)%Q by ring. rewrite O. ring. }
  rewrite E1, E2 in S'. rewrite TE in H |- *. lra.
Qed.

(** ** one iteration *)
Definition m_newton (c : cfg) (a : nat -> nat -> Z) (n : nat) (p result : pvar) (ls : Z) : outcome pvar :=
  o <- m_div_fast_common c (a n) p result ls true ;;
  val <- expect o MShouldNotBeZero ;;
  result <- m_add_common c (a (n + 1)%nat) result val ;;
  m_mul_common c (a (n + 2)%nat) result M_ZERO_POINT_FIVE ls.

Lemma m_sqrt_loop_S c a f n p r l ls :
  m_sqrt_loop c a (S f) n p r l ls =
  (x <- m_newton c a n p r ls ;; cmp <- m_cmp_common c x l ;;
   if cmp =? 0 then Ret x else y <- m_clone c (a (n + 3)%nat) x ;; m_sqrt_loop c a f (n + 4) p x y ls).
Proof.
  unfold m_newton. cbn [m_sqrt_loop]. rewrite !bind_assoc. apply bind_ext. intros o _. rewrite !bind_assoc.
  apply bind_ext. intros s _. rewrite !bind_assoc. reflexivity.
Qed.

Record live (v : var) (ls : Z) (x : var) : Prop := { lv_inv : inv v ls x; lv_in : within 41000 x; lv_top : (vval x <= ceiling)%Q }.

Lemma newton_live c v ls x x' : input v ls -> live v ls x -> newton c v x ls = Ret x' -> live v ls x'.
Proof.
  intros I [V W H] E. destruct (digits x) as [|d t] eqn:Ed.
  - rewrite (newton_zero c v x ls (in_st _ _ I) (iv_st _ _ _ V) Ed) in E. discriminate.
  - assert (N : digits x <> []) by congruence.
    destruct (newton_inv c v ls x I V N) as [(y & k & E' & V' & D & Vy & St)|(_ & _ & E')]; rewrite E in E'; [|discriminate].
    apply Ret_inj in E'. subst y. pose proof (next_top v ls x x' k I V N H Vy St) as H'.
    constructor; [exact V'| |exact H']. apply tight; [apply V'|apply V'|rewrite D; now apply (units_mult _ _ k)|].
    rewrite Qabs_pos by apply V'. exact H'.
Qed.

Lemma half_m : mrep big M_ZERO_POINT_FIVE ZERO_POINT_FIVE.
Proof.
  split; constructor; cbn [M_ZERO_POINT_FIVE ZERO_POINT_FIVE p_nd p_weight p_dscale p_sign p_cow weight dscale sign digits]; unfold big; auto; try lia.
  - now exists [].
  - change (lenz [5000]) with 1. lia.
Qed.

Lemma newton_m c a n p r v ls x : input v ls -> within 110000 v -> live v ls x -> mrep big p v -> mrep big r x ->
  sim (mrep 7000000) (m_newton c a n p r ls) (newton c v x ls).
Proof.
  intros I Wv [V Wx Tx] Mp Mr. pose proof (in_ls _ _ I) as L. unfold m_newton, newton.
  apply (sim_bind (fun o o' => orel (mrep (8 * 110000 + 200)) o o' /\ forall s, o' = Some s -> within 41000 s /\ semi s /\ dscale s = ls)).
  - apply sim_spec; [apply div_fast_m; auto; try lia; now apply (within_mono 41000)|]. intros o E s ->.
    destruct (digits x) as [|d t] eqn:Ed.
    + exfalso. pose proof (newton_zero c v x ls (in_st _ _ I) (iv_st _ _ _ V) Ed) as Z0. unfold newton in Z0. rewrite E in Z0.
      cbn [bind expect] in Z0. revert E. unfold div_fast_common, ndigits. rewrite Ed.
      rewrite (nan_ok c v (sm_nan _ (in_st _ _ I))), (nan_ok c x (st_nan _ (iv_st _ _ _ V))). discriminate.
    + assert (N : digits x <> []) by congruence. split; [exact (quotient_within c v ls x s I V N E)|].
      assert (Bd : df_bounds v x ls).
      { unfold df_bounds. pose proof (iv_wt _ _ _ V N). pose proof (in_len _ _ I). pose proof (in_wt _ _ I). lia. }
      destruct (div_fast_semi c v x ls (in_st _ _ I) (stripped_semi _ (iv_st _ _ _ V)) (in_nz _ _ I) N Bd) as [(s' & E' & Ts & Ds & _)|(_ & _ & E')];
        rewrite E in E'; [|discriminate]. apply Ret_inj in E'. injection E' as <-. split; [now apply stripped_semi|exact Ds].
  - intros o o' [Ro Wo]. destruct o as [s|], o' as [s'|]; cbn [orel] in Ro; try contradiction; [|reflexivity].
    cbn [expect bind]. destruct (Wo s' eq_refl) as (Ws & Ts & Ds).
    apply (sim_bind (fun t t' => mrep (10 * 41000 + 100) t t' /\ Forall dig (digits t'))).
    + apply sim_spec; [apply add_t; auto; try lia; apply (mrep_mono (8 * 110000 + 200)); [unfold big; lia|exact Ro]|].
      intros t E. pose proof (iv_scale _ _ _ V).
      destruct (add_common_spec c x s' (st_digits _ (iv_st _ _ _ V)) (sm_digits _ Ts) (st_nan _ (iv_st _ _ _ V)) (sm_nan _ Ts)) as (t' & E' & At); [lia|].
      rewrite E in E'. apply Ret_inj in E'. subst t'. apply At.
    + intros t t' [Mt Dt]. apply (sim_weaken (16 * 410100 + 70)); [lia|].
      apply mul_t; auto; try lia.
      * repeat constructor; unfold dig; lia.
      * apply (mrep_mono (10 * 41000 + 100)); [unfold big; lia|exact Mt].
      * exact half_m.
      * apply (within_mono (10 * 41000 + 100)); [lia|]. exact (mrep_within _ _ _ Mt).
      * cbv; intuition discriminate.
Qed.

Lemma loop_m c a v ls p : input v ls -> within 110000 v -> mrep big p v -> forall fuel n r l x, live v ls x -> mrep big r x -> mrep big l x ->
  sim (mrep 7000000) (m_sqrt_loop c a fuel n p r l ls) (sqrt_loop c fuel v x x ls).
Proof.
  intros I Wv Mp. induction fuel as [|f IH]; intros n r l x V Mr Ml; [exact Logic.I|]. rewrite m_sqrt_loop_S, sqrt_loop_S.
  apply (sim_bind (fun r' x' => mrep 7000000 r' x' /\ live v ls x')).
  - apply sim_spec; [now apply newton_m|]. intros x' E. exact (newton_live c v ls x x' I V E).
  - intros r' x' [Mr' V']. rewrite (cmp_t c 41000 r' l x' x); [|lia|apply (mrep_mono 7000000); [unfold big; lia|exact Mr']|exact Ml|apply V'|apply V].
    apply sim_same. intros o _. destruct (o =? 0); [exact Mr'|].
    destruct (clone_m c (a (n + 3)%nat) 7000000 r' x' ltac:(lia) Mr') as (y & Ey & My). rewrite Ey. cbn [bind].
    apply IH; [exact V'|apply (mrep_mono 7000000)|apply (mrep_mono (7000000 + 5))]; (unfold big; lia) || assumption.
Qed.

Lemma digit0_ok c B p v : B <= big -> mrep B p v -> 0 < ndigits v -> m_digit0 c p = index (digits v) 0.
Proof.
  intros LB M N. unfold m_digit0. pose proof M as [R F]. unfold big in LB. pose proof (rp_cow p v R) as K. pose proof (fit_cow B p F) as FC.
  unfold ndigits in N.
  assert (G : forall post, index (digits v ++ post) 0 = index (digits v) 0).
  { intro post. destruct (digits v); [exfalso; change (lenz (@nil Z)) with 0 in N; lia|reflexivity]. }
  destruct (p_cow p) as [l|d].
  - destruct K as [post ->]. cbn [bind]. apply G.
  - destruct K as [O D]. destruct (digits_at_len d _ D) as [O' L']. rewrite u32_ok by lia. cbn [bind].
    rewrite as_i32_ok by lia.
    destruct D as (pre & post & W & Lo).
    assert (EL : lenz (words d) - off d = lenz (digits v ++ post)) by (rewrite W, !lenz_app; lia).
    rewrite EL. rewrite (m_slice_ok c d (digits v ++ post)); [cbn [bind]; apply G| |lia].
    exists pre, []. rewrite app_nil_r. split; [exact W|exact Lo].
Qed.

Lemma guess_live v ls g : -4096 <= weight v <= 32767 -> input v ls -> sqrt_guess v = Ret g -> live v ls g.
Proof.
  intros [W W'] I E.
  destruct (sqrt_guess_ok v ls I W) as (g' & E' & V & N). rewrite E in E'. apply Ret_inj in E'. subst g'.
  pose proof (Z.quot_rem' (weight v) 2). pose proof (Z.rem_bound_abs (weight v) 2 ltac:(lia)).
  assert (G : weight g = Z.quot (weight v) 2 /\ ndigits g = 1 /\ dscale g = 0).
  { unfold sqrt_guess in E. destruct (index (digits v) 0) as [d| | |]; try discriminate. cbn [bind] in E. apply Ret_inj in E. subst g. now repeat split. }
  destruct G as (G1 & G2 & G3). constructor; [exact V|unfold within; lia|].
  destruct (stripped_range g (iv_st _ _ _ V) N) as [_ U]. rewrite (Qabs_pos _ (iv_pos _ _ _ V)) in U.
  apply (Qle_trans _ (p10 (4 * (weight g + 1)))); [now apply Qlt_le_weak|]. apply p10_le. lia.
Qed.

Lemma sqrt_scale_m c v : canon v ->
  (w <- i32 c (weight v + 1) ;;
   w <- i32 c (w * DEC_DIGITS) ;;
   sweight <- i32 c (Z.quot w 2 - 1) ;;
   s <- i32 c (NUMERIC_MIN_SIG_DIGITS - sweight) ;;
   Ret (Z.min (Z.max (Z.max s (dscale v)) NUMERIC_MIN_DISPLAY_SCALE) NUMERIC_MAX_DISPLAY_SCALE)) = Ret (sqrt_rscale v).
Proof.
  intro C. pose proof (cn_weight v C).
  assert (-5000 <= weight v).
  { destruct (digits v) eqn:E; [destruct (st_zero v (cn_st v C) E); lia|].
    enough (-4096 <= weight v) by lia. apply weight_lb; [apply C|apply C|now apply canon_mult|].
    intro Z0. apply (stripped_zero_iff v (cn_st v C)) in Z0. congruence. }
  unfold NUMERIC_MIN_SIG_DIGITS, DEC_DIGITS.
  rewrite (i32_ok c (weight v + 1)) by lia. cbn [bind]. rewrite (i32_ok c ((weight v + 1) * 4)) by lia. cbn [bind].
  pose proof (Z.quot_rem' ((weight v + 1) * 4) 2). pose proof (Z.rem_bound_abs ((weight v + 1) * 4) 2 ltac:(lia)).
  rewrite (i32_ok c (Z.quot ((weight v + 1) * 4) 2 - 1)) by lia. cbn [bind].
  rewrite i32_ok by lia. reflexivity.
Qed.

Lemma scale_range v : canon v -> 0 <= sqrt_rscale v <= 1000.
Proof.
  intro C. pose proof (root_scale_range (to_number v) ltac:(cbn; apply C)) as R. rewrite <- root_scale_eq in R by apply C. exact R.
Qed.

Lemma sqrt_common_m c a fuel p v : canon v -> mrep 40000 p v -> sign v = SPos ->
  sim (fun r r' => mrep 7000010 r r' /\ fine r' /\ weight r' <= 32767 /\ dscale r' = sqrt_rscale v)
    (m_sqrt_common c a fuel p (sqrt_rscale v)) (sqrt_common c fuel v (sqrt_rscale v)).
Proof.
  intros C M Sg. pose proof M as [R F]. pose proof (scale_range v C) as RS. unfold m_sqrt_common, sqrt_common, m_pos, is_positive.
  rewrite (rp_sign p v R), Sg. apply sim_same. intros _ _. rewrite i32_ok by lia. cbn [bind]. cbv zeta. rewrite (rp_nd p v R).
  destruct (Z.eqb_spec (ndigits v) 0) as [N|N].
  { pose proof (zero_scaled_m c 7000010 (sqrt_rscale v) ltac:(lia) ltac:(lia)) as Z0. rewrite zero_scaled_ok in * by lia.
    destruct (m_zero_scaled c (sqrt_rscale v)) as [z| | |]; try contradiction. cbn [sim] in *.
    split; [exact Z0|]. split; [apply zero_fine; lia|]. cbn [weight dscale]. lia. }
  assert (Nd : digits v <> []) by (intro E; apply N; unfold ndigits; rewrite E; reflexivity).
  assert (P : (0 < vval v)%Q).
  { apply stripped_pos; [apply C|exact Nd|]. unfold vval, smag. rewrite Sg. cbn [sgz]. rewrite <- (dec_0 (4 * lsd v)). apply dec_le_iff.
    pose proof (smag_mag v (canon_dig v C)). lia. }
  destruct (canon_input v C P) as [I W]. set (s := sqrt_rscale v) in *.
  destruct (sqrt_guess_ok v (s + 8) I W) as (g & Eg & _). pose proof (guess_live v (s + 8) g (conj W (proj2 (cn_weight v C))) I Eg) as Lg.
  assert (Wv : within 110000 v).
  { pose proof (canon_len v C). pose proof (cn_weight v C). pose proof (cn_scale v C). unfold within. lia. }
  destruct (m_new_ok c (a 0%nat) 1 ltac:(lia)) as (d & l & Ed & Od & Dd & Ll & Wd & Sl). rewrite Ed. cbn [bind]. rewrite Sl. cbn [bind].
  pose proof (lenz_nonneg (digits v)). unfold ndigits in N.
  rewrite (digit0_ok c 40000 p v) by (unfold big, ndigits; assumption || lia).
  unfold sqrt_guess in *. rewrite bind_assoc. apply sim_same. intros d0 E0. rewrite E0 in Eg. cbn [bind] in Eg |- *. cbv zeta in Eg |- *.
  set (i := if Z.quot d0 2 =? 0 then 1 else Z.quot d0 2) in *.
  assert (ES : set_checked l 0 i = Ret [i]).
  { destruct l as [|y [|z u]]; [change (lenz (@nil Z)) with 0 in Ll; lia|reflexivity|]. rewrite !lenz_cons in Ll. pose proof (lenz_nonneg u). lia. }
  rewrite ES. cbn [bind]. rewrite (rp_weight p v R). apply Ret_inj in Eg.
  pose proof (Z.quot_rem' (weight v) 2). pose proof (Z.rem_bound_abs (weight v) 2 ltac:(lia)). pose proof (cn_weight v C). destruct Wv as (Wv1 & Wv2 & Wv3).
  assert (Mg : mrep 50000 (PVar 1 (Z.quot (weight v) 2) 0 SPos (Owned (write_back d [i]))) (Var (Z.quot (weight v) 2) 0 SPos [i])).
  { apply (fresh_mrep 50000 d l [i] 1); auto; lia. }
  rewrite Eg in Mg |- *.
  destruct (clone_m c (a 1%nat) 50000 _ g ltac:(lia) Mg) as (y & Ey & My). rewrite Ey. cbn [bind].
  apply (sim_bind (fun r x => mrep 7000000 r x /\ exists k, stripped x /\ (vval x == inject_Z k * p10 (- (s + 8)))%Q /\ good_root (vval v) (s + 8) k)).
  - apply sim_spec.
    + apply loop_m; [exact I|now repeat split|apply (mrep_mono 40000); [unfold big; lia|exact M]|exact Lg| |];
        [apply (mrep_mono 50000)|apply (mrep_mono (50000 + 5))]; (unfold big; lia) || assumption.
    + intros x E. destruct (sqrt_loop_spec c v (s + 8) I fuel g (lv_inv _ _ _ Lg)) as [H'|[[H' _]|[[H' _]|(x' & k & H' & T & _ & Vx & G)]]];
        rewrite E in H'; try discriminate. apply Ret_inj in H'. subst x'. exists k. auto.
  - intros r x (Mr & k & T & Vx & G).
    assert (Wx : weight x <= 16400).
    { apply (root_weight (vval v) x (s + 8) k); auto; [|lia].
      apply (below_p10 (be_varlen c) (layout (be_varlen c) (to_number v)) _ (dscale v)). now apply stores_intro. }
    apply (sim_mono (fun r r' => mrep (7000000 + 10) r r' /\ (fine r' /\ weight r' <= 32767 /\ dscale r' = s))); [intros ? ? HH; exact HH|].
    apply sim_spec; [apply round_m; [lia|lia|exact Mr]|]. intros r' E.
    destruct (round_common_spec c x s (st_digits _ T) (st_nan _ T)) as (r2 & E2 & R2). rewrite E in E2. apply Ret_inj in E2. subst r2.
    split; [|split].
    + left. split; [apply R2|]. split; [apply R2|]. rewrite (rd_scale _ _ _ _ R2). split; [|lia].
      apply (mult_comp _ _ _ (Qeq_sym _ _ (rd_val _ _ _ _ R2))). apply mult_round. lia.
    + destruct (rd_weight _ _ _ _ R2) as [H'|[[H' _]|[H' _]]]; lia.
    + apply R2.
Qed.

(** the same for the intermediate results of the logarithm *)
Lemma sqrt_core_m c a fuel p v L : input v (L + 8) -> -4096 <= weight v <= 32767 -> within 110000 v -> mrep big p v -> sign v = SPos -> 0 <= L <= 16375 ->
  sim (mrep 7000010) (m_sqrt_common c a fuel p L) (sqrt_common c fuel v L).
Proof.
  intros I W Wv M Sg HL. pose proof M as [R F]. unfold m_sqrt_common, sqrt_common, m_pos, is_positive.
  rewrite (rp_sign p v R), Sg. apply sim_same. intros _ _. rewrite i32_ok by lia. cbn [bind]. cbv zeta. rewrite (rp_nd p v R).
  pose proof (in_nz _ _ I) as Nd.
  destruct (Z.eqb_spec (ndigits v) 0) as [N|N].
  { exfalso. apply Nd. apply ndigits_0. now apply Z.eqb_eq. }
  destruct (sqrt_guess_ok v (L + 8) I (proj1 W)) as (g & Eg & _). pose proof (guess_live v (L + 8) g W I Eg) as Lg.
  destruct (m_new_ok c (a 0%nat) 1 ltac:(lia)) as (d & l & Ed & Od & Dd & Ll & Wd & Sl). rewrite Ed. cbn [bind]. rewrite Sl. cbn [bind].
  pose proof (lenz_nonneg (digits v)). unfold ndigits in N.
  rewrite (digit0_ok c big p v) by (unfold ndigits; assumption || lia).
  unfold sqrt_guess in *. rewrite bind_assoc. apply sim_same. intros d0 E0. rewrite E0 in Eg. cbn [bind] in Eg |- *. cbv zeta in Eg |- *.
  set (i := if Z.quot d0 2 =? 0 then 1 else Z.quot d0 2) in *.
  assert (ES : set_checked l 0 i = Ret [i]).
  { destruct l as [|y [|z u]]; [change (lenz (@nil Z)) with 0 in Ll; lia|reflexivity|]. rewrite !lenz_cons in Ll. pose proof (lenz_nonneg u). lia. }
  rewrite ES. cbn [bind]. rewrite (rp_weight p v R). apply Ret_inj in Eg.
  pose proof (Z.quot_rem' (weight v) 2). pose proof (Z.rem_bound_abs (weight v) 2 ltac:(lia)). destruct Wv as (Wv1 & Wv2 & Wv3).
  assert (Mg : mrep 50000 (PVar 1 (Z.quot (weight v) 2) 0 SPos (Owned (write_back d [i]))) (Var (Z.quot (weight v) 2) 0 SPos [i])).
  { apply (fresh_mrep 50000 d l [i] 1); auto; lia. }
  rewrite Eg in Mg |- *.
  destruct (clone_m c (a 1%nat) 50000 _ g ltac:(lia) Mg) as (y & Ey & My). rewrite Ey. cbn [bind].
  apply (sim_bind (mrep 7000000)).
  - apply loop_m; [exact I|now repeat split|exact M|exact Lg| |];
        [apply (mrep_mono 50000)|apply (mrep_mono (50000 + 5))]; (unfold big; lia) || assumption.
  - intros r x Mr. apply (sim_mono (mrep (7000000 + 10))); [intros ? ? HH; exact HH|]. apply round_m; [lia|lia|exact Mr].
Qed.

Lemma sqrt_m c a fuel v : canon v -> sign v = SPos ->
  sim (fun r r' => mrep 7000010 r r' /\ fine r' /\ weight r' <= 32767 /\ dscale r' = sqrt_rscale v)
    (m_sqrt c a fuel (borrow v)) (sqrt_var c fuel v).
Proof.
  intros C Sg. unfold m_sqrt, sqrt_var, m_neg, m_nan, is_negative, is_nan. cbn [borrow p_sign p_weight p_dscale].
  apply sim_same. intros _ _. apply sim_same. intros _ _.
  pose proof (sqrt_scale_m c v C) as SM. fold (borrow v).
  pose proof (sqrt_common_m c a fuel (borrow v) v C (borrow_m v C) Sg) as SC. revert SC SM.
  generalize (sqrt_rscale v). intros s' SC SM.
  destruct (i32 c (weight v + 1)) as [w1| | |]; try discriminate. cbn [bind] in *.
  destruct (i32 c (w1 * DEC_DIGITS)) as [w2| | |]; try discriminate. cbn [bind] in *.
  destruct (i32 c (Z.quot w2 2 - 1)) as [w3| | |]; try discriminate. cbn [bind] in *.
  destruct (i32 c (NUMERIC_MIN_SIG_DIGITS - w3)) as [w4| | |]; try discriminate. cbn [bind] in *.
  apply Ret_inj in SM. rewrite SM. exact SC.
Qed.

Theorem sqrt_mach c a fuel x : valid (be_varlen c) x -> sim (bufrel c) (m_num_sqrt c a fuel x) (num_sqrt c fuel x).
Proof.
  intros [H|(q & s & H)].
  { unfold m_num_sqrt, num_sqrt. rewrite H, nan_is_nan. cbn [bind]. apply nan_m. }
  destruct (stores_elim _ _ _ _ H) as (v & C & -> & _ & _). unfold m_num_sqrt, num_sqrt.
  rewrite (num_is_nan_spec c v (canon_storable v C)). cbn [bind].
  rewrite (m_as_var_ok c v C), (as_var_spec c v (canon_storable v C)). cbn [bind].
  unfold m_neg, is_negative. cbn [borrow p_sign]. apply sim_same. intros u E.
  assert (Sg : sign v = SPos).
  { destruct (sign v) eqn:Es; [reflexivity|discriminate|exfalso; now apply (canon_nan v C)]. }
  fold (borrow v). apply (sim_bind _ _ _ _ _ _ (sqrt_m c a fuel v C Sg)). intros r r' (Mr & Fr & Wr & Dr).
  pose proof (scale_range v C). apply (make_no_m c _ 7000010); auto; lia.
Qed.

(** ** at the interface *)
Lemma sqrt_settled c fuel x : valid (be_varlen c) x -> num_sqrt c fuel x <> UB.
Proof.
  intros [H|(q & s & H)]; [rewrite H, num_sqrt_nan; discriminate|]. destruct (stores_elim _ _ _ _ H) as (v & C & -> & _ & _).
  destruct (Qlt_le_dec (vval v) 0) as [N|N]; [rewrite (num_sqrt_neg c fuel v C N); discriminate|].
  destruct (digits v) as [|d t] eqn:E.
  - destruct (num_sqrt_zero c fuel v C E) as (y & -> & _). discriminate.
  - assert (P : (0 < vval v)%Q) by (apply stripped_pos; [apply C|congruence|exact N]).
    destruct (num_sqrt_outcomes c fuel v C P) as [->|[[-> _]|[[-> _]|(y & r & -> & _)]]]; discriminate.
Qed.

Theorem sqrt_agrees c a fuel x : valid (be_varlen c) x ->
  agrees_run c (some_buf (m_num_sqrt c a fuel x)) (some (num_sqrt c fuel x)).
Proof.
  intro V. pose proof (sqrt_mach c a fuel x V) as S. pose proof (sqrt_settled c fuel x V) as U. unfold agrees_run, some_buf, some.
  destruct (m_num_sqrt c a fuel x), (num_sqrt c fuel x); cbn [sim] in S; try contradiction; cbn [bind agrees].
  - left. exact (bufrel_bytes _ _ _ S).
  - now left.
  - right. now split.
Qed.

Lemma sqrt_ret c a fuel x b : valid (be_varlen c) x -> m_num_sqrt c a fuel x = Ret b ->
  exists y, num_sqrt c fuel x = Ret y /\ shows c (Some b) (Some y).
Proof.
  intros V E. pose proof (sqrt_mach c a fuel x V) as S. rewrite E in S. destruct (num_sqrt c fuel x) as [y| | |]; try contradiction.
  exists y. split; [reflexivity|]. exact (bufrel_bytes _ _ _ S).
Qed.
Lemma sqrt_back c a fuel x y : valid (be_varlen c) x -> num_sqrt c fuel x = Ret y ->
  exists b, m_num_sqrt c a fuel x = Ret b /\ shows c (Some b) (Some y).
Proof.
  intros V E. pose proof (sqrt_mach c a fuel x V) as S. rewrite E in S. destruct (m_num_sqrt c a fuel x) as [b| | |]; try contradiction.
  exists b. split; [reflexivity|]. exact (bufrel_bytes _ _ _ S).
Qed.

Lemma number_valid be n : canonical n -> valid be (layout be n).
Proof. intro C. right. destruct (number_var n C) as (v & Cv & -> & _). exists (vval v), (dscale v). now apply stores_intro. Qed.

Theorem machine_sqrt_accurate c a fuel n b : canonical n -> (0 < value n)%Q ->
  m_num_sqrt c a fuel (layout (be_varlen c) n) = Ret b ->
  exists x q, shows c (Some b) (Some x) /\ stores (be_varlen c) x q (root_scale n) /\ close_root (value n) q (root_error (root_scale n)).
Proof.
  intros C P E. destruct (sqrt_ret c a fuel _ b (number_valid _ n C) E) as (y & Ey & S).
  destruct (sqrt_accurate c fuel n y C P Ey) as (q & Sq & K). exists y, q. auto.
Qed.

Theorem machine_sqrt_returns c a fuel n : canonical n -> (ten ^ (-2016) <= value n)%Q ->
  dbg c = false \/ ((value n < ten ^ 32)%Q /\ scale n <= 56) -> ~ near_quarter n -> 270000 <= Z.of_nat fuel ->
  exists b x q, m_num_sqrt c a fuel (layout (be_varlen c) n) = Ret b /\ shows c (Some b) (Some x) /\
    stores (be_varlen c) x q (root_scale n) /\ close_root (value n) q (root_error (root_scale n)).
Proof.
  intros C P N Q F. assert (P0 : (0 < value n)%Q) by (apply (Qlt_le_trans _ (ten ^ (-2016))); [apply (p10_pos (-2016))|exact P]).
  destruct (sqrt_no_panic c fuel n C P N) as [E|[r E]]; [now apply (sqrt_terminates c fuel n C Q F) in E|].
  destruct (sqrt_back c a fuel _ r (number_valid _ n C) E) as (b & Eb & S). exists b.
  destruct (sqrt_accurate c fuel n r C P0 E) as (q & Sq & K). exists r, q. auto.
Qed.

Theorem machine_sqrt_square c a n b : canonical n -> (0 < b)%Q -> (value n == b * b)%Q ->
  (exists k : Z, (b * ten ^ root_scale n == inject_Z k)%Q) ->
  dbg c = false \/ ((value n < ten ^ 32)%Q /\ scale n <= 56) ->
  exists k, forall fuel, (k <= fuel)%nat ->
  exists r x, m_num_sqrt c a fuel (layout (be_varlen c) n) = Ret r /\ shows c (Some r) (Some x) /\ stores (be_varlen c) x b (root_scale n).
Proof.
  intros C P E M N. destruct (sqrt_square c n b C P E M N) as (k & K). exists k. intros fuel F. destruct (K fuel F) as (r & Er & S).
  destruct (sqrt_back c a fuel _ r (number_valid _ n C) Er) as (b' & Eb & Sb). exists b', r. auto.
Qed.
