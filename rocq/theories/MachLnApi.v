(** * MachLnApi: ln, log, log2 and log10 at the interface, machine level (MachLn.v) against Transc.v. *)
From Coq Require Import Reals Qreals Lra Lia ZArith QArith Qabs List Bool.
From Verif Require Import Base Var Binary Format Parse Convert Num Flt Transc Data Spec SpecApi SpecRoot SpecLn SpecData SpecMach QDec Digits Arith Strip Round AddSub Signed Codec Make Api1 Api2 Sqrt
  DivFast PowApi LnOps LnSqrt LnQR LnRed LnReal LnSeries LnApi LnSig LnNear LogApi LogAcc LogFin LnStep DataSim DataBuf DataApi
  Mach MachSim MachAdd MachMul MachDiv MachApi MachText MachConv MachFast MachDivFast MachSqrt MachPow MachPowSim MachPowApi MachLn MachLnSim MachLnTail.
Import ListNotations.
Open Scope Z_scope.

Lemma cmp_zero_m c p v : mrep 40000 p v -> m_cmp_common c p m_zero = cmp_common c v ZERO.
Proof.
  intro M. change ZERO with zero_var. apply (cmp_common_m c 40000); [lia|exact M|]. exact (mrep_mono 50 40000 _ _ ltac:(lia) zero_m).
Qed.

Lemma estimate_m c a m p v : arg v -> mrep 40000 p v -> m_estimate_ln_dweight c a m p = estimate_ln_dweight c m v.
Proof.
  intros A M. unfold m_estimate_ln_dweight, estimate_ln_dweight, m_nan, is_nan. rewrite (rp_sign p v (proj1 M)).
  apply bind_ext. intros _ _. rewrite (cmp_common_m c 40000 p _ v ZERO_POINT_NINE) by (lia || exact M || (apply nine_m; lia)).
  apply bind_ext. intros lo _. rewrite (cmp_common_m c 40000 p _ v ONE_POINT_ONE) by (lia || exact M || (apply eleven_m; lia)).
  apply bind_ext. intros hi _. rewrite (rp_nd p v (proj1 M)), (rp_weight p v (proj1 M)). change DEC_DIGITS with 4. change NBASE with 10000.
  destruct ((0 <=? lo) && (hi <=? 0)).
  - destruct (sub_op c v ONE (ag_semi _ A) (stripped_semi _ one_st0) (ag_scale _ A) ltac:(cbn; lia)) as (r & E & _).
    pose proof (sub_common_m c a 40000 p M_ONE v ONE ltac:(lia) M (one_m 40000 ltac:(lia))) as S. rewrite E in S |- *.
    destruct (m_sub_common c a p M_ONE) as [x| | |]; try contradiction. cbn [sim] in S. rewrite !bind_ret.
    rewrite (rp_nd x r (proj1 S)), (rp_weight x r (proj1 S)). destruct (0 <? ndigits r); [|reflexivity].
    pose proof (mrep_within _ _ _ S) as (_ & W & _). rewrite i32_ok by lia. rewrite bind_ret.
    rewrite (m_digits_ok c (10 * 40000 + 100) x r) by (unfold big; lia || exact S). rewrite bind_ret. reflexivity.
  - destruct (0 <? ndigits v); [|reflexivity]. rewrite (m_digits_ok c 40000 p v) by (unfold big; lia || exact M). rewrite bind_ret.
    apply bind_ext. intros d0 E0. pose proof (ag_wt _ A) as W. rewrite i32_ok by lia. rewrite bind_ret.
    assert (D : forall i d, index (digits v) i = Ret d -> 0 <= d < 10000).
    { intros i d E. unfold index in E. destruct (i <? 0); [discriminate|]. destruct (nth_error (digits v) (Z.to_nat i)) as [x|] eqn:En; [|discriminate].
      apply Ret_inj in E. subst x. apply nth_error_In in En. pose proof (sm_digits _ (ag_semi _ A)) as F. rewrite Forall_forall in F. pose proof (F d En) as G. unfold dig in G. change NBASE with 10000 in G. lia. }
    pose proof (D 0 d0 E0). destruct (1 <? ndigits v); [|reflexivity]. rewrite i32_ok by lia. rewrite !bind_ret.
    destruct (index (digits v) 1) as [d1| | |] eqn:E1; try reflexivity. pose proof (D 1 d1 E1). rewrite !bind_ret. rewrite i32_ok by lia. rewrite !bind_ret. rewrite i32_ok by lia.
    rewrite !bind_ret. reflexivity.
Qed.

Definition good (B : Z) (p : pvar) (r : var) : Prop := mrep B p r /\ fine r /\ weight r <= 32767 /\ dscale r <= 16383.

Lemma stripped_fine r rs : stripped r -> dscale r = rs -> mult (vval r) rs -> 0 <= rs -> fine r.
Proof. intros T D M H. left. split; [apply T|]. split; [apply T|]. rewrite D. now split. Qed.

Lemma zero_or_pos c v : canon v -> (exists s, cmp_common c v ZERO = Ret s /\ (s <= 0 \/ (0 < vval v)%Q)).
Proof.
  intro C. destruct (cmp_zero c v (cn_st v C)) as (s & E & H). exists s. split; [exact E|].
  destruct H as [[-> _]|[[-> H]|[-> _]]]; [left; lia|now right|left; lia].
Qed.

(** the two assertions at the start of ln and log *)
Lemma sim_guard {A B} (R : A -> B -> Prop) s (f : outcome A) (g : outcome B) : (0 < s -> sim R f g) ->
  sim R (assert_msg (negb (s =? 0)) MLogZero ;;; assert_msg (0 <? s) MLogNeg ;;; f) (assert_msg (negb (s =? 0)) MLogZero ;;; assert_msg (0 <? s) MLogNeg ;;; g).
Proof.
  intro H. apply sim_same. intros _ _. destruct (Z.ltb_spec 0 s) as [L|L]; [cbn [assert_msg bind]; now apply H|reflexivity].
Qed.

Lemma ln_m c b m fuel p v : canon v -> mrep 40000 p v -> sim (good 100000) (m_ln c b m fuel p) (ln_var c m fuel v).
Proof.
  intros C M. destruct (zero_or_pos c v C) as (s & Ez & Hz).
  unfold m_ln, ln_var, m_nan, is_nan. rewrite (rp_sign p v (proj1 M)). apply sim_same. intros _ _.
  rewrite (cmp_zero_m c p v M), Ez, !bind_ret. apply sim_guard. intro Hs.
  assert (P : (0 < vval v)%Q) by (destruct Hz as [K|K]; [lia|exact K]). pose proof (canon_arg v C P) as A.
  rewrite (estimate_m c _ m p v A M). apply sim_same. intros d Ed. apply sim_same. intros dx Ex. rewrite (rp_dscale p v (proj1 M)).
  fold (clamp_scale (Z.max dx (dscale v))). set (rs := clamp_scale (Z.max dx (dscale v))).
  assert (Hrs : 0 <= rs <= 1000) by (unfold rs, clamp_scale; change NUMERIC_MIN_DISPLAY_SCALE with 0; change NUMERIC_MAX_DISPLAY_SCALE with 1000; lia).
  unfold good. apply sim_spec; [apply ln_common_m; auto; lia|]. intros r E.
  destruct (ln_common_spec c fuel v rs A ltac:(lia)) as [H|[[H _]|(r' & H & T & Dr & Mr & Er)]]; rewrite E in H; try discriminate.
  apply Ret_inj in H. subst r'. pose proof (Rabs_ln_arg v A) as Bl. pose proof (ln_weight r rs _ T Hrs Bl Er).
  split; [apply (stripped_fine r rs); auto; lia|]. lia.
Qed.

Theorem ln_mach c b m fuel x : valid (be_varlen c) x -> sim (bufrel c) (m_num_ln c b m fuel x) (num_ln c m fuel x).
Proof.
  intros [H|(q & s & H)].
  { unfold m_num_ln, num_ln. rewrite H, nan_is_nan. cbn [bind]. apply nan_m. }
  destruct (stores_elim _ _ _ _ H) as (v & C & -> & _ & _). unfold m_num_ln, num_ln.
  rewrite (num_is_nan_spec c v (canon_storable v C)). cbn [bind].
  rewrite (m_as_var_ok c v C), (as_var_spec c v (canon_storable v C)). cbn [bind].
  apply (sim_bind _ _ _ _ _ _ (ln_m c b m fuel (borrow v) v C (borrow_m v C))). intros r r' (Mr & Fr & Wr & Dr).
  apply (make_no_m c _ 100000); auto; lia.
Qed.

(** ** logarithms in a base *)
Lemma log_common_m c b m fuel p q v w : logs_near (f_log10 m) (f_ln m) -> canon v -> canon w -> (0 < vval v)%Q -> (0 < vval w)%Q ->
  (p10 (-1980) <= Qabs (vval w - 1))%Q -> mrep 40000 p v -> mrep 40000 q w ->
  sim (good 1000000) (m_log_common c b m fuel p q) (log_common c m fuel v w).
Proof.
  intros N C C' P P' H' Mv Mw. pose proof (canon_arg v C P) as Av. pose proof (canon_arg w C' P') as Aw.
  assert (Hb : (e10 (-1980) <= Rabs (rv w - 1))%R).
  { apply Qle_Rle in H'. rewrite Q2R_p10, Q2R_abs, Q2R_minus, RMicromega.Q2R_1 in H'. exact H'. }
  unfold good. apply sim_spec.
  2:{ intros r E. destruct (log_common_shape c m fuel v w N Av (cn_st _ C) Aw (cn_st _ C') Hb)
        as [H|[[H _]|[H|(r' & rs & H & T & Dr & M & Rs & W)]]]; rewrite E in H; try discriminate.
      apply Ret_inj in H. subst r'. pose proof (cn_scale v C). split; [apply (stripped_fine r rs); auto; lia|]. lia. }
  destruct (estimate_all c m v N Av (cn_st _ C)) as (n & En & Bn & Un & Zn & Ln).
  destruct (estimate_all c m w N Aw (cn_st _ C')) as (d & Ed & Bd & Ud & Zd & Ld).
  pose proof (estimate_range 1980 w d ltac:(lia) Aw Ud Ld Zd (or_intror Hb)) as Rd.
  pose proof (ln_arg_bound v Av) as Lv.
  assert (Rn : n < 7).
  { destruct (Req_dec (rv v) 1) as [K|K]; [rewrite (Zn K); lia|]. specialize (Ln K). apply e10_lt_inv. rewrite e10_7. lra. }
  unfold m_log_common, log_common, m_nan, is_nan. rewrite (rp_sign p v (proj1 Mv)), (rp_sign q w (proj1 Mw)).
  apply sim_same. intros _ _. apply sim_same. intros _ _. rewrite (cmp_zero_m c p v Mv). apply sim_same. intros _ _.
  rewrite (estimate_m c _ m q w Aw Mw), (estimate_m c _ m p v Av Mv), Ed, En, !bind_ret. change NUMERIC_MIN_SIG_DIGITS with 16.
  rewrite (i32_fits c (n - d)) by lia. rewrite !bind_ret. rewrite (i32_fits c (16 - (n - d))) by lia. rewrite !bind_ret.
  rewrite (rp_dscale p v (proj1 Mv)), (rp_dscale q w (proj1 Mw)).
  fold (clamp_scale (Z.max (Z.max (16 - (n - d)) (dscale w)) (dscale v))).
  set (R := clamp_scale (Z.max (Z.max (16 - (n - d)) (dscale w)) (dscale v))).
  assert (ER : R = Z.min (Z.max (Z.max (Z.max (16 - (n - d)) (dscale w)) (dscale v)) 0) 1000) by reflexivity. clearbody R.
  pose proof (ag_scale _ Av) as Dv. pose proof (ag_scale _ Aw) as Dbb. cbv zeta.
  change NUMERIC_MIN_DISPLAY_SCALE with 0.
  rewrite (i32_fits c (R + (n - d))) by lia. rewrite !bind_ret. rewrite (i32_fits c (R + (n - d) - d)) by lia. rewrite !bind_ret.
  rewrite (i32_fits c (R + (n - d) - d + 8)) by lia. rewrite !bind_ret. rewrite (i32_fits c (R + (n - d) - n)) by lia. rewrite !bind_ret.
  rewrite (i32_fits c (R + (n - d) - n + 8)) by lia. rewrite !bind_ret.
  apply (sim_bind (mrep 100000)); [apply ln_common_m; auto; lia|]. intros pb rb Mb.
  apply (sim_bind (mrep 100000)); [apply ln_common_m; auto; lia|]. intros pn rn Mn.
  apply (sim_bind (orel (mrep (8 * 100000 + 200)))).
  - apply div_fast_m; [lia|lia|apply (in_big 100000)|apply (in_big 100000)|exact (mrep_within _ _ _ Mn)|exact (mrep_within _ _ _ Mb)]; (unfold big; lia) || assumption.
  - intros o o' Ho. destruct o, o'; try contradiction; [|reflexivity]. cbn [orel expect sim] in *. exact (mrep_mono (8 * 100000 + 200) 1000000 _ _ ltac:(lia) Ho).
Qed.

Lemma log_m c b m fuel p q v w : logs_near (f_log10 m) (f_ln m) -> canon v -> canon w -> (p10 (-1980) <= Qabs (vval w - 1))%Q ->
  mrep 40000 p v -> mrep 40000 q w -> sim (good 1000000) (m_log c b m fuel p q) (log_var c m fuel v w).
Proof.
  intros N C C' H' Mv Mw. destruct (zero_or_pos c v C) as (s & Ez & Hz). destruct (zero_or_pos c w C') as (s' & Ez' & Hz').
  unfold m_log, log_var, m_nan, is_nan. rewrite (rp_sign p v (proj1 Mv)), (rp_sign q w (proj1 Mw)).
  apply sim_same. intros _ _. apply sim_same. intros _ _.
  rewrite (cmp_zero_m c p v Mv), Ez, !bind_ret. apply sim_guard. intro Hs.
  rewrite (cmp_zero_m c q w Mw), Ez', !bind_ret. apply sim_guard. intro Hs'.
  apply log_common_m; auto; [destruct Hz as [K|K]|destruct Hz' as [K|K]]; (exfalso; lia) || exact K.
Qed.

Theorem log_mach c b m fuel x y p s : logs_near (f_log10 m) (f_ln m) -> valid (be_varlen c) x ->
  stores_nan (be_varlen c) y \/ (stores (be_varlen c) y p s /\ (ten ^ (-1980) <= Qabs (p - 1))%Q) ->
  sim (bufrel c) (m_num_log c b m fuel x y) (num_log c m fuel x y).
Proof.
  intros N V V'. unfold m_num_log, num_log. destruct V as [H|(q & s0 & H)]; [rewrite H, nan_is_nan; cbn [bind]; apply nan_m|].
  destruct (stores_elim _ _ _ _ H) as (v & C & -> & _ & _). rewrite (num_is_nan_spec c v (canon_storable v C)). cbn [bind].
  destruct V' as [H'|[H' K]]; [rewrite H', nan_is_nan; cbn [bind]; apply nan_m|].
  destruct (stores_elim _ _ _ _ H') as (w & C' & -> & V' & _). rewrite (num_is_nan_spec c w (canon_storable w C')). cbn [bind].
  rewrite (m_as_var_ok c v C), (as_var_spec c v (canon_storable v C)). cbn [bind].
  rewrite (m_as_var_ok c w C'), (as_var_spec c w (canon_storable w C')). cbn [bind].
  assert (K' : (p10 (-1980) <= Qabs (vval w - 1))%Q) by (rewrite V'; exact K).
  apply (sim_bind _ _ _ _ _ _ (log_m c b m fuel (borrow v) (borrow w) v w N C C' K' (borrow_m v C) (borrow_m w C'))).
  intros r r' (Mr & Fr & Wr & Dr). apply (make_no_m c _ 1000000); auto; lia.
Qed.

Lemma away d : 2 <= d <= 9999 -> (p10 (-1980) <= Qabs (vval (Var 0 0 SPos [d]) - 1))%Q.
Proof.
  intro Hd. assert (Vd : (vval (Var 0 0 SPos [d]) == inject_Z d)%Q) by (apply eqR_Qeq; rewrite Q2R_Z; apply rv_small).
  rewrite Vd. assert (E1 : (inject_Z d - 1 == inject_Z (d - 1))%Q) by (change 1%Q with (inject_Z 1); unfold Qminus; rewrite <- inject_Z_opp, <- inject_Z_plus; reflexivity).
  rewrite E1. change (Qabs (inject_Z (d - 1))) with (inject_Z (Z.abs (d - 1))).
  apply (Qle_trans _ (p10 0)); [apply p10_le; lia|]. rewrite p10_0. change 1%Q with (inject_Z 1). rewrite <- Zle_Qle. lia.
Qed.

Theorem log_const_mach c b m fuel x : logs_near (f_log10 m) (f_ln m) -> valid (be_varlen c) x ->
  sim (bufrel c) (m_num_log2 c b m fuel x) (num_log2 c m fuel x) /\ sim (bufrel c) (m_num_log10 c b m fuel x) (num_log10 c m fuel x).
Proof.
  intros N V. unfold m_num_log2, num_log2, m_num_log10, num_log10.
  destruct V as [H|(q & s0 & H)]; [rewrite H, nan_is_nan; cbn [bind]; split; apply nan_m|].
  destruct (stores_elim _ _ _ _ H) as (v & C & -> & _ & _). rewrite (num_is_nan_spec c v (canon_storable v C)). cbn [bind].
  rewrite (m_as_var_ok c v C), (as_var_spec c v (canon_storable v C)). cbn [bind].
  split.
  - apply (sim_bind _ _ _ _ _ _ (log_m c b m fuel (borrow v) M_TWO v TWO N C (canon_small SPos 2 ltac:(discriminate) ltac:(lia)) (away 2 ltac:(lia)) (borrow_m v C) (two_m 40000 ltac:(lia)))).
    intros r r' (Mr & Fr & Wr & Dr). apply (make_no_m c _ 1000000); auto; lia.
  - apply (sim_bind _ _ _ _ _ _ (log_m c b m fuel (borrow v) M_TEN v TEN N C ten_canon (away 10 ltac:(lia)) (borrow_m v C) (mrep_mono 50 40000 _ _ ltac:(lia) ten_ok))).
    intros r r' (Mr & Fr & Wr & Dr). apply (make_no_m c _ 1000000); auto; lia.
Qed.

(** ** What the caller sees *)
Lemma ln_settled c m fuel x : valid (be_varlen c) x -> num_ln c m fuel x <> UB.
Proof.
  intros [H|(q & s & H)]; [rewrite H; destruct (nan_log c m fuel x) as (_ & -> & _); discriminate|].
  destruct (Qlt_le_dec 0 q) as [P|P].
  - destruct (ln_api c m fuel x q s H P) as [->|[[-> _]|(y & r & s' & -> & _)]]; discriminate.
  - destruct (stores_elim _ _ _ _ H) as (v & C & -> & V & _). unfold num_ln. rewrite (num_is_nan_spec c v (canon_storable v C)). cbn [bind].
    rewrite (as_var_spec c v (canon_storable v C)). cbn [bind]. rewrite (ln_domain c m fuel v (cn_st _ C)) by (rewrite V; exact P). discriminate.
Qed.

Lemma run_of c f g : sim (bufrel c) f g -> g <> UB -> agrees_run c (some_buf f) (some g).
Proof.
  intros S U. unfold agrees_run, some_buf, some. destruct f, g; cbn [sim] in S; try contradiction; cbn [bind agrees].
  - left. exact (bufrel_bytes _ _ _ S).
  - now left.
  - right. now split.
Qed.
Lemma back_of c f g y : sim (bufrel c) f g -> g = Ret y -> exists b, f = Ret b /\ shows c (Some b) (Some y).
Proof.
  intros S ->. destruct f as [b| | |]; try contradiction. exists b. split; [reflexivity|]. exact (bufrel_bytes _ _ _ S).
Qed.

Theorem ln_agrees c b m fuel x : valid (be_varlen c) x -> agrees_run c (some_buf (m_num_ln c b m fuel x)) (some (num_ln c m fuel x)).
Proof. intro V. exact (run_of _ _ _ (ln_mach c b m fuel x V) (ln_settled c m fuel x V)). Qed.

Lemma log_any_settled c o s : log_any c o s -> o <> UB.
Proof. intros [->|[[-> _]|[->|(y & r & s' & -> & _)]]]; discriminate. Qed.

Theorem log_agrees c b m fuel x y : logs_near (f_log10 m) (f_ln m) -> valid (be_varlen c) x ->
  stores_nan (be_varlen c) y \/ (exists p s, stores (be_varlen c) y p s /\ (ten ^ (-1980) <= Qabs (p - 1))%Q) ->
  agrees_run c (some_buf (m_num_log c b m fuel x y)) (some (num_log c m fuel x y)).
Proof.
  intros N V V'. apply run_of.
  - destruct V' as [H|(p & s & H)]; [apply (log_mach c b m fuel x y 0%Q 0); auto|apply (log_mach c b m fuel x y p s); auto].
  - destruct V as [H|(q & s & H)]; [rewrite H; destruct (nan_log c m fuel y) as (_ & _ & _ & _ & _ & ->); discriminate|].
    destruct V' as [H'|(p & s' & H' & K)]; [rewrite H', nan_log_base by (right; eauto); discriminate|].
    destruct (Qlt_le_dec 0 q) as [P|P]; [destruct (Qlt_le_dec 0 p) as [P'|P']|].
    1:{ exact (log_any_settled _ _ _ (log_any_api c m fuel x q s y p s' N H H' P P' K)). }
    all: destruct (stores_elim _ _ _ _ H) as (v & C & -> & E & _); destruct (stores_elim _ _ _ _ H') as (w & C' & -> & E' & _);
      unfold num_log; rewrite (num_is_nan_spec c v (canon_storable v C)), (num_is_nan_spec c w (canon_storable w C')); cbn [bind];
      rewrite (as_var_spec c v (canon_storable v C)); cbn [bind]; rewrite (as_var_spec c w (canon_storable w C')); cbn [bind];
      rewrite (log_domain c m fuel v w (cn_st _ C) (cn_st _ C')) by (rewrite E, E'; auto); discriminate.
Qed.

Theorem log_const_agrees c b m fuel x : logs_near (f_log10 m) (f_ln m) -> valid (be_varlen c) x ->
  agrees_run c (some_buf (m_num_log2 c b m fuel x)) (some (num_log2 c m fuel x)) /\
  agrees_run c (some_buf (m_num_log10 c b m fuel x)) (some (num_log10 c m fuel x)).
Proof.
  intros N V. destruct (log_const_mach c b m fuel x N V) as [S S'].
  assert (U : num_log2 c m fuel x <> UB /\ num_log10 c m fuel x <> UB).
  { destruct V as [H|(q & s & H)]; [rewrite H; destruct (nan_log c m fuel x) as (_ & _ & -> & -> & _); split; discriminate|].
    destruct (Qlt_le_dec 0 q) as [P|P].
    - destruct (log_const_any_api c m fuel x q s N H P) as [A A']. split; [exact (log_any_settled _ _ _ A)|exact (log_any_settled _ _ _ A')].
    - destruct (stores_elim _ _ _ _ H) as (v & C & -> & E & _). unfold num_log2, num_log10. rewrite (num_is_nan_spec c v (canon_storable v C)). cbn [bind].
      rewrite (as_var_spec c v (canon_storable v C)). cbn [bind].
      rewrite !(log_domain c m fuel v) by (apply (cn_st _ C) || apply (cn_st _ ten_canon) || apply (cn_st _ (canon_small SPos 2 ltac:(discriminate) ltac:(lia))) || (left; rewrite E; exact P)).
      split; discriminate. }
  destruct U as [U U']. split; now apply run_of.
Qed.

Theorem machine_ln_accurate c b m fuel x q s : stores (be_varlen c) x q s -> (0 < q)%Q ->
  let o := m_num_ln c b m fuel x in
  o = Diverge \/ (o = Panic WArith /\ dbg c = true) \/
  (exists u y r s', o = Ret u /\ shows c (Some u) (Some y) /\ stores (be_varlen c) y r s' /\ Z.min 1000 s <= s' <= 1000 /\
     (Rabs (Q2R r - ln (Q2R q)) <= ln_error s' (ln (Q2R q)))%R).
Proof.
  intros H P. cbv zeta. assert (V : valid (be_varlen c) x) by (right; eauto). pose proof (ln_mach c b m fuel x V) as S.
  destruct (ln_api c m fuel x q s H P) as [E|[[E D]|(y & r & s' & E & K)]].
  - rewrite E in S. destruct (m_num_ln c b m fuel x); try contradiction. now left.
  - rewrite E in S. destruct (m_num_ln c b m fuel x); try contradiction. cbn [sim] in S. subst. right. left. now split.
  - destruct (back_of c _ _ y S E) as (u & -> & Su). right. right. exists u, y, r, s'. auto.
Qed.

Definition log_shown (c : cfg) (o : outcome pbuf) (q p : Q) (s : Z) : Prop :=
  o = Diverge \/ (o = Panic WArith /\ dbg c = true) \/
  (exists u y r s', o = Ret u /\ shows c (Some u) (Some y) /\ stores (be_varlen c) y r s' /\ Z.min 1000 s <= s' <= 1000 /\
     (Rabs (Q2R r - ln (Q2R q) / ln (Q2R p)) <= 505 / 1000 * powerRZ 10 (- s'))%R).
Lemma log_shown_of c f g q p s : sim (bufrel c) f g -> log_ok c g q p s -> log_shown c f q p s.
Proof.
  intros S [E|[[E D]|(y & r & s' & E & K)]]; unfold log_shown.
  - rewrite E in S. destruct f; try contradiction. now left.
  - rewrite E in S. destruct f; try contradiction. cbn [sim] in S. subst. right. left. now split.
  - destruct (back_of c _ _ y S E) as (u & -> & Su). right. right. exists u, y, r, s'. destruct K as (K1 & K2 & K3 & _). auto.
Qed.

Theorem machine_log_accurate c b m fuel x q s y p sb : logs_near (f_log10 m) (f_ln m) -> stores (be_varlen c) x q s -> stores (be_varlen c) y p sb ->
  (0 < q)%Q -> (0 < p)%Q -> ((q == 1)%Q \/ (ten ^ (-990) <= Qabs (q - 1))%Q) -> (ten ^ (-1980) <= Qabs (p - 1))%Q ->
  log_shown c (m_num_log c b m fuel x y) q p (Z.max s sb).
Proof.
  intros N H H' P P' K K'. assert (V : valid (be_varlen c) x) by (right; eauto).
  exact (log_shown_of _ _ _ _ _ _ (log_mach c b m fuel x y p sb N V (or_intror (conj H' K'))) (log_api c m fuel x q s y p sb N H H' P P' K K')).
Qed.
Theorem machine_log_const_accurate c b m fuel x q s : logs_near (f_log10 m) (f_ln m) -> stores (be_varlen c) x q s ->
  (0 < q)%Q -> ((q == 1)%Q \/ (ten ^ (-990) <= Qabs (q - 1))%Q) ->
  log_shown c (m_num_log2 c b m fuel x) q 2 s /\ log_shown c (m_num_log10 c b m fuel x) q 10 s.
Proof.
  intros N H P K. assert (V : valid (be_varlen c) x) by (right; eauto). destruct (log_const_mach c b m fuel x N V) as [S S'].
  destruct (log_const_api c m fuel x q s N H P K) as [A A']. split; [exact (log_shown_of _ _ _ _ _ _ S A)|exact (log_shown_of _ _ _ _ _ _ S' A')].
Qed.
