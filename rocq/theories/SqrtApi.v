(** * SqrtApi: square root through the public entry point. *)
From Coq Require Import ZArith QArith Qround Qpower Qabs List Bool Lia Lqa.
From Verif Require Import Base Var Binary Parse Num Flt Transc Spec SpecRoot QDec Digits Arith Strip Round Trunc AddSub
  Signed Codec Make DivQ DivFast Mul MulNear Sqrt.
Import ListNotations.
Open Scope Z_scope.

Lemma root_scale_eq v : 0 <= dscale v -> sqrt_rscale v = root_scale (to_number v).
Proof.
  intro H. unfold sqrt_rscale, root_scale. cbn [scale wt to_number].
  change DEC_DIGITS with 4. change NUMERIC_MIN_SIG_DIGITS with 16. change NUMERIC_MIN_DISPLAY_SCALE with 0.
  change NUMERIC_MAX_DISPLAY_SCALE with 1000.
  replace ((weight v + 1) * 4) with (2 * (weight v + 1) * 2) by ring. rewrite Z.quot_mul by lia. lia.
Qed.

Lemma root_scale_range n : 0 <= scale n -> 0 <= root_scale n <= 1000.
Proof. unfold root_scale. lia. Qed.

Lemma canon_input v : canon v -> (0 < vval v)%Q -> input v (sqrt_rscale v + 8) /\ -4096 <= weight v.
Proof.
  intros C P. pose proof (cn_scale v C) as S. pose proof (canon_ndigits v C). pose proof (cn_weight v C).
  pose proof (root_scale_range (to_number v) ltac:(cbn; lia)) as R. rewrite <- root_scale_eq in R by lia.
  split.
  - constructor; try apply stripped_semi; try apply C; try lia; auto.
  - apply weight_lb; [apply C|exact S|now apply canon_mult|]. intro E. rewrite E in P. now apply Qlt_irrefl in P.
Qed.

(** the root of a representable number is representable *)
Lemma root_weight a x ls k : (a < p10 131072)%Q -> 0 <= ls -> stripped x -> good_root a ls k ->
  (vval x == inject_Z k * p10 (- ls))%Q -> weight x <= 16400.
Proof.
  intros Ha L T [K0 G] V. destruct (Z_le_gt_dec (weight x) 16400) as [W|W]; [exact W|exfalso].
  destruct (digits x) eqn:E; [destruct (st_zero _ T E); lia|].
  destruct (stripped_range x T ltac:(congruence)) as [Lb _].
  assert (X0 : (0 <= vval x)%Q).
  { rewrite V. apply Qmult_le_0_compat; [|apply Qlt_le_weak, p10_pos]. change 0%Q with (inject_Z 0).
    rewrite <- Zle_Qle. lia. }
  rewrite Qabs_pos in Lb by exact X0.
  assert (Lx : (p10 65600 <= vval x)%Q) by (eapply Qle_trans; [|exact Lb]; apply p10_le; lia).
  pose proof (p10_opp ls) as O. pose proof (p10_pos (- ls)) as P.
  apply Qabs_Qle_condition in G. destruct G as [_ G].
  set (p := p10 ls) in *. set (u := p10 (- ls)) in *. set (K := inject_Z k) in *.
  assert (U1 : (u <= 1)%Q).
  { unfold u. rewrite <- p10_0. apply p10_le. lia. }
  assert (Big : (1000 <= p10 65600)%Q).
  { apply (Qle_trans _ (p10 3)); [change (p10 3) with 1000%Q; lra|apply p10_le; lia]. }
  (* x^2 - a <= 1.6 x u *)
  assert (G' : ((K * K - a * p * p) * (u * u) <= (3 # 2) * K * (u * u) + tiny * K * (u * u))%Q).
  { apply (Qle_trans _ (((3 # 2) + tiny) * K * (u * u))); [|apply Qle_lteq; right; ring].
    apply Qmult_le_compat_r; [exact G|apply Qsq]. }
  assert (E1 : ((K * K - a * p * p) * (u * u) == vval x * vval x - a)%Q).
  { rewrite V. setoid_replace ((K * K - a * p * p) * (u * u))%Q with ((K * u) * (K * u) - a * (p * u) * (p * u))%Q by ring.
    rewrite O. ring. }
  assert (E2 : ((3 # 2) * K * (u * u) + tiny * K * (u * u) == ((3 # 2) + tiny) * vval x * u)%Q) by (rewrite V; ring).
  rewrite E1, E2 in G'. set (X := vval x) in *. clearbody X p u.
  assert (Xu : (X * u <= X * 1)%Q) by (rewrite (Qmult_comm X u), (Qmult_comm X 1); apply Qmult_le_compat_r; lra).
  assert (Sq : (p10 65600 * p10 65600 <= X * X)%Q) by (apply Qsq_mono; [apply Qlt_le_weak, p10_pos|exact Lx]).
  rewrite <- p10_add in Sq. change (65600 + 65600) with 131200 in Sq.
  assert (Sq2 : (1000 * X <= X * X)%Q) by (apply Qmult_le_compat_r; lra).
  assert (Lo : (p10 131072 * 1000 <= p10 131200)%Q).
  { replace 131200 with (131072 + 128) by lia. rewrite p10_add.
    rewrite (Qmult_comm (p10 131072) 1000), (Qmult_comm (p10 131072) (p10 128)).
    apply Qmult_le_compat_r; [|apply Qlt_le_weak, p10_pos].
    apply (Qle_trans _ (p10 3)); [change (p10 3) with 1000%Q; lra|apply p10_le; lia]. }
  unfold tiny in G'. lra.
Qed.

Lemma below_p10 be x q s : stores be x q s -> (q < p10 131072)%Q.
Proof.
  intro H. destruct (stores_bound _ _ _ _ H) as (L & _). rewrite limit_p10 in L.
  change (4 * 32768) with 131072 in L. eapply Qle_lt_trans; [apply Qle_Qabs|exact L].
Qed.

Lemma sign_pos v : canon v -> (0 < vval v)%Q -> sign v = SPos.
Proof.
  intros C P. destruct (sign v) eqn:E; [reflexivity| |exfalso; now apply (canon_nan v C)].
  exfalso. unfold vval, smag in P. rewrite E in P. cbn [sgz] in P.
  rewrite <- (dec_0 (4 * lsd v)) in P. apply (proj1 (dec_lt_iff _ _ _)) in P.
  pose proof (smag_mag v (canon_dig v C)). lia.
Qed.

Definition finish (c : cfg) (s : Z) (o : outcome var) : outcome bytes :=
  r <- o ;; r <- round_common c r s ;; make_result_no_overflow c r.

(** On a positive number the call is the loop from the guess, rounded. *)
Lemma num_sqrt_unfold c fuel v : canon v -> (0 < vval v)%Q ->
  exists g, sqrt_guess v = Ret g /\ num_sqrt c fuel (layout (be_varlen c) (to_number v)) =
  finish c (sqrt_rscale v) (sqrt_loop c fuel v g g (sqrt_rscale v + 8)).
Proof.
  intros C P. pose proof (canon_storable v C) as St. destruct (canon_input v C P) as [I W].
  set (s := sqrt_rscale v) in *. pose proof (sign_pos v C P) as Sg.
  destruct (sqrt_guess_ok v (s + 8) I W) as (g & Eg & _). exists g. split; [exact Eg|].
  unfold num_sqrt. rewrite (num_is_nan_spec c v St). cbn [bind]. rewrite (as_var_spec c v St). cbn [bind].
  unfold is_negative. rewrite Sg. cbn [sgn_eqb negb assert_msg bind].
  unfold sqrt_var. unfold is_negative, is_nan. rewrite Sg. cbn [sgn_eqb negb]. rewrite !dassert_ok by reflexivity.
  cbn [bind]. fold s. unfold sqrt_common. unfold is_positive. rewrite Sg. cbn [sgn_eqb]. rewrite dassert_ok by reflexivity.
  cbn [bind]. assert (N0 : (ndigits v =? 0) = false).
  { apply Z.eqb_neq. intro E. apply (in_nz _ _ I). apply ndigits_0. now apply Z.eqb_eq. }
  rewrite N0, Eg. cbn [bind]. unfold finish.
  destruct (sqrt_loop c fuel v g g (s + 8)) as [x| | |]; reflexivity.
Qed.

Lemma finish_ok c s x k : 0 <= s <= 1000 -> stripped x -> weight x <= 16400 ->
  (vval x == inject_Z k * p10 (- (s + 8)))%Q ->
  exists b, finish c s (Ret x) = Ret b /\ stores (be_varlen c) b (round_at (inject_Z k * p10 (- (s + 8))) s) s.
Proof.
  intros S8 T Wx Vx. unfold finish. cbn [bind].
  destruct (round_common_spec c x s (st_digits _ T) (st_nan _ T)) as (r & Er & R). rewrite Er. cbn [bind].
  assert (Vr : (vval r == round_at (inject_Z k * p10 (- (s + 8))) s)%Q).
  { rewrite (rd_val _ _ _ _ R). now apply round_at_comp. }
  destruct (make_no_overflow_spec c r) as (b & Eb & Sb).
  { apply R. } { apply R. } { rewrite (rd_scale _ _ _ _ R). lia. }
  { rewrite (rd_scale _ _ _ _ R). apply (mult_comp _ _ _ (Qeq_sym _ _ (rd_val _ _ _ _ R))).
    apply mult_round. lia. }
  { destruct (rd_weight _ _ _ _ R) as [H|[[H _]|[H _]]]; lia. }
  exists b. split; [exact Eb|]. rewrite (rd_scale _ _ _ _ R) in Sb. now apply (stores_ext _ _ (vval r)).
Qed.

Lemma finish_root c v x k : let s := sqrt_rscale v in canon v -> (0 < vval v)%Q -> stripped x ->
  (vval x == inject_Z k * p10 (- (s + 8)))%Q -> good_root (vval v) (s + 8) k ->
  exists b q, finish c s (Ret x) = Ret b /\ stores (be_varlen c) b q s /\ close_root (vval v) q (root_error s).
Proof.
  intros s C P T V G.
  assert (S8 : 0 <= s <= 1000).
  { unfold s. pose proof (root_scale_range (to_number v) ltac:(cbn; apply C)) as R.
    rewrite <- root_scale_eq in R by apply C. exact R. }
  assert (Wx : weight x <= 16400).
  { apply (root_weight (vval v) x (s + 8) k); auto; [|lia].
    apply (below_p10 (be_varlen c) (layout (be_varlen c) (to_number v)) _ (dscale v)). now apply stores_intro. }
  destruct (finish_ok c s x k S8 T Wx V) as (b & E & Sb).
  exists b, (round_at (inject_Z k * p10 (- (s + 8))) s). split; [exact E|]. split; [exact Sb|].
  apply (root_rounded (vval v) s k _ G). reflexivity.
Qed.

(** Everything a call can do on a positive number. *)
Theorem num_sqrt_outcomes c fuel v : canon v -> (0 < vval v)%Q ->
  let s := sqrt_rscale v in
  let r := num_sqrt c fuel (layout (be_varlen c) (to_number v)) in
  r = Diverge \/
  (r = Panic (WMsg MShouldNotBeZero) /\ (vval v * p10 (s + 8) * p10 (s + 8) < 1)%Q) \/
  (r = Panic WArith /\ dbg c = true) \/
  (exists x q, r = Ret x /\ stores (be_varlen c) x q s /\ close_root (vval v) q (root_error s)).
Proof.
  intros C P s. cbv zeta. destruct (canon_input v C P) as [I W]. fold s in I.
  destruct (num_sqrt_unfold c fuel v C P) as (g & Eg & ->). fold s.
  destruct (sqrt_guess_ok v (s + 8) I W) as (g' & Eg' & V & _).
  assert (g' = g) by congruence. subst g'.
  destruct (sqrt_loop_spec c v (s + 8) I fuel g V) as [->|[[-> H]|[[-> H]|(x' & k & -> & T & D & Vx & G)]]].
  - now left.
  - right. left. now split.
  - right. right. left. now split.
  - right. right. right. now apply (finish_root c v x' k).
Qed.

Lemma num_sqrt_zero c fuel v : canon v -> digits v = [] ->
  exists x, num_sqrt c fuel (layout (be_varlen c) (to_number v)) = Ret x /\
    stores (be_varlen c) x 0 (sqrt_rscale v).
Proof.
  intros C E. pose proof (canon_storable v C) as St. destruct (st_zero _ (cn_st v C) E) as [Sg _].
  assert (S8 : 0 <= sqrt_rscale v <= 1000).
  { pose proof (root_scale_range (to_number v) ltac:(cbn; apply C)) as R.
    rewrite <- root_scale_eq in R by apply C. exact R. }
  unfold num_sqrt. rewrite (num_is_nan_spec c v St). cbn [bind]. rewrite (as_var_spec c v St). cbn [bind].
  unfold is_negative. rewrite Sg. cbn [sgn_eqb negb assert_msg bind].
  unfold sqrt_var. unfold is_negative, is_nan. rewrite Sg. cbn [sgn_eqb negb]. rewrite !dassert_ok by reflexivity.
  cbn [bind]. unfold sqrt_common. unfold is_positive. rewrite Sg. cbn [sgn_eqb]. rewrite dassert_ok by reflexivity.
  cbn [bind]. unfold ndigits. rewrite E. change (lenz [] =? 0) with true. cbn [bind].
  set (s := sqrt_rscale v) in *. clearbody s. rewrite zero_scaled_ok by lia. cbn [bind].
  destruct (make_no_overflow_spec c (Var 0 s SPos [])) as (b & Eb & Sb); cbn [digits sign dscale weight];
    try constructor; try discriminate; try lia.
  { exists 0. rewrite vval_empty by reflexivity. ring. }
  exists b. split; [exact Eb|]. apply (stores_ext _ _ (vval (Var 0 s SPos []))); [now apply vval_empty|exact Sb].
Qed.

Lemma num_sqrt_neg c fuel v : canon v -> (vval v < 0)%Q ->
  num_sqrt c fuel (layout (be_varlen c) (to_number v)) = Panic (WMsg MSqrtNeg).
Proof.
  intros C P. pose proof (canon_storable v C) as St.
  assert (Sg : sign v = SNeg).
  { destruct (sign v) eqn:E; [|reflexivity|exfalso; now apply (canon_nan v C)].
    exfalso. unfold vval, smag in P. rewrite E in P. cbn [sgz] in P.
    rewrite <- (dec_0 (4 * lsd v)) in P. apply (proj1 (dec_lt_iff _ _ _)) in P.
    pose proof (smag_mag v (canon_dig v C)). lia. }
  unfold num_sqrt. rewrite (num_is_nan_spec c v St). cbn [bind]. rewrite (as_var_spec c v St). cbn [bind].
  unfold is_negative. rewrite Sg. reflexivity.
Qed.

Lemma num_sqrt_nan c fuel :
  num_sqrt c fuel (nan_layout (be_varlen c)) = Ret (nan_layout (be_varlen c)).
Proof. unfold num_sqrt. rewrite nan_is_nan. cbn [bind]. apply nan_buf_spec. Qed.
