(** * PowApi: the entry point of powers (num.rs pow, var.rs pow, power_common). *)
From Coq Require Import ZArith QArith Qabs Qpower Znumtheory List Bool Lia Lqa.
From Verif Require Import Base Var Binary Format Parse Convert Num Flt Transc Spec SpecApi SpecLibm QDec Digits Arith Strip
  Round Trunc AddSub Signed Codec Make Api1 Api2 Mul DivQ ConvertApi PowLoop Sci PowInt.
Import ListNotations.
Open Scope Z_scope.

Lemma cmp_st c v1 v2 : stripped v1 -> stripped v2 -> exists s, cmp_common c v1 v2 = Ret s /\ sgn_cmp s (vval v1) (vval v2).
Proof.
  intros S1 S2. apply cmp_common_spec; try apply S1; try apply S2; apply semi_nze, stripped_semi; assumption.
Qed.
Lemma ZERO_st : stripped ZERO.
Proof. exact (cn_st _ (canon_zero 0 ltac:(lia))). Qed.
Lemma ZERO_val : (vval ZERO == 0)%Q.
Proof. apply vval_empty. reflexivity. Qed.

Lemma cmp_zero c v : stripped v -> exists s, cmp_common c v ZERO = Ret s /\ sgn_cmp s (vval v) 0.
Proof.
  intro S. destruct (cmp_st c v ZERO S ZERO_st) as (s & E & H). exists s. split; [exact E|].
  unfold sgn_cmp in *. rewrite ZERO_val in H. exact H.
Qed.

(** the comparison with the integral part *)
Lemma cmp_trunc c e : stripped e -> exists r s, trunc_common c e 0 = Ret r /\ cmp_common c e r = Ret s /\ (s = 0 <-> mult (vval e) 0).
Proof.
  intro S. destruct (trunc_common_spec c e 0 (st_digits e S) (st_nan e S)) as (r & Er & R). exists r.
  assert (NZ : nonzero_or_empty r).
  { unfold nonzero_or_empty. destruct (Z.eq_dec (mag r) 0) as [M0|M0]; [|right; pose proof (dval_bound _ (tr_digits _ _ _ _ R)) as B; fold (mag r) in B; lia].
    left. destruct (digits e) as [|d t] eqn:E.
    - pose proof (tr_len _ _ _ _ R) as L. unfold ndigits in L. rewrite E in L. change (lenz []) with 0 in L. pose proof (lenz_nonneg (digits r)). apply lenz_0. lia.
    - assert (V0 : (vval r == 0)%Q) by (unfold vval, smag; rewrite M0, Z.mul_0_r; apply dec_0).
      destruct (Z_lt_le_dec (weight e) 0) as [W|W].
      + unfold trunc_common in Er. rewrite (nan_ok c e (st_nan e S)) in Er. cbn [bind] in Er. change DEC_DIGITS with 4 in Er.
        replace ((weight e + 1) * 4 + 0 <=? 0) with true in Er by (symmetry; apply Z.leb_le; lia). now injection Er as <-.
      + exfalso. assert (NE : digits e <> []) by congruence. pose proof (stripped_range e S NE) as [L _].
        assert (G1 : (1 <= Qabs (vval e))%Q) by (rewrite <- p10_0; eapply Qle_trans; [|exact L]; apply p10_le; lia).
        pose proof (tr_val _ _ _ _ R) as T. rewrite V0 in T. unfold trunc_at in T. change (ten ^ 0)%Q with 1%Q in T. change (ten ^ - 0)%Q with 1%Q in T.
        rewrite Qmult_1_r in T. assert (T0 : trunc_int (vval e * 1) = 0) by (apply (proj1 (inject_Z_injective _ _)); rewrite <- T; reflexivity).
        unfold trunc_int in T0. destruct (Qlt_le_dec (vval e * 1) 0) as [Ng|Nn].
        * rewrite Qabs_neg in G1 by lra. assert (K : 1 <= Qround.Qfloor (- (vval e * 1))).
          { change 1 with (Qround.Qfloor 1) at 1. apply Qround.Qfloor_resp_le. lra. } lia.
        * rewrite Qabs_pos in G1 by lra. assert (K : 1 <= Qround.Qfloor (vval e * 1)).
          { change 1 with (Qround.Qfloor 1) at 1. apply Qround.Qfloor_resp_le. lra. } lia. }
  destruct (cmp_common_spec c e r (st_digits e S) (tr_digits _ _ _ _ R) (st_nan e S) (tr_sign _ _ _ _ R) (semi_nze e (stripped_semi e S)) NZ)
    as (s & Es & H). exists s. split; [exact Er|]. split; [exact Es|].
  assert (EQ : s = 0 <-> (vval e == vval r)%Q).
  { destruct H as [[-> H]|[[-> H]|[-> H]]]; split; intro K; try lia; try assumption; lra. }
  rewrite EQ, (tr_val _ _ _ _ R). split; intro K.
  - apply (mult_comp (trunc_at (vval e) 0)); [now symmetry|]. apply mult_trunc. lia.
  - symmetry. now apply trunc_at_mult.
Qed.

Lemma not_nan v : stripped v -> is_nan v = false.
Proof. intro S. pose proof (st_nan v S). unfold is_nan. destruct (sign v); [reflexivity|reflexivity|congruence]. Qed.

Lemma pow_zero_neg c m fuel v e : stripped v -> stripped e -> (vval v == 0)%Q -> (vval e < 0)%Q ->
  pow_var c m fuel v e = Panic (WMsg MZeroPowNeg).
Proof.
  intros S T V E. unfold pow_var. rewrite (not_nan v S), (not_nan e T).
  destruct (cmp_zero c v S) as (s & Es & Hs). destruct (cmp_zero c e T) as (s' & Es' & Hs'). rewrite Es. cbn [bind].
  assert (s = 0) as -> by (destruct Hs as [[? ?]|[[? ?]|[? ?]]]; [assumption|lra|lra]). change (0 =? 0) with true. cbv iota.
  rewrite Es'. cbn [bind]. assert (s' = -1) as -> by (destruct Hs' as [[? ?]|[[? ?]|[? ?]]]; [lra|lra|assumption]). reflexivity.
Qed.

Lemma pow_neg_frac c m fuel v e : stripped v -> stripped e -> (vval v < 0)%Q -> ~ mult (vval e) 0 ->
  pow_var c m fuel v e = Panic (WMsg MNegPowFrac).
Proof.
  intros S T V E. unfold pow_var. rewrite (not_nan v S), (not_nan e T).
  destruct (cmp_zero c v S) as (s & Es & Hs). rewrite Es. cbn [bind].
  assert (s = -1) as -> by (destruct Hs as [[? ?]|[[? ?]|[? ?]]]; [lra|lra|assumption]). change (-1 =? 0) with false. cbv iota. cbn [bind andb].
  destruct (cmp_trunc c e T) as (r & k & Er & Ek & Hk). rewrite Er. cbn [bind]. change (-1 <? 0) with true. cbv iota.
  rewrite Ek. cbn [bind andb]. destruct (Z.eqb_spec k 0) as [K|K]; [exfalso; apply E; now apply Hk|]. reflexivity.
Qed.

Lemma pow_go c m fuel v e : stripped v -> stripped e -> ~ ((vval v == 0)%Q /\ (vval e < 0)%Q) -> (0 <= vval v)%Q \/ mult (vval e) 0 ->
  pow_var c m fuel v e = power_common c m fuel v e.
Proof.
  intros S T H1 H2. unfold pow_var. rewrite (not_nan v S), (not_nan e T).
  destruct (cmp_zero c v S) as (s & Es & Hs). rewrite Es. cbn [bind].
  destruct (cmp_zero c e T) as (s' & Es' & Hs').
  destruct (cmp_trunc c e T) as (r & k & Er & Ek & Hk).
  assert (Y : exists se, (if s =? 0 then cmp_common c e ZERO else Ret 0) = Ret se /\ (s =? 0) && (se <? 0) = false).
  { destruct (Z.eqb_spec s 0) as [S0|S0]; [|exists 0; now split]. exists s'. split; [exact Es'|].
    destruct Hs' as [[-> ?]|[[-> ?]|[-> ?]]]; [reflexivity|reflexivity|]. exfalso. apply H1. split; [|assumption].
    destruct Hs as [[? ?]|[[? ?]|[? ?]]]; [assumption|lia|lia]. }
  destruct Y as (se & Y1 & Y2). rewrite Y1. cbn [bind]. rewrite Y2. rewrite Er. cbn [bind].
  destruct (Z.ltb_spec s 0) as [Ng|Nn]; [|reflexivity]. rewrite Ek. cbn [bind andb].
  destruct H2 as [H2|H2].
  - exfalso. destruct Hs as [[? ?]|[[? ?]|[? ?]]]; [lia|lia|lra].
  - apply Hk in H2. rewrite H2. reflexivity.
Qed.

Lemma power_common_int c m fuel v e n : stripped v -> stripped e -> (vval e == inject_Z n)%Q -> -2147483648 <= n < 2147483648 ->
  power_common c m fuel v e = power_int c m v n (Z.min 1000 (Z.max 16 (dscale v))).
Proof.
  intros S T V H. unfold power_common. rewrite (nan_ok c v (st_nan v S)), (nan_ok c e (st_nan e T)). cbn [bind].
  replace ((ndigits e =? 0) || (ndigits e <=? weight e + 1)) with true.
  2:{ symmetry. destruct (digits e) as [|d t] eqn:E; [unfold ndigits; rewrite E; reflexivity|].
      assert (NE : digits e <> []) by congruence. destruct (stripped_int e n T NE V) as (_ & _ & L & _).
      apply orb_true_iff. right. apply Z.leb_le. exact L. }
  rewrite var_to_signed_spec; [|unfold int_width; lia|apply T|apply T]. cbn [bind].
  rewrite (round_int_comp _ _ V), round_int_Z.
  replace (in_signed 32 n) with true. 2:{ symmetry. unfold in_signed. change (2 ^ (32 - 1)) with 2147483648. apply andb_true_intro. rewrite Z.leb_le, Z.ltb_lt. lia. }
  unfold clamp_scale. change NUMERIC_MIN_SIG_DIGITS with 16. change NUMERIC_MIN_DISPLAY_SCALE with 0. change NUMERIC_MAX_DISPLAY_SCALE with 1000.
  f_equal. lia.
Qed.

(** ** How many fractional digits a power needs *)
Lemma prime_5 : prime 5.
Proof.
  apply prime_intro; [lia|]. intros n H. apply Zgcd_1_rel_prime.
  assert (n = 1 \/ n = 2 \/ n = 3 \/ n = 4) as [->|[->|[->| ->]]] by lia; reflexivity.
Qed.

Lemma prime_pow p z n : prime p -> 0 <= n -> (p | z ^ n) -> (p | z).
Proof.
  intros P H. revert H. apply (natlike_ind (fun n => (p | z ^ n) -> (p | z))).
  - intro D. rewrite Z.pow_0_r in D. pose proof (prime_ge_2 p P). apply Z.divide_1_r_nonneg in D; lia.
  - clear n. intros n H IH D. rewrite Z.pow_succ_r in D by exact H. destruct (prime_mult p P z (z ^ n) D) as [G|G]; auto.
Qed.

Lemma ten_pow z n : 0 <= n -> (10 | z ^ n) -> (10 | z).
Proof.
  intros H D.
  assert (D2 : (2 | z)) by (apply (prime_pow 2 z n prime_2 H); apply Z.divide_trans with 10; [exists 5; reflexivity|exact D]).
  assert (D5 : (5 | z)) by (apply (prime_pow 5 z n prime_5 H); apply Z.divide_trans with 10; [exists 2; reflexivity|exact D]).
  destruct D2 as [a A]. destruct D5 as [b B]. exists (a - 2 * b). lia.
Qed.

Lemma min_scale q s : 0 <= s -> mult q s ->
  exists t, 0 <= t <= s /\ mult q t /\ (t = 0 \/ exists z, (q * p10 t == inject_Z z)%Q /\ ~ (10 | z)).
Proof.
  intro H. revert H. apply (natlike_ind (fun s => mult q s -> exists t, 0 <= t <= s /\ mult q t /\ (t = 0 \/ exists z, (q * p10 t == inject_Z z)%Q /\ ~ (10 | z)))).
  - intro M. exists 0. split; [lia|]. split; [exact M|now left].
  - clear s. intros s H IH M. destruct M as [z Z1]. destruct (Zdivide_dec 10 z) as [[y Y]|D].
    + destruct IH as (t & T1 & T2 & T3).
      * exists y. rewrite Y, inject_Z_mult in Z1. change (Z.succ s) with (s + 1) in Z1. rewrite p10_add in Z1. change (p10 1) with 10%Q in Z1.
        change (inject_Z 10) with 10%Q in Z1. lra.
      * exists t. split; [lia|]. now split.
    + exists (Z.succ s). split; [lia|]. split; [now exists z|]. right. now exists z.
Qed.

Lemma pow_scale q s n r : 0 <= s -> mult q s -> 1 <= n -> 0 <= r -> mult (q ^ n) r -> exists t, 0 <= t <= s /\ mult q t /\ n * t <= r.
Proof.
  intros Hs M Hn Hr MP. destruct (min_scale q s Hs M) as (t & T1 & T2 & T3). exists t. split; [exact T1|]. split; [exact T2|].
  destruct T3 as [->|(z & Z1 & Z2)]; [lia|].
  destruct (Z_le_gt_dec (n * t) r) as [L|G]; [exact L|exfalso]. apply Z2. apply (ten_pow z n); [lia|].
  destruct MP as [K E].
  assert (ZP : (inject_Z (z ^ n) == q ^ n * p10 (t * n))%Q).
  { rewrite <- Zpow_Q by lia. rewrite <- (Qpower_comp _ _ Z1 n n eq_refl). rewrite Qmult_power, p10_pow by lia. reflexivity. }
  replace (t * n) with (r + (n * t - r)) in ZP by lia. rewrite p10_add, Qmult_assoc, E, p10_Z, <- inject_Z_mult in ZP by lia.
  apply (proj1 (inject_Z_injective _ _)) in ZP. rewrite ZP. replace (n * t - r) with (Z.succ (n * t - r - 1)) by lia. rewrite Z.pow_succ_r by lia.
  exists (K * 10 ^ (n * t - r - 1)). ring.
Qed.

(** ** The entry point *)
Definition pow_scale_of (s : Z) : Z := Z.min 1000 (Z.max 16 s).

Lemma num_pow_unfold c m fuel v e : canon v -> canon e ->
  num_pow c m fuel (layout (be_varlen c) (to_number v)) (layout (be_varlen c) (to_number e)) =
    o <- pow_var c m fuel v e ;;
    match o with None => Ret None | Some r => if is_nan r then b <- nan_buf c ;; Ret (Some b) else make_result c r end.
Proof. intros C1 C2. unfold num_pow. rewrite (as_var_spec c v (canon_storable v C1)). cbn [bind]. rewrite (as_var_spec c e (canon_storable e C2)). reflexivity. Qed.

Lemma not_nan' x : sign x <> SNaN -> is_nan x = false.
Proof. unfold is_nan. destruct (sign x); [reflexivity|reflexivity|congruence]. Qed.

Theorem pow_exact c m fuel x q s e n se : log10_sound (f_log10 m) -> ln_sound (f_ln m) ->
  stores (be_varlen c) x q s -> stores (be_varlen c) e (inject_Z n) se -> 0 <= n < 2 ^ 31 ->
  (exists k, (q ^ n * ten ^ pow_scale_of s == inject_Z k)%Q) -> (exists z, (q == inject_Z z)%Q) \/ n <= 16 ->
  exists o, num_pow c m fuel x e = Ret o /\ result_of (be_varlen c) (q ^ n) (pow_scale_of s) o.
Proof.
  intros LG LN H1 H2 Hn MP HI. change (2 ^ 31) with 2147483648 in Hn.
  destruct (stores_elim _ _ _ _ H1) as (v & C1 & -> & V1 & S1). destruct (stores_elim _ _ _ _ H2) as (w & C2 & -> & V2 & S2).
  rewrite num_pow_unfold by assumption.
  assert (Q0 : ~ ((vval v == 0)%Q /\ (vval w < 0)%Q)).
  { intros [_ K]. rewrite V2 in K. change 0%Q with (inject_Z 0) in K. rewrite <- Zlt_Qlt in K. lia. }
  assert (I0 : mult (vval w) 0) by (exists n; rewrite V2, p10_0, Qmult_1_r; reflexivity).
  rewrite (pow_go c m fuel v w (cn_st v C1) (cn_st w C2) Q0 (or_intror I0)).
  rewrite (power_common_int c m fuel v w n (cn_st v C1) (cn_st w C2) V2) by lia.
  rewrite <- S1 in *. pose proof (cn_scale v C1) as Sc. pose proof (canon_mult v C1) as M.
  assert (MP' : mult (vval v ^ n) (pow_scale_of (dscale v))).
  { apply (mult_comp (q ^ n)); [symmetry; exact (Qpower_comp _ _ V1 n n eq_refl)|exact MP]. }
  assert (T : exists t, 0 <= t <= dscale v /\ mult (vval v) t /\ n * t <= pow_scale_of (dscale v) /\ (t = 0 \/ n <= 16)).
  { destruct HI as [[z Hz]|HI].
    - exists 0. split; [lia|]. split; [exists z; rewrite V1, p10_0, Qmult_1_r; exact Hz|]. split; [unfold pow_scale_of; lia|now left].
    - destruct (Z.eq_dec n 0) as [->|N0].
      + exists (dscale v). split; [lia|]. split; [exact M|]. split; [unfold pow_scale_of; lia|right; lia].
      + destruct (pow_scale (vval v) (dscale v) n (pow_scale_of (dscale v)) ltac:(lia) M ltac:(lia) ltac:(unfold pow_scale_of; lia) MP') as (t & T1 & T2 & T3).
        exists t. split; [exact T1|]. split; [exact T2|]. split; [exact T3|now right]. }
  destruct T as (t & T1 & T2 & T3 & T4).
  pose proof (power_int_exact c m v n t LG LN C1 ltac:(lia) T1 T2 T3 T4) as R. fold (pow_scale_of (dscale v)) in R.
  apply (pow_result_comp _ (q ^ n)) in R; [|exact (Qpower_comp _ _ V1 n n eq_refl)].
  destruct R as [[E L]|(z & E & D & Nn & Ds & V & W1 & W2)].
  - unfold pow_scale_of in E. rewrite E. cbn [bind]. exists None. split; [reflexivity|]. split; [intro K; exfalso; lra|reflexivity].
  - unfold pow_scale_of in E at 1. rewrite E. cbn [bind]. rewrite (not_nan' z Nn). apply make_result_spec; auto.
    + unfold pow_scale_of. lia.
Qed.

Theorem pow_inverse c m fuel x q s e n se : log10_sound (f_log10 m) ->
  stores (be_varlen c) x q s -> stores (be_varlen c) e (inject_Z n) se -> - 2 ^ 31 < n < 0 ->
  (exists z, (q == inject_Z z)%Q) -> ~ (q == 0)%Q -> s <= 60 \/ dbg c = false ->
  exists y r, num_pow c m fuel x e = Ret (Some y) /\ stores (be_varlen c) y r (pow_scale_of s) /\
    (Qabs (r - q ^ n) <= (500000001 # 1000000000) * ten ^ (- pow_scale_of s))%Q.
Proof.
  intros LG H1 H2 Hn [z Hz] NZ HB. change (2 ^ 31) with 2147483648 in Hn.
  destruct (stores_elim _ _ _ _ H1) as (v & C1 & -> & V1 & S1). destruct (stores_elim _ _ _ _ H2) as (w & C2 & -> & V2 & S2).
  rewrite num_pow_unfold by assumption.
  assert (NZv : ~ (vval v == 0)%Q) by now rewrite V1.
  assert (Q0 : ~ ((vval v == 0)%Q /\ (vval w < 0)%Q)) by tauto.
  assert (I0 : mult (vval w) 0) by (exists n; rewrite V2, p10_0, Qmult_1_r; reflexivity).
  rewrite (pow_go c m fuel v w (cn_st v C1) (cn_st w C2) Q0 (or_intror I0)).
  rewrite (power_common_int c m fuel v w n (cn_st v C1) (cn_st w C2) V2) by lia.
  assert (NE : digits v <> []) by (apply nz_digits; [apply C1|exact NZv]).
  assert (Mv : mult (vval v) 0) by (exists z; rewrite V1, p10_0, Qmult_1_r; exact Hz).
  destruct (power_int_inv c m v (- n) LG C1 NE Mv ltac:(lia) ltac:(rewrite S1; exact HB)) as (r & E & Sr & Ds & Mr & Nr). rewrite <- Ds in Mr.
  rewrite Z.opp_involutive in E, Nr. rewrite E. cbn [bind]. rewrite (not_nan r Sr).
  assert (Hs : 0 <= dscale r <= 16383) by (rewrite Ds; lia).
  assert (Wt : weight r <= 32767).
  { destruct (digits r) as [|a l] eqn:Ed; [destruct (st_zero r Sr Ed) as [_ ->]; lia|].
    assert (NEr : digits r <> []) by congruence. pose proof (stripped_range r Sr NEr) as [L _].
    pose proof (int_abs_ge1 _ Mv NZv) as G1.
    assert (PB : (Qabs (vval v ^ n) <= 1)%Q).
    { replace n with (- - n) by lia. rewrite Qpow_opp, Qabs_inv, Qpow_abs by lia. pose proof (Qpow_ge1 _ (- n) ltac:(lia) G1) as P.
      apply Qle_trans with (/ 1)%Q; [|discriminate]. apply Qle_shift_inv_r; [lra|]. setoid_replace (/ 1)%Q with 1%Q by reflexivity. lra. }
    unfold near_unit in Nr.
    assert (p10 (- Z.min 1000 (Z.max 16 (dscale v))) <= 1)%Q by (rewrite <- p10_0; apply p10_le; lia).
    assert (B2 : (Qabs (vval r) <= 2)%Q).
    { apply Qabs_Qle_condition. apply Qabs_Qle_condition in PB, Nr. split; lra. }
    assert (B3 : (p10 (4 * weight r) < p10 1)%Q) by (change (p10 1) with 10%Q; lra).
    apply (proj1 (p10_lt_iff _ _)) in B3. lia. }
  assert (W2 : -32767 <= weight r).
  { destruct (digits r) as [|a l] eqn:Ed; [destruct (st_zero r Sr Ed) as [_ ->]; lia|].
    assert (-4096 <= weight r); [|lia]. apply weight_lb; [apply Sr|exact Hs|exact Mr|]. apply stripped_nz; [exact Sr|congruence]. }
  destruct (make_result_spec c r (vval r) (dscale r) (st_digits r Sr) (st_nan r Sr) eq_refl Hs (Qeq_refl _) Mr W2 (or_introl Wt)) as (o & Eo & [R _]).
  destruct R as (y & -> & Y).
  { destruct (digits r) as [|a l] eqn:Ed.
    - rewrite (vval_empty r Ed). change (Qabs 0) with 0%Q. rewrite limit_p10. apply p10_pos.
    - assert (NEr : digits r <> []) by congruence. pose proof (stripped_range r Sr NEr) as [_ U]. rewrite limit_p10.
      eapply Qlt_le_trans; [exact U|]. apply p10_le. lia. }
  exists y, (vval r). split; [exact Eo|]. rewrite Ds in Y. rewrite S1 in Y. split; [exact Y|].
  unfold near_unit in Nr. rewrite S1 in Nr. unfold pow_scale_of. change (ten ^ ?k)%Q with (p10 k).
  assert (PV : (vval v ^ n == q ^ n)%Q) by exact (Qpower_comp _ _ V1 n n eq_refl). rewrite <- PV. exact Nr.
Qed.

(** ** Zero, NaN and undefined cases *)
Lemma make_one c : exists y, make_result c ONE = Ret (Some y) /\ stores (be_varlen c) y 1 0.
Proof.
  destruct (make_result_spec c ONE 1 0) as (o & E & [R _]).
  - exact (st_digits _ (one_stripped 0)).
  - discriminate.
  - reflexivity.
  - lia.
  - reflexivity.
  - exists 1. reflexivity.
  - cbn. lia.
  - left. cbn. lia.
  - destruct R as (y & -> & Y); [|exists y; now split]. change (Qabs 1) with 1%Q. rewrite limit_p10, <- p10_0. apply p10_lt. lia.
Qed.

Lemma make_zero c s : 0 <= s <= 16383 -> exists y, make_result c (Var 0 s SPos []) = Ret (Some y) /\ stores (be_varlen c) y 0 s.
Proof.
  intro H. destruct (make_result_spec c (Var 0 s SPos []) 0 s) as (o & E & [R _]).
  - constructor.
  - discriminate.
  - reflexivity.
  - lia.
  - apply vval_empty. reflexivity.
  - exists 0. ring.
  - cbn. lia.
  - left. cbn. lia.
  - destruct R as (y & -> & Y); [|exists y; now split]. change (Qabs 0) with 0%Q. rewrite limit_p10. apply p10_pos.
Qed.

Theorem pow_api_zero_neg c m fuel x q s e p se : stores (be_varlen c) x q s -> stores (be_varlen c) e p se -> (q == 0)%Q -> (p < 0)%Q ->
  num_pow c m fuel x e = Panic (WMsg MZeroPowNeg).
Proof.
  intros H1 H2 Q P.
  destruct (stores_elim _ _ _ _ H1) as (v & C1 & -> & V1 & S1). destruct (stores_elim _ _ _ _ H2) as (w & C2 & -> & V2 & S2).
  rewrite num_pow_unfold by assumption. rewrite pow_zero_neg; [reflexivity|apply C1|apply C2|now rewrite V1|now rewrite V2].
Qed.

Theorem pow_api_neg_frac c m fuel x q s e p se : stores (be_varlen c) x q s -> stores (be_varlen c) e p se -> (q < 0)%Q ->
  ~ (exists z, (p == inject_Z z)%Q) -> num_pow c m fuel x e = Panic (WMsg MNegPowFrac).
Proof.
  intros H1 H2 Q P.
  destruct (stores_elim _ _ _ _ H1) as (v & C1 & -> & V1 & S1). destruct (stores_elim _ _ _ _ H2) as (w & C2 & -> & V2 & S2).
  rewrite num_pow_unfold by assumption. rewrite pow_neg_frac; [reflexivity|apply C1|apply C2|now rewrite V1|].
  intros [z Z1]. apply P. exists z. rewrite <- V2, <- Z1, p10_0. ring.
Qed.

Lemma int_or_not c e : stripped e ->
  (exists n, (vval e == inject_Z n)%Q /\ -2147483648 <= n < 2147483648) \/
  (if (ndigits e =? 0) || (ndigits e <=? weight e + 1) then
           r <- var_to_signed c 32 e ;;
           Ret (match r with inl n => Some n | inr _ => None end)
         else Ret None) = Ret None.
Proof.
  intro T. destruct ((ndigits e =? 0) || (ndigits e <=? weight e + 1)) eqn:G; [|now right].
  assert (I : exists n, (vval e == inject_Z n)%Q).
  { destruct (digits e) as [|d t] eqn:E; [exists 0; now apply vval_empty|].
    assert (L : 0 <= 4 * lsd e).
    { unfold lsd. apply orb_true_iff in G. destruct G as [G|G]; [|apply Z.leb_le in G; lia].
      apply Z.eqb_eq in G. unfold ndigits in G. rewrite E, lenz_cons in G. pose proof (lenz_nonneg t). lia. }
    exists (smag e * 10 ^ (4 * lsd e)). unfold vval. rewrite <- (dec_Z (smag e * _)). rewrite <- (dec_shift (smag e) 0 (4 * lsd e)) by exact L.
    rewrite ?Z.add_0_l, ?Z.add_0_r, ?Z.sub_0_l, ?Z.sub_diag. reflexivity. }
  destruct I as [n Hn]. rewrite var_to_signed_spec; [|unfold int_width; lia|apply T|apply T]. cbn [bind].
  rewrite (round_int_comp _ _ Hn), round_int_Z. destruct (in_signed 32 n) eqn:I; [|now right].
  left. exists n. split; [exact Hn|]. unfold in_signed in I. change (2 ^ (32 - 1)) with 2147483648 in I. apply andb_true_iff in I.
  rewrite Z.leb_le, Z.ltb_lt in I. exact I.
Qed.

Theorem pow_api_zero_pos c m fuel x q s e p se : stores (be_varlen c) x q s -> stores (be_varlen c) e p se -> (q == 0)%Q -> (0 < p)%Q ->
  exists y r, num_pow c m fuel x e = Ret (Some y) /\ stores (be_varlen c) y 0 r /\ (r = 16 \/ r = pow_scale_of s).
Proof.
  intros H1 H2 Q P.
  destruct (stores_elim _ _ _ _ H1) as (v & C1 & -> & V1 & S1). destruct (stores_elim _ _ _ _ H2) as (w & C2 & -> & V2 & S2).
  rewrite num_pow_unfold by assumption.
  assert (Vz : (vval v == 0)%Q) by (rewrite V1; exact Q).
  assert (Ev : digits v = []) by now apply (proj1 (stripped_zero_iff v (cn_st v C1))).
  rewrite (pow_go c m fuel v w (cn_st v C1) (cn_st w C2)); [|rewrite V2; intros [_ K]; lra|left; rewrite Vz; apply Qle_refl].
  destruct (int_or_not c w (cn_st w C2)) as [(n & Hn & Hb)|Hno].
  - rewrite (power_common_int c m fuel v w n (cn_st v C1) (cn_st w C2) Hn Hb).
    assert (Np : 0 < n). { rewrite <- V2, Hn in P. change 0%Q with (inject_Z 0) in P. now rewrite <- Zlt_Qlt in P. }
    set (rs := Z.min 1000 (Z.max 16 (dscale v))). assert (Hrs : 16 <= rs <= 1000) by (unfold rs; lia).
    assert (G : power_int c m v n rs = Ret (Some (Var 0 rs SPos []))).
    { pose proof (cn_st v C1) as S. assert (ND : ndigits v = 0) by (unfold ndigits; rewrite Ev; reflexivity). destruct (st_zero v S Ev) as [SP W0].
      unfold power_int. rewrite (nan_ok c v (st_nan v S)). cbn [bind].
      destruct (Z.eqb_spec n 0); [lia|]. destruct (Z.eqb_spec n 1).
      - unfold round_common. rewrite (nan_ok c v (st_nan v S)). cbn [bind]. rewrite W0, ND. change DEC_DIGITS with 4. change ((0 + 1) * 4 + rs) with (4 + rs).
        replace (4 + rs <? 0) with false by (symmetry; apply Z.ltb_ge; lia).
        rewrite Z.quot_div_nonneg by lia.
        assert (G : 0 < (4 + rs + 4 - 1) / 4) by (pose proof (Z.div_mod (4 + rs + 4 - 1) 4 ltac:(lia)); pose proof (Z.mod_pos_bound (4 + rs + 4 - 1) 4 ltac:(lia)); lia).
        replace (_ <? 0) with false by (symmetry; apply Z.ltb_ge; lia).
        replace (_ =? 0) with false by (symmetry; apply Z.eqb_neq; lia). cbn [orb andb bind]. unfold set_dscale. rewrite W0, SP, Ev. reflexivity.
      - destruct (Z.eqb_spec n (-1)); [lia|]. destruct (Z.eqb_spec n 2).
        + rewrite mul_zero; [|apply S|apply S|now left]. rewrite zero_scaled_ok by lia. reflexivity.
        + rewrite ND. change (0 =? 0) with true. cbv iota. replace (0 <=? n) with true by (symmetry; apply Z.leb_le; lia). unfold assert_msg. cbn [bind].
          rewrite zero_scaled_ok by lia. reflexivity. }
    rewrite G. cbn [bind]. change (is_nan (Var 0 rs SPos [])) with false. cbv iota.
    destruct (make_zero c rs ltac:(lia)) as (y & Ey & Y). exists y, rs. split; [exact Ey|]. split; [exact Y|]. right. unfold rs. now rewrite S1.
  - unfold power_common. rewrite (nan_ok c v (st_nan v (cn_st v C1))), (nan_ok c w (st_nan w (cn_st w C2))). cbn [bind]. rewrite Hno. cbn [bind].
    destruct (cmp_zero c v (cn_st v C1)) as (z & Ez & Hz). rewrite Ez. cbn [bind].
    assert (z = 0) as -> by (destruct Hz as [[? ?]|[[? ?]|[? ?]]]; [assumption|lra|lra]). change (0 =? 0) with true. cbv iota.
    rewrite zero_scaled_ok by (change NUMERIC_MIN_SIG_DIGITS with 16; lia). cbn [bind]. change NUMERIC_MIN_SIG_DIGITS with 16.
    change (is_nan (Var 0 16 SPos [])) with false. cbv iota.
    destruct (make_zero c 16 ltac:(lia)) as (y & Ey & Y). exists y, 16. split; [exact Ey|]. split; [exact Y|]. now left.
Qed.

Theorem pow_api_nan c m fuel x e a b : denotes (be_varlen c) x a -> denotes (be_varlen c) e b -> a = None \/ b = None ->
  exists y, num_pow c m fuel x e = Ret (Some y) /\
    denotes (be_varlen c) y (if match a, b with
                                | None, Some p => Qeq_bool p 0
                                | Some q, None => Qeq_bool q 1
                                | _, _ => false end then Some 1%Q else None).
Proof.
  intros Ha Hb HN. unfold num_pow.
  assert (NB : nan_buf c = Ret (nan_layout (be_varlen c))) by apply nan_buf_spec.
  destruct a as [q|]; destruct b as [p|]; cbn [denotes] in Ha, Hb.
  - destruct HN; discriminate.
  - destruct Ha as [s Ha]. destruct (stores_elim _ _ _ _ Ha) as (v & C1 & -> & V1 & S1). unfold stores_nan in Hb. subst e.
    rewrite (as_var_spec c v (canon_storable v C1)). cbn [bind]. rewrite nan_as_var. cbn [bind]. unfold pow_var. rewrite (not_nan v (cn_st v C1)).
    change (is_nan nan_var) with true. cbv iota.
    destruct (cmp_st c v ONE (cn_st v C1) (one_stripped 0)) as (z & Ez & Hz). rewrite Ez. cbn [bind].
    assert (Vo : (vval ONE == 1)%Q) by reflexivity.
    destruct (Qeq_bool q 1) eqn:Eq.
    + apply Qeq_bool_iff in Eq. assert (z = 0) as -> by (destruct Hz as [[? ?]|[[? ?]|[? ?]]]; [assumption|rewrite Vo, V1, Eq in *; lra|rewrite Vo, V1, Eq in *; lra]).
      change (0 =? 0) with true. cbv iota. cbn [bind]. change (is_nan ONE) with false. cbv iota.
      destruct (make_one c) as (y & Ey & Y). exists y. split; [exact Ey|]. now exists 0.
    + assert (NE : ~ (q == 1)%Q) by (intro K; apply Qeq_bool_iff in K; congruence).
      destruct (Z.eqb_spec z 0) as [Z0|Z0].
      * exfalso. destruct Hz as [[? K]|[[? ?]|[? ?]]]; [|lia|lia]. apply NE. rewrite <- V1, K. exact Vo.
      * cbn [bind]. change (is_nan nan_var) with true. cbv iota. rewrite NB. cbn [bind]. eexists. split; [reflexivity|]. reflexivity.
  - destruct Hb as [s Hb]. destruct (stores_elim _ _ _ _ Hb) as (w & C2 & -> & V2 & S2). unfold stores_nan in Ha. subst x.
    rewrite nan_as_var. cbn [bind]. rewrite (as_var_spec c w (canon_storable w C2)). cbn [bind]. unfold pow_var. change (is_nan nan_var) with true. cbv iota.
    rewrite (not_nan w (cn_st w C2)). destruct (cmp_zero c w (cn_st w C2)) as (z & Ez & Hz). rewrite Ez. cbn [bind].
    destruct (Qeq_bool p 0) eqn:Eq.
    + apply Qeq_bool_iff in Eq. assert (z = 0) as -> by (destruct Hz as [[? ?]|[[? ?]|[? ?]]]; [assumption|lra|lra]).
      change (0 =? 0) with true. cbv iota. cbn [bind]. change (is_nan ONE) with false. cbv iota.
      destruct (make_one c) as (y & Ey & Y). exists y. split; [exact Ey|]. now exists 0.
    + assert (NE : ~ (p == 0)%Q) by (intro K; apply Qeq_bool_iff in K; congruence).
      destruct (Z.eqb_spec z 0) as [Z0|Z0].
      * exfalso. destruct Hz as [[? K]|[[? ?]|[? ?]]]; [|lia|lia]. apply NE. now rewrite <- V2.
      * cbn [bind]. change (is_nan nan_var) with true. cbv iota. rewrite NB. cbn [bind]. eexists. split; [reflexivity|]. reflexivity.
  - unfold stores_nan in Ha, Hb. subst x e. rewrite nan_as_var. cbn [bind]. change (is_nan nan_var) with true. cbn [bind]. unfold pow_var.
    change (is_nan nan_var) with true. cbv iota. cbn [bind]. change (is_nan nan_var) with true. cbv iota. rewrite NB. cbn [bind]. eexists. split; [reflexivity|]. reflexivity.
Qed.
