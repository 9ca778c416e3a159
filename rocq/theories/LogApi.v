(** * LogApi: NaN, domain errors and trivial values of ln, log, log2, log10 and exp. *)
From Coq Require Import ZArith QArith Qabs List Bool Lia Lqa.
From Verif Require Import Base Var Binary Num Flt Transc Spec SpecApi QDec Digits Arith Strip
  Round Trunc AddSub Signed Codec Make Api1 Api2 PowApi.
Import ListNotations.
Open Scope Z_scope.

Lemma nan_log c m fuel x : num_sqrt c fuel (nan_layout (be_varlen c)) = Ret (nan_layout (be_varlen c)) /\
  num_ln c m fuel (nan_layout (be_varlen c)) = Ret (nan_layout (be_varlen c)) /\
  num_log2 c m fuel (nan_layout (be_varlen c)) = Ret (nan_layout (be_varlen c)) /\
  num_log10 c m fuel (nan_layout (be_varlen c)) = Ret (nan_layout (be_varlen c)) /\
  num_exp c m fuel (nan_layout (be_varlen c)) = Ret (Some (nan_layout (be_varlen c))) /\
  num_log c m fuel (nan_layout (be_varlen c)) x = Ret (nan_layout (be_varlen c)).
Proof.
  unfold num_sqrt, num_ln, num_log2, num_log10, num_exp, num_log. rewrite nan_is_nan. cbn [bind]. rewrite nan_buf_spec. cbn [bind]. repeat split.
Qed.
Lemma nan_log_base c m fuel x : valid (be_varlen c) x ->
  num_log c m fuel x (nan_layout (be_varlen c)) = Ret (nan_layout (be_varlen c)).
Proof.
  intros [->|(q & s & H)]; [apply nan_log|]. destruct (stores_elim _ _ _ _ H) as (v & C & -> & _).
  unfold num_log. rewrite (num_is_nan_spec c v (canon_storable v C)). cbn [bind]. rewrite nan_is_nan. cbn [bind]. apply nan_buf_spec.
Qed.

Lemma ln_domain c m fuel v : stripped v -> (vval v <= 0)%Q ->
  ln_var c m fuel v = Panic (WMsg (if Qeq_bool (vval v) 0 then MLogZero else MLogNeg)).
Proof.
  intros S H. unfold ln_var. rewrite (nan_ok c v (st_nan v S)). cbn [bind].
  destruct (cmp_zero c v S) as (s & -> & Hs). cbn [bind]. destruct Hs as [[-> K]|[[-> K]|[-> K]]]; [|lra|].
  - apply Qeq_bool_iff in K. now rewrite K.
  - destruct (Qeq_bool (vval v) 0) eqn:E; [apply Qeq_bool_iff in E; lra|reflexivity].
Qed.
Lemma log_domain c m fuel v b : stripped v -> stripped b -> (vval v <= 0)%Q \/ (vval b <= 0)%Q ->
  log_var c m fuel v b = Panic (WMsg (if Qlt_le_dec 0 (vval v) then if Qeq_bool (vval b) 0 then MLogZero else MLogNeg
                                      else if Qeq_bool (vval v) 0 then MLogZero else MLogNeg)).
Proof.
  intros S T H. unfold log_var. rewrite (nan_ok c v (st_nan v S)), (nan_ok c b (st_nan b T)). cbn [bind].
  destruct (cmp_zero c v S) as (s & -> & Hs). destruct (cmp_zero c b T) as (s' & -> & Hs'). cbn [bind].
  destruct (Qlt_le_dec 0 (vval v)) as [P|P]; destruct Hs as [[-> K]|[[-> K]|[-> K]]]; try lra.
  - change (negb (1 =? 0)) with true. change (0 <? 1) with true. cbn [assert_msg bind].
    destruct H as [H|H]; [lra|]. destruct Hs' as [[-> K']|[[-> K']|[-> K']]]; [|lra|].
    + apply Qeq_bool_iff in K'. now rewrite K'.
    + destruct (Qeq_bool (vval b) 0) eqn:E; [apply Qeq_bool_iff in E; lra|reflexivity].
  - apply Qeq_bool_iff in K. now rewrite K.
  - destruct (Qeq_bool (vval v) 0) eqn:E; [apply Qeq_bool_iff in E; lra|reflexivity].
Qed.

(** ** The logarithm of one *)
Definition one (s : Z) : var := Var 0 s SPos [1].
Lemma is_one v : stripped v -> (vval v == 1)%Q -> v = one (dscale v).
Proof.
  intros S V. apply stripped_unique; [exact S| |reflexivity|].
  - unfold one. constructor; cbn [digits weight sign].
    + constructor; [unfold dig; lia|constructor].
    + intros d t E. injection E as <- <-. lia.
    + intros d p E. destruct p as [|? [|]]; try discriminate E. injection E as <-. lia.
    + discriminate.
    + discriminate.
  - rewrite V. reflexivity.
Qed.
Lemma semi_zero r : semi r -> (vval r == 0)%Q -> digits r = [].
Proof.
  intros S V. destruct (semi_nze r S) as [E|E]; [exact E|]. exfalso. pose proof (Qabs_vval r (sm_digits _ S)) as A. rewrite V in A.
  change (Qabs 0) with 0%Q in A. rewrite <- (dec_0 (4 * lsd r)) in A. apply (proj1 (dec_eq_iff _ _ _)) in A. lia.
Qed.

Lemma cmp_one_lo c s : cmp_common c (one s) ZERO_POINT_NINE = Ret 1.
Proof. destruct c as [[|] be]; reflexivity. Qed.
Lemma cmp_one_hi c s : cmp_common c (one s) ONE_POINT_ONE = Ret (-1).
Proof. destruct c as [[|] be]; reflexivity. Qed.
Lemma cmp_one_0 c s : cmp_common c (one s) ZERO = Ret 1.
Proof. destruct c as [[|] be]; reflexivity. Qed.
Lemma one_st s : stripped (one s).
Proof.
  unfold one. constructor; cbn [digits weight sign].
  - constructor; [unfold dig; lia|constructor].
  - intros d t E. injection E as <- <-. lia.
  - intros d p E. destruct p as [|? [|]]; try discriminate E. injection E as <-. lia.
  - discriminate.
  - discriminate.
Qed.

Lemma one_minus_one c s : 0 <= s <= 16383 -> exists r, sub_common c (one s) ONE = Ret r /\ digits r = [] /\ sign r <> SNaN /\ weight r = 0.
Proof.
  intro H. destruct (sub_common_spec c (one s) ONE) as (r & E & A); try apply (one_st s); try apply (one_st 0); try discriminate.
  { cbn [dscale one]. change (dscale ONE) with 0. lia. }
  assert (D : digits r = []) by (apply semi_zero; [apply A|rewrite (as_val _ _ _ A); reflexivity]).
  exists r. split; [exact E|]. split; [exact D|]. split; [apply A|]. now apply A.
Qed.

Lemma series_zero c f r xx x ni ls : 0 <= ls <= 16383 -> sign xx <> SNaN -> sign x <> SNaN -> digits x = [] ->
  stripped ni -> dscale ni = 0 -> (0 < vval ni)%Q -> ln_series c (S f) r xx x ni ls = Ret r.
Proof.
  intros H N1 N2 D1 Tn Sn Pn. cbn [ln_series].
  destruct (add_common_spec c ni TWO) as (n & E & A); try apply Tn; try discriminate.
  { constructor; [unfold dig; lia|constructor]. } { rewrite Sn. change (dscale TWO) with 0. lia. }
  rewrite E. cbn [bind]. rewrite mul_zero by auto. rewrite zero_scaled_ok by exact H. cbn [bind].
  unfold div_fast_common. rewrite (nan_ok c (Var 0 ls SPos [])) by discriminate. rewrite (nan_ok c n (sm_nan _ (as_semi _ _ _ A))). cbn [bind].
  destruct (digits n) as [|d t] eqn:En.
  { exfalso. pose proof (as_val _ _ _ A) as V. rewrite (vval_empty n En) in V. change (vval TWO) with 2%Q in V. lra. }
  unfold ndigits at 1. rewrite En.
  replace (lenz (d :: t) =? 0) with false by (symmetry; apply Z.eqb_neq; rewrite lenz_cons; pose proof (lenz_nonneg t); lia).
  change (index (d :: t) 0) with (Ret d). cbn [bind]. pose proof (sm_first n (as_semi _ _ _ A) d t En) as NZ.
  replace (d =? 0) with false by (symmetry; now apply Z.eqb_neq). change (ndigits (Var 0 ls SPos []) =? 0) with true. cbv iota.
  rewrite zero_scaled_ok by exact H. reflexivity.
Qed.

Lemma ln_common_one c f s rs : 0 <= s <= 16383 -> 0 <= rs <= 16375 -> ln_common c (S f) (one s) rs = Ret (Var 0 rs SPos []).
Proof.
  intros Hs Hr. unfold ln_common. rewrite (nan_ok c (one s)) by discriminate. cbn [bind].
  replace (if dbg c then s0 <- cmp_common c (one s) ZERO ;; dassert c (0 <? s0) else Ret tt) with (@Ret unit tt)
    by (rewrite cmp_one_0; destruct (dbg c) eqn:Ed; [cbn [bind]; rewrite dassert_ok by reflexivity|]; reflexivity).
  cbn [bind ln_reduce]. rewrite cmp_one_lo. cbn [bind]. change (1 <=? 0) with false. cbv iota. cbn [bind].
  rewrite cmp_one_hi. cbn [bind]. change (0 <=? -1) with false. cbv iota. cbn [bind].
  destruct (one_minus_one c s Hs) as (r & Er & Dr & Nr & Wr). rewrite Er. cbn [bind].
  destruct (add_common_spec c (one s) ONE) as (e & Ee & A); try apply (one_st s); try apply (one_st 0); try discriminate.
  { cbn [dscale one]. change (dscale ONE) with 0. lia. }
  rewrite Ee. cbn [bind].
  unfold div_fast_common. rewrite (nan_ok c r Nr), (nan_ok c e (sm_nan _ (as_semi _ _ _ A))). cbn [bind].
  destruct (digits e) as [|d t] eqn:En.
  { exfalso. pose proof (as_val _ _ _ A) as V. rewrite (vval_empty e En) in V. discriminate V. }
  unfold ndigits at 1. rewrite En.
  replace (lenz (d :: t) =? 0) with false by (symmetry; apply Z.eqb_neq; rewrite lenz_cons; pose proof (lenz_nonneg t); lia).
  change (index (d :: t) 0) with (Ret d). cbn [bind]. pose proof (sm_first e (as_semi _ _ _ A) d t En) as NZ.
  replace (d =? 0) with false by (symmetry; now apply Z.eqb_neq). unfold ndigits. rewrite Dr. change (lenz [] =? 0) with true. cbv iota.
  rewrite zero_scaled_ok by lia. cbn [bind expect].
  rewrite mul_zero by (try discriminate; now left). rewrite zero_scaled_ok by lia. cbn [bind].
  rewrite series_zero by (try discriminate; try reflexivity; try lia; try exact (one_st 0)). cbn [bind].
  rewrite mul_zero by (try discriminate; now left). apply zero_scaled_ok. lia.
Qed.

Lemma estimate_one c m s : 0 <= s <= 16383 -> estimate_ln_dweight c m (one s) = Ret 0.
Proof.
  intro H. unfold estimate_ln_dweight. rewrite (nan_ok c (one s)) by discriminate. cbn [bind].
  rewrite cmp_one_lo. cbn [bind]. change (0 <=? 1) with true. cbv iota. rewrite cmp_one_hi. cbn [bind]. change (true && (-1 <=? 0)) with true. cbv iota.
  destruct (one_minus_one c s H) as (r & Er & Dr & Nr & Wr). rewrite Er. cbn [bind]. unfold ndigits. rewrite Dr. reflexivity.
Qed.

Lemma ln_var_one c m f s : 0 <= s <= 16383 -> ln_var c m (S f) (one s) = Ret (Var 0 (Z.min 1000 (Z.max 16 s)) SPos []).
Proof.
  intro H. unfold ln_var. rewrite (nan_ok c (one s)) by discriminate. cbn [bind]. rewrite cmp_one_0. cbn [bind].
  change (negb (1 =? 0)) with true. change (0 <? 1) with true. cbn [assert_msg bind].
  rewrite estimate_one by exact H. cbn [bind]. change NUMERIC_MIN_SIG_DIGITS with 16. rewrite i32_ok by lia. cbn [bind]. cbn [dscale one].
  change (16 - 0) with 16. unfold clamp_scale. change NUMERIC_MIN_DISPLAY_SCALE with 0. change NUMERIC_MAX_DISPLAY_SCALE with 1000.
  replace (Z.min (Z.max (Z.max 16 s) 0) 1000) with (Z.min 1000 (Z.max 16 s)) by lia.
  apply ln_common_one; lia.
Qed.

(** On base one: whatever the scale, the logarithm of the base is zero if it is anything. *)
Lemma ln_common_one_any c fuel s rs r : 0 <= s <= 16383 -> ln_common c fuel (one s) rs = Ret r -> digits r = [].
Proof.
  intros Hs. unfold ln_common. rewrite (nan_ok c (one s)) by discriminate. cbn [bind].
  replace (if dbg c then s0 <- cmp_common c (one s) ZERO ;; dassert c (0 <? s0) else Ret tt) with (@Ret unit tt)
    by (rewrite cmp_one_0; destruct (dbg c) eqn:Ed; [cbn [bind]; rewrite dassert_ok by reflexivity|]; reflexivity).
  cbn [bind]. destruct fuel as [|f]; [discriminate|]. cbn [ln_reduce]. rewrite cmp_one_lo. cbn [bind].
  change (1 <=? 0) with false. cbv iota. cbn [bind]. rewrite cmp_one_hi. cbn [bind]. change (0 <=? -1) with false. cbv iota. cbn [bind].
  destruct (one_minus_one c s Hs) as (z & Er & Dr & Nr & Wr). rewrite Er. cbn [bind].
  destruct (add_common c (one s) ONE) as [e| | |] eqn:Ee; try discriminate. cbn [bind].
  assert (Z : forall o, div_fast_common c z e (rs + 8) true = Ret o -> o = None \/ exists q, o = Some q /\ digits q = [] /\ sign q <> SNaN).
  { intros o. unfold div_fast_common. destruct (dassert c (negb (is_nan z))); try discriminate. cbn [bind].
    destruct (dassert c (negb (is_nan e))); try discriminate. cbn [bind].
    match goal with |- (bind ?t _ = _) -> _ => destruct t as [is0| | |]; try discriminate end. cbn [bind].
    destruct is0. { intro K. injection K as <-. now left. }
    unfold ndigits. rewrite Dr. change (lenz [] =? 0) with true. cbv iota. unfold zero_scaled.
    match goal with |- (bind (bind ?t _) _ = _) -> _ => destruct t as [[]| | |]; try discriminate end. cbn [bind].
    intro K. injection K as <-. right. eexists. split; [reflexivity|]. split; [reflexivity|discriminate]. }
  destruct (div_fast_common c z e (rs + 8) true) as [o| | |] eqn:Eo; try discriminate. cbn [bind].
  destruct (Z o eq_refl) as [->|(q & -> & Dq & Nq)]; [discriminate|]. cbn [expect bind].
  rewrite mul_zero by (try assumption; now left). unfold zero_scaled at 1.
  match goal with |- (bind (bind ?t _) _ = _) -> _ => destruct t as [[]| | |] eqn:Ed; try discriminate end. cbn [bind].
  set (zz := Var 0 (rs + 8) SPos []).
  assert (SR : forall g r0, ln_series c (S g) q q zz ONE (rs + 8) = Ret r0 -> r0 = q).
  { intros g r0. cbn [ln_series]. destruct (add_common c ONE TWO) as [n| | |]; try discriminate. cbn [bind].
    rewrite mul_zero by (try assumption; try discriminate; now left). unfold zero_scaled. rewrite Ed. cbn [bind].
    fold zz. unfold div_fast_common. destruct (dassert c (negb (is_nan zz))); try discriminate. cbn [bind].
    destruct (dassert c (negb (is_nan n))); try discriminate. cbn [bind].
    match goal with |- (bind (bind ?t _) _ = _) -> _ => destruct t as [is0| | |]; try discriminate end. cbn [bind].
    destruct is0; [discriminate|]. change (ndigits zz =? 0) with true. cbv iota. unfold zero_scaled. rewrite Ed. cbn [bind expect].
    change (ndigits {| weight := 0; dscale := rs + 8; sign := SPos; digits := [] |} =? 0) with true. cbv iota. now intros [= <-]. }
  destruct (ln_series c (S f) q q zz ONE (rs + 8)) as [r0| | |] eqn:E0; try discriminate. cbn [bind].
  rewrite (SR f r0 E0). rewrite mul_zero by (try assumption; try discriminate; now left). unfold zero_scaled.
  match goal with |- (bind ?t _ = _) -> _ => destruct t as [[]| | |]; try discriminate end. cbn [bind]. now intros [= <-].
Qed.

Lemma log_base_one c m fuel v s r : 0 <= s <= 16383 -> log_var c m fuel v (one s) <> Ret r.
Proof.
  intros Hs. unfold log_var, log_common.
  repeat (match goal with
  | |- bind ?t _ <> _ => lazymatch t with
      | ln_common _ _ (one _) _ => fail
      | _ => destruct t; try discriminate; cbn [bind] end
  end).
  destruct (ln_common c fuel (one s) _) as [l| | |] eqn:El; try discriminate. cbn [bind].
  apply ln_common_one_any in El; [|exact Hs].
  destruct (ln_common c fuel v _) as [l'| | |]; try discriminate. cbn [bind].
  unfold div_fast_common. destruct (dassert c (negb (is_nan l'))); try discriminate. cbn [bind].
  destruct (dassert c (negb (is_nan l))); try discriminate. cbn [bind].
  unfold ndigits at 1. rewrite El. change (lenz [] =? 0) with true. cbn [bind]. discriminate.
Qed.
