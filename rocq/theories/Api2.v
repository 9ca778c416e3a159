(** * Api2: API-level facts for multiplication, division and remainder. *)
From Coq Require Import ZArith QArith Qround Qpower Qabs List Bool Lia Lqa.
From Verif Require Import Base Var Binary Parse Num Spec QDec Digits Arith Strip Round Trunc AddSub Signed
  CeilFloor Codec Make Mul Div DivQ Api1.
Import ListNotations.
Open Scope Z_scope.

Lemma inject_Z_nz k : k <> 0 -> ~ (inject_Z k == 0)%Q.
Proof. intros H K. change 0%Q with (inject_Z 0) in K. apply (proj1 (inject_Z_inj _ _)) in K. lia. Qed.

Lemma round_int_inject k : round_int (inject_Z k) = k.
Proof. apply round_int_Z. Qed.
Lemma trunc_int_inject k : trunc_int (inject_Z k) = k.
Proof.
  unfold trunc_int. destruct (Qlt_le_dec (inject_Z k) 0); [|apply Qfloor_Z].
  rewrite <- inject_Z_opp, Qfloor_Z. lia.
Qed.

Lemma round_at_mult q s : mult q s -> (round_at q s == q)%Q.
Proof.
  intros [k K]. unfold round_at. change (ten ^ s)%Q with (p10 s). change (ten ^ (- s))%Q with (p10 (- s)).
  rewrite (round_int_comp _ _ K), round_int_inject, <- K, <- Qmult_assoc, p10_opp. ring.
Qed.
Lemma trunc_at_mult q s : mult q s -> (trunc_at q s == q)%Q.
Proof.
  intros [k K]. unfold trunc_at. change (ten ^ s)%Q with (p10 s). change (ten ^ (- s))%Q with (p10 (- s)).
  rewrite (trunc_int_comp _ _ K), trunc_int_inject, <- K, <- Qmult_assoc, p10_opp. ring.
Qed.

(** the last digit of a canonical number lies within its scale *)
Lemma frac_lsd v s : stripped v -> digits v <> [] -> mult (vval v) s -> -4 < 4 * lsd v + s.
Proof.
  intros S NE [k F]. destruct (Z_lt_le_dec (-4) (4 * lsd v + s)) as [L|L]; [exact L|exfalso].
  pose proof (last_nz_mod (digits v) (st_digits v S) (st_last v S) NE) as M.
  unfold vval in F. rewrite dec_p10 in F. set (e := 4 * lsd v + s) in *.
  assert (F2 : (dec (smag v) e == dec (k * 10 ^ (- e)) e)%Q).
  { rewrite F. rewrite dec_shift by lia. rewrite Z.add_opp_diag_r. now rewrite dec_Z. }
  apply dec_eq_iff in F2. apply M. apply Z.mod_divide; [lia|].
  replace (- e) with (4 + (- e - 4)) in F2 by lia. rewrite Z.pow_add_r in F2 by lia.
  change (10 ^ 4) with 10000 in F2. unfold smag in F2. fold (mag v).
  exists (sgz (sign v) * k * 10 ^ (- e - 4)). unfold sgz in *. destruct (sign v); nia.
Qed.

Lemma canon_val0 v : canon v -> ((vval v == 0)%Q <-> digits v = []).
Proof. intro C. apply stripped_zero_iff, C. Qed.

(** product of two non-zero variables whose fractions fit their scales, at scale [s1 + s2] or more *)
Lemma mul_exact c v1 v2 s1 s2 : stripped v1 -> stripped v2 -> digits v1 <> [] -> digits v2 <> [] ->
  0 <= s1 -> 0 <= s2 -> mult (vval v1) s1 -> mult (vval v2) s2 ->
  exists r, mul_common c v1 v2 (s1 + s2) = Ret r /\ stripped r /\ dscale r = s1 + s2 /\
    (vval r == vval v1 * vval v2)%Q.
Proof.
  intros S1 S2 N1 N2 H1 H2 M1 M2.
  pose proof (frac_lsd v1 s1 S1 N1 M1) as L1. pose proof (frac_lsd v2 s2 S2 N2 M2) as L2.
  assert (G1 : 1 <= ndigits v1).
  { unfold ndigits. destruct (digits v1) as [|d t]; [congruence|]. rewrite lenz_cons. pose proof (lenz_nonneg t). lia. }
  assert (G2 : 1 <= ndigits v2).
  { unfold ndigits. destruct (digits v2) as [|d t]; [congruence|]. rewrite lenz_cons. pose proof (lenz_nonneg t). lia. }
  destruct (mul_common_exact c v1 v2 (s1 + s2)) as (r & E & R1 & R2 & R3); try apply S1; try apply S2; auto.
  { unfold lsd in L1, L2. rewrite Z.quot_div_nonneg by lia.
    pose proof (Z.div_mod (s1 + s2 + 3) 4 ltac:(lia)). pose proof (Z.mod_pos_bound (s1 + s2 + 3) 4 ltac:(lia)). lia. }
  exists r. split; [exact E|]. split; [exact R1|]. split; [exact R2|]. rewrite R3. apply round_at_mult.
  now apply mult_mul.
Qed.

Lemma mul_zero c v1 v2 rscale : sign v1 <> SNaN -> sign v2 <> SNaN -> digits v1 = [] \/ digits v2 = [] ->
  mul_common c v1 v2 rscale = zero_scaled c rscale.
Proof.
  intros N1 N2 H. unfold mul_common. rewrite (nan_ok c v1 N1), (nan_ok c v2 N2). cbn [bind].
  destruct (mul_swap v1 v2) as (a & b & -> & Hab & _).
  replace ((ndigits a =? 0) || (ndigits b =? 0)) with true; [reflexivity|].
  symmetry. apply orb_true_iff. rewrite !Z.eqb_eq. unfold ndigits.
  destruct Hab as [[-> ->]|[-> ->]]; destruct H as [-> | ->]; auto.
Qed.

Lemma checked_mul_spec c x y q1 s1 q2 s2 :
  stores (be_varlen c) x q1 s1 -> stores (be_varlen c) y q2 s2 -> s1 + s2 <= 16383 ->
  exists o, checked_mul c x y = Ret o /\ result_of (be_varlen c) (q1 * q2) (s1 + s2) o.
Proof.
  intros H1 H2 Hs. destruct (stores_elim _ _ _ _ H1) as (v1 & C1 & -> & V1 & S1).
  destruct (stores_elim _ _ _ _ H2) as (v2 & C2 & -> & V2 & S2). unfold checked_mul.
  rewrite with_nan2_num by assumption. pose proof (cn_scale v1 C1). pose proof (cn_scale v2 C2).
  assert (G : exists r, mul_common c v1 v2 (dscale v1 + dscale v2) = Ret r /\ stripped r /\ dscale r = dscale v1 + dscale v2 /\
    (vval r == vval v1 * vval v2)%Q).
  { destruct (digits v1) eqn:E1; [|destruct (digits v2) eqn:E2].
    - rewrite mul_zero by (auto using canon_nan). rewrite zero_scaled_ok by lia.
      eexists. split; [reflexivity|]. split; [apply canon_zero; lia|]. split; [reflexivity|].
      rewrite (vval_empty v1 E1). rewrite vval_empty by reflexivity. ring.
    - rewrite mul_zero by (auto using canon_nan). rewrite zero_scaled_ok by lia.
      eexists. split; [reflexivity|]. split; [apply canon_zero; lia|]. split; [reflexivity|].
      rewrite (vval_empty v2 E2). rewrite vval_empty by reflexivity. ring.
    - apply mul_exact; try apply C1; try apply C2; try lia; congruence. }
  destruct G as (r & E & R1 & R2 & R3). rewrite E. cbn [bind].
  destruct (make_result_semi c r (vval v1 * vval v2) (dscale v1 + dscale v2)) as (o & O & R).
  - now apply stripped_semi.
  - exact R2.
  - lia.
  - exact R3.
  - apply mult_mul; now apply canon_mult.
  - exists o. split; [exact O|]. rewrite <- S1, <- S2. apply (result_of_ext _ (vval v1 * vval v2)); [|exact R].
    now rewrite V1, V2.
Qed.

Lemma checked_mul_scale c x y q1 s1 q2 s2 :
  stores (be_varlen c) x q1 s1 -> stores (be_varlen c) y q2 s2 -> 16383 < s1 + s2 ->
  (~ (q1 == 0)%Q -> ~ (q2 == 0)%Q -> checked_mul c x y = Ret None) /\
  ((q1 == 0)%Q \/ (q2 == 0)%Q -> checked_mul c x y = if dbg c then Panic WAssert else Ret None).
Proof.
  intros H1 H2 Hs. destruct (stores_elim _ _ _ _ H1) as (v1 & C1 & -> & V1 & S1).
  destruct (stores_elim _ _ _ _ H2) as (v2 & C2 & -> & V2 & S2). unfold checked_mul.
  rewrite with_nan2_num by assumption. pose proof (cn_scale v1 C1). pose proof (cn_scale v2 C2). split.
  - intros Z1 Z2.
    destruct (mul_exact c v1 v2 (dscale v1) (dscale v2)) as (r & E & R1 & R2 & R3); try apply C1; try apply C2; try lia.
    { intro K. apply Z1. rewrite <- V1. now apply canon_val0. }
    { intro K. apply Z2. rewrite <- V2. now apply canon_val0. }
    rewrite E. cbn [bind]. apply make_result_scale; [apply R1|lia].
  - intro Z. rewrite mul_zero; auto using canon_nan.
    + unfold zero_scaled, dassert. replace ((0 <=? dscale v1 + dscale v2) && (dscale v1 + dscale v2 <=? NUMERIC_DSCALE_MAX)) with false.
      2:{ symmetry. apply andb_false_iff. right. apply Z.leb_gt. unfold NUMERIC_DSCALE_MAX. lia. }
      destruct (dbg c); [reflexivity|]. cbn [andb negb bind]. apply make_result_scale; [discriminate|cbn; lia].
    + destruct Z as [Z|Z]; [left|right]; apply canon_val0; auto; [rewrite V1|rewrite V2]; exact Z.
Qed.

(** ** Division *)
Lemma first_digit_canon v : canon v -> digits v <> [] ->
  exists d t, digits v = d :: t /\ d <> 0 /\ first_digit (digits v) (weight v) 0 = (weight v, d).
Proof.
  intros C N. destruct (digits v) as [|d t] eqn:E; [congruence|]. exists d, t. split; [reflexivity|].
  pose proof (st_first v (cn_st v C) d t E) as D. split; [exact D|]. cbn [first_digit].
  destruct (Z.eqb_spec d 0); [congruence|reflexivity].
Qed.

Lemma select_div_scale_bound v1 v2 : 0 <= select_div_scale v1 v2 <= 1000.
Proof.
  unfold select_div_scale. destruct (first_digit _ _ _), (first_digit _ _ _).
  change NUMERIC_MIN_DISPLAY_SCALE with 0. change NUMERIC_MAX_DISPLAY_SCALE with 1000. lia.
Qed.

Lemma checked_div_common c v1 v2 : canon v1 -> canon v2 ->
  checked_div_var c v1 v2 = div_common c v1 v2 (select_div_scale v1 v2) true.
Proof.
  intros C1 C2. unfold checked_div_var. rewrite (nan_ok c v1), (nan_ok c v2) by auto using canon_nan. reflexivity.
Qed.

Lemma checked_div_spec c x y q1 s1 q2 s2 :
  stores (be_varlen c) x q1 s1 -> stores (be_varlen c) y q2 s2 -> ~ (q2 == 0)%Q ->
  exists v1 v2 o, canon v1 /\ canon v2 /\ x = layout (be_varlen c) (to_number v1) /\ y = layout (be_varlen c) (to_number v2) /\
    checked_div c x y = Ret o /\
    result_of (be_varlen c) (round_at (q1 / q2) (select_div_scale v1 v2)) (select_div_scale v1 v2) o.
Proof.
  intros H1 H2 Hz. destruct (stores_elim _ _ _ _ H1) as (v1 & C1 & -> & V1 & S1).
  destruct (stores_elim _ _ _ _ H2) as (v2 & C2 & -> & V2 & S2). unfold checked_div.
  rewrite with_nan2_num by assumption. rewrite checked_div_common by assumption.
  pose proof (select_div_scale_bound v1 v2) as B. set (rs := select_div_scale v1 v2) in *.
  destruct (div_common_spec c v1 v2 rs true) as [_ G]; auto using canon_dig, canon_nan; [lia|apply C2|].
  destruct G as (r & E & R1 & R2 & R3).
  { intro K. apply Hz. rewrite <- V2. now apply canon_val0. }
  rewrite E. cbn [bind make_result_opt].
  destruct (make_result_semi c r (round_at (vval v1 / vval v2) rs) rs) as (o & O & R).
  - now apply stripped_semi.
  - exact R2.
  - lia.
  - exact R3.
  - apply mult_round. lia.
  - exists v1, v2, o. repeat (split; [assumption || reflexivity|]).
    apply (result_of_ext _ (round_at (vval v1 / vval v2) rs)); [|exact R]. apply round_at_comp. now rewrite V1, V2.
Qed.

Lemma checked_div_trunc_spec c x y q1 s1 q2 s2 :
  stores (be_varlen c) x q1 s1 -> stores (be_varlen c) y q2 s2 -> ~ (q2 == 0)%Q ->
  exists o, checked_div_trunc c x y = Ret o /\
    result_of (be_varlen c) (inject_Z (trunc_int (q1 / q2))) 0 o.
Proof.
  intros H1 H2 Hz. destruct (stores_elim _ _ _ _ H1) as (v1 & C1 & -> & V1 & S1).
  destruct (stores_elim _ _ _ _ H2) as (v2 & C2 & -> & V2 & S2). unfold checked_div_trunc.
  rewrite with_nan2_num by assumption. unfold checked_div_trunc_var.
  rewrite (nan_ok c v1), (nan_ok c v2) by auto using canon_nan. cbn [bind].
  destruct (div_common_spec c v1 v2 0 false) as [_ G]; auto using canon_dig, canon_nan; [lia|apply C2|].
  destruct G as (r & E & R1 & R2 & R3).
  { intro K. apply Hz. rewrite <- V2. now apply canon_val0. }
  rewrite E. cbn [bind make_result_opt]. rewrite trunc_at_0 in R3.
  destruct (make_result_semi c r (inject_Z (trunc_int (vval v1 / vval v2))) 0) as (o & O & R).
  - now apply stripped_semi.
  - exact R2.
  - lia.
  - exact R3.
  - now apply mult_Z.
  - exists o. split; [exact O|].
    rewrite <- (trunc_int_comp (vval v1 / vval v2) (q1 / q2)); [exact R|]. now rewrite V1, V2.
Qed.

(** ** Remainder *)
Lemma Qfloor_bounds q : (inject_Z (Qfloor q) <= q < inject_Z (Qfloor q) + 1)%Q.
Proof.
  split; [apply Qfloor_le|]. pose proof (Qlt_floor q) as H. rewrite inject_Z_plus in H. exact H.
Qed.

Lemma trunc_int_abs q : (Qabs (inject_Z (trunc_int q)) <= Qabs q)%Q /\ (Qabs (q - inject_Z (trunc_int q)) < 1)%Q.
Proof.
  assert (G : forall q, (0 <= q)%Q -> (Qabs (inject_Z (trunc_int q)) <= Qabs q)%Q /\ (Qabs (q - inject_Z (trunc_int q)) < 1)%Q).
  { clear q. intros q H. rewrite trunc_int_pos by exact H. destruct (Qfloor_bounds q) as [A B].
    assert (F0 : (0 <= inject_Z (Qfloor q))%Q).
    { change 0%Q with (inject_Z 0). rewrite <- Zle_Qle. rewrite <- Qfloor_0. now apply Qfloor_resp_le. }
    rewrite (Qabs_pos q H), (Qabs_pos _ F0). split; [exact A|]. rewrite Qabs_pos by lra. lra. }
  destruct (Qlt_le_dec q 0) as [L|L]; [|now apply G].
  destruct (G (- q)%Q) as [A B]; [lra|]. rewrite trunc_int_opp, inject_Z_opp, !Qabs_opp in A.
  split; [exact A|]. rewrite trunc_int_opp, inject_Z_opp in B.
  assert (E : (Qabs (q - inject_Z (trunc_int q)) == Qabs (- q - - inject_Z (trunc_int q)))%Q).
  { rewrite <- Qabs_opp. apply Qabs_wd. ring. }
  rewrite E. exact B.
Qed.

Lemma rem_bound a b : ~ (b == 0)%Q -> (Qabs (a - inject_Z (trunc_int (a / b)) * b) < Qabs b)%Q.
Proof.
  intro N. destruct (trunc_int_abs (a / b)) as [_ B].
  assert (E : (a - inject_Z (trunc_int (a / b)) * b == (a / b - inject_Z (trunc_int (a / b))) * b)%Q) by (field; exact N).
  rewrite (Qabs_wd _ _ E), Qabs_Qmult.
  assert (P : (0 < Qabs b)%Q).
  { destruct (Qlt_le_dec 0 (Qabs b)) as [P|P]; [exact P|exfalso]. apply N.
    pose proof (Qabs_nonneg b). pose proof (Qle_Qabs b). pose proof (Qle_Qabs (- b)) as K. rewrite Qabs_opp in K. lra. }
  rewrite <- (Qmult_1_l (Qabs b)) at 2. apply Qmult_lt_compat_r; assumption.
Qed.

Lemma mod_common_spec c v1 v2 : canon v1 -> canon v2 -> digits v2 <> [] ->
  exists r, mod_common c v1 v2 = Ret (Some r) /\
    ares (Z.max (dscale v1) (dscale v2)) (vval v1 - inject_Z (trunc_int (vval v1 / vval v2)) * vval v2) r.
Proof.
  intros C1 C2 N. unfold mod_common. rewrite (nan_ok c v1), (nan_ok c v2) by auto using canon_nan. cbn [bind].
  pose proof (cn_scale v1 C1). pose proof (cn_scale v2 C2).
  destruct (div_common_spec c v1 v2 0 false) as [_ G]; auto using canon_dig, canon_nan; [lia|apply C2|].
  destruct (G N) as (q & E & R1 & R2 & R3). rewrite E. cbn [bind]. rewrite trunc_at_0 in R3.
  set (k := trunc_int (vval v1 / vval v2)) in *.
  assert (P : exists p, mul_common c q v2 (dscale v2) = Ret p /\ stripped p /\ dscale p = dscale v2 /\
     (vval p == inject_Z k * vval v2)%Q).
  { destruct (digits q) eqn:Eq.
    - rewrite mul_zero by (auto using canon_nan; apply R1). rewrite zero_scaled_ok by lia.
      eexists. split; [reflexivity|]. split; [apply canon_zero; lia|]. split; [reflexivity|].
      rewrite <- R3, (vval_empty q Eq). rewrite vval_empty by reflexivity. ring.
    - destruct (mul_exact c q v2 0 (dscale v2)) as (p & Ep & P1 & P2 & P3); auto; try apply C2; try lia; try congruence.
      + apply (mult_comp (inject_Z k)); [now symmetry|now apply mult_Z].
      + exists p. split; [exact Ep|]. split; [exact P1|]. split; [exact P2|]. now rewrite P3, R3. }
  destruct P as (p & Ep & P1 & P2 & P3). rewrite Ep. cbn [bind].
  destruct (sub_common_spec c v1 p) as (r & Er & A); auto using canon_dig, canon_nan; try apply P1; [lia|].
  rewrite Er. cbn [bind]. exists r. split; [reflexivity|]. rewrite P2 in A.
  apply (ares_comp _ (vval v1 - vval p)); [|exact A]. now rewrite P3.
Qed.

Lemma checked_rem_spec c x y q1 s1 q2 s2 :
  stores (be_varlen c) x q1 s1 -> stores (be_varlen c) y q2 s2 -> ~ (q2 == 0)%Q ->
  exists z, checked_rem c x y = Ret (Some z) /\
    stores (be_varlen c) z (q1 - inject_Z (trunc_int (q1 / q2)) * q2) (Z.max s1 s2).
Proof.
  intros H1 H2 Hz. destruct (stores_bound _ _ _ _ H2) as (B2 & _ & _).
  destruct (stores_elim _ _ _ _ H1) as (v1 & C1 & -> & V1 & S1).
  destruct (stores_elim _ _ _ _ H2) as (v2 & C2 & -> & V2 & S2). unfold checked_rem.
  rewrite with_nan2_num by assumption. pose proof (cn_scale v1 C1). pose proof (cn_scale v2 C2).
  assert (N : digits v2 <> []) by (intro K; apply Hz; rewrite <- V2; now apply canon_val0).
  destruct (mod_common_spec c v1 v2 C1 C2 N) as (r & E & A). rewrite E. cbn [bind make_result_opt].
  assert (Tk : trunc_int (vval v1 / vval v2) = trunc_int (q1 / q2)) by (apply trunc_int_comp; now rewrite V1, V2).
  rewrite Tk in A. set (k := trunc_int (q1 / q2)) in *.
  destruct (make_result_semi c r (vval v1 - inject_Z k * vval v2) (Z.max (dscale v1) (dscale v2))) as (o & O & R1 & R2).
  - apply A.
  - apply A.
  - lia.
  - apply A.
  - apply mult_sub; [now apply mult_max_l|].
    pose proof (mult_mul _ _ 0 _ (mult_Z k 0 ltac:(lia)) (mult_max_r v1 v2 C2)) as M. exact M.
  - assert (Ev : (vval v1 - inject_Z k * vval v2 == q1 - inject_Z k * q2)%Q) by now rewrite V1, V2.
    destruct R1 as (z & -> & Z1).
    { rewrite (Qabs_wd _ _ Ev). apply Qlt_trans with (Qabs q2); [|exact B2]. now apply rem_bound. }
    exists z. split; [exact O|]. rewrite <- S1, <- S2. apply (stores_ext _ _ _ _ _ Ev Z1).
Qed.

(** ** Division by zero *)
Lemma div_by_zero c x y q1 s1 q2 s2 :
  stores (be_varlen c) x q1 s1 -> stores (be_varlen c) y q2 s2 -> (q2 == 0)%Q ->
  checked_div c x y = Ret None /\ checked_div_trunc c x y = Ret None /\ checked_rem c x y = Ret None /\
  op_div c x y = Panic (WMsg MDivZero) /\ op_rem c x y = Panic (WMsg MDivZero).
Proof.
  intros H1 H2 Hz. destruct (stores_elim _ _ _ _ H1) as (v1 & C1 & -> & V1 & S1).
  destruct (stores_elim _ _ _ _ H2) as (v2 & C2 & -> & V2 & S2).
  assert (E2 : digits v2 = []) by (apply canon_val0; [exact C2|]; now rewrite V2).
  unfold checked_div, checked_div_trunc, checked_rem.
  rewrite !with_nan2_num by assumption.
  pose proof (select_div_scale_bound v1 v2).
  assert (G : forall s b, 0 <= s <= 16383 -> div_common c v1 v2 s b = Ret None).
  { intros s b Hs. destruct (div_common_spec c v1 v2 s b) as [G _]; auto using canon_dig, canon_nan. apply C2. }
  assert (Gd : checked_div_var c v1 v2 = Ret None) by (rewrite checked_div_common by assumption; apply G; lia).
  assert (Gt : checked_div_trunc_var c v1 v2 = Ret None).
  { unfold checked_div_trunc_var. rewrite (nan_ok c v1), (nan_ok c v2) by auto using canon_nan. cbn [bind]. apply G. lia. }
  assert (Gm : mod_common c v1 v2 = Ret None).
  { unfold mod_common. rewrite (nan_ok c v1), (nan_ok c v2) by auto using canon_nan. cbn [bind]. rewrite G by lia. reflexivity. }
  rewrite Gd, Gt, Gm. repeat (split; [reflexivity|]).
  unfold op_div, op_rem. apply canon_storable in C1, C2.
  rewrite (num_is_nan_spec c v1 C1). cbn [bind]. rewrite (num_is_nan_spec c v2 C2). cbn [bind].
  rewrite (as_var_spec c v1 C1). cbn [bind]. rewrite (as_var_spec c v2 C2). cbn [bind].
  now rewrite Gd, Gm.
Qed.

(** ** The scale of a quotient *)
Lemma select_div_scale_eq v1 v2 d1 t1 d2 t2 : canon v1 -> canon v2 -> digits v1 = d1 :: t1 -> digits v2 = d2 :: t2 ->
  select_div_scale v1 v2 =
  Z.min 1000 (Z.max (Z.max (dscale v1) (dscale v2))
    (16 - 4 * (if d1 <=? d2 then weight v1 - weight v2 - 1 else weight v1 - weight v2))).
Proof.
  intros C1 C2 E1 E2. unfold select_div_scale.
  destruct (first_digit_canon v1 C1 ltac:(congruence)) as (a & t & Ea & _ & Fa).
  destruct (first_digit_canon v2 C2 ltac:(congruence)) as (b & t' & Eb & _ & Fb).
  rewrite Fa, Fb. assert (a = d1) by congruence. assert (b = d2) by congruence. subst a b.
  pose proof (cn_scale v1 C1). pose proof (cn_scale v2 C2).
  change NUMERIC_MIN_DISPLAY_SCALE with 0. change NUMERIC_MAX_DISPLAY_SCALE with 1000.
  change NUMERIC_MIN_SIG_DIGITS with 16. change DEC_DIGITS with 4.
  destruct (d1 <=? d2); lia.
Qed.

Lemma select_div_scale_zero v1 v2 d2 t2 : canon v1 -> canon v2 -> digits v1 = [] -> digits v2 = d2 :: t2 ->
  select_div_scale v1 v2 = Z.min 1000 (Z.max (Z.max (dscale v1) (dscale v2)) (16 - 4 * (- weight v2 - 1))).
Proof.
  intros C1 C2 E1 E2. unfold select_div_scale.
  destruct (first_digit_canon v2 C2 ltac:(congruence)) as (b & t' & Eb & Nb & Fb).
  rewrite Fb, E1. cbn [first_digit]. assert (b = d2) by congruence. subst b.
  pose proof (cn_scale v1 C1). pose proof (cn_scale v2 C2).
  assert (B : dig d2) by (pose proof (canon_dig v2 C2) as D; rewrite E2 in D; exact (Forall_inv D)). unfold dig in B.
  replace (0 <=? d2) with true by (symmetry; apply Z.leb_le; lia).
  change NUMERIC_MIN_DISPLAY_SCALE with 0. change NUMERIC_MAX_DISPLAY_SCALE with 1000.
  change NUMERIC_MIN_SIG_DIGITS with 16. change DEC_DIGITS with 4. lia.
Qed.

(** bounds by the first digit *)
Lemma first_digit_bounds v d t : canon v -> digits v = d :: t ->
  (dec d (4 * weight v) <= Qabs (vval v))%Q /\ (Qabs (vval v) < dec (d + 1) (4 * weight v))%Q.
Proof.
  intros C E. rewrite Qabs_vval by now apply canon_dig.
  pose proof (canon_dig v C) as D. rewrite E in D.
  pose proof (dval_bound _ (Forall_inv_tail D)) as B. pose proof (lenz_nonneg t) as L.
  assert (Ln : ndigits v = 1 + lenz t) by (unfold ndigits; rewrite E; apply lenz_cons).
  assert (EW : 4 * weight v = 4 * lsd v + 4 * lenz t) by (unfold lsd; lia).
  rewrite EW, <- !dec_shift by lia. rewrite dec_le_iff, dec_lt_iff.
  unfold mag. rewrite E, dval_cons, <- !pB_ten by lia. lia.
Qed.

Lemma quotient_significance v1 v2 d1 t1 d2 t2 : canon v1 -> canon v2 -> digits v1 = d1 :: t1 -> digits v2 = d2 :: t2 ->
  (p10 (4 * (if d1 <=? d2 then weight v1 - weight v2 - 1 else weight v1 - weight v2)) < Qabs (vval v1 / vval v2))%Q.
Proof.
  intros C1 C2 E1 E2.
  destruct (first_digit_bounds v1 d1 t1 C1 E1) as [A1 _]. destruct (first_digit_bounds v2 d2 t2 C2 E2) as [A2 B2].
  pose proof (canon_dig v1 C1) as D1. rewrite E1 in D1. pose proof (Forall_inv D1) as Q1.
  pose proof (canon_dig v2 C2) as D2. rewrite E2 in D2. pose proof (Forall_inv D2) as Q2. unfold dig in Q1, Q2.
  pose proof (st_first v1 (cn_st v1 C1) d1 t1 E1) as N1. pose proof (st_first v2 (cn_st v2 C2) d2 t2 E2) as N2.
  set (e := if d1 <=? d2 then weight v1 - weight v2 - 1 else weight v1 - weight v2).
  assert (P2 : (0 < Qabs (vval v2))%Q).
  { apply Qlt_le_trans with (dec d2 (4 * weight v2)); [|exact A2]. rewrite <- (dec_0 (4 * weight v2)), dec_lt_iff. lia. }
  assert (Ed : (Qabs (vval v1 / vval v2) == Qabs (vval v1) / Qabs (vval v2))%Q).
  { unfold Qdiv. rewrite Qabs_Qmult. now rewrite Qabs_Qinv. }
  rewrite Ed. apply Qlt_shift_div_l; [exact P2|].
  apply Qlt_le_trans with (dec d1 (4 * weight v1)); [|exact A1].
  apply Qlt_le_trans with (p10 (4 * e) * dec (d2 + 1) (4 * weight v2))%Q.
  - apply Qmult_lt_l; [apply p10_pos|exact B2].
  - rewrite Qmult_comm, dec_p10. unfold e. destruct (Z.leb_spec d1 d2) as [L|L].
    + replace (4 * weight v1) with (4 * weight v2 + 4 * (weight v1 - weight v2 - 1) + 4) by lia.
      rewrite <- (dec_shift d1) by lia. rewrite dec_le_iff. change (10 ^ 4) with 10000. lia.
    + replace (4 * weight v1) with (4 * weight v2 + 4 * (weight v1 - weight v2)) by lia.
      rewrite dec_le_iff. lia.
Qed.
