(** * Api1: API-level facts for addition, subtraction, sign operations, rounding, comparison. *)
From Coq Require Import ZArith QArith Qround Qpower Qabs List Bool Lia Lqa.
From Verif Require Import Base Var Binary Parse Num Spec QDec Digits Arith Strip Round Trunc AddSub Signed
  CeilFloor Codec Make SpecApi.
Import ListNotations.
Open Scope Z_scope.


Lemma expect_result be q s o : result_of be q s o -> result_or_panic be q s (expect o MOverflow).
Proof.
  intros [A B]. split; intro H.
  - destruct (A H) as (x & -> & X). exists x. split; [reflexivity|exact X].
  - now rewrite (B H).
Qed.

Lemma with_nan2_num c v1 v2 k : canon v1 -> canon v2 ->
  with_nan2 c (layout (be_varlen c) (to_number v1)) (layout (be_varlen c) (to_number v2)) k = k v1 v2.
Proof.
  intros C1 C2. apply canon_storable in C1, C2. unfold with_nan2.
  rewrite (num_is_nan_spec c v1 C1). cbn [bind]. rewrite (num_is_nan_spec c v2 C2). cbn [bind].
  rewrite (as_var_spec c v1 C1). cbn [bind]. rewrite (as_var_spec c v2 C2). reflexivity.
Qed.

Lemma with_nan2_l c y k : with_nan2 c (nan_layout (be_varlen c)) y k = Ret (Some (nan_layout (be_varlen c))).
Proof. unfold with_nan2. rewrite nan_is_nan. cbn [bind]. now rewrite nan_buf_spec. Qed.

Lemma with_nan2_r c v1 k : canon v1 ->
  with_nan2 c (layout (be_varlen c) (to_number v1)) (nan_layout (be_varlen c)) k
  = Ret (Some (nan_layout (be_varlen c))).
Proof.
  intro C1. apply canon_storable in C1. unfold with_nan2. rewrite (num_is_nan_spec c v1 C1). cbn [bind].
  rewrite nan_is_nan. cbn [bind]. now rewrite nan_buf_spec.
Qed.

Lemma mult_max_l v1 v2 : canon v1 -> mult (vval v1) (Z.max (dscale v1) (dscale v2)).
Proof. intro C. apply (mult_up _ (dscale v1)); [lia|now apply canon_mult]. Qed.
Lemma mult_max_r v1 v2 : canon v2 -> mult (vval v2) (Z.max (dscale v1) (dscale v2)).
Proof. intro C. apply (mult_up _ (dscale v2)); [lia|now apply canon_mult]. Qed.

Lemma checked_add_spec c x y q1 s1 q2 s2 :
  stores (be_varlen c) x q1 s1 -> stores (be_varlen c) y q2 s2 ->
  exists o, checked_add c x y = Ret o /\ result_of (be_varlen c) (q1 + q2) (Z.max s1 s2) o.
Proof.
  intros H1 H2. destruct (stores_elim _ _ _ _ H1) as (v1 & C1 & -> & V1 & S1).
  destruct (stores_elim _ _ _ _ H2) as (v2 & C2 & -> & V2 & S2). unfold checked_add.
  rewrite with_nan2_num by assumption. pose proof (cn_scale v1 C1). pose proof (cn_scale v2 C2).
  destruct (add_common_spec c v1 v2) as (r & E & A); auto using canon_dig, canon_nan; [lia|].
  rewrite E. cbn [bind].
  destruct (make_result_semi c r (vval v1 + vval v2) (Z.max (dscale v1) (dscale v2))) as (o & O & R).
  - apply A.
  - apply A.
  - lia.
  - apply A.
  - apply mult_add; [now apply mult_max_l|now apply mult_max_r].
  - exists o. split; [exact O|]. rewrite <- S1, <- S2. apply (result_of_ext _ (vval v1 + vval v2)); [|exact R].
    now rewrite V1, V2.
Qed.

Lemma checked_sub_spec c x y q1 s1 q2 s2 :
  stores (be_varlen c) x q1 s1 -> stores (be_varlen c) y q2 s2 ->
  exists o, checked_sub c x y = Ret o /\ result_of (be_varlen c) (q1 - q2) (Z.max s1 s2) o.
Proof.
  intros H1 H2. destruct (stores_elim _ _ _ _ H1) as (v1 & C1 & -> & V1 & S1).
  destruct (stores_elim _ _ _ _ H2) as (v2 & C2 & -> & V2 & S2). unfold checked_sub.
  rewrite with_nan2_num by assumption. pose proof (cn_scale v1 C1). pose proof (cn_scale v2 C2).
  destruct (sub_common_spec c v1 v2) as (r & E & A); auto using canon_dig, canon_nan; [lia|].
  rewrite E. cbn [bind].
  destruct (make_result_semi c r (vval v1 - vval v2) (Z.max (dscale v1) (dscale v2))) as (o & O & R).
  - apply A.
  - apply A.
  - lia.
  - apply A.
  - apply mult_sub; [now apply mult_max_l|now apply mult_max_r].
  - exists o. split; [exact O|]. rewrite <- S1, <- S2. apply (result_of_ext _ (vval v1 - vval v2)); [|exact R].
    now rewrite V1, V2.
Qed.

(** one-operand operations *)
Lemma nan1_num {A} c v (k : var -> outcome A) (n : outcome A) : canon v ->
  (nan <- num_is_nan c (layout (be_varlen c) (to_number v)) ;;
   if (nan : bool) then n else v <- as_var c (layout (be_varlen c) (to_number v)) ;; k v) = k v.
Proof.
  intro C. apply canon_storable in C. rewrite (num_is_nan_spec c v C). cbn [bind].
  now rewrite (as_var_spec c v C).
Qed.

Lemma nan1_nan {A} c (k : var -> outcome A) (n : outcome A) :
  (nan <- num_is_nan c (nan_layout (be_varlen c)) ;;
   if (nan : bool) then n else v <- as_var c (nan_layout (be_varlen c)) ;; k v) = n.
Proof. now rewrite nan_is_nan. Qed.

(** sign changes *)
Lemma negate_spec c v : canon v ->
  exists r, negate c v = Ret r /\ canon r /\ (vval r == - vval v)%Q /\ dscale r = dscale v.
Proof.
  intros C. unfold negate. rewrite (nan_ok c v (canon_nan v C)). cbn [bind].
  destruct (Z.ltb_spec 0 (ndigits v)) as [L|L].
  - assert (Nz : digits v <> []) by (intro E; unfold ndigits in L; rewrite E in L; cbn in L; lia).
    assert (K : forall s, s <> SNaN -> (sgz s * -1 = sgz (sign v)) ->
       canon (set_sign s v) /\ (vval (set_sign s v) == - vval v)%Q).
    { intros s Ns Es. assert (V : (vval (set_sign s v) == - vval v)%Q).
      { unfold vval. rewrite dec_opp. apply dec_eq_iff. unfold smag. cbn [sign set_sign].
        change (mag (set_sign s v)) with (mag v). rewrite <- Es. lia. }
      split; [|exact V]. destruct C as [[A1 A2 A3 A4 A5] A6 A7 A8]. constructor; auto.
      - constructor; auto. cbn. congruence.
      - apply fracok_mult. apply (mult_comp (- vval v)); [now symmetry|]. now apply mult_opp. }
    pose proof (canon_nan v C) as Nn. unfold is_positive, is_negative.
    destruct (sign v) eqn:E; [| |congruence]; cbn [sgn_eqb].
    + exists (set_sign SNeg v). split; [reflexivity|]. destruct (K SNeg); try discriminate; auto.
    + exists (set_sign SPos v). split; [reflexivity|]. destruct (K SPos); try discriminate; auto.
  - assert (E : digits v = []) by (apply lenz_0; unfold ndigits in L; pose proof (lenz_nonneg (digits v)); lia).
    exists v. repeat (split; [reflexivity || assumption|]). split; [|reflexivity].
    rewrite (vval_empty v E). reflexivity.
Qed.

Lemma abs_spec c v : canon v ->
  exists r, abs_var c v = Ret r /\ canon r /\ (vval r == Qabs (vval v))%Q /\ dscale r = dscale v.
Proof.
  intros C. unfold abs_var. rewrite (nan_ok c v (canon_nan v C)). cbn [bind].
  pose proof (canon_nan v C) as Nn. unfold is_negative. destruct (sign v) eqn:E; [| |congruence]; cbn [sgn_eqb].
  - exists v. split; [reflexivity|]. split; [exact C|]. split; [|reflexivity].
    symmetry. apply Qabs_pos. rewrite vval_pos by exact E. unfold aval. rewrite <- (dec_0 (4 * lsd v)), dec_le_iff.
    pose proof (dval_bound _ (canon_dig v C)). unfold mag. lia.
  - exists (set_sign SPos v). split; [reflexivity|].
    assert (V : (vval (set_sign SPos v) == Qabs (vval v))%Q).
    { rewrite Qabs_vval by (now apply canon_dig). unfold vval, smag. cbn [sign set_sign sgz].
      change (mag (set_sign SPos v)) with (mag v). change (lsd (set_sign SPos v)) with (lsd v).
      now rewrite Z.mul_1_l. }
    split; [|split; [exact V|reflexivity]].
    assert (M : mult (vval (set_sign SPos v)) (dscale v)).
    { apply (mult_comp (Qabs (vval v))); [now symmetry|]. now apply mult_abs, canon_mult. }
    destruct C as [[A1 A2 A3 A4 A5] A6 A7 A8]. constructor; auto.
    constructor; auto; cbn; try discriminate. intro Z0. destruct (A4 Z0). auto.
Qed.

Lemma canon_encode c v : canon v -> encode c v = Ret (layout (be_varlen c) (to_number v)).
Proof. intro C. now apply encode_spec, canon_storable. Qed.

Lemma canon_make_no c v : canon v -> make_result_no_overflow c v = Ret (layout (be_varlen c) (to_number v)).
Proof.
  intro C. unfold make_result_no_overflow. rewrite (nan_ok c v (canon_nan v C)). cbn [bind].
  pose proof (cn_weight v C). rewrite dassert_ok by (rewrite !orb_true_iff, !Z.leb_le;
    change NUMERIC_WEIGHT_MAX with 32767; lia).
  cbn [bind]. rewrite strip_id by apply C. now apply canon_encode.
Qed.

Lemma num_negate_spec c x q s : stores (be_varlen c) x q s ->
  exists y, num_negate c x = Ret y /\ stores (be_varlen c) y (- q) s.
Proof.
  intro H. destruct (stores_elim _ _ _ _ H) as (v & C & -> & V & S). unfold num_negate.
  rewrite (nan1_num c v (fun v => v <- negate c v ;; make_result_no_overflow c v)) by exact C.
  destruct (negate_spec c v C) as (r & E & Cr & Vr & Sr). rewrite E. cbn [bind]. rewrite canon_make_no by exact Cr.
  eexists. split; [reflexivity|]. apply stores_intro; [exact Cr| |congruence]. now rewrite Vr, V.
Qed.

Lemma num_abs_spec c x q s : stores (be_varlen c) x q s ->
  exists y, num_abs c x = Ret y /\ stores (be_varlen c) y (Qabs q) s.
Proof.
  intro H. destruct (stores_elim _ _ _ _ H) as (v & C & -> & V & S). unfold num_abs.
  rewrite (nan1_num c v (fun v => v <- abs_var c v ;; encode c v)) by exact C.
  destruct (abs_spec c v C) as (r & E & Cr & Vr & Sr). rewrite E. cbn [bind]. rewrite canon_encode by exact Cr.
  eexists. split; [reflexivity|]. apply stores_intro; [exact Cr| |congruence]. now rewrite Vr, V.
Qed.

(** small constants *)
Definition intvar (sg : sgn) (d : Z) : var := Var 0 0 sg [d].
Lemma canon_small sg d : sg <> SNaN -> 1 <= d <= 9999 -> canon (Var 0 0 sg [d]).
Proof.
  intros N B. assert (F : mult (vval (Var 0 0 sg [d])) 0).
  { unfold vval. apply mult_dec. reflexivity. }
  constructor; [|cbn; lia|cbn; lia|exact F].
  constructor; cbn [digits sign weight]; auto.
  - constructor; [unfold dig; lia|constructor].
  - intros e t E. injection E as <- <-. lia.
  - intros e t E. destruct t as [|a t]; [injection E as <-; lia|]. destruct t; discriminate E.
  - discriminate.
Qed.
Lemma vval_small sg d : (vval (Var 0 0 sg [d]) == inject_Z (sgz sg * d))%Q.
Proof.
  unfold vval, lsd, smag, mag, ndigits. cbn [digits sign weight lenz length]. change (4 * (0 + 1 - Z.of_nat 1)) with 0.
  rewrite dec_Z. rewrite dval_cons, lenz_nil. cbn [dval]. now replace (sgz sg * (d * 10000 ^ 0 + 0)) with (sgz sg * d) by (change (10000 ^ 0) with 1; lia).
Qed.
Lemma canon_zero s : 0 <= s <= 16383 -> canon (Var 0 s SPos []).
Proof.
  intro B. assert (F : mult (vval (Var 0 s SPos [])) s).
  { apply (mult_comp 0); [symmetry; now apply vval_empty|]. now apply (mult_Z 0). }
  constructor; [|cbn; lia|cbn; lia|exact F].
  constructor; cbn [digits sign weight]; auto; try discriminate.
  intros e t E. destruct t; discriminate E.
Qed.

Lemma signum_spec c v : canon v ->
  exists r, signum c v = Ret r /\ canon r /\ dscale r = 0 /\
   (vval r == inject_Z (match Qcompare (vval v) 0 with Lt => -1 | Eq => 0 | Gt => 1 end))%Q.
Proof.
  intros C. unfold signum. rewrite (nan_ok c v (canon_nan v C)). cbn [bind].
  pose proof (canon_nan v C) as Nn.
  destruct (Z.eqb_spec (ndigits v) 0) as [E|E].
  - apply lenz_0 in E. exists ZERO. split; [reflexivity|]. split; [apply canon_zero; lia|]. split; [reflexivity|].
    assert (K : (vval v ?= 0)%Q = Eq) by (apply Qeq_alt; now apply vval_empty). rewrite K. reflexivity.
  - assert (P : 0 < mag v).
    { apply stripped_pos; [apply C|]. intro Z0. apply E. unfold ndigits. now rewrite Z0. }
    assert (A : (0 < aval v)%Q) by now apply aval_gt0.
    exists (set_sign (sign v) ONE). split; [reflexivity|]. split; [apply canon_small; [exact Nn|lia]|].
    split; [reflexivity|]. unfold ONE, set_sign; cbn [weight dscale digits]. rewrite vval_small.
    destruct (sign v) eqn:G; [| |congruence].
    + assert (K : (vval v ?= 0)%Q = Gt) by (apply (proj1 (Qgt_alt _ _)); rewrite vval_pos by exact G; exact A). rewrite K. reflexivity.
    + assert (K : (vval v ?= 0)%Q = Lt) by (apply (proj1 (Qlt_alt _ _)); rewrite vval_neg by exact G; lra). rewrite K. reflexivity.
Qed.

Lemma num_signum_spec c x q s : stores (be_varlen c) x q s ->
  exists y, num_signum c x = Ret y /\
    stores (be_varlen c) y (inject_Z (match Qcompare q 0 with Lt => -1 | Eq => 0 | Gt => 1 end)) 0.
Proof.
  intro H. destruct (stores_elim _ _ _ _ H) as (v & C & -> & V & S). unfold num_signum.
  rewrite (nan1_num c v (fun v => v <- signum c v ;; make_result_no_overflow c v)) by exact C.
  destruct (signum_spec c v C) as (r & E & Cr & Sr & Vr). rewrite E. cbn [bind]. rewrite canon_make_no by exact Cr.
  eexists. split; [reflexivity|]. apply stores_intro; [exact Cr| |exact Sr]. rewrite Vr.
  assert (K : (vval v ?= 0)%Q = (q ?= 0)%Q) by now rewrite V. now rewrite K.
Qed.

Lemma num_inc_spec c x q s : stores (be_varlen c) x q s ->
  result_or_panic (be_varlen c) (q + 1) s (num_inc c x).
Proof.
  intro H. destruct (stores_elim _ _ _ _ H) as (v & C & -> & V & S). unfold num_inc.
  rewrite (nan1_num c v (fun v => v <- inc c v ;; o <- make_result c v ;; expect o MOverflow)) by exact C.
  unfold inc. rewrite (nan_ok c v (canon_nan v C)). cbn [bind].
  assert (C1 : canon ONE) by (apply canon_small; [discriminate|lia]). pose proof (cn_scale v C) as Sv.
  destruct (add_common_spec c v ONE) as (r & E & A); auto using canon_dig, canon_nan.
  { change (dscale ONE) with 0. lia. }
  rewrite E. cbn [bind]. assert (Mx : Z.max (dscale v) (dscale ONE) = s) by (change (dscale ONE) with 0; lia).
  rewrite Mx in A.
  destruct (make_result_semi c r (vval v + vval ONE) s) as (o & O & R).
  - apply A.
  - apply A.
  - subst s. exact Sv.
  - apply A.
  - rewrite <- Mx. apply mult_add; [now apply mult_max_l|now apply mult_max_r].
  - rewrite O. cbn [bind]. apply expect_result. apply (result_of_ext _ (vval v + vval ONE)); [|exact R].
    rewrite V. unfold ONE. rewrite vval_small. reflexivity.
Qed.

(** rounding *)
Lemma vval_set_dscale s v : vval (set_dscale s v) = vval v.
Proof. reflexivity. Qed.

Lemma round_var_spec c v s : canon v ->
  exists r, round_var c v s = Ret r /\ Forall dig (digits r) /\ sign r <> SNaN /\
    dscale r = Z.max 0 (clamp s) /\ (vval r == round_at (vval v) (clamp s))%Q /\
    -32767 <= weight r /\ (weight r <= 32767 \/ (limit <= Qabs (round_at (vval v) (clamp s)))%Q).
Proof.
  intro C. unfold round_var. rewrite (nan_ok c v (canon_nan v C)). cbn [bind].
  change (Z.min (Z.max s (- NUMERIC_MAX_DISPLAY_SCALE)) NUMERIC_MAX_DISPLAY_SCALE) with (clamp s).
  destruct (round_common_spec c v (clamp s) (canon_dig v C) (canon_nan v C)) as (r & E & R). rewrite E. cbn [bind].
  exists (if clamp s <? 0 then set_dscale 0 r else r). split; [reflexivity|].
  pose proof (cn_weight v C) as W. destruct R as [R1 R2 R3 R4 R5 R6].
  assert (WW : -32767 <= weight r /\ (weight r <= 32767 \/ (limit <= Qabs (round_at (vval v) (clamp s)))%Q)).
  { destruct R5 as [R5|[[R5 R7]|[R5 R7]]]; [split; [|left]; lia| |split; [|left]; lia].
    split; [lia|]. destruct (Z.eq_dec (weight v) 32767) as [K|K]; [right|left; lia].
    rewrite limit_p10, <- R4. rewrite K in R7. exact R7. }
  destruct (Z.ltb_spec (clamp s) 0) as [L|L].
  - cbn [digits sign dscale weight set_dscale]. rewrite vval_set_dscale.
    split; [exact R1|]. split; [exact R2|]. split; [lia|]. split; [exact R4|exact WW].
  - split; [exact R1|]. split; [exact R2|]. split; [lia|]. split; [exact R4|exact WW].
Qed.

Lemma clamp_bound s : -1000 <= clamp s <= 1000.
Proof. unfold clamp. lia. Qed.

Lemma num_round_spec c x q s k : stores (be_varlen c) x q s ->
  result_or_panic (be_varlen c) (round_at q (clamp k)) (Z.max 0 (clamp k)) (num_round c x k).
Proof.
  intro H. destruct (stores_elim _ _ _ _ H) as (v & C & -> & V & S). unfold num_round.
  rewrite (nan1_num c v (fun v => v <- round_var c v k ;; o <- make_result c v ;; expect o MOverflow)) by exact C.
  destruct (round_var_spec c v k C) as (r & E & R1 & R2 & R3 & R4 & R5 & R6). rewrite E. cbn [bind].
  pose proof (clamp_bound k).
  destruct (make_result_spec c r (round_at (vval v) (clamp k)) (Z.max 0 (clamp k))) as (o & O & R);
    [exact R1|exact R2|exact R3|lia|exact R4|apply mult_round; lia|exact R5|exact R6|].
  rewrite O. cbn [bind]. apply expect_result. apply (result_of_ext _ (round_at (vval v) (clamp k))); [|exact R].
  unfold round_at. rewrite (round_int_comp (vval v * ten ^ clamp k) (q * ten ^ clamp k)); [reflexivity|].
  now rewrite V.
Qed.

Lemma trunc_var_spec c v s : canon v ->
  exists r, trunc_var c v s = Ret r /\ Forall dig (digits r) /\ sign r <> SNaN /\
    dscale r = Z.max 0 (clamp s) /\ (vval r == trunc_at (vval v) (clamp s))%Q /\
    weight r <= 32767.
Proof.
  intro C. unfold trunc_var. rewrite (nan_ok c v (canon_nan v C)). cbn [bind].
  change (Z.min (Z.max s (- NUMERIC_MAX_DISPLAY_SCALE)) NUMERIC_MAX_DISPLAY_SCALE) with (clamp s).
  destruct (trunc_common_spec c v (clamp s) (canon_dig v C) (canon_nan v C)) as (r & E & R). rewrite E. cbn [bind].
  exists (if clamp s <? 0 then set_dscale 0 r else r). split; [reflexivity|].
  pose proof (cn_weight v C) as W. destruct R as [R1 R2 R3 R4 R5 R6 R7].
  assert (WW : weight r <= 32767) by (destruct R5 as [R5|[R5 _]]; lia).
  destruct (Z.ltb_spec (clamp s) 0) as [L|L].
  - cbn [digits sign dscale weight set_dscale]. rewrite vval_set_dscale.
    split; [exact R1|]. split; [exact R2|]. split; [lia|]. split; [exact R4|exact WW].
  - split; [exact R1|]. split; [exact R2|]. split; [lia|]. split; [exact R4|exact WW].
Qed.

Lemma num_trunc_spec c x q s k : stores (be_varlen c) x q s ->
  exists y, num_trunc c x k = Ret y /\ stores (be_varlen c) y (trunc_at q (clamp k)) (Z.max 0 (clamp k)).
Proof.
  intro H. destruct (stores_elim _ _ _ _ H) as (v & C & -> & V & S). unfold num_trunc.
  rewrite (nan1_num c v (fun v => v <- trunc_var c v k ;; make_result_no_overflow c v)) by exact C.
  destruct (trunc_var_spec c v k C) as (r & E & R1 & R2 & R3 & R4 & R5). rewrite E. cbn [bind].
  pose proof (clamp_bound k).
  destruct (make_no_overflow_spec c r) as (y & Y & T); [exact R1|exact R2|lia| |exact R5|].
  - apply (mult_comp (trunc_at (vval v) (clamp k))); [now symmetry|]. apply mult_trunc. lia.
  - exists y. split; [exact Y|]. rewrite <- R3. apply (stores_ext _ _ (vval r)); [|exact T]. rewrite R4.
    unfold trunc_at. rewrite (trunc_int_comp (vval v * ten ^ clamp k) (q * ten ^ clamp k)); [reflexivity|].
    now rewrite V.
Qed.

Lemma intres_make c v q r : canon v -> intres v q r -> mult q 0 ->
  exists o, make_result c r = Ret o /\ result_of (be_varlen c) q 0 o.
Proof.
  intros C [R1 R2 R3 R4 R5] M. pose proof (cn_weight v C).
  destruct R5 as [R5|R5].
  - apply make_result_semi; auto. lia.
  - apply make_result_spec; auto; [lia|destruct R5; lia|left; destruct R5; lia].
Qed.

Lemma num_ceil_spec c x q s : stores (be_varlen c) x q s ->
  result_or_panic (be_varlen c) (inject_Z (Qceiling q)) 0 (num_ceil c x).
Proof.
  intro H. destruct (stores_elim _ _ _ _ H) as (v & C & -> & V & S). unfold num_ceil.
  rewrite (nan1_num c v (fun v => v <- ceil_common c v ;; o <- make_result c v ;; expect o MOverflow)) by exact C.
  destruct (ceil_common_spec c v (canon_semi v C)) as (r & E & R); [apply C|]. rewrite E. cbn [bind].
  destruct (intres_make c v _ r C R) as (o & O & T); [now apply mult_Z|].
  rewrite O. cbn [bind]. apply expect_result.
  rewrite <- (Qceiling_comp (vval v) q) by exact V. exact T.
Qed.

Lemma num_floor_spec c x q s : stores (be_varlen c) x q s ->
  result_or_panic (be_varlen c) (inject_Z (Qfloor q)) 0 (num_floor c x).
Proof.
  intro H. destruct (stores_elim _ _ _ _ H) as (v & C & -> & V & S). unfold num_floor.
  rewrite (nan1_num c v (fun v => v <- floor_common c v ;; o <- make_result c v ;; expect o MOverflow)) by exact C.
  destruct (floor_common_spec c v (canon_semi v C)) as (r & E & R); [apply C|]. rewrite E. cbn [bind].
  destruct (intres_make c v _ r C R) as (o & O & T); [now apply mult_Z|].
  rewrite O. cbn [bind]. apply expect_result.
  rewrite <- (Qfloor_comp (vval v) q) by exact V. exact T.
Qed.
