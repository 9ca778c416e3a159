(** * Api3: NaN, operators, comparison, hashing, copies, build profiles. *)
From Coq Require Import ZArith QArith Qround Qpower Qabs List Bool Lia Lqa.
From Verif Require Import Base Var Binary Parse Num Spec QDec Digits Arith Strip Round Trunc AddSub Signed
  CeilFloor Codec Make SpecApi Api1 Mul Div DivQ Api2.
Import ListNotations.
Open Scope Z_scope.

(** ** Quotients in terms of stored numbers *)
Lemma select_div_scale_spec v1 v2 : canon v1 -> canon v2 -> digits v2 <> [] ->
  select_div_scale v1 v2 = div_scale (to_number v1) (to_number v2).
Proof.
  intros C1 C2 N2. unfold div_scale, quotient_weight. cbn [digs wt scale to_number].
  destruct (digits v2) as [|d2 t2] eqn:E2; [congruence|].
  destruct (digits v1) as [|d1 t1] eqn:E1.
  - rewrite (select_div_scale_zero v1 v2 d2 t2 C1 C2 E1 E2).
    pose proof (canon_dig v2 C2) as D. rewrite E2 in D. pose proof (Forall_inv D) as B. unfold dig in B.
    replace (0 <=? d2) with true by (symmetry; apply Z.leb_le; lia). reflexivity.
  - apply (select_div_scale_eq v1 v2 d1 t1 d2 t2); auto.
Qed.

Lemma layout_canon_inj be v1 v2 : canon v1 -> canon v2 ->
  layout be (to_number v1) = layout be (to_number v2) -> v1 = v2.
Proof. intros C1 C2. apply layout_read_back; now apply canon_storable. Qed.

Lemma value_nz_digits n : canonical n -> ((value n == 0)%Q <-> digs n = []).
Proof.
  intro C. pose proof (canon_val0 _ (canonical_canon n C)) as H. rewrite vval_of_number in H.
  destruct n; exact H.
Qed.

Lemma canonical_stores be n : canonical n -> stores be (layout be n) (value n) (scale n).
Proof. intro C. exists n. split; [exact C|]. split; [reflexivity|]. split; reflexivity. Qed.

Lemma checked_div_numbers c n1 n2 : canonical n1 -> canonical n2 -> ~ (value n2 == 0)%Q ->
  exists o, checked_div c (layout (be_varlen c) n1) (layout (be_varlen c) n2) = Ret o /\
    result_of (be_varlen c) (round_at (value n1 / value n2) (div_scale n1 n2)) (div_scale n1 n2) o.
Proof.
  intros C1 C2 N2.
  destruct (checked_div_spec c _ _ _ _ _ _ (canonical_stores _ n1 C1) (canonical_stores _ n2 C2) N2)
    as (v1 & v2 & o & K1 & K2 & L1 & L2 & E & R).
  exists o. split; [exact E|].
  assert (X1 : of_number n1 = v1).
  { apply (layout_canon_inj (be_varlen c)); [now apply canonical_canon|exact K1|]. rewrite to_of_number. exact L1. }
  assert (X2 : of_number n2 = v2).
  { apply (layout_canon_inj (be_varlen c)); [now apply canonical_canon|exact K2|]. rewrite to_of_number. exact L2. }
  assert (X3 : select_div_scale v1 v2 = div_scale n1 n2).
  { subst v1 v2. rewrite select_div_scale_spec; [now rewrite !to_of_number|exact K1|exact K2|].
    intro Z0. apply N2. now apply value_nz_digits. }
  rewrite X3 in R. exact R.
Qed.

Lemma div_scale_significance n1 n2 : canonical n1 -> canonical n2 -> ~ (value n1 == 0)%Q -> ~ (value n2 == 0)%Q ->
  div_scale n1 n2 < 1000 -> (ten ^ 16 < Qabs (value n1 / value n2) * ten ^ (div_scale n1 n2))%Q.
Proof.
  intros C1 C2 N1 N2 S. destruct (digs n1) as [|d1 t1] eqn:E1.
  { exfalso. apply N1. now apply value_nz_digits. }
  destruct (digs n2) as [|d2 t2] eqn:E2.
  { exfalso. apply N2. now apply value_nz_digits. }
  pose proof (quotient_significance (of_number n1) (of_number n2) d1 t1 d2 t2
    (canonical_canon n1 C1) (canonical_canon n2 C2) E1 E2) as H.
  rewrite !vval_of_number in H. cbn [of_number weight] in H.
  unfold div_scale, quotient_weight in S |- *. rewrite E1, E2 in S |- *.
  set (e := if d1 <=? d2 then wt n1 - wt n2 - 1 else wt n1 - wt n2) in *.
  set (s := Z.min 1000 _) in *. assert (L : 16 <= 4 * e + s) by lia.
  change (ten ^ 16)%Q with (p10 16). change (ten ^ s)%Q with (p10 s).
  apply Qle_lt_trans with (p10 (4 * e) * p10 s)%Q.
  - rewrite <- p10_add. apply p10_le. exact L.
  - apply Qmult_lt_r; [apply p10_pos|exact H].
Qed.

(** ** Validity of inputs *)
Lemma valid_cases be x : valid be x ->
  x = nan_layout be \/ exists v, canon v /\ x = layout be (to_number v).
Proof.
  intros [H|(q & s & H)]; [left; exact H|right].
  destruct (stores_elim _ _ _ _ H) as (v & C & E & _). exists v. now split.
Qed.
Lemma valid_num be v : canon v -> valid be (layout be (to_number v)).
Proof. intro C. right. exists (vval v), (dscale v). now apply stores_intro. Qed.
Lemma valid_nan be : valid be (nan_layout be).
Proof. left. reflexivity. Qed.

Lemma is_nan_valid c x : valid (be_varlen c) x ->
  num_is_nan c x = Ret (if list_eq_dec Z.eq_dec x (nan_layout (be_varlen c)) then true else false).
Proof.
  intro V. destruct (valid_cases _ _ V) as [->|(v & C & ->)].
  - rewrite nan_is_nan. destruct (list_eq_dec _ _ _); [reflexivity|congruence].
  - rewrite (num_is_nan_spec c v (canon_storable v C)). destruct (list_eq_dec _ _ _) as [E|]; [|reflexivity].
    exfalso. apply (stores_not_nan (be_varlen c) (layout (be_varlen c) (to_number v)) (vval v) (dscale v)); [now apply stores_intro|exact E].
Qed.

(** ** NaN propagation *)
Lemma with_nan2_nan c x y k : valid (be_varlen c) x -> valid (be_varlen c) y ->
  stores_nan (be_varlen c) x \/ stores_nan (be_varlen c) y ->
  with_nan2 c x y k = Ret (Some (nan_layout (be_varlen c))).
Proof.
  intros Vx Vy H. destruct (valid_cases _ _ Vx) as [->|(v & C & ->)]; [apply with_nan2_l|].
  destruct H as [H|H].
  - exfalso. eapply stores_not_nan; [|exact H]. apply (stores_intro _ v); [exact C|reflexivity|reflexivity].
  - unfold stores_nan in H. subst y. now apply with_nan2_r.
Qed.

Lemma op_nan2 {A} c x y (k : outcome A) (n : outcome A) : valid (be_varlen c) x -> valid (be_varlen c) y ->
  stores_nan (be_varlen c) x \/ stores_nan (be_varlen c) y ->
  (nx <- num_is_nan c x ;; ny <- (if (nx : bool) then Ret true else num_is_nan c y) ;;
   if (ny : bool) then n else k) = n.
Proof.
  intros Vx Vy H. destruct (valid_cases _ _ Vx) as [->|(v & C & ->)]; [now rewrite nan_is_nan|].
  rewrite (num_is_nan_spec c v (canon_storable v C)). cbn [bind].
  destruct H as [H|H].
  - exfalso. eapply stores_not_nan; [|exact H]. apply (stores_intro _ v); [exact C|reflexivity|reflexivity].
  - unfold stores_nan in H. subst y. now rewrite nan_is_nan.
Qed.

Lemma nan_arith c x y : valid (be_varlen c) x -> valid (be_varlen c) y ->
  stores_nan (be_varlen c) x \/ stores_nan (be_varlen c) y ->
  let NaN := nan_layout (be_varlen c) in
  checked_add c x y = Ret (Some NaN) /\ checked_sub c x y = Ret (Some NaN) /\
  checked_mul c x y = Ret (Some NaN) /\ checked_div c x y = Ret (Some NaN) /\
  checked_div_trunc c x y = Ret (Some NaN) /\ checked_rem c x y = Ret (Some NaN) /\
  op_add c x y = Ret NaN /\ op_sub c x y = Ret NaN /\ op_mul c x y = Ret NaN /\
  op_div c x y = Ret NaN /\ op_rem c x y = Ret NaN.
Proof.
  intros Vx Vy H NaN.
  unfold op_add, op_sub, op_mul, checked_add, checked_sub, checked_mul, checked_div, checked_div_trunc, checked_rem.
  rewrite !with_nan2_nan by assumption. unfold op_div, op_rem. rewrite !op_nan2 by assumption.
  rewrite nan_buf_spec. cbn [bind expect]. repeat (split; [reflexivity|]). reflexivity.
Qed.

Lemma nan_unary c x k : stores_nan (be_varlen c) x ->
  let NaN := nan_layout (be_varlen c) in
  num_negate c x = Ret NaN /\ num_abs c x = Ret NaN /\ num_signum c x = Ret NaN /\ num_inc c x = Ret NaN /\
  num_round c x k = Ret NaN /\ num_trunc c x k = Ret NaN /\ num_ceil c x = Ret NaN /\ num_floor c x = Ret NaN.
Proof.
  intros H NaN. unfold stores_nan in H. subst x.
  unfold num_negate, num_abs, num_signum, num_inc, num_round, num_trunc, num_ceil, num_floor.
  rewrite nan_is_nan. cbn [bind]. rewrite nan_buf_spec. repeat (split; [reflexivity|]). reflexivity.
Qed.

(** ** Operators and checked operations *)
Lemma op_checked c x y : 
  op_add c x y = (o <- checked_add c x y ;; expect o MOverflow) /\
  op_sub c x y = (o <- checked_sub c x y ;; expect o MOverflow) /\
  op_mul c x y = (o <- checked_mul c x y ;; expect o MOverflow).
Proof. repeat split. Qed.

(** a panic of the division operators: zero divisor or overflow *)
Lemma op_div_checked c x y r :
  (op_div c x y = Ret r <-> checked_div c x y = Ret (Some r)) /\
  (op_rem c x y = Ret r <-> checked_rem c x y = Ret (Some r)).
Proof.
  unfold op_div, op_rem, checked_div, checked_rem, with_nan2.
  destruct (num_is_nan c x) as [nx| | |]; cbn [bind]; try (split; split; congruence).
  destruct (if nx then Ret true else num_is_nan c y) as [[|]| | |]; cbn [bind]; try (split; split; congruence).
  - destruct (nan_buf c); cbn [bind]; split; split; congruence.
  - destruct (as_var c x) as [v1| | |]; cbn [bind]; try (split; split; congruence).
    destruct (as_var c y) as [v2| | |]; cbn [bind]; try (split; split; congruence).
    split.
    + destruct (checked_div_var c v1 v2) as [[q|]| | |]; cbn [bind expect make_result_opt]; try (split; congruence).
      destruct (make_result c q) as [[b|]| | |]; cbn [bind expect]; split; congruence.
    + destruct (mod_common c v1 v2) as [[q|]| | |]; cbn [bind expect make_result_opt]; try (split; congruence).
      destruct (make_result c q) as [[b|]| | |]; cbn [bind expect]; split; congruence.
Qed.


Lemma op_div_none c x y :
  (checked_div c x y = Ret None -> op_div c x y = Panic (WMsg MDivZero) \/ op_div c x y = Panic (WMsg MOverflow)) /\
  (checked_rem c x y = Ret None -> op_rem c x y = Panic (WMsg MDivZero) \/ op_rem c x y = Panic (WMsg MOverflow)).
Proof.
  unfold op_div, op_rem, checked_div, checked_rem, with_nan2.
  destruct (num_is_nan c x) as [nx| | |]; cbn [bind]; try (split; congruence).
  destruct (if nx then Ret true else num_is_nan c y) as [[|]| | |]; cbn [bind]; try (split; congruence).
  - destruct (nan_buf c); cbn [bind]; split; congruence.
  - destruct (as_var c x) as [v1| | |]; cbn [bind]; try (split; congruence).
    destruct (as_var c y) as [v2| | |]; cbn [bind]; try (split; congruence).
    split.
    + destruct (checked_div_var c v1 v2) as [[q|]| | |]; cbn [bind expect make_result_opt]; auto; try congruence.
      destruct (make_result c q) as [[b|]| | |]; cbn [bind expect]; auto; try congruence.
    + destruct (mod_common c v1 v2) as [[q|]| | |]; cbn [bind expect make_result_opt]; auto; try congruence.
      destruct (make_result c q) as [[b|]| | |]; cbn [bind expect]; auto; try congruence.
Qed.

(** ** Comparison *)
Lemma cmp_num c v1 v2 : canon v1 -> canon v2 ->
  num_cmp c (layout (be_varlen c) (to_number v1)) (layout (be_varlen c) (to_number v2)) = Ret (vval v1 ?= vval v2)%Q.
Proof.
  intros C1 C2. unfold num_cmp.
  rewrite (num_is_nan_spec c v1), (num_is_nan_spec c v2) by now apply canon_storable. cbn [bind].
  rewrite (as_var_spec c v1), (as_var_spec c v2) by now apply canon_storable. cbn [bind].
  destruct (cmp_common_spec c v1 v2) as (s & E & S); auto using canon_dig, canon_nan, semi_nze, canon_semi.
  rewrite E. cbn [bind]. f_equal. destruct S as [[-> S]|[[-> S]|[-> S]]]; symmetry.
  - now apply Qeq_alt.
  - now apply Qgt_alt.
  - now apply Qlt_alt.
Qed.

Lemma denotes_cases be x a : denotes be x a ->
  (a = None /\ x = nan_layout be) \/
  (exists v q, a = Some q /\ canon v /\ x = layout be (to_number v) /\ (vval v == q)%Q).
Proof.
  destruct a as [q|]; intro H.
  - right. destruct H as (s & H). destruct (stores_elim _ _ _ _ H) as (v & C & E & V & _). exists v, q. now auto.
  - left. now split.
Qed.

Lemma num_cmp_spec c x y a b : denotes (be_varlen c) x a -> denotes (be_varlen c) y b ->
  num_cmp c x y = Ret (order_of a b).
Proof.
  intros Ha Hb.
  destruct (denotes_cases _ _ _ Ha) as [[-> ->]|(v1 & q1 & -> & C1 & -> & V1)];
  destruct (denotes_cases _ _ _ Hb) as [[-> ->]|(v2 & q2 & -> & C2 & -> & V2)].
  - unfold num_cmp. now rewrite nan_is_nan.
  - unfold num_cmp. rewrite nan_is_nan. cbn [bind]. now rewrite (num_is_nan_spec c v2 (canon_storable v2 C2)).
  - unfold num_cmp. rewrite (num_is_nan_spec c v1 (canon_storable v1 C1)). cbn [bind]. now rewrite nan_is_nan.
  - rewrite cmp_num by assumption. cbn [order_of]. f_equal. rewrite V1, V2. reflexivity.
Qed.

Lemma num_eq_spec c x y a b : denotes (be_varlen c) x a -> denotes (be_varlen c) y b ->
  exists r, num_eq c x y = Ret r /\ (r = true <-> same_value a b).
Proof.
  intros Ha Hb. unfold num_eq. rewrite (num_cmp_spec c x y a b Ha Hb). cbn [bind]. eexists; split; [reflexivity|].
  destruct a as [p|], b as [q|]; cbn [order_of same_value].
  - rewrite Qeq_alt. destruct (p ?= q)%Q; split; congruence.
  - split; [discriminate|tauto].
  - split; [discriminate|tauto].
  - tauto.
Qed.

(** ** Hashing *)
Lemma leading_zeros_nz ds : (forall d t, ds = d :: t -> d <> 0) -> leading_zeros ds = 0.
Proof. destruct ds as [|d t]; cbn; intro H; [reflexivity|]. destruct (Z.eqb_spec d 0); [exfalso; now apply (H d t)|reflexivity]. Qed.

Lemma num_hash_num c v : canon v ->
  num_hash c (layout (be_varlen c) (to_number v)) =
  Ret (match digits v with
       | [] => [HU8 0]
       | ds => [HLen (lenz ds); HDigits ds; HI32 (weight v); HI8 (if is_positive v then 1 else -1)]
       end).
Proof.
  intro C. unfold num_hash. rewrite (as_var_spec c v) by now apply canon_storable. cbn [bind].
  assert (N : is_nan v = false).
  { unfold is_nan. pose proof (canon_nan v C). destruct (sign v); auto; congruence. }
  rewrite N. rewrite leading_zeros_nz by apply C.
  destruct (digits v) as [|d t] eqn:E.
  - unfold ndigits. rewrite E. reflexivity.
  - assert (Nd : ndigits v = lenz (d :: t)) by (unfold ndigits; now rewrite E).
    pose proof (lenz_nonneg t). rewrite lenz_cons in Nd.
    destruct (Z.eqb_spec (ndigits v) 0) as [Z0|_]; [lia|].
    rewrite (leading_zeros_nz (rev (d :: t))).
    2:{ intros e u Er. apply (st_last v (cn_st v C) e (rev u)). rewrite E.
        rewrite <- (rev_involutive (d :: t)), Er. reflexivity. }
    rewrite dassert_ok by (apply Z.ltb_lt; lia). cbn [bind].
    replace (ndigits v - 0 - 0) with (lenz (d :: t)) by (rewrite lenz_cons; lia).
    cbn [Z.to_nat skipn]. rewrite Z.sub_0_r.
    replace (firstn (Z.to_nat (lenz (d :: t))) (d :: t)) with (d :: t); [reflexivity|].
    unfold lenz. rewrite Nat2Z.id. symmetry. apply firstn_all.
Qed.

Lemma num_hash_nan c : num_hash c (nan_layout (be_varlen c)) = Ret [].
Proof. unfold num_hash. now rewrite nan_as_var. Qed.

Lemma num_hash_spec c x y a b : denotes (be_varlen c) x a -> denotes (be_varlen c) y b ->
  exists hx hy, num_hash c x = Ret hx /\ num_hash c y = Ret hy /\ (same_value a b <-> hx = hy).
Proof.
  intros Ha Hb.
  destruct (denotes_cases _ _ _ Ha) as [[-> ->]|(v1 & q1 & -> & C1 & -> & V1)];
  destruct (denotes_cases _ _ _ Hb) as [[-> ->]|(v2 & q2 & -> & C2 & -> & V2)].
  - rewrite num_hash_nan. exists [], []. split; [reflexivity|]. split; [reflexivity|]. cbn. tauto.
  - rewrite num_hash_nan, (num_hash_num c v2 C2). do 2 eexists. split; [reflexivity|]. split; [reflexivity|].
    cbn [same_value]. split; [tauto|]. destruct (digits v2); discriminate.
  - rewrite num_hash_nan, (num_hash_num c v1 C1). do 2 eexists. split; [reflexivity|]. split; [reflexivity|].
    cbn [same_value]. split; [tauto|]. destruct (digits v1); discriminate.
  - rewrite (num_hash_num c v1 C1), (num_hash_num c v2 C2). do 2 eexists. split; [reflexivity|]. split; [reflexivity|].
    cbn [same_value]. rewrite <- V1, <- V2.
    assert (St : forall v, canon v -> stripped (set_dscale 0 v)).
    { intros v [[A B D E F] _ _ _]. constructor; auto. }
    split.
    + intro E. assert (K : set_dscale 0 v1 = set_dscale 0 v2).
      { apply stripped_unique; auto. }
      destruct v1 as [w1 s1 g1 l1], v2 as [w2 s2 g2 l2]. cbn in K. injection K as -> -> ->. reflexivity.
    + intro E. destruct (digits v1) as [|d1 t1] eqn:E1, (digits v2) as [|d2 t2] eqn:E2; try discriminate E.
      * now rewrite (vval_empty v1 E1), (vval_empty v2 E2).
      * injection E as El Ed Et Ew Eg. subst d2 t2.
        assert (Gs : sign v1 = sign v2).
        { pose proof (canon_nan v1 C1). pose proof (canon_nan v2 C2). unfold is_positive in Eg.
          destruct (sign v1), (sign v2); cbn in Eg; congruence. }
        unfold vval, smag, mag, lsd, ndigits. rewrite E1, E2, Gs, Ew. reflexivity.
Qed.

(** ** Copies *)
Lemma copies c x : valid (be_varlen c) x -> num_to_owned c x = Ret x /\ num_clone c x = Ret x.
Proof.
  intro V. unfold num_to_owned, num_clone. destruct (valid_cases _ _ V) as [->|(v & C & ->)].
  - rewrite nan_as_var. cbn [bind]. change (is_nan nan_var) with true. cbn iota.
    change (encode c nan_var) with (nan_buf c). now rewrite nan_buf_spec.
  - rewrite (as_var_spec c v) by now apply canon_storable. cbn [bind].
    assert (N : is_nan v = false).
    { unfold is_nan. pose proof (canon_nan v C). destruct (sign v); auto; congruence. }
    rewrite N. now rewrite canon_encode.
Qed.

(** ** Determinacy: the specifications fix the result *)
Lemma result_of_det be q s o1 o2 : result_of be q s o1 -> result_of be q s o2 -> o1 = o2.
Proof.
  intros [A1 B1] [A2 B2]. destruct (Qlt_le_dec (Qabs q) limit) as [L|L].
  - destruct (A1 L) as (x & -> & X). destruct (A2 L) as (y & -> & Y). f_equal. exact (stores_unique be x y q s X Y).
  - rewrite (B1 L), (B2 L). reflexivity.
Qed.
Lemma result_or_panic_det be q s o1 o2 : result_or_panic be q s o1 -> result_or_panic be q s o2 -> o1 = o2.
Proof.
  intros [A1 B1] [A2 B2]. destruct (Qlt_le_dec (Qabs q) limit) as [L|L].
  - destruct (A1 L) as (x & -> & X). destruct (A2 L) as (y & -> & Y). f_equal. exact (stores_unique be x y q s X Y).
  - rewrite (B1 L), (B2 L). reflexivity.
Qed.
