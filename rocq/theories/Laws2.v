(** * Laws2: combined statements used by the property files. *)
From Coq Require Import ZArith QArith Qround Qpower Qabs List Bool Lia Lqa.
From Verif Require Import Base Var Binary Parse Typmod Num Spec QDec Digits Arith Strip Round Trunc AddSub Signed
  CeilFloor Codec Make SpecApi Api1 Mul Div DivQ Api2 Api3 Api4 Laws.
Import ListNotations.
Open Scope Z_scope.

(** every checked operation on valid operands returns *)
Lemma checked_total c x y : valid (be_varlen c) x -> valid (be_varlen c) y ->
  (exists o, checked_add c x y = Ret o) /\ (exists o, checked_sub c x y = Ret o) /\
  ((exists o, checked_mul c x y = Ret o) \/ checked_mul c x y = Panic WAssert) /\
  (exists o, checked_div c x y = Ret o) /\ (exists o, checked_div_trunc c x y = Ret o) /\
  (exists o, checked_rem c x y = Ret o).
Proof.
  intros Vx Vy. destruct (valid2_cases _ x y Vx Vy) as [N|(q1 & s1 & q2 & s2 & S1 & S2)].
  - pose proof (nan_arith c x y Vx Vy N) as (A1 & A2 & A3 & A4 & A5 & A6 & _).
    rewrite A1, A2, A3, A4, A5, A6.
    split; [eauto|]. split; [eauto|]. split; [eauto|]. split; [eauto|]. split; eauto.
  - split; [destruct (checked_add_spec c x y _ _ _ _ S1 S2) as (o & E & _); now exists o|].
    split; [destruct (checked_sub_spec c x y _ _ _ _ S1 S2) as (o & E & _); now exists o|].
    split.
    { destruct (Z_le_dec (s1 + s2) 16383) as [L|L].
      - left. destruct (checked_mul_spec c x y _ _ _ _ S1 S2 L) as (o & E & _). now exists o.
      - destruct (checked_mul_scale c x y _ _ _ _ S1 S2 ltac:(lia)) as [A B].
        destruct (Qeq_dec q1 0) as [Z1|Z1].
        { rewrite B by auto. destruct (dbg c); [now right|left; now exists None]. }
        destruct (Qeq_dec q2 0) as [Z2|Z2].
        { rewrite B by auto. destruct (dbg c); [now right|left; now exists None]. }
        left. exists None. now apply A. }
    destruct (Qeq_dec q2 0) as [Z|Z].
    + pose proof (div_by_zero c x y _ _ _ _ S1 S2 Z) as (E1 & E2 & E3 & _).
      rewrite E1, E2, E3. split; [eauto|]. split; eauto.
    + split; [destruct (checked_div_spec c x y _ _ _ _ S1 S2 Z) as (v1 & v2 & o & _ & _ & _ & _ & E & _); now exists o|].
      split; [destruct (checked_div_trunc_spec c x y _ _ _ _ S1 S2 Z) as (o & E & _); now exists o|].
      destruct (checked_rem_spec c x y _ _ _ _ S1 S2 Z) as (z & E & _). now exists (Some z).
Qed.

Lemma expect_iff (r : outcome (option bytes)) :
  (exists o, r = Ret o) \/ r = Panic WAssert ->
  (forall z, (o <- r ;; expect o MOverflow) = Ret z <-> r = Ret (Some z)) /\
  (r = Ret None <-> (o <- r ;; expect o MOverflow) = Panic (WMsg MOverflow)).
Proof.
  intros [[[b|] ->]| ->]; cbn [bind expect]; (split; [intro z; split; congruence|split; congruence]).
Qed.

Lemma op_checked_valid c x y : valid (be_varlen c) x -> valid (be_varlen c) y ->
  (forall r, op_add c x y = Ret r <-> checked_add c x y = Ret (Some r)) /\
  (checked_add c x y = Ret None <-> op_add c x y = Panic (WMsg MOverflow)) /\
  (forall r, op_sub c x y = Ret r <-> checked_sub c x y = Ret (Some r)) /\
  (checked_sub c x y = Ret None <-> op_sub c x y = Panic (WMsg MOverflow)) /\
  (forall r, op_mul c x y = Ret r <-> checked_mul c x y = Ret (Some r)) /\
  (checked_mul c x y = Ret None <-> op_mul c x y = Panic (WMsg MOverflow)) /\
  (forall r, op_div c x y = Ret r <-> checked_div c x y = Ret (Some r)) /\
  (checked_div c x y = Ret None <-> op_div c x y = Panic (WMsg MDivZero) \/ op_div c x y = Panic (WMsg MOverflow)) /\
  (forall r, op_rem c x y = Ret r <-> checked_rem c x y = Ret (Some r)) /\
  (checked_rem c x y = Ret None <-> op_rem c x y = Panic (WMsg MDivZero) \/ op_rem c x y = Panic (WMsg MOverflow)).
Proof.
  intros Vx Vy. destruct (checked_total c x y Vx Vy) as (Ta & Ts & Tm & Td & _ & Tr).
  destruct (expect_iff (checked_add c x y)) as [A1 A2]; [now left|].
  destruct (expect_iff (checked_sub c x y)) as [B1 B2]; [now left|].
  destruct (expect_iff (checked_mul c x y)) as [C1 C2]; [exact Tm|].
  split; [exact A1|]. split; [exact A2|]. split; [exact B1|]. split; [exact B2|]. split; [exact C1|]. split; [exact C2|].
  split; [intro r; apply op_div_checked|]. split.
  { split; [apply op_div_none|]. intro H. destruct Td as [[z|] Ez]; [|exact Ez].
    apply (proj1 (op_div_checked c x y z)) in Ez. destruct H as [H|H]; congruence. }
  split; [intro r; apply op_div_checked|].
  split; [apply op_div_none|]. intro H. destruct Tr as [[z|] Ez]; [|exact Ez].
  apply (proj2 (op_div_checked c x y z)) in Ez. destruct H as [H|H]; congruence.
Qed.

(** the remainder *)
Lemma rem_sign a b : ~ (b == 0)%Q ->
  let r := (a - inject_Z (trunc_int (a / b)) * b)%Q in (0 <= a -> 0 <= r)%Q /\ (a <= 0 -> r <= 0)%Q.
Proof.
  intros Nb r. 
  assert (T : forall q, (0 <= q)%Q -> (0 <= inject_Z (trunc_int q) <= q)%Q).
  { intros q Hq. unfold trunc_int. destruct (Qlt_le_dec q 0) as [L|L]; [lra|].
    split; [|apply Qfloor_le]. change 0%Q with (inject_Z 0). rewrite <- Zle_Qle.
    change 0 with (Qfloor 0) at 1. now apply Qfloor_resp_le. }
  assert (T' : forall q, (q <= 0)%Q -> (q <= inject_Z (trunc_int q) <= 0)%Q).
  { intros q Hq. unfold trunc_int. destruct (Qlt_le_dec q 0) as [L|L].
    - rewrite inject_Z_opp. assert (H0 : (0 <= inject_Z (Qfloor (- q)))%Q).
      { change 0%Q with (inject_Z 0). rewrite <- Zle_Qle. change 0 with (Qfloor 0) at 1. apply Qfloor_resp_le. lra. }
      pose proof (Qfloor_le (- q)). lra.
    - assert (E : (q == 0)%Q) by lra. rewrite (Qfloor_comp q 0 E). change (inject_Z (Qfloor 0)) with 0%Q. lra. }
  assert (Eb : (a == a / b * b)%Q) by (field; exact Nb).
  assert (Er : (r == (a / b - inject_Z (trunc_int (a / b))) * b)%Q) by (unfold r; rewrite Eb at 1; ring).
  destruct (Qlt_le_dec b 0) as [L|L].
  - split; intro Ha; rewrite Er.
    + assert (Q0 : (a / b <= 0)%Q).
      { apply Qnot_lt_le. intro K. assert (K2 : (a / b * b < 0)%Q); [|lra].
        setoid_replace 0%Q with (a / b * 0)%Q by ring. apply Qmult_lt_l; assumption. }
      destruct (T' _ Q0) as [K _]. nra.
    + assert (Q0 : (0 <= a / b)%Q).
      { apply Qnot_lt_le. intro K. assert (K2 : (0 < a / b * b)%Q); [|lra]. nra. }
      destruct (T _ Q0) as [_ K]. nra.
  - assert (Pb : (0 < b)%Q) by (destruct (Qle_lt_or_eq _ _ L) as [|E]; [assumption|exfalso; apply Nb; now symmetry]).
    split; intro Ha; rewrite Er.
    + assert (Q0 : (0 <= a / b)%Q).
      { apply Qnot_lt_le. intro K. assert (K2 : (a / b * b < 0)%Q); [|lra]. nra. }
      destruct (T _ Q0) as [_ K]. nra.
    + assert (Q0 : (a / b <= 0)%Q).
      { apply Qnot_lt_le. intro K. assert (K2 : (0 < a / b * b)%Q); [|lra]. nra. }
      destruct (T' _ Q0) as [K _]. nra.
Qed.

Lemma rem_full c x y q1 s1 q2 s2 : stores (be_varlen c) x q1 s1 -> stores (be_varlen c) y q2 s2 -> ~ (q2 == 0)%Q ->
  exists z r, checked_rem c x y = Ret (Some z) /\ stores (be_varlen c) z r (Z.max s1 s2) /\
    (r == q1 - inject_Z (trunc_int (q1 / q2)) * q2)%Q /\
    (Qabs r < Qabs q2)%Q /\ ((0 <= q1)%Q -> (0 <= r)%Q) /\ ((q1 <= 0)%Q -> (r <= 0)%Q).
Proof.
  intros S1 S2 N. destruct (checked_rem_spec c x y _ _ _ _ S1 S2 N) as (z & E & S).
  exists z, (q1 - inject_Z (trunc_int (q1 / q2)) * q2)%Q. split; [exact E|]. split; [exact S|]. split; [reflexivity|].
  split; [now apply rem_bound|]. exact (rem_sign q1 q2 N).
Qed.

(** no arithmetic overflow, failed assertion or out-of-bounds access: the same return in both profiles *)
Lemma mul_profiles be x y q1 s1 q2 s2 : stores be x q1 s1 -> stores be y q2 s2 -> s1 + s2 <= 16383 ->
  exists o, checked_mul (Cfg true be) x y = Ret o /\ checked_mul (Cfg false be) x y = Ret o.
Proof.
  intros S1 S2 L. destruct (checked_mul_spec (Cfg true be) x y _ _ _ _ S1 S2 L) as (o & E & _).
  exists o. split; [exact E|]. rewrite <- E. symmetry. exact (profiles_mul be x y _ _ _ _ S1 S2 L).
Qed.

Lemma div_profiles be x y : valid be x -> valid be y ->
  (exists o, checked_div (Cfg true be) x y = Ret o /\ checked_div (Cfg false be) x y = Ret o) /\
  (exists o, checked_div_trunc (Cfg true be) x y = Ret o /\ checked_div_trunc (Cfg false be) x y = Ret o) /\
  (exists o, checked_rem (Cfg true be) x y = Ret o /\ checked_rem (Cfg false be) x y = Ret o).
Proof.
  intros Vx Vy. destruct (checked_total (Cfg true be) x y Vx Vy) as (_ & _ & _ & (a & Ea) & (b & Eb) & (r & Er)).
  destruct (profiles_arith be x y Vx Vy) as (_ & _ & P1 & P2 & P3 & _). unfold debug, release in *.
  split; [exists a; split; [exact Ea|congruence]|]. split; [exists b; split; [exact Eb|congruence]|].
  exists r. split; [exact Er|congruence].
Qed.

(** ** The codec in terms of numbers *)
Lemma storable_of n : Forall (fun d => 0 <= d <= 9999) (digs n) -> -32768 <= wt n <= 32767 -> 0 <= scale n <= 16383 ->
  Z.of_nat (length (digs n)) <= 100000000 -> storable (of_number n).
Proof.
  intros D W S L. constructor; auto. cbn. destruct (neg n); discriminate.
Qed.

Lemma codec_round_trip c n : Forall (fun d => 0 <= d <= 9999) (digs n) -> -32768 <= wt n <= 32767 -> 0 <= scale n <= 16383 ->
  Z.of_nat (length (digs n)) <= 100000000 ->
  exists x, encode c (of_number n) = Ret x /\ as_var c x = Ret (of_number n) /\ into_var c x = Ret (of_number n).
Proof.
  intros D W S L. pose proof (storable_of n D W S L) as St. exists (layout (be_varlen c) (to_number (of_number n))).
  split; [now apply encode_spec|]. split; [now apply as_var_spec|now apply into_var_spec].
Qed.

Lemma codec_layout c n : Forall (fun d => 0 <= d <= 9999) (digs n) -> -32768 <= wt n <= 32767 -> 0 <= scale n <= 16383 ->
  Z.of_nat (length (digs n)) <= 100000000 ->
  let x := layout (be_varlen c) n in
  encode c (of_number n) = Ret x /\ read_len c x = Ret (lenz x) /\
  lenz x = (if short_form n then 6 else 8) + 2 * lenz (digs n).
Proof.
  intros D W S L x. pose proof (storable_of n D W S L) as St. pose proof (lenz_nonneg (digs n)) as Ln. fold (lenz (digs n)) in L.
  assert (Lx : lenz x = (if short_form n then 6 else 8) + 2 * lenz (digs n)).
  { unfold x, layout. rewrite lenz_app, lenz_len_word, lenz_app, lenz_flat. unfold header.
    destruct (short_form n); rewrite ?lenz_app, !lenz_le_bytes; lia. }
  split; [unfold x; rewrite (encode_spec c _ St); now rewrite to_of_number|]. split; [|exact Lx].
  assert (E : read_len c x = Ret (4 + lenz (header n ++ flat_map (le_bytes 2) (digs n)))).
  { unfold x, layout. apply nth_len_word. fold (lenz (header n ++ flat_map (le_bytes 2) (digs n))).
    pose proof (lenz_nonneg (header n ++ flat_map (le_bytes 2) (digs n))).
    assert (lenz x = 4 + lenz (header n ++ flat_map (le_bytes 2) (digs n))) by (unfold x, layout; rewrite lenz_app, lenz_len_word; reflexivity).
    change (2 ^ 30) with 1073741824. destruct (short_form n); lia. }
  rewrite E. f_equal. symmetry. unfold x, layout. rewrite (lenz_app (len_word _ _)), lenz_len_word. reflexivity.
Qed.

Lemma codec_nan c : encode c nan_var = Ret (nan_layout (be_varlen c)) /\ as_var c (nan_layout (be_varlen c)) = Ret nan_var /\
  num_is_nan c (nan_layout (be_varlen c)) = Ret true /\ read_len c (nan_layout (be_varlen c)) = Ret (lenz (nan_layout (be_varlen c))).
Proof.
  split; [exact (nan_buf_spec c)|]. split; [apply nan_as_var|]. split; [apply nan_is_nan|]. destruct c as [d [|]]; reflexivity.
Qed.

(** accessors *)
Lemma accessors c x q s : stores (be_varlen c) x q s ->
  num_is_nan c x = Ret false /\ num_scale c x = Ret (Some s) /\
  (exists b, num_is_negative c x = Ret b /\ (b = true <-> (q < 0)%Q)) /\
  (exists b, num_is_positive c x = Ret b /\ (b = true <-> (0 <= q)%Q)).
Proof.
  intro H. destruct (stores_elim _ _ _ _ H) as (v & C & -> & V & S). pose proof (canon_storable v C) as St.
  split; [now apply num_is_nan_spec|]. split; [rewrite num_scale_spec by exact St; now rewrite S|].
  rewrite num_is_negative_spec, num_is_positive_spec by exact St.
  assert (A : (0 <= aval v)%Q).
  { unfold aval. rewrite <- (dec_0 (4 * lsd v)), dec_le_iff. pose proof (dval_bound _ (canon_dig v C)). unfold mag. lia. }
  pose proof (canon_nan v C) as N. unfold is_negative, is_positive. destruct (sign v) eqn:G; [| |congruence]; cbn [sgn_eqb].
  - rewrite vval_pos in V by exact G. split; (eexists; split; [reflexivity|]); split; intro K; try discriminate; try reflexivity; lra.
  - assert (P : (0 < aval v)%Q).
    { apply aval_gt0. apply stripped_pos; [apply C|]. intro Z0. destruct (st_zero v (cn_st v C) Z0). congruence. }
    rewrite vval_neg in V by exact G. split; (eexists; split; [reflexivity|]); split; intro K; try discriminate; try reflexivity; lra.
Qed.

Lemma codec_nan_layout c : encode c nan_var = Ret (nan_layout (be_varlen c)) /\
  read_len c (nan_layout (be_varlen c)) = Ret 6 /\ lenz (nan_layout (be_varlen c)) = 6.
Proof. split; [exact (nan_buf_spec c)|]. destruct c as [d [|]]; split; reflexivity. Qed.
