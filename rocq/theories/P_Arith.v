(** * Property theorems: arithmetic (C04 - C15, C41, C45, C46) *)
From Coq Require Import ZArith QArith Qabs Qround List Bool Lia.
From Verif Require Import Base Var Binary Num Spec SpecApi Api1 Api2 Api3 Laws Laws2 Samples.
Import ListNotations.
Open Scope Z_scope.

(** C04 *)
Theorem C04_add_exact : forall c x y q1 s1 q2 s2,
  stores (be_varlen c) x q1 s1 -> stores (be_varlen c) y q2 s2 ->
  exists o, checked_add c x y = Ret o /\ result_of (be_varlen c) (q1 + q2) (Z.max s1 s2) o.
Proof. exact checked_add_spec. Qed.
Print Assumptions C04_add_exact.

(** C05 *)
Theorem C05_sub_exact : forall c x y q1 s1 q2 s2,
  stores (be_varlen c) x q1 s1 -> stores (be_varlen c) y q2 s2 ->
  exists o, checked_sub c x y = Ret o /\ result_of (be_varlen c) (q1 - q2) (Z.max s1 s2) o.
Proof. exact checked_sub_spec. Qed.
Print Assumptions C05_sub_exact.

(** C06 *)
Theorem C06_mul_exact : forall c x y q1 s1 q2 s2,
  stores (be_varlen c) x q1 s1 -> stores (be_varlen c) y q2 s2 -> s1 + s2 <= 16383 ->
  exists o, checked_mul c x y = Ret o /\ result_of (be_varlen c) (q1 * q2) (s1 + s2) o.
Proof. exact checked_mul_spec. Qed.
Print Assumptions C06_mul_exact.

(** C06, scale overflow; C46: the zero operand panics there in a debug build. *)
Theorem C06_mul_scale_overflow : forall c x y q1 s1 q2 s2,
  stores (be_varlen c) x q1 s1 -> stores (be_varlen c) y q2 s2 -> 16383 < s1 + s2 ->
  (~ (q1 == 0)%Q -> ~ (q2 == 0)%Q -> checked_mul c x y = Ret None) /\
  ((q1 == 0)%Q \/ (q2 == 0)%Q -> checked_mul c x y = if dbg c then Panic WAssert else Ret None).
Proof. exact checked_mul_scale. Qed.
Print Assumptions C06_mul_scale_overflow.

(** C07: no 32-bit overflow (which would panic in a debug build and wrap in a release build) *)
Theorem C07_mul_no_overflow : forall be x y q1 s1 q2 s2,
  stores be x q1 s1 -> stores be y q2 s2 -> s1 + s2 <= 16383 ->
  exists o, checked_mul (Cfg true be) x y = Ret o /\ checked_mul (Cfg false be) x y = Ret o.
Proof. exact mul_profiles. Qed.
Print Assumptions C07_mul_no_overflow.

(** C08 and C09: correctly rounded to the scale the policy prescribes *)
Theorem C08_div_correctly_rounded : forall c n1 n2, canonical n1 -> canonical n2 -> ~ (value n2 == 0)%Q ->
  exists o, checked_div c (layout (be_varlen c) n1) (layout (be_varlen c) n2) = Ret o /\
    result_of (be_varlen c) (round_at (value n1 / value n2) (div_scale n1 n2)) (div_scale n1 n2) o.
Proof. exact checked_div_numbers. Qed.
Print Assumptions C08_div_correctly_rounded.

Theorem C09_div_significant_digits : forall n1 n2, canonical n1 -> canonical n2 ->
  ~ (value n1 == 0)%Q -> ~ (value n2 == 0)%Q -> div_scale n1 n2 < 1000 ->
  (ten ^ 16 < Qabs (value n1 / value n2) * ten ^ (div_scale n1 n2))%Q.
Proof. exact div_scale_significance. Qed.
Print Assumptions C09_div_significant_digits.

(** C10 *)
Theorem C10_div_no_overflow : forall be x y, valid be x -> valid be y ->
  (exists o, checked_div (Cfg true be) x y = Ret o /\ checked_div (Cfg false be) x y = Ret o) /\
  (exists o, checked_div_trunc (Cfg true be) x y = Ret o /\ checked_div_trunc (Cfg false be) x y = Ret o) /\
  (exists o, checked_rem (Cfg true be) x y = Ret o /\ checked_rem (Cfg false be) x y = Ret o).
Proof. exact div_profiles. Qed.
Print Assumptions C10_div_no_overflow.

(** C11 *)
Theorem C11_div_trunc : forall c x y q1 s1 q2 s2,
  stores (be_varlen c) x q1 s1 -> stores (be_varlen c) y q2 s2 -> ~ (q2 == 0)%Q ->
  exists o, checked_div_trunc c x y = Ret o /\
    result_of (be_varlen c) (inject_Z (trunc_int (q1 / q2))) 0 o.
Proof. exact checked_div_trunc_spec. Qed.
Print Assumptions C11_div_trunc.

(** C12 *)
Theorem C12_rem : forall c x y q1 s1 q2 s2,
  stores (be_varlen c) x q1 s1 -> stores (be_varlen c) y q2 s2 -> ~ (q2 == 0)%Q ->
  exists z r, checked_rem c x y = Ret (Some z) /\ stores (be_varlen c) z r (Z.max s1 s2) /\
    (r == q1 - inject_Z (trunc_int (q1 / q2)) * q2)%Q /\
    (Qabs r < Qabs q2)%Q /\ ((0 <= q1)%Q -> (0 <= r)%Q) /\ ((q1 <= 0)%Q -> (r <= 0)%Q).
Proof. exact rem_full. Qed.
Print Assumptions C12_rem.

(** C13 *)
Theorem C13_div_by_zero : forall c x y q1 s1 q2 s2,
  stores (be_varlen c) x q1 s1 -> stores (be_varlen c) y q2 s2 -> (q2 == 0)%Q ->
  checked_div c x y = Ret None /\ checked_div_trunc c x y = Ret None /\ checked_rem c x y = Ret None /\
  op_div c x y = Panic (WMsg MDivZero) /\ op_rem c x y = Panic (WMsg MDivZero).
Proof. exact div_by_zero. Qed.
Print Assumptions C13_div_by_zero.

(** C14 (sqrt, ln, log, exp, pow: see the transcendental files) *)
Theorem C14_nan_binary : forall c x y, valid (be_varlen c) x -> valid (be_varlen c) y ->
  stores_nan (be_varlen c) x \/ stores_nan (be_varlen c) y ->
  let NaN := nan_layout (be_varlen c) in
  checked_add c x y = Ret (Some NaN) /\ checked_sub c x y = Ret (Some NaN) /\
  checked_mul c x y = Ret (Some NaN) /\ checked_div c x y = Ret (Some NaN) /\
  checked_div_trunc c x y = Ret (Some NaN) /\ checked_rem c x y = Ret (Some NaN) /\
  op_add c x y = Ret NaN /\ op_sub c x y = Ret NaN /\ op_mul c x y = Ret NaN /\
  op_div c x y = Ret NaN /\ op_rem c x y = Ret NaN.
Proof. exact nan_arith. Qed.
Print Assumptions C14_nan_binary.

Theorem C14_nan_unary : forall c x k, stores_nan (be_varlen c) x ->
  let NaN := nan_layout (be_varlen c) in
  num_negate c x = Ret NaN /\ num_abs c x = Ret NaN /\ num_signum c x = Ret NaN /\ num_inc c x = Ret NaN /\
  num_round c x k = Ret NaN /\ num_trunc c x k = Ret NaN /\ num_ceil c x = Ret NaN /\ num_floor c x = Ret NaN.
Proof. exact nan_unary. Qed.
Print Assumptions C14_nan_unary.

(** C15 *)
Theorem C15_add_comm : forall c x y, valid (be_varlen c) x -> valid (be_varlen c) y ->
  checked_add c x y = checked_add c y x.
Proof. exact add_comm_bytes. Qed.
Print Assumptions C15_add_comm.

Theorem C15_mul_comm : forall c x y, valid (be_varlen c) x -> valid (be_varlen c) y ->
  checked_mul c x y = checked_mul c y x.
Proof. exact mul_comm_bytes. Qed.
Print Assumptions C15_mul_comm.

Theorem C15_sub_is_add_neg : forall c x y, valid (be_varlen c) x -> valid (be_varlen c) y ->
  checked_sub c x y = (z <- num_negate c y ;; checked_add c x z).
Proof. exact sub_add_neg. Qed.
Print Assumptions C15_sub_is_add_neg.

Theorem C15_add_assoc : forall c x y z a b r,
  valid (be_varlen c) x -> valid (be_varlen c) y -> valid (be_varlen c) z ->
  checked_add c x y = Ret (Some a) -> checked_add c y z = Ret (Some b) ->
  checked_add c a z = Ret (Some r) -> checked_add c x b = Ret (Some r).
Proof. exact add_assoc_bytes. Qed.
Print Assumptions C15_add_assoc.

Theorem C15_distributive : forall c x y z b r p1 p2 t,
  valid (be_varlen c) x -> valid (be_varlen c) y -> valid (be_varlen c) z ->
  checked_add c y z = Ret (Some b) -> checked_mul c x b = Ret (Some r) ->
  checked_mul c x y = Ret (Some p1) -> checked_mul c x z = Ret (Some p2) ->
  checked_add c p1 p2 = Ret (Some t) -> num_eq c r t = Ret true.
Proof. exact distrib_value. Qed.
Print Assumptions C15_distributive.

(** C41 *)
Theorem C41_operators : forall c x y, valid (be_varlen c) x -> valid (be_varlen c) y ->
  (forall r, op_add c x y = Ret r <-> checked_add c x y = Ret (Some r)) /\
  (checked_add c x y = Ret None <-> op_add c x y = Panic (WMsg MOverflow)) /\
  (forall r, op_sub c x y = Ret r <-> checked_sub c x y = Ret (Some r)) /\
  (checked_sub c x y = Ret None <-> op_sub c x y = Panic (WMsg MOverflow)) /\
  (forall r, op_mul c x y = Ret r <-> checked_mul c x y = Ret (Some r)) /\
  (checked_mul c x y = Ret None <-> op_mul c x y = Panic (WMsg MOverflow)) /\
  (forall r, op_div c x y = Ret r <-> checked_div c x y = Ret (Some r)) /\
  (checked_div c x y = Ret None <-> op_div c x y = Panic (WMsg MDivZero) \/ op_div c x y = Panic (WMsg MOverflow)) /\
  (forall r, op_rem c x y = Ret r <-> checked_rem c x y = Ret (Some r)) /\
  (checked_rem c x y = Ret None <-> op_rem c x y = Panic (WMsg MDivZero) \/ op_rem c x y = Panic (WMsg MOverflow)).
Proof. exact op_checked_valid. Qed.
Print Assumptions C41_operators.

(** C45 *)
Theorem C45_profiles_binary : forall be x y, valid be x -> valid be y ->
  checked_add (Cfg true be) x y = checked_add (Cfg false be) x y /\
  checked_sub (Cfg true be) x y = checked_sub (Cfg false be) x y /\
  checked_div (Cfg true be) x y = checked_div (Cfg false be) x y /\
  checked_div_trunc (Cfg true be) x y = checked_div_trunc (Cfg false be) x y /\
  checked_rem (Cfg true be) x y = checked_rem (Cfg false be) x y /\
  num_cmp (Cfg true be) x y = num_cmp (Cfg false be) x y.
Proof. exact profiles_arith. Qed.
Print Assumptions C45_profiles_binary.

Theorem C45_profiles_unary : forall be x k, valid be x ->
  num_negate (Cfg true be) x = num_negate (Cfg false be) x /\
  num_abs (Cfg true be) x = num_abs (Cfg false be) x /\
  num_signum (Cfg true be) x = num_signum (Cfg false be) x /\
  num_inc (Cfg true be) x = num_inc (Cfg false be) x /\
  num_round (Cfg true be) x k = num_round (Cfg false be) x k /\
  num_trunc (Cfg true be) x k = num_trunc (Cfg false be) x k /\
  num_ceil (Cfg true be) x = num_ceil (Cfg false be) x /\
  num_floor (Cfg true be) x = num_floor (Cfg false be) x.
Proof. exact profiles_unary. Qed.
Print Assumptions C45_profiles_unary.

(** ** Non-vacuity *)
Example arith_hypotheses : stores false (sample n_a) (value n_a) 3 /\ stores false (sample n_b) (value n_b) 2
  /\ stores false (sample n_zero) (value n_zero) 5 /\ (value n_zero == 0)%Q /\ ~ (value n_b == 0)%Q /\ ~ (value n_a == 0)%Q.
Proof.
  split; [exact (sample_stores n_a n_a_canonical)|]. split; [exact (sample_stores n_b n_b_canonical)|].
  split; [exact (sample_stores n_zero n_zero_canonical)|]. repeat split; discriminate.
Qed.

Example div_case : div_scale n_a n_b = 12 /\
  checked_div dbgc (sample n_a) (sample n_b) = Ret (Some (sample (Number true 1 12 [24; 6913; 5600]))).
Proof. split; vm_compute; reflexivity. Qed.

Example rem_case : checked_rem dbgc (sample n_a) (sample n_b) = Ret (Some (sample (Number true (-1) 3 [280]))).
Proof. vm_compute. reflexivity. Qed.

Example assoc_case :
  let a := sample (Number true 1 3 [1; 2345; 6280]) in
  let b := sample (Number false 0 2 [9999; 5500]) in
  let r := sample (Number true 0 3 [2346; 1280]) in
  checked_add dbgc (sample n_a) (sample n_b) = Ret (Some a) /\
  checked_add dbgc (sample n_b) (sample n_c) = Ret (Some b) /\
  checked_add dbgc a (sample n_c) = Ret (Some r) /\ checked_add dbgc (sample n_a) b = Ret (Some r).
Proof. repeat split; vm_compute; reflexivity. Qed.

Example distrib_case :
  let b := sample (Number false 0 2 [9999; 5500]) in
  let r := sample (Number true 2 5 [1; 2345; 1224; 4449]) in
  let p1 := sample (Number true 0 5 [617; 2839]) in
  let p2 := sample (Number true 2 4 [1; 2345; 607; 1610]) in
  checked_add dbgc (sample n_b) (sample n_c) = Ret (Some b) /\
  checked_mul dbgc (sample n_a) b = Ret (Some r) /\ checked_mul dbgc (sample n_a) (sample n_b) = Ret (Some p1) /\
  checked_mul dbgc (sample n_a) (sample n_c) = Ret (Some p2) /\ checked_add dbgc p1 p2 = Ret (Some r).
Proof. repeat split; vm_compute; reflexivity. Qed.
