(** * Property theorems: build profiles (C45, C63) *)
From Coq Require Import ZArith QArith Qabs List Bool Lia.
From Verif Require Import Base Var Binary Format Parse Typmod Convert Num Flt Transc Spec SpecApi SpecLibm SpecProfile
  Profile Profile2 ProfileApi Samples P_Sci P_Pow P_Sqrt.
Import ListNotations.
Open Scope Z_scope.

(** C45: on valid numerics the two profiles do the same. [checked_mul] differs only when an operand is zero and
    the scales sum to more than 16383 (C46). *)
Theorem C45_profiles_mul : forall be x y q1 s1 q2 s2, stores be x q1 s1 -> stores be y q2 s2 ->
  s1 + s2 <= 16383 \/ ~ (q1 * q2 == 0)%Q ->
  checked_mul (Cfg true be) x y = checked_mul (Cfg false be) x y.
Proof. exact profiles_mul_full. Qed.
Print Assumptions C45_profiles_mul.

Theorem C45_profiles_mul_nan : forall be x y, valid be x -> valid be y -> stores_nan be x \/ stores_nan be y ->
  checked_mul (Cfg true be) x y = checked_mul (Cfg false be) x y.
Proof. exact profiles_mul_nan. Qed.
Print Assumptions C45_profiles_mul_nan.

Theorem C45_profiles_operators : forall be x y, valid be x -> valid be y ->
  op_add (Cfg true be) x y = op_add (Cfg false be) x y /\
  op_sub (Cfg true be) x y = op_sub (Cfg false be) x y /\
  op_div (Cfg true be) x y = op_div (Cfg false be) x y /\
  op_rem (Cfg true be) x y = op_rem (Cfg false be) x y.
Proof. exact profiles_operators. Qed.
Print Assumptions C45_profiles_operators.

Theorem C45_profiles_copies : forall be x, valid be x ->
  num_to_owned (Cfg true be) x = num_to_owned (Cfg false be) x /\
  num_clone (Cfg true be) x = num_clone (Cfg false be) x /\
  num_hash (Cfg true be) x = num_hash (Cfg false be) x /\
  num_is_nan (Cfg true be) x = num_is_nan (Cfg false be) x /\
  num_is_negative (Cfg true be) x = num_is_negative (Cfg false be) x /\
  num_is_positive (Cfg true be) x = num_is_positive (Cfg false be) x /\
  num_scale (Cfg true be) x = num_scale (Cfg false be) x.
Proof. exact profiles_copies. Qed.
Print Assumptions C45_profiles_copies.

Theorem C45_profiles_sci : forall be m x lower, log10_sound (f_log10 m) -> valid be x ->
  num_sci (Cfg true be) m x lower = num_sci (Cfg false be) m x lower.
Proof. exact profiles_sci. Qed.
Print Assumptions C45_profiles_sci.

Theorem C45_profiles_in_place : forall be x k, valid be x ->
  negate_mut (Cfg true be) (Some x) = negate_mut (Cfg false be) (Some x) /\
  abs_mut (Cfg true be) (Some x) = abs_mut (Cfg false be) (Some x) /\
  trunc_mut (Cfg true be) (Some x) k = trunc_mut (Cfg false be) (Some x) k /\
  round_mut (Cfg true be) (Some x) k = round_mut (Cfg false be) (Some x) k.
Proof. exact profiles_mut. Qed.
Print Assumptions C45_profiles_in_place.

(** apply_typmod on a number (on NaN the profiles differ: C22) *)
Theorem C45_profiles_typmod : forall be x q s p sc t, stores be x q s ->
  typmod_new (Cfg true be) p sc = Ret (Some t) ->
  apply_typmod (Cfg true be) (Some x) t = apply_typmod (Cfg false be) (Some x) t /\
  apply_typmod (Cfg true be) (Some x) typmod_default = apply_typmod (Cfg false be) (Some x) typmod_default.
Proof. exact profiles_typmod. Qed.
Print Assumptions C45_profiles_typmod.

Theorem C45_profiles_factorial : forall be n, num_factorial (Cfg true be) n = num_factorial (Cfg false be) n.
Proof. exact profiles_factorial. Qed.
Print Assumptions C45_profiles_factorial.

(** C63: whatever the bytes handed in, valid or not, the release build does what the debug build does unless one
    of the checks that only debug builds have fired (or the debug build left defined behaviour). *)
Theorem C63_arith : forall be x y k,
  agree (checked_add (Cfg true be) x y) (checked_add (Cfg false be) x y) /\
  agree (checked_sub (Cfg true be) x y) (checked_sub (Cfg false be) x y) /\
  agree (checked_mul (Cfg true be) x y) (checked_mul (Cfg false be) x y) /\
  agree (checked_div (Cfg true be) x y) (checked_div (Cfg false be) x y) /\
  agree (checked_div_trunc (Cfg true be) x y) (checked_div_trunc (Cfg false be) x y) /\
  agree (checked_rem (Cfg true be) x y) (checked_rem (Cfg false be) x y) /\
  agree (op_add (Cfg true be) x y) (op_add (Cfg false be) x y) /\
  agree (op_sub (Cfg true be) x y) (op_sub (Cfg false be) x y) /\
  agree (op_mul (Cfg true be) x y) (op_mul (Cfg false be) x y) /\
  agree (op_div (Cfg true be) x y) (op_div (Cfg false be) x y) /\
  agree (op_rem (Cfg true be) x y) (op_rem (Cfg false be) x y) /\
  agree (num_negate (Cfg true be) x) (num_negate (Cfg false be) x) /\
  agree (num_abs (Cfg true be) x) (num_abs (Cfg false be) x) /\
  agree (num_signum (Cfg true be) x) (num_signum (Cfg false be) x) /\
  agree (num_inc (Cfg true be) x) (num_inc (Cfg false be) x) /\
  agree (num_round (Cfg true be) x k) (num_round (Cfg false be) x k) /\
  agree (num_trunc (Cfg true be) x k) (num_trunc (Cfg false be) x k) /\
  agree (num_ceil (Cfg true be) x) (num_ceil (Cfg false be) x) /\
  agree (num_floor (Cfg true be) x) (num_floor (Cfg false be) x) /\
  agree (num_factorial (Cfg true be) k) (num_factorial (Cfg false be) k).
Proof.
  intros be x y k. set (c := Cfg true be).
  exact (conj (le_add c x y) (conj (le_sub c x y) (conj (le_mul c x y) (conj (le_div c x y) (conj (le_div_trunc c x y)
    (conj (le_rem c x y) (conj (le_op_add c x y) (conj (le_op_sub c x y) (conj (le_op_mul c x y) (conj (le_op_div c x y)
    (conj (le_op_rem c x y) (conj (le_negate_n c x) (conj (le_abs_n c x) (conj (le_signum_n c x) (conj (le_inc_n c x)
    (conj (le_round_n c x k) (conj (le_trunc_n c x k) (conj (le_ceil_n c x) (conj (le_floor_n c x) (le_factorial_n c k)))))))))))))))))))).
Qed.
Print Assumptions C63_arith.

Theorem C63_approximate : forall be m fuel x y,
  agree (num_sqrt (Cfg true be) fuel x) (num_sqrt (Cfg false be) fuel x) /\
  agree (num_ln (Cfg true be) m fuel x) (num_ln (Cfg false be) m fuel x) /\
  agree (num_log (Cfg true be) m fuel x y) (num_log (Cfg false be) m fuel x y) /\
  agree (num_log2 (Cfg true be) m fuel x) (num_log2 (Cfg false be) m fuel x) /\
  agree (num_log10 (Cfg true be) m fuel x) (num_log10 (Cfg false be) m fuel x) /\
  agree (num_exp (Cfg true be) m fuel x) (num_exp (Cfg false be) m fuel x) /\
  agree (num_pow (Cfg true be) m fuel x y) (num_pow (Cfg false be) m fuel x y).
Proof.
  intros be m fuel x y. set (c := Cfg true be).
  exact (conj (le_sqrt_n c fuel x) (conj (le_ln_n c m fuel x) (conj (le_log_n c m fuel x y) (conj (le_log2_n c m fuel x)
    (conj (le_log10_n c m fuel x) (conj (le_exp_n c m fuel x) (le_pow_n c m fuel x y))))))).
Qed.
Print Assumptions C63_approximate.

Theorem C63_text_and_conversion : forall be m s x y bits k lower,
  agree (from_str (Cfg true be) s) (from_str (Cfg false be) s) /\
  agree (num_display (Cfg true be) x) (num_display (Cfg false be) x) /\
  agree (num_normalize (Cfg true be) x) (num_normalize (Cfg false be) x) /\
  agree (num_sci (Cfg true be) m x lower) (num_sci (Cfg false be) m x lower) /\
  agree (num_cmp (Cfg true be) x y) (num_cmp (Cfg false be) x y) /\
  agree (num_hash (Cfg true be) x) (num_hash (Cfg false be) x) /\
  agree (num_to_owned (Cfg true be) x) (num_to_owned (Cfg false be) x) /\
  agree (num_clone (Cfg true be) x) (num_clone (Cfg false be) x) /\
  agree (num_from_signed (Cfg true be) bits k) (num_from_signed (Cfg false be) bits k) /\
  agree (num_from_unsigned (Cfg true be) bits k) (num_from_unsigned (Cfg false be) bits k) /\
  agree (num_to_signed (Cfg true be) bits x) (num_to_signed (Cfg false be) bits x) /\
  agree (num_to_unsigned (Cfg true be) bits x) (num_to_unsigned (Cfg false be) bits x) /\
  agree (buf_to_signed (Cfg true be) bits x) (buf_to_signed (Cfg false be) bits x) /\
  agree (buf_to_unsigned (Cfg true be) bits x) (buf_to_unsigned (Cfg false be) bits x).
Proof.
  intros be m s x y bits k lower. set (c := Cfg true be).
  exact (conj (le_from_str c s) (conj (le_display_n c x) (conj (le_normalize_n c x) (conj (le_sci_n c m x lower)
    (conj (le_cmp_n c x y) (conj (le_hash_n c x) (conj (le_to_owned c x) (conj (le_clone c x) (conj (le_nfs c bits k)
    (conj (le_nfu c bits k) (conj (le_nts c bits x) (conj (le_ntu c bits x) (conj (le_bts c bits x) (le_btu c bits x)))))))))))))).
Qed.
Print Assumptions C63_text_and_conversion.

Theorem C63_in_place : forall be b y k,
  agree_mut (negate_mut (Cfg true be) b) (negate_mut (Cfg false be) b) /\
  agree_mut (abs_mut (Cfg true be) b) (abs_mut (Cfg false be) b) /\
  agree_mut (round_mut (Cfg true be) b k) (round_mut (Cfg false be) b k) /\
  agree_mut (trunc_mut (Cfg true be) b k) (trunc_mut (Cfg false be) b k) /\
  agree_mut (apply_typmod (Cfg true be) b k) (apply_typmod (Cfg false be) b k) /\
  agree_mut (op_assign op_add (Cfg true be) b y) (op_assign op_add (Cfg false be) b y) /\
  agree_mut (op_assign op_sub (Cfg true be) b y) (op_assign op_sub (Cfg false be) b y) /\
  agree_mut (op_assign op_mul (Cfg true be) b y) (op_assign op_mul (Cfg false be) b y) /\
  agree_mut (op_assign op_div (Cfg true be) b y) (op_assign op_div (Cfg false be) b y) /\
  agree_mut (op_assign op_rem (Cfg true be) b y) (op_assign op_rem (Cfg false be) b y).
Proof.
  intros be b y k. set (c := Cfg true be).
  exact (conj (agree_negate_mut c b) (conj (agree_abs_mut c b) (conj (agree_round_mut c b k) (conj (agree_trunc_mut c b k)
    (conj (agree_apply_typmod c b k) (conj (agree_assign op_add c b y (fun x => le_op_add c x y))
    (conj (agree_assign op_sub c b y (fun x => le_op_sub c x y)) (conj (agree_assign op_mul c b y (fun x => le_op_mul c x y))
    (conj (agree_assign op_div c b y (fun x => le_op_div c x y)) (agree_assign op_rem c b y (fun x => le_op_rem c x y))))))))))).
Qed.
Print Assumptions C63_in_place.

(** ** Non-vacuity: a run where debug returns, one where it panics with a message, one where a check fires *)
Example C63_cases :
  num_pow dbgc rough 0 (sample n_1_9) (sample n_128) = num_pow relc rough 0 (sample n_1_9) (sample n_128) /\
  (exists y, num_pow dbgc rough 0 (sample n_1_9) (sample n_128) = Ret (Some y)) /\
  num_pow relc rough 0 (sample n_zero) (sample n_m3) = Panic (WMsg MZeroPowNeg) /\
  num_pow dbgc rough 0 (sample n_1_9) (sample n_min) = Panic WArith /\
  (exists y, num_pow relc rough 0 (sample n_1_9) (sample n_min) = Ret (Some y)).
Proof.
  split; [vm_compute; reflexivity|].
  split; [destruct (num_pow dbgc rough 0 (sample n_1_9) (sample n_128)) as [[y|]| | |] eqn:E;
    [exists y; reflexivity|..]; vm_compute in E; discriminate|].
  split; [vm_compute; reflexivity|]. split; [vm_compute; reflexivity|].
  destruct (num_pow relc rough 0 (sample n_1_9) (sample n_min)) as [[y|]| | |] eqn:E;
    [exists y; reflexivity|..]; vm_compute in E; discriminate.
Qed.
Example C45_cases : stores false (sample n_a) (value n_a) 3 /\ stores false (sample n_b) (value n_b) 2 /\
  ~ (value n_a * value n_b == 0)%Q /\ typmod_new dbgc 5 2 = Ret (Some 327686).
Proof.
  split; [exact (sample_stores n_a n_a_canonical)|]. split; [exact (sample_stores n_b n_b_canonical)|].
  split; [vm_compute; discriminate|reflexivity].
Qed.
