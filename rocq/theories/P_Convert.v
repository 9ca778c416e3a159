(** * Property theorems: integer conversions and factorial (C38 - C40, C42, C45) *)
From Coq Require Import ZArith QArith Qabs Qpower List Bool Lia.
From Verif Require Import Base Var Binary Convert Num Spec SpecApi ConvertApi Factorial Samples.
Import ListNotations.
Open Scope Z_scope.

(** C38: [int_width bits] is 8, 16, 32, 64 or 128. *)
Theorem C38_from_signed : forall c bits k, int_width bits -> - 2 ^ (bits - 1) <= k < 2 ^ (bits - 1) ->
  exists x, num_from_signed c bits k = Ret x /\ stores (be_varlen c) x (inject_Z k) 0.
Proof. exact num_from_signed_spec. Qed.
Print Assumptions C38_from_signed.

Theorem C38_from_unsigned : forall c bits k, int_width bits -> 0 <= k < 2 ^ bits ->
  exists x, num_from_unsigned c bits k = Ret x /\ stores (be_varlen c) x (inject_Z k) 0.
Proof. exact num_from_unsigned_spec. Qed.
Print Assumptions C38_from_unsigned.

Theorem C38_from_bool : forall c b, exists x, num_from_bool c b = Ret x /\ stores (be_varlen c) x (if b then 1 else 0) 0.
Proof. exact num_from_bool_spec. Qed.
Print Assumptions C38_from_bool.

(** C39 *)
Theorem C39_to_signed : forall c bits x q s k, int_width bits -> stores (be_varlen c) x q s ->
  (num_to_signed c bits x = Ret (inl k) <-> k = round_int q /\ - 2 ^ (bits - 1) <= k < 2 ^ (bits - 1)) /\
  (num_to_signed c bits x = Ret (inr COverflow) <-> ~ (- 2 ^ (bits - 1) <= round_int q < 2 ^ (bits - 1))) /\
  buf_to_signed c bits x = num_to_signed c bits x.
Proof. exact to_signed_iff. Qed.
Print Assumptions C39_to_signed.

Theorem C39_to_unsigned : forall c bits x q s k, int_width bits -> stores (be_varlen c) x q s ->
  (num_to_unsigned c bits x = Ret (inl k) <-> k = round_int q /\ 0 <= k < 2 ^ bits) /\
  (num_to_unsigned c bits x = Ret (inr COverflow) <-> ~ (0 <= round_int q < 2 ^ bits)) /\
  buf_to_unsigned c bits x = num_to_unsigned c bits x.
Proof. exact to_unsigned_iff. Qed.
Print Assumptions C39_to_unsigned.

Theorem C39_nan : forall c bits x, int_width bits -> stores_nan (be_varlen c) x ->
  num_to_signed c bits x = Ret (inr CInvalid) /\ buf_to_signed c bits x = Ret (inr CInvalid) /\
  num_to_unsigned c bits x = Ret (inr CInvalid) /\ buf_to_unsigned c bits x = Ret (inr CInvalid).
Proof. exact nan_to_int. Qed.
Print Assumptions C39_nan.

(** C40 *)
Theorem C40_signed_round_trip : forall c bits k, int_width bits -> - 2 ^ (bits - 1) <= k < 2 ^ (bits - 1) ->
  exists x, num_from_signed c bits k = Ret x /\ num_to_signed c bits x = Ret (inl k) /\ buf_to_signed c bits x = Ret (inl k).
Proof. exact signed_round_trip. Qed.
Print Assumptions C40_signed_round_trip.

Theorem C40_unsigned_round_trip : forall c bits k, int_width bits -> 0 <= k < 2 ^ bits ->
  exists x, num_from_unsigned c bits k = Ret x /\ num_to_unsigned c bits x = Ret (inl k) /\ buf_to_unsigned c bits x = Ret (inl k).
Proof. exact unsigned_round_trip. Qed.
Print Assumptions C40_unsigned_round_trip.

(** C42 *)
Theorem C42_factorial : forall c n, n <= 32177 ->
  exists x, num_factorial c n = Ret (Some x) /\ stores (be_varlen c) x (inject_Z (factorial (Z.to_nat n))) 0.
Proof. exact factorial_some. Qed.
Print Assumptions C42_factorial.

Theorem C42_factorial_overflow : forall c n, 32177 < n ->
  num_factorial c n = Ret None /\ (limit <= inject_Z (factorial (Z.to_nat n)))%Q.
Proof. exact (fun c n H => conj (factorial_none c n H) (factorial_exceeds n (proj2 (Z.le_succ_l 32177 n) H))). Qed.
Print Assumptions C42_factorial_overflow.

(** C45, conversions *)
Theorem C45_profiles_to_int : forall be bits x, int_width bits -> valid be x ->
  num_to_signed (Cfg true be) bits x = num_to_signed (Cfg false be) bits x /\
  num_to_unsigned (Cfg true be) bits x = num_to_unsigned (Cfg false be) bits x.
Proof. exact convert_profiles. Qed.
Print Assumptions C45_profiles_to_int.

Theorem C45_profiles_from_int : forall be bits k, int_width bits ->
  (- 2 ^ (bits - 1) <= k < 2 ^ (bits - 1) -> num_from_signed (Cfg true be) bits k = num_from_signed (Cfg false be) bits k) /\
  (0 <= k < 2 ^ bits -> num_from_unsigned (Cfg true be) bits k = num_from_unsigned (Cfg false be) bits k).
Proof. exact from_profiles. Qed.
Print Assumptions C45_profiles_from_int.

(** ** Non-vacuity *)
Example convert_case : int_width 8 /\ int_width 128 /\
  num_from_signed dbgc 8 (-128) = Ret (sample (Number true 0 0 [128])) /\
  num_to_signed dbgc 8 (sample (Number true 0 1 [127; 5000])) = Ret (inl (-128)) /\
  num_to_signed dbgc 8 (sample (Number false 0 1 [127; 5000])) = Ret (inr COverflow) /\
  num_to_unsigned dbgc 16 (sample (Number true 0 1 [1])) = Ret (inr COverflow) /\
  num_from_unsigned dbgc 128 (2 ^ 128 - 1) = Ret (sample (Number false 9 0 [340; 2823; 6692; 938; 4634; 6337; 4607; 4317; 6821; 1455])).
Proof. split; [now left|]. split; [unfold int_width; tauto|]. repeat split; vm_compute; reflexivity. Qed.

Example factorial_case : num_factorial dbgc 20 = Ret (Some (sample (Number false 4 0 [243; 2902; 81; 7664]))).
Proof. vm_compute. reflexivity. Qed.
