(** * Property theorems: the rest of the number API at the level of the machine (C95) *)
From Coq Require Import ZArith QArith Qabs List Bool Lia.
From Verif Require Import Base Var Binary Typmod Parse Convert Num Data Spec SpecApi SpecData SpecMach Mach MachText MachMut MachRest ConvertApi MachRestApi Samples.
Import ListNotations.
Open Scope Z_scope.

(** C95: negate, abs, signum and inc in code that checks (debug) or wraps (release) every machine integer and reads and
    writes buffers of arbitrary content return buffers that show exactly the bytes of the operations on bytes alone
    (C16), or panic exactly when those do; nothing is undefined behaviour. *)
Theorem C95_machine_sign : forall c (a : nat -> nat -> Z) x, valid (be_varlen c) x ->
  agrees c (m_num_negate c a x) (some (num_negate c x)) /\
  agrees c (m_num_abs c a x) (some (num_abs c x)) /\
  agrees c (m_num_signum c a x) (some (num_signum c x)) /\
  agrees c (m_num_inc c a x) (some (num_inc c x)).
Proof. exact sign_agrees. Qed.
Print Assumptions C95_machine_sign.

(** factorial of any i64 *)
Theorem C95_machine_factorial : forall c (a : nat -> nat -> Z) n, n < 2 ^ 63 ->
  (n <= 32177 -> exists b x, m_num_factorial c a n = Ret (Some b) /\ shows c (Some b) (Some x) /\
     stores (be_varlen c) x (inject_Z (factorial (Z.to_nat n))) 0) /\
  (32177 < n -> m_num_factorial c a n = Ret None).
Proof. exact machine_factorial. Qed.
Print Assumptions C95_machine_factorial.

(** normalize() and the data given to a hasher: always delivered, those of the byte-level model, and equal for two numbers
    exactly if the machine-level comparison says they are equal. *)
Theorem C95_machine_normalize : forall c x, valid (be_varlen c) x -> m_num_normalize c x = num_normalize c x.
Proof. exact normalize_agrees. Qed.
Print Assumptions C95_machine_normalize.
Theorem C95_machine_hash : forall c x, valid (be_varlen c) x -> m_num_hash c x = num_hash c x.
Proof. exact hash_agrees. Qed.
Print Assumptions C95_machine_hash.
Theorem C95_machine_keys : forall c x y, valid (be_varlen c) x -> valid (be_varlen c) y ->
  exists tx ty hx hy, m_num_normalize c x = Ret tx /\ m_num_normalize c y = Ret ty /\ m_num_hash c x = Ret hx /\ m_num_hash c y = Ret hy /\
    (tx = ty <-> m_num_cmp c x y = Ret Eq) /\ (hx = hy <-> m_num_cmp c x y = Ret Eq).
Proof. exact machine_keys. Qed.
Print Assumptions C95_machine_keys.

(** A NumericBuf that has been through any history of C94, converted by value to an integer of [bits] bits: the value
    rounded to the nearest integer if that is in range, "out of range" otherwise. *)
Theorem C95_machine_to_int : forall c a (x : bytes) b h rs b' (z : bytes) q s a' bits, valid (be_varlen c) x -> m_num_to_owned c a x = Ret b ->
  Forall (fun e => Forall (valid (be_varlen c)) (operands (fst e))) h -> m_run c h (Some b) = (rs, Some b') ->
  m_as_bytes c b' = Ret z -> stores (be_varlen c) z q s -> int_width bits ->
  m_buf_to_signed c a' bits b' = Ret (if (- 2 ^ (bits - 1) <=? round_int q) && (round_int q <? 2 ^ (bits - 1)) then inl (round_int q) else inr COverflow) /\
  m_buf_to_unsigned c a' bits b' = Ret (if (0 <=? round_int q) && (round_int q <? 2 ^ bits) then inl (round_int q) else inr COverflow).
Proof. exact machine_to_int. Qed.
Print Assumptions C95_machine_to_int.

(** Non-vacuity, in memory full of 7s: -12345.678, 9999.5. *)
Definition sevens6 : nat -> nat -> Z := fun _ _ => 7.
Definition shown6 (m : outcome (option pbuf)) : outcome (option bytes) :=
  o <- m ;; match o with Some b => x <- m_as_bytes dbgc b ;; Ret (Some x) | None => Ret None end.
Example C95_case : valid false (sample n_a) /\ valid false (sample n_c).
Proof. split; right; [exists (value n_a), (scale n_a)|exists (value n_c), (scale n_c)]; apply sample_stores; [exact n_a_canonical|exact n_c_canonical]. Qed.
Example C95_sign_case :
  shown6 (m_num_negate dbgc sevens6 (sample n_a)) = Ret (Some (sample (Number false 1 3 [1; 2345; 6780]))) /\
  shown6 (m_num_abs dbgc sevens6 (sample n_a)) = Ret (Some (sample (Number false 1 3 [1; 2345; 6780]))) /\
  shown6 (m_num_signum dbgc sevens6 (sample n_a)) = Ret (Some (sample (Number true 0 0 [1]))) /\
  shown6 (m_num_inc dbgc sevens6 (sample n_c)) = Ret (Some (sample (Number false 1 1 [1; 0; 5000]))).
Proof. repeat split; vm_compute; reflexivity. Qed.
Example C95_factorial_case :
  shown6 (m_num_factorial dbgc sevens6 10) = Ret (Some (sample (Number false 1 0 [362; 8800]))) /\
  m_num_factorial dbgc sevens6 32178 = Ret None.
Proof. split; vm_compute; reflexivity. Qed.
Example C95_keys_case :
  m_num_normalize dbgc (sample n_a) = Ret [45; 49; 50; 51; 52; 53; 46; 54; 55; 56] /\
  m_num_hash dbgc (sample n_a) = Ret [HLen 3; HDigits [1; 2345; 6780]; HI32 1; HI8 (-1)] /\
  m_num_normalize dbgc (sample (Number false 0 3 [7])) = Ret [55].
Proof. repeat split; vm_compute; reflexivity. Qed.
(** 9999.5 rounded in place to 10000 (its buffer then starts one word earlier), to i16 and to u8 *)
Example C95_to_int_case :
  m_run dbgc [(InPlace (ORound 0), sevens6)] (Some (PBuf [7; 7; 40; 0; -32640; 9999; 5000] 4)) = ([Ret false], Some (PBuf [7; 32; 0; -32767; 1; 0; 5000] 2)) /\
  m_num_to_owned dbgc sevens6 (sample n_c) = Ret (PBuf [7; 7; 40; 0; -32640; 9999; 5000] 4) /\
  m_buf_to_signed dbgc sevens6 16 (PBuf [7; 32; 0; -32767; 1; 0; 5000] 2) = Ret (inl 10000) /\
  m_buf_to_unsigned dbgc sevens6 8 (PBuf [7; 32; 0; -32767; 1; 0; 5000] 2) = Ret (inr COverflow).
Proof. repeat split; vm_compute; reflexivity. Qed.
