(** * Property theorems: arithmetic at the level of the machine (C87) *)
From Coq Require Import ZArith QArith Qabs List Bool Lia.
From Verif Require Import Base Var Binary Num Data Spec SpecApi SpecData SpecMach Samples Api3 Mach MachApi.
Import ListNotations.
Open Scope Z_scope.

(** C87: run statement by statement on index-accessed buffers of arbitrary content, with every i16, i32, u32 and
    usize operation checked (debug) or wrapping (release), the operations neither read nor write outside a buffer nor
    loop forever, and give what the byte-level model gives: same panic, or a buffer that shows the same bytes. [a]: the
    content of each new allocation. *)
Theorem C87_machine_binary : forall c (a : nat -> nat -> Z) x y, valid (be_varlen c) x -> valid (be_varlen c) y ->
  agrees c (m_checked_add c a x y) (checked_add c x y) /\
  agrees c (m_checked_sub c a x y) (checked_sub c x y) /\
  agrees c (m_checked_mul c a x y) (checked_mul c x y) /\
  agrees c (m_checked_div c a x y) (checked_div c x y) /\
  agrees c (m_checked_div_trunc c a x y) (checked_div_trunc c x y) /\
  agrees c (m_checked_rem c a x y) (checked_rem c x y) /\
  m_num_cmp c x y = num_cmp c x y.
Proof. exact binary_agrees. Qed.
Print Assumptions C87_machine_binary.

Theorem C87_machine_unary : forall c (a : nat -> nat -> Z) x k, valid (be_varlen c) x ->
  agrees c (m_num_round c a x k) (some (num_round c x k)) /\
  agrees c (m_num_trunc c a x k) (some (num_trunc c x k)) /\
  agrees c (m_num_ceil c a x) (some (num_ceil c x)) /\
  agrees c (m_num_floor c a x) (some (num_floor c x)).
Proof. exact unary_agrees. Qed.
Print Assumptions C87_machine_unary.

(** C87: hence the machine-level code itself is exact. *)
Theorem C87_machine_values : forall c (a : nat -> nat -> Z) x y q1 s1 q2 s2,
  stores (be_varlen c) x q1 s1 -> stores (be_varlen c) y q2 s2 ->
  (exists b o, m_checked_add c a x y = Ret b /\ shows c b o /\ result_of (be_varlen c) (q1 + q2) (Z.max s1 s2) o) /\
  (exists b o, m_checked_sub c a x y = Ret b /\ shows c b o /\ result_of (be_varlen c) (q1 - q2) (Z.max s1 s2) o) /\
  (s1 + s2 <= 16383 ->
   exists b o, m_checked_mul c a x y = Ret b /\ shows c b o /\ result_of (be_varlen c) (q1 * q2) (s1 + s2) o) /\
  (~ (q2 == 0)%Q ->
   (exists b o, m_checked_div_trunc c a x y = Ret b /\ shows c b o /\ result_of (be_varlen c) (inject_Z (trunc_int (q1 / q2))) 0 o) /\
   (exists b z, m_checked_rem c a x y = Ret b /\ shows c b (Some z) /\
      stores (be_varlen c) z (q1 - inject_Z (trunc_int (q1 / q2)) * q2) (Z.max s1 s2))) /\
  ((q2 == 0)%Q -> exists b, m_checked_div c a x y = Ret b /\ shows c b None).
Proof. exact values. Qed.
Print Assumptions C87_machine_values.

Theorem C87_machine_quotient : forall c (a : nat -> nat -> Z) n1 n2, canonical n1 -> canonical n2 -> ~ (value n2 == 0)%Q ->
  exists b o, m_checked_div c a (layout (be_varlen c) n1) (layout (be_varlen c) n2) = Ret b /\ shows c b o /\
    result_of (be_varlen c) (round_at (value n1 / value n2) (div_scale n1 n2)) (div_scale n1 n2) o.
Proof. exact quotient. Qed.
Print Assumptions C87_machine_quotient.

(** Non-vacuity: -12345.678, 9999.5 and 0.05 in memory full of 7s, long division included (two divisor digits). *)
Definition sevens2 : nat -> nat -> Z := fun _ _ => 7.
Example machine_meets : valid false (sample n_a) /\ valid false (sample n_c).
Proof. split; right; [exists (value n_a), (scale n_a)|exists (value n_c), (scale n_c)]; apply sample_stores; [exact n_a_canonical|exact n_c_canonical]. Qed.
Definition shown (m : outcome (option pbuf)) : outcome (option bytes) :=
  o <- m ;; match o with Some b => x <- as_bytes dbgc b ;; Ret (Some x) | None => Ret None end.
Example machine_add : shown (m_checked_add dbgc sevens2 (sample n_a) (sample n_c)) = Ret (Some (sample (Number true 0 3 [2346; 1780]))).
Proof. vm_compute. reflexivity. Qed.
Example machine_mul : shown (m_checked_mul dbgc sevens2 (sample n_a) (sample n_c)) = Ret (Some (sample (Number true 2 4 [1; 2345; 607; 1610]))).
Proof. vm_compute. reflexivity. Qed.
Example machine_div : exists z, shown (m_checked_div dbgc sevens2 (sample n_a) (sample n_c)) = Ret (Some z) /\
  checked_div dbgc (sample n_a) (sample n_c) = Ret (Some z).
Proof. eexists. split; vm_compute; reflexivity. Qed.
Example machine_rem : shown (m_checked_rem dbgc sevens2 (sample n_a) (sample n_c)) = Ret (Some (sample (Number true 0 3 [2346; 1780]))).
Proof. vm_compute. reflexivity. Qed.
(** the carry out of 9999.5 takes the spare word in front of the digits *)
Example machine_round : m_num_round dbgc sevens2 (sample n_c) 0 = Ret (Some (PBuf [7; 32; 0; -32767; 1; 0; 5000] 2)).
Proof. vm_compute. reflexivity. Qed.
Example machine_floor : shown (m_num_floor dbgc sevens2 (sample n_a)) = Ret (Some (sample (Number true 1 0 [1; 2346]))).
Proof. vm_compute. reflexivity. Qed.
Example machine_cmp : m_num_cmp dbgc (sample n_a) (sample n_c) = Ret Lt.
Proof. vm_compute. reflexivity. Qed.
