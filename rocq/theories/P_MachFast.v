(** * Property theorems: square root at the level of the machine (C89) *)
From Coq Require Import ZArith QArith Qabs List Bool Lia.
From Verif Require Import Base Var Binary Parse Num Flt Transc Data Spec SpecApi SpecData SpecMach SpecRoot Samples
  Mach MachFast MachDivFast MachSqrt SqrtLoop P_Mach P_Sqrt.
Import ListNotations.
Open Scope Z_scope.

(** C89: run statement by statement, with every i16, i32, u32, usize operation checked (debug) or wrapping (release),
    every unchecked access required to be in bounds, and digit buffers of arbitrary initial content, the square root
    does what the model on lists does: the same panic, a buffer that shows the same bytes, or neither ends. *)
Theorem C89_machine_sqrt : forall c (a : nat -> nat -> Z) fuel x, valid (be_varlen c) x ->
  agrees_run c (some_buf (m_num_sqrt c a fuel x)) (some (num_sqrt c fuel x)).
Proof. exact sqrt_agrees. Qed.
Print Assumptions C89_machine_sqrt.

(** hence a root returned is within half a unit of its last place (and 2 hundred-millionths) of the true root *)
Theorem C89_machine_sqrt_accurate : forall c (a : nat -> nat -> Z) fuel n b, canonical n -> (0 < value n)%Q ->
  m_num_sqrt c a fuel (layout (be_varlen c) n) = Ret b ->
  exists x q, shows c (Some b) (Some x) /\ stores (be_varlen c) x q (root_scale n) /\ close_root (value n) q (root_error (root_scale n)).
Proof. exact machine_sqrt_accurate. Qed.
Print Assumptions C89_machine_sqrt_accurate.

(** and a root is returned, from 10^-2016 on, when no overflow check can fail and the root is not close to a quarter *)
Theorem C89_machine_sqrt_returns : forall c (a : nat -> nat -> Z) fuel n, canonical n -> (ten ^ (-2016) <= value n)%Q ->
  dbg c = false \/ ((value n < ten ^ 32)%Q /\ scale n <= 56) -> ~ near_quarter n -> 270000 <= Z.of_nat fuel ->
  exists b x q, m_num_sqrt c a fuel (layout (be_varlen c) n) = Ret b /\ shows c (Some b) (Some x) /\
    stores (be_varlen c) x q (root_scale n) /\ close_root (value n) q (root_error (root_scale n)).
Proof. exact machine_sqrt_returns. Qed.
Print Assumptions C89_machine_sqrt_returns.

(** perfect squares: exactly *)
Theorem C89_machine_sqrt_square : forall c (a : nat -> nat -> Z) n b, canonical n -> (0 < b)%Q -> (value n == b * b)%Q ->
  (exists k : Z, (b * ten ^ root_scale n == inject_Z k)%Q) ->
  dbg c = false \/ ((value n < ten ^ 32)%Q /\ scale n <= 56) ->
  exists k, forall fuel, (k <= fuel)%nat ->
  exists r x, m_num_sqrt c a fuel (layout (be_varlen c) n) = Ret r /\ shows c (Some r) (Some x) /\ stores (be_varlen c) x b (root_scale n).
Proof. exact machine_sqrt_square. Qed.
Print Assumptions C89_machine_sqrt_square.

(** Non-vacuity: 2.25 and 9999.5, in memory full of 7s; the first in both profiles and the second after too few iterations *)
Example machine_sqrt_case : shown (some_buf (m_num_sqrt dbgc sevens2 20 (sample n_sq))) = Ret (Some (sample (Number false 0 15 [1; 5000]))).
Proof. vm_compute. reflexivity. Qed.
Example machine_sqrt_release : shown (some_buf (m_num_sqrt relc sevens2 20 (sample n_sq))) = Ret (Some (sample (Number false 0 15 [1; 5000]))).
Proof. vm_compute. reflexivity. Qed.
Example machine_sqrt_other : shown (some_buf (m_num_sqrt dbgc sevens2 20 (sample n_c))) =
  Ret (Some (sample (Number false 0 15 [99; 9974; 9996; 8749; 2190]))).
Proof. vm_compute. reflexivity. Qed.
Example machine_sqrt_short : m_num_sqrt dbgc sevens2 3 (sample n_c) = Diverge.
Proof. vm_compute. reflexivity. Qed.
Example machine_sqrt_neg : m_num_sqrt dbgc sevens2 3 (sample n_a) = Panic (WMsg MSqrtNeg).
Proof. vm_compute. reflexivity. Qed.
(** C55's operand: the overflow check of the fast division *)
Example machine_sqrt_overflow : forall fuel be, m_num_sqrt (Cfg true be) sevens2 (2 + fuel) (layout be n_ovf) = Panic WArith.
Proof.
  intros fuel be. pose proof (C89_machine_sqrt (Cfg true be) sevens2 (2 + fuel) (layout be n_ovf) (number_valid be n_ovf n_ovf_canonical)) as A.
  unfold some in A. rewrite (sqrt_ovf be fuel : num_sqrt (Cfg true be) (2 + fuel) (layout be n_ovf) = Panic WArith) in A.
  destruct A as [A|[_ A]]; [|discriminate]. unfold some_buf in A.
  destruct (m_num_sqrt (Cfg true be) sevens2 (2 + fuel) (layout be n_ovf)); cbn in A; try contradiction. now subst.
Qed.
