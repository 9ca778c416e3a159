(** * Property theorems: the exponential at the level of the machine (C92).

    [m] stands for the platform's text to f64 conversion, right to 10^-15 ([float_sound], SpecFloat.v). [fuel] bounds the loops,
    which the code leaves unbounded: 4000 rounds are enough for every argument. [b] is what freshly allocated digit buffers contain. *)
From Coq Require Import Reals Qreals ZArith QArith Qabs List Lia.
From Verif Require Import Base Var Binary Num Flt Transc Data Spec SpecApi SpecFloat SpecData SpecMach Samples
  Mach MachText MachFast MachSqrt MachExp MachExpApi P_Mach P_Log P_Ln P_Exp P_MachLn.
Import ListNotations.
Open Scope Z_scope.

(** C92: run statement by statement, with every i32, u32, usize operation checked (debug) or wrapping (release), every
    unchecked access required to be in bounds and digit buffers of arbitrary initial content, exp does what the model on lists
    does: the same panic, nothing where it gives up, or a buffer that shows the same bytes. *)
Theorem C92_machine_exp : forall c (b : nat -> nat -> nat -> Z) m fuel x, float_sound m -> 4000 <= Z.of_nat fuel -> valid (be_varlen c) x ->
  agrees c (m_num_exp c b m fuel x) (num_exp c m fuel x).
Proof. exact exp_agrees. Qed.
Print Assumptions C92_machine_exp.

(** hence the machine's exponential is as accurate as C68 says, in every build, and never panics below 6000 *)
Theorem C92_machine_exp_accurate : forall c (b : nat -> nat -> nat -> Z) m fuel x q s, float_sound m -> stores (be_varlen c) x q s ->
  (Qabs q < 6000)%Q -> 4000 <= Z.of_nat fuel ->
  (m_num_exp c b m fuel x = Ret None /\ (6000 - / 100000000000 <= Rabs (Q2R q))%R) \/
  (exists u y r s', m_num_exp c b m fuel x = Ret (Some u) /\ shows c (Some u) (Some y) /\ stores (be_varlen c) y r s' /\ Z.min 1000 s <= s' <= 1000 /\
     (Rabs (Q2R r - exp (Q2R q)) <= 504 / 1000 * powerRZ 10 (- s'))%R).
Proof. exact machine_exp_accurate. Qed.
Print Assumptions C92_machine_exp_accurate.

(** from 6000 on, in either direction, it gives up *)
Theorem C92_machine_exp_gives_up : forall c (b : nat -> nat -> nat -> Z) m fuel x q s, float_sound m -> stores (be_varlen c) x q s ->
  (6000 <= Qabs q)%Q -> 4000 <= Z.of_nat fuel -> m_num_exp c b m fuel x = Ret None.
Proof. exact machine_exp_big. Qed.
Print Assumptions C92_machine_exp_gives_up.

(** Non-vacuity: platforms as assumed exist ([float_sound_exists], P_Log.v); the argument is valid; and e comes out in memory full of 7s *)
Example machine_exp_meets : valid false (sample n_one) /\ valid false (sample n_m6000).
Proof. split; [exact (number_valid false n_one n_one_canonical)|exact (number_valid false n_m6000 n_m6000_canonical)]. Qed.
Example machine_exp_one : shown (m_num_exp relc sevens3 exact_libm 60 (sample n_one)) = Ret (Some (sample n_e)).
Proof. vm_compute. reflexivity. Qed.
Example machine_exp_6000 : m_num_exp dbgc sevens3 exact_libm 60 (sample n_m6000) = Ret None.
Proof. vm_compute. reflexivity. Qed.
Example machine_exp_nan : shown (m_num_exp dbgc sevens3 exact_libm 60 (nan_layout false)) = Ret (Some (nan_layout false)).
Proof. vm_compute. reflexivity. Qed.
