(** * Property theorems: logarithms at the level of the machine (C91).

    [m] stands for the platform's f64::log10 and f64::ln; for ln nothing is assumed of them, for log, log2 and log10 that they are
    right to 10^-9 ([logs_near], SpecLn.v). [fuel] bounds the loops, which the code leaves unbounded ([Diverge] is a run that
    needs more). [b] is what freshly allocated digit buffers contain. *)
From Coq Require Import Reals Qreals ZArith QArith Qabs List Lia.
From Verif Require Import Base Var Binary Num Flt Transc Data Spec SpecApi SpecLn SpecData SpecMach Samples LnSig
  Mach MachText MachFast MachLn MachSqrt MachLnApi P_Mach P_Ln P_LogBase.
Import ListNotations.
Open Scope Z_scope.

(** C91: run statement by statement, with every i32, u32, usize operation checked (debug) or wrapping (release), every
    unchecked access required to be in bounds and digit buffers of arbitrary initial content, ln does what the model on lists
    does: the same panic, a buffer that shows the same bytes, or both need more than [fuel] rounds. *)
Theorem C91_machine_ln : forall c (b : nat -> nat -> nat -> Z) m fuel x, valid (be_varlen c) x ->
  agrees_run c (some_buf (m_num_ln c b m fuel x)) (some (num_ln c m fuel x)).
Proof. exact ln_agrees. Qed.
Print Assumptions C91_machine_ln.

(** log too, the base not within 10^-1980 of one (or NaN) *)
Theorem C91_machine_log : forall c (b : nat -> nat -> nat -> nat -> Z) m fuel x y, logs_near (f_log10 m) (f_ln m) -> valid (be_varlen c) x ->
  stores_nan (be_varlen c) y \/ (exists p s, stores (be_varlen c) y p s /\ (ten ^ (-1980) <= Qabs (p - 1))%Q) ->
  agrees_run c (some_buf (m_num_log c b m fuel x y)) (some (num_log c m fuel x y)).
Proof. exact log_agrees. Qed.
Print Assumptions C91_machine_log.

Theorem C91_machine_log2_log10 : forall c (b : nat -> nat -> nat -> nat -> Z) m fuel x, logs_near (f_log10 m) (f_ln m) -> valid (be_varlen c) x ->
  agrees_run c (some_buf (m_num_log2 c b m fuel x)) (some (num_log2 c m fuel x)) /\
  agrees_run c (some_buf (m_num_log10 c b m fuel x)) (some (num_log10 c m fuel x)).
Proof. exact log_const_agrees. Qed.
Print Assumptions C91_machine_log2_log10.

(** hence the machine's logarithms are as accurate as C64 and C75 say *)
Theorem C91_machine_ln_accurate : forall c (b : nat -> nat -> nat -> Z) m fuel x q s, stores (be_varlen c) x q s -> (0 < q)%Q ->
  m_num_ln c b m fuel x = Diverge \/ (m_num_ln c b m fuel x = Panic WArith /\ dbg c = true) \/
  (exists u y r s', m_num_ln c b m fuel x = Ret u /\ shows c (Some u) (Some y) /\ stores (be_varlen c) y r s' /\ Z.min 1000 s <= s' <= 1000 /\
     (Rabs (Q2R r - ln (Q2R q)) <= ln_error s' (ln (Q2R q)))%R).
Proof. exact machine_ln_accurate. Qed.
Print Assumptions C91_machine_ln_accurate.

Theorem C91_machine_log_accurate : forall c (b : nat -> nat -> nat -> nat -> Z) m fuel x q s y p sb, logs_near (f_log10 m) (f_ln m) ->
  stores (be_varlen c) x q s -> stores (be_varlen c) y p sb ->
  (0 < q)%Q -> (0 < p)%Q -> ((q == 1)%Q \/ (ten ^ (-990) <= Qabs (q - 1))%Q) -> (ten ^ (-1980) <= Qabs (p - 1))%Q ->
  m_num_log c b m fuel x y = Diverge \/ (m_num_log c b m fuel x y = Panic WArith /\ dbg c = true) \/
  (exists u z r s', m_num_log c b m fuel x y = Ret u /\ shows c (Some u) (Some z) /\ stores (be_varlen c) z r s' /\
     Z.min 1000 (Z.max s sb) <= s' <= 1000 /\ (Rabs (Q2R r - ln (Q2R q) / ln (Q2R p)) <= 505 / 1000 * powerRZ 10 (- s'))%R).
Proof. exact machine_log_accurate. Qed.
Print Assumptions C91_machine_log_accurate.

Theorem C91_machine_log2_log10_accurate : forall c (b : nat -> nat -> nat -> nat -> Z) m fuel x q s, logs_near (f_log10 m) (f_ln m) ->
  stores (be_varlen c) x q s -> (0 < q)%Q -> ((q == 1)%Q \/ (ten ^ (-990) <= Qabs (q - 1))%Q) ->
  (m_num_log2 c b m fuel x = Diverge \/ (m_num_log2 c b m fuel x = Panic WArith /\ dbg c = true) \/
   (exists u y r s', m_num_log2 c b m fuel x = Ret u /\ shows c (Some u) (Some y) /\ stores (be_varlen c) y r s' /\ Z.min 1000 s <= s' <= 1000 /\
      (Rabs (Q2R r - ln (Q2R q) / ln (Q2R 2)) <= 505 / 1000 * powerRZ 10 (- s'))%R)) /\
  (m_num_log10 c b m fuel x = Diverge \/ (m_num_log10 c b m fuel x = Panic WArith /\ dbg c = true) \/
   (exists u y r s', m_num_log10 c b m fuel x = Ret u /\ shows c (Some u) (Some y) /\ stores (be_varlen c) y r s' /\ Z.min 1000 s <= s' <= 1000 /\
      (Rabs (Q2R r - ln (Q2R q) / ln (Q2R 10)) <= 505 / 1000 * powerRZ 10 (- s'))%R)).
Proof. exact machine_log_const_accurate. Qed.
Print Assumptions C91_machine_log2_log10_accurate.

(** Non-vacuity: platforms as assumed exist ([logs_near_exist], P_Ln.v); the arguments are valid; and ln 2 comes out in memory full of 7s *)
Example machine_ln_meets : valid false (sample n_two) /\ valid false (sample n_105).
Proof. split; [exact (number_valid false n_two n_two_canonical)|exact (number_valid false n_105 n_105_canonical)]. Qed.
Definition sevens3 : nat -> nat -> nat -> Z := fun _ _ _ => 7.
Example machine_ln_two : shown (some_buf (m_num_ln relc sevens3 ln_libm 60 (sample n_two))) = Ret (Some (sample n_ln2)).
Proof. vm_compute. reflexivity. Qed.
(** ln of zero panics, log2 of a negative number too; a NaN base gives NaN *)
Example machine_ln_zero : m_num_ln dbgc sevens3 ln_libm 60 (sample (Number false 0 0 [])) = Panic (WMsg MLogZero).
Proof. vm_compute. reflexivity. Qed.
Example machine_log2_neg : m_num_log2 relc (fun _ => sevens3) log_libm 60 (sample n_a) = Panic (WMsg MLogNeg).
Proof. vm_compute. reflexivity. Qed.
Example machine_log_nan : shown (some_buf (m_num_log dbgc (fun _ => sevens3) log_libm 60 (sample n_a) (nan_layout false))) = Ret (Some (nan_layout false)).
Proof. vm_compute. reflexivity. Qed.
(** 2 and 10 are far enough from one for a base, and 2 for a number *)
Example machine_log_meets : (ten ^ (-1980) <= Qabs (value n_two - 1))%Q.
Proof. apply (Qle_trans _ (ten ^ 0)); [apply (Verif.QDec.p10_le (-1980) 0); lia|]. vm_compute. discriminate. Qed.
