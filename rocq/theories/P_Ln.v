(** * Property theorems: accuracy of the natural logarithm (C64, C67, C70).

    These use the standard library's real numbers, and so rest on its axioms. [m] stands for the
    platform's f64::log10 and f64::ln; C64 assumes nothing of them, C67 and C70 that they are right to 10^-9.
    [fuel] bounds the loops, which the code leaves unbounded ([Diverge] is a run that needs more). *)
From Coq Require Import Reals Qreals ZArith QArith List Lia.
From Verif Require Import Base Var Binary Num Flt Transc Spec SpecApi SpecLn Digits Codec SqrtLoop Samples LnApi LnSig LnNear.
Import ListNotations.
Open Scope R_scope.

(** C64: ln of a positive number does not end, panics on an arithmetic overflow in a debug build, or
    returns the logarithm to within [ln_error], at a scale from the operand's (capped at 1000) to 1000 *)
Theorem C64_ln_accurate : forall c m fuel x q s, stores (be_varlen c) x q s -> (0 < q)%Q ->
  num_ln c m fuel x = Diverge \/
  (num_ln c m fuel x = Panic WArith /\ dbg c = true) \/
  (exists y r s', num_ln c m fuel x = Ret y /\ stores (be_varlen c) y r s' /\ (Z.min 1000 s <= s' <= 1000)%Z /\
     Rabs (Q2R r - ln (Q2R q)) <= ln_error s' (ln (Q2R q))).
Proof. exact ln_api. Qed.
Print Assumptions C64_ln_accurate.

(** C70: between 0.9 and 1.1 ln returns, within 505 rounds of its loops, in a release build; in a debug
    build too if the argument has at most 80 decimals *)
Theorem C70_ln_near_one : forall c m fuel x q s, logs_near (f_log10 m) (f_ln m) -> stores (be_varlen c) x q s ->
  ((9 # 10) < q < (11 # 10))%Q -> (505 <= Z.of_nat fuel)%Z -> (dbg c = true -> (s <= 80)%Z) ->
  exists y r s', num_ln c m fuel x = Ret y /\ stores (be_varlen c) y r s' /\ (Z.min 1000 s <= s' <= 1000)%Z /\
     Rabs (Q2R r - ln (Q2R q)) <= ln_error s' (ln (Q2R q)).
Proof. exact ln_near_one. Qed.
Print Assumptions C70_ln_near_one.

(** C67: the result of ln has at least fifteen significant digits, or a thousand decimals *)
Theorem C67_ln_digits : forall c m fuel x q s y, logs_near (f_log10 m) (f_ln m) -> stores (be_varlen c) x q s ->
  (0 < q)%Q -> ~ (q == 1)%Q -> num_ln c m fuel x = Ret y ->
  exists r s', stores (be_varlen c) y r s' /\ (s' = 1000%Z \/ 900000000000000 <= Rabs (ln (Q2R q)) * powerRZ 10 s').
Proof. exact ln_api_digits. Qed.
Print Assumptions C67_ln_digits.

(** ** The hypotheses are met *)
Open Scope Z_scope.
Definition n_two : number := Number false 0 0 [2].
Lemma n_two_canonical : canonical n_two. Proof. canonical_tac n_two 2. Qed.
(** ln 2 = 0.6931471805599453, a run with some libm *)
Definition ln_libm : libm := Libm (fun _ => 0%Q) (fun _ => (69 # 100)%Q) (fun _ => None).
Definition n_ln2 : number := Number false (-1) 16 [6931; 4718; 559; 9453].
Example ln_two : num_ln relc ln_libm 60 (sample n_two) = Ret (sample n_ln2).
Proof. vm_compute. reflexivity. Qed.

(** logarithms as C67 assumes them *)
Example logs_near_exist : exists lg lf, logs_near lg lf.
Proof. exists sample_log10, sample_ln. exact logs_near_sample. Qed.

(** and an argument in C70's range, 1.05, with two decimals *)
Definition n_105 : number := Number false 0 2 [1; 500].
Lemma n_105_canonical : canonical n_105. Proof. canonical_frac n_105 105. Qed.
Example near_one : stores false (sample n_105) (value n_105) 2 /\ ((9 # 10) < value n_105 < (11 # 10))%Q.
Proof. split; [exact (sample_stores _ n_105_canonical)|]. vm_compute. split; reflexivity. Qed.
