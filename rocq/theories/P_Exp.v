(** * Property theorems: accuracy of the exponential (C68, C69).

    These use the standard library's real numbers, and so rest on its axioms. [m] stands for the
    platform's text to f64 conversion, right to 10^-15 ([float_sound], SpecFloat.v). [fuel] bounds the
    loops, which the code leaves unbounded: 4000 rounds are enough for every argument. *)
From Coq Require Import Reals Qreals ZArith QArith Qabs List Lia.
From Verif Require Import Base Var Binary Num Flt Transc Spec SpecApi SpecFloat Digits Codec SqrtLoop Samples ExpFin P_Log P_Ln.
Import ListNotations.
Open Scope R_scope.

(** C68: below 6000 in magnitude exp returns the exponential to within 504/1000 of a unit in the last
    place, in every build and for every scale; within 10^-11 of 6000 it may give up instead *)
Theorem C68_exp_accurate : forall c m fuel x q s, float_sound m -> stores (be_varlen c) x q s -> (Qabs q < 6000)%Q ->
  (4000 <= Z.of_nat fuel)%Z ->
  (num_exp c m fuel x = Ret None /\ 6000 - / 100000000000 <= Rabs (Q2R q)) \/
  (exists y r s', num_exp c m fuel x = Ret (Some y) /\ stores (be_varlen c) y r s' /\ (Z.min 1000 s <= s' <= 1000)%Z /\
     Rabs (Q2R r - exp (Q2R q)) <= 504 / 1000 * powerRZ 10 (- s')).
Proof.
  intros c m fuel x q s FS H Q Hf. destruct (exp_api c m fuel x q s FS H Q Hf) as [G|(y & r & s' & E & S & B & A & _)]; [now left|right].
  now exists y, r, s'.
Qed.
Print Assumptions C68_exp_accurate.

(** C69: and the result has at least fifteen significant digits, or a thousand decimals *)
Theorem C69_exp_digits : forall c m fuel x q s y, float_sound m -> stores (be_varlen c) x q s -> (Qabs q < 6000)%Q ->
  (4000 <= Z.of_nat fuel)%Z -> num_exp c m fuel x = Ret (Some y) ->
  exists r s', stores (be_varlen c) y r s' /\ (s' = 1000%Z \/ 900000000000000 <= exp (Q2R q) * powerRZ 10 s').
Proof.
  intros c m fuel x q s y FS H Q Hf E. destruct (exp_api c m fuel x q s FS H Q Hf) as [[G _]|(y' & r & s' & E' & S & _ & _ & A)]; [congruence|].
  exists r, s'. replace y with y' by congruence. now split.
Qed.
Print Assumptions C69_exp_digits.

(** ** The hypotheses are met *)
Open Scope Z_scope.
(** e = 2.7182818284590452 and e^-2 = 0.1353352832366127 *)
Definition n_e : number := Number false 0 16 [2; 7182; 8182; 8459; 452].
Example exp_one : num_exp relc exact_libm 60 (sample n_one) = Ret (Some (sample n_e)).
Proof. vm_compute. reflexivity. Qed.
Definition n_m2 : number := Number true 0 0 [2].
Definition n_em2 : number := Number false (-1) 16 [1353; 3528; 3236; 6127].
Example exp_m2 : num_exp dbgc exact_libm 60 (sample n_m2) = Ret (Some (sample n_em2)).
Proof. vm_compute. reflexivity. Qed.
