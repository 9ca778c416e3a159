(** * Property theorems: logarithms and exponential, NaN, domain and trivial values (C14, C50, C56).

    [m] stands for the platform's f64::log10, f64::ln and text to f64 conversion; nothing is assumed
    of it except where [float_sound m] (SpecFloat.v) appears. [fuel] bounds the loops, which the code
    leaves unbounded. *)
From Coq Require Import ZArith QArith Qabs List Bool Lia Lqa.
From Verif Require Import Base Var Binary Num Flt Transc Spec SpecApi SpecFloat Digits Codec Make SqrtLoop Samples LogApi ExpApi.
Import ListNotations.
Open Scope Z_scope.

(** C14: the approximate functions return NaN on NaN (pow: C51_pow_nan) *)
Theorem C14_nan_transcendental : forall c m fuel x y, stores_nan (be_varlen c) x -> valid (be_varlen c) y ->
  num_sqrt c fuel x = Ret x /\ num_ln c m fuel x = Ret x /\ num_log2 c m fuel x = Ret x /\ num_log10 c m fuel x = Ret x /\
  num_exp c m fuel x = Ret (Some x) /\ num_log c m fuel x y = Ret x /\ num_log c m fuel y x = Ret x.
Proof.
  intros c m fuel x y -> V. destruct (nan_log c m fuel y) as (A & B & C & D & E & F).
  split; [exact A|]. split; [exact B|]. split; [exact C|]. split; [exact D|]. split; [exact E|]. split; [exact F|]. now apply nan_log_base.
Qed.
Print Assumptions C14_nan_transcendental.

(** C50: logarithms of zero and of negative numbers, and to such bases *)
Theorem C50_ln_domain : forall c m fuel x q s, stores (be_varlen c) x q s -> (q <= 0)%Q ->
  let message := if Qeq_bool q 0 then MLogZero else MLogNeg in
  num_ln c m fuel x = Panic (WMsg message) /\ num_log2 c m fuel x = Panic (WMsg message) /\
  num_log10 c m fuel x = Panic (WMsg message).
Proof. exact ln_api_domain. Qed.
Print Assumptions C50_ln_domain.

Theorem C50_log_domain : forall c m fuel x q s b p sb, stores (be_varlen c) x q s -> stores (be_varlen c) b p sb ->
  (q <= 0)%Q \/ (p <= 0)%Q ->
  num_log c m fuel x b =
    Panic (WMsg (if Qlt_le_dec 0 q then if Qeq_bool p 0 then MLogZero else MLogNeg
                 else if Qeq_bool q 0 then MLogZero else MLogNeg)).
Proof. exact log_api_domain. Qed.
Print Assumptions C50_log_domain.

(** C50: a logarithm to base one never returns *)
Theorem C50_log_base_one : forall c m fuel x b sb y, valid (be_varlen c) x -> stores (be_varlen c) b 1 sb ->
  ~ stores_nan (be_varlen c) x -> num_log c m fuel x b <> Ret y.
Proof. exact log_api_base_one. Qed.
Print Assumptions C50_log_base_one.

(** C50: ln 1 = 0, exp 0 = 1, at 16 decimals or the operand's scale, at most 1000 *)
Theorem C50_ln_one : forall c m f x s, stores (be_varlen c) x 1 s ->
  exists y, num_ln c m (S f) x = Ret y /\ stores (be_varlen c) y 0 (Z.min 1000 (Z.max 16 s)).
Proof. exact ln_api_one. Qed.
Print Assumptions C50_ln_one.

Theorem C50_exp_zero : forall c m f x s, float_sound m -> stores (be_varlen c) x 0 s ->
  exists y, num_exp c m (S f) x = Ret (Some y) /\ stores (be_varlen c) y 1 (Z.min 1000 (Z.max 16 s)).
Proof. exact exp_api_zero. Qed.
Print Assumptions C50_exp_zero.

(** C56: not so: exp gives up on every number from 6000 on in magnitude, negative ones included *)
Definition n_m6000 : number := Number true 0 0 [6000].
Lemma n_m6000_canonical : canonical n_m6000. Proof. canonical_tac n_m6000 (-6000). Qed.

Theorem C56_exp_gives_up : forall c m fuel x q s, float_sound m -> stores (be_varlen c) x q s -> (6000 <= Qabs q)%Q ->
  num_exp c m fuel x = Ret None.
Proof. exact exp_api_big. Qed.
Print Assumptions C56_exp_gives_up.

Theorem C56_exp_negative_refuted : exists x, stores false x (inject_Z (-6000)) 0 /\
  forall c m fuel, be_varlen c = false -> float_sound m -> num_exp c m fuel x = Ret None.
Proof.
  exists (sample n_m6000). pose proof (sample_stores n_m6000 n_m6000_canonical) as S.
  split; [exact S|]. intros c m fuel BE FS. apply (exp_api_big c m fuel _ (inject_Z (-6000)) 0 FS); [now rewrite BE|]. vm_compute. discriminate.
Qed.
Print Assumptions C56_exp_negative_refuted.

(** The assumption can be met: a conversion without error. *)
Example float_sound_exists : exists m, float_sound m.
Proof.
  exists (Libm (fun _ => 0%Q) (fun _ => 0%Q) (fun v => Some (vval v))). constructor; cbn [f_of_var].
  - intros v n _ _ _ V _. exists (vval v). now split.
  - intros v _ _ _ _. exists (vval v). split; [reflexivity|]. setoid_replace (vval v - vval v)%Q with 0%Q by ring. change (Qabs 0) with 0%Q.
    pose proof (Qabs_nonneg (vval v)) as A.
    assert (P1 : (0 < ten ^ (-15))%Q) by reflexivity. assert (P2 : (0 < ten ^ (-300))%Q) by apply QDec.p10_pos.
    pose proof (Qmult_le_0_compat _ _ A (Qlt_le_weak _ _ P1)). lra.
  - intros v k _ _ _ _ H. exists (vval v). now split.
Qed.

(** Runs: ln(0), ln(-12345.678), log of 0.05 to base 0, to base 1, ln(1), exp(0), exp(-6000) *)
Definition exact_libm : libm := Libm (fun _ => 0%Q) (fun _ => 0%Q) (fun v => Some (vval v)).
Definition n_one : number := Number false 0 0 [1].
Lemma n_one_canonical : canonical n_one. Proof. canonical_tac n_one 1. Qed.
Example C50_runs :
  num_ln dbgc exact_libm 9 (sample n_zero) = Panic (WMsg MLogZero) /\
  num_log10 dbgc exact_libm 9 (sample n_a) = Panic (WMsg MLogNeg) /\
  num_log relc exact_libm 9 (sample n_b) (sample n_zero) = Panic (WMsg MLogZero) /\
  num_ln dbgc exact_libm 1 (sample n_one) = Ret (layout false (Number false 0 16 [])) /\
  num_exp dbgc exact_libm 1 (sample n_zero) = Ret (Some (layout false (Number false 0 16 [1]))) /\
  num_exp dbgc exact_libm 0 (sample n_m6000) = Ret None.
Proof. vm_compute. repeat split. Qed.
(** log(0.99, 1) divides by zero *)
Definition n_99 : number := Number false (-1) 2 [9900].
Lemma n_99_canonical : canonical n_99. Proof. canonical_tac n_99 99. Qed.
Example C50_base_one_runs : num_log relc exact_libm 30 (sample n_99) (sample n_one) = Panic (WMsg MDivZero).
Proof. vm_compute. reflexivity. Qed.
