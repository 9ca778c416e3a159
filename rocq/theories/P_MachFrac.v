(** * Property theorems: powers with any exponent at the level of the machine (C93).

    [m] stands for the platform's f64::log10 and f64::ln ([log10_sound], [log10_fine], [ln_between], SpecLibm.v and SpecPow.v, for integer
    exponents; [logs_near], SpecLn.v, for others) and its text to f64 conversion, right to 10^-15 ([float_sound], SpecFloat.v).
    [fuel] bounds the loops, which the code leaves unbounded ([Diverge] is a run that needs more). [a] and [b] are what freshly
    allocated digit buffers contain. *)
From Coq Require Import Reals Qreals ZArith QArith Qabs List Lia Lra.
From Verif Require Import Base Var Binary Num Flt Transc Data Spec SpecApi SpecLibm SpecPow SpecLn SpecFloat SpecData SpecMach Samples LibmJoint
  Mach MachText MachFast MachSqrt MachPow MachFrac MachFracApi P_Mach P_Log P_Ln P_Pow P_PowFrac P_MachLn.
Import ListNotations.
Open Scope Z_scope.

(** C93: run statement by statement, with every i32, u32, usize operation checked (debug) or wrapping (release), every
    unchecked access required to be in bounds and digit buffers of arbitrary initial content, pow does what the model on lists
    does: the same panic, nothing where it gives up, a buffer that shows the same bytes, or both need more than [fuel] rounds.
    Any two valid numerics; but if the exponent is neither NaN nor an integer of type i32, the base must be NaN, one,
    or not within 10^-990 of one. *)
Theorem C93_machine_pow : forall c (a : nat -> nat -> Z) (b : nat -> nat -> nat -> nat -> Z) m fuel x e,
  log10_sound (f_log10 m) -> log10_fine (f_log10 m) -> ln_between (f_ln m) -> logs_near (f_log10 m) (f_ln m) -> float_sound m -> 4000 <= Z.of_nat fuel ->
  valid (be_varlen c) x -> valid (be_varlen c) e ->
  (forall q s p se, stores (be_varlen c) x q s -> stores (be_varlen c) e p se -> (forall n, (p == inject_Z n)%Q -> ~ (-2147483648 <= n < 2147483648)) ->
     (q == 1)%Q \/ (ten ^ (-990) <= Qabs (q - 1))%Q) ->
  agrees_run c (m_num_pow c a m (m_power_frac c b m fuel) x e) (num_pow c m fuel x e).
Proof. exact pow_all_agrees. Qed.
Print Assumptions C93_machine_pow.

(** hence the machine's fractional powers are as accurate as C78 says *)
Theorem C93_machine_pow_fraction_accurate : forall c (a : nat -> nat -> Z) (b : nat -> nat -> nat -> nat -> Z) m fuel x q s e p se,
  logs_near (f_log10 m) (f_ln m) -> float_sound m ->
  stores (be_varlen c) x q s -> stores (be_varlen c) e p se -> (0 < q)%Q -> (ten ^ (-990) <= Qabs (q - 1))%Q ->
  (forall n, (p == inject_Z n)%Q -> ~ (-2147483648 <= n < 2147483648)) -> 4000 <= Z.of_nat fuel ->
  (powerRZ 10 (-1000) <= Rpower (Q2R q) (Q2R p) <= powerRZ 10 2600)%R ->
  let o := m_num_pow c a m (m_power_frac c b m fuel) x e in
  o = Diverge \/ (o = Panic WArith /\ dbg c = true) \/
  (exists u z r s', o = Ret (Some u) /\ shows c (Some u) (Some z) /\ stores (be_varlen c) z r s' /\ Z.min 1000 (Z.max s se) <= s' <= 1000 /\
     (Rabs (Q2R r - Rpower (Q2R q) (Q2R p)) <= 58 / 100 * powerRZ 10 (- s'))%R).
Proof. exact machine_pow_fraction. Qed.
Print Assumptions C93_machine_pow_fraction_accurate.

(** and it refuses where C79 says *)
Theorem C93_machine_pow_fraction_refuses : forall c (a : nat -> nat -> Z) (b : nat -> nat -> nat -> nat -> Z) m fuel x q s e p se,
  logs_near (f_log10 m) (f_ln m) -> float_sound m ->
  stores (be_varlen c) x q s -> stores (be_varlen c) e p se -> (0 < q)%Q -> (ten ^ (-990) <= Qabs (q - 1))%Q ->
  (forall n, (p == inject_Z n)%Q -> ~ (-2147483648 <= n < 2147483648)) -> 4000 <= Z.of_nat fuel ->
  (powerRZ 10 2610 <= Rpower (Q2R q) (Q2R p) \/ Rpower (Q2R q) (Q2R p) <= powerRZ 10 (-2620))%R ->
  let o := m_num_pow c a m (m_power_frac c b m fuel) x e in
  o = Diverge \/ (o = Panic WArith /\ dbg c = true) \/ o = Ret None.
Proof. exact machine_pow_refuses. Qed.
Print Assumptions C93_machine_pow_fraction_refuses.

(** a negative base with an integer exponent outside i32 (C62): in debug builds a panic, in release builds no result ever, and
    never undefined behaviour *)
Theorem C93_machine_pow_negative_beyond : forall c (a : nat -> nat -> Z) (b : nat -> nat -> nat -> nat -> Z) m fuel x q s e n se,
  logs_near (f_log10 m) (f_ln m) -> float_sound m -> 4000 <= Z.of_nat fuel ->
  stores (be_varlen c) x q s -> (q < 0)%Q -> stores (be_varlen c) e (inject_Z n) se -> ~ (-2147483648 <= n < 2147483648) ->
  let o := m_num_pow c a m (m_power_frac c b m fuel) x e in
  (dbg c = true -> exists w, o = Panic w) /\ (dbg c = false -> o = Diverge \/ exists w, o = Panic w).
Proof. exact machine_pow_beyond. Qed.
Print Assumptions C93_machine_pow_negative_beyond.

(** Non-vacuity: one platform meets everything assumed; the bases 2, 1, 0 and -2.00 are allowed with the exponent 0.05; and runs in memory full of 7s *)
Example machine_frac_platform : exists m, log10_sound (f_log10 m) /\ log10_fine (f_log10 m) /\ ln_between (f_ln m) /\ logs_near (f_log10 m) (f_ln m) /\ float_sound m.
Proof.
  destruct joint_platform_exists as (lg & lf & A & B & C & D), float_sound_exists as (m & [F1 F2 F3]).
  exists (Libm lg lf (f_of_var m)). repeat (split; [assumption|]). constructor; assumption.
Qed.
Example machine_frac_meets : valid false (sample P_Ln.n_two) /\ valid false (sample n_b) /\
  (0 < value P_Ln.n_two)%Q /\ (ten ^ (-990) <= Qabs (value P_Ln.n_two - 1))%Q /\ (value P_Pow.n_m2 < 0)%Q /\ (forall z, ~ (value n_b == inject_Z z)%Q).
Proof.
  split; [exact (number_valid false P_Ln.n_two P_Ln.n_two_canonical)|]. split; [exact (number_valid false n_b n_b_canonical)|]. split; [reflexivity|]. split.
  - apply (Qle_trans _ (ten ^ 0)); [apply (Verif.QDec.p10_le (-990) 0); lia|]. vm_compute. discriminate.
  - split; [reflexivity|]. intros z H. assert (E : (value n_b == 1 # 20)%Q) by (vm_compute; reflexivity). rewrite E in H. unfold Qeq in H. cbn in H. lia.
Qed.
Definition sevens4 : nat -> nat -> nat -> nat -> Z := fun _ _ _ _ => 7.
(** 2^0.5 = 1.4142135623730950 *)
Example machine_root_two : shown (m_num_pow relc sevens2 pow_libm (m_power_frac relc sevens4 pow_libm 60) (sample P_Ln.n_two) (sample n_half)) =
  Ret (Some (sample n_root2)).
Proof. vm_compute. reflexivity. Qed.
(** 1^0.05 = 1, 0^0.05 = 0, (-2)^0.05 panics *)
Example machine_frac_one : shown (m_num_pow dbgc sevens2 pow_libm (m_power_frac dbgc sevens4 pow_libm 60) (sample n_one) (sample n_b)) =
  Ret (Some (sample (Number false 0 16 [1]))).
Proof. vm_compute. reflexivity. Qed.
Example machine_frac_zero : shown (m_num_pow dbgc sevens2 pow_libm (m_power_frac dbgc sevens4 pow_libm 60) (sample n_zero) (sample n_b)) =
  Ret (Some (sample (Number false 0 16 []))).
Proof. vm_compute. reflexivity. Qed.
Example machine_frac_neg : m_num_pow relc sevens2 pow_libm (m_power_frac relc sevens4 pow_libm 60) (sample P_Pow.n_m2) (sample n_b) = Panic (WMsg MNegPowFrac).
Proof. vm_compute. reflexivity. Qed.
(** (-2.00)^3000000000: an integer outside i32; a panic in debug builds, in release builds still no result after 6 rounds *)
Example machine_beyond_meets : stores false (sample P_Pow.n_m2) (inject_Z (-2)) 2 /\ stores false (sample P_Pow.n_3e9) (inject_Z 3000000000) 0 /\
  ~ (-2147483648 <= 3000000000 < 2147483648).
Proof. split; [exact (sample_stores P_Pow.n_m2 P_Pow.n_m2_canonical)|]. split; [exact (sample_stores P_Pow.n_3e9 P_Pow.n_3e9_canonical)|lia]. Qed.
Example machine_beyond_debug : m_num_pow dbgc sevens2 pow_libm (m_power_frac dbgc sevens4 pow_libm 40) (sample P_Pow.n_m2) (sample P_Pow.n_3e9) = Panic WAssert.
Proof. vm_compute. reflexivity. Qed.
Example machine_beyond_release : m_num_pow relc sevens2 pow_libm (m_power_frac relc sevens4 pow_libm 6) (sample P_Pow.n_m2) (sample P_Pow.n_3e9) = Diverge.
Proof. vm_compute. reflexivity. Qed.
