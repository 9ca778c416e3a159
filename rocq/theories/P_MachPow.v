(** * Property theorems: integer powers and scientific notation at the level of the machine (C90).

    [m] stands for the platform's f64::log10 and f64::ln; [log10_sound], [log10_fine] and [ln_between] (SpecLibm.v, SpecPow.v)
    are all that is assumed of them. *)
From Coq Require Import ZArith QArith Qabs Qpower List Bool Lia.
From Verif Require Import Base Var Binary Parse Num Flt Transc Data Spec SpecApi SpecText SpecLibm SpecPow SpecData SpecMach Samples LibmSample
  Mach MachText MachFast MachPow MachSqrt MachPowApi PowApi PowAcc P_Mach P_Sci P_Pow.
Import ListNotations.
Open Scope Z_scope.

(** C90: run statement by statement, with every i32, u32, usize operation checked (debug) or wrapping (release), every
    unchecked access required to be in bounds and digit buffers of arbitrary initial content, a power with an integer
    exponent of type i32, or NaN, does what the model on lists does: the same panic, or a buffer that shows the same bytes.
    [frac], what the code does with other exponents, is not reached. *)
Theorem C90_machine_pow : forall c (a : nat -> nat -> Z) m frac fuel x e,
  log10_sound (f_log10 m) -> log10_fine (f_log10 m) -> ln_between (f_ln m) -> valid (be_varlen c) x ->
  stores_nan (be_varlen c) e \/ (exists n s, -2147483648 <= n < 2147483648 /\ stores (be_varlen c) e (inject_Z n) s) ->
  agrees c (m_num_pow c a m frac x e) (num_pow c m fuel x e).
Proof. intros c a m frac fuel x e LG FI LB. exact (pow_agrees c a m frac fuel LG FI LB x e). Qed.
Print Assumptions C90_machine_pow.

(** hence: away from the limits, the machine's power is off by at most half a unit of its last place (and 2 hundred-thousandths) *)
Theorem C90_machine_pow_accurate : forall c (a : nat -> nat -> Z) m frac x q s e n se l,
  log10_sound (f_log10 m) -> log10_fine (f_log10 m) -> ln_between (f_ln m) ->
  stores (be_varlen c) x q s -> stores (be_varlen c) e (inject_Z n) se -> 3 <= n < 2 ^ 31 -> leading q l ->
  (Qabs q ^ n <= 2 * l ^ n)%Q -> (Qabs q ^ n < limit * (99999 # 100000))%Q ->
  exists b y r, m_num_pow c a m frac x e = Ret (Some b) /\ shows c (Some b) (Some y) /\ stores (be_varlen c) y r (pow_scale_of s) /\
    (Qabs (r - q ^ n) <= (50002 # 100000) * ten ^ (- pow_scale_of s))%Q.
Proof. exact machine_pow_one_unit. Qed.
Print Assumptions C90_machine_pow_accurate.

(** exactly, when the power fits the result scale *)
Theorem C90_machine_pow_exact : forall c (a : nat -> nat -> Z) m frac x q s e n se,
  log10_sound (f_log10 m) -> log10_fine (f_log10 m) -> ln_between (f_ln m) -> ln_sound (f_ln m) ->
  stores (be_varlen c) x q s -> stores (be_varlen c) e (inject_Z n) se -> 0 <= n < 2 ^ 31 ->
  (exists k, (q ^ n * ten ^ pow_scale_of s == inject_Z k)%Q) -> (exists z, (q == inject_Z z)%Q) \/ n <= 16 -> (Qabs (q ^ n) < limit)%Q ->
  exists b y, m_num_pow c a m frac x e = Ret (Some b) /\ shows c (Some b) (Some y) /\ stores (be_varlen c) y (q ^ n) (pow_scale_of s).
Proof. exact machine_pow_exact. Qed.
Print Assumptions C90_machine_pow_exact.

(** and [{:e}], [{:E}] write what the model on lists writes, or panic as it does *)
Theorem C90_machine_sci : forall c (a : nat -> nat -> Z) m x lower, log10_sound (f_log10 m) -> ln_between (f_ln m) -> valid (be_varlen c) x ->
  m_num_sci c a m x lower = num_sci c m x lower.
Proof. intros c a m x lower LG LB. exact (sci_mach c a m LG LB x lower). Qed.
Print Assumptions C90_machine_sci.

(** hence the number itself, down to 10^-1001 *)
Theorem C90_machine_sci_text : forall c (a : nat -> nat -> Z) m x q s lower, log10_sound (f_log10 m) -> ln_between (f_ln m) ->
  stores (be_varlen c) x q s -> (ten ^ (-1001) <= Qabs q)%Q ->
  exists t, m_num_sci c a m x lower = Ret t /\ sci_text t q (if lower then 101 else 69).
Proof. exact machine_sci_text. Qed.
Print Assumptions C90_machine_sci_text.

(** Non-vacuity: platforms that meet the assumptions exist; -2.00 to the 128 and to the -3, in memory full of 7s, with a continuation
    for other exponents that is undefined behaviour *)
Example machine_pow_platform : exists lg ln, log10_sound lg /\ log10_fine lg /\ ln_between ln.
Proof. exact fine_platform_exists. Qed.
Example machine_pow_meets : valid false (sample n_m2) /\ stores false (sample n_m3) (inject_Z (-3)) 0.
Proof. split; [exact (number_valid false n_m2 n_m2_canonical)|exact (sample_stores n_m3 n_m3_canonical)]. Qed.
Example machine_pow_case : shown (m_num_pow dbgc sevens2 rough (fun _ _ => UB) (sample n_m2) (sample n_m3)) =
  Ret (Some (sample (Number true (-1) 16 [1250]))).
Proof. vm_compute. reflexivity. Qed.
Example machine_pow_big : shown (m_num_pow relc sevens2 rough (fun _ _ => UB) (sample n_m2) (sample n_128)) =
  Ret (Some (sample (Number false 9 16 [340; 2823; 6692; 938; 4634; 6337; 4607; 4317; 6821; 1456]))).
Proof. vm_compute. reflexivity. Qed.
(** C53: i32::MIN *)
Example machine_pow_min : m_num_pow dbgc sevens2 rough (fun _ _ => UB) (sample n_1_9) (sample n_min) = Panic WArith /\
  shown (m_num_pow relc sevens2 rough (fun _ _ => UB) (sample n_1_9) (sample n_min)) = Ret (Some (sample (Number false 0 16 [1]))).
Proof. vm_compute. auto. Qed.
(** -1.2345678e+04 and 5E-02 *)
Example machine_sci_case : m_num_sci dbgc sevens2 rough (sample n_a) true = Ret [45; 49; 46; 50; 51; 52; 53; 54; 55; 56; 101; 43; 48; 52] /\
  m_num_sci relc sevens2 rough (sample n_b) false = Ret [53; 69; 45; 48; 50].
Proof. vm_compute. auto. Qed.
