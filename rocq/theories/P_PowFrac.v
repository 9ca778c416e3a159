(** * Property theorems: powers with an exponent that is not a 32-bit integer (C78, C79, C80, C81), and powers of one (C86).

    These use the standard library's real numbers, and so rest on its axioms. [Rpower a b] is the real
    power a^b. [m] stands for the platform's f64::log10 and f64::ln, right to 10^-9 ([logs_near],
    SpecLn.v), and its text to f64 conversion, right to 10^-15 ([float_sound], SpecFloat.v). [fuel]
    bounds the loops, which the code leaves unbounded ([Diverge] is a run that needs more). *)
From Coq Require Import Reals Qreals ZArith QArith Qabs List Lia Lra.
From Verif Require Import Base Var Binary Num Flt Transc Spec SpecApi SpecLibm SpecLn SpecFloat QDec Digits Codec SqrtLoop Samples LnQR LnRed LnSeries LnReal LnApi LnSig ExpReal ExpAcc PowFrac PowFin P_Log P_Ln.
Import ListNotations.
Open Scope R_scope.

(** C78: a power from 10^-1000 to 10^2600, of a base not within 10^-990 of one, does not end, panics on
    an arithmetic overflow in a debug build, or is within 58/100 of a unit in the last place of the real
    power, at a scale from the larger of the operands' (capped at 1000) to 1000 *)
Theorem C78_pow_fraction_accurate : forall c m fuel x q s e p se, logs_near (f_log10 m) (f_ln m) -> float_sound m ->
  stores (be_varlen c) x q s -> stores (be_varlen c) e p se -> (0 < q)%Q -> (ten ^ (-990) <= Qabs (q - 1))%Q ->
  (forall n, (p == inject_Z n)%Q -> ~ (-2147483648 <= n < 2147483648)%Z) -> (4000 <= Z.of_nat fuel)%Z ->
  powerRZ 10 (-1000) <= Rpower (Q2R q) (Q2R p) <= powerRZ 10 2600 ->
  num_pow c m fuel x e = Diverge \/
  (num_pow c m fuel x e = Panic WArith /\ dbg c = true) \/
  (exists z r s', num_pow c m fuel x e = Ret (Some z) /\ stores (be_varlen c) z r s' /\ (Z.min 1000 (Z.max s se) <= s' <= 1000)%Z /\
     Rabs (Q2R r - Rpower (Q2R q) (Q2R p)) <= 58 / 100 * powerRZ 10 (- s')).
Proof. exact pow_frac_accurate. Qed.
Print Assumptions C78_pow_fraction_accurate.

(** C79: a power of 10^2610 or more is refused, and so is one of 10^-2620 or less, which should be zero *)
Theorem C79_pow_fraction_refuses : forall c m fuel x q s e p se, logs_near (f_log10 m) (f_ln m) -> float_sound m ->
  stores (be_varlen c) x q s -> stores (be_varlen c) e p se -> (0 < q)%Q -> (ten ^ (-990) <= Qabs (q - 1))%Q ->
  (forall n, (p == inject_Z n)%Q -> ~ (-2147483648 <= n < 2147483648)%Z) -> (4000 <= Z.of_nat fuel)%Z ->
  (powerRZ 10 2610 <= Rpower (Q2R q) (Q2R p) \/ Rpower (Q2R q) (Q2R p) <= powerRZ 10 (-2620)) ->
  num_pow c m fuel x e = Diverge \/
  (num_pow c m fuel x e = Panic WArith /\ dbg c = true) \/
  num_pow c m fuel x e = Ret None.
Proof. exact pow_frac_refuses. Qed.
Print Assumptions C79_pow_fraction_refuses.

(** C80: the result has at least fifteen significant digits, or a thousand decimals *)
Theorem C80_pow_fraction_digits : forall c m fuel x q s e p se z, logs_near (f_log10 m) (f_ln m) -> float_sound m ->
  stores (be_varlen c) x q s -> stores (be_varlen c) e p se -> (0 < q)%Q -> (ten ^ (-990) <= Qabs (q - 1))%Q ->
  (forall n, (p == inject_Z n)%Q -> ~ (-2147483648 <= n < 2147483648)%Z) -> (4000 <= Z.of_nat fuel)%Z ->
  powerRZ 10 (-1000) <= Rpower (Q2R q) (Q2R p) -> num_pow c m fuel x e = Ret (Some z) ->
  exists r s', stores (be_varlen c) z r s' /\ (s' = 1000%Z \/ 900000000000000 <= Rpower (Q2R q) (Q2R p) * powerRZ 10 s').
Proof. exact pow_frac_digits. Qed.
Print Assumptions C80_pow_fraction_digits.

(** C81: a power between 10^-2600 and 10^-1020 of a base from 2/3 to 9/10 or from 11/10 to 3/2 comes out
    as exactly one: the logarithm of the base is computed at scale zero, and rounds to zero *)
Theorem C81_pow_tiny_is_one : forall c m fuel x q s e p se, logs_near (f_log10 m) (f_ln m) -> float_sound m ->
  stores (be_varlen c) x q s -> stores (be_varlen c) e p se ->
  ((2 # 3) <= q <= (9 # 10) \/ (11 # 10) <= q <= (3 # 2))%Q ->
  (forall n, (p == inject_Z n)%Q -> ~ (-2147483648 <= n < 2147483648)%Z) -> (4000 <= Z.of_nat fuel)%Z ->
  powerRZ 10 (-2600) <= Rpower (Q2R q) (Q2R p) <= powerRZ 10 (-1020) ->
  num_pow c m fuel x e = Diverge \/
  (num_pow c m fuel x e = Panic WArith /\ dbg c = true) \/
  (exists z, num_pow c m fuel x e = Ret (Some z) /\ stores (be_varlen c) z 1 1000).
Proof. exact pow_tiny_is_one. Qed.
Print Assumptions C81_pow_tiny_is_one.

(** C86: one to any power is one: to a power that is not a 32-bit integer (this needs no condition on the
    platform's logarithms), and to one that is (except i32::MIN, C53; a debug build may overflow when the
    exponent is negative and the one is written with over 60 decimals) *)
Theorem C86_one_to_fraction : forall c m fuel x s e p se, float_sound m ->
  stores (be_varlen c) x 1 s -> stores (be_varlen c) e p se ->
  (forall n, (p == inject_Z n)%Q -> ~ (-2147483648 <= n < 2147483648)%Z) -> (4000 <= Z.of_nat fuel)%Z ->
  exists z, num_pow c m fuel x e = Ret (Some z) /\ stores (be_varlen c) z 1 (Z.min 1000 (Z.max 16 (Z.max s se))).
Proof. exact pow_base_one. Qed.
Print Assumptions C86_one_to_fraction.

Theorem C86_one_to_integer : forall c m fuel x s e n se, log10_sound (f_log10 m) -> ln_sound (f_ln m) ->
  stores (be_varlen c) x 1 s -> stores (be_varlen c) e (inject_Z n) se -> (- 2 ^ 31 < n < 2 ^ 31)%Z ->
  (0 <= n)%Z \/ (s <= 60)%Z \/ dbg c = false ->
  exists z, num_pow c m fuel x e = Ret (Some z) /\ stores (be_varlen c) z 1 (Z.min 1000 (Z.max 16 s)).
Proof. exact pow_base_one_int. Qed.
Print Assumptions C86_one_to_integer.

(** ** The hypotheses are met *)
Example platform_exists : exists m, logs_near (f_log10 m) (f_ln m) /\ float_sound m.
Proof.
  destruct logs_near_exist as (lg & lf & L), float_sound_exists as (m & [F1 F2 F3]).
  exists (Libm lg lf (f_of_var m)). split; [exact L|]. constructor; assumption.
Qed.

Open Scope Z_scope.
(** 2^0.5 = 1.4142135623730950 *)
Definition pow_libm : libm := Libm (fun _ => 0%Q) (fun _ => (69 # 100)%Q) (fun v => Some (vval v)).
Definition n_half : number := Number false (-1) 1 [5000].
Definition n_root2 : number := Number false 0 16 [1; 4142; 1356; 2373; 950].
Lemma n_half_canonical : canonical n_half. Proof. canonical_frac n_half 5. Qed.
Example root_two : num_pow relc pow_libm 60 (sample n_two) (sample n_half) = Ret (Some (sample n_root2)).
Proof. vm_compute. reflexivity. Qed.
Example half_meets : stores false (sample n_half) (value n_half) 1 /\ (forall n, (value n_half == inject_Z n)%Q -> ~ (-2147483648 <= n < 2147483648)).
Proof.
  split; [exact (sample_stores _ n_half_canonical)|]. intros n H. exfalso. assert (V : (value n_half == 1 # 2)%Q) by (vm_compute; reflexivity).
  rewrite V in H. unfold Qeq in H. cbn [Qnum Qden inject_Z] in H. lia.
Qed.

(** 1.00^0.5 = 1.0000000000000000 *)
Definition n_one2 : number := Number false 0 2 [1].
Lemma n_one2_canonical : canonical n_one2. Proof. canonical_frac n_one2 100. Qed.
Definition n_one16 : number := Number false 0 16 [1].
Example one_to_half : num_pow relc pow_libm 60 (sample n_one2) (sample n_half) = Ret (Some (sample n_one16)).
Proof. vm_compute. reflexivity. Qed.
Example one_meets : stores false (sample n_one2) 1 2.
Proof. exists n_one2. split; [exact n_one2_canonical|]. split; [reflexivity|]. split; [vm_compute; reflexivity|reflexivity]. Qed.

Open Scope R_scope.
Example half_in_range : powerRZ 10 (-1000) <= Rpower (Q2R (value n_two)) (Q2R (value n_half)) <= powerRZ 10 2600.
Proof.
  assert (V : Q2R (value n_two) = 2) by (transitivity (Q2R 2); [apply Qeq_eqR; vm_compute; reflexivity|unfold Q2R; cbn; lra]).
  assert (V' : Q2R (value n_half) = 5 / 10) by (transitivity (Q2R (5 # 10)); [apply Qeq_eqR; vm_compute; reflexivity|unfold Q2R; cbn; lra]).
  rewrite V, V'. apply Rpower_between. pose proof (ln_up 2 ltac:(lra)). assert (ln 1 <= ln 2) by (apply ln_mono; lra). rewrite ln_1 in *.
  pose proof ln_10_range. lra.
Qed.

(** 0.8^12000.5 = 1.000... *)
Definition tiny_libm : libm := Libm (fun _ => (-1 # 1)%Q) (fun _ => (-22314 # 100000)%Q) (fun v => Some (vval v)).
Definition n_0_8 : number := Number false (-1) 1 [8000]%Z.
Definition n_12000_5 : number := Number false 1 1 [1; 2000; 5000]%Z.
Lemma n_0_8_canonical : canonical n_0_8. Proof. canonical_frac n_0_8 8%Z. Qed.
Lemma n_12000_5_canonical : canonical n_12000_5. Proof. canonical_frac n_12000_5 120005%Z. Qed.
Example tiny_run : num_pow relc tiny_libm 60 (sample n_0_8) (sample n_12000_5) = Ret (Some (sample (Number false 0 1000 [1%Z]))).
Proof. vm_compute. reflexivity. Qed.
Example tiny_in_range : powerRZ 10 (-2600) <= Rpower (Q2R (value n_0_8)) (Q2R (value n_12000_5)) <= powerRZ 10 (-1020).
Proof.
  assert (V : Q2R (value n_0_8) = 8 / 10) by (transitivity (Q2R (8 # 10)); [apply Qeq_eqR; vm_compute; reflexivity|unfold Q2R; cbn; lra]).
  assert (V' : Q2R (value n_12000_5) = 120005 / 10) by (transitivity (Q2R (120005 # 10)); [apply Qeq_eqR; vm_compute; reflexivity|unfold Q2R; cbn; lra]).
  rewrite V, V'. apply Rpower_between. pose proof (ln_up (8 / 10) ltac:(lra)). pose proof (ln_up (10 / 8) ltac:(lra)) as U.
  replace (10 / 8) with (/ (8 / 10)) in U by lra. rewrite ln_Rinv in U by lra. pose proof ln_10_range. lra.
Qed.
