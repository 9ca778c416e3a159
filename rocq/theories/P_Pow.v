(** * Property theorems: powers (C51, C52, C53, C60, C61, C62).

    [m] stands for the platform's f64::log10 and f64::ln; [log10_sound] and [ln_sound] (SpecLibm.v)
    are all that is assumed of them. [fuel] bounds the loops of ln and exp, which integer powers do
    not use: the results below hold whatever its value. [pow_scale_of s] is the scale of an integer
    power of a numeric of scale [s]: at least 16 and at least [s], at most 1000. *)
From Coq Require Import ZArith QArith Qabs Qpower List Bool Lia Lqa.
From Verif Require Import Base Var Binary Digits Parse Num Flt Transc Spec SpecApi SpecText SpecLibm SpecPow QDec Codec Make PowLoop Sci PowInt PowApi PowSmall PowMin PowNear PowAcc PowNeg
  LibmSample SqrtLoop Samples P_Sci.
Import ListNotations.
Open Scope Z_scope.

Example pow_scale_meaning : forall s, pow_scale_of s = Z.min 1000 (Z.max 16 s).
Proof. reflexivity. Qed.

(** C60: a power that fits the result scale is exact *)
Theorem C60_pow_exact : forall c m fuel x q s e n se, log10_sound (f_log10 m) -> ln_sound (f_ln m) ->
  stores (be_varlen c) x q s -> stores (be_varlen c) e (inject_Z n) se -> 0 <= n < 2 ^ 31 ->
  (exists k, (q ^ n * ten ^ pow_scale_of s == inject_Z k)%Q) -> (exists z, (q == inject_Z z)%Q) \/ n <= 16 ->
  exists o, num_pow c m fuel x e = Ret o /\ result_of (be_varlen c) (q ^ n) (pow_scale_of s) o.
Proof. exact pow_exact. Qed.
Print Assumptions C60_pow_exact.

(** C61: negative powers of integers *)
Theorem C61_pow_inverse : forall c m fuel x q s e n se, log10_sound (f_log10 m) ->
  stores (be_varlen c) x q s -> stores (be_varlen c) e (inject_Z n) se -> - 2 ^ 31 < n < 0 ->
  (exists z, (q == inject_Z z)%Q) -> ~ (q == 0)%Q -> s <= 60 \/ dbg c = false ->
  exists y r, num_pow c m fuel x e = Ret (Some y) /\ stores (be_varlen c) y r (pow_scale_of s) /\
    (Qabs (r - q ^ n) <= (500000001 # 1000000000) * ten ^ (- pow_scale_of s))%Q.
Proof. exact pow_inverse. Qed.
Print Assumptions C61_pow_inverse.

(** C51: undefined powers *)
Theorem C51_pow_zero_neg : forall c m fuel x q s e p se, stores (be_varlen c) x q s -> stores (be_varlen c) e p se ->
  (q == 0)%Q -> (p < 0)%Q -> num_pow c m fuel x e = Panic (WMsg MZeroPowNeg).
Proof. exact pow_api_zero_neg. Qed.
Print Assumptions C51_pow_zero_neg.
Theorem C51_pow_neg_frac : forall c m fuel x q s e p se, stores (be_varlen c) x q s -> stores (be_varlen c) e p se ->
  (q < 0)%Q -> ~ (exists z, (p == inject_Z z)%Q) -> num_pow c m fuel x e = Panic (WMsg MNegPowFrac).
Proof. exact pow_api_neg_frac. Qed.
Print Assumptions C51_pow_neg_frac.

(** C51: x^0, 0^y, x^1, x^2, x^-1 *)
Theorem C51_pow_0 : forall c m fuel x q s e se, log10_sound (f_log10 m) -> ln_sound (f_ln m) ->
  stores (be_varlen c) x q s -> stores (be_varlen c) e 0 se ->
  exists y, num_pow c m fuel x e = Ret (Some y) /\ stores (be_varlen c) y 1 (pow_scale_of s).
Proof.
  intros c m fuel x q s e se LG LN H1 H2.
  destruct (pow_exact c m fuel x q s e 0 se LG LN H1 H2 ltac:(lia)) as (o & E & [R _]).
  - exists (10 ^ pow_scale_of s). change (q ^ 0)%Q with 1%Q. rewrite Qmult_1_l. change (ten ^ pow_scale_of s)%Q with (p10 (pow_scale_of s)).
    apply p10_Z. unfold pow_scale_of. lia.
  - right. lia.
  - destruct R as (y & -> & Y). { change (q ^ 0)%Q with 1%Q. change (Qabs 1) with 1%Q. rewrite limit_p10, <- p10_0. apply p10_lt. lia. }
    exists y. split; [exact E|exact Y].
Qed.
Print Assumptions C51_pow_0.
Theorem C51_pow_zero_pos : forall c m fuel x q s e p se, stores (be_varlen c) x q s -> stores (be_varlen c) e p se ->
  (q == 0)%Q -> (0 < p)%Q ->
  exists y r, num_pow c m fuel x e = Ret (Some y) /\ stores (be_varlen c) y 0 r /\ (r = 16 \/ r = pow_scale_of s).
Proof. exact pow_api_zero_pos. Qed.
Print Assumptions C51_pow_zero_pos.
Theorem C51_pow_1 : forall c m fuel x q s e se, stores (be_varlen c) x q s -> stores (be_varlen c) e 1 se ->
  exists o, num_pow c m fuel x e = Ret o /\ result_of (be_varlen c) (round_at q (pow_scale_of s)) (pow_scale_of s) o.
Proof. exact pow_one. Qed.
Print Assumptions C51_pow_1.
Theorem C51_pow_minus_1 : forall c m fuel x q s e se, stores (be_varlen c) x q s -> ~ (q == 0)%Q -> stores (be_varlen c) e (-1) se ->
  exists o, num_pow c m fuel x e = Ret o /\ result_of (be_varlen c) (round_at (/ q) (pow_scale_of s)) (pow_scale_of s) o.
Proof. exact pow_minus_one. Qed.
Print Assumptions C51_pow_minus_1.
Theorem C51_pow_2 : forall c m fuel x q s e se, stores (be_varlen c) x q s -> stores (be_varlen c) e 2 se ->
  forall n, canonical n -> x = layout (be_varlen c) n ->
  exists o r, num_pow c m fuel x e = Ret o /\ result_of (be_varlen c) r (pow_scale_of s) o /\
    (Qabs (r - q ^ 2) <= ((1 # 2) + inject_Z (Z.of_nat (length (digs n)) + 1) * (1 # 10000)) * ten ^ (- pow_scale_of s))%Q.
Proof. exact pow_square. Qed.
Print Assumptions C51_pow_2.

(** C51: NaN: pow(NaN, 0) = pow(1, NaN) = 1, everything else is NaN *)
Theorem C51_pow_nan : forall c m fuel x e a b, denotes (be_varlen c) x a -> denotes (be_varlen c) e b -> a = None \/ b = None ->
  exists y, num_pow c m fuel x e = Ret (Some y) /\
    denotes (be_varlen c) y (if match a, b with
                                | None, Some p => Qeq_bool p 0
                                | Some q, None => Qeq_bool q 1
                                | _, _ => false end then Some 1%Q else None).
Proof. exact pow_api_nan. Qed.
Print Assumptions C51_pow_nan.

(** Samples: 1.9, 128, 1.5, -2147483648, -2, 3000000000, -3, 0.5 *)
Definition n_1_9 : number := Number false 0 1 [1; 9000].
Lemma n_1_9_canonical : canonical n_1_9. Proof. canonical_tac n_1_9 19. Qed.
Definition n_128 : number := Number false 0 0 [128].
Lemma n_128_canonical : canonical n_128. Proof. canonical_tac n_128 128. Qed.
Definition n_min : number := Number true 2 0 [21; 4748; 3648].
Lemma n_min_canonical : canonical n_min. Proof. canonical_tac n_min (-2147483648). Qed.
Definition n_m2 : number := Number true 0 2 [2].
Lemma n_m2_canonical : canonical n_m2. Proof. canonical_tac n_m2 (-200). Qed.
Definition n_3e9 : number := Number false 2 0 [30].
Lemma n_3e9_canonical : canonical n_3e9. Proof. canonical_tac n_3e9 3000000000. Qed.
Definition n_m3 : number := Number true 0 0 [3].
Lemma n_m3_canonical : canonical n_m3. Proof. canonical_tac n_m3 (-3). Qed.

(** hypotheses of C60 and C61 met: (-2.00)^128 and (-2.00)^-3 at scale 16 (-0.125 exactly) *)
Example C60_applies : (exists lg, log10_sound lg) /\ (exists ln, ln_sound ln) /\ stores false (sample n_m2) (inject_Z (-2)) 2 /\
  stores false (sample n_128) (inject_Z 128) 0 /\ exists k, ((inject_Z (-2)) ^ 128 * ten ^ pow_scale_of 2 == inject_Z k)%Q.
Proof.
  split; [exact log10_exists|]. split; [exists (fun _ => 0%Q); intros a _; discriminate|].
  split; [exact (sample_stores n_m2 n_m2_canonical)|]. split; [exact (sample_stores n_128 n_128_canonical)|].
  exists ((-2) ^ 128 * 10 ^ 16). rewrite inject_Z_mult, <- Zpow_Q by lia. change (ten ^ pow_scale_of 2)%Q with (p10 16). rewrite p10_Z by lia. reflexivity.
Qed.
Example C61_applies : stores false (sample n_m3) (inject_Z (-3)) 0 /\ stores false (sample n_m2) (inject_Z (-2)) 2 /\ - 2 ^ 31 < -3 < 0 /\
  ~ (inject_Z (-2) == 0)%Q.
Proof.
  split; [exact (sample_stores n_m3 n_m3_canonical)|]. split; [exact (sample_stores n_m2 n_m2_canonical)|]. split; [lia|discriminate].
Qed.
(** 340282366920938463463374607431768211456.0000000000000000 and -0.1250000000000000 *)
Example C60_runs :
  num_pow dbgc rough 0 (sample n_m2) (sample n_128) =
    Ret (Some (layout false (Number false 9 16 [340; 2823; 6692; 938; 4634; 6337; 4607; 4317; 6821; 1456]))) /\
  num_pow dbgc rough 0 (sample n_m2) (sample n_m3) = Ret (Some (layout false (Number true (-1) 16 [1250]))).
Proof. vm_compute. auto. Qed.

(** C52: not so. pow(1.9, 128), shown with 16 decimals, is wrong in the seventh integral digit. The only
    facts used about the library are log10(1) = 0 and 4 <= ln(128) < 5. *)
Lemma bad_pow c m fuel : log10_sound (f_log10 m) -> (inject_Z 4 <= f_ln m (inject_Z 128) < inject_Z 5)%Q -> be_varlen c = false ->
  num_pow c m fuel (sample n_1_9) (sample n_128) =
    Ret (Some (layout false (Number false 8 16 [4791; 3833; 7857; 6850; 4931; 5391; 80; 6714; 7207]))).
Proof.
  intros LG LN BE. pose proof (canonical_canon _ n_1_9_canonical) as C1. pose proof (canonical_canon _ n_128_canonical) as C2.
  pose proof (num_pow_int c m fuel _ _ 128 C1 C2) as E. rewrite BE, !to_of_number in E. unfold sample. rewrite E; [|reflexivity|lia|lia]. clear E.
  change (pow_scale_of (dscale (of_number n_1_9))) with 16.
  rewrite (power_int_unfold c m (of_number n_1_9) 128 16 1 [9000]) by (try lia; try reflexivity; discriminate). cbv zeta.
  destruct (unit_checks m (of_number n_1_9) 128 16 LG eq_refl ltac:(lia)) as (K1 & K2 & K3). rewrite K1, K2, K3.
  assert (L4 : ln_i32 m (Z.abs 128) = 4).
  { unfold ln_i32. change (Z.abs 128 <? 0) with false. change (Z.abs 128 =? 0) with false. cbv iota. apply f2i_floor; [lia|apply LN|apply LN]. }
  destruct c as [db be]. cbn [be_varlen] in BE. subst be.
  assert (I : i32 (Cfg db false) (Z.abs 128) = Ret 128) by (destruct db; reflexivity). rewrite I. cbn [bind]. change (Z.abs 128) with 128 in L4. rewrite L4.
  destruct db; vm_compute; reflexivity.
Qed.
Definition n_bad : number := Number false 8 16 [4791; 3833; 7857; 6850; 4931; 5391; 80; 6714; 7207].
Lemma n_bad_canonical : canonical n_bad.
Proof. canonical_tac n_bad (4791383378576850493153910080671472070000000000000000). Qed.
Theorem C52_pow_accurate_refuted : exists x e, stores false x (19 # 10) 1 /\ stores false e (inject_Z 128) 0 /\
  forall c m fuel, log10_sound (f_log10 m) -> (inject_Z 4 <= f_ln m (inject_Z 128) < inject_Z 5)%Q -> be_varlen c = false ->
  exists y r, num_pow c m fuel x e = Ret (Some y) /\ stores false y r 16 /\ (900000 <= Qabs (r - (19 # 10) ^ 128))%Q.
Proof.
  exists (sample n_1_9), (sample n_128).
  split. { exists n_1_9. split; [exact n_1_9_canonical|]. split; [reflexivity|]. split; [vm_compute; reflexivity|reflexivity]. }
  split; [exact (sample_stores n_128 n_128_canonical)|].
  intros c m fuel LG LN BE. exists (layout false n_bad), (value n_bad). split; [exact (bad_pow c m fuel LG LN BE)|].
  split; [exact (sample_stores n_bad n_bad_canonical)|]. vm_compute. discriminate.
Qed.
Print Assumptions C52_pow_accurate_refuted.

(** C52, what holds instead. [l] is the base cut after its first base-10000 digit (SpecPow.v): the
    working precision is chosen from [l]^n instead of q^n. [pow_error] is half a unit in the last place
    plus 10^-5 (|q| / l)^n of one. The exponents 0, 1, 2 and -1 are in C51. *)
Example pow_error_meaning : forall q l n s, pow_error q l n s = (((1 # 2) + (1 # 100000) * (Qabs q / l) ^ n) * ten ^ (- s))%Q.
Proof. reflexivity. Qed.
Theorem C52_pow_accurate : forall c m fuel x q s e n se l,
  log10_sound (f_log10 m) -> log10_fine (f_log10 m) -> ln_between (f_ln m) ->
  stores (be_varlen c) x q s -> stores (be_varlen c) e (inject_Z n) se -> 3 <= n < 2 ^ 31 -> leading q l ->
  exists o, num_pow c m fuel x e = Ret o /\
    match o with
    | None => (limit * (99999 # 100000) <= Qabs q ^ n)%Q
    | Some y => exists r, stores (be_varlen c) y r (pow_scale_of s) /\
        (((r == 0)%Q /\ (l ^ n <= (1 # 4) * ten ^ (- pow_scale_of s))%Q) \/
         (Qabs (r - q ^ n) <= pow_error q l n (pow_scale_of s))%Q)
    end.
Proof. exact pow_accurate. Qed.
Print Assumptions C52_pow_accurate.
(** within one unit whenever the first digit carries at least half of the power *)
Theorem C52_pow_one_unit : forall c m fuel x q s e n se l,
  log10_sound (f_log10 m) -> log10_fine (f_log10 m) -> ln_between (f_ln m) ->
  stores (be_varlen c) x q s -> stores (be_varlen c) e (inject_Z n) se -> 3 <= n < 2 ^ 31 -> leading q l ->
  (Qabs q ^ n <= 2 * l ^ n)%Q -> (Qabs q ^ n < limit * (99999 # 100000))%Q ->
  exists y r, num_pow c m fuel x e = Ret (Some y) /\ stores (be_varlen c) y r (pow_scale_of s) /\
    (Qabs (r - q ^ n) <= (50002 # 100000) * ten ^ (- pow_scale_of s))%Q.
Proof. exact pow_one_unit. Qed.
Print Assumptions C52_pow_one_unit.
(** negative exponents: here cutting the base errs on the safe side *)
Theorem C52_pow_accurate_neg : forall c m fuel x q s e n se l,
  log10_sound (f_log10 m) -> log10_fine (f_log10 m) -> ln_between (f_ln m) ->
  stores (be_varlen c) x q s -> stores (be_varlen c) e (inject_Z n) se -> - 2 ^ 31 < n <= -2 -> leading q l ->
  (exists o, num_pow c m fuel x e = Ret o /\
    match o with
    | None => (limit * (99999 # 100000) <= Qabs q ^ n)%Q
    | Some y => exists r, stores (be_varlen c) y r (pow_scale_of s) /\
         (Qabs (r - q ^ n) <= (50001 # 100000) * ten ^ (- pow_scale_of s))%Q
    end) \/
  (num_pow c m fuel x e = Panic WArith /\ dbg c = true /\
     ~ (s <= 30 /\ (ten ^ (-60) <= Qabs q ^ n)%Q /\ (l ^ n <= ten ^ 8)%Q)).
Proof. exact pow_accurate_neg. Qed.
Print Assumptions C52_pow_accurate_neg.
(** hypotheses met: 1.9 (cut to 1), 12345 (cut to 10000 x 1), exponents 128 and -3; and a platform *)
Example C52_applies : (exists lg ln, log10_sound lg /\ log10_fine lg /\ ln_between ln) /\
  stores false (sample n_1_9) (19 # 10) 1 /\ leading (19 # 10) 1 /\ leading (inject_Z (-12345)) 10000 /\
  stores false (sample n_128) (inject_Z 128) 0 /\ stores false (sample n_m3) (inject_Z (-3)) 0 /\
  (((19 # 10) ^ 3 <= 2 * 1 ^ 3)%Q -> False) /\ (Qabs (inject_Z (-12345)) ^ 3 <= 2 * (inject_Z 10000) ^ 3)%Q.
Proof.
  split; [exact fine_platform_exists|].
  split. { exists n_1_9. split; [exact n_1_9_canonical|]. split; [reflexivity|]. split; [vm_compute; reflexivity|reflexivity]. }
  split. { exists 1, 0. split; [lia|]. split; [reflexivity|]. split; [discriminate|reflexivity]. }
  split. { exists 1, 1. split; [lia|]. split; [reflexivity|]. split; [discriminate|reflexivity]. }
  split; [exact (sample_stores n_128 n_128_canonical)|]. split; [exact (sample_stores n_m3 n_m3_canonical)|].
  split; [intro K; vm_compute in K; now apply K|vm_compute; discriminate].
Qed.

(** C53: the exponent i32::MIN. For every base of magnitude in [1, 2): a panic in debug builds (even 1
    raised to it), the value 1 in release builds (wrong unless the base is 1 or -1) *)
Theorem C53_pow_i32_min : forall c m fuel x q s e se, log10_sound (f_log10 m) -> stores (be_varlen c) x q s -> (1 <= Qabs q < 2)%Q ->
  stores (be_varlen c) e (inject_Z (- 2 ^ 31)) se ->
  (dbg c = true -> num_pow c m fuel x e = Panic WArith) /\
  (dbg c = false -> exists y, num_pow c m fuel x e = Ret (Some y) /\ stores (be_varlen c) y 1 (pow_scale_of s)).
Proof. exact pow_min. Qed.
Print Assumptions C53_pow_i32_min.
Theorem C53_pow_i32_min_refuted : exists x e, stores false x (19 # 10) 1 /\ stores false e (inject_Z (- 2 ^ 31)) 0 /\
  forall m fuel, log10_sound (f_log10 m) ->
    num_pow dbgc m fuel x e = Panic WArith /\ exists y, num_pow relc m fuel x e = Ret (Some y) /\ stores false y 1 16.
Proof.
  exists (sample n_1_9), (sample n_min).
  assert (H : stores false (sample n_1_9) (19 # 10) 1).
  { exists n_1_9. split; [exact n_1_9_canonical|]. split; [reflexivity|]. split; [vm_compute; reflexivity|reflexivity]. }
  split; [exact H|]. split; [exact (sample_stores n_min n_min_canonical)|].
  assert (Q : (1 <= Qabs (19 # 10) < 2)%Q) by (split; [vm_compute; discriminate|vm_compute; reflexivity]).
  intros m fuel LG. split.
  - exact (proj1 (pow_min dbgc m fuel _ _ _ _ _ LG H Q (sample_stores n_min n_min_canonical)) eq_refl).
  - exact (proj2 (pow_min relc m fuel _ _ _ _ _ LG H Q (sample_stores n_min n_min_canonical)) eq_refl).
Qed.
Print Assumptions C53_pow_i32_min_refuted.

(** C53, exactly: every non-zero base *)
Theorem C53_pow_i32_min_all : forall c m fuel x q s e se, log10_sound (f_log10 m) -> stores (be_varlen c) x q s ->
  stores (be_varlen c) e (inject_Z (- 2 ^ 31)) se -> ~ (q == 0)%Q ->
  ((Qabs q < 9996 # 10000)%Q -> num_pow c m fuel x e = Ret None) /\
  ((2 <= Qabs q)%Q -> exists y, num_pow c m fuel x e = Ret (Some y) /\ stores (be_varlen c) y 0 (pow_scale_of s)) /\
  (((9996 # 10000) <= Qabs q < 2)%Q ->
     (dbg c = true -> num_pow c m fuel x e = Panic WArith) /\
     (dbg c = false -> exists y, num_pow c m fuel x e = Ret (Some y) /\ stores (be_varlen c) y 1 (pow_scale_of s))).
Proof. exact pow_min_all. Qed.
Print Assumptions C53_pow_i32_min_all.

(** C62: a negative base with an integer exponent outside i32: a panic in every debug build *)
Theorem C62_pow_beyond_i32_panics : forall c m fuel x q s e n se, stores (be_varlen c) x q s -> (q < 0)%Q ->
  stores (be_varlen c) e (inject_Z n) se -> ~ (- 2 ^ 31 <= n < 2 ^ 31) -> dbg c = true -> exists w, num_pow c m fuel x e = Panic w.
Proof. exact pow_beyond. Qed.
Print Assumptions C62_pow_beyond_i32_panics.
Theorem C62_pow_beyond_i32_refuted : exists x e, stores false x (inject_Z (-2)) 2 /\ stores false e (inject_Z 3000000000) 0 /\
  forall m fuel, exists w, num_pow dbgc m fuel x e = Panic w.
Proof.
  exists (sample n_m2), (sample n_3e9). split; [exact (sample_stores n_m2 n_m2_canonical)|]. split; [exact (sample_stores n_3e9 n_3e9_canonical)|].
  intros m fuel. apply (pow_beyond dbgc m fuel _ (inject_Z (-2)) 2 _ 3000000000 0 (sample_stores n_m2 n_m2_canonical));
    [reflexivity|exact (sample_stores n_3e9 n_3e9_canonical)|lia|reflexivity].
Qed.
Print Assumptions C62_pow_beyond_i32_refuted.

(** C62, exactly: no build ever returns; a debug build panics, a release build panics or never ends. *)
Theorem C62_pow_beyond_i32_never_returns : forall c m fuel x q s e n se, stores (be_varlen c) x q s -> (q < 0)%Q ->
  stores (be_varlen c) e (inject_Z n) se -> ~ (- 2 ^ 31 <= n < 2 ^ 31) ->
  (dbg c = true -> exists w, num_pow c m fuel x e = Panic w) /\
  (dbg c = false -> num_pow c m fuel x e = Diverge \/ exists w, num_pow c m fuel x e = Panic w).
Proof. exact pow_beyond_all. Qed.
Print Assumptions C62_pow_beyond_i32_never_returns.

(** C51, non-vacuity: 0^-3, (-2.00)^0.05, 0^128, 1.9^1 (n_b is 0.05, n_zero is 0.00000) *)
Definition n_1 : number := Number false 0 0 [1].
Lemma n_1_canonical : canonical n_1. Proof. canonical_tac n_1 1. Qed.
Example C51_applies : stores false (sample n_zero) (value n_zero) 5 /\ (value n_zero == 0)%Q /\ stores false (sample n_m3) (value n_m3) 0 /\
  (value n_m3 < 0)%Q /\ stores false (sample n_b) (value n_b) 2 /\ ~ (exists z, (value n_b == inject_Z z)%Q) /\ (0 < value n_b)%Q.
Proof.
  split; [exact (sample_stores n_zero n_zero_canonical)|]. split; [reflexivity|]. split; [exact (sample_stores n_m3 n_m3_canonical)|].
  split; [reflexivity|]. split; [exact (sample_stores n_b n_b_canonical)|]. split; [|reflexivity].
  intros [z H]. assert (E : (value n_b == 1 # 20)%Q) by (vm_compute; reflexivity). rewrite E in H. unfold Qeq in H. cbn in H. lia.
Qed.
Example C51_runs :
  num_pow dbgc rough 0 (sample n_zero) (sample n_m3) = Panic (WMsg MZeroPowNeg) /\
  num_pow dbgc rough 0 (sample n_m2) (sample n_b) = Panic (WMsg MNegPowFrac) /\
  num_pow dbgc rough 0 (sample n_zero) (sample n_b) = Ret (Some (layout false (Number false 0 16 []))) /\
  num_pow dbgc rough 0 (sample n_1_9) (sample n_1) = Ret (Some (layout false (Number false 0 16 [1; 9000]))) /\
  num_pow dbgc rough 0 (nan_layout false) (sample n_zero) = Ret (Some (layout false n_1)) /\
  num_pow dbgc rough 0 (sample n_1) (nan_layout false) = Ret (Some (layout false n_1)) /\
  num_pow dbgc rough 0 (sample n_b) (nan_layout false) = Ret (Some (nan_layout false)).
Proof. vm_compute. auto 10. Qed.
