(** * Property theorems: conversions from and to f32 and f64 (C71 to C74).

    [pf] stands for libc's snprintf and the strtod crate, taken to print and read correctly
    ([snprintf_sound], [strtod_sound], SpecDouble.v). *)
From Coq Require Import Reals Qreals ZArith QArith Qabs Qpower List Bool Lia Lqa.
From Verif Require Import Base Var Binary Convert Num Flt Transc Float Spec SpecApi SpecDouble SpecFloat QDec Digits Codec Samples
  FloatGrid FloatText FloatApi FloatTrip FloatSound FloatRange FloatSample ExpApi P_Exp.
Import ListNotations.
Open Scope Z_scope.

(** C71: a finite float becomes the decimal of 15 (f64) or 6 (f32) significant digits nearest to it, at
    the least scale that can express it; NaN becomes NaN; only the infinities are refused *)
Theorem C71_from_f64 : forall c pf f, snprintf_sound (p_snprintf pf) -> finite_in binary64 f ->
  exists x r s, num_from_f64 c pf (FNum f) = Ret (inl x) /\ significant 15 f r /\ stores (be_varlen c) x r s /\ least_scale r s.
Proof. intros c pf f S F. exact (from_float_spec c pf 15 f S (or_intror eq_refl) F). Qed.
Print Assumptions C71_from_f64.

Theorem C71_from_f32 : forall c pf f, snprintf_sound (p_snprintf pf) -> finite_in binary32 f ->
  exists x r s, num_from_f32 c pf (FNum f) = Ret (inl x) /\ significant 6 f r /\ stores (be_varlen c) x r s /\ least_scale r s.
Proof.
  intros c pf f S [G L]. apply (from_float_spec c pf 6 f S (or_introl eq_refl)). split; [now apply grid_sub|].
  apply (Qlt_trans _ _ _ L). exact (p2_lt 128 1024 eq_refl).
Qed.
Print Assumptions C71_from_f32.

Theorem C71_from_special : forall c pf,
  (exists x, num_from_f64 c pf FNaN = Ret (inl x) /\ stores_nan (be_varlen c) x) /\
  (exists x, num_from_f32 c pf FNaN = Ret (inl x) /\ stores_nan (be_varlen c) x) /\
  (forall n, num_from_f64 c pf (FInf n) = Ret (inr CInvalid) /\ num_from_f32 c pf (FInf n) = Ret (inr CInvalid)).
Proof.
  intros c pf. split; [exact (from_float_nan c pf 15)|]. split; [exact (from_float_nan c pf 6)|].
  intro n. split; apply from_float_inf.
Qed.
Print Assumptions C71_from_special.

(** C72: a numeric becomes the nearest double, or infinity when that is out of range, and never an
    error; for f32 that double is rounded again, and the result is an error exactly when this second
    rounding turns a finite double into an infinity or a nonzero double into zero *)
Theorem C72_to_f64 : forall c pf x q s, strtod_sound (p_strtod pf) -> stores (be_varlen c) x q s ->
  exists d, num_to_f64 c pf x = Ret (inl d) /\ buf_to_f64 c pf x = Ret (inl d) /\ rounds_to binary64 q d.
Proof. exact to_f64_spec. Qed.
Print Assumptions C72_to_f64.

Theorem C72_to_f32 : forall c pf x q s, strtod_sound (p_strtod pf) -> stores (be_varlen c) x q s ->
  exists d r, rounds_to binary64 q d /\ num_to_f32 c pf x = Ret r /\ buf_to_f32 c pf x = Ret r /\
    match d with
    | FNum f => (f32_lost f /\ r = inr COverflow) \/ (~ f32_lost f /\ exists g, r = inl g /\ rounds_to binary32 f g)
    | _ => r = inl d
    end.
Proof. exact to_f32_spec. Qed.
Print Assumptions C72_to_f32.

Theorem C72_to_float_nan : forall c pf x, stores_nan (be_varlen c) x ->
  num_to_f64 c pf x = Ret (inl FNaN) /\ buf_to_f64 c pf x = Ret (inl FNaN) /\
  num_to_f32 c pf x = Ret (inl FNaN) /\ buf_to_f32 c pf x = Ret (inl FNaN).
Proof. exact to_float_nan. Qed.
Print Assumptions C72_to_float_nan.

(** As a consequence the conversion to f32 is not consistent outside its range: numbers beyond its range
    are an overflow error up to 10^308 but become an infinity from 10^309 on, and numbers too small for it are an
    overflow error down to 10^-323 but become zero from 10^-324 down *)
Theorem C72_f32_out_of_range : forall c pf x q s, strtod_sound (p_strtod pf) -> stores (be_varlen c) x q s ->
  ((ten ^ 39 <= Qabs q)%Q /\ (Qabs q <= ten ^ 308)%Q -> num_to_f32 c pf x = Ret (inr COverflow)) /\
  ((ten ^ 309 <= Qabs q)%Q -> exists n, num_to_f32 c pf x = Ret (inl (FInf n)) /\ (n = true <-> (q < 0)%Q)) /\
  ((ten ^ (-323) <= Qabs q)%Q /\ (Qabs q <= ten ^ (-46))%Q -> num_to_f32 c pf x = Ret (inr COverflow)) /\
  ((Qabs q <= ten ^ (-324))%Q -> exists g, num_to_f32 c pf x = Ret (inl (FNum g)) /\ (g == 0)%Q).
Proof. exact f32_out_of_range. Qed.
Print Assumptions C72_f32_out_of_range.

(** C73: decimals of at most 15 digits survive the way to f64 and back, decimals of at most 6 digits the
    way to f32 and back *)
Theorem C73_f64_round_trip : forall c pf x q s, snprintf_sound (p_snprintf pf) -> strtod_sound (p_strtod pf) ->
  stores (be_varlen c) x q s -> has_digits 15 q -> (q == 0)%Q \/ ((ten ^ (-307) <= Qabs q)%Q /\ (Qabs q < ten ^ 308)%Q) ->
  exists d y s', num_to_f64 c pf x = Ret (inl d) /\ num_from_f64 c pf d = Ret (inl y) /\
    stores (be_varlen c) y q s' /\ least_scale q s'.
Proof. exact f64_trip. Qed.
Print Assumptions C73_f64_round_trip.

Theorem C73_f32_round_trip : forall c pf x q s, snprintf_sound (p_snprintf pf) -> strtod_sound (p_strtod pf) ->
  stores (be_varlen c) x q s -> has_digits 6 q -> (q == 0)%Q \/ ((ten ^ (-37) <= Qabs q)%Q /\ (Qabs q < ten ^ 38)%Q) ->
  exists d y s', num_to_f32 c pf x = Ret (inl d) /\ num_from_f32 c pf d = Ret (inl y) /\
    stores (be_varlen c) y q s' /\ least_scale q s'.
Proof. exact f32_trip. Qed.
Print Assumptions C73_f32_round_trip.

(** C74: with a correct strtod the assumption under which C50, C56, C68 and C69 are proved holds, so
    exp is accurate whenever strtod is; [lg] and [l], the platform's logarithms, do not matter *)
Theorem C74_float_sound : forall c pf lg l, strtod_sound (p_strtod pf) -> float_sound (Libm lg l (float_of c pf)).
Proof. exact float_sound_of_strtod. Qed.
Print Assumptions C74_float_sound.

Theorem C74_exp_accurate : forall c pf lg l fuel x q s, strtod_sound (p_strtod pf) -> stores (be_varlen c) x q s ->
  4000 <= Z.of_nat fuel ->
  let result := num_exp c (Libm lg l (float_of c pf)) fuel x in
  ((6000 <= Qabs q)%Q -> result = Ret None) /\
  ((Qabs q < 6000)%Q ->
   (result = Ret None /\ (6000 - / 100000000000 <= Rabs (Q2R q))%R) \/
   (exists y r s', result = Ret (Some y) /\ stores (be_varlen c) y r s' /\ Z.min 1000 s <= s' <= 1000 /\
      (Rabs (Q2R r - Rtrigo_def.exp (Q2R q)) <= 504 / 1000 * powerRZ 10 (- s'))%R)).
Proof.
  intros c pf lg l fuel x q s SS H Hf. cbv zeta. pose proof (float_sound_of_strtod c pf lg l SS) as FS. split; intro K.
  - exact (exp_api_big _ _ _ _ _ _ FS H K).
  - exact (C68_exp_accurate c _ fuel x q s FS H K Hf).
Qed.
Print Assumptions C74_exp_accurate.

(** The assumptions can be met: a printer and a reader that work with exact rationals. *)
Example sound_platform : snprintf_sound (p_snprintf sample_platform) /\ strtod_sound (p_strtod sample_platform).
Proof. split; [exact sample_snprintf_sound|exact sample_strtod_sound]. Qed.

(** The double nearest to 0.1 is exactly 3602879701896397 / 2^55 and becomes 0.1. *)
Definition tenth : Q := 3602879701896397 # 36028797018963968.
Example tenth_finite : finite_in binary64 tenth.
Proof.
  split.
  - exists 3602879701896397, (-55). split; [reflexivity|]. split; [discriminate|]. vm_compute. reflexivity.
  - apply (Qlt_trans _ (2 ^ 1)); [reflexivity|]. exact (p2_lt 1 1024 eq_refl).
Qed.
Example tenth_converts : forall c pf, snprintf_sound (p_snprintf pf) ->
  exists x r, num_from_f64 c pf (FNum tenth) = Ret (inl x) /\ stores (be_varlen c) x r 1 /\ (r == 1 # 10)%Q.
Proof.
  intros c pf S. destruct (C71_from_f64 c pf tenth S tenth_finite) as (x & r & s & E & Sg & St & L0 & L1 & L2).
  assert (R : (r == 1 # 10)%Q).
  { apply (sig_recovers 15 (1 # 10) tenth r 1 (-1) (p2 (-53))); try exact Sg; try lia; try reflexivity; try discriminate.
    all: vm_compute; discriminate. }
  assert (s = 1); [|subst s; exists x, r; auto].
  assert (U : s <= 1) by (apply L2; [lia|exists 1; rewrite R; reflexivity]).
  assert (N : s <> 0). { intros ->. destruct L1 as (k & K). rewrite R in K. change (ten ^ 0)%Q with 1%Q in K. unfold Qeq in K. cbn in K. lia. }
  lia.
Qed.

(** 10^39 overflows an f32, 7 * 10^400 becomes an infinity. *)
Definition e39 : number := Number false 9 0 [1000].
Lemma e39_canonical : canonical e39. Proof. canonical_tac e39 (10 ^ 39). Qed.
Example e39_converts : forall c pf, be_varlen c = false -> strtod_sound (p_strtod pf) ->
  num_to_f32 c pf (sample e39) = Ret (inr COverflow).
Proof.
  intros c pf B SS. pose proof (sample_stores e39 e39_canonical) as S. rewrite <- B in S.
  apply (proj1 (C72_f32_out_of_range c pf _ _ _ SS S)). assert (V : (value e39 == p10 39)%Q) by (vm_compute; reflexivity). rewrite V.
  rewrite Qabs_pos by (apply Qlt_le_weak, p10_pos). split; [apply Qle_refl|exact (p10_le 39 308 ltac:(lia))].
Qed.
Example long_converts : forall c pf, be_varlen c = false -> strtod_sound (p_strtod pf) ->
  exists n, num_to_f32 c pf (sample n_long) = Ret (inl (FInf n)).
Proof.
  intros c pf B SS. pose proof (sample_stores n_long n_long_canonical) as S. rewrite <- B in S.
  destruct (proj1 (proj2 (C72_f32_out_of_range c pf _ _ _ SS S))) as (n & E & _); [|now exists n].
  assert (V : (value n_long == 7 * p10 400)%Q) by (vm_compute; reflexivity). rewrite V.
  rewrite Qabs_pos by (apply Qmult_le_0_compat; [discriminate|apply Qlt_le_weak, p10_pos]).
  apply (Qle_trans _ (1 * p10 400)); [rewrite Qmult_1_l; exact (p10_le 309 400 ltac:(lia))|].
  apply Qmult_le_compat_r; [discriminate|apply Qlt_le_weak, p10_pos].
Qed.
