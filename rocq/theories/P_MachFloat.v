(** * Property theorems: float conversions at the level of the machine (C96) *)
From Coq Require Import ZArith QArith Qabs List Bool Lia.
From Verif Require Import Base Var Binary Typmod Parse Convert Num Data Spec SpecApi SpecDouble SpecData SpecMach Mach MachText MachMut MachRest
  Flt Float FloatGrid FloatText FloatApi FloatTrip FloatSample FloatSound P_Float MachFloat MachFloatApi Samples.
Import ListNotations.
Open Scope Z_scope.

(** C96: from a float, whatever the C buffer [u] and the freshly allocated memory [a] contained: the value rounded to 15 (6)
    significant digits, with the least scale; NaN to NaN; infinities are refused. *)
Theorem C96_machine_from_f64 : forall c (a : nat -> nat -> Z) (u : nat -> Z) pf f, snprintf_sound (p_snprintf pf) -> finite_in binary64 f ->
  exists b x r s, m_num_from_f64 c a u pf (FNum f) = Ret (inl b) /\ shows c (Some b) (Some x) /\ significant 15 f r /\
    stores (be_varlen c) x r s /\ least_scale r s.
Proof. intros c a u pf f S F. exact (machine_from_float c a u pf 15 f S (or_intror eq_refl) F). Qed.
Print Assumptions C96_machine_from_f64.
Theorem C96_machine_from_f32 : forall c (a : nat -> nat -> Z) (u : nat -> Z) pf f, snprintf_sound (p_snprintf pf) -> finite_in binary32 f ->
  exists b x r s, m_num_from_f32 c a u pf (FNum f) = Ret (inl b) /\ shows c (Some b) (Some x) /\ significant 6 f r /\
    stores (be_varlen c) x r s /\ least_scale r s.
Proof.
  intros c a u pf f S [G L]. apply (machine_from_float c a u pf 6 f S (or_introl eq_refl)). split; [now apply grid_sub|].
  apply (Qlt_trans _ _ _ L). exact (p2_lt 128 1024 eq_refl).
Qed.
Print Assumptions C96_machine_from_f32.
Theorem C96_machine_from_special : forall c (a : nat -> nat -> Z) (u : nat -> Z) pf,
  (exists b x, m_num_from_f64 c a u pf FNaN = Ret (inl b) /\ shows c (Some b) (Some x) /\ stores_nan (be_varlen c) x) /\
  (exists b x, m_num_from_f32 c a u pf FNaN = Ret (inl b) /\ shows c (Some b) (Some x) /\ stores_nan (be_varlen c) x) /\
  (forall n, m_num_from_f64 c a u pf (FInf n) = Ret (inr CInvalid) /\ m_num_from_f32 c a u pf (FInf n) = Ret (inr CInvalid)).
Proof.
  intros c a u pf. split; [exact (proj1 (machine_from_special c a u pf 15))|]. split; [exact (proj1 (machine_from_special c a u pf 6))|].
  intro n. split; reflexivity.
Qed.
Print Assumptions C96_machine_from_special.

(** To a float: never a panic or undefined behaviour, and what the conversion on bytes alone delivers (C72). *)
Theorem C96_machine_to_float : forall c pf x, valid (be_varlen c) x ->
  m_num_to_f64 c pf x = num_to_f64 c pf x /\ m_num_to_f32 c pf x = num_to_f32 c pf x.
Proof. exact machine_to_float. Qed.
Print Assumptions C96_machine_to_float.
Theorem C96_machine_to_f64 : forall c pf x q s, strtod_sound (p_strtod pf) -> stores (be_varlen c) x q s ->
  exists d, m_num_to_f64 c pf x = Ret (inl d) /\ rounds_to binary64 q d.
Proof.
  intros c pf x q s S H. destruct (to_f64_spec c pf x q s S H) as (d & E & _ & R). exists d. split; [|exact R].
  rewrite <- E. apply machine_to_float. right. now exists q, s.
Qed.
Print Assumptions C96_machine_to_f64.
(** The same by value, for a NumericBuf with any history of C94 behind it. *)
Theorem C96_machine_buf_to_f64 : forall c a (x : bytes) b h rs b' (z : bytes) pf q s, valid (be_varlen c) x -> m_num_to_owned c a x = Ret b ->
  Forall (fun e => Forall (valid (be_varlen c)) (operands (fst e))) h -> m_run c h (Some b) = (rs, Some b') ->
  m_as_bytes c b' = Ret z -> strtod_sound (p_strtod pf) -> stores (be_varlen c) z q s ->
  exists d, m_buf_to_f64 c pf b' = Ret (inl d) /\ rounds_to binary64 q d.
Proof.
  intros c a x b h rs b' z pf q s V E U R Z S H. destruct (machine_buf_to_float c a x b h rs b' z pf V E U R Z) as [-> _].
  destruct (to_f64_spec c pf z q s S H) as (d & Ed & _ & Rd). exists d. auto.
Qed.
Print Assumptions C96_machine_buf_to_f64.
Theorem C96_machine_buf_to_float : forall c a (x : bytes) b h rs b' (z : bytes) pf, valid (be_varlen c) x -> m_num_to_owned c a x = Ret b ->
  Forall (fun e => Forall (valid (be_varlen c)) (operands (fst e))) h -> m_run c h (Some b) = (rs, Some b') ->
  m_as_bytes c b' = Ret z -> m_buf_to_f64 c pf b' = num_to_f64 c pf z /\ m_buf_to_f32 c pf b' = num_to_f32 c pf z.
Proof. exact machine_buf_to_float. Qed.
Print Assumptions C96_machine_buf_to_float.

(** There and back. *)
Theorem C96_machine_f64_round_trip : forall c (a : nat -> nat -> Z) (u : nat -> Z) pf x q s, snprintf_sound (p_snprintf pf) -> strtod_sound (p_strtod pf) ->
  stores (be_varlen c) x q s -> has_digits 15 q -> (q == 0)%Q \/ ((ten ^ (-307) <= Qabs q)%Q /\ (Qabs q < ten ^ 308)%Q) ->
  exists d b y s', m_num_to_f64 c pf x = Ret (inl d) /\ m_num_from_f64 c a u pf d = Ret (inl b) /\ shows c (Some b) (Some y) /\
    stores (be_varlen c) y q s' /\ least_scale q s'.
Proof. exact machine_f64_trip. Qed.
Print Assumptions C96_machine_f64_round_trip.
Theorem C96_machine_f32_round_trip : forall c (a : nat -> nat -> Z) (u : nat -> Z) pf x q s, snprintf_sound (p_snprintf pf) -> strtod_sound (p_strtod pf) ->
  stores (be_varlen c) x q s -> has_digits 6 q -> (q == 0)%Q \/ ((ten ^ (-37) <= Qabs q)%Q /\ (Qabs q < ten ^ 38)%Q) ->
  exists d b y s', m_num_to_f32 c pf x = Ret (inl d) /\ m_num_from_f32 c a u pf d = Ret (inl b) /\ shows c (Some b) (Some y) /\
    stores (be_varlen c) y q s' /\ least_scale q s'.
Proof. exact machine_f32_trip. Qed.
Print Assumptions C96_machine_f32_round_trip.

(** Non-vacuity. One platform meets both assumptions ([P_Float.sound_platform]); 0.1 as a double is finite ([P_Float.tenth_finite]);
    the numbers of the round trips: 0 and -12345.678 (8 digits). *)
Example C96_tenth : exists b x r s, m_num_from_f64 dbgc (fun _ _ => 7) (fun _ => 7) sample_platform (FNum tenth) = Ret (inl b) /\
  shows dbgc (Some b) (Some x) /\ significant 15 tenth r /\ stores false x r s /\ least_scale r s.
Proof. exact (C96_machine_from_f64 dbgc (fun _ _ => 7) (fun _ => 7) sample_platform tenth (proj1 sound_platform) tenth_finite). Qed.
Example C96_trip_case : stores false (sample n_a) (value n_a) (scale n_a) /\ has_digits 15 (value n_a) /\
  (ten ^ (-307) <= Qabs (value n_a))%Q /\ (Qabs (value n_a) < ten ^ 308)%Q.
Proof.
  split; [apply sample_stores, n_a_canonical|]. split; [exists (-12345678), (-3); split; vm_compute; reflexivity|].
  split; unfold Qle, Qlt; vm_compute; [discriminate|reflexivity].
Qed.
(** In memory full of 7s, with a printer that prints 2.50: the bytes of the buffer after the NUL are not read. *)
Example C96_buffer_case :
  c_snprintf (c_buf (fun _ => 7)) 128 [50; 46; 53; 48] = Ret ([50; 46; 53; 48; 0] ++ repeat 7 123) /\
  (r <- m_num_from_f64 dbgc (fun _ _ => 7) (fun _ => 7) (Platform (fun _ _ => [50; 46; 53; 48]) (fun _ => None)) (FNum (5 # 2)) ;;
   match r with inl b => x <- m_as_bytes dbgc b ;; Ret (inl x) | inr e => Ret (inr e) end)
  = Ret (inl (sample (Number false 0 2 [2; 5000]))).
Proof. split; vm_compute; reflexivity. Qed.
