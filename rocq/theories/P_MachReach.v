(** * Property theorems: every program over the API, at the level of the machine (C98).

    [sound_system] (SpecMachReach.v): what is assumed of the platform's log10, ln, strtod and snprintf (C34, C74, C78, C72). *)
From Coq Require Import ZArith QArith List Bool.
From Verif Require Import Base Var Binary Typmod Parse Convert Num Data Spec SpecApi SpecText SpecDouble SpecLibm SpecPow SpecLn SpecFloat SpecData SpecMach ConvertApi
  Flt Float Transc FloatSample LibmJoint P_Float P_MachFrac Mach MachText MachFast MachPow MachLn MachExp MachFrac MachMut MachRest MachFloat SpecMachReach MachReach Samples.
Import ListNotations.
Open Scope Z_scope.

(** C98: a NumericBuf a program holds, after any calls of the API in any order, with every machine integer checked (debug) or
    wrapping (release), memory of arbitrary content, and in-place operations reusing or reallocating buffers: its bytes can be
    read, and are those of NaN or of a number in the documented layout. *)
Theorem C98_held_valid : forall c m pf b, sound_system m pf -> held c m pf b ->
  exists x, m_as_bytes c b = Ret x /\ valid (be_varlen c) x.
Proof. intros c m pf b (A & B & C & D & E & F). now apply owned. Qed.
Print Assumptions C98_held_valid.

(** No call such a program makes is undefined behaviour: *)
Theorem C98_call_defined : forall c m pf o, sound_system m pf -> call c m pf o -> o <> UB.
Proof.
  intros c m pf o (A & B & C & D & E & F) H.
  exact (proj1 (proj2 (proj2 (reach_inv c m pf A B C D E F)) o H)).
Qed.
Print Assumptions C98_call_defined.
(** in place, it returns or panics (a hang is impossible too): *)
Theorem C98_step_defined : forall c m pf a op b, sound_system m pf -> held c m pf b -> (forall y, In y (operands op) -> seen c m pf y) ->
  (exists f, fst (m_step c a op (Some b)) = Ret f) \/ (exists w, fst (m_step c a op (Some b)) = Panic w).
Proof. intros c m pf a op b (A & B & C & D & E & F). now apply stepped. Qed.
Print Assumptions C98_step_defined.
(** and what only reads always delivers, but for scientific notation, which may panic (C59). *)
Theorem C98_reads_deliver : forall c m pf a x y, sound_system m pf -> strtod_sound (p_strtod pf) -> seen c m pf x -> seen c m pf y ->
  delivers (m_num_display c x) /\ delivers (m_num_normalize c x) /\ delivers (m_num_hash c x) /\ delivers (m_num_cmp c x y) /\
  (forall bits, int_width bits -> delivers (m_num_to_signed c a bits x) /\ delivers (m_num_to_unsigned c a bits x)) /\
  delivers (m_num_to_f64 c pf x) /\ delivers (m_num_to_f32 c pf x) /\
  (forall lower, delivers (m_num_sci c a m x lower) \/ m_num_sci c a m x lower = Panic (WMsg MDivZero)).
Proof. intros c m pf a x y (A & B & C & D & E & F). now apply reads. Qed.
Print Assumptions C98_reads_deliver.
Theorem C98_owned_reads_deliver : forall c m pf a b, sound_system m pf -> strtod_sound (p_strtod pf) -> held c m pf b ->
  (forall bits, int_width bits -> delivers (m_buf_to_signed c a bits b) /\ delivers (m_buf_to_unsigned c a bits b)) /\
  delivers (m_buf_to_f64 c pf b) /\ delivers (m_buf_to_f32 c pf b).
Proof. intros c m pf a b (A & B & C & D & E & F). now apply owned_reads. Qed.
Print Assumptions C98_owned_reads_deliver.

(** Non-vacuity: a platform as assumed exists; a program, in memory full of 7s: parse "9999.5", round it in place to 10000
    (its buffer then starts one word earlier), add -12345.678, a number handed in, giving -2345.678, and multiply that by
    itself in place; then the square root is a call. *)
Example C98_system : exists m, sound_system m sample_platform /\ strtod_sound (p_strtod sample_platform).
Proof.
  destruct machine_frac_platform as (m & A & B & C & D & E). destruct sound_platform as [F G]. exists m. split; [|exact G]. repeat (split; [assumption|]). exact F.
Qed.
Definition sevens7 : nat -> nat -> Z := fun _ _ => 7.
Definition b98 : pbuf := PBuf [7; 7; 7; 56; 0; -31999; 550; 2205; 2796; 8400] 6.
Definition x98 : bytes := [56; 0; 0; 0; 1; 131; 38; 2; 157; 8; 236; 10; 208; 32].
Example C98_program : forall m pf, held dbgc m pf b98 /\ seen dbgc m pf x98 /\ call dbgc m pf (some_buf (m_num_sqrt dbgc sevens7 50 x98)).
Proof.
  intros m pf.
  assert (H1 : held dbgc m pf (PBuf [7; 7; 40; 0; -32640; 9999; 5000] 4)).
  { apply (h_call _ _ _ (got (m_from_str dbgc sevens7 [57; 57; 57; 57; 46; 53]))); [|vm_compute; reflexivity]. apply c_parse. reflexivity. }
  assert (H2 : held dbgc m pf (PBuf [7; 32; 0; -32767; 1; 0; 5000] 2)).
  { apply (h_step _ _ _ sevens7 (InPlace (ORound 0)) _ (Ret false) _ H1); [intros y []|vm_compute; reflexivity]. }
  assert (H3 : held dbgc m pf (PBuf [7; 7; 7; 40; 0; -24192; 2345; 6780] 6)).
  { apply (h_step _ _ _ sevens7 (AddAssign (sample n_a)) _ (Ret false) _ H2); [|vm_compute; reflexivity].
    intros y [<-|[]]. exact (s_outside _ _ _ n_a n_a_canonical). }
  assert (S3 : seen dbgc m pf [40; 0; 0; 0; 128; 161; 41; 9; 124; 26]) by (apply (s_held _ _ _ _ _ H3); vm_compute; reflexivity).
  assert (H4 : held dbgc m pf b98).
  { apply (h_step _ _ _ sevens7 (MulAssign [40; 0; 0; 0; 128; 161; 41; 9; 124; 26]) _ (Ret false) _ H3); [|vm_compute; reflexivity]. intros y [<-|[]]. exact S3. }
  assert (S4 : seen dbgc m pf x98) by (apply (s_held _ _ _ _ _ H4); vm_compute; reflexivity).
  split; [exact H4|]. split; [exact S4|]. now apply c_sqrt.
Qed.
(** hence, not by running it: *)
Example C98_sqrt : some_buf (m_num_sqrt dbgc sevens7 50 x98) <> UB.
Proof.
  destruct C98_system as (m & S & _). exact (C98_call_defined dbgc m sample_platform _ S (proj2 (proj2 (C98_program m sample_platform)))).
Qed.
