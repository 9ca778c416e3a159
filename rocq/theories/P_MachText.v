(** * Property theorems: parsing, integer conversions and text output at the level of the machine (C88) *)
From Coq Require Import ZArith QArith Qabs List Bool Lia.
From Verif Require Import Base Var Binary Format Parse Convert Num Data Spec SpecApi SpecText SpecData SpecMach Samples ConvertApi
  Mach MachText MachParse MachConv MachTextApi P_Mach.
Import ListNotations.
Open Scope Z_scope.

(** C88: run statement by statement, with every u8, i16, i32, i64, u32, usize operation and every operation in the
    integer type converted checked (debug) or wrapping (release), and digit buffers of arbitrary initial content, the
    parser returns what the model on lists returns: the same error, or a buffer that shows the same bytes. *)
Theorem C88_machine_parse : forall c (a : nat -> nat -> Z) s, len s < 2 ^ 30 - 8 -> parses c (m_from_str c a s) (from_str c s).
Proof. exact parse_mach. Qed.
Print Assumptions C88_machine_parse.

(** hence it reads exactly the literals in range, each to its value and scale *)
Theorem C88_machine_parse_values : forall c (a : nat -> nat -> Z) s, len s < 2 ^ 30 - 8 ->
  (forall t l, spaced s t -> literal_text t l -> in_range l ->
     exists b x, m_from_str c a s = Ret (inl b) /\ shows c (Some b) (Some x) /\
       stores (be_varlen c) x (literal_value l) (literal_scale l)) /\
  (forall b, m_from_str c a s = Ret (inl b) ->
     exists t x, spaced s t /\ shows c (Some b) (Some x) /\
       ((nan_text t /\ stores_nan (be_varlen c) x) \/
        exists l, literal_text t l /\ in_range l /\ stores (be_varlen c) x (literal_value l) (literal_scale l))).
Proof. exact machine_parse_values. Qed.
Print Assumptions C88_machine_parse_values.

(** the integer conversions both ways, and the plain text *)
Theorem C88_machine_conversions : forall c (a : nat -> nat -> Z) bits, int_width bits ->
  (forall k, - 2 ^ (bits - 1) <= k < 2 ^ (bits - 1) ->
     exists b x, m_num_from_signed c a bits k = Ret b /\ shows c (Some b) (Some x) /\ stores (be_varlen c) x (inject_Z k) 0) /\
  (forall k, 0 <= k < 2 ^ bits ->
     exists b x, m_num_from_unsigned c a bits k = Ret b /\ shows c (Some b) (Some x) /\ stores (be_varlen c) x (inject_Z k) 0) /\
  (forall x q s, stores (be_varlen c) x q s ->
     m_num_to_signed c a bits x =
       Ret (if (- 2 ^ (bits - 1) <=? round_int q) && (round_int q <? 2 ^ (bits - 1)) then inl (round_int q) else inr COverflow) /\
     m_num_to_unsigned c a bits x =
       Ret (if (0 <=? round_int q) && (round_int q <? 2 ^ bits) then inl (round_int q) else inr COverflow) /\
     exists t, m_num_display c x = Ret t /\ plain_text t q s).
Proof. exact machine_int_values. Qed.
Print Assumptions C88_machine_conversions.

(** NaN included, they are what the model on lists gives. *)
Theorem C88_machine_read : forall c (a : nat -> nat -> Z) bits x, valid (be_varlen c) x ->
  m_num_display c x = num_display c x /\
  (int_width bits -> m_num_to_signed c a bits x = num_to_signed c bits x /\ m_num_to_unsigned c a bits x = num_to_unsigned c bits x).
Proof. exact read_agrees. Qed.
Print Assumptions C88_machine_read.

(** the scale [{:e}] chooses *)
Theorem C88_machine_sci_scale : forall c x q s, stores (be_varlen c) x q s ->
  (p <- m_as_var c x ;; m_select_sci_scale c p) = (v <- as_var c x ;; select_sci_scale c v).
Proof. exact machine_sci_scale. Qed.
Print Assumptions C88_machine_sci_scale.

(** Non-vacuity: " -012.50e-3\n" is -0.01250, read in memory full of 7s *)
Definition txt1 : text := [32; 45; 48; 49; 50; 46; 53; 48; 101; 45; 51; 10].
Definition shown_p (m : outcome (pres pbuf)) : outcome (pres bytes) :=
  o <- m ;; match o with inl b => x <- as_bytes dbgc b ;; Ret (inl x) | inr e => Ret (inr e) end.
Example machine_parse_case : shown_p (m_from_str dbgc sevens2 txt1) = Ret (inl (sample (Number true (-1) 5 [125]))).
Proof. vm_compute. reflexivity. Qed.
Example machine_parse_literal : spaced txt1 [45; 48; 49; 50; 46; 53; 48; 101; 45; 51] /\
  literal_text [45; 48; 49; 50; 46; 53; 48; 101; 45; 51] (Literal true [48; 49; 50] [53; 48] (-3)) /\
  in_range (Literal true [48; 49; 50] [53; 48] (-3)).
Proof.
  split; [exists [32], [10]; repeat split; repeat constructor; cbn; tauto|]. split.
  - refine (literal_intro [45] [48; 49; 50; 46; 53; 48] [101; 45; 51] true [48; 49; 50] [53; 48] (-3) sign_minus _ _).
    + apply (mantissa_point [48; 49; 50] [53; 48]); [discriminate|repeat constructor; unfold digit_char; lia|repeat constructor; unfold digit_char; lia].
    + exact (exponent_some 101 [45] true [51] (or_introl eq_refl) sign_minus ltac:(discriminate) ltac:(repeat constructor; unfold digit_char; lia)).
  - unfold in_range, exponent_ok, len. cbn. lia.
Qed.
Example machine_parse_bad : m_from_str dbgc sevens2 [49; 50; 120] = Ret (inr PInvalid).
Proof. vm_compute. reflexivity. Qed.
(** i64::MIN, both ways; -128.5 to i8 and 2^63 to i64 overflow *)
Example machine_i64_min : int_width 64 /\
  shown (b <- m_num_from_signed dbgc sevens2 64 (-9223372036854775808) ;; Ret (Some b)) =
    Ret (Some (sample (Number true 4 0 [922; 3372; 368; 5477; 5808]))) /\
  m_num_to_signed dbgc sevens2 64 (sample (Number true 4 0 [922; 3372; 368; 5477; 5808])) = Ret (inl (-9223372036854775808)) /\
  m_num_to_signed dbgc sevens2 64 (sample (Number false 4 0 [922; 3372; 368; 5477; 5808])) = Ret (inr COverflow) /\
  m_num_to_signed dbgc sevens2 8 (sample (Number true 0 1 [128; 5000])) = Ret (inr COverflow) /\
  m_num_to_unsigned dbgc sevens2 64 (sample (Number false 4 0 [922; 3372; 368; 5477; 5808])) = Ret (inl 9223372036854775808).
Proof. split; [unfold int_width; tauto|]. repeat split; vm_compute; reflexivity. Qed.
Example machine_display : m_num_display dbgc (sample n_a) = Ret [45; 49; 50; 51; 52; 53; 46; 54; 55; 56].
Proof. vm_compute. reflexivity. Qed.
Example machine_scale : (p <- m_as_var dbgc (sample n_a) ;; m_select_sci_scale dbgc p) = Ret 7.
Proof. vm_compute. reflexivity. Qed.
