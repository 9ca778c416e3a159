(** * Property theorems: the texts of errors (C97) *)
From Coq Require Import ZArith QArith Qabs List Bool Lia Ascii String.
From Verif Require Import Base Var Binary Format Parse Convert Num Spec SpecApi SpecText SpecDouble Flt Float FloatText FloatApi FloatGrid FloatRange FloatSample
  ParseApi ConvertApi Codec Make Api1 Errors P_Float Samples.
Import ListNotations.
Open Scope Z_scope.

Lemma message_some {A E} (show : E -> text) (m : outcome (A + E)) e : (forall e', show e' = show e -> e' = e) ->
  (message show m = Ret (Some (show e)) <-> m = Ret (inr e)).
Proof.
  intro I. unfold message. destruct m as [[a|e']|w| |]; cbn [bind]; split; intro H; try discriminate H.
  - assert (H' : show e' = show e) by congruence. rewrite (I e' H'). reflexivity.
  - congruence.
Qed.
Lemma message_none {A E} (show : E -> text) (m : outcome (A + E)) : message show m = Ret None <-> exists x, m = Ret (inl x).
Proof.
  unfold message. destruct m as [[a|e']|w| |]; cbn [bind]; split; intro H; try discriminate H; try (destruct H; discriminate).
  - now exists a.
  - reflexivity.
Qed.
(** Different errors have different texts. *)
Lemma parse_display_inj e e' : parse_error_display e' = parse_error_display e -> e' = e.
Proof. destruct e, e'; intro H; try reflexivity; exfalso; revert H; vm_compute; discriminate. Qed.
Lemma conv_display_inj e e' : conv_error_display e' = conv_error_display e -> e' = e.
Proof. destruct e, e'; intro H; try reflexivity; exfalso; revert H; vm_compute; discriminate. Qed.

(** C97: parsing a text prints nothing, "cannot parse numeric from empty string", "invalid numeric literal" or "value overflows
    numeric format", and which one says exactly what is wrong with the text. *)
Theorem C97_parse_message : forall c s, len s < 2 ^ 30 - 8 ->
  (parse_message c s = Ret None <-> exists t, spaced s t /\ (nan_text t \/ exists l, literal_text t l /\ in_range l)) /\
  (parse_message c s = Ret (Some (txt "cannot parse numeric from empty string")) <-> blank s) /\
  (parse_message c s = Ret (Some (txt "invalid numeric literal")) <->
     ~ blank s /\ ~ (exists t, spaced s t /\ (nan_text t \/ exists l, literal_text t l)) /\ ~ exponent_overflow_first s) /\
  (parse_message c s = Ret (Some (txt "value overflows numeric format")) <->
     (exists t l, spaced s t /\ literal_text t l /\ ~ in_range l) \/ exponent_overflow_first s).
Proof.
  intros c s L. unfold parse_message.
  change (txt "cannot parse numeric from empty string") with (parse_error_display PEmpty).
  change (txt "invalid numeric literal") with (parse_error_display PInvalid).
  change (txt "value overflows numeric format") with (parse_error_display POverflow).
  rewrite !message_some by (intros; now apply parse_display_inj). rewrite message_none.
  split; [|split; [now apply parse_empty_iff|split; [now apply parse_invalid_iff|now apply parse_overflow_iff]]].
  split.
  - intros (x & E). destruct (parse_sound c s x L E) as (t & S & [[N _]|(l & T & R & _)]); exists t; (split; [exact S|]); [now left|right; now exists l].
  - intros (t & S & [N|(l & T & R)]); [eexists; exact (from_str_nan c s t S N)|].
    destruct (parse_complete c s t l S T R) as (x & E & _). now exists x.
Qed.
Print Assumptions C97_parse_message.

(** Conversion to an integer type: "cannot convert to numeric" for NaN, "value is out of range" for numbers whose nearest
    integer is, nothing otherwise. *)
Theorem C97_to_int_message : forall c bits x, int_width bits ->
  (stores_nan (be_varlen c) x ->
     to_signed_message c bits x = Ret (Some (txt "cannot convert to numeric")) /\
     to_unsigned_message c bits x = Ret (Some (txt "cannot convert to numeric"))) /\
  (forall q s, stores (be_varlen c) x q s ->
     to_signed_message c bits x =
       Ret (if (- 2 ^ (bits - 1) <=? round_int q) && (round_int q <? 2 ^ (bits - 1)) then None else Some (txt "value is out of range")) /\
     to_unsigned_message c bits x =
       Ret (if (0 <=? round_int q) && (round_int q <? 2 ^ bits) then None else Some (txt "value is out of range"))).
Proof.
  intros c bits x W. split.
  - intro N. destruct (nan_to_int c bits x W N) as (A & _ & B & _). unfold to_signed_message, to_unsigned_message. rewrite A, B. split; reflexivity.
  - intros q s H. unfold to_signed_message, to_unsigned_message.
    destruct (to_signed_iff c bits x q s (round_int q) W H) as (A1 & A2 & _). destruct (to_unsigned_iff c bits x q s (round_int q) W H) as (B1 & B2 & _).
    split.
    + destruct (Z.leb_spec (- 2 ^ (bits - 1)) (round_int q)), (Z.ltb_spec (round_int q) (2 ^ (bits - 1))); cbn [andb];
        [rewrite (proj2 A1) by lia|rewrite (proj2 A2) by lia..]; reflexivity.
    + destruct (Z.leb_spec 0 (round_int q)), (Z.ltb_spec (round_int q) (2 ^ bits)); cbn [andb];
        [rewrite (proj2 B1) by lia|rewrite (proj2 B2) by lia..]; reflexivity.
Qed.
Print Assumptions C97_to_int_message.

(** Conversion from a float: only the infinities are refused, with "cannot convert to numeric". *)
Theorem C97_from_float_message : forall c pf, snprintf_sound (p_snprintf pf) ->
  (forall n, from_f64_message c pf (FInf n) = Ret (Some (txt "cannot convert to numeric")) /\
             from_f32_message c pf (FInf n) = Ret (Some (txt "cannot convert to numeric"))) /\
  (from_f64_message c pf FNaN = Ret None /\ from_f32_message c pf FNaN = Ret None) /\
  (forall f, finite_in binary64 f -> from_f64_message c pf (FNum f) = Ret None) /\
  (forall f, finite_in binary32 f -> from_f32_message c pf (FNum f) = Ret None).
Proof.
  intros c pf S. split; [intro n; split; reflexivity|]. unfold from_f64_message, from_f32_message. rewrite !message_none.
  destruct (C71_from_special c pf) as ((x & E & _) & (y & F & _) & _). split; [split; [now exists x|now exists y]|].
  split; intros f H; apply message_none; [destruct (C71_from_f64 c pf f S H) as (z & _ & _ & Z & _)|destruct (C71_from_f32 c pf f S H) as (z & _ & _ & Z & _)]; now exists z.
Qed.
Print Assumptions C97_from_float_message.

(** Conversion to a float: never an error for f64; "value is out of range" for f32 exactly if the nearest double becomes an infinity or
    a zero that it was not (C72). *)
Theorem C97_to_float_message : forall c pf x, strtod_sound (p_strtod pf) ->
  (valid (be_varlen c) x -> to_f64_message c pf x = Ret None) /\
  (stores_nan (be_varlen c) x -> to_f32_message c pf x = Ret None) /\
  (forall q s, stores (be_varlen c) x q s ->
     exists d, rounds_to binary64 q d /\
       match d with
       | FNum f => (f32_lost f /\ to_f32_message c pf x = Ret (Some (txt "value is out of range"))) \/ (~ f32_lost f /\ to_f32_message c pf x = Ret None)
       | _ => to_f32_message c pf x = Ret None
       end).
Proof.
  intros c pf x S. unfold to_f64_message, to_f32_message. split; [|split].
  - intros [N|(q & s & H)]; apply message_none.
    + destruct (to_float_nan c pf x N) as (E & _). eexists; exact E.
    + destruct (to_f64_spec c pf x q s S H) as (d & E & _). eexists; exact E.
  - intro N. destruct (to_float_nan c pf x N) as (_ & _ & E & _). rewrite E. reflexivity.
  - intros q s H. destruct (to_f32_spec c pf x q s S H) as (d & r & R & -> & _ & K). exists d. split; [exact R|].
    destruct d as [|n|f]; [rewrite K; reflexivity..|]. destruct K as [[L ->]|[L (g & -> & _)]]; [left|right]; (split; [exact L|reflexivity]).
Qed.
Print Assumptions C97_to_float_message.

(** Non-vacuity: "", "12x", "1e131072", -12345.678 to i8 and i32. *)
Example C97_cases :
  parse_message dbgc [] = Ret (Some (txt "cannot parse numeric from empty string")) /\
  parse_message dbgc (txt "12x") = Ret (Some (txt "invalid numeric literal")) /\
  parse_message dbgc (txt "1e131072") = Ret (Some (txt "value overflows numeric format")) /\
  parse_message dbgc (txt "12.5") = Ret None /\
  to_signed_message dbgc 8 (sample n_a) = Ret (Some (txt "value is out of range")) /\
  to_signed_message dbgc 32 (sample n_a) = Ret None /\
  to_signed_message dbgc 32 (nan_layout false) = Ret (Some (txt "cannot convert to numeric")).
Proof. repeat split; vm_compute; reflexivity. Qed.
