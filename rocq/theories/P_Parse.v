(** * Property theorems: parsing (C26 - C30) *)
From Coq Require Import ZArith QArith Qabs Qpower List Bool Lia.
From Verif Require Import Base Var Binary Format Parse Num Spec SpecApi SpecText ParseApi ParseOver Samples.
Import ListNotations.
Open Scope Z_scope.

(** C26 / C27: what parses is in the grammar and gets the value the grammar gives it ... *)
Theorem C26_parse_sound : forall c s x, len s < 2 ^ 30 - 8 -> from_str c s = Ret (inl x) ->
  exists t, spaced s t /\
    ((nan_text t /\ stores_nan (be_varlen c) x) \/
     exists l, literal_text t l /\ in_range l /\ stores (be_varlen c) x (literal_value l) (literal_scale l)).
Proof. exact parse_sound. Qed.
Print Assumptions C26_parse_sound.

(** ... and every text of the grammar within range parses. *)
Theorem C26_parse_complete_nan : forall c s t, spaced s t -> nan_text t ->
  from_str c s = Ret (inl (nan_layout (be_varlen c))).
Proof. exact from_str_nan. Qed.
Print Assumptions C26_parse_complete_nan.

Theorem C27_parse_value : forall c s t l, spaced s t -> literal_text t l -> in_range l ->
  exists x, from_str c s = Ret (inl x) /\ stores (be_varlen c) x (literal_value l) (literal_scale l).
Proof. exact parse_complete. Qed.
Print Assumptions C27_parse_value.

(** C28 *)
Theorem C28_parse_empty : forall c s, len s < 2 ^ 30 - 8 -> (from_str c s = Ret (inr PEmpty) <-> blank s).
Proof. exact parse_empty_iff. Qed.
Print Assumptions C28_parse_empty.

Theorem C28_parse_invalid : forall c s, len s < 2 ^ 30 - 8 ->
  (from_str c s = Ret (inr PInvalid) <->
   ~ blank s /\ ~ (exists t, spaced s t /\ (nan_text t \/ exists l, literal_text t l)) /\
   ~ exponent_overflow_first s).
Proof. exact parse_invalid_iff. Qed.
Print Assumptions C28_parse_invalid.

Theorem C28_parse_overflow : forall c s, len s < 2 ^ 30 - 8 ->
  (from_str c s = Ret (inr POverflow) <->
   (exists t l, spaced s t /\ literal_text t l /\ ~ in_range l) \/ exponent_overflow_first s).
Proof. exact parse_overflow_iff. Qed.
Print Assumptions C28_parse_overflow.

(** C29: the parser always returns, with the same answer in debug and release builds. *)
Theorem C29_parse_total : forall c s, len s < 2 ^ 30 - 8 -> exists r, from_str c s = Ret r.
Proof. exact parse_total. Qed.
Print Assumptions C29_parse_total.

Theorem C29_parse_profiles : forall s be, len s < 2 ^ 30 - 8 ->
  from_str (Cfg true be) s = from_str (Cfg false be) s.
Proof. exact parse_profile. Qed.
Print Assumptions C29_parse_profiles.

(** C30 is false: "0e131072" denotes 0 at scale 0 and is reported as an overflow. *)
Theorem C30_refuted : exists s l, literal_text s l /\ (literal_value l == 0)%Q /\ literal_scale l = 0 /\
  forall c, from_str c s = Ret (inr POverflow).
Proof.
  exists [48; 101; 49; 51; 49; 48; 55; 50], (Literal false [48] [] 131072).
  split; [|split; [|split; [reflexivity|intros [[] []]; vm_compute; reflexivity]]].
  - exact (literal_intro [] [48] [101; 49; 51; 49; 48; 55; 50] false [48] [] 131072 sign_none
      (mantissa_int [48] ltac:(discriminate) ltac:(repeat constructor; unfold digit_char; lia))
      (exponent_some 101 [] false [49; 51; 49; 48; 55; 50] (or_introl eq_refl) sign_none ltac:(discriminate)
         ltac:(repeat constructor; unfold digit_char; lia))).
  - unfold literal_value. cbn [l_neg l_int l_frac app]. change (number_of [48]) with 0.
    rewrite Qmult_0_r. apply Qmult_0_l.
Qed.
Print Assumptions C30_refuted.

(** It holds of literals written with a non-zero first digit: then an overflow report means
    the value or the scale really is out of range. *)
Theorem C30_no_spurious_overflow : forall c s t l b q, len s < 2 ^ 30 - 8 ->
  spaced s t -> literal_text t l -> exponent_ok l -> l_int l = b :: q -> b <> 48 ->
  (from_str c s = Ret (inr POverflow) <-> ((limit <= Qabs (literal_value l))%Q \/ 16383 < literal_scale l)).
Proof. exact genuine_overflow. Qed.
Print Assumptions C30_no_spurious_overflow.

(** C30, exactly: an overflow is reported when the value or the scale does not fit, and also when the
    digits written before the point, moved by the exponent, are more than 131072; for a representable
    literal that takes a leading zero. *)
Theorem C30_overflow_exactly : forall c s t l, len s < 2 ^ 30 - 8 -> spaced s t -> literal_text t l ->
  (from_str c s = Ret (inr POverflow) <->
     ((limit <= Qabs (literal_value l))%Q \/ 16383 < literal_scale l \/ 131072 < len (l_int l) + l_exp l)) /\
  ((Qabs (literal_value l) < limit)%Q -> literal_scale l <= 16383 -> 131072 < len (l_int l) + l_exp l ->
     exists r, l_int l ++ l_frac l = 48 :: r).
Proof. exact overflow_exact. Qed.
Print Assumptions C30_overflow_exactly.

(** ** Non-vacuity: " -012.50e-3\n" *)
Example parse_case :
  let t := [45; 48; 49; 50; 46; 53; 48; 101; 45; 51] in
  let l := Literal true [48; 49; 50] [53; 48] (-3) in
  spaced (32 :: t ++ [10]) t /\ literal_text t l /\ in_range l /\
  (literal_value l == -125 # 10000)%Q /\ literal_scale l = 5 /\
  from_str dbgc (32 :: t ++ [10]) = Ret (inl (sample (Number true (-1) 5 [125]))).
Proof.
  intros t l. split; [|split; [|split; [|split; [|split]]]].
  - exists [32], [10]. split; [reflexivity|]. split; repeat constructor; unfold space_char; cbn; tauto.
  - exact (literal_intro [45] [48; 49; 50; 46; 53; 48] [101; 45; 51] true [48; 49; 50] [53; 48] (-3) sign_minus
      (mantissa_point [48; 49; 50] [53; 48] ltac:(discriminate) ltac:(repeat constructor; unfold digit_char; lia)
         ltac:(repeat constructor; unfold digit_char; lia))
      (exponent_some 101 [45] true [51] (or_introl eq_refl) sign_minus ltac:(discriminate)
         ltac:(repeat constructor; unfold digit_char; lia))).
  - unfold in_range, exponent_ok. cbn. lia.
  - vm_compute. reflexivity.
  - reflexivity.
  - vm_compute. reflexivity.
Qed.

Example error_cases : from_str dbgc [32; 9] = Ret (inr PEmpty) /\ from_str dbgc [45; 46] = Ret (inr PInvalid) /\
  from_str dbgc [49; 101; 57; 57; 57; 57; 57; 57; 57; 57; 57; 57; 57; 120] = Ret (inr POverflow).
Proof. split; [|split]; vm_compute; reflexivity. Qed.
