(** * Errors: model of src/error.rs *)
From Coq Require Import ZArith QArith List Bool Ascii String.
From Verif Require Import Base Var Binary Format Parse Convert SpecDouble Flt Float.
Import ListNotations.
Open Scope Z_scope.

(** the bytes of an ASCII string literal *)
Definition txt (s : string) : text := map (fun a => Z.of_nat (nat_of_ascii a)) (list_ascii_of_string s).

(** error.rs 34-42: Display for NumericParseError *)
Definition parse_error_display (e : parse_error) : text :=
  match e with
  | PEmpty => txt "cannot parse numeric from empty string"
  | PInvalid => txt "invalid numeric literal"
  | POverflow => txt "value overflows numeric format"
  end.
(** error.rs 79-86: Display for NumericTryFromError *)
Definition conv_error_display (e : conv_error) : text :=
  match e with
  | CInvalid => txt "cannot convert to numeric"
  | COverflow => txt "value is out of range"
  end.

(** What a caller that prints errors prints: [None] if there is none. *)
Definition message {A E} (show : E -> text) (m : outcome (A + E)) : outcome (option text) :=
  r <- m ;; match r with inl _ => Ret None | inr e => Ret (Some (show e)) end.
(** s.parse::<NumericBuf>() *)
Definition parse_message (c : cfg) (s : text) := message parse_error_display (from_str c s).
(** TryFrom<&Numeric> for an integer type, TryFrom<f64>, TryFrom<f32> for NumericBuf, TryFrom<&Numeric> for f64, f32 *)
Definition to_signed_message (c : cfg) (bits : Z) (x : bytes) := message conv_error_display (num_to_signed c bits x).
Definition to_unsigned_message (c : cfg) (bits : Z) (x : bytes) := message conv_error_display (num_to_unsigned c bits x).
Definition from_f64_message (c : cfg) (pf : platform) (f : fval) := message conv_error_display (num_from_f64 c pf f).
Definition from_f32_message (c : cfg) (pf : platform) (f : fval) := message conv_error_display (num_from_f32 c pf f).
Definition to_f64_message (c : cfg) (pf : platform) (x : bytes) := message conv_error_display (num_to_f64 c pf x).
Definition to_f32_message (c : cfg) (pf : platform) (x : bytes) := message conv_error_display (num_to_f32 c pf x).
