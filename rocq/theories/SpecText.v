(** * SpecText: the text forms of a numeric.

    This file does not mention the model. Text is a list of byte codes. *)
From Coq Require Import ZArith QArith Qabs Qpower List Bool.
From Verif Require Import Spec.
Import ListNotations.
Open Scope Z_scope.

(** '0' .. '9'; space, tab, newline, form feed, carriage return. *)
Definition digit_char (b : Z) : Prop := 48 <= b <= 57.
Definition space_char (b : Z) : Prop := In b [32; 9; 10; 12; 13].
Definition blank (s : list Z) : Prop := Forall space_char s.

(** The number written by a list of decimal digit characters (0 if empty). *)
Definition number_of (ds : list Z) : Z := fold_left (fun a b => a * 10 + (b - 48)) ds 0.

Definition len (s : list Z) : Z := Z.of_nat (length s).

(** [sign] := empty | '+' | '-' *)
Inductive sign_text : list Z -> bool -> Prop :=
| sign_none : sign_text [] false
| sign_plus : sign_text [43] false
| sign_minus : sign_text [45] true.

(** [exponent] := empty | ('e' | 'E') sign digits *)
Inductive exponent_text : list Z -> Z -> Prop :=
| exponent_none : exponent_text [] 0
| exponent_some : forall b sg n ds, b = 101 \/ b = 69 -> sign_text sg n -> ds <> [] -> Forall digit_char ds ->
    exponent_text (b :: sg ++ ds) (if n then - number_of ds else number_of ds).

(** [mantissa] := digits | [digits] '.' [digits], at least one digit; with its integral and
    fractional digits. *)
Inductive mantissa_text : list Z -> list Z -> list Z -> Prop :=
| mantissa_int : forall ip, ip <> [] -> Forall digit_char ip -> mantissa_text ip ip []
| mantissa_point : forall ip fp, ip ++ fp <> [] -> Forall digit_char ip -> Forall digit_char fp ->
    mantissa_text (ip ++ 46 :: fp) ip fp.

(** A decimal literal: sign, integral digits, fractional digits, exponent. *)
Record literal := Literal { l_neg : bool; l_int : list Z; l_frac : list Z; l_exp : Z }.

Inductive literal_text : list Z -> literal -> Prop :=
| literal_intro : forall sg m ex n ip fp e,
    sign_text sg n -> mantissa_text m ip fp -> exponent_text ex e ->
    literal_text (sg ++ m ++ ex) (Literal n ip fp e).

(** "NaN" in any case. *)
Definition nan_text (s : list Z) : Prop :=
  exists a b d, s = [a; b; d] /\ (a = 110 \/ a = 78) /\ (b = 97 \/ b = 65) /\ (d = 110 \/ d = 78).

(** What a literal denotes, and its display scale. *)
Definition literal_value (l : literal) : Q :=
  ((if l_neg l then -1 else 1) * inject_Z (number_of (l_int l ++ l_frac l))
   * ten ^ (l_exp l - len (l_frac l)))%Q.
Definition literal_scale (l : literal) : Z := Z.max 0 (len (l_frac l) - l_exp l).

(** Limits on the literal: exponent magnitude, digits before the point (131072 = 4 * 32768)
    and after the point once the exponent has been applied. *)
Definition exponent_ok (l : literal) : Prop := Z.abs (l_exp l) < 1073741823.
Definition in_range (l : literal) : Prop :=
  exponent_ok l /\ len (l_int l) + l_exp l <= 131072 /\ len (l_frac l) - l_exp l <= 16383.

(** A literal surrounded by white space. *)
Definition spaced (s t : list Z) : Prop :=
  exists pre post, s = pre ++ t ++ post /\ blank pre /\ blank post.

(** The plain decimal text of [q] with [s] decimals: an optional minus sign, the integral
    digits without superfluous zeros, and, if [s] > 0, a point and exactly [s] digits. *)
Definition plain_text (t : list Z) (q : Q) (s : Z) : Prop :=
  exists n ip fp,
    t = (if n : bool then [45] else []) ++ ip ++ (if s =? 0 then [] else 46 :: fp) /\
    Forall digit_char ip /\ Forall digit_char fp /\
    (ip = [48] \/ exists b r, ip = b :: r /\ b <> 48) /\
    len fp = s /\
    (n = true <-> (q < 0)%Q) /\
    (Qabs q == inject_Z (number_of (ip ++ fp)) * ten ^ (- s))%Q.

(** The text begins with a literal whose exponent is out of bounds (whatever follows). *)
Definition exponent_overflow_first (s : list Z) : Prop :=
  exists pre t r l, s = pre ++ t ++ r /\ blank pre /\ (forall b q, r = b :: q -> ~ digit_char b) /\
    literal_text t l /\ ~ exponent_ok l.

(** The shortest plain decimal text of [q]: no scale smaller than its own can express [q]. *)
Definition shortest_text (t : list Z) (q : Q) : Prop :=
  exists s, plain_text t q s /\ forall t' s', plain_text t' q s' -> s <= s'.
