(** * Flt: IEEE-754 binary64 arithmetic as used by src/var.rs.

    A double is the rational it denotes; an operation is the exact rational operation followed by
    [fl], rounding to the nearest 53-bit significand, ties to even. Simplification: the exponent
    range is unbounded (no subnormals, infinities or NaN). Every double the modelled code computes
    has magnitude 0 or between 1e-17 and 1e31. *)
From Coq Require Import ZArith QArith.
Open Scope Z_scope.

(** Nearest integer to n/d (d > 0), ties to even. *)
Definition rne (n d : Z) : Z :=
  let q := n / d in
  let r := n mod d in
  if 2 * r <? d then q
  else if d <? 2 * r then q + 1
  else if Z.even q then q else q + 1.

(** The exponent of the last place: 2^52 <= |x| / 2^e < 2^53. *)
Definition flexp (x : Q) : Z :=
  let k := Z.log2 (Z.abs (Qnum x)) - Z.log2 (QDen x) in
  if QDen x * 2 ^ Z.max 0 k <=? Z.abs (Qnum x) * 2 ^ Z.max 0 (- k) then k - 52 else k - 53.

Definition fl (x : Q) : Q :=
  if Qnum x =? 0 then 0%Q
  else
    let e := flexp x in
    let m := rne (Qnum x * 2 ^ Z.max 0 (- e)) (QDen x * 2 ^ Z.max 0 e) in
    if 0 <=? e then inject_Z (m * 2 ^ e) else Qmake m (Z.to_pos (2 ^ (- e))).

(** f64 operations *)
Definition fadd (x y : Q) : Q := fl (x + y).
Definition fmul (x y : Q) : Q := fl (x * y).
Definition fdiv (x y : Q) : Q := fl (x / y).

(** [x as i32]: truncation toward zero, saturating. *)
Definition f2i (x : Q) : Z :=
  Z.max (-2147483648) (Z.min 2147483647 (Z.quot (Qnum x) (QDen x))).
