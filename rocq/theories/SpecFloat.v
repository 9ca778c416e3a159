(** * SpecFloat: what the theorems about exp and fractional powers assume of the conversion of a
    decimal text to f64 (the strtod crate, which is not modelled).

    [vval v] is the rational a digit array denotes (Digits.v). Nothing is assumed of arrays with digits
    beyond their display scale, whose text is truncated. C74 derives [float_sound] from [strtod_sound]. *)
From Coq Require Import ZArith QArith Qabs.
From Verif Require Import Base Var Spec SpecDouble Digits Transc.
Open Scope Z_scope.

Record float_sound (m : libm) : Prop := {
  (** small integers are converted exactly *)
  fs_int : forall v n, stripped v -> 0 <= dscale v -> expressible (vval v) (dscale v) -> (vval v == inject_Z n)%Q -> Z.abs n <= 2 ^ 53 ->
    exists f, f_of_var m v = Some f /\ (f == inject_Z n)%Q;
  (** relative error 10^-15, or underflow *)
  fs_near : forall v, stripped v -> 0 <= dscale v -> expressible (vval v) (dscale v) -> (Qabs (vval v) <= ten ^ 300)%Q ->
    exists f, f_of_var m v = Some f /\ (Qabs (f - vval v) <= Qabs (vval v) * ten ^ (-15) + ten ^ (-300))%Q;
  (** monotone: from an integer of at most 53 bits on, the result is at least that integer (possibly infinite) *)
  fs_big : forall v k, stripped v -> 0 <= dscale v -> expressible (vval v) (dscale v) -> 0 <= k <= 2 ^ 53 ->
    (inject_Z k <= Qabs (vval v))%Q -> exists f, f_of_var m v = Some f /\ (inject_Z k <= Qabs f)%Q
}.
