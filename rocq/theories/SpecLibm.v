(** * SpecLibm: what the theorems about powers and the scientific format assume of the platform's
    f64::log10 and f64::ln, and the shape of a scientific text.

    This file does not mention the model. *)
From Coq Require Import ZArith QArith Qabs List Bool.
From Verif Require Import Spec SpecText.
Import ListNotations.
Open Scope Z_scope.

(** log10 of the integers 1 .. 9999 (the digits of a numeric): the integral part is right, 1 and 10
    have exact logarithms, and the absolute error is at most 10^-9, said without real numbers: if
    d^b <= 10^a then b * lg d <= a + b / 10^9, and conversely. *)
Record log10_sound (lg : Q -> Q) : Prop := {
  lg_floor : forall d k, 0 <= k -> d <= 9999 -> 10 ^ k <= d < 10 ^ (k + 1) ->
    (inject_Z k <= lg (inject_Z d) < inject_Z (k + 1))%Q;
  lg_one : (lg 1 == 0)%Q;
  lg_ten : (lg 10 == 1)%Q;
  lg_upper : forall d a b, 1 <= d <= 9999 -> 0 <= a -> 0 <= b -> d ^ b <= 10 ^ a ->
    (inject_Z b * lg (inject_Z d) <= inject_Z a + inject_Z b * (1 # 1000000000))%Q;
  lg_lower : forall d a b, 1 <= d <= 9999 -> 0 <= a -> 0 <= b -> 10 ^ a <= d ^ b ->
    (inject_Z a <= inject_Z b * lg (inject_Z d) + inject_Z b * (1 # 1000000000))%Q
}.

(** ln of an integer from 1 on is not negative. *)
Definition ln_sound (ln : Q -> Q) : Prop := forall a, 1 <= a -> (0 <= ln (inject_Z a))%Q.

(** The scientific text of a non-zero [q], [mark] being 'e' or 'E': an optional minus sign, one
    non-zero digit, then, unless there are no more digits, a point and digits not ending in 0, then
    the mark, the sign of the exponent (always written) and at least two exponent digits, without
    superfluous zeros. *)
Definition sci_text (t : list Z) (q : Q) (mark : Z) : Prop :=
  exists (n : bool) d fp e ed,
    t = (if n then [45] else []) ++ d :: (match fp with [] => [] | _ => 46 :: fp end)
        ++ mark :: (if e <? 0 then 45 else 43) :: ed /\
    digit_char d /\ d <> 48 /\ Forall digit_char fp /\ (forall p b, fp = p ++ [b] -> b <> 48) /\
    Forall digit_char ed /\ number_of ed = Z.abs e /\
    (len ed = 2 \/ (2 < len ed /\ exists b r, ed = b :: r /\ b <> 48)) /\
    (n = true <-> (q < 0)%Q) /\
    (Qabs q == inject_Z (number_of (d :: fp)) * ten ^ (e - len fp))%Q.
