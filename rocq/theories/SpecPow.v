(** * SpecPow: what the accuracy of integer powers is stated with.

    This file does not mention the model. *)
From Coq Require Import ZArith QArith Qabs.
From Verif Require Import Spec.
Open Scope Z_scope.

(** [l] is the number [q] cut after its first base-10000 digit, without its sign: 12.5 gives 12,
    123456.7 gives 120000, 0.00019 gives 0.0001. *)
Definition leading (q l : Q) : Prop :=
  exists d w, 1 <= d <= 9999 /\ (l == inject_Z d * ten ^ (4 * w))%Q /\
    (l <= Qabs q)%Q /\ (Qabs q < inject_Z (d + 1) * ten ^ (4 * w))%Q.

(** The platform's log10 of the integers 1 .. 9999 is right to 10^-13 (a double of this size carries
    a rounding error below 10^-15), said without real numbers: 10^a <= d^b implies
    a <= b (lg d + 10^-13), and conversely. *)
Record log10_fine (lg : Q -> Q) : Prop := {
  fine_upper : forall d a b, 1 <= d <= 9999 -> 0 <= a -> 0 <= b -> d ^ b <= 10 ^ a ->
    (inject_Z b * lg (inject_Z d) <= inject_Z a + inject_Z b * (1 # 10000000000000))%Q;
  fine_lower : forall d a b, 1 <= d <= 9999 -> 0 <= a -> 0 <= b -> 10 ^ a <= d ^ b ->
    (inject_Z a <= inject_Z b * lg (inject_Z d) + inject_Z b * (1 # 10000000000000))%Q
}.

(** The platform's ln of an i32 lies between 0.69 and 0.7 times the number of bits (ln 2 is 0.693...). *)
Definition ln_between (ln : Q -> Q) : Prop := forall a j, 0 <= j <= 30 -> 2 ^ j <= a < 2 ^ (j + 1) ->
  ((69 # 100) * inject_Z j <= ln (inject_Z a) <= (7 # 10) * inject_Z (j + 1))%Q.
