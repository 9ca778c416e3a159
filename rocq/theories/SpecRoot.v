(** * SpecRoot: vocabulary of the property theorems about approximate functions. *)
From Coq Require Import ZArith QArith Qabs List Bool.
From Verif Require Import Base Spec.
Import ListNotations.
Open Scope Z_scope.

(** [r] is within [h] of the square root of [a]. *)
Definition close_root (a r h : Q) : Prop :=
  (0 <= r)%Q /\ (a <= (r + h) * (r + h))%Q /\ ((h <= r)%Q -> ((r - h) * (r - h) <= a)%Q).

(** The scale of a square root: 16 significant digits of it, estimated from the weight of the
    operand, at least the operand's scale, at most 1000. *)
Definition root_scale (n : number) : Z := Z.min 1000 (Z.max (scale n) (15 - 2 * wt n)).

(** Half a unit of the [s]-th decimal and two hundred-millionths of one. *)
Definition root_error (s : Z) : Q := (((1 # 2) + (2 # 100000000)) * ten ^ (- s))%Q.

(** The root of [n], in units of its eighth decimal beyond the scale of the result, is within 10^-9 of an
    integer and a quarter. *)
Definition near_quarter (n : number) : Prop :=
  exists k : Z, 0 <= k /\
    let q := (inject_Z k + (1 # 4))%Q in let h := (1 # 1000000000)%Q in
    let a := (value n * ten ^ (root_scale n + 8) * ten ^ (root_scale n + 8))%Q in
    ((q - h) * (q - h) <= a)%Q /\ (a <= (q + h) * (q + h))%Q.
