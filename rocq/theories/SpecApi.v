(** * SpecApi: vocabulary of the property theorems that mentions outcomes of calls. *)
From Coq Require Import ZArith QArith Qabs List Bool.
From Verif Require Import Base Spec.
Import ListNotations.
Open Scope Z_scope.

(** An operation that panics with "value overflows numeric format" when its exact result
    [q] is too large, and otherwise returns it stored with display scale [s]. *)
Definition result_or_panic (be : bool) (q : Q) (s : Z) (r : outcome (list Z)) : Prop :=
  ((Qabs q < limit)%Q -> exists x, r = Ret x /\ stores be x q s) /\
  ((limit <= Qabs q)%Q -> r = Panic (WMsg MOverflow)).

(** Estimated base-10000 weight of a quotient: difference of the weights, one less when the
    first digit of the dividend does not exceed that of the divisor (0 counts as digit 0 of
    weight 0). *)
Definition quotient_weight (n1 n2 : number) : Z :=
  let '(w1, d1) := match digs n1 with [] => (0, 0) | d :: _ => (wt n1, d) end in
  let '(w2, d2) := match digs n2 with [] => (0, 0) | d :: _ => (wt n2, d) end in
  if d1 <=? d2 then w1 - w2 - 1 else w1 - w2.

(** The scale of a quotient: enough for 16 significant digits, at least the scale of either
    operand, at most 1000. *)
Definition div_scale (n1 n2 : number) : Z :=
  Z.min 1000 (Z.max (Z.max (scale n1) (scale n2)) (16 - 4 * quotient_weight n1 n2)).

(** What a caller can see of an operation on possibly-NaN stored numerics. *)
Definition order_of (a b : option Q) : comparison :=
  match a, b with
  | None, None => Eq
  | None, Some _ => Gt
  | Some _, None => Lt
  | Some p, Some q => Qcompare p q
  end.

(** Bytes [x] denote [Some q] (a number, whatever its scale) or [None] (NaN). *)
Definition denotes (be : bool) (x : list Z) (a : option Q) : Prop :=
  match a with
  | None => stores_nan be x
  | Some q => exists s, stores be x q s
  end.

(** Two denotations are the same number. *)
Definition same_value (a b : option Q) : Prop :=
  match a, b with
  | None, None => True
  | Some p, Some q => (p == q)%Q
  | _, _ => False
  end.

(** n! *)
Fixpoint factorial (n : nat) : Z :=
  match n with
  | O => 1
  | S k => Z.of_nat n * factorial k
  end.
