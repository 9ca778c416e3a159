(** * Property theorems: comparison and hashing (C35 - C37) *)
From Coq Require Import ZArith QArith Qabs Qround List Bool Lia.
From Verif Require Import Base Var Binary Num Spec SpecApi Api3 OrderLaws Samples.
Import ListNotations.
Open Scope Z_scope.

(** C35: the order of the values, NaN greatest *)
Theorem C35_cmp : forall c x y a b, denotes (be_varlen c) x a -> denotes (be_varlen c) y b ->
  num_cmp c x y = Ret (order_of a b).
Proof. exact num_cmp_spec. Qed.
Print Assumptions C35_cmp.

Theorem C35_total_order : forall c x y z,
  valid (be_varlen c) x -> valid (be_varlen c) y -> valid (be_varlen c) z ->
  (exists r, num_cmp c x y = Ret r /\ num_cmp c y x = Ret (CompOpp r)) /\
  num_cmp c x x = Ret Eq /\
  (forall r, num_cmp c x y = Ret r -> num_cmp c y z = Ret r -> num_cmp c x z = Ret r) /\
  (num_cmp c x y = Ret Eq -> num_cmp c x z = num_cmp c y z).
Proof. exact cmp_total_order. Qed.
Print Assumptions C35_total_order.

(** C36 *)
Theorem C36_eq : forall c x y a b, denotes (be_varlen c) x a -> denotes (be_varlen c) y b ->
  exists r, num_eq c x y = Ret r /\ (r = true <-> same_value a b).
Proof. exact num_eq_spec. Qed.
Print Assumptions C36_eq.

Theorem C36_hash_consistent : forall c x y, valid (be_varlen c) x -> valid (be_varlen c) y ->
  num_eq c x y = Ret true -> exists h, num_hash c x = Ret h /\ num_hash c y = Ret h.
Proof. exact hash_consistent. Qed.
Print Assumptions C36_hash_consistent.

(** C37 *)
Theorem C37_hash_separates : forall c x y, valid (be_varlen c) x -> valid (be_varlen c) y ->
  num_eq c x y = Ret false ->
  exists hx hy, num_hash c x = Ret hx /\ num_hash c y = Ret hy /\ hx <> hy.
Proof. exact hash_separates. Qed.
Print Assumptions C37_hash_separates.

(** ** Non-vacuity: 12345.678 and 12345.6780 are equal with different bytes *)
Example order_case :
  let n' := Number true 1 4 [1; 2345; 6780] in
  denotes false (sample n_a) (Some (value n_a)) /\ sample n_a <> sample n' /\
  num_eq dbgc (sample n_a) (sample n') = Ret true /\ num_hash dbgc (sample n_a) = num_hash dbgc (sample n') /\
  num_eq dbgc (sample n_a) (sample n_b) = Ret false /\ num_cmp dbgc (sample n_a) (nan_layout false) = Ret Lt.
Proof.
  split; [exists 3; exact (sample_stores n_a n_a_canonical)|]. split; [discriminate|]. repeat split.
Qed.
