(** * OrderLaws: total-order and hashing consequences. *)
From Coq Require Import ZArith QArith Qabs Qround List Bool Lia Lqa.
From Verif Require Import Base Var Binary Num Spec SpecApi Api3.
Import ListNotations.
Open Scope Z_scope.

Lemma valid_denotes be z : valid be z -> exists a, denotes be z a.
Proof. intros [N|(q & s & S)]; [exists None; exact N|exists (Some q); now exists s]. Qed.

Lemma order_opp a b : order_of b a = CompOpp (order_of a b).
Proof. destruct a as [p|], b as [q|]; cbn; try reflexivity. now rewrite Qcompare_antisym. Qed.
Lemma order_refl a : order_of a a = Eq.
Proof. destruct a as [p|]; cbn; [|reflexivity]. apply (proj1 (Qeq_alt p p)). reflexivity. Qed.
Lemma order_trans a b d r : order_of a b = r -> order_of b d = r -> order_of a d = r.
Proof.
  destruct a as [p|], b as [q|], d as [t|]; cbn; try congruence.
  destruct r; intros H1 H2.
  - apply Qeq_alt in H1, H2. apply (proj1 (Qeq_alt _ _)). lra.
  - apply Qlt_alt in H1, H2. apply (proj1 (Qlt_alt _ _)). lra.
  - apply Qgt_alt in H1, H2. apply (proj1 (Qgt_alt _ _)). lra.
Qed.
Lemma order_eq a b d : order_of a b = Eq -> order_of a d = order_of b d.
Proof.
  destruct a as [p|], b as [q|], d as [t|]; cbn; try congruence.
  intro H. apply Qeq_alt in H. now rewrite H.
Qed.

Lemma cmp_total_order c x y z :
  valid (be_varlen c) x -> valid (be_varlen c) y -> valid (be_varlen c) z ->
  (exists r, num_cmp c x y = Ret r /\ num_cmp c y x = Ret (CompOpp r)) /\
  num_cmp c x x = Ret Eq /\
  (forall r, num_cmp c x y = Ret r -> num_cmp c y z = Ret r -> num_cmp c x z = Ret r) /\
  (num_cmp c x y = Ret Eq -> num_cmp c x z = num_cmp c y z).
Proof.
  intros Vx Vy Vz. destruct (valid_denotes _ _ Vx) as (a & A). destruct (valid_denotes _ _ Vy) as (b & B).
  destruct (valid_denotes _ _ Vz) as (d & D).
  rewrite (num_cmp_spec c x y a b A B), (num_cmp_spec c y x b a B A), (num_cmp_spec c x x a a A A),
    (num_cmp_spec c y z b d B D), (num_cmp_spec c x z a d A D).
  split; [exists (order_of a b); split; [reflexivity|now rewrite order_opp]|].
  split; [now rewrite order_refl|]. split.
  - intros r H1 H2. injection H1 as H1. injection H2 as H2. f_equal. now apply (order_trans a b d).
  - intro H. injection H as H. f_equal. now apply order_eq.
Qed.

Lemma hash_consistent c x y : valid (be_varlen c) x -> valid (be_varlen c) y ->
  num_eq c x y = Ret true -> exists h, num_hash c x = Ret h /\ num_hash c y = Ret h.
Proof.
  intros Vx Vy E. destruct (valid_denotes _ _ Vx) as (a & A). destruct (valid_denotes _ _ Vy) as (b & B).
  destruct (num_eq_spec c x y a b A B) as (r & R & H). rewrite R in E. injection E as ->.
  destruct (num_hash_spec c x y a b A B) as (hx & hy & Hx & Hy & K). exists hx. split; [exact Hx|].
  rewrite Hy. f_equal. symmetry. apply K. now apply H.
Qed.

Lemma hash_separates c x y : valid (be_varlen c) x -> valid (be_varlen c) y ->
  num_eq c x y = Ret false ->
  exists hx hy, num_hash c x = Ret hx /\ num_hash c y = Ret hy /\ hx <> hy.
Proof.
  intros Vx Vy E. destruct (valid_denotes _ _ Vx) as (a & A). destruct (valid_denotes _ _ Vy) as (b & B).
  destruct (num_eq_spec c x y a b A B) as (r & R & H). rewrite R in E. injection E as ->.
  destruct (num_hash_spec c x y a b A B) as (hx & hy & Hx & Hy & K). exists hx, hy. split; [exact Hx|]. split; [exact Hy|].
  intro Eh. apply K in Eh. apply H in Eh. discriminate.
Qed.
