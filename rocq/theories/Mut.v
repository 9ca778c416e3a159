(** * Mut: lemmas behind the properties of in-place operations (P_Mut.v). *)
From Coq Require Import ZArith QArith Qabs List Bool Lia.
From Verif Require Import Base Var Binary Parse Typmod Num Spec SpecApi QDec Digits Strip Arith Codec Make Api1 Api2 Api3 Api4 Laws Samples.
Import ListNotations.
Open Scope Z_scope.

Lemma stores_valid be x q s : stores be x q s -> valid be x.
Proof. intro H. right. now exists q, s. Qed.

Lemma nan_valid be x : stores_nan be x -> valid be x.
Proof. intro H. now left. Qed.

Lemma mut_usable c (x : bytes) k : valid (be_varlen c) x ->
  (exists y, negate_mut c (Some x) = (Ret tt, Some y) /\ valid (be_varlen c) y) /\
  (exists y, abs_mut c (Some x) = (Ret tt, Some y) /\ valid (be_varlen c) y) /\
  (exists y, trunc_mut c (Some x) k = (Ret tt, Some y) /\ valid (be_varlen c) y) /\
  ((exists y, round_mut c (Some x) k = (Ret tt, Some y) /\ valid (be_varlen c) y) \/
   (fst (round_mut c (Some x) k) = Panic (WMsg MOverflow) /\
    exists q s, stores (be_varlen c) x q s /\ (limit <= Qabs (round_at q (clamp k)))%Q)).
Proof.
  intro V. pose proof (negate_mut_spec c x V) as A1. pose proof (abs_mut_spec c x V) as A2.
  pose proof (trunc_mut_spec c x k V) as A3. pose proof (round_mut_spec c x k V) as A4.
  destruct V as [N|(q & s & S)].
  - destruct (nan_unary c x k N) as (B1 & B2 & _ & _ & B4 & B3 & _).
    rewrite B1 in A1. rewrite B2 in A2. rewrite B3 in A3. rewrite B4 in A4. cbn [agrees] in *.
    assert (VN : valid (be_varlen c) (nan_layout (be_varlen c))) by (left; reflexivity).
    split; [eexists; split; [exact A1|exact VN]|]. split; [eexists; split; [exact A2|exact VN]|].
    split; [eexists; split; [exact A3|exact VN]|]. left. eexists; split; [exact A4|exact VN].
  - destruct (num_negate_spec c x q s S) as (y1 & B1 & S1). rewrite B1 in A1.
    destruct (num_abs_spec c x q s S) as (y2 & B2 & S2). rewrite B2 in A2.
    destruct (num_trunc_spec c x q s k S) as (y3 & B3 & S3). rewrite B3 in A3.
    split; [exists y1; split; [exact A1|now apply (stores_valid _ _ _ _ S1)]|].
    split; [exists y2; split; [exact A2|now apply (stores_valid _ _ _ _ S2)]|].
    split; [exists y3; split; [exact A3|now apply (stores_valid _ _ _ _ S3)]|].
    destruct (num_round_spec c x q s k S) as [R1 R2].
    destruct (Qlt_le_dec (Qabs (round_at q (clamp k))) limit) as [L|L].
    + destruct (R1 L) as (y & B & Sy). rewrite B in A4. left. exists y. split; [exact A4|].
      now apply (stores_valid _ _ _ _ Sy).
    + rewrite (R2 L) in A4. right. split; [exact A4|]. exists q, s. split; [exact S|exact L].
Qed.

Lemma mut_agrees c (x : bytes) k : valid (be_varlen c) x ->
  (forall y, num_negate c x = Ret y <-> negate_mut c (Some x) = (Ret tt, Some y)) /\
  (forall y, num_abs c x = Ret y <-> abs_mut c (Some x) = (Ret tt, Some y)) /\
  (forall y, num_trunc c x k = Ret y <-> trunc_mut c (Some x) k = (Ret tt, Some y)) /\
  (forall y, num_round c x k = Ret y <-> round_mut c (Some x) k = (Ret tt, Some y)) /\
  (forall w, num_round c x k = Panic w <-> fst (round_mut c (Some x) k) = Panic w) /\
  op_neg_owned c x = num_negate c x.
Proof.
  intro V. pose proof (negate_mut_spec c x V) as A1. pose proof (abs_mut_spec c x V) as A2.
  pose proof (trunc_mut_spec c x k V) as A3. pose proof (round_mut_spec c x k V) as A4.
  assert (K : forall p m, agrees p m -> forall y, p = Ret y <-> m = (Ret tt, Some y)).
  { intros p m A y. unfold agrees in A. destruct p as [z|w| |]; try contradiction.
    - split; intro E; [congruence|]. rewrite E in A. congruence.
    - split; [discriminate|]. intro E. destruct m as [r b]. cbn in A. congruence. }
  assert (K' : forall p m, agrees p m -> forall w, p = Panic w <-> fst m = Panic w).
  { intros p m A y. unfold agrees in A. destruct p as [z|w| |]; try contradiction.
    - split; [discriminate|]. rewrite A. discriminate.
    - rewrite A. split; congruence. }
  split; [now apply K|]. split; [now apply K|]. split; [now apply K|]. split; [now apply K|].
  split; [now apply K'|]. now apply op_neg_owned_spec.
Qed.

Lemma assign_agrees c (x y : bytes) op :
  (forall r, op c x y = Ret r <-> op_assign op c (Some x) y = (Ret tt, Some r)) /\
  (forall w, op c x y = Panic w <-> op_assign op c (Some x) y = (Panic w, Some x)).
Proof.
  pose proof (op_assign_spec op c x y) as A. destruct (op c x y) as [z|w| |]; rewrite A;
    (split; intro; split; congruence).
Qed.

Lemma typmod_unique c1 c2 p s p' s' t t' : typmod_new c1 p s = Ret (Some t) -> typmod_new c2 p' s' = Ret (Some t') ->
  4 <= t /\ typmod_extract c1 t = Ret (p, s) /\ (t = t' -> p = p' /\ s = s').
Proof.
  intros T T'.
  assert (F : forall c p s t, typmod_new c p s = Ret (Some t) -> 1 <= p <= 1000 /\ 0 <= s <= p /\ t = p * 65536 + s + 4).
  { intros c p0 s0 t0 H. destruct (typmod_new_spec c p0 s0) as [P N].
    assert (B : 1 <= p0 <= 1000 /\ 0 <= s0 <= p0).
    { destruct (Z_le_dec 1 p0), (Z_le_dec p0 1000), (Z_le_dec 0 s0), (Z_le_dec s0 p0); try lia; rewrite N in H by lia; discriminate. }
    rewrite (P B) in H. injection H as <-. lia. }
  apply F in T, T'. destruct T as (B1 & B2 & ->), T' as (B3 & B4 & ->).
  split; [lia|]. split; [apply typmod_extract_spec; lia|]. lia.
Qed.

Lemma typmod_new_iff c p s : (exists t, typmod_new c p s = Ret (Some t)) <-> (1 <= p <= 1000 /\ 0 <= s <= p).
Proof.
  destruct (typmod_new_spec c p s) as [P N]. split.
  - intros (t & T). destruct (Z_le_dec 1 p), (Z_le_dec p 1000), (Z_le_dec 0 s), (Z_le_dec s p); try lia; rewrite N in T by lia; discriminate.
  - intro B. eexists. exact (P B).
Qed.

Lemma typmod_new_total c p s : exists o, typmod_new c p s = Ret o.
Proof.
  destruct (typmod_new_spec c p s) as [P N].
  destruct (Z_le_dec 1 p), (Z_le_dec p 1000), (Z_le_dec 0 s), (Z_le_dec s p);
    try (eexists; apply N; lia). eexists. apply P. lia.
Qed.

Lemma deserialize_copies c x : valid (be_varlen c) x -> deserialize_bytes c (serialize_bytes x) = Ret x.
Proof. intro V. unfold deserialize_bytes, serialize_bytes. now apply copies. Qed.

(** Zero at the largest scale, and at scale 1. *)
Definition n_zero_max : number := Number false 0 16383 [].
Lemma n_zero_max_canonical : canonical n_zero_max.
Proof.
  unfold n_zero_max. constructor; cbn [digs neg wt scale]; try lia; try discriminate; try easy.
  - intros ? t E. destruct t; discriminate E.
  - exists 0. reflexivity.
Qed.
Definition n_zero_one : number := Number false 0 1 [].
Lemma n_zero_one_canonical : canonical n_zero_one.
Proof. canonical_tac n_zero_one 0. Qed.
Definition n_zero_two : number := Number false 0 2 [].
Lemma n_zero_two_canonical : canonical n_zero_two.
Proof. canonical_tac n_zero_two 0. Qed.

Lemma lost_exists : exists x t, forall dbg be, let c := Cfg dbg be in
  stores be (x be) (limit - (1 # 2)) 1 /\
  round_mut c (Some (x be)) 0 = (Panic (WMsg MOverflow), None) /\
  apply_typmod c (Some (x be)) t = (Ret true, None).
Proof.
  exists (fun be => layout be (to_number nines)), (1000 * 65536 + 0 + 4). intros dbg be c.
  split; [exact (nines_stores be)|]. exact (nines_lost c).
Qed.
