(** * Make: from a computed variable to the stored result (var.rs make_result). *)
From Coq Require Import ZArith QArith Qround Qpower Qabs List Bool Lia Lqa.
From Verif Require Import Base Var Binary Parse Spec QDec Digits Arith Strip Round Trunc AddSub Signed Codec.
Import ListNotations.
Open Scope Z_scope.

(** [q] is a multiple of [10^-s]. *)
Definition mult (q : Q) (s : Z) : Prop := exists k : Z, (q * p10 s == inject_Z k)%Q.

Lemma mult_comp q q' s : (q == q')%Q -> mult q s -> mult q' s.
Proof. intros E [k H]. exists k. now rewrite <- E. Qed.

Lemma mult_dec m e s : 0 <= e + s -> mult (dec m e) s.
Proof. intro H. exists (m * 10 ^ (e + s)). rewrite dec_p10. now apply dec_Zshift. Qed.

Lemma mult_up q s s' : s <= s' -> mult q s -> mult q s'.
Proof.
  intros L [k H]. exists (k * 10 ^ (s' - s)). replace s' with (s + (s' - s)) at 1 by lia.
  rewrite p10_add, (p10_Z (s' - s)), inject_Z_mult by lia. rewrite <- H. ring.
Qed.
Lemma mult_add p q s : mult p s -> mult q s -> mult (p + q) s.
Proof. intros [k H] [l K]. exists (k + l). rewrite inject_Z_plus, <- H, <- K. ring. Qed.
Lemma mult_opp q s : mult q s -> mult (- q) s.
Proof. intros [k H]. exists (- k). rewrite inject_Z_opp, <- H. ring. Qed.
Lemma mult_sub p q s : mult p s -> mult q s -> mult (p - q) s.
Proof. intros H K. apply mult_add; [exact H|now apply mult_opp]. Qed.
Lemma mult_mul p q s t : mult p s -> mult q t -> mult (p * q) (s + t).
Proof. intros [k H] [l K]. exists (k * l). rewrite inject_Z_mult, p10_add, <- H, <- K. ring. Qed.
Lemma mult_Z k s : 0 <= s -> mult (inject_Z k) s.
Proof. intro H. apply (mult_up _ 0); [exact H|]. exists k. rewrite p10_0. ring. Qed.
Lemma mult_abs q s : mult q s -> mult (Qabs q) s.
Proof.
  intro H. destruct (Qlt_le_dec q 0) as [L|L].
  - apply (mult_comp (- q)); [symmetry; apply Qabs_neg; lra|now apply mult_opp].
  - apply (mult_comp q); [symmetry; now apply Qabs_pos|exact H].
Qed.

Lemma mult_round q s t : s <= t -> mult (round_at q s) t.
Proof.
  intro L. unfold round_at. change (ten ^ (- s))%Q with (p10 (- s)).
  change (mult (dec (round_int (q * ten ^ s)) (- s)) t). apply mult_dec. lia.
Qed.
Lemma mult_trunc q s t : s <= t -> mult (trunc_at q s) t.
Proof.
  intro L. change (mult (dec (trunc_int (q * ten ^ s)) (- s)) t). apply mult_dec. lia.
Qed.

(** a non-zero multiple of [10^-s] is at least [10^-s] *)
Lemma mult_lb q s : mult q s -> ~ (q == 0)%Q -> (p10 (- s) <= Qabs q)%Q.
Proof.
  intros [k H] N.
  assert (E : (q == dec k (- s))%Q).
  { unfold dec. rewrite <- H. rewrite <- Qmult_assoc, p10_opp. ring. }
  rewrite E, Qabs_dec, <- dec_1, dec_le_iff.
  assert (k <> 0); [|lia]. intros ->. apply N. rewrite E. apply dec_0.
Qed.

Lemma fracok_mult v : fracok v <-> mult (vval v) (dscale v).
Proof. reflexivity. Qed.

(** [|value| < 10^(4(weight+1))] for any digits *)
Lemma digits_ub v : Forall dig (digits v) -> (Qabs (vval v) < p10 (4 * (weight v + 1)))%Q.
Proof.
  intro D. rewrite Qabs_vval by exact D. pose proof (dval_bound _ D) as B.
  change (dval (digits v)) with (mag v) in B. fold (ndigits v) in B.
  assert (L : 0 <= ndigits v) by apply lenz_nonneg.
  rewrite pB_ten in B by lia. unfold lsd.
  replace (4 * (weight v + 1)) with (4 * (weight v + 1 - ndigits v) + 4 * ndigits v) by lia.
  rewrite <- dec_1, <- dec_shift by lia. rewrite dec_lt_iff. lia.
Qed.

Lemma semi_lb v : semi v -> digits v <> [] -> (p10 (4 * weight v) <= Qabs (vval v))%Q.
Proof.
  intros S N. rewrite Qabs_vval by apply S. destruct (digits v) as [|d t] eqn:E; [congruence|].
  pose proof (sm_digits v S) as D. rewrite E in D.
  pose proof (dval_pos d t D (sm_first v S d t E)) as B.
  assert (Ln : ndigits v = 1 + lenz t) by (unfold ndigits; rewrite E; apply lenz_cons).
  pose proof (lenz_nonneg t).
  unfold lsd, mag. rewrite E, Ln.
  replace (4 * weight v) with (4 * (weight v + 1 - (1 + lenz t)) + 4 * lenz t) by lia.
  rewrite <- dec_1, <- dec_shift by lia. rewrite dec_le_iff, <- pB_ten by lia. lia.
Qed.

(** a multiple of [10^-s] has weight at least [-4096] when s <= 16383 *)
Lemma weight_lb v : Forall dig (digits v) -> 0 <= dscale v <= 16383 -> mult (vval v) (dscale v) ->
  ~ (vval v == 0)%Q -> -4096 <= weight v.
Proof.
  intros D S M N. pose proof (mult_lb _ _ M N) as L. pose proof (digits_ub v D) as U.
  pose proof (Qle_lt_trans _ _ _ L U) as H. apply (proj1 (p10_lt_iff _ _)) in H. lia.
Qed.

Lemma strip_canon v : Forall dig (digits v) -> sign v <> SNaN -> 0 <= dscale v <= 16383 ->
  mult (vval v) (dscale v) -> weight v <= 32767 -> canon (strip v).
Proof.
  intros D N S M W. destruct (strip_spec v D N) as [T E].
  assert (M' : mult (vval (strip v)) (dscale (strip v))).
  { rewrite strip_dscale. apply (mult_comp (vval v)); [now symmetry|exact M]. }
  constructor; auto.
  - destruct (digits (strip v)) eqn:Z.
    + destruct (st_zero _ T Z). lia.
    + assert (Nz : digits (strip v) <> []) by congruence.
      pose proof (strip_weight v Nz). split; [|lia].
      assert (-4096 <= weight (strip v)); [|lia]. apply weight_lb; auto.
      * apply T.
      * now rewrite strip_dscale.
      * intro H0. apply Nz. now apply stripped_zero_iff.
  - now rewrite strip_dscale.
Qed.

Lemma stores_intro be v q s : canon v -> (vval v == q)%Q -> dscale v = s ->
  stores be (layout be (to_number v)) q s.
Proof.
  intros C E S. exists (to_number v). split; [now apply canon_canonical|].
  split; [reflexivity|]. split; [|exact S]. rewrite value_vval by apply C. exact E.
Qed.

Lemma stores_elim be x q s : stores be x q s ->
  exists v, canon v /\ x = layout be (to_number v) /\ (vval v == q)%Q /\ dscale v = s.
Proof.
  intros (n & C & E & V & S). exists (of_number n). split; [now apply canonical_canon|].
  rewrite to_of_number. split; [exact E|]. split; [now rewrite vval_of_number|exact S].
Qed.

Lemma stores_ext be x q q' s : (q == q')%Q -> stores be x q s -> stores be x q' s.
Proof. intros E (n & C & X & V & S). exists n. split; [exact C|]. split; [exact X|]. split; [|exact S]. now rewrite V. Qed.

Lemma result_of_ext be q q' s o : (q == q')%Q -> result_of be q s o -> result_of be q' s o.
Proof.
  intros E [A B]. split; intro H; rewrite <- E in H; auto.
  destruct (A H) as (x & X & Y). exists x. split; auto. now apply (stores_ext _ _ q).
Qed.

Lemma make_no_overflow_spec c r : Forall dig (digits r) -> sign r <> SNaN ->
  0 <= dscale r <= 16383 -> mult (vval r) (dscale r) -> weight r <= 32767 ->
  exists x, make_result_no_overflow c r = Ret x /\ stores (be_varlen c) x (vval r) (dscale r).
Proof.
  intros D N S M W. pose proof (strip_canon r D N S M W) as C.
  exists (layout (be_varlen c) (to_number (strip r))).
  unfold make_result_no_overflow. rewrite (nan_ok c r N). cbn [bind].
  rewrite dassert_ok.
  - cbn [bind]. split; [now apply encode_spec, canon_storable|].
    apply stores_intro; auto; [|apply strip_dscale]. now apply strip_spec.
  - rewrite !orb_true_iff, !Z.leb_le. lia.
Qed.

Lemma below_limit_weight v : semi v -> digits v <> [] -> (Qabs (vval v) < limit)%Q -> weight v <= 32767.
Proof.
  intros S N H. rewrite limit_p10 in H. pose proof (semi_lb v S N) as L.
  pose proof (Qle_lt_trans _ _ _ L H) as P. apply (proj1 (p10_lt_iff _ _)) in P. lia.
Qed.

Lemma above_limit_weight v : Forall dig (digits v) -> (limit <= Qabs (vval v))%Q -> 32768 <= weight v.
Proof.
  intros D H. rewrite limit_p10 in H. pose proof (digits_ub v D) as U.
  pose proof (Qle_lt_trans _ _ _ H U) as P. apply (proj1 (p10_lt_iff _ _)) in P. lia.
Qed.

(** The general finishing step. *)
Lemma make_result_spec c r q s : Forall dig (digits r) -> sign r <> SNaN ->
  dscale r = s -> 0 <= s <= 16383 -> (vval r == q)%Q -> mult q s ->
  -32767 <= weight r -> (weight r <= 32767 \/ (limit <= Qabs q)%Q) ->
  exists o, make_result c r = Ret o /\ result_of (be_varlen c) q s o.
Proof.
  intros D N <- S V M W1 W2. unfold make_result. rewrite (nan_ok c r N). cbn [bind].
  rewrite dassert_ok by (apply Z.leb_le; lia). cbn [bind].
  change NUMERIC_WEIGHT_MAX with 32767. change NUMERIC_WEIGHT_MIN with (-32767).
  change NUMERIC_DSCALE_MAX with 16383.
  replace (weight r <? -32767) with false by (symmetry; apply Z.ltb_ge; lia).
  replace (16383 <? dscale r) with false by (symmetry; apply Z.ltb_ge; lia).
  rewrite !orb_false_r.
  destruct (Z.ltb_spec 32767 (weight r)) as [L|L].
  - exists None. split; [reflexivity|]. split; [|auto]. intro H.
    destruct W2 as [W2|W2]; [lia|]. exfalso. lra.
  - destruct (make_no_overflow_spec c r D N S) as (x & E & X).
    { apply (mult_comp q); [now symmetry|exact M]. }
    { exact L. }
    rewrite E. cbn [bind]. exists (Some x). split; [reflexivity|]. split.
    + intros _. exists x. split; [reflexivity|]. now apply (stores_ext _ _ (vval r)).
    + intro H. assert (32768 <= weight r); [|lia]. apply above_limit_weight; [exact D|]. rewrite V. exact H.
Qed.

Lemma make_result_semi c r q s : semi r -> dscale r = s -> 0 <= s <= 16383 -> (vval r == q)%Q -> mult q s ->
  exists o, make_result c r = Ret o /\ result_of (be_varlen c) q s o.
Proof.
  intros R S B V M. apply make_result_spec; auto; try apply R.
  - destruct (digits r) eqn:E; [rewrite (sm_zero r R E); lia|].
    assert (-4096 <= weight r); [|lia]. subst s. apply weight_lb; auto; [apply R| |].
    + apply (mult_comp q); [now symmetry|exact M].
    + intro H0. pose proof (semi_lb r R ltac:(congruence)) as L. rewrite H0 in L.
      pose proof (p10_pos (4 * weight r)). change (Qabs 0) with 0%Q in L. lra.
  - destruct (digits r) eqn:E; [left; rewrite (sm_zero r R E); lia|].
    destruct (Qlt_le_dec (Qabs q) limit) as [H|H]; [left|now right].
    apply below_limit_weight; [exact R|congruence|]. rewrite V. exact H.
Qed.

(** scale overflow *)
Lemma make_result_scale c r : sign r <> SNaN -> 16383 < dscale r -> make_result c r = Ret None.
Proof.
  intros N S. unfold make_result. rewrite (nan_ok c r N). cbn [bind].
  rewrite dassert_ok by (apply Z.leb_le; lia). cbn [bind].
  change NUMERIC_DSCALE_MAX with 16383.
  replace (16383 <? dscale r) with true by (symmetry; apply Z.ltb_lt; lia).
  now rewrite orb_true_r.
Qed.

Lemma canon_mult v : canon v -> mult (vval v) (dscale v).
Proof. intro C. apply C. Qed.
Lemma canon_semi v : canon v -> semi v.
Proof. intro C. apply stripped_semi, C. Qed.
Lemma canon_dig v : canon v -> Forall dig (digits v).
Proof. intro C. apply C. Qed.
Lemma canon_nan v : canon v -> sign v <> SNaN.
Proof. intro C. apply C. Qed.

(** uniqueness of the stored bytes *)
Lemma canon_unique v1 v2 : canon v1 -> canon v2 -> dscale v1 = dscale v2 -> (vval v1 == vval v2)%Q -> v1 = v2.
Proof. intros C1 C2. apply stripped_unique; [apply C1|apply C2]. Qed.

Lemma stores_unique be x y q s : stores be x q s -> stores be y q s -> x = y.
Proof.
  intros H1 H2. destruct (stores_elim _ _ _ _ H1) as (v1 & C1 & -> & V1 & S1).
  destruct (stores_elim _ _ _ _ H2) as (v2 & C2 & -> & V2 & S2).
  rewrite (canon_unique v1 v2); auto; [congruence|]. now rewrite V1, V2.
Qed.

Lemma layout_read_back be v1 v2 : storable v1 -> storable v2 ->
  layout be (to_number v1) = layout be (to_number v2) -> v1 = v2.
Proof.
  intros S1 S2 E. pose proof (as_var_spec (Cfg true be) v1 S1) as A.
  pose proof (as_var_spec (Cfg true be) v2 S2) as B. cbn [be_varlen] in *. rewrite E, B in A. congruence.
Qed.

Lemma stores_fun be x q1 s1 q2 s2 : stores be x q1 s1 -> stores be x q2 s2 -> (q1 == q2)%Q /\ s1 = s2.
Proof.
  intros H1 H2. destruct (stores_elim _ _ _ _ H1) as (v1 & C1 & X1 & V1 & S1).
  destruct (stores_elim _ _ _ _ H2) as (v2 & C2 & X2 & V2 & S2).
  assert (v1 = v2).
  { apply (layout_read_back be); [now apply canon_storable|now apply canon_storable|congruence]. }
  subst v2. split; [now rewrite <- V1, <- V2|congruence].
Qed.

Lemma stores_not_nan be x q s : stores be x q s -> ~ stores_nan be x.
Proof.
  intros H N. destruct (stores_elim _ _ _ _ H) as (v & C & X & _).
  pose proof (num_is_nan_spec (Cfg true be) v (canon_storable v C)) as A. cbn [be_varlen] in A.
  rewrite <- X, N in A. pose proof (nan_is_nan (Cfg true be)) as B. cbn [be_varlen] in B. congruence.
Qed.

Lemma stores_bound be x q s : stores be x q s -> (Qabs q < limit)%Q /\ 0 <= s <= 16383 /\ mult q s.
Proof.
  intro H. destruct (stores_elim _ _ _ _ H) as (v & C & X & V & S). split; [|split].
  - rewrite <- V. destruct (Qlt_le_dec (Qabs (vval v)) limit) as [L|L]; [exact L|].
    pose proof (above_limit_weight v (canon_dig v C) L). pose proof (cn_weight v C). lia.
  - subst s. apply C.
  - subst s. apply (mult_comp (vval v)); [exact V|apply C].
Qed.

