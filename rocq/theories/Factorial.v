(** * Factorial: NumericBuf::factorial. *)
From Coq Require Import ZArith QArith Qabs Qpower List Bool Lia Lqa.
From Verif Require Import Base Var Binary Format Parse Convert Num Spec SpecApi QDec Digits Arith Strip Round CeilFloor Codec Make Signed Mul Api1
  ConvertApi FactBound.
Import ListNotations.
Open Scope Z_scope.

Record posint (r : var) (P : Z) : Prop := {
  pi_dig : Forall dig (digits r);
  pi_nan : sign r <> SNaN;
  pi_one : 1 <= ndigits r;
  pi_len : ndigits r <= weight r + 1;
  pi_scale : dscale r = 0;
  pi_val : (vval r == inject_Z P)%Q;
  pi_w : weight r <= 32767 \/ semi r
}.

Lemma from_signed_posint n : 1 <= n < 2 ^ 63 -> exists r, from_signed 64 n = Ret r /\ posint r n.
Proof.
  intro H. destruct (from_signed_var 64 n) as (v & E & D & N & S & W & V); [unfold int_width; tauto|change (2 ^ (64 - 1)) with (2 ^ 63); lia|].
  exists v. split; [exact E|].
  assert (L : ndigits v = weight v + 1).
  { unfold from_signed in E. replace (n =? 0) with false in E by (symmetry; apply Z.eqb_neq; lia).
    unfold unsigned_to_var in E. destruct (to_digits _ _ _ _) as [ds| | |]; try discriminate. cbn [bind] in E. injection E as <-.
    unfold ndigits. cbn. lia. }
  assert (L1 : 1 <= ndigits v).
  { unfold ndigits in *. pose proof (lenz_nonneg (digits v)). destruct (Z.eq_dec (lenz (digits v)) 0) as [Z0|Z0]; [|lia].
    apply lenz_0 in Z0. exfalso. unfold vval, smag, mag in V. rewrite Z0 in V. cbn [dval] in V. rewrite Z.mul_0_r, dec_0 in V.
    unfold Qeq in V. cbn in V. lia. }
  constructor; auto; lia.
Qed.

Lemma mul_posint c r f P F : posint r P -> posint f F -> 1 <= P -> 1 <= F ->
  exists p, mul_common c r f 0 = Ret p /\ posint p (P * F).
Proof.
  intros A B HP HF. destruct (mul_common_exact c r f 0) as (p & E & S & Sc & V); try apply A; try apply B.
  { pose proof (pi_len _ _ A). pose proof (pi_len _ _ B). cbn. lia. }
  exists p. split; [exact E|].
  assert (V' : (vval p == inject_Z (P * F))%Q).
  { rewrite V, round_at_0. rewrite (round_int_comp _ (inject_Z (P * F))); [now rewrite round_int_Z|].
    rewrite (pi_val _ _ A), (pi_val _ _ B). rewrite inject_Z_mult. reflexivity. }
  assert (Ne : digits p <> []).
  { intro E0. apply (proj2 (stripped_zero_iff p S)) in E0. rewrite V' in E0. unfold Qeq in E0. cbn in E0. nia. }
  destruct (stripped_int p _ S Ne V') as (_ & W0 & L & _).
  constructor.
  - apply S.
  - apply S.
  - unfold ndigits. destruct (digits p) as [|d t]; [congruence|]. rewrite lenz_cons. pose proof (lenz_nonneg t). lia.
  - exact L.
  - exact Sc.
  - exact V'.
  - right. now apply stripped_semi.
Qed.

Lemma factorial_pos n : 1 <= factorial n.
Proof. induction n as [|n IH]; cbn [factorial]; [lia|]. nia. Qed.

Lemma factorial_loop_spec c k : Z.of_nat k < 2 ^ 63 -> forall r P, 1 <= P -> posint r P ->
  exists p, factorial_loop c k r = Ret p /\ posint p (P * factorial k).
Proof.
  induction k as [|k IH]; intros Hk r P HP A.
  - exists r. split; [reflexivity|]. cbn [factorial]. now rewrite Z.mul_1_r.
  - destruct k as [|k].
    + exists r. split; [reflexivity|]. cbn [factorial]. replace (P * (Z.of_nat 1 * 1)) with P by lia. exact A.
    + change (factorial_loop c (S (S k)) r) with (bind (from_signed 64 (Z.of_nat (S (S k)))) (fun fact =>
        bind (mul_common c r fact 0) (fun result => factorial_loop c (S k) result))).
      destruct (from_signed_posint (Z.of_nat (S (S k)))) as (f & -> & Bf); [lia|]. cbn [bind].
      destruct (mul_posint c r f P _ A Bf HP ltac:(lia)) as (p & -> & Cp). cbn [bind].
      destruct (IH ltac:(lia) p (P * Z.of_nat (S (S k))) ltac:(nia) Cp) as (q & E & Cq). exists q. split; [exact E|].
      replace (P * factorial (S (S k))) with (P * Z.of_nat (S (S k)) * factorial (S k)); [exact Cq|].
      change (factorial (S (S k))) with (Z.of_nat (S (S k)) * factorial (S k)). ring.
Qed.

Lemma factorial_range n : factorial n = range_prod 0 n.
Proof. induction n as [|n IH]; [reflexivity|]. cbn [factorial range_prod]. rewrite IH. ring. Qed.

Lemma limit_z : limit = inject_Z (10 ^ 2 ^ Z.of_nat 17) \/ (limit == inject_Z (10 ^ 2 ^ Z.of_nat 17))%Q.
Proof.
  right. rewrite limit_p10. replace (4 * 32768) with (2 ^ Z.of_nat 17) by reflexivity. 
  apply p10_Z. apply Z.pow_nonneg. lia.
Qed.

Lemma factorial_mono a b : (a <= b)%nat -> factorial a <= factorial b.
Proof. induction 1 as [|b H IH]; [lia|]. cbn [factorial]. pose proof (factorial_pos b). nia. Qed.

Lemma factorial_fits n : 0 <= n <= 32177 -> (inject_Z (factorial (Z.to_nat n)) < limit)%Q.
Proof.
  intro H. assert (L : factorial (Z.to_nat n) < 10 ^ 2 ^ Z.of_nat 17).
  { apply Z.le_lt_trans with (factorial (Z.to_nat 32177)).
    - apply factorial_mono. apply Z2Nat.inj_le; [apply H| |apply H]. apply Z.leb_le. reflexivity.
    - rewrite factorial_range. exact fact_32177. }
  destruct limit_z as [-> | ->]; rewrite <- Zlt_Qlt; exact L.
Qed.

Lemma factorial_exceeds n : 32178 <= n -> (limit <= inject_Z (factorial (Z.to_nat n)))%Q.
Proof.
  intro H. assert (L : 10 ^ 2 ^ Z.of_nat 17 <= factorial (Z.to_nat n)).
  { apply Z.le_trans with (factorial (Z.to_nat 32178)).
    - rewrite factorial_range. apply Z.lt_le_incl. exact fact_32178.
    - apply factorial_mono. apply Z2Nat.inj_le; [apply Z.leb_le; reflexivity| |exact H]. apply Z.le_trans with 32178; [apply Z.leb_le; reflexivity|exact H]. }
  destruct limit_z as [-> | ->]; rewrite <- Zle_Qle; exact L.
Qed.

Lemma num_factorial_spec c n :
  exists o, num_factorial c n = Ret o /\ result_of (be_varlen c) (inject_Z (factorial (Z.to_nat n))) 0 o.
Proof.
  unfold num_factorial, factorial_var. destruct (Z.leb_spec n 1) as [L|L].
  - cbn [bind make_result_opt].
    assert (F1 : factorial (Z.to_nat n) = 1).
    { destruct (Z_le_dec n 0) as [H|H]; [replace (Z.to_nat n) with 0%nat by lia|replace n with 1 by lia]; reflexivity. }
    rewrite F1. apply (make_result_spec c ONE).
    + repeat constructor; unfold dig; lia.
    + discriminate.
    + reflexivity.
    + lia.
    + unfold ONE. rewrite (vval_small SPos 1). reflexivity.
    + apply mult_Z. lia.
    + cbn. lia.
    + left. cbn. lia.
  - destruct (Z.ltb_spec 32177 n) as [G|G].
    + exists None. split; [reflexivity|]. split; [|reflexivity]. intro H. exfalso.
      pose proof (factorial_exceeds n ltac:(lia)) as E. pose proof (factorial_pos (Z.to_nat n)) as P.
      assert (Pq : (0 <= inject_Z (factorial (Z.to_nat n)))%Q) by (rewrite <- (Zle_Qle 0); lia).
      rewrite (Qabs_pos _ Pq) in H. apply (Qlt_not_le _ _ H). exact E.
    + destruct (from_signed_posint n ltac:(lia)) as (r & -> & A). cbn [bind].
      destruct (factorial_loop_spec c (Z.to_nat (n - 1)) ltac:(lia) r n ltac:(lia) A) as (p & -> & B). cbn [bind make_result_opt].
      assert (Ef : n * factorial (Z.to_nat (n - 1)) = factorial (Z.to_nat n)).
      { replace (Z.to_nat n) with (S (Z.to_nat (n - 1))) by lia. cbn [factorial]. f_equal. lia. }
      rewrite Ef in B. pose proof (factorial_fits n ltac:(lia)) as Fit. pose proof (factorial_pos (Z.to_nat n)) as Pp.
      apply (make_result_spec c p); try apply B.
      * lia.
      * apply mult_Z. lia.
      * pose proof (pi_one _ _ B). pose proof (pi_len _ _ B). lia.
      * destruct (pi_w _ _ B) as [W|W]; [now left|]. left. apply below_limit_weight; [exact W| |].
        -- pose proof (pi_one _ _ B) as O1. unfold ndigits in O1. intro E0. rewrite E0 in O1. cbn in O1. lia.
        -- rewrite (pi_val _ _ B). rewrite Qabs_pos; [exact Fit|]. rewrite <- (Zle_Qle 0). lia.
Qed.

Lemma factorial_some c n : n <= 32177 ->
  exists x, num_factorial c n = Ret (Some x) /\ stores (be_varlen c) x (inject_Z (factorial (Z.to_nat n))) 0.
Proof.
  intro H. destruct (num_factorial_spec c n) as (o & E & R & _).
  assert (F : (inject_Z (factorial (Z.to_nat n)) < limit)%Q).
  { destruct (Z_le_dec 0 n) as [P|P]; [apply factorial_fits; lia|].
    assert (Z0 : Z.to_nat n = Z.to_nat 0) by lia. rewrite Z0. apply factorial_fits. lia. }
  pose proof (factorial_pos (Z.to_nat n)) as P.
  destruct R as (x & -> & S). { rewrite Qabs_pos; [exact F|]. rewrite <- (Zle_Qle 0). lia. }
  exists x. split; assumption.
Qed.

Lemma factorial_none c n : 32177 < n -> num_factorial c n = Ret None.
Proof.
  intro H. unfold num_factorial, factorial_var. destruct (Z.leb_spec n 1); [lia|].
  destruct (Z.ltb_spec 32177 n); [reflexivity|lia].
Qed.
