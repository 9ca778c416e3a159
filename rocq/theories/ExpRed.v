(** * ExpRed: halving the argument of the exponential (var.rs 1952-1975). *)
From Coq Require Import Reals Qreals Lra Lia ZArith QArith Qabs List Bool.
From Verif Require Import Base Var Flt FltFacts Transc Spec SpecRoot QDec Digits Arith Strip Round AddSub Signed Make Api2 Sqrt DivFast Sci
  LnOps LnSqrt LnQR LnRed LnSeries.
Import ListNotations.
Open Scope R_scope.

Lemma aval_abs v : semi v -> (Qabs (vval v) == aval v)%Q.
Proof.
  intro S. pose proof (aval_nonneg v (sm_digits _ S)) as P. destruct (sign v) eqn:G.
  - rewrite (vval_pos v G). now apply Qabs_pos.
  - rewrite (vval_neg v G), Qabs_opp. now apply Qabs_pos.
  - exfalso. now apply (sm_nan _ S).
Qed.

(** Adding a smaller number to a positive one, whatever the scales *)
Lemma add_big c v1 v2 : semi v1 -> semi v2 -> sign v1 = SPos -> (Qabs (vval v2) < vval v1)%Q ->
  exists r, add_common c v1 v2 = Ret r /\ tidy r /\ sign r = SPos /\ dscale r = Z.max (dscale v1) (dscale v2) /\
    (vval r == vval v1 + vval v2)%Q.
Proof.
  intros S1 S2 G1 L. pose proof (sm_digits _ S1) as D1. pose proof (sm_digits _ S2) as D2.
  pose proof (sm_nan _ S1) as N1. pose proof (sm_nan _ S2) as N2.
  rewrite (aval_abs v2 S2), (vval_pos v1 G1) in L.
  unfold add_common. rewrite (nan_ok c v1 N1), (nan_ok c v2 N2). cbn [bind]. unfold is_positive. rewrite G1. cbn [sgn_eqb].
  destruct (sign v2) eqn:G2; [| |congruence]; cbn [sgn_eqb].
  - destruct (add_abs_spec c v1 v2 D1 D2 N1) as (r & -> & A); [congruence|]. cbn [bind]. exists (set_sign SPos r).
    split; [reflexivity|]. split; [apply (absres_tidy _ _ _ _ A); discriminate|]. split; [reflexivity|].
    split; [exact (ar_scale _ _ _ A)|]. rewrite (vval_pos (set_sign SPos r) eq_refl), aval_set_sign, (ar_val _ _ _ A).
    now rewrite (vval_pos v1 G1), (vval_pos v2 G2).
  - destruct (cmp_abs_spec c v1 v2 D1 D2 N1) as (s & -> & Hc); [congruence|]. cbn [bind].
    destruct Hc as [[_ K]|[[-> _]|[_ K]]]; [exfalso; rewrite K in L; now apply Qlt_irrefl in L| |exfalso; apply (Qlt_irrefl (aval v1)); now apply (Qlt_trans _ (aval v2))]. cbn [Z.eqb Pos.eqb].
    destruct (sub_abs_spec c v1 v2 D1 D2 N1) as (r & -> & A); [congruence|exact L|]. cbn [bind]. exists (set_sign SPos r).
    split; [reflexivity|]. split; [apply (absres_tidy _ _ _ _ A); discriminate|]. split; [reflexivity|].
    split; [exact (ar_scale _ _ _ A)|]. rewrite (vval_pos (set_sign SPos r) eq_refl), aval_set_sign, (ar_val _ _ _ A).
    rewrite (vval_pos v1 G1), (vval_neg v2 G2). ring.
Qed.

Lemma fl_rel_R x : Rabs (Q2R (fl x) - Q2R x) <= Rabs (Q2R x) * / 9007199254740992.
Proof.
  pose proof (fl_err x) as K. apply Qabs_le_R in K. rewrite Q2R_minus, Q2R_mult, Q2R_abs in K.
  replace (Q2R ulp53) with (/ 9007199254740992) in K; [lra|]. unfold Q2R, ulp53. cbn [Qnum Qden]. lra.
Qed.

(** the power of two the loop builds *)
Record twos (i : Z) (v : var) : Prop := {
  tw_tidy : tidy v;
  tw_scale : dscale v = 0%Z;
  tw_val : (vval v == inject_Z (2 ^ i))%Q
}.
Lemma twos_one : twos 1 TWO.
Proof. constructor; [apply stripped_tidy, two_st|reflexivity|exact two_val]. Qed.
Lemma twos_next c i v : (0 <= i)%Z -> twos i v -> exists r, add_common c v v = Ret r /\ twos (i + 1) r.
Proof.
  intros Hi [T D V]. destruct (add_op c v v (proj1 T) (proj1 T)) as (r & E & Tr & Dr & Vr); try lia.
  exists r. split; [exact E|]. constructor; [exact Tr|rewrite Dr, D; reflexivity|].
  rewrite Vr, V, <- inject_Z_plus. replace (2 ^ (i + 1))%Z with (2 ^ i + 2 ^ i)%Z; [reflexivity|]. rewrite Z.pow_add_r by lia. lia.
Qed.

Lemma fl_cent : Rabs (Q2R (fl (1 # 100)) - 1 / 100) <= / 1000000000.
Proof.
  pose proof (fl_rel_R (1 # 100)) as H. replace (Q2R (1 # 100)) with (1 / 100) in H by (unfold Q2R; cbn; lra).
  rewrite (Rabs_pos_eq (1 / 100)) in H by lra. lra.
Qed.

Lemma cent_false q : negb (Qle_bool (Qabs q) (fl (1 # 100))) = true -> 999 / 100000 <= Rabs (Q2R q).
Proof.
  intro H. apply negb_true_iff in H. destruct (Qlt_le_dec (fl (1 # 100)) (Qabs q)) as [L|L].
  - apply Qlt_Rlt in L. rewrite Q2R_abs in L. pose proof (Rabs_between _ _ fl_cent). lra.
  - apply Qle_bool_iff in L. congruence.
Qed.
Lemma cent_true q : negb (Qle_bool (Qabs q) (fl (1 # 100))) = false -> Rabs (Q2R q) <= 1001 / 100000.
Proof.
  intro H. apply negb_false_iff in H. apply Qle_bool_iff, Qle_Rle in H. rewrite Q2R_abs in H.
  pose proof (Rabs_between _ _ fl_cent). lra.
Qed.

Lemma IZR_two i : (0 <= i)%Z -> 0 < IZR (2 ^ i).
Proof. intro H. apply IZR_lt. apply Z.pow_pos_nonneg; lia. Qed.

(** halving keeps the ratio *)
Lemma half_step f val P e : 0 < P -> 0 <= e <= / 1000000 ->
  Rabs (Q2R val * P - f) <= e * Rabs f ->
  Rabs (Q2R (fdiv val 2) * (2 * P) - f) <= (e + 2 * / 10000000000000000) * Rabs f.
Proof.
  intros HP He H. unfold fdiv. pose proof (fl_rel_R (val / 2)) as K. rewrite Q2R_div in K by discriminate.
  replace (Q2R 2) with 2 in K by (unfold Q2R; cbn; lra). set (w := Q2R (fl (val / 2))) in *. set (x := Q2R val) in *. clearbody w x.
  assert (K2 : Rabs (w * (2 * P) - x * P) <= Rabs (x * P) * / 9007199254740992).
  { replace (w * (2 * P) - x * P) with ((w - x / 2) * (2 * P)) by field. rewrite Rabs_mult, (Rabs_pos_eq (2 * P)) by lra.
    assert (E : Rabs (x * P) = Rabs (x / 2) * (2 * P)).
    { unfold Rdiv. rewrite !Rabs_mult, (Rabs_pos_eq P), (Rabs_pos_eq (/ 2)) by lra. field. }
    rewrite E. pose proof (Rabs_pos (x / 2)).
    replace (Rabs (x / 2) * (2 * P) * / 9007199254740992) with (Rabs (x / 2) * / 9007199254740992 * (2 * P)) by ring.
    apply Rmult_le_compat_r; lra. }
  assert (K3 : Rabs (x * P) <= (1 + e) * Rabs f).
  { replace (x * P) with (f + (x * P - f)) by ring. eapply Rle_trans; [apply Rabs_triang|]. lra. }
  replace (w * (2 * P) - f) with ((w * (2 * P) - x * P) + (x * P - f)) by ring. eapply Rle_trans; [apply Rabs_triang|].
  pose proof (Rabs_pos f). assert (e * Rabs f <= / 1000000 * Rabs f) by (apply Rmult_le_compat_r; lra). lra.
Qed.

Lemma exp_reduce_spec c f : Rabs f <= 6000 -> forall k i fuel val tmp, (i + Z.of_nat k = 20)%Z -> (1 <= i)%Z -> (k < fuel)%nat ->
  Rabs (Q2R val * IZR (2 ^ i) - f) <= IZR i * (2 * / 10000000000000000) * Rabs f -> twos i tmp ->
  exists n t, exp_reduce c fuel val i tmp = Ret (n, t) /\ (1 <= n <= 20)%Z /\ twos n t /\ Rabs f <= 10011 / 1000000 * IZR (2 ^ n).
Proof.
  intros F. induction k as [|k IH]; intros i fuel val tmp Hk Hi Hf H T; (destruct fuel as [|fuel]; [lia|]); cbn [exp_reduce].
  all: assert (Pi : 0 < IZR (2 ^ i)) by (apply IZR_two; lia).
  all: assert (Ii : 0 <= IZR i <= 20) by (split; apply IZR_le; lia).
  all: pose proof (Rabs_pos f) as F0.
  all: assert (E1 : IZR i * (2 * / 10000000000000000) * Rabs f <= / 1000000 * Rabs f) by (apply Rmult_le_compat_r; lra).
  all: destruct (negb (Qle_bool (Qabs val) (fl (1 # 100)))) eqn:C.
  2,4: exists i, tmp; split; [reflexivity|]; split; [lia|]; split; [exact T|].
  2,3: apply cent_true in C;
       assert (K : Rabs (Q2R val * IZR (2 ^ i)) <= 1001 / 100000 * IZR (2 ^ i))
         by (rewrite Rabs_mult, (Rabs_pos_eq (IZR (2 ^ i))) by lra; apply Rmult_le_compat_r; lra);
       pose proof (Rabs_triang (f - Q2R val * IZR (2 ^ i)) (Q2R val * IZR (2 ^ i))) as Tr;
       rewrite (Rabs_minus_sym f) in Tr; replace (f - Q2R val * IZR (2 ^ i) + Q2R val * IZR (2 ^ i)) with f in Tr by ring; lra.
  - exfalso. replace i with 20%Z in * by lia. apply cent_false in C.
    change (IZR (2 ^ 20)) with 1048576 in *.
    pose proof (Rabs_triang (Q2R val * 1048576 - f) f) as Tr. replace (Q2R val * 1048576 - f + f) with (Q2R val * 1048576) in Tr by ring.
    rewrite (Rabs_mult (Q2R val)), (Rabs_pos_eq 1048576) in Tr by lra. lra.
  - destruct (twos_next c i tmp ltac:(lia) T) as (t' & -> & T'). cbn [bind].
    apply IH; auto; try lia.
    assert (E2 : IZR (2 ^ (i + 1)) = 2 * IZR (2 ^ i)).
    { rewrite <- (mult_IZR 2). f_equal. rewrite Z.pow_add_r by lia. change (2 ^ 1)%Z with 2%Z. lia. }
    rewrite E2. replace (IZR (i + 1)) with (IZR i + 1) by (rewrite plus_IZR; reflexivity).
    replace ((IZR i + 1) * (2 * / 10000000000000000)) with (IZR i * (2 * / 10000000000000000) + 2 * / 10000000000000000) by ring.
    apply half_step; [exact Pi|lra|exact H].
Qed.

Lemma twos_facts n v : (1 <= n <= 20)%Z -> twos n v -> digits v <> [] /\ (0 <= weight v)%Z /\ (ndigits v <= 2)%Z.
Proof.
  intros Hn [T D V].
  assert (P : (2 ^ 1 <= 2 ^ n <= 2 ^ 20)%Z) by (split; apply Z.pow_le_mono_r; lia).
  assert (N : digits v <> []).
  { intro E. rewrite (vval_empty v E) in V. change 0%Q with (inject_Z 0) in V. apply (proj1 (inject_Z_inj _ _)) in V. lia. }
  pose proof (semi_range v (proj1 T) N) as [Lo Hi].
  assert (A : (Qabs (vval v) == inject_Z (2 ^ n))%Q).
  { rewrite V. apply Qabs_pos. change 0%Q with (inject_Z 0). rewrite <- Zle_Qle. lia. }
  rewrite A in Lo, Hi.
  assert (W0 : (0 <= weight v)%Z).
  { destruct (Z_le_gt_dec 0 (weight v)) as [L|L]; [exact L|exfalso].
    assert (K : (p10 (4 * (weight v + 1)) <= p10 0)%Q) by (apply p10_le; lia). rewrite p10_0 in K.
    pose proof (Qlt_le_trans _ _ _ Hi K) as Q1. change 1%Q with (inject_Z 1) in Q1. rewrite <- Zlt_Qlt in Q1. lia. }
  assert (W1 : (weight v <= 1)%Z).
  { apply (semi_weight v 1); [apply T|lia|]. rewrite A. change (4 * (1 + 1))%Z with 8%Z. rewrite (p10_Z 8) by lia.
    rewrite <- Zlt_Qlt. lia. }
  split; [exact N|]. split; [exact W0|].
  assert (4 * ndigits v < 4 * Z.max 0 (weight v + 1) + 4 + 0)%Z; [|lia]. apply (tidy_len v 0 T); [|lia].
  apply (mult_comp _ _ _ (Qeq_sym _ _ V)). apply mult_Z. lia.
Qed.

(** dividing by the power of two is exact at the scale the code asks for *)
Lemma div_two c v t n : stripped v -> digits v <> [] -> (0 <= dscale v <= 16383)%Z -> mult (vval v) (dscale v) -> (weight v <= 32767)%Z ->
  (1 <= n <= 20)%Z -> twos n t ->
  exists x, div_fast_common c v t (dscale v + n) true = Ret (Some x) /\ stripped x /\ dscale x = (dscale v + n)%Z /\
    mult (vval x) (dscale v + n) /\ (vval x * inject_Z (2 ^ n) == vval v)%Q.
Proof.
  intros S N Ds M W Hn T. destruct (twos_facts n t Hn T) as (Nt & Wt & Lt).
  assert (Ln : (ndigits v <= 100000)%Z).
  { pose proof (tidy_len v (dscale v) (stripped_tidy v S) M ltac:(lia)). lia. }
  destruct (div_fast_semi c v t (dscale v + n) (stripped_semi _ S) (proj1 (tw_tidy _ _ T)) N Nt) as [(x & E & Sx & Dx & R)|(_ & K & _)]; [|
    |lia].
  { unfold df_bounds. lia. }
  exists x. split; [exact E|]. split; [exact Sx|]. split; [exact Dx|].
  assert (P2 : ~ (inject_Z (2 ^ n) == 0)%Q).
  { change 0%Q with (inject_Z 0). rewrite inject_Z_injective. pose proof (Z.pow_pos_nonneg 2 n). lia. }
  assert (Mq : mult (vval v / vval t) (dscale v + n)).
  { apply (mult_comp (vval v * (inject_Z (5 ^ n) * p10 (- n)))%Q).
    - rewrite (tw_val _ _ T). pose proof (p10_opp n) as O. pose proof (p10_Z n ltac:(lia)) as Z10.
      assert (E5 : (inject_Z (5 ^ n) * inject_Z (2 ^ n) == p10 n)%Q).
      { rewrite Z10, <- inject_Z_mult, <- Z.pow_mul_l. reflexivity. }
      assert (G : (inject_Z (5 ^ n) * p10 (- n) == / inject_Z (2 ^ n))%Q).
      { apply (Qmult_inj_r _ _ (inject_Z (2 ^ n)) P2). rewrite (Qmult_comm (/ _)), Qmult_inv_r by exact P2.
        rewrite <- O, <- E5. ring. }
      rewrite G. reflexivity.
    - apply mult_mul; [exact M|]. exists (5 ^ n)%Z. rewrite <- Qmult_assoc, (Qmult_comm (p10 (- n))), p10_opp. ring. }
  pose proof (nearly_exact _ _ _ Mq R) as X. split; [apply (mult_comp _ _ _ (Qeq_sym _ _ X)), Mq|].
  rewrite X, (tw_val _ _ T). field. exact P2.
Qed.
