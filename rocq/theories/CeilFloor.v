(** * CeilFloor: ceiling and floor. *)
From Coq Require Import ZArith QArith Qround Qpower Qabs List Bool Lia Lqa.
From Verif Require Import Base Var Spec QDec Digits Arith Strip Round Trunc AddSub Signed.
Import ListNotations.
Open Scope Z_scope.

Lemma cmp_trunc c v q r : semi v -> truncated v 0 q r ->
  exists s, cmp_common c v r = Ret s /\ sgn_cmp s (vval v) (vval r).
Proof.
  intros SV T. destruct (digits r) as [|d t] eqn:Er.
  - apply cmp_common_spec; try apply SV; try apply T; [now apply semi_nze|left; exact Er].
  - destruct (tr_same _ _ _ _ T) as [G|G]; [|congruence].
    pose proof (sm_nan v SV) as N.
    assert (NE : digits v <> []).
    { intro E. pose proof (tr_len _ _ _ _ T) as L. unfold ndigits in L.
      rewrite E, Er, lenz_cons, lenz_nil in L. pose proof (lenz_nonneg t). lia. }
    assert (L1 : (ndigits v =? 0) = false).
    { apply Z.eqb_neq. intro E. apply NE. now apply lenz_0. }
    assert (L2 : (ndigits r =? 0) = false).
    { apply Z.eqb_neq. unfold ndigits. rewrite Er, lenz_cons. pose proof (lenz_nonneg t). lia. }
    unfold cmp_common. rewrite (nan_ok c v N), (nan_ok c r (tr_sign _ _ _ _ T)). cbn [bind].
    rewrite L1, L2. unfold is_positive, is_negative. rewrite G.
    destruct (sign v) eqn:Gv; [| |congruence]; cbn [sgn_eqb].
    + destruct (cmp_abs_spec c v r) as (s & E & H); try apply SV; try apply T; try congruence.
      pose proof (vval_pos v Gv). pose proof (vval_pos r G).
      exists s. split; [exact E|]. eapply sgn_cmp_comp; [symmetry; eassumption|symmetry; eassumption|exact H].
    + destruct (cmp_abs_spec c r v) as (s & E & H); try apply SV; try apply T; try congruence.
      pose proof (vval_neg v Gv). pose proof (vval_neg r G).
      exists s. split; [exact E|]. unfold sgn_cmp in *. destruct H as [[-> H]|[[-> H]|[-> H]]].
      * left. split; auto. lra.
      * right. left. split; auto. lra.
      * right. right. split; auto. lra.
Qed.

(** what ceil and floor return: a value, and no overflow unless the value is too large *)
Record intres (v : var) (q : Q) (r : var) : Prop := {
  ir_digits : Forall dig (digits r);
  ir_sign : sign r <> SNaN;
  ir_scale : dscale r = 0;
  ir_val : (vval r == q)%Q;
  ir_weight : semi r \/ weight r = weight v \/ weight r = 0
}.

Lemma trunc_at_0 q : (trunc_at q 0 == inject_Z (trunc_int q))%Q.
Proof.
  unfold trunc_at. change (ten ^ 0)%Q with 1%Q. change (ten ^ (- 0))%Q with 1%Q.
  rewrite (trunc_int_comp (q * 1) q) by ring. ring.
Qed.

Lemma round_at_0 q : (round_at q 0 == inject_Z (round_int q))%Q.
Proof.
  unfold round_at. change (ten ^ 0)%Q with 1%Q. change (ten ^ (- 0))%Q with 1%Q.
  rewrite (round_int_comp (q * 1) q) by ring. ring.
Qed.

Lemma trunc_int_floor q : (0 <= q)%Q -> trunc_int q = Qfloor q.
Proof.
  intro H. unfold trunc_int. destruct (Qlt_le_dec q 0) as [A|A]; [|reflexivity].
  exfalso. apply (Qlt_not_le _ _ A H).
Qed.

Lemma trunc_int_ceil q : (q <= 0)%Q -> trunc_int q = Qceiling q.
Proof.
  intro H. unfold trunc_int. destruct (Qlt_le_dec q 0) as [A|A]; [reflexivity|].
  assert (E : (q == inject_Z 0)%Q) by (apply Qle_antisym; auto).
  unfold Qceiling. rewrite (Qfloor_comp _ _ E). rewrite (Qfloor_comp (- q) (inject_Z 0)) by (now rewrite E).
  now rewrite Qfloor_Z.
Qed.

Lemma Qceil_floor_int q : (q == inject_Z (Qfloor q))%Q -> Qceiling q = Qfloor q.
Proof.
  intro E. unfold Qceiling. rewrite (Qfloor_comp (- q) (inject_Z (- Qfloor q))).
  - rewrite Qfloor_Z. lia.
  - rewrite inject_Z_opp, <- E. reflexivity.
Qed.

Lemma Qceil_floor_frac q : ~ (q == inject_Z (Qfloor q))%Q -> Qceiling q = Qfloor q + 1.
Proof.
  intro N. pose proof (Qfloor_le q) as A. pose proof (Qlt_floor q) as B.
  pose proof (Qle_ceiling q) as C. pose proof (Qceiling_lt q) as D.
  assert (A' : (inject_Z (Qfloor q) < q)%Q).
  { destruct (Qle_lt_or_eq _ _ A) as [L|L]; [exact L|]. exfalso. apply N. now rewrite L. }
  assert (L1 : Qfloor q < Qceiling q).
  { rewrite Zlt_Qlt. eapply Qlt_le_trans; eauto. }
  assert (L2 : Qceiling q - 1 < Qfloor q + 1).
  { rewrite Zlt_Qlt. eapply Qlt_trans; eauto. }
  lia.
Qed.

Lemma one_vval : (vval ONE == 1)%Q.
Proof. reflexivity. Qed.

Lemma semi_sign_val v : semi v -> (is_positive v = true -> (0 <= vval v)%Q) /\ (is_positive v = false -> (vval v <= 0)%Q).
Proof.
  intros SV. pose proof (aval_nonneg v (sm_digits v SV)) as A. unfold is_positive.
  destruct (sign v) eqn:G; cbn; split; intro H; try discriminate.
  - rewrite (vval_pos v G). exact A.
  - rewrite (vval_neg v G). lra.
  - pose proof (sm_nan v SV). congruence.
Qed.

Lemma ceil_common_spec c v : semi v -> 0 <= dscale v <= 16383 ->
  exists r, ceil_common c v = Ret r /\ intres v (inject_Z (Qceiling (vval v))) r.
Proof.
  intros SV _. pose proof (sm_nan v SV) as N. unfold ceil_common. rewrite (nan_ok c v N). cbn [bind].
  destruct (trunc_common_spec c v 0 (sm_digits v SV) N) as (r & E & T). rewrite E. cbn [bind].
  pose proof (tr_val _ _ _ _ T) as TV. rewrite trunc_at_0 in TV.
  assert (IR : forall q, (vval r == q)%Q -> intres v q r).
  { intros q Hq. destruct T as [T1 T2 T3 T4 T5 T6 T7]. constructor; auto. destruct T5 as [T5|[T5 _]]; auto. }
  destruct (semi_sign_val v SV) as [Pp Pn].
  destruct (is_positive v) eqn:G.
  - specialize (Pp eq_refl). rewrite (trunc_int_floor _ Pp) in TV.
    destruct (cmp_trunc c v _ r SV T) as (s & Ec & Hc). rewrite Ec. cbn [bind].
    destruct (Z.eqb_spec s 0) as [->|Ns].
    + exists r. split; [reflexivity|]. apply IR.
      destruct Hc as [[_ Hc]|[[Hc _]|[Hc _]]]; try discriminate.
      rewrite TV. rewrite Qceil_floor_int; [reflexivity|]. now rewrite <- TV.
    + destruct (add_common_spec c r ONE) as (r2 & E2 & A2); try apply T.
      * constructor; [unfold dig; lia|constructor].
      * discriminate.
      * rewrite (tr_scale _ _ _ _ T). cbn. lia.
      * exists r2. split; [exact E2|]. destruct A2 as [B1 B2 B3]. constructor; try apply B1; auto.
        -- rewrite B2, (tr_scale _ _ _ _ T). reflexivity.
        -- rewrite B3, one_vval, TV, Qceil_floor_frac.
           ++ rewrite inject_Z_plus. reflexivity.
           ++ intro Eq. rewrite <- TV in Eq. destruct Hc as [[-> _]|[[_ Hc]|[_ Hc]]]; [congruence| |]; lra.
  - specialize (Pn eq_refl). exists r. split; [reflexivity|]. apply IR.
    rewrite TV, (trunc_int_ceil _ Pn). reflexivity.
Qed.

Lemma Qfloor_opp_ceil q : Qfloor q = - Qceiling (- q).
Proof. unfold Qceiling. rewrite (Qfloor_comp (- - q) q) by ring. lia. Qed.

Lemma floor_common_spec c v : semi v -> 0 <= dscale v <= 16383 ->
  exists r, floor_common c v = Ret r /\ intres v (inject_Z (Qfloor (vval v))) r.
Proof.
  intros SV _. pose proof (sm_nan v SV) as N. unfold floor_common. rewrite (nan_ok c v N). cbn [bind].
  destruct (trunc_common_spec c v 0 (sm_digits v SV) N) as (r & E & T). rewrite E. cbn [bind].
  pose proof (tr_val _ _ _ _ T) as TV. rewrite trunc_at_0 in TV.
  assert (IR : forall q, (vval r == q)%Q -> intres v q r).
  { intros q Hq. destruct T as [T1 T2 T3 T4 T5 T6 T7]. constructor; auto. destruct T5 as [T5|[T5 _]]; auto. }
  destruct (semi_sign_val v SV) as [Pp Pn].
  assert (Gn : is_negative v = negb (is_positive v)).
  { unfold is_negative, is_positive. destruct (sign v); auto; congruence. }
  rewrite Gn. destruct (is_positive v) eqn:G; cbn [negb].
  - specialize (Pp eq_refl). exists r. split; [reflexivity|]. apply IR.
    rewrite TV, (trunc_int_floor _ Pp). reflexivity.
  - specialize (Pn eq_refl). rewrite (trunc_int_ceil _ Pn) in TV.
    destruct (cmp_trunc c v _ r SV T) as (s & Ec & Hc). rewrite Ec. cbn [bind].
    destruct (Z.eqb_spec s 0) as [->|Ns].
    + exists r. split; [reflexivity|]. apply IR.
      destruct Hc as [[_ Hc]|[[Hc _]|[Hc _]]]; try discriminate.
      rewrite TV in Hc. rewrite TV. rewrite (Qfloor_comp _ _ Hc), Qfloor_Z. reflexivity.
    + destruct (sub_common_spec c r ONE) as (r2 & E2 & A2); try apply T.
      * constructor; [unfold dig; lia|constructor].
      * discriminate.
      * rewrite (tr_scale _ _ _ _ T). cbn. lia.
      * exists r2. split; [exact E2|]. destruct A2 as [B1 B2 B3]. constructor; try apply B1; auto.
        -- rewrite B2, (tr_scale _ _ _ _ T). reflexivity.
        -- rewrite B3, one_vval, TV.
           assert (NE : ~ (vval v == inject_Z (Qfloor (vval v)))%Q).
           { intro Eq. pose proof (Qceil_floor_int _ Eq) as EC. rewrite EC, <- Eq in TV.
             destruct Hc as [[-> _]|[[_ Hc]|[_ Hc]]]; [congruence| |]; lra. }
           rewrite (Qceil_floor_frac _ NE), inject_Z_plus. ring.
Qed.
