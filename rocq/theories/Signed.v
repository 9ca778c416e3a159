(** * Signed: signed addition, subtraction, comparison, ceiling and floor. *)
From Coq Require Import ZArith QArith Qround Qpower Qabs List Bool Lia Lqa.
From Verif Require Import Base Var Spec QDec Digits Arith Strip Round Trunc AddSub.
Import ListNotations.
Open Scope Z_scope.

(** stripped up to the sign of zero *)
Record semi (v : var) : Prop := {
  sm_digits : Forall dig (digits v);
  sm_first : forall d t, digits v = d :: t -> d <> 0;
  sm_zero : digits v = [] -> weight v = 0;
  sm_nan : sign v <> SNaN
}.

Lemma stripped_semi v : stripped v -> semi v.
Proof. intros [A B C D E]. constructor; auto. intro H. now destruct (D H). Qed.

Lemma semi_set_sign s v : semi v -> s <> SNaN -> semi (set_sign s v).
Proof. intros [A B C D] N. constructor; auto. Qed.

Record ares (s : Z) (q : Q) (r : var) : Prop := {
  as_semi : semi r;
  as_scale : dscale r = s;
  as_val : (vval r == q)%Q
}.

Lemma aval_set_sign s v : aval (set_sign s v) = aval v.
Proof. reflexivity. Qed.

Lemma vval_neg v : sign v = SNeg -> (vval v == - aval v)%Q.
Proof. intro E. rewrite vval_aval, E. cbn [sgz]. change (inject_Z (-1)) with (-1)%Q. ring. Qed.

Lemma absres_pos s q r : absres s q r -> ares s q (set_sign SPos r).
Proof.
  intros [A B C D]. constructor; auto.
  - apply semi_set_sign; [now apply stripped_semi|discriminate].
  - rewrite vval_pos by reflexivity. exact D.
Qed.
Lemma absres_neg s q r : absres s q r -> ares s (- q) (set_sign SNeg r).
Proof.
  intros [A B C D]. constructor; auto.
  - apply semi_set_sign; [now apply stripped_semi|discriminate].
  - rewrite vval_neg by reflexivity. rewrite aval_set_sign, D. reflexivity.
Qed.

Lemma ares_comp s q q' r : (q == q')%Q -> ares s q r -> ares s q' r.
Proof. intros E [A B C]. constructor; auto. now rewrite <- E. Qed.

Lemma zero_scaled_ok c s : 0 <= s <= 16383 -> zero_scaled c s = Ret (Var 0 s SPos []).
Proof.
  intro H. unfold zero_scaled. rewrite dassert_ok; [reflexivity|].
  unfold NUMERIC_DSCALE_MAX. apply andb_true_iff. split; apply Z.leb_le; lia.
Qed.

Lemma zero_ares s q : (q == 0)%Q -> ares s q (Var 0 s SPos []).
Proof.
  intro E. constructor; cbn; auto.
  - constructor; cbn; auto; discriminate.
  - rewrite E. unfold vval, smag, mag; cbn. apply dec_0.
Qed.

(** the four-way branch on the comparison *)
Lemma diff_branch c v1 v2 : Forall dig (digits v1) -> Forall dig (digits v2) ->
  sign v1 <> SNaN -> sign v2 <> SNaN -> 0 <= Z.max (dscale v1) (dscale v2) <= 16383 ->
  (exists r, (cmp <- cmp_abs c v1 v2 ;;
     if cmp =? 0 then zero_scaled c (Z.max (dscale v1) (dscale v2))
     else if cmp =? 1 then r <- sub_abs c v1 v2 ;; Ret (set_sign SPos r)
     else if cmp =? -1 then r <- sub_abs c v2 v1 ;; Ret (set_sign SNeg r)
     else Panic (WMsg MInvalidCmp)) = Ret r /\
     ares (Z.max (dscale v1) (dscale v2)) (aval v1 - aval v2) r) /\
  (exists r, (cmp <- cmp_abs c v1 v2 ;;
     if cmp =? 0 then zero_scaled c (Z.max (dscale v1) (dscale v2))
     else if cmp =? 1 then r <- sub_abs c v1 v2 ;; Ret (set_sign SNeg r)
     else if cmp =? -1 then r <- sub_abs c v2 v1 ;; Ret (set_sign SPos r)
     else Panic (WMsg MInvalidCmp)) = Ret r /\
     ares (Z.max (dscale v1) (dscale v2)) (aval v2 - aval v1) r).
Proof.
  intros D1 D2 N1 N2 S.
  destruct (cmp_abs_spec c v1 v2 D1 D2 N1 N2) as (s & E & H). rewrite E. cbn [bind].
  destruct H as [[-> H]|[[-> H]|[-> H]]]; cbn [Z.eqb Pos.eqb].
  - rewrite zero_scaled_ok by exact S.
    split; eexists; (split; [reflexivity|]); apply zero_ares; rewrite H; ring.
  - destruct (sub_abs_spec c v1 v2 D1 D2 N1 N2 H) as (r & Er & A). rewrite Er. cbn [bind].
    split; eexists; (split; [reflexivity|]).
    + now apply absres_pos.
    + eapply ares_comp; [|apply absres_neg; exact A]. ring.
  - destruct (sub_abs_spec c v2 v1 D2 D1 N2 N1 H) as (r & Er & A). rewrite Er. cbn [bind].
    rewrite Z.max_comm in A.
    split; eexists; (split; [reflexivity|]).
    + eapply ares_comp; [|apply absres_neg; exact A]. ring.
    + now apply absres_pos.
Qed.

Lemma add_common_spec c v1 v2 : Forall dig (digits v1) -> Forall dig (digits v2) ->
  sign v1 <> SNaN -> sign v2 <> SNaN -> 0 <= Z.max (dscale v1) (dscale v2) <= 16383 ->
  exists r, add_common c v1 v2 = Ret r /\
            ares (Z.max (dscale v1) (dscale v2)) (vval v1 + vval v2) r.
Proof.
  intros D1 D2 N1 N2 S. unfold add_common. rewrite (nan_ok c v1 N1), (nan_ok c v2 N2). cbn [bind].
  destruct (add_abs_spec c v1 v2 D1 D2 N1 N2) as (ra & Ea & Aa).
  destruct (diff_branch c v1 v2 D1 D2 N1 N2 S) as [(rp & Ep & Ap) (rm & Em & Am)].
  unfold is_positive. destruct (sign v1) eqn:G1; [| |congruence]; cbn [sgn_eqb];
    (destruct (sign v2) eqn:G2; [| |congruence]); cbn [sgn_eqb].
  - rewrite Ea. cbn [bind]. eexists; split; [reflexivity|].
    eapply ares_comp; [|apply absres_pos; exact Aa]. now rewrite (vval_pos v1 G1), (vval_pos v2 G2).
  - exists rp. split; [exact Ep|]. eapply ares_comp; [|exact Ap].
    rewrite (vval_pos v1 G1), (vval_neg v2 G2). ring.
  - exists rm. split; [exact Em|]. eapply ares_comp; [|exact Am].
    rewrite (vval_neg v1 G1), (vval_pos v2 G2). ring.
  - rewrite Ea. cbn [bind]. eexists; split; [reflexivity|].
    eapply ares_comp; [|apply absres_neg; exact Aa]. rewrite (vval_neg v1 G1), (vval_neg v2 G2). ring.
Qed.

Lemma sub_common_spec c v1 v2 : Forall dig (digits v1) -> Forall dig (digits v2) ->
  sign v1 <> SNaN -> sign v2 <> SNaN -> 0 <= Z.max (dscale v1) (dscale v2) <= 16383 ->
  exists r, sub_common c v1 v2 = Ret r /\
            ares (Z.max (dscale v1) (dscale v2)) (vval v1 - vval v2) r.
Proof.
  intros D1 D2 N1 N2 S. unfold sub_common. rewrite (nan_ok c v1 N1), (nan_ok c v2 N2). cbn [bind].
  destruct (add_abs_spec c v1 v2 D1 D2 N1 N2) as (ra & Ea & Aa).
  destruct (diff_branch c v1 v2 D1 D2 N1 N2 S) as [(rp & Ep & Ap) (rm & Em & Am)].
  unfold is_positive, is_negative. destruct (sign v1) eqn:G1; [| |congruence]; cbn [sgn_eqb];
    (destruct (sign v2) eqn:G2; [| |congruence]); cbn [sgn_eqb].
  - exists rp. split; [exact Ep|]. eapply ares_comp; [|exact Ap].
    rewrite (vval_pos v1 G1), (vval_pos v2 G2). ring.
  - rewrite Ea. cbn [bind]. eexists; split; [reflexivity|].
    eapply ares_comp; [|apply absres_pos; exact Aa]. rewrite (vval_pos v1 G1), (vval_neg v2 G2). ring.
  - rewrite Ea. cbn [bind]. eexists; split; [reflexivity|].
    eapply ares_comp; [|apply absres_neg; exact Aa]. rewrite (vval_neg v1 G1), (vval_pos v2 G2). ring.
  - exists rm. split; [exact Em|]. eapply ares_comp; [|exact Am].
    rewrite (vval_neg v1 G1), (vval_neg v2 G2). ring.
Qed.

(** ** Comparison *)
Definition nonzero_or_empty (v : var) : Prop := digits v = [] \/ 0 < mag v.

Lemma semi_nze v : semi v -> nonzero_or_empty v.
Proof.
  intros [A B C D]. unfold nonzero_or_empty. destruct (digits v) as [|d t] eqn:E; [now left|right].
  unfold mag. rewrite E. pose proof (dval_pos d t A (B d t eq_refl)). pose proof (pB_len t). lia.
Qed.

Lemma aval_empty v : digits v = [] -> (aval v == 0)%Q.
Proof. intro E. unfold aval, mag. rewrite E. apply dec_0. Qed.
Lemma vval_empty v : digits v = [] -> (vval v == 0)%Q.
Proof. intro E. rewrite vval_aval, (aval_empty v E). ring. Qed.
Lemma aval_gt0 v : 0 < mag v -> (0 < aval v)%Q.
Proof. intro H. unfold aval. rewrite <- (dec_0 (4 * lsd v)). now apply dec_lt_iff. Qed.

Lemma ndigits_0 v : (ndigits v =? 0) = true -> digits v = [].
Proof. intro H. zb. now apply lenz_0. Qed.
Lemma ndigits_n0 v : (ndigits v =? 0) = false -> digits v <> [].
Proof. intros H E. zb. apply H. unfold ndigits. now rewrite E. Qed.

Lemma cmp_common_spec c v1 v2 : Forall dig (digits v1) -> Forall dig (digits v2) ->
  sign v1 <> SNaN -> sign v2 <> SNaN -> nonzero_or_empty v1 -> nonzero_or_empty v2 ->
  exists s, cmp_common c v1 v2 = Ret s /\ sgn_cmp s (vval v1) (vval v2).
Proof.
  intros D1 D2 N1 N2 Z1 Z2. unfold cmp_common. rewrite (nan_ok c v1 N1), (nan_ok c v2 N2). cbn [bind].
  assert (P : forall v, nonzero_or_empty v -> digits v <> [] -> (0 < aval v)%Q).
  { intros v [H|H] NE; [congruence|]. now apply aval_gt0. }
  unfold is_positive, is_negative, sgn_cmp.
  destruct (ndigits v1 =? 0) eqn:E1.
  - apply ndigits_0 in E1. pose proof (vval_empty v1 E1) as V1.
    destruct (ndigits v2 =? 0) eqn:E2.
    + apply ndigits_0 in E2. pose proof (vval_empty v2 E2) as V2.
      exists 0. split; [reflexivity|]. left. split; auto. lra.
    + apply ndigits_n0 in E2. pose proof (P v2 Z2 E2) as P2.
      destruct (sign v2) eqn:G2; [| |congruence]; cbn [sgn_eqb].
      * pose proof (vval_pos v2 G2). exists (-1). split; [reflexivity|]. right. right. split; auto. lra.
      * pose proof (vval_neg v2 G2). exists 1. split; [reflexivity|]. right. left. split; auto. lra.
  - apply ndigits_n0 in E1. pose proof (P v1 Z1 E1) as P1.
    destruct (ndigits v2 =? 0) eqn:E2.
    + apply ndigits_0 in E2. pose proof (vval_empty v2 E2) as V2.
      destruct (sign v1) eqn:G1; [| |congruence]; cbn [sgn_eqb].
      * pose proof (vval_pos v1 G1). exists 1. split; [reflexivity|]. right. left. split; auto. lra.
      * pose proof (vval_neg v1 G1). exists (-1). split; [reflexivity|]. right. right. split; auto. lra.
    + apply ndigits_n0 in E2. pose proof (P v2 Z2 E2) as P2.
      destruct (sign v1) eqn:G1; [| |congruence]; cbn [sgn_eqb];
        (destruct (sign v2) eqn:G2; [| |congruence]); cbn [sgn_eqb].
      * destruct (cmp_abs_spec c v1 v2 D1 D2 ltac:(congruence) ltac:(congruence)) as (s & E & H).
        pose proof (vval_pos v1 G1). pose proof (vval_pos v2 G2).
        exists s. split; [exact E|]. unfold sgn_cmp in H. destruct H as [[-> H]|[[-> H]|[-> H]]].
        -- left. split; auto. lra.
        -- right. left. split; auto. lra.
        -- right. right. split; auto. lra.
      * pose proof (vval_pos v1 G1). pose proof (vval_neg v2 G2).
        exists 1. split; [reflexivity|]. right. left. split; auto. lra.
      * pose proof (vval_neg v1 G1). pose proof (vval_pos v2 G2).
        exists (-1). split; [reflexivity|]. right. right. split; auto. lra.
      * destruct (cmp_abs_spec c v2 v1 D2 D1 ltac:(congruence) ltac:(congruence)) as (s & E & H).
        pose proof (vval_neg v1 G1). pose proof (vval_neg v2 G2).
        exists s. split; [exact E|].
        unfold sgn_cmp in H. destruct H as [[-> H]|[[-> H]|[-> H]]].
        -- left. split; auto. lra.
        -- right. left. split; auto. lra.
        -- right. right. split; auto. lra.
Qed.
