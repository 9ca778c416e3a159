(** * LnOps: the variable operations inside the approximate functions, with their errors as
    rationals. *)
From Coq Require Import ZArith QArith Qround Qpower Qabs List Bool Lia Lqa.
From Verif Require Import Base Var Flt Transc Spec SpecRoot QDec Digits Arith Strip Round Trunc AddSub Signed Make Api2 DivQ
  DivFast Mul MulNear Sqrt.
Import ListNotations.
Open Scope Z_scope.

(** No leading or trailing zero digit (the sign of zero is free). *)
Definition tidy (v : var) : Prop := semi v /\ (digits v <> [] -> stripped v).

Lemma stripped_tidy v : stripped v -> tidy v.
Proof. intro S. split; [now apply stripped_semi|auto]. Qed.

Lemma absres_tidy s q r g : absres s q r -> g <> SNaN -> tidy (set_sign g r).
Proof.
  intros [S _ _ _] G. split; [apply semi_set_sign; [now apply stripped_semi|exact G]|].
  cbn [digits set_sign]. intro N. destruct S as [A B C D E]. constructor; cbn [digits sign weight set_sign]; auto.
  intro H. congruence.
Qed.

Lemma zero_tidy s : tidy (Var 0 s SPos []).
Proof. apply stripped_tidy, stripped_zero. Qed.

Lemma diff_tidy c v1 v2 g1 g2 r : Forall dig (digits v1) -> Forall dig (digits v2) ->
  sign v1 <> SNaN -> sign v2 <> SNaN -> 0 <= Z.max (dscale v1) (dscale v2) <= 16383 -> g1 <> SNaN -> g2 <> SNaN ->
  (cmp <- cmp_abs c v1 v2 ;;
     if cmp =? 0 then zero_scaled c (Z.max (dscale v1) (dscale v2))
     else if cmp =? 1 then r <- sub_abs c v1 v2 ;; Ret (set_sign g1 r)
     else if cmp =? -1 then r <- sub_abs c v2 v1 ;; Ret (set_sign g2 r)
     else Panic (WMsg MInvalidCmp)) = Ret r -> tidy r.
Proof.
  intros D1 D2 N1 N2 S G1 G2 H.
  destruct (cmp_abs_spec c v1 v2 D1 D2 N1 N2) as (s & E & Hc). rewrite E in H. cbn [bind] in H.
  destruct Hc as [[-> Hc]|[[-> Hc]|[-> Hc]]]; cbn [Z.eqb Pos.eqb] in H.
  - rewrite zero_scaled_ok in H by exact S. injection H as <-. apply zero_tidy.
  - destruct (sub_abs_spec c v1 v2 D1 D2 N1 N2 Hc) as (r' & Er & A). rewrite Er in H. cbn [bind] in H.
    injection H as <-. now apply (absres_tidy _ _ _ _ A).
  - destruct (sub_abs_spec c v2 v1 D2 D1 N2 N1 Hc) as (r' & Er & A). rewrite Er in H. cbn [bind] in H.
    injection H as <-. now apply (absres_tidy _ _ _ _ A).
Qed.

Lemma add_tidy c v1 v2 r : Forall dig (digits v1) -> Forall dig (digits v2) ->
  sign v1 <> SNaN -> sign v2 <> SNaN -> 0 <= Z.max (dscale v1) (dscale v2) <= 16383 ->
  add_common c v1 v2 = Ret r -> tidy r.
Proof.
  intros D1 D2 N1 N2 S. unfold add_common. rewrite (nan_ok c v1 N1), (nan_ok c v2 N2). cbn [bind].
  destruct (add_abs_spec c v1 v2 D1 D2 N1 N2) as (r' & Er & A).
  destruct (is_positive v1), (is_positive v2); try (apply diff_tidy; auto; discriminate);
    rewrite Er; cbn [bind]; intro H; injection H as <-; apply (absres_tidy _ _ _ _ A); discriminate.
Qed.
Lemma sub_tidy c v1 v2 r : Forall dig (digits v1) -> Forall dig (digits v2) ->
  sign v1 <> SNaN -> sign v2 <> SNaN -> 0 <= Z.max (dscale v1) (dscale v2) <= 16383 ->
  sub_common c v1 v2 = Ret r -> tidy r.
Proof.
  intros D1 D2 N1 N2 S. unfold sub_common. rewrite (nan_ok c v1 N1), (nan_ok c v2 N2). cbn [bind].
  destruct (add_abs_spec c v1 v2 D1 D2 N1 N2) as (r' & Er & A).
  destruct (is_positive v1), (is_negative v2); try (apply diff_tidy; auto; discriminate);
    rewrite Er; cbn [bind]; intro H; injection H as <-; apply (absres_tidy _ _ _ _ A); discriminate.
Qed.

(** Exact addition and subtraction *)
Lemma add_op c v1 v2 : semi v1 -> semi v2 -> 0 <= dscale v1 <= 16383 -> 0 <= dscale v2 <= 16383 ->
  exists r, add_common c v1 v2 = Ret r /\ tidy r /\ dscale r = Z.max (dscale v1) (dscale v2) /\
    (vval r == vval v1 + vval v2)%Q.
Proof.
  intros S1 S2 B1 B2.
  destruct (add_common_spec c v1 v2 (sm_digits _ S1) (sm_digits _ S2) (sm_nan _ S1) (sm_nan _ S2) ltac:(lia)) as (r & E & A).
  exists r. split; [exact E|]. split; [|split; apply A].
  apply (add_tidy c v1 v2 r); try apply S1; try apply S2; auto. lia.
Qed.
Lemma sub_op c v1 v2 : semi v1 -> semi v2 -> 0 <= dscale v1 <= 16383 -> 0 <= dscale v2 <= 16383 ->
  exists r, sub_common c v1 v2 = Ret r /\ tidy r /\ dscale r = Z.max (dscale v1) (dscale v2) /\
    (vval r == vval v1 - vval v2)%Q.
Proof.
  intros S1 S2 B1 B2.
  destruct (sub_common_spec c v1 v2 (sm_digits _ S1) (sm_digits _ S2) (sm_nan _ S1) (sm_nan _ S2) ltac:(lia)) as (r & E & A).
  exists r. split; [exact E|]. split; [|split; apply A].
  apply (sub_tidy c v1 v2 r); try apply S1; try apply S2; auto. lia.
Qed.

(** Rounded to a multiple of 10^-s, [e] units in the last place off [x] *)
Definition off_by (e : Q) (x : Q) (s : Z) (r : var) : Prop :=
  stripped r /\ dscale r = s /\ mult (vval r) s /\ (Qabs (vval r - x) <= e * p10 (- s))%Q.

Lemma round_at_off q s : (Qabs (round_at q s - q) <= (1 # 2) * p10 (- s))%Q.
Proof.
  destruct (round_at_units q s) as (k & E & A). rewrite E.
  pose proof (p10_pos (- s)) as P. pose proof (p10_opp s) as O.
  setoid_replace (inject_Z k * p10 (- s) - q)%Q with ((inject_Z k - q * p10 s) * p10 (- s))%Q.
  - rewrite Qabs_Qmult, (Qabs_pos (p10 (- s))) by lra. apply Qmult_le_compat_r; [exact A|lra].
  - setoid_replace ((inject_Z k - q * p10 s) * p10 (- s))%Q with (inject_Z k * p10 (- s) - q * (p10 s * p10 (- s)))%Q by ring.
    rewrite O. ring.
Qed.

Lemma off_split q x s r d e : (Qabs (q - x) <= d)%Q -> (r == round_at q s)%Q -> (d + (1 # 2) * p10 (- s) <= e)%Q ->
  (Qabs (r - x) <= e)%Q.
Proof.
  intros H R L. pose proof (round_at_off q s) as A. rewrite <- R in A.
  setoid_replace (r - x)%Q with ((r - q) + (q - x))%Q by ring.
  eapply Qle_trans; [apply Qabs_triangle|]. lra.
Qed.

Lemma div_op c v1 v2 s : semi v1 -> semi v2 -> digits v2 <> [] -> df_bounds v1 v2 s -> s <= 16383 ->
  (exists r, div_fast_common c v1 v2 s true = Ret (Some r) /\ off_by ((1 # 2) + tiny) (vval v1 / vval v2) s r) \/
  (dbg c = true /\ 21 < ndigits v2 /\ div_fast_common c v1 v2 s true = Panic WArith).
Proof.
  intros S1 S2 N2 HB L. destruct (digits v1) eqn:E1.
  - left. unfold div_fast_common. rewrite (nan_ok c v1 (sm_nan _ S1)), (nan_ok c v2 (sm_nan _ S2)). cbn [bind].
    destruct (digits v2) as [|d t] eqn:E2; [congruence|].
    assert (Z2 : (ndigits v2 =? 0) = false).
    { apply Z.eqb_neq. unfold ndigits. rewrite E2, lenz_cons. pose proof (lenz_nonneg t). lia. }
    rewrite Z2. change (index (d :: t) 0) with (Ret d). cbn [bind].
    pose proof (sm_first _ S2 d t E2) as F. destruct (Z.eqb_spec d 0) as [K|_]; [congruence|].
    unfold ndigits. rewrite E1. change (lenz (@nil Z) =? 0) with true.
    destruct HB as (Hr & _). rewrite zero_scaled_ok by lia. cbn [bind].
    eexists. split; [reflexivity|]. split; [apply stripped_zero|]. split; [reflexivity|].
    assert (V1 : (vval v1 == 0)%Q) by now apply vval_empty.
    assert (V0 : (vval (Var 0 s SPos []) == 0)%Q) by now apply vval_empty.
    split; [exists 0; rewrite V0; ring|]. rewrite V0, V1. unfold Qdiv. rewrite Qmult_0_l.
    change (Qabs (0 - 0)) with 0%Q. apply Qmult_le_0_compat; [discriminate|apply Qlt_le_weak, p10_pos].
  - destruct (div_fast_semi c v1 v2 s S1 S2 ltac:(congruence) N2 HB) as [(r & E & T & D & q & A & R)|H]; [left|now right].
    exists r. split; [exact E|]. split; [exact T|]. split; [exact D|]. split.
    + apply (mult_comp (round_at q s)); [now rewrite R|]. apply mult_round. lia.
    + apply (off_split q _ s _ (p10 (- s - 9))); auto.
      replace (- s - 9) with (-9 + - s) by lia. rewrite p10_add. change (p10 (-9)) with tiny. apply Qle_lteq. right. ring.
Qed.

Lemma mul_op c v1 v2 s k : semi v1 -> semi v2 -> 0 <= s <= 16383 -> Z.min (ndigits v1) (ndigits v2) + 1 <= k ->
  exists r, mul_common c v1 v2 s = Ret r /\ off_by ((1 # 2) + inject_Z k * (1 # 10000)) (vval v1 * vval v2) s r.
Proof.
  intros S1 S2 L K.
  destruct (mul_common_near c v1 v2 s (sm_digits _ S1) (sm_digits _ S2) (sm_nan _ S1) (sm_nan _ S2) L)
    as (r & E & T & D & q & A & R).
  exists r. split; [exact E|]. split; [exact T|]. split; [exact D|]. split.
  - apply (mult_comp (round_at q s)); [now rewrite R|]. apply mult_round. lia.
  - apply (off_split q _ s _ (inject_Z k * (1 # 10000) * p10 (- s))); auto; [|apply Qle_lteq; right; ring].
    eapply Qle_trans; [exact A|]. replace (- s - 4) with (-4 + - s) by lia. rewrite p10_add. change (p10 (-4)) with (1 # 10000).
    set (m := Z.min (ndigits v1) (ndigits v2) + 1) in *.
    rewrite <- Qmult_assoc.
    apply Qmult_le_compat_r; [now rewrite <- Zle_Qle|]. pose proof (p10_pos (- s)). lra.
Qed.

(** Digit counts *)
Lemma tidy_len v s : tidy v -> mult (vval v) s -> 0 <= s -> 4 * ndigits v < 4 * Z.max 0 (weight v + 1) + 4 + s.
Proof.
  intros [S T] M L. destruct (digits v) as [|d t] eqn:E.
  - unfold ndigits. rewrite E. change (lenz (@nil Z)) with 0. lia.
  - assert (N : digits v <> []) by congruence. rewrite <- E in *. specialize (T N).
    pose proof (frac_lsd v s T N M) as F. unfold lsd in F. lia.
Qed.
Lemma semi_weight v w : semi v -> 0 <= w -> (Qabs (vval v) < p10 (4 * (w + 1)))%Q -> weight v <= w.
Proof.
  intros S W H. destruct (digits v) as [|d t] eqn:E; [rewrite (sm_zero _ S E); lia|].
  destruct (semi_range v S ltac:(congruence)) as [A _]. pose proof (Qle_lt_trans _ _ _ A H) as K.
  apply (proj1 (p10_lt_iff _ _)) in K. lia.
Qed.
Lemma semi_zero_iff v : semi v -> ((vval v == 0)%Q <-> digits v = []).
Proof.
  intro S. split; intro H; [|now apply vval_empty]. destruct (digits v) as [|d t] eqn:E; [reflexivity|exfalso].
  destruct (semi_range v S ltac:(congruence)) as [A _]. rewrite H in A. change (Qabs 0) with 0%Q in A.
  pose proof (p10_pos (4 * weight v)). lra.
Qed.
