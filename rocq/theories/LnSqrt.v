(** * LnSqrt: square root of an intermediate result, to a given scale. *)
From Coq Require Import ZArith QArith Qround Qpower Qabs List Bool Lia Lqa.
From Verif Require Import Base Var Flt Transc Spec SpecRoot QDec Digits Arith Strip Round Trunc AddSub Signed Make Api2 DivQ
  DivFast Mul MulNear Sqrt SqrtApi LnOps.
Import ListNotations.
Open Scope Z_scope.

Lemma round_int_ge q k : (0 <= q)%Q -> (inject_Z k <= q)%Q -> k <= round_int q.
Proof.
  intros P H. rewrite round_int_pos by exact P. rewrite <- (Qfloor_Z k). apply Qfloor_resp_le. lra.
Qed.
Lemma round_at_ge q s e : (p10 e <= q)%Q -> - s <= e -> (p10 e <= round_at q s)%Q.
Proof.
  intros H L. unfold round_at. change (ten ^ s)%Q with (p10 s). change (ten ^ (- s))%Q with (p10 (- s)).
  pose proof (p10_pos e) as Pe. pose proof (p10_pos s) as Ps. pose proof (p10_pos (- s)) as Pm.
  assert (G : 10 ^ (e + s) <= round_int (q * p10 s)).
  { apply round_int_ge; [apply Qmult_le_0_compat; lra|]. rewrite <- p10_Z, p10_add by lia.
    apply Qmult_le_compat_r; lra. }
  rewrite Zle_Qle, <- p10_Z, p10_add in G by lia.
  apply (Qle_trans _ (p10 e * p10 s * p10 (- s))).
  - rewrite <- Qmult_assoc, p10_opp. lra.
  - apply Qmult_le_compat_r; lra.
Qed.

(** What the logarithm keeps about the number it reduces. *)
Record arg (x : var) : Prop := {
  ag_semi : semi x;
  ag_pos : (0 < vval x)%Q;
  ag_len : ndigits x <= 100000;
  ag_wt : -4096 <= weight x <= 32767;
  ag_scale : 0 <= dscale x <= 16383
}.

Lemma arg_nz x : arg x -> digits x <> [].
Proof. intros A E. pose proof (ag_pos _ A) as P. rewrite (vval_empty x E) in P. now apply Qlt_irrefl in P. Qed.

Lemma arg_range x : arg x -> (p10 (4 * weight x) <= vval x < p10 (4 * (weight x + 1)))%Q.
Proof.
  intro A. pose proof (semi_range x (ag_semi _ A) (arg_nz x A)) as R. pose proof (ag_pos _ A).
  rewrite Qabs_pos in R by lra. exact R.
Qed.

Lemma arg_sign x : arg x -> sign x = SPos.
Proof.
  intro A. pose proof (ag_pos _ A) as P. destruct (sign x) eqn:E; [reflexivity| |exfalso; now apply (sm_nan _ (ag_semi _ A))].
  exfalso. unfold vval, smag in P. rewrite E in P. cbn [sgz] in P.
  rewrite <- (dec_0 (4 * lsd x)) in P. apply (proj1 (dec_lt_iff _ _ _)) in P.
  pose proof (dval_bound _ (sm_digits _ (ag_semi _ A))) as B. fold (mag x) in B. lia.
Qed.

(** the Newton limit is not far below the root *)
Lemma root_not_small a x w u : (0 < u)%Q -> (p10 (4 * w) <= a)%Q -> (0 <= x)%Q -> (x < p10 (2 * w - 5))%Q ->
  (u <= p10 (2 * w - 8))%Q -> (a <= x * x + 2 * (x * u))%Q -> False.
Proof.
  intros U A X L Lu H. pose proof (p10_pos (2 * w)) as P.
  replace (2 * w - 5) with (-5 + 2 * w) in L by lia. replace (2 * w - 8) with (-8 + 2 * w) in Lu by lia.
  rewrite p10_add in L, Lu. change (p10 (-5)) with (1 # 100000) in L. change (p10 (-8)) with (1 # 100000000) in Lu.
  replace (4 * w) with (2 * w + 2 * w) in A by lia. rewrite p10_add in A. set (p := p10 (2 * w)) in *. clearbody p.
  assert (X1 : (x * x <= ((1 # 100000) * p) * ((1 # 100000) * p))%Q) by (apply Qsq_mono; lra).
  assert (X2 : (x * u <= ((1 # 100000) * p) * u)%Q) by (apply Qmult_le_compat_r; lra).
  assert (X3 : (((1 # 100000) * p) * u <= ((1 # 100000) * p) * ((1 # 100000000) * p))%Q).
  { rewrite !(Qmult_comm ((1 # 100000) * p)). apply Qmult_le_compat_r; lra. }
  assert (X4 : (0 < p * p)%Q) by now apply Qmult_lt_0_compat. lra.
Qed.

Lemma good_root_below a ls k x : good_root a ls k -> (x == inject_Z k * p10 (- ls))%Q ->
  (0 < x)%Q /\ (a <= x * x + 2 * (x * p10 (- ls)))%Q.
Proof.
  intros [K0 G] V. pose proof (p10_opp ls) as O. pose proof (p10_pos (- ls)) as P. apply Qabs_Qle_condition in G.
  destruct G as [G _]. assert (K1 : (0 < inject_Z k)%Q) by (change 0%Q with (inject_Z 0); now rewrite <- Zlt_Qlt).
  assert (X0 : (0 < x)%Q) by (rewrite V; now apply Qmult_lt_0_compat). split; [exact X0|].
  set (u := p10 (- ls)) in *. set (p := p10 ls) in *. set (K := inject_Z k) in *.
  assert (E : ((K * K - a * p * p) * (u * u) == x * x - a)%Q).
  { rewrite V. setoid_replace ((K * K - a * p * p) * (u * u))%Q with ((K * u) * (K * u) - a * (p * u) * (p * u))%Q by ring.
    rewrite O. ring. }
  assert (M : (- (((3 # 2) + tiny) * K) * (u * u) <= (K * K - a * p * p) * (u * u))%Q)
    by (apply Qmult_le_compat_r; [exact G|apply Qsq]).
  rewrite E in M.
  assert (E2 : (- (((3 # 2) + tiny) * K) * (u * u) == - ((3 # 2) + tiny) * (x * u))%Q) by (rewrite V; ring).
  rewrite E2 in M. assert (Xu : (0 < x * u)%Q) by now apply Qmult_lt_0_compat. unfold tiny in M. lra.
Qed.

Lemma sqrt_op c fuel x S L : arg x -> 8 <= S -> L = Z.max (S - 2 * weight x) 0 -> L + 8 <= 16383 ->
  sqrt_common c fuel x L = Diverge \/
  (sqrt_common c fuel x L = Panic WArith /\ dbg c = true) \/
  (exists r, sqrt_common c fuel x L = Ret r /\ arg r /\ close_root (vval x) (vval r) (root_error L)).
Proof.
  intros A HS HL L8. pose proof (arg_range x A) as [Lo Hi]. pose proof (arg_nz x A) as Nx. pose proof (arg_sign x A) as Sg.
  destruct A as [Sx Px Lx Wx Dx].
  assert (I : input x (L + 8)) by (constructor; auto; lia).
  unfold sqrt_common. unfold is_positive. rewrite Sg. cbn [sgn_eqb]. rewrite dassert_ok by reflexivity. cbn [bind].
  assert (N0 : (ndigits x =? 0) = false).
  { apply Z.eqb_neq. intro E. apply Nx. apply ndigits_0. now apply Z.eqb_eq. }
  rewrite N0. destruct (sqrt_guess_ok x (L + 8) I ltac:(lia)) as (g & -> & V & _). cbn [bind].
  destruct (sqrt_loop_spec c x (L + 8) I fuel g V) as [->|[[_ H]|[[-> H]|(x' & k & -> & T & D & Vx & G)]]]; cbn [bind].
  - now left.
  - exfalso. assert (K : (1 <= vval x * p10 (L + 8) * p10 (L + 8))%Q); [|lra].
    rewrite <- Qmult_assoc, <- p10_add.
    apply (Qle_trans _ (p10 (4 * weight x) * p10 (L + 8 + (L + 8)))).
    + rewrite <- p10_add, <- p10_0. apply p10_le. lia.
    + apply Qmult_le_compat_r; [exact Lo|apply Qlt_le_weak, p10_pos].
  - right. left. now split.
  - right. right.
    destruct (round_common_spec c x' L (st_digits _ T) (st_nan _ T)) as (r & Er & R). exists r. split; [exact Er|].
    assert (Vr : (vval r == round_at (inject_Z k * p10 (- (L + 8))) L)%Q).
    { rewrite (rd_val _ _ _ _ R). now apply round_at_comp. }
    destruct (good_root_below _ _ _ _ G Vx) as [X0 Xa].
    assert (Nx' : digits x' <> []).
    { intro E. rewrite (vval_empty x' E) in X0. now apply Qlt_irrefl in X0. }
    destruct (stripped_range x' T Nx') as [Lo' Hi']. rewrite Qabs_pos in Lo', Hi' by lra.
    assert (Wl : - L <= 4 * weight x').
    { destruct (Z_le_gt_dec (- L) (4 * weight x')) as [H|H]; [exact H|exfalso].
      apply (root_not_small (vval x) (vval x') (weight x) (p10 (- (L + 8)))); auto.
      - apply p10_pos.
      - lra.
      - eapply Qlt_le_trans; [exact Hi'|]. apply p10_le. lia.
      - apply p10_le. lia. }
    assert (Rg : (p10 (4 * weight x') <= vval r)%Q).
    { rewrite (rd_val _ _ _ _ R). apply round_at_ge; [exact Lo'|exact Wl]. }
    pose proof (p10_pos (4 * weight x')) as Pp.
    assert (Wu : weight x' <= 16400).
    { apply (root_weight (vval x) x' (L + 8) k); auto; [|lia].
      eapply Qlt_le_trans; [exact Hi|]. apply p10_le. lia. }
    assert (Mr : mult (vval r) L).
    { apply (mult_comp _ _ _ (Qeq_sym _ _ (rd_val _ _ _ _ R))). apply mult_round. lia. }
    assert (Sr : semi r).
    { constructor.
      - apply R.
      - intros d t E. intros ->.
        assert (U : (vval r < p10 (4 * weight r))%Q).
        { eapply Qle_lt_trans; [apply Qle_Qabs|]. rewrite Qabs_vval by apply R.
          unfold mag, lsd, ndigits. rewrite E. cbn [dval]. rewrite lenz_cons.
          pose proof (rd_digits _ _ _ _ R) as F. rewrite E in F. apply Forall_inv_tail in F. pose proof (dval_bound _ F) as Bt.
          pose proof (lenz_nonneg t) as Lt. rewrite pB_ten in Bt by lia.
          replace (4 * weight r) with (4 * (weight r + 1 - (1 + lenz t)) + 4 * lenz t) by lia.
          rewrite <- dec_1, <- dec_shift by lia. rewrite dec_lt_iff. lia. }
        destruct (rd_weight _ _ _ _ R) as [H|[[H K]|[_ H]]].
        + rewrite H in U. lra.
        + rewrite H in U. rewrite Qabs_pos in K by lra. lra.
        + congruence.
      - intro E. rewrite (vval_empty r E) in Rg. lra.
      - apply R. }
    split; [|now apply (root_rounded (vval x) L k)].
    constructor; [exact Sr|lra| | |].
    + pose proof (rd_len _ _ _ _ R). pose proof (tidy_len x' (L + 8) (stripped_tidy _ T)) as Hl.
      assert (4 * ndigits x' < 4 * Z.max 0 (weight x' + 1) + 4 + (L + 8)); [apply Hl; [|lia]|lia].
      exists k. rewrite Vx, <- Qmult_assoc, (Qmult_comm (p10 (- (L + 8)))), p10_opp. ring.
    + pose proof (rd_scale _ _ _ _ R) as Sc. split.
      * apply weight_lb; [apply R|rewrite Sc; lia|now rewrite Sc|lra].
      * destruct (rd_weight _ _ _ _ R) as [H|[[H _]|[H _]]]; lia.
    + rewrite (rd_scale _ _ _ _ R). lia.
Qed.
