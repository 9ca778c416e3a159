(** * FloatF32: when the cast of a double to f32 overflows or underflows. *)
From Coq Require Import ZArith QArith Qabs Qpower Lia Lqa Bool List.
From Verif Require Import Base Flt FltFacts SpecDouble Float FloatGrid.
Open Scope Z_scope.

Lemma last_place_range F q k : Qnum q <> 0 -> (Qabs q < p2 k)%Q -> f_emin F <= k - f_prec F -> last_place F q <= k - f_prec F.
Proof.
  intros N L H. destruct (flexp_bounds q N) as [Lo _]. assert (K : (p2 (flexp q + 52) < p2 k)%Q) by (eapply Qle_lt_trans; eauto).
  apply (proj1 (p2_lt_iff _ _)) in K. unfold last_place. lia.
Qed.
Lemma last_place_low F q k : Qnum q <> 0 -> (p2 k <= Qabs q)%Q -> k + 1 - f_prec F <= last_place F q.
Proof.
  intros N L. destruct (flexp_bounds q N) as [_ Hi]. assert (K : (p2 k < p2 (flexp q + 53))%Q) by (eapply Qle_lt_trans; eauto).
  apply (proj1 (p2_lt_iff _ _)) in K. unfold last_place. lia.
Qed.

Lemma rneq_abs x K : Z.even K = true -> 0 < K -> ((inject_Z K - (1 # 2) <= Qabs x)%Q <-> K <= Z.abs (rneq x)).
Proof.
  intros Ev Kp. assert (Ev' : Z.even (- K) = true) by now rewrite Z.even_opp.
  pose proof (rneq_tie_hi x K Ev) as A. pose proof (rneq_tie_lo x (- K) Ev') as B. rewrite inject_Z_opp in B.
  assert (K1 : (1 <= inject_Z K)%Q) by (change 1%Q with (inject_Z 1); apply inj_le; lia).
  pose proof (rneq_tie_lo x 0 eq_refl) as C. pose proof (rneq_tie_hi x 0 eq_refl) as D. change (inject_Z 0) with 0%Q in *.
  destruct (Qlt_le_dec x 0) as [S|S].
  - rewrite (Qabs_neg x) by lra. assert (rneq x <= 0) by (apply C; lra). rewrite Z.abs_neq by lia.
    rewrite <- (Z.opp_le_mono (- K)) || idtac. split; intro H0.
    + assert (X : (x <= - inject_Z K + (1 # 2))%Q) by lra. apply B in X. lia.
    + assert (X : rneq x <= - K) by lia. apply B in X. lra.
  - rewrite (Qabs_pos x) by lra. assert (0 <= rneq x) by (apply D; lra). rewrite Z.abs_eq by lia. exact A.
Qed.

Lemma rneq_zero x : (Qabs x <= 1 # 2)%Q <-> rneq x = 0.
Proof.
  pose proof (rneq_tie_lo x 0 eq_refl) as C. pose proof (rneq_tie_hi x 0 eq_refl) as D. change (inject_Z 0) with 0%Q in *. split; intro H.
  - apply Qabs_Qle_condition in H. assert (rneq x <= 0) by (apply C; lra). assert (0 <= rneq x) by (apply D; lra). lia.
  - apply Qabs_Qle_condition. assert (X : rneq x <= 0) by lia. assert (Y : 0 <= rneq x) by lia. apply C in X. apply D in Y. lra.
Qed.

(** overflow: from half a unit below 2^emax on *)
Lemma to_grid_overflow F q : 1 < f_prec F -> f_emin F < f_emax F - f_prec F ->
  ((p2 (f_emax F) <= Qabs (to_grid F q))%Q <-> (p2 (f_emax F) - p2 (f_emax F - f_prec F - 1) <= Qabs q)%Q).
Proof.
  intros P0 P1. set (M := f_emax F) in *. set (p := f_prec F) in *.
  assert (HM : (p2 (M - p - 1) < p2 M)%Q) by (apply p2_lt; lia).
  destruct (Z.eq_dec (Qnum q) 0) as [Z0|N].
  { unfold to_grid. rewrite Z0. cbn [Z.eqb]. apply num_zero in Z0. rewrite Z0. change (Qabs 0) with 0%Q. pose proof (p2_pos M). split; intro; exfalso; lra. }
  rewrite to_grid_nz by assumption. set (e := last_place F q). change (2 ^ (- e))%Q with (p2 (- e)). change (2 ^ e)%Q with (p2 e).
  rewrite Qabs_p2. set (m := rneq (q * p2 (- e))).
  pose proof (rneq_bound F q ltac:(lia) N) as B. fold e in B. fold m in B. fold p in B.
  destruct (Qlt_le_dec (Qabs q) (p2 (M - 1))) as [L|L].
  { (* far below *)
    assert (He : e <= M - 1 - p) by (apply last_place_range; [assumption|assumption|fold p; lia]).
    assert (U : (inject_Z (Z.abs m) * p2 e <= p2 (M - 1))%Q).
    { apply Qle_trans with (p2 p * p2 e)%Q.
      - apply Qmult_le_r; [apply p2_pos|]. rewrite p2_Z by lia. now apply inj_le.
      - rewrite <- p2_add. apply p2_le. lia. }
    assert (V : (p2 (M - 1) < p2 M)%Q) by (apply p2_lt; lia).
    assert (W : (p2 (M - p - 1) <= p2 (M - 1))%Q) by (apply p2_le; lia).
    assert (X : (p2 M == 2 * p2 (M - 1))%Q) by (rewrite <- p2_step; replace (M - 1 + 1) with M by lia; reflexivity).
    split; intro; exfalso; lra. }
  destruct (Qlt_le_dec (Qabs q) (p2 M)) as [L2|L2].
  - assert (He : e = M - p).
    { apply Z.le_antisymm; [apply last_place_range; [assumption|assumption|fold p; lia]|].
      pose proof (last_place_low F q (M - 1) N L) as X. fold e p in X. lia. }
    set (K := 2 ^ p). assert (Ev : Z.even K = true) by (unfold K; replace p with (1 + (p - 1)) by lia; rewrite Z.pow_add_r by lia; now rewrite Z.even_mul).
    assert (Kp : 0 < K) by (unfold K; apply Z.pow_pos_nonneg; lia).
    pose proof (rneq_abs (q * p2 (- e)) K Ev Kp) as R. fold m in R.
    assert (EM : (p2 M == inject_Z K * p2 e)%Q) by (unfold K; rewrite <- p2_Z by lia; rewrite <- p2_add, He; replace (p + (M - p)) with M by lia; reflexivity).
    assert (Eh : (p2 (M - p - 1) == (1 # 2) * p2 e)%Q).
    { rewrite He. replace (M - p) with (M - p - 1 + 1) at 2 by lia. rewrite p2_step. ring. }
    rewrite EM, Eh. rewrite Qmult_le_r by apply p2_pos. rewrite inj_le, <- R. rewrite Qabs_scale.
    rewrite <- (Qmult_le_r _ _ (p2 e)) by apply p2_pos.
    rewrite scale_down. setoid_replace ((inject_Z K - (1 # 2)) * p2 e)%Q with (inject_Z K * p2 e - (1 # 2) * p2 e)%Q by ring. reflexivity.
  - assert (He : M + 1 - p <= e) by (pose proof (last_place_low F q M N L2) as X; fold e p in X; lia).
    split; intro; [pose proof (p2_pos (M - p - 1)); lra|].
    (* |q| >= 2^(flexp+52) >= 2^(p-1+e) *)
    destruct (flexp_bounds q N) as [Lo _]. assert (Ee : e = flexp q + 53 - p) by (unfold e, last_place in *; fold p in He |- *; lia).
    set (K := 2 ^ (p - 1)). assert (Ev : Z.even K = true) by (unfold K; replace (p - 1) with (1 + (p - 2)) by lia; rewrite Z.pow_add_r by lia; now rewrite Z.even_mul).
    assert (Kp : 0 < K) by (unfold K; apply Z.pow_pos_nonneg; lia).
    assert (R : K <= Z.abs m).
    { apply (rneq_abs _ K Ev Kp). apply Qle_trans with (inject_Z K); [lra|]. rewrite Qabs_scale. apply (Qmult_le_r _ _ _ (p2_pos e)).
      rewrite scale_down. unfold K. rewrite <- p2_Z by lia. rewrite <- p2_add. replace (p - 1 + e) with (flexp q + 52) by lia. exact Lo. }
    apply Qle_trans with (inject_Z K * p2 e)%Q; [|apply Qmult_le_r; [apply p2_pos|now apply inj_le]].
    unfold K. rewrite <- p2_Z by lia. rewrite <- p2_add. apply p2_le. lia.
Qed.

(** underflow: up to half the least positive value *)
Lemma to_grid_underflow F q : 1 < f_prec F ->
  ((to_grid F q == 0)%Q <-> (Qabs q <= p2 (f_emin F - 1))%Q).
Proof.
  intro P. destruct (Z.eq_dec (Qnum q) 0) as [Z0|N].
  { unfold to_grid. rewrite Z0. cbn [Z.eqb]. apply num_zero in Z0. rewrite Z0. change (Qabs 0) with 0%Q. split; intro; [apply Qlt_le_weak, p2_pos|reflexivity]. }
  rewrite to_grid_nz by assumption. set (e := last_place F q). change (2 ^ (- e))%Q with (p2 (- e)). change (2 ^ e)%Q with (p2 e).
  pose proof (rneq_zero (q * p2 (- e))) as R. set (m := rneq _) in *.
  assert (Z0 : (inject_Z m * p2 e == 0)%Q <-> m = 0).
  { split; intro H.
    - apply Qmult_integral in H. destruct H as [H|H]; [unfold Qeq, inject_Z in H; cbn in H; lia|]. pose proof (p2_pos e). rewrite H in *. discriminate.
    - rewrite H. ring. }
  rewrite Z0, <- R. rewrite Qabs_scale. destruct (flexp_bounds q N) as [Lo _].
  destruct (Z_le_gt_dec (flexp q + 53 - f_prec F) (f_emin F)) as [C|C].
  - assert (He : e = f_emin F) by (unfold e, last_place; lia). rewrite <- He.
    rewrite <- (Qmult_le_r _ _ (p2 e)) by apply p2_pos. rewrite scale_down.
    assert (E2 : (p2 e == 2 * p2 (e - 1))%Q) by (rewrite <- p2_step; replace (e - 1 + 1) with e by lia; reflexivity).
    split; intro; lra.
  - assert (He : e = flexp q + 53 - f_prec F) by (unfold e, last_place; lia).
    assert (A : (p2 (f_emin F) <= Qabs q)%Q) by (eapply Qle_trans; [|exact Lo]; apply p2_le; lia).
    assert (A2 : (p2 (f_emin F - 1) < p2 (f_emin F))%Q) by (apply p2_lt; lia).
    assert (B : (1 <= Qabs q * p2 (- e))%Q).
    { apply (Qmult_le_r _ _ _ (p2_pos e)). rewrite scale_down. rewrite Qmult_1_l. eapply Qle_trans; [|exact Lo]. apply p2_le. lia. }
    split; intro; exfalso; lra.
Qed.
