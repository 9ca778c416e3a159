(** * LnReal: the artanh series of the logarithm, with its remainder. *)
From Coq Require Import Reals Lra Lia.
Open Scope R_scope.

(** t + t^3/3 + ... ([n] terms) *)
Fixpoint art (n : nat) (t : R) : R :=
  match n with
  | O => 0
  | S k => art k t + t ^ (2 * k + 1) / INR (2 * k + 1)
  end.

Fixpoint geo (n : nat) (t : R) : R :=
  match n with
  | O => 0
  | S k => geo k t + t ^ (2 * k)
  end.

Lemma geo_closed n t : geo n t * (1 - t * t) = 1 - t ^ (2 * n).
Proof.
  induction n as [|k IH]; [cbn; ring|].
  cbn [geo]. rewrite Rmult_plus_distr_r, IH. replace (2 * S k)%nat with (2 + 2 * k)%nat by lia. rewrite pow_add. ring.
Qed.

Lemma INR_odd_pos k : 0 < INR (2 * k + 1).
Proof. apply lt_0_INR. lia. Qed.

Lemma d_pow_odd k x : derivable_pt_lim (fun t => t ^ (2 * k + 1) / INR (2 * k + 1)) x (x ^ (2 * k)).
Proof.
  pose proof (INR_odd_pos k) as P.
  assert (H : derivable_pt_lim (fun t => / INR (2 * k + 1) * t ^ (2 * k + 1)) x (/ INR (2 * k + 1) * (INR (2 * k + 1) * x ^ pred (2 * k + 1)))).
  { apply (derivable_pt_lim_scal (fun t => t ^ (2 * k + 1))). apply derivable_pt_lim_pow. }
  replace (pred (2 * k + 1)) with (2 * k)%nat in H by lia.
  replace (/ INR (2 * k + 1) * (INR (2 * k + 1) * x ^ (2 * k))) with (x ^ (2 * k)) in H by (field; lra).
  eapply derivable_pt_lim_ext; [|exact H]. intro t. unfold Rdiv. apply Rmult_comm.
Qed.

Lemma d_art n x : derivable_pt_lim (art n) x (geo n x).
Proof.
  induction n as [|k IH].
  - apply (derivable_pt_lim_const 0).
  - cbn [geo]. apply (derivable_pt_lim_plus (art k) (fun t => t ^ (2 * k + 1) / INR (2 * k + 1))); [exact IH|apply d_pow_odd].
Qed.

Lemma d_ln1p x : -1 < x -> derivable_pt_lim (fun t => ln (1 + t)) x (/ (1 + x)).
Proof.
  intro H. assert (L : derivable_pt_lim (fun t => 1 + t) x 1).
  { assert (E : derivable_pt_lim (fct_cte 1 + id)%F x (0 + 1))
      by (apply derivable_pt_lim_plus; [apply derivable_pt_lim_const|apply derivable_pt_lim_id]).
    rewrite Rplus_0_l in E. exact E. }
  assert (D := derivable_pt_lim_comp (fun t => 1 + t) ln x 1 (/ (1 + x)) L (derivable_pt_lim_ln (1 + x) ltac:(lra))).
  rewrite Rmult_1_r in D. exact D.
Qed.

Lemma d_ln1m x : x < 1 -> derivable_pt_lim (fun t => ln (1 - t)) x (- / (1 - x)).
Proof.
  intro H. assert (L : derivable_pt_lim (fun t => 1 - t) x (-1)).
  { assert (E : derivable_pt_lim (fct_cte 1 - id)%F x (0 - 1))
      by (apply derivable_pt_lim_minus; [apply derivable_pt_lim_const|apply derivable_pt_lim_id]).
    replace (0 - 1) with (-1) in E by ring. exact E. }
  assert (D := derivable_pt_lim_comp (fun t => 1 - t) ln x (-1) (/ (1 - x)) L (derivable_pt_lim_ln (1 - x) ltac:(lra))).
  replace (/ (1 - x) * -1) with (- / (1 - x)) in D by ring. exact D.
Qed.

Lemma d_rest n x : -1 < x < 1 ->
  derivable_pt_lim (fun t => ln (1 + t) - ln (1 - t) - 2 * art n t) x (2 * x ^ (2 * n) / (1 - x * x)).
Proof.
  intro H. assert (Nz : 1 - x * x <> 0) by nra.
  assert (D : derivable_pt_lim (fun t => ln (1 + t) - ln (1 - t) - 2 * art n t) x (/ (1 + x) - - / (1 - x) - 2 * geo n x)).
  { apply (derivable_pt_lim_minus (fun t => ln (1 + t) - ln (1 - t)) (fun t => 2 * art n t)).
    - apply (derivable_pt_lim_minus (fun t => ln (1 + t)) (fun t => ln (1 - t))); [apply d_ln1p|apply d_ln1m]; lra.
    - apply (derivable_pt_lim_scal (art n)), d_art. }
  replace (/ (1 + x) - - / (1 - x) - 2 * geo n x) with (2 * x ^ (2 * n) / (1 - x * x)) in D; [exact D|].
  pose proof (geo_closed n x) as G.
  assert (G' : geo n x = (1 - x ^ (2 * n)) / (1 - x * x)) by (rewrite <- G; field; exact Nz).
  rewrite G'. field. repeat split; lra || exact Nz.
Qed.

Lemma art_0 n : art n 0 = 0.
Proof. induction n as [|k IH]; [reflexivity|]. cbn [art]. rewrite IH, pow_i by lia. unfold Rdiv. ring. Qed.

Lemma art_opp n t : art n (- t) = - art n t.
Proof.
  induction n as [|k IH]; [cbn; ring|]. cbn [art]. rewrite IH.
  replace ((- t) ^ (2 * k + 1)) with (- (t ^ (2 * k + 1))); [unfold Rdiv; ring|].
  replace (2 * k + 1)%nat with (S (2 * k)) by lia. cbn [pow].
  replace ((- t) ^ (2 * k)) with (t ^ (2 * k)) by (rewrite !pow_mult; f_equal; ring). ring.
Qed.

(** The remainder after [n] terms. *)
Lemma art_remainder_pos n t : 0 <= t < 1 ->
  0 <= ln (1 + t) - ln (1 - t) - 2 * art n t <= 2 * (t ^ (2 * n + 1) / INR (2 * n + 1)) / (1 - t * t).
Proof.
  intro H. destruct (Req_dec t 0) as [->|Nz].
  { rewrite art_0, pow_i by lia. replace (1 + 0) with 1 by ring. replace (1 - 0) with 1 by ring.
    rewrite ln_1. unfold Rdiv. rewrite !Rmult_0_l, Rmult_0_r, Rmult_0_l. lra. }
  assert (T : 0 < t < 1) by lra.
  set (g := fun x => ln (1 + x) - ln (1 - x) - 2 * art n x).
  set (g' := fun x => 2 * x ^ (2 * n) / (1 - x * x)).
  assert (G0 : g 0 = 0).
  { unfold g. rewrite art_0. replace (1 + 0) with 1 by ring. replace (1 - 0) with 1 by ring. rewrite ln_1. ring. }
  assert (Pd : forall c, 0 <= c <= t -> 0 < 1 - c * c) by (intros; nra).
  assert (Pp : forall c, 0 <= c -> 0 <= c ^ (2 * n)) by (intros; now apply pow_le).
  split.
  - destruct (MVT_cor2 g g' 0 t ltac:(lra)) as (c & E & Hc).
    { intros c Hc. apply d_rest. lra. }
    rewrite G0 in E. change (0 <= g t). replace (g t) with (g' c * (t - 0)) by lra.
    apply Rmult_le_pos; [|lra]. unfold g'. apply Rmult_le_pos; [|left; apply Rinv_0_lt_compat, Pd; lra].
    specialize (Pp c ltac:(lra)). lra.
  - set (K := 2 / (1 - t * t)).
    assert (K0 : 0 < K) by (unfold K; apply Rdiv_lt_0_compat; [lra|apply Pd; lra]).
    set (h := fun x => K * (x ^ (2 * n + 1) / INR (2 * n + 1)) - g x).
    destruct (MVT_cor2 h (fun x => K * x ^ (2 * n) - g' x) 0 t ltac:(lra)) as (c & E & Hc).
    { intros c Hc. unfold h. apply (derivable_pt_lim_minus (fun x => K * (x ^ (2 * n + 1) / INR (2 * n + 1))) g).
      - apply (derivable_pt_lim_scal (fun x => x ^ (2 * n + 1) / INR (2 * n + 1))), d_pow_odd.
      - apply d_rest. lra. }
    assert (H0 : h 0 = 0).
    { unfold h. rewrite G0, pow_i by lia. unfold Rdiv. ring. }
    assert (P : 0 <= K * c ^ (2 * n) - g' c).
    { unfold g', K. specialize (Pp c ltac:(lra)). pose proof (Pd c ltac:(lra)) as P1. pose proof (Pd t ltac:(lra)) as P2.
      replace (2 / (1 - t * t) * c ^ (2 * n) - 2 * c ^ (2 * n) / (1 - c * c))
        with (2 * c ^ (2 * n) * (/ (1 - t * t) - / (1 - c * c))) by (unfold Rdiv; ring).
      apply Rmult_le_pos; [lra|]. assert (/ (1 - c * c) <= / (1 - t * t)); [|lra].
      apply Rinv_le_contravar; [exact P2|nra]. }
    assert (Ht : 0 <= h t).
    { rewrite H0 in E. replace (h t) with ((K * c ^ (2 * n) - g' c) * (t - 0)) by lra. apply Rmult_le_pos; lra. }
    unfold h in Ht. change (g t <= 2 * (t ^ (2 * n + 1) / INR (2 * n + 1)) / (1 - t * t)).
    replace (2 * (t ^ (2 * n + 1) / INR (2 * n + 1)) / (1 - t * t)) with (K * (t ^ (2 * n + 1) / INR (2 * n + 1))); [lra|].
    unfold K, Rdiv. ring.
Qed.

Theorem art_remainder n t : -1 < t < 1 ->
  Rabs (ln (1 + t) - ln (1 - t) - 2 * art n t) <= 2 * (Rabs t ^ (2 * n + 1) / INR (2 * n + 1)) / (1 - t * t).
Proof.
  intro H. destruct (Rle_lt_dec 0 t) as [P|P].
  - rewrite (Rabs_pos_eq t P). destruct (art_remainder_pos n t ltac:(lra)) as [A B]. rewrite Rabs_pos_eq; assumption.
  - rewrite (Rabs_left t P). destruct (art_remainder_pos n (- t) ltac:(lra)) as [A B].
    rewrite art_opp in A, B. replace (1 + - t) with (1 - t) in A, B by ring. replace (1 - - t) with (1 + t) in A, B by ring.
    replace (- t * - t) with (t * t) in B by ring. rewrite Rabs_left1 by lra. lra.
Qed.

Lemma geo_nonneg n t : 0 <= geo n t.
Proof.
  induction n as [|k IH]; [apply Rle_refl|]. cbn [geo]. rewrite pow_mult. pose proof (pow_le (t ^ 2) k ltac:(nra)). lra.
Qed.
Lemma art_geo n t : Rabs (art n t) <= Rabs t * geo n t.
Proof.
  induction n as [|k IH]; [cbn; rewrite Rabs_R0; lra|]. cbn [art geo].
  eapply Rle_trans; [apply Rabs_triang|].
  assert (E : Rabs (t ^ (2 * k + 1) / INR (2 * k + 1)) <= Rabs t * t ^ (2 * k)).
  { pose proof (INR_odd_pos k) as P. unfold Rdiv. rewrite Rabs_mult.
    replace (2 * k + 1)%nat with (S (2 * k)) at 1 by lia. cbn [pow]. rewrite Rabs_mult.
    assert (E2 : 0 <= t ^ (2 * k)) by (rewrite pow_mult; apply pow_le; nra). rewrite (Rabs_pos_eq (t ^ (2 * k))) by exact E2.
    rewrite <- (Rmult_1_r (Rabs t * t ^ (2 * k))) at 2.
    apply Rmult_le_compat_l; [apply Rmult_le_pos; [apply Rabs_pos|exact E2]|].
    rewrite Rabs_pos_eq by (left; now apply Rinv_0_lt_compat).
    rewrite <- Rinv_1. apply Rinv_le_contravar; [lra|]. change 1 with (INR 1). apply le_INR. lia. }
  rewrite Rmult_plus_distr_l. lra.
Qed.
Lemma art_small n t : Rabs t <= 1 / 19 -> Rabs (art n t) <= 1 / 18.
Proof.
  intro H. pose proof (art_geo n t) as A. pose proof (geo_closed n t) as G. pose proof (geo_nonneg n t) as P.
  pose proof (Rabs_pos t) as T0.
  assert (T2 : t * t <= 1 / 361).
  { replace (t * t) with (Rabs t * Rabs t); [nra|]. rewrite <- Rabs_mult. apply Rabs_pos_eq. nra. }
  assert (E : 0 <= t ^ (2 * n)) by (rewrite pow_mult; apply pow_le; nra).
  assert (G2 : geo n t <= 361 / 360).
  { destruct (Rle_lt_dec (geo n t) (361 / 360)) as [L|L]; [exact L|exfalso]. nra. }
  assert (Rabs t * geo n t <= 1 / 19 * (361 / 360)) by (apply Rmult_le_compat; lra). lra.
Qed.
