(** * ExpReal: the exponential series with its remainder. *)
From Coq Require Import Reals Lra Lia.
Open Scope R_scope.

(** 1 + x + ... + x^(n-1)/(n-1)! *)
Fixpoint tay (n : nat) (x : R) : R :=
  match n with
  | O => 0
  | S k => tay k x + x ^ k / INR (fact k)
  end.

Lemma fact_pos k : 0 < INR (fact k).
Proof. apply INR_fact_lt_0. Qed.

Lemma d_term k x : derivable_pt_lim (fun t => t ^ S k / INR (fact (S k))) x (x ^ k / INR (fact k)).
Proof.
  pose proof (fact_pos k) as P. pose proof (fact_pos (S k)) as P1.
  assert (H : derivable_pt_lim (fun t => / INR (fact (S k)) * t ^ S k) x (/ INR (fact (S k)) * (INR (S k) * x ^ pred (S k)))).
  { apply (derivable_pt_lim_scal (fun t => t ^ S k)). apply derivable_pt_lim_pow. }
  replace (/ INR (fact (S k)) * (INR (S k) * x ^ pred (S k))) with (x ^ k / INR (fact k)) in H.
  2:{ cbn [pred]. replace (fact (S k)) with (S k * fact k)%nat by reflexivity. rewrite mult_INR. field. split; [lra|]. apply not_0_INR. lia. }
  eapply derivable_pt_lim_ext; [|exact H]. intro t. unfold Rdiv. apply Rmult_comm.
Qed.

Lemma d_tay n x : derivable_pt_lim (tay (S n)) x (tay n x).
Proof.
  induction n as [|k IH].
  - cbn [tay pow]. assert (H : derivable_pt_lim (fun _ : R => 0 + 1 / INR (fact 0)) x 0) by apply derivable_pt_lim_const. exact H.
  - change (tay (S k) x) with (tay k x + x ^ k / INR (fact k)).
    apply (derivable_pt_lim_plus (tay (S k)) (fun t => t ^ S k / INR (fact (S k)))); [exact IH|apply d_term].
Qed.

Lemma tay_0 n : tay (S n) 0 = 1.
Proof.
  induction n as [|k IH]; [cbn; field|]. change (tay (S (S k)) 0) with (tay (S k) 0 + 0 ^ S k / INR (fact (S k))).
  rewrite IH, pow_i by lia. unfold Rdiv. ring.
Qed.

(** functions that integrate to each other *)
Lemma chain_bound a C (f : nat -> R -> R) : 0 < a -> 0 <= C ->
  (forall t, 0 <= t <= a -> 0 <= f O t <= C) -> (forall n, f (S n) 0 = 0) ->
  (forall n t, 0 <= t <= a -> derivable_pt_lim (f (S n)) t (f n t)) ->
  forall n t, 0 <= t <= a -> 0 <= f n t <= C * (t ^ n / INR (fact n)).
Proof.
  intros A HC F0 Z D. induction n as [|n IH]; intros t H.
  - specialize (F0 t H). cbn. lra.
  - destruct (Req_dec t 0) as [->|Nt].
    { rewrite Z, pow_i by lia. unfold Rdiv. rewrite Rmult_0_l, Rmult_0_r. lra. }
    assert (T : 0 < t) by lra. split.
    + destruct (MVT_cor2 (f (S n)) (f n) 0 t T) as (c & E & Hc). { intros c Hc. apply D. lra. }
      rewrite Z in E. destruct (IH c ltac:(lra)) as [L _]. assert (0 <= f n c * (t - 0)) by (apply Rmult_le_pos; lra). lra.
    + set (h := fun x => C * (x ^ S n / INR (fact (S n))) - f (S n) x).
      destruct (MVT_cor2 h (fun x => C * (x ^ n / INR (fact n)) - f n x) 0 t T) as (c & E & Hc).
      { intros c Hc. unfold h. apply (derivable_pt_lim_minus (fun x => C * (x ^ S n / INR (fact (S n)))) (f (S n))); [|apply D; lra].
        apply (derivable_pt_lim_scal (fun x => x ^ S n / INR (fact (S n)))), d_term. }
      assert (H0 : h 0 = 0) by (unfold h; rewrite Z, pow_i by lia; unfold Rdiv; ring).
      destruct (IH c ltac:(lra)) as [_ U]. rewrite H0 in E.
      assert (0 <= (C * (c ^ n / INR (fact n)) - f n c) * (t - 0)) by (apply Rmult_le_pos; lra). unfold h in E. lra.
Qed.

Lemma exp_mono x y : x <= y -> exp x <= exp y.
Proof. intros [L|E]; [left; now apply exp_increasing|subst; right; reflexivity]. Qed.

Lemma tay_pos_rest a n t : 0 < a -> 0 <= t <= a -> 0 <= exp t - tay n t <= exp a * (t ^ n / INR (fact n)).
Proof.
  intros A H. apply (chain_bound a (exp a) (fun n t => exp t - tay n t)); auto.
  - left. apply exp_pos.
  - intros s Hs. cbn [tay]. pose proof (exp_pos s). pose proof (exp_mono s a). lra.
  - intro k. rewrite tay_0, exp_0. ring.
  - intros k s Hs. apply (derivable_pt_lim_minus exp (tay (S k))); [apply derivable_pt_lim_exp|apply d_tay].
Qed.

Lemma d_exp_opp s : derivable_pt_lim (fun t => exp (- t)) s (- exp (- s)).
Proof.
  assert (H := derivable_pt_lim_comp Ropp exp s (-1) (exp (- s))).
  replace (- exp (- s)) with (exp (- s) * -1) by ring. apply H; [|apply derivable_pt_lim_exp].
  assert (K := derivable_pt_lim_opp id s 1 (derivable_pt_lim_id s)). replace (-1) with (- (1)) by ring. exact K.
Qed.
Lemma d_tay_opp n s : derivable_pt_lim (fun t => tay (S n) (- t)) s (- tay n (- s)).
Proof.
  assert (H := derivable_pt_lim_comp Ropp (tay (S n)) s (-1) (tay n (- s))).
  replace (- tay n (- s)) with (tay n (- s) * -1) by ring. apply H; [|apply d_tay].
  assert (K := derivable_pt_lim_opp id s 1 (derivable_pt_lim_id s)). replace (-1) with (- (1)) by ring. exact K.
Qed.

Lemma tay_neg_rest a n t : 0 < a -> 0 <= t <= a -> 0 <= (-1) ^ n * (exp (- t) - tay n (- t)) <= 1 * (t ^ n / INR (fact n)).
Proof.
  intros A H. apply (chain_bound a 1 (fun n t => (-1) ^ n * (exp (- t) - tay n (- t)))); auto; try lra.
  - intros s Hs. cbn [tay pow]. pose proof (exp_pos (- s)). pose proof (exp_mono (- s) 0 ltac:(lra)) as K. rewrite exp_0 in K. lra.
  - intro k. rewrite Ropp_0, tay_0, exp_0. ring.
  - intros k s Hs. cbn [pow]. replace ((-1) ^ k * (exp (- s) - tay k (- s))) with (-1 * (-1) ^ k * (- exp (- s) - - tay k (- s))) by ring.
    apply (derivable_pt_lim_scal (fun t => exp (- t) - tay (S k) (- t))).
    apply (derivable_pt_lim_minus (fun t => exp (- t)) (fun t => tay (S k) (- t))); [apply d_exp_opp|apply d_tay_opp].
Qed.

Lemma exp_small t : 0 <= t <= 2 / 100 -> exp t <= 103 / 100.
Proof.
  intro H. pose proof (exp_ineq1_le (- t)) as K. rewrite exp_Ropp in K. pose proof (exp_pos t) as P.
  assert (exp t * / exp t = 1) by (apply Rinv_r; lra). assert (98 / 100 * exp t <= exp t * / exp t); [|lra].
  rewrite Rmult_comm. apply Rmult_le_compat_l; lra.
Qed.

Theorem tay_rest n x : Rabs x <= 2 / 100 -> Rabs (exp x - tay n x) <= 103 / 100 * Rabs (x ^ n / INR (fact n)).
Proof.
  intro H. pose proof (fact_pos n) as F.
  assert (E : Rabs (x ^ n / INR (fact n)) = Rabs x ^ n / INR (fact n)).
  { unfold Rdiv. rewrite Rabs_mult, <- RPow_abs, (Rabs_pos_eq (/ INR (fact n))); [reflexivity|]. left. now apply Rinv_0_lt_compat. }
  rewrite E. assert (P0 : 0 <= Rabs x ^ n / INR (fact n)).
  { apply Rmult_le_pos; [apply pow_le, Rabs_pos|left; now apply Rinv_0_lt_compat]. }
  pose proof (exp_small (2 / 100) ltac:(lra)) as E2.
  destruct (Rle_lt_dec 0 x) as [P|P].
  - rewrite (Rabs_pos_eq x P) in *. destruct (tay_pos_rest (2 / 100) n x ltac:(lra) ltac:(lra)) as [A B].
    rewrite Rabs_pos_eq by exact A. eapply Rle_trans; [exact B|]. apply Rmult_le_compat_r; [exact P0|exact E2].
  - rewrite (Rabs_left x P) in *. destruct (tay_neg_rest (2 / 100) n (- x) ltac:(lra) ltac:(lra)) as [A B].
    rewrite Ropp_involutive in A, B.
    assert (S : Rabs ((-1) ^ n) = 1) by apply pow_1_abs.
    assert (K : Rabs (exp x - tay n x) = (-1) ^ n * (exp x - tay n x)).
    { rewrite <- (Rabs_pos_eq _ A), Rabs_mult, S. ring. }
    rewrite K. lra.
Qed.

(** terms fall by a factor 100 *)
Lemma term_small x n : Rabs x <= 101 / 10000 -> (2 <= n)%nat -> Rabs (x ^ n / INR (fact n)) <= (1 / 100) ^ n.
Proof.
  intros H N. pose proof (fact_pos n) as F.
  unfold Rdiv at 1. rewrite Rabs_mult, <- RPow_abs, (Rabs_pos_eq (/ INR (fact n))) by (left; now apply Rinv_0_lt_compat).
  assert (G : (101 / 100) ^ n <= INR (fact n)).
  { clear - N. induction n as [|n IH]; [lia|]. destruct (Nat.eq_dec n 1) as [->|K]; [cbn; lra|].
    specialize (IH ltac:(lia)). replace (fact (S n)) with (S n * fact n)%nat by reflexivity. rewrite mult_INR. cbn [pow].
    apply Rmult_le_compat; [lra|apply pow_le; lra| |exact IH]. assert (INR 2 <= INR (S n)) by (apply le_INR; lia). cbn in *. lra. }
  assert (G2 : Rabs x ^ n <= (1 / 100) ^ n * (101 / 100) ^ n).
  { rewrite <- Rpow_mult_distr. apply pow_incr. split; [apply Rabs_pos|lra]. }
  apply (Rmult_le_reg_r (INR (fact n))); [exact F|]. rewrite Rmult_assoc, Rinv_l, Rmult_1_r by lra.
  eapply Rle_trans; [exact G2|]. apply Rmult_le_compat_l; [apply pow_le; lra|exact G].
Qed.
