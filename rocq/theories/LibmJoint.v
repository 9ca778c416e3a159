(** * LibmJoint: one platform satisfying everything the theorems about powers assume at once (non-vacuity). *)
From Coq Require Import Reals Qreals Lra Lia ZArith QArith Qabs.
From Verif Require Import Spec SpecLibm SpecPow SpecLn QDec LibmSample LnQR LnRed LnReal LnSig ExpAcc.
Open Scope Z_scope.

Lemma ln_Zpow z n : 0 < z -> 0 <= n -> ln (IZR (z ^ n)) = (IZR n * ln (IZR z))%R.
Proof.
  intros H N. rewrite <- (Z2Nat.id n N) at 1. rewrite <- pow_IZR.
  assert (P : (0 < IZR z)%R) by (apply IZR_lt; lia). rewrite ln_pow by exact P.
  rewrite INR_IZR_INZ, Z2Nat.id by exact N. reflexivity.
Qed.

Section Near.
Variable D : Z.
Hypothesis HD : 1000000000 <= D.
Lemma lgd_near d : 1 <= d -> (Rabs (Q2R (lgd D (inject_Z d)) - ln (IZR d) / ln 10) <= / 1000000000)%R.
Proof using HD.
  intro H. destruct (lgd_spec D HD d H) as (a & E & A0 & A1 & A2). rewrite (Qeq_eqR _ _ E).
  assert (DR : (1000000000 <= IZR D)%R) by (apply IZR_le; exact HD).
  assert (Dn : ~ (inject_Z D == 0)%Q) by (intro K; unfold Qeq in K; cbn in K; lia).
  unfold Qdiv. rewrite Q2R_mult, Q2R_inv by exact Dn. rewrite !Q2R_Z.
  pose proof ln_10_range as R10. assert (Pd : (0 < IZR d)%R) by (apply IZR_lt; lia).
  assert (X0 : 0 < 10 ^ a) by (apply Z.pow_pos_nonneg; lia).
  assert (L1 : (IZR a * ln 10 <= IZR D * ln (IZR d))%R).
  { rewrite <- (ln_Zpow d D), <- (ln_Zpow 10 a) by lia. apply ln_mono; [now apply IZR_lt|now apply IZR_le]. }
  assert (L2 : (IZR D * ln (IZR d) <= (IZR a + 1) * ln 10)%R).
  { rewrite <- plus_IZR, <- (ln_Zpow d D), <- (ln_Zpow 10 (a + 1)) by lia. apply ln_mono; [apply IZR_lt|apply IZR_le]; lia. }
  set (l := ln (IZR d)) in *. set (t := ln 10) in *. set (r := IZR D) in *. set (x := IZR a) in *. clearbody l t r x.
  assert (Q1 : (x * / r - l / t = (x * t - r * l) * (/ r * / t))%R) by (field; lra). rewrite Q1.
  assert (I1 : (0 < / r <= / 1000000000)%R) by (split; [apply Rinv_0_lt_compat; lra|apply Rinv_le_contravar; lra]).
  assert (I2 : (0 < / t)%R) by (apply Rinv_0_lt_compat; lra).
  rewrite Rabs_mult, (Rabs_pos_eq (/ r * / t)) by (apply Rmult_le_pos; lra).
  assert (B : (Rabs (x * t - r * l) <= t)%R) by (apply Rabs_le; lra).
  apply (Rle_trans _ (t * (/ r * / t))); [apply Rmult_le_compat_r; [apply Rmult_le_pos; lra|exact B]|].
  replace (t * (/ r * / t))%R with (/ r)%R by (field; lra). lra.
Qed.
End Near.

(** log10 of small integers rounded down at the thirteenth decimal, of anything else up at the tenth *)
Definition joint_log10 (q : Q) : Q :=
  if ((Zpos (Qden q) =? 1) && (1 <=? Qnum q))%bool then lgd 10000000000000 q else sample_log10 q.

Lemma joint_int d : 1 <= d -> joint_log10 (inject_Z d) = lgd 10000000000000 (inject_Z d).
Proof.
  intro H. unfold joint_log10. cbn [inject_Z Qden Qnum]. change (1 =? 1) with true.
  replace (1 <=? d) with true by (symmetry; apply Z.leb_le; lia). reflexivity.
Qed.

Lemma joint_sound : log10_sound joint_log10.
Proof.
  pose proof (lgd_sound 10000000000000 ltac:(lia)) as [F O T U L]. constructor.
  - intros d k K Hd H. rewrite joint_int; [now apply F|]. pose proof (Z.pow_pos_nonneg 10 k ltac:(lia) K). lia.
  - change 1%Q with (inject_Z 1) at 1. rewrite joint_int by lia. exact O.
  - change 10%Q with (inject_Z 10) at 1. rewrite joint_int by lia. exact T.
  - intros d a b Hd. rewrite joint_int by lia. now apply U.
  - intros d a b Hd. rewrite joint_int by lia. now apply L.
Qed.
Lemma joint_fine : log10_fine joint_log10.
Proof.
  pose proof lgd_fine as [U L]. constructor; intros d a b Hd; rewrite joint_int by lia; [now apply U|now apply L].
Qed.
Lemma joint_near : logs_near joint_log10 sample_ln.
Proof.
  destruct logs_near_sample as [N1 N2]. constructor; [exact N1|]. intros q P. unfold joint_log10.
  destruct (Z.eqb_spec (Zpos (Qden q)) 1) as [E|E]; [|exact (N2 q P)]. destruct (Z.leb_spec 1 (Qnum q)) as [L|L]; [|exact (N2 q P)].
  cbn [andb]. assert (Eq : q = inject_Z (Qnum q)). { destruct q as [n d]. cbn in *. unfold inject_Z. f_equal. lia. }
  rewrite Eq at 2. rewrite Eq at 1. rewrite Q2R_Z. apply lgd_near; [lia|exact L].
Qed.

Lemma sample_ln_between : ln_between sample_ln.
Proof.
  intros a j J [H1 H2]. pose proof (ln_2_bound) as B.
  assert (P0 : 0 < 2 ^ j) by (apply Z.pow_pos_nonneg; lia).
  assert (L1 : (IZR j * ln 2 <= ln (IZR a))%R).
  { rewrite <- (ln_Zpow 2 j) by lia. apply ln_mono; [now apply IZR_lt|now apply IZR_le]. }
  assert (L2 : (ln (IZR a) <= IZR (j + 1) * ln 2)%R).
  { rewrite <- (ln_Zpow 2 (j + 1)) by lia. apply ln_mono; [apply IZR_lt|apply IZR_le]; lia. }
  assert (R2 : (69 / 100 <= ln 2 <= 695 / 1000)%R).
  { assert (V : (69 # 100 <= 2 * artQ 13 (1 # 3) - (1 # 1000000000000) /\ 2 * artQ 13 (1 # 3) + (1 # 1000000000000) <= 695 # 1000)%Q)
      by (split; vm_compute; discriminate).
    set (v := (2 * artQ 13 (1 # 3))%Q) in *. clearbody v. destruct V as [V1 V2]. apply Qle_Rle in V1, V2. rewrite Q2R_minus in V1. rewrite Q2R_plus in V2.
    replace (Q2R (69 # 100)) with (69 / 100)%R in V1 by (unfold Q2R; cbn; lra). replace (Q2R (695 # 1000)) with (695 / 1000)%R in V2 by (unfold Q2R; cbn; lra).
    replace (Q2R (1 # 1000000000000)) with (/ 1000000000000)%R in V1, V2 by (unfold Q2R; cbn; lra).
    assert (B' : (- / 1000000000000 <= ln 2 - Q2R v <= / 1000000000000)%R) by (unfold Rabs in B; destruct (Rcase_abs (ln 2 - Q2R v)); lra). lra. }
  assert (J0 : (0 <= IZR j)%R) by (apply IZR_le; lia). rewrite plus_IZR in L2.
  unfold sample_ln. rewrite Q2R_Z. set (l := ln (IZR a)) in *. destruct (archimed (10000000000 * l)) as [A1 A2].
  set (u := up (10000000000 * l)) in *. clearbody u l.
  assert (K1 : (69 / 100 * IZR j <= ln 2 * IZR j)%R) by (apply Rmult_le_compat_r; lra).
  assert (K2 : (ln 2 * IZR j <= 695 / 1000 * IZR j)%R) by (apply Rmult_le_compat_r; lra).
  assert (V : Q2R (u # 10000000000) = (IZR u / 10000000000)%R) by (unfold Q2R; cbn; lra).
  split; apply Rle_Qle; rewrite V, Q2R_mult, Q2R_Z.
  - replace (Q2R (69 # 100)) with (69 / 100)%R by (unfold Q2R; cbn; lra). lra.
  - replace (Q2R (7 # 10)) with (7 / 10)%R by (unfold Q2R; cbn; lra). rewrite plus_IZR. lra.
Qed.

Theorem joint_platform_exists : exists lg lf, log10_sound lg /\ log10_fine lg /\ ln_between lf /\ logs_near lg lf.
Proof. exists joint_log10, sample_ln. exact (conj joint_sound (conj joint_fine (conj sample_ln_between joint_near))). Qed.
