(** * LibmSample: a function satisfying what the theorems assume of log10 (non-vacuity). *)
From Coq Require Import ZArith QArith Qabs List Bool Lia Lqa.
From Verif Require Import Spec SpecText SpecLibm SpecPow QDec Sqrt.
Open Scope Z_scope.

(** floor of the decimal logarithm, [fuel] divisions at most *)
Fixpoint flog (fuel : nat) (n : Z) : Z :=
  match fuel with O => 0 | S f => if n <? 10 then 0 else 1 + flog f (n / 10) end.

Lemma flog_spec f : forall n, 1 <= n < 10 ^ (Z.of_nat f + 1) -> 0 <= flog f n /\ 10 ^ flog f n <= n < 10 ^ (flog f n + 1).
Proof.
  induction f as [|f IH]; intros n H; cbn [flog].
  - change (10 ^ (Z.of_nat 0 + 1)) with 10 in H. cbn. lia.
  - destruct (Z.ltb_spec n 10) as [L|L]; [cbn; lia|].
    pose proof (Z.div_mod n 10 ltac:(lia)) as DM. pose proof (Z.mod_pos_bound n 10 ltac:(lia)) as MB.
    assert (B : 1 <= n / 10 < 10 ^ (Z.of_nat f + 1)).
    { split; [lia|]. apply Z.div_lt_upper_bound; [lia|]. replace (Z.of_nat (S f) + 1) with (1 + (Z.of_nat f + 1)) in H by lia.
      rewrite (Z.pow_add_r 10 1) in H by lia. lia. }
    destruct (IH _ B) as (P & Q1 & Q2). set (a := flog f (n / 10)) in *. split; [lia|].
    replace (1 + a + 1) with (1 + (a + 1)) by lia. rewrite !(Z.pow_add_r 10 1) by lia. change (10 ^ 1) with 10. lia.
Qed.

Lemma pow10_gt n : 0 <= n -> n < 10 ^ (n + 1).
Proof.
  intro H. revert H. apply (natlike_ind (fun n => n < 10 ^ (n + 1))); [reflexivity|]. clear n. intros n H IH.
  replace (Z.succ n + 1) with (1 + (n + 1)) by lia. rewrite Z.pow_add_r by lia. change (10 ^ 1) with 10. lia.
Qed.

Lemma flog_all n : 1 <= n -> let a := flog (Z.to_nat n) n in 0 <= a /\ 10 ^ a <= n < 10 ^ (a + 1).
Proof. intros H a. apply flog_spec. rewrite Z2Nat.id by lia. split; [lia|]. apply pow10_gt. lia. Qed.

Section Sample.
Variable D : Z.
Hypothesis HD : 1000000000 <= D.

(** log10 rounded down to a multiple of 1/D *)
Definition lgd (q : Q) : Q := (inject_Z (flog (Z.to_nat (Qnum q ^ D)) (Qnum q ^ D)) / inject_Z D)%Q.

Lemma lgd_spec d : 1 <= d -> exists a, (lgd (inject_Z d) == inject_Z a / inject_Z D)%Q /\ 0 <= a /\ 10 ^ a <= d ^ D < 10 ^ (a + 1).
Proof.
  intro H. exists (flog (Z.to_nat (d ^ D)) (d ^ D)). split; [reflexivity|]. apply flog_all.
  assert (0 < d ^ D) by (apply Z.pow_pos_nonneg; lia). lia.
Qed.

Lemma Dpos : (0 < inject_Z D)%Q.
Proof. change 0%Q with (inject_Z 0). rewrite <- Zlt_Qlt. lia. Qed.

Lemma div_le a b e : (inject_Z a <= inject_Z b * inject_Z D + e * inject_Z D)%Q -> (inject_Z a / inject_Z D <= inject_Z b + e)%Q.
Proof. intro H. pose proof Dpos. apply Qle_shift_div_r; [assumption|]. lra. Qed.

Lemma lgd_upper d a b : 1 <= d -> 0 <= a -> 0 <= b -> d ^ b <= 10 ^ a -> (inject_Z b * lgd (inject_Z d) <= inject_Z a)%Q.
Proof.
  intros Hd Ha Hb H. destruct (lgd_spec d Hd) as (x & E & X0 & X1 & X2). rewrite E.
  assert (P : 10 ^ (x * b) <= 10 ^ (a * D)).
  { rewrite Z.pow_mul_r, Z.pow_mul_r by lia. apply Z.le_trans with ((d ^ D) ^ b); [apply Z.pow_le_mono_l; pose proof (Z.pow_nonneg 10 x ltac:(lia)); lia|].
    rewrite <- Z.pow_mul_r, (Z.mul_comm D b), Z.pow_mul_r by lia. apply Z.pow_le_mono_l. split; [apply Z.pow_nonneg; lia|exact H]. }
  assert (Q : x * b <= a * D).
  { apply (proj2 (Z.pow_le_mono_r_iff 10 (x * b) (a * D) ltac:(lia) ltac:(nia)) P). }
  pose proof Dpos as DP. setoid_replace (inject_Z b * (inject_Z x / inject_Z D))%Q with (inject_Z (x * b) / inject_Z D)%Q
    by (rewrite inject_Z_mult; field; intro K; rewrite K in DP; discriminate DP).
  apply Qle_shift_div_r; [exact DP|]. rewrite <- inject_Z_mult, <- Zle_Qle. exact Q.
Qed.

Lemma lgd_lower d a b : 1 <= d -> 0 <= a -> 0 <= b -> 10 ^ a <= d ^ b ->
  (inject_Z a <= inject_Z b * lgd (inject_Z d) + inject_Z b / inject_Z D)%Q.
Proof.
  intros Hd Ha Hb H. destruct (lgd_spec d Hd) as (x & E & X0 & X1 & X2). rewrite E.
  assert (P : 10 ^ (a * D) <= 10 ^ ((x + 1) * b)).
  { rewrite Z.pow_mul_r, Z.pow_mul_r by lia. apply Z.le_trans with ((d ^ b) ^ D); [apply Z.pow_le_mono_l; pose proof (Z.pow_nonneg 10 a ltac:(lia)); lia|].
    rewrite <- Z.pow_mul_r, (Z.mul_comm b D), Z.pow_mul_r by lia. apply Z.pow_le_mono_l. split; [apply Z.pow_nonneg; lia|lia]. }
  assert (Q : a * D <= (x + 1) * b).
  { apply (proj2 (Z.pow_le_mono_r_iff 10 (a * D) ((x + 1) * b) ltac:(lia) ltac:(nia)) P). }
  pose proof Dpos as DP. setoid_replace (inject_Z b * (inject_Z x / inject_Z D) + inject_Z b / inject_Z D)%Q with (inject_Z ((x + 1) * b) / inject_Z D)%Q
    by (rewrite inject_Z_mult, inject_Z_plus; change (inject_Z 1) with 1%Q; field; intro K; rewrite K in DP; discriminate DP).
  apply Qle_shift_div_l; [exact DP|]. rewrite <- inject_Z_mult, <- Zle_Qle. exact Q.
Qed.

Lemma lgd_sound : log10_sound lgd.
Proof.
  assert (EPS : forall b, 0 <= b -> (0 <= inject_Z b * (1 # 1000000000))%Q).
  { intros b Hb. apply Qmult_le_0_compat; [change 0%Q with (inject_Z 0); now rewrite <- Zle_Qle|discriminate]. }
  pose proof Dpos as DP.
  assert (EXACT : forall k, 0 <= k -> (lgd (inject_Z (10 ^ k)) == inject_Z k)%Q).
  { intros k K. assert (1 <= 10 ^ k) by (pose proof (Z.pow_pos_nonneg 10 k ltac:(lia) K); lia).
    destruct (lgd_spec (10 ^ k) H) as (x & E & X0 & X1 & X2). rewrite E. rewrite <- Z.pow_mul_r in X1, X2 by lia.
    assert (x <= k * D) by (apply (proj2 (Z.pow_le_mono_r_iff 10 x (k * D) ltac:(lia) ltac:(nia))); exact X1).
    assert (k * D < x + 1) by (apply (Z.pow_lt_mono_r_iff 10); [lia|lia|exact X2]).
    assert (x = k * D) by lia. subst x. rewrite inject_Z_mult. field. intro Q. rewrite Q in DP. discriminate DP. }
  constructor.
  - intros d k K Hd H. assert (1 <= d) by (pose proof (Z.pow_pos_nonneg 10 k ltac:(lia) K); lia). split.
    + destruct (lgd_spec d H0) as (x & E & X0 & X1 & X2). rewrite E. apply Qle_shift_div_l; [exact DP|].
      rewrite <- inject_Z_mult, <- Zle_Qle. assert (k * D < x + 1); [|lia]. apply (Z.pow_lt_mono_r_iff 10); [lia|lia|].
      apply Z.le_lt_trans with (d ^ D); [|exact X2]. rewrite Z.pow_mul_r by lia. apply Z.pow_le_mono_l. pose proof (Z.pow_pos_nonneg 10 k ltac:(lia) K). lia.
    + destruct (lgd_spec d H0) as (x & E & X0 & X1 & X2). rewrite E. apply Qlt_shift_div_r; [exact DP|].
      rewrite <- inject_Z_mult, <- Zlt_Qlt. apply (Z.pow_lt_mono_r_iff 10); [lia|nia|].
      apply Z.le_lt_trans with (d ^ D); [exact X1|]. rewrite Z.pow_mul_r by lia. apply Z.pow_lt_mono_l; lia.
  - exact (EXACT 0 ltac:(lia)).
  - exact (EXACT 1 ltac:(lia)).
  - intros d a b Hd Ha Hb H. pose proof (lgd_upper d a b ltac:(lia) Ha Hb H). pose proof (EPS b Hb). lra.
  - intros d a b Hd Ha Hb H. pose proof (lgd_lower d a b ltac:(lia) Ha Hb H) as L.
    assert (inject_Z b / inject_Z D <= inject_Z b * (1 # 1000000000))%Q; [|lra].
    apply Qle_shift_div_r; [exact DP|]. assert (DD : (inject_Z 1000000000 <= inject_Z D)%Q) by (rewrite <- Zle_Qle; lia).
    setoid_replace (inject_Z b)%Q with (inject_Z b * (1 # 1000000000) * inject_Z 1000000000)%Q at 1 by (unfold inject_Z; field).
    rewrite !(Qmult_comm (inject_Z b * (1 # 1000000000))). apply Qmult_le_compat_r; [exact DD|now apply EPS].
Qed.
End Sample.

Lemma lgd_fine : log10_fine (lgd 10000000000000).
Proof.
  assert (HD : 1000000000 <= 10000000000000) by lia.
  constructor; intros d a b Hd Ha Hb H.
  - pose proof (lgd_upper _ HD d a b ltac:(lia) Ha Hb H) as U.
    assert (0 <= inject_Z b * (1 # 10000000000000))%Q by (apply Qmult_le_0_compat; [change 0%Q with (inject_Z 0); now rewrite <- Zle_Qle|discriminate]). lra.
  - pose proof (lgd_lower _ HD d a b ltac:(lia) Ha Hb H) as U. change (inject_Z b / inject_Z 10000000000000)%Q with (inject_Z b * (1 # 10000000000000))%Q in U. exact U.
Qed.

Definition ln_steps (q : Q) : Q := ((69 # 100) * inject_Z (Z.log2 (Qnum q)))%Q.
Lemma ln_steps_between : ln_between ln_steps.
Proof.
  intros a j J H. unfold ln_steps. cbn [Qnum inject_Z].
  assert (E : Z.log2 a = j) by (apply Z.log2_unique; [lia|]; replace (Z.succ j) with (j + 1) by lia; exact H). rewrite E.
  rewrite inject_Z_plus. change (inject_Z 1) with 1%Q.
  assert (0 <= inject_Z j)%Q by (change 0%Q with (inject_Z 0); rewrite <- Zle_Qle; lia). lra.
Qed.

Theorem fine_platform_exists : exists lg ln, log10_sound lg /\ log10_fine lg /\ ln_between ln.
Proof.
  exists (lgd 10000000000000), ln_steps. split; [apply lgd_sound; discriminate|]. split; [exact lgd_fine|exact ln_steps_between].
Qed.

Theorem log10_exists : exists lg, log10_sound lg.
Proof. exists (lgd 1000000000). apply lgd_sound. discriminate. Qed.
