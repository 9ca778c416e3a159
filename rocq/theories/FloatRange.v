(** * FloatRange: conversions to f32 outside its range. *)
From Coq Require Import ZArith QArith Qabs Qpower Lia Lqa Bool List.
From Verif Require Import Base Var Binary Format Parse Convert Spec SpecApi SpecText SpecLibm QDec Digits Make SpecDouble Flt Float FloatGrid FloatF32 FloatText FloatApi FloatTrip FloatSound.
Import ListNotations.
Open Scope Z_scope.

Lemma grid_opp F a : on_grid F a -> on_grid F (- a).
Proof. intros (m & e & A & B & C). exists (- m), e. split; [lia|]. split; [exact B|]. rewrite C, inject_Z_opp. ring. Qed.

Lemma nearest_abs_lo F q f a : on_grid F a -> (0 <= a)%Q -> nearest F q f -> (a <= Qabs q)%Q -> (a <= Qabs f)%Q.
Proof.
  intros G P N H. destruct (Qlt_le_dec q 0) as [L|L].
  - rewrite Qabs_neg in H by lra. pose proof (nearest_mono' _ _ _ _ (grid_opp _ _ G) N ltac:(lra)). rewrite Qabs_neg by lra. lra.
  - rewrite Qabs_pos in H by lra. pose proof (nearest_mono _ _ _ _ G N ltac:(lra)). rewrite Qabs_pos by lra. lra.
Qed.
Lemma nearest_abs_hi F q f a : on_grid F a -> nearest F q f -> (Qabs q <= a)%Q -> (Qabs f <= a)%Q.
Proof.
  intros G N H. apply Qabs_Qle_condition in H. apply Qabs_Qle_condition.
  pose proof (nearest_mono' _ _ _ _ G N ltac:(lra)). pose proof (nearest_mono _ _ _ _ (grid_opp _ _ G) N ltac:(lra)). split; assumption.
Qed.
Lemma p2_grid F e : 0 < f_prec F -> f_emin F <= e -> on_grid F (p2 e).
Proof.
  intros P H. exists 1, e. split; [change (Z.abs 1) with 1; apply Z.pow_gt_1; lia|]. split; [exact H|].
  change (inject_Z 1) with 1%Q. change (2 ^ e)%Q with (p2 e). ring.
Qed.

(** a nonzero grid value is at least the least one *)
Lemma grid_min F f : on_grid F f -> ~ (f == 0)%Q -> (p2 (f_emin F) <= Qabs f)%Q.
Proof.
  intros (m & e & _ & B & C) N. rewrite C. change (2 ^ e)%Q with (p2 e). rewrite Qabs_p2.
  assert (M : 1 <= Z.abs m). { destruct (Z.eq_dec m 0) as [->|]; [|lia]. exfalso. apply N. rewrite C. ring. }
  apply (proj2 (inj_le _ _)) in M. change (inject_Z 1) with 1%Q in M. eapply Qle_trans; [apply p2_le, B|].
  rewrite <- (Qmult_1_l (p2 e)) at 1. apply Qmult_le_compat_r; [exact M|apply Qlt_le_weak, p2_pos].
Qed.

Lemma nearest_zero F q f : 0 < f_prec F -> nearest F q f -> (Qabs q + Qabs q < p2 (f_emin F))%Q -> (f == 0)%Q.
Proof.
  intros P N H. assert (Z : on_grid F 0).
  { apply zero_on_grid; [exact P|reflexivity]. }
  destruct (Qeq_dec f 0) as [E|E]; [exact E|exfalso]. pose proof (grid_min F f (proj1 N) E) as L.
  destruct N as [_ N]. specialize (N 0%Q Z).
  setoid_replace (0 - q)%Q with (- q)%Q in N by ring. rewrite Qabs_opp in N.
  assert (T : (Qabs f <= Qabs q + Qabs (f - q))%Q). { setoid_replace f with (q + (f - q))%Q at 1 by ring. apply Qabs_triangle. }
  lra.
Qed.

Lemma inv_lt2 a b a' b' : (0 < a -> 0 < b' -> 2 * a < b -> a * a' == 1 -> b * b' == 1 -> b' + b' < a')%Q.
Proof.
  intros A B L EA EB. assert (X : (b' < a' * (1 # 2))%Q); [|lra].
  apply (inv_lt (2 * a) b); [lra|exact B|exact L| |exact EB]. setoid_replace (2 * a * (a' * (1 # 2)))%Q with (a * a')%Q by ring. exact EA.
Qed.

Theorem f32_out_of_range c pf x q s : strtod_sound (p_strtod pf) -> stores (be_varlen c) x q s ->
  ((ten ^ 39 <= Qabs q)%Q /\ (Qabs q <= ten ^ 308)%Q -> num_to_f32 c pf x = Ret (inr COverflow)) /\
  ((ten ^ 309 <= Qabs q)%Q -> exists n, num_to_f32 c pf x = Ret (inl (FInf n)) /\ (n = true <-> (q < 0)%Q)) /\
  ((ten ^ (-323) <= Qabs q)%Q /\ (Qabs q <= ten ^ (-46))%Q -> num_to_f32 c pf x = Ret (inr COverflow)) /\
  ((Qabs q <= ten ^ (-324))%Q -> exists g, num_to_f32 c pf x = Ret (inl (FNum g)) /\ (g == 0)%Q).
Proof.
  intros SS H. destruct (to_f32_spec c pf x q s SS H) as (d & r & R & E & _ & C). clear H SS.
  change (ten ^ 39)%Q with (p10 39). change (ten ^ 308)%Q with (p10 308). change (ten ^ 309)%Q with (p10 309).
  change (ten ^ (-323))%Q with (p10 (-323)). change (ten ^ (-46))%Q with (p10 (-46)). change (ten ^ (-324))%Q with (p10 (-324)).
  rewrite E. clear E. split; [|split; [|split]].
  - intros [L U]. destruct d as [|n|f]; [destruct R| |].
    + exfalso. destruct R as (f & N & K & _). cbn [f_emax binary64] in K. change (2 ^ 1024)%Q with (p2 1024) in K.
      assert (B : (p10 308 <= inject_Z ((2 ^ 53 - 1) * 2 ^ 971))%Q) by (rewrite p10_Z by lia; apply inj_le; vm_compute; discriminate).
      assert (B' : (inject_Z ((2 ^ 53 - 1) * 2 ^ 971) < p2 1024)%Q) by (rewrite p2_Z by lia; apply inj_lt; reflexivity).
      assert (G : on_grid binary64 (inject_Z ((2 ^ 53 - 1) * 2 ^ 971))).
      { exists (2 ^ 53 - 1), 971. cbn [f_prec f_emin binary64]. split; [reflexivity|]. split; [lia|].
        rewrite inject_Z_mult. change (2 ^ 971)%Q with (p2 971). rewrite p2_Z by lia. reflexivity. }
      pose proof (nearest_abs_hi _ _ _ _ G N (Qle_trans _ _ _ U B)) as X.
      exact (Qlt_not_le _ _ (Qle_lt_trans _ _ _ X B') K).
    + destruct C as [[_ ->]|[C _]]; [reflexivity|]. exfalso. apply C. left. destruct R as [N _].
      assert (B : (p2 129 <= p10 39)%Q) by (unfold Qle; vm_compute; discriminate).
      pose proof (nearest_abs_lo _ _ _ _ (p2_grid binary64 129 ltac:(reflexivity) ltac:(cbn; lia)) (Qlt_le_weak _ _ (p2_pos 129)) N (Qle_trans _ _ _ B L)) as X.
      apply Qle_trans with (p2 129); [|exact X]. unfold Qle. vm_compute. discriminate.
  - intro L. assert (B : (p2 1024 <= p10 309)%Q) by (rewrite p2_Z, p10_Z by lia; apply inj_le; vm_compute; discriminate).
    pose proof (p2_grid binary64 1024 ltac:(reflexivity) ltac:(cbn; lia)) as G.
    pose proof (Qlt_le_weak _ _ (p2_pos 1024)) as P. pose proof (Qle_trans _ _ _ B L) as BL. clear B L.
    destruct d as [|n|f]; [destruct R| |].
    + exists n. rewrite C. split; [reflexivity|]. destruct R as (f & N & K & Sg). rewrite Sg. clear C Sg. cbn [f_emax binary64] in K.
      change (2 ^ 1024)%Q with (p2 1024) in K. pose proof (p2_pos 1024) as PP. revert G P BL K PP. generalize (p2 1024). intros b G P BL K PP.
      pose proof (nearest_mono _ _ _ _ (zero_on_grid binary64 0 ltac:(reflexivity) (Qeq_refl 0)) N) as M1.
      pose proof (nearest_mono' _ _ _ _ (zero_on_grid binary64 0 ltac:(reflexivity) (Qeq_refl 0)) N) as M2.
      split; intro T.
      * destruct (Qlt_le_dec q 0) as [X|X]; [exact X|]. specialize (M1 X). lra.
      * destruct (Qlt_le_dec f 0) as [X|X]; [exact X|]. specialize (M2 ltac:(lra)).
        assert (F0 : (f == 0)%Q) by lra. rewrite F0 in K. change (Qabs 0) with 0%Q in K. lra.
    + exfalso. destruct R as [N K]. cbn [f_emax binary64] in K. change (2 ^ 1024)%Q with (p2 1024) in K.
      exact (Qlt_not_le _ _ K (nearest_abs_lo _ _ _ _ G P N BL)).
  - intros [L U]. assert (Nq : ~ (q == 0)%Q).
    { intro Z0. rewrite Z0 in L. change (Qabs 0) with 0%Q in L. exact (Qlt_not_le _ _ (p10_pos (-323)) L). }
    assert (B : (p10 (-46) <= p2 (-150))%Q).
    { apply Qlt_le_weak, (inv_lt (p2 150) (p10 46)); [apply p2_pos|apply p10_pos| |exact (p2_opp 150)|exact (p10_opp 46)].
      rewrite p2_Z, p10_Z by lia. apply inj_lt. reflexivity. }
    assert (B' : (p2 (-1074) <= p10 (-323))%Q).
    { apply Qlt_le_weak, (inv_lt (p10 323) (p2 1074)); [apply p10_pos|apply p2_pos| |exact (p10_opp 323)|exact (p2_opp 1074)].
      rewrite p2_Z, p10_Z by lia. apply inj_lt. reflexivity. }
    pose proof (Qle_trans _ _ _ B' L) as LL. pose proof (Qle_trans _ _ _ U B) as UU. clear L U B B'.
    pose proof (p2_grid binary64 (-150) ltac:(reflexivity) ltac:(cbn; lia)) as G1.
    pose proof (p2_grid binary64 (-1074) ltac:(reflexivity) ltac:(cbn; lia)) as G2.
    destruct d as [|n|f]; [destruct R| |].
    + exfalso. destruct R as (f & N & K & _). cbn [f_emax binary64] in K. change (2 ^ 1024)%Q with (p2 1024) in K.
      pose proof (nearest_abs_hi _ _ _ _ G1 N UU) as X.
      exact (Qlt_not_le _ _ (p2_lt (-150) 1024 ltac:(lia)) (Qle_trans _ _ _ K X)).
    + destruct C as [[_ ->]|[C _]]; [reflexivity|]. exfalso. apply C. right. destruct R as [N _].
      split; [|exact (nearest_abs_hi _ _ _ _ G1 N UU)].
      intro Z0. pose proof (nearest_abs_lo _ _ _ _ G2 (Qlt_le_weak _ _ (p2_pos (-1074))) N LL) as X. rewrite Z0 in X. change (Qabs 0) with 0%Q in X.
      exact (Qlt_not_le _ _ (p2_pos (-1074)) X).
  - intro U. assert (B : (p10 (-324) + p10 (-324) < p2 (-1074))%Q).
    { apply (inv_lt2 (p2 1074) (p10 324)); [apply p2_pos|apply p10_pos| |exact (p2_opp 1074)|exact (p10_opp 324)].
      rewrite <- p2_step, p2_Z, p10_Z by lia. apply inj_lt. reflexivity. }
    assert (LL : (Qabs q + Qabs q < p2 (-1074))%Q) by (eapply Qle_lt_trans; [|exact B]; apply Qplus_le_compat; exact U). clear U B.
    destruct d as [|n|f]; [destruct R| |].
    + exfalso. destruct R as (f & N & K & _). pose proof (nearest_zero binary64 _ _ ltac:(reflexivity) N LL) as Z0.
      rewrite Z0 in K. change (Qabs 0) with 0%Q in K. exact (Qlt_not_le _ _ (p2_pos 1024) K).
    + destruct R as [N _]. pose proof (nearest_zero binary64 _ _ ltac:(reflexivity) N LL) as Z0. clear LL N.
      destruct C as [[[K|[K _]] _]|(_ & g & -> & Rg)].
      * exfalso. rewrite Z0 in K. revert K. vm_compute. now intros [].
      * now destruct K.
      * pose proof (zero_on_grid binary32 f ltac:(reflexivity) Z0) as Gf. destruct g as [|n|g]; [destruct Rg| |].
        -- exfalso. destruct Rg as (g & N & K & _). pose proof (nearest_self _ _ _ Gf N) as Eg. rewrite Eg, Z0 in K. revert K. vm_compute. now intros [].
        -- exists g. split; [reflexivity|]. rewrite (nearest_self _ _ _ Gf (proj1 Rg)). exact Z0.
Qed.
