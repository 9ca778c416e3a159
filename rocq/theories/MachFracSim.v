(** * MachFracSim: the machine level of fractional powers (MachFrac.v) agrees with Transc.v. *)
From Coq Require Import Reals Qreals Lra Lia ZArith QArith Qabs List Bool.
From Verif Require Import Base Var Binary Format Parse Convert Num Flt Transc Data Spec SpecApi SpecRoot SpecLn SpecFloat SpecData SpecMach QDec Digits Arith Strip Round AddSub Signed Codec Make Api1 Api2 Sqrt
  DivFast FltFacts Sci PowApi LogApi LnOps LnSqrt LnQR LnRed LnReal LnSeries LnApi LnSig LnStep LogAcc ExpReal ExpRed ExpSeries ExpSquare ExpAcc ExpFin ExpApi ExpStep PowFrac PowFin DataSim DataBuf DataApi
  Mach MachSim MachAdd MachMul MachDiv MachApi MachText MachConv MachFast MachDivFast MachSqrt MachPow MachPowSim MachPowApi MachLn MachLnSim MachLnTail MachLnApi MachExp MachExpSim MachExpApi MachFrac.
Import ListNotations.
Open Scope Z_scope.

(** exponent * ln(base): its shape (ln_times without the error) *)
Lemma ln_mul_shape c fuel v e s r w : arg v -> stripped e -> 0 <= s <= 4650 -> ln_common c fuel v s = Ret r -> mul_common c r e s = Ret w ->
  stripped w /\ dscale w = s /\ mult (vval w) s.
Proof.
  intros A Se Hs E E2. destruct (ln_common_spec c fuel v s A ltac:(lia)) as [K|[[K _]|(r' & K & T & Ds & M & Er)]]; rewrite E in K; try discriminate.
  apply Ret_inj in K. subst r'. pose proof (ln_arg_bound v A) as La. set (L := ln (rv v)) in *.
  assert (S1 : (0 <= IZR s <= 4650)%R) by (split; apply IZR_le; lia). pose proof (e10_pos (- s)) as Ps. pose proof (Rabs_pos L) as L0.
  assert (Wr : (weight r <= 2)%Z).
  { apply (semi_weight r 2); [now apply stripped_semi|lia|]. apply rv_lt_Q. rewrite Q2R_p10. change (4 * (2 + 1))%Z with 12%Z.
    assert (K7 : (e10 7 <= e10 12)%R) by (apply e10_le; lia). rewrite e10_7 in K7.
    assert (P1 : (e10 (- s) <= e10 0)%R) by (apply e10_le; lia). change (e10 0) with 1%R in P1.
    assert (U : (ln_error s L <= 1000 * e10 (- s))%R).
    { unfold ln_error. apply Rmult_le_compat_r; [lra|].
      assert (((1 + 23 * Rabs L) * (IZR s + 10) <= (1 + 23 * 302000) * 5010)%R) by (apply Rmult_le_compat; lra). lra. }
    pose proof (Rabs_triang (rv r - L) L) as Tr. replace (rv r - L + L)%R with (rv r) in Tr by ring. lra. }
  pose proof (tidy_len r s (stripped_tidy _ T) M ltac:(lia)) as Lr.
  destruct (mul_op c r e s 1170 (stripped_semi _ T) (stripped_semi _ Se) ltac:(lia) ltac:(lia)) as (w' & K2 & O).
  rewrite E2 in K2. apply Ret_inj in K2. subst w'. destruct O as (Tw & Dw & Mw & _). auto.
Qed.

Lemma ln_mul_m c b a fuel p q v e s : arg v -> stripped e -> mrep 40000 p v -> mrep 40000 q e -> 0 <= s <= 4650 ->
  sim (fun u w => mrep 5000000 u w /\ stripped w /\ dscale w = s /\ mult (vval w) s)
    (ln_base <- m_ln_common c b fuel p s ;; m_mul_common c a ln_base q s) (ln_base <- ln_common c fuel v s ;; mul_common c ln_base e s).
Proof.
  intros A Se Mp Mq Hs.
  assert (D : forall r, ln_common c fuel v s = Ret r -> Forall dig (digits r)).
  { intros r E. destruct (ln_common_spec c fuel v s A ltac:(lia)) as [K|[[K _]|(r' & K & T & _)]]; rewrite E in K; try discriminate.
    apply Ret_inj in K. subst r'. apply T. }
  pose proof (fun r w => ln_mul_shape c fuel v e s r w A Se Hs) as SH.
  apply (sim_bind (fun u r => mrep 100000 u r /\ ln_common c fuel v s = Ret r)).
  { pose proof (sim_spec _ (fun r => ln_common c fuel v s = Ret r) _ _ (ln_common_m c b fuel p v s A Mp ltac:(lia)) (fun r E => E)) as K. exact K. }
  intros u r (Mu & Er). apply sim_spec; [|intros w Ew; exact (SH r w Er Ew)].
  apply (sim_weaken (16 * 100000 + 70)); [lia|].
  apply (mul_t c a 100000); [lia|lia|exact (D r Er)|apply Se|apply (in_big 100000); [unfold big; lia|exact Mu]|apply (in_big 40000); [unfold big; lia|exact Mq]|
    exact (mrep_within 100000 _ _ Mu)|exact (within_mono 40000 100000 _ ltac:(lia) (mrep_within 40000 _ _ Mq))].
Qed.

Lemma trunc_602 f : (Qabs f <= fmul 2000 (fl (301 # 100)))%Q -> -2650 <= f2i (fmul f LOG10_E) <= 2650.
Proof.
  intro H. pose proof limit_602 as [_ U]. pose proof (Qle_trans _ _ _ H U) as K. clear H U. apply Qle_Rle in K. rewrite Q2R_abs in K.
  replace (Q2R (60201 # 10)) with (60201 / 10)%R in K by (unfold Q2R; cbn; lra).
  assert (Z0 : (Rabs (Q2R f - Q2R f) <= / 100000000)%R) by (rewrite Rminus_diag_eq, Rabs_R0 by reflexivity; lra).
  pose proof (fmul_trunc f LOG10_E (Q2R f) 1 Z0 LOG10_E_near ltac:(lra) ltac:(lra)) as Ht. rewrite Rmult_1_r in Ht.
  apply (t_range _ (Q2R f)); lra.
Qed.

(** the conversion of any value of moderate scale *)
Lemma conv_any m v : float_sound m -> stripped v -> 0 <= dscale v <= 16383 -> mult (vval v) (dscale v) ->
  exists f, f_of_var m v = Some f /\ ((Rabs (Q2R f - rv v) <= / 1000000000)%R \/ (6000 <= Rabs (Q2R f))%R).
Proof.
  intros FS S Sc M. destruct (Rlt_le_dec (Rabs (rv v)) 6000) as [L|L].
  - destruct (fs_below m v FS S (proj1 Sc) M L) as (f & Ef & F). exists f. split; [exact Ef|]. left. lra.
  - assert (B : (inject_Z 6000 <= Qabs (vval v))%Q) by (apply Rle_Qle; rewrite Q2R_abs, Q2R_Z; exact L).
    destruct (fs_big m FS v 6000 S (proj1 Sc) M ltac:(vm_compute; split; discriminate) B) as (f & Ef & F). exists f. split; [exact Ef|]. right.
    apply Qle_Rle in F. rewrite Q2R_Z, Q2R_abs in F. exact F.
Qed.

(** from the estimate on *)
Lemma frac_tail c b m fuel p q v e d : float_sound m -> arg v -> stripped e -> 0 <= dscale e <= 16383 -> 4000 <= Z.of_nat fuel ->
  mrep 40000 p v -> mrep 40000 q e -> -992 < d <= 5 ->
  sim exp_rel
    (t <- i32 c (8 - d) ;;
     let local_rscale := Z.min (Z.max t NUMERIC_MIN_DISPLAY_SCALE) NUMERIC_MAX_DISPLAY_SCALE in
     ln_base <- m_ln_common c (b 1%nat) fuel p local_rscale ;;
     ln_num <- m_mul_common c (b 0%nat 0%nat 1%nat) ln_base q local_rscale ;;
     val <- m_to_f64 c m ln_num ;;
     if negb (Qle_bool (Qabs val) (fmul 2000 (fl (301 # 100)))) then Ret None
     else
       let val := fmul val LOG10_E in
       t <- i32 c (NUMERIC_MIN_SIG_DIGITS - f2i val) ;;
       let rscale := Z.min (Z.max (Z.max (Z.max t (p_dscale p)) (p_dscale q)) NUMERIC_MIN_DISPLAY_SCALE) NUMERIC_MAX_DISPLAY_SCALE in
       t <- i32 c (rscale + f2i val) ;;
       t <- i32 c (t - d) ;;
       t <- i32 c (t + 8) ;;
       let local_rscale := Z.max t NUMERIC_MIN_DISPLAY_SCALE in
       ln_base <- m_ln_common c (b 2%nat) fuel p local_rscale ;;
       ln_num <- m_mul_common c (b 0%nat 0%nat 2%nat) ln_base q local_rscale ;;
       m_exp_common c (b 3%nat) m fuel ln_num rscale)
    (dx <- i32 c (8 - d) ;;
     let local_rscale := clamp_scale dx in
     ln_base <- ln_common c fuel v local_rscale ;;
     ln_num <- mul_common c ln_base e local_rscale ;;
     val <- expect (f_of_var m ln_num) MUnwrap ;;
     if negb (Qle_bool (Qabs val) (fmul 2000 (fl (301 # 100)))) then Ret None
     else
       let val := fmul val LOG10_E in
       let rscale := clamp_scale (Z.max (Z.max (NUMERIC_MIN_SIG_DIGITS - f2i val) (dscale v)) (dscale e)) in
       a <- i32 c (rscale + f2i val - d + 8) ;;
       let local_rscale := Z.max a NUMERIC_MIN_DISPLAY_SCALE in
       ln_base <- ln_common c fuel v local_rscale ;;
       ln_num <- mul_common c ln_base e local_rscale ;;
       exp_common c m fuel ln_num rscale).
Proof.
  intros FS A Se De Hf Mp Mq Hd. rewrite i32_ok by lia. rewrite !bind_ret. cbv zeta.
  fold (clamp_scale (8 - d)). replace (clamp_scale (8 - d)) with (8 - d).
  2:{ unfold clamp_scale. change NUMERIC_MIN_DISPLAY_SCALE with 0. change NUMERIC_MAX_DISPLAY_SCALE with 1000. lia. }
  pose proof (ln_mul_m c (b 1%nat) (b 0%nat 0%nat 1%nat) fuel p q v e (8 - d) A Se Mp Mq ltac:(lia)) as L1.
  rewrite <- !(bind_assoc (m_ln_common c (b 1%nat) fuel p (8 - d))), <- !(bind_assoc (ln_common c fuel v (8 - d))).
  apply (sim_bind (fun u w => mrep 5000000 u w /\ stripped w /\ dscale w = 8 - d /\ mult (vval w) (8 - d))); [exact L1|]. clear L1.
  intros u w (Mu & Sw & Dw & Mw). rewrite (to_f64_m c m 5000000 u w) by (lia || exact Mu || exact Sw || (rewrite Dw; exact Mw)).
  apply sim_same. intros f _. destruct (Qle_bool (Qabs f) (fmul 2000 (fl (301 # 100)))) eqn:G; cbn [negb]; cbv iota.
  2:{ cbn [sim]. split; [exact Logic.I|]. intros z K. discriminate K. }
  apply Qle_bool_iff in G. pose proof (trunc_602 f G) as Bt. clear G. set (t := f2i (fmul f LOG10_E)) in *. clearbody t.
  change NUMERIC_MIN_SIG_DIGITS with 16. rewrite (i32_ok c (16 - t)) by lia. rewrite bind_ret. rewrite (rp_dscale p v (proj1 Mp)), (rp_dscale q e (proj1 Mq)).
  fold (clamp_scale (Z.max (Z.max (16 - t) (dscale v)) (dscale e))). set (R := clamp_scale (Z.max (Z.max (16 - t) (dscale v)) (dscale e))).
  assert (HR : 0 <= R <= 1000) by (unfold R, clamp_scale; change NUMERIC_MIN_DISPLAY_SCALE with 0; change NUMERIC_MAX_DISPLAY_SCALE with 1000; lia).
  clearbody R. rewrite (i32_ok c (R + t)), bind_ret by lia. rewrite (i32_ok c (R + t - d)), bind_ret by lia. rewrite (i32_ok c (R + t - d + 8)), !bind_ret by lia.
  change NUMERIC_MIN_DISPLAY_SCALE with 0. set (s := Z.max (R + t - d + 8) 0). assert (Hs : 0 <= s <= 4650) by (unfold s; lia). clearbody s.
  pose proof (ln_mul_m c (b 2%nat) (b 0%nat 0%nat 2%nat) fuel p q v e s A Se Mp Mq ltac:(lia)) as L2.
  rewrite <- (bind_assoc (m_ln_common c (b 2%nat) fuel p s)), <- (bind_assoc (ln_common c fuel v s)).
  apply (sim_bind (fun u w => mrep 5000000 u w /\ stripped w /\ dscale w = s /\ mult (vval w) s)); [exact L2|]. clear L2.
  clear u w Mu Sw Dw Mw. intros u w (Mu & Sw & Dw & Mw).
  assert (Sc : 0 <= dscale w <= 16383) by lia. rewrite <- Dw in Mw. destruct (conv_any m w FS Sw Sc Mw) as (g & Eg & Hg).
  exact (proj1 (exp_common_rel c (b 3%nat) m fuel u w g R Sw Sc Mw Eg Hg HR Hf Mu)).
Qed.

Lemma frac_pos_m c b m fuel p q v e d : float_sound m -> arg v -> stripped e -> 0 <= dscale e <= 16383 -> 4000 <= Z.of_nat fuel ->
  mrep 40000 p v -> mrep 40000 q e -> estimate_ln_dweight c m v = Ret d -> -992 < d <= 5 -> no_i32 (vval e) -> stripped v ->
  sim exp_rel (m_power_frac c b m fuel p q) (power_common c m fuel v e).
Proof.
  intros FS A Se De Hf Mp Mq Ed Hd NI Sv. unfold m_power_frac, power_common. rewrite (nan_ok c v (st_nan _ Sv)), (nan_ok c e (st_nan _ Se)), !bind_ret.
  destruct (int_or_not c e Se) as [K|K]; [now destruct NI|]. rewrite K, bind_ret. clear K.
  rewrite (cmp_zero_m c p v Mp). destruct (cmp_zero c v Sv) as (z & Ez & Hz). rewrite Ez, !bind_ret. pose proof (ag_pos _ A) as P.
  assert (z = 1) as ->. { destruct Hz as [[_ K]|[[G _]|[_ K]]]; [exfalso; rewrite K in P; now apply Qlt_irrefl in P|exact G|].
    exfalso. apply (Qlt_irrefl 0). eapply Qlt_trans; [exact P|exact K]. }
  change (1 =? 0) with false. cbv iota. rewrite (estimate_m c _ m p v A Mp), Ed, !bind_ret.
  exact (frac_tail c b m fuel p q v e d FS A Se De Hf Mp Mq Hd).
Qed.

Lemma frac_zero_m c b m fuel p q v e : stripped v -> (vval v == 0)%Q -> stripped e -> mrep 40000 p v -> no_i32 (vval e) ->
  sim exp_rel (m_power_frac c b m fuel p q) (power_common c m fuel v e).
Proof.
  intros Sv V0 Se Mp NI. unfold m_power_frac, power_common. rewrite (nan_ok c v (st_nan _ Sv)), (nan_ok c e (st_nan _ Se)), !bind_ret.
  destruct (int_or_not c e Se) as [K|K]; [now destruct NI|]. rewrite K, bind_ret. clear K.
  rewrite (cmp_zero_m c p v Mp). destruct (cmp_zero c v Sv) as (z & Ez & Hz). rewrite Ez, !bind_ret.
  assert (z = 0) as ->. { destruct Hz as [[G _]|[[_ K]|[_ K]]]; [exact G|rewrite V0 in K; discriminate K|rewrite V0 in K; discriminate K]. }
  change (0 =? 0) with true. cbv iota. change NUMERIC_MIN_SIG_DIGITS with 16.
  pose proof (zero_scaled_m c 100 16 ltac:(lia) ltac:(lia)) as Z. rewrite zero_scaled_ok in * by lia.
  destruct (m_zero_scaled c 16) as [u| | |]; cbn [sim] in Z; try contradiction. rewrite !bind_ret. cbn [sim]. split.
  - cbn [orel]. apply (mrep_mono 100); [unfold mid; lia|exact Z].
  - intros z E. injection E as <-. split; [|discriminate]. left. split; [constructor|]. split; [discriminate|]. split; [|cbn; lia].
    exists 0. rewrite vval_empty by reflexivity. reflexivity.
Qed.
