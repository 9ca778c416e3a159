(** * LnSig: the number of significant digits of the natural logarithm (var.rs 1840-1884, 2496-2512). *)
From Coq Require Import Reals Qreals Lra Lia ZArith QArith Qabs List Bool.
From Verif Require Import Base Var Binary Num Flt FltFacts Transc Spec SpecApi SpecRoot SpecLn QDec Digits Arith Strip Round AddSub Signed Codec Make Api1 Api2 Sqrt
  DivFast PowLoop PowApi LnOps LnSqrt LnQR LnRed LnReal LnSeries LnApi.
Import ListNotations.
Open Scope R_scope.

(** ** ln 10 to ten digits *)
Fixpoint artQ (n : nat) (t : Q) : Q :=
  match n with
  | O => 0
  | S k => Qred (artQ k t + Qred (t ^ (2 * Z.of_nat k + 1)) / inject_Z (2 * Z.of_nat k + 1))
  end.
Lemma artQ_R n t : ~ (t == 0)%Q -> Q2R (artQ n t) = art n (Q2R t).
Proof.
  intro N. induction n as [|k IH]; [apply RMicromega.Q2R_0|]. cbn [artQ art]. rewrite (Qeq_eqR _ _ (Qred_correct _)), Q2R_plus, IH. f_equal.
  rewrite Q2R_div, Q2R_Z.
  2:{ change 0%Q with (inject_Z 0). rewrite inject_Z_injective. lia. }
  rewrite (Qeq_eqR _ _ (Qred_correct _)). rewrite RMicromega.Q2RpowerRZ by (left; exact N).
  replace (2 * Z.of_nat k + 1)%Z with (Z.of_nat (2 * k + 1)) by lia. rewrite <- pow_powerRZ, <- INR_IZR_INZ. reflexivity.
Qed.

Lemma ln_2_bound : Rabs (ln 2 - Q2R (2 * artQ 13 (1 # 3))) <= / 1000000000000.
Proof.
  pose proof (art_remainder 13 (/ 3) ltac:(lra)) as H.
  assert (E : ln (1 + / 3) - ln (1 - / 3) = ln 2).
  { replace (1 + / 3) with (2 * (2 / 3)) by lra. replace (1 - / 3) with (2 / 3) by lra. rewrite ln_mult by lra. ring. }
  rewrite E in H. rewrite Q2R_mult, artQ_R by discriminate. replace (Q2R 2) with 2 by (unfold Q2R; cbn; lra).
  replace (Q2R (1 # 3)) with (/ 3) by (unfold Q2R; cbn; lra).
  eapply Rle_trans; [exact H|]. rewrite Rabs_pos_eq by lra. change (2 * 13 + 1)%nat with 27%nat.
  rewrite INR_IZR_INZ. change (Z.of_nat 27) with 27%Z. rewrite pow_inv. replace (3 ^ 27) with (IZR (3 ^ 27)) by (rewrite pow_IZR; reflexivity).
  change (3 ^ 27)%Z with 7625597484987%Z. lra.
Qed.
Lemma ln_54_bound : Rabs (ln (5 / 4) - Q2R (2 * artQ 7 (1 # 9))) <= / 1000000000000.
Proof.
  pose proof (art_remainder 7 (/ 9) ltac:(lra)) as H.
  assert (E : ln (1 + / 9) - ln (1 - / 9) = ln (5 / 4)).
  { replace (1 + / 9) with (5 / 4 * (8 / 9)) by lra. replace (1 - / 9) with (8 / 9) by lra. rewrite ln_mult by lra. ring. }
  rewrite E in H. rewrite Q2R_mult, artQ_R by discriminate. replace (Q2R 2) with 2 by (unfold Q2R; cbn; lra).
  replace (Q2R (1 # 9)) with (/ 9) by (unfold Q2R; cbn; lra).
  eapply Rle_trans; [exact H|]. rewrite Rabs_pos_eq by lra. change (2 * 7 + 1)%nat with 15%nat.
  rewrite INR_IZR_INZ. change (Z.of_nat 15) with 15%Z. rewrite pow_inv. replace (9 ^ 15) with (IZR (9 ^ 15)) by (rewrite pow_IZR; reflexivity).
  change (9 ^ 15)%Z with 205891132094649%Z. lra.
Qed.
Lemma LN_10_near : Rabs (Q2R LN_10 - ln 10) <= / 10000000000.
Proof.
  assert (E : ln 10 = 3 * ln 2 + ln (5 / 4)).
  { replace 10 with (2 * 2 * 2 * (5 / 4)) by lra. rewrite !ln_mult by lra. ring. }
  pose proof (Rabs_between _ _ ln_2_bound) as A. pose proof (Rabs_between _ _ ln_54_bound) as B.
  set (p := (2 * artQ 13 (1 # 3))%Q) in *. set (q := (2 * artQ 7 (1 # 9))%Q) in *.
  assert (K : (Qabs (LN_10 - (3 * p + q)) <= 1 # 20000000000)%Q) by (vm_compute; discriminate).
  apply Qabs_le_R in K. rewrite Q2R_minus, Q2R_plus, Q2R_mult in K. apply Rabs_between in K.
  replace (Q2R 3) with 3 in K by (unfold Q2R; cbn; lra). replace (Q2R (1 # 20000000000)) with (/ 20000000000) in K by (unfold Q2R; cbn; lra).
  apply Rabs_le. lra.
Qed.
Lemma ln_10_range : 23 / 10 < ln 10 < 2303 / 1000.
Proof.
  pose proof (Rabs_between _ _ LN_10_near) as H.
  assert (A : (23025 # 10000 < LN_10 < 23029 # 10000)%Q) by (vm_compute; split; reflexivity).
  destruct A as [A B]. apply Qlt_Rlt in A, B. unfold Q2R at 1 in A. unfold Q2R at 2 in B. cbn [Qnum Qden] in A, B. lra.
Qed.

(** ** Truncation of a logarithm *)
Lemma f2i_top x : IZR (f2i x) <= Rmax 0 (Q2R x).
Proof.
  unfold f2i, Q2R. set (z := Z.quot (Qnum x) (QDen x)). assert (P : 0 < IZR (QDen x)) by (apply IZR_lt; reflexivity).
  destruct (Z_lt_le_dec (Qnum x) 0) as [L|L].
  - apply (Rle_trans _ 0); [|apply Rmax_l]. apply IZR_le. assert (z <= 0)%Z; [|lia].
    unfold z. rewrite <- (Z.opp_involutive (Qnum x)), Z.quot_opp_l by lia.
    pose proof (Z.quot_pos (- Qnum x) (QDen x) ltac:(lia) ltac:(lia)). lia.
  - apply (Rle_trans _ (IZR (Qnum x) * / IZR (QDen x))); [|apply Rmax_r].
    apply (Rle_trans _ (IZR z)).
    + apply IZR_le. assert (0 <= z)%Z by (apply Z.quot_pos; lia). lia.
    + apply (Rmult_le_reg_r (IZR (QDen x))); [exact P|]. rewrite Rmult_assoc, Rinv_l, Rmult_1_r by lra. rewrite <- mult_IZR. apply IZR_le.
      unfold z. rewrite Z.quot_div_nonneg by lia. rewrite Z.mul_comm. apply Z.mul_div_le. lia.
Qed.

(** 10^(truncated log10 x) is at most x (or 1) *)
Lemma log10_top lg lnf q : logs_near lg lnf -> (0 < q)%Q -> e10 (f2i (lg q)) <= Rmax 1 (Q2R q * (1 + / 100000000)).
Proof.
  intros N P. pose proof (near_log10 _ _ N q P) as H. apply Rabs_between in H. pose proof (f2i_top (lg q)) as T.
  apply Q2R_pos in P. pose proof ln_10_range as R. set (k := f2i (lg q)) in *.
  destruct (Rle_lt_dec (Q2R (lg q)) 0) as [L|L].
  - rewrite Rmax_left in T by exact L. apply (Rle_trans _ 1); [|apply Rmax_l]. change 1 with (e10 0). apply e10_le. now apply le_IZR.
  - rewrite Rmax_right in T by lra. apply (Rle_trans _ (Q2R q * (1 + / 100000000))); [|apply Rmax_r].
    rewrite <- (exp_ln (e10 k)) by apply e10_pos. rewrite <- (exp_ln (Q2R q * (1 + / 100000000))) by (apply Rmult_lt_0_compat; lra).
    assert (G : ln (e10 k) <= ln (Q2R q * (1 + / 100000000))); [|destruct G as [G|G]; [left; now apply exp_increasing|right; now rewrite G]].
    rewrite ln_e10, ln_mult by lra.
    pose proof (ln_low (1 + / 100000000) ltac:(lra)) as G2.
    assert (K : IZR k * ln 10 <= (ln (Q2R q) / ln 10 + / 1000000000) * ln 10) by (apply Rmult_le_compat_r; lra).
    replace ((ln (Q2R q) / ln 10 + / 1000000000) * ln 10) with (ln (Q2R q) + / 1000000000 * ln 10) in K by (field; lra).
    assert (1 - / (1 + / 100000000) >= 999 / 100000000000); [|lra].
    replace (1 - / (1 + / 100000000)) with (/ 100000000 * / (1 + / 100000000)) by (field; lra).
    assert (/ (1 + / 1000) <= / (1 + / 100000000)) by (apply Rinv_le_contravar; lra). lra.
Qed.
Lemma f2i_bottom x : Rmin 0 (Q2R x) <= IZR (f2i x) \/ (f2i x = 2147483647)%Z.
Proof.
  unfold f2i, Q2R. set (z := Z.quot (Qnum x) (QDen x)). assert (P : 0 < IZR (QDen x)) by (apply IZR_lt; reflexivity).
  destruct (Z_lt_le_dec (Qnum x) 0) as [L|L].
  - left. apply (Rle_trans _ (IZR (Qnum x) * / IZR (QDen x))); [apply Rmin_r|]. apply (Rle_trans _ (IZR z)).
    + apply (Rmult_le_reg_r (IZR (QDen x))); [exact P|]. rewrite Rmult_assoc, Rinv_l, Rmult_1_r by lra. rewrite <- mult_IZR. apply IZR_le.
      unfold z. rewrite <- (Z.opp_involutive (Qnum x)), Z.quot_opp_l by lia. rewrite Z.quot_div_nonneg by lia.
      pose proof (Z.mul_div_le (- Qnum x) (QDen x) ltac:(lia)). lia.
    + apply IZR_le. assert (z <= 0)%Z; [|lia]. unfold z. rewrite <- (Z.opp_involutive (Qnum x)), Z.quot_opp_l by lia.
      pose proof (Z.quot_pos (- Qnum x) (QDen x) ltac:(lia) ltac:(lia)). lia.
  - left. apply (Rle_trans _ 0); [apply Rmin_l|]. apply IZR_le. assert (0 <= z)%Z by (apply Z.quot_pos; lia). lia.
Qed.

Lemma f2i_next x : Q2R x < IZR (f2i x) + 1 \/ (f2i x = 2147483647)%Z.
Proof.
  unfold f2i, Q2R. set (z := Z.quot (Qnum x) (QDen x)). assert (P : 0 < IZR (QDen x)) by (apply IZR_lt; reflexivity).
  assert (G : IZR (Qnum x) * / IZR (QDen x) < IZR z + 1).
  { apply (Rmult_lt_reg_r (IZR (QDen x))); [exact P|]. rewrite Rmult_assoc, Rinv_l, Rmult_1_r by lra.
    change 1 with (IZR 1). rewrite <- plus_IZR, <- mult_IZR. apply IZR_lt. unfold z.
    pose proof (Z.quot_rem' (Qnum x) (QDen x)) as E. pose proof (Z.rem_bound_abs (Qnum x) (QDen x) ltac:(lia)). lia. }
  destruct (Z_lt_le_dec z (-2147483648)) as [L|L]; [|destruct (Z_lt_le_dec 2147483647 z) as [L'|L']].
  - left. apply (Rlt_le_trans _ _ _ G). apply Rplus_le_compat_r, IZR_le. lia.
  - right. lia.
  - left. apply (Rlt_le_trans _ _ _ G). apply Rplus_le_compat_r, IZR_le. lia.
Qed.

(** the truncated decimal logarithm is less than one below *)
Lemma log10_bottom lg lnf q : logs_near lg lnf -> (0 < q)%Q -> f2i (lg q) <> 2147483647%Z -> Q2R q <= 10 * e10 (f2i (lg q)) * (1 + / 100000000).
Proof.
  intros N P F. pose proof (near_log10 _ _ N q P) as H. apply Rabs_between in H. destruct (f2i_next (lg q)) as [T|T]; [|congruence].
  apply Q2R_pos in P. pose proof ln_10_range as R. set (k := f2i (lg q)) in *. pose proof (e10_pos k) as Pk.
  assert (B : 0 < 10 * e10 k * (1 + / 100000000)) by (apply Rmult_lt_0_compat; lra).
  rewrite <- (exp_ln (Q2R q)) by exact P. rewrite <- (exp_ln (10 * e10 k * (1 + / 100000000))) by exact B.
  assert (G : ln (Q2R q) < ln (10 * e10 k * (1 + / 100000000))); [|left; now apply exp_increasing].
  rewrite !ln_mult, ln_e10 by lra. pose proof (ln_low (1 + / 100000000) ltac:(lra)) as G2.
  assert (K : ln (Q2R q) / ln 10 * ln 10 < (IZR k + 1 + / 1000000000) * ln 10) by (apply Rmult_lt_compat_r; lra).
  replace (ln (Q2R q) / ln 10 * ln 10) with (ln (Q2R q)) in K by (field; lra).
  assert (G3 : 1 - / (1 + / 100000000) > / 1000000000 * ln 10) by (assert (/ (1 + / 100000000) < 1 - 9 / 1000000000); [|lra]; apply (Rmult_lt_reg_r (1 + / 100000000)); [lra|]; rewrite Rinv_l by lra; lra).
  lra.
Qed.

Lemma i32_fits c z : (Z.abs z < 2147483648)%Z -> i32 c z = Ret z.
Proof. intro H. apply i32_ok. lia. Qed.

Lemma log10_i32_pos m q : (0 < q)%Q -> log10_i32 m q = f2i (f_log10 m q).
Proof.
  intro P. unfold log10_i32. destruct (Qeq_bool q 0) eqn:E; [|reflexivity]. apply Qeq_bool_iff in E. rewrite E in P. now apply Qlt_irrefl in P.
Qed.

Lemma ln_one_hi x : 9 / 10 <= x <= 11 / 10 -> Rabs (ln x) <= 10 / 9 * Rabs (x - 1).
Proof.
  intro H. destruct (Rle_lt_dec 1 x) as [L|L].
  - rewrite (Rabs_pos_eq (x - 1)) by lra. pose proof (ln_up x ltac:(lra)) as G. pose proof (ln_mono 1 x ltac:(lra) L) as G2. rewrite ln_1 in G2.
    rewrite Rabs_pos_eq by lra. lra.
  - rewrite (Rabs_left (x - 1)) by lra. pose proof (ln_low x ltac:(lra)) as G. pose proof (ln_mono x 1 ltac:(lra) (Rlt_le _ _ L)) as G2. rewrite ln_1 in G2.
    rewrite Rabs_left1 by lra. assert (/ x - 1 <= 10 / 9 * - (x - 1)); [|lra].
    replace (/ x - 1) with ((1 - x) * / x) by (field; lra). assert (/ x <= / (9 / 10)) by (apply Rinv_le_contravar; lra).
    replace (10 / 9 * - (x - 1)) with ((1 - x) * / (9 / 10)) by lra. apply Rmult_le_compat_l; lra.
Qed.

Lemma ln_one_lo x : 9 / 10 <= x <= 11 / 10 -> 10 / 11 * Rabs (x - 1) <= Rabs (ln x).
Proof.
  intro H. destruct (Rle_lt_dec 1 x) as [L|L].
  - rewrite (Rabs_pos_eq (x - 1)) by lra. pose proof (ln_low x ltac:(lra)) as G.
    assert (E : 10 / 11 * (x - 1) <= 1 - / x).
    { replace (1 - / x) with ((x - 1) * / x) by (field; lra). rewrite Rmult_comm. apply Rmult_le_compat_l; [lra|].
      replace (10 / 11) with (/ (11 / 10)) by lra. apply Rinv_le_contravar; lra. }
    pose proof (Rle_abs (ln x)). lra.
  - rewrite (Rabs_left (x - 1)) by lra. pose proof (ln_up x ltac:(lra)) as G. pose proof (Rle_abs (- ln x)) as K. rewrite Rabs_Ropp in K. lra.
Qed.

(** The estimate close to 1 *)
Lemma estimate_near c m v : logs_near (f_log10 m) (f_ln m) -> arg v -> 9 / 10 <= rv v <= 11 / 10 -> rv v <> 1 ->
  exists d, estimate_ln_dweight c m v = Ret d /\ (-500000 <= d <= 500000)%Z /\ e10 d <= Rabs (ln (rv v)) * (12 / 10) /\ Rabs (ln (rv v)) <= 23 * e10 d.
Proof.
  intros N A H N1. unfold estimate_ln_dweight. rewrite (nan_ok c v (sm_nan _ (ag_semi _ A))). cbn [bind].
  destruct (cmp_const c v _ A nine_st) as (lo & -> & Hlo). cbn [bind]. rewrite rv_nine in Hlo.
  assert (L : (0 <=? lo)%Z = true) by (apply Z.leb_le; destruct Hlo as [[-> K]|[[-> K]|[-> K]]]; [lia|lia|exfalso; lra]).
  rewrite L. destruct (cmp_const c v _ A eleven_st) as (hi & -> & Hhi). cbn [bind]. rewrite rv_eleven in Hhi.
  assert (U : (hi <=? 0)%Z = true) by (apply Z.leb_le; destruct Hhi as [[-> K]|[[-> K]|[-> K]]]; [lia|exfalso; lra|lia]).
  rewrite U. cbn [andb].
  destruct (sub_op c v ONE (ag_semi _ A) (stripped_semi _ one_st0) (ag_scale _ A) ltac:(cbn; lia)) as (r & -> & T & _ & V). cbn [bind].
  assert (R : rv r = rv v - 1) by (rewrite (rv_eq _ _ V), Q2R_minus; fold (rv v); fold (rv ONE); rewrite rv_one; ring).
  assert (Nr : digits r <> []).
  { intro E. assert (rv r = 0) by (rewrite (rv_eq _ _ (vval_empty r E)); apply RMicromega.Q2R_0). lra. }
  pose proof (proj2 T Nr) as Sr. unfold ndigits. destruct (digits r) as [|dg t] eqn:E; [congruence|]. clear Nr.
  assert (Lr : (0 <? lenz (dg :: t))%Z = true) by (apply Z.ltb_lt; rewrite lenz_cons; pose proof (lenz_nonneg t); lia).
  rewrite Lr. change (index (dg :: t) 0) with (Ret dg). cbn [bind].
  destruct (lead_digit r dg t Sr E) as [B1 B2]. pose proof (Forall_inv (eq_ind _ (Forall dig) (st_digits r Sr) _ E)) as Bd.
  pose proof (st_first r Sr dg t E) as Dn. unfold dig in Bd.
  assert (Pd : (0 < inject_Z dg)%Q) by (change 0%Q with (inject_Z 0); rewrite <- Zlt_Qlt; lia).
  rewrite (log10_i32_pos m _ Pd). pose proof (log10_top _ _ _ N Pd) as Tp. rewrite Q2R_Z in Tp.
  pose proof (near_log10 _ _ N _ Pd) as Nl. rewrite Q2R_Z in Nl. apply Rabs_between in Nl.
  assert (D1 : 1 <= IZR dg <= 9999) by (split; apply IZR_le; lia).
  pose proof ln_10_range as R10.
  assert (Lg : 0 <= ln (IZR dg) / ln 10).
  { unfold Rdiv. apply Rmult_le_pos; [rewrite <- ln_1; apply ln_mono; lra|left; apply Rinv_0_lt_compat; lra]. }
  set (k := f2i (f_log10 m (inject_Z dg))) in *.
  assert (Tk : e10 k <= IZR dg * (1 + / 100000000)).
  { eapply Rle_trans; [exact Tp|]. apply Rmax_lub; lra. }
  assert (K : (-1 <= k <= 4)%Z).
  { split.
    - destruct (f2i_bottom (f_log10 m (inject_Z dg))) as [G|G]; fold k in G; [|lia].
      apply le_IZR. change (IZR (-1)) with (-1). apply (Rle_trans _ (Rmin 0 (Q2R (f_log10 m (inject_Z dg))))); [|exact G].
      apply Rmin_glb; lra.
    - destruct (Z_le_gt_dec k 4) as [G|G]; [exact G|exfalso]. assert (Q : e10 5 <= e10 k) by (apply e10_le; lia).
      replace (e10 5) with 100000 in Q by (unfold powerRZ; replace (Pos.to_nat 5) with 5%nat by reflexivity; cbn [pow]; ring). lra. }
  change DEC_DIGITS with 4%Z.
  assert (Wr : (-100010 <= weight r <= 0)%Z).
  { split.
    - set (s := Z.max 0 (- (4 * lsd v))). assert (Hs : (0 <= s <= 4 * 100010)%Z).
      { unfold s, lsd. pose proof (ag_len _ A) as Lv.
        assert (-1 <= weight v)%Z; [|unfold ndigits in *; pose proof (lenz_nonneg (digits v)); lia].
        destruct (arg_range v A) as [_ Hi]. apply Qlt_Rlt in Hi. rewrite Q2R_p10 in Hi. fold (rv v) in Hi.
        destruct (Z_le_gt_dec (-1) (weight v)) as [G|G]; [exact G|exfalso].
        assert (Q : e10 (4 * (weight v + 1)) <= e10 (-1)) by (apply e10_le; lia). rewrite e10_m1 in Q. lra. }
      assert (M : mult (vval r) s).
      { apply (mult_comp _ _ _ (Qeq_sym _ _ V)). apply mult_sub; [apply mult_self|].
        apply (mult_up _ 0); [lia|]. apply (mult_comp (inject_Z 1)); [vm_compute; reflexivity|]. apply mult_Z. lia. }
      destruct (semi_range r (proj1 T) ltac:(congruence)) as [_ Up].
      assert (Lo : (p10 (- s) <= Qabs (vval r))%Q).
      { apply mult_lb; [exact M|]. intro Z. apply (semi_zero_iff r (proj1 T)) in Z. congruence. }
      pose proof (Qle_lt_trans _ _ _ Lo Up) as Q. apply (proj1 (p10_lt_iff _ _)) in Q. lia.
    - apply (semi_weight r 0); [apply T|lia|]. apply rv_lt_Q. rewrite Q2R_p10, R.
      assert (Q : e10 0 <= e10 (4 * (0 + 1))) by (apply e10_le; lia). change (e10 0) with 1 in Q.
      apply (Rlt_le_trans _ 1); [|exact Q]. apply Rabs_def1; lra. }
  exists (weight r * 4 + k)%Z. split; [apply i32_fits; lia|]. split; [lia|].
  apply Qle_Rle in B1. rewrite Q2R_mult, Q2R_Z, Q2R_p10, Q2R_abs in B1. fold (rv r) in B1. rewrite R in B1.
  rewrite e10_add. replace (weight r * 4)%Z with (4 * weight r)%Z by lia. pose proof (e10_pos (4 * weight r)) as Pw.
  pose proof (ln_one_lo (rv v) H) as Ll.
  assert (G : e10 (4 * weight r) * e10 k <= e10 (4 * weight r) * (IZR dg * (1 + / 100000000))) by (apply Rmult_le_compat_l; lra).
  replace (e10 (4 * weight r) * (IZR dg * (1 + / 100000000))) with (IZR dg * e10 (4 * weight r) * (1 + / 100000000)) in G by ring.
  split.
  - set (y := IZR dg * e10 (4 * weight r)) in *. clearbody y. pose proof (Rabs_pos (ln (rv v))). lra.
  - pose proof (log10_bottom _ _ _ N Pd ltac:(fold k; lia)) as Bt. fold k in Bt. rewrite Q2R_Z in Bt.
    apply Qlt_Rlt in B2. rewrite Q2R_abs, Q2R_mult, Q2R_Z, Q2R_p10 in B2. fold (rv r) in B2. rewrite R in B2.
    pose proof (ln_one_hi (rv v) H) as Lh. rewrite plus_IZR in B2. change (IZR 1) with 1 in B2.
    assert (B3 : (IZR dg + 1) * e10 (4 * weight r) <= (20 * e10 k * (1 + / 100000000)) * e10 (4 * weight r)).
    { apply Rmult_le_compat_r; [left; exact Pw|]. lra. }
    replace ((20 * e10 k * (1 + / 100000000)) * e10 (4 * weight r)) with (20 * (1 + / 100000000) * (e10 (4 * weight r) * e10 k)) in B3 by ring.
    pose proof (Rmult_lt_0_compat _ _ Pw (e10_pos k)) as Pz. set (z := e10 (4 * weight r) * e10 k) in *. lra.
Qed.

(** ** The estimate away from 1 *)
Lemma lead_two v d d' t : stripped v -> digits v = d :: d' :: t ->
  (inject_Z (d * 10000 + d') * p10 (4 * weight v - 4) <= Qabs (vval v))%Q /\
  (Qabs (vval v) <= inject_Z (d * 10000 + d' + 1) * p10 (4 * weight v - 4))%Q.
Proof.
  intros S E. pose proof (st_digits v S) as D. rewrite (Qabs_vval v D). pose proof D as D'. rewrite E in D'.
  pose proof (dval_bound t (Forall_inv_tail (Forall_inv_tail D'))) as Bt.
  pose proof (lenz_nonneg t) as Lt.
  assert (M : (mag v = (d * 10000 + d') * 10000 ^ lenz t + dval t)%Z).
  { unfold mag. rewrite E, !dval_cons, lenz_cons. rewrite !pB_ten in * by lia. replace (4 * (1 + lenz t))%Z with (4 + 4 * lenz t)%Z by lia.
    rewrite Z.pow_add_r by lia. change (10 ^ 4)%Z with 10000%Z. ring. }
  assert (W : (4 * weight v - 4 = 4 * lsd v + 4 * lenz t)%Z) by (unfold lsd, ndigits; rewrite E, !lenz_cons; lia).
  rewrite W, pB_ten in * by lia.
  change (inject_Z (d * 10000 + d') * p10 (4 * lsd v + 4 * lenz t))%Q with (dec (d * 10000 + d') (4 * lsd v + 4 * lenz t)).
  change (inject_Z (d * 10000 + d' + 1) * p10 (4 * lsd v + 4 * lenz t))%Q with (dec (d * 10000 + d' + 1) (4 * lsd v + 4 * lenz t)).
  rewrite <- !dec_shift by lia.
  split; apply dec_le_iff; nia.
Qed.

(** the two leading digits *)
Lemma leading v : arg v -> stripped v -> exists D e,
  (d0 <- index (digits v) 0 ;;
   (if (1 <? ndigits v)%Z then d1 <- index (digits v) 1 ;; Ret (d0 * NBASE + d1, weight v * DEC_DIGITS - DEC_DIGITS)%Z
    else Ret (d0, weight v * DEC_DIGITS)%Z)) = Ret (D, e) /\
  (1 <= D < 100000000)%Z /\ (-16400 <= e <= 131072)%Z /\
  IZR D * e10 e <= rv v <= IZR D * e10 e * (1 + / 10000).
Proof.
  intros A S. pose proof (arg_nz v A) as Nv. pose proof (ag_wt _ A) as W. pose proof (arg_rv v A) as Pv.
  assert (Ab : Q2R (Qabs (vval v)) = rv v) by (rewrite Q2R_abs; fold (rv v); apply Rabs_pos_eq; lra).
  destruct (digits v) as [|d t] eqn:E; [congruence|]. clear Nv.
  pose proof (eq_ind _ (Forall dig) (st_digits v S) _ E) as F. pose proof (Forall_inv F) as Bd. pose proof (st_first v S d t E) as Dn. unfold dig in Bd.
  change (index (d :: t) 0) with (Ret d). cbn [bind]. unfold ndigits. rewrite E. change NBASE with 10000%Z. change DEC_DIGITS with 4%Z.
  destruct t as [|d' t].
  - change (1 <? lenz [d])%Z with false. cbv iota. exists d, (weight v * 4)%Z. split; [reflexivity|]. split; [lia|]. split; [lia|].
    assert (V : (Qabs (vval v) == inject_Z d * p10 (4 * weight v))%Q).
    { rewrite (Qabs_vval v (st_digits v S)). unfold mag, lsd, ndigits. rewrite E. change (lenz [d]) with 1%Z.
      replace (weight v + 1 - 1)%Z with (weight v) by lia. rewrite dval_cons. change (lenz (@nil Z)) with 0%Z. rewrite Z.pow_0_r.
      change (dval []) with 0%Z. replace (d * 1 + 0)%Z with d by lia. reflexivity. }
    apply Qeq_eqR in V. rewrite Ab, Q2R_mult, Q2R_Z, Q2R_p10 in V. replace (weight v * 4)%Z with (4 * weight v)%Z by lia. rewrite V in *.
    assert (0 <= IZR d * e10 (4 * weight v) * / 10000) by (apply Rmult_le_pos; lra). lra.
  - pose proof (Forall_inv (Forall_inv_tail F)) as Bd'. unfold dig in Bd'.
    assert (L : (1 <? lenz (d :: d' :: t))%Z = true) by (apply Z.ltb_lt; rewrite !lenz_cons; pose proof (lenz_nonneg t); lia).
    rewrite L. change (index (d :: d' :: t) 1) with (Ret d'). cbn [bind].
    exists (d * 10000 + d')%Z, (weight v * 4 - 4)%Z. split; [reflexivity|]. split; [lia|]. split; [lia|].
    destruct (lead_two v d d' t S E) as [B1 B2]. apply Qle_Rle in B1, B2. rewrite Ab, Q2R_mult, Q2R_Z, Q2R_p10 in B1, B2.
    replace (weight v * 4 - 4)%Z with (4 * weight v - 4)%Z by lia. split; [exact B1|].
    eapply Rle_trans; [exact B2|]. rewrite plus_IZR. pose proof (e10_pos (4 * weight v - 4)) as Pe.
    rewrite (Rmult_assoc _ _ (1 + / 10000)), (Rmult_comm (e10 _)), <- Rmult_assoc. apply Rmult_le_compat_r; [lra|].
    assert (10000 <= IZR (d * 10000 + d')) by (apply IZR_le; lia). lra.
Qed.

Lemma fl_R x e : Rabs (Q2R x) <= IZR e -> Rabs (Q2R (fl x) - Q2R x) <= IZR e * / 9007199254740992.
Proof.
  intro H. assert (B : (Qabs x <= inject_Z e)%Q) by (apply Rle_Qle; rewrite Q2R_abs, Q2R_Z; exact H).
  pose proof (fl_bounds x _ B) as K. apply Qabs_le_R in K. rewrite Q2R_minus, Q2R_mult, Q2R_Z in K.
  replace (Q2R (1 # 9007199254740992)) with (/ 9007199254740992) in K; [exact K|]. unfold Q2R. cbn [Qnum Qden]. lra.
Qed.

Lemma ln_float lg lnf D e y : logs_near lg lnf -> (1 <= D < 100000000)%Z -> (-16400 <= e <= 131072)%Z ->
  IZR D * e10 e <= y <= IZR D * e10 e * (1 + / 10000) ->
  Rabs (Q2R (fadd (lnf (inject_Z D)) (fmul (inject_Z e) LN_10)) - ln y) <= 12 / 100000.
Proof.
  intros N HD He Hy. pose proof (near_ln _ _ N D HD) as A. apply Rabs_between in A. pose proof LN_10_near as B. pose proof ln_10_range as R.
  assert (D1 : 1 <= IZR D <= 100000000) by (split; apply IZR_le; lia). pose proof (e10_pos e) as Pe.
  assert (E1 : -16400 <= IZR e <= 131072) by (split; apply IZR_le; lia).
  assert (P0 : 0 < IZR D * e10 e) by (apply Rmult_lt_0_compat; lra).
  assert (L0 : ln (IZR D * e10 e) = ln (IZR D) + IZR e * ln 10) by (rewrite ln_mult, ln_e10 by lra; reflexivity).
  pose proof (ln_mono _ _ P0 (proj1 Hy)) as G1. pose proof (ln_mono y _ ltac:(lra) (proj2 Hy)) as G2.
  rewrite ln_mult in G2 by lra. rewrite L0 in G1, G2. pose proof (ln_up (1 + / 10000) ltac:(lra)) as G3.
  assert (LD : 0 <= ln (IZR D) <= 20).
  { split; [rewrite <- ln_1; apply ln_mono; lra|]. assert (K : ln (IZR D) <= ln (e10 8)).
    { apply ln_mono; [lra|]. replace (e10 8) with 100000000; [lra|].
      unfold powerRZ. replace (Pos.to_nat 8) with 8%nat by reflexivity. cbn [pow]. ring. }
    rewrite ln_e10 in K. lra. }
  (* the product *)
  assert (Ee : Rabs (IZR e) <= 131072) by (apply Rabs_le; lra).
  pose proof (Rabs_mul_le _ _ _ _ Ee B) as M. replace (IZR e * (Q2R LN_10 - ln 10)) with (IZR e * Q2R LN_10 - IZR e * ln 10) in M by ring.
  apply Rabs_between in M.
  assert (EL : -37770 <= IZR e * ln 10 <= 301860).
  { split.
    - apply (Rle_trans _ (-16400 * ln 10)); [lra|]. apply Rmult_le_compat_r; lra.
    - apply (Rle_trans _ (131072 * ln 10)); [apply Rmult_le_compat_r; lra|lra]. }
  assert (F1 : Rabs (Q2R (inject_Z e * LN_10)) <= IZR 310000).
  { rewrite Q2R_mult, Q2R_Z. apply Rabs_le. lra. }
  pose proof (fl_R _ _ F1) as F2. rewrite Q2R_mult, Q2R_Z in F2. apply Rabs_between in F2. unfold fadd, fmul.
  set (p := fl (inject_Z e * LN_10)) in *.
  assert (F3 : Rabs (Q2R (lnf (inject_Z D) + p)) <= IZR 320000).
  { rewrite Q2R_plus. apply Rabs_le. lra. }
  pose proof (fl_R _ _ F3) as F4. rewrite Q2R_plus in F4. apply Rabs_between in F4. apply Rabs_le. lra.
Qed.

Lemma estimate_far c m v : logs_near (f_log10 m) (f_ln m) -> arg v -> stripped v -> rv v < 9 / 10 \/ 11 / 10 < rv v ->
  exists d, estimate_ln_dweight c m v = Ret d /\ (-500000 <= d <= 500000)%Z /\ e10 d <= Rabs (ln (rv v)) * (111 / 10) /\ Rabs (ln (rv v)) <= 23 * e10 d /\
    e10 d <= Rmax 1 (Rabs (ln (rv v)) * (1001 / 1000)).
Proof.
  intros N A S H. unfold estimate_ln_dweight. rewrite (nan_ok c v (sm_nan _ (ag_semi _ A))). cbn [bind].
  destruct (cmp_const c v _ A nine_st) as (lo & -> & Hlo). cbn [bind]. rewrite rv_nine in Hlo.
  assert (HH : exists hi, (if (0 <=? lo)%Z then cmp_common c v ONE_POINT_ONE else Ret 1%Z) = Ret hi /\ ((0 <=? lo) && (hi <=? 0) = false)%Z).
  { destruct Hlo as [[-> K]|[[-> K]|[-> K]]]; cbn [Z.leb Z.compare]; [| |now exists 1%Z].
    - exfalso. lra.
    - destruct (cmp_const c v _ A eleven_st) as (hi & -> & Hhi). rewrite rv_eleven in Hhi. exists hi. split; [reflexivity|].
      destruct Hhi as [[-> K']|[[-> K']|[-> K']]]; [exfalso; lra|reflexivity|exfalso; lra]. }
  destruct HH as (hi & -> & Eb). cbn [bind]. rewrite Eb.
  pose proof (arg_nz v A) as Nv.
  assert (Lv : (0 <? ndigits v)%Z = true).
  { apply Z.ltb_lt. unfold ndigits. destruct (digits v); [congruence|]. rewrite lenz_cons. pose proof (lenz_nonneg l). lia. }
  rewrite Lv. destruct (leading v A S) as (D & e & E & HD & He & Hy).
  destruct (index (digits v) 0) as [d0|w| |]; cbn [bind] in E |- *; try discriminate. rewrite E. cbn [bind].
  pose proof (ln_float _ _ D e (rv v) N HD He Hy) as Er. set (Y := fadd (f_ln m (inject_Z D)) (fmul (inject_Z e) LN_10)) in *.
  assert (Ll : 9 / 100 <= Rabs (ln (rv v))).
  { destruct H as [H|H].
    - pose proof (ln_nine (rv v) ltac:(pose proof (arg_rv v A); lra)). rewrite Rabs_left; lra.
    - pose proof (ln_eleven (rv v) ltac:(lra)). rewrite Rabs_pos_eq; lra. }
  assert (Ll2 : 909 / 10000 <= Rabs (ln (rv v))).
  { destruct H as [H|H].
    - pose proof (ln_nine (rv v) ltac:(pose proof (arg_rv v A); lra)). rewrite Rabs_left; lra.
    - pose proof (ln_eleven (rv v) ltac:(lra)). rewrite Rabs_pos_eq; lra. }
  pose proof (Rabs_triang_inv (ln (rv v)) (Q2R Y)) as T1. rewrite Rabs_minus_sym in T1.
  pose proof (Rabs_triang_inv (Q2R Y) (ln (rv v))) as T2.
  pose proof (Rabs_ln_arg v A) as Bl. set (l := Rabs (ln (rv v))) in *.
  assert (EY : Q2R (Qabs Y) = Rabs (Q2R Y)) by apply Q2R_abs.
  assert (PY : (0 < Qabs Y)%Q).
  { apply Rlt_Qlt. rewrite RMicromega.Q2R_0, EY. lra. }
  rewrite (log10_i32_pos m _ PY). pose proof (log10_top _ _ _ N PY) as Tp. rewrite EY in Tp.
  pose proof (near_log10 _ _ N _ PY) as Nl. rewrite EY in Nl. apply Rabs_between in Nl.
  set (k := f2i (f_log10 m (Qabs Y))) in *. exists k. split; [reflexivity|].
  assert (Tk : e10 k <= l * (111 / 10)) by (eapply Rle_trans; [exact Tp|]; apply Rmax_lub; lra).
  assert (HK : (-500000 <= k <= 500000)%Z).
  2:{ split; [exact HK|]. split; [exact Tk|]. pose proof (log10_bottom _ _ _ N PY ltac:(fold k; lia)) as Bt. fold k in Bt. rewrite EY in Bt.
      pose proof (e10_pos k). split; [lra|]. eapply Rle_trans; [exact Tp|]. apply Rmax_lub; [apply Rmax_l|].
      destruct (Rle_lt_dec l (2 / 10)) as [Ls|Ls]; [eapply Rle_trans; [|apply Rmax_l]; lra|eapply Rle_trans; [|apply Rmax_r]; lra]. }
  pose proof ln_10_range as R10. split.
  - destruct (f2i_bottom (f_log10 m (Qabs Y))) as [G|G]; fold k in G; [|lia].
    apply le_IZR. apply (Rle_trans _ (Rmin 0 (Q2R (f_log10 m (Qabs Y))))); [|exact G]. apply Rmin_glb; [lra|].
    assert (ln (/ 100) <= ln (Rabs (Q2R Y))) as K1 by (apply ln_mono; lra).
    pose proof (ln_low (/ 100) ltac:(lra)) as K2. rewrite Rinv_inv in K2.
    assert (K3 : -100 * / ln 10 <= ln (Rabs (Q2R Y)) * / ln 10).
    { apply Rmult_le_compat_r; [left; apply Rinv_0_lt_compat; lra|lra]. }
    assert (K4 : / ln 10 <= / 1) by (apply Rinv_le_contravar; lra). unfold Rdiv in Nl. lra.
  - destruct (Z_le_gt_dec k 500000) as [G|G]; [exact G|exfalso]. assert (Q : e10 9 <= e10 k) by (apply e10_le; lia).
    replace (e10 9) with 1000000000 in Q by (unfold powerRZ; replace (Pos.to_nat 9) with 9%nat by reflexivity; cbn [pow]; ring). lra.
Qed.

Lemma estimate_any c m v : logs_near (f_log10 m) (f_ln m) -> arg v -> stripped v -> rv v <> 1 ->
  exists d, estimate_ln_dweight c m v = Ret d /\ (-500000 <= d <= 500000)%Z /\ e10 d <= Rabs (ln (rv v)) * (111 / 10) /\ Rabs (ln (rv v)) <= 23 * e10 d /\
    e10 d <= Rmax 1 (Rabs (ln (rv v)) * (1001 / 1000)).
Proof.
  intros N A S N1. destruct (Rlt_le_dec (rv v) (9 / 10)) as [L|L]; [apply estimate_far; auto|].
  destruct (Rlt_le_dec (11 / 10) (rv v)) as [G|G]; [apply estimate_far; auto|].
  destruct (estimate_near c m v N A ltac:(lra) N1) as (d & E & B & K & K'). exists d. split; [exact E|]. split; [exact B|].
  pose proof (Rabs_pos (ln (rv v))). split; [lra|]. split; [exact K'|]. pose proof (ln_one_hi (rv v) ltac:(lra)) as Hi.
  assert (Rabs (rv v - 1) <= / 10) by (apply Rabs_le; lra). eapply Rle_trans; [|apply Rmax_l]. lra.
Qed.

Theorem ln_api_digits c m fuel x q s y : logs_near (f_log10 m) (f_ln m) -> stores (be_varlen c) x q s -> (0 < q)%Q -> ~ (q == 1)%Q ->
  num_ln c m fuel x = Ret y ->
  exists r s', stores (be_varlen c) y r s' /\ (s' = 1000%Z \/ 900000000000000 <= Rabs (ln (Q2R q)) * powerRZ 10 s').
Proof.
  intros N H Q N1. destruct (stores_elim _ _ _ _ H) as (v & C & -> & V & E). pose proof (canon_storable v C) as St.
  unfold num_ln. rewrite (num_is_nan_spec c v St). cbn [bind]. rewrite (as_var_spec c v St). cbn [bind].
  assert (P : (0 < vval v)%Q) by now rewrite V. pose proof (canon_arg v C P) as A.
  assert (R1 : rv v <> 1).
  { intro K. apply N1. rewrite <- V. apply eqR_Qeq. rewrite RMicromega.Q2R_1. exact K. }
  destruct (estimate_any c m v N A (cn_st v C) R1) as (d & Ed & Bd & Kd & _).
  destruct (ln_var_spec c m fuel v C P) as [->|[[-> D]|(d' & rs & r & Ed' & (dx & Ex & Ers) & -> & T & Dr & M & Er)]]; cbn [bind];
    [discriminate|discriminate|].
  assert (d' = d) as -> by congruence. rewrite i32_fits in Ex by lia. assert (Edx : dx = (16 - d)%Z) by congruence.
  pose proof (cn_scale v C) as Sv. pose proof (Rabs_ln_arg v A) as Bl.
  pose proof (ln_weight r rs _ T ltac:(lia) Bl Er) as W.
  destruct (make_no_overflow_spec c r) as (z & Ez & Sz).
  { apply T. } { apply T. } { lia. } { rewrite Dr. exact M. } { lia. }
  rewrite Ez. intro I. injection I as <-. exists (vval r), rs. split; [rewrite <- Dr; exact Sz|].
  destruct (Z.eq_dec rs 1000) as [K|K]; [now left|right].
  rewrite <- (Qeq_eqR _ _ V). fold (rv v).
  assert (G : e10 (16 - d) <= e10 rs) by (apply e10_le; lia).
  pose proof (e10_opp d) as O. pose proof (e10_pos d) as P1. pose proof (e10_pos (- d)) as P2.
  assert (E16 : e10 (16 - d) = 10000000000000000 * e10 (- d)).
  { replace (16 - d)%Z with (16 + - d)%Z by lia. rewrite e10_add. f_equal.
    unfold powerRZ. replace (Pos.to_nat 16) with 16%nat by reflexivity. cbn [pow]. ring. }
  set (l := Rabs (ln (rv v))) in *. assert (L0 : 0 <= l) by apply Rabs_pos.
  assert (G2 : l * e10 (16 - d) <= l * e10 rs) by (apply Rmult_le_compat_l; lra).
  assert (G3 : e10 d * e10 (- d) <= l * (111 / 10) * e10 (- d)) by (apply Rmult_le_compat_r; lra).
  rewrite O in G3. rewrite E16 in G2. set (z2 := l * e10 (- d)).
  replace (l * (111 / 10) * e10 (- d)) with (111 / 10 * z2) in G3 by (unfold z2; ring).
  replace (l * (10000000000000000 * e10 (- d))) with (10000000000000000 * z2) in G2 by (unfold z2; ring). lra.
Qed.

(** such logarithms exist *)
Definition sample_log10 (q : Q) : Q := Qmake (up (10000000000 * (ln (Q2R q) / ln 10))) 10000000000.
Definition sample_ln (q : Q) : Q := Qmake (up (10000000000 * ln (Q2R q))) 10000000000.
Lemma up_near r : Rabs (Q2R (Qmake (up (10000000000 * r)) 10000000000) - r) <= / 1000000000.
Proof.
  unfold Q2R. cbn [Qnum Qden]. destruct (archimed (10000000000 * r)) as [A B]. set (z := IZR (up (10000000000 * r))) in *. clearbody z.
  apply Rabs_le. lra.
Qed.
Lemma logs_near_sample : logs_near sample_log10 sample_ln.
Proof.
  constructor.
  - intros a _. unfold sample_ln. rewrite Q2R_Z. apply up_near.
  - intros q _. apply up_near.
Qed.
