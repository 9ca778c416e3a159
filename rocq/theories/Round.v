(** * Round: round_common and trunc_common are decimal rounding and truncation. *)
From Coq Require Import ZArith QArith Qround Qpower Qabs List Bool Lia.
From Verif Require Import Base Var Spec QDec Digits Arith Strip.
Import ListNotations.
Open Scope Z_scope.

(** ** Rounding of decimal rationals, in integers *)
Lemma round_int_comp q r : (q == r)%Q -> round_int q = round_int r.
Proof.
  intro E. unfold round_int. destruct (Qlt_le_dec q 0) as [A|A], (Qlt_le_dec r 0) as [B|B].
  - f_equal. apply Qfloor_comp. now rewrite E.
  - rewrite E in A. exfalso. apply (Qlt_not_le _ _ A B).
  - rewrite E in A. exfalso. apply (Qlt_not_le _ _ B A).
  - apply Qfloor_comp. now rewrite E.
Qed.

Lemma trunc_int_comp q r : (q == r)%Q -> trunc_int q = trunc_int r.
Proof.
  intro E. unfold trunc_int. destruct (Qlt_le_dec q 0) as [A|A], (Qlt_le_dec r 0) as [B|B].
  - f_equal. apply Qfloor_comp. now rewrite E.
  - rewrite E in A. exfalso. apply (Qlt_not_le _ _ A B).
  - rewrite E in A. exfalso. apply (Qlt_not_le _ _ B A).
  - apply Qfloor_comp. now rewrite E.
Qed.

Global Instance round_int_proper : Proper (Qeq ==> eq) round_int.
Proof. intros q r E. now apply round_int_comp. Qed.
Global Instance trunc_int_proper : Proper (Qeq ==> eq) trunc_int.
Proof. intros q r E. now apply trunc_int_comp. Qed.

Lemma round_at_comp q r s : (q == r)%Q -> (round_at q s == round_at r s)%Q.
Proof. intro E. unfold round_at. now rewrite E. Qed.
Lemma trunc_at_comp q r s : (q == r)%Q -> (trunc_at q s == trunc_at r s)%Q.
Proof. intro E. unfold trunc_at. now rewrite E. Qed.

Lemma dec_neg_iff m e : (dec m e < 0)%Q <-> m < 0.
Proof. rewrite <- (dec_0 e). apply dec_lt_iff. Qed.

Lemma half_dec r : 0 < r -> ((1 # 2) == dec (5 * 10 ^ (r - 1)) (- r))%Q.
Proof.
  intro H. rewrite dec_shift by lia. replace (- r + (r - 1)) with (-1) by lia. reflexivity.
Qed.

(** magnitude rounding: drop [r] decimal digits *)
Definition rdiv (m r : Z) : Z := (m + 5 * 10 ^ (r - 1)) / 10 ^ r.

Lemma round_int_neg m r : 0 < r -> round_int (dec m (- r)) = Z.sgn m * rdiv (Z.abs m) r.
Proof.
  intro H. unfold round_int, rdiv. destruct (Qlt_le_dec (dec m (- r)) 0) as [A|A].
  - apply dec_neg_iff in A.
    rewrite (Qfloor_comp (- dec m (- r) + (1#2)) (dec (- m + 5 * 10 ^ (r - 1)) (- r))).
    + rewrite Qfloor_dec_neg by lia. rewrite Z.abs_neq, Z.sgn_neg by lia. lia.
    + rewrite dec_opp, (half_dec r H), dec_add. reflexivity.
  - assert (B : 0 <= m).
    { destruct (Z_lt_le_dec m 0) as [L|L]; [|exact L]. apply (dec_neg_iff m (-r)) in L.
      exfalso. apply (Qlt_not_le _ _ L A). }
    rewrite (Qfloor_comp (dec m (- r) + (1#2)) (dec (m + 5 * 10 ^ (r - 1)) (- r))).
    + rewrite Qfloor_dec_neg by lia. rewrite Z.abs_eq by lia.
      destruct (Z.eq_dec m 0) as [->|N].
      * cbn [Z.sgn Z.add]. rewrite Z.mul_0_l. apply Z.div_small.
        pose proof (pT_pos (r - 1) ltac:(lia)).
        replace (10 ^ r) with (10 * 10 ^ (r - 1)) by (rewrite <- Z.pow_succ_r by lia; f_equal; lia). lia.
      * rewrite Z.sgn_pos by lia. lia.
    + rewrite (half_dec r H), dec_add. reflexivity.
Qed.

Lemma round_int_Z k : round_int (inject_Z k) = k.
Proof.
  assert (E : (inject_Z k == dec (k * 10 ^ 1) (-(1)))%Q).
  { rewrite dec_shift by lia. now rewrite dec_Z. }
  rewrite E, round_int_neg by lia. unfold rdiv. change (10 ^ (1 - 1)) with 1. change (10 ^ 1) with 10.
  rewrite Z.abs_mul, Z.sgn_mul. change (Z.abs 10) with 10. change (Z.sgn 10) with 1.
  replace (Z.abs k * 10 + 5 * 1) with (5 + Z.abs k * 10) by lia.
  rewrite Z.div_add by lia. change (5 / 10) with 0. lia.
Qed.

Lemma trunc_int_neg m r : 0 <= r -> trunc_int (dec m (- r)) = Z.sgn m * (Z.abs m / 10 ^ r).
Proof.
  intro H. unfold trunc_int. destruct (Qlt_le_dec (dec m (- r)) 0) as [A|A].
  - apply dec_neg_iff in A.
    rewrite (Qfloor_comp (- dec m (- r)) (dec (- m) (- r))) by apply dec_opp.
    rewrite Qfloor_dec_neg by lia. rewrite Z.abs_neq, Z.sgn_neg by lia. lia.
  - assert (B : 0 <= m).
    { destruct (Z_lt_le_dec m 0) as [L|L]; [|exact L]. apply (dec_neg_iff m (-r)) in L.
      exfalso. apply (Qlt_not_le _ _ L A). }
    rewrite Qfloor_dec_neg by lia. rewrite Z.abs_eq by lia.
    destruct (Z.eq_dec m 0) as [->|N].
    + rewrite Z.div_0_l by (pose proof (pT_pos r H); lia). reflexivity.
    + rewrite Z.sgn_pos by lia. lia.
Qed.

Lemma trunc_int_Z k : trunc_int (inject_Z k) = k.
Proof.
  assert (E : (inject_Z k == dec k (-(0)))%Q) by (now rewrite dec_Z).
  rewrite E, trunc_int_neg by lia. change (10 ^ 0) with 1. rewrite Z.div_1_r. lia.
Qed.

(** rounding a value that is already integral at the scale *)
Lemma round_at_exact q s k : (q * p10 s == inject_Z k)%Q -> (round_at q s == q)%Q.
Proof.
  intro E. unfold round_at. change (ten ^ s)%Q with (p10 s). change (ten ^ (- s))%Q with (p10 (- s)).
  rewrite E, round_int_Z, <- E. rewrite <- Qmult_assoc, p10_opp. ring.
Qed.
Lemma trunc_at_exact q s k : (q * p10 s == inject_Z k)%Q -> (trunc_at q s == q)%Q.
Proof.
  intro E. unfold trunc_at. change (ten ^ s)%Q with (p10 s). change (ten ^ (- s))%Q with (p10 (- s)).
  rewrite E, trunc_int_Z, <- E. rewrite <- Qmult_assoc, p10_opp. ring.
Qed.

Lemma round_at_frac q s : exists k, (round_at q s * p10 s == inject_Z k)%Q.
Proof.
  exists (round_int (q * ten ^ s)). unfold round_at. change (ten ^ (- s))%Q with (p10 (- s)).
  rewrite <- Qmult_assoc, (Qmult_comm (p10 (-s))), p10_opp. ring.
Qed.
Lemma trunc_at_frac q s : exists k, (trunc_at q s * p10 s == inject_Z k)%Q.
Proof.
  exists (trunc_int (q * ten ^ s)). unfold trunc_at. change (ten ^ (- s))%Q with (p10 (- s)).
  rewrite <- Qmult_assoc, (Qmult_comm (p10 (-s))), p10_opp. ring.
Qed.

Lemma round_at_dec_neg m e s r : e + s = - r -> 0 < r ->
  (round_at (dec m e) s == dec (Z.sgn m * rdiv (Z.abs m) r) (- s))%Q.
Proof.
  intros E H. unfold round_at. change (ten ^ s)%Q with (p10 s). change (ten ^ (- s))%Q with (p10 (- s)).
  rewrite dec_p10, E, round_int_neg by lia. reflexivity.
Qed.

Lemma trunc_at_dec_neg m e s r : e + s = - r -> 0 <= r ->
  (trunc_at (dec m e) s == dec (Z.sgn m * (Z.abs m / 10 ^ r)) (- s))%Q.
Proof.
  intros E H. unfold trunc_at. change (ten ^ s)%Q with (p10 s). change (ten ^ (- s))%Q with (p10 (- s)).
  rewrite dec_p10, E, trunc_int_neg by lia. reflexivity.
Qed.

Lemma round_at_dec_pos m e s : 0 <= e + s -> (round_at (dec m e) s == dec m e)%Q.
Proof.
  intro H. apply (round_at_exact _ _ (m * 10 ^ (e + s))). rewrite dec_p10. now apply dec_Zshift.
Qed.
Lemma trunc_at_dec_pos m e s : 0 <= e + s -> (trunc_at (dec m e) s == dec m e)%Q.
Proof.
  intro H. apply (trunc_at_exact _ _ (m * 10 ^ (e + s))). rewrite dec_p10. now apply dec_Zshift.
Qed.

(** ** The carry propagation loop *)
Lemma propagate_spec c ds carry : Forall dig ds -> carry = 0 \/ carry = 1 ->
  exists cr hd, propagate c ds carry = Ret (cr, hd) /\ Forall dig hd /\ lenz hd = lenz ds /\
    (cr = 0 \/ cr = 1) /\ cr * 10000 ^ lenz ds + dval hd = dval ds + carry.
Proof.
  intros D Hc. induction D as [|d t Hd Ht IH].
  - exists carry, []. cbn. repeat split; auto; lia.
  - destruct IH as (cr & hd & E & Dh & L & C & V). cbn [propagate]. rewrite E. cbn [bind].
    unfold dig in Hd. rewrite lenz_cons, pB_succ by apply lenz_nonneg.
    destruct (Z.eqb_spec cr 0) as [->|N].
    + exists 0, (d :: hd). repeat split; auto.
      * rewrite !lenz_cons. lia.
      * rewrite !dval_cons, L. lia.
    + assert (cr = 1) by lia. subst cr. rewrite i32_ok by lia. cbn [bind]. unfold NBASE.
      destruct (10000 <=? 1 + d) eqn:G; zb.
      * exists 1, (0 :: hd). rewrite as_i16_id by lia. replace (1 + d - 10000) with 0 by lia.
        repeat split; auto.
        -- constructor; [unfold dig; lia|auto].
        -- rewrite !lenz_cons. lia.
        -- rewrite !dval_cons, L. nia.
      * exists 0, ((1 + d) :: hd). rewrite as_i16_id by lia. repeat split; auto.
        -- constructor; [unfold dig; lia|auto].
        -- rewrite !lenz_cons. lia.
        -- rewrite !dval_cons, L. nia.
Qed.

(** dropping whole digits and then [j] decimals *)
Lemma rdiv_split hi lo K k j : K = 10 ^ k -> 0 <= k -> 0 < j -> 0 <= lo < K ->
  rdiv (hi * K + lo) (k + j) = rdiv hi j.
Proof.
  intros -> Hk Hj Hlo. unfold rdiv.
  replace (10 ^ (k + j)) with (10 ^ k * 10 ^ j) by (rewrite Z.pow_add_r by lia; reflexivity).
  replace (10 ^ (k + j - 1)) with (10 ^ k * 10 ^ (j - 1))
    by (rewrite <- Z.pow_add_r by lia; f_equal; lia).
  pose proof (pT_pos k Hk). pose proof (pT_pos j ltac:(lia)).
  rewrite <- Z.div_div by lia.
  replace (hi * 10 ^ k + lo + 5 * (10 ^ k * 10 ^ (j - 1)))
    with ((hi + 5 * 10 ^ (j - 1)) * 10 ^ k + lo) by ring.
  rewrite Z.div_add_l by lia. rewrite (Z.div_small lo) by lia. now rewrite Z.add_0_r.
Qed.

Lemma div_split hi lo K k j : K = 10 ^ k -> 0 <= k -> 0 <= j -> 0 <= lo < K ->
  (hi * K + lo) / 10 ^ (k + j) = hi / 10 ^ j.
Proof.
  intros -> Hk Hj Hlo.
  rewrite Z.pow_add_r by lia.
  pose proof (pT_pos k Hk). pose proof (pT_pos j ltac:(lia)).
  rewrite <- Z.div_div by lia.
  rewrite Z.div_add_l by lia. rewrite (Z.div_small lo) by lia. now rewrite Z.add_0_r.
Qed.

Lemma round_powers j : 0 < j < 4 -> exists p, index ROUND_POWERS j = Ret p /\ p = 10 ^ (4 - j).
Proof.
  intro H. assert (C : j = 1 \/ j = 2 \/ j = 3) by lia.
  destruct C as [->|[->| ->]]; eexists; split; reflexivity.
Qed.

Record rounded (v : var) (rscale : Z) (q : Q) (r : var) : Prop := {
  rd_digits : Forall dig (digits r);
  rd_sign : sign r <> SNaN;
  rd_scale : dscale r = rscale;
  rd_val : (vval r == q)%Q;
  rd_weight : weight r = weight v
              \/ (weight r = weight v + 1 /\ (p10 (4 * (weight v + 1)) <= Qabs (vval r))%Q)
              \/ (weight r = 0 /\ digits r = []);
  rd_len : ndigits r <= ndigits v + 1
}.

Lemma sgz_sgn_abs s m : 0 <= m -> forall K, Z.sgn (sgz s * m) * K = if m =? 0 then 0 else sgz s * K.
Proof.
  intros H K. destruct (Z.eqb_spec m 0) as [->|N].
  - rewrite Z.mul_0_r. reflexivity.
  - rewrite Z.sgn_mul, (Z.sgn_pos m) by lia. destruct s; cbn; lia.
Qed.

Lemma rdiv_0 r : 0 < r -> rdiv 0 r = 0.
Proof.
  intro H. unfold rdiv. apply Z.div_small. pose proof (pT_pos (r - 1) ltac:(lia)).
  replace (10 ^ r) with (10 * 10 ^ (r - 1)) by (rewrite <- Z.pow_succ_r by lia; f_equal; lia). lia.
Qed.

(** value of the rounded variable from its new magnitude *)
Lemma round_vval_neg v s r : Forall dig (digits v) -> 4 * lsd v + s = - r -> 0 < r ->
  (round_at (vval v) s == dec (sgz (sign v) * rdiv (mag v) r) (- s))%Q.
Proof.
  intros D E H. unfold vval. rewrite (round_at_dec_neg _ _ _ r E H).
  apply dec_eq_iff. pose proof (dval_bound _ D) as B. fold (mag v) in B.
  unfold smag. replace (Z.abs (sgz (sign v) * mag v)) with (mag v) by (destruct (sign v); cbn [sgz]; lia).
  rewrite sgz_sgn_abs by lia. destruct (Z.eqb_spec (mag v) 0) as [->|N]; [|reflexivity].
  rewrite rdiv_0 by lia. lia.
Qed.

Lemma trunc_vval_neg v s r : Forall dig (digits v) -> 4 * lsd v + s = - r -> 0 <= r ->
  (trunc_at (vval v) s == dec (sgz (sign v) * (mag v / 10 ^ r)) (- s))%Q.
Proof.
  intros D E H. unfold vval. rewrite (trunc_at_dec_neg _ _ _ r E H).
  apply dec_eq_iff. pose proof (dval_bound _ D) as B. fold (mag v) in B.
  unfold smag. replace (Z.abs (sgz (sign v) * mag v)) with (mag v) by (destruct (sign v); cbn [sgz]; lia).
  rewrite sgz_sgn_abs by lia. destruct (Z.eqb_spec (mag v) 0) as [->|N]; [|reflexivity].
  rewrite Z.div_0_l by (pose proof (pT_pos r H); lia). lia.
Qed.

Lemma vval_set_dscale s v : vval (set_dscale s v) = vval v.
Proof. reflexivity. Qed.

Lemma round_common_spec c v rscale : Forall dig (digits v) -> sign v <> SNaN ->
  exists r, round_common c v rscale = Ret r /\ rounded v rscale (round_at (vval v) rscale) r.
Proof.
  intros D N. unfold round_common. rewrite (nan_ok c v N). cbn [bind].
  change DEC_DIGITS with 4. change HALF_NBASE with 5000. change NBASE with 10000.
  set (n := ndigits v). set (w := weight v).
  pose proof (lenz_nonneg (digits v)) as Ln. fold (ndigits v) in Ln. fold n in Ln.
  pose proof (dval_bound _ D) as MB. fold (mag v) in MB. fold (ndigits v) in MB. fold n in MB.
  assert (HL : 4 * lsd v + rscale = - (4 * n - ((w + 1) * 4 + rscale))).
  { unfold lsd. fold n w. lia. }
  set (di := (w + 1) * 4 + rscale) in *.
  destruct (Z.ltb_spec di 0) as [Hneg|Hpos].
  - (* everything is below half a unit *)
    eexists. split; [reflexivity|]. constructor; cbn [digits sign dscale weight]; auto; try discriminate.
    + rewrite (round_vval_neg v rscale (4 * n - di)) by (auto; lia).
      replace (rdiv (mag v) (4 * n - di)) with 0.
      * unfold vval, smag, mag; cbn [digits sign dval sgz]. rewrite !Z.mul_0_r, !dec_0. reflexivity.
      * symmetry. unfold rdiv. apply Z.div_small.
        replace (4 * n - di) with (4 * n + (- di - 1) + 1) by lia.
        set (a := - di - 1). assert (0 <= a) by (unfold a; lia).
        replace (4 * n + a + 1 - 1) with (4 * n + a) by lia.
        rewrite (Z.pow_add_r 10 (4 * n + a) 1), (Z.pow_add_r 10 (4 * n) a) by lia.
        rewrite <- pB_ten by lia. change (10 ^ 1) with 10.
        pose proof (pT_pos a ltac:(lia)). pose proof (pB_pos' n Ln). nia.
    + unfold ndigits at 1; cbn. fold n. lia.
  - assert (Dm : exists nd j, Z.quot (di + 4 - 1) 4 = nd /\ Z.rem di 4 = j /\ 0 <= j < 4 /\ 0 <= nd /\
                 ((j = 0 /\ di = 4 * nd) \/ (0 < j /\ di = 4 * (nd - 1) + j))).
    { exists (Z.quot (di + 4 - 1) 4), (Z.rem di 4).
      rewrite Z.quot_div_nonneg, Z.rem_mod_nonneg by lia.
      pose proof (Z.div_mod di 4 ltac:(lia)) as DM. pose proof (Z.mod_pos_bound di 4 ltac:(lia)) as MBd.
      pose proof (Z.div_pos (di + 4 - 1) 4 ltac:(lia) ltac:(lia)).
      repeat split; try lia.
      destruct (Z.eq_dec (di mod 4) 0) as [Z0|Z0].
      - left. split; [exact Z0|]. rewrite DM at 2. rewrite Z0, Z.add_0_r.
        replace (4 * (di / 4) + 4 - 1) with (3 + (di / 4) * 4) by lia.
        rewrite Z.div_add by lia. change (3 / 4) with 0. lia.
      - right. split; [lia|]. rewrite DM at 2.
        replace (4 * (di / 4) + di mod 4 + 4 - 1) with ((di mod 4 - 1) + (di / 4 + 1) * 4) by lia.
        rewrite Z.div_add by lia. rewrite (Z.div_small (di mod 4 - 1)) by lia. lia. }
    destruct Dm as (nd & j & -> & -> & Hj & Hnd & Hdi).
    destruct ((nd <? n) || (nd =? n) && (0 <? j)) eqn:Cond.
    + (* digits are dropped or changed *)
      assert (Hr : nd < n \/ (nd = n /\ 0 < j)).
      { apply orb_true_iff in Cond. destruct Cond as [A|A]; zb; [left; exact A|right; auto]. }
      clear Cond.
      assert (Hr' : 0 < 4 * n - di) by lia.
      set (hi := firstn (Z.to_nat nd) (digits v)). set (lo := skipn (Z.to_nat nd) (digits v)).
      assert (Lhi : lenz hi = nd) by (apply lenz_firstn; fold (ndigits v); fold n; lia).
      assert (Llo : lenz lo = n - nd) by (apply lenz_skipn; fold (ndigits v); fold n; lia).
      assert (Vm : mag v = dval hi * 10000 ^ (n - nd) + dval lo).
      { unfold mag. rewrite (dval_firstn_skipn (Z.to_nat nd)). fold hi lo. now rewrite Llo. }
      assert (Dlo : Forall dig lo) by (now apply Forall_dig_skipn).
      assert (Dhi : Forall dig hi) by (now apply Forall_dig_firstn).
      pose proof (dval_bound lo Dlo) as Blo. rewrite Llo in Blo.
      destruct (Z.eqb_spec j 0) as [J0|J0].
      * (* rounding at a digit boundary *)
        assert (Hdi' : di = 4 * nd) by lia. assert (Hlt : nd < n) by lia.
        destruct (nth_error_split_at (digits v) nd ltac:(fold (ndigits v); fold n; lia)) as (d & Ed & _).
        rewrite (index_ok _ _ _ Hnd Ed). cbn [bind].
        assert (Hd : dig d).
        { apply nth_error_In in Ed. rewrite Forall_forall in D. now apply D. }
        set (cy := if 5000 <=? d then 1 else 0).
        assert (Hcy : cy = 0 \/ cy = 1) by (unfold cy; destruct (5000 <=? d); auto).
        destruct (propagate_spec c hi cy Dhi Hcy) as (cr & hd & E & Dh & Lh & C & V).
        change (firstn (Z.to_nat nd) (digits v)) with hi. rewrite E. cbn [bind].
        (* value *)
        assert (RV : rdiv (mag v) (4 * n - di) = dval hi + cy).
        { assert (Hlo : exists lo', lo = d :: lo').
          { unfold lo. destruct (nth_error_split_at (digits v) nd ltac:(fold (ndigits v); fold n; lia)) as (d' & Ed' & Es).
            rewrite Ed in Ed'. injection Ed' as <-. exists (skipn (Z.to_nat (nd + 1)) (digits v)).
            rewrite Es at 1. rewrite skipn_app, firstn_length, skipn_all2;
              [| rewrite firstn_length; lia].
            unfold ndigits, lenz in n. 
            replace (Z.to_nat nd - Nat.min (Z.to_nat nd) (length (digits v)))%nat with O by (unfold n, ndigits, lenz in *; lia).
            reflexivity. }
          destruct Hlo as [lo' Elo]. rewrite Elo in *. rewrite dval_cons in Vm.
          rewrite lenz_cons in Llo. assert (Ll' : lenz lo' = n - nd - 1) by lia. rewrite Ll' in Vm.
          pose proof (Forall_inv_tail Dlo) as Dlo'. pose proof (dval_bound lo' Dlo') as Bl'. rewrite Ll' in Bl'.
          replace (4 * n - di) with (4 * (n - nd - 1) + 4) by lia.
          rewrite Vm. replace (n - nd) with (1 + (n - nd - 1)) at 1 by lia. rewrite pB_succ by lia.
          replace (dval hi * (10000 * 10000 ^ (n - nd - 1)) + (d * 10000 ^ (n - nd - 1) + dval lo'))
            with ((dval hi * 10000 + d) * 10000 ^ (n - nd - 1) + dval lo') by ring.
          rewrite (rdiv_split _ _ (10000 ^ (n - nd - 1)) (4 * (n - nd - 1)) 4); try lia.
          2: { apply pB_ten. lia. }
          unfold rdiv. change (5 * 10 ^ (4 - 1)) with 5000. change (10 ^ 4) with 10000.
          rewrite <- Z.add_assoc. rewrite Z.div_add_l by lia. f_equal. unfold cy, dig in *.
          destruct (5000 <=? d) eqn:G; zb.
          - symmetry. apply (Z.div_unique _ _ 1 (d + 5000 - 10000)); lia.
          - apply Z.div_small. lia. }
        assert (ES : - rscale = 4 * (w + 1 - nd)) by (unfold di in *; lia).
        assert (Key : (round_at (vval v) rscale == dec (sgz (sign v) * (dval hi + cy)) (4 * (w + 1 - nd)))%Q).
        { rewrite (round_vval_neg v rscale (4 * n - di)) by (auto; lia). rewrite RV, ES. reflexivity. }
        destruct (Z.eqb_spec cr 0) as [->|Ncr]; rewrite app_nil_r.
        -- eexists. split; [reflexivity|]. constructor; cbn [digits sign dscale weight]; auto.
           ++ rewrite Key. unfold vval, smag, mag, lsd, ndigits; cbn [digits sign weight].
              rewrite Lh, Lhi. rewrite <- V. rewrite Z.mul_0_l, Z.add_0_l. reflexivity.
           ++ unfold ndigits; cbn [digits]. fold (ndigits v). fold n. lia.
        -- assert (cr = 1) by lia. subst cr.
           eexists. split; [reflexivity|].
           set (rv := Var (w + 1) rscale (sign v) (1 :: hd)).
           assert (VV : (vval rv == dec (sgz (sign v) * (dval hi + cy)) (4 * (w + 1 - nd)))%Q).
           { unfold rv, vval, smag, mag, lsd, ndigits; cbn [digits sign weight].
             rewrite dval_cons, lenz_cons, Lh, Lhi. rewrite Lhi in V. rewrite <- V.
             replace (w + 1 + 1 - (1 + nd)) with (w + 1 - nd) by lia. reflexivity. }
           constructor; cbn [digits sign dscale weight]; auto.
           ++ constructor; [unfold dig; lia|auto].
           ++ rewrite Key. exact VV.
           ++ right. left. split; [reflexivity|]. fold w. fold rv. rewrite VV, Qabs_dec.
              replace (Z.abs (sgz (sign v) * (dval hi + cy))) with (dval hi + cy).
              2: { pose proof (dval_bound hi Dhi). destruct (sign v); cbn [sgz]; lia. }
              replace (4 * (w + 1)) with (4 * (w + 1 - nd) + 4 * nd) by lia.
              rewrite <- dec_1, <- dec_shift by lia. rewrite <- pB_ten by lia. apply dec_le_iff.
              rewrite Lhi in V. pose proof (dval_bound hd Dh). lia.
           ++ unfold rv, ndigits; cbn [digits]. rewrite lenz_cons. fold (ndigits v). fold n. lia.
      * (* rounding inside digit nd-1 *)
        assert (J : 0 < j < 4) by lia. assert (Hdi' : di = 4 * (nd - 1) + j) by lia.
        assert (Hnd1 : 1 <= nd) by lia.
        destruct (round_powers j J) as (p & Ep & Hp). rewrite Ep. cbn [bind].
        destruct (nth_error_split_at (digits v) (nd - 1) ltac:(fold (ndigits v); fold n; lia)) as (d & Ed & _).
        rewrite (get_ok (digits v) (nd - 1) d ltac:(lia) Ed). cbn [bind].
        assert (Hd : dig d).
        { apply nth_error_In in Ed. rewrite Forall_forall in D. now apply D. }
        set (hi1 := firstn (Z.to_nat (nd - 1)) (digits v)).
        assert (Ehi : hi = hi1 ++ [d]).
        { unfold hi. replace (Z.to_nat nd) with (S (Z.to_nat (nd - 1))) by lia. now apply firstn_S_snoc. }
        assert (Dhi1 : Forall dig hi1) by (now apply Forall_dig_firstn).
        assert (Lhi1 : lenz hi1 = nd - 1) by (rewrite Ehi, lenz_app, lenz_cons, lenz_nil in Lhi; lia).
        assert (Vhi : dval hi = dval hi1 * 10000 + d) by (rewrite Ehi; apply dval_snoc).
        unfold dig in Hd.
        assert (Pp : p = 10 \/ p = 100 \/ p = 1000).
        { assert (C : j = 1 \/ j = 2 \/ j = 3) by lia. destruct C as [->|[->| ->]]; subst p; cbn; auto. }
        rewrite Z.rem_mod_nonneg by lia. rewrite Z.quot_div_nonneg by lia.
        pose proof (Z.mod_pos_bound d p ltac:(lia)) as Ex. pose proof (Z.div_mod d p ltac:(lia)) as Edm.
        pose proof (Z.div_pos d p ltac:(lia) ltac:(lia)) as Qp.
        set (x := d mod p) in *.
        rewrite (i16_ok c (d - x)) by lia. cbn [bind].
        (* the new digit before the carry is split off *)
        assert (RV : rdiv (mag v) (4 * n - di) * p = dval hi1 * 10000 + (d - x) + (if p / 2 <=? x then p else 0)).
        { replace (4 * n - di) with (4 * (n - nd) + (4 - j)) by lia. rewrite Vm.
          rewrite (rdiv_split _ _ (10000 ^ (n - nd)) (4 * (n - nd)) (4 - j)); try lia.
          2: { apply pB_ten. lia. }
          unfold rdiv. rewrite <- Hp.
          assert (H5 : 5 * 10 ^ (4 - j - 1) = p / 2).
          { assert (C : j = 1 \/ j = 2 \/ j = 3) by lia. destruct C as [->|[->| ->]]; subst p; reflexivity. }
          rewrite H5, Vhi.
          assert (Q : exists q, 10000 = p * q) by (destruct Pp as [->|[->| ->]]; [exists 1000|exists 100|exists 10]; reflexivity).
          destruct Q as [q Hq].
          assert (H2 : 2 * (p / 2) = p) by (destruct Pp as [->|[->| ->]]; reflexivity).
          set (h := p / 2) in *.
          destruct (h <=? x) eqn:G; zb.
          - rewrite <- (Z.div_unique (dval hi1 * 10000 + d + h) p (dval hi1 * q + d / p + 1) (x + h - p)) by nia. nia.
          - rewrite <- (Z.div_unique (dval hi1 * 10000 + d + h) p (dval hi1 * q + d / p) (x + h)) by nia. nia. }
        assert (Key : (round_at (vval v) rscale ==
                       dec (sgz (sign v) * (rdiv (mag v) (4 * n - di) * p)) (4 * (w + 1 - nd)))%Q).
        { rewrite (round_vval_neg v rscale (4 * n - di)) by (auto; lia).
          rewrite Hp, Z.mul_assoc, dec_shift by lia.
          replace (4 * (w + 1 - nd) + (4 - j)) with (- rscale) by (unfold di in *; lia). reflexivity. }
        rewrite RV in Key.
        assert (Step : exists carry d2, (if p / 2 <=? x
            then (p0 <- i16 c (p + (d - x)) ;; (if 10000 <=? p0 then Ret (nd - 1, 1, [p0 - 10000]) else Ret (nd - 1, 0, [p0])))
            else Ret (nd - 1, 0, [d - x])) = Ret (nd - 1, carry, [d2]) /\ dig d2 /\ (carry = 0 \/ carry = 1) /\
            carry * 10000 + d2 = d - x + (if p / 2 <=? x then p else 0)).
        { destruct (p / 2 <=? x) eqn:G.
          - rewrite i16_ok by lia. cbn [bind].
            destruct (10000 <=? p + (d - x)) eqn:G2; zb.
            + exists 1, (p + (d - x) - 10000). unfold dig. repeat split; auto; lia.
            + exists 0, (p + (d - x)). unfold dig. repeat split; auto; lia.
          - exists 0, (d - x). unfold dig. repeat split; auto; lia. }
        destruct Step as (carry & d2 & -> & Hd2 & Hcy & Vcy). cbn [bind].
        destruct (propagate_spec c hi1 carry Dhi1 Hcy) as (cr & hd & E & Dh & Lh & C & V).
        change (firstn (Z.to_nat (nd - 1)) (digits v)) with hi1. rewrite E. cbn [bind].
        set (M := dval hi1 * 10000 + (d - x) + (if p / 2 <=? x then p else 0)) in *.
        assert (EM : M = cr * 10000 ^ nd + dval hd * 10000 + d2).
        { replace nd with (1 + (nd - 1)) by lia. rewrite pB_succ by lia. rewrite Lhi1 in V.
          unfold M. nia. }
        pose proof (dval_bound hd Dh) as Bhd.
        destruct (Z.eqb_spec cr 0) as [->|Ncr].
        -- eexists. split; [reflexivity|]. constructor; cbn [digits sign dscale weight]; auto.
           ++ apply Forall_app. auto.
           ++ rewrite Key. unfold vval, smag, mag, lsd, ndigits; cbn [digits sign weight].
              rewrite dval_snoc, lenz_app, lenz_cons, lenz_nil, Lh, Lhi1, EM.
              replace (w + 1 - (nd - 1 + (1 + 0))) with (w + 1 - nd) by lia.
              now rewrite Z.mul_0_l, Z.add_0_l.
           ++ unfold ndigits; cbn [digits]. rewrite lenz_app, lenz_cons, lenz_nil. fold (ndigits v). fold n. lia.
        -- assert (cr = 1) by lia. subst cr.
           eexists. split; [reflexivity|].
           set (rv := Var (w + 1) rscale (sign v) (1 :: hd ++ [d2])).
           assert (VV : (vval rv == dec (sgz (sign v) * M) (4 * (w + 1 - nd)))%Q).
           { unfold rv, vval, smag, mag, lsd, ndigits; cbn [digits sign weight].
             rewrite dval_cons, lenz_cons, dval_snoc, lenz_app, lenz_cons, lenz_nil, Lh, Lhi1, EM.
             replace (nd - 1 + (1 + 0)) with nd by lia.
             replace (w + 1 + 1 - (1 + nd)) with (w + 1 - nd) by lia.
             replace (1 * 10000 ^ nd + (dval hd * 10000 + d2)) with (1 * 10000 ^ nd + dval hd * 10000 + d2) by lia.
             reflexivity. }
           constructor; cbn [digits sign dscale weight]; auto.
           ++ constructor; [unfold dig; lia|apply Forall_app; auto].
           ++ rewrite Key. exact VV.
           ++ right. left. split; [reflexivity|]. fold w. fold rv. rewrite VV, Qabs_dec.
              unfold dig in Hd2.
              replace (Z.abs (sgz (sign v) * M)) with M.
              2: { assert (0 <= M) by (rewrite EM; pose proof (pB_pos' nd ltac:(lia)); lia).
                   destruct (sign v); cbn [sgz]; lia. }
              replace (4 * (w + 1)) with (4 * (w + 1 - nd) + 4 * nd) by lia.
              rewrite <- dec_1, <- dec_shift by lia. rewrite <- pB_ten by lia. apply dec_le_iff.
              lia.
           ++ unfold rv, ndigits; cbn [digits]. rewrite lenz_cons, lenz_app, lenz_cons, lenz_nil. fold (ndigits v). fold n. lia.
    + (* nothing to drop *)
      assert (Hr : 4 * n <= di).
      { apply orb_false_iff in Cond. destruct Cond as [A B]. apply andb_false_iff in B. destruct B as [B|B]; zb; lia. }
      eexists. split; [reflexivity|]. constructor; cbn; auto; try lia.
      * change (vval (set_dscale rscale v)) with (vval v). unfold vval.
        rewrite round_at_dec_pos; [reflexivity|lia].
      * unfold ndigits, set_dscale; cbn. lia.
Qed.
