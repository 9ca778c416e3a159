(** * Trunc: trunc_common is decimal truncation toward zero. *)
From Coq Require Import ZArith QArith Qround Qpower Qabs List Bool Lia.
From Verif Require Import Base Var Spec QDec Digits Arith Strip Round.
Import ListNotations.
Open Scope Z_scope.

Record truncated (v : var) (rscale : Z) (q : Q) (r : var) : Prop := {
  tr_digits : Forall dig (digits r);
  tr_sign : sign r <> SNaN;
  tr_scale : dscale r = rscale;
  tr_val : (vval r == q)%Q;
  tr_weight : weight r = weight v \/ (weight r = 0 /\ digits r = []);
  tr_same : sign r = sign v \/ digits r = [];
  tr_len : ndigits r <= ndigits v
}.

Lemma trunc_common_spec c v rscale : Forall dig (digits v) -> sign v <> SNaN ->
  exists r, trunc_common c v rscale = Ret r /\ truncated v rscale (trunc_at (vval v) rscale) r.
Proof.
  intros D N. unfold trunc_common. rewrite (nan_ok c v N). cbn [bind].
  change DEC_DIGITS with 4.
  set (n := ndigits v). set (w := weight v).
  pose proof (lenz_nonneg (digits v)) as Ln. fold (ndigits v) in Ln. fold n in Ln.
  pose proof (dval_bound _ D) as MB. fold (mag v) in MB. fold (ndigits v) in MB. fold n in MB.
  assert (HL : 4 * lsd v + rscale = - (4 * n - ((w + 1) * 4 + rscale))).
  { unfold lsd. fold n w. lia. }
  set (di := (w + 1) * 4 + rscale) in *.
  destruct (Z.leb_spec di 0) as [Hneg|Hpos].
  - eexists. split; [reflexivity|]. constructor; cbn [digits sign dscale weight]; auto; try discriminate.
    + rewrite (trunc_vval_neg v rscale (4 * n - di)) by (auto; lia).
      replace (mag v / 10 ^ (4 * n - di)) with 0.
      * unfold vval, smag, mag; cbn [digits sign dval sgz]. rewrite !Z.mul_0_r, !dec_0. reflexivity.
      * symmetry. apply Z.div_small.
        replace (4 * n - di) with (4 * n + - di) by lia.
        rewrite Z.pow_add_r by lia.
        rewrite <- pB_ten by lia.
        pose proof (pT_pos (- di) ltac:(lia)). pose proof (pB_pos' n Ln). nia.
  - assert (Dm : exists nd j, Z.quot (di + 4 - 1) 4 = nd /\ Z.rem di 4 = j /\ 0 <= j < 4 /\ 1 <= nd /\
                 ((j = 0 /\ di = 4 * nd) \/ (0 < j /\ di = 4 * (nd - 1) + j))).
    { exists (Z.quot (di + 4 - 1) 4), (Z.rem di 4).
      rewrite Z.quot_div_nonneg, Z.rem_mod_nonneg by lia.
      pose proof (Z.div_mod di 4 ltac:(lia)) as DM. pose proof (Z.mod_pos_bound di 4 ltac:(lia)) as MBd.
      pose proof (Z.div_le_lower_bound (di + 4 - 1) 4 1 ltac:(lia) ltac:(lia)).
      repeat split; try lia.
      destruct (Z.eq_dec (di mod 4) 0) as [Z0|Z0].
      - left. split; [exact Z0|]. rewrite DM at 2. rewrite Z0, Z.add_0_r.
        replace (4 * (di / 4) + 4 - 1) with (3 + (di / 4) * 4) by lia.
        rewrite Z.div_add by lia. change (3 / 4) with 0. lia.
      - right. split; [lia|]. rewrite DM at 2.
        replace (4 * (di / 4) + di mod 4 + 4 - 1) with ((di mod 4 - 1) + (di / 4 + 1) * 4) by lia.
        rewrite Z.div_add by lia. rewrite (Z.div_small (di mod 4 - 1)) by lia. lia. }
    destruct Dm as (nd & j & -> & -> & Hj & Hnd & Hdi).
    destruct (Z.leb_spec nd n) as [Hle|Hgt].
    + set (hi := firstn (Z.to_nat nd) (digits v)). set (lo := skipn (Z.to_nat nd) (digits v)).
      assert (Lhi : lenz hi = nd) by (apply lenz_firstn; fold (ndigits v); fold n; lia).
      assert (Llo : lenz lo = n - nd) by (apply lenz_skipn; fold (ndigits v); fold n; lia).
      assert (Vm : mag v = dval hi * 10000 ^ (n - nd) + dval lo).
      { unfold mag. rewrite (dval_firstn_skipn (Z.to_nat nd)). fold hi lo. now rewrite Llo. }
      assert (Dlo : Forall dig lo) by (now apply Forall_dig_skipn).
      assert (Dhi : Forall dig hi) by (now apply Forall_dig_firstn).
      pose proof (dval_bound lo Dlo) as Blo. rewrite Llo in Blo.
      destruct (Z.ltb_spec 0 j) as [J0|J0].
      * assert (J : 0 < j < 4) by lia. assert (Hdi' : di = 4 * (nd - 1) + j) by lia.
        destruct (round_powers j J) as (p & Ep & Hp). rewrite Ep. cbn [bind].
        destruct (nth_error_split_at hi (nd - 1) ltac:(lia)) as (d & Ed & Es).
        rewrite (index_ok hi (nd - 1) d ltac:(lia) Ed). cbn [bind].
        assert (Hd : dig d).
        { apply nth_error_In in Ed. rewrite Forall_forall in Dhi. now apply Dhi. }
        set (hi1 := firstn (Z.to_nat (nd - 1)) hi) in *.
        assert (Ehi : hi = hi1 ++ [d]).
        { rewrite Es at 1. f_equal. f_equal. apply skipn_all2. unfold lenz in Lhi. lia. }
        assert (Dhi1 : Forall dig hi1) by (now apply Forall_dig_firstn).
        assert (Lhi1 : lenz hi1 = nd - 1) by (rewrite Ehi, lenz_app, lenz_cons, lenz_nil in Lhi; lia).
        assert (Vhi : dval hi = dval hi1 * 10000 + d) by (rewrite Ehi; apply dval_snoc).
        unfold dig in Hd.
        assert (Pp : p = 10 \/ p = 100 \/ p = 1000).
        { assert (C : j = 1 \/ j = 2 \/ j = 3) by lia. destruct C as [->|[->| ->]]; subst p; cbn; auto. }
        rewrite Z.rem_mod_nonneg by lia.
        pose proof (Z.mod_pos_bound d p ltac:(lia)) as Ex. pose proof (Z.div_mod d p ltac:(lia)) as Edm.
        pose proof (Z.div_pos d p ltac:(lia) ltac:(lia)) as Qp.
        set (x := d mod p) in *.
        rewrite (i16_ok c (d - x)) by lia. cbn [bind].
        assert (TV : mag v / 10 ^ (4 * n - di) * p = dval hi1 * 10000 + (d - x)).
        { replace (4 * n - di) with (4 * (n - nd) + (4 - j)) by lia. rewrite Vm.
          rewrite (div_split _ _ (10000 ^ (n - nd)) (4 * (n - nd)) (4 - j)); try lia.
          2: { apply pB_ten. lia. }
          rewrite <- Hp, Vhi.
          assert (Q : exists q, 10000 = p * q) by (destruct Pp as [->|[->| ->]]; [exists 1000|exists 100|exists 10]; reflexivity).
          destruct Q as [q Hq].
          rewrite <- (Z.div_unique (dval hi1 * 10000 + d) p (dval hi1 * q + d / p) x) by nia. nia. }
        assert (Key : (trunc_at (vval v) rscale ==
                       dec (sgz (sign v) * (mag v / 10 ^ (4 * n - di) * p)) (4 * (w + 1 - nd)))%Q).
        { rewrite (trunc_vval_neg v rscale (4 * n - di)) by (auto; lia).
          rewrite Hp, Z.mul_assoc, dec_shift by lia.
          replace (4 * (w + 1 - nd) + (4 - j)) with (- rscale) by (unfold di in *; lia). reflexivity. }
        rewrite TV in Key.
        assert (Eset : set_nth hi (Z.to_nat (nd - 1)) (d - x) = hi1 ++ [d - x]).
        { rewrite Ehi at 1. apply set_nth_split. unfold lenz in Lhi1. lia. }
        rewrite Eset.
        eexists. split; [reflexivity|]. constructor; cbn [digits sign dscale weight]; auto.
        -- apply Forall_app. split; [auto|]. constructor; [unfold dig; nia|auto].
        -- rewrite Key. unfold vval, smag, mag, lsd, ndigits; cbn [digits sign weight].
           rewrite dval_snoc, lenz_app, lenz_cons, lenz_nil, Lhi1.
           replace (w + 1 - (nd - 1 + (1 + 0))) with (w + 1 - nd) by lia. reflexivity.
        -- unfold ndigits; cbn [digits]. rewrite lenz_app, lenz_cons, lenz_nil. fold (ndigits v). fold n. lia.
      * assert (Hj0 : j = 0) by lia. assert (Hdi' : di = 4 * nd) by lia.
        eexists. split; [reflexivity|]. constructor; cbn [digits sign dscale weight]; auto.
        -- rewrite (trunc_vval_neg v rscale (4 * n - di)) by (auto; lia).
           replace (4 * n - di) with (4 * (n - nd) + 0) by lia. rewrite Vm.
           rewrite (div_split _ _ (10000 ^ (n - nd)) (4 * (n - nd)) 0); try lia.
           2: { apply pB_ten. lia. }
           rewrite Z.div_1_r. unfold vval, smag, mag, lsd, ndigits; cbn [digits sign weight].
           rewrite Lhi. replace (4 * (w + 1 - nd)) with (- rscale) by (unfold di in *; lia). reflexivity.
        -- unfold ndigits; cbn [digits]. fold (ndigits v). fold n. lia.
    + eexists. split; [reflexivity|]. constructor; cbn; auto; try lia.
      * change (vval (set_dscale rscale v)) with (vval v). unfold vval.
        rewrite trunc_at_dec_pos; [reflexivity|lia].
      * unfold ndigits, set_dscale; cbn. lia.
Qed.
