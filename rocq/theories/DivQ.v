(** * DivQ: the value of the computed quotient. *)
From Coq Require Import ZArith QArith Qround Qpower Qabs List Bool Lia Lqa.
From Verif Require Import Base Var Spec QDec Digits Arith Strip Round Trunc AddSub Signed Make Mul Div.
Import ListNotations.
Open Scope Z_scope.

(** ** Rounding after truncation at a finer position *)
Lemma Qfloor_div q u : 0 < u -> Qfloor (q / inject_Z u) = Qfloor q / u.
Proof.
  intro H. destruct q as [a b]. destruct u as [|u|u]; try lia.
  unfold Qdiv, Qinv, Qmult, Qfloor, inject_Z. cbn [Qnum Qden].
  rewrite Z.mul_1_r, Pos2Z.inj_mul. now rewrite Z.div_div by lia.
Qed.

Lemma Qfloor_plus_Z q k : Qfloor (q + inject_Z k) = Qfloor q + k.
Proof.
  destruct q as [a b]. unfold Qplus, Qfloor, inject_Z. cbn [Qnum Qden].
  rewrite Z.mul_1_r, Pos.mul_1_r. now rewrite Z.div_add by lia.
Qed.

Lemma p10_split s t : (p10 t == p10 s * p10 (t - s))%Q.
Proof. rewrite <- p10_add. now replace (s + (t - s)) with t by lia. Qed.

Lemma half_floor y r : 1 <= r -> Qfloor (y / inject_Z (10 ^ r) + (1 # 2)) = (Qfloor y + 5 * 10 ^ (r - 1)) / 10 ^ r.
Proof.
  intro H. assert (P : 0 < 10 ^ r) by (apply pT_pos; lia).
  assert (E : 10 ^ r = 10 * 10 ^ (r - 1)) by (rewrite <- Z.pow_succ_r by lia; f_equal; lia).
  rewrite (Qfloor_comp _ ((y + inject_Z (5 * 10 ^ (r - 1))) / inject_Z (10 ^ r))%Q).
  - rewrite Qfloor_div by exact P. now rewrite Qfloor_plus_Z.
  - rewrite E, !inject_Z_mult. assert (N : ~ (inject_Z (10 ^ (r - 1)) == 0)%Q).
    { intro K. change 0%Q with (inject_Z 0) in K. apply (proj1 (inject_Z_inj _ _)) in K. assert (0 < 10 ^ (r - 1)) by (apply pT_pos; lia). lia. }
    change (inject_Z 10) with (10 # 1)%Q. change (inject_Z 5) with (5 # 1)%Q. field. exact N.
Qed.

Lemma trunc_int_pos q : (0 <= q)%Q -> trunc_int q = Qfloor q.
Proof. intro H. unfold trunc_int. destruct (Qlt_le_dec q 0); [lra|reflexivity]. Qed.
Lemma round_int_pos q : (0 <= q)%Q -> round_int q = Qfloor (q + (1 # 2)).
Proof. intro H. unfold round_int. destruct (Qlt_le_dec q 0); [lra|reflexivity]. Qed.
Lemma Qfloor_0 : Qfloor 0 = 0. Proof. reflexivity. Qed.
Lemma trunc_int_opp q : trunc_int (- q) = - trunc_int q.
Proof.
  unfold trunc_int. destruct (Qlt_le_dec (- q) 0), (Qlt_le_dec q 0); try lra.
  - rewrite (Qfloor_comp (- - q) q); [reflexivity|ring].
  - lia.
  - assert (q == 0)%Q as E by lra.
    rewrite (Qfloor_comp (- q) 0), (Qfloor_comp q 0); try reflexivity; rewrite E; reflexivity.
Qed.
Lemma round_int_opp q : round_int (- q) = - round_int q.
Proof.
  unfold round_int. destruct (Qlt_le_dec (- q) 0), (Qlt_le_dec q 0); try lra.
  - rewrite (Qfloor_comp (- - q + (1 # 2)) (q + (1 # 2))); [reflexivity|ring].
  - lia.
  - assert (q == 0)%Q as E by lra.
    rewrite (Qfloor_comp (- q + (1 # 2)) (1 # 2)), (Qfloor_comp (q + (1 # 2)) (1 # 2)); try reflexivity; rewrite E; reflexivity.
Qed.

Lemma trunc_at_opp q s : (trunc_at (- q) s == - trunc_at q s)%Q.
Proof.
  unfold trunc_at. rewrite (trunc_int_comp (- q * ten ^ s) (- (q * ten ^ s))) by ring.
  rewrite trunc_int_opp, inject_Z_opp. ring.
Qed.
Lemma round_at_opp q s : (round_at (- q) s == - round_at q s)%Q.
Proof.
  unfold round_at. rewrite (round_int_comp (- q * ten ^ s) (- (q * ten ^ s))) by ring.
  rewrite round_int_opp, inject_Z_opp. ring.
Qed.

Lemma round_at_comp q q' s : (q == q')%Q -> (round_at q s == round_at q' s)%Q.
Proof.
  intro E. unfold round_at. rewrite (round_int_comp (q * ten ^ s) (q' * ten ^ s)); [reflexivity|]. now rewrite E.
Qed.
Lemma trunc_at_comp q q' s : (q == q')%Q -> (trunc_at q s == trunc_at q' s)%Q.
Proof.
  intro E. unfold trunc_at. rewrite (trunc_int_comp (q * ten ^ s) (q' * ten ^ s)); [reflexivity|]. now rewrite E.
Qed.

Lemma p10_unscale q s t : (q * p10 s == q * p10 t / p10 (t - s))%Q.
Proof. rewrite (p10_split s t). field. apply p10_nz. Qed.

Lemma scaled_trunc q s t : s <= t ->
  (trunc_at q t * p10 s == inject_Z (trunc_int (q * p10 t)) / inject_Z (10 ^ (t - s)))%Q.
Proof.
  intro H. unfold trunc_at. change (ten ^ (- t))%Q with (p10 (- t)). change (ten ^ t)%Q with (p10 t).
  rewrite <- (p10_Z (t - s)) by lia.
  assert (E : (p10 (- t) * p10 s * p10 (t - s) == 1)%Q).
  { rewrite <- !p10_add. now replace (- t + s + (t - s)) with 0 by lia. }
  set (X := inject_Z (trunc_int (q * p10 t))).
  apply (Qmult_inj_r _ _ (p10 (t - s)) (p10_nz _)).
  transitivity (X * (p10 (- t) * p10 s * p10 (t - s)))%Q; [ring|]. rewrite E. field. apply p10_nz.
Qed.

Lemma round_trunc q s t : s + 1 <= t -> (round_at (trunc_at q t) s == round_at q s)%Q.
Proof.
  intro H.
  assert (G : forall q, (0 <= q)%Q -> (round_at (trunc_at q t) s == round_at q s)%Q).
  { clear q. intros q Hq. unfold round_at at 1 2. change (ten ^ s)%Q with (p10 s).
    assert (P : 0 < 10 ^ (t - s)) by (apply pT_pos; lia).
    assert (Pt : (0 <= q * p10 t)%Q) by (apply Qmult_le_0_compat; [exact Hq|apply Qlt_le_weak, p10_pos]).
    rewrite (round_int_comp _ _ (scaled_trunc q s t ltac:(lia))).
    rewrite (trunc_int_pos _ Pt).
    assert (F0 : (0 <= inject_Z (Qfloor (q * p10 t)))%Q).
    { change 0%Q with (inject_Z 0). rewrite <- Zle_Qle. rewrite <- Qfloor_0. now apply Qfloor_resp_le. }
    rewrite round_int_pos.
    2:{ apply Qle_shift_div_l; [change 0%Q with (inject_Z 0); now rewrite <- Zlt_Qlt|]. lra. }
    rewrite half_floor by lia. rewrite Qfloor_Z.
    rewrite (round_int_comp (q * p10 s) (q * p10 t / inject_Z (10 ^ (t - s)))).
    2:{ rewrite <- p10_Z by lia. apply p10_unscale. }
    rewrite round_int_pos.
    2:{ apply Qle_shift_div_l; [change 0%Q with (inject_Z 0); now rewrite <- Zlt_Qlt|]. lra. }
    rewrite half_floor by lia. reflexivity. }
  destruct (Qlt_le_dec q 0) as [L|L]; [|now apply G].
  assert (Hn : (0 <= - q)%Q) by lra. pose proof (G (- q)%Q Hn) as K.
  rewrite round_at_opp, (round_at_comp _ _ _ (trunc_at_opp q t)), round_at_opp in K. lra.
Qed.

Lemma trunc_trunc q s t : s <= t -> (trunc_at (trunc_at q t) s == trunc_at q s)%Q.
Proof.
  intro H.
  assert (G : forall q, (0 <= q)%Q -> (trunc_at (trunc_at q t) s == trunc_at q s)%Q).
  { clear q. intros q Hq. unfold trunc_at at 1 3. change (ten ^ s)%Q with (p10 s).
    assert (P : 0 < 10 ^ (t - s)) by (apply pT_pos; lia).
    assert (Pt : (0 <= q * p10 t)%Q) by (apply Qmult_le_0_compat; [exact Hq|apply Qlt_le_weak, p10_pos]).
    rewrite (trunc_int_comp _ _ (scaled_trunc q s t ltac:(lia))).
    rewrite (trunc_int_pos _ Pt).
    assert (F0 : (0 <= inject_Z (Qfloor (q * p10 t)))%Q).
    { change 0%Q with (inject_Z 0). rewrite <- Zle_Qle. rewrite <- Qfloor_0. now apply Qfloor_resp_le. }
    rewrite trunc_int_pos.
    2:{ apply Qle_shift_div_l; [change 0%Q with (inject_Z 0); now rewrite <- Zlt_Qlt|]. lra. }
    rewrite Qfloor_div by lia. rewrite Qfloor_Z.
    rewrite (trunc_int_comp (q * p10 s) (q * p10 t / inject_Z (10 ^ (t - s)))).
    2:{ rewrite <- p10_Z by lia. apply p10_unscale. }
    rewrite trunc_int_pos.
    2:{ apply Qle_shift_div_l; [change 0%Q with (inject_Z 0); now rewrite <- Zlt_Qlt|]. lra. }
    rewrite Qfloor_div by lia. reflexivity. }
  destruct (Qlt_le_dec q 0) as [L|L]; [|now apply G].
  assert (Hn : (0 <= - q)%Q) by lra. pose proof (G (- q)%Q Hn) as K.
  pose proof (trunc_at_comp _ _ s (trunc_at_opp q t)) as K1. pose proof (trunc_at_opp (trunc_at q t) s) as K2.
  pose proof (trunc_at_opp q s) as K3. lra.
Qed.

(** ** The quotient digits *)
Lemma firstn_dval_div ds n : Forall dig ds -> (n <= length ds)%nat ->
  dval (firstn n ds) = dval ds / 10000 ^ (lenz ds - Z.of_nat n).
Proof.
  intros D L. pose proof (dval_firstn_skipn n ds) as E.
  pose proof (dval_bound _ (Forall_dig_skipn n ds D)) as B.
  assert (Ls : lenz (skipn n ds) = lenz ds - Z.of_nat n) by (unfold lenz; rewrite skipn_length; lia).
  rewrite Ls in *. rewrite E. rewrite Z.add_comm, Z.div_add, Z.div_small by lia. lia.
Qed.

Lemma lenz_zeros' n : lenz (zeros n) = Z.max 0 n.
Proof. unfold zeros. rewrite lenz_repeat. lia. Qed.

(** the digits of the quotient, before rounding *)
Definition quotient_digits (c : cfg) (v1 v2 : var) (res_ndigits : Z) : outcome (list Z) :=
  let n1 := ndigits v1 in
  let n2 := ndigits v2 in
  let div_ndigits := Z.max (res_ndigits + n2) n1 in
  let dividend := 0 :: digits v1 ++ zeros (div_ndigits - n1) in
  let divisor := 0 :: digits v2 in
  if n2 =? 1 then
    divisor1 <- index divisor 1 ;;
    div_short c (Z.to_nat res_ndigits) (tl dividend) divisor1 0
  else
    divisor1 <- index divisor 1 ;;
    '(divisor, dividend) <-
      (if divisor1 <? HALF_NBASE then
         s <- i16 c (divisor1 + 1) ;;
         if s =? 0 then Panic WDivZero
         else
           let d := Z.quot NBASE s in
           '(carry, vs) <- scale_up c (digits v2) d ;;
           dassert c (carry =? 0) ;;;
           '(carry, us) <- scale_up c (0 :: digits v1) d ;;
           dassert c (carry =? 0) ;;;
           top <- index (0 :: vs) 1 ;;
           dassert c (HALF_NBASE <=? top) ;;;
           Ret (0 :: vs, us ++ zeros (div_ndigits - n1))
       else Ret (divisor, dividend)) ;;
    div_long c (Z.to_nat res_ndigits) divisor dividend.

Lemma quotient_digits_spec c v1 v2 k : Forall dig (digits v1) -> Forall dig (digits v2) ->
  0 < nth 0 (digits v2) 0 -> 1 <= k ->
  exists qs, quotient_digits c v1 v2 k = Ret qs /\ Forall dig qs /\ lenz qs = k /\
    let L := Z.max (k + ndigits v2) (ndigits v1) in
    dval qs = (mag v1 * 10000 ^ (L - ndigits v1)) / (10000 ^ (L + 1 - (ndigits v2 + k)) * mag v2).
Proof.
  intros D1 D2 F2 Hk. unfold quotient_digits.
  set (n1 := ndigits v1). set (n2 := ndigits v2). set (L := Z.max (k + n2) n1).
  assert (H1 : 0 <= n1) by apply lenz_nonneg.
  destruct (digits v2) as [|d1 vr] eqn:E2; [cbn in F2; lia|]. cbn [nth] in F2.
  assert (H2 : n2 = 1 + lenz vr) by (unfold n2, ndigits; rewrite E2; apply lenz_cons).
  pose proof (lenz_nonneg vr) as Hvr. pose proof (Forall_inv D2) as B1. unfold dig in B1.
  set (U := 0 :: digits v1 ++ zeros (L - n1)).
  assert (DU : Forall dig U).
  { constructor; [unfold dig; lia|]. apply Forall_app. split; [exact D1|apply dig_zeros]. }
  assert (VU : dval U = mag v1 * 10000 ^ (L - n1)).
  { unfold U. rewrite dval_cons, dval_app, dval_zeros, lenz_zeros by (unfold L; lia). unfold mag. lia. }
  assert (LU : lenz U = L + 1).
  { unfold U. rewrite lenz_cons, lenz_app, lenz_zeros by (unfold L; lia). fold (ndigits v1). fold n1. lia. }
  change (index (0 :: d1 :: vr) 1) with (Ret d1). cbn [bind].
  assert (M2 : mag v2 = d1 * 10000 ^ lenz vr + dval vr) by (unfold mag; rewrite E2; apply dval_cons).
  pose proof (dval_bound _ (Forall_inv_tail D2)) as Bvr. pose proof (pB_len vr) as Pvr.
  assert (M2p : 0 < mag v2) by (rewrite M2; nia).
  destruct (Z.eqb_spec n2 1) as [Hn|Hn].
  - assert (vr = []) by (apply lenz_0; lia). subst vr. rewrite lenz_nil in *. change (10000 ^ 0) with 1 in *.
    cbn [tl]. destruct (div_short_spec c d1 ltac:(lia) (Z.to_nat k) (digits v1 ++ zeros (L - n1)) 0) as (qs & E & Dq & Lq & Vq).
    { assert (lenz (digits v1 ++ zeros (L - n1)) = L) by (unfold U in LU; rewrite lenz_cons in LU; lia).
      unfold lenz in H. unfold L in H at 2. lia. }
    { exact (Forall_inv_tail DU). }
    { lia. }
    exists qs. split; [exact E|]. split; [exact Dq|]. split; [unfold lenz; lia|]. cbv zeta.
    rewrite Vq, Z.mul_0_l, Z.add_0_l. unfold mag in M2. cbn [dval] in M2. 
    replace (mag v2) with d1 by (unfold mag; rewrite E2; unfold dval; cbn; lia).
    rewrite (firstn_dval_div _ _ (Forall_inv_tail DU)).
    2:{ assert (lenz (digits v1 ++ zeros (L - n1)) = L) by (unfold U in LU; rewrite lenz_cons in LU; lia).
        unfold lenz in H. unfold L in H at 2. lia. }
    assert (LT : lenz (digits v1 ++ zeros (L - n1)) = L) by (unfold U in LU; rewrite lenz_cons in LU; lia).
    rewrite LT, Z2Nat.id by lia. rewrite Z.div_div; [|apply Z.pow_nonzero; unfold L; lia|lia].
    f_equal; [|f_equal; f_equal; lia].
    rewrite <- VU. unfold U. rewrite dval_cons. lia.
  - assert (Ln2 : 2 <= lenz (d1 :: vr)) by (rewrite lenz_cons; lia).
    (* generic use of the long division on a multiple of both operands *)
    assert (G : forall d vs us, 1 <= d -> Forall dig vs -> Forall dig us -> lenz vs = n2 -> lenz us = L + 1 ->
       dval vs = d * mag v2 -> dval us = d * dval U -> 
       exists qs, div_long c (Z.to_nat k) (0 :: vs) us = Ret qs /\ Forall dig qs /\ lenz qs = k /\
         dval qs = (mag v1 * 10000 ^ (L - n1)) / (10000 ^ (L + 1 - (n2 + k)) * mag v2)).
    { intros d vs us Hd Dv Du Lv Lu Vv Vu.
      assert (Pos0 : 10000 ^ (n2 - 1) <= mag v2).
      { rewrite M2, H2. replace (1 + lenz vr - 1) with (lenz vr) by lia. nia. }
      assert (N0 : 0 < nth 0 vs 0).
      { destruct vs as [|x vs']; [rewrite lenz_nil in Lv; lia|]. cbn [nth].
        pose proof (Forall_inv Dv) as Bx. unfold dig in Bx. rewrite lenz_cons in Lv.
        rewrite dval_cons in Vv. pose proof (dval_bound _ (Forall_inv_tail Dv)) as Bt.
        assert (lenz vs' = n2 - 1) by lia. rewrite H in *. nia. }
      assert (DUb : dval U < 10000 ^ L).
      { unfold U. rewrite dval_cons. pose proof (dval_bound _ (Forall_inv_tail DU)) as B.
        assert (lenz (digits v1 ++ zeros (L - n1)) = L) by (unfold U in LU; rewrite lenz_cons in LU; lia).
        rewrite H in *. lia. }
      assert (Lv' : Z.of_nat (length vs) = n2) by (exact Lv).
      assert (Lu' : Z.of_nat (length us) = L + 1) by (exact Lu).
      assert (Inv : dval (firstn (length vs) us) < dval vs).
      { rewrite (firstn_dval_div us) by (try exact Du; unfold L in Lu'; lia).
        rewrite Lu, Lv', Vu, Vv. 
        assert (PLs : 10000 ^ L = 10000 ^ (n2 - 1) * 10000 ^ (L + 1 - n2)).
        { rewrite <- pB_add by (unfold L; lia). f_equal. lia. }
        assert (PP : 0 < 10000 ^ (L + 1 - n2)) by (apply pB_pos'; unfold L; lia).
        apply Z.div_lt_upper_bound; [exact PP|].
        rewrite Z.mul_comm. apply Z.lt_le_trans with (d * (10000 ^ (n2 - 1) * 10000 ^ (L + 1 - n2))).
        - rewrite <- PLs. rewrite (Z.mul_comm d). apply Z.mul_lt_mono_pos_r; [lia|exact DUb].
        - assert (10000 ^ (n2 - 1) * 10000 ^ (L + 1 - n2) <= mag v2 * 10000 ^ (L + 1 - n2)) by nia. nia. }
      destruct (div_long_spec c vs Dv ltac:(lia) N0 (Z.to_nat k) us Du) as (qs & E & Dq & Lq & Vq); [unfold L in Lu'; lia|exact Inv|].
      exists qs. split; [exact E|]. split; [exact Dq|]. split; [unfold lenz; lia|].
      rewrite Vq. rewrite (firstn_dval_div us) by (try exact Du; unfold L in Lu'; lia).
      rewrite Lu. replace (Z.of_nat (length vs + Z.to_nat k)) with (n2 + k) by lia.
      set (T := 10000 ^ (L + 1 - (n2 + k))). assert (PT : 0 < T) by (apply pB_pos'; unfold L; lia).
      rewrite Z.div_div by lia. rewrite Vv, Vu, <- VU.
      replace (T * (d * mag v2)) with (d * (T * mag v2)) by ring. apply Z.div_mul_cancel_l; nia. }
    change HALF_NBASE with 5000. change NBASE with 10000.
    destruct (Z.ltb_spec d1 5000) as [Hs|Hs].
    + rewrite i16_ok by lia. cbn [bind]. destruct (Z.eqb_spec (d1 + 1) 0); [lia|].
      rewrite Z.quot_div_nonneg by lia. set (d := 10000 / (d1 + 1)).
      pose proof (Z.div_mod 10000 (d1 + 1) ltac:(lia)) as DM. fold d in DM.
      pose proof (Z.mod_pos_bound 10000 (d1 + 1) ltac:(lia)) as MB.
      assert (Bd : 1 <= d <= 5000) by nia.
      destruct (scale_up_spec c d ltac:(lia) (d1 :: vr) D2) as (cr & vs & Es & Bc & Dv & Lv & Vv).
      rewrite Es. cbn [bind].
      assert (MV : dval (d1 :: vr) = mag v2) by (unfold mag; now rewrite E2). rewrite MV in Vv.
      rewrite lenz_cons, pB_succ in Vv by lia. 
      pose proof (dval_bound _ Dv) as Bv. rewrite Lv, lenz_cons, pB_succ in Bv by lia.
      assert (C0 : cr = 0).
      { assert (d * mag v2 < 10000 * 10000 ^ lenz vr) by (rewrite M2; nia). nia. }
      subst cr. rewrite dassert_ok by reflexivity. cbn [bind].
      destruct (scale_up_spec c d ltac:(lia) (0 :: digits v1)) as (cr & us & Eu & Bc' & Du & Lu & Vu).
      { constructor; [unfold dig; lia|exact D1]. }
      rewrite Eu. cbn [bind].
      pose proof (dval_bound _ D1) as BD1. pose proof (dval_bound _ Du) as Bu.
      rewrite Lu, lenz_cons, pB_succ in Bu by apply lenz_nonneg.
      rewrite dval_cons, lenz_cons, pB_succ in Vu by apply lenz_nonneg. pose proof (pB_len (digits v1)) as PD1.
      assert (C0 : cr = 0) by nia.
      subst cr. rewrite dassert_ok by reflexivity. cbn [bind].
      destruct vs as [|top vs']; [rewrite lenz_nil, lenz_cons in Lv; lia|].
      change (index (0 :: top :: vs') 1) with (Ret top). cbn [bind].
      rewrite dassert_ok.
      2:{ apply Z.leb_le. assert (Lv2 : lenz vs' = lenz vr) by (rewrite !lenz_cons in Lv; lia).
          rewrite dval_cons, Lv2 in Vv. pose proof (dval_bound _ (Forall_inv_tail Dv)) as Bt. rewrite Lv2 in Bt.
          assert (d1 * d * 10000 ^ lenz vr < (top + 1) * 10000 ^ lenz vr) by (rewrite M2 in Vv; nia).
          assert (d1 * d < top + 1) by nia. nia. }
      cbn [bind]. destruct (G d (top :: vs') (us ++ zeros (L - n1))) as (qs & Eq & R).
      * lia.
      * exact Dv.
      * apply Forall_app. split; [exact Du|apply dig_zeros].
      * rewrite Lv, lenz_cons. lia.
      * rewrite lenz_app, lenz_zeros, Lu, lenz_cons by (unfold L; lia). fold (ndigits v1). fold n1. lia.
      * lia.
      * rewrite dval_app, dval_zeros, lenz_zeros by (unfold L; lia). rewrite VU. unfold mag. nia.
      * exists qs. split; [exact Eq|exact R].
    + cbn [bind]. destruct (G 1 (d1 :: vr) U) as (qs & Eq & R).
      * lia.
      * exact D2.
      * exact DU.
      * rewrite lenz_cons. lia.
      * exact LU.
      * rewrite Z.mul_1_l. unfold mag. now rewrite E2.
      * lia.
      * exists qs. split; [exact Eq|exact R].
Qed.

(** floor of the exact quotient in units of the last quotient digit *)
Lemma floor_quot a b e : 0 <= a -> 0 < b -> 0 <= e \/ e < 0 ->
  Qfloor (inject_Z a / inject_Z b * p10 e) =
  (a * 10 ^ Z.max 0 e) / (10 ^ Z.max 0 (- e) * b).
Proof.
  intros Ha Hb _.
  assert (Nb : ~ (inject_Z b == 0)%Q) by (intro K; change 0%Q with (inject_Z 0) in K; apply (proj1 (inject_Z_inj _ _)) in K; lia).
  destruct (Z_le_gt_dec 0 e) as [H|H].
  - rewrite Z.max_r, Z.max_l by lia. change (10 ^ 0) with 1. rewrite Z.mul_1_l.
    rewrite Zdiv_Qdiv. apply Qfloor_comp. rewrite p10_Z, inject_Z_mult by lia. field. exact Nb.
  - rewrite Z.max_l, Z.max_r by lia. change (10 ^ 0) with 1. rewrite Z.mul_1_r.
    rewrite Zdiv_Qdiv. apply Qfloor_comp. rewrite inject_Z_mult, <- p10_Z by lia.
    pose proof (p10_opp e) as O. assert (N1 : ~ (p10 (- e) == 0)%Q) by apply p10_nz.
    apply (Qmult_inj_r _ _ (p10 (- e)) N1). 
    transitivity (inject_Z a / inject_Z b * (p10 e * p10 (- e)))%Q; [ring|]. rewrite O. field. split; [exact Nb|exact N1].
Qed.

Lemma div_max a b x y : 0 <= x -> 0 <= y -> 0 < b -> 0 <= a ->
  (a * 10000 ^ x) / (10000 ^ y * b) = (a * 10 ^ Z.max 0 (4 * (x - y))) / (10 ^ Z.max 0 (- (4 * (x - y))) * b).
Proof.
  intros Hx Hy Hb Ha. destruct (Z_le_gt_dec y x) as [H|H].
  - rewrite Z.max_r, Z.max_l by lia. change (10 ^ 0) with 1. rewrite <- pB_ten by lia.
    assert (P : 0 < 10000 ^ y) by (apply pB_pos'; lia).
    replace (10000 ^ x) with (10000 ^ y * 10000 ^ (x - y)) by (rewrite <- pB_add by lia; f_equal; lia).
    replace (a * (10000 ^ y * 10000 ^ (x - y))) with (10000 ^ y * (a * 10000 ^ (x - y))) by ring.
    rewrite Z.div_mul_cancel_l by lia. f_equal. lia.
  - rewrite Z.max_l, Z.max_r by lia. change (10 ^ 0) with 1. replace (- (4 * (x - y))) with (4 * (y - x)) by lia.
    rewrite <- pB_ten by lia.
    assert (P : 0 < 10000 ^ x) by (apply pB_pos'; lia).
    assert (P' : 0 < 10000 ^ (y - x)) by (apply pB_pos'; lia).
    replace (10000 ^ y) with (10000 ^ x * 10000 ^ (y - x)) by (rewrite <- pB_add by lia; f_equal; lia).
    replace (a * 10000 ^ x) with (10000 ^ x * a) by ring. rewrite <- Z.mul_assoc.
    rewrite Z.div_mul_cancel_l by nia. f_equal. lia.
Qed.

Lemma smag_mag v : Forall dig (digits v) -> 0 <= mag v.
Proof. intro D. unfold mag. apply dval_bound. exact D. Qed.

(** the unrounded quotient is the exact quotient truncated at its last digit *)
Lemma quotient_value v1 v2 qs k sg : Forall dig (digits v1) -> Forall dig (digits v2) -> 0 < mag v2 ->
  sign v1 <> SNaN -> sign v2 <> SNaN -> sg = (if sgn_eqb (sign v1) (sign v2) then SPos else SNeg) ->
  lenz qs = k -> 1 <= k ->
  (let L := Z.max (k + ndigits v2) (ndigits v1) in
    dval qs = (mag v1 * 10000 ^ (L - ndigits v1)) / (10000 ^ (L + 1 - (ndigits v2 + k)) * mag v2)) ->
  (vval (Var (weight v1 - weight v2) 0 sg qs) ==
   trunc_at (vval v1 / vval v2) (- (4 * (weight v1 - weight v2 + 1 - k))))%Q.
Proof.
  intros D1 D2 P2 N1 N2 Hsg Lq Hk Vq. cbv zeta in Vq.
  pose proof (smag_mag v1 D1) as P1. assert (L1 : 0 <= ndigits v1) by apply lenz_nonneg.
  assert (L2 : 0 <= ndigits v2) by apply lenz_nonneg.
  rewrite div_max in Vq by lia.
  set (L := Z.max (k + ndigits v2) (ndigits v1)) in *.
  replace (4 * (L - ndigits v1 - (L + 1 - (ndigits v2 + k)))) with (4 * (ndigits v2 + k - ndigits v1 - 1)) in Vq by lia.
  rewrite <- floor_quot in Vq by lia.
  set (t := - (4 * (weight v1 - weight v2 + 1 - k))).
  set (x := (inject_Z (mag v1) / inject_Z (mag v2) * p10 (4 * (lsd v1 - lsd v2)))%Q).
  assert (Nm : ~ (inject_Z (mag v2) == 0)%Q).
  { intro K. change 0%Q with (inject_Z 0) in K. apply (proj1 (inject_Z_inj _ _)) in K. lia. }
  assert (Ex : (x * p10 t == inject_Z (mag v1) / inject_Z (mag v2) * p10 (4 * (ndigits v2 + k - ndigits v1 - 1)))%Q).
  { unfold x. rewrite <- Qmult_assoc, <- p10_add. unfold t, lsd.
    now replace (4 * (weight v1 + 1 - ndigits v1 - (weight v2 + 1 - ndigits v2)) + - (4 * (weight v1 - weight v2 + 1 - k)))
      with (4 * (ndigits v2 + k - ndigits v1 - 1)) by lia. }
  rewrite <- (Qfloor_comp _ _ Ex) in Vq.
  assert (X0 : (0 <= x)%Q).
  { unfold x. apply Qmult_le_0_compat; [|apply Qlt_le_weak, p10_pos].
    apply Qle_shift_div_l; [change 0%Q with (inject_Z 0); now rewrite <- Zlt_Qlt|]. rewrite Qmult_0_l.
    change 0%Q with (inject_Z 0). now rewrite <- Zle_Qle. }
  assert (Tx : (trunc_at x t == dec (dval qs) (- t))%Q).
  { unfold trunc_at. change (ten ^ t)%Q with (p10 t). rewrite trunc_int_pos.
    - rewrite <- Vq. reflexivity.
    - apply Qmult_le_0_compat; [exact X0|apply Qlt_le_weak, p10_pos]. }
  assert (Ev : (vval v1 / vval v2 == inject_Z (sgz (sign v1) * sgz (sign v2)) * x)%Q).
  { unfold vval, smag, dec, x. rewrite !inject_Z_mult.
    assert (S2 : (inject_Z (sgz (sign v2)) * inject_Z (sgz (sign v2)) == 1)%Q) by (destruct (sign v2); reflexivity).
    assert (S2n : ~ (inject_Z (sgz (sign v2)) == 0)%Q) by (destruct (sign v2); cbn; discriminate).
    assert (E4 : (p10 (4 * lsd v1) == p10 (4 * (lsd v1 - lsd v2)) * p10 (4 * lsd v2))%Q).
    { rewrite <- p10_add. now replace (4 * (lsd v1 - lsd v2) + 4 * lsd v2) with (4 * lsd v1) by lia. }
    rewrite E4. pose proof (p10_nz (4 * lsd v2)) as N4.
    set (a := inject_Z (sgz (sign v1))) in *. set (b := inject_Z (sgz (sign v2))) in *.
    set (P := p10 (4 * (lsd v1 - lsd v2))). set (R := p10 (4 * lsd v2)) in *.
    apply (Qmult_inj_r _ _ b S2n).
    transitivity (a * (inject_Z (mag v1) / inject_Z (mag v2)) * P)%Q.
    - field. repeat split; assumption.
    - transitivity (a * (b * b) * (inject_Z (mag v1) / inject_Z (mag v2)) * P)%Q; [rewrite S2; ring|ring]. }
  rewrite (trunc_at_comp _ _ t Ev).
  assert (Lhs : (vval (Var (weight v1 - weight v2) 0 sg qs) == inject_Z (sgz sg) * dec (dval qs) (- t))%Q).
  { unfold vval, smag, lsd, mag, ndigits. cbn [sign digits weight]. rewrite Lq. unfold t, dec.
    rewrite inject_Z_mult, Z.opp_involutive. ring. }
  rewrite Lhs, <- Tx. rewrite Hsg, sign_mul by assumption.
  assert (C : sgz (sign v1) * sgz (sign v2) = 1 \/ sgz (sign v1) * sgz (sign v2) = -1).
  { destruct (sign v1), (sign v2); cbn; auto. }
  destruct C as [-> | ->].
  - change (inject_Z 1) with 1%Q. rewrite (trunc_at_comp (1 * x) x) by ring. ring.
  - change (inject_Z (-1)) with (- (1))%Q. rewrite (trunc_at_comp (- (1) * x) (- x)) by ring. rewrite trunc_at_opp. ring.
Qed.

(** ** div_common *)
Lemma quot4 r : 0 <= r -> 4 * Z.quot (r + 4 - 1) 4 >= r.
Proof.
  intro H. rewrite Z.quot_div_nonneg by lia. pose proof (Z.div_mod (r + 4 - 1) 4 ltac:(lia)).
  pose proof (Z.mod_pos_bound (r + 4 - 1) 4 ltac:(lia)). lia.
Qed.

Lemma div_common_nz c v1 v2 rscale rnd : Forall dig (digits v1) -> Forall dig (digits v2) ->
  sign v1 <> SNaN -> sign v2 <> SNaN -> 0 <= rscale ->
  (forall d t, digits v2 = d :: t -> d <> 0) -> digits v2 <> [] -> digits v1 <> [] ->
  exists r, div_common c v1 v2 rscale rnd = Ret (Some r) /\ stripped r /\ dscale r = rscale /\
     (vval r == (if rnd then round_at else trunc_at) (vval v1 / vval v2) rscale)%Q.
Proof.
  intros D1 D2 N1 N2 Hr F2 E2 E1.
    unfold div_common. rewrite (nan_ok c v1 N1), (nan_ok c v2 N2). cbn [bind].
    destruct (digits v2) as [|d1 vr] eqn:Ed; [congruence|].
    specialize (F2 d1 vr eq_refl). pose proof (Forall_inv D2) as B1. unfold dig in B1.
    assert (Ln2 : ndigits v2 = 1 + lenz vr) by (unfold ndigits; rewrite Ed; apply lenz_cons).
    pose proof (lenz_nonneg vr) as Lvr.
    destruct (Z.eqb_spec (ndigits v2) 0); [lia|]. change (index (d1 :: vr) 0) with (Ret d1). cbn [bind].
    destruct (Z.eqb_spec d1 0); [lia|]. 
    destruct (Z.eqb_spec (ndigits v1) 0) as [Z1|Z1]; [apply lenz_0 in Z1; congruence|].
      set (k0 := Z.max (weight v1 - weight v2 + 1 + Z.quot (rscale + DEC_DIGITS - 1) DEC_DIGITS) 1).
      set (k := if rnd then k0 + 1 else k0).
      assert (Hk : 1 <= k) by (unfold k, k0; destruct rnd; lia).
      rewrite <- Ed in *.
      destruct (quotient_digits_spec c v1 v2 k D1 D2) as (qs & Eq & Dq & Lq & Vq); [rewrite Ed; cbn [nth]; lia|exact Hk|].
      unfold quotient_digits in Eq. cbv zeta in Eq. rewrite Eq. cbn [bind].
      assert (P2 : 0 < mag v2).
      { unfold mag. rewrite Ed. rewrite Ed in D2. pose proof (dval_pos d1 vr D2 F2). pose proof (pB_len vr). lia. }
      set (sg := if sgn_eqb (sign v1) (sign v2) then SPos else SNeg).
      pose proof (quotient_value v1 v2 qs k sg D1 D2 P2 N1 N2 eq_refl Lq Hk Vq) as QV.
      set (p := Var (weight v1 - weight v2) 0 sg qs) in *.
      assert (Np : sign p <> SNaN) by (unfold p, sg; cbn; destruct (sgn_eqb _ _); discriminate).
      pose proof (quot4 rscale ltac:(lia)) as Q4. change DEC_DIGITS with 4 in k0.
      destruct rnd.
      * destruct (round_common_spec c p rscale Dq Np) as (r & Er & R). rewrite Er. cbn [bind].
        exists (strip r). split; [reflexivity|].
        destruct (strip_spec r (rd_digits _ _ _ _ R) (rd_sign _ _ _ _ R)) as [T1 T2].
        split; [exact T1|]. split; [rewrite strip_dscale; apply R|].
        rewrite T2, (rd_val _ _ _ _ R). rewrite (round_at_comp _ _ rscale QV). apply round_trunc.
        unfold k, k0. lia.
      * destruct (trunc_common_spec c p rscale Dq Np) as (r & Er & R). rewrite Er. cbn [bind].
        exists (strip r). split; [reflexivity|].
        destruct (strip_spec r (tr_digits _ _ _ _ R) (tr_sign _ _ _ _ R)) as [T1 T2].
        split; [exact T1|]. split; [rewrite strip_dscale; apply R|].
        rewrite T2, (tr_val _ _ _ _ R). rewrite (trunc_at_comp _ _ rscale QV). apply trunc_trunc.
        unfold k, k0. lia.
Qed.

Theorem div_common_spec c v1 v2 rscale rnd : Forall dig (digits v1) -> Forall dig (digits v2) ->
  sign v1 <> SNaN -> sign v2 <> SNaN -> 0 <= rscale <= 16383 ->
  (forall d t, digits v2 = d :: t -> d <> 0) ->
  (digits v2 = [] -> div_common c v1 v2 rscale rnd = Ret None) /\
  (digits v2 <> [] ->
   exists r, div_common c v1 v2 rscale rnd = Ret (Some r) /\ stripped r /\ dscale r = rscale /\
     (vval r == (if rnd then round_at else trunc_at) (vval v1 / vval v2) rscale)%Q).
Proof.
  intros D1 D2 N1 N2 Hr F2. split; intro E2.
  - unfold div_common. rewrite (nan_ok c v1 N1), (nan_ok c v2 N2). cbn [bind]. unfold ndigits.
    rewrite E2. reflexivity.
  - destruct (Z.eq_dec (ndigits v1) 0) as [Z1|Z1].
    2:{ apply div_common_nz; auto; [lia|]. intro K. apply Z1. unfold ndigits. rewrite K. reflexivity. }
    unfold div_common. rewrite (nan_ok c v1 N1), (nan_ok c v2 N2). cbn [bind].
    destruct (digits v2) as [|d1 vr] eqn:Ed; [congruence|].
    specialize (F2 d1 vr eq_refl).
    assert (Ln2 : ndigits v2 = 1 + lenz vr) by (unfold ndigits; rewrite Ed; apply lenz_cons).
    pose proof (lenz_nonneg vr) as Lvr.
    destruct (Z.eqb_spec (ndigits v2) 0); [lia|]. change (index (d1 :: vr) 0) with (Ret d1). cbn [bind].
    destruct (Z.eqb_spec d1 0); [lia|]. destruct (Z.eqb_spec (ndigits v1) 0) as [_|Z2]; [|congruence].
      rewrite zero_scaled_ok by exact Hr. cbn [bind]. eexists. split; [reflexivity|].
      split; [|split; [reflexivity|]].
      * constructor; cbn; auto; try discriminate. intros d t E. destruct t; discriminate E.
      * apply lenz_0 in Z1. rewrite (vval_empty (Var 0 rscale SPos [])) by reflexivity.
        assert (Eq : (vval v1 / vval v2 == 0)%Q) by (rewrite (vval_empty v1 Z1); unfold Qdiv; ring).
        destruct rnd.
        -- rewrite (round_at_comp _ _ _ Eq). unfold round_at.
           rewrite (round_int_comp (0 * ten ^ rscale) 0) by ring. change (round_int 0) with 0. ring.
        -- rewrite (trunc_at_comp _ _ _ Eq). unfold trunc_at.
           rewrite (trunc_int_comp (0 * ten ^ rscale) 0) by ring. change (trunc_int 0) with 0. ring.
Qed.
