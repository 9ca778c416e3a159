(** * Mul: multiplication. *)
From Coq Require Import ZArith QArith Qround Qpower Qabs List Bool Lia Lqa.
From Verif Require Import Base Var Spec QDec Digits Arith Strip Round Trunc AddSub Signed Make.
Import ListNotations.
Open Scope Z_scope.

(** accumulator cells bounded by [b] *)
Definition cellb (b d : Z) : Prop := 0 <= d <= b.

Lemma cellb_mono b b' l : b <= b' -> Forall (cellb b) l -> Forall (cellb b') l.
Proof. intros L. apply Forall_impl. unfold cellb. intros; lia. Qed.

Lemma dval_nonneg b l : Forall (cellb b) l -> 0 <= dval l.
Proof.
  induction 1 as [|d t Hd Ht IH]; [cbn; lia|]. rewrite dval_cons. pose proof (pB_len t). unfold cellb in Hd. nia.
Qed.

(** a carry pass *)
Lemma carry_pass_spec c l : Forall (cellb 2147265252) l ->
  exists cr ds, carry_pass c l = Ret (cr, ds) /\ 0 <= cr <= 214748 /\ Forall dig ds /\ lenz ds = lenz l /\
    dval l = cr * 10000 ^ lenz l + dval ds.
Proof.
  induction 1 as [|d t Hd Ht IH].
  - exists 0, []. cbn. repeat split; auto; lia.
  - destruct IH as (cr & ds & E & Bc & Dd & Ln & V). cbn [carry_pass]. rewrite E. cbn [bind].
    unfold cellb in Hd. rewrite i32_ok by lia. cbn [bind]. change NBASE with 10000.
    destruct (Z.leb_spec 10000 (d + cr)) as [L|L].
    + rewrite Z.quot_div_nonneg by lia.
      pose proof (Z.div_mod (d + cr) 10000 ltac:(lia)) as DM.
      pose proof (Z.mod_pos_bound (d + cr) 10000 ltac:(lia)) as MB.
      set (q := (d + cr) / 10000) in *.
      rewrite i32_ok by lia. cbn [bind]. rewrite i32_ok by lia. cbn [bind].
      exists q, (d + cr - q * 10000 :: ds). split; [reflexivity|]. split; [lia|]. split.
      * constructor; [unfold dig; lia|exact Dd].
      * rewrite !lenz_cons. split; [lia|]. rewrite !dval_cons, V, Ln, pB_succ by apply lenz_nonneg. ring.
    + exists 0, (d + cr :: ds). split; [reflexivity|]. split; [lia|]. split.
      * constructor; [unfold dig; lia|exact Dd].
      * rewrite !lenz_cons. split; [lia|]. rewrite !dval_cons, V, Ln. ring.
Qed.

Lemma nth_app_last {A} (p : list A) x q i : Z.of_nat (length p) = i -> nth_error (p ++ x :: q) (Z.to_nat i) = Some x.
Proof. intro E. subst i. rewrite Nat2Z.id, nth_error_app2 by lia. now rewrite Nat.sub_diag. Qed.

(** the inner loop *)
Lemma mul_inner_spec c d1 ds2 b : dig d1 -> Forall dig ds2 -> 0 <= b -> b + d1 * 9999 <= 2147265252 ->
  forall k pre post, (k <= length ds2)%nat -> (k <= length pre)%nat ->
    Forall (cellb b) pre -> Forall (cellb (b + d1 * 9999)) post ->
    exists r, mul_inner c k (pre ++ post) d1 ds2 (lenz pre - 1) = Ret r /\ lenz r = lenz pre + lenz post /\
      Forall (cellb (b + d1 * 9999)) r /\
      dval r = dval (pre ++ post) + d1 * dval (firstn k ds2) * 10000 ^ lenz post.
Proof.
  intros D1 D2 Hb HB. unfold dig in D1. induction k as [|k IH]; intros pre post K1 K2 Bp Bq.
  - exists (pre ++ post). cbn [mul_inner firstn dval]. split; [reflexivity|]. split; [apply lenz_app|]. split.
    + apply Forall_app. split; [|exact Bq]. apply (cellb_mono b); [lia|exact Bp].
    + cbn. lia.
  - assert (Np : pre <> []) by (intros ->; cbn in K2; lia).
    destruct (exists_last Np) as (pre' & x & ->). clear Np.
    rewrite app_length in K2. cbn [length] in K2.
    apply Forall_app in Bp. destruct Bp as [Bp Bx]. apply Forall_inv in Bx. unfold cellb in Bx.
    cbn [mul_inner]. rewrite lenz_app, lenz_cons, lenz_nil. rewrite <- app_assoc. cbn [app].
    replace (lenz pre' + (1 + 0) - 1) with (lenz pre') by lia.
    destruct (nth_error ds2 k) as [d2|] eqn:E2; [|apply nth_error_None in E2; lia].
    assert (B2 : dig d2) by (eapply Forall_forall; [exact D2|]; eapply nth_error_In; exact E2). unfold dig in B2.
    rewrite (get_ok _ _ x) by (try apply lenz_nonneg; now apply nth_app_last). cbn [bind].
    rewrite (get_ok _ _ d2) by (try lia; rewrite Nat2Z.id; exact E2). cbn [bind].
    assert (P : 0 <= d1 * d2 <= d1 * 9999) by nia.
    rewrite i32_ok by lia. cbn [bind]. rewrite i32_ok by lia. cbn [bind].
    unfold set_unchecked. pose proof (lenz_nonneg pre') as Lp. pose proof (lenz_nonneg post) as Lq.
    replace ((lenz pre' <? 0) || (lenz (pre' ++ x :: post) <=? lenz pre')) with false.
    2:{ symmetry. rewrite lenz_app, lenz_cons. apply orb_false_iff. split; [apply Z.ltb_ge|apply Z.leb_gt]; lia. }
    cbn [bind]. rewrite set_nth_split by (unfold lenz; lia).
    destruct (IH pre' ((x + d1 * d2) :: post)) as (r & E & Lr & Br & Vr).
    + lia.
    + lia.
    + exact Bp.
    + constructor; [unfold cellb; lia|exact Bq].
    + exists r. split; [exact E|]. rewrite lenz_cons in Lr. split; [lia|]. split; [exact Br|].
      rewrite Vr, (firstn_S_snoc ds2 k d2 E2), dval_snoc.
      rewrite !(dval_app pre'), !dval_cons, !lenz_cons, pB_succ by lia. ring.
Qed.

(** the value contributed by the first [k] digits of the first operand, and how far the guarded
    accumulator may fall short of it *)
Lemma mul_outer_spec c ds1 ds2 n : Forall dig ds1 -> Forall dig ds2 -> 3 <= n <= lenz ds1 + lenz ds2 + 1 ->
  1 <= lenz ds2 ->
  let kk := lenz ds1 + lenz ds2 + 1 - n in
  forall k dig0 md, Z.of_nat k <= Z.min (lenz ds1) (n - 2) -> lenz dig0 = n ->
    0 <= md <= 214748 -> Forall (cellb (md * 9999)) dig0 ->
    dval dig0 * 10000 ^ kk + dval (firstn k ds1) * dval ds2 * 10000 ^ (lenz ds1 - Z.of_nat k) < 10000 ^ (n - 1) * 10000 ^ kk ->
    exists r, mul_outer c k dig0 md ds1 ds2 n = Ret r /\ lenz r = n /\ Forall (cellb 2147265252) r /\
      let p := dval dig0 * 10000 ^ kk + dval (firstn k ds1) * dval ds2 * 10000 ^ (lenz ds1 - Z.of_nat k) in
      p - Z.of_nat k * 10000 ^ (kk + 1) <= dval r * 10000 ^ kk <= p /\
      (kk = 0 -> dval r = p).
Proof.
  intros D1 D2 Hn Hl2 kk. assert (Hkk : 0 <= kk) by (unfold kk; lia).
  pose proof (pB_pos' kk Hkk) as Pkk.
  induction k as [|k IH]; intros dig0 md Hk Ln Md Bc Hlt.
  - exists dig0. cbn [mul_outer]. split; [reflexivity|]. split; [exact Ln|]. split.
    + apply (cellb_mono (md * 9999)); [lia|exact Bc].
    + cbv zeta. cbn [firstn dval]. cbn [dval fold_left] in *. rewrite !Z.mul_0_l, !Z.add_0_r. split; [cbn; lia|]. intros ->. change (10000 ^ 0) with 1. lia.
  - cbn [mul_outer]. pose proof (lenz_nonneg ds1) as L1.
    destruct (nth_error ds1 k) as [d1|] eqn:E1; [|apply nth_error_None in E1; unfold lenz in Hk; lia].
    assert (B1 : dig d1) by (eapply Forall_forall; [exact D1|]; eapply nth_error_In; exact E1). pose proof B1 as B1'. unfold dig in B1.
    rewrite (get_ok _ _ d1) by (try lia; rewrite Nat2Z.id; exact E1). cbn [bind].
    rewrite (firstn_S_snoc ds1 k d1 E1), dval_snoc in *.
    set (K := Z.of_nat k) in *. assert (HK : 0 <= K) by (unfold K; lia).
    replace (Z.of_nat (S k)) with (K + 1) in * by (unfold K; lia).
    assert (PE : 10000 ^ (lenz ds1 - K) = 10000 * 10000 ^ (lenz ds1 - (K + 1))).
    { rewrite <- pB_succ by lia. f_equal. lia. }
    assert (PP : 0 < 10000 ^ (lenz ds1 - (K + 1))) by (apply pB_pos'; lia).
    assert (Pk1 : 10000 ^ (kk + 1) = 10000 * 10000 ^ kk) by (rewrite Z.add_comm; now apply pB_succ).
    pose proof (dval_bound _ D2) as V2. pose proof (dval_bound _ (Forall_dig_firstn k ds1 D1)) as V1.
    destruct (Z.eqb_spec d1 0) as [Z1|Z1].
    + destruct (IH dig0 md) as (r & E & Lr & Br & Vr); auto.
      { lia. }
      { rewrite PE. rewrite Z1 in Hlt. nia. }
      exists r. split; [exact E|]. split; [exact Lr|]. split; [exact Br|]. cbv zeta in *.
      rewrite PE in Vr. rewrite Z1.
      replace ((dval (firstn k ds1) * 10000 + 0) * dval ds2 * 10000 ^ (lenz ds1 - (K + 1)))
        with (dval (firstn k ds1) * dval ds2 * (10000 * 10000 ^ (lenz ds1 - (K + 1)))) by ring.
      destruct Vr as [Vr1 Vr2]. split; [nia|exact Vr2].
    + rewrite (i32_ok c (md + d1)) by lia. cbn [bind].
      change (Z.quot (I32_MAX - Z.quot I32_MAX NBASE) (NBASE - 1)) with 214748.
      (* after the optional carry pass *)
      assert (G : exists md' dig1,
        (if 214748 <? md + d1 then
           '(carry, dig') <- carry_pass c dig0 ;;
           dassert c (carry =? 0) ;;; Ret (1 + d1, dig')
         else Ret (md + d1, dig0)) = Ret (md', dig1) /\
        lenz dig1 = n /\ dval dig1 = dval dig0 /\ d1 <= md' <= 214748 /\ Forall (cellb ((md' - d1) * 9999)) dig1).
      { destruct (Z.ltb_spec 214748 (md + d1)) as [L|L].
        - destruct (carry_pass_spec c dig0) as (cr & ds & E & Bcr & Dd & Ld & Vd).
          { apply (cellb_mono (md * 9999)); [lia|exact Bc]. }
          assert (C0 : cr = 0).
          { assert (0 <= dval (firstn k ds1) * 10000 + d1) by lia.
            assert (0 <= (dval (firstn k ds1) * 10000 + d1) * dval ds2 * 10000 ^ (lenz ds1 - (K + 1))) by nia.
            assert (L1' : dval dig0 * 10000 ^ kk < 10000 ^ (n - 1) * 10000 ^ kk) by lia.
            apply Z.mul_lt_mono_pos_r in L1'; [|exact Pkk].
            rewrite Ln in Vd. pose proof (dval_bound _ Dd) as Bd.
            assert (10000 ^ n = 10000 * 10000 ^ (n - 1)) by (rewrite <- pB_succ by lia; f_equal; lia).
            assert (0 < 10000 ^ (n - 1)) by (apply pB_pos'; lia). nia. }
          subst cr. rewrite E. cbn [bind]. rewrite dassert_ok by reflexivity. cbn [bind].
          exists (1 + d1), ds. split; [reflexivity|]. split; [lia|]. split; [lia|]. split; [lia|].
          replace (1 + d1 - d1) with 1 by lia. exact Dd.
        - exists (md + d1), dig0. split; [reflexivity|]. split; [exact Ln|]. split; [reflexivity|]. split; [lia|].
          replace (md + d1 - d1) with md by lia. exact Bc. }
      destruct G as (md' & dig1 & EG & Lg & Vg & Mg & Bg). rewrite EG. cbn [bind]. clear EG.
      set (bd := Z.min (lenz ds2 - 1) (n - K - 3)) in *.
      assert (Hbd : 0 <= bd) by (unfold bd; lia).
      (* split the accumulator at the first touched cell from the right *)
      assert (SP : exists pre post, dig1 = pre ++ post /\ lenz pre = K + bd + 3 /\ lenz post = n - (K + bd + 3)).
      { exists (firstn (Z.to_nat (K + bd + 3)) dig1), (skipn (Z.to_nat (K + bd + 3)) dig1).
        split; [symmetry; apply firstn_skipn|]. split; [apply lenz_firstn; unfold bd; lia|].
        rewrite lenz_skipn; unfold bd; lia. }
      destruct SP as (pre & post & -> & Lpre & Lpost).
      apply Forall_app in Bg. destruct Bg as [Bg1 Bg2].
      destruct (mul_inner_spec c d1 ds2 ((md' - d1) * 9999) B1' D2 ltac:(lia) ltac:(lia)
                  (Z.to_nat (bd + 1)) pre post) as (r1 & Er1 & Lr1 & Br1 & Vr1).
      { unfold lenz in *. lia. }
      { unfold lenz in *. lia. }
      { exact Bg1. }
      { apply (cellb_mono ((md' - d1) * 9999)); [lia|exact Bg2]. }
      replace (K + bd + 2) with (lenz pre - 1) by lia. rewrite Er1. cbn [bind].
      replace ((md' - d1) * 9999 + d1 * 9999) with (md' * 9999) in Br1 by lia.
      rewrite Vg in Vr1.
      (* the contribution of this digit *)
      set (F := d1 * dval ds2 * 10000 ^ (lenz ds1 - (K + 1))).
      set (T := d1 * dval (firstn (Z.to_nat (bd + 1)) ds2) * 10000 ^ lenz post) in *.
      assert (CT : F - 10000 ^ (kk + 1) <= T * 10000 ^ kk <= F /\ (kk = 0 -> T = F)).
      { destruct (Z_le_gt_dec (lenz ds2 - 1) (n - K - 3)) as [Le|Gt].
        - assert (Ebd : bd = lenz ds2 - 1) by (unfold bd; lia).
          assert (ET : T * 10000 ^ kk = F).
          { unfold T, F. rewrite Ebd. replace (lenz ds2 - 1 + 1) with (lenz ds2) by lia.
            rewrite to_nat_lenz, firstn_all. rewrite <- Z.mul_assoc, <- pB_add by lia.
            do 2 f_equal. unfold kk. lia. }
          split; [lia|]. intros K0. rewrite K0 in ET. change (10000 ^ 0) with 1 in ET. lia.
        - assert (Ebd : bd = n - K - 3) by (unfold bd; lia).
          assert (Ep0 : lenz post = 0) by lia.
          set (m := bd + 1) in *. assert (Hm : 0 <= m <= lenz ds2) by lia.
          pose proof (dval_firstn_skipn (Z.to_nat m) ds2) as SD. rewrite lenz_skipn in SD by lia.
          set (hi := dval (firstn (Z.to_nat m) ds2)) in *. set (lo := dval (skipn (Z.to_nat m) ds2)) in *.
          pose proof (dval_bound _ (Forall_dig_skipn (Z.to_nat m) ds2 D2)) as LoB.
          rewrite lenz_skipn in LoB by lia. fold lo in LoB.
          assert (Ek : 10000 ^ (lenz ds2 - m) * 10000 ^ (lenz ds1 - (K + 1)) = 10000 ^ kk).
          { rewrite <- pB_add by lia. f_equal. unfold kk. lia. }
          assert (EF : F = T * 10000 ^ kk + d1 * lo * 10000 ^ (lenz ds1 - (K + 1))).
          { unfold F, T. rewrite SD, Ep0, <- Ek. change (10000 ^ 0) with 1. ring. }
          assert (Q : 0 <= d1 * lo * 10000 ^ (lenz ds1 - (K + 1)) <= 10000 ^ (kk + 1)).
          { split; [nia|]. rewrite Pk1, <- Ek. 
            assert (d1 * lo <= 10000 * 10000 ^ (lenz ds2 - m)) by nia. nia. }
          split; [lia|]. intros K0. exfalso. unfold kk in K0. lia. }
      destruct CT as [CT1 CT2].
      assert (SP : (dval (firstn k ds1) * 10000 + d1) * dval ds2 * 10000 ^ (lenz ds1 - (K + 1))
                   = dval (firstn k ds1) * dval ds2 * 10000 ^ (lenz ds1 - K) + F).
      { rewrite PE. unfold F. ring. }
      rewrite SP in *.
      destruct (IH r1 md') as (r & E & Lr & Br & Vr).
      { lia. }
      { lia. }
      { lia. }
      { exact Br1. }
      { rewrite Vr1, Z.mul_add_distr_r. lia. }
      exists r. split; [exact E|]. split; [exact Lr|]. split; [exact Br|]. cbv zeta in *.
      rewrite Vr1, Z.mul_add_distr_r in Vr. destruct Vr as [Vr2 Vr3]. split.
      * rewrite Z.mul_add_distr_r. lia.
      * intro K0. rewrite (Vr3 K0), K0. change (10000 ^ 0) with 1. rewrite (CT2 K0). lia.
Qed.

Lemma map_as_i16 ds : Forall dig ds -> map as_i16 ds = ds.
Proof.
  induction 1 as [|d t Hd Ht IH]; [reflexivity|]. cbn. rewrite IH. unfold dig in Hd.
  now rewrite as_i16_id by lia.
Qed.

Lemma mul_swap (v1 v2 : var) : exists a b,
  (if ndigits v2 <? ndigits v1 then (v2, v1) else (v1, v2)) = (a, b) /\
  ((a = v1 /\ b = v2) \/ (a = v2 /\ b = v1)) /\ ndigits a <= ndigits b.
Proof. destruct (Z.ltb_spec (ndigits v2) (ndigits v1)); eexists; eexists; split; try reflexivity; split; auto; lia. Qed.

Lemma sign_mul s1 s2 : s1 <> SNaN -> s2 <> SNaN ->
  sgz (if sgn_eqb s1 s2 then SPos else SNeg) = sgz s1 * sgz s2.
Proof. destruct s1, s2; try congruence; reflexivity. Qed.

Lemma vval_mul_mag a b : (vval a * vval b ==
  dec (sgz (sign a) * sgz (sign b) * (mag a * mag b)) (4 * (lsd a + lsd b)))%Q.
Proof.
  unfold vval. rewrite dec_mul. replace (4 * lsd a + 4 * lsd b) with (4 * (lsd a + lsd b)) by lia.
  apply dec_eq_iff. unfold smag. ring.
Qed.

(** exact multiplication *)
Theorem mul_common_exact c v1 v2 rscale : Forall dig (digits v1) -> Forall dig (digits v2) ->
  sign v1 <> SNaN -> sign v2 <> SNaN ->
  1 <= ndigits v1 -> 1 <= ndigits v2 ->
  ndigits v1 + ndigits v2 + 1 <= weight v1 + weight v2 + 5 + Z.quot (rscale + 3) 4 ->
  exists r, mul_common c v1 v2 rscale = Ret r /\ stripped r /\ dscale r = rscale /\
    (vval r == round_at (vval v1 * vval v2) rscale)%Q.
Proof.
  intros D1 D2 N1 N2 L1 L2 Hn. unfold mul_common. rewrite (nan_ok c v1 N1), (nan_ok c v2 N2). cbn [bind].
  destruct (mul_swap v1 v2) as (a & b & -> & Hab & Lab).
  assert (Ha : Forall dig (digits a) /\ Forall dig (digits b) /\ sign a <> SNaN /\ sign b <> SNaN /\
     1 <= ndigits a /\ 1 <= ndigits b /\ ndigits a + ndigits b = ndigits v1 + ndigits v2 /\
     weight a + weight b = weight v1 + weight v2 /\ (vval a * vval b == vval v1 * vval v2)%Q).
  { destruct Hab as [[-> ->]|[-> ->]]; repeat (split; [assumption || lia|]); try reflexivity. ring. }
  destruct Ha as (Da & Db & Na & Nb & La & Lb & Es & Ew & Ev).
  replace ((ndigits a =? 0) || (ndigits b =? 0)) with false
    by (symmetry; apply orb_false_iff; split; apply Z.eqb_neq; lia).
  change DEC_DIGITS with 4. change MUL_GUARD_DIGITS with 2. replace (rscale + 4 - 1) with (rscale + 3) by lia.
  rewrite Es, Ew.
  rewrite Z.min_l by lia. rewrite <- Es.
  set (n := ndigits a + ndigits b + 1).
  replace (n <? 3) with false by (symmetry; apply Z.ltb_ge; unfold n; lia).
  rewrite Z.min_l by (unfold n; lia).
  replace (ndigits a - 1 + 1) with (ndigits a) by lia.
  pose proof (dval_bound _ Da) as Ba. pose proof (dval_bound _ Db) as Bb.
  fold (ndigits a) in Ba. fold (ndigits b) in Bb.
  assert (Kk : lenz (digits a) + lenz (digits b) + 1 - n = 0) by (unfold n, ndigits; lia).
  assert (Fa : firstn (Z.to_nat (ndigits a)) (digits a) = digits a)
    by (unfold ndigits; rewrite to_nat_lenz; apply firstn_all).
  assert (Pn : 10000 ^ (n - 1) = 10000 ^ ndigits a * 10000 ^ ndigits b).
  { rewrite <- pB_add by lia. f_equal. unfold n. lia. }
  assert (PL : dval (digits a) * dval (digits b) < 10000 ^ (n - 1)) by (rewrite Pn; nia).
  destruct (mul_outer_spec c (digits a) (digits b) n Da Db) with (k := Z.to_nat (ndigits a))
     (dig0 := zeros n) (md := 0) as (r & E & Lr & Br & Vr).
  { unfold n, ndigits. unfold ndigits in *. lia. }
  { exact Lb. }
  { rewrite Z2Nat.id by lia. unfold n. unfold ndigits in *. lia. }
  { apply lenz_zeros. unfold n. lia. }
  { lia. }
  { apply Forall_forall. intros x Hx. unfold zeros in Hx. apply repeat_spec in Hx. subst x. unfold cellb. lia. }
  { rewrite dval_zeros, Fa, Z2Nat.id, Kk by lia. fold (ndigits a). rewrite Z.sub_diag. change (10000 ^ 0) with 1. lia. }
  rewrite E. cbn [bind]. cbv zeta in Vr. destruct Vr as [_ Vr]. specialize (Vr Kk).
  rewrite dval_zeros, Fa, Z2Nat.id in Vr by lia. fold (ndigits a) in Vr. rewrite (Z.sub_diag (ndigits a)) in Vr.
  rewrite Kk in Vr || idtac. change (10000 ^ 0) with 1 in Vr.
  destruct (carry_pass_spec c r Br) as (cr & ds & Ec & Bc & Dd & Ld & Vd). rewrite Ec. cbn [bind].
  assert (C0 : cr = 0).
  { rewrite Lr in Vd. pose proof (dval_bound _ Dd) as Bd.
    assert (10000 ^ n = 10000 * 10000 ^ (n - 1)) by (rewrite <- pB_succ by (unfold n; lia); f_equal; lia).
    assert (0 < 10000 ^ (n - 1)) by (apply pB_pos'; unfold n; lia).
    assert (VL : dval r < 10000 ^ (n - 1)).
    { rewrite Vr. replace (0 * _ + dval (digits a) * dval (digits b) * 1) with (dval (digits a) * dval (digits b)) by ring. exact PL. }
    assert (D0 : 0 <= dval ds) by apply Bd. rewrite H in Vd. clear - VL Vd D0 H0 Bc. nia. }
  subst cr. rewrite dassert_ok by reflexivity. cbn [bind]. rewrite (map_as_i16 ds Dd).
  set (sg := if sgn_eqb (sign a) (sign b) then SPos else SNeg).
  set (p := Var (weight v1 + weight v2 + 2) 0 sg ds).
  assert (Np : sign p <> SNaN) by (unfold p, sg; cbn; destruct (sgn_eqb _ _); discriminate).
  destruct (round_common_spec c p rscale Dd Np) as (rr & Er & R). rewrite Er. cbn [bind].
  assert (Vp : (vval p == vval v1 * vval v2)%Q).
  { rewrite <- Ev, vval_mul_mag. unfold vval, lsd, smag, mag, ndigits. cbn [sign digits weight p].
    rewrite Ld, Lr. unfold sg. rewrite sign_mul by assumption.
    replace (dval ds) with (dval (digits a) * dval (digits b)) by lia.
    replace (4 * (weight v1 + weight v2 + 2 + 1 - n))
      with (4 * (weight a + 1 - lenz (digits a) + (weight b + 1 - lenz (digits b)))) by (unfold n, ndigits; lia).
    reflexivity. }
  destruct (strip_spec rr (rd_digits _ _ _ _ R) (rd_sign _ _ _ _ R)) as [T1 T2].
  exists (strip rr). split; [reflexivity|]. split; [exact T1|]. split; [rewrite strip_dscale; apply R|].
  rewrite T2, (rd_val _ _ _ _ R). unfold round_at.
  rewrite (round_int_comp (vval p * ten ^ rscale) (vval v1 * vval v2 * ten ^ rscale)); [reflexivity|].
  now rewrite Vp.
Qed.
