(** * DivFast: the fast division returns a rounding of a very good approximation of the quotient. *)
From Coq Require Import ZArith QArith Qabs Lqa Lia List Bool.
From Verif Require Import Base Var Spec SpecApi Flt FltFacts Transc QDec Digits Arith Strip Round Signed DivQ
  DivFastEst DivFastInt DivFastStep DivFastLoop.
Import ListNotations.
Open Scope Z_scope.

Local Notation B := 10000.

Lemma df_n rw rscale n1 : 0 <= rscale ->
  let n := df_ndigits rw rscale n1 in
  4 <= n /\ n1 <= n /\ rscale + 20 <= 4 * (n - rw) /\
  (n = 4 \/ n = n1 \/ n <= rw + 6 + rscale / 4).
Proof.
  intros H n. subst n. unfold df_ndigits. change DEC_DIGITS with 4. change DIV_GUARD_DIGITS with 4.
  rewrite Z.quot_div_nonneg by lia.
  pose proof (Z.div_mod (rscale + 4 - 1) 4 ltac:(lia)). pose proof (Z.mod_pos_bound (rscale + 4 - 1) 4 ltac:(lia)).
  pose proof (Z.div_mod rscale 4 ltac:(lia)). pose proof (Z.mod_pos_bound rscale 4 ltac:(lia)). lia.
Qed.

(** The quotient digits with the final carry: [lenz] + 1 of them, within [err] units of the quotient. *)
Lemma small_pow n : 4 <= n <= 1000000 -> (n + 1) * 10004 <= B ^ (n - 1).
Proof.
  intros H. assert (P : B ^ 3 <= B ^ (n - 1)) by (apply Z.pow_le_mono_r; lia).
  change (B ^ 3) with 1000000000000 in P. lia.
Qed.

Lemma dig_as_i16 l : Forall dig l -> map as_i16 l = l.
Proof.
  intro D. induction D as [|x l Hx D IH]; [reflexivity|]. unfold dig in Hx. cbn [map].
  rewrite IH, as_i16_id by lia. reflexivity.
Qed.

Definition df_bounds (v1 v2 : var) (rscale : Z) : Prop :=
  0 <= rscale <= 400000 /\ ndigits v1 <= 200000 /\ weight v1 - weight v2 <= 200000.

(** The quotient array after the final carry pass. *)
Lemma df_digits c v1 v2 rscale d1 t1 d0 dt :
  digits v1 = d1 :: t1 -> digits v2 = d0 :: dt -> Forall dig (d1 :: t1) -> Forall dig (d0 :: dt) ->
  d1 <> 0 -> d0 <> 0 -> df_bounds v1 v2 rscale ->
  let n := df_ndigits (weight v1 - weight v2 + 1) rscale (ndigits v1) in
  let div := 0 :: digits v1 ++ zeros (n - ndigits v1) in
  (exists qs ds', df_loop c (Z.to_nat n) (digits v2) (fdiv 1 (first4 (digits v2))) 1 div = Ret qs /\
      carry_down c qs = Ret (0, ds') /\ Forall dig ds' /\ lenz ds' = n + 1 /\
      Z.abs (mag v1 * B ^ (n - ndigits v1) * B ^ lenz dt - dval ds' * mag v2) <= (n + 1) * (10004 * B ^ lenz dt)) \/
  (dbg c = true /\ 21 < ndigits v2 /\
   df_loop c (Z.to_nat n) (digits v2) (fdiv 1 (first4 (digits v2))) 1 div = Panic WArith).
Proof.
  intros E1 E2 D1 D2 N1 N0 [Hr [Hn Hw]] n div.
  destruct (df_n (weight v1 - weight v2 + 1) rscale (ndigits v1) ltac:(lia)) as (n4 & nn1 & nr & nc). fold n in n4, nn1, nr, nc.
  assert (nmax : n <= 1000000).
  { pose proof (Z.div_le_upper_bound rscale 4 100000 ltac:(lia) ltac:(lia)). lia. }
  assert (L1 : ndigits v1 = 1 + lenz t1) by (unfold ndigits; rewrite E1; apply lenz_cons).
  pose proof (lenz_nonneg t1) as Lt1.
  assert (Ddiv : Forall dig (digits v1 ++ zeros (n - ndigits v1))).
  { apply Forall_app. split; [rewrite E1; exact D1|apply dig_zeros]. }
  assert (Ldiv : lenz (digits v1 ++ zeros (n - ndigits v1)) = n).
  { rewrite lenz_app, lenz_zeros by lia. unfold ndigits. lia. }
  assert (Vdiv : dval div = mag v1 * B ^ (n - ndigits v1)).
  { unfold div. rewrite dval_cons, dval_app, dval_zeros, lenz_zeros by lia. unfold mag. lia. }
  assert (PV : B ^ (n - 1) <= dval div < B ^ n).
  { split.
    - rewrite Vdiv. unfold mag. rewrite E1. pose proof (dval_pos d1 t1 D1 N1) as P.
      assert (E : B ^ (n - 1) = B ^ lenz t1 * B ^ (n - ndigits v1)).
      { rewrite <- pB_add by lia. f_equal. lia. }
      rewrite E. apply Z.mul_le_mono_nonneg_r; [|exact P]. apply Z.lt_le_incl, pB_pos'. lia.
    - unfold div. rewrite dval_cons, Z.mul_0_l, Z.add_0_l. pose proof (dval_bound _ Ddiv) as DB. rewrite Ldiv in DB. apply DB. }
  assert (HS : St d0 dt (Z.to_nat n) 1 div).
  { constructor.
    - unfold div. cbn [length]. f_equal. apply Nat2Z.inj. rewrite Z2Nat.id by lia. exact Ldiv.
    - unfold div. cbn [tl]. apply dig_cellb. exact Ddiv.
    - lia.
    - rewrite Z2Nat.id by lia. rewrite (Z.abs_eq (dval div)) by (pose proof (pB_pos' (n - 1) ltac:(lia)); lia).
      rewrite E3. pose proof (F_bound d0 dt D2 N0) as HF. set (F := dal 4 (d0 :: dt)) in *.
      replace (kfac (Z.to_nat n)) with 10003 by (destruct (Z.to_nat n) eqn:En; [lia|reflexivity]).
      assert (Pn : 0 < B ^ n) by (apply pB_pos'; lia).
      assert (A : 1000000000000 * B ^ n <= F * B ^ n) by (apply Z.mul_le_mono_nonneg_r; lia).
      lia. }
  destruct (loop_spec c d0 dt D2 N0 (Z.to_nat n) 1 div HS) as [(qs & E & Lq & Cq & Vq)|(Ed & E & NS)].
  - left. rewrite E2. exists qs.
    destruct (carry_down_spec c qs ltac:(apply (cellb_mono 3); [lia|exact Cq])) as (k & ds' & Ec & Dds & Lds & Vds & _).
    exists ds'. split; [exact E|].
    assert (Lz : lenz ds' = n + 1) by (unfold lenz; rewrite Lds, Lq; lia).
    rewrite Z2Nat.id in Vq by lia.
    assert (D0 : B ^ lenz dt <= dval (d0 :: dt)) by (apply dval_pos; assumption).
    pose proof (pB_len dt) as Pb. set (b := B ^ lenz dt) in *. set (D := dval (d0 :: dt)) in *.
    pose proof (small_pow n ltac:(lia)) as SP.
    assert (Pn1 : 0 < B ^ (n - 1)) by (apply pB_pos'; lia).
    assert (En : B ^ n = B * B ^ (n - 1)) by (rewrite <- pB_succ by lia; f_equal; lia).
    assert (En1 : B ^ (n + 1) = B * B ^ n) by (rewrite <- pB_succ by lia; f_equal; lia).
    set (V := dval div) in *. set (Qd := dval qs) in *.
    assert (Q0 : 0 <= Qd).
    { assert (A : 0 <= Qd * D).
      { assert (A1 : B ^ (n - 1) * b <= V * b) by (apply Z.mul_le_mono_nonneg_r; lia).
        assert (A2 : (n + 1) * (10004 * b) <= B ^ (n - 1) * b).
        { rewrite Z.mul_assoc. apply Z.mul_le_mono_nonneg_r; lia. }
        lia. }
      destruct (Z.le_gt_cases 0 Qd) as [H|H]; [exact H|exfalso]. assert (Qd * D < 0) by (apply Z.mul_neg_pos; lia). lia. }
    assert (Q1 : Qd < B ^ (n + 1)).
    { destruct (Z.lt_ge_cases Qd (B ^ (n + 1))) as [H|H]; [exact H|exfalso].
      assert (A : B ^ (n + 1) * b <= Qd * D) by (apply Z.mul_le_mono_nonneg; lia).
      assert (A1 : V * b <= B ^ n * b) by (apply Z.mul_le_mono_nonneg_r; lia).
      assert (A2 : (n + 1) * (10004 * b) <= B ^ n * b).
      { rewrite Z.mul_assoc. apply Z.mul_le_mono_nonneg_r; lia. }
      assert (A3 : B ^ (n + 1) * b = 10000 * (B ^ n * b)) by (rewrite En1; ring).
      assert (A4 : 0 < B ^ n * b) by (apply Z.mul_pos_pos; lia). lia. }
    pose proof (dval_bound _ Dds) as Bds. rewrite Lz in Bds.
    assert (Lqz : lenz qs = n + 1) by (unfold lenz; rewrite Lq; lia). rewrite Lqz in Vds.
    assert (k = 0).
    { assert (Pn2 : 0 < B ^ (n + 1)) by (apply pB_pos'; lia). set (P := B ^ (n + 1)) in *.
      clearbody P Qd. clear - Vds Bds Q0 Q1 Pn2. nia. }
    subst k. split; [exact Ec|]. split; [exact Dds|]. split; [exact Lz|].
    assert (Em : mag v2 = D) by (unfold mag; rewrite E2; reflexivity). rewrite Em, <- Vdiv.
    assert (Eds : dval ds' = Qd) by lia. rewrite Eds. exact Vq.
  - right. rewrite E2. split; [exact Ed|]. split; [|exact E].
    destruct (Z.lt_ge_cases 21 (ndigits v2)) as [H|H]; [exact H|exfalso]. apply NS. split.
    + unfold ndigits in H. rewrite E2 in H. unfold lenz in H. lia.
    + unfold div. cbn [tl]. apply dig_cellk. exact Ddiv.
Qed.

(** From the integer error to the quotient. *)
Lemma df_value v1 v2 n ds' dt0 : Forall dig (digits v1) -> sign v1 <> SNaN -> sign v2 <> SNaN ->
  B ^ dt0 <= mag v2 -> dt0 = ndigits v2 - 1 -> 0 <= dt0 -> ndigits v1 <= n -> lenz ds' = n + 1 -> n <= 1000000 ->
  Z.abs (mag v1 * B ^ (n - ndigits v1) * B ^ dt0 - dval ds' * mag v2) <= (n + 1) * (10004 * B ^ dt0) ->
  let rw := weight v1 - weight v2 + 1 in
  let sg := if sgn_eqb (sign v1) (sign v2) then SPos else SNeg in
  (Qabs (vval (Var rw 0 sg ds') - vval v1 / vval v2) <= inject_Z ((n + 1) * 10004) * p10 (4 * (rw - n)))%Q.
Proof.
  intros D1 S1 S2 HD Hdt Hdt0 Hn Hl Hnm H rw sg.
  set (b := B ^ dt0) in *. assert (Pb : 0 < b) by (apply pB_pos'; lia).
  set (D := mag v2) in *. set (Qd := dval ds') in *.
  set (V := mag v1 * B ^ (n - ndigits v1)) in *.
  set (e2 := 4 * lsd v2).
  set (x := (vval (Var rw 0 sg ds'))%Q).
  assert (Hx : (x == inject_Z (sgz sg * Qd) * p10 (4 * (rw - n)))%Q).
  { unfold x, vval, smag, mag, lsd, ndigits. cbn [weight sign digits]. rewrite Hl.
    replace (4 * (rw + 1 - (n + 1))) with (4 * (rw - n)) by lia. reflexivity. }
  assert (H2 : (vval v2 == inject_Z (sgz (sign v2) * D) * p10 e2)%Q) by reflexivity.
  assert (H1 : (vval v1 == inject_Z (sgz (sign v1) * V * b) * p10 (4 * (rw - n) + e2))%Q).
  { unfold vval, smag, dec. unfold V.
    assert (A : (inject_Z (B ^ (n - ndigits v1)) == p10 (4 * (n - ndigits v1)))%Q).
    { rewrite p10_Z by lia. rewrite pB_ten by lia. reflexivity. }
    assert (A2 : (inject_Z b == p10 (4 * dt0))%Q).
    { unfold b. rewrite p10_Z by lia. rewrite pB_ten by lia. reflexivity. }
    rewrite !inject_Z_mult, A, A2.
    assert (A3 : (p10 (4 * lsd v1) == p10 (4 * (n - ndigits v1)) * p10 (4 * dt0) * p10 (4 * (rw - n) + e2))%Q).
    { rewrite <- !p10_add. unfold e2, lsd, rw.
      now replace (4 * (n - ndigits v1) + 4 * dt0 + (4 * (weight v1 - weight v2 + 1 - n) + 4 * (weight v2 + 1 - ndigits v2)))
        with (4 * (weight v1 + 1 - ndigits v1)) by lia. }
    rewrite A3. ring. }
  assert (HDp : 0 < D) by lia.
  assert (N2 : ~ (vval v2 == 0)%Q).
  { rewrite H2. intro K. apply Qmult_integral in K. destruct K as [K|K]; [|apply (p10_nz e2); exact K].
    change 0%Q with (inject_Z 0) in K. apply (proj1 (inject_Z_inj _ _)) in K.
    clearbody D. clear - K HDp. destruct (sign v2); cbn [sgz] in K; lia. }
  assert (Hs : sgz sg * sgz (sign v2) = sgz (sign v1)).
  { unfold sg. destruct (sign v1), (sign v2); try reflexivity; congruence. }
  assert (EQ : ((x - vval v1 / vval v2) * vval v2 ==
                inject_Z (sgz (sign v1) * (Qd * D - V * b)) * p10 (4 * (rw - n)) * p10 e2)%Q).
  { assert (E : ((x - vval v1 / vval v2) * vval v2 == x * vval v2 - vval v1)%Q) by (field; exact N2).
    rewrite E, Hx, H2, H1, p10_add, <- Hs. 
    replace (sgz sg * sgz (sign v2) * (Qd * D - V * b))
      with ((sgz sg * Qd) * (sgz (sign v2) * D) + - (sgz sg * sgz (sign v2) * V * b)) by ring.
    rewrite inject_Z_plus, inject_Z_opp, (inject_Z_mult (sgz sg * Qd)). ring. }
  apply (Qabs_wd _ _) in EQ. rewrite Qabs_Qmult in EQ.
  assert (A2 : (Qabs (vval v2) == inject_Z D * p10 e2)%Q).
  { rewrite H2, Qabs_Qmult, (Qabs_pos (p10 e2)) by apply Qlt_le_weak, p10_pos.
    assert (Ea : Qabs (inject_Z (sgz (sign v2) * D)) = inject_Z D).
    { unfold Qabs, inject_Z. f_equal. rewrite Z.abs_mul, (Z.abs_eq D) by lia. destruct (sign v2); cbn [sgz]; lia. }
    rewrite Ea. reflexivity. }
  rewrite A2 in EQ.
  assert (A3 : (Qabs (inject_Z (sgz (sign v1) * (Qd * D - V * b)) * p10 (4 * (rw - n)) * p10 e2)
               <= inject_Z ((n + 1) * 10004) * inject_Z D * p10 (4 * (rw - n)) * p10 e2)%Q).
  { rewrite !Qabs_Qmult, (Qabs_pos (p10 e2)), (Qabs_pos (p10 (4 * (rw - n)))) by apply Qlt_le_weak, p10_pos.
    apply Qmult_le_compat_r; [|apply Qlt_le_weak, p10_pos]. apply Qmult_le_compat_r; [|apply Qlt_le_weak, p10_pos].
    assert (Ea : Qabs (inject_Z (sgz (sign v1) * (Qd * D - V * b))) = inject_Z (Z.abs (Qd * D - V * b))).
    { unfold Qabs, inject_Z. f_equal. rewrite Z.abs_mul. destruct (sign v1); cbn [sgz]; lia. }
    rewrite Ea, <- inject_Z_mult, <- Zle_Qle.
    assert (A4 : (n + 1) * 10004 * b <= (n + 1) * 10004 * D).
    { apply Z.mul_le_mono_nonneg_l; [|exact HD]. pose proof (lenz_nonneg ds'). lia. }
    lia. }
  rewrite <- EQ in A3.
  assert (Dp : (0 < inject_Z D * p10 e2)%Q).
  { apply Qmult_lt_0_compat; [|apply p10_pos]. change 0%Q with (inject_Z 0). rewrite <- Zlt_Qlt. exact HDp. }
  assert (A5 : (inject_Z ((n + 1) * 10004) * inject_Z D * p10 (4 * (rw - n)) * p10 e2 ==
                (inject_Z ((n + 1) * 10004) * p10 (4 * (rw - n))) * (inject_Z D * p10 e2))%Q) by ring.
  rewrite A5 in A3. apply (proj1 (Qmult_le_r _ _ _ Dp)) in A3. exact A3.
Qed.

(** [near]: [r] is the rounding at [rscale] of a number within 10^-(rscale+9) of [x]. *)
Definition nearly_rounded (x : Q) (rscale : Z) (r : Q) : Prop :=
  exists q, (Qabs (q - x) <= p10 (- rscale - 9))%Q /\ (r == round_at q rscale)%Q.

Theorem div_fast_semi c v1 v2 rscale : semi v1 -> semi v2 -> digits v1 <> [] -> digits v2 <> [] ->
  df_bounds v1 v2 rscale ->
  (exists r, div_fast_common c v1 v2 rscale true = Ret (Some r) /\ stripped r /\ dscale r = rscale /\
     nearly_rounded (vval v1 / vval v2) rscale (vval r)) \/
  (dbg c = true /\ 21 < ndigits v2 /\ div_fast_common c v1 v2 rscale true = Panic WArith).
Proof.
  intros T1 T2 Z1 Z2 HB. unfold div_fast_common.
  rewrite (nan_ok c v1 (sm_nan _ T1)), (nan_ok c v2 (sm_nan _ T2)). cbn [bind].
  destruct (digits v1) as [|d1 t1] eqn:E1; [congruence|]. destruct (digits v2) as [|d0 dt] eqn:E2; [congruence|].
  assert (L1 : ndigits v1 = 1 + lenz t1) by (unfold ndigits; rewrite E1; apply lenz_cons).
  assert (L2 : ndigits v2 = 1 + lenz dt) by (unfold ndigits; rewrite E2; apply lenz_cons).
  pose proof (lenz_nonneg t1). pose proof (lenz_nonneg dt).
  destruct (Z.eqb_spec (ndigits v2) 0) as [Ka|_]; [lia|]. change (index (d0 :: dt) 0) with (Ret d0). cbn [bind].
  pose proof (sm_digits _ T1) as D1. pose proof (sm_digits _ T2) as D2. rewrite E1 in D1. rewrite E2 in D2.
  pose proof (sm_first _ T1 d1 t1 E1) as N1. pose proof (sm_first _ T2 d0 dt E2) as N0.
  destruct (Z.eqb_spec d0 0) as [Ka|_]; [lia|]. destruct (Z.eqb_spec (ndigits v1) 0) as [Ka|_]; [lia|].
  set (rw := weight v1 - weight v2 + 1) in *. set (n := df_ndigits rw rscale (ndigits v1)) in *.
  pose proof (df_digits c v1 v2 rscale d1 t1 d0 dt E1 E2 D1 D2 N1 N0 HB) as DF. cbv zeta in DF.
  fold rw n in DF. rewrite E1, E2 in DF.
  destruct DF as [(qs & ds' & El & Ec & Dds & Lds & Hq)|(Ed & H21 & El)]; rewrite El; cbn [bind];
    [|right; split; [exact Ed|]; split; [exact H21|reflexivity]].
  left. rewrite Ec. cbn [bind]. rewrite dassert_ok by reflexivity. cbn [bind].
  rewrite (dig_as_i16 ds' Dds).
  set (sg := if sgn_eqb (sign v1) (sign v2) then SPos else SNeg).
  assert (Np : sign (Var rw 0 sg ds') <> SNaN) by (unfold sg; cbn; destruct (sgn_eqb _ _); discriminate).
  destruct (round_common_spec c (Var rw 0 sg ds') rscale Dds Np) as (r & Er & R). rewrite Er. cbn [bind].
  exists (strip r). split; [reflexivity|].
  destruct (strip_spec r (rd_digits _ _ _ _ R) (rd_sign _ _ _ _ R)) as [U1 U2].
  split; [exact U1|]. split; [rewrite strip_dscale; apply R|].
  exists (vval (Var rw 0 sg ds')). split; [|rewrite U2; apply R].
  destruct HB as (Hr & Hn1 & Hw).
  destruct (df_n rw rscale (ndigits v1) ltac:(lia)) as (n4 & nn1 & nr & nc). fold n in n4, nn1, nr, nc.
  assert (nmax : n <= 1000000).
  { pose proof (Z.div_le_upper_bound rscale 4 100000 ltac:(lia) ltac:(lia)). unfold rw in nc. lia. }
  assert (HD : B ^ lenz dt <= mag v2) by (unfold mag; rewrite E2; apply dval_pos; assumption).
  pose proof (df_value v1 v2 n ds' (lenz dt) ltac:(rewrite E1; exact D1) (sm_nan _ T1) (sm_nan _ T2) HD ltac:(lia) ltac:(lia) nn1 Lds nmax Hq) as DV.
  cbv zeta in DV. fold rw in DV. fold sg in DV.
  apply Qle_trans with (1 := DV).
  assert (P1 : (p10 (4 * (rw - n)) <= p10 (- rscale - 20))%Q) by (apply p10_le; lia).
  assert (P2 : (p10 (- rscale - 9) == inject_Z (10 ^ 11) * p10 (- rscale - 20))%Q).
  { replace (- rscale - 9) with (11 + (- rscale - 20)) by lia. rewrite p10_add, (p10_Z 11) by lia. reflexivity. }
  rewrite P2. pose proof (p10_pos (- rscale - 20)) as PP.
  apply Qle_trans with (inject_Z ((n + 1) * 10004) * p10 (- rscale - 20))%Q.
  - rewrite !(Qmult_comm (inject_Z _)). apply Qmult_le_compat_r; [exact P1|].
    change 0%Q with (inject_Z 0). rewrite <- Zle_Qle. lia.
  - apply Qmult_le_compat_r; [|apply Qlt_le_weak; exact PP]. rewrite <- Zle_Qle. change (10 ^ 11) with 100000000000. lia.
Qed.

Theorem div_fast_spec c v1 v2 rscale : stripped v1 -> stripped v2 -> digits v1 <> [] -> digits v2 <> [] ->
  df_bounds v1 v2 rscale ->
  (exists r, div_fast_common c v1 v2 rscale true = Ret (Some r) /\ stripped r /\ dscale r = rscale /\
     nearly_rounded (vval v1 / vval v2) rscale (vval r)) \/
  (dbg c = true /\ 21 < ndigits v2 /\ div_fast_common c v1 v2 rscale true = Panic WArith).
Proof. intros T1 T2. apply div_fast_semi; now apply stripped_semi. Qed.
