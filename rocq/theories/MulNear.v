(** * MulNear: multiplication to an arbitrary scale, with the guard digits as the code has them. *)
From Coq Require Import ZArith QArith Qabs List Bool Lia Lqa.
From Verif Require Import Base Var Spec QDec Digits Arith Strip Round Trunc AddSub Signed Make Mul.
Import ListNotations.
Open Scope Z_scope.

Local Notation B := 10000.

(** [r] is the rounding at [rscale] of a number within [k] 10^-(rscale+4) of [x]. *)
Definition mul_near (x : Q) (k rscale : Z) (r : Q) : Prop :=
  exists q, (Qabs (q - x) <= inject_Z k * p10 (- rscale - 4))%Q /\ (r == round_at q rscale)%Q.

Lemma round_at_0 s : (round_at 0 s == 0)%Q.
Proof.
  unfold round_at. rewrite (round_int_comp (0 * ten ^ s) 0) by ring. change (round_int 0) with 0. ring.
Qed.

Lemma stripped_zero s : stripped (Var 0 s SPos []).
Proof. constructor; cbn; auto; try discriminate. intros d t E. destruct t; discriminate E. Qed.

Lemma mag_lt v : Forall dig (digits v) -> (Qabs (vval v) < p10 (4 * (weight v + 1)))%Q.
Proof.
  intro D. rewrite (Qabs_vval v D). pose proof (dval_bound _ D) as H. fold (mag v) in H. fold (ndigits v) in H.
  assert (L : 0 <= ndigits v) by apply lenz_nonneg.
  assert (E : (p10 (4 * (weight v + 1)) == dec (B ^ ndigits v) (4 * lsd v))%Q).
  { rewrite pB_ten by exact L. rewrite <- (Z.mul_1_l (10 ^ _)), dec_shift by lia. rewrite dec_1. unfold lsd.
    now replace (4 * (weight v + 1 - ndigits v) + 4 * ndigits v) with (4 * (weight v + 1)) by lia. }
  rewrite E. apply dec_lt_iff. lia.
Qed.

Lemma quot_ceil4 r : 0 <= r -> 4 * Z.quot (r + 3) 4 >= r.
Proof.
  intro H. rewrite Z.quot_div_nonneg by lia. pose proof (Z.div_mod (r + 3) 4 ltac:(lia)).
  pose proof (Z.mod_pos_bound (r + 3) 4 ltac:(lia)). lia.
Qed.

(** The scale matters only when the result is taken as zero without computing. *)
Lemma zero_scaled_any c s : 0 <= s -> s <= 16383 \/ dbg c = false -> zero_scaled c s = Ret (Var 0 s SPos []).
Proof.
  intros H [K|K]; [apply zero_scaled_ok; lia|]. unfold zero_scaled, dassert. rewrite K. reflexivity.
Qed.

Theorem mul_common_near_gen c v1 v2 rscale : Forall dig (digits v1) -> Forall dig (digits v2) ->
  sign v1 <> SNaN -> sign v2 <> SNaN -> 0 <= rscale ->
  (rscale <= 16383 \/ dbg c = false) \/ (digits v1 <> [] /\ digits v2 <> [] /\ 0 <= 4 * (weight v1 + weight v2) + rscale) ->
  exists r, mul_common c v1 v2 rscale = Ret r /\ stripped r /\ dscale r = rscale /\
    mul_near (vval v1 * vval v2) (Z.min (ndigits v1) (ndigits v2) + 1) rscale (vval r).
Proof.
  intros D1 D2 N1 N2 Hr HZ. unfold mul_common. rewrite (nan_ok c v1 N1), (nan_ok c v2 N2). cbn [bind].
  destruct (mul_swap v1 v2) as (a & b & -> & Hab & Lab).
  assert (Ha : Forall dig (digits a) /\ Forall dig (digits b) /\ sign a <> SNaN /\ sign b <> SNaN /\
     Z.min (ndigits v1) (ndigits v2) = ndigits a /\
     ((rscale <= 16383 \/ dbg c = false) \/ (digits a <> [] /\ digits b <> [] /\ 0 <= 4 * (weight a + weight b) + rscale)) /\ (vval a * vval b == vval v1 * vval v2)%Q).
  { destruct Hab as [[-> ->]|[-> ->]]; repeat (split; [assumption || lia || (destruct HZ as [HZ|(HZ1 & HZ2 & HZ3)]; [now left|right; repeat (split; [assumption|]); lia])|]); try reflexivity. ring. }
  destruct Ha as (Da & Db & Na & Nb & Es & Hz & Ev). rewrite Es.
  assert (LA : 0 <= ndigits a) by apply lenz_nonneg. assert (LB : 0 <= ndigits b) by apply lenz_nonneg.
  pose proof (p10_pos (- rscale - 4)) as Pe.
  assert (Ka : (0 <= inject_Z (ndigits a + 1))%Q) by (change 0%Q with (inject_Z 0); rewrite <- Zle_Qle; lia).
  assert (Ka1 : (1 <= inject_Z (ndigits a + 1))%Q) by (change 1%Q with (inject_Z 1); rewrite <- Zle_Qle; lia).
  destruct ((ndigits a =? 0) || (ndigits b =? 0)) eqn:E0.
  { assert (Hr2 : rscale <= 16383 \/ dbg c = false).
    { destruct Hz as [Hz|(Hz1 & Hz2 & _)]; [exact Hz|]. exfalso. apply orb_true_iff in E0.
      destruct E0 as [E0|E0]; apply Z.eqb_eq in E0; apply lenz_0 in E0; congruence. }
    rewrite zero_scaled_any by (exact Hr || exact Hr2). exists (Var 0 rscale SPos []). split; [reflexivity|].
    split; [apply stripped_zero|]. split; [reflexivity|]. exists 0%Q. split; [|rewrite round_at_0; apply vval_empty; reflexivity].
    assert (Ez : (vval v1 * vval v2 == 0)%Q).
    { rewrite <- Ev. apply orb_true_iff in E0. destruct E0 as [E0|E0]; apply Z.eqb_eq in E0; apply lenz_0 in E0.
      - rewrite (vval_empty a E0). ring.
      - rewrite (vval_empty b E0). ring. }
    rewrite Ez. change (Qabs (0 - 0)) with 0%Q. apply Qmult_le_0_compat; [exact Ka|apply Qlt_le_weak, Pe]. }
  apply orb_false_iff in E0. destruct E0 as [Ea Eb]. apply Z.eqb_neq in Ea, Eb.
  change DEC_DIGITS with 4. change MUL_GUARD_DIGITS with 2. replace (rscale + 4 - 1) with (rscale + 3) by lia.
  set (rw := weight a + weight b + 2). set (cl := Z.quot (rscale + 3) 4) in *.
  assert (Hc : rscale <= 4 * cl) by (pose proof (quot_ceil4 rscale); lia).
  set (n := Z.min (ndigits a + ndigits b + 1) (rw + 1 + cl + 2)).
  destruct (Z.ltb_spec n 3) as [Hn|Hn].
  { assert (Hr2 : rscale <= 16383 \/ dbg c = false) by (destruct Hz as [Hz|(_ & _ & Hz)]; [exact Hz|exfalso; unfold n, rw in *; lia]).
    rewrite zero_scaled_any by (exact Hr || exact Hr2). exists (Var 0 rscale SPos []). split; [reflexivity|].
    split; [apply stripped_zero|]. split; [reflexivity|]. exists 0%Q. split; [|rewrite round_at_0; apply vval_empty; reflexivity].
    assert (E : (Qabs (0 - vval v1 * vval v2) <= p10 (- rscale - 4))%Q).
    { rewrite <- Ev. setoid_replace (0 - vval a * vval b)%Q with (- (vval a * vval b))%Q by ring.
      rewrite Qabs_opp, Qabs_Qmult. pose proof (mag_lt a Da) as Ma. pose proof (mag_lt b Db) as Mb.
      apply Qle_trans with (p10 (4 * (weight a + 1)) * p10 (4 * (weight b + 1)))%Q.
      - apply Qmult_le_compat_nonneg; split; try apply Qabs_nonneg; apply Qlt_le_weak; assumption.
      - rewrite <- p10_add. apply p10_le. unfold rw in *. lia. }
    apply Qle_trans with (1 := E). rewrite <- (Qmult_1_l (p10 (- rscale - 4))) at 1.
    apply Qmult_le_compat_r; [exact Ka1|apply Qlt_le_weak, Pe]. }
  set (k := Z.min (ndigits a - 1) (n - 3) + 1).
  assert (Hk : 1 <= k <= ndigits a) by (unfold k; lia).
  assert (Hkn : k <= n - 2) by (unfold k; lia).
  pose proof (dval_bound _ Da) as Ba. pose proof (dval_bound _ Db) as Bb.
  fold (ndigits a) in Ba. fold (ndigits b) in Bb.
  set (kk := ndigits a + ndigits b + 1 - n). assert (Hkk : 0 <= kk) by (unfold kk, n; lia).
  set (P := dval (digits a) * dval (digits b)).
  pose proof (dval_firstn_skipn (Z.to_nat k) (digits a)) as SD. rewrite lenz_skipn in SD by (unfold ndigits in Hk; lia).
  fold (ndigits a) in SD. set (hi := dval (firstn (Z.to_nat k) (digits a))) in *. set (lo := dval (skipn (Z.to_nat k) (digits a))) in *.
  pose proof (dval_bound _ (Forall_dig_skipn (Z.to_nat k) _ Da)) as LoB.
  rewrite lenz_skipn in LoB by (unfold ndigits in Hk; lia). fold (ndigits a) in LoB. fold lo in LoB.
  assert (P1 : P = hi * dval (digits b) * B ^ (ndigits a - k) + lo * dval (digits b)) by (unfold P; rewrite SD; ring).
  assert (Pk1 : B ^ (kk + 1) = B * B ^ kk) by (rewrite Z.add_comm; now apply pB_succ).
  assert (Pkk : 0 < B ^ kk) by (apply pB_pos'; lia).
  assert (Tail : 0 <= lo * dval (digits b) <= B ^ (kk + 1) /\ (kk = 0 -> lo = 0)).
  { destruct (Z.eq_dec k (ndigits a)) as [Ek|Ek].
    - rewrite Ek, Z.sub_diag in LoB. change (B ^ 0) with 1 in LoB. assert (lo = 0) by lia. split; [|auto].
      rewrite H, Z.mul_0_l. lia.
    - assert (kn : k = n - 2) by (unfold k in *; lia).
      assert (E : B ^ (kk + 1) = B ^ (ndigits a - k) * B ^ ndigits b).
      { rewrite <- pB_add by lia. f_equal. unfold kk. lia. }
      split; [|intro K0; exfalso; unfold kk in K0; lia]. rewrite E. split.
      + apply Z.mul_nonneg_nonneg; lia.
      + apply Z.mul_le_mono_nonneg; lia. }
  destruct Tail as [Tail Tail0].
  assert (PL : P < B ^ ndigits a * B ^ ndigits b) by (unfold P; apply Z.mul_lt_mono_nonneg; lia).
  assert (Pn : B ^ (n - 1) * B ^ kk = B ^ ndigits a * B ^ ndigits b).
  { rewrite <- !pB_add by lia. f_equal. unfold kk. lia. }
  destruct (mul_outer_spec c (digits a) (digits b) n Da Db) with (k := Z.to_nat k)
     (dig0 := zeros n) (md := 0) as (r & E & Lr & Br & Vr).
  { fold (ndigits a) (ndigits b). unfold n. lia. }
  { fold (ndigits b). lia. }
  { rewrite Z2Nat.id by lia. fold (ndigits a). lia. }
  { apply lenz_zeros. lia. }
  { lia. }
  { apply Forall_forall. intros x Hx. unfold zeros in Hx. apply repeat_spec in Hx. subst x. unfold cellb. lia. }
  { fold (ndigits a) (ndigits b). fold kk. rewrite dval_zeros, Z2Nat.id by lia. fold hi. rewrite Pn. lia. }
  fold (ndigits a) (ndigits b) in Vr. fold kk in Vr.
  rewrite dval_zeros, Z2Nat.id in Vr by lia. fold hi in Vr. cbv zeta in Vr. rewrite Z.mul_0_l, Z.add_0_l in Vr.
  destruct Vr as [Vr Vr0].
  replace (Z.min (ndigits a - 1) (n - 3) + 1) with k by reflexivity. rewrite E. cbn [bind].
  destruct (carry_pass_spec c r Br) as (cr & ds & Ec & Bc & Dd & Ld & Vd). rewrite Ec. cbn [bind].
  assert (Wr : P - (k + 1) * B ^ (kk + 1) <= dval r * B ^ kk <= P) by lia.
  assert (C0 : cr = 0).
  { rewrite Lr in Vd. pose proof (dval_bound _ Dd) as Bd.
    assert (En : B ^ n = B * B ^ (n - 1)) by (rewrite <- pB_succ by lia; f_equal; lia).
    assert (Pn1 : 0 < B ^ (n - 1)) by (apply pB_pos'; lia).
    assert (VL : dval r < B ^ (n - 1)).
    { apply (Z.mul_lt_mono_pos_r (B ^ kk)); [exact Pkk|]. lia. }
    assert (D0 : 0 <= dval ds) by apply Bd. rewrite En in Vd. clear - VL Vd D0 Pn1 Bc. nia. }
  subst cr. rewrite dassert_ok by reflexivity. cbn [bind]. rewrite (map_as_i16 ds Dd).
  set (sg := if sgn_eqb (sign a) (sign b) then SPos else SNeg).
  set (p := Var rw 0 sg ds).
  assert (Np : sign p <> SNaN) by (unfold p, sg; cbn; destruct (sgn_eqb _ _); discriminate).
  destruct (round_common_spec c p rscale Dd Np) as (rr & Er & R). rewrite Er. cbn [bind].
  destruct (strip_spec rr (rd_digits _ _ _ _ R) (rd_sign _ _ _ _ R)) as [T1 T2].
  exists (strip rr). split; [reflexivity|]. split; [exact T1|]. split; [rewrite strip_dscale; apply R|].
  exists (vval p). split; [|rewrite T2; apply R].
  assert (Eds : dval ds = dval r) by lia.
  set (e := 4 * (lsd a + lsd b)).
  assert (Vp : (vval p == dec (sgz (sign a) * sgz (sign b) * (dval r * B ^ kk)) e)%Q).
  { unfold vval, lsd, smag, mag, ndigits. cbn [sign digits weight p]. rewrite Ld, Lr. unfold sg. rewrite sign_mul by assumption.
    rewrite Eds, pB_ten by lia. rewrite Z.mul_assoc, dec_shift by lia.
    replace (e + 4 * kk) with (4 * (rw + 1 - n)); [reflexivity|].
    unfold e, lsd, kk, rw. lia. }
  assert (VP : (vval v1 * vval v2 == dec (sgz (sign a) * sgz (sign b) * P) e)%Q).
  { rewrite <- Ev, vval_mul_mag. reflexivity. }
  rewrite Vp, VP, dec_sub, Qabs_dec.
  assert (Ab : Z.abs (sgz (sign a) * sgz (sign b) * (dval r * B ^ kk) - sgz (sign a) * sgz (sign b) * P) = P - dval r * B ^ kk).
  { destruct (sign a), (sign b); cbn [sgz]; lia. }
  rewrite Ab.
  destruct (Z.eq_dec kk 0) as [K0|K0].
  - assert (Z0 : P - dval r * B ^ kk = 0).
    { rewrite (Vr0 K0), K0, P1, (Tail0 K0). change (B ^ 0) with 1. lia. }
    rewrite Z0, dec_0. apply Qmult_le_0_compat; [exact Ka|apply Qlt_le_weak, Pe].
  - assert (Hm : n = rw + 1 + cl + 2) by (unfold kk, n in *; lia).
    apply Qle_trans with (dec ((ndigits a + 1) * B ^ (kk + 1)) e).
    + apply dec_le_iff. assert ((k + 1) * B ^ (kk + 1) <= (ndigits a + 1) * B ^ (kk + 1)) by (apply Z.mul_le_mono_nonneg_r; lia). lia.
    + rewrite pB_ten by lia. rewrite dec_shift by lia. unfold dec.
      rewrite !(Qmult_comm (inject_Z _)). apply Qmult_le_compat_r; [|exact Ka]. apply p10_le.
      unfold e, lsd, kk, rw in *. lia.
Qed.

Theorem mul_common_near_any c v1 v2 rscale : Forall dig (digits v1) -> Forall dig (digits v2) ->
  sign v1 <> SNaN -> sign v2 <> SNaN -> 0 <= rscale ->
  rscale <= 16383 \/ (digits v1 <> [] /\ digits v2 <> [] /\ 0 <= 4 * (weight v1 + weight v2) + rscale) ->
  exists r, mul_common c v1 v2 rscale = Ret r /\ stripped r /\ dscale r = rscale /\
    mul_near (vval v1 * vval v2) (Z.min (ndigits v1) (ndigits v2) + 1) rscale (vval r).
Proof. intros D1 D2 N1 N2 Hr [H|H]; apply mul_common_near_gen; auto. Qed.

Theorem mul_common_near c v1 v2 rscale : Forall dig (digits v1) -> Forall dig (digits v2) ->
  sign v1 <> SNaN -> sign v2 <> SNaN -> 0 <= rscale <= 16383 ->
  exists r, mul_common c v1 v2 rscale = Ret r /\ stripped r /\ dscale r = rscale /\
    mul_near (vval v1 * vval v2) (Z.min (ndigits v1) (ndigits v2) + 1) rscale (vval r).
Proof. intros D1 D2 N1 N2 Hr. apply mul_common_near_any; auto; lia. Qed.
