(** * PowNear: the accuracy of integer powers (var.rs power_int) when nothing is exact. *)
From Coq Require Import ZArith QArith Qabs Qpower List Bool Lia Lqa.
From Verif Require Import Base Var Binary Format Parse Convert Num Flt Transc Spec SpecApi SpecLibm SpecPow QDec Digits Arith Strip
  Round Trunc AddSub Signed Codec Make Api1 Api2 FltFacts Mul MulNear DivQ DivFast Sqrt ConvertApi PowLoop Sci PowInt PowApi PowSmall.
Import ListNotations.
Open Scope Z_scope.

(** ** Powers of numbers near one *)
Lemma Qpow_pos (x : Q) j : 0 <= j -> (0 < x)%Q -> (0 < x ^ j)%Q.
Proof.
  intros H L. revert H. apply (natlike_ind (fun j => 0 < x ^ j)%Q); [reflexivity|].
  clear j. intros j H IH. change (Z.succ j) with (j + 1). rewrite Qpow_S by exact H. now apply Qmult_lt_0_compat.
Qed.
Lemma bern_low (e : Q) j : 0 <= j -> (0 <= e <= 1)%Q -> (1 - inject_Z j * e <= (1 - e) ^ j)%Q.
Proof.
  intros H L. revert H. apply (natlike_ind (fun j => 1 - inject_Z j * e <= (1 - e) ^ j)%Q).
  - change (inject_Z 0) with 0%Q. change ((1 - e) ^ 0)%Q with 1%Q. lra.
  - clear j. intros j H IH. change (Z.succ j) with (j + 1). rewrite Qpow_S by exact H. rewrite inject_Z_plus. change (inject_Z 1) with 1%Q.
    apply Qle_trans with ((1 - inject_Z j * e) * (1 - e))%Q.
    + assert (J : (0 <= inject_Z j)%Q) by (change 0%Q with (inject_Z 0); rewrite <- Zle_Qle; lia).
      assert (0 <= inject_Z j * (e * e))%Q by (apply Qmult_le_0_compat; [exact J|nra]). lra.
    + apply Qmult_le_compat_r; [exact IH|lra].
Qed.
Lemma bern_up (e : Q) j : 0 <= j -> (0 <= e)%Q -> (inject_Z j * e <= 1 # 2)%Q -> ((1 + e) ^ j <= 1 + 2 * (inject_Z j * e))%Q.
Proof.
  intros H L. revert H. apply (natlike_ind (fun j => inject_Z j * e <= 1 # 2 -> (1 + e) ^ j <= 1 + 2 * (inject_Z j * e))%Q).
  - intros _. change (inject_Z 0) with 0%Q. change ((1 + e) ^ 0)%Q with 1%Q. lra.
  - clear j. intros j H IH B. change (Z.succ j) with (j + 1) in *. rewrite Qpow_S by exact H. rewrite inject_Z_plus in *. change (inject_Z 1) with 1%Q in *.
    assert (J : (0 <= inject_Z j)%Q) by (change 0%Q with (inject_Z 0); rewrite <- Zle_Qle; lia).
    assert (B' : (inject_Z j * e <= 1 # 2)%Q) by lra. specialize (IH B').
    apply Qle_trans with ((1 + 2 * (inject_Z j * e)) * (1 + e))%Q; [apply Qmult_le_compat_r; [exact IH|lra]|].
    assert (2 * (inject_Z j * e) * e <= 1 * e)%Q by (apply Qmult_le_compat_r; lra). lra.
Qed.

(** ** One multiplication of the loop *)
Definition PMAX : Z := 400000.

Definition dlt (sig : Z) : Q := (11 * p10 (- sig))%Q.

Record apx (v : var) (sig j e : Z) (b : var) : Prop := {
  ap_st : stripped b;
  ap_mult : mult (vval b) (dscale b);
  ap_scale : 0 <= dscale b;
  ap_size : 4 * weight b + dscale b <= PMAX;
  ap_fine : 2 <= j -> dscale b = 0 \/ 4 * weight b + dscale b <= sig + 8;
  ap_val : exists t, (vval b == vval v ^ j * t)%Q /\ ((1 - dlt sig) ^ e <= t)%Q /\ (t <= (1 + dlt sig) ^ e)%Q
}.

Lemma ndigits_size b : stripped b -> digits b <> [] -> mult (vval b) (dscale b) -> 4 * ndigits b <= 4 * weight b + dscale b + 7.
Proof.
  intros S N M. pose proof (frac_lsd b _ S N M) as L. unfold lsd in L. lia.
Qed.

Lemma round_err q s : (Qabs (round_at q s - q) <= (1 # 2) * p10 (- s))%Q.
Proof.
  unfold round_at. change (ten ^ s)%Q with (p10 s). change (ten ^ (- s))%Q with (p10 (- s)).
  pose proof (Sqrt.round_int_err (q * p10 s)) as R.
  setoid_replace (inject_Z (round_int (q * p10 s)) * p10 (- s) - q)%Q with ((inject_Z (round_int (q * p10 s)) - q * p10 s) * p10 (- s))%Q.
  - rewrite Qabs_Qmult, (Qabs_pos (p10 (- s))) by (apply Qlt_le_weak, p10_pos). apply Qmult_le_compat_r; [exact R|apply Qlt_le_weak, p10_pos].
  - pose proof (p10_opp s) as P. rewrite <- (Qmult_1_r q) at 2. rewrite <- P. ring.
Qed.

Lemma dlt_small sig : 7 <= sig -> (0 < dlt sig)%Q /\ (dlt sig <= 1 # 900000)%Q.
Proof.
  intro H. unfold dlt. pose proof (p10_pos (- sig)). assert (p10 (- sig) <= p10 (-7))%Q by (apply p10_le; lia).
  change (p10 (-7)) with (1 # 10000000)%Q in *. split; lra.
Qed.

(** the product kept to [sig] significant digits *)
Lemma mul_sig c b r sig : 7 <= sig <= 399000 -> stripped b -> stripped r -> digits b <> [] -> digits r <> [] ->
  mult (vval b) (dscale b) -> mult (vval r) (dscale r) -> 0 <= dscale b -> 0 <= dscale r ->
  4 * weight b + dscale b <= PMAX -> 4 * weight r + dscale r <= PMAX -> weight b + weight r <= 99000 ->
  exists q u, mul_common c b r (Z.max (Z.min (sig - (weight b + weight r) * 4) (dscale b + dscale r)) 0) = Ret q /\
    stripped q /\ mult (vval q) (dscale q) /\ 0 <= dscale q /\ 4 * weight q + dscale q <= PMAX /\
    (vval q == vval b * vval r * u)%Q /\ (1 - dlt sig <= u)%Q /\ (u <= 1 + dlt sig)%Q /\ weight q <= weight b + weight r + 2 /\
    (dscale q = 0 \/ 4 * weight q + dscale q <= sig + 8).
Proof.
  intros Hsig Sb Sr Nb Nr Mb Mr Db Dr Zb Zr Hw. destruct (dlt_small sig ltac:(lia)) as [D0 D1].
  pose proof (stripped_nz b Sb Nb) as Nzb. pose proof (stripped_nz r Sr Nr) as Nzr.
  pose proof (stripped_range b Sb Nb) as [Lb Ub]. pose proof (stripped_range r Sr Nr) as [Lr Ur].
  set (W := weight b + weight r) in *.
  assert (NZ : ~ (vval b * vval r == 0)%Q). { intro K. apply Qmult_integral in K. tauto. }
  assert (LO : (p10 (4 * W) <= Qabs (vval b * vval r))%Q).
  { rewrite Qabs_Qmult. replace (4 * W) with (4 * weight b + 4 * weight r) by (unfold W; lia). rewrite p10_add.
    apply Qmult_le_compat_nonneg; split; try (apply Qlt_le_weak, p10_pos); assumption. }
  assert (UP : (Qabs (vval b * vval r) <= p10 (4 * W + 8))%Q).
  { rewrite Qabs_Qmult. replace (4 * W + 8) with (4 * (weight b + 1) + 4 * (weight r + 1)) by (unfold W; lia). rewrite p10_add.
    apply Qmult_le_compat_nonneg; split; try apply Qabs_nonneg; apply Qlt_le_weak; assumption. }
  set (ls := Z.max (Z.min (sig - W * 4) (dscale b + dscale r)) 0).
  assert (G : exists q, mul_common c b r ls = Ret q /\ stripped q /\ dscale q = ls /\ mult (vval q) ls /\
     (Qabs (vval q - vval b * vval r) <= dlt sig * Qabs (vval b * vval r))%Q).
  { destruct (Z_le_gt_dec (dscale b + dscale r) (sig - W * 4)) as [K|K].
    - destruct (mul_exact_up c b r (dscale b) (dscale r) ls) as (q & E & R1 & R2 & R3); auto; [unfold ls; lia|].
      exists q. split; [exact E|]. split; [exact R1|]. split; [exact R2|]. split.
      + apply (mult_comp (vval b * vval r)); [now symmetry|]. apply (mult_up _ (dscale b + dscale r)); [unfold ls; lia|now apply mult_mul].
      + rewrite R3. setoid_replace (vval b * vval r - vval b * vval r)%Q with 0%Q by ring. change (Qabs 0) with 0%Q.
        apply Qmult_le_0_compat; [lra|apply Qabs_nonneg].
    - assert (Lls : sig - 4 * W <= ls) by (unfold ls; lia).
      destruct (mul_common_near_any c b r ls) as (q & E & R1 & R2 & (p & Bp & Vq)).
      + apply Sb.
      + apply Sr.
      + apply Sb.
      + apply Sr.
      + unfold ls. lia.
      + right. split; [exact Nb|]. split; [exact Nr|]. unfold ls, W. lia.
      + exists q. split; [exact E|]. split; [exact R1|]. split; [exact R2|].
        split; [apply (mult_comp (round_at p ls)); [now symmetry|apply mult_round; lia]|].
        rewrite Vq. clear E R1 R2 Vq q.
        assert (B1 : (Qabs (round_at p ls - vval b * vval r) <= 11 * p10 (- ls))%Q).
        { setoid_replace (round_at p ls - vval b * vval r)%Q with ((round_at p ls - p) + (p - vval b * vval r))%Q by ring.
          eapply Qle_trans; [apply Qabs_triangle|]. pose proof (round_err p ls) as A.
          replace (- ls - 4) with (-4 + - ls) in Bp by lia. rewrite p10_add in Bp. change (p10 (-4)) with (1 # 10000)%Q in Bp.
          pose proof (ndigits_size b Sb Nb Mb) as Eb. unfold PMAX in *.
          assert (Kn : (inject_Z (Z.min (ndigits b) (ndigits r) + 1) <= 100003)%Q).
          { change 100003%Q with (inject_Z 100003). rewrite <- Zle_Qle. lia. }
          pose proof (p10_pos (- ls)) as P.
          assert (X : (inject_Z (Z.min (ndigits b) (ndigits r) + 1) * ((1 # 10000) * p10 (- ls)) <= 100003 * ((1 # 10000) * p10 (- ls)))%Q)
            by (apply Qmult_le_compat_r; [exact Kn|lra]).
          lra. }
        apply Qle_trans with (11 * p10 (- ls))%Q; [exact B1|].
        apply Qle_trans with (dlt sig * p10 (4 * W))%Q.
        * unfold dlt. rewrite <- Qmult_assoc, <- p10_add. rewrite !(Qmult_comm 11). apply Qmult_le_compat_r; [|discriminate]. apply p10_le. lia.
        * rewrite !(Qmult_comm (dlt sig)). apply Qmult_le_compat_r; [exact LO|lra]. }
  destruct G as (q & E & Sq & Dq & Mq & B). exists q, (vval q / (vval b * vval r))%Q.
  split; [exact E|]. split; [exact Sq|]. split; [now rewrite Dq|]. split; [rewrite Dq; unfold ls; lia|].
  pose proof (Qabs_nz _ NZ) as NA. pose proof (Qabs_nonneg (vval b * vval r)) as A0.
  assert (A1 : (0 < Qabs (vval b * vval r))%Q) by (destruct (Qlt_le_dec 0 (Qabs (vval b * vval r))) as [G|G]; [exact G|exfalso; apply NA; lra]).
  assert (DU : (Qabs (vval q / (vval b * vval r) - 1) <= dlt sig)%Q).
  { setoid_replace (vval q / (vval b * vval r) - 1)%Q with ((vval q - vval b * vval r) / (vval b * vval r))%Q by (field; tauto).
    unfold Qdiv. rewrite Qabs_Qmult, Qabs_Qinv. apply Qle_shift_div_r; [exact A1|exact B]. }
  assert (Wq : weight q <= W + 2).
  { assert (NZq : ~ (vval q == 0)%Q).
    { intro K0. rewrite K0 in B. setoid_replace (0 - vval b * vval r)%Q with (- (vval b * vval r))%Q in B by ring. rewrite Qabs_opp in B.
      assert (dlt sig * Qabs (vval b * vval r) <= (1 # 900000) * Qabs (vval b * vval r))%Q by (apply Qmult_le_compat_r; lra). lra. }
    pose proof (stripped_range q Sq (nz_digits q Sq NZq)) as [Lq _].
    assert (Uq : (Qabs (vval q) <= 2 * p10 (4 * W + 8))%Q).
    { setoid_replace (vval q) with ((vval q - vval b * vval r) + vval b * vval r)%Q by ring. eapply Qle_trans; [apply Qabs_triangle|].
      assert (dlt sig * Qabs (vval b * vval r) <= 1 * Qabs (vval b * vval r))%Q by (apply Qmult_le_compat_r; lra). lra. }
    assert (Z9 : (p10 (4 * weight q) < p10 (4 * W + 9))%Q).
    { replace (4 * W + 9) with (1 + (4 * W + 8)) by lia. rewrite p10_add. change (p10 1) with 10%Q. pose proof (p10_pos (4 * W + 8)). lra. }
    apply (proj1 (p10_lt_iff _ _)) in Z9. lia. }
  apply Qabs_Qle_condition in DU. destruct DU as [DU1 DU2].
  split; [rewrite Dq; unfold PMAX, ls in *; lia|]. split; [field; intuition|]. split; [lra|]. split; [lra|]. split; [exact Wq|]. rewrite Dq. unfold ls. lia.
Qed.

Section Near.
Variables (c : cfg) (v : var) (N sig : Z).
Hypothesis (Sv : stripped v) (Nv : digits v <> []).
Hypothesis Hsig : 7 <= sig <= 399000.
Hypothesis HN : (inject_Z N * dlt sig <= 1 # 1000)%Q.

Local Notation dl := (dlt sig).

Lemma dl_pow_pos e : 0 <= e -> (0 < (1 - dl) ^ e)%Q.
Proof using Hsig. intro H. apply Qpow_pos; [exact H|]. destruct (dlt_small sig ltac:(lia)) as [D0 D1]. lra. Qed.

Lemma ap_nz j e b : 0 <= e -> apx v sig j e b -> digits b <> [].
Proof using Hsig Sv Nv.
  intros He P. apply nz_digits; [apply P|]. destruct (ap_val _ _ _ _ _ P) as (t & V & L & U). rewrite V.
  intro K. apply Qmult_integral in K. destruct K as [K|K].
  - revert K. apply Qpower_not_0. now apply stripped_nz.
  - pose proof (dl_pow_pos e He). lra.
Qed.

Lemma ap_mul j k e1 e2 b r : 0 <= e1 -> 0 <= e2 -> apx v sig j e1 b -> apx v sig k e2 r -> weight b + weight r <= 99000 ->
  exists q, mul_common c b r (Z.max (Z.min (sig - (weight b + weight r) * 4) (dscale b + dscale r)) 0) = Ret q /\
    apx v sig (j + k) (e1 + e2 + 1) q /\ weight q <= weight b + weight r + 2.
Proof using Hsig Sv Nv.
  intros He1 He2 Pb Pr W. destruct (dlt_small sig ltac:(lia)) as [D0 D1].
  destruct (mul_sig c b r sig Hsig (ap_st _ _ _ _ _ Pb) (ap_st _ _ _ _ _ Pr) (ap_nz j e1 b He1 Pb) (ap_nz k e2 r He2 Pr)
    (ap_mult _ _ _ _ _ Pb) (ap_mult _ _ _ _ _ Pr) (ap_scale _ _ _ _ _ Pb) (ap_scale _ _ _ _ _ Pr) (ap_size _ _ _ _ _ Pb) (ap_size _ _ _ _ _ Pr) W)
    as (q & u & E & Sq & Mq & Dq & Zq & V & L & U & Wq & Fq).
  exists q. split; [exact E|]. split; [|exact Wq]. constructor; auto.
  destruct (ap_val _ _ _ _ _ Pb) as (t1 & V1 & L1 & U1). destruct (ap_val _ _ _ _ _ Pr) as (t2 & V2 & L2 & U2).
  exists (t1 * t2 * u)%Q. split; [|split].
  - rewrite V, V1, V2, Qpow_add by now apply stripped_nz. ring.
  - rewrite Qpow_S, Qpow_add by (try lia; lra). pose proof (dl_pow_pos e1 He1). pose proof (dl_pow_pos e2 He2).
    apply Qmult_le_compat_nonneg; split; try lra; [|apply Qmult_le_compat_nonneg; split; lra].
    apply Qmult_le_0_compat; lra.
  - rewrite Qpow_S, Qpow_add by (try lia; lra). pose proof (dl_pow_pos e1 He1). pose proof (dl_pow_pos e2 He2).
    apply Qmult_le_compat_nonneg; split; try lra; [|apply Qmult_le_compat_nonneg; split; lra].
    apply Qmult_le_0_compat; lra.
Qed.

(** the accumulated relative error *)
Lemma ap_ratio j e b : 0 <= e <= N -> apx v sig j e b -> exists t, (vval b == vval v ^ j * t)%Q /\
  (1 - 2 * (inject_Z N * dl) <= t)%Q /\ (t <= 1 + 2 * (inject_Z N * dl))%Q.
Proof using Hsig HN.
  intros He P. destruct (ap_val _ _ _ _ _ P) as (t & V & L & U). exists t. split; [exact V|].
  destruct (dlt_small sig ltac:(lia)) as [D0 D1].
  assert (EN : (inject_Z e * dl <= inject_Z N * dl)%Q) by (apply Qmult_le_compat_r; [rewrite <- Zle_Qle; lia|lra]).
  assert (E0 : (0 <= inject_Z e * dl)%Q).
  { apply Qmult_le_0_compat; [change 0%Q with (inject_Z 0); rewrite <- Zle_Qle; lia|lra]. }
  pose proof (bern_low dl e ltac:(lia) ltac:(lra)). pose proof (bern_up dl e ltac:(lia) ltac:(lra) ltac:(lra)). split; lra.
Qed.

Lemma ap_over j e b : 0 <= j <= N -> 0 <= e <= N -> apx v sig j e b -> 32767 < weight b -> (limit * (1 - 2 * (inject_Z N * dl)) <= Qabs (vval v) ^ N)%Q.
Proof using Hsig HN Sv Nv.
  intros H He P W. destruct (ap_ratio j e b He P) as (t & V & L & U). destruct (dlt_small sig ltac:(lia)) as [D0 D1].
  assert (N0 : (0 <= inject_Z N * dl)%Q).
  { apply Qmult_le_0_compat; [change 0%Q with (inject_Z 0); rewrite <- Zle_Qle; lia|lra]. }
  pose proof (stripped_range b (ap_st _ _ _ _ _ P) (ap_nz j e b ltac:(lia) P)) as [Lb _]. rewrite V, Qabs_Qmult, Qpow_abs in Lb by lia.
  rewrite (Qabs_pos t) in Lb by lra. rewrite limit_p10.
  assert (L2 : (p10 (4 * 32768) <= Qabs (vval v) ^ j * t)%Q) by (eapply Qle_trans; [apply p10_le|exact Lb]; lia).
  set (x := (inject_Z N * dl)%Q) in *. set (A := Qabs (vval v)) in *. assert (A0 : (0 <= A)%Q) by apply Qabs_nonneg.
  assert (Aj : (0 <= A ^ j)%Q) by now apply Qpower_pos.
  assert (L3 : (p10 (4 * 32768) * (1 - 2 * x) <= A ^ j)%Q).
  { apply Qle_trans with (A ^ j * t * (1 - 2 * x))%Q; [apply Qmult_le_compat_r; lra|].
    assert (T1 : (t * (1 - 2 * x) <= 1)%Q).
    { apply Qle_trans with ((1 + 2 * x) * (1 - 2 * x))%Q; [apply Qmult_le_compat_r; lra|]. assert (0 <= x * x)%Q by nra. lra. }
    rewrite <- Qmult_assoc. rewrite <- (Qmult_1_r (A ^ j)) at 2. rewrite !(Qmult_comm (A ^ j)). apply Qmult_le_compat_r; lra. }
  destruct (Qlt_le_dec A 1) as [K|K].
  - exfalso. pose proof (Qpow_le1 A j ltac:(lia) ltac:(split; lra)) as [_ Uj].
    assert (10 <= p10 (4 * 32768))%Q by (change 10%Q with (p10 1); apply p10_le; lia).
    assert (10 * (1 - 2 * x) <= p10 (4 * 32768) * (1 - 2 * x))%Q by (apply Qmult_le_compat_r; lra). lra.
  - apply Qle_trans with (A ^ j)%Q; [exact L3|]. now apply Qpow_up.
Qed.

Lemma pow_loop_near fuel : forall mask j k b r, (0 < fuel)%nat -> 0 <= mask < 2 ^ Z.of_nat fuel -> 1 <= j -> 0 <= k ->
  k + 2 * j * (mask / 2) = N -> apx v sig j (j - 1) b -> apx v sig k k r -> weight b <= 32767 -> weight r <= 32767 ->
  (exists r', pow_loop c fuel mask sig b r = Ret (PDone r') /\ apx v sig N N r' /\ weight r' <= 32767) \/
  (pow_loop c fuel mask sig b r = Ret POver /\ (limit * (1 - 2 * (inject_Z N * dl)) <= Qabs (vval v) ^ N)%Q).
Proof using Hsig HN Sv Nv.
  induction fuel as [|f IH]; intros mask j k b r F M Hj Hk EN Pb Pr Wb Wr; [lia|]. cbn [pow_loop].
  rewrite <- Z.div2_spec, Z.div2_div. set (mk := mask / 2) in *.
  assert (Mk : 0 <= mk) by (unfold mk; apply Z.div_pos; lia).
  assert (Mu : mk < 2 ^ Z.of_nat f).
  { unfold mk. apply Z.div_lt_upper_bound; [lia|]. rewrite Nat2Z.inj_succ, Z.pow_succ_r in M by lia. lia. }
  destruct (Z.leb_spec mk 0) as [Z0|Z0].
  { left. exists r. split; [reflexivity|]. assert (EK : N = k) by nia. rewrite EK in *. split; [exact Pr|exact Wr]. }
  assert (Ff : (0 < f)%nat). { destruct f; [|lia]. change (2 ^ Z.of_nat 0) with 1 in Mu. lia. }
  change NUMERIC_MIN_DISPLAY_SCALE with 0. change DEC_DIGITS with 4.
  destruct (ap_mul j j (j - 1) (j - 1) b b ltac:(lia) ltac:(lia) Pb Pb ltac:(lia)) as (b' & Eb & Pb' & Wb').
  replace (sig - 2 * weight b * 4) with (sig - (weight b + weight b) * 4) by lia.
  replace (2 * dscale b) with (dscale b + dscale b) by lia. rewrite Eb. cbn [bind].
  replace (j - 1 + (j - 1) + 1) with (j + j - 1) in Pb' by lia.
  pose proof (Z.div_mod mk 2 ltac:(lia)) as DM.
  assert (G : exists k' r', (if Z.odd mk
     then mul_common c b' r (Z.max (Z.min (sig - (weight b' + weight r) * 4) (dscale b' + dscale r)) 0)
     else Ret r) = Ret r' /\ apx v sig k' k' r' /\ 0 <= k' /\ k' + 2 * (j + j) * (mk / 2) = N).
  { rewrite odd_mod. destruct (Z.eqb_spec (mk mod 2) 1) as [O|O].
    - destruct (ap_mul (j + j) k (j + j - 1) k b' r ltac:(lia) ltac:(lia) Pb' Pr ltac:(lia)) as (r' & Er & Pr' & _).
      replace (j + j - 1 + k + 1) with (j + j + k) in Pr' by lia.
      exists (j + j + k), r'. split; [exact Er|]. split; [exact Pr'|]. split; [lia|nia].
    - exists k, r. split; [reflexivity|]. split; [exact Pr|]. split; [lia|].
      pose proof (Z.mod_pos_bound mk 2 ltac:(lia)). assert (mk = 2 * (mk / 2)) by lia. nia. }
  destruct G as (k' & r' & Er & Pr' & Hk' & EN'). rewrite Er. cbn [bind].
  assert (D2 : 0 <= mk / 2) by (apply Z.div_pos; lia).
  destruct (Z.ltb_spec 32767 (weight b')) as [Wq|Wq]; cbn [orb].
  { right. split; [reflexivity|]. apply (ap_over (j + j) (j + j - 1) b'); [nia|nia|exact Pb'|exact Wq]. }
  destruct (Z.ltb_spec 32767 (weight r')) as [Wq'|Wq'].
  { right. split; [reflexivity|]. apply (ap_over k' k' r'); [nia|nia|exact Pr'|exact Wq']. }
  apply (IH mk (j + j) k' b' r'); auto; lia.
Qed.
End Near.

Lemma pow_loop_near_run c v n sig : canon v -> digits v <> [] -> 7 <= sig <= 399000 -> 1 <= n < 2147483648 ->
  (inject_Z n * dlt sig <= 1 # 1000)%Q ->
  (exists r', pow_loop c 32 n sig v (if Z.odd n then v else ONE) = Ret (PDone r') /\ apx v sig n n r' /\ weight r' <= 32767) \/
  (pow_loop c 32 n sig v (if Z.odd n then v else ONE) = Ret POver /\ (limit * (1 - 2 * (inject_Z n * dlt sig)) <= Qabs (vval v) ^ n)%Q).
Proof.
  intros C NE Hs Hn HN. pose proof (cn_st v C) as S. pose proof (cn_weight v C) as W. pose proof (cn_scale v C) as Sc.
  destruct (dlt_small sig ltac:(lia)) as [D0 D1].
  assert (B32 : 0 <= n < 2 ^ Z.of_nat 32) by (change (2 ^ Z.of_nat 32) with 4294967296; lia).
  assert (A1 : forall e, 0 <= e -> apx v sig 1 e v).
  { intros e He. constructor; [exact S|now apply canon_mult|lia|unfold PMAX; lia|lia|]. exists 1%Q. change (vval v ^ 1)%Q with (vval v).
    split; [ring|]. split; [apply Qpow_le1; [exact He|split; lra]|apply Qpow_ge1; [exact He|lra]]. }
  pose proof (Z.div_mod n 2 ltac:(lia)) as DM. rewrite odd_mod.
  destruct (Z.eqb_spec (n mod 2) 1) as [O|O].
  - apply (pow_loop_near c v n sig S NE Hs HN 32 n 1 1); try lia; apply A1; lia.
  - pose proof (Z.mod_pos_bound n 2 ltac:(lia)).
    apply (pow_loop_near c v n sig S NE Hs HN 32 n 1 0); try lia; [apply A1; lia| |cbn; lia].
    constructor; [exact (one_stripped 0)| | | |intro; lia|]; try (cbn; unfold PMAX; lia).
    + apply (mult_comp 1%Q); [symmetry; exact (vval_one 0)|]. exists 1. reflexivity.
    + exists 1%Q. split; [|split; [discriminate|discriminate]]. exact (vval_one 0).
Qed.

(** ** The estimate against the leading digit *)
Section Fine.
Variables (m : libm) (v : var) (d : Z) (t : list Z) (k : Z).
Hypothesis LG : log10_sound (f_log10 m).
Hypothesis FI : log10_fine (f_log10 m).
Hypothesis Sv : stripped v.
Hypothesis Ev : digits v = d :: t.
Hypothesis Wv : -32767 <= weight v <= 32767.
Hypothesis Hk : 0 <= k <= 3.
Hypothesis Hd : 10 ^ k <= d < 10 ^ (k + 1).

Definition Lead : Q := (inject_Z d * p10 (4 * weight v))%Q.
Local Notation eps := (1 # 10000000000000)%Q.
Local Notation LL := (Lg m v d).

Lemma Lead_pos : (0 < Lead)%Q.
Proof using Sv Ev k.
  unfold Lead. apply Qmult_lt_0_compat; [|apply p10_pos]. pose proof (d_range v d t 0 Sv Ev). change 0%Q with (inject_Z 0). rewrite <- Zlt_Qlt. lia.
Qed.
Lemma Lead_nz : ~ (Lead == 0)%Q.
Proof using Sv Ev k. pose proof Lead_pos. lra. Qed.

Lemma Lead_pow b : 0 <= b -> (Lead ^ b == inject_Z (d ^ b) * p10 (4 * weight v * b))%Q.
Proof using k. intro H. unfold Lead. rewrite Qmult_power, p10_pow, Zpow_Q by exact H. reflexivity. Qed.

Lemma lgd0 : (0 <= f_log10 m (inject_Z d))%Q.
Proof using LG Sv Ev Hk Hd.
  pose proof (d_range v d t 0 Sv Ev). pose proof (lg_floor _ LG d k ltac:(lia) ltac:(lia) Hd) as [A _]. eapply Qle_trans; [|exact A].
  change 0%Q with (inject_Z 0). rewrite <- Zle_Qle. lia.
Qed.

Lemma fine_ge0 b E : 0 <= b -> (p10 E <= Lead ^ b)%Q -> (inject_Z E <= inject_Z b * LL + inject_Z b * eps)%Q.
Proof using LG FI Sv Ev Hk Hd.
  intros Hb H. pose proof (d_range v d t 0 Sv Ev) as Dr. rewrite Lead_pow in H by exact Hb.
  assert (P : (p10 (E - 4 * weight v * b) <= inject_Z (d ^ b))%Q).
  { apply (Qmult_le_r _ _ (p10 (4 * weight v * b)) (p10_pos _)). rewrite <- p10_add. replace (E - 4 * weight v * b + 4 * weight v * b) with E by lia. exact H. }
  assert (B0 : (0 <= inject_Z b)%Q) by (change 0%Q with (inject_Z 0); now rewrite <- Zle_Qle).
  unfold Lg. rewrite Qmult_plus_distr_r, <- inject_Z_mult.
  assert (X : (inject_Z (E - 4 * weight v * b) <= inject_Z b * f_log10 m (inject_Z d) + inject_Z b * eps)%Q).
  { destruct (Z_lt_le_dec (E - 4 * weight v * b) 0) as [Ng|Nn].
    - assert (inject_Z (E - 4 * weight v * b) < 0)%Q by (change 0%Q with (inject_Z 0); now rewrite <- Zlt_Qlt).
      assert (0 <= inject_Z b * f_log10 m (inject_Z d))%Q by (apply Qmult_le_0_compat; [exact B0|exact lgd0]). lra.
    - rewrite p10_Z in P by exact Nn. rewrite <- Zle_Qle in P. exact (fine_lower _ FI d _ b Dr Nn Hb P). }
  replace (E - 4 * weight v * b) with (E + - (b * (4 * weight v))) in X by lia. rewrite inject_Z_plus, inject_Z_opp in X. lra.
Qed.

Lemma fine_le0 b E : 0 <= b -> (Lead ^ b <= p10 E)%Q -> (inject_Z b * LL <= inject_Z E + inject_Z b * eps)%Q.
Proof using LG FI Sv Ev Hk Hd.
  intros Hb H. pose proof (d_range v d t 0 Sv Ev) as Dr. rewrite Lead_pow in H by exact Hb.
  assert (P : (inject_Z (d ^ b) <= p10 (E - 4 * weight v * b))%Q).
  { apply (Qmult_le_r _ _ (p10 (4 * weight v * b)) (p10_pos _)). rewrite <- p10_add. replace (E - 4 * weight v * b + 4 * weight v * b) with E by lia. exact H. }
  assert (D1 : 1 <= d ^ b). { pose proof (Z.pow_pos_nonneg d b ltac:(lia) Hb). lia. }
  assert (A0 : 0 <= E - 4 * weight v * b).
  { apply (proj1 (p10_le_iff _ _)). rewrite p10_0. eapply Qle_trans; [|exact P]. change 1%Q with (inject_Z 1). now rewrite <- Zle_Qle. }
  rewrite p10_Z in P by exact A0. rewrite <- Zle_Qle in P. pose proof (fine_upper _ FI d _ b Dr A0 Hb P) as X.
  unfold Lg. rewrite Qmult_plus_distr_r, <- inject_Z_mult.
  replace (E - 4 * weight v * b) with (E + - (b * (4 * weight v))) in X by lia. rewrite inject_Z_plus, inject_Z_opp in X. lra.
Qed.

Lemma inv_le (x y : Q) : (0 < x)%Q -> (0 < y)%Q -> (x <= y)%Q -> (/ y <= / x)%Q.
Proof using k.
  intros X Y H. apply Qle_shift_inv_l; [exact X|]. rewrite Qmult_comm. change (x / y <= 1)%Q. apply Qle_shift_div_r; [exact Y|]. lra.
Qed.
Lemma p10_inv E : (/ p10 E == p10 (- E))%Q.
Proof using k.
  pose proof (p10_opp E) as P. pose proof (p10_pos E). setoid_replace (p10 (- E)) with (p10 E * p10 (- E) * / p10 E)%Q by (field; lra).
  rewrite P. ring.
Qed.

Lemma fine_ge b E : (p10 E <= Lead ^ b)%Q -> (inject_Z E <= inject_Z b * LL + inject_Z (Z.abs b) * eps)%Q.
Proof using LG FI Sv Ev Hk Hd.
  intro H. destruct (Z_le_gt_dec 0 b) as [Hb|Hb]; [rewrite Z.abs_eq by exact Hb; now apply fine_ge0|].
  rewrite Z.abs_neq by lia. replace b with (- (- b)) in H |- * at 1 by lia. rewrite Qpow_opp in H.
  pose proof (Qpow_pos Lead (- b) ltac:(lia) Lead_pos) as P. pose proof (p10_pos E) as PE.
  pose proof (inv_le _ _ PE (Qinv_lt_0_compat _ P) H) as H2. rewrite Qinv_involutive, p10_inv in H2.
  pose proof (fine_le0 (- b) (- E) ltac:(lia) H2) as X. rewrite !inject_Z_opp in *. lra.
Qed.
Lemma fine_le b E : (Lead ^ b <= p10 E)%Q -> (inject_Z b * LL <= inject_Z E + inject_Z (Z.abs b) * eps)%Q.
Proof using LG FI Sv Ev Hk Hd.
  intro H. destruct (Z_le_gt_dec 0 b) as [Hb|Hb]; [rewrite Z.abs_eq by exact Hb; now apply fine_le0|].
  rewrite Z.abs_neq by lia. replace b with (- (- b)) in H |- * at 1 by lia. rewrite Qpow_opp in H.
  pose proof (Qpow_pos Lead (- b) ltac:(lia) Lead_pos) as P. pose proof (p10_pos E) as PE.
  pose proof (inv_le _ _ (Qinv_lt_0_compat _ P) PE H) as H2. rewrite Qinv_involutive, p10_inv in H2.
  pose proof (fine_ge0 (- b) (- E) ltac:(lia) H2) as X. rewrite !inject_Z_opp in *. lra.
Qed.
End Fine.

(** the extra digits the code keeps for the number of multiplications *)
Lemma ln_digits m n : ln_between (f_ln m) -> 2 <= n < 2147483648 ->
  0 <= ln_i32 m n <= 22 /\ (inject_Z n <= 4 * p10 (ln_i32 m n))%Q.
Proof.
  intros LB Hn. set (j := Z.log2 n). pose proof (Z.log2_spec n ltac:(lia)) as L. fold j in L.
  assert (J : 0 <= j <= 30).
  { unfold j. split; [apply Z.log2_nonneg|]. apply Z.lt_succ_r. apply Z.log2_lt_pow2; [lia|]. change (2 ^ Z.succ 30) with 2147483648. lia. }
  replace (Z.succ j) with (j + 1) in L by lia.
  pose proof (LB n j J L) as [B1 B2]. unfold ln_i32. replace (n <? 0) with false by (symmetry; apply Z.ltb_ge; lia).
  replace (n =? 0) with false by (symmetry; apply Z.eqb_neq; lia).
  assert (Jq : (inject_Z (j + 1) <= 31)%Q) by (change 31%Q with (inject_Z 31); rewrite <- Zle_Qle; lia).
  assert (Jq0 : (0 <= inject_Z j)%Q) by (change 0%Q with (inject_Z 0); rewrite <- Zle_Qle; lia).
  set (x := f_ln m (inject_Z n)) in *. clearbody x.
  assert (X0 : (0 <= x)%Q) by lra. assert (X1 : (x <= 22)%Q) by lra.
  assert (F : f2i x = Qnum x / Zpos (Qden x)).
  { unfold f2i. unfold Qle in X0, X1. cbn [Qnum Qden] in X0, X1. rewrite Z.quot_div_nonneg by lia.
    assert (0 <= Qnum x / Z.pos (Qden x)) by (apply Z.div_pos; lia).
    assert (Qnum x / Z.pos (Qden x) <= 22) by (apply Z.div_le_upper_bound; lia). lia. }
  rewrite F. unfold Qle in X0, X1. cbn [Qnum Qden] in X0, X1.
  assert (Y0 : 0 <= Qnum x / Z.pos (Qden x)) by (apply Z.div_pos; lia).
  assert (Y1 : Qnum x / Z.pos (Qden x) <= 22) by (apply Z.div_le_upper_bound; lia).
  split; [lia|].
  assert (Y2 : (69 * j) / 100 <= Qnum x / Z.pos (Qden x)).
  { apply Z.div_le_lower_bound; [lia|]. unfold Qle in B1. cbn [Qnum Qden Qmult inject_Z] in B1.
    pose proof (Z.mul_div_le (69 * j) 100 ltac:(lia)) as ML. set (a := 69 * j / 100) in *. clearbody a. rewrite Pos2Z.inj_mul in B1. nia. }
  assert (T : 2 ^ (j + 1) <= 4 * 10 ^ (69 * j / 100)).
  { assert (CK : forallb (fun i => 2 ^ (i + 1) <=? 4 * 10 ^ (69 * i / 100)) (map Z.of_nat (seq 0 31)) = true) by reflexivity.
    rewrite forallb_forall in CK. specialize (CK j). rewrite Z.leb_le in CK. apply CK. apply in_map_iff. exists (Z.to_nat j).
    split; [lia|]. apply in_seq. lia. }
  assert (T2 : 10 ^ (69 * j / 100) <= 10 ^ (Qnum x / Z.pos (Qden x))) by (apply Z.pow_le_mono_r; lia).
  rewrite p10_Z by exact Y0. change 4%Q with (inject_Z 4). rewrite <- inject_Z_mult, <- Zle_Qle. lia.
Qed.
