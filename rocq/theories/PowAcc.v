(** * PowAcc: pow with an integer exponent, its error in units of the last place. *)
From Coq Require Import ZArith QArith Qabs Qpower List Bool Lia Lqa.
From Verif Require Import Base Var Binary Format Parse Convert Num Flt Transc Spec SpecApi SpecLibm SpecPow QDec Digits Arith Strip
  Round Trunc AddSub Signed Codec Make Api1 Api2 FltFacts Mul MulNear DivQ DivFast Sqrt ConvertApi PowLoop Sci PowInt PowApi PowSmall PowMin PowNear.
Import ListNotations.
Open Scope Z_scope.

(** the rest of the computation once the estimates have let it through *)
Definition pow_rest (c : cfg) (v : var) (n rs sig : Z) : outcome (option var) :=
  x <- pow_loop c 32 (Z.abs n) sig v (if Z.odd (Z.abs n) then v else ONE) ;;
  match x with
  | POver => if n <? 0 then r <- round_common c ZERO rs ;; Ret (Some r) else Ret None
  | PDone result =>
      if n <? 0 then
        o <- div_fast_common c ONE result rs true ;;
        r <- expect o MDivZero ;; Ret (Some r)
      else r <- round_common c result rs ;; Ret (Some r)
  end.

Section Steps.
Variables (c : cfg) (m : libm) (v : var) (d : Z) (t : list Z) (n rs : Z).
Hypothesis LG : log10_sound (f_log10 m).
Hypothesis FI : log10_fine (f_log10 m).
Hypothesis LB : ln_between (f_ln m).
Hypothesis C : canon v.
Hypothesis Ev : digits v = d :: t.
Hypothesis Hn : 2 <= Z.abs n < 2147483648.
Hypothesis N2 : n <> 2.
Hypothesis Hrs : 16 <= rs <= 1000.

Local Notation L := (Lead v d).

Lemma pow_steps :
  (power_int c m v n rs = Ret None /\ (p10 393203 <= L ^ n)%Q) \/
  (power_int c m v n rs = Ret (Some (Var 0 rs SPos [])) /\ (4 * L ^ n <= p10 (- rs))%Q) \/
  (exists sig, power_int c m v n rs = pow_rest c v n rs sig /\ 7 <= sig <= 399000 /\
     (inject_Z (Z.abs n) * dlt sig <= 44 # 10000000)%Q /\
     (inject_Z (Z.abs n) * dlt sig * L ^ n <= (44 # 10000000) * p10 (- rs))%Q /\
     (p10 (- rs - 3) <= L ^ n)%Q /\ (L ^ n <= p10 393206)%Q /\
     (forall g, 0 <= g -> (L ^ n <= p10 g)%Q -> sig <= 32 + rs + g)).
Proof using LG FI LB C Ev Hn N2 Hrs.
  pose proof (cn_st v C) as S. pose proof (cn_weight v C) as W. pose proof (d_range v d t 0 S Ev) as Dr.
  destruct (decimal_lead d Dr) as (k & Hk & Hd).
  rewrite (power_int_unfold c m v n rs d t (st_nan v S) Ev) by lia. cbv zeta.
  pose proof (pow_f_err m v d t k LG S Ev W Hk Hd n ltac:(lia)) as FE. apply Qabs_Qle_condition in FE. set (f := pow_f m v d n) in *.
  assert (LP : (0 < L ^ n)%Q).
  { destruct (Z_le_gt_dec 0 n) as [G|G]; [apply Qpow_pos; [exact G|exact (Lead_pos v d t 0 S Ev)]|].
    replace n with (- - n) by lia. rewrite Qpow_opp. apply Qinv_lt_0_compat. apply Qpow_pos; [lia|exact (Lead_pos v d t 0 S Ev)]. }
  assert (NA : (inject_Z (Z.abs n) <= 2147483648)%Q) by (change 2147483648%Q with (inject_Z 2147483648); rewrite <- Zle_Qle; lia).
  assert (GE : forall E, (p10 E <= L ^ n)%Q -> (inject_Z E <= f + (126 # 1000))%Q).
  { intros E H. pose proof (fine_ge m v d t k LG FI S Ev Hk Hd n E H) as X. lra. }
  assert (LE : forall E, (L ^ n <= p10 E)%Q -> (f <= inject_Z E + (126 # 1000))%Q).
  { intros E H. pose proof (fine_le m v d t k LG FI S Ev Hk Hd n E H) as X. lra. }
  assert (Rq : (16 <= inject_Z rs <= 1000)%Q).
  { change 16%Q with (inject_Z 16). change 1000%Q with (inject_Z 1000). rewrite <- !Zle_Qle. lia. }
  destruct (Qle_bool f 393204) eqn:EF; cbn [negb].
  2:{ left. split; [reflexivity|]. destruct (Qlt_le_dec (L ^ n) (p10 393203)) as [K|K]; [exfalso|exact K].
      pose proof (LE _ (Qlt_le_weak _ _ K)) as U. change (inject_Z 393203) with 393203%Q in U.
      assert (T : (f <= 393204)%Q) by lra. apply Qle_bool_iff in T. congruence. }
  apply Qle_bool_iff in EF.
  assert (FA : (Qabs (f + 1) <= 281474976710657 + 2)%Q).
  { assert (LU : (Qabs (Lg m v d) <= 131072)%Q) by exact (Lg_abs m v d t k LG S Ev W Hk Hd).
    assert (X : (Qabs (inject_Z n * Lg m v d) <= 2147483648 * 131072)%Q).
    { rewrite Qabs_Qmult. change (Qabs (inject_Z n)) with (inject_Z (Z.abs n)).
      apply Qle_trans with (2147483648 * Qabs (Lg m v d))%Q; [apply Qmult_le_compat_r; [exact NA|apply Qabs_nonneg]|]. lra. }
    apply Qabs_Qle_condition in X. apply Qabs_Qle_condition. split; lra. }
  pose proof (fl_bounds _ _ FA) as F1. apply Qabs_Qle_condition in F1. fold (fadd f 1) in F1.
  destruct (Qle_bool (inject_Z (- rs)) (fadd f 1)) eqn:Eu.
  2:{ right. left. cbn [negb orb]. rewrite zero_scaled_ok by lia. cbn [bind]. split; [reflexivity|].
      assert (U : (fadd f 1 < inject_Z (- rs))%Q).
      { destruct (Qlt_le_dec (fadd f 1) (inject_Z (- rs))) as [G|G]; [exact G|]. apply Qle_bool_iff in G. congruence. }
      rewrite inject_Z_opp in U. destruct (Qlt_le_dec (p10 (- rs)) (4 * L ^ n)) as [K|K]; [exfalso|exact K].
      assert (K5 : (p10 (-5 * rs - 4) <= L ^ (5 * n))%Q).
      { rewrite (Z.mul_comm 5 n), Qpower_mult. apply Qle_trans with (((1 # 4) * p10 (- rs)) ^ 5)%Q.
        - rewrite Qmult_power, p10_pow by lia. replace (-5 * rs - 4) with (-4 + - rs * 5) by lia. rewrite p10_add.
          apply Qmult_le_compat_r; [discriminate|apply Qlt_le_weak, p10_pos].
        - pose proof (p10_pos (- rs)). apply Qpow_mono; [lia|lra|lra]. }
      pose proof (fine_ge m v d t k LG FI S Ev Hk Hd (5 * n) _ K5) as X.
      replace (Z.abs (5 * n)) with (5 * Z.abs n) in X by lia.
      replace (-5 * rs - 4) with (-5 * rs + -4) in X by lia. rewrite inject_Z_plus, !inject_Z_mult in X.
      change (inject_Z (-5)) with (-5)%Q in X. change (inject_Z (-4)) with (-4)%Q in X. change (inject_Z 5) with 5%Q in X. lra. }
  apply Qle_bool_iff in Eu. rewrite inject_Z_opp in Eu.
  replace (Qle_bool (inject_Z (- 1000)) (fadd f 1)) with true.
  2:{ symmetry. apply Qle_bool_iff. change (inject_Z (- 1000)) with (-1000)%Q. lra. }
  cbn [negb orb]. rewrite i32_ok by (unfold I32_MIN, I32_MAX; lia). cbn [bind].
  destruct (ln_digits m (Z.abs n) LB Hn) as [L0 L4]. set (ln := ln_i32 m (Z.abs n)) in *.
  right. right. exists (1 + rs + f2i f + (ln + 8)). split; [reflexivity|].
  assert (FA2 : (Qabs f < 2147483647)%Q) by (apply Qabs_Qlt_condition; split; lra).
  pose proof (f2i_near f FA2) as FN. apply Qabs_Qlt_condition in FN.
  assert (F0 : - rs - 2 <= f2i f).
  { assert (inject_Z (- rs - 3) < inject_Z (f2i f))%Q; [|rewrite <- Zlt_Qlt in *; lia].
    replace (- rs - 3) with (- rs + -3) by lia. rewrite inject_Z_plus, inject_Z_opp. change (inject_Z (-3)) with (-3)%Q. lra. }
  assert (F2 : f2i f <= 393205).
  { assert (inject_Z (f2i f) < inject_Z 393206)%Q; [|rewrite <- Zlt_Qlt in *; lia]. change (inject_Z 393206) with 393206%Q. lra. }
  split; [lia|]. set (sig := 1 + rs + f2i f + (ln + 8)).
  assert (ND : (inject_Z (Z.abs n) * dlt sig <= 44 * p10 (ln - sig))%Q).
  { unfold dlt. replace (ln - sig) with (ln + - sig) by lia. rewrite p10_add. pose proof (p10_pos (- sig)) as P.
    apply Qle_trans with (4 * p10 ln * (11 * p10 (- sig)))%Q; [apply Qmult_le_compat_r; [exact L4|lra]|]. lra. }
  assert (LU : (L ^ n <= p10 (f2i f + 2))%Q).
  { destruct (Qlt_le_dec (p10 (f2i f + 2)) (L ^ n)) as [K|K]; [exfalso|exact K].
    pose proof (GE _ (Qlt_le_weak _ _ K)) as X. rewrite inject_Z_plus in X. change (inject_Z 2) with 2%Q in X. lra. }
  split.
  { eapply Qle_trans; [exact ND|]. apply Qle_trans with (44 * p10 (-7))%Q; [|discriminate]. rewrite !(Qmult_comm 44). apply Qmult_le_compat_r; [|discriminate].
    apply p10_le. unfold sig. lia. }
  split.
  { apply Qle_trans with (44 * p10 (ln - sig) * p10 (f2i f + 2))%Q.
    - apply Qmult_le_compat_nonneg; split; try assumption; [|lra]. apply Qmult_le_0_compat; [change 0%Q with (inject_Z 0); rewrite <- Zle_Qle; lia|].
      unfold dlt. pose proof (p10_pos (- sig)). lra.
    - rewrite <- Qmult_assoc, <- p10_add. replace (ln - sig + (f2i f + 2)) with (-7 + - rs) by (unfold sig; lia). rewrite p10_add.
      change (p10 (-7)) with (1 # 10000000)%Q. lra. }
  split.
  - destruct (Qlt_le_dec (L ^ n) (p10 (- rs - 3))) as [K|K]; [exfalso|exact K].
    pose proof (LE _ (Qlt_le_weak _ _ K)) as U. replace (- rs - 3) with (- rs + -3) in U by lia. rewrite inject_Z_plus, inject_Z_opp in U.
    change (inject_Z (-3)) with (-3)%Q in U. lra.
  - split.
    + destruct (Qlt_le_dec (p10 393206) (L ^ n)) as [K|K]; [exfalso|exact K].
      pose proof (GE _ (Qlt_le_weak _ _ K)) as U. change (inject_Z 393206) with 393206%Q in U. lra.
    + intros g Hg K. pose proof (LE _ K) as U.
      assert (inject_Z (f2i f) < inject_Z (g + 2))%Q; [|rewrite <- Zlt_Qlt in *; unfold sig; lia].
      rewrite inject_Z_plus. change (inject_Z 2) with 2%Q. lra.
Qed.
End Steps.

(** ** Positive exponents *)
Definition pow_error (q l : Q) (n s : Z) : Q := (((1 # 2) + (1 # 100000) * (Qabs q / l) ^ n) * ten ^ (- s))%Q.

Lemma limit_big : (p10 8 <= limit)%Q.
Proof. rewrite limit_p10. apply p10_le. lia. Qed.

Lemma lead_of v d t q l : stripped v -> digits v = d :: t -> (vval v == q)%Q -> leading q l -> (l == Lead v d)%Q.
Proof.
  intros S E V (d' & w & Hd & El & L1 & L2). unfold Lead. rewrite El.
  destruct (lead_digit v d t S E) as [A1 A2]. rewrite V in A1, A2. rewrite El in L1. change (ten ^ (4 * w))%Q with (p10 (4 * w)) in *.
  pose proof (d_range v d t 0 S E) as Dr. set (A := Qabs q) in *. clearbody A.
  assert (Pw : (0 < p10 (4 * w))%Q) by apply p10_pos. assert (Pv : (0 < p10 (4 * weight v))%Q) by apply p10_pos.
  assert (G : forall d1 d2 w1 w2, 1 <= d1 <= 9999 -> 1 <= d2 <= 9999 -> (inject_Z d1 * p10 (4 * w1) <= A)%Q -> (A < inject_Z (d2 + 1) * p10 (4 * w2))%Q -> w1 <= w2).
  { intros d1 d2 w1 w2 H1 H2 X1 X2. assert (K : (p10 (4 * w1) < p10 (4 * (w2 + 1)))%Q).
    { apply Qle_lt_trans with (inject_Z d1 * p10 (4 * w1))%Q.
      - rewrite <- (Qmult_1_l (p10 (4 * w1))) at 1. apply Qmult_le_compat_r; [change 1%Q with (inject_Z 1); rewrite <- Zle_Qle; lia|apply Qlt_le_weak, p10_pos].
      - eapply Qle_lt_trans; [exact X1|]. eapply Qlt_le_trans; [exact X2|]. replace (4 * (w2 + 1)) with (4 + 4 * w2) by lia. rewrite p10_add, (p10_Z 4) by lia.
        apply Qmult_le_compat_r; [rewrite <- Zle_Qle; lia|apply Qlt_le_weak, p10_pos]. }
    apply (proj1 (p10_lt_iff _ _)) in K. lia. }
  assert (W : w = weight v).
  { apply Z.le_antisymm; [apply (G d' d); assumption|apply (G d d'); assumption]. }
  subst w.
  assert (D1 : (inject_Z d' < inject_Z (d + 1))%Q) by (apply (Qmult_lt_r _ _ _ Pv); eapply Qle_lt_trans; eassumption).
  assert (D2 : (inject_Z d < inject_Z (d' + 1))%Q) by (apply (Qmult_lt_r _ _ _ Pv); eapply Qle_lt_trans; eassumption).
  rewrite <- Zlt_Qlt in D1, D2. assert (d = d') by lia. subst d'. reflexivity.
Qed.

Lemma leading_exists v d t : stripped v -> digits v = d :: t -> leading (vval v) (Lead v d).
Proof.
  intros S E. pose proof (d_range v d t 0 S E) as Dr. exists d, (weight v). split; [exact Dr|]. split; [reflexivity|]. exact (lead_digit v d t S E).
Qed.

Theorem pow_accurate c m fuel x q s e n se l : log10_sound (f_log10 m) -> log10_fine (f_log10 m) -> ln_between (f_ln m) ->
  stores (be_varlen c) x q s -> stores (be_varlen c) e (inject_Z n) se -> 3 <= n < 2 ^ 31 -> leading q l ->
  exists o, num_pow c m fuel x e = Ret o /\
    match o with
    | None => (limit * (99999 # 100000) <= Qabs q ^ n)%Q
    | Some y => exists r, stores (be_varlen c) y r (pow_scale_of s) /\
        (((r == 0)%Q /\ (l ^ n <= (1 # 4) * ten ^ (- pow_scale_of s))%Q) \/
         (Qabs (r - q ^ n) <= pow_error q l n (pow_scale_of s))%Q)
    end.
Proof.
  intros LG FI LB H1 H2 Hn HL. change (2 ^ 31) with 2147483648 in Hn.
  destruct (stores_elim _ _ _ _ H1) as (v & C & -> & V1 & S1). destruct (stores_elim _ _ _ _ H2) as (w & C2 & -> & V2 & S2).
  pose proof (cn_st v C) as S.
  destruct (digits v) as [|d t] eqn:E.
  { exfalso. destruct HL as (d & w' & Hd & El & L1 & _). rewrite <- V1, (vval_empty v E), El in L1. change (Qabs 0) with 0%Q in L1.
    assert (0 < inject_Z d * ten ^ (4 * w'))%Q; [|lra]. apply Qmult_lt_0_compat; [change 0%Q with (inject_Z 0); rewrite <- Zlt_Qlt; lia|apply (p10_pos (4 * w'))]. }
  assert (NE : digits v <> []) by congruence.
  rewrite (num_pow_int c m fuel v w n C C2 V2) by lia. rewrite <- S1. set (rs := pow_scale_of (dscale v)).
  assert (Hrs : 16 <= rs <= 1000) by (unfold rs, pow_scale_of; lia).
  pose proof (lead_of v d t q l S E V1 HL) as EL.
  assert (PV : forall j, (vval v ^ j == q ^ j)%Q) by (intro j; exact (Qpower_comp _ _ V1 j j eq_refl)).
  assert (AV : forall j, (Qabs (vval v) ^ j == Qabs q ^ j)%Q) by (intro j; apply (Qpower_comp _ _); [now rewrite V1|reflexivity]).
  assert (Pl : (0 < Lead v d)%Q) by exact (Lead_pos v d t 0 S E).
  pose proof (Qpow_pos (Lead v d) n ltac:(lia) Pl) as PLn.
  assert (ELn : (l ^ n == Lead v d ^ n)%Q) by exact (Qpower_comp _ _ EL n n eq_refl).
  destruct (lead_digit v d t S E) as [LD _]. fold (Lead v d) in LD.
  assert (LDn : (Lead v d ^ n <= Qabs (vval v) ^ n)%Q) by (apply Qpow_mono; [lia|lra|exact LD]).
  pose proof (p10_pos (- rs)) as Prs. pose proof limit_big as LBig. change (p10 8) with 100000000%Q in LBig.
  destruct (pow_steps c m v d t n rs LG FI LB C E ltac:(lia) ltac:(lia) Hrs) as [(Ep & K)|[(Ep & K)|(sig & Ep & Hs & B1 & B2 & B3 & B4 & _)]]; rewrite Ep.
  - cbn [bind]. exists None. split; [reflexivity|]. rewrite <- AV.
    apply Qle_trans with limit; [lra|]. rewrite limit_p10. apply Qle_trans with (p10 393203); [apply p10_le; lia|]. lra.
  - cbn [bind]. change (is_nan (Var 0 rs SPos [])) with false. cbv iota.
    destruct (make_zero c rs ltac:(lia)) as (y & Ey & Sy). exists (Some y). split; [exact Ey|]. exists 0%Q. split; [exact Sy|]. left. split; [reflexivity|].
    rewrite ELn. change (ten ^ (- rs))%Q with (p10 (- rs)). lra.
  - unfold pow_rest. rewrite Z.abs_eq in * by lia.
    destruct (pow_loop_near_run c v n sig C NE Hs ltac:(lia) ltac:(lra)) as [(r & Er & P & Wr)|(Eo & LO)].
    2:{ rewrite Eo. cbn [bind]. replace (n <? 0) with false by (symmetry; apply Z.ltb_ge; lia). cbn [bind]. exists None. split; [reflexivity|].
        rewrite <- AV. eapply Qle_trans; [|exact LO]. rewrite !(Qmult_comm limit). apply Qmult_le_compat_r; lra. }
    rewrite Er. cbn [bind]. replace (n <? 0) with false by (symmetry; apply Z.ltb_ge; lia).
    pose proof (ap_st _ _ _ _ _ P) as Sr. pose proof (ap_nz v sig S NE Hs n n r ltac:(lia) P) as NEr.
    destruct (ap_ratio v n sig Hs ltac:(lra) n n r ltac:(lia) P) as (u & Vr & U1 & U2).
    set (x2 := (inject_Z n * dlt sig)%Q) in *.
    assert (X0 : (0 <= x2)%Q).
    { unfold x2, dlt. pose proof (p10_pos (- sig)). apply Qmult_le_0_compat; [change 0%Q with (inject_Z 0); rewrite <- Zle_Qle; lia|lra]. }
    destruct (round_common_spec c r rs (st_digits r Sr) (st_nan r Sr)) as (z & Ez & R). rewrite Ez. cbn [bind].
    rewrite (not_nan' z (rd_sign _ _ _ _ R)).
    assert (An : (0 <= Qabs (vval v) ^ n)%Q) by lra.
    assert (Ar : (Qabs (vval r) == Qabs (vval v) ^ n * u)%Q).
    { rewrite Vr, Qabs_Qmult, Qpow_abs, (Qabs_pos u) by (lia || lra). reflexivity. }
    assert (Wr0 : -32767 <= weight r).
    { pose proof (stripped_range r Sr NEr) as [_ Ub]. rewrite Ar in Ub.
      assert (K : (p10 (- rs - 4) < p10 (4 * (weight r + 1)))%Q).
      { eapply Qle_lt_trans; [|exact Ub]. replace (- rs - 4) with (-1 + (- rs - 3)) by lia. rewrite p10_add. change (p10 (-1)) with (1 # 10)%Q.
        apply Qle_trans with (Qabs (vval v) ^ n * (1 # 10))%Q; [lra|]. rewrite !(Qmult_comm (Qabs (vval v) ^ n)). apply Qmult_le_compat_r; lra. }
      apply (proj1 (p10_lt_iff _ _)) in K. lia. }
    destruct (make_rounded c r rs _ z Sr ltac:(lia) ltac:(lia) R (mult_round _ rs rs ltac:(lia))) as (o & Eo & [R1 R2]).
    exists o. split; [exact Eo|].
    pose proof (round_err (vval r) rs) as RE.
    destruct (Qlt_le_dec (Qabs (round_at (vval r) rs)) limit) as [G|G].
    + destruct (R1 G) as (y & -> & Y). exists (round_at (vval r) rs). split; [exact Y|]. right.
      unfold pow_error. change (ten ^ (- rs))%Q with (p10 (- rs)).
      setoid_replace (round_at (vval r) rs - q ^ n)%Q with ((round_at (vval r) rs - vval r) + (vval r - q ^ n))%Q by ring.
      eapply Qle_trans; [apply Qabs_triangle|].
      assert (EE : (Qabs (vval r - q ^ n) <= (1 # 100000) * (Qabs q / l) ^ n * p10 (- rs))%Q).
      { rewrite Vr, <- PV. setoid_replace (vval v ^ n * u - vval v ^ n)%Q with (vval v ^ n * (u - 1))%Q by ring.
        rewrite Qabs_Qmult, Qpow_abs by lia.
        assert (UU : (Qabs (u - 1) <= 2 * x2)%Q) by (apply Qabs_Qle_condition; split; lra).
        apply Qle_trans with (Qabs (vval v) ^ n * (2 * x2))%Q; [rewrite !(Qmult_comm (Qabs (vval v) ^ n)); apply Qmult_le_compat_r; [exact UU|exact An]|].
        assert (RT : ((Qabs q / l) ^ n == Qabs (vval v) ^ n / Lead v d ^ n)%Q).
        { unfold Qdiv. rewrite Qmult_power, Qinv_power, AV, ELn. reflexivity. }
        rewrite RT. set (a := (Qabs (vval v) ^ n)%Q) in *. set (ln := (Lead v d ^ n)%Q) in *.
        setoid_replace (a * (2 * x2))%Q with (2 * (x2 * ln) * (a / ln))%Q by (field; lra).
        setoid_replace ((1 # 100000) * (a / ln) * p10 (- rs))%Q with ((1 # 100000) * p10 (- rs) * (a / ln))%Q by ring.
        apply Qmult_le_compat_r; [lra|]. apply Qle_shift_div_l; lra. }
      lra.
    + rewrite (R2 G). rewrite <- AV. set (a := (Qabs (vval v) ^ n)%Q) in *.
      assert (p10 (- rs) <= 1)%Q by (rewrite <- p10_0; apply p10_le; lia).
      assert (Q1 : (limit <= a * u + (1 # 2))%Q).
      { rewrite <- Ar. eapply Qle_trans; [exact G|].
        setoid_replace (round_at (vval r) rs) with ((round_at (vval r) rs - vval r) + vval r)%Q by ring. eapply Qle_trans; [apply Qabs_triangle|]. lra. }
      assert (Q2 : (a * u <= a * (1 + 2 * x2))%Q) by (rewrite !(Qmult_comm a); apply Qmult_le_compat_r; lra).
      assert (Q3 : (a * (1 + 2 * x2) <= a * (1 + (88 # 10000000)))%Q) by (rewrite !(Qmult_comm a); apply Qmult_le_compat_r; lra).
      clearbody a. lra.
Qed.

(** ** Negative exponents *)
Lemma Qpow_neg_pos (x : Q) n : (0 < x)%Q -> (0 < x ^ n)%Q.
Proof.
  intro H. destruct (Z_le_gt_dec 0 n) as [G|G]; [now apply Qpow_pos|].
  replace n with (- - n) by lia. rewrite Qpow_opp. apply Qinv_lt_0_compat. apply Qpow_pos; [lia|exact H].
Qed.

Lemma Qinv_le (x y : Q) : (0 < x)%Q -> (x <= y)%Q -> (/ y <= / x)%Q.
Proof. intros X H. apply (inv_le 0); lra. Qed.

(** an early overflow of the estimate is an overflow, although the estimate is too large *)
Lemma neg_none m v d t n : log10_sound (f_log10 m) -> log10_fine (f_log10 m) -> stripped v -> digits v = d :: t -> -32767 <= weight v <= 32767 ->
  1 <= n < 2147483648 -> (p10 393203 <= Lead v d ^ (- n))%Q -> (Qabs (vval v) ^ n <= p10 (-131072))%Q.
Proof.
  intros LG FI S E W Hn H. pose proof (d_range v d t 0 S E) as Dr. destruct (decimal_lead d Dr) as (k & Hk & Hd).
  pose proof (fine_ge m v d t k LG FI S E Hk Hd (- n) _ H) as FG. replace (Z.abs (- n)) with n in FG by lia. rewrite inject_Z_opp in FG.
  change (inject_Z 393203) with 393203%Q in FG.
  assert (N0 : (1 <= inject_Z n)%Q) by (change 1%Q with (inject_Z 1); rewrite <- Zle_Qle; lia).
  assert (NU : (inject_Z n <= 2147483648)%Q) by (change 2147483648%Q with (inject_Z 2147483648); rewrite <- Zle_Qle; lia).
  pose proof (Lg_range m v d t k LG S E Hk Hd) as [R1 _].
  assert (W1 : weight v <= -1).
  { destruct (Z_le_gt_dec (weight v) (-1)) as [G|G]; [exact G|exfalso].
    assert (0 <= Lg m v d)%Q by (eapply Qle_trans; [|exact R1]; change 0%Q with (inject_Z 0); rewrite <- Zle_Qle; lia).
    assert (0 <= inject_Z n * Lg m v d)%Q by (apply Qmult_le_0_compat; lra). lra. }
  assert (SQ : (d + 1) * (d + 1) <= d * 10 ^ (- (4 * weight v))).
  { assert (T4 : 10 ^ 4 <= 10 ^ (- (4 * weight v))) by (apply Z.pow_le_mono_r; lia). change (10 ^ 4) with 10000 in T4.
    destruct (Z_le_gt_dec d 9995) as [G|G].
    - apply Z.le_trans with (d * 10000); [|apply Z.mul_le_mono_nonneg_l; lia]. nia.
    - destruct (Z_le_gt_dec (weight v) (-2)) as [G2|G2].
      + assert (T8 : 10 ^ 8 <= 10 ^ (- (4 * weight v))) by (apply Z.pow_le_mono_r; lia). change (10 ^ 8) with 100000000 in T8.
        apply Z.le_trans with (d * 100000000); [nia|apply Z.mul_le_mono_nonneg_l; lia].
      + exfalso. pose proof (lg_9996 m v d t LG S E ltac:(lia)) as L9.
        assert (WV : weight v = -1) by lia. unfold Lg in FG. rewrite WV in FG. change (inject_Z (4 * -1)) with (-4)%Q in FG.
        assert (X : (inject_Z n * (- (176 # 1000000)) <= inject_Z n * (f_log10 m (inject_Z d) + -4))%Q).
        { rewrite !(Qmult_comm (inject_Z n)). apply Qmult_le_compat_r; lra. }
        lra. }
  destruct (lead_digit v d t S E) as [_ U]. set (A := Qabs (vval v)) in *. assert (A0 : (0 <= A)%Q) by apply Qabs_nonneg.
  assert (SL : (A * A <= Lead v d)%Q).
  { set (X := (inject_Z (d + 1) * p10 (4 * weight v))%Q) in *.
    apply Qle_trans with (X * X)%Q; [apply Qmult_le_compat_nonneg; split; lra|]. unfold X, Lead.
    setoid_replace (inject_Z (d + 1) * p10 (4 * weight v) * (inject_Z (d + 1) * p10 (4 * weight v)))%Q
      with (inject_Z ((d + 1) * (d + 1)) * p10 (4 * weight v) * p10 (4 * weight v))%Q by (rewrite inject_Z_mult; ring).
    apply Qmult_le_compat_r; [|apply Qlt_le_weak, p10_pos].
    apply Qle_trans with (inject_Z (d * 10 ^ (- (4 * weight v))) * p10 (4 * weight v))%Q.
    - apply Qmult_le_compat_r; [now rewrite <- Zle_Qle|apply Qlt_le_weak, p10_pos].
    - rewrite inject_Z_mult, <- p10_Z by lia. rewrite <- Qmult_assoc, (Qmult_comm (p10 (- _))), p10_opp, Qmult_1_r. apply Qle_refl. }
  assert (LN : (Lead v d ^ n <= p10 (-393203))%Q).
  { rewrite Qpow_opp in H. pose proof (Qpow_pos _ n ltac:(lia) (Lead_pos v d t 0 S E)) as P.
    pose proof (Qinv_le _ _ (p10_pos 393203) H) as X. rewrite Qinv_involutive, p10_inv in X; [exact X|exact 0]. }
  assert (AN : (0 <= A ^ n)%Q) by now apply Qpower_pos.
  assert (SN : (A ^ n * A ^ n <= p10 (-393203))%Q).
  { eapply Qle_trans; [|exact LN]. rewrite <- Qmult_power. apply Qpow_mono; [lia|now apply Qmult_le_0_compat|exact SL]. }
  destruct (Qlt_le_dec (p10 (-131072)) (A ^ n)) as [K|K]; [exfalso|exact K].
  assert (X : (p10 (-131072) * p10 (-131072) <= A ^ n * A ^ n)%Q).
  { pose proof (p10_pos (-131072)). apply Qmult_le_compat_nonneg; split; lra. }
  rewrite <- p10_add in X. pose proof (Qle_trans _ _ _ X SN) as Y. apply (proj1 (p10_le_iff _ _)) in Y. lia.
Qed.

Lemma round_zero c rs : 0 <= rs <= 1000 -> round_common c ZERO rs = Ret (Var 0 rs SPos []).
Proof.
  intro H. unfold round_common. rewrite (nan_ok c ZERO ltac:(discriminate)). cbn [bind]. change (weight ZERO) with 0. change (ndigits ZERO) with 0.
  change DEC_DIGITS with 4. change ((0 + 1) * 4 + rs) with (4 + rs).
  replace (4 + rs <? 0) with false by (symmetry; apply Z.ltb_ge; lia).
  rewrite Z.quot_div_nonneg by lia.
  assert (G : 0 < (4 + rs + 4 - 1) / 4) by (pose proof (Z.div_mod (4 + rs + 4 - 1) 4 ltac:(lia)); pose proof (Z.mod_pos_bound (4 + rs + 4 - 1) 4 ltac:(lia)); lia).
  replace (_ <? 0) with false by (symmetry; apply Z.ltb_ge; lia).
  replace (_ =? 0) with false by (symmetry; apply Z.eqb_neq; lia). reflexivity.
Qed.

Theorem pow_accurate_neg c m fuel x q s e n se l : log10_sound (f_log10 m) -> log10_fine (f_log10 m) -> ln_between (f_ln m) ->
  stores (be_varlen c) x q s -> stores (be_varlen c) e (inject_Z n) se -> - 2 ^ 31 < n <= -2 -> leading q l ->
  (exists o, num_pow c m fuel x e = Ret o /\
    match o with
    | None => (limit * (99999 # 100000) <= Qabs q ^ n)%Q
    | Some y => exists r, stores (be_varlen c) y r (pow_scale_of s) /\
         (Qabs (r - q ^ n) <= (50001 # 100000) * ten ^ (- pow_scale_of s))%Q
    end) \/
  (num_pow c m fuel x e = Panic WArith /\ dbg c = true /\
     ~ (s <= 30 /\ (ten ^ (-60) <= Qabs q ^ n)%Q /\ (l ^ n <= ten ^ 8)%Q)).
Proof.
  intros LG FI LB H1 H2 Hn HL. change (2 ^ 31) with 2147483648 in Hn.
  destruct (stores_elim _ _ _ _ H1) as (v & C & -> & V1 & S1). destruct (stores_elim _ _ _ _ H2) as (w & C2 & -> & V2 & S2).
  pose proof (cn_st v C) as S. pose proof (cn_weight v C) as W.
  destruct (digits v) as [|d t] eqn:E.
  { exfalso. destruct HL as (d & w' & Hd & El & L1 & _). rewrite <- V1, (vval_empty v E), El in L1. change (Qabs 0) with 0%Q in L1.
    assert (0 < inject_Z d * ten ^ (4 * w'))%Q; [|lra]. apply Qmult_lt_0_compat; [change 0%Q with (inject_Z 0); rewrite <- Zlt_Qlt; lia|apply (p10_pos (4 * w'))]. }
  assert (NE : digits v <> []) by congruence. pose proof (stripped_nz v S NE) as NZ.
  rewrite (num_pow_int c m fuel v w n C C2 V2) by (lia || tauto). rewrite <- S1. set (rs := pow_scale_of (dscale v)).
  assert (Hrs : 16 <= rs <= 1000) by (unfold rs, pow_scale_of; lia).
  pose proof (lead_of v d t q l S E V1 HL) as EL.
  set (N := - n). assert (HN : 2 <= N < 2147483648) by (unfold N; lia). replace n with (- N) in * by (unfold N; lia). clearbody N. clear n Hn.
  assert (PV : (vval v ^ (- N) == q ^ (- N))%Q) by exact (Qpower_comp _ _ V1 _ _ eq_refl).
  assert (AV : (Qabs (vval v) ^ (- N) == Qabs q ^ (- N))%Q) by (apply (Qpower_comp _ _); [now rewrite V1|reflexivity]).
  assert (Pl : (0 < Lead v d)%Q) by exact (Lead_pos v d t 0 S E).
  pose proof (Qpow_pos (Lead v d) N ltac:(lia) Pl) as PLN.
  assert (ELn : (l ^ (- N) == Lead v d ^ (- N))%Q) by exact (Qpower_comp _ _ EL _ _ eq_refl).
  destruct (lead_digit v d t S E) as [LD _]. fold (Lead v d) in LD.
  assert (LDN : (Lead v d ^ N <= Qabs (vval v) ^ N)%Q) by (apply Qpow_mono; [lia|lra|exact LD]).
  set (A := (Qabs (vval v) ^ N)%Q) in *. assert (A0 : (0 < A)%Q) by lra.
  assert (AI : (Qabs (vval v) ^ (- N) == / A)%Q) by apply Qpow_opp.
  assert (QI : (Qabs (q ^ (- N)) == / A)%Q) by (rewrite <- PV, Qpow_opp, Qabs_inv, Qpow_abs by lia; reflexivity).
  assert (LI : (/ A <= Lead v d ^ (- N))%Q) by (rewrite Qpow_opp; now apply Qinv_le).
  assert (I0 : (0 < / A)%Q) by now apply Qinv_lt_0_compat.
  pose proof (p10_pos (- rs)) as Prs. pose proof limit_big as LBig. change (p10 8) with 100000000%Q in LBig.
  assert (ZZ : (4 * / A <= p10 (- rs))%Q -> exists o, make_result c (Var 0 rs SPos []) = Ret o /\
     match o with
     | None => (limit * (99999 # 100000) <= Qabs q ^ (- N))%Q
     | Some y => exists r, stores (be_varlen c) y r rs /\ (Qabs (r - q ^ (- N)) <= (50001 # 100000) * ten ^ (- rs))%Q
     end).
  { intro K. destruct (make_zero c rs ltac:(lia)) as (y & Ey & Sy). exists (Some y). split; [exact Ey|]. exists 0%Q. split; [exact Sy|].
    setoid_replace (0 - q ^ (- N))%Q with (- q ^ (- N))%Q by ring. rewrite Qabs_opp, QI. change (ten ^ (- rs))%Q with (p10 (- rs)). lra. }
  destruct (pow_steps c m v d t (- N) rs LG FI LB C E ltac:(lia) ltac:(lia) Hrs) as [(Ep & K)|[(Ep & K)|(sig & Ep & Hs & B1 & B2 & B3 & B4 & B5)]]; rewrite Ep.
  - left. cbn [bind]. exists None. split; [reflexivity|]. rewrite <- AV, AI.
    pose proof (neg_none m v d t N LG FI S E W ltac:(lia) K) as X. fold A in X.
    apply Qle_trans with limit; [lra|]. rewrite limit_p10. pose proof (Qinv_le _ _ A0 X) as Y. rewrite p10_inv in Y; [exact Y|exact 0].
  - left. cbn [bind]. change (is_nan (Var 0 rs SPos [])) with false. cbv iota. apply ZZ. lra.
  - unfold pow_rest. replace (Z.abs (- N)) with N in * by lia.
    replace (- N <? 0) with true by (symmetry; apply Z.ltb_lt; lia).
    destruct (pow_loop_near_run c v N sig C NE Hs ltac:(lia) ltac:(lra)) as [(r & Er & P & Wr)|(Eo & LO)].
    2:{ left. rewrite Eo. cbn [bind]. rewrite round_zero by lia. cbn [bind]. change (is_nan (Var 0 rs SPos [])) with false. cbv iota. apply ZZ.
        assert (LO' : (p10 2000 <= A)%Q).
        { eapply Qle_trans; [|exact LO]. rewrite limit_p10. apply Qle_trans with (p10 (4 * 32768) * (1 # 10))%Q.
          - change (1 # 10)%Q with (p10 (-1)). rewrite <- p10_add. apply p10_le. lia.
          - rewrite !(Qmult_comm (p10 (4 * 32768))). apply Qmult_le_compat_r; [lra|apply Qlt_le_weak, p10_pos]. }
        pose proof (Qinv_le _ _ (p10_pos _) LO') as Y. rewrite p10_inv in Y by exact 0.
        apply Qle_trans with (4 * p10 (- (2000)))%Q; [lra|].
        apply Qle_trans with (p10 (1 + - (2000))); [rewrite p10_add; change (p10 1) with 10%Q; pose proof (p10_pos (- (2000))); lra|apply p10_le; lia]. }
    rewrite Er. cbn [bind].
    pose proof (ap_st _ _ _ _ _ P) as Sr. pose proof (ap_nz v sig S NE Hs N N r ltac:(lia) P) as NEr. pose proof (stripped_nz r Sr NEr) as NZr.
    destruct (ap_ratio v N sig Hs ltac:(lra) N N r ltac:(lia) P) as (u & Vr & U1 & U2).
    set (x2 := (inject_Z N * dlt sig)%Q) in *.
    assert (X0 : (0 <= x2)%Q).
    { unfold x2, dlt. pose proof (p10_pos (- sig)). apply Qmult_le_0_compat; [change 0%Q with (inject_Z 0); rewrite <- Zle_Qle; lia|lra]. }
    assert (Ar : (Qabs (vval r) == A * u)%Q).
    { rewrite Vr, Qabs_Qmult, Qpow_abs, (Qabs_pos u) by (lia || lra). reflexivity. }
    pose proof (stripped_range r Sr NEr) as [Rl Ru]. rewrite Ar in Rl, Ru.
    assert (AL : (p10 (-393206) <= A)%Q).
    { apply Qle_trans with (Lead v d ^ N)%Q; [|exact LDN]. rewrite Qpow_opp in B4. pose proof (Qinv_le _ _ (Qinv_lt_0_compat _ PLN) B4) as Y.
      rewrite Qinv_involutive, p10_inv in Y; [exact Y|exact 0]. }
    assert (WL : -98303 <= weight r).
    { assert (K : (p10 (-393207) < p10 (4 * (weight r + 1)))%Q).
      { eapply Qle_lt_trans; [|exact Ru]. change (-393207) with (-1 + -393206). rewrite p10_add. change (p10 (-1)) with (1 # 10)%Q.
        apply Qle_trans with (A * (1 # 10))%Q; [lra|]. rewrite !(Qmult_comm A). apply Qmult_le_compat_r; lra. }
      apply (proj1 (p10_lt_iff _ _)) in K. lia. }
    destruct (div_fast_spec c ONE r rs (one_stripped 0) Sr ltac:(discriminate) NEr) as [(z & Ez & Sz & Dz & (p & Bp & Vz))|(Db & K & Ez)].
    { unfold df_bounds. change (ndigits ONE) with 1. change (weight ONE) with 0. lia. }
    2:{ right. rewrite Ez. cbn [bind]. split; [reflexivity|]. split; [exact Db|]. intros (Ks & Kq & Kl).
        rewrite ELn in Kl. change (ten ^ 8)%Q with (p10 8) in Kl. pose proof (B5 8 ltac:(lia) Kl) as Sg.
        assert (R30 : rs <= 30) by (unfold rs, pow_scale_of; lia).
        pose proof (ndigits_size r Sr NEr (ap_mult _ _ _ _ _ P)) as ND.
        destruct (ap_fine _ _ _ _ _ P ltac:(lia)) as [F0|F0]; [|lia].
        rewrite <- AV, AI in Kq. change (ten ^ (-60))%Q with (p10 (-60)) in Kq.
        pose proof (Qinv_le _ _ (p10_pos _) Kq) as Y. rewrite Qinv_involutive, p10_inv in Y by exact 0. change (- (-60)) with 60 in Y.
        assert (Z1 : (p10 (4 * weight r) < p10 61)%Q).
        { eapply Qle_lt_trans; [exact Rl|]. change 61 with (1 + 60). rewrite p10_add. change (p10 1) with 10%Q. pose proof (p10_pos 60).
          apply Qle_lt_trans with (A * 2)%Q; [|lra]. rewrite !(Qmult_comm A). apply Qmult_le_compat_r; lra. }
        apply (proj1 (p10_lt_iff _ _)) in Z1. lia. }
    left. rewrite Ez. cbn [bind expect]. rewrite (not_nan z Sz).
    assert (Mz : mult (vval z) rs) by (apply (mult_comp (round_at p rs)); [now symmetry|apply mult_round; lia]).
    destruct (make_result_semi c z (vval z) rs (stripped_semi z Sz) Dz ltac:(lia) (Qeq_refl _) Mz) as (o & Eo & [R1 R2]).
    exists o. split; [exact Eo|].
    assert (EE : (Qabs (vval z - q ^ (- N)) <= (50001 # 100000) * p10 (- rs))%Q).
    { rewrite Vz. setoid_replace (round_at p rs - q ^ (- N))%Q with ((round_at p rs - p) + ((p - vval ONE / vval r) + (vval ONE / vval r - q ^ (- N))))%Q by ring.
      eapply Qle_trans; [apply Qabs_triangle|]. pose proof (round_err p rs) as RE.
      pose proof (Qabs_triangle (p - vval ONE / vval r) (vval ONE / vval r - q ^ (- N))) as T2.
      replace (- rs - 9) with (-9 + - rs) in Bp by lia. rewrite p10_add in Bp. change (p10 (-9)) with (1 # 1000000000)%Q in Bp.
      assert (E3 : (Qabs (vval ONE / vval r - q ^ (- N)) <= (889 # 100000000) * p10 (- rs))%Q).
      { assert (u0 : ~ (u == 0)%Q) by lra.
        assert (vN : ~ (vval v ^ N == 0)%Q) by now apply Qpower_not_0.
        assert (EQ : (vval ONE / vval r - q ^ (- N) == q ^ (- N) * ((1 - u) / u))%Q).
        { rewrite <- PV, Qpow_opp, Vr. change (vval ONE) with (vval (set_dscale 0 ONE)). rewrite vval_one. field. split; assumption. }
        rewrite EQ, Qabs_Qmult, QI.
        assert (UU : (Qabs ((1 - u) / u) <= (201 # 100) * x2)%Q).
        { unfold Qdiv. rewrite Qabs_Qmult, Qabs_Qinv, (Qabs_pos u) by lra. apply Qle_shift_div_r; [lra|].
          assert (X2u : ((99 # 100) * x2 <= u * x2)%Q) by (apply Qmult_le_compat_r; lra).
          assert (Qabs (1 - u) <= 2 * x2)%Q by (apply Qabs_Qle_condition; split; lra). nra. }
        apply Qle_trans with (Lead v d ^ (- N) * ((201 # 100) * x2))%Q.
        - apply Qmult_le_compat_nonneg; split; try assumption; [lra|apply Qabs_nonneg].
        - lra. }
      lra. }
    destruct (Qlt_le_dec (Qabs (vval z)) limit) as [G|G].
    + destruct (R1 G) as (y & -> & Y). exists (vval z). split; [exact Y|exact EE].
    + rewrite (R2 G). rewrite <- AV, AI, <- QI.
      assert (p10 (- rs) <= 1)%Q by (rewrite <- p10_0; apply p10_le; lia).
      assert (Q1 : (limit <= Qabs (q ^ (- N)) + 1)%Q).
      { eapply Qle_trans; [exact G|]. setoid_replace (vval z) with ((vval z - q ^ (- N)) + q ^ (- N))%Q by ring. eapply Qle_trans; [apply Qabs_triangle|]. lra. }
      lra.
Qed.

(** ** One unit in the last place *)
Theorem pow_one_unit c m fuel x q s e n se l : log10_sound (f_log10 m) -> log10_fine (f_log10 m) -> ln_between (f_ln m) ->
  stores (be_varlen c) x q s -> stores (be_varlen c) e (inject_Z n) se -> 3 <= n < 2 ^ 31 -> leading q l ->
  (Qabs q ^ n <= 2 * l ^ n)%Q -> (Qabs q ^ n < limit * (99999 # 100000))%Q ->
  exists y r, num_pow c m fuel x e = Ret (Some y) /\ stores (be_varlen c) y r (pow_scale_of s) /\
    (Qabs (r - q ^ n) <= (50002 # 100000) * ten ^ (- pow_scale_of s))%Q.
Proof.
  intros LG FI LB H1 H2 Hn HL HR HO.
  destruct (pow_accurate c m fuel x q s e n se l LG FI LB H1 H2 Hn HL) as (o & E & R).
  destruct o as [y|]; [|exfalso; lra]. destruct R as (r & Y & R). exists y, r. split; [exact E|]. split; [exact Y|].
  assert (P : (0 < ten ^ (- pow_scale_of s))%Q) by apply (p10_pos (- pow_scale_of s)). set (u := (ten ^ (- pow_scale_of s))%Q) in *.
  destruct R as [[Z0 L]|R].
  - rewrite Z0. setoid_replace (0 - q ^ n)%Q with (- q ^ n)%Q by ring. rewrite Qabs_opp, Qpow_abs by lia. lra.
  - eapply Qle_trans; [exact R|]. unfold pow_error. fold u. apply Qmult_le_compat_r; [|lra].
    assert (Pl : (0 < l)%Q).
    { destruct HL as (d & w & Hd & El & _). rewrite El. apply Qmult_lt_0_compat; [change 0%Q with (inject_Z 0); rewrite <- Zlt_Qlt; lia|apply (p10_pos (4 * w))]. }
    assert (RT : ((Qabs q / l) ^ n <= 2)%Q).
    { unfold Qdiv. rewrite Qmult_power, Qinv_power. apply Qle_shift_div_r; [apply Qpow_pos; [lia|exact Pl]|exact HR]. }
    lra.
Qed.
