(** * MachPowSim: integer powers and scientific notation, machine level (MachPow.v) against Transc.v. *)
From Coq Require Import ZArith QArith Qabs Qpower List Bool Lia Lqa.
From Verif Require Import Base Var Binary Format Parse Convert Num Flt Transc Data Spec SpecApi SpecLibm SpecPow SpecData SpecMach QDec Digits
  Strip Round Trunc Signed AddSub Arith Codec Make Api1 Api2 FltFacts Mul MulNear DivQ DivFast Sqrt ConvertApi PowLoop Sci PowInt PowApi
  PowSmall PowMin PowNear PowAcc Profile Profile2 Closure DataSim DataBuf DataApi Mach MachSim MachAdd MachMul MachDiv MachApi MachText MachConv
  MachFast MachDivFast MachSqrt MachPow.
Import ListNotations.
Open Scope Z_scope.

Lemma pow_digits_m c ds f p : m_pow_digits c ds 1 f p = Ret (pow_digits ds 1 f p).
Proof. destruct ds as [|d t]; [reflexivity|]. cbn [m_pow_digits pow_digits]. rewrite usize_ok by (change DEC_DIGITS with 4; lia). reflexivity. Qed.

Definition exit_rel (e : m_pow_exit) (e' : pow_exit) : Prop :=
  match e, e' with
  | MDone p, PDone r => mrep 13000000 p r /\ within 800000 r
  | MOver, POver => True
  | _, _ => False
  end.

Lemma up p v : mrep 13000000 p v -> mrep big p v.
Proof. apply mrep_mono. unfold big. lia. Qed.

Section Loop.
Variables (c : cfg) (a : nat -> nat -> Z) (v : var) (N sig : Z).
Hypothesis (Sv : stripped v) (Nv : digits v <> []).
Hypothesis Hsig : 7 <= sig <= 399000.
Hypothesis HN : (inject_Z N * dlt sig <= 1 # 1000)%Q.
Hypothesis Low : (p10 (-393206) <= Qabs (vval v) ^ N)%Q.

Lemma low_pow j : 0 <= j <= N -> (p10 (-393206) <= Qabs (vval v) ^ j)%Q.
Proof using Low.
  intro H. destruct (Qlt_le_dec (Qabs (vval v)) 1) as [K|K].
  - eapply Qle_trans; [exact Low|]. pose proof (Qabs_nonneg (vval v)) as A0.
    destruct (Qeq_dec (Qabs (vval v)) 0) as [Z0|Z0].
    + destruct (Z.eq_dec j 0) as [->|Nj].
      * change (Qabs (vval v) ^ 0)%Q with 1%Q. apply (Qpow_le1 (Qabs (vval v)) N); [lia|split; lra].
      * rewrite (Qpower_comp _ _ Z0 N N eq_refl), (Qpower_comp _ _ Z0 j j eq_refl). rewrite !Qpower_0 by lia. apply Qle_refl.
    + replace N with (j + (N - j)) by lia. rewrite Qpow_add by exact Z0.
      pose proof (Qpow_le1 (Qabs (vval v)) (N - j) ltac:(lia) ltac:(split; lra)) as [E1 E2].
      pose proof (Qpow_le1 (Qabs (vval v)) j ltac:(lia) ltac:(split; lra)) as [E3 E4].
      set (x := (Qabs (vval v) ^ j)%Q) in *. set (y := (Qabs (vval v) ^ (N - j))%Q) in *. clearbody x y.
      apply Qle_trans with (x * 1)%Q; [|lra]. rewrite !(Qmult_comm x). apply Qmult_le_compat_r; assumption.
  - apply Qle_trans with 1%Q; [rewrite <- p10_0; apply p10_le; lia|]. apply Qpow_ge1; [lia|exact K].
Qed.

Lemma ap_within j e b : 0 <= j <= N -> 0 <= e <= N -> apx v sig j e b -> weight b <= 99000 -> within 800000 b.
Proof using Sv Nv Hsig HN Low.
  intros Hj He P W. pose proof (ap_st _ _ _ _ _ P) as Sb. pose proof (ap_nz v sig Sv Nv Hsig j e b ltac:(lia) P) as Nb.
  destruct (ap_ratio v N sig Hsig HN j e b He P) as (t & V & L & U).
  pose proof (stripped_range b Sb Nb) as [_ Ub]. rewrite V, Qabs_Qmult, Qpow_abs, (Qabs_pos t) in Ub by (lia || lra).
  assert (K : (p10 (-393207) < p10 (4 * (weight b + 1)))%Q).
  { eapply Qle_lt_trans; [|exact Ub]. change (-393207) with (-1 + -393206). rewrite p10_add. change (p10 (-1)) with (1 # 10)%Q.
    pose proof (low_pow j Hj) as LP. set (x := (Qabs (vval v) ^ j)%Q) in *. clearbody x. pose proof (p10_pos (-393206)) as P0.
    set (y := p10 (-393206)) in *. clearbody y. apply Qle_trans with (x * (1 # 10))%Q; [lra|]. rewrite !(Qmult_comm x). apply Qmult_le_compat_r; lra. }
  apply (proj1 (p10_lt_iff _ _)) in K. pose proof (ndigits_size b Sb Nb (ap_mult _ _ _ _ _ P)). pose proof (ap_size _ _ _ _ _ P).
  pose proof (ap_scale _ _ _ _ _ P). unfold PMAX in *. unfold within. lia.
Qed.

Lemma pow_loop_m fuel : forall n mask j k b r pb pr, 0 <= mask -> 1 <= j -> 0 <= k ->
  k + 2 * j * (mask / 2) = N -> 1 <= N -> j <= N -> apx v sig j (j - 1) b -> apx v sig k k r -> weight b <= 32767 -> weight r <= 32767 ->
  mrep 13000000 pb b -> mrep 13000000 pr r ->
  sim exit_rel (m_pow_loop c a fuel n mask sig pb pr) (pow_loop c fuel mask sig b r).
Proof using Sv Nv Hsig HN Low.
  induction fuel as [|f IH]; intros n mask j k b r pb pr M Hj Hk EN N1 Jn Pb Pr Wb Wr Mb Mr; [exact I|]. cbn [m_pow_loop pow_loop]. cbv zeta.
  rewrite <- Z.div2_spec, Z.div2_div. set (mk := mask / 2) in *.
  assert (Mk : 0 <= mk) by (unfold mk; apply Z.div_pos; lia).
  assert (WR : within 800000 r) by (apply (ap_within k k); auto; nia).
  assert (WB : within 800000 b) by (apply (ap_within j (j - 1)); auto; lia).
  destruct (Z.leb_spec mk 0) as [Z0|Z0]; [cbn [sim exit_rel]; now split|].
  pose proof (rp_weight _ _ (proj1 Mb)) as Ew. pose proof (rp_dscale _ _ (proj1 Mb)) as Ed. rewrite Ew, Ed.
  pose proof (rp_weight _ _ (proj1 Mr)) as Ewr. pose proof (rp_dscale _ _ (proj1 Mr)) as Edr.
  pose proof WB as (B1 & B2 & B3). pose proof WR as (R1 & R2 & R3). pose proof (ap_scale _ _ _ _ _ Pb). pose proof (ap_scale _ _ _ _ _ Pr).
  change NUMERIC_MIN_DISPLAY_SCALE with 0. change DEC_DIGITS with 4. ari.
  destruct (ap_mul c v sig Sv Nv Hsig j j (j - 1) (j - 1) b b ltac:(lia) ltac:(lia) Pb Pb ltac:(lia)) as (b' & Eb & Pb' & Wb').
  replace (j - 1 + (j - 1) + 1) with (j + j - 1) in Pb' by lia.
  assert (J2 : j + j <= N) by nia.
  assert (WB' : within 800000 b') by (apply (ap_within (j + j) (j + j - 1)); auto; lia).
  pose proof (mul_t c (a n) 800000 pb pb b b (Z.max (Z.min (sig - 2 * weight b * 4) (2 * dscale b)) 0) ltac:(lia) ltac:(lia)
    (st_digits _ (ap_st _ _ _ _ _ Pb)) (st_digits _ (ap_st _ _ _ _ _ Pb)) (up _ _ Mb)
    (up _ _ Mb) WB WB) as MS.
  replace (Z.max (Z.min (sig - 2 * weight b * 4) (2 * dscale b)) 0) with (Z.max (Z.min (sig - (weight b + weight b) * 4) (dscale b + dscale b)) 0) in * by lia.
  rewrite Eb in MS |- *. cbn [bind]. destruct (m_mul_common c (a n) pb pb _) as [pb'| | |]; cbn [sim] in MS; try contradiction. cbn [bind].
  assert (Mb' : mrep 13000000 pb' b') by (apply (mrep_mono (16 * 800000 + 70)); [lia|exact MS]). clear MS.
  pose proof (rp_weight _ _ (proj1 Mb')) as Ewb. pose proof (rp_dscale _ _ (proj1 Mb')) as Edb.
  pose proof (Z.div_mod mk 2 ltac:(lia)) as DM. assert (D2 : 0 <= mk / 2) by (apply Z.div_pos; lia).
  assert (G : exists k' r' pr', (if Z.odd mk
     then mul_common c b' r (Z.max (Z.min (sig - (weight b' + weight r) * 4) (dscale b' + dscale r)) 0)
     else Ret r) = Ret r' /\
     (if Z.odd mk then
             t <- i32 c (p_weight pb' + p_weight pr) ;;
             t <- i32 c (t * 4) ;;
             t <- i32 c (sig - t) ;;
             u <- i32 c (p_dscale pb' + p_dscale pr) ;;
             m_mul_common c (a (n + 1)%nat) pb' pr (Z.max (Z.min t u) 0)
           else Ret pr) = Ret pr' /\ mrep 13000000 pr' r' /\
     apx v sig k' k' r' /\ 0 <= k' /\ k' + 2 * (j + j) * (mk / 2) = N).
  { rewrite odd_mod. destruct (Z.eqb_spec (mk mod 2) 1) as [O|O].
    - destruct (ap_mul c v sig Sv Nv Hsig (j + j) k (j + j - 1) k b' r ltac:(lia) ltac:(lia) Pb' Pr ltac:(lia)) as (r' & Er & Pr' & _).
      replace (j + j - 1 + k + 1) with (j + j + k) in Pr' by lia. rewrite Ewb, Edb, Ewr, Edr.
      pose proof WB' as (C1 & C2 & C3). pose proof (ap_scale _ _ _ _ _ Pb'). ari.
      pose proof (mul_t c (a (n + 1)%nat) 800000 pb' pr b' r (Z.max (Z.min (sig - (weight b' + weight r) * 4) (dscale b' + dscale r)) 0) ltac:(lia) ltac:(lia)
        (st_digits _ (ap_st _ _ _ _ _ Pb')) (st_digits _ (ap_st _ _ _ _ _ Pr)) (up _ _ Mb')
        (up _ _ Mr) WB' WR) as MS.
      rewrite Er in MS |- *. destruct (m_mul_common c _ pb' pr _) as [pr'| | |]; cbn [sim] in MS; try contradiction.
      exists (j + j + k), r', pr'. split; [reflexivity|]. split; [reflexivity|]. split; [apply (mrep_mono (16 * 800000 + 70)); [lia|exact MS]|].
      split; [exact Pr'|]. split; [lia|nia].
    - exists k, r, pr. split; [reflexivity|]. split; [reflexivity|]. split; [exact Mr|]. split; [exact Pr|]. split; [lia|].
      pose proof (Z.mod_pos_bound mk 2 ltac:(lia)). assert (mk = 2 * (mk / 2)) by lia. nia. }
  destruct G as (k' & r' & pr' & Er & Epr & Mr' & Pr' & Hk' & EN'). rewrite Er, Epr. cbn [bind].
  rewrite Ewb, (rp_weight _ _ (proj1 Mr')).
  destruct (Z.ltb_spec 32767 (weight b')) as [Wq|Wq]; cbn [orb]; [exact I|].
  destruct (Z.ltb_spec 32767 (weight r')) as [Wq'|Wq']; [exact I|].
  apply (IH _ mk (j + j) k'); auto; lia.
Qed.
End Loop.

(** ** the estimates *)
Definition through (m : libm) (v : var) (d n rs : Z) : Prop :=
  let f := pow_f m v d n in (f <= 393204 /\ inject_Z (- rs) <= fadd f 1 /\ inject_Z (- 1000) <= fadd f 1)%Q.
Definition sig_of (m : libm) (v : var) (d n rs : Z) : Z := 1 + rs + f2i (pow_f m v d n) + (ln_i32 m (Z.abs n) + 8).
Definition ready (v : var) (N sig : Z) : Prop :=
  7 <= sig <= 399000 /\ (inject_Z N * dlt sig <= 1 # 1000)%Q /\ (p10 (-393206) <= Qabs (vval v) ^ N)%Q.

Lemma f2i_through m v d n rs : through m v d n rs -> -1003 <= f2i (pow_f m v d n) <= 393206.
Proof.
  intros (F1 & _ & F2). set (f := pow_f m v d n) in *. clearbody f. change (inject_Z (- 1000)) with (-1000)%Q in F2.
  pose proof (fl_err (f + 1)) as E. fold (fadd f 1) in E. unfold ulp53 in E.
  assert (L : (-1002 < f)%Q).
  { destruct (Qlt_le_dec (-1002) f) as [G|G]; [exact G|exfalso]. rewrite (Qabs_neg (f + 1)) in E by lra. apply Qabs_Qle_condition in E. destruct E as [_ E]. lra. }
  pose proof (f2i_near f ltac:(apply Qabs_Qlt_condition; split; lra)) as FN. apply Qabs_Qlt_condition in FN.
  split; apply Z.lt_succ_r.
  - rewrite Zlt_Qlt. unfold Z.succ. rewrite inject_Z_plus. change (inject_Z (-1003)) with (-1003)%Q. change (inject_Z 1) with 1%Q. lra.
  - rewrite Zlt_Qlt. unfold Z.succ. change (inject_Z (393206 + 1)) with 393207%Q. lra.
Qed.

Section Through.
Variables (c : cfg) (m : libm) (v : var) (d : Z) (t : list Z) (n rs : Z).
Hypothesis LG : log10_sound (f_log10 m).
Hypothesis FI : log10_fine (f_log10 m).
Hypothesis LB : ln_between (f_ln m).
Hypothesis C : canon v.
Hypothesis Ev : digits v = d :: t.
Hypothesis Hn : 2 <= Z.abs n < 2147483648.
Hypothesis Hrs : 16 <= rs <= 1000.

Local Notation L := (Lead v d).

Lemma through_ready : through m v d n rs -> ready v (Z.abs n) (sig_of m v d n rs).
Proof using LG FI LB C Ev Hn Hrs.
  intro TH. pose proof (f2i_through m v d n rs TH) as FR. destruct TH as (F1 & F2 & _).
  pose proof (cn_st v C) as S. pose proof (cn_weight v C) as W. pose proof (d_range v d t 0 S Ev) as Dr.
  destruct (decimal_lead d Dr) as (k & Hk & Hd).
  pose proof (pow_f_err m v d t k LG S Ev W Hk Hd n ltac:(lia)) as FE. apply Qabs_Qle_condition in FE. unfold sig_of. set (f := pow_f m v d n) in *.
  assert (NA : (inject_Z (Z.abs n) <= 2147483648)%Q) by (change 2147483648%Q with (inject_Z 2147483648); rewrite <- Zle_Qle; lia).
  assert (GE : forall E, (p10 E <= L ^ n)%Q -> (inject_Z E <= f + (126 # 1000))%Q).
  { intros E H. pose proof (fine_ge m v d t k LG FI S Ev Hk Hd n E H) as X. lra. }
  assert (LE : forall E, (L ^ n <= p10 E)%Q -> (f <= inject_Z E + (126 # 1000))%Q).
  { intros E H. pose proof (fine_le m v d t k LG FI S Ev Hk Hd n E H) as X. lra. }
  assert (Rq : (16 <= inject_Z rs <= 1000)%Q).
  { change 16%Q with (inject_Z 16). change 1000%Q with (inject_Z 1000). rewrite <- !Zle_Qle. lia. }
  rewrite inject_Z_opp in F2.
  assert (FL : (- inject_Z rs - (11 # 10) <= f)%Q).
  { destruct (Qlt_le_dec f (- inject_Z rs - (11 # 10))) as [G|G]; [exfalso|exact G].
    pose proof (fl_err (f + 1)) as E. fold (fadd f 1) in E. unfold ulp53 in E. rewrite (Qabs_neg (f + 1)) in E by lra.
    apply Qabs_Qle_condition in E. destruct E as [_ E].
    assert (- 2000000000000 <= f)%Q; [|lra]. lra. }
  pose proof (f2i_near f ltac:(apply Qabs_Qlt_condition; split; lra)) as FN. apply Qabs_Qlt_condition in FN.
  destruct (ln_digits m (Z.abs n) LB Hn) as [L0 L4]. set (ln := ln_i32 m (Z.abs n)) in *.
  assert (F0 : - rs - 2 <= f2i f).
  { assert (inject_Z (- rs - 3) < inject_Z (f2i f))%Q; [|rewrite <- Zlt_Qlt in *; lia].
    replace (- rs - 3) with (- rs + -3) by lia. rewrite inject_Z_plus, inject_Z_opp. change (inject_Z (-3)) with (-3)%Q. lra. }
  unfold ready. split; [lia|]. set (sig := 1 + rs + f2i f + (ln + 8)). split.
  - assert (ND : (inject_Z (Z.abs n) * dlt sig <= 44 * p10 (ln - sig))%Q).
    { unfold dlt. replace (ln - sig) with (ln + - sig) by lia. rewrite p10_add. pose proof (p10_pos (- sig)) as P.
      apply Qle_trans with (4 * p10 ln * (11 * p10 (- sig)))%Q; [apply Qmult_le_compat_r; [exact L4|lra]|]. lra. }
    eapply Qle_trans; [exact ND|]. apply Qle_trans with (44 * p10 (-7))%Q; [|discriminate]. rewrite !(Qmult_comm 44). apply Qmult_le_compat_r; [|discriminate].
    apply p10_le. unfold sig. lia.
  - assert (Pl : (0 < L)%Q) by exact (Lead_pos v d t 0 S Ev).
    destruct (lead_digit v d t S Ev) as [LD _]. fold (Lead v d) in LD.
    assert (LDN : (L ^ Z.abs n <= Qabs (vval v) ^ Z.abs n)%Q) by (apply Qpow_mono; [lia|lra|exact LD]).
    eapply Qle_trans; [|exact LDN].
    destruct (Z_le_gt_dec 0 n) as [G|G].
    + rewrite Z.abs_eq by lia. apply Qle_trans with (p10 (- rs - 3)); [apply p10_le; lia|].
      destruct (Qlt_le_dec (L ^ n) (p10 (- rs - 3))) as [K|K]; [exfalso|exact K].
      pose proof (LE _ (Qlt_le_weak _ _ K)) as U. replace (- rs - 3) with (- rs + -3) in U by lia. rewrite inject_Z_plus, inject_Z_opp in U.
      change (inject_Z (-3)) with (-3)%Q in U. lra.
    + assert (U : (L ^ n <= p10 393206)%Q).
      { destruct (Qlt_le_dec (p10 393206) (L ^ n)) as [K|K]; [exfalso|exact K].
        pose proof (GE _ (Qlt_le_weak _ _ K)) as U. change (inject_Z 393206) with 393206%Q in U. lra. }
      rewrite Z.abs_neq by lia. replace n with (- - n) in U by lia. rewrite Qpow_opp in U.
      pose proof (Qpow_pos L (- n) ltac:(lia) Pl) as PLN.
      pose proof (PowAcc.Qinv_le _ _ (Qinv_lt_0_compat _ PLN) U) as Y. rewrite Qinv_involutive, p10_inv in Y; [exact Y|exact 0].
Qed.
End Through.

(** ** power_int *)
Definition ten_ok : mrep 50 M_TEN TEN.
Proof.
  split; constructor; cbn [M_TEN TEN p_nd p_weight p_dscale p_sign p_cow weight dscale sign digits]; auto; try lia.
  - now exists [].
  - change (lenz [10]) with 1. lia.
Qed.
Lemma set_dscale_m B p v s : - B <= s <= B -> mrep B p v -> mrep B (m_set_dscale s p) (set_dscale s v).
Proof. intros H [[R1 R2 R3 R4 R5] [F1 F2 F3 F4]]. split; constructor; cbn [m_set_dscale set_dscale p_nd p_weight p_dscale p_sign p_cow weight dscale sign digits]; auto. Qed.

Lemma one_within : within 800000 ONE.
Proof. unfold within. cbn. lia. Qed.

Lemma pow_tail_m c a n rs e e' : 0 <= rs <= 16400 -> exit_rel e e' ->
  sim (orel (mrep 20000000))
    (match e with
     | MOver =>
         if n <? 0 then
           r <- m_clone c (a 2%nat) m_zero ;; r <- m_round_common c (a 3%nat) r rs ;; Ret (Some r)
         else Ret None
     | MDone result =>
         if n <? 0 then
           o <- m_div_fast_common c (a 2%nat) M_ONE result rs true ;;
           r <- expect o MDivZero ;; Ret (Some r)
         else r <- m_round_common c (a 2%nat) result rs ;; Ret (Some r)
     end)
    (match e' with
     | POver => if n <? 0 then r <- round_common c ZERO rs ;; Ret (Some r) else Ret None
     | PDone result =>
         if n <? 0 then
           o <- div_fast_common c ONE result rs true ;;
           r <- expect o MDivZero ;; Ret (Some r)
         else r <- round_common c result rs ;; Ret (Some r)
     end).
Proof.
  intros LR E. destruct e as [p|], e' as [r|]; cbn [exit_rel] in E; try contradiction.
  - destruct E as [M W]. destruct (n <? 0).
    + apply (sim_bind (orel (mrep (8 * 1000000 + 200)))).
      * apply div_fast_m; try lia; [apply one_m; unfold big; lia|now apply up|apply (within_mono 800000); [lia|exact one_within]|apply (within_mono 800000); [lia|exact W]].
      * intros [z|] [z'|] K; cbn [orel] in K; try contradiction; cbn [expect bind sim orel]; [|reflexivity].
        apply (mrep_mono (8 * 1000000 + 200)); [lia|exact K].
    + apply (sim_bind (mrep (13000000 + 10))); [apply round_m; try lia; exact M|]. intros z z' K. cbn [sim orel]. apply (mrep_mono (13000000 + 10)); [lia|exact K].
  - destruct (n <? 0); [|exact I].
    destruct (clone_m c (a 2%nat) 50 m_zero zero_var ltac:(lia) zero_m) as (z & Ez & Mz). rewrite Ez. cbn [bind]. change ZERO with zero_var.
    apply (sim_bind (mrep (20000 + 10))); [apply round_m; try lia; apply (mrep_mono (50 + 5)); [lia|exact Mz]|].
    intros y y' K. cbn [sim orel]. apply (mrep_mono (20000 + 10)); [lia|exact K].
Qed.

(** the machine's steps once the logarithm [f] is estimated *)
Definition m_pow_go (c : cfg) (a : nat -> nat -> Z) (m : libm) (p : pvar) (n rscale : Z) (f : Q) : outcome (option pvar) :=
    if negb (Qle_bool f 393204) then Ret None
    else
      s <- i32 c (- rscale) ;;
      if negb (Qle_bool (inject_Z s) (fadd f 1)) || negb (Qle_bool (inject_Z (- 1000)) (fadd f 1))
      then z <- m_zero_scaled c rscale ;; Ret (Some z)
      else
        t <- i32 c (1 + rscale) ;;
        sig_digits <- i32 c (t + f2i f) ;;
        b <- i32 c (Z.abs n) ;;
        u <- i32 c (ln_i32 m b + 8) ;;
        sig_digits <- i32 c (sig_digits + u) ;;
        mask <- i32 c (Z.abs n) ;;
        base_prod <- m_clone c (a 0%nat) p ;;
        result <- (if Z.odd mask then m_clone c (a 1%nat) p else m_clone c (a 1%nat) M_ONE) ;;
        e <- m_pow_loop c a 32 4 mask sig_digits base_prod result ;;
        match e with
        | MOver =>
            if n <? 0 then
              r <- m_clone c (a 2%nat) m_zero ;; r <- m_round_common c (a 3%nat) r rscale ;; Ret (Some r)
            else Ret None
        | MDone result =>
            if n <? 0 then
              o <- m_div_fast_common c (a 2%nat) M_ONE result rscale true ;;
              r <- expect o MDivZero ;; Ret (Some r)
            else r <- m_round_common c (a 2%nat) result rscale ;; Ret (Some r)
        end.
Definition pow_go_on (c : cfg) (m : libm) (v : var) (n rs : Z) (f : Q) : outcome (option var) :=
    if negb (Qle_bool f 393204) then Ret None
    else if negb (Qle_bool (inject_Z (- rs)) (fadd f 1)) || negb (Qle_bool (inject_Z (- 1000)) (fadd f 1))
    then z <- zero_scaled c rs ;; Ret (Some z)
    else
      a <- i32 c (Z.abs n) ;;
      x <- pow_loop c 32 a (1 + rs + f2i f + (ln_i32 m a + 8)) v (if Z.odd a then v else ONE) ;;
      match x with
      | POver => if n <? 0 then r <- round_common c ZERO rs ;; Ret (Some r) else Ret None
      | PDone result =>
          if n <? 0 then
            o <- div_fast_common c ONE result rs true ;;
            r <- expect o MDivZero ;; Ret (Some r)
          else r <- round_common c result rs ;; Ret (Some r)
      end.

Lemma m_pow_unfold c a m p v n rs d t : canon v -> mrep 40000 p v -> digits v = d :: t -> n <> 0 -> n <> 1 -> n <> -1 -> n <> 2 ->
  m_power_int c a m p n rs = m_pow_go c a m p n rs (pow_f m v d n).
Proof.
  intros C M Ed N0 N1 Nm N2. pose proof (cn_st v C) as S. pose proof (proj1 M) as R.
  unfold m_power_int, m_nan. rewrite (rp_sign _ _ R). pose proof (nan_ok c v (st_nan v S)) as NK. unfold is_nan in NK. rewrite NK. cbn [bind].
  destruct (Z.eqb_spec n 0); [congruence|]. destruct (Z.eqb_spec n 1); [congruence|]. destruct (Z.eqb_spec n (-1)); [congruence|].
  destruct (Z.eqb_spec n 2); [congruence|]. rewrite (rp_nd _ _ R), (rp_weight _ _ R).
  destruct (Z.eqb_spec (ndigits v) 0) as [K|K].
  { exfalso. unfold ndigits in K. rewrite Ed, lenz_cons in K. pose proof (lenz_nonneg t). lia. }
  rewrite (m_digits_ok c 40000 p v) by (try assumption; unfold big; lia). cbn [bind]. rewrite Ed. change (index (d :: t) 0) with (Ret d). cbn [bind tl].
  pose proof (cn_weight v C) as W. change DEC_DIGITS with 4. ari. rewrite pow_digits_m. cbn [bind].
  assert (P : pow_digits t 1 (inject_Z d) (weight v * 4) = (inject_Z d, weight v * 4)) by (destruct t; reflexivity).
  rewrite P. reflexivity.
Qed.

Lemma bind_ret {A B} (x : A) (f : A -> outcome B) : bind (Ret x) f = f x.
Proof. reflexivity. Qed.
Lemma m_loop_min c a n g p q : m_pow_loop c a 32 n (-2147483648) g p q = Ret (MDone q).
Proof. reflexivity. Qed.
Lemma loop_min c g p q : pow_loop c 32 (-2147483648) g p q = Ret (PDone q).
Proof. reflexivity. Qed.
Lemma i32_min c : dbg c = true -> i32 c 2147483648 = Panic WArith.
Proof. intro D. unfold i32, arith. rewrite D. reflexivity. Qed.
Lemma ln_min m : ln_i32 m (-2147483648) = 0.
Proof. reflexivity. Qed.

Lemma pow_go_m c a m p v n rs f : ln_between (f_ln m) -> canon v -> mrep 40000 p v -> -2147483648 <= n < 2147483648 -> 0 <= rs <= 16400 ->
  digits v <> [] -> n <> 0 -> n <> 1 -> n <> -1 -> n <> 2 ->
  ((f <= 393204 /\ inject_Z (- rs) <= fadd f 1 /\ inject_Z (- 1000) <= fadd f 1)%Q -> -1003 <= f2i f <= 393206) ->
  (2 <= Z.abs n < 2147483648 -> n <> 2 -> (f <= 393204 /\ inject_Z (- rs) <= fadd f 1 /\ inject_Z (- 1000) <= fadd f 1)%Q ->
    ready v (Z.abs n) (1 + rs + f2i f + (ln_i32 m (Z.abs n) + 8))) ->
  sim (orel (mrep 20000000)) (m_pow_go c a m p n rs f) (pow_go_on c m v n rs f).
Proof.
  intros LB C M Hn Hrs NE N0 N1 Nm N2 FT RD. pose proof (cn_st v C) as S. pose proof (proj1 M) as R. pose proof (cn_weight v C) as W. unfold m_pow_go, pow_go_on.
  destruct (Qle_bool f 393204) eqn:Q1; cbn [negb]; [|exact I]. ari.
  destruct (Qle_bool (inject_Z (- rs)) (fadd f 1)) eqn:Q2; cbn [negb orb].
  2:{ apply (sim_bind (mrep 20000)); [apply zero_scaled_m; lia|]. intros y y' K'. cbn [sim orel]. apply (mrep_mono 20000); [lia|exact K']. }
  destruct (Qle_bool (inject_Z (- 1000)) (fadd f 1)) eqn:Q3; cbn [negb orb].
  2:{ apply (sim_bind (mrep 20000)); [apply zero_scaled_m; lia|]. intros y y' K'. cbn [sim orel]. apply (mrep_mono 20000); [lia|exact K']. }
  apply Qle_bool_iff in Q1, Q2, Q3. specialize (FT (conj Q1 (conj Q2 Q3))). ari.
  destruct (Z.eq_dec n (-2147483648)) as [->|Nx].
  { clear RD. change (Z.abs (-2147483648)) with 2147483648. destruct (dbg c) eqn:D.
    - rewrite (i32_min c D). reflexivity.
    - assert (I0 : i32 c 2147483648 = Ret (-2147483648)) by (unfold i32, arith; rewrite D; reflexivity). rewrite I0. cbn [bind].
      rewrite ln_min. ari. change (Z.odd (-2147483648)) with false. cbv iota.
      destruct (clone_m c (a 0%nat) 40000 p v ltac:(lia) M) as (z & Ez & Mz). rewrite Ez, bind_ret.
      destruct (clone_m c (a 1%nat) 20000 M_ONE ONE ltac:(lia) (one_m 20000 ltac:(lia))) as (y & Ey & My). rewrite Ey, bind_ret.
      rewrite m_loop_min, loop_min, !bind_ret.
      apply (pow_tail_m c a (-2147483648) rs (MDone y) (PDone ONE) Hrs). cbn [exit_rel]. split; [apply (mrep_mono (20000 + 5)); [lia|exact My]|exact one_within]. }
  specialize (RD ltac:(lia) N2 (conj Q1 (conj Q2 Q3))). destruct RD as (Hs & HN & LO).
  ari. destruct (ln_digits m (Z.abs n) LB ltac:(lia)) as [L0 _]. ari.
  set (sig := 1 + rs + f2i f + (ln_i32 m (Z.abs n) + 8)) in *. clearbody sig.
  destruct (clone_m c (a 0%nat) 40000 p v ltac:(lia) M) as (z & Ez & Mz). rewrite Ez. cbn [bind].
  assert (A1 : forall e, 0 <= e -> apx v sig 1 e v).
  { destruct (dlt_small sig ltac:(lia)) as [D0 D1]. intros e He. pose proof (cn_scale v C). constructor; [exact S|now apply canon_mult|lia|unfold PMAX; lia|lia|].
    exists 1%Q. change (vval v ^ 1)%Q with (vval v).
    split; [ring|]. split; [apply Qpow_le1; [exact He|split; lra]|apply Qpow_ge1; [exact He|lra]]. }
  assert (SL : sim exit_rel
    (result <- (if Z.odd (Z.abs n) then m_clone c (a 1%nat) p else m_clone c (a 1%nat) M_ONE) ;; m_pow_loop c a 32 4 (Z.abs n) sig z result)
    (pow_loop c 32 (Z.abs n) sig v (if Z.odd (Z.abs n) then v else ONE))).
  { pose proof (Z.div_mod (Z.abs n) 2 ltac:(lia)) as DM. rewrite odd_mod. pose proof (Z.mod_pos_bound (Z.abs n) 2 ltac:(lia)).
    destruct (Z.eqb_spec (Z.abs n mod 2) 1) as [O|O].
    - destruct (clone_m c (a 1%nat) 40000 p v ltac:(lia) M) as (y & Ey & My). rewrite Ey. cbn [bind].
      apply (pow_loop_m c a v (Z.abs n) sig S NE Hs HN LO 32 4 (Z.abs n) 1 1); try lia; try (apply A1; lia);
        apply (mrep_mono (40000 + 5)); try lia; assumption.
    - destruct (clone_m c (a 1%nat) 20000 M_ONE ONE ltac:(lia) (one_m 20000 ltac:(lia))) as (y & Ey & My). rewrite Ey. cbn [bind].
      apply (pow_loop_m c a v (Z.abs n) sig S NE Hs HN LO 32 4 (Z.abs n) 1 0); try lia; try (apply A1; lia).
      + constructor; [exact (one_stripped 0)| | | |intro; lia|]; try (cbn; unfold PMAX; lia).
        * apply (mult_comp 1%Q); [symmetry; exact (vval_one 0)|]. exists 1. reflexivity.
        * exists 1%Q. split; [|split; [discriminate|discriminate]]. exact (vval_one 0).
      + cbn. lia.
      + apply (mrep_mono (40000 + 5)); [lia|assumption].
      + apply (mrep_mono (20000 + 5)); [lia|assumption]. }
  rewrite <- bind_assoc. apply (sim_bind exit_rel); [exact SL|]. intros e e' K'. now apply pow_tail_m.
Qed.

Lemma power_int_m c a m p v n rs : ln_between (f_ln m) -> canon v -> mrep 40000 p v -> -2147483648 <= n < 2147483648 -> 0 <= rs <= 16400 ->
  (forall d t, digits v = d :: t -> 2 <= Z.abs n < 2147483648 -> n <> 2 -> through m v d n rs -> ready v (Z.abs n) (sig_of m v d n rs)) ->
  sim (orel (mrep 20000000)) (m_power_int c a m p n rs) (power_int c m v n rs).
Proof.
  intros LB C M Hn Hrs RD. pose proof (cn_st v C) as S. pose proof (proj1 M) as R.
  destruct (Z.eq_dec n 0) as [->|N0].
  { unfold m_power_int, power_int, m_nan, is_nan. rewrite (rp_sign _ _ R). apply sim_same. intros u E. clear u E.
    change (0 =? 0) with true. cbv iota. destruct (clone_m c (a 0%nat) 20000 M_ONE ONE ltac:(lia) (one_m 20000 ltac:(lia))) as (z & Ez & Mz).
    rewrite Ez. cbn [bind sim orel]. apply set_dscale_m; [lia|]. apply (mrep_mono (20000 + 5)); [lia|exact Mz]. }
  destruct (Z.eq_dec n 1) as [->|N1].
  { unfold m_power_int, power_int, m_nan, is_nan. rewrite (rp_sign _ _ R). apply sim_same. intros u E. clear u E.
    change (1 =? 0) with false. change (1 =? 1) with true. cbv iota. destruct (clone_m c (a 0%nat) 40000 p v ltac:(lia) M) as (z & Ez & Mz).
    rewrite Ez. cbn [bind]. apply (sim_bind (mrep (40005 + 10))); [apply round_m; try lia; exact Mz|].
    intros y y' K. cbn [sim orel]. apply (mrep_mono (40005 + 10)); [lia|exact K]. }
  destruct (Z.eq_dec n (-1)) as [->|Nm].
  { unfold m_power_int, power_int, m_nan, is_nan. rewrite (rp_sign _ _ R). apply sim_same. intros u E. clear u E.
    change (-1 =? 0) with false. change (-1 =? 1) with false. change (-1 =? -1) with true. cbv iota.
    apply (sim_bind (orel (mrep (8 * 40000 + 100)))); [apply div_common_m; try lia; [apply one_m; lia|exact M]|].
    intros [z|] [z'|] K; cbn [orel] in K; try contradiction; cbn [expect bind sim orel]; [|reflexivity].
    apply (mrep_mono (8 * 40000 + 100)); [lia|exact K]. }
  destruct (Z.eq_dec n 2) as [->|N2].
  { unfold m_power_int, power_int, m_nan, is_nan. rewrite (rp_sign _ _ R). apply sim_same. intros u E. clear u E.
    change (2 =? 0) with false. change (2 =? 1) with false. change (2 =? -1) with false. change (2 =? 2) with true. cbv iota.
    apply (sim_bind (mrep (8 * (40000 + 40000) + 70))); [apply mul_common_m; try lia; try exact M; apply S|].
    intros y y' K. cbn [sim orel]. apply (mrep_mono (8 * (40000 + 40000) + 70)); [lia|exact K]. }
  destruct (digits v) as [|d t] eqn:Ed.
  { unfold m_power_int, power_int, m_nan, is_nan. rewrite (rp_sign _ _ R), (rp_nd _ _ R). apply sim_same. intros u E. clear u E.
    unfold ndigits. rewrite Ed. change (lenz (@nil Z)) with 0. change (0 =? 0) with true.
    destruct (Z.eqb_spec n 0); [congruence|]. destruct (Z.eqb_spec n 1); [congruence|]. destruct (Z.eqb_spec n (-1)); [congruence|].
    destruct (Z.eqb_spec n 2); [congruence|]. apply sim_same. intros u E. clear u E.
    apply (sim_bind (mrep 20000)); [apply zero_scaled_m; lia|]. intros y y' K. cbn [sim orel]. apply (mrep_mono 20000); [lia|exact K]. }
  rewrite (power_int_unfold c m v n rs d t (st_nan v S) Ed) by assumption. cbv zeta. rewrite (m_pow_unfold c a m p v n rs d t C M Ed) by assumption.
  apply (pow_go_m c a m p v n rs (pow_f m v d n) LB C M Hn Hrs); [congruence|assumption..| |].
  - apply f2i_through.
  - intros K1 K2 K3. exact (RD d t eq_refl K1 K2 K3).
Qed.

(** ** pow *)
Lemma one_fine : fine ONE.
Proof.
  left. split; [repeat constructor; cbn; unfold dig; lia|]. split; [discriminate|]. split; [exists 1; reflexivity|cbn; lia].
Qed.

Lemma power_int_fine c m v n rs r : stripped v -> 0 <= rs <= 16383 -> power_int c m v n rs = Ret (Some r) -> fine r.
Proof.
  intros S Hr E. apply (le_ret _ _ _ _ (le_power_int c m v n rs)) in E.
  destruct (power_int_fin (rel c) eq_refl m v n rs r S Hr E) as ((D & N) & Ds & M). left. rewrite Ds. repeat split; auto. lia.
Qed.

Lemma make_settled c r : fine r -> sign r <> SNaN -> settled (make_result c r).
Proof.
  intros F N. unfold make_result. rewrite (nan_ok c r N). cbn [bind].
  destruct (dassert c (0 <=? dscale r)) as [| | |] eqn:E; cbn [bind]; try exact I.
  2,3: unfold dassert in E; destruct (dbg c), (0 <=? dscale r); discriminate.
  destruct (_ || _ || _) eqn:K; [exact I|]. apply orb_false_iff in K. destruct K as [K K3]. apply orb_false_iff in K. destruct K as [K1 K2].
  change NUMERIC_WEIGHT_MAX with 32767 in *. change NUMERIC_DSCALE_MAX with 16383 in *.
  apply Z.ltb_ge in K1, K3. unfold make_result_no_overflow. rewrite (nan_ok c r N). cbn [bind].
  rewrite dassert_ok.
  - cbn [bind]. rewrite encode_spec; [exact I|]. apply canon_storable. apply fine_canon; auto; lia.
  - change NUMERIC_WEIGHT_MAX with 32767. rewrite (proj2 (Z.leb_le (weight r) 32767)) by lia. reflexivity.
Qed.

Lemma power_int_settled c m v n rs : log10_sound (f_log10 m) -> log10_fine (f_log10 m) -> ln_between (f_ln m) -> canon v ->
  -2147483648 <= n < 2147483648 -> 16 <= rs <= 1000 -> settled (power_int c m v n rs).
Proof.
  intros LG FI LB C Hn Hrs. pose proof (cn_st v C) as S.
  destruct (digits v) as [|d t] eqn:E.
  { unfold power_int. rewrite (nan_ok c v (st_nan v S)). cbn [bind]. unfold ndigits. rewrite E. change (lenz (@nil Z)) with 0. change (0 =? 0) with true.
    destruct (n =? 0); [exact I|]. destruct (n =? 1).
    { destruct (round_common_spec c v rs (st_digits v S) (st_nan v S)) as (z & Ez & _). rewrite Ez. exact I. }
    destruct (n =? -1).
    { unfold div_common. rewrite (nan_ok c v (st_nan v S)), (nan_ok c ONE ltac:(discriminate)). cbn [bind]. unfold ndigits. rewrite E.
      exact I. }
    destruct (n =? 2).
    { destruct (mul_common_near_any c v v rs) as (z & Ez & _); try apply S; try lia. rewrite Ez. exact I. }
    destruct (0 <=? n); cbn [assert_msg bind]; [|exact I]. rewrite zero_scaled_ok by lia. exact I. }
  assert (NE : digits v <> []) by congruence.
  destruct (Z.eq_dec n 0) as [->|N0]; [unfold power_int; rewrite (nan_ok c v (st_nan v S)); exact I|].
  destruct (Z.eq_dec n 1) as [->|N1].
  { unfold power_int. rewrite (nan_ok c v (st_nan v S)). cbn [bind]. change (1 =? 0) with false. change (1 =? 1) with true. cbv iota.
    destruct (round_common_spec c v rs (st_digits v S) (st_nan v S)) as (z & Ez & _). rewrite Ez. exact I. }
  destruct (Z.eq_dec n (-1)) as [->|Nm].
  { unfold power_int. rewrite (nan_ok c v (st_nan v S)). cbn [bind]. change (-1 =? 0) with false. change (-1 =? 1) with false. change (-1 =? -1) with true. cbv iota.
    destruct (div_common_nz c ONE v rs true) as (z & Ez & _); try apply S; try lia; try discriminate; [exact (st_digits _ (one_stripped 0))|exact NE|].
    rewrite Ez. exact I. }
  destruct (Z.eq_dec n 2) as [->|N2].
  { unfold power_int. rewrite (nan_ok c v (st_nan v S)). cbn [bind]. change (2 =? 0) with false. change (2 =? 1) with false. change (2 =? -1) with false.
    change (2 =? 2) with true. cbv iota. destruct (mul_common_near_any c v v rs) as (z & Ez & _); try apply S; try lia. rewrite Ez. exact I. }
  destruct (Z.eq_dec n (-2147483648)) as [->|Nx].
  { rewrite (power_int_unfold c m v _ rs d t (st_nan v S) E) by lia. cbv zeta. destruct (negb _); [exact I|].
    destruct (_ || _); [rewrite zero_scaled_ok by lia; exact I|]. change (Z.abs (-2147483648)) with 2147483648. destruct (dbg c) eqn:D.
    - unfold i32, arith. rewrite D. exact I.
    - assert (I0 : i32 c 2147483648 = Ret (-2147483648)) by (unfold i32, arith; rewrite D; reflexivity). rewrite I0. cbn [bind].
      change (Z.odd (-2147483648)) with false. cbv iota.
      assert (P : forall g, pow_loop c 32 (-2147483648) g v ONE = Ret (PDone ONE)) by reflexivity. rewrite P. cbn [bind].
      change (-2147483648 <? 0) with true. cbv iota.
      destruct (div_fast_spec c ONE ONE rs (one_stripped 0) (one_stripped 0) ltac:(discriminate) ltac:(discriminate)) as [(z & Ez & _)|(Db & _ & Ez)].
      + unfold df_bounds. cbn. lia.
      + rewrite Ez. exact I.
      + rewrite Ez. exact I. }
  destruct (pow_steps c m v d t n rs LG FI LB C E ltac:(lia) N2 Hrs) as [(Ep & _)|[(Ep & _)|(sig & Ep & Hs & B1 & _ & B3 & B4 & _)]]; rewrite Ep; try exact I.
  unfold pow_rest.
  destruct (pow_loop_near_run c v (Z.abs n) sig C NE Hs ltac:(lia) ltac:(lra)) as [(r & Er & P & Wr)|(Eo & _)].
  - rewrite Er. cbn [bind]. pose proof (ap_st _ _ _ _ _ P) as Sr. pose proof (ap_nz v sig S NE Hs (Z.abs n) (Z.abs n) r ltac:(lia) P) as NEr.
    destruct (Z.ltb_spec n 0) as [G|G].
    + assert (LO : (p10 (-393206) <= Qabs (vval v) ^ Z.abs n)%Q).
      { assert (Pl : (0 < Lead v d)%Q) by exact (Lead_pos v d t 0 S E). destruct (lead_digit v d t S E) as [LD _]. fold (Lead v d) in LD.
        apply Qle_trans with (Lead v d ^ Z.abs n)%Q; [|apply Qpow_mono; [lia|lra|exact LD]].
        rewrite Z.abs_neq by lia. replace n with (- - n) in B4 by lia. rewrite Qpow_opp in B4.
        pose proof (Qpow_pos (Lead v d) (- n) ltac:(lia) Pl) as PLN.
        pose proof (PowAcc.Qinv_le _ _ (Qinv_lt_0_compat _ PLN) B4) as Y. rewrite Qinv_involutive, p10_inv in Y; [exact Y|exact 0]. }
      pose proof (ap_ratio v (Z.abs n) sig Hs ltac:(lra) (Z.abs n) (Z.abs n) r ltac:(lia) P) as (u & Vr & U1 & U2).
      pose proof (stripped_range r Sr NEr) as [_ Ub]. rewrite Vr, Qabs_Qmult, Qpow_abs, (Qabs_pos u) in Ub by (lia || lra).
      assert (K : (p10 (-393207) < p10 (4 * (weight r + 1)))%Q).
      { eapply Qle_lt_trans; [|exact Ub]. change (-393207) with (-1 + -393206). rewrite p10_add. change (p10 (-1)) with (1 # 10)%Q.
        set (x := (Qabs (vval v) ^ Z.abs n)%Q) in *. clearbody x. pose proof (p10_pos (-393206)) as P0.
        set (y := p10 (-393206)) in *. clearbody y. apply Qle_trans with (x * (1 # 10))%Q; [lra|]. rewrite !(Qmult_comm x). apply Qmult_le_compat_r; lra. }
      apply (proj1 (p10_lt_iff _ _)) in K.
      destruct (div_fast_spec c ONE r rs (one_stripped 0) Sr ltac:(discriminate) NEr) as [(z & Ez & _)|(_ & _ & Ez)].
      * unfold df_bounds. change (ndigits ONE) with 1. change (weight ONE) with 0. lia.
      * rewrite Ez. exact I.
      * rewrite Ez. exact I.
    + destruct (round_common_spec c r rs (st_digits r Sr) (st_nan r Sr)) as (z & Ez & _). rewrite Ez. exact I.
  - rewrite Eo. cbn [bind]. destruct (n <? 0); [|exact I]. rewrite round_zero by lia. exact I.
Qed.
