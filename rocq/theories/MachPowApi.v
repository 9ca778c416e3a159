(** * MachPowApi: the entry points of integer powers and scientific notation, machine level. *)
From Coq Require Import ZArith QArith Qabs Qpower List Bool Lia Lqa.
From Verif Require Import Base Var Binary Format Parse Convert Num Flt Transc Data Spec SpecApi SpecText SpecLibm SpecPow SpecData SpecMach QDec Digits
  Strip Round Trunc Signed AddSub Arith Codec Make Api1 Api2 FltFacts Mul MulNear DivQ DivFast Sqrt ConvertApi PowLoop Sci PowInt PowApi
  PowSmall PowMin PowNear PowAcc Profile Profile2 Closure DataSim DataBuf DataApi Mach MachSim MachAdd MachMul MachDiv MachApi MachText MachConv
  MachFast MachDivFast MachSqrt MachPow MachPowSim.
Import ListNotations.
Open Scope Z_scope.

Local Notation m_nan_var := (PVar 0 0 0 SNaN (Borrowed [])).

Lemma zero_bm : mrep 40000 m_zero ZERO.
Proof. apply (mrep_mono 50); [lia|exact zero_m]. Qed.

Lemma signed32_m c a e : canon e -> m_to_signed c a 32 (borrow e) = var_to_signed c 32 e.
Proof. intro C. unfold m_to_signed, var_to_signed. change (32 =? 8) with false. cbv iota. apply into_signed_m; [lia|exact C]. Qed.

Lemma clamp_pow s : Z.min (Z.max (Z.max 16 s) 0) 1000 = Z.min 1000 (Z.max 16 s).
Proof. lia. Qed.

Lemma power_common_m c a m frac v e n : canon v -> canon e -> (vval e == inject_Z n)%Q -> -2147483648 <= n < 2147483648 ->
  m_power_common c a m frac (borrow v) (borrow e) = m_power_int c a m (borrow v) n (Z.min 1000 (Z.max 16 (dscale v))).
Proof.
  intros C T V H. pose proof (cn_st v C) as S. pose proof (cn_st e T) as Se. unfold m_power_common, m_nan. cbn [borrow p_sign p_nd p_weight p_dscale].
  fold (borrow e). fold (borrow v). pose proof (nan_ok c v (st_nan v S)) as NV. pose proof (nan_ok c e (st_nan e Se)) as NE. unfold is_nan in NV, NE.
  rewrite NV, NE, !bind_ret.
  assert (I0 : (if ndigits e =? 0 then Ret true else w <- i32 c (weight e + 1) ;; Ret (ndigits e <=? w)) = Ret true).
  { destruct (Z.eqb_spec (ndigits e) 0) as [K|K]; [reflexivity|]. pose proof (cn_weight e T). rewrite i32_ok by lia. cbn [bind].
    assert (Ne : digits e <> []) by (intro E; apply K; unfold ndigits; rewrite E; reflexivity).
    destruct (stripped_int e n Se Ne V) as (_ & _ & L & _). f_equal. apply Z.leb_le. exact L. }
  rewrite I0, bind_ret, signed32_m by exact T. rewrite var_to_signed_spec; [|unfold int_width; lia|apply Se|apply Se].
  rewrite (round_int_comp _ _ V), round_int_Z.
  replace (in_signed 32 n) with true. 2:{ symmetry. unfold in_signed. change (2 ^ (32 - 1)) with 2147483648. apply andb_true_intro. rewrite Z.leb_le, Z.ltb_lt. lia. }
  rewrite !bind_ret. change NUMERIC_MIN_SIG_DIGITS with 16. change NUMERIC_MIN_DISPLAY_SCALE with 0. change NUMERIC_MAX_DISPLAY_SCALE with 1000.
  rewrite clamp_pow. reflexivity.
Qed.

Lemma power_int_num c m v n rs r : stripped v -> 0 <= rs <= 16383 -> power_int c m v n rs = Ret (Some r) -> fine r /\ sign r <> SNaN.
Proof.
  intros S Hr E. split; [exact (power_int_fine c m v n rs r S Hr E)|]. apply (le_ret _ _ _ _ (le_power_int c m v n rs)) in E.
  destruct (power_int_fin (rel c) eq_refl m v n rs r S Hr E) as ((D & N) & _). exact N.
Qed.

Section Pow.
Variables (c : cfg) (a : nat -> nat -> Z) (m : libm) (frac : pvar -> pvar -> outcome (option pvar)) (fuel : nat).
Hypothesis LG : log10_sound (f_log10 m).
Hypothesis FI : log10_fine (f_log10 m).
Hypothesis LB : ln_between (f_ln m).

Definition pow_rel (r : option pvar) (r' : option var) : Prop :=
  orel (mrep 20000000) r r' /\ (forall z, r' = Some z -> fine z /\ sign z <> SNaN).

Lemma pow_var_m v e n : canon v -> canon e -> (vval e == inject_Z n)%Q -> -2147483648 <= n < 2147483648 ->
  sim pow_rel (m_pow_var c a m frac (borrow v) (borrow e)) (pow_var c m fuel v e) /\ settled (pow_var c m fuel v e).
Proof using LG FI LB.
  intros C T V H. pose proof (cn_st v C) as S. pose proof (cn_st e T) as Se.
  pose proof (borrow_m v C) as Mv. pose proof (borrow_m e T) as Me. pose proof zero_bm as Mz.
  assert (GO : sim pow_rel (m_power_common c a m frac (borrow v) (borrow e)) (power_common c m fuel v e) /\ settled (power_common c m fuel v e)).
  { rewrite (power_common_m c a m frac v e n C T V H), (power_common_int c m fuel v e n S Se V H).
    set (rs := Z.min 1000 (Z.max 16 (dscale v))). assert (Hr : 16 <= rs <= 1000) by (unfold rs; lia). clearbody rs.
    split; [|now apply power_int_settled].
    pose proof (power_int_m c a m (borrow v) v n rs LB C Mv H ltac:(lia)
      (fun d t E Hn _ TH => through_ready m v d t n rs LG FI LB C E Hn Hr TH)) as P.
    pose proof (fun r => power_int_num c m v n rs r S ltac:(lia)) as PF.
    destruct (m_power_int c a m (borrow v) n rs) as [x| | |], (power_int c m v n rs) as [y| | |]; cbn [sim] in P |- *; auto.
    split; [exact P|]. intros z ->. exact (PF z eq_refl). }
  assert (NV : m_nan (borrow v) = false) by exact (proj1 (borrow_nan v C)).
  assert (NE : m_nan (borrow e) = false) by exact (proj1 (borrow_nan e T)).
  unfold m_pow_var, pow_var. rewrite NV, NE, (not_nan v S), (not_nan e Se).
  rewrite (cmp_common_m c 40000 (borrow v) m_zero v ZERO ltac:(lia) Mv Mz).
  rewrite (cmp_common_m c 40000 (borrow e) m_zero e ZERO ltac:(lia) Me Mz).
  destruct (cmp_zero c v S) as (s & Es & _). destruct (cmp_zero c e Se) as (s' & Es' & _). rewrite Es, !bind_ret.
  assert (I0 : exists k, (if s =? 0 then cmp_common c e ZERO else Ret 0) = Ret k) by (destruct (s =? 0); [exists s'; exact Es'|now exists 0]).
  destruct I0 as (k & Ek). rewrite Ek, !bind_ret. destruct ((s =? 0) && (k <? 0)); [split; [reflexivity|exact I]|].
  destruct (cmp_trunc c e Se) as (r & u & Er & Eu & Hu). rewrite Er, bind_ret.
  destruct (clone_m c (a 0%nat) 40000 (borrow e) e ltac:(lia) Me) as (pe & Epe & Mpe). rewrite Epe, bind_ret.
  pose proof (trunc_m c (a 1%nat) 40005 pe e 0 ltac:(lia) ltac:(lia) Mpe) as TR. rewrite Er in TR.
  destruct (m_trunc_common c (a 1%nat) pe 0) as [pr| | |]; cbn [sim] in TR; try contradiction. rewrite !bind_ret.
  rewrite (cmp_common_m c 40015 (borrow e) pr e r ltac:(lia) (mrep_mono 40000 40015 _ _ ltac:(lia) Me) TR), Eu.
  assert (I1 : exists j, (if s <? 0 then Ret u else Ret 0) = Ret j) by (destruct (s <? 0); eauto).
  destruct I1 as (j & Ej). rewrite Ej, !bind_ret. destruct ((s <? 0) && negb (j =? 0)); [split; [reflexivity|exact I]|]. exact GO.
Qed.

Lemma make_one : sim (optrel c) (r <- m_clone c (a 0%nat) M_ONE ;; if m_nan r then b <- m_nan_buf c (a 0%nat) ;; Ret (Some b) else m_make_result c (a 0%nat) r)
    (make_result c ONE) /\ settled (make_result c ONE).
Proof using.
  destruct (clone_m c (a 0%nat) 20000 M_ONE ONE ltac:(lia) (one_m 20000 ltac:(lia))) as (z & Ez & Mz). rewrite Ez, bind_ret.
  assert (N : m_nan z = false) by (unfold m_nan; rewrite (rp_sign _ _ (proj1 Mz)); reflexivity). rewrite N.
  split; [|apply make_settled; [exact one_fine|discriminate]]. apply (make_m c (a 0%nat) 20005); [lia|exact Mz|exact one_fine].
Qed.
Lemma make_nan : sim (optrel c) (b <- m_nan_buf c (a 0%nat) ;; Ret (Some b)) (b <- nan_buf c ;; Ret (Some b)) /\ settled (b <- nan_buf c ;; Ret (Some b)).
Proof using.
  pose proof (nan_m c (a 0%nat)) as N. split.
  - apply (sim_bind (bufrel c)); [exact N|]. intros x y K. exact K.
  - rewrite nan_buf_spec. exact I.
Qed.

(** exponents: NaN, or an integer of type i32 *)
Definition int_exp (e : bytes) : Prop :=
  stores_nan (be_varlen c) e \/ exists n s, -2147483648 <= n < 2147483648 /\ stores (be_varlen c) e (inject_Z n) s.

Theorem pow_mach x e : valid (be_varlen c) x -> int_exp e ->
  sim (optrel c) (m_num_pow c a m frac x e) (num_pow c m fuel x e) /\ settled (num_pow c m fuel x e).
Proof using LG FI LB.
  intros Vx Ve. unfold m_num_pow, num_pow.
  assert (NN : m_nan m_nan_var = true) by reflexivity. assert (NN' : is_nan nan_var = true) by reflexivity.
  destruct Vx as [Hx|(q & s & Hx)]; [destruct (nan_as_var_m c x Hx) as (-> & ->)|destruct (stores_elim _ _ _ _ Hx) as (v & Cv & -> & Vv & _);
    rewrite (m_as_var_ok c v Cv), (as_var_spec c v (canon_storable v Cv))];
  (destruct Ve as [He|(n & se & Hn & He)]; [destruct (nan_as_var_m c e He) as (-> & ->)|destruct (stores_elim _ _ _ _ He) as (w & Cw & -> & Vw & _);
    rewrite (m_as_var_ok c w Cw), (as_var_spec c w (canon_storable w Cw))]); rewrite !bind_ret.
  - unfold m_pow_var, pow_var. rewrite NN, NN', !bind_ret, NN, NN'. exact make_nan.
  - unfold m_pow_var, pow_var. rewrite NN, NN', (proj1 (borrow_nan w Cw)), (not_nan w (cn_st w Cw)).
    rewrite (cmp_common_m c 40000 (borrow w) m_zero w ZERO ltac:(lia) (borrow_m w Cw) zero_bm).
    destruct (cmp_zero c w (cn_st w Cw)) as (k & Ek & _). rewrite Ek, !bind_ret. destruct (k =? 0).
    + rewrite bind_assoc. change (is_nan ONE) with false. cbv iota. exact make_one.
    + rewrite !bind_ret, NN, NN'. exact make_nan.
  - unfold m_pow_var, pow_var. rewrite NN, NN', (proj1 (borrow_nan v Cv)), (not_nan v (cn_st v Cv)).
    rewrite (cmp_common_m c 40000 (borrow v) M_ONE v ONE ltac:(lia) (borrow_m v Cv) (one_m 40000 ltac:(lia))).
    destruct (cmp_st c v ONE (cn_st v Cv) (one_stripped 0)) as (k & Ek & _). rewrite Ek, !bind_ret. destruct (k =? 0).
    + rewrite bind_assoc. change (is_nan ONE) with false. cbv iota. exact make_one.
    + rewrite !bind_ret, NN, NN'. exact make_nan.
  - destruct (pow_var_m v w n Cv Cw Vw Hn) as (P & ST).
    destruct (m_pow_var c a m frac (borrow v) (borrow w)) as [r| | |], (pow_var c m fuel v w) as [r'| | |]; cbn [sim settled] in P, ST; try contradiction.
    2:{ split; [exact P|exact I]. }
    rewrite !bind_ret. destruct P as [O F]. destruct r as [r|], r' as [r'|]; cbn [orel] in O; try contradiction; [|split; exact I].
    destruct (F r' eq_refl) as [Fn Ns]. unfold m_nan. rewrite (rp_sign _ _ (proj1 O)). fold (is_nan r'). rewrite (not_nan' r' Ns).
    split; [|now apply make_settled]. apply (make_m c (a 0%nat) 20000000); [lia|exact O|exact Fn].
Qed.

Theorem pow_agrees x e : valid (be_varlen c) x -> int_exp e -> agrees c (m_num_pow c a m frac x e) (num_pow c m fuel x e).
Proof using LG FI LB. intros V E. destruct (pow_mach x e V E) as [S T]. now apply agrees_of. Qed.
End Pow.

(** ** scientific notation *)
Lemma div_bor c a p q v w rs round : mrep big p v -> mrep big q w -> m_div_common c a p q rs round = m_div_common c a (bor v) (bor w) rs round.
Proof.
  intros M1 M2. pose proof (bor_m big v (mrep_within _ _ _ M1)) as N1. pose proof (bor_m big w (mrep_within _ _ _ M2)) as N2.
  unfold m_div_common, m_nan.
  assert (I0 : forall q, mrep big q w -> (if p_nd q =? 0 then Ret true
                else l <- (match p_cow q with
                           | Borrowed l => Ret l
                           | Owned d => n <- u32 c (lenz (words d) - off d) ;; m_slice c d (as_i32 n)
                           end) ;; x <- index l 0 ;; Ret (x =? 0)) =
               (if ndigits w =? 0 then Ret true else d <- index (digits w) 0 ;; Ret (d =? 0))).
  { clear. intros q M. pose proof M as [R2 F2]. pose proof (fit_nd _ _ F2) as Fn. rewrite (rp_nd q w R2) in *. destruct (Z.eqb_spec (ndigits w) 0); [reflexivity|].
    apply (m_first_digit c big); [lia|exact M|]. unfold ndigits in *. pose proof (lenz_nonneg (digits w)). lia. }
  cbv zeta. rewrite (I0 q M2), (I0 (bor w) N2).
  rewrite !(m_digits_ok c big p v), !(m_digits_ok c big q w), !(m_digits_ok c big (bor v) v), !(m_digits_ok c big (bor w) w) by (assumption || lia).
  fields p v q w M1 M2 N1 N2. reflexivity.
Qed.
Lemma div_t c a B p q v w rs round : 0 <= B <= 1000000 -> 0 <= rs <= B -> mrep big p v -> mrep big q w -> within B v -> within B w ->
  sim (orel (mrep (8 * B + 100))) (m_div_common c a p q rs round) (div_common c v w rs round).
Proof. intros LB LR M1 M2 W1 W2. rewrite (div_bor c a p q v w rs round M1 M2). apply div_common_m; auto using bor_m. Qed.

Lemma ten_canon : canon TEN.
Proof. constructor; [exact (ten_stripped 0)|cbn; lia|cbn; lia|]. exists 10. reflexivity. Qed.

Lemma ten_abs N : 0 <= N -> (1 <= Qabs (vval TEN) ^ N)%Q.
Proof. intro H. apply Qpow_ge1; [exact H|]. discriminate. Qed.

Lemma ten_ready m e rs : log10_sound (f_log10 m) -> ln_between (f_ln m) -> 2 <= Z.abs e -> -16383 <= e <= 131071 -> rs = Z.max 0 (- e) ->
  ready TEN (Z.abs e) (sig_of m TEN 10 e rs).
Proof.
  intros LG LB H2 He ->. unfold sig_of. assert (F : (pow_f m TEN 10 e == inject_Z e)%Q).
  { apply (ten_f_eq m LG e). change (2 ^ 53) with 9007199254740992. lia. }
  set (f := pow_f m TEN 10 e) in *. clearbody f.
  assert (FE : f2i f = e).
  { assert (B : (Qabs f < 2147483647)%Q).
    { rewrite F. apply Qabs_Qlt_condition. change 2147483647%Q with (inject_Z 2147483647). rewrite <- inject_Z_opp, <- !Zlt_Qlt. lia. }
    pose proof (f2i_near f B) as N. apply Qabs_Qlt_condition in N. destruct N as [N1 N2].
    assert (A1 : (inject_Z e < inject_Z (f2i f + 1))%Q) by (rewrite inject_Z_plus; change (inject_Z 1) with 1%Q; lra).
    assert (A2 : (inject_Z (f2i f) < inject_Z (e + 1))%Q) by (rewrite inject_Z_plus; change (inject_Z 1) with 1%Q; lra).
    apply Zq_lt in A1, A2. lia. }
  rewrite FE. destruct (ln_digits m (Z.abs e) LB ltac:(lia)) as [L0 L4]. set (ln := ln_i32 m (Z.abs e)) in *. clearbody ln.
  set (sig := 1 + Z.max 0 (- e) + e + (ln + 8)). unfold ready. split; [unfold sig; lia|]. split.
  - assert (ND : (inject_Z (Z.abs e) * dlt sig <= 44 * p10 (ln - sig))%Q).
    { unfold dlt. replace (ln - sig) with (ln + - sig) by lia. rewrite p10_add. pose proof (p10_pos (- sig)) as P.
      apply Qle_trans with (4 * p10 ln * (11 * p10 (- sig)))%Q; [apply Qmult_le_compat_r; [exact L4|lra]|]. lra. }
    eapply Qle_trans; [exact ND|]. apply Qle_trans with (44 * p10 (-9))%Q; [|discriminate]. rewrite !(Qmult_comm 44). apply Qmult_le_compat_r; [|discriminate].
    apply p10_le. unfold sig. lia.
  - eapply Qle_trans; [|apply ten_abs; lia]. rewrite <- p10_0. apply p10_le. lia.
Qed.

Lemma mult_dec_inv K e s : K mod 10 <> 0 -> mult (dec K e) s -> - s <= e.
Proof.
  intros KM [z Hz]. destruct (Z_le_gt_dec (- s) e) as [L|G]; [exact L|exfalso].
  assert (E : (inject_Z K == inject_Z (z * 10 ^ (- (e + s))))%Q).
  { rewrite inject_Z_mult, <- p10_Z by lia. rewrite <- Hz. unfold dec. change (ten ^ e)%Q with (p10 e).
    rewrite <- !Qmult_assoc, <- !p10_add. replace (e + (s + - (e + s))) with 0 by lia. rewrite p10_0. ring. }
  apply (proj1 (inject_Z_injective _ _)) in E. replace (- (e + s)) with (Z.succ (- (e + s) - 1)) in E by lia. rewrite Z.pow_succ_r in E by lia.
  apply KM. rewrite E. replace (z * (10 * 10 ^ (- (e + s) - 1))) with (z * 10 ^ (- (e + s) - 1) * 10) by ring. apply Z.mod_mul. lia.
Qed.

Section Sci.
Variables (c : cfg) (a : nat -> nat -> Z) (m : libm).
Hypothesis LG : log10_sound (f_log10 m).
Hypothesis LB : ln_between (f_ln m).

(** the denominator *)
Lemma den_m e : -16383 <= e <= 131071 ->
  exists q den, m_power_int c a m M_TEN e (if e <? 0 then - e else 0) = Ret (Some q) /\
    power_int c m TEN e (if e <? 0 then - e else 0) = Ret (Some den) /\ mrep big q den /\ within 200000 den.
Proof using LG LB.
  intro H. set (rs := if e <? 0 then - e else 0). assert (Hs : rs = Z.max 0 (- e)) by (unfold rs; destruct (Z.ltb_spec e 0); lia).
  assert (X : exists den, power_int c m TEN e rs = Ret (Some den) /\ within 200000 den).
  { destruct (Z_le_gt_dec (-1001) e) as [G|G].
    - destruct (ten_power c m LG e ltac:(lia)) as (den & Ed & Sd & Vd). fold rs in Ed. exists den. split; [exact Ed|].
      destruct (p10_ndigits den e Sd Vd) as [N1 W1]. assert (NE : digits den <> []) by (apply nz_digits; [exact Sd|rewrite Vd; apply p10_nz]).
      pose proof (stripped_range den Sd NE) as [_ R2]. rewrite Vd in R2. rewrite Qabs_pos in R2 by (apply Qlt_le_weak, p10_pos). apply (proj1 (p10_lt_iff _ _)) in R2.
      assert (Ds : dscale den = rs).
      { pose proof (le_ret _ _ _ _ (le_power_int c m TEN e rs) Ed) as E'.
        destruct (power_int_fin (rel c) eq_refl m TEN e rs den (ten_stripped 0) ltac:(lia) E') as (_ & Ds & _). exact Ds. }
      unfold within. lia.
    - pose proof (ten_power_low c m LG e ltac:(lia)) as Ed. fold rs in Ed. exists (Var 0 (- e) SPos []). split; [exact Ed|].
      unfold within, ndigits. cbn [digits weight dscale]. change (lenz (@nil Z)) with 0. lia. }
  destruct X as (den & Ed & W). clearbody rs.
  pose proof (power_int_m c a m M_TEN TEN e rs LB ten_canon (mrep_mono 50 40000 _ _ ltac:(lia) ten_ok) ltac:(lia) ltac:(lia)) as P.
  assert (RD : forall d t, digits TEN = d :: t -> 2 <= Z.abs e < 2147483648 -> e <> 2 -> through m TEN d e rs -> ready TEN (Z.abs e) (sig_of m TEN d e rs)).
  { intros d t E H2 _ _. injection E as <- <-. apply ten_ready; auto; lia. }
  specialize (P RD). rewrite Ed in P. destruct (m_power_int c a m M_TEN e rs) as [[q|]| | |]; cbn [sim orel] in P; try contradiction.
  exists q, den. split; [reflexivity|]. split; [exact Ed|]. split; [|exact W]. apply (mrep_mono 20000000); [unfold big; lia|exact P].
Qed.

Lemma sci_core v e rs (lower : bool) : canon v -> -16383 <= e <= 131071 -> 0 <= rs <= 200000 ->
  (denom_scale <- (if e <? 0 then i32 c (- e) else Ret 0) ;;
    o <- m_power_int c a m M_TEN e denom_scale ;;
    denominator <- expect o MMulOverflow ;;
    o <- m_div_common c (a 0%nat) (borrow v) denominator rs true ;;
    significand <- expect o MDivZero ;;
    s <- m_write c significand ;;
    Ret (s ++ (if lower then ch_e else ch_E) :: fmt_exponent e)) =
  (o <- power_int c m TEN e (if e <? 0 then - e else 0) ;;
    denominator <- expect o MMulOverflow ;;
    o <- div_common c v denominator rs true ;;
    significand <- expect o MDivZero ;;
    s <- write c significand ;;
    Ret (s ++ (if lower then ch_e else ch_E) :: fmt_exponent e)).
Proof using LG LB.
  intros C He Hr. assert (I0 : (if e <? 0 then i32 c (- e) else Ret 0) = Ret (if e <? 0 then - e else 0)).
  { destruct (e <? 0); [rewrite i32_ok by lia; reflexivity|reflexivity]. }
  rewrite I0, bind_ret. destruct (den_m e He) as (q & den & Eq & Ed & M & W). rewrite Eq, Ed, !bind_ret. cbn [expect]. rewrite !bind_ret.
  pose proof (borrow_m v C) as Mv.
  pose proof (div_t c (a 0%nat) 200000 (borrow v) q v den rs true ltac:(lia) Hr (mrep_mono 40000 big _ _ ltac:(unfold big; lia) Mv) M
    (within_mono 40000 200000 v ltac:(lia) (mrep_within 40000 _ _ Mv)) W) as D.
  destruct (m_div_common c (a 0%nat) (borrow v) q rs true) as [[x|]| | |], (div_common c v den rs true) as [[y|]| | |]; cbn [sim orel] in D; try contradiction;
    cbn [bind expect]; try reflexivity; [|now rewrite D].
  rewrite (write_m c (8 * 200000 + 100) x y ltac:(lia) D). reflexivity.
Qed.

Theorem sci_mach x lower : valid (be_varlen c) x -> m_num_sci c a m x lower = num_sci c m x lower.
Proof using LG LB.
  intros [H|(q & s & H)]; unfold m_num_sci, num_sci.
  { destruct (nan_as_var_m c x H) as (-> & ->). reflexivity. }
  destruct (stores_elim _ _ _ _ H) as (v & C & -> & _ & _). rewrite (m_as_var_ok c v C), (as_var_spec c v (canon_storable v C)), !bind_ret.
  pose proof (cn_st v C) as S. pose proof (borrow_m v C) as M. rewrite (select_sci_m c 40000 (borrow v) v ltac:(lia) M).
  destruct (digits v) as [|d t] eqn:E.
  - unfold select_sci_scale. rewrite E. cbn [find_nz]. rewrite !bind_ret. unfold m_write_sci, write_sci. rewrite (proj1 (borrow_nan v C)), (not_nan v S).
    change (0 <? 0) with false. cbv iota zeta. cbn [borrow p_nd]. unfold ndigits. rewrite E. change (lenz (@nil Z)) with 0. change (0 <? 0) with false. cbv iota.
    rewrite !bind_ret. apply (sci_core v 0 0 lower C); lia.
  - pose proof (st_digits v S) as D. rewrite E in D. pose proof (Forall_inv D) as Dd. unfold dig in Dd. pose proof (st_first v S d t E) as Nd.
    destruct (decimal_lead d ltac:(lia)) as (k & Hk & Hd).
    destruct (select_sci_spec c v d t k S E ltac:(lia) Hd) as (rs & K & Es & Hrs & KM & KP & V). rewrite Es, !bind_ret.
    pose proof (write_sci_unfold c m v d t k rs lower LG S E ltac:(lia) Hd Hrs) as W. cbv zeta in W. rewrite W. clear W.
    assert (NE : digits v <> []) by congruence.
    destruct (lead_range v d t k S E ltac:(lia) Hd) as [R1 R2]. pose proof (cn_weight v C) as Wt. pose proof (cn_scale v C) as Sc.
    assert (K4 : k <= 3).
    { destruct (Z_le_gt_dec k 3); [assumption|]. assert (10 ^ 4 <= 10 ^ k) by (apply Z.pow_le_mono_r; lia). change (10 ^ 4) with 10000 in *. lia. }
    assert (E2 : -16383 <= 4 * weight v + k).
    { pose proof (mult_lb (vval v) (dscale v) (canon_mult v C)) as L. specialize (L (stripped_nz v S NE)).
      assert (P : (p10 (- dscale v) < p10 (4 * weight v + k + 1))%Q) by (eapply Qle_lt_trans; eauto). apply (proj1 (p10_lt_iff _ _)) in P. lia. }
    assert (Rs : rs <= 200000).
    { assert (MV : mult (dec K (4 * weight v + k - rs)) (dscale v)).
      { apply (mult_comp (Qabs (vval v))); [exact V|]. pose proof (canon_mult v C) as MC. destruct (Qlt_le_dec (vval v) 0) as [L|L].
        - apply (mult_comp (- vval v)); [rewrite Qabs_neg by lra; reflexivity|now apply mult_opp].
        - apply (mult_comp (vval v)); [now rewrite Qabs_pos|exact MC]. }
      pose proof (mult_dec_inv K _ _ KM MV). lia. }
    unfold m_write_sci. rewrite (proj1 (borrow_nan v C)). cbn [borrow p_nd p_weight]. fold (borrow v).
    replace (rs <? 0) with false by (symmetry; apply Z.ltb_ge; lia). cbv zeta.
    assert (N0 : 0 < ndigits v) by (unfold ndigits; rewrite E, lenz_cons; pose proof (lenz_nonneg t); lia).
    replace (0 <? ndigits v) with true by (symmetry; apply Z.ltb_lt; lia).
    rewrite (digit0_ok c 40000 (borrow v) v) by (try assumption; unfold big; lia). rewrite E. change (index (d :: t) 0) with (Ret d).
    change DEC_DIGITS with 4. rewrite i32_ok, bind_ret by lia. rewrite i32_ok, bind_ret by lia. rewrite bind_ret.
    rewrite (log10_digit m d k LG (proj1 Hk) ltac:(lia) Hd). rewrite i32_ok, bind_ret by lia. rewrite i32_ok, bind_ret by lia.
    replace ((weight v + 1) * 4 - (4 - k)) with (4 * weight v + k) by lia. apply sci_core; [exact C|lia|lia].
Qed.
End Sci.

(** ** What follows *)
Lemma pow_ret c a m frac fuel x e y : log10_sound (f_log10 m) -> log10_fine (f_log10 m) -> ln_between (f_ln m) -> valid (be_varlen c) x -> int_exp c e ->
  num_pow c m fuel x e = Ret (Some y) -> exists b, m_num_pow c a m frac x e = Ret (Some b) /\ shows c (Some b) (Some y).
Proof.
  intros LG FI LB V E H. pose proof (pow_agrees c a m frac fuel LG FI LB x e V E) as A. rewrite H in A.
  destruct (m_num_pow c a m frac x e) as [[b|]| | |]; cbn [agrees] in A; try contradiction. exists b. auto.
Qed.

Theorem machine_pow_one_unit c (a : nat -> nat -> Z) m frac x q s e n se l :
  log10_sound (f_log10 m) -> log10_fine (f_log10 m) -> ln_between (f_ln m) ->
  stores (be_varlen c) x q s -> stores (be_varlen c) e (inject_Z n) se -> 3 <= n < 2 ^ 31 -> leading q l ->
  (Qabs q ^ n <= 2 * l ^ n)%Q -> (Qabs q ^ n < limit * (99999 # 100000))%Q ->
  exists b y r, m_num_pow c a m frac x e = Ret (Some b) /\ shows c (Some b) (Some y) /\ stores (be_varlen c) y r (pow_scale_of s) /\
    (Qabs (r - q ^ n) <= (50002 # 100000) * ten ^ (- pow_scale_of s))%Q.
Proof.
  intros LG FI LB H1 H2 Hn L K1 K2. destruct (pow_one_unit c m 0 x q s e n se l LG FI LB H1 H2 Hn L K1 K2) as (y & r & E & S & A).
  change (2 ^ 31) with 2147483648 in Hn.
  destruct (pow_ret c a m frac 0 x e y LG FI LB (or_intror (ex_intro _ q (ex_intro _ s H1)))) as (b & Eb & Sb); [right; exists n, se; split; [lia|exact H2]|exact E|].
  exists b, y, r. auto.
Qed.

Theorem machine_pow_exact c (a : nat -> nat -> Z) m frac x q s e n se :
  log10_sound (f_log10 m) -> log10_fine (f_log10 m) -> ln_between (f_ln m) -> ln_sound (f_ln m) ->
  stores (be_varlen c) x q s -> stores (be_varlen c) e (inject_Z n) se -> 0 <= n < 2 ^ 31 ->
  (exists k, (q ^ n * ten ^ pow_scale_of s == inject_Z k)%Q) -> (exists z, (q == inject_Z z)%Q) \/ n <= 16 -> (Qabs (q ^ n) < limit)%Q ->
  exists b y, m_num_pow c a m frac x e = Ret (Some b) /\ shows c (Some b) (Some y) /\ stores (be_varlen c) y (q ^ n) (pow_scale_of s).
Proof.
  intros LG FI LB LN H1 H2 Hn MP HI HL.
  destruct (pow_exact c m 0 x q s e n se LG LN H1 H2 Hn MP HI) as (o & E & [R _]). destruct (R HL) as (y & -> & S).
  change (2 ^ 31) with 2147483648 in Hn.
  destruct (pow_ret c a m frac 0 x e y LG FI LB (or_intror (ex_intro _ q (ex_intro _ s H1)))) as (b & Eb & Sb); [right; exists n, se; split; [lia|exact H2]|exact E|].
  exists b, y. auto.
Qed.

Theorem machine_sci_text c (a : nat -> nat -> Z) m x q s lower : log10_sound (f_log10 m) -> ln_between (f_ln m) ->
  stores (be_varlen c) x q s -> (ten ^ (-1001) <= Qabs q)%Q ->
  exists t, m_num_sci c a m x lower = Ret t /\ sci_text t q (if lower then 101 else 69).
Proof.
  intros LG LB H L. rewrite (sci_mach c a m LG LB x lower) by (right; eauto). apply (sci_spec c m x q s lower LG H); [|exact L].
  intro Z0. rewrite Z0 in L. change (Qabs 0) with 0%Q in L. pose proof (p10_pos (-1001)) as P. apply (Qlt_not_le _ _ P L).
Qed.
