(** * MachFracApi: fractional powers at the interface, machine level (MachPow.v and MachFrac.v) against Transc.v. *)
From Coq Require Import Reals Qreals Lra Lia ZArith QArith Qabs List Bool Classical.
From Verif Require Import SpecLibm SpecPow.
From Verif Require Import Base Var Binary Format Parse Convert Num Flt Transc Data Spec SpecApi SpecRoot SpecLn SpecFloat SpecData SpecMach QDec Digits Arith Strip Round AddSub Signed Codec Make Api1 Api2 Sqrt
  DivFast FltFacts Sci PowApi LogApi LnOps LnSqrt LnQR LnRed LnReal LnSeries LnApi LnSig LnStep LogAcc ExpReal ExpRed ExpSeries ExpSquare ExpAcc ExpFin ExpApi ExpStep PowFrac PowFin DataSim DataBuf DataApi
  Mach MachSim MachAdd MachMul MachDiv MachApi MachText MachConv MachFast MachDivFast MachSqrt MachPow MachPowSim MachPowApi MachLn MachLnSim MachLnTail MachLnApi MachExp MachExpSim MachExpApi MachFrac MachFracSim PowNeg MachNeg.
Import ListNotations.
Open Scope Z_scope.

Lemma power_common_frac c a m frac v e : canon v -> canon e -> no_i32 (vval e) -> m_power_common c a m frac (borrow v) (borrow e) = frac (borrow v) (borrow e).
Proof.
  intros C T NI. pose proof (cn_st v C) as S. pose proof (cn_st e T) as Se. unfold m_power_common, m_nan. cbn [borrow p_sign p_nd p_weight p_dscale].
  fold (borrow e). fold (borrow v). pose proof (nan_ok c v (st_nan v S)) as NV. pose proof (nan_ok c e (st_nan e Se)) as NE. unfold is_nan in NV, NE.
  rewrite NV, NE, !bind_ret. destruct (int_or_not c e Se) as [K|K]; [now destruct NI|].
  assert (I0 : (if ndigits e =? 0 then Ret true else w <- i32 c (weight e + 1) ;; Ret (ndigits e <=? w)) = Ret ((ndigits e =? 0) || (ndigits e <=? weight e + 1))).
  { destruct (ndigits e =? 0); [reflexivity|]. pose proof (cn_weight e T). rewrite i32_ok by lia. reflexivity. }
  rewrite I0, bind_ret, signed32_m by exact T. rewrite K, bind_ret. reflexivity.
Qed.

(** the bases covered *)
Definition base_ok (q : Q) : Prop :=
  ((0 < q)%Q /\ ((q == 1)%Q \/ (ten ^ (-990) <= Qabs (q - 1))%Q)) \/ (q == 0)%Q \/ (q < 0)%Q.

Lemma base_ok_all q : (q == 1)%Q \/ (ten ^ (-990) <= Qabs (q - 1))%Q -> base_ok q.
Proof.
  intro H. unfold base_ok. destruct (Qlt_le_dec q 0) as [N|N]; [now right; right|]. apply Qle_lteq in N. destruct N as [P|Z0]; [now left|].
  right. left. now rewrite Z0.
Qed.

Section Frac.
Variables (c : cfg) (a : nat -> nat -> Z) (b : nat -> nat -> nat -> nat -> Z) (m : libm) (fuel : nat).
Hypothesis LN : logs_near (f_log10 m) (f_ln m).
Hypothesis FS : float_sound m.
Hypothesis Hf : 4000 <= Z.of_nat fuel.

Lemma frac_m v e : canon v -> canon e -> no_i32 (vval e) -> base_ok (vval v) ->
  sim exp_rel (m_power_frac c b m fuel (borrow v) (borrow e)) (power_common c m fuel v e).
Proof using LN FS Hf.
  intros C T NI B. pose proof (cn_st v C) as S. pose proof (cn_st e T) as Se. pose proof (borrow_m v C) as Mv. pose proof (borrow_m e T) as Me.
  destruct B as [[P H]|[Z0|K]]; [|now apply frac_zero_m|now apply frac_neg_m].
  pose proof (canon_arg v C P) as A.
  assert (D : exists d, estimate_ln_dweight c m v = Ret d /\ -992 < d <= 5).
  { destruct H as [E1|H].
    - exists 0. split; [|lia]. rewrite (is_one v S E1). apply estimate_one. exact (cn_scale v C).
    - assert (Aw : (e10 (-990) <= Rabs (rv v - 1))%R).
      { apply Qle_Rle in H. change (ten ^ (-990))%Q with (p10 (-990)) in H. rewrite Q2R_p10, Q2R_abs, Q2R_minus, RMicromega.Q2R_1 in H. exact H. }
      destruct (dweight_ok c m v LN A S Aw) as (d & W). exists d. split; [exact (dw_eq _ _ _ _ W)|exact (dw_range _ _ _ _ W)]. }
  destruct D as (d & Ed & Hd). exact (frac_pos_m c b m fuel (borrow v) (borrow e) v e d FS A Se (cn_scale e T) Hf Mv Me Ed Hd NI S).
Qed.

Lemma pow_frac_m v e : canon v -> canon e -> no_i32 (vval e) -> base_ok (vval v) ->
  sim exp_rel (m_pow_var c a m (m_power_frac c b m fuel) (borrow v) (borrow e)) (pow_var c m fuel v e).
Proof using LN FS Hf.
  intros C T NI B. pose proof (cn_st v C) as S. pose proof (cn_st e T) as Se.
  pose proof (borrow_m v C) as Mv. pose proof (borrow_m e T) as Me. pose proof zero_bm as Mz.
  assert (NV : m_nan (borrow v) = false) by exact (proj1 (borrow_nan v C)).
  assert (NE : m_nan (borrow e) = false) by exact (proj1 (borrow_nan e T)).
  pose proof (power_common_frac c a m (m_power_frac c b m fuel) v e C T NI) as PF.
  unfold m_pow_var, pow_var. rewrite NV, NE, (not_nan v S), (not_nan e Se).
  rewrite (cmp_common_m c 40000 (borrow v) m_zero v ZERO ltac:(lia) Mv Mz).
  rewrite (cmp_common_m c 40000 (borrow e) m_zero e ZERO ltac:(lia) Me Mz).
  destruct (cmp_zero c v S) as (s & Es & Hs). destruct (cmp_zero c e Se) as (s' & Es' & _). rewrite Es, !bind_ret.
  assert (I0 : exists k, (if s =? 0 then cmp_common c e ZERO else Ret 0) = Ret k) by (destruct (s =? 0); [exists s'; exact Es'|now exists 0]).
  destruct I0 as (k & Ek). rewrite Ek, !bind_ret. destruct ((s =? 0) && (k <? 0)); [reflexivity|].
  destruct (cmp_trunc c e Se) as (r & u & Er & Eu & Hu). rewrite Er, bind_ret.
  destruct (clone_m c (a 0%nat) 40000 (borrow e) e ltac:(lia) Me) as (pe & Epe & Mpe). rewrite Epe, bind_ret.
  pose proof (trunc_m c (a 1%nat) 40005 pe e 0 ltac:(lia) ltac:(lia) Mpe) as TR. rewrite Er in TR.
  destruct (m_trunc_common c (a 1%nat) pe 0) as [pr| | |]; cbn [sim] in TR; try contradiction. rewrite !bind_ret.
  rewrite (cmp_common_m c 40015 (borrow e) pr e r ltac:(lia) (mrep_mono 40000 40015 _ _ ltac:(lia) Me) TR), Eu.
  destruct (Z.ltb_spec s 0) as [L|L]; rewrite !bind_ret; cbn [andb].
  - destruct (Z.eqb_spec u 0) as [U|U]; cbn [negb]; [|reflexivity]. rewrite PF. now apply frac_m.
  - rewrite PF. now apply frac_m.
Qed.

(** at the interface: the same outcome *)
Theorem pow_frac_mach x e q s p se : stores (be_varlen c) x q s -> stores (be_varlen c) e p se -> no_i32 p -> base_ok q ->
  sim (optrel c) (m_num_pow c a m (m_power_frac c b m fuel) x e) (num_pow c m fuel x e).
Proof using LN FS Hf.
  intros Hx He NI B. destruct (stores_elim _ _ _ _ Hx) as (v & Cv & -> & Vv & _). destruct (stores_elim _ _ _ _ He) as (w & Cw & -> & Vw & _).
  assert (NI' : no_i32 (vval w)) by (intros (n & K & R); apply NI; exists n; split; [now rewrite <- Vw|exact R]).
  assert (B' : base_ok (vval v)).
  { unfold base_ok in *. rewrite Vv. exact B. }
  unfold m_num_pow, num_pow. rewrite (m_as_var_ok c v Cv), (as_var_spec c v (canon_storable v Cv)).
  rewrite (m_as_var_ok c w Cw), (as_var_spec c w (canon_storable w Cw)), !bind_ret.
  apply (sim_bind exp_rel); [now apply pow_frac_m|]. intros r r' [O F].
  destruct r as [r|], r' as [r'|]; cbn [orel] in O; try contradiction; [|exact Logic.I].
  destruct (F r' eq_refl) as [Fn Ns]. unfold m_nan. rewrite (rp_sign _ _ (proj1 O)). fold (is_nan r'). rewrite (not_nan' r' Ns).
  apply (make_m c (a 0%nat) (mid + 10)); [unfold mid; lia|exact O|exact Fn].
Qed.
End Frac.

Lemma run_opt c f g : sim (optrel c) f g -> g <> UB -> agrees_run c f g.
Proof.
  intros S U. unfold agrees_run. destruct f, g; cbn [sim] in S; try contradiction; cbn [agrees].
  - left. now apply optrel_shows.
  - now left.
  - now right.
Qed.

(** a NaN base *)
Lemma pow_nan_mach c a m frac fuel x e : stores_nan (be_varlen c) x -> valid (be_varlen c) e ->
  sim (optrel c) (m_num_pow c a m frac x e) (num_pow c m fuel x e) /\ settled (num_pow c m fuel x e).
Proof.
  intros Hx Ve. unfold m_num_pow, num_pow. destruct (nan_as_var_m c x Hx) as (-> & ->).
  set (nv := PVar 0 0 0 SNaN (Borrowed [])). assert (NN : m_nan nv = true) by reflexivity. assert (NN' : is_nan nan_var = true) by reflexivity.
  destruct Ve as [He|(p & s & He)]; [destruct (nan_as_var_m c e He) as (-> & ->)|destruct (stores_elim _ _ _ _ He) as (w & Cw & -> & _ & _);
    rewrite (m_as_var_ok c w Cw), (as_var_spec c w (canon_storable w Cw))]; fold nv; rewrite !bind_ret; unfold m_pow_var, pow_var.
  - rewrite NN, NN', !bind_ret, NN'. exact (make_nan c a).
  - rewrite NN, NN', (proj1 (borrow_nan w Cw)), (not_nan w (cn_st w Cw)).
    rewrite (cmp_common_m c 40000 (borrow w) m_zero w ZERO ltac:(lia) (borrow_m w Cw) zero_bm).
    destruct (cmp_zero c w (cn_st w Cw)) as (k & Ek & _). rewrite Ek, !bind_ret. destruct (k =? 0).
    + rewrite bind_assoc. change (is_nan ONE) with false. cbv iota. exact (make_one c a).
    + rewrite !bind_ret, NN'. exact (make_nan c a).
Qed.

Lemma pow_frac_settled c m fuel x q s e p se : logs_near (f_log10 m) (f_ln m) -> float_sound m -> 4000 <= Z.of_nat fuel ->
  stores (be_varlen c) x q s -> stores (be_varlen c) e p se -> no_i32 p -> base_ok q -> num_pow c m fuel x e <> UB.
Proof.
  intros LN FS Hf Hx He NI [[P [E1|H]]|[Z0|N0]].
  - assert (H1 : stores (be_varlen c) x 1 s) by exact (stores_ext _ _ _ _ _ E1 Hx).
    destruct (pow_base_one c m fuel x s e p se FS H1 He ltac:(intros n K B; apply NI; exists n; now split) Hf) as (z & -> & _). discriminate.
  - destruct (pow_frac_api c m fuel x q s e p se LN FS Hx He P H NI Hf) as [->|[[-> _]|[[-> _]|(z & r & s' & -> & _)]]]; discriminate.
  - destruct (Qlt_le_dec p 0) as [L|L].
    + rewrite (pow_api_zero_neg c m fuel x q s e p se Hx He Z0 L). discriminate.
    + apply Qle_lteq in L. destruct L as [L|L].
      * destruct (pow_api_zero_pos c m fuel x q s e p se Hx He Z0 L) as (y & r & -> & _). discriminate.
      * exfalso. apply NI. exists 0. split; [now rewrite <- L|lia].
  - destruct (classic (exists z, (p == inject_Z z)%Q)) as [(z & Z1)|K]; [|rewrite (pow_api_neg_frac c m fuel x q s e p se Hx He N0 K); discriminate].
    assert (R : ~ (- 2 ^ 31 <= z < 2 ^ 31)) by (intro R; apply NI; exists z; split; [exact Z1|exact R]).
    destruct (pow_beyond_all c m fuel x q s e z se Hx N0 (stores_ext _ _ _ _ _ Z1 He) R) as [D1 D2].
    destruct (dbg c); [destruct (D1 eq_refl) as (w & ->); discriminate|]. destruct (D2 eq_refl) as [->|(w & ->)]; discriminate.
Qed.

(** every power: the exponent NaN, an i32, or anything else with a base as above *)
Theorem pow_all_agrees c a b m fuel x e :
  log10_sound (f_log10 m) -> log10_fine (f_log10 m) -> ln_between (f_ln m) -> logs_near (f_log10 m) (f_ln m) -> float_sound m -> 4000 <= Z.of_nat fuel ->
  valid (be_varlen c) x -> valid (be_varlen c) e ->
  (forall q s p se, stores (be_varlen c) x q s -> stores (be_varlen c) e p se -> (forall n, (p == inject_Z n)%Q -> ~ (-2147483648 <= n < 2147483648)) ->
     (q == 1)%Q \/ (ten ^ (-990) <= Qabs (q - 1))%Q) ->
  agrees_run c (m_num_pow c a m (m_power_frac c b m fuel) x e) (num_pow c m fuel x e).
Proof.
  intros LG FI LB LN FS Hf Vx Ve B. destruct Ve as [He|(p & se & He)].
  { left. apply (pow_agrees c a m (m_power_frac c b m fuel) fuel LG FI LB x e Vx). now left. }
  destruct Vx as [Hx|(q & s & Hx)].
  { destruct (pow_nan_mach c a m (m_power_frac c b m fuel) fuel x e Hx ltac:(right; eauto)) as [S T]. left. now apply agrees_of. }
  destruct (stores_elim _ _ _ _ He) as (w & Cw & Ew & Vw & _).
  destruct (int_or_not c w (cn_st w Cw)) as [(n & Vn & Hn)|K].
  { left. apply (pow_agrees c a m (m_power_frac c b m fuel) fuel LG FI LB x e); [right; eauto|]. right. exists n, se. split; [exact Hn|].
    apply (stores_ext _ _ p); [rewrite <- Vw; exact Vn|exact He]. }
  destruct (classic (no_i32 p)) as [NI|NI].
  2:{ left. apply NNPP in NI. destruct NI as (n & Vn & Hn). apply (pow_agrees c a m (m_power_frac c b m fuel) fuel LG FI LB x e); [right; eauto|]. right. exists n, se.
      split; [exact Hn|]. apply (stores_ext _ _ p); assumption. }
  assert (BO : base_ok q) by (apply base_ok_all, (B q s p se Hx He); intros n Vn Hn; apply NI; exists n; now split).
  apply run_opt; [exact (pow_frac_mach c a b m fuel LN FS Hf x e q s p se Hx He NI BO)|exact (pow_frac_settled c m fuel x q s e p se LN FS Hf Hx He NI BO)].
Qed.

Lemma run_ret c f g y : agrees_run c f g -> g = Ret y -> exists u, f = Ret u /\ shows c u y.
Proof. intros [A|[_ K]] E; [|congruence]. rewrite E in A. destruct f as [u| | |]; cbn [agrees] in A; try contradiction. now exists u. Qed.
Lemma run_panic c f g w : agrees_run c f g -> g = Panic w -> f = Panic w.
Proof. intros [A|[_ K]] E; [|congruence]. rewrite E in A. destruct f as [u| | |]; cbn [agrees] in A; try contradiction. now subst. Qed.
Lemma run_diverge c f g : agrees_run c f g -> g = Diverge -> f = Diverge.
Proof. intros [A|[K _]] E; [|exact K]. rewrite E in A. destruct f as [u| | |]; cbn [agrees] in A; contradiction. Qed.

(** the negative base with an integer exponent outside i32 *)
Theorem machine_pow_beyond c a b m fuel x q s e n se : logs_near (f_log10 m) (f_ln m) -> float_sound m -> 4000 <= Z.of_nat fuel ->
  stores (be_varlen c) x q s -> (q < 0)%Q -> stores (be_varlen c) e (inject_Z n) se -> ~ (-2147483648 <= n < 2147483648) ->
  let o := m_num_pow c a m (m_power_frac c b m fuel) x e in
  (dbg c = true -> exists w, o = Panic w) /\ (dbg c = false -> o = Diverge \/ exists w, o = Panic w).
Proof.
  intros LN FS Hf Hx N0 He R o. unfold o.
  assert (NI : no_i32 (inject_Z n)) by (intros (k & K & B); apply (proj1 (inject_Z_injective _ _)) in K; lia).
  pose proof (pow_frac_mach c a b m fuel LN FS Hf x e q s _ se Hx He NI ltac:(right; now right)) as S.
  destruct (pow_beyond_all c m fuel x q s e n se Hx N0 He R) as [D1 D2]. destruct (dbg c); split; try discriminate; intros _.
  - destruct (D1 eq_refl) as (w & E). rewrite E in S. destruct (m_num_pow c a m _ x e); cbn [sim] in S; try contradiction. eauto.
  - destruct (D2 eq_refl) as [E|(w & E)]; rewrite E in S; destruct (m_num_pow c a m _ x e); cbn [sim] in S; try contradiction; eauto.
Qed.

Lemma pow_frac_run c a b m fuel x q s e p se : logs_near (f_log10 m) (f_ln m) -> float_sound m ->
  stores (be_varlen c) x q s -> stores (be_varlen c) e p se -> (0 < q)%Q -> (ten ^ (-990) <= Qabs (q - 1))%Q ->
  (forall n, (p == inject_Z n)%Q -> ~ (-2147483648 <= n < 2147483648)) -> 4000 <= Z.of_nat fuel ->
  agrees_run c (m_num_pow c a m (m_power_frac c b m fuel) x e) (num_pow c m fuel x e).
Proof.
  intros LN FS Hx He P H NI Hf. assert (NI' : no_i32 p) by (intros (n & K & R); exact (NI n K R)).
  assert (BO : base_ok q) by (left; auto).
  apply run_opt; [exact (pow_frac_mach c a b m fuel LN FS Hf x e q s p se Hx He NI' BO)|exact (pow_frac_settled c m fuel x q s e p se LN FS Hf Hx He NI' BO)].
Qed.

Theorem machine_pow_fraction c a b m fuel x q s e p se : logs_near (f_log10 m) (f_ln m) -> float_sound m ->
  stores (be_varlen c) x q s -> stores (be_varlen c) e p se -> (0 < q)%Q -> (ten ^ (-990) <= Qabs (q - 1))%Q ->
  (forall n, (p == inject_Z n)%Q -> ~ (-2147483648 <= n < 2147483648)) -> 4000 <= Z.of_nat fuel ->
  (powerRZ 10 (-1000) <= Rpower (Q2R q) (Q2R p) <= powerRZ 10 2600)%R ->
  let o := m_num_pow c a m (m_power_frac c b m fuel) x e in
  o = Diverge \/ (o = Panic WArith /\ dbg c = true) \/
  (exists u z r s', o = Ret (Some u) /\ shows c (Some u) (Some z) /\ stores (be_varlen c) z r s' /\ Z.min 1000 (Z.max s se) <= s' <= 1000 /\
     (Rabs (Q2R r - Rpower (Q2R q) (Q2R p)) <= 58 / 100 * powerRZ 10 (- s'))%R).
Proof.
  intros LN FS Hx He P H NI Hf R. cbv zeta. pose proof (pow_frac_run c a b m fuel x q s e p se LN FS Hx He P H NI Hf) as A.
  destruct (pow_frac_accurate c m fuel x q s e p se LN FS Hx He P H NI Hf R) as [E|[[E D]|(z & r & s' & E & S & B & Er)]].
  - left. exact (run_diverge _ _ _ A E).
  - right. left. split; [exact (run_panic _ _ _ _ A E)|exact D].
  - right. right. destruct (run_ret _ _ _ _ A E) as (u & Eu & Su). destruct u as [u|]; [|contradiction]. exists u, z, r, s'. auto.
Qed.

Theorem machine_pow_refuses c a b m fuel x q s e p se : logs_near (f_log10 m) (f_ln m) -> float_sound m ->
  stores (be_varlen c) x q s -> stores (be_varlen c) e p se -> (0 < q)%Q -> (ten ^ (-990) <= Qabs (q - 1))%Q ->
  (forall n, (p == inject_Z n)%Q -> ~ (-2147483648 <= n < 2147483648)) -> 4000 <= Z.of_nat fuel ->
  (powerRZ 10 2610 <= Rpower (Q2R q) (Q2R p) \/ Rpower (Q2R q) (Q2R p) <= powerRZ 10 (-2620))%R ->
  let o := m_num_pow c a m (m_power_frac c b m fuel) x e in
  o = Diverge \/ (o = Panic WArith /\ dbg c = true) \/ o = Ret None.
Proof.
  intros LN FS Hx He P H NI Hf R. cbv zeta. pose proof (pow_frac_run c a b m fuel x q s e p se LN FS Hx He P H NI Hf) as A.
  destruct (pow_frac_refuses c m fuel x q s e p se LN FS Hx He P H NI Hf R) as [E|[[E D]|E]].
  - left. exact (run_diverge _ _ _ A E).
  - right. left. split; [exact (run_panic _ _ _ _ A E)|exact D].
  - right. right. destruct (run_ret _ _ _ _ A E) as (u & Eu & Su). destruct u as [u|]; [contradiction|exact Eu].
Qed.
