(** * LnSeries: the series loop of the logarithm (var.rs 1814-1828). *)
From Coq Require Import Reals Qreals Lra Lia ZArith QArith Qabs List Bool.
From Verif Require Import Base Var Flt Transc Spec SpecRoot QDec Digits Arith Strip Round AddSub Signed Make Api2 Sqrt DivFast LnOps LnSqrt LnQR LnRed LnReal.
Import ListNotations.
Open Scope R_scope.

Lemma Rabs_mul_le a b x y : Rabs a <= x -> Rabs b <= y -> Rabs (a * b) <= x * y.
Proof. intros. rewrite Rabs_mult. apply Rmult_le_compat; auto using Rabs_pos. Qed.

Lemma mul_err a b p q ea eb : Rabs (a - p) <= ea -> Rabs (b - q) <= eb ->
  Rabs (a * b - p * q) <= (Rabs p + ea) * eb + Rabs q * ea.
Proof.
  intros A B. replace (a * b - p * q) with (a * (b - q) + q * (a - p)) by ring.
  eapply Rle_trans; [apply Rabs_triang|]. apply Rplus_le_compat; apply Rabs_mul_le; auto; try apply Rle_refl.
  replace a with (p + (a - p)) by ring. eapply Rle_trans; [apply Rabs_triang|]. lra.
Qed.

(** A rounded number at scale [s], as the loops keep them. *)
Record item (s : Z) (v : var) : Prop := {
  it_tidy : tidy v;
  it_scale : dscale v = s;
  it_mult : mult (vval v) s
}.
Lemma off_item e x s r : off_by e x s r -> item s r.
Proof. intros (T & D & M & _). constructor; auto using stripped_tidy. Qed.

Lemma rv_lt_Q v q : Rabs (rv v) < Q2R q -> (Qabs (vval v) < q)%Q.
Proof. intro H. apply Rlt_Qlt. rewrite Q2R_abs. exact H. Qed.

Lemma item_weight s v : item s v -> Rabs (rv v) <= 1 -> (weight v <= 0)%Z.
Proof.
  intros I H. apply (semi_weight v 0); [apply I|lia|]. apply rv_lt_Q. rewrite Q2R_p10. change (4 * (0 + 1))%Z with 4%Z.
  assert (e10 0 <= e10 4) by (apply e10_le; lia). change (e10 0) with 1 in *.
  assert (E : e10 4 = 10000) by (unfold powerRZ; replace (Pos.to_nat 4) with 4%nat by reflexivity; cbn [pow]; ring). lra.
Qed.
Lemma item_len s v : item s v -> Rabs (rv v) <= 1 -> (0 <= s)%Z -> (4 * ndigits v < 8 + s)%Z.
Proof.
  intros I H L. pose proof (item_weight s v I H). pose proof (tidy_len v s (it_tidy _ _ I) (it_mult _ _ I) L). lia.
Qed.

(** a small positive integer divisor *)
Record smallint (n : Z) (v : var) : Prop := {
  si_tidy : tidy v;
  si_scale : dscale v = 0%Z;
  si_val : (vval v == inject_Z n)%Q
}.
Lemma smallint_facts n v : (1 <= n < 10000)%Z -> smallint n v ->
  digits v <> [] /\ (0 <= weight v)%Z /\ (ndigits v <= 1)%Z /\ rv v = IZR n.
Proof.
  intros Hn [T D V]. assert (R : rv v = IZR n) by (rewrite (rv_eq v _ V); apply Q2R_Z).
  assert (N : digits v <> []).
  { intro E. rewrite (vval_empty v E) in V. change 0%Q with (inject_Z 0) in V. apply (proj1 (inject_Z_inj _ _)) in V. lia. }
  pose proof (semi_range v (proj1 T) N) as [Lo Hi].
  assert (A : (Qabs (vval v) == inject_Z n)%Q).
  { rewrite V. apply Qabs_pos. change 0%Q with (inject_Z 0). rewrite <- Zle_Qle. lia. }
  rewrite A in Lo, Hi.
  assert (W0 : (0 <= weight v)%Z).
  { destruct (Z_le_gt_dec 0 (weight v)) as [L|L]; [exact L|exfalso].
    assert (K : (p10 (4 * (weight v + 1)) <= p10 0)%Q) by (apply p10_le; lia). rewrite p10_0 in K.
    pose proof (Qlt_le_trans _ _ _ Hi K) as Q1. change 1%Q with (inject_Z 1) in Q1. rewrite <- Zlt_Qlt in Q1. lia. }
  assert (W1 : (weight v <= 0)%Z).
  { apply (semi_weight v 0); [apply T|lia|]. rewrite A. change (4 * (0 + 1))%Z with 4%Z. rewrite (p10_Z 4) by lia.
    rewrite <- Zlt_Qlt. lia. }
  split; [exact N|]. split; [exact W0|]. split; [|exact R].
  pose proof (tidy_len v 0 T) as L. assert (4 * ndigits v < 4 * Z.max 0 (weight v + 1) + 4 + 0)%Z; [apply L; [|lia]|lia].
  apply (mult_comp _ _ _ (Qeq_sym _ _ V)). apply mult_Z. lia.
Qed.

Lemma one_st0 : stripped ONE.
Proof.
  constructor; cbn; try discriminate.
  - repeat constructor; unfold dig; lia.
  - intros d t E. injection E as <- _. lia.
  - intros d t E. destruct t as [|? [|? ?]]; cbn in E; [injection E as <-; lia|discriminate..].
Qed.
Lemma one_int : smallint 1 ONE.
Proof. constructor; [apply stripped_tidy, one_st0|reflexivity|vm_compute; reflexivity]. Qed.
Lemma smallint_two c n v : smallint n v -> exists r, add_common c v TWO = Ret r /\ smallint (n + 2) r.
Proof.
  intros [T D V]. destruct (add_op c v TWO (proj1 T) (stripped_semi _ two_st) ltac:(lia) ltac:(cbn; lia)) as (r & E & Tr & Dr & Vr).
  exists r. split; [exact E|]. constructor; [exact Tr|rewrite Dr, D; reflexivity|].
  rewrite Vr, V, two_val, inject_Z_plus. reflexivity.
Qed.

(** Dividing an item by a small integer *)
Lemma item_div c S v n d : item S v -> Rabs (rv v) <= 1 -> (0 <= S <= 16383)%Z -> (1 <= n < 10000)%Z -> smallint n d ->
  exists r, div_fast_common c v d S true = Ret (Some r) /\ item S r /\
    Rabs (rv r - rv v / IZR n) <= 500000001 / 1000000000 * e10 (- S).
Proof.
  intros I H HS Hn Hd. destruct (smallint_facts n d Hn Hd) as (Nd & W0 & L1 & Rd).
  pose proof (item_weight S v I H). pose proof (item_len S v I H ltac:(lia)).
  destruct (div_op c v d S (proj1 (it_tidy _ _ I)) (proj1 (si_tidy _ _ Hd)) Nd) as [(r & E & O)|(_ & K & _)]; [|lia| |lia].
  { unfold df_bounds. lia. }
  exists r. split; [exact E|]. split; [now apply (off_item _ _ _ _ O)|].
  apply off_by_R in O. rewrite Q2R_div in O.
  2:{ intro Z. apply Nd. now apply (semi_zero_iff d (proj1 (si_tidy _ _ Hd))). }
  fold (rv v) in O. fold (rv d) in O. rewrite Rd in O.
  replace (Q2R ((1 # 2) + tiny)) with (500000001 / 1000000000) in O; [exact O|].
  rewrite Q2R_plus. unfold Q2R, tiny. cbn. lra.
Qed.

(** Multiplying two items below 1 *)
Lemma item_mul c S v w : item S v -> item S w -> Rabs (rv v) <= 1 -> Rabs (rv w) <= 1 -> (0 <= S <= 5008)%Z ->
  exists r, mul_common c v w S = Ret r /\ item S r /\ Rabs (rv r - rv v * rv w) <= 6260 / 10000 * e10 (- S).
Proof.
  intros I J H K HS. pose proof (item_len S v I H ltac:(lia)). pose proof (item_len S w J K ltac:(lia)).
  destruct (mul_op c v w S 1260 (proj1 (it_tidy _ _ I)) (proj1 (it_tidy _ _ J)) ltac:(lia) ltac:(lia)) as (r & E & O).
  exists r. split; [exact E|]. split; [now apply (off_item _ _ _ _ O)|].
  apply off_by_R in O. rewrite Q2R_mult in O. fold (rv v) in O. fold (rv w) in O.
  replace (Q2R ((1 # 2) + inject_Z 1260 * (1 # 10000))) with (6260 / 10000) in O; [exact O|].
  rewrite Q2R_plus, Q2R_mult. unfold Q2R. cbn. lra.
Qed.

(** The loop state after [m] rounds. *)
Record ser (S : Z) (t : R) (m : nat) (result xx ni : var) : Prop := {
  sr_res : item S result;
  sr_rerr : Rabs (rv result - art (Datatypes.S m) t) <= (51 / 100 + 73 / 100 * INR m) * e10 (- S);
  sr_xx : item S xx;
  sr_xerr : Rabs (rv xx - t ^ (2 * m + 1)) <= 68 / 100 * e10 (- S);
  sr_ni : smallint (2 * Z.of_nat m + 1) ni;
  sr_cnt : (2 * Z.of_nat m <= S)%Z
}.

Lemma odd_pow_small t m : Rabs t <= 1 / 19 -> Rabs (t ^ (2 * m + 1)) <= 1 / 19 * (1 / 100) ^ m.
Proof.
  intro H. rewrite <- RPow_abs, pow_add, pow_1, pow_mult, Rmult_comm. pose proof (Rabs_pos t) as P.
  apply Rmult_le_compat; [exact P|apply pow_le; cbn; nra|exact H|]. apply pow_incr. cbn. nra.
Qed.
Lemma hundredth m : (1 / 100) ^ m = e10 (- (2 * Z.of_nat m)).
Proof.
  induction m as [|k IH]; [cbn; lra|]. cbn [pow]. rewrite IH.
  replace (- (2 * Z.of_nat (S k)))%Z with (-2 + - (2 * Z.of_nat k))%Z by lia. rewrite e10_add. f_equal.
  unfold powerRZ. replace (Pos.to_nat 2) with 2%nat by reflexivity. cbn [pow]. lra.
Qed.
Lemma hundredth_le m : 0 < (1 / 100) ^ m <= 1.
Proof. split; [apply pow_lt; lra|]. pose proof (pow_incr (1 / 100) 1 m ltac:(lra)) as H. now rewrite pow1 in H. Qed.

Lemma item_nonzero S v : item S v -> digits v <> [] -> e10 (- S) <= Rabs (rv v).
Proof.
  intros I N. unfold rv. rewrite <- Q2R_p10, <- Q2R_abs. apply Qle_Rle, mult_lb; [apply I|]. intro E. apply N.
  now apply (semi_zero_iff v (proj1 (it_tidy _ _ I))).
Qed.
Lemma item_low S v : item S v -> digits v <> [] -> (- S - 4 < 4 * weight v)%Z.
Proof.
  intros I N. pose proof (semi_range v (proj1 (it_tidy _ _ I)) N) as [_ U].
  assert (L : (p10 (- S) <= Qabs (vval v))%Q).
  { apply mult_lb; [apply I|]. intro E. apply N. now apply (semi_zero_iff v (proj1 (it_tidy _ _ I))). }
  pose proof (Qle_lt_trans _ _ _ L U) as K. apply (proj1 (p10_lt_iff _ _)) in K. lia.
Qed.

Lemma ln_series_S c f result xx x ni ls :
  ln_series c (S f) result xx x ni ls =
  (ni <- add_common c ni TWO ;;
   xx <- mul_common c xx x ls ;;
   o <- div_fast_common c xx ni ls true ;;
   elem <- expect o MDivZero ;;
   if (ndigits elem =? 0)%Z then Ret result
   else
     result <- add_common c result elem ;;
     if (weight elem <? weight result - Z.quot (ls * 2) DEC_DIGITS)%Z then Ret result
     else ln_series c f result xx x ni ls).
Proof. reflexivity. Qed.

(** the error of one round, over the reals *)
Lemma round_err u t p xx y xx' n : 0 < u <= / 100000000 -> Rabs t <= 1 / 19 -> Rabs p <= 1 / 19 -> 3 <= n ->
  Rabs (xx - p) <= 68 / 100 * u -> Rabs (y - t * t) <= 68 / 100 * u -> Rabs (xx' - xx * y) <= 6260 / 10000 * u ->
  Rabs (xx' - p * (t * t)) <= 68 / 100 * u /\ Rabs (xx' / n - p * (t * t) / n) <= 2268 / 10000 * u.
Proof.
  intros U T P N H1 H2 H3.
  assert (T2 : Rabs (t * t) <= 1 / 19 * (1 / 19)) by now apply Rabs_mul_le.
  pose proof (mul_err _ _ _ _ _ _ H1 H2) as M. pose proof (Rabs_pos p). pose proof (Rabs_pos (t * t)).
  assert (G : Rabs (xx' - p * (t * t)) <= 68 / 100 * u).
  { replace (xx' - p * (t * t)) with ((xx' - xx * y) + (xx * y - p * (t * t))) by ring.
    eapply Rle_trans; [apply Rabs_triang|].
    assert ((Rabs p + 68 / 100 * u) * (68 / 100 * u) <= (1 / 19 + 68 / 100 * / 100000000) * (68 / 100 * u))
      by (apply Rmult_le_compat_r; lra).
    assert (Rabs (t * t) * (68 / 100 * u) <= 1 / 19 * (1 / 19) * (68 / 100 * u)) by (apply Rmult_le_compat_r; lra).
    lra. }
  split; [exact G|].
  replace (xx' / n - p * (t * t) / n) with ((xx' - p * (t * t)) * / n) by (unfold Rdiv; ring).
  assert (Hn : Rabs (/ n) <= / 3).
  { rewrite Rabs_pos_eq by (left; apply Rinv_0_lt_compat; lra). apply Rinv_le_contravar; lra. }
  pose proof (Rabs_mul_le _ _ _ _ G Hn) as K. lra.
Qed.

Lemma series_spec c S t y : (8 <= S <= 5008)%Z -> Rabs t <= 1 / 19 -> item S y ->
  Rabs (rv y - t * t) <= 68 / 100 * e10 (- S) ->
  forall fuel m result xx ni, ser S t m result xx ni ->
  let o := ln_series c fuel result xx y ni S in
  (o = Diverge /\ (2 * (Z.of_nat fuel + Z.of_nat m) <= S)%Z) \/
  (exists r, o = Ret r /\ item S r /\
     Rabs (2 * rv r - (ln (1 + t) - ln (1 - t))) <= (249 / 100 + 73 / 100 * IZR S) * e10 (- S)).
Proof.
  intros HS HT Iy Ey. induction fuel as [|f IH]; intros m result xx ni R o; subst o.
  { left. split; [reflexivity|]. pose proof (sr_cnt _ _ _ _ _ _ R). lia. }
  rewrite ln_series_S. destruct R as [Ir Er Ix Ex Ni Cn]. pose proof (e10_small S ltac:(lia)) as U.
  set (u := e10 (- S)) in *.
  assert (Bt : Rabs (t * t) <= 1 / 19 * (1 / 19)) by now apply Rabs_mul_le.
  pose proof (odd_pow_small t m HT) as Bp. pose proof (hundredth_le m) as Bh.
  set (p := t ^ (2 * m + 1)) in *.
  assert (Bp1 : Rabs p <= 1 / 19) by lra.
  assert (Bx : Rabs (rv xx) <= 1).
  { replace (rv xx) with (p + (rv xx - p)) by ring. eapply Rle_trans; [apply Rabs_triang|]. lra. }
  assert (By : Rabs (rv y) <= 1).
  { replace (rv y) with (t * t + (rv y - t * t)) by ring. eapply Rle_trans; [apply Rabs_triang|]. lra. }
  destruct (smallint_two c _ ni Ni) as (ni' & -> & Ni'). cbn [bind].
  destruct (item_mul c S xx y Ix Iy Bx By ltac:(lia)) as (xx' & -> & Ix' & Ex'). cbn [bind]. fold u in Ex'.
  set (n := (2 * Z.of_nat m + 1 + 2)%Z) in *. assert (Hn : (3 <= n < 10000)%Z) by lia.
  assert (En : IZR n = INR (2 * Datatypes.S m + 1)).
  { rewrite INR_IZR_INZ. f_equal. lia. }
  assert (Hn3 : 3 <= IZR n) by (apply IZR_le; lia).
  destruct (round_err u t p (rv xx) (rv y) (rv xx') (IZR n) U HT Bp1 Hn3 Ex Ey Ex') as [G1 G2].
  assert (Pn : t ^ (2 * Datatypes.S m + 1) = p * (t * t)).
  { unfold p. replace (2 * Datatypes.S m + 1)%nat with (2 * m + 1 + 2)%nat by lia. rewrite pow_add. cbn [pow]. ring. }
  assert (Bx' : Rabs (rv xx') <= 1).
  { replace (rv xx') with (p * (t * t) + (rv xx' - p * (t * t))) by ring. eapply Rle_trans; [apply Rabs_triang|].
    pose proof (Rabs_mul_le _ _ _ _ Bp1 Bt). lra. }
  destruct (item_div c S xx' n ni' Ix' Bx' ltac:(lia) ltac:(lia) Ni') as (elem & -> & Ie & Ee). cbn [expect bind]. fold u in Ee.
  assert (Eel : Rabs (rv elem - p * (t * t) / IZR n) <= 73 / 100 * u).
  { replace (rv elem - p * (t * t) / IZR n) with ((rv elem - rv xx' / IZR n) + (rv xx' / IZR n - p * (t * t) / IZR n)) by ring.
    eapply Rle_trans; [apply Rabs_triang|]. lra. }
  assert (Em : 0 <= INR m) by apply pos_INR.
  assert (Em2 : 2 * INR m <= IZR S).
  { rewrite INR_IZR_INZ. rewrite <- mult_IZR. now apply IZR_le. }
  assert (HS2 : IZR S <= 5008) by (apply IZR_le; lia).
  destruct (Z.eqb_spec (ndigits elem) 0) as [Z0|Z0].
  - (* done *)
    right. exists result. split; [reflexivity|]. split; [exact Ir|].
    assert (D0 : digits elem = []) by (apply ndigits_0; now apply Z.eqb_eq).
    assert (R0 : rv elem = 0) by (rewrite (rv_eq _ _ (vval_empty elem D0)); apply RMicromega.Q2R_0).
    rewrite R0 in Eel. replace (0 - p * (t * t) / IZR n) with (- (p * (t * t) / IZR n)) in Eel by ring. rewrite Rabs_Ropp in Eel.
    assert (Ht : -1 < t < 1) by (apply Rabs_between in HT; lra).
    pose proof (art_remainder (Datatypes.S m) t Ht) as Rm. rewrite RPow_abs, Pn, <- En in Rm.
    assert (Tt : t * t <= 1 / 361) by (apply Rabs_between in Bt; lra).
    assert (Rm2 : Rabs (ln (1 + t) - ln (1 - t) - 2 * art (Datatypes.S m) t) <= 1465 / 1000 * u).
    { eapply Rle_trans; [exact Rm|].
      assert (Ea : Rabs (p * (t * t)) / IZR n = Rabs (p * (t * t) / IZR n)).
      { unfold Rdiv. rewrite (Rabs_mult _ (/ IZR n)), (Rabs_pos_eq (/ IZR n)); [reflexivity|]. left. apply Rinv_0_lt_compat. lra. }
      rewrite Ea. apply (Rmult_le_reg_r (1 - t * t)); [lra|].
      unfold Rdiv at 1. rewrite Rmult_assoc, Rinv_l, Rmult_1_r by lra. nra. }
    replace (2 * rv result - (ln (1 + t) - ln (1 - t)))
      with (2 * (rv result - art (Datatypes.S m) t) - (ln (1 + t) - ln (1 - t) - 2 * art (Datatypes.S m) t)) by ring.
    eapply Rle_trans; [apply Rabs_triang|]. rewrite Rabs_Ropp, Rabs_mult, (Rabs_pos_eq 2) by lra.
    assert (73 / 100 * (2 * INR m) * u <= 73 / 100 * IZR S * u) by (apply Rmult_le_compat_r; lra).
    fold u. lra.
  - (* one more term *)
    assert (Ne : digits elem <> []) by (intro E; apply Z0; unfold ndigits; rewrite E; reflexivity).
    destruct (add_op c result elem (proj1 (it_tidy _ _ Ir)) (proj1 (it_tidy _ _ Ie))) as (res' & -> & Tr & Dr & Vr).
    { rewrite (it_scale _ _ Ir). lia. } { rewrite (it_scale _ _ Ie). lia. }
    cbn [bind].
    assert (Ir' : item S res').
    { constructor; [exact Tr|rewrite Dr, (it_scale _ _ Ir), (it_scale _ _ Ie); lia|].
      apply (mult_comp _ _ _ (Qeq_sym _ _ Vr)). apply mult_add; [apply Ir|apply Ie]. }
    assert (Rr : rv res' = rv result + rv elem) by (rewrite (rv_eq _ _ Vr), Q2R_plus; reflexivity).
    (* another term was needed *)
    assert (Cn' : (2 * Z.of_nat (Datatypes.S m) <= S)%Z).
    { pose proof (item_nonzero S elem Ie Ne) as Lb. fold u in Lb.
      assert (L1 : 27 / 100 * u <= Rabs (p * (t * t) / IZR n)).
      { pose proof (Rabs_triang (rv elem - p * (t * t) / IZR n) (p * (t * t) / IZR n)) as K.
        replace (rv elem - p * (t * t) / IZR n + p * (t * t) / IZR n) with (rv elem) in K by ring. lra. }
      assert (L2 : 81 / 100 * u <= Rabs (p * (t * t))).
      { unfold Rdiv in L1 at 2. rewrite Rabs_mult in L1.
        assert (Hi : Rabs (/ IZR n) <= / 3).
        { rewrite Rabs_pos_eq by (left; apply Rinv_0_lt_compat; lra). apply Rinv_le_contravar; lra. }
        pose proof (Rabs_pos (p * (t * t))) as K0.
        assert (Rabs (p * (t * t)) * Rabs (/ IZR n) <= Rabs (p * (t * t)) * / 3) by (apply Rmult_le_compat_l; lra). lra. }
      pose proof (odd_pow_small t (Datatypes.S m) HT) as L3. rewrite Pn, hundredth in L3.
      destruct (Z_le_gt_dec (2 * Z.of_nat (Datatypes.S m)) S) as [L|L]; [exact L|exfalso].
      assert (L4 : e10 (- (2 * Z.of_nat (Datatypes.S m))) <= u) by (apply e10_le; lia).
      pose proof (e10_pos (- (2 * Z.of_nat (Datatypes.S m)))). lra. }
    assert (ER : Rabs (rv res' - art (Datatypes.S (Datatypes.S m)) t) <= (51 / 100 + 73 / 100 * INR (Datatypes.S m)) * u).
    { change (art (Datatypes.S (Datatypes.S m)) t)
        with (art (Datatypes.S m) t + t ^ (2 * Datatypes.S m + 1) / INR (2 * Datatypes.S m + 1)).
      rewrite Pn, <- En, Rr.
      replace (rv result + rv elem - (art (Datatypes.S m) t + p * (t * t) / IZR n))
        with ((rv result - art (Datatypes.S m) t) + (rv elem - p * (t * t) / IZR n)) by ring.
      eapply Rle_trans; [apply Rabs_triang|]. rewrite S_INR. lra. }
    assert (Em3 : 2 * INR (Datatypes.S m) <= IZR S).
    { rewrite INR_IZR_INZ. rewrite <- mult_IZR. now apply IZR_le. }
    assert (Br : Rabs (rv res') <= 1).
    { pose proof (art_small (Datatypes.S (Datatypes.S m)) t HT) as As.
      replace (rv res') with (art (Datatypes.S (Datatypes.S m)) t + (rv res' - art (Datatypes.S (Datatypes.S m)) t)) by ring.
      eapply Rle_trans; [apply Rabs_triang|].
      assert ((51 / 100 + 73 / 100 * INR (Datatypes.S m)) * u <= (51 / 100 + 73 / 100 * 2504) * / 100000000).
      { apply Rmult_le_compat; try lra. pose proof (pos_INR (Datatypes.S m)). lra. }
      lra. }
    pose proof (item_weight S res' Ir' Br) as Wr. pose proof (item_low S elem Ie Ne) as We.
    change DEC_DIGITS with 4%Z.
    assert (Q : (weight elem <? weight res' - Z.quot (S * 2) 4)%Z = false).
    { apply Z.ltb_ge. replace (S * 2)%Z with (2 * S)%Z by lia. rewrite Z.quot_div_nonneg by lia.
      pose proof (Z.div_mod (2 * S) 4 ltac:(lia)). pose proof (Z.mod_pos_bound (2 * S) 4 ltac:(lia)). lia. }
    rewrite Q. replace (Z.of_nat (Datatypes.S f) + Z.of_nat m)%Z with (Z.of_nat f + Z.of_nat (Datatypes.S m))%Z by lia.
    apply (IH (Datatypes.S m)). constructor; auto.
    + rewrite Pn. exact G1.
    + unfold n in Ni'. replace (2 * Z.of_nat (Datatypes.S m) + 1)%Z with (2 * Z.of_nat m + 1 + 2)%Z by lia. exact Ni'.
Qed.
