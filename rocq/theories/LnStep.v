(** * LnStep: one round of the series loop of the logarithm (var.rs 1814-1828). *)
From Coq Require Import Reals Qreals Lra Lia ZArith QArith Qabs List Bool.
From Verif Require Import Base Var Flt Transc Spec SpecRoot QDec Digits Arith Strip Round AddSub Signed Make Api2 Sqrt DivFast LnOps LnSqrt LnQR LnRed LnReal LnSeries.
Import ListNotations.
Open Scope R_scope.

Lemma ser_result S t m result xx ni : (8 <= S <= 5008)%Z -> Rabs t <= 1 / 19 -> ser S t m result xx ni -> Rabs (rv result) <= 1.
Proof.
  intros HS HT [Ir Er _ _ _ Cn]. pose proof (e10_small S ltac:(lia)) as U. set (u := e10 (- S)) in *.
  pose proof (art_small (Datatypes.S m) t HT) as As.
  replace (rv result) with (art (Datatypes.S m) t + (rv result - art (Datatypes.S m) t)) by ring.
  eapply Rle_trans; [apply Rabs_triang|].
  assert (Em : 0 <= INR m) by apply pos_INR.
  assert (Em2 : 2 * INR m <= IZR S) by (rewrite INR_IZR_INZ, <- mult_IZR; now apply IZR_le).
  assert (HS2 : IZR S <= 5008) by (apply IZR_le; lia).
  assert ((51 / 100 + 73 / 100 * INR m) * u <= (51 / 100 + 73 / 100 * 2504) * / 100000000) by (apply Rmult_le_compat; lra).
  lra.
Qed.

Lemma series_step c S t y : (8 <= S <= 5008)%Z -> Rabs t <= 1 / 19 -> item S y ->
  Rabs (rv y - t * t) <= 68 / 100 * e10 (- S) ->
  forall m result xx ni, ser S t m result xx ni ->
  Rabs (rv xx) <= 1 /\ Rabs (rv y) <= 1 /\
  exists ni' xx' elem, add_common c ni TWO = Ret ni' /\ smallint (2 * Z.of_nat m + 1 + 2) ni' /\ (2 * Z.of_nat m + 1 + 2 < 10000)%Z /\
    mul_common c xx y S = Ret xx' /\ item S xx' /\ Rabs (rv xx') <= 1 /\
    div_fast_common c xx' ni' S true = Ret (Some elem) /\ item S elem /\ Rabs (rv elem) <= 1 /\
    (digits elem <> [] -> exists res', add_common c result elem = Ret res' /\ ser S t (Datatypes.S m) res' xx' ni').
Proof.
  intros HS HT Iy Ey m result xx ni R. destruct R as [Ir Er Ix Ex Ni Cn]. pose proof (e10_small S ltac:(lia)) as U.
  set (u := e10 (- S)) in *.
  assert (Bt : Rabs (t * t) <= 1 / 19 * (1 / 19)) by now apply Rabs_mul_le.
  pose proof (odd_pow_small t m HT) as Bp. pose proof (hundredth_le m) as Bh.
  set (p := t ^ (2 * m + 1)) in *.
  assert (Bp1 : Rabs p <= 1 / 19) by lra.
  assert (Bx : Rabs (rv xx) <= 1).
  { replace (rv xx) with (p + (rv xx - p)) by ring. eapply Rle_trans; [apply Rabs_triang|]. lra. }
  assert (By : Rabs (rv y) <= 1).
  { replace (rv y) with (t * t + (rv y - t * t)) by ring. eapply Rle_trans; [apply Rabs_triang|]. lra. }
  destruct (smallint_two c _ ni Ni) as (ni' & Ea & Ni').
  destruct (item_mul c S xx y Ix Iy Bx By ltac:(lia)) as (xx' & Em' & Ix' & Ex'). fold u in Ex'.
  set (n := (2 * Z.of_nat m + 1 + 2)%Z) in *. assert (Hn : (3 <= n < 10000)%Z) by lia.
  assert (En : IZR n = INR (2 * Datatypes.S m + 1)).
  { rewrite INR_IZR_INZ. f_equal. lia. }
  assert (Hn3 : 3 <= IZR n) by (apply IZR_le; lia).
  destruct (round_err u t p (rv xx) (rv y) (rv xx') (IZR n) U HT Bp1 Hn3 Ex Ey Ex') as [G1 G2].
  assert (Pn : t ^ (2 * Datatypes.S m + 1) = p * (t * t)).
  { unfold p. replace (2 * Datatypes.S m + 1)%nat with (2 * m + 1 + 2)%nat by lia. rewrite pow_add. cbn [pow]. ring. }
  assert (Bx' : Rabs (rv xx') <= 1).
  { replace (rv xx') with (p * (t * t) + (rv xx' - p * (t * t))) by ring. eapply Rle_trans; [apply Rabs_triang|].
    pose proof (Rabs_mul_le _ _ _ _ Bp1 Bt). lra. }
  destruct (item_div c S xx' n ni' Ix' Bx' ltac:(lia) ltac:(lia) Ni') as (elem & Ed & Ie & Ee). fold u in Ee.
  assert (Eel : Rabs (rv elem - p * (t * t) / IZR n) <= 73 / 100 * u).
  { replace (rv elem - p * (t * t) / IZR n) with ((rv elem - rv xx' / IZR n) + (rv xx' / IZR n - p * (t * t) / IZR n)) by ring.
    eapply Rle_trans; [apply Rabs_triang|]. lra. }
  assert (Em : 0 <= INR m) by apply pos_INR.
  assert (Em2 : 2 * INR m <= IZR S).
  { rewrite INR_IZR_INZ. rewrite <- mult_IZR. now apply IZR_le. }
  assert (HS2 : IZR S <= 5008) by (apply IZR_le; lia).
  split; [exact Bx|]. split; [exact By|]. exists ni', xx', elem. split; [exact Ea|]. split; [exact Ni'|]. split; [lia|]. split; [exact Em'|].
  split; [exact Ix'|]. split; [exact Bx'|]. split; [exact Ed|]. split; [exact Ie|].
  assert (Bm : Rabs (p * (t * t) / IZR n) <= 1 / 361).
  { unfold Rdiv at 1. rewrite Rabs_mult.
    assert (Hn' : Rabs (/ IZR n) <= / 3) by (rewrite Rabs_pos_eq by (left; apply Rinv_0_lt_compat; lra); apply Rinv_le_contravar; lra).
    pose proof (Rabs_mul_le _ _ _ _ Bp1 Bt) as K. pose proof (Rabs_pos (p * (t * t))). pose proof (Rabs_pos (/ IZR n)).
    apply (Rle_trans _ (1 / 19 * (1 / 19 * (1 / 19)) * / 3)); [apply Rmult_le_compat; lra|lra]. }
  split.
  { replace (rv elem) with (p * (t * t) / IZR n + (rv elem - p * (t * t) / IZR n)) by ring. eapply Rle_trans; [apply Rabs_triang|]. lra. }
  intro Ne.
    destruct (add_op c result elem (proj1 (it_tidy _ _ Ir)) (proj1 (it_tidy _ _ Ie))) as (res' & Er' & Tr & Dr & Vr).
    { rewrite (it_scale _ _ Ir). lia. } { rewrite (it_scale _ _ Ie). lia. }
    assert (Ir' : item S res').
    { constructor; [exact Tr|rewrite Dr, (it_scale _ _ Ir), (it_scale _ _ Ie); lia|].
      apply (mult_comp _ _ _ (Qeq_sym _ _ Vr)). apply mult_add; [apply Ir|apply Ie]. }
    assert (Rr : rv res' = rv result + rv elem) by (rewrite (rv_eq _ _ Vr), Q2R_plus; reflexivity).
    (* another term was needed *)
    assert (Cn' : (2 * Z.of_nat (Datatypes.S m) <= S)%Z).
    { pose proof (item_nonzero S elem Ie Ne) as Lb. fold u in Lb.
      assert (L1 : 27 / 100 * u <= Rabs (p * (t * t) / IZR n)).
      { pose proof (Rabs_triang (rv elem - p * (t * t) / IZR n) (p * (t * t) / IZR n)) as K.
        replace (rv elem - p * (t * t) / IZR n + p * (t * t) / IZR n) with (rv elem) in K by ring. lra. }
      assert (L2 : 81 / 100 * u <= Rabs (p * (t * t))).
      { unfold Rdiv in L1 at 2. rewrite Rabs_mult in L1.
        assert (Hi : Rabs (/ IZR n) <= / 3).
        { rewrite Rabs_pos_eq by (left; apply Rinv_0_lt_compat; lra). apply Rinv_le_contravar; lra. }
        pose proof (Rabs_pos (p * (t * t))) as K0.
        assert (Rabs (p * (t * t)) * Rabs (/ IZR n) <= Rabs (p * (t * t)) * / 3) by (apply Rmult_le_compat_l; lra). lra. }
      pose proof (odd_pow_small t (Datatypes.S m) HT) as L3. rewrite Pn, hundredth in L3.
      destruct (Z_le_gt_dec (2 * Z.of_nat (Datatypes.S m)) S) as [L|L]; [exact L|exfalso].
      assert (L4 : e10 (- (2 * Z.of_nat (Datatypes.S m))) <= u) by (apply e10_le; lia).
      pose proof (e10_pos (- (2 * Z.of_nat (Datatypes.S m)))). lra. }
    assert (ER : Rabs (rv res' - art (Datatypes.S (Datatypes.S m)) t) <= (51 / 100 + 73 / 100 * INR (Datatypes.S m)) * u).
    { change (art (Datatypes.S (Datatypes.S m)) t)
        with (art (Datatypes.S m) t + t ^ (2 * Datatypes.S m + 1) / INR (2 * Datatypes.S m + 1)).
      rewrite Pn, <- En, Rr.
      replace (rv result + rv elem - (art (Datatypes.S m) t + p * (t * t) / IZR n))
        with ((rv result - art (Datatypes.S m) t) + (rv elem - p * (t * t) / IZR n)) by ring.
      eapply Rle_trans; [apply Rabs_triang|]. rewrite S_INR. lra. }
    assert (Em3 : 2 * INR (Datatypes.S m) <= IZR S).
    { rewrite INR_IZR_INZ. rewrite <- mult_IZR. now apply IZR_le. }
    assert (Br : Rabs (rv res') <= 1).
    { pose proof (art_small (Datatypes.S (Datatypes.S m)) t HT) as As.
      replace (rv res') with (art (Datatypes.S (Datatypes.S m)) t + (rv res' - art (Datatypes.S (Datatypes.S m)) t)) by ring.
      eapply Rle_trans; [apply Rabs_triang|].
      assert ((51 / 100 + 73 / 100 * INR (Datatypes.S m)) * u <= (51 / 100 + 73 / 100 * 2504) * / 100000000).
      { apply Rmult_le_compat; try lra. pose proof (pos_INR (Datatypes.S m)). lra. }
      lra. }
    exists res'. split; [exact Er'|]. constructor; auto.
    + rewrite Pn. exact G1.
    + unfold n in Ni'. replace (2 * Z.of_nat (Datatypes.S m) + 1)%Z with (2 * Z.of_nat m + 1 + 2)%Z by lia. exact Ni'.
Qed.
