(** * ExpStep: one round of the series of exp (var.rs 1993-2001), and what the squarings stay within. *)
From Coq Require Import Reals Qreals Lra Lia ZArith QArith Qabs List Bool.
From Verif Require Import Base Var Binary Num Flt Transc Spec SpecApi SpecRoot SpecFloat QDec Digits Arith Strip Round AddSub Signed Codec Make Api2 Sqrt
  DivFast PowLoop LnOps LnSqrt LnQR LnRed LnSeries LnReal LnSig LnApi ExpReal ExpRed ExpSeries ExpSquare ExpAcc.
Import ListNotations.
Open Scope R_scope.

Lemma et_bounds S x j result elem ni : (7 <= S <= 3700)%Z -> small x -> etay S x j result elem ni ->
  Rabs (rv elem) <= 1 / 1000 /\ Rabs (rv result - 1) <= 12 / 1000.
Proof.
  intros HS Sx R; destruct R as [Tr Gr Dr Mr Er Ie Ee Ni J Cn].
  pose proof (sm_abs _ Sx) as Ax. set (y := rv x) in *. set (u := e10 (- S)) in *.
  assert (U : 0 < u <= / 10000000).
  { split; [apply e10_pos|]. assert (K : u <= e10 (-7)) by (apply e10_le; lia).
    assert (E7 : e10 (-7) = / 10000000) by (unfold powerRZ; f_equal; replace (Pos.to_nat 7) with 7%nat by reflexivity; cbn [pow]; ring). lra. }
  assert (HS2 : 7 <= IZR S <= 3700) by (split; apply IZR_le; lia).
  assert (Ej : INR j = IZR (Z.of_nat j)) by apply INR_IZR_INZ.
  assert (Hj : 2 * (INR j - 1) <= IZR S + 1).
  { rewrite Ej. rewrite <- minus_IZR, <- mult_IZR, <- plus_IZR. now apply IZR_le. }
  assert (J2 : 2 <= INR j) by (apply (le_INR 2) in J; cbn in J; lra).
  pose proof (term_small y j Ax J) as Tm. pose proof (hundredth_le j) as Hh.
  set (p := y ^ j / INR (fact j)) in *.
  assert (Hh2 : (1 / 100) ^ j <= 1 / 10000).
  { clear - J. destruct j as [|[|j]]; [lia|lia|]. cbn [pow]. pose proof (hundredth_le j). lra. }
  split.
  - replace (rv elem) with (p + (rv elem - p)) by ring. eapply Rle_trans; [apply Rabs_triang|]. lra.
  - replace (rv result - 1) with ((rv result - tay j y) + (tay j y - 1)) by ring. eapply Rle_trans; [apply Rabs_triang|].
      pose proof (tay_near_1 j y J Ax).
      assert (96 / 100 * (INR j - 2) * u <= 96 / 100 * 1850 * / 10000000) by (apply Rmult_le_compat; lra). lra.
Qed.

Lemma exp_series_step c S x : (7 <= S <= 3700)%Z -> small x ->
  forall j result elem ni, etay S x j result elem ni -> digits elem <> [] ->
  exists res' w ni' elem', add_common c result elem = Ret res' /\ mul_common c elem x S = Ret w /\ item S w /\ Rabs (rv w) <= 1 /\
    add_common c ni ONE = Ret ni' /\ div_fast_common c w ni' S true = Ret (Some elem') /\ etay S x (Datatypes.S j) res' elem' ni'.
Proof.
  intros HS Sx j result elem ni R Ne. pose proof (et_bounds S x j result elem ni HS Sx R) as [Be Br]. destruct R as [Tr Gr Dr Mr Er Ie Ee Ni J Cn].
  pose proof (sm_abs _ Sx) as Ax. set (y := rv x) in *. set (u := e10 (- S)) in *.
  assert (U : 0 < u <= / 10000000).
  { split; [apply e10_pos|]. assert (K : u <= e10 (-7)) by (apply e10_le; lia).
    assert (E7 : e10 (-7) = / 10000000) by (unfold powerRZ; f_equal; replace (Pos.to_nat 7) with 7%nat by reflexivity; cbn [pow]; ring). lra. }
  assert (HS2 : 7 <= IZR S <= 3700) by (split; apply IZR_le; lia).
  assert (Ej : INR j = IZR (Z.of_nat j)) by apply INR_IZR_INZ.
  assert (Hj : 2 * (INR j - 1) <= IZR S + 1).
  { rewrite Ej. rewrite <- minus_IZR, <- mult_IZR, <- plus_IZR. now apply IZR_le. }
  assert (J2 : 2 <= INR j) by (apply (le_INR 2) in J; cbn in J; lra).
  pose proof (term_small y j Ax J) as Tm. pose proof (hundredth_le j) as Hh.
  set (p := y ^ j / INR (fact j)) in *.
  assert (Hh2 : (1 / 100) ^ j <= 1 / 10000).
  { clear - J. destruct j as [|[|j]]; [lia|lia|]. cbn [pow]. pose proof (hundredth_le j). lra. }
    apply Rabs_between in Br.
    destruct (add_big c result elem (proj1 Tr) (proj1 (it_tidy _ _ Ie)) Gr) as (res' & Ea & Tr' & Gr' & Dr' & Vr').
    { apply Rlt_Qlt. rewrite Q2R_abs. fold (rv elem). fold (rv result). lra. }
    pose proof (item_len S elem Ie ltac:(lra) ltac:(lia)) as Le.
    destruct (mul_op c elem x S 928 (proj1 (it_tidy _ _ Ie)) (proj1 (sm_tidy _ Sx)) ltac:(lia) ltac:(lia)) as (w & Em & Ow).
    pose proof (off_item _ _ _ _ Ow) as Iw. apply off_by_R in Ow. rewrite Q2R_mult in Ow. fold (rv elem) in Ow. fold (rv x) in Ow. fold y in Ow.
    replace (Q2R ((1 # 2) + inject_Z 928 * (1 # 10000))) with (5928 / 10000) in Ow.
    2:{ rewrite Q2R_plus, Q2R_mult. unfold Q2R. cbn. lra. }
    fold u in Ow.
    destruct (smallint_one c _ ni Ni) as (ni' & En & Ni').
    assert (Cn' : (2 * Z.of_nat j <= S + 1)%Z).
    { pose proof (item_nonzero S elem Ie Ne) as Lb. fold u in Lb.
      assert (L1 : 4 / 100 * u <= Rabs p).
      { pose proof (Rabs_triang (rv elem - p) p) as K. replace (rv elem - p + p) with (rv elem) in K by ring. lra. }
      destruct (Z_le_gt_dec (2 * Z.of_nat j) (S + 1)) as [L|L]; [exact L|exfalso].
      rewrite hundredth in Tm. assert (L4 : e10 (- (2 * Z.of_nat j)) <= e10 (-2 + - S)) by (apply e10_le; lia).
      rewrite e10_add in L4. fold u in L4. assert (E2 : e10 (-2) = / 100) by (unfold powerRZ; f_equal; replace (Pos.to_nat 2) with 2%nat by reflexivity; cbn [pow]; ring).
      rewrite E2 in L4. lra. }
    assert (Bw : Rabs (rv w) <= 1).
    { replace (rv w) with ((rv w - rv elem * y) + rv elem * y) by ring. eapply Rle_trans; [apply Rabs_triang|].
      pose proof (Rabs_mul_le _ _ _ _ Be Ax). lra. }
    destruct (item_div c S w (Z.of_nat j + 1) ni' Iw Bw ltac:(lia) ltac:(lia) Ni') as (elem' & Ed & Ie' & Ee').
    fold u in Ee'.
    assert (Hn : 3 <= IZR (Z.of_nat j + 1)) by (apply IZR_le; lia).
    pose proof (eround u y p (rv elem) (rv w) _ (proj1 U) Ax Hn Ee Ow) as G.
    assert (Pn : y ^ Datatypes.S j / INR (fact (Datatypes.S j)) = p * y / IZR (Z.of_nat j + 1)).
    { rewrite INR_fact_S. replace (IZR (Z.of_nat j + 1)) with (INR (Datatypes.S j)) by (rewrite INR_IZR_INZ; f_equal; lia).
      unfold p. cbn [pow]. pose proof (fact_pos j). field. split; [lra|]. apply not_0_INR. lia. }
    exists res', w, ni', elem'. repeat (split; [assumption|]). constructor; auto.
    + rewrite Dr', (it_scale _ _ Ie). lia.
    + apply (mult_comp _ _ _ (Qeq_sym _ _ Vr')). apply mult_add; [exact Mr|]. apply (mult_up _ S); [lia|apply Ie].
    + change (tay (Datatypes.S j) (rv x)) with (tay j y + p). rewrite (rv_eq _ _ Vr'), Q2R_plus. fold (rv result). fold (rv elem).
      replace (rv result + rv elem - (tay j y + p)) with ((rv result - tay j y) + (rv elem - p)) by ring.
      eapply Rle_trans; [apply Rabs_triang|]. fold u. rewrite S_INR. lra.
    + fold y. fold u. rewrite Pn.
      replace (rv elem' - p * y / IZR (Z.of_nat j + 1))
        with ((rv elem' - rv w / IZR (Z.of_nat j + 1)) + (rv w / IZR (Z.of_nat j + 1) - p * y / IZR (Z.of_nat j + 1))) by ring.
      eapply Rle_trans; [apply Rabs_triang|]. lra.
    + replace (Z.of_nat (Datatypes.S j)) with (Z.of_nat j + 1)%Z by lia. exact Ni'.
    + lia.
Qed.
