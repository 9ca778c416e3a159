(** * ExpSeries: the Taylor loop of the exponential (var.rs 1980-2001). *)
From Coq Require Import Reals Qreals Lra Lia ZArith QArith Qabs List Bool.
From Verif Require Import Base Var Flt Transc Spec SpecRoot QDec Digits Arith Strip Round AddSub Signed Make Api2 Sqrt DivFast
  LnOps LnSqrt LnQR LnRed LnSeries ExpReal ExpRed.
Import ListNotations.
Open Scope R_scope.

Lemma smallint_one c n v : smallint n v -> exists r, add_common c v ONE = Ret r /\ smallint (n + 1) r.
Proof.
  intros [T D V]. destruct (add_op c v ONE (proj1 T) (stripped_semi _ one_st0) ltac:(lia) ltac:(cbn; lia)) as (r & E & Tr & Dr & Vr).
  exists r. split; [exact E|]. constructor; [exact Tr|rewrite Dr, D; reflexivity|].
  rewrite Vr, V, inject_Z_plus. apply Qplus_comp; [reflexivity|]. exact (si_val _ _ one_int).
Qed.
Lemma two_int : smallint 2 TWO.
Proof. constructor; [apply stripped_tidy, two_st|reflexivity|exact two_val]. Qed.

(** the reduced argument *)
Record small (x : var) : Prop := {
  sm_tidy : tidy x;
  sm_scale : (0 <= dscale x <= 16403)%Z;
  sm_mult : mult (vval x) (dscale x);
  sm_abs : Rabs (rv x) <= 101 / 10000
}.
Lemma weight_small v : semi v -> Rabs (rv v) < 10000 -> (weight v <= 0)%Z.
Proof.
  intros I H. apply (semi_weight v 0); [apply I|lia|]. apply rv_lt_Q. rewrite Q2R_p10. change (4 * (0 + 1))%Z with 4%Z.
  assert (E : e10 4 = 10000) by (unfold powerRZ; replace (Pos.to_nat 4) with 4%nat by reflexivity; cbn [pow]; ring). lra.
Qed.
Lemma small_len x : small x -> (ndigits x <= 4102)%Z.
Proof.
  intros [T D M A]. pose proof (weight_small x (proj1 T) ltac:(lra)). pose proof (tidy_len x _ T M ltac:(lia)). lia.
Qed.

Record etay (S : Z) (x : var) (j : nat) (result elem ni : var) : Prop := {
  et_tidy : tidy result;
  et_pos : sign result = SPos;
  et_scale : (0 <= dscale result <= 16403)%Z;
  et_mult : mult (vval result) 16403;
  et_rerr : Rabs (rv result - tay j (rv x)) <= 96 / 100 * (INR j - 2) * e10 (- S);
  et_elem : item S elem;
  et_eerr : Rabs (rv elem - rv x ^ j / INR (fact j)) <= 96 / 100 * e10 (- S);
  et_ni : smallint (Z.of_nat j) ni;
  et_two : (2 <= j)%nat;
  et_cnt : (2 * (Z.of_nat j - 1) <= S + 1)%Z
}.

Lemma exp_series_S c f result elem x ni ls :
  exp_series c (S f) result elem x ni ls =
  (if (ndigits elem =? 0)%Z then Ret result
   else
     result <- add_common c result elem ;;
     elem <- mul_common c elem x ls ;;
     ni <- add_common c ni ONE ;;
     o <- div_fast_common c elem ni ls true ;;
     elem <- expect o MDivZero ;;
     exp_series c f result elem x ni ls).
Proof. reflexivity. Qed.

Lemma tay_near_1 j x : (2 <= j)%nat -> Rabs x <= 101 / 10000 -> Rabs (tay j x - 1) <= 11 / 1000.
Proof.
  intros J H. pose proof (tay_rest j x ltac:(lra)) as R. pose proof (term_small x j H J) as T.
  pose proof (hundredth_le j) as P.
  assert (P2 : (1 / 100) ^ j <= 1 / 10000).
  { destruct j as [|[|j]]; [lia|lia|]. cbn [pow]. pose proof (hundredth_le j). lra. }
  pose proof (Rabs_between _ _ H) as B.
  assert (E : 1 + x <= exp x) by apply exp_ineq1_le.
  assert (E2 : 1 - x <= exp (- x)) by (pose proof (exp_ineq1_le (- x)); lra).
  rewrite exp_Ropp in E2. pose proof (exp_pos x) as Pe.
  assert (E3 : exp x * (1 - x) <= 1).
  { apply (Rmult_le_compat_l (exp x)) in E2; [|lra]. rewrite Rinv_r in E2 by lra. exact E2. }
  assert (E4 : exp x <= 1 + 1021 / 100000).
  { destruct (Rle_lt_dec (exp x) (1 + 1021 / 100000)) as [G|G]; [exact G|exfalso].
    assert ((1 + 1021 / 100000) * (1 - 101 / 10000) <= exp x * (1 - x)) by (apply Rmult_le_compat; lra). lra. }
  apply Rabs_between in R. apply Rabs_le. lra.
Qed.

Lemma INR_fact_S j : INR (fact (S j)) = INR (S j) * INR (fact j).
Proof. replace (fact (S j)) with (S j * fact j)%nat by reflexivity. apply mult_INR. Qed.

(** the error of one round, over the reals *)
Lemma eround u y p e w n : 0 < u -> Rabs y <= 101 / 10000 -> 3 <= n ->
  Rabs (e - p) <= 96 / 100 * u -> Rabs (w - e * y) <= 5928 / 10000 * u -> Rabs (w / n - p * y / n) <= 21 / 100 * u.
Proof.
  intros U Y N H1 H2.
  assert (G : Rabs (w - p * y) <= 61 / 100 * u).
  { replace (w - p * y) with ((w - e * y) + (e - p) * y) by ring. eapply Rle_trans; [apply Rabs_triang|].
    pose proof (Rabs_mul_le _ _ _ _ H1 Y). lra. }
  replace (w / n - p * y / n) with ((w - p * y) * / n) by (unfold Rdiv; ring).
  assert (Hn : Rabs (/ n) <= / 3).
  { rewrite Rabs_pos_eq by (left; apply Rinv_0_lt_compat; lra). apply Rinv_le_contravar; lra. }
  pose proof (Rabs_mul_le _ _ _ _ G Hn) as K. lra.
Qed.

Lemma exp_series_spec c S x : (7 <= S <= 3700)%Z -> small x ->
  forall fuel j result elem ni, (S + 2 <= Z.of_nat fuel + Z.of_nat j)%Z -> etay S x j result elem ni ->
  exists r, exp_series c fuel result elem x ni S = Ret r /\ tidy r /\ sign r = SPos /\ (0 <= dscale r <= 16403)%Z /\
    mult (vval r) 16403 /\ Rabs (rv r - exp (rv x)) <= (48 / 100 * IZR S + 52 / 100) * e10 (- S).
Proof.
  intros HS Sx. induction fuel as [|f IH]; intros j result elem ni Hf R; destruct R as [Tr Gr Dr Mr Er Ie Ee Ni J Cn].
  { exfalso. lia. }
  rewrite exp_series_S. pose proof (sm_abs _ Sx) as Ax. set (y := rv x) in *. set (u := e10 (- S)) in *.
  assert (U : 0 < u <= / 10000000).
  { split; [apply e10_pos|]. assert (K : u <= e10 (-7)) by (apply e10_le; lia).
    assert (E7 : e10 (-7) = / 10000000) by (unfold powerRZ; f_equal; replace (Pos.to_nat 7) with 7%nat by reflexivity; cbn [pow]; ring). lra. }
  assert (HS2 : 7 <= IZR S <= 3700) by (split; apply IZR_le; lia).
  assert (Ej : INR j = IZR (Z.of_nat j)) by apply INR_IZR_INZ.
  assert (Hj : 2 * (INR j - 1) <= IZR S + 1).
  { rewrite Ej. rewrite <- minus_IZR, <- mult_IZR, <- plus_IZR. now apply IZR_le. }
  assert (J2 : 2 <= INR j) by (apply (le_INR 2) in J; cbn in J; lra).
  pose proof (term_small y j Ax J) as Tm. pose proof (hundredth_le j) as Hh.
  set (p := y ^ j / INR (fact j)) in *.
  assert (Hh2 : (1 / 100) ^ j <= 1 / 10000).
  { clear - J. destruct j as [|[|j]]; [lia|lia|]. cbn [pow]. pose proof (hundredth_le j). lra. }
  destruct (Z.eqb_spec (ndigits elem) 0) as [Z0|Z0].
  - exists result. split; [reflexivity|]. repeat (split; [assumption|]).
    assert (D0 : digits elem = []) by (apply ndigits_0; now apply Z.eqb_eq).
    assert (R0 : rv elem = 0) by (rewrite (rv_eq _ _ (vval_empty elem D0)); apply RMicromega.Q2R_0).
    rewrite R0 in Ee. replace (0 - p) with (- p) in Ee by ring. rewrite Rabs_Ropp in Ee.
    pose proof (tay_rest j y ltac:(lra)) as Rm. fold p in Rm.
    replace (rv result - exp y) with ((rv result - tay j y) - (exp y - tay j y)) by ring.
    eapply Rle_trans; [apply Rabs_triang|]. rewrite Rabs_Ropp.
    assert (96 / 100 * (INR j - 2) * u <= (48 / 100 * IZR S - 48 / 100) * u) by (apply Rmult_le_compat_r; lra). lra.
  - assert (Ne : digits elem <> []) by (intro E; apply Z0; unfold ndigits; rewrite E; reflexivity).
    assert (Be : Rabs (rv elem) <= 1 / 1000).
    { replace (rv elem) with (p + (rv elem - p)) by ring. eapply Rle_trans; [apply Rabs_triang|]. lra. }
    assert (Br : Rabs (rv result - 1) <= 12 / 1000).
    { replace (rv result - 1) with ((rv result - tay j y) + (tay j y - 1)) by ring. eapply Rle_trans; [apply Rabs_triang|].
      pose proof (tay_near_1 j y J Ax).
      assert (96 / 100 * (INR j - 2) * u <= 96 / 100 * 1850 * / 10000000) by (apply Rmult_le_compat; lra). lra. }
    apply Rabs_between in Br.
    destruct (add_big c result elem (proj1 Tr) (proj1 (it_tidy _ _ Ie)) Gr) as (res' & -> & Tr' & Gr' & Dr' & Vr').
    { apply Rlt_Qlt. rewrite Q2R_abs. fold (rv elem). fold (rv result). lra. }
    cbn [bind].
    pose proof (item_len S elem Ie ltac:(lra) ltac:(lia)) as Le.
    destruct (mul_op c elem x S 928 (proj1 (it_tidy _ _ Ie)) (proj1 (sm_tidy _ Sx)) ltac:(lia) ltac:(lia)) as (w & -> & Ow). cbn [bind].
    pose proof (off_item _ _ _ _ Ow) as Iw. apply off_by_R in Ow. rewrite Q2R_mult in Ow. fold (rv elem) in Ow. fold (rv x) in Ow. fold y in Ow.
    replace (Q2R ((1 # 2) + inject_Z 928 * (1 # 10000))) with (5928 / 10000) in Ow.
    2:{ rewrite Q2R_plus, Q2R_mult. unfold Q2R. cbn. lra. }
    fold u in Ow.
    destruct (smallint_one c _ ni Ni) as (ni' & -> & Ni'). cbn [bind].
    assert (Cn' : (2 * Z.of_nat j <= S + 1)%Z).
    { pose proof (item_nonzero S elem Ie Ne) as Lb. fold u in Lb.
      assert (L1 : 4 / 100 * u <= Rabs p).
      { pose proof (Rabs_triang (rv elem - p) p) as K. replace (rv elem - p + p) with (rv elem) in K by ring. lra. }
      destruct (Z_le_gt_dec (2 * Z.of_nat j) (S + 1)) as [L|L]; [exact L|exfalso].
      rewrite hundredth in Tm. assert (L4 : e10 (- (2 * Z.of_nat j)) <= e10 (-2 + - S)) by (apply e10_le; lia).
      rewrite e10_add in L4. fold u in L4. assert (E2 : e10 (-2) = / 100) by (unfold powerRZ; f_equal; replace (Pos.to_nat 2) with 2%nat by reflexivity; cbn [pow]; ring).
      rewrite E2 in L4. lra. }
    assert (Bw : Rabs (rv w) <= 1).
    { replace (rv w) with ((rv w - rv elem * y) + rv elem * y) by ring. eapply Rle_trans; [apply Rabs_triang|].
      pose proof (Rabs_mul_le _ _ _ _ Be Ax). lra. }
    destruct (item_div c S w (Z.of_nat j + 1) ni' Iw Bw ltac:(lia) ltac:(lia) Ni') as (elem' & -> & Ie' & Ee'). cbn [expect bind].
    fold u in Ee'.
    assert (Hn : 3 <= IZR (Z.of_nat j + 1)) by (apply IZR_le; lia).
    pose proof (eround u y p (rv elem) (rv w) _ (proj1 U) Ax Hn Ee Ow) as G.
    assert (Pn : y ^ Datatypes.S j / INR (fact (Datatypes.S j)) = p * y / IZR (Z.of_nat j + 1)).
    { rewrite INR_fact_S. replace (IZR (Z.of_nat j + 1)) with (INR (Datatypes.S j)) by (rewrite INR_IZR_INZ; f_equal; lia).
      unfold p. cbn [pow]. pose proof (fact_pos j). field. split; [lra|]. apply not_0_INR. lia. }
    apply (IH (Datatypes.S j)); [lia|]. constructor; auto.
    + rewrite Dr', (it_scale _ _ Ie). lia.
    + apply (mult_comp _ _ _ (Qeq_sym _ _ Vr')). apply mult_add; [exact Mr|]. apply (mult_up _ S); [lia|apply Ie].
    + change (tay (Datatypes.S j) (rv x)) with (tay j y + p). rewrite (rv_eq _ _ Vr'), Q2R_plus. fold (rv result). fold (rv elem).
      replace (rv result + rv elem - (tay j y + p)) with ((rv result - tay j y) + (rv elem - p)) by ring.
      eapply Rle_trans; [apply Rabs_triang|]. fold u. rewrite S_INR. lra.
    + fold y. fold u. rewrite Pn.
      replace (rv elem' - p * y / IZR (Z.of_nat j + 1))
        with ((rv elem' - rv w / IZR (Z.of_nat j + 1)) + (rv w / IZR (Z.of_nat j + 1) - p * y / IZR (Z.of_nat j + 1))) by ring.
      eapply Rle_trans; [apply Rabs_triang|]. lra.
    + replace (Z.of_nat (Datatypes.S j)) with (Z.of_nat j + 1)%Z by lia. exact Ni'.
    + lia.
Qed.

(** The whole series, from [1 + x] on *)
Lemma exp_taylor c fuel S x : (7 <= S <= 3700)%Z -> small x -> (S <= Z.of_nat fuel)%Z ->
  exists r, (result <- add_common c ONE x ;;
             elem <- mul_common c x x S ;;
             o <- div_fast_common c elem TWO S true ;;
             elem <- expect o MDivZero ;;
             exp_series c fuel result elem x TWO S) = Ret r /\ tidy r /\ sign r = SPos /\ (0 <= dscale r <= 16403)%Z /\
    mult (vval r) 16403 /\ Rabs (rv r - exp (rv x)) <= (48 / 100 * IZR S + 52 / 100) * e10 (- S).
Proof.
  intros HS Sx Hf. pose proof (sm_abs _ Sx) as Ax. pose proof (sm_tidy _ Sx) as Tx. pose proof (small_len x Sx) as Lx.
  assert (R1 : rv ONE = 1) by (rewrite (rv_eq ONE _ (si_val _ _ one_int)); apply Q2R_Z).
  destruct (add_big c ONE x (stripped_semi _ one_st0) (proj1 Tx) eq_refl) as (res & -> & Tr & Gr & Dr & Vr).
  { apply Rlt_Qlt. rewrite Q2R_abs. fold (rv x). fold (rv ONE). rewrite R1. lra. }
  cbn [bind].
  destruct (mul_op c x x S 4103 (proj1 Tx) (proj1 Tx) ltac:(lia) ltac:(lia)) as (w & -> & Ow). cbn [bind].
  pose proof (off_item _ _ _ _ Ow) as Iw. apply off_by_R in Ow. rewrite Q2R_mult in Ow. fold (rv x) in Ow.
  replace (Q2R ((1 # 2) + inject_Z 4103 * (1 # 10000))) with (9103 / 10000) in Ow.
  2:{ rewrite Q2R_plus, Q2R_mult. unfold Q2R. cbn. lra. }
  set (y := rv x) in *. set (u := e10 (- S)) in *.
  assert (U : 0 < u <= 1).
  { split; [apply e10_pos|]. change 1 with (e10 0). apply e10_le. lia. }
  assert (Bw : Rabs (rv w) <= 1).
  { replace (rv w) with ((rv w - y * y) + y * y) by ring. eapply Rle_trans; [apply Rabs_triang|].
    pose proof (Rabs_mul_le _ _ _ _ Ax Ax). lra. }
  destruct (item_div c S w 2 TWO Iw Bw ltac:(lia) ltac:(lia) two_int) as (elem & -> & Ie & Ee). cbn [expect bind]. fold u in Ee.
  apply (exp_series_spec c S x HS Sx fuel 2); [lia|]. constructor; auto; try lia.
  - rewrite Dr. pose proof (sm_scale _ Sx). change (dscale ONE) with 0%Z. lia.
  - apply (mult_comp _ _ _ (Qeq_sym _ _ Vr)). apply mult_add.
    + apply (mult_comp (inject_Z 1)); [symmetry; exact (si_val _ _ one_int)|apply mult_Z; lia].
    + apply (mult_up _ (dscale x)); [apply Sx|apply Sx].
  - rewrite (rv_eq _ _ Vr), Q2R_plus. fold (rv ONE). fold (rv x). rewrite R1. cbn [tay fact pow Nat.mul Nat.add INR]. fold y.
    replace (1 + y - (0 + 1 / 1 + y * 1 / 1)) with 0 by field. rewrite Rabs_R0. apply Rmult_le_pos; [lra|left; apply e10_pos].
  - fold y. fold u. replace (INR (fact 2)) with 2 by (cbn; lra). cbn [pow].
    replace (rv elem - y * (y * 1) / 2) with ((rv elem - rv w / 2) + (rv w - y * y) * / 2) by field.
    eapply Rle_trans; [apply Rabs_triang|]. rewrite (Rabs_mult _ (/ 2)), (Rabs_pos_eq (/ 2)) by lra. lra.
  - apply two_int.
Qed.
