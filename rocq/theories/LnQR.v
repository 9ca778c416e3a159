(** * LnQR: from rationals to reals. *)
From Coq Require Import Reals Qreals Lra Lia ZArith QArith Qabs List.
From Verif Require Import Base Var Spec SpecRoot QDec Digits Make LnOps.
Open Scope R_scope.

Notation e10 z := (powerRZ 10 z).
(** the value of a variable as a real *)
Definition rv (v : var) : R := Q2R (vval v).

Lemma e10_pos z : 0 < e10 z.
Proof. apply powerRZ_lt. lra. Qed.
Lemma e10_add a b : e10 (a + b) = e10 a * e10 b.
Proof. apply powerRZ_add. lra. Qed.
Lemma e10_opp z : e10 z * e10 (- z) = 1.
Proof. rewrite <- e10_add. replace (z + - z)%Z with 0%Z by lia. reflexivity. Qed.
Lemma e10_le a b : (a <= b)%Z -> e10 a <= e10 b.
Proof.
  intro L. replace b with (a + (b - a))%Z by lia. rewrite e10_add. pose proof (e10_pos a).
  assert (1 <= e10 (b - a)); [|nra].
  rewrite <- (Z2Nat.id (b - a)) by lia. rewrite <- pow_powerRZ. apply pow_R1_Rle. lra.
Qed.

Lemma Q2R_p10 z : Q2R (p10 z) = e10 z.
Proof.
  unfold p10. rewrite RMicromega.Q2RpowerRZ by (left; apply ten_nz). f_equal. unfold ten, Q2R. cbn. lra.
Qed.
Lemma Q2R_abs q : Q2R (Qabs q) = Rabs (Q2R q).
Proof.
  destruct (Qlt_le_dec q 0) as [L|L].
  - rewrite (Qeq_eqR _ _ (Qabs_neg q (Qlt_le_weak _ _ L))), Q2R_opp, Rabs_left; [reflexivity|].
    apply Qlt_Rlt in L. now rewrite RMicromega.Q2R_0 in L.
  - rewrite (Qeq_eqR _ _ (Qabs_pos q L)), Rabs_pos_eq; [reflexivity|].
    apply Qle_Rle in L. now rewrite RMicromega.Q2R_0 in L.
Qed.
Lemma Q2R_Z k : Q2R (inject_Z k) = IZR k.
Proof. unfold Q2R, inject_Z. cbn. field. Qed.
Lemma Q2R_pos q : (0 < q)%Q -> 0 < Q2R q.
Proof. intro H. apply Qlt_Rlt in H. now rewrite RMicromega.Q2R_0 in H. Qed.

Lemma Qabs_le_R q e : (Qabs q <= e)%Q -> Rabs (Q2R q) <= Q2R e.
Proof. intro H. rewrite <- Q2R_abs. now apply Qle_Rle. Qed.

Lemma off_by_R e x s r : off_by e x s r -> Rabs (rv r - Q2R x) <= Q2R e * e10 (- s).
Proof.
  intros (_ & _ & _ & H). apply Qabs_le_R in H. rewrite Q2R_minus, Q2R_mult, Q2R_p10 in H. exact H.
Qed.

Lemma rv_eq v q : (vval v == q)%Q -> rv v = Q2R q.
Proof. intro H. now apply Qeq_eqR. Qed.

Lemma Rabs_between a b : Rabs a <= b -> - b <= a <= b.
Proof. intro H. pose proof (Rle_abs a). pose proof (Rle_abs (- a)) as K. rewrite Rabs_Ropp in K. lra. Qed.

(** Logarithms near 1 *)
Lemma ln_up x : 0 < x -> ln x <= x - 1.
Proof.
  intro P. pose proof (exp_ineq1_le (ln x)) as H. rewrite exp_ln in H by exact P. lra.
Qed.
Lemma ln_low x : 0 < x -> 1 - / x <= ln x.
Proof.
  intro P. pose proof (ln_up (/ x) (Rinv_0_lt_compat _ P)) as H. rewrite ln_Rinv in H by exact P. lra.
Qed.
Lemma ln_mono x y : 0 < x -> x <= y -> ln x <= ln y.
Proof. intros P [L|E]; [left; now apply ln_increasing|subst; right; reflexivity]. Qed.
Lemma ln_e10 z : ln (e10 z) = IZR z * ln 10.
Proof.
  assert (P : forall n : nat, ln (e10 (Z.of_nat n)) = IZR (Z.of_nat n) * ln 10).
  { intro n. rewrite <- pow_powerRZ, ln_pow by lra. now rewrite INR_IZR_INZ. }
  destruct (Z_le_gt_dec 0 z) as [L|L].
  - rewrite <- (Z2Nat.id z) by lia. apply P.
  - assert (E : e10 z = / e10 (- z)).
    { pose proof (e10_opp z) as O. pose proof (e10_pos (- z)). apply (Rmult_eq_reg_r (e10 (- z))); [|lra]. rewrite O. field. lra. }
    rewrite E, ln_Rinv by apply e10_pos. rewrite <- (Z2Nat.id (- z)) at 1 by lia. rewrite P, Z2Nat.id by lia.
    rewrite opp_IZR. ring.
Qed.
Lemma ln_10_pos : 0 < ln 10 <= 9.
Proof. split; [rewrite <- ln_1; apply ln_increasing; lra|pose proof (ln_up 10 ltac:(lra)); lra]. Qed.

Lemma e10_m8 : e10 (-8) = / 100000000.
Proof. unfold powerRZ. f_equal. replace (Pos.to_nat 8) with 8%nat by reflexivity. cbn [pow]. ring. Qed.

(** a square root with a small relative error halves the logarithm *)
Lemma close_root_ln a r w S L : (close_root a r (root_error L)) -> (p10 (4 * w) <= a)%Q -> (0 < r)%Q ->
  (8 <= S)%Z -> (S - 2 * w <= L)%Z -> Rabs (ln (Q2R r) - ln (Q2R a) / 2) <= 51 / 100 * e10 (- S).
Proof.
  intros (_ & U & Lw) Ha Hr HS HL. apply Q2R_pos in Hr. set (h := root_error L) in *.
  assert (Eh : Q2R h = (1 / 2 + 2 / 100000000) * e10 (- L)).
  { unfold h, root_error. change (ten ^ (- L))%Q with (p10 (- L)). rewrite Q2R_mult, Q2R_p10. f_equal.
    rewrite Q2R_plus. unfold Q2R. cbn. lra. }
  apply Qle_Rle in U. rewrite Q2R_mult, Q2R_plus in U. apply Qle_Rle in Ha. rewrite Q2R_p10 in Ha.
  assert (Lw' : Q2R h <= Q2R r -> (Q2R r - Q2R h) * (Q2R r - Q2R h) <= Q2R a).
  { intro H. apply Rle_Qle in H. specialize (Lw H). apply Qle_Rle in Lw. rewrite Q2R_mult, Q2R_minus in Lw. exact Lw. }
  clear Lw. rewrite Eh in U, Lw'.
  set (A := Q2R a) in *. set (x := Q2R r) in *.
  assert (P2 : e10 (4 * w) = e10 (2 * w) * e10 (2 * w)) by (rewrite <- e10_add; f_equal; lia).
  pose proof (e10_pos (2 * w)) as Pw. assert (A0 : 0 < A) by nra.
  pose proof (sqrt_lt_R0 A A0) as Q0. pose proof (sqrt_def A ltac:(lra)) as Qq. set (q := sqrt A) in *.
  assert (Hq : e10 (2 * w) <= q).
  { destruct (Rle_lt_dec (e10 (2 * w)) q) as [H|H]; [exact H|exfalso]. nra. }
  set (d := (1 / 2 + 2 / 100000000) * e10 (- S)).
  assert (D0 : 0 < d) by (unfold d; pose proof (e10_pos (- S)); lra).
  assert (D1 : d <= 1 / 100000000).
  { unfold d. assert (e10 (- S) <= e10 (-8)) by (apply e10_le; lia).
    pose proof e10_m8. lra. }
  assert (H1 : (1 / 2 + 2 / 100000000) * e10 (- L) <= d * q).
  { unfold d. assert (e10 (- L) <= e10 (- S) * e10 (2 * w)) by (rewrite <- e10_add; apply e10_le; lia).
    pose proof (e10_pos (- S)). assert (e10 (- S) * e10 (2 * w) <= e10 (- S) * q) by (apply Rmult_le_compat_l; lra).
    lra. }
  set (k := (1 / 2 + 2 / 100000000) * e10 (- L)) in *. assert (K0 : 0 < k) by (unfold k; pose proof (e10_pos (- L)); lra).
  assert (Sq : forall y z, 0 <= y -> 0 <= z -> y * y <= z * z -> y <= z).
  { intros y z Y Z H. destruct (Rle_lt_dec y z) as [G|G]; [exact G|exfalso]. nra. }
  assert (B1 : q <= x + k) by (apply Sq; lra).
  assert (B2 : x - k <= q).
  { destruct (Rle_lt_dec k x) as [H|H]; [|lra]. specialize (Lw' H). apply Sq; lra. }
  assert (Eln : ln A = 2 * ln q) by (rewrite <- Qq, ln_mult by assumption; ring).
  rewrite Eln. replace (2 * ln q / 2) with (ln q) by lra.
  assert (G1 : q * (1 - d) <= x) by lra. assert (G2 : x <= q * (1 + d)) by lra.
  apply Rabs_le. split.
  - assert (G0 : 0 < q * (1 - d)) by (apply Rmult_lt_0_compat; lra).
    pose proof (ln_mono _ _ G0 G1) as H. rewrite ln_mult in H by lra.
    pose proof (ln_low (1 - d) ltac:(lra)) as H2.
    assert (H3 : / (1 - d) <= 1 + d * (1 + 1 / 10000000)).
    { apply (Rmult_le_reg_l (1 - d)); [lra|]. rewrite Rinv_r by lra. nra. }
    assert (d * (1 + 1 / 10000000) <= 51 / 100 * e10 (- S)) by (unfold d; pose proof (e10_pos (- S)); lra). lra.
  - pose proof (ln_mono _ _ Hr G2) as H. rewrite ln_mult in H by lra.
    pose proof (ln_up (1 + d) ltac:(lra)) as H2.
    assert (d <= 51 / 100 * e10 (- S)) by (unfold d; pose proof (e10_pos (- S)); lra). lra.
Qed.
