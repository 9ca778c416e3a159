(** * DivFastEst: how good the floating-point quotient digit estimates of the fast division are. *)
From Coq Require Import ZArith QArith Qabs Lqa Lia List Bool.
From Verif Require Import Base Var Flt FltFacts Transc Digits Arith QDec.
Import ListNotations.
Open Scope Z_scope.

(** The first [k] digits, padded with zeros, as a number. *)
Fixpoint dal (k : nat) (l : list Z) : Z :=
  match k, l with
  | S k', d :: t => d * 10000 ^ Z.of_nat k' + dal k' t
  | _, _ => 0
  end.

Lemma zle_q a b : a <= b -> (inject_Z a <= inject_Z b)%Q.
Proof. rewrite Zle_Qle. auto. Qed.

Lemma fl_abs x b : (Qabs x <= b)%Q -> (- (ulp53 * b) <= fl x - x <= ulp53 * b)%Q.
Proof.
  intros H. pose proof (fl_err x) as E. apply Qabs_Qle_condition.
  apply Qle_trans with (1 := E). apply Qmult_le_l; [reflexivity|exact H].
Qed.

Lemma fl_rel x : (0 <= x)%Q -> (x - ulp53 * x <= fl x <= x + ulp53 * x)%Q.
Proof.
  intros H. assert (E : (Qabs x <= x)%Q) by (rewrite Qabs_pos; [apply Qle_refl|exact H]).
  pose proof (fl_abs x x E). lra.
Qed.

Definition od (o : option Z) : Z := match o with Some d => d | None => 0 end.

Lemma horner_abs f o M N : (- M <= f <= M)%Q -> (- N <= inject_Z (od o) <= N)%Q -> (0 <= M)%Q ->
  let E := (ulp53 * (20001 * M + 2 * N))%Q in
  (- E <= horner f o - (f * 10000 + inject_Z (od o)) <= E)%Q.
Proof.
  intros Hf Hd HM E. unfold horner, fmul. change (inject_Z NBASE) with 10000%Q.
  assert (A1 : (Qabs (f * 10000) <= M * 10000)%Q) by (apply Qabs_Qle_condition; lra).
  pose proof (fl_abs _ _ A1) as G. set (g := fl (f * 10000)) in *. unfold E. unfold ulp53 in *.
  destruct o as [d|]; cbn [od] in *; [|change (inject_Z 0) with 0%Q in *; lra].
  unfold fadd.
  assert (A2 : (Qabs (g + inject_Z d) <= M * (100001 # 10) + N)%Q) by (apply Qabs_Qle_condition; lra).
  pose proof (fl_abs _ _ A2) as G2. unfold ulp53 in *. lra.
Qed.

Lemma horner_rel f o X k : (0 <= k)%Q -> (k <= 10 * ulp53)%Q -> (0 <= X)%Q ->
  (X - k * X <= f <= X + k * X)%Q -> 0 <= od o ->
  let Y := (X * 10000 + inject_Z (od o))%Q in
  let k' := (k + 3 * ulp53)%Q in
  (Y - k' * Y <= horner f o <= Y + k' * Y)%Q.
Proof.
  intros Hk Hk2 HX Hf Hd. cbv zeta. unfold horner, fmul. change (inject_Z NBASE) with 10000%Q.
  assert (KX : (0 <= k * X)%Q) by (apply Qmult_le_0_compat; assumption).
  assert (KX2 : (k * X <= 10 * ulp53 * X)%Q) by (apply Qmult_le_compat_r; assumption).
  assert (F0 : (0 <= f)%Q) by (unfold ulp53 in *; lra).
  pose proof (fl_rel (f * 10000) ltac:(lra)) as G. set (g := fl (f * 10000)) in *.
  unfold ulp53 in *.
  destruct o as [d|]; cbn [od] in *.
  - assert (D0 : (0 <= inject_Z d)%Q) by (apply (zle_q 0 d); exact Hd).
    assert (KD : (0 <= k * inject_Z d)%Q) by (apply Qmult_le_0_compat; assumption).
    unfold fadd. pose proof (fl_rel (g + inject_Z d) ltac:(lra)) as G2. unfold ulp53 in *. lra.
  - change (inject_Z 0) with 0%Q. lra.
Qed.

(** The four digits entering an estimate *)
Definition head4 (r0 : Z) (t : list Z) : Z :=
  ((r0 * 10000 + od (nth_error t 0)) * 10000 + od (nth_error t 1)) * 10000 + od (nth_error t 2).

Lemma dal_head4 r0 t : dal 4 (r0 :: t) = head4 r0 t.
Proof.
  unfold head4. destruct t as [|a [|b [|d t]]]; cbn [dal nth_error od];
    change (10000 ^ Z.of_nat 3) with 1000000000000; change (10000 ^ Z.of_nat 2) with 100000000;
    change (10000 ^ Z.of_nat 1) with 10000; change (10000 ^ Z.of_nat 0) with 1; lia.
Qed.

Ltac qz := repeat (rewrite inject_Z_plus in * || rewrite inject_Z_mult in *).

Lemma first4_div d0 t : dig d0 -> d0 <> 0 -> Forall dig t ->
  let F := inject_Z (dal 4 (d0 :: t)) in
  (F - 9 * ulp53 * F <= first4 (d0 :: t) <= F + 9 * ulp53 * F)%Q.
Proof.
  intros D0 N0 Dt. cbv zeta. rewrite dal_head4. unfold first4, head4.
  assert (Od : forall i, 0 <= od (nth_error t i)).
  { intro i. destruct (nth_error t i) eqn:E; cbn; [|lia]. apply nth_error_In in E.
    rewrite Forall_forall in Dt. apply Dt in E. unfold dig in E. lia. }
  unfold dig in D0.
  assert (X0 : (0 <= inject_Z d0)%Q) by (apply (zle_q 0 d0); lia).
  assert (OQ : forall i, (0 <= inject_Z (od (nth_error t i)))%Q) by (intro i; apply (zle_q 0 _); apply Od).
  pose proof (horner_rel (inject_Z d0) (nth_error t 0) (inject_Z d0) 0 ltac:(lra) ltac:(unfold ulp53; lra) X0 ltac:(lra) (Od _)) as H1.
  cbv zeta in H1. pose proof (OQ 0%nat) as Oa. pose proof (OQ 1%nat) as Ob. pose proof (OQ 2%nat) as Oc.
  set (o0 := nth_error t 0) in *. set (o1 := nth_error t 1) in *. set (o2 := nth_error t 2) in *.
  pose proof (fun a b c => horner_rel _ o1 _ _ a b c H1 (Od _)) as H2.
  specialize (H2 ltac:(unfold ulp53; lra) ltac:(unfold ulp53; lra) ltac:(lra)).
  cbv zeta in H2.
  pose proof (fun a b c => horner_rel _ o2 _ _ a b c H2 (Od _)) as H3.
  specialize (H3 ltac:(unfold ulp53; lra) ltac:(unfold ulp53; lra) ltac:(lra)).
  cbv zeta in H3. qz. change (inject_Z 10000) with 10000%Q. unfold ulp53 in *. lra.
Qed.

Lemma finv_spec d0 t : dig d0 -> d0 <> 0 -> Forall dig t ->
  let F := inject_Z (dal 4 (d0 :: t)) in
  let Y := (F * fdiv 1 (first4 (d0 :: t)))%Q in
  (1000000000000 <= F <= 10000000000000000)%Q /\
  (1 - (12 # 9007199254740992) <= Y <= 1 + (12 # 9007199254740992))%Q.
Proof.
  intros D0 N0 Dt. cbv zeta. pose proof (first4_div d0 t D0 N0 Dt) as H. cbv zeta in H.
  assert (FB : (1000000000000 <= inject_Z (dal 4 (d0 :: t)) <= 10000000000000000)%Q).
  { assert (Od : forall i, 0 <= od (nth_error t i) <= 9999).
    { intro i. destruct (nth_error t i) eqn:E; cbn; [|lia]. apply nth_error_In in E.
      rewrite Forall_forall in Dt. apply Dt in E. unfold dig in E. lia. }
    change 1000000000000%Q with (inject_Z 1000000000000). change 10000000000000000%Q with (inject_Z 10000000000000000).
    rewrite <- !Zle_Qle. rewrite dal_head4. unfold head4, dig in *.
    pose proof (Od 0%nat). pose proof (Od 1%nat). pose proof (Od 2%nat). lia. }
  split; [exact FB|].
  set (F := inject_Z (dal 4 (d0 :: t))) in *. set (G := first4 (d0 :: t)) in *.
  assert (G0 : (0 < G)%Q) by (unfold ulp53 in *; lra).
  unfold fdiv. assert (X1 : (1 / G * G == 1)%Q) by (field; lra).
  assert (X0 : (0 < 1 / G)%Q) by (apply Qlt_shift_div_l; lra).
  pose proof (fl_rel (1 / G) ltac:(lra)) as R. set (x := (1 / G)%Q) in *. set (y := fl x) in *.
  assert (A : (F * x - 9 * ulp53 * (F * x) <= 1 <= F * x + 9 * ulp53 * (F * x))%Q).
  { assert (L : ((F - 9 * ulp53 * F) * x <= G * x)%Q) by (apply Qmult_le_compat_r; lra).
    assert (U : (G * x <= (F + 9 * ulp53 * F) * x)%Q) by (apply Qmult_le_compat_r; lra). lra. }
  assert (C : (F * (x - ulp53 * x) <= F * y <= F * (x + ulp53 * x))%Q).
  { split; apply Qmult_le_l; lra. }
  unfold ulp53 in *. lra.
Qed.

Lemma first4_num r0 t : Z.abs r0 <= 300000000 -> (forall i, Z.abs (od (nth_error t i)) <= 2147265252) ->
  let P := inject_Z (dal 4 (r0 :: t)) in
  (- (210000) <= first4 (r0 :: t) - P <= 210000)%Q.
Proof.
  intros R0 Rt. cbv zeta. rewrite dal_head4. unfold first4, head4.
  assert (X0 : (- (300000000) <= inject_Z r0 <= 300000000)%Q).
  { change 300000000%Q with (inject_Z 300000000). rewrite <- inject_Z_opp, <- !Zle_Qle. lia. }
  assert (OQ : forall i, (- (2147265252) <= inject_Z (od (nth_error t i)) <= 2147265252)%Q).
  { intro i. change 2147265252%Q with (inject_Z 2147265252). rewrite <- inject_Z_opp, <- !Zle_Qle.
    specialize (Rt i). lia. }
  pose proof (OQ 0%nat) as O0. pose proof (OQ 1%nat) as O1. pose proof (OQ 2%nat) as O2.
  set (o0 := nth_error t 0) in *. set (o1 := nth_error t 1) in *. set (o2 := nth_error t 2) in *.
  pose proof (horner_abs _ o0 _ _ X0 O0 ltac:(lra)) as H1. cbv zeta in H1. unfold ulp53 in H1.
  set (h1 := horner (inject_Z r0) o0) in *.
  assert (B1 : (- (3002147300000) <= h1 <= 3002147300000)%Q) by lra.
  pose proof (horner_abs _ o1 _ _ B1 O1 ltac:(lra)) as H2. cbv zeta in H2. unfold ulp53 in H2.
  set (h2 := horner h1 o1) in *.
  assert (B2 : (- (30021475200000000) <= h2 <= 30021475200000000)%Q) by lra.
  pose proof (horner_abs _ o2 _ _ B2 O2 ltac:(lra)) as H3. cbv zeta in H3. unfold ulp53 in H3.
  set (h3 := horner h2 o2) in *. qz. change (inject_Z 10000) with 10000%Q. lra.
Qed.

Lemma quot_digit_spec c f : (- (2000000000) <= f <= 2000000000)%Q ->
  exists q, quot_digit c f = Ret q /\ (inject_Z q <= f <= inject_Z q + 1)%Q.
Proof.
  intros [L U]. unfold quot_digit. destruct f as [n d].
  change 2000000000%Q with (inject_Z 2000000000) in *. rewrite <- inject_Z_opp in L.
  unfold Qle in L, U. cbn in L, U. 
  assert (Hq : forall k, (inject_Z k <= n # d)%Q <-> k * Z.pos d <= n).
  { intro k. unfold Qle. cbn. rewrite Z.mul_1_r. reflexivity. }
  assert (Hq2 : forall k, (n # d <= inject_Z k + 1)%Q <-> n <= (k + 1) * Z.pos d).
  { intro k. assert (E : (inject_Z k + 1 == inject_Z (k + 1))%Q) by (rewrite inject_Z_plus; reflexivity).
    rewrite E. unfold Qle. cbn. rewrite Z.mul_1_r. reflexivity. }
  unfold f2i. cbn [Qnum Qden].
  pose proof (Z.quot_rem' n (Z.pos d)) as E. set (k := Z.quot n (Z.pos d)) in *.
  destruct (Qle_bool 0 (n # d)) eqn:Eb.
  - apply Qle_bool_iff in Eb. unfold Qle in Eb. cbn in Eb.
    pose proof (Z.rem_bound_pos n (Z.pos d) ltac:(lia) ltac:(lia)) as R.
    assert (K : 0 <= k <= 2000000000) by nia.
    exists k. split; [f_equal; lia|split; [apply Hq|apply Hq2]; nia].
  - assert (Nb : ~ (0 <= n # d)%Q) by (intro H; apply Qle_bool_iff in H; congruence).
    assert (Nn : n < 0) by (unfold Qle in Nb; cbn [Qnum Qden] in Nb; lia).
    pose proof (Z.rem_bound_pos_neg n (Z.pos d) ltac:(lia) ltac:(lia)) as R.
    exists (k - 1). assert (-2000000000 - 1 <= k <= 0) by nia.
    split; [|split; [apply Hq|apply Hq2]; nia].
    rewrite Z.min_r, Z.max_r by lia. apply i32_ok. lia.
Qed.

(** The estimate: [q] is at most the real quotient of the leading digits and less than it by at
    most one, both up to 2.2e-7. *)
Lemma estimate_spec c d0 dt r0 t : dig d0 -> d0 <> 0 -> Forall dig dt ->
  Z.abs r0 <= 300000000 -> Forall (fun x => Z.abs x <= 2147265252) t ->
  let F := dal 4 (d0 :: dt) in let P := dal 4 (r0 :: t) in
  Z.abs P <= 31000 * F ->
  exists q, estimate c (r0 :: t) (fdiv 1 (first4 (d0 :: dt))) = Ret q /\
    - 220 * F <= 1000000000 * (P - q * F) <= 1000000220 * F /\ Z.abs q <= 31004.
Proof.
  intros D0 N0 Dd R0 Rt F P HP.
  assert (Ro : forall i, Z.abs (od (nth_error t i)) <= 2147265252).
  { intro i. destruct (nth_error t i) eqn:E; cbn; [|lia]. apply nth_error_In in E.
    rewrite Forall_forall in Rt. apply Rt. exact E. }
  destruct (finv_spec d0 dt D0 N0 Dd) as [FB Y]. fold F in FB, Y.
  pose proof (first4_num r0 t R0 Ro) as A. cbv zeta in A. fold P in A.
  unfold estimate. set (a := first4 (r0 :: t)) in *. set (y := fdiv 1 (first4 (d0 :: dt))) in *.
  set (FQ := inject_Z F) in *. set (PQ := inject_Z P) in *.
  assert (HPQ : (- (31000 * FQ) <= PQ <= 31000 * FQ)%Q).
  { unfold FQ, PQ. change 31000%Q with (inject_Z 31000). rewrite <- inject_Z_mult, <- inject_Z_opp, <- !Zle_Qle. lia. }
  assert (HaQ : (- (31001 * FQ) <= a <= 31001 * FQ)%Q) by lra.
  unfold fmul. set (f := fl (a * y)).
  assert (Y0 : (0 < y)%Q).
  { destruct (Qlt_le_dec 0 y) as [H|H]; [exact H|exfalso].
    assert (0 <= FQ * - y)%Q by (apply Qmult_le_0_compat; lra). lra. }
  (* |a*y| *)
  assert (AY : (- (31002) <= a * y <= 31002)%Q).
  { assert (U1 : ((31001 * FQ - a) * y >= 0)%Q) by (apply Qmult_le_0_compat; lra).
    assert (U2 : ((a + 31001 * FQ) * y >= 0)%Q) by (apply Qmult_le_0_compat; lra). lra. }
  pose proof (fl_abs (a * y) 31002 ltac:(apply Qabs_Qle_condition; lra)) as Hf. fold f in Hf. unfold ulp53 in Hf.
  destruct (quot_digit_spec c f) as (q & Eq & Q); [lra|].
  exists q. split; [exact Eq|].
  (* F * a * y close to a *)
  assert (FAY : (- (31001 * (12 # 9007199254740992) * FQ) <= FQ * (a * y) - a <= 31001 * (12 # 9007199254740992) * FQ)%Q).
  { set (w := (FQ * y - 1)%Q). assert (W : (- (12 # 9007199254740992) <= w <= 12 # 9007199254740992)%Q) by (unfold w; lra).
    assert (E : (FQ * (a * y) - a == a * w)%Q) by (unfold w; ring). rewrite E.
    set (e := 12 # 9007199254740992) in *.
    assert (M1 : (0 <= (31001 * FQ - a) * (e + w))%Q) by (apply Qmult_le_0_compat; lra).
    assert (M2 : (0 <= (31001 * FQ + a) * (e - w))%Q) by (apply Qmult_le_0_compat; lra).
    assert (M3 : (0 <= (31001 * FQ - a) * (e - w))%Q) by (apply Qmult_le_0_compat; lra).
    assert (M4 : (0 <= (31001 * FQ + a) * (e + w))%Q) by (apply Qmult_le_0_compat; lra).
    split; nra. }
  set (ay := (a * y)%Q) in *.
  assert (FF : (- ((31002 # 9007199254740992) * FQ) <= FQ * f - FQ * ay <= (31002 # 9007199254740992) * FQ)%Q).
  { assert (M1 : (0 <= FQ * ((31002 # 9007199254740992) - (f - ay)))%Q) by (apply Qmult_le_0_compat; lra).
    assert (M2 : (0 <= FQ * ((31002 # 9007199254740992) + (f - ay)))%Q) by (apply Qmult_le_0_compat; lra). lra. }
  assert (QF : (inject_Z q * FQ <= FQ * f <= inject_Z q * FQ + FQ)%Q).
  { assert (M1 : (0 <= FQ * (f - inject_Z q))%Q) by (apply Qmult_le_0_compat; lra).
    assert (M2 : (0 <= FQ * (inject_Z q + 1 - f))%Q) by (apply Qmult_le_0_compat; lra). lra. }
  split.
  - rewrite !Zle_Qle.
    assert (E : (inject_Z (1000000000 * (P - q * F)) == 1000000000 * (PQ - inject_Z q * FQ))%Q).
    { rewrite inject_Z_mult. unfold Z.sub. rewrite inject_Z_plus, inject_Z_opp, inject_Z_mult. fold PQ FQ. reflexivity. }
    rewrite E. rewrite !inject_Z_mult. fold FQ.
    change (inject_Z (- 220)) with (- (220))%Q. change (inject_Z 1000000220) with 1000000220%Q. lra.
  - apply Z.abs_le. rewrite !Zle_Qle, inject_Z_opp. change (inject_Z 31004) with 31004%Q. lra.
Qed.
