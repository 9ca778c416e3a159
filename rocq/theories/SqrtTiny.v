(** * SqrtTiny: square roots of numbers below 10^-2016 (C58). *)
From Coq Require Import ZArith QArith Qround Qpower Qabs List Bool Lia Lqa.
From Verif Require Import Base Var Binary Parse Num Flt Transc Spec SpecRoot QDec Digits Arith Strip Round Trunc AddSub
  Signed Codec Make DivQ DivFast Mul MulNear Sqrt SqrtApi SqrtConv.
Import ListNotations.
Open Scope Z_scope.

Definition X (w k ds : Z) : var := Var w ds SPos [k].
Lemma X_stripped w k ds : 1 <= k <= 9999 -> stripped (X w k ds).
Proof.
  intro K. constructor; cbn [X digits weight sign]; try discriminate.
  - repeat constructor; unfold dig; lia.
  - intros d t H. injection H as <- _. lia.
  - intros d t H. destruct t as [|? [|? ?]]; cbn in H; try discriminate. injection H as <-. lia.
Qed.
Lemma X_val w k ds : (vval (X w k ds) == inject_Z k * p10 (4 * w))%Q.
Proof.
  unfold vval, dec, smag, mag, lsd, X. cbn [sgz sign digits dval weight]. unfold ndigits. cbn [digits].
  change (lenz [k]) with 1. change (10000 ^ lenz []) with 1. replace (w + 1 - 1) with w by lia.
  replace (1 * (k * 1 + 0)) with k by lia. reflexivity.
Qed.

(** the first guess *)
Lemma guess_X v : canon v -> (0 < vval v)%Q ->
  exists g d t, digits v = d :: t /\ sqrt_guess v = Ret (X (Z.quot (weight v) 2) g 0) /\ 1 <= g <= 4999 /\ d + 1 <= 4 * g /\
    (inject_Z d * p10 (4 * weight v) <= vval v < inject_Z (d + 1) * p10 (4 * weight v))%Q.
Proof.
  intros C P. destruct (canon_input v C P) as [I W]. pose proof (in_nz _ _ I) as N.
  destruct (digits v) as [|d t] eqn:E; [congruence|]. unfold sqrt_guess. rewrite E. change (index (d :: t) 0) with (Ret d). cbn [bind].
  pose proof (st_digits v (cn_st v C)) as F. rewrite E in F. inversion F as [|? ? Fd Ft]; subst.
  pose proof (st_first v (cn_st v C) d t E) as D0. unfold dig in Fd.
  exists (if Z.quot d 2 =? 0 then 1 else Z.quot d 2), d, t. split; [reflexivity|]. split; [reflexivity|].
  rewrite Z.quot_div_nonneg by lia. pose proof (Z.div_mod d 2 ltac:(lia)). pose proof (Z.mod_pos_bound d 2 ltac:(lia)).
  split; [destruct (Z.eqb_spec (d / 2) 0); lia|]. split; [destruct (Z.eqb_spec (d / 2) 0); lia|].
  assert (Sg : sign v = SPos) by now apply sign_pos.
  assert (L : ndigits v = 1 + lenz t) by (unfold ndigits; rewrite E; apply lenz_cons).
  pose proof (lenz_nonneg t) as T0.
  assert (M : mag v = d * 10 ^ (4 * lenz t) + dval t).
  { unfold mag. rewrite E. cbn [dval]. rewrite pB_ten by lia. reflexivity. }
  assert (B1 : 0 <= dval t < 10 ^ (4 * lenz t)).
  { rewrite <- pB_ten by lia. now apply dval_bound. }
  assert (V : (vval v == dec (mag v) (4 * (weight v) - 4 * lenz t))%Q).
  { unfold vval, smag. rewrite Sg. cbn [sgz]. unfold lsd. rewrite L, Z.mul_1_l.
    replace (4 * (weight v + 1 - (1 + lenz t))) with (4 * weight v - 4 * lenz t) by lia. reflexivity. }
  rewrite V.
  change (inject_Z d * p10 (4 * weight v))%Q with (dec d (4 * weight v)).
  change (inject_Z (d + 1) * p10 (4 * weight v))%Q with (dec (d + 1) (4 * weight v)).
  replace (4 * weight v) with (4 * weight v - 4 * lenz t + 4 * lenz t) at 1 4 by lia.
  rewrite <- !dec_shift by lia. split; [apply dec_le_iff; lia|apply dec_lt_iff; lia].
Qed.

Lemma rscale_tiny v : canon v -> weight v <= -505 -> sqrt_rscale v = 1000.
Proof. intros C W. rewrite root_scale_eq by apply C. unfold root_scale. cbn [to_number scale wt]. lia. Qed.

Lemma int_small k : (Qabs (inject_Z k) < 1)%Q -> k = 0.
Proof.
  intro H. apply Qabs_Qlt_condition in H. change (-(1))%Q with (inject_Z (-1)) in H. change 1%Q with (inject_Z 1) in H.
  rewrite <- !Zlt_Qlt in H. lia.
Qed.

(** below 10^-2020 the second iterate is zero *)
Lemma tiny_panics c fuel v : canon v -> (0 < vval v)%Q -> weight v <= -506 ->
  num_sqrt c (S (S fuel)) (layout (be_varlen c) (to_number v)) = Panic (WMsg MShouldNotBeZero).
Proof.
  intros C P W. destruct (num_sqrt_unfold c (S (S fuel)) v C P) as (g & Eg & ->).
  rewrite (rscale_tiny v C) by lia. change (1000 + 8) with 1008.
  destruct (guess_X v C P) as (g0 & d & t & Ed & Eg0 & G0 & G4 & VL).
  assert (g = X (Z.quot (weight v) 2) g0 0) as -> by congruence. clear Eg Eg0.
  set (h := Z.quot (weight v) 2) in *.
  assert (H : h <= -253 /\ weight v - h <= -253 /\ -4096 <= h).
  { destruct (canon_input v C P) as [_ Wl]. clear VL. unfold h. clear h. pose proof (Z.quot_rem' (weight v) 2) as Q. pose proof (Z.rem_bound_pos_neg (weight v) 2 ltac:(lia) ltac:(lia)). lia. }
  set (x := X h g0 0). assert (Sx : stripped x) by (apply X_stripped; lia).
  pose proof (X_val h g0 0) as Vx. fold x in Vx.
  assert (Nx : digits x <> []) by discriminate. assert (Nv : digits v <> []) by congruence.
  pose proof (canon_ndigits v C) as Lv. pose proof (cn_weight v C) as Wv.
  rewrite sqrt_loop_S.
  assert (Bd : df_bounds v x 1008) by (unfold df_bounds; change (weight x) with h; lia).
  pose proof (p10_pos (4 * h)) as Ph. pose proof (p10_pos (4 * weight v)) as Pw. pose proof (p10_pos 1008) as P8.
  assert (G1 : (1 <= inject_Z g0)%Q) by (change 1%Q with (inject_Z 1); rewrite <- Zle_Qle; lia).
  destruct (newton_spec c v x 1008 (stripped_semi _ (cn_st v C)) Sx Nv Nx Bd ltac:(lia) ltac:(cbn; lia)) as [(x' & k & E & Tx & Dx & Vx' & (s & S1 & S2))|(_ & L & _)].
  2: { change (ndigits x) with 1 in L. lia. }
  rewrite E. cbn [bind].
  assert (Sz : s = 0).
  { apply int_small. assert (A : (Qabs (vval v / vval x * p10 1008) <= 4 # 10000)%Q).
    { assert (Xp : (0 < vval x)%Q) by (rewrite Vx; apply Qmult_lt_0_compat; lra).
      rewrite Qabs_pos.
      2: { apply Qmult_le_0_compat; [|lra]. apply Qle_shift_div_l; [exact Xp|lra]. }
      setoid_replace (vval v / vval x * p10 1008)%Q with (vval v * p10 1008 / vval x)%Q by (field; lra).
      apply Qle_shift_div_r; [exact Xp|]. rewrite Vx.
      apply (Qle_trans _ (inject_Z (4 * g0) * p10 (4 * weight v) * p10 1008)).
      - apply Qmult_le_compat_r; [|lra]. apply (Qle_trans _ (inject_Z (d + 1) * p10 (4 * weight v))); [lra|].
        apply Qmult_le_compat_r; [rewrite <- Zle_Qle; lia|lra].
      - rewrite inject_Z_mult. change (inject_Z 4) with 4%Q.
        setoid_replace (4 * inject_Z g0 * p10 (4 * weight v) * p10 1008)%Q with (inject_Z g0 * 4 * (p10 (4 * weight v) * p10 1008))%Q by ring.
        setoid_replace ((4 # 10000) * (inject_Z g0 * p10 (4 * h)))%Q with (inject_Z g0 * 4 * (p10 (-4) * p10 (4 * h)))%Q by (change (p10 (-4)) with (1 # 10000); ring).
        rewrite <- !p10_add. rewrite !(Qmult_comm (inject_Z g0 * 4)). apply Qmult_le_compat_r; [apply p10_le; lia|lra]. }
    unfold tiny in S1. apply Qabs_Qle_condition in S1. apply Qabs_Qle_condition in A. apply Qabs_Qlt_condition. split; lra. }
  subst s. change (inject_Z 0) with 0%Q in *.
  assert (Kz : k = 0).
  { apply int_small. assert (A : (0 <= vval x * p10 1008 <= 4999 # 10000)%Q).
    { rewrite Vx. split; [apply Qmult_le_0_compat; [apply Qmult_le_0_compat; lra|lra]|].
      rewrite <- Qmult_assoc, <- p10_add.
      apply (Qle_trans _ (inject_Z 4999 * p10 (-4))); [|discriminate].
      apply (Qle_trans _ (inject_Z g0 * p10 (-4))).
      - rewrite !(Qmult_comm (inject_Z g0)). apply Qmult_le_compat_r; [apply p10_le; lia|lra].
      - apply Qmult_le_compat_r; [rewrite <- Zle_Qle; lia|apply Qlt_le_weak, p10_pos]. }
    apply Qabs_Qle_condition in S2. apply Qabs_Qlt_condition. split; lra. }
  subst k. assert (V0 : (vval x' == 0)%Q) by (rewrite Vx'; apply Qmult_0_l).
  assert (Ex : digits x' = []) by now apply stripped_zero_iff.
  destruct (cmp_common_spec c x' x) as (s & Ec & Hc);
    try apply Tx; try apply Sx; try (apply semi_nze, stripped_semi; assumption).
  rewrite Ec. cbn [bind]. destruct Hc as [[-> He]|Hc].
  { exfalso. rewrite V0, Vx in He. assert (0 < inject_Z g0 * p10 (4 * h))%Q by (apply Qmult_lt_0_compat; lra). lra. }
  replace (s =? 0) with false by (destruct Hc as [[-> _]|[-> _]]; reflexivity).
  rewrite sqrt_loop_S, (newton_zero c v x' 1008 (stripped_semi _ (cn_st v C)) Tx Ex). reflexivity.
Qed.

(** between 10^-2020 and 10^-2016 the iterates are whole units of 10^-1008 and decrease to one that repeats *)
Lemma half_unit c ds : ds = 0 \/ ds = 1008 ->
  (t <- add_common c (X (-252) 1 ds) (Var 0 1008 SPos []) ;; mul_common c t ZERO_POINT_FIVE 1008) = Ret (X (-252) 1 1008).
Proof. intros [-> | ->]; destruct c as [[] []]; vm_compute; reflexivity. Qed.

Lemma X_unique w k x ds : 1 <= k <= 9999 -> stripped x -> dscale x = ds -> (vval x == inject_Z k * p10 (4 * w))%Q -> x = X w k ds.
Proof.
  intros K S D V. apply stripped_unique; [exact S|now apply X_stripped|now rewrite D|]. now rewrite V, X_val.
Qed.

Lemma unit_step c v k ds : canon v -> weight v = -505 -> (0 < vval v)%Q -> 1 <= k <= 4999 -> ds = 0 \/ ds = 1008 ->
  exists k', newton c v (X (-252) k ds) 1008 = Ret (X (-252) k' 1008) /\ 1 <= k' <= k.
Proof.
  intros C W P K DS. set (x := X (-252) k ds). assert (Sx : stripped x) by (apply X_stripped; lia).
  pose proof (X_val (-252) k ds) as Vx. fold x in Vx. change (4 * -252) with (-1008) in Vx.
  assert (Nx : digits x <> []) by discriminate.
  destruct (guess_X v C P) as (g0 & d & t & Ed & _ & _ & _ & VL).
  assert (Nv : digits v <> []) by congruence.
  pose proof (canon_ndigits v C) as Lv. pose proof (cn_weight v C) as Wv.
  assert (Bd : df_bounds v x 1008) by (unfold df_bounds; change (weight x) with (-252); lia).
  assert (Fd : d <= 9999).
  { pose proof (st_digits v (cn_st v C)) as F. rewrite Ed in F. inversion F as [|? ? Fd Ft]; subst. unfold dig in Fd. lia. }
  rewrite W in VL. change (4 * -505) with (-2020) in VL.
  set (A := (vval v * p10 2016)%Q).
  assert (HA : (0 < A < 1)%Q).
  { unfold A. split; [apply Qmult_lt_0_compat; [exact P|apply p10_pos]|].
    apply (Qlt_le_trans _ (inject_Z (d + 1) * p10 (-2020) * p10 2016)).
    - apply Qmult_lt_compat_r; [apply p10_pos|lra].
    - rewrite <- Qmult_assoc, <- p10_add. change (-2020 + 2016) with (-4). change (p10 (-4)) with (1 # 10000).
      assert (inject_Z (d + 1) <= inject_Z 10000)%Q by (rewrite <- Zle_Qle; lia). change (inject_Z 10000) with 10000%Q in *. lra. }
  assert (K1 : (1 <= inject_Z k)%Q) by (change 1%Q with (inject_Z 1); rewrite <- Zle_Qle; lia).
  assert (XA : (vval v / vval x * p10 1008 == A / inject_Z k)%Q).
  { rewrite Vx. unfold A. replace 2016 with (1008 + 1008) by lia. rewrite p10_add.
    pose proof (p10_opp 1008) as O. change (- (1008)) with (-1008) in O. pose proof (p10_pos (-1008)) as P8.
    assert (M : (p10 1008 == / p10 (-1008))%Q).
    { apply (Qmult_inj_r _ _ (p10 (-1008))); [lra|]. rewrite O. field. lra. }
    rewrite M. field. split; lra. }
  assert (RA : (0 < A / inject_Z k <= A)%Q).
  { split; [apply Qlt_shift_div_l; lra|]. apply Qle_shift_div_r; [lra|].
    setoid_replace A with (A * 1)%Q at 1 by ring. rewrite !(Qmult_comm A). apply Qmult_le_compat_r; lra. }
  assert (Q2 : 2 <= k -> (A / inject_Z k <= 1 # 2)%Q).
  { intro K2. apply Qle_shift_div_r; [lra|]. assert (inject_Z 2 <= inject_Z k)%Q by (rewrite <- Zle_Qle; lia). change (inject_Z 2) with 2%Q in *. lra. }
  assert (Q3 : 3 <= k -> (A / inject_Z k <= 1 # 3)%Q).
  { intro K2. apply Qle_shift_div_r; [lra|]. assert (inject_Z 3 <= inject_Z k)%Q by (rewrite <- Zle_Qle; lia). change (inject_Z 3) with 3%Q in *. lra. }
  destruct (Z.eq_dec k 1) as [->|K2].
  - (* one unit: open the step *)
    assert (H : exists s0, div_fast_common c v x 1008 true = Ret (Some s0) /\ stripped s0 /\ dscale s0 = 1008 /\
      exists s, (vval s0 == inject_Z s * p10 (- (1008)))%Q /\ (Qabs (inject_Z s - A / 1) <= (1 # 2) + tiny)%Q).
    { destruct (div_fast_semi c v x 1008 (stripped_semi _ (cn_st v C)) (stripped_semi _ Sx) Nv Nx Bd) as [(s0 & E & Ts & Ds & R)|(_ & L & _)].
      2: { change (ndigits x) with 1 in L. lia. }
      exists s0. split; [exact E|]. split; [exact Ts|]. split; [exact Ds|]. destruct (nearly_units _ _ _ R) as (s & Es & As).
      exists s. split; [exact Es|]. rewrite XA in As. exact As. }
    destruct H as (s0 & E & Ts & Ds & s & Es & As).
    assert (Hs : s = 0 \/ s = 1).
    { setoid_replace (A / 1)%Q with A in As by field. unfold tiny in As. apply Qabs_Qle_condition in As.
      assert (-1 < s < 2); [|lia]. split; apply Zq_lt; [change (inject_Z (-1)) with (-(1))%Q|change (inject_Z 2) with 2%Q]; lra. }
    destruct Hs as [-> | ->].
    + exists 1. split; [|lia]. unfold newton. rewrite E. cbn [bind expect].
      assert (s0 = Var 0 1008 SPos []) as ->.
      { apply stripped_unique; [exact Ts|apply stripped_zero|exact Ds|]. rewrite Es. rewrite (vval_empty (Var 0 1008 SPos [])) by reflexivity. apply Qmult_0_l. }
      now apply half_unit.
    + exists 1. split; [|lia].
      destruct (newton_spec c v x 1008 (stripped_semi _ (cn_st v C)) Sx Nv Nx Bd ltac:(lia) ltac:(unfold x; cbn; lia)) as [(x' & k & E' & Tx & Dx & Vx' & (s & S1 & S2))|(_ & L & _)].
      2: { change (ndigits x) with 1 in L. lia. }
      rewrite E'. f_equal. apply X_unique; [lia|exact Tx|exact Dx|]. change (4 * -252) with (- (1008)). rewrite Vx'.
      (* the quotient rounds to one unit here too *)
      unfold newton in E'. rewrite E in E'. cbn [bind expect] in E'.
      assert (s0 = X (-252) 1 1008) as -> by (apply X_unique; [lia|exact Ts|exact Ds|exact Es]).
      assert (F : (t <- add_common c x (X (-252) 1 1008) ;; mul_common c t ZERO_POINT_FIVE 1008) = Ret (X (-252) 1 1008)).
      { unfold x. destruct DS as [-> | ->]; destruct c as [[] []]; vm_compute; reflexivity. }
      rewrite F in E'. injection E' as <-. rewrite (X_val (-252) 1 1008) in Vx'. now rewrite <- Vx'.
  - destruct (newton_spec c v x 1008 (stripped_semi _ (cn_st v C)) Sx Nv Nx Bd ltac:(lia) ltac:(unfold x; cbn; lia)) as [(x' & k' & E' & Tx & Dx & Vx' & (s & S1 & S2))|(_ & L & _)].
    2: { change (ndigits x) with 1 in L. lia. }
    rewrite XA in S1. assert (XK : (vval x * p10 1008 == inject_Z k)%Q).
    { rewrite Vx. rewrite <- Qmult_assoc, <- p10_add. change (-1008 + 1008) with 0. rewrite p10_0. ring. }
    rewrite XK in S2. specialize (Q2 ltac:(lia)). unfold tiny in S1. apply Qabs_Qle_condition in S1. apply Qabs_Qle_condition in S2.
    assert (Hs : 0 <= s <= 1 /\ (3 <= k -> s = 0)).
    { split; [assert (-1 < s < 2); [|lia]; split; apply Zq_lt; [change (inject_Z (-1)) with (-(1))%Q|change (inject_Z 2) with 2%Q]; lra|].
      intro K3. specialize (Q3 K3). assert (-1 < s < 1); [|lia]. split; apply Zq_lt; [change (inject_Z (-1)) with (-(1))%Q|change (inject_Z 1) with 1%Q]; lra. }
    assert (S2' : (-(2) < inject_Z (2 * k' - k - s) < 2)%Q).
    { unfold Z.sub. rewrite !inject_Z_plus, !inject_Z_opp, inject_Z_mult. change (inject_Z 2) with 2%Q. split; lra. }
    change (-(2))%Q with (inject_Z (-2)) in S2'. change 2%Q with (inject_Z 2) in S2'. rewrite <- !Zlt_Qlt in S2'.
    assert (K' : 1 <= k' <= k) by (destruct Hs as [Hs1 Hs2]; destruct (Z_le_dec 3 k) as [K3|K3]; [specialize (Hs2 K3)|]; lia).
    exists k'. split; [|exact K']. rewrite E'. f_equal. apply X_unique; [lia|exact Tx|exact Dx|exact Vx'].
Qed.

Lemma unit_loop c v : canon v -> weight v = -505 -> (0 < vval v)%Q ->
  forall fuel k ds, 1 <= k <= 4999 -> ds = 0 \/ ds = 1008 -> k < Z.of_nat fuel ->
  exists k', 1 <= k' <= 4999 /\ sqrt_loop c fuel v (X (-252) k ds) (X (-252) k ds) 1008 = Ret (X (-252) k' 1008).
Proof.
  intros C W P. induction fuel as [|f IH]; intros k ds K DS F; [lia|].
  rewrite sqrt_loop_S. destruct (unit_step c v k ds C W P K DS) as (k' & -> & K'). cbn [bind].
  destruct (cmp_common_spec c (X (-252) k' 1008) (X (-252) k ds)) as (s & Ec & Hc);
    try (apply X_stripped; lia); try (apply semi_nze, stripped_semi, X_stripped; lia).
  rewrite Ec. cbn [bind]. destruct (Z.eq_dec k' k) as [->|Nk].
  - assert (s = 0) as ->.
    { destruct Hc as [[-> _]|[[-> L]|[-> L]]]; [reflexivity|exfalso..]; rewrite !X_val in L; now apply Qlt_irrefl in L. }
    exists k. split; [lia|reflexivity].
  - destruct (s =? 0) eqn:S0; [exists k'; split; [lia|reflexivity]|]. apply IH; [lia|now right|lia].
Qed.

Lemma tiny_returns c fuel v : canon v -> (0 < vval v)%Q -> weight v = -505 -> 5000 <= Z.of_nat fuel ->
  exists r, num_sqrt c fuel (layout (be_varlen c) (to_number v)) = Ret r /\ stores (be_varlen c) r 0 1000.
Proof.
  intros C P W F. destruct (num_sqrt_unfold c fuel v C P) as (g & Eg & ->).
  rewrite (rscale_tiny v C) by lia. change (1000 + 8) with 1008.
  destruct (guess_X v C P) as (g0 & d & t & Ed & Eg0 & G0 & _).
  assert (g = X (-252) g0 0) as -> by (rewrite W in Eg0; change (Z.quot (-505) 2) with (-252) in Eg0; congruence).
  destruct (unit_loop c v C W P fuel g0 0 G0 (or_introl eq_refl) ltac:(lia)) as (k & K & ->).
  destruct (finish_ok c 1000 (X (-252) k 1008) k ltac:(lia) ltac:(apply X_stripped; lia) ltac:(cbn; lia) (X_val (-252) k 1008)) as (b & Eb & Sb).
  exists b. split; [exact Eb|]. apply (fun E => stores_ext _ _ _ _ _ E Sb).
  change (- (1000 + 8)) with (-1008).
  (* at most 4999 units of 10^-1008 round to zero at scale 1000 *)
  destruct (round_at_units (inject_Z k * p10 (-1008)) 1000) as (j & Ej & Aj). rewrite Ej.
  rewrite <- Qmult_assoc, <- p10_add in Aj. change (-1008 + 1000) with (-8) in Aj. change (p10 (-8)) with (1 # 100000000) in Aj.
  assert (Hk : (1 <= inject_Z k <= 4999)%Q).
  { change 1%Q with (inject_Z 1). change 4999%Q with (inject_Z 4999). rewrite <- !Zle_Qle. lia. }
  assert (j = 0) as ->; [|apply Qmult_0_l]. apply int_small. apply Qabs_Qle_condition in Aj. apply Qabs_Qlt_condition. split; lra.
Qed.

(** C58 *)
Theorem sqrt_tiny_exact c fuel n : canonical n -> (0 < value n)%Q ->
  ((value n < ten ^ (-2020))%Q -> (2 <= Z.of_nat fuel) -> num_sqrt c fuel (layout (be_varlen c) n) = Panic (WMsg MShouldNotBeZero)) /\
  ((ten ^ (-2020) <= value n < ten ^ (-2016))%Q -> 5000 <= Z.of_nat fuel ->
     exists r, num_sqrt c fuel (layout (be_varlen c) n) = Ret r /\ stores (be_varlen c) r 0 1000).
Proof.
  intros C P. destruct (number_var n C) as (v & Cv & -> & V). rewrite V in P |- *.
  pose proof (cn_st v Cv) as S.
  assert (N : digits v <> []) by (intro E; rewrite (vval_empty v E) in P; now apply Qlt_irrefl in P).
  destruct (stripped_range v S N) as [Lo Hi]. rewrite Qabs_pos in Lo, Hi by lra.
  change (ten ^ (-2020))%Q with (p10 (-2020)). change (ten ^ (-2016))%Q with (p10 (-2016)). split.
  - intros B F. destruct fuel as [|[|f]]; [cbn in F; lia|cbn in F; lia|]. apply tiny_panics; auto.
    pose proof (Qle_lt_trans _ _ _ Lo B) as H. apply (proj1 (p10_lt_iff _ _)) in H. lia.
  - intros [B1 B2] F. apply tiny_returns; auto.
    pose proof (Qle_lt_trans _ _ _ Lo B2) as H. apply (proj1 (p10_lt_iff _ _)) in H.
    pose proof (Qle_lt_trans _ _ _ B1 Hi) as H'. apply (proj1 (p10_lt_iff _ _)) in H'. lia.
Qed.
