(** * SqrtConv: what bounds the iterates, and convergence on perfect squares. *)
From Coq Require Import ZArith QArith Qround Qpower Qabs List Bool Lia Lqa.
From Verif Require Import Base Var Binary Num Flt Transc Spec SpecRoot QDec Digits Arith Strip Round Trunc AddSub
  Signed Codec Make Api2 DivQ DivFast Mul MulNear Sqrt SqrtApi.
Import ListNotations.
Open Scope Z_scope.

Lemma unit_scale k ls : (inject_Z k * p10 (- ls) * p10 ls == inject_Z k)%Q.
Proof.
  pose proof (p10_opp ls) as O.
  setoid_replace (inject_Z k * p10 (- ls) * p10 ls)%Q with (inject_Z k * (p10 ls * p10 (- ls)))%Q by ring.
  rewrite O. ring.
Qed.

Lemma unit_pos x k ls : (x == inject_Z k * p10 (- ls))%Q -> 0 < k -> (0 < x)%Q.
Proof.
  intros -> H. apply Qmult_lt_0_compat; [|apply p10_pos]. change 0%Q with (inject_Z 0). now rewrite <- Zlt_Qlt.
Qed.

Lemma unit_inj x x' k k' ls : (x == inject_Z k * p10 (- ls))%Q -> (x' == inject_Z k' * p10 (- ls))%Q ->
  ((x == x')%Q <-> k = k').
Proof.
  intros E E'. rewrite E, E'. split; [|now intros ->]. intro H. apply (proj1 (dec_eq_iff k k' (- ls))). exact H.
Qed.

Lemma step_int a x ls k k' : (0 < a)%Q -> 0 < k -> (x == inject_Z k * p10 (- ls))%Q -> step a x ls k' ->
  exists s : Z, 0 <= s /\
    (Qabs (inject_Z s * inject_Z k - a * p10 ls * p10 ls) <= ((1 # 2) + tiny) * inject_Z k)%Q /\
    -1 <= 2 * k' - k - s <= 1.
Proof.
  intros Ha K E H. pose proof (unit_pos x k ls E K) as X.
  destruct (step_rel a x ls k' Ha X H) as (s & S0 & S1 & S2). exists s.
  assert (Ex : (x * p10 ls == inject_Z k)%Q) by (rewrite E; apply unit_scale).
  rewrite Ex in S1, S2. split; [exact S0|]. split; [exact S1|]. apply Qabs_Qle_condition in S2.
  split.
  - assert (-2 < 2 * k' - k - s); [|lia]. apply Zq_lt. unfold Z.sub.
    rewrite !inject_Z_plus, !inject_Z_opp, inject_Z_mult. change (inject_Z (-2)) with (-2)%Q.
    change (inject_Z 2) with 2%Q. lra.
  - assert (2 * k' - k - s < 2); [|lia]. apply Zq_lt. unfold Z.sub.
    rewrite !inject_Z_plus, !inject_Z_opp, inject_Z_mult. change (inject_Z 2) with 2%Q. lra.
Qed.

(** ** Upper bound *)
Lemma step_upper a x ls k k' b : (0 < a)%Q -> 0 < k -> (x == inject_Z k * p10 (- ls))%Q -> step a x ls k' ->
  1 <= b <= k -> (a * p10 ls * p10 ls < inject_Z (b + 1) * inject_Z (b + 1))%Q -> 2 * k' <= k + b + 5.
Proof.
  intros Ha K E H Hb Hq. destruct (step_int a x ls k k' Ha K E H) as (s & S0 & S1 & S2).
  assert (s <= b + 4); [|lia]. apply Qabs_Qle_condition in S1. destruct S1 as [_ S1].
  set (A := (a * p10 ls * p10 ls)%Q) in *. clearbody A. unfold tiny in S1.
  destruct (Z_le_gt_dec s (b + 4)) as [G|G]; [exact G|exfalso].
  assert (S5 : (b + 5) * k <= s * k) by (apply Z.mul_le_mono_nonneg_r; lia).
  assert (bk : b * b <= b * k) by (apply Z.mul_le_mono_nonneg_l; lia).
  rewrite <- inject_Z_mult in S1, Hq.
  assert (M : (inject_Z ((b + 1) * (b + 1)) + inject_Z k <= inject_Z (s * k))%Q).
  { rewrite <- inject_Z_plus, <- Zle_Qle. lia. }
  assert (K0 : (0 < inject_Z k)%Q) by (change 0%Q with (inject_Z 0); now rewrite <- Zlt_Qlt). lra.
Qed.

(** ** No overflow panic when the iterates stay below [m] units and such numbers have at most 21 digits *)
Definition calm (c : cfg) (ls m : Z) : Prop := dbg c = true -> forall x k, stripped x -> dscale x = ls ->
  (vval x == inject_Z k * p10 (- ls))%Q -> 0 < k <= m -> ndigits x <= 21.

Lemma inv_digits v ls x k : inv v ls x -> (vval x == inject_Z k * p10 (- ls))%Q -> 0 < k -> digits x <> [].
Proof. intros V E K N. pose proof (unit_pos _ _ _ E K) as H. rewrite (vval_empty x N) in H. now apply Qlt_irrefl in H. Qed.

Lemma loop_calm c v ls b m : input v ls -> 1 <= b -> b + 5 <= m ->
  (inject_Z b * inject_Z b <= vval v * p10 ls * p10 ls)%Q ->
  (vval v * p10 ls * p10 ls < inject_Z (b + 1) * inject_Z (b + 1))%Q -> calm c ls m ->
  forall fuel x k, inv v ls x -> dscale x = ls -> (vval x == inject_Z k * p10 (- ls))%Q -> b <= k <= m ->
  sqrt_loop c fuel v x x ls = Diverge \/
  (exists x' k', sqrt_loop c fuel v x x ls = Ret x' /\ stripped x' /\ dscale x' = ls /\
     (vval x' == inject_Z k' * p10 (- ls))%Q /\ good_root (vval v) ls k').
Proof.
  intros I Hb Hm Lo Hi Cm. induction fuel as [|f IH]; intros x k V Dx Ek Hk; [now left|]. rewrite sqrt_loop_S.
  pose proof (inv_digits _ _ _ _ V Ek ltac:(lia)) as N.
  destruct (newton_inv c v ls x I V N) as [(x' & k' & E & V' & Dx' & Vx & St)|(G & H21 & E)]; rewrite E; cbn [bind].
  2:{ exfalso. specialize (Cm G x k (iv_st _ _ _ V) Dx Ek ltac:(lia)). lia. }
  pose proof (step_lower (vval v) (vval x) ls k' b (in_pos _ _ I) (unit_pos (vval x) k ls Ek ltac:(lia)) St ltac:(lia) Lo) as L'.
  pose proof (step_upper (vval v) (vval x) ls k k' b (in_pos _ _ I) ltac:(lia) Ek St ltac:(lia) Hi) as U'.
  destruct (cmp_common_spec c x' x) as (s & Ec & Hc);
    try apply (iv_st _ _ _ V); try apply (iv_st _ _ _ V'); try (apply semi_nze, stripped_semi; [apply V' || apply V]).
  rewrite Ec. cbn [bind]. destruct Hc as [[-> He]|[[-> _]|[-> _]]];
    [|cbn [Z.eqb]; apply (IH x' k' V' Dx' Vx); lia..].
  cbn [Z.eqb]. right. exists x', k'. split; [reflexivity|]. split; [apply V'|]. split; [exact Dx'|].
  split; [exact Vx|]. apply (step_fix (vval v) (vval x) ls k'); auto; [apply I| |now rewrite <- He].
  apply (unit_pos _ _ _ Ek). lia.
Qed.

(** ** Perfect squares *)
Lemma square_down a x ls k k' b : (0 < a)%Q -> (a * p10 ls * p10 ls == inject_Z b * inject_Z b)%Q ->
  10 <= b -> b < k -> (x == inject_Z k * p10 (- ls))%Q -> step a x ls k' -> 2 * k' <= k + b + 1.
Proof.
  intros Ha Sq Hb Hk E H. destruct (step_int a x ls k k' Ha ltac:(lia) E H) as (s & S0 & S1 & S2).
  assert (s <= b); [|lia]. apply Qabs_Qle_condition in S1. destruct S1 as [_ S1]. rewrite Sq in S1. unfold tiny in S1.
  destruct (Z_le_gt_dec s b) as [G|G]; [exact G|exfalso].
  assert (S5 : (b + 1) * k <= s * k) by (apply Z.mul_le_mono_nonneg_r; lia).
  assert (bk : b * b <= b * k) by (apply Z.mul_le_mono_nonneg_l; lia).
  rewrite <- !inject_Z_mult in S1.
  assert (M : (inject_Z (b * b) + inject_Z k <= inject_Z (s * k))%Q).
  { rewrite <- inject_Z_plus, <- Zle_Qle. lia. }
  assert (K0 : (0 < inject_Z k)%Q) by (change 0%Q with (inject_Z 0); rewrite <- Zlt_Qlt; lia). lra.
Qed.

Lemma square_near a x ls k k' b : (0 < a)%Q -> (a * p10 ls * p10 ls == inject_Z b * inject_Z b)%Q ->
  10 <= b -> b <= k <= b + 1 -> (x == inject_Z k * p10 (- ls))%Q -> step a x ls k' -> k' = b.
Proof.
  intros Ha Sq Hb Hk E H. destruct (step_int a x ls k k' Ha ltac:(lia) E H) as (s & S0 & S1 & S2).
  assert (s = 2 * b - k); [|lia]. apply Qabs_Qle_condition in S1. rewrite Sq in S1. unfold tiny in S1.
  rewrite <- !inject_Z_mult in S1. destruct S1 as [S1a S1b].
  assert (K0 : (10 <= inject_Z k)%Q) by (change 10%Q with (inject_Z 10); rewrite <- Zle_Qle; lia).
  assert (Hd : k = b \/ k = b + 1) by lia.
  assert (Bq : (inject_Z (b * b) <= inject_Z ((2 * b - k) * k) + 1)%Q /\ (inject_Z ((2 * b - k) * k) <= inject_Z (b * b))%Q).
  { change 1%Q with (inject_Z 1). rewrite <- inject_Z_plus, <- !Zle_Qle. destruct Hd; subst k; lia. }
  destruct Bq as [B1 B2].
  destruct (Z_lt_le_dec s (2 * b - k)) as [G|G]; [exfalso|].
  - assert (M : (s + 1) * k <= (2 * b - k) * k) by (apply Z.mul_le_mono_nonneg_r; lia).
    assert (M' : (inject_Z (s * k) + inject_Z k <= inject_Z ((2 * b - k) * k))%Q).
    { rewrite <- inject_Z_plus, <- Zle_Qle. lia. }
    lra.
  - destruct (Z_lt_le_dec (2 * b - k) s) as [G'|G']; [exfalso|lia].
    assert (M : (2 * b - k + 1) * k <= s * k) by (apply Z.mul_le_mono_nonneg_r; lia).
    assert (M' : (inject_Z ((2 * b - k) * k) + inject_Z k <= inject_Z (s * k))%Q).
    { rewrite <- inject_Z_plus, <- Zle_Qle. lia. }
    lra.
Qed.

Lemma square_loop c v ls b m : input v ls -> 10 <= b -> b + 5 <= m ->
  (vval v * p10 ls * p10 ls == inject_Z b * inject_Z b)%Q -> calm c ls m ->
  forall d x k, (Z.to_nat (k - b) <= d)%nat -> inv v ls x -> dscale x = ls ->
  (vval x == inject_Z k * p10 (- ls))%Q -> b <= k <= m ->
  forall fuel, (d + 2 <= fuel)%nat ->
  exists x', sqrt_loop c fuel v x x ls = Ret x' /\ stripped x' /\ dscale x' = ls /\
     (vval x' == inject_Z b * p10 (- ls))%Q.
Proof.
  intros I Hb Hm Sq Cm.
  assert (Lo : (inject_Z b * inject_Z b <= vval v * p10 ls * p10 ls)%Q) by (rewrite Sq; apply Qle_refl).
  induction d as [|d IH]; intros x k Hd V Dx Ek Hk fuel Hf; (destruct fuel as [|f]; [lia|]); rewrite sqrt_loop_S;
  pose proof (inv_digits _ _ _ _ V Ek ltac:(lia)) as N;
  (destruct (newton_inv c v ls x I V N) as [(x' & k' & E & V' & Dx' & Vx & St)|(G & H21 & E)]; rewrite E; cbn [bind];
    [|exfalso; specialize (Cm G x k (iv_st _ _ _ V) Dx Ek ltac:(lia)); lia]);
  pose proof (step_lower (vval v) (vval x) ls k' b (in_pos _ _ I) (unit_pos (vval x) k ls Ek ltac:(lia)) St ltac:(lia) Lo) as L';
  (destruct (cmp_common_spec c x' x) as (s & Ec & Hc);
    try apply (iv_st _ _ _ V); try apply (iv_st _ _ _ V'); try (apply semi_nze, stripped_semi; [apply V' || apply V]));
  rewrite Ec; cbn [bind].
  - assert (k = b) by lia. subst k.
    pose proof (square_near (vval v) (vval x) ls b k' b (in_pos _ _ I) Sq Hb ltac:(lia) Ek St) as K'. subst k'.
    destruct Hc as [[-> He]|[[-> He]|[-> He]]]; cbn [Z.eqb].
    + exists x'. split; [reflexivity|]. split; [apply V'|]. split; [exact Dx'|exact Vx].
    + rewrite Vx, Ek in He. now apply Qlt_irrefl in He.
    + rewrite Vx, Ek in He. now apply Qlt_irrefl in He.
  - assert (Hk' : (Z.to_nat (k' - b) <= d)%nat).
    { destruct (Z_le_gt_dec k (b + 1)) as [G|G].
      - rewrite (square_near (vval v) (vval x) ls k k' b (in_pos _ _ I) Sq Hb ltac:(lia) Ek St). lia.
      - pose proof (square_down (vval v) (vval x) ls k k' b (in_pos _ _ I) Sq Hb ltac:(lia) Ek St). lia. }
    assert (Kk : k' = k -> k = b).
    { intro Hkk. destruct (Z_le_gt_dec k (b + 1)) as [G|G].
      - rewrite <- Hkk. apply (square_near (vval v) (vval x) ls k k' b (in_pos _ _ I) Sq Hb ltac:(lia) Ek St).
      - pose proof (square_down (vval v) (vval x) ls k k' b (in_pos _ _ I) Sq Hb ltac:(lia) Ek St). lia. }
    assert (Km : k' <= m).
    { destruct (Z_le_gt_dec k (b + 1)) as [G|G].
      - rewrite (square_near (vval v) (vval x) ls k k' b (in_pos _ _ I) Sq Hb ltac:(lia) Ek St). lia.
      - pose proof (square_down (vval v) (vval x) ls k k' b (in_pos _ _ I) Sq Hb ltac:(lia) Ek St). lia. }
    destruct Hc as [[-> He]|[[-> He]|[-> He]]]; cbn [Z.eqb].
    + exists x'. split; [reflexivity|]. split; [apply V'|]. split; [exact Dx'|].
      apply (proj1 (unit_inj _ _ _ _ _ Vx Ek)) in He. rewrite Vx. rewrite He. now rewrite (Kk He).
    + apply (IH x' k' Hk' V' Dx' Vx); lia.
    + apply (IH x' k' Hk' V' Dx' Vx); lia.
Qed.

(** ** The first step *)
Definition top (v : var) : Z := Z.max (Z.quot (weight v) 2) (weight v - Z.quot (weight v) 2).
Definition cap (v : var) (ls : Z) : Z := 10 ^ (4 * top v + 4 + ls) - 1.

Lemma guess_form v ls : input v ls -> exists d, 1 <= d <= 5000 /\ sqrt_guess v = Ret (Var (Z.quot (weight v) 2) 0 SPos [d]).
Proof.
  intro I. unfold sqrt_guess. destruct (digits v) as [|d t] eqn:E; [exfalso; now apply (in_nz _ _ I)|].
  change (index (d :: t) 0) with (Ret d). cbn [bind]. eexists. split; [|reflexivity].
  pose proof (sm_digits _ (in_st _ _ I)) as F. rewrite E in F. apply Forall_inv in F. unfold dig in *.
  rewrite Z.quot_div_nonneg by lia. pose proof (Z.div_mod d 2 ltac:(lia)). pose proof (Z.mod_pos_bound d 2 ltac:(lia)).
  destruct (Z.eqb_spec (d / 2) 0); lia.
Qed.

Lemma guess_value q d : (vval (Var q 0 SPos [d]) == dec d (4 * q))%Q.
Proof.
  unfold vval, smag, mag, lsd. cbn [sgz sign digits dval weight]. change (10000 ^ lenz []) with 1.
  change (ndigits (Var q 0 SPos [d])) with 1. replace (1 * (d * 1 + 0)) with d by ring.
  now replace (4 * (q + 1 - 1)) with (4 * q) by ring.
Qed.

Lemma first_upper v ls d k : input v ls -> 0 <= 4 * top v + ls -> 1 <= d <= 5000 ->
  step (vval v) (vval (Var (Z.quot (weight v) 2) 0 SPos [d])) ls k -> k <= cap v ls.
Proof.
  intros I T Hd St. set (q := Z.quot (weight v) 2) in *. set (g := vval (Var q 0 SPos [d])) in *.
  assert (Eg : (g == inject_Z d * p10 (4 * q))%Q) by (unfold g; rewrite guess_value; reflexivity).
  assert (Gp : (0 < g)%Q).
  { rewrite Eg. apply Qmult_lt_0_compat; [|apply p10_pos]. change 0%Q with (inject_Z 0). rewrite <- Zlt_Qlt. lia. }
  destruct St as (s & S1 & S2). apply Qabs_Qle_condition in S1. apply Qabs_Qle_condition in S2.
  destruct (semi_range v (in_st _ _ I) (in_nz _ _ I)) as [_ Ub].
  rewrite Qabs_pos in Ub by (apply Qlt_le_weak, I).
  set (t := p10 (4 * top v + ls)).
  assert (T1 : (1 <= t)%Q) by (unfold t; rewrite <- p10_0; apply p10_le; lia).
  assert (U1 : (g * p10 ls <= 5000 * t)%Q).
  { rewrite Eg. setoid_replace (inject_Z d * p10 (4 * q) * p10 ls)%Q with (inject_Z d * (p10 (4 * q) * p10 ls))%Q by ring.
    rewrite <- p10_add. apply (Qle_trans _ (5000 * p10 (4 * q + ls))).
    - apply Qmult_le_compat_r; [change 5000%Q with (inject_Z 5000); rewrite <- Zle_Qle; lia|apply Qlt_le_weak, p10_pos].
    - rewrite !(Qmult_comm 5000). apply Qmult_le_compat_r; [|discriminate]. unfold t. apply p10_le. unfold top. fold q. lia. }
  assert (U2 : (vval v / g * p10 ls <= 10000 * t)%Q).
  { apply (Qle_trans _ (p10 (4 * (weight v + 1)) / p10 (4 * q) * p10 ls)).
    - apply Qmult_le_compat_r; [|apply Qlt_le_weak, p10_pos].
      apply Qle_shift_div_r; [exact Gp|].
      apply (Qle_trans _ (p10 (4 * (weight v + 1)))); [lra|].
      assert (Gq : (p10 (4 * q) <= g)%Q).
      { rewrite Eg. rewrite <- (Qmult_1_l (p10 (4 * q))) at 1. apply Qmult_le_compat_r; [|apply Qlt_le_weak, p10_pos].
        change 1%Q with (inject_Z 1). rewrite <- Zle_Qle. lia. }
      setoid_replace (p10 (4 * (weight v + 1)) / p10 (4 * q) * g)%Q
        with (g * (p10 (4 * (weight v + 1)) / p10 (4 * q)))%Q by ring.
      apply (Qle_trans _ (p10 (4 * q) * (p10 (4 * (weight v + 1)) / p10 (4 * q)))).
      + apply Qle_lteq. right. field. apply p10_nz.
      + apply Qmult_le_compat_r; [exact Gq|]. unfold Qdiv. apply Qmult_le_0_compat; [apply Qlt_le_weak, p10_pos|].
        apply Qlt_le_weak, Qinv_lt_0_compat, p10_pos.
    - assert (Ed : (p10 (4 * (weight v + 1)) / p10 (4 * q) == p10 (4 * (weight v + 1) - 4 * q))%Q).
      { replace (4 * (weight v + 1)) with (4 * (weight v + 1) - 4 * q + 4 * q) at 1 by ring. rewrite p10_add.
        field. apply p10_nz. }
      rewrite Ed, <- p10_add. replace (10000 * t)%Q with (p10 4 * p10 (4 * top v + ls))%Q by reflexivity.
      rewrite <- p10_add. apply p10_le. unfold top. fold q. lia. }
  assert (K : (inject_Z k <= 10000 * t - 1)%Q) by (unfold tiny in S1; lra).
  apply Zq_le. unfold cap. unfold Z.sub. rewrite inject_Z_plus. change (inject_Z (-1)) with (-1)%Q.
  rewrite <- p10_Z by lia. replace (4 * top v + 4 + ls) with (4 + (4 * top v + ls)) by ring. rewrite p10_add.
  change (p10 4) with 10000%Q. exact K.
Qed.

(** the integer part of the root, in units *)
Lemma int_root A : (1 <= A)%Q -> exists b, 1 <= b /\ (inject_Z b * inject_Z b <= A)%Q /\ (A < inject_Z (b + 1) * inject_Z (b + 1))%Q.
Proof.
  intro H. assert (F1 : 1 <= Qfloor A).
  { change 1 with (Qfloor 1). now apply Qfloor_resp_le. }
  exists (Z.sqrt (Qfloor A)). pose proof (Z.sqrt_spec (Qfloor A) ltac:(lia)) as [S1 S2].
  assert (1 <= Z.sqrt (Qfloor A)) by (change 1 with (Z.sqrt 1); now apply Z.sqrt_le_mono).
  split; [assumption|]. split.
  - rewrite <- inject_Z_mult. eapply Qle_trans; [|apply Qfloor_le]. now rewrite <- Zle_Qle.
  - rewrite <- inject_Z_mult. eapply Qlt_le_trans; [apply Qlt_floor|]. rewrite <- Zle_Qle. lia.
Qed.

Lemma root_below_cap v ls b : input v ls -> 0 <= 4 * top v + ls -> 1 <= b ->
  (inject_Z b * inject_Z b <= vval v * p10 ls * p10 ls)%Q -> b + 5 <= cap v ls.
Proof.
  intros I T Hb Lo. destruct (semi_range v (in_st _ _ I) (in_nz _ _ I)) as [_ Ub].
  rewrite Qabs_pos in Ub by (apply Qlt_le_weak, I).
  set (e := 4 * top v + ls) in *.
  assert (U : (vval v * p10 ls * p10 ls < p10 (e + 2) * p10 (e + 2))%Q).
  { rewrite <- p10_add. eapply Qlt_le_trans.
    - apply Qmult_lt_compat_r; [apply p10_pos|]. apply Qmult_lt_compat_r; [apply p10_pos|exact Ub].
    - rewrite <- !p10_add. apply p10_le. unfold e, top. lia. }
  assert (Bz : b < 10 ^ (e + 2)).
  { apply Zq_lt. rewrite <- p10_Z by lia. destruct (Qlt_le_dec (inject_Z b) (p10 (e + 2))) as [G|G]; [exact G|exfalso].
    pose proof (Qsq_mono _ _ (Qlt_le_weak _ _ (p10_pos (e + 2))) G) as S. lra. }
  unfold cap. replace (4 * top v + 4 + ls) with (2 + (e + 2)) by (unfold e; ring).
  rewrite Z.pow_add_r by lia. change (10 ^ 2) with 100.
  assert (1 <= 10 ^ e) by (change 1 with (10 ^ 0); apply Z.pow_le_mono_r; lia).
  assert (10 ^ (e + 2) = 100 * 10 ^ e) by (rewrite Z.add_comm, Z.pow_add_r by lia; reflexivity). lia.
Qed.

Lemma calm_small c v ls : 0 <= ls -> top v + 1 + Z.quot (ls + 3) 4 <= 21 -> calm c ls (cap v ls).
Proof.
  intros L H _ x k T D E K. pose proof (unit_pos _ _ _ E ltac:(lia)) as P.
  assert (N : digits x <> []) by (intro Z; rewrite (vval_empty x Z) in P; now apply Qlt_irrefl in P).
  assert (M : mult (vval x) ls) by (exists k; rewrite E; apply unit_scale).
  pose proof (frac_lsd x ls T N M) as F. unfold lsd in F.
  destruct (stripped_range x T N) as [Lb _]. rewrite Qabs_pos in Lb by lra.
  assert (W : weight x <= top v).
  { destruct (Z_le_gt_dec (weight x) (top v)) as [G|G]; [exact G|exfalso].
    assert (C : (p10 (4 * (top v + 1)) <= inject_Z k * p10 (- ls))%Q).
    { rewrite <- E. eapply Qle_trans; [|exact Lb]. apply p10_le. lia. }
    assert (C' : (p10 (4 * top v + 4 + ls) <= inject_Z k)%Q).
    { replace (4 * top v + 4 + ls) with (4 * (top v + 1) + ls) by ring. rewrite p10_add, <- (unit_scale k ls).
      apply Qmult_le_compat_r; [exact C|apply Qlt_le_weak, p10_pos]. }
    unfold cap in K.
    destruct (Z_le_gt_dec 0 (4 * top v + 4 + ls)) as [G0|G0].
    - rewrite p10_Z in C' by exact G0. apply Zq_le in C'. lia.
    - assert (10 ^ (4 * top v + 4 + ls) = 0) by (apply Z.pow_neg_r; lia). lia. }
  rewrite Z.quot_div_nonneg in H by lia. pose proof (Z.div_mod (ls + 3) 4 ltac:(lia)).
  pose proof (Z.mod_pos_bound (ls + 3) 4 ltac:(lia)). lia.
Qed.

Lemma calm_release c ls m : dbg c = false -> calm c ls m.
Proof. intros H G. congruence. Qed.

(** ** From the guess *)
Lemma loop_from_guess c v ls : input v ls -> -4096 <= weight v ->
  exists d x k, 1 <= d <= 5000 /\
    let g := Var (Z.quot (weight v) 2) 0 SPos [d] in
    sqrt_guess v = Ret g /\ (0 < vval g)%Q /\
    inv v ls x /\ dscale x = ls /\ (vval x == inject_Z k * p10 (- ls))%Q /\ step (vval v) (vval g) ls k /\
    ((vval x == vval g)%Q /\ (forall f, sqrt_loop c (S f) v g g ls = Ret x) \/
     (forall f, sqrt_loop c (S f) v g g ls = sqrt_loop c f v x x ls)).
Proof.
  intros I W. destruct (guess_form v ls I) as (d & Hd & Eg). destruct (sqrt_guess_ok v ls I W) as (g & Eg' & V & N).
  assert (Hg : g = Var (Z.quot (weight v) 2) 0 SPos [d]) by congruence.
  destruct (newton_inv c v ls g I V N) as [(x & k & E & V' & Dx & Vx & St)|(_ & H & _)].
  2:{ subst g. change (ndigits (Var (Z.quot (weight v) 2) 0 SPos [d])) with 1 in H. lia. }
  exists d, x, k. split; [exact Hd|]. cbv zeta. rewrite <- Hg.
  split; [exact Eg'|]. split; [apply stripped_pos; [apply V|exact N|apply V]|].
  split; [exact V'|]. split; [exact Dx|]. split; [exact Vx|]. split; [exact St|].
  destruct (cmp_common_spec c x g) as (s & Ec & Hc);
    try apply (iv_st _ _ _ V); try apply (iv_st _ _ _ V'); try (apply semi_nze, stripped_semi; [apply V' || apply V]).
  destruct Hc as [[-> He]|[[-> _]|[-> _]]].
  - left. split; [exact He|]. intro f. rewrite sqrt_loop_S, E. cbn [bind]. rewrite Ec. reflexivity.
  - right. intro f. rewrite sqrt_loop_S, E. cbn [bind]. rewrite Ec. reflexivity.
  - right. intro f. rewrite sqrt_loop_S, E. cbn [bind]. rewrite Ec. reflexivity.
Qed.

(** With no panic possible, a call returns the root or runs on. *)
Theorem num_sqrt_calm c fuel v : let s := sqrt_rscale v in canon v ->
  (0 < vval v)%Q -> (1 <= vval v * p10 (s + 8) * p10 (s + 8))%Q -> 0 <= 4 * top v + (s + 8) ->
  calm c (s + 8) (cap v (s + 8)) ->
  let r := num_sqrt c fuel (layout (be_varlen c) (to_number v)) in
  r = Diverge \/
  (exists x q, r = Ret x /\ stores (be_varlen c) x q s /\ close_root (vval v) q (root_error s)).
Proof.
  intros s C P A1 Tp Cm. cbv zeta. destruct (canon_input v C P) as [I W]. fold s in I.
  destruct (num_sqrt_unfold c fuel v C P) as (g0 & Eg0 & ->). fold s.
  destruct (loop_from_guess c v (s + 8) I W) as (d & x & k & Hd & Eg & Gp & V & Dx & Vx & St & Lp).
  assert (g0 = Var (Z.quot (weight v) 2) 0 SPos [d]) by congruence. subst g0.
  destruct (int_root _ A1) as (b & Hb & Lo & Hi).
  pose proof (root_below_cap v (s + 8) b I Tp Hb Lo) as Bc.
  pose proof (first_upper v (s + 8) d k I Tp Hd St) as Kc.
  pose proof (step_lower _ _ _ _ b (in_pos _ _ I) Gp St ltac:(lia) Lo) as Lk.
  destruct fuel as [|f]; [now left|]. destruct Lp as [[He Lp]|Lp]; rewrite Lp.
  - right. apply (finish_root c v x k); auto; [apply V|]. apply (step_fix (vval v) (vval (Var (Z.quot (weight v) 2) 0 SPos [d])) (s + 8) k); auto. now rewrite <- He.
  - destruct (loop_calm c v (s + 8) b (cap v (s + 8)) I Hb Bc Lo Hi Cm f x k V Dx Vx ltac:(lia)) as [->|(x' & k' & -> & T' & D' & V' & G')].
    + now left.
    + right. now apply (finish_root c v x' k').
Qed.

Lemma round_at_mult q s : mult q s -> (round_at q s == q)%Q.
Proof.
  intros [j H]. unfold round_at. change (ten ^ s)%Q with (p10 s). rewrite (round_int_comp _ (inject_Z j) H), round_int_Z. rewrite <- H.
  change (ten ^ s)%Q with (p10 s). change (ten ^ (- s))%Q with (p10 (- s)).
  setoid_replace (q * p10 s * p10 (- s))%Q with (q * (p10 s * p10 (- s)))%Q by ring. rewrite p10_opp. ring.
Qed.

(** Perfect squares: the call returns, exactly. *)
Theorem num_sqrt_square c v b : let s := sqrt_rscale v in canon v ->
  (0 < b)%Q -> (vval v == b * b)%Q -> mult b s -> 0 <= 4 * top v + (s + 8) -> calm c (s + 8) (cap v (s + 8)) ->
  exists n, forall fuel, (n <= fuel)%nat ->
  exists x, num_sqrt c fuel (layout (be_varlen c) (to_number v)) = Ret x /\ stores (be_varlen c) x b s.
Proof.
  intros s C B0 Sq [j Hj] Tp Cm.
  assert (P : (0 < vval v)%Q) by (rewrite Sq; now apply Qmult_lt_0_compat).
  destruct (canon_input v C P) as [I W]. fold s in I.
  assert (S8 : 0 <= s <= 1000).
  { unfold s. pose proof (root_scale_range (to_number v) ltac:(cbn; apply C)) as R.
    rewrite <- root_scale_eq in R by apply C. exact R. }
  assert (J1 : 1 <= j).
  { assert (0 < j); [|lia]. apply Zq_lt. rewrite <- Hj. apply Qmult_lt_0_compat; [exact B0|apply p10_pos]. }
  set (r := 100000000 * j).
  assert (Hr : (b * p10 (s + 8) == inject_Z r)%Q).
  { rewrite p10_8, Qmult_assoc, Hj. unfold r. rewrite inject_Z_mult. change (inject_Z 100000000) with (100000000 # 1)%Q. ring. }
  assert (Hb : (b == inject_Z r * p10 (- (s + 8)))%Q).
  { rewrite <- Hr. setoid_replace (b * p10 (s + 8) * p10 (- (s + 8)))%Q with (b * (p10 (s + 8) * p10 (- (s + 8))))%Q by ring.
    rewrite p10_opp. ring. }
  assert (A : (vval v * p10 (s + 8) * p10 (s + 8) == inject_Z r * inject_Z r)%Q).
  { rewrite Sq, <- Hr. ring. }
  assert (Lo : (inject_Z r * inject_Z r <= vval v * p10 (s + 8) * p10 (s + 8))%Q) by (rewrite A; apply Qle_refl).
  destruct (loop_from_guess c v (s + 8) I W) as (d & x & k & Hd & Eg & Gp & V & Dx & Vx & St & Lp).
  pose proof (root_below_cap v (s + 8) r I Tp ltac:(unfold r; lia) Lo) as Bc.
  pose proof (first_upper v (s + 8) d k I Tp Hd St) as Kc.
  pose proof (step_lower _ _ _ _ r (in_pos _ _ I) Gp St ltac:(unfold r; lia) Lo) as Lk.
  assert (Fin : forall x', stripped x' -> (vval x' == inject_Z r * p10 (- (s + 8)))%Q ->
            exists y, finish c s (Ret x') = Ret y /\ stores (be_varlen c) y b s).
  { intros x' T' V'. assert (G : good_root (vval v) (s + 8) r).
    { split; [unfold r; lia|]. rewrite A.
      setoid_replace (inject_Z r * inject_Z r - inject_Z r * inject_Z r)%Q with 0%Q by ring.
      change (Qabs 0) with 0%Q. apply Qmult_le_0_compat; [discriminate|]. change 0%Q with (inject_Z 0).
      rewrite <- Zle_Qle. unfold r. lia. }
    assert (Wx : weight x' <= 16400).
    { apply (root_weight (vval v) x' (s + 8) r); auto; [|lia].
      apply (below_p10 (be_varlen c) (layout (be_varlen c) (to_number v)) _ (dscale v)). now apply stores_intro. }
    destruct (finish_ok c s x' r S8 T' Wx V') as (y & E & Sy). exists y. split; [exact E|].
    apply (stores_ext _ _ (round_at (inject_Z r * p10 (- (s + 8))) s)); [|exact Sy].
    rewrite (round_at_comp _ b s (Qeq_sym _ _ Hb)). apply round_at_mult. now exists j. }
  exists (S (Z.to_nat (k - r) + 2)). intros fuel Hf. destruct fuel as [|f]; [lia|].
  destruct (num_sqrt_unfold c (S f) v C P) as (g0 & Eg0 & ->). fold s.
  assert (g0 = Var (Z.quot (weight v) 2) 0 SPos [d]) by congruence. subst g0.
  destruct Lp as [[He Lp]|Lp]; rewrite Lp.
  - apply Fin; [apply V|]. rewrite Vx. apply Qmult_comp; [|reflexivity].
    enough (k = r) as -> by reflexivity.
    assert (Ek : (vval (Var (Z.quot (weight v) 2) 0 SPos [d]) == inject_Z k * p10 (- (s + 8)))%Q) by now rewrite <- He.
    destruct (Z_le_gt_dec k (r + 1)) as [G|G].
    + apply (square_near (vval v) _ (s + 8) k k r P A ltac:(unfold r; lia) ltac:(lia) Ek St).
    + pose proof (square_down (vval v) _ (s + 8) k k r P A ltac:(unfold r; lia) ltac:(lia) Ek St). lia.
  - destruct (square_loop c v (s + 8) r (cap v (s + 8)) I ltac:(unfold r; lia) Bc A Cm (Z.to_nat (k - r)) x k
      (le_n _) V Dx Vx ltac:(lia) f ltac:(lia)) as (x' & -> & T' & D' & V').
    now apply Fin.
Qed.

(** A returned root of a perfect square is exact. *)
Lemma close_square b r s : (0 < b)%Q -> mult b s -> mult r s -> close_root (b * b) r (root_error s) -> (r == b)%Q.
Proof.
  intros B0 [j Hj] [i Hi] (R0 & U & L). pose proof (p10_pos s) as Pp. pose proof (p10_pos (- s)) as Pm.
  pose proof (p10_opp s) as O.
  assert (Eb : (b == inject_Z j * p10 (- s))%Q).
  { rewrite <- Hj. setoid_replace (b * p10 s * p10 (- s))%Q with (b * (p10 s * p10 (- s)))%Q by ring. rewrite O. ring. }
  assert (Er : (r == inject_Z i * p10 (- s))%Q).
  { rewrite <- Hi. setoid_replace (r * p10 s * p10 (- s))%Q with (r * (p10 s * p10 (- s)))%Q by ring. rewrite O. ring. }
  set (h := root_error s) in *. assert (Eh : (h == ((1 # 2) + (2 # 100000000)) * p10 (- s))%Q) by reflexivity.
  assert (Hh : (0 < h)%Q) by (rewrite Eh; apply Qmult_lt_0_compat; [reflexivity|exact Pm]).
  assert (L1 : (b <= r + h)%Q).
  { destruct (Qlt_le_dec (r + h) b) as [G|G]; [exfalso|exact G].
    assert ((r + h) * (r + h) < b * b)%Q; [|lra].
    apply (Qle_lt_trans _ ((r + h) * b)).
    - rewrite (Qmult_comm (r + h) b). apply Qmult_le_compat_r; lra.
    - apply Qmult_lt_compat_r; lra. }
  assert (L2 : (r - h <= b)%Q).
  { destruct (Qlt_le_dec b (r - h)) as [G|G]; [exfalso|exact G]. specialize (L ltac:(lra)).
    assert (b * b < (r - h) * (r - h))%Q; [|lra].
    apply (Qle_lt_trans _ (b * (r - h))).
    - rewrite (Qmult_comm b (r - h)). apply Qmult_le_compat_r; lra.
    - apply Qmult_lt_compat_r; lra. }
  enough (i = j) as Eij by (rewrite Er, Eb, Eij; reflexivity).
  set (w := p10 (- s)) in *.
  assert (M1 : (inject_Z j * w < (inject_Z i + 1) * w)%Q) by lra.
  assert (M2 : (inject_Z i * w < (inject_Z j + 1) * w)%Q) by lra.
  apply (proj1 (Qmult_lt_r _ _ w Pm)) in M1. apply (proj1 (Qmult_lt_r _ _ w Pm)) in M2.
  change 1%Q with (inject_Z 1) in M1, M2. rewrite <- inject_Z_plus in M1, M2. apply Zq_lt in M1, M2. lia.
Qed.

(** ** Statements about stored numbers *)
Lemma quot2 w : 0 <= w /\ 2 * Z.quot w 2 <= w <= 2 * Z.quot w 2 + 1 \/ w < 0 /\ w <= 2 * Z.quot w 2 <= w + 1.
Proof.
  destruct (Z_le_gt_dec 0 w) as [G|G].
  - left. rewrite Z.quot_div_nonneg by lia. pose proof (Z.div_mod w 2 ltac:(lia)). pose proof (Z.mod_pos_bound w 2 ltac:(lia)). lia.
  - right. replace w with (- (- w)) by lia. rewrite Z.quot_opp_l by lia. rewrite Z.quot_div_nonneg by lia.
    pose proof (Z.div_mod (- w) 2 ltac:(lia)). pose proof (Z.mod_pos_bound (- w) 2 ltac:(lia)). lia.
Qed.

Lemma rscale_form v : canon v -> sqrt_rscale v = Z.min 1000 (Z.max (dscale v) (15 - 2 * weight v)).
Proof. intro C. rewrite root_scale_eq by apply C. reflexivity. Qed.

(** magnitudes from which the guard digits suffice *)
Lemma not_too_small v : canon v -> (p10 (-2016) <= vval v)%Q ->
  (1 <= vval v * p10 (sqrt_rscale v + 8) * p10 (sqrt_rscale v + 8))%Q /\ 0 <= 4 * top v + (sqrt_rscale v + 8).
Proof.
  intros C L. assert (P : (0 < vval v)%Q) by (eapply Qlt_le_trans; [apply p10_pos|exact L]).
  assert (N : digits v <> []) by (intro E; rewrite (vval_empty v E) in P; now apply Qlt_irrefl in P).
  destruct (stripped_range v (cn_st v C) N) as [Lb Ub]. rewrite Qabs_pos in Lb, Ub by lra.
  assert (W : -505 < weight v).
  { pose proof (Qle_lt_trans _ _ _ L Ub) as H. apply (proj1 (p10_lt_iff _ _)) in H. lia. }
  pose proof (rscale_form v C) as F. set (s := sqrt_rscale v) in *. pose proof (cn_scale v C).
  pose proof (quot2 (weight v)) as Q2. split.
  - destruct (Z_le_gt_dec 1000 s) as [G|G].
    + apply (Qle_trans _ (p10 (-2016) * p10 (s + 8) * p10 (s + 8))).
      * rewrite <- !p10_add, <- p10_0. apply p10_le. lia.
      * apply Qmult_le_compat_r; [|apply Qlt_le_weak, p10_pos]. apply Qmult_le_compat_r; [exact L|apply Qlt_le_weak, p10_pos].
    + apply (Qle_trans _ (p10 (4 * weight v) * p10 (s + 8) * p10 (s + 8))).
      * rewrite <- !p10_add, <- p10_0. apply p10_le. lia.
      * apply Qmult_le_compat_r; [|apply Qlt_le_weak, p10_pos]. apply Qmult_le_compat_r; [exact Lb|apply Qlt_le_weak, p10_pos].
  - unfold top. lia.
Qed.

Definition no_overflow (c : cfg) (n : number) : Prop :=
  dbg c = false \/ ((value n < ten ^ 32)%Q /\ scale n <= 56).

Lemma calm_number c v : canon v -> (0 < vval v)%Q -> no_overflow c (to_number v) ->
  calm c (sqrt_rscale v + 8) (cap v (sqrt_rscale v + 8)).
Proof.
  intros C P [H|[H1 H2]]; [now apply calm_release|].
  rewrite value_vval in H1 by apply (canon_nan v C). cbn [scale to_number] in H2. change (ten ^ 32)%Q with (p10 32) in H1.
  assert (N : digits v <> []) by (intro E; rewrite (vval_empty v E) in P; now apply Qlt_irrefl in P).
  destruct (stripped_range v (cn_st v C) N) as [Lb Ub]. rewrite Qabs_pos in Lb, Ub by lra.
  pose proof (Qle_lt_trans _ _ _ Lb H1) as W1. apply (proj1 (p10_lt_iff _ _)) in W1.
  assert (W2 : -15 < weight v).
  { assert (M : (p10 (- dscale v) <= vval v)%Q).
    { rewrite <- (Qabs_pos (vval v)) by lra. apply mult_lb; [now apply canon_mult|]. intro E. rewrite E in P. now apply Qlt_irrefl in P. }
    pose proof (Qle_lt_trans _ _ _ M Ub) as H. apply (proj1 (p10_lt_iff _ _)) in H. lia. }
  pose proof (rscale_form v C) as F. pose proof (cn_scale v C) as Sc. set (s := sqrt_rscale v) in *.
  apply calm_small; [lia|]. pose proof (quot2 (weight v)) as Q2.
  rewrite (Z.quot_div_nonneg (s + 8 + 3)) by lia. pose proof (Z.div_mod (s + 8 + 3) 4 ltac:(lia)).
  pose proof (Z.mod_pos_bound (s + 8 + 3) 4 ltac:(lia)). unfold top. lia.
Qed.

Lemma close_root_comp a a' r h : (a == a')%Q -> close_root a r h -> close_root a' r h.
Proof. intros E (A & B & D). unfold close_root. rewrite <- E. auto. Qed.

Lemma number_var n : canonical n -> exists v, canon v /\ n = to_number v /\ (value n == vval v)%Q.
Proof.
  intro C. exists (of_number n). split; [now apply canonical_canon|]. split; [now rewrite to_of_number|].
  symmetry. apply vval_of_number.
Qed.

Theorem sqrt_accurate c fuel n r : canonical n -> (0 < value n)%Q ->
  num_sqrt c fuel (layout (be_varlen c) n) = Ret r ->
  exists q, stores (be_varlen c) r q (root_scale n) /\ close_root (value n) q (root_error (root_scale n)).
Proof.
  intros C P H. destruct (number_var n C) as (v & Cv & -> & V). rewrite V in P.
  rewrite <- (root_scale_eq v) by apply Cv.
  destruct (num_sqrt_outcomes c fuel v Cv P) as [E|[[E _]|[[E _]|(x & q & E & S & K)]]];
    pose proof (eq_trans (eq_sym H) E) as E'; try discriminate. injection E' as <-. exists q. split; [exact S|].
  apply (close_root_comp (vval v)); [now symmetry|exact K].
Qed.

Theorem sqrt_no_panic c fuel n : canonical n -> (ten ^ (-2016) <= value n)%Q -> no_overflow c n ->
  num_sqrt c fuel (layout (be_varlen c) n) = Diverge \/ exists r, num_sqrt c fuel (layout (be_varlen c) n) = Ret r.
Proof.
  intros C P N. destruct (number_var n C) as (v & Cv & -> & V). rewrite V in P.
  assert (P0 : (0 < vval v)%Q) by (eapply Qlt_le_trans; [apply (p10_pos (-2016))|exact P]).
  destruct (not_too_small v Cv P) as [A1 A2].
  destruct (num_sqrt_calm c fuel v Cv P0 A1 A2 (calm_number c v Cv P0 N)) as [E|(x & q & E & _)]; [now left|].
  right. now exists x.
Qed.

(** in a release build the only panic is the one on tiny operands *)
Theorem sqrt_release_outcomes be fuel n : canonical n -> (0 < value n)%Q ->
  let o := num_sqrt (Cfg false be) fuel (layout be n) in
  o = Diverge \/ (exists r, o = Ret r) \/ (o = Panic (WMsg MShouldNotBeZero) /\ (value n < ten ^ (-2016))%Q).
Proof.
  intros C P. cbv zeta. destruct (Qlt_le_dec (value n) (ten ^ (-2016))) as [G|G].
  - destruct (number_var n C) as (v & Cv & -> & V). rewrite V in P.
    destruct (num_sqrt_outcomes (Cfg false be) fuel v Cv P) as [E|[[E _]|[[E D]|(x & q & E & _)]]].
    + now left.
    + right. right. split; [exact E|exact G].
    + discriminate D.
    + right. left. now exists x.
  - destruct (sqrt_no_panic (Cfg false be) fuel n C G) as [E|E]; [now left|now left|right; now left].
Qed.

Theorem sqrt_square c n b : canonical n -> (0 < b)%Q -> (value n == b * b)%Q ->
  (exists k : Z, (b * ten ^ root_scale n == inject_Z k)%Q) -> no_overflow c n ->
  exists k, forall fuel, (k <= fuel)%nat ->
  exists r, num_sqrt c fuel (layout (be_varlen c) n) = Ret r /\ stores (be_varlen c) r b (root_scale n).
Proof.
  intros C B0 Sq M N. destruct (number_var n C) as (v & Cv & -> & V). rewrite V in Sq.
  rewrite <- (root_scale_eq v) in * by apply Cv.
  assert (P0 : (0 < vval v)%Q) by (rewrite Sq; now apply Qmult_lt_0_compat).
  assert (R : sqrt_rscale v <= 1000).
  { rewrite (rscale_form v Cv). lia. }
  assert (P : (p10 (-2016) <= vval v)%Q).
  { assert (L : (p10 (- sqrt_rscale v) <= b)%Q).
    { rewrite <- (Qabs_pos b) by lra. apply (mult_lb b (sqrt_rscale v) M). intro E. rewrite E in B0. now apply Qlt_irrefl in B0. }
    rewrite Sq. apply (Qle_trans _ (p10 (- sqrt_rscale v) * p10 (- sqrt_rscale v))).
    - rewrite <- p10_add. apply p10_le. lia.
    - apply Qsq_mono; [apply Qlt_le_weak, p10_pos|exact L]. }
  destruct (not_too_small v Cv P) as [A1 A2].
  exact (num_sqrt_square c v b Cv B0 Sq M A2 (calm_number c v Cv P0 N)).
Qed.

Theorem sqrt_square_exact c fuel n b r : canonical n -> (0 < b)%Q -> (value n == b * b)%Q ->
  (exists k : Z, (b * ten ^ root_scale n == inject_Z k)%Q) ->
  num_sqrt c fuel (layout (be_varlen c) n) = Ret r -> stores (be_varlen c) r b (root_scale n).
Proof.
  intros C B0 Sq M H. assert (P : (0 < value n)%Q) by (rewrite Sq; now apply Qmult_lt_0_compat).
  destruct (sqrt_accurate c fuel n r C P H) as (q & S & K).
  apply (stores_ext _ _ q); [|exact S]. apply (close_square b q (root_scale n) B0 M).
  - apply (stores_bound _ _ _ _ S).
  - now apply (close_root_comp (value n)).
Qed.

Theorem sqrt_special c fuel :
  num_sqrt c fuel (nan_layout (be_varlen c)) = Ret (nan_layout (be_varlen c)) /\
  (forall n, canonical n -> (value n < 0)%Q -> num_sqrt c fuel (layout (be_varlen c) n) = Panic (WMsg MSqrtNeg)) /\
  (forall n, canonical n -> (value n == 0)%Q ->
     exists r, num_sqrt c fuel (layout (be_varlen c) n) = Ret r /\ stores (be_varlen c) r 0 (root_scale n)).
Proof.
  split; [apply num_sqrt_nan|]. split.
  - intros n C P. destruct (number_var n C) as (v & Cv & -> & V). rewrite V in P. now apply num_sqrt_neg.
  - intros n C P. destruct (number_var n C) as (v & Cv & -> & V). rewrite V in P.
    rewrite <- (root_scale_eq v) by apply Cv. apply num_sqrt_zero; [exact Cv|]. apply stripped_zero_iff; [apply Cv|exact P].
Qed.

(** ** Enough steps are enough *)
Lemma sqrt_loop_more c v ls : forall f f' r l x, (f <= f')%nat ->
  sqrt_loop c f v r l ls = x -> x <> Diverge -> sqrt_loop c f' v r l ls = x.
Proof.
  induction f as [|f IH]; intros f' r l x Hf E N; [now subst x|].
  destruct f' as [|f']; [lia|]. rewrite sqrt_loop_S in E |- *.
  destruct (newton c v r ls) as [y| | |]; cbn [bind] in *; auto.
  destruct (cmp_common c y l) as [s| | |]; cbn [bind] in *; auto.
  destruct (s =? 0); auto. apply (IH f' y y x); [lia|exact E|exact N].
Qed.

Theorem sqrt_more_fuel c f f' n x : canonical n -> (0 < value n)%Q -> (f <= f')%nat ->
  num_sqrt c f (layout (be_varlen c) n) = x -> x <> Diverge -> num_sqrt c f' (layout (be_varlen c) n) = x.
Proof.
  intros C P Hf E N. destruct (number_var n C) as (v & Cv & -> & V). rewrite V in P.
  destruct (num_sqrt_unfold c f v Cv P) as (g & Eg & E1). destruct (num_sqrt_unfold c f' v Cv P) as (g' & Eg' & E2).
  assert (g' = g) by congruence. subst g'. rewrite E1 in E. rewrite E2.
  destruct (sqrt_loop c f v g g (sqrt_rscale v + 8)) as [y|w| |] eqn:L.
  - rewrite (sqrt_loop_more c v _ f f' g g (Ret y) Hf L ltac:(discriminate)). exact E.
  - rewrite (sqrt_loop_more c v _ f f' g g (Panic w) Hf L ltac:(discriminate)). exact E.
  - rewrite (sqrt_loop_more c v _ f f' g g UB Hf L ltac:(discriminate)). exact E.
  - exfalso. apply N. now rewrite <- E.
Qed.
