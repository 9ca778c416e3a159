(** * SqrtEnd: the Newton loop ends, unless the root lies within 10^-9 units of a quarter. *)
From Coq Require Import ZArith QArith Qround Qpower Qabs List Bool Lia Lqa.
From Verif Require Import Base Var Binary Num Flt Transc Spec SpecRoot QDec Digits Arith Strip Round Trunc AddSub
  Signed Codec Make Api2 DivQ DivFast Mul MulNear Sqrt SqrtApi SqrtConv LnOps SqrtTiny.
Import ListNotations.
Open Scope Z_scope.

(** averaging is exact, ties upwards *)
Definition sharp (A : Q) (k k' : Z) : Prop :=
  exists s : Z, (Qabs (inject_Z s * inject_Z k - A) <= ((1 # 2) + tiny) * inject_Z k)%Q /\ k' = (k + s + 1) / 2.

Lemma half_units n ls : 0 <= n -> (round_at (inject_Z n * p10 (- ls) * (1 # 2)) ls == inject_Z ((n + 1) / 2) * p10 (- ls))%Q.
Proof.
  intro H. unfold round_at. change (ten ^ ls)%Q with (p10 ls). change (ten ^ (- ls))%Q with (p10 (- ls)).
  assert (E : (inject_Z n * p10 (- ls) * (1 # 2) * p10 ls == n # 2)%Q).
  { setoid_replace (inject_Z n * p10 (- ls) * (1 # 2) * p10 ls)%Q with (inject_Z n * (1 # 2) * (p10 ls * p10 (- ls)))%Q by ring.
    rewrite p10_opp, Qmult_1_r. unfold Qeq, inject_Z, Qmult. cbn [Qnum Qden]. lia. }
  rewrite (round_int_comp _ _ E). apply Qmult_comp; [|reflexivity]. rewrite round_int_pos by (unfold Qle; cbn; lia).
  assert (E2 : Qfloor ((n # 2) + (1 # 2)) = (n + 1) / 2).
  { unfold Qfloor, Qplus. cbn [Qnum Qden]. change (Z.pos (2 * 2)) with 4. change (Z.pos 2) with 2.
    replace (n * 2 + 1 * 2) with ((n + 1) * 2) by ring. change 4 with (2 * 2). apply Z.div_mul_cancel_r; lia. }
  rewrite E2. reflexivity.
Qed.

Lemma newton_sharp c v ls x k : input v ls -> inv v ls x -> dscale x = ls ->
  (vval x == inject_Z k * p10 (- ls))%Q -> 0 < k ->
  (exists x' k', newton c v x ls = Ret x' /\ inv v ls x' /\ dscale x' = ls /\
     (vval x' == inject_Z k' * p10 (- ls))%Q /\ step (vval v) (vval x) ls k' /\ sharp (vval v * p10 ls * p10 ls) k k') \/
  (dbg c = true /\ newton c v x ls = Panic WArith).
Proof.
  intros I V Dx Ek K. pose proof (inv_digits _ _ _ _ V Ek K) as N.
  destruct (newton_inv c v ls x I V N) as [(x' & k' & E & V' & Dx' & Vx & St)|(G & H21 & E)]; [left|right; now split].
  exists x', k'. split; [exact E|]. split; [exact V'|]. split; [exact Dx'|]. split; [exact Vx|]. split; [exact St|].
  pose proof (iv_st _ _ _ V) as T. pose proof (in_st _ _ I) as Tv. pose proof (in_nz _ _ I) as Nv. pose proof (in_ls _ _ I) as L.
  assert (Bd : df_bounds v x ls).
  { pose proof (in_len _ _ I). pose proof (in_wt _ _ I). pose proof (iv_wt _ _ _ V N). unfold df_bounds. lia. }
  unfold newton in E.
  destruct (div_fast_semi c v x ls Tv (stripped_semi _ T) Nv N Bd) as [(s & Es & Ts & Ds & R)|(G & H & Es)]; rewrite Es in E; cbn [bind expect] in E; [|discriminate E].
  destruct (nearly_units _ _ _ R) as (ks & Ks & As).
  destruct (add_op c x s (stripped_semi _ T) (stripped_semi _ Ts)) as (t & Et & Tt & Dt & Vt); [lia|lia|]. rewrite Et in E. cbn [bind] in E.
  assert (X0 : (0 < vval x)%Q) by (apply (unit_pos _ k ls Ek K)).
  destruct (step_rel (vval v) (vval x) ls k' (in_pos _ _ I) X0) as (s0 & _ & _ & _); [exact St|]. clear s0.
  assert (Kx : (vval x * p10 ls == inject_Z k)%Q) by (rewrite Ek; apply unit_scale).
  assert (Q0 : (0 < vval v / vval x * p10 ls)%Q).
  { apply Qmult_lt_0_compat; [|apply p10_pos]. unfold Qdiv. apply Qmult_lt_0_compat; [apply I|now apply Qinv_lt_0_compat]. }
  assert (Ks0 : 0 <= ks).
  { apply Qabs_Qle_condition in As. unfold tiny in As. assert (-1 < ks); [|lia]. apply Zq_lt. change (inject_Z (-1)) with (-1)%Q. lra. }
  assert (Vt' : (vval t == inject_Z (k + ks) * p10 (- ls))%Q) by (rewrite Vt, Ek, Ks, inject_Z_plus; ring).
  assert (Nt : digits t <> []).
  { intro Z0. rewrite (vval_empty t Z0) in Vt'. pose proof (unit_pos _ (k + ks) ls Vt' ltac:(lia)) as G. now apply Qlt_irrefl in G. }
  pose proof (proj2 Tt Nt) as St'.
  assert (Mt : mult (vval t) ls) by (exists (k + ks); rewrite Vt'; apply unit_scale).
  pose proof (frac_lsd t ls St' Nt Mt) as F. unfold lsd in F.
  destruct (mul_common_exact c t ZERO_POINT_FIVE ls) as (y & Ey & Ty & Dy & Vy).
  { apply St'. } { repeat constructor; unfold dig; lia. } { apply St'. } { discriminate. }
  { unfold ndigits, lenz. destruct (digits t); [congruence|cbn [length]; lia]. } { cbn. lia. }
  { change (ndigits ZERO_POINT_FIVE) with 1. change (weight ZERO_POINT_FIVE) with (-1).
    rewrite Z.quot_div_nonneg by lia. pose proof (Z.div_mod (ls + 3) 4 ltac:(lia)). pose proof (Z.mod_pos_bound (ls + 3) 4 ltac:(lia)). lia. }
  rewrite Ey in E. injection E as ->. exists ks. split.
  - assert (Xp : (0 < inject_Z k)%Q) by (change 0%Q with (inject_Z 0); now rewrite <- Zlt_Qlt).
    assert (Ea : (vval v / vval x * p10 ls * inject_Z k == vval v * p10 ls * p10 ls)%Q) by (rewrite <- Kx; field; lra).
    rewrite <- Ea. setoid_replace (inject_Z ks * inject_Z k - vval v / vval x * p10 ls * inject_Z k)%Q
      with ((inject_Z ks - vval v / vval x * p10 ls) * inject_Z k)%Q by ring.
    rewrite Qabs_Qmult, (Qabs_pos (inject_Z k)) by lra. apply Qmult_le_compat_r; [exact As|lra].
  - assert (Vy' : (vval x' == inject_Z ((k + ks + 1) / 2) * p10 (- ls))%Q).
    { rewrite Vy, <- (half_units (k + ks) ls) by lia. apply round_at_comp. rewrite vval_half, Vt'. ring. }
    apply (proj1 (unit_inj _ _ _ _ _ Vx Vy')). reflexivity.
Qed.

(** ** The arithmetic of a step *)
Section Step.
Variables (A : Q) (b : Z).
Hypothesis Hb : 1 <= b.
Hypothesis Lo : (inject_Z b * inject_Z b <= A)%Q.
Hypothesis Hi : (A < inject_Z (b + 1) * inject_Z (b + 1))%Q.

Definition low : Prop := (A < inject_Z b * inject_Z b + inject_Z b * (1 # 2) - tiny * inject_Z b)%Q.
Definition high : Prop := (inject_Z b * inject_Z b + inject_Z b * (1 # 2) - (1 # 2) + tiny * inject_Z (b + 1) < A)%Q.

Lemma sharp_s k s : 0 < k -> (Qabs (inject_Z s * inject_Z k - A) <= ((1 # 2) + tiny) * inject_Z k)%Q ->
  (2000000000 * inject_Z (s * k) <= 2000000000 * A + 1000000002 * inject_Z k)%Q /\
  (2000000000 * A <= 2000000000 * inject_Z (s * k) + 1000000002 * inject_Z k)%Q.
Proof using Hb Lo Hi.
  intros K S. apply Qabs_Qle_condition in S. unfold tiny in S. rewrite inject_Z_mult. split; lra.
Qed.

Ltac toZ := rewrite <- ?inject_Z_mult, <- ?inject_Z_plus.

Lemma A_lt : (A < inject_Z ((b + 1) * (b + 1)))%Q.
Proof using Hb Lo Hi. now rewrite inject_Z_mult. Qed.

Lemma far k k' : b + 2 <= k -> sharp A k k' -> 2 * k' <= k + b + 1.
Proof using Hb Lo Hi.
  intros K (s & S & ->). destruct (sharp_s k s ltac:(lia) S) as [S1 _]. pose proof A_lt as H.
  assert (s <= b); [|pose proof (Z.div_mod (k + s + 1) 2 ltac:(lia)); pose proof (Z.mod_pos_bound (k + s + 1) 2 ltac:(lia)); lia].
  destruct (Z_le_gt_dec s b) as [G|G]; [exact G|exfalso].
  assert (M : (b + 1) * k <= s * k) by (apply Z.mul_le_mono_nonneg_r; lia).
  assert (Q : (2000000000 * inject_Z ((b + 1) * k) < 2000000000 * inject_Z ((b + 1) * (b + 1)) + 1000000002 * inject_Z k)%Q).
  { rewrite Zle_Qle in M. lra. }
  change 2000000000%Q with (inject_Z 2000000000) in Q. change 1000000002%Q with (inject_Z 1000000002) in Q.
  rewrite <- !inject_Z_mult, <- inject_Z_plus, <- Zlt_Qlt in Q. nia.
Qed.

Lemma near_up k' : sharp A b k' -> k' <= b + 2.
Proof using Hb Lo Hi.
  intros (s & S & ->). destruct (sharp_s b s ltac:(lia) S) as [S1 _]. pose proof A_lt as H.
  assert (s <= b + 3); [|pose proof (Z.div_mod (b + s + 1) 2 ltac:(lia)); pose proof (Z.mod_pos_bound (b + s + 1) 2 ltac:(lia)); lia].
  destruct (Z_le_gt_dec s (b + 3)) as [G|G]; [exact G|exfalso].
  assert (M : (b + 4) * b <= s * b) by (apply Z.mul_le_mono_nonneg_r; lia).
  assert (Q : (2000000000 * inject_Z ((b + 4) * b) < 2000000000 * inject_Z ((b + 1) * (b + 1)) + 1000000002 * inject_Z b)%Q).
  { rewrite Zle_Qle in M. lra. }
  change 2000000000%Q with (inject_Z 2000000000) in Q. change 1000000002%Q with (inject_Z 1000000002) in Q.
  rewrite <- !inject_Z_mult, <- inject_Z_plus, <- Zlt_Qlt in Q. nia.
Qed.

Lemma next_up k' : sharp A (b + 1) k' -> k' <= b + 1.
Proof using Hb Lo Hi.
  intros (s & S & ->). destruct (sharp_s (b + 1) s ltac:(lia) S) as [S1 _]. pose proof A_lt as H.
  assert (s <= b + 1); [|pose proof (Z.div_mod (b + 1 + s + 1) 2 ltac:(lia)); pose proof (Z.mod_pos_bound (b + 1 + s + 1) 2 ltac:(lia)); lia].
  destruct (Z_le_gt_dec s (b + 1)) as [G|G]; [exact G|exfalso].
  assert (M : (b + 2) * (b + 1) <= s * (b + 1)) by (apply Z.mul_le_mono_nonneg_r; lia).
  assert (Q : (2000000000 * inject_Z ((b + 2) * (b + 1)) < 2000000000 * inject_Z ((b + 1) * (b + 1)) + 1000000002 * inject_Z (b + 1))%Q).
  { rewrite Zle_Qle in M. lra. }
  change 2000000000%Q with (inject_Z 2000000000) in Q. change 1000000002%Q with (inject_Z 1000000002) in Q.
  rewrite <- !inject_Z_mult, <- inject_Z_plus, <- Zlt_Qlt in Q. nia.
Qed.

(** low: the lower neighbour is fixed *)
Lemma low_fix k' : low -> b <= k' -> sharp A b k' -> k' = b.
Proof using Hb Lo Hi.
  intros L B (s & S & ->). apply Qabs_Qle_condition in S. destruct S as [_ S]. unfold low in L.
  assert (s <= b); [|pose proof (Z.div_mod (b + s + 1) 2 ltac:(lia)); pose proof (Z.mod_pos_bound (b + s + 1) 2 ltac:(lia)); lia].
  destruct (Z_le_gt_dec s b) as [G|G]; [exact G|exfalso].
  assert (M : (inject_Z (b + 1) * inject_Z b <= inject_Z s * inject_Z b)%Q).
  { rewrite <- !inject_Z_mult, <- Zle_Qle. apply Z.mul_le_mono_nonneg_r; lia. }
  rewrite inject_Z_plus in M. change (inject_Z 1) with 1%Q in M. unfold tiny in *. lra.
Qed.

(** high: never back to the lower neighbour *)
Lemma high_stays k k' : high -> b + 1 <= k -> sharp A k k' -> b + 1 <= k'.
Proof using Hb Lo Hi.
  intros L B (s & S & ->). apply Qabs_Qle_condition in S. destruct S as [S _]. unfold high in L.
  assert (2 * b + 1 - k <= s); [|pose proof (Z.div_mod (k + s + 1) 2 ltac:(lia)); pose proof (Z.mod_pos_bound (k + s + 1) 2 ltac:(lia)); lia].
  destruct (Z_le_gt_dec (2 * b + 1 - k) s) as [G|G]; [exact G|exfalso].
  assert (M : (inject_Z s * inject_Z k <= inject_Z (2 * b - k) * inject_Z k)%Q).
  { rewrite <- !inject_Z_mult, <- Zle_Qle. apply Z.mul_le_mono_nonneg_r; lia. }
  (* k (2b - k + 1/2 + tiny) decreases from k = b + 1 on *)
  assert (D : 0 <= (k - (b + 1)) * (k - b + 1 - 2)) by (apply Z.mul_nonneg_nonneg; lia).
  assert (J : exists j, 0 <= j /\ k = b + 1 + j) by (exists (k - (b + 1)); lia). destruct J as (j & J0 & ->).
  assert (JJ : (0 <= inject_Z j * inject_Z j)%Q) by apply Qsq.
  assert (J0' : (0 <= inject_Z j)%Q) by (change 0%Q with (inject_Z 0); now rewrite <- Zle_Qle).
  replace (2 * b - (b + 1 + j)) with (b + - (1) + - j) in M by ring. rewrite !inject_Z_plus, !inject_Z_opp in *. change (inject_Z 1) with 1%Q in *.
  unfold tiny in *. lra.
Qed.

Lemma low_or_high : ~ low -> ~ high ->
  ((inject_Z b + (1 # 4) - tiny) * (inject_Z b + (1 # 4) - tiny) <= A)%Q /\
  (A <= (inject_Z b + (1 # 4) + tiny) * (inject_Z b + (1 # 4) + tiny))%Q.
Proof using Hb Lo Hi.
  intros L H. apply Qnot_lt_le in L. apply Qnot_lt_le in H. rewrite inject_Z_plus in H. change (inject_Z 1) with 1%Q in H. unfold tiny in *.
  split; lra.
Qed.
End Step.

(** ** The loop *)
Lemma end_loop c v ls b : input v ls -> 1 <= b ->
  (inject_Z b * inject_Z b <= vval v * p10 ls * p10 ls)%Q ->
  (vval v * p10 ls * p10 ls < inject_Z (b + 1) * inject_Z (b + 1))%Q ->
  low (vval v * p10 ls * p10 ls) b \/ high (vval v * p10 ls * p10 ls) b ->
  forall n x k, 0 <= n -> inv v ls x -> dscale x = ls -> (vval x == inject_Z k * p10 (- ls))%Q ->
  b <= k -> k - b - 1 < 2 ^ n -> forall fuel, n + 3 <= Z.of_nat fuel -> sqrt_loop c fuel v x x ls <> Diverge.
Proof.
  intros I Hb Lo Hi LH. set (A := (vval v * p10 ls * p10 ls)%Q) in *.
  (* one round *)
  assert (R : forall x k, inv v ls x -> dscale x = ls -> (vval x == inject_Z k * p10 (- ls))%Q -> b <= k ->
    forall f, sqrt_loop c (S f) v x x ls <> Diverge \/
      exists x' k', sqrt_loop c (S f) v x x ls = sqrt_loop c f v x' x' ls /\ inv v ls x' /\ dscale x' = ls /\
        (vval x' == inject_Z k' * p10 (- ls))%Q /\ b <= k' /\ k' <> k /\ sharp A k k').
  { intros x k V Dx Ek Bk f. rewrite sqrt_loop_S.
    destruct (newton_sharp c v ls x k I V Dx Ek ltac:(lia)) as [(x' & k' & E & V' & Dx' & Vx & St & Sh)|(_ & E)]; rewrite E; cbn [bind]; [|left; discriminate].
    pose proof (step_lower (vval v) (vval x) ls k' b (in_pos _ _ I) (unit_pos (vval x) k ls Ek ltac:(lia)) St ltac:(lia) Lo) as L'.
    destruct (cmp_common_spec c x' x) as (s & Ec & Hc);
      try apply (iv_st _ _ _ V); try apply (iv_st _ _ _ V'); try (apply semi_nze, stripped_semi; [apply V' || apply V]).
    rewrite Ec. cbn [bind]. destruct (Z.eq_dec k' k) as [->|Nk].
    - left. destruct Hc as [[-> He]|[[-> He]|[-> He]]]; [discriminate|exfalso..]; rewrite Vx, Ek in He; now apply Qlt_irrefl in He.
    - destruct Hc as [[-> He]|[[-> He]|[-> He]]]; [left; discriminate|right..]; exists x', k'; cbn [Z.eqb]; tauto. }
  (* the lower neighbour, when it is fixed *)
  assert (RL : low A b -> forall x, inv v ls x -> dscale x = ls -> (vval x == inject_Z b * p10 (- ls))%Q ->
    forall f, sqrt_loop c (S f) v x x ls <> Diverge).
  { intros L x V Dx Ek f. destruct (R x b V Dx Ek (Z.le_refl b) f) as [G|(x' & k' & _ & _ & _ & _ & B' & N & Sh)]; [exact G|exfalso].
    now rewrite (low_fix A b Hb Lo Hi k' L B' Sh) in N. }
  (* the upper neighbour *)
  assert (RU : forall x, inv v ls x -> dscale x = ls -> (vval x == inject_Z (b + 1) * p10 (- ls))%Q ->
    forall f, sqrt_loop c (S (S f)) v x x ls <> Diverge).
  { intros x V Dx Ek f. destruct (R x (b + 1) V Dx Ek ltac:(lia) (S f)) as [G|(x' & k' & -> & V' & Dx' & Vx & B' & N & Sh)]; [exact G|].
    pose proof (next_up A b Hb Lo Hi k' Sh). assert (k' = b) by lia. subst k'. destruct LH as [L|H']; [now apply RL|exfalso].
    pose proof (high_stays A b Hb Lo Hi (b + 1) b H' ltac:(lia) Sh). lia. }
  assert (R0 : forall x k, inv v ls x -> dscale x = ls -> (vval x == inject_Z k * p10 (- ls))%Q -> b <= k -> k <= b + 1 ->
    forall f, sqrt_loop c (S (S (S f))) v x x ls <> Diverge).
  { intros x k V Dx Ek B1 B2 f. destruct (Z.eq_dec k (b + 1)) as [->|Nk]; [now apply RU|]. assert (k = b) by lia. subst k.
    destruct LH as [L|H']; [now apply RL|].
    destruct (R x b V Dx Ek (Z.le_refl b) (S (S f))) as [G|(x' & k' & -> & V' & Dx' & Vx & B' & N & Sh)]; [exact G|].
    pose proof (near_up A b Hb Lo Hi k' Sh). destruct (Z.eq_dec k' (b + 1)) as [->|N1]; [now apply RU|].
    assert (k' = b + 2) by lia. subst k'. 
    destruct (R x' (b + 2) V' Dx' Vx ltac:(lia) (S f)) as [G|(x2 & k2 & -> & V2 & Dx2 & Vx2 & B2' & N2 & Sh2)]; [exact G|].
    pose proof (far A b Hb Lo Hi (b + 2) k2 ltac:(lia) Sh2). pose proof (high_stays A b Hb Lo Hi (b + 2) k2 H' ltac:(lia) Sh2).
    assert (k2 = b + 1) by lia. subst k2.
    destruct (R x2 (b + 1) V2 Dx2 Vx2 ltac:(lia) f) as [G|(x3 & k3 & _ & _ & _ & _ & B3 & N3 & Sh3)]; [exact G|exfalso].
    pose proof (next_up A b Hb Lo Hi k3 Sh3). pose proof (high_stays A b Hb Lo Hi (b + 1) k3 H' ltac:(lia) Sh3). lia. }
  intros n x k Hn. revert x k. pattern n. apply natlike_ind; [| |exact Hn]; clear n Hn.
  - intros x k V Dx Ek Bk Hk fuel Hf. change (2 ^ 0) with 1 in Hk. destruct fuel as [|[|[|f]]]; [lia|lia|lia|].
    apply (R0 x k); auto. lia.
  - intros n Hn IH x k V Dx Ek Bk Hk fuel Hf. rewrite Z.pow_succ_r in Hk by exact Hn.
    destruct (Z_le_gt_dec k (b + 1)) as [G|G].
    + destruct fuel as [|[|[|f]]]; [lia|lia|lia|]. now apply (R0 x k).
    + destruct fuel as [|f]; [lia|].
      destruct (R x k V Dx Ek Bk f) as [G'|(x' & k' & -> & V' & Dx' & Vx & B' & N & Sh)]; [exact G'|].
      pose proof (far A b Hb Lo Hi k k' ltac:(lia) Sh). apply (IH x' k' V' Dx' Vx B'); lia.
Qed.

(** ** The entry point *)
Theorem sqrt_ends c fuel v : let s := sqrt_rscale v in canon v -> (p10 (-2016) <= vval v)%Q ->
  (forall k : Z, 0 <= k -> ~ (((inject_Z k + (1 # 4) - tiny) * (inject_Z k + (1 # 4) - tiny) <= vval v * p10 (s + 8) * p10 (s + 8))%Q /\
     (vval v * p10 (s + 8) * p10 (s + 8) <= (inject_Z k + (1 # 4) + tiny) * (inject_Z k + (1 # 4) + tiny))%Q)) ->
  270000 <= Z.of_nat fuel -> num_sqrt c fuel (layout (be_varlen c) (to_number v)) <> Diverge.
Proof.
  intros s C L NQ Hf. assert (P : (0 < vval v)%Q) by (eapply Qlt_le_trans; [apply p10_pos|exact L]).
  destruct (not_too_small v C L) as [A1 Tp]. fold s in A1, Tp.
  destruct (canon_input v C P) as [I W]. fold s in I.
  destruct (num_sqrt_unfold c fuel v C P) as (g0 & Eg0 & ->). fold s.
  destruct (loop_from_guess c v (s + 8) I W) as (d & x & k & Hd & Eg & Gp & V & Dx & Vx & St & Lp).
  assert (g0 = Var (Z.quot (weight v) 2) 0 SPos [d]) by congruence. subst g0.
  destruct (int_root _ A1) as (b & Hb & Lo & Hi).
  pose proof (first_upper v (s + 8) d k I Tp Hd St) as Kc.
  pose proof (step_lower _ _ _ _ b (in_pos _ _ I) Gp St ltac:(lia) Lo) as Lk.
  assert (LH : low (vval v * p10 (s + 8) * p10 (s + 8)) b \/ high (vval v * p10 (s + 8) * p10 (s + 8)) b).
  { destruct (Qlt_le_dec (vval v * p10 (s + 8) * p10 (s + 8)) (inject_Z b * inject_Z b + inject_Z b * (1 # 2) - tiny * inject_Z b)) as [G|G]; [now left|].
    destruct (Qlt_le_dec (inject_Z b * inject_Z b + inject_Z b * (1 # 2) - (1 # 2) + tiny * inject_Z (b + 1)) (vval v * p10 (s + 8) * p10 (s + 8))) as [G'|G']; [now right|].
    exfalso. apply (NQ b ltac:(lia)). apply (low_or_high _ b Hb Lo Hi); unfold low, high; now apply Qle_not_lt. }
  assert (S8 : 0 <= s <= 1000).
  { unfold s. rewrite (rscale_form v C). pose proof (cn_scale v C). lia. }
  assert (Top : 4 * top v + 4 + (s + 8) <= 66548).
  { unfold top. pose proof (quot2 (weight v)). pose proof (cn_weight v C). lia. }
  set (n := 4 * (4 * top v + 4 + (s + 8))).
  assert (Kn : k - b - 1 < 2 ^ n).
  { assert (k < 10 ^ (4 * top v + 4 + (s + 8))) by (unfold cap in Kc; lia).
    assert (10 ^ (4 * top v + 4 + (s + 8)) <= 2 ^ n).
    { unfold n. rewrite Z.pow_mul_r by lia. apply Z.pow_le_mono_l. change (2 ^ 4) with 16. lia. }
    clear -H H0 Hb. set (u := 10 ^ _) in *. set (w := 2 ^ n) in *. clearbody u w. lia. }
  destruct fuel as [|f]; [lia|].
  assert (Fin : forall x' k', stripped x' -> (vval x' == inject_Z k' * p10 (- (s + 8)))%Q -> good_root (vval v) (s + 8) k' -> finish c s (Ret x') <> Diverge).
  { intros x' k' T' V' G. destruct (finish_root c v x' k' C P T' V' G) as (y & q & E & _). fold s in E. rewrite E. discriminate. }
  destruct Lp as [[He Lp]|Lp]; rewrite Lp.
  - apply (Fin x k); [apply V|exact Vx|]. apply (step_fix (vval v) (vval (Var (Z.quot (weight v) 2) 0 SPos [d])) (s + 8) k); auto. now rewrite <- He.
  - assert (Nf : n + 3 <= Z.of_nat f) by (unfold n; lia).
    assert (Nn : 0 <= n) by (unfold n; lia).
    pose proof (end_loop c v (s + 8) b I Hb Lo Hi LH n x k Nn V Dx Vx Lk Kn f Nf) as G.
    destruct (sqrt_loop_spec c v (s + 8) I f x V) as [E|[[E _]|[[E _]|(x' & k' & E & T' & D' & V' & Gr)]]]; rewrite E in G |- *; [congruence|cbn [finish bind]; discriminate..|].
    now apply (Fin x' k').
Qed.

Theorem sqrt_terminates c fuel n : canonical n -> ~ near_quarter n -> 270000 <= Z.of_nat fuel ->
  num_sqrt c fuel (layout (be_varlen c) n) <> Diverge.
Proof.
  intros C NQ Hf. destruct (sqrt_special c fuel) as (_ & Sn & Sz).
  destruct (Qlt_le_dec (value n) 0) as [G|G]; [rewrite (Sn n C G); discriminate|].
  destruct (Qlt_le_dec 0 (value n)) as [P|G'].
  2:{ destruct (Sz n C (Qle_antisym _ _ G' G)) as (r & E & _). rewrite E. discriminate. }
  destruct (sqrt_tiny_exact c fuel n C P) as [T1 T2].
  destruct (Qlt_le_dec (value n) (ten ^ (-2020))) as [B|B]; [rewrite (T1 B ltac:(lia)); discriminate|].
  destruct (Qlt_le_dec (value n) (ten ^ (-2016))) as [B'|B'].
  { destruct (T2 (conj B B') ltac:(lia)) as (r & E & _). rewrite E. discriminate. }
  clear T1 T2 B Sn Sz G. destruct (number_var n C) as (v & Cv & -> & V). rewrite V in B'.
  apply (sqrt_ends c fuel v Cv B'); [|exact Hf]. intros k Hk [Q1 Q2]. apply NQ. exists k. split; [exact Hk|]. cbv zeta.
  rewrite V, <- (root_scale_eq v) by apply Cv. split; assumption.
Qed.

Lemma canonical_frac_lb n : canonical n -> (0 < value n)%Q -> (p10 (- scale n) <= value n)%Q.
Proof.
  intros C P. rewrite <- (Qabs_pos (value n)) by lra. destruct (number_var n C) as (v & Cv & -> & V). rewrite V. cbn [scale to_number].
  apply mult_lb; [now apply canon_mult|]. intro E. rewrite V, E in P. now apply Qlt_irrefl in P.
Qed.

Theorem sqrt_debug_small c fuel n : canonical n -> (value n < ten ^ 32)%Q -> scale n <= 56 ->
  num_sqrt c fuel (layout (be_varlen c) n) <> Panic WArith.
Proof.
  intros C H1 H2. destruct (sqrt_special c fuel) as (_ & Sn & Sz).
  destruct (Qlt_le_dec (value n) 0) as [G|G]; [rewrite (Sn n C G); discriminate|].
  destruct (Qlt_le_dec 0 (value n)) as [P|G'].
  2:{ destruct (Sz n C (Qle_antisym _ _ G' G)) as (r & E & _). rewrite E. discriminate. }
  destruct (Qlt_le_dec (value n) (ten ^ (-2016))) as [B|B].
  - exfalso. pose proof (canonical_frac_lb n C P) as L. apply (Qlt_not_le _ _ B). eapply Qle_trans; [|exact L].
    apply (p10_le (-2016) (- scale n)). lia.
  - destruct (sqrt_no_panic c fuel n C B (or_intror (conj H1 H2))) as [E|(r & E)]; rewrite E; discriminate.
Qed.
