(** * PowLoop: the square-and-multiply loop of var.rs power_int is exact when the scales suffice. *)
From Coq Require Import ZArith QArith Qabs Qpower List Bool Lia Lqa.
From Verif Require Import Base Var Binary Format Parse Convert Num Flt Transc Spec SpecApi QDec Digits Arith Strip Round Signed Make Api2
  FltFacts Mul DivQ DivFast Sqrt.
Import ListNotations.
Open Scope Z_scope.

(** ** Float facts *)
Lemma fl_Z x n : (x == inject_Z n)%Q -> Z.abs n < 2 ^ 53 -> (fl x == inject_Z n)%Q.
Proof.
  intros E B. unfold fl. destruct x as [a d]. unfold Qeq in E. cbn [Qnum Qden inject_Z] in *.
  rewrite Z.mul_1_r in E. destruct (Z.eqb_spec a 0) as [A|A].
  { assert (n = 0) by nia. subst n. reflexivity. }
  pose proof (flexp_low (a # d) A) as L. cbn [Qnum Qden] in L. set (e := flexp (a # d)) in *.
  assert (He : e <= 0).
  { destruct (Z_le_gt_dec e 0) as [|G]; [assumption|exfalso].
    rewrite (Z.max_r 0 e), (Z.max_l 0 (- e)) in L by lia. rewrite Z.pow_0_r, Z.mul_1_r in L.
    assert (2 ^ 1 <= 2 ^ e) by (apply Z.pow_le_mono_r; lia). change (2 ^ 1) with 2 in *.
    change (2 ^ 53) with (2 * 2 ^ 52) in B. subst a. rewrite Z.abs_mul in L. rewrite (Z.abs_eq (Zpos d)) in L by lia.
    set (T := 2 ^ 52) in *. assert (0 < T) by (unfold T; reflexivity). nia. }
  rewrite (Z.max_r 0 (- e)), (Z.max_l 0 e) by lia. rewrite Z.pow_0_r, Z.mul_1_r.
  assert (P : 0 < 2 ^ (- e)) by (apply Z.pow_pos_nonneg; lia).
  assert (R : rne (a * 2 ^ (- e)) (Zpos d) = n * 2 ^ (- e)).
  { subst a. replace (n * Zpos d * 2 ^ (- e)) with (n * 2 ^ (- e) * Zpos d) by ring. unfold rne.
    rewrite Z.div_mul, Z.mod_mul by lia. replace (2 * 0 <? Zpos d) with true by (symmetry; apply Z.ltb_lt; lia). reflexivity. }
  rewrite R. destruct (Z.leb_spec 0 e) as [E0|E0].
  - assert (e = 0) by lia. rewrite H. change (- 0) with 0. rewrite Z.pow_0_r, !Z.mul_1_r. reflexivity.
  - unfold Qeq. cbn [Qnum Qden inject_Z]. rewrite Z2Pos.id by lia. lia.
Qed.

Lemma fl_bounds x e : (Qabs x <= e)%Q -> (Qabs (fl x - x) <= e * (1 # 9007199254740992))%Q.
Proof. intro H. pose proof (fl_err x) as E. unfold ulp53 in E. lra. Qed.

Lemma f2i_floor x k : 0 <= k <= 2147483647 -> (inject_Z k <= x)%Q -> (x < inject_Z (k + 1))%Q -> f2i x = k.
Proof.
  intros K L U. unfold f2i. destruct x as [a d]. unfold Qle, Qlt in *. cbn [Qnum Qden inject_Z] in *.
  rewrite Z.mul_1_r in *. rewrite Z.quot_div_nonneg by nia.
  assert (a / Zpos d = k); [|lia]. symmetry. apply (Z.div_unique a (Zpos d) k (a - k * Zpos d)); nia.
Qed.

Lemma f2i_Z x n : (x == inject_Z n)%Q -> Z.abs n < 2147483648 -> f2i x = n.
Proof.
  intros E B. unfold f2i. destruct x as [a d]. unfold Qeq in E. cbn [Qnum Qden inject_Z] in *. rewrite Z.mul_1_r in E.
  subst a. rewrite Z.quot_mul by lia. lia.
Qed.

(** truncation toward zero moves a number by less than one *)
Lemma f2i_near x : (Qabs x < 2147483647)%Q -> (Qabs (inject_Z (f2i x) - x) < 1)%Q.
Proof.
  intro B. unfold f2i. destruct x as [a d]. cbn [Qnum Qden].
  assert (Hq : Z.abs (Z.quot a (Zpos d)) <= 2147483647).
  { unfold Qlt, Qabs in B. cbn [Qnum Qden] in B. rewrite <- Z.quot_abs by lia. rewrite Z.quot_div_nonneg by lia.
    apply Z.lt_succ_r. apply Z.div_lt_upper_bound; lia. }
  replace (Z.max (-2147483648) (Z.min 2147483647 (Z.quot a (Zpos d)))) with (Z.quot a (Zpos d)) by lia.
  pose proof (Z.quot_rem' a (Zpos d)) as QR. pose proof (Z.rem_bound_abs a (Zpos d) ltac:(lia)) as RB.
  unfold Qlt, Qabs, Qminus, Qplus, Qopp, inject_Z. cbn [Qnum Qden]. rewrite ?Pos.mul_1_l, ?Z.mul_1_r, ?Z.mul_1_l.
  replace (Z.quot a (Zpos d) * Zpos d + - a) with (- Z.rem a (Zpos d)) by lia. lia.
Qed.

(** ** Leading digits *)
Lemma lead_digit v d t : stripped v -> digits v = d :: t ->
  (inject_Z d * p10 (4 * weight v) <= Qabs (vval v))%Q /\ (Qabs (vval v) < inject_Z (d + 1) * p10 (4 * weight v))%Q.
Proof.
  intros S E. pose proof (st_digits v S) as D. rewrite (Qabs_vval v D). pose proof D as D'. rewrite E in D'.
  pose proof (dval_bound t (Forall_inv_tail D')) as Bt.
  assert (M : mag v = d * 10000 ^ lenz t + dval t) by (unfold mag; rewrite E, dval_cons; lia).
  pose proof (lenz_nonneg t) as Lt. assert (W : weight v = lsd v + lenz t) by (unfold lsd, ndigits; rewrite E, lenz_cons; lia).
  rewrite pB_ten in * by lia.
  change (inject_Z d * p10 (4 * weight v))%Q with (dec d (4 * weight v)).
  change (inject_Z (d + 1) * p10 (4 * weight v))%Q with (dec (d + 1) (4 * weight v)).
  rewrite W. replace (4 * (lsd v + lenz t)) with (4 * lsd v + 4 * lenz t) by lia. rewrite <- !dec_shift by lia.
  split; [apply dec_le_iff|apply dec_lt_iff]; nia.
Qed.

Lemma decimal_lead d : 1 <= d <= 9999 -> exists k, 0 <= k <= 3 /\ 10 ^ k <= d < 10 ^ (k + 1).
Proof.
  intro H. destruct (Z_lt_le_dec d 10); [exists 0; cbn; lia|]. destruct (Z_lt_le_dec d 100); [exists 1; cbn; lia|].
  destruct (Z_lt_le_dec d 1000); [exists 2; cbn; lia|exists 3; cbn; lia].
Qed.

Lemma lead_range v d t k : stripped v -> digits v = d :: t -> 0 <= k -> 10 ^ k <= d < 10 ^ (k + 1) ->
  (p10 (4 * weight v + k) <= Qabs (vval v) < p10 (4 * weight v + k + 1))%Q.
Proof.
  intros S E K H. destruct (lead_digit v d t S E) as [L U].
  assert (P : (0 < p10 (4 * weight v))%Q) by apply p10_pos.
  split.
  - apply Qle_trans with (inject_Z d * p10 (4 * weight v))%Q; [|exact L]. rewrite Z.add_comm, p10_add, p10_Z by lia.
    apply Qmult_le_r; [exact P|]. rewrite <- Zle_Qle. lia.
  - apply Qlt_le_trans with (inject_Z (d + 1) * p10 (4 * weight v))%Q; [exact U|].
    replace (4 * weight v + k + 1) with (k + 1 + 4 * weight v) by lia. rewrite p10_add, (p10_Z (k + 1)) by lia.
    apply Qmult_le_r; [exact P|]. rewrite <- Zle_Qle. lia.
Qed.

(** ** Powers in Q *)
Lemma Qpow_S (x : Q) j : 0 <= j -> (x ^ (j + 1) == x ^ j * x)%Q.
Proof.
  intro H. destruct (Qeq_dec x 0) as [E|N].
  - rewrite E at 3. rewrite Qmult_0_r. rewrite (Qpower_comp x 0%Q E (j + 1) (j + 1) eq_refl). apply Qpower_0. lia.
  - rewrite Qpower_plus by exact N. reflexivity.
Qed.
Lemma Qpow_add (x : Q) a b : ~ (x == 0)%Q -> (x ^ (a + b) == x ^ a * x ^ b)%Q.
Proof. intro N. now apply Qpower_plus. Qed.
Lemma Qpow_dbl (x : Q) a : (x ^ (2 * a) == x ^ a * x ^ a)%Q.
Proof.
  rewrite Z.mul_comm, Qpower_mult. change (x ^ a ^ 2)%Q with ((x ^ a) ^ 2)%Q. reflexivity.
Qed.
Lemma Qpow_abs (x : Q) j : 0 <= j -> (Qabs (x ^ j) == Qabs x ^ j)%Q.
Proof.
  intro H. revert H. apply (natlike_ind (fun j => Qabs (x ^ j) == Qabs x ^ j)%Q); [reflexivity|].
  clear j. intros j H IH. change (Z.succ j) with (j + 1). rewrite !Qpow_S by exact H. rewrite Qabs_Qmult, IH. reflexivity.
Qed.
Lemma Qpow_ge1 (x : Q) j : 0 <= j -> (1 <= x)%Q -> (1 <= x ^ j)%Q.
Proof.
  intros H L. revert H. apply (natlike_ind (fun j => 1 <= x ^ j)%Q); [discriminate|].
  clear j. intros j H IH. change (Z.succ j) with (j + 1). rewrite Qpow_S by exact H. nra.
Qed.
Lemma Qpow_le1 (x : Q) j : 0 <= j -> (0 <= x <= 1)%Q -> (0 <= x ^ j <= 1)%Q.
Proof.
  intros H L. revert H. apply (natlike_ind (fun j => 0 <= x ^ j <= 1)%Q); [split; discriminate|].
  clear j. intros j H IH. change (Z.succ j) with (j + 1). rewrite Qpow_S by exact H. split; [apply Qmult_le_0_compat; tauto|].
  apply Qle_trans with (1 * x)%Q; [apply Qmult_le_compat_r; tauto|]. lra.
Qed.
Lemma Qpow_mono (x y : Q) j : 0 <= j -> (0 <= x)%Q -> (x <= y)%Q -> (x ^ j <= y ^ j)%Q.
Proof.
  intros H L M. assert (G : (0 <= x ^ j)%Q /\ (x ^ j <= y ^ j)%Q); [|tauto].
  revert H. apply (natlike_ind (fun j => (0 <= x ^ j)%Q /\ (x ^ j <= y ^ j)%Q)); [split; discriminate|].
  clear j. intros j H [I1 I2]. change (Z.succ j) with (j + 1). rewrite !Qpow_S by exact H. split; [now apply Qmult_le_0_compat|].
  apply Qle_trans with (x ^ j * y)%Q; [rewrite !(Qmult_comm (x ^ j)); now apply Qmult_le_compat_r|].
  apply Qmult_le_compat_r; [exact I2|lra].
Qed.
Lemma Qpow_up (x : Q) i j : 0 <= i <= j -> (1 <= x)%Q -> (x ^ i <= x ^ j)%Q.
Proof.
  intros H L. assert (N : ~ (x == 0)%Q) by lra. replace j with (i + (j - i)) by lia. rewrite Qpow_add by exact N.
  pose proof (Qpow_ge1 x i ltac:(lia) L). pose proof (Qpow_ge1 x (j - i) ltac:(lia) L). nra.
Qed.
Lemma p10_pow e j : 0 <= j -> (p10 e ^ j == p10 (e * j))%Q.
Proof. intro H. unfold p10. now rewrite Qpower_mult. Qed.
Lemma Zpow_Q a j : 0 <= j -> (inject_Z a ^ j == inject_Z (a ^ j))%Q.
Proof. intro H. symmetry. apply Zpower_Qpower. exact H. Qed.
Lemma mult_pow q s j : 0 <= j -> mult q s -> mult (q ^ j) (s * j).
Proof.
  intros H M. revert H. apply (natlike_ind (fun j => mult (q ^ j) (s * j))).
  - rewrite Z.mul_0_r. exists 1. rewrite p10_0. reflexivity.
  - clear j. intros j H IH. change (Z.succ j) with (j + 1). apply (mult_comp (q ^ j * q)); [symmetry; now apply Qpow_S|].
    replace (s * (j + 1)) with (s * j + s) by lia. now apply mult_mul.
Qed.

Lemma stripped_nz v : stripped v -> digits v <> [] -> ~ (vval v == 0)%Q.
Proof. intros S N K. apply N. now apply (proj1 (stripped_zero_iff v S)). Qed.
Lemma nz_digits v : stripped v -> ~ (vval v == 0)%Q -> digits v <> [].
Proof. intros S N K. apply N. now apply (proj2 (stripped_zero_iff v S)). Qed.

(** ** The loop *)
Lemma odd_mod n : Z.odd n = (n mod 2 =? 1).
Proof. rewrite Zmod_odd. now destruct (Z.odd n). Qed.

Lemma mul_exact_up c v1 v2 s1 s2 s : stripped v1 -> stripped v2 -> digits v1 <> [] -> digits v2 <> [] ->
  0 <= s1 -> 0 <= s2 -> mult (vval v1) s1 -> mult (vval v2) s2 -> s1 + s2 <= s ->
  exists r, mul_common c v1 v2 s = Ret r /\ stripped r /\ dscale r = s /\ (vval r == vval v1 * vval v2)%Q.
Proof.
  intros S1 S2 N1 N2 H1 H2 M1 M2 Hs.
  pose proof (frac_lsd v1 s1 S1 N1 M1) as L1. pose proof (frac_lsd v2 s2 S2 N2 M2) as L2.
  assert (G : forall v, digits v <> [] -> 1 <= ndigits v).
  { intros v Hv. unfold ndigits. destruct (digits v) as [|a l]; [congruence|]. rewrite lenz_cons. pose proof (lenz_nonneg l). lia. }
  destruct (mul_common_exact c v1 v2 s) as (r & E & R1 & R2 & R3); try apply S1; try apply S2; auto.
  { unfold lsd in L1, L2. rewrite Z.quot_div_nonneg by lia.
    pose proof (Z.div_mod (s + 3) 4 ltac:(lia)). pose proof (Z.mod_pos_bound (s + 3) 4 ltac:(lia)). lia. }
  exists r. split; [exact E|]. split; [exact R1|]. split; [exact R2|]. rewrite R3. apply round_at_mult.
  apply (mult_up _ (s1 + s2)); [exact Hs|]. now apply mult_mul.
Qed.

Record powv (v : var) (s j : Z) (b : var) : Prop := {
  pw_st : stripped b;
  pw_scale : s * j <= dscale b;
  pw_val : (vval b == vval v ^ j)%Q
}.

Section Loop.
Variables (c : cfg) (v : var) (s N sig : Z).
Hypothesis (Sv : stripped v) (Nv : digits v <> []) (Hs : 0 <= s) (Mv : mult (vval v) s).
Hypothesis Hsig : s = 0 \/ forall j e, 0 <= j <= N -> (p10 e <= Qabs (vval v) ^ j)%Q -> e + j * s <= sig.

Lemma pw_nz j b : powv v s j b -> digits b <> [].
Proof.
  intro P. apply nz_digits; [apply P|]. rewrite (pw_val _ _ _ _ P). apply Qpower_not_0. now apply stripped_nz.
Qed.
Lemma pw_mult j b : 0 <= j -> powv v s j b -> mult (vval b) (s * j).
Proof. intros H P. apply (mult_comp (vval v ^ j)); [symmetry; apply P|]. now apply mult_pow. Qed.
Lemma pw_weight j b : 0 <= j -> powv v s j b -> (p10 (4 * weight b) <= Qabs (vval v) ^ j)%Q.
Proof.
  intros H P. rewrite <- Qpow_abs by exact H. rewrite <- (pw_val _ _ _ _ P).
  apply (stripped_range b (pw_st _ _ _ _ P)). now apply pw_nz with j.
Qed.

Lemma pw_mul j k b r : 0 <= j -> 0 <= k -> powv v s j b -> powv v s k r -> j + k <= N ->
  exists q, mul_common c b r (Z.max (Z.min (sig - (weight b + weight r) * 4) (dscale b + dscale r)) 0) = Ret q /\
    powv v s (j + k) q.
Proof.
  intros Hj Hk Pb Pr L. pose proof (pw_scale _ _ _ _ Pb) as E1. pose proof (pw_scale _ _ _ _ Pr) as E2.
  assert (A1 : 0 <= s * j) by nia. assert (A2 : 0 <= s * k) by nia.
  set (ls := Z.max (Z.min (sig - (weight b + weight r) * 4) (dscale b + dscale r)) 0).
  assert (Q : s * j + s * k <= ls).
  { unfold ls. destruct Hsig as [Z0|H]; [rewrite Z0; lia|].
    specialize (H (j + k) (4 * weight b + 4 * weight r) ltac:(lia)).
    assert ((4 * weight b + 4 * weight r) + (j + k) * s <= sig); [|lia]. apply H.
    rewrite p10_add. assert (NZ : ~ (Qabs (vval v) == 0)%Q).
    { intro K. apply (stripped_nz v Sv Nv). pose proof (Qle_Qabs (vval v)). pose proof (Qle_Qabs (- vval v)). rewrite Qabs_opp in *. lra. }
    rewrite Qpow_add by exact NZ.
    pose proof (pw_weight j b Hj Pb). pose proof (pw_weight k r Hk Pr).
    pose proof (p10_pos (4 * weight b)). pose proof (p10_pos (4 * weight r)).
    apply Qle_trans with (Qabs (vval v) ^ j * p10 (4 * weight r))%Q; [apply Qmult_le_compat_r; lra|].
    rewrite !(Qmult_comm (Qabs (vval v) ^ j)). apply Qmult_le_compat_r; lra. }
  destruct (mul_exact_up c b r (s * j) (s * k) ls) as (q & E & R1 & R2 & R3).
  - apply Pb. 
  - apply Pr.
  - exact (pw_nz j b Pb).
  - exact (pw_nz k r Pr).
  - nia.
  - nia.
  - now apply pw_mult.
  - now apply pw_mult.
  - exact Q.
  - exists q. split; [exact E|]. constructor; [exact R1|rewrite R2; lia|].
    rewrite R3, (pw_val _ _ _ _ Pb), (pw_val _ _ _ _ Pr), Qpow_add by now apply stripped_nz. reflexivity.
Qed.

(** a power that does not fit means that the final one does not fit either *)
Lemma pw_over j b : 0 <= j <= N -> powv v s j b -> 32767 < weight b -> (limit <= Qabs (vval v) ^ N)%Q.
Proof.
  intros H P W. pose proof (pw_weight j b ltac:(lia) P) as L. rewrite limit_p10.
  assert (L2 : (p10 (4 * 32768) <= Qabs (vval v) ^ j)%Q) by (apply Qle_trans with (p10 (4 * weight b)); [apply p10_le; lia|exact L]).
  destruct (Qlt_le_dec (Qabs (vval v)) 1) as [K|K].
  - exfalso. pose proof (Qabs_nonneg (vval v)) as A0. pose proof (Qpow_le1 (Qabs (vval v)) j ltac:(lia) ltac:(split; lra)) as [_ U].
    assert (1 < p10 (4 * 32768))%Q by (rewrite <- p10_0; apply p10_lt; lia). lra.
  - apply Qle_trans with (Qabs (vval v) ^ j)%Q; [exact L2|]. now apply Qpow_up.
Qed.

Lemma pow_loop_exact fuel : forall mask j k b r, (0 < fuel)%nat -> 0 <= mask < 2 ^ Z.of_nat fuel -> 1 <= j -> 0 <= k ->
  k + 2 * j * (mask / 2) = N -> powv v s j b -> powv v s k r ->
  (exists r', pow_loop c fuel mask sig b r = Ret (PDone r') /\ powv v s N r') \/
  (pow_loop c fuel mask sig b r = Ret POver /\ (limit <= Qabs (vval v) ^ N)%Q).
Proof.
  induction fuel as [|f IH]; intros mask j k b r F M Hj Hk EN Pb Pr; [lia|]. cbn [pow_loop].
  rewrite <- Z.div2_spec, Z.div2_div. set (mk := mask / 2) in *.
  assert (Mk : 0 <= mk) by (unfold mk; apply Z.div_pos; lia).
  assert (Mu : mk < 2 ^ Z.of_nat f).
  { unfold mk. apply Z.div_lt_upper_bound; [lia|]. rewrite Nat2Z.inj_succ, Z.pow_succ_r in M by lia. lia. }
  destruct (Z.leb_spec mk 0) as [Z0|Z0].
  { left. exists r. split; [reflexivity|]. assert (N = k) by nia. now rewrite H. }
  assert (Ff : (0 < f)%nat). { destruct f; [|lia]. change (2 ^ Z.of_nat 0) with 1 in Mu. lia. }
  change NUMERIC_MIN_DISPLAY_SCALE with 0. change DEC_DIGITS with 4.
  destruct (pw_mul j j b b ltac:(lia) ltac:(lia) Pb Pb ltac:(nia)) as (b' & Eb & Pb').
  replace (sig - 2 * weight b * 4) with (sig - (weight b + weight b) * 4) by lia.
  replace (2 * dscale b) with (dscale b + dscale b) by lia. rewrite Eb. cbn [bind].
  pose proof (Z.div_mod mk 2 ltac:(lia)) as DM.
  assert (G : exists k' r', (if Z.odd mk
     then mul_common c b' r (Z.max (Z.min (sig - (weight b' + weight r) * 4) (dscale b' + dscale r)) 0)
     else Ret r) = Ret r' /\ powv v s k' r' /\ 0 <= k' /\ k' + 2 * (j + j) * (mk / 2) = N).
  { rewrite odd_mod. destruct (Z.eqb_spec (mk mod 2) 1) as [O|O].
    - destruct (pw_mul (j + j) k b' r ltac:(lia) ltac:(lia) Pb' Pr ltac:(nia)) as (r' & Er & Pr').
      exists (j + j + k), r'. split; [exact Er|]. split; [exact Pr'|]. split; [lia|nia].
    - exists k, r. split; [reflexivity|]. split; [exact Pr|]. split; [lia|].
      pose proof (Z.mod_pos_bound mk 2 ltac:(lia)). assert (mk = 2 * (mk / 2)) by lia. nia. }
  destruct G as (k' & r' & Er & Pr' & Hk' & EN'). rewrite Er. cbn [bind].
  destruct (Z.ltb_spec 32767 (weight b')) as [Wb|Wb]; cbn [orb].
  { right. split; [reflexivity|]. apply (pw_over (j + j) b'); [nia|exact Pb'|exact Wb]. }
  destruct (Z.ltb_spec 32767 (weight r')) as [Wr|Wr].
  { right. split; [reflexivity|]. apply (pw_over k' r'); [|exact Pr'|exact Wr]. pose proof (Z.div_pos mk 2 ltac:(lia) ltac:(lia)). nia. }
  apply (IH mk (j + j) k' b' r'); auto; lia.
Qed.
End Loop.

Lemma powv_1 v s : stripped v -> s <= dscale v -> powv v s 1 v.
Proof. intros S E. constructor; [exact S|lia|]. change (vval v ^ 1)%Q with (vval v). reflexivity. Qed.
Lemma one_stripped s : stripped (set_dscale s ONE).
Proof.
  constructor; cbn; try discriminate.
  - repeat constructor; discriminate.
  - intros d t E. injection E as <- _. discriminate.
  - intros d t E. destruct t as [|? [|]]; try discriminate. injection E as <-. discriminate.
Qed.
Lemma powv_0 v s : powv v s 0 ONE.
Proof. constructor; [exact (one_stripped 0)|cbn; lia|reflexivity]. Qed.

Lemma pow_loop_run c v s n sig : stripped v -> digits v <> [] -> 0 <= s <= dscale v -> mult (vval v) s ->
  1 <= n < 2 ^ 31 ->
  (s = 0 \/ forall j e, 0 <= j <= n -> (p10 e <= Qabs (vval v) ^ j)%Q -> e + j * s <= sig) ->
  (exists r', pow_loop c 32 n sig v (if Z.odd n then v else ONE) = Ret (PDone r') /\ powv v s n r') \/
  (pow_loop c 32 n sig v (if Z.odd n then v else ONE) = Ret POver /\ (limit <= Qabs (vval v) ^ n)%Q).
Proof.
  intros S NE [Hs D] M Hn H.
  assert (B32 : 0 <= n < 2 ^ Z.of_nat 32).
  { change (2 ^ Z.of_nat 32) with 4294967296. change (2 ^ 31) with 2147483648 in Hn. lia. }
  pose proof (Z.div_mod n 2 ltac:(lia)) as DM. rewrite odd_mod.
  destruct (Z.eqb_spec (n mod 2) 1) as [O|O].
  - apply (pow_loop_exact c v s n sig S NE Hs M H 32 n 1 1); try lia.
    + now apply powv_1.
    + now apply powv_1.
  - pose proof (Z.mod_pos_bound n 2 ltac:(lia)).
    apply (pow_loop_exact c v s n sig S NE Hs M H 32 n 1 0); try lia.
    + now apply powv_1.
    + apply powv_0.
Qed.
