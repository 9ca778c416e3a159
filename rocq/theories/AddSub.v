(** * AddSub: addition, subtraction and comparison. *)
From Coq Require Import ZArith QArith Qround Qpower Qabs List Bool Lia Lqa.
From Verif Require Import Base Var Spec QDec Digits Arith Strip.
Import ListNotations.
Open Scope Z_scope.

(** absolute value of a [var] *)
Definition aval (v : var) : Q := dec (mag v) (4 * lsd v).

Lemma vval_aval v : (vval v == inject_Z (sgz (sign v)) * aval v)%Q.
Proof. unfold vval, aval, smag, dec. rewrite inject_Z_mult. ring. Qed.

Lemma aval_nonneg v : Forall dig (digits v) -> (0 <= aval v)%Q.
Proof.
  intro D. unfold aval. rewrite <- (dec_0 (4 * lsd v)). apply dec_le_iff.
  apply (dval_bound _ D).
Qed.

Lemma aval_mk w s g ds : aval (Var w s g ds) = dec (dval ds) (4 * (w + 1 - lenz ds)).
Proof. reflexivity. Qed.

(** ** Column sums *)
Definition dget (ds : list Z) (i : Z) : Z :=
  if (0 <=? i) && (i <? lenz ds) then nth (Z.to_nat i) ds 0 else 0.

Lemma digit_at_dget ds i : digit_at ds i = Ret (dget ds i).
Proof.
  unfold digit_at, dget. destruct ((0 <=? i) && (i <? lenz ds)) eqn:E; [|reflexivity].
  zb. apply get_ok; [lia|]. apply nth_error_nth'. unfold lenz in *. lia.
Qed.

Lemma dget_dig ds i : Forall dig ds -> dig (dget ds i).
Proof.
  intro D. unfold dget. destruct ((0 <=? i) && (i <? lenz ds)) eqn:E; [|unfold dig; lia].
  zb. rewrite Forall_forall in D. apply D. apply nth_In. unfold lenz in *. lia.
Qed.

Fixpoint low (ds : list Z) (i : Z) (k : nat) : Z :=
  match k with
  | O => 0
  | S k' => dget ds (i - 1) + 10000 * low ds (i - 1) k'
  end.

Lemma low_neg ds i k : i <= 0 -> low ds i k = 0.
Proof.
  revert i. induction k as [|k IH]; intros i H; [reflexivity|]. cbn [low].
  rewrite IH by lia. unfold dget. destruct (0 <=? i - 1) eqn:E; zb; [lia|]. cbn. lia.
Qed.

Lemma low_mid ds i k : Forall dig ds -> 0 <= i <= lenz ds ->
  low ds i k = dval (firstn (Z.to_nat i) ds) mod 10000 ^ Z.of_nat k.
Proof.
  intro D. revert i. induction k as [|k IH]; intros i H; cbn [low].
  - now rewrite Z.mod_1_r.
  - destruct (Z.eq_dec i 0) as [->|N].
    + rewrite low_neg by lia. cbn. unfold dget. cbn. reflexivity.
    + rewrite IH by lia.
      assert (E : firstn (Z.to_nat i) ds = firstn (Z.to_nat (i - 1)) ds ++ [dget ds (i - 1)]).
      { replace (Z.to_nat i) with (S (Z.to_nat (i - 1))) by lia. apply firstn_S_snoc.
        unfold dget. replace (0 <=? i - 1) with true by (symmetry; apply Z.leb_le; lia).
        replace (i - 1 <? lenz ds) with true by (symmetry; apply Z.ltb_lt; lia). cbn [andb].
        apply nth_error_nth'. unfold lenz in *. lia. }
      rewrite E, dval_snoc.
      pose proof (dget_dig ds (i - 1) D) as Hd. unfold dig in Hd.
      replace (Z.of_nat (S k)) with (1 + Z.of_nat k) by lia. rewrite pB_succ by lia.
      pose proof (pB_pos' (Z.of_nat k) ltac:(lia)) as P.
      set (x := dval (firstn (Z.to_nat (i - 1)) ds)).
      pose proof (Z.div_mod x (10000 ^ Z.of_nat k) ltac:(lia)).
      pose proof (Z.mod_pos_bound x (10000 ^ Z.of_nat k) ltac:(lia)).
      apply (Z.mod_unique _ _ (x / 10000 ^ Z.of_nat k)); nia.
Qed.

Lemma low_spec ds i k : Forall dig ds -> lenz ds <= i ->
  low ds i k = (dval ds * 10000 ^ (i - lenz ds)) mod 10000 ^ Z.of_nat k.
Proof.
  intro D. revert i. induction k as [|k IH]; intros i H.
  - cbn. now rewrite Z.mod_1_r.
  - destruct (Z.eq_dec i (lenz ds)) as [->|N].
    + rewrite Z.sub_diag, Z.mul_1_r. rewrite low_mid by (auto; pose proof (lenz_nonneg ds); lia).
      rewrite to_nat_lenz, firstn_all. reflexivity.
    + cbn [low]. rewrite IH by lia. unfold dget.
      replace (i - 1 <? lenz ds) with false by (symmetry; apply Z.ltb_ge; lia).
      rewrite andb_false_r.
      replace (i - lenz ds) with (1 + (i - 1 - lenz ds)) by lia. rewrite pB_succ by lia.
      replace (Z.of_nat (S k)) with (1 + Z.of_nat k) by lia. rewrite pB_succ by lia.
      replace (dval ds * (10000 * 10000 ^ (i - 1 - lenz ds))) with
        (10000 * (dval ds * 10000 ^ (i - 1 - lenz ds))) by ring.
      pose proof (pB_pos' (Z.of_nat k) ltac:(lia)) as P.
      rewrite Z.mul_mod_distr_l by lia. lia.
Qed.

(** ** Addition of absolute values *)
Lemma add_loop_spec c k : forall ds1 ds2 i1 i2 carry acc,
  Forall dig ds1 -> Forall dig ds2 -> carry = 0 \/ carry = 1 ->
  exists cr nds, add_loop c k ds1 ds2 i1 i2 carry acc = Ret (cr, nds ++ acc) /\
    Forall dig nds /\ lenz nds = Z.of_nat k /\ (cr = 0 \/ cr = 1) /\
    dval nds + cr * 10000 ^ Z.of_nat k = low ds1 i1 k + low ds2 i2 k + carry.
Proof.
  induction k as [|k IH]; intros ds1 ds2 i1 i2 carry acc D1 D2 Hc.
  - exists carry, []. cbn. repeat split; auto; lia.
  - cbn [add_loop low]. rewrite !digit_at_dget. cbn [bind].
    pose proof (dget_dig ds1 (i1 - 1) D1) as A1. pose proof (dget_dig ds2 (i2 - 1) D2) as A2.
    unfold dig in A1, A2. set (a1 := dget ds1 (i1 - 1)) in *. set (a2 := dget ds2 (i2 - 1)) in *.
    rewrite i16_ok by lia. cbn [bind]. rewrite i16_ok by lia. cbn [bind]. unfold NBASE.
    replace (Z.of_nat (S k)) with (1 + Z.of_nat k) by lia. rewrite pB_succ by lia.
    destruct (10000 <=? carry + a1 + a2) eqn:G; zb.
    + destruct (IH ds1 ds2 (i1 - 1) (i2 - 1) 1 (carry + a1 + a2 - 10000 :: acc) D1 D2 (or_intror eq_refl))
        as (cr & nds & E & Dn & Ln & C & V).
      exists cr, (nds ++ [carry + a1 + a2 - 10000]). rewrite E, <- app_assoc. repeat split; auto.
      * apply Forall_app. split; [auto|]. constructor; [unfold dig; lia|auto].
      * rewrite lenz_app, lenz_cons, lenz_nil. lia.
      * rewrite dval_snoc. lia.
    + destruct (IH ds1 ds2 (i1 - 1) (i2 - 1) 0 (carry + a1 + a2 :: acc) D1 D2 (or_introl eq_refl))
        as (cr & nds & E & Dn & Ln & C & V).
      exists cr, (nds ++ [carry + a1 + a2]). rewrite E, <- app_assoc. repeat split; auto.
      * apply Forall_app. split; [auto|]. constructor; [unfold dig; lia|auto].
      * rewrite lenz_app, lenz_cons, lenz_nil. lia.
      * rewrite dval_snoc. lia.
Qed.

Record absres (s : Z) (q : Q) (r : var) : Prop := {
  ar_st : stripped r;
  ar_scale : dscale r = s;
  ar_sign : sign r = SPos;
  ar_val : (aval r == q)%Q
}.

Lemma vval_pos v : sign v = SPos -> (vval v == aval v)%Q.
Proof. intro E. rewrite vval_aval, E. cbn [sgz]. change (inject_Z 1) with 1%Q. ring. Qed.

Lemma strip_sign_pos v : sign v = SPos -> sign (strip v) = SPos.
Proof. intro E. unfold strip. destruct (rev _); cbn; auto. Qed.

Lemma absres_strip w s ds q : Forall dig ds -> (aval (Var w s SPos ds) == q)%Q ->
  absres s q (strip (Var w s SPos ds)).
Proof.
  intros D V. destruct (strip_spec (Var w s SPos ds) D ltac:(discriminate)) as [S E].
  constructor; auto.
  - apply strip_dscale.
  - now apply strip_sign_pos.
  - rewrite <- vval_pos by (now apply strip_sign_pos). rewrite E. rewrite vval_pos by reflexivity. exact V.
Qed.

(** aligning the magnitude of an operand to exponent [-rs] (base 10000) *)
Lemma aval_align v rs : ndigits v - weight v - 1 <= rs ->
  (aval v == dec (mag v * 10000 ^ (rs + weight v + 1 - ndigits v)) (4 * - rs))%Q.
Proof.
  intro H. rewrite pB_ten by lia. rewrite dec_shift by lia. unfold aval, lsd.
  now replace (4 * - rs + 4 * (rs + weight v + 1 - ndigits v)) with (4 * (weight v + 1 - ndigits v)) by lia.
Qed.

Lemma align_bound v i : Forall dig (digits v) -> ndigits v <= i ->
  0 <= mag v * 10000 ^ (i - ndigits v) < 10000 ^ i.
Proof.
  intros D H. pose proof (dval_bound _ D) as B. fold (mag v) (ndigits v) in B.
  assert (0 <= ndigits v) by apply lenz_nonneg.
  pose proof (pB_pos' (i - ndigits v) ltac:(lia)).
  replace (10000 ^ i) with (10000 ^ ndigits v * 10000 ^ (i - ndigits v)) by (rewrite <- pB_add by lia; f_equal; lia).
  nia.
Qed.

Lemma add_abs_spec c v1 v2 : Forall dig (digits v1) -> Forall dig (digits v2) ->
  sign v1 <> SNaN -> sign v2 <> SNaN ->
  exists r, add_abs c v1 v2 = Ret r /\
            absres (Z.max (dscale v1) (dscale v2)) (aval v1 + aval v2) r.
Proof.
  intros D1 D2 N1 N2. unfold add_abs. rewrite (nan_ok c v1 N1), (nan_ok c v2 N2). cbn [bind].
  set (n1 := ndigits v1). set (n2 := ndigits v2). set (w1 := weight v1). set (w2 := weight v2).
  assert (P1 : 0 <= n1) by apply lenz_nonneg. assert (P2 : 0 <= n2) by apply lenz_nonneg.
  set (rs := Z.max (n1 - w1 - 1) (n2 - w2 - 1)).
  set (k := rs + (Z.max w1 w2 + 1) + 1).
  assert (Hk : 0 < k) by (unfold k, rs; lia).
  replace (0 <? k) with true by (symmetry; apply Z.ltb_lt; exact Hk).
  destruct (add_loop_spec c (Z.to_nat k) (digits v1) (digits v2) (rs + w1 + 1) (rs + w2 + 1) 0 []
             D1 D2 (or_introl eq_refl)) as (cr & nds & E & Dn & Ln & C & V).
  rewrite E, app_nil_r. cbn [bind].
  rewrite !low_spec in V by (auto; unfold rs, n1, n2, ndigits; lia).
  change (lenz (digits v1)) with n1 in V. change (lenz (digits v2)) with n2 in V.
  change (dval (digits v1)) with (mag v1) in V. change (dval (digits v2)) with (mag v2) in V.
  rewrite Z2Nat.id in V, Ln by lia.
  pose proof (align_bound v1 (rs + w1 + 1) D1 ltac:(fold n1; unfold rs; lia)) as B1. fold n1 in B1.
  pose proof (align_bound v2 (rs + w2 + 1) D2 ltac:(fold n2; unfold rs; lia)) as B2. fold n2 in B2.
  assert (Le1 : 10000 ^ (rs + w1 + 1) <= 10000 ^ (k - 1)) by (apply Z.pow_le_mono_r; unfold k; lia).
  assert (Le2 : 10000 ^ (rs + w2 + 1) <= 10000 ^ (k - 1)) by (apply Z.pow_le_mono_r; unfold k; lia).
  assert (Ek : 10000 ^ k = 10000 * 10000 ^ (k - 1)).
  { rewrite <- pB_succ by lia. f_equal. lia. }
  pose proof (pB_pos' (k - 1) ltac:(lia)) as Pk.
  rewrite !Z.mod_small in V by lia.
  pose proof (dval_bound nds Dn) as Bn. rewrite Ln in Bn.
  assert (cr = 0) by lia. subst cr.
  rewrite dassert_ok by reflexivity. cbn [bind].
  eexists. split; [reflexivity|]. apply absres_strip; [exact Dn|].
  rewrite (aval_align v1 rs) by (fold n1 w1; unfold rs; lia).
  rewrite (aval_align v2 rs) by (fold n2 w2; unfold rs; lia).
  rewrite dec_add, aval_mk, Ln.
  replace (Z.max w1 w2 + 1 + 1 - k) with (- rs) by (unfold k; lia).
  apply dec_eq_iff. fold n1 n2 w1 w2. lia.
Qed.

(** ** Subtraction of absolute values *)
Lemma sub_loop_spec c k : forall ds1 ds2 i1 i2 borrow acc,
  Forall dig ds1 -> Forall dig ds2 -> borrow = 0 \/ borrow = -1 ->
  exists br nds, sub_loop c k ds1 ds2 i1 i2 borrow acc = Ret (br, nds ++ acc) /\
    Forall dig nds /\ lenz nds = Z.of_nat k /\ (br = 0 \/ br = -1) /\
    dval nds + br * 10000 ^ Z.of_nat k = low ds1 i1 k - low ds2 i2 k + borrow.
Proof.
  induction k as [|k IH]; intros ds1 ds2 i1 i2 borrow acc D1 D2 Hc.
  - exists borrow, []. cbn. repeat split; auto; lia.
  - cbn [sub_loop low]. rewrite !digit_at_dget. cbn [bind].
    pose proof (dget_dig ds1 (i1 - 1) D1) as A1. pose proof (dget_dig ds2 (i2 - 1) D2) as A2.
    unfold dig in A1, A2. set (a1 := dget ds1 (i1 - 1)) in *. set (a2 := dget ds2 (i2 - 1)) in *.
    rewrite i16_ok by lia. cbn [bind]. rewrite i16_ok by lia. cbn [bind]. unfold NBASE.
    replace (Z.of_nat (S k)) with (1 + Z.of_nat k) by lia. rewrite pB_succ by lia.
    destruct (borrow + a1 - a2 <? 0) eqn:G; zb.
    + rewrite i16_ok by lia. cbn [bind].
      destruct (IH ds1 ds2 (i1 - 1) (i2 - 1) (-1) (borrow + a1 - a2 + 10000 :: acc) D1 D2 (or_intror eq_refl))
        as (br & nds & E & Dn & Ln & C & V).
      exists br, (nds ++ [borrow + a1 - a2 + 10000]). rewrite E, <- app_assoc. repeat split; auto.
      * apply Forall_app. split; [auto|]. constructor; [unfold dig; lia|auto].
      * rewrite lenz_app, lenz_cons, lenz_nil. lia.
      * rewrite dval_snoc. lia.
    + destruct (IH ds1 ds2 (i1 - 1) (i2 - 1) 0 (borrow + a1 - a2 :: acc) D1 D2 (or_introl eq_refl))
        as (br & nds & E & Dn & Ln & C & V).
      exists br, (nds ++ [borrow + a1 - a2]). rewrite E, <- app_assoc. repeat split; auto.
      * apply Forall_app. split; [auto|]. constructor; [unfold dig; lia|auto].
      * rewrite lenz_app, lenz_cons, lenz_nil. lia.
      * rewrite dval_snoc. lia.
Qed.

Lemma sub_abs_spec c v1 v2 : Forall dig (digits v1) -> Forall dig (digits v2) ->
  sign v1 <> SNaN -> sign v2 <> SNaN -> (aval v2 < aval v1)%Q ->
  exists r, sub_abs c v1 v2 = Ret r /\
            absres (Z.max (dscale v1) (dscale v2)) (aval v1 - aval v2) r.
Proof.
  intros D1 D2 N1 N2 GT. unfold sub_abs. rewrite (nan_ok c v1 N1), (nan_ok c v2 N2). cbn [bind].
  set (n1 := ndigits v1). set (n2 := ndigits v2). set (w1 := weight v1). set (w2 := weight v2).
  assert (P1 : 0 <= n1) by apply lenz_nonneg. assert (P2 : 0 <= n2) by apply lenz_nonneg.
  set (rs := Z.max (n1 - w1 - 1) (n2 - w2 - 1)).
  set (k := rs + w1 + 1).
  pose proof (align_bound v1 k D1 ltac:(fold n1; unfold k, rs; lia)) as B1. fold n1 in B1.
  pose proof (align_bound v2 (rs + w2 + 1) D2 ltac:(fold n2; unfold rs; lia)) as B2. fold n2 in B2.
  assert (GTz : mag v2 * 10000 ^ (rs + w2 + 1 - n2) < mag v1 * 10000 ^ (k - n1)).
  { rewrite (aval_align v1 rs), (aval_align v2 rs) in GT by (fold n1 w1 n2 w2; unfold rs; lia).
    apply dec_lt_iff in GT. exact GT. }
  assert (Hk : 0 < k).
  { destruct (Z_lt_le_dec 0 n1) as [L|L]; [unfold k, rs; lia|].
    assert (n1 = 0) by lia. assert (digits v1 = []) by (apply lenz_0; exact H).
    unfold mag at 2 in GTz. rewrite H0 in GTz. cbn [dval] in GTz. lia. }
  replace (k <=? 0) with false by (symmetry; apply Z.leb_gt; exact Hk).
  destruct (sub_loop_spec c (Z.to_nat k) (digits v1) (digits v2) k (rs + w2 + 1) 0 []
             D1 D2 (or_introl eq_refl)) as (br & nds & E & Dn & Ln & C & V).
  change (rs + w1 + 1) with k. rewrite E, app_nil_r. cbn [bind].
  rewrite !low_spec in V by (auto; unfold k, rs, n1, n2, ndigits; lia).
  change (lenz (digits v1)) with n1 in V. change (lenz (digits v2)) with n2 in V.
  change (dval (digits v1)) with (mag v1) in V. change (dval (digits v2)) with (mag v2) in V.
  rewrite Z2Nat.id in V, Ln by lia.
  rewrite !Z.mod_small in V by lia.
  pose proof (dval_bound nds Dn) as Bn. rewrite Ln in Bn.
  assert (br = 0) by lia. subst br.
  rewrite dassert_ok by reflexivity. cbn [bind].
  eexists. split; [reflexivity|]. apply absres_strip; [exact Dn|].
  rewrite (aval_align v1 rs) by (fold n1 w1; unfold rs; lia).
  rewrite (aval_align v2 rs) by (fold n2 w2; unfold rs; lia).
  rewrite dec_sub, aval_mk, Ln. replace (w1 + 1 - k) with (- rs) by (unfold k; lia).
  apply dec_eq_iff. fold n1 n2 w1 w2. fold k. lia.
Qed.

(** ** Comparison of absolute values *)
Definition sgn_cmp (s : Z) (p q : Q) : Prop :=
  (s = 0 /\ (p == q)%Q) \/ (s = 1 /\ (q < p)%Q) \/ (s = -1 /\ (p < q)%Q).

Definition dv (w : Z) (ds : list Z) : Q := dec (dval ds) (4 * (w + 1 - lenz ds)).

Lemma dv_cons w d t : (dv w (d :: t) == dec d (4 * w) + dv (w - 1) t)%Q.
Proof.
  unfold dv. rewrite dval_cons, <- dec_add, lenz_cons. apply Qplus_comp.
  - rewrite pB_ten, dec_shift by (auto; pose proof (lenz_nonneg t); lia).
    now replace (4 * (w + 1 - (1 + lenz t)) + 4 * lenz t) with (4 * w) by lia.
  - now replace (w - 1 + 1 - lenz t) with (w + 1 - (1 + lenz t)) by lia.
Qed.

Lemma dv_nonneg w ds : Forall dig ds -> (0 <= dv w ds)%Q.
Proof.
  intro D. unfold dv. rewrite <- (dec_0 (4 * (w + 1 - lenz ds))). apply dec_le_iff. apply (dval_bound _ D).
Qed.

Lemma dv_ub w ds : Forall dig ds -> (dv w ds < p10 (4 * (w + 1)))%Q.
Proof.
  intro D. unfold dv. pose proof (dval_bound _ D) as [_ B]. pose proof (lenz_nonneg ds).
  replace (4 * (w + 1)) with (4 * (w + 1 - lenz ds) + 4 * lenz ds) by lia.
  rewrite <- dec_1, <- dec_shift by lia. rewrite <- pB_ten by lia. apply dec_lt_iff. lia.
Qed.

Lemma dv_lb w d t : Forall dig (d :: t) -> d <> 0 -> (p10 (4 * w) <= dv w (d :: t))%Q.
Proof.
  intros D N. rewrite dv_cons. inversion D as [|? ? Hd Ht]; subst. pose proof (dv_nonneg (w - 1) t Ht).
  assert ((p10 (4 * w) <= dec d (4 * w))%Q).
  { rewrite <- dec_1. apply dec_le_iff. unfold dig in Hd. lia. }
  lra.
Qed.

Lemma dv_nil w : (dv w [] == 0)%Q.
Proof. unfold dv. cbn [dval]. apply dec_0. Qed.

Lemma dv_zero w (t : list Z) : (dv w (0%Z :: t) == dv (w - 1)%Z t)%Q.
Proof. rewrite dv_cons, dec_0. ring. Qed.

Lemma dv_all0 w ds : Forall dig ds -> any_nonzero ds = false -> (dv w ds == 0)%Q.
Proof.
  revert w. induction ds as [|d t IH]; intros w D H; [apply dv_nil|].
  cbn in H. apply orb_false_iff in H. destruct H as [A B].
  apply negb_false_iff in A. zb. subst d. rewrite dv_zero. inversion D; subst. now apply IH.
Qed.

Lemma dv_some w ds : Forall dig ds -> any_nonzero ds = true -> (0 < dv w ds)%Q.
Proof.
  revert w. induction ds as [|d t IH]; intros w D H; [discriminate H|].
  inversion D as [|? ? Hd Ht]; subst. cbn in H. destruct (Z.eqb_spec d 0) as [->|N]; cbn in H.
  - rewrite dv_zero. now apply IH.
  - pose proof (dv_lb w d t D N). pose proof (p10_pos (4 * w)). lra.
Qed.

Lemma cmp_rest_spec w1 w2 ds1 ds2 : Forall dig ds1 -> Forall dig ds2 -> ds1 = [] \/ ds2 = [] ->
  sgn_cmp (cmp_rest ds1 ds2) (dv w1 ds1) (dv w2 ds2).
Proof.
  intros D1 D2 H. unfold cmp_rest, sgn_cmp.
  destruct (any_nonzero ds1) eqn:A1.
  - right. left. split; [reflexivity|]. destruct H as [->| ->]; [discriminate A1|].
    rewrite dv_nil. now apply dv_some.
  - rewrite (dv_all0 w1 ds1 D1 A1). destruct (any_nonzero ds2) eqn:A2.
    + right. right. split; [reflexivity|]. now apply dv_some.
    + left. split; [reflexivity|]. now rewrite (dv_all0 w2 ds2 D2 A2).
Qed.

Lemma cmp_skip_spec ds w1 w2 : Forall dig ds ->
  match cmp_skip ds w1 w2 with
  | None => (p10 (4 * (w2 + 1)) <= dv w1 ds)%Q
  | Some (ds', w') => Forall dig ds' /\ (dv w' ds' == dv w1 ds)%Q /\
      (ds' = [] \/ w' <= w2) /\ (w1 <= w2 -> w' = w1 /\ ds' = ds) /\ (w2 <= w1 -> w2 <= w')
  end.
Proof.
  revert w1. induction ds as [|d t IH]; intros w1 D; cbn [cmp_skip].
  - repeat split; auto.
  - destruct (w2 <? w1) eqn:L; zb.
    + destruct (Z.eqb_spec d 0) as [->|N].
      * inversion D as [|? ? Hd Ht]; subst. specialize (IH (w1 - 1) Ht).
        destruct (cmp_skip t (w1 - 1) w2) as [[ds' w']|].
        -- destruct IH as (A & B & C & _ & F). repeat split; auto; try lia; rewrite B, dv_zero; reflexivity.
        -- rewrite dv_zero. exact IH.
      * pose proof (dv_lb w1 d t D N). apply Qle_trans with (p10 (4 * w1)); [|exact H].
        apply p10_le. lia.
    + repeat split; auto; lia.
Qed.

Lemma cmp_both_spec c ds1 ds2 : forall w, Forall dig ds1 -> Forall dig ds2 ->
  exists r, cmp_both c ds1 ds2 = Ret r /\
  match r with
  | inl s => sgn_cmp s (dv w ds1) (dv w ds2)
  | inr (r1, r2) => sgn_cmp (cmp_rest r1 r2) (dv w ds1) (dv w ds2)
  end.
Proof.
  revert ds2. induction ds1 as [|d1 t1 IH]; intros ds2 w D1 D2.
  - exists (inr ([], ds2)). split; [reflexivity|]. apply cmp_rest_spec; auto.
  - destruct ds2 as [|d2 t2].
    + exists (inr (d1 :: t1, [])). split; [reflexivity|]. apply cmp_rest_spec; auto.
    + inversion D1 as [|? ? Hd1 Ht1]; inversion D2 as [|? ? Hd2 Ht2]; subst. cbn [cmp_both].
      unfold dig in Hd1, Hd2. rewrite i16_ok by lia. cbn [bind].
      destruct (Z.eqb_spec (d1 - d2) 0) as [E|N].
      * assert (d1 = d2) by lia. subst d2.
        destruct (IH t2 (w - 1) Ht1 Ht2) as (r & Er & H). exists r. split; [exact Er|].
        assert (G : forall s, sgn_cmp s (dv (w - 1) t1) (dv (w - 1) t2) ->
                     sgn_cmp s (dv w (d1 :: t1)) (dv w (d1 :: t2))).
        { intros s G. unfold sgn_cmp in *. rewrite !dv_cons.
          destruct G as [[-> G]|[[-> G]|[-> G]]].
          - left. split; [reflexivity|]. now rewrite G.
          - right. left. split; [reflexivity|]. lra.
          - right. right. split; [reflexivity|]. lra. }
        destruct r as [s|[r1 r2]]; now apply G.
      * exists (inl (if 0 <? d1 - d2 then 1 else -1)). split; [reflexivity|].
        pose proof (dv_nonneg (w - 1) t1 Ht1) as A1. pose proof (dv_nonneg (w - 1) t2 Ht2) as A2.
        pose proof (dv_ub (w - 1) t1 Ht1) as B1. pose proof (dv_ub (w - 1) t2 Ht2) as B2.
        replace (w - 1 + 1) with w in B1, B2 by lia.
        unfold sgn_cmp. rewrite !dv_cons.
        destruct (0 <? d1 - d2) eqn:L; zb.
        -- right. left. split; [reflexivity|].
           assert ((dec d2 (4 * w) + p10 (4 * w) <= dec d1 (4 * w))%Q).
           { rewrite <- dec_1, dec_add. apply dec_le_iff. lia. }
           lra.
        -- right. right. split; [reflexivity|].
           assert ((dec d1 (4 * w) + p10 (4 * w) <= dec d2 (4 * w))%Q).
           { rewrite <- dec_1, dec_add. apply dec_le_iff. lia. }
           lra.
Qed.

Lemma sgn_cmp_comp s p q p' q' : (p == p')%Q -> (q == q')%Q -> sgn_cmp s p q -> sgn_cmp s p' q'.
Proof.
  intros E1 E2 H. unfold sgn_cmp in *. rewrite <- E1, <- E2. exact H.
Qed.

Lemma cmp_abs_spec c v1 v2 : Forall dig (digits v1) -> Forall dig (digits v2) ->
  sign v1 <> SNaN -> sign v2 <> SNaN ->
  exists s, cmp_abs c v1 v2 = Ret s /\ sgn_cmp s (aval v1) (aval v2).
Proof.
  intros D1 D2 N1 N2. unfold cmp_abs. rewrite (nan_ok c v1 N1), (nan_ok c v2 N2). cbn [bind].
  change (aval v1) with (dv (weight v1) (digits v1)).
  change (aval v2) with (dv (weight v2) (digits v2)).
  pose proof (cmp_skip_spec (digits v1) (weight v1) (weight v2) D1) as S1.
  destruct (cmp_skip (digits v1) (weight v1) (weight v2)) as [[ds1 w1]|].
  - destruct S1 as (A1 & B1 & C1 & _ & _).
    pose proof (cmp_skip_spec (digits v2) (weight v2) w1 D2) as S2.
    destruct (cmp_skip (digits v2) (weight v2) w1) as [[ds2 w2]|].
    + destruct S2 as (A2 & B2 & C2 & F2 & G2).
      destruct (Z.eqb_spec w1 w2) as [<-|NE].
      * destruct (cmp_both_spec c ds1 ds2 w1 A1 A2) as (r & E & H). rewrite E. cbn [bind].
        destruct r as [s|[r1 r2]]; eexists; (split; [reflexivity|]);
          eapply sgn_cmp_comp; [exact B1|exact B2|exact H|exact B1|exact B2|exact H].
      * eexists; split; [reflexivity|].
        eapply sgn_cmp_comp; [exact B1|exact B2|]. apply cmp_rest_spec; auto.
        destruct C1 as [->|C1]; [auto|]. destruct C2 as [->|C2]; [auto|].
        exfalso. destruct (Z_lt_le_dec w1 (weight v2)) as [L|L].
        -- specialize (G2 ltac:(lia)). lia.
        -- destruct (F2 L) as [E2 E3]. subst w2.
           lia.
    + eexists; split; [reflexivity|]. right. right. split; [reflexivity|].
      rewrite <- B1. pose proof (dv_ub w1 ds1 A1). lra.
  - eexists; split; [reflexivity|]. right. left. split; [reflexivity|].
    pose proof (dv_ub (weight v2) (digits v2) D2). lra.
Qed.
