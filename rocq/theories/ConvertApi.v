(** * ConvertApi: integer conversions. *)
From Coq Require Import ZArith QArith Qabs Qpower List Bool Lia Lqa.
From Verif Require Import Base Var Binary Format Parse Convert Num Spec SpecApi QDec Digits Arith Strip Round CeilFloor Codec Make Api1 FormatText.
Import ListNotations.
Open Scope Z_scope.

(** ** From integers *)

Lemma to_digits_spec bits k : bits <> 8 -> forall val acc, Forall dig acc -> 0 < val < 10000 ^ Z.of_nat k ->
  exists ds, to_digits bits k val acc = Ret ds /\ Forall dig ds /\ dval ds = val * 10000 ^ lenz acc + dval acc /\
    lenz ds <= Z.of_nat k + lenz acc.
Proof.
  intro Nb. induction k as [|k IH]; intros val acc D H; [cbn in H; lia|].
  cbn [to_digits]. unfold next_digit. replace (bits =? 8) with false by (symmetry; now apply Z.eqb_neq).
  change NBASE with 10000. rewrite Z.quot_div_nonneg by lia.
  pose proof (Z.div_mod val 10000 ltac:(lia)) as Dm. pose proof (Z.mod_pos_bound val 10000 ltac:(lia)) as Mb.
  replace (val - val / 10000 * 10000) with (val mod 10000) by lia.
  assert (Ew : as_i16 (val mod 10000) = val mod 10000).
  { unfold as_i16, wrap. change (2 ^ (16 - 1)) with 32768. change (2 ^ 16) with 65536. rewrite Z.mod_small by lia. lia. }
  rewrite Ew. assert (Dd : dig (val mod 10000)) by (unfold dig; lia).
  pose proof (Z.div_pos val 10000 ltac:(lia) ltac:(lia)).
  destruct (Z.eqb_spec (val / 10000) 0) as [Z0|Z0].
  - exists (val mod 10000 :: acc). split; [reflexivity|]. split; [now constructor|]. rewrite dval_cons, lenz_cons. split; [|lia].
    do 2 f_equal. lia.
  - destruct (IH (val / 10000) (val mod 10000 :: acc)) as (ds & E & F & V & L).
    + now constructor.
    + split; [lia|]. apply Z.div_lt_upper_bound; [lia|]. rewrite <- pB_succ by lia.
      replace (1 + Z.of_nat k) with (Z.of_nat (S k)) by lia. lia.
    + exists ds. split; [exact E|]. split; [exact F|]. split.
      * rewrite V, dval_cons, lenz_cons, pB_succ by apply lenz_nonneg. rewrite Dm at 3. ring.
      * rewrite lenz_cons in L. lia.
Qed.

Definition int_width (bits : Z) : Prop := bits = 8 \/ bits = 16 \/ bits = 32 \/ bits = 64 \/ bits = 128.

Lemma width_digits bits : int_width bits -> bits <> 8 -> 2 ^ bits <= 10000 ^ Z.of_nat (max_ndigits bits).
Proof. intros [->|[->|[->|[->| ->]]]] N; [now destruct N|..]; vm_compute; discriminate. Qed.

Lemma unsigned_to_var_spec bits val sg : int_width bits -> 0 < val < 2 ^ bits -> sg <> SNaN ->
  exists v, unsigned_to_var bits val sg = Ret v /\ Forall dig (digits v) /\ sign v <> SNaN /\ dscale v = 0 /\
    weight v <= 32767 /\ (vval v == inject_Z (sgz sg * val))%Q.
Proof.
  intros W H N. unfold unsigned_to_var.
  assert (X : exists ds, to_digits bits (max_ndigits bits) val [] = Ret ds /\ Forall dig ds /\ dval ds = val /\ lenz ds <= 10).
  { destruct (Z.eq_dec bits 8) as [->|Nb].
    - exists [val]. split; [reflexivity|]. change (2 ^ 8) with 256 in H. split; [constructor; [unfold dig; lia|constructor]|].
      split; [cbn; lia|cbn; lia].
    - destruct (to_digits_spec bits (max_ndigits bits) Nb val [] ltac:(constructor)) as (ds & E & F & V & L).
      + pose proof (width_digits bits W Nb). lia.
      + exists ds. split; [exact E|]. split; [exact F|]. split; [rewrite V; cbn; lia|].
        apply Z.le_trans with (1 := L). destruct W as [->|[->|[->|[->| ->]]]]; cbn; lia. }
  destruct X as (ds & -> & F & V & L). cbn [bind]. exists (Var (lenz ds - 1) 0 sg ds). split; [reflexivity|].
  cbn [digits sign dscale weight]. split; [exact F|]. split; [exact N|]. split; [reflexivity|]. split; [lia|].
  unfold vval, smag, mag, lsd, ndigits. cbn [digits sign weight]. rewrite V.
  replace (4 * (lenz ds - 1 + 1 - lenz ds)) with 0 by lia.
  apply dec_Z.
Qed.

Lemma from_signed_var bits val : int_width bits -> - 2 ^ (bits - 1) <= val < 2 ^ (bits - 1) ->
  exists v, from_signed bits val = Ret v /\ Forall dig (digits v) /\ sign v <> SNaN /\ dscale v = 0 /\
    weight v <= 32767 /\ (vval v == inject_Z val)%Q.
Proof.
  intros W H. unfold from_signed. destruct (Z.eqb_spec val 0) as [->|N].
  - exists zero_var. split; [reflexivity|]. split; [constructor|]. split; [discriminate|]. split; [reflexivity|].
    split; [cbn; lia|]. reflexivity.
  - assert (B : 2 ^ bits = 2 * 2 ^ (bits - 1)).
    { rewrite <- Z.pow_succ_r by (destruct W as [->|[->|[->|[->| ->]]]]; lia). f_equal. lia. }
    unfold signed_abs. destruct (Z.leb_spec 0 val) as [P|P]; destruct (Z.ltb_spec val 0) as [Q|Q]; try lia.
    + destruct (unsigned_to_var_spec bits val SPos W) as (v & E & R1 & R2 & R3 & R4 & R5); [lia|discriminate|].
      exists v. split; [exact E|]. split; [exact R1|]. split; [exact R2|]. split; [exact R3|]. split; [exact R4|].
      rewrite R5. cbn [sgz]. now rewrite Z.mul_1_l.
    + destruct (unsigned_to_var_spec bits (- (val + 1) + 1) SNeg W) as (v & E & R1 & R2 & R3 & R4 & R5); [lia|discriminate|].
      exists v. split; [exact E|]. split; [exact R1|]. split; [exact R2|]. split; [exact R3|]. split; [exact R4|].
      rewrite R5. cbn [sgz]. replace (-1 * (- (val + 1) + 1)) with val by lia. reflexivity.
Qed.

Lemma from_unsigned_var bits val : int_width bits -> 0 <= val < 2 ^ bits ->
  exists v, from_unsigned bits val = Ret v /\ Forall dig (digits v) /\ sign v <> SNaN /\ dscale v = 0 /\
    weight v <= 32767 /\ (vval v == inject_Z val)%Q.
Proof.
  intros W H. unfold from_unsigned. destruct (Z.eqb_spec val 0) as [->|N].
  - exists zero_var. split; [reflexivity|]. split; [constructor|]. split; [discriminate|]. split; [reflexivity|].
    split; [cbn; lia|]. reflexivity.
  - destruct (unsigned_to_var_spec bits val SPos W) as (v & E & R1 & R2 & R3 & R4 & R5); [lia|discriminate|].
    exists v. split; [exact E|]. split; [exact R1|]. split; [exact R2|]. split; [exact R3|]. split; [exact R4|].
    rewrite R5. cbn [sgz]. now rewrite Z.mul_1_l.
Qed.

Lemma num_from_signed_spec c bits val : int_width bits -> - 2 ^ (bits - 1) <= val < 2 ^ (bits - 1) ->
  exists x, num_from_signed c bits val = Ret x /\ stores (be_varlen c) x (inject_Z val) 0.
Proof.
  intros W H. destruct (from_signed_var bits val W H) as (v & E & R1 & R2 & R3 & R4 & R5).
  unfold num_from_signed. rewrite E. cbn [bind].
  destruct (make_no_overflow_spec c v R1 R2) as (x & Ex & S); [lia|apply (mult_comp (inject_Z val)); [now symmetry|apply mult_Z; lia]|exact R4|].
  exists x. split; [exact Ex|]. rewrite R3 in S. exact (stores_ext _ _ _ _ _ R5 S).
Qed.

Lemma num_from_unsigned_spec c bits val : int_width bits -> 0 <= val < 2 ^ bits ->
  exists x, num_from_unsigned c bits val = Ret x /\ stores (be_varlen c) x (inject_Z val) 0.
Proof.
  intros W H. destruct (from_unsigned_var bits val W H) as (v & E & R1 & R2 & R3 & R4 & R5).
  unfold num_from_unsigned. rewrite E. cbn [bind].
  destruct (make_no_overflow_spec c v R1 R2) as (x & Ex & S); [lia|apply (mult_comp (inject_Z val)); [now symmetry|apply mult_Z; lia]|exact R4|].
  exists x. split; [exact Ex|]. rewrite R3 in S. exact (stores_ext _ _ _ _ _ R5 S).
Qed.

Lemma num_from_bool_spec c b : exists x, num_from_bool c b = Ret x /\ stores (be_varlen c) x (if b then 1 else 0) 0.
Proof.
  unfold num_from_bool. destruct (num_from_unsigned_spec c 8 (if b then 1 else 0)) as (x & E & S);
    [now left|destruct b; cbn; lia|]. exists x. split; [exact E|]. destruct b; exact S.
Qed.

(** ** To integers *)

Lemma stripped_int v k : stripped v -> digits v <> [] -> (vval v == inject_Z k)%Q ->
  0 <= lsd v /\ 0 <= weight v /\ ndigits v <= weight v + 1 /\ Z.abs k = shifted (digits v) (weight v + 1).
Proof.
  intros S Ne V. pose proof (st_digits v S) as D. pose proof (last_nz_mod _ D (st_last v S) Ne) as Lm. fold (mag v) in Lm.
  assert (A : (dec (mag v) (4 * lsd v) == inject_Z (Z.abs k))%Q).
  { rewrite <- (Qabs_vval v D). rewrite V. apply Qeq_refl. }
  assert (L : 0 <= lsd v).
  { destruct (Z_le_dec 0 (lsd v)) as [L|L]; [exact L|]. exfalso. apply Lm.
    rewrite <- dec_Z in A. pose proof (dec_shift (Z.abs k) (4 * lsd v) (- (4 * lsd v)) ltac:(lia)) as E.
    replace (4 * lsd v + - (4 * lsd v)) with 0 in E by lia. rewrite <- E in A. apply (proj1 (dec_eq_iff _ _ _)) in A.
    rewrite A. replace (- (4 * lsd v)) with (4 * (- lsd v - 1) + 4) by lia. rewrite Z.pow_add_r by lia.
    rewrite Z.mul_assoc. apply Z.mod_mul. lia. }
  assert (N1 : 1 <= ndigits v).
  { unfold ndigits. destruct (digits v) as [|d t] eqn:E; [congruence|]. rewrite lenz_cons. pose proof (lenz_nonneg t). lia. }
  assert (Ll : lsd v = weight v + 1 - ndigits v) by (unfold lsd; lia).
  split; [exact L|]. split; [lia|]. split; [lia|].
  unfold shifted. fold (ndigits v). replace (ndigits v <=? weight v + 1) with true by (symmetry; apply Z.leb_le; lia).
  rewrite pB_ten by lia. replace (weight v + 1 - ndigits v) with (lsd v) by lia.
  apply inject_Z_inj. rewrite <- A. unfold dec, mag. now rewrite inject_Z_mult, <- p10_Z by lia.
Qed.

Lemma shifted_nonneg ds e : Forall dig ds -> 0 <= shifted ds e.
Proof.
  intro D. pose proof (dval_bound ds D). unfold shifted. destruct (Z.leb_spec (lenz ds) e).
  - apply Z.mul_nonneg_nonneg; [lia|]. apply Z.pow_nonneg. lia.
  - apply Z.div_pos; [lia|]. apply pB_pos'. lia.
Qed.

Lemma shifted_mono ds e k : Forall dig ds -> shifted ds e <= shifted ds (e + Z.of_nat k).
Proof.
  intro D. induction k as [|k IH]; [rewrite Z.add_0_r; lia|].
  replace (e + Z.of_nat (S k)) with (e + Z.of_nat k + 1) by lia. rewrite shifted_step by exact D.
  pose proof (doz_dig ds (e + Z.of_nat k) D) as Dz. unfold dig in Dz. pose proof (shifted_nonneg ds (e + Z.of_nat k) D). lia.
Qed.

Lemma doz_index ds i : 0 <= i < lenz ds -> index ds i = Ret (digit_or_zero ds i).
Proof.
  intro H. apply index_ok; [lia|]. unfold digit_or_zero.
  replace ((0 <=? i) && (i <? lenz ds)) with true by (symmetry; apply andb_true_intro; rewrite Z.leb_le, Z.ltb_lt; lia).
  apply nth_error_nth'. unfold lenz in H. lia.
Qed.

Lemma doz_out ds i : lenz ds <= i -> digit_or_zero ds i = 0.
Proof. intro H. unfold digit_or_zero. replace (i <? lenz ds) with false by (symmetry; apply Z.ltb_ge; lia). now rewrite andb_false_r. Qed.

Lemma fits_neg bits x : x <= 0 -> 1 <= bits -> fits_signed bits x = (- x <=? 2 ^ (bits - 1)).
Proof.
  intros H B. unfold fits_signed, fits. pose proof (Z.pow_pos_nonneg 2 (bits - 1) ltac:(lia) ltac:(lia)).
  replace (x <? 2 ^ (bits - 1)) with true by (symmetry; apply Z.ltb_lt; lia). rewrite andb_true_r.
  destruct (Z.leb_spec (- 2 ^ (bits - 1)) x), (Z.leb_spec (- x) (2 ^ (bits - 1))); lia.
Qed.

Lemma into_signed_loop_spec bits ds k : 1 <= bits -> Forall dig ds -> forall i, 0 <= i ->
  into_signed_loop bits k i ds (- shifted ds i) =
    if (Z.of_nat k =? 0) || (shifted ds (i + Z.of_nat k) <=? 2 ^ (bits - 1))
    then Ret (inl (- shifted ds (i + Z.of_nat k))) else Ret (inr COverflow).
Proof.
  intros B D. induction k as [|k IH]; intros i Hi.
  - cbn [into_signed_loop]. rewrite Z.add_0_r. reflexivity.
  - cbn [into_signed_loop]. change NBASE with 10000. pose proof (shifted_nonneg ds i D) as P.
    pose proof (shifted_mono ds (i + 1) k D) as M. replace (i + 1 + Z.of_nat k) with (i + Z.of_nat (S k)) in M by lia.
    pose proof (shifted_step ds i D) as St. pose proof (doz_dig ds i D) as Dz. unfold dig in Dz.
    replace (Z.of_nat (S k) =? 0) with false by (symmetry; apply Z.eqb_neq; lia). cbn [orb].
    rewrite fits_neg by lia. replace (- (- shifted ds i * 10000)) with (shifted ds i * 10000) by lia.
    specialize (IH (i + 1) ltac:(lia)). replace (i + 1 + Z.of_nat k) with (i + Z.of_nat (S k)) in IH by lia.
    assert (IH' : shifted ds (i + 1) <= 2 ^ (bits - 1) -> into_signed_loop bits k (i + 1) ds (- shifted ds (i + 1)) =
       if shifted ds (i + Z.of_nat (S k)) <=? 2 ^ (bits - 1) then Ret (inl (- shifted ds (i + Z.of_nat (S k)))) else Ret (inr COverflow)).
    { intro Hs. rewrite IH. destruct (Z.eqb_spec (Z.of_nat k) 0) as [K0|K0]; cbn [orb]; [|reflexivity].
      replace (shifted ds (i + Z.of_nat (S k)) <=? 2 ^ (bits - 1)) with true; [reflexivity|]. symmetry. apply Z.leb_le.
      replace (i + Z.of_nat (S k)) with (i + 1) by lia. exact Hs. }
    destruct (Z.leb_spec (shifted ds i * 10000) (2 ^ (bits - 1))) as [F|F].
    + destruct (Z.ltb_spec i (lenz ds)) as [L|L].
      * rewrite (doz_index ds i) by lia. cbn [bind]. rewrite fits_neg by lia.
        replace (- shifted ds i * 10000 - digit_or_zero ds i) with (- shifted ds (i + 1)) by lia. rewrite Z.opp_involutive.
        destruct (Z.leb_spec (shifted ds (i + 1)) (2 ^ (bits - 1))) as [G|G]; [now apply IH'|].
        replace (shifted ds (i + Z.of_nat (S k)) <=? 2 ^ (bits - 1)) with false; [reflexivity|]. symmetry. apply Z.leb_gt. lia.
      * rewrite (doz_out ds i L) in St. replace (- shifted ds i * 10000) with (- shifted ds (i + 1)) by lia.
        apply IH'. lia.
    + replace (shifted ds (i + Z.of_nat (S k)) <=? 2 ^ (bits - 1)) with false; [reflexivity|]. symmetry. apply Z.leb_gt. lia.
Qed.

Lemma fits_pos bits x : 0 <= x -> 0 <= bits -> fits_unsigned bits x = (x <? 2 ^ bits).
Proof. intros H B. unfold fits_unsigned. replace (0 <=? x) with true by (symmetry; apply Z.leb_le; lia). reflexivity. Qed.

Lemma into_unsigned_loop_spec bits ds k : 0 <= bits -> Forall dig ds -> forall i, 0 <= i ->
  into_unsigned_loop bits k i ds (shifted ds i) =
    if (Z.of_nat k =? 0) || (shifted ds (i + Z.of_nat k) <? 2 ^ bits)
    then Ret (inl (shifted ds (i + Z.of_nat k))) else Ret (inr COverflow).
Proof.
  intros B D. induction k as [|k IH]; intros i Hi.
  - cbn [into_unsigned_loop]. rewrite Z.add_0_r. reflexivity.
  - cbn [into_unsigned_loop]. change NBASE with 10000. pose proof (shifted_nonneg ds i D) as P.
    pose proof (shifted_mono ds (i + 1) k D) as M. replace (i + 1 + Z.of_nat k) with (i + Z.of_nat (S k)) in M by lia.
    pose proof (shifted_step ds i D) as St. pose proof (doz_dig ds i D) as Dz. unfold dig in Dz.
    replace (Z.of_nat (S k) =? 0) with false by (symmetry; apply Z.eqb_neq; lia). cbn [orb].
    rewrite fits_pos by lia.
    specialize (IH (i + 1) ltac:(lia)). replace (i + 1 + Z.of_nat k) with (i + Z.of_nat (S k)) in IH by lia.
    assert (IH' : shifted ds (i + 1) < 2 ^ bits -> into_unsigned_loop bits k (i + 1) ds (shifted ds (i + 1)) =
       if shifted ds (i + Z.of_nat (S k)) <? 2 ^ bits then Ret (inl (shifted ds (i + Z.of_nat (S k)))) else Ret (inr COverflow)).
    { intro Hs. rewrite IH. destruct (Z.eqb_spec (Z.of_nat k) 0) as [K0|K0]; cbn [orb]; [|reflexivity].
      replace (shifted ds (i + Z.of_nat (S k)) <? 2 ^ bits) with true; [reflexivity|]. symmetry. apply Z.ltb_lt.
      replace (i + Z.of_nat (S k)) with (i + 1) by lia. exact Hs. }
    destruct (Z.ltb_spec (shifted ds i * 10000) (2 ^ bits)) as [F|F].
    + destruct (Z.ltb_spec i (lenz ds)) as [L|L].
      * rewrite (doz_index ds i) by lia. cbn [bind]. rewrite <- St. rewrite fits_pos by lia.
        destruct (Z.ltb_spec (shifted ds (i + 1)) (2 ^ bits)) as [G|G]; [now apply IH'|].
        replace (shifted ds (i + Z.of_nat (S k)) <? 2 ^ bits) with false; [reflexivity|]. symmetry. apply Z.ltb_ge. lia.
      * rewrite (doz_out ds i L) in St. replace (shifted ds i * 10000) with (shifted ds (i + 1)) by lia.
        apply IH'. lia.
    + replace (shifted ds (i + Z.of_nat (S k)) <? 2 ^ bits) with false; [reflexivity|]. symmetry. apply Z.ltb_ge. lia.
Qed.

(** The rounded, stripped value both conversions start from. *)
Lemma rounded_strip c v : Forall dig (digits v) -> sign v <> SNaN ->
  exists r, round_common c v 0 = Ret r /\ stripped (strip r) /\ (vval (strip r) == inject_Z (round_int (vval v)))%Q.
Proof.
  intros D N. destruct (round_common_spec c v 0 D N) as (r & E & R). exists r. split; [exact E|].
  destruct (strip_spec r (rd_digits _ _ _ _ R) (rd_sign _ _ _ _ R)) as [S V]. split; [exact S|].
  rewrite V, (rd_val _ _ _ _ R). apply round_at_0.
Qed.

Lemma first_index ds : ds <> [] -> Forall dig ds -> exists d0, index ds 0 = Ret d0 /\ dig d0 /\ shifted ds 1 = d0.
Proof.
  intros Ne D. destruct ds as [|d t]; [congruence|]. exists d. split; [reflexivity|]. split; [now inversion D|].
  change 1 with (0 + 1). rewrite shifted_step by exact D. rewrite shifted_low by (auto; lia). reflexivity.
Qed.

Lemma sign_of_int v k : stripped v -> digits v <> [] -> (vval v == inject_Z k)%Q ->
  (sign v = SPos /\ 0 < k) \/ (sign v = SNeg /\ k < 0).
Proof.
  intros S Ne V. pose proof (stripped_pos v S Ne) as P. pose proof (st_nan v S) as Nn.
  unfold vval, smag in V.
  destruct (sign v) eqn:Es; [left|right|congruence]; split; try reflexivity; cbn [sgz] in V.
  - destruct (Z_lt_dec 0 k) as [H|H]; [exact H|]. exfalso.
    assert (L : (0 < dec (1 * mag v) (4 * lsd v))%Q) by (rewrite <- (dec_0 (4 * lsd v)); apply dec_lt_iff; lia).
    rewrite V in L. unfold Qlt in L. cbn in L. lia.
  - destruct (Z_lt_dec k 0) as [H|H]; [exact H|]. exfalso.
    assert (L : (dec (-1 * mag v) (4 * lsd v) < 0)%Q) by (rewrite <- (dec_0 (4 * lsd v)); apply dec_lt_iff; lia).
    rewrite V in L. unfold Qlt in L. cbn in L. lia.
Qed.

Definition in_signed (bits k : Z) : bool := (- 2 ^ (bits - 1) <=? k) && (k <? 2 ^ (bits - 1)).
Definition in_unsigned (bits k : Z) : bool := (0 <=? k) && (k <? 2 ^ bits).

Lemma pow15 bits : 16 <= bits -> 32768 <= 2 ^ (bits - 1).
Proof. intro H. change 32768 with (2 ^ 15). apply Z.pow_le_mono_r; lia. Qed.

Lemma into_signed_spec c bits v : 16 <= bits -> Forall dig (digits v) -> sign v <> SNaN ->
  into_signed c bits v = Ret (if in_signed bits (round_int (vval v)) then inl (round_int (vval v)) else inr COverflow).
Proof.
  intros B D N. unfold into_signed. rewrite dassert_ok by (apply Z.leb_le; lia). cbn [bind].
  replace (is_nan v) with false by (unfold is_nan; destruct (sign v); [reflexivity|reflexivity|congruence]).
  destruct (rounded_strip c v D N) as (r & -> & S & V). cbn [bind]. set (s := strip r) in *.
  set (k := round_int (vval v)) in *. pose proof (st_digits s S) as Ds. pose proof (pow15 bits B) as P15.
  unfold in_signed.
  destruct (Z.eqb_spec (ndigits s) 0) as [Z0|Z0].
  - assert (E : digits s = []) by now apply lenz_0. assert (K0 : k = 0).
    { apply (proj2 (stripped_zero_iff s S)) in E. rewrite V in E. unfold Qeq in E. cbn in E. lia. }
    rewrite K0. replace ((- 2 ^ (bits - 1) <=? 0) && (0 <? 2 ^ (bits - 1))) with true; [reflexivity|].
    symmetry. apply andb_true_intro. rewrite Z.leb_le, Z.ltb_lt. lia.
  - assert (Ne : digits s <> []) by (intro E; apply Z0; unfold ndigits; now rewrite E).
    destruct (stripped_int s k S Ne V) as (_ & W0 & Wn & Ab).
    rewrite !dassert_ok by (apply Z.leb_le; lia). cbn [bind].
    destruct (first_index (digits s) Ne Ds) as (d0 & Ei & Dd & Sh). rewrite Ei. cbn [bind]. unfold dig in Dd.
    rewrite dassert_ok. 2:{ unfold fits_signed, fits. apply andb_true_intro. rewrite Z.leb_le, Z.ltb_lt. lia. }
    cbn [bind]. rewrite <- Sh. rewrite into_signed_loop_spec by (auto; lia). rewrite Z2Nat.id by lia.
    replace (1 + weight s) with (weight s + 1) by lia. rewrite <- Ab.
    assert (Hc : ((weight s =? 0) || (Z.abs k <=? 2 ^ (bits - 1))) = (Z.abs k <=? 2 ^ (bits - 1))).
    { destruct (Z.eqb_spec (weight s) 0) as [W1|_]; cbn [orb]; [|reflexivity]. symmetry. apply Z.leb_le.
      rewrite Ab, W1. change (0 + 1) with 1. lia. }
    rewrite Hc. unfold is_negative.
    destruct (sign_of_int s k S Ne V) as [[Es Pk]|[Es Pk]]; rewrite Es; cbn [sgn_eqb].
    + destruct (Z.leb_spec (Z.abs k) (2 ^ (bits - 1))) as [L|L]; cbn [bind].
      * destruct (Z.eqb_spec (- Z.abs k) (- 2 ^ (bits - 1))) as [Q|Q].
        -- replace (k <? 2 ^ (bits - 1)) with false by (symmetry; apply Z.ltb_ge; lia). now rewrite andb_false_r.
        -- replace ((- 2 ^ (bits - 1) <=? k) && (k <? 2 ^ (bits - 1))) with true.
           { do 2 f_equal. lia. } symmetry. apply andb_true_intro. rewrite Z.leb_le, Z.ltb_lt. lia.
      * replace (k <? 2 ^ (bits - 1)) with false by (symmetry; apply Z.ltb_ge; lia). now rewrite andb_false_r.
    + destruct (Z.leb_spec (Z.abs k) (2 ^ (bits - 1))) as [L|L]; cbn [bind].
      * replace ((- 2 ^ (bits - 1) <=? k) && (k <? 2 ^ (bits - 1))) with true.
        { do 2 f_equal. lia. } symmetry. apply andb_true_intro. rewrite Z.leb_le, Z.ltb_lt. lia.
      * replace (- 2 ^ (bits - 1) <=? k) with false by (symmetry; apply Z.leb_gt; lia). reflexivity.
Qed.

Lemma into_unsigned_spec c bits v : 16 <= bits -> Forall dig (digits v) -> sign v <> SNaN ->
  into_unsigned c bits v = Ret (if in_unsigned bits (round_int (vval v)) then inl (round_int (vval v)) else inr COverflow).
Proof.
  intros B D N. unfold into_unsigned. rewrite dassert_ok by (apply Z.leb_le; lia). cbn [bind].
  replace (is_nan v) with false by (unfold is_nan; destruct (sign v); [reflexivity|reflexivity|congruence]).
  destruct (rounded_strip c v D N) as (r & -> & S & V). cbn [bind]. set (s := strip r) in *.
  set (k := round_int (vval v)) in *. pose proof (st_digits s S) as Ds. pose proof (pow15 bits B) as P15.
  assert (P16 : 2 ^ (bits - 1) <= 2 ^ bits) by (apply Z.pow_le_mono_r; lia).
  unfold in_unsigned.
  destruct (Z.eqb_spec (ndigits s) 0) as [Z0|Z0].
  - assert (E : digits s = []) by now apply lenz_0. assert (K0 : k = 0).
    { apply (proj2 (stripped_zero_iff s S)) in E. rewrite V in E. unfold Qeq in E. cbn in E. lia. }
    rewrite K0. replace ((0 <=? 0) && (0 <? 2 ^ bits)) with true; [reflexivity|].
    symmetry. apply andb_true_intro. rewrite Z.leb_le, Z.ltb_lt. lia.
  - assert (Ne : digits s <> []) by (intro E; apply Z0; unfold ndigits; now rewrite E).
    destruct (stripped_int s k S Ne V) as (_ & W0 & Wn & Ab). unfold is_negative.
    destruct (sign_of_int s k S Ne V) as [[Es Pk]|[Es Pk]]; rewrite Es; cbn [sgn_eqb].
    + rewrite !dassert_ok by (apply Z.leb_le; lia). cbn [bind].
      destruct (first_index (digits s) Ne Ds) as (d0 & Ei & Dd & Sh). rewrite Ei. cbn [bind]. unfold dig in Dd.
      rewrite <- Sh. rewrite into_unsigned_loop_spec by (auto; lia). rewrite Z2Nat.id by lia.
      replace (1 + weight s) with (weight s + 1) by lia. rewrite <- Ab.
      assert (Hc : ((weight s =? 0) || (Z.abs k <? 2 ^ bits)) = (Z.abs k <? 2 ^ bits)).
      { destruct (Z.eqb_spec (weight s) 0) as [W1|_]; cbn [orb]; [|reflexivity]. symmetry. apply Z.ltb_lt.
        rewrite Ab, W1. change (0 + 1) with 1. lia. }
      rewrite Hc. replace (0 <=? k) with true by (symmetry; apply Z.leb_le; lia). cbn [andb].
      replace (Z.abs k) with k by lia. destruct (k <? 2 ^ bits); reflexivity.
    + replace (0 <=? k) with false by (symmetry; apply Z.leb_gt; lia). reflexivity.
Qed.

Lemma var_to_signed_spec c bits v : int_width bits -> Forall dig (digits v) -> sign v <> SNaN ->
  var_to_signed c bits v = Ret (if in_signed bits (round_int (vval v)) then inl (round_int (vval v)) else inr COverflow).
Proof.
  intros W D N. unfold var_to_signed. destruct (Z.eqb_spec bits 8) as [->|Nb].
  - rewrite into_signed_spec by (auto; lia). set (k := round_int (vval v)). unfold in_signed.
    change (2 ^ (16 - 1)) with 32768. change (2 ^ (8 - 1)) with 128.
    destruct (Z.leb_spec (-(32768)) k); destruct (Z.ltb_spec k 32768); cbn [andb bind];
      destruct (Z.leb_spec (-(128)) k); destruct (Z.ltb_spec k 128); cbn [andb]; try lia;
      destruct (Z.ltb_spec 127 k); destruct (Z.ltb_spec k (-128)); cbn [orb]; try lia; reflexivity.
  - apply into_signed_spec; auto. destruct W as [->|[->|[->|[->| ->]]]]; [congruence|lia|lia|lia|lia].
Qed.

Lemma var_to_unsigned_spec c bits v : int_width bits -> Forall dig (digits v) -> sign v <> SNaN ->
  var_to_unsigned c bits v = Ret (if in_unsigned bits (round_int (vval v)) then inl (round_int (vval v)) else inr COverflow).
Proof.
  intros W D N. unfold var_to_unsigned. destruct (Z.eqb_spec bits 8) as [->|Nb].
  - rewrite into_unsigned_spec by (auto; lia). set (k := round_int (vval v)). unfold in_unsigned.
    change (2 ^ 16) with 65536. change (2 ^ 8) with 256.
    destruct (Z.leb_spec 0 k); destruct (Z.ltb_spec k 65536); cbn [andb bind];
      destruct (Z.ltb_spec k 256); cbn [andb]; try lia;
      try (destruct (Z.ltb_spec 255 k); try lia); reflexivity.
  - apply into_unsigned_spec; auto. destruct W as [->|[->|[->|[->| ->]]]]; [congruence|lia|lia|lia|lia].
Qed.

Lemma to_signed_spec c bits x q s : int_width bits -> stores (be_varlen c) x q s ->
  let r := Ret (if in_signed bits (round_int q) then inl (round_int q) else inr COverflow) in
  num_to_signed c bits x = r /\ buf_to_signed c bits x = r.
Proof.
  intros W H. destruct (stores_elim _ _ _ _ H) as (v & C & -> & V & <-). cbv zeta.
  unfold num_to_signed, buf_to_signed. rewrite (as_var_spec c v (canon_storable v C)), (into_var_spec c v (canon_storable v C)).
  cbn [bind]. rewrite var_to_signed_spec by (auto using canon_dig, canon_nan). rewrite (round_int_comp _ _ V). tauto.
Qed.

Lemma to_unsigned_spec c bits x q s : int_width bits -> stores (be_varlen c) x q s ->
  let r := Ret (if in_unsigned bits (round_int q) then inl (round_int q) else inr COverflow) in
  num_to_unsigned c bits x = r /\ buf_to_unsigned c bits x = r.
Proof.
  intros W H. destruct (stores_elim _ _ _ _ H) as (v & C & -> & V & <-). cbv zeta.
  unfold num_to_unsigned, buf_to_unsigned. rewrite (as_var_spec c v (canon_storable v C)), (into_var_spec c v (canon_storable v C)).
  cbn [bind]. rewrite var_to_unsigned_spec by (auto using canon_dig, canon_nan). rewrite (round_int_comp _ _ V). tauto.
Qed.

Lemma nan_into_var c : into_var c (nan_layout (be_varlen c)) = Ret nan_var.
Proof. destruct c as [[] []]; reflexivity. Qed.

Lemma nan_to_int c bits x : int_width bits -> stores_nan (be_varlen c) x ->
  num_to_signed c bits x = Ret (inr CInvalid) /\ buf_to_signed c bits x = Ret (inr CInvalid) /\
  num_to_unsigned c bits x = Ret (inr CInvalid) /\ buf_to_unsigned c bits x = Ret (inr CInvalid).
Proof.
  intros W ->. unfold num_to_signed, buf_to_signed, num_to_unsigned, buf_to_unsigned.
  rewrite nan_as_var, nan_into_var. cbn [bind].
  destruct c as [[] b]; destruct W as [->|[->|[->|[->| ->]]]]; split; try split; try split; reflexivity.
Qed.

(** The four clauses together, as a relation. *)
Lemma to_signed_iff c bits x q s k : int_width bits -> stores (be_varlen c) x q s ->
  (num_to_signed c bits x = Ret (inl k) <-> k = round_int q /\ - 2 ^ (bits - 1) <= k < 2 ^ (bits - 1)) /\
  (num_to_signed c bits x = Ret (inr COverflow) <-> ~ (- 2 ^ (bits - 1) <= round_int q < 2 ^ (bits - 1))) /\
  buf_to_signed c bits x = num_to_signed c bits x.
Proof.
  intros W H. destruct (to_signed_spec c bits x q s W H) as [E1 E2]. cbv zeta in E1, E2. rewrite E1, E2. unfold in_signed.
  split; [|split; [|reflexivity]];
  destruct (Z.leb_spec (- 2 ^ (bits - 1)) (round_int q)); destruct (Z.ltb_spec (round_int q) (2 ^ (bits - 1))); cbn [andb];
    (split; [intro G; try discriminate G; try (injection G as <-); lia|intro G; try lia]); try reflexivity.
  destruct G as [-> _]. reflexivity.
Qed.

Lemma to_unsigned_iff c bits x q s k : int_width bits -> stores (be_varlen c) x q s ->
  (num_to_unsigned c bits x = Ret (inl k) <-> k = round_int q /\ 0 <= k < 2 ^ bits) /\
  (num_to_unsigned c bits x = Ret (inr COverflow) <-> ~ (0 <= round_int q < 2 ^ bits)) /\
  buf_to_unsigned c bits x = num_to_unsigned c bits x.
Proof.
  intros W H. destruct (to_unsigned_spec c bits x q s W H) as [E1 E2]. cbv zeta in E1, E2. rewrite E1, E2. unfold in_unsigned.
  split; [|split; [|reflexivity]];
  destruct (Z.leb_spec 0 (round_int q)); destruct (Z.ltb_spec (round_int q) (2 ^ bits)); cbn [andb];
    (split; [intro G; try discriminate G; try (injection G as <-); lia|intro G; try lia]); try reflexivity.
  destruct G as [-> _]. reflexivity.
Qed.

Lemma signed_round_trip c bits k : int_width bits -> - 2 ^ (bits - 1) <= k < 2 ^ (bits - 1) ->
  exists x, num_from_signed c bits k = Ret x /\ num_to_signed c bits x = Ret (inl k) /\ buf_to_signed c bits x = Ret (inl k).
Proof.
  intros W H. destruct (num_from_signed_spec c bits k W H) as (x & E & S). exists x. split; [exact E|].
  destruct (to_signed_iff c bits x _ _ k W S) as (A & _ & B). rewrite B. assert (G : num_to_signed c bits x = Ret (inl k)); [|tauto].
  apply A. split; [now rewrite round_int_Z|exact H].
Qed.

Lemma unsigned_round_trip c bits k : int_width bits -> 0 <= k < 2 ^ bits ->
  exists x, num_from_unsigned c bits k = Ret x /\ num_to_unsigned c bits x = Ret (inl k) /\ buf_to_unsigned c bits x = Ret (inl k).
Proof.
  intros W H. destruct (num_from_unsigned_spec c bits k W H) as (x & E & S). exists x. split; [exact E|].
  destruct (to_unsigned_iff c bits x _ _ k W S) as (A & _ & B). rewrite B. assert (G : num_to_unsigned c bits x = Ret (inl k)); [|tauto].
  apply A. split; [now rewrite round_int_Z|exact H].
Qed.

Lemma convert_profiles be bits x : int_width bits -> valid be x ->
  num_to_signed (Cfg true be) bits x = num_to_signed (Cfg false be) bits x /\
  num_to_unsigned (Cfg true be) bits x = num_to_unsigned (Cfg false be) bits x.
Proof.
  intros W [N|(q & s & S)].
  - destruct (nan_to_int (Cfg true be) bits x W N) as (-> & _ & -> & _). destruct (nan_to_int (Cfg false be) bits x W N) as (-> & _ & -> & _). tauto.
  - destruct (to_signed_spec (Cfg true be) bits x q s W S) as [-> _]. destruct (to_signed_spec (Cfg false be) bits x q s W S) as [-> _].
    destruct (to_unsigned_spec (Cfg true be) bits x q s W S) as [-> _]. destruct (to_unsigned_spec (Cfg false be) bits x q s W S) as [-> _]. tauto.
Qed.

Lemma from_profiles be bits k : int_width bits ->
  (- 2 ^ (bits - 1) <= k < 2 ^ (bits - 1) -> num_from_signed (Cfg true be) bits k = num_from_signed (Cfg false be) bits k) /\
  (0 <= k < 2 ^ bits -> num_from_unsigned (Cfg true be) bits k = num_from_unsigned (Cfg false be) bits k).
Proof.
  intro W. split; intro H.
  - destruct (num_from_signed_spec (Cfg true be) bits k W H) as (x & -> & S). destruct (num_from_signed_spec (Cfg false be) bits k W H) as (y & -> & T).
    f_equal. exact (stores_unique _ _ _ _ _ S T).
  - destruct (num_from_unsigned_spec (Cfg true be) bits k W H) as (x & -> & S). destruct (num_from_unsigned_spec (Cfg false be) bits k W H) as (y & -> & T).
    f_equal. exact (stores_unique _ _ _ _ _ S T).
Qed.
