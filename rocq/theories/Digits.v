(** * Digits: the integer denoted by a digit string, and the value of a [var]. *)
From Coq Require Import ZArith QArith Qround Qpower Qabs List Bool Lia.
From Verif Require Import Base Var Spec QDec.
Import ListNotations.
Open Scope Z_scope.

Ltac zb := repeat match goal with
  | H : (_ <? _) = true |- _ => apply Z.ltb_lt in H
  | H : (_ <? _) = false |- _ => apply Z.ltb_ge in H
  | H : (_ <=? _) = true |- _ => apply Z.leb_le in H
  | H : (_ <=? _) = false |- _ => apply Z.leb_gt in H
  | H : (_ =? _) = true |- _ => apply Z.eqb_eq in H
  | H : (_ =? _) = false |- _ => apply Z.eqb_neq in H
  | H : _ && _ = true |- _ => apply andb_true_iff in H; destruct H
  | H : _ || _ = false |- _ => apply orb_false_iff in H; destruct H
  end.

Definition dig (d : Z) : Prop := 0 <= d <= 9999.

Fixpoint dval (ds : list Z) : Z :=
  match ds with
  | [] => 0
  | d :: t => d * 10000 ^ lenz t + dval t
  end.

Lemma lenz_nonneg {A} (l : list A) : 0 <= lenz l.
Proof. unfold lenz. lia. Qed.
Global Hint Resolve lenz_nonneg : core.

Lemma lenz_nil {A} : lenz (@nil A) = 0.
Proof. reflexivity. Qed.
Lemma lenz_cons {A} (a : A) l : lenz (a :: l) = 1 + lenz l.
Proof. unfold lenz. cbn [length]. lia. Qed.
Lemma lenz_app {A} (l1 l2 : list A) : lenz (l1 ++ l2) = lenz l1 + lenz l2.
Proof. unfold lenz. rewrite app_length. lia. Qed.
Lemma lenz_rev {A} (l : list A) : lenz (rev l) = lenz l.
Proof. unfold lenz. now rewrite rev_length. Qed.
Lemma lenz_map {A B} (f : A -> B) l : lenz (map f l) = lenz l.
Proof. unfold lenz. now rewrite map_length. Qed.
Lemma lenz_zeros n : 0 <= n -> lenz (zeros n) = n.
Proof. intro H. unfold lenz, zeros. rewrite repeat_length. lia. Qed.
Lemma lenz_firstn {A} k (l : list A) : 0 <= k <= lenz l -> lenz (firstn (Z.to_nat k) l) = k.
Proof. unfold lenz. intro H. rewrite firstn_length. lia. Qed.
Lemma lenz_skipn {A} k (l : list A) : 0 <= k <= lenz l -> lenz (skipn (Z.to_nat k) l) = lenz l - k.
Proof. unfold lenz. intro H. rewrite skipn_length. lia. Qed.
Lemma lenz_0 {A} (l : list A) : lenz l = 0 -> l = [].
Proof. destruct l; [reflexivity|]. rewrite lenz_cons. pose proof (lenz_nonneg l). lia. Qed.
Lemma to_nat_lenz {A} (l : list A) : Z.to_nat (lenz l) = length l.
Proof. unfold lenz. lia. Qed.

Lemma pB_pos k : 0 < 10000 ^ k \/ k < 0.
Proof. destruct (Z_lt_le_dec k 0); [now right|left]. apply Z.pow_pos_nonneg; lia. Qed.
Lemma pB_pos' k : 0 <= k -> 0 < 10000 ^ k.
Proof. intro. apply Z.pow_pos_nonneg; lia. Qed.
Lemma pB_len {A} (l : list A) : 0 < 10000 ^ lenz l.
Proof. apply pB_pos'. apply lenz_nonneg. Qed.
Lemma pB_ten k : 0 <= k -> 10000 ^ k = 10 ^ (4 * k).
Proof. intro H. rewrite Z.pow_mul_r by lia. reflexivity. Qed.
Lemma pB_add a b : 0 <= a -> 0 <= b -> 10000 ^ (a + b) = 10000 ^ a * 10000 ^ b.
Proof. apply Z.pow_add_r. Qed.
Lemma pB_succ a : 0 <= a -> 10000 ^ (1 + a) = 10000 * 10000 ^ a.
Proof. intro. rewrite pB_add by lia. reflexivity. Qed.
Lemma pT_pos k : 0 <= k -> 0 < 10 ^ k.
Proof. intro. apply Z.pow_pos_nonneg; lia. Qed.

Lemma dval_app a b : dval (a ++ b) = dval a * 10000 ^ lenz b + dval b.
Proof.
  induction a as [|x a IH]; cbn [app dval]; [lia|].
  rewrite IH, lenz_app, pB_add by apply lenz_nonneg. ring.
Qed.

Lemma dval_cons d t : dval (d :: t) = d * 10000 ^ lenz t + dval t.
Proof. reflexivity. Qed.

Lemma dval_snoc a d : dval (a ++ [d]) = dval a * 10000 + d.
Proof. rewrite dval_app. cbn. unfold lenz. cbn. lia. Qed.

Lemma dval_bound ds : Forall dig ds -> 0 <= dval ds < 10000 ^ lenz ds.
Proof.
  induction 1 as [|d t Hd Ht IH]; [cbn; lia|].
  cbn [dval]. rewrite lenz_cons, pB_succ by apply lenz_nonneg.
  unfold dig in Hd. pose proof (pB_len t). nia.
Qed.

Lemma dval_repeat0 k : dval (repeat 0 k) = 0.
Proof. induction k as [|k IH]; cbn [repeat dval]; [reflexivity|]. rewrite IH. lia. Qed.

Lemma dval_zeros n : dval (zeros n) = 0.
Proof. apply dval_repeat0. Qed.

Lemma dval_pos d t : Forall dig (d :: t) -> d <> 0 -> 10000 ^ lenz t <= dval (d :: t).
Proof.
  intros H N. inversion H as [|? ? Hd Ht]; subst. cbn [dval].
  pose proof (dval_bound t Ht). unfold dig in Hd. pose proof (pB_len t). nia.
Qed.

Lemma dval_inj a b : lenz a = lenz b -> Forall dig a -> Forall dig b -> dval a = dval b -> a = b.
Proof.
  revert b. induction a as [|x a IH]; intros [|y b] HL Ha Hb E; try reflexivity.
  - rewrite lenz_nil, lenz_cons in HL. pose proof (lenz_nonneg b). lia.
  - rewrite lenz_nil, lenz_cons in HL. pose proof (lenz_nonneg a). lia.
  - rewrite !lenz_cons in HL. assert (HL' : lenz a = lenz b) by lia.
    inversion Ha as [|? ? Hx Ha']; inversion Hb as [|? ? Hy Hb']; subst.
    cbn [dval] in E. pose proof (dval_bound a Ha') as Ba. pose proof (dval_bound b Hb') as Bb.
    rewrite HL' in *. assert (x = y) by nia. subst y. f_equal. apply IH; auto. lia.
Qed.

Lemma dval_all0 ds : Forall dig ds -> dval ds = 0 -> Forall (fun d => d = 0) ds.
Proof.
  induction 1 as [|d t Hd Ht IH]; intro E; constructor.
  - cbn [dval] in E. pose proof (dval_bound t Ht). pose proof (pB_len t). unfold dig in Hd. nia.
  - apply IH. cbn [dval] in E. pose proof (dval_bound t Ht). pose proof (pB_len t).
    unfold dig in Hd. nia.
Qed.

Lemma dval_firstn_skipn k ds : dval ds = dval (firstn k ds) * 10000 ^ lenz (skipn k ds) + dval (skipn k ds).
Proof. rewrite <- dval_app. now rewrite firstn_skipn. Qed.

Lemma Forall_dig_firstn k ds : Forall dig ds -> Forall dig (firstn k ds).
Proof. intro H. rewrite <- (firstn_skipn k ds) in H. now apply Forall_app in H. Qed.
Lemma Forall_dig_skipn k ds : Forall dig ds -> Forall dig (skipn k ds).
Proof. intro H. rewrite <- (firstn_skipn k ds) in H. now apply Forall_app in H. Qed.

(** dividing by the low digits *)
Lemma dval_firstn_div k ds : Forall dig ds ->
  dval (firstn k ds) = dval ds / 10000 ^ lenz (skipn k ds).
Proof.
  intro H. rewrite (dval_firstn_skipn k ds).
  pose proof (dval_bound _ (Forall_dig_skipn k ds H)).
  rewrite Z.div_add_l by lia. rewrite Z.div_small by lia. lia.
Qed.

Lemma dig_zeros n : Forall dig (zeros n).
Proof. unfold zeros. apply Forall_forall. intros x Hx. apply repeat_spec in Hx. subst. unfold dig. lia. Qed.

(** ** Value of a [var] *)
Definition sgz (s : sgn) : Z := match s with SNeg => -1 | _ => 1 end.

(** weight of the last digit *)
Definition lsd (v : var) : Z := weight v + 1 - ndigits v.
Definition mag (v : var) : Z := dval (digits v).
Definition smag (v : var) : Z := sgz (sign v) * mag v.
Definition vval (v : var) : Q := dec (smag v) (4 * lsd v).

Definition to_number (v : var) : number :=
  Number (sgn_eqb (sign v) SNeg) (weight v) (dscale v) (digits v).

Definition of_number (n : number) : var :=
  Var (wt n) (scale n) (if neg n then SNeg else SPos) (digs n).

Lemma to_of_number n : to_number (of_number n) = n.
Proof. destruct n as [[|] w s ds]; reflexivity. Qed.

Lemma digits_value_dval w ds :
  (digits_value w ds == dec (dval ds) (4 * (w + 1 - lenz ds)))%Q.
Proof.
  revert w. induction ds as [|d t IH]; intro w; cbn [digits_value dval].
  - now rewrite dec_0.
  - rewrite IH, NB_pow. rewrite lenz_cons.
    rewrite <- dec_add. apply Qplus_comp; [|now rewrite Z.sub_add_distr, Z.add_simpl_r, Z.sub_add; replace (w - 1 + 1 - lenz t) with (w + 1 - (1 + lenz t)) by lia].
    rewrite pB_ten by apply lenz_nonneg.
    rewrite dec_shift by (pose proof (lenz_nonneg t); lia).
    unfold dec. now replace (4 * (w + 1 - (1 + lenz t)) + 4 * lenz t) with (4 * w) by lia.
Qed.

Lemma value_vval v : sign v <> SNaN -> (value (to_number v) == vval v)%Q.
Proof.
  intro N. unfold value, vval, smag, mag, lsd, ndigits. cbn [neg wt digs to_number].
  rewrite digits_value_dval. destruct v as [w ds [| |] l]; cbn in *; try congruence.
  - destruct (dval l); ring.
  - replace (match dval l with 0 => 0 | Z.pos y' => Z.neg y' | Z.neg y' => Z.pos y' end)
      with (- dval l) by (destruct (dval l); reflexivity).
    rewrite <- dec_opp. ring.
Qed.

Lemma vval_of_number n : (vval (of_number n) == value n)%Q.
Proof.
  rewrite <- (to_of_number n) at 2. symmetry. apply value_vval. destruct n as [[|] ? ? ?]; discriminate.
Qed.

(** ** Stripped variables *)
Record stripped (v : var) : Prop := {
  st_digits : Forall dig (digits v);
  st_first : forall d t, digits v = d :: t -> d <> 0;
  st_last : forall d t, digits v = t ++ [d] -> d <> 0;
  st_zero : digits v = [] -> sign v = SPos /\ weight v = 0;
  st_nan : sign v <> SNaN
}.

(** [v] has an integral value at its display scale. *)
Definition fracok (v : var) : Prop := exists k : Z, (vval v * p10 (dscale v) == inject_Z k)%Q.

Record canon (v : var) : Prop := {
  cn_st : stripped v;
  cn_weight : -32767 <= weight v <= 32767;
  cn_scale : 0 <= dscale v <= 16383;
  cn_frac : fracok v
}.

Lemma canon_canonical v : canon v -> canonical (to_number v).
Proof.
  intros [[H1 H2 H3 H4 H5] H6 H7 [k Hk]]. constructor; cbn; auto.
  - intro E. destruct (H4 E) as [-> ->]. auto.
  - exists k. rewrite value_vval by exact H5. exact Hk.
Qed.

Lemma canonical_canon n : canonical n -> canon (of_number n).
Proof.
  intros [H1 H2 H3 H4 H5 H6 [k Hk]]. constructor; cbn; auto.
  - constructor; cbn; auto.
    + intro E. destruct (H4 E) as [-> ->]. auto.
    + destruct (neg n); discriminate.
  - exists k. rewrite vval_of_number. exact Hk.
Qed.

Lemma canon_of_to v : canon v -> of_number (to_number v) = v.
Proof. intros [[_ _ _ _ N] _ _ _]. destruct v as [w s [| |] l]; cbn in N; [reflexivity|reflexivity|congruence]. Qed.

(** magnitude bounds of a stripped non-zero variable *)
Lemma stripped_mag v d t : stripped v -> digits v = d :: t ->
  10000 ^ (ndigits v - 1) <= mag v < 10000 ^ ndigits v.
Proof.
  intros S E. pose proof (st_digits v S) as D. unfold mag, ndigits. split.
  - rewrite E in *. rewrite lenz_cons. replace (1 + lenz t - 1) with (lenz t) by lia.
    apply dval_pos; [exact D| exact (st_first v S d t E)].
  - now apply dval_bound.
Qed.

Lemma stripped_pos v : stripped v -> digits v <> [] -> 0 < mag v.
Proof.
  intros S N. destruct (digits v) as [|d t] eqn:E; [congruence|].
  pose proof (stripped_mag v d t S E). assert (0 < 10000 ^ (ndigits v - 1)); [|lia].
  apply pB_pos'. unfold ndigits. rewrite E, lenz_cons. pose proof (lenz_nonneg t). lia.
Qed.

Lemma stripped_zero_iff v : stripped v -> ((vval v == 0)%Q <-> digits v = []).
Proof.
  intro S. unfold vval. rewrite dec_eq0. unfold smag, sgz. split; intro H.
  - destruct (digits v) eqn:E; [reflexivity|]. exfalso.
    assert (P : 0 < mag v) by (apply stripped_pos; [exact S | rewrite E; discriminate]).
    destruct (sign v); lia.
  - unfold mag. rewrite H. cbn. destruct (sign v); lia.
Qed.

(** [10^(4w) <= |value| < 10^(4w+4)] *)
Lemma Qabs_vval v : Forall dig (digits v) -> (Qabs (vval v) == dec (mag v) (4 * lsd v))%Q.
Proof.
  intro D. unfold vval. rewrite Qabs_dec. apply dec_eq_iff. unfold smag, sgz, mag.
  pose proof (dval_bound _ D). destruct (sign v); lia.
Qed.

Lemma stripped_range v : stripped v -> digits v <> [] ->
  (p10 (4 * weight v) <= Qabs (vval v) < p10 (4 * (weight v + 1)))%Q.
Proof.
  intros S N. rewrite Qabs_vval by apply S.
  destruct (digits v) as [|d t] eqn:E; [congruence|].
  pose proof (stripped_mag v d t S E) as [B1 B2].
  assert (L : 1 <= ndigits v) by (unfold ndigits; rewrite E, lenz_cons; pose proof (lenz_nonneg t); lia).
  rewrite !pB_ten in * by lia. unfold lsd.
  split.
  - replace (4 * weight v) with (4 * (weight v + 1 - ndigits v) + 4 * (ndigits v - 1)) by lia.
    rewrite <- dec_1, <- dec_shift by lia. rewrite dec_le_iff. lia.
  - replace (4 * (weight v + 1)) with (4 * (weight v + 1 - ndigits v) + 4 * (ndigits v)) by lia.
    rewrite <- dec_1, <- dec_shift by lia. rewrite dec_lt_iff. lia.
Qed.

(** the weight of a non-zero stripped variable is determined by its value *)
Lemma stripped_weight_unique v1 v2 : stripped v1 -> stripped v2 -> digits v1 <> [] ->
  (vval v1 == vval v2)%Q -> weight v1 = weight v2.
Proof.
  intros S1 S2 N1 E.
  assert (N2 : digits v2 <> []).
  { intro H. apply N1. apply stripped_zero_iff; auto. rewrite E. now apply stripped_zero_iff. }
  destruct (stripped_range v1 S1 N1) as [A1 B1]. destruct (stripped_range v2 S2 N2) as [A2 B2].
  rewrite E in A1, B1.
  pose proof (Qle_lt_trans _ _ _ A1 B2) as C1. pose proof (Qle_lt_trans _ _ _ A2 B1) as C2.
  rewrite p10_lt_iff in C1, C2. lia.
Qed.

Lemma last_nz_mod ds : Forall dig ds -> (forall d t, ds = t ++ [d] -> d <> 0) -> ds <> [] ->
  dval ds mod 10000 <> 0.
Proof.
  intros D L N. destruct (exists_last N) as [t [d E]]. specialize (L d t E). subst ds.
  rewrite dval_snoc. apply Forall_app in D. destruct D as [_ D]. inversion D as [|? ? Hd _]; subst.
  unfold dig in Hd. rewrite Z.add_comm, Z.mod_add, Z.mod_small by lia. exact L.
Qed.

Lemma stripped_unique v1 v2 : stripped v1 -> stripped v2 -> dscale v1 = dscale v2 ->
  (vval v1 == vval v2)%Q -> v1 = v2.
Proof.
  intros S1 S2 ES E.
  destruct (digits v1) as [|x1 t1] eqn:E1.
  - assert (N2 : digits v2 = []).
    { apply stripped_zero_iff; auto. rewrite <- E. now apply stripped_zero_iff. }
    destruct (st_zero v1 S1 E1) as [A1 B1]. destruct (st_zero v2 S2 N2) as [A2 B2].
    destruct v1, v2; cbn in *; congruence.
  - assert (N1 : digits v1 <> []) by congruence.
    assert (N2 : digits v2 <> []).
    { intro H. apply N1. apply stripped_zero_iff; auto. rewrite E. now apply stripped_zero_iff. }
    pose proof (stripped_weight_unique v1 v2 S1 S2 N1 E) as W.
    pose proof (stripped_pos v1 S1 N1) as P1. pose proof (stripped_pos v2 S2 N2) as P2.
    (* magnitudes and signs at a common exponent *)
    assert (Hlen : lenz (digits v1) = lenz (digits v2) /\ smag v1 = smag v2).
    { unfold vval, lsd, ndigits in E. rewrite W in E.
      assert (G : forall a b : var, stripped a -> stripped b -> digits a <> [] -> weight a = weight b ->
          lenz (digits a) < lenz (digits b) -> digits b <> [] ->
          (dec (smag a) (4 * (weight b + 1 - lenz (digits a))) ==
           dec (smag b) (4 * (weight b + 1 - lenz (digits b))))%Q -> False).
      { intros a b Sa Sb Na Wab L Nb Eab.
        replace (4 * (weight b + 1 - lenz (digits a))) with
          (4 * (weight b + 1 - lenz (digits b)) + 4 * (lenz (digits b) - lenz (digits a))) in Eab by lia.
        rewrite <- dec_shift in Eab by lia. apply dec_eq_iff in Eab.
        rewrite <- pB_ten in Eab by lia.
        apply (last_nz_mod (digits b)); try apply Sb; auto.
        change (dval (digits b)) with (mag b).
        replace (lenz (digits b) - lenz (digits a)) with (1 + (lenz (digits b) - lenz (digits a) - 1)) in Eab by lia.
        rewrite pB_succ in Eab by lia.
        apply Z.mod_divide; [lia|].
        exists (sgz (sign b) * smag a * 10000 ^ (lenz (digits b) - lenz (digits a) - 1)).
        unfold smag in *. unfold sgz in *. destruct (sign a), (sign b); nia. }
      destruct (Z.lt_trichotomy (lenz (digits v1)) (lenz (digits v2))) as [L|[L|L]].
      - exfalso. apply (G v1 v2); auto.
      - split; [exact L|]. rewrite L in E. now apply dec_eq_iff in E.
      - exfalso. apply (G v2 v1); auto. rewrite W. symmetry. exact E. }
    destruct Hlen as [HL HS].
    assert (HM : mag v1 = mag v2 /\ sign v1 = sign v2).
    { unfold smag, sgz in HS. pose proof (st_nan v1 S1). pose proof (st_nan v2 S2).
      destruct (sign v1), (sign v2); try congruence; split; try lia; try reflexivity. }
    destruct HM as [HM HG].
    assert (HD : digits v1 = digits v2).
    { apply dval_inj; auto; try apply S1; try apply S2. }
    destruct v1, v2; cbn in *; congruence.
Qed.
