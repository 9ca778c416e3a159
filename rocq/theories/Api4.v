(** * Api4: type modifiers and in-place operations. *)
From Coq Require Import ZArith QArith Qround Qpower Qabs List Bool Lia Lqa.
From Verif Require Import Base Var Binary Parse Typmod Num Spec QDec Digits Arith Strip Round Trunc AddSub Signed
  CeilFloor Codec Make SpecApi Api1 Mul Div DivQ Api2 Api3.
Import ListNotations.
Open Scope Z_scope.

(** ** Typmod packing *)
Lemma pack_eq p s : 0 <= p <= 32767 -> 0 <= s < 65536 ->
  Z.lor (wrap 32 (Z.shiftl p 16)) s = p * 65536 + s.
Proof.
  intros Hp Hs. rewrite Z.shiftl_mul_pow2 by lia. change (2 ^ 16) with 65536.
  assert (W : wrap 32 (p * 65536) = p * 65536).
  { unfold wrap. change (2 ^ (32 - 1)) with 2147483648. change (2 ^ 32) with 4294967296.
    rewrite Z.mod_small; lia. }
  rewrite W. apply (lor_add p s 16); change (2 ^ 16) with 65536; lia.
Qed.

Lemma land_ffff_mod x : Z.land x 0xFFFF = x mod 65536.
Proof. change 0xFFFF with (Z.ones 16). rewrite Z.land_ones by lia. reflexivity. Qed.

Lemma typmod_new_spec c p s :
  (1 <= p <= 1000 /\ 0 <= s <= p -> typmod_new c p s = Ret (Some (p * 65536 + s + 4))) /\
  (~ (1 <= p <= 1000 /\ 0 <= s <= p) -> typmod_new c p s = Ret None).
Proof.
  unfold typmod_new. change NUMERIC_MAX_PRECISION with 1000.
  destruct (Z.ltb_spec p 1); destruct (Z.ltb_spec 1000 p); destruct (Z.ltb_spec s 0); destruct (Z.ltb_spec p s);
    cbn [orb]; (split; [intro H4|intro H4; try reflexivity]); try lia.
  unfold typmod_new_unchecked. change NUMERIC_MAX_PRECISION with 1000. change VAR_HEADER_SIZE with 4.
  rewrite !dassert_ok by (apply andb_true_iff; split; apply Z.leb_le; lia). cbn [bind].
  rewrite pack_eq by lia. rewrite i32_ok by lia. reflexivity.
Qed.

Lemma typmod_extract_spec c p s : 1 <= p <= 1000 -> 0 <= s <= p ->
  typmod_extract c (p * 65536 + s + 4) = Ret (p, s).
Proof.
  intros Hp Hs. unfold typmod_extract. change VAR_HEADER_SIZE with 4. rewrite i32_ok by lia. cbn [bind].
  replace (p * 65536 + s + 4 - 4) with (p * 65536 + s) by lia.
  rewrite Z.shiftr_div_pow2 by lia. change (2 ^ 16) with 65536. rewrite !land_ffff_mod.
  rewrite Z.div_add_l, (Z.div_small s) by lia. rewrite Z.add_0_r, (Z.mod_small p) by lia.
  rewrite Z.add_comm, Z.mod_add, (Z.mod_small s) by lia. reflexivity.
Qed.

Lemma typmod_with_precision_spec c p :
  (1 <= p <= 1000 -> typmod_with_precision c p = Ret (Some (p * 65536 + 4))) /\
  (~ 1 <= p <= 1000 -> typmod_with_precision c p = Ret None).
Proof.
  unfold typmod_with_precision. change NUMERIC_MAX_PRECISION with 1000.
  destruct (Z.ltb_spec p 1); destruct (Z.ltb_spec 1000 p); cbn [orb]; (split; [intro H4|intro H4; try reflexivity]); try lia.
  unfold typmod_with_precision_unchecked. change NUMERIC_MAX_PRECISION with 1000. change VAR_HEADER_SIZE with 4.
  rewrite !dassert_ok by (apply andb_true_iff; split; apply Z.leb_le; lia). cbn [bind].
  pose proof (pack_eq p 0 ltac:(lia) ltac:(lia)) as P. rewrite Z.lor_0_r in P. rewrite P.
  rewrite i32_ok by lia. cbn [bind]. now replace (p * 65536 + 0 + 4) with (p * 65536 + 4) by lia.
Qed.

(** ** The overflow scan counts the decimal digits of the integral part *)
Lemma typmod_scan_spec ds w md : Forall dig ds -> 0 <= md ->
  (typmod_scan ds (4 * (w + 1)) md = true <-> (p10 md <= dec (dval ds) (4 * (w + 1 - lenz ds)))%Q).
Proof.
  revert w. induction ds as [|d t IH]; intros w D M.
  - cbn [typmod_scan dval]. rewrite dec_0. pose proof (p10_pos md). split; [discriminate|]. intro H0. lra.
  - cbn [typmod_scan]. pose proof (Forall_inv D) as Bd. pose proof (Forall_inv_tail D) as Dt. unfold dig in Bd.
    rewrite lenz_cons. replace (4 * (w + 1 - (1 + lenz t))) with (4 * (w - 1 + 1 - lenz t)) by lia.
    rewrite dval_cons. destruct (Z.eqb_spec d 0) as [->|Nz].
    + change DEC_DIGITS with 4. replace (4 * (w + 1) - 4) with (4 * (w - 1 + 1)) by lia.
      rewrite IH by assumption. now replace (0 * 10000 ^ lenz t + dval t) with (dval t) by lia.
    + pose proof (dval_bound _ Dt) as B. pose proof (lenz_nonneg t) as Lt.
      set (L := lenz t) in *. replace (4 * (w - 1 + 1 - L)) with (4 * w - 4 * L) by lia.
      set (V := dec (d * 10000 ^ L + dval t) (4 * w - 4 * L)).
      assert (K : forall a k, 0 <= k -> 10 ^ k <= d < 10 ^ (k + 1) -> a = 4 * w + k ->
                  (p10 a <= V)%Q /\ (V < p10 (a + 1))%Q).
      { intros a k Hk Hd ->. split.
        - rewrite <- dec_1. unfold V. replace (4 * w + k) with (4 * w - 4 * L + (k + 4 * L)) by lia.
          rewrite <- dec_shift by lia. rewrite dec_le_iff. rewrite Z.pow_add_r, <- (pB_ten L) by lia. nia.
        - rewrite <- dec_1. unfold V. replace (4 * w + k + 1) with (4 * w - 4 * L + (k + 1 + 4 * L)) by lia.
          rewrite <- dec_shift by lia. rewrite dec_lt_iff. rewrite (Z.pow_add_r 10 (k+1)), <- (pB_ten L) by lia. nia. }
      assert (F : forall dd, (p10 (dd - 1) <= V)%Q -> (V < p10 dd)%Q -> ((md <? dd) = true <-> (p10 md <= V)%Q)).
      { intros dd A1 A2. rewrite Z.ltb_lt. split; intro H0.
        - apply Qle_trans with (p10 (dd - 1)); [apply p10_le; lia|exact A1].
        - pose proof (Qle_lt_trans _ _ _ H0 A2) as P. now apply (proj1 (p10_lt_iff _ _)) in P. }
      destruct (Z.ltb_spec d 10); [|destruct (Z.ltb_spec d 100); [|destruct (Z.ltb_spec d 1000)]].
      * destruct (K (4 * w) 0) as (A & C); [lia|change (10 ^ 0) with 1; change (10 ^ (0 + 1)) with 10; lia|lia|].
        apply F; [replace (4 * (w + 1) - 3 - 1) with (4 * w) by lia; exact A|
                  replace (4 * (w + 1) - 3) with (4 * w + 1) by lia; exact C].
      * destruct (K (4 * w + 1) 1) as (A & C); [lia|change (10 ^ 1) with 10; change (10 ^ (1 + 1)) with 100; lia|lia|].
        apply F; [replace (4 * (w + 1) - 2 - 1) with (4 * w + 1) by lia; exact A|
                  replace (4 * (w + 1) - 2) with (4 * w + 1 + 1) by lia; exact C].
      * destruct (K (4 * w + 2) 2) as (A & C); [lia|change (10 ^ 2) with 100; change (10 ^ (2 + 1)) with 1000; lia|lia|].
        apply F; [replace (4 * (w + 1) - 1 - 1) with (4 * w + 2) by lia; exact A|
                  replace (4 * (w + 1) - 1) with (4 * w + 2 + 1) by lia; exact C].
      * destruct (K (4 * w + 3) 3) as (A & C); [lia|change (10 ^ 3) with 1000; change (10 ^ (3 + 1)) with 10000; lia|lia|].
        apply F; [replace (4 * (w + 1) - 1) with (4 * w + 3) by lia; exact A|
                  replace (4 * (w + 1)) with (4 * w + 3 + 1) by lia; exact C].
Qed.

Lemma round_at_limit_weight v sc r : canon v -> rounded v sc (round_at (vval v) sc) r ->
  -32767 <= weight r /\ (weight r <= 32767 \/ (limit <= Qabs (round_at (vval v) sc))%Q).
Proof.
  intros C [R1 R2 R3 R4 R5 R6]. pose proof (cn_weight v C) as W.
  destruct R5 as [R5|[[R5 R7]|[R5 R7]]]; [split; [|left]; lia| |split; [|left]; lia].
  split; [lia|]. destruct (Z.eq_dec (weight v) 32767) as [K|K]; [right|left; lia].
  rewrite limit_p10, <- R4. rewrite K in R7. exact R7.
Qed.

Lemma apply_typmod_num c v p sc : canon v -> 1 <= p <= 1000 -> 0 <= sc <= p ->
  exists b o, apply_typmod c (Some (layout (be_varlen c) (to_number v))) (p * 65536 + sc + 4)
      = (Ret b, o) /\
    (o <> None -> (b = true <-> (ten ^ (p - sc) <= Qabs (round_at (vval v) sc))%Q)) /\
    (o = None -> b = true) /\
    result_of (be_varlen c) (round_at (vval v) sc) sc o.
Proof.
  intros C Hp Hs. unfold apply_typmod. cbn [deref]. rewrite (into_var_spec c v) by now apply canon_storable.
  cbn [bind]. unfold apply_typmod_var. change VAR_HEADER_SIZE with 4.
  replace (p * 65536 + sc + 4 <? 4) with false by (symmetry; apply Z.ltb_ge; lia).
  rewrite typmod_extract_spec by lia. cbn [bind].
  destruct (round_common_spec c v sc (canon_dig v C) (canon_nan v C)) as (r & E & R). rewrite E. cbn [bind].
  destruct (round_at_limit_weight v sc r C R) as [W1 W2].
  destruct (make_result_spec c r (round_at (vval v) sc) sc) as (o & O & RO);
    [apply R|apply R|apply R|lia|apply R|apply mult_round; lia|exact W1|exact W2|].
  change DEC_DIGITS with 4.
  set (b := typmod_scan (digits r) (4 * (weight r + 1)) (p - sc)).
  set (b' := if p - sc <? (weight r + 1) * 4 then b else false).
  assert (Hb : b' = true <-> (ten ^ (p - sc) <= Qabs (round_at (vval v) sc))%Q).
  { change (ten ^ (p - sc))%Q with (p10 (p - sc)).
    rewrite <- (rd_val _ _ _ _ R). rewrite Qabs_vval by apply R.
    unfold b', b. destruct (Z.ltb_spec (p - sc) ((weight r + 1) * 4)) as [L|L].
    - rewrite typmod_scan_spec; [reflexivity|apply R|lia].
    - split; [discriminate|]. intro H. exfalso.
      pose proof (digits_ub r (rd_digits _ _ _ _ R)) as U. rewrite Qabs_vval in U by apply R.
      pose proof (Qle_lt_trans _ _ _ H U) as P. apply (proj1 (p10_lt_iff _ _)) in P. lia. }
  assert (X : (if p - sc <? (weight r + 1) * 4
     then Ret (typmod_scan (digits r) ((weight r + 1) * 4) (p - sc), r)
     else Ret (false, r)) = Ret (b', r)).
  { unfold b', b. rewrite (Z.mul_comm (weight r + 1) 4). destruct (p - sc <? 4 * (weight r + 1)); reflexivity. }
  rewrite X. cbn [bind]. rewrite O. cbn [bind]. destruct o as [y|]; cbn [stored].
  - exists b', (Some y). split; [reflexivity|]. split; [intros _; exact Hb|]. split; [discriminate|exact RO].
  - exists true, None. split; [reflexivity|]. split; [congruence|]. split; [reflexivity|exact RO].
Qed.

Lemma apply_typmod_spec c x q s p sc t : stores (be_varlen c) x q s -> typmod_new c p sc = Ret (Some t) ->
  ((Qabs (round_at q sc) < limit)%Q ->
     exists b y, apply_typmod c (Some x) t = (Ret b, Some y) /\ stores (be_varlen c) y (round_at q sc) sc /\
       (b = true <-> (ten ^ (p - sc) <= Qabs (round_at q sc))%Q)) /\
  ((limit <= Qabs (round_at q sc))%Q -> apply_typmod c (Some x) t = (Ret true, None)).
Proof.
  intros H T. destruct (stores_elim _ _ _ _ H) as (v & C & -> & V & S).
  assert (B : 1 <= p <= 1000 /\ 0 <= sc <= p).
  { destruct (typmod_new_spec c p sc) as [_ N]. destruct (Z_le_dec 1 p), (Z_le_dec p 1000), (Z_le_dec 0 sc), (Z_le_dec sc p);
    try lia; rewrite N in T by lia; discriminate. }
  rewrite (proj1 (typmod_new_spec c p sc) B) in T. injection T as <-. destruct B as [B1 B2].
  destruct (apply_typmod_num c v p sc C B1 B2) as (b & o & E & Hb & Hn & R).
  pose proof (round_at_comp _ _ sc V) as RC.
  apply (result_of_ext _ _ (round_at q sc) _ _ RC) in R. destruct R as [R1 R2]. split; intro L.
  - destruct (R1 L) as (y & -> & Y). exists b, y. split; [exact E|]. split; [exact Y|].
    rewrite <- RC. apply Hb. discriminate.
  - pose proof (R2 L) as ->. rewrite (Hn eq_refl) in E. exact E.
Qed.

Lemma apply_typmod_default_spec c x q s : stores (be_varlen c) x q s ->
  apply_typmod c (Some x) typmod_default = (Ret false, Some x).
Proof.
  intro H. destruct (stores_elim _ _ _ _ H) as (v & C & -> & V & S).
  unfold apply_typmod. cbn [deref]. rewrite (into_var_spec c v) by now apply canon_storable.
  cbn [bind]. unfold apply_typmod_var. change (typmod_default <? VAR_HEADER_SIZE) with true. cbn [bind].
  pose proof (cn_weight v C). pose proof (cn_scale v C).
  unfold make_result. rewrite (nan_ok c v (canon_nan v C)). cbn [bind].
  rewrite dassert_ok by (apply Z.leb_le; lia). cbn [bind].
  change NUMERIC_WEIGHT_MAX with 32767. change NUMERIC_WEIGHT_MIN with (-32767).
  change NUMERIC_DSCALE_MAX with 16383.
  replace (32767 <? weight v) with false by (symmetry; apply Z.ltb_ge; lia).
  replace (weight v <? -32767) with false by (symmetry; apply Z.ltb_ge; lia).
  replace (16383 <? dscale v) with false by (symmetry; apply Z.ltb_ge; lia). cbn [orb].
  now rewrite canon_make_no.
Qed.

(** ** In-place variants *)

(** What the buffer and the caller see when the pure variant returns/panics. *)
Lemma bind_assoc {A B C} (x : outcome A) (f : A -> outcome B) (g : B -> outcome C) :
  bind (bind x f) g = bind x (fun a => bind (f a) g).
Proof. destruct x; reflexivity. Qed.

Definition agrees (p : outcome bytes) (m : outcome unit * nbuf) : Prop :=
  match p with
  | Ret y => m = (Ret tt, Some y)
  | Panic w => fst m = Panic w
  | _ => False
  end.

Lemma negate_mut_spec c (x : bytes) : valid (be_varlen c) x -> agrees (num_negate c x) (negate_mut c (Some x)).
Proof.
  intro V. unfold negate_mut. cbn [deref bind]. destruct (valid_cases _ _ V) as [->|(v & C & ->)].
  - unfold num_negate. rewrite nan_is_nan. cbn [bind]. rewrite nan_buf_spec. reflexivity.
  - unfold num_negate. rewrite (num_is_nan_spec c v (canon_storable v C)). cbn [bind].
    rewrite (as_var_spec c v (canon_storable v C)), (into_var_spec c v (canon_storable v C)). cbn [bind].
    destruct (negate_spec c v C) as (r & E & Cr & _). rewrite E. cbn [bind].
    rewrite canon_make_no, canon_encode by exact Cr. reflexivity.
Qed.

Lemma abs_mut_spec c (x : bytes) : valid (be_varlen c) x -> agrees (num_abs c x) (abs_mut c (Some x)).
Proof.
  intro V. unfold abs_mut. cbn [deref bind]. destruct (valid_cases _ _ V) as [->|(v & C & ->)].
  - unfold num_abs. rewrite nan_is_nan, nan_is_negative. cbn [bind]. rewrite nan_buf_spec. reflexivity.
  - unfold num_abs. rewrite (num_is_nan_spec c v (canon_storable v C)), (num_is_negative_spec c v (canon_storable v C)). cbn [bind].
    rewrite (as_var_spec c v (canon_storable v C)), (into_var_spec c v (canon_storable v C)). cbn [bind].
    destruct (abs_spec c v C) as (r & E & Cr & _). rewrite E. cbn [bind].
    rewrite canon_encode by exact Cr.
    destruct (is_negative v) eqn:G; [reflexivity|]. cbn [agrees]. unfold untouched.
    unfold abs_var in E. rewrite (nan_ok c v (canon_nan v C)) in E. cbn [bind] in E. 
    rewrite G in E. injection E as <-. reflexivity.
Qed.

Lemma round_mut_spec c (x : bytes) k : valid (be_varlen c) x -> agrees (num_round c x k) (round_mut c (Some x) k).
Proof.
  intro V. unfold round_mut. cbn [deref bind]. destruct (valid_cases _ _ V) as [->|(v & C & ->)].
  - unfold num_round. rewrite nan_is_nan. cbn [bind]. rewrite nan_buf_spec. reflexivity.
  - unfold num_round. rewrite (num_is_nan_spec c v (canon_storable v C)). cbn [bind].
    rewrite (as_var_spec c v (canon_storable v C)), (into_var_spec c v (canon_storable v C)). cbn [bind].
    destruct (round_var_spec c v k C) as (r & E & R1 & R2 & R3 & R4 & R5 & R6). rewrite E. cbn [bind].
    pose proof (clamp_bound k).
    destruct (make_result_spec c r (round_at (vval v) (clamp k)) (Z.max 0 (clamp k))) as (o & O & R);
      [exact R1|exact R2|exact R3|lia|exact R4|apply mult_round; lia|exact R5|exact R6|].
    rewrite O. cbn [bind]. destruct o; reflexivity.
Qed.

Lemma trunc_mut_spec c (x : bytes) k : valid (be_varlen c) x -> agrees (num_trunc c x k) (trunc_mut c (Some x) k).
Proof.
  intro V. unfold trunc_mut. cbn [deref bind]. destruct (valid_cases _ _ V) as [->|(v & C & ->)].
  - unfold num_trunc. rewrite nan_is_nan. cbn [bind]. rewrite nan_buf_spec. reflexivity.
  - destruct (num_trunc_spec c _ _ _ k (stores_intro _ v (vval v) (dscale v) C (Qeq_refl _) eq_refl)) as (y & Y & _).
    rewrite Y. unfold num_trunc in Y. rewrite (num_is_nan_spec c v (canon_storable v C)) in Y |- *. cbn [bind] in Y |- *.
    rewrite (as_var_spec c v (canon_storable v C)) in Y. rewrite (into_var_spec c v (canon_storable v C)). cbn [bind] in Y |- *.
    destruct (trunc_var c v k) as [r| | |]; try discriminate Y. cbn [bind] in Y |- *. rewrite Y. reflexivity.
Qed.

Lemma op_assign_spec op c x y :
  match op c x y with
  | Ret r => op_assign op c (Some x) y = (Ret tt, Some r)
  | Panic w => op_assign op c (Some x) y = (Panic w, Some x)
  | UB => op_assign op c (Some x) y = (UB, Some x)
  | Diverge => op_assign op c (Some x) y = (Diverge, Some x)
  end.
Proof. unfold op_assign. cbn [deref bind]. destruct (op c x y); reflexivity. Qed.

(** by-value negation *)
Lemma op_neg_owned_spec c (x : bytes) : valid (be_varlen c) x -> op_neg_owned c x = num_negate c x.
Proof.
  intro V. unfold op_neg_owned. pose proof (negate_mut_spec c x V) as A. unfold agrees in A.
  destruct (num_negate c x) as [y|w| |].
  - rewrite A. reflexivity.
  - destruct (negate_mut c (Some x)) as [r b]. cbn in A. subst r. reflexivity.
  - destruct A.
  - destruct A.
Qed.

(** A value whose in-place rounding overflows: 10000^32768 - 1/2. *)
Definition nines : var := Var 32767 1 SPos (repeat 9999 (Z.to_nat 32768) ++ [5000]).

Lemma dval_nines n : dval (repeat 9999 n) = 10000 ^ Z.of_nat n - 1.
Proof.
  induction n as [|n IH]; [reflexivity|]. cbn [repeat]. rewrite dval_cons, IH.
  unfold lenz. rewrite repeat_length. rewrite Nat2Z.inj_succ, Z.pow_succ_r by lia. lia.
Qed.

Lemma lenz_nines n : 0 <= n -> lenz (repeat 9999 (Z.to_nat n)) = n.
Proof. intro H. unfold lenz. rewrite repeat_length. lia. Qed.

Lemma nines_gen n : 0 < n -> 
  let v := Var (n - 1) 1 SPos (repeat 9999 (Z.to_nat n) ++ [5000]) in
  (vval v == p10 (4 * n) - (1 # 2))%Q.
Proof.
  intros Hn v. unfold vval, smag, lsd, mag, ndigits, v. cbn [sign sgz digits weight].
  rewrite dval_app, lenz_app, lenz_nines, dval_nines by lia. rewrite Z2Nat.id by lia.
  change (lenz [5000]) with 1. change (dval [5000]) with 5000. change (10000 ^ 1) with 10000.
  replace (4 * (n - 1 + 1 - (n + 1))) with (-4) by lia.
  rewrite p10_Z by lia. unfold dec. rewrite Z.pow_mul_r by lia. change (10 ^ 4) with 10000.
  change (p10 (-4)) with (1 # 10000)%Q. set (P := 10000 ^ n).
  replace (1 * ((P - 1) * 10000 + 5000)) with (P * 10000 - 5000) by lia.
  unfold Zminus. rewrite inject_Z_plus, inject_Z_mult. change (inject_Z (-(5000))) with (-5000 # 1)%Q.
  change (inject_Z 10000) with (10000 # 1)%Q. field.
Qed.

Lemma nines_stripped n : 0 < n -> stripped (Var (n - 1) 1 SPos (repeat 9999 (Z.to_nat n) ++ [5000])).
Proof.
  intro Hn. constructor; cbn [digits sign weight].
  - apply Forall_app. split; [|repeat constructor; unfold dig; lia].
    apply Forall_forall. intros x Hx. apply repeat_spec in Hx. subst x. unfold dig. lia.
  - intros d t E. destruct (Z.to_nat n) as [|k] eqn:K; [lia|]. cbn in E. injection E as <- _. lia.
  - intros d t E. apply app_inj_tail in E. destruct E as [_ <-]. lia.
  - intro E. apply app_eq_nil in E. destruct E as [_ E]. discriminate E.
  - discriminate.
Qed.

Lemma nines_canon_gen n : 0 < n <= 32768 -> canon (Var (n - 1) 1 SPos (repeat 9999 (Z.to_nat n) ++ [5000])).
Proof.
  intro Hn. pose proof (nines_gen n ltac:(lia)) as V. cbv zeta in V. constructor.
  - apply nines_stripped. lia.
  - cbn [weight]. lia.
  - cbn [dscale]. lia.
  - apply fracok_mult. cbn [dscale]. apply (mult_comp (p10 (4 * n) - (1 # 2))); [now symmetry|].
    apply mult_sub.
    + apply (mult_comp (inject_Z (10 ^ (4 * n)))); [rewrite p10_Z by lia; reflexivity|]. apply mult_Z. lia.
    + exists 5. reflexivity.
Qed.

Lemma round_nines n : 0 < n -> (round_at (p10 (4 * n) - (1 # 2)) 0 == p10 (4 * n))%Q.
Proof.
  intro Hn. unfold round_at. change (ten ^ 0)%Q with 1%Q. change (ten ^ (- 0))%Q with 1%Q.
  rewrite (round_int_comp ((p10 (4 * n) - (1 # 2)) * 1) (p10 (4 * n) - (1 # 2))) by ring.
  unfold round_int. destruct (Qlt_le_dec _ _) as [L|L].
  - exfalso. assert (1 <= p10 (4 * n))%Q; [|lra]. rewrite <- p10_0. apply p10_le. lia.
  - rewrite (Qfloor_comp (p10 (4 * n) - (1 # 2) + (1 # 2)) (inject_Z (10 ^ (4 * n)))).
    + rewrite Qfloor_Z, p10_Z by lia. ring.
    + rewrite p10_Z by lia. ring.
Qed.

Lemma nines_canon : canon nines.
Proof. exact (nines_canon_gen 32768 ltac:(lia)). Qed.

Lemma nines_stores be : stores be (layout be (to_number nines)) (limit - (1 # 2)) 1.
Proof.
  apply stores_intro; [exact nines_canon| |reflexivity].
  pose proof (nines_gen 32768 ltac:(lia)) as V. cbv zeta in V. rewrite limit_p10. exact V.
Qed.

Lemma nines_round_limit : (limit <= Qabs (round_at (limit - (1 # 2)) 0))%Q.
Proof.
  pose proof (round_nines 32768 ltac:(lia)) as R.
  pose proof (round_at_comp (limit - (1 # 2)) (p10 (4 * 32768) - (1 # 2)) 0 ltac:(rewrite limit_p10; reflexivity)) as R'.
  rewrite R', R. rewrite limit_p10. apply Qle_Qabs.
Qed.

Lemma nines_lost c : let x := layout (be_varlen c) (to_number nines) in
  round_mut c (Some x) 0 = (Panic (WMsg MOverflow), None) /\
  apply_typmod c (Some x) (1000 * 65536 + 0 + 4) = (Ret true, None).
Proof.
  intro x. pose proof (nines_stores (be_varlen c)) as S. split.
  - pose proof (num_round_spec c x _ _ 0 S) as [_ R]. pose proof (R nines_round_limit) as E.
    unfold round_mut. cbn [deref bind]. unfold num_round in E. unfold x in *.
    pose proof (canon_storable _ nines_canon) as St.
    rewrite (num_is_nan_spec c nines St) in E |- *. cbn [bind] in E |- *.
    rewrite (as_var_spec c nines St) in E. rewrite (into_var_spec c nines St). cbn [bind] in E |- *.
    destruct (round_var c nines 0) as [r|w| |]; cbn [bind stored] in E |- *; try congruence.
    destruct (make_result c r) as [[o|]|w| |]; cbn [bind expect stored] in E |- *; congruence.
  - apply (apply_typmod_spec c x _ _ 1000 0 (1000 * 65536 + 0 + 4) S); [|exact nines_round_limit].
    apply (typmod_new_spec c 1000 0). lia.
Qed.
