(** * MachSim: the machine-level transcription of Mach.v does what the models of Var.v and Data.v do. *)
From Coq Require Import ZArith List Bool Lia.
From Verif Require Import Base Var Binary Data Digits Arith DataSim Mach.
Import ListNotations.
Open Scope Z_scope.

Lemma bind_ext {A B} (x : outcome A) (f g : A -> outcome B) :
  (forall a, x = Ret a -> f a = g a) -> bind x f = bind x g.
Proof. destruct x; cbn; auto. Qed.

Lemma Ret_inj {A} (x y : A) : Ret x = Ret y -> x = y.
Proof. congruence. Qed.

Lemma u32_ok c x : 0 <= x <= 4294967295 -> u32 c x = Ret x.
Proof.
  intro H. unfold u32, unsigned. change (2 ^ 32) with 4294967296.
  replace (0 <=? x) with true by (symmetry; apply Z.leb_le; lia).
  replace (x <? 4294967296) with true by (symmetry; apply Z.ltb_lt; lia). reflexivity.
Qed.
Lemma usize_ok c x : 0 <= x <= 4294967295 -> usize c x = Ret x.
Proof.
  intro H. unfold usize, unsigned. change (2 ^ 64) with 18446744073709551616.
  replace (0 <=? x) with true by (symmetry; apply Z.leb_le; lia).
  replace (x <? 18446744073709551616) with true by (symmetry; apply Z.ltb_lt; lia). reflexivity.
Qed.
Lemma as_u32_ok x : 0 <= x <= 4294967295 -> as_u32 x = x.
Proof. intro H. apply Z.mod_small. change (2 ^ 32) with 4294967296. lia. Qed.
Lemma as_i32_ok x : -2147483648 <= x <= 2147483647 -> as_i32 x = x.
Proof. intro H. unfold as_i32, wrap. change (2 ^ (32 - 1)) with 2147483648. change (2 ^ 32) with 4294967296.
  rewrite Z.mod_small by lia. lia. Qed.

(** Bounds far from the limits of the machine integers. *)
Definition big : Z := 1000000000.
Record fit (B : Z) (p : pvar) : Prop := {
  fit_nd : 0 <= p_nd p <= B;
  fit_weight : - B <= p_weight p <= B;
  fit_dscale : - B <= p_dscale p <= B;
  fit_cow : match p_cow p with Borrowed l => lenz l <= B | Owned d => lenz (words d) <= B end
}.
Lemma fit_mono B B' p : B <= B' -> fit B p -> fit B' p.
Proof. intros L [H1 H2 H3 H4]. split; try lia. destruct (p_cow p); lia. Qed.

Definition mrep (B : Z) (p : pvar) (v : var) : Prop := rep p v /\ fit B p.
Lemma mrep_mono B B' p v : B <= B' -> mrep B p v -> mrep B' p v.
Proof. intros L [R F]. split; [exact R|exact (fit_mono B B' p L F)]. Qed.

(** ** buffers *)
Lemma m_slice_eq c d n : 0 <= n -> 0 <= off d -> off d + n <= 4294967295 -> m_slice c d n = slice c d n.
Proof. intros H1 H2 H3. unfold m_slice, slice. rewrite as_u32_ok, u32_ok by lia. reflexivity. Qed.

Lemma m_with_ndigits_eq c a n : 0 <= n <= 4000000000 -> m_with_ndigits c a n = with_ndigits c a n.
Proof. intro H. unfold m_with_ndigits, with_ndigits. change NUMERIC_HEADER_NDIGITS with 4.
  rewrite as_u32_ok by lia. rewrite u32_ok by lia. cbn [bind]. rewrite u32_ok by lia. reflexivity. Qed.

Lemma digits_at_len d ds : digits_at d ds -> 0 <= off d /\ off d + lenz ds <= lenz (words d).
Proof.
  intros (pre & post & W & O). rewrite W, !lenz_app, <- O.
  pose proof (lenz_nonneg pre). pose proof (lenz_nonneg post). lia.
Qed.

Lemma m_slice_ok c d ds : digits_at d ds -> lenz (words d) <= 4294967295 -> m_slice c d (lenz ds) = Ret ds.
Proof.
  intros D L. pose proof (digits_at_len d ds D). pose proof (lenz_nonneg ds).
  rewrite m_slice_eq by lia. exact (slice_ok c d ds D).
Qed.

Lemma with_ndigits_ok c a n : 0 <= n <= 4000000000 -> exists d l,
  m_with_ndigits c a n = Ret d /\ off d = 5 /\ digits_at d l /\ lenz l = n /\ lenz (words d) = n + 5.
Proof.
  intro H. rewrite m_with_ndigits_eq by lia. unfold with_ndigits. rewrite dassert_ok by (apply Z.leb_le; lia). cbn [bind].
  change (NUMERIC_HEADER_NDIGITS + 1) with 5. change NUMERIC_HEADER_NDIGITS with 4.
  replace (n + 4 + 1) with (5 + n) by lia. set (w := alloc a (5 + n)).
  assert (L : lenz w = 5 + n) by (apply lenz_alloc; lia).
  exists (Data w 5), (skipn (Z.to_nat 5) w). split; [reflexivity|]. split; [reflexivity|]. split.
  - exists (firstn (Z.to_nat 5) w), []. cbn [words off]. rewrite app_nil_r, firstn_skipn. split; [reflexivity|].
    apply lenz_firstn. lia.
  - cbn [words]. split; [rewrite lenz_skipn; lia|lia].
Qed.

Lemma write_back_at d ds ds' : digits_at d ds -> lenz ds' = lenz ds ->
  digits_at (write_back d ds') ds' /\ off (write_back d ds') = off d /\ lenz (words (write_back d ds')) = lenz (words d).
Proof.
  intros (pre & post & W & O) L. unfold write_back. rewrite <- O, to_nat_lenz.
  assert (LL : length ds' = length ds) by (unfold lenz in L; lia).
  rewrite W, firstn_app_len, LL.
  replace (length pre + length ds)%nat with (length (pre ++ ds)) by (rewrite app_length; reflexivity).
  rewrite (app_assoc pre ds post), skipn_app_len. cbn [words off].
  split; [exists pre, post; split; reflexivity|]. split; [reflexivity|]. rewrite !lenz_app. lia.
Qed.
Lemma write_back_same d ds : digits_at d ds -> write_back d ds = d.
Proof.
  intros (pre & post & W & O). unfold write_back. rewrite <- O, to_nat_lenz, W, firstn_app_len.
  replace (length pre + length ds)%nat with (length (pre ++ ds)) by (rewrite app_length; reflexivity).
  rewrite (app_assoc pre ds post), skipn_app_len. destruct d as [w o]. cbn in *. subst. reflexivity.
Qed.
Lemma write_back_set d ds i x : digits_at d ds -> 0 <= i < lenz ds ->
  set_unchecked (words d) (off d + i) x = Ret (words (write_back d (set_nth ds (Z.to_nat i) x))) /\
  set_unchecked ds i x = Ret (set_nth ds (Z.to_nat i) x).
Proof.
  intros (pre & post & W & O) L. destruct (split3 ds i L) as (h & y & t & E & LH).
  assert (S1 : set_unchecked ds i x = Ret (h ++ x :: t)) by (rewrite E; apply set_unchecked_app; lia).
  assert (S2 : set_nth ds (Z.to_nat i) x = h ++ x :: t).
  { unfold set_unchecked in S1.
    replace ((i <? 0) || (lenz ds <=? i)) with false in S1
      by (symmetry; apply orb_false_iff; split; [apply Z.ltb_ge|apply Z.leb_gt]; lia). congruence. }
  rewrite S2. split; [|exact S1].
  unfold write_back. rewrite <- O, to_nat_lenz, W, E, firstn_app_len.
  replace (length pre + length (h ++ x :: t))%nat with (length (pre ++ h ++ y :: t))
    by (rewrite !app_length; cbn; lia).
  replace (pre ++ (h ++ y :: t) ++ post) with ((pre ++ h ++ y :: t) ++ post) at 2 by now rewrite <- app_assoc.
  rewrite skipn_app_len. cbn [words].
  replace (pre ++ (h ++ y :: t) ++ post) with ((pre ++ h) ++ y :: (t ++ post)) by now rewrite <- !app_assoc.
  rewrite set_unchecked_app by (rewrite lenz_app; lia). now rewrite <- !app_assoc.
Qed.

Lemma m_to_owned_eq c a l : lenz l <= big -> m_to_owned c a l = to_owned c a l.
Proof.
  intro H. unfold big in H. pose proof (lenz_nonneg l). unfold m_to_owned, to_owned.
  rewrite as_i32_ok by lia. rewrite m_with_ndigits_eq by lia. apply bind_ext. intros d Ed.
  assert (K : off d = 5 /\ exists l', digits_at d l' /\ lenz l' = lenz l).
  { destruct (with_ndigits_ok c a (lenz l)) as (d' & l' & E' & O' & D' & L' & _); [lia|].
    rewrite m_with_ndigits_eq in E' by lia. rewrite Ed in E'. injection E' as <-. split; [exact O'|]. now exists l'. }
  destruct K as (O & l' & D & L'). unfold copy_in. rewrite m_slice_eq by lia. rewrite <- L', (slice_ok c d l' D). cbn [bind].
  rewrite L', Z.eqb_refl. reflexivity.
Qed.

Lemma m_own_eq c a k : match k with Borrowed l => lenz l <= big | Owned _ => True end -> m_own c a k = own c a k.
Proof. destruct k; intro H; [exact (m_to_owned_eq c a l H)|reflexivity]. Qed.

Lemma own_len c a k d : own c a k = Ret d ->
  lenz (words d) = match k with Borrowed l => lenz l + 5 | Owned d => lenz (words d) end.
Proof.
  destruct k as [l|d']; cbn [own]; [|congruence]. intro E. unfold to_owned, with_ndigits in E.
  destruct (dassert c (0 <=? lenz l)); cbn [bind] in E; try discriminate.
  unfold copy_in in E.
  destruct (slice c _ (lenz l)) eqn:Es; cbn [bind] in E; try discriminate.
  apply Ret_inj in E. rewrite <- E. cbn [words off]. change (NUMERIC_HEADER_NDIGITS + 1) with 5. change NUMERIC_HEADER_NDIGITS with 4.
  pose proof (lenz_nonneg l). assert (L : lenz (alloc a (lenz l + 4 + 1)) = lenz l + 5) by (rewrite lenz_alloc; lia).
  rewrite !lenz_app, lenz_firstn by lia.
  replace (Z.to_nat 5 + length l)%nat with (Z.to_nat (5 + lenz l)) by (unfold lenz; lia).
  rewrite lenz_skipn by lia. lia.
Qed.

Lemma m_reserve_eq c a d ds : 0 < lenz ds -> 0 <= off d -> digits_at d ds -> lenz (words d) <= 4000000000 ->
  m_reserve c a d (lenz ds) = reserve c a d (lenz ds).
Proof.
  intros P O D L. pose proof (digits_at_len d ds D). unfold m_reserve, reserve. apply bind_ext. intros _ _.
  destruct (off d <=? NUMERIC_HEADER_NDIGITS); [|reflexivity]. unfold buf_copy. apply bind_ext. intros _ _.
  change NUMERIC_HEADER_NDIGITS with 4. rewrite as_u32_ok by lia. rewrite u32_ok by lia. cbn [bind]. rewrite u32_ok by lia. cbn [bind].
  replace (0 <? lenz ds) with true by (symmetry; apply Z.ltb_lt; lia).
  rewrite m_slice_eq by lia. reflexivity.
Qed.
Lemma reserve_len c a d ds d' : reserve c a d (lenz ds) = Ret d' -> 0 < lenz ds -> digits_at d ds ->
  lenz (words d') <= Z.max (lenz (words d)) (lenz ds + 5).
Proof.
  intros E P D. unfold reserve in E. rewrite dassert_ok in E by (apply Z.ltb_lt; lia). cbn [bind] in E.
  destruct (off d <=? NUMERIC_HEADER_NDIGITS); [|injection E as <-; lia].
  unfold buf_copy in E. rewrite dassert_ok in E by (apply Z.leb_le; lia). cbn [bind] in E.
  replace (0 <? lenz ds) with true in E by (symmetry; apply Z.ltb_lt; lia).
  rewrite (slice_ok c d ds D) in E. cbn [bind] in E. apply Ret_inj in E. rewrite <- E. cbn [words]. rewrite lenz_app, lenz_alloc by (vm_compute; discriminate).
  change (NUMERIC_HEADER_NDIGITS + 1) with 5. lia.
Qed.

Lemma m_digits_ok c B p v : B <= big -> mrep B p v -> m_digits c p = Ret (digits v).
Proof.
  intros LB [R F]. unfold big in LB. unfold m_digits. pose proof (rp_nd p v R) as N. pose proof (rp_cow p v R) as K.
  pose proof (fit_cow B p F) as FC. destruct (p_cow p) as [l|d].
  - destruct K as [post ->]. cbn [bind]. rewrite N. unfold ndigits. rewrite lenz_app.
    pose proof (lenz_nonneg post). pose proof (lenz_nonneg (digits v)).
    replace (lenz (digits v) <? 0) with false by (symmetry; apply Z.ltb_ge; lia).
    replace (lenz (digits v) + lenz post <? lenz (digits v)) with false by (symmetry; apply Z.ltb_ge; lia). cbn [orb].
    now rewrite to_nat_lenz, firstn_app_len.
  - destruct K as [O D]. pose proof (digits_at_len d _ D) as (O' & L').
    pose proof (lenz_nonneg (digits v)).
    rewrite u32_ok by lia. cbn [bind]. rewrite as_i32_ok by lia. rewrite m_slice_eq by lia.
    destruct D as (pre & post & W & O2).
    assert (E : lenz (words d) - off d = lenz (digits v ++ post)) by (rewrite W, <- O2, !lenz_app; lia).
    rewrite E. rewrite (slice_ok c d (digits v ++ post)).
    2: { exists pre, []. rewrite app_nil_r. now split. }
    cbn [bind]. rewrite N. unfold ndigits. rewrite lenz_app. pose proof (lenz_nonneg post).
    replace (lenz (digits v) <? 0) with false by (symmetry; apply Z.ltb_ge; lia).
    replace (lenz (digits v) + lenz post <? lenz (digits v)) with false by (symmetry; apply Z.ltb_ge; lia). cbn [orb].
    now rewrite to_nat_lenz, firstn_app_len.
Qed.

(** ** rounding *)
Lemma quot4_bound x : 0 <= x -> 0 <= Z.quot x 4 <= x.
Proof. intro H. rewrite Z.quot_div_nonneg by lia. split; [apply Z.div_pos; lia|]. apply Z.div_le_upper_bound; lia. Qed.

Lemma lenz_set_nth {A} (l : list A) i x : lenz (set_nth l i x) = lenz l.
Proof. unfold lenz. f_equal. revert i. induction l as [|y t IH]; intros [|i]; cbn; auto. Qed.

Lemma arith_range c b x y : 0 < b -> arith c b x = Ret y -> - 2 ^ (b - 1) <= y < 2 ^ (b - 1).
Proof.
  intros P E. unfold arith in E. destruct (fits b x) eqn:F.
  - injection E as <-. unfold fits in F. apply andb_true_iff in F. destruct F as [F1 F2].
    apply Z.leb_le in F1. apply Z.ltb_lt in F2. lia.
  - destruct (dbg c); [discriminate|]. injection E as <-. unfold wrap.
    assert (T : 2 ^ b = 2 * 2 ^ (b - 1)) by (rewrite <- Z.pow_succ_r by lia; f_equal; lia).
    assert (P2 : 0 < 2 ^ (b - 1)) by (apply Z.pow_pos_nonneg; lia).
    pose proof (Z.mod_pos_bound (x + 2 ^ (b - 1)) (2 ^ b)). lia.
Qed.
Lemma i32_range c x y : i32 c x = Ret y -> -2147483648 <= y <= 2147483647.
Proof. intro E. apply arith_range in E; [|lia]. change (2 ^ (32 - 1)) with 2147483648 in E. lia. Qed.
Lemma i16_range c x y : i16 c x = Ret y -> -32768 <= y <= 32767.
Proof. intro E. apply arith_range in E; [|lia]. change (2 ^ (16 - 1)) with 32768 in E. lia. Qed.

Lemma bind_assoc {A B C} (x : outcome A) (f : A -> outcome B) (g : B -> outcome C) :
  bind (bind x f) g = bind x (fun a => bind (f a) g).
Proof. destruct x; reflexivity. Qed.

(** the carry loop as a [while] *)
Lemma carry_while c k : forall w o nd carry, 0 <= o <= big -> - big <= nd - Z.of_nat k -> nd <= big ->
  bind (while k (fun '(w, nd', carry) => Ret (0 <? carry)) (m_carry_step c o) (w, nd, carry)) (fun '(w', nd', _) => Ret (w', nd'))
  = carry_loop c k w o nd carry.
Proof.
  unfold big. induction k as [|k IH]; intros w o nd carry HO HN HN'; [reflexivity|].
  cbn [while carry_loop bind]. destruct (0 <? carry); [|reflexivity].
  unfold m_carry_step at 1. rewrite i32_ok by lia. cbn [bind]. rewrite as_i32_ok, i32_ok by lia. cbn [bind].
  destruct (dassert c _); cbn [bind]; try reflexivity.
  destruct (get_unchecked w (o + (nd - 1))); cbn [bind]; try reflexivity.
  destruct (i32 c (carry + a0)) as [s| | |] eqn:Es; cbn [bind]; try reflexivity. apply i32_range in Es.
  change NBASE with 10000. destruct (Z.leb_spec 10000 s) as [L|L].
  - rewrite i32_ok by lia. cbn [bind]. destruct (set_unchecked w _ _); cbn [bind]; try reflexivity. apply IH; lia.
  - destruct (set_unchecked w _ _); cbn [bind]; try reflexivity. apply IH; lia.
Qed.

Lemma m_round_eq c a B p v rs : B <= 30000000 -> - B <= rs <= B -> mrep B p v ->
  m_round_common c a p rs = p_round_common c a p rs.
Proof.
  intros LB LR [R F]. destruct F as [F1 F2 F3 F4]. unfold m_round_common, p_round_common, m_nan.
  apply bind_ext. intros _ _. change DEC_DIGITS with 4.
  rewrite i32_ok by lia. cbn [bind]. rewrite i32_ok by lia. cbn [bind]. rewrite i32_ok by lia. cbn [bind].
  set (di := (p_weight p + 1) * 4 + rs). destruct (Z.ltb_spec di 0) as [N|N]; [reflexivity|].
  assert (D1 : di <= 160000000) by (unfold di; lia).
  rewrite i32_ok by lia. cbn [bind]. rewrite i32_ok by lia. cbn [bind].
  set (nd := Z.quot (di + 4 - 1) 4).
  assert (D2 : 0 <= nd <= di + 3) by (unfold nd; pose proof (quot4_bound (di + 4 - 1)); lia).
  destruct ((nd <? p_nd p) || ((nd =? p_nd p) && (0 <? Z.rem di 4))) eqn:Cnd; [|reflexivity].
  rewrite m_own_eq by (unfold big; destruct (p_cow p); lia).
  destruct (own_ok c a p v R) as (d0 & E0 & O0 & A0). rewrite E0. cbn [bind].
  pose proof (own_len c a _ _ E0) as L0. assert (L0' : lenz (words d0) <= B + 5) by (destruct (p_cow p); lia).
  pose proof (rp_nd p v R) as PN. unfold ndigits in PN.
  assert (K : exists d, (if 0 <? p_nd p then m_reserve c a d0 (p_nd p) else Ret d0) = Ret d /\
              (if 0 <? p_nd p then reserve c a d0 (p_nd p) else Ret d0) = Ret d /\ digits_at d (digits v) /\ 4 <= off d /\
              lenz (words d) <= 2 * B + 10).
  { pose proof (lenz_nonneg (digits v)). destruct (Z.ltb_spec 0 (p_nd p)) as [P|P].
    - rewrite PN in *. rewrite m_reserve_eq by (try assumption; lia).
      destruct (reserve_ok c a d0 (digits v) P O0 A0) as (d' & E' & O' & A'). exists d'.
      pose proof (reserve_len c a d0 (digits v) d' E' P A0). repeat split; try assumption; lia.
    - exists d0. repeat split; try assumption; lia. }
  destruct K as (d & -> & -> & A & O & L). cbn [bind].
  pose proof (digits_at_len d _ A) as (HO & HL).
  apply bind_ext. intros _ _.
  rewrite PN, (m_slice_ok c d (digits v) A), (slice_ok c d (digits v) A) by lia. cbn [bind]. set (ds := digits v) in *.
  set (R1 := (if Z.rem di 4 =? 0 then _ else _) : outcome (Z * Z * list Z)).
  set (R2 := (if Z.rem di 4 =? 0 then _ else _) : outcome (Z * Z * list Z)).
  assert (RR : R2 = '(nd', carry, ds') <- R1 ;; Ret (nd', carry, words (write_back d ds')) /\
               forall nd' carry ds', R1 = Ret (nd', carry, ds') -> lenz ds' = lenz ds /\ 0 <= nd' + 1 <= nd + 1).
  { unfold R1, R2. destruct (Z.rem di 4 =? 0).
    - destruct (index ds nd); cbn [bind]; (split; [|try (intros; discriminate)]); try reflexivity.
      + now rewrite write_back_same.
      + intros nd' carry ds' E. apply Ret_inj in E. injection E as <- <- <-. lia.
    - destruct (index ROUND_POWERS (Z.rem di 4)) as [pow| | |]; cbn [bind]; try (split; [reflexivity|intros; discriminate]).
      rewrite i32_ok by lia. cbn [bind].
      destruct (dassert c ((0 <=? nd - 1) && (nd - 1 <? lenz ds))); cbn [bind]; try (split; [reflexivity|intros; discriminate]).
      destruct (get_unchecked ds (nd - 1)) as [x| | |] eqn:Ex; cbn [bind]; try (split; [reflexivity|intros; discriminate]).
      assert (IB : 0 <= nd - 1 < lenz ds).
      { unfold get_unchecked in Ex. destruct (Z.ltb_spec (nd - 1) 0); [discriminate|].
        destruct (nth_error ds (Z.to_nat (nd - 1))) eqn:En; [|discriminate].
        assert (Hn : (Z.to_nat (nd - 1) < length ds)%nat) by (apply nth_error_Some; congruence). unfold lenz. lia. }
      destruct (i16 c (x - Z.rem x pow)) as [x'| | |] eqn:Ex'; cbn [bind]; try (split; [reflexivity|intros; discriminate]).
      destruct (write_back_set d ds (nd - 1) x' A IB) as [W1 W2]. rewrite W1, W2. cbn [bind].
      set (ds1 := set_nth ds (Z.to_nat (nd - 1)) x') in *.
      assert (L1 : lenz ds1 = lenz ds) by apply lenz_set_nth.
      destruct (write_back_at d ds ds1 A L1) as (A1 & O1 & _).
      destruct (Z.quot pow 2 <=? Z.rem x pow).
      2: { split; [reflexivity|]. intros nd' carry ds' E. apply Ret_inj in E. injection E as <- <- <-. lia. }
      destruct (i16 c (pow + x')) as [y| | |] eqn:Ey; cbn [bind]; try (split; [reflexivity|intros; discriminate]).
      apply i16_range in Ey. change NBASE with 10000. rewrite <- O1.
      assert (W3 : forall z, words (write_back (write_back d ds1) (set_nth ds1 (Z.to_nat (nd - 1)) z)) = words (write_back d (set_nth ds1 (Z.to_nat (nd - 1)) z))).
      { intro z. destruct A as (pre & post & W & OO). unfold write_back. rewrite <- OO. cbn [words off]. rewrite to_nat_lenz, W, firstn_app_len.
        assert (LL : length ds1 = length ds) by (unfold lenz in L1; lia).
        assert (LZ : length (set_nth ds1 (Z.to_nat (nd - 1)) z) = length ds).
        { pose proof (lenz_set_nth ds1 (Z.to_nat (nd - 1)) z) as Q. unfold lenz in Q, L1. lia. }
        rewrite LL, LZ. rewrite firstn_app_len.
        replace (length pre + length ds)%nat with (length (pre ++ ds)) at 2 by (rewrite app_length; reflexivity).
        replace (length pre + length ds)%nat with (length (pre ++ ds1)) by (rewrite app_length, LL; reflexivity).
        rewrite (app_assoc pre ds post), skipn_app_len. rewrite (app_assoc pre ds1 post), skipn_app_len. 
        replace (length (pre ++ ds1)) with (length (pre ++ ds)) by (rewrite !app_length, LL; reflexivity).
        now rewrite skipn_app_len. }
      destruct (Z.leb_spec 10000 y).
      + rewrite i16_ok by lia. cbn [bind].
        destruct (write_back_set _ ds1 (nd - 1) (y - 10000) A1 ltac:(lia)) as [V1 V2]. rewrite V1, V2. cbn [bind]. rewrite W3.
        split; [reflexivity|]. intros nd' carry ds' E. apply Ret_inj in E. injection E as <- <- <-. rewrite lenz_set_nth. lia.
      + destruct (write_back_set _ ds1 (nd - 1) y A1 ltac:(lia)) as [V1 V2]. rewrite V1, V2. cbn [bind]. rewrite W3.
        split; [reflexivity|]. intros nd' carry ds' E. apply Ret_inj in E. injection E as <- <- <-. rewrite lenz_set_nth. lia. }
  destruct RR as [-> RR]. rewrite bind_assoc. apply bind_ext. intros [[nd' carry] ds'] E1. cbn [bind].
  destruct (RR _ _ _ E1) as [L' NB]. clear RR.
  destruct (write_back_at d ds ds' A L') as (A' & O' & L''). rewrite O'.
  apply bind_ext. intros u Eu.
  rewrite usize_ok by lia. cbn [bind].
  apply bind_ext. intros w Ew.
  rewrite <- carry_while by (unfold big; lia). rewrite bind_assoc. apply bind_ext. intros [[w' n'] cr] Ec. cbn [bind].
  destruct (n' <? 0); [|reflexivity].
  apply bind_ext. intros _ _. apply bind_ext. intros _ _. apply bind_ext. intros _ _.
  rewrite u32_ok by lia. cbn [bind]. rewrite i32_ok by lia. reflexivity.
Qed.

Lemma set_unchecked_len {A} (l l' : list A) i x : set_unchecked l i x = Ret l' -> lenz l' = lenz l.
Proof. unfold set_unchecked. destruct (_ || _); [discriminate|]. intro E. injection E as <-. apply lenz_set_nth. Qed.
Lemma set_checked_len {A} (l l' : list A) i x : set_checked l i x = Ret l' -> lenz l' = lenz l.
Proof. unfold set_checked. destruct (_ || _); [discriminate|]. intro E. injection E as <-. apply lenz_set_nth. Qed.
Lemma carry_loop_len c k : forall w o nd carry w' nd', carry_loop c k w o nd carry = Ret (w', nd') -> lenz w' = lenz w.
Proof.
  induction k as [|k IH]; intros w o nd carry w' nd' E; [discriminate|]. cbn [carry_loop] in E.
  destruct (0 <? carry); [|injection E as <- _; reflexivity].
  destruct (dassert c _); cbn [bind] in E; try discriminate.
  destruct (get_unchecked w _); cbn [bind] in E; try discriminate.
  destruct (i32 c _); cbn [bind] in E; try discriminate.
  destruct (NBASE <=? _); destruct (set_unchecked w _ _) as [w1| | |] eqn:E1; cbn [bind] in E; try discriminate;
    apply IH in E; apply set_unchecked_len in E1; lia.
Qed.

(** [inv E]: take apart a chain of binds that returned. *)
Lemma bind_ret {A B} (x : outcome A) (f : A -> outcome B) b : bind x f = Ret b -> exists a, x = Ret a /\ f a = Ret b.
Proof. destruct x; cbn; intro H; try discriminate. now exists a. Qed.

Lemma p_round_fit c a B p v rs q : 0 <= B -> - B <= rs <= B -> mrep B p v -> p_round_common c a p rs = Ret q -> fit (B + 10) q.
Proof.
  intros PB LR [R F] E. destruct F as [F1 F2 F3 F4]. unfold p_round_common in E.
  apply bind_ret in E. destruct E as (_ & _ & E). change DEC_DIGITS with 4 in E.
  set (di := (p_weight p + 1) * 4 + rs) in E. destruct (di <? 0) eqn:Edi.
  { apply Ret_inj in E. rewrite <- E. split; cbn; try lia. destruct (p_cow p); lia. }
  apply Z.ltb_ge in Edi.
  set (nd := Z.quot (di + 4 - 1) 4) in E.
  assert (D2 : 0 <= nd) by (unfold nd; pose proof (quot4_bound (di + 4 - 1)); lia).
  destruct ((nd <? p_nd p) || ((nd =? p_nd p) && (0 <? Z.rem di 4))) eqn:Cnd.
  2: { apply Ret_inj in E. rewrite <- E. split; cbn; try lia. destruct (p_cow p); lia. }
  assert (D3 : nd <= p_nd p).
  { apply orb_true_iff in Cnd. destruct Cnd as [C|C]; [apply Z.ltb_lt in C; lia|].
    apply andb_true_iff in C. destruct C as [C _]. apply Z.eqb_eq in C. lia. }
  apply bind_ret in E. destruct E as (d0 & E0 & E).
  pose proof (own_len c a _ _ E0) as L0. assert (L0' : lenz (words d0) <= B + 5) by (destruct (p_cow p); lia).
  destruct (own_ok c a p v R) as (d0' & E0' & O0 & A0). rewrite E0 in E0'. injection E0' as <-.
  pose proof (rp_nd p v R) as PN. unfold ndigits in PN.
  apply bind_ret in E. destruct E as (d & Ed & E).
  assert (L : lenz (words d) <= B + 5).
  { destruct (Z.ltb_spec 0 (p_nd p)) as [P|P]; [|apply Ret_inj in Ed; subst; lia].
    rewrite PN in Ed, P. pose proof (reserve_len c a d0 (digits v) d Ed P A0). lia. }
  apply bind_ret in E. destruct E as (_ & _ & E).
  apply bind_ret in E. destruct E as (ds & _ & E).
  apply bind_ret in E. destruct E as ([[nd' carry] w] & E1 & E).
  assert (LW : lenz w = lenz (words d)).
  { destruct (Z.rem di 4 =? 0).
    - apply bind_ret in E1. destruct E1 as (? & _ & E1). apply Ret_inj in E1. injection E1 as _ _ <-. reflexivity.
    - apply bind_ret in E1. destruct E1 as (? & _ & E1). apply bind_ret in E1. destruct E1 as (_ & _ & E1).
      apply bind_ret in E1. destruct E1 as (? & _ & E1). apply bind_ret in E1. destruct E1 as (? & _ & E1).
      apply bind_ret in E1. destruct E1 as (w1 & S1 & E1). apply set_unchecked_len in S1.
      destruct (_ <=? _); [|apply Ret_inj in E1; injection E1 as _ _ <-; exact S1].
      apply bind_ret in E1. destruct E1 as (? & _ & E1).
      destruct (_ <=? _); apply bind_ret in E1; destruct E1 as (w2 & S2 & E1); apply set_unchecked_len in S2;
        apply Ret_inj in E1; injection E1 as _ _ <-; lia. }
  apply bind_ret in E. destruct E as (_ & _ & E).
  apply bind_ret in E. destruct E as (w1 & S1 & E). apply set_checked_len in S1.
  apply bind_ret in E. destruct E as ([w2 nd2] & S2 & E). apply carry_loop_len in S2.
  destruct (nd2 <? 0).
  - apply bind_ret in E. destruct E as (_ & _ & E). apply bind_ret in E. destruct E as (_ & _ & E).
    apply bind_ret in E. destruct E as (_ & _ & E). apply Ret_inj in E. rewrite <- E. split; cbn; lia.
  - apply Ret_inj in E. rewrite <- E. split; cbn; lia.
Qed.

(** ** truncation *)
Lemma m_trunc_eq c a B p v rs : B <= 30000000 -> - B <= rs <= B -> mrep B p v ->
  m_trunc_common c a p rs = p_trunc_common c a p rs.
Proof.
  intros LB LR [R F]. destruct F as [F1 F2 F3 F4]. unfold m_trunc_common, p_trunc_common, m_nan.
  apply bind_ext. intros _ _. change DEC_DIGITS with 4.
  rewrite i32_ok by lia. cbn [bind]. rewrite i32_ok by lia. cbn [bind]. rewrite i32_ok by lia. cbn [bind].
  set (di := (p_weight p + 1) * 4 + rs). destruct (Z.leb_spec di 0) as [N|N]; [reflexivity|].
  assert (D1 : di <= 160000000) by (unfold di; lia).
  rewrite i32_ok by lia. cbn [bind]. rewrite i32_ok by lia. cbn [bind].
  set (nd := Z.quot (di + 4 - 1) 4).
  assert (D2 : 0 <= nd <= di + 3) by (unfold nd; pose proof (quot4_bound (di + 4 - 1)); lia).
  destruct (Z.leb_spec nd (p_nd p)) as [D3|D3]; [|reflexivity].
  destruct (0 <? Z.rem di 4); [|reflexivity].
  rewrite m_own_eq by (unfold big; destruct (p_cow p); lia).
  destruct (own_ok c a p v R) as (d & E0 & O0 & A0). rewrite E0. cbn [bind].
  pose proof (own_len c a _ _ E0) as L0. assert (L0' : lenz (words d) <= B + 5) by (destruct (p_cow p); lia).
  pose proof (rp_nd p v R) as PN. unfold ndigits in PN.
  pose proof (digits_at_len d _ A0) as (HO & HL).
  assert (SP : digits v = firstn (Z.to_nat nd) (digits v) ++ skipn (Z.to_nat nd) (digits v)) by (symmetry; apply firstn_skipn).
  set (ds := firstn (Z.to_nat nd) (digits v)) in *.
  assert (LD : lenz ds = nd) by (apply lenz_firstn; lia).
  rewrite SP in A0. apply digits_at_le in A0.
  rewrite <- LD. rewrite (m_slice_ok c d ds A0), (slice_ok c d ds A0) by lia. cbn [bind]. rewrite LD.
  apply bind_ext. intros pow _. rewrite i32_ok by lia. cbn [bind].
  destruct (index ds (nd - 1)) as [x| | |] eqn:Ex; cbn [bind]; try reflexivity.
  apply bind_ext. intros x' _.
  destruct (Z.ltb_spec (nd - 1) 0) as [Z0|Z0].
  { unfold index in Ex. replace (nd - 1 <? 0) with true in Ex by (symmetry; apply Z.ltb_lt; lia). discriminate. }
  destruct (write_back_set d ds (nd - 1) x' A0 ltac:(lia)) as [W1 W2].
  assert (SC : forall (l : list Z) i y r, set_unchecked l i y = Ret r -> set_checked l i y = Ret r).
  { intros l i y r. unfold set_unchecked, set_checked. destruct (_ || _); [discriminate|auto]. }
  rewrite (SC _ _ _ _ W1), (SC _ _ _ _ W2). cbn [bind].
  destruct (write_back_at d ds (set_nth ds (Z.to_nat (nd - 1)) x') A0) as (_ & O' & _); [apply lenz_set_nth|].
  rewrite <- O' at 1. reflexivity.
Qed.

Lemma p_trunc_fit c a B p v rs q : 0 <= B -> - B <= rs <= B -> mrep B p v -> p_trunc_common c a p rs = Ret q -> fit (B + 10) q.
Proof.
  intros PB LR [R F] E. destruct F as [F1 F2 F3 F4]. unfold p_trunc_common in E.
  apply bind_ret in E. destruct E as (_ & _ & E). change DEC_DIGITS with 4 in E.
  set (di := (p_weight p + 1) * 4 + rs) in E. destruct (Z.leb_spec di 0) as [Edi|Edi].
  { apply Ret_inj in E. rewrite <- E. split; cbn; try lia. destruct (p_cow p); lia. }
  set (nd := Z.quot (di + 4 - 1) 4) in E.
  assert (D2 : 0 <= nd) by (unfold nd; pose proof (quot4_bound (di + 4 - 1)); lia).
  destruct (Z.leb_spec nd (p_nd p)) as [D3|D3].
  2: { apply Ret_inj in E. rewrite <- E. split; cbn; try lia. destruct (p_cow p); lia. }
  destruct (0 <? Z.rem di 4).
  2: { apply Ret_inj in E. rewrite <- E. split; cbn; try lia. destruct (p_cow p); lia. }
  apply bind_ret in E. destruct E as (d0 & E0 & E).
  pose proof (own_len c a _ _ E0) as L0. assert (L0' : lenz (words d0) <= B + 5) by (destruct (p_cow p); lia).
  do 4 (apply bind_ret in E; destruct E as (? & _ & E)).
  apply bind_ret in E. destruct E as (w & S1 & E). apply set_checked_len in S1.
  apply Ret_inj in E. rewrite <- E. split; cbn; lia.
Qed.

(** ** strip *)
Lemma strip_front_while c k : forall ds i w nd, 0 <= i -> i + Z.of_nat k <= big -> - big <= w - Z.of_nat k -> w <= big -> nd <= big ->
  while k (fun '(i, w, nd) => if 0 <? nd then x <- get_unchecked ds i ;; Ret (x =? 0) else Ret false)
    (fun '(i, w, nd) => i <- usize c (i + 1) ;; w <- i32 c (w - 1) ;; nd <- i32 c (nd - 1) ;; Ret (i, w, nd)) (i, w, nd)
  = strip_front k ds i w nd.
Proof.
  unfold big. induction k as [|k IH]; intros ds i w nd H1 H2 H3 H4 H5; [reflexivity|].
  cbn [while strip_front]. destruct (Z.ltb_spec 0 nd) as [P|P]; [|reflexivity].
  destruct (get_unchecked ds i) as [x| | |]; cbn [bind]; try reflexivity.
  destruct (x =? 0); [|reflexivity].
  rewrite usize_ok by lia. cbn [bind]. rewrite i32_ok by lia. cbn [bind]. rewrite i32_ok by lia. cbn [bind]. apply IH; lia.
Qed.
Lemma strip_back_while c k : forall ds i nd, 0 <= i <= big -> nd <= big ->
  while k (fun nd => if 0 <? nd then
                   t <- usize c (i + nd) ;; t <- usize c (t - 1) ;;
                   x <- get_unchecked ds t ;; Ret (x =? 0)
                 else Ret false) (fun nd => i32 c (nd - 1)) nd
  = strip_back k ds i nd.
Proof.
  unfold big. induction k as [|k IH]; intros ds i nd H1 H2; [reflexivity|].
  cbn [while strip_back]. destruct (Z.ltb_spec 0 nd) as [P|P]; [|reflexivity].
  rewrite usize_ok by lia. cbn [bind]. rewrite usize_ok by lia. cbn [bind].
  destruct (get_unchecked ds (i + nd - 1)) as [x| | |]; cbn [bind]; try reflexivity.
  destruct (x =? 0); [|reflexivity]. rewrite i32_ok by lia. cbn [bind]. apply IH; lia.
Qed.
Lemma strip_front_bound k : forall ds i w nd i' w' nd', 0 <= nd -> strip_front k ds i w nd = Ret (i', w', nd') ->
  i <= i' <= i + nd /\ nd' = nd - (i' - i) /\ w' = w - (i' - i).
Proof.
  induction k as [|k IH]; intros ds i w nd i' w' nd' P E; [discriminate|]. cbn [strip_front] in E.
  destruct (Z.ltb_spec 0 nd) as [H|H].
  - destruct (get_unchecked ds i) as [x| | |]; cbn [bind] in E; try discriminate.
    destruct (x =? 0).
    + apply IH in E; lia.
    + apply Ret_inj in E. injection E as <- <- <-. lia.
  - apply Ret_inj in E. injection E as <- <- <-. lia.
Qed.
Lemma strip_back_bound k : forall ds i nd nd', 0 <= nd -> strip_back k ds i nd = Ret nd' -> 0 <= nd' <= nd.
Proof.
  induction k as [|k IH]; intros ds i nd nd' P E; [discriminate|]. cbn [strip_back] in E.
  destruct (Z.ltb_spec 0 nd) as [H|H].
  - destruct (get_unchecked ds _) as [x| | |]; cbn [bind] in E; try discriminate.
    destruct (x =? 0).
    + apply IH in E; lia.
    + apply Ret_inj in E. subst. lia.
  - apply Ret_inj in E. subst. lia.
Qed.

Lemma m_strip_eq c a B p v : B <= 30000000 -> mrep B p v -> m_strip c a p = p_strip c a p.
Proof.
  intros LB [R F]. destruct F as [F1 F2 F3 F4]. unfold m_strip, p_strip.
  rewrite m_own_eq by (unfold big; destruct (p_cow p); lia).
  destruct (own_ok c a p v R) as (d & E0 & O0 & A0). rewrite E0. cbn [bind].
  pose proof (own_len c a _ _ E0) as L0. assert (L0' : lenz (words d) <= B + 5) by (destruct (p_cow p); lia).
  pose proof (rp_nd p v R) as PN. unfold ndigits in PN. pose proof (digits_at_len d _ A0) as (HO & HL).
  rewrite PN, (m_slice_ok c d _ A0), (slice_ok c d _ A0) by lia. cbn [bind].
  rewrite strip_front_while by (unfold big; lia).
  apply bind_ext. intros [[i w] nd] E1. apply strip_front_bound in E1; [|lia].
  rewrite strip_back_while by (unfold big; lia).
  apply bind_ext. intros nd' E2. rewrite as_u32_ok, u32_ok by lia. reflexivity.
Qed.

Lemma p_strip_fit c a B p v q : 0 <= B -> mrep B p v -> p_strip c a p = Ret q -> fit (2 * B + 5) q.
Proof.
  intros PB [R F] E. destruct F as [F1 F2 F3 F4]. unfold p_strip in E.
  apply bind_ret in E. destruct E as (d0 & E0 & E).
  pose proof (own_len c a _ _ E0) as L0. assert (L0' : lenz (words d0) <= B + 5) by (destruct (p_cow p); lia).
  apply bind_ret in E. destruct E as (ds & _ & E).
  apply bind_ret in E. destruct E as ([[i w] nd] & E1 & E). apply strip_front_bound in E1; [|lia].
  apply bind_ret in E. destruct E as (nd' & E2 & E). apply strip_back_bound in E2; [|lia].
  apply bind_ret in E. destruct E as (_ & _ & E). apply Ret_inj in E. rewrite <- E.
  split; cbn [p_nd p_weight p_dscale p_cow words]; try lia. destruct (nd' =? 0); lia.
Qed.

(** ** the same, as simulations of Var.v *)
Lemma sim_fit {A} (B : Z) (x : outcome pvar) (y : outcome A) (R : pvar -> A -> Prop) :
  sim R x y -> (forall q, x = Ret q -> fit B q) -> sim (fun q w => R q w /\ fit B q) x y.
Proof. destruct x, y; cbn; auto. Qed.

Lemma round_m c a B p v rs : 0 <= B <= 30000000 -> - B <= rs <= B -> mrep B p v ->
  sim (mrep (B + 10)) (m_round_common c a p rs) (round_common c v rs).
Proof.
  intros LB LR M. rewrite (m_round_eq c a B p v rs) by (try assumption; lia).
  apply (sim_fit (B + 10) _ _ rep); [apply round_common_sim; exact (proj1 M)|].
  intros q E. exact (p_round_fit c a B p v rs q (proj1 LB) LR M E).
Qed.
Lemma trunc_m c a B p v rs : 0 <= B <= 30000000 -> - B <= rs <= B -> mrep B p v ->
  sim (mrep (B + 10)) (m_trunc_common c a p rs) (trunc_common c v rs).
Proof.
  intros LB LR M. rewrite (m_trunc_eq c a B p v rs) by (try assumption; lia).
  apply (sim_fit (B + 10) _ _ rep); [apply trunc_common_sim; exact (proj1 M)|].
  intros q E. exact (p_trunc_fit c a B p v rs q (proj1 LB) LR M E).
Qed.
Lemma strip_m c a B p v : 0 <= B <= 30000000 -> mrep B p v ->
  sim (mrep (2 * B + 5)) (m_strip c a p) (Ret (strip v)).
Proof.
  intros LB M. rewrite (m_strip_eq c a B p v) by (try assumption; lia).
  destruct (strip_sim c a p v (proj1 M)) as (q & E & R). rewrite E. split; [exact R|].
  exact (p_strip_fit c a B p v q (proj1 LB) M E).
Qed.
