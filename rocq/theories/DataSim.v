(** * DataSim: the buffer-level operations of Data.v do what the list-level ones of Var.v do. *)
From Coq Require Import ZArith List Bool Lia.
From Verif Require Import Base Var Binary Data Digits Arith.
Import ListNotations.
Open Scope Z_scope.

(** Same outcome, related results. *)
Definition sim {A B} (R : A -> B -> Prop) (x : outcome A) (y : outcome B) : Prop :=
  match x, y with
  | Ret a, Ret b => R a b
  | Panic w, Panic w' => w = w'
  | UB, UB => True
  | Diverge, Diverge => True
  | _, _ => False
  end.

Lemma sim_ret {A B} (R : A -> B -> Prop) a b : R a b -> sim R (Ret a) (Ret b).
Proof. exact (fun H => H). Qed.

Lemma sim_bind {A B A' B'} (R : A -> B -> Prop) (S : A' -> B' -> Prop) x y f g :
  sim R x y -> (forall a b, R a b -> sim S (f a) (g b)) -> sim S (bind x f) (bind y g).
Proof. destruct x, y; cbn; intros H K; auto; contradiction. Qed.

Lemma sim_refl {A} (x : outcome A) : sim eq x x.
Proof. destruct x; cbn; auto. Qed.

Lemma sim_mono {A B} (R S : A -> B -> Prop) x y : (forall a b, R a b -> S a b) -> sim R x y -> sim S x y.
Proof. destruct x, y; cbn; auto. Qed.

(** the same first step *)
Lemma sim_same {X A B} (S : A -> B -> Prop) (x : outcome X) f g :
  (forall a, x = Ret a -> sim S (f a) (g a)) -> sim S (bind x f) (bind x g).
Proof. destruct x; cbn; auto. Qed.

Definition digits_at (d : data) (ds : list Z) : Prop :=
  exists pre post, words d = pre ++ ds ++ post /\ lenz pre = off d.

Record rep (p : pvar) (v : var) : Prop := {
  rp_nd : p_nd p = ndigits v;
  rp_weight : p_weight p = weight v;
  rp_dscale : p_dscale p = dscale v;
  rp_sign : p_sign p = sign v;
  rp_cow : match p_cow p with
           | Borrowed l => exists post, l = digits v ++ post
           | Owned d => 4 <= off d /\ digits_at d (digits v)
           end
}.

Lemma lenz_alloc a n : 0 <= n -> lenz (alloc a n) = n.
Proof. intro H. unfold alloc. rewrite lenz_map. unfold lenz. rewrite seq_length. lia. Qed.

Lemma firstn_app_len {A} (l m : list A) : firstn (length l) (l ++ m) = l.
Proof. rewrite firstn_app, firstn_all, Nat.sub_diag, firstn_O. apply app_nil_r. Qed.
Lemma skipn_app_len {A} (l m : list A) : skipn (length l) (l ++ m) = m.
Proof. rewrite skipn_app, skipn_all, Nat.sub_diag. reflexivity. Qed.

Lemma slice_ok c d ds : digits_at d ds -> slice c d (lenz ds) = Ret ds.
Proof.
  intros (pre & post & W & O). unfold slice. rewrite W, !lenz_app, <- O.
  pose proof (lenz_nonneg post). pose proof (lenz_nonneg ds).
  assert (E : (lenz pre + lenz ds <=? lenz pre + (lenz ds + lenz post)) = true) by (apply Z.leb_le; lia).
  rewrite E. rewrite dassert_ok by reflexivity. cbn [bind].
  replace (0 <=? lenz ds) with true by (symmetry; apply Z.leb_le; lia). cbn [andb].
  rewrite !to_nat_lenz, skipn_app_len, firstn_app_len. reflexivity.
Qed.

Lemma digits_at_le d ds post : digits_at d (ds ++ post) -> digits_at d ds.
Proof. intros (a & b & W & O). exists a, (post ++ b). split; [now rewrite W, <- app_assoc|exact O]. Qed.

Lemma to_owned_ok c a l : exists d, to_owned c a l = Ret d /\ off d = 5 /\ digits_at d l.
Proof.
  pose proof (lenz_nonneg l). unfold to_owned, with_ndigits. rewrite dassert_ok by (apply Z.leb_le; lia). cbn [bind].
  change (NUMERIC_HEADER_NDIGITS + 1) with 5. change NUMERIC_HEADER_NDIGITS with 4.
  replace (lenz l + 4 + 1) with (5 + lenz l) by lia.
  set (w := alloc a (5 + lenz l)).
  assert (L : lenz w = 5 + lenz l) by (apply lenz_alloc; lia).
  assert (S1 : exists w1 w2, w = w1 ++ w2 /\ lenz w1 = 5).
  { exists (firstn (Z.to_nat 5) w), (skipn (Z.to_nat 5) w). split; [now rewrite firstn_skipn|].
    apply lenz_firstn. lia. }
  destruct S1 as (w1 & w2 & E & L1). unfold copy_in.
  assert (L2 : lenz w2 = lenz l) by (rewrite E, lenz_app in L; lia).
  assert (SL : slice c (Data w 5) (lenz l) = Ret w2).
  { rewrite <- L2. apply slice_ok. exists w1, []. cbn [words off]. rewrite app_nil_r. split; [exact E|exact L1]. }
  rewrite SL. cbn [bind words off]. eexists. split; [reflexivity|]. split; [reflexivity|].
  exists (firstn (Z.to_nat 5) w), (skipn (Z.to_nat 5 + length l) w). cbn [words off]. split; [reflexivity|].
  apply lenz_firstn. lia.
Qed.

Lemma own_ok c a p v : rep p v -> exists d, own c a (p_cow p) = Ret d /\ 4 <= off d /\ digits_at d (digits v).
Proof.
  intro R. pose proof (rp_cow p v R) as K. destruct (p_cow p) as [l|d]; cbn [own].
  - destruct K as [post ->]. destruct (to_owned_ok c a (digits v ++ post)) as (d & E & O & D).
    exists d. split; [exact E|]. split; [lia|]. now apply digits_at_le in D.
  - exists d. now split.
Qed.

Lemma reserve_ok c a d ds : 0 < lenz ds -> 4 <= off d -> digits_at d ds ->
  exists d', reserve c a d (lenz ds) = Ret d' /\ 5 <= off d' /\ digits_at d' ds.
Proof.
  intros P O D. unfold reserve. rewrite dassert_ok by (apply Z.ltb_lt; lia). cbn [bind].
  change NUMERIC_HEADER_NDIGITS with 4. destruct (Z.leb_spec (off d) 4) as [L|L].
  - unfold buf_copy. rewrite dassert_ok by (apply Z.leb_le; lia). cbn [bind].
    replace (0 <? lenz ds) with true by (symmetry; apply Z.ltb_lt; lia).
    rewrite (slice_ok c d ds D). cbn [bind]. eexists. split; [reflexivity|]. cbn [off].
    split; [vm_compute; discriminate|]. exists (alloc a 5), []. cbn [words off]. split; [now rewrite app_nil_r|reflexivity].
  - exists d. split; [reflexivity|]. split; [lia|exact D].
Qed.

Lemma set_nth_app {A} (l m : list A) x y : set_nth (l ++ x :: m) (length l) y = l ++ y :: m.
Proof. induction l as [|a l IH]; [reflexivity|]. cbn. now rewrite IH. Qed.
Lemma set_unchecked_app {A} (l m : list A) x y i : i = lenz l -> set_unchecked (l ++ x :: m) i y = Ret (l ++ y :: m).
Proof.
  intros ->. unfold set_unchecked. rewrite lenz_app, lenz_cons. pose proof (lenz_nonneg l). pose proof (lenz_nonneg m).
  replace (lenz l <? 0) with false by (symmetry; apply Z.ltb_ge; lia).
  replace (lenz l + (1 + lenz m) <=? lenz l) with false by (symmetry; apply Z.leb_gt; lia).
  cbn [orb]. now rewrite to_nat_lenz, set_nth_app.
Qed.
Lemma set_checked_app {A} (l m : list A) x y i : i = lenz l -> set_checked (l ++ x :: m) i y = Ret (l ++ y :: m).
Proof.
  intros ->. unfold set_checked. rewrite lenz_app, lenz_cons. pose proof (lenz_nonneg l). pose proof (lenz_nonneg m).
  replace (lenz l <? 0) with false by (symmetry; apply Z.ltb_ge; lia).
  replace (lenz l + (1 + lenz m) <=? lenz l) with false by (symmetry; apply Z.leb_gt; lia).
  cbn [orb]. now rewrite to_nat_lenz, set_nth_app.
Qed.
Lemma get_app {A} (l m : list A) x i : i = lenz l -> get_unchecked (l ++ x :: m) i = Ret x.
Proof.
  intros ->. unfold get_unchecked. pose proof (lenz_nonneg l).
  replace (lenz l <? 0) with false by (symmetry; apply Z.ltb_ge; lia).
  rewrite to_nat_lenz, nth_error_app2, Nat.sub_diag by lia. reflexivity.
Qed.
Lemma index_app {A} (l m : list A) x i : i = lenz l -> index (l ++ x :: m) i = Ret x.
Proof.
  intros ->. unfold index. pose proof (lenz_nonneg l).
  replace (lenz l <? 0) with false by (symmetry; apply Z.ltb_ge; lia).
  rewrite to_nat_lenz, nth_error_app2, Nat.sub_diag by lia. reflexivity.
Qed.

(** ** The carry loop *)
Lemma propagate_0 c ds : propagate c ds 0 = Ret (0, ds).
Proof. induction ds as [|d t IH]; [reflexivity|]. cbn [propagate]. rewrite IH. reflexivity. Qed.

Lemma propagate_snoc c h d : propagate c (h ++ [d]) 1 =
  (s <- i32 c (1 + d) ;;
   '(cr, h') <- propagate c h (if NBASE <=? s then 1 else 0) ;;
   Ret (cr, h' ++ [as_i16 (if NBASE <=? s then s - NBASE else s)])).
Proof.
  induction h as [|x h IH].
  - cbn [app propagate bind]. change (1 =? 0) with false. cbn iota.
    destruct (i32 c (1 + d)) as [s| | |]; cbn [bind]; try reflexivity.
    destruct (NBASE <=? s); reflexivity.
  - cbn [app propagate]. rewrite IH. destruct (i32 c (1 + d)) as [s| | |]; cbn [bind]; try reflexivity.
    destruct (propagate c h (if NBASE <=? s then 1 else 0)) as [[cr h']| | |]; cbn [bind]; try reflexivity.
    destruct (cr =? 0); [reflexivity|].
    destruct (i32 c (cr + x)) as [s'| | |]; cbn [bind]; try reflexivity.
    destruct (NBASE <=? s'); reflexivity.
Qed.

Definition carried (pre post : list Z) (n : nat) (r : list Z * Z) (s : Z * list Z) : Prop :=
  fst r = pre ++ fst s :: snd s ++ post /\ length (snd s) = n /\
  ((fst s = 0 /\ 0 <= snd r) \/ (fst s = 1 /\ snd r = -1)).

Lemma carry_loop_sim c head : forall pre post k carry, carry = 0 \/ carry = 1 -> (length head + 3 <= k)%nat ->
  sim (carried pre post (length head))
      (carry_loop c k (pre ++ 0 :: head ++ post) (lenz pre + 1) (lenz head) carry) (propagate c head carry).
Proof.
  induction head as [|d h IH] using rev_ind; intros pre post k carry C K; (destruct C as [-> | ->];
    [destruct k as [|k]; [lia|]; cbn [carry_loop]; change (0 <? 0) with false; cbn iota; rewrite propagate_0;
     cbn [sim]; unfold carried; cbn [fst snd]; split; [reflexivity|]; split; [reflexivity|left; split; [reflexivity|apply lenz_nonneg]]|]).
  - destruct k as [|k]; [lia|]. destruct k as [|k]; [cbn in K; lia|].
    cbn [carry_loop]. change (0 <? 1) with true. cbn iota zeta. cbn [app propagate].
    change (lenz (@nil Z)) with 0. replace (lenz pre + 1 + (0 - 1)) with (lenz pre) by lia.
    rewrite dassert_ok.
    2:{ apply andb_true_intro. rewrite lenz_app, lenz_cons. pose proof (lenz_nonneg pre). pose proof (lenz_nonneg post).
        split; [apply Z.leb_le|apply Z.ltb_lt]; lia. }
    cbn [bind]. rewrite get_app by reflexivity. cbn [bind].
    change (1 + 0) with 1. rewrite i32_ok by lia. cbn [bind]. change (NBASE <=? 1) with false. cbn iota.
    rewrite set_unchecked_app by reflexivity. cbn [bind carry_loop]. change (0 <? 0) with false. cbn iota.
    cbn [sim]. unfold carried. cbn [fst snd]. split; [reflexivity|]. split; [reflexivity|]. right. split; reflexivity.
  - rewrite propagate_snoc. rewrite app_length in K. cbn [length] in K.
    destruct k as [|k]; [lia|].
    cbn [carry_loop]. change (0 <? 1) with true. cbn iota zeta.
    replace (lenz (h ++ [d]) - 1) with (lenz h) by (rewrite lenz_app; change (lenz [d]) with 1; lia).
    pose proof (lenz_nonneg h) as Lh. pose proof (lenz_nonneg pre) as Lp. pose proof (lenz_nonneg post) as Lo.
    assert (W : pre ++ 0 :: (h ++ [d]) ++ post = (pre ++ 0 :: h) ++ d :: post).
    { rewrite <- !app_assoc. cbn [app]. reflexivity. }
    rewrite W.
    assert (Li : lenz pre + 1 + lenz h = lenz (pre ++ 0 :: h)) by (rewrite lenz_app, lenz_cons; lia).
    rewrite dassert_ok.
    2:{ apply andb_true_intro. rewrite Li. generalize (pre ++ 0 :: h). intro z. rewrite lenz_app, lenz_cons.
        pose proof (lenz_nonneg z). split; [apply Z.leb_le|apply Z.ltb_lt]; lia. }
    cbn [bind]. rewrite get_app by exact Li. cbn [bind].
    apply sim_same. intros s Es.
    assert (G : forall y cr, cr = 0 \/ cr = 1 ->
      sim (carried pre post (length (h ++ [d])))
        (w <- set_unchecked ((pre ++ 0 :: h) ++ d :: post) (lenz pre + 1 + lenz h) y ;; carry_loop c k w (lenz pre + 1) (lenz h) cr)
        ('(cr', h') <- propagate c h cr ;; Ret (cr', h' ++ [y]))).
    { intros y cr Hc. rewrite set_unchecked_app by exact Li. cbn [bind].
      rewrite <- app_assoc. cbn [app].
      assert (KK : (length h + 3 <= k)%nat) by lia.
      pose proof (IH pre (y :: post) k cr Hc KK) as S.
      destruct (carry_loop c k (pre ++ 0 :: h ++ y :: post) (lenz pre + 1) (lenz h) cr) as [[w nd]| | |],
        (propagate c h cr) as [[cr' h']| | |]; cbn [sim bind] in *; auto.
      unfold carried in *. cbn [fst snd] in *. destruct S as (S1 & S2 & S3). split.
      - rewrite S1. rewrite <- app_assoc. reflexivity.
      - split; [rewrite !app_length; cbn; lia|exact S3]. }
    destruct (NBASE <=? s) eqn:En; cbn iota; apply G; auto.
Qed.

(** ** round_common *)
Lemma nd_pos w r : 0 <= (w + 1) * 4 + r -> 0 < Z.rem ((w + 1) * 4 + r) 4 -> 1 <= Z.quot ((w + 1) * 4 + r + 4 - 1) 4.
Proof.
  set (d := (w + 1) * 4 + r). intros H R. rewrite Z.rem_mod_nonneg in R by lia.
  rewrite Z.quot_div_nonneg by lia. pose proof (Z.div_mod d 4 ltac:(lia)).
  assert (d <> 0) by (intro Z0; rewrite Z0 in R; cbn in R; lia).
  apply Z.div_le_lower_bound; lia.
Qed.

Lemma split3 {A} (l : list A) i : 0 <= i < lenz l -> exists h x t, l = h ++ x :: t /\ lenz h = i.
Proof. intro H. destruct (nth_error_split_at l i H) as (x & _ & E). exists (firstn (Z.to_nat i) l), x, (skipn (Z.to_nat (i + 1)) l). split; [exact E|]. apply lenz_firstn. lia. Qed.

Lemma digits_at_nil d ds : digits_at d ds -> digits_at d [].
Proof. intro H. apply (digits_at_le d [] ds). exact H. Qed.

Lemma round_tail c v rs nd (d : data) pre x0 h tl post carry :
  words d = pre ++ x0 :: h ++ tl ++ post -> off d = lenz pre + 1 -> 5 <= off d ->
  carry = 0 \/ carry = 1 -> nd = lenz h + lenz tl ->
  sim rep
   (w <- set_checked (words d) (off d - 1) 0 ;;
    '(w, nd') <- carry_loop c (Z.to_nat (lenz h) + 3) w (off d) (lenz h) carry ;;
    if nd' <? 0 then
      dassert c (nd' =? -1) ;;; dassert c (0 <? off d) ;;; dassert c (1 <=? off d) ;;;
      Ret (PVar (nd + 1) (weight v + 1) rs (sign v) (Owned (Data w (off d - 1))))
    else Ret (PVar nd (weight v) rs (sign v) (Owned (Data w (off d)))))
   ('(cr, head) <- propagate c h carry ;;
    if cr =? 0 then Ret (Var (weight v) rs (sign v) (head ++ tl))
    else Ret (Var (weight v + 1) rs (sign v) (cr :: head ++ tl))).
Proof.
  intros W O O5 C N. rewrite W.
  rewrite set_checked_app by lia. cbn [bind]. rewrite O.
  apply (sim_bind (carried pre (tl ++ post) (length h))).
  { apply carry_loop_sim; [exact C|]. rewrite to_nat_lenz. lia. }
  intros [w' nd'] [cr h'] (K1 & K2 & K3). cbn [fst snd] in *.
  assert (Lh : lenz h' = lenz h) by (unfold lenz; now rewrite K2).
  assert (Le : lenz (h' ++ tl) = nd) by (rewrite lenz_app; lia).
  destruct K3 as [[-> K3]|[-> ->]].
  - replace (nd' <? 0) with false by (symmetry; apply Z.ltb_ge; lia). cbn iota. change (0 =? 0) with true. cbn iota.
    apply sim_ret. constructor; cbn [p_nd p_weight p_dscale p_sign p_cow weight dscale sign]; auto.
    split; [cbn [off]; lia|]. exists (pre ++ [0]), post. cbn [words off digits]. split.
    + rewrite K1, <- !app_assoc. reflexivity.
    + rewrite lenz_app. change (lenz [0]) with 1. reflexivity.
  - change (-1 <? 0) with true. cbn iota. change (1 =? 0) with false. cbn iota.
    rewrite dassert_ok by reflexivity. cbn [bind].
    rewrite dassert_ok by (apply Z.ltb_lt; lia). cbn [bind].
    rewrite dassert_ok by (apply Z.leb_le; lia). cbn [bind].
    apply sim_ret. constructor; cbn [p_nd p_weight p_dscale p_sign p_cow weight dscale sign]; auto.
    + unfold ndigits. cbn [digits]. rewrite lenz_cons. lia.
    + split; [cbn [off]; lia|]. exists pre, post. cbn [words off digits]. split.
      * rewrite K1. cbn [app]. now rewrite <- app_assoc.
      * lia.
Qed.

Lemma round_common_sim c a p v rs : rep p v -> sim rep (p_round_common c a p rs) (round_common c v rs).
Proof.
  intro R. unfold p_round_common, round_common. pose proof R as R0. destruct R as [En Ew Ed Es Ec].
  rewrite En, Ew, Es. unfold is_nan. apply sim_same. intros _ _. cbn zeta. change DEC_DIGITS with 4.
  destruct (Z.ltb_spec ((weight v + 1) * 4 + rs) 0) as [L|L].
  { apply sim_ret. constructor; cbn [p_nd p_weight p_dscale p_sign p_cow weight dscale sign]; auto.
    destruct (p_cow p) as [l|d].
    - exists l. reflexivity.
    - destruct Ec as [O D]. split; [exact O|]. cbn [digits]. exact (digits_at_nil d _ D). }
  set (nd := Z.quot ((weight v + 1) * 4 + rs + 4 - 1) 4). set (di := Z.rem ((weight v + 1) * 4 + rs) 4).
  assert (Nd0 : 0 <= nd) by (unfold nd; apply Z.quot_pos; lia).
  assert (Di0 : 0 <= di < 4) by (unfold di; apply Z.rem_bound_pos; lia).
  assert (Nd1 : 0 < di -> 1 <= nd) by (intro H; now apply nd_pos).
  destruct ((nd <? ndigits v) || ((nd =? ndigits v) && (0 <? di))) eqn:Br.
  2:{ apply sim_ret. constructor; cbn [p_nd p_weight p_dscale p_sign p_cow weight dscale sign set_dscale digits]; auto. }
  assert (B : nd < ndigits v \/ (nd = ndigits v /\ 0 < di)).
  { apply orb_true_iff in Br. destruct Br as [H|H]; [left; now apply Z.ltb_lt|].
    apply andb_true_iff in H. destruct H as [H1 H2]. right. split; [now apply Z.eqb_eq|now apply Z.ltb_lt]. }
  destruct (own_ok c a p v R0) as (d0 & E0 & O0 & D0). rewrite E0. cbn [bind].
  assert (Lp : 0 < lenz (digits v)) by (unfold ndigits in B; lia).
  replace (0 <? ndigits v) with true by (symmetry; apply Z.ltb_lt; exact Lp).
  destruct (reserve_ok c a d0 (digits v) Lp O0 D0) as (d & E & O & D). unfold ndigits in *. rewrite E. cbn [bind].
  change NUMERIC_HEADER_NDIGITS with 4.
  replace (4 <? off d) with true by (symmetry; apply Z.ltb_lt; lia). cbn [orb].
  rewrite dassert_ok by reflexivity. cbn [bind]. rewrite (slice_ok c d _ D). cbn [bind].
  destruct D as (pre & post & W & Lo).
  assert (SP : exists pre0 x0, pre = pre0 ++ [x0]).
  { destruct pre as [|y t] using rev_ind; [cbn in Lo; lia|]. now exists t, y. }
  destruct SP as (pre0 & x0 & ->). rewrite <- app_assoc in W. cbn [app] in W.
  rewrite lenz_app in Lo. change (lenz [x0]) with 1 in Lo.
  destruct (Z.eqb_spec di 0) as [Z0|Z0].
  - assert (B' : nd < lenz (digits v)) by lia.
    destruct (split3 (digits v) nd (conj Nd0 B')) as (h & x & t & Ev & Lh). rewrite Ev.
    rewrite index_app by (symmetry; exact Lh). cbn [bind].
    replace (Z.to_nat nd) with (length h) by (rewrite <- Lh; symmetry; apply to_nat_lenz).
    rewrite firstn_app_len. rewrite <- (to_nat_lenz h). rewrite <- Lh.
    apply (round_tail c v rs (lenz h) d pre0 x0 h [] (x :: t ++ post)); auto.
    + rewrite W, Ev, <- app_assoc. reflexivity.
    + destruct (HALF_NBASE <=? x); auto.
    + change (lenz (@nil Z)) with 0. lia.
  - assert (Dp : 0 < di) by lia. specialize (Nd1 Dp).
    destruct (index ROUND_POWERS di) as [pow10| | |]; cbn [bind sim]; auto.
    assert (B' : nd - 1 < lenz (digits v)) by lia.
    assert (B0 : 0 <= nd - 1) by lia.
    destruct (split3 (digits v) (nd - 1) (conj B0 B')) as (h & x & t & Ev & Lh). rewrite Ev.
    rewrite dassert_ok.
    2:{ rewrite lenz_app, lenz_cons, Lh. pose proof (lenz_nonneg t). apply andb_true_intro. split; [apply Z.leb_le|apply Z.ltb_lt]; lia. }
    cbn [bind]. rewrite get_app by (symmetry; exact Lh). cbn [bind].
    assert (W' : words d = (pre0 ++ x0 :: h) ++ x :: t ++ post).
    { rewrite W, Ev, <- !app_assoc. reflexivity. }
    assert (Li : off d + (nd - 1) = lenz (pre0 ++ x0 :: h)) by (rewrite lenz_app, lenz_cons; lia).
    assert (Fi : firstn (Z.to_nat (nd - 1)) (h ++ x :: t) = h).
    { rewrite <- Lh, to_nat_lenz. apply firstn_app_len. }
    assert (G : forall y carry, carry = 0 \/ carry = 1 ->
      sim rep
       ('(nd', carry, w) <- Ret (nd - 1, carry, (pre0 ++ x0 :: h) ++ y :: t ++ post) ;;
        w <- set_checked w (off d - 1) 0 ;;
        '(w, nd') <- carry_loop c (Z.to_nat nd' + 3) w (off d) nd' carry ;;
        if nd' <? 0 then
          dassert c (nd' =? -1) ;;; dassert c (0 <? off d) ;;; dassert c (1 <=? off d) ;;;
          Ret (PVar (nd + 1) (weight v + 1) rs (sign v) (Owned (Data w (off d - 1))))
        else Ret (PVar nd (weight v) rs (sign v) (Owned (Data w (off d)))))
       ('(pos, carry, tail) <- Ret (nd - 1, carry, [y]) ;;
        '(cr, head) <- propagate c (firstn (Z.to_nat pos) (h ++ x :: t)) carry ;;
        if cr =? 0 then Ret (Var (weight v) rs (sign v) (head ++ tail))
        else Ret (Var (weight v + 1) rs (sign v) (cr :: head ++ tail)))).
    { intros y carry Hc. cbn [bind]. rewrite Fi. rewrite <- Lh.
      pose proof (round_tail c v rs nd
        (Data ((pre0 ++ x0 :: h) ++ y :: t ++ post) (off d)) pre0 x0 h [y] (t ++ post) carry) as T.
      cbn [words off] in T. apply T; auto.
      - rewrite <- app_assoc. reflexivity.
      - change (lenz [y]) with 1. lia. }
    assert (SU : forall y z, set_unchecked ((pre0 ++ x0 :: h) ++ y :: t ++ post) (off d + (nd - 1)) z
                 = Ret ((pre0 ++ x0 :: h) ++ z :: t ++ post)).
    { intros y z. apply set_unchecked_app. exact Li. }
    destruct (i16 c (x - Z.rem x pow10)) as [x'| | |]; cbn [bind sim]; auto.
    rewrite W', SU. cbn [bind].
    destruct (Z.quot pow10 2 <=? Z.rem x pow10).
    + destruct (i16 c (pow10 + x')) as [q| | |]; cbn [bind sim]; auto.
      destruct (NBASE <=? q).
      * rewrite SU. cbn [bind]. apply (G (q - NBASE) 1). auto.
      * rewrite SU. cbn [bind]. apply (G q 0). auto.
    + apply (G x' 0). auto.
Qed.

(** ** trunc_common *)
Lemma cow_le p v ds post : rep p v -> digits v = ds ++ post ->
  match p_cow p with
  | Borrowed l => exists post', l = ds ++ post'
  | Owned d => 4 <= off d /\ digits_at d ds
  end.
Proof.
  intros R E. pose proof (rp_cow p v R) as K. destruct (p_cow p) as [l|d].
  - destruct K as [q ->]. exists (post ++ q). now rewrite E, <- app_assoc.
  - destruct K as [O D]. split; [exact O|]. rewrite E in D. exact (digits_at_le d ds post D).
Qed.

Lemma trunc_common_sim c a p v rs : rep p v -> sim rep (p_trunc_common c a p rs) (trunc_common c v rs).
Proof.
  intro R. unfold p_trunc_common, trunc_common. pose proof R as R0. destruct R as [En Ew Ed Es Ec].
  rewrite En, Ew, Es. unfold is_nan. apply sim_same. intros _ _. cbn zeta. change DEC_DIGITS with 4.
  destruct (Z.leb_spec ((weight v + 1) * 4 + rs) 0) as [L|L].
  { apply sim_ret. constructor; cbn [p_nd p_weight p_dscale p_sign p_cow weight dscale sign]; auto.
    apply (cow_le p v [] (digits v) R0 eq_refl). }
  set (nd := Z.quot ((weight v + 1) * 4 + rs + 4 - 1) 4). set (di := Z.rem ((weight v + 1) * 4 + rs) 4).
  assert (Nd0 : 0 <= nd) by (unfold nd; apply Z.quot_pos; lia).
  assert (Nd1 : 0 < di -> 1 <= nd) by (intro H; apply nd_pos; [lia|exact H]).
  destruct (Z.leb_spec nd (ndigits v)) as [B|B].
  2:{ apply sim_ret. constructor; cbn [p_nd p_weight p_dscale p_sign p_cow weight dscale sign set_dscale digits]; auto. }
  assert (Ev : digits v = firstn (Z.to_nat nd) (digits v) ++ skipn (Z.to_nat nd) (digits v)) by now rewrite firstn_skipn.
  assert (Lf : lenz (firstn (Z.to_nat nd) (digits v)) = nd) by (apply lenz_firstn; split; [exact Nd0|exact B]).
  set (ds := firstn (Z.to_nat nd) (digits v)) in *.
  destruct (Z.ltb_spec 0 di) as [P|P].
  - specialize (Nd1 P). destruct (own_ok c a p v R0) as (d & E & O & D). rewrite E. cbn [bind].
    rewrite Ev in D. apply digits_at_le in D.
    replace (slice c d nd) with (slice c d (lenz ds)) by now rewrite Lf.
    rewrite (slice_ok c d ds D). cbn [bind].
    destruct (index ROUND_POWERS di) as [pow10| | |]; cbn [bind sim]; auto.
    assert (B' : 0 <= nd - 1 < lenz ds) by lia.
    destruct (split3 ds (nd - 1) B') as (h & x & t & Eh & Lh).
    assert (t = []) as ->.
    { apply lenz_0. rewrite Eh, lenz_app, lenz_cons in Lf. lia. }
    rewrite Eh. rewrite index_app by (symmetry; exact Lh). cbn [bind].
    destruct (i16 c (x - Z.rem x pow10)) as [x'| | |]; cbn [bind sim]; auto.
    destruct D as (pre & post & W & Lo). rewrite Eh, <- app_assoc in W. cbn [app] in W. rewrite app_assoc in W. rewrite W.
    rewrite set_checked_app by (rewrite lenz_app; lia). cbn [bind].
    assert (Esn : set_nth (h ++ [x]) (Z.to_nat (nd - 1)) x' = h ++ [x']).
    { rewrite <- Lh, to_nat_lenz. apply set_nth_app. }
    rewrite Esn. apply sim_ret.
    constructor; cbn [p_nd p_weight p_dscale p_sign p_cow weight dscale sign digits]; auto.
    + unfold ndigits. cbn [digits]. rewrite lenz_app. change (lenz [x']) with 1. lia.
    + split; [exact O|]. exists pre, post. cbn [words off]. split; [|exact Lo]. rewrite <- !app_assoc. reflexivity.
  - apply sim_ret. constructor; cbn [p_nd p_weight p_dscale p_sign p_cow weight dscale sign digits]; auto.
    exact (cow_le p v ds _ R0 Ev).
Qed.

(** ** strip *)
Lemma strip_front_eq rest : forall pre k w, (length rest < k)%nat ->
  strip_front k (pre ++ rest) (lenz pre) w (lenz rest) =
  Ret (lenz pre + (lenz rest - lenz (drop_zeros rest)), w - (lenz rest - lenz (drop_zeros rest)), lenz (drop_zeros rest)).
Proof.
  induction rest as [|d t IH]; intros pre k w K; (destruct k as [|k]; [lia|]).
  - cbn [strip_front drop_zeros]. change (lenz (@nil Z)) with 0. change (0 <? 0) with false. cbn iota. do 3 f_equal; lia.
  - cbn [strip_front drop_zeros]. rewrite lenz_cons. pose proof (lenz_nonneg t).
    replace (0 <? 1 + lenz t) with true by (symmetry; apply Z.ltb_lt; lia).
    rewrite get_app by reflexivity. cbn [bind].
    destruct (d =? 0).
    + cbn [length] in K. specialize (IH (pre ++ [d]) k (w - 1) ltac:(lia)).
      rewrite <- app_assoc in IH. cbn [app] in IH. rewrite lenz_app in IH. change (lenz [d]) with 1 in IH.
      replace (1 + lenz t - 1) with (lenz t) by lia. rewrite IH. do 3 f_equal; lia.
    + rewrite lenz_cons. do 3 f_equal; lia.
Qed.

Lemma strip_back_eq mid : forall pre post k, (length mid < k)%nat ->
  strip_back k (pre ++ mid ++ post) (lenz pre) (lenz mid) = Ret (lenz (rev (drop_zeros (rev mid)))).
Proof.
  induction mid as [|d t IH] using rev_ind; intros pre post k K; (destruct k as [|k]; [lia|]).
  - reflexivity.
  - cbn [strip_back]. rewrite rev_app_distr. cbn [rev app drop_zeros].
    rewrite app_length in K. cbn [length] in K.
    replace (lenz (t ++ [d])) with (lenz t + 1) by (rewrite lenz_app; reflexivity). pose proof (lenz_nonneg t).
    replace (0 <? lenz t + 1) with true by (symmetry; apply Z.ltb_lt; lia).
    replace (pre ++ (t ++ [d]) ++ post) with ((pre ++ t) ++ d :: post) by (rewrite <- !app_assoc; reflexivity).
    rewrite get_app by (rewrite lenz_app; lia). cbn [bind].
    destruct (d =? 0).
    + rewrite <- app_assoc. replace (lenz t + 1 - 1) with (lenz t) by lia.
      apply (IH pre (d :: post)). lia.
    + rewrite lenz_rev, lenz_cons, lenz_rev. f_equal. lia.
Qed.

Lemma drop_zeros_split l : exists z, l = z ++ drop_zeros l.
Proof.
  induction l as [|d t [z E]]; [now exists []|]. cbn [drop_zeros]. destruct (d =? 0).
  - exists (d :: z). cbn [app]. now rewrite <- E.
  - now exists [].
Qed.
Lemma drop_back_split l : exists z, l = rev (drop_zeros (rev l)) ++ z.
Proof.
  destruct (drop_zeros_split (rev l)) as [z E]. exists (rev z).
  rewrite <- rev_app_distr, <- E. now rewrite rev_involutive.
Qed.

Lemma strip_sim c a p v : rep p v -> exists q, p_strip c a p = Ret q /\ rep q (strip v).
Proof.
  intro R. unfold p_strip, strip. cbn zeta. destruct (own_ok c a p v R) as (d & E & O & D).
  rewrite E, (rp_nd p v R), (rp_weight p v R), (rp_dscale p v R), (rp_sign p v R). cbn [bind].
  unfold ndigits. rewrite (slice_ok c d _ D). cbn [bind]. rewrite to_nat_lenz.
  pose proof (strip_front_eq (digits v) [] (length (digits v) + 1) (weight v) ltac:(lia)) as F.
  cbn [app] in F. change (lenz (@nil Z)) with 0 in F. rewrite F. cbn [bind].
  set (lead := drop_zeros (digits v)) in *. destruct (drop_zeros_split (digits v)) as [z Ez]. fold lead in Ez.
  assert (Lz : lenz (digits v) - lenz lead = lenz z) by (rewrite Ez, lenz_app; lia). rewrite Lz.
  destruct (drop_back_split lead) as [y Ey]. set (ds := rev (drop_zeros (rev lead))) in *.
  rewrite to_nat_lenz.
  assert (Bk : strip_back (length lead + 1) (digits v) (0 + lenz z) (lenz lead) = Ret (lenz ds)).
  { rewrite Ez at 1. pose proof (strip_back_eq lead z [] (length lead + 1) ltac:(lia)) as B.
    rewrite app_nil_r in B. exact B. }
  rewrite Bk. cbn [bind].
  destruct D as (pre & post & W & Lo).
  assert (Wd : words d = (pre ++ z) ++ ds ++ (y ++ post)).
  { rewrite W, Ez, Ey at 1. rewrite <- !app_assoc. reflexivity. }
  rewrite dassert_ok.
  2:{ rewrite Wd, !lenz_app, <- Lo. pose proof (lenz_nonneg ds). pose proof (lenz_nonneg y). pose proof (lenz_nonneg post).
      apply Z.leb_le. lia. }
  cbn [bind]. eexists. split; [reflexivity|].
  assert (DA : 4 <= off d + (0 + lenz z) /\ digits_at (Data (words d) (off d + (0 + lenz z))) ds).
  { pose proof (lenz_nonneg z). split; [lia|]. exists (pre ++ z), (y ++ post). cbn [words off]. split; [exact Wd|].
    rewrite lenz_app. lia. }
  destruct ds as [|x l] eqn:Eds.
  - change (lenz (@nil Z)) with 0. constructor; cbn; auto.
  - pose proof (lenz_nonneg l). rewrite lenz_cons. replace (1 + lenz l =? 0) with false by (symmetry; apply Z.eqb_neq; lia).
    constructor; cbn [p_nd p_weight p_dscale p_sign p_cow weight dscale sign digits off]; auto.
    unfold ndigits. cbn [digits]. now rewrite lenz_cons.
Qed.
