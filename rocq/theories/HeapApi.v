(** * HeapApi: the methods of NumericBuf in memory against those on buffers. *)
From Coq Require Import ZArith List Bool Lia Permutation.
From Verif Require Import Base Var Binary Typmod Num Data Heap Spec SpecApi SpecData Digits Strip Arith Codec DataSim DataBuf DataApi HeapSim.
Import ListNotations.
Open Scope Z_scope.

Definition brel R m (h : hbuf) (b : pbuf) : Prop :=
  exists p, hb_ptr h = Some p /\ at_ R m p (b_words b) /\ hb_len h = lenz (b_words b) * 2 /\ hb_off h = b_off b.
Definition obrel R m (h : hbuf) (b : option pbuf) : Prop :=
  match b with Some b => brel R m h b | None => hb_ptr h = None /\ rest R m end.
(** of a consuming method that may give no buffer *)
Definition optrel R m (h : option hbuf) (b : option pbuf) : Prop :=
  match h, b with Some h, Some b => brel R m h b | None, None => rest R m | _, _ => False end.

Lemma header_inside_len c w ds sg nd d x d' : 0 <= off d <= lenz (words d) -> header_inside c w ds sg nd d = Ret (x, d') ->
  (lenz (words d') = lenz (words d) /\ 0 <= off d' <= lenz (words d')) /\ x < lenz (words d') * 2.
Proof.
  intros B H. unfold header_inside in H. bnd H u E1. bnd H u2 E2. bnd H hdr E3. cbv zeta in H.
  destruct (_ <? 0) eqn:S; [discriminate H|]. apply Z.ltb_ge in S. injection H as <- <-. cbn [words off].
  assert (Lh : 4 <= lenz hdr).
  { brk E3.
    - bnd E3 h E4. injection E3 as <-. rewrite lenz_app, lenz_encode_len. pose proof (lenz_nonneg (le16 h)). lia.
    - injection E3 as <-. rewrite lenz_app, lenz_encode_len. match goal with |- _ <= _ + lenz ?l => pose proof (lenz_nonneg l) end. lia. }
  assert (L : lenz (firstn (Z.to_nat (off d - lenz (words_of hdr))) (words d) ++ words_of hdr ++ skipn (Z.to_nat (off d)) (words d)) = lenz (words d)).
  { unfold lenz in *. rewrite !app_length, firstn_length, skipn_length. lia. }
  rewrite L. change NUMERIC_DIGIT_SIZE with 2. lia.
Qed.

Lemma p_into_buf_eq c a p : p_into_buf c a p =
  d <- own c a (p_cow p) ;;
  r <- header_inside c (as_i16 (p_weight p)) (Z.land (p_dscale p) 0xFFFF) (p_sign p) (p_nd p) d ;;
  from_raw_parts c (words (snd r)) (fst r).
Proof.
  unfold p_into_buf. apply bind_ext. intro d. unfold p_set_header, header_inside. rewrite bind_assoc. apply bind_ext. intros _.
  rewrite bind_assoc. apply bind_ext. intros _. rewrite bind_assoc. apply bind_ext. intro hdr. cbv zeta. now destruct (_ <? 0).
Qed.

Lemma into_buf_hsim R c a h m p : vrel R m h p -> msim (fun hb b m => brel R m hb b) (rest R) (h_into_buf c a h m) (p_into_buf c a p).
Proof.
  intro V. rewrite p_into_buf_eq. unfold h_into_buf.
  destruct (to_mut_ok R c a h m p V) as (d & hd & m1 & E1 & E2 & D). rewrite E1. cbn [bind].
  rewrite (vr_sign _ _ _ _ V), (vr_weight _ _ _ _ V), (vr_nd _ _ _ _ V), (vr_dscale _ _ _ _ V).
  set (f := header_inside c _ _ _ _).
  apply (msim_bind (fun x y m => fst x = fst y /\ exists hd, snd x = with_cow (HOwned hd) h /\ drel R m hd (snd y) /\ fst y < lenz (words (snd y)) * 2)).
  - eapply msim_mono.
    2:apply (consume_sim R (fun x y s => exists hd, fst s = with_cow (HOwned hd) h /\ x = fst y /\ drel R (snd s) hd (snd y) /\ fst y < lenz (words (snd y)) * 2)).
    { intros [x hv] y m' (hd' & G1 & G2 & G3 & G4). cbn [fst snd] in *. split; [exact G2|]. exists hd'. auto. }
    unfold mbind. rewrite E2.
    pose proof (inside_on R f h m1 d hd D) as S.
    assert (B : 0 <= off d <= lenz (words d)) by (destruct D as (q & _ & _ & _ & _ & B); exact B).
    assert (L : forall x d', 0 <= off d <= lenz (words d) -> f d = Ret (x, d') -> lenz (words d') = lenz (words d) /\ 0 <= off d' <= lenz (words d')).
    { intros x d' _ Hf. exact (proj1 (header_inside_len c _ _ _ _ d x d' B Hf)). }
    specialize (S L). unfold msim in *. destruct (on_data _ _) as [[x|w| |] s2], (f d) as [[x' d2]| | |] eqn:F; cbn [fst snd] in *; auto.
    destruct S as (hd2 & G1 & G2 & G3). exists hd2. repeat split; auto. exact (proj2 (header_inside_len c _ _ _ _ d x' d2 B F)).
  - intros [x hv] [x' d2] m2 (G1 & hd2 & G2 & D2 & Lt). cbn [fst snd] in *. subst x hv. cbn [with_cow h_cow].
    destruct D2 as (q & Ep & A & L & O & B). unfold h_from_raw_parts, from_raw_parts, lift. cbn [hb_ptr hb_off hb_len]. rewrite Ep, L.
    change NUMERIC_DIGIT_SIZE with 2. rewrite !dassert_ok; try reflexivity; try (now apply Z.ltb_lt).
    unfold msim. cbn. exists q. cbn. auto.
Qed.

Lemma make_no_hsim R c a h m p : vrel R m h p -> msim (fun hb b m => brel R m hb b) (rest R) (h_make_no_overflow c a h m) (p_make_no_overflow c a p).
Proof.
  intro V. unfold h_make_no_overflow, p_make_no_overflow.
  rewrite (vr_sign _ _ _ _ V), (vr_weight _ _ _ _ V), (vr_dscale _ _ _ _ V).
  assert (As : forall b1 b2 (k : pvar -> outcome pbuf),
    (dassert c b1 ;;; dassert c b2 ;;; p' <- p_strip c a p ;; k p') = (p' <- (dassert c b1 ;;; dassert c b2 ;;; p_strip c a p) ;; k p')).
  { intros b1 b2 k. rewrite bind_assoc. apply bind_ext. intros _. now rewrite bind_assoc. }
  rewrite As.
  apply (msim_bind (fun x p' m => vrel R m (snd x) p')).
  - eapply msim_mono; [|apply (consume_sim R (fun (_ : unit) p s => vrel R (snd s) (fst s) p))]; [intros [u hv] y m' H; exact H|]. apply msim_lift; [now apply vrel_inv in V|]. intros [] _. apply msim_lift; [now apply vrel_inv in V|]. intros [] _.
    now apply strip_hsim.
  - intros [u hv] p' m' H. now apply into_buf_hsim.
Qed.

Lemma drop_keeps R h m : vinv R (h, m) -> exists v m', drop_var (h, m) = (Ret tt, (v, m')) /\ rest R m'.
Proof. apply drop_var_ok. Qed.

Lemma make_hsim R c a h m p : vrel R m h p -> msim (fun o o' m => optrel R m o o') (rest R) (h_make_result c a h m) (p_make_result c a p).
Proof.
  intro V. unfold h_make_result, p_make_result.
  rewrite (vr_sign _ _ _ _ V), (vr_weight _ _ _ _ V), (vr_dscale _ _ _ _ V).
  unfold mbind at 1. unfold consume at 1. unfold mbind at 1, lift at 1.
  destruct (dassert c (negb _)) as [[]|w| |]; cbn [bind again].
  2:{ destruct (drop_var_ok R _ (vrel_inv _ _ _ _ V)) as (v & m' & -> & K). unfold msim. cbn. auto. }
  2,3: unfold msim; cbn; exact I.
  unfold mbind at 1, lift at 1. destruct (dassert c (0 <=? _)) as [[]|w| |]; cbn [bind again].
  2:{ destruct (drop_var_ok R _ (vrel_inv _ _ _ _ V)) as (v & m' & -> & K). unfold msim. cbn. auto. }
  2,3: unfold msim; cbn; exact I.
  destruct (_ || _ || _).
  - unfold mbind at 1. destruct (drop_var_ok R _ (vrel_inv _ _ _ _ V)) as (v & m' & -> & K). unfold msim. cbn. exact K.
  - unfold mret at 1. apply (msim_bind (fun hb b m => brel R m hb b)); [now apply make_no_hsim|]. intros hb b m' H. unfold msim. cbn. exact H.
Qed.

(** ** methods on variables *)
Lemma modify_vsim R (f : hvar -> hvar) h m p' : vrel R m (f h) p' -> vsim R (modify f (h, m)) (Ret p').
Proof. intro H. unfold vsim, msim. cbn. exact H. Qed.

Lemma vsim_asks R (f : hvar -> M (hvar * mem) unit) h m y : vsim R (f h (h, m)) y -> vsim R (mbind (asks (fun v => v)) f (h, m)) y.
Proof. intro H. exact H. Qed.
Lemma vsim_assert R c b (f : M (hvar * mem) unit) h m p y : vrel R m h p -> vsim R (f (h, m)) y ->
  vsim R (mbind (lift (dassert c b)) (fun _ => f) (h, m)) (bind (dassert c b) (fun _ => y)).
Proof. intros V H. apply msim_lift; [now apply vrel_inv in V|]. intros [] _. exact H. Qed.

Lemma vrel_set_dscale R m h p s : vrel R m h p -> vrel R m (h_set_dscale s h) (p_set_dscale s p).
Proof. intros [A B C D E]. constructor; cbn; auto. Qed.
Lemma vrel_set_sign R m h p s : vrel R m h p -> vrel R m (h_set_sign s h) (p_set_sign s p).
Proof. intros [A B C D E]. constructor; cbn; auto. Qed.

Lemma round_hsim R c a k h m p : vrel R m h p -> vsim R (h_round c a k (h, m)) (p_round c a p k).
Proof.
  intro V. unfold h_round, p_round. apply vsim_asks. cbv beta. rewrite (vr_sign _ _ _ _ V). apply (vsim_assert R c _ _ h m p _ V). cbv zeta.
  apply (msim_bind _ _ _ _ _ _ _ _ (round_common_hsim R c a h m p _ V)). intros [] p' [h' m'] H. cbn [fst snd] in *.
  unfold msim. cbn. destruct (_ <? 0); [now apply vrel_set_dscale|exact H].
Qed.
Lemma trunc_hsim R c a k h m p : vrel R m h p -> vsim R (h_trunc c a k (h, m)) (p_trunc c a p k).
Proof.
  intro V. unfold h_trunc, p_trunc. apply vsim_asks. cbv beta. rewrite (vr_sign _ _ _ _ V). apply (vsim_assert R c _ _ h m p _ V). cbv zeta.
  apply (msim_bind _ _ _ _ _ _ _ _ (trunc_common_hsim R c a h m p _ V)). intros [] p' [h' m'] H. cbn [fst snd] in *.
  unfold msim. cbn. destruct (_ <? 0); [now apply vrel_set_dscale|exact H].
Qed.
Lemma negate_hsim R c h m p : vrel R m h p -> vsim R (h_negate c (h, m)) (p_negate c p).
Proof.
  intro V. unfold h_negate, p_negate. apply vsim_asks. cbv beta. rewrite (vr_sign _ _ _ _ V). apply (vsim_assert R c _ _ h m p _ V).
  unfold vsim, msim, modify. cbn [fst snd]. rewrite (vr_sign _ _ _ _ V), (vr_nd _ _ _ _ V).
  destruct (0 <? p_nd p); [|exact V]. destruct (sgn_eqb (p_sign p) SPos); [now apply vrel_set_sign|].
  destruct (sgn_eqb (p_sign p) SNeg); [now apply vrel_set_sign|exact V].
Qed.
Lemma abs_hsim R c h m p : vrel R m h p -> vsim R (h_abs c (h, m)) (p_abs c p).
Proof.
  intro V. unfold h_abs, p_abs. apply vsim_asks. cbv beta. rewrite (vr_sign _ _ _ _ V). apply (vsim_assert R c _ _ h m p _ V).
  unfold vsim, msim, modify. cbn [fst snd]. rewrite (vr_sign _ _ _ _ V). destruct (sgn_eqb (p_sign p) SNeg); [now apply vrel_set_sign|exact V].
Qed.
Lemma digits_hsim R c h m p : vrel R m h p -> h_digits c (h, m) = (p_digits c p, (h, m)).
Proof.
  intro V. unfold h_digits, p_digits. rewrite (vr_nd _ _ _ _ V). pose proof (vr_cow _ _ _ _ V) as K. f_equal.
  destruct (h_cow h) as [l|hd], (p_cow p) as [l'|d]; cbn [crel] in K; try contradiction.
  - now destruct K as [-> _].
  - now rewrite (view_ok R m hd d K).
Qed.
Lemma typmod_hsim R c a t h m p : vrel R m h p ->
  msim (fun x y s => x = fst y /\ vrel R (snd s) (fst s) (snd y)) (vinv R) (h_apply_typmod_var c a t (h, m)) (p_apply_typmod_var c a p t).
Proof.
  intro V. unfold h_apply_typmod_var, p_apply_typmod_var. destruct (t <? VAR_HEADER_SIZE); [unfold msim; cbn; auto|].
  apply msim_lift; [now apply vrel_inv in V|]. intros [pr sc] _. cbv zeta.
  apply (msim_bind _ _ _ _ _ _ _ _ (round_common_hsim R c a h m p sc V)). intros [] p' [h' m'] H. cbn [fst snd] in H.
  unfold mbind at 1. cbn [asks]. rewrite (vr_weight _ _ _ _ H). destruct (_ <? _).
  - unfold mbind. rewrite (digits_hsim R c h' m' p' H). destruct (p_digits c p') as [l|w| |]; unfold msim; cbn; auto.
    split; [reflexivity|]. now apply vrel_inv in H.
  - unfold msim. cbn. auto.
Qed.

(** ** methods on buffers *)
Lemma hview_ok R m h b : brel R m h b -> hview h m = Ret b.
Proof.
  intros (p & E & A & L & O). unfold hview. rewrite E, (find_at R m p (b_words b) A), L, Z.eqb_refl, O. now destruct b.
Qed.
Lemma p_into_var_cow c b p : p_into_var c b = Ret p -> exists o, p_cow p = Owned (Data (b_words b) o).
Proof.
  unfold p_into_var. intro H. bnd H x E1. bnd H u E2. bnd H h E3. cbv zeta in H. bnd H u2 E4. bnd H l E5. bnd H n E6. bnd H w E7. bnd H u3 E8.
  injection H as <-. cbn. eauto.
Qed.
Lemma into_var_hsim R c b v h m : holds c b v -> brel R m h b ->
  exists p hv, p_owned c (Some b) = Ret p /\ rep p v /\ h_into_var c h m = Ret hv /\ vrel R m hv p.
Proof.
  intros H B. destruct (owned_sim c b v H) as (p & Ep & Rp). exists p.
  pose proof Ep as E. cbn [p_owned] in E. unfold from_raw_parts in E. bnd E u E0. destruct b as [w o]. cbn [b_words b_off] in *.
  bnd E0 u1 D. injection E0 as <-.
  destruct (p_into_var_cow _ _ _ E) as [o' Ec]. cbn [b_words] in Ec.
  exists (HVar (p_nd p) (p_weight p) (p_dscale p) (p_sign p) (HOwned (HData (hb_ptr h) (Z.quot (hb_len h) NUMERIC_DIGIT_SIZE) o'))).
  split; [exact Ep|]. split; [exact Rp|]. pose proof B as (q & Eq & A & L & O). cbn [b_words b_off] in *. split.
  - unfold h_into_var, h_from_raw_parts. rewrite Eq, O, L. rewrite dassert_ok by reflexivity. cbn [bind].
    change NUMERIC_DIGIT_SIZE with 2 in D. rewrite D. cbn [bind]. rewrite (hview_ok R m h _ B). cbn [bind]. rewrite E. cbn [bind].
    rewrite Ec, Eq, L. reflexivity.
  - pose proof (rp_cow p v Rp) as K. rewrite Ec in K. destruct K as [K1 (pre & post & K2 & K3)]. cbn [words off] in *.
    constructor; cbn; auto. rewrite Ec. exists q. cbn. split; [exact Eq|]. split; [exact A|].
    split; [rewrite L; change NUMERIC_DIGIT_SIZE with 2; now rewrite Z.quot_mul by discriminate|]. split; [reflexivity|].
    rewrite K2, !lenz_app. pose proof (lenz_nonneg (digits v)). pose proof (lenz_nonneg post). lia.
Qed.

Lemma taken_sim {A} R c b v h m (f : M (hvar * mem) A) F g G : holds c b v -> brel R m h b ->
  (forall hv m p, vrel R m hv p ->
     msim (fun x y s => x = fst y /\ vrel R (snd s) (fst s) (snd y)) (vinv R) (f (hv, m)) (F p)) ->
  (forall hv m p, vrel R m hv p -> msim (fun o o' m => optrel R m o o') (rest R) (g hv m) (G p)) ->
  msim (fun x y s => fst x = fst y /\ snd x = (match snd y with Some _ => true | None => false end) /\ obrel R (snd s) (fst s) (snd y))
       (fun s => hb_ptr (fst s) = None /\ rest R (snd s)) (taken c f g (h, m))
       (p <- p_owned c (Some b) ;; '(x, p') <- F p ;; o <- G p' ;; Ret (x, o)).
Proof.
  intros H B Hf Hg. destruct (into_var_hsim R c b v h m H B) as (p & hv & E1 & _ & E2 & V). rewrite E1. cbn [bind]. unfold taken. rewrite E2.
  pose proof (consume_sim R _ f hv m (F p) (Hf hv m p V)) as S. unfold msim in S.
  destruct (consume f hv m) as [[[x hv2]|w| |] m2], (F p) as [[x' p2]|w'| |]; cbn [fst snd bind] in *; try contradiction; try exact I.
  2:{ unfold msim. cbn. destruct S as [-> S]. auto. }
  destruct S as [-> V2]. pose proof (Hg hv2 m2 p2 V2) as S. unfold msim in S.
  destruct (g hv2 m2) as [[[y|]|w| |] m3], (G p2) as [[b2|]|w'| |]; cbn [fst snd bind optrel] in *; try contradiction; try exact I.
  - cbn [drop_buf hb_ptr]. unfold msim. cbn. auto.
  - unfold msim. cbn. auto.
  - unfold msim. cbn. destruct S as [-> S]. auto.
Qed.

(** what a method of a buffer does: the same outcome, and a buffer that is the only owner of its block *)
Definition oprel R (x : outcome bool * (hbuf * mem)) (y : outcome bool * option pbuf) : Prop :=
  fst x = fst y /\ (clean (fst y) -> obrel R (snd (snd x)) (fst (snd x)) (snd y)).

Lemma clean_ub {A} : ~ clean (A := A) UB.
Proof. intros [[x H]|[w H]]; discriminate H. Qed.
Lemma clean_div {A} : ~ clean (A := A) Diverge.
Proof. intros [[x H]|[w H]]; discriminate H. Qed.

(** the results of [taken] finished into an outcome *)
Lemma taken_op {A} R (x : outcome (A * bool) * (hbuf * mem)) (y : outcome (A * option pbuf)) (e : A -> bool -> outcome bool) (E : A -> option pbuf -> outcome (bool * option pbuf)) :
  msim (fun x y s => fst x = fst y /\ snd x = (match snd y with Some _ => true | None => false end) /\ obrel R (snd s) (fst s) (snd y))
       (fun s => hb_ptr (fst s) = None /\ rest R (snd s)) x y ->
  (forall u b, E u (Some b) = (r <- e u true ;; Ret (r, Some b)) /\ (exists r, e u true = Ret r)) ->
  (forall u, E u None = (r <- e u false ;; Ret (r, None)) /\ clean (e u false)) ->
  oprel R (match x with (Ret a, s) => (e (fst a) (snd a), s) | (o, s) => (again o UB, s) end)
          (p_stored ('(u, o) <- y ;; E u o)).
Proof.
  intros S Hs Hn. unfold msim in S. destruct x as [[[u k]|w| |] [hb m]], y as [[u' o]|w'| |]; cbn [fst snd] in *; try contradiction.
  - destruct S as (-> & -> & Ob). cbn [bind]. destruct o as [b|].
    + destruct (Hs u' b) as [-> (r & ->)]. cbn [bind p_stored]. split; [reflexivity|]. intros _. exact Ob.
    + destruct (Hn u') as [-> K]. destruct K as [[r ->]|[w ->]]; cbn [bind p_stored]; (split; [reflexivity|]); intros _; exact Ob.
  - destruct S as [-> S]. cbn. split; [reflexivity|]. intros _. exact S.
  - cbn. split; [reflexivity|]. intro K. destruct (clean_ub K).
  - cbn. split; [reflexivity|]. intro K. destruct (clean_div K).
Qed.

Definition vpair {A} (F : pvar -> outcome pvar) (x : A) (p : pvar) : outcome (A * pvar) := q <- F p ;; Ret (x, q).
Lemma vsim_pair R x (F : pvar -> outcome pvar) p : vsim R x (F p) ->
  msim (fun x y s => x = fst y /\ vrel R (snd s) (fst s) (snd y)) (vinv R) x (vpair F tt p).
Proof.
  unfold vsim, msim, vpair. destruct x as [[[]|w| |] s], (F p); cbn; auto.
Qed.
Lemma some_sim R (x : M mem hbuf) (y : outcome pbuf) m : msim (fun hb b m => brel R m hb b) (rest R) (x m) y ->
  msim (fun o o' m => optrel R m o o') (rest R) (some x m) (b <- y ;; Ret (Some b)).
Proof. intro S. unfold some. apply (msim_bind _ _ _ _ _ _ _ _ S). intros hb b m' H. exact H. Qed.

Lemma unless_hsim R c b h m k K : brel R m h b -> oprel R (k (h, m)) (flag (p_stored K)) ->
  oprel R (h_unless_nan c k (h, m)) (flag (p_unless_nan c (Some b) K)).
Proof.
  intros B S. unfold h_unless_nan, p_unless_nan, h_deref, p_deref. rewrite (hview_ok R m h b B). cbn [bind].
  destruct (x <- as_bytes c b ;; num_is_nan c x) as [[|]|w| |].
  - split; [reflexivity|]. intros _. exact B.
  - exact S.
  - split; [reflexivity|]. intros _. exact B.
  - split; [reflexivity|]. intro Q. destruct (clean_ub Q).
  - split; [reflexivity|]. intro Q. destruct (clean_div Q).
Qed.

Lemma negate_mut_hsim R c a b v h m : holds c b v -> brel R m h b ->
  oprel R (h_negate_mut c a (h, m)) (flag (p_negate_mut c a (Some b))).
Proof.
  intros H B. apply (unless_hsim R c b h m _ _ B).
  pose proof (taken_sim R c b v h m (h_negate c) (vpair (p_negate c) tt) (fun v => some (h_into_buf c a v)) (fun p => b <- p_into_buf c a p ;; Ret (Some b)) H B
    (fun hv m p V => vsim_pair R _ _ _ (negate_hsim R c hv m p V)) (fun hv m p V => some_sim R _ _ _ (into_buf_hsim R c a hv m p V))) as S.
  pose proof (taken_op R _ _ (fun _ _ => Ret false) (fun _ o => Ret (false, o)) S) as T.
  replace (flag _) with (p_stored ('(u, o) <- (p <- p_owned c (Some b) ;; '(x, p') <- vpair (p_negate c) tt p ;; o <- (b <- p_into_buf c a p' ;; Ret (Some b)) ;; Ret (x, o)) ;; Ret (false, o))).
  { apply T; [intros; split; [reflexivity|now exists false]|]. intros; split; [reflexivity|apply clean_ret]. }
  unfold vpair. destruct (p_owned c (Some b)) as [p| | |]; try reflexivity. cbn [bind].
  destruct (p_negate c p) as [p'| | |]; try reflexivity. cbn [bind]. now destruct (p_into_buf c a p').
Qed.
Lemma trunc_mut_hsim R c a k b v h m : holds c b v -> brel R m h b ->
  oprel R (h_trunc_mut c a k (h, m)) (flag (p_trunc_mut c a (Some b) k)).
Proof.
  intros H B. apply (unless_hsim R c b h m _ _ B).
  pose proof (taken_sim R c b v h m (h_trunc c a k) (vpair (fun p => p_trunc c a p k) tt) (fun v => some (h_make_no_overflow c a v)) (fun p => b <- p_make_no_overflow c a p ;; Ret (Some b)) H B
    (fun hv m p V => vsim_pair R _ _ _ (trunc_hsim R c a k hv m p V)) (fun hv m p V => some_sim R _ _ _ (make_no_hsim R c a hv m p V))) as S.
  pose proof (taken_op R _ _ (fun _ _ => Ret false) (fun _ o => Ret (false, o)) S) as T.
  replace (flag _) with (p_stored ('(u, o) <- (p <- p_owned c (Some b) ;; '(x, p') <- vpair (fun p => p_trunc c a p k) tt p ;; o <- (b <- p_make_no_overflow c a p' ;; Ret (Some b)) ;; Ret (x, o)) ;; Ret (false, o))).
  { apply T; [intros; split; [reflexivity|now exists false]|]. intros; split; [reflexivity|apply clean_ret]. }
  unfold vpair. destruct (p_owned c (Some b)) as [p| | |]; try reflexivity. cbn [bind].
  destruct (p_trunc c a p k) as [p'| | |]; try reflexivity. cbn [bind]. now destruct (p_make_no_overflow c a p').
Qed.
Lemma round_mut_hsim R c a k b v h m : holds c b v -> brel R m h b ->
  oprel R (h_round_mut c a k (h, m)) (flag (p_round_mut c a (Some b) k)).
Proof.
  intros H B. apply (unless_hsim R c b h m _ _ B).
  pose proof (taken_sim R c b v h m (h_round c a k) (vpair (fun p => p_round c a p k) tt) (h_make_result c a) (p_make_result c a) H B
    (fun hv m p V => vsim_pair R _ _ _ (round_hsim R c a k hv m p V)) (fun hv m p V => make_hsim R c a hv m p V)) as S.
  pose proof (taken_op R _ _ (fun _ (k : bool) => if k then Ret false else Panic (WMsg MOverflow))
    (fun _ o => match o with Some y => Ret (false, o) | None => Panic (WMsg MOverflow) end) S) as T.
  replace (flag _) with (p_stored ('(u, o) <- (p <- p_owned c (Some b) ;; '(x, p') <- vpair (fun p => p_round c a p k) tt p ;; o <- p_make_result c a p' ;; Ret (x, o)) ;;
     match o with Some y => Ret (false, o) | None => Panic (WMsg MOverflow) end)).
  2:{ unfold vpair. destruct (p_owned c (Some b)) as [p| | |]; try reflexivity. cbn [bind].
      destruct (p_round c a p k) as [p'| | |]; try reflexivity. cbn [bind]. now destruct (p_make_result c a p') as [[y|]| | |]. }
  unfold mbind at 1.
  match type of T with _ -> _ -> oprel R ?x _ => replace (match taken c (h_round c a k) (h_make_result c a) (h, m) with
    | (Ret r, s) => (if snd r : bool then mret false else lift (Panic (WMsg MOverflow))) s | (o, s) => (again o UB, s) end) with x end.
  2:{ destruct (taken _ _ _ _) as [[[u [|]]|w| |] s]; reflexivity. }
  apply T; [intros; split; [reflexivity|now exists false]|]. intros; split; [reflexivity|]. right. now exists (WMsg MOverflow).
Qed.
Lemma abs_mut_hsim R c a b v h m : holds c b v -> brel R m h b ->
  oprel R (h_abs_mut c a (h, m)) (flag (p_abs_mut c a (Some b))).
Proof.
  intros H B. destruct (as_bytes_ok c b v H) as (x & Ex & En).
  pose proof (good_reads c v x (proj1 H) En) as (_ & _ & N & G & _).
  unfold h_abs_mut, h_unless_nan, p_abs_mut, h_deref, p_deref. rewrite (hview_ok R m h b B). cbn [bind]. rewrite Ex. cbn [bind].
  rewrite N, G. cbn [bind]. destruct (is_nan v); [split; [reflexivity|intros _; exact B]|].
  destruct (is_negative v); [|split; [reflexivity|intros _; exact B]].
  pose proof (taken_sim R c b v h m (h_abs c) (vpair (p_abs c) tt) (fun v => some (h_into_buf c a v)) (fun p => b <- p_into_buf c a p ;; Ret (Some b)) H B
    (fun hv m p V => vsim_pair R _ _ _ (abs_hsim R c hv m p V)) (fun hv m p V => some_sim R _ _ _ (into_buf_hsim R c a hv m p V))) as S.
  pose proof (taken_op R _ _ (fun _ _ => Ret false) (fun _ o => Ret (false, o)) S) as T.
  replace (flag _) with (p_stored ('(u, o) <- (p <- p_owned c (Some b) ;; '(x, p') <- vpair (p_abs c) tt p ;; o <- (b <- p_into_buf c a p' ;; Ret (Some b)) ;; Ret (x, o)) ;; Ret (false, o))).
  { apply T; [intros; split; [reflexivity|now exists false]|]. intros; split; [reflexivity|apply clean_ret]. }
  unfold vpair. destruct (p_owned c (Some b)) as [p| | |]; try reflexivity. cbn [bind].
  destruct (p_abs c p) as [p'| | |]; try reflexivity. cbn [bind]. now destruct (p_into_buf c a p').
Qed.
Lemma typmod_mut_hsim R c a t b v h m : holds c b v -> brel R m h b ->
  oprel R (h_apply_typmod c a t (h, m)) (p_apply_typmod c a (Some b) t).
Proof.
  intros H B. destruct (as_bytes_ok c b v H) as (x & Ex & _).
  pose proof (taken_sim R c b v h m (h_apply_typmod_var c a t) (fun p => p_apply_typmod_var c a p t) (h_make_result c a) (p_make_result c a) H B
    (fun hv m p V => typmod_hsim R c a t hv m p V) (fun hv m p V => make_hsim R c a hv m p V)) as S.
  pose proof (taken_op R _ _ (fun u k => Ret (u || negb k)) (fun u o => match o with Some y => Ret (u, Some y) | None => Ret (true, None) end) S) as T.
  unfold p_apply_typmod, p_deref. rewrite Ex.
  match goal with |- oprel R _ ?yy => replace yy with
    (p_stored ('(u, o) <- (p <- p_owned c (Some b) ;; '(x, p') <- p_apply_typmod_var c a p t ;; o <- p_make_result c a p' ;; Ret (x, o)) ;;
               match o with Some y => Ret (u, Some y) | None => Ret (true, None) end)) end.
  { apply T; [intros u b0|intros u].
    - rewrite orb_false_r. split; [reflexivity|now exists u].
    - cbn. rewrite orb_true_r. split; [reflexivity|apply clean_ret]. }
  f_equal. destruct (p_owned c (Some b)) as [p| | |]; try reflexivity. cbn [bind].
  destruct (p_apply_typmod_var c a p t) as [[u p']| | |]; try reflexivity. cbn [bind]. now destruct (p_make_result c a p') as [[y|]| | |].
Qed.

(** ** creating buffers *)
Lemma copy_hsim R c a (x : bytes) m : rest R m -> msim (fun hb b m => brel R m hb b) (rest R) (h_copy c a x m) (p_to_owned c a x).
Proof.
  intro K. unfold h_copy, p_to_owned. apply msim_lift; [exact K|]. intros v _.
  apply into_buf_hsim. constructor; cbn; auto.
Qed.
Lemma clone_hsim R c a b h m : brel R m h b -> exists q, hb_ptr h = Some q /\
  msim (fun hb' b' m => brel ((q, b_words b) :: R) m hb' b') (rest ((q, b_words b) :: R)) (h_clone c a h m) (p_clone c a b).
Proof.
  intros B. pose proof B as (q & Eq & [W P] & L & O). exists q. split; [exact Eq|].
  unfold h_clone, h_deref, p_clone. rewrite (hview_ok R m h b B). cbn [bind].
  destruct (as_bytes c b) as [x|w| |]; cbn [bind again]; unfold msim; cbn [fst snd]; auto.
  2:{ split; [reflexivity|]. now split. }
  exact (copy_hsim ((q, b_words b) :: R) c a x m (conj W P)).
Qed.
Lemma computed_hsim R c a v m : rest R m -> msim (fun o o' m => optrel R m o o') (rest R) (h_computed c a v m) (p_computed c a v).
Proof.
  intro K. unfold h_computed, p_computed. destruct (h_to_owned_ok R c a (digits v) m K) as (hd & d & m' & E1 & E2 & D).
  unfold mbind at 1. rewrite E1, E2. cbn [bind]. apply make_hsim. constructor; cbn; auto.
Qed.
Lemma drop_hsim R b h m : obrel R m h b -> exists m', drop_buf h m = (Ret tt, m') /\ rest R m'.
Proof.
  unfold drop_buf. destruct b as [b|]; cbn [obrel].
  - intros (q & Eq & A & L & O). rewrite Eq. apply (free_at R m q (b_words b)); [exact A|exact L].
  - intros [-> K]. now exists m.
Qed.
