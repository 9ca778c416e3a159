(** * HeapSim: the memory model against the buffer model of [Data.v]. *)
From Coq Require Import ZArith List Bool Lia Permutation.
From Verif Require Import Base Var Binary Typmod Data Heap Digits Strip Arith DataSim.
Import ListNotations.
Open Scope Z_scope.

Definition wf (m : mem) : Prop := NoDup (map fst (blocks m)) /\ Forall (fun x => fst x < next m) (blocks m).
(** The block at [p] holds [w]; all other blocks are [R]. *)
Definition at_ (R : list (addr * list Z)) (m : mem) (p : addr) (w : list Z) : Prop :=
  wf m /\ Permutation (blocks m) ((p, w) :: R).
Definition rest (R : list (addr * list Z)) (m : mem) : Prop := wf m /\ Permutation (blocks m) R.

Lemma find_in p w l : NoDup (map fst l) -> In (p, w) l -> find p l = Some w.
Proof.
  induction l as [|[q u] t IH]; cbn [map fst In find]; [intros _ []|]. intros N [E|H].
  - injection E as -> ->. now rewrite Z.eqb_refl.
  - inversion N as [|? ? N1 N2]; subst. destruct (Z.eqb_spec q p) as [->|_]; [|now apply IH].
    exfalso. apply N1. change p with (fst (p, w)). now apply in_map.
Qed.
Lemma remove_perm p w l : find p l = Some w -> Permutation l ((p, w) :: remove p l).
Proof.
  induction l as [|[q u] t IH]; cbn [find remove]; [discriminate|].
  destruct (Z.eqb_spec q p) as [->|_]; intro H; [injection H as ->; reflexivity|].
  rewrite (IH H) at 1. apply perm_swap.
Qed.
Lemma find_at R m p w : at_ R m p w -> find p (blocks m) = Some w.
Proof. intros [[N _] P]. apply find_in; [exact N|]. apply (Permutation_in _ (Permutation_sym P)). now left. Qed.
Lemma remove_at R m p w : at_ R m p w -> Permutation (remove p (blocks m)) R.
Proof.
  intro A. pose proof (remove_perm p w (blocks m) (find_at R m p w A)) as H. destruct A as [_ P].
  apply (Permutation_cons_inv (a := (p, w))). now rewrite <- H.
Qed.
Lemma wf_perm l l' n : Permutation l l' -> NoDup (map fst l) /\ Forall (fun x : addr * list Z => fst x < n) l ->
  NoDup (map fst l') /\ Forall (fun x => fst x < n) l'.
Proof.
  intros P [N F]. split.
  - apply (Permutation_NoDup (Permutation_map fst P) N).
  - now apply (Permutation_Forall P).
Qed.

Lemma free_at R m p w n : at_ R m p w -> n = lenz w * 2 -> exists m', free p n m = (Ret tt, m') /\ rest R m'.
Proof.
  intros A ->. unfold free. rewrite (find_at R m p w A), Z.eqb_refl. eexists. split; [reflexivity|].
  pose proof (remove_at R m p w A) as P. split; [|exact P]. unfold wf. cbn [blocks next].
  apply (wf_perm R); [now symmetry|]. destruct A as [W Q]. pose proof (wf_perm _ _ _ Q W) as [N F]. cbn [map fst] in N.
  inversion N; subst. inversion F; subst. now split.
Qed.
Lemma store_at R m p w w' : at_ R m p w -> lenz w' = lenz w -> exists m', store p w' m = (Ret tt, m') /\ at_ R m' p w'.
Proof.
  intros A L. unfold store. rewrite (find_at R m p w A), L, Z.eqb_refl. eexists. split; [reflexivity|].
  pose proof (remove_at R m p w A) as P. split; [|cbn [blocks]; now apply perm_skip]. unfold wf. cbn [blocks next].
  apply (wf_perm ((p, w') :: R)); [symmetry; now apply perm_skip|]. destruct A as [W Q]. pose proof (wf_perm _ _ _ Q W) as [N F].
  cbn [map fst] in *. inversion F; subst. split; [exact N|]. now constructor.
Qed.
Lemma malloc_at R m w : rest R m -> exists p m', malloc w m = (Ret p, m') /\ at_ R m' p w.
Proof.
  intros [[N F] P]. exists (next m). eexists. split; [reflexivity|]. split; [|cbn [blocks]; now apply perm_skip].
  unfold wf. cbn [blocks next map fst]. split.
  - constructor; [|exact N]. intro H. apply in_map_iff in H. destruct H as ([q u] & E & H). cbn [fst] in E. subst.
    rewrite Forall_forall in F. specialize (F _ H). cbn [fst] in F. lia.
  - constructor; [cbn [fst]; lia|]. apply (Forall_impl _ (P := fun x => fst x < next m)); [|exact F]. intros x H. cbv beta in H. lia.
Qed.

(** ** relations *)
Definition drel R m (h : hdata) (d : data) : Prop :=
  exists p, h_ptr h = Some p /\ at_ R m p (words d) /\ h_len h = lenz (words d) /\ h_off h = off d /\
    0 <= off d <= lenz (words d).
Definition crel R m (h : hcow) (k : cow) : Prop :=
  match h, k with
  | HBorrowed l, Borrowed l' => l = l' /\ rest R m
  | HOwned h, Owned d => drel R m h d
  | _, _ => False
  end.
Record vrel R m (h : hvar) (p : pvar) : Prop := {
  vr_nd : h_nd h = p_nd p; vr_weight : h_weight h = p_weight p; vr_dscale : h_dscale h = p_dscale p;
  vr_sign : h_sign h = p_sign p; vr_cow : crel R m (h_cow h) (p_cow p) }.

(** A panic leaves a variable that can be dropped. *)
Definition vinv R (s : hvar * mem) : Prop := exists k, crel R (snd s) (h_cow (fst s)) k.
Definition dinv R (s : hdata * mem) : Prop := exists d, drel R (snd s) (fst s) d.

Definition msim {A B S} (Q : A -> B -> S -> Prop) (I : S -> Prop) (x : outcome A * S) (y : outcome B) : Prop :=
  match fst x, y with
  | Ret a, Ret b => Q a b (snd x)
  | Panic w, Panic w' => w = w' /\ I (snd x)
  | UB, UB => True
  | Diverge, Diverge => True
  | _, _ => False
  end.

Lemma msim_bind {A B A' B' S} (Q : A -> B -> S -> Prop) (Q' : A' -> B' -> S -> Prop) I (x : M S A) s y f g :
  msim Q I (x s) y -> (forall a b s', Q a b s' -> msim Q' I (f a s') (g b)) -> msim Q' I (mbind x f s) (bind y g).
Proof.
  unfold msim, mbind. destruct (x s) as [[a|w| |] s'], y as [b|w'| |]; cbn; auto; try contradiction. intros H K. now apply K.
Qed.
Lemma msim_lift {X A B S} (Q : A -> B -> S -> Prop) (I : S -> Prop) (o : outcome X) f g s :
  I s -> (forall a, o = Ret a -> msim Q I (f a s) (g a)) -> msim Q I (mbind (lift o) f s) (bind o g).
Proof. unfold msim, mbind, lift. destruct o as [x|w| |]; cbn; intros H K; [now apply K|now split|constructor|constructor]. Qed.
Lemma msim_mono {A B S} (Q Q' : A -> B -> S -> Prop) I x y : (forall a b s, Q a b s -> Q' a b s) -> msim Q I x y -> msim Q' I x y.
Proof. unfold msim. destruct (fst x), y; auto. Qed.

(** ** data *)
Lemma buf_free_ok R m h d : drel R m h d -> exists m', buf_free (h, m) = (Ret tt, (HData None (h_len h) (h_off h), m')) /\ rest R m'.
Proof.
  intros (p & E & A & L & O & B). unfold buf_free. rewrite E. destruct (free_at R m p (words d) (h_len h * 2) A) as (m' & -> & K); [now rewrite L|].
  now exists m'.
Qed.
Lemma view_ok R m h d : drel R m h d -> view h m = Ret d.
Proof.
  intros (p & E & A & L & O & B). unfold view. rewrite E, (find_at R m p (words d) A), L, Z.eqb_refl, O. now destruct d.
Qed.

Lemma inside_sim {A} R (f : data -> outcome (A * data)) h d m : drel R m h d ->
  (forall x d', f d = Ret (x, d') -> lenz (words d') = lenz (words d) /\ 0 <= off d' <= lenz (words d')) ->
  msim (fun x y s => x = fst y /\ drel R (snd s) (fst s) (snd y)) (dinv R) (inside f (h, m)) (f d).
Proof.
  intros D Lf. unfold inside. rewrite (view_ok R m h d D). cbn [bind]. destruct (f d) as [[x d']|w| |] eqn:F; cbn.
  - destruct D as (p & E & A0 & L & O & B). rewrite E. destruct (Lf _ _ eq_refl) as [L1 L2].
    destruct (store_at R m p (words d) (words d') A0 L1) as (m' & -> & K).
    unfold msim. cbn. split; [reflexivity|]. exists p. cbn. rewrite L, L1. rewrite L1 in L2. auto.
  - unfold msim. cbn. split; [reflexivity|]. now exists d.
  - exact I.
  - exact I.
Qed.

Lemma buf_alloc_ok R c a n m : rest R m -> 0 <= n -> exists h m' p,
  buf_alloc c a n (null_data, m) = (Ret tt, (h, m')) /\ h = HData (Some p) (n + 5) 5 /\ at_ R m' p (alloc a (n + 5)).
Proof.
  intros K N. unfold buf_alloc, mbind, lift. rewrite dassert_ok by now apply Z.leb_le. cbn [buf_free null_data h_ptr].
  destruct (malloc_at R m (alloc a (n + NUMERIC_HEADER_NDIGITS + 1)) K) as (p & m' & -> & A). exists (HData (Some p) (n + NUMERIC_HEADER_NDIGITS + 1) (NUMERIC_HEADER_NDIGITS + 1)), m', p.
  change NUMERIC_HEADER_NDIGITS with 4 in *. replace (n + 4 + 1) with (n + 5) in * by lia. auto.
Qed.

Lemma copy_in_len c d l d' : 0 <= off d -> copy_in c d l = Ret d' -> lenz (words d') = lenz (words d) /\ off d' = off d.
Proof.
  intro Of. unfold copy_in. destruct (slice c d (lenz l)) eqn:S; try discriminate. cbn [bind]. intro E. injection E as <-. cbn [words off].
  split; [|reflexivity].
  unfold slice in S. destruct (dassert c _); try discriminate. cbn [bind] in S. destruct (_ && _) eqn:B; try discriminate.
  apply andb_true_iff in B. destruct B as [_ B]. apply Z.leb_le in B. unfold lenz in *. rewrite !app_length, firstn_length, skipn_length. lia.
Qed.

Lemma h_to_owned_ok R c a l m : rest R m -> exists h d m', h_to_owned c a l m = (Ret h, m') /\ to_owned c a l = Ret d /\ drel R m' h d.
Proof.
  intro K. destruct (to_owned_ok c a l) as (d & E & O & D). pose proof E as E0. unfold to_owned in E.
  destruct (with_ndigits c a (lenz l)) as [d0| | |] eqn:W; try discriminate E. cbn [bind] in E.
  unfold with_ndigits in W. rewrite dassert_ok in W by (apply Z.leb_le, lenz_nonneg). cbn [bind] in W. injection W as <-.
  destruct (buf_alloc_ok R c a (lenz l) m K (lenz_nonneg l)) as (h & m1 & p & B & Hh & A).
  unfold h_to_owned, local, mbind at 1. unfold mbind at 1. unfold lift. rewrite dassert_ok by (apply Z.leb_le, lenz_nonneg).
  unfold mbind at 1. rewrite B.
  change NUMERIC_HEADER_NDIGITS with 4 in E. replace (lenz l + 4 + 1) with (lenz l + 5) in E by lia.
  change (4 + 1) with 5 in E. set (d0 := Data (alloc a (lenz l + 5)) 5) in *.
  assert (D0 : drel R m1 h d0).
  { exists p. subst h. cbn. pose proof (lenz_nonneg l). rewrite lenz_alloc by lia. split; [reflexivity|]. split; [exact A|]. lia. }
  pose proof (inside_sim R (fun d => d <- copy_in c d l ;; Ret (tt, d)) h d0 m1 D0) as S.
  cbv beta in S. rewrite E in S. cbn [bind] in S. unfold msim in S.
  destruct (inside _ (h, m1)) as [o [h' m']]. cbn [fst snd] in S.
  assert (L : forall x d', Ret (tt, d) = Ret (x, d') -> lenz (words d') = lenz (words d0) /\ 0 <= off d' <= lenz (words d')).
  { intros x d' H. injection H as <- <-. destruct (copy_in_len c d0 l d ltac:(cbn; lia) E) as [L1 L2]. rewrite L1, L2. split; [reflexivity|].
    unfold d0. cbn [words off]. pose proof (lenz_nonneg l). rewrite lenz_alloc by lia. lia. }
  specialize (S L). destruct o as [u| | |]; try contradiction. destruct S as [_ S]. cbn [snd] in S.
  exists h', d, m'. auto.
Qed.

Lemma slice_len c d n l : 0 <= off d -> slice c d n = Ret l -> 0 <= n /\ lenz l = n /\ off d + n <= lenz (words d).
Proof.
  intro Of. unfold slice. destruct (dassert c _); try discriminate. cbn [bind]. destruct (_ && _) eqn:B; try discriminate. intro E. injection E as <-.
  apply andb_true_iff in B. destruct B as [B1 B2]. apply Z.leb_le in B1, B2. split; [exact B1|]. split; [|exact B2].
  unfold lenz in *. rewrite firstn_length, skipn_length. lia.
Qed.

Lemma reserve_sim R c a h d m n : drel R m h d -> 0 < n ->
  msim (fun _ d' s => drel R (snd s) (fst s) d') (dinv R) (h_reserve c a n (h, m)) (reserve c a d n).
Proof.
  intros D N0. unfold h_reserve, reserve. apply msim_lift; [now exists d|]. intros [] Hn.
  pose proof D as (p & E & A & L & O & Bd). rewrite O. destruct (off d <=? NUMERIC_HEADER_NDIGITS).
  2:{ unfold msim. cbn. exact D. }
  rewrite (view_ok R m h d D). cbn [bind].
  destruct (buf_copy c a d n) as [d'|w| |] eqn:B.
  - destruct A as [Wm Pm]. destruct (malloc_at ((p, words d) :: R) m (words d') (conj Wm Pm)) as (q & m1 & Em & A1). rewrite Em.
    assert (A2 : at_ ((q, words d') :: R) m1 p (words d)).
    { destruct A1 as [W1 P1]. split; [exact W1|]. rewrite P1. apply perm_swap. }
    destruct (buf_free_ok ((q, words d') :: R) m1 h d) as (m2 & F & W2).
    { exists p. auto. }
    rewrite F. unfold msim. cbn. exists q. cbn. split; [reflexivity|]. split; [exact W2|].
    cut (n + NUMERIC_HEADER_NDIGITS + 1 = lenz (words d') /\ off d' = 5).
    { change NUMERIC_HEADER_NDIGITS with 4. intros [G1 G2]. rewrite <- G1, G2. repeat split; lia. }
    unfold buf_copy in B. destruct (dassert c (0 <=? n)) eqn:Dn; try discriminate B. cbn [bind] in B.
    destruct (0 <? n) eqn:Np.
    + destruct (slice c d n) as [l| | |] eqn:Sl; try discriminate B. cbn [bind] in B. injection B as <-. cbn [words off].
      destruct (slice_len c d n l (proj1 Bd) Sl) as (_ & Ll & _). split; [|reflexivity]. rewrite !lenz_cons, Ll. change NUMERIC_HEADER_NDIGITS with 4. lia.
    + apply Z.ltb_ge in Np. lia.
  - unfold msim. cbn. split; [reflexivity|]. now exists d.
  - exact I.
  - exact I.
Qed.

(** ** variables *)
Lemma to_mut_ok R c a h m p : vrel R m h p -> exists d hd m', own c a (p_cow p) = Ret d /\
  to_mut c a (h, m) = (Ret tt, (with_cow (HOwned hd) h, m')) /\ drel R m' hd d.
Proof.
  intros V. pose proof (vr_cow _ _ _ _ V) as K. unfold to_mut. destruct (h_cow h) as [l|hd] eqn:Hc, (p_cow p) as [l'|d]; cbn [crel] in K; try contradiction.
  - destruct K as [<- K]. destruct (h_to_owned_ok R c a l m K) as (hd & d & m' & E1 & E2 & D). rewrite E1. cbn [own].
    exists d, hd, m'. auto.
  - exists d, hd, m. split; [reflexivity|]. split; [|exact K]. rewrite <- Hc. now destruct h.
Qed.

Lemma on_data_sim {A B} R (Q : A -> B -> hdata * mem -> Prop) (f : M (hdata * mem) A) y h m hd : h_cow h = HOwned hd ->
  msim Q (dinv R) (f (hd, m)) y ->
  msim (fun a b s => exists hd', fst s = with_cow (HOwned hd') h /\ Q a b (hd', snd s)) (vinv R) (on_data f (h, m)) y.
Proof.
  intros E S. unfold on_data. rewrite E. unfold msim in *. destruct (f (hd, m)) as [[x|w| |] [hd' m']], y; cbn in *; auto.
  - now exists hd'.
  - destruct S as [-> [d D]]. split; [reflexivity|]. now exists (Owned d).
Qed.

Lemma with_cow_twice k k' h : with_cow k (with_cow k' h) = with_cow k h.
Proof. reflexivity. Qed.

Lemma bind_assoc {A B C} (x : outcome A) (f : A -> outcome B) (g : B -> outcome C) : bind (bind x f) g = bind x (fun a => bind (f a) g).
Proof. now destruct x. Qed.
Lemma bind_ext {A B} (x : outcome A) (f g : A -> outcome B) : (forall a, f a = g a) -> bind x f = bind x g.
Proof. destruct x; cbn; auto. Qed.

Definition p_rounded (p : pvar) (rscale nd : Z) (r : Z * data) : pvar :=
  if fst r <? 0 then PVar (nd + 1) (p_weight p + 1) rscale (p_sign p) (Owned (snd r))
  else PVar nd (p_weight p) rscale (p_sign p) (Owned (snd r)).
Lemma p_round_eq c a p rscale : p_round_common c a p rscale =
  dassert c (negb (sgn_eqb (p_sign p) SNaN)) ;;;
  let di := (p_weight p + 1) * DEC_DIGITS + rscale in
  if di <? 0 then Ret (PVar 0 0 rscale SPos (p_cow p))
  else
    let nd := Z.quot (di + DEC_DIGITS - 1) DEC_DIGITS in
    let di := Z.rem di DEC_DIGITS in
    if (nd <? p_nd p) || ((nd =? p_nd p) && (0 <? di)) then
      d <- own c a (p_cow p) ;;
      d <- (if 0 <? p_nd p then reserve c a d (p_nd p) else Ret d) ;;
      r <- round_inside c (p_nd p) nd di d ;;
      Ret (p_rounded p rscale nd r)
    else Ret (PVar (p_nd p) (p_weight p) rscale (p_sign p) (p_cow p)).
Proof.
  unfold p_round_common. apply bind_ext. intros _. cbv zeta. destruct (_ <? 0); [reflexivity|].
  destruct (_ || _); [|reflexivity]. apply bind_ext. intro d. apply bind_ext. intro d'. unfold round_inside.
  rewrite bind_assoc. apply bind_ext. intros _. rewrite bind_assoc. apply bind_ext. intro ds.
  rewrite bind_assoc. apply bind_ext. intros [[nd' carry] w]. rewrite bind_assoc. apply bind_ext. intros _.
  rewrite bind_assoc. apply bind_ext. intro w'. rewrite bind_assoc. apply bind_ext. intros [w2 nd2]. unfold p_rounded.
  destruct (nd2 <? 0) eqn:E; cbn [bind fst snd].
  - rewrite bind_assoc. apply bind_ext. intros _. rewrite bind_assoc. apply bind_ext. intros _. rewrite bind_assoc. apply bind_ext. intros _.
    cbn [bind fst snd]. now rewrite E.
  - now rewrite E.
Qed.

Lemma lenz_set_nth {A} (l : list A) i x : lenz (set_nth l i x) = lenz l.
Proof.
  unfold lenz. f_equal. revert i. induction l as [|y t IH]; intros [|i]; cbn; auto.
Qed.
Lemma set_unchecked_len {A} (l l' : list A) i x : set_unchecked l i x = Ret l' -> lenz l' = lenz l.
Proof. unfold set_unchecked. destruct (_ || _); try discriminate. intro E. injection E as <-. apply lenz_set_nth. Qed.
Lemma set_checked_len {A} (l l' : list A) i x : set_checked l i x = Ret l' -> lenz l' = lenz l /\ 0 <= i < lenz l.
Proof.
  unfold set_checked. destruct (_ || _) eqn:B; try discriminate. intro E. injection E as <-. split; [apply lenz_set_nth|].
  apply orb_false_iff in B. destruct B as [B1 B2]. apply Z.ltb_ge in B1. apply Z.leb_gt in B2. lia.
Qed.

Ltac bnd H x E := match type of H with bind ?e _ = _ => destruct e as [x| | |] eqn:E; try discriminate H; cbn [bind] in H end.

Ltac brk H := match type of H with (if ?b then _ else _) = _ => destruct b end.

Lemma carry_loop_len c k : forall w o nd carry w' nd', carry_loop c k w o nd carry = Ret (w', nd') -> lenz w' = lenz w.
Proof.
  induction k as [|k IH]; intros w o nd carry w' nd' H; [discriminate H|]. cbn [carry_loop] in H.
  destruct (0 <? carry); [|now injection H as <- <-]. cbv zeta in H. bnd H u E1. bnd H x E2. bnd H s E3.
  destruct (NBASE <=? s); bnd H w1 E4; apply IH in H; rewrite H; exact (set_unchecked_len _ _ _ _ E4).
Qed.

Lemma round_inside_len c sn nd di d x d' : 0 <= off d <= lenz (words d) -> round_inside c sn nd di d = Ret (x, d') ->
  lenz (words d') = lenz (words d) /\ 0 <= off d' <= lenz (words d').
Proof.
  intros B H. unfold round_inside in H. bnd H u E1. bnd H ds E2. bnd H t E3. destruct t as [[nd' carry] w]. bnd H u2 E4. bnd H w1 E5.
  bnd H t2 E6. destruct t2 as [w2 nd2].
  assert (Lw : lenz w = lenz (words d)).
  { revert E3. destruct (di =? 0); intro E3.
    - bnd E3 y E7. now injection E3 as <- <- <-.
    - bnd E3 y E7. bnd E3 u3 E8. bnd E3 y2 E9. bnd E3 y3 E10. bnd E3 w3 E11. apply set_unchecked_len in E11.
      brk E3.
      + bnd E3 q E12. brk E3; bnd E3 w4 E13; apply set_unchecked_len in E13; injection E3 as <- <- <-; congruence.
      + injection E3 as <- <- <-. exact E11. }
  apply set_checked_len in E5. destruct E5 as [L1 L2]. apply carry_loop_len in E6.
  destruct (nd2 <? 0).
  - bnd H u4 E7. bnd H u5 E8. bnd H u6 E9. injection H as <- <-. cbn [words off]. rewrite E6, L1, Lw. lia.
  - injection H as <- <-. cbn [words off]. rewrite E6, L1, Lw. lia.
Qed.

Definition vsim R (x : outcome unit * (hvar * mem)) (y : outcome pvar) : Prop :=
  msim (fun _ p s => vrel R (snd s) (fst s) p) (vinv R) x y.

Lemma vrel_inv R m h p : vrel R m h p -> vinv R (h, m).
Proof. intro V. exists (p_cow p). exact (vr_cow _ _ _ _ V). Qed.

Lemma round_common_hsim R c a h m p rscale : vrel R m h p -> vsim R (h_round_common c a rscale (h, m)) (p_round_common c a p rscale).
Proof.
  intro V. rewrite p_round_eq. unfold h_round_common. unfold mbind at 1. cbn [asks].
  rewrite (vr_sign _ _ _ _ V), (vr_weight _ _ _ _ V), (vr_nd _ _ _ _ V).
  apply msim_lift; [now apply vrel_inv in V|]. intros [] _. cbv zeta.
  destruct (_ <? 0).
  { unfold msim. cbn. constructor; cbn; auto. apply V. }
  destruct (_ || _).
  2:{ unfold msim. cbn. constructor; cbn; auto; apply V. }
  set (nd := Z.quot _ _). set (di := Z.rem _ _).
  destruct (to_mut_ok R c a h m p V) as (d & hd & m1 & E1 & E2 & D). rewrite E1. cbn [bind].
  unfold mbind at 1. rewrite E2.
  apply (msim_bind (fun (_ : unit) d s => exists hd, fst s = with_cow (HOwned hd) h /\ drel R (snd s) hd d)).
  { destruct (0 <? p_nd p) eqn:N.
    - apply Z.ltb_lt in N. pose proof (reserve_sim R c a hd d m1 (p_nd p) D N) as S.
      pose proof (on_data_sim R _ _ _ (with_cow (HOwned hd) h) m1 hd eq_refl S) as S2.
      apply (msim_mono _ _ _ _ _ (fun a b s H => H)) in S2. revert S2. apply msim_mono.
      intros _ d' s (hd' & F1 & F2). exists hd'. rewrite with_cow_twice in F1. auto.
    - unfold msim. cbn. now exists hd. }
  intros [] d1 [h1 m2] (hd1 & F1 & D1). cbn [fst snd] in *. subst h1.
  apply (msim_bind (fun x y s => exists hd, fst s = with_cow (HOwned hd) h /\ x = fst y /\ drel R (snd s) hd (snd y))).
  { assert (B : 0 <= off d1 <= lenz (words d1)) by (destruct D1 as (q & _ & _ & _ & _ & B); exact B).
    pose proof (inside_sim R (round_inside c (p_nd p) nd di) hd1 d1 m2 D1 (fun x d' H => round_inside_len c (p_nd p) nd di d1 x d' B H)) as S.
    pose proof (on_data_sim R _ _ _ (with_cow (HOwned hd1) h) m2 hd1 eq_refl S) as S2. revert S2. apply msim_mono.
    intros x y s (hd' & G1 & G2 & G3). exists hd'. rewrite with_cow_twice in G1. auto. }
  intros x [x' d2] [h2 m3] (hd2 & G1 & -> & D2). cbn [fst snd] in *. subst h2. unfold p_rounded. cbn [fst snd].
  destruct (x' <? 0); unfold msim; cbn; constructor; cbn; auto; try apply V; try exact D2. f_equal. apply V.
Qed.

Lemma trunc_inside_len c nd di d x d' : 0 <= off d <= lenz (words d) -> trunc_inside c nd di d = Ret (x, d') ->
  lenz (words d') = lenz (words d) /\ 0 <= off d' <= lenz (words d').
Proof.
  intros B H. unfold trunc_inside in H. bnd H ds E1. bnd H p E2. bnd H y E3. cbv zeta in H. bnd H z E4. bnd H w E5.
  injection H as <- <-. cbn [words off]. apply set_checked_len in E5. lia.
Qed.

Lemma inside_on {A} R (f : data -> outcome (A * data)) h m d hd : drel R m hd d -> 
  (forall x d', 0 <= off d <= lenz (words d) -> f d = Ret (x, d') -> lenz (words d') = lenz (words d) /\ 0 <= off d' <= lenz (words d')) ->
  msim (fun x y s => exists hd', fst s = with_cow (HOwned hd') h /\ x = fst y /\ drel R (snd s) hd' (snd y)) (vinv R)
    (on_data (inside f) (with_cow (HOwned hd) h, m)) (f d).
Proof.
  intros D L. assert (B : 0 <= off d <= lenz (words d)) by (destruct D as (q & _ & _ & _ & _ & B); exact B).
  pose proof (inside_sim R f hd d m D (fun x d' H => L x d' B H)) as S.
  pose proof (on_data_sim R _ _ _ (with_cow (HOwned hd) h) m hd eq_refl S) as S2. revert S2. apply msim_mono.
  intros x y s (hd' & G1 & G2 & G3). exists hd'. rewrite with_cow_twice in G1. auto.
Qed.

Lemma p_trunc_eq c a p rscale : p_trunc_common c a p rscale =
  dassert c (negb (sgn_eqb (p_sign p) SNaN)) ;;;
  let di := (p_weight p + 1) * DEC_DIGITS + rscale in
  if di <=? 0 then Ret (PVar 0 0 rscale SPos (p_cow p))
  else
    let nd := Z.quot (di + DEC_DIGITS - 1) DEC_DIGITS in
    if nd <=? p_nd p then
      let di := Z.rem di DEC_DIGITS in
      if 0 <? di then
        d <- own c a (p_cow p) ;;
        r <- trunc_inside c nd di d ;;
        Ret (PVar nd (p_weight p) rscale (p_sign p) (Owned (snd r)))
      else Ret (PVar nd (p_weight p) rscale (p_sign p) (p_cow p))
    else Ret (PVar (p_nd p) (p_weight p) rscale (p_sign p) (p_cow p)).
Proof.
  unfold p_trunc_common. apply bind_ext. intros _. cbv zeta. destruct (_ <=? 0); [reflexivity|].
  destruct (_ <=? _); [|reflexivity]. destruct (0 <? _); [|reflexivity]. apply bind_ext. intro d. unfold trunc_inside.
  rewrite bind_assoc. apply bind_ext. intro ds. rewrite bind_assoc. apply bind_ext. intro pw. rewrite bind_assoc. apply bind_ext. intro x.
  rewrite bind_assoc. apply bind_ext. intro y. rewrite bind_assoc. apply bind_ext. reflexivity.
Qed.

Lemma trunc_common_hsim R c a h m p rscale : vrel R m h p -> vsim R (h_trunc_common c a rscale (h, m)) (p_trunc_common c a p rscale).
Proof.
  intro V. rewrite p_trunc_eq. unfold h_trunc_common. unfold mbind at 1. cbn [asks].
  rewrite (vr_sign _ _ _ _ V), (vr_weight _ _ _ _ V), (vr_nd _ _ _ _ V).
  apply msim_lift; [now apply vrel_inv in V|]. intros [] _. cbv zeta.
  destruct (_ <=? 0).
  { unfold msim. cbn. constructor; cbn; auto. apply V. }
  destruct (_ <=? _).
  2:{ unfold msim. cbn. constructor; cbn; auto; apply V. }
  set (nd := Z.quot _ _). set (di := Z.rem _ _).
  destruct (0 <? di).
  2:{ unfold msim. cbn. constructor; cbn; auto; apply V. }
  destruct (to_mut_ok R c a h m p V) as (d & hd & m1 & E1 & E2 & D). rewrite E1. cbn [bind].
  unfold mbind. rewrite E2.
  pose proof (inside_on R (trunc_inside c nd di) h m1 d hd D (trunc_inside_len c nd di d)) as S. unfold msim in *.
  destruct (on_data _ _) as [[x|w| |] [h2 m2]], (trunc_inside c nd di d) as [[x' d2]| | |]; cbn in *; auto.
  destruct S as (hd2 & -> & -> & D2). constructor; cbn; auto; apply V.
Qed.

Lemma strip_front_bound k : forall ds i w nd i' w' nd', strip_front k ds i w nd = Ret (i', w', nd') -> i <= i' /\ i' + nd' = i + nd /\ (0 <= nd -> 0 <= nd').
Proof.
  induction k as [|k IH]; intros ds i w nd i' w' nd' H; [discriminate H|]. cbn [strip_front] in H.
  destruct (0 <? nd) eqn:N.
  - apply Z.ltb_lt in N. bnd H x E. destruct (x =? 0).
    + apply IH in H. lia.
    + injection H as <- <- <-. lia.
  - injection H as <- <- <-. lia.
Qed.
Lemma strip_inside_len c sn w d x d' : 0 <= off d <= lenz (words d) -> strip_inside c sn w d = Ret (x, d') ->
  lenz (words d') = lenz (words d) /\ 0 <= off d' <= lenz (words d').
Proof.
  intros B H. unfold strip_inside in H. bnd H ds E1. bnd H t E2. destruct t as [[i w1] nd1]. bnd H nd2 E3. bnd H u E4.
  injection H as <- <-. cbn [words off]. split; [reflexivity|].
  destruct (slice_len c d sn ds (proj1 B) E1) as (N & _ & L). apply strip_front_bound in E2. lia.
Qed.

Lemma p_strip_eq c a p : p_strip c a p =
  d <- own c a (p_cow p) ;;
  r <- strip_inside c (p_nd p) (p_weight p) d ;;
  let '((w, nd), d') := r in
  Ret (PVar nd (if nd =? 0 then 0 else w) (p_dscale p) (if nd =? 0 then SPos else p_sign p) (Owned d')).
Proof.
  unfold p_strip. apply bind_ext. intro d. unfold strip_inside. rewrite bind_assoc. apply bind_ext. intro ds.
  rewrite bind_assoc. apply bind_ext. intros [[i w] nd]. rewrite bind_assoc. apply bind_ext. intro nd'.
  rewrite bind_assoc. apply bind_ext. reflexivity.
Qed.

Lemma strip_hsim R c a h m p : vrel R m h p -> vsim R (h_strip c a (h, m)) (p_strip c a p).
Proof.
  intro V. rewrite p_strip_eq. unfold h_strip.
  destruct (to_mut_ok R c a h m p V) as (d & hd & m1 & E1 & E2 & D). rewrite E1. cbn [bind].
  unfold mbind at 1. cbv beta. rewrite E2. unfold mbind at 1. cbn [asks with_cow h_nd h_weight].
  rewrite (vr_weight _ _ _ _ V), (vr_nd _ _ _ _ V).
  pose proof (inside_on R (strip_inside c (p_nd p) (p_weight p)) h m1 d hd D (strip_inside_len c (p_nd p) (p_weight p) d)) as S. unfold vsim.
  change (HVar (h_nd h) (h_weight h) (h_dscale h) (h_sign h) (HOwned hd)) with (with_cow (HOwned hd) h).
  apply (msim_bind _ _ _ _ _ _ _ _ S). intros x [[w nd] d2] [h2 m2] (hd2 & G1 & -> & D2). cbn [fst snd] in *. subst h2.
  unfold msim. cbn. constructor; cbn; auto; try apply V. destruct (nd =? 0); [reflexivity|apply V].
Qed.

(** dropping *)
Lemma drop_var_ok R s : vinv R s -> exists v m, drop_var s = (Ret tt, (v, m)) /\ rest R m.
Proof.
  intros [k K]. destruct s as [h m]. cbn [fst snd] in K. unfold drop_var. destruct (h_cow h) as [l|hd], k as [l'|d]; cbn [crel] in K; try contradiction.
  - destruct K as [_ K]. now exists h, m.
  - destruct (buf_free_ok R m hd d K) as (m' & -> & K'). eauto.
Qed.

Lemma consume_sim {A B} R (Q : A -> B -> hvar * mem -> Prop) (f : M (hvar * mem) A) v m y :
  msim Q (vinv R) (f (v, m)) y ->
  msim (fun x b m => Q (fst x) b (snd x, m)) (rest R) (consume f v m) y.
Proof.
  unfold msim, consume. destruct (f (v, m)) as [[x|w| |] [v' m']], y as [b|w'| |]; cbn [fst snd]; auto; try contradiction.
  - intros [-> K]. destruct (drop_var_ok R _ K) as (v2 & m2 & -> & W). cbn. auto.
Qed.
