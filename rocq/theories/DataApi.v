(** * DataApi: in-place operations on buffers against those on byte strings. *)
From Coq Require Import ZArith QArith Qabs List Bool Lia.
From Verif Require Import Base Var Binary Parse Typmod Num Data Spec SpecApi SpecData QDec Digits Strip Round Trunc Signed AddSub CeilFloor Arith Codec Make Api1 Api2 Api3 Api4 Laws Samples Mut
  DataSim DataBuf.
Import ListNotations.
Open Scope Z_scope.

Definition vok (v : var) : Prop := canon v \/ v = nan_var.
Lemma vok_good v : vok v -> good v.
Proof. intros [C| ->]; [left; now apply canon_storable|now right]. Qed.

Definition bufrel (c : cfg) (b : pbuf) (x : bytes) : Prop :=
  exists v, vok v /\ holds c b v /\ encode c v = Ret x.
Definition optrel (c : cfg) (b : option pbuf) (x : nbuf) : Prop :=
  match b, x with Some b, Some x => bufrel c b x | None, None => True | _, _ => False end.

Lemma bufrel_bytes c b x : bufrel c b x -> as_bytes c b = Ret x.
Proof.
  intros (v & V & H & E). destruct (as_bytes_ok c b v H) as (y & A & E'). rewrite E in E'. congruence.
Qed.
Lemma optrel_shows c b x : optrel c b x -> shows c b x.
Proof. destruct b, x; cbn; auto. apply bufrel_bytes. Qed.

Lemma encode_sim c a p v : vok v -> rep p v -> sim (bufrel c) (p_into_buf c a p) (encode c v).
Proof.
  intros V R. destruct (into_buf_ok c a p v (vok_good v V) R) as (b & E & H). rewrite E.
  destruct (as_bytes_ok c b v H) as (x & _ & Ex). rewrite Ex. cbn [sim]. exists v. auto.
Qed.

(** what a variable must satisfy for its result to be storable *)
Definition fine (r : var) : Prop :=
  (Forall dig (digits r) /\ sign r <> SNaN /\ mult (vval r) (dscale r) /\ 0 <= dscale r) \/
  (exists s, 0 <= s /\ r = Var 0 s SNaN []).

Lemma fine_canon r : fine r -> weight r <= 32767 -> dscale r <= 16383 -> canon (strip r).
Proof.
  intros [(D & N & M & S)|(s & S & ->)] W Sc.
  - apply strip_canon; auto.
  - change (strip (Var 0 s SNaN [])) with (strip (Var 0 s SPos [])). cbn [dscale] in Sc.
    apply strip_canon; cbn [digits sign dscale weight]; auto; try lia; try discriminate.
    apply (mult_comp 0); [symmetry; now apply vval_empty|]. exists 0. cbn. apply Qmult_0_l.
Qed.

Lemma make_no_sim c a p r : rep p r -> fine r -> weight r <= 32767 -> dscale r <= 16383 ->
  sim (bufrel c) (p_make_no_overflow c a p) (make_result_no_overflow c r).
Proof.
  intros R F W S. unfold p_make_no_overflow, make_result_no_overflow, is_nan.
  rewrite (rp_sign p r R), (rp_weight p r R), (rp_dscale p r R).
  apply sim_same. intros _ _. apply sim_same. intros _ _.
  destruct (strip_sim c a p r R) as (q & E & Rq). rewrite E. cbn [bind].
  apply encode_sim; [left; now apply fine_canon|exact Rq].
Qed.

Lemma make_sim c a p r : rep p r -> fine r -> sim (optrel c) (p_make_result c a p) (make_result c r).
Proof.
  intros R F. unfold p_make_result, make_result, is_nan.
  rewrite (rp_sign p r R), (rp_weight p r R), (rp_dscale p r R).
  apply sim_same. intros _ _. apply sim_same. intros _ _.
  change NUMERIC_WEIGHT_MAX with 32767. change NUMERIC_DSCALE_MAX with 16383.
  destruct (_ || _ || _) eqn:E; [exact I|].
  apply orb_false_iff in E. destruct E as [E E3]. apply orb_false_iff in E. destruct E as [E1 E2].
  apply Z.ltb_ge in E1, E3.
  apply (sim_bind (bufrel c)); [apply make_no_sim; auto|]. intros b x H. exact H.
Qed.

(** ** variable-level operations *)
Lemma rep_set_dscale p v s : rep p v -> rep (p_set_dscale s p) (set_dscale s v).
Proof. intros [A B C D E]. constructor; cbn; auto. Qed.
Lemma rep_set_sign p v s : rep p v -> rep (p_set_sign s p) (set_sign s v).
Proof. intros [A B C D E]. constructor; cbn; auto. Qed.

Lemma negate_sim c p v : rep p v -> sim rep (p_negate c p) (negate c v).
Proof.
  intro R. unfold p_negate, negate, is_nan, is_positive, is_negative. rewrite (rp_sign p v R), (rp_nd p v R).
  apply sim_same. intros _ _. destruct (0 <? ndigits v); [|exact R].
  destruct (sign v); cbn; auto; now apply rep_set_sign.
Qed.
Lemma abs_sim c p v : rep p v -> sim rep (p_abs c p) (abs_var c v).
Proof.
  intro R. unfold p_abs, abs_var, is_nan, is_negative. rewrite (rp_sign p v R).
  apply sim_same. intros _ _. destruct (sign v); cbn; auto; now apply rep_set_sign.
Qed.
Lemma round_sim c a p v k : rep p v -> sim rep (p_round c a p k) (round_var c v k).
Proof.
  intro R. unfold p_round, round_var, is_nan. rewrite (rp_sign p v R). apply sim_same. intros _ _. cbn zeta.
  apply (sim_bind rep); [now apply round_common_sim|]. intros q r H. cbn [sim].
  destruct (_ <? 0); [now apply rep_set_dscale|exact H].
Qed.
Lemma trunc_sim c a p v k : rep p v -> sim rep (p_trunc c a p k) (trunc_var c v k).
Proof.
  intro R. unfold p_trunc, trunc_var, is_nan. rewrite (rp_sign p v R). apply sim_same. intros _ _. cbn zeta.
  apply (sim_bind rep); [now apply trunc_common_sim|]. intros q r H. cbn [sim].
  destruct (_ <? 0); [now apply rep_set_dscale|exact H].
Qed.

Lemma p_digits_ok c p v : rep p v -> p_digits c p = Ret (digits v).
Proof.
  intro R. unfold p_digits. rewrite (rp_nd p v R). pose proof (rp_cow p v R) as K. unfold ndigits.
  assert (G : forall post, (if (lenz (digits v) <? 0) || (lenz (digits v ++ post) <? lenz (digits v)) then Panic WBounds
                            else Ret (firstn (Z.to_nat (lenz (digits v))) (digits v ++ post))) = Ret (digits v)).
  { intro post. rewrite lenz_app. pose proof (lenz_nonneg (digits v)). pose proof (lenz_nonneg post).
    replace (lenz (digits v) <? 0) with false by (symmetry; apply Z.ltb_ge; lia).
    replace (lenz (digits v) + lenz post <? lenz (digits v)) with false by (symmetry; apply Z.ltb_ge; lia).
    cbn [orb]. now rewrite to_nat_lenz, firstn_app_len. }
  destruct (p_cow p) as [l|d].
  - destruct K as [post ->]. cbn [bind]. apply G.
  - destruct K as [O (pre & post & W & Lo)].
    assert (DA : digits_at d (digits v ++ post)).
    { exists pre, []. rewrite app_nil_r. split; [exact W|exact Lo]. }
    replace (lenz (words d) - off d) with (lenz (digits v ++ post)) by (rewrite W, !lenz_app; lia).
    rewrite (slice_ok c d _ DA). cbn [bind]. apply G.
Qed.

Definition typrel (x : bool * pvar) (y : bool * var) : Prop := fst x = fst y /\ rep (snd x) (snd y).
Lemma typmod_sim c a p v t : rep p v -> sim typrel (p_apply_typmod_var c a p t) (apply_typmod_var c v t).
Proof.
  intro R. unfold p_apply_typmod_var, apply_typmod_var. destruct (t <? VAR_HEADER_SIZE); [now split|].
  apply sim_same. intros [pr sc] _. cbn zeta. apply (sim_bind rep); [now apply round_common_sim|].
  intros q r H. rewrite (rp_weight q r H). destruct (_ <? _).
  - rewrite (p_digits_ok c q r H). cbn [bind sim]. now split.
  - now split.
Qed.

(** ** what the abstract operations leave is storable *)
Lemma round_fine c v k r : canon v -> round_var c v k = Ret r -> fine r.
Proof.
  intros C E. destruct (round_var_spec c v k C) as (r' & E' & R1 & R2 & R3 & R4 & _). rewrite E in E'. injection E' as <-.
  left. split; [exact R1|]. split; [exact R2|]. split; [|lia].
  apply (mult_comp (round_at (vval v) (clamp k))); [now symmetry|]. rewrite R3. apply mult_round. lia.
Qed.
Lemma trunc_fine c v k r : canon v -> trunc_var c v k = Ret r -> fine r /\ weight r <= 32767 /\ dscale r <= 16383.
Proof.
  intros C E. destruct (trunc_var_spec c v k C) as (r' & E' & R1 & R2 & R3 & R4 & R5). rewrite E in E'. injection E' as <-.
  pose proof (clamp_bound k). split; [|lia].
  left. split; [exact R1|]. split; [exact R2|]. split; [|lia].
  apply (mult_comp (trunc_at (vval v) (clamp k))); [now symmetry|]. rewrite R3. apply mult_trunc. lia.
Qed.

Lemma land16_bound x : 0 <= Z.land x 0xFFFF < 65536.
Proof. change 0xFFFF with (Z.ones 16). rewrite Z.land_ones by lia. apply Z.mod_pos_bound. lia. Qed.

Lemma typmod_fine c v t b r : vok v -> apply_typmod_var c v t = Ret (b, r) -> fine r.
Proof.
  intros V E. unfold apply_typmod_var in E.
  assert (F0 : fine v).
  { destruct V as [C| ->].
    - left. split; [now apply canon_dig|]. split; [now apply canon_nan|]. split; [now apply canon_mult|]. apply C.
    - right. exists 0. split; [lia|reflexivity]. }
  destruct (t <? VAR_HEADER_SIZE); [injection E as <- <-; exact F0|].
  destruct (typmod_extract c t) as [[pr sc]| | |] eqn:T; try discriminate E. cbn [bind] in E.
  assert (Sc : 0 <= sc).
  { unfold typmod_extract in T. destruct (i32 c (t - VAR_HEADER_SIZE)); try discriminate T. cbn [bind] in T.
    injection T as _ <-. apply land16_bound. }
  destruct (round_common c v sc) as [q| | |] eqn:Q; try discriminate E. cbn [bind] in E.
  assert (r = q) as -> by (destruct (_ <? _); injection E; auto).
  destruct V as [C| ->].
  - destruct (round_common_spec c v sc (canon_dig v C) (canon_nan v C)) as (q' & E' & R). rewrite Q in E'. injection E' as <-.
    destruct R as [R1 R2 R3 R4 _ _]. left. split; [exact R1|]. split; [exact R2|]. split; [|lia].
    apply (mult_comp (round_at (vval v) sc)); [now symmetry|]. rewrite R3. apply mult_round. lia.
  - right. exists sc. split; [exact Sc|]. unfold round_common in Q. cbn [is_nan sign nan_var weight] in Q.
    destruct (dassert c _) as [u| | |]; try discriminate Q. cbn [bind] in Q. cbn zeta in Q.
    change ((0 + 1) * DEC_DIGITS + sc) with (4 + sc) in Q. change DEC_DIGITS with 4 in Q.
    replace (4 + sc <? 0) with false in Q by (symmetry; apply Z.ltb_ge; lia).
    assert (P : 1 <= Z.quot (4 + sc + 4 - 1) 4) by (rewrite Z.quot_div_nonneg by lia; apply Z.div_le_lower_bound; lia).
    change (ndigits nan_var) with 0 in Q.
    replace (Z.quot (4 + sc + 4 - 1) 4 <? 0) with false in Q by (symmetry; apply Z.ltb_ge; lia).
    replace (Z.quot (4 + sc + 4 - 1) 4 =? 0) with false in Q by (symmetry; apply Z.eqb_neq; lia).
    cbn [orb andb] in Q. injection Q as <-. reflexivity.
Qed.

(** ** operations in place *)
Definition moverel {A} (c : cfg) (x : outcome A * option pbuf) (y : outcome A * nbuf) : Prop :=
  fst x = fst y /\ optrel c (snd x) (snd y).

Definition pairrel {A} (c : cfg) (x : A * option pbuf) (y : A * nbuf) : Prop :=
  fst x = fst y /\ optrel c (snd x) (snd y).

Lemma stored_rel {A} c (x : outcome (A * option pbuf)) (y : outcome (A * nbuf)) :
  sim (pairrel c) x y -> moverel c (p_stored x) (stored y).
Proof.
  destruct x as [[u b]| | |], y as [[u2 z]| | |]; cbn [sim]; try contradiction; intro H.
  - destruct H as [H1 H2]. cbn in *. subst. now split.
  - subst. now split.
  - now split.
  - now split.
Qed.

Lemma owned_sim c b v : holds c b v -> exists p, p_owned c (Some b) = Ret p /\ rep p v.
Proof.
  intro H. destruct (into_var_ok c b v H) as (p & E & R). exists p. split; [|exact R].
  cbn [p_owned]. unfold from_raw_parts.
  destruct (as_bytes_ok c b v H) as (x & A & Ex).
  destruct H as (G & pre & hw & post & W & O & B & En). rewrite Ex in En. injection En as Ex2.
  pose proof (good_reads c v _ G Ex) as (_ & _ & _ & _ & _ & _ & h & E1 & E2 & E3 & E4 & _).
  assert (Lx2 : lenz x = 2 * lenz hw + 2 * lenz (digits v)) by (rewrite Ex2, lenz_app, !lenz_flat16; reflexivity).
  unfold ndigits in E4. assert (6 <= header_size h) by (unfold header_size; destruct (header_is_short h); vm_compute; discriminate).
  rewrite dassert_ok.
  2:{ rewrite W, O, !lenz_app. change NUMERIC_DIGIT_SIZE with 2. apply Z.ltb_lt.
      pose proof (lenz_nonneg (digits v)). pose proof (lenz_nonneg post). lia. }
  cbn [bind]. destruct b. exact E.
Qed.

Lemma unless_sim c b x v (k : outcome (unit * option pbuf)) (k' : bytes -> outcome (unit * nbuf)) :
  vok v -> holds c b v -> encode c v = Ret x -> (canon v -> sim (pairrel c) k (k' x)) ->
  moverel c (p_unless_nan c (Some b) k)
    (match (y <- deref (Some x) ;; n <- num_is_nan c y ;; Ret (y, n)) with
     | Ret (y, true) => untouched (Ret tt) (Some x)
     | Ret (y, false) => stored (k' y)
     | Panic w => untouched (Panic w) (Some x)
     | UB => untouched UB (Some x)
     | Diverge => untouched Diverge (Some x)
     end).
Proof.
  intros V H E K. unfold p_unless_nan. cbn [p_deref deref bind].
  assert (BR : bufrel c b x) by (exists v; auto).
  rewrite (bufrel_bytes c b x BR). cbn [bind].
  pose proof (good_reads c v x (vok_good v V) E) as (_ & _ & N & _). rewrite N. cbn [bind].
  destruct V as [C| ->].
  - assert (is_nan v = false) as ->.
    { unfold is_nan. pose proof (canon_nan v C). destruct (sign v); auto; congruence. }
    apply stored_rel. now apply K.
  - change (is_nan nan_var) with true. cbn iota. now split.
Qed.

Lemma negate_mut_sim c a b x : bufrel c b x -> moverel c (p_negate_mut c a (Some b)) (negate_mut c (Some x)).
Proof.
  intros (v & V & H & E). unfold p_negate_mut, negate_mut.
  apply (unless_sim c b x v _ (fun y => v <- into_var c y ;; v <- negate c v ;; z <- encode c v ;; Ret (tt, Some z))); auto. intro C.
  destruct (owned_sim c b v H) as (p & Ep & R). rewrite Ep. cbn [bind].
  pose proof (good_reads c v x (vok_good v V) E) as (_ & _ & _ & _ & I & _). rewrite I. cbn [bind].
  apply (sim_bind (fun q r => rep q r /\ negate c v = Ret r)).
  { pose proof (negate_sim c p v R) as S. destruct (p_negate c p), (negate c v); cbn in *; auto. }
  intros q r [Rq Er]. destruct (negate_spec c v C) as (r' & Er' & Cr & _). rewrite Er in Er'. injection Er' as <-.
  apply (sim_bind (bufrel c)); [apply encode_sim; [now left|exact Rq]|]. intros y z Y. now split.
Qed.

Lemma abs_canon c v r : canon v -> abs_var c v = Ret r -> canon r.
Proof.
  intros C E. unfold abs_var in E. rewrite (nan_ok c v (canon_nan v C)) in E. cbn [bind] in E. injection E as <-.
  destruct (is_negative v) eqn:N; [|exact C].
  destruct (abs_spec c v C) as (r & E & Cr & _). unfold abs_var in E. rewrite (nan_ok c v (canon_nan v C)) in E. cbn [bind] in E.
  rewrite N in E. injection E as <-. exact Cr.
Qed.

Lemma abs_mut_sim c a b x : bufrel c b x -> moverel c (p_abs_mut c a (Some b)) (abs_mut c (Some x)).
Proof.
  intros BR. pose proof BR as (v & V & H & E). unfold p_abs_mut, abs_mut. cbn [p_deref deref bind].
  rewrite (bufrel_bytes c b x BR). cbn [bind].
  pose proof (good_reads c v x (vok_good v V) E) as (_ & _ & N & G & I & _). rewrite N, G. cbn [bind].
  destruct (is_nan v) eqn:Nn; [now split|]. destruct (is_negative v); [|now split]. rewrite I. cbn [bind].
  assert (C : canon v) by (destruct V as [C| ->]; [exact C|discriminate Nn]).
  apply stored_rel. destruct (owned_sim c b v H) as (p & Ep & R). rewrite Ep. cbn [bind].
  apply (sim_bind (fun q r => rep q r /\ abs_var c v = Ret r)).
  { pose proof (abs_sim c p v R) as S. destruct (p_abs c p), (abs_var c v); cbn in *; auto. }
  intros q r [Rq Er]. pose proof (abs_canon c v r C Er) as Cr.
  apply (sim_bind (bufrel c)); [apply encode_sim; [now left|exact Rq]|]. intros y z Y. now split.
Qed.

Lemma round_mut_sim c a b x k : bufrel c b x -> moverel c (p_round_mut c a (Some b) k) (round_mut c (Some x) k).
Proof.
  intros (v & V & H & E). unfold p_round_mut, round_mut.
  apply (unless_sim c b x v _ (fun y => v <- into_var c y ;; v <- round_var c v k ;; o <- make_result c v ;; z <- expect o MOverflow ;; Ret (tt, Some z))); auto. intro C.
  destruct (owned_sim c b v H) as (p & Ep & R). rewrite Ep. cbn [bind].
  pose proof (good_reads c v x (vok_good v V) E) as (_ & _ & _ & _ & I & _). rewrite I. cbn [bind].
  apply (sim_bind (fun q r => rep q r /\ fine r)).
  { pose proof (round_sim c a p v k R) as S. pose proof (round_fine c v k) as F.
    destruct (p_round c a p k), (round_var c v k); cbn in *; auto. }
  intros q r [Rq Fr]. apply (sim_bind (optrel c)); [now apply make_sim|].
  intros [y|] [z|] Y; cbn in Y; try contradiction; cbn; auto. now split.
Qed.

Lemma trunc_mut_sim c a b x k : bufrel c b x -> moverel c (p_trunc_mut c a (Some b) k) (trunc_mut c (Some x) k).
Proof.
  intros (v & V & H & E). unfold p_trunc_mut, trunc_mut.
  apply (unless_sim c b x v _ (fun y => v <- into_var c y ;; v <- trunc_var c v k ;; z <- make_result_no_overflow c v ;; Ret (tt, Some z))); auto. intro C.
  destruct (owned_sim c b v H) as (p & Ep & R). rewrite Ep. cbn [bind].
  pose proof (good_reads c v x (vok_good v V) E) as (_ & _ & _ & _ & I & _). rewrite I. cbn [bind].
  apply (sim_bind (fun q r => rep q r /\ fine r /\ weight r <= 32767 /\ dscale r <= 16383)).
  { pose proof (trunc_sim c a p v k R) as S. pose proof (trunc_fine c v k) as F.
    destruct (p_trunc c a p k), (trunc_var c v k); cbn in *; auto. }
  intros q r (Rq & Fr & W & S). apply (sim_bind (bufrel c)); [now apply make_no_sim|].
  intros y z Y. now split.
Qed.

Lemma apply_typmod_sim c a b x t : bufrel c b x -> moverel c (p_apply_typmod c a (Some b) t) (apply_typmod c (Some x) t).
Proof.
  intros BR. pose proof BR as (v & V & H & E). unfold p_apply_typmod, apply_typmod. cbn [p_deref deref bind].
  rewrite (bufrel_bytes c b x BR). apply stored_rel.
  destruct (owned_sim c b v H) as (p & Ep & R). rewrite Ep. cbn [bind].
  pose proof (good_reads c v x (vok_good v V) E) as (_ & _ & _ & _ & I & _). rewrite I. cbn [bind].
  apply (sim_bind (fun q r => typrel q r /\ fine (snd r))).
  { pose proof (typmod_sim c a p v t R) as S. pose proof (typmod_fine c v t) as F.
    destruct (p_apply_typmod_var c a p t), (apply_typmod_var c v t) as [[o r]| | |]; cbn in *; auto.
    split; [exact S|]. now apply (F o r V). }
  intros [o q] [o' r] [[Eo Rq] Fr]. cbn [fst snd] in *. subst o'.
  apply (sim_bind (optrel c)); [now apply make_sim|].
  intros [y|] [z|] Y; cbn in Y; try contradiction; cbn; now split.
Qed.

Lemma clone_sim c a b x : bufrel c b x -> sim (bufrel c) (p_clone c a b) (num_clone c x).
Proof.
  intros BR. pose proof BR as (v & V & H & E). unfold p_clone, num_clone. rewrite (bufrel_bytes c b x BR). cbn [bind].
  pose proof (good_reads c v x (vok_good v V) E) as (_ & _ & _ & _ & _ & A & _). rewrite A. cbn [bind].
  apply encode_sim; [exact V|]. constructor; cbn; auto. exists []. symmetry. apply app_nil_r.
Qed.

Lemma flag_rel c (x : outcome unit * option pbuf) (y : outcome unit * nbuf) : moverel c x y -> moverel c (flag x) (flag y).
Proof. intros [A B]. unfold flag. split; cbn [fst snd]; [now rewrite A|exact B]. Qed.

Lemma step_sim c a o b x : bufrel c b x -> moverel c (p_step c a o (Some b)) (step c o (Some x)).
Proof.
  intro BR. destruct o; cbn [p_step step].
  - apply flag_rel. now apply negate_mut_sim.
  - apply flag_rel. now apply abs_mut_sim.
  - apply flag_rel. now apply round_mut_sim.
  - apply flag_rel. now apply trunc_mut_sim.
  - now apply apply_typmod_sim.
  - cbn [deref bind]. pose proof (clone_sim c a b x BR) as S.
    destruct (p_clone c a b), (num_clone c x); cbn in S; try contradiction; subst; now split.
Qed.

Lemma run_sim c h : forall b x, optrel c b x ->
  fst (p_run c h b) = fst (run c (map fst h) x) /\ optrel c (snd (p_run c h b)) (snd (run c (map fst h) x)).
Proof.
  induction h as [|[o a] t IH]; intros b x R.
  - cbn. now split.
  - destruct b as [b|], x as [x|]; cbn in R; try contradiction.
    + cbn [p_run run map fst]. pose proof (step_sim c a o b x R) as [S1 S2].
      destruct (p_step c a o (Some b)) as [r b'], (step c o (Some x)) as [r' x']. cbn [fst snd] in *. subst r'.
      specialize (IH b' x' S2). destruct (p_run c t b') as [rs y], (run c (map fst t) x') as [rs' y']. cbn [fst snd] in *.
      destruct IH as [-> IH]. now split.
    + cbn. now split.
Qed.

Lemma to_owned_sim c a x : valid (be_varlen c) x -> exists b, p_to_owned c a x = Ret b /\ bufrel c b x.
Proof.
  intro V.
  assert (G : exists v, vok v /\ as_var c x = Ret v /\ encode c v = Ret x).
  { destruct (valid_cases _ _ V) as [->|(v & C & ->)].
    - exists nan_var. split; [now right|]. split; [apply nan_as_var|]. apply (nan_buf_spec c).
    - exists v. split; [now left|]. split; [apply as_var_spec|apply encode_spec]; now apply canon_storable. }
  destruct G as (v & K & A & E). unfold p_to_owned. rewrite A. cbn [bind].
  set (p := PVar (ndigits v) (weight v) (dscale v) (sign v) (Borrowed (digits v))).
  assert (R : rep p v). { constructor; cbn; auto. exists []. symmetry. apply app_nil_r. }
  destruct (into_buf_ok c a p v (vok_good v K) R) as (b & B & H). exists b. split; [exact B|]. exists v. auto.
Qed.

Lemma computed_sim c a v : fine v -> sim (optrel c) (p_computed c a v) (make_result c v).
Proof.
  intro F. unfold p_computed. destruct (to_owned_ok c a (digits v)) as (d & E & O & D). rewrite E. cbn [bind].
  apply make_sim; [|exact F]. constructor; cbn; auto. split; [lia|exact D].
Qed.

(** ** histories *)
Lemma bufrel_valid c b x : bufrel c b x -> valid (be_varlen c) x.
Proof.
  intros (v & [C| ->] & _ & E).
  - rewrite (encode_spec c v (canon_storable v C)) in E. injection E as <-. now apply valid_num.
  - change (encode c nan_var) with (nan_buf c) in E. rewrite nan_buf_spec in E. injection E as <-. apply valid_nan.
Qed.

Definition clean {A} (r : outcome A) : Prop := (exists x, r = Ret x) \/ (exists w, r = Panic w).

Lemma clean_bind {A B} (x : outcome A) (f : A -> outcome B) : clean x -> (forall a, x = Ret a -> clean (f a)) -> clean (bind x f).
Proof. intros [[a ->]|[w ->]] K; cbn; [now apply K|right; now exists w]. Qed.
Lemma clean_dassert c b : clean (dassert c b).
Proof. unfold dassert. destruct (_ && _); [right|left]; eexists; reflexivity. Qed.
Lemma clean_ret {A} (a : A) : clean (Ret a).
Proof. left. now exists a. Qed.
Lemma clean_arith c n x : clean (arith c n x).
Proof. unfold arith. destruct (fits n x), (dbg c); try apply clean_ret. right. eexists; reflexivity. Qed.

Lemma make_clean c r : fine r -> clean (make_result c r).
Proof.
  intro F. unfold make_result. apply clean_bind; [apply clean_dassert|]. intros _ _.
  apply clean_bind; [apply clean_dassert|]. intros _ _.
  change NUMERIC_WEIGHT_MAX with 32767. change NUMERIC_DSCALE_MAX with 16383.
  destruct (_ || _ || _) eqn:E; [apply clean_ret|].
  apply orb_false_iff in E. destruct E as [E E3]. apply orb_false_iff in E. destruct E as [E1 E2].
  apply Z.ltb_ge in E1, E3.
  unfold make_result_no_overflow. apply clean_bind; [|intros; apply clean_ret].
  apply clean_bind; [apply clean_dassert|]. intros _ _. apply clean_bind; [apply clean_dassert|]. intros _ _.
  rewrite encode_spec by (apply canon_storable; now apply fine_canon). apply clean_ret.
Qed.

Lemma round_common_clean c v s : vok v -> 0 <= s -> clean (round_common c v s).
Proof.
  intros [C| ->] S.
  - destruct (round_common_spec c v s (canon_dig v C) (canon_nan v C)) as (q & -> & _). apply clean_ret.
  - unfold round_common. apply clean_bind; [apply clean_dassert|]. intros _ _. cbn zeta.
    change (weight nan_var) with 0. change ((0 + 1) * DEC_DIGITS + s) with (4 + s). change DEC_DIGITS with 4.
    replace (4 + s <? 0) with false by (symmetry; apply Z.ltb_ge; lia).
    assert (P : 1 <= Z.quot (4 + s + 4 - 1) 4) by (rewrite Z.quot_div_nonneg by lia; apply Z.div_le_lower_bound; lia).
    change (ndigits nan_var) with 0.
    replace (Z.quot (4 + s + 4 - 1) 4 <? 0) with false by (symmetry; apply Z.ltb_ge; lia).
    replace (Z.quot (4 + s + 4 - 1) 4 =? 0) with false by (symmetry; apply Z.eqb_neq; lia).
    apply clean_ret.
Qed.

Lemma stored_clean {A} (r : outcome (A * nbuf)) : clean r -> clean (fst (stored r)).
Proof. intros [[[a o] ->]|[w ->]]; cbn; [apply clean_ret|right; now exists w]. Qed.

Lemma typmod_clean c (x : bytes) t : valid (be_varlen c) x -> clean (fst (apply_typmod c (Some x) t)).
Proof.
  intro V. unfold apply_typmod. cbn [deref]. apply stored_clean.
  assert (G : exists v, vok v /\ into_var c x = Ret v).
  { destruct (to_owned_sim c (fun _ => 0) x V) as (b & _ & v & K & _ & E). exists v. split; [exact K|].
    pose proof (good_reads c v x (vok_good v K) E) as (_ & _ & _ & _ & I & _). exact I. }
  destruct G as (v & K & ->). cbn [bind].
  apply clean_bind.
  - unfold apply_typmod_var. destruct (t <? VAR_HEADER_SIZE); [apply clean_ret|].
    apply clean_bind.
    + unfold typmod_extract. apply clean_bind; [apply clean_arith|]. intros; apply clean_ret.
    + intros [p sc] T. apply clean_bind.
      * apply round_common_clean; [exact K|]. unfold typmod_extract in T.
        destruct (i32 c (t - VAR_HEADER_SIZE)); try discriminate T. cbn [bind] in T. injection T as _ <-. apply land16_bound.
      * intros r _. cbn zeta. destruct (_ <? _); apply clean_ret.
  - intros [o r] E. apply clean_bind; [apply make_clean; now apply (typmod_fine c v t o r)|].
    intros [y|] _; apply clean_ret.
Qed.

Lemma flag_clean {A B} (r : outcome A * option B) : clean (fst r) -> clean (fst (flag r)).
Proof. intros [[a E]|[w E]]; unfold flag; cbn [fst]; rewrite E; [apply clean_ret|right; now exists w]. Qed.

Lemma step_clean c o (x : bytes) : valid (be_varlen c) x -> clean (fst (step c o (Some x))).
Proof.
  intro V. destruct o as [| |k|k|t|]; cbn [step].
  - destruct (mut_usable c x 0 V) as ((y & -> & _) & _). apply flag_clean, clean_ret.
  - destruct (mut_usable c x 0 V) as (_ & (y & -> & _) & _). apply flag_clean, clean_ret.
  - destruct (mut_usable c x k V) as (_ & _ & _ & [(y & -> & _)|[E _]]).
    + apply flag_clean, clean_ret.
    + apply flag_clean. right. eexists. exact E.
  - destruct (mut_usable c x k V) as (_ & _ & (y & -> & _) & _). apply flag_clean, clean_ret.
  - now apply typmod_clean.
  - cbn [deref bind]. destruct (copies c x V) as [_ ->]. apply clean_ret.
Qed.

Lemma step_state c o (x : bytes) : valid (be_varlen c) x ->
  match snd (step c o (Some x)) with Some y => valid (be_varlen c) y | None => True end.
Proof.
  intro V. destruct (to_owned_sim c (fun _ => 0) x V) as (b & _ & R).
  destruct (step_sim c (fun _ => 0) o b x R) as [_ S].
  destruct (snd (step c o (Some x))) as [y|]; [|exact I].
  destruct (snd (p_step c (fun _ => 0) o (Some b))) as [b'|]; [|contradiction]. exact (bufrel_valid c b' y S).
Qed.

Lemma run_clean c h : forall x : bytes, valid (be_varlen c) x ->
  Forall clean (fst (run c h (Some x))) /\
  match snd (run c h (Some x)) with Some y => valid (be_varlen c) y | None => True end.
Proof.
  induction h as [|o t IH]; intros x V; [split; [constructor|exact V]|]. cbn [run].
  pose proof (step_clean c o x V) as Cl. pose proof (step_state c o x V) as St.
  destruct (step c o (Some x)) as [r x']. cbn [fst snd] in *. destruct x' as [x'|].
  - specialize (IH x' St). destruct (run c t (Some x')) as [rs y]. cbn [fst snd] in *. destruct IH as [I1 I2].
    split; [constructor; auto|exact I2].
  - destruct t; cbn; split; auto; constructor; auto.
Qed.

Lemma history c a (x : bytes) : valid (be_varlen c) x ->
  exists b, p_to_owned c a x = Ret b /\ as_bytes c b = Ret x /\
    forall h, let '(rs, b') := p_run c h (Some b) in let '(rs', x') := run c (map fst h) (Some x) in
      rs = rs' /\ shows c b' x' /\
      Forall (fun r => (exists y, r = Ret y) \/ (exists w, r = Panic w)) rs.
Proof.
  intro V. destruct (to_owned_sim c a x V) as (b & E & R). exists b. split; [exact E|]. split; [now apply bufrel_bytes|].
  intro h. destruct (run_sim c h (Some b) (Some x) R) as [S1 S2].
  destruct (run_clean c (map fst h) x V) as [Cl _].
  destruct (p_run c h (Some b)) as [rs b'], (run c (map fst h) (Some x)) as [rs' x']. cbn [fst snd] in *. subst rs'.
  split; [reflexivity|]. split; [now apply optrel_shows|exact Cl].
Qed.

Lemma history_computed c a n : Forall (fun d => 0 <= d <= 9999) (digs n) -> 0 <= scale n ->
  (exists k : Z, (value n * ten ^ scale n == inject_Z k)%Q) ->
  exists o o', p_computed c a (Var (wt n) (scale n) (if neg n then SNeg else SPos) (digs n)) = Ret o /\
    shows c o o' /\
    match o' with
    | Some x => stores (be_varlen c) x (value n) (scale n)
    | None => wt n < -32767 \/ 32767 < wt n \/ 16383 < scale n
    end /\
    forall h, let '(rs, b') := p_run c h o in let '(rs', x') := run c (map fst h) o' in
      rs = rs' /\ shows c b' x' /\
      Forall (fun r => (exists y, r = Ret y) \/ (exists w, r = Panic w)) rs.
Proof.
  intros D S M0. change (Var (wt n) (scale n) (if neg n then SNeg else SPos) (digs n)) with (of_number n).
  set (v := of_number n). assert (N : sign v <> SNaN) by (unfold v, of_number; cbn; destruct (neg n); discriminate).
  assert (M : mult (vval v) (dscale v)).
  { unfold v. destruct M0 as [k M0]. exists k. rewrite vval_of_number. exact M0. }
  assert (F : fine v) by (left; auto).
  pose proof (computed_sim c a v F) as Sm. pose proof (make_clean c v F) as Cl.
  assert (R : exists o', make_result c v = Ret o' /\
    match o' with
    | Some x => stores (be_varlen c) x (value n) (scale n)
    | None => wt n < -32767 \/ 32767 < wt n \/ 16383 < scale n
    end).
  { clear Cl Sm. unfold make_result. rewrite (nan_ok c v N). cbn [bind].
    rewrite dassert_ok by (apply Z.leb_le; exact S). cbn [bind].
    change NUMERIC_WEIGHT_MAX with 32767. change NUMERIC_WEIGHT_MIN with (-32767). change NUMERIC_DSCALE_MAX with 16383.
    change (weight v) with (wt n). change (dscale v) with (scale n).
    destruct (_ || _ || _) eqn:E.
    { exists None. split; [reflexivity|]. apply orb_true_iff in E. destruct E as [E|E]; [|apply Z.ltb_lt in E; auto].
      apply orb_true_iff in E. destruct E as [E|E]; apply Z.ltb_lt in E; auto. }
    apply orb_false_iff in E. destruct E as [E E3]. apply orb_false_iff in E. destruct E as [E1 E2].
    apply Z.ltb_ge in E1, E3.
    destruct (make_no_overflow_spec c v D N (conj S E3) M E1) as (x & -> & X). cbn [bind]. exists (Some x). split; [reflexivity|].
    apply (stores_ext _ _ (vval v)); [apply vval_of_number|exact X]. }
  destruct R as (o' & Eo & Ro). rewrite Eo in Sm. destruct (p_computed c a v) as [o| | |]; cbn in Sm; try contradiction.
  exists o, o'. split; [reflexivity|]. split; [now apply optrel_shows|]. split; [exact Ro|].
  intro h. destruct (run_sim c h o o' Sm) as [S1 S2].
  assert (Cl' : Forall clean (fst (run c (map fst h) o'))).
  { destruct o' as [x|].
    - destruct o as [b|]; [|contradiction]. apply run_clean. exact (bufrel_valid c b x Sm).
    - destruct h; constructor. }
  destruct (p_run c h o) as [rs b'], (run c (map fst h) o') as [rs' x']. cbn [fst snd] in *. subst rs'.
  split; [reflexivity|]. split; [now apply optrel_shows|exact Cl'].
Qed.
