(** * MachApi: results of the machine-level transcription, stored. *)
From Coq Require Import ZArith QArith Qabs List Bool Lia.
From Verif Require Import Base Var Binary Format Parse Convert Num Data Spec SpecApi SpecData SpecMach QDec Digits Strip Round Trunc Signed AddSub CeilFloor Arith Codec Make DivQ Api1 Api2 Api3 Laws Laws2 DataSim DataBuf DataApi Mach MachSim MachAdd MachMul MachDiv.
Import ListNotations.
Open Scope Z_scope.

Lemma own_off c a B p v d : mrep B p v -> own c a (p_cow p) = Ret d -> 4 <= off d /\ off d <= lenz (words d) /\ lenz (words d) <= B + 5.
Proof.
  intros [R F] E. pose proof (own_len c a _ _ E) as L. destruct (own_ok c a p v R) as (d' & E' & O & D).
  rewrite E in E'. injection E' as <-. pose proof (digits_at_len d _ D) as [_ H]. pose proof (lenz_nonneg (digits v)).
  pose proof (fit_cow B p F). destruct (p_cow p); lia.
Qed.

Lemma m_into_buf_eq c a B p v : 0 <= B <= 1000000000 -> mrep B p v -> m_into_buf c a p = p_into_buf c a p.
Proof.
  intros LB M. pose proof M as [R [F1 F2 F3 F4]]. unfold m_into_buf, p_into_buf.
  rewrite m_own_eq by (unfold big; destruct (p_cow p); [lia|exact I]).
  apply bind_ext. intros d Ed. destruct (own_off c a B p v d M Ed) as (O1 & O2 & O3). cbn zeta. unfold p_set_header.
  apply bind_ext. intros _ _. apply bind_ext. intros _ _.
  change NUMERIC_HEADER_SIZE_SHORT with 6. change NUMERIC_HEADER_SIZE with 8. change NUMERIC_DIGIT_SIZE with 2.
  rewrite !as_u32_ok by lia. repeat (rewrite u32_ok by lia; cbn [bind]).
  destruct (can_be_short _ _).
  - repeat (rewrite u32_ok by lia; cbn [bind]). rewrite !bind_assoc.
    apply bind_ext. intros h _. cbn [bind].
    repeat (rewrite u32_ok by lia; cbn [bind]). destruct (_ <? 0) eqn:Es; [reflexivity|]. apply Z.ltb_ge in Es.
    repeat (rewrite u32_ok by lia; cbn [bind]). unfold from_raw_parts.
    match goal with |- context [words_of ?h] => set (hdr := h) in * end.
    assert (LH : lenz hdr = 6) by (unfold hdr; rewrite lenz_app, lenz_encode_len; reflexivity).
    assert (BH : Forall byte hdr) by (apply Forall_app; split; [apply bytes_encode_len|rewrite le16_le; apply bytes_le]).
    destruct (words_of_flat 3 hdr) as [_ LW]; [unfold lenz in LH; lia|exact BH|].
    rewrite LH. rewrite !lenz_app, LW, lenz_firstn, lenz_skipn by lia.
    change NUMERIC_DIGIT_SIZE with 2. change (Z.of_nat 3) with 3.
    replace (off d - 3 + (3 + (lenz (words d) - off d))) with (lenz (words d)) by lia. reflexivity.
  - repeat (rewrite u32_ok by lia; cbn [bind]).
    cbn [bind]. destruct (_ <? 0) eqn:Es; [reflexivity|]. apply Z.ltb_ge in Es.
    repeat (rewrite u32_ok by lia; cbn [bind]). unfold from_raw_parts.
    match goal with |- context [words_of ?h] => set (hdr := h) in * end.
    assert (LH : lenz hdr = 8) by (unfold hdr; rewrite !lenz_app, lenz_encode_len; reflexivity).
    assert (BH : Forall byte hdr).
    { unfold hdr. apply Forall_app; split; [apply bytes_encode_len|]. apply Forall_app. split; rewrite le16_le; apply bytes_le. }
    destruct (words_of_flat 4 hdr) as [_ LW]; [unfold lenz in LH; lia|exact BH|].
    rewrite LH. rewrite !lenz_app, LW, lenz_firstn, lenz_skipn by lia.
    change NUMERIC_DIGIT_SIZE with 2. change (Z.of_nat 4) with 4.
    replace (off d - 4 + (4 + (lenz (words d) - off d))) with (lenz (words d)) by lia. reflexivity.
Qed.

Lemma m_make_no_eq c a B p v : 0 <= B <= 30000000 -> mrep B p v -> m_make_no_overflow c a p = p_make_no_overflow c a p.
Proof.
  intros LB M. unfold m_make_no_overflow, p_make_no_overflow, m_nan. apply bind_ext. intros _ _. apply bind_ext. intros _ _.
  rewrite (m_strip_eq c a B p v) by (try assumption; lia). apply bind_ext. intros q E.
  destruct (strip_sim c a p v (proj1 M)) as (q' & E' & R). rewrite E in E'. injection E' as <-.
  apply (m_into_buf_eq c a (2 * B + 5) q (strip v)); [lia|]. split; [exact R|]. exact (p_strip_fit c a B p v q (proj1 LB) M E).
Qed.
Lemma m_make_eq c a B p v : 0 <= B <= 30000000 -> mrep B p v -> m_make_result c a p = p_make_result c a p.
Proof.
  intros LB M. unfold m_make_result, p_make_result, m_nan. apply bind_ext. intros _ _. apply bind_ext. intros _ _.
  destruct (_ || _ || _); [reflexivity|]. now rewrite (m_make_no_eq c a B p v LB M).
Qed.
Lemma make_m0 c a B p v : 0 <= B <= 30000000 -> mrep B p v -> fine v -> sim (optrel c) (m_make_result c a p) (make_result c v).
Proof. intros LB M F. rewrite (m_make_eq c a B p v LB M). apply make_sim; [exact (proj1 M)|exact F]. Qed.
Lemma make_no_m0 c a B p v : 0 <= B <= 30000000 -> mrep B p v -> fine v -> weight v <= 32767 -> dscale v <= 16383 ->
  sim (bufrel c) (m_make_no_overflow c a p) (make_result_no_overflow c v).
Proof. intros LB M F W S. rewrite (m_make_no_eq c a B p v LB M). apply make_no_sim; auto. exact (proj1 M). Qed.

Lemma nan_m0 c a : sim (bufrel c) (m_nan_buf c a) (nan_buf c).
Proof.
  unfold m_nan_buf. assert (R : rep (PVar 0 0 0 SNaN (Borrowed [])) nan_var) by (constructor; cbn; auto; now exists []).
  rewrite (m_into_buf_eq c a 0 _ nan_var); [|lia|].
  - change (nan_buf c) with (encode c nan_var). apply encode_sim; [now right|exact R].
  - split; [exact R|]. split; cbn; lia.
Qed.

(** Every buffer that comes about is shorter than this (in words). *)
Definition lim : Z := 29000000.

Lemma skipn_le {A} (l : list A) n : lenz (skipn n l) <= Z.max 0 (lenz l - Z.of_nat n).
Proof. unfold lenz. rewrite skipn_length. lia. Qed.
Lemma firstn_le {A} (l : list A) n : lenz (firstn n l) <= Z.of_nat n.
Proof. unfold lenz. rewrite firstn_length. lia. Qed.

Lemma into_buf_len c a B p v b : 0 <= B <= 1000000000 -> mrep B p v -> m_into_buf c a p = Ret b -> lenz (b_words b) <= B + 5.
Proof.
  intros LB M E. rewrite (m_into_buf_eq c a B p v LB M) in E. unfold p_into_buf in E.
  apply bind_ret in E. destruct E as (d & Ed & E). destruct (own_off c a B p v d M Ed) as (O1 & O2 & O3).
  unfold p_set_header in E. apply bind_ret in E. destruct E as (_ & _ & E). apply bind_ret in E. destruct E as (_ & _ & E).
  apply bind_ret in E. destruct E as (hdr & _ & E). cbn zeta in E. destruct (_ <? 0) eqn:S; [discriminate|]. apply Z.ltb_ge in S.
  unfold from_raw_parts in E. apply bind_ret in E. destruct E as (_ & _ & E). apply Ret_inj in E. rewrite <- E. cbn [b_words].
  rewrite !lenz_app. pose proof (firstn_le (words d) (Z.to_nat (off d - lenz (words_of hdr)))).
  pose proof (skipn_le (words d) (Z.to_nat (off d))). lia.
Qed.
Lemma strip_len c a B p v q : 0 <= B <= 30000000 -> mrep B p v -> m_strip c a p = Ret q ->
  exists d, p_cow q = Owned d /\ lenz (words d) <= B + 5 /\ mrep (2 * B + 5) q (strip v).
Proof.
  intros LB M E. pose proof (strip_m c a B p v LB M) as S. rewrite E in S. cbn [sim] in S.
  unfold m_strip in E. rewrite m_own_eq in E.
  2: { pose proof (fit_cow B p (proj2 M)). unfold big. destruct (p_cow p); [lia|exact Logic.I]. }
  apply bind_ret in E. destruct E as (d & Ed & E). destruct (own_off c a B p v d M Ed) as (O1 & O2 & O3).
  apply bind_ret in E. destruct E as (? & _ & E). apply bind_ret in E. destruct E as ([[i w] nd] & _ & E).
  apply bind_ret in E. destruct E as (nd' & _ & E). cbn zeta in E. apply bind_ret in E. destruct E as (o & _ & E).
  apply bind_ret in E. destruct E as (_ & _ & E). apply Ret_inj in E. exists (Data (words d) o).
  split; [rewrite <- E; reflexivity|]. split; [exact O3|exact S].
Qed.
Lemma into_buf_owned_len c a B p v d b : 0 <= B <= 1000000000 -> mrep B p v -> p_cow p = Owned d -> m_into_buf c a p = Ret b ->
  lenz (b_words b) <= lenz (words d).
Proof.
  intros LB M K E. rewrite (m_into_buf_eq c a B p v LB M) in E. unfold p_into_buf in E. rewrite K in E. cbn [own] in E.
  change (bind (Ret d) ?f) with (f d) in E.
  destruct (own_off c a B p v d M ltac:(rewrite K; reflexivity)) as (O1 & O2 & O3).
  unfold p_set_header in E. apply bind_ret in E. destruct E as (_ & _ & E). apply bind_ret in E. destruct E as (_ & _ & E).
  apply bind_ret in E. destruct E as (hdr & _ & E). cbn zeta in E. destruct (_ <? 0) eqn:S; [discriminate|]. apply Z.ltb_ge in S.
  unfold from_raw_parts in E. apply bind_ret in E. destruct E as (_ & _ & E). apply Ret_inj in E. rewrite <- E. cbn [b_words].
  rewrite !lenz_app. pose proof (firstn_le (words d) (Z.to_nat (off d - lenz (words_of hdr)))).
  pose proof (skipn_le (words d) (Z.to_nat (off d))). lia.
Qed.
Lemma make_no_len c a B p v b : 0 <= B <= 30000000 -> mrep B p v -> m_make_no_overflow c a p = Ret b -> 
  lenz (b_words b) <= match p_cow p with Borrowed l => lenz l + 5 | Owned d => lenz (words d) end.
Proof.
  intros LB M E. unfold m_make_no_overflow in E. apply bind_ret in E. destruct E as (_ & _ & E). apply bind_ret in E. destruct E as (_ & _ & E).
  apply bind_ret in E. destruct E as (q & Eq & E).
  destruct (strip_len c a B p v q LB M Eq) as (d & K & _ & M2).
  assert (L : lenz (words d) = match p_cow p with Borrowed l => lenz l + 5 | Owned d => lenz (words d) end).
  { unfold m_strip in Eq. rewrite m_own_eq in Eq.
    2: { pose proof (fit_cow B p (proj2 M)). unfold big. destruct (p_cow p); [lia|exact Logic.I]. }
    apply bind_ret in Eq. destruct Eq as (d0 & Ed & Eq). pose proof (own_len c a _ _ Ed) as L0.
    apply bind_ret in Eq. destruct Eq as (? & _ & Eq). apply bind_ret in Eq. destruct Eq as ([[i w] nd] & _ & Eq).
    apply bind_ret in Eq. destruct Eq as (nd' & _ & Eq). cbn zeta in Eq. apply bind_ret in Eq. destruct Eq as (o & _ & Eq).
    apply bind_ret in Eq. destruct Eq as (_ & _ & Eq). apply Ret_inj in Eq. rewrite <- Eq in K. cbn [p_cow] in K. injection K as <-. exact L0. }
  rewrite <- L. exact (into_buf_owned_len c a (2 * B + 5) q (strip v) d b ltac:(lia) M2 K E).
Qed.
Lemma make_len c a B p v b : 0 <= B <= 30000000 -> mrep B p v -> m_make_result c a p = Ret (Some b) ->
  lenz (b_words b) <= match p_cow p with Borrowed l => lenz l + 5 | Owned d => lenz (words d) end.
Proof.
  intros LB M E. unfold m_make_result in E. apply bind_ret in E. destruct E as (_ & _ & E). apply bind_ret in E. destruct E as (_ & _ & E).
  destruct (_ || _ || _); [discriminate|]. apply bind_ret in E. destruct E as (b' & E' & E). apply Ret_inj in E. injection E as ->.
  exact (make_no_len c a B p v b LB M E').
Qed.

(** The buffer holds the number, and is not too long. *)
Definition bufrel (c : cfg) (b : pbuf) (x : bytes) : Prop := DataApi.bufrel c b x /\ lenz (b_words b) <= lim.
Definition optrel (c : cfg) (b : option pbuf) (x : nbuf) : Prop :=
  match b, x with Some b, Some x => bufrel c b x | None, None => True | _, _ => False end.
Lemma bufrel_bytes c b x : bufrel c b x -> as_bytes c b = Ret x.
Proof. intros [H _]. now apply DataApi.bufrel_bytes. Qed.
Lemma optrel_shows c b x : optrel c b x -> shows c b x.
Proof. destruct b, x; cbn; auto. apply bufrel_bytes. Qed.
Lemma make_m c a B p v : 0 <= B <= 28999995 -> mrep B p v -> fine v -> sim (optrel c) (m_make_result c a p) (make_result c v).
Proof.
  intros LB M F. pose proof (make_m0 c a B p v ltac:(lia) M F) as S. pose proof (fun b => make_len c a B p v b ltac:(lia) M) as L.
  destruct (m_make_result c a p) as [[b|]| | |], (make_result c v) as [[z|]| | |]; cbn in *; try contradiction; auto.
  split; [exact S|]. specialize (L b eq_refl). pose proof (fit_cow B p (proj2 M)). unfold lim. destruct (p_cow p); lia.
Qed.
Lemma make_no_m c a B p v : 0 <= B <= 28999995 -> mrep B p v -> fine v -> weight v <= 32767 -> dscale v <= 16383 ->
  sim (bufrel c) (m_make_no_overflow c a p) (make_result_no_overflow c v).
Proof.
  intros LB M F W D. pose proof (make_no_m0 c a B p v ltac:(lia) M F W D) as S. pose proof (fun b => make_no_len c a B p v b ltac:(lia) M) as L.
  destruct (m_make_no_overflow c a p) as [b| | |], (make_result_no_overflow c v) as [z| | |]; cbn in *; try contradiction; auto.
  split; [exact S|]. specialize (L b eq_refl). pose proof (fit_cow B p (proj2 M)). unfold lim. destruct (p_cow p); lia.
Qed.
Lemma nan_m c a : sim (bufrel c) (m_nan_buf c a) (nan_buf c).
Proof.
  pose proof (nan_m0 c a) as S. destruct (m_nan_buf c a) as [b| | |] eqn:E, (nan_buf c) as [z| | |]; cbn in *; try contradiction; auto.
  split; [exact S|]. unfold m_nan_buf in E. apply (into_buf_len c a 0 _ nan_var) in E; [unfold lim; lia|lia|].
  split; [constructor; cbn; auto; now exists []|]. split; cbn; lia.
Qed.

(** A result stored: what the byte-level model stores. *)
Lemma sim_spec {A B} (R : A -> B -> Prop) (P : B -> Prop) x y :
  sim R x y -> (forall b, y = Ret b -> P b) -> sim (fun a b => R a b /\ P b) x y.
Proof. destruct x, y; cbn; auto. Qed.

(** ** operands *)
Lemma canon_len v : canon v -> 0 <= ndigits v <= 40000.
Proof.
  intro C. unfold ndigits. pose proof (lenz_nonneg (digits v)). split; [lia|].
  destruct (digits v) as [|d t] eqn:E; [cbn; lia|]. rewrite <- E.
  assert (N : digits v <> []) by congruence.
  pose proof (frac_lsd v (dscale v) (cn_st v C) N (canon_mult v C)) as L. pose proof (cn_weight v C). pose proof (cn_scale v C).
  unfold lsd, ndigits in L. lia.
Qed.

Definition borrow (v : var) : pvar := PVar (ndigits v) (weight v) (dscale v) (sign v) (Borrowed (digits v)).
Lemma borrow_m v : canon v -> mrep 40000 (borrow v) v.
Proof.
  intro C. pose proof (canon_len v C). pose proof (cn_weight v C). pose proof (cn_scale v C). split.
  - constructor; cbn; auto. exists []. symmetry. apply app_nil_r.
  - split; cbn; try lia. fold (ndigits v). lia.
Qed.
Lemma m_as_var_ok c v : canon v -> m_as_var c (layout (be_varlen c) (to_number v)) = Ret (borrow v).
Proof.
  intro C. unfold m_as_var. rewrite (as_var_spec c v (canon_storable v C)). cbn [bind]. unfold ndigits at 1. rewrite Z.eqb_refl.
  rewrite dassert_ok by reflexivity. reflexivity.
Qed.

Lemma with_nan2_m c a x y k k' : valid (be_varlen c) x -> valid (be_varlen c) y ->
  (forall v w, canon v -> canon w -> sim (optrel c) (k (borrow v) (borrow w)) (k' v w)) ->
  sim (optrel c) (m_with_nan2 c a x y k) (with_nan2 c x y k').
Proof.
  intros V1 V2 K. unfold m_with_nan2, with_nan2.
  assert (NN : sim (optrel c) (b <- m_nan_buf c (a 0%nat) ;; Ret (Some b)) (z <- nan_buf c ;; Ret (Some z))).
  { apply (sim_bind (bufrel c)); [apply nan_m|]. intros b z H. exact H. }
  destruct V1 as [H1|(q1 & s1 & H1)].
  { rewrite H1, nan_is_nan. cbn [bind]. exact NN. }
  destruct (stores_elim _ _ _ _ H1) as (v1 & C1 & -> & _ & _).
  rewrite (num_is_nan_spec c v1 (canon_storable v1 C1)). cbn [bind].
  destruct V2 as [H2|(q2 & s2 & H2)].
  { rewrite H2, nan_is_nan. cbn [bind]. exact NN. }
  destruct (stores_elim _ _ _ _ H2) as (v2 & C2 & -> & _ & _).
  rewrite (num_is_nan_spec c v2 (canon_storable v2 C2)). cbn [bind].
  rewrite (m_as_var_ok c v1 C1), (m_as_var_ok c v2 C2).
  rewrite (as_var_spec c v1 (canon_storable v1 C1)), (as_var_spec c v2 (canon_storable v2 C2)). cbn [bind]. now apply K.
Qed.
Lemma unary_m c a x k k' : valid (be_varlen c) x ->
  (forall v, canon v -> sim (optrel c) (k (borrow v)) (z <- k' v ;; Ret (Some z))) ->
  sim (optrel c) (m_unary c a x k)
    (z <- (nan <- num_is_nan c x ;; if (nan : bool) then nan_buf c else v <- as_var c x ;; k' v) ;; Ret (Some z)).
Proof.
  intros V K. unfold m_unary. destruct V as [H|(q & s & H)].
  { rewrite H, nan_is_nan. cbn [bind]. apply (sim_bind (bufrel c)); [apply nan_m|]. intros b z E. exact E. }
  destruct (stores_elim _ _ _ _ H) as (v & C & -> & _ & _).
  rewrite (num_is_nan_spec c v (canon_storable v C)). cbn [bind].
  rewrite (m_as_var_ok c v C), (as_var_spec c v (canon_storable v C)). cbn [bind]. now apply K.
Qed.

(** ** results that can be stored *)
Lemma ares_fine s q r : 0 <= s -> mult q s -> ares s q r -> fine r.
Proof.
  intros P M A. left. split; [apply A|]. split; [apply A|]. rewrite (as_scale _ _ _ A). split; [|exact P].
  apply (mult_comp q); [symmetry; apply A|exact M].
Qed.
Lemma stripped_fine r s : stripped r -> dscale r = s -> 0 <= s -> mult (vval r) s -> fine r.
Proof. intros T S P M. left. rewrite S. split; [apply T|]. split; [apply T|]. now split. Qed.
Lemma zero_fine s : 0 <= s -> fine (Var 0 s SPos []).
Proof.
  intro S. left. cbn [digits sign dscale]. repeat split; try constructor; try discriminate; auto.
  apply (mult_comp 0); [symmetry; now apply vval_empty|]. exists 0. cbn. apply Qmult_0_l.
Qed.
Lemma make_opt_m c a B o v : 0 <= B <= 28999995 -> orel (mrep B) o v -> (forall r, v = Some r -> fine r) ->
  sim (optrel c) (m_make_opt c a o) (make_result_opt c v).
Proof.
  intros LB O F. destruct o, v; cbn in O; try contradiction; cbn [m_make_opt make_result_opt]; [|exact I].
  apply (make_m c a B); auto.
Qed.

(** ** the operations *)
Lemma add_mach c a x y : valid (be_varlen c) x -> valid (be_varlen c) y -> sim (optrel c) (m_checked_add c a x y) (checked_add c x y).
Proof.
  intros V1 V2. apply with_nan2_m; [exact V1|exact V2|]. intros v w C1 C2. pose proof (cn_scale v C1). pose proof (cn_scale w C2).
  apply (sim_bind (fun p r => mrep (10 * 40000 + 100) p r /\ fine r)).
  - apply sim_spec; [apply add_common_m; [lia|apply borrow_m|apply borrow_m]; assumption|].
    intros r E. destruct (add_common_spec c v w) as (r' & E' & A); auto using canon_dig, canon_nan; [lia|].
    rewrite E in E'. injection E' as <-. apply (ares_fine (Z.max (dscale v) (dscale w)) (vval v + vval w)); [lia| |exact A].
    apply mult_add; [now apply mult_max_l|now apply mult_max_r].
  - intros p r [M F]. apply (make_m c _ (10 * 40000 + 100)); [lia|exact M|exact F].
Qed.
Lemma sub_mach c a x y : valid (be_varlen c) x -> valid (be_varlen c) y -> sim (optrel c) (m_checked_sub c a x y) (checked_sub c x y).
Proof.
  intros V1 V2. apply with_nan2_m; [exact V1|exact V2|]. intros v w C1 C2. pose proof (cn_scale v C1). pose proof (cn_scale w C2).
  apply (sim_bind (fun p r => mrep (10 * 40000 + 100) p r /\ fine r)).
  - apply sim_spec; [apply sub_common_m; [lia|apply borrow_m|apply borrow_m]; assumption|].
    intros r E. destruct (sub_common_spec c v w) as (r' & E' & A); auto using canon_dig, canon_nan; [lia|].
    rewrite E in E'. injection E' as <-. apply (ares_fine (Z.max (dscale v) (dscale w)) (vval v - vval w)); [lia| |exact A].
    apply mult_sub; [now apply mult_max_l|now apply mult_max_r].
  - intros p r [M F]. apply (make_m c _ (10 * 40000 + 100)); [lia|exact M|exact F].
Qed.

Lemma mul_fine c v w r : canon v -> canon w -> mul_common c v w (dscale v + dscale w) = Ret r -> fine r.
Proof.
  intros C1 C2 E. pose proof (cn_scale v C1). pose proof (cn_scale w C2).
  assert (Z0 : forall s, zero_scaled c s = Ret r -> r = Var 0 s SPos []).
  { intros s Ez. unfold zero_scaled in Ez. apply bind_ret in Ez. destruct Ez as (_ & _ & Ez). now injection Ez. }
  destruct (digits v) as [|d1 t1] eqn:E1.
  - rewrite mul_zero in E by auto using canon_nan. apply Z0 in E. rewrite E. apply zero_fine. lia.
  - destruct (digits w) as [|d2 t2] eqn:E2.
    + rewrite mul_zero in E by auto using canon_nan. apply Z0 in E. rewrite E. apply zero_fine. lia.
    + destruct (mul_exact c v w (dscale v) (dscale w)) as (r' & E' & R1 & R2 & R3); auto using canon_mult;
        try apply C1; try apply C2; try lia; try congruence.
      rewrite E in E'. injection E' as <-. apply (stripped_fine _ _ R1 R2); [lia|].
      apply (mult_comp (vval v * vval w)); [now symmetry|]. apply mult_mul; now apply canon_mult.
Qed.
Lemma mul_mach c a x y : valid (be_varlen c) x -> valid (be_varlen c) y -> sim (optrel c) (m_checked_mul c a x y) (checked_mul c x y).
Proof.
  intros V1 V2. apply with_nan2_m; [exact V1|exact V2|]. intros v w C1 C2. pose proof (cn_scale v C1). pose proof (cn_scale w C2).
  cbn [borrow p_dscale]. rewrite i32_ok by lia. cbn [bind].
  apply (sim_bind (fun p r => mrep (8 * (40000 + 40000) + 70) p r /\ fine r)).
  - apply sim_spec; [apply mul_common_m; try lia; auto using canon_dig, borrow_m|].
    intros r E. exact (mul_fine c v w r C1 C2 E).
  - intros p r [M F]. apply (make_m c _ (8 * (40000 + 40000) + 70)); [lia|exact M|exact F].
Qed.

Lemma div_fine c v w s b r : canon v -> canon w -> 0 <= s <= 16383 -> div_common c v w s b = Ret (Some r) ->
  fine r /\ stripped r /\ dscale r = s.
Proof.
  intros C1 C2 S E. destruct (div_common_spec c v w s b) as [G0 G]; auto using canon_dig, canon_nan; [apply C2|].
  destruct (digits w) as [|d t] eqn:Ew; [rewrite G0 in E by reflexivity; discriminate|].
  destruct G as (r' & E' & R1 & R2 & R3); [discriminate|]. rewrite E in E'. injection E' as <-.
  split; [|now split]. apply (stripped_fine _ _ R1 R2); [lia|]. apply (mult_comp _ _ _ (Qeq_sym _ _ R3)).
  destruct b; [apply mult_round|apply mult_trunc]; lia.
Qed.
Lemma div_mach c a x y : valid (be_varlen c) x -> valid (be_varlen c) y -> sim (optrel c) (m_checked_div c a x y) (checked_div c x y).
Proof.
  intros V1 V2. apply with_nan2_m; [exact V1|exact V2|]. intros v w C1 C2. unfold checked_div_var, is_nan, m_nan. cbn [borrow p_sign].
  rewrite ?bind_assoc. apply sim_same. intros _ _. cbv beta. rewrite ?bind_assoc. apply sim_same. intros _ _.
  rewrite (select_m c 40000 (borrow v) (borrow w) v w) by (try apply borrow_m; try assumption; lia). cbn [bind].
  pose proof (select_div_scale_bound v w) as SB.
  apply (sim_bind (fun p r => orel (mrep (8 * 40000 + 100)) p r /\ forall r', r = Some r' -> fine r')).
  - apply sim_spec; [apply (div_common_m c (a 0%nat) 40000 (borrow v) (borrow w)); try lia; now apply borrow_m|].
    intros r E r' ->. exact (proj1 (div_fine c v w (select_div_scale v w) true r' C1 C2 ltac:(lia) E)).
  - intros p r [M F]. apply (make_opt_m c _ (8 * 40000 + 100)); [lia|exact M|exact F].
Qed.
Lemma div_trunc_mach c a x y : valid (be_varlen c) x -> valid (be_varlen c) y -> sim (optrel c) (m_checked_div_trunc c a x y) (checked_div_trunc c x y).
Proof.
  intros V1 V2. apply with_nan2_m; [exact V1|exact V2|]. intros v w C1 C2. unfold checked_div_trunc_var, is_nan, m_nan. cbn [borrow p_sign].
  rewrite ?bind_assoc. apply sim_same. intros _ _. cbv beta. rewrite ?bind_assoc. apply sim_same. intros _ _.
  apply (sim_bind (fun p r => orel (mrep (8 * 40000 + 100)) p r /\ forall r', r = Some r' -> fine r')).
  - apply sim_spec; [apply (div_common_m c (a 0%nat) 40000 (borrow v) (borrow w)); try lia; now apply borrow_m|].
    intros r E r' ->. exact (proj1 (div_fine c v w 0 false r' C1 C2 ltac:(lia) E)).
  - intros p r [M F]. apply (make_opt_m c _ (8 * 40000 + 100)); [lia|exact M|exact F].
Qed.

Lemma mod_common_m c a v w : canon v -> canon w ->
  sim (orel (mrep 28808800)) (m_mod_common c a (borrow v) (borrow w)) (mod_common c v w).
Proof.
  intros C1 C2. unfold m_mod_common, mod_common, is_nan, m_nan. cbn [borrow p_sign p_dscale].
  apply sim_same. intros _ _. apply sim_same. intros _ _. pose proof (cn_scale w C2).
  apply (sim_bind (fun p r => orel (mrep (8 * 40000 + 100)) p r /\ forall r', r = Some r' -> stripped r')).
  - apply sim_spec; [apply (div_common_m c (a 0%nat) 40000 (borrow v) (borrow w)); try lia; now apply borrow_m|].
    intros r E r' ->. exact (proj1 (proj2 (div_fine c v w 0 false r' C1 C2 ltac:(lia) E))).
  - intros [p|] [r|] [M F]; cbn [orel] in M; try contradiction; [|exact I].
    apply (sim_bind (mrep (8 * (8 * 40000 + 100 + 40000) + 70))).
    + apply (mul_common_m c (a 1%nat) (8 * 40000 + 100) 40000 p (borrow w)); try lia.
      * apply (F r eq_refl).
      * now apply canon_dig.
      * exact M.
      * now apply borrow_m.
    + intros p2 r2 M2. apply (sim_bind (mrep 28808800)).
      * apply (sim_weaken (10 * (8 * (8 * 40000 + 100 + 40000) + 70) + 100)); [lia|].
        apply sub_common_m; [lia| |exact M2]. apply (mrep_mono 40000); [lia|now apply borrow_m].
      * intros p3 r3 M3. exact M3.
Qed.
Lemma rem_mach c a x y : valid (be_varlen c) x -> valid (be_varlen c) y -> sim (optrel c) (m_checked_rem c a x y) (checked_rem c x y).
Proof.
  intros V1 V2. apply with_nan2_m; [exact V1|exact V2|]. intros v w C1 C2. pose proof (cn_scale v C1). pose proof (cn_scale w C2).
  apply (sim_bind (fun p r => orel (mrep 28808800) p r /\ forall r', r = Some r' -> fine r')).
  - apply sim_spec; [now apply mod_common_m|]. intros r E r' ->.
    destruct (digits w) as [|d t] eqn:Ew.
    + unfold mod_common in E. rewrite (nan_ok c v), (nan_ok c w) in E by auto using canon_nan. cbn [bind] in E.
      destruct (div_common_spec c v w 0 false) as [G0 _]; auto using canon_dig, canon_nan; [lia|apply C2|].
      rewrite (G0 Ew) in E. discriminate.
    + destruct (mod_common_spec c v w C1 C2) as (r & E' & A); [congruence|]. rewrite E in E'. injection E' as <-.
      eapply ares_fine; [|..|exact A]; [lia|]. apply mult_sub; [now apply mult_max_l|].
      pose proof (mult_mul _ _ 0 _ (mult_Z (trunc_int (vval v / vval w)) 0 ltac:(lia)) (mult_max_r v w C2)) as M. exact M.
  - intros p r [M F]. apply (make_opt_m c _ 28808800); [lia|exact M|exact F].
Qed.

Lemma expect_m c (x : outcome (option pbuf)) (y : outcome (option bytes)) : sim (optrel c) x y ->
  sim (optrel c) (o <- x ;; b <- expect o MOverflow ;; Ret (Some b)) (z <- (o <- y ;; expect o MOverflow) ;; Ret (Some z)).
Proof.
  intro S. rewrite bind_assoc. apply (sim_bind (optrel c)); [exact S|].
  intros [b|] [z|] R; cbn in R; try contradiction; [exact R|reflexivity].
Qed.

Lemma round_mach c a x k : valid (be_varlen c) x ->
  sim (optrel c) (m_num_round c a x k) (z <- num_round c x k ;; Ret (Some z)).
Proof.
  intro V. unfold m_num_round, num_round.
  apply (unary_m c a x _ (fun v => v <- round_var c v k ;; o <- make_result c v ;; expect o MOverflow) V).
  intros v C. unfold m_nan. cbn [borrow p_sign].
  set (G := fun v => o <- make_result c v ;; expect o MOverflow).
  assert (FR : forall r, round_var c v k = Ret r -> fine r) by (intros r E; exact (round_fine c v k r C E)).
  unfold round_var, is_nan in FR |- *. rewrite !bind_assoc.
  destruct (dassert c (negb (sgn_eqb (sign v) SNaN))) as [u| | |]; cbn [bind] in FR |- *; try reflexivity; try exact I.
  cbn zeta in *. fold (m_clamp k) in *.
  assert (CB : -1000 <= m_clamp k <= 1000) by (unfold m_clamp; change NUMERIC_MAX_DISPLAY_SCALE with 1000; lia).
  rewrite ?bind_assoc. fold (borrow v).
  apply (sim_bind (fun p r => mrep (40000 + 10) p r /\ round_common c v (m_clamp k) = Ret r)).
  - apply sim_spec; [apply round_m; [lia|lia|now apply borrow_m]|auto].
  - intros p r [M E]. rewrite E in FR. cbn [bind] in FR |- *. specialize (FR _ eq_refl). unfold G.
    apply expect_m. apply (make_m c _ (40000 + 10)); [lia| |exact FR].
    destruct (m_clamp k <? 0); [|exact M]. apply mrep_set_dscale; [lia|exact M].
Qed.
Lemma trunc_mach c a x k : valid (be_varlen c) x ->
  sim (optrel c) (m_num_trunc c a x k) (z <- num_trunc c x k ;; Ret (Some z)).
Proof.
  intro V. unfold m_num_trunc, num_trunc.
  apply (unary_m c a x _ (fun v => v <- trunc_var c v k ;; make_result_no_overflow c v) V).
  intros v C. unfold m_nan. cbn [borrow p_sign].
  assert (FR : forall r, trunc_var c v k = Ret r -> fine r /\ weight r <= 32767 /\ dscale r <= 16383) by (intros r E; exact (trunc_fine c v k r C E)).
  unfold trunc_var, is_nan in FR |- *. rewrite !bind_assoc.
  destruct (dassert c (negb (sgn_eqb (sign v) SNaN))) as [u| | |]; cbn [bind] in FR |- *; try reflexivity; try exact I.
  cbn zeta in *. fold (m_clamp k) in *.
  assert (CB : -1000 <= m_clamp k <= 1000) by (unfold m_clamp; change NUMERIC_MAX_DISPLAY_SCALE with 1000; lia).
  rewrite ?bind_assoc. fold (borrow v).
  apply (sim_bind (fun p r => mrep (40000 + 10) p r /\ trunc_common c v (m_clamp k) = Ret r)).
  - apply sim_spec; [apply trunc_m; [lia|lia|now apply borrow_m]|auto].
  - intros p r [M E]. rewrite E in FR. cbn [bind] in FR |- *. destruct (FR _ eq_refl) as (F1 & F2 & F3).
    apply (sim_bind (bufrel c)); [|intros b z H; exact H]. apply (make_no_m c _ (40000 + 10)); [lia| |exact F1|exact F2|exact F3].
    destruct (m_clamp k <? 0); [|exact M]. apply mrep_set_dscale; [lia|exact M].
Qed.
Lemma intres_fine v q r : intres v q r -> mult q 0 -> fine r.
Proof.
  intros [R1 R2 R3 R4 R5] M. left. split; [exact R1|]. split; [exact R2|]. rewrite R3. split; [|lia].
  apply (mult_comp q); [now symmetry|exact M].
Qed.
Lemma ceil_mach c a x : valid (be_varlen c) x -> sim (optrel c) (m_num_ceil c a x) (z <- num_ceil c x ;; Ret (Some z)).
Proof.
  intro V. unfold m_num_ceil, num_ceil.
  apply (unary_m c a x _ (fun v => v <- ceil_common c v ;; o <- make_result c v ;; expect o MOverflow) V).
  intros v C. unfold m_nan. cbn [borrow p_sign]. rewrite dassert_ok.
  2: { pose proof (canon_nan v C). destruct (sign v); auto; congruence. }
  cbn [bind]. rewrite !bind_assoc. fold (borrow v).
  apply (sim_bind (fun p r => mrep (20 * 40000 + 1000) p r /\ fine r)).
  - apply sim_spec; [apply ceil_m; [lia|now apply borrow_m]|].
    intros r E. destruct (ceil_common_spec c v (canon_semi v C)) as (r' & E' & R); [apply C|]. rewrite E in E'. injection E' as <-.
    apply (intres_fine v _ r R). apply mult_Z. lia.
  - intros p r [M F]. apply expect_m. apply (make_m c _ (20 * 40000 + 1000)); [lia|exact M|exact F].
Qed.
Lemma floor_mach c a x : valid (be_varlen c) x -> sim (optrel c) (m_num_floor c a x) (z <- num_floor c x ;; Ret (Some z)).
Proof.
  intro V. unfold m_num_floor, num_floor.
  apply (unary_m c a x _ (fun v => v <- floor_common c v ;; o <- make_result c v ;; expect o MOverflow) V).
  intros v C. unfold m_nan. cbn [borrow p_sign]. rewrite dassert_ok.
  2: { pose proof (canon_nan v C). destruct (sign v); auto; congruence. }
  cbn [bind]. rewrite !bind_assoc. fold (borrow v).
  apply (sim_bind (fun p r => mrep (20 * 40000 + 1000) p r /\ fine r)).
  - apply sim_spec; [apply floor_m; [lia|now apply borrow_m]|].
    intros r E. destruct (floor_common_spec c v (canon_semi v C)) as (r' & E' & R); [apply C|]. rewrite E in E'. injection E' as <-.
    apply (intres_fine v _ r R). apply mult_Z. lia.
  - intros p r [M F]. apply expect_m. apply (make_m c _ (20 * 40000 + 1000)); [lia|exact M|exact F].
Qed.
Lemma cmp_mach c x y : valid (be_varlen c) x -> valid (be_varlen c) y -> m_num_cmp c x y = num_cmp c x y.
Proof.
  intros V1 V2. unfold m_num_cmp, num_cmp.
  destruct V1 as [H1|(q1 & s1 & H1)]; [rewrite H1, nan_is_nan; reflexivity|].
  destruct (stores_elim _ _ _ _ H1) as (v1 & C1 & -> & _ & _).
  rewrite (num_is_nan_spec c v1 (canon_storable v1 C1)). cbn [bind].
  destruct V2 as [H2|(q2 & s2 & H2)]; [rewrite H2, nan_is_nan; reflexivity|].
  destruct (stores_elim _ _ _ _ H2) as (v2 & C2 & -> & _ & _).
  rewrite (num_is_nan_spec c v2 (canon_storable v2 C2)). cbn [bind].
  rewrite (m_as_var_ok c v1 C1), (m_as_var_ok c v2 C2).
  rewrite (as_var_spec c v1 (canon_storable v1 C1)), (as_var_spec c v2 (canon_storable v2 C2)). cbn [bind].
  rewrite (cmp_common_m c 40000 (borrow v1) (borrow v2) v1 v2) by (try apply borrow_m; try assumption; lia). reflexivity.
Qed.

(** ** no undefined behaviour, no endless loop *)
Definition settled {A} (r : outcome A) : Prop := match r with Ret _ | Panic _ => True | _ => False end.
Lemma agrees_of c m r : sim (optrel c) m r -> settled r -> agrees c m r.
Proof. destruct m, r; cbn; auto. intros H _. now apply optrel_shows. Qed.

Lemma nan2_settled c x y k : valid (be_varlen c) x -> valid (be_varlen c) y ->
  (forall q1 s1 q2 s2, stores (be_varlen c) x q1 s1 -> stores (be_varlen c) y q2 s2 -> settled (with_nan2 c x y k)) ->
  settled (with_nan2 c x y k).
Proof.
  intros [N1|(q1 & s1 & H1)] V2 K.
  - rewrite N1, with_nan2_l. exact I.
  - destruct V2 as [N2|(q2 & s2 & H2)].
    + destruct (stores_elim _ _ _ _ H1) as (v1 & C1 & -> & _ & _). rewrite N2, (with_nan2_r c v1 k C1). exact I.
    + exact (K q1 s1 q2 s2 H1 H2).
Qed.
Lemma add_settled c x y : valid (be_varlen c) x -> valid (be_varlen c) y -> settled (checked_add c x y).
Proof.
  intros V1 V2. apply nan2_settled; auto. intros q1 s1 q2 s2 H1 H2.
  destruct (checked_add_spec c x y q1 s1 q2 s2 H1 H2) as (o & E & _). unfold checked_add in E. now rewrite E.
Qed.
Lemma sub_settled c x y : valid (be_varlen c) x -> valid (be_varlen c) y -> settled (checked_sub c x y).
Proof.
  intros V1 V2. apply nan2_settled; auto. intros q1 s1 q2 s2 H1 H2.
  destruct (checked_sub_spec c x y q1 s1 q2 s2 H1 H2) as (o & E & _). unfold checked_sub in E. now rewrite E.
Qed.
Lemma mul_settled c x y : valid (be_varlen c) x -> valid (be_varlen c) y -> settled (checked_mul c x y).
Proof.
  intros V1 V2. apply nan2_settled; auto. intros q1 s1 q2 s2 H1 H2. change (settled (checked_mul c x y)).
  destruct (Z_le_gt_dec (s1 + s2) 16383) as [L|L].
  - destruct (checked_mul_spec c x y q1 s1 q2 s2 H1 H2 L) as (o & E & _). now rewrite E.
  - destruct (checked_mul_scale c x y q1 s1 q2 s2 H1 H2) as [A B]; [lia|].
    destruct (Qeq_dec q1 0) as [Z1|Z1]; [rewrite B by (now left); destruct (dbg c); exact I|].
    destruct (Qeq_dec q2 0) as [Z2|Z2]; [rewrite B by (now right); destruct (dbg c); exact I|].
    now rewrite A.
Qed.
Lemma div_settled c x y : valid (be_varlen c) x -> valid (be_varlen c) y ->
  settled (checked_div c x y) /\ settled (checked_div_trunc c x y) /\ settled (checked_rem c x y).
Proof.
  intros V1 V2. destruct (div_profiles (be_varlen c) x y V1 V2) as ((o1 & A1 & B1) & (o2 & A2 & B2) & (o3 & A3 & B3)).
  destruct c as [[|] be]; cbn [be_varlen] in *; [rewrite A1, A2, A3|rewrite B1, B2, B3]; repeat split.
Qed.
Lemma unary_settled c x f : valid (be_varlen c) x -> (stores_nan (be_varlen c) x -> settled (f x)) ->
  (forall q s, stores (be_varlen c) x q s -> exists q' s', result_or_panic (be_varlen c) q' s' (f x)) -> settled (some (f x)).
Proof.
  intros [N|(q & s & H)] K1 K2; unfold some.
  - specialize (K1 N). destruct (f x); cbn in *; auto.
  - destruct (K2 q s H) as (q' & s' & A & B). destruct (Qlt_le_dec (Qabs q') limit) as [L|L].
    + destruct (A L) as (z & E & _). rewrite E. exact I.
    + rewrite (B L). exact I.
Qed.

Theorem binary_agrees c a x y : valid (be_varlen c) x -> valid (be_varlen c) y ->
  agrees c (m_checked_add c a x y) (checked_add c x y) /\
  agrees c (m_checked_sub c a x y) (checked_sub c x y) /\
  agrees c (m_checked_mul c a x y) (checked_mul c x y) /\
  agrees c (m_checked_div c a x y) (checked_div c x y) /\
  agrees c (m_checked_div_trunc c a x y) (checked_div_trunc c x y) /\
  agrees c (m_checked_rem c a x y) (checked_rem c x y) /\
  m_num_cmp c x y = num_cmp c x y.
Proof.
  intros V1 V2. destruct (div_settled c x y V1 V2) as (S1 & S2 & S3).
  repeat split; try (apply agrees_of).
  - now apply add_mach.
  - now apply add_settled.
  - now apply sub_mach.
  - now apply sub_settled.
  - now apply mul_mach.
  - now apply mul_settled.
  - now apply div_mach.
  - exact S1.
  - now apply div_trunc_mach.
  - exact S2.
  - now apply rem_mach.
  - exact S3.
  - now apply cmp_mach.
Qed.

Lemma nan_unary_settled c x : stores_nan (be_varlen c) x -> forall k,
  settled (num_round c x k) /\ settled (num_trunc c x k) /\ settled (num_ceil c x) /\ settled (num_floor c x).
Proof.
  intros N k. rewrite N. unfold num_round, num_trunc, num_ceil, num_floor. rewrite nan_is_nan. cbn [bind]. rewrite nan_buf_spec. repeat split.
Qed.
Theorem unary_agrees c a x k : valid (be_varlen c) x ->
  agrees c (m_num_round c a x k) (some (num_round c x k)) /\
  agrees c (m_num_trunc c a x k) (some (num_trunc c x k)) /\
  agrees c (m_num_ceil c a x) (some (num_ceil c x)) /\
  agrees c (m_num_floor c a x) (some (num_floor c x)).
Proof.
  intro V. repeat split; apply agrees_of.
  - now apply round_mach.
  - apply (unary_settled c x (fun x => num_round c x k) V); [intro N; apply (nan_unary_settled c x N k)|].
    intros q s H. eauto using num_round_spec.
  - now apply trunc_mach.
  - unfold some. destruct V as [N|(q & s & H)].
    + destruct (nan_unary_settled c x N k) as (_ & S & _). destruct (num_trunc c x k); cbn in *; auto.
    + destruct (num_trunc_spec c x q s k H) as (y & E & _). rewrite E. exact I.
  - now apply ceil_mach.
  - apply (unary_settled c x (fun x => num_ceil c x) V); [intro N; apply (nan_unary_settled c x N k)|].
    intros q s H. eauto using num_ceil_spec.
  - now apply floor_mach.
  - apply (unary_settled c x (fun x => num_floor c x) V); [intro N; apply (nan_unary_settled c x N k)|].
    intros q s H. eauto using num_floor_spec.
Qed.

(** ** the values, straight from the machine-level code *)
Lemma agrees_ret c m x : agrees c m (Ret x) -> exists b, m = Ret b /\ shows c b x.
Proof. destruct m; cbn; try contradiction. intro H. now exists a. Qed.
Theorem values c a x y q1 s1 q2 s2 : stores (be_varlen c) x q1 s1 -> stores (be_varlen c) y q2 s2 ->
  (exists b o, m_checked_add c a x y = Ret b /\ shows c b o /\ result_of (be_varlen c) (q1 + q2) (Z.max s1 s2) o) /\
  (exists b o, m_checked_sub c a x y = Ret b /\ shows c b o /\ result_of (be_varlen c) (q1 - q2) (Z.max s1 s2) o) /\
  (s1 + s2 <= 16383 ->
   exists b o, m_checked_mul c a x y = Ret b /\ shows c b o /\ result_of (be_varlen c) (q1 * q2) (s1 + s2) o) /\
  (~ (q2 == 0)%Q ->
   (exists b o, m_checked_div_trunc c a x y = Ret b /\ shows c b o /\ result_of (be_varlen c) (inject_Z (trunc_int (q1 / q2))) 0 o) /\
   (exists b z, m_checked_rem c a x y = Ret b /\ shows c b (Some z) /\
      stores (be_varlen c) z (q1 - inject_Z (trunc_int (q1 / q2)) * q2) (Z.max s1 s2))) /\
  ((q2 == 0)%Q -> exists b, m_checked_div c a x y = Ret b /\ shows c b None).
Proof.
  intros H1 H2. assert (V1 : valid (be_varlen c) x) by (right; eauto). assert (V2 : valid (be_varlen c) y) by (right; eauto).
  destruct (binary_agrees c a x y V1 V2) as (A1 & A2 & A3 & A4 & A5 & A6 & _). split; [|split; [|split; [|split]]].
  - destruct (checked_add_spec c x y q1 s1 q2 s2 H1 H2) as (o & E & R). rewrite E in A1. destruct (agrees_ret _ _ _ A1) as (b & Eb & S). now exists b, o.
  - destruct (checked_sub_spec c x y q1 s1 q2 s2 H1 H2) as (o & E & R). rewrite E in A2. destruct (agrees_ret _ _ _ A2) as (b & Eb & S). now exists b, o.
  - intro L. destruct (checked_mul_spec c x y q1 s1 q2 s2 H1 H2 L) as (o & E & R). rewrite E in A3. destruct (agrees_ret _ _ _ A3) as (b & Eb & S). now exists b, o.
  - intro NZ. split.
    + destruct (checked_div_trunc_spec c x y q1 s1 q2 s2 H1 H2 NZ) as (o & E & R). rewrite E in A5. destruct (agrees_ret _ _ _ A5) as (b & Eb & S). now exists b, o.
    + destruct (checked_rem_spec c x y q1 s1 q2 s2 H1 H2 NZ) as (z & E & R). rewrite E in A6. destruct (agrees_ret _ _ _ A6) as (b & Eb & S). now exists b, z.
  - intro Z2. destruct (div_by_zero c x y q1 s1 q2 s2 H1 H2 Z2) as (E & _). rewrite E in A4. destruct (agrees_ret _ _ _ A4) as (b & Eb & S). now exists b.
Qed.
Theorem quotient c a n1 n2 : canonical n1 -> canonical n2 -> ~ (value n2 == 0)%Q ->
  exists b o, m_checked_div c a (layout (be_varlen c) n1) (layout (be_varlen c) n2) = Ret b /\ shows c b o /\
    result_of (be_varlen c) (round_at (value n1 / value n2) (div_scale n1 n2)) (div_scale n1 n2) o.
Proof.
  intros C1 C2 NZ. destruct (checked_div_numbers c n1 n2 C1 C2 NZ) as (o & E & R).
  pose proof (canonical_stores (be_varlen c) n1 C1) as H1. pose proof (canonical_stores (be_varlen c) n2 C2) as H2.
  destruct (binary_agrees c a (layout (be_varlen c) n1) (layout (be_varlen c) n2)) as (_ & _ & _ & A & _); [right; eauto|right; eauto|].
  rewrite E in A. destruct (agrees_ret _ _ _ A) as (b & Eb & S). now exists b, o.
Qed.
