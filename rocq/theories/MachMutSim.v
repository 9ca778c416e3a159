(** * MachMutSim: operations on an owned NumericBuf, machine level against the byte-level model. *)
From Coq Require Import ZArith QArith Qabs List Bool Lia.
From Verif Require Import Base Var Binary Typmod Format Parse Convert Num Data Spec SpecApi SpecData SpecMach QDec Digits Strip Round Trunc Signed AddSub CeilFloor Arith Codec Make DivQ Api1 Api2 Api3 Laws Laws2 DataSim DataBuf DataApi Mach MachSim MachAdd MachMul MachDiv MachApi MachMut.
Import ListNotations.
Open Scope Z_scope.

Definition cowlen (p : pvar) : Z := match p_cow p with Borrowed l => lenz l + 5 | Owned d => lenz (words d) end.

Lemma round_len c a p v rs q : rep p v -> p_round_common c a p rs = Ret q -> cowlen q <= Z.max (cowlen p) (ndigits v + 5).
Proof.
  intros R E. unfold p_round_common in E.
  apply bind_ret in E. destruct E as (_ & _ & E). change DEC_DIGITS with 4 in E.
  set (di := (p_weight p + 1) * 4 + rs) in E. destruct (di <? 0) eqn:Edi.
  { apply Ret_inj in E. rewrite <- E. unfold cowlen. cbn [p_cow]. lia. }
  set (nd := Z.quot (di + 4 - 1) 4) in E.
  destruct ((nd <? p_nd p) || ((nd =? p_nd p) && (0 <? Z.rem di 4))) eqn:Cnd.
  2: { apply Ret_inj in E. rewrite <- E. unfold cowlen. cbn [p_cow]. lia. }
  apply bind_ret in E. destruct E as (d0 & E0 & E).
  pose proof (own_len c a _ _ E0) as L0. fold (cowlen p) in L0.
  destruct (own_ok c a p v R) as (d0' & E0' & O0 & A0). rewrite E0 in E0'. injection E0' as <-.
  pose proof (rp_nd p v R) as PN.
  apply bind_ret in E. destruct E as (d & Ed & E).
  assert (L : lenz (words d) <= Z.max (cowlen p) (ndigits v + 5)).
  { destruct (Z.ltb_spec 0 (p_nd p)) as [P|P]; [|apply Ret_inj in Ed; subst; lia].
    unfold ndigits in PN. rewrite PN in Ed, P. pose proof (reserve_len c a d0 (digits v) d Ed P A0). unfold ndigits. lia. }
  apply bind_ret in E. destruct E as (_ & _ & E).
  apply bind_ret in E. destruct E as (ds & _ & E).
  apply bind_ret in E. destruct E as ([[nd' carry] w] & E1 & E).
  assert (LW : lenz w = lenz (words d)).
  { destruct (Z.rem di 4 =? 0).
    - apply bind_ret in E1. destruct E1 as (? & _ & E1). apply Ret_inj in E1. injection E1 as _ _ <-. reflexivity.
    - apply bind_ret in E1. destruct E1 as (? & _ & E1). apply bind_ret in E1. destruct E1 as (_ & _ & E1).
      apply bind_ret in E1. destruct E1 as (? & _ & E1). apply bind_ret in E1. destruct E1 as (? & _ & E1).
      apply bind_ret in E1. destruct E1 as (w1 & S1 & E1). apply set_unchecked_len in S1.
      destruct (_ <=? _); [|apply Ret_inj in E1; injection E1 as _ _ <-; exact S1].
      apply bind_ret in E1. destruct E1 as (? & _ & E1).
      destruct (_ <=? _); apply bind_ret in E1; destruct E1 as (w2 & S2 & E1); apply set_unchecked_len in S2;
        apply Ret_inj in E1; injection E1 as _ _ <-; lia. }
  apply bind_ret in E. destruct E as (_ & _ & E).
  apply bind_ret in E. destruct E as (w1 & S1 & E). apply set_checked_len in S1.
  apply bind_ret in E. destruct E as ([w2 nd2] & S2 & E). apply carry_loop_len in S2.
  destruct (nd2 <? 0).
  - apply bind_ret in E. destruct E as (_ & _ & E). apply bind_ret in E. destruct E as (_ & _ & E).
    apply bind_ret in E. destruct E as (_ & _ & E). apply Ret_inj in E. rewrite <- E. unfold cowlen. cbn [p_cow words]. fold (cowlen p). lia.
  - apply Ret_inj in E. rewrite <- E. unfold cowlen. cbn [p_cow words]. fold (cowlen p). lia.
Qed.
Lemma trunc_len c a p rs q : p_trunc_common c a p rs = Ret q -> cowlen q <= cowlen p.
Proof.
  intro E. unfold p_trunc_common in E.
  apply bind_ret in E. destruct E as (_ & _ & E). destruct (_ <=? 0).
  { apply Ret_inj in E. rewrite <- E. unfold cowlen. cbn [p_cow]. lia. }
  destruct (_ <=? _).
  2: { apply Ret_inj in E. rewrite <- E. unfold cowlen. cbn [p_cow]. lia. }
  destruct (0 <? _).
  2: { apply Ret_inj in E. rewrite <- E. unfold cowlen. cbn [p_cow]. lia. }
  apply bind_ret in E. destruct E as (d0 & E0 & E). pose proof (own_len c a _ _ E0) as L0. fold (cowlen p) in L0.
  do 4 (apply bind_ret in E; destruct E as (? & _ & E)).
  apply bind_ret in E. destruct E as (w & S1 & E). apply set_checked_len in S1.
  apply Ret_inj in E. rewrite <- E. unfold cowlen. cbn [p_cow words]. fold (cowlen p). lia.
Qed.

(** ** the buffer *)
Definition brel (c : cfg) (b : pbuf) (x : bytes) : Prop := DataApi.bufrel c b x /\ lenz (b_words b) <= lim.
Definition orelb (c : cfg) (b : option pbuf) (x : nbuf) : Prop :=
  match b, x with Some b, Some x => brel c b x | None, None => True | _, _ => False end.

Lemma b_len_ok b : lenz (b_words b) <= lim -> b_len b = 2 * lenz (b_words b).
Proof.
  unfold lim, b_len. intro L. pose proof (lenz_nonneg (b_words b)). change NUMERIC_DIGIT_SIZE with 2. rewrite as_u32_ok; lia.
Qed.
Lemma decode_nonneg c b0 b1 b2 b3 : 0 <= decode_len c b0 b1 b2 b3.
Proof. unfold decode_len. destruct (be_varlen c); apply Z.land_nonneg; right; lia. Qed.
Lemma read_len_nonneg c x l : read_len c x = Ret l -> 0 <= l.
Proof.
  unfold read_len. intro E. do 4 (apply bind_ret in E; destruct E as (? & _ & E)). apply Ret_inj in E. rewrite <- E. apply decode_nonneg.
Qed.
Lemma m_bytes c b x : brel c b x -> m_as_bytes c b = Ret x.
Proof.
  intros [BR L]. pose proof (DataApi.bufrel_bytes c b x BR) as E. unfold m_as_bytes. unfold as_bytes in E.
  destruct ((b_off b <? 0) || (2 * lenz (b_words b) <? b_off b)) eqn:G; [discriminate|].
  apply orb_false_iff in G. destruct G as [G1 G2]. apply Z.ltb_ge in G1, G2. cbn zeta in *.
  destruct (read_len c (skipn (Z.to_nat (b_off b)) (flat_map le16 (b_words b)))) as [l| | |] eqn:RL; cbn [bind] in E |- *; try discriminate.
  pose proof (read_len_nonneg _ _ _ RL). destruct (dbg c) eqn:Dc; [|unfold dassert in E; rewrite Dc in E; exact E].
  apply bind_ret in E. destruct E as (u & DA & E). unfold dassert in DA. rewrite Dc in DA.
  destruct (l + b_off b <=? 2 * lenz (b_words b)) eqn:Q; [|discriminate]. apply Z.leb_le in Q. unfold lim in L.
  rewrite u32_ok by lia. cbn [bind]. rewrite b_len_ok by exact L. rewrite dassert_ok by (apply Z.leb_le; lia). cbn [bind]. exact E.
Qed.

Lemma vok_bound v : vok v -> -32768 <= weight v <= 32767 /\ 0 <= dscale v <= 16383 /\ 0 <= ndigits v <= 40000.
Proof.
  intros [C| ->]; [|cbn; lia]. pose proof (cn_weight v C). pose proof (cn_scale v C). pose proof (canon_len v C). lia.
Qed.
Lemma owned_m c b x : brel c b x -> exists v p, vok v /\ encode c v = Ret x /\ m_owned c b = Ret p /\ mrep lim p v /\ cowlen p <= lim.
Proof.
  intros BR. pose proof (m_bytes c b x BR) as MB. destruct BR as [BR L]. pose proof (DataApi.bufrel_bytes c b x BR) as Ab.
  destruct BR as (v & V & H & E). pose proof H as H0.
  destruct H as (G & pre & hw & post & W & O & B & En). rewrite E in En. injection En as Ex2.
  pose proof (good_reads c v _ G E) as (R & A & _ & _ & _ & _ & h & E1 & E2 & E3 & E4 & E5).
  assert (Lx2 : lenz x = 2 * lenz hw + 2 * lenz (digits v)) by (rewrite Ex2, lenz_app, !lenz_flat16; reflexivity).
  unfold ndigits in E4.
  assert (Hh : header_size h = 2 * lenz hw) by lia.
  assert (H6 : 6 <= header_size h) by (unfold header_size; destruct (header_is_short h); vm_compute; discriminate).
  pose proof (lenz_nonneg pre). pose proof (lenz_nonneg hw). pose proof (lenz_nonneg (digits v)). pose proof (lenz_nonneg post).
  assert (LW : lenz (b_words b) = lenz pre + lenz hw + lenz (digits v) + lenz post) by (rewrite W, !lenz_app; lia).
  exists v. unfold m_owned. rewrite (b_len_ok b L). rewrite dassert_ok by (apply Z.ltb_lt; lia). cbn [bind].
  rewrite MB. cbn [bind]. rewrite A. cbn [bind]. rewrite E1. cbn [bind]. cbn zeta.
  change NUMERIC_DIGIT_SIZE with 2. unfold lim in L. rewrite O, Hh. rewrite u32_ok by lia. cbn [bind].
  replace (2 * lenz pre + 2 * lenz hw) with ((lenz pre + lenz hw) * 2) by lia. rewrite Z.quot_mul by lia.
  replace (2 * lenz (b_words b)) with (lenz (b_words b) * 2) by lia. rewrite Z.quot_mul by lia.
  rewrite dassert_ok by (apply Z.leb_le; lia). cbn [bind]. rewrite R. cbn [bind].
  rewrite <- Hh. rewrite E4. rewrite (ndigits_of_ok c (header_size h) (lenz (digits v))) by lia. cbn [bind].
  assert (Wt : (if header_is_short h then Ret (weight_short h) else w <- read_u16 x 6 ;; Ret (as_i16 w)) = Ret (weight v)).
  { destruct (header_is_short h); [now rewrite E5|]. destruct E5 as (w & -> & <-). reflexivity. }
  rewrite Wt. cbn [bind].
  assert (Db : (if dbg c then e <- u32 c (lenz pre + lenz hw + as_u32 (lenz (digits v))) ;; dassert c (e <=? lenz (b_words b)) else Ret tt) = Ret tt).
  { destruct (dbg c); [|reflexivity]. rewrite as_u32_ok by lia. rewrite u32_ok by lia. cbn [bind].
    apply dassert_ok. apply Z.leb_le. lia. }
  rewrite Db. cbn [bind]. eexists. split; [exact V|]. split; [exact E|]. split; [reflexivity|].
  assert (RP : rep (PVar (lenz (digits v)) (weight v) (header_dscale h) (header_sign h) (Owned (Data (b_words b) (lenz pre + lenz hw)))) v).
  { constructor; cbn [p_nd p_weight p_dscale p_sign p_cow]; auto.
    split; [exact B|]. exists (pre ++ hw), post. cbn [words off]. split; [now rewrite W, <- app_assoc|]. now rewrite lenz_app. }
  split; [|unfold cowlen; cbn [p_cow words]; unfold lim; lia].
  split; [exact RP|]. destruct (vok_bound v V) as (B1 & B2 & B3).
  pose proof (rp_dscale _ _ RP) as RD. cbn [p_dscale] in RD. unfold lim.
  split; cbn [p_nd p_weight p_dscale p_cow words]; lia.
Qed.

Lemma sim_brel c (x : outcome pbuf) y : sim (DataApi.bufrel c) x y -> (forall b, x = Ret b -> lenz (b_words b) <= lim) -> sim (brel c) x y.
Proof. destruct x as [b| | |], y; cbn; auto. intros H K. split; [exact H|]. now apply K. Qed.
Lemma sim_orelb c (x : outcome (option pbuf)) y :
  sim (DataApi.optrel c) x y -> (forall b, x = Ret (Some b) -> lenz (b_words b) <= lim) -> sim (orelb c) x y.
Proof.
  destruct x as [[b|]| | |], y as [[z|]| | |]; cbn; auto. intros H K. split; [exact H|]. now apply K.
Qed.
Definition moverelb {A} (c : cfg) (x : outcome A * option pbuf) (y : outcome A * nbuf) : Prop :=
  fst x = fst y /\ orelb c (snd x) (snd y).
Definition pairrelb {A} (c : cfg) (x : A * option pbuf) (y : A * nbuf) : Prop :=
  fst x = fst y /\ orelb c (snd x) (snd y).
Lemma stored_relb {A} c (x : outcome (A * option pbuf)) (y : outcome (A * nbuf)) :
  sim (pairrelb c) x y -> moverelb c (p_stored x) (stored y).
Proof.
  destruct x as [[u b]| | |], y as [[u2 z]| | |]; cbn [sim]; try contradiction; intro H.
  - destruct H as [H1 H2]. cbn in *. subst. now split.
  - subst. now split.
  - now split.
  - now split.
Qed.

Lemma mrep_nan c p v : rep p v -> dassert c (negb (m_nan p)) = dassert c (negb (is_nan v)).
Proof. intro R. unfold m_nan, is_nan. now rewrite (rp_sign p v R). Qed.

(** what is left in the buffer by [into_numeric_buf] and [make_result] *)
Lemma into_buf_m c a B p v : 0 <= B <= 1000000000 -> mrep B p v -> vok v -> cowlen p <= lim ->
  sim (brel c) (m_into_buf c a p) (encode c v).
Proof.
  intros LB M V L. apply sim_brel.
  - rewrite (m_into_buf_eq c a B p v LB M). apply encode_sim; [exact V|exact (proj1 M)].
  - intros b E. unfold cowlen in L. destruct (p_cow p) as [l|d] eqn:K.
    + assert (M' : mrep (Z.max (lenz l) 40000) p v).
      { destruct M as [R F]. split; [exact R|]. destruct (vok_bound v V) as (B1 & B2 & B3).
        split; rewrite ?(rp_nd p v R), ?(rp_weight p v R), ?(rp_dscale p v R), ?K; try lia. }
      pose proof (lenz_nonneg l). unfold lim in *.
      pose proof (into_buf_len c a (Z.max (lenz l) 40000) p v b ltac:(lia) M' E). lia.
    + pose proof (into_buf_owned_len c a B p v d b LB M K E). lia.
Qed.
Lemma make_b c a B p v : 0 <= B <= 30000000 -> mrep B p v -> fine v -> cowlen p <= lim ->
  sim (orelb c) (m_make_result c a p) (make_result c v).
Proof.
  intros LB M F L. apply sim_orelb; [exact (make_m0 c a B p v LB M F)|].
  intros b E. pose proof (make_len c a B p v b LB M E) as H. fold (cowlen p) in H. lia.
Qed.
Lemma make_no_b c a B p v : 0 <= B <= 30000000 -> mrep B p v -> fine v -> weight v <= 32767 -> dscale v <= 16383 -> cowlen p <= lim ->
  sim (brel c) (m_make_no_overflow c a p) (make_result_no_overflow c v).
Proof.
  intros LB M F W S L. apply sim_brel; [exact (make_no_m0 c a B p v LB M F W S)|].
  intros b E. pose proof (make_no_len c a B p v b LB M E) as H. fold (cowlen p) in H. lia.
Qed.

(** ** rounding an owned variable *)
Lemma round_b c a p v rs : vok v -> -65536 <= rs <= 65536 -> mrep lim p v -> cowlen p <= lim ->
  sim (fun q r => mrep (lim + 10) q r /\ cowlen q <= lim) (m_round_common c a p rs) (round_common c v rs).
Proof.
  intros V S M L. pose proof (round_m c a lim p v rs ltac:(unfold lim; lia) ltac:(unfold lim; lia) M) as H.
  pose proof (m_round_eq c a lim p v rs ltac:(unfold lim; lia) ltac:(unfold lim; lia) M) as EQ.
  destruct (vok_bound v V) as (_ & _ & B3).
  destruct (m_round_common c a p rs) as [q| | |], (round_common c v rs) as [r| | |]; cbn [sim] in *; auto.
  split; [exact H|]. pose proof (round_len c a p v rs q (proj1 M) (eq_sym EQ)). unfold lim in *. lia.
Qed.
Lemma trunc_b c a p v rs : -65536 <= rs <= 65536 -> mrep lim p v -> cowlen p <= lim ->
  sim (fun q r => mrep (lim + 10) q r /\ cowlen q <= lim) (m_trunc_common c a p rs) (trunc_common c v rs).
Proof.
  intros S M L. pose proof (trunc_m c a lim p v rs ltac:(unfold lim; lia) ltac:(unfold lim; lia) M) as H.
  pose proof (m_trunc_eq c a lim p v rs ltac:(unfold lim; lia) ltac:(unfold lim; lia) M) as EQ.
  destruct (m_trunc_common c a p rs) as [q| | |], (trunc_common c v rs) as [r| | |]; cbn [sim] in *; auto.
  split; [exact H|]. pose proof (trunc_len c a p rs q (eq_sym EQ)). unfold lim in *. lia.
Qed.
Lemma cowlen_set_dscale s p : cowlen (p_set_dscale s p) = cowlen p.
Proof. reflexivity. Qed.
Lemma m_clamp_bound k : -1000 <= m_clamp k <= 1000.
Proof. unfold m_clamp. change NUMERIC_MAX_DISPLAY_SCALE with 1000. lia. Qed.
Lemma round_var_b c a p v k : vok v -> mrep lim p v -> cowlen p <= lim ->
  sim (fun q r => mrep (lim + 10) q r /\ cowlen q <= lim) (m_round c a p k) (round_var c v k).
Proof.
  intros V M L. unfold m_round, round_var. rewrite (mrep_nan c p v (proj1 M)). apply sim_same. intros _ _. cbn zeta. fold (m_clamp k).
  pose proof (m_clamp_bound k).
  eapply sim_bind; [apply round_b; auto; lia|]. intros q r [H1 H2]. cbn [sim].
  destruct (m_clamp k <? 0); [|now split]. split; [apply mrep_set_dscale; [unfold lim; lia|exact H1]|]. now rewrite cowlen_set_dscale.
Qed.
Lemma trunc_var_b c a p v k : vok v -> mrep lim p v -> cowlen p <= lim ->
  sim (fun q r => mrep (lim + 10) q r /\ cowlen q <= lim) (m_trunc c a p k) (trunc_var c v k).
Proof.
  intros V M L. unfold m_trunc, trunc_var. rewrite (mrep_nan c p v (proj1 M)). apply sim_same. intros _ _. cbn zeta. fold (m_clamp k).
  pose proof (m_clamp_bound k).
  eapply sim_bind; [apply trunc_b; auto; lia|]. intros q r [H1 H2]. cbn [sim].
  destruct (m_clamp k <? 0); [|now split]. split; [apply mrep_set_dscale; [unfold lim; lia|exact H1]|]. now rewrite cowlen_set_dscale.
Qed.

(** ** type modifiers *)
Lemma scan_ok c ds : forall d m, -1000000000 <= d - 4 * lenz ds -> d <= 1000000000 -> m_typmod_scan c ds d m = Ret (typmod_scan ds d m).
Proof.
  induction ds as [|x t IH]; intros d m H1 H2; [reflexivity|]. cbn [m_typmod_scan typmod_scan]. rewrite lenz_cons in H1.
  pose proof (lenz_nonneg t). change DEC_DIGITS with 4.
  destruct (x =? 0).
  - rewrite i32_ok by lia. cbn [bind]. apply IH; lia.
  - destruct (x <? 10); [rewrite i32_ok by lia; reflexivity|]. destruct (x <? 100); [rewrite i32_ok by lia; reflexivity|].
    destruct (x <? 1000); [rewrite i32_ok by lia; reflexivity|reflexivity].
Qed.
Lemma typmod_b c a p v t : vok v -> mrep lim p v -> cowlen p <= lim ->
  sim (fun q r => (fst q = fst r /\ mrep (lim + 10) (snd q) (snd r) /\ cowlen (snd q) <= lim) /\ fine (snd r))
    (m_apply_typmod_var c a p t) (apply_typmod_var c v t).
Proof.
  intros V M L.
  assert (F : forall b r, apply_typmod_var c v t = Ret (b, r) -> fine r) by (intros b r; now apply typmod_fine).
  apply sim_spec; [|intros [b r] E; exact (F b r E)].
  unfold m_apply_typmod_var, apply_typmod_var. destruct (t <? VAR_HEADER_SIZE).
  { cbn [sim fst snd]. split; [reflexivity|]. split; [|exact L]. apply (mrep_mono lim); [lia|exact M]. }
  apply sim_same. intros [pr sc] T. cbn zeta.
  assert (PS : 0 <= pr < 65536 /\ 0 <= sc < 65536).
  { unfold typmod_extract in T. destruct (i32 c (t - VAR_HEADER_SIZE)); try discriminate T. cbn [bind] in T.
    apply Ret_inj in T. injection T as <- <-. split; apply land16_bound. }
  rewrite i32_ok by lia. cbn [bind].
  eapply sim_bind; [apply round_b; auto; lia|]. intros q r [H1 H2]. pose proof H1 as [R [Q1 Q2 Q3 Q4]].
  pose proof (rp_weight q r R) as RW. pose proof (rp_nd q r R) as RN. unfold lim in Q1, Q2.
  rewrite i32_ok by lia. cbn [bind]. change DEC_DIGITS with 4. rewrite i32_ok by lia. cbn [bind]. rewrite RW.
  destruct (_ <? _).
  - rewrite (m_digits_ok c (lim + 10) q r ltac:(unfold lim, big; lia) H1). cbn [bind]. unfold ndigits in RN.
    rewrite scan_ok by lia. cbn [bind sim fst snd]. auto.
  - cbn [sim fst snd]. auto.
Qed.
