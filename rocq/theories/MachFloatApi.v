(** * MachFloatApi: MachFloat.v against Float.v. *)
From Coq Require Import ZArith QArith Qabs List Bool Lia.
From Verif Require Import Base Var Binary Typmod Format Parse Convert Num Data Spec SpecApi SpecText SpecDouble SpecData SpecMach Codec Strip Make Api1
  Flt Float FloatText FloatApi FloatTrip ParseApi DataSim DataBuf DataApi Mach MachSim MachApi MachText MachParse MachConv MachTextApi MachMut MachMutSim MachMutApi MachRest
  MachRestApi MachFloat.
Import ListNotations.
Open Scope Z_scope.

(** ** The C buffer *)
Definition no_nul (s : text) : Prop := Forall (fun b => b <> 0) s.
Lemma c_str_nul s rest : no_nul s -> c_str (s ++ 0 :: rest) = Ret s.
Proof.
  induction 1 as [|b t Hb Ht IH]; cbn [app c_str]; [reflexivity|]. destruct (Z.eqb_spec b 0) as [E|_]; [now destruct Hb|].
  rewrite IH. reflexivity.
Qed.
Lemma c_buf_len u : lenz (c_buf u) = BUF_SIZE.
Proof. unfold lenz, c_buf. rewrite map_length, seq_length. reflexivity. Qed.
Lemma c_snprintf_ok u s : exists rest, c_snprintf (c_buf u) BUF_SIZE s = Ret (firstn (Z.to_nat (BUF_SIZE - 1)) s ++ 0 :: rest).
Proof.
  unfold c_snprintf. rewrite c_buf_len. pose proof (firstn_le_length (Z.to_nat (BUF_SIZE - 1)) s) as L.
  destruct (Z.ltb_spec BUF_SIZE (lenz (firstn (Z.to_nat (BUF_SIZE - 1)) s ++ [0]))) as [H|_].
  - exfalso. unfold lenz in H. rewrite app_length in H. cbn [length] in H. unfold BUF_SIZE in *. lia.
  - eexists. rewrite <- app_assoc. reflexivity.
Qed.

(** a text that parses contains no NUL *)
Lemma digits_no_nul l : Forall digit_char l -> no_nul l.
Proof. apply Forall_impl. unfold digit_char. lia. Qed.
Lemma sign_no_nul s n : sign_text s n -> no_nul s.
Proof. destruct 1; repeat constructor; discriminate. Qed.
Lemma literal_no_nul t l : literal_text t l -> no_nul t.
Proof.
  destruct 1 as [sg m ex n ip fp e S M X]. apply Forall_app. split; [now apply (sign_no_nul sg n)|]. apply Forall_app. split.
  - destruct M as [ip _ H|ip fp _ H1 H2]; [now apply digits_no_nul|]. apply Forall_app. split; [now apply digits_no_nul|].
    constructor; [discriminate|now apply digits_no_nul].
  - destruct X as [|b sg' n' ds B S' _ H]; [constructor|]. constructor; [lia|]. apply Forall_app. split; [now apply (sign_no_nul sg' n')|now apply digits_no_nul].
Qed.
Lemma parse_no_nul c s x : len s < 2 ^ 30 - 8 -> from_str c s = Ret (inl x) -> no_nul s.
Proof.
  intros L E. destruct (parse_sound c s x L E) as (t & (pre & post & -> & B1 & B2) & K).
  assert (B : forall l, blank l -> no_nul l). { intros l. apply Forall_impl. unfold space_char. cbn. lia. }
  apply Forall_app. split; [now apply B|]. apply Forall_app. split; [|now apply B]. destruct K as [[(a & b & d & -> & H1 & H2 & H3) _]|(l & H & _)].
  - repeat constructor; lia.
  - now apply (literal_no_nul t l).
Qed.

Lemma from_float_b c a u pf p f x : from_floating c pf p (FNum f) = Ret (inl x) ->
  exists b, m_from_floating c a u pf p (FNum f) = Ret (inl b) /\ bufrel c b x.
Proof.
  unfold from_floating, m_from_floating. set (s := firstn (Z.to_nat (BUF_SIZE - 1)) (p_snprintf pf p f)). intro E.
  assert (L : len s < 2 ^ 30 - 8).
  { unfold len, s. pose proof (firstn_le_length (Z.to_nat (BUF_SIZE - 1)) (p_snprintf pf p f)) as L. unfold BUF_SIZE in *. lia. }
  destruct (from_str c s) as [[y|e]| | |] eqn:F; cbn [bind] in E; try discriminate E. apply Ret_inj in E. injection E as <-.
  destruct (c_snprintf_ok u (p_snprintf pf p f)) as (rest & W). rewrite W, ret_bind. fold s.
  rewrite (c_str_nul s rest (parse_no_nul c s y L F)), ret_bind.
  pose proof (parse_b c a s L) as P. rewrite F in P. unfold parsesb in P. destruct (m_from_str c a s) as [[b|e]| | |]; try contradiction.
  exists b. split; [reflexivity|exact P].
Qed.

Lemma from_float_mach c a u pf p f x : from_floating c pf p (FNum f) = Ret (inl x) ->
  exists b, m_from_floating c a u pf p (FNum f) = Ret (inl b) /\ shows c (Some b) (Some x).
Proof. intro E. destruct (from_float_b c a u pf p f x E) as (b & Eb & B). exists b. split; [exact Eb|exact (optrel_shows c (Some b) (Some x) B)]. Qed.

Theorem machine_from_float c a u pf p f : snprintf_sound (p_snprintf pf) -> p = 6 \/ p = 15 -> finite_in binary64 f ->
  exists b x r s, m_from_floating c a u pf p (FNum f) = Ret (inl b) /\ shows c (Some b) (Some x) /\ significant p f r /\
    stores (be_varlen c) x r s /\ least_scale r s.
Proof.
  intros S P F. destruct (from_float_spec c pf p f S P F) as (x & r & s & E & Sg & St & L).
  destruct (from_float_mach c a u pf p f x E) as (b & Eb & Sb). exists b, x, r, s. auto.
Qed.
Theorem machine_from_special c a u pf p :
  (exists b x, m_from_floating c a u pf p FNaN = Ret (inl b) /\ shows c (Some b) (Some x) /\ stores_nan (be_varlen c) x) /\
  (forall n, m_from_floating c a u pf p (FInf n) = Ret (inr CInvalid)).
Proof.
  split; [|reflexivity]. destruct (from_float_nan c pf p) as (x & E & S). unfold from_floating in E. unfold m_from_floating.
  pose proof (nan_m c (a 9%nat)) as N. destruct (nan_buf c) as [y| | |]; cbn [bind] in E; try discriminate E. apply Ret_inj in E. injection E as ->.
  destruct (m_nan_buf c (a 9%nat)) as [b| | |]; cbn [sim] in N; try contradiction; try discriminate N. exists b, x. split; [reflexivity|]. split; [|exact S].
  exact (optrel_shows c (Some b) (Some x) N).
Qed.

(** ** To floats *)
Lemma to_f64_m c pf v p : vok v -> mrep lim p v -> m_var_to_f64 c pf p = var_to_f64 c pf v.
Proof.
  intros V M. unfold m_var_to_f64, var_to_f64, m_nan, is_nan. rewrite (rp_sign p v (proj1 M)), (write_m c lim p v ltac:(unfold lim; lia) M). reflexivity.
Qed.
Lemma to_f32_m c pf v p : vok v -> mrep lim p v -> m_var_to_f32 c pf p = var_to_f32 c pf v.
Proof.
  intros V M. unfold m_var_to_f32, var_to_f32, m_nan, is_nan. rewrite (rp_sign p v (proj1 M)), (write_m c lim p v ltac:(unfold lim; lia) M). reflexivity.
Qed.
Theorem machine_to_float c pf x : valid (be_varlen c) x -> m_num_to_f64 c pf x = num_to_f64 c pf x /\ m_num_to_f32 c pf x = num_to_f32 c pf x.
Proof.
  unfold m_num_to_f64, num_to_f64, m_num_to_f32, num_to_f32. intros [H|(q & s & H)].
  - destruct (nan_as_var_m c x H) as (-> & ->). split; reflexivity.
  - destruct (stores_elim _ _ _ _ H) as (v & C & -> & _ & _).
    rewrite (m_as_var_ok c v C), (as_var_spec c v (canon_storable v C)), !ret_bind.
    split; [apply to_f64_m|apply to_f32_m]; try (now left); now apply borrow_lim.
Qed.
Theorem machine_buf_to_float c a (x : bytes) b h rs b' (z : bytes) pf : valid (be_varlen c) x -> m_num_to_owned c a x = Ret b ->
  Forall (fun e => Forall (valid (be_varlen c)) (operands (fst e))) h -> m_run c h (Some b) = (rs, Some b') ->
  m_as_bytes c b' = Ret z -> m_buf_to_f64 c pf b' = num_to_f64 c pf z /\ m_buf_to_f32 c pf b' = num_to_f32 c pf z.
Proof.
  intros V E U R Z. destruct (after c a x b h rs b' V E U R) as (z' & Z' & BR). rewrite Z in Z'. apply Ret_inj in Z'. subst z'.
  destruct (buf_reads c b' z BR) as (v & p & V' & O & M & A & _). unfold m_buf_to_f64, num_to_f64, m_buf_to_f32, num_to_f32.
  rewrite O, A, !ret_bind. split; [now apply to_f64_m|now apply to_f32_m].
Qed.
Theorem machine_f64_trip c a u pf x q s : snprintf_sound (p_snprintf pf) -> strtod_sound (p_strtod pf) ->
  stores (be_varlen c) x q s -> has_digits 15 q -> (q == 0)%Q \/ ((ten ^ (-307) <= Qabs q)%Q /\ (Qabs q < ten ^ 308)%Q) ->
  exists d b y s', m_num_to_f64 c pf x = Ret (inl d) /\ m_num_from_f64 c a u pf d = Ret (inl b) /\ shows c (Some b) (Some y) /\
    stores (be_varlen c) y q s' /\ least_scale q s'.
Proof.
  intros S1 S2 H D G. destruct (f64_trip c pf x q s S1 S2 H D G) as (d & y & s' & E1 & E2 & St & L).
  assert (V : valid (be_varlen c) x) by (right; now exists q, s). destruct (machine_to_float c pf x V) as [T _]. rewrite T.
  unfold num_from_f64 in E2. destruct (to_f64_spec c pf x q s S2 H) as (d' & Ed & _ & R). rewrite E1 in Ed. apply Ret_inj in Ed. injection Ed as <-.
  destruct d; try contradiction R; try discriminate E2.
  match type of E2 with from_floating _ _ _ (FNum ?f) = _ => destruct (from_float_mach c a u pf 15 f y E2) as (b & Eb & Sb); exists (FNum f), b, y, s' end. auto.
Qed.
Theorem machine_f32_trip c a u pf x q s : snprintf_sound (p_snprintf pf) -> strtod_sound (p_strtod pf) ->
  stores (be_varlen c) x q s -> has_digits 6 q -> (q == 0)%Q \/ ((ten ^ (-37) <= Qabs q)%Q /\ (Qabs q < ten ^ 38)%Q) ->
  exists d b y s', m_num_to_f32 c pf x = Ret (inl d) /\ m_num_from_f32 c a u pf d = Ret (inl b) /\ shows c (Some b) (Some y) /\
    stores (be_varlen c) y q s' /\ least_scale q s'.
Proof.
  intros S1 S2 H D G. destruct (f32_trip c pf x q s S1 S2 H D G) as (d & y & s' & E1 & E2 & St & L).
  assert (V : valid (be_varlen c) x) by (right; now exists q, s). destruct (machine_to_float c pf x V) as [_ T]. rewrite T.
  unfold num_from_f32 in E2. destruct d as [|n|f].
  - exfalso. destruct (from_float_nan c pf 6) as (z & Ez & Sz). rewrite E2 in Ez. apply Ret_inj in Ez. injection Ez as <-.
    exact (stores_not_nan _ _ _ _ St Sz).
  - discriminate E2.
  - destruct (from_float_mach c a u pf 6 f y E2) as (b & Eb & Sb). exists (FNum f), b, y, s'. auto.
Qed.
