(** * MachTextApi: what the machine-level parser, conversions and text output compute (C88). *)
From Coq Require Import ZArith QArith List Bool Lia.
From Verif Require Import Base Var Binary Format Parse Convert Num Data Spec SpecApi SpecText SpecData SpecMach Make Codec
  ParseApi FormatApi ConvertApi DataSim Mach MachSim MachApi MachText MachParse MachConv.
Import ListNotations.
Open Scope Z_scope.

Lemma machine_parse_values c a s : len s < 2 ^ 30 - 8 ->
  (forall t l, spaced s t -> literal_text t l -> in_range l ->
     exists b x, m_from_str c a s = Ret (inl b) /\ shows c (Some b) (Some x) /\
       stores (be_varlen c) x (literal_value l) (literal_scale l)) /\
  (forall b, m_from_str c a s = Ret (inl b) ->
     exists t x, spaced s t /\ shows c (Some b) (Some x) /\
       ((nan_text t /\ stores_nan (be_varlen c) x) \/
        exists l, literal_text t l /\ in_range l /\ stores (be_varlen c) x (literal_value l) (literal_scale l))).
Proof.
  intro L. pose proof (parse_mach c a s L) as P. split.
  - intros t l S T R. destruct (parse_complete c s t l S T R) as (x & E & St). rewrite E in P.
    destruct (m_from_str c a s) as [[b|e]| | |]; cbn in P; try contradiction. exists b, x. repeat split; auto.
  - intros b Eb. rewrite Eb in P. destruct (from_str c s) as [[x|e]| | |] eqn:E; cbn in P; try contradiction.
    destruct (parse_sound c s x L E) as (t & S & K). exists t, x. auto.
Qed.

Lemma machine_int_values c a bits : int_width bits ->
  (forall k, - 2 ^ (bits - 1) <= k < 2 ^ (bits - 1) ->
     exists b x, m_num_from_signed c a bits k = Ret b /\ shows c (Some b) (Some x) /\ stores (be_varlen c) x (inject_Z k) 0) /\
  (forall k, 0 <= k < 2 ^ bits ->
     exists b x, m_num_from_unsigned c a bits k = Ret b /\ shows c (Some b) (Some x) /\ stores (be_varlen c) x (inject_Z k) 0) /\
  (forall x q s, stores (be_varlen c) x q s ->
     m_num_to_signed c a bits x =
       Ret (if (- 2 ^ (bits - 1) <=? round_int q) && (round_int q <? 2 ^ (bits - 1)) then inl (round_int q) else inr COverflow) /\
     m_num_to_unsigned c a bits x =
       Ret (if (0 <=? round_int q) && (round_int q <? 2 ^ bits) then inl (round_int q) else inr COverflow) /\
     exists t, m_num_display c x = Ret t /\ plain_text t q s).
Proof.
  intro W. split; [|split].
  - intros k H. destruct (proj1 (conv_agrees c a bits k W) H) as (b & x & E & Ex & S).
    destruct (num_from_signed_spec c bits k W H) as (y & Ey & St). rewrite Ex in Ey. apply Ret_inj in Ey. subst y. exists b, x. auto.
  - intros k H. destruct (proj2 (conv_agrees c a bits k W) H) as (b & x & E & Ex & S).
    destruct (num_from_unsigned_spec c bits k W H) as (y & Ey & St). rewrite Ex in Ey. apply Ret_inj in Ey. subst y. exists b, x. auto.
  - intros x q s St. assert (V : valid (be_varlen c) x) by (right; exists q, s; exact St).
    destruct (read_agrees c a bits x V) as (D & I). destruct (I W) as (I1 & I2). rewrite I1, I2, D. split; [|split].
    + destruct (to_signed_iff c bits x q s (round_int q) W St) as (A & B & _).
      destruct (Z.leb_spec (- 2 ^ (bits - 1)) (round_int q)), (Z.ltb_spec (round_int q) (2 ^ (bits - 1))); cbn [andb];
        first [apply A; split; [reflexivity|lia]|apply B; lia].
    + destruct (to_unsigned_iff c bits x q s (round_int q) W St) as (A & B & _).
      destruct (Z.leb_spec 0 (round_int q)), (Z.ltb_spec (round_int q) (2 ^ bits)); cbn [andb];
        first [apply A; split; [reflexivity|lia]|apply B; lia].
    + exact (display_spec c x q s St).
Qed.

(** the scale chosen by {:e} *)
Lemma machine_sci_scale c x q s : stores (be_varlen c) x q s ->
  (p <- m_as_var c x ;; m_select_sci_scale c p) = (v <- as_var c x ;; select_sci_scale c v).
Proof.
  intro H. destruct (stores_elim _ _ _ _ H) as (v & C & -> & _ & _).
  rewrite (m_as_var_ok c v C), (as_var_spec c v (canon_storable v C)). cbn [bind].
  apply (select_sci_m c 40000); [lia|now apply borrow_m].
Qed.
