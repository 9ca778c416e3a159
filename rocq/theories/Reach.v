(** * Reach: every numeric any sequence of calls can produce is canonical (C03). *)
From Coq Require Import ZArith QArith Qabs Qround List Bool Lia Lqa.
From Verif Require Import Base Var Binary Format Parse Typmod Convert Num Flt Transc Float Spec SpecApi SpecText SpecLn SpecDouble QDec Digits Arith Strip Codec Make
  Api1 Api2 Api3 Api4 Laws Laws2 Mut ParseApi ConvertApi Factorial FormatApi SqrtConv LogApi ExpApi LnApi LogFin Closure.
Import ListNotations.
Open Scope Z_scope.

(** A [Typmod] obtained from its safe constructors. *)
Definition typmod_value (c : cfg) (t : Z) : Prop :=
  t = typmod_default \/ (exists p s, typmod_new c p s = Ret (Some t)) \/ (exists p, typmod_with_precision c p = Ret (Some t)).

(** Not within 10^-1980 of one, unless it is one. *)
Definition away_from_one (be : bool) (x : bytes) : Prop :=
  forall q s, stores be x q s -> (q == 1)%Q \/ (ten ^ (-1980) <= Qabs (q - 1))%Q.

(** The numerics some finite sequence of API calls produces, in build [c], on a platform with libm [m]
    and C library [pf]. *)
Inductive reachable (c : cfg) (m : libm) (pf : platform) : bytes -> Prop :=
(* constructors *)
| r_nan x : nan_buf c = Ret x -> reachable c m pf x
| r_zero x : zero_buf c = Ret x -> reachable c m pf x
| r_static_nan : reachable c m pf (numeric_nan c)
| r_static_zero : reachable c m pf (numeric_zero c)
| r_parse s x : len s < 2 ^ 30 - 8 -> from_str c s = Ret (inl x) -> reachable c m pf x
| r_signed bits k x : int_width bits -> - 2 ^ (bits - 1) <= k < 2 ^ (bits - 1) ->
    num_from_signed c bits k = Ret x -> reachable c m pf x
| r_unsigned bits k x : int_width bits -> 0 <= k < 2 ^ bits -> num_from_unsigned c bits k = Ret x -> reachable c m pf x
| r_bool b x : num_from_bool c b = Ret x -> reachable c m pf x
| r_factorial n x : num_factorial c n = Ret (Some x) -> reachable c m pf x
(* pure operations *)
| r_checked f x y z :
    In f [checked_add; checked_sub; checked_mul; checked_div; checked_div_trunc; checked_rem] ->
    reachable c m pf x -> reachable c m pf y -> f c x y = Ret (Some z) -> reachable c m pf z
| r_operator f x y z :
    In f [op_add; op_sub; op_mul; op_div; op_rem] ->
    reachable c m pf x -> reachable c m pf y -> f c x y = Ret z -> reachable c m pf z
| r_unary f x z :
    In f [num_negate; num_abs; num_signum; num_inc; num_ceil; num_floor; num_to_owned; num_clone; op_neg_owned] ->
    reachable c m pf x -> f c x = Ret z -> reachable c m pf z
| r_scaled f x k z : In f [num_round; num_trunc] -> reachable c m pf x -> f c x k = Ret z -> reachable c m pf z
(* operations in place: whatever they leave in the buffer, even when they panic *)
| r_mut f x r z : In f [negate_mut; abs_mut] -> reachable c m pf x -> f c (Some x) = (r, Some z) -> reachable c m pf z
| r_mut_scaled f x k r z : In f [round_mut; trunc_mut] -> reachable c m pf x -> f c (Some x) k = (r, Some z) -> reachable c m pf z
| r_assign f x y r z : In f [op_add; op_sub; op_mul; op_div; op_rem] -> reachable c m pf x -> reachable c m pf y ->
    op_assign f c (Some x) y = (r, Some z) -> reachable c m pf z
| r_typmod x t r z : reachable c m pf x -> typmod_value c t -> apply_typmod c (Some x) t = (r, Some z) -> reachable c m pf z
(* serialization *)
| r_serde x t z : reachable c m pf x -> serialize_text c x = Ret t ->
    deserialize_text c t = Ret (inl z) -> reachable c m pf z
| r_serde_bytes x z : reachable c m pf x -> deserialize_bytes c (serialize_bytes x) = Ret z -> reachable c m pf z
(* floating point *)
| r_float f v x : In f [num_from_f32; num_from_f64] -> f c pf v = Ret (inl x) -> reachable c m pf x
(* approximate operations, however long they run *)
| r_sqrt fuel x z : reachable c m pf x -> num_sqrt c fuel x = Ret z -> reachable c m pf z
| r_ln fuel x z : reachable c m pf x -> num_ln c m fuel x = Ret z -> reachable c m pf z
| r_log fuel x b z : reachable c m pf x -> reachable c m pf b ->
    away_from_one (be_varlen c) b -> num_log c m fuel x b = Ret z -> reachable c m pf z
| r_log_const f fuel x z : In f [num_log2; num_log10] -> reachable c m pf x ->
    f c m fuel x = Ret z -> reachable c m pf z
| r_exp fuel x z : reachable c m pf x -> num_exp c m fuel x = Ret (Some z) -> reachable c m pf z
| r_pow fuel x e z : reachable c m pf x -> reachable c m pf e -> num_pow c m fuel x e = Ret (Some z) -> reachable c m pf z.

Lemma result_valid be q s o z : result_of be q s o -> o = Some z -> valid be z.
Proof. intros R ->. apply (stores_valid be z q s). now apply result_of_some. Qed.

Lemma checked_valid c x y z f :
  In f [checked_add; checked_sub; checked_mul; checked_div; checked_div_trunc; checked_rem] ->
  valid (be_varlen c) x -> valid (be_varlen c) y -> f c x y = Ret (Some z) -> valid (be_varlen c) z.
Proof.
  intros I Vx Vy E. destruct (valid2_cases _ x y Vx Vy) as [N|(q1 & s1 & q2 & s2 & S1 & S2)].
  - pose proof (nan_arith c x y Vx Vy N) as (A1 & A2 & A3 & A4 & A5 & A6 & _).
    destruct I as [<-|[<-|[<-|[<-|[<-|[<-|[]]]]]]]; left; unfold stores_nan; congruence.
  - destruct I as [<-|[<-|[<-|[<-|[<-|[<-|[]]]]]]].
    + destruct (checked_add_spec c x y _ _ _ _ S1 S2) as (o & E' & R). rewrite E in E'. injection E' as <-. exact (result_valid _ _ _ _ _ R eq_refl).
    + destruct (checked_sub_spec c x y _ _ _ _ S1 S2) as (o & E' & R). rewrite E in E'. injection E' as <-. exact (result_valid _ _ _ _ _ R eq_refl).
    + destruct (Z_le_dec (s1 + s2) 16383) as [L|L].
      * destruct (checked_mul_spec c x y _ _ _ _ S1 S2 L) as (o & E' & R). rewrite E in E'. injection E' as <-. exact (result_valid _ _ _ _ _ R eq_refl).
      * exfalso. destruct (checked_mul_scale c x y _ _ _ _ S1 S2 ltac:(lia)) as [A B].
        destruct (Qeq_dec q1 0) as [Z1|Z1]; [rewrite B in E by auto; destruct (dbg c); discriminate|].
        destruct (Qeq_dec q2 0) as [Z2|Z2]; [rewrite B in E by auto; destruct (dbg c); discriminate|].
        rewrite A in E by assumption. discriminate.
    + destruct (Qeq_dec q2 0) as [Z|Z]; [pose proof (div_by_zero c x y _ _ _ _ S1 S2 Z) as (E1 & E2 & E3 & _); congruence|].
      destruct (checked_div_spec c x y _ _ _ _ S1 S2 Z) as (v1 & v2 & o & H1 & H2 & H3 & H4 & E' & R). rewrite E in E'. injection E' as <-.
      exact (result_valid _ _ _ _ _ R eq_refl).
    + destruct (Qeq_dec q2 0) as [Z|Z]; [pose proof (div_by_zero c x y _ _ _ _ S1 S2 Z) as (E1 & E2 & E3 & _); congruence|].
      destruct (checked_div_trunc_spec c x y _ _ _ _ S1 S2 Z) as (o & E' & R). rewrite E in E'. injection E' as <-.
      exact (result_valid _ _ _ _ _ R eq_refl).
    + destruct (Qeq_dec q2 0) as [Z|Z]; [pose proof (div_by_zero c x y _ _ _ _ S1 S2 Z) as (E1 & E2 & E3 & _); congruence|].
      destruct (checked_rem_spec c x y _ _ _ _ S1 S2 Z) as (z' & E' & R). rewrite E in E'. injection E' as <-.
      exact (stores_valid _ _ _ _ R).
Qed.

Lemma operator_valid c x y z f : In f [op_add; op_sub; op_mul; op_div; op_rem] ->
  valid (be_varlen c) x -> valid (be_varlen c) y -> f c x y = Ret z -> valid (be_varlen c) z.
Proof.
  intros I Vx Vy E. pose proof (op_checked_valid c x y Vx Vy) as (A1 & _ & A2 & _ & A3 & _ & A4 & _ & A5 & _).
  destruct I as [<-|[<-|[<-|[<-|[<-|[]]]]]]; [apply A1 in E|apply A2 in E|apply A3 in E|apply A4 in E|apply A5 in E];
    (eapply checked_valid; [|exact Vx|exact Vy|exact E]); cbn; tauto.
Qed.

Lemma rop_valid be q s r z : result_or_panic be q s r -> r = Ret z -> valid be z.
Proof.
  intros [A B] E. destruct (Qlt_le_dec (Qabs q) limit) as [L|L].
  - destruct (A L) as (x & E' & S). rewrite E in E'. injection E' as <-. exact (stores_valid _ _ _ _ S).
  - rewrite (B L) in E. discriminate.
Qed.

Lemma ex_valid be (q : Q) (s : Z) (r : outcome bytes) z : (exists y, r = Ret y /\ stores be y q s) -> r = Ret z -> valid be z.
Proof. intros (y & E' & S) E. rewrite E in E'. injection E' as <-. exact (stores_valid _ _ _ _ S). Qed.

Lemma unary_valid c x z f :
  In f [num_negate; num_abs; num_signum; num_inc; num_ceil; num_floor; num_to_owned; num_clone; op_neg_owned] ->
  valid (be_varlen c) x -> f c x = Ret z -> valid (be_varlen c) z.
Proof.
  intros I V E. assert (I' : f = num_negate \/ f = num_abs \/ f = num_signum \/ f = num_inc \/ f = num_ceil \/ f = num_floor \/
     f = num_to_owned \/ f = num_clone \/ f = op_neg_owned) by (cbn in I; intuition).
  clear I. destruct I' as [->|[->|[->|[->|[->|[->|[->|[->| ->]]]]]]]].
  7,8: destruct (copies c x V) as [C1 C2]; congruence.
  7: rewrite (op_neg_owned_spec c x V) in E.
  all: destruct V as [N|(q & s & S)];
    [destruct (nan_unary c x 0 N) as (B1 & B2 & B3 & B4 & _ & _ & B5 & B6); left; unfold stores_nan; congruence|].
  - exact (ex_valid _ _ _ _ _ (num_negate_spec c x q s S) E).
  - exact (ex_valid _ _ _ _ _ (num_abs_spec c x q s S) E).
  - exact (ex_valid _ _ _ _ _ (num_signum_spec c x q s S) E).
  - exact (rop_valid _ _ _ _ _ (num_inc_spec c x q s S) E).
  - exact (rop_valid _ _ _ _ _ (num_ceil_spec c x q s S) E).
  - exact (rop_valid _ _ _ _ _ (num_floor_spec c x q s S) E).
  - exact (ex_valid _ _ _ _ _ (num_negate_spec c x q s S) E).
Qed.

Lemma scaled_valid c x k z f : In f [num_round; num_trunc] ->
  valid (be_varlen c) x -> f c x k = Ret z -> valid (be_varlen c) z.
Proof.
  intros I V E. destruct V as [N|(q & s & S)].
  - destruct (nan_unary c x k N) as (_ & _ & _ & _ & B1 & B2 & _). destruct I as [<-|[<-|[]]]; left; unfold stores_nan; congruence.
  - destruct I as [<-|[<-|[]]].
    + exact (rop_valid _ _ _ _ _ (num_round_spec c x q s k S) E).
    + exact (ex_valid _ _ _ _ _ (num_trunc_spec c x q s k S) E).
Qed.

(** A panicking in-place operation leaves nothing. *)
Lemma stored_some {A} (r : outcome (A * option bytes)) a z : stored r = (a, Some z) -> exists b, a = Ret b.
Proof. destruct r as [[b o]| | |]; cbn; intro E; try discriminate. injection E as <- _. now exists b. Qed.

Lemma is_nan_total c x : valid (be_varlen c) x -> exists b, num_is_nan c x = Ret b.
Proof.
  intros [N|(q & s & S)]; [rewrite N; rewrite nan_is_nan; now exists true|].
  destruct (stores_elim _ _ _ _ S) as (v & C & -> & _). rewrite (num_is_nan_spec c v (canon_storable v C)). now exists false.
Qed.

Lemma round_mut_valid c (x : bytes) k r (z : bytes) : valid (be_varlen c) x -> round_mut c (Some x) k = (r, Some z) -> valid (be_varlen c) z.
Proof.
  intros V E. destruct (mut_usable c x k V) as (_ & _ & _ & [(y & E' & Vy)|(E' & _)]).
  - rewrite E in E'. injection E' as _ <-. exact Vy.
  - exfalso. rewrite E in E'. cbn in E'. subst r. unfold round_mut in E. cbn [deref bind] in E.
    destruct (is_nan_total c x V) as ([|] & Nn); rewrite Nn in E; cbn [bind untouched] in E; [discriminate|].
    apply stored_some in E. destruct E as (b & E). discriminate.
Qed.

Lemma nan_typmod c (x : bytes) t r (z : bytes) : stores_nan (be_varlen c) x -> typmod_value c t ->
  apply_typmod c (Some x) t = (r, Some z) -> valid (be_varlen c) z.
Proof.
  intros -> T E.
  assert (T' : t = -1 \/ exists p s, t = p * 65536 + s + 4 /\ 1 <= p <= 1000 /\ 0 <= s <= p).
  { destruct T as [->|[(p & s & T)|(p & T)]]; [now left|right|right].
    - destruct (typmod_new_spec c p s) as [A B].
      assert (H : 1 <= p <= 1000 /\ 0 <= s <= p).
      { destruct (Z_le_dec 1 p), (Z_le_dec p 1000), (Z_le_dec 0 s), (Z_le_dec s p); try lia; rewrite B in T by lia; discriminate. }
      rewrite (A H) in T. injection T as <-. exists p, s. split; [reflexivity|exact H].
    - destruct (typmod_with_precision_spec c p) as [A B].
      assert (H : 1 <= p <= 1000).
      { destruct (Z_le_dec 1 p), (Z_le_dec p 1000); try lia; rewrite B in T by lia; discriminate. }
      rewrite (A H) in T. injection T as <-. exists p, 0. split; [lia|]. split; lia. }
  clear T. unfold apply_typmod in E. cbn [deref] in E. rewrite nan_into_var in E. cbn [bind] in E. unfold apply_typmod_var in E.
  change VAR_HEADER_SIZE with 4 in E.
  assert (Zr : forall s, 0 <= s <= 16383 -> strip (Var 0 s SNaN []) = Var 0 s SPos []) by reflexivity.
  destruct T' as [->|(p & s & -> & Hp & Hs)].
  - change (-1 <? 4) with true in E. cbn [bind] in E. unfold make_result in E. destruct (dbg c) eqn:Ed.
    + unfold dassert in E. rewrite Ed in E. cbn in E. discriminate.
    + assert (D : forall b, dassert c b = Ret tt) by (intro b; unfold dassert; now rewrite Ed).
      rewrite !D in E. cbn [bind] in E. change (weight nan_var) with 0 in E. change (dscale nan_var) with 0 in E. cbn in E.
      unfold make_result_no_overflow in E. rewrite !D in E. cbn [bind] in E. change (strip nan_var) with (Var 0 0 SPos []) in E.
      rewrite (canon_encode c _ (canon_zero 0 ltac:(lia))) in E. cbn in E. injection E as _ <-.
      right. exists (vval (Var 0 0 SPos [])), 0. apply (stores_intro (be_varlen c) (Var 0 0 SPos [])); [apply canon_zero; lia|reflexivity|reflexivity].
  - replace (p * 65536 + s + 4 <? 4) with false in E by (symmetry; apply Z.ltb_ge; lia).
    rewrite typmod_extract_spec in E by lia. cbn [bind] in E. destruct (dbg c) eqn:Ed.
    + unfold round_common, dassert in E. rewrite Ed in E. cbn in E. discriminate.
    + assert (D : forall b, dassert c b = Ret tt) by (intro b; unfold dassert; now rewrite Ed).
      assert (Er : round_common c nan_var s = Ret (Var 0 s SNaN [])).
      { unfold round_common. rewrite D. cbn [bind]. change (weight nan_var) with 0. change DEC_DIGITS with 4.
        destruct (Z.ltb_spec ((0 + 1) * 4 + s) 0); [lia|]. change (ndigits nan_var) with 0.
        rewrite Z.quot_div_nonneg by lia. pose proof (Z.div_le_lower_bound ((0 + 1) * 4 + s + 4 - 1) 4 1 ltac:(lia) ltac:(lia)).
        set (nd := ((0 + 1) * 4 + s + 4 - 1) / 4) in *.
        replace (nd <? 0) with false by (symmetry; apply Z.ltb_ge; lia). replace (nd =? 0) with false by (symmetry; apply Z.eqb_neq; lia).
        reflexivity. }
      assert (E2 : make_result c (Var 0 s SNaN []) = Ret (Some (layout (be_varlen c) (to_number (Var 0 s SPos []))))).
      { unfold make_result, make_result_no_overflow. rewrite !D. cbn [bind digits weight dscale].
        change NUMERIC_DSCALE_MAX with 16383. replace (16383 <? s) with false by (symmetry; apply Z.ltb_ge; lia).
        change (NUMERIC_WEIGHT_MAX <? 0) with false. change (0 <? NUMERIC_WEIGHT_MIN) with false. cbn [orb].
        rewrite Zr by lia. rewrite (canon_encode c _ (canon_zero s ltac:(lia))). reflexivity. }
      rewrite Er in E. cbn [bind] in E.
      destruct (p - s <? _) in E; cbn [bind] in E; rewrite E2 in E; cbn [bind stored] in E; injection E as _ <-;
      (right; exists (vval (Var 0 s SPos [])), s; apply (stores_intro (be_varlen c) (Var 0 s SPos [])); [apply canon_zero; lia|reflexivity|reflexivity]).
Qed.

Lemma typmod_valid c (x : bytes) t r (z : bytes) : valid (be_varlen c) x -> typmod_value c t ->
  apply_typmod c (Some x) t = (r, Some z) -> valid (be_varlen c) z.
Proof.
  intros [N|(q & s & S)] T E; [exact (nan_typmod c x t r z N T E)|].
  destruct T as [->|[(p & sc & T)|(p & T)]].
  - pose proof (eq_trans (eq_sym E) (apply_typmod_default_spec c x q s S)) as E'. injection E' as _ ->. exact (stores_valid _ _ _ _ S).
  - destruct (apply_typmod_spec c x q s p sc t S T) as [A B].
    destruct (Qlt_le_dec (Qabs (round_at q sc)) limit) as [L|L].
    + destruct (A L) as (b & y & E' & Sy & _). pose proof (eq_trans (eq_sym E) E') as E2. injection E2 as _ ->. exact (stores_valid _ _ _ _ Sy).
    + pose proof (eq_trans (eq_sym E) (B L)). discriminate.
  - assert (T2 : typmod_new c p 0 = Ret (Some t)).
    { destruct (typmod_with_precision_spec c p) as [A B].
      assert (H : 1 <= p <= 1000).
      { destruct (Z_le_dec 1 p), (Z_le_dec p 1000); try lia; rewrite B in T by lia; discriminate. }
      rewrite (A H) in T. injection T as <-. rewrite (proj1 (typmod_new_spec c p 0)) by lia. do 2 f_equal. lia. }
    destruct (apply_typmod_spec c x q s p 0 t S T2) as [A B].
    destruct (Qlt_le_dec (Qabs (round_at q 0)) limit) as [L|L].
    + destruct (A L) as (b & y & E' & Sy & _). pose proof (eq_trans (eq_sym E) E') as E2. injection E2 as _ ->. exact (stores_valid _ _ _ _ Sy).
    + pose proof (eq_trans (eq_sym E) (B L)). discriminate.
Qed.

Lemma parse_valid c s (x : bytes) : len s < 2 ^ 30 - 8 -> from_str c s = Ret (inl x) -> valid (be_varlen c) x.
Proof.
  intros L E. destruct (parse_sound c s x L E) as (t & _ & [[_ N]|(l & _ & _ & S)]); [now left|exact (stores_valid _ _ _ _ S)].
Qed.

Lemma zero_valid be : valid be (layout be (Number false 0 0 [])).
Proof.
  apply (stores_valid be _ (vval (Var 0 0 SPos [])) 0).
  exact (stores_intro be (Var 0 0 SPos []) _ 0 (canon_zero 0 ltac:(lia)) (Qeq_refl _) eq_refl).
Qed.

Lemma float_valid c pf f v (x : bytes) : In f [num_from_f32; num_from_f64] -> f c pf v = Ret (inl x) -> valid (be_varlen c) x.
Proof.
  intros I H. assert (K : exists p, from_floating c pf p v = Ret (inl x)) by (destruct I as [<-|[<-|[]]]; eauto).
  clear I H. destruct K as (p & H). unfold from_floating in H. destruct v as [|b|q]; [|discriminate H|].
  1: rewrite nan_buf_spec in H; cbn [bind] in H; injection H as <-; now left.
  - change (Z.to_nat (BUF_SIZE - 1)) with 127%nat in H. set (t := firstn 127 (p_snprintf pf p q)) in H.
    assert (L : len t < 2 ^ 30 - 8).
    { unfold t, len. pose proof (firstn_le_length 127 (p_snprintf pf p q)). change (2 ^ 30 - 8) with 1073741816. lia. }
    destruct (from_str c t) as [[y|e]| | |] eqn:E; cbn [bind] in H; try discriminate H. injection H as <-. exact (parse_valid c t y L E).
Qed.

Lemma sqrt_valid c fuel x z : valid (be_varlen c) x -> num_sqrt c fuel x = Ret z -> valid (be_varlen c) z.
Proof.
  intros V H. destruct (sqrt_special c fuel) as (Sn & Sneg & Sz). destruct V as [->|(q & s & n & C & -> & Vq & _)].
  - rewrite Sn in H. injection H as <-. now left.
  - destruct (Qlt_le_dec (value n) 0) as [L|L]; [rewrite (Sneg n C L) in H; discriminate H|].
    destruct (Qlt_le_dec 0 (value n)) as [G|G].
    + destruct (sqrt_accurate c fuel n z C G H) as (r & S & _). exact (stores_valid _ _ _ _ S).
    + destruct (Sz n C ltac:(lra)) as (r & E & S). rewrite H in E. injection E as <-. exact (stores_valid _ _ _ _ S).
Qed.

Lemma ln_valid c m fuel x z : valid (be_varlen c) x -> num_ln c m fuel x = Ret z -> valid (be_varlen c) z.
Proof.
  intros [->|(q & s & S)] H.
  - rewrite (proj1 (proj2 (nan_log c m fuel []))) in H. injection H as <-. now left.
  - destruct (Qlt_le_dec 0 q) as [G|G].
    + destruct (ln_api c m fuel x q s S G) as [K|[[K _]|(y & r & s' & K & S' & _)]]; rewrite H in K; try discriminate K.
      injection K as <-. exact (stores_valid _ _ _ _ S').
    + destruct (ln_api_domain c m fuel x q s S G) as (K & _). rewrite H in K. discriminate K.
Qed.

Lemma log_any_valid c o s z : log_any c o s -> o = Ret z -> valid (be_varlen c) z.
Proof.
  intros [K|[[K _]|[K|(y & r & s' & K & S' & _)]]] H; rewrite H in K; try discriminate K.
  injection K as <-. exact (stores_valid _ _ _ _ S').
Qed.

Lemma log_valid c m fuel x b z : logs_near (f_log10 m) (f_ln m) -> valid (be_varlen c) x -> valid (be_varlen c) b ->
  away_from_one (be_varlen c) b -> num_log c m fuel x b = Ret z -> valid (be_varlen c) z.
Proof.
  intros N Vx Vb Ab H. destruct Vx as [->|(q & s & S)].
  { destruct (nan_log c m fuel b) as (_ & _ & _ & _ & _ & K). rewrite H in K. injection K as ->. now left. }
  destruct Vb as [->|(p & sb & Sb)].
  { rewrite (nan_log_base c m fuel x) in H by exact (stores_valid _ _ _ _ S). injection H as <-. now left. }
  destruct (Qlt_le_dec 0 q) as [G|G]; [|rewrite (log_api_domain c m fuel x q s b p sb S Sb (or_introl G)) in H; discriminate H].
  destruct (Qlt_le_dec 0 p) as [Gp|Gp]; [|rewrite (log_api_domain c m fuel x q s b p sb S Sb (or_intror Gp)) in H; discriminate H].
  destruct (Ab p sb Sb) as [E|E].
  - exfalso. assert (Sb1 : stores (be_varlen c) b 1 sb) by (destruct Sb as (n & C & -> & V & K); exists n; repeat (split; [assumption || reflexivity || (rewrite V; exact E)|]); exact K).
    apply (log_api_base_one c m fuel x b sb z (stores_valid _ _ _ _ S) Sb1); [|exact H].
    intro K. destruct (stores_elim _ _ _ _ S) as (v & C & E1 & _). unfold stores_nan in K.
    pose proof (num_is_nan_spec c v (canon_storable v C)) as K1. rewrite <- E1, K, nan_is_nan in K1. discriminate K1.
  - exact (log_any_valid c _ (Z.max s sb) z (log_any_api c m fuel x q s b p sb N S Sb G Gp E) H).
Qed.
Lemma log_const_valid c m fuel x f z : logs_near (f_log10 m) (f_ln m) -> In f [num_log2; num_log10] -> valid (be_varlen c) x ->
  f c m fuel x = Ret z -> valid (be_varlen c) z.
Proof.
  intros N I [->|(q & s & S)] H.
  { destruct (nan_log c m fuel []) as (_ & _ & K1 & K2 & _). destruct I as [<-|[<-|[]]]; left; unfold stores_nan; congruence. }
  destruct (Qlt_le_dec 0 q) as [G|G].
  - destruct (log_const_any_api c m fuel x q s N S G) as [K1 K2].
    destruct I as [<-|[<-|[]]]; [exact (log_any_valid c _ _ _ K1 H)|exact (log_any_valid c _ _ _ K2 H)].
  - destruct (ln_api_domain c m fuel x q s S G) as (_ & K1 & K2). destruct I as [<-|[<-|[]]]; rewrite H in *; discriminate.
Qed.

Theorem reachable_valid c m pf x : logs_near (f_log10 m) (f_ln m) -> reachable c m pf x -> valid (be_varlen c) x.
Proof.
  intro N. induction 1.
  - rewrite nan_buf_spec in H. injection H as <-. now left.
  - unfold zero_buf in H. change zero_var with (Var 0 0 SPos []) in H. rewrite (canon_encode c _ (canon_zero 0 ltac:(lia))) in H. injection H as <-. apply zero_valid.
  - rewrite numeric_nan_spec. now left.
  - replace (numeric_zero c) with (layout (be_varlen c) (Number false 0 0 [])); [apply zero_valid|]. destruct c as [[] []]; reflexivity.
  - now apply (parse_valid c s).
  - exact (ex_valid _ _ _ _ _ (num_from_signed_spec c bits k H H0) H1).
  - exact (ex_valid _ _ _ _ _ (num_from_unsigned_spec c bits k H H0) H1).
  - exact (ex_valid _ _ _ _ _ (num_from_bool_spec c b) H).
  - destruct (num_factorial_spec c n) as (o & E & R). rewrite H in E. injection E as <-. exact (result_valid _ _ _ _ _ R eq_refl).
  - now apply (checked_valid c x y z f).
  - now apply (operator_valid c x y z f).
  - now apply (unary_valid c x z f).
  - now apply (scaled_valid c x k z f).
  - destruct (mut_usable c x 0 IHreachable) as ((y1 & E1 & V1) & (y2 & E2 & V2) & _).
    destruct H as [<-|[<-|[]]]; rewrite H1 in *; [injection E1 as _ <-|injection E2 as _ <-]; assumption.
  - destruct H as [<-|[<-|[]]]; [exact (round_mut_valid c x k r z IHreachable H1)|].
    destruct (mut_usable c x k IHreachable) as (_ & _ & (y3 & E3 & V3) & _). rewrite H1 in E3. injection E3 as _ <-. exact V3.
  - unfold op_assign in H2. cbn [deref bind] in H2. destruct (f c x y) as [w| | |] eqn:E; injection H2 as _ <-; try assumption.
    exact (operator_valid c x y w f H IHreachable1 IHreachable2 E).
  - now apply (typmod_valid c x t r z).
  - destruct (display_parse c x IHreachable) as (t' & E1 & E2). unfold serialize_text in H0. unfold deserialize_text in H1.
    rewrite H0 in E1. injection E1 as <-. rewrite H1 in E2. injection E2 as ->. exact IHreachable.
  - rewrite (deserialize_copies c x IHreachable) in H0. injection H0 as <-. exact IHreachable.
  - now apply (float_valid c pf f v).
  - now apply (sqrt_valid c fuel x).
  - now apply (ln_valid c m fuel x).
  - now apply (log_valid c m fuel x b).
  - now apply (log_const_valid c m fuel x f).
  - now apply (exp_valid c m fuel x).
  - now apply (pow_valid c m fuel x e).
Qed.

(** The representation, spelled out. *)
Lemma reachable_canonical c m pf x : logs_near (f_log10 m) (f_ln m) -> reachable c m pf x ->
  x = nan_layout (be_varlen c) \/ exists n, canonical n /\ x = layout (be_varlen c) n.
Proof.
  intros L R. destruct (reachable_valid c m pf x L R) as [N|(q & s & n & C & E & _)]; [now left|right; exists n; tauto].
Qed.
