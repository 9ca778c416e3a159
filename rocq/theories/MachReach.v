(** * MachReach: no program built from the API reaches undefined behaviour (C98). *)
From Coq Require Import ZArith QArith Qabs List Bool Lia Classical.
From Verif Require Import Normalize Sci.
From Verif Require Import Base Var Binary Typmod Format Parse Convert Num Data Spec SpecApi SpecText SpecDouble SpecLibm SpecPow SpecLn SpecFloat SpecData SpecMach
  Codec Strip Make Api1 Api3 Flt Float FloatText FloatGrid FloatApi Transc QDec  PowApi PowFrac LogApi PowFin Reach ParseApi FormatApi ConvertApi
  DataSim DataBuf DataApi Mach MachSim MachApi MachText MachParse MachConv MachTextApi
  MachFast MachSqrt MachPow MachPowApi MachLn MachLnApi MachExp MachExpApi MachFrac MachFracApi MachMut MachMutSim MachMutApi MachRest MachRestApi MachFloat MachFloatApi SpecMachReach.
Import ListNotations.
Open Scope Z_scope.

(** a call that is fine: no undefined behaviour, and a buffer delivered can be used *)
Definition fine_call (c : cfg) (o : outcome (option pbuf)) : Prop :=
  o <> UB /\ forall b, o = Ret (Some b) -> exists x, brel c b x.

Lemma fine_opt c o r : sim (optrel c) o r -> r <> UB -> fine_call c o.
Proof.
  intros S U. split.
  - intros ->. destruct r; cbn [sim] in S; try contradiction; now apply U.
  - intros b ->. destruct r as [[x|]| | |]; cbn [sim optrel] in S; try contradiction. now exists x.
Qed.
Lemma fine_buf c o r : sim (bufrel c) o r -> r <> UB -> fine_call c (some_buf o).
Proof.
  intros S U. unfold some_buf. split.
  - intro K. assert (E : o = UB) by (destruct o; try discriminate K; reflexivity). subst o. destruct r; cbn [sim] in S; try contradiction; now apply U.
  - intros b E. destruct o as [y| | |]; try discriminate E. cbn [bind] in E. apply Ret_inj in E. injection E as ->.
    destruct r as [x| | |]; cbn [sim] in S; try contradiction. now exists x.
Qed.
Lemma settled_no_ub {A} (r : outcome A) : settled r -> r <> UB.
Proof. destruct r; cbn; try contradiction; discriminate. Qed.
Lemma agrees_no_ub c f g : agrees c f g -> g <> UB.
Proof. destruct f, g; cbn; try contradiction; discriminate. Qed.
Lemma run_no_ub c f g : agrees_run c f g -> g <> UB.
Proof. intros [A|[_ ->]]; [exact (agrees_no_ub c f g A)|discriminate]. Qed.
Lemma some_no_ub r : some r <> UB -> r <> UB.
Proof. intros H ->. now apply H. Qed.

Lemma op_no_ub c (op : cfg -> bytes -> bytes -> outcome bytes) x y : clean (fst (flag (op_assign op c (Some x) y))) -> op c x y <> UB.
Proof. unfold op_assign. cbn [deref bind]. intros K E. rewrite E in K. cbn in K. destruct K as [[z K]|[w K]]; discriminate K. Qed.

(** the sim behind C93 *)
Lemma pow_all_mach c a b m fuel x e :
  log10_sound (f_log10 m) -> log10_fine (f_log10 m) -> ln_between (f_ln m) -> logs_near (f_log10 m) (f_ln m) -> float_sound m -> 4000 <= Z.of_nat fuel ->
  valid (be_varlen c) x -> valid (be_varlen c) e ->
  (forall q s p se, stores (be_varlen c) x q s -> stores (be_varlen c) e p se -> (forall n, (p == inject_Z n)%Q -> ~ (-2147483648 <= n < 2147483648)) ->
     (q == 1)%Q \/ (ten ^ (-990) <= Qabs (q - 1))%Q) ->
  fine_call c (m_num_pow c a m (m_power_frac c b m fuel) x e).
Proof.
  intros LG FI LB LN FS Hf Vx Ve B.
  pose proof (run_no_ub c _ _ (pow_all_agrees c a b m fuel x e LG FI LB LN FS Hf Vx Ve B)) as U. apply (fine_opt c _ (num_pow c m fuel x e)); [|exact U]. clear U.
  destruct Ve as [He|(p & se & He)].
  { apply (pow_mach c a m (m_power_frac c b m fuel) fuel LG FI LB x e Vx). now left. }
  destruct Vx as [Hx|(q & s & Hx)].
  { apply (pow_nan_mach c a m (m_power_frac c b m fuel) fuel x e Hx). right. eauto. }
  destruct (classic (no_i32 p)) as [NI|NI].
  2:{ apply NNPP in NI. destruct NI as (n & Vn & Hn). apply (pow_mach c a m (m_power_frac c b m fuel) fuel LG FI LB x e); [right; eauto|]. right. exists n, se.
      split; [exact Hn|]. apply (stores_ext _ _ p); assumption. }
  assert (BO : base_ok q) by (apply base_ok_all, (B q s p se Hx He); intros n Vn Hn; apply NI; exists n; now split).
  exact (pow_frac_mach c a b m fuel LN FS Hf x e q s p se Hx He NI BO).
Qed.

Scheme held_min := Minimality for held Sort Prop
  with seen_min := Minimality for seen Sort Prop
  with call_min := Minimality for call Sort Prop.
Combined Scheme reach_min from held_min, seen_min, call_min.

Lemma fine_parse c a s : len s < 2 ^ 30 - 8 -> fine_call c (got (m_from_str c a s)).
Proof.
  intro L. pose proof (parse_b c a s L) as P. unfold got. destruct (m_from_str c a s) as [[b|e]| | |]; cbn [bind]; try (now destruct P).
  - split; [discriminate|]. intros y E. apply Ret_inj in E. injection E as <-. destruct (from_str c s) as [[x|]| | |]; cbn in P; try contradiction. now exists x.
  - split; [discriminate|]. intros y E. apply Ret_inj in E. discriminate E.
Qed.
Lemma fine_float c a u pf p f : snprintf_sound (p_snprintf pf) -> p = 6 \/ p = 15 -> (forall q, f = FNum q -> finite_in binary64 q) ->
  fine_call c (got (m_from_floating c a u pf p f)).
Proof.
  intros S P F. destruct f as [|n|q].
  - pose proof (fine_buf c _ _ (nan_m c (a 9%nat))) as N. unfold got, m_from_floating. rewrite nan_buf_spec in N. specialize (N ltac:(discriminate)).
    destruct N as [N1 N2]. unfold some_buf in *. destruct (m_nan_buf c (a 9%nat)); cbn [bind] in *; split; auto.
  - split; [discriminate|]. intros b E. unfold got, m_from_floating in E. cbn [bind] in E. apply Ret_inj in E. discriminate E.
  - destruct (from_float_spec c pf p q S P (F q eq_refl)) as (x & r & s & E & _). destruct (from_float_b c a u pf p q x E) as (b & Eb & B).
    unfold got. rewrite Eb, ret_bind. split; [discriminate|]. intros y K. apply Ret_inj in K. injection K as <-. now exists x.
Qed.

Section Reach.
Variables (c : cfg) (m : libm) (pf : platform).
Hypotheses (LG : log10_sound (f_log10 m)) (FI : log10_fine (f_log10 m)) (LB : ln_between (f_ln m)) (LN : logs_near (f_log10 m) (f_ln m))
  (FS : float_sound m) (SP : snprintf_sound (p_snprintf pf)).

Lemma zero_seen : valid (be_varlen c) (numeric_zero c).
Proof.
  replace (numeric_zero c) with (layout (be_varlen c) (Number false 0 0 [])); [apply zero_valid|]. destruct c as [[] []]; reflexivity.
Qed.

Theorem reach_inv : (forall b, held c m pf b -> exists x, brel c b x) /\ (forall x, seen c m pf x -> valid (be_varlen c) x) /\
  (forall o, call c m pf o -> fine_call c o).
Proof.
  apply (reach_min c m pf (fun b => exists x, brel c b x) (fun x => valid (be_varlen c) x) (fun o => fine_call c o)).
  - intros o b _ [_ F] E. exact (F b E).
  - intros a op b r b' _ [x B] _ V E. pose proof (step_b c a op b x) as S. specialize (S ltac:(apply Forall_forall; exact V) B). rewrite E in S.
    destruct S as [_ S]. cbn [snd] in S. destruct (snd (step_all c op (Some x))) as [y|]; [|contradiction]. now exists y.
  - rewrite numeric_nan_spec. now left.
  - exact zero_seen.
  - intros n C. apply number_valid. exact C.
  - intros b x _ [y B] E. rewrite (m_bytes c b y B) in E. apply Ret_inj in E. subst y. exact (bufrel_valid c b x (proj1 B)).
  - intro a. apply (fine_buf c _ (nan_buf c) (nan_m c a)). rewrite nan_buf_spec. discriminate.
  - intros a s. apply fine_parse.
  - intros a bits k W H. apply (fine_buf c _ _ (from_signed_m c a bits k W H)). destruct (num_from_signed_spec c bits k W H) as (x & -> & _). discriminate.
  - intros a bits k W H. apply (fine_buf c _ _ (from_unsigned_m c a bits k W H)). destruct (num_from_unsigned_spec c bits k W H) as (x & -> & _). discriminate.
  - intros a u f F. apply fine_float; [exact SP|now left|]. intros q E. destruct (F q E) as [G L]. split; [now apply grid_sub|].
    apply (Qlt_trans _ _ _ L). exact (p2_lt 128 1024 eq_refl).
  - intros a u f F. apply fine_float; [exact SP|now right|exact F].
  - intros a n H. apply (fine_opt c _ _ (factorial_mach c a n H)). exact (agrees_no_ub c _ _ (factorial_agrees c a n H)).
  - intros a x y _ Vx _ Vy. apply (fine_opt c _ _ (add_mach c a x y Vx Vy)). exact (settled_no_ub _ (add_settled c x y Vx Vy)).
  - intros a x y _ Vx _ Vy. apply (fine_opt c _ _ (sub_mach c a x y Vx Vy)). exact (settled_no_ub _ (sub_settled c x y Vx Vy)).
  - intros a x y _ Vx _ Vy. apply (fine_opt c _ _ (mul_mach c a x y Vx Vy)). exact (settled_no_ub _ (mul_settled c x y Vx Vy)).
  - intros a x y _ Vx _ Vy. apply (fine_opt c _ _ (div_mach c a x y Vx Vy)). apply (agrees_no_ub c (m_checked_div c a x y)). apply (binary_agrees c a x y Vx Vy).
  - intros a x y _ Vx _ Vy. apply (fine_opt c _ _ (div_trunc_mach c a x y Vx Vy)). apply (agrees_no_ub c (m_checked_div_trunc c a x y)). apply (binary_agrees c a x y Vx Vy).
  - intros a x y _ Vx _ Vy. apply (fine_opt c _ _ (rem_mach c a x y Vx Vy)). apply (agrees_no_ub c (m_checked_rem c a x y)). apply (binary_agrees c a x y Vx Vy).
  - intros a x y _ Vx _ Vy. apply (fine_buf c _ _ (op_add_b c a x y Vx Vy)). apply (op_no_ub c op_add x y). exact (step_all_clean c (AddAssign y) x (Forall_cons _ Vy (Forall_nil _)) Vx).
  - intros a x y _ Vx _ Vy. apply (fine_buf c _ _ (op_sub_b c a x y Vx Vy)). apply (op_no_ub c op_sub x y). exact (step_all_clean c (SubAssign y) x (Forall_cons _ Vy (Forall_nil _)) Vx).
  - intros a x y _ Vx _ Vy. apply (fine_buf c _ _ (op_mul_b c a x y Vx Vy)). apply (op_no_ub c op_mul x y). exact (step_all_clean c (MulAssign y) x (Forall_cons _ Vy (Forall_nil _)) Vx).
  - intros a x y _ Vx _ Vy. apply (fine_buf c _ _ (op_div_b c a x y Vx Vy)). apply (op_no_ub c op_div x y). exact (step_all_clean c (DivAssign y) x (Forall_cons _ Vy (Forall_nil _)) Vx).
  - intros a x y _ Vx _ Vy. apply (fine_buf c _ _ (op_rem_b c a x y Vx Vy)). apply (op_no_ub c op_rem x y). exact (step_all_clean c (RemAssign y) x (Forall_cons _ Vy (Forall_nil _)) Vx).
  - intros a x _ V. apply (fine_opt c _ _ (negate_mach c a x V)). apply (agrees_no_ub c (m_num_negate c a x)). apply (sign_agrees c a x V).
  - intros a x _ V. apply (fine_opt c _ _ (abs_mach c a x V)). apply (agrees_no_ub c (m_num_abs c a x)). apply (sign_agrees c a x V).
  - intros a x _ V. apply (fine_opt c _ _ (signum_mach c a x V)). apply (agrees_no_ub c (m_num_signum c a x)). apply (sign_agrees c a x V).
  - intros a x _ V. apply (fine_opt c _ _ (inc_mach c a x V)). apply (agrees_no_ub c (m_num_inc c a x)). apply (sign_agrees c a x V).
  - intros a x _ V. apply (fine_opt c _ _ (ceil_mach c a x V)). apply (agrees_no_ub c (m_num_ceil c a x)). apply (unary_agrees c a x 0 V).
  - intros a x _ V. apply (fine_opt c _ _ (floor_mach c a x V)). apply (agrees_no_ub c (m_num_floor c a x)). apply (unary_agrees c a x 0 V).
  - intros a x k _ V. apply (fine_opt c _ _ (round_mach c a x k V)). apply (agrees_no_ub c (m_num_round c a x k)). apply (unary_agrees c a x k V).
  - intros a x k _ V. apply (fine_opt c _ _ (trunc_mach c a x k V)). apply (agrees_no_ub c (m_num_trunc c a x k)). apply (unary_agrees c a x k V).
  - intros a x _ V. destruct (to_owned_b c a x V) as (b & E & B). unfold some_buf. rewrite E, ret_bind. split; [discriminate|].
    intros y K. apply Ret_inj in K. injection K as <-. now exists x.
  - intros a fuel x _ V. apply (fine_buf c _ _ (sqrt_mach c a fuel x V)). apply some_no_ub. exact (run_no_ub c _ _ (sqrt_agrees c a fuel x V)).
  - intros b fuel x _ V. apply (fine_buf c _ _ (ln_mach c b m fuel x V)). apply some_no_ub. exact (run_no_ub c _ _ (ln_agrees c b m fuel x V)).
  - intros b fuel x y _ Vx _ Vy H.
    assert (K : stores_nan (be_varlen c) y \/ (exists p s, stores (be_varlen c) y p s /\ (ten ^ (-1980) <= Qabs (p - 1))%Q)).
    { destruct Vy as [N|(p & s & St)]; [now left|]. right. exists p, s. split; [exact St|exact (H p s St)]. }
    apply (fine_buf c _ (num_log c m fuel x y)).
    + destruct K as [N|(p & s & N)]; [apply (log_mach c b m fuel x y 0%Q 0); auto|apply (log_mach c b m fuel x y p s); auto].
    + apply some_no_ub. exact (run_no_ub c _ _ (log_agrees c b m fuel x y LN Vx K)).
  - intros b fuel x _ V. apply (fine_buf c _ _ (proj1 (log_const_mach c b m fuel x LN V))). apply some_no_ub.
    exact (run_no_ub c _ _ (proj1 (log_const_agrees c b m fuel x LN V))).
  - intros b fuel x _ V. apply (fine_buf c _ _ (proj2 (log_const_mach c b m fuel x LN V))). apply some_no_ub.
    exact (run_no_ub c _ _ (proj2 (log_const_agrees c b m fuel x LN V))).
  - intros b fuel x Hf _ V. destruct (exp_mach c b m fuel x FS Hf V) as [S T]. apply (fine_opt c _ _ S). exact (settled_no_ub _ T).
  - intros a b fuel x e Hf _ Vx _ Ve H. now apply pow_all_mach.
Qed.

Lemma held_inv b : held c m pf b -> exists x, brel c b x.
Proof using LG FI LB LN FS SP. apply reach_inv. Qed.
Lemma seen_inv x : seen c m pf x -> valid (be_varlen c) x.
Proof using LG FI LB LN FS SP. apply reach_inv. Qed.

Theorem owned b : held c m pf b -> exists x, m_as_bytes c b = Ret x /\ valid (be_varlen c) x.
Proof using LG FI LB LN FS SP.
  intro H. destruct (held_inv b H) as [x B]. exists x. split; [now apply m_bytes|exact (bufrel_valid c b x (proj1 B))].
Qed.
Theorem stepped a op b : held c m pf b -> (forall y, In y (operands op) -> seen c m pf y) ->
  (exists f, fst (m_step c a op (Some b)) = Ret f) \/ (exists w, fst (m_step c a op (Some b)) = Panic w).
Proof using LG FI LB LN FS SP.
  intros H O. destruct (held_inv b H) as [x B]. assert (V : Forall (valid (be_varlen c)) (operands op)) by (apply Forall_forall; intros y Y; exact (seen_inv y (O y Y))).
  destruct (step_b c a op b x V B) as [-> _]. exact (step_all_clean c op x V (bufrel_valid c b x (proj1 B))).
Qed.

Lemma to_int_delivers bits x : int_width bits -> valid (be_varlen c) x -> delivers (num_to_signed c bits x) /\ delivers (num_to_unsigned c bits x).
Proof.
  intros W [N|(q & s & St)].
  - destruct (nan_to_int c bits x W N) as (E1 & _ & E2 & _). split; eexists; eassumption.
  - destruct (to_signed_spec c bits x q s W St) as [E1 _]. destruct (to_unsigned_spec c bits x q s W St) as [E2 _]. split; eexists; eassumption.
Qed.
Lemma to_float_delivers x : strtod_sound (p_strtod pf) -> valid (be_varlen c) x -> delivers (num_to_f64 c pf x) /\ delivers (num_to_f32 c pf x).
Proof.
  intros SD [N|(q & s & St)].
  - destruct (to_float_nan c pf x N) as (E1 & _ & E2 & _). split; eexists; eassumption.
  - destruct (to_f64_spec c pf x q s SD St) as (d & E1 & _). destruct (to_f32_spec c pf x q s SD St) as (d' & r & _ & E2 & _). split; eexists; eassumption.
Qed.
Theorem reads a x y : strtod_sound (p_strtod pf) -> seen c m pf x -> seen c m pf y ->
  delivers (m_num_display c x) /\ delivers (m_num_normalize c x) /\ delivers (m_num_hash c x) /\ delivers (m_num_cmp c x y) /\
  (forall bits, int_width bits -> delivers (m_num_to_signed c a bits x) /\ delivers (m_num_to_unsigned c a bits x)) /\
  delivers (m_num_to_f64 c pf x) /\ delivers (m_num_to_f32 c pf x) /\
  (forall lower, delivers (m_num_sci c a m x lower) \/ m_num_sci c a m x lower = Panic (WMsg MDivZero)).
Proof using LG FI LB LN FS SP.
  intros SD Hx Hy. pose proof (seen_inv x Hx) as Vx. pose proof (seen_inv y Hy) as Vy.
  destruct (machine_keys c x y Vx Vy) as (tx & ty & hx & hy & E1 & _ & E2 & _).
  split. { rewrite (proj1 (read_agrees c a 8 x Vx)). destruct (display_parse c x Vx) as (t & E & _). now exists t. }
  split; [now exists tx|]. split; [now exists hx|].
  split. { rewrite (cmp_mach c x y Vx Vy). destruct (valid_denotes _ _ Vx) as (dx & D1). destruct (valid_denotes _ _ Vy) as (dy & D2).
    rewrite (num_cmp_spec c x y dx dy D1 D2). eexists. reflexivity. }
  split. { intros bits W. destruct (read_agrees c a bits x Vx) as [_ K]. destruct (K W) as [-> ->]. now apply to_int_delivers. }
  destruct (machine_to_float c pf x Vx) as [-> ->]. destruct (to_float_delivers x SD Vx) as [D1 D2]. split; [exact D1|]. split; [exact D2|].
  intro lower. rewrite (sci_mach c a m LG LB x lower Vx). destruct Vx as [N|(q & s & St)].
  - left. rewrite (sci_nan c m x lower N). eexists. reflexivity.
  - destruct (Qeq_dec q 0) as [Z0|Z0]; [left; rewrite (sci_zero c m x q s lower St Z0); eexists; reflexivity|].
    destruct (sci_spec c m x q s lower LG St Z0) as [K1 K2]. destruct (Qlt_le_dec (Qabs q) (ten ^ (-1001))) as [L|L].
    + right. now apply K2.
    + left. destruct (K1 L) as (t & E & _). now exists t.
Qed.
Theorem owned_reads a b : strtod_sound (p_strtod pf) -> held c m pf b ->
  (forall bits, int_width bits -> delivers (m_buf_to_signed c a bits b) /\ delivers (m_buf_to_unsigned c a bits b)) /\
  delivers (m_buf_to_f64 c pf b) /\ delivers (m_buf_to_f32 c pf b).
Proof using LG FI LB LN FS SP.
  intros SD H. destruct (held_inv b H) as [x B]. pose proof (bufrel_valid c b x (proj1 B)) as V. split.
  - intros bits W. rewrite (buf_to_signed_m c a bits b x W B), (buf_to_unsigned_m c a bits b x W B). now apply to_int_delivers.
  - destruct (buf_reads c b x B) as (v & p & V' & O & M & A & _). destruct (to_float_delivers x SD V) as [D1 D2].
    unfold m_buf_to_f64, m_buf_to_f32. rewrite O, !ret_bind, (to_f64_m c pf v p V' M), (to_f32_m c pf v p V' M).
    unfold num_to_f64, num_to_f32 in D1, D2. rewrite A, ret_bind in D1, D2. now split.
Qed.
End Reach.
