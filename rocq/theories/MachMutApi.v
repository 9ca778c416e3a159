(** * MachMutApi: histories of a NumericBuf, machine level against the byte-level model. *)
From Coq Require Import ZArith QArith Qabs List Bool Lia.
From Verif Require Import Base Var Binary Typmod Format Parse Convert Num Data Spec SpecApi SpecData SpecMach QDec Digits Strip Round Trunc Signed AddSub CeilFloor Arith Codec Make DivQ Api1 Api2 Api3 Laws Laws2 DataSim DataBuf DataApi Mach MachSim MachAdd MachMul MachDiv MachApi MachMut MachMutSim.
Import ListNotations.
Open Scope Z_scope.

Lemma unless_b c b x (k : outcome (unit * option pbuf)) (k' : bytes -> outcome (unit * nbuf)) :
  brel c b x -> (forall v p, canon v -> encode c v = Ret x -> m_owned c b = Ret p -> mrep lim p v -> cowlen p <= lim -> sim (pairrelb c) k (k' x)) ->
  moverelb c (m_unless_nan c (Some b) k)
    (match (y <- deref (Some x) ;; n <- num_is_nan c y ;; Ret (y, n)) with
     | Ret (y, true) => untouched (Ret tt) (Some x)
     | Ret (y, false) => stored (k' y)
     | Panic w => untouched (Panic w) (Some x)
     | UB => untouched UB (Some x)
     | Diverge => untouched Diverge (Some x)
     end).
Proof.
  intros BR K. unfold m_unless_nan. cbn [m_deref deref bind]. rewrite (m_bytes c b x BR). cbn [bind].
  destruct (owned_m c b x BR) as (v & p & V & E & O & M & L).
  pose proof (good_reads c v x (vok_good v V) E) as (_ & _ & N & _). rewrite N. cbn [bind].
  destruct V as [C| ->].
  - assert (is_nan v = false) as ->.
    { unfold is_nan. pose proof (canon_nan v C). destruct (sign v); auto; congruence. }
    apply stored_relb. now apply (K v p).
  - change (is_nan nan_var) with true. cbn iota. now split.
Qed.

Lemma cowlen_set_sign s p : cowlen (p_set_sign s p) = cowlen p.
Proof. reflexivity. Qed.
Lemma fit_set_sign B s p : fit B p -> fit B (p_set_sign s p).
Proof. intros [H1 H2 H3 H4]. split; cbn; auto. Qed.
Lemma negate_b c p v : mrep lim p v -> cowlen p <= lim ->
  sim (fun q r => mrep lim q r /\ cowlen q <= lim) (p_negate c p) (negate c v).
Proof.
  intros [R F] L. pose proof (negate_sim c p v R) as S.
  assert (K : forall q, p_negate c p = Ret q -> fit lim q /\ cowlen q <= lim).
  { intros q E. unfold p_negate in E. apply MachSim.bind_ret in E. destruct E as (_ & _ & E).
    destruct (0 <? p_nd p); [|apply Ret_inj in E; subst; now split].
    destruct (sgn_eqb (p_sign p) SPos); [apply Ret_inj in E; subst; split; [now apply fit_set_sign|exact L]|].
    destruct (sgn_eqb (p_sign p) SNeg); apply Ret_inj in E; subst; split; auto. now apply fit_set_sign. }
  destruct (p_negate c p) as [q| | |], (negate c v) as [r| | |]; cbn [sim] in *; auto.
  destruct (K q eq_refl). split; [split; assumption|assumption].
Qed.
Lemma abs_b c p v : mrep lim p v -> cowlen p <= lim ->
  sim (fun q r => mrep lim q r /\ cowlen q <= lim) (p_abs c p) (abs_var c v).
Proof.
  intros [R F] L. pose proof (abs_sim c p v R) as S.
  assert (K : forall q, p_abs c p = Ret q -> fit lim q /\ cowlen q <= lim).
  { intros q E. unfold p_abs in E. apply MachSim.bind_ret in E. destruct E as (_ & _ & E).
    destruct (sgn_eqb (p_sign p) SNeg); apply Ret_inj in E; subst; split; auto. now apply fit_set_sign. }
  destruct (p_abs c p) as [q| | |], (abs_var c v) as [r| | |]; cbn [sim] in *; auto.
  destruct (K q eq_refl). split; [split; assumption|assumption].
Qed.

Lemma negate_mut_b c a b x : brel c b x -> moverelb c (m_negate_mut c a (Some b)) (negate_mut c (Some x)).
Proof.
  intros BR. unfold m_negate_mut, negate_mut.
  apply (unless_b c b x _ (fun y => v <- into_var c y ;; v <- negate c v ;; z <- encode c v ;; Ret (tt, Some z))); auto.
  intros v p C E O M L. cbn [m_taken]. rewrite O. cbn [bind].
  pose proof (good_reads c v x (vok_good v (or_introl C)) E) as (_ & _ & _ & _ & I & _). rewrite I. cbn [bind].
  apply (sim_bind (fun q r => (mrep lim q r /\ cowlen q <= lim) /\ canon r)).
  { apply sim_spec; [now apply negate_b|]. intros r Er. destruct (negate_spec c v C) as (r' & Er' & Cr & _). rewrite Er in Er'. now injection Er' as <-. }
  intros q r [[Mq Lq] Cr].
  apply (sim_bind (brel c)); [apply (into_buf_m c _ lim); [unfold lim; lia|exact Mq|now left|exact Lq]|]. intros y z Y. now split.
Qed.
Lemma round_mut_b c a b x k : brel c b x -> moverelb c (m_round_mut c a (Some b) k) (round_mut c (Some x) k).
Proof.
  intros BR. unfold m_round_mut, round_mut.
  apply (unless_b c b x _ (fun y => v <- into_var c y ;; v <- round_var c v k ;; o <- make_result c v ;; z <- expect o MOverflow ;; Ret (tt, Some z))); auto.
  intros v p C E O M L. cbn [m_taken]. rewrite O. cbn [bind].
  pose proof (good_reads c v x (vok_good v (or_introl C)) E) as (_ & _ & _ & _ & I & _). rewrite I. cbn [bind].
  apply (sim_bind (fun q r => (mrep (lim + 10) q r /\ cowlen q <= lim) /\ fine r)).
  { apply sim_spec; [apply round_var_b; [now left|exact M|exact L]|]. intros r Er. exact (round_fine c v k r C Er). }
  intros q r [[Mq Lq] Fr]. apply (sim_bind (orelb c)); [apply (make_b c _ (lim + 10)); [unfold lim; lia|exact Mq|exact Fr|exact Lq]|].
  intros [y|] [z|] Y; cbn in Y; try contradiction; cbn; auto. now split.
Qed.
Lemma trunc_mut_b c a b x k : brel c b x -> moverelb c (m_trunc_mut c a (Some b) k) (trunc_mut c (Some x) k).
Proof.
  intros BR. unfold m_trunc_mut, trunc_mut.
  apply (unless_b c b x _ (fun y => v <- into_var c y ;; v <- trunc_var c v k ;; z <- make_result_no_overflow c v ;; Ret (tt, Some z))); auto.
  intros v p C E O M L. cbn [m_taken]. rewrite O. cbn [bind].
  pose proof (good_reads c v x (vok_good v (or_introl C)) E) as (_ & _ & _ & _ & I & _). rewrite I. cbn [bind].
  apply (sim_bind (fun q r => (mrep (lim + 10) q r /\ cowlen q <= lim) /\ fine r /\ weight r <= 32767 /\ dscale r <= 16383)).
  { apply sim_spec; [apply trunc_var_b; [now left|exact M|exact L]|]. intros r Er. exact (trunc_fine c v k r C Er). }
  intros q r [[Mq Lq] (Fr & W & S)].
  apply (sim_bind (brel c)); [apply (make_no_b c _ (lim + 10)); [unfold lim; lia|exact Mq|exact Fr|exact W|exact S|exact Lq]|].
  intros y z Y. now split.
Qed.
Lemma abs_mut_b c a b x : brel c b x -> moverelb c (m_abs_mut c a (Some b)) (abs_mut c (Some x)).
Proof.
  intros BR. unfold m_abs_mut, abs_mut. cbn [m_deref deref bind]. rewrite (m_bytes c b x BR). cbn [bind].
  destruct (owned_m c b x BR) as (v & p & V & E & O & M & L).
  pose proof (good_reads c v x (vok_good v V) E) as (_ & _ & N & G & I & _). rewrite N, G. cbn [bind].
  destruct (is_nan v) eqn:Nn; [now split|]. destruct (is_negative v); [|now split]. rewrite I. cbn [bind].
  assert (C : canon v) by (destruct V as [C| ->]; [exact C|discriminate Nn]).
  apply stored_relb. cbn [m_taken]. rewrite O. cbn [bind].
  apply (sim_bind (fun q r => (mrep lim q r /\ cowlen q <= lim) /\ canon r)).
  { apply sim_spec; [now apply abs_b|]. intros r Er. exact (abs_canon c v r C Er). }
  intros q r [[Mq Lq] Cr].
  apply (sim_bind (brel c)); [apply (into_buf_m c _ lim); [unfold lim; lia|exact Mq|now left|exact Lq]|]. intros y z Y. now split.
Qed.
Lemma apply_typmod_b c a b x t : brel c b x -> moverelb c (m_apply_typmod c a (Some b) t) (apply_typmod c (Some x) t).
Proof.
  intros BR. unfold m_apply_typmod, apply_typmod. cbn [deref m_taken].
  destruct (owned_m c b x BR) as (v & p & V & E & O & M & L). rewrite O. cbn [bind].
  apply stored_relb.
  pose proof (good_reads c v x (vok_good v V) E) as (_ & _ & _ & _ & I & _). rewrite I. cbn [bind].
  eapply sim_bind; [apply typmod_b; assumption|].
  intros [o q] [o' r] [(Eo & Mq & Lq) Fr]. cbn [fst snd] in *. subst o'.
  apply (sim_bind (orelb c)); [apply (make_b c _ (lim + 10)); [unfold lim; lia|exact Mq|exact Fr|exact Lq]|].
  intros [y|] [z|] Y; cbn in Y; try contradiction; cbn; now split.
Qed.

(** ** borrowing, cloning *)
Lemma borrow_any v : vok v -> mrep 40000 (borrow v) v.
Proof.
  intros [C| ->]; [now apply borrow_m|]. split; [constructor; cbn; auto; now exists []|]. split; cbn; lia.
Qed.
Lemma as_var_any c v x : vok v -> encode c v = Ret x -> m_as_var c x = Ret (borrow v).
Proof.
  intros V E. pose proof (good_reads c v x (vok_good v V) E) as (_ & _ & _ & _ & _ & A & _).
  unfold m_as_var. rewrite A. cbn [bind]. unfold ndigits at 1. rewrite Z.eqb_refl. rewrite dassert_ok by reflexivity. reflexivity.
Qed.
Lemma clone_b c a b x : brel c b x -> moverelb c (m_clone_buf c a (Some b)) (step c OClone (Some x)).
Proof.
  intros BR. unfold m_clone_buf. cbn [m_deref step deref bind]. rewrite (m_bytes c b x BR). cbn [bind].
  destruct (owned_m c b x BR) as (v & p & V & E & _). unfold num_clone.
  rewrite (as_var_any c v x V E). cbn [bind].
  pose proof (good_reads c v x (vok_good v V) E) as (_ & _ & _ & _ & _ & A & _). rewrite A. cbn [bind].
  destruct (vok_bound v V) as (_ & _ & B3).
  assert (S : sim (brel c) (m_into_buf c (a 9%nat) (borrow v)) (encode c v)).
  { apply (into_buf_m c _ 40000); [lia|now apply borrow_any|exact V|]. unfold cowlen, borrow, lim. cbn [p_cow]. unfold ndigits in B3. lia. }
  destruct (m_into_buf c (a 9%nat) (borrow v)) as [y| | |], (encode c v) as [z| | |]; cbn [sim] in S; try contradiction; subst; split; cbn; auto; now split.
Qed.
Lemma to_owned_b c a x : valid (be_varlen c) x -> exists b, m_num_to_owned c a x = Ret b /\ brel c b x.
Proof.
  intro V.
  assert (G : exists v, vok v /\ encode c v = Ret x).
  { destruct (valid_cases _ _ V) as [->|(v & C & ->)].
    - exists nan_var. split; [now right|]. apply (nan_buf_spec c).
    - exists v. split; [now left|]. apply encode_spec. now apply canon_storable. }
  destruct G as (v & K & E). unfold m_num_to_owned. rewrite (as_var_any c v x K E). cbn [bind].
  assert (S : sim (brel c) (m_into_buf c (a 9%nat) (borrow v)) (encode c v)).
  { destruct (vok_bound v K) as (_ & _ & B3).
    apply (into_buf_m c _ 40000); [lia|now apply borrow_any|exact K|]. unfold cowlen, borrow, lim. cbn [p_cow]. unfold ndigits in B3. lia. }
  rewrite E in S.
  assert (Q : (if m_nan (borrow v) then m_nan_buf c (a 9%nat) else m_into_buf c (a 9%nat) (borrow v)) = m_into_buf c (a 9%nat) (borrow v)).
  { destruct K as [C| ->]; [|reflexivity]. unfold m_nan, borrow. cbn [p_sign]. pose proof (canon_nan v C). destruct (sign v); auto; congruence. }
  rewrite Q. destruct (m_into_buf c (a 9%nat) (borrow v)) as [b| | |]; cbn [sim] in S; try contradiction. exists b. now split.
Qed.

(** ** the operators *)
Lemma expect_b c (x : outcome (option pbuf)) (y : outcome (option bytes)) m : sim (optrel c) x y ->
  sim (brel c) (o <- x ;; expect o m) (o <- y ;; expect o m).
Proof.
  intro S. destruct x as [[b|]| | |], y as [[z|]| | |]; cbn in *; try contradiction; auto.
Qed.
Lemma op_add_b c a x y : valid (be_varlen c) x -> valid (be_varlen c) y -> sim (brel c) (m_op_add c a x y) (op_add c x y).
Proof. intros V1 V2. apply expect_b. now apply add_mach. Qed.
Lemma op_sub_b c a x y : valid (be_varlen c) x -> valid (be_varlen c) y -> sim (brel c) (m_op_sub c a x y) (op_sub c x y).
Proof. intros V1 V2. apply expect_b. now apply sub_mach. Qed.
Lemma op_mul_b c a x y : valid (be_varlen c) x -> valid (be_varlen c) y -> sim (brel c) (m_op_mul c a x y) (op_mul c x y).
Proof. intros V1 V2. apply expect_b. now apply mul_mach. Qed.

Lemma nan2_b c a x y B k k' : 0 <= B <= 28999995 -> valid (be_varlen c) x -> valid (be_varlen c) y ->
  (forall v w, canon v -> canon w -> sim (fun p r => orel (mrep B) p r /\ forall r', r = Some r' -> fine r') (k (borrow v) (borrow w)) (k' v w)) ->
  sim (brel c) (m_op_nan2 c a x y k)
    (nx <- num_is_nan c x ;; ny <- (if (nx : bool) then Ret true else num_is_nan c y) ;;
     if (ny : bool) then nan_buf c
     else v1 <- as_var c x ;; v2 <- as_var c y ;; o <- k' v1 v2 ;; r <- expect o MDivZero ;; o <- make_result c r ;; expect o MOverflow).
Proof.
  intros LB V1 V2 K. unfold m_op_nan2.
  assert (NN : sim (brel c) (m_nan_buf c (a 0%nat)) (nan_buf c)) by apply nan_m.
  destruct V1 as [H1|(q1 & s1 & H1)].
  { rewrite H1, nan_is_nan. cbn [bind]. exact NN. }
  destruct (stores_elim _ _ _ _ H1) as (v1 & C1 & -> & _ & _).
  rewrite (num_is_nan_spec c v1 (canon_storable v1 C1)). cbn [bind].
  destruct V2 as [H2|(q2 & s2 & H2)].
  { rewrite H2, nan_is_nan. cbn [bind]. exact NN. }
  destruct (stores_elim _ _ _ _ H2) as (v2 & C2 & -> & _ & _).
  rewrite (num_is_nan_spec c v2 (canon_storable v2 C2)). cbn [bind].
  rewrite (m_as_var_ok c v1 C1), (m_as_var_ok c v2 C2).
  rewrite (as_var_spec c v1 (canon_storable v1 C1)), (as_var_spec c v2 (canon_storable v2 C2)). cbn [bind].
  eapply sim_bind; [apply (K v1 v2 C1 C2)|]. intros [p|] [r|] [O F]; cbn [orel] in O; try contradiction; [|reflexivity].
  cbn [expect bind]. apply expect_b. apply (make_m c _ B); [lia|exact O|now apply F].
Qed.
Lemma op_div_b c a x y : valid (be_varlen c) x -> valid (be_varlen c) y -> sim (brel c) (m_op_div c a x y) (op_div c x y).
Proof.
  intros V1 V2. unfold m_op_div, op_div. apply (nan2_b c a x y (8 * 40000 + 100) _ (fun v w => checked_div_var c v w)); [lia|exact V1|exact V2|].
  intros v w C1 C2. unfold checked_div_var, is_nan, m_nan. cbn [borrow p_sign].
  apply sim_same. intros _ _. apply sim_same. intros _ _.
  fold (borrow v). fold (borrow w).
  rewrite (select_m c 40000 (borrow v) (borrow w) v w) by (try apply borrow_m; try assumption; lia). cbn [bind].
  pose proof (select_div_scale_bound v w) as SB.
  apply sim_spec; [apply (div_common_m c (a 0%nat) 40000 (borrow v) (borrow w)); try lia; now apply borrow_m|].
  intros r E r' ->. exact (proj1 (div_fine c v w (select_div_scale v w) true r' C1 C2 ltac:(lia) E)).
Qed.
Lemma op_rem_b c a x y : valid (be_varlen c) x -> valid (be_varlen c) y -> sim (brel c) (m_op_rem c a x y) (op_rem c x y).
Proof.
  intros V1 V2. unfold m_op_rem, op_rem. apply (nan2_b c a x y 28808800 _ (fun v w => mod_common c v w)); [lia|exact V1|exact V2|].
  intros v w C1 C2. pose proof (cn_scale v C1). pose proof (cn_scale w C2).
  apply sim_spec; [now apply mod_common_m|]. intros r E r' ->.
  destruct (digits w) as [|d t] eqn:Ew.
  - unfold mod_common in E. rewrite (nan_ok c v), (nan_ok c w) in E by auto using canon_nan. cbn [bind] in E.
    destruct (div_common_spec c v w 0 false) as [G0 _]; auto using canon_dig, canon_nan; [lia|apply C2|].
    rewrite (G0 Ew) in E. discriminate.
  - destruct (mod_common_spec c v w C1 C2) as (r & E' & A); [congruence|]. rewrite E in E'. injection E' as <-.
    eapply ares_fine; [|..|exact A]; [lia|]. apply mult_sub; [now apply mult_max_l|].
    pose proof (mult_mul _ _ 0 _ (mult_Z (trunc_int (vval v / vval w)) 0 ltac:(lia)) (mult_max_r v w C2)) as M. exact M.
Qed.

Lemma assign_b c op op' b x y : brel c b x -> sim (brel c) (op x y) (op' c x y) ->
  moverelb c (m_op_assign op c (Some b) y) (op_assign op' c (Some x) y).
Proof.
  intros BR S. unfold m_op_assign, op_assign. cbn [m_deref deref bind]. rewrite (m_bytes c b x BR). cbn [bind].
  destruct (op x y) as [r| | |], (op' c x y) as [r'| | |]; cbn [sim] in S; try contradiction; subst; now split.
Qed.

(** ** histories *)
Lemma flag_relb c (x : outcome unit * option pbuf) (y : outcome unit * nbuf) : moverelb c x y -> moverelb c (flag x) (flag y).
Proof. intros [A B]. unfold flag. split; cbn [fst snd]; [now rewrite A|exact B]. Qed.
Lemma step_b c a o b x : Forall (valid (be_varlen c)) (operands o) -> brel c b x ->
  moverelb c (m_step c a o (Some b)) (step_all c o (Some x)).
Proof.
  intros V BR. pose proof (bufrel_valid c b x (proj1 BR)) as VX.
  destruct o as [[| |k|k|t|]|y|y|y|y|y]; cbn [m_step step_all step operands] in *;
    try (apply Forall_inv in V; apply flag_relb, assign_b; [exact BR|]).
  - now apply flag_relb, negate_mut_b.
  - now apply flag_relb, abs_mut_b.
  - now apply flag_relb, round_mut_b.
  - now apply flag_relb, trunc_mut_b.
  - now apply apply_typmod_b.
  - now apply clone_b.
  - now apply op_add_b.
  - now apply op_sub_b.
  - now apply op_mul_b.
  - now apply op_div_b.
  - now apply op_rem_b.
Qed.
Lemma assign_clean c op (x y : bytes) : clean (op c x y) -> clean (fst (flag (op_assign op c (Some x) y))).
Proof.
  intros [[z E]|[w E]]; unfold op_assign; cbn [deref bind]; rewrite E; [left|right]; eexists; reflexivity.
Qed.
Lemma settled_clean {A} (r : outcome A) : settled r -> clean r.
Proof. destruct r; cbn; try contradiction; intros _; [left|right]; eexists; reflexivity. Qed.
Lemma clean_expect {A} (x : outcome (option A)) m : clean x -> clean (o <- x ;; expect o m).
Proof. intros [[[a|] ->]|[w ->]]; cbn; [left|right|right]; eexists; reflexivity. Qed.
Lemma clean_op2 c x y (k : var -> var -> outcome (option var)) :
  clean (with_nan2 c x y (fun v1 v2 => o <- k v1 v2 ;; make_result_opt c o)) ->
  clean (nx <- num_is_nan c x ;; ny <- (if (nx : bool) then Ret true else num_is_nan c y) ;;
         if (ny : bool) then nan_buf c
         else v1 <- as_var c x ;; v2 <- as_var c y ;; o <- k v1 v2 ;; r <- expect o MDivZero ;; o <- make_result c r ;; expect o MOverflow).
Proof.
  unfold with_nan2. intros [[z E]|[w E]];
    (destruct (num_is_nan c x) as [nx| | |]; cbn [bind] in E |- *; try discriminate; try (right; eexists; reflexivity));
    (destruct (if nx then Ret true else num_is_nan c y) as [ny| | |]; cbn [bind] in E |- *; try discriminate; try (right; eexists; reflexivity));
    (destruct ny; [destruct (nan_buf c); cbn [bind] in E; try discriminate; try (left; eexists; reflexivity); right; eexists; reflexivity|]);
    (destruct (as_var c x) as [v1| | |]; cbn [bind] in E |- *; try discriminate; try (right; eexists; reflexivity));
    (destruct (as_var c y) as [v2| | |]; cbn [bind] in E |- *; try discriminate; try (right; eexists; reflexivity));
    (destruct (k v1 v2) as [[r|]| | |]; cbn [bind expect make_result_opt] in E |- *; try discriminate; try (right; eexists; reflexivity));
    rewrite E; cbn [bind]; try (right; eexists; reflexivity).
  destruct z; cbn [expect]; [left|right]; eexists; reflexivity.
Qed.
Lemma step_all_clean c o (x : bytes) : Forall (valid (be_varlen c)) (operands o) -> valid (be_varlen c) x ->
  clean (fst (step_all c o (Some x))).
Proof.
  intros V VX. destruct o as [o|y|y|y|y|y]; cbn [step_all operands] in *; [now apply step_clean|..];
    apply Forall_inv in V; apply assign_clean; destruct (div_settled c x y VX V) as (S1 & S2 & S3).
  - apply clean_expect, settled_clean. now apply add_settled.
  - apply clean_expect, settled_clean. now apply sub_settled.
  - apply clean_expect, settled_clean. now apply mul_settled.
  - apply (clean_op2 c x y (fun v w => checked_div_var c v w)). apply settled_clean. exact S1.
  - apply (clean_op2 c x y (fun v w => mod_common c v w)). apply settled_clean. exact S3.
Qed.

Definition usable (c : cfg) (e : mop * (nat -> nat -> Z)) : Prop := Forall (valid (be_varlen c)) (operands (fst e)).
Lemma run_b c h : forall b x, Forall (usable c) h -> orelb c b x ->
  fst (m_run c h b) = fst (run_all c (map fst h) x) /\ orelb c (snd (m_run c h b)) (snd (run_all c (map fst h) x)) /\
  Forall (fun r => (exists y, r = Ret y) \/ (exists w, r = Panic w)) (fst (m_run c h b)).
Proof.
  induction h as [|[o a] t IH]; intros b x U R.
  - cbn. repeat split; auto.
  - destruct b as [b|], x as [x|]; cbn in R; try contradiction.
    + cbn [m_run run_all map fst]. pose proof (step_b c a o b x (Forall_inv U) R) as [S1 S2].
      pose proof (step_all_clean c o x (Forall_inv U) (bufrel_valid c b x (proj1 R))) as CL.
      destruct (m_step c a o (Some b)) as [r b'], (step_all c o (Some x)) as [r' x']. cbn [fst snd] in *. subst r'.
      specialize (IH b' x' (Forall_inv_tail U) S2). destruct (m_run c t b') as [rs y], (run_all c (map fst t) x') as [rs' y']. cbn [fst snd] in *.
      destruct IH as (-> & IH & F). repeat split; auto.
    + cbn. repeat split; auto.
Qed.
Lemma orelb_shows c b x : orelb c b x -> shows c b x.
Proof. destruct b, x; cbn; auto. apply bufrel_bytes. Qed.

Theorem machine_history c a x : valid (be_varlen c) x ->
  exists b, m_num_to_owned c a x = Ret b /\ m_as_bytes c b = Ret x /\
    forall h, Forall (fun e => Forall (valid (be_varlen c)) (operands (fst e))) h ->
      let '(rs, b') := m_run c h (Some b) in let '(rs', x') := run_all c (map fst h) (Some x) in
      rs = rs' /\
      match b', x' with Some y, Some z => m_as_bytes c y = Ret z | None, None => True | _, _ => False end /\
      Forall (fun r => (exists y, r = Ret y) \/ (exists w, r = Panic w)) rs.
Proof.
  intro V. destruct (to_owned_b c a x V) as (b & E & R). exists b. split; [exact E|]. split; [now apply m_bytes|].
  intros h U. pose proof (run_b c h (Some b) (Some x) U R) as (H1 & H2 & H3).
  destruct (m_run c h (Some b)) as [rs b'], (run_all c (map fst h) (Some x)) as [rs' x']. cbn [fst snd] in *.
  split; [exact H1|]. split; [|exact H3]. destruct b', x'; cbn in *; auto. now apply m_bytes.
Qed.

(** ** after any history *)
Lemma after c a x b h rs b' : valid (be_varlen c) x -> m_num_to_owned c a x = Ret b ->
  Forall (fun e => Forall (valid (be_varlen c)) (operands (fst e))) h -> m_run c h (Some b) = (rs, Some b') ->
  exists z, m_as_bytes c b' = Ret z /\ brel c b' z.
Proof.
  intros V E U R. destruct (to_owned_b c a x V) as (b0 & E0 & R0). rewrite E in E0. apply Ret_inj in E0. subst b0.
  pose proof (run_b c h (Some b) (Some x) U R0) as (_ & H2 & _). rewrite R in H2. cbn [snd] in H2.
  destruct (snd (run_all c (map fst h) (Some x))) as [z|]; cbn in H2; [|contradiction]. exists z. split; [now apply m_bytes|exact H2].
Qed.
Theorem machine_typmod c a x b h rs b' z q s p sc t a' : valid (be_varlen c) x -> m_num_to_owned c a x = Ret b ->
  Forall (fun e => Forall (valid (be_varlen c)) (operands (fst e))) h -> m_run c h (Some b) = (rs, Some b') ->
  m_as_bytes c b' = Ret z -> stores (be_varlen c) z q s -> typmod_new c p sc = Ret (Some t) ->
  ((Qabs (round_at q sc) < limit)%Q ->
     exists f y w, m_apply_typmod c a' (Some b') t = (Ret f, Some y) /\ m_as_bytes c y = Ret w /\
       stores (be_varlen c) w (round_at q sc) sc /\ (f = true <-> (ten ^ (p - sc) <= Qabs (round_at q sc))%Q)) /\
  ((limit <= Qabs (round_at q sc))%Q -> m_apply_typmod c a' (Some b') t = (Ret true, None)).
Proof.
  intros V E U R A S T. destruct (after c a x b h rs b' V E U R) as (z' & A' & BR). rewrite A in A'. apply Ret_inj in A'. subst z'.
  destruct (apply_typmod_b c a' b' z t BR) as [M1 M2].
  destruct (Api4.apply_typmod_spec c z q s p sc t S T) as [G1 G2]. split; intro L.
  - destruct (G1 L) as (f & w & Ew & Sw & Fw). apply (fun h => eq_trans h (f_equal fst Ew)) in M1. pose proof (f_equal snd Ew) as W2. cbn [snd] in W2. apply (eq_rect _ (fun o => orelb c _ o)) with (2 := W2) in M2. cbn [fst snd] in M1, M2.
    destruct (m_apply_typmod c a' (Some b') t) as [r [y|]]; cbn [fst snd orelb] in M1, M2; [|contradiction]. subst r.
    exists f, y, w. split; [reflexivity|]. split; [now apply m_bytes|]. now split.
  - specialize (G2 L). apply (fun h => eq_trans h (f_equal fst G2)) in M1. pose proof (f_equal snd G2) as W2. cbn [snd] in W2. apply (eq_rect _ (fun o => orelb c _ o)) with (2 := W2) in M2. cbn [fst snd] in M1, M2.
    destruct (m_apply_typmod c a' (Some b') t) as [r [y|]]; cbn [fst snd orelb] in M1, M2; [contradiction|]. now subst r.
Qed.
Theorem machine_add_assign c a x b h rs b' z y q1 s1 q2 s2 a' : valid (be_varlen c) x -> m_num_to_owned c a x = Ret b ->
  Forall (fun e => Forall (valid (be_varlen c)) (operands (fst e))) h -> m_run c h (Some b) = (rs, Some b') ->
  m_as_bytes c b' = Ret z -> stores (be_varlen c) z q1 s1 -> stores (be_varlen c) y q2 s2 ->
  ((Qabs (q1 + q2) < limit)%Q ->
     exists r w, m_op_assign (m_op_add c a') c (Some b') y = (Ret tt, Some r) /\ m_as_bytes c r = Ret w /\
       stores (be_varlen c) w (q1 + q2) (Z.max s1 s2)) /\
  ((limit <= Qabs (q1 + q2))%Q -> m_op_assign (m_op_add c a') c (Some b') y = (Panic (WMsg MOverflow), Some b')).
Proof.
  intros V E U R A S S2. destruct (after c a x b h rs b' V E U R) as (z' & A' & BR). rewrite A in A'. apply Ret_inj in A'. subst z'.
  assert (V1 : valid (be_varlen c) z) by (right; eauto). assert (V2 : valid (be_varlen c) y) by (right; eauto).
  pose proof (op_add_b c a' z y V1 V2) as M. unfold op_add in M.
  destruct (checked_add_spec c z y q1 s1 q2 s2 S S2) as (o & Eo & G1 & G2). rewrite Eo in M. cbn [bind] in M.
  unfold m_op_assign. cbn [m_deref]. rewrite A. cbn [bind]. split; intro L.
  - destruct (G1 L) as (w & -> & Sw). cbn [expect] in M. destruct (m_op_add c a' z y) as [r| | |]; cbn [sim] in M; try contradiction.
    exists r, w. split; [reflexivity|]. split; [now apply m_bytes|exact Sw].
  - rewrite (G2 L) in M. cbn [expect] in M. destruct (m_op_add c a' z y) as [r| | |]; cbn [sim] in M; try contradiction. now subst.
Qed.
