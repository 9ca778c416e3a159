(** * Formula: formulas, run at the level of the machine, are exact (C99). *)
From Coq Require Import ZArith QArith Qabs Qround List Bool Lia Permutation.
From Verif Require Import Base Var Binary Typmod Format Parse Convert Num Data Spec SpecApi SpecText SpecData SpecMach
  Codec Strip Make Api1 Api2 Api3 Laws QDec ParseApi FormatApi ConvertApi
  DataSim DataBuf DataApi Mach MachSim MachApi MachText MachParse MachConv MachTextApi
  MachMut MachMutSim MachMutApi MachRest MachRestApi SpecMachReach SpecFormula.
Import ListNotations.
Open Scope Z_scope.

(** a call that delivers a buffer with these bytes *)
Definition gives (c : cfg) (o : outcome (option pbuf)) (y : bytes) : Prop := exists b, o = Ret (Some b) /\ m_as_bytes c b = Ret y.
(** a call that delivers nothing *)
Definition nothing (o : outcome (option pbuf)) : Prop := o = Ret None \/ exists w, o = Panic w.

Lemma sim_gives c o r y : sim (MachApi.optrel c) o r -> r = Ret (Some y) -> gives c o y.
Proof.
  intros S ->. destruct o as [[b|]| | |]; cbn [sim MachApi.optrel] in S; try contradiction.
  exists b. split; [reflexivity|]. apply m_bytes. exact S.
Qed.
Lemma sim_nothing c o r : sim (MachApi.optrel c) o r -> r = Ret None \/ (exists w, r = Panic w) -> nothing o.
Proof.
  intros S [->|[w ->]]; destruct o as [[b|]| | |]; cbn [sim MachApi.optrel] in S; try contradiction; [now left|right; eauto].
Qed.

Lemma some_eq (r : outcome bytes) y : r = Ret y -> some r = Ret (Some y).
Proof. intros ->. reflexivity. Qed.

Section F.
Variable c : cfg.
Notation st := (stores (be_varlen c)).
Notation nan := (nan_layout (be_varlen c)).

Definition b_unary (u : unary) (x : bytes) : outcome bytes :=
  match u with
  | Negate => num_negate c x | Abs => num_abs c x | Ceil => num_ceil c x | Floor => num_floor c x
  | Round k => num_round c x k | Trunc k => num_trunc c x k
  end.
Definition b_binary (b : binary) (x y : bytes) : outcome (option bytes) :=
  match b with
  | Add => checked_add c x y | Sub => checked_sub c x y | Mul => checked_mul c x y
  | DivTrunc => checked_div_trunc c x y | Rem => checked_rem c x y
  end.

Lemma unary_sim a u x : valid (be_varlen c) x -> sim (MachApi.optrel c) (m_unary c a u x) (some (b_unary u x)).
Proof.
  intro V. destruct u; cbn [m_unary b_unary].
  - exact (negate_mach c a x V).
  - exact (abs_mach c a x V).
  - exact (ceil_mach c a x V).
  - exact (floor_mach c a x V).
  - exact (round_mach c a x k V).
  - exact (trunc_mach c a x k V).
Qed.
Lemma binary_sim a b x y : valid (be_varlen c) x -> valid (be_varlen c) y -> sim (MachApi.optrel c) (m_binary c a b x y) (b_binary b x y).
Proof.
  intros V W. destruct b; cbn [m_binary b_binary].
  - now apply add_mach.
  - now apply sub_mach.
  - now apply mul_mach.
  - now apply div_trunc_mach.
  - now apply rem_mach.
Qed.

Lemma unary_spec u x q s : st x q s ->
  ((Qabs (unary_value u q) < limit)%Q -> exists y, b_unary u x = Ret y /\ st y (unary_value u q) (unary_scale u s)) /\
  ((limit <= Qabs (unary_value u q))%Q -> exists w, b_unary u x = Panic w).
Proof.
  intro S. pose proof (proj1 (stores_bound _ _ _ _ S)) as L.
  assert (T : forall r v t, (exists y, r = Ret y /\ st y v t) ->
    ((Qabs v < limit)%Q -> exists y, r = Ret y /\ st y v t) /\ ((limit <= Qabs v)%Q -> exists w, r = Panic w)).
  { intros r v t (y & E & Sy). split; [eauto|]. intro K. exfalso. apply (Qlt_not_le _ _ (proj1 (stores_bound _ _ _ _ Sy)) K). }
  assert (P : forall r v t, result_or_panic (be_varlen c) v t r ->
    ((Qabs v < limit)%Q -> exists y, r = Ret y /\ st y v t) /\ ((limit <= Qabs v)%Q -> exists w, r = Panic w)).
  { intros r v t [A B]. split; [exact A|]. intro K. eexists. exact (B K). }
  destruct u; cbn [b_unary unary_value unary_scale].
  - apply T. now apply num_negate_spec.
  - apply T. now apply num_abs_spec.
  - apply P. exact (num_ceil_spec c x q s S).
  - apply P. exact (num_floor_spec c x q s S).
  - apply P. exact (num_round_spec c x q s k S).
  - apply T. exact (num_trunc_spec c x q s k S).
Qed.
Lemma unary_nan u : b_unary u nan = Ret nan.
Proof.
  destruct u; cbn [b_unary]; [..|pose proof (nan_unary c nan k eq_refl) as N|pose proof (nan_unary c nan k eq_refl) as N]; try pose proof (nan_unary c nan 0 eq_refl) as N; apply N.
Qed.

Lemma binary_spec b x y p q s t : st x p s -> st y q t ->
  (binary_defined b q s t -> (Qabs (binary_value b p q) < limit)%Q -> exists z, b_binary b x y = Ret (Some z) /\ st z (binary_value b p q) (binary_scale b s t)) /\
  (~ binary_defined b q s t \/ (limit <= Qabs (binary_value b p q))%Q -> b_binary b x y = Ret None \/ exists w, b_binary b x y = Panic w).
Proof.
  intros S T.
  assert (P : forall r v k, (exists o, r = Ret o /\ result_of (be_varlen c) v k o) ->
    ((Qabs v < limit)%Q -> exists z, r = Ret (Some z) /\ st z v k) /\ ((limit <= Qabs v)%Q -> r = Ret None)).
  { intros r v k (o & -> & A & B). split; intro K; [destruct (A K) as (z & -> & Z1); eauto|now rewrite (B K)]. }
  destruct b; cbn [b_binary binary_value binary_scale binary_defined].
  - destruct (P _ _ _ (checked_add_spec c x y p s q t S T)) as [A B]. split; [auto|]. intros [K|K]; [now destruct K|left; auto].
  - destruct (P _ _ _ (checked_sub_spec c x y p s q t S T)) as [A B]. split; [auto|]. intros [K|K]; [now destruct K|left; auto].
  - destruct (Z_le_gt_dec (s + t) 16383) as [L|G].
    + destruct (P _ _ _ (checked_mul_spec c x y p s q t S T L)) as [A B]. split; [auto|]. intros [K|K]; [now destruct K|left; auto].
    + split; [intro K; lia|]. intros _. destruct (checked_mul_scale c x y p s q t S T ltac:(lia)) as [A B].
      destruct (Qeq_dec p 0) as [Z1|N1]; [rewrite B by (now left); destruct (dbg c); eauto|].
      destruct (Qeq_dec q 0) as [Z2|N2]; [rewrite B by (now right); destruct (dbg c); eauto|]. left. now apply A.
  - destruct (Qeq_dec q 0) as [Z2|N2]; [split; [intro K; now destruct K|intros _; left; now apply (div_by_zero c x y p s q t)]|].
    destruct (P _ _ _ (checked_div_trunc_spec c x y p s q t S T N2)) as [A B]. split; [auto|]. intros [K|K]; [now destruct K|left; auto].
  - destruct (Qeq_dec q 0) as [Z2|N2]; [split; [intro K; now destruct K|intros _; left; now apply (div_by_zero c x y p s q t)]|].
    destruct (checked_rem_spec c x y p s q t S T N2) as (z & E & Sz). split; [eauto|]. intros [K|K]; [now destruct K|].
    exfalso. exact (Qlt_not_le _ _ (proj1 (stores_bound _ _ _ _ Sz)) K).
Qed.
Lemma binary_nan b x y : valid (be_varlen c) x -> valid (be_varlen c) y -> stores_nan (be_varlen c) x \/ stores_nan (be_varlen c) y -> b_binary b x y = Ret (Some nan).
Proof. intros V W N. pose proof (nan_arith c x y V W N) as K. destruct b; apply K. Qed.

Lemma stores_valid x q s : st x q s -> valid (be_varlen c) x.
Proof. intro S. right. eauto. Qed.

Lemma stores_repr x p s n : st x p s -> canonical n -> (value n == p)%Q -> scale n = s -> x = layout (be_varlen c) n.
Proof.
  intros S C V D. apply (stores_unique (be_varlen c) x _ p s S). exists n. auto.
Qed.
(** division, of numbers *)
Lemma quotient_spec x y p q n1 n2 : canonical n1 -> canonical n2 -> (value n1 == p)%Q -> (value n2 == q)%Q -> st x p (scale n1) -> st y q (scale n2) ->
  let d := div_scale n1 n2 in
  (~ (q == 0)%Q -> (Qabs (round_at (p / q) d) < limit)%Q -> exists z, checked_div c x y = Ret (Some z) /\ st z (round_at (p / q) d) d) /\
  ((q == 0)%Q \/ (limit <= Qabs (round_at (p / q) d))%Q -> checked_div c x y = Ret None).
Proof.
  intros C1 C2 V1 V2 S T d. rewrite (stores_repr x p _ n1 S C1 V1 eq_refl), (stores_repr y q _ n2 T C2 V2 eq_refl).
  destruct (Qeq_dec q 0) as [Z|N].
  - split; [intro K; now destruct K|]. intros _. apply (div_by_zero c _ _ (value n1) (scale n1) (value n2) (scale n2)); [now apply canonical_stores|now apply canonical_stores|now rewrite V2].
  - destruct (checked_div_numbers c n1 n2 C1 C2 ltac:(now rewrite V2)) as (o & -> & A & B). fold d in A, B.
    assert (E : (round_at (value n1 / value n2) d == round_at (p / q) d)%Q) by (apply Round.round_at_comp; now rewrite V1, V2).
    split; [intros _ L; destruct A as (z & -> & Z); [now rewrite E|]; exists z; split; [reflexivity|]|intros [K|K]; [now destruct N|]; rewrite B; [reflexivity|now rewrite E]].
    destruct Z as (n & C & L1 & V & D). exists n. split; [exact C|]. split; [exact L1|]. split; [now rewrite V, E|exact D].
Qed.

(** a number written, an integer *)
Lemma written_ok a s : len s < 2 ^ 30 - 8 ->
  (forall t l, spaced s t -> literal_text t l -> in_range l -> exists x, gives c (got (m_from_str c a s)) x /\ st x (literal_value l) (literal_scale l)) /\
  (nothing (got (m_from_str c a s)) \/ (exists x, gives c (got (m_from_str c a s)) x /\
     ((x = nan /\ exists t, spaced s t /\ nan_text t) \/ exists t l, spaced s t /\ literal_text t l /\ in_range l /\ st x (literal_value l) (literal_scale l)))).
Proof.
  intro L. pose proof (parse_b c a s L) as P. split.
  - intros t l S T R. destruct (parse_complete c s t l S T R) as (x & E & Sx). exists x. split; [|exact Sx]. rewrite E in P.
    destruct (m_from_str c a s) as [[b|e]| | |]; cbn in P; try contradiction. exists b. split; [reflexivity|]. apply m_bytes. exact P.
  - destruct (from_str c s) as [[x|e]| | |] eqn:E; destruct (m_from_str c a s) as [[b|e']| | |]; cbn in P; try contradiction.
    + right. exists x. split; [exists b; split; [reflexivity|apply m_bytes; exact P]|].
      destruct (parse_sound c s x L E) as (t & S & [[N0 N]|(l & T & R & Sx)]); [left; split; [exact N|now exists t]|right; exists t, l; auto].
    + left. now left.
Qed.
Lemma int_ok a k : - 2 ^ 63 <= k < 2 ^ 63 -> exists x, gives c (some_buf (m_num_from_signed c a 64 k)) x /\ st x (inject_Z k) 0.
Proof.
  intro H. assert (W : int_width 64) by (unfold int_width; auto 10).
  destruct (num_from_signed_spec c 64 k W H) as (x & E & S). exists x. split; [|exact S].
  pose proof (from_signed_m c a 64 k W H) as M. rewrite E in M. destruct (m_num_from_signed c a 64 k) as [b| | |]; cbn [sim] in M; try contradiction.
  exists b. split; [reflexivity|]. apply m_bytes. exact M.
Qed.

Lemma with_gives o k x y : gives c o x -> gives c (k x) y -> gives c (with_bytes c o k) y.
Proof. intros (b & -> & E) G. unfold with_bytes. rewrite ret_bind, E, ret_bind. exact G. Qed.
Lemma with_ret o k x : gives c o x -> with_bytes c o k = k x.
Proof. intros (b & -> & E). unfold with_bytes. now rewrite ret_bind, E, ret_bind. Qed.
Lemma with_nothing o k : nothing o -> nothing (with_bytes c o k).
Proof. intros [->|[w ->]]; [now left|right; now exists w]. Qed.

(** ** complete: a formula with a meaning gives it *)
Theorem formula_exact f : forall a q s, writable f -> means f q s -> exists x, gives c (m_eval c a f) x /\ st x q s.
Proof.
  induction f as [s|k|u f IH|b f IHf g IHg|f IHf g IHg]; intros a q s0 W M; inversion M; subst; cbn [m_eval writable] in *.
  - exact (proj1 (written_ok (a []) s W) t l ltac:(assumption) ltac:(assumption) ltac:(assumption)).
  - now apply int_ok.
  - destruct (IH (fun p => a (true :: p)) _ _ W ltac:(eassumption)) as (x & G & S). destruct (proj1 (unary_spec u x _ _ S) ltac:(assumption)) as (y & E & Sy).
    exists y. split; [|exact Sy]. apply (with_gives _ _ x); [exact G|]. apply (sim_gives c _ _ y (unary_sim _ u x (stores_valid _ _ _ S))). now apply some_eq.
  - destruct W as [W1 W2]. destruct (IHf (fun p => a (true :: p)) _ _ W1 ltac:(eassumption)) as (x & G & S).
    destruct (IHg (fun p => a (false :: p)) _ _ W2 ltac:(eassumption)) as (y & G' & S').
    destruct (proj1 (binary_spec b x y _ _ _ _ S S') ltac:(assumption) ltac:(assumption)) as (z & E & Sz). exists z. split; [|exact Sz].
    apply (with_gives _ _ x); [exact G|]. apply (with_gives _ _ y); [exact G'|].
    apply (sim_gives c _ _ z (binary_sim _ b x y (stores_valid _ _ _ S) (stores_valid _ _ _ S'))). exact E.
  - destruct W as [W1 W2]. destruct (IHf (fun p => a (true :: p)) _ _ W1 ltac:(eassumption)) as (x & G & S).
    destruct (IHg (fun p => a (false :: p)) _ _ W2 ltac:(eassumption)) as (y & G' & S').
    destruct (quotient_spec x y p q0 n1 n2 ltac:(assumption) ltac:(assumption) ltac:(assumption) ltac:(assumption) S S') as [A _].
    destruct (A ltac:(assumption) ltac:(assumption)) as (z & E & Sz). exists z. split; [|exact Sz].
    apply (with_gives _ _ x); [exact G|]. apply (with_gives _ _ y); [exact G'|].
    apply (sim_gives c _ _ z (div_mach c _ x y (stores_valid _ _ _ S) (stores_valid _ _ _ S'))). exact E.
Qed.

(** ** sound: nothing, NaN, or the meaning *)
Theorem formula_outcomes f : forall a, writable f ->
  nothing (m_eval c a f) \/ (gives c (m_eval c a f) nan /\ has_nan f) \/ exists x q s, gives c (m_eval c a f) x /\ means f q s /\ st x q s.
Proof.
  induction f as [s|k|u f IH|b f IHf g IHg|f IHf g IHg]; intros a W; cbn [m_eval writable has_nan] in *.
  - destruct (proj2 (written_ok (a []) s W)) as [N|(x & G & [[-> HN]|(t & l & S & T & R & Sx)])]; [now left|now right; left|].
    right. right. exists x, (literal_value l), (literal_scale l). split; [exact G|]. split; [now apply (means_written s t l)|exact Sx].
  - destruct (int_ok (a []) k W) as (x & G & S). right. right. exists x, (inject_Z k), 0. split; [exact G|]. split; [constructor|exact S].
  - destruct (IH (fun p => a (true :: p)) W) as [N|[[G HN]|(x & q & s & G & M & S)]].
    + left. now apply with_nothing.
    + right. left. split; [|exact HN]. apply (with_gives _ _ nan); [exact G|]. apply (sim_gives c _ _ nan (unary_sim _ u nan (or_introl eq_refl))). apply some_eq, unary_nan.
    + rewrite (with_ret _ _ _ G). destruct (unary_spec u x q s S) as [A B]. pose proof (unary_sim (a []) u x (stores_valid _ _ _ S)) as SI.
      destruct (Qlt_le_dec (Qabs (unary_value u q)) limit) as [L|L].
      * destruct (A L) as (y & E & Sy). right. right. exists y, (unary_value u q), (unary_scale u s). split; [apply (sim_gives c _ _ y SI); now apply some_eq|].
        split; [now constructor|exact Sy].
      * left. apply (sim_nothing c _ _ SI). right. destruct (B L) as (w & E). exists w. now rewrite E.
  - destruct W as [W1 W2]. destruct (IHf (fun p => a (true :: p)) W1) as [N|H]; [left; now apply with_nothing|].
    assert (HX : exists x, gives c (m_eval c (fun p => a (true :: p)) f) x /\ ((x = nan /\ has_nan f) \/ exists q s, means f q s /\ st x q s)).
    { destruct H as [[G HN]|(x & q & s & G & M & S)]; [exists nan; auto|exists x; split; [exact G|right; exists q, s; auto]]. }
    clear H. destruct HX as (x & G & HX). rewrite (with_ret _ _ _ G).
    destruct (IHg (fun p => a (false :: p)) W2) as [N|H]; [left; now apply with_nothing|].
    assert (HY : exists y, gives c (m_eval c (fun p => a (false :: p)) g) y /\ ((y = nan /\ has_nan g) \/ exists q s, means g q s /\ st y q s)).
    { destruct H as [[G' HN]|(y & q & s & G' & M & S)]; [exists nan; auto|exists y; split; [exact G'|right; exists q, s; auto]]. }
    clear H. destruct HY as (y & G' & HY). rewrite (with_ret _ _ _ G').
    assert (Vx : valid (be_varlen c) x) by (destruct HX as [[-> _]|(q & s & _ & S)]; [now left|now apply (stores_valid x q s)]).
    assert (Vy : valid (be_varlen c) y) by (destruct HY as [[-> _]|(q & s & _ & S)]; [now left|now apply (stores_valid y q s)]).
    pose proof (binary_sim (a []) b x y Vx Vy) as SI.
    destruct HX as [[-> HN]|(p & s & M & S)]; [right; left; split; [|now left]; apply (sim_gives c _ _ nan SI), binary_nan; auto; now left|].
    destruct HY as [[-> HN]|(q & t & M' & S')]; [right; left; split; [|now right]; apply (sim_gives c _ _ nan SI), binary_nan; auto; now right|].
    destruct (binary_spec b x y p q s t S S') as [A B].
    assert (D : binary_defined b q s t \/ ~ binary_defined b q s t).
    { destruct b; cbn [binary_defined]; auto; [lia|destruct (Qeq_dec q 0); auto|destruct (Qeq_dec q 0); auto]. }
    destruct D as [D|D]; [|left; apply (sim_nothing c _ _ SI), B; now left].
    destruct (Qlt_le_dec (Qabs (binary_value b p q)) limit) as [L|L]; [|left; apply (sim_nothing c _ _ SI), B; now right].
    destruct (A D L) as (z & E & Sz). right. right. exists z, (binary_value b p q), (binary_scale b s t).
    split; [exact (sim_gives c _ _ z SI E)|]. split; [now constructor|exact Sz].
  - destruct W as [W1 W2]. destruct (IHf (fun p => a (true :: p)) W1) as [N|H]; [left; now apply with_nothing|].
    assert (HX : exists x, gives c (m_eval c (fun p => a (true :: p)) f) x /\ ((x = nan /\ has_nan f) \/ exists q s, means f q s /\ st x q s)).
    { destruct H as [[G HN]|(x & q & s & G & M & S)]; [exists nan; auto|exists x; split; [exact G|right; exists q, s; auto]]. }
    clear H. destruct HX as (x & G & HX). rewrite (with_ret _ _ _ G).
    destruct (IHg (fun p => a (false :: p)) W2) as [N|H]; [left; now apply with_nothing|].
    assert (HY : exists y, gives c (m_eval c (fun p => a (false :: p)) g) y /\ ((y = nan /\ has_nan g) \/ exists q s, means g q s /\ st y q s)).
    { destruct H as [[G' HN]|(y & q & s & G' & M & S)]; [exists nan; auto|exists y; split; [exact G'|right; exists q, s; auto]]. }
    clear H. destruct HY as (y & G' & HY). rewrite (with_ret _ _ _ G').
    assert (Vx : valid (be_varlen c) x) by (destruct HX as [[-> _]|(q & s & _ & S)]; [now left|now apply (stores_valid x q s)]).
    assert (Vy : valid (be_varlen c) y) by (destruct HY as [[-> _]|(q & s & _ & S)]; [now left|now apply (stores_valid y q s)]).
    pose proof (div_mach c (a []) x y Vx Vy) as SI.
    destruct HX as [[-> HN]|(p & s & M & S)]; [right; left; split; [|now left]; apply (sim_gives c _ _ nan SI); apply (nan_arith c nan y Vx Vy); now left|].
    destruct HY as [[-> HN]|(q & t & M' & S')]; [right; left; split; [|now right]; apply (sim_gives c _ _ nan SI); apply (nan_arith c x nan Vx Vy); now right|].
    destruct S as (n1 & C1 & -> & V1 & <-). destruct S' as (n2 & C2 & -> & V2 & <-).
    destruct (quotient_spec _ _ p q n1 n2 C1 C2 V1 V2 ltac:(exists n1; auto) ltac:(exists n2; auto)) as [A B].
    destruct (Qeq_dec q 0) as [Z|NZ]; [left; apply (sim_nothing c _ _ SI); left; auto|].
    destruct (Qlt_le_dec (Qabs (round_at (p / q) (div_scale n1 n2))) limit) as [L|L]; [|left; apply (sim_nothing c _ _ SI); left; auto].
    destruct (A NZ L) as (z & E & Sz). right. right. exists z, (round_at (p / q) (div_scale n1 n2)), (div_scale n1 n2).
    split; [exact (sim_gives c _ _ z SI E)|]. split; [|exact Sz]. now apply (means_quotient f g p q (scale n1) (scale n2)).
Qed.

Lemma gives_fun o x y : gives c o x -> gives c o y -> x = y.
Proof. intros (b & E & X) (b' & E' & Y). rewrite E in E'. apply Ret_inj in E'. injection E' as <-. rewrite X in Y. now apply Ret_inj in Y. Qed.

Definition no_mem : list bool -> nat -> nat -> Z := fun _ _ _ => 0.
Theorem means_fun f q s q' s' : writable f -> means f q s -> means f q' s' -> (q == q')%Q /\ s = s'.
Proof using c.
  intros W M M'. destruct (formula_exact f no_mem q s W M) as (x & G & S). destruct (formula_exact f no_mem q' s' W M') as (y & G' & S').
  rewrite (gives_fun _ _ _ G' G) in S'. exact (stores_fun _ _ _ _ _ _ S S').
Qed.

(** ** sums in any order *)
Definition vsum (l : list (Q * Z)) : Q := fold_right (fun v r => fst v + r)%Q (inject_Z 0) l.
Definition vmax (l : list (Q * Z)) : Z := fold_right (fun v r => Z.max (snd v) r) 0 l.

Lemma total_values l : forall q s, means (total l) q s ->
  exists vs, Forall2 (fun f v => means f (fst v) (snd v)) l vs /\ (q == vsum vs)%Q /\ s = vmax vs.
Proof using.
  induction l as [|f l IH]; intros q s M.
  - change (means (Int 0) q s) in M. inversion M; subst. exists []. split; [constructor|]. split; reflexivity.
  - change (means (Binary Add f (total l)) q s) in M. inversion M; subst. destruct (IH q0 t ltac:(assumption)) as (vs & F & V & X).
    exists ((p, s0) :: vs). split; [now constructor|]. cbn [binary_value binary_scale vsum vmax fold_right fst snd]. split; [|now rewrite X].
    unfold vsum in V. now rewrite V.
Qed.

Lemma forall2_perm {A B} (R : A -> B -> Prop) l l' : Permutation l l' -> forall vs, Forall2 R l vs -> exists vs', Forall2 R l' vs' /\ Permutation vs vs'.
Proof using.
  induction 1 as [|x l l' P IH|x y l|l l1 l2 P1 IH1 P2 IH2]; intros vs F.
  - inversion F. exists []. split; constructor.
  - inversion F as [|? v ? us R1 F1]; subst. destruct (IH us F1) as (us' & F' & P'). exists (v :: us'). split; now constructor.
  - inversion F as [|? v ? us R1 F1]; subst. inversion F1 as [|? v' ? us' R2 F2]; subst. exists (v' :: v :: us'). split; [now repeat constructor|apply perm_swap].
  - destruct (IH1 vs F) as (v1 & F1 & Q1). destruct (IH2 v1 F1) as (v2 & F2 & Q2). exists v2. split; [exact F2|]. now apply (Permutation_trans Q1).
Qed.

Lemma vsum_perm l l' : Permutation l l' -> (vsum l == vsum l')%Q /\ vmax l = vmax l'.
Proof using.
  induction 1 as [|x l l' P [I J]|x y l|l l1 l2 P1 [I1 J1] P2 [I2 J2]]; cbn [vsum vmax fold_right] in *.
  - split; reflexivity.
  - unfold vsum, vmax in I, J. split; [now rewrite I|now rewrite J].
  - split; [ring|lia].
  - split; [now rewrite I1|congruence].
Qed.

Lemma same_values l : Forall writable l -> forall vs us, Forall2 (fun f v => means f (fst v) (snd v)) l vs -> Forall2 (fun f v => means f (fst v) (snd v)) l us ->
  (vsum vs == vsum us)%Q /\ vmax vs = vmax us.
Proof using c.
  induction 1 as [|f l W _ IH]; intros vs us F G; inversion F as [|? v ? vs' M F']; inversion G as [|? u ? us' M' G']; subst; cbn [vsum vmax fold_right].
  - split; reflexivity.
  - destruct (IH _ _ F' G') as [I J]. destruct (means_fun f _ _ _ _ W M M') as [I' J']. unfold vsum, vmax in I, J. split; [now rewrite I, I'|now rewrite J, J'].
Qed.

Lemma total_writable l : Forall writable l -> writable (total l).
Proof using. induction 1; cbn; [lia|]. now split. Qed.

Theorem same_bytes f g a a' x y q s q' s' : writable f -> writable g -> means f q s -> means g q' s' -> (q == q')%Q -> s = s' ->
  gives c (m_eval c a f) x -> gives c (m_eval c a' g) y -> x = y.
Proof.
  intros W W' M M' E -> G G'. destruct (formula_exact f a q s' W M) as (x1 & G1 & S1). destruct (formula_exact g a' q' s' W' M') as (y1 & G2 & S2).
  rewrite (gives_fun _ _ _ G G1), (gives_fun _ _ _ G' G2). apply (stores_unique (be_varlen c) x1 y1 q' s'); [|exact S2].
  destruct S1 as (n & C & L & V & D). exists n. split; [exact C|]. split; [exact L|]. split; [now rewrite V|exact D].
Qed.

Theorem sum_order l l' a a' q s q' s' : Permutation l l' -> Forall writable l -> means (total l) q s -> means (total l') q' s' ->
  (q == q')%Q /\ s = s' /\ exists x, gives c (m_eval c a (total l)) x /\ gives c (m_eval c a' (total l')) x.
Proof.
  intros P W M M'. destruct (total_values l q s M) as (vs & F & V & X). destruct (total_values l' q' s' M') as (us & F' & V' & X').
  destruct (forall2_perm _ l l' P vs F) as (vs' & F2 & P2). destruct (vsum_perm _ _ P2) as [A B].
  assert (W' : Forall writable l') by exact (Permutation_Forall P W).
  destruct (same_values l' W' _ _ F2 F') as [A' B'].
  assert (E : (q == q')%Q) by now rewrite V, V', A, A'. assert (E' : s = s') by congruence.
  split; [exact E|]. split; [exact E'|].
  destruct (formula_exact _ a _ _ (total_writable l W) M) as (x & G & _). destruct (formula_exact _ a' _ _ (total_writable l' W') M') as (y & G' & _).
  exists x. split; [exact G|]. now rewrite (same_bytes _ _ _ _ _ _ _ _ _ _ (total_writable l W) (total_writable l' W') M M' E E' G G').
Qed.

Theorem formula_text f a q s : writable f -> means f q s -> exists b x t, m_eval c a f = Ret (Some b) /\ m_as_bytes c b = Ret x /\ st x q s /\
  m_num_display c x = Ret t /\ plain_text t q s.
Proof.
  intros W M. destruct (formula_exact f a q s W M) as (x & (b & E & B) & S).
  assert (W8 : int_width 64) by (unfold int_width; auto 10).
  destruct (proj2 (proj2 (machine_int_values c (a []) 64 W8)) x q s S) as (_ & _ & t & D & P). exists b, x, t. auto.
Qed.
(** the displayed text is short enough to be read again *)
Lemma plain_len t q s : plain_text t q s -> (Qabs q < limit)%Q -> 0 <= s <= 16383 -> len t <= 147457.
Proof using.
  intros (n & ip & fp & -> & Fi & Ff & Li & Lf & Hn & Hq) Lim Hs.
  assert (K : len ip <= 131072).
  { destruct Li as [->|(b & r & -> & Nb)]; [change (len [48]) with 1; lia|].
    pose proof (number_lead_bound b r fp Fi Ff Nb) as Lb.
    destruct (Z_le_dec (len (b :: r)) 131072) as [K|K]; [exact K|]. exfalso.
    rewrite Hq in Lim. change (ten ^ (- s))%Q with (p10 (- s)) in Lim.
    apply (Qlt_not_le _ _ Lim). change (limit <= dec (number_of ((b :: r) ++ fp)) (- s))%Q. rewrite limit_p10, <- dec_1.
    replace (4 * 32768) with (- s + (131072 + s)) by lia. rewrite <- dec_shift by lia. apply dec_le_iff.
    apply Z.le_trans with (10 ^ (len (b :: r) - 1 + len fp)); [|exact Lb]. rewrite Z.mul_1_l. apply Z.pow_le_mono_r; lia. }
  rewrite !Text.len_app. assert (len (if n then [45] else []) <= 1) by (destruct n; cbn; lia).
  assert (len (if s =? 0 then [] else 46 :: fp) <= 1 + s) by (destruct (s =? 0); [change (len []) with 0; lia|rewrite Text.len_cons; lia]). lia.
Qed.
(** a formula can be cut anywhere: what is displayed means the same when read again, and gives the same bytes *)
Theorem formula_cut f a a' q s : writable f -> means f q s -> exists b x t b', m_eval c a f = Ret (Some b) /\ m_as_bytes c b = Ret x /\
  m_num_display c x = Ret t /\ writable (Written t) /\ (exists q', (q' == q)%Q /\ means (Written t) q' s) /\
  m_eval c a' (Written t) = Ret (Some b') /\ m_as_bytes c b' = Ret x.
Proof.
  intros W M. destruct (formula_text f a q s W M) as (b & x & t & E & X & S & D & P).
  destruct (stores_bound _ _ _ _ S) as (B & Hs & _). pose proof (plain_len t q s P B Hs) as L.
  destruct (plain_literal t q s P B Hs) as (l & T & R & V & Sl).
  assert (W' : writable (Written t)) by (cbn [writable]; lia).
  assert (M' : means (Written t) (literal_value l) s) by (rewrite <- Sl; exact (means_written t t l (blank_spaced t) T R)).
  destruct (formula_exact (Written t) a' _ _ W' M') as (y & (b' & E' & Y) & _).
  assert (y = x).
  { symmetry. apply (same_bytes f (Written t) a a' x y q s (literal_value l) s W W' M M'); [now symmetry|reflexivity|exists b; auto|exists b'; auto]. }
  subst y. exists b, x, t, b'. repeat (split; [assumption|]). split; [exists (literal_value l); auto|]. auto.
Qed.
Theorem formula_sound f a : writable f ->
  m_eval c a f = Ret None \/ (exists w, m_eval c a f = Panic w) \/
  exists b x, m_eval c a f = Ret (Some b) /\ m_as_bytes c b = Ret x /\ ((stores_nan (be_varlen c) x /\ has_nan f) \/ exists q s, means f q s /\ st x q s).
Proof.
  intro W. destruct (formula_outcomes f a W) as [[N|N]|[[(b & E & B) HN]|(x & q & s & (b & E & B) & M & S)]]; [now left|now right; left| |]; right; right.
  - exists b, nan. split; [exact E|]. split; [exact B|now left].
  - exists b, x. split; [exact E|]. split; [exact B|]. right. eauto.
Qed.
End F.
