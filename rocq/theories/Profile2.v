(** * Profile2: debug builds only add checks (public API and approximate functions) *)
From Coq Require Import ZArith QArith List Bool Lia.
From Verif Require Import Base Var Binary Format Parse Typmod Convert Num Flt Transc SpecProfile Profile.
Import ListNotations.
Open Scope Z_scope.

Ltac go f := intros; unfold f; mono.

Lemma le_negate_n : forall c x, le (num_negate c x) (num_negate (rel c) x). Proof. go num_negate. Qed.
Lemma le_signum_n : forall c x, le (num_signum c x) (num_signum (rel c) x). Proof. go num_signum. Qed.
Lemma le_inc_n : forall c x, le (num_inc c x) (num_inc (rel c) x). Proof. go num_inc. Qed.
Lemma le_with_nan2 : forall c x y k k', (forall v w, le (k v w) (k' v w)) ->
  le (with_nan2 c x y k) (with_nan2 (rel c) x y k').
Proof. intros. unfold with_nan2. mono. Qed.
Lemma le_add : forall c x y, le (checked_add c x y) (checked_add (rel c) x y).
Proof. intros. apply le_with_nan2. intros. mono. Qed.
Lemma le_sub : forall c x y, le (checked_sub c x y) (checked_sub (rel c) x y).
Proof. intros. apply le_with_nan2. intros. mono. Qed.
Lemma le_mul : forall c x y, le (checked_mul c x y) (checked_mul (rel c) x y).
Proof. intros. apply le_with_nan2. intros. mono. Qed.
Lemma le_make_opt : forall c o, le (make_result_opt c o) (make_result_opt (rel c) o). Proof. go make_result_opt. Qed.
#[global] Hint Resolve le_make_opt le_add le_sub le_mul : prof.
Lemma le_div : forall c x y, le (checked_div c x y) (checked_div (rel c) x y).
Proof. intros. apply le_with_nan2. intros. mono. Qed.
Lemma le_div_trunc : forall c x y, le (checked_div_trunc c x y) (checked_div_trunc (rel c) x y).
Proof. intros. apply le_with_nan2. intros. mono. Qed.
Lemma le_rem : forall c x y, le (checked_rem c x y) (checked_rem (rel c) x y).
Proof. intros. apply le_with_nan2. intros. mono. Qed.
Lemma le_op_div : forall c x y, le (op_div c x y) (op_div (rel c) x y). Proof. go op_div. Qed.
Lemma le_op_rem : forall c x y, le (op_rem c x y) (op_rem (rel c) x y). Proof. go op_rem. Qed.
Lemma le_op_add : forall c x y, le (op_add c x y) (op_add (rel c) x y). Proof. go op_add. Qed.
Lemma le_op_sub : forall c x y, le (op_sub c x y) (op_sub (rel c) x y). Proof. go op_sub. Qed.
Lemma le_op_mul : forall c x y, le (op_mul c x y) (op_mul (rel c) x y). Proof. go op_mul. Qed.
Lemma le_round_n : forall c x s, le (num_round c x s) (num_round (rel c) x s). Proof. go num_round. Qed.
Lemma le_trunc_n : forall c x s, le (num_trunc c x s) (num_trunc (rel c) x s). Proof. go num_trunc. Qed.
Lemma le_ceil_n : forall c x, le (num_ceil c x) (num_ceil (rel c) x). Proof. go num_ceil. Qed.
Lemma le_floor_n : forall c x, le (num_floor c x) (num_floor (rel c) x). Proof. go num_floor. Qed.
Lemma le_abs_n : forall c x, le (num_abs c x) (num_abs (rel c) x). Proof. go num_abs. Qed.
Lemma le_normalize_n : forall c x, le (num_normalize c x) (num_normalize (rel c) x). Proof. go num_normalize. Qed.
Lemma le_display_n : forall c x, le (num_display c x) (num_display (rel c) x). Proof. go num_display. Qed.
Lemma le_cmp_n : forall c x y, le (num_cmp c x y) (num_cmp (rel c) x y). Proof. go num_cmp. Qed.
#[global] Hint Resolve le_cmp_n : prof.
Lemma le_eq_n : forall c x y, le (num_eq c x y) (num_eq (rel c) x y). Proof. go num_eq. Qed.
Lemma le_hash_n : forall c x, le (num_hash c x) (num_hash (rel c) x). Proof. go num_hash. Qed.
Lemma le_to_owned : forall c x, le (num_to_owned c x) (num_to_owned (rel c) x). Proof. go num_to_owned. Qed.
Lemma le_clone : forall c x, le (num_clone c x) (num_clone (rel c) x). Proof. go num_clone. Qed.
Lemma le_factorial_n : forall c n, le (num_factorial c n) (num_factorial (rel c) n). Proof. go num_factorial. Qed.

(** In-place operations *)
Lemma agree_stored : forall A (a b : outcome (A * option bytes)), le a b -> agree_mut (stored a) (stored b).
Proof.
  unfold le, agree, agree_mut, trapped. intros A a b [[E|E]|[E|E]]; subst; cbn; auto.
Qed.

Lemma agree_guard : forall A B (a b : outcome A) (f g : A -> outcome B * nbuf) (n : nbuf),
  le a b -> (forall x, agree_mut (f x) (g x)) ->
  agree_mut (match a with Ret x => f x | Panic w => (Panic w, n) | UB => (UB, n) | Diverge => (Diverge, n) end)
            (match b with Ret x => g x | Panic w => (Panic w, n) | UB => (UB, n) | Diverge => (Diverge, n) end).
Proof.
  unfold le, agree, agree_mut, trapped. intros A B a b f g n [[E|E]|[E|E]] H; subst; cbn; auto.
  destruct a; cbn; auto.
Qed.

Lemma agree_mut_refl : forall A B (p : outcome A * B), agree_mut p p.
Proof. unfold agree_mut. auto. Qed.

Lemma agree_negate_mut : forall c b, agree_mut (negate_mut c b) (negate_mut (rel c) b).
Proof.
  intros. unfold negate_mut, untouched.
  refine (agree_guard _ _ _ _ (fun p => let '(x, n) := p in if n : bool then _ else _)
            (fun p => let '(x, n) := p in if n : bool then _ else _) _ _ _); [mono|].
  intros [x [|]]; [apply agree_mut_refl|]. apply agree_stored. mono.
Qed.

Lemma agree_abs_mut : forall c b, agree_mut (abs_mut c b) (abs_mut (rel c) b).
Proof.
  intros. unfold abs_mut, untouched.
  assert (H : le (x <- deref b;; n <- num_is_nan c x;; g <- num_is_negative c x;; Ret (x, n, g))
                 (x <- deref b;; n <- num_is_nan (rel c) x;; g <- num_is_negative (rel c) x;; Ret (x, n, g))) by mono.
  destruct H as [[H|H]|[H|H]]; rewrite H; try (unfold agree_mut, trapped; cbn; now auto).
  destruct (x <- deref b;; n <- num_is_nan c x;; g <- num_is_negative c x;; Ret (x, n, g)) as [[[x [|]] [|]]| | |];
    try apply agree_mut_refl. apply agree_stored. mono.
Qed.

Lemma agree_round_mut : forall c b s, agree_mut (round_mut c b s) (round_mut (rel c) b s).
Proof.
  intros. unfold round_mut, untouched.
  refine (agree_guard _ _ _ _ (fun p => let '(x, n) := p in if n : bool then _ else _)
            (fun p => let '(x, n) := p in if n : bool then _ else _) _ _ _); [mono|].
  intros [x [|]]; [apply agree_mut_refl|]. apply agree_stored. mono.
Qed.

Lemma agree_trunc_mut : forall c b s, agree_mut (trunc_mut c b s) (trunc_mut (rel c) b s).
Proof.
  intros. unfold trunc_mut, untouched.
  refine (agree_guard _ _ _ _ (fun p => let '(x, n) := p in if n : bool then _ else _)
            (fun p => let '(x, n) := p in if n : bool then _ else _) _ _ _); [mono|].
  intros [x [|]]; [apply agree_mut_refl|]. apply agree_stored. mono.
Qed.

Lemma agree_apply_typmod : forall c b t, agree_mut (apply_typmod c b t) (apply_typmod (rel c) b t).
Proof.
  intros. unfold apply_typmod. destruct (deref b); try apply agree_mut_refl. apply agree_stored. mono.
Qed.

Lemma agree_assign : forall op c b y, (forall x, le (op c x y) (op (rel c) x y)) ->
  agree_mut (op_assign op c b y) (op_assign op (rel c) b y).
Proof.
  intros op c b y H. unfold op_assign.
  apply agree_guard; [|intro; apply agree_mut_refl]. mono.
Qed.

Lemma le_neg_owned : forall c x, le (op_neg_owned c x) (op_neg_owned (rel c) x).
Proof.
  intros. unfold op_neg_owned. destruct (agree_negate_mut c (Some x)) as [[H|H]|[H|H]].
  - destruct (negate_mut c (Some x)) as [a b]. cbn in H. subst. apply le_trap.
  - destruct (negate_mut c (Some x)) as [a b]. cbn in H. subst. apply le_trap.
  - destruct (negate_mut c (Some x)) as [a b]. cbn in H. subst. apply le_trap.
  - rewrite H. apply le_refl.
Qed.

(** ** Approximate functions *)
Lemma le_quot_digit : forall c f, le (quot_digit c f) (quot_digit (rel c) f). Proof. go quot_digit. Qed.
#[global] Hint Resolve le_quot_digit : prof.
Lemma le_estimate : forall c r f, le (estimate c r f) (estimate (rel c) r f). Proof. go estimate. Qed.
Lemma le_carry_of : forall c x, le (carry_of c x) (carry_of (rel c) x). Proof. go carry_of. Qed.
#[global] Hint Resolve le_estimate le_carry_of : prof.
Lemma le_carry_down : forall c l, le (carry_down c l) (carry_down (rel c) l).
Proof. intros c. induction l; intros; cbn [carry_down]; mono. Qed.
Lemma le_sub_mul : forall c q r d, le (sub_mul c q r d) (sub_mul (rel c) q r d).
Proof. intros c q. induction r; intros; cbn [sub_mul]; mono. Qed.
#[global] Hint Resolve le_carry_down le_sub_mul : prof.
Lemma le_df_step : forall c d f m r, le (df_step c d f m r) (df_step (rel c) d f m r).
Proof. go df_step. Qed.
#[global] Hint Resolve le_df_step : prof.
Lemma le_df_loop : forall c k d f m r, le (df_loop c k d f m r) (df_loop (rel c) k d f m r).
Proof. intros c. induction k; intros; cbn [df_loop]; mono. Qed.
#[global] Hint Resolve le_df_loop : prof.
Lemma le_div_fast : forall c v w r b, le (div_fast_common c v w r b) (div_fast_common (rel c) v w r b).
Proof. go div_fast_common. Qed.
#[global] Hint Resolve le_div_fast : prof.
Lemma le_sqrt_loop : forall c k v r l s, le (sqrt_loop c k v r l s) (sqrt_loop (rel c) k v r l s).
Proof. intros c. induction k; intros; cbn [sqrt_loop]; mono. Qed.
#[global] Hint Resolve le_sqrt_loop : prof.
Lemma le_sqrt_common : forall c k v r, le (sqrt_common c k v r) (sqrt_common (rel c) k v r).
Proof. go sqrt_common. Qed.
#[global] Hint Resolve le_sqrt_common : prof.
Lemma le_sqrt_var : forall c k v, le (sqrt_var c k v) (sqrt_var (rel c) k v).
Proof. go sqrt_var. Qed.
Lemma le_pow_loop : forall c k a s b r, le (pow_loop c k a s b r) (pow_loop (rel c) k a s b r).
Proof. intros c. induction k; intros; cbn [pow_loop]; mono. Qed.
#[global] Hint Resolve le_sqrt_var le_pow_loop : prof.
Lemma le_power_int : forall c m v e r, le (power_int c m v e r) (power_int (rel c) m v e r).
Proof. go power_int. Qed.
#[global] Hint Resolve le_power_int : prof.
Lemma le_ln_reduce : forall c f s k k' x a r, (forall x, le (k x) (k' x)) ->
  le (ln_reduce c f s k x a r) (ln_reduce (rel c) f s k' x a r).
Proof. intros c. induction f; intros; cbn [ln_reduce]; mono. Qed.
Lemma le_ln_series : forall c f r a x n s, le (ln_series c f r a x n s) (ln_series (rel c) f r a x n s).
Proof. intros c. induction f; intros; cbn [ln_series]; mono. Qed.
#[global] Hint Resolve le_ln_series : prof.

(** the comparison of a debug assertion traps or returns *)
Definition quiet {A} (a : outcome A) : Prop := trapped a \/ exists x, a = Ret x.
Lemma quiet_bind : forall A B (a : outcome A) (f : A -> outcome B),
  quiet a -> (forall x, quiet (f x)) -> quiet (bind a f).
Proof. unfold quiet, trapped. intros A B a f [[->| ->]|(x & ->)] H; cbn; auto. Qed.
Lemma quiet_ret : forall A (x : A), quiet (Ret x). Proof. right. eauto. Qed.
Lemma quiet_i16 : forall c x, quiet (i16 c x).
Proof.
  intros. unfold i16, arith, quiet, trapped. destruct (fits 16 x); eauto. destruct (dbg c); eauto.
Qed.
Lemma quiet_dassert : forall c b, quiet (dassert c b).
Proof. intros. unfold dassert, quiet, trapped. destruct (dbg c && negb b); eauto. Qed.
Lemma quiet_cmp_both : forall c a b, quiet (cmp_both c a b).
Proof.
  intros c. induction a; intros; cbn [cmp_both]; [apply quiet_ret|]. destruct b; [apply quiet_ret|].
  apply quiet_bind; [apply quiet_i16|intro]. destruct (x =? 0); [apply IHa|apply quiet_ret].
Qed.
Lemma quiet_cmp_abs : forall c v w, quiet (cmp_abs c v w).
Proof.
  intros. unfold cmp_abs. apply quiet_bind; [apply quiet_dassert|intro]. apply quiet_bind; [apply quiet_dassert|intro].
  repeat match goal with
  | |- quiet (Ret _) => apply quiet_ret
  | |- quiet (bind _ _) => apply quiet_bind; [apply quiet_cmp_both|intro]
  | |- quiet (match ?e with _ => _ end) => destruct e
  end.
Qed.
Lemma quiet_cmp_common : forall c v w, quiet (cmp_common c v w).
Proof.
  intros. unfold cmp_common. apply quiet_bind; [apply quiet_dassert|intro]. apply quiet_bind; [apply quiet_dassert|intro].
  repeat match goal with
  | |- quiet (Ret _) => apply quiet_ret
  | |- quiet (cmp_abs _ _ _) => apply quiet_cmp_abs
  | |- quiet (match ?e with _ => _ end) => destruct e
  end.
Qed.
Lemma le_positive : forall c v, le (if dbg c then s <- cmp_common c v ZERO ;; dassert c (0 <? s) else Ret tt)
  (if dbg (rel c) then s <- cmp_common (rel c) v ZERO ;; dassert (rel c) (0 <? s) else Ret tt).
Proof.
  intros. cbn [dbg rel]. destruct (dbg c); [|apply le_refl].
  assert (H : quiet (s <- cmp_common c v ZERO ;; dassert c (0 <? s)))
    by (apply quiet_bind; [apply quiet_cmp_common|intro; apply quiet_dassert]).
  destruct H as [H|(x & ->)]; [left; exact H|]. destruct x. apply le_refl.
Qed.
#[global] Hint Resolve le_positive : prof.

Lemma le_ln_common : forall c f v r, le (ln_common c f v r) (ln_common (rel c) f v r).
Proof.
  intros. unfold ln_common. apply le_bind; [auto with prof|intro]. apply le_bind; [apply le_positive|intro].
  apply le_bind; [apply le_ln_reduce; intro; mono|intro]. destruct x1.
  apply le_bind; [apply le_ln_reduce; intro; mono|intro]. mono.
Qed.
#[global] Hint Resolve le_ln_common : prof.
Lemma le_estimate_ln : forall c m v, le (estimate_ln_dweight c m v) (estimate_ln_dweight (rel c) m v).
Proof. go estimate_ln_dweight. Qed.
#[global] Hint Resolve le_estimate_ln : prof.
Lemma le_ln_var : forall c m f v, le (ln_var c m f v) (ln_var (rel c) m f v).
Proof. go ln_var. Qed.
Lemma le_log_common : forall c m f v b, le (log_common c m f v b) (log_common (rel c) m f v b).
Proof.
  intros. unfold log_common. do 2 (apply le_bind; [auto with prof|intro]). apply le_bind; [apply le_positive|intro].
  mono.
Qed.
#[global] Hint Resolve le_ln_var le_log_common : prof.
Lemma le_log_var : forall c m f v b, le (log_var c m f v b) (log_var (rel c) m f v b).
Proof. go log_var. Qed.
Lemma le_exp_reduce : forall c f a n t, le (exp_reduce c f a n t) (exp_reduce (rel c) f a n t).
Proof. intros c. induction f; intros; cbn [exp_reduce]; mono. Qed.
Lemma le_exp_series : forall c f r e x n s, le (exp_series c f r e x n s) (exp_series (rel c) f r e x n s).
Proof. intros c. induction f; intros; cbn [exp_series]; mono. Qed.
Lemma le_exp_square : forall c k r s, le (exp_square c k r s) (exp_square (rel c) k r s).
Proof. intros c. induction k; intros; cbn [exp_square]; mono. Qed.
#[global] Hint Resolve le_log_var le_exp_reduce le_exp_series le_exp_square : prof.
Lemma le_exp_common : forall c m f v r, le (exp_common c m f v r) (exp_common (rel c) m f v r).
Proof. go exp_common. Qed.
#[global] Hint Resolve le_exp_common : prof.
Lemma le_exp_var : forall c m f v, le (exp_var c m f v) (exp_var (rel c) m f v).
Proof. go exp_var. Qed.
Lemma le_power_common : forall c m f v e, le (power_common c m f v e) (power_common (rel c) m f v e).
Proof. go power_common. Qed.
#[global] Hint Resolve le_exp_var le_power_common : prof.
Lemma le_pow_var : forall c m f v e, le (pow_var c m f v e) (pow_var (rel c) m f v e).
Proof. go pow_var. Qed.
Lemma le_write_sci : forall c m v r b, le (write_sci c m v r b) (write_sci (rel c) m v r b).
Proof. go write_sci. Qed.
#[global] Hint Resolve le_pow_var le_write_sci : prof.

Lemma le_sqrt_n : forall c f x, le (num_sqrt c f x) (num_sqrt (rel c) f x). Proof. go num_sqrt. Qed.
Lemma le_ln_n : forall c m f x, le (num_ln c m f x) (num_ln (rel c) m f x). Proof. go num_ln. Qed.
Lemma le_log_n : forall c m f x b, le (num_log c m f x b) (num_log (rel c) m f x b). Proof. go num_log. Qed.
Lemma le_log2_n : forall c m f x, le (num_log2 c m f x) (num_log2 (rel c) m f x). Proof. go num_log2. Qed.
Lemma le_log10_n : forall c m f x, le (num_log10 c m f x) (num_log10 (rel c) m f x). Proof. go num_log10. Qed.
Lemma le_exp_n : forall c m f x, le (num_exp c m f x) (num_exp (rel c) m f x). Proof. go num_exp. Qed.
Lemma le_pow_n : forall c m f x e, le (num_pow c m f x e) (num_pow (rel c) m f x e). Proof. go num_pow. Qed.
Lemma le_sci_n : forall c m x b, le (num_sci c m x b) (num_sci (rel c) m x b). Proof. go num_sci. Qed.
