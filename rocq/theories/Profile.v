(** * Profile: debug builds only add checks *)
From Coq Require Import ZArith QArith List Bool Lia.
From Verif Require Import Base Var Binary Format Parse Typmod Convert Num Flt Transc SpecProfile.
Import ListNotations.
Open Scope Z_scope.

Definition rel (c : cfg) : cfg := Cfg false (be_varlen c).

Definition le {A} (a b : outcome A) : Prop := agree a b.

Lemma le_refl : forall A (a : outcome A), le a a.
Proof. unfold le, agree. auto. Qed.

Lemma le_trap : forall A (b : outcome A), le (Panic WArith) b /\ le (Panic WAssert) b /\ le UB b.
Proof. unfold le, agree, trapped. auto 6. Qed.

Lemma le_bind : forall A B (a b : outcome A) (f g : A -> outcome B),
  le a b -> (forall x, le (f x) (g x)) -> le (bind a f) (bind b g).
Proof.
  unfold le, agree, trapped. intros A B a b f g [[E|E]|[E|E]] H; subst; cbn; auto.
  destruct a; cbn; auto.
Qed.

Lemma le_arith : forall c bits x, le (arith c bits x) (arith (rel c) bits x).
Proof.
  intros. unfold arith. destruct (fits bits x); [apply le_refl|].
  destruct (dbg c); [apply le_trap|apply le_refl].
Qed.
Lemma le_i16 : forall c x, le (i16 c x) (i16 (rel c) x). Proof. intros. apply le_arith. Qed.
Lemma le_i32 : forall c x, le (i32 c x) (i32 (rel c) x). Proof. intros. apply le_arith. Qed.
Lemma le_dassert : forall c b, le (dassert c b) (dassert (rel c) b).
Proof.
  intros. unfold dassert. destruct (dbg c), b; cbn; try apply le_refl; apply le_trap.
Qed.

Create HintDb prof.
#[global] Hint Resolve le_refl le_i16 le_i32 le_dassert : prof.

Ltac mono1 :=
  match goal with
  | |- le ?a ?a => apply le_refl
  | H : forall _, _ |- le _ _ => solve [apply H]
  | |- le (bind _ _) (bind _ _) => apply le_bind; [|intro]
  | |- le (match ?e with _ => _ end) (match ?e with _ => _ end) => destruct e
  | |- le (let _ := _ in _) _ => cbv zeta
  | |- le ?a ?b => solve [auto with prof nocore]
  end.
Ltac mono := repeat mono1.

Lemma le_zero_scaled : forall c s, le (zero_scaled c s) (zero_scaled (rel c) s).
Proof. intros. unfold zero_scaled. mono. Qed.
#[global] Hint Resolve le_zero_scaled : prof.

Lemma le_propagate : forall c ds k, le (propagate c ds k) (propagate (rel c) ds k).
Proof. intros c. induction ds; intros; cbn [propagate]; mono. Qed.
#[global] Hint Resolve le_propagate : prof.

Lemma le_round_common : forall c v r, le (round_common c v r) (round_common (rel c) v r).
Proof. intros. unfold round_common. mono. Qed.
Lemma le_trunc_common : forall c v r, le (trunc_common c v r) (trunc_common (rel c) v r).
Proof. intros. unfold trunc_common. mono. Qed.
#[global] Hint Resolve le_round_common le_trunc_common : prof.
Lemma le_add_loop : forall c k a b i j x l, le (add_loop c k a b i j x l) (add_loop (rel c) k a b i j x l).
Proof. intros c. induction k; intros; cbn [add_loop]; mono. Qed.
Lemma le_sub_loop : forall c k a b i j x l, le (sub_loop c k a b i j x l) (sub_loop (rel c) k a b i j x l).
Proof. intros c. induction k; intros; cbn [sub_loop]; mono. Qed.
#[global] Hint Resolve le_add_loop le_sub_loop : prof.
Lemma le_add_abs : forall c v w, le (add_abs c v w) (add_abs (rel c) v w).
Proof. intros. unfold add_abs. mono. Qed.
Lemma le_sub_abs : forall c v w, le (sub_abs c v w) (sub_abs (rel c) v w).
Proof. intros. unfold sub_abs. mono. Qed.
Lemma le_cmp_both : forall c a b, le (cmp_both c a b) (cmp_both (rel c) a b).
Proof. intros c. induction a; intros; cbn [cmp_both]; mono. Qed.
#[global] Hint Resolve le_add_abs le_sub_abs le_cmp_both : prof.
Lemma le_cmp_abs : forall c v w, le (cmp_abs c v w) (cmp_abs (rel c) v w).
Proof. intros. unfold cmp_abs. mono. Qed.
#[global] Hint Resolve le_cmp_abs : prof.
Lemma le_add_common : forall c v w, le (add_common c v w) (add_common (rel c) v w).
Proof. intros. unfold add_common. mono. Qed.
Lemma le_sub_common : forall c v w, le (sub_common c v w) (sub_common (rel c) v w).
Proof. intros. unfold sub_common. mono. Qed.
Lemma le_cmp_common : forall c v w, le (cmp_common c v w) (cmp_common (rel c) v w).
Proof. intros. unfold cmp_common. mono. Qed.
#[global] Hint Resolve le_add_common le_sub_common le_cmp_common : prof.
Lemma le_ceil_common : forall c v, le (ceil_common c v) (ceil_common (rel c) v).
Proof. intros. unfold ceil_common. mono. Qed.
Lemma le_floor_common : forall c v, le (floor_common c v) (floor_common (rel c) v).
Proof. intros. unfold floor_common. mono. Qed.
Lemma le_carry_pass : forall c l, le (carry_pass c l) (carry_pass (rel c) l).
Proof. intros c. induction l; intros; cbn [carry_pass]; mono. Qed.
Lemma le_mul_inner : forall c k a b d i, le (mul_inner c k a b d i) (mul_inner (rel c) k a b d i).
Proof. intros c. induction k; intros; cbn [mul_inner]; mono. Qed.
#[global] Hint Resolve le_ceil_common le_floor_common le_carry_pass le_mul_inner : prof.
Lemma le_mul_outer : forall c k a b d e i, le (mul_outer c k a b d e i) (mul_outer (rel c) k a b d e i).
Proof. intros c. induction k; intros; cbn [mul_outer]; mono. Qed.
#[global] Hint Resolve le_mul_outer : prof.
Lemma le_mul_common : forall c v w r, le (mul_common c v w r) (mul_common (rel c) v w r).
Proof. intros. unfold mul_common. mono. Qed.
#[global] Hint Resolve le_mul_common : prof.
Lemma le_div_short : forall c k a b d, le (div_short c k a b d) (div_short (rel c) k a b d).
Proof. intros c. induction k; intros; cbn [div_short]; mono. Qed.
Lemma le_scale_up : forall c a b, le (scale_up c a b) (scale_up (rel c) a b).
Proof. intros c. induction a; intros; cbn [scale_up]; mono. Qed.
Lemma le_qhat_loop : forall c k a b d e f, le (qhat_loop c k a b d e f) (qhat_loop (rel c) k a b d e f).
Proof. intros c. induction k; intros; cbn [qhat_loop]; mono. Qed.
Lemma le_mul_sub : forall c a b d, le (mul_sub c a b d) (mul_sub (rel c) a b d).
Proof. intros c. induction a; intros; cbn [mul_sub]; mono. Qed.
Lemma le_add_back : forall c a b, le (add_back c a b) (add_back (rel c) a b).
Proof. intros c. induction a; intros; cbn [add_back]; mono. Qed.
#[global] Hint Resolve le_div_short le_scale_up le_qhat_loop le_mul_sub le_add_back : prof.
Lemma le_div_step : forall c a b, le (div_step c a b) (div_step (rel c) a b).
Proof. intros. unfold div_step. mono. Qed.
#[global] Hint Resolve le_div_step : prof.
Lemma le_div_long : forall c k a b, le (div_long c k a b) (div_long (rel c) k a b).
Proof. intros c. induction k; intros; cbn [div_long]; mono. Qed.
#[global] Hint Resolve le_div_long : prof.
Lemma le_div_common : forall c v w r b, le (div_common c v w r b) (div_common (rel c) v w r b).
Proof. intros. unfold div_common. mono. Qed.
#[global] Hint Resolve le_div_common : prof.
Lemma le_mod_common : forall c v w, le (mod_common c v w) (mod_common (rel c) v w).
Proof. intros. unfold mod_common. mono. Qed.
Lemma le_negate : forall c v, le (negate c v) (negate (rel c) v).
Proof. intros. unfold negate. mono. Qed.
Lemma le_signum : forall c v, le (signum c v) (signum (rel c) v).
Proof. intros. unfold signum. mono. Qed.
Lemma le_inc : forall c v, le (inc c v) (inc (rel c) v).
Proof. intros. unfold inc. mono. Qed.
Lemma le_checked_div_var : forall c v w, le (checked_div_var c v w) (checked_div_var (rel c) v w).
Proof. intros. unfold checked_div_var. mono. Qed.
Lemma le_checked_div_trunc_var : forall c v w, le (checked_div_trunc_var c v w) (checked_div_trunc_var (rel c) v w).
Proof. intros. unfold checked_div_trunc_var. mono. Qed.
Lemma le_round_var : forall c v s, le (round_var c v s) (round_var (rel c) v s).
Proof. intros. unfold round_var. mono. Qed.
Lemma le_trunc_var : forall c v s, le (trunc_var c v s) (trunc_var (rel c) v s).
Proof. intros. unfold trunc_var. mono. Qed.
Lemma le_abs_var : forall c v, le (abs_var c v) (abs_var (rel c) v).
Proof. intros. unfold abs_var. mono. Qed.
#[global] Hint Resolve le_mod_common le_negate le_signum le_inc le_checked_div_var le_checked_div_trunc_var
  le_round_var le_trunc_var le_abs_var : prof.

(** ** Binary *)
Lemma encode_len_rel : forall c n, encode_len (rel c) n = encode_len c n.
Proof. reflexivity. Qed.
Lemma le_short_header : forall c w d s, le (short_header c w d s) (short_header (rel c) w d s).
Proof. intros. unfold short_header. mono. Qed.
#[global] Hint Resolve le_short_header : prof.
Lemma le_encode : forall c v, le (encode c v) (encode (rel c) v).
Proof. intros. unfold encode. mono. Qed.
Lemma read_len_rel : forall c x, read_len (rel c) x = read_len c x.
Proof. reflexivity. Qed.
Lemma le_read_len : forall c x, le (read_len c x) (read_len (rel c) x).
Proof. intros. rewrite read_len_rel. apply le_refl. Qed.
Lemma le_ndigits_of : forall c l h, le (ndigits_of c l h) (ndigits_of (rel c) l h).
Proof.
  intros. unfold ndigits_of. destruct (h <=? l); [apply le_refl|]. destruct (dbg c); [apply le_trap|apply le_refl].
Qed.
Lemma read_len_outcome : forall c x, read_len c x = UB \/ exists n, read_len c x = Ret n.
Proof.
  intros. unfold read_len, get_unchecked.
  repeat match goal with |- context [match ?e with _ => _ end] => destruct e; cbn [bind]; eauto end.
Qed.
Lemma le_as_binary : forall c x, le (as_binary c x) (as_binary (rel c) x).
Proof.
  intros. unfold as_binary. unfold rel at 1. cbn [dbg]. destruct (dbg c) eqn:E.
  - destruct (read_len_outcome c x) as [->|(n & ->)]; cbn [bind]; [apply le_trap|].
    unfold dassert. rewrite E. cbn. destruct (n =? lenz x); [apply le_refl|apply le_trap].
  - unfold dassert. rewrite E. cbn. apply le_refl.
Qed.
#[global] Hint Resolve le_encode le_read_len le_ndigits_of le_as_binary : prof.
Lemma le_as_var : forall c x, le (as_var c x) (as_var (rel c) x).
Proof. intros. unfold as_var. mono. Qed.
Lemma le_into_var : forall c x, le (into_var c x) (into_var (rel c) x).
Proof. intros. unfold into_var. mono. Qed.
Lemma le_is_nan : forall c x, le (num_is_nan c x) (num_is_nan (rel c) x).
Proof. intros. unfold num_is_nan. mono. Qed.
Lemma le_is_negative : forall c x, le (num_is_negative c x) (num_is_negative (rel c) x).
Proof. intros. unfold num_is_negative. mono. Qed.
Lemma le_is_positive : forall c x, le (num_is_positive c x) (num_is_positive (rel c) x).
Proof. intros. unfold num_is_positive. mono. Qed.
Lemma le_scale : forall c x, le (num_scale c x) (num_scale (rel c) x).
Proof. intros. unfold num_scale. mono. Qed.
Lemma le_nan_buf : forall c, le (nan_buf c) (nan_buf (rel c)).
Proof. intros. unfold nan_buf. mono. Qed.
Lemma le_zero_buf : forall c, le (zero_buf c) (zero_buf (rel c)).
Proof. intros. unfold zero_buf. mono. Qed.
#[global] Hint Resolve le_as_var le_into_var le_is_nan le_is_negative le_is_positive le_scale le_nan_buf le_zero_buf : prof.

(** ** Format *)
Lemma le_write_int : forall c k d ds, le (write_int c k d ds) (write_int (rel c) k d ds).
Proof. intros c. induction k; intros; cbn [write_int]; mono. Qed.
#[global] Hint Resolve le_write_int : prof.
Lemma le_write : forall c v, le (write c v) (write (rel c) v).
Proof. intros. unfold write. mono. Qed.
#[global] Hint Resolve le_write : prof.
Lemma le_normalize : forall c v, le (normalize c v) (normalize (rel c) v).
Proof. intros. unfold normalize. mono. Qed.
Lemma le_select_sci_scale : forall c v, le (select_sci_scale c v) (select_sci_scale (rel c) v).
Proof. intros. unfold select_sci_scale. mono. Qed.
#[global] Hint Resolve le_normalize le_select_sci_scale : prof.

(** ** Parse *)
Lemma le_read_loop : forall c s d, le (read_numeric_digit_loop c s d) (read_numeric_digit_loop (rel c) s d).
Proof. intros c. induction s; intros; cbn [read_numeric_digit_loop]; mono. Qed.
#[global] Hint Resolve le_read_loop : prof.
Lemma le_read_digit : forall c s, le (read_numeric_digit c s) (read_numeric_digit (rel c) s).
Proof. intros. unfold read_numeric_digit. mono. Qed.
#[global] Hint Resolve le_read_digit : prof.
Lemma le_read_chunks : forall c k s, le (read_chunks c k s) (read_chunks (rel c) k s).
Proof. intros c. induction k; intros; cbn [read_chunks]; mono. Qed.
#[global] Hint Resolve le_read_chunks : prof.
Lemma le_parse_str : forall c s, le (parse_str c s) (parse_str (rel c) s).
Proof. intros. unfold parse_str. mono. Qed.
Lemma le_make_no : forall c v, le (make_result_no_overflow c v) (make_result_no_overflow (rel c) v).
Proof. intros. unfold make_result_no_overflow. mono. Qed.
#[global] Hint Resolve le_parse_str le_make_no : prof.
Lemma le_make_result : forall c v, le (make_result c v) (make_result (rel c) v).
Proof. intros. unfold make_result. mono. Qed.
#[global] Hint Resolve le_make_result : prof.
Lemma le_from_str : forall c s, le (from_str c s) (from_str (rel c) s).
Proof. intros. unfold from_str. mono. Qed.
#[global] Hint Resolve le_from_str : prof.

(** ** Typmod, Convert *)
Lemma le_tnu : forall c p s, le (typmod_new_unchecked c p s) (typmod_new_unchecked (rel c) p s).
Proof. intros. unfold typmod_new_unchecked. mono. Qed.
Lemma le_twu : forall c p, le (typmod_with_precision_unchecked c p) (typmod_with_precision_unchecked (rel c) p).
Proof. intros. unfold typmod_with_precision_unchecked. mono. Qed.
Lemma le_text : forall c t, le (typmod_extract c t) (typmod_extract (rel c) t).
Proof. intros. unfold typmod_extract. mono. Qed.
#[global] Hint Resolve le_tnu le_twu le_text : prof.
Lemma le_tn : forall c p s, le (typmod_new c p s) (typmod_new (rel c) p s).
Proof. intros. unfold typmod_new. mono. Qed.
Lemma le_tw : forall c p, le (typmod_with_precision c p) (typmod_with_precision (rel c) p).
Proof. intros. unfold typmod_with_precision. mono. Qed.
Lemma le_atv : forall c v t, le (apply_typmod_var c v t) (apply_typmod_var (rel c) v t).
Proof. intros. unfold apply_typmod_var. mono. Qed.
#[global] Hint Resolve le_tn le_tw le_atv : prof.

Lemma le_nfs : forall c b k, le (num_from_signed c b k) (num_from_signed (rel c) b k).
Proof. intros. unfold num_from_signed. mono. Qed.
Lemma le_nfu : forall c b k, le (num_from_unsigned c b k) (num_from_unsigned (rel c) b k).
Proof. intros. unfold num_from_unsigned. mono. Qed.
Lemma le_into_signed : forall c b v, le (into_signed c b v) (into_signed (rel c) b v).
Proof. intros. unfold into_signed. mono. Qed.
Lemma le_into_unsigned : forall c b v, le (into_unsigned c b v) (into_unsigned (rel c) b v).
Proof. intros. unfold into_unsigned. mono. Qed.
#[global] Hint Resolve le_nfs le_nfu le_into_signed le_into_unsigned : prof.
Lemma le_nfb : forall c b, le (num_from_bool c b) (num_from_bool (rel c) b).
Proof. intros. unfold num_from_bool. mono. Qed.
Lemma le_vts : forall c b v, le (var_to_signed c b v) (var_to_signed (rel c) b v).
Proof. intros. unfold var_to_signed. mono. Qed.
Lemma le_vtu : forall c b v, le (var_to_unsigned c b v) (var_to_unsigned (rel c) b v).
Proof. intros. unfold var_to_unsigned. mono. Qed.
#[global] Hint Resolve le_nfb le_vts le_vtu : prof.
Lemma le_nts : forall c b x, le (num_to_signed c b x) (num_to_signed (rel c) b x).
Proof. intros. unfold num_to_signed. mono. Qed.
Lemma le_ntu : forall c b x, le (num_to_unsigned c b x) (num_to_unsigned (rel c) b x).
Proof. intros. unfold num_to_unsigned. mono. Qed.
Lemma le_bts : forall c b x, le (buf_to_signed c b x) (buf_to_signed (rel c) b x).
Proof. intros. unfold buf_to_signed. mono. Qed.
Lemma le_btu : forall c b x, le (buf_to_unsigned c b x) (buf_to_unsigned (rel c) b x).
Proof. intros. unfold buf_to_unsigned. mono. Qed.
Lemma le_fact_loop : forall c k r, le (factorial_loop c k r) (factorial_loop (rel c) k r).
Proof.
  intros c. induction k as [|[|k] IH]; intros; cbn [factorial_loop]; try apply le_refl.
  apply le_bind; [apply le_refl|intro]. apply le_bind; [auto with prof|intro]. apply IH.
Qed.
#[global] Hint Resolve le_nts le_ntu le_bts le_btu le_fact_loop : prof.
Lemma le_fact : forall c n, le (factorial_var c n) (factorial_var (rel c) n).
Proof. intros. unfold factorial_var. mono. Qed.
#[global] Hint Resolve le_fact : prof.
