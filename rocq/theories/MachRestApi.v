(** * MachRestApi: MachRest.v against the byte-level model. *)
From Coq Require Import ZArith QArith Qabs List Bool Lia Lqa.
From Verif Require Import Base Var Binary Typmod Format Parse Convert Num Data Spec SpecApi SpecText SpecData SpecMach QDec Digits Strip Round Trunc Signed
  AddSub CeilFloor Arith Codec Make Mul DivQ Api1 Api2 Api3 Laws Laws2 FormatText FormatApi Normalize ConvertApi FactBound Factorial
  DataSim DataBuf DataApi Mach MachSim MachAdd MachMul MachDiv MachApi MachText MachConv MachDivFast MachMut MachMutSim MachMutApi MachRest.
Import ListNotations.
Open Scope Z_scope.

Lemma ret_bind {A B} (x : A) (f : A -> outcome B) : bind (Ret x) f = f x.
Proof. reflexivity. Qed.

(** ** negate, abs, signum, inc *)
Lemma borrow_lim v : canon v -> mrep lim (borrow v) v /\ cowlen (borrow v) <= lim.
Proof.
  intro C. pose proof (borrow_m v C) as M. split; [apply (mrep_mono 40000); [unfold lim; lia|exact M]|].
  pose proof (canon_len v C). unfold cowlen, borrow, lim. cbn [p_cow]. fold (ndigits v). lia.
Qed.
Lemma canon_fine v : canon v -> fine v.
Proof.
  intro C. apply (stripped_fine v (dscale v)); [apply C|reflexivity| |apply C]. pose proof (cn_scale v C). lia.
Qed.
Lemma some_bind {A} (m : outcome A) (f : A -> outcome bytes) : (z <- (r <- m ;; f r) ;; Ret (Some z)) = (r <- m ;; z <- f r ;; Ret (Some z)).
Proof. destruct m; reflexivity. Qed.

Lemma negate_mach c a x : valid (be_varlen c) x -> sim (optrel c) (m_num_negate c a x) (some (num_negate c x)).
Proof.
  intro V. unfold m_num_negate, num_negate, some.
  apply (unary_m c a x _ (fun v => v <- negate c v ;; make_result_no_overflow c v) V). intros v C. rewrite some_bind.
  destruct (borrow_lim v C) as [M L]. destruct (negate_spec c v C) as (r & E & Cr & _).
  apply (sim_bind (fun q r => (mrep lim q r /\ cowlen q <= lim) /\ canon r)).
  - apply sim_spec; [now apply negate_b|]. intros g Eg. rewrite E in Eg. apply Ret_inj in Eg. now subst g.
  - intros q g [[Mq Lq] Cg]. pose proof (cn_weight g Cg). pose proof (cn_scale g Cg).
    apply (sim_bind (brel c)); [apply (make_no_b c _ lim); auto using canon_fine; unfold lim; lia|]. intros b z H1. exact H1.
Qed.
Lemma abs_mach c a x : valid (be_varlen c) x -> sim (optrel c) (m_num_abs c a x) (some (num_abs c x)).
Proof.
  intro V. unfold m_num_abs, num_abs, some.
  apply (unary_m c a x _ (fun v => v <- abs_var c v ;; encode c v) V). intros v C. rewrite some_bind.
  destruct (borrow_lim v C) as [M L]. destruct (abs_spec c v C) as (r & E & Cr & _).
  apply (sim_bind (fun q r => (mrep lim q r /\ cowlen q <= lim) /\ canon r)).
  - apply sim_spec; [now apply abs_b|]. intros g Eg. rewrite E in Eg. apply Ret_inj in Eg. now subst g.
  - intros q g [[Mq Lq] Cg].
    apply (sim_bind (brel c)); [apply (into_buf_m c _ lim); auto; [unfold lim; lia|now left]|]. intros b z H1. exact H1.
Qed.
Lemma signum_mach c a x : valid (be_varlen c) x -> sim (optrel c) (m_num_signum c a x) (some (num_signum c x)).
Proof.
  intro V. unfold m_num_signum, num_signum, some.
  apply (unary_m c a x _ (fun v => v <- signum c v ;; make_result_no_overflow c v) V). intros v C. rewrite some_bind.
  destruct (signum_spec c v C) as (r & E & Cr & _).
  apply (sim_bind (fun q r => mrep 100 q r /\ canon r)).
  - apply sim_spec.
    + unfold m_signum, signum, is_nan, m_nan, borrow. cbn [p_sign p_nd]. apply sim_same. intros _ _.
      destruct (ndigits v =? 0).
      * destruct (clone_m c (a 0%nat) 50 m_zero zero_var ltac:(lia) zero_m) as (g & Eg & Mg). rewrite Eg.
        apply (mrep_mono (50 + 5)); [lia|exact Mg].
      * destruct (clone_m c (a 0%nat) 2 M_ONE ONE ltac:(lia) (one_m 2 ltac:(lia))) as (g & Eg & Mg). rewrite Eg, ret_bind.
        apply (mrep_mono (2 + 5)); [lia|]. destruct Mg as [R F]. split; [|now apply fit_set_sign].
        destruct R; constructor; cbn [p_set_sign set_sign p_nd p_weight p_dscale p_sign p_cow digits weight dscale sign]; auto.
    + intros g Eg. rewrite E in Eg. apply Ret_inj in Eg. now subst g.
  - intros q g [Mq Cg]. pose proof (cn_weight g Cg). pose proof (cn_scale g Cg).
    apply (sim_bind (bufrel c)); [apply (make_no_m c _ 100); auto using canon_fine; lia|]. intros b z H1. exact H1.
Qed.
Lemma inc_mach c a x : valid (be_varlen c) x -> sim (optrel c) (m_num_inc c a x) (some (num_inc c x)).
Proof.
  intro V. unfold m_num_inc, num_inc, some.
  apply (unary_m c a x _ (fun v => v <- inc c v ;; o <- make_result c v ;; expect o MOverflow) V). intros v C. rewrite some_bind.
  unfold inc, m_nan, is_nan, borrow at 1. cbn [p_sign]. rewrite bind_assoc. apply sim_same. intros _ _.
  assert (C1 : canon ONE) by (apply canon_small; [discriminate|lia]). pose proof (cn_scale v C).
  apply (sim_bind (fun p r => mrep (10 * 40000 + 100) p r /\ fine r)).
  - apply sim_spec; [apply add_common_m; [lia|now apply borrow_m|apply one_m; lia]|].
    intros r E. destruct (add_common_spec c v ONE) as (r' & E' & A); auto using canon_dig, canon_nan; [change (dscale ONE) with 0; lia|].
    rewrite E in E'. injection E' as <-. apply (ares_fine (Z.max (dscale v) (dscale ONE)) (vval v + vval ONE)); [lia| |exact A].
    apply mult_add; [now apply mult_max_l; apply C|now apply mult_max_r; apply C1].
  - intros p r [M F]. rewrite bind_assoc. apply (sim_bind (optrel c)); [apply (make_m c _ (10 * 40000 + 100)); [lia|exact M|exact F]|].
    intros [b|] [z|] O; cbn in O; try contradiction; cbn [expect bind sim]; [exact O|reflexivity].
Qed.

Lemma unary4_settled c x : valid (be_varlen c) x ->
  settled (some (num_negate c x)) /\ settled (some (num_abs c x)) /\ settled (some (num_signum c x)) /\ settled (some (num_inc c x)).
Proof.
  intros [N|(q & s & H)].
  - rewrite N. unfold num_negate, num_abs, num_signum, num_inc, some. rewrite nan_is_nan, ret_bind, nan_buf_spec. repeat split.
  - destruct (num_negate_spec c x q s H) as (y1 & -> & _). destruct (num_abs_spec c x q s H) as (y2 & -> & _).
    destruct (num_signum_spec c x q s H) as (y3 & -> & _). repeat split.
    destruct (num_inc_spec c x q s H) as [A B]. destruct (Qlt_le_dec (Qabs (q + 1)) limit) as [L|L].
    + destruct (A L) as (z & -> & _). exact Logic.I.
    + rewrite (B L). exact Logic.I.
Qed.
Theorem sign_agrees c a x : valid (be_varlen c) x ->
  agrees c (m_num_negate c a x) (some (num_negate c x)) /\
  agrees c (m_num_abs c a x) (some (num_abs c x)) /\
  agrees c (m_num_signum c a x) (some (num_signum c x)) /\
  agrees c (m_num_inc c a x) (some (num_inc c x)).
Proof.
  intro V. destruct (unary4_settled c x V) as (S1 & S2 & S3 & S4).
  repeat split; apply agrees_of; auto using negate_mach, abs_mach, signum_mach, inc_mach.
Qed.

(** ** factorial *)
Lemma from_signed_p c a n : 1 <= n < 2 ^ 63 -> exists r p, from_signed 64 n = Ret r /\ m_from_signed c a 64 n = Ret p /\ mrep 50 p r /\ posint r n.
Proof.
  intro H. destruct (from_signed_posint n H) as (r & E & P). exists r.
  assert (R : - 2 ^ (64 - 1) <= n < 2 ^ (64 - 1)) by (change (2 ^ (64 - 1)) with (2 ^ 63); lia).
  unfold m_from_signed. unfold from_signed in E |- *. destruct (Z.eqb_spec n 0); [lia|].
  destruct (abs_m c 64 n ltac:(lia) R) as (Ea & Ba). rewrite Ea, ret_bind.
  destruct (unsigned_to_var_m c a 64 _ _ r Ba E) as (p & Ep & M). exists p. auto.
Qed.

Lemma posint_within r P : 1 <= P -> (inject_Z P < limit)%Q -> posint r P -> within 40000 r.
Proof.
  intros HP L A. pose proof (pi_one _ _ A) as O. pose proof (pi_len _ _ A) as N. pose proof (pi_scale _ _ A) as S.
  assert (W : weight r <= 32767).
  { destruct (pi_w _ _ A) as [W|W]; [exact W|]. apply below_limit_weight; [exact W| |].
    - intro E. unfold ndigits in O. rewrite E in O. cbn in O. lia.
    - rewrite (pi_val _ _ A), Qabs_pos; [exact L|]. rewrite <- (Zle_Qle 0). lia. }
  unfold within. lia.
Qed.

Lemma factorial_loop_m c a N : 0 <= N <= 32177 -> forall k r P p, Z.of_nat k <= N -> 1 <= P -> P * factorial k <= factorial (Z.to_nat N) ->
  posint r P -> mrep 700000 p r -> sim (mrep 700000) (m_factorial_loop c a k p) (factorial_loop c k r).
Proof.
  intro HN. induction k as [|k IH]; intros r P p Hk HP HF A M; [exact M|]. destruct k as [|k]; [exact M|].
  change (m_factorial_loop c a (S (S k)) p) with
    (fact <- m_from_signed c (a (10 + 2 * S (S k))%nat) 64 (Z.of_nat (S (S k))) ;;
     result <- m_mul_common c (a (11 + 2 * S (S k))%nat) p fact 0 ;; m_factorial_loop c a (S k) result).
  change (factorial_loop c (S (S k)) r) with (bind (from_signed 64 (Z.of_nat (S (S k)))) (fun fact =>
    bind (mul_common c r fact 0) (fun result => factorial_loop c (S k) result))).
  set (n := Z.of_nat (S (S k))) in *.
  assert (FS : factorial (S (S k)) = n * factorial (S k)) by reflexivity.
  pose proof (factorial_pos (S k)) as FP.
  destruct (from_signed_p c (a (10 + 2 * S (S k))%nat) n ltac:(lia)) as (f & pf & Ef & Epf & Mf & Bf). rewrite Ef, Epf, !ret_bind.
  destruct (mul_posint c r f P n A Bf HP ltac:(lia)) as (g & Eg & Ag).
  pose proof (factorial_fits N HN) as Fit.
  assert (Lt : forall z, z <= factorial (Z.to_nat N) -> (inject_Z z < limit)%Q).
  { intros z Hz. eapply Qle_lt_trans; [|exact Fit]. now rewrite <- Zle_Qle. }
  apply (sim_bind (fun q u => mrep (16 * 40000 + 70) q u /\ u = g)).
  - apply sim_spec; [|intros u E; rewrite Eg in E; now apply Ret_inj in E].
    apply mul_t; [lia|lia|apply A|apply Bf|apply (mrep_mono 700000); [unfold big; lia|exact M]|apply (mrep_mono 50); [unfold big; lia|exact Mf]| |].
    + apply (posint_within r P HP); [apply Lt; nia|exact A].
    + apply (posint_within f n); [lia|apply Lt; nia|exact Bf].
  - intros q u [Mq ->]. apply (IH g (P * n)); [lia|nia|nia|exact Ag|apply (mrep_mono (16 * 40000 + 70)); [lia|exact Mq]].
Qed.

Lemma factorial_mach c a n : n < 2 ^ 63 -> sim (optrel c) (m_num_factorial c a n) (num_factorial c n).
Proof.
  intro Hn. unfold m_num_factorial, num_factorial, m_factorial, factorial_var. destruct (Z.leb_spec n 1) as [L|L].
  - destruct (clone_m c (a 0%nat) 2 M_ONE ONE ltac:(lia) (one_m 2 ltac:(lia))) as (g & Eg & Mg). rewrite Eg, !ret_bind. cbn [m_make_opt make_result_opt].
    apply (make_m c _ (2 + 5)); [lia|exact Mg|]. apply canon_fine. apply canon_small; [discriminate|lia].
  - destruct (Z.ltb_spec 32177 n) as [G|G]; [exact Logic.I|].
    destruct (from_signed_p c (a 1%nat) n ltac:(lia)) as (r & p & Er & Ep & M & A). rewrite Er, Ep, !ret_bind, !bind_assoc.
    assert (Ef : n * factorial (Z.to_nat (n - 1)) = factorial (Z.to_nat n)).
    { replace (Z.to_nat n) with (S (Z.to_nat (n - 1))) by lia. cbn [factorial]. f_equal. lia. }
    destruct (factorial_loop_spec c (Z.to_nat (n - 1)) ltac:(lia) r n ltac:(lia) A) as (g & Eg & B). rewrite Ef in B.
    apply (sim_bind (fun q u => mrep 700000 q u /\ u = g)).
    + apply sim_spec; [|intros u E; rewrite Eg in E; now apply Ret_inj in E].
      apply (factorial_loop_m c a n ltac:(lia) _ r n); [lia|lia|lia|exact A|apply (mrep_mono 50); [lia|exact M]].
    + intros q u [Mq ->]. rewrite !ret_bind. cbn [m_make_opt make_result_opt]. apply (make_m c _ 700000); [lia|exact Mq|].
      apply (int_fine g (factorial (Z.to_nat n))); apply B.
Qed.
Theorem factorial_agrees c a n : n < 2 ^ 63 -> agrees c (m_num_factorial c a n) (num_factorial c n).
Proof.
  intro H. apply agrees_of; [now apply factorial_mach|]. destruct (num_factorial_spec c n) as (o & -> & _). exact Logic.I.
Qed.

(** ** normalize *)
Lemma dec_digits_len fuel : forall x acc, lenz (dec_digits fuel x acc) <= Z.of_nat fuel + lenz acc.
Proof.
  induction fuel as [|f IH]; intros x acc; [cbn; lia|]. cbn [dec_digits]. destruct (_ =? 0); [rewrite lenz_cons; lia|].
  eapply Z.le_trans; [apply IH|]. rewrite lenz_cons. lia.
Qed.
Lemma fmt_int_len d : lenz (fmt_int d) <= 11.
Proof.
  unfold fmt_int. destruct (d <? 0); [rewrite lenz_cons|]; pose proof (dec_digits_len 10 (- d) []); pose proof (dec_digits_len 10 d []);
    rewrite lenz_nil in *; lia.
Qed.
Lemma fmt_pad_len w d : w <= 4 -> lenz (fmt_pad w d) <= 15.
Proof.
  intro W. unfold fmt_pad. cbn zeta. set (b := dec_digits 10 (Z.abs d) []). pose proof (dec_digits_len 10 (Z.abs d) []) as H. fold b in H. rewrite lenz_nil in H.
  pose proof (lenz_nonneg b). rewrite !lenz_app. destruct (d <? 0); unfold lenz at 2; rewrite repeat_length; [rewrite lenz_cons|]; rewrite lenz_nil; lia.
Qed.
Lemma write_int_len c ds k : forall d t, write_int c k d ds = Ret t -> lenz t <= 15 * Z.of_nat k.
Proof.
  induction k as [|k IH]; intros d t E; cbn [write_int] in E; [apply Ret_inj in E; subst; cbn; lia|]. cbn zeta in E.
  apply MachSim.bind_ret in E. destruct E as (_ & _ & E). apply MachSim.bind_ret in E. destruct E as (u & Eu & E). apply Ret_inj in E. subst t.
  apply IH in Eu. rewrite lenz_app. pose proof (fmt_int_len (digit_or_zero ds d)). pose proof (fmt_pad_len DEC_DIGITS (digit_or_zero ds d) ltac:(reflexivity || (unfold DEC_DIGITS; lia))).
  destruct (0 <? d); lia.
Qed.
Lemma write_frac_len ds dsc k : forall sc d, lenz (write_frac k sc d dsc ds) <= 15 * Z.of_nat k.
Proof.
  induction k as [|k IH]; intros sc d; cbn [write_frac]; [cbn; lia|]. cbn zeta. rewrite lenz_app. specialize (IH (sc + DEC_DIGITS) (d + 1)).
  change DEC_DIGITS with 4 in *. destruct (Z.leb_spec (sc + 4) dsc).
  - pose proof (fmt_pad_len 4 (digit_or_zero ds d) ltac:(lia)). lia.
  - pose proof (fmt_pad_len (dsc - sc) (div10 (Z.to_nat (4 - (dsc - sc))) (digit_or_zero ds d)) ltac:(lia)). lia.
Qed.
Lemma write_len c v t : canon v -> write c v = Ret t -> lenz t <= 1000000.
Proof.
  intros C E. pose proof (cn_weight v C). pose proof (cn_scale v C). unfold write in E. destruct (is_nan v); [apply Ret_inj in E; subst; cbn; lia|].
  apply MachSim.bind_ret in E. destruct E as (ip & Ei & E). apply Ret_inj in E. subst t. rewrite !lenz_app.
  assert (L1 : lenz ip <= 500000).
  { destruct (Z.ltb_spec (weight v) 0); [apply Ret_inj in Ei; subst; cbn; lia|]. apply write_int_len in Ei. lia. }
  assert (L2 : lenz (if sgn_eqb (sign v) SNeg then [ch_dash] else []) <= 1) by (destruct (sgn_eqb _ _); cbn; lia).
  assert (L3 : lenz (if 0 <? dscale v then ch_dot :: write_frac (Z.to_nat (Z.quot (dscale v + 3) 4)) 0 (weight v + 1) (dscale v) (digits v) else []) <= 250000).
  { destruct (0 <? dscale v); [rewrite lenz_cons|cbn; lia]. pose proof (write_frac_len (digits v) (dscale v) (Z.to_nat (Z.quot (dscale v + 3) 4)) 0 (weight v + 1)).
    pose proof (quot4_bound (dscale v + 3) ltac:(lia)). lia. }
  lia.
Qed.

Lemma count_ch0_m c s : forall n, 0 <= n -> n + lenz s <= 1000000 ->
  exists k, m_count_ch0 c s n = Ret (n + Z.of_nat k) /\ s = repeat ch_0 k ++ drop_ch0 s.
Proof.
  induction s as [|b t IH]; intros n Hn HL; cbn [m_count_ch0 drop_ch0].
  - exists 0%nat. split; [f_equal; lia|reflexivity].
  - rewrite lenz_cons in HL. pose proof (lenz_nonneg t). destruct (Z.eqb_spec b ch_0) as [->|Nb].
    + rewrite usize_ok by lia. rewrite ret_bind. destruct (IH (n + 1) ltac:(lia) ltac:(lia)) as (k & E & Sk). exists (S k).
      split; [rewrite E; f_equal; lia|]. cbn [repeat app]. now rewrite <- Sk.
    + exists 0%nat. split; [f_equal; lia|reflexivity].
Qed.
Lemma lenz_rev {A} (l : list A) : lenz (rev l) = lenz l.
Proof. unfold lenz. now rewrite rev_length. Qed.
Lemma has_dot_rest s : existsb (fun b => b =? ch_dot) s = true -> drop_ch0 (rev s) <> [].
Proof.
  intros H E. destruct (drop_ch0_split (rev s)) as (k & Ek & _). rewrite E, app_nil_r in Ek. apply existsb_exists in H.
  destruct H as (b & Hb & Eb). apply in_rev in Hb. rewrite Ek in Hb. apply repeat_spec in Hb. subst b. discriminate.
Qed.
Lemma normalize_m c v p : canon v -> mrep 40000 p v -> m_normalize c p = normalize c v.
Proof.
  intros C M. unfold m_normalize, normalize, m_nan, is_nan. rewrite (rp_sign p v (proj1 M)). destruct (sgn_eqb (sign v) SNaN); [reflexivity|].
  rewrite (write_m c 40000 p v) by (assumption || lia). apply bind_ext. intros s Es. pose proof (write_len c v s C Es) as L.
  destruct (existsb _ s) eqn:D; [|reflexivity]. pose proof (has_dot_rest s D) as Ne.
  destruct (count_ch0_m c (rev s) 0 ltac:(lia) ltac:(rewrite lenz_rev; lia)) as (k & Ek & Sk). rewrite Ek, ret_bind.
  set (r := drop_ch0 (rev s)) in *. destruct r as [|b t]; [congruence|]. clear Ne.
  assert (Sp : s = rev t ++ [b] ++ repeat ch_0 k).
  { rewrite <- (rev_involutive s), Sk, rev_app_distr. cbn [rev]. rewrite <- app_assoc. f_equal. f_equal.
    clear. induction k as [|k IH]; [reflexivity|]. cbn [repeat rev]. rewrite IH. clear. induction k; [reflexivity|]. cbn. now rewrite IHk. }
  assert (Ls : lenz s = lenz t + 1 + Z.of_nat k).
  { assert (Lr : lenz (repeat ch_0 k) = Z.of_nat k) by (unfold lenz; now rewrite repeat_length).
    rewrite Sp, !lenz_app, lenz_rev, Lr. change (lenz [b]) with 1. lia. }
  pose proof (lenz_nonneg t). rewrite usize_ok by lia. rewrite ret_bind. rewrite usize_ok by lia. rewrite ret_bind.
  assert (Ix : index s (lenz s - (0 + Z.of_nat k) - 1) = Ret b).
  { replace (lenz s - (0 + Z.of_nat k) - 1) with (lenz (rev t)) by (rewrite lenz_rev; lia). rewrite Sp. unfold index, lenz.
    destruct (Z.ltb_spec (Z.of_nat (length (rev t))) 0); [lia|]. rewrite Nat2Z.id, nth_error_app2 by lia. now rewrite Nat.sub_diag. }
  rewrite Ix, ret_bind. destruct (b =? ch_dot) eqn:Bd.
  - rewrite ret_bind. f_equal. rewrite Sp at 2.
    replace (Z.to_nat (lenz s - (0 + Z.of_nat k) - 1)) with (length (rev t)) by (rewrite rev_length; unfold lenz in *; lia).
    rewrite firstn_app, firstn_all, Nat.sub_diag. cbn [firstn]. apply app_nil_r.
  - rewrite ret_bind. f_equal. rewrite Sp at 2. cbn [rev]. rewrite app_assoc.
    replace (Z.to_nat (lenz s - (0 + Z.of_nat k))) with (length (rev t ++ [b])) by (rewrite app_length, rev_length; unfold lenz in *; cbn; lia).
    rewrite firstn_app, firstn_all, Nat.sub_diag. cbn [firstn]. apply app_nil_r.
Qed.
Theorem normalize_agrees c x : valid (be_varlen c) x -> m_num_normalize c x = num_normalize c x.
Proof.
  intros [H|(q & s & H)]; unfold m_num_normalize, num_normalize.
  - destruct (nan_as_var_m c x H) as (-> & ->). reflexivity.
  - destruct (stores_elim _ _ _ _ H) as (v & C & -> & _ & _).
    rewrite (m_as_var_ok c v C), (as_var_spec c v (canon_storable v C)). rewrite !ret_bind. apply normalize_m; [exact C|now apply borrow_m].
Qed.

(** ** hash *)
Lemma skip_front_0 c ds w : (forall d t, ds = d :: t -> d <> 0) -> m_skip_front c ds 0 w = Ret (0, w).
Proof. destruct ds as [|d t]; intro H; [reflexivity|]. cbn [m_skip_front]. destruct (Z.eqb_spec d 0) as [E|E]; [now apply (H d t) in E|reflexivity]. Qed.
Lemma skip_back_0 c ds : (forall d t, ds = d :: t -> d <> 0) -> m_skip_back c ds 0 = Ret 0.
Proof. destruct ds as [|d t]; intro H; [reflexivity|]. cbn [m_skip_back]. destruct (Z.eqb_spec d 0) as [E|E]; [now apply (H d t) in E|reflexivity]. Qed.
Theorem hash_agrees c x : valid (be_varlen c) x -> m_num_hash c x = num_hash c x.
Proof.
  intros [H|(q & s & H)].
  - rewrite H, num_hash_nan. unfold m_num_hash. destruct (nan_as_var_m c x H) as (E & _). rewrite H in E. rewrite E. reflexivity.
  - destruct (stores_elim _ _ _ _ H) as (v & C & -> & _ & _). rewrite (num_hash_num c v C). unfold m_num_hash.
    rewrite (m_as_var_ok c v C), ret_bind. rewrite (proj1 (borrow_nan v C)).
    rewrite (m_digits_ok c 40000 (borrow v) v) by (first [now apply borrow_m|unfold big; lia]). rewrite ret_bind.
    rewrite skip_front_0 by apply C. rewrite ret_bind. cbn [borrow p_nd p_weight p_sign m_pos]. rewrite as_i32_ok by lia.
    pose proof (canon_len v C) as CL. unfold ndigits in *.
    destruct (digits v) as [|d t] eqn:E; [reflexivity|]. pose proof (lenz_nonneg t). rewrite lenz_cons in *.
    destruct (Z.eqb_spec (1 + lenz t) 0) as [Z0|_]; [lia|].
    rewrite skip_back_0.
    2:{ intros e u Er. apply (st_last v (cn_st v C) e (rev u)). rewrite E. rewrite <- (rev_involutive (d :: t)), Er. reflexivity. }
    rewrite ret_bind, usize_ok by lia. rewrite ret_bind, dassert_ok by (apply Z.ltb_lt; lia).
    replace (if dbg c then Ret tt else Ret tt) with (Ret tt : outcome unit) by (now destruct (dbg c)). rewrite ret_bind.
    rewrite usize_ok by lia. rewrite ret_bind. rewrite Z.sub_0_r. unfold m_range. rewrite lenz_cons, Z.sub_0_r.
    rewrite (proj2 (Z.leb_le _ _)) by lia. rewrite Z.leb_refl. cbn [andb]. rewrite ret_bind. cbn [Z.to_nat skipn].
    replace (firstn (Z.to_nat (1 + lenz t)) (d :: t)) with (d :: t); [rewrite lenz_cons; reflexivity|].
    replace (Z.to_nat (1 + lenz t)) with (length (d :: t)) by (cbn [length]; unfold lenz; lia). symmetry. apply firstn_all.
Qed.

(** ** consuming an owned buffer *)
Lemma operand_g c (a : nat -> nat -> Z) v p0 : canon v -> mrep lim p0 v -> exists p q r, mrep (2 * (lim + 10) + 5) p (strip r) /\ round_common c v 0 = Ret r /\
  m_round_common c (a 0%nat) p0 0 = Ret q /\ m_strip c (a 1%nat) q = Ret p /\ stripped (strip r).
Proof.
  intros C M0. destruct (rounded_strip c v (canon_dig v C) (canon_nan v C)) as (r & E & S & _).
  pose proof (round_m c (a 0%nat) lim p0 v 0 ltac:(unfold lim; lia) ltac:(unfold lim; lia) M0) as R. rewrite E in R.
  destruct (m_round_common c (a 0%nat) p0 0) as [q| | |] eqn:Eq; try contradiction. cbn [sim] in R.
  pose proof (strip_m c (a 1%nat) (lim + 10) q r ltac:(unfold lim; lia) R) as T.
  destruct (m_strip c (a 1%nat) q) as [p| | |] eqn:Ep; try contradiction. cbn [sim] in T.
  exists p, q, r. repeat (split; [assumption || reflexivity|]). exact S.
Qed.
Lemma nan_g v p : canon v -> mrep lim p v -> m_nan p = false /\ is_nan v = false.
Proof. intros C M. pose proof (canon_nan v C) as N. unfold m_nan, is_nan. rewrite (rp_sign p v (proj1 M)). destruct (sign v); [auto|auto|congruence]. Qed.

Lemma into_signed_g c a bits v p0 : 16 <= bits -> canon v -> mrep lim p0 v -> m_into_signed c a bits p0 = into_signed c bits v.
Proof.
  intros B C M0. unfold m_into_signed, into_signed. apply bind_ext. intros _ _.
  destruct (nan_g v p0 C M0) as (-> & ->). destruct (operand_g c a v p0 C M0) as (p & q & r & M & Er & Eq & Ep & S). rewrite Er, Eq, !ret_bind.
  rewrite Ep, ret_bind. set (s := strip r) in *. pose proof (proj1 M) as R. cbn zeta.
  rewrite (rp_nd p s R), (rp_weight p s R). unfold m_neg, is_negative. rewrite (rp_sign p s R).
  destruct (ndigits s =? 0) eqn:Z0; [reflexivity|]. apply Z.eqb_neq in Z0. apply bind_ext. intros _ _.
  pose proof (fit_weight _ p (proj2 M)) as Fw. rewrite (rp_weight p s R) in Fw. unfold lim in Fw. rewrite i32_ok by lia. rewrite ret_bind.
  apply bind_ext. intros _ _. rewrite (m_digits_ok c (2 * (lim + 10) + 5) p s) by (first [exact M|unfold big, lim; lia]). rewrite ret_bind.
  pose proof (st_digits s S) as Ds. assert (Ne : digits s <> []) by (intro E; apply Z0; unfold ndigits; now rewrite E).
  destruct (first_index (digits s) Ne Ds) as (d0 & Ei & Dd & _). rewrite Ei, !ret_bind. unfold dig in Dd.
  pose proof (pow15 bits B) as P15. apply bind_ext. intros _ _. rewrite wrap_ok by lia. rewrite arith_ok by lia. rewrite ret_bind.
  destruct (signed_loop_m c bits (digits s) (Z.to_nat (weight s)) B Ds 1 (- d0) ltac:(lia)) as (El & Fl); [apply fits_iff; lia|].
  unfold ndigits. rewrite El. apply bind_ext. intros [val|e] Eo; [|reflexivity].
  specialize (Fl val Eo). apply fits_iff in Fl.
  destruct (sgn_eqb (sign s) SNeg); cbn [negb]; [reflexivity|]. destruct (Z.eqb_spec val (- 2 ^ (bits - 1))) as [Q|Q]; [reflexivity|].
  rewrite arith_ok by lia. reflexivity.
Qed.
Lemma into_unsigned_g c a bits v p0 : 16 <= bits -> canon v -> mrep lim p0 v -> m_into_unsigned c a bits p0 = into_unsigned c bits v.
Proof.
  intros B C M0. unfold m_into_unsigned, into_unsigned. apply bind_ext. intros _ _.
  destruct (nan_g v p0 C M0) as (-> & ->). destruct (operand_g c a v p0 C M0) as (p & q & r & M & Er & Eq & Ep & S). rewrite Er, Eq, !ret_bind.
  rewrite Ep, ret_bind. set (s := strip r) in *. pose proof (proj1 M) as R. cbn zeta.
  rewrite (rp_nd p s R), (rp_weight p s R). unfold m_neg, is_negative. rewrite (rp_sign p s R).
  destruct (ndigits s =? 0) eqn:Z0; [reflexivity|]. apply Z.eqb_neq in Z0.
  destruct (sgn_eqb (sign s) SNeg); [reflexivity|]. apply bind_ext. intros _ _.
  pose proof (fit_weight _ p (proj2 M)) as Fw. rewrite (rp_weight p s R) in Fw. unfold lim in Fw. rewrite i32_ok by lia. rewrite ret_bind.
  apply bind_ext. intros _ _. rewrite (m_digits_ok c (2 * (lim + 10) + 5) p s) by (first [exact M|unfold big, lim; lia]). rewrite ret_bind.
  pose proof (st_digits s S) as Ds. assert (Ne : digits s <> []) by (intro E; apply Z0; unfold ndigits; now rewrite E).
  destruct (first_index (digits s) Ne Ds) as (d0 & Ei & Dd & _). rewrite Ei, !ret_bind. unfold dig in Dd.
  assert (P16 : 65536 <= 2 ^ bits) by (change 65536 with (2 ^ 16); apply Z.pow_le_mono_r; lia).
  rewrite Z.mod_small by lia. unfold ndigits. apply unsigned_loop_m; auto; lia.
Qed.

Lemma buf_reads c b x : brel c b x -> exists v p, vok v /\ m_owned c b = Ret p /\ mrep lim p v /\ as_var c x = Ret v /\ into_var c x = Ret v.
Proof.
  intro BR. destruct (owned_m c b x BR) as (v & p & V & E & O & M & _). exists v, p.
  pose proof (good_reads c v x (vok_good v V) E) as R. unfold reads in R. intuition.
Qed.
Lemma buf_to_signed_m c a bits b x : int_width bits -> brel c b x -> m_buf_to_signed c a bits b = num_to_signed c bits x.
Proof.
  intros W BR. destruct (buf_reads c b x BR) as (v & p & V & O & M & A & _).
  unfold m_buf_to_signed, num_to_signed. rewrite O, A, !ret_bind. unfold m_to_signed, var_to_signed. destruct V as [C| ->].
  - destruct (Z.eqb_spec bits 8) as [->|Nb].
    + rewrite (into_signed_g c a 16 v p) by (auto; lia). apply bind_ext. intros [k|e] _; [|reflexivity].
      destruct (Z.ltb_spec 127 k); [reflexivity|]. destruct (Z.ltb_spec k (-128)); [reflexivity|]. cbn [orb].
      rewrite wrap_ok by (change (2 ^ (8 - 1)) with 128; lia). reflexivity.
    + apply into_signed_g; auto. unfold int_width in W. lia.
  - assert (N : m_nan p = true) by (unfold m_nan; now rewrite (rp_sign p _ (proj1 M))).
    unfold m_into_signed, into_signed. rewrite N.
    destruct (Z.eqb_spec bits 8) as [->|Nb]; rewrite !dassert_ok by (apply Z.leb_le; unfold int_width in W; lia); reflexivity.
Qed.
Lemma buf_to_unsigned_m c a bits b x : int_width bits -> brel c b x -> m_buf_to_unsigned c a bits b = num_to_unsigned c bits x.
Proof.
  intros W BR. destruct (buf_reads c b x BR) as (v & p & V & O & M & A & _).
  unfold m_buf_to_unsigned, num_to_unsigned. rewrite O, A, !ret_bind. unfold m_to_unsigned, var_to_unsigned. destruct V as [C| ->].
  - destruct (Z.eqb_spec bits 8) as [->|Nb].
    + rewrite (into_unsigned_g c a 16 v p) by (auto; lia). rewrite into_unsigned_spec by (auto using canon_dig, canon_nan; lia). rewrite !ret_bind.
      destruct (in_unsigned 16 (round_int (vval v))) eqn:I; [|reflexivity]. unfold in_unsigned in I. apply andb_true_iff in I.
      rewrite Z.leb_le in I. destruct (Z.ltb_spec 255 (round_int (vval v))); [reflexivity|].
      rewrite Z.mod_small by (change (2 ^ 8) with 256; lia). reflexivity.
    + apply into_unsigned_g; auto. unfold int_width in W. lia.
  - assert (N : m_nan p = true) by (unfold m_nan; now rewrite (rp_sign p _ (proj1 M))).
    unfold m_into_unsigned, into_unsigned. rewrite N.
    destruct (Z.eqb_spec bits 8) as [->|Nb]; rewrite !dassert_ok by (apply Z.leb_le; unfold int_width in W; lia); reflexivity.
Qed.

Theorem machine_to_int c a x b h rs b' z q s a' bits : valid (be_varlen c) x -> m_num_to_owned c a x = Ret b ->
  Forall (fun e => Forall (valid (be_varlen c)) (operands (fst e))) h -> m_run c h (Some b) = (rs, Some b') ->
  m_as_bytes c b' = Ret z -> stores (be_varlen c) z q s -> int_width bits ->
  m_buf_to_signed c a' bits b' = Ret (if (- 2 ^ (bits - 1) <=? round_int q) && (round_int q <? 2 ^ (bits - 1)) then inl (round_int q) else inr COverflow) /\
  m_buf_to_unsigned c a' bits b' = Ret (if (0 <=? round_int q) && (round_int q <? 2 ^ bits) then inl (round_int q) else inr COverflow).
Proof.
  intros V E U R Z S W. destruct (after c a x b h rs b' V E U R) as (z' & Z' & BR). rewrite Z in Z'. apply Ret_inj in Z'. subst z'.
  rewrite (buf_to_signed_m c a' bits b' z W BR), (buf_to_unsigned_m c a' bits b' z W BR).
  destruct (to_signed_iff c bits z q s (round_int q) W S) as (A1 & A2 & _). destruct (to_unsigned_iff c bits z q s (round_int q) W S) as (B1 & B2 & _).
  split.
  - destruct (Z.leb_spec (- 2 ^ (bits - 1)) (round_int q)), (Z.ltb_spec (round_int q) (2 ^ (bits - 1))); cbn [andb]; [apply A1|apply A2..]; lia.
  - destruct (Z.leb_spec 0 (round_int q)), (Z.ltb_spec (round_int q) (2 ^ bits)); cbn [andb]; [apply B1|apply B2..]; lia.
Qed.

Theorem machine_factorial c a n : n < 2 ^ 63 ->
  (n <= 32177 -> exists b x, m_num_factorial c a n = Ret (Some b) /\ shows c (Some b) (Some x) /\
     stores (be_varlen c) x (inject_Z (factorial (Z.to_nat n))) 0) /\
  (32177 < n -> m_num_factorial c a n = Ret None).
Proof.
  intro H. pose proof (factorial_agrees c a n H) as A. split; intro L.
  - destruct (factorial_some c n L) as (x & E & S). rewrite E in A. destruct (agrees_ret c _ _ A) as (b & Eb & Sb).
    destruct b as [b|]; [|contradiction]. exists b, x. auto.
  - rewrite (factorial_none c n L) in A. destruct (agrees_ret c _ _ A) as (b & Eb & Sb). destruct b; [contradiction|exact Eb].
Qed.

Theorem machine_keys c x y : valid (be_varlen c) x -> valid (be_varlen c) y ->
  exists tx ty hx hy, m_num_normalize c x = Ret tx /\ m_num_normalize c y = Ret ty /\ m_num_hash c x = Ret hx /\ m_num_hash c y = Ret hy /\
    (tx = ty <-> m_num_cmp c x y = Ret Eq) /\ (hx = hy <-> m_num_cmp c x y = Ret Eq).
Proof.
  intros V1 V2. rewrite (normalize_agrees c x V1), (normalize_agrees c y V2), (hash_agrees c x V1), (hash_agrees c y V2).
  destruct (binary_agrees c (fun _ _ => 0) x y V1 V2) as (_ & _ & _ & _ & _ & _ & ->).
  assert (Q : num_cmp c x y = Ret Eq <-> num_eq c x y = Ret true).
  { unfold num_eq. destruct (num_cmp c x y) as [[| |]| | |]; cbn [bind]; split; intro K; try reflexivity; try discriminate K. }
  destruct (normalize_eq c x y V1 V2) as (tx & ty & E1 & E2 & K).
  destruct (valid_denotes _ _ V1) as (dx & D1). destruct (valid_denotes _ _ V2) as (dy & D2).
  destruct (num_hash_spec c x y dx dy D1 D2) as (hx & hy & E3 & E4 & K').
  destruct (num_eq_spec c x y dx dy D1 D2) as (r & Er & Kr).
  exists tx, ty, hx, hy. do 4 (split; [assumption|]). rewrite Q. split; [exact K|].
  rewrite <- K', <- Kr, Er. split; [intros ->; reflexivity|apply Ret_inj].
Qed.
