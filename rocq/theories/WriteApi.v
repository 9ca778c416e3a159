(** * WriteApi: the calls made on a writer, for every writer *)
From Coq Require Import ZArith QArith Qabs List Bool Lia.
From Verif Require Import Base Var Binary Format Typmod Num Flt Transc Spec SpecApi SpecText SpecLibm SpecWrite Write FormatText FormatApi SciText Sci Mut.
Import ListNotations.
Open Scope Z_scope.

Definition report {S} (r : bool * S) : outcome bool * S := (Ret (fst r), snd r).
(** [f] makes the calls [ps], whatever the writer is *)
Definition calls (f : forall S, writer S -> W S) (ps : list piece) : Prop :=
  forall S (w : writer S) s, f S w s = report (feed w ps s).

Lemma feed_app S (w : writer S) ps qs : forall s,
  feed w (ps ++ qs) s = (let '(ok, s') := feed w ps s in if ok then feed w qs s' else (false, s')).
Proof.
  induction ps as [|p t IH]; intro s; [reflexivity|]. cbn [app feed]. destruct (w s p) as [[|] s']; [apply IH|reflexivity].
Qed.
Lemma calls_put p : calls (fun S w => put w p) [p].
Proof. intros S w s. unfold put, report. cbn [feed]. now destruct (w s p) as [[|] s']. Qed.
Lemma calls_done : calls (fun S w => done) [].
Proof. intros S w s. reflexivity. Qed.
Lemma calls_then f g ps qs : calls f ps -> calls g qs -> calls (fun S w => wthen (f S w) (g S w)) (ps ++ qs).
Proof.
  intros F G S w s. unfold wthen. rewrite (F S w s), feed_app. unfold report. destruct (feed w ps s) as [[|] s']; cbn [fst snd]; [apply G|reflexivity].
Qed.
Lemma calls_all ps : calls (fun S w => put_all w ps) ps.
Proof.
  induction ps as [|p t IH]; [apply calls_done|]. cbn [put_all]. exact (calls_then _ _ [p] t (calls_put p) IH).
Qed.
Lemma calls_if (b : bool) f g ps qs : calls f ps -> calls g qs -> calls (fun S w => if b then f S w else g S w) (if b then ps else qs).
Proof. intros; now destruct b. Qed.
Lemma texts_app ps qs : texts (ps ++ qs) = texts ps ++ texts qs. Proof. apply flat_map_app. Qed.
Lemma texts_ch l : texts (map Ch l) = l.
Proof. induction l; [reflexivity|]. cbn. now f_equal. Qed.

Definition writes (f : forall S, writer S -> W S) (t : text) : Prop := exists ps, calls f ps /\ texts ps = t.
Lemma writes_then f g t u : writes f t -> writes g u -> writes (fun S w => wthen (f S w) (g S w)) (t ++ u).
Proof. intros (ps & F & <-) (qs & G & <-). exists (ps ++ qs). split; [now apply calls_then|apply texts_app]. Qed.
Lemma writes_put p : writes (fun S w => put w p) (text_of p).
Proof. exists [p]. split; [apply calls_put|]. cbn. apply app_nil_r. Qed.
Lemma writes_done : writes (fun S w => done) []. Proof. exists []. split; [apply calls_done|reflexivity]. Qed.
Lemma writes_all l : writes (fun S w => put_all w (map Ch l)) l.
Proof. exists (map Ch l). split; [apply calls_all|apply texts_ch]. Qed.
Lemma writes_if (b : bool) f g t u : writes f t -> writes g u -> writes (fun S w => if b then f S w else g S w) (if b then t else u).
Proof. intros; now destruct b. Qed.
Lemma writes_eq f t u : writes f t -> t = u -> writes f u. Proof. now intros H <-. Qed.
Lemma writes_bind A (o : outcome A) a f t : o = Ret a -> writes (fun S w => f S w a) t -> writes (fun S w => wbind o (f S w)) t.
Proof. intros -> H. exact H. Qed.

Lemma put_int_text d : writes (fun S w => put_int w d) (fmt_int d).
Proof.
  eapply writes_eq; [apply (writes_then (fun S w => if d <? 0 then put w (Ch ch_dash) else done) (fun S w => put w (St (dec_digits 10 (Z.abs d) [])))
    (if d <? 0 then [ch_dash] else []) (dec_digits 10 (Z.abs d) []))|].
  - apply (writes_if (d <? 0) (fun S w => put w (Ch ch_dash)) (fun S w => done)); [apply (writes_put (Ch ch_dash))|apply writes_done].
  - apply (writes_put (St _)).
  - unfold fmt_int. cbn [text_of]. destruct (d <? 0) eqn:E; [apply Z.ltb_lt in E; now rewrite Z.abs_neq by lia|apply Z.ltb_ge in E; now rewrite Z.abs_eq by lia].
Qed.
Lemma put_pad_text k d : writes (fun S w => put_pad w k d) (fmt_pad k d).
Proof.
  unfold put_pad, fmt_pad. cbv zeta. refine (writes_then _ _ _ _ _ _); [apply writes_all|].
  refine (writes_then _ _ _ _ _ _); [apply writes_all|apply (writes_put (St _))].
Qed.
Lemma put_exponent_text e : writes (fun S w => put_exponent w e) (fmt_exponent e).
Proof.
  unfold put_exponent, fmt_exponent. cbv zeta. refine (writes_then _ _ [_] _ _ _); [apply (writes_put (Ch _))|].
  refine (writes_then _ _ _ _ _ _); [apply writes_all|apply (writes_put (St _))].
Qed.

Lemma put_int_part_text c ds k : forall d t, write_int c k d ds = Ret t -> writes (fun S w => put_int_part c w k d ds) t.
Proof.
  induction k as [|k IH]; intros d t H; cbn [write_int] in H.
  - injection H as <-. apply writes_done.
  - cbn [put_int_part]. cbv zeta in H |- *. destruct (dassert c (0 <=? digit_or_zero ds d)) as [u| | |] eqn:E; cbn [bind] in H; try discriminate H.
    destruct (write_int c k (d + 1) ds) as [r| | |] eqn:R; cbn [bind] in H; try discriminate H. injection H as <-.
    refine (writes_bind _ _ u _ _ eq_refl _).
    refine (writes_then _ _ _ _ _ _); [|now apply IH].
    refine (writes_if _ _ _ _ _ _ _); [apply put_pad_text|apply put_int_text].
Qed.
Lemma put_frac_part_text ds dsc k : forall sc d, writes (fun S w => put_frac_part w k sc d dsc ds) (write_frac k sc d dsc ds).
Proof.
  induction k as [|k IH]; intros sc d; [apply writes_done|]. cbn [put_frac_part write_frac]. cbv zeta.
  refine (writes_then _ _ _ _ _ _); [|apply IH].
  refine (writes_if _ _ _ _ _ _ _); apply put_pad_text.
Qed.

Lemma write_to_text c v t : write c v = Ret t -> writes (fun S w => write_to c w v) t.
Proof.
  unfold write, write_to. destruct (is_nan v); [intro H; injection H as <-; apply (writes_put (St txt_NaN))|].
  intro H.
  destruct (if weight v <? 0 then Ret [ch_0] else write_int c (Z.to_nat (weight v + 1)) 0 (digits v)) as [ip| | |] eqn:E; cbn [bind] in H; try discriminate H.
  injection H as <-.
  refine (writes_then _ _ _ _ _ _).
  { refine (writes_if _ _ _ _ _ _ _); [apply (writes_put (Ch ch_dash))|apply writes_done]. }
  refine (writes_then _ _ _ _ _ _).
  { destruct (weight v <? 0); [injection E as <-; apply (writes_put (Ch ch_0))|now apply put_int_part_text]. }
  refine (writes_if _ _ _ _ _ _ _); [|apply writes_done].
  refine (writes_then _ _ [_] _ _ _); [apply (writes_put (Ch ch_dot))|apply put_frac_part_text].
Qed.

(** [write] only panics by a debug assertion *)
Lemma write_int_panic c ds k : forall d y, write_int c k d ds = Panic y -> y = WAssert.
Proof.
  induction k as [|k IH]; intros d y H; cbn [write_int] in H; [discriminate|]. cbv zeta in H. unfold dassert in H.
  destruct (dbg c && negb (0 <=? digit_or_zero ds d)); cbn [bind] in H; [now injection H|].
  destruct (write_int c k (d + 1) ds) eqn:R; cbn [bind] in H; try discriminate H. injection H as <-. exact (IH _ _ R).
Qed.
Lemma write_panic c v y : write c v = Panic y -> y = WAssert.
Proof.
  unfold write. destruct (is_nan v); [discriminate|]. destruct (weight v <? 0); cbn [bind]; [discriminate|].
  destruct (write_int c (Z.to_nat (weight v + 1)) 0 (digits v)) eqn:E; cbn [bind]; try discriminate. intro H. injection H as <-. exact (write_int_panic _ _ _ _ _ E).
Qed.

Lemma display_to_text c x t : num_display c x = Ret t -> writes (fun S w => num_display_to c w x) t.
Proof.
  unfold num_display, num_display_to. destruct (as_var c x) as [v| | |]; cbn [bind]; try discriminate. intro H.
  refine (writes_bind _ _ v _ _ eq_refl _). now apply write_to_text.
Qed.

(** what [write_sci] computes before it writes *)
Definition sci_parts (c : cfg) (m : libm) (v : var) (rscale : Z) : outcome (Z * var) :=
  let rscale := if rscale <? 0 then 0 else rscale in
  exponent <-
    (if 0 <? ndigits v then
       d <- index (digits v) 0 ;;
       Ret ((weight v + 1) * DEC_DIGITS - (DEC_DIGITS - log10_i32 m (inject_Z d)))
     else Ret 0) ;;
  let denom_scale := if exponent <? 0 then - exponent else 0 in
  denominator <- (o <- power_int c m TEN exponent denom_scale ;; expect o MMulOverflow) ;;
  significand <- (o <- div_common c v denominator rscale true ;; expect o MDivZero) ;;
  Ret (exponent, significand).
Lemma write_sci_parts c m v rs lower : is_nan v = false ->
  write_sci c m v rs lower = ('(e, sig) <- sci_parts c m v rs ;; s <- write c sig ;; Ret (s ++ (if lower then ch_e else ch_E) :: fmt_exponent e)).
Proof.
  intro N. unfold write_sci, sci_parts. rewrite N. cbv zeta.
  destruct (if 0 <? ndigits v then _ else _) as [e| | |]; cbn [bind]; try reflexivity.
  destruct (power_int c m TEN e _) as [o| | |]; cbn [bind]; try reflexivity.
  destruct (expect o MMulOverflow) as [d| | |]; cbn [bind]; try reflexivity.
  destruct (div_common c v d _ true) as [o'| | |]; cbn [bind]; try reflexivity.
  destruct (expect o' MDivZero) as [q| | |]; cbn [bind]; reflexivity.
Qed.
Lemma write_sci_to_parts S c m (w : writer S) v rs lower s : is_nan v = false ->
  write_sci_to c m w v rs lower s = wbind (sci_parts c m v rs) (fun '(e, sig) =>
    wthen (write_to c w sig) (wthen (put w (St [if lower then ch_e else ch_E])) (put_exponent w e))) s.
Proof.
  intro N. unfold write_sci_to, sci_parts. rewrite N. cbv zeta.
  destruct (if 0 <? ndigits v then _ else _) as [e| | |]; cbn [wbind bind]; try reflexivity.
  destruct (power_int c m TEN e _) as [o| | |]; cbn [wbind bind]; try reflexivity.
  destruct (expect o MMulOverflow) as [d| | |]; cbn [wbind bind]; try reflexivity.
  destruct (div_common c v d _ true) as [o'| | |]; cbn [wbind bind]; try reflexivity.
  destruct (expect o' MDivZero) as [q| | |]; cbn [wbind bind]; reflexivity.
Qed.
Lemma calls_ext f g ps : (forall S w s, f S w s = g S w s) -> calls g ps -> calls f ps.
Proof. intros E G S w s. rewrite E. apply G. Qed.
Lemma write_sci_to_text c m v rs lower t : write_sci c m v rs lower = Ret t -> writes (fun S w => write_sci_to c m w v rs lower) t.
Proof.
  destruct (is_nan v) eqn:N.
  - unfold write_sci, write_sci_to. rewrite N. intro H. injection H as <-. apply (writes_put (St txt_NaN)).
  - rewrite (write_sci_parts c m v rs lower N). destruct (sci_parts c m v rs) as [[e sig]| | |] eqn:E; cbn [bind]; try discriminate.
    destruct (write c sig) as [s| | |] eqn:Wr; cbn [bind]; try discriminate. intro H. injection H as <-.
    assert (H : writes (fun S w => wthen (write_to c w sig) (wthen (put w (St [if lower then ch_e else ch_E])) (put_exponent w e)))
                  (s ++ (if lower then ch_e else ch_E) :: fmt_exponent e)).
    { refine (writes_then _ _ _ _ _ _); [now apply write_to_text|]. refine (writes_then _ _ [_] _ _ _); [apply (writes_put (St [_]))|apply put_exponent_text]. }
    destruct H as (ps & C & T). exists ps. split; [|exact T]. revert C. apply calls_ext. intros S w s0.
    rewrite (write_sci_to_parts S c m w v rs lower s0 N), E. reflexivity.
Qed.
Lemma sci_to_text c m x lower t : num_sci c m x lower = Ret t -> writes (fun S w => num_sci_to c m w x lower) t.
Proof.
  unfold num_sci, num_sci_to. destruct (as_var c x) as [v| | |]; cbn [bind]; try discriminate.
  destruct (select_sci_scale c v) as [rs| | |] eqn:E; cbn [bind]; try discriminate. intro H.
  refine (writes_bind _ _ v _ _ eq_refl _). refine (writes_bind _ _ rs _ _ E _). now apply write_sci_to_text.
Qed.
Lemma sci_to_panic c m x lower y : num_sci c m x lower = Panic (WMsg y) ->
  forall S (w : writer S) s, num_sci_to c m w x lower s = (Panic (WMsg y), s).
Proof.
  unfold num_sci, num_sci_to. intros H S w s. destruct (as_var c x) as [v|a| |]; cbn [bind wbind] in *; try discriminate; [|now injection H as ->].
  destruct (select_sci_scale c v) as [rs|a| |]; cbn [bind wbind] in *; try discriminate; [|now injection H as ->].
  destruct (is_nan v) eqn:N; [unfold write_sci in H; rewrite N in H; discriminate|].
  rewrite (write_sci_parts c m v rs lower N) in H. rewrite (write_sci_to_parts S c m w v rs lower s N).
  destruct (sci_parts c m v rs) as [[e sig]|a| |]; cbn [bind wbind] in *; try discriminate; [|now injection H as ->].
  destruct (write c sig) as [r|a| |] eqn:Wr; cbn [bind] in H; try discriminate. injection H as ->.
  apply write_panic in Wr. discriminate.
Qed.

Lemma display_any c x : valid (be_varlen c) x -> exists t ps, num_display c x = Ret t /\ texts ps = t /\
  forall S (w : writer S) s, num_display_to c w x s = (Ret (fst (feed w ps s)), snd (feed w ps s)).
Proof.
  intros V. assert (exists t, num_display c x = Ret t) as [t T].
  { destruct V as [N|(q & s & H)]; [exists [78; 97; 78]; now apply display_nan|]. destruct (display_spec c x q s H) as (t & T & _). eauto. }
  destruct (display_to_text c x t T) as (ps & C & E). exists t, ps. auto.
Qed.
Lemma sci_any c m x lower : log10_sound (f_log10 m) -> valid (be_varlen c) x ->
  (exists t ps, num_sci c m x lower = Ret t /\ texts ps = t /\
     forall S (w : writer S) s, num_sci_to c m w x lower s = (Ret (fst (feed w ps s)), snd (feed w ps s))) \/
  ((exists q k, stores (be_varlen c) x q k /\ (0 < Qabs q)%Q /\ (Qabs q < ten ^ (-1001))%Q) /\
   num_sci c m x lower = Panic (WMsg MDivZero) /\
   forall S (w : writer S) s, num_sci_to c m w x lower s = (Panic (WMsg MDivZero), s)).
Proof.
  intros LG V. assert (G : forall t, num_sci c m x lower = Ret t -> exists t ps, num_sci c m x lower = Ret t /\ texts ps = t /\
     forall S (w : writer S) s, num_sci_to c m w x lower s = (Ret (fst (feed w ps s)), snd (feed w ps s))).
  { intros t T. destruct (sci_to_text c m x lower t T) as (ps & C & E). exists t, ps. auto. }
  destruct V as [N|(q & s & H)]; [left; eapply G; exact (sci_nan c m x lower N)|].
  destruct (Qeq_dec q 0) as [Z|Z]; [left; eapply G; exact (sci_zero c m x q s lower H Z)|].
  destruct (sci_spec c m x q s lower LG H Z) as [P1 P2]. destruct (Qlt_le_dec (Qabs q) (ten ^ (-1001))) as [L|L].
  - right. split; [exists q, s; split; [exact H|]; split; [|exact L]|].
    { destruct (Qlt_le_dec 0 (Qabs q)) as [K|K]; [exact K|]. exfalso. apply Z. apply Qabs_Qle_condition in K as [K1 K2]. apply Qle_antisym; [exact K2|exact K1]. }
    split; [exact (P2 L)|]. now apply sci_to_panic, P2.
  - left. destruct (P1 L) as (t & T & _). exact (G t T).
Qed.

Lemma feed_string ps : forall s, feed string_writer ps s = (true, s ++ texts ps).
Proof.
  induction ps as [|p t IH]; intro s; cbn [feed texts flat_map]; [now rewrite app_nil_r|]. unfold string_writer at 1. rewrite IH. cbn. now rewrite app_assoc.
Qed.
Lemma feed_choosy ok ps : forall s, let '(b, s') := feed (choosy ok) ps s in
  exists t u, s' = s ++ t /\ texts ps = t ++ u /\ (b = true -> u = []).
Proof.
  induction ps as [|p t IH]; intro s; cbn [feed]; [exists [], []; now rewrite app_nil_r|].
  unfold choosy at 1. destruct (ok s p).
  - specialize (IH (s ++ text_of p)). destruct (feed (choosy ok) t (s ++ text_of p)) as [b s']. destruct IH as (t1 & u & E & T & B).
    exists (text_of p ++ t1), u. split; [now rewrite E, app_assoc|]. split; [|exact B]. cbn [texts flat_map]. fold (texts t). rewrite T. apply app_assoc.
  - exists [], (texts (p :: t)). rewrite app_nil_r. auto. split; [reflexivity|]. split; [reflexivity|discriminate].
Qed.
Lemma display_string c x : valid (be_varlen c) x -> exists t, num_display c x = Ret t /\
  forall s, num_display_to c string_writer x s = (Ret true, s ++ t).
Proof.
  intro V. destruct (display_any c x V) as (t & ps & T & E & F). exists t. split; [exact T|]. intro s. rewrite F, feed_string. cbn. now rewrite E.
Qed.
Lemma display_prefix c x ok : valid (be_varlen c) x -> exists t b u v, num_display c x = Ret t /\ t = u ++ v /\
  num_display_to c (choosy ok) x [] = (Ret b, u) /\ (b = true -> v = []).
Proof.
  intro V. destruct (display_any c x V) as (t & ps & T & E & F). pose proof (feed_choosy ok ps []) as G. specialize (F _ (choosy ok) []).
  destruct (feed (choosy ok) ps []) as [b s']. destruct G as (u & v & Es & Et & Eb). exists t, b, u, v. cbn in Es. subst s'.
  split; [exact T|]. split; [congruence|]. split; [exact F|exact Eb].
Qed.

Lemma small_text p : 0 <= p <= 9999 -> plain_text (fmt_int p) (inject_Z p) 0.
Proof.
  intro H. destruct (fmt_int_spec p H) as (F & N & L). exists false, (fmt_int p), []. split; [now rewrite app_nil_r|].
  split; [exact F|]. split; [constructor|]. split; [|].
  { exact L. }
  split; [reflexivity|]. split.
  { split; [discriminate|]. intro K. unfold Qlt in K. cbn in K. lia. }
  rewrite app_nil_r, N. change (- 0) with 0. rewrite Qmult_1_r. apply Qabs_pos. unfold Qle. cbn. lia.
Qed.
Lemma typmod_calls c t p s : typmod_extract c t = Ret (p, s) ->
  writes (fun S w => typmod_display_to c w t) ([40] ++ fmt_int p ++ [44; 32] ++ fmt_int s ++ [41]).
Proof.
  intro E. refine (writes_bind _ _ (p, s) _ _ E _). cbv beta iota.
  refine (writes_then _ _ _ _ _ _); [apply (writes_put (St [40]))|]. refine (writes_then _ _ _ _ _ _); [apply put_int_text|].
  refine (writes_then _ _ _ _ _ _); [apply (writes_put (St [44; 32]))|]. refine (writes_then _ _ _ _ _ _); [apply put_int_text|apply (writes_put (St [41]))].
Qed.
Lemma typmod_text c p s t : typmod_new c p s = Ret (Some t) -> exists tp ts ps,
  plain_text tp (inject_Z p) 0 /\ plain_text ts (inject_Z s) 0 /\ texts ps = [40] ++ tp ++ [44; 32] ++ ts ++ [41] /\
  forall S (w : writer S) z, typmod_display_to c w t z = (Ret (fst (feed w ps z)), snd (feed w ps z)).
Proof.
  intro H. destruct (typmod_unique c c p s p s t t H H) as (_ & E & _). destruct (proj1 (typmod_new_iff c p s) (ex_intro _ t H)) as [P Sc].
  destruct (typmod_calls c t p s E) as (ps & C & T). exists (fmt_int p), (fmt_int s), ps.
  split; [apply small_text; lia|]. split; [apply small_text; lia|]. split; [exact T|exact C].
Qed.
Lemma typmod_default_text c : exists ps, texts ps = [40; 54; 53; 53; 51; 53; 44; 32; 54; 53; 53; 51; 49; 41] /\
  forall S (w : writer S) z, typmod_display_to c w typmod_default z = (Ret (fst (feed w ps z)), snd (feed w ps z)).
Proof.
  destruct (typmod_calls c typmod_default 65535 65531) as (ps & C & T).
  { unfold typmod_extract, typmod_default. destruct c as [[|] ?]; reflexivity. }
  exists ps. split; [exact T|exact C].
Qed.
