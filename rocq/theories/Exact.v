(** * Exact: what the code does in the cases where the expected property fails (P_Mut.v, P_Data.v). *)
From Coq Require Import ZArith QArith Qabs List Bool Lia.
From Verif Require Import Base Var Binary Parse Typmod Num Spec SpecApi QDec Digits Strip Arith Round Codec Make Api1 Api2 Api3 Api4 Laws Samples Mut.
Import ListNotations.
Open Scope Z_scope.

(** ** NaN under a type modifier *)
Lemma nan_into_var c : into_var c (nan_layout (be_varlen c)) = Ret (Var 0 0 SNaN []).
Proof. destruct c as [[] []]; vm_compute; reflexivity. Qed.

Lemma make_nan_release c sc : dbg c = false -> 0 <= sc <= 16383 ->
  exists y, make_result c (Var 0 sc SNaN []) = Ret (Some y) /\ stores (be_varlen c) y 0 sc.
Proof.
  intros D S. assert (E : make_result c (Var 0 sc SNaN []) = make_result c (Var 0 sc SPos [])).
  { unfold make_result, make_result_no_overflow. unfold dassert. rewrite D. reflexivity. }
  rewrite E. destruct (make_result_spec c (Var 0 sc SPos []) 0 sc) as (o & O & RO); [apply Forall_nil|discriminate|reflexivity|exact S|reflexivity|exists 0; ring|cbn [weight]; lia|left; cbn [weight]; lia|].
  destruct RO as [R _]. destruct R as (y & -> & Y); [|now exists y].
    change (Qabs 0) with 0%Q. rewrite limit_p10. apply p10_pos.
Qed.

(** C22: for every typmod, and for the default one, a debug build panics, losing the buffer, and a
    release build stores a zero *)
Lemma typmod_nan c (x : bytes) t : stores_nan (be_varlen c) x ->
  ((exists p sc, typmod_new c p sc = Ret (Some t)) \/ t = typmod_default) ->
  (dbg c = true -> apply_typmod c (Some x) t = (Panic WAssert, None)) /\
  (dbg c = false -> exists y s, apply_typmod c (Some x) t = (Ret false, Some y) /\ stores (be_varlen c) y 0 s /\
     (forall p sc, typmod_new c p sc = Ret (Some t) -> s = sc) /\ (t = typmod_default -> s = 0)).
Proof.
  intros N T. unfold stores_nan in N. subst x.
  assert (F : forall p sc, typmod_new c p sc = Ret (Some t) -> 1 <= p <= 1000 /\ 0 <= sc <= p /\ t = p * 65536 + sc + 4).
  { intros p sc H. destruct (typmod_new_spec c p sc) as [P Q].
    assert (B : 1 <= p <= 1000 /\ 0 <= sc <= p) by (apply (typmod_new_iff c); now exists t).
    rewrite (P B) in H. injection H as <-. lia. }
  unfold apply_typmod. cbn [deref]. rewrite nan_into_var. cbn [bind]. unfold apply_typmod_var. change VAR_HEADER_SIZE with 4.
  destruct T as [(p & sc & T)| ->].
  - destruct (F p sc T) as (B1 & B2 & E).
    replace (t <? 4) with false by (symmetry; apply Z.ltb_ge; lia).
    assert (X : typmod_extract c t = Ret (p, sc)) by (rewrite E; apply typmod_extract_spec; lia). rewrite X. cbn [bind].
    split; intro D.
    + unfold round_common, dassert. rewrite D. reflexivity.
    + destruct (make_nan_release c sc D ltac:(lia)) as (y & Y & SY).
      exists y, sc. split; [|split; [exact SY|]].
      * unfold round_common, dassert at 1. rewrite D. cbn [andb bind weight ndigits digits sign].
        change DEC_DIGITS with 4. change (0 + 1) with 1.
        replace (1 * 4 + sc <? 0) with false by (symmetry; apply Z.ltb_ge; lia). cbv zeta.
        change (ndigits (Var 0 0 SNaN [])) with 0.
        replace (Z.quot (1 * 4 + sc + 4 - 1) 4 <? 0) with false.
        2: { symmetry. apply Z.ltb_ge. apply Z.quot_pos; lia. }
        replace (Z.quot (1 * 4 + sc + 4 - 1) 4 =? 0) with false.
        2: { symmetry. apply Z.eqb_neq. rewrite Z.quot_div_nonneg by lia. pose proof (Z.div_le_mono 4 (1 * 4 + sc + 4 - 1) 4 ltac:(lia) ltac:(lia)) as G.
          change (4 / 4) with 1 in G. lia. }
        cbn [orb andb bind]. change (set_dscale sc (Var 0 0 SNaN [])) with (Var 0 sc SNaN []). cbn [weight digits bind].
        assert (Z0 : forall d m, typmod_scan [] d m = false) by reflexivity. rewrite Z0.
        destruct (p - sc <? (0 + 1) * 4); cbn [bind]; rewrite Y; reflexivity.
      * split; [|intro K; exfalso; unfold typmod_default in K; lia].
        intros p' sc' T'. destruct (F p' sc' T') as (B3 & B4 & E'). lia.
  - change (typmod_default <? 4) with true. cbn [bind]. split; intro D.
    + unfold make_result, dassert. rewrite D. reflexivity.
    + destruct (make_nan_release c 0 D ltac:(lia)) as (y & Y & SY). rewrite Y. cbn [bind stored].
      exists y, 0. split; [reflexivity|]. split; [exact SY|]. split; [|reflexivity].
      intros p sc T. destruct (F p sc T) as (B1 & B2 & E). unfold typmod_default in E. lia.
Qed.

(** ** C23: when a mutator loses the buffer *)
Lemma round_mut_num c (x : bytes) q s k : stores (be_varlen c) x q s ->
  ((Qabs (round_at q (clamp k)) < limit)%Q -> exists y, round_mut c (Some x) k = (Ret tt, Some y) /\
      stores (be_varlen c) y (round_at q (clamp k)) (Z.max 0 (clamp k))) /\
  ((limit <= Qabs (round_at q (clamp k)))%Q -> round_mut c (Some x) k = (Panic (WMsg MOverflow), None)).
Proof.
  intro S. assert (V : valid (be_varlen c) x) by (now apply (stores_valid _ _ _ _ S)).
  pose proof (round_mut_spec c x k V) as A4. destruct (num_round_spec c x q s k S) as [R1 R2]. split; intro L.
  - destruct (R1 L) as (y & B & Sy). rewrite B in A4. exists y. split; [exact A4|exact Sy].
  - rewrite (R2 L) in A4. unfold agrees in A4.
    destruct (stores_elim _ _ _ _ S) as (v & C & -> & VV & SS).
    unfold round_mut in *. cbn [deref bind] in *. rewrite (num_is_nan_spec c v (canon_storable v C)) in *. cbn [bind] in *.
    remember (x <- into_var c (layout (be_varlen c) (to_number v));; y <- round_var c x k;; o <- make_result c y;; z <- expect o MOverflow;; Ret (tt, Some z)) as r.
    destruct r as [[a o]|w| |]; cbn [stored fst] in *; try discriminate. now injection A4 as ->.
Qed.

Lemma lost_exactly c (x : bytes) k : valid (be_varlen c) x ->
  snd (negate_mut c (Some x)) <> None /\ snd (abs_mut c (Some x)) <> None /\ snd (trunc_mut c (Some x) k) <> None /\
  (snd (round_mut c (Some x) k) = None <-> exists q s, stores (be_varlen c) x q s /\ (limit <= Qabs (round_at q (clamp k)))%Q) /\
  (forall p sc t, typmod_new c p sc = Ret (Some t) ->
     (snd (apply_typmod c (Some x) t) = None <->
        (stores_nan (be_varlen c) x /\ dbg c = true) \/
        (exists q s, stores (be_varlen c) x q s /\ (limit <= Qabs (round_at q sc))%Q))).
Proof.
  intro V. destruct (mut_usable c x k V) as ((y1 & -> & _) & (y2 & -> & _) & (y3 & -> & _) & U).
  cbn [snd]. split; [discriminate|]. split; [discriminate|]. split; [discriminate|].
  assert (F : forall q s q' s' z, stores (be_varlen c) x q s -> stores (be_varlen c) x q' s' -> (limit <= Qabs (round_at q z))%Q -> (Qabs (round_at q' z) < limit)%Q -> False).
  { intros q s q' s' z S S' L L'. destruct (stores_fun _ _ _ _ _ _ S S') as [E _]. apply (Qlt_not_le _ _ L').
    rewrite <- (round_at_comp _ _ z E). exact L. }
  split.
  - split.
    + intro N. destruct U as [(y & E & _)|[_ U]]; [rewrite E in N; discriminate|exact U].
    + intros (q & s & S & L). now rewrite (proj2 (round_mut_num c x q s k S) L).
  - intros p sc t T. destruct V as [N|(q & s & S)].
    + destruct (typmod_nan c x t N ltac:(left; now exists p, sc)) as [D R]. destruct (dbg c) eqn:G.
      * assert (D0 : snd (apply_typmod c (Some x) t) = None) by (now rewrite (D eq_refl)). rewrite D0. split; [intros _; left; now split|reflexivity].
      * destruct (R eq_refl) as (y & z & R0 & _). assert (D0 : snd (apply_typmod c (Some x) t) = Some y) by (now rewrite R0). rewrite D0. split; [discriminate|].
        intros [[_ K]|(q & s & S & _)]; [discriminate|]. exfalso. exact (stores_not_nan _ _ _ _ S N).
    + destruct (apply_typmod_spec c x q s p sc t S T) as [A B]. split.
      * intro K. right. exists q, s. split; [exact S|]. destruct (Qlt_le_dec (Qabs (round_at q sc)) limit) as [L|L]; [|exact L].
        destruct (A L) as (b & y & E & _). assert (D0 : snd (apply_typmod c (Some x) t) = Some y) by (exact (f_equal snd E)). congruence.
      * intros [[K _]|(q' & s' & S' & L)]; [exfalso; exact (stores_not_nan _ _ _ _ S K)|].
        destruct (Qlt_le_dec (Qabs (round_at q sc)) limit) as [L'|L']; [exfalso; exact (F _ _ _ _ _ S' S L L')|]. assert (D0 : snd (apply_typmod c (Some x) t) = None) by (exact (f_equal snd (B L'))). exact D0.
Qed.

(** ** C46: products with a zero *)
Lemma mul_zero_exact c x y q1 s1 q2 s2 :
  stores (be_varlen c) x q1 s1 -> stores (be_varlen c) y q2 s2 -> (q1 == 0)%Q \/ (q2 == 0)%Q ->
  (s1 + s2 <= 16383 -> exists z, checked_mul c x y = Ret (Some z) /\ stores (be_varlen c) z 0 (s1 + s2)) /\
  (16383 < s1 + s2 -> checked_mul c x y = if dbg c then Panic WAssert else Ret None).
Proof.
  intros S1 S2 Z0. split; intro L.
  - destruct (checked_mul_spec c x y q1 s1 q2 s2 S1 S2 L) as (o & O & R).
    assert (E : (q1 * q2 == 0)%Q) by (destruct Z0 as [E|E]; rewrite E; ring).
    apply (result_of_ext _ _ 0%Q _ _ E) in R. destruct R as [R _]. destruct R as (z & -> & Z1); [|now exists z].
    change (Qabs 0) with 0%Q. rewrite limit_p10. apply p10_pos.
  - now apply (checked_mul_scale c x y q1 s1 q2 s2).
Qed.
