(** * PowNeg: a negative base with an integer exponent outside i32 never gives a result (C62).

    The code takes the logarithm of the base without its sign being positive; in release builds, where the
    assertion is gone, the square root iteration on a negative number can never see two equal iterates. *)
From Coq Require Import ZArith QArith Qabs Qpower List Bool Lia Lqa.
From Verif Require Import Base Var Binary Format Parse Convert Num Flt Transc Spec SpecApi SpecLibm SpecRoot QDec Digits Arith Strip
  Round Trunc AddSub Signed Codec Make Api1 Api2 Mul MulNear DivQ DivFast Sqrt ConvertApi PowLoop Sci PowInt PowApi PowSmall.
Import ListNotations.
Open Scope Z_scope.

Definition dead {A} (r : outcome A) : Prop := r = Diverge \/ exists w, r = Panic w.
Lemma dead_bind {A B} (r : outcome A) (f : A -> outcome B) : dead r -> dead (bind r f).
Proof. intros [->|[w ->]]; [now left|right; now exists w]. Qed.

Lemma dead_bind' {A B} (r : outcome A) (f : A -> outcome B) : (exists a, r = Ret a) \/ dead r -> (forall a, dead (f a)) -> dead (bind r f).
Proof. intros [[a ->]|H] K; [apply K|now apply dead_bind]. Qed.

(** no fixed point *)
Lemma no_fix a x ls k : (a * p10 ls * p10 ls <= -1)%Q -> ~ (x == 0)%Q -> (x == inject_Z k * p10 (- ls))%Q -> ~ step a x ls k.
Proof.
  intros A X E (s & S1 & S2). pose proof (p10_pos ls) as P. pose proof (p10_opp ls) as O.
  assert (K : (x * p10 ls == inject_Z k)%Q).
  { rewrite E. setoid_replace (inject_Z k * p10 (- ls) * p10 ls)%Q with (inject_Z k * (p10 ls * p10 (- ls)))%Q by ring. rewrite O. ring. }
  rewrite K in S2. set (X0 := inject_Z k) in *.
  assert (N : ~ (X0 == 0)%Q).
  { intro Z0. rewrite Z0 in K. destruct (Qmult_integral _ _ K) as [H|H]; [now apply X|]. rewrite H in P. now apply Qlt_irrefl in P. }
  set (y := (a / x * p10 ls)%Q) in *. assert (Y : (y * X0 == a * p10 ls * p10 ls)%Q).
  { unfold y. rewrite <- K. field. exact X. }
  clearbody X0 y. clear E K. rewrite <- Y in A. clear Y P O.
  unfold tiny in S1. apply Qabs_Qle_condition in S1. apply Qabs_Qle_condition in S2.
  set (S := inject_Z s) in *. clearbody S.
  assert (D : (Qabs (X0 - y) <= 16 # 10)%Q) by (apply Qabs_Qle_condition; split; lra).
  apply Qabs_Qle_condition in D.
  (* X0^2 + 1 <= X0^2 - X0 y = X0 (X0 - y) <= 1.6 |X0| *)
  pose proof (Qsq (X0 - (8 # 10))) as Q1. pose proof (Qsq (X0 + (8 # 10))) as Q2.
  destruct (Qlt_le_dec X0 0) as [L|L].
  - assert (M : ((- X0) * (- (X0 - y)) <= (- X0) * (16 # 10))%Q) by (rewrite !(Qmult_comm (- X0)); apply Qmult_le_compat_r; lra). lra.
  - assert (M : (X0 * (X0 - y) <= X0 * (16 # 10))%Q) by (rewrite !(Qmult_comm X0); apply Qmult_le_compat_r; lra). lra.
Qed.

Record nstate (x : var) : Prop := {
  ns_st : stripped x;
  ns_scale : 0 <= dscale x <= 16383;
  ns_wt : digits x <> [] -> -4096 <= weight x }.

Lemma neg_loop c v ls : dbg c = false -> semi v -> digits v <> [] -> ndigits v <= 200000 -> weight v <= 32767 -> 0 <= ls <= 16383 ->
  (vval v * p10 ls * p10 ls <= -1)%Q ->
  forall fuel x, nstate x -> dead (sqrt_loop c fuel v x x ls).
Proof.
  intros D Sv Nv Lv Wv L A. induction fuel as [|f IH]; intros x V; [now left|]. rewrite sqrt_loop_S.
  destruct (digits x) eqn:Nx.
  - right. rewrite (newton_zero c v x ls Sv (ns_st _ V) Nx). cbn [bind]. eexists. reflexivity.
  - assert (N : digits x <> []) by congruence.
    assert (Bd : df_bounds v x ls) by (unfold df_bounds; pose proof (ns_wt _ V N); lia).
    destruct (newton_spec c v x ls Sv (ns_st _ V) Nv N Bd L (ns_scale _ V)) as [(x' & k & E & Tx & Dx & Vx & St)|(G & _)]; [|congruence].
    rewrite E. cbn [bind].
    assert (V' : nstate x').
    { constructor; [exact Tx|lia|]. intro Nx'. apply weight_lb; [apply Tx|lia| |].
      - rewrite Dx. exists k. rewrite Vx. pose proof (p10_opp ls) as O.
        setoid_replace (inject_Z k * p10 (- ls) * p10 ls)%Q with (inject_Z k * (p10 ls * p10 (- ls)))%Q by ring. rewrite O. ring.
      - intro E0. apply Nx'. now apply stripped_zero_iff. }
    destruct (cmp_common_spec c x' x) as (s & Ec & Hc);
      try apply (ns_st _ V); try apply (ns_st _ V'); try (apply semi_nze, stripped_semi; [apply V' || apply V]).
    rewrite Ec. cbn [bind]. destruct Hc as [[-> He]|[[-> _]|[-> _]]]; [|cbn [Z.eqb]; now apply IH..].
    exfalso. apply (no_fix (vval v) (vval x) ls k A); [|now rewrite <- He|exact St].
    intro Z0. apply N. now apply stripped_zero_iff; [apply V|].
Qed.

Lemma neg_sqrt c fuel v L : dbg c = false -> stripped v -> (vval v < 0)%Q -> -4096 <= weight v <= 32767 -> ndigits v <= 200000 ->
  0 <= L -> L + 8 <= 16383 -> 0 <= 2 * weight v + L + 8 ->
  dead (sqrt_common c fuel v L).
Proof.
  intros D S Ng W Ln L0 L1 LW.
  assert (N : digits v <> []) by (intro E; rewrite (vval_empty v E) in Ng; now apply Qlt_irrefl in Ng).
  unfold sqrt_common, dassert. rewrite D. cbn [andb bind].
  replace (ndigits v =? 0) with false.
  2: { symmetry. apply Z.eqb_neq. intro E. apply N. apply ndigits_0. now apply Z.eqb_eq. }
  destruct (stripped_range v S N) as [Lo _].
  destruct (digits v) as [|d t] eqn:E; [congruence|]. unfold sqrt_guess. rewrite E. change (index (d :: t) 0) with (Ret d). cbn [bind].
  set (g := if Z.quot d 2 =? 0 then 1 else Z.quot d 2).
  assert (G : dig g /\ g <> 0).
  { pose proof (st_digits _ S) as F. rewrite E in F. apply Forall_inv in F. unfold dig in *. unfold g.
    rewrite Z.quot_div_nonneg by lia. pose proof (Z.div_mod d 2 ltac:(lia)). pose proof (Z.mod_pos_bound d 2 ltac:(lia)).
    destruct (Z.eqb_spec (d / 2) 0); lia. }
  clearbody g. destruct G as [Gd Gn]. apply dead_bind. apply neg_loop; auto.
  - now apply stripped_semi.
  - congruence.
  - lia.
  - lia.
  - rewrite <- Qmult_assoc, <- p10_add.
    assert (M : (1 <= Qabs (vval v) * p10 (L + 8 + (L + 8)))%Q).
    { apply (Qle_trans _ (p10 (4 * weight v) * p10 (L + 8 + (L + 8)))).
      + rewrite <- p10_add, <- p10_0. apply p10_le. lia.
      + apply Qmult_le_compat_r; [exact Lo|apply Qlt_le_weak, p10_pos]. }
    rewrite Qabs_neg in M by lra. lra.
  - constructor; cbn [digits weight sign dscale].
    + constructor; cbn [digits weight sign dscale]; try discriminate.
      * repeat constructor; exact Gd || apply Gd.
      * intros d' t' H. congruence.
      * intros d' t' H. destruct t' as [|? [|? ?]]; cbn in H; congruence.
    + lia.
    + intros _. pose proof (Z.quot_le_mono (-4096) (weight v) 2 ltac:(lia) ltac:(lia)) as H. change (Z.quot (-4096) 2) with (-2048) in H. lia.
Qed.

Lemma neg_ln c fuel v r : dbg c = false -> canon v -> (vval v < 0)%Q -> 0 <= r <= 1000 -> dead (ln_common c fuel v r).
Proof.
  intros D C Ng R. pose proof (cn_st v C) as S.
  assert (N : digits v <> []) by (intro E; rewrite (vval_empty v E) in Ng; now apply Qlt_irrefl in Ng).
  assert (Wl : -4096 <= weight v).
  { apply weight_lb; [apply S|apply C|now apply canon_mult|lra]. }
  unfold ln_common, dassert. rewrite D. cbn [andb bind]. apply dead_bind.
  destruct fuel as [|f]; [now left|]. cbn [ln_reduce].
  assert (S9 : stripped ZERO_POINT_NINE).
  { constructor; cbn; try discriminate.
    - repeat constructor; discriminate.
    - intros d t E. injection E as <- _. discriminate.
    - intros d t E. destruct t as [|? [|]]; try discriminate. injection E as <-. discriminate. }
  destruct (cmp_st c v ZERO_POINT_NINE S S9) as (lo & El & Hl). rewrite El. cbn [bind].
  assert (V9 : (vval ZERO_POINT_NINE == 9 # 10)%Q) by reflexivity.
  assert (lo = -1) as -> by (destruct Hl as [[? ?]|[[? ?]|[? ?]]]; [rewrite V9 in *; lra|rewrite V9 in *; lra|assumption]).
  change (-1 <=? 0) with true. cbv iota. apply dead_bind. change DEC_DIGITS with 4. change NUMERIC_MIN_DISPLAY_SCALE with 0.
  assert (Q4 : Z.quot (weight v * 4) 2 = 2 * weight v).
  { replace (weight v * 4) with (2 * weight v * 2) by lia. apply Z.quot_mul. lia. }
  rewrite Q4. pose proof (cn_weight v C). pose proof (canon_ndigits v C) as Ln.
  apply neg_sqrt; auto; lia.
Qed.

Theorem pow_beyond_all c m fuel x q s e n se : stores (be_varlen c) x q s -> (q < 0)%Q -> stores (be_varlen c) e (inject_Z n) se ->
  ~ (- 2 ^ 31 <= n < 2 ^ 31) ->
  (dbg c = true -> exists w, num_pow c m fuel x e = Panic w) /\
  (dbg c = false -> num_pow c m fuel x e = Diverge \/ exists w, num_pow c m fuel x e = Panic w).
Proof.
  intros H1 HQ H2 Hn. split; [intro D; now apply (pow_beyond c m fuel x q s e n se)|intro D].
  change (2 ^ 31) with 2147483648 in Hn.
  destruct (stores_elim _ _ _ _ H1) as (v & C1 & -> & V1 & S1). destruct (stores_elim _ _ _ _ H2) as (w & C2 & -> & V2 & S2).
  change (dead (num_pow c m fuel (layout (be_varlen c) (to_number v)) (layout (be_varlen c) (to_number w)))).
  rewrite num_pow_unfold by assumption. pose proof (cn_st v C1) as S. pose proof (cn_st w C2) as T.
  assert (HV : (vval v < 0)%Q) by (rewrite V1; exact HQ).
  rewrite (pow_go c m fuel v w S T); [|intros [A _]; lra|right; exists n; rewrite V2, p10_0; ring].
  destruct (int_or_not c w T) as [(n' & Hn' & Hb)|Hno].
  { exfalso. apply Hn. rewrite V2 in Hn'. apply (proj1 (inject_Z_injective _ _)) in Hn'. lia. }
  apply dead_bind.
  unfold power_common. rewrite (nan_ok c v (st_nan v S)), (nan_ok c w (st_nan w T)). cbn [bind]. rewrite Hno. cbn [bind].
  destruct (cmp_zero c v S) as (z & Ez & Hz). rewrite Ez. cbn [bind].
  assert (z = -1) as -> by (destruct Hz as [[? ?]|[[? ?]|[? ?]]]; [lra|lra|assumption]). change (-1 =? 0) with false. cbv iota.
  unfold estimate_ln_dweight. rewrite (nan_ok c v (st_nan v S)). cbn [bind].
  assert (S9 : stripped ZERO_POINT_NINE).
  { constructor; cbn; try discriminate.
    - repeat constructor; discriminate.
    - intros d t E. injection E as <- _. discriminate.
    - intros d t E. destruct t as [|? [|]]; try discriminate. injection E as <-. discriminate. }
  destruct (cmp_st c v ZERO_POINT_NINE S S9) as (lo & El & Hl). rewrite El. cbn [bind].
  assert (V9 : (vval ZERO_POINT_NINE == 9 # 10)%Q) by reflexivity.
  assert (lo = -1) as -> by (destruct Hl as [[? ?]|[[? ?]|[? ?]]]; [rewrite V9 in *; lra|rewrite V9 in *; lra|assumption]).
  change (0 <=? -1) with false. cbv iota. cbn [bind andb].
  assert (NE : digits v <> []) by (apply nz_digits; [exact S|lra]).
  assert (G : 1 <= ndigits v).
  { unfold ndigits. destruct (digits v) as [|a l]; [congruence|]. rewrite lenz_cons. pose proof (lenz_nonneg l). lia. }
  replace (0 <? ndigits v) with true by (symmetry; apply Z.ltb_lt; lia).
  assert (X : forall k (F : Z -> var -> outcome (option var)), dead (dx <- i32 c (8 - k) ;; ln_base <- ln_common c fuel v (clamp_scale dx) ;; F dx ln_base)).
  { intros k F. apply dead_bind'.
    - left. unfold i32, arith. rewrite D. destruct (fits _ _); eexists; reflexivity.
    - intro dx. apply dead_bind. apply neg_ln; auto. unfold clamp_scale. change NUMERIC_MIN_DISPLAY_SCALE with 0. change NUMERIC_MAX_DISPLAY_SCALE with 1000. lia. }
  destruct (digits v) as [|d0 t] eqn:E; [congruence|]. change (index (d0 :: t) 0) with (Ret d0). cbn [bind].
  destruct (Z.ltb_spec 1 (ndigits v)) as [L1|L1].
  - destruct t as [|d1 t']. { unfold ndigits in L1. rewrite E in L1. change (lenz [d0]) with 1 in L1. lia. }
    change (index (d0 :: d1 :: t') 1) with (Ret d1). cbn [bind]. cbv zeta. apply X.
  - cbn [bind]. cbv zeta. apply X.
Qed.
