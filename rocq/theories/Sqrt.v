(** * Sqrt: the Newton iteration. Values are compared in units of 10^-(rscale+8). *)
From Coq Require Import ZArith QArith Qround Qpower Qabs List Bool Lia Lqa.
From Verif Require Import Base Var Flt Transc Spec SpecRoot QDec Digits Arith Strip Round Trunc AddSub Signed Make DivQ
  DivFast Mul MulNear.
Import ListNotations.
Open Scope Z_scope.

Lemma round_int_err q : (Qabs (inject_Z (round_int q) - q) <= 1 # 2)%Q.
Proof.
  assert (P : forall p, (0 <= p)%Q -> (Qabs (inject_Z (round_int p) - p) <= 1 # 2)%Q).
  { intros p H. rewrite round_int_pos by exact H.
    pose proof (Qfloor_le (p + (1 # 2))) as A. pose proof (Qlt_floor (p + (1 # 2))) as C.
    rewrite inject_Z_plus in C. change (inject_Z 1) with 1%Q in C. apply Qabs_Qle_condition. split; lra. }
  destruct (Qlt_le_dec q 0) as [L|L].
  - pose proof (P (- q)%Q ltac:(lra)) as H. rewrite round_int_opp in H. rewrite inject_Z_opp in H.
    setoid_replace (- inject_Z (round_int q) - - q)%Q with (- (inject_Z (round_int q) - q))%Q in H by ring.
    now rewrite Qabs_opp in H.
  - now apply P.
Qed.

(** [round_at] in units of the last place *)
Lemma round_at_units q s : exists k : Z, (round_at q s == inject_Z k * p10 (- s))%Q /\
  (Qabs (inject_Z k - q * p10 s) <= 1 # 2)%Q.
Proof. exists (round_int (q * ten ^ s)). split; [reflexivity|apply round_int_err]. Qed.

Lemma scale_abs a e s : (Qabs a <= e * p10 (- s))%Q -> (Qabs (a * p10 s) <= e)%Q.
Proof.
  intro H. rewrite Qabs_Qmult, (Qabs_pos (p10 s)) by (apply Qlt_le_weak, p10_pos).
  pose proof (p10_opp s) as O. pose proof (p10_pos s) as P.
  apply (Qle_trans _ (e * p10 (- s) * p10 s)).
  - apply Qmult_le_compat_r; [exact H|lra].
  - setoid_replace (e * p10 (- s) * p10 s)%Q with (e * (p10 s * p10 (- s)))%Q by ring. rewrite O. lra.
Qed.

Definition tiny : Q := (1 # 1000000000).

Lemma nearly_units x s r : nearly_rounded x s r ->
  exists k : Z, (r == inject_Z k * p10 (- s))%Q /\ (Qabs (inject_Z k - x * p10 s) <= (1 # 2) + tiny)%Q.
Proof.
  intros (q & H & R). destruct (round_at_units q s) as (k & E & A). exists k. split; [now rewrite R|].
  assert (H' : (Qabs ((q - x) * p10 s) <= tiny)%Q).
  { apply scale_abs. eapply Qle_trans; [exact H|]. apply Qle_lteq. right.
    replace (- s - 9) with (-9 + - s) by lia. rewrite p10_add. reflexivity. }
  apply Qabs_Qle_condition in H'. apply Qabs_Qle_condition in A. apply Qabs_Qle_condition. split; lra.
Qed.

Lemma mul_near_units x k s r : mul_near x k s r -> k <= 2 ->
  exists j : Z, (r == inject_Z j * p10 (- s))%Q /\ (Qabs (inject_Z j - x * p10 s) <= (1 # 2) + (2 # 10000))%Q.
Proof.
  intros (q & H & R) K. destruct (round_at_units q s) as (j & E & A). exists j. split; [now rewrite R|].
  assert (H' : (Qabs ((q - x) * p10 s) <= 2 # 10000)%Q).
  { apply scale_abs. eapply Qle_trans; [exact H|].
    replace (- s - 4) with (-4 + - s) by lia. rewrite p10_add.
    setoid_replace (inject_Z k * (p10 (-4) * p10 (- s)))%Q with (inject_Z k * p10 (-4) * p10 (- s))%Q by ring.
    apply Qmult_le_compat_r; [|apply Qlt_le_weak, p10_pos]. change (p10 (-4)) with (1 # 10000).
    apply (Qle_trans _ (inject_Z 2 * (1 # 10000))); [|discriminate].
    apply Qmult_le_compat_r; [now rewrite <- Zle_Qle|discriminate]. }
  apply Qabs_Qle_condition in H'. apply Qabs_Qle_condition in A. apply Qabs_Qle_condition. split; lra.
Qed.

(** ** One iteration *)
Definition newton (c : cfg) (v x : var) (ls : Z) : outcome var :=
  o <- div_fast_common c v x ls true ;;
  s <- expect o MShouldNotBeZero ;;
  t <- add_common c x s ;;
  mul_common c t ZERO_POINT_FIVE ls.

Lemma sqrt_loop_S c f v r l ls :
  sqrt_loop c (S f) v r l ls =
  (x <- newton c v r ls ;; cmp <- cmp_common c x l ;; if cmp =? 0 then Ret x else sqrt_loop c f v x x ls).
Proof.
  unfold newton. cbn [sqrt_loop]. destruct (div_fast_common c v r ls true) as [o| | |]; [|reflexivity..].
  cbn [bind]. destruct (expect o MShouldNotBeZero) as [s| | |]; [|reflexivity..].
  cbn [bind]. destruct (add_common c r s) as [t| | |]; [|reflexivity..]. cbn [bind].
  reflexivity.
Qed.

(** The value [k] 10^-ls of an iterate comes from [x] by averaging with a rounded [a/x]. *)
Definition step (a x : Q) (ls k : Z) : Prop :=
  exists s : Z, (Qabs (inject_Z s - a / x * p10 ls) <= (1 # 2) + tiny)%Q /\
    (Qabs (2 * inject_Z k - (x * p10 ls + inject_Z s)) <= 1 + (4 # 10000))%Q.

Lemma vval_half : (vval ZERO_POINT_FIVE == 1 # 2)%Q.
Proof. vm_compute. reflexivity. Qed.

Lemma newton_zero c v x ls : semi v -> stripped x -> digits x = [] ->
  newton c v x ls = Panic (WMsg MShouldNotBeZero).
Proof.
  intros Tv T E. unfold newton, div_fast_common. rewrite (nan_ok c v (sm_nan _ Tv)), (nan_ok c x (st_nan _ T)).
  cbn [bind]. unfold ndigits. rewrite E. reflexivity.
Qed.

Lemma newton_spec c v x ls : semi v -> stripped x -> digits v <> [] -> digits x <> [] ->
  df_bounds v x ls -> 0 <= ls <= 16383 -> 0 <= dscale x <= 16383 ->
  (exists x' k, newton c v x ls = Ret x' /\ stripped x' /\ dscale x' = ls /\
     (vval x' == inject_Z k * p10 (- ls))%Q /\ step (vval v) (vval x) ls k) \/
  (dbg c = true /\ 21 < ndigits x /\ newton c v x ls = Panic WArith).
Proof.
  intros Tv T Nv Nx Bd L Dx. unfold newton.
  destruct (div_fast_semi c v x ls Tv (stripped_semi _ T) Nv Nx Bd) as [(s & E & Ts & Ds & R)|(G & H & E)]; rewrite E; cbn [bind].
  2:{ right. auto. }
  left. cbn [expect bind]. destruct (nearly_units _ _ _ R) as (ks & Ks & As).
  destruct (add_common_spec c x s (st_digits _ T) (st_digits _ Ts) (st_nan _ T) (st_nan _ Ts)) as (t & Et & At);
    [lia|]. rewrite Et. cbn [bind].
  destruct (mul_common_near c t ZERO_POINT_FIVE ls) as (x' & Ex & Tx & Sx & Mx).
  { apply At. } { repeat constructor; unfold dig; lia. } { apply At. } { discriminate. } { lia. }
  destruct (mul_near_units _ _ _ _ Mx) as (k & Ek & Ak).
  { change (ndigits ZERO_POINT_FIVE) with 1. lia. }
  exists x', k. split; [exact Ex|]. split; [exact Tx|]. split; [exact Sx|]. split; [exact Ek|].
  exists ks. split; [exact As|].
  assert (V : (vval t * vval ZERO_POINT_FIVE * p10 ls == (1 # 2) * (vval x * p10 ls + inject_Z ks))%Q).
  { rewrite (as_val _ _ _ At), vval_half, Ks. pose proof (p10_opp ls) as O.
    setoid_replace ((vval x + inject_Z ks * p10 (- ls)) * (1 # 2) * p10 ls)%Q
      with ((1 # 2) * (vval x * p10 ls + inject_Z ks * (p10 ls * p10 (- ls))))%Q by ring.
    rewrite O. ring. }
  rewrite V in Ak. apply Qabs_Qle_condition in Ak. apply Qabs_Qle_condition. split; lra.
Qed.

(** ** What a step does, in units *)
Lemma p2 a x p : (0 < x)%Q -> (0 < p)%Q -> (a / x * p == a * p * p / (x * p))%Q.
Proof. intros. field. split; lra. Qed.

Lemma Zq_lt a b : (inject_Z a < inject_Z b)%Q -> a < b.
Proof. now rewrite <- Zlt_Qlt. Qed.
Lemma Zq_le a b : (inject_Z a <= inject_Z b)%Q -> a <= b.
Proof. now rewrite <- Zle_Qle. Qed.

Lemma Qsq (q : Q) : (0 <= q * q)%Q.
Proof. destruct q as [n d]. unfold Qle, Qmult. cbn. pose proof (Z.square_nonneg n). lia. Qed.

Lemma step_rel a x ls k : (0 < a)%Q -> (0 < x)%Q -> step a x ls k ->
  exists s : Z, 0 <= s /\
    (Qabs (inject_Z s * (x * p10 ls) - a * p10 ls * p10 ls) <= ((1 # 2) + tiny) * (x * p10 ls))%Q /\
    (Qabs (2 * inject_Z k - (x * p10 ls + inject_Z s)) <= 1 + (4 # 10000))%Q.
Proof.
  intros Ha Hx (s & S1 & S2). pose proof (p10_pos ls) as P. set (p := p10 ls) in *. clearbody p. exists s.
  assert (Xp : (0 < x * p)%Q) by now apply Qmult_lt_0_compat.
  assert (Q0 : (0 < a / x * p)%Q).
  { apply Qmult_lt_0_compat; [|exact P]. unfold Qdiv. apply Qmult_lt_0_compat; [exact Ha|now apply Qinv_lt_0_compat]. }
  assert (E : (a / x * p * (x * p) == a * p * p)%Q) by (field; lra).
  set (y := (a / x * p)%Q) in *. clearbody y.
  split; [|split; [|exact S2]].
  - apply Qabs_Qle_condition in S1. unfold tiny in S1.
    assert (-1 < s); [|lia]. apply Zq_lt. change (inject_Z (-1)) with (-1)%Q. lra.
  - setoid_replace (inject_Z s * (x * p) - a * p * p)%Q with ((inject_Z s - y) * (x * p))%Q by (rewrite <- E; ring).
    rewrite Qabs_Qmult, (Qabs_pos (x * p)) by lra. apply Qmult_le_compat_r; [exact S1|lra].
Qed.

Lemma step_nonneg a x ls k : (0 < a)%Q -> (0 < x)%Q -> step a x ls k -> 0 <= k.
Proof.
  intros Ha Hx H. destruct (step_rel a x ls k Ha Hx H) as (s & S0 & _ & S2).
  assert (Xp : (0 < x * p10 ls)%Q) by (apply Qmult_lt_0_compat; [exact Hx|apply p10_pos]).
  assert (S0' : (0 <= inject_Z s)%Q) by (change 0%Q with (inject_Z 0); now rewrite <- Zle_Qle).
  apply Qabs_Qle_condition in S2. assert (-1 < k); [|lia]. apply Zq_lt. change (inject_Z (-1)) with (-1)%Q. lra.
Qed.

(** an iterate is at least every integer whose square is below *)
Lemma step_lower a x ls k b : (0 < a)%Q -> (0 < x)%Q -> step a x ls k -> 0 <= b ->
  (inject_Z b * inject_Z b <= a * p10 ls * p10 ls)%Q -> b <= k.
Proof.
  intros Ha Hx H Hb Hq. destruct (step_rel a x ls k Ha Hx H) as (s & S0 & S1 & S2).
  assert (Xp : (0 < x * p10 ls)%Q) by (apply Qmult_lt_0_compat; [exact Hx|apply p10_pos]).
  set (A := (a * p10 ls * p10 ls)%Q) in *. set (X := (x * p10 ls)%Q) in *. clearbody A X.
  apply Qabs_Qle_condition in S2. apply Qabs_Qle_condition in S1. unfold tiny in S1.
  set (S := inject_Z s) in *. set (K := inject_Z k) in *. set (b' := inject_Z b) in *.
  assert (b - 1 < k); [|lia]. apply Zq_lt. fold K. replace (b - 1) with (b + - 1) by lia. rewrite inject_Z_plus.
  fold b'. change (inject_Z (-1)) with (-1)%Q.
  destruct (Qlt_le_dec (b' - 1) K) as [G|G]; [lra|exfalso].
  assert (SB : (S <= 2 * b' - X - (9 # 10))%Q) by lra.
  assert (M : (S * X <= (2 * b' - X - (9 # 10)) * X)%Q) by (apply Qmult_le_compat_r; lra).
  pose proof (Qsq (b' - X)) as Sq. lra.
Qed.

(** at a fixed point *)
Lemma step_fix a x ls k : (0 < a)%Q -> (0 < x)%Q -> (x == inject_Z k * p10 (- ls))%Q -> step a x ls k ->
  0 < k /\ (Qabs (inject_Z k * inject_Z k - a * p10 ls * p10 ls) <= ((3 # 2) + tiny) * inject_Z k)%Q.
Proof.
  intros Ha Hx E H. destruct (step_rel a x ls k Ha Hx H) as (s & S0 & S1 & S2).
  assert (Ex : (x * p10 ls == inject_Z k)%Q).
  { rewrite E. pose proof (p10_opp ls) as O.
    setoid_replace (inject_Z k * p10 (- ls) * p10 ls)%Q with (inject_Z k * (p10 ls * p10 (- ls)))%Q by ring.
    rewrite O. ring. }
  assert (Xp : (0 < x * p10 ls)%Q) by (apply Qmult_lt_0_compat; [exact Hx|apply p10_pos]).
  rewrite Ex in S1, S2, Xp. assert (K0 : 0 < k) by (apply Zq_lt; exact Xp). split; [exact K0|].
  set (A := (a * p10 ls * p10 ls)%Q) in *. clearbody A.
  assert (D : k - s <= 1 /\ s - k <= 1).
  { apply Qabs_Qle_condition in S2. split.
    - assert (k - s < 2); [|lia]. apply Zq_lt. unfold Z.sub. rewrite inject_Z_plus, inject_Z_opp.
      change (inject_Z 2) with 2%Q. lra.
    - assert (s - k < 2); [|lia]. apply Zq_lt. unfold Z.sub. rewrite inject_Z_plus, inject_Z_opp.
      change (inject_Z 2) with 2%Q. lra. }
  destruct D as [D1 D2]. rewrite Zle_Qle in D1, D2. unfold Z.sub in D1, D2.
  rewrite inject_Z_plus, inject_Z_opp in D1, D2. change (inject_Z 1) with 1%Q in D1, D2.
  apply Qabs_Qle_condition in S1. apply Qabs_Qle_condition. unfold tiny in *.
  set (K := inject_Z k) in *. set (S := inject_Z s) in *. clearbody K S.
  assert (M1 : ((K - S) * K <= 1 * K)%Q) by (apply Qmult_le_compat_r; lra).
  assert (M2 : ((S - K) * K <= 1 * K)%Q) by (apply Qmult_le_compat_r; lra). split; lra.
Qed.

Lemma semi_range v : semi v -> digits v <> [] ->
  (p10 (4 * weight v) <= Qabs (vval v) < p10 (4 * (weight v + 1)))%Q.
Proof.
  intros S N. destruct (digits v) as [|d t] eqn:E; [congruence|].
  pose proof (sm_digits _ S) as D. rewrite E in D. pose proof (sm_first _ S d t E) as F.
  rewrite Qabs_vval by apply S.
  assert (B1 : 10000 ^ (ndigits v - 1) <= mag v < 10000 ^ ndigits v).
  { unfold mag, ndigits. rewrite E, lenz_cons. replace (1 + lenz t - 1) with (lenz t) by lia. split.
    - now apply dval_pos.
    - rewrite <- (lenz_cons d). now apply dval_bound. }
  assert (L : 1 <= ndigits v) by (unfold ndigits; rewrite E, lenz_cons; pose proof (lenz_nonneg t); lia).
  rewrite !pB_ten in * by lia. unfold lsd. split.
  - replace (4 * weight v) with (4 * (weight v + 1 - ndigits v) + 4 * (ndigits v - 1)) by lia.
    rewrite <- dec_1, <- dec_shift by lia. rewrite dec_le_iff. lia.
  - replace (4 * (weight v + 1)) with (4 * (weight v + 1 - ndigits v) + 4 * (ndigits v)) by lia.
    rewrite <- dec_1, <- dec_shift by lia. rewrite dec_lt_iff. lia.
Qed.

(** ** The loop *)
Record input (v : var) (ls : Z) : Prop := {
  in_st : semi v;
  in_pos : (0 < vval v)%Q;
  in_len : ndigits v <= 200000;
  in_wt : weight v <= 32767;
  in_ls : 0 <= ls <= 16383
}.

Record inv (v : var) (ls : Z) (x : var) : Prop := {
  iv_st : stripped x;
  iv_pos : (0 <= vval x)%Q;
  iv_scale : 0 <= dscale x <= 16383;
  iv_wt : digits x <> [] -> -4096 <= weight x;
  iv_zero : digits x = [] -> (vval v * p10 ls * p10 ls < 1)%Q
}.

Lemma in_nz v ls : input v ls -> digits v <> [].
Proof. intros H E. pose proof (in_pos _ _ H). rewrite (vval_empty v E) in H0. now apply Qlt_irrefl in H0. Qed.

Lemma stripped_pos v : stripped v -> digits v <> [] -> (0 <= vval v)%Q -> (0 < vval v)%Q.
Proof.
  intros T N H. destruct (Qlt_le_dec 0 (vval v)) as [L|L]; [exact L|]. exfalso. apply N.
  apply stripped_zero_iff; [exact T|]. now apply Qle_antisym.
Qed.

Lemma newton_inv c v ls x : input v ls -> inv v ls x -> digits x <> [] ->
  (exists x' k, newton c v x ls = Ret x' /\ inv v ls x' /\ dscale x' = ls /\
     (vval x' == inject_Z k * p10 (- ls))%Q /\ step (vval v) (vval x) ls k) \/
  (dbg c = true /\ 21 < ndigits x /\ newton c v x ls = Panic WArith).
Proof.
  intros [Tv Pv Lv Wv L] [T P S W Z] N.
  pose proof (stripped_pos x T N P) as P'.
  assert (Bd : df_bounds v x ls) by (unfold df_bounds; specialize (W N); lia).
  assert (Nv : digits v <> []) by (intro E; rewrite (vval_empty v E) in Pv; now apply Qlt_irrefl in Pv).
  destruct (newton_spec c v x ls Tv T Nv N Bd L S) as [(x' & k & E & Tx & Dx & Vx & St)|H]; [left|now right].
  exists x', k. split; [exact E|]. split; [|now auto].
  pose proof (step_nonneg _ _ _ _ Pv P' St) as K.
  constructor; auto.
  - rewrite Vx. apply Qmult_le_0_compat; [|apply Qlt_le_weak, p10_pos]. change 0%Q with (inject_Z 0).
    now rewrite <- Zle_Qle.
  - lia.
  - intro Nx. apply weight_lb; [apply Tx|lia| |].
    + rewrite Dx. exists k. rewrite Vx. pose proof (p10_opp ls) as O.
      setoid_replace (inject_Z k * p10 (- ls) * p10 ls)%Q with (inject_Z k * (p10 ls * p10 (- ls)))%Q by ring.
      rewrite O. ring.
    + intro E0. apply Nx. now apply stripped_zero_iff.
  - intro E0. destruct (Qlt_le_dec (vval v * p10 ls * p10 ls) 1) as [G|G]; [exact G|exfalso].
    assert (1 <= k).
    { apply (step_lower _ _ ls k 1 Pv P' St); [lia|]. change (inject_Z 1 * inject_Z 1)%Q with 1%Q. exact G. }
    rewrite (vval_empty x' E0) in Vx. assert (Qk : (inject_Z k == 0)%Q).
    { pose proof (p10_pos (- ls)) as Pp. destruct (Qmult_integral _ _ (Qeq_sym _ _ Vx)) as [H1|H1]; [exact H1|].
      rewrite H1 in Pp. now apply Qlt_irrefl in Pp. }
    change 0%Q with (inject_Z 0) in Qk. apply (proj1 (inject_Z_inj _ _)) in Qk. lia.
Qed.

Definition good_root (a : Q) (ls k : Z) : Prop :=
  0 < k /\ (Qabs (inject_Z k * inject_Z k - a * p10 ls * p10 ls) <= ((3 # 2) + tiny) * inject_Z k)%Q.

Lemma sqrt_loop_spec c v ls : input v ls -> forall fuel x, inv v ls x ->
  sqrt_loop c fuel v x x ls = Diverge \/
  (sqrt_loop c fuel v x x ls = Panic (WMsg MShouldNotBeZero) /\ (vval v * p10 ls * p10 ls < 1)%Q) \/
  (sqrt_loop c fuel v x x ls = Panic WArith /\ dbg c = true) \/
  (exists x' k, sqrt_loop c fuel v x x ls = Ret x' /\ stripped x' /\ dscale x' = ls /\
     (vval x' == inject_Z k * p10 (- ls))%Q /\ good_root (vval v) ls k).
Proof.
  intro I. induction fuel as [|f IH]; intros x V; [now left|]. rewrite sqrt_loop_S.
  destruct (digits x) eqn:Nx.
  - right. left. rewrite (newton_zero c v x ls (in_st _ _ I) (iv_st _ _ _ V) Nx). cbn [bind].
    split; [reflexivity|]. now apply (iv_zero _ _ _ V).
  - assert (N : digits x <> []) by congruence.
    destruct (newton_inv c v ls x I V N) as [(x' & k & E & V' & Dx & Vx & St)|(G & _ & E)]; rewrite E; cbn [bind].
    2:{ right. right. left. now split. }
    destruct (cmp_common_spec c x' x) as (s & Ec & Hc);
      try apply (iv_st _ _ _ V); try apply (iv_st _ _ _ V'); try (apply semi_nze, stripped_semi; [apply V' || apply V]).
    rewrite Ec. cbn [bind]. destruct Hc as [[-> He]|[[-> _]|[-> _]]]; [|cbn [Z.eqb]; now apply IH..].
    cbn [Z.eqb]. right. right. right. exists x', k. split; [reflexivity|]. split; [apply V'|]. split; [exact Dx|].
    split; [exact Vx|]. apply (step_fix (vval v) (vval x) ls k); auto.
    + apply I.
    + apply stripped_pos; [apply V|exact N|apply V].
    + now rewrite <- He.
Qed.

Lemma sqrt_guess_ok v ls : input v ls -> -4096 <= weight v ->
  exists g, sqrt_guess v = Ret g /\ inv v ls g /\ digits g <> [].
Proof.
  intros I W. unfold sqrt_guess. destruct (digits v) as [|d t] eqn:E.
  - exfalso. now apply (in_nz _ _ I).
  - change (index (d :: t) 0) with (Ret d). cbn [bind].
    set (g := if Z.quot d 2 =? 0 then 1 else Z.quot d 2).
    assert (G : dig g /\ g <> 0).
    { pose proof (sm_digits _ (in_st _ _ I)) as F. rewrite E in F. apply Forall_inv in F. unfold dig in *. unfold g.
      rewrite Z.quot_div_nonneg by lia. pose proof (Z.div_mod d 2 ltac:(lia)). pose proof (Z.mod_pos_bound d 2 ltac:(lia)).
      destruct (Z.eqb_spec (d / 2) 0); lia. }
    clearbody g. destruct G as [Gd Gn]. eexists. split; [reflexivity|]. split; [|discriminate].
    constructor; cbn [digits weight sign dscale].
    + constructor; cbn [digits weight sign dscale]; try discriminate.
      * repeat constructor; exact Gd || apply Gd.
      * intros d' t' H. congruence.
      * intros d' t' H. destruct t' as [|? [|? ?]]; cbn in H; congruence.
    + unfold vval. rewrite <- (dec_0 (4 * lsd (Var (Z.quot (weight v) 2) 0 SPos [g]))). apply dec_le_iff.
      unfold smag, mag. cbn [sgz sign digits dval]. change (10000 ^ lenz []) with 1. unfold dig in Gd. lia.
    + lia.
    + intros _. pose proof (Z.quot_le_mono (-4096) (weight v) 2 ltac:(lia) W) as H. change (Z.quot (-4096) 2) with (-2048) in H. lia.
    + discriminate.
Qed.

(** ** The rounded result *)
Lemma Qsq_mono (x y : Q) : (0 <= x)%Q -> (x <= y)%Q -> (x * x <= y * y)%Q.
Proof.
  intros H L. apply (Qle_trans _ (x * y)).
  - rewrite (Qmult_comm x y). apply Qmult_le_compat_r; assumption.
  - apply Qmult_le_compat_r; [exact L|lra].
Qed.

Lemma close_units A8 K J : (1 <= K)%Q ->
  (Qabs (K * K - A8 * inject_Z 10000000000000000) <= ((3 # 2) + tiny) * K)%Q ->
  (Qabs (J - K * (1 # 100000000)) <= 1 # 2)%Q ->
  let H := ((1 # 2) + (2 # 100000000))%Q in
  (A8 <= (J + H) * (J + H))%Q /\ ((H <= J)%Q -> ((J - H) * (J - H) <= A8)%Q).
Proof.
  intros HK HA HJ H. apply Qabs_Qle_condition in HA. apply Qabs_Qle_condition in HJ. unfold tiny in HA.
  change (inject_Z 10000000000000000) with (10000000000000000 # 1)%Q in HA. subst H. split.
  - assert (L : ((K + 1) * (1 # 100000000) <= J + ((1 # 2) + (2 # 100000000)))%Q) by lra.
    assert (L0 : (0 <= (K + 1) * (1 # 100000000))%Q) by lra.
    pose proof (Qsq_mono _ _ L0 L) as S. eapply Qle_trans; [|exact S].
    assert (A8 * (10000000000000000 # 1) <= (K + 1) * (K + 1))%Q by lra. lra.
  - intro G. assert (L : (J - ((1 # 2) + (2 # 100000000)) <= (K - 2) * (1 # 100000000))%Q) by lra.
    assert (L0 : (0 <= J - ((1 # 2) + (2 # 100000000)))%Q) by lra.
    pose proof (Qsq_mono _ _ L0 L) as S. eapply Qle_trans; [exact S|].
    assert (K2 : (2 <= K)%Q) by lra.
    assert ((K - 2) * (K - 2) <= A8 * (10000000000000000 # 1))%Q by lra. lra.
Qed.

Lemma p10_8 s : (p10 (s + 8) == p10 s * (100000000 # 1))%Q.
Proof. rewrite p10_add. reflexivity. Qed.

Lemma p10_m8 s : (p10 (- (s + 8)) == p10 (- s) * (1 # 100000000))%Q.
Proof. replace (- (s + 8)) with (- s + -8) by lia. rewrite p10_add. reflexivity. Qed.

Lemma root_rounded a s k r : good_root a (s + 8) k ->
  (r == round_at (inject_Z k * p10 (- (s + 8))) s)%Q -> close_root a r (root_error s).
Proof.
  intros [K0 G] R. destruct (round_at_units (inject_Z k * p10 (- (s + 8))) s) as (j & E & A).
  pose proof (p10_opp s) as O. pose proof (p10_pos s) as Pp. pose proof (p10_pos (- s)) as Pm.
  rewrite p10_m8 in A.
  setoid_replace (inject_Z k * (p10 (- s) * (1 # 100000000)) * p10 s)%Q
    with (inject_Z k * (1 # 100000000) * (p10 s * p10 (- s)))%Q in A by ring.
  rewrite O, Qmult_1_r in A. rewrite p10_8 in G.
  set (A8 := (a * p10 s * p10 s)%Q).
  setoid_replace (a * (p10 s * (100000000 # 1)) * (p10 s * (100000000 # 1)))%Q
    with (A8 * inject_Z 10000000000000000)%Q in G by (unfold A8; change (inject_Z 10000000000000000) with ((100000000 # 1) * (100000000 # 1))%Q; ring).
  assert (K1 : (1 <= inject_Z k)%Q) by (change 1%Q with (inject_Z 1); rewrite <- Zle_Qle; lia).
  destruct (close_units A8 (inject_Z k) (inject_Z j) K1 G A) as [U L]. cbv zeta in U, L.
  assert (Er : (r == inject_Z j * p10 (- s))%Q) by now rewrite R.
  assert (Ea : (a == A8 * (p10 (- s) * p10 (- s)))%Q).
  { unfold A8. setoid_replace (a * p10 s * p10 s * (p10 (- s) * p10 (- s)))%Q
      with (a * (p10 s * p10 (- s)) * (p10 s * p10 (- s)))%Q by ring. rewrite O. ring. }
  unfold close_root, root_error. change (ten ^ (- s))%Q with (p10 (- s)).
  set (H := ((1 # 2) + (2 # 100000000))%Q) in *. set (w := p10 (- s)) in *.
  assert (Hj : (0 <= inject_Z j)%Q).
  { change 0%Q with (inject_Z 0). rewrite <- Zle_Qle. assert (-1 < j); [|lia]. apply Zq_lt.
    change (inject_Z (-1)) with (-1)%Q. apply Qabs_Qle_condition in A. lra. }
  assert (W2 : (0 <= w * w)%Q) by apply Qsq.
  split; [|split].
  - rewrite Er. apply Qmult_le_0_compat; lra.
  - rewrite Ea, Er. setoid_replace ((inject_Z j * w + H * w) * (inject_Z j * w + H * w))%Q
      with ((inject_Z j + H) * (inject_Z j + H) * (w * w))%Q by ring.
    apply Qmult_le_compat_r; assumption.
  - rewrite Ea, Er. intro G1. apply (proj1 (Qmult_le_r H (inject_Z j) w Pm)) in G1. specialize (L G1).
    setoid_replace ((inject_Z j * w - H * w) * (inject_Z j * w - H * w))%Q
      with ((inject_Z j - H) * (inject_Z j - H) * (w * w))%Q by ring.
    apply Qmult_le_compat_r; assumption.
Qed.
