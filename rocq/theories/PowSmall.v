(** * PowSmall: exponents 1, 2 and -1; the exponents i32::MIN and beyond i32; loss of precision. *)
From Coq Require Import ZArith QArith Qabs Qpower List Bool Lia Lqa.
From Verif Require Import Base Var Binary Format Parse Convert Num Flt Transc Spec SpecApi SpecLibm QDec Digits Arith Strip
  Round Trunc AddSub Signed Codec Make Api1 Api2 Mul MulNear DivQ DivFast ConvertApi PowLoop Sci PowInt PowApi.
Import ListNotations.
Open Scope Z_scope.

Lemma num_pow_int c m fuel v e n : canon v -> canon e -> (vval e == inject_Z n)%Q -> -2147483648 <= n < 2147483648 ->
  ~ ((vval v == 0)%Q /\ n < 0) ->
  num_pow c m fuel (layout (be_varlen c) (to_number v)) (layout (be_varlen c) (to_number e)) =
    o <- power_int c m v n (pow_scale_of (dscale v)) ;;
    match o with None => Ret None | Some r => if is_nan r then b <- nan_buf c ;; Ret (Some b) else make_result c r end.
Proof.
  intros C1 C2 V H NZ. rewrite num_pow_unfold by assumption.
  rewrite (pow_go c m fuel v e (cn_st v C1) (cn_st e C2)).
  - rewrite (power_common_int c m fuel v e n (cn_st v C1) (cn_st e C2) V) by lia. reflexivity.
  - intros [A B]. apply NZ. split; [exact A|]. rewrite V in B. change 0%Q with (inject_Z 0) in B. now rewrite <- Zlt_Qlt in B.
  - right. exists n. rewrite V, p10_0. ring.
Qed.

Lemma make_rounded c v s q r : stripped v -> -32767 <= weight v <= 32767 -> 0 <= s <= 16383 -> rounded v s q r -> mult q s ->
  exists o, make_result c r = Ret o /\ result_of (be_varlen c) q s o.
Proof.
  intros S W Hs R M. apply make_result_spec; auto; try apply R.
  - destruct (rd_weight _ _ _ _ R) as [E|[[E U]|[E _]]]; lia.
  - destruct (rd_weight _ _ _ _ R) as [E|[[E U]|[E _]]]; [left; lia| |left; lia].
    destruct (Z_le_dec (weight r) 32767) as [L|L]; [now left|right]. rewrite limit_p10.
    rewrite (rd_val _ _ _ _ R) in U. eapply Qle_trans; [|exact U]. apply p10_le. lia.
Qed.

Theorem pow_one c m fuel x q s e se : stores (be_varlen c) x q s -> stores (be_varlen c) e 1 se ->
  exists o, num_pow c m fuel x e = Ret o /\ result_of (be_varlen c) (round_at q (pow_scale_of s)) (pow_scale_of s) o.
Proof.
  intros H1 H2.
  destruct (stores_elim _ _ _ _ H1) as (v & C1 & -> & V1 & S1). destruct (stores_elim _ _ _ _ H2) as (w & C2 & -> & V2 & S2).
  rewrite (num_pow_int c m fuel v w 1 C1 C2 V2) by lia. pose proof (cn_st v C1) as S.
  unfold power_int. rewrite (nan_ok c v (st_nan v S)). cbn [bind]. change (1 =? 0) with false. change (1 =? 1) with true. cbv iota.
  destruct (round_common_spec c v (pow_scale_of (dscale v)) (st_digits v S) (st_nan v S)) as (r & Er & R). rewrite Er. cbn [bind].
  rewrite (not_nan' r (rd_sign _ _ _ _ R)). rewrite <- S1.
  assert (R' : rounded v (pow_scale_of (dscale v)) (round_at q (pow_scale_of (dscale v))) r).
  { destruct R as [A1 A2 A3 A4 A5 A6]. constructor; auto. rewrite A4. now apply round_at_comp. }
  apply (make_rounded c v _ _ r S (cn_weight v C1)); [unfold pow_scale_of; lia|exact R'|apply mult_round; lia].
Qed.

Theorem pow_minus_one c m fuel x q s e se : stores (be_varlen c) x q s -> ~ (q == 0)%Q -> stores (be_varlen c) e (-1) se ->
  exists o, num_pow c m fuel x e = Ret o /\ result_of (be_varlen c) (round_at (/ q) (pow_scale_of s)) (pow_scale_of s) o.
Proof.
  intros H1 NZ H2.
  destruct (stores_elim _ _ _ _ H1) as (v & C1 & -> & V1 & S1). destruct (stores_elim _ _ _ _ H2) as (w & C2 & -> & V2 & S2).
  rewrite (num_pow_int c m fuel v w (-1) C1 C2 V2); [|lia|intros [K _]; apply NZ; now rewrite <- V1]. pose proof (cn_st v C1) as S.
  unfold power_int. rewrite (nan_ok c v (st_nan v S)). cbn [bind]. change (-1 =? 0) with false. change (-1 =? 1) with false. change (-1 =? -1) with true. cbv iota.
  assert (NE : digits v <> []) by (apply nz_digits; [exact S|now rewrite V1]). rewrite <- S1. set (rs := pow_scale_of (dscale v)).
  assert (Hrs : 16 <= rs <= 1000) by (unfold rs, pow_scale_of; lia).
  destruct (div_common_nz c ONE v rs true) as (r & Er & Sr & Dr & Vr).
  - exact (st_digits _ (one_stripped 0)).
  - apply S.
  - discriminate.
  - apply S.
  - lia.
  - apply S.
  - exact NE.
  - discriminate.
  - rewrite Er. cbn [bind expect]. rewrite (not_nan r Sr).
    assert (Vq : (vval r == round_at (/ q) rs)%Q).
    { rewrite Vr. apply round_at_comp. rewrite V1. change (vval ONE) with (vval (set_dscale 0 ONE)). rewrite vval_one. field. exact NZ. }
    apply make_result_semi; [now apply stripped_semi|exact Dr|lia|exact Vq|apply mult_round; lia].
Qed.

Theorem pow_square c m fuel x q s e se : stores (be_varlen c) x q s -> stores (be_varlen c) e 2 se ->
  forall n, canonical n -> x = layout (be_varlen c) n ->
  exists o r, num_pow c m fuel x e = Ret o /\ result_of (be_varlen c) r (pow_scale_of s) o /\
    (Qabs (r - q ^ 2) <= ((1 # 2) + inject_Z (Z.of_nat (length (digs n)) + 1) * (1 # 10000)) * ten ^ (- pow_scale_of s))%Q.
Proof.
  intros H1 H2 n Cn En.
  destruct (stores_elim _ _ _ _ H1) as (v & C1 & Ex & V1 & S1). destruct (stores_elim _ _ _ _ H2) as (w & C2 & -> & V2 & S2).
  assert (Nv : n = to_number v).
  { pose proof (canonical_canon n Cn) as Cn'. pose proof (as_var_spec c (of_number n) (canon_storable _ Cn')) as A1.
    pose proof (as_var_spec c v (canon_storable v C1)) as A2. rewrite to_of_number in A1. rewrite <- En in A1. rewrite <- Ex in A2.
    pose proof (eq_trans (eq_sym A1) A2) as A3. injection A3 as A3. rewrite <- A3. now rewrite to_of_number. }
  assert (Ln : Z.of_nat (length (digs n)) = ndigits v) by (rewrite Nv; reflexivity). rewrite Ln. clear Nv Ln En Cn n. subst x.
  rewrite (num_pow_int c m fuel v w 2 C1 C2 V2) by lia. pose proof (cn_st v C1) as S.
  unfold power_int. rewrite (nan_ok c v (st_nan v S)). cbn [bind]. change (2 =? 0) with false. change (2 =? 1) with false. change (2 =? -1) with false.
  change (2 =? 2) with true. cbv iota. rewrite <- S1. set (rs := pow_scale_of (dscale v)).
  assert (Hrs : 16 <= rs <= 1000) by (unfold rs, pow_scale_of; lia).
  destruct (mul_common_near c v v rs (st_digits v S) (st_digits v S) (st_nan v S) (st_nan v S) ltac:(lia)) as (r & Er & Sr & Dr & (p & Bp & Vr)).
  rewrite Er. cbn [bind]. rewrite (not_nan r Sr). rewrite Z.min_id in Bp.
  assert (Mr : mult (vval r) rs) by (apply (mult_comp (round_at p rs)); [now symmetry|apply mult_round; lia]).
  destruct (make_result_semi c r (vval r) rs (stripped_semi r Sr) Dr ltac:(lia) (Qeq_refl _) Mr) as (o & Eo & Ro).
  exists o, (vval r). split; [exact Eo|]. split; [exact Ro|].
  assert (Q2 : (q ^ 2 == vval v * vval v)%Q) by (rewrite V1; reflexivity). rewrite Q2, Vr. change (ten ^ (- rs))%Q with (p10 (- rs)).
  setoid_replace (round_at p rs - vval v * vval v)%Q with ((round_at p rs - p) + (p - vval v * vval v))%Q by ring.
  eapply Qle_trans; [apply Qabs_triangle|].
  assert (A : (Qabs (round_at p rs - p) <= (1 # 2) * p10 (- rs))%Q).
  { unfold round_at. change (ten ^ rs)%Q with (p10 rs). change (ten ^ (- rs))%Q with (p10 (- rs)).
    pose proof (Sqrt.round_int_err (p * p10 rs)) as R.
    setoid_replace (inject_Z (round_int (p * p10 rs)) * p10 (- rs) - p)%Q with ((inject_Z (round_int (p * p10 rs)) - p * p10 rs) * p10 (- rs))%Q.
    - rewrite Qabs_Qmult, (Qabs_pos (p10 (- rs))) by (apply Qlt_le_weak, p10_pos). apply Qmult_le_compat_r; [exact R|apply Qlt_le_weak, p10_pos].
    - pose proof (p10_opp rs) as P. rewrite <- (Qmult_1_r p) at 2. rewrite <- P. ring. }
  replace (- rs - 4) with (-4 + - rs) in Bp by lia. rewrite p10_add in Bp. change (p10 (-4)) with (1 # 10000)%Q in Bp. lra.
Qed.

(** ** i32::MIN *)
Lemma unit_lead v d t : stripped v -> digits v = d :: t -> (1 <= Qabs (vval v) < 2)%Q -> d = 1 /\ weight v = 0.
Proof.
  intros S E [L U]. assert (NE : digits v <> []) by congruence. pose proof (stripped_range v S NE) as [R1 R2].
  assert (W1 : 0 < 4 * (weight v + 1)). { apply (proj1 (p10_lt_iff _ _)). rewrite p10_0. lra. }
  assert (W2 : 4 * weight v < 1). { apply (proj1 (p10_lt_iff _ _)). change (p10 1) with 10%Q. lra. }
  assert (W : weight v = 0) by lia. split; [|exact W]. destruct (lead_digit v d t S E) as [L1 L2]. rewrite W in L1, L2. change (4 * 0) with 0 in *.
  rewrite p10_0, Qmult_1_r in L1, L2.
  assert (A : (inject_Z d < inject_Z 2)%Q) by (change (inject_Z 2) with 2%Q; lra). assert (B : (inject_Z 1 < inject_Z (d + 1))%Q) by (change (inject_Z 1) with 1%Q; lra).
  rewrite <- Zlt_Qlt in A, B. lia.
Qed.

Lemma unit_f m v n : log10_sound (f_log10 m) -> weight v = 0 -> (pow_f m v 1 n == inject_Z 0)%Q.
Proof.
  intros LG W. unfold pow_f, fmul. apply fl_Z; [|reflexivity].
  assert (E : (fadd (f_log10 m (inject_Z 1)) (inject_Z (weight v * 4)) == inject_Z 0)%Q).
  { unfold fadd. apply fl_Z; [|reflexivity]. rewrite W. rewrite (lg_one _ LG : (f_log10 m (inject_Z 1) == 0)%Q). reflexivity. }
  rewrite E. change (inject_Z 0) with 0%Q. ring.
Qed.

Lemma unit_checks m v n rs : log10_sound (f_log10 m) -> weight v = 0 -> 0 <= rs ->
  let f := pow_f m v 1 n in
  negb (Qle_bool f 393204) = false /\
  negb (Qle_bool (inject_Z (- rs)) (fadd f 1)) || negb (Qle_bool (inject_Z (- 1000)) (fadd f 1)) = false /\ f2i f = 0.
Proof.
  intros LG W Hr f. pose proof (unit_f m v n LG W) as F. fold f in F.
  assert (F1 : (fadd f 1 == inject_Z 1)%Q) by (unfold fadd; apply fl_Z; [rewrite F; reflexivity|reflexivity]).
  split; [|split].
  - apply negb_false_iff, Qle_bool_iff. rewrite F. discriminate.
  - apply orb_false_iff. rewrite !negb_false_iff, !Qle_bool_iff, F1, <- !Zle_Qle. lia.
  - now apply f2i_Z.
Qed.

Theorem pow_min c m fuel x q s e se : log10_sound (f_log10 m) -> stores (be_varlen c) x q s -> (1 <= Qabs q < 2)%Q ->
  stores (be_varlen c) e (inject_Z (- 2 ^ 31)) se ->
  (dbg c = true -> num_pow c m fuel x e = Panic WArith) /\
  (dbg c = false -> exists y, num_pow c m fuel x e = Ret (Some y) /\ stores (be_varlen c) y 1 (pow_scale_of s)).
Proof.
  intros LG H1 HQ H2. change (- 2 ^ 31) with (-2147483648) in H2.
  destruct (stores_elim _ _ _ _ H1) as (v & C1 & -> & V1 & S1). destruct (stores_elim _ _ _ _ H2) as (w & C2 & -> & V2 & S2).
  assert (NZ : ~ (vval v == 0)%Q). { rewrite V1. intro K. rewrite K in HQ. change (Qabs 0) with 0%Q in HQ. lra. }
  rewrite (num_pow_int c m fuel v w (-2147483648) C1 C2 V2); [|lia|tauto]. rewrite <- S1. set (rs := pow_scale_of (dscale v)).
  assert (Hrs : 16 <= rs <= 1000) by (unfold rs, pow_scale_of; lia).
  pose proof (cn_st v C1) as S. assert (NE : digits v <> []) by now apply nz_digits.
  destruct (digits v) as [|d t] eqn:E; [congruence|]. destruct (unit_lead v d t S E) as [-> W]; [now rewrite V1|].
  rewrite (power_int_unfold c m v (-2147483648) rs 1 t (st_nan v S) E) by lia. cbv zeta.
  destruct (unit_checks m v (-2147483648) rs LG W ltac:(lia)) as (K1 & K2 & K3). rewrite K1, K2, K3.
  change (Z.abs (-2147483648)) with 2147483648. split; intro D.
  - unfold i32, arith. rewrite D. reflexivity.
  - assert (I : i32 c 2147483648 = Ret (-2147483648)) by (unfold i32, arith; rewrite D; reflexivity). rewrite I. cbn [bind].
    change (Z.odd (-2147483648)) with false. cbv iota.
    assert (P : forall g, pow_loop c 32 (-2147483648) g v ONE = Ret (PDone ONE)) by reflexivity. rewrite P. cbn [bind].
    change (-2147483648 <? 0) with true. cbv iota.
    destruct (div_fast_spec c ONE ONE rs (one_stripped 0) (one_stripped 0) ltac:(discriminate) ltac:(discriminate)) as [(z & Ez & Sz & Dz & Nz)|(Db & _)].
    + unfold df_bounds. cbn. lia.
    + rewrite Ez. cbn [bind expect]. rewrite (not_nan z Sz).
      assert (X1 : mult (vval ONE / vval ONE) rs). { apply (mult_comp 1%Q); [reflexivity|]. apply (mult_up _ 0); [lia|]. exists 1. reflexivity. }
      assert (Vz : (vval z == 1)%Q) by (rewrite (nearly_exact _ rs _ X1 Nz); reflexivity).
      destruct (make_result_semi c z 1 rs (stripped_semi z Sz) Dz ltac:(lia) Vz) as (o & Eo & [R _]).
      * apply (mult_up _ 0); [lia|]. exists 1. reflexivity.
      * destruct R as (y & -> & Y); [change (Qabs 1) with 1%Q; rewrite limit_p10, <- p10_0; apply p10_lt; lia|]. exists y. now split.
    + congruence.
Qed.

(** ** Integer exponents beyond i32 *)
Theorem pow_beyond c m fuel x q s e n se : stores (be_varlen c) x q s -> (q < 0)%Q -> stores (be_varlen c) e (inject_Z n) se ->
  ~ (- 2 ^ 31 <= n < 2 ^ 31) -> dbg c = true -> exists w, num_pow c m fuel x e = Panic w.
Proof.
  intros H1 HQ H2 Hn D. change (2 ^ 31) with 2147483648 in Hn.
  destruct (stores_elim _ _ _ _ H1) as (v & C1 & -> & V1 & S1). destruct (stores_elim _ _ _ _ H2) as (w & C2 & -> & V2 & S2).
  rewrite num_pow_unfold by assumption. pose proof (cn_st v C1) as S. pose proof (cn_st w C2) as T.
  assert (HV : (vval v < 0)%Q) by (rewrite V1; exact HQ).
  rewrite (pow_go c m fuel v w S T); [|intros [A _]; lra|right; exists n; rewrite V2, p10_0; ring].
  destruct (int_or_not c w T) as [(n' & Hn' & Hb)|Hno].
  { exfalso. apply Hn. rewrite V2 in Hn'. apply (proj1 (inject_Z_injective _ _)) in Hn'. lia. }
  unfold power_common. rewrite (nan_ok c v (st_nan v S)), (nan_ok c w (st_nan w T)). cbn [bind]. rewrite Hno. cbn [bind].
  destruct (cmp_zero c v S) as (z & Ez & Hz). rewrite Ez. cbn [bind].
  assert (z = -1) as -> by (destruct Hz as [[? ?]|[[? ?]|[? ?]]]; [lra|lra|assumption]). change (-1 =? 0) with false. cbv iota.
  unfold estimate_ln_dweight. rewrite (nan_ok c v (st_nan v S)). cbn [bind].
  assert (S9 : stripped ZERO_POINT_NINE).
  { constructor; cbn; try discriminate.
    - repeat constructor; discriminate.
    - intros d t E. injection E as <- _. discriminate.
    - intros d t E. destruct t as [|? [|]]; try discriminate. injection E as <-. discriminate. }
  destruct (cmp_st c v ZERO_POINT_NINE S S9) as (lo & El & Hl). rewrite El. cbn [bind].
  assert (V9 : (vval ZERO_POINT_NINE == 9 # 10)%Q) by reflexivity.
  assert (lo = -1) as -> by (destruct Hl as [[? ?]|[[? ?]|[? ?]]]; [rewrite V9 in *; lra|rewrite V9 in *; lra|assumption]).
  change (0 <=? -1) with false. cbv iota. cbn [bind andb].
  assert (NE : digits v <> []) by (apply nz_digits; [exact S|lra]).
  assert (G : 1 <= ndigits v).
  { unfold ndigits. destruct (digits v) as [|a l]; [congruence|]. rewrite lenz_cons. pose proof (lenz_nonneg l). lia. }
  replace (0 <? ndigits v) with true by (symmetry; apply Z.ltb_lt; lia).
  assert (X : forall k, exists w0, (dx <- i32 c (8 - k) ;;
     (let local_rscale := clamp_scale dx in ln_base <- ln_common c fuel v local_rscale ;;
      ln_num <- mul_common c ln_base w local_rscale ;;
        val <- expect (f_of_var m ln_num) MUnwrap ;;
        if negb (Qle_bool (Qabs val) (fmul 2000 (fl (301 # 100)))) then Ret None
        else
          let val := fmul val LOG10_E in
          let rscale := clamp_scale (Z.max (Z.max (NUMERIC_MIN_SIG_DIGITS - f2i val) (dscale v)) (dscale w)) in
          a <- i32 c (rscale + f2i val - k + 8) ;;
          let local_rscale := Z.max a NUMERIC_MIN_DISPLAY_SCALE in
          ln_base <- ln_common c fuel v local_rscale ;;
          ln_num <- mul_common c ln_base w local_rscale ;;
          exp_common c m fuel ln_num rscale)) = Panic w0).
  { intro k. destruct (i32 c (8 - k)) as [dx|wy| |] eqn:Ei.
    - cbn [bind]. assert (Y : forall rr, ln_common c fuel v rr = Panic WAssert).
      { intro rr. unfold ln_common. rewrite (nan_ok c v (st_nan v S)). cbn [bind]. rewrite D, Ez. cbn [bind]. unfold dassert. rewrite D. reflexivity. }
      exists WAssert. cbv zeta. rewrite Y. reflexivity.
    - exists wy. reflexivity.
    - unfold i32, arith in Ei. rewrite D in Ei. destruct (fits _ _); discriminate Ei.
    - unfold i32, arith in Ei. rewrite D in Ei. destruct (fits _ _); discriminate Ei. }
  destruct (digits v) as [|d0 t] eqn:E; [congruence|]. change (index (d0 :: t) 0) with (Ret d0). cbn [bind].
  destruct (Z.ltb_spec 1 (ndigits v)) as [L1|L1].
  - destruct t as [|d1 t']. { unfold ndigits in L1. rewrite E in L1. change (lenz [d0]) with 1 in L1. lia. }
    change (index (d0 :: d1 :: t') 1) with (Ret d1). cbn [bind].
    destruct (X (log10_i32 m (Qabs (fadd (f_ln m (inject_Z (d0 * NBASE + d1))) (fmul (inject_Z (weight v * DEC_DIGITS - DEC_DIGITS)) LN_10))))) as [w0 Hw].
    exists w0. cbv zeta in Hw |- *. rewrite Hw. reflexivity.
  - cbn [bind]. destruct (X (log10_i32 m (Qabs (fadd (f_ln m (inject_Z d0)) (fmul (inject_Z (weight v * DEC_DIGITS)) LN_10))))) as [w0 Hw].
    exists w0. cbv zeta in Hw |- *. rewrite Hw. reflexivity.
Qed.
