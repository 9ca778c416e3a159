(** * Sci: scientific format (var.rs write_sci, select_sci_scale). *)
From Coq Require Import ZArith QArith Qabs Qpower List Bool Lia Lqa.
From Verif Require Import Base Var Binary Format Parse Convert Num Flt Transc Spec SpecApi SpecText SpecLibm QDec Digits Arith Strip
  Round Signed Codec Make Api2 FltFacts Mul DivQ DivFast Sqrt Text ParseText ParseVal ParseApi FormatText FormatApi PowLoop.
Import ListNotations.
Open Scope Z_scope.

Lemma ten_stripped s : stripped (set_dscale s TEN).
Proof.
  constructor; cbn; try discriminate.
  - repeat constructor; discriminate.
  - intros d t E. injection E as <- _. discriminate.
  - intros d t E. destruct t as [|? [|]]; try discriminate. injection E as <-. discriminate.
Qed.
Lemma vval_ten : (vval TEN == p10 1)%Q.
Proof. reflexivity. Qed.
Lemma vval_one s : (vval (set_dscale s ONE) == 1)%Q.
Proof. reflexivity. Qed.

(** rounding an integer at scale 0 changes nothing *)
Lemma round_int_id c v s : stripped v -> digits v <> [] -> mult (vval v) 0 -> 0 <= s ->
  round_common c v s = Ret (set_dscale s v).
Proof.
  intros S NE M Hs. pose proof (frac_lsd v 0 S NE M) as L. unfold lsd in L. unfold round_common.
  rewrite (nan_ok c v (st_nan v S)). cbn [bind]. change DEC_DIGITS with 4.
  assert (N1 : 1 <= ndigits v).
  { unfold ndigits. destruct (digits v) as [|d t]; [congruence|]. rewrite lenz_cons. pose proof (lenz_nonneg t). lia. }
  replace ((weight v + 1) * 4 + s <? 0) with false by (symmetry; apply Z.ltb_ge; lia).
  assert (Q : ndigits v <= Z.quot ((weight v + 1) * 4 + s + 4 - 1) 4 /\
    (ndigits v = Z.quot ((weight v + 1) * 4 + s + 4 - 1) 4 -> Z.rem ((weight v + 1) * 4 + s) 4 <= 0)).
  { rewrite Z.quot_div_nonneg, Z.rem_mod_nonneg by lia.
    pose proof (Z.div_mod ((weight v + 1) * 4 + s + 4 - 1) 4 ltac:(lia)).
    pose proof (Z.mod_pos_bound ((weight v + 1) * 4 + s + 4 - 1) 4 ltac:(lia)).
    pose proof (Z.div_mod ((weight v + 1) * 4 + s) 4 ltac:(lia)).
    pose proof (Z.mod_pos_bound ((weight v + 1) * 4 + s) 4 ltac:(lia)). lia. }
  destruct Q as [Q1 Q2]. destruct (Z.ltb_spec (Z.quot ((weight v + 1) * 4 + s + 4 - 1) 4) (ndigits v)); [lia|]. cbn [orb].
  destruct (Z.eqb_spec (Z.quot ((weight v + 1) * 4 + s + 4 - 1) 4) (ndigits v)) as [E|E]; [|reflexivity]. cbn [andb].
  replace (0 <? _) with false by (symmetry; apply Z.ltb_ge; now apply Q2). reflexivity.
Qed.

Lemma stripped_dscale s v : stripped v -> stripped (set_dscale s v).
Proof. intros [A B C D E]. constructor; auto. Qed.

Lemma vval_dscale s v : vval (set_dscale s v) = vval v.
Proof. reflexivity. Qed.

(** a number next to a multiple of the unit rounds to it *)
Lemma nearly_exact x s r : mult x s -> nearly_rounded x s r -> (r == x)%Q.
Proof.
  intros [k K] (q & B & ->). unfold round_at. change (ten ^ s)%Q with (p10 s). change (ten ^ (- s))%Q with (p10 (- s)).
  assert (E : round_int (q * p10 s) = k).
  { assert (A : (Qabs (q * p10 s - inject_Z k) <= 1 # 1000000000)%Q).
    { rewrite <- K. setoid_replace (q * p10 s - x * p10 s)%Q with ((q - x) * p10 s)%Q by ring.
      apply scale_abs. apply Qle_trans with (p10 (- s - 9)); [exact B|].
      replace (- s - 9) with (-9 + - s) by lia. rewrite p10_add. apply Qle_refl. }
    pose proof (round_int_err (q * p10 s)) as R. apply Qabs_Qle_condition in A, R.
    assert (- (1) < inject_Z (round_int (q * p10 s)) - inject_Z k < 1)%Q as [H1 H2] by (split; lra).
    assert (inject_Z (k - 1) < inject_Z (round_int (q * p10 s)))%Q by (unfold Z.sub; rewrite inject_Z_plus, inject_Z_opp; change (inject_Z 1) with 1%Q; lra).
    assert (inject_Z (round_int (q * p10 s)) < inject_Z (k + 1))%Q by (rewrite inject_Z_plus; change (inject_Z 1) with 1%Q; lra).
    apply Zq_lt in H. apply Zq_lt in H0. lia. }
  rewrite E, <- K, <- Qmult_assoc, p10_opp. ring.
Qed.

Lemma p10_ndigits v a : stripped v -> (vval v == p10 a)%Q -> ndigits v = 1 /\ 4 * weight v <= a.
Proof.
  intros S V. assert (NE : digits v <> []) by (apply nz_digits; [exact S|rewrite V; apply p10_nz]).
  pose proof (stripped_range v S NE) as [R1 R2]. rewrite V in R1, R2. rewrite Qabs_pos in R1, R2 by (apply Qlt_le_weak, p10_pos).
  apply (proj1 (p10_le_iff _ _)) in R1. apply (proj1 (p10_lt_iff _ _)) in R2.
  assert (M : mult (vval v) (- a)).
  { exists 1. rewrite V, p10_opp. reflexivity. }
  pose proof (frac_lsd v (- a) S NE M) as L. unfold lsd in L.
  assert (1 <= ndigits v).
  { unfold ndigits. destruct (digits v) as [|d t]; [congruence|]. rewrite lenz_cons. pose proof (lenz_nonneg t). lia. }
  lia.
Qed.

(** ** The denominator *)
Section Ten.
Variables (c : cfg) (m : libm).
Hypothesis LG : log10_sound (f_log10 m).

Definition ten_f (e : Z) : Q := fmul (inject_Z e) (fadd (f_log10 m (inject_Z 10)) (inject_Z (0 * 4))).

Lemma ten_f_eq e : Z.abs e < 2 ^ 53 -> (ten_f e == inject_Z e)%Q.
Proof.
  intro B. unfold ten_f, fmul. apply fl_Z; [|exact B].
  assert (E : (fadd (f_log10 m (inject_Z 10)) (inject_Z (0 * 4)) == inject_Z 1)%Q).
  { unfold fadd. apply fl_Z; [|reflexivity]. change (inject_Z (0 * 4)) with 0%Q. rewrite (lg_ten _ LG : (f_log10 m (inject_Z 10) == 1)%Q). reflexivity. }
  rewrite E. change (inject_Z 1) with 1%Q. ring.
Qed.

Lemma ten_power_unfold e s : e <> 0 -> e <> 1 -> e <> -1 -> e <> 2 ->
  power_int c m TEN e s =
    let f := ten_f e in
    if negb (Qle_bool f 393204) then Ret None
    else if negb (Qle_bool (inject_Z (- s)) (fadd f 1)) || negb (Qle_bool (inject_Z (- 1000)) (fadd f 1))
    then z <- zero_scaled c s ;; Ret (Some z)
    else
      a <- i32 c (Z.abs e) ;;
      x <- pow_loop c 32 a (1 + s + f2i f + (ln_i32 m a + 8)) TEN (if Z.odd a then TEN else ONE) ;;
      match x with
      | POver => if e <? 0 then r <- round_common c ZERO s ;; Ret (Some r) else Ret None
      | PDone result =>
          if e <? 0 then
            o <- div_fast_common c ONE result s true ;;
            r <- expect o MDivZero ;; Ret (Some r)
          else r <- round_common c result s ;; Ret (Some r)
      end.
Proof.
  intros H0 H1 H2 H3. unfold power_int. change (negb (is_nan TEN)) with true. rewrite dassert_ok by reflexivity. cbn [bind].
  destruct (Z.eqb_spec e 0); [congruence|]. destruct (Z.eqb_spec e 1); [congruence|]. destruct (Z.eqb_spec e (-1)); [congruence|].
  destruct (Z.eqb_spec e 2); [congruence|]. reflexivity.
Qed.

Lemma ten_power e : -1001 <= e <= 131071 ->
  exists r, power_int c m TEN e (if e <? 0 then - e else 0) = Ret (Some r) /\ stripped r /\ (vval r == p10 e)%Q.
Proof.
  intro H. set (s := if e <? 0 then - e else 0).
  assert (Hs : s = Z.max 0 (- e)) by (unfold s; destruct (Z.ltb_spec e 0); lia). clearbody s.
  destruct (Z.eq_dec e 0) as [->|H0].
  { exists (set_dscale 0 ONE). change (Z.max 0 (- 0)) with 0 in Hs. subst s. split; [destruct c as [[] be]; reflexivity|].
    split; [apply one_stripped|reflexivity]. }
  destruct (Z.eq_dec e 1) as [->|H1].
  { exists (set_dscale 0 TEN). change (Z.max 0 (- 1)) with 0 in Hs. subst s. split; [destruct c as [[] be]; reflexivity|].
    split; [apply ten_stripped|reflexivity]. }
  destruct (Z.eq_dec e 2) as [->|H2].
  { exists (Var 0 0 SPos [100]). change (Z.max 0 (- 2)) with 0 in Hs. subst s. split; [destruct c as [[] be]; vm_compute; reflexivity|].
    split; [|reflexivity]. constructor; cbn; try discriminate.
    - repeat constructor; discriminate.
    - intros d t E. injection E as <- _. discriminate.
    - intros d t E. destruct t as [|? [|]]; try discriminate. injection E as <-. discriminate. }
  destruct (Z.eq_dec e (-1)) as [->|H3].
  { exists (Var (-1) 1 SPos [1000]). change (Z.max 0 (- -1)) with 1 in Hs. subst s. split; [destruct c as [[] be]; vm_compute; reflexivity|].
    split; [|reflexivity]. constructor; cbn; try discriminate.
    - repeat constructor; discriminate.
    - intros d t E. injection E as <- _. discriminate.
    - intros d t E. destruct t as [|? [|]]; try discriminate. injection E as <-. discriminate. }
  rewrite ten_power_unfold by assumption. cbv zeta.
  assert (Bf : Z.abs e < 2 ^ 53) by (change (2 ^ 53) with 9007199254740992; lia).
  pose proof (ten_f_eq e Bf) as F. set (f := ten_f e) in *.
  replace (Qle_bool f 393204) with true.
  2:{ symmetry. apply Qle_bool_iff. rewrite F. change 393204%Q with (inject_Z 393204). rewrite <- Zle_Qle. lia. }
  assert (F1 : (fadd f 1 == inject_Z (e + 1))%Q).
  { unfold fadd. apply fl_Z; [rewrite F, inject_Z_plus; reflexivity|]. change (2 ^ 53) with 9007199254740992. lia. }
  replace (Qle_bool (inject_Z (- s)) (fadd f 1)) with true.
  2:{ symmetry. apply Qle_bool_iff. rewrite F1, <- Zle_Qle. lia. }
  replace (Qle_bool (inject_Z (- 1000)) (fadd f 1)) with true.
  2:{ symmetry. apply Qle_bool_iff. rewrite F1, <- Zle_Qle. lia. }
  cbn [negb orb]. rewrite i32_ok by (unfold I32_MIN, I32_MAX; lia). cbn [bind].
  assert (Mt : mult (vval TEN) 0) by (exists 10; reflexivity).
  assert (An : 1 <= Z.abs e < 2 ^ 31) by (change (2 ^ 31) with 2147483648; lia).
  assert (PW : (vval TEN ^ Z.abs e == p10 (Z.abs e))%Q).
  { rewrite vval_ten. rewrite p10_pow by lia. now rewrite Z.mul_1_l. }
  destruct (pow_loop_run c TEN 0 (Z.abs e) (1 + s + f2i f + (ln_i32 m (Z.abs e) + 8)) (ten_stripped 0) ltac:(discriminate) ltac:(cbn; lia)
    Mt An (or_introl eq_refl)) as [(r & Er & P)|(Eo & L)].
  2:{ exfalso. assert (A10 : (Qabs (vval TEN) == vval TEN)%Q) by reflexivity. 
      assert (L2 : (limit <= p10 (Z.abs e))%Q).
      { rewrite <- PW. rewrite <- (Qpower_comp _ _ A10 (Z.abs e) (Z.abs e) eq_refl). exact L. }
      rewrite limit_p10 in L2. apply (proj1 (p10_le_iff _ _)) in L2. lia. }
  rewrite Er. cbn [bind]. pose proof (pw_val _ _ _ _ P) as V. rewrite PW in V. pose proof (pw_st _ _ _ _ P) as S.
  assert (NE : digits r <> []) by (apply nz_digits; [exact S|rewrite V; apply p10_nz]).
  destruct (Z.ltb_spec e 0) as [En|Ep].
  - destruct (p10_ndigits r (Z.abs e) S V) as [N1 W1].
    destruct (div_fast_spec c ONE r s (one_stripped 0) S ltac:(discriminate) NE) as [(q & Eq & Sq & Dq & Nq)|(_ & K & _)]; [| |lia].
    { unfold df_bounds. change (ndigits ONE) with 1. change (weight ONE) with 0.
      assert (NN : digits r <> []) by exact NE. pose proof (stripped_range r S NE) as [R1 R2].
      rewrite V in R2. rewrite Qabs_pos in R2 by (apply Qlt_le_weak, p10_pos). apply (proj1 (p10_lt_iff _ _)) in R2. lia. }
    rewrite Eq. cbn [bind expect]. exists q. split; [reflexivity|]. split; [exact Sq|].
    assert (X : (vval ONE / vval r == p10 e)%Q).
    { rewrite V. change (vval ONE) with (vval (set_dscale 0 ONE)). rewrite vval_one. replace e with (- Z.abs e) at 2 by lia.
      pose proof (p10_opp (Z.abs e)) as O. pose proof (p10_nz (Z.abs e)) as Z1. apply (Qmult_inj_r _ _ (p10 (Z.abs e)) Z1).
      rewrite (Qmult_comm (p10 (- Z.abs e))), O. field. exact Z1. }
    rewrite <- X. apply (nearly_exact _ s); [|exact Nq]. apply (mult_comp (p10 e)); [now symmetry|].
    exists 1. rewrite Hs. replace (Z.max 0 (- e)) with (- e) by lia. now rewrite p10_opp.
  - rewrite round_int_id; [|exact S|exact NE| |lia].
    + cbn [bind]. eexists. split; [reflexivity|]. split; [now apply stripped_dscale|]. rewrite vval_dscale, V. now rewrite Z.abs_eq by lia.
    + apply (mult_comp (inject_Z (10 ^ Z.abs e))); [rewrite V; symmetry; apply p10_Z; lia|]. apply mult_Z. lia.
Qed.

(** below 10^-1001 the denominator underflows *)
Lemma ten_power_low e : -16383 <= e <= -1002 ->
  power_int c m TEN e (if e <? 0 then - e else 0) = Ret (Some (Var 0 (- e) SPos [])).
Proof.
  intro H. replace (e <? 0) with true by (symmetry; apply Z.ltb_lt; lia).
  rewrite ten_power_unfold by lia. cbv zeta.
  assert (Bf : Z.abs e < 2 ^ 53) by (change (2 ^ 53) with 9007199254740992; lia).
  pose proof (ten_f_eq e Bf) as F. set (f := ten_f e) in *.
  replace (Qle_bool f 393204) with true.
  2:{ symmetry. apply Qle_bool_iff. rewrite F. change 393204%Q with (inject_Z 393204). rewrite <- Zle_Qle. lia. }
  assert (F1 : (fadd f 1 == inject_Z (e + 1))%Q).
  { unfold fadd. apply fl_Z; [rewrite F, inject_Z_plus; reflexivity|]. change (2 ^ 53) with 9007199254740992. lia. }
  replace (Qle_bool (inject_Z (- 1000)) (fadd f 1)) with false.
  2:{ symmetry. apply not_true_iff_false. intro K. apply Qle_bool_iff in K. rewrite F1, <- Zle_Qle in K. lia. }
  rewrite orb_true_r. cbn [negb]. rewrite zero_scaled_ok by lia. reflexivity.
Qed.
End Ten.

(** ** The number of significant digits *)
Lemma cz1 k : forall val n z, 0 < val < 10 ^ Z.of_nat k -> 0 < n ->
  exists l, count_zeros_loop k val n z = (n + l, z) /\ 1 <= l /\ 10 ^ (l - 1) <= val < 10 ^ l.
Proof.
  induction k as [|k IH]; intros val n z H Hn; [change (10 ^ Z.of_nat 0) with 1 in H; lia|]. cbn [count_zeros_loop].
  replace (n =? 0) with false by (symmetry; apply Z.eqb_neq; lia). rewrite andb_false_r.
  rewrite quot10 by lia. pose proof (Z.div_mod val 10 ltac:(lia)) as DM. pose proof (Z.mod_pos_bound val 10 ltac:(lia)) as MB.
  rewrite Nat2Z.inj_succ, Z.pow_succ_r in H by lia.
  destruct (Z.eqb_spec (val / 10) 0) as [Z0|Z0].
  - exists 1. split; [reflexivity|]. cbn. lia.
  - assert (0 <= val / 10) by (apply Z.div_pos; lia).
    destruct (IH (val / 10) (n + 1) z) as (l & E & L1 & L2); [lia|lia|]. exists (l + 1). rewrite E.
    split; [f_equal; lia|]. split; [lia|]. replace (l + 1 - 1) with (l - 1 + 1) by lia. rewrite !Z.pow_add_r by lia. change (10 ^ 1) with 10. lia.
Qed.

Lemma cz0 k : forall val z, 0 < val < 10 ^ Z.of_nat k ->
  exists l t u, count_zeros_loop k val 0 z = (l, z + t) /\ 1 <= l /\ 0 <= t /\ 10 ^ (l + t - 1) <= val < 10 ^ (l + t) /\
    val = u * 10 ^ t /\ u mod 10 <> 0.
Proof.
  induction k as [|k IH]; intros val z H; [change (10 ^ Z.of_nat 0) with 1 in H; lia|]. cbn [count_zeros_loop].
  rewrite quot10, rem10 by lia. pose proof (Z.div_mod val 10 ltac:(lia)) as DM. pose proof (Z.mod_pos_bound val 10 ltac:(lia)) as MB.
  rewrite Nat2Z.inj_succ, Z.pow_succ_r in H by lia. change (0 =? 0) with true. rewrite andb_true_r.
  assert (0 <= val / 10) by (apply Z.div_pos; lia).
  destruct (Z.eqb_spec (val mod 10) 0) as [M0|M0].
  - destruct (Z.eqb_spec (val / 10) 0) as [Z0|Z0]; [lia|].
    destruct (IH (val / 10) (z + 1)) as (l & t & u & E & L1 & L2 & L3 & L4 & L5); [lia|]. exists l, (t + 1), u. rewrite E.
    split; [f_equal; lia|]. split; [lia|]. split; [lia|]. replace (l + (t + 1) - 1) with (l + t - 1 + 1) by lia.
    replace (l + (t + 1)) with (l + t + 1) by lia. rewrite !Z.pow_add_r with (c := 1) by lia. change (10 ^ 1) with 10.
    split; [lia|]. split; [lia|exact L5].
  - destruct (Z.eqb_spec (val / 10) 0) as [Z0|Z0].
    + exists 1, 0, val. split; [f_equal; lia|]. cbn. lia.
    + destruct (cz1 k (val / 10) (0 + 1) z) as (l & E & L1 & L2); [lia|lia|]. exists (1 + l), 0, val. rewrite E.
      split; [f_equal; lia|]. split; [lia|]. split; [lia|]. replace (1 + l + 0 - 1) with (l - 1 + 1) by lia.
      replace (1 + l + 0) with (l + 1) by lia. rewrite !Z.pow_add_r with (c := 1) by lia. change (10 ^ 1) with 10.
      split; [lia|]. rewrite Z.pow_0_r. split; [lia|exact M0].
Qed.

Lemma count_zeros_spec d : 1 <= d <= 9999 ->
  exists l t u, count_zeros d = (l, t) /\ 1 <= l /\ 0 <= t /\ l + t <= 4 /\ 10 ^ (l + t - 1) <= d < 10 ^ (l + t) /\ d = u * 10 ^ t /\ u mod 10 <> 0.
Proof.
  intro H. unfold count_zeros. destruct (cz0 4 d 0) as (l & t & u & E & L1 & L2 & L3 & L4 & L5); [change (10 ^ Z.of_nat 4) with 10000; lia|].
  exists l, t, u. rewrite E. split; [reflexivity|]. split; [lia|]. split; [lia|].
  split; [|auto]. destruct (Z_le_dec (l + t) 4) as [|K]; [assumption|].
  assert (10 ^ 4 <= 10 ^ (l + t - 1)) by (apply Z.pow_le_mono_r; lia). change (10 ^ 4) with 10000 in *. lia.
Qed.

Lemma lead_exp_unique d k k' : 0 <= k -> 0 <= k' -> 10 ^ k <= d < 10 ^ (k + 1) -> 10 ^ k' <= d < 10 ^ (k' + 1) -> k = k'.
Proof.
  intros K K' [A B] [A' B']. assert (10 ^ k < 10 ^ (k' + 1)) as P by lia. assert (10 ^ k' < 10 ^ (k + 1)) as P' by lia.
  apply Z.pow_lt_mono_r_iff in P; [|lia|lia]. apply Z.pow_lt_mono_r_iff in P'; [|lia|lia]. lia.
Qed.

Lemma select_sci_spec c v d t k : stripped v -> digits v = d :: t -> 0 <= k -> 10 ^ k <= d < 10 ^ (k + 1) ->
  exists rs K, select_sci_scale c v = Ret rs /\ 0 <= rs /\ K mod 10 <> 0 /\ 0 < K /\
    (Qabs (vval v) == dec K (4 * weight v + k - rs))%Q.
Proof.
  intros S E Hk Hd. pose proof (st_digits v S) as D. pose proof D as D'. rewrite E in D'. pose proof (Forall_inv D') as Dd. unfold dig in Dd.
  assert (Hd1 : 1 <= d) by (pose proof (pT_pos k Hk); lia).
  destruct (count_zeros_spec d ltac:(lia)) as (l & tz & u & Ez & L1 & L2 & L3 & L4 & L5 & L6).
  assert (Ek : l + tz - 1 = k) by (apply (lead_exp_unique d); auto; [lia|replace (l + tz - 1 + 1) with (l + tz) by lia; exact L4]).
  unfold select_sci_scale. rewrite E. cbn [find_nz]. replace (d =? 0) with false by (symmetry; apply Z.eqb_neq; lia).
  pose proof (Qabs_vval v D) as QA.
  destruct (exists_last (l := d :: t) ltac:(discriminate)) as (p & x & Ep).
  assert (Nx : x <> 0) by (apply (st_last v S x p); now rewrite E).
  assert (Rf : rfind_nz (d :: t) = Some (lenz (d :: t) - 1, x)).
  { unfold rfind_nz. rewrite Ep, rev_unit. cbn [find_nz]. replace (x =? 0) with false by (symmetry; apply Z.eqb_neq; lia).
    f_equal. f_equal. lia. }
  rewrite Rf. rewrite lenz_cons. pose proof (lenz_nonneg t) as Lt.
  rewrite dassert_ok by (apply Z.leb_le; lia). cbn [bind].
  destruct (Z.eqb_spec 0 (1 + lenz t - 1)) as [Z0|Z0].
  - assert (t = []) by (apply lenz_0; lia). subst t. rewrite Ez. exists (l - 1), u. split; [reflexivity|]. split; [lia|]. split; [exact L6|].
    assert (0 < u) by (pose proof (pT_pos tz L2); nia). split; [assumption|].
    assert (Mv : mag v = d) by (unfold mag; rewrite E, dval_cons; cbn; lia). rewrite QA, Mv.
    assert (Lsd : lsd v = weight v) by (unfold lsd, ndigits; rewrite E; change (lenz [d]) with 1; lia). rewrite Lsd, L5.
    rewrite dec_shift by lia. replace (4 * weight v + k - (l - 1)) with (4 * weight v + tz) by lia. reflexivity.
  - rewrite Ez. rewrite Ep in D'. apply Forall_app in D'. destruct D' as [Dp Dx]. pose proof (Forall_inv Dx) as Bx. unfold dig in Bx.
    destruct (count_zeros_spec x ltac:(lia)) as (l' & tz' & u' & Ez' & L1' & L2' & L3' & L4' & L5' & L6'). rewrite Ez'.
    change DEC_DIGITS with 4. eexists. exists (dval p * 10 ^ (4 - tz') + u'). split; [reflexivity|]. split; [lia|].
    pose proof (dval_bound p Dp) as Bp. pose proof (pT_pos (4 - tz') ltac:(lia)) as P1.
    assert (Pu : 0 < u') by (pose proof (pT_pos tz' L2'); nia).
    split.
    { replace (4 - tz') with (1 + (4 - tz' - 1)) by lia. rewrite Z.pow_add_r by lia. change (10 ^ 1) with 10.
      replace (dval p * (10 * 10 ^ (4 - tz' - 1)) + u') with (u' + dval p * 10 ^ (4 - tz' - 1) * 10) by ring. now rewrite Z.mod_add by lia. }
    split; [nia|].
    assert (Mv : mag v = (dval p * 10 ^ (4 - tz') + u') * 10 ^ tz').
    { unfold mag. rewrite E, Ep, dval_snoc. rewrite Z.mul_add_distr_r, <- L5'. rewrite <- Z.mul_assoc, <- Z.pow_add_r by lia.
      replace (4 - tz' + tz') with 4 by lia. reflexivity. }
    rewrite QA, Mv, dec_shift by lia. unfold lsd, ndigits. rewrite E, lenz_cons.
    replace (4 * (weight v + 1 - (1 + lenz t)) + tz') with
      (4 * weight v + k - (l + tz + (4 - tz') + (1 + lenz t - 1 - 0 - 1) * 4 - 1)) by lia. reflexivity.
Qed.

(** ** The text *)
Lemma number_snoc0 p : number_of (p ++ [48]) mod 10 = 0.
Proof.
  rewrite number_of_app, number_of_1. change (len [48]) with 1. change (10 ^ 1) with 10.
  replace (number_of p * 10 + (48 - 48)) with (number_of p * 10) by lia. now rewrite Z.mod_mul by lia.
Qed.

Lemma plain_significand t q s K : plain_text t q s -> 0 <= s -> 0 < K -> K mod 10 <> 0 -> (Qabs q == dec K (- s))%Q ->
  10 ^ s <= K < 10 ^ (s + 1) ->
  exists (n : bool) d fp, t = (if n then [45] else []) ++ d :: (match fp with [] => [] | _ => 46 :: fp end) /\
    digit_char d /\ d <> 48 /\ Forall digit_char fp /\ len fp = s /\ (forall p b, fp = p ++ [b] -> b <> 48) /\
    (n = true <-> (q < 0)%Q) /\ number_of (d :: fp) = K.
Proof.
  intros (n & ip & fp & -> & Fi & Ff & Li & Lf & Hn & Hq) Hs HK HM V R.
  assert (NK : number_of (ip ++ fp) = K).
  { rewrite V in Hq. apply (dec_eq_iff _ _ (- s)). symmetry. exact Hq. }
  assert (I : exists d, ip = [d] /\ d <> 48).
  { destruct Li as [->|(b & r & -> & Nb)].
    - exfalso. cbn [app] in NK. change (48 :: fp) with ([48] ++ fp) in NK. rewrite number_of_app, number_of_1 in NK.
      pose proof (number_of_bound fp Ff) as Bf. rewrite Lf in Bf. lia.
    - exists b. split; [|exact Nb]. pose proof (number_lead_bound b r fp Fi Ff Nb) as Lb. rewrite NK, Lf, len_cons in Lb.
      assert (10 ^ (1 + len r - 1 + s) < 10 ^ (s + 1)) as P by lia. apply Z.pow_lt_mono_r_iff in P; [|lia|lia].
      destruct r; [reflexivity|]. rewrite len_cons in P. pose proof (len_nonneg r). lia. }
  destruct I as (d & -> & Nd). exists n, d, fp. split.
  { cbn [app]. f_equal. f_equal. destruct fp as [|y fp]; [change (len []) with 0 in Lf; subst s; reflexivity|].
    rewrite len_cons in Lf. pose proof (len_nonneg fp). replace (s =? 0) with false by (symmetry; apply Z.eqb_neq; lia). reflexivity. }
  split; [exact (Forall_inv Fi)|]. split; [exact Nd|]. split; [exact Ff|]. split; [exact Lf|].
  split; [|split; [exact Hn|exact NK]]. intros p b -> ->. apply HM. rewrite <- NK. exact (number_snoc0 (d :: p)).
Qed.

Lemma fmt_exponent_spec e : Z.abs e < 10 ^ 10 -> exists ed, fmt_exponent e = (if e <? 0 then 45 else 43) :: ed /\
  Forall digit_char ed /\ number_of ed = Z.abs e /\ (len ed = 2 \/ (2 < len ed /\ exists b r, ed = b :: r /\ b <> 48)).
Proof.
  intro B. unfold fmt_exponent. destruct (dec_digits_spec 10 (Z.abs e) []) as (d & E & F & N & L); [lia|change (Z.of_nat 10) with 10; lia|].
  rewrite app_nil_r in E. rewrite E. exists (repeat 48 (Z.to_nat (2 - lenz d)) ++ d). split; [reflexivity|].
  split; [apply Forall_app; split; [|exact F]; apply Forall_forall; intros b Hb; apply repeat_spec in Hb; subst b; unfold digit_char; lia|].
  split; [now rewrite number_of_zeros|]. change (lenz d) with (len d). rewrite len_app. unfold len at 1 4. rewrite repeat_length.
  destruct (Z_le_dec (len d) 2) as [S|S]; [left; lia|right]. split; [lia|].
  replace (Z.to_nat (2 - len d)) with 0%nat by lia. cbn [repeat app]. destruct L as [->|L]; [change (len [48]) with 1 in S; lia|exact L].
Qed.

Lemma log10_digit m d k : log10_sound (f_log10 m) -> 0 <= k -> d <= 9999 -> 10 ^ k <= d < 10 ^ (k + 1) ->
  log10_i32 m (inject_Z d) = k.
Proof.
  intros LG K D H. unfold log10_i32. pose proof (pT_pos k K).
  replace (Qeq_bool (inject_Z d) 0) with false.
  2:{ symmetry. apply not_true_iff_false. intro E. apply Qeq_bool_iff in E. change 0%Q with (inject_Z 0) in E. apply (proj1 (inject_Z_inj _ _)) in E. lia. }
  pose proof (lg_floor _ LG d k K D H) as [A B]. apply f2i_floor; [|exact A|exact B].
  assert (k < 5); [|lia]. destruct (Z_lt_le_dec k 5); [assumption|].
  assert (10 ^ 5 <= 10 ^ k) by (apply Z.pow_le_mono_r; lia). change (10 ^ 5) with 100000 in *. lia.
Qed.

(** what write_sci does for a non-zero variable *)
Lemma write_sci_unfold c m v d t k rs lower : log10_sound (f_log10 m) -> stripped v -> digits v = d :: t ->
  0 <= k -> 10 ^ k <= d < 10 ^ (k + 1) -> 0 <= rs ->
  let e := 4 * weight v + k in
  write_sci c m v rs lower =
    (o <- power_int c m TEN e (if e <? 0 then - e else 0) ;;
     denominator <- expect o MMulOverflow ;;
     o <- div_common c v denominator rs true ;;
     significand <- expect o MDivZero ;;
     s <- write c significand ;;
     Ret (s ++ (if lower then ch_e else ch_E) :: fmt_exponent e)).
Proof.
  intros LG S E K H R e. unfold write_sci. assert (Hn : is_nan v = false) by (pose proof (st_nan v S); unfold is_nan; destruct (sign v); [reflexivity|reflexivity|congruence]).
  rewrite Hn. replace (rs <? 0) with false by (symmetry; apply Z.ltb_ge; lia). unfold ndigits. rewrite E, lenz_cons.
  pose proof (lenz_nonneg t). replace (0 <? 1 + lenz t) with true by (symmetry; apply Z.ltb_lt; lia).
  change (index (d :: t) 0) with (Ret d). cbn [bind]. pose proof (st_digits v S) as D. rewrite E in D. pose proof (Forall_inv D) as Dd. unfold dig in Dd.
  rewrite (log10_digit m d k LG K ltac:(lia) H). change DEC_DIGITS with 4.
  replace ((weight v + 1) * 4 - (4 - k)) with e by (unfold e; lia). reflexivity.
Qed.

Lemma sci_num c m v lower : log10_sound (f_log10 m) -> canon v -> digits v <> [] -> 
  ((ten ^ (-1001) <= Qabs (vval v))%Q ->
    exists t, (rs <- select_sci_scale c v ;; write_sci c m v rs lower) = Ret t /\ sci_text t (vval v) (if lower then 101 else 69)) /\
  ((Qabs (vval v) < ten ^ (-1001))%Q ->
    (rs <- select_sci_scale c v ;; write_sci c m v rs lower) = Panic (WMsg MDivZero)).
Proof.
  intros LG C NE. pose proof (cn_st v C) as S. destruct (digits v) as [|d0 t0] eqn:E; [congruence|].
  pose proof (st_digits v S) as D. pose proof D as D'. rewrite E in D'. pose proof (Forall_inv D') as Dd. unfold dig in Dd.
  pose proof (st_first v S d0 t0 E) as Nd. destruct (decimal_lead d0 ltac:(lia)) as (k & Hk & Hd).
  destruct (select_sci_spec c v d0 t0 k S E ltac:(lia) Hd) as (rs & K & Es & Hrs & KM & KP & V). rewrite Es. cbn [bind].
  pose proof (write_sci_unfold c m v d0 t0 k rs lower LG S E ltac:(lia) Hd Hrs) as W. cbv zeta in W. rewrite W. clear W.
  destruct (lead_range v d0 t0 k S E ltac:(lia) Hd) as [R1 R2]. set (e := 4 * weight v + k) in *.
  change (ten ^ (-1001))%Q with (p10 (-1001)).
  assert (Eu : e <= 131071) by (pose proof (cn_weight v C); unfold e; lia).
  split; intro H.
  - assert (El : -1001 <= e).
    { assert (P : (p10 (-1001) < p10 (e + 1))%Q) by (eapply Qle_lt_trans; eauto). apply (proj1 (p10_lt_iff _ _)) in P. lia. }
    destruct (ten_power c m LG e ltac:(lia)) as (den & Ed & Sd & Vd). rewrite Ed. cbn [bind expect].
    assert (Nd2 : digits den <> []) by (apply nz_digits; [exact Sd|rewrite Vd; apply p10_nz]).
    destruct (div_common_nz c v den rs true D (st_digits _ Sd) (st_nan _ S) (st_nan _ Sd) Hrs (st_first _ Sd) Nd2 ltac:(congruence)) as (sg & Eg & Sg & Dg & Vg).
    rewrite Eg. cbn [bind expect].
    assert (AQ : (Qabs (vval v / vval den) == dec K (- rs))%Q).
    { assert (X : (vval v / vval den == vval v * p10 (- e))%Q).
      { rewrite Vd. pose proof (p10_opp e) as O. pose proof (p10_nz e) as Z1. apply (Qmult_inj_r _ _ (p10 e) Z1).
        rewrite <- Qmult_assoc, (Qmult_comm (p10 (- e))), O. field. exact Z1. }
      rewrite X, Qabs_Qmult, V. rewrite (Qabs_pos (p10 (- e))) by (apply Qlt_le_weak, p10_pos). rewrite dec_p10.
      now replace (e - rs + - e) with (- rs) by lia. }
    assert (MQ : mult (vval v / vval den) rs).
    { assert (G : mult (Qabs (vval v / vval den)) rs) by (apply (mult_comp (dec K (- rs))); [now symmetry|apply mult_dec; lia]).
      destruct (Qlt_le_dec (vval v / vval den) 0) as [L|L].
      - apply (mult_comp (- Qabs (vval v / vval den))); [rewrite Qabs_neg by lra; ring|now apply mult_opp].
      - apply (mult_comp (Qabs (vval v / vval den))); [now rewrite Qabs_pos|exact G]. }
    assert (Vg' : (vval sg == vval v / vval den)%Q) by (rewrite Vg; now apply Api2.round_at_mult).
    assert (Hsg : 0 <= dscale sg) by lia.
    assert (Msg : mult (vval sg) (dscale sg)) by (rewrite Dg; apply (mult_comp (vval v / vval den)); [now symmetry|exact MQ]).
    destruct (write_wide c sg Sg Hsg Msg) as (t & Et & P). rewrite Et. cbn [bind]. rewrite Dg in P.
    apply (plain_ext t _ (vval v / vval den) rs Vg') in P.
    assert (RK : 10 ^ rs <= K < 10 ^ (rs + 1)).
    { rewrite V in R1, R2. rewrite <- (dec_1 e) in R1. rewrite <- (dec_1 (e + 1)) in R2.
      replace e with (e - rs + rs) in R1 at 1 by lia. replace (e + 1) with (e - rs + (rs + 1)) in R2 by lia.
      rewrite <- dec_shift in R1, R2 by lia. apply (proj1 (dec_le_iff _ _ _)) in R1. apply (proj1 (dec_lt_iff _ _ _)) in R2. lia. }
    destruct (plain_significand t _ rs K P Hrs KP KM AQ RK) as (n & d & fp & -> & Fd & N0 & Ff & Lf & Ll & Hn & NK).
    destruct (fmt_exponent_spec e ltac:(change (10 ^ 10) with 10000000000; lia)) as (ed & -> & Fe & Ne & Le).
    eexists. split; [reflexivity|]. exists n, d, fp, e, ed. split.
    { rewrite <- app_assoc. reflexivity. }
    split; [exact Fd|]. split; [exact N0|]. split; [exact Ff|]. split; [exact Ll|]. split; [exact Fe|]. split; [exact Ne|]. split; [exact Le|].
    split.
    { rewrite Hn. assert (Pd : (0 < vval den)%Q) by (rewrite Vd; apply p10_pos).
      split; intro L.
      - apply Qnot_le_lt. intro L2. apply (Qlt_not_le _ _ L). apply Qle_shift_div_l; [exact Pd|]. lra.
      - apply Qlt_shift_div_r; [exact Pd|]. lra. }
    rewrite V, NK, Lf. reflexivity.
  - assert (El : e < -1001).
    { assert (P : (p10 e < p10 (-1001))%Q) by (eapply Qle_lt_trans; eauto). now apply (proj1 (p10_lt_iff _ _)) in P. }
    assert (E2 : -16383 <= e).
    { pose proof (mult_lb (vval v) (dscale v) (canon_mult v C)) as L. specialize (L (stripped_nz v S ltac:(congruence))).
      pose proof (cn_scale v C). assert (P : (p10 (- dscale v) < p10 (e + 1))%Q) by (eapply Qle_lt_trans; eauto).
      apply (proj1 (p10_lt_iff _ _)) in P. lia. }
    rewrite (ten_power_low c m LG e ltac:(lia)). cbn [bind expect].
    unfold div_common. rewrite (nan_ok c v (st_nan v S)). rewrite nan_ok by discriminate. reflexivity.
Qed.

Theorem sci_spec c m x q s lower : log10_sound (f_log10 m) -> stores (be_varlen c) x q s -> ~ (q == 0)%Q ->
  ((ten ^ (-1001) <= Qabs q)%Q -> exists t, num_sci c m x lower = Ret t /\ sci_text t q (if lower then 101 else 69)) /\
  ((Qabs q < ten ^ (-1001))%Q -> num_sci c m x lower = Panic (WMsg MDivZero)).
Proof.
  intros LG H NZ. destruct (stores_elim _ _ _ _ H) as (v & C & -> & V & <-). unfold num_sci.
  rewrite (as_var_spec c v (canon_storable v C)). cbn [bind].
  assert (NE : digits v <> []) by (apply nz_digits; [apply C|now rewrite V]).
  destruct (sci_num c m v lower LG C NE) as [A B]. split; intro L.
  - rewrite <- V in L. destruct (A L) as (t & E & P). exists t. split; [exact E|].
    destruct P as (n & d & fp & e & ed & P1 & P2 & P3 & P4 & P5 & P6 & P7 & P8 & P9 & P10).
    exists n, d, fp, e, ed. split; [exact P1|]. split; [exact P2|]. split; [exact P3|]. split; [exact P4|]. split; [exact P5|].
    split; [exact P6|]. split; [exact P7|]. split; [exact P8|]. split; [rewrite <- V; exact P9|rewrite <- V; exact P10].
  - rewrite <- V in L. now apply B.
Qed.

Theorem sci_zero c m x q s lower : stores (be_varlen c) x q s -> (q == 0)%Q ->
  num_sci c m x lower = Ret [48; (if lower then 101 else 69); 43; 48; 48].
Proof.
  intros H Z0. destruct (stores_elim _ _ _ _ H) as (v & C & -> & V & <-). unfold num_sci.
  rewrite (as_var_spec c v (canon_storable v C)). cbn [bind].
  assert (E : digits v = []) by (apply (stripped_zero_iff v (cn_st v C)); now rewrite V).
  unfold select_sci_scale. rewrite E. cbn [find_nz bind]. unfold write_sci.
  pose proof (st_nan v (cn_st v C)) as Nn.
  assert (Hn : is_nan v = false) by (unfold is_nan; destruct (sign v); [reflexivity|reflexivity|congruence]).
  rewrite Hn. unfold ndigits. rewrite E. cbn [lenz length Z.of_nat].
  change (0 <? 0) with false. cbv iota. cbn [bind]. change (0 <? 0) with false. cbv iota.
  replace (power_int c m TEN 0 0) with (Ret (Some (set_dscale 0 ONE))) by (destruct c as [[] ?]; reflexivity). cbn [bind expect].
  unfold div_common. rewrite (nan_ok c v Nn). rewrite nan_ok by discriminate. unfold ndigits. rewrite E.
  destruct c as [[] ?]; destruct lower; reflexivity.
Qed.

Theorem sci_nan c m x lower : stores_nan (be_varlen c) x -> num_sci c m x lower = Ret [78; 97; 78].
Proof. intros ->. unfold num_sci. rewrite nan_as_var. reflexivity. Qed.
