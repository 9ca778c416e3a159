(** * PowInt: powers with an integer exponent (var.rs power_int, power_common, pow). *)
From Coq Require Import ZArith QArith Qabs Qpower List Bool Lia Lqa.
From Verif Require Import Base Var Binary Format Parse Convert Num Flt Transc Spec SpecApi SpecLibm QDec Digits Arith Strip
  Round Trunc AddSub Signed Codec Make Api1 Api2 FltFacts Mul DivQ DivFast Sqrt ConvertApi PowLoop Sci.
Import ListNotations.
Open Scope Z_scope.

(** ** The estimate of the decimal weight of the result *)
Definition pow_f (m : libm) (v : var) (d0 n : Z) : Q :=
  fmul (inject_Z n) (fadd (f_log10 m (inject_Z d0)) (inject_Z (weight v * 4))).

Lemma power_int_unfold c m v n rs d t : sign v <> SNaN -> digits v = d :: t -> n <> 0 -> n <> 1 -> n <> -1 -> n <> 2 ->
  power_int c m v n rs =
    let f := pow_f m v d n in
    if negb (Qle_bool f 393204) then Ret None
    else if negb (Qle_bool (inject_Z (- rs)) (fadd f 1)) || negb (Qle_bool (inject_Z (- 1000)) (fadd f 1))
    then z <- zero_scaled c rs ;; Ret (Some z)
    else
      a <- i32 c (Z.abs n) ;;
      x <- pow_loop c 32 a (1 + rs + f2i f + (ln_i32 m a + 8)) v (if Z.odd a then v else ONE) ;;
      match x with
      | POver => if n <? 0 then r <- round_common c ZERO rs ;; Ret (Some r) else Ret None
      | PDone result =>
          if n <? 0 then
            o <- div_fast_common c ONE result rs true ;;
            r <- expect o MDivZero ;; Ret (Some r)
          else r <- round_common c result rs ;; Ret (Some r)
      end.
Proof.
  intros N E H0 H1 H2 H3. unfold power_int. rewrite (nan_ok c v N). cbn [bind].
  destruct (Z.eqb_spec n 0); [congruence|]. destruct (Z.eqb_spec n 1); [congruence|]. destruct (Z.eqb_spec n (-1)); [congruence|].
  destruct (Z.eqb_spec n 2); [congruence|].
  destruct (Z.eqb_spec (ndigits v) 0) as [K|K].
  { exfalso. unfold ndigits in K. rewrite E, lenz_cons in K. pose proof (lenz_nonneg t). lia. }
  rewrite E. change (index (d :: t) 0) with (Ret d). cbn [bind tl].
  assert (P : pow_digits t 1 (inject_Z d) (weight v * DEC_DIGITS) = (inject_Z d, weight v * 4)) by (destruct t; reflexivity).
  rewrite P. reflexivity.
Qed.

Section Estimate.
Variables (m : libm) (v : var) (d : Z) (t : list Z) (k : Z).
Hypothesis LG : log10_sound (f_log10 m).
Hypothesis Sv : stripped v.
Hypothesis Ev : digits v = d :: t.
Hypothesis Wv : -32767 <= weight v <= 32767.
Hypothesis Hk : 0 <= k <= 3.
Hypothesis Hd : 10 ^ k <= d < 10 ^ (k + 1).

Definition Lg : Q := (f_log10 m (inject_Z d) + inject_Z (4 * weight v))%Q.

Lemma d_range : 1 <= d <= 9999.
Proof.
  pose proof (st_digits v Sv) as D. rewrite Ev in D. inversion D as [|? ? D1 ?]; subst. unfold dig in D1.
  pose proof (st_first v Sv d t Ev). lia.
Qed.

Lemma Lg_range : (inject_Z (4 * weight v + k) <= Lg < inject_Z (4 * weight v + k + 1))%Q.
Proof.
  pose proof (lg_floor _ LG d k ltac:(lia) ltac:(pose proof d_range; lia) Hd) as [A B]. unfold Lg.
  rewrite !inject_Z_plus in *. change (inject_Z 1) with 1%Q in *. split; lra.
Qed.

Lemma Lg_abs : (Qabs Lg <= 131072)%Q.
Proof.
  pose proof Lg_range as [A B]. apply Qabs_Qle_condition. split.
  - apply Qle_trans with (inject_Z (4 * weight v + k)); [|exact A]. change (- (131072))%Q with (inject_Z (-131072)). rewrite <- Zle_Qle. lia.
  - apply Qle_trans with (inject_Z (4 * weight v + k + 1)); [lra|]. change 131072%Q with (inject_Z 131072). rewrite <- Zle_Qle. lia.
Qed.

Lemma pow_f_err n : Z.abs n <= 2147483648 -> (Qabs (pow_f m v d n - inject_Z n * Lg) <= 1 # 8)%Q.
Proof.
  intro H. unfold pow_f, fmul, fadd. rewrite (Z.mul_comm (weight v) 4). fold Lg.
  pose proof (fl_bounds Lg 131072 Lg_abs) as E1. set (g := fl Lg) in *.
  assert (Nn : (Qabs (inject_Z n) <= 2147483648)%Q).
  { change (Qabs (inject_Z n)) with (inject_Z (Z.abs n)). change 2147483648%Q with (inject_Z 2147483648). now rewrite <- Zle_Qle. }
  assert (G : (Qabs g <= 131073)%Q).
  { pose proof Lg_abs as A. apply Qabs_Qle_condition in A, E1. apply Qabs_Qle_condition. split; lra. }
  assert (X : (Qabs (inject_Z n * g) <= 2147483648 * 131073)%Q).
  { rewrite Qabs_Qmult. pose proof (Qabs_nonneg (inject_Z n)). pose proof (Qabs_nonneg g).
    apply Qle_trans with (2147483648 * Qabs g)%Q; [apply Qmult_le_compat_r; [exact Nn|lra]|]. lra. }
  pose proof (fl_bounds _ _ X) as E2.
  assert (E3 : (Qabs (inject_Z n * g - inject_Z n * Lg) <= 2147483648 * (131072 * (1 # 9007199254740992)))%Q).
  { setoid_replace (inject_Z n * g - inject_Z n * Lg)%Q with (inject_Z n * (g - Lg))%Q by ring. rewrite Qabs_Qmult.
    pose proof (Qabs_nonneg (g - Lg)).
    apply Qle_trans with (2147483648 * Qabs (g - Lg))%Q; [apply Qmult_le_compat_r; [exact Nn|lra]|]. lra. }
  setoid_replace (fl (inject_Z n * g) - inject_Z n * Lg)%Q with ((fl (inject_Z n * g) - inject_Z n * g) + (inject_Z n * g - inject_Z n * Lg))%Q by ring.
  eapply Qle_trans; [apply Qabs_triangle|].
  apply Qle_trans with (2147483648 * 131073 * (1 # 9007199254740992) + 2147483648 * (131072 * (1 # 9007199254740992)))%Q.
  - apply Qplus_le_compat; assumption.
  - discriminate.
Qed.

(** |v|^n < 10^a, seen by the estimate *)
Lemma est_upper n a : 1 <= n -> (Qabs (vval v) ^ n <= p10 a)%Q -> (inject_Z n * Lg <= inject_Z a + inject_Z n * (1 # 1000000000))%Q.
Proof.
  intros Hn H. destruct (lead_digit v d t Sv Ev) as [L _].
  pose proof d_range as Dr.
  assert (P : ((inject_Z d * p10 (4 * weight v)) ^ n <= p10 a)%Q).
  { eapply Qle_trans; [|exact H]. apply Qpow_mono; [lia| |exact L]. apply Qmult_le_0_compat; [|apply Qlt_le_weak, p10_pos].
    change 0%Q with (inject_Z 0). rewrite <- Zle_Qle. lia. }
  rewrite Qmult_power, p10_pow, Zpow_Q in P by lia.
  assert (P2 : (inject_Z (d ^ n) <= p10 (a - 4 * weight v * n))%Q).
  { replace (a - 4 * weight v * n) with (a + - (4 * weight v * n)) by lia. rewrite p10_add.
    apply (Qmult_le_r _ _ (p10 (4 * weight v * n)) (p10_pos _)). eapply Qle_trans; [exact P|].
    rewrite <- Qmult_assoc, (Qmult_comm (p10 (- _))), p10_opp. lra. }
  assert (D1 : 1 <= d ^ n). { pose proof (Z.pow_pos_nonneg d n ltac:(lia) ltac:(lia)). lia. }
  assert (A0 : 0 <= a - 4 * weight v * n).
  { apply (proj1 (p10_le_iff _ _)). rewrite p10_0. eapply Qle_trans; [|exact P2]. change 1%Q with (inject_Z 1). now rewrite <- Zle_Qle. }
  rewrite p10_Z in P2 by exact A0. rewrite <- Zle_Qle in P2.
  pose proof (lg_upper _ LG d (a - 4 * weight v * n) n Dr A0 ltac:(lia) P2) as U. unfold Lg.
  replace (a - 4 * weight v * n) with (a + - (n * (4 * weight v))) in U by lia.
  rewrite inject_Z_plus, inject_Z_opp, inject_Z_mult in U. lra.
Qed.

(** 10^e <= |v|^j, seen by the estimate; the digits after the first are worth less than 2^j *)
Lemma est_lower j e : 0 <= j <= 16 -> (p10 e <= Qabs (vval v) ^ j)%Q -> (inject_Z e <= 5 + inject_Z j * Lg + (1 # 10))%Q.
Proof.
  intros Hj H. destruct (lead_digit v d t Sv Ev) as [_ U].
  pose proof d_range as Dr.
  assert (P : (p10 e <= (inject_Z (2 * d) * p10 (4 * weight v)) ^ j)%Q).
  { eapply Qle_trans; [exact H|]. apply Qpow_mono; [lia|apply Qabs_nonneg|]. apply Qlt_le_weak. eapply Qlt_le_trans; [exact U|].
    apply Qmult_le_compat_r; [|apply Qlt_le_weak, p10_pos]. rewrite <- Zle_Qle. lia. }
  rewrite Qmult_power, p10_pow, Zpow_Q in P by lia.
  assert (T : 2 ^ j <= 10 ^ 5). { apply Z.le_trans with (2 ^ 16); [apply Z.pow_le_mono_r; lia|]. vm_compute. discriminate. }
  assert (D1 : 1 <= d ^ j). { pose proof (Z.pow_pos_nonneg d j ltac:(lia) ltac:(lia)). lia. }
  assert (P2 : (p10 (e - 4 * weight v * j - 5) <= inject_Z (d ^ j))%Q).
  { replace (e - 4 * weight v * j - 5) with (-5 + (e + - (4 * weight v * j))) by lia. rewrite p10_add, (p10_add e).
    assert (A : (p10 e * p10 (- (4 * weight v * j)) <= inject_Z ((2 * d) ^ j))%Q).
    { apply (Qmult_le_r _ _ (p10 (4 * weight v * j)) (p10_pos _)). eapply Qle_trans; [|exact P].
      rewrite <- Qmult_assoc, (Qmult_comm (p10 (- _))), p10_opp. lra. }
    apply Qle_trans with (p10 (-5) * inject_Z ((2 * d) ^ j))%Q; [rewrite !(Qmult_comm (p10 (-5))); apply Qmult_le_compat_r; [exact A|discriminate]|].
    rewrite Z.pow_mul_l. change (p10 (-5)) with (1 # 100000)%Q.
    assert (B : (inject_Z (2 ^ j * d ^ j) <= inject_Z (100000 * d ^ j))%Q). { rewrite <- Zle_Qle. change (10 ^ 5) with 100000 in T. nia. }
    rewrite (inject_Z_mult 100000) in B. change (inject_Z 100000) with 100000%Q in B. lra. }
  assert (J0 : (0 <= inject_Z j)%Q) by (change 0%Q with (inject_Z 0); rewrite <- Zle_Qle; lia).
  assert (J16 : (inject_Z j <= 16)%Q) by (change 16%Q with (inject_Z 16); rewrite <- Zle_Qle; lia).
  assert (LG0 : (0 <= f_log10 m (inject_Z d))%Q).
  { pose proof (lg_floor _ LG d k ltac:(lia) ltac:(lia) Hd) as [A _]. eapply Qle_trans; [|exact A]. change 0%Q with (inject_Z 0). rewrite <- Zle_Qle. lia. }
  assert (JL : (0 <= inject_Z j * f_log10 m (inject_Z d))%Q) by now apply Qmult_le_0_compat.
  unfold Lg. rewrite Qmult_plus_distr_r, <- inject_Z_mult.
  destruct (Z_lt_le_dec (e - 4 * weight v * j - 5) 0) as [Ng|Nn].
  - assert (Q : (inject_Z e <= inject_Z (5 + j * (4 * weight v)))%Q) by (rewrite <- Zle_Qle; lia).
    rewrite inject_Z_plus in Q. change (inject_Z 5) with 5%Q in Q. lra.
  - rewrite p10_Z in P2 by exact Nn. rewrite <- Zle_Qle in P2.
    pose proof (lg_lower _ LG d _ j Dr Nn ltac:(lia) P2) as U2.
    replace (e - 4 * weight v * j - 5) with (e + - (j * (4 * weight v)) + -5) in U2 by lia.
    rewrite !inject_Z_plus, inject_Z_opp in U2. change (inject_Z (-5)) with (-5)%Q in U2. lra.
Qed.
End Estimate.

Lemma Lg_low m v d t k s : log10_sound (f_log10 m) -> stripped v -> digits v = d :: t -> 0 <= k <= 3 -> 10 ^ k <= d < 10 ^ (k + 1) ->
  mult (vval v) s -> (inject_Z (- s) <= Lg m v d)%Q.
Proof.
  intros LG S E Hk Hd M. pose proof (Lg_range m v d t k LG S E Hk Hd) as [A _].
  eapply Qle_trans; [|exact A]. rewrite <- Zle_Qle.
  assert (N : ~ (vval v == 0)%Q) by (apply stripped_nz; [exact S|congruence]).
  pose proof (mult_lb _ _ M N) as L. pose proof (lead_range v d t k S E ltac:(lia) Hd) as [_ U].
  pose proof (Qle_lt_trans _ _ _ L U) as H. apply (proj1 (p10_lt_iff _ _)) in H. lia.
Qed.

(** The result: nothing only if the power is too large; otherwise exact. *)
Definition pow_result (q : Q) (s : Z) (r : outcome (option var)) : Prop :=
  (r = Ret None /\ (limit <= Qabs q)%Q) \/
  (exists x, r = Ret (Some x) /\ Forall dig (digits x) /\ sign x <> SNaN /\ dscale x = s /\ (vval x == q)%Q /\ -32767 <= weight x /\
    (weight x <= 32767 \/ (limit <= Qabs q)%Q)).

Lemma pow_result_rounded q s v r : stripped v -> digits v <> [] -> (vval v == q)%Q -> rounded v s q r ->
  (p10 (-4000) <= Qabs q)%Q -> pow_result q s (Ret (Some r)).
Proof.
  intros S N V R L. right. exists r. split; [reflexivity|]. split; [apply R|]. split; [apply R|]. split; [apply R|]. split; [apply R|].
  pose proof (stripped_range v S N) as [R1 R2]. rewrite V in R1, R2.
  pose proof (Qle_lt_trans _ _ _ L R2) as H. apply (proj1 (p10_lt_iff _ _)) in H.
  destruct (rd_weight _ _ _ _ R) as [E|[[E U]|[E _]]].
  - split; [lia|]. destruct (Z_le_dec (weight v) 32767) as [W|W]; [left; lia|right]. rewrite limit_p10.
    eapply Qle_trans; [|exact R1]. apply p10_le. lia.
  - exfalso. rewrite (rd_val _ _ _ _ R) in U. pose proof (Qle_lt_trans _ _ _ U R2) as K. apply (proj1 (p10_lt_iff _ _)) in K. lia.
  - split; [lia|left; lia].
Qed.

Lemma pow_result_stripped q s x : stripped x -> dscale x = s -> 0 <= s <= 1000 -> (vval x == q)%Q -> mult q s ->
  pow_result q s (Ret (Some x)).
Proof.
  intros S D Hs V M. right. exists x. split; [reflexivity|]. split; [apply S|]. split; [apply S|]. split; [exact D|]. split; [exact V|].
  destruct (digits x) as [|d t] eqn:E.
  - destruct (st_zero x S E) as [_ W]. lia.
  - assert (N : digits x <> []) by congruence.
    pose proof (stripped_range x S N) as [R1 R2]. rewrite V in R1, R2.
    assert (NZ : ~ (q == 0)%Q) by (rewrite <- V; now apply stripped_nz).
    pose proof (mult_lb _ _ M NZ) as L. pose proof (Qle_lt_trans _ _ _ L R2) as H. apply (proj1 (p10_lt_iff _ _)) in H.
    split; [lia|]. destruct (Z_le_dec (weight x) 32767) as [W|W]; [left; lia|right]. rewrite limit_p10.
    eapply Qle_trans; [|exact R1]. apply p10_le. lia.
Qed.

Lemma pow_result_comp q q' s r : (q == q')%Q -> pow_result q s r -> pow_result q' s r.
Proof.
  intros E [[H L]|(x & H1 & H2 & H3 & H4 & H5 & H6 & H7)].
  - left. split; [exact H|]. now rewrite <- E.
  - right. exists x. split; [assumption|]. split; [assumption|]. split; [assumption|]. split; [assumption|]. split; [now rewrite <- E|]. split; [assumption|].
    destruct H7 as [H7|H7]; [now left|right; now rewrite <- E].
Qed.

Lemma Qabs_nz q : ~ (q == 0)%Q -> ~ (Qabs q == 0)%Q.
Proof. intros N K. apply N. pose proof (Qle_Qabs q). pose proof (Qle_Qabs (- q)). rewrite Qabs_opp in *. lra. Qed.

Lemma power_int_exact c m v n s : log10_sound (f_log10 m) -> ln_sound (f_ln m) -> canon v -> 0 <= n < 2147483648 ->
  let rs := Z.min 1000 (Z.max 16 (dscale v)) in
  0 <= s <= dscale v -> mult (vval v) s -> n * s <= rs -> s = 0 \/ n <= 16 -> pow_result (vval v ^ n) rs (power_int c m v n rs).
Proof.
  intros LG LN C Hn rs Ds M Hs H16. pose proof (cn_st v C) as S. pose proof (cn_scale v C) as Sc.
  assert (Hrs : 16 <= rs <= 1000) by (unfold rs; lia).
  assert (MP : mult (vval v ^ n) rs) by (apply (mult_up _ (s * n)); [lia|apply mult_pow; [lia|exact M]]).
  destruct (Z.eq_dec n 0) as [->|N0].
  { unfold power_int. rewrite (nan_ok c v (st_nan v S)). cbn [bind]. change (0 =? 0) with true. cbv iota.
    apply pow_result_stripped; [apply one_stripped|reflexivity|lia|reflexivity|exact MP]. }
  destruct (Z.eq_dec n 1) as [->|N1].
  { unfold power_int. rewrite (nan_ok c v (st_nan v S)). cbn [bind]. change (1 =? 0) with false. change (1 =? 1) with true. cbv iota.
    change (vval v ^ 1)%Q with (vval v) in *. destruct (digits v) as [|d t] eqn:E.
    - destruct (round_common_spec c v rs (st_digits v S) (st_nan v S)) as (r & Er & R). rewrite Er. cbn [bind].
      destruct (st_zero v S E) as [_ W0].
      right. exists r. split; [reflexivity|]. split; [apply R|]. split; [apply R|]. split; [apply R|].
      split; [rewrite (rd_val _ _ _ _ R); now apply round_at_mult|].
      assert (V0 : (vval r == 0)%Q) by (rewrite (rd_val _ _ _ _ R), round_at_mult by exact MP; now apply vval_empty).
      destruct (rd_weight _ _ _ _ R) as [E1|[[E1 U]|[E1 _]]]; [lia| |lia].
      exfalso. rewrite V0 in U. pose proof (p10_pos (4 * (weight v + 1))). change (Qabs 0) with 0%Q in U. lra.
    - assert (NE : digits v <> []) by congruence.
      destruct (round_common_spec c v rs (st_digits v S) (st_nan v S)) as (r & Er & R). rewrite Er. cbn [bind].
      right. exists r. split; [reflexivity|]. split; [apply R|]. split; [apply R|]. split; [apply R|].
      assert (Vr : (vval r == vval v)%Q) by (rewrite (rd_val _ _ _ _ R); now apply round_at_mult). split; [exact Vr|].
      pose proof (cn_weight v C) as W. pose proof (stripped_range v S NE) as [_ R2].
      destruct (rd_weight _ _ _ _ R) as [E1|[[E1 U]|[E1 _]]]; [lia| |lia].
      exfalso. rewrite Vr in U. lra. }
  destruct (Z.eq_dec n 2) as [->|N2].
  { unfold power_int. rewrite (nan_ok c v (st_nan v S)). cbn [bind]. change (2 =? 0) with false. change (2 =? 1) with false.
    change (2 =? -1) with false. change (2 =? 2) with true. cbv iota.
    assert (P2 : (vval v ^ 2 == vval v * vval v)%Q) by reflexivity.
    destruct (digits v) as [|d t] eqn:E.
    - rewrite mul_zero; [|apply S|apply S|now left]. rewrite zero_scaled_ok by lia. cbn [bind].
      apply pow_result_stripped; [|reflexivity|lia| |exact MP].
      + apply (cn_st _ (canon_zero rs ltac:(lia))).
      + rewrite P2. rewrite (vval_empty v E). apply vval_empty. reflexivity.
    - assert (NE : digits v <> []) by congruence.
      destruct (mul_exact_up c v v s s rs S S NE NE ltac:(lia) ltac:(lia) M M ltac:(lia)) as (r & Er & R1 & R2 & R3).
      rewrite Er. cbn [bind]. apply pow_result_stripped; [exact R1|exact R2|lia| |exact MP]. rewrite R3. now symmetry. }
  destruct (digits v) as [|d t] eqn:E.
  { unfold power_int. rewrite (nan_ok c v (st_nan v S)). cbn [bind].
    destruct (Z.eqb_spec n 0); [congruence|]. destruct (Z.eqb_spec n 1); [congruence|]. destruct (Z.eqb_spec n (-1)); [lia|].
    destruct (Z.eqb_spec n 2); [congruence|].
    assert (ND : ndigits v = 0) by (unfold ndigits; rewrite E; reflexivity). rewrite ND. change (0 =? 0) with true. cbv iota.
    replace (0 <=? n) with true by (symmetry; apply Z.leb_le; lia). unfold assert_msg. cbn [bind].
    rewrite zero_scaled_ok by lia. cbn [bind].
    apply pow_result_stripped; [apply (cn_st _ (canon_zero rs ltac:(lia)))|reflexivity|lia| |exact MP].
    rewrite (Qpower_comp (vval v) 0%Q (vval_empty v E) n n eq_refl), Qpower_0 by lia. apply vval_empty. reflexivity. }
  assert (NE : digits v <> []) by congruence.
  rewrite (power_int_unfold c m v n rs d t (st_nan v S) E) by lia. cbv zeta.
  destruct (decimal_lead d (d_range v d t 0 S E)) as (k & Hk & Hd).
  pose proof (cn_weight v C) as W.
  pose proof (pow_f_err m v d t k LG S E W Hk Hd n ltac:(lia)) as FE. apply Qabs_Qle_condition in FE. set (f := pow_f m v d n) in *.
  pose proof (Lg_low m v d t k s LG S E Hk Hd M) as LL.
  assert (Nq : (0 <= inject_Z n)%Q) by (change 0%Q with (inject_Z 0); rewrite <- Zle_Qle; lia).
  assert (NL : (- inject_Z rs <= inject_Z n * Lg m v d)%Q).
  { apply Qle_trans with (inject_Z n * inject_Z (- s))%Q.
    - rewrite <- inject_Z_mult, <- inject_Z_opp, <- Zle_Qle. lia.
    - rewrite !(Qmult_comm (inject_Z n)). now apply Qmult_le_compat_r. }
  assert (Rq : (16 <= inject_Z rs <= 1000)%Q).
  { change 16%Q with (inject_Z 16). change 1000%Q with (inject_Z 1000). rewrite <- !Zle_Qle. lia. }
  destruct (Qle_bool f 393204) eqn:EF; cbn [negb].
  2:{ left. split; [reflexivity|]. destruct (Qlt_le_dec (Qabs (vval v ^ n)) limit) as [K|K]; [exfalso|exact K].
      rewrite Qpow_abs in K by lia. rewrite limit_p10 in K.
      pose proof (est_upper m v d t 0 LG S E n _ ltac:(lia) (Qlt_le_weak _ _ K)) as U.
      assert (nu : (inject_Z n <= 2147483648)%Q) by (change 2147483648%Q with (inject_Z 2147483648); rewrite <- Zle_Qle; lia).
      change (inject_Z (4 * 32768)) with 131072%Q in U.
      assert (T : (f <= 393204)%Q) by lra. apply Qle_bool_iff in T. congruence. }
  apply Qle_bool_iff in EF.
  assert (FA : (Qabs (f + 1) <= 400000)%Q) by (apply Qabs_Qle_condition; split; lra).
  pose proof (fl_bounds _ _ FA) as F1. apply Qabs_Qle_condition in F1.
  replace (Qle_bool (inject_Z (- rs)) (fadd f 1)) with true.
  2:{ symmetry. apply Qle_bool_iff. unfold fadd. rewrite inject_Z_opp. lra. }
  replace (Qle_bool (inject_Z (- 1000)) (fadd f 1)) with true.
  2:{ symmetry. apply Qle_bool_iff. unfold fadd. change (inject_Z (- 1000)) with (-1000)%Q. lra. }
  cbn [negb orb]. rewrite i32_ok by (unfold I32_MIN, I32_MAX; lia). cbn [bind]. rewrite Z.abs_eq by lia.
  assert (SG : s = 0 \/ forall j e, 0 <= j <= n -> (p10 e <= Qabs (vval v) ^ j)%Q ->
    e + j * s <= 1 + rs + f2i f + (ln_i32 m n + 8)).
  { destruct (Z.eq_dec s 0) as [Z0|Z0]; [now left|right]. intros j e Hj P.
    assert (n16 : n <= 16) by lia.
    pose proof (est_lower m v d t k LG S E Hk Hd j e ltac:(lia) P) as U.
    assert (LnN : 0 <= ln_i32 m n).
    { unfold ln_i32. destruct (Z.ltb_spec n 0); [lia|]. destruct (Z.eqb_spec n 0); [lia|].
      pose proof (LN n ltac:(lia)) as L0. unfold f2i. unfold Qle in L0. cbn in L0.
      assert (0 <= Z.quot (Qnum (f_ln m (inject_Z n))) (Z.pos (Qden (f_ln m (inject_Z n))))) by (apply Z.quot_pos; lia). lia. }
    assert (FA2 : (Qabs f < 2147483647)%Q) by (apply Qabs_Qlt_condition; split; lra).
    pose proof (f2i_near f FA2) as FN. apply Qabs_Qlt_condition in FN.
    assert (JL : (inject_Z j * (Lg m v d + inject_Z s) <= inject_Z n * (Lg m v d + inject_Z s))%Q).
    { apply Qmult_le_compat_r; [rewrite <- Zle_Qle; lia|]. rewrite inject_Z_opp in LL. lra. }
    assert (NS : (inject_Z n * inject_Z s <= inject_Z rs)%Q) by (rewrite <- inject_Z_mult, <- Zle_Qle; lia).
    assert (X : (inject_Z (e + j * s) < inject_Z (rs + f2i f + 8))%Q).
    { rewrite !inject_Z_plus, inject_Z_mult. change (inject_Z 8) with 8%Q. lra. }
    rewrite <- Zlt_Qlt in X. lia. }
  destruct (pow_loop_run c v s n (1 + rs + f2i f + (ln_i32 m n + 8)) S NE Ds M ltac:(change (2 ^ 31) with 2147483648; lia) SG)
    as [(r & Er & P)|(Eo & L)].
  - rewrite Er. cbn [bind]. replace (n <? 0) with false by (symmetry; apply Z.ltb_ge; lia).
    pose proof (pw_val _ _ _ _ P) as V. pose proof (pw_st _ _ _ _ P) as Sr.
    assert (NZ : ~ (vval v ^ n == 0)%Q) by (apply Qpower_not_0; now apply stripped_nz).
    assert (NEr : digits r <> []) by (apply nz_digits; [exact Sr|rewrite V; exact NZ]).
    destruct (round_common_spec c r rs (st_digits r Sr) (st_nan r Sr)) as (z & Ez & R). rewrite Ez. cbn [bind].
    assert (RV : (round_at (vval r) rs == vval r)%Q) by (apply round_at_mult, (mult_comp (vval v ^ n)); [now symmetry|exact MP]).
    apply (pow_result_comp (vval r)); [exact V|]. apply (pow_result_rounded (vval r) rs r z Sr NEr (Qeq_refl _)).
    + destruct R as [A1 A2 A3 A4 A5 A6]. constructor; auto. now rewrite A4.
    + rewrite V. eapply Qle_trans; [|exact (mult_lb _ _ MP NZ)]. apply p10_le. lia.
  - rewrite Eo. cbn [bind]. replace (n <? 0) with false by (symmetry; apply Z.ltb_ge; lia). left. split; [reflexivity|].
    now rewrite Qpow_abs by lia.
Qed.

(** ** Negative powers of integers *)

(** within half a unit of the last place, up to a billionth of it *)
Definition near_unit (z x : Q) (s : Z) : Prop := (Qabs (z - x) <= (500000001 # 1000000000) * p10 (- s))%Q.

Lemma nearly_unit x s r : nearly_rounded x s r -> near_unit r x s.
Proof.
  intros (q & B & E). unfold near_unit. rewrite E. clear E.
  setoid_replace (round_at q s - x)%Q with ((round_at q s - q) + (q - x))%Q by ring.
  eapply Qle_trans; [apply Qabs_triangle|].
  assert (A : (Qabs (round_at q s - q) <= (1 # 2) * p10 (- s))%Q).
  { unfold round_at. change (ten ^ s)%Q with (p10 s). change (ten ^ (- s))%Q with (p10 (- s)).
    pose proof (round_int_err (q * p10 s)) as R.
    setoid_replace (inject_Z (round_int (q * p10 s)) * p10 (- s) - q)%Q with ((inject_Z (round_int (q * p10 s)) - q * p10 s) * p10 (- s))%Q.
    - rewrite Qabs_Qmult, (Qabs_pos (p10 (- s))) by (apply Qlt_le_weak, p10_pos). apply Qmult_le_compat_r; [exact R|apply Qlt_le_weak, p10_pos].
    - pose proof (p10_opp s) as P. rewrite <- (Qmult_1_r q) at 2. rewrite <- P. ring. }
  replace (- s - 9) with (-9 + - s) in B by lia. rewrite p10_add in B. change (p10 (-9)) with (1 # 1000000000)%Q in B. lra.
Qed.

Lemma zero_unit x s : (2 * p10 s <= / Qabs x)%Q -> ~ (x == 0)%Q -> near_unit 0 x s.
Proof.
  intros H N. unfold near_unit. setoid_replace (0 - x)%Q with (- x)%Q by ring. rewrite Qabs_opp.
  pose proof (p10_pos s) as P. pose proof (p10_pos (- s)) as P'. pose proof (Qabs_nz x N) as NA. pose proof (Qabs_nonneg x) as A0.
  assert (A1 : (0 < Qabs x)%Q). { destruct (Qlt_le_dec 0 (Qabs x)) as [G|G]; [exact G|]. exfalso. apply NA. lra. }
  assert (E : (2 * p10 s * Qabs x <= 1)%Q).
  { apply Qle_trans with (/ Qabs x * Qabs x)%Q; [apply Qmult_le_compat_r; lra|]. rewrite Qmult_comm, Qmult_inv_r by exact NA. lra. }
  assert (E2 : (2 * Qabs x <= p10 (- s))%Q).
  { apply Qle_trans with (2 * p10 s * Qabs x * p10 (- s))%Q.
    - setoid_replace (2 * p10 s * Qabs x * p10 (- s))%Q with (2 * Qabs x * (p10 s * p10 (- s)))%Q by ring. rewrite p10_opp. lra.
    - apply Qle_trans with (1 * p10 (- s))%Q; [apply Qmult_le_compat_r; lra|]. lra. }
  lra.
Qed.

Lemma int_abs_ge1 q : mult q 0 -> ~ (q == 0)%Q -> (1 <= Qabs q)%Q.
Proof. intros M N. pose proof (mult_lb q 0 M N) as L. rewrite p10_0 in L. exact L. Qed.

Lemma int_weight v : stripped v -> digits v <> [] -> mult (vval v) 0 -> 0 <= weight v /\ ndigits v <= weight v + 1.
Proof.
  intros S N M. pose proof (frac_lsd v 0 S N M) as L. unfold lsd in L.
  assert (G : 1 <= ndigits v).
  { unfold ndigits. destruct (digits v) as [|a l]; [congruence|]. rewrite lenz_cons. pose proof (lenz_nonneg l). lia. }
  lia.
Qed.

Lemma Qpow_opp (q : Q) a : (q ^ (- a) == / q ^ a)%Q.
Proof. apply Qpower_opp. Qed.

Lemma Qabs_inv q : (Qabs (/ q) == / Qabs q)%Q.
Proof. apply Qabs_Qinv. Qed.

(** The estimate of a power too small for the scale, and of one that is not. *)
Lemma neg_small m v d t k n rs : log10_sound (f_log10 m) -> stripped v -> digits v = d :: t -> 0 <= k <= 3 -> 10 ^ k <= d < 10 ^ (k + 1) ->
  mult (vval v) 0 -> 1 <= n < 2147483648 -> 0 <= rs <= 1000 ->
  (inject_Z rs + (3 # 4) <= inject_Z n * Lg m v d)%Q -> (2 * p10 rs <= Qabs (vval v) ^ n)%Q.
Proof.
  intros LG S E Hk Hd M Hn Hrs H.
  assert (NE : digits v <> []) by congruence.
  assert (NZ : ~ (vval v == 0)%Q) by now apply stripped_nz.
  pose proof (int_abs_ge1 _ M NZ) as G1. set (A := Qabs (vval v)) in *.
  destruct (Qlt_le_dec (A ^ n) (2 * p10 rs)) as [K|K]; [exfalso|exact K].
  assert (N0 : (0 <= inject_Z n)%Q) by (change 0%Q with (inject_Z 0); rewrite <- Zle_Qle; lia).
  assert (R0 : (0 <= inject_Z rs)%Q) by (change 0%Q with (inject_Z 0); rewrite <- Zle_Qle; lia).
  destruct (Qlt_le_dec A 2) as [B|B].
  - (* |v| = 1 *)
    destruct M as [z Z1]. rewrite p10_0, Qmult_1_r in Z1.
    assert (EA : (A == inject_Z (Z.abs z))%Q) by (unfold A; rewrite Z1; reflexivity).
    assert (Zz : Z.abs z = 1).
    { rewrite EA in B, G1. change 2%Q with (inject_Z 2) in B. change 1%Q with (inject_Z 1) in G1. rewrite <- Zlt_Qlt in B. rewrite <- Zle_Qle in G1. lia. }
    destruct (lead_digit v d t S E) as [L _]. fold A in L. rewrite EA, Zz in L.
    assert (Mz : mult (vval v) 0) by (exists z; now rewrite p10_0, Qmult_1_r).
    destruct (int_weight v S NE Mz) as [W _]. pose proof (d_range v d t 0 S E) as Dr.
    assert (W0 : 4 * weight v <= 0).
    { apply (proj1 (p10_le_iff _ _)). rewrite p10_0. eapply Qle_trans; [|exact L]. pose proof (p10_pos (4 * weight v)).
      assert (1 <= inject_Z d)%Q by (change 1%Q with (inject_Z 1); rewrite <- Zle_Qle; lia). nra. }
    assert (W1 : weight v = 0) by lia. rewrite W1 in L. change (4 * 0) with 0 in L. rewrite p10_0, Qmult_1_r in L. rewrite <- Zle_Qle in L.
    assert (d = 1) by lia. subst d. unfold Lg in H. rewrite W1 in H. change (inject_Z (4 * 0)) with 0%Q in H.
    pose proof (lg_one _ LG) as L1. change 1%Q with (inject_Z 1) in L1 at 1. rewrite L1 in H. lra.
  - destruct (Z_lt_le_dec n 4000) as [n4|n4].
    + assert (P100 : (A ^ (100 * n) <= p10 (31 + 100 * rs))%Q).
      { rewrite (Z.mul_comm 100 n), Qpower_mult.
        apply Qle_trans with ((2 * p10 rs) ^ 100)%Q.
        - apply Qpow_mono; [lia|apply Qpower_pos; lra|lra].
        - rewrite Qmult_power, p10_pow, p10_add by lia. rewrite (Z.mul_comm rs 100). apply Qmult_le_compat_r; [|apply Qlt_le_weak, p10_pos].
          change 2%Q with (inject_Z 2). rewrite Zpow_Q, p10_Z by lia. rewrite <- Zle_Qle. vm_compute. discriminate. }
      pose proof (est_upper m v d t 0 LG S E (100 * n) (31 + 100 * rs) ltac:(lia) P100) as U.
      rewrite inject_Z_plus, !inject_Z_mult in U. change (inject_Z 31) with 31%Q in U. change (inject_Z 100) with 100%Q in U.
      assert (inject_Z n <= 4000)%Q by (change 4000%Q with (inject_Z 4000); rewrite <- Zle_Qle; lia). lra.
    + assert (P : (p10 1001 <= A ^ n)%Q).
      { apply Qle_trans with (A ^ 4000)%Q; [|apply Qpow_up; [lia|lra]].
        apply Qle_trans with (2 ^ 4000)%Q; [|apply Qpow_mono; [lia|lra|exact B]].
        change 4000 with (4 * 1000). rewrite Qpower_mult. change (2 ^ 4)%Q with (inject_Z 16).
        apply Qle_trans with (inject_Z 10 ^ 1000 * 10)%Q.
        - replace 1001 with (1000 + 1) by lia. rewrite p10_add. apply Qle_refl.
        - change 1000 with (5 * 200). rewrite !Qpower_mult. change (inject_Z 10 ^ 5)%Q with (inject_Z 100000). change (inject_Z 16 ^ 5)%Q with (inject_Z 1048576).
          replace 200 with (199 + 1) by lia. rewrite !Qpow_S by lia.
          assert (X : (inject_Z 100000 ^ 199 <= inject_Z 1048576 ^ 199)%Q) by (apply Qpow_mono; [lia|discriminate|discriminate]).
          assert (X0 : (0 <= inject_Z 100000 ^ 199)%Q) by (apply Qpower_pos; discriminate).
          change (inject_Z 100000) with 100000%Q in *. change (inject_Z 1048576) with 1048576%Q in *. lra. }
      assert (P2 : (p10 rs * 10 <= p10 1001)%Q).
      { change 10%Q with (p10 1). rewrite <- p10_add. apply p10_le. lia. }
      pose proof (p10_pos rs). lra.
Qed.

Lemma neg_big m v d t k n e : log10_sound (f_log10 m) -> stripped v -> digits v = d :: t -> 0 <= k <= 3 -> 10 ^ k <= d < 10 ^ (k + 1) ->
  mult (vval v) 0 -> 1 <= n < 2147483648 ->
  (inject_Z n * Lg m v d <= 1002)%Q -> (p10 e <= Qabs (vval v) ^ n)%Q -> (inject_Z e <= (5 # 4) * (inject_Z n * Lg m v d) + 3)%Q.
Proof.
  intros LG S E Hk Hd M Hn HL P.
  assert (NE : digits v <> []) by congruence.
  destruct (int_weight v S NE M) as [W ND]. pose proof (d_range v d t 0 S E) as Dr.
  assert (N0 : (0 <= inject_Z n)%Q) by (change 0%Q with (inject_Z 0); rewrite <- Zle_Qle; lia).
  assert (NU : (inject_Z n <= 2147483648)%Q) by (change 2147483648%Q with (inject_Z 2147483648); rewrite <- Zle_Qle; lia).
  pose proof (Lg_range m v d t k LG S E Hk Hd) as [L1 L2].
  assert (L0 : (0 <= Lg m v d)%Q) by (eapply Qle_trans; [|exact L1]; change 0%Q with (inject_Z 0); rewrite <- Zle_Qle; lia).
  assert (NL : (0 <= inject_Z n * Lg m v d)%Q) by now apply Qmult_le_0_compat.
  destruct (Z.eq_dec (weight v) 0) as [W0|W0].
  - assert (T0 : t = []).
    { unfold ndigits in ND. rewrite E, lenz_cons in ND. apply lenz_0. pose proof (lenz_nonneg t). lia. }
    assert (EA : (Qabs (vval v) == inject_Z d)%Q).
    { rewrite Qabs_vval by apply S. unfold mag, lsd, ndigits. rewrite E, T0, W0. change (lenz [d]) with 1. change (4 * (0 + 1 - 1)) with 0. rewrite dec_Z.
      unfold dval. cbn. rewrite ?Z.mul_1_r, ?Z.add_0_r. reflexivity. }
    assert (P1 : (p10 e <= inject_Z (d ^ n))%Q).
    { rewrite <- Zpow_Q by lia. rewrite <- (Qpower_comp _ _ EA n n eq_refl). exact P. }
    destruct (Z_lt_le_dec e 0) as [Ng|Nn].
    + assert (inject_Z e < 0)%Q by (change 0%Q with (inject_Z 0); now rewrite <- Zlt_Qlt). lra.
    + rewrite p10_Z, <- Zle_Qle in P1 by exact Nn.
      pose proof (lg_lower _ LG d e n Dr Nn ltac:(lia) P1) as U. unfold Lg in *. rewrite W0 in *. change (inject_Z (4 * 0)) with 0%Q in *. lra.
  - pose proof (lead_range v d t k S E ltac:(lia) Hd) as [_ U].
    assert (P1 : (p10 e <= p10 ((4 * weight v + k + 1) * n))%Q).
    { rewrite <- p10_pow by lia. eapply Qle_trans; [exact P|]. apply Qpow_mono; [lia|apply Qabs_nonneg|lra]. }
    apply (proj1 (p10_le_iff _ _)) in P1. rewrite Zle_Qle, inject_Z_mult in P1.
    assert (Q4 : (4 <= Lg m v d)%Q) by (eapply Qle_trans; [|exact L1]; change 4%Q with (inject_Z 4); rewrite <- Zle_Qle; lia).
    rewrite !inject_Z_plus in P1. rewrite inject_Z_plus in L1. change (inject_Z 1) with 1%Q in P1.
    assert (X : ((inject_Z (4 * weight v) + inject_Z k + 1) * inject_Z n <= (Lg m v d + 1) * inject_Z n)%Q) by (apply Qmult_le_compat_r; lra).
    assert (Y : (4 * inject_Z n <= Lg m v d * inject_Z n)%Q) by (apply Qmult_le_compat_r; lra). lra.
Qed.

Definition pow_near (x : Q) (s : Z) (r : outcome (option var)) : Prop :=
  exists z, r = Ret (Some z) /\ stripped z /\ dscale z = s /\ mult (vval z) s /\ near_unit (vval z) x s.

Lemma power_int_inv c m v n : log10_sound (f_log10 m) -> canon v -> digits v <> [] ->
  let rs := Z.min 1000 (Z.max 16 (dscale v)) in
  mult (vval v) 0 -> 1 <= n < 2147483648 -> dscale v <= 60 \/ dbg c = false ->
  pow_near (vval v ^ (- n)) rs (power_int c m v (- n) rs).
Proof.
  intros LG C NE rs M Hn HB. pose proof (cn_st v C) as S. pose proof (cn_scale v C) as Sc.
  assert (Hrs : 16 <= rs <= 1000) by (unfold rs; lia).
  assert (NZ : ~ (vval v == 0)%Q) by now apply stripped_nz.
  assert (NA : forall a, ~ (vval v ^ a == 0)%Q) by (intro a; now apply Qpower_not_0).
  destruct (Z.eq_dec n 1) as [->|N1].
  { unfold power_int. rewrite (nan_ok c v (st_nan v S)). cbn [bind]. change (-1 =? 0) with false. change (-1 =? 1) with false.
    change (- (1) =? -1) with true. cbv iota. change (- (1) =? 0) with false. change (- (1) =? 1) with false. cbv iota.
    destruct (div_common_nz c ONE v rs true) as (r & Er & Sr & Dr & Vr).
    - exact (st_digits _ (one_stripped 0)).
    - apply S.
    - discriminate.
    - apply S.
    - lia.
    - apply S.
    - exact NE.
    - discriminate.
    - rewrite Er. cbn [bind expect]. exists r. split; [reflexivity|]. split; [exact Sr|]. split; [exact Dr|].
      split; [apply (mult_comp (round_at (vval ONE / vval v) rs)); [now symmetry|apply mult_round; lia]|].
      apply nearly_unit. exists (vval ONE / vval v)%Q. split; [|exact Vr].
      assert (E : (vval ONE / vval v - vval v ^ (- (1)) == 0)%Q).
      { change (vval v ^ - (1))%Q with (/ vval v)%Q. change (vval ONE) with (vval (set_dscale 0 ONE)). rewrite vval_one. field. exact NZ. }
      rewrite E. apply Qlt_le_weak. apply (p10_pos (- rs - 9)). }
  destruct (digits v) as [|d t] eqn:E; [congruence|].
  rewrite (power_int_unfold c m v (- n) rs d t (st_nan v S) E) by lia. cbv zeta.
  destruct (decimal_lead d (d_range v d t 0 S E)) as (k & Hk & Hd).
  pose proof (cn_weight v C) as W.
  pose proof (pow_f_err m v d t k LG S E W Hk Hd (- n) ltac:(lia)) as FE. apply Qabs_Qle_condition in FE. set (f := pow_f m v d (- n)) in *.
  rewrite inject_Z_opp in FE.
  assert (N0 : (0 <= inject_Z n)%Q) by (change 0%Q with (inject_Z 0); rewrite <- Zle_Qle; lia).
  assert (NU : (inject_Z n <= 2147483648)%Q) by (change 2147483648%Q with (inject_Z 2147483648); rewrite <- Zle_Qle; lia).
  pose proof (Lg_range m v d t k LG S E Hk Hd) as [L1 L2].
  assert (NE' : digits v <> []) by congruence.
  destruct (int_weight v S NE' M) as [W0 _].
  assert (L0 : (0 <= Lg m v d)%Q) by (eapply Qle_trans; [|exact L1]; change 0%Q with (inject_Z 0); rewrite <- Zle_Qle; lia).
  assert (LU : (Lg m v d <= 131072)%Q) by (pose proof (Lg_abs m v d t k LG S E W Hk Hd) as A; apply Qabs_Qle_condition in A; lra).
  assert (NL : (0 <= inject_Z n * Lg m v d)%Q) by now apply Qmult_le_0_compat.
  assert (NLU : (inject_Z n * Lg m v d <= 2147483648 * 131072)%Q).
  { apply Qle_trans with (2147483648 * Lg m v d)%Q; [apply Qmult_le_compat_r; lra|lra]. }
  assert (Rq : (16 <= inject_Z rs <= 1000)%Q).
  { change 16%Q with (inject_Z 16). change 1000%Q with (inject_Z 1000). rewrite <- !Zle_Qle. lia. }
  replace (Qle_bool f 393204) with true by (symmetry; apply Qle_bool_iff; lra). cbn [negb].
  assert (FA : (Qabs (f + 1) <= 281474976710657 + 1)%Q) by (apply Qabs_Qle_condition; split; lra).
  pose proof (fl_bounds _ _ FA) as F1. apply Qabs_Qle_condition in F1. fold (fadd f 1) in F1.
  assert (IV : forall s, (2 * p10 s <= Qabs (vval v) ^ n)%Q -> near_unit 0 (vval v ^ (- n)) s).
  { intros s H. apply zero_unit; [|apply NA]. rewrite Qpow_opp, Qabs_inv, Qinv_involutive, Qpow_abs by lia. exact H. }
  assert (Z0 : stripped (Var 0 rs SPos [])) by (apply (cn_st _ (canon_zero rs ltac:(lia)))).
  assert (ZV : (vval (Var 0 rs SPos []) == 0)%Q) by now apply vval_empty.
  assert (Z00 : mult (vval (Var 0 rs SPos [])) rs) by (apply (mult_comp 0%Q); [now symmetry|exists 0; ring]).
  destruct (Qle_bool (inject_Z (- rs)) (fadd f 1)) eqn:Eu.
  2:{ (* underflow *)
      cbn [negb orb]. rewrite zero_scaled_ok by lia. cbn [bind]. eexists. split; [reflexivity|]. split; [exact Z0|]. split; [reflexivity|]. split; [exact Z00|].
      unfold near_unit. rewrite ZV. apply IV.
      assert (U : (fadd f 1 < inject_Z (- rs))%Q).
      { destruct (Qlt_le_dec (fadd f 1) (inject_Z (- rs))) as [G|G]; [exact G|]. apply Qle_bool_iff in G. congruence. }
      rewrite inject_Z_opp in U. apply (neg_small m v d t k n rs LG S E Hk Hd M Hn); [lia|]. lra. }
  apply Qle_bool_iff in Eu. rewrite inject_Z_opp in Eu.
  replace (Qle_bool (inject_Z (- 1000)) (fadd f 1)) with true.
  2:{ symmetry. apply Qle_bool_iff. change (inject_Z (- 1000)) with (-1000)%Q. lra. }
  cbn [negb orb]. rewrite i32_ok by (unfold I32_MIN, I32_MAX; lia). cbn [bind]. replace (Z.abs (- n)) with n by lia.
  replace (- n <? 0) with true by (symmetry; apply Z.ltb_lt; lia).
  destruct (pow_loop_run c v 0 n (1 + rs + f2i f + (ln_i32 m n + 8)) S NE' ltac:(lia) M ltac:(change (2 ^ 31) with 2147483648; lia) (or_introl eq_refl))
    as [(r & Er & P)|(Eo & L)].
  - rewrite Er. cbn [bind]. pose proof (pw_val _ _ _ _ P) as V. pose proof (pw_st _ _ _ _ P) as Sr.
    assert (NEr : digits r <> []) by (apply nz_digits; [exact Sr|rewrite V; apply NA]).
    assert (Mr : mult (vval r) 0).
    { apply (mult_comp (vval v ^ n)); [now symmetry|]. replace 0 with (0 * n) by lia. apply mult_pow; [lia|exact M]. }
    destruct (int_weight r Sr NEr Mr) as [Wr Nr].
    assert (BW : (inject_Z (4 * weight r) <= (5 # 4) * (inject_Z n * Lg m v d) + 3)%Q).
    { apply (neg_big m v d t k n (4 * weight r) LG S E Hk Hd M Hn); [lra|]. rewrite <- Qpow_abs, <- V by lia. now apply stripped_range. }
    destruct (div_fast_spec c ONE r rs (one_stripped 0) Sr ltac:(discriminate) NEr) as [(z & Ez & Sz & Dz & Nz)|(Db & K & _)].
    { unfold df_bounds. change (ndigits ONE) with 1. change (weight ONE) with 0. lia. }
    + rewrite Ez. cbn [bind expect]. exists z. split; [reflexivity|]. split; [exact Sz|]. split; [exact Dz|].
      split; [destruct Nz as (q & _ & Nz); apply (mult_comp (round_at q rs)); [now symmetry|apply mult_round; lia]|].
      apply nearly_unit in Nz. unfold near_unit in *.
      assert (X : (vval ONE / vval r == vval v ^ (- n))%Q).
      { change (vval ONE) with (vval (set_dscale 0 ONE)). rewrite vval_one, V, Qpow_opp. field. apply NA. }
      rewrite <- X. exact Nz.
    + exfalso. destruct HB as [HB|HB]; [|congruence].
      assert (R60 : (inject_Z rs <= 60)%Q) by (change 60%Q with (inject_Z 60); rewrite <- Zle_Qle; unfold rs; lia).
      assert (T : (inject_Z (4 * weight r) < inject_Z 80)%Q) by (change (inject_Z 80) with 80%Q; lra).
      rewrite <- Zlt_Qlt in T. lia.
  - rewrite Eo. cbn [bind].
    assert (EzZ : round_common c ZERO rs = Ret (Var 0 rs SPos [])).
    { unfold round_common. rewrite (nan_ok c ZERO ltac:(discriminate)). cbn [bind]. change (weight ZERO) with 0. change (ndigits ZERO) with 0.
      change DEC_DIGITS with 4. change ((0 + 1) * 4 + rs) with (4 + rs).
      replace (4 + rs <? 0) with false by (symmetry; apply Z.ltb_ge; lia).
      rewrite Z.quot_div_nonneg by lia.
      assert (G : 0 < (4 + rs + 4 - 1) / 4) by (pose proof (Z.div_mod (4 + rs + 4 - 1) 4 ltac:(lia)); pose proof (Z.mod_pos_bound (4 + rs + 4 - 1) 4 ltac:(lia)); lia).
      replace (_ <? 0) with false by (symmetry; apply Z.ltb_ge; lia).
      replace (_ =? 0) with false by (symmetry; apply Z.eqb_neq; lia). reflexivity. }
    rewrite EzZ. cbn [bind]. eexists. split; [reflexivity|]. split; [exact Z0|]. split; [reflexivity|]. split; [exact Z00|].
    unfold near_unit. rewrite ZV. apply IV. eapply Qle_trans; [|exact L]. rewrite limit_p10.
    apply Qle_trans with (p10 (1 + rs)); [|apply p10_le; lia]. rewrite p10_add. pose proof (p10_pos rs). change (p10 1) with 10%Q. lra.
Qed.
