(** * PowMin: the exponent i32::MIN, for every base (C53). *)
From Coq Require Import ZArith QArith Qabs Qpower List Bool Lia Lqa.
From Verif Require Import Base Var Binary Format Parse Convert Num Flt Transc Spec SpecApi SpecLibm QDec Digits Arith Strip
  Round Trunc AddSub Signed Codec Make Api1 Api2 Mul MulNear DivQ DivFast ConvertApi PowLoop Sci PowInt PowApi PowSmall.
Import ListNotations.
Open Scope Z_scope.

(** the logarithm of the leading digits, by the size of the number *)
Lemma low_pow : 9995 ^ 4700 <= 10 ^ 18799.
Proof.
  replace 4700 with (100 * 47) by reflexivity. rewrite Z.pow_mul_r by lia.
  apply Z.le_trans with ((9513 * 10 ^ 396) ^ 47).
  - apply Z.pow_le_mono_l. split; [lia|]. apply Z.leb_le. vm_compute. reflexivity.
  - rewrite Z.pow_mul_l, <- Z.pow_mul_r by lia. replace 18799 with (187 + 396 * 47) by reflexivity. rewrite Z.pow_add_r by lia.
    apply Z.mul_le_mono_nonneg_r; [apply Z.pow_nonneg; lia|]. apply Z.leb_le. vm_compute. reflexivity.
Qed.
Lemma high_pow : 10 ^ 22799 <= 9996 ^ 5700.
Proof.
  replace 5700 with (100 * 57) by reflexivity. rewrite (Z.pow_mul_r 9996) by lia.
  apply Z.le_trans with ((9607 * 10 ^ 396) ^ 57).
  - rewrite Z.pow_mul_l, <- Z.pow_mul_r by lia. replace 22799 with (227 + 396 * 57) by reflexivity. rewrite Z.pow_add_r by lia.
    apply Z.mul_le_mono_nonneg_r; [apply Z.pow_nonneg; lia|]. apply Z.leb_le. vm_compute. reflexivity.
  - apply Z.pow_le_mono_l. split; [lia|]. apply Z.leb_le. vm_compute. reflexivity.
Qed.

Section Lead.
Variables (m : libm) (v : var) (d : Z) (t : list Z).
Hypothesis LG : log10_sound (f_log10 m).
Hypothesis S : stripped v.
Hypothesis E : digits v = d :: t.
Let Dr := d_range v d t 0 S E.

Lemma lg_two : 2 <= d -> (29 # 100 <= f_log10 m (inject_Z d))%Q.
Proof.
  intro H. pose proof (lg_lower _ LG d 3 10 ltac:(lia) ltac:(lia) ltac:(lia)) as L.
  assert (P : 10 ^ 3 <= d ^ 10). { apply Z.le_trans with (2 ^ 10); [lia|]. apply Z.pow_le_mono_l. lia. }
  specialize (L P). change (inject_Z 3) with 3%Q in L. change (inject_Z 10) with 10%Q in L. lra.
Qed.
Lemma lg_9995 : d <= 9995 -> (f_log10 m (inject_Z d) <= 4 - (2 # 10000))%Q.
Proof.
  intro H. pose proof (lg_upper _ LG d 18799 4700 ltac:(lia) ltac:(lia) ltac:(lia)) as L.
  assert (P : d ^ 4700 <= 10 ^ 18799). { apply Z.le_trans with (9995 ^ 4700); [apply Z.pow_le_mono_l; clear L; lia|exact low_pow]. }
  specialize (L P). change (inject_Z 18799) with 18799%Q in L. change (inject_Z 4700) with 4700%Q in L. lra.
Qed.
Lemma lg_9996 : 9996 <= d -> (4 - (176 # 1000000) <= f_log10 m (inject_Z d))%Q.
Proof.
  intro H. pose proof (lg_lower _ LG d 22799 5700 ltac:(lia) ltac:(lia) ltac:(lia)) as L.
  assert (P : 10 ^ 22799 <= d ^ 5700). { apply Z.le_trans with (9996 ^ 5700); [exact high_pow|apply Z.pow_le_mono_l; clear L; lia]. }
  specialize (L P). change (inject_Z 22799) with 22799%Q in L. change (inject_Z 5700) with 5700%Q in L. lra.
Qed.
End Lead.

Lemma lead_cases v d t : stripped v -> digits v = d :: t ->
  ((2 <= Qabs (vval v))%Q -> 1 <= weight v \/ (weight v = 0 /\ 2 <= d)) /\
  (((9996 # 10000) <= Qabs (vval v) < 1)%Q -> weight v = -1 /\ 9996 <= d) /\
  ((Qabs (vval v) < 9996 # 10000)%Q -> weight v <= -2 \/ (weight v = -1 /\ d <= 9995)).
Proof.
  intros S E. assert (NE : digits v <> []) by congruence. pose proof (stripped_range v S NE) as [R1 R2].
  destruct (lead_digit v d t S E) as [L1 L2]. pose proof (d_range v d t 0 S E) as Dr.
  assert (Lt : forall a b, (inject_Z a < inject_Z b)%Q -> a < b) by (intros a b H; now rewrite <- Zlt_Qlt in H).
  split; [|split]; intro H.
  - assert (W1 : 0 < 4 * (weight v + 1)) by (apply (proj1 (p10_lt_iff _ _)); rewrite p10_0; lra).
    destruct (Z.eq_dec (weight v) 0) as [W|W]; [right|left; lia]. split; [exact W|]. rewrite W in L2. change (4 * 0) with 0 in L2. rewrite p10_0 in L2.
    assert (A : (inject_Z 2 < inject_Z (d + 1))%Q) by (change (inject_Z 2) with 2%Q; lra). apply Lt in A. lia.
  - assert (W1 : 4 * weight v < 0) by (apply (proj1 (p10_lt_iff _ _)); rewrite p10_0; lra).
    assert (W2 : -1 < 4 * (weight v + 1)). { apply (proj1 (p10_lt_iff _ _)). change (p10 (-1)) with (1 # 10)%Q. lra. }
    assert (W : weight v = -1) by lia. split; [exact W|]. rewrite W in L2. change (4 * -1) with (-4) in L2. change (p10 (-4)) with (1 # 10000)%Q in L2.
    assert (A : (inject_Z 9996 < inject_Z (d + 1))%Q) by (change (inject_Z 9996) with 9996%Q; lra). apply Lt in A. lia.
  - assert (W1 : 4 * weight v < 0) by (apply (proj1 (p10_lt_iff _ _)); rewrite p10_0; lra).
    destruct (Z.eq_dec (weight v) (-1)) as [W|W]; [right|left; lia]. split; [exact W|].
    rewrite W in L1. change (4 * -1) with (-4) in L1. change (p10 (-4)) with (1 # 10000)%Q in L1.
    assert (A : (inject_Z d < inject_Z 9996)%Q) by (change (inject_Z 9996) with 9996%Q; lra). apply Lt in A. lia.
Qed.

Theorem pow_min_all c m fuel x q s e se : log10_sound (f_log10 m) -> stores (be_varlen c) x q s ->
  stores (be_varlen c) e (inject_Z (- 2 ^ 31)) se -> ~ (q == 0)%Q ->
  ((Qabs q < 9996 # 10000)%Q -> num_pow c m fuel x e = Ret None) /\
  ((2 <= Qabs q)%Q -> exists y, num_pow c m fuel x e = Ret (Some y) /\ stores (be_varlen c) y 0 (pow_scale_of s)) /\
  (((9996 # 10000) <= Qabs q < 2)%Q ->
     (dbg c = true -> num_pow c m fuel x e = Panic WArith) /\
     (dbg c = false -> exists y, num_pow c m fuel x e = Ret (Some y) /\ stores (be_varlen c) y 1 (pow_scale_of s))).
Proof.
  intros LG H1 H2 NQ.
  assert (M := fun Q => pow_min c m fuel x q s e se LG H1 Q H2).
  change (- 2 ^ 31) with (-2147483648) in H2.
  destruct (stores_elim _ _ _ _ H1) as (v & C1 & -> & V1 & S1). destruct (stores_elim _ _ _ _ H2) as (w & C2 & -> & V2 & S2).
  assert (NZ : ~ (vval v == 0)%Q) by now rewrite V1.
  rewrite (num_pow_int c m fuel v w (-2147483648) C1 C2 V2) in *; [|lia|tauto|lia|tauto]. rewrite <- S1 in *. set (rs := pow_scale_of (dscale v)) in *.
  assert (Hrs : 16 <= rs <= 1000) by (unfold rs, pow_scale_of; lia).
  pose proof (cn_st v C1) as S. assert (NE : digits v <> []) by now apply nz_digits.
  pose proof (cn_weight v C1) as W.
  destruct (digits v) as [|d t] eqn:E; [congruence|].
  destruct (lead_cases v d t S E) as (K1 & K2 & K3). rewrite V1 in K1, K2, K3.
  rewrite (power_int_unfold c m v (-2147483648) rs d t (st_nan v S) E) in * by lia. cbv zeta in *.
  destruct (decimal_lead d (d_range v d t 0 S E)) as (k & Hk & Hd).
  pose proof (pow_f_err m v d t k LG S E W Hk Hd (-2147483648) ltac:(lia)) as FE. apply Qabs_Qle_condition in FE. set (f := pow_f m v d (-2147483648)) in *.
  pose proof (Lg_range m v d t k LG S E Hk Hd) as [L1 L2].
  pose proof (Lg_abs m v d t k LG S E W Hk Hd) as LA. apply Qabs_Qle_condition in LA.
  change (inject_Z (-2147483648)) with (-2147483648)%Q in FE.
  assert (LW : forall a, (Lg m v d == f_log10 m (inject_Z d) + inject_Z a)%Q \/ 4 * weight v <> a).
  { intro a. destruct (Z.eq_dec (4 * weight v) a) as [<-|N]; [left; reflexivity|now right]. }
  assert (FA : (Qabs (f + 1) <= 281474976710657 + 1)%Q) by (apply Qabs_Qle_condition; split; lra).
  pose proof (fl_bounds _ _ FA) as F1. apply Qabs_Qle_condition in F1. fold (fadd f 1) in F1.
  split; [|split].
  - intro H. specialize (K3 H).
    assert (LU : (Lg m v d <= - (2 # 10000))%Q).
    { destruct K3 as [K|[K Kd]].
      - assert (A : (inject_Z (4 * weight v + k + 1) <= inject_Z (-4))%Q) by (rewrite <- Zle_Qle; lia). change (inject_Z (-4)) with (-4)%Q in A. lra.
      - destruct (LW (-4)) as [X|X]; [|lia]. rewrite X. pose proof (lg_9995 m v d t LG S E Kd). change (inject_Z (-4)) with (-4)%Q. lra. }
    replace (Qle_bool f 393204) with false; [reflexivity|]. symmetry. apply not_true_iff_false. rewrite Qle_bool_iff. intro X. lra.
  - intro H. specialize (K1 H).
    assert (LU : (29 # 100 <= Lg m v d)%Q).
    { destruct K1 as [K|[K Kd]].
      - assert (A : (inject_Z 4 <= inject_Z (4 * weight v + k))%Q) by (rewrite <- Zle_Qle; lia). change (inject_Z 4) with 4%Q in A. lra.
      - destruct (LW 0) as [X|X]; [|lia]. rewrite X. pose proof (lg_two m v d t LG S E Kd). change (inject_Z 0) with 0%Q. lra. }
    replace (Qle_bool f 393204) with true by (symmetry; apply Qle_bool_iff; lra). cbn [negb].
    replace (Qle_bool (inject_Z (- rs)) (fadd f 1)) with false.
    2:{ symmetry. apply not_true_iff_false. rewrite Qle_bool_iff. intro X.
        assert (A : (inject_Z (-1000) <= inject_Z (- rs))%Q) by (rewrite <- Zle_Qle; lia). change (inject_Z (-1000)) with (-1000)%Q in A. lra. }
    cbn [negb orb]. rewrite zero_scaled_ok by lia. cbn [bind].
    assert (Z0 : stripped (Var 0 rs SPos [])) by (apply (cn_st _ (canon_zero rs ltac:(lia)))).
    rewrite (not_nan (Var 0 rs SPos []) Z0).
    destruct (make_result_semi c (Var 0 rs SPos []) 0 rs (stripped_semi _ Z0) eq_refl ltac:(lia)) as (o & Eo & [R _]).
    + now apply vval_empty.
    + exists 0. ring.
    + destruct R as (y & -> & Y); [change (Qabs 0) with 0%Q; rewrite limit_p10; apply p10_pos|]. exists y. now split.
  - intro H. destruct (Qlt_le_dec (Qabs q) 1) as [L|L]; [|apply M; lra]. clear M.
    destruct (K2 ltac:(lra)) as [Wm Hd9].
    assert (LU : (- (176 # 1000000) <= Lg m v d)%Q).
    { destruct (LW (-4)) as [X|X]; [|lia]. rewrite X. pose proof (lg_9996 m v d t LG S E Hd9). change (inject_Z (-4)) with (-4)%Q. lra. }
    assert (LU2 : (Lg m v d <= 0)%Q).
    { assert (A : (inject_Z (4 * weight v + k + 1) <= inject_Z 0)%Q) by (rewrite <- Zle_Qle; lia). change (inject_Z 0) with 0%Q in A. lra. }
    replace (Qle_bool f 393204) with true by (symmetry; apply Qle_bool_iff; lra). cbn [negb].
    replace (Qle_bool (inject_Z (- rs)) (fadd f 1)) with true.
    2:{ symmetry. apply Qle_bool_iff. assert (A : (inject_Z (- rs) <= inject_Z (-16))%Q) by (rewrite <- Zle_Qle; lia). change (inject_Z (-16)) with (-16)%Q in A. lra. }
    replace (Qle_bool (inject_Z (- 1000)) (fadd f 1)) with true.
    2:{ symmetry. apply Qle_bool_iff. change (inject_Z (- 1000)) with (-1000)%Q. lra. }
    cbn [negb orb]. change (Z.abs (-2147483648)) with 2147483648. split; intro D.
    + unfold i32, arith. rewrite D. reflexivity.
    + assert (I : i32 c 2147483648 = Ret (-2147483648)) by (unfold i32, arith; rewrite D; reflexivity). rewrite I. cbn [bind].
      change (Z.odd (-2147483648)) with false. cbv iota.
      assert (P : forall g, pow_loop c 32 (-2147483648) g v ONE = Ret (PDone ONE)) by reflexivity. rewrite P. cbn [bind].
      change (-2147483648 <? 0) with true. cbv iota.
      destruct (div_fast_spec c ONE ONE rs (one_stripped 0) (one_stripped 0) ltac:(discriminate) ltac:(discriminate)) as [(z & Ez & Sz & Dz & Nz)|(Db & _)].
      * unfold df_bounds. cbn. lia.
      * rewrite Ez. cbn [bind expect]. rewrite (not_nan z Sz).
        assert (X1 : mult (vval ONE / vval ONE) rs). { apply (mult_comp 1%Q); [reflexivity|]. apply (mult_up _ 0); [lia|]. exists 1. reflexivity. }
        assert (Vz : (vval z == 1)%Q) by (rewrite (nearly_exact _ rs _ X1 Nz); reflexivity).
        destruct (make_result_semi c z 1 rs (stripped_semi z Sz) Dz ltac:(lia) Vz) as (o & Eo & [R _]).
        -- apply (mult_up _ 0); [lia|]. exists 1. reflexivity.
        -- destruct R as (y & -> & Y); [change (Qabs 1) with 1%Q; rewrite limit_p10, <- p10_0; apply p10_lt; lia|]. exists y. now split.
      * congruence.
Qed.
