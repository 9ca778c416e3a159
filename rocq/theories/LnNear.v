(** * LnNear: the logarithm of a number between 0.9 and 1.1 always returns. *)
From Coq Require Import Reals Qreals Lra Lia ZArith QArith Qabs List Bool.
From Verif Require Import Base Var Binary Num Flt Transc Spec SpecApi SpecLn QDec Digits Arith Strip AddSub Signed Codec Make PowApi LogApi ExpApi
  LnOps LnSqrt LnQR LnRed LnSeries LnApi LnSig.
Import ListNotations.
Open Scope R_scope.

Theorem ln_near_one c m fuel x q s : logs_near (f_log10 m) (f_ln m) -> stores (be_varlen c) x q s -> ((9 # 10) < q < (11 # 10))%Q ->
  (505 <= Z.of_nat fuel)%Z -> (dbg c = true -> (s <= 80)%Z) ->
  exists y r s', num_ln c m fuel x = Ret y /\ stores (be_varlen c) y r s' /\ (Z.min 1000 s <= s' <= 1000)%Z /\
     Rabs (Q2R r - ln (Q2R q)) <= ln_error s' (ln (Q2R q)).
Proof.
  intros N H Q HF HD. assert (Q0 : (0 < q)%Q) by (apply (Qlt_trans _ (9 # 10)); [reflexivity|apply Q]).
  assert (E : exists y, num_ln c m fuel x = Ret y).
  2:{ destruct E as (y & E). destruct (ln_api c m fuel x q s H Q0) as [K|[[K _]|(y' & r & s' & E' & K)]]; [congruence|congruence|].
      exists y', r, s'. now split. }
  destruct (Qeq_dec q 1) as [Q1|Q1].
  { destruct fuel as [|f]; [lia|].
    destruct (ln_api_one c m f x s (stores_ext _ _ _ _ _ Q1 H)) as (y & Ey & _). now exists y. }
  destruct (stores_elim _ _ _ _ H) as (v & C & -> & V & E). pose proof (canon_storable v C) as St.
  unfold num_ln. rewrite (num_is_nan_spec c v St). cbn [bind]. rewrite (as_var_spec c v St). cbn [bind].
  assert (P : (0 < vval v)%Q) by now rewrite V. pose proof (canon_arg v C P) as A.
  assert (R1 : rv v <> 1).
  { intro K. apply Q1. rewrite <- V. apply eqR_Qeq. rewrite RMicromega.Q2R_1. exact K. }
  destruct (estimate_any c m v N A (cn_st v C) R1) as (d & Ed & Bd & Kd & _).
  assert (Hv : 9 / 10 < rv v < 11 / 10).
  { rewrite (rv_eq _ _ V). destruct Q as [L U]. apply Qlt_Rlt in L, U. unfold Q2R at 1 in L. unfold Q2R at 2 in U. cbn [Qnum Qden] in L, U. lra. }
  assert (X : exists r, ln_var c m fuel v = Ret r).
  { unfold ln_var. rewrite (nan_ok c v (canon_nan v C)). cbn [bind].
    destruct (cmp_zero c v (cn_st v C)) as (z & -> & Hz). cbn [bind].
    assert (z = 1%Z) as ->. { destruct Hz as [[_ K]|[[G _]|[_ K]]]; [exfalso; rewrite K in P; now apply Qlt_irrefl in P|exact G|].
      exfalso. apply (Qlt_irrefl 0). eapply Qlt_trans; [exact P|exact K]. }
    change (negb (1 =? 0))%Z with true. change (0 <? 1)%Z with true. cbn [assert_msg bind]. rewrite Ed. cbn [bind].
    change NUMERIC_MIN_SIG_DIGITS with 16%Z. rewrite i32_fits by lia. cbn [bind].
    set (rs := clamp_scale (Z.max (16 - d) (dscale v))).
    assert (Ers : rs = Z.min (Z.max (Z.max (16 - d) (dscale v)) 0) 1000) by reflexivity.
    apply ln_common_ends; auto; try lia.
    intro D. apply (mult_up _ (dscale v)); [rewrite E; auto|now apply canon_mult]. }
  destruct X as (r & Er). destruct (ln_var_spec c m fuel v C P) as [K|[[K _]|(d' & rs & r' & _ & (dx & _ & Ers) & Er' & T & Dr & M & Err)]];
    [congruence|congruence|]. rewrite Er'. cbn [bind].
  pose proof (cn_scale v C) as Sv. pose proof (Rabs_ln_arg v A) as Bl.
  pose proof (ln_weight r' rs _ T ltac:(lia) Bl Err) as W.
  destruct (make_no_overflow_spec c r') as (y & Ey & _).
  { apply T. } { apply T. } { lia. } { rewrite Dr. exact M. } { lia. }
  now exists y.
Qed.
