(** * Closure: whatever the platform's mathematical functions return, exp and pow only return
    canonical numerics (part of C03). Release builds; debug builds that return do the same (C63). *)
From Coq Require Import ZArith QArith Qabs List Bool Lia.
From Verif Require Import Base Var Binary Format Parse Convert Num Flt Transc Spec SpecApi QDec Digits Arith Strip Round
  AddSub Signed Codec Make Api1 Api2 MulNear Mul DivQ Mut Laws Laws2 SpecProfile Profile Profile2.
Import ListNotations.
Open Scope Z_scope.

Definition okv (v : var) : Prop := Forall dig (digits v) /\ sign v <> SNaN.

Lemma stripped_ok v : stripped v -> okv v.
Proof. intro S. split; apply S. Qed.
Lemma ok_set_sign g v : okv v -> g <> SNaN -> okv (set_sign g v).
Proof. intros [A _] G. split; [exact A|exact G]. Qed.

Lemma mult_ext q q' s : (q == q')%Q -> mult q' s -> mult q s.
Proof. intro E. apply mult_comp. now symmetry. Qed.

Ltac step H := match type of H with
  | bind ?a _ = _ => let E := fresh "E" in destruct a eqn:E; cbn [bind] in H; try discriminate H
  end.

Section Release.
Variable c : cfg.
Hypothesis Hd : dbg c = false.

Lemma da b : dassert c b = Ret tt.
Proof using Hd. unfold dassert. now rewrite Hd. Qed.
Lemma zs s : zero_scaled c s = Ret (Var 0 s SPos []).
Proof using Hd. unfold zero_scaled. now rewrite da. Qed.
Lemma i32_rel x : exists y, i32 c x = Ret y /\ - 2147483648 <= y < 2147483648.
Proof using Hd.
  unfold i32, arith. rewrite Hd. destruct (fits 32 x) eqn:E.
  - exists x. split; [reflexivity|]. unfold fits in E. change (2 ^ (32 - 1)) with 2147483648 in E.
    apply andb_true_iff in E. destruct E as [A B]. apply Z.leb_le in A. apply Z.ltb_lt in B. lia.
  - exists (wrap 32 x). split; [reflexivity|]. unfold wrap. change (2 ^ (32 - 1)) with 2147483648. change (2 ^ 32) with 4294967296.
    pose proof (Z.mod_pos_bound (x + 2147483648) 4294967296 eq_refl). lia.
Qed.

Lemma diff_ok v1 v2 g1 g2 r : okv v1 -> okv v2 -> g1 <> SNaN -> g2 <> SNaN ->
  (cmp <- cmp_abs c v1 v2 ;;
     if cmp =? 0 then zero_scaled c (Z.max (dscale v1) (dscale v2))
     else if cmp =? 1 then r <- sub_abs c v1 v2 ;; Ret (set_sign g1 r)
     else if cmp =? -1 then r <- sub_abs c v2 v1 ;; Ret (set_sign g2 r)
     else Panic (WMsg MInvalidCmp)) = Ret r -> okv r.
Proof using Hd.
  intros [D1 N1] [D2 N2] G1 G2 H.
  destruct (cmp_abs_spec c v1 v2 D1 D2 N1 N2) as (s & E & Hc). rewrite E in H. cbn [bind] in H.
  destruct Hc as [[-> Hc]|[[-> Hc]|[-> Hc]]]; cbn [Z.eqb Pos.eqb] in H.
  - rewrite zs in H. injection H as <-. apply stripped_ok, stripped_zero.
  - destruct (sub_abs_spec c v1 v2 D1 D2 N1 N2 Hc) as (r' & Er & A). rewrite Er in H. cbn [bind] in H.
    injection H as <-. apply ok_set_sign; [apply stripped_ok, A|exact G1].
  - destruct (sub_abs_spec c v2 v1 D2 D1 N2 N1 Hc) as (r' & Er & A). rewrite Er in H. cbn [bind] in H.
    injection H as <-. apply ok_set_sign; [apply stripped_ok, A|exact G2].
Qed.

Lemma add_ok v1 v2 r : okv v1 -> okv v2 -> add_common c v1 v2 = Ret r -> okv r.
Proof using Hd.
  intros [D1 N1] [D2 N2]. unfold add_common. rewrite !da. cbn [bind].
  destruct (add_abs_spec c v1 v2 D1 D2 N1 N2) as (r' & Er & A).
  destruct (is_positive v1), (is_positive v2); try (apply diff_ok; (split; assumption) || discriminate);
    rewrite Er; cbn [bind]; intro H; injection H as <-; (apply ok_set_sign; [apply stripped_ok, A|discriminate]).
Qed.
Lemma sub_ok v1 v2 r : okv v1 -> okv v2 -> sub_common c v1 v2 = Ret r -> okv r.
Proof using Hd.
  intros [D1 N1] [D2 N2]. unfold sub_common. rewrite !da. cbn [bind].
  destruct (add_abs_spec c v1 v2 D1 D2 N1 N2) as (r' & Er & A).
  destruct (is_positive v1), (is_negative v2); try (apply diff_ok; (split; assumption) || discriminate);
    rewrite Er; cbn [bind]; intro H; injection H as <-; (apply ok_set_sign; [apply stripped_ok, A|discriminate]).
Qed.

(** [r] is a finished result at scale [s]. *)
Definition fin (s : Z) (r : var) : Prop := okv r /\ dscale r = s /\ mult (vval r) s.

Lemma fin_ok s r : fin s r -> okv r.
Proof using. now intros [K _]. Qed.
Lemma fin_zero s : fin s (Var 0 s SPos []).
Proof using.
  split; [apply stripped_ok, stripped_zero|]. split; [reflexivity|].
  apply (mult_ext (vval (Var 0 s SPos [])) 0%Q); [apply vval_empty; reflexivity|].
  exists 0. apply Qmult_0_l.
Qed.
Lemma round_fin v s r : okv v -> 0 <= s -> round_common c v s = Ret r -> fin s r.
Proof using.
  intros [D N] S H. destruct (round_common_spec c v s D N) as (r' & E & R). rewrite H in E. injection E as <-.
  split; [split; apply R|]. split; [apply R|].
  apply (mult_ext _ _ _ (rd_val _ _ _ _ R)). apply mult_round; lia.
Qed.
Lemma strip_fin s r : fin s r -> fin s (strip r).
Proof using.
  intros [[D N] [S M]]. destruct (strip_spec r D N) as [T V]. split; [now apply stripped_ok|].
  split; [now rewrite strip_dscale|]. now apply (mult_ext _ _ _ V).
Qed.

Lemma mul_fin v1 v2 s r : okv v1 -> okv v2 -> 0 <= s -> mul_common c v1 v2 s = Ret r -> fin s r.
Proof using Hd.
  intros [D1 N1] [D2 N2] S H.
  destruct (mul_common_near_gen c v1 v2 s D1 D2 N1 N2 S (or_introl (or_intror Hd))) as (r' & E & T & Sc & q & _ & V).
  rewrite H in E. injection E as <-. split; [now apply stripped_ok|]. split; [exact Sc|].
  apply (mult_ext _ _ _ V). apply mult_round; lia.
Qed.

(** ** Fast division: the final carry pass leaves base-10000 digits, whatever happened before. *)
Lemma carry_of_dig x k d : -2147483648 <= x < 2147483648 -> carry_of c x = Ret (k, d) -> dig d.
Proof using Hd.
  intros B H. unfold carry_of in H. change NBASE with 10000 in H.
  assert (W : forall y, -2147483648 <= y < 2147483648 -> i32 c y = Ret y) by (intros; apply i32_ok; lia).
  destruct (Z.ltb_spec x 0) as [L|L].
  - destruct (Z.eq_dec x (-2147483648)) as [->|NE].
    + assert (E1 : i32 c (- -2147483648) = Ret (-2147483648)) by (unfold i32, arith; rewrite Hd; reflexivity).
      rewrite E1 in H. cbn [bind] in H.
      assert (E2 : i32 c (-2147483648 - 1) = Ret 2147483647) by (unfold i32, arith; rewrite Hd; reflexivity).
      rewrite E2 in H. cbn [bind] in H. change (- Z.quot 2147483647 10000 - 1) with (-214749) in H. rewrite W in H by lia. cbn [bind] in H.
      change (-214749 * 10000) with (-2147490000) in H.
      assert (E3 : i32 c (-2147490000) = Ret 2147477296) by (unfold i32, arith; rewrite Hd; reflexivity).
      rewrite E3 in H. cbn [bind] in H. change (-2147483648 - 2147477296) with (-4294960944) in H.
      assert (E4 : i32 c (-4294960944) = Ret 6352) by (unfold i32, arith; rewrite Hd; reflexivity).
      rewrite E4 in H. cbn [bind] in H. injection H as _ <-. unfold dig. lia.
    + rewrite W in H by lia. cbn [bind] in H. rewrite W in H by lia. cbn [bind] in H.
      rewrite Z.quot_div_nonneg in H by lia.
      pose proof (Z.div_mod (- x - 1) 10000 ltac:(lia)) as Dm. pose proof (Z.mod_pos_bound (- x - 1) 10000 ltac:(lia)) as Mb.
      set (a := (- x - 1) / 10000) in *.
      rewrite W in H by lia. cbn [bind] in H.
      destruct (Z_le_dec (-2147483648) ((- a - 1) * 10000)) as [G|G].
      * rewrite W in H by lia. cbn [bind] in H. rewrite W in H by lia. cbn [bind] in H. injection H as _ <-. unfold dig. lia.
      * assert (Ea : a = 214748) by lia. replace ((- a - 1) * 10000) with (-2147490000) in H by lia.
        assert (E3 : i32 c (-2147490000) = Ret 2147477296) by (unfold i32, arith; rewrite Hd; reflexivity).
        rewrite E3 in H. cbn [bind] in H.
        assert (E4 : i32 c (x - 2147477296) = Ret (x + 2147490000)).
        { unfold i32, arith. rewrite Hd. replace (fits 32 (x - 2147477296)) with false.
          - unfold wrap. change (2 ^ (32 - 1)) with 2147483648. change (2 ^ 32) with 4294967296.
            replace (x - 2147477296 + 2147483648) with ((x + 2147490000 + 2147483648) + (-1) * 4294967296) by lia.
            rewrite Z.mod_add by lia. rewrite Z.mod_small by lia. f_equal. lia.
          - symmetry. unfold fits. change (2 ^ (32 - 1)) with 2147483648. apply andb_false_iff. left. apply Z.leb_gt. lia. }
        rewrite E4 in H. cbn [bind] in H. injection H as _ <-. unfold dig. lia.
  - destruct (Z.leb_spec 10000 x) as [G|G].
    + rewrite Z.quot_div_nonneg in H by lia.
      pose proof (Z.div_mod x 10000 ltac:(lia)) as Dm. pose proof (Z.mod_pos_bound x 10000 ltac:(lia)) as Mb.
      set (a := x / 10000) in *. rewrite W in H by lia. cbn [bind] in H. rewrite W in H by lia. cbn [bind] in H.
      injection H as _ <-. unfold dig. lia.
    + injection H as _ <-. unfold dig. lia.
Qed.
Lemma carry_down_dig l k ds : carry_down c l = Ret (k, ds) -> Forall dig ds.
Proof using Hd.
  revert k ds. induction l as [|d t IH]; intros k ds H; cbn [carry_down] in H.
  - injection H as _ <-. constructor.
  - destruct (carry_down c t) as [[k' t']| | |] eqn:E; cbn [bind] in H; try discriminate H.
    destruct (i32_rel (d + k')) as (x & Ex & B). rewrite Ex in H. cbn [bind] in H.
    destruct (carry_of c x) as [[k2 d2]| | |] eqn:E2; cbn [bind] in H; try discriminate H.
    injection H as _ <-. constructor; [now apply (carry_of_dig x k2)|now apply (IH k')].
Qed.

Lemma div_fin v1 v2 s r : okv v1 -> okv v2 -> 0 <= s -> div_fast_common c v1 v2 s true = Ret (Some r) -> fin s r.
Proof using Hd.
  intros O1 O2 S H. unfold div_fast_common in H. rewrite !da in H. cbn [bind] in H.
  step H. destruct a; [discriminate H|]. destruct (ndigits v1 =? 0).
  { rewrite zs in H. cbn [bind] in H. injection H as <-. apply fin_zero. }
  step H. step H. destruct a0 as [k ds]. cbn [bind] in H. rewrite da in H. cbn [bind] in H.
  pose proof (carry_down_dig _ _ _ E1) as D. rewrite (map_as_i16 ds D) in H.
  step H. injection H as <-. apply strip_fin. refine (round_fin _ _ _ _ S E2).
  split; [exact D|]. cbn [sign]. destruct (sgn_eqb _ _); discriminate.
Qed.

(** ** Square root *)
Lemma sqrt_loop_ok fuel v x y s r : okv v -> okv x -> 0 <= s -> sqrt_loop c fuel v x y s = Ret r -> okv r.
Proof using Hd.
  intros V X S. revert x y X. induction fuel as [|f IH]; intros x y X H; cbn [sqrt_loop] in H; [discriminate H|].
  step H. destruct a as [a|]; cbn [expect bind] in H; [|discriminate H]. pose proof (fin_ok _ _ (div_fin _ _ _ _ V X S E)) as Oa.
  step H. pose proof (add_ok _ _ _ X Oa E0) as Oa0. step H.
  assert (Oh : okv ZERO_POINT_FIVE) by (split; [constructor; [unfold dig; lia|constructor]|discriminate]).
  pose proof (fin_ok _ _ (mul_fin _ _ _ _ Oa0 Oh S E1)) as Oa1. step H.
  destruct (a2 =? 0); [injection H as <-; exact Oa1|]. now apply (IH _ _ Oa1 H).
Qed.
Lemma sqrt_fin fuel v s r : okv v -> 0 <= s -> sqrt_common c fuel v s = Ret r -> fin s r.
Proof using Hd.
  intros V S H. unfold sqrt_common in H. rewrite da in H. cbn [bind] in H. destruct (ndigits v =? 0).
  { rewrite zs in H. injection H as <-. apply fin_zero. }
  step H. step H.
  assert (Oa : okv a).
  { unfold sqrt_guess in E. destruct (digits v) as [|d t] eqn:Ev; cbn in E; [discriminate E|]. injection E as <-.
    destruct V as [D _]. rewrite Ev in D. pose proof (Forall_inv D) as Dd. unfold dig in Dd.
    pose proof (Z.quot_pos d 2 ltac:(lia) ltac:(lia)). pose proof (Z.quot_le_upper_bound d 2 9999 ltac:(lia) ltac:(lia)).
    split; [|discriminate]. constructor; [|constructor]. unfold dig. destruct (Z.eqb_spec (Z.quot d 2) 0); lia. }
  apply (round_fin a0); [|exact S|exact H]. refine (sqrt_loop_ok fuel v a a (s + 8) a0 V Oa _ E0). lia.
Qed.

(** ** ln *)
Lemma ok_one : okv ONE. Proof using. split; [constructor; [unfold dig; lia|constructor]|discriminate]. Qed.
Lemma ok_two : okv TWO. Proof using. split; [constructor; [unfold dig; lia|constructor]|discriminate]. Qed.
Lemma ln_reduce_ok fuel sf keep x fact s p : okv x -> okv fact -> ln_reduce c fuel sf keep x fact s = Ret p -> okv (fst p) /\ okv (snd p).
Proof using Hd.
  revert x fact. induction fuel as [|f IH]; intros x fact X F H; cbn [ln_reduce] in H; [discriminate H|].
  step H. destruct a; [|injection H as <-; now split].
  step H. step H. change NUMERIC_MIN_DISPLAY_SCALE with 0 in E0.
  apply (IH a a0); [|exact (fin_ok _ _ (mul_fin _ _ _ _ F ok_two (Z.le_refl 0) E1))|exact H].
  refine (fin_ok _ _ (sqrt_fin _ _ _ _ X _ E0)). lia.
Qed.
Lemma ln_series_ok fuel res xx x ni s r : okv res -> okv xx -> okv x -> okv ni -> 0 <= s ->
  ln_series c fuel res xx x ni s = Ret r -> okv r.
Proof using Hd.
  intros R XX X N S. revert res xx ni R XX N. induction fuel as [|f IH]; intros res xx ni R XX N H; cbn [ln_series] in H; [discriminate H|].
  step H. step H. step H. destruct a1 as [e|]; cbn [expect bind] in H; [|discriminate H].
  pose proof (add_ok _ _ _ N ok_two E) as On. pose proof (fin_ok _ _ (mul_fin _ _ _ _ XX X S E0)) as Ox.
  pose proof (fin_ok _ _ (div_fin _ _ _ _ Ox On S E1)) as Oe.
  destruct (ndigits e =? 0); [injection H as <-; exact R|]. step H. pose proof (add_ok _ _ _ R Oe E2) as Or.
  destruct (weight e <? _); [injection H as <-; exact Or|]. now apply (IH _ _ _ Or Ox On H).
Qed.
Lemma ln_fin fuel v s r : okv v -> 0 <= s -> ln_common c fuel v s = Ret r -> fin s r.
Proof using Hd.
  intros V S H. unfold ln_common in H. rewrite da, Hd in H. cbn [bind] in H. step H. destruct a as [x fact]. cbn [bind] in H.
  destruct (ln_reduce_ok _ _ _ _ _ _ _ V ok_two E) as [Ox Of]. cbn [fst snd] in Ox, Of.
  step H. destruct a as [x2 fact2]. cbn [bind] in H. destruct (ln_reduce_ok _ _ _ _ _ _ _ Ox Of E0) as [Ox2 Of2]. cbn [fst snd] in Ox2, Of2.
  step H. step H. step H. destruct a1 as [q|]; cbn [expect bind] in H; [|discriminate H].
  pose proof (sub_ok _ _ _ Ox2 ok_one E1) as O1. pose proof (add_ok _ _ _ Ox2 ok_one E2) as O2.
  assert (S8 : 0 <= s + 8) by lia. pose proof (fin_ok _ _ (div_fin _ _ _ _ O1 O2 S8 E3)) as Oq.
  step H. step H. pose proof (fin_ok _ _ (mul_fin _ _ _ _ Oq Oq S8 E4)) as Oqq.
  pose proof (ln_series_ok _ _ _ _ _ _ _ Oq Oq Oqq ok_one S8 E5) as Or. exact (mul_fin _ _ _ _ Or Of2 S H).
Qed.

(** ** exp *)
Lemma exp_reduce_ok fuel val n tmp p : okv tmp -> 0 <= n -> exp_reduce c fuel val n tmp = Ret p -> 0 <= fst p /\ okv (snd p).
Proof using Hd.
  revert val n tmp. induction fuel as [|f IH]; intros val n tmp T N H; cbn [exp_reduce] in H; [discriminate H|].
  destruct (negb _); [|injection H as <-; now split]. step H. refine (IH _ _ _ (add_ok _ _ _ T T E) _ H). lia.
Qed.
Lemma exp_series_ok fuel res e x ni s r : okv res -> okv e -> okv x -> okv ni -> 0 <= s -> exp_series c fuel res e x ni s = Ret r -> okv r.
Proof using Hd.
  intros R E X N S. revert res e ni R E N. induction fuel as [|f IH]; intros res e ni R Oe N H; cbn [exp_series] in H; [discriminate H|].
  destruct (ndigits e =? 0); [injection H as <-; exact R|].
  step H. step H. step H. step H. destruct a2 as [q|]; cbn [expect bind] in H; [|discriminate H].
  pose proof (add_ok _ _ _ R Oe E) as Or. pose proof (fin_ok _ _ (mul_fin _ _ _ _ Oe X S E0)) as Om.
  pose proof (add_ok _ _ _ N ok_one E1) as On. pose proof (fin_ok _ _ (div_fin _ _ _ _ Om On S E2)) as Oq.
  now apply (IH _ _ _ Or Oq On H).
Qed.
Lemma exp_square_ok k res sig r : okv res -> exp_square c k res sig = Ret r -> okv r.
Proof using Hd.
  revert res. induction k as [|k IH]; intros res R H; cbn [exp_square] in H; [injection H as <-; exact R|].
  step H. refine (IH _ _ H). change NUMERIC_MIN_DISPLAY_SCALE with 0 in E. refine (fin_ok _ _ (mul_fin _ _ _ _ R R _ E)). lia.
Qed.
Lemma exp_fin m fuel v s r : okv v -> 0 <= dscale v -> 0 <= s -> exp_common c m fuel v s = Ret (Some r) -> fin s r.
Proof using Hd.
  intros V Sv S H. unfold exp_common in H. rewrite da in H. cbn [bind] in H. step H.
  destruct (Qle_bool 6000 _); [discriminate H|]. step H. destruct a0 as [n x]. cbn [bind] in H.
  assert (Ox : okv x).
  { destruct (negb _) in E0; [|injection E0 as _ <-; exact V]. step E0. destruct a0 as [n' tmp]. cbn [bind] in E0.
    destruct (exp_reduce_ok _ _ 1 _ _ ok_two Z.le_0_1 E1) as [N' Ot]. cbn [fst snd] in N', Ot.
    step E0. destruct a0 as [q|]; cbn [expect bind] in E0; [|discriminate E0]. injection E0 as <- <-.
    refine (fin_ok _ _ (div_fin _ _ _ _ V Ot _ E2)). lia. }
  match type of H with context [Z.max ?e 0 + 8] => set (sg := Z.max e 0 + 8) in * end.
  assert (S1 : 0 <= sg - 1) by (unfold sg; lia). clearbody sg.
  step H. step H. step H. destruct a2 as [q|]; cbn [expect bind] in H; [|discriminate H].
  pose proof (add_ok _ _ _ ok_one Ox E1) as O1. pose proof (fin_ok _ _ (mul_fin _ _ _ _ Ox Ox S1 E2)) as O2.
  pose proof (fin_ok _ _ (div_fin _ _ _ _ O2 ok_two S1 E3)) as O3.
  step H. pose proof (exp_series_ok _ _ _ _ _ _ _ O1 O3 Ox ok_two S1 E4) as O4.
  step H. pose proof (exp_square_ok _ _ _ _ O4 E5) as O5. step H. injection H as <-. exact (round_fin _ _ _ O5 S E6).
Qed.

(** ** pow *)
Lemma pow_loop_ok fuel mask sig b res r : okv b -> okv res -> pow_loop c fuel mask sig b res = Ret (PDone r) -> okv r.
Proof using Hd.
  revert mask b res. induction fuel as [|f IH]; intros mask b res B R H; cbn [pow_loop] in H; [discriminate H|].
  destruct (Z.shiftr mask 1 <=? 0); [injection H as <-; exact R|].
  change NUMERIC_MIN_DISPLAY_SCALE with 0 in H.
  step H. assert (Oa : okv a) by (refine (fin_ok _ _ (mul_fin _ _ _ _ B B _ E)); lia).
  step H. assert (Oa0 : okv a0).
  { destruct (Z.odd _) in E0; [|injection E0 as <-; exact R]. refine (fin_ok _ _ (mul_fin _ _ _ _ Oa R _ E0)). lia. }
  destruct (_ || _); [discriminate H|]. exact (IH _ _ _ Oa Oa0 H).
Qed.

Lemma one_fin s : 0 <= s -> fin s (set_dscale s ONE).
Proof using.
  intro S. split; [exact ok_one|]. split; [reflexivity|].
  change (vval (set_dscale s ONE)) with (vval ONE). apply (mult_ext _ 1%Q); [vm_compute; reflexivity|].
  apply (mult_ext _ (inject_Z 1)); [reflexivity|]. now apply mult_Z.
Qed.

Lemma power_int_fin m v e s r : stripped v -> 0 <= s <= 16383 -> power_int c m v e s = Ret (Some r) -> fin s r.
Proof using Hd.
  intros T Ss H. pose proof (stripped_ok v T) as V. assert (S : 0 <= s) by lia.
  unfold power_int in H. rewrite da in H. cbn [bind] in H.
  destruct (e =? 0); [injection H as <-; now apply one_fin|].
  destruct (e =? 1); [step H; injection H as <-; exact (round_fin _ _ _ V S E)|].
  destruct (e =? -1).
  { step H. destruct a as [q|]; cbn [expect bind] in H; [|discriminate H]. injection H as <-.
    destruct (div_common_spec c ONE v s true (proj1 ok_one) (proj1 V) (proj2 ok_one) (proj2 V) Ss (st_first v T)) as [A B].
    destruct (digits v) eqn:Ev; [rewrite (A eq_refl) in E; discriminate E|].
    destruct (B ltac:(discriminate)) as (r' & E' & T' & S' & V'). rewrite E in E'. injection E' as <-.
    split; [now apply stripped_ok|]. split; [exact S'|]. apply (mult_ext _ _ _ V'). apply mult_round; lia. }
  destruct (e =? 2); [step H; injection H as <-; exact (mul_fin _ _ _ _ V V S E)|].
  destruct (ndigits v =? 0); [step H; rewrite zs in H; cbn [bind] in H; injection H as <-; apply fin_zero|].
  step H. destruct (pow_digits _ _ _ _) as [f p]. destruct (negb _); [discriminate H|].
  destruct (_ || _); [rewrite zs in H; cbn [bind] in H; injection H as <-; apply fin_zero|].
  step H. step H. destruct a1 as [res|].
  - assert (Or : okv res).
    { apply (pow_loop_ok _ _ _ _ _ _ V) in E1; [exact E1|]. destruct (Z.odd a0); [exact V|exact ok_one]. }
    destruct (e <? 0).
    + step H. destruct a1 as [q|]; cbn [expect bind] in H; [|discriminate H]. injection H as <-. exact (div_fin _ _ _ _ ok_one Or S E2).
    + step H. injection H as <-. exact (round_fin _ _ _ Or S E2).
  - destruct (e <? 0); [|discriminate H]. step H. injection H as <-.
    refine (round_fin ZERO s _ _ S E2). split; [constructor|discriminate].
Qed.

Lemma clamp_range x : 0 <= clamp_scale x <= 1000.
Proof using. unfold clamp_scale. change NUMERIC_MIN_DISPLAY_SCALE with 0. change NUMERIC_MAX_DISPLAY_SCALE with 1000. lia. Qed.

Lemma power_common_fin m fuel v e r : stripped v -> stripped e -> power_common c m fuel v e = Ret (Some r) ->
  exists s, 0 <= s <= 1000 /\ fin s r.
Proof using Hd.
  intros T Te H. pose proof (stripped_ok v T) as V. pose proof (stripped_ok e Te) as Ve.
  unfold power_common in H. rewrite !da in H. cbn [bind] in H. step H. destruct a as [n|].
  { eexists. split; [apply clamp_range|]. refine (power_int_fin _ _ _ _ _ T _ H). pose proof (clamp_range (Z.max NUMERIC_MIN_SIG_DIGITS (dscale v))). lia. }
  step H. destruct (a =? 0); [rewrite zs in H; cbn [bind] in H; injection H as <-; exists 16; split; [lia|apply fin_zero]|].
  step H. step H. step H. step H. step H. destruct (negb _); [discriminate H|]. step H. step H. step H.
  eexists. split; [apply clamp_range|]. change NUMERIC_MIN_DISPLAY_SCALE with 0 in *.
  assert (F6 : fin (Z.max a5 0) a6) by (refine (ln_fin _ _ _ _ V _ E7); lia).
  assert (F7 : fin (Z.max a5 0) a7) by (refine (mul_fin _ _ _ _ (fin_ok _ _ F6) Ve _ E8); lia).
  destruct F7 as (O7 & S7 & _). refine (exp_fin _ _ _ _ _ O7 _ _ H); [rewrite S7; lia|apply clamp_range].
Qed.
Lemma pow_var_fin m fuel v e r : (is_nan v = false -> stripped v) -> (is_nan e = false -> stripped e) ->
  pow_var c m fuel v e = Ret (Some r) ->
  is_nan r = true \/ exists s, 0 <= s <= 1000 /\ fin s r.
Proof using Hd.
  intros T Te H. unfold pow_var in H. destruct (is_nan v).
  { step H. injection H as <-. destruct a; [right; exists 0; split; [lia|exact (one_fin 0 ltac:(lia))]|now left]. }
  destruct (is_nan e).
  { step H. injection H as <-. destruct (a =? 0); [right; exists 0; split; [lia|exact (one_fin 0 ltac:(lia))]|now left]. }
  specialize (T eq_refl). specialize (Te eq_refl).
  step H. step H. destruct (_ && _); [discriminate H|]. step H. step H. destruct (_ && _); [discriminate H|].
  right. exact (power_common_fin m fuel v e r T Te H).
Qed.

Lemma make_fin s r z : fin s r -> 0 <= s <= 16383 -> make_result c r = Ret (Some z) -> valid (be_varlen c) z.
Proof using.
  intros ([D N] & S & M) Ss H.
  assert (W : -32767 <= weight r /\ weight r <= 32767).
  { unfold make_result in H. step H. step H. change NUMERIC_WEIGHT_MAX with 32767 in H. change NUMERIC_WEIGHT_MIN with (-32767) in H.
    destruct (Z.ltb_spec 32767 (weight r)); [discriminate H|]. destruct (Z.ltb_spec (weight r) (-32767)); [discriminate H|]. lia. }
  destruct (make_result_spec c r (vval r) s D N S Ss (Qeq_refl _) M (proj1 W) (or_introl (proj2 W))) as (o & E & R).
  rewrite H in E. injection E as <-. apply (stores_valid _ z (vval r) s). now apply result_of_some.
Qed.
End Release.

(** ** At the API *)
Lemma le_ret A (a b : outcome A) r : le a b -> a = Ret r -> b = Ret r.
Proof. intros [[K|K]|[K|K]] E; rewrite E in K; try discriminate K. exact K. Qed.

Lemma exp_valid c m fuel x z : valid (be_varlen c) x -> num_exp c m fuel x = Ret (Some z) -> valid (be_varlen c) z.
Proof.
  intros V H. apply (le_ret _ _ _ _ (le_exp_n c m fuel x)) in H. change (be_varlen c) with (be_varlen (rel c)) in *.
  set (d := rel c) in *. assert (Hd : dbg d = false) by reflexivity. clearbody d.
  destruct V as [->|(q & s & S)].
  - unfold num_exp in H. rewrite nan_is_nan in H. cbn [bind] in H. rewrite nan_buf_spec in H. cbn [bind] in H. injection H as <-. now left.
  - destruct (stores_elim _ _ _ _ S) as (v & C & -> & _). pose proof (canon_storable v C) as St.
    unfold num_exp in H. rewrite (num_is_nan_spec d v St), (as_var_spec d v St) in H. cbn [bind] in H. step H.
    destruct a as [r|]; [|discriminate H]. cbn [make_result_opt] in H. unfold exp_var in E. rewrite da in E by exact Hd. cbn [bind] in E.
    step E. match type of E with exp_common _ _ _ _ (clamp_scale ?e) = _ => pose proof (clamp_range e) as R; set (rs := clamp_scale e) in * end.
    pose proof (cn_scale v C) as Sc.
    apply (make_fin d rs r z); [|lia|exact H]. apply (exp_fin d Hd m fuel v rs r); [apply stripped_ok, C|lia|lia|exact E].
Qed.

Lemma pow_valid c m fuel x e z : valid (be_varlen c) x -> valid (be_varlen c) e -> num_pow c m fuel x e = Ret (Some z) -> valid (be_varlen c) z.
Proof.
  intros V Ve H. apply (le_ret _ _ _ _ (le_pow_n c m fuel x e)) in H. change (be_varlen c) with (be_varlen (rel c)) in *.
  set (d := rel c) in *. assert (Hd : dbg d = false) by reflexivity. clearbody d.
  assert (A : forall y, valid (be_varlen d) y -> exists v, as_var d y = Ret v /\ (is_nan v = false -> stripped v)).
  { intros y [->|(q & s & S)].
    - exists nan_var. split; [apply nan_as_var|]. intro K. discriminate K.
    - destruct (stores_elim _ _ _ _ S) as (v & C & -> & _). exists v. split; [apply as_var_spec, canon_storable, C|]. intros _. apply C. }
  destruct (A x V) as (v & Ev & Tv). destruct (A e Ve) as (w & Ew & Tw).
  unfold num_pow in H. rewrite Ev, Ew in H. cbn [bind] in H. step H. destruct a as [r|]; [|discriminate H].
  destruct (pow_var_fin d Hd m fuel v w r Tv Tw E) as [N|(s & Rs & F)].
  - rewrite N, nan_buf_spec in H. cbn [bind] in H. injection H as <-. now left.
  - assert (Nr : is_nan r = false) by (destruct F as [[_ K] _]; unfold is_nan; destruct (sign r); [reflexivity|reflexivity|congruence]).
    rewrite Nr in H. apply (make_fin d s r z F); [lia|exact H].
Qed.
