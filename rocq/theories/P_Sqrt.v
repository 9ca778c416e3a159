(** * Property theorems: fast division (C54) and square root (C48, C49, C55, C57, C58).

    [fuel] is the number of Newton iterations the model may use; a call that needs more is
    [Diverge], and [C57_fuel_irrelevant] shows that the bound has no other influence. *)
From Coq Require Import ZArith QArith Qabs List Bool Lia Lqa.
From Verif Require Import Base Var Binary Num Flt Transc Spec SpecRoot Digits DivFast SqrtConv SqrtLoop SqrtTiny SqrtEnd Samples.
Import ListNotations.
Open Scope Z_scope.

(** C54: the internal fast division. [stripped] operands are normalized (no leading or trailing zero
    digit); [df_bounds] holds of every pair a stored numeric can lead to; the result is the rounding
    of a number within 10^-9 units of the last requested place of the quotient. *)
Theorem C54_fast_division : forall c v1 v2 rscale,
  stripped v1 -> stripped v2 -> digits v1 <> [] -> digits v2 <> [] -> df_bounds v1 v2 rscale ->
  (exists r, div_fast_common c v1 v2 rscale true = Ret (Some r) /\ stripped r /\ dscale r = rscale /\
     nearly_rounded (vval v1 / vval v2) rscale (vval r)) \/
  (dbg c = true /\ 21 < ndigits v2 /\ div_fast_common c v1 v2 rscale true = Panic WArith).
Proof. exact div_fast_spec. Qed.
Print Assumptions C54_fast_division.

Example C54_applies : stripped (Var 0 0 SPos [22]) /\ stripped (Var 0 0 SPos [7]) /\
  df_bounds (Var 0 0 SPos [22]) (Var 0 0 SPos [7]) 5 /\
  div_fast_common dbgc (Var 0 0 SPos [22]) (Var 0 0 SPos [7]) 5 true = Ret (Some (Var 0 5 SPos [3; 1428; 6000])).
Proof.
  split; [|split; [|split]].
  - constructor; cbn; try discriminate.
    + repeat constructor; discriminate.
    + intros d t E. injection E as <- _. discriminate.
    + last_nz.
  - constructor; cbn; try discriminate.
    + repeat constructor; discriminate.
    + intros d t E. injection E as <- _. discriminate.
    + last_nz.
  - unfold df_bounds. cbn [ndigits digits lenz weight length]. unfold ndigits, lenz. cbn. lia.
  - vm_compute. reflexivity.
Qed.

(** C48: special operands *)
Theorem C48_sqrt_special : forall c fuel,
  num_sqrt c fuel (nan_layout (be_varlen c)) = Ret (nan_layout (be_varlen c)) /\
  (forall n, canonical n -> (value n < 0)%Q -> num_sqrt c fuel (layout (be_varlen c) n) = Panic (WMsg MSqrtNeg)) /\
  (forall n, canonical n -> (value n == 0)%Q ->
     exists r, num_sqrt c fuel (layout (be_varlen c) n) = Ret r /\ stores (be_varlen c) r 0 (root_scale n)).
Proof. exact sqrt_special. Qed.
Print Assumptions C48_sqrt_special.

(** C48: no panic from 10^-2016 on; in a debug build below 10^32 with at most 56 decimals *)
Theorem C48_sqrt_no_panic : forall c fuel n, canonical n -> (ten ^ (-2016) <= value n)%Q ->
  dbg c = false \/ ((value n < ten ^ 32)%Q /\ scale n <= 56) ->
  num_sqrt c fuel (layout (be_varlen c) n) = Diverge \/ exists r, num_sqrt c fuel (layout (be_varlen c) n) = Ret r.
Proof. exact sqrt_no_panic. Qed.
Print Assumptions C48_sqrt_no_panic.

Theorem C48_sqrt_release_outcomes : forall be fuel n, canonical n -> (0 < value n)%Q ->
  let o := num_sqrt (Cfg false be) fuel (layout be n) in
  o = Diverge \/ (exists r, o = Ret r) \/ (o = Panic (WMsg MShouldNotBeZero) /\ (value n < ten ^ (-2016))%Q).
Proof. exact sqrt_release_outcomes. Qed.
Print Assumptions C48_sqrt_release_outcomes.

(** C49: a returned root is the stored number of the prescribed scale within half a unit of its
    last place (and 2 hundred-millionths) of the true root. *)
Theorem C49_sqrt_accurate : forall c fuel n r, canonical n -> (0 < value n)%Q ->
  num_sqrt c fuel (layout (be_varlen c) n) = Ret r ->
  exists q, stores (be_varlen c) r q (root_scale n) /\ close_root (value n) q (root_error (root_scale n)).
Proof. exact sqrt_accurate. Qed.
Print Assumptions C49_sqrt_accurate.

(** C49: perfect squares terminate, exactly *)
Theorem C49_sqrt_square : forall c n b, canonical n -> (0 < b)%Q -> (value n == b * b)%Q ->
  (exists k : Z, (b * ten ^ root_scale n == inject_Z k)%Q) ->
  dbg c = false \/ ((value n < ten ^ 32)%Q /\ scale n <= 56) ->
  exists k, forall fuel, (k <= fuel)%nat ->
  exists r, num_sqrt c fuel (layout (be_varlen c) n) = Ret r /\ stores (be_varlen c) r b (root_scale n).
Proof. exact sqrt_square. Qed.
Print Assumptions C49_sqrt_square.

Theorem C49_sqrt_square_exact : forall c fuel n b r, canonical n -> (0 < b)%Q -> (value n == b * b)%Q ->
  (exists k : Z, (b * ten ^ root_scale n == inject_Z k)%Q) ->
  num_sqrt c fuel (layout (be_varlen c) n) = Ret r -> stores (be_varlen c) r b (root_scale n).
Proof. exact sqrt_square_exact. Qed.
Print Assumptions C49_sqrt_square_exact.

(** 2.25 *)
Definition n_sq : number := Number false 0 2 [2; 2500].
Lemma n_sq_canonical : canonical n_sq.
Proof. canonical_tac n_sq 225. Qed.

Example C49_applies : canonical n_sq /\ (0 < 3 # 2)%Q /\ (value n_sq == (3 # 2) * (3 # 2))%Q /\
  (exists k : Z, ((3 # 2) * ten ^ root_scale n_sq == inject_Z k)%Q) /\
  ((value n_sq < ten ^ 32)%Q /\ scale n_sq <= 56) /\ (ten ^ (-2016) <= value n_sq)%Q /\
  num_sqrt dbgc 20 (sample n_sq) = Ret (sample (Number false 0 15 [1; 5000])).
Proof.
  split; [exact n_sq_canonical|]. split; [reflexivity|]. split; [vm_compute; reflexivity|].
  split; [exists 1500000000000000; vm_compute; reflexivity|].
  split; [split; [vm_compute; reflexivity|cbn; lia]|].
  split; [|vm_compute; reflexivity].
  apply (Qle_trans _ 1); [|vm_compute; discriminate]. change 1%Q with (ten ^ 0)%Q. apply (QDec.p10_le (-2016) 0). lia.
Qed.

(** C55: in a debug build no overflow below 10^32 with at most 56 decimals *)
Theorem C55_sqrt_debug_small : forall c fuel n, canonical n -> (value n < ten ^ 32)%Q -> scale n <= 56 ->
  num_sqrt c fuel (layout (be_varlen c) n) <> Panic WArith.
Proof. exact sqrt_debug_small. Qed.
Print Assumptions C55_sqrt_debug_small.

(** C55: in a debug build the root of 19710.9711...9710 (100 decimals) panics with an arithmetic
    overflow, in the fast division. *)
Theorem C55_sqrt_debug_overflow_refuted :
  exists n, canonical n /\ (0 < value n)%Q /\
    forall be fuel, num_sqrt (Cfg true be) (2 + fuel) (layout be n) = Panic WArith.
Proof. exists n_ovf. split; [exact n_ovf_canonical|]. split; [|exact sqrt_ovf].
  rewrite vval_value. apply pos_ok. vm_compute. reflexivity. Qed.
Print Assumptions C55_sqrt_debug_overflow_refuted.

(** C57: a call ends within 270000 iterations, unless the root, in units of the eighth decimal beyond the
    scale of the result, is within 10^-9 of an integer and a quarter *)
Theorem C57_sqrt_terminates : forall c fuel n, canonical n -> ~ near_quarter n -> 270000 <= Z.of_nat fuel ->
  num_sqrt c fuel (layout (be_varlen c) n) <> Diverge.
Proof. exact sqrt_terminates. Qed.
Print Assumptions C57_sqrt_terminates.

(** the hypothesis is met: the root of two, 141421356237309504880168.87... units *)
Definition n_two : number := Number false 0 0 [2].
Lemma n_two_canonical : canonical n_two. Proof. canonical_tac n_two 2. Qed.
Example two_ends : canonical n_two /\ ~ near_quarter n_two.
Proof.
  split; [exact n_two_canonical|]. intros (k & K & H). cbv zeta in H.
  assert (E : (value n_two * ten ^ (root_scale n_two + 8) * ten ^ (root_scale n_two + 8) == inject_Z (2 * 10 ^ 46))%Q) by (vm_compute; reflexivity).
  rewrite E in H. destruct H as [H1 H2].
  assert (Z1 : (1000000000 * k + 249999999) * (1000000000 * k + 249999999) <= 2 * 10 ^ 46 * 10 ^ 18).
  { rewrite Zle_Qle, !inject_Z_mult, !inject_Z_plus, !inject_Z_mult. change (inject_Z 1000000000) with (1000000000 # 1)%Q. change (inject_Z 249999999) with (249999999 # 1)%Q.
    rewrite inject_Z_mult in H1. change (inject_Z (10 ^ 18)) with (1000000000000000000 # 1)%Q.
    set (b := (inject_Z 2 * inject_Z (10 ^ 46))%Q) in *. clearbody b. lra. }
  assert (Z2 : 2 * 10 ^ 46 * 10 ^ 18 <= (1000000000 * k + 250000001) * (1000000000 * k + 250000001)).
  { rewrite Zle_Qle, !inject_Z_mult, !inject_Z_plus, !inject_Z_mult. change (inject_Z 1000000000) with (1000000000 # 1)%Q. change (inject_Z 250000001) with (250000001 # 1)%Q.
    rewrite inject_Z_mult in H2. change (inject_Z (10 ^ 18)) with (1000000000000000000 # 1)%Q.
    set (b := (inject_Z 2 * inject_Z (10 ^ 46))%Q) in *. clearbody b. lra. }
  clear -K Z1 Z2. destruct (Z_le_gt_dec k 141421356237309504880168) as [G|G].
  - assert ((1000000000 * k + 250000001) * (1000000000 * k + 250000001) <= (1000000000 * 141421356237309504880168 + 250000001) * (1000000000 * 141421356237309504880168 + 250000001))
      by (apply Z.mul_le_mono_nonneg; lia). lia.
  - assert ((1000000000 * 141421356237309504880169 + 249999999) * (1000000000 * 141421356237309504880169 + 249999999) <= (1000000000 * k + 249999999) * (1000000000 * k + 249999999))
      by (apply Z.mul_le_mono_nonneg; lia). lia.
Qed.
Example two_runs : num_sqrt dbgc 20 (sample n_two) = Ret (sample (Number false 0 15 [1; 4142; 1356; 2373; 950])).
Proof. vm_compute. reflexivity. Qed.

(** C57: no number of iterations is enough for 43559999999999999999.9999901. *)
Theorem C57_sqrt_terminates_refuted :
  exists n, canonical n /\ (value n == 435599999999999999999999901 # 10000000)%Q /\
    forall c fuel, num_sqrt c fuel (layout (be_varlen c) n) = Diverge.
Proof. exists n_osc. split; [exact n_osc_canonical|]. split; [exact n_osc_value|exact sqrt_osc]. Qed.
Print Assumptions C57_sqrt_terminates_refuted.

(** and its root is 6599999999999999999999999.25 units, less 10^-25 *)
Example osc_near_quarter : near_quarter n_osc.
Proof.
  exists 6599999999999999999999999. split; [discriminate|]. cbv zeta.
  assert (E : (value n_osc * ten ^ (root_scale n_osc + 8) * ten ^ (root_scale n_osc + 8) == inject_Z 43559999999999999999999990100000000000000000000000)%Q) by (rewrite vval_value; vm_compute; reflexivity).
  rewrite E. split; vm_compute; discriminate.
Qed.

(** C57: with more iterations than needed nothing changes *)
Theorem C57_fuel_irrelevant : forall c f f' n x, canonical n -> (0 < value n)%Q -> (f <= f')%nat ->
  num_sqrt c f (layout (be_varlen c) n) = x -> x <> Diverge -> num_sqrt c f' (layout (be_varlen c) n) = x.
Proof. exact sqrt_more_fuel. Qed.
Print Assumptions C57_fuel_irrelevant.

(** C58: 10^-4000 panics, in every build, with an internal error message *)
Theorem C58_sqrt_tiny_refuted :
  exists n, canonical n /\ (value n == ten ^ (-4000))%Q /\
    forall c fuel, num_sqrt c (2 + fuel) (layout (be_varlen c) n) = Panic (WMsg MShouldNotBeZero).
Proof. exists n_tiny. split; [exact n_tiny_canonical|]. split; [exact n_tiny_value|exact sqrt_tiny]. Qed.
Print Assumptions C58_sqrt_tiny_refuted.

(** C58, exactly: below 10^-2020 every call panics; from there to 10^-2016 every call returns 0.000... with
    1000 decimals (C48_sqrt_no_panic takes over from there). *)
Theorem C58_sqrt_tiny : forall c fuel n, canonical n -> (0 < value n)%Q ->
  ((value n < ten ^ (-2020))%Q -> 2 <= Z.of_nat fuel -> num_sqrt c fuel (layout (be_varlen c) n) = Panic (WMsg MShouldNotBeZero)) /\
  ((ten ^ (-2020) <= value n < ten ^ (-2016))%Q -> 5000 <= Z.of_nat fuel ->
     exists r, num_sqrt c fuel (layout (be_varlen c) n) = Ret r /\ stores (be_varlen c) r 0 1000).
Proof. exact sqrt_tiny_exact. Qed.
Print Assumptions C58_sqrt_tiny.
