(** * Property theorems: sign, increment, rounding (C16 - C19) *)
From Coq Require Import ZArith QArith Qabs Qround List Bool Lia.
From Verif Require Import Base Var Binary Num Spec SpecApi Api1 Laws Samples.
Import ListNotations.
Open Scope Z_scope.

(** C16 *)
Theorem C16_negate : forall c x q s, stores (be_varlen c) x q s ->
  exists y, num_negate c x = Ret y /\ stores (be_varlen c) y (- q) s.
Proof. exact num_negate_spec. Qed.
Print Assumptions C16_negate.

Theorem C16_negate_involution : forall c x, valid (be_varlen c) x ->
  (y <- num_negate c x ;; num_negate c y) = Ret x.
Proof. exact negate_involution. Qed.
Print Assumptions C16_negate_involution.

Theorem C16_abs : forall c x q s, stores (be_varlen c) x q s ->
  exists y, num_abs c x = Ret y /\ stores (be_varlen c) y (Qabs q) s.
Proof. exact num_abs_spec. Qed.
Print Assumptions C16_abs.

Theorem C16_signum : forall c x q s, stores (be_varlen c) x q s ->
  exists y, num_signum c x = Ret y /\
    stores (be_varlen c) y (inject_Z (match Qcompare q 0 with Lt => -1 | Eq => 0 | Gt => 1 end)) 0.
Proof. exact num_signum_spec. Qed.
Print Assumptions C16_signum.

Theorem C16_inc : forall c x q s, stores (be_varlen c) x q s ->
  result_or_panic (be_varlen c) (q + 1) s (num_inc c x).
Proof. exact num_inc_spec. Qed.
Print Assumptions C16_inc.

(** C17 *)
Theorem C17_round : forall c x q s k, stores (be_varlen c) x q s ->
  result_or_panic (be_varlen c) (round_at q (clamp k)) (Z.max 0 (clamp k)) (num_round c x k).
Proof. exact num_round_spec. Qed.
Print Assumptions C17_round.

(** C18 *)
Theorem C18_trunc : forall c x q s k, stores (be_varlen c) x q s ->
  exists y, num_trunc c x k = Ret y /\ stores (be_varlen c) y (trunc_at q (clamp k)) (Z.max 0 (clamp k)).
Proof. exact num_trunc_spec. Qed.
Print Assumptions C18_trunc.

(** C19 *)
Theorem C19_ceil : forall c x q s, stores (be_varlen c) x q s ->
  result_or_panic (be_varlen c) (inject_Z (Qceiling q)) 0 (num_ceil c x).
Proof. exact num_ceil_spec. Qed.
Print Assumptions C19_ceil.

Theorem C19_floor : forall c x q s, stores (be_varlen c) x q s ->
  result_or_panic (be_varlen c) (inject_Z (Qfloor q)) 0 (num_floor c x).
Proof. exact num_floor_spec. Qed.
Print Assumptions C19_floor.

(** ** Non-vacuity *)
Example round_case : stores false (sample n_c) (value n_c) 1 /\
  num_round dbgc (sample n_c) 0 = Ret (sample (Number false 1 0 [1])) /\
  num_trunc dbgc (sample n_c) 0 = Ret (sample (Number false 0 0 [9999])) /\
  num_ceil dbgc (sample n_a) = Ret (sample (Number true 1 0 [1; 2345])) /\
  num_floor dbgc (sample n_a) = Ret (sample (Number true 1 0 [1; 2346])) /\
  num_round dbgc (sample n_a) (-2) = Ret (sample (Number true 1 0 [1; 2300])).
Proof. split; [exact (sample_stores n_c n_c_canonical)|]. repeat split. Qed.
