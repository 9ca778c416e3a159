(** * Property theorem: every numeric a sequence of calls can produce is canonical (C03) *)
From Coq Require Import ZArith QArith List Bool Lia.
From Verif Require Import Base Binary Parse Typmod Convert Num Transc Float Spec SpecLn ConvertApi Reach Samples.
Import ListNotations.
Open Scope Z_scope.

(** C03: [reachable c m pf] closes the constructors (parsing, integer and float conversion, constants, factorial,
    deserialization of serialized numerics) under every modelled operation, pure or in place, including what an in-place
    operation leaves behind when it panics, and including sqrt, ln, log, exp and pow whatever their [fuel];
    [layout] / [nan_layout] are the documented byte layouts and [canonical] the documented normal form. Nothing is
    assumed of the platform except, for log's scale selection, that f64::ln and f64::log10 are right to 10^-9; log is
    taken to bases that are one or not within 10^-1980 of one. *)
Theorem C03_reachable_canonical : forall c m pf x, logs_near (f_log10 m) (f_ln m) -> reachable c m pf x ->
  x = nan_layout (be_varlen c) \/ exists n, canonical n /\ x = layout (be_varlen c) n.
Proof. exact reachable_canonical. Qed.
Print Assumptions C03_reachable_canonical.

(** Non-vacuity: 1000 / 3 rounded to -1 places, minus its own clone with the sign flipped. *)
Definition c03_x : bytes := match num_from_signed dbgc 32 1000 with Ret x => x | _ => [] end.
Definition c03_y : bytes := match num_from_unsigned dbgc 8 3 with Ret x => x | _ => [] end.
Definition c03_q : bytes := match op_div dbgc c03_x c03_y with Ret x => x | _ => [] end.
Definition c03_r : bytes := match num_round dbgc c03_q (-1) with Ret x => x | _ => [] end.
Definition c03_m : bytes := match negate_mut dbgc (Some c03_r) with (_, Some x) => x | _ => [] end.
Example C03_case : forall m pf, reachable dbgc m pf (match op_sub dbgc c03_q c03_m with Ret x => x | _ => [] end).
Proof.
  intros m pf. assert (X : reachable dbgc m pf c03_x).
  { apply (r_signed dbgc m pf 32 1000); [unfold int_width; tauto|change (2 ^ (32 - 1)) with 2147483648; lia|vm_compute; reflexivity]. }
  assert (Y : reachable dbgc m pf c03_y).
  { apply (r_unsigned dbgc m pf 8 3); [unfold int_width; tauto|change (2 ^ 8) with 256; lia|vm_compute; reflexivity]. }
  assert (Q : reachable dbgc m pf c03_q).
  { apply (r_operator dbgc m pf op_div c03_x c03_y); [cbn; tauto|exact X|exact Y|vm_compute; reflexivity]. }
  assert (R : reachable dbgc m pf c03_r).
  { apply (r_scaled dbgc m pf num_round c03_q (-1)); [cbn; tauto|exact Q|vm_compute; reflexivity]. }
  assert (M : reachable dbgc m pf c03_m).
  { apply (r_mut dbgc m pf negate_mut c03_r (Ret tt)); [cbn; tauto|exact R|vm_compute; reflexivity]. }
  apply (r_operator dbgc m pf op_sub c03_q c03_m); [cbn; tauto|exact Q|exact M|vm_compute; reflexivity].
Qed.

(** and the square root of 1000 / 3 *)
Definition c03_s : bytes := match num_sqrt dbgc 40 c03_q with Ret x => x | _ => [] end.
Example C03_sqrt_case : forall m pf, reachable dbgc m pf c03_q -> reachable dbgc m pf c03_s.
Proof. intros m pf Q. apply (r_sqrt dbgc m pf 40 c03_q); [exact Q|vm_compute; reflexivity]. Qed.
