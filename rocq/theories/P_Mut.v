(** * Property theorems: in-place operations, type modifiers, copies (C21 - C25, C43, C44, C46) *)
From Coq Require Import ZArith QArith Qabs Qpower List Bool Lia.
From Verif Require Import Base Var Binary Parse Typmod Num Spec SpecApi SpecSerde Api2 Api4 Mut Exact Serde Samples.
Import ListNotations.
Open Scope Z_scope.

(** C21 *)
Theorem C21_apply_typmod : forall c x q s p sc t,
  stores (be_varlen c) x q s -> typmod_new c p sc = Ret (Some t) ->
  ((Qabs (round_at q sc) < limit)%Q ->
     exists b y, apply_typmod c (Some x) t = (Ret b, Some y) /\ stores (be_varlen c) y (round_at q sc) sc /\
       (b = true <-> (ten ^ (p - sc) <= Qabs (round_at q sc))%Q)) /\
  ((limit <= Qabs (round_at q sc))%Q -> apply_typmod c (Some x) t = (Ret true, None)).
Proof. exact apply_typmod_spec. Qed.
Print Assumptions C21_apply_typmod.

Theorem C21_apply_typmod_default : forall c x q s, stores (be_varlen c) x q s ->
  apply_typmod c (Some x) typmod_default = (Ret false, Some x).
Proof. exact apply_typmod_default_spec. Qed.
Print Assumptions C21_apply_typmod_default.

(** C22 is false: numeric(5,2) applied to NaN gives 0.00 in release builds and panics, leaving
    no value, in debug builds. *)
Theorem C22_refuted : exists t x z, typmod_new relc 5 2 = Ret (Some t) /\ stores_nan false x /\
  stores false z 0 2 /\
  apply_typmod relc (Some x) t = (Ret false, Some z) /\
  apply_typmod dbgc (Some x) t = (Panic WAssert, None).
Proof.
  exists 327686, (nan_layout false), (sample n_zero_two). split; [reflexivity|]. split; [reflexivity|].
  split; [exact (sample_stores n_zero_two n_zero_two_canonical)|].
  split; vm_compute; reflexivity.
Qed.
Print Assumptions C22_refuted.

(** C22, exactly: for every type modifier and for the default one, NaN is replaced by a zero at the
    modifier's scale in release builds; debug builds panic and lose the buffer. *)
Theorem C22_typmod_nan : forall c (x : bytes) t, stores_nan (be_varlen c) x ->
  ((exists p sc, typmod_new c p sc = Ret (Some t)) \/ t = typmod_default) ->
  (dbg c = true -> apply_typmod c (Some x) t = (Panic WAssert, None)) /\
  (dbg c = false -> exists y s, apply_typmod c (Some x) t = (Ret false, Some y) /\ stores (be_varlen c) y 0 s /\
     (forall p sc, typmod_new c p sc = Ret (Some t) -> s = sc) /\ (t = typmod_default -> s = 0)).
Proof. exact typmod_nan. Qed.
Print Assumptions C22_typmod_nan.

(** C23 is false: rounding in place a value that overflows loses the buffer; [apply_typmod]
    even returns normally, leaving a null pointer behind. *)
Theorem C23_refuted : exists x t, forall dbg be, let c := Cfg dbg be in
  stores be (x be) (limit - (1 # 2)) 1 /\
  round_mut c (Some (x be)) 0 = (Panic (WMsg MOverflow), None) /\
  apply_typmod c (Some (x be)) t = (Ret true, None).
Proof. exact lost_exists. Qed.
Print Assumptions C23_refuted.

(** What does hold: every other case leaves a valid numeric. *)
Theorem C23_usable : forall c x k, valid (be_varlen c) x ->
  (exists y, negate_mut c (Some x) = (Ret tt, Some y) /\ valid (be_varlen c) y) /\
  (exists y, abs_mut c (Some x) = (Ret tt, Some y) /\ valid (be_varlen c) y) /\
  (exists y, trunc_mut c (Some x) k = (Ret tt, Some y) /\ valid (be_varlen c) y) /\
  ((exists y, round_mut c (Some x) k = (Ret tt, Some y) /\ valid (be_varlen c) y) \/
   (fst (round_mut c (Some x) k) = Panic (WMsg MOverflow) /\
    exists q s, stores (be_varlen c) x q s /\ (limit <= Qabs (round_at q (clamp k)))%Q)).
Proof. exact mut_usable. Qed.
Print Assumptions C23_usable.

(** C23, exactly: which calls lose the buffer ([None] afterwards: using or dropping it is undefined
    behaviour). Never negate_mut, abs_mut, trunc_mut; round_mut and apply_typmod exactly when the rounded
    magnitude does not fit, and apply_typmod also on NaN in debug builds. *)
Theorem C23_lost_exactly : forall c (x : bytes) k, valid (be_varlen c) x ->
  snd (negate_mut c (Some x)) <> None /\ snd (abs_mut c (Some x)) <> None /\ snd (trunc_mut c (Some x) k) <> None /\
  (snd (round_mut c (Some x) k) = None <-> exists q s, stores (be_varlen c) x q s /\ (limit <= Qabs (round_at q (clamp k)))%Q) /\
  (forall p sc t, typmod_new c p sc = Ret (Some t) ->
     (snd (apply_typmod c (Some x) t) = None <->
        (stores_nan (be_varlen c) x /\ dbg c = true) \/
        (exists q s, stores (be_varlen c) x q s /\ (limit <= Qabs (round_at q sc))%Q))).
Proof. exact lost_exactly. Qed.
Print Assumptions C23_lost_exactly.

Theorem C23_round_mut : forall c (x : bytes) q s k, stores (be_varlen c) x q s ->
  ((Qabs (round_at q (clamp k)) < limit)%Q -> exists y, round_mut c (Some x) k = (Ret tt, Some y) /\
      stores (be_varlen c) y (round_at q (clamp k)) (Z.max 0 (clamp k))) /\
  ((limit <= Qabs (round_at q (clamp k)))%Q -> round_mut c (Some x) k = (Panic (WMsg MOverflow), None)).
Proof. exact round_mut_num. Qed.
Print Assumptions C23_round_mut.

(** C24 *)
Theorem C24_in_place : forall c x k, valid (be_varlen c) x ->
  (forall y, num_negate c x = Ret y <-> negate_mut c (Some x) = (Ret tt, Some y)) /\
  (forall y, num_abs c x = Ret y <-> abs_mut c (Some x) = (Ret tt, Some y)) /\
  (forall y, num_trunc c x k = Ret y <-> trunc_mut c (Some x) k = (Ret tt, Some y)) /\
  (forall y, num_round c x k = Ret y <-> round_mut c (Some x) k = (Ret tt, Some y)) /\
  (forall w, num_round c x k = Panic w <-> fst (round_mut c (Some x) k) = Panic w) /\
  op_neg_owned c x = num_negate c x.
Proof. exact mut_agrees. Qed.
Print Assumptions C24_in_place.

(** [op] is any of +, -, *, /, %; a failing assignment leaves the left operand as it was. *)
Theorem C24_assignment : forall c x y op,
  (forall r, op c x y = Ret r <-> op_assign op c (Some x) y = (Ret tt, Some r)) /\
  (forall w, op c x y = Panic w <-> op_assign op c (Some x) y = (Panic w, Some x)).
Proof. exact assign_agrees. Qed.
Print Assumptions C24_assignment.

(** C25 *)
Theorem C25_typmod_domain : forall c p s,
  ((exists t, typmod_new c p s = Ret (Some t)) <-> (1 <= p <= 1000 /\ 0 <= s <= p)) /\
  (exists o, typmod_new c p s = Ret o).
Proof. exact (fun c p s => conj (typmod_new_iff c p s) (typmod_new_total c p s)). Qed.
Print Assumptions C25_typmod_domain.

Theorem C25_typmod_round_trip : forall c1 c2 p s p' s' t t',
  typmod_new c1 p s = Ret (Some t) -> typmod_new c2 p' s' = Ret (Some t') ->
  4 <= t /\ typmod_extract c1 t = Ret (p, s) /\ (t = t' -> p = p' /\ s = s').
Proof. exact typmod_unique. Qed.
Print Assumptions C25_typmod_round_trip.

(** C43, binary formats *)
Theorem C43_serde_bytes : forall c x, valid (be_varlen c) x ->
  deserialize_bytes c (serialize_bytes x) = Ret x.
Proof. exact deserialize_copies. Qed.
Print Assumptions C43_serde_bytes.

(** C44 is false: the six bytes of a header that announces one digit more than there is. *)
Theorem C44_refuted : exists x, lenz x = 6 /\ Forall (fun b => 0 <= b < 256) x /\
  deserialize_bytes relc x = UB.
Proof.
  exists [32; 0; 0; 0; 0; 128]. split; [reflexivity|].
  split; [repeat (apply Forall_cons; [lia|]); apply Forall_nil|]. vm_compute. reflexivity.
Qed.
Print Assumptions C44_refuted.

(** C44, exactly. In a release build any byte string that does not contain the bytes its own length prefix and
    header announce leads to undefined behaviour (a read outside the string, or a slice of a wrapped
    length); every other one gives a consistent buffer. Debug builds check the length prefix first. *)
Theorem C44_deserialize_release : forall c x, dbg c = false -> Forall is_byte x -> lenz x < 2 ^ 30 - 8 ->
  (all_there (be_varlen c) x ->
     exists y, deserialize_bytes c x = Ret y /\ declared_len (be_varlen c) y = lenz y /\ all_there (be_varlen c) y) /\
  (~ all_there (be_varlen c) x -> deserialize_bytes c x = UB).
Proof. exact deserialize_release. Qed.
Print Assumptions C44_deserialize_release.

Theorem C44_deserialize_debug : forall c x, dbg c = true -> Forall is_byte x -> lenz x < 2 ^ 30 - 8 ->
  (lenz x < 4 -> deserialize_bytes c x = UB) /\
  (4 <= lenz x -> declared_len (be_varlen c) x <> lenz x -> deserialize_bytes c x = Panic WAssert) /\
  (4 <= lenz x < 6 -> declared_len (be_varlen c) x = lenz x -> deserialize_bytes c x = UB) /\
  (6 <= lenz x -> declared_len (be_varlen c) x = lenz x ->
     (exists y, deserialize_bytes c x = Ret y /\ declared_len (be_varlen c) y = lenz y /\ all_there (be_varlen c) y) \/
     (deserialize_bytes c x = Panic WArith /\ lenz x < 8)).
Proof. exact deserialize_debug. Qed.
Print Assumptions C44_deserialize_debug.

(** 12345.678 negative is consistent; the six bytes of C44_refuted are not. *)
Example C44_applies : all_there false (sample n_a) /\ ~ all_there false [32; 0; 0; 0; 0; 128].
Proof.
  split; [split; [vm_compute; discriminate|right; split; vm_compute; discriminate]|].
  intros [_ [H|[_ H]]]; [vm_compute in H; discriminate|vm_compute in H; now apply H].
Qed.

(** C46 is false in debug builds: zero times zero with scales summing to 16384. *)
Theorem C46_refuted : exists x y, stores false x 0 16383 /\ stores false y 0 1 /\
  checked_mul dbgc x y = Panic WAssert /\ checked_mul relc x y = Ret None.
Proof.
  exists (sample n_zero_max), (sample n_zero_one).
  split; [exact (sample_stores n_zero_max n_zero_max_canonical)|].
  split; [exact (sample_stores n_zero_one n_zero_one_canonical)|]. split; vm_compute; reflexivity.
Qed.
Print Assumptions C46_refuted.

(** C46, exactly *)
Theorem C46_mul_zero : forall c x y q1 s1 q2 s2,
  stores (be_varlen c) x q1 s1 -> stores (be_varlen c) y q2 s2 -> (q1 == 0)%Q \/ (q2 == 0)%Q ->
  (s1 + s2 <= 16383 -> exists z, checked_mul c x y = Ret (Some z) /\ stores (be_varlen c) z 0 (s1 + s2)) /\
  (16383 < s1 + s2 -> checked_mul c x y = if dbg c then Panic WAssert else Ret None).
Proof. exact mul_zero_exact. Qed.
Print Assumptions C46_mul_zero.

(** ** Non-vacuity *)
Example typmod_case : typmod_new dbgc 7 2 = Ret (Some 458758) /\
  apply_typmod dbgc (Some (sample n_a)) 458758 = (Ret false, Some (sample (Number true 1 2 [1; 2345; 6800]))) /\
  apply_typmod dbgc (Some (sample n_a)) (4 * 65536 + 2 + 4) = (Ret true, Some (sample (Number true 1 2 [1; 2345; 6800]))).
Proof. split; [|split]; vm_compute; reflexivity. Qed.
Example in_place_case : round_mut dbgc (Some (sample n_c)) 0 = (Ret tt, Some (sample (Number false 1 0 [1])))
  /\ negate_mut dbgc (Some (sample n_long)) = (Ret tt, Some (sample (Number true 100 100 [7]))).
Proof. split; vm_compute; reflexivity. Qed.
