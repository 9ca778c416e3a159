(** * Property theorems: byte layout (C01, C02, C47) *)
From Coq Require Import ZArith QArith Qabs List Bool Lia.
From Verif Require Import Base Var Binary Num Spec SpecApi Laws2 Api3 Samples.
Import ListNotations.
Open Scope Z_scope.

(** C01 *)
Theorem C01_binary_round_trip : forall (c : cfg) (n : number),
  Forall (fun d => 0 <= d <= 9999) (digs n) -> -32768 <= wt n <= 32767 -> 0 <= scale n <= 16383 ->
  Z.of_nat (length (digs n)) <= 100000000 ->
  let v := Var (wt n) (scale n) (if neg n then SNeg else SPos) (digs n) in
  exists x, encode c v = Ret x /\ as_var c x = Ret v /\ into_var c x = Ret v.
Proof. exact codec_round_trip. Qed.
Print Assumptions C01_binary_round_trip.

Theorem C01_binary_round_trip_nan : forall c : cfg,
  exists x, encode c nan_var = Ret x /\ as_var c x = Ret nan_var /\ num_is_nan c x = Ret true.
Proof. exact (fun c => ex_intro _ _ (conj (proj1 (codec_nan c)) (conj (proj1 (proj2 (codec_nan c))) (proj1 (proj2 (proj2 (codec_nan c))))))). Qed.
Print Assumptions C01_binary_round_trip_nan.

Example C01_case : exists x, encode dbgc (Var 1 3 SNeg [1; 2345; 6780]) = Ret x /\
  x = [48; 0; 0; 0; 129; 161; 1; 0; 41; 9; 124; 26].
Proof. eexists. split; reflexivity. Qed.

(** C02 *)
Theorem C02_layout : forall (c : cfg) (n : number),
  Forall (fun d => 0 <= d <= 9999) (digs n) -> -32768 <= wt n <= 32767 -> 0 <= scale n <= 16383 ->
  Z.of_nat (length (digs n)) <= 100000000 ->
  let v := Var (wt n) (scale n) (if neg n then SNeg else SPos) (digs n) in
  let x := layout (be_varlen c) n in
  encode c v = Ret x /\ read_len c x = Ret (lenz x) /\
  lenz x = (if (scale n <=? 63) && (-64 <=? wt n) && (wt n <=? 63) then 6 else 8) + 2 * lenz (digs n).
Proof. exact codec_layout. Qed.
Print Assumptions C02_layout.

Theorem C02_layout_nan : forall c : cfg,
  encode c nan_var = Ret (nan_layout (be_varlen c)) /\
  read_len c (nan_layout (be_varlen c)) = Ret 6 /\ lenz (nan_layout (be_varlen c)) = 6.
Proof. exact codec_nan_layout. Qed.
Print Assumptions C02_layout_nan.

(** The accessors read the layout. *)
Theorem C02_accessors : forall (c : cfg) x q s, stores (be_varlen c) x q s ->
  num_is_nan c x = Ret false /\ num_scale c x = Ret (Some s) /\
  (exists b, num_is_negative c x = Ret b /\ (b = true <-> (q < 0)%Q)) /\
  (exists b, num_is_positive c x = Ret b /\ (b = true <-> (0 <= q)%Q)).
Proof. exact accessors. Qed.
Print Assumptions C02_accessors.

Example C02_case : stores false (sample n_a) (value n_a) 3 /\ lenz (sample n_a) = 12 /\ lenz (sample n_long) = 10.
Proof. split; [exact (sample_stores n_a n_a_canonical)|]. split; reflexivity. Qed.

(** C47: copies have the same bytes (mutation of a copy cannot reach the original: values in the
    model are immutable, which is part of the trusted base). *)
Theorem C47_copies : forall (c : cfg) (x : bytes), valid (be_varlen c) x ->
  num_to_owned c x = Ret x /\ num_clone c x = Ret x.
Proof. exact copies. Qed.
Print Assumptions C47_copies.

Example C47_case : valid false (sample n_a) /\ valid false (nan_layout false).
Proof. split; [right; exists (value n_a), 3; exact (sample_stores n_a n_a_canonical)|left; reflexivity]. Qed.
