(** * Property theorems: text output (C31 - C33, C43, C45) *)
From Coq Require Import ZArith QArith Qabs Qpower List Bool Lia.
From Verif Require Import Base Var Binary Format Parse Num Spec SpecApi SpecText ParseApi FormatApi Normalize Samples.
Import ListNotations.
Open Scope Z_scope.

(** C31 *)
Theorem C31_display_exact : forall c x q s, stores (be_varlen c) x q s ->
  exists t, num_display c x = Ret t /\ plain_text t q s.
Proof. exact display_spec. Qed.
Print Assumptions C31_display_exact.

(** There is only one such text, and it is the text of no other value. *)
Theorem C31_plain_text_unique : forall t1 t2 q s, plain_text t1 q s -> plain_text t2 q s -> t1 = t2.
Proof. exact plain_unique. Qed.
Print Assumptions C31_plain_text_unique.

Theorem C31_plain_text_value : forall t q1 s1 q2 s2, plain_text t q1 s1 -> plain_text t q2 s2 -> (q1 == q2)%Q.
Proof. exact plain_value. Qed.
Print Assumptions C31_plain_text_value.

(** NaN displays as "NaN". *)
Theorem C31_display_nan : forall c x, stores_nan (be_varlen c) x -> num_display c x = Ret [78; 97; 78].
Proof. exact display_nan. Qed.
Print Assumptions C31_display_nan.

(** C32 *)
Theorem C32_display_parse : forall c x, valid (be_varlen c) x ->
  exists t, num_display c x = Ret t /\ from_str c t = Ret (inl x).
Proof. exact display_parse. Qed.
Print Assumptions C32_display_parse.

(** C33: normalize() is the shortest text of the value ... *)
Theorem C33_normalize_shortest : forall c x q s, stores (be_varlen c) x q s ->
  exists t, num_normalize c x = Ret t /\ shortest_text t q.
Proof. exact num_normalize_spec. Qed.
Print Assumptions C33_normalize_shortest.

(** ... hence a key for equality. *)
Theorem C33_normalize_key : forall c x y, valid (be_varlen c) x -> valid (be_varlen c) y ->
  exists tx ty, num_normalize c x = Ret tx /\ num_normalize c y = Ret ty /\ (tx = ty <-> num_eq c x y = Ret true).
Proof. exact normalize_eq. Qed.
Print Assumptions C33_normalize_key.

(** C43, human-readable formats *)
Theorem C43_serde_text : forall c x, valid (be_varlen c) x ->
  exists t, serialize_text c x = Ret t /\ deserialize_text c t = Ret (inl x).
Proof. exact display_parse. Qed.
Print Assumptions C43_serde_text.

(** C45, text *)
Theorem C45_profiles_text : forall be x, valid be x ->
  num_display (Cfg true be) x = num_display (Cfg false be) x /\
  num_normalize (Cfg true be) x = num_normalize (Cfg false be) x.
Proof. exact text_profiles. Qed.
Print Assumptions C45_profiles_text.

Theorem C45_profiles_parse : forall s be, len s < 2 ^ 30 - 8 ->
  from_str (Cfg true be) s = from_str (Cfg false be) s.
Proof. exact parse_profile. Qed.
Print Assumptions C45_profiles_parse.

(** ** Non-vacuity *)
Example display_case : stores false (sample n_a) (value n_a) 3 /\
  num_display dbgc (sample n_a) = Ret [45; 49; 50; 51; 52; 53; 46; 54; 55; 56] /\
  num_normalize dbgc (sample (Number true 1 5 [1; 2345; 6700])) = Ret [45; 49; 50; 51; 52; 53; 46; 54; 55] /\
  num_normalize dbgc (sample (Number false 1 5 [1])) = Ret [49; 48; 48; 48; 48].
Proof. split; [exact (sample_stores n_a n_a_canonical)|]. split; [|split]; vm_compute; reflexivity. Qed.
