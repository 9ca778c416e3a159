(** * Property theorems: formatting into a writer (C83), text of a Typmod (C84) *)
From Coq Require Import ZArith QArith Qabs List Bool Lia.
From Verif Require Import Base Var Binary Format Parse Typmod Num Flt Transc Spec SpecApi SpecText SpecLibm SpecWrite Write WriteApi Sci Samples LibmSample P_Sci.
Import ListNotations.
Open Scope Z_scope.

(** C83: there is one sequence of write_str and write_char calls, the pieces of the text of C31, that [{}] makes on
    any writer whatever; it stops at the first call the writer refuses and then reports an error. *)
Theorem C83_display_any_writer : forall c x, valid (be_varlen c) x -> exists t ps, num_display c x = Ret t /\ texts ps = t /\
  forall S (w : writer S) s, num_display_to c w x s = (Ret (fst (feed w ps s)), snd (feed w ps s)).
Proof. exact display_any. Qed.
Print Assumptions C83_display_any_writer.

(** to_string(), write! to a String: the whole text, no error *)
Theorem C83_display_string : forall c x, valid (be_varlen c) x -> exists t, num_display c x = Ret t /\
  forall s, num_display_to c string_writer x s = (Ret true, s ++ t).
Proof. exact display_string. Qed.
Print Assumptions C83_display_string.

(** A writer that refuses at will ends up with a beginning of the text, and with all of it if Ok is returned. *)
Theorem C83_display_prefix : forall c x ok, valid (be_varlen c) x -> exists t b u v, num_display c x = Ret t /\ t = u ++ v /\
  num_display_to c (choosy ok) x [] = (Ret b, u) /\ (b = true -> v = []).
Proof. exact display_prefix. Qed.
Print Assumptions C83_display_prefix.

(** [{:e}] and [{:E}] likewise; when they panic (C59) nothing has been written. *)
Theorem C83_sci_any_writer : forall c m x lower, log10_sound (f_log10 m) -> valid (be_varlen c) x ->
  (exists t ps, num_sci c m x lower = Ret t /\ texts ps = t /\
     forall S (w : writer S) s, num_sci_to c m w x lower s = (Ret (fst (feed w ps s)), snd (feed w ps s))) \/
  ((exists q k, stores (be_varlen c) x q k /\ (0 < Qabs q)%Q /\ (Qabs q < ten ^ (-1001))%Q) /\
   num_sci c m x lower = Panic (WMsg MDivZero) /\
   forall S (w : writer S) s, num_sci_to c m w x lower s = (Panic (WMsg MDivZero), s)).
Proof. exact sci_any. Qed.
Print Assumptions C83_sci_any_writer.

(** Non-vacuity: -12345.678 into a buffer of seven characters, one of five and a String *)
Definition room (n : Z) : list Z -> piece -> bool := fun s p => lenz s + lenz (text_of p) <=? n.
Example C83_example : valid false (sample n_a) /\
  num_display_to dbgc (choosy (room 7)) (sample n_a) [] = (Ret false, [45; 49; 50; 51; 52; 53; 46]) /\
  num_display_to dbgc (choosy (room 5)) (sample n_a) [] = (Ret false, [45; 49]) /\
  num_display_to dbgc string_writer (sample n_a) [] = (Ret true, [45; 49; 50; 51; 52; 53; 46; 54; 55; 56]).
Proof.
  split; [right; exists (value n_a), (scale n_a); exact (sample_stores n_a n_a_canonical)|]. vm_compute. repeat split.
Qed.
Example C83_sci_example : (exists lg, log10_sound lg) /\ valid false (sample n_b) /\
  num_sci_to dbgc rough (choosy (room 3)) (sample n_b) true [] = (Ret false, [53; 101; 45]) /\
  num_sci_to dbgc rough string_writer (sample n_b) true [] = (Ret true, [53; 101; 45; 48; 50]).
Proof.
  split; [exact log10_exists|]. split; [right; exists (value n_b), (scale n_b); exact (sample_stores n_b n_b_canonical)|]. vm_compute. repeat split.
Qed.

(** C84: a Typmod shows as "(precision, scale)" in plain decimal, on any writer *)
Theorem C84_typmod_text : forall c p s t, typmod_new c p s = Ret (Some t) -> exists tp ts ps,
  plain_text tp (inject_Z p) 0 /\ plain_text ts (inject_Z s) 0 /\ texts ps = [40] ++ tp ++ [44; 32] ++ ts ++ [41] /\
  forall S (w : writer S) z, typmod_display_to c w t z = (Ret (fst (feed w ps z)), snd (feed w ps z)).
Proof. exact typmod_text. Qed.
Print Assumptions C84_typmod_text.

(** The default Typmod, which means no limit, shows as "(65535, 65531)". *)
Theorem C84_typmod_default_text : forall c,
  exists ps, texts ps = [40; 54; 53; 53; 51; 53; 44; 32; 54; 53; 53; 51; 49; 41] /\
  forall S (w : writer S) z, typmod_display_to c w typmod_default z = (Ret (fst (feed w ps z)), snd (feed w ps z)).
Proof. exact typmod_default_text. Qed.
Print Assumptions C84_typmod_default_text.

Example C84_example : typmod_new dbgc 10 5 = Ret (Some 655369) /\
  typmod_display_to dbgc string_writer 655369 [] = (Ret true, [40; 49; 48; 44; 32; 53; 41]).
Proof. vm_compute. repeat split. Qed.
