(** * Property theorems: scientific format (C34, C59).

    [m] stands for the platform's f64::log10; [log10_sound] (SpecLibm.v) is all that is assumed of it. *)
From Coq Require Import ZArith QArith Qabs List Bool Lia.
From Verif Require Import Base Var Binary Digits Parse Num Flt Transc Spec SpecText SpecLibm QDec Sci SciText LibmSample SqrtLoop Samples.
Import ListNotations.
Open Scope Z_scope.

(** C34: from 10^-1001 on the text denotes exactly the value *)
Theorem C34_sci_exact : forall c m x q s lower, log10_sound (f_log10 m) -> stores (be_varlen c) x q s -> ~ (q == 0)%Q ->
  (ten ^ (-1001) <= Qabs q)%Q ->
  exists t, num_sci c m x lower = Ret t /\ sci_text t q (if lower then 101 else 69).
Proof. intros c m x q s lower LG H N. exact (proj1 (sci_spec c m x q s lower LG H N)). Qed.
Print Assumptions C34_sci_exact.

(** C34: "0e+00" and "NaN" *)
Theorem C34_sci_zero : forall c m x q s lower, stores (be_varlen c) x q s -> (q == 0)%Q ->
  num_sci c m x lower = Ret [48; (if lower then 101 else 69); 43; 48; 48].
Proof. exact sci_zero. Qed.
Print Assumptions C34_sci_zero.
Theorem C34_sci_nan : forall c m x lower, stores_nan (be_varlen c) x -> num_sci c m x lower = Ret [78; 97; 78].
Proof. exact sci_nan. Qed.
Print Assumptions C34_sci_nan.

(** C34: the text parses back to the same value, at no larger scale *)
Theorem C34_sci_parse : forall c m x q s lower, log10_sound (f_log10 m) -> stores (be_varlen c) x q s -> ~ (q == 0)%Q ->
  (ten ^ (-1001) <= Qabs q)%Q ->
  exists t y s', num_sci c m x lower = Ret t /\ from_str c t = Ret (inl y) /\ stores (be_varlen c) y q s' /\ s' <= s.
Proof. exact sci_parse. Qed.
Print Assumptions C34_sci_parse.

(** C34: equal numerics have the same text whatever their scales *)
Theorem C34_sci_same : forall c m x y q s s' lower, log10_sound (f_log10 m) ->
  stores (be_varlen c) x q s -> stores (be_varlen c) y q s' -> num_sci c m x lower = num_sci c m y lower.
Proof. exact sci_same. Qed.
Print Assumptions C34_sci_same.

(** The assumption on log10 can be met, and -12345.678 meets the others. *)
Example C34_applies : (exists lg, log10_sound lg) /\ stores false (sample n_a) (value n_a) 3 /\ ~ (value n_a == 0)%Q /\
  (ten ^ (-1001) <= Qabs (value n_a))%Q.
Proof.
  split; [exact log10_exists|]. split; [exact (sample_stores n_a n_a_canonical)|]. split; [vm_compute; discriminate|].
  apply (Qle_trans _ 1); [|vm_compute; discriminate]. change 1%Q with (ten ^ 0)%Q. apply (QDec.p10_le (-1001) 0). lia.
Qed.

(** a table of log10 sufficient for these runs *)
Definition rough_log10 (q : Q) : Q := if Qle_bool 1000 q then 3 else if Qle_bool 100 q then 2 else if Qle_bool 10 q then 1 else 0.
Definition rough : libm := Libm rough_log10 (fun _ => 0%Q) (fun _ => None).
(** "-1.2345678e+04", "5E-02" *)
Example C34_runs :
  num_sci dbgc rough (sample n_a) true = Ret [45; 49; 46; 50; 51; 52; 53; 54; 55; 56; 101; 43; 48; 52] /\
  num_sci relc rough (sample n_b) false = Ret [53; 69; 45; 48; 50] /\
  num_sci dbgc rough (sample n_zero) true = Ret [48; 101; 43; 48; 48].
Proof. vm_compute. auto. Qed.

(** C59: every non-zero number below 10^-1001 in magnitude panics, and no other *)
Theorem C59_sci_panics_below : forall c m x q s lower, log10_sound (f_log10 m) -> stores (be_varlen c) x q s -> ~ (q == 0)%Q ->
  (Qabs q < ten ^ (-1001))%Q -> num_sci c m x lower = Panic (WMsg MDivZero).
Proof. intros c m x q s lower LG H N. exact (proj2 (sci_spec c m x q s lower LG H N)). Qed.
Print Assumptions C59_sci_panics_below.

(** 10^-1004 *)
Definition n_small : number := Number false (-251) 1004 [1].
Lemma n_small_canonical : canonical n_small.
Proof. canonical_frac n_small 1. Qed.
Lemma n_small_value : (value n_small == ten ^ (-1004))%Q.
Proof.
  rewrite vval_value. unfold vval. change (smag (of_number n_small)) with 1.
  change (4 * lsd (of_number n_small)) with (-1004). now rewrite dec_1.
Qed.

Theorem C59_sci_never_panics_refuted : exists n, canonical n /\ (value n == ten ^ (-1004))%Q /\
  forall c m lower, log10_sound (f_log10 m) -> num_sci c m (layout (be_varlen c) n) lower = Panic (WMsg MDivZero).
Proof.
  exists n_small. split; [exact n_small_canonical|]. split; [exact n_small_value|]. intros c m lower LG.
  assert (P : (Qabs (value n_small) == ten ^ (-1004))%Q).
  { rewrite n_small_value. apply Qabs_pos. apply Qlt_le_weak. apply (p10_pos (-1004)). }
  apply (C59_sci_panics_below c m _ (value n_small) 1004); [exact LG| | |].
  - exists n_small. split; [exact n_small_canonical|]. split; [reflexivity|]. split; reflexivity.
  - rewrite n_small_value. apply (p10_nz (-1004)).
  - rewrite P. apply (p10_lt (-1004) (-1001)). lia.
Qed.
Print Assumptions C59_sci_never_panics_refuted.
