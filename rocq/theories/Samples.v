(** * Samples: concrete stored numerics used to show that theorem hypotheses are met. *)
From Coq Require Import ZArith QArith Qabs Qpower List Bool Lia.
From Verif Require Import Base Spec SpecApi.
Import ListNotations.
Open Scope Z_scope.

Ltac last_nz :=
  let d := fresh in let t := fresh in let E := fresh in
  intros d t E; apply (f_equal (fun l => last l 1)) in E; rewrite last_last in E; cbn in E; subst; discriminate.

Ltac canonical_tac n k :=
  unfold n; constructor; cbn [digs neg wt scale];
  [ repeat (apply Forall_cons; [cbv beta; lia|]); apply Forall_nil
  | intros ? ? E; try discriminate E; injection E as <- _; discriminate
  | try last_nz; try (intros ? t E; destruct t; discriminate E)
  | try discriminate; auto
  | lia | lia
  | exists k; vm_compute; reflexivity ].

(** -12345.678 *)
Definition n_a : number := Number true 1 3 [1; 2345; 6780].
Lemma n_a_canonical : canonical n_a.
Proof. canonical_tac n_a (-12345678). Qed.
(** 0.05 *)
Definition n_b : number := Number false (-1) 2 [500].
Lemma n_b_canonical : canonical n_b.
Proof. canonical_tac n_b 5. Qed.
(** 9999.5 *)
Definition n_c : number := Number false 0 1 [9999; 5000].
Lemma n_c_canonical : canonical n_c.
Proof. canonical_tac n_c 99995. Qed.
(** zero at scale 5 *)
Definition n_zero : number := Number false 0 5 [].
Lemma n_zero_canonical : canonical n_zero.
Proof. canonical_tac n_zero 0. Qed.
(** 7 * 10000^100 at scale 100: long header *)
Definition n_long : number := Number false 100 100 [7].
Lemma n_long_canonical : canonical n_long.
Proof. canonical_tac n_long (7 * 10 ^ 500). Qed.

Definition sample (n : number) : list Z := layout false n.

Lemma sample_stores n : canonical n -> stores false (sample n) (value n) (scale n).
Proof. intro C. exists n. split; [exact C|]. split; [reflexivity|]. split; reflexivity. Qed.

Definition dbgc : cfg := Cfg true false.
Definition relc : cfg := Cfg false false.
