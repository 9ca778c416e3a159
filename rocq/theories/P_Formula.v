(** * Property theorems: formulas, run at the level of the machine (C99). *)
From Coq Require Import ZArith QArith Qabs Qround List Lia Lqa Permutation.
From Verif Require Import Base Var Binary Parse Num Data Spec SpecApi SpecText SpecData SpecMach Samples
  Mach MachText MachMut MachRest SpecMachReach SpecFormula Formula P_Mach P_MachText.
Import ListNotations.
Open Scope Z_scope.

(** C99: a formula of numbers read from text and i64s, with +, -, *, truncating division, remainder, negation, absolute value,
    ceil, floor, round and trunc, and quotients rounded to the scale the policy prescribes (C08), each part of which is in
    range, gives exactly its value, with the scale one would write down, and displays it digit for digit. *)
Theorem C99_formula_exact : forall c f a q s, writable f -> means f q s ->
  exists b x t, m_eval c a f = Ret (Some b) /\ m_as_bytes c b = Ret x /\ stores (be_varlen c) x q s /\
    m_num_display c x = Ret t /\ plain_text t q s.
Proof. exact formula_text. Qed.
Print Assumptions C99_formula_exact.

(** C99: and it never gives a wrong number: whatever the formula, it gives nothing, panics, gives NaN (only if it says NaN
    somewhere), or the formula has a meaning and that is what it gives. *)
Theorem C99_formula_never_wrong : forall c f a, writable f ->
  m_eval c a f = Ret None \/ (exists w, m_eval c a f = Panic w) \/
  exists b x, m_eval c a f = Ret (Some b) /\ m_as_bytes c b = Ret x /\
    ((stores_nan (be_varlen c) x /\ has_nan f) \/ exists q s, means f q s /\ stores (be_varlen c) x q s).
Proof. exact formula_sound. Qed.
Print Assumptions C99_formula_never_wrong.

(** C99: a formula means one thing, and two formulas with the same value and scale give the same bytes, whatever memory
    contained. *)
Theorem C99_meaning_unique : forall f q s q' s', writable f -> means f q s -> means f q' s' -> (q == q')%Q /\ s = s'.
Proof. exact (means_fun dbgc). Qed.
Print Assumptions C99_meaning_unique.
Theorem C99_same_bytes : forall c f g a a' b b' x y q s q' s', writable f -> writable g -> means f q s -> means g q' s' -> (q == q')%Q -> s = s' ->
  m_eval c a f = Ret (Some b) -> m_as_bytes c b = Ret x -> m_eval c a' g = Ret (Some b') -> m_as_bytes c b' = Ret y -> x = y.
Proof. intros c f g a a' b b' x y q s q' s' W W' M M' E E' F X G Y. apply (same_bytes c f g a a' x y q s q' s'); auto; [exists b|exists b']; auto. Qed.
Print Assumptions C99_same_bytes.

(** C99: a sum does not depend on the order of its terms, to the last bit *)
Theorem C99_sum_any_order : forall c l l' a a' q s q' s', Permutation l l' -> Forall writable l -> means (total l) q s -> means (total l') q' s' ->
  exists b b' x, m_eval c a (total l) = Ret (Some b) /\ m_eval c a' (total l') = Ret (Some b') /\ m_as_bytes c b = Ret x /\ m_as_bytes c b' = Ret x /\
    stores (be_varlen c) x q s.
Proof.
  intros c l l' a a' q s q' s' P W M M'. destruct (sum_order c l l' a a' q s q' s' P W M M') as (_ & _ & x & (b & E & X) & (b' & E' & X')).
  exists b, b', x. repeat (split; [assumption|]).
  destruct (formula_text c (total l) a q s (total_writable l W) M) as (b1 & x1 & _ & E1 & X1 & S & _). rewrite E in E1. injection E1 as <-.
  rewrite X in X1. injection X1 as <-. exact S.
Qed.
Print Assumptions C99_sum_any_order.

(** C99: a formula can be cut anywhere: the text displayed for a part of it, read again, means the same and gives the same
    bytes. *)
Theorem C99_cut_anywhere : forall c f a a' q s, writable f -> means f q s ->
  exists b x t b', m_eval c a f = Ret (Some b) /\ m_as_bytes c b = Ret x /\ m_num_display c x = Ret t /\
    writable (Written t) /\ (exists q', (q' == q)%Q /\ means (Written t) q' s) /\
    m_eval c a' (Written t) = Ret (Some b') /\ m_as_bytes c b' = Ret x.
Proof. exact formula_cut. Qed.
Print Assumptions C99_cut_anywhere.

(** Non-vacuity: round(" -012.50e-3\n" * 3 + 7, 2) = 6.96; -0.01250 + 7 + 7 in two orders; 1 rem 0 gives nothing *)
Definition formula1 : formula := Unary (Round 2) (Binary Add (Binary Mul (Written txt1) (Int 3)) (Int 7)).
Definition literal1 : literal := Literal true [48; 49; 50] [53; 48] (-3).
Lemma small q : (Qabs q < 1000)%Q -> (Qabs q < limit)%Q.
Proof. intro H. apply (Qlt_trans _ 1000); [exact H|]. apply (Qlt_le_trans _ (ten ^ 4)); [reflexivity|]. rewrite Verif.QDec.limit_p10. apply Verif.QDec.p10_le. lia. Qed.
Lemma literal1_means : means (Written txt1) (literal_value literal1) (literal_scale literal1).
Proof. destruct machine_parse_literal as (A & B & C). exact (means_written txt1 _ literal1 A B C). Qed.
Example formula1_means : writable formula1 /\
  means formula1 (round_at (literal_value literal1 * inject_Z 3 + inject_Z 7) 2) 2 /\ (round_at (literal_value literal1 * inject_Z 3 + inject_Z 7) 2 == 696 # 100)%Q.
Proof.
  split; [cbn; lia|]. split; [|vm_compute; reflexivity].
  apply (means_unary (Round 2) (Binary Add (Binary Mul (Written txt1) (Int 3)) (Int 7)) (literal_value literal1 * inject_Z 3 + inject_Z 7) 5).
  - apply (means_binary Add (Binary Mul (Written txt1) (Int 3)) (Int 7) (literal_value literal1 * inject_Z 3) (inject_Z 7) 5 0); [|constructor|exact I|apply small; vm_compute; reflexivity].
    apply (means_binary Mul (Written txt1) (Int 3) (literal_value literal1) (inject_Z 3) 5 0); [exact literal1_means|constructor|cbn; lia|apply small; vm_compute; reflexivity].
  - apply small. vm_compute. reflexivity.
Qed.
Definition sevens_f : list bool -> nat -> nat -> Z := fun _ _ _ => 7.
Definition displayed (o : outcome (option pbuf)) : outcome (option (list Z)) :=
  r <- o ;; match r with Some b => x <- m_as_bytes dbgc b ;; t <- m_num_display dbgc x ;; Ret (Some t) | None => Ret None end.
Example formula1_run : displayed (m_eval dbgc sevens_f formula1) = Ret (Some [54; 46; 57; 54]).
Proof. vm_compute. reflexivity. Qed.
Example sum_two_orders : Permutation [Written txt1; Int 7] [Int 7; Written txt1] /\ Forall writable [Written txt1; Int 7] /\
  (exists q s, means (total [Written txt1; Int 7]) q s) /\ (exists q s, means (total [Int 7; Written txt1]) q s).
Proof.
  split; [apply perm_swap|]. split; [repeat constructor; cbn; lia|]. split.
  - exists (literal_value literal1 + (inject_Z 7 + inject_Z 0))%Q, 5.
    apply (means_binary Add (Written txt1) (total [Int 7]) (literal_value literal1) (inject_Z 7 + inject_Z 0) 5 0); [exact literal1_means| |exact I|apply small; vm_compute; reflexivity].
    apply (means_binary Add (Int 7) (Int 0) (inject_Z 7) (inject_Z 0) 0 0); [constructor|constructor|exact I|apply small; vm_compute; reflexivity].
  - exists (inject_Z 7 + (literal_value literal1 + inject_Z 0))%Q, 5.
    apply (means_binary Add (Int 7) (total [Written txt1]) (inject_Z 7) (literal_value literal1 + inject_Z 0) 0 5); [constructor| |exact I|apply small; vm_compute; reflexivity].
    apply (means_binary Add (Written txt1) (Int 0) (literal_value literal1) (inject_Z 0) 5 0); [exact literal1_means|constructor|exact I|apply small; vm_compute; reflexivity].
Qed.
Example sum_run : displayed (m_eval dbgc sevens_f (total [Written txt1; Int 7])) = Ret (Some [54; 46; 57; 56; 55; 53; 48]) /\
  displayed (m_eval dbgc sevens_f (total [Int 7; Written txt1])) = Ret (Some [54; 46; 57; 56; 55; 53; 48]).
Proof. split; vm_compute; reflexivity. Qed.
Example rem_zero_run : m_eval dbgc sevens_f (Binary Rem (Int 1) (Int 0)) = Ret None.
Proof. vm_compute. reflexivity. Qed.
(** 2 / 3 = 0.66666666666666666667 *)
Definition n_two : number := Number false 0 0 [2].
Lemma n_two_canonical : canonical n_two.
Proof. canonical_tac n_two 2. Qed.
Definition n_three : number := Number false 0 0 [3].
Lemma n_three_canonical : canonical n_three.
Proof. canonical_tac n_three 3. Qed.
Example quotient_means : writable (Quotient (Int 2) (Int 3)) /\ means (Quotient (Int 2) (Int 3)) (round_at (2 / 3) 20) 20 /\
  (round_at (2 / 3) 20 == 66666666666666666667 # 100000000000000000000)%Q.
Proof.
  split; [cbn; lia|]. split; [|vm_compute; reflexivity].
  apply (means_quotient (Int 2) (Int 3) 2 3 0 0 n_two n_three).
  - exact (means_int 2).
  - exact (means_int 3).
  - exact n_two_canonical.
  - exact n_three_canonical.
  - vm_compute. reflexivity.
  - reflexivity.
  - vm_compute. reflexivity.
  - reflexivity.
  - discriminate.
  - apply small. vm_compute. reflexivity.
Qed.
Example quotient_run : displayed (m_eval dbgc sevens_f (Quotient (Int 2) (Int 3))) =
  Ret (Some (48 :: 46 :: repeat 54 19 ++ [55])) /\
  m_eval dbgc sevens_f (Quotient (Int 2) (Binary Sub (Int 3) (Int 3))) = Ret None.
Proof. split; vm_compute; reflexivity. Qed.
Example cut_run : displayed (m_eval dbgc sevens_f (Written [54; 46; 57; 54])) = displayed (m_eval dbgc sevens_f formula1).
Proof. vm_compute. reflexivity. Qed.
