(** * ProfileApi: on valid numerics no debug check fires *)
From Coq Require Import ZArith QArith Qabs List Bool Lia.
From Verif Require Import Base Var Binary Format Parse Typmod Convert Num Flt Transc Spec SpecApi SpecLibm SpecProfile
  Profile Profile2 Laws Api1 Api2 Api3 Api4 Codec OrderLaws Mut ConvertApi Factorial Sci P_Mut P_Sci P_Codec P_Convert P_Order P_Arith.
Import ListNotations.
Open Scope Z_scope.

Lemma agree_ret : forall A (a b : outcome A) r, agree a b -> a = Ret r -> a = b.
Proof. unfold agree, trapped. intros A a b r [[H|H]|[H|H]] E; congruence. Qed.
Lemma agree_msg : forall A (a b : outcome A) m, agree a b -> a = Panic (WMsg m) -> a = b.
Proof. unfold agree, trapped. intros A a b r [[H|H]|[H|H]] E; congruence. Qed.
Lemma agree_mut_ret : forall A B (a b : outcome A * B) r y, agree_mut a b -> a = (Ret r, y) -> a = b.
Proof. unfold agree_mut, trapped. intros A B a b r y [[H|H]|[H|H]] E; subst; cbn in *; congruence. Qed.
Lemma agree_mut_msg : forall A B (a b : outcome A * B) m, agree_mut a b -> fst a = Panic (WMsg m) -> a = b.
Proof. unfold agree_mut, trapped. intros A B a b r [[H|H]|[H|H]] E; congruence. Qed.

Lemma profiles_mul_full : forall be x y q1 s1 q2 s2, stores be x q1 s1 -> stores be y q2 s2 ->
  s1 + s2 <= 16383 \/ ~ (q1 * q2 == 0)%Q ->
  checked_mul (Cfg true be) x y = checked_mul (Cfg false be) x y.
Proof.
  intros be x y q1 s1 q2 s2 S1 S2 H.
  destruct (Z_le_gt_dec (s1 + s2) 16383) as [L|L].
  - destruct (checked_mul_spec (Cfg true be) x y _ _ _ _ S1 S2 L) as (o & E & _).
    exact (agree_ret _ _ _ _ (le_mul (Cfg true be) x y) E).
  - destruct H as [H|H]; [lia|].
    destruct (checked_mul_scale (Cfg true be) x y _ _ _ _ S1 S2 ltac:(lia)) as (E & _).
    apply (agree_ret _ _ _ None (le_mul (Cfg true be) x y)). apply E; intro Z; apply H; rewrite Z; ring.
Qed.

Lemma profiles_mul_nan : forall be x y, valid be x -> valid be y -> stores_nan be x \/ stores_nan be y ->
  checked_mul (Cfg true be) x y = checked_mul (Cfg false be) x y.
Proof.
  intros be x y Vx Vy N. pose proof (nan_arith (Cfg true be) x y Vx Vy N) as (_ & _ & A3 & _).
  exact (agree_ret _ _ _ _ (le_mul (Cfg true be) x y) A3).
Qed.

Lemma profiles_copies : forall be x, valid be x ->
  num_to_owned (Cfg true be) x = num_to_owned (Cfg false be) x /\
  num_clone (Cfg true be) x = num_clone (Cfg false be) x /\
  num_hash (Cfg true be) x = num_hash (Cfg false be) x /\
  num_is_nan (Cfg true be) x = num_is_nan (Cfg false be) x /\
  num_is_negative (Cfg true be) x = num_is_negative (Cfg false be) x /\
  num_is_positive (Cfg true be) x = num_is_positive (Cfg false be) x /\
  num_scale (Cfg true be) x = num_scale (Cfg false be) x.
Proof.
  intros be x V. destruct (C47_copies (Cfg true be) x V) as [E1 E2].
  destruct (C35_total_order (Cfg true be) x x x V V V) as (_ & EE & _).
  assert (E3 : num_eq (Cfg true be) x x = Ret true) by (unfold num_eq; rewrite EE; reflexivity).
  destruct (C36_hash_consistent (Cfg true be) x x V V E3) as (h & E4 & _).
  split; [exact (agree_ret _ _ _ _ (le_to_owned (Cfg true be) x) E1)|].
  split; [exact (agree_ret _ _ _ _ (le_clone (Cfg true be) x) E2)|].
  split; [exact (agree_ret _ _ _ _ (le_hash_n (Cfg true be) x) E4)|].
  assert (K : exists a b d e, num_is_nan (Cfg true be) x = Ret a /\ num_is_negative (Cfg true be) x = Ret b /\
     num_is_positive (Cfg true be) x = Ret d /\ num_scale (Cfg true be) x = Ret e).
  { destruct V as [N|(q & s & S)].
    - rewrite N. destruct be; vm_compute; eauto 10.
    - destruct (C02_accessors (Cfg true be) x q s S) as (A1 & A2 & (b & A3 & _) & (d & A4 & _)).
      exists false, b, d, (Some s). auto. }
  destruct K as (a & b & d & e & K1 & K2 & K3 & K4).
  split; [exact (agree_ret _ _ _ _ (le_is_nan (Cfg true be) x) K1)|].
  split; [exact (agree_ret _ _ _ _ (le_is_negative (Cfg true be) x) K2)|].
  split; [exact (agree_ret _ _ _ _ (le_is_positive (Cfg true be) x) K3)|].
  exact (agree_ret _ _ _ _ (le_scale (Cfg true be) x) K4).
Qed.

Lemma profiles_sci : forall be m x lower, log10_sound (f_log10 m) -> valid be x ->
  num_sci (Cfg true be) m x lower = num_sci (Cfg false be) m x lower.
Proof.
  intros be m x lower LG [N|(q & s & S)].
  - exact (agree_ret _ _ _ _ (le_sci_n (Cfg true be) m x lower) (C34_sci_nan (Cfg true be) m x lower N)).
  - destruct (Qeq_dec q 0) as [Z|Z].
    + exact (agree_ret _ _ _ _ (le_sci_n (Cfg true be) m x lower) (C34_sci_zero (Cfg true be) m x q s lower S Z)).
    + destruct (Qlt_le_dec (Qabs q) (ten ^ (-1001))) as [L|L].
      * exact (agree_msg _ _ _ _ (le_sci_n (Cfg true be) m x lower) (C59_sci_panics_below (Cfg true be) m x q s lower LG S Z L)).
      * destruct (C34_sci_exact (Cfg true be) m x q s lower LG S Z L) as (t & E & _).
        exact (agree_ret _ _ _ _ (le_sci_n (Cfg true be) m x lower) E).
Qed.

Lemma profiles_mut : forall be x k, valid be x ->
  negate_mut (Cfg true be) (Some x) = negate_mut (Cfg false be) (Some x) /\
  abs_mut (Cfg true be) (Some x) = abs_mut (Cfg false be) (Some x) /\
  trunc_mut (Cfg true be) (Some x) k = trunc_mut (Cfg false be) (Some x) k /\
  round_mut (Cfg true be) (Some x) k = round_mut (Cfg false be) (Some x) k.
Proof.
  intros be x k V. destruct (C23_usable (Cfg true be) x k V) as ((y1 & E1 & _) & (y2 & E2 & _) & (y3 & E3 & _) & H).
  split; [exact (agree_mut_ret _ _ _ _ _ _ (agree_negate_mut (Cfg true be) (Some x)) E1)|].
  split; [exact (agree_mut_ret _ _ _ _ _ _ (agree_abs_mut (Cfg true be) (Some x)) E2)|].
  split; [exact (agree_mut_ret _ _ _ _ _ _ (agree_trunc_mut (Cfg true be) (Some x) k) E3)|].
  destruct H as [(y4 & E4 & _)|(E4 & _)].
  - exact (agree_mut_ret _ _ _ _ _ _ (agree_round_mut (Cfg true be) (Some x) k) E4).
  - exact (agree_mut_msg _ _ _ _ _ (agree_round_mut (Cfg true be) (Some x) k) E4).
Qed.

Lemma profiles_typmod : forall be x q s p sc t, stores be x q s ->
  typmod_new (Cfg true be) p sc = Ret (Some t) ->
  apply_typmod (Cfg true be) (Some x) t = apply_typmod (Cfg false be) (Some x) t /\
  apply_typmod (Cfg true be) (Some x) typmod_default = apply_typmod (Cfg false be) (Some x) typmod_default.
Proof.
  intros be x q s p sc t S T.
  assert (A := fun t => agree_apply_typmod (Cfg true be) (Some x) t).
  split; [|exact (agree_mut_ret _ _ _ _ _ _ (A typmod_default) (C21_apply_typmod_default (Cfg true be) x q s S))].
  destruct (C21_apply_typmod (Cfg true be) x q s p sc t S T) as [H1 H2].
  destruct (Qlt_le_dec (Qabs (round_at q sc)) limit) as [L|L].
  - destruct (H1 L) as (b & y & E & _). exact (agree_mut_ret _ _ _ _ _ _ (A t) E).
  - exact (agree_mut_ret _ _ _ _ _ _ (A t) (H2 L)).
Qed.

Lemma profiles_factorial : forall be n, num_factorial (Cfg true be) n = num_factorial (Cfg false be) n.
Proof.
  intros be n. destruct (Z_le_gt_dec n 32177) as [L|L].
  - destruct (C42_factorial (Cfg true be) n L) as (x & E & _).
    exact (agree_ret _ _ _ _ (le_factorial_n (Cfg true be) n) E).
  - destruct (C42_factorial_overflow (Cfg true be) n ltac:(lia)) as (E & _).
    exact (agree_ret _ _ _ _ (le_factorial_n (Cfg true be) n) E).
Qed.

Lemma profiles_operators : forall be x y, valid be x -> valid be y ->
  op_add (Cfg true be) x y = op_add (Cfg false be) x y /\
  op_sub (Cfg true be) x y = op_sub (Cfg false be) x y /\
  op_div (Cfg true be) x y = op_div (Cfg false be) x y /\
  op_rem (Cfg true be) x y = op_rem (Cfg false be) x y.
Proof.
  intros be x y Vx Vy. destruct (profiles_arith be x y Vx Vy) as (P1 & P2 & P3 & P4 & P5 & _).
  unfold debug, release in *.
  split; [unfold op_add; now rewrite P1|]. split; [unfold op_sub; now rewrite P2|].
  destruct (C41_operators (Cfg true be) x y Vx Vy) as (_ & _ & _ & _ & _ & _ & D1 & D2 & R1 & R2).
  split.
  - destruct (checked_div (Cfg true be) x y) as [[r|]| | |] eqn:E.
    + exact (agree_ret _ _ _ _ (le_op_div (Cfg true be) x y) (proj2 (D1 r) eq_refl)).
    + destruct (proj1 D2 eq_refl) as [H|H]; exact (agree_msg _ _ _ _ (le_op_div (Cfg true be) x y) H).
    + exfalso. destruct (valid2_cases be x y Vx Vy) as [N|(q1 & s1 & q2 & s2 & S1 & S2)].
      * pose proof (nan_arith (Cfg true be) x y Vx Vy N) as (_ & _ & _ & A & _). congruence.
      * destruct (Qeq_dec q2 0) as [Z|Z]; [pose proof (div_by_zero (Cfg true be) x y _ _ _ _ S1 S2 Z) as (A & _); congruence|].
        destruct S1 as (n1 & C1 & -> & V1 & _). destruct S2 as (n2 & C2 & -> & V2 & _).
        destruct (checked_div_numbers (Cfg true be) n1 n2 C1 C2) as (o & A & _); [now rewrite V2|].
        cbn [be_varlen] in A. congruence.
    + exfalso. destruct (valid2_cases be x y Vx Vy) as [N|(q1 & s1 & q2 & s2 & S1 & S2)].
      * pose proof (nan_arith (Cfg true be) x y Vx Vy N) as (_ & _ & _ & A & _). congruence.
      * destruct (Qeq_dec q2 0) as [Z|Z]; [pose proof (div_by_zero (Cfg true be) x y _ _ _ _ S1 S2 Z) as (A & _); congruence|].
        destruct S1 as (n1 & C1 & -> & V1 & _). destruct S2 as (n2 & C2 & -> & V2 & _).
        destruct (checked_div_numbers (Cfg true be) n1 n2 C1 C2) as (o & A & _); [now rewrite V2|].
        cbn [be_varlen] in A. congruence.
    + exfalso. destruct (valid2_cases be x y Vx Vy) as [N|(q1 & s1 & q2 & s2 & S1 & S2)].
      * pose proof (nan_arith (Cfg true be) x y Vx Vy N) as (_ & _ & _ & A & _). congruence.
      * destruct (Qeq_dec q2 0) as [Z|Z]; [pose proof (div_by_zero (Cfg true be) x y _ _ _ _ S1 S2 Z) as (A & _); congruence|].
        destruct S1 as (n1 & C1 & -> & V1 & _). destruct S2 as (n2 & C2 & -> & V2 & _).
        destruct (checked_div_numbers (Cfg true be) n1 n2 C1 C2) as (o & A & _); [now rewrite V2|].
        cbn [be_varlen] in A. congruence.
  - destruct (checked_rem (Cfg true be) x y) as [[r|]| | |] eqn:E.
    + exact (agree_ret _ _ _ _ (le_op_rem (Cfg true be) x y) (proj2 (R1 r) eq_refl)).
    + destruct (proj1 R2 eq_refl) as [H|H]; exact (agree_msg _ _ _ _ (le_op_rem (Cfg true be) x y) H).
    + exfalso. destruct (valid2_cases be x y Vx Vy) as [N|(q1 & s1 & q2 & s2 & S1 & S2)].
      * pose proof (nan_arith (Cfg true be) x y Vx Vy N) as (_ & _ & _ & _ & _ & A & _). congruence.
      * destruct (Qeq_dec q2 0) as [Z|Z]; [pose proof (div_by_zero (Cfg true be) x y _ _ _ _ S1 S2 Z) as (_ & _ & A & _); congruence|].
        destruct (checked_rem_spec (Cfg true be) x y _ _ _ _ S1 S2 Z) as (z1 & A & _). congruence.
    + exfalso. destruct (valid2_cases be x y Vx Vy) as [N|(q1 & s1 & q2 & s2 & S1 & S2)].
      * pose proof (nan_arith (Cfg true be) x y Vx Vy N) as (_ & _ & _ & _ & _ & A & _). congruence.
      * destruct (Qeq_dec q2 0) as [Z|Z]; [pose proof (div_by_zero (Cfg true be) x y _ _ _ _ S1 S2 Z) as (_ & _ & A & _); congruence|].
        destruct (checked_rem_spec (Cfg true be) x y _ _ _ _ S1 S2 Z) as (z1 & A & _). congruence.
    + exfalso. destruct (valid2_cases be x y Vx Vy) as [N|(q1 & s1 & q2 & s2 & S1 & S2)].
      * pose proof (nan_arith (Cfg true be) x y Vx Vy N) as (_ & _ & _ & _ & _ & A & _). congruence.
      * destruct (Qeq_dec q2 0) as [Z|Z]; [pose proof (div_by_zero (Cfg true be) x y _ _ _ _ S1 S2 Z) as (_ & _ & A & _); congruence|].
        destruct (checked_rem_spec (Cfg true be) x y _ _ _ _ S1 S2 Z) as (z1 & A & _). congruence.
Qed.
