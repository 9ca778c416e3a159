(** * Property theorems: owned buffers at the level of the machine (C94) *)
From Coq Require Import ZArith QArith Qabs List Bool Lia.
From Verif Require Import Base Var Binary Typmod Parse Num Data Spec SpecApi SpecData Mach MachMut MachMutApi Samples.
Import ListNotations.
Open Scope Z_scope.

(** C94: a NumericBuf made from a number, then put through any sequence of negate_mut, abs_mut, round_mut,
    trunc_mut, apply_typmod (any i32), clone, +=, -=, *=, /= and %= (with any stored numbers on the right), in
    code that checks (debug) or wraps (release) every machine integer and reuses or reallocates the buffer:
    every outcome, and the bytes shown afterwards, are those of the operations on the bytes alone; nothing is
    undefined behaviour. ([None] afterwards: the null buffer of C23.) *)
Theorem C94_machine_history : forall c a (x : bytes), valid (be_varlen c) x ->
  exists b, m_num_to_owned c a x = Ret b /\ m_as_bytes c b = Ret x /\
    forall h, Forall (fun e => Forall (valid (be_varlen c)) (operands (fst e))) h ->
      let '(rs, b') := m_run c h (Some b) in let '(rs', x') := run_all c (map fst h) (Some x) in
      rs = rs' /\
      match b', x' with Some y, Some z => m_as_bytes c y = Ret z | None, None => True | _, _ => False end /\
      Forall (fun r => (exists y, r = Ret y) \/ (exists w, r = Panic w)) rs.
Proof. exact machine_history. Qed.
Print Assumptions C94_machine_history.

(** After any such history, a type modifier (p, s): the value is rounded to s decimals, and the answer is
    true exactly if p - s digits do not suffice before the point; a carry past the largest numeric loses
    the number. *)
Theorem C94_machine_typmod : forall c a (x : bytes) b h rs b' (z : bytes) q s p sc t a', valid (be_varlen c) x -> m_num_to_owned c a x = Ret b ->
  Forall (fun e => Forall (valid (be_varlen c)) (operands (fst e))) h -> m_run c h (Some b) = (rs, Some b') ->
  m_as_bytes c b' = Ret z -> stores (be_varlen c) z q s -> typmod_new c p sc = Ret (Some t) ->
  ((Qabs (round_at q sc) < limit)%Q ->
     exists f y w, m_apply_typmod c a' (Some b') t = (Ret f, Some y) /\ m_as_bytes c y = Ret w /\
       stores (be_varlen c) w (round_at q sc) sc /\ (f = true <-> (ten ^ (p - sc) <= Qabs (round_at q sc))%Q)) /\
  ((limit <= Qabs (round_at q sc))%Q -> m_apply_typmod c a' (Some b') t = (Ret true, None)).
Proof. exact machine_typmod. Qed.
Print Assumptions C94_machine_typmod.

(** After any such history, [+=] adds exactly, or panics and leaves the buffer as it was. *)
Theorem C94_machine_add_assign : forall c a (x : bytes) b h rs b' (z y : bytes) q1 s1 q2 s2 a', valid (be_varlen c) x -> m_num_to_owned c a x = Ret b ->
  Forall (fun e => Forall (valid (be_varlen c)) (operands (fst e))) h -> m_run c h (Some b) = (rs, Some b') ->
  m_as_bytes c b' = Ret z -> stores (be_varlen c) z q1 s1 -> stores (be_varlen c) y q2 s2 ->
  ((Qabs (q1 + q2) < limit)%Q ->
     exists r w, m_op_assign (m_op_add c a') c (Some b') y = (Ret tt, Some r) /\ m_as_bytes c r = Ret w /\
       stores (be_varlen c) w (q1 + q2) (Z.max s1 s2)) /\
  ((limit <= Qabs (q1 + q2))%Q -> m_op_assign (m_op_add c a') c (Some b') y = (Panic (WMsg MOverflow), Some b')).
Proof. exact machine_add_assign. Qed.
Print Assumptions C94_machine_add_assign.

(** Non-vacuity: 9999.5 rounded to 10000 in place (the carry takes the spare word), + 0.05, / 0 (panics, the
    buffer stays), % 0.05, - 12345.678 subtracted, numeric(4,2) (does not fit: true), clone, abs. *)
Definition sevens5 : nat -> nat -> Z := fun _ _ => 7.
Definition h94 : list (mop * (nat -> nat -> Z)) :=
  map (fun o => (o, sevens5))
    [InPlace (ORound 0); AddAssign (sample n_b); DivAssign (sample n_zero); RemAssign (sample n_b); SubAssign (sample n_a);
     InPlace (OTypmod (4 * 65536 + 2 + 4)); InPlace OClone; InPlace ONegate; MulAssign (sample n_c)].
Lemma sample_valid n : canonical n -> valid false (sample n).
Proof. intro C. right. exists (value n), (scale n). exact (sample_stores n C). Qed.
Example C94_history_example : Forall (fun e => Forall (valid false) (operands (fst e))) h94 /\
  m_num_to_owned dbgc sevens5 (sample n_c) = Ret (PBuf [7; 7; 40; 0; -32640; 9999; 5000] 4) /\
  m_run dbgc (firstn 1 h94) (Some (PBuf [7; 7; 40; 0; -32640; 9999; 5000] 4)) =
    ([Ret false], Some (PBuf [7; 32; 0; -32767; 1; 0; 5000] 2)) /\
  m_run dbgc h94 (Some (PBuf [7; 7; 40; 0; -32640; 9999; 5000] 4)) =
    ([Ret false; Ret false; Panic (WMsg MDivZero); Ret false; Ret false; Ret true; Ret false; Ret false; Ret false],
     Some (PBuf [7; 7; 7; 56; 0; -24190; 1; 2345; 627; 1600; 0] 6)) /\
  m_as_bytes dbgc (PBuf [7; 7; 7; 56; 0; -24190; 1; 2345; 627; 1600; 0] 6) = Ret [56; 0; 0; 0; 130; 161; 1; 0; 41; 9; 115; 2; 64; 6].
Proof.
  split.
  { unfold h94. cbn [map]. repeat (apply Forall_cons || apply Forall_nil || (cbn [operands fst])); apply sample_valid;
    auto using n_a_canonical, n_b_canonical, n_c_canonical, n_zero_canonical. }
  vm_compute. repeat split.
Qed.
