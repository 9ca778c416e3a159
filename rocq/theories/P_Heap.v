(** * Property theorems: allocations (C82) *)
From Coq Require Import ZArith QArith List Bool Lia Permutation.
From Verif Require Import Base Var Binary Parse Typmod Num Data Heap Spec SpecApi SpecData SpecHeap HeapProg Samples.
Import ListNotations.
Open Scope Z_scope.

(** C82: a program with any number of NumericBufs, made from stored numbers, from results of arithmetic and
    parsing or as clones, worked on in place and dropped in any order. Nothing is freed twice or with another
    size, nothing freed is read or written (no outcome is [UB]), in panics that are caught as well. What
    the buffers show and what the operations answer is what the byte strings say: no buffer sees what
    happens to another. The allocations alive at the end are exactly the ones of the buffers that are left. *)
Theorem C82_programs : forall c (h : list (cmd * (nat -> Z))), Forall (cmd_ok c) (map fst h) ->
  let '(rs, (bs, m)) := h_prog c h ([], no_memory) in let '(rs', xs) := s_prog c (map fst h) [] in
  rs = rs' /\ Forall (fun r => (exists y, r = Ret y) \/ (exists w, r = Panic w)) rs /\
  Forall2 (shown c m) bs xs /\ Permutation (map fst (blocks m)) (pointers bs) /\ NoDup (pointers bs).
Proof. exact programs. Qed.
Print Assumptions C82_programs.

(** No leak: when the last buffer is gone, so is every allocation. *)
Theorem C82_no_leak : forall c h, Forall (cmd_ok c) (map fst h) ->
  let '(rs, (bs, m)) := h_prog c h ([], no_memory) in bs = [] -> blocks m = [].
Proof. exact no_leak. Qed.
Print Assumptions C82_no_leak.

(** Non-vacuity: 9999.5 is rounded to 10000 (takes the spare word), cloned, rounded again (which moves it to a new
    block), a NaN is given a typmod (in debug builds a panic, the buffer is null then), a result of arithmetic
    is out of range, buffers go out of scope in another order than they were made. *)
Definition fives : nat -> Z := fun _ => 5.
Definition prog_ex : list (cmd * (nat -> Z)) := map (fun k => (k, fives))
  [New (sample n_c); Mutate 0 (ORound 0); Dup 0; Mutate 0 (ORound (-5)); New (nan_layout false);
   Compute (Number false 40000 0 []); Compute (Number true 1 0 [0; 1]); Mutate 2 (OTypmod (9 * 65536 + 2 + 4)); Drop 0; Mutate 0 ONegate].
Example C82_example : Forall (cmd_ok dbgc) (map fst prog_ex) /\
  (let '(rs, (bs, m)) := h_prog dbgc prog_ex ([], no_memory) in
   rs = [Ret false; Ret false; Ret false; Ret false; Ret false; Ret true; Ret false; Panic WAssert; Ret false; Ret false] /\
   bs = [HBuf (Some 1) 12 4; HBuf None 10 4; HBuf (Some 5) 14 6] /\
   blocks m = [(1, [5; 5; 32; 0; -24575; 1]); (5, [5; 5; 5; 32; 0; -24576; 1])]) /\
  (let '(rs, (bs, m)) := h_prog dbgc (prog_ex ++ [(Drop 1, fives); (Drop 1, fives); (Drop 0, fives)]) ([], no_memory) in
   bs = [] /\ blocks m = [] /\ next m = 6).
Proof.
  split.
  - assert (V : valid false (sample n_c)) by (right; exists (value n_c), (scale n_c); exact (sample_stores n_c n_c_canonical)).
    repeat (apply Forall_cons; [cbn [map fst cmd_ok be_varlen dbgc digs scale]; try exact V; try exact I; try (now left)|]); [..|constructor].
    + split; [constructor|]. split; [lia|]. exists 0. reflexivity.
    + split; [repeat constructor; lia|]. split; [lia|]. exists (-1). reflexivity.
  - split; vm_compute; repeat split; reflexivity.
Qed.
