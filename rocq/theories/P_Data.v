(** * Property theorems: buffers (C20, C65, C66) *)
From Coq Require Import ZArith QArith List Bool Lia.
From Verif Require Import Base Var Binary Typmod Num Data Spec SpecApi SpecData DataApi DataDebug Samples.
Import ListNotations.
Open Scope Z_scope.

(** C20: whatever in-place operations a NumericBuf has been through (each may reallocate, and [snd] of
    a history entry is what the fresh memory happens to contain), no access leaves the buffer, the
    outcomes are those of the operations on the bytes alone, and so are the bytes afterwards. *)
Theorem C20_history : forall c a (x : bytes), valid (be_varlen c) x ->
  exists b, p_to_owned c a x = Ret b /\ as_bytes c b = Ret x /\
    forall h, let '(rs, b') := p_run c h (Some b) in let '(rs', x') := run c (map fst h) (Some x) in
      rs = rs' /\ shows c b' x' /\
      Forall (fun r => (exists y, r = Ret y) \/ (exists w, r = Panic w)) rs.
Proof. exact history. Qed.
Print Assumptions C20_history.

(** The same for a buffer made by arithmetic or parsing: any digits, leading and trailing zeros included,
    written into a fresh buffer and finished by make_result. *)
Theorem C20_computed : forall c a n,
  Forall (fun d => 0 <= d <= 9999) (digs n) -> 0 <= scale n ->
  (exists k : Z, (value n * ten ^ scale n == inject_Z k)%Q) ->
  exists o o', p_computed c a (Var (wt n) (scale n) (if neg n then SNeg else SPos) (digs n)) = Ret o /\
    shows c o o' /\
    match o' with
    | Some x => stores (be_varlen c) x (value n) (scale n)
    | None => wt n < -32767 \/ 32767 < wt n \/ 16383 < scale n
    end /\
    forall h, let '(rs, b') := p_run c h o in let '(rs', x') := run c (map fst h) o' in
      rs = rs' /\ shows c b' x' /\
      Forall (fun r => (exists y, r = Ret y) \/ (exists w, r = Panic w)) rs.
Proof. exact history_computed. Qed.
Print Assumptions C20_computed.

(** Non-vacuity: 9999.5 rounded to 10000 (the carry takes the spare word in front of the digits), then
    rounded again, cloned, negated; memory is full of 7s. *)
Definition sevens : nat -> Z := fun _ => 7.
Definition h_ex : list (op * (nat -> Z)) :=
  [(ORound 0, sevens); (ORound (-4), sevens); (OClone, sevens); (ONegate, sevens); (OTrunc 3, sevens); (OTypmod (9 * 65536 + 2 + 4), sevens)].
Example C20_history_example : valid false (sample n_c) /\
  exists b, p_to_owned dbgc sevens (sample n_c) = Ret b /\
    (let '(rs, b1) := p_run dbgc [(ORound 0, sevens)] (Some b) in
     rs = [Ret false] /\ option_map b_words b1 = Some [7; 32; 0; -32767; 1; 0; 5000] /\ option_map b_off b1 = Some 2) /\
    fst (p_run dbgc h_ex (Some b)) = [Ret false; Ret false; Ret false; Ret false; Ret false; Ret false].
Proof.
  split; [right; exists (value n_c), (scale n_c); exact (sample_stores n_c n_c_canonical)|].
  exists (PBuf [7; 7; 40; 0; -32640; 9999; 5000] 4). vm_compute. repeat split.
Qed.

(** C65 is false: a NumericBuf that is dropped frees a buffer of 2-byte words as one of bytes: the alignment
    given to the allocator is never that of the allocation. *)
Theorem C65_refuted : exists x, forall dbg be a, let c := Cfg dbg be in
  valid be (x be) /\ exists b, p_to_owned c a (x be) = Ret b /\
    layout_requested (lenz (b_words b)) = (14, 2) /\ layout_freed_by_buf b = (14, 1).
Proof.
  exists (fun be => layout be n_c). intros dbg be a c.
  split; [right; exists (value n_c), (scale n_c); exact (Api3.canonical_stores be n_c n_c_canonical)|].
  exists (PBuf [a 0%nat; a 1%nat; (if be then 0 else 40); (if be then 2560 else 0); -32640; 9999; 5000] 4).
  destruct dbg, be; (split; [reflexivity|]); split; reflexivity.
Qed.
Print Assumptions C65_refuted.

(** C65, exactly: the size is that of the allocation, the alignment never is (2 asked, 1 given back). *)
Theorem C65_drop_layout : forall b, fst (layout_freed_by_buf b) = fst (layout_requested (lenz (b_words b))) /\
  snd (layout_requested (lenz (b_words b))) = 2 /\ snd (layout_freed_by_buf b) = 1.
Proof. intro b. now split. Qed.
Print Assumptions C65_drop_layout.

(** C66 is false: two NumericBufs made from the same number show the same bytes but print differently
    with [{:?}], because Debug also prints the uninitialised words in front of the header. *)
Theorem C66_refuted : exists a a' b b', p_to_owned dbgc a (sample n_c) = Ret b /\ p_to_owned dbgc a' (sample n_c) = Ret b' /\
  as_bytes dbgc b = as_bytes dbgc b' /\ p_debug b <> p_debug b'.
Proof.
  exists sevens, (fun _ => 8), (PBuf [7; 7; 40; 0; -32640; 9999; 5000] 4), (PBuf [8; 8; 40; 0; -32640; 9999; 5000] 4).
  split; [reflexivity|]. split; [reflexivity|]. split; [reflexivity|]. vm_compute. discriminate.
Qed.
Print Assumptions C66_refuted.

(** C66, exactly: [{:?}] of a NumericBuf freshly made from a number shows one or two words of
    uninitialised memory, then exactly the bytes of the number. *)
Theorem C66_debug_shows : forall c (x : bytes), valid (be_varlen c) x ->
  exists k, (k = 1 \/ k = 2)%nat /\ forall a, exists b, p_to_owned c a x = Ret b /\ as_bytes c b = Ret x /\
    p_debug b = (flat_map (fun i => le_bytes 2 (a i)) (seq 0 k) ++ x, 2 * Z.of_nat k + lenz x, 2 * Z.of_nat k).
Proof. exact debug_shows. Qed.
Print Assumptions C66_debug_shows.
