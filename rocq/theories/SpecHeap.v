(** * SpecHeap: programs with several NumericBufs, in memory and as byte strings *)
From Coq Require Import ZArith QArith List Bool.
From Verif Require Import Base Var Binary Parse Num Data Heap Spec SpecApi SpecData.
Import ListNotations.
Open Scope Z_scope.

(** One statement of a program whose variables are the NumericBufs of a list. *)
Inductive cmd :=
| New (x : bytes)              (* push the to_owned of a stored number *)
| Compute (n : number)         (* push the make_result of freshly written digits (arithmetic, parsing) *)
| Mutate (i : nat) (o : op)    (* an in-place operation on the i-th *)
| Dup (i : nat)                (* push a clone of the i-th *)
| Drop (i : nat).              (* the i-th goes out of scope *)

Definition cmd_ok (c : cfg) (k : cmd) : Prop :=
  match k with
  | New x => valid (be_varlen c) x
  | Compute n => Forall (fun d => 0 <= d <= 9999) (digs n) /\ 0 <= scale n /\
                 exists k : Z, (value n * ten ^ scale n == inject_Z k)%Q
  | _ => True
  end.

Definition var_of (n : number) : var := Var (wt n) (scale n) (if neg n then SNeg else SPos) (digs n).
Definition without {A} (i : nat) (l : list A) : list A := firstn i l ++ skipn (S i) l.

(** As byte strings ([None]: the null buffer a panic or an overflow leaves). A program does not use a null
    buffer or one that is not there (such statements are skipped), except that it may drop it. *)
Definition s_exec (c : cfg) (k : cmd) (xs : list nbuf) : outcome bool * list nbuf :=
  match k with
  | New x => (Ret false, xs ++ [Some x])
  | Compute n => match make_result c (var_of n) with
                 | Ret (Some x) => (Ret false, xs ++ [Some x])
                 | Ret None => (Ret true, xs)
                 | o => (again o UB, xs)
                 end
  | Mutate i o => match nth_error xs i with
                  | Some (Some x) => let '(r, x') := step c o (Some x) in (r, set_nth xs i x')
                  | _ => (Ret false, xs)
                  end
  | Dup i => match nth_error xs i with
             | Some (Some x) => (Ret false, xs ++ [Some x])
             | _ => (Ret false, xs)
             end
  | Drop i => (Ret false, without i xs)
  end.

(** In memory; [a] is what fresh memory contains. *)
Definition h_step (c : cfg) (a : nat -> Z) (o : op) : M (hbuf * mem) bool :=
  match o with
  | ONegate => h_negate_mut c a
  | OAbs => h_abs_mut c a
  | ORound k => h_round_mut c a k
  | OTrunc k => h_trunc_mut c a k
  | OTypmod t => h_apply_typmod c a t
  | OClone => fun '(b, m) =>          (* x = x.clone() *)
      match h_clone c a b m with
      | (Ret y, m) => let '(o, m) := drop_buf b m in (again o (Ret false), (y, m))
      | (o, m) => (again o UB, (b, m))
      end
  end.
Definition push (bs : list hbuf) (r : outcome hbuf * mem) : outcome bool * (list hbuf * mem) :=
  match r with (Ret b, m) => (Ret false, (bs ++ [b], m)) | (o, m) => (again o UB, (bs, m)) end.
Definition h_exec (c : cfg) (a : nat -> Z) (k : cmd) (s : list hbuf * mem) : outcome bool * (list hbuf * mem) :=
  let '(bs, m) := s in
  match k with
  | New x => push bs (h_copy c a x m)
  | Compute n => match h_computed c a (var_of n) m with
                 | (Ret (Some b), m) => (Ret false, (bs ++ [b], m))
                 | (Ret None, m) => (Ret true, (bs, m))
                 | (o, m) => (again o UB, (bs, m))
                 end
  | Mutate i o => match nth_error bs i with
                  | Some b => match hb_ptr b with
                              | Some _ => let '(r, (b', m)) := h_step c a o (b, m) in (r, (set_nth bs i b', m))
                              | None => (Ret false, s)
                              end
                  | None => (Ret false, s)
                  end
  | Dup i => match nth_error bs i with
             | Some b => match hb_ptr b with Some _ => push bs (h_clone c a b m) | None => (Ret false, s) end
             | None => (Ret false, s)
             end
  | Drop i => match nth_error bs i with
              | Some b => let '(o, m) := drop_buf b m in (again o (Ret false), (without i bs, m))
              | None => (Ret false, s)
              end
  end.

Fixpoint s_prog (c : cfg) (h : list cmd) (xs : list nbuf) : list (outcome bool) * list nbuf :=
  match h with
  | [] => ([], xs)
  | k :: t => let '(r, xs) := s_exec c k xs in let '(rs, xs) := s_prog c t xs in (r :: rs, xs)
  end.
Fixpoint h_prog (c : cfg) (h : list (cmd * (nat -> Z))) (s : list hbuf * mem) : list (outcome bool) * (list hbuf * mem) :=
  match h with
  | [] => ([], s)
  | (k, a) :: t => let '(r, s) := h_exec c a k s in let '(rs, s) := h_prog c t s in (r :: rs, s)
  end.

Definition no_memory : mem := Mem [] 0.
(** the addresses the buffers point to *)
Definition pointers (bs : list hbuf) : list addr :=
  flat_map (fun b => match hb_ptr b with Some p => [p] | None => [] end) bs.
(** what the buffers show *)
Definition shown (c : cfg) (m : mem) (b : hbuf) (x : nbuf) : Prop :=
  match x with
  | Some x => h_deref c b m = Ret x
  | None => hb_ptr b = None
  end.
