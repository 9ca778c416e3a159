(** * SpecWrite: what a writer sees *)
From Coq Require Import ZArith List Bool.
From Verif Require Import Base Format Write.
Import ListNotations.
Open Scope Z_scope.

Definition text_of (p : piece) : list Z := match p with Ch c => [c] | St t => t end.
(** the text of a sequence of calls *)
Definition texts (ps : list piece) : list Z := flat_map text_of ps.

(** The calls are made one after the other up to the first one that is refused. *)
Fixpoint feed {S} (w : writer S) (ps : list piece) (s : S) : bool * S :=
  match ps with
  | [] => (true, s)
  | p :: t => let '(ok, s) := w s p in if ok then feed w t s else (false, s)
  end.

(** A String: takes everything. *)
Definition string_writer : writer (list Z) := fun s p => (true, s ++ text_of p).
(** A writer that keeps what it accepts, and accepts what [ok] says. *)
Definition choosy (ok : list Z -> piece -> bool) : writer (list Z) :=
  fun s p => if ok s p then (true, s ++ text_of p) else (false, s).
