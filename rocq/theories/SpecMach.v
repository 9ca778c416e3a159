(** * SpecMach: what it means for the machine-level transcription (Mach.v) to agree with the byte-level model. *)
From Coq Require Import ZArith List Bool.
From Verif Require Import Base Binary Parse Num Data SpecData.
Open Scope Z_scope.

(** Both return, and the buffer returned shows exactly the bytes returned (or both return none); or both
    panic for the same reason. Undefined behaviour or a loop that does not end agrees with nothing. *)
Definition agrees (c : cfg) (m : outcome (option pbuf)) (r : outcome (option bytes)) : Prop :=
  match m, r with
  | Ret b, Ret x => shows c b x
  | Panic w, Panic w' => w = w'
  | _, _ => False
  end.
(** the same for loops without a bound: or neither has ended after the iterations allowed *)
Definition agrees_run (c : cfg) (m : outcome (option pbuf)) (r : outcome (option bytes)) : Prop :=
  agrees c m r \/ (m = Diverge /\ r = Diverge).
(** the same, for operations that return a number *)
Definition some_buf (m : outcome pbuf) : outcome (option pbuf) := b <- m ;; Ret (Some b).
Definition some (r : outcome bytes) : outcome (option bytes) := x <- r ;; Ret (Some x).
(** parsing: both return a number, and the buffer shows the bytes; or both return the same error *)
Definition parses (c : cfg) (m : outcome (pres pbuf)) (r : outcome (pres bytes)) : Prop :=
  match m, r with
  | Ret (inl b), Ret (inl x) => shows c (Some b) (Some x)
  | Ret (inr e), Ret (inr e') => e = e'
  | _, _ => False
  end.
