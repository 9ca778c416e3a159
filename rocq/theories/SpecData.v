(** * SpecData: histories of in-place operations, on buffers and on byte strings *)
From Coq Require Import ZArith List Bool.
From Verif Require Import Base Var Binary Num Data.
Import ListNotations.
Open Scope Z_scope.

(** One in-place operation; [OClone] replaces the number by its clone. *)
Inductive op := ONegate | OAbs | ORound (scale : Z) | OTrunc (scale : Z) | OTypmod (t : Z) | OClone.

Definition flag {A B} (r : outcome A * option B) : outcome bool * option B :=
  (match fst r with Ret _ => Ret false | Panic w => Panic w | UB => UB | Diverge => Diverge end, snd r).

(** On the bytes alone (the model of Num.v, which knows no buffers); the result is the boolean of
    apply_typmod, false for the other operations, and the number afterwards ([None]: null buffer). *)
Definition step (c : cfg) (o : op) (x : nbuf) : outcome bool * nbuf :=
  match o with
  | ONegate => flag (negate_mut c x)
  | OAbs => flag (abs_mut c x)
  | ORound k => flag (round_mut c x k)
  | OTrunc k => flag (trunc_mut c x k)
  | OTypmod t => apply_typmod c x t
  | OClone => match (y <- deref x ;; num_clone c y) with
              | Ret y => (Ret false, Some y)
              | Panic w => (Panic w, x) | UB => (UB, x) | Diverge => (Diverge, x)
              end
  end.

(** On the buffer, with the unspecified content [a] of any new allocation. *)
Definition p_step (c : cfg) (a : nat -> Z) (o : op) (b : option pbuf) : outcome bool * option pbuf :=
  match o with
  | ONegate => flag (p_negate_mut c a b)
  | OAbs => flag (p_abs_mut c a b)
  | ORound k => flag (p_round_mut c a b k)
  | OTrunc k => flag (p_trunc_mut c a b k)
  | OTypmod t => p_apply_typmod c a b t
  | OClone => match b with
              | Some b0 => match p_clone c a b0 with
                           | Ret y => (Ret false, Some y)
                           | Panic w => (Panic w, b) | UB => (UB, b) | Diverge => (Diverge, b)
                           end
              | None => (UB, b)
              end
  end.

(** A history: all outcomes and the final state. After an operation has left no number, the history
    ends (using the null buffer is undefined behaviour). *)
Fixpoint run (c : cfg) (h : list op) (x : nbuf) : list (outcome bool) * nbuf :=
  match h, x with
  | [], _ => ([], x)
  | _, None => ([], None)
  | o :: t, Some _ => let '(r, x') := step c o x in let '(rs, y) := run c t x' in (r :: rs, y)
  end.
Fixpoint p_run (c : cfg) (h : list (op * (nat -> Z))) (b : option pbuf) : list (outcome bool) * option pbuf :=
  match h, b with
  | [], _ => ([], b)
  | _, None => ([], None)
  | (o, a) :: t, Some _ => let '(r, b') := p_step c a o b in let '(rs, y) := p_run c t b' in (r :: rs, y)
  end.

(** What the buffer shows through as_bytes. *)
Definition shows (c : cfg) (b : option pbuf) (x : nbuf) : Prop :=
  match b, x with
  | Some b, Some x => as_bytes c b = Ret x
  | None, None => True
  | _, _ => False
  end.

(** How a [NumericBuf] comes about: [to_owned] of a stored number, or [make_result] of a variable whose
    digits were written into a fresh buffer (arithmetic, parsing). *)
Definition p_to_owned (c : cfg) (a : nat -> Z) (x : bytes) : outcome pbuf :=
  v <- as_var c x ;; p_into_buf c a (PVar (ndigits v) (weight v) (dscale v) (sign v) (Borrowed (digits v))).
Definition p_computed (c : cfg) (a : nat -> Z) (v : var) : outcome (option pbuf) :=
  d <- to_owned c a (digits v) ;; p_make_result c a (PVar (ndigits v) (weight v) (dscale v) (sign v) (Owned d)).
