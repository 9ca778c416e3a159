(** * Base: build configuration, outcomes, fixed-width arithmetic, slices.

    Shared vocabulary of the model of cod-technologies/pgnumeric. *)
From Coq Require Import ZArith List Bool.
Import ListNotations.
Open Scope Z_scope.

(** Build configuration.
    [dbg]       : debug build ([debug_assert!] active, arithmetic overflow panics) or
                  release build (assertions compiled out, arithmetic wraps).
    [be_varlen] : the cargo feature [big-endian-varlen] (binary.rs lines 305-325).
    The host is assumed to be little-endian. *)
Record cfg := Cfg { dbg : bool; be_varlen : bool }.

(** Panic messages that the API documents or that callers can observe. *)
Inductive msg :=
| MDivZero          (* "attempt to divide by zero"        num.rs 28 *)
| MOverflow         (* "value overflows numeric format"   num.rs 29 *)
| MMulOverflow      (* "attempt to multiply with overflow" var.rs 2223 *)
| MInvalidCmp       (* "invalid comparison result" *)
| MSqrtNeg          (* "cannot take square root of a negative number" *)
| MLogZero          (* "cannot take logarithm of zero" *)
| MLogNeg           (* "cannot take logarithm of a negative number" *)
| MZeroPowNeg       (* "zero raised to a negative power is undefined" *)
| MNegPowFrac       (* "a negative number raised to a non-integer power ..." *)
| MShouldNotBeZero  (* "should not be zero" var.rs 1598 *)
| MUnwrap.          (* Result::unwrap on Err *)

(** Causes of a panic. *)
Inductive why :=
| WArith            (* arithmetic overflow check (debug build only) *)
| WAssert           (* a debug_assert! failed (debug build only) *)
| WBounds           (* slice index out of range *)
| WDivZero          (* integer division by zero *)
| WMsg (m : msg).   (* explicit panic!/expect/assert! *)

(** What a call can do: return, panic, exhibit undefined behaviour
    (out-of-bounds unsafe access, null dereference), or not terminate
    within the fuel handed to a loop. *)
Inductive outcome (A : Type) :=
| Ret (a : A)
| Panic (w : why)
| UB
| Diverge.
Arguments Ret {A} a.
Arguments Panic {A} w.
Arguments UB {A}.
Arguments Diverge {A}.

Definition bind {A B} (x : outcome A) (f : A -> outcome B) : outcome B :=
  match x with
  | Ret a => f a
  | Panic w => Panic w
  | UB => UB
  | Diverge => Diverge
  end.

Notation "x <- e ;; k" := (bind e (fun x => k))
  (at level 61, e at next level, right associativity).
Notation "' p <- e ;; k" := (bind e (fun p => k))
  (at level 61, p pattern, e at next level, right associativity).
Notation "e ;;; k" := (bind e (fun _ => k))
  (at level 61, right associativity).

(** [debug_assert!(b)]. *)
Definition dassert (c : cfg) (b : bool) : outcome unit :=
  if dbg c && negb b then Panic WAssert else Ret tt.

(** [assert!(b, m)] / [opt.expect(m)]. *)
Definition assert_msg (b : bool) (m : msg) : outcome unit :=
  if b then Ret tt else Panic (WMsg m).

Definition expect {A} (o : option A) (m : msg) : outcome A :=
  match o with Some a => Ret a | None => Panic (WMsg m) end.

(** Two's complement wrapping to [bits] bits (signed), i.e. an [as iN] cast. *)
Definition wrap (bits x : Z) : Z :=
  (x + 2 ^ (bits - 1)) mod 2 ^ bits - 2 ^ (bits - 1).

Definition fits (bits x : Z) : bool :=
  (- 2 ^ (bits - 1) <=? x) && (x <? 2 ^ (bits - 1)).

(** Result of a signed fixed-width operation whose exact result is [x]:
    panic on overflow in a debug build, wrap in a release build. *)
Definition arith (c : cfg) (bits x : Z) : outcome Z :=
  if fits bits x then Ret x
  else if dbg c then Panic WArith else Ret (wrap bits x).

Definition i16 (c : cfg) (x : Z) : outcome Z := arith c 16 x.
Definition i32 (c : cfg) (x : Z) : outcome Z := arith c 32 x.

(** Casts [x as i16]. *)
Definition as_i16 (x : Z) : Z := wrap 16 x.

Definition lenz {A} (l : list A) : Z := Z.of_nat (length l).

(** [slice[i]] (bounds-checked) and [slice.get_unchecked(i)]. *)
Definition index {A} (l : list A) (i : Z) : outcome A :=
  if i <? 0 then Panic WBounds
  else match nth_error l (Z.to_nat i) with
       | Some a => Ret a
       | None => Panic WBounds
       end.

Definition get_unchecked {A} (l : list A) (i : Z) : outcome A :=
  if i <? 0 then UB
  else match nth_error l (Z.to_nat i) with
       | Some a => Ret a
       | None => UB
       end.

(** [*slice.get_unchecked_mut(i) = x]. *)
Fixpoint set_nth {A} (l : list A) (i : nat) (x : A) : list A :=
  match l, i with
  | [], _ => []
  | _ :: t, O => x :: t
  | a :: t, S i' => a :: set_nth t i' x
  end.

Definition set_unchecked {A} (l : list A) (i : Z) (x : A) : outcome (list A) :=
  if (i <? 0) || (lenz l <=? i) then UB
  else Ret (set_nth l (Z.to_nat i) x).

Definition zeros (n : Z) : list Z := repeat 0 (Z.to_nat n).
