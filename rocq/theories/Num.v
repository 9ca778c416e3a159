(** * Num: the public API of src/num.rs and src/ops.rs on stored numerics.

    [bytes] is what [Numeric]/[NumericBuf] expose through as_bytes; a [NumericBuf] as a mutable
    object is an [option bytes], [None] being the null buffer that [as_var_owned] leaves behind
    (num.rs 171-179). *)
From Coq Require Import ZArith List Bool.
From Verif Require Import Base Var Binary Format Parse Typmod Convert.
Import ListNotations.
Open Scope Z_scope.

(** num.rs 450-463 *)
Definition num_negate (c : cfg) (x : bytes) : outcome bytes :=
  nan <- num_is_nan c x ;;
  if (nan : bool) then nan_buf c
  else v <- as_var c x ;; v <- negate c v ;; make_result_no_overflow c v.

(** num.rs 471-480 *)
Definition num_signum (c : cfg) (x : bytes) : outcome bytes :=
  nan <- num_is_nan c x ;;
  if (nan : bool) then nan_buf c
  else v <- as_var c x ;; v <- signum c v ;; make_result_no_overflow c v.

(** num.rs 486-499 *)
Definition num_inc (c : cfg) (x : bytes) : outcome bytes :=
  nan <- num_is_nan c x ;;
  if (nan : bool) then nan_buf c
  else v <- as_var c x ;; v <- inc c v ;; o <- make_result c v ;; expect o MOverflow.

(** The common shape of the binary operations: NaN check, then the operation. *)
Definition with_nan2 (c : cfg) (x y : bytes) (k : var -> var -> outcome (option bytes))
  : outcome (option bytes) :=
  nx <- num_is_nan c x ;;
  ny <- (if (nx : bool) then Ret true else num_is_nan c y) ;;
  if (ny : bool) then b <- nan_buf c ;; Ret (Some b)
  else v1 <- as_var c x ;; v2 <- as_var c y ;; k v1 v2.

(** num.rs 503-516 *)
Definition checked_add (c : cfg) (x y : bytes) : outcome (option bytes) :=
  with_nan2 c x y (fun v1 v2 => r <- add_common c v1 v2 ;; make_result c r).
(** num.rs 520-533 *)
Definition checked_sub (c : cfg) (x y : bytes) : outcome (option bytes) :=
  with_nan2 c x y (fun v1 v2 => r <- sub_common c v1 v2 ;; make_result c r).
(** num.rs 537-554 *)
Definition checked_mul (c : cfg) (x y : bytes) : outcome (option bytes) :=
  with_nan2 c x y (fun v1 v2 =>
    r <- mul_common c v1 v2 (dscale v1 + dscale v2) ;; make_result c r).

Definition make_result_opt (c : cfg) (o : option var) : outcome (option bytes) :=
  match o with None => Ret None | Some r => make_result c r end.

(** num.rs 586-601 *)
Definition checked_div (c : cfg) (x y : bytes) : outcome (option bytes) :=
  with_nan2 c x y (fun v1 v2 => o <- checked_div_var c v1 v2 ;; make_result_opt c o).
(** num.rs 605-620 *)
Definition checked_div_trunc (c : cfg) (x y : bytes) : outcome (option bytes) :=
  with_nan2 c x y (fun v1 v2 => o <- checked_div_trunc_var c v1 v2 ;; make_result_opt c o).
(** num.rs 651-665 *)
Definition checked_rem (c : cfg) (x y : bytes) : outcome (option bytes) :=
  with_nan2 c x y (fun v1 v2 => o <- mod_common c v1 v2 ;; make_result_opt c o).

(** num.rs 562-582 and ops.rs 361-373, 441-452: the [/] operator. *)
Definition op_div (c : cfg) (x y : bytes) : outcome bytes :=
  nx <- num_is_nan c x ;;
  ny <- (if (nx : bool) then Ret true else num_is_nan c y) ;;
  if (ny : bool) then nan_buf c
  else
    v1 <- as_var c x ;; v2 <- as_var c y ;;
    o <- checked_div_var c v1 v2 ;;
    r <- expect o MDivZero ;;
    o <- make_result c r ;;
    expect o MOverflow.

(** num.rs 628-648 and ops.rs 483-495, 563-575: the [%] operator. *)
Definition op_rem (c : cfg) (x y : bytes) : outcome bytes :=
  nx <- num_is_nan c x ;;
  ny <- (if (nx : bool) then Ret true else num_is_nan c y) ;;
  if (ny : bool) then nan_buf c
  else
    v1 <- as_var c x ;; v2 <- as_var c y ;;
    o <- mod_common c v1 v2 ;;
    r <- expect o MDivZero ;;
    o <- make_result c r ;;
    expect o MOverflow.

(** ops.rs 23-107, 135-219, 247-331: the [+], [-], [*] operators; every owned/borrowed
    combination forwards to the checked operation on the two [&Numeric]. *)
Definition op_add (c : cfg) (x y : bytes) : outcome bytes :=
  o <- checked_add c x y ;; expect o MOverflow.
Definition op_sub (c : cfg) (x y : bytes) : outcome bytes :=
  o <- checked_sub c x y ;; expect o MOverflow.
Definition op_mul (c : cfg) (x y : bytes) : outcome bytes :=
  o <- checked_mul c x y ;; expect o MOverflow.

(** num.rs 672-686 *)
Definition num_round (c : cfg) (x : bytes) (scale : Z) : outcome bytes :=
  nan <- num_is_nan c x ;;
  if (nan : bool) then nan_buf c
  else v <- as_var c x ;; v <- round_var c v scale ;;
       o <- make_result c v ;; expect o MOverflow.

(** num.rs 691-702 *)
Definition num_trunc (c : cfg) (x : bytes) (scale : Z) : outcome bytes :=
  nan <- num_is_nan c x ;;
  if (nan : bool) then nan_buf c
  else v <- as_var c x ;; v <- trunc_var c v scale ;; make_result_no_overflow c v.

(** num.rs 708-720 *)
Definition num_ceil (c : cfg) (x : bytes) : outcome bytes :=
  nan <- num_is_nan c x ;;
  if (nan : bool) then nan_buf c
  else v <- as_var c x ;; v <- ceil_common c v ;;
       o <- make_result c v ;; expect o MOverflow.

(** num.rs 726-738 *)
Definition num_floor (c : cfg) (x : bytes) : outcome bytes :=
  nan <- num_is_nan c x ;;
  if (nan : bool) then nan_buf c
  else v <- as_var c x ;; v <- floor_common c v ;;
       o <- make_result c v ;; expect o MOverflow.

(** num.rs 741-752 *)
Definition num_abs (c : cfg) (x : bytes) : outcome bytes :=
  nan <- num_is_nan c x ;;
  if (nan : bool) then nan_buf c
  else v <- as_var c x ;; v <- abs_var c v ;; encode c v.

(** num.rs 879-882 *)
Definition num_normalize (c : cfg) (x : bytes) : outcome text :=
  v <- as_var c x ;; normalize c v.

(** num.rs 985-990 / 238-243: Display *)
Definition num_display (c : cfg) (x : bytes) : outcome text :=
  v <- as_var c x ;; write c v.

(** num.rs 884-908: cmp, and ops.rs 633-790 (every PartialEq/PartialOrd/Ord impl forwards to it) *)
Definition num_cmp (c : cfg) (x y : bytes) : outcome comparison :=
  nx <- num_is_nan c x ;;
  if (nx : bool) then
    ny <- num_is_nan c y ;;
    Ret (if (ny : bool) then Eq else Gt)
  else
    ny <- num_is_nan c y ;;
    if (ny : bool) then Ret Lt
    else
      v1 <- as_var c x ;; v2 <- as_var c y ;;
      r <- cmp_common c v1 v2 ;;
      Ret (if 0 <? r then Gt else if r <? 0 then Lt else Eq).

Definition num_eq (c : cfg) (x y : bytes) : outcome bool :=
  r <- num_cmp c x y ;; Ret (match r with Eq => true | _ => false end).

(** num.rs 910-961: the data fed to the hasher. Hashing a digit slice writes its length
    and then its elements. *)
Inductive hash_event :=
| HU8 (x : Z)
| HLen (n : Z)
| HDigits (ds : list Z)
| HI32 (x : Z)
| HI8 (x : Z).

Fixpoint leading_zeros (ds : list Z) : Z :=
  match ds with
  | [] => 0
  | d :: t => if d =? 0 then 1 + leading_zeros t else 0
  end.

Definition num_hash (c : cfg) (x : bytes) : outcome (list hash_event) :=
  v <- as_var c x ;;
  if is_nan v then Ret []
  else
    let start_offset := leading_zeros (digits v) in
    let weight := weight v - start_offset in
    if ndigits v =? start_offset then Ret [HU8 0]
    else
      let end_offset := leading_zeros (rev (digits v)) in
      dassert c (start_offset + end_offset <? ndigits v) ;;;
      let ds := firstn (Z.to_nat (ndigits v - end_offset - start_offset))
                       (skipn (Z.to_nat start_offset) (digits v)) in
      Ret [HLen (lenz ds); HDigits ds; HI32 weight; HI8 (if is_positive v then 1 else -1)].

(** num.rs 963-975: to_owned; num.rs 214-219: clone *)
Definition num_to_owned (c : cfg) (x : bytes) : outcome bytes :=
  v <- as_var c x ;;
  if is_nan v then nan_buf c else encode c v.
Definition num_clone (c : cfg) (x : bytes) : outcome bytes :=
  v <- as_var c x ;; encode c v.

(** num.rs 129-134: factorial *)
Definition num_factorial (c : cfg) (n : Z) : outcome (option bytes) :=
  o <- factorial_var c n ;; make_result_opt c o.

(** ** In-place operations on a [NumericBuf] *)

Definition nbuf := option bytes.

(** Dereferencing a NumericBuf (num.rs 155-169): null is undefined behaviour. *)
Definition deref (b : nbuf) : outcome bytes :=
  match b with Some x => Ret x | None => UB end.

(** Run an in-place computation after [as_var_owned] has nulled the buffer: only a stored
    result gives the buffer back. *)
Definition stored {A} (r : outcome (A * option bytes)) : outcome A * nbuf :=
  match r with
  | Ret (a, o) => (Ret a, o)
  | Panic w => (Panic w, None)
  | UB => (UB, None)
  | Diverge => (Diverge, None)
  end.

(** An early exit that leaves the buffer untouched. *)
Definition untouched {A} (r : outcome A) (b : nbuf) : outcome A * nbuf := (r, b).

(** num.rs 67-78: negate_mut *)
Definition negate_mut (c : cfg) (b : nbuf) : outcome unit * nbuf :=
  match (x <- deref b ;; n <- num_is_nan c x ;; Ret (x, n)) with
  | Ret (x, true) => untouched (Ret tt) b
  | Ret (x, false) =>
      stored (v <- into_var c x ;; v <- negate c v ;; y <- encode c v ;; Ret (tt, Some y))
  | Panic w => untouched (Panic w) b
  | UB => untouched UB b
  | Diverge => untouched Diverge b
  end.

(** num.rs 80-93: abs_mut *)
Definition abs_mut (c : cfg) (b : nbuf) : outcome unit * nbuf :=
  match (x <- deref b ;; n <- num_is_nan c x ;; g <- num_is_negative c x ;; Ret (x, n, g)) with
  | Ret (x, true, _) => untouched (Ret tt) b
  | Ret (x, false, false) => untouched (Ret tt) b
  | Ret (x, false, true) =>
      stored (v <- into_var c x ;; v <- abs_var c v ;; y <- encode c v ;; Ret (tt, Some y))
  | Panic w => untouched (Panic w) b
  | UB => untouched UB b
  | Diverge => untouched Diverge b
  end.

(** num.rs 95-113: round_mut. On overflow it panics and the buffer stays null. *)
Definition round_mut (c : cfg) (b : nbuf) (scale : Z) : outcome unit * nbuf :=
  match (x <- deref b ;; n <- num_is_nan c x ;; Ret (x, n)) with
  | Ret (x, true) => untouched (Ret tt) b
  | Ret (x, false) =>
      stored (v <- into_var c x ;; v <- round_var c v scale ;;
              o <- make_result c v ;; y <- expect o MOverflow ;; Ret (tt, Some y))
  | Panic w => untouched (Panic w) b
  | UB => untouched UB b
  | Diverge => untouched Diverge b
  end.

(** num.rs 115-127: trunc_mut *)
Definition trunc_mut (c : cfg) (b : nbuf) (scale : Z) : outcome unit * nbuf :=
  match (x <- deref b ;; n <- num_is_nan c x ;; Ret (x, n)) with
  | Ret (x, true) => untouched (Ret tt) b
  | Ret (x, false) =>
      stored (v <- into_var c x ;; v <- trunc_var c v scale ;;
              y <- make_result_no_overflow c v ;; Ret (tt, Some y))
  | Panic w => untouched (Panic w) b
  | UB => untouched UB b
  | Diverge => untouched Diverge b
  end.

(** num.rs 136-151: apply_typmod. [None] from make_result leaves the buffer null. *)
Definition apply_typmod (c : cfg) (b : nbuf) (t : Z) : outcome bool * nbuf :=
  match deref b with
  | Ret x =>
      stored (v <- into_var c x ;;
              '(overflow, v) <- apply_typmod_var c v t ;;
              o <- make_result c v ;;
              match o with
              | Some y => Ret (overflow, Some y)
              | None => Ret (true, None)
              end)
  | Panic w => untouched (Panic w) b
  | UB => untouched UB b
  | Diverge => untouched Diverge b
  end.

(** ops.rs 109-133 etc.: the compound assignment operators compute first, then store. *)
Definition op_assign (op : cfg -> bytes -> bytes -> outcome bytes) (c : cfg) (b : nbuf) (y : bytes)
  : outcome unit * nbuf :=
  match (x <- deref b ;; op c x y) with
  | Ret r => (Ret tt, Some r)
  | Panic w => (Panic w, b)
  | UB => (UB, b)
  | Diverge => (Diverge, b)
  end.

(** ops.rs 604-612: Neg for NumericBuf (by value) *)
Definition op_neg_owned (c : cfg) (x : bytes) : outcome bytes :=
  match negate_mut c (Some x) with
  | (Ret _, Some y) => Ret y
  | (Ret _, None) => UB
  | (Panic w, _) => Panic w
  | (UB, _) => UB
  | (Diverge, _) => Diverge
  end.

(** ** serde (feature "serde"), num.rs 306-372 and 1015-1067 *)

(** Human readable: the Display text; otherwise the bytes. *)
Definition serialize_text (c : cfg) (x : bytes) : outcome text := num_display c x.
Definition serialize_bytes (x : bytes) : bytes := x.
(** visit_str: parse; visit_bytes: from_bytes_unchecked then to_owned. *)
Definition deserialize_text (c : cfg) (s : text) : outcome (pres bytes) := from_str c s.
Definition deserialize_bytes (c : cfg) (x : bytes) : outcome bytes := num_to_owned c x.
