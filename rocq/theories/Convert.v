(** * Convert: model of src/convert.rs, integer conversions.
    (Float conversions go through libc's snprintf and the strtod crate and are not modelled.) *)
From Coq Require Import ZArith List Bool.
From Verif Require Import Base Var Binary Format Parse.
Import ListNotations.
Open Scope Z_scope.

(** error.rs 74-77 *)
Inductive conv_error := CInvalid | COverflow.

(** convert.rs 98-101 and 103: number of base-10000 digits reserved per width *)
Definition max_ndigits (bits : Z) : nat :=
  if bits =? 8 then 1
  else if bits =? 16 then 2
  else if bits =? 32 then 3
  else if bits =? 64 then 5
  else 10.

(** convert.rs 70-75 (impl_unsigned) and 106-109 (u8): next_digit *)
Definition next_digit (bits val : Z) : Z * Z :=
  if bits =? 8 then (val, 0)
  else
    let new_val := Z.quot val NBASE in
    (as_i16 (val - new_val * NBASE), new_val).

(** The loop convert.rs 232-247: [k] free slots remain; [acc] is what has been written. *)
Fixpoint to_digits (bits : Z) (k : nat) (val : Z) (acc : list Z) : outcome (list Z) :=
  match k with
  | O => Panic WBounds
  | S k' =>
      let '(digit, new_val) := next_digit bits val in
      if new_val =? 0 then Ret (digit :: acc)
      else to_digits bits k' new_val (digit :: acc)
  end.

(** convert.rs 225-251 *)
Definition unsigned_to_var (bits val : Z) (sg : sgn) : outcome var :=
  ds <- to_digits bits (max_ndigits bits) val [] ;;
  Ret (Var (lenz ds - 1) 0 sg ds).

(** convert.rs 176-183: Signed::abs; [-(self + 1) as uN + 1] *)
Definition signed_abs (val : Z) : Z := if 0 <=? val then val else - (val + 1) + 1.

(** convert.rs 198-212: from_signed *)
Definition from_signed (bits val : Z) : outcome var :=
  if val =? 0 then Ret zero_var
  else unsigned_to_var bits (signed_abs val) (if val <? 0 then SNeg else SPos).

(** convert.rs 215-223: from_unsigned *)
Definition from_unsigned (bits val : Z) : outcome var :=
  if val =? 0 then Ret zero_var else unsigned_to_var bits val SPos.

(** convert.rs 316-334: From<iN>/From<uN> for NumericBuf *)
Definition num_from_signed (c : cfg) (bits val : Z) : outcome bytes :=
  v <- from_signed bits val ;; make_result_no_overflow c v.
Definition num_from_unsigned (c : cfg) (bits val : Z) : outcome bytes :=
  v <- from_unsigned bits val ;; make_result_no_overflow c v.
(** convert.rs 347-353: From<bool> *)
Definition num_from_bool (c : cfg) (b : bool) : outcome bytes :=
  num_from_unsigned c 8 (if b then 1 else 0).

Definition fits_signed (bits x : Z) : bool := fits bits x.
Definition fits_unsigned (bits x : Z) : bool := (0 <=? x) && (x <? 2 ^ bits).

(** The loop convert.rs 430-448: indexes [i .. weight] ([k] of them), value accumulated as a
    negative number. *)
Fixpoint into_signed_loop (bits : Z) (k : nat) (i : Z) (ds : list Z) (val : Z)
  : outcome (Z + conv_error) :=
  match k with
  | O => Ret (inl val)
  | S k' =>
      if fits_signed bits (val * NBASE) then
        let val := val * NBASE in
        if i <? lenz ds then
          d <- index ds i ;;
          if fits_signed bits (val - d) then into_signed_loop bits k' (i + 1) ds (val - d)
          else Ret (inr COverflow)
        else into_signed_loop bits k' (i + 1) ds val
      else Ret (inr COverflow)
  end.

(** convert.rs 401-459: into_signed for a type of [bits] >= 16 bits *)
Definition into_signed (c : cfg) (bits : Z) (v : var) : outcome (Z + conv_error) :=
  dassert c (16 <=? bits) ;;;
  if is_nan v then Ret (inr CInvalid)
  else
    v <- round_common c v 0 ;;
    let v := strip v in
    if ndigits v =? 0 then Ret (inl 0)
    else
      dassert c (0 <=? weight v) ;;;
      dassert c (ndigits v <=? weight v + 1) ;;;
      d0 <- index (digits v) 0 ;;
      dassert c (fits_signed bits d0) ;;;
      r <- into_signed_loop bits (Z.to_nat (weight v)) 1 (digits v) (- d0) ;;
      match r with
      | inr e => Ret (inr e)
      | inl val =>
          if is_negative v then Ret (inl val)
          else if val =? - 2 ^ (bits - 1) then Ret (inr COverflow)
          else Ret (inl (- val))
      end.

(** The loop convert.rs 493-511. *)
Fixpoint into_unsigned_loop (bits : Z) (k : nat) (i : Z) (ds : list Z) (val : Z)
  : outcome (Z + conv_error) :=
  match k with
  | O => Ret (inl val)
  | S k' =>
      if fits_unsigned bits (val * NBASE) then
        let val := val * NBASE in
        if i <? lenz ds then
          d <- index ds i ;;
          if fits_unsigned bits (val + d) then into_unsigned_loop bits k' (i + 1) ds (val + d)
          else Ret (inr COverflow)
        else into_unsigned_loop bits k' (i + 1) ds val
      else Ret (inr COverflow)
  end.

(** convert.rs 462-514: into_unsigned *)
Definition into_unsigned (c : cfg) (bits : Z) (v : var) : outcome (Z + conv_error) :=
  dassert c (16 <=? bits) ;;;
  if is_nan v then Ret (inr CInvalid)
  else
    v <- round_common c v 0 ;;
    let v := strip v in
    if ndigits v =? 0 then Ret (inl 0)
    else if is_negative v then Ret (inr COverflow)
    else
      dassert c (0 <=? weight v) ;;;
      dassert c (ndigits v <=? weight v + 1) ;;;
      d0 <- index (digits v) 0 ;;
      into_unsigned_loop bits (Z.to_nat (weight v)) 1 (digits v) d0.

(** convert.rs 540-572: TryFrom<NumericVar> for iN (i8 through i16) *)
Definition var_to_signed (c : cfg) (bits : Z) (v : var) : outcome (Z + conv_error) :=
  if bits =? 8 then
    r <- into_signed c 16 v ;;
    match r with
    | inl val => if (127 <? val) || (val <? -128) then Ret (inr COverflow) else Ret (inl val)
    | inr e => Ret (inr e)
    end
  else into_signed c bits v.

(** convert.rs 545-586: TryFrom<NumericVar> for uN (u8 through u16) *)
Definition var_to_unsigned (c : cfg) (bits : Z) (v : var) : outcome (Z + conv_error) :=
  if bits =? 8 then
    r <- into_unsigned c 16 v ;;
    match r with
    | inl val => if 255 <? val then Ret (inr COverflow) else Ret (inl val)
    | inr e => Ret (inr e)
    end
  else into_unsigned c bits v.

(** convert.rs 658-693: TryFrom<&Numeric>/TryFrom<&NumericBuf> for integers (by reference) and
    TryFrom<NumericBuf> (by value, through into_var). isize/usize are the 64-bit case. *)
Definition num_to_signed (c : cfg) (bits : Z) (x : bytes) : outcome (Z + conv_error) :=
  v <- as_var c x ;; var_to_signed c bits v.
Definition num_to_unsigned (c : cfg) (bits : Z) (x : bytes) : outcome (Z + conv_error) :=
  v <- as_var c x ;; var_to_unsigned c bits v.
Definition buf_to_signed (c : cfg) (bits : Z) (x : bytes) : outcome (Z + conv_error) :=
  v <- into_var c x ;; var_to_signed c bits v.
Definition buf_to_unsigned (c : cfg) (bits : Z) (x : bytes) : outcome (Z + conv_error) :=
  v <- into_var c x ;; var_to_unsigned c bits v.

(** var.rs 2714-2733: factorial; [From::from(n)] is from_signed on i64.
    The loop [for n in (2..num).rev()] multiplies by num-1, num-2, ..., 2. *)
Fixpoint factorial_loop (c : cfg) (k : nat) (result : var) : outcome var :=
  match k with
  | O | S O => Ret result
  | S k' =>
      fact <- from_signed 64 (Z.of_nat k) ;;
      result <- mul_common c result fact 0 ;;
      factorial_loop c k' result
  end.

Definition factorial_var (c : cfg) (num : Z) : outcome (option var) :=
  if num <=? 1 then Ret (Some ONE)
  else if 32177 <? num then Ret None
  else
    r <- from_signed 64 num ;;
    r <- factorial_loop c (Z.to_nat (num - 1)) r ;;
    Ret (Some r).
