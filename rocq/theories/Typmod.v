(** * Typmod: model of src/typmod.rs and of the typmod application in src/var.rs. *)
From Coq Require Import ZArith List Bool.
From Verif Require Import Base Var Binary.
Import ListNotations.
Open Scope Z_scope.

(** A [Typmod] is its i32 value (typmod.rs 26). *)

(** typmod.rs 36-41: new_unchecked *)
Definition typmod_new_unchecked (c : cfg) (precision scale : Z) : outcome Z :=
  dassert c ((1 <=? precision) && (precision <=? NUMERIC_MAX_PRECISION)) ;;;
  dassert c ((0 <=? scale) && (scale <=? precision)) ;;;
  i32 c (Z.lor (wrap 32 (Z.shiftl precision 16)) scale + VAR_HEADER_SIZE).

(** typmod.rs 50-54: with_precision_unchecked *)
Definition typmod_with_precision_unchecked (c : cfg) (precision : Z) : outcome Z :=
  dassert c ((1 <=? precision) && (precision <=? NUMERIC_MAX_PRECISION)) ;;;
  i32 c (wrap 32 (Z.shiftl precision 16) + VAR_HEADER_SIZE).

(** typmod.rs 62-68: new *)
Definition typmod_new (c : cfg) (precision scale : Z) : outcome (option Z) :=
  if (precision <? 1) || (NUMERIC_MAX_PRECISION <? precision) || (scale <? 0)
     || (precision <? scale)
  then Ret None
  else t <- typmod_new_unchecked c precision scale ;; Ret (Some t).

(** typmod.rs 76-82: with_precision *)
Definition typmod_with_precision (c : cfg) (precision : Z) : outcome (option Z) :=
  if (precision <? 1) || (NUMERIC_MAX_PRECISION <? precision)
  then Ret None
  else t <- typmod_with_precision_unchecked c precision ;; Ret (Some t).

(** typmod.rs 101-104: extract *)
Definition typmod_extract (c : cfg) (t : Z) : outcome (Z * Z) :=
  t <- i32 c (t - VAR_HEADER_SIZE) ;;
  Ret (Z.land (Z.shiftr t 16) 0xFFFF, Z.land t 0xFFFF).

(** typmod.rs 107-112: Default *)
Definition typmod_default : Z := -1.

(** The overflow scan of var.rs 2652-2674. *)
Fixpoint typmod_scan (ds : list Z) (ddigits max_digits : Z) : bool :=
  match ds with
  | [] => false
  | dig :: t =>
      if dig =? 0 then typmod_scan t (ddigits - DEC_DIGITS) max_digits
      else
        let ddigits :=
          if dig <? 10 then ddigits - 3
          else if dig <? 100 then ddigits - 2
          else if dig <? 1000 then ddigits - 1 else ddigits in
        max_digits <? ddigits
  end.

(** var.rs 2632-2678: NumericVar::apply_typmod; returns (overflow, new self) *)
Definition apply_typmod_var (c : cfg) (v : var) (t : Z) : outcome (bool * var) :=
  if t <? VAR_HEADER_SIZE then Ret (false, v)
  else
    '(precision, scale) <- typmod_extract c t ;;
    let max_digits := precision - scale in
    r <- round_common c v scale ;;
    let ddigits := (weight r + 1) * DEC_DIGITS in
    if max_digits <? ddigits then Ret (typmod_scan (digits r) ddigits max_digits, r)
    else Ret (false, r).
