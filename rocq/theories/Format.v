(** * Format: text output of src/var.rs (write, write_sci, select_sci_scale, normalize). *)
From Coq Require Import ZArith List Bool.
From Verif Require Import Base Var.
Import ListNotations.
Open Scope Z_scope.

(** Text is a list of byte codes. *)
Definition text := list Z.

Definition ch_dash : Z := 45.  (* '-' *)
Definition ch_plus : Z := 43.  (* '+' *)
Definition ch_dot : Z := 46.   (* '.' *)
Definition ch_0 : Z := 48.     (* '0' *)
Definition ch_e : Z := 101.    (* 'e' *)
Definition ch_E : Z := 69.     (* 'E' *)
Definition txt_NaN : text := [78; 97; 78].

(** core::fmt decimal rendering of a non-negative integer ([fuel] digits at most). *)
Fixpoint dec_digits (fuel : nat) (x : Z) (acc : text) : text :=
  match fuel with
  | O => acc
  | S f =>
      let acc' := (ch_0 + Z.rem x 10) :: acc in
      let x' := Z.quot x 10 in
      if x' =? 0 then acc' else dec_digits f x' acc'
  end.

(** [write!(f, "{}", d)] for an i16/i32 (at most 10 decimal digits), including the sign. *)
Definition fmt_int (d : Z) : text :=
  if d <? 0 then ch_dash :: dec_digits 10 (- d) [] else dec_digits 10 d [].

(** [write!(f, "{:>0width$}", d)]: zero padding after the sign. *)
Definition fmt_pad (width : Z) (d : Z) : text :=
  let body := dec_digits 10 (Z.abs d) [] in
  let sg := if d <? 0 then [ch_dash] else [] in
  sg ++ repeat ch_0 (Z.to_nat (width - lenz sg - lenz body)) ++ body.

(** [digits[d]] or 0 (var.rs 2123-2128 and 2153-2157). *)
Definition digit_or_zero (ds : list Z) (d : Z) : Z :=
  if (0 <=? d) && (d <? lenz ds) then nth (Z.to_nat d) ds 0 else 0.

(** The integral part loop, var.rs 2122-2139: digit indexes [d .. d+k-1]. *)
Fixpoint write_int (c : cfg) (k : nat) (d : Z) (ds : list Z) : outcome text :=
  match k with
  | O => Ret []
  | S k' =>
      let dig := digit_or_zero ds d in
      dassert c (0 <=? dig) ;;;
      rest <- write_int c k' (d + 1) ds ;;
      Ret ((if 0 <? d then fmt_pad DEC_DIGITS dig else fmt_int dig) ++ rest)
  end.

(** [fold(dig, |acc, _| acc / 10)] *)
Fixpoint div10 (k : nat) (d : Z) : Z :=
  match k with O => d | S k' => div10 k' (Z.quot d 10) end.

(** The fractional part loop, var.rs 2152-2171: [k] steps starting at [scale]. *)
Fixpoint write_frac (k : nat) (scale d dsc : Z) (ds : list Z) : text :=
  match k with
  | O => []
  | S k' =>
      let dig := digit_or_zero ds d in
      (if scale + DEC_DIGITS <=? dsc then fmt_pad DEC_DIGITS dig
       else let width := dsc - scale in
            fmt_pad width (div10 (Z.to_nat (DEC_DIGITS - width)) dig))
      ++ write_frac k' (scale + DEC_DIGITS) (d + 1) dsc ds
  end.

(** var.rs 2103-2175: NumericVar::write (Display) *)
Definition write (c : cfg) (v : var) : outcome text :=
  if is_nan v then Ret txt_NaN
  else
    ip <- (if weight v <? 0 then Ret [ch_0]
           else write_int c (Z.to_nat (weight v + 1)) 0 (digits v)) ;;
    let sg := if sgn_eqb (sign v) SNeg then [ch_dash] else [] in
    let fp :=
      if 0 <? dscale v then
        (* (0..dscale).step_by(4) has ceil(dscale/4) elements *)
        ch_dot :: write_frac (Z.to_nat (Z.quot (dscale v + 3) 4)) 0 (weight v + 1)
                             (dscale v) (digits v)
      else [] in
    Ret (sg ++ ip ++ fp).

(** var.rs 2683-2709: normalize *)
Fixpoint drop_ch0 (s : text) : text :=
  match s with
  | [] => []
  | b :: t => if b =? ch_0 then drop_ch0 t else s
  end.

Definition normalize (c : cfg) (v : var) : outcome text :=
  if is_nan v then Ret txt_NaN
  else
    s <- write c v ;;
    if existsb (fun b => b =? ch_dot) s then
      let r := drop_ch0 (rev s) in
      match r with
      | b :: t => if b =? ch_dot then Ret (rev t) else Ret (rev r)
      | [] => Panic WBounds
      end
    else Ret s.

(** var.rs 2246-2272: count_zeros *)
Fixpoint count_zeros_loop (k : nat) (val n zero : Z) : Z * Z :=
  match k with
  | O => (n, zero)
  | S k' =>
      let d := Z.rem val 10 in
      let val := Z.quot val 10 in
      let '(n, zero) :=
        if (d =? 0) && (n =? 0) then (n, zero + 1) else (n + 1, zero) in
      if val =? 0 then (n, zero) else count_zeros_loop k' val n zero
  end.
Definition count_zeros (digit : Z) : Z * Z := count_zeros_loop 4 digit 0 0.

(** index and value of the first non-zero digit, var.rs 2277-2283 *)
Fixpoint find_nz (ds : list Z) (i : Z) : option (Z * Z) :=
  match ds with
  | [] => None
  | d :: t => if d =? 0 then find_nz t (i + 1) else Some (i, d)
  end.

(** index and value of the last non-zero digit, var.rs 2286-2292 *)
Definition rfind_nz (ds : list Z) : option (Z * Z) :=
  match find_nz (rev ds) 0 with
  | None => None
  | Some (i, d) => Some (lenz ds - 1 - i, d)
  end.

(** var.rs 2239-2306 *)
Definition select_sci_scale (c : cfg) (v : var) : outcome Z :=
  match find_nz (digits v) 0, rfind_nz (digits v) with
  | Some (i, digit), Some (ri, rdigit) =>
      dassert c (i <=? ri) ;;;
      if i =? ri then
        let '(n, _) := count_zeros digit in Ret (n - 1)
      else
        let '(n, zero) := count_zeros digit in
        let '(_, rzero) := count_zeros rdigit in
        let front := n + zero in
        let tail := DEC_DIGITS - rzero in
        Ret (front + tail + (ri - i - 1) * DEC_DIGITS - 1)
  | _, _ => Ret 0
  end.
