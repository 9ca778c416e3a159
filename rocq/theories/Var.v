(** * Var: model of src/var.rs, the arithmetic on [NumericVar].

    Logical level: the [ndigits]/[digits] pair of the Rust struct (var.rs 107-114) is the list
    [digits]; the physical buffer behind it is modelled in Data.v. Weight, scale and index
    arithmetic is done in [Z] (the code uses i32; Mach.v transcribes the core operations with i32, and
    C87 shows that they do the same); digit and accumulator arithmetic is checked i16/i32. *)
From Coq Require Import ZArith List Bool.
From Verif Require Import Base.
Import ListNotations.
Open Scope Z_scope.

(** binary.rs 65-70: NUMERIC_POS / NUMERIC_NEG / NUMERIC_NAN as stored in [NumericVar.sign]. *)
Inductive sgn := SPos | SNeg | SNaN.

Definition sgn_eqb (a b : sgn) : bool :=
  match a, b with
  | SPos, SPos | SNeg, SNeg | SNaN, SNaN => true
  | _, _ => false
  end.

(** var.rs 107-114. *)
Record var := Var { weight : Z; dscale : Z; sign : sgn; digits : list Z }.

Definition ndigits (v : var) : Z := lenz (digits v).

(** var.rs 33-54: constants. *)
Definition NUMERIC_MAX_PRECISION : Z := 1000.
Definition NUMERIC_MAX_DISPLAY_SCALE : Z := NUMERIC_MAX_PRECISION.
Definition NUMERIC_MIN_DISPLAY_SCALE : Z := 0.
Definition NUMERIC_MAX_RESULT_SCALE : Z := NUMERIC_MAX_PRECISION * 2.
Definition NUMERIC_MIN_SIG_DIGITS : Z := 16.
Definition NBASE : Z := 10000.
Definition HALF_NBASE : Z := 5000.
Definition DEC_DIGITS : Z := 4.
Definition MUL_GUARD_DIGITS : Z := 2.
Definition DIV_GUARD_DIGITS : Z := 4.
Definition ROUND_POWERS : list Z := [0; 1000; 100; 10].
(** binary.rs 86-88. *)
Definition NUMERIC_WEIGHT_MAX : Z := 32767.
Definition NUMERIC_WEIGHT_MIN : Z := - NUMERIC_WEIGHT_MAX.
Definition NUMERIC_DSCALE_MAX : Z := 16383.
Definition I32_MAX : Z := 2147483647.
Definition I32_MIN : Z := -2147483648.

(** var.rs 56-72: the lazily initialised constants. *)
Definition ZERO : var := Var 0 0 SPos [].
Definition ONE : var := Var 0 0 SPos [1].
Definition TWO : var := Var 0 0 SPos [2].
Definition TEN : var := Var 0 0 SPos [10].
Definition ZERO_POINT_FIVE : var := Var (-1) 1 SPos [5000].
Definition ZERO_POINT_NINE : var := Var (-1) 1 SPos [9000].
Definition ONE_POINT_ONE : var := Var 0 1 SPos [1; 1000].

(** var.rs 130-133 *)
Definition nan_var : var := Var 0 0 SNaN [].
(** var.rs 176-179 *)
Definition zero_var : var := Var 0 0 SPos [].

(** var.rs 196-211 *)
Definition is_nan (v : var) : bool := sgn_eqb (sign v) SNaN.
Definition is_positive (v : var) : bool := sgn_eqb (sign v) SPos.
Definition is_negative (v : var) : bool := sgn_eqb (sign v) SNeg.

(** Field updates. *)
Definition set_sign (s : sgn) (v : var) : var := Var (weight v) (dscale v) s (digits v).
Definition set_dscale (s : Z) (v : var) : var := Var (weight v) s (sign v) (digits v).

(** var.rs 135-140 *)
Definition zero_scaled (c : cfg) (scale : Z) : outcome var :=
  dassert c ((0 <=? scale) && (scale <=? NUMERIC_DSCALE_MAX)) ;;;
  Ret (Var 0 scale SPos []).

(** ** Rounding: var.rs 236-330 *)

(** The carry propagation loop var.rs 302-319 over the digits left of the rounding position,
    from right to left: returns the carry into the spare digit and the new digits.
    (The code stops as soon as the carry is zero; a zero carry changes nothing.) *)
Fixpoint propagate (c : cfg) (ds : list Z) (carry : Z) : outcome (Z * list Z) :=
  match ds with
  | [] => Ret (carry, [])
  | d :: t =>
      '(cr, t') <- propagate c t carry ;;
      if cr =? 0 then Ret (0, d :: t')
      else
      s <- i32 c (cr + d) ;;
      if NBASE <=? s then Ret (1, as_i16 (s - NBASE) :: t')
      else Ret (0, as_i16 s :: t')
  end.

Definition round_common (c : cfg) (v : var) (rscale : Z) : outcome var :=
  dassert c (negb (is_nan v)) ;;;
  let di := (weight v + 1) * DEC_DIGITS + rscale in
  if di <? 0 then Ret (Var 0 rscale SPos [])
  else
    let nd := Z.quot (di + DEC_DIGITS - 1) DEC_DIGITS in
    let di := Z.rem di DEC_DIGITS in
    if (nd <? ndigits v) || ((nd =? ndigits v) && (0 <? di)) then
      (* (position left of which the carry goes, carry, digits right of that position) *)
      '(pos, carry, tail) <-
        (if di =? 0 then
           d <- index (digits v) nd ;;
           Ret (nd, (if HALF_NBASE <=? d then 1 else 0), [])
         else
           pow10 <- index ROUND_POWERS di ;;
           d <- get_unchecked (digits v) (nd - 1) ;;
           let extra := Z.rem d pow10 in
           d' <- i16 c (d - extra) ;;
           if Z.quot pow10 2 <=? extra then
             p <- i16 c (pow10 + d') ;;
             if NBASE <=? p then Ret (nd - 1, 1, [p - NBASE])
             else Ret (nd - 1, 0, [p])
           else Ret (nd - 1, 0, [d'])) ;;
      '(cr, head) <- propagate c (firstn (Z.to_nat pos) (digits v)) carry ;;
      (* var.rs 321-327: the carry came out into the spare digit *)
      if cr =? 0 then Ret (Var (weight v) rscale (sign v) (head ++ tail))
      else Ret (Var (weight v + 1) rscale (sign v) (cr :: head ++ tail))
    else Ret (set_dscale rscale v).

(** var.rs 336-371 *)
Definition trunc_common (c : cfg) (v : var) (rscale : Z) : outcome var :=
  dassert c (negb (is_nan v)) ;;;
  let di := (weight v + 1) * DEC_DIGITS + rscale in
  if di <=? 0 then Ret (Var 0 rscale SPos [])
  else
    let nd := Z.quot (di + DEC_DIGITS - 1) DEC_DIGITS in
    if nd <=? ndigits v then
      let di := Z.rem di DEC_DIGITS in
      let ds := firstn (Z.to_nat nd) (digits v) in
      if 0 <? di then
        pow10 <- index ROUND_POWERS di ;;
        d <- index ds (nd - 1) ;;
        let extra := Z.rem d pow10 in
        d' <- i16 c (d - extra) ;;
        Ret (Var (weight v) rscale (sign v) (set_nth ds (Z.to_nat (nd - 1)) d'))
      else Ret (Var (weight v) rscale (sign v) ds)
    else Ret (set_dscale rscale v).

(** ** strip: var.rs 404-433 *)
Fixpoint drop_zeros (ds : list Z) : list Z :=
  match ds with
  | [] => []
  | d :: t => if d =? 0 then drop_zeros t else ds
  end.

Definition strip (v : var) : var :=
  let lead := drop_zeros (digits v) in
  let w := weight v - (ndigits v - lenz lead) in
  let ds := rev (drop_zeros (rev lead)) in
  match ds with
  | [] => Var 0 (dscale v) SPos []
  | _ => Var w (dscale v) (sign v) ds
  end.

(** ** Addition and subtraction of absolute values: var.rs 434-573 *)

(** One operand's contribution at index [i]: var.rs 477-482 / 549-554. *)
Definition digit_at (ds : list Z) (i : Z) : outcome Z :=
  if (0 <=? i) && (i <? lenz ds) then get_unchecked ds i else Ret 0.

(** The loop var.rs 473-491, from the last result digit to the first;
    [acc] are the digits already produced. *)
Fixpoint add_loop (c : cfg) (k : nat) (ds1 ds2 : list Z) (i1 i2 carry : Z) (acc : list Z)
  : outcome (Z * list Z) :=
  match k with
  | O => Ret (carry, acc)
  | S k' =>
      let i1 := i1 - 1 in
      let i2 := i2 - 1 in
      d1 <- digit_at ds1 i1 ;;
      carry <- i16 c (carry + d1) ;;
      d2 <- digit_at ds2 i2 ;;
      carry <- i16 c (carry + d2) ;;
      if NBASE <=? carry then
        add_loop c k' ds1 ds2 i1 i2 1 ((carry - NBASE) :: acc)
      else
        add_loop c k' ds1 ds2 i1 i2 0 (carry :: acc)
  end.

Definition add_abs (c : cfg) (v1 v2 : var) : outcome var :=
  dassert c (negb (is_nan v1)) ;;;
  dassert c (negb (is_nan v2)) ;;;
  let res_weight := Z.max (weight v1) (weight v2) + 1 in
  let res_dscale := Z.max (dscale v1) (dscale v2) in
  let rscale1 := ndigits v1 - weight v1 - 1 in
  let rscale2 := ndigits v2 - weight v2 - 1 in
  let res_rscale := Z.max rscale1 rscale2 in
  let nd := res_rscale + res_weight + 1 in
  let res_ndigits := if 0 <? nd then nd else 1 in
  '(carry, ds) <- add_loop c (Z.to_nat res_ndigits) (digits v1) (digits v2)
                    (res_rscale + weight v1 + 1) (res_rscale + weight v2 + 1) 0 [] ;;
  dassert c (carry =? 0) ;;;
  Ret (strip (Var res_weight res_dscale SPos ds)).

(** The loop var.rs 545-563. *)
Fixpoint sub_loop (c : cfg) (k : nat) (ds1 ds2 : list Z) (i1 i2 borrow : Z) (acc : list Z)
  : outcome (Z * list Z) :=
  match k with
  | O => Ret (borrow, acc)
  | S k' =>
      let i1 := i1 - 1 in
      let i2 := i2 - 1 in
      d1 <- digit_at ds1 i1 ;;
      borrow <- i16 c (borrow + d1) ;;
      d2 <- digit_at ds2 i2 ;;
      borrow <- i16 c (borrow - d2) ;;
      if borrow <? 0 then
        d <- i16 c (borrow + NBASE) ;;
        sub_loop c k' ds1 ds2 i1 i2 (-1) (d :: acc)
      else
        sub_loop c k' ds1 ds2 i1 i2 0 (borrow :: acc)
  end.

Definition sub_abs (c : cfg) (v1 v2 : var) : outcome var :=
  dassert c (negb (is_nan v1)) ;;;
  dassert c (negb (is_nan v2)) ;;;
  let res_weight := weight v1 in
  let res_dscale := Z.max (dscale v1) (dscale v2) in
  let rscale1 := ndigits v1 - weight v1 - 1 in
  let rscale2 := ndigits v2 - weight v2 - 1 in
  let res_rscale := Z.max rscale1 rscale2 in
  let nd := res_rscale + res_weight + 1 in
  let res_ndigits := if nd <=? 0 then 1 else nd in
  '(borrow, ds) <- sub_loop c (Z.to_nat res_ndigits) (digits v1) (digits v2)
                    (res_rscale + weight v1 + 1) (res_rscale + weight v2 + 1) 0 [] ;;
  dassert c (borrow =? 0) ;;;
  Ret (strip (Var res_weight res_dscale SPos ds)).

(** ** Comparison: var.rs 574-649 *)

(** The first two while loops (var.rs 598-613): skip zero digits of the operand with the larger
    weight. [None]: a non-zero digit was met; otherwise the remaining digits and weight
    (the index [i1] of the code is the number of digits dropped). *)
Fixpoint cmp_skip (ds : list Z) (w1 w2 : Z) : option (list Z * Z) :=
  match ds with
  | [] => Some ([], w1)
  | d :: t =>
      if w2 <? w1 then
        if d =? 0 then cmp_skip t (w1 - 1) w2 else None
      else Some (ds, w1)
  end.

(** The common loop (var.rs 617-630): the result, or the two remaining suffixes. *)
Fixpoint cmp_both (c : cfg) (ds1 ds2 : list Z) : outcome (Z + list Z * list Z) :=
  match ds1, ds2 with
  | d1 :: t1, d2 :: t2 =>
      stat <- i16 c (d1 - d2) ;;
      if stat =? 0 then cmp_both c t1 t2
      else Ret (inl (if 0 <? stat then 1 else -1))
  | _, _ => Ret (inr (ds1, ds2))
  end.

(** The final loops (var.rs 632-647). *)
Definition any_nonzero (ds : list Z) : bool := existsb (fun d => negb (d =? 0)) ds.

Definition cmp_rest (ds1 ds2 : list Z) : Z :=
  if any_nonzero ds1 then 1 else if any_nonzero ds2 then -1 else 0.

Definition cmp_abs (c : cfg) (v1 v2 : var) : outcome Z :=
  dassert c (negb (is_nan v1)) ;;;
  dassert c (negb (is_nan v2)) ;;;
  match cmp_skip (digits v1) (weight v1) (weight v2) with
  | None => Ret 1
  | Some (ds1, w1) =>
      match cmp_skip (digits v2) (weight v2) w1 with
      | None => Ret (-1)
      | Some (ds2, w2) =>
          if w1 =? w2 then
            r <- cmp_both c ds1 ds2 ;;
            match r with
            | inl s => Ret s
            | inr (r1, r2) => Ret (cmp_rest r1 r2)
            end
          else Ret (cmp_rest ds1 ds2)
      end
  end.

(** ** Signed addition and subtraction: var.rs 650-797 *)
Definition add_common (c : cfg) (v1 v2 : var) : outcome var :=
  dassert c (negb (is_nan v1)) ;;;
  dassert c (negb (is_nan v2)) ;;;
  if is_positive v1 then
    if is_positive v2 then
      r <- add_abs c v1 v2 ;; Ret (set_sign SPos r)
    else
      cmp <- cmp_abs c v1 v2 ;;
      if cmp =? 0 then zero_scaled c (Z.max (dscale v1) (dscale v2))
      else if cmp =? 1 then r <- sub_abs c v1 v2 ;; Ret (set_sign SPos r)
      else if cmp =? -1 then r <- sub_abs c v2 v1 ;; Ret (set_sign SNeg r)
      else Panic (WMsg MInvalidCmp)
  else if is_positive v2 then
    cmp <- cmp_abs c v1 v2 ;;
    if cmp =? 0 then zero_scaled c (Z.max (dscale v1) (dscale v2))
    else if cmp =? 1 then r <- sub_abs c v1 v2 ;; Ret (set_sign SNeg r)
    else if cmp =? -1 then r <- sub_abs c v2 v1 ;; Ret (set_sign SPos r)
    else Panic (WMsg MInvalidCmp)
  else
    r <- add_abs c v1 v2 ;; Ret (set_sign SNeg r).

Definition sub_common (c : cfg) (v1 v2 : var) : outcome var :=
  dassert c (negb (is_nan v1)) ;;;
  dassert c (negb (is_nan v2)) ;;;
  if is_positive v1 then
    if is_negative v2 then
      r <- add_abs c v1 v2 ;; Ret (set_sign SPos r)
    else
      cmp <- cmp_abs c v1 v2 ;;
      if cmp =? 0 then zero_scaled c (Z.max (dscale v1) (dscale v2))
      else if cmp =? 1 then r <- sub_abs c v1 v2 ;; Ret (set_sign SPos r)
      else if cmp =? -1 then r <- sub_abs c v2 v1 ;; Ret (set_sign SNeg r)
      else Panic (WMsg MInvalidCmp)
  else if is_negative v2 then
    cmp <- cmp_abs c v1 v2 ;;
    if cmp =? 0 then zero_scaled c (Z.max (dscale v1) (dscale v2))
    else if cmp =? 1 then r <- sub_abs c v1 v2 ;; Ret (set_sign SNeg r)
    else if cmp =? -1 then r <- sub_abs c v2 v1 ;; Ret (set_sign SPos r)
    else Panic (WMsg MInvalidCmp)
  else
    r <- add_abs c v1 v2 ;; Ret (set_sign SNeg r).

(** var.rs 1537-1566 *)
Definition cmp_common (c : cfg) (v1 v2 : var) : outcome Z :=
  dassert c (negb (is_nan v1)) ;;;
  dassert c (negb (is_nan v2)) ;;;
  if ndigits v1 =? 0 then
    if ndigits v2 =? 0 then Ret 0
    else if is_negative v2 then Ret 1 else Ret (-1)
  else if ndigits v2 =? 0 then
    if is_positive v1 then Ret 1 else Ret (-1)
  else if is_positive v1 then
    if is_negative v2 then Ret 1 else cmp_abs c v1 v2
  else if is_positive v2 then Ret (-1)
  else cmp_abs c v2 v1.

(** var.rs 372-403 *)
Definition ceil_common (c : cfg) (v : var) : outcome var :=
  dassert c (negb (is_nan v)) ;;;
  r <- trunc_common c v 0 ;;
  if is_positive v then
    cmp <- cmp_common c v r ;;
    if cmp =? 0 then Ret r else add_common c r ONE
  else Ret r.

Definition floor_common (c : cfg) (v : var) : outcome var :=
  dassert c (negb (is_nan v)) ;;;
  r <- trunc_common c v 0 ;;
  if is_negative v then
    cmp <- cmp_common c v r ;;
    if cmp =? 0 then Ret r else sub_common c r ONE
  else Ret r.

(** ** Multiplication: var.rs 798-952 *)

(** A carry pass over the accumulator from right to left (var.rs 890-903 and 930-941). *)
Fixpoint carry_pass (c : cfg) (dig : list Z) : outcome (Z * list Z) :=
  match dig with
  | [] => Ret (0, [])
  | d :: t =>
      '(carry, t') <- carry_pass c t ;;
      nd <- i32 c (d + carry) ;;
      if NBASE <=? nd then
        let carry := Z.quot nd NBASE in
        m <- i32 c (carry * NBASE) ;;
        nd' <- i32 c (nd - m) ;;
        Ret (carry, nd' :: t')
      else Ret (0, nd :: t')
  end.

(** The inner loop var.rs 915-921: digits [k-1 .. 0] of [var2]; [i] is the accumulator index. *)
Fixpoint mul_inner (c : cfg) (k : nat) (dig : list Z) (d1 : Z) (ds2 : list Z) (i : Z)
  : outcome (list Z) :=
  match k with
  | O => Ret dig
  | S k' =>
      d <- get_unchecked dig i ;;
      d2 <- get_unchecked ds2 (Z.of_nat k') ;;
      p <- i32 c (d1 * d2) ;;
      s <- i32 c (d + p) ;;
      dig' <- set_unchecked dig i s ;;
      mul_inner c k' dig' d1 ds2 (i - 1)
  end.

(** The outer loop var.rs 879-922: [i1] runs from [k-1] down to 0. *)
Fixpoint mul_outer (c : cfg) (k : nat) (dig : list Z) (max_dig : Z) (ds1 ds2 : list Z)
  (res_ndigits : Z) : outcome (list Z) :=
  match k with
  | O => Ret dig
  | S k' =>
      let i1 := Z.of_nat k' in
      d1 <- get_unchecked ds1 i1 ;;
      if d1 =? 0 then mul_outer c k' dig max_dig ds1 ds2 res_ndigits
      else
        max_dig <- i32 c (max_dig + d1) ;;
        '(max_dig, dig) <-
          (if Z.quot (I32_MAX - Z.quot I32_MAX NBASE) (NBASE - 1) <? max_dig then
             '(carry, dig') <- carry_pass c dig ;;
             dassert c (carry =? 0) ;;;
             Ret (1 + d1, dig')
           else Ret (max_dig, dig)) ;;
        let bound := Z.min (lenz ds2 - 1) (res_ndigits - i1 - 3) in
        dig <- mul_inner c (Z.to_nat (bound + 1)) dig d1 ds2 (i1 + bound + 2) ;;
        mul_outer c k' dig max_dig ds1 ds2 res_ndigits
  end.

Definition mul_common (c : cfg) (self other : var) (rscale : Z) : outcome var :=
  dassert c (negb (is_nan self)) ;;;
  dassert c (negb (is_nan other)) ;;;
  let '(var1, var2) := if ndigits other <? ndigits self then (other, self) else (self, other) in
  if (ndigits var1 =? 0) || (ndigits var2 =? 0) then zero_scaled c rscale
  else
    let res_sign := if sgn_eqb (sign var1) (sign var2) then SPos else SNeg in
    let res_weight := weight var1 + weight var2 + 2 in
    let max_digits := res_weight + 1 + Z.quot (rscale + DEC_DIGITS - 1) DEC_DIGITS
                      + MUL_GUARD_DIGITS in
    let res_ndigits := Z.min (ndigits var1 + ndigits var2 + 1) max_digits in
    if res_ndigits <? 3 then zero_scaled c rscale
    else
      let bound := Z.min (ndigits var1 - 1) (res_ndigits - 3) in
      dig <- mul_outer c (Z.to_nat (bound + 1)) (zeros res_ndigits) 0
               (digits var1) (digits var2) res_ndigits ;;
      '(carry, ds) <- carry_pass c dig ;;
      dassert c (carry =? 0) ;;;
      r <- round_common c (Var res_weight 0 res_sign (map as_i16 ds)) rscale ;;
      Ret (strip r).

(** ** Division: var.rs 953-1236 *)

(** First non-zero digit and its weight (var.rs 972-991); [last] is the last digit read. *)
Fixpoint first_digit (ds : list Z) (w : Z) (last : Z) : Z * Z :=
  match ds with
  | [] => (0, last)
  | d :: t => if d =? 0 then first_digit t (w - 1) d else (w, d)
  end.

Definition select_div_scale (v1 v2 : var) : Z :=
  let '(weight1, first_digit1) := first_digit (digits v1) (weight v1) 0 in
  let '(weight2, first_digit2) := first_digit (digits v2) (weight v2) 0 in
  let qweight := if first_digit1 <=? first_digit2 then weight1 - weight2 - 1
                 else weight1 - weight2 in
  Z.min (Z.max (Z.max (Z.max (NUMERIC_MIN_SIG_DIGITS - qweight * DEC_DIGITS) (dscale v1))
                      (dscale v2)) NUMERIC_MIN_DISPLAY_SCALE)
        NUMERIC_MAX_DISPLAY_SCALE.

(** Single-digit divisor fast path, var.rs 1084-1096; [dividend] starts at index 1. *)
Fixpoint div_short (c : cfg) (k : nat) (dividend : list Z) (divisor1 carry : Z)
  : outcome (list Z) :=
  match k with
  | O => Ret []
  | S k' =>
      match dividend with
      | [] => UB
      | u :: us =>
          m <- i32 c (carry * NBASE) ;;
          carry <- i32 c (m + u) ;;
          if divisor1 =? 0 then Panic WDivZero
          else
            rest <- div_short c k' us divisor1 (Z.rem carry divisor1) ;;
            Ret (as_i16 (Z.quot carry divisor1) :: rest)
      end
  end.

(** Scaling a digit string by [d], var.rs 1107-1125. *)
Fixpoint scale_up (c : cfg) (ds : list Z) (d : Z) : outcome (Z * list Z) :=
  match ds with
  | [] => Ret (0, [])
  | x :: t =>
      '(carry, t') <- scale_up c t d ;;
      m <- i32 c (x * d) ;;
      carry <- i32 c (carry + m) ;;
      Ret (Z.quot carry NBASE, as_i16 (Z.rem carry NBASE) :: t')
  end.

(** The quotient digit correction loop, var.rs 1165-1170. *)
Fixpoint qhat_loop (c : cfg) (fuel : nat) (qhat divisor1 divisor2 next2 u2 : Z) : outcome Z :=
  match fuel with
  | O => Diverge
  | S f =>
      l <- i32 c (divisor2 * qhat) ;;
      p <- i32 c (qhat * divisor1) ;;
      r <- i32 c (next2 - p) ;;
      m <- i32 c (r * NBASE) ;;
      s <- i32 c (m + u2) ;;
      if s <? l then
        q <- i32 c (qhat - 1) ;;
        qhat_loop c f q divisor1 divisor2 next2 u2
      else Ret qhat
  end.

(** Multiply-and-subtract, var.rs 1177-1193, on the window [dividend[j..=j+var2_ndigits]]:
    (carry, borrow, new window). *)
Fixpoint mul_sub (c : cfg) (divisor win : list Z) (qhat : Z) : outcome (Z * Z * list Z) :=
  match divisor, win with
  | [], _ => Ret (0, 0, [])
  | _ :: _, [] => UB
  | v :: vs, u :: us =>
      '(carry, borrow, us') <- mul_sub c vs us qhat ;;
      m <- i32 c (v * qhat) ;;
      carry <- i32 c (carry + m) ;;
      borrow <- i32 c (borrow - Z.rem carry NBASE) ;;
      let carry := Z.quot carry NBASE in
      borrow <- i32 c (borrow + u) ;;
      if borrow <? 0 then
        b <- i32 c (borrow + NBASE) ;;
        Ret (carry, -1, as_i16 b :: us')
      else Ret (carry, 0, as_i16 borrow :: us')
  end.

(** Add back, var.rs 1203-1214. *)
Fixpoint add_back (c : cfg) (divisor win : list Z) : outcome (Z * list Z) :=
  match divisor, win with
  | [], _ => Ret (0, [])
  | _ :: _, [] => UB
  | v :: vs, u :: us =>
      '(carry, us') <- add_back c vs us ;;
      s <- i32 c (u + v) ;;
      carry <- i32 c (carry + s) ;;
      if NBASE <=? carry then Ret (1, as_i16 (carry - NBASE) :: us')
      else Ret (0, as_i16 carry :: us')
  end.

(** One iteration of the main loop, var.rs 1135-1221. [dividend] is the suffix starting at
    index [j] (earlier positions are never read again); [divisor] includes the leading zero.
    Returns the quotient digit and the new suffix. *)
Definition div_step (c : cfg) (divisor dividend : list Z) : outcome (Z * list Z) :=
  let n := length divisor in
  divisor1 <- index divisor 1 ;;
  divisor2 <- index divisor 2 ;;
  u0 <- get_unchecked dividend 0 ;;
  u1 <- get_unchecked dividend 1 ;;
  m <- i32 c (u0 * NBASE) ;;
  next2 <- i32 c (m + u1) ;;
  if next2 =? 0 then Ret (0, dividend)
  else
    qhat <- (if u0 =? divisor1 then Ret (NBASE - 1)
             else if divisor1 =? 0 then Panic WDivZero
             else Ret (Z.quot next2 divisor1)) ;;
    u2 <- get_unchecked dividend 2 ;;
    qhat <- qhat_loop c (S (Z.to_nat qhat)) qhat divisor1 divisor2 next2 u2 ;;
    if 0 <? qhat then
      '(carry, borrow, win) <- mul_sub c divisor (firstn n dividend) qhat ;;
      dassert c (carry =? 0) ;;;
      if borrow =? 0 then Ret (as_i16 qhat, win ++ skipn n dividend)
      else
        '(carry, win') <- add_back c divisor win ;;
        dassert c (carry =? 1) ;;;
        Ret (as_i16 (qhat - 1), win' ++ skipn n dividend)
    else Ret (as_i16 qhat, dividend).

Fixpoint div_long (c : cfg) (k : nat) (divisor dividend : list Z) : outcome (list Z) :=
  match k with
  | O => Ret []
  | S k' =>
      '(q, dividend') <- div_step c divisor dividend ;;
      rest <- div_long c k' divisor (tl dividend') ;;
      Ret (q :: rest)
  end.

(** var.rs 1009-1236. [None] stands for the [None] result (zero divisor). *)
Definition div_common (c : cfg) (v1 v2 : var) (rscale : Z) (round : bool) : outcome (option var) :=
  dassert c (negb (is_nan v1)) ;;;
  dassert c (negb (is_nan v2)) ;;;
  let n1 := ndigits v1 in
  let n2 := ndigits v2 in
  is0 <- (if n2 =? 0 then Ret true else d <- index (digits v2) 0 ;; Ret (d =? 0)) ;;
  if (is0 : bool) then Ret None
  else if n1 =? 0 then z <- zero_scaled c rscale ;; Ret (Some z)
  else
    let res_sign := if sgn_eqb (sign v1) (sign v2) then SPos else SNeg in
    let res_weight := weight v1 - weight v2 in
    let nd := Z.max (res_weight + 1 + Z.quot (rscale + DEC_DIGITS - 1) DEC_DIGITS) 1 in
    let res_ndigits := if round then nd + 1 else nd in
    let div_ndigits := Z.max (res_ndigits + n2) n1 in
    let dividend := 0 :: digits v1 ++ zeros (div_ndigits - n1) in
    let divisor := 0 :: digits v2 in
    ds <-
      (if n2 =? 1 then
         divisor1 <- index divisor 1 ;;
         div_short c (Z.to_nat res_ndigits) (tl dividend) divisor1 0
       else
         divisor1 <- index divisor 1 ;;
         '(divisor, dividend) <-
           (if divisor1 <? HALF_NBASE then
              s <- i16 c (divisor1 + 1) ;;
              if s =? 0 then Panic WDivZero
              else
                let d := Z.quot NBASE s in
                '(carry, vs) <- scale_up c (digits v2) d ;;
                dassert c (carry =? 0) ;;;
                '(carry, us) <- scale_up c (0 :: digits v1) d ;;
                dassert c (carry =? 0) ;;;
                top <- index (0 :: vs) 1 ;;
                dassert c (HALF_NBASE <=? top) ;;;
                Ret (0 :: vs, us ++ zeros (div_ndigits - n1))
            else Ret (divisor, dividend)) ;;
         div_long c (Z.to_nat res_ndigits) divisor dividend) ;;
    let res := Var res_weight 0 res_sign ds in
    r <- (if round then round_common c res rscale else trunc_common c res rscale) ;;
    Ret (Some (strip r)).

(** var.rs 1519-1533 *)
Definition mod_common (c : cfg) (v1 v2 : var) : outcome (option var) :=
  dassert c (negb (is_nan v1)) ;;;
  dassert c (negb (is_nan v2)) ;;;
  q <- div_common c v1 v2 0 false ;;
  match q with
  | None => Ret None
  | Some q =>
      p <- mul_common c q v2 (dscale v2) ;;
      r <- sub_common c v1 p ;;
      Ret (Some r)
  end.

(** ** Small operations: var.rs 2338-2470 *)

(** var.rs 2343-2353 *)
Definition negate (c : cfg) (v : var) : outcome var :=
  dassert c (negb (is_nan v)) ;;;
  if 0 <? ndigits v then
    if is_positive v then Ret (set_sign SNeg v)
    else if is_negative v then Ret (set_sign SPos v)
    else Ret v
  else Ret v.

(** var.rs 2361-2371 *)
Definition signum (c : cfg) (v : var) : outcome var :=
  dassert c (negb (is_nan v)) ;;;
  if ndigits v =? 0 then Ret ZERO else Ret (set_sign (sign v) ONE).

(** var.rs 2375-2380 *)
Definition inc (c : cfg) (v : var) : outcome var :=
  dassert c (negb (is_nan v)) ;;;
  add_common c v ONE.

(** var.rs 2385-2393 *)
Definition checked_div_var (c : cfg) (v1 v2 : var) : outcome (option var) :=
  dassert c (negb (is_nan v1)) ;;;
  dassert c (negb (is_nan v2)) ;;;
  div_common c v1 v2 (select_div_scale v1 v2) true.

(** var.rs 2399-2404 *)
Definition checked_div_trunc_var (c : cfg) (v1 v2 : var) : outcome (option var) :=
  dassert c (negb (is_nan v1)) ;;;
  dassert c (negb (is_nan v2)) ;;;
  div_common c v1 v2 0 false.

(** var.rs 2410-2424 *)
Definition round_var (c : cfg) (v : var) (scale : Z) : outcome var :=
  dassert c (negb (is_nan v)) ;;;
  let rscale := Z.min (Z.max scale (- NUMERIC_MAX_DISPLAY_SCALE)) NUMERIC_MAX_DISPLAY_SCALE in
  r <- round_common c v rscale ;;
  Ret (if rscale <? 0 then set_dscale 0 r else r).

(** var.rs 2430-2444 *)
Definition trunc_var (c : cfg) (v : var) (scale : Z) : outcome var :=
  dassert c (negb (is_nan v)) ;;;
  let rscale := Z.min (Z.max scale (- NUMERIC_MAX_DISPLAY_SCALE)) NUMERIC_MAX_DISPLAY_SCALE in
  r <- trunc_common c v rscale ;;
  Ret (if rscale <? 0 then set_dscale 0 r else r).

(** var.rs 2462-2468 *)
Definition abs_var (c : cfg) (v : var) : outcome var :=
  dassert c (negb (is_nan v)) ;;;
  Ret (if is_negative v then set_sign SPos v else v).
