(** * Mach: the arithmetic of src/var.rs a second time, at the level of the machine.

    Var.v models the arithmetic on digit lists, with weights, scales and indices in [Z]. Here the same
    functions are transcribed again from the Rust text, statement by statement: every array is accessed by
    index ([get_unchecked] outside it is [UB], [x[i]] outside it a panic), every result is written into a
    freshly allocated buffer of arbitrary content (Data.v), and every [+], [-] and [*] on i32, u32, usize or i16
    is checked (debug build) or wraps (release build). Loops are [for_up], [for_rev] and [while].
    (Simplifications: an allocation always succeeds; [vec!] and [Vec::with_capacity] are lists.) *)
From Coq Require Import ZArith List Bool.
From Verif Require Import Base Var Binary Data.
Import ListNotations.
Open Scope Z_scope.

(** Arithmetic in u32 and usize (64 bits). *)
Definition unsigned (c : cfg) (bits x : Z) : outcome Z :=
  if (0 <=? x) && (x <? 2 ^ bits) then Ret x
  else if dbg c then Panic WArith else Ret (x mod 2 ^ bits).
Definition u32 (c : cfg) (x : Z) : outcome Z := unsigned c 32 x.
Definition usize (c : cfg) (x : Z) : outcome Z := unsigned c 64 x.
(** [x as u32], [x as i32]; [x as usize] of an i32 is left implicit: a negative index is out of range. *)
Definition as_u32 (x : Z) : Z := x mod 2 ^ 32.
Definition as_i32 (x : Z) : Z := wrap 32 x.

(** [for i in (0..k).rev()], [for i in i0..i0+k] and [while], on the variables [s] the body assigns. *)
Fixpoint for_rev {S} (k : nat) (body : Z -> S -> outcome S) (s : S) : outcome S :=
  match k with
  | O => Ret s
  | S k' => s' <- body (Z.of_nat k') s ;; for_rev k' body s'
  end.
Fixpoint for_up {S} (k : nat) (i : Z) (body : Z -> S -> outcome S) (s : S) : outcome S :=
  match k with
  | O => Ret s
  | S k' => s' <- body i s ;; for_up k' (i + 1) body s'
  end.
(** [fuel] bounds the number of iterations. *)
Fixpoint while {S} (fuel : nat) (cond : S -> outcome bool) (body : S -> outcome S) (s : S) : outcome S :=
  match fuel with
  | O => Diverge
  | S f => b <- cond s ;; if (b : bool) then s' <- body s ;; while f cond body s' else Ret s
  end.

(** ** The buffer, data.rs *)

(** data.rs 43-53, 74-91: with_ndigits, buf_alloc *)
Definition m_with_ndigits (c : cfg) (a : nat -> Z) (n : Z) : outcome data :=
  dassert c (0 <=? n) ;;;
  t <- u32 c (as_u32 n + NUMERIC_HEADER_NDIGITS) ;;
  len <- u32 c (t + 1) ;;
  Ret (Data (alloc a len) (NUMERIC_HEADER_NDIGITS + 1)).

(** data.rs 153-173: digits, digits_mut *)
Definition m_slice (c : cfg) (d : data) (n : Z) : outcome (list Z) :=
  e <- u32 c (off d + as_u32 n) ;;
  dassert c (e <=? lenz (words d)) ;;;
  if (0 <=? n) && (off d + n <=? lenz (words d))
  then Ret (firstn (Z.to_nat n) (skipn (Z.to_nat (off d)) (words d)))
  else UB.
(** the buffer after the slice given by digits_mut has been changed to [l] *)
Definition write_back (d : data) (l : list Z) : data :=
  Data (firstn (Z.to_nat (off d)) (words d) ++ l ++ skipn (Z.to_nat (off d) + length l) (words d)) (off d).

(** data.rs 282-292: to_owned; Cow::to_mut *)
Definition m_to_owned (c : cfg) (a : nat -> Z) (l : list Z) : outcome data :=
  let n := as_i32 (lenz l) in
  d <- m_with_ndigits c a n ;;
  m <- m_slice c d n ;;
  if lenz m =? lenz l then Ret (write_back d l) else Panic WBounds.
Definition m_own (c : cfg) (a : nat -> Z) (k : cow) : outcome data :=
  match k with Borrowed l => m_to_owned c a l | Owned d => Ret d end.

(** data.rs 104-122, 182-197: buf_copy, reserve_rounding_digit *)
Definition m_reserve (c : cfg) (a : nat -> Z) (d : data) (n : Z) : outcome data :=
  dassert c (0 <? n) ;;;
  if off d <=? NUMERIC_HEADER_NDIGITS then
    dassert c (0 <=? n) ;;;
    t <- u32 c (as_u32 n + NUMERIC_HEADER_NDIGITS) ;;
    len <- u32 c (t + 1) ;;
    if 0 <? n then
      l <- m_slice c d n ;;
      Ret (Data (alloc a (NUMERIC_HEADER_NDIGITS + 1) ++ l) (NUMERIC_HEADER_NDIGITS + 1))
    else Ret (Data (alloc a len) (NUMERIC_HEADER_NDIGITS + 1))
  else Ret d.

(** ** NumericVar *)

(** var.rs 116-127 *)
Definition m_new (c : cfg) (a : nat -> Z) (n : Z) : outcome data :=
  dassert c (0 <=? n) ;;; m_with_ndigits c a n.

(** var.rs 135-140, 142-160 *)
Definition m_zero_scaled (c : cfg) (scale : Z) : outcome pvar :=
  dassert c ((0 <=? scale) && (scale <=? NUMERIC_DSCALE_MAX)) ;;;
  dassert c (0 =? lenz (@nil Z)) ;;;
  Ret (PVar 0 0 scale SPos (Borrowed [])).

(** var.rs 213-216, data.rs 274-280 *)
Definition m_digits (c : cfg) (p : pvar) : outcome (list Z) :=
  l <- (match p_cow p with
        | Borrowed l => Ret l
        | Owned d => n <- u32 c (lenz (words d) - off d) ;; m_slice c d (as_i32 n)
        end) ;;
  if (p_nd p <? 0) || (lenz l <? p_nd p) then Panic WBounds else Ret (firstn (Z.to_nat (p_nd p)) l).

Definition m_nan (p : pvar) : bool := sgn_eqb (p_sign p) SNaN.
Definition m_pos (p : pvar) : bool := sgn_eqb (p_sign p) SPos.
Definition m_neg (p : pvar) : bool := sgn_eqb (p_sign p) SNeg.

(** var.rs 56-72 *)
Definition M_ONE : pvar := PVar 1 0 0 SPos (Borrowed [1]).

(** var.rs 302-319: the body of the carry loop of round_common *)
Definition m_carry_step (c : cfg) (offset : Z) (s : list Z * Z * Z) : outcome (list Z * Z * Z) :=
  let '(w, nd, carry) := s in
  nd <- i32 c (nd - 1) ;;
  i <- i32 c (as_i32 offset + nd) ;;
  dassert c ((0 <=? i) && (i <? lenz w)) ;;;
  x <- get_unchecked w i ;;
  carry <- i32 c (carry + x) ;;
  if NBASE <=? carry then
    y <- i32 c (carry - NBASE) ;;
    w <- set_unchecked w i (as_i16 y) ;; Ret (w, nd, 1)
  else w <- set_unchecked w i (as_i16 carry) ;; Ret (w, nd, 0).

(** var.rs 236-330 *)
Definition m_round_common (c : cfg) (a : nat -> Z) (p : pvar) (rscale : Z) : outcome pvar :=
  dassert c (negb (m_nan p)) ;;;
  t <- i32 c (p_weight p + 1) ;;
  t <- i32 c (t * DEC_DIGITS) ;;
  di <- i32 c (t + rscale) ;;
  if di <? 0 then Ret (PVar 0 0 rscale SPos (p_cow p))
  else
    t <- i32 c (di + DEC_DIGITS) ;;
    t <- i32 c (t - 1) ;;
    let nd := Z.quot t DEC_DIGITS in
    let di := Z.rem di DEC_DIGITS in
    if (nd <? p_nd p) || ((nd =? p_nd p) && (0 <? di)) then
      d <- m_own c a (p_cow p) ;;
      d <- (if 0 <? p_nd p then m_reserve c a d (p_nd p) else Ret d) ;;
      dassert c ((NUMERIC_HEADER_NDIGITS <? off d) || (p_nd p =? 0)) ;;;
      ds <- m_slice c d (p_nd p) ;;
      '(nd', carry, ds) <-
        (if di =? 0 then
           x <- index ds nd ;;
           Ret (nd, (if HALF_NBASE <=? x then 1 else 0), ds)
         else
           pow10 <- index ROUND_POWERS di ;;
           nd1 <- i32 c (nd - 1) ;;
           dassert c ((0 <=? nd1) && (nd1 <? lenz ds)) ;;;
           x <- get_unchecked ds nd1 ;;
           let extra := Z.rem x pow10 in
           x <- i16 c (x - extra) ;;
           ds <- set_unchecked ds nd1 x ;;
           if Z.quot pow10 2 <=? extra then
             pow10 <- i16 c (pow10 + x) ;;
             if NBASE <=? pow10 then
               pow10 <- i16 c (pow10 - NBASE) ;;
               ds <- set_unchecked ds nd1 pow10 ;; Ret (nd1, 1, ds)
             else ds <- set_unchecked ds nd1 pow10 ;; Ret (nd1, 0, ds)
           else Ret (nd1, 0, ds)) ;;
      let d := write_back d ds in
      dassert c (NUMERIC_HEADER_NDIGITS <? off d) ;;;
      o1 <- usize c (off d - 1) ;;
      w <- set_checked (words d) o1 0 ;;
      '(w, nd', carry) <-
        while (Z.to_nat nd' + 3) (fun '(w, nd', carry) => Ret (0 <? carry)) (m_carry_step c (off d)) (w, nd', carry) ;;
      if nd' <? 0 then
        dassert c (nd' =? -1) ;;;
        dassert c (0 <? off d) ;;;
        dassert c (1 <=? off d) ;;;
        o <- u32 c (off d - 1) ;;
        n <- i32 c (nd + 1) ;;
        w' <- i32 c (p_weight p + 1) ;;
        Ret (PVar n w' rscale (p_sign p) (Owned (Data w o)))
      else Ret (PVar nd (p_weight p) rscale (p_sign p) (Owned (Data w (off d))))
    else Ret (PVar (p_nd p) (p_weight p) rscale (p_sign p) (p_cow p)).

(** var.rs 332-371 *)
Definition m_trunc_common (c : cfg) (a : nat -> Z) (p : pvar) (rscale : Z) : outcome pvar :=
  dassert c (negb (m_nan p)) ;;;
  t <- i32 c (p_weight p + 1) ;;
  t <- i32 c (t * DEC_DIGITS) ;;
  di <- i32 c (t + rscale) ;;
  if di <=? 0 then Ret (PVar 0 0 rscale SPos (p_cow p))
  else
    t <- i32 c (di + DEC_DIGITS) ;;
    t <- i32 c (t - 1) ;;
    let nd := Z.quot t DEC_DIGITS in
    if nd <=? p_nd p then
      let di := Z.rem di DEC_DIGITS in
      if 0 <? di then
        d <- m_own c a (p_cow p) ;;
        ds <- m_slice c d nd ;;
        pow10 <- index ROUND_POWERS di ;;
        nd1 <- i32 c (nd - 1) ;;
        x <- index ds nd1 ;;
        let extra := Z.rem x pow10 in
        x <- index ds nd1 ;;
        x <- i16 c (x - extra) ;;
        ds <- set_checked ds nd1 x ;;
        Ret (PVar nd (p_weight p) rscale (p_sign p) (Owned (write_back d ds)))
      else Ret (PVar nd (p_weight p) rscale (p_sign p) (p_cow p))
    else Ret (PVar (p_nd p) (p_weight p) rscale (p_sign p) (p_cow p)).

(** var.rs 404-433 *)
Definition m_strip (c : cfg) (a : nat -> Z) (p : pvar) : outcome pvar :=
  d <- m_own c a (p_cow p) ;;
  ds <- m_slice c d (p_nd p) ;;
  '(i, w, nd) <-
    while (Z.to_nat (p_nd p) + 1)
      (fun '(i, w, nd) => if 0 <? nd then x <- get_unchecked ds i ;; Ret (x =? 0) else Ret false)
      (fun '(i, w, nd) => i <- usize c (i + 1) ;; w <- i32 c (w - 1) ;; nd <- i32 c (nd - 1) ;; Ret (i, w, nd))
      (0, p_weight p, p_nd p) ;;
  nd <-
    while (Z.to_nat nd + 1)
      (fun nd => if 0 <? nd then
                   t <- usize c (i + nd) ;; t <- usize c (t - 1) ;;
                   x <- get_unchecked ds t ;; Ret (x =? 0)
                 else Ret false)
      (fun nd => i32 c (nd - 1)) nd ;;
  let sg := if nd =? 0 then SPos else p_sign p in
  let w := if nd =? 0 then 0 else w in
  o <- u32 c (off d + as_u32 i) ;;
  dassert c (o <=? lenz (words d)) ;;;
  Ret (PVar nd w (p_dscale p) sg (Owned (Data (words d) o))).

(** var.rs 473-491: the body of the loop of add_abs; the variables are (carry, i1, i2, res_digits) *)
Definition m_add_step (c : cfg) (n1 n2 : Z) (ds1 ds2 : list Z) (i : Z) (s : Z * Z * Z * list Z) : outcome (Z * Z * Z * list Z) :=
  let '(carry, i1, i2, res) := s in
  i1 <- i32 c (i1 - 1) ;;
  i2 <- i32 c (i2 - 1) ;;
  carry <- (if (0 <=? i1) && (i1 <? n1) then x <- get_unchecked ds1 i1 ;; i16 c (carry + x) else Ret carry) ;;
  carry <- (if (0 <=? i2) && (i2 <? n2) then x <- get_unchecked ds2 i2 ;; i16 c (carry + x) else Ret carry) ;;
  if NBASE <=? carry then
    x <- i16 c (carry - NBASE) ;;
    res <- set_unchecked res i x ;; Ret (1, i1, i2, res)
  else res <- set_unchecked res i carry ;; Ret (0, i1, i2, res).

(** var.rs 435-505: add_abs *)
Definition m_add_abs (c : cfg) (a : nat -> Z) (p q : pvar) : outcome pvar :=
  dassert c (negb (m_nan p)) ;;;
  dassert c (negb (m_nan q)) ;;;
  ds1 <- m_digits c p ;;
  ds2 <- m_digits c q ;;
  res_weight <- i32 c (Z.max (p_weight p) (p_weight q) + 1) ;;
  let res_dscale := Z.max (p_dscale p) (p_dscale q) in
  t <- i32 c (p_nd p - p_weight p) ;;
  rscale1 <- i32 c (t - 1) ;;
  t <- i32 c (p_nd q - p_weight q) ;;
  rscale2 <- i32 c (t - 1) ;;
  let res_rscale := Z.max rscale1 rscale2 in
  t <- i32 c (res_rscale + res_weight) ;;
  nd <- i32 c (t + 1) ;;
  let res_ndigits := if 0 <? nd then nd else 1 in
  d <- m_new c a res_ndigits ;;
  res <- m_slice c d res_ndigits ;;
  t <- i32 c (res_rscale + p_weight p) ;;
  i1 <- i32 c (t + 1) ;;
  t <- i32 c (res_rscale + p_weight q) ;;
  i2 <- i32 c (t + 1) ;;
  '(carry, _, _, res) <-
    for_rev (Z.to_nat res_ndigits) (m_add_step c (p_nd p) (p_nd q) ds1 ds2)
      (0, i1, i2, res) ;;
  dassert c (carry =? 0) ;;;
  m_strip c a (PVar res_ndigits res_weight res_dscale SPos (Owned (write_back d res))).

(** var.rs 545-563: the body of the loop of sub_abs; the variables are (borrow, i1, i2, res_digits) *)
Definition m_sub_step (c : cfg) (n1 n2 : Z) (ds1 ds2 : list Z) (i : Z) (s : Z * Z * Z * list Z) : outcome (Z * Z * Z * list Z) :=
  let '(borrow, i1, i2, res) := s in
  i1 <- i32 c (i1 - 1) ;;
  i2 <- i32 c (i2 - 1) ;;
  borrow <- (if (0 <=? i1) && (i1 <? n1) then x <- get_unchecked ds1 i1 ;; i16 c (borrow + x) else Ret borrow) ;;
  borrow <- (if (0 <=? i2) && (i2 <? n2) then x <- get_unchecked ds2 i2 ;; i16 c (borrow - x) else Ret borrow) ;;
  if borrow <? 0 then
    x <- i16 c (borrow + NBASE) ;;
    res <- set_unchecked res i x ;; Ret (-1, i1, i2, res)
  else res <- set_unchecked res i borrow ;; Ret (0, i1, i2, res).

(** var.rs 507-577: sub_abs *)
Definition m_sub_abs (c : cfg) (a : nat -> Z) (p q : pvar) : outcome pvar :=
  dassert c (negb (m_nan p)) ;;;
  dassert c (negb (m_nan q)) ;;;
  ds1 <- m_digits c p ;;
  ds2 <- m_digits c q ;;
  let res_weight := p_weight p in
  let res_dscale := Z.max (p_dscale p) (p_dscale q) in
  t <- i32 c (p_nd p - p_weight p) ;;
  rscale1 <- i32 c (t - 1) ;;
  t <- i32 c (p_nd q - p_weight q) ;;
  rscale2 <- i32 c (t - 1) ;;
  let res_rscale := Z.max rscale1 rscale2 in
  t <- i32 c (res_rscale + res_weight) ;;
  nd <- i32 c (t + 1) ;;
  let res_ndigits := if nd <=? 0 then 1 else nd in
  d <- m_new c a res_ndigits ;;
  res <- m_slice c d res_ndigits ;;
  t <- i32 c (res_rscale + p_weight p) ;;
  i1 <- i32 c (t + 1) ;;
  t <- i32 c (res_rscale + p_weight q) ;;
  i2 <- i32 c (t + 1) ;;
  '(borrow, _, _, res) <-
    for_rev (Z.to_nat res_ndigits) (m_sub_step c (p_nd p) (p_nd q) ds1 ds2)
      (0, i1, i2, res) ;;
  dassert c (borrow =? 0) ;;;
  m_strip c a (PVar res_ndigits res_weight res_dscale SPos (Owned (write_back d res))).

(** var.rs 579-649: cmp_abs. The loops return early; [inl] is the value returned. *)
Fixpoint m_cmp_skip (c : cfg) (k : nat) (ds : list Z) (n i w w' : Z) : outcome (bool * Z * Z) :=
  match k with
  | O => Diverge
  | S k' =>
      if (w' <? w) && (i <? n) then
        x <- get_unchecked ds i ;;
        if negb (x =? 0) then Ret (true, i, w)
        else i <- i32 c (i + 1) ;; w <- i32 c (w - 1) ;; m_cmp_skip c k' ds n i w w'
      else Ret (false, i, w)
  end.
Fixpoint m_cmp_both (c : cfg) (k : nat) (ds1 ds2 : list Z) (n1 n2 i1 i2 : Z) : outcome (Z + Z * Z) :=
  match k with
  | O => Diverge
  | S k' =>
      if (i1 <? n1) && (i2 <? n2) then
        x <- get_unchecked ds1 i1 ;;
        y <- get_unchecked ds2 i2 ;;
        stat <- i16 c (x - y) ;;
        if negb (stat =? 0) then Ret (inl (if 0 <? stat then 1 else -1))
        else i1 <- i32 c (i1 + 1) ;; i2 <- i32 c (i2 + 1) ;; m_cmp_both c k' ds1 ds2 n1 n2 i1 i2
      else Ret (inr (i1, i2))
  end.
Fixpoint m_cmp_rest (c : cfg) (k : nat) (ds : list Z) (n i : Z) : outcome bool :=
  match k with
  | O => Diverge
  | S k' =>
      if i <? n then
        x <- get_unchecked ds i ;;
        if negb (x =? 0) then Ret true else i <- i32 c (i + 1) ;; m_cmp_rest c k' ds n i
      else Ret false
  end.
Definition m_cmp_abs (c : cfg) (p q : pvar) : outcome Z :=
  dassert c (negb (m_nan p)) ;;;
  dassert c (negb (m_nan q)) ;;;
  ds1 <- m_digits c p ;;
  ds2 <- m_digits c q ;;
  let n1 := p_nd p in
  let n2 := p_nd q in
  let k1 := (Z.to_nat n1 + 1)%nat in
  let k2 := (Z.to_nat n2 + 1)%nat in
  '(found, i1, w1) <- m_cmp_skip c k1 ds1 n1 0 (p_weight p) (p_weight q) ;;
  if (found : bool) then Ret 1
  else
    '(found, i2, w2) <- m_cmp_skip c k2 ds2 n2 0 (p_weight q) w1 ;;
    if (found : bool) then Ret (-1)
    else
      r <- (if w1 =? w2 then m_cmp_both c k1 ds1 ds2 n1 n2 i1 i2 else Ret (inr (i1, i2))) ;;
      match r with
      | inl s => Ret s
      | inr (i1, i2) =>
          more <- m_cmp_rest c k1 ds1 n1 i1 ;;
          if (more : bool) then Ret 1
          else
            more <- m_cmp_rest c k2 ds2 n2 i2 ;;
            if (more : bool) then Ret (-1) else Ret 0
      end.

(** var.rs 651-797: add_common, sub_common *)
Definition m_add_common (c : cfg) (a : nat -> Z) (p q : pvar) : outcome pvar :=
  dassert c (negb (m_nan p)) ;;;
  dassert c (negb (m_nan q)) ;;;
  if m_pos p then
    if m_pos q then r <- m_add_abs c a p q ;; Ret (p_set_sign SPos r)
    else
      cmp <- m_cmp_abs c p q ;;
      if cmp =? 0 then m_zero_scaled c (Z.max (p_dscale p) (p_dscale q))
      else if cmp =? 1 then r <- m_sub_abs c a p q ;; Ret (p_set_sign SPos r)
      else if cmp =? -1 then r <- m_sub_abs c a q p ;; Ret (p_set_sign SNeg r)
      else Panic (WMsg MInvalidCmp)
  else if m_pos q then
    cmp <- m_cmp_abs c p q ;;
    if cmp =? 0 then m_zero_scaled c (Z.max (p_dscale p) (p_dscale q))
    else if cmp =? 1 then r <- m_sub_abs c a p q ;; Ret (p_set_sign SNeg r)
    else if cmp =? -1 then r <- m_sub_abs c a q p ;; Ret (p_set_sign SPos r)
    else Panic (WMsg MInvalidCmp)
  else r <- m_add_abs c a p q ;; Ret (p_set_sign SNeg r).
Definition m_sub_common (c : cfg) (a : nat -> Z) (p q : pvar) : outcome pvar :=
  dassert c (negb (m_nan p)) ;;;
  dassert c (negb (m_nan q)) ;;;
  if m_pos p then
    if m_neg q then r <- m_add_abs c a p q ;; Ret (p_set_sign SPos r)
    else
      cmp <- m_cmp_abs c p q ;;
      if cmp =? 0 then m_zero_scaled c (Z.max (p_dscale p) (p_dscale q))
      else if cmp =? 1 then r <- m_sub_abs c a p q ;; Ret (p_set_sign SPos r)
      else if cmp =? -1 then r <- m_sub_abs c a q p ;; Ret (p_set_sign SNeg r)
      else Panic (WMsg MInvalidCmp)
  else if m_neg q then
    cmp <- m_cmp_abs c p q ;;
    if cmp =? 0 then m_zero_scaled c (Z.max (p_dscale p) (p_dscale q))
    else if cmp =? 1 then r <- m_sub_abs c a p q ;; Ret (p_set_sign SNeg r)
    else if cmp =? -1 then r <- m_sub_abs c a q p ;; Ret (p_set_sign SPos r)
    else Panic (WMsg MInvalidCmp)
  else r <- m_add_abs c a p q ;; Ret (p_set_sign SNeg r).

(** var.rs 1535-1566: cmp_common *)
Definition m_cmp_common (c : cfg) (p q : pvar) : outcome Z :=
  dassert c (negb (m_nan p)) ;;;
  dassert c (negb (m_nan q)) ;;;
  if p_nd p =? 0 then
    if p_nd q =? 0 then Ret 0 else if m_neg q then Ret 1 else Ret (-1)
  else if p_nd q =? 0 then
    if m_pos p then Ret 1 else Ret (-1)
  else if m_pos p then
    if m_neg q then Ret 1 else m_cmp_abs c p q
  else if m_pos q then Ret (-1)
  else m_cmp_abs c q p.

(** Clone for NumericVar (var.rs 106): an owned Cow copies everything from its offset on. *)
Definition m_clone (c : cfg) (a : nat -> Z) (p : pvar) : outcome pvar :=
  k <- (match p_cow p with
        | Borrowed l => Ret (Borrowed l)
        | Owned d =>
            n <- u32 c (lenz (words d) - off d) ;;
            l <- m_slice c d (as_i32 n) ;;
            d <- m_to_owned c a l ;; Ret (Owned d)
        end) ;;
  Ret (PVar (p_nd p) (p_weight p) (p_dscale p) (p_sign p) k).

(** var.rs 372-402: ceil_common, floor_common; [a k] is the content of the k-th allocation *)
Definition m_ceil_common (c : cfg) (a : nat -> nat -> Z) (p : pvar) : outcome pvar :=
  dassert c (negb (m_nan p)) ;;;
  r <- m_clone c (a 0%nat) p ;;
  r <- m_trunc_common c (a 1%nat) r 0 ;;
  b <- (if m_pos p then cmp <- m_cmp_common c p r ;; Ret (negb (cmp =? 0)) else Ret false) ;;
  if (b : bool) then m_add_common c (a 2%nat) r M_ONE else Ret r.
Definition m_floor_common (c : cfg) (a : nat -> nat -> Z) (p : pvar) : outcome pvar :=
  dassert c (negb (m_nan p)) ;;;
  r <- m_clone c (a 0%nat) p ;;
  r <- m_trunc_common c (a 1%nat) r 0 ;;
  b <- (if m_neg p then cmp <- m_cmp_common c p r ;; Ret (negb (cmp =? 0)) else Ret false) ;;
  if (b : bool) then m_sub_common c (a 2%nat) r M_ONE else Ret r.

(** var.rs 890-903: the carry pass over the first [n] entries of the accumulator *)
Definition m_carry_digit (c : cfg) (i : Z) (s : Z * list Z) : outcome (Z * list Z) :=
  let '(carry, dig) := s in
  x <- get_unchecked dig i ;;
  new_dig <- i32 c (x + carry) ;;
  if NBASE <=? new_dig then
    let carry := Z.quot new_dig NBASE in
    t <- i32 c (carry * NBASE) ;;
    new_dig <- i32 c (new_dig - t) ;;
    dig <- set_unchecked dig i new_dig ;; Ret (carry, dig)
  else dig <- set_unchecked dig i new_dig ;; Ret (0, dig).
Definition m_carry_pass (c : cfg) (n : Z) (dig : list Z) : outcome (Z * list Z) :=
  for_rev (Z.to_nat n) (m_carry_digit c) (0, dig).

(** var.rs 915-921: the body of the inner loop of mul_common; the variables are (i, dig) *)
Definition m_mul_add (c : cfg) (var1_digit : Z) (ds2 : list Z) (i2 : Z) (s : Z * list Z) : outcome (Z * list Z) :=
  let '(i, dig) := s in
  x <- get_unchecked dig i ;;
  y <- get_unchecked ds2 i2 ;;
  t <- i32 c (var1_digit * y) ;;
  x <- i32 c (x + t) ;;
  dig <- set_unchecked dig i x ;;
  i <- i32 c (i - 1) ;; Ret (i, dig).

(** var.rs 879-922: the body of the outer loop; the variables are (max_dig, dig) *)
Definition m_mul_step (c : cfg) (n2 res_ndigits : Z) (ds1 ds2 : list Z) (i1 : Z) (s : Z * list Z) : outcome (Z * list Z) :=
  let '(max_dig, dig) := s in
  var1_digit <- get_unchecked ds1 i1 ;;
  if var1_digit =? 0 then Ret (max_dig, dig)
  else
    max_dig <- i32 c (max_dig + var1_digit) ;;
    '(max_dig, dig) <-
      (if Z.quot (I32_MAX - Z.quot I32_MAX NBASE) (NBASE - 1) <? max_dig then
         '(carry, dig) <- m_carry_pass c res_ndigits dig ;;
         dassert c (carry =? 0) ;;;
         max_dig <- i32 c (1 + var1_digit) ;; Ret (max_dig, dig)
       else Ret (max_dig, dig)) ;;
    b1 <- i32 c (n2 - 1) ;;
    t <- i32 c (res_ndigits - i1) ;;
    b2 <- i32 c (t - 3) ;;
    let bound := Z.min b1 b2 in
    t <- i32 c (i1 + bound) ;;
    i <- i32 c (t + 2) ;;
    '(_, dig) <- for_rev (Z.to_nat (bound + 1)) (m_mul_add c var1_digit ds2) (i, dig) ;;
    Ret (max_dig, dig).

(** var.rs 930-941: the final carry pass, from [dig] into the result; the variables are (carry, res_digits) *)
Definition m_mul_store (c : cfg) (dig : list Z) (i : Z) (s : Z * list Z) : outcome (Z * list Z) :=
  let '(carry, res) := s in
  x <- get_unchecked dig i ;;
  new_dig <- i32 c (x + carry) ;;
  if NBASE <=? new_dig then
    let carry := Z.quot new_dig NBASE in
    t <- i32 c (carry * NBASE) ;;
    new_dig <- i32 c (new_dig - t) ;;
    res <- set_unchecked res i (as_i16 new_dig) ;; Ret (carry, res)
  else res <- set_unchecked res i (as_i16 new_dig) ;; Ret (0, res).

(** var.rs 799-952: mul_common *)
Definition m_mul_common (c : cfg) (a : nat -> Z) (self other : pvar) (rscale : Z) : outcome pvar :=
  dassert c (negb (m_nan self)) ;;;
  dassert c (negb (m_nan other)) ;;;
  let '(p, q) := if p_nd other <? p_nd self then (other, self) else (self, other) in
  ds1 <- m_digits c p ;;
  ds2 <- m_digits c q ;;
  if (p_nd p =? 0) || (p_nd q =? 0) then m_zero_scaled c rscale
  else
    let res_sign := if sgn_eqb (p_sign p) (p_sign q) then SPos else SNeg in
    t <- i32 c (p_weight p + p_weight q) ;;
    res_weight <- i32 c (t + 2) ;;
    t <- i32 c (p_nd p + p_nd q) ;;
    nd <- i32 c (t + 1) ;;
    t <- i32 c (res_weight + 1) ;;
    s <- i32 c (rscale + DEC_DIGITS) ;;
    s <- i32 c (s - 1) ;;
    t <- i32 c (t + Z.quot s DEC_DIGITS) ;;
    max_digits <- i32 c (t + MUL_GUARD_DIGITS) ;;
    let res_ndigits := Z.min nd max_digits in
    if res_ndigits <? 3 then m_zero_scaled c rscale
    else
      size <- usize c (res_ndigits * 4) ;;
      let dig := zeros size in
      b1 <- i32 c (p_nd p - 1) ;;
      b2 <- i32 c (res_ndigits - 3) ;;
      let bound := Z.min b1 b2 in
      '(_, dig) <- for_rev (Z.to_nat (bound + 1)) (m_mul_step c (p_nd q) res_ndigits ds1 ds2) (0, dig) ;;
      d <- m_new c a res_ndigits ;;
      res <- m_slice c d res_ndigits ;;
      '(carry, res) <- for_rev (Z.to_nat res_ndigits) (m_mul_store c dig) (0, res) ;;
      dassert c (carry =? 0) ;;;
      r <- m_round_common c a (PVar res_ndigits res_weight 0 res_sign (Owned (write_back d res))) rscale ;;
      m_strip c a r.

(** var.rs 954-1007: select_div_scale; the search for the first non-zero digit of one operand:
    (weight, first digit) *)
Fixpoint m_first (c : cfg) (k : nat) (ds : list Z) (n i w last : Z) : outcome (Z * Z) :=
  match k with
  | O => Diverge
  | S k' =>
      if i <? n then
        x <- get_unchecked ds i ;;
        if negb (x =? 0) then t <- i32 c (w - i) ;; Ret (t, x) else m_first c k' ds n (i + 1) w x
      else Ret (0, last)
  end.
Definition m_select_div_scale (c : cfg) (p q : pvar) : outcome Z :=
  ds1 <- m_digits c p ;;
  '(weight1, first1) <- m_first c (Z.to_nat (p_nd p) + 1) ds1 (p_nd p) 0 (p_weight p) 0 ;;
  ds2 <- m_digits c q ;;
  '(weight2, first2) <- m_first c (Z.to_nat (p_nd q) + 1) ds2 (p_nd q) 0 (p_weight q) 0 ;;
  w <- i32 c (weight1 - weight2) ;;
  qweight <- (if first1 <=? first2 then i32 c (w - 1) else Ret w) ;;
  t <- i32 c (qweight * DEC_DIGITS) ;;
  s <- i32 c (NUMERIC_MIN_SIG_DIGITS - t) ;;
  Ret (Z.min (Z.max (Z.max (Z.max s (p_dscale p)) (p_dscale q)) NUMERIC_MIN_DISPLAY_SCALE)
             NUMERIC_MAX_DISPLAY_SCALE).

(** var.rs 1107-1125: the two scaling loops, over the [n] entries from [lo] on; the variables are (carry, l) *)
Definition m_scale_digit (c : cfg) (lo d k : Z) (s : Z * list Z) : outcome (Z * list Z) :=
  let '(carry, l) := s in
  let i := lo + k in
  x <- get_unchecked l i ;;
  t <- i32 c (x * d) ;;
  carry <- i32 c (carry + t) ;;
  l <- set_unchecked l i (as_i16 (Z.rem carry NBASE)) ;;
  Ret (Z.quot carry NBASE, l).
Definition m_scale_up (c : cfg) (lo : Z) (n : nat) (d : Z) (l : list Z) : outcome (Z * list Z) :=
  for_rev n (m_scale_digit c lo d) (0, l).

(** var.rs 1165-1170: the condition of the loop that corrects qhat *)
Definition m_qhat_large (c : cfg) (divisor1 divisor2 next2digits j : Z) (dividend : list Z) (qhat : Z) : outcome bool :=
  l <- i32 c (divisor2 * qhat) ;;
  t <- i32 c (qhat * divisor1) ;;
  t <- i32 c (next2digits - t) ;;
  t <- i32 c (t * NBASE) ;;
  j2 <- usize c (j + 2) ;;
  u2 <- get_unchecked dividend j2 ;;
  r <- i32 c (t + u2) ;;
  Ret (r <? l).

(** var.rs 1179-1193: multiply and subtract; the variables are (carry, borrow, dividend) *)
Definition m_mul_sub (c : cfg) (divisor : list Z) (qhat j i : Z) (s : Z * Z * list Z) : outcome (Z * Z * list Z) :=
  let '(carry, borrow, dividend) := s in
  v <- get_unchecked divisor i ;;
  t <- i32 c (v * qhat) ;;
  carry <- i32 c (carry + t) ;;
  borrow <- i32 c (borrow - Z.rem carry NBASE) ;;
  let carry := Z.quot carry NBASE in
  k <- usize c (j + i) ;;
  u <- get_unchecked dividend k ;;
  borrow <- i32 c (borrow + u) ;;
  if borrow <? 0 then
    t <- i32 c (borrow + NBASE) ;;
    dividend <- set_unchecked dividend k (as_i16 t) ;; Ret (carry, -1, dividend)
  else dividend <- set_unchecked dividend k (as_i16 borrow) ;; Ret (carry, 0, dividend).

(** var.rs 1203-1214: add back; the variables are (carry, dividend) *)
Definition m_add_back (c : cfg) (divisor : list Z) (j i : Z) (s : Z * list Z) : outcome (Z * list Z) :=
  let '(carry, dividend) := s in
  k <- usize c (j + i) ;;
  u <- get_unchecked dividend k ;;
  v <- get_unchecked divisor i ;;
  t <- i32 c (u + v) ;;
  carry <- i32 c (carry + t) ;;
  if NBASE <=? carry then
    t <- i32 c (carry - NBASE) ;;
    dividend <- set_unchecked dividend k (as_i16 t) ;; Ret (1, dividend)
  else dividend <- set_unchecked dividend k (as_i16 carry) ;; Ret (0, dividend).

(** var.rs 1135-1221: one pass of the main loop: (dividend, quotient digit) *)
Definition m_div_digit (c : cfg) (n2 divisor1 divisor2 : Z) (divisor : list Z) (j : Z) (dividend : list Z)
  : outcome (list Z * Z) :=
  u0 <- get_unchecked dividend j ;;
  t <- i32 c (u0 * NBASE) ;;
  j1 <- usize c (j + 1) ;;
  u1 <- get_unchecked dividend j1 ;;
  next2digits <- i32 c (t + u1) ;;
  if next2digits =? 0 then Ret (dividend, 0)
  else
    u0 <- get_unchecked dividend j ;;
    qhat <- (if u0 =? divisor1 then i32 c (NBASE - 1)
             else if divisor1 =? 0 then Panic WDivZero else Ret (Z.quot next2digits divisor1)) ;;
    qhat <- while (S (Z.to_nat qhat)) (m_qhat_large c divisor1 divisor2 next2digits j dividend) (fun qhat => i32 c (qhat - 1)) qhat ;;
    if 0 <? qhat then
      '(carry, borrow, dividend) <- for_rev (Z.to_nat (n2 + 1)) (m_mul_sub c divisor qhat j) (0, 0, dividend) ;;
      dassert c (carry =? 0) ;;;
      if negb (borrow =? 0) then
        qhat <- i32 c (qhat - 1) ;;
        '(carry, dividend) <- for_rev (Z.to_nat (n2 + 1)) (m_add_back c divisor j) (0, dividend) ;;
        dassert c (carry =? 1) ;;;
        Ret (dividend, as_i16 qhat)
      else Ret (dividend, as_i16 qhat)
    else Ret (dividend, as_i16 qhat).

(** var.rs 1084-1096: the body of the loop for a single divisor digit; the variables are (carry, res_digits) *)
Definition m_div_short (c : cfg) (dividend : list Z) (divisor1 i : Z) (s : Z * list Z) : outcome (Z * list Z) :=
  let '(carry, res) := s in
  t <- i32 c (carry * NBASE) ;;
  i1 <- usize c (i + 1) ;;
  u <- get_unchecked dividend i1 ;;
  carry <- i32 c (t + u) ;;
  if divisor1 =? 0 then Panic WDivZero
  else
    res <- set_unchecked res i (as_i16 (Z.quot carry divisor1)) ;;
    Ret (Z.rem carry divisor1, res).

(** var.rs 1135-1221: the main loop; the variables are (dividend, res_digits) *)
Definition m_div_long (c : cfg) (n2 divisor1 divisor2 : Z) (divisor : list Z) (j : Z) (s : list Z * list Z)
  : outcome (list Z * list Z) :=
  let '(dividend, res) := s in
  '(dividend, x) <- m_div_digit c n2 divisor1 divisor2 divisor j dividend ;;
  res <- set_unchecked res j x ;; Ret (dividend, res).

(** [dst[lo..=hi].copy_from_slice(src)] *)
Definition copy_from_slice (dst : list Z) (lo hi : Z) (src : list Z) : outcome (list Z) :=
  if (hi + 1 <? lo) || (lenz dst <? hi + 1) || negb (hi + 1 - lo =? lenz src) then Panic WBounds
  else Ret (firstn (Z.to_nat lo) dst ++ src ++ skipn (Z.to_nat (hi + 1)) dst).

(** var.rs 1009-1236: div_common *)
Definition m_div_common (c : cfg) (a : nat -> Z) (p q : pvar) (rscale : Z) (round : bool) : outcome (option pvar) :=
  dassert c (negb (m_nan p)) ;;;
  dassert c (negb (m_nan q)) ;;;
  let n1 := p_nd p in
  let n2 := p_nd q in
  is0 <- (if n2 =? 0 then Ret true
          else
            l <- (match p_cow q with
                  | Borrowed l => Ret l
                  | Owned d => n <- u32 c (lenz (words d) - off d) ;; m_slice c d (as_i32 n)
                  end) ;;
            x <- index l 0 ;; Ret (x =? 0)) ;;
  if (is0 : bool) then Ret None
  else if n1 =? 0 then z <- m_zero_scaled c rscale ;; Ret (Some z)
  else
    let res_sign := if sgn_eqb (p_sign p) (p_sign q) then SPos else SNeg in
    res_weight <- i32 c (p_weight p - p_weight q) ;;
    t <- i32 c (res_weight + 1) ;;
    s <- i32 c (rscale + DEC_DIGITS) ;;
    s <- i32 c (s - 1) ;;
    nd <- i32 c (t + Z.quot s DEC_DIGITS) ;;
    let nd := Z.max nd 1 in
    res_ndigits <- (if round then i32 c (nd + 1) else Ret nd) ;;
    t <- i32 c (res_ndigits + n2) ;;
    let div_ndigits := Z.max t n1 in
    t <- i32 c (div_ndigits + n2) ;;
    size <- i32 c (t + 2) ;;
    let workspace := zeros size in
    mid <- usize c (div_ndigits + 1) ;;
    (if lenz workspace <? mid then Panic WBounds else Ret tt) ;;;
    let dividend := firstn (Z.to_nat mid) workspace in
    let divisor := skipn (Z.to_nat mid) workspace in
    ds1 <- m_digits c p ;;
    dividend <- copy_from_slice dividend 1 n1 ds1 ;;
    ds2 <- m_digits c q ;;
    divisor <- copy_from_slice divisor 1 n2 ds2 ;;
    d <- m_new c a res_ndigits ;;
    res <- m_slice c d res_ndigits ;;
    res <-
      (if n2 =? 1 then
         divisor1 <- index divisor 1 ;;
         '(_, res) <- for_up (Z.to_nat res_ndigits) 0 (m_div_short c dividend divisor1) (0, res) ;;
         Ret res
       else
         top <- index divisor 1 ;;
         '(divisor, dividend) <-
           (if top <? HALF_NBASE then
              s <- i16 c (top + 1) ;;
              if s =? 0 then Panic WDivZero
              else
                let f := Z.quot NBASE s in
                '(carry, divisor) <- m_scale_up c 1 (Z.to_nat n2) f divisor ;;
                dassert c (carry =? 0) ;;;
                '(carry, dividend) <- m_scale_up c 0 (Z.to_nat (n1 + 1)) f dividend ;;
                dassert c (carry =? 0) ;;;
                top <- index divisor 1 ;;
                dassert c (HALF_NBASE <=? top) ;;;
                Ret (divisor, dividend)
            else Ret (divisor, dividend)) ;;
         divisor1 <- index divisor 1 ;;
         divisor2 <- index divisor 2 ;;
         '(_, res) <- for_up (Z.to_nat res_ndigits) 0 (m_div_long c n2 divisor1 divisor2 divisor) (dividend, res) ;;
         Ret res) ;;
    let r := PVar res_ndigits res_weight 0 res_sign (Owned (write_back d res)) in
    r <- (if round then m_round_common c a r rscale else m_trunc_common c a r rscale) ;;
    r <- m_strip c a r ;;
    Ret (Some r).

(** var.rs 1518-1533: mod_common *)
Definition m_mod_common (c : cfg) (a : nat -> nat -> Z) (p q : pvar) : outcome (option pvar) :=
  dassert c (negb (m_nan p)) ;;;
  dassert c (negb (m_nan q)) ;;;
  o <- m_div_common c (a 0%nat) p q 0 false ;;
  match o with
  | None => Ret None
  | Some r =>
      r <- m_mul_common c (a 1%nat) r q (p_dscale q) ;;
      r <- m_sub_common c (a 2%nat) p r ;;
      Ret (Some r)
  end.

(** data.rs 199-237, var.rs 218-234: set_header, into_numeric_buf *)
Definition m_into_buf (c : cfg) (a : nat -> Z) (p : pvar) : outcome pbuf :=
  d <- m_own c a (p_cow p) ;;
  let w := as_i16 (p_weight p) in
  let ds := Z.land (p_dscale p) 0xFFFF in
  let nd := p_nd p in
  dassert c (0 <=? nd) ;;;
  dassert c (NUMERIC_HEADER_NDIGITS <=? off d) ;;;
  '(hdr, o) <-
    (if can_be_short w ds then
       t <- u32 c (as_u32 nd * NUMERIC_DIGIT_SIZE) ;;
       len <- u32 c (NUMERIC_HEADER_SIZE_SHORT + t) ;;
       h <- short_header c w ds (p_sign p) ;;
       t <- u32 c (off d * NUMERIC_DIGIT_SIZE) ;;
       o <- u32 c (t - NUMERIC_HEADER_SIZE_SHORT) ;;
       Ret (encode_len c len ++ le16 h, o)
     else
       t <- u32 c (as_u32 nd * NUMERIC_DIGIT_SIZE) ;;
       len <- u32 c (NUMERIC_HEADER_SIZE + t) ;;
       t <- u32 c (off d * NUMERIC_DIGIT_SIZE) ;;
       o <- u32 c (t - NUMERIC_HEADER_SIZE) ;;
       Ret (encode_len c len ++ le16 (long_header ds (p_sign p)) ++ le16 w, o)) ;;
  let start := off d - lenz (words_of hdr) in
  if start <? 0 then UB
  else
    size <- u32 c (lenz (words d) * NUMERIC_DIGIT_SIZE) ;;
    dassert c (o <? size) ;;;
    Ret (PBuf (firstn (Z.to_nat start) (words d) ++ words_of hdr ++ skipn (Z.to_nat (off d)) (words d)) o).

(** var.rs 2306-2339: make_result_no_overflow, make_result *)
Definition m_make_no_overflow (c : cfg) (a : nat -> Z) (p : pvar) : outcome pbuf :=
  dassert c (negb (m_nan p)) ;;;
  dassert c ((p_weight p <=? NUMERIC_WEIGHT_MAX) || (NUMERIC_WEIGHT_MIN <=? p_weight p)
             || (p_dscale p <=? NUMERIC_DSCALE_MAX) || (0 <=? p_dscale p)) ;;;
  p <- m_strip c a p ;; m_into_buf c a p.
Definition m_make_result (c : cfg) (a : nat -> Z) (p : pvar) : outcome (option pbuf) :=
  dassert c (negb (m_nan p)) ;;;
  dassert c (0 <=? p_dscale p) ;;;
  if (NUMERIC_WEIGHT_MAX <? p_weight p) || (p_weight p <? NUMERIC_WEIGHT_MIN)
     || (NUMERIC_DSCALE_MAX <? p_dscale p)
  then Ret None
  else b <- m_make_no_overflow c a p ;; Ret (Some b).

(** ** The API, num.rs: the operands are borrowed from the stored bytes (binary.rs 427-472) *)
Definition m_as_var (c : cfg) (x : bytes) : outcome pvar :=
  v <- as_var c x ;;
  dassert c (ndigits v =? lenz (digits v)) ;;;
  Ret (PVar (ndigits v) (weight v) (dscale v) (sign v) (Borrowed (digits v))).

(** num.rs 55-60: NumericBuf::nan *)
Definition m_nan_buf (c : cfg) (a : nat -> Z) : outcome pbuf := m_into_buf c a (PVar 0 0 0 SNaN (Borrowed [])).

Definition m_with_nan2 (c : cfg) (a : nat -> nat -> Z) (x y : bytes)
  (k : pvar -> pvar -> outcome (option pbuf)) : outcome (option pbuf) :=
  nx <- num_is_nan c x ;;
  ny <- (if (nx : bool) then Ret true else num_is_nan c y) ;;
  if (ny : bool) then b <- m_nan_buf c (a 0%nat) ;; Ret (Some b)
  else p <- m_as_var c x ;; q <- m_as_var c y ;; k p q.

Definition m_make_opt (c : cfg) (a : nat -> Z) (o : option pvar) : outcome (option pbuf) :=
  match o with None => Ret None | Some r => m_make_result c a r end.

(** num.rs 503-554, 586-665; the last allocation, if any, is that of make_result *)
Definition m_checked_add (c : cfg) (a : nat -> nat -> Z) (x y : bytes) : outcome (option pbuf) :=
  m_with_nan2 c a x y (fun p q => r <- m_add_common c (a 0%nat) p q ;; m_make_result c (a 9%nat) r).
Definition m_checked_sub (c : cfg) (a : nat -> nat -> Z) (x y : bytes) : outcome (option pbuf) :=
  m_with_nan2 c a x y (fun p q => r <- m_sub_common c (a 0%nat) p q ;; m_make_result c (a 9%nat) r).
Definition m_checked_mul (c : cfg) (a : nat -> nat -> Z) (x y : bytes) : outcome (option pbuf) :=
  m_with_nan2 c a x y (fun p q =>
    rscale <- i32 c (p_dscale p + p_dscale q) ;;
    r <- m_mul_common c (a 0%nat) p q rscale ;; m_make_result c (a 9%nat) r).
Definition m_checked_div (c : cfg) (a : nat -> nat -> Z) (x y : bytes) : outcome (option pbuf) :=
  m_with_nan2 c a x y (fun p q =>
    dassert c (negb (m_nan p)) ;;; dassert c (negb (m_nan q)) ;;;
    rscale <- m_select_div_scale c p q ;;
    o <- m_div_common c (a 0%nat) p q rscale true ;; m_make_opt c (a 9%nat) o).
Definition m_checked_div_trunc (c : cfg) (a : nat -> nat -> Z) (x y : bytes) : outcome (option pbuf) :=
  m_with_nan2 c a x y (fun p q =>
    dassert c (negb (m_nan p)) ;;; dassert c (negb (m_nan q)) ;;;
    o <- m_div_common c (a 0%nat) p q 0 false ;; m_make_opt c (a 9%nat) o).
Definition m_checked_rem (c : cfg) (a : nat -> nat -> Z) (x y : bytes) : outcome (option pbuf) :=
  m_with_nan2 c a x y (fun p q => o <- m_mod_common c a p q ;; m_make_opt c (a 9%nat) o).

(** num.rs 672-738: round, trunc, ceil, floor *)
Definition m_unary (c : cfg) (a : nat -> nat -> Z) (x : bytes) (k : pvar -> outcome (option pbuf))
  : outcome (option pbuf) :=
  nan <- num_is_nan c x ;;
  if (nan : bool) then b <- m_nan_buf c (a 0%nat) ;; Ret (Some b) else p <- m_as_var c x ;; k p.
Definition m_clamp (scale : Z) : Z :=
  Z.min (Z.max scale (- NUMERIC_MAX_DISPLAY_SCALE)) NUMERIC_MAX_DISPLAY_SCALE.
Definition m_num_round (c : cfg) (a : nat -> nat -> Z) (x : bytes) (scale : Z) : outcome (option pbuf) :=
  m_unary c a x (fun p =>
    dassert c (negb (m_nan p)) ;;;
    r <- m_round_common c (a 0%nat) p (m_clamp scale) ;;
    let r := if m_clamp scale <? 0 then p_set_dscale 0 r else r in
    o <- m_make_result c (a 9%nat) r ;; b <- expect o MOverflow ;; Ret (Some b)).
Definition m_num_trunc (c : cfg) (a : nat -> nat -> Z) (x : bytes) (scale : Z) : outcome (option pbuf) :=
  m_unary c a x (fun p =>
    dassert c (negb (m_nan p)) ;;;
    r <- m_trunc_common c (a 0%nat) p (m_clamp scale) ;;
    let r := if m_clamp scale <? 0 then p_set_dscale 0 r else r in
    b <- m_make_no_overflow c (a 9%nat) r ;; Ret (Some b)).
Definition m_num_ceil (c : cfg) (a : nat -> nat -> Z) (x : bytes) : outcome (option pbuf) :=
  m_unary c a x (fun p =>
    dassert c (negb (m_nan p)) ;;;
    r <- m_ceil_common c a p ;; o <- m_make_result c (a 9%nat) r ;; b <- expect o MOverflow ;; Ret (Some b)).
Definition m_num_floor (c : cfg) (a : nat -> nat -> Z) (x : bytes) : outcome (option pbuf) :=
  m_unary c a x (fun p =>
    dassert c (negb (m_nan p)) ;;;
    r <- m_floor_common c a p ;; o <- m_make_result c (a 9%nat) r ;; b <- expect o MOverflow ;; Ret (Some b)).

(** num.rs 884-908: cmp *)
Definition m_num_cmp (c : cfg) (x y : bytes) : outcome comparison :=
  nx <- num_is_nan c x ;;
  if (nx : bool) then ny <- num_is_nan c y ;; Ret (if (ny : bool) then Eq else Gt)
  else
    ny <- num_is_nan c y ;;
    if (ny : bool) then Ret Lt
    else
      p <- m_as_var c x ;; q <- m_as_var c y ;;
      r <- m_cmp_common c p q ;;
      Ret (if 0 <? r then Gt else if r <? 0 then Lt else Eq).
