(** * Data: the digit buffer behind a [NumericVar] and a [NumericBuf] (src/data.rs), and the
    in-place operations at that level.

    A buffer is the list of its 16-bit words. What a fresh allocation contains is unspecified: every
    function that may allocate takes it as the parameter [a]. An access through a raw pointer or an
    unchecked index outside the buffer is [UB]. (Simplification: references to uninitialised words,
    which the code creates but does not read, are not counted as undefined behaviour.) *)
From Coq Require Import ZArith List Bool.
From Verif Require Import Base Var Binary Typmod.
Import ListNotations.
Open Scope Z_scope.

(** data.rs 26-36 ([len] is the length of [words]; a null pointer never reaches these functions). *)
Record data := Data { words : list Z; off : Z }.

(** var.rs 107-114, with the buffer: [p_cow] is the Cow, [p_nd] the digit count. *)
Inductive cow := Borrowed (l : list Z) | Owned (d : data).
Record pvar := PVar { p_nd : Z; p_weight : Z; p_dscale : Z; p_sign : sgn; p_cow : cow }.

(** num.rs 40-52: NumericBuf; [b_off] is the byte offset of the header. *)
Record pbuf := PBuf { b_words : list Z; b_off : Z }.

Definition alloc (a : nat -> Z) (n : Z) : list Z := map a (seq 0 (Z.to_nat n)).

(** data.rs 43-53, 74-91: with_ndigits, buf_alloc *)
Definition with_ndigits (c : cfg) (a : nat -> Z) (n : Z) : outcome data :=
  dassert c (0 <=? n) ;;;
  Ret (Data (alloc a (n + NUMERIC_HEADER_NDIGITS + 1)) (NUMERIC_HEADER_NDIGITS + 1)).

(** data.rs 153-173: digits, digits_mut (the slice they give) *)
Definition slice (c : cfg) (d : data) (n : Z) : outcome (list Z) :=
  dassert c (off d + n <=? lenz (words d)) ;;;
  if (0 <=? n) && (off d + n <=? lenz (words d)) then Ret (firstn (Z.to_nat n) (skipn (Z.to_nat (off d)) (words d)))
  else UB.

(** [digits_mut(n).copy_from_slice(l)] with n the length of [l] (data.rs 286-291) *)
Definition copy_in (c : cfg) (d : data) (l : list Z) : outcome data :=
  slice c d (lenz l) ;;;
  Ret (Data (firstn (Z.to_nat (off d)) (words d) ++ l ++ skipn (Z.to_nat (off d) + length l) (words d)) (off d)).

(** data.rs 282-292: NumericDigits::to_owned *)
Definition to_owned (c : cfg) (a : nat -> Z) (l : list Z) : outcome data :=
  d <- with_ndigits c a (lenz l) ;; copy_in c d l.

(** Cow::to_mut and Cow::into_owned *)
Definition own (c : cfg) (a : nat -> Z) (k : cow) : outcome data :=
  match k with Borrowed l => to_owned c a l | Owned d => Ret d end.

(** data.rs 104-122: buf_copy *)
Definition buf_copy (c : cfg) (a : nat -> Z) (d : data) (n : Z) : outcome data :=
  dassert c (0 <=? n) ;;;
  if 0 <? n then
    l <- slice c d n ;;
    Ret (Data (alloc a (NUMERIC_HEADER_NDIGITS + 1) ++ l) (NUMERIC_HEADER_NDIGITS + 1))
  else Ret (Data (alloc a (n + NUMERIC_HEADER_NDIGITS + 1)) (NUMERIC_HEADER_NDIGITS + 1)).

(** data.rs 182-197: reserve_rounding_digit *)
Definition reserve (c : cfg) (a : nat -> Z) (d : data) (n : Z) : outcome data :=
  dassert c (0 <? n) ;;;
  if off d <=? NUMERIC_HEADER_NDIGITS then buf_copy c a d n else Ret d.

(** A bounds-checked store [slice[i] = x]. *)
Definition set_checked {A} (l : list A) (i : Z) (x : A) : outcome (list A) :=
  if (i <? 0) || (lenz l <=? i) then Panic WBounds else Ret (set_nth l (Z.to_nat i) x).

(** The carry loop var.rs 302-319 on the whole buffer ([k] bounds its length); returns the words
    and the last value of [ndigits]. *)
Fixpoint carry_loop (c : cfg) (k : nat) (w : list Z) (o nd carry : Z) : outcome (list Z * Z) :=
  match k with
  | O => Diverge
  | S k' =>
      if 0 <? carry then
        let nd := nd - 1 in
        let i := o + nd in
        dassert c ((0 <=? i) && (i <? lenz w)) ;;;
        x <- get_unchecked w i ;;
        s <- i32 c (carry + x) ;;
        if NBASE <=? s then
          w <- set_unchecked w i (as_i16 (s - NBASE)) ;; carry_loop c k' w o nd 1
        else
          w <- set_unchecked w i (as_i16 s) ;; carry_loop c k' w o nd 0
      else Ret (w, nd)
  end.

(** var.rs 240-330: round_common *)
Definition p_round_common (c : cfg) (a : nat -> Z) (p : pvar) (rscale : Z) : outcome pvar :=
  dassert c (negb (sgn_eqb (p_sign p) SNaN)) ;;;
  let di := (p_weight p + 1) * DEC_DIGITS + rscale in
  if di <? 0 then Ret (PVar 0 0 rscale SPos (p_cow p))
  else
    let nd := Z.quot (di + DEC_DIGITS - 1) DEC_DIGITS in
    let di := Z.rem di DEC_DIGITS in
    if (nd <? p_nd p) || ((nd =? p_nd p) && (0 <? di)) then
      d <- own c a (p_cow p) ;;
      d <- (if 0 <? p_nd p then reserve c a d (p_nd p) else Ret d) ;;
      dassert c ((NUMERIC_HEADER_NDIGITS <? off d) || (p_nd p =? 0)) ;;;
      ds <- slice c d (p_nd p) ;;
      '(nd', carry, w) <-
        (if di =? 0 then
           x <- index ds nd ;;
           Ret (nd, (if HALF_NBASE <=? x then 1 else 0), words d)
         else
           pow10 <- index ROUND_POWERS di ;;
           dassert c ((0 <=? nd - 1) && (nd - 1 <? lenz ds)) ;;;
           x <- get_unchecked ds (nd - 1) ;;
           let extra := Z.rem x pow10 in
           x' <- i16 c (x - extra) ;;
           w <- set_unchecked (words d) (off d + (nd - 1)) x' ;;
           if Z.quot pow10 2 <=? extra then
             q <- i16 c (pow10 + x') ;;
             if NBASE <=? q then
               w <- set_unchecked w (off d + (nd - 1)) (q - NBASE) ;; Ret (nd - 1, 1, w)
             else w <- set_unchecked w (off d + (nd - 1)) q ;; Ret (nd - 1, 0, w)
           else Ret (nd - 1, 0, w)) ;;
      (* as_mut_slice, data.rs 175-180 *)
      dassert c (NUMERIC_HEADER_NDIGITS <? off d) ;;;
      w <- set_checked w (off d - 1) 0 ;;
      '(w, nd') <- carry_loop c (Z.to_nat nd' + 3) w (off d) nd' carry ;;
      if nd' <? 0 then
        dassert c (nd' =? -1) ;;;
        dassert c (0 <? off d) ;;;
        dassert c (1 <=? off d) ;;;
        Ret (PVar (nd + 1) (p_weight p + 1) rscale (p_sign p) (Owned (Data w (off d - 1))))
      else Ret (PVar nd (p_weight p) rscale (p_sign p) (Owned (Data w (off d))))
    else Ret (PVar (p_nd p) (p_weight p) rscale (p_sign p) (p_cow p)).

(** var.rs 336-371: trunc_common *)
Definition p_trunc_common (c : cfg) (a : nat -> Z) (p : pvar) (rscale : Z) : outcome pvar :=
  dassert c (negb (sgn_eqb (p_sign p) SNaN)) ;;;
  let di := (p_weight p + 1) * DEC_DIGITS + rscale in
  if di <=? 0 then Ret (PVar 0 0 rscale SPos (p_cow p))
  else
    let nd := Z.quot (di + DEC_DIGITS - 1) DEC_DIGITS in
    if nd <=? p_nd p then
      let di := Z.rem di DEC_DIGITS in
      if 0 <? di then
        d <- own c a (p_cow p) ;;
        ds <- slice c d nd ;;
        pow10 <- index ROUND_POWERS di ;;
        x <- index ds (nd - 1) ;;
        let extra := Z.rem x pow10 in
        x' <- i16 c (x - extra) ;;
        w <- set_checked (words d) (off d + (nd - 1)) x' ;;
        Ret (PVar nd (p_weight p) rscale (p_sign p) (Owned (Data w (off d))))
      else Ret (PVar nd (p_weight p) rscale (p_sign p) (p_cow p))
    else Ret (PVar (p_nd p) (p_weight p) rscale (p_sign p) (p_cow p)).

(** var.rs 404-433: strip; its two loops, with their unchecked reads ([k] bounds their length). *)
Fixpoint strip_front (k : nat) (ds : list Z) (i w nd : Z) : outcome (Z * Z * Z) :=
  match k with
  | O => Diverge
  | S k' =>
      if 0 <? nd then
        x <- get_unchecked ds i ;;
        if x =? 0 then strip_front k' ds (i + 1) (w - 1) (nd - 1) else Ret (i, w, nd)
      else Ret (i, w, nd)
  end.
Fixpoint strip_back (k : nat) (ds : list Z) (i nd : Z) : outcome Z :=
  match k with
  | O => Diverge
  | S k' =>
      if 0 <? nd then
        x <- get_unchecked ds (i + nd - 1) ;;
        if x =? 0 then strip_back k' ds i (nd - 1) else Ret nd
      else Ret nd
  end.
Definition p_strip (c : cfg) (a : nat -> Z) (p : pvar) : outcome pvar :=
  d <- own c a (p_cow p) ;;
  ds <- slice c d (p_nd p) ;;
  '(i, w, nd) <- strip_front (Z.to_nat (p_nd p) + 1) ds 0 (p_weight p) (p_nd p) ;;
  nd <- strip_back (Z.to_nat nd + 1) ds i nd ;;
  dassert c (off d + i <=? lenz (words d)) ;;;
  Ret (PVar nd (if nd =? 0 then 0 else w) (p_dscale p) (if nd =? 0 then SPos else p_sign p)
            (Owned (Data (words d) (off d + i)))).

(** Two header bytes as the word they occupy. *)
Fixpoint words_of (x : bytes) : list Z :=
  match x with
  | b0 :: b1 :: t => as_i16 (Z.lor b0 (Z.shiftl b1 8)) :: words_of t
  | _ => []
  end.

(** num.rs 43-53: NumericBuf::from_raw_parts *)
Definition from_raw_parts (c : cfg) (w : list Z) (o : Z) : outcome pbuf :=
  dassert c (o <? lenz w * NUMERIC_DIGIT_SIZE) ;;; Ret (PBuf w o).

(** data.rs 199-237: set_header, and the NumericBuf var.rs 229-233 makes of it *)
Definition p_set_header (c : cfg) (d : data) (w ds : Z) (sg : sgn) (nd : Z) : outcome pbuf :=
  dassert c (0 <=? nd) ;;;
  dassert c (NUMERIC_HEADER_NDIGITS <=? off d) ;;;
  hdr <-
    (if can_be_short w ds then
       h <- short_header c w ds sg ;;
       Ret (encode_len c (NUMERIC_HEADER_SIZE_SHORT + nd * NUMERIC_DIGIT_SIZE) ++ le16 h)
     else
       Ret (encode_len c (NUMERIC_HEADER_SIZE + nd * NUMERIC_DIGIT_SIZE) ++ le16 (long_header ds sg) ++ le16 w)) ;;
  let start := off d - lenz (words_of hdr) in
  if start <? 0 then UB
  else from_raw_parts c (firstn (Z.to_nat start) (words d) ++ words_of hdr ++ skipn (Z.to_nat (off d)) (words d))
                      (off d * NUMERIC_DIGIT_SIZE - lenz hdr).

(** var.rs 219-234: into_numeric_buf *)
Definition p_into_buf (c : cfg) (a : nat -> Z) (p : pvar) : outcome pbuf :=
  d <- own c a (p_cow p) ;;
  p_set_header c d (as_i16 (p_weight p)) (Z.land (p_dscale p) 0xFFFF) (p_sign p) (p_nd p).

(** num.rs 153-163: as_bytes *)
Definition as_bytes (c : cfg) (b : pbuf) : outcome bytes :=
  if (b_off b <? 0) || (2 * lenz (b_words b) <? b_off b) then UB
  else
    let mem := skipn (Z.to_nat (b_off b)) (flat_map le16 (b_words b)) in
    len <- read_len c mem ;;
    dassert c (len + b_off b <=? 2 * lenz (b_words b)) ;;;
    if lenz mem <? len then UB else Ret (firstn (Z.to_nat len) mem).

(** num.rs 183-199: into_var, with the buffer (the fields are read as in [Binary.into_var]) *)
Definition p_into_var (c : cfg) (b : pbuf) : outcome pvar :=
  x <- as_bytes c b ;;
  as_binary c x ;;;
  h <- read_header x ;;
  let o := Z.quot (b_off b + header_size h) NUMERIC_DIGIT_SIZE in
  dassert c (o <=? lenz (b_words b)) ;;;
  len <- read_len c x ;;
  n <- ndigits_of c len (header_size h) ;;
  w <- (if header_is_short h then Ret (weight_short h)
        else w <- read_u16 x 6 ;; Ret (as_i16 w)) ;;
  dassert c (o + n <=? lenz (b_words b)) ;;;
  Ret (PVar n w (header_dscale h) (header_sign h) (Owned (Data (b_words b) o))).

(** var.rs 2307-2339: make_result_no_overflow, make_result *)
Definition p_make_no_overflow (c : cfg) (a : nat -> Z) (p : pvar) : outcome pbuf :=
  dassert c (negb (sgn_eqb (p_sign p) SNaN)) ;;;
  dassert c ((p_weight p <=? NUMERIC_WEIGHT_MAX) || (NUMERIC_WEIGHT_MIN <=? p_weight p)
             || (p_dscale p <=? NUMERIC_DSCALE_MAX) || (0 <=? p_dscale p)) ;;;
  p <- p_strip c a p ;; p_into_buf c a p.
Definition p_make_result (c : cfg) (a : nat -> Z) (p : pvar) : outcome (option pbuf) :=
  dassert c (negb (sgn_eqb (p_sign p) SNaN)) ;;;
  dassert c (0 <=? p_dscale p) ;;;
  if (NUMERIC_WEIGHT_MAX <? p_weight p) || (p_weight p <? NUMERIC_WEIGHT_MIN)
     || (NUMERIC_DSCALE_MAX <? p_dscale p)
  then Ret None
  else b <- p_make_no_overflow c a p ;; Ret (Some b).

(** var.rs 2408-2444, 2342-2353, 2460-2468: round, trunc, negate, abs *)
Definition p_set_dscale (s : Z) (p : pvar) : pvar := PVar (p_nd p) (p_weight p) s (p_sign p) (p_cow p).
Definition p_set_sign (s : sgn) (p : pvar) : pvar := PVar (p_nd p) (p_weight p) (p_dscale p) s (p_cow p).
Definition p_round (c : cfg) (a : nat -> Z) (p : pvar) (scale : Z) : outcome pvar :=
  dassert c (negb (sgn_eqb (p_sign p) SNaN)) ;;;
  let rscale := Z.min (Z.max scale (- NUMERIC_MAX_DISPLAY_SCALE)) NUMERIC_MAX_DISPLAY_SCALE in
  r <- p_round_common c a p rscale ;;
  Ret (if rscale <? 0 then p_set_dscale 0 r else r).
Definition p_trunc (c : cfg) (a : nat -> Z) (p : pvar) (scale : Z) : outcome pvar :=
  dassert c (negb (sgn_eqb (p_sign p) SNaN)) ;;;
  let rscale := Z.min (Z.max scale (- NUMERIC_MAX_DISPLAY_SCALE)) NUMERIC_MAX_DISPLAY_SCALE in
  r <- p_trunc_common c a p rscale ;;
  Ret (if rscale <? 0 then p_set_dscale 0 r else r).
Definition p_negate (c : cfg) (p : pvar) : outcome pvar :=
  dassert c (negb (sgn_eqb (p_sign p) SNaN)) ;;;
  if 0 <? p_nd p then
    if sgn_eqb (p_sign p) SPos then Ret (p_set_sign SNeg p)
    else if sgn_eqb (p_sign p) SNeg then Ret (p_set_sign SPos p)
    else Ret p
  else Ret p.
Definition p_abs (c : cfg) (p : pvar) : outcome pvar :=
  dassert c (negb (sgn_eqb (p_sign p) SNaN)) ;;;
  Ret (if sgn_eqb (p_sign p) SNeg then p_set_sign SPos p else p).

(** var.rs 213-216: NumericVar::digits, through the Cow (data.rs 274-280) *)
Definition p_digits (c : cfg) (p : pvar) : outcome (list Z) :=
  l <- (match p_cow p with
        | Borrowed l => Ret l
        | Owned d => slice c d (lenz (words d) - off d)
        end) ;;
  if (p_nd p <? 0) || (lenz l <? p_nd p) then Panic WBounds else Ret (firstn (Z.to_nat (p_nd p)) l).

(** var.rs 2632-2678: NumericVar::apply_typmod *)
Definition p_apply_typmod_var (c : cfg) (a : nat -> Z) (p : pvar) (t : Z) : outcome (bool * pvar) :=
  if t <? VAR_HEADER_SIZE then Ret (false, p)
  else
    '(precision, scale) <- typmod_extract c t ;;
    let max_digits := precision - scale in
    r <- p_round_common c a p scale ;;
    let ddigits := (p_weight r + 1) * DEC_DIGITS in
    if max_digits <? ddigits then ds <- p_digits c r ;; Ret (typmod_scan ds ddigits max_digits, r)
    else Ret (false, r).

(** ** The in-place operations of num.rs 67-151 on a [NumericBuf]; [None] is the null buffer *)
Definition p_deref (c : cfg) (b : option pbuf) : outcome bytes :=
  match b with Some b => as_bytes c b | None => UB end.

(** as_var_owned (num.rs 171-179) nulls the buffer; only a stored result gives one back. *)
Definition p_stored {A} (r : outcome (A * option pbuf)) : outcome A * option pbuf :=
  match r with
  | Ret (x, o) => (Ret x, o)
  | Panic w => (Panic w, None)
  | UB => (UB, None)
  | Diverge => (Diverge, None)
  end.
Definition p_owned (c : cfg) (b : option pbuf) : outcome pvar :=
  match b with Some b => b <- from_raw_parts c (b_words b) (b_off b) ;; p_into_var c b | None => UB end.

Definition p_unless_nan (c : cfg) (b : option pbuf) (k : outcome (unit * option pbuf)) : outcome unit * option pbuf :=
  match (x <- p_deref c b ;; num_is_nan c x) with
  | Ret true => (Ret tt, b)
  | Ret false => p_stored k
  | Panic w => (Panic w, b)
  | UB => (UB, b)
  | Diverge => (Diverge, b)
  end.

Definition p_negate_mut (c : cfg) (a : nat -> Z) (b : option pbuf) : outcome unit * option pbuf :=
  p_unless_nan c b (p <- p_owned c b ;; p <- p_negate c p ;; y <- p_into_buf c a p ;; Ret (tt, Some y)).
Definition p_round_mut (c : cfg) (a : nat -> Z) (b : option pbuf) (scale : Z) : outcome unit * option pbuf :=
  p_unless_nan c b (p <- p_owned c b ;; p <- p_round c a p scale ;;
                    o <- p_make_result c a p ;; y <- expect o MOverflow ;; Ret (tt, Some y)).
Definition p_trunc_mut (c : cfg) (a : nat -> Z) (b : option pbuf) (scale : Z) : outcome unit * option pbuf :=
  p_unless_nan c b (p <- p_owned c b ;; p <- p_trunc c a p scale ;;
                    y <- p_make_no_overflow c a p ;; Ret (tt, Some y)).
Definition p_abs_mut (c : cfg) (a : nat -> Z) (b : option pbuf) : outcome unit * option pbuf :=
  match (x <- p_deref c b ;; n <- num_is_nan c x ;; g <- num_is_negative c x ;; Ret (n, g)) with
  | Ret (true, _) => (Ret tt, b)
  | Ret (false, false) => (Ret tt, b)
  | Ret (false, true) =>
      p_stored (p <- p_owned c b ;; p <- p_abs c p ;; y <- p_into_buf c a p ;; Ret (tt, Some y))
  | Panic w => (Panic w, b)
  | UB => (UB, b)
  | Diverge => (Diverge, b)
  end.
Definition p_apply_typmod (c : cfg) (a : nat -> Z) (b : option pbuf) (t : Z) : outcome bool * option pbuf :=
  match p_deref c b with
  | Ret _ =>
      p_stored (p <- p_owned c b ;;
                '(overflow, p) <- p_apply_typmod_var c a p t ;;
                o <- p_make_result c a p ;;
                match o with
                | Some y => Ret (overflow, Some y)
                | None => Ret (true, None)
                end)
  | Panic w => (Panic w, b)
  | UB => (UB, b)
  | Diverge => (Diverge, b)
  end.

(** num.rs 214-219: Clone: as_var borrows the digits, into_numeric_buf copies them. *)
Definition p_clone (c : cfg) (a : nat -> Z) (b : pbuf) : outcome pbuf :=
  x <- as_bytes c b ;; v <- as_var c x ;;
  p_into_buf c a (PVar (ndigits v) (weight v) (dscale v) (sign v) (Borrowed (digits v))).

(** ** Allocation layouts (size in bytes, alignment). Vec::<i16>::with_capacity (data.rs 82, 110) asks
    for the layout of [n] i16 words; Vec::<i16>::from_raw_parts in buf_free (data.rs 94-102) gives
    that layout back, Vec::<u8>::from_raw_parts in NumericBuf::drop (num.rs 202-212) does not. *)
Definition layout_requested (n : Z) : Z * Z := (n * 2, 2).
Definition layout_freed_by_data (d : data) : Z * Z := (lenz (words d) * 2, 2).
Definition layout_freed_by_buf (b : pbuf) : Z * Z := (lenz (b_words b) * NUMERIC_DIGIT_SIZE, 1).

(** num.rs 221-236: Debug for NumericBuf prints the whole buffer, its length and the header offset. *)
Definition p_debug (b : pbuf) : bytes * Z * Z :=
  (flat_map le16 (b_words b), lenz (b_words b) * NUMERIC_DIGIT_SIZE, b_off b).
