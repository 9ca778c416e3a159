(** * MachText: parse.rs, the integer conversions of convert.rs and the text output of var.rs at the level of the
    machine, in the style of Mach.v: buffers of arbitrary content accessed by index, and every operation on u8, i16,
    i32, i64, u32, usize or the integer type converted checked (debug build) or wrapping (release build). Iterators
    over byte slices (eat_digits, eat_whitespaces, extract_nan, extract_sign) are those of Parse.v. *)
From Coq Require Import ZArith List Bool.
From Verif Require Import Base Var Binary Format Parse Convert Num Data Mach.
Import ListNotations.
Open Scope Z_scope.

Definition u8 (c : cfg) (x : Z) : outcome Z := unsigned c 8 x.
Definition i64 (c : cfg) (x : Z) : outcome Z := arith c 64 x.

(** ** parse.rs *)

(** parse.rs 147-151: [result = result * 10 + (n - b'0') as i64] *)
Fixpoint m_read_int (c : cfg) (s : text) (result : Z) : outcome Z :=
  match s with
  | [] => Ret result
  | n :: t =>
      r <- i64 c (result * 10) ;;
      d <- u8 c (n - ch_0) ;;
      r <- i64 c (r + d) ;;
      m_read_int c t r
  end.

(** parse.rs 135-168 *)
Definition m_extract_exponent (c : cfg) (s : text) : outcome (pres (Z * text)) :=
  let '(sg, s) := extract_sign s in
  let '(number, s) := eat_digits s in
  match number with
  | [] => Ret (inr PInvalid)
  | _ =>
      let number := drop_lead0 number in
      if 10 <? lenz number then Ret (inr POverflow)
      else
        result <- m_read_int c number 0 ;;
        exp <- (match sg with SNeg => i64 c (- result) | _ => Ret result end) ;;
        lo <- i64 c (- Z.quot I32_MAX 2) ;;
        if (Z.quot I32_MAX 2 <=? exp) || (exp <=? lo) then Ret (inr POverflow)
        else Ret (inl (as_i32 exp, s))
  end.

(** parse.rs 43-92 *)
Definition m_parse_decimal (c : cfg) (s : text) : outcome (pres (decimal * text)) :=
  let '(sg, s) := extract_sign s in
  match s with
  | [] => Ret (inr PInvalid)
  | _ =>
      let '(ip, s) := eat_digits s in
      let no_int := match ip with [] => true | _ => false end in
      match s with
      | b :: t =>
          if is_e b then
            if no_int then Ret (inr PInvalid)
            else
              e <- m_extract_exponent c t ;;
              match e with
              | inr e => Ret (inr e)
              | inl (exp, s) => Ret (inl (Decimal sg ip [] exp, s))
              end
          else if b =? ch_dot then
            let '(fp, s) := eat_digits t in
            if no_int && (match fp with [] => true | _ => false end) then Ret (inr PInvalid)
            else match s with
                 | b' :: t' =>
                     if is_e b' then
                       e <- m_extract_exponent c t' ;;
                       match e with
                       | inr e => Ret (inr e)
                       | inl (exp, s) => Ret (inl (Decimal sg ip fp exp, s))
                       end
                     else Ret (inl (Decimal sg ip fp 0, s))
                 | [] => Ret (inl (Decimal sg ip fp 0, s))
                 end
          else if no_int then Ret (inr PInvalid)
          else Ret (inl (Decimal sg ip [] 0, s))
      | [] => if no_int then Ret (inr PInvalid) else Ret (inl (Decimal sg ip [] 0, s))
      end
  end.

(** parse.rs 226-227: [iter().map(|&i| i - b'0')] *)
Fixpoint m_digit_values (c : cfg) (s : text) : outcome (list Z) :=
  match s with
  | [] => Ret []
  | i :: t => x <- u8 c (i - ch_0) ;; r <- m_digit_values c t ;; Ret (x :: r)
  end.

(** parse.rs 235-241: [chunks_exact(4).take(k).enumerate()], each written to [digits[i]]; [take] of fewer chunks than
    [k] just stops, leaving the rest of the buffer as it was. *)
Fixpoint m_store_chunks (c : cfg) (k : nat) (i : Z) (s : list Z) (digits : list Z) : outcome (list Z) :=
  match k with
  | O => Ret digits
  | S k' =>
      match s with
      | a :: b :: d :: e :: t =>
          x <- read_numeric_digit c [a; b; d; e] ;;
          digits <- set_checked digits i x ;;
          m_store_chunks c k' (i + 1) t digits
      | _ => Ret digits
      end
  end.

(** parse.rs 189-247 and var.rs 162-173 (NumericVar::owned) *)
Definition m_parse_str (c : cfg) (a : nat -> Z) (s : text) : outcome (pres (pvar * text)) :=
  r <- m_parse_decimal c s ;;
  match r with
  | inr e => Ret (inr e)
  | inl (Decimal sg ip fp exp, s) =>
      t <- i32 c (as_i32 (lenz ip) + exp) ;;
      dec_weight <- i32 c (t - 1) ;;
      result <- i32 c (as_i32 (lenz fp) - exp) ;;
      let dec_scale := if result <? 0 then 0 else result in
      weight <-
        (if 0 <=? dec_weight then
           b <- i32 c (dec_weight + 1) ;;
           b <- i32 c (b + DEC_DIGITS) ;;
           b <- i32 c (b - 1) ;;
           i32 c (Z.quot b DEC_DIGITS - 1)
         else
           b <- i32 c (- dec_weight) ;;
           b <- i32 c (b - 1) ;;
           b <- i32 c (Z.quot b DEC_DIGITS + 1) ;;
           i32 c (- b)) ;;
      w1 <- i32 c (weight + 1) ;;
      w4 <- i32 c (w1 * DEC_DIGITS) ;;
      dw1 <- i32 c (dec_weight + 1) ;;
      offset <- i32 c (w4 - dw1) ;;
      t <- i32 c (as_i32 (lenz ip) + as_i32 (lenz fp)) ;;
      t <- i32 c (t + offset) ;;
      t <- i32 c (t + DEC_DIGITS) ;;
      t <- i32 c (t - 1) ;;
      let nd := Z.quot t DEC_DIGITS in
      t <- usize c (lenz ip + lenz fp) ;;
      _ <- usize c (t + DEC_DIGITS * 2) ;;
      di <- m_digit_values c ip ;;
      df <- m_digit_values c fp ;;
      let dec_digits := [0; 0; 0; 0] ++ di ++ df ++ [0; 0; 0; 0] in
      d <- m_with_ndigits c a nd ;;
      digits <- m_slice c d nd ;;
      dassert c (nd =? lenz digits) ;;;
      start <- i32 c (DEC_DIGITS - offset) ;;
      (if (start <? 0) || (lenz dec_digits <? start) then Panic WBounds else Ret tt) ;;;
      digits <- m_store_chunks c (Z.to_nat nd) 0 (skipn (Z.to_nat start) dec_digits) digits ;;
      let d := write_back d digits in
      e <- u32 c (off d + as_u32 nd) ;;
      dassert c (e <=? lenz (words d)) ;;;
      Ret (inl (PVar nd weight dec_scale sg (Owned d), s))
  end.

(** parse.rs 253-280: from_str *)
Definition m_from_str (c : cfg) (a : nat -> nat -> Z) (s : text) : outcome (pres pbuf) :=
  let s := eat_whitespaces s in
  match s with
  | [] => Ret (inr PEmpty)
  | _ =>
      let '(nan, s) := extract_nan s in
      if (nan : bool) then
        if existsb (fun b => negb (is_space b)) s then Ret (inr PInvalid)
        else b <- m_nan_buf c (a 0%nat) ;; Ret (inl b)
      else
        r <- m_parse_str c (a 0%nat) s ;;
        match r with
        | inr e => Ret (inr e)
        | inl (n, s) =>
            if existsb (fun b => negb (is_space b)) s then Ret (inr PInvalid)
            else
              o <- m_make_result c (a 9%nat) n ;;
              match o with
              | Some b => Ret (inl b)
              | None => Ret (inr POverflow)
              end
        end
  end.

(** ** convert.rs, integers *)

(** convert.rs 70-75, 106-109: next_digit, in the unsigned type of [bits] bits *)
Definition m_next_digit (c : cfg) (bits val : Z) : outcome (Z * Z) :=
  if bits =? 8 then Ret (val, 0)
  else
    let new_val := Z.quot val NBASE in
    t <- unsigned c bits (new_val * NBASE) ;;
    t <- unsigned c bits (val - t) ;;
    Ret (as_i16 t, new_val).

(** convert.rs 232-247: the loop; the variables are i, ndigits, u_val and the digits. [fuel] bounds the iterations. *)
Fixpoint m_to_digits (c : cfg) (bits : Z) (fuel : nat) (i nd val : Z) (digits : list Z) : outcome (Z * list Z) :=
  match fuel with
  | O => Diverge
  | S f =>
      i <- usize c (i - 1) ;;
      nd <- i32 c (nd + 1) ;;
      '(digit, new_val) <- m_next_digit c bits val ;;
      digits <- set_checked digits i digit ;;
      if new_val =? 0 then Ret (nd, digits) else m_to_digits c bits f i nd new_val digits
  end.

(** convert.rs 225-251; data.rs 134-138 (offset_set) *)
Definition m_unsigned_to_var (c : cfg) (a : nat -> Z) (bits val : Z) (sg : sgn) : outcome pvar :=
  let n := Z.of_nat (max_ndigits bits) in
  d <- m_with_ndigits c a n ;;
  digits <- m_slice c d n ;;
  '(nd, digits) <- m_to_digits c bits (S (max_ndigits bits)) (lenz digits) 0 val digits ;;
  let d := write_back d digits in
  o <- u32 c (lenz (words d) - as_u32 nd) ;;
  dassert c (o <=? lenz (words d)) ;;;
  w <- i32 c (nd - 1) ;;
  e <- u32 c (o + as_u32 nd) ;;
  dassert c (e <=? lenz (words d)) ;;;
  Ret (PVar nd w 0 sg (Owned (Data (words d) o))).

(** convert.rs 175-182: [-(self + 1) as uN + 1] *)
Definition m_abs (c : cfg) (bits val : Z) : outcome Z :=
  if 0 <=? val then Ret val
  else
    t <- arith c bits (val + 1) ;;
    t <- arith c bits (- t) ;;
    unsigned c bits (t + 1).

(** convert.rs 198-223, 315-353; var.rs 175-179: NumericVar::zero *)
Definition m_zero : pvar := PVar 0 0 0 SPos (Borrowed []).
Definition m_from_signed (c : cfg) (a : nat -> Z) (bits val : Z) : outcome pvar :=
  if val =? 0 then Ret m_zero
  else u <- m_abs c bits val ;; m_unsigned_to_var c a bits u (if val <? 0 then SNeg else SPos).
Definition m_from_unsigned (c : cfg) (a : nat -> Z) (bits val : Z) : outcome pvar :=
  if val =? 0 then Ret m_zero else m_unsigned_to_var c a bits val SPos.
Definition m_num_from_signed (c : cfg) (a : nat -> nat -> Z) (bits val : Z) : outcome pbuf :=
  v <- m_from_signed c (a 0%nat) bits val ;; m_make_no_overflow c (a 9%nat) v.
Definition m_num_from_unsigned (c : cfg) (a : nat -> nat -> Z) (bits val : Z) : outcome pbuf :=
  v <- m_from_unsigned c (a 0%nat) bits val ;; m_make_no_overflow c (a 9%nat) v.

(** [x.overflowing_*()] in the signed and unsigned types of [bits] bits: the wrapped result and the flag *)
Definition overflowing_signed (bits x : Z) : Z * bool := (wrap bits x, negb (fits bits x)).
Definition overflowing_unsigned (bits x : Z) : Z * bool :=
  (x mod 2 ^ bits, negb ((0 <=? x) && (x <? 2 ^ bits))).

(** convert.rs 441-458: [k] iterations from index [i] *)
Fixpoint m_into_signed_loop (c : cfg) (bits : Z) (k : nat) (i nd : Z) (digits : list Z) (val : Z) : outcome (Z + conv_error) :=
  match k with
  | O => Ret (inl val)
  | S k' =>
      dassert c (fits bits NBASE) ;;;
      let '(new_val, overflowing) := overflowing_signed bits (val * wrap bits NBASE) in
      if (overflowing : bool) then Ret (inr COverflow)
      else if i <? nd then
        d <- index digits i ;;
        dassert c (fits bits d) ;;;
        let '(new_val, overflowing) := overflowing_signed bits (new_val - wrap bits d) in
        if (overflowing : bool) then Ret (inr COverflow)
        else m_into_signed_loop c bits k' (i + 1) nd digits new_val
      else m_into_signed_loop c bits k' (i + 1) nd digits new_val
  end.

(** convert.rs 415-470 *)
Definition m_into_signed (c : cfg) (a : nat -> nat -> Z) (bits : Z) (p : pvar) : outcome (Z + conv_error) :=
  dassert c (16 <=? bits) ;;;
  if m_nan p then Ret (inr CInvalid)
  else
    p <- m_round_common c (a 0%nat) p 0 ;;
    p <- m_strip c (a 1%nat) p ;;
    let nd := p_nd p in
    if nd =? 0 then Ret (inl 0)
    else
      let weight := p_weight p in
      dassert c (0 <=? weight) ;;;
      w1 <- i32 c (weight + 1) ;;
      dassert c (nd <=? w1) ;;;
      digits <- m_digits c p ;;
      d0 <- index digits 0 ;;
      dassert c (fits bits d0) ;;;
      val <- arith c bits (- wrap bits d0) ;;
      r <- m_into_signed_loop c bits (Z.to_nat weight) 1 nd digits val ;;
      match r with
      | inr e => Ret (inr e)
      | inl val =>
          if negb (m_neg p) then
            if val =? - 2 ^ (bits - 1) then Ret (inr COverflow)
            else v <- arith c bits (- val) ;; Ret (inl v)
          else Ret (inl val)
      end.

(** convert.rs 500-517 *)
Fixpoint m_into_unsigned_loop (c : cfg) (bits : Z) (k : nat) (i nd : Z) (digits : list Z) (val : Z) : outcome (Z + conv_error) :=
  match k with
  | O => Ret (inl val)
  | S k' =>
      let '(new_val, overflowing) := overflowing_unsigned bits (val * (NBASE mod 2 ^ bits)) in
      if (overflowing : bool) then Ret (inr COverflow)
      else if i <? nd then
        d <- index digits i ;;
        let '(new_val, overflowing) := overflowing_unsigned bits (new_val + d mod 2 ^ bits) in
        if (overflowing : bool) then Ret (inr COverflow)
        else m_into_unsigned_loop c bits k' (i + 1) nd digits new_val
      else m_into_unsigned_loop c bits k' (i + 1) nd digits new_val
  end.

(** convert.rs 473-520 *)
Definition m_into_unsigned (c : cfg) (a : nat -> nat -> Z) (bits : Z) (p : pvar) : outcome (Z + conv_error) :=
  dassert c (16 <=? bits) ;;;
  if m_nan p then Ret (inr CInvalid)
  else
    p <- m_round_common c (a 0%nat) p 0 ;;
    p <- m_strip c (a 1%nat) p ;;
    let nd := p_nd p in
    if nd =? 0 then Ret (inl 0)
    else if m_neg p then Ret (inr COverflow)
    else
      let weight := p_weight p in
      dassert c (0 <=? weight) ;;;
      w1 <- i32 c (weight + 1) ;;
      dassert c (nd <=? w1) ;;;
      digits <- m_digits c p ;;
      d0 <- index digits 0 ;;
      m_into_unsigned_loop c bits (Z.to_nat weight) 1 nd digits (d0 mod 2 ^ bits).

(** convert.rs 522-586: TryFrom<NumericVar> for iN and uN; i8 and u8 through 16 bits, with [val as i8], [val as u8] *)
Definition m_to_signed (c : cfg) (a : nat -> nat -> Z) (bits : Z) (p : pvar) : outcome (Z + conv_error) :=
  if bits =? 8 then
    r <- m_into_signed c a 16 p ;;
    match r with
    | inl val => if (127 <? val) || (val <? -128) then Ret (inr COverflow) else Ret (inl (wrap 8 val))
    | inr e => Ret (inr e)
    end
  else m_into_signed c a bits p.
Definition m_to_unsigned (c : cfg) (a : nat -> nat -> Z) (bits : Z) (p : pvar) : outcome (Z + conv_error) :=
  if bits =? 8 then
    r <- m_into_unsigned c a 16 p ;;
    match r with
    | inl val => if 255 <? val then Ret (inr COverflow) else Ret (inl (val mod 2 ^ 8))
    | inr e => Ret (inr e)
    end
  else m_into_unsigned c a bits p.

(** convert.rs 658-693: TryFrom<&Numeric> for integers *)
Definition m_num_to_signed (c : cfg) (a : nat -> nat -> Z) (bits : Z) (x : bytes) : outcome (Z + conv_error) :=
  p <- m_as_var c x ;; m_to_signed c a bits p.
Definition m_num_to_unsigned (c : cfg) (a : nat -> nat -> Z) (bits : Z) (x : bytes) : outcome (Z + conv_error) :=
  p <- m_as_var c x ;; m_to_unsigned c a bits p.

(** ** text output, var.rs 2103-2175 *)

(** var.rs 2122-2139: [for d in 0..=weight]; [k] iterations from [d] *)
Fixpoint m_write_int (c : cfg) (k : nat) (d nd : Z) (digits : list Z) : outcome text :=
  match k with
  | O => Ret []
  | S k' =>
      dig <- (if d <? nd then index digits d else Ret 0) ;;
      dassert c (0 <=? dig) ;;;
      rest <- m_write_int c k' (d + 1) nd digits ;;
      Ret ((if 0 <? d then fmt_pad DEC_DIGITS dig else fmt_int dig) ++ rest)
  end.

(** var.rs 2152-2171: [for scale in (0..dscale).step_by(4)]; [k] iterations from [scale] *)
Fixpoint m_write_frac (c : cfg) (k : nat) (scale d dscale nd : Z) (digits : list Z) : outcome text :=
  match k with
  | O => Ret []
  | S k' =>
      dig <- (if (0 <=? d) && (d <? nd) then index digits d else Ret 0) ;;
      s4 <- i32 c (scale + DEC_DIGITS) ;;
      txt <- (if s4 <=? dscale then Ret (fmt_pad DEC_DIGITS dig)
              else
                width <- i32 c (dscale - scale) ;;
                n <- usize c (DEC_DIGITS - width) ;;
                Ret (fmt_pad width (div10 (Z.to_nat n) dig))) ;;
      d <- i32 c (d + 1) ;;
      rest <- m_write_frac c k' (scale + DEC_DIGITS) d dscale nd digits ;;
      Ret (txt ++ rest)
  end.

(** var.rs 2103-2175 *)
Definition m_write (c : cfg) (p : pvar) : outcome text :=
  if m_nan p then Ret txt_NaN
  else
    let sg := if m_neg p then [ch_dash] else [] in
    ip <- (if p_weight p <? 0 then Ret [ch_0]
           else
             digits <- m_digits c p ;;
             dassert c (lenz digits =? p_nd p) ;;;
             m_write_int c (Z.to_nat (p_weight p + 1)) 0 (p_nd p) digits) ;;
    fp <- (if 0 <? p_dscale p then
             digits <- m_digits c p ;;
             dassert c (lenz digits =? p_nd p) ;;;
             d <- i32 c (p_weight p + 1) ;;
             t <- m_write_frac c (Z.to_nat (Z.quot (p_dscale p + 3) 4)) 0 d (p_dscale p) (p_nd p) digits ;;
             Ret (ch_dot :: t)
           else Ret []) ;;
    Ret (sg ++ ip ++ fp).

(** num.rs 238-243, 985-990: Display *)
Definition m_num_display (c : cfg) (x : bytes) : outcome text := p <- m_as_var c x ;; m_write c p.

(** var.rs 2246-2272: count_zeros, in i16 and i32; at most 4 iterations *)
Fixpoint m_count_zeros (c : cfg) (k : nat) (val n zero : Z) : outcome (Z * Z) :=
  match k with
  | O => Ret (n, zero)
  | S k' =>
      let d := Z.rem val 10 in
      let val := Z.quot val 10 in
      '(n, zero) <- (if (d =? 0) && (n =? 0) then z <- i32 c (zero + 1) ;; Ret (n, z)
                     else m <- i32 c (n + 1) ;; Ret (m, zero)) ;;
      if val =? 0 then Ret (n, zero) else m_count_zeros c k' val n zero
  end.
(** var.rs 2239-2306: select_sci_scale; [find] and [rfind] as in Format.v *)
Definition m_select_sci_scale (c : cfg) (p : pvar) : outcome Z :=
  digits <- m_digits c p ;;
  match find_nz digits 0, rfind_nz digits with
  | Some (i, digit), Some (ri, rdigit) =>
      dassert c (i <=? ri) ;;;
      if i =? ri then
        '(n, _) <- m_count_zeros c 4 digit 0 0 ;; i32 c (n - 1)
      else
        '(n, zero) <- m_count_zeros c 4 digit 0 0 ;;
        '(_, rzero) <- m_count_zeros c 4 rdigit 0 0 ;;
        front <- i32 c (n + zero) ;;
        last <- i32 c (DEC_DIGITS - rzero) ;;
        t <- usize c (ri - i) ;;
        t <- usize c (t - 1) ;;
        t <- i32 c (as_i32 t * DEC_DIGITS) ;;
        s <- i32 c (front + last) ;;
        s <- i32 c (s + t) ;;
        i32 c (s - 1)
  | _, _ => Ret 0
  end.
