(** * Parse: model of src/parse.rs (text to numeric). *)
From Coq Require Import ZArith List Bool.
From Verif Require Import Base Var Binary Format.
Import ListNotations.
Open Scope Z_scope.

(** error.rs 25-30 *)
Inductive parse_error := PEmpty | PInvalid | POverflow.

(** A fallible parser step: [Ok]/[Err] of the code. *)
Definition pres (A : Type) := (A + parse_error)%type.

(** parse.rs 25-29: the sign as read from text *)
Definition is_digit (b : Z) : bool := (48 <=? b) && (b <=? 57).
(** u8::is_ascii_whitespace: space, \t, \n, \x0C, \r *)
Definition is_space (b : Z) : bool :=
  (b =? 32) || (b =? 9) || (b =? 10) || (b =? 12) || (b =? 13).

(** parse.rs 96-99 *)
Fixpoint eat_whitespaces (s : text) : text :=
  match s with
  | b :: t => if is_space b then eat_whitespaces t else s
  | [] => []
  end.

(** parse.rs 103-106 *)
Fixpoint eat_digits (s : text) : text * text :=
  match s with
  | b :: t => if is_digit b then let '(d, r) := eat_digits t in (b :: d, r) else ([], s)
  | [] => ([], [])
  end.

Definition lower (b : Z) : Z := if (65 <=? b) && (b <=? 90) then b + 32 else b.

(** parse.rs 110-122 *)
Definition extract_nan (s : text) : bool * text :=
  match s with
  | a :: b :: d :: t =>
      if (lower a =? 110) && (lower b =? 97) && (lower d =? 110) then (true, t) else (false, s)
  | _ => (false, s)
  end.

(** parse.rs 126-132 *)
Definition extract_sign (s : text) : sgn * text :=
  match s with
  | b :: t => if b =? ch_plus then (SPos, t) else if b =? ch_dash then (SNeg, t) else (SPos, s)
  | [] => (SPos, [])
  end.

Fixpoint drop_lead0 (s : text) : text :=
  match s with
  | b :: t => if b =? ch_0 then drop_lead0 t else s
  | [] => []
  end.

(** parse.rs 148-151; i64 arithmetic on at most 10 digits cannot overflow, kept in Z. *)
Definition read_int (s : text) : Z := fold_left (fun a b => a * 10 + (b - ch_0)) s 0.

(** parse.rs 135-168 *)
Definition extract_exponent (s : text) : pres (Z * text) :=
  let '(sg, s) := extract_sign s in
  let '(number, s) := eat_digits s in
  match number with
  | [] => inr PInvalid
  | _ =>
      let number := drop_lead0 number in
      if 10 <? lenz number then inr POverflow
      else
        let result := read_int number in
        let exp := match sg with SNeg => - result | _ => result end in
        if (Z.quot I32_MAX 2 <=? exp) || (exp <=? - Z.quot I32_MAX 2) then inr POverflow
        else inl (exp, s)
  end.

(** parse.rs 33-39 *)
Record decimal := Decimal { d_sign : sgn; d_int : text; d_frac : text; d_exp : Z }.

Definition is_e (b : Z) : bool := (b =? ch_e) || (b =? ch_E).

(** parse.rs 43-92 *)
Definition parse_decimal (s : text) : pres (decimal * text) :=
  let '(sg, s) := extract_sign s in
  match s with
  | [] => inr PInvalid
  | _ =>
      let '(ip, s) := eat_digits s in
      let no_int := match ip with [] => true | _ => false end in
      match s with
      | b :: t =>
          if is_e b then
            if no_int then inr PInvalid
            else match extract_exponent t with
                 | inr e => inr e
                 | inl (exp, s) => inl (Decimal sg ip [] exp, s)
                 end
          else if b =? ch_dot then
            let '(fp, s) := eat_digits t in
            if no_int && (match fp with [] => true | _ => false end) then inr PInvalid
            else match s with
                 | b' :: t' =>
                     if is_e b' then
                       match extract_exponent t' with
                       | inr e => inr e
                       | inl (exp, s) => inl (Decimal sg ip fp exp, s)
                       end
                     else inl (Decimal sg ip fp 0, s)
                 | [] => inl (Decimal sg ip fp 0, s)
                 end
          else if no_int then inr PInvalid
          else inl (Decimal sg ip [] 0, s)
      | [] => if no_int then inr PInvalid else inl (Decimal sg ip [] 0, s)
      end
  end.

(** parse.rs 172-182: i16 arithmetic on decimal digit values *)
Fixpoint read_numeric_digit_loop (c : cfg) (s : list Z) (digit : Z) : outcome Z :=
  match s with
  | [] => Ret digit
  | i :: t =>
      m <- i16 c (digit * 10) ;;
      a <- i16 c (m + i) ;;
      read_numeric_digit_loop c t a
  end.
Definition read_numeric_digit (c : cfg) (s : list Z) : outcome Z :=
  dassert c (lenz s <=? DEC_DIGITS) ;;; read_numeric_digit_loop c s 0.

(** parse.rs 235-241: [chunks_exact(4).take(k)]; a missing chunk would leave the
    corresponding result digit uninitialised ([UB]). *)
Fixpoint read_chunks (c : cfg) (k : nat) (s : list Z) : outcome (list Z) :=
  match k with
  | O => Ret []
  | S k' =>
      match s with
      | a :: b :: d :: e :: t =>
          x <- read_numeric_digit c [a; b; d; e] ;;
          r <- read_chunks c k' t ;;
          Ret (x :: r)
      | _ => UB
      end
  end.

(** parse.rs 189-247; the i32 arithmetic is checked here because lengths and exponents
    come from the input ([len() as i32] wraps). *)
Definition parse_str (c : cfg) (s : text) : outcome (pres (var * text)) :=
  match parse_decimal s with
  | inr e => Ret (inr e)
  | inl (Decimal sg ip fp exp, s) =>
      let li := wrap 32 (lenz ip) in
      let lf := wrap 32 (lenz fp) in
      a <- i32 c (li + exp) ;;
      dec_weight <- i32 c (a - 1) ;;
      ds0 <- i32 c (lf - exp) ;;
      let dec_scale := if ds0 <? 0 then 0 else ds0 in
      weight <-
        (if 0 <=? dec_weight then
           b <- i32 c (dec_weight + 1) ;;
           b <- i32 c (b + DEC_DIGITS) ;;
           b <- i32 c (b - 1) ;;
           i32 c (Z.quot b DEC_DIGITS - 1)
         else
           b <- i32 c (- dec_weight) ;;
           b <- i32 c (b - 1) ;;
           b <- i32 c (Z.quot b DEC_DIGITS + 1) ;;
           i32 c (- b)) ;;
      w1 <- i32 c (weight + 1) ;;
      w4 <- i32 c (w1 * DEC_DIGITS) ;;
      dw1 <- i32 c (dec_weight + 1) ;;
      offset <- i32 c (w4 - dw1) ;;
      t1 <- i32 c (li + lf) ;;
      t2 <- i32 c (t1 + offset) ;;
      t3 <- i32 c (t2 + DEC_DIGITS) ;;
      t4 <- i32 c (t3 - 1) ;;
      let nd := Z.quot t4 DEC_DIGITS in
      let dec_digits :=
        [0; 0; 0; 0] ++ map (fun i => i - ch_0) ip ++ map (fun i => i - ch_0) fp ++ [0; 0; 0; 0] in
      if (DEC_DIGITS - offset <? 0) || (lenz dec_digits <? DEC_DIGITS - offset)
      then Panic WBounds
      else
        ds <- read_chunks c (Z.to_nat nd) (skipn (Z.to_nat (DEC_DIGITS - offset)) dec_digits) ;;
        Ret (inl (Var weight dec_scale sg ds, s))
  end.

(** var.rs 2310-2322: make_result_no_overflow (the disjunction in the code's debug assertion
    is reproduced). *)
Definition make_result_no_overflow (c : cfg) (v : var) : outcome bytes :=
  dassert c (negb (is_nan v)) ;;;
  dassert c ((weight v <=? NUMERIC_WEIGHT_MAX) || (NUMERIC_WEIGHT_MIN <=? weight v)
             || (dscale v <=? NUMERIC_DSCALE_MAX) || (0 <=? dscale v)) ;;;
  encode c (strip v).

(** var.rs 2327-2339: make_result *)
Definition make_result (c : cfg) (v : var) : outcome (option bytes) :=
  dassert c (negb (is_nan v)) ;;;
  dassert c (0 <=? dscale v) ;;;
  if (NUMERIC_WEIGHT_MAX <? weight v) || (weight v <? NUMERIC_WEIGHT_MIN)
     || (NUMERIC_DSCALE_MAX <? dscale v)
  then Ret None
  else b <- make_result_no_overflow c v ;; Ret (Some b).

(** parse.rs 253-280: from_str *)
Definition from_str (c : cfg) (s : text) : outcome (pres bytes) :=
  let s := eat_whitespaces s in
  match s with
  | [] => Ret (inr PEmpty)
  | _ =>
      let '(nan, s) := extract_nan s in
      if (nan : bool) then
        if existsb (fun b => negb (is_space b)) s then Ret (inr PInvalid)
        else b <- nan_buf c ;; Ret (inl b)
      else
        r <- parse_str c s ;;
        match r with
        | inr e => Ret (inr e)
        | inl (n, s) =>
            if existsb (fun b => negb (is_space b)) s then Ret (inr PInvalid)
            else
              o <- make_result c n ;;
              match o with
              | Some b => Ret (inl b)
              | None => Ret (inr POverflow)
              end
        end
  end.
