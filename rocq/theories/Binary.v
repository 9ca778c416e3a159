(** * Binary: model of src/binary.rs and of the header part of src/data.rs.

    A [Numeric] is its byte string, a [list Z] of values 0..255. Reading past the end of the
    bytes through the unsafe casts of the code is [UB]. (Simplification: the [&NumericBinary]
    reference itself covers 8 bytes even for a 6-byte NaN or zero; only actual field reads are
    modelled.) *)
From Coq Require Import ZArith List Bool.
From Verif Require Import Base Var.
Import ListNotations.
Open Scope Z_scope.

Definition bytes := list Z.

(** binary.rs 56-62 *)
Definition NUMERIC_HEADER_SIZE : Z := 8.
Definition NUMERIC_HEADER_SIZE_SHORT : Z := 6.
Definition NUMERIC_DIGIT_SIZE : Z := 2.
Definition NUMERIC_HEADER_NDIGITS : Z := 4.
Definition VAR_HEADER_SIZE : Z := 4.

(** binary.rs 64-88 *)
Definition NUMERIC_SIGN_MASK : Z := 0xC000.
Definition NUMERIC_POS : Z := 0x0000.
Definition NUMERIC_NEG : Z := 0x4000.
Definition NUMERIC_SHORT : Z := 0x8000.
Definition NUMERIC_NAN : Z := 0xC000.
Definition NUMERIC_SHORT_SIGN_MASK : Z := 0x2000.
Definition NUMERIC_SHORT_DSCALE_MASK : Z := 0x1F80.
Definition NUMERIC_SHORT_DSCALE_SHIFT : Z := 7.
Definition NUMERIC_SHORT_DSCALE_MAX : Z :=
  Z.shiftr NUMERIC_SHORT_DSCALE_MASK NUMERIC_SHORT_DSCALE_SHIFT.
Definition NUMERIC_SHORT_WEIGHT_SIGN_MASK : Z := 0x0040.
Definition NUMERIC_SHORT_WEIGHT_MASK : Z := 0x003F.
Definition NUMERIC_SHORT_WEIGHT_MAX : Z := NUMERIC_SHORT_WEIGHT_MASK.
Definition NUMERIC_SHORT_WEIGHT_MIN : Z := - (NUMERIC_SHORT_WEIGHT_MASK + 1).
Definition NUMERIC_DSCALE_MASK : Z := 0x3FFF.

Definition sgn_bits (s : sgn) : Z :=
  match s with SPos => NUMERIC_POS | SNeg => NUMERIC_NEG | SNaN => NUMERIC_NAN end.

(** Little-endian bytes of a 16-bit / 32-bit word given modulo 2^16 / 2^32. *)
Definition le16 (x : Z) : bytes := [Z.land x 255; Z.land (Z.shiftr x 8) 255].
Definition le32 (x : Z) : bytes :=
  [Z.land x 255; Z.land (Z.shiftr x 8) 255; Z.land (Z.shiftr x 16) 255; Z.land (Z.shiftr x 24) 255].

(** binary.rs 304-314: encode_len, as the four bytes it leaves in memory. *)
Definition encode_len (c : cfg) (len : Z) : bytes :=
  if be_varlen c then rev (le32 (Z.land len 0x3FFFFFFF))
  else le32 (Z.shiftl len 2).

(** binary.rs 316-326: decode_len of the four bytes in memory. *)
Definition word_le (b0 b1 b2 b3 : Z) : Z :=
  Z.lor b0 (Z.lor (Z.shiftl b1 8) (Z.lor (Z.shiftl b2 16) (Z.shiftl b3 24))).
Definition decode_len (c : cfg) (b0 b1 b2 b3 : Z) : Z :=
  if be_varlen c then Z.land (word_le b3 b2 b1 b0) 0x3FFFFFFF
  else Z.land (Z.shiftr (word_le b0 b1 b2 b3) 2) 0x3FFFFFFF.

(** binary.rs 297-302 *)
Definition can_be_short (w ds : Z) : bool :=
  (ds <=? NUMERIC_SHORT_DSCALE_MAX)
  && (w <=? NUMERIC_SHORT_WEIGHT_MAX)
  && (NUMERIC_SHORT_WEIGHT_MIN <=? w).

(** binary.rs 134-156: NumericShort::set_header *)
Definition short_header (c : cfg) (w ds : Z) (sg : sgn) : outcome Z :=
  match sg with
  | SNaN => dassert c (w =? 0) ;;; dassert c (ds =? 0) ;;; Ret NUMERIC_NAN
  | _ =>
      let s := match sg with
               | SNeg => Z.lor NUMERIC_SHORT NUMERIC_SHORT_SIGN_MASK
               | _ => NUMERIC_SHORT
               end in
      let dss := Z.land (Z.shiftl ds NUMERIC_SHORT_DSCALE_SHIFT) 0xFFFF in
      let ws := if w <? 0 then NUMERIC_SHORT_WEIGHT_SIGN_MASK else 0 in
      let wb := Z.land w NUMERIC_SHORT_WEIGHT_MASK in
      Ret (Z.lor (Z.lor (Z.lor s dss) ws) wb)
  end.

(** binary.rs 172-175: NumericLong::set_header, first word *)
Definition long_header (ds : Z) (sg : sgn) : Z :=
  Z.lor (sgn_bits sg) (Z.land ds NUMERIC_DSCALE_MASK).

Definition digit_bytes (d : Z) : bytes := le16 d.

(** var.rs 219-234 (into_numeric_buf) and data.rs 191-231 (set_header): the bytes that
    [as_bytes] exposes afterwards. Where the header lands in the buffer is in Data.v. *)
Definition encode (c : cfg) (v : var) : outcome bytes :=
  let w := as_i16 (weight v) in
  let ds := Z.land (dscale v) 0xFFFF in
  let body := flat_map digit_bytes (digits v) in
  if can_be_short w ds then
    h <- short_header c w ds (sign v) ;;
    Ret (encode_len c (NUMERIC_HEADER_SIZE_SHORT + ndigits v * NUMERIC_DIGIT_SIZE)
         ++ le16 h ++ body)
  else
    Ret (encode_len c (NUMERIC_HEADER_SIZE + ndigits v * NUMERIC_DIGIT_SIZE)
         ++ le16 (long_header ds (sign v)) ++ le16 w ++ body).

(** Field reads through the raw pointer. *)
Definition read_u16 (x : bytes) (i : Z) : outcome Z :=
  b0 <- get_unchecked x i ;;
  b1 <- get_unchecked x (i + 1) ;;
  Ret (Z.lor b0 (Z.shiftl b1 8)).

Definition read_len (c : cfg) (x : bytes) : outcome Z :=
  b0 <- get_unchecked x 0 ;;
  b1 <- get_unchecked x 1 ;;
  b2 <- get_unchecked x 2 ;;
  b3 <- get_unchecked x 3 ;;
  Ret (decode_len c b0 b1 b2 b3).

(** binary.rs 193-196: n_header *)
Definition read_header (x : bytes) : outcome Z := read_u16 x 4.

(** binary.rs 198-201 *)
Definition flag_bits (h : Z) : Z := Z.land h NUMERIC_SIGN_MASK.
(** binary.rs 217-219 *)
Definition header_is_short (h : Z) : bool := negb (Z.land h 0x8000 =? 0).
(** binary.rs 222-228 *)
Definition header_size (h : Z) : Z :=
  if header_is_short h then NUMERIC_HEADER_SIZE_SHORT else NUMERIC_HEADER_SIZE.

(** binary.rs 231-241 *)
Definition header_sign (h : Z) : sgn :=
  if flag_bits h =? NUMERIC_SHORT then
    (if Z.land h NUMERIC_SHORT_SIGN_MASK =? 0 then SPos else SNeg)
  else if flag_bits h =? NUMERIC_NAN then SNaN
  else if flag_bits h =? NUMERIC_NEG then SNeg else SPos.

(** binary.rs 244-253 *)
Definition header_dscale (h : Z) : Z :=
  if header_is_short h
  then Z.shiftr (Z.land h NUMERIC_SHORT_DSCALE_MASK) NUMERIC_SHORT_DSCALE_SHIFT
  else Z.land h NUMERIC_DSCALE_MASK.

(** binary.rs 256-267: the complement is taken in u16, the result cast to i16. *)
Definition weight_short (h : Z) : Z :=
  let weight_sign := Z.land h NUMERIC_SHORT_WEIGHT_SIGN_MASK in
  let w := Z.land h NUMERIC_SHORT_WEIGHT_MASK in
  if weight_sign =? 0 then as_i16 w
  else as_i16 (Z.lor (Z.land (Z.lnot NUMERIC_SHORT_WEIGHT_MASK) 0xFFFF) w).

(** Digits through [FlexArray::as_slice] (binary.rs 101-103). *)
Fixpoint take_digits (n : nat) (x : bytes) : outcome (list Z) :=
  match n with
  | O => Ret []
  | S n' =>
      match x with
      | b0 :: b1 :: t =>
          r <- take_digits n' t ;;
          Ret (as_i16 (Z.lor b0 (Z.shiftl b1 8)) :: r)
      | _ => UB
      end
  end.

Definition read_digits (x : bytes) (off n : Z) : outcome (list Z) :=
  if lenz x <? off + n * NUMERIC_DIGIT_SIZE then UB
  else take_digits (Z.to_nat n) (skipn (Z.to_nat off) x).

(** [(len - header) / 2] in u32 (binary.rs 348, 431, 460). *)
Definition ndigits_of (c : cfg) (len hdr : Z) : outcome Z :=
  if hdr <=? len then Ret (Z.quot (len - hdr) NUMERIC_DIGIT_SIZE)
  else if dbg c then Panic WArith
  else Ret (Z.quot (len - hdr + 2 ^ 32) NUMERIC_DIGIT_SIZE).

(** num.rs 408-414: as_binary (only the debug assertion is observable). *)
Definition as_binary (c : cfg) (x : bytes) : outcome unit :=
  len <- (if dbg c then read_len c x else Ret (lenz x)) ;;
  dassert c (len =? lenz x).

(** binary.rs 427-472 after num.rs 416-419: as_var *)
Definition as_var (c : cfg) (x : bytes) : outcome var :=
  as_binary c x ;;;
  h <- read_header x ;;
  if flag_bits h =? NUMERIC_SHORT then
    len <- read_len c x ;;
    n <- ndigits_of c len NUMERIC_HEADER_SIZE_SHORT ;;
    ds <- read_digits x NUMERIC_HEADER_SIZE_SHORT n ;;
    Ret (Var (weight_short h)
             (Z.shiftr (Z.land h NUMERIC_SHORT_DSCALE_MASK) NUMERIC_SHORT_DSCALE_SHIFT)
             (if Z.land h NUMERIC_SHORT_SIGN_MASK =? 0 then SPos else SNeg) ds)
  else if flag_bits h =? NUMERIC_NAN then Ret nan_var
  else
    len <- read_len c x ;;
    n <- ndigits_of c len NUMERIC_HEADER_SIZE ;;
    w <- read_u16 x 6 ;;
    ds <- read_digits x NUMERIC_HEADER_SIZE n ;;
    Ret (Var (as_i16 w) (Z.land h NUMERIC_DSCALE_MASK)
             (if flag_bits h =? NUMERIC_NEG then SNeg else SPos) ds).

(** num.rs 183-199: into_var, used by the in-place operations; it reads the fields through
    the accessors of binary.rs 346-364. *)
Definition into_var (c : cfg) (x : bytes) : outcome var :=
  as_binary c x ;;;
  h <- read_header x ;;
  len <- read_len c x ;;
  n <- ndigits_of c len (header_size h) ;;
  w <- (if header_is_short h then Ret (weight_short h)
        else w <- read_u16 x 6 ;; Ret (as_i16 w)) ;;
  ds <- read_digits x (header_size h) n ;;
  Ret (Var w (header_dscale h) (header_sign h) ds).

(** num.rs 421-449 *)
Definition num_is_nan (c : cfg) (x : bytes) : outcome bool :=
  as_binary c x ;;; h <- read_header x ;; Ret (flag_bits h =? NUMERIC_NAN).
Definition num_is_negative (c : cfg) (x : bytes) : outcome bool :=
  as_binary c x ;;; h <- read_header x ;; Ret (sgn_eqb (header_sign h) SNeg).
Definition num_is_positive (c : cfg) (x : bytes) : outcome bool :=
  as_binary c x ;;; h <- read_header x ;; Ret (sgn_eqb (header_sign h) SPos).
Definition num_scale (c : cfg) (x : bytes) : outcome (option Z) :=
  as_binary c x ;;; h <- read_header x ;;
  if flag_bits h =? NUMERIC_NAN then Ret None else Ret (Some (header_dscale h)).

(** binary.rs 396-418 and num.rs 386-399: the static NaN and zero. *)
Definition numeric_nan (c : cfg) : bytes :=
  encode_len c NUMERIC_HEADER_SIZE_SHORT ++ le16 NUMERIC_NAN.
Definition numeric_zero (c : cfg) : bytes :=
  encode_len c NUMERIC_HEADER_SIZE_SHORT ++ le16 NUMERIC_SHORT.

(** num.rs 55-65: NumericBuf::nan / zero. *)
Definition nan_buf (c : cfg) : outcome bytes := encode c nan_var.
Definition zero_buf (c : cfg) : outcome bytes := encode c zero_var.
