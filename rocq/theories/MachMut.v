(** * MachMut: operations on an owned NumericBuf at the level of the machine (num.rs 67-199, ops.rs). *)
From Coq Require Import ZArith List Bool.
From Verif Require Import Base Var Binary Typmod Format Parse Convert Num Data SpecData Mach.
Import ListNotations.
Open Scope Z_scope.

(** num.rs 30-38: the field [len], a u32; var.rs 229-233 computes it from the length of the buffer. *)
Definition b_len (b : pbuf) : Z := as_u32 (lenz (b_words b) * NUMERIC_DIGIT_SIZE).

(** num.rs 153-163: as_bytes. The sum is inside the debug assertion. *)
Definition m_as_bytes (c : cfg) (b : pbuf) : outcome bytes :=
  if (b_off b <? 0) || (2 * lenz (b_words b) <? b_off b) then UB
  else
    let mem := skipn (Z.to_nat (b_off b)) (flat_map le16 (b_words b)) in
    len <- read_len c mem ;;
    (if dbg c then e <- u32 c (len + b_off b) ;; dassert c (e <=? b_len b) else Ret tt) ;;;
    if lenz mem <? len then UB else Ret (firstn (Z.to_nat len) mem).

(** num.rs 43-53, 171-199: as_var_owned (from_raw_parts and into_var); data.rs 61-71: from_raw_parts;
    var.rs 162-173: owned (its sum is inside the debug assertion). *)
Definition m_owned (c : cfg) (b : pbuf) : outcome pvar :=
  dassert c (b_off b <? b_len b) ;;;
  x <- m_as_bytes c b ;;
  as_binary c x ;;;
  h <- read_header x ;;
  let len := Z.quot (b_len b) NUMERIC_DIGIT_SIZE in
  t <- u32 c (b_off b + header_size h) ;;
  let o := Z.quot t NUMERIC_DIGIT_SIZE in
  dassert c (o <=? len) ;;;
  l <- read_len c x ;;
  n <- ndigits_of c l (header_size h) ;;
  w <- (if header_is_short h then Ret (weight_short h)
        else w <- read_u16 x 6 ;; Ret (as_i16 w)) ;;
  (if dbg c then e <- u32 c (o + as_u32 n) ;; dassert c (e <=? len) else Ret tt) ;;;
  Ret (PVar n w (header_dscale h) (header_sign h) (Owned (Data (b_words b) o))).

(** var.rs 2408-2444: round, trunc *)
Definition m_round (c : cfg) (a : nat -> Z) (p : pvar) (scale : Z) : outcome pvar :=
  dassert c (negb (m_nan p)) ;;;
  r <- m_round_common c a p (m_clamp scale) ;;
  Ret (if m_clamp scale <? 0 then p_set_dscale 0 r else r).
Definition m_trunc (c : cfg) (a : nat -> Z) (p : pvar) (scale : Z) : outcome pvar :=
  dassert c (negb (m_nan p)) ;;;
  r <- m_trunc_common c a p (m_clamp scale) ;;
  Ret (if m_clamp scale <? 0 then p_set_dscale 0 r else r).

(** var.rs 2652-2674: the loop of apply_typmod *)
Fixpoint m_typmod_scan (c : cfg) (ds : list Z) (ddigits max_digits : Z) : outcome bool :=
  match ds with
  | [] => Ret false
  | dig :: t =>
      if dig =? 0 then ddigits <- i32 c (ddigits - DEC_DIGITS) ;; m_typmod_scan c t ddigits max_digits
      else
        ddigits <- (if dig <? 10 then i32 c (ddigits - 3)
                    else if dig <? 100 then i32 c (ddigits - 2)
                    else if dig <? 1000 then i32 c (ddigits - 1) else Ret ddigits) ;;
        Ret (max_digits <? ddigits)
  end.
(** var.rs 2632-2678: NumericVar::apply_typmod *)
Definition m_apply_typmod_var (c : cfg) (a : nat -> Z) (p : pvar) (t : Z) : outcome (bool * pvar) :=
  if t <? VAR_HEADER_SIZE then Ret (false, p)
  else
    '(precision, scale) <- typmod_extract c t ;;
    max_digits <- i32 c (precision - scale) ;;
    r <- m_round_common c a p scale ;;
    t <- i32 c (p_weight r + 1) ;;
    ddigits <- i32 c (t * DEC_DIGITS) ;;
    if max_digits <? ddigits then
      ds <- m_digits c r ;; b <- m_typmod_scan c ds ddigits max_digits ;; Ret (b, r)
    else Ret (false, r).

(** ** In place, num.rs 67-151. [None] is the null buffer [as_var_owned] leaves behind. *)
Definition m_deref (c : cfg) (b : option pbuf) : outcome bytes :=
  match b with Some b => m_as_bytes c b | None => UB end.
Definition m_taken (c : cfg) (b : option pbuf) : outcome pvar :=
  match b with Some b => m_owned c b | None => UB end.
Definition m_unless_nan (c : cfg) (b : option pbuf) (k : outcome (unit * option pbuf)) : outcome unit * option pbuf :=
  match (x <- m_deref c b ;; num_is_nan c x) with
  | Ret true => (Ret tt, b)
  | Ret false => p_stored k
  | Panic w => (Panic w, b)
  | UB => (UB, b)
  | Diverge => (Diverge, b)
  end.
(** num.rs 67-78: negate_mut (var.rs 2342-2353 does no arithmetic) *)
Definition m_negate_mut (c : cfg) (a : nat -> nat -> Z) (b : option pbuf) : outcome unit * option pbuf :=
  m_unless_nan c b (p <- m_taken c b ;; p <- p_negate c p ;; y <- m_into_buf c (a 9%nat) p ;; Ret (tt, Some y)).
(** num.rs 80-93: abs_mut *)
Definition m_abs_mut (c : cfg) (a : nat -> nat -> Z) (b : option pbuf) : outcome unit * option pbuf :=
  match (x <- m_deref c b ;; n <- num_is_nan c x ;; g <- num_is_negative c x ;; Ret (n, g)) with
  | Ret (true, _) => (Ret tt, b)
  | Ret (false, false) => (Ret tt, b)
  | Ret (false, true) =>
      p_stored (p <- m_taken c b ;; p <- p_abs c p ;; y <- m_into_buf c (a 9%nat) p ;; Ret (tt, Some y))
  | Panic w => (Panic w, b)
  | UB => (UB, b)
  | Diverge => (Diverge, b)
  end.
(** num.rs 95-127: round_mut, trunc_mut *)
Definition m_round_mut (c : cfg) (a : nat -> nat -> Z) (b : option pbuf) (scale : Z) : outcome unit * option pbuf :=
  m_unless_nan c b (p <- m_taken c b ;; p <- m_round c (a 0%nat) p scale ;;
                    o <- m_make_result c (a 9%nat) p ;; y <- expect o MOverflow ;; Ret (tt, Some y)).
Definition m_trunc_mut (c : cfg) (a : nat -> nat -> Z) (b : option pbuf) (scale : Z) : outcome unit * option pbuf :=
  m_unless_nan c b (p <- m_taken c b ;; p <- m_trunc c (a 0%nat) p scale ;;
                    y <- m_make_no_overflow c (a 9%nat) p ;; Ret (tt, Some y)).
(** num.rs 136-151: apply_typmod *)
Definition m_apply_typmod (c : cfg) (a : nat -> nat -> Z) (b : option pbuf) (t : Z) : outcome bool * option pbuf :=
  p_stored (p <- m_taken c b ;;
            '(overflow, p) <- m_apply_typmod_var c (a 0%nat) p t ;;
            o <- m_make_result c (a 9%nat) p ;;
            match o with
            | Some y => Ret (overflow, Some y)
            | None => Ret (true, None)
            end).

(** num.rs 214-219: Clone *)
Definition m_clone_buf (c : cfg) (a : nat -> nat -> Z) (b : option pbuf) : outcome bool * option pbuf :=
  match (x <- m_deref c b ;; p <- m_as_var c x ;; m_into_buf c (a 9%nat) p) with
  | Ret y => (Ret false, Some y)
  | Panic w => (Panic w, b)
  | UB => (UB, b)
  | Diverge => (Diverge, b)
  end.
(** num.rs 964-977: ToOwned for Numeric *)
Definition m_num_to_owned (c : cfg) (a : nat -> nat -> Z) (x : bytes) : outcome pbuf :=
  p <- m_as_var c x ;; if m_nan p then m_nan_buf c (a 9%nat) else m_into_buf c (a 9%nat) p.

(** ** Operators, ops.rs 96-107, 208-219, 320-331: [+], [-], [*] *)
Definition m_op_add (c : cfg) (a : nat -> nat -> Z) (x y : bytes) : outcome pbuf :=
  o <- m_checked_add c a x y ;; expect o MOverflow.
Definition m_op_sub (c : cfg) (a : nat -> nat -> Z) (x y : bytes) : outcome pbuf :=
  o <- m_checked_sub c a x y ;; expect o MOverflow.
Definition m_op_mul (c : cfg) (a : nat -> nat -> Z) (x y : bytes) : outcome pbuf :=
  o <- m_checked_mul c a x y ;; expect o MOverflow.
(** num.rs 562-582, 628-648 and ops.rs 441-452, 563-575: [/], [%] *)
Definition m_op_nan2 (c : cfg) (a : nat -> nat -> Z) (x y : bytes) (k : pvar -> pvar -> outcome (option pvar)) : outcome pbuf :=
  nx <- num_is_nan c x ;;
  ny <- (if (nx : bool) then Ret true else num_is_nan c y) ;;
  if (ny : bool) then m_nan_buf c (a 0%nat)
  else
    p <- m_as_var c x ;; q <- m_as_var c y ;;
    o <- k p q ;; r <- expect o MDivZero ;; o <- m_make_result c (a 9%nat) r ;; expect o MOverflow.
Definition m_op_div (c : cfg) (a : nat -> nat -> Z) (x y : bytes) : outcome pbuf :=
  m_op_nan2 c a x y (fun p q =>
    dassert c (negb (m_nan p)) ;;; dassert c (negb (m_nan q)) ;;;
    rscale <- m_select_div_scale c p q ;; m_div_common c (a 0%nat) p q rscale true).
Definition m_op_rem (c : cfg) (a : nat -> nat -> Z) (x y : bytes) : outcome pbuf :=
  m_op_nan2 c a x y (fun p q => m_mod_common c a p q).

(** ops.rs 109-133, 221-245, 333-357, 453-480, 576-602: [+=] and the others compute, then store
    (dropping the old buffer, C65). *)
Definition m_op_assign (op : bytes -> bytes -> outcome pbuf) (c : cfg) (b : option pbuf) (y : bytes)
  : outcome unit * option pbuf :=
  match (x <- m_deref c b ;; op x y) with
  | Ret r => (Ret tt, Some r)
  | Panic w => (Panic w, b)
  | UB => (UB, b)
  | Diverge => (Diverge, b)
  end.

(** ** Histories: what a program does to one NumericBuf. *)
Inductive mop :=
| InPlace (o : op)
| AddAssign (y : bytes) | SubAssign (y : bytes) | MulAssign (y : bytes) | DivAssign (y : bytes) | RemAssign (y : bytes).
(** the numbers an operation reads besides the buffer itself *)
Definition operands (o : mop) : list bytes :=
  match o with
  | InPlace _ => []
  | AddAssign y | SubAssign y | MulAssign y | DivAssign y | RemAssign y => [y]
  end.

Definition m_step (c : cfg) (a : nat -> nat -> Z) (o : mop) (b : option pbuf) : outcome bool * option pbuf :=
  match o with
  | InPlace ONegate => flag (m_negate_mut c a b)
  | InPlace OAbs => flag (m_abs_mut c a b)
  | InPlace (ORound k) => flag (m_round_mut c a b k)
  | InPlace (OTrunc k) => flag (m_trunc_mut c a b k)
  | InPlace (OTypmod t) => m_apply_typmod c a b t
  | InPlace OClone => m_clone_buf c a b
  | AddAssign y => flag (m_op_assign (m_op_add c a) c b y)
  | SubAssign y => flag (m_op_assign (m_op_sub c a) c b y)
  | MulAssign y => flag (m_op_assign (m_op_mul c a) c b y)
  | DivAssign y => flag (m_op_assign (m_op_div c a) c b y)
  | RemAssign y => flag (m_op_assign (m_op_rem c a) c b y)
  end.
(** the same on the bytes alone *)
Definition step_all (c : cfg) (o : mop) (x : nbuf) : outcome bool * nbuf :=
  match o with
  | InPlace o => step c o x
  | AddAssign y => flag (op_assign op_add c x y)
  | SubAssign y => flag (op_assign op_sub c x y)
  | MulAssign y => flag (op_assign op_mul c x y)
  | DivAssign y => flag (op_assign op_div c x y)
  | RemAssign y => flag (op_assign op_rem c x y)
  end.
Fixpoint run_all (c : cfg) (h : list mop) (x : nbuf) : list (outcome bool) * nbuf :=
  match h, x with
  | [], _ => ([], x)
  | _, None => ([], None)
  | o :: t, Some _ => let '(r, x') := step_all c o x in let '(rs, y) := run_all c t x' in (r :: rs, y)
  end.
Fixpoint m_run (c : cfg) (h : list (mop * (nat -> nat -> Z))) (b : option pbuf) : list (outcome bool) * option pbuf :=
  match h, b with
  | [], _ => ([], b)
  | _, None => ([], None)
  | (o, a) :: t, Some _ => let '(r, b') := m_step c a o b in let '(rs, y) := m_run c t b' in (r :: rs, y)
  end.
