(** * MachRest: the rest of num.rs at the level of the machine, in the style of Mach.v: negate, abs, signum, inc, factorial,
    normalize, the data fed to a hasher, and the conversion of an owned buffer to an integer. *)
From Coq Require Import ZArith List Bool.
From Verif Require Import Base Var Binary Format Parse Typmod Convert Num Data Mach MachText MachMut.
Import ListNotations.
Open Scope Z_scope.

(** ** num.rs 452-499, 740-752. Negation and absolute value only set the sign (var.rs 2342-2353, 2462-2471). *)
Definition m_num_negate (c : cfg) (a : nat -> nat -> Z) (x : bytes) : outcome (option pbuf) :=
  m_unary c a x (fun p => p <- p_negate c p ;; b <- m_make_no_overflow c (a 9%nat) p ;; Ret (Some b)).
Definition m_num_abs (c : cfg) (a : nat -> nat -> Z) (x : bytes) : outcome (option pbuf) :=
  m_unary c a x (fun p => p <- p_abs c p ;; b <- m_into_buf c (a 9%nat) p ;; Ret (Some b)).
(** var.rs 2361-2371; ZERO and ONE borrow their digits from statics (var.rs 44-57) *)
Definition m_signum (c : cfg) (a : nat -> Z) (p : pvar) : outcome pvar :=
  dassert c (negb (m_nan p)) ;;;
  if p_nd p =? 0 then m_clone c a m_zero else r <- m_clone c a M_ONE ;; Ret (p_set_sign (p_sign p) r).
Definition m_num_signum (c : cfg) (a : nat -> nat -> Z) (x : bytes) : outcome (option pbuf) :=
  m_unary c a x (fun p => r <- m_signum c (a 0%nat) p ;; b <- m_make_no_overflow c (a 9%nat) r ;; Ret (Some b)).
(** var.rs 2375-2380 *)
Definition m_num_inc (c : cfg) (a : nat -> nat -> Z) (x : bytes) : outcome (option pbuf) :=
  m_unary c a x (fun p =>
    dassert c (negb (m_nan p)) ;;;
    r <- m_add_common c (a 0%nat) p M_ONE ;; o <- m_make_result c (a 9%nat) r ;; b <- expect o MOverflow ;; Ret (Some b)).

(** ** var.rs 2714-2733, num.rs 132-134: factorial. [for n in (2..num).rev()]; every number and every product has its own
    allocation. *)
Fixpoint m_factorial_loop (c : cfg) (a : nat -> nat -> Z) (k : nat) (result : pvar) : outcome pvar :=
  match k with
  | O | S O => Ret result
  | S k' =>
      fact <- m_from_signed c (a (10 + 2 * k)%nat) 64 (Z.of_nat k) ;;
      result <- m_mul_common c (a (11 + 2 * k)%nat) result fact 0 ;;
      m_factorial_loop c a k' result
  end.
Definition m_factorial (c : cfg) (a : nat -> nat -> Z) (num : Z) : outcome (option pvar) :=
  if num <=? 1 then r <- m_clone c (a 0%nat) M_ONE ;; Ret (Some r)
  else if 32177 <? num then Ret None
  else
    r <- m_from_signed c (a 1%nat) 64 num ;;
    r <- m_factorial_loop c a (Z.to_nat (num - 1)) r ;;
    Ret (Some r).
Definition m_num_factorial (c : cfg) (a : nat -> nat -> Z) (n : Z) : outcome (option pbuf) :=
  o <- m_factorial c a n ;; m_make_opt c (a 9%nat) o.

(** ** var.rs 2683-2709, num.rs 880-882: normalize. [take_while(..).count()] over the reversed bytes. *)
Fixpoint m_count_ch0 (c : cfg) (s : text) (n : Z) : outcome Z :=
  match s with
  | b :: t => if b =? ch_0 then n <- usize c (n + 1) ;; m_count_ch0 c t n else Ret n
  | [] => Ret n
  end.
Definition m_normalize (c : cfg) (p : pvar) : outcome text :=
  if m_nan p then Ret txt_NaN
  else
    s <- m_write c p ;;
    if existsb (fun b => b =? ch_dot) s then
      count_zeros <- m_count_ch0 c (rev s) 0 ;;
      new_len <- usize c (lenz s - count_zeros) ;;
      last <- usize c (new_len - 1) ;;
      b <- index s last ;;
      new_len <- (if b =? ch_dot then usize c (new_len - 1) else Ret new_len) ;;
      Ret (firstn (Z.to_nat new_len) s)
    else Ret s.
Definition m_num_normalize (c : cfg) (x : bytes) : outcome text := p <- m_as_var c x ;; m_normalize c p.

(** ** num.rs 911-961: hash. The first closure counts in a usize and subtracts from an i32, the second counts in a usize;
    [&digits[start..end]] panics unless start <= end <= len. *)
Fixpoint m_skip_front (c : cfg) (ds : list Z) (start weight : Z) : outcome (Z * Z) :=
  match ds with
  | d :: t => if d =? 0 then start <- usize c (start + 1) ;; weight <- i32 c (weight - 1) ;; m_skip_front c t start weight
              else Ret (start, weight)
  | [] => Ret (start, weight)
  end.
Fixpoint m_skip_back (c : cfg) (ds : list Z) (n : Z) : outcome Z :=
  match ds with
  | d :: t => if d =? 0 then n <- usize c (n + 1) ;; m_skip_back c t n else Ret n
  | [] => Ret n
  end.
Definition m_range {A} (l : list A) (start fin : Z) : outcome (list A) :=
  if (start <=? fin) && (fin <=? lenz l) then Ret (firstn (Z.to_nat (fin - start)) (skipn (Z.to_nat start) l)) else Panic WBounds.
Definition m_num_hash (c : cfg) (x : bytes) : outcome (list hash_event) :=
  p <- m_as_var c x ;;
  if m_nan p then Ret []
  else
    digits <- m_digits c p ;;
    '(start, weight) <- m_skip_front c digits 0 (p_weight p) ;;
    if p_nd p =? as_i32 start then Ret [HU8 0]
    else
      fin <- m_skip_back c (rev digits) 0 ;;
      (if dbg c then t <- usize c (start + fin) ;; dassert c (t <? p_nd p) else Ret tt) ;;;
      e <- usize c (p_nd p - fin) ;;
      ds <- m_range digits start e ;;
      Ret [HLen (lenz ds); HDigits ds; HI32 weight; HI8 (if m_pos p then 1 else -1)].

(** ** convert.rs 668-676: TryFrom<NumericBuf> for integers goes through into_var (num.rs 182-199) *)
Definition m_buf_to_signed (c : cfg) (a : nat -> nat -> Z) (bits : Z) (b : pbuf) : outcome (Z + conv_error) :=
  p <- m_owned c b ;; m_to_signed c a bits p.
Definition m_buf_to_unsigned (c : cfg) (a : nat -> nat -> Z) (bits : Z) (b : pbuf) : outcome (Z + conv_error) :=
  p <- m_owned c b ;; m_to_unsigned c a bits p.
