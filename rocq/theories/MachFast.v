(** * MachFast: fast division and square root (src/var.rs) at the level of the machine, in the style of Mach.v.
    Doubles are those of Flt.v, as in Transc.v. *)
From Coq Require Import ZArith QArith List Bool.
From Verif Require Import Base Var Binary Parse Num Flt Transc Data Mach.
Import ListNotations.
Open Scope Z_scope.

(** ** Fast division: var.rs 1256-1515 *)

(** var.rs 1310-1313: copying the dividend into [div], one entry to the right *)
Definition m_df_load (c : cfg) (ds1 : list Z) (i : Z) (div : list Z) : outcome (list Z) :=
  i1 <- usize c (i + 1) ;;
  x <- get_unchecked ds1 i ;;
  set_unchecked div i1 x.

(** var.rs 1319-1325: [fdivisor] *)
Definition m_fdivisor (ds2 : list Z) (n2 : Z) : outcome Q :=
  d <- index ds2 0 ;;
  for_up 3 1 (fun i f =>
    let f := fmul f (inject_Z NBASE) in
    if i <? n2 then x <- get_unchecked ds2 i ;; Ret (fadd f (inject_Z x)) else Ret f) (inject_Z d).

(** var.rs 1352-1358, 1392-1398: [fdividend] *)
Definition m_fdividend (c : cfg) (div : list Z) (qi nd : Z) : outcome Q :=
  d <- get_unchecked div qi ;;
  for_up 3 1 (fun i f =>
    let f := fmul f (inject_Z NBASE) in
    k <- usize c (qi + i) ;;
    if as_i32 k <=? nd then x <- get_unchecked div k ;; Ret (fadd f (inject_Z x)) else Ret f) (inject_Z d).

(** var.rs 1376-1390: the body of the carry loop; [k] counts from [qi + 1]; the variables are (carry, div) *)
Definition m_df_carry (c : cfg) (lo k : Z) (s : Z * list Z) : outcome (Z * list Z) :=
  let '(carry, div) := s in
  x <- get_unchecked div (lo + k) ;;
  new_dig <- i32 c (x + carry) ;;
  '(carry, new_dig) <- carry_of c new_dig ;;
  div <- set_unchecked div (lo + k) new_dig ;;
  Ret (carry, div).

(** var.rs 1425-1428: the body of the subtraction loop *)
Definition m_df_sub (c : cfg) (qdigit qi : Z) (ds2 : list Z) (i : Z) (div : list Z) : outcome (list Z) :=
  k <- usize c (qi + i) ;;
  x <- get_unchecked div k ;;
  y <- get_unchecked ds2 i ;;
  t <- i32 c (qdigit * y) ;;
  x <- i32 c (x - t) ;;
  set_unchecked div k x.

(** var.rs 1349-1456: the body of the outer loop; the variables are (max_div, div) *)
Definition m_df_step (c : cfg) (ds2 : list Z) (n2 nd : Z) (finv : Q) (qi : Z) (s : Z * list Z) : outcome (Z * list Z) :=
  let '(max_div, div) := s in
  fdividend <- m_fdividend c div qi nd ;;
  qdigit <- quot_digit c (fmul fdividend finv) ;;
  '(qdigit, max_div, div) <-
    (if qdigit =? 0 then Ret (qdigit, max_div, div)
     else
       b <- i32 c (Z.abs qdigit) ;;
       max_div <- i32 c (max_div + b) ;;
       '(qdigit, max_div, div) <-
         (if MAX_DIV <? max_div then
            lo <- usize c (qi + 1) ;;
            '(carry, div) <- for_rev (Z.to_nat (nd - qi)) (m_df_carry c lo) (0, div) ;;
            x <- get_unchecked div qi ;;
            new_dig <- i32 c (x + carry) ;;
            div <- set_unchecked div qi new_dig ;;
            fdividend <- m_fdividend c div qi nd ;;
            qdigit <- quot_digit c (fmul fdividend finv) ;;
            b <- i32 c (Z.abs qdigit) ;;
            max_div <- i32 c (1 + b) ;;
            Ret (qdigit, max_div, div)
          else Ret (qdigit, max_div, div)) ;;
       if qdigit =? 0 then Ret (qdigit, max_div, div)
       else
         t <- i32 c (nd - as_i32 qi) ;;
         t <- i32 c (t + 1) ;;
         let istop := Z.min n2 t in
         div <- for_up (Z.to_nat istop) 0 (m_df_sub c qdigit qi ds2) div ;;
         Ret (qdigit, max_div, div)) ;;
  x <- get_unchecked div qi ;;
  k <- usize c (qi + 1) ;;
  y <- get_unchecked div k ;;
  t <- i32 c (x * NBASE) ;;
  y <- i32 c (y + t) ;;
  div <- set_unchecked div k y ;;
  div <- set_unchecked div qi qdigit ;;
  Ret (max_div, div).

(** var.rs 1482-1497: the body of the final carry loop; the variables are (carry, res_digits) *)
Definition m_df_store (c : cfg) (div : list Z) (i : Z) (s : Z * list Z) : outcome (Z * list Z) :=
  let '(carry, res) := s in
  x <- get_unchecked div i ;;
  new_dig <- i32 c (x + carry) ;;
  '(carry, new_dig) <- carry_of c new_dig ;;
  res <- set_unchecked res i (as_i16 new_dig) ;;
  Ret (carry, res).

Definition m_div_fast_common (c : cfg) (a : nat -> Z) (p q : pvar) (rscale : Z) (round : bool) : outcome (option pvar) :=
  dassert c (negb (m_nan p)) ;;;
  dassert c (negb (m_nan q)) ;;;
  let n1 := p_nd p in
  ds1 <- m_digits c p ;;
  let n2 := p_nd q in
  ds2 <- m_digits c q ;;
  is0 <- (if n2 =? 0 then Ret true else d <- index ds2 0 ;; Ret (d =? 0)) ;;
  if (is0 : bool) then Ret None
  else if n1 =? 0 then z <- m_zero_scaled c rscale ;; Ret (Some z)
  else
    let res_sign := if sgn_eqb (p_sign p) (p_sign q) then SPos else SNeg in
    t <- i32 c (p_weight p - p_weight q) ;;
    res_weight <- i32 c (t + 1) ;;
    t <- i32 c (res_weight + 1) ;;
    u <- i32 c (rscale + DEC_DIGITS) ;;
    u <- i32 c (u - 1) ;;
    ndigits <- i32 c (t + Z.quot u DEC_DIGITS) ;;
    ndigits <- i32 c (ndigits + DIV_GUARD_DIGITS) ;;
    let ndigits := if ndigits <? DIV_GUARD_DIGITS then DIV_GUARD_DIGITS else ndigits in
    let nd := if ndigits <? n1 then n1 else ndigits in
    size <- usize c (nd + 1) ;;
    div <- for_up (Z.to_nat n1) 0 (m_df_load c ds1) (zeros size) ;;
    fdivisor <- m_fdivisor ds2 n2 ;;
    let finv := fdiv 1 fdivisor in
    '(_, div) <- for_up (Z.to_nat nd) 0 (m_df_step c ds2 n2 nd finv) (1, div) ;;
    x <- index div nd ;;
    let fdividend := fmul (fmul (fmul (inject_Z x) (inject_Z NBASE)) (inject_Z NBASE)) (inject_Z NBASE) in
    qdigit <- quot_digit c (fmul fdividend finv) ;;
    div <- set_checked div nd qdigit ;;
    n <- i32 c (nd + 1) ;;
    d <- m_new c a n ;;
    res <- m_slice c d n ;;
    '(carry, res) <- for_rev (Z.to_nat (nd + 1)) (m_df_store c div) (0, res) ;;
    dassert c (carry =? 0) ;;;
    let r := PVar n res_weight 0 res_sign (Owned (write_back d res)) in
    r <- (if round then m_round_common c a r rscale else m_trunc_common c a r rscale) ;;
    r <- m_strip c a r ;;
    Ret (Some r).

(** ** Square root: var.rs 1568-1610 *)

(** [self.digits[0]]: the Cow itself is indexed, not the slice of ndigits *)
Definition m_digit0 (c : cfg) (p : pvar) : outcome Z :=
  l <- (match p_cow p with
        | Borrowed l => Ret l
        | Owned d => n <- u32 c (lenz (words d) - off d) ;; m_slice c d (as_i32 n)
        end) ;;
  index l 0.

(** var.rs 66-72 *)
Definition M_ZERO_POINT_FIVE : pvar := PVar 1 (-1) 1 SPos (Borrowed [5000]).

(** var.rs 1591-1604; [n] numbers the allocations *)
Fixpoint m_sqrt_loop (c : cfg) (a : nat -> nat -> Z) (fuel n : nat) (p result last_val : pvar) (local_rscale : Z) : outcome pvar :=
  match fuel with
  | O => Diverge
  | S f =>
      o <- m_div_fast_common c (a n) p result local_rscale true ;;
      val <- expect o MShouldNotBeZero ;;
      result <- m_add_common c (a (n + 1)%nat) result val ;;
      result <- m_mul_common c (a (n + 2)%nat) result M_ZERO_POINT_FIVE local_rscale ;;
      cmp <- m_cmp_common c result last_val ;;
      if cmp =? 0 then Ret result
      else
        last_val <- m_clone c (a (n + 3)%nat) result ;;
        m_sqrt_loop c a f (n + 4) p result last_val local_rscale
  end.

(** var.rs 1568-1610 *)
Definition m_sqrt_common (c : cfg) (a : nat -> nat -> Z) (fuel : nat) (p : pvar) (rscale : Z) : outcome pvar :=
  dassert c (m_pos p) ;;;
  local_rscale <- i32 c (rscale + 8) ;;
  if p_nd p =? 0 then m_zero_scaled c rscale
  else
    d <- m_new c (a 0%nat) 1 ;;
    l <- m_slice c d 1 ;;
    d0 <- m_digit0 c p ;;
    let i := Z.quot d0 2 in
    l <- set_checked l 0 (if i =? 0 then 1 else i) ;;
    let result := PVar 1 (Z.quot (p_weight p) 2) 0 SPos (Owned (write_back d l)) in
    last_val <- m_clone c (a 1%nat) result ;;
    result <- m_sqrt_loop c a fuel 2 p result last_val local_rscale ;;
    m_round_common c (a 1%nat) result rscale.

(** var.rs 2471-2489 *)
Definition m_sqrt (c : cfg) (a : nat -> nat -> Z) (fuel : nat) (p : pvar) : outcome pvar :=
  dassert c (negb (m_neg p)) ;;;
  dassert c (negb (m_nan p)) ;;;
  w <- i32 c (p_weight p + 1) ;;
  w <- i32 c (w * DEC_DIGITS) ;;
  sweight <- i32 c (Z.quot w 2 - 1) ;;
  s <- i32 c (NUMERIC_MIN_SIG_DIGITS - sweight) ;;
  m_sqrt_common c a fuel p
    (Z.min (Z.max (Z.max s (p_dscale p)) NUMERIC_MIN_DISPLAY_SCALE) NUMERIC_MAX_DISPLAY_SCALE).

(** num.rs 759-774 *)
Definition m_num_sqrt (c : cfg) (a : nat -> nat -> Z) (fuel : nat) (x : bytes) : outcome pbuf :=
  nan <- num_is_nan c x ;;
  if (nan : bool) then m_nan_buf c (a 0%nat)
  else
    p <- m_as_var c x ;;
    assert_msg (negb (m_neg p)) MSqrtNeg ;;;
    r <- m_sqrt c a fuel p ;; m_make_no_overflow c (a 0%nat) r.
