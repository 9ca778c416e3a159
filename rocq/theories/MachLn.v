(** * MachLn: natural logarithm and logarithms in a base, statement by statement.

    As in Mach.v: every i32 operation is checked (debug) or wraps (release), digit buffers have arbitrary initial content.
    [b] gives that content: [b k j] is the content of the [j]-th allocation of stage [k]. The functions of the platform's
    libm ([m]) are those of Transc.v. *)
From Coq Require Import ZArith QArith Qabs List Bool.
From Verif Require Import Base Var Binary Parse Num Flt Transc Data Mach MachText MachFast MachPow.
Import ListNotations.
Open Scope Z_scope.

(** var.rs 60-76 *)
Definition M_TWO : pvar := PVar 1 0 0 SPos (Borrowed [2]).
Definition M_ZERO_POINT_NINE : pvar := PVar 1 (-1) 1 SPos (Borrowed [9000]).
Definition M_ONE_POINT_ONE : pvar := PVar 2 0 1 SPos (Borrowed [1; 1000]).

(** the range reduction loops, var.rs 1780-1791; [keep] is the loop condition *)
Fixpoint m_ln_reduce (c : cfg) (b : nat -> nat -> nat -> Z) (fuel sfuel n : nat) (keep : pvar -> outcome bool) (x fact : pvar) (rscale : Z)
  : outcome (pvar * pvar) :=
  match fuel with
  | O => Diverge
  | S f =>
      t <- keep x ;;
      if (t : bool) then
        w <- i32 c (p_weight x * DEC_DIGITS) ;;
        s <- i32 c (rscale - Z.quot w 2) ;;
        s <- i32 c (s + 8) ;;
        x <- m_sqrt_common c (b n) sfuel x (Z.max s NUMERIC_MIN_DISPLAY_SCALE) ;;
        fact <- m_mul_common c (b (n + 1)%nat 0%nat) fact M_TWO 0 ;;
        m_ln_reduce c b f sfuel (n + 2) keep x fact rscale
      else Ret (x, fact)
  end.

(** the loop of the series, var.rs 1811-1828 *)
Fixpoint m_ln_series (c : cfg) (b : nat -> nat -> nat -> Z) (fuel n : nat) (result xx x ni : pvar) (local_rscale : Z) : outcome pvar :=
  match fuel with
  | O => Diverge
  | S f =>
      ni <- m_add_common c (b n 0%nat) ni M_TWO ;;
      xx <- m_mul_common c (b n 1%nat) xx x local_rscale ;;
      o <- m_div_fast_common c (b n 2%nat) xx ni local_rscale true ;;
      elem <- expect o MDivZero ;;
      if p_nd elem =? 0 then Ret result
      else
        result <- m_add_common c (b n 3%nat) result elem ;;
        t <- i32 c (local_rscale * 2) ;;
        t <- i32 c (p_weight result - Z.quot t DEC_DIGITS) ;;
        if p_weight elem <? t then Ret result
        else m_ln_series c b f (n + 1) result xx x ni local_rscale
  end.

(** var.rs 1764-1833 *)
Definition m_ln_common (c : cfg) (b : nat -> nat -> nat -> Z) (fuel : nat) (p : pvar) (rscale : Z) : outcome pvar :=
  dassert c (negb (m_nan p)) ;;;
  (if dbg c then s <- m_cmp_common c p m_zero ;; dassert c (0 <? s) else Ret tt) ;;;
  x <- m_clone c (b 0%nat 0%nat) p ;;
  fact <- m_clone c (b 0%nat 1%nat) M_TWO ;;
  '(x, fact) <- m_ln_reduce c (fun k => b (3 * k + 1)%nat) fuel fuel 0
                  (fun x => s <- m_cmp_common c x M_ZERO_POINT_NINE ;; Ret (s <=? 0)) x fact rscale ;;
  '(x, fact) <- m_ln_reduce c (fun k => b (3 * k + 2)%nat) fuel fuel 0
                  (fun x => s <- m_cmp_common c x M_ONE_POINT_ONE ;; Ret (0 <=? s)) x fact rscale ;;
  local_rscale <- i32 c (rscale + 8) ;;
  result <- m_sub_common c (b 0%nat 2%nat) x M_ONE ;;
  elem <- m_add_common c (b 0%nat 3%nat) x M_ONE ;;
  o <- m_div_fast_common c (b 0%nat 4%nat) result elem local_rscale true ;;
  result <- expect o MDivZero ;;
  xx <- m_clone c (b 0%nat 5%nat) result ;;
  x <- m_mul_common c (b 0%nat 6%nat) result result local_rscale ;;
  ni <- m_clone c (b 0%nat 7%nat) M_ONE ;;
  result <- m_ln_series c (fun k => b (3 * k + 3)%nat) fuel 0 result xx x ni local_rscale ;;
  m_mul_common c (b 0%nat 8%nat) result fact rscale.

(** var.rs 1840-1884 *)
Definition m_estimate_ln_dweight (c : cfg) (a : nat -> Z) (m : libm) (p : pvar) : outcome Z :=
  dassert c (negb (m_nan p)) ;;;
  lo <- m_cmp_common c p M_ZERO_POINT_NINE ;;
  hi <- (if 0 <=? lo then m_cmp_common c p M_ONE_POINT_ONE else Ret 1) ;;
  if (0 <=? lo) && (hi <=? 0) then
    x <- m_sub_common c a p M_ONE ;;
    if 0 <? p_nd x then
      w <- i32 c (p_weight x * DEC_DIGITS) ;;
      l <- m_digits c x ;;
      d <- index l 0 ;;
      i32 c (w + log10_i32 m (inject_Z d))
    else Ret 0
  else if 0 <? p_nd p then
    l <- m_digits c p ;;
    d0 <- index l 0 ;;
    dweight <- i32 c (p_weight p * DEC_DIGITS) ;;
    '(digits, dweight) <-
      (if 1 <? p_nd p then
         t <- i32 c (d0 * NBASE) ;;
         d1 <- index l 1 ;;
         t <- i32 c (t + d1) ;;
         dweight <- i32 c (dweight - DEC_DIGITS) ;;
         Ret (t, dweight)
       else Ret (d0, dweight)) ;;
    let ln_var := fadd (f_ln m (inject_Z digits)) (fmul (inject_Z dweight) LN_10) in
    Ret (log10_i32 m (Qabs ln_var))
  else Ret 0.

(** var.rs 2496-2512 *)
Definition m_ln (c : cfg) (b : nat -> nat -> nat -> Z) (m : libm) (fuel : nat) (p : pvar) : outcome pvar :=
  dassert c (negb (m_nan p)) ;;;
  s <- m_cmp_common c p m_zero ;;
  assert_msg (negb (s =? 0)) MLogZero ;;;
  assert_msg (0 <? s) MLogNeg ;;;
  ln_dweight <- m_estimate_ln_dweight c (b 0%nat 9%nat) m p ;;
  s <- i32 c (NUMERIC_MIN_SIG_DIGITS - ln_dweight) ;;
  m_ln_common c b fuel p (Z.min (Z.max (Z.max s (p_dscale p)) NUMERIC_MIN_DISPLAY_SCALE) NUMERIC_MAX_DISPLAY_SCALE).

(** num.rs 781-789 *)
Definition m_num_ln (c : cfg) (b : nat -> nat -> nat -> Z) (m : libm) (fuel : nat) (x : bytes) : outcome pbuf :=
  nan <- num_is_nan c x ;;
  if (nan : bool) then m_nan_buf c (b 0%nat 0%nat)
  else p <- m_as_var c x ;; r <- m_ln c b m fuel p ;; m_make_no_overflow c (b 0%nat 0%nat) r.

(** var.rs 1888-1922 *)
Definition m_log_common (c : cfg) (b : nat -> nat -> nat -> nat -> Z) (m : libm) (fuel : nat) (p base : pvar) : outcome pvar :=
  dassert c (negb (m_nan p)) ;;;
  dassert c (negb (m_nan base)) ;;;
  (if dbg c then s <- m_cmp_common c p m_zero ;; dassert c (0 <? s) else Ret tt) ;;;
  ln_base_dweight <- m_estimate_ln_dweight c (b 0%nat 0%nat 0%nat) m base ;;
  ln_num_dweight <- m_estimate_ln_dweight c (b 0%nat 0%nat 1%nat) m p ;;
  result_dweight <- i32 c (ln_num_dweight - ln_base_dweight) ;;
  s <- i32 c (NUMERIC_MIN_SIG_DIGITS - result_dweight) ;;
  let rscale := Z.min (Z.max (Z.max (Z.max s (p_dscale base)) (p_dscale p)) NUMERIC_MIN_DISPLAY_SCALE) NUMERIC_MAX_DISPLAY_SCALE in
  t <- i32 c (rscale + result_dweight) ;;
  t <- i32 c (t - ln_base_dweight) ;;
  t <- i32 c (t + 8) ;;
  let ln_base_rscale := Z.max t NUMERIC_MIN_DISPLAY_SCALE in
  t <- i32 c (rscale + result_dweight) ;;
  t <- i32 c (t - ln_num_dweight) ;;
  t <- i32 c (t + 8) ;;
  let ln_num_rscale := Z.max t NUMERIC_MIN_DISPLAY_SCALE in
  ln_base <- m_ln_common c (b 1%nat) fuel base ln_base_rscale ;;
  ln_num <- m_ln_common c (b 2%nat) fuel p ln_num_rscale ;;
  o <- m_div_fast_common c (b 0%nat 0%nat 2%nat) ln_num ln_base rscale true ;;
  expect o MDivZero.

(** var.rs 2519-2538 *)
Definition m_log (c : cfg) (b : nat -> nat -> nat -> nat -> Z) (m : libm) (fuel : nat) (p base : pvar) : outcome pvar :=
  dassert c (negb (m_nan p)) ;;;
  dassert c (negb (m_nan base)) ;;;
  s <- m_cmp_common c p m_zero ;;
  assert_msg (negb (s =? 0)) MLogZero ;;;
  assert_msg (0 <? s) MLogNeg ;;;
  s <- m_cmp_common c base m_zero ;;
  assert_msg (negb (s =? 0)) MLogZero ;;;
  assert_msg (0 <? s) MLogNeg ;;;
  m_log_common c b m fuel p base.

(** num.rs 796-808 *)
Definition m_num_log (c : cfg) (b : nat -> nat -> nat -> nat -> Z) (m : libm) (fuel : nat) (x base : bytes) : outcome pbuf :=
  nx <- num_is_nan c x ;;
  nb <- (if (nx : bool) then Ret true else num_is_nan c base) ;;
  if (nb : bool) then m_nan_buf c (b 0%nat 0%nat 0%nat)
  else
    p <- m_as_var c x ;; q <- m_as_var c base ;;
    r <- m_log c b m fuel p q ;; m_make_no_overflow c (b 0%nat 0%nat 0%nat) r.

(** num.rs 814-838 *)
Definition m_num_log2 (c : cfg) (b : nat -> nat -> nat -> nat -> Z) (m : libm) (fuel : nat) (x : bytes) : outcome pbuf :=
  nan <- num_is_nan c x ;;
  if (nan : bool) then m_nan_buf c (b 0%nat 0%nat 0%nat)
  else p <- m_as_var c x ;; r <- m_log c b m fuel p M_TWO ;; m_make_no_overflow c (b 0%nat 0%nat 0%nat) r.
Definition m_num_log10 (c : cfg) (b : nat -> nat -> nat -> nat -> Z) (m : libm) (fuel : nat) (x : bytes) : outcome pbuf :=
  nan <- num_is_nan c x ;;
  if (nan : bool) then m_nan_buf c (b 0%nat 0%nat 0%nat)
  else p <- m_as_var c x ;; r <- m_log c b m fuel p M_TEN ;; m_make_no_overflow c (b 0%nat 0%nat 0%nat) r.
