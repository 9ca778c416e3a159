(** * MachExp: exp, statement by statement.

    As in Mach.v: every i32 operation is checked (debug) or wraps (release), digit buffers have arbitrary initial content.
    [b] gives that content: [b k j] is the content of the [j]-th allocation of stage [k]. The functions of the platform's
    libm and strtod ([m]) are those of Transc.v. *)
From Coq Require Import ZArith QArith Qabs List Bool.
From Verif Require Import Base Var Binary Parse Num Flt Transc Data Mach MachText MachFast MachPow MachLn.
Import ListNotations.
Open Scope Z_scope.

(** convert.rs 648-670: the text is written first (var.rs 2103-2175, MachText.v), then read back by strtod, which is a parameter
    ([f_of_var], a function of what was written) *)
Definition m_to_f64 (c : cfg) (m : libm) (p : pvar) : outcome Q :=
  t <- m_write c p ;;
  l <- m_digits c p ;;
  expect (f_of_var m (Var (p_weight p) (p_dscale p) (p_sign p) l)) MUnwrap.

(** var.rs 1955-1959 *)
Fixpoint m_exp_reduce (c : cfg) (b : nat -> nat -> Z) (fuel n : nat) (val : Q) (ndiv2 : Z) (tmp : pvar) : outcome (Z * pvar) :=
  match fuel with
  | O => Diverge
  | S f =>
      if negb (Qle_bool (Qabs val) (fl (1 # 100))) then
        ndiv2 <- i32 c (ndiv2 + 1) ;;
        tmp <- m_add_common c (b n) tmp tmp ;;
        m_exp_reduce c b f (n + 1) (fdiv val 2) ndiv2 tmp
      else Ret (ndiv2, tmp)
  end.

(** var.rs 1993-2001 *)
Fixpoint m_exp_series (c : cfg) (b : nat -> nat -> nat -> Z) (fuel n : nat) (result elem x ni : pvar) (local_rscale : Z) : outcome pvar :=
  match fuel with
  | O => Diverge
  | S f =>
      if p_nd elem =? 0 then Ret result
      else
        result <- m_add_common c (b n 0%nat) result elem ;;
        elem <- m_mul_common c (b n 1%nat) elem x local_rscale ;;
        ni <- m_add_common c (b n 2%nat) ni M_ONE ;;
        o <- m_div_fast_common c (b n 3%nat) elem ni local_rscale true ;;
        elem <- expect o MDivZero ;;
        m_exp_series c b f (n + 1) result elem x ni local_rscale
  end.

(** var.rs 2006-2010 *)
Fixpoint m_exp_square (c : cfg) (b : nat -> nat -> Z) (k n : nat) (result : pvar) (sig_digits : Z) : outcome pvar :=
  match k with
  | O => Ret result
  | S k' =>
      t <- i32 c (p_weight result * 2) ;;
      t <- i32 c (t * DEC_DIGITS) ;;
      t <- i32 c (sig_digits - t) ;;
      result <- m_mul_common c (b n) result result (Z.max t NUMERIC_MIN_DISPLAY_SCALE) ;;
      m_exp_square c b k' (n + 1) result sig_digits
  end.

(** var.rs 1927-2016 *)
Definition m_exp_common (c : cfg) (b : nat -> nat -> nat -> Z) (m : libm) (fuel : nat) (p : pvar) (rscale : Z) : outcome (option pvar) :=
  dassert c (negb (m_nan p)) ;;;
  x <- m_clone c (b 0%nat 0%nat) p ;;
  val <- m_to_f64 c m x ;;
  if Qle_bool 6000 (Qabs val) then Ret None
  else
    let dweight := f2i (fmul val LOG10_E) in
    '(ndiv2, x) <-
      (if negb (Qle_bool (Qabs val) (fl (1 # 100))) then
         tmp <- m_clone c (b 0%nat 1%nat) M_TWO ;;
         '(ndiv2, tmp) <- m_exp_reduce c (b 1%nat) fuel 0 (fdiv val 2) 1 tmp ;;
         local_rscale <- i32 c (p_dscale x + ndiv2) ;;
         o <- m_div_fast_common c (b 0%nat 2%nat) x tmp local_rscale true ;;
         x <- expect o MDivZero ;;
         Ret (ndiv2, x)
       else Ret (0, x)) ;;
    t <- i32 c (1 + dweight) ;;
    t <- i32 c (t + rscale) ;;
    t <- i32 c (t + f2i (fmul (inject_Z ndiv2) LOG10_2)) ;;
    sig_digits <- i32 c (Z.max t 0 + 8) ;;
    local_rscale <- i32 c (sig_digits - 1) ;;
    result <- m_add_common c (b 0%nat 3%nat) M_ONE x ;;
    elem <- m_mul_common c (b 0%nat 4%nat) x x local_rscale ;;
    ni <- m_clone c (b 0%nat 5%nat) M_TWO ;;
    o <- m_div_fast_common c (b 0%nat 6%nat) elem ni local_rscale true ;;
    elem <- expect o MDivZero ;;
    result <- m_exp_series c (fun k => b (k + 3)%nat) fuel 0 result elem x ni local_rscale ;;
    result <- m_exp_square c (b 2%nat) (Z.to_nat ndiv2) 0 result sig_digits ;;
    r <- m_round_common c (b 0%nat 7%nat) result rscale ;;
    Ret (Some r).

(** var.rs 2559-2585 *)
Definition m_exp (c : cfg) (b : nat -> nat -> nat -> Z) (m : libm) (fuel : nat) (p : pvar) : outcome (option pvar) :=
  dassert c (negb (m_nan p)) ;;;
  val <- m_to_f64 c m p ;;
  let val := fmul val LOG10_E in
  let val := if Qle_bool (-2000) val then val else (-2000)%Q in
  let val := if Qle_bool val 2000 then val else 2000%Q in
  s <- i32 c (NUMERIC_MIN_SIG_DIGITS - f2i val) ;;
  m_exp_common c b m fuel p (Z.min (Z.max (Z.max s (p_dscale p)) NUMERIC_MIN_DISPLAY_SCALE) NUMERIC_MAX_DISPLAY_SCALE).

(** num.rs 845-853 *)
Definition m_num_exp (c : cfg) (b : nat -> nat -> nat -> Z) (m : libm) (fuel : nat) (x : bytes) : outcome (option pbuf) :=
  nan <- num_is_nan c x ;;
  if (nan : bool) then r <- m_nan_buf c (b 0%nat 0%nat) ;; Ret (Some r)
  else p <- m_as_var c x ;; o <- m_exp c b m fuel p ;; m_make_opt c (b 0%nat 0%nat) o.
