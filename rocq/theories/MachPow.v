(** * MachPow: integer powers and scientific notation (src/var.rs) at the level of the machine, in the style of Mach.v.
    Doubles are those of Flt.v, as in Transc.v. *)
From Coq Require Import ZArith QArith List Bool.
From Verif Require Import Base Var Binary Format Parse Convert Num Flt Transc Data Mach MachText MachFast.
Import ListNotations.
Open Scope Z_scope.

(** var.rs 62: the constant [TEN] *)
Definition M_TEN : pvar := PVar 1 0 0 SPos (Borrowed [10]).

(** var.rs 1668-1675: the loop over the digits after the first *)
Fixpoint m_pow_digits (c : cfg) (ds : list Z) (i : Z) (f : Q) (p : Z) : outcome (Q * Z) :=
  match ds with
  | [] => Ret (f, p)
  | d :: t =>
      k <- usize c (i * DEC_DIGITS) ;;
      if k <? 16 then Ret (f, p)
      else
        p <- i32 c (p - DEC_DIGITS) ;;
        m_pow_digits c t (i + 1) (fadd (fmul f (inject_Z NBASE)) (inject_Z d)) p
  end.

Inductive m_pow_exit := MDone (result : pvar) | MOver.

(** var.rs 1715-1749; [n] numbers the allocations *)
Fixpoint m_pow_loop (c : cfg) (a : nat -> nat -> Z) (fuel n : nat) (mask sig_digits : Z) (base_prod result : pvar)
  : outcome m_pow_exit :=
  match fuel with
  | O => Diverge
  | S f =>
      let mask := Z.shiftr mask 1 in
      if mask <=? 0 then Ret (MDone result)
      else
        t <- i32 c (2 * p_weight base_prod) ;;
        t <- i32 c (t * DEC_DIGITS) ;;
        t <- i32 c (sig_digits - t) ;;
        u <- i32 c (2 * p_dscale base_prod) ;;
        base_prod <- m_mul_common c (a n) base_prod base_prod (Z.max (Z.min t u) NUMERIC_MIN_DISPLAY_SCALE) ;;
        result <-
          (if Z.odd mask then
             t <- i32 c (p_weight base_prod + p_weight result) ;;
             t <- i32 c (t * DEC_DIGITS) ;;
             t <- i32 c (sig_digits - t) ;;
             u <- i32 c (p_dscale base_prod + p_dscale result) ;;
             m_mul_common c (a (n + 1)%nat) base_prod result (Z.max (Z.min t u) NUMERIC_MIN_DISPLAY_SCALE)
           else Ret result) ;;
        if (32767 <? p_weight base_prod) || (32767 <? p_weight result) then Ret MOver
        else m_pow_loop c a f (n + 2) mask sig_digits base_prod result
  end.

(** [p.dscale = s] *)
Definition m_set_dscale (s : Z) (p : pvar) : pvar := PVar (p_nd p) (p_weight p) s (p_sign p) (p_cow p).

(** var.rs 1619-1761 *)
Definition m_power_int (c : cfg) (a : nat -> nat -> Z) (m : libm) (p : pvar) (exp rscale : Z) : outcome (option pvar) :=
  dassert c (negb (m_nan p)) ;;;
  if exp =? 0 then r <- m_clone c (a 0%nat) M_ONE ;; Ret (Some (m_set_dscale rscale r))
  else if exp =? 1 then r <- m_clone c (a 0%nat) p ;; r <- m_round_common c (a 1%nat) r rscale ;; Ret (Some r)
  else if exp =? -1 then
    o <- m_div_common c (a 0%nat) M_ONE p rscale true ;; r <- expect o MDivZero ;; Ret (Some r)
  else if exp =? 2 then r <- m_mul_common c (a 0%nat) p p rscale ;; Ret (Some r)
  else if p_nd p =? 0 then
    assert_msg (0 <=? exp) MDivZero ;;;
    z <- m_zero_scaled c rscale ;; Ret (Some z)
  else
    ds <- m_digits c p ;;
    d0 <- index ds 0 ;;
    w <- i32 c (p_weight p * DEC_DIGITS) ;;
    '(f, w) <- m_pow_digits c (tl ds) 1 (inject_Z d0) w ;;
    let f := fmul (inject_Z exp) (fadd (f_log10 m f) (inject_Z w)) in
    if negb (Qle_bool f 393204) then Ret None
    else
      s <- i32 c (- rscale) ;;
      if negb (Qle_bool (inject_Z s) (fadd f 1)) || negb (Qle_bool (inject_Z (- NUMERIC_MAX_DISPLAY_SCALE)) (fadd f 1))
      then z <- m_zero_scaled c rscale ;; Ret (Some z)
      else
        t <- i32 c (1 + rscale) ;;
        sig_digits <- i32 c (t + f2i f) ;;
        b <- i32 c (Z.abs exp) ;;
        u <- i32 c (ln_i32 m b + 8) ;;
        sig_digits <- i32 c (sig_digits + u) ;;
        mask <- i32 c (Z.abs exp) ;;
        base_prod <- m_clone c (a 0%nat) p ;;
        result <- (if Z.odd mask then m_clone c (a 1%nat) p else m_clone c (a 1%nat) M_ONE) ;;
        e <- m_pow_loop c a 32 4 mask sig_digits base_prod result ;;
        match e with
        | MOver =>
            if exp <? 0 then
              r <- m_clone c (a 2%nat) m_zero ;; r <- m_round_common c (a 3%nat) r rscale ;; Ret (Some r)
            else Ret None
        | MDone result =>
            if exp <? 0 then
              o <- m_div_fast_common c (a 2%nat) M_ONE result rscale true ;;
              r <- expect o MDivZero ;; Ret (Some r)
            else r <- m_round_common c (a 2%nat) result rscale ;; Ret (Some r)
        end.

(** var.rs 2026-2047: [power_common] up to the point where the exponent is known not to be an integer of type i32;
    [frac] stands for the rest (var.rs 2049-2098: [m_power_frac], MachFrac.v) *)
Definition m_power_common (c : cfg) (a : nat -> nat -> Z) (m : libm) (frac : pvar -> pvar -> outcome (option pvar)) (p exp : pvar)
  : outcome (option pvar) :=
  dassert c (negb (m_nan p)) ;;;
  dassert c (negb (m_nan exp)) ;;;
  int <- (if p_nd exp =? 0 then Ret true else w <- i32 c (p_weight exp + 1) ;; Ret (p_nd exp <=? w)) ;;
  oi <- (if (int : bool) then
           r <- m_to_signed c a 32 exp ;;
           Ret (match r with inl n => Some n | inr _ => None end)
         else Ret None) ;;
  match oi with
  | Some n =>
      m_power_int c a m p n
        (Z.min (Z.max (Z.max NUMERIC_MIN_SIG_DIGITS (p_dscale p)) NUMERIC_MIN_DISPLAY_SCALE) NUMERIC_MAX_DISPLAY_SCALE)
  | None => frac p exp
  end.

(** var.rs 2596-2625 *)
Definition m_pow_var (c : cfg) (a : nat -> nat -> Z) (m : libm) (frac : pvar -> pvar -> outcome (option pvar)) (p exp : pvar)
  : outcome (option pvar) :=
  if m_nan p then
    z <- (if m_nan exp then Ret false else s <- m_cmp_common c exp m_zero ;; Ret (s =? 0)) ;;
    if (z : bool) then r <- m_clone c (a 0%nat) M_ONE ;; Ret (Some r) else Ret (Some (PVar 0 0 0 SNaN (Borrowed [])))
  else if m_nan exp then
    s <- m_cmp_common c p M_ONE ;;
    if s =? 0 then r <- m_clone c (a 0%nat) M_ONE ;; Ret (Some r) else Ret (Some (PVar 0 0 0 SNaN (Borrowed [])))
  else
    s <- m_cmp_common c p m_zero ;;
    se <- (if s =? 0 then m_cmp_common c exp m_zero else Ret 0) ;;
    if (s =? 0) && (se <? 0) then Panic (WMsg MZeroPowNeg)
    else
      exp_trunc <- m_clone c (a 0%nat) exp ;;
      exp_trunc <- m_trunc_common c (a 1%nat) exp_trunc 0 ;;
      s <- m_cmp_common c p m_zero ;;
      se <- (if s <? 0 then m_cmp_common c exp exp_trunc else Ret 0) ;;
      if (s <? 0) && negb (se =? 0) then Panic (WMsg MNegPowFrac)
      else m_power_common c a m frac p exp.

(** num.rs 863-872 *)
Definition m_num_pow (c : cfg) (a : nat -> nat -> Z) (m : libm) (frac : pvar -> pvar -> outcome (option pvar)) (x exp : bytes)
  : outcome (option pbuf) :=
  p <- m_as_var c x ;; e <- m_as_var c exp ;;
  o <- m_pow_var c a m frac p e ;;
  match o with
  | None => Ret None
  | Some r => if m_nan r then b <- m_nan_buf c (a 0%nat) ;; Ret (Some b) else m_make_result c (a 0%nat) r
  end.

(** var.rs 2187-2236 *)
Definition m_write_sci (c : cfg) (a : nat -> nat -> Z) (m : libm) (p : pvar) (rscale : Z) (lower_exp : bool) : outcome text :=
  if m_nan p then Ret txt_NaN
  else
    let rscale := if rscale <? 0 then 0 else rscale in
    exponent <-
      (if 0 <? p_nd p then
         w <- i32 c (p_weight p + 1) ;;
         e <- i32 c (w * DEC_DIGITS) ;;
         d <- m_digit0 c p ;;
         t <- i32 c (DEC_DIGITS - log10_i32 m (inject_Z d)) ;;
         i32 c (e - t)
       else Ret 0) ;;
    denom_scale <- (if exponent <? 0 then i32 c (- exponent) else Ret 0) ;;
    o <- m_power_int c a m M_TEN exponent denom_scale ;;
    denominator <- expect o MMulOverflow ;;
    o <- m_div_common c (a 0%nat) p denominator rscale true ;;
    significand <- expect o MDivZero ;;
    s <- m_write c significand ;;
    Ret (s ++ (if lower_exp then ch_e else ch_E) :: fmt_exponent exponent).

(** num.rs 992-1008 and 245-262: LowerExp / UpperExp *)
Definition m_num_sci (c : cfg) (a : nat -> nat -> Z) (m : libm) (x : bytes) (lower_exp : bool) : outcome text :=
  p <- m_as_var c x ;; rscale <- m_select_sci_scale c p ;; m_write_sci c a m p rscale lower_exp.
