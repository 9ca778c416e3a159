(** * Transc: model of the approximate functions of src/var.rs (fast division, square root, powers,
    logarithms, exponential, scientific format) and of their public entry points in src/num.rs. *)
From Coq Require Import ZArith QArith Qabs List Bool.
From Verif Require Import Base Var Binary Format Parse Convert Num Flt.
Import ListNotations.
Open Scope Z_scope.

(** What the code takes from the platform: f64::log10, f64::ln (libm) and the conversion of a
    numeric to f64 through the strtod crate ([None]: it fails; an infinity is +-2^1024). *)
Record libm := Libm { f_log10 : Q -> Q; f_ln : Q -> Q; f_of_var : var -> option Q }.

(** ** Fast division: var.rs 1256-1515 *)

(** One Horner step of the estimates, var.rs 1325-1330, 1353-1358: multiply by NBASE, add the next
    digit if there is one. *)
Definition horner (f : Q) (o : option Z) : Q :=
  let g := fmul f (inject_Z NBASE) in
  match o with Some d => fadd g (inject_Z d) | None => g end.

(** The first four digits as a double: [fdivisor] (var.rs 1324-1330), [fdividend] (1352-1358,
    1392-1397) and, on a one-element list, the last digit (1459-1462). *)
Definition first4 (l : list Z) : Q :=
  match l with
  | [] => 0%Q
  | r0 :: t => horner (horner (horner (inject_Z r0) (nth_error t 0)) (nth_error t 1)) (nth_error t 2)
  end.

(** [if fquotient >= 0.0 { fquotient as i32 } else { fquotient as i32 - 1 }] (var.rs 1360-1365). *)
Definition quot_digit (c : cfg) (f : Q) : outcome Z :=
  if Qle_bool 0 f then Ret (f2i f) else i32 c (f2i f - 1).

Definition estimate (c : cfg) (rem : list Z) (finv : Q) : outcome Z :=
  quot_digit c (fmul (first4 rem) finv).

(** Carry propagation from right to left (var.rs 1374-1387 and 1482-1496). *)
Definition carry_of (c : cfg) (x : Z) : outcome (Z * Z) :=
  if x <? 0 then
    a <- i32 c (- x) ;;
    a <- i32 c (a - 1) ;;
    k <- i32 c (- Z.quot a NBASE - 1) ;;
    m <- i32 c (k * NBASE) ;;
    d <- i32 c (x - m) ;;
    Ret (k, d)
  else if NBASE <=? x then
    let k := Z.quot x NBASE in
    m <- i32 c (k * NBASE) ;;
    d <- i32 c (x - m) ;;
    Ret (k, d)
  else Ret (0, x).

Fixpoint carry_down (c : cfg) (l : list Z) : outcome (Z * list Z) :=
  match l with
  | [] => Ret (0, [])
  | d :: t =>
      '(carry, t') <- carry_down c t ;;
      x <- i32 c (d + carry) ;;
      '(k, d') <- carry_of c x ;;
      Ret (k, d' :: t')
  end.

(** Subtract [q] times the divisor, as far as the array reaches (var.rs 1422-1428). *)
Fixpoint sub_mul (c : cfg) (q : Z) (rem ds : list Z) : outcome (list Z) :=
  match rem, ds with
  | r :: rt, d :: dt =>
      p <- i32 c (q * d) ;;
      s <- i32 c (r - p) ;;
      rest <- sub_mul c q rt dt ;;
      Ret (s :: rest)
  | _, _ => Ret rem
  end.

Definition MAX_DIV : Z := Z.quot (I32_MAX - Z.quot I32_MAX NBASE - 1) (NBASE - 1).

(** One iteration of the outer loop, var.rs 1350-1455. [rem] is [div[qi..=div_ndigits]] (earlier
    entries are finished quotient digits and never read again before the final pass). Returns the
    quotient digit, [max_div] and [div[qi+1..]]. *)
Definition df_step (c : cfg) (ds : list Z) (finv : Q) (max_div : Z) (rem : list Z)
  : outcome (Z * Z * list Z) :=
  q <- estimate c rem finv ;;
  '(q, max_div, rem) <-
    (if q =? 0 then Ret (q, max_div, rem)
     else
       a <- i32 c (Z.abs q) ;;
       max_div <- i32 c (max_div + a) ;;
       '(q, max_div, rem) <-
         (if MAX_DIV <? max_div then
            match rem with
            | [] => UB
            | r0 :: t =>
                '(carry, t') <- carry_down c t ;;
                r0' <- i32 c (r0 + carry) ;;
                q <- estimate c (r0' :: t') finv ;;
                a <- i32 c (Z.abs q) ;;
                max_div <- i32 c (1 + a) ;;
                Ret (q, max_div, r0' :: t')
            end
          else Ret (q, max_div, rem)) ;;
       if q =? 0 then Ret (q, max_div, rem)
       else rem <- sub_mul c q rem ds ;; Ret (q, max_div, rem)) ;;
  match rem with
  | r0 :: r1 :: t =>
      p <- i32 c (r0 * NBASE) ;;
      s <- i32 c (r1 + p) ;;
      Ret (q, max_div, s :: t)
  | _ => UB
  end.

(** The outer loop and the last quotient digit (var.rs 1349-1472): [k] + 1 quotient digits. *)
Fixpoint df_loop (c : cfg) (k : nat) (ds : list Z) (finv : Q) (max_div : Z) (rem : list Z)
  : outcome (list Z) :=
  match k with
  | O => q <- estimate c rem finv ;; Ret [q]
  | S k' =>
      '(q, max_div, rem) <- df_step c ds finv max_div rem ;;
      qs <- df_loop c k' ds finv max_div rem ;;
      Ret (q :: qs)
  end.

(** The number of quotient digits after the first, var.rs 1284-1298. *)
Definition df_ndigits (res_weight rscale n1 : Z) : Z :=
  let nd := res_weight + 1 + Z.quot (rscale + DEC_DIGITS - 1) DEC_DIGITS + DIV_GUARD_DIGITS in
  Z.max (Z.max nd DIV_GUARD_DIGITS) n1.

Definition div_fast_common (c : cfg) (v1 v2 : var) (rscale : Z) (round : bool) : outcome (option var) :=
  dassert c (negb (is_nan v1)) ;;;
  dassert c (negb (is_nan v2)) ;;;
  is0 <- (if ndigits v2 =? 0 then Ret true else d <- index (digits v2) 0 ;; Ret (d =? 0)) ;;
  if (is0 : bool) then Ret None
  else if ndigits v1 =? 0 then z <- zero_scaled c rscale ;; Ret (Some z)
  else
    let res_sign := if sgn_eqb (sign v1) (sign v2) then SPos else SNeg in
    let res_weight := weight v1 - weight v2 + 1 in
    let n := df_ndigits res_weight rscale (ndigits v1) in
    let div := 0 :: digits v1 ++ zeros (n - ndigits v1) in
    let finv := fdiv 1 (first4 (digits v2)) in
    qs <- df_loop c (Z.to_nat n) (digits v2) finv 1 div ;;
    '(carry, ds) <- carry_down c qs ;;
    dassert c (carry =? 0) ;;;
    let res := Var res_weight 0 res_sign (map as_i16 ds) in
    r <- (if round then round_common c res rscale else trunc_common c res rscale) ;;
    Ret (Some (strip r)).

(** ** Square root: var.rs 1569-1610 and 2472-2489 *)

(** The Newton loop, var.rs 1591-1604; it has no bound in the code: [fuel]. *)
Fixpoint sqrt_loop (c : cfg) (fuel : nat) (v result last_val : var) (local_rscale : Z) : outcome var :=
  match fuel with
  | O => Diverge
  | S f =>
      o <- div_fast_common c v result local_rscale true ;;
      val <- expect o MShouldNotBeZero ;;
      result <- add_common c result val ;;
      result <- mul_common c result ZERO_POINT_FIVE local_rscale ;;
      cmp <- cmp_common c result last_val ;;
      if cmp =? 0 then Ret result else sqrt_loop c f v result result local_rscale
  end.

(** The first guess, var.rs 1579-1589 *)
Definition sqrt_guess (v : var) : outcome var :=
  d <- index (digits v) 0 ;;
  let i := Z.quot d 2 in
  Ret (Var (Z.quot (weight v) 2) 0 SPos [if i =? 0 then 1 else i]).

Definition sqrt_common (c : cfg) (fuel : nat) (v : var) (rscale : Z) : outcome var :=
  dassert c (is_positive v) ;;;
  let local_rscale := rscale + 8 in
  if ndigits v =? 0 then zero_scaled c rscale
  else
    result <- sqrt_guess v ;;
    result <- sqrt_loop c fuel v result result local_rscale ;;
    round_common c result rscale.

(** var.rs 2472-2489 *)
Definition sqrt_rscale (v : var) : Z :=
  let sweight := Z.quot ((weight v + 1) * DEC_DIGITS) 2 - 1 in
  Z.min (Z.max (Z.max (NUMERIC_MIN_SIG_DIGITS - sweight) (dscale v)) NUMERIC_MIN_DISPLAY_SCALE)
        NUMERIC_MAX_DISPLAY_SCALE.

Definition sqrt_var (c : cfg) (fuel : nat) (v : var) : outcome var :=
  dassert c (negb (is_negative v)) ;;;
  dassert c (negb (is_nan v)) ;;;
  sqrt_common c fuel v (sqrt_rscale v).

(** ** Integer powers: var.rs 1619-1761 *)

(** The digit loop var.rs 1668-1675 (its exit condition is the one in the code). *)
Fixpoint pow_digits (ds : list Z) (i : Z) (f : Q) (p : Z) : Q * Z :=
  match ds with
  | [] => (f, p)
  | d :: t =>
      if i * DEC_DIGITS <? 16 then (f, p)
      else pow_digits t (i + 1) (fadd (fmul f (inject_Z NBASE)) (inject_Z d)) (p - DEC_DIGITS)
  end.

(** [(x as f64).ln() as i32] for an i32 [x]: NaN as i32 is 0, -inf as i32 is i32::MIN. *)
Definition ln_i32 (m : libm) (x : Z) : Z :=
  if x <? 0 then 0 else if x =? 0 then I32_MIN else f2i (f_ln m (inject_Z x)).

Inductive pow_exit := PDone (result : var) | POver.

(** The square-and-multiply loop var.rs 1715-1749; an i32 mask has at most 31 bits. *)
Fixpoint pow_loop (c : cfg) (fuel : nat) (mask sig_digits : Z) (base_prod result : var)
  : outcome pow_exit :=
  match fuel with
  | O => Diverge
  | S f =>
      let mask := Z.shiftr mask 1 in
      if mask <=? 0 then Ret (PDone result)
      else
        let local_rscale :=
          Z.max (Z.min (sig_digits - 2 * weight base_prod * DEC_DIGITS) (2 * dscale base_prod))
                NUMERIC_MIN_DISPLAY_SCALE in
        base_prod <- mul_common c base_prod base_prod local_rscale ;;
        result <-
          (if Z.odd mask then
             let local_rscale :=
               Z.max (Z.min (sig_digits - (weight base_prod + weight result) * DEC_DIGITS)
                            (dscale base_prod + dscale result)) NUMERIC_MIN_DISPLAY_SCALE in
             mul_common c base_prod result local_rscale
           else Ret result) ;;
        if (32767 <? weight base_prod) || (32767 <? weight result) then Ret POver
        else pow_loop c f mask sig_digits base_prod result
  end.

Definition power_int (c : cfg) (m : libm) (v : var) (exp rscale : Z) : outcome (option var) :=
  dassert c (negb (is_nan v)) ;;;
  if exp =? 0 then Ret (Some (set_dscale rscale ONE))
  else if exp =? 1 then r <- round_common c v rscale ;; Ret (Some r)
  else if exp =? -1 then o <- div_common c ONE v rscale true ;; r <- expect o MDivZero ;; Ret (Some r)
  else if exp =? 2 then r <- mul_common c v v rscale ;; Ret (Some r)
  else if ndigits v =? 0 then
    assert_msg (0 <=? exp) MDivZero ;;;
    z <- zero_scaled c rscale ;; Ret (Some z)
  else
    d0 <- index (digits v) 0 ;;
    let '(f, p) := pow_digits (tl (digits v)) 1 (inject_Z d0) (weight v * DEC_DIGITS) in
    let f := fmul (inject_Z exp) (fadd (f_log10 m f) (inject_Z p)) in
    if negb (Qle_bool f 393204) then Ret None
    else if negb (Qle_bool (inject_Z (- rscale)) (fadd f 1))
            || negb (Qle_bool (inject_Z (- NUMERIC_MAX_DISPLAY_SCALE)) (fadd f 1))
    then z <- zero_scaled c rscale ;; Ret (Some z)
    else
      let sig_digits := 1 + rscale + f2i f in
      a <- i32 c (Z.abs exp) ;;
      let sig_digits := sig_digits + (ln_i32 m a + 8) in
      let result := if Z.odd a then v else ONE in
      e <- pow_loop c 32 a sig_digits v result ;;
      match e with
      | POver => if exp <? 0 then r <- round_common c ZERO rscale ;; Ret (Some r) else Ret None
      | PDone result =>
          if exp <? 0 then
            o <- div_fast_common c ONE result rscale true ;;
            r <- expect o MDivZero ;; Ret (Some r)
          else r <- round_common c result rscale ;; Ret (Some r)
      end.

(** ** Natural logarithm: var.rs 1764-1833 *)

(** The range reduction loops var.rs 1780-1791 ([keep] is the loop condition). *)
Fixpoint ln_reduce (c : cfg) (fuel sfuel : nat) (keep : var -> outcome bool) (x fact : var) (rscale : Z)
  : outcome (var * var) :=
  match fuel with
  | O => Diverge
  | S f =>
      b <- keep x ;;
      if (b : bool) then
        let local_rscale :=
          Z.max (rscale - Z.quot (weight x * DEC_DIGITS) 2 + 8) NUMERIC_MIN_DISPLAY_SCALE in
        x <- sqrt_common c sfuel x local_rscale ;;
        fact <- mul_common c fact TWO 0 ;;
        ln_reduce c f sfuel keep x fact rscale
      else Ret (x, fact)
  end.

(** The Taylor loop var.rs 1814-1828 *)
Fixpoint ln_series (c : cfg) (fuel : nat) (result xx x ni : var) (local_rscale : Z) : outcome var :=
  match fuel with
  | O => Diverge
  | S f =>
      ni <- add_common c ni TWO ;;
      xx <- mul_common c xx x local_rscale ;;
      o <- div_fast_common c xx ni local_rscale true ;;
      elem <- expect o MDivZero ;;
      if ndigits elem =? 0 then Ret result
      else
        result <- add_common c result elem ;;
        if weight elem <? weight result - Z.quot (local_rscale * 2) DEC_DIGITS then Ret result
        else ln_series c f result xx x ni local_rscale
  end.

Definition ln_common (c : cfg) (fuel : nat) (v : var) (rscale : Z) : outcome var :=
  dassert c (negb (is_nan v)) ;;;
  (if dbg c then s <- cmp_common c v ZERO ;; dassert c (0 <? s) else Ret tt) ;;;
  '(x, fact) <- ln_reduce c fuel fuel (fun x => s <- cmp_common c x ZERO_POINT_NINE ;; Ret (s <=? 0)) v TWO rscale ;;
  '(x, fact) <- ln_reduce c fuel fuel (fun x => s <- cmp_common c x ONE_POINT_ONE ;; Ret (0 <=? s)) x fact rscale ;;
  let local_rscale := rscale + 8 in
  result <- sub_common c x ONE ;;
  elem <- add_common c x ONE ;;
  o <- div_fast_common c result elem local_rscale true ;;
  result <- expect o MDivZero ;;
  x <- mul_common c result result local_rscale ;;
  result <- ln_series c fuel result result x ONE local_rscale ;;
  mul_common c result fact rscale.

(** f64 constants *)
Definition LN_10 : Q := fl (230258509299404568401799145468436421 # 100000000000000000000000000000000000).
Definition LOG10_E : Q := fl (434294481903251827651128918916605082 # 1000000000000000000000000000000000000).
Definition LOG10_2 : Q := fl (301029995663981195213738894724493027 # 1000000000000000000000000000000000000).

(** [x.log10() as i32] of a double [x] >= 0 (log10 0 is -inf). *)
Definition log10_i32 (m : libm) (x : Q) : Z :=
  if Qeq_bool x 0 then I32_MIN else f2i (f_log10 m x).

(** var.rs 1840-1884 *)
Definition estimate_ln_dweight (c : cfg) (m : libm) (v : var) : outcome Z :=
  dassert c (negb (is_nan v)) ;;;
  lo <- cmp_common c v ZERO_POINT_NINE ;;
  hi <- (if 0 <=? lo then cmp_common c v ONE_POINT_ONE else Ret 1) ;;
  if (0 <=? lo) && (hi <=? 0) then
    x <- sub_common c v ONE ;;
    if 0 <? ndigits x then
      d <- index (digits x) 0 ;;
      i32 c (weight x * DEC_DIGITS + log10_i32 m (inject_Z d))
    else Ret 0
  else if 0 <? ndigits v then
    d0 <- index (digits v) 0 ;;
    '(digits, dweight) <-
      (if 1 <? ndigits v then
         d1 <- index (digits v) 1 ;; Ret (d0 * NBASE + d1, weight v * DEC_DIGITS - DEC_DIGITS)
       else Ret (d0, weight v * DEC_DIGITS)) ;;
    let ln_var := fadd (f_ln m (inject_Z digits)) (fmul (inject_Z dweight) LN_10) in
    Ret (log10_i32 m (Qabs ln_var))
  else Ret 0.

(** [x.max(a).max(b).min(MAX)] of the scale selections *)
Definition clamp_scale (x : Z) : Z :=
  Z.min (Z.max x NUMERIC_MIN_DISPLAY_SCALE) NUMERIC_MAX_DISPLAY_SCALE.

(** var.rs 2496-2512 *)
Definition ln_var (c : cfg) (m : libm) (fuel : nat) (v : var) : outcome var :=
  dassert c (negb (is_nan v)) ;;;
  s <- cmp_common c v ZERO ;;
  assert_msg (negb (s =? 0)) MLogZero ;;;
  assert_msg (0 <? s) MLogNeg ;;;
  dw <- estimate_ln_dweight c m v ;;
  dx <- i32 c (NUMERIC_MIN_SIG_DIGITS - dw) ;;
  ln_common c fuel v (clamp_scale (Z.max dx (dscale v))).

(** var.rs 1888-1922 *)
Definition log_common (c : cfg) (m : libm) (fuel : nat) (v base : var) : outcome var :=
  dassert c (negb (is_nan v)) ;;;
  dassert c (negb (is_nan base)) ;;;
  (if dbg c then s <- cmp_common c v ZERO ;; dassert c (0 <? s) else Ret tt) ;;;
  ln_base_dweight <- estimate_ln_dweight c m base ;;
  ln_num_dweight <- estimate_ln_dweight c m v ;;
  result_dweight <- i32 c (ln_num_dweight - ln_base_dweight) ;;
  dx <- i32 c (NUMERIC_MIN_SIG_DIGITS - result_dweight) ;;
  let rscale := clamp_scale (Z.max (Z.max dx (dscale base)) (dscale v)) in
  a <- i32 c (rscale + result_dweight) ;;
  b1 <- i32 c (a - ln_base_dweight) ;;
  b1 <- i32 c (b1 + 8) ;;
  b2 <- i32 c (a - ln_num_dweight) ;;
  b2 <- i32 c (b2 + 8) ;;
  ln_base <- ln_common c fuel base (Z.max b1 NUMERIC_MIN_DISPLAY_SCALE) ;;
  ln_num <- ln_common c fuel v (Z.max b2 NUMERIC_MIN_DISPLAY_SCALE) ;;
  o <- div_fast_common c ln_num ln_base rscale true ;;
  expect o MDivZero.

(** var.rs 2519-2538 *)
Definition log_var (c : cfg) (m : libm) (fuel : nat) (v base : var) : outcome var :=
  dassert c (negb (is_nan v)) ;;;
  dassert c (negb (is_nan base)) ;;;
  s <- cmp_common c v ZERO ;;
  assert_msg (negb (s =? 0)) MLogZero ;;;
  assert_msg (0 <? s) MLogNeg ;;;
  s <- cmp_common c base ZERO ;;
  assert_msg (negb (s =? 0)) MLogZero ;;;
  assert_msg (0 <? s) MLogNeg ;;;
  log_common c m fuel v base.

(** ** Exponential: var.rs 1927-2017 *)

(** [while val.abs() > 0.01], var.rs 1955-1959 *)
Fixpoint exp_reduce (c : cfg) (fuel : nat) (val : Q) (ndiv2 : Z) (tmp : var) : outcome (Z * var) :=
  match fuel with
  | O => Diverge
  | S f =>
      if negb (Qle_bool (Qabs val) (fl (1 # 100))) then
        tmp <- add_common c tmp tmp ;;
        exp_reduce c f (fdiv val 2) (ndiv2 + 1) tmp
      else Ret (ndiv2, tmp)
  end.

(** [while elem.ndigits != 0], var.rs 1991-1999 *)
Fixpoint exp_series (c : cfg) (fuel : nat) (result elem x ni : var) (local_rscale : Z) : outcome var :=
  match fuel with
  | O => Diverge
  | S f =>
      if ndigits elem =? 0 then Ret result
      else
        result <- add_common c result elem ;;
        elem <- mul_common c elem x local_rscale ;;
        ni <- add_common c ni ONE ;;
        o <- div_fast_common c elem ni local_rscale true ;;
        elem <- expect o MDivZero ;;
        exp_series c f result elem x ni local_rscale
  end.

(** [for _ in 1..=ndiv2], var.rs 2004-2008 *)
Fixpoint exp_square (c : cfg) (k : nat) (result : var) (sig_digits : Z) : outcome var :=
  match k with
  | O => Ret result
  | S k' =>
      let local_rscale :=
        Z.max (sig_digits - weight result * 2 * DEC_DIGITS) NUMERIC_MIN_DISPLAY_SCALE in
      result <- mul_common c result result local_rscale ;;
      exp_square c k' result sig_digits
  end.

Definition exp_common (c : cfg) (m : libm) (fuel : nat) (v : var) (rscale : Z) : outcome (option var) :=
  dassert c (negb (is_nan v)) ;;;
  val <- expect (f_of_var m v) MUnwrap ;;
  if Qle_bool 6000 (Qabs val) then Ret None
  else
    let dweight := f2i (fmul val LOG10_E) in
    '(ndiv2, x) <-
      (if negb (Qle_bool (Qabs val) (fl (1 # 100))) then
         '(ndiv2, tmp) <- exp_reduce c fuel (fdiv val 2) 1 TWO ;;
         o <- div_fast_common c v tmp (dscale v + ndiv2) true ;;
         x <- expect o MDivZero ;;
         Ret (ndiv2, x)
       else Ret (0, v)) ;;
    let sig_digits := 1 + dweight + rscale + f2i (fmul (inject_Z ndiv2) LOG10_2) in
    let sig_digits := Z.max sig_digits 0 + 8 in
    let local_rscale := sig_digits - 1 in
    result <- add_common c ONE x ;;
    elem <- mul_common c x x local_rscale ;;
    o <- div_fast_common c elem TWO local_rscale true ;;
    elem <- expect o MDivZero ;;
    result <- exp_series c fuel result elem x TWO local_rscale ;;
    result <- exp_square c (Z.to_nat ndiv2) result sig_digits ;;
    r <- round_common c result rscale ;;
    Ret (Some r).

(** var.rs 2559-2585 *)
Definition exp_var (c : cfg) (m : libm) (fuel : nat) (v : var) : outcome (option var) :=
  dassert c (negb (is_nan v)) ;;;
  val <- expect (f_of_var m v) MUnwrap ;;
  let val := fmul val LOG10_E in
  let val := if Qle_bool (-2000) val then val else (-2000)%Q in
  let val := if Qle_bool val 2000 then val else 2000%Q in
  let rscale := clamp_scale (Z.max (NUMERIC_MIN_SIG_DIGITS - f2i val) (dscale v)) in
  exp_common c m fuel v rscale.

(** ** Powers: var.rs 2026-2098 and 2595-2625 *)
Definition power_common (c : cfg) (m : libm) (fuel : nat) (v exp : var) : outcome (option var) :=
  dassert c (negb (is_nan v)) ;;;
  dassert c (negb (is_nan exp)) ;;;
  oi <- (if (ndigits exp =? 0) || (ndigits exp <=? weight exp + 1) then
           r <- var_to_signed c 32 exp ;;
           Ret (match r with inl n => Some n | inr _ => None end)
         else Ret None) ;;
  match oi with
  | Some n => power_int c m v n (clamp_scale (Z.max NUMERIC_MIN_SIG_DIGITS (dscale v)))
  | None =>
      s <- cmp_common c v ZERO ;;
      if s =? 0 then z <- zero_scaled c NUMERIC_MIN_SIG_DIGITS ;; Ret (Some z)
      else
        ln_dweight <- estimate_ln_dweight c m v ;;
        dx <- i32 c (8 - ln_dweight) ;;
        let local_rscale := clamp_scale dx in
        ln_base <- ln_common c fuel v local_rscale ;;
        ln_num <- mul_common c ln_base exp local_rscale ;;
        val <- expect (f_of_var m ln_num) MUnwrap ;;
        if negb (Qle_bool (Qabs val) (fmul 2000 (fl (301 # 100)))) then Ret None
        else
          let val := fmul val LOG10_E in
          let rscale := clamp_scale (Z.max (Z.max (NUMERIC_MIN_SIG_DIGITS - f2i val) (dscale v)) (dscale exp)) in
          a <- i32 c (rscale + f2i val - ln_dweight + 8) ;;
          let local_rscale := Z.max a NUMERIC_MIN_DISPLAY_SCALE in
          ln_base <- ln_common c fuel v local_rscale ;;
          ln_num <- mul_common c ln_base exp local_rscale ;;
          exp_common c m fuel ln_num rscale
  end.

Definition pow_var (c : cfg) (m : libm) (fuel : nat) (v exp : var) : outcome (option var) :=
  if is_nan v then
    z <- (if is_nan exp then Ret false else s <- cmp_common c exp ZERO ;; Ret (s =? 0)) ;;
    Ret (Some (if (z : bool) then ONE else nan_var))
  else if is_nan exp then
    s <- cmp_common c v ONE ;;
    Ret (Some (if s =? 0 then ONE else nan_var))
  else
    s <- cmp_common c v ZERO ;;
    se <- (if s =? 0 then cmp_common c exp ZERO else Ret 0) ;;
    if (s =? 0) && (se <? 0) then Panic (WMsg MZeroPowNeg)
    else
      exp_trunc <- trunc_common c exp 0 ;;
      s <- cmp_common c v ZERO ;;
      se <- (if s <? 0 then cmp_common c exp exp_trunc else Ret 0) ;;
      if (s <? 0) && negb (se =? 0) then Panic (WMsg MNegPowFrac)
      else power_common c m fuel v exp.

(** ** Scientific format: var.rs 2187-2236 *)

(** [{:<+03}]: explicit sign, zero padded to three characters in all. *)
Definition fmt_exponent (e : Z) : text :=
  let body := dec_digits 10 (Z.abs e) [] in
  (if e <? 0 then ch_dash else ch_plus) :: repeat ch_0 (Z.to_nat (2 - lenz body)) ++ body.

Definition write_sci (c : cfg) (m : libm) (v : var) (rscale : Z) (lower_exp : bool) : outcome text :=
  if is_nan v then Ret txt_NaN
  else
    let rscale := if rscale <? 0 then 0 else rscale in
    exponent <-
      (if 0 <? ndigits v then
         d <- index (digits v) 0 ;;
         Ret ((weight v + 1) * DEC_DIGITS - (DEC_DIGITS - log10_i32 m (inject_Z d)))
       else Ret 0) ;;
    let denom_scale := if exponent <? 0 then - exponent else 0 in
    o <- power_int c m TEN exponent denom_scale ;;
    denominator <- expect o MMulOverflow ;;
    o <- div_common c v denominator rscale true ;;
    significand <- expect o MDivZero ;;
    s <- write c significand ;;
    Ret (s ++ (if lower_exp then ch_e else ch_E) :: fmt_exponent exponent).

(** ** Public entry points *)

(** num.rs 759-774 *)
Definition num_sqrt (c : cfg) (fuel : nat) (x : bytes) : outcome bytes :=
  nan <- num_is_nan c x ;;
  if (nan : bool) then nan_buf c
  else
    v <- as_var c x ;;
    assert_msg (negb (is_negative v)) MSqrtNeg ;;;
    r <- sqrt_var c fuel v ;; make_result_no_overflow c r.

(** num.rs 781-789 *)
Definition num_ln (c : cfg) (m : libm) (fuel : nat) (x : bytes) : outcome bytes :=
  nan <- num_is_nan c x ;;
  if (nan : bool) then nan_buf c
  else v <- as_var c x ;; r <- ln_var c m fuel v ;; make_result_no_overflow c r.

(** num.rs 796-808 *)
Definition num_log (c : cfg) (m : libm) (fuel : nat) (x base : bytes) : outcome bytes :=
  nx <- num_is_nan c x ;;
  nb <- (if (nx : bool) then Ret true else num_is_nan c base) ;;
  if (nb : bool) then nan_buf c
  else
    v <- as_var c x ;; b <- as_var c base ;;
    r <- log_var c m fuel v b ;; make_result_no_overflow c r.

(** num.rs 814-838 *)
Definition num_log2 (c : cfg) (m : libm) (fuel : nat) (x : bytes) : outcome bytes :=
  nan <- num_is_nan c x ;;
  if (nan : bool) then nan_buf c
  else v <- as_var c x ;; r <- log_var c m fuel v TWO ;; make_result_no_overflow c r.
Definition num_log10 (c : cfg) (m : libm) (fuel : nat) (x : bytes) : outcome bytes :=
  nan <- num_is_nan c x ;;
  if (nan : bool) then nan_buf c
  else v <- as_var c x ;; r <- log_var c m fuel v TEN ;; make_result_no_overflow c r.

(** num.rs 845-853 *)
Definition num_exp (c : cfg) (m : libm) (fuel : nat) (x : bytes) : outcome (option bytes) :=
  nan <- num_is_nan c x ;;
  if (nan : bool) then b <- nan_buf c ;; Ret (Some b)
  else v <- as_var c x ;; o <- exp_var c m fuel v ;; make_result_opt c o.

(** num.rs 863-872 *)
Definition num_pow (c : cfg) (m : libm) (fuel : nat) (x exp : bytes) : outcome (option bytes) :=
  v <- as_var c x ;; e <- as_var c exp ;;
  o <- pow_var c m fuel v e ;;
  match o with
  | None => Ret None
  | Some r => if is_nan r then b <- nan_buf c ;; Ret (Some b) else make_result c r
  end.

(** num.rs 992-1008 and 245-262: LowerExp / UpperExp *)
Definition num_sci (c : cfg) (m : libm) (x : bytes) (lower_exp : bool) : outcome text :=
  v <- as_var c x ;; rscale <- select_sci_scale c v ;; write_sci c m v rscale lower_exp.
