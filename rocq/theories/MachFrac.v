(** * MachFrac: powers with a fractional exponent, statement by statement (see MachExp.v). [b s k j] is the content of the [j]-th
    allocation of loop [k] of stage [s]. *)
From Coq Require Import ZArith QArith Qabs List Bool.
From Verif Require Import Base Var Binary Parse Num Flt Transc Data Mach MachText MachFast MachPow MachLn MachExp.
Import ListNotations.
Open Scope Z_scope.

(** var.rs 2047-2097: the rest of [power_common], for exponents that are not integers of type i32 (m_power_common in MachPow.v) *)
Definition m_power_frac (c : cfg) (b : nat -> nat -> nat -> nat -> Z) (m : libm) (fuel : nat) (p exp : pvar) : outcome (option pvar) :=
  s <- m_cmp_common c p m_zero ;;
  if s =? 0 then z <- m_zero_scaled c NUMERIC_MIN_SIG_DIGITS ;; Ret (Some z)
  else
    ln_dweight <- m_estimate_ln_dweight c (b 0%nat 0%nat 0%nat) m p ;;
    t <- i32 c (8 - ln_dweight) ;;
    let local_rscale := Z.min (Z.max t NUMERIC_MIN_DISPLAY_SCALE) NUMERIC_MAX_DISPLAY_SCALE in
    ln_base <- m_ln_common c (b 1%nat) fuel p local_rscale ;;
    ln_num <- m_mul_common c (b 0%nat 0%nat 1%nat) ln_base exp local_rscale ;;
    val <- m_to_f64 c m ln_num ;;
    if negb (Qle_bool (Qabs val) (fmul 2000 (fl (301 # 100)))) then Ret None
    else
      let val := fmul val LOG10_E in
      t <- i32 c (NUMERIC_MIN_SIG_DIGITS - f2i val) ;;
      let rscale := Z.min (Z.max (Z.max (Z.max t (p_dscale p)) (p_dscale exp)) NUMERIC_MIN_DISPLAY_SCALE) NUMERIC_MAX_DISPLAY_SCALE in
      t <- i32 c (rscale + f2i val) ;;
      t <- i32 c (t - ln_dweight) ;;
      t <- i32 c (t + 8) ;;
      let local_rscale := Z.max t NUMERIC_MIN_DISPLAY_SCALE in
      ln_base <- m_ln_common c (b 2%nat) fuel p local_rscale ;;
      ln_num <- m_mul_common c (b 0%nat 0%nat 2%nat) ln_base exp local_rscale ;;
      m_exp_common c (b 3%nat) m fuel ln_num rscale.
