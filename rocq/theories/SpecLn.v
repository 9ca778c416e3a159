(** * SpecLn: the accuracy stated for ln, and what its scale selection assumes of f64::ln and f64::log10.

    This file does not mention the model. *)
From Coq Require Import Reals ZArith QArith Qreals.
Open Scope R_scope.

(** How far the result, kept to [scale] decimals, may be from the exact logarithm [l]: half a unit in
    the last place, plus 3/10000 of one for the last multiplication, plus a part that grows with the
    logarithm and the scale (10^-8 of a unit is what the eight guard digits leave). *)
Definition ln_error (scale : Z) (l : R) : R :=
  (5003 / 10000 + (1 + 23 * Rabs l) * (IZR scale + 10) / 100000000) * powerRZ 10 (- scale).

(** The platform's logarithms are right to 10^-9 (a double carries some sixteen digits). *)
Record logs_near (log10 ln_f : Q -> Q) : Prop := {
  near_ln : forall a, (1 <= a < 100000000)%Z -> Rabs (Q2R (ln_f (inject_Z a)) - ln (IZR a)) <= / 1000000000;
  near_log10 : forall q, (0 < q)%Q -> Rabs (Q2R (log10 q) - ln (Q2R q) / ln 10) <= / 1000000000
}.
