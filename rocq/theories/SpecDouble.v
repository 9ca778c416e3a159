(** * SpecDouble: floating-point values, rounding to a binary format and to significant decimal digits,
    and what the theorems about float conversions assume of libc's snprintf and of the strtod crate.

    This file does not mention the model. *)
From Coq Require Import ZArith QArith Qabs Qpower List Bool.
From Verif Require Import Spec SpecText SpecLibm.
Import ListNotations.
Open Scope Z_scope.

(** A float. The two zeros are not distinguished. *)
Inductive fval := FNaN | FInf (neg : bool) | FNum (q : Q).

(** A binary format: bits of precision, exponent of the least positive value, and values below
    2^[f_emax]. *)
Record format := Format { f_prec : Z; f_emin : Z; f_emax : Z }.
Definition binary32 := Format 24 (-149) 128.
Definition binary64 := Format 53 (-1074) 1024.

(** m * 2^e with at most [f_prec] bits, e at least [f_emin] and no upper limit *)
Definition on_grid (F : format) (q : Q) : Prop :=
  exists m e, Z.abs m < 2 ^ f_prec F /\ f_emin F <= e /\ (q == inject_Z m * 2 ^ e)%Q.

(** The finite values of a format. *)
Definition finite_in (F : format) (q : Q) : Prop := on_grid F q /\ (Qabs q < 2 ^ f_emax F)%Q.

Definition nearest (F : format) (q f : Q) : Prop :=
  on_grid F f /\ forall g, on_grid F g -> (Qabs (f - q) <= Qabs (g - q))%Q.

(** [r] is [q] rounded to the format: the nearest value (either one in case of a tie), or infinity
    when that is out of range. *)
Definition rounds_to (F : format) (q : Q) (r : fval) : Prop :=
  match r with
  | FNaN => False
  | FNum f => nearest F q f /\ (Qabs f < 2 ^ f_emax F)%Q
  | FInf n => exists f, nearest F q f /\ (2 ^ f_emax F <= Qabs f)%Q /\ (n = true <-> (f < 0)%Q)
  end.

(** [r] is [f] rounded to [p] significant decimal digits (either way in case of a tie). *)
Definition significant (p : Z) (f r : Q) : Prop :=
  ((f == 0)%Q /\ (r == 0)%Q) \/
  exists e k, (ten ^ e <= Qabs f)%Q /\ (Qabs f < ten ^ (e + 1))%Q /\
    (Qabs (inject_Z k - f * ten ^ (p - 1 - e)) <= 1 # 2)%Q /\
    (r == inject_Z k * ten ^ (e - p + 1))%Q.

(** The least number of decimals that can express [r]. *)
Definition expressible (r : Q) (s : Z) : Prop := exists k, (r * ten ^ s == inject_Z k)%Q.
Definition least_scale (r : Q) (s : Z) : Prop :=
  0 <= s /\ expressible r s /\ forall s', 0 <= s' -> expressible r s' -> s <= s'.

(** [q] has at most [p] significant decimal digits. *)
Definition has_digits (p : Z) (q : Q) : Prop := exists k e, Z.abs k < 10 ^ p /\ (q == inject_Z k * ten ^ e)%Q.

(** A double that the cast to f32 turns into an infinity or, not being zero, into zero. *)
Definition f32_lost (f : Q) : Prop := (2 ^ 128 - 2 ^ 103 <= Qabs f)%Q \/ (~ (f == 0)%Q /\ (Qabs f <= 2 ^ (-150))%Q).

(** The text C's "%.pg" prints for the finite double [f] (C11 7.21.6.1): [p] significant digits, in plain
    notation if the exponent of the rounded value is in -4 .. p-1 and in scientific notation otherwise,
    without trailing zeros. The two zeros print as "0" and "-0". *)
Definition g_text (p : Z) (f : Q) (t : list Z) : Prop :=
  ((f == 0)%Q /\ (t = [48] \/ t = [45; 48])) \/
  (~ (f == 0)%Q /\ exists r x, significant p f r /\ (ten ^ x <= Qabs r)%Q /\ (Qabs r < ten ^ (x + 1))%Q /\
     (if (-4 <=? x) && (x <? p) then shortest_text t r else sci_text t r 101)).

Definition snprintf_sound (fmt : Z -> Q -> list Z) : Prop :=
  forall p f, p = 6 \/ p = 15 -> finite_in binary64 f -> g_text p f (fmt p f).

(** strtod reads every plain decimal text, and rounds to nearest. *)
Definition strtod_sound (rd : list Z -> option fval) : Prop :=
  forall t q s, plain_text t q s -> exists r, rd t = Some r /\ rounds_to binary64 q r.
