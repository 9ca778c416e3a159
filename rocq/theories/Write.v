(** * Write: formatting into a [fmt::Write] that may refuse (src/var.rs 2103-2235, src/num.rs, src/typmod.rs).

    [Format.v] and [Transc.v] say which text is written. Here the same code is modelled with the calls it
    makes on the writer, in order, and with the [?] after each. The formatter flags (width, fill, sign,
    precision) are not an argument: the code calls write_str, write_char and write! on the formatter, which go
    to the writer behind it and do not consult them. *)
From Coq Require Import ZArith QArith List Bool.
From Verif Require Import Base Var Binary Format Typmod Num Flt Transc.
Import ListNotations.
Open Scope Z_scope.

(** One call: write_char or write_str. *)
Inductive piece := Ch (ch : Z) | St (t : text).
(** A writer with state [S]: whether it accepts the piece, and its state afterwards. *)
Definition writer (S : Type) := S -> piece -> bool * S.
(** Code that writes: a panic, or [fmt::Result] ([true] is Ok). *)
Definition W (S : Type) := S -> outcome bool * S.

Definition put {S} (w : writer S) (p : piece) : W S := fun s => let '(ok, s) := w s p in (Ret ok, s).
Definition done {S} : W S := fun s => (Ret true, s).
(** [a?; b] *)
Definition wthen {S} (a b : W S) : W S :=
  fun s => match a s with (Ret true, s) => b s | r => r end.
Definition wbind {S A} (o : outcome A) (k : A -> W S) : W S :=
  fun s => match o with
           | Ret a => k a s
           | Panic y => (Panic y, s)
           | UB => (UB, s)
           | Diverge => (Diverge, s)
           end.

Fixpoint put_all {S} (w : writer S) (ps : list piece) : W S :=
  match ps with [] => done | p :: t => wthen (put w p) (put_all w t) end.

(** core::fmt, Formatter::pad_integral without width: the sign, then the digits *)
Definition put_int {S} (w : writer S) (d : Z) : W S :=
  wthen (if d <? 0 then put w (Ch ch_dash) else done) (put w (St (dec_digits 10 (Z.abs d) []))).
(** with width and the flag [0]: the sign, the padding one character at a time, the digits *)
Definition put_pad {S} (w : writer S) (width d : Z) : W S :=
  let body := dec_digits 10 (Z.abs d) [] in
  let sg := if d <? 0 then [ch_dash] else [] in
  wthen (put_all w (map Ch sg)) (wthen (put_all w (map Ch (repeat ch_0 (Z.to_nat (width - lenz sg - lenz body))))) (put w (St body))).
(** [{:<+03}] *)
Definition put_exponent {S} (w : writer S) (e : Z) : W S :=
  let body := dec_digits 10 (Z.abs e) [] in
  wthen (put w (Ch (if e <? 0 then ch_dash else ch_plus)))
        (wthen (put_all w (map Ch (repeat ch_0 (Z.to_nat (2 - lenz body))))) (put w (St body))).

(** var.rs 2120-2135 *)
Fixpoint put_int_part {S} (c : cfg) (w : writer S) (k : nat) (d : Z) (ds : list Z) : W S :=
  match k with
  | O => done
  | S k' =>
      let dig := digit_or_zero ds d in
      wbind (dassert c (0 <=? dig)) (fun _ =>
      wthen (if 0 <? d then put_pad w DEC_DIGITS dig else put_int w dig)
            (put_int_part c w k' (d + 1) ds))
  end.
(** var.rs 2147-2165 *)
Fixpoint put_frac_part {S} (w : writer S) (k : nat) (scale d dsc : Z) (ds : list Z) : W S :=
  match k with
  | O => done
  | S k' =>
      let dig := digit_or_zero ds d in
      wthen (if scale + DEC_DIGITS <=? dsc then put_pad w DEC_DIGITS dig
             else let width := dsc - scale in
                  put_pad w width (div10 (Z.to_nat (DEC_DIGITS - width)) dig))
            (put_frac_part w k' (scale + DEC_DIGITS) (d + 1) dsc ds)
  end.
(** var.rs 2103-2170: NumericVar::write *)
Definition write_to {S} (c : cfg) (w : writer S) (v : var) : W S :=
  if is_nan v then put w (St txt_NaN)
  else
    wthen (if sgn_eqb (sign v) SNeg then put w (Ch ch_dash) else done)
   (wthen (if weight v <? 0 then put w (Ch ch_0) else put_int_part c w (Z.to_nat (weight v + 1)) 0 (digits v))
          (if 0 <? dscale v then
             wthen (put w (Ch ch_dot))
                   (put_frac_part w (Z.to_nat (Z.quot (dscale v + 3) 4)) 0 (weight v + 1) (dscale v) (digits v))
           else done)).

(** var.rs 2187-2235: NumericVar::write_sci; everything is computed before the first character is written *)
Definition write_sci_to {S} (c : cfg) (m : libm) (w : writer S) (v : var) (rscale : Z) (lower_exp : bool) : W S :=
  if is_nan v then put w (St txt_NaN)
  else
    let rscale := if rscale <? 0 then 0 else rscale in
    wbind (if 0 <? ndigits v then
             d <- index (digits v) 0 ;;
             Ret ((weight v + 1) * DEC_DIGITS - (DEC_DIGITS - log10_i32 m (inject_Z d)))
           else Ret 0) (fun exponent =>
    let denom_scale := if exponent <? 0 then - exponent else 0 in
    wbind (o <- power_int c m TEN exponent denom_scale ;; expect o MMulOverflow) (fun denominator =>
    wbind (o <- div_common c v denominator rscale true ;; expect o MDivZero) (fun significand =>
    wthen (write_to c w significand)
   (wthen (put w (St [if lower_exp then ch_e else ch_E]))
          (put_exponent w exponent))))).

(** num.rs 238-243, 985-990: Display; num.rs 245-261, 992-1008: LowerExp, UpperExp *)
Definition num_display_to {S} (c : cfg) (w : writer S) (x : bytes) : W S :=
  wbind (as_var c x) (write_to c w).
Definition num_sci_to {S} (c : cfg) (m : libm) (w : writer S) (x : bytes) (lower : bool) : W S :=
  wbind (as_var c x) (fun v => wbind (select_sci_scale c v) (fun rscale => write_sci_to c m w v rscale lower)).

(** typmod.rs 114-120: Display of Typmod, [write!(f, "({}, {})", precision, scale)] *)
Definition typmod_display_to {S} (c : cfg) (w : writer S) (t : Z) : W S :=
  wbind (typmod_extract c t) (fun '(precision, scale) =>
    wthen (put w (St [40])) (wthen (put_int w precision) (wthen (put w (St [44; 32])) (wthen (put_int w scale) (put w (St [41])))))).
