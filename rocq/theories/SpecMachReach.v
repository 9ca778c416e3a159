(** * SpecMachReach: everything a program can do with the numeric API, at the level of the machine (C98).

    [held b]: a NumericBuf the program can own. [seen x]: the bytes of a number it can read: a constant, a number handed in
    from outside (from storage or the wire, in the documented layout), or one it owns. [call o]: [o] is the outcome of a
    call that delivers a number or nothing ([Ret None]), with numbers the program can read as arguments.
    [a], [u] and [b] stand for what freshly allocated memory contains; [fuel] bounds loops the code leaves unbounded. *)
From Coq Require Import ZArith QArith Qabs List.
From Verif Require Import Base Var Binary Parse Convert Num Data Spec SpecApi SpecText SpecDouble SpecLibm SpecPow SpecLn SpecFloat SpecData SpecMach Flt Float Transc ConvertApi Mach MachText MachFast MachPow MachLn MachExp
  MachFrac MachMut MachRest MachFloat.
Import ListNotations.
Open Scope Z_scope.

(** the number of a result that may be an error *)
Definition got {E} (r : outcome (pbuf + E)) : outcome (option pbuf) :=
  x <- r ;; match x with inl b => Ret (Some b) | inr _ => Ret None end.

(** what is assumed of the platform's log10, ln, text to f64 conversion and snprintf *)
Definition sound_system (m : libm) (pf : platform) : Prop :=
  log10_sound (f_log10 m) /\ log10_fine (f_log10 m) /\ ln_between (f_ln m) /\ logs_near (f_log10 m) (f_ln m) /\ float_sound m /\
  snprintf_sound (p_snprintf pf).

Section Reach.
Variables (c : cfg) (m : libm) (pf : platform).

Inductive held : pbuf -> Prop :=
| h_call o b : call o -> o = Ret (Some b) -> held b
| h_step a op b r b' : held b -> (forall y, In y (operands op) -> seen y) -> m_step c a op (Some b) = (r, Some b') -> held b'
with seen : bytes -> Prop :=
| s_nan : seen (numeric_nan c)
| s_zero : seen (numeric_zero c)
| s_outside n : canonical n -> seen (layout (be_varlen c) n)
| s_held b x : held b -> m_as_bytes c b = Ret x -> seen x
with call : outcome (option pbuf) -> Prop :=
(** from text, integers and floats *)
| c_nan a : call (some_buf (m_nan_buf c a))
| c_parse a s : len s < 2 ^ 30 - 8 -> call (got (m_from_str c a s))
| c_signed a bits k : int_width bits -> - 2 ^ (bits - 1) <= k < 2 ^ (bits - 1) -> call (some_buf (m_num_from_signed c a bits k))
| c_unsigned a bits k : int_width bits -> 0 <= k < 2 ^ bits -> call (some_buf (m_num_from_unsigned c a bits k))
| c_f32 a u f : (forall q, f = FNum q -> finite_in binary32 q) -> call (got (m_num_from_f32 c a u pf f))
| c_f64 a u f : (forall q, f = FNum q -> finite_in binary64 q) -> call (got (m_num_from_f64 c a u pf f))
| c_factorial a n : n < 2 ^ 63 -> call (m_num_factorial c a n)
(** arithmetic *)
| c_add a x y : seen x -> seen y -> call (m_checked_add c a x y)
| c_sub a x y : seen x -> seen y -> call (m_checked_sub c a x y)
| c_mul a x y : seen x -> seen y -> call (m_checked_mul c a x y)
| c_div a x y : seen x -> seen y -> call (m_checked_div c a x y)
| c_div_trunc a x y : seen x -> seen y -> call (m_checked_div_trunc c a x y)
| c_rem a x y : seen x -> seen y -> call (m_checked_rem c a x y)
| c_op_add a x y : seen x -> seen y -> call (some_buf (m_op_add c a x y))
| c_op_sub a x y : seen x -> seen y -> call (some_buf (m_op_sub c a x y))
| c_op_mul a x y : seen x -> seen y -> call (some_buf (m_op_mul c a x y))
| c_op_div a x y : seen x -> seen y -> call (some_buf (m_op_div c a x y))
| c_op_rem a x y : seen x -> seen y -> call (some_buf (m_op_rem c a x y))
(** sign, rounding, copies *)
| c_negate a x : seen x -> call (m_num_negate c a x)
| c_abs a x : seen x -> call (m_num_abs c a x)
| c_signum a x : seen x -> call (m_num_signum c a x)
| c_inc a x : seen x -> call (m_num_inc c a x)
| c_ceil a x : seen x -> call (m_num_ceil c a x)
| c_floor a x : seen x -> call (m_num_floor c a x)
| c_round a x k : seen x -> call (m_num_round c a x k)
| c_trunc a x k : seen x -> call (m_num_trunc c a x k)
| c_to_owned a x : seen x -> call (some_buf (m_num_to_owned c a x))
(** roots, logarithms and powers; the base of a logarithm not within 10^-1980 of one, that of a power with an exponent
    that is not an i32 one itself or not within 10^-990 of it *)
| c_sqrt a fuel x : seen x -> call (some_buf (m_num_sqrt c a fuel x))
| c_ln b fuel x : seen x -> call (some_buf (m_num_ln c b m fuel x))
| c_log b fuel x y : seen x -> seen y -> (forall p s, stores (be_varlen c) y p s -> (ten ^ (-1980) <= Qabs (p - 1))%Q) ->
    call (some_buf (m_num_log c b m fuel x y))
| c_log2 b fuel x : seen x -> call (some_buf (m_num_log2 c b m fuel x))
| c_log10 b fuel x : seen x -> call (some_buf (m_num_log10 c b m fuel x))
| c_exp b fuel x : 4000 <= Z.of_nat fuel -> seen x -> call (m_num_exp c b m fuel x)
| c_pow a b fuel x e : 4000 <= Z.of_nat fuel -> seen x -> seen e ->
    (forall q s p se, stores (be_varlen c) x q s -> stores (be_varlen c) e p se -> (forall n, (p == inject_Z n)%Q -> ~ (-2147483648 <= n < 2147483648)) ->
       (q == 1)%Q \/ (ten ^ (-990) <= Qabs (q - 1))%Q) ->
    call (m_num_pow c a m (m_power_frac c b m fuel) x e).
End Reach.
(** a call that delivers something other than a number: never a panic, never undefined behaviour *)
Definition delivers {A} (o : outcome A) : Prop := exists y, o = Ret y.
