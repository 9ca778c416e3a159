(** * Float: model of src/convert.rs, float conversions.

    libc's snprintf("%.*g") and the strtod crate's strtod are parameters. (Simplification: the code
    passes a usize where C expects the int precision; on the ABIs where that reads as the same value,
    such as x86-64, it is this call.) *)
From Coq Require Import ZArith QArith Qabs Qpower List Bool.
From Verif Require Import Base Var Binary Format Parse Convert Flt SpecDouble.
Import ListNotations.
Open Scope Z_scope.

(** [p_snprintf p f]: the text of "%.pg" for the finite double [f]; [p_strtod]: strtod::strtod. *)
Record platform := Platform { p_snprintf : Z -> Q -> text; p_strtod : text -> option fval }.

(** convert.rs 307: BUF_SIZE *)
Definition BUF_SIZE : Z := 128.

(** error.rs 108-115: From<NumericParseError> *)
Definition of_parse_error (e : parse_error) : conv_error :=
  match e with PEmpty | PInvalid => CInvalid | POverflow => COverflow end.

(** convert.rs 297-323: from_floating. snprintf writes at most BUF_SIZE - 1 bytes and a NUL, at which
    CStr::from_ptr stops. *)
Definition from_floating (c : cfg) (pf : platform) (precision : Z) (f : fval) : outcome (bytes + conv_error) :=
  match f with
  | FNaN => b <- nan_buf c ;; Ret (inl b)
  | FInf _ => Ret (inr CInvalid)
  | FNum q =>
      let s := firstn (Z.to_nat (BUF_SIZE - 1)) (p_snprintf pf precision q) in
      r <- from_str c s ;;
      match r with
      | inl b => Ret (inl b)
      | inr e => Ret (inr (of_parse_error e))
      end
  end.

(** convert.rs 289-290 (PRECISION), 398-412 *)
Definition num_from_f32 (c : cfg) (pf : platform) (f : fval) := from_floating c pf 6 f.
Definition num_from_f64 (c : cfg) (pf : platform) (f : fval) := from_floating c pf 15 f.

(** convert.rs 648-667: TryFrom<&NumericVar> for f64 *)
Definition var_to_f64 (c : cfg) (pf : platform) (v : var) : outcome (fval + conv_error) :=
  if is_nan v then Ret (inl FNaN)
  else
    t <- write c v ;;
    match p_strtod pf t with
    | Some f => Ret (inl f)
    | None => Ret (inr COverflow)
    end.

(** The cast [f64 as f32]: round to nearest, ties to even. *)
Definition rneq (x : Q) : Z := rne (Qnum x) (QDen x).
Definition last_place (F : format) (q : Q) : Z := Z.max (f_emin F) (flexp q + 53 - f_prec F).
Definition to_grid (F : format) (q : Q) : Q :=
  if Qnum q =? 0 then 0%Q
  else let e := last_place F q in (inject_Z (rneq (q * 2 ^ (- e))) * 2 ^ e)%Q.
Definition to_format (F : format) (q : Q) : fval :=
  let r := to_grid F q in
  if Qle_bool (2 ^ f_emax F) (Qabs r) then FInf (Qnum r <? 0) else FNum r.
Definition as_f32 (d : fval) : fval := match d with FNum q => to_format binary32 q | _ => d end.

Definition is_infinite (f : fval) : bool := match f with FInf _ => true | _ => false end.
Definition is_zero_f (f : fval) : bool := match f with FNum q => Qnum q =? 0 | _ => false end.

(** convert.rs 622-646: TryFrom<&NumericVar> for f32 *)
Definition var_to_f32 (c : cfg) (pf : platform) (v : var) : outcome (fval + conv_error) :=
  if is_nan v then Ret (inl FNaN)
  else
    t <- write c v ;;
    match p_strtod pf t with
    | Some d =>
        let f := as_f32 d in
        if (is_infinite f && negb (is_infinite d)) || (is_zero_f f && negb (is_zero_f d))
        then Ret (inr COverflow)
        else Ret (inl f)
    | None => Ret (inr COverflow)
    end.

(** convert.rs 708-735: from &Numeric and &NumericBuf (as_var) and from NumericBuf (into_var) *)
Definition num_to_f64 (c : cfg) (pf : platform) (x : bytes) := v <- as_var c x ;; var_to_f64 c pf v.
Definition num_to_f32 (c : cfg) (pf : platform) (x : bytes) := v <- as_var c x ;; var_to_f32 c pf v.
Definition buf_to_f64 (c : cfg) (pf : platform) (x : bytes) := v <- into_var c x ;; var_to_f64 c pf v.
Definition buf_to_f32 (c : cfg) (pf : platform) (x : bytes) := v <- into_var c x ;; var_to_f32 c pf v.
