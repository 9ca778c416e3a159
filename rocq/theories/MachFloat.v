(** * MachFloat: convert.rs, float conversions, at the level of the machine: the C buffer of the conversion from a float, and
    the conversions to a float through the machine-level text output. libc's snprintf and strtod are parameters as in Float.v. *)
From Coq Require Import ZArith QArith List Bool.
From Verif Require Import Base Var Binary Format Parse Convert Flt SpecDouble Float Data Mach MachText MachMut.
Import ListNotations.
Open Scope Z_scope.

(** convert.rs 295, 311-317: snprintf(dest, size, ...) writes at most [size - 1] bytes of the text and a NUL to [dest], which
    has to have room for them. (C11 7.21.6.5) *)
Definition c_snprintf (dest : list Z) (size : Z) (s : text) : outcome (list Z) :=
  let written := firstn (Z.to_nat (size - 1)) s ++ [0] in
  if lenz dest <? lenz written then UB else Ret (written ++ skipn (length written) dest).
(** convert.rs 318: CStr::from_ptr reads up to the first NUL; running off the buffer is undefined behaviour. *)
Fixpoint c_str (mem : list Z) : outcome text :=
  match mem with
  | [] => UB
  | b :: t => if b =? 0 then Ret [] else r <- c_str t ;; Ret (b :: r)
  end.
(** convert.rs 310: an uninitialised array of BUF_SIZE bytes; [u] is what it happens to contain. *)
Definition c_buf (u : nat -> Z) : list Z := map u (seq 0 (Z.to_nat BUF_SIZE)).

(** convert.rs 297-323: from_floating *)
Definition m_from_floating (c : cfg) (a : nat -> nat -> Z) (u : nat -> Z) (pf : platform) (precision : Z) (f : fval)
  : outcome (pbuf + conv_error) :=
  match f with
  | FNaN => b <- m_nan_buf c (a 9%nat) ;; Ret (inl b)
  | FInf _ => Ret (inr CInvalid)
  | FNum q =>
      buf <- c_snprintf (c_buf u) BUF_SIZE (p_snprintf pf precision q) ;;
      s <- c_str buf ;;
      r <- m_from_str c a s ;;
      match r with
      | inl b => Ret (inl b)
      | inr e => Ret (inr (of_parse_error e))
      end
  end.
(** convert.rs 289-290, 398-412 *)
Definition m_num_from_f32 (c : cfg) a u (pf : platform) (f : fval) := m_from_floating c a u pf 6 f.
Definition m_num_from_f64 (c : cfg) a u (pf : platform) (f : fval) := m_from_floating c a u pf 15 f.

(** convert.rs 648-667: TryFrom<&NumericVar> for f64 *)
Definition m_var_to_f64 (c : cfg) (pf : platform) (p : pvar) : outcome (fval + conv_error) :=
  if m_nan p then Ret (inl FNaN)
  else
    t <- m_write c p ;;
    match p_strtod pf t with
    | Some f => Ret (inl f)
    | None => Ret (inr COverflow)
    end.
(** convert.rs 622-646: TryFrom<&NumericVar> for f32 *)
Definition m_var_to_f32 (c : cfg) (pf : platform) (p : pvar) : outcome (fval + conv_error) :=
  if m_nan p then Ret (inl FNaN)
  else
    t <- m_write c p ;;
    match p_strtod pf t with
    | Some d =>
        let f := as_f32 d in
        if (is_infinite f && negb (is_infinite d)) || (is_zero_f f && negb (is_zero_f d))
        then Ret (inr COverflow)
        else Ret (inl f)
    | None => Ret (inr COverflow)
    end.
(** convert.rs 708-735: from &Numeric and &NumericBuf (as_var), and from NumericBuf (into_var) *)
Definition m_num_to_f64 (c : cfg) (pf : platform) (x : bytes) := p <- m_as_var c x ;; m_var_to_f64 c pf p.
Definition m_num_to_f32 (c : cfg) (pf : platform) (x : bytes) := p <- m_as_var c x ;; m_var_to_f32 c pf p.
Definition m_buf_to_f64 (c : cfg) (pf : platform) (b : pbuf) := p <- m_owned c b ;; m_var_to_f64 c pf p.
Definition m_buf_to_f32 (c : cfg) (pf : platform) (b : pbuf) := p <- m_owned c b ;; m_var_to_f32 c pf p.
