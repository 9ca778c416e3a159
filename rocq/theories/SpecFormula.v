(** * SpecFormula: what a formula over the operations means, and how a program runs it (C99). *)
From Coq Require Import ZArith QArith Qabs Qround List.
From Verif Require Import Base Binary Parse Num Data Spec SpecApi SpecText SpecData SpecMach Mach MachText MachMut MachRest SpecMachReach.
Import ListNotations.
Open Scope Z_scope.

Inductive unary := Negate | Abs | Ceil | Floor | Round (k : Z) | Trunc (k : Z).
Inductive binary := Add | Sub | Mul | DivTrunc | Rem.
Inductive formula :=
| Written (s : list Z)          (* a number in a text *)
| Int (k : Z)                   (* an i64 *)
| Unary (u : unary) (f : formula)
| Binary (b : binary) (f g : formula)
| Quotient (f g : formula).      (* division, rounded to the scale the policy prescribes *)

(** ** Meaning: the exact value, and the number of decimals shown *)
Definition unary_value (u : unary) (q : Q) : Q :=
  match u with
  | Negate => - q
  | Abs => Qabs q
  | Ceil => inject_Z (Qceiling q)
  | Floor => inject_Z (Qfloor q)
  | Round k => round_at q (clamp k)
  | Trunc k => trunc_at q (clamp k)
  end.
Definition unary_scale (u : unary) (s : Z) : Z :=
  match u with
  | Negate | Abs => s
  | Ceil | Floor => 0
  | Round k | Trunc k => Z.max 0 (clamp k)
  end.
Definition binary_value (b : binary) (p q : Q) : Q :=
  match b with
  | Add => p + q
  | Sub => p - q
  | Mul => p * q
  | DivTrunc => inject_Z (trunc_int (p / q))
  | Rem => p - inject_Z (trunc_int (p / q)) * q
  end.
Definition binary_scale (b : binary) (s t : Z) : Z :=
  match b with Add | Sub | Rem => Z.max s t | Mul => s + t | DivTrunc => 0 end.
(** products must not need more than 16383 decimals, divisors must not be zero *)
Definition binary_defined (b : binary) (q : Q) (s t : Z) : Prop :=
  match b with Add | Sub => True | Mul => s + t <= 16383 | DivTrunc | Rem => ~ (q == 0)%Q end.

(** [means f q s]: [f] has the exact value [q] and [s] decimals, and no part of it is out of range or undefined *)
Inductive means : formula -> Q -> Z -> Prop :=
| means_written s t l : spaced s t -> literal_text t l -> in_range l -> means (Written s) (literal_value l) (literal_scale l)
| means_int k : means (Int k) (inject_Z k) 0
| means_unary u f q s : means f q s -> (Qabs (unary_value u q) < limit)%Q -> means (Unary u f) (unary_value u q) (unary_scale u s)
| means_binary b f g p q s t : means f p s -> means g q t -> binary_defined b q s t -> (Qabs (binary_value b p q) < limit)%Q ->
    means (Binary b f g) (binary_value b p q) (binary_scale b s t)
| means_quotient f g p q s t n1 n2 : means f p s -> means g q t -> canonical n1 -> canonical n2 ->
    (value n1 == p)%Q -> scale n1 = s -> (value n2 == q)%Q -> scale n2 = t -> ~ (q == 0)%Q ->
    (Qabs (round_at (p / q) (div_scale n1 n2)) < limit)%Q ->
    means (Quotient f g) (round_at (p / q) (div_scale n1 n2)) (div_scale n1 n2).

(** texts shorter than 2^30 - 8 bytes, integers of type i64 *)
Fixpoint writable (f : formula) : Prop :=
  match f with
  | Written s => len s < 2 ^ 30 - 8
  | Int k => - 2 ^ 63 <= k < 2 ^ 63
  | Unary _ f => writable f
  | Binary _ f g | Quotient f g => writable f /\ writable g
  end.

(** somewhere it says NaN *)
Fixpoint has_nan (f : formula) : Prop :=
  match f with
  | Written s => exists t, spaced s t /\ nan_text t
  | Int _ => False
  | Unary _ f => has_nan f
  | Binary _ f g | Quotient f g => has_nan f \/ has_nan g
  end.

(** ** Running it, at the level of the machine: every part gives a NumericBuf (or nothing, and then the whole gives nothing),
    whose bytes the next operation reads. [a] is what the memory allocated at each place of the formula contains. *)
Definition with_bytes (c : cfg) (o : outcome (option pbuf)) (k : bytes -> outcome (option pbuf)) : outcome (option pbuf) :=
  r <- o ;; match r with Some b => x <- m_as_bytes c b ;; k x | None => Ret None end.
Definition m_unary (c : cfg) (a : nat -> nat -> Z) (u : unary) (x : bytes) : outcome (option pbuf) :=
  match u with
  | Negate => m_num_negate c a x
  | Abs => m_num_abs c a x
  | Ceil => m_num_ceil c a x
  | Floor => m_num_floor c a x
  | Round k => m_num_round c a x k
  | Trunc k => m_num_trunc c a x k
  end.
Definition m_binary (c : cfg) (a : nat -> nat -> Z) (b : binary) (x y : bytes) : outcome (option pbuf) :=
  match b with
  | Add => m_checked_add c a x y
  | Sub => m_checked_sub c a x y
  | Mul => m_checked_mul c a x y
  | DivTrunc => m_checked_div_trunc c a x y
  | Rem => m_checked_rem c a x y
  end.
Fixpoint m_eval (c : cfg) (a : list bool -> nat -> nat -> Z) (f : formula) : outcome (option pbuf) :=
  match f with
  | Written s => got (m_from_str c (a []) s)
  | Int k => some_buf (m_num_from_signed c (a []) 64 k)
  | Unary u f => with_bytes c (m_eval c (fun p => a (true :: p)) f) (m_unary c (a []) u)
  | Binary b f g =>
      with_bytes c (m_eval c (fun p => a (true :: p)) f) (fun x =>
      with_bytes c (m_eval c (fun p => a (false :: p)) g) (fun y => m_binary c (a []) b x y))
  | Quotient f g =>
      with_bytes c (m_eval c (fun p => a (true :: p)) f) (fun x =>
      with_bytes c (m_eval c (fun p => a (false :: p)) g) (fun y => m_checked_div c (a []) x y))
  end.

(** the sum of a list, from the right *)
Definition total (l : list formula) : formula := fold_right (Binary Add) (Int 0) l.
