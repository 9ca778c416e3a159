(** * Spec: what the stored numbers mean.

    This file does not mention the model. It fixes the vocabulary of the property theorems:
    the number a byte string stores, its display scale, the byte layout, rounding. *)
From Coq Require Import ZArith QArith Qround Qpower Qabs List Bool.
Import ListNotations.
Open Scope Z_scope.

(** A number as stored: sign, weight of the first base-10000 digit, display scale, digits. *)
Record number := Number { neg : bool; wt : Z; scale : Z; digs : list Z }.

Definition NB : Q := inject_Z 10000.
Definition ten : Q := inject_Z 10.

(** The rational denoted by digits whose first one has weight [w]: sum of d_i * 10000^(w-i). *)
Fixpoint digits_value (w : Z) (ds : list Z) : Q :=
  match ds with
  | [] => 0%Q
  | d :: t => (inject_Z d * NB ^ w + digits_value (w - 1) t)%Q
  end.

Definition value (n : number) : Q :=
  ((if neg n then -1 else 1) * digits_value (wt n) (digs n))%Q.

(** The representation invariant. *)
Record canonical (n : number) : Prop := {
  canon_digits : Forall (fun d => 0 <= d <= 9999) (digs n);
  canon_first  : forall d t, digs n = d :: t -> d <> 0;
  canon_last   : forall d t, digs n = t ++ [d] -> d <> 0;
  canon_zero   : digs n = [] -> neg n = false /\ wt n = 0;
  canon_weight : -32767 <= wt n <= 32767;
  canon_scale  : 0 <= scale n <= 16383;
  canon_frac   : exists k : Z, (value n * ten ^ scale n == inject_Z k)%Q
}.

(** Magnitudes from here on are not representable: 10000^32768. *)
Definition limit : Q := (NB ^ 32768)%Q.

(** ** Byte layout *)

(** [k] little-endian bytes of [x]. *)
Fixpoint le_bytes (k : nat) (x : Z) : list Z :=
  match k with
  | O => []
  | S k' => x mod 256 :: le_bytes k' (x / 256)
  end.

(** The length word: little-endian [4*len], or big-endian [len] with the
    [big-endian-varlen] feature. *)
Definition len_word (be : bool) (len : Z) : list Z :=
  if be then rev (le_bytes 4 len) else le_bytes 4 (4 * len).

Definition short_form (n : number) : bool :=
  (scale n <=? 63) && (-64 <=? wt n) && (wt n <=? 63).

Definition header (n : number) : list Z :=
  if short_form n
  then le_bytes 2 (32768 + (if neg n then 8192 else 0) + 128 * scale n + wt n mod 128)
  else le_bytes 2 ((if neg n then 16384 else 0) + scale n) ++ le_bytes 2 (wt n mod 65536).

Definition layout (be : bool) (n : number) : list Z :=
  let rest := header n ++ flat_map (le_bytes 2) (digs n) in
  len_word be (4 + Z.of_nat (length rest)) ++ rest.

Definition nan_layout (be : bool) : list Z := len_word be 6 ++ le_bytes 2 49152.

(** Bytes [x] store the rational [q] with display scale [s]. *)
Definition stores (be : bool) (x : list Z) (q : Q) (s : Z) : Prop :=
  exists n, canonical n /\ x = layout be n /\ (value n == q)%Q /\ scale n = s.

Definition stores_nan (be : bool) (x : list Z) : Prop := x = nan_layout be.

(** A well-formed stored numeric. *)
Definition valid (be : bool) (x : list Z) : Prop :=
  stores_nan be x \/ exists q s, stores be x q s.

(** ** Rounding of rationals *)

(** To an integer, halves away from zero; toward zero. *)
Definition round_int (q : Q) : Z :=
  if Qlt_le_dec q 0 then - Qfloor (- q + (1 # 2)) else Qfloor (q + (1 # 2)).

Definition trunc_int (q : Q) : Z :=
  if Qlt_le_dec q 0 then - Qfloor (- q) else Qfloor q.

(** At the [s]-th decimal (tens, hundreds, ... for negative [s]). *)
Definition round_at (q : Q) (s : Z) : Q := (inject_Z (round_int (q * ten ^ s)) * ten ^ (- s))%Q.
Definition trunc_at (q : Q) (s : Z) : Q := (inject_Z (trunc_int (q * ten ^ s)) * ten ^ (- s))%Q.

(** Clamping of a requested scale to [-1000, 1000]. *)
Definition clamp (s : Z) : Z := Z.min (Z.max s (-1000)) 1000.

(** ** Results of operations *)

(** The result of a checked operation whose exact result is [q] with display scale [s]:
    the stored number if it is representable, [None] on overflow. *)
Definition result_of (be : bool) (q : Q) (s : Z) (o : option (list Z)) : Prop :=
  ((Qabs q < limit)%Q -> exists x, o = Some x /\ stores be x q s) /\
  ((limit <= Qabs q)%Q -> o = None).
