(** * SpecSerde: what a byte string given to the deserializer says about itself. *)
From Coq Require Import ZArith List.
Import ListNotations.
Open Scope Z_scope.

Definition byte_at (x : list Z) (i : nat) : Z := nth i x 0.

(** the length prefix: 30 bits, above two flag bits in a little-endian word or below them in a big-endian one *)
Definition declared_len (be : bool) (x : list Z) : Z :=
  if be then (byte_at x 0 * 256 ^ 3 + byte_at x 1 * 256 ^ 2 + byte_at x 2 * 256 + byte_at x 3) mod 2 ^ 30
  else (byte_at x 0 + byte_at x 1 * 256 + byte_at x 2 * 256 ^ 2 + byte_at x 3 * 256 ^ 3) / 4.

(** the kind of header, its top two bits: 0 positive, 1 negative, 2 short, 3 NaN *)
Definition header_kind (x : list Z) : Z := (byte_at x 4 + byte_at x 5 * 256) / 2 ^ 14.
Definition kind_size (k : Z) : Z := if k <? 2 then 8 else 6.

(** all the bytes the string says it has are there *)
Definition all_there (be : bool) (x : list Z) : Prop :=
  6 <= Z.of_nat (length x) /\
  (header_kind x = 3 \/
   (kind_size (header_kind x) <= declared_len be x /\
    declared_len be x - (declared_len be x - kind_size (header_kind x)) mod 2 <= Z.of_nat (length x))).
