(** * Heap: who owns, frees and loses which allocation (src/data.rs, src/num.rs, src/var.rs).

    [Data.v] models what is in the buffers; there a buffer is a value. Here a buffer is an address in
    a memory, and the model says when memory is allocated, when it is given back and what happens to
    it when a panic unwinds. Freeing a block twice, or with another size than it was allocated with, and
    reading or writing a block that is not allocated, are [UB]. What is done inside a block is taken
    over from [Data.v]. (The alignment handed to the allocator is the subject of C65, not of this file.) *)
From Coq Require Import ZArith List Bool.
From Verif Require Import Base Var Binary Typmod Data.
Import ListNotations.
Open Scope Z_scope.

Definition addr := Z.
(** The live allocations: address and words. Addresses are not reused (simplification: a stale pointer
    never meets a new block, so that a use after free shows as [UB]). *)
Record mem := Mem { blocks : list (addr * list Z); next : addr }.

(** Functions that may change a state of type [S], also when they panic. *)
Definition M (S A : Type) := S -> outcome A * S.
Definition again {A B} (o : outcome A) (b : outcome B) : outcome B :=
  match o with Ret _ => b | Panic w => Panic w | UB => UB | Diverge => Diverge end.
Definition mbind {S A B} (x : M S A) (f : A -> M S B) : M S B :=
  fun s => match x s with (Ret a, s) => f a s | (o, s) => (again o UB, s) end.
Definition mret {S A} (a : A) : M S A := fun s => (Ret a, s).
Definition lift {S A} (o : outcome A) : M S A := fun s => (o, s).
Notation "x <~ m ;; k" := (mbind m (fun x => k)) (at level 61, m at next level, right associativity).
Notation "m ~;; k" := (mbind m (fun _ => k)) (at level 61, right associativity).

(** ** The allocator *)
Fixpoint find (p : addr) (l : list (addr * list Z)) : option (list Z) :=
  match l with [] => None | (q, w) :: t => if q =? p then Some w else find p t end.
Fixpoint remove (p : addr) (l : list (addr * list Z)) : list (addr * list Z) :=
  match l with [] => [] | (q, w) :: t => if q =? p then t else (q, w) :: remove p t end.

(** Vec::<i16>::with_capacity(n) and mem::forget *)
Definition malloc (w : list Z) : M mem addr :=
  fun m => (Ret (next m), Mem ((next m, w) :: blocks m) (next m + 1)).
(** dropping the Vec rebuilt by from_raw_parts(p, 0, capacity): [bytes] are given back *)
Definition free (p : addr) (bytes : Z) : M mem unit :=
  fun m => match find p (blocks m) with
           | Some w => if bytes =? lenz w * 2 then (Ret tt, Mem (remove p (blocks m)) (next m)) else (UB, m)
           | None => (UB, m)
           end.
Definition store (p : addr) (w : list Z) : M mem unit :=
  fun m => match find p (blocks m) with
           | Some w' => if lenz w =? lenz w' then (Ret tt, Mem ((p, w) :: remove p (blocks m)) (next m)) else (UB, m)
           | None => (UB, m)
           end.

(** ** NumericData (data.rs 26-36) *)
Record hdata := HData { h_ptr : option addr; h_len : Z; h_off : Z }.
Definition null_data : hdata := HData None 0 0.

(** data.rs 93-102: buf_free; also Drop, data.rs 239-244 *)
Definition buf_free : M (hdata * mem) unit :=
  fun '(d, m) =>
    match h_ptr d with
    | None => (Ret tt, (d, m))
    | Some p => let '(o, m) := free p (h_len d * 2) m in (o, (HData None (h_len d) (h_off d), m))
    end.

(** data.rs 74-91: buf_alloc *)
Definition buf_alloc (c : cfg) (a : nat -> Z) (n : Z) : M (hdata * mem) unit :=
  lift (dassert c (0 <=? n)) ~;;
  buf_free ~;;
  fun '(d, m) =>
    let len := n + NUMERIC_HEADER_NDIGITS + 1 in
    let '(o, m) := malloc (alloc a len) m in
    match o with
    | Ret p => (Ret tt, (HData (Some p) len (NUMERIC_HEADER_NDIGITS + 1), m))
    | _ => (again o UB, (d, m))
    end.

(** The buffer as a slice of [len] words (data.rs 153-180). [UB] unless [len] is the size of the block. *)
Definition view (d : hdata) (m : mem) : outcome data :=
  match h_ptr d with
  | None => UB
  | Some p => match find p (blocks m) with
              | Some w => if h_len d =? lenz w then Ret (Data w (h_off d)) else UB
              | None => UB
              end
  end.

(** Code of [Data.v] that works inside the buffer: it may change words and the offset. *)
Definition inside {A} (f : data -> outcome (A * data)) : M (hdata * mem) A :=
  fun '(d, m) =>
    match (v <- view d m ;; f v) with
    | Ret (x, d') =>
        match h_ptr d with
        | Some p => let '(o, m) := store p (words d') m in (again o (Ret x), (HData (h_ptr d) (h_len d) (off d'), m))
        | None => (UB, (d, m))
        end
    | o => (again o UB, (d, m))
    end.

(** A local NumericData: dropped if [f] panics, otherwise moved to the caller. *)
Definition local {A} (f : M (hdata * mem) A) (d : hdata) : M mem (A * hdata) :=
  fun m => match f (d, m) with
           | (Ret x, (d, m)) => (Ret (x, d), m)
           | (Panic w, s) => let '(o, (_, m)) := buf_free s in (again o (Panic w), m)
           | (o, (_, m)) => (again o UB, m)
           end.

(** data.rs 43-53: with_ndigits; data.rs 282-292: NumericDigits::to_owned *)
Definition h_to_owned (c : cfg) (a : nat -> Z) (l : list Z) : M mem hdata :=
  mbind (local (lift (dassert c (0 <=? lenz l)) ~;;
                buf_alloc c a (lenz l) ~;;
                inside (fun d => d <- copy_in c d l ;; Ret (tt, d))) null_data)
        (fun '(_, d) => mret d).

(** data.rs 182-197: reserve_rounding_digit; data.rs 104-122: buf_copy *)
Definition h_reserve (c : cfg) (a : nat -> Z) (n : Z) : M (hdata * mem) unit :=
  lift (dassert c (0 <? n)) ~;;
  fun '(d, m) =>
    if h_off d <=? NUMERIC_HEADER_NDIGITS then
      match (v <- view d m ;; buf_copy c a v n) with
      | Ret d' =>
          let '(o, m) := malloc (words d') m in
          match o with
          | Ret p =>
              let '(o, (_, m)) := buf_free (d, m) in
              (again o (Ret tt), (HData (Some p) (n + NUMERIC_HEADER_NDIGITS + 1) (off d'), m))
          | _ => (again o UB, (d, m))
          end
      | o => (again o UB, (d, m))
      end
    else (Ret tt, (d, m)).

(** ** NumericVar (var.rs 107-114) *)
Inductive hcow := HBorrowed (l : list Z) | HOwned (d : hdata).
Record hvar := HVar { h_nd : Z; h_weight : Z; h_dscale : Z; h_sign : sgn; h_cow : hcow }.
Definition with_cow (k : hcow) (v : hvar) : hvar := HVar (h_nd v) (h_weight v) (h_dscale v) (h_sign v) k.
Definition modify {S} (f : S -> S) : M (S * mem) unit := fun '(v, m) => (Ret tt, (f v, m)).
Definition asks {S A} (f : S -> A) : M (S * mem) A := fun '(v, m) => (Ret (f v), (v, m)).

(** Dropping a variable drops the data it owns. *)
Definition drop_var : M (hvar * mem) unit :=
  fun '(v, m) =>
    match h_cow v with
    | HBorrowed _ => (Ret tt, (v, m))
    | HOwned d => let '(o, (d, m)) := buf_free (d, m) in (o, (with_cow (HOwned d) v, m))
    end.

(** Cow::to_mut *)
Definition to_mut (c : cfg) (a : nat -> Z) : M (hvar * mem) unit :=
  fun '(v, m) =>
    match h_cow v with
    | HBorrowed l =>
        let '(o, m) := h_to_owned c a l m in
        match o with
        | Ret d => (Ret tt, (with_cow (HOwned d) v, m))
        | _ => (again o UB, (v, m))
        end
    | HOwned _ => (Ret tt, (v, m))
    end.
(** a method of the owned data *)
Definition on_data {A} (f : M (hdata * mem) A) : M (hvar * mem) A :=
  fun '(v, m) =>
    match h_cow v with
    | HOwned d => let '(o, (d, m)) := f (d, m) in (o, (with_cow (HOwned d) v, m))
    | HBorrowed _ => (UB, (v, m))
    end.

(** var.rs 266-330: what round_common does inside the buffer; gives [ndigits] at the end of the carry. *)
Definition round_inside (c : cfg) (self_nd nd di : Z) (d : data) : outcome (Z * data) :=
  dassert c ((NUMERIC_HEADER_NDIGITS <? off d) || (self_nd =? 0)) ;;;
  ds <- slice c d self_nd ;;
  '(nd', carry, w) <-
    (if di =? 0 then
       x <- index ds nd ;;
       Ret (nd, (if HALF_NBASE <=? x then 1 else 0), words d)
     else
       pow10 <- index ROUND_POWERS di ;;
       dassert c ((0 <=? nd - 1) && (nd - 1 <? lenz ds)) ;;;
       x <- get_unchecked ds (nd - 1) ;;
       let extra := Z.rem x pow10 in
       x' <- i16 c (x - extra) ;;
       w <- set_unchecked (words d) (off d + (nd - 1)) x' ;;
       if Z.quot pow10 2 <=? extra then
         q <- i16 c (pow10 + x') ;;
         if NBASE <=? q then
           w <- set_unchecked w (off d + (nd - 1)) (q - NBASE) ;; Ret (nd - 1, 1, w)
         else w <- set_unchecked w (off d + (nd - 1)) q ;; Ret (nd - 1, 0, w)
       else Ret (nd - 1, 0, w)) ;;
  dassert c (NUMERIC_HEADER_NDIGITS <? off d) ;;;
  w <- set_checked w (off d - 1) 0 ;;
  '(w, nd') <- carry_loop c (Z.to_nat nd' + 3) w (off d) nd' carry ;;
  if nd' <? 0 then
    dassert c (nd' =? -1) ;;;
    dassert c (0 <? off d) ;;;
    dassert c (1 <=? off d) ;;;
    Ret (nd', Data w (off d - 1))
  else Ret (nd', Data w (off d)).

(** var.rs 240-330: round_common *)
Definition h_round_common (c : cfg) (a : nat -> Z) (rscale : Z) : M (hvar * mem) unit :=
  v <~ asks (fun v => v) ;;
  lift (dassert c (negb (sgn_eqb (h_sign v) SNaN))) ~;;
  let di := (h_weight v + 1) * DEC_DIGITS + rscale in
  if di <? 0 then modify (fun v => HVar 0 0 rscale SPos (h_cow v))
  else
    let nd := Z.quot (di + DEC_DIGITS - 1) DEC_DIGITS in
    let di := Z.rem di DEC_DIGITS in
    if (nd <? h_nd v) || ((nd =? h_nd v) && (0 <? di)) then
      to_mut c a ~;;
      (if 0 <? h_nd v then on_data (h_reserve c a (h_nd v)) else mret tt) ~;;
      nd' <~ on_data (inside (round_inside c (h_nd v) nd di)) ;;
      if nd' <? 0 then modify (fun v => HVar (nd + 1) (h_weight v + 1) rscale (h_sign v) (h_cow v))
      else modify (fun v => HVar nd (h_weight v) rscale (h_sign v) (h_cow v))
    else modify (fun v => HVar (h_nd v) (h_weight v) rscale (h_sign v) (h_cow v)).

(** var.rs 336-371: trunc_common *)
Definition trunc_inside (c : cfg) (nd di : Z) (d : data) : outcome (unit * data) :=
  ds <- slice c d nd ;;
  pow10 <- index ROUND_POWERS di ;;
  x <- index ds (nd - 1) ;;
  let extra := Z.rem x pow10 in
  x' <- i16 c (x - extra) ;;
  w <- set_checked (words d) (off d + (nd - 1)) x' ;;
  Ret (tt, Data w (off d)).
Definition h_trunc_common (c : cfg) (a : nat -> Z) (rscale : Z) : M (hvar * mem) unit :=
  v <~ asks (fun v => v) ;;
  lift (dassert c (negb (sgn_eqb (h_sign v) SNaN))) ~;;
  let di := (h_weight v + 1) * DEC_DIGITS + rscale in
  if di <=? 0 then modify (fun v => HVar 0 0 rscale SPos (h_cow v))
  else
    let nd := Z.quot (di + DEC_DIGITS - 1) DEC_DIGITS in
    if nd <=? h_nd v then
      let di := Z.rem di DEC_DIGITS in
      (if 0 <? di then to_mut c a ~;; on_data (inside (trunc_inside c nd di)) else mret tt) ~;;
      modify (fun v => HVar nd (h_weight v) rscale (h_sign v) (h_cow v))
    else modify (fun v => HVar (h_nd v) (h_weight v) rscale (h_sign v) (h_cow v)).

(** var.rs 404-433: strip *)
Definition strip_inside (c : cfg) (self_nd weight : Z) (d : data) : outcome ((Z * Z) * data) :=
  ds <- slice c d self_nd ;;
  '(i, w, nd) <- strip_front (Z.to_nat self_nd + 1) ds 0 weight self_nd ;;
  nd <- strip_back (Z.to_nat nd + 1) ds i nd ;;
  dassert c (off d + i <=? lenz (words d)) ;;;
  Ret ((w, nd), Data (words d) (off d + i)).
Definition h_strip (c : cfg) (a : nat -> Z) : M (hvar * mem) unit :=
  to_mut c a ~;;
  v <~ asks (fun v => v) ;;
  r <~ on_data (inside (strip_inside c (h_nd v) (h_weight v))) ;;
  let '(w, nd) := r in
  modify (fun v => HVar nd (if nd =? 0 then 0 else w) (h_dscale v) (if nd =? 0 then SPos else h_sign v) (h_cow v)).

(** ** NumericBuf (num.rs 31-38); [hb_len] in bytes *)
Record hbuf := HBuf { hb_ptr : option addr; hb_len : Z; hb_off : Z }.

(** num.rs 202-212: Drop *)
Definition drop_buf (b : hbuf) : M mem unit :=
  match hb_ptr b with Some p => free p (hb_len b) | None => mret tt end.

(** data.rs 199-237: set_header, inside the buffer; gives the byte offset of the header *)
Definition header_inside (c : cfg) (w ds : Z) (sg : sgn) (nd : Z) (d : data) : outcome (Z * data) :=
  dassert c (0 <=? nd) ;;;
  dassert c (NUMERIC_HEADER_NDIGITS <=? off d) ;;;
  hdr <-
    (if can_be_short w ds then
       h <- short_header c w ds sg ;;
       Ret (encode_len c (NUMERIC_HEADER_SIZE_SHORT + nd * NUMERIC_DIGIT_SIZE) ++ le16 h)
     else
       Ret (encode_len c (NUMERIC_HEADER_SIZE + nd * NUMERIC_DIGIT_SIZE) ++ le16 (long_header ds sg) ++ le16 w)) ;;
  let start := off d - lenz (words_of hdr) in
  if start <? 0 then UB
  else Ret (off d * NUMERIC_DIGIT_SIZE - lenz hdr,
            Data (firstn (Z.to_nat start) (words d) ++ words_of hdr ++ skipn (Z.to_nat (off d)) (words d)) (off d)).

(** num.rs 43-53: NumericBuf::from_raw_parts; a failing assertion loses the block *)
Definition h_from_raw_parts (c : cfg) (b : hbuf) : outcome hbuf :=
  dassert c (match hb_ptr b with Some _ => true | None => false end) ;;;
  dassert c (hb_off b <? hb_len b) ;;; Ret b.

(** A method that consumes its variable: the variable is dropped if [f] panics. *)
Definition consume {A} (f : M (hvar * mem) A) (v : hvar) : M mem (A * hvar) :=
  fun m => match f (v, m) with
           | (Ret x, (v, m)) => (Ret (x, v), m)
           | (Panic w, s) => let '(o, (_, m)) := drop_var s in (again o (Panic w), m)
           | (o, (_, m)) => (again o UB, m)
           end.

(** var.rs 219-234: into_numeric_buf. [into_raw_parts] (data.rs 55-59) forgets the data: only the
    NumericBuf owns the block then. *)
Definition h_into_buf (c : cfg) (a : nat -> Z) (v : hvar) : M mem hbuf :=
  mbind (consume (to_mut c a ~;;
                  on_data (inside (header_inside c (as_i16 (h_weight v)) (Z.land (h_dscale v) 0xFFFF) (h_sign v) (h_nd v)))) v)
        (fun '(o, v') =>
           match h_cow v' with
           | HOwned d => lift (h_from_raw_parts c (HBuf (h_ptr d) (h_len d * NUMERIC_DIGIT_SIZE) o))
           | HBorrowed _ => lift UB
           end).

(** var.rs 2307-2339: make_result_no_overflow, make_result *)
Definition h_make_no_overflow (c : cfg) (a : nat -> Z) (v : hvar) : M mem hbuf :=
  mbind (consume (lift (dassert c (negb (sgn_eqb (h_sign v) SNaN))) ~;;
                  lift (dassert c ((h_weight v <=? NUMERIC_WEIGHT_MAX) || (NUMERIC_WEIGHT_MIN <=? h_weight v)
                                   || (h_dscale v <=? NUMERIC_DSCALE_MAX) || (0 <=? h_dscale v))) ~;;
                  h_strip c a) v)
        (fun '(_, v') => h_into_buf c a v').
Definition h_make_result (c : cfg) (a : nat -> Z) (v : hvar) : M mem (option hbuf) :=
  mbind (consume (lift (dassert c (negb (sgn_eqb (h_sign v) SNaN))) ~;;
                  lift (dassert c (0 <=? h_dscale v)) ~;;
                  if (NUMERIC_WEIGHT_MAX <? h_weight v) || (h_weight v <? NUMERIC_WEIGHT_MIN)
                     || (NUMERIC_DSCALE_MAX <? h_dscale v)
                  then drop_var ~;; mret false
                  else mret true) v)
        (fun '(fits, v') => if fits : bool then b <~ h_make_no_overflow c a v' ;; mret (Some b) else mret None).

(** var.rs 2408-2444, 2342-2353, 2460-2468, 2632-2678: round, trunc, negate, abs, apply_typmod *)
Definition h_set_dscale (s : Z) (v : hvar) : hvar := HVar (h_nd v) (h_weight v) s (h_sign v) (h_cow v).
Definition h_set_sign (s : sgn) (v : hvar) : hvar := HVar (h_nd v) (h_weight v) (h_dscale v) s (h_cow v).
Definition h_round (c : cfg) (a : nat -> Z) (scale : Z) : M (hvar * mem) unit :=
  v <~ asks (fun v => v) ;;
  lift (dassert c (negb (sgn_eqb (h_sign v) SNaN))) ~;;
  let rscale := Z.min (Z.max scale (- NUMERIC_MAX_DISPLAY_SCALE)) NUMERIC_MAX_DISPLAY_SCALE in
  h_round_common c a rscale ~;;
  modify (fun v => if rscale <? 0 then h_set_dscale 0 v else v).
Definition h_trunc (c : cfg) (a : nat -> Z) (scale : Z) : M (hvar * mem) unit :=
  v <~ asks (fun v => v) ;;
  lift (dassert c (negb (sgn_eqb (h_sign v) SNaN))) ~;;
  let rscale := Z.min (Z.max scale (- NUMERIC_MAX_DISPLAY_SCALE)) NUMERIC_MAX_DISPLAY_SCALE in
  h_trunc_common c a rscale ~;;
  modify (fun v => if rscale <? 0 then h_set_dscale 0 v else v).
Definition h_negate (c : cfg) : M (hvar * mem) unit :=
  v <~ asks (fun v => v) ;;
  lift (dassert c (negb (sgn_eqb (h_sign v) SNaN))) ~;;
  modify (fun v => if 0 <? h_nd v then
                     if sgn_eqb (h_sign v) SPos then h_set_sign SNeg v
                     else if sgn_eqb (h_sign v) SNeg then h_set_sign SPos v
                     else v
                   else v).
Definition h_abs (c : cfg) : M (hvar * mem) unit :=
  v <~ asks (fun v => v) ;;
  lift (dassert c (negb (sgn_eqb (h_sign v) SNaN))) ~;;
  modify (fun v => if sgn_eqb (h_sign v) SNeg then h_set_sign SPos v else v).
(** var.rs 213-216: NumericVar::digits *)
Definition h_digits (c : cfg) : M (hvar * mem) (list Z) :=
  fun '(v, m) =>
    ((l <- (match h_cow v with
            | HBorrowed l => Ret l
            | HOwned d => d <- view d m ;; slice c d (lenz (words d) - off d)
            end) ;;
      if (h_nd v <? 0) || (lenz l <? h_nd v) then Panic WBounds else Ret (firstn (Z.to_nat (h_nd v)) l)), (v, m)).
Definition h_apply_typmod_var (c : cfg) (a : nat -> Z) (t : Z) : M (hvar * mem) bool :=
  if t <? VAR_HEADER_SIZE then mret false
  else
    ps <~ lift (typmod_extract c t) ;;
    let '(precision, scale) := ps in
    let max_digits := precision - scale in
    h_round_common c a scale ~;;
    v <~ asks (fun v => v) ;;
    let ddigits := (h_weight v + 1) * DEC_DIGITS in
    if max_digits <? ddigits then ds <~ h_digits c ;; mret (typmod_scan ds ddigits max_digits)
    else mret false.

(** ** Methods of NumericBuf *)
(** the bytes behind the pointer *)
Definition hview (b : hbuf) (m : mem) : outcome pbuf :=
  match hb_ptr b with
  | None => UB
  | Some p => match find p (blocks m) with
              | Some w => if hb_len b =? lenz w * 2 then Ret (PBuf w (hb_off b)) else UB
              | None => UB
              end
  end.
Definition h_deref (c : cfg) (b : hbuf) (m : mem) : outcome bytes := b <- hview b m ;; as_bytes c b.

(** num.rs 171-199: as_var_owned takes the pointer out of the buffer, into_var (ManuallyDrop) makes a
    variable of it. A panic in into_var would lose the block. *)
Definition h_into_var (c : cfg) (b : hbuf) (m : mem) : outcome hvar :=
  b <- h_from_raw_parts c b ;;
  pb <- hview b m ;;
  p <- p_into_var c pb ;;
  match p_cow p with
  | Owned d => Ret (HVar (p_nd p) (p_weight p) (p_dscale p) (p_sign p)
                         (HOwned (HData (hb_ptr b) (Z.quot (hb_len b) NUMERIC_DIGIT_SIZE) (off d))))
  | Borrowed _ => UB
  end.

(** as_var_owned, [f] on the variable, then [g] consumes it: what it gives replaces [*self], the old
    value of which (null) is dropped; without a result the buffer stays null. A panic drops the variable. *)
Definition taken {A} (c : cfg) (f : M (hvar * mem) A) (g : hvar -> M mem (option hbuf)) : M (hbuf * mem) (A * bool) :=
  fun '(b, m) =>
    let null := HBuf None (hb_len b) (hb_off b) in
    match h_into_var c b m with
    | Ret v =>
        match consume f v m with
        | (Ret (x, v), m) =>
            match g v m with
            | (Ret (Some y), m) => let '(o, m) := drop_buf null m in (again o (Ret (x, true)), (y, m))
            | (Ret None, m) => (Ret (x, false), (null, m))
            | (o, m) => (again o UB, (null, m))
            end
        | (o, m) => (again o UB, (null, m))
        end
    | o => (again o UB, (null, m))
    end.
Definition h_unless_nan (c : cfg) (k : M (hbuf * mem) bool) : M (hbuf * mem) bool :=
  fun '(b, m) =>
    match (x <- h_deref c b m ;; num_is_nan c x) with
    | Ret true => (Ret false, (b, m))
    | Ret false => k (b, m)
    | o => (again o UB, (b, m))
    end.
Definition some {S A} (x : M S A) : M S (option A) := y <~ x ;; mret (Some y).

(** num.rs 67-151 (the boolean is that of apply_typmod, false otherwise) *)
Definition h_negate_mut (c : cfg) (a : nat -> Z) : M (hbuf * mem) bool :=
  h_unless_nan c (taken c (h_negate c) (fun v => some (h_into_buf c a v)) ~;; mret false).
Definition h_abs_mut (c : cfg) (a : nat -> Z) : M (hbuf * mem) bool :=
  h_unless_nan c (fun '(b, m) =>
    match (x <- h_deref c b m ;; num_is_negative c x) with
    | Ret true => (taken c (h_abs c) (fun v => some (h_into_buf c a v)) ~;; mret false) (b, m)
    | Ret false => (Ret false, (b, m))
    | o => (again o UB, (b, m))
    end).
Definition h_round_mut (c : cfg) (a : nat -> Z) (scale : Z) : M (hbuf * mem) bool :=
  h_unless_nan c (r <~ taken c (h_round c a scale) (h_make_result c a) ;;
                  if snd r : bool then mret false else lift (Panic (WMsg MOverflow))).
Definition h_trunc_mut (c : cfg) (a : nat -> Z) (scale : Z) : M (hbuf * mem) bool :=
  h_unless_nan c (taken c (h_trunc c a scale) (fun v => some (h_make_no_overflow c a v)) ~;; mret false).
Definition h_apply_typmod (c : cfg) (a : nat -> Z) (t : Z) : M (hbuf * mem) bool :=
  r <~ taken c (h_apply_typmod_var c a t) (h_make_result c a) ;;
  mret (fst r || negb (snd r)).

(** num.rs 214-219: Clone, num.rs 964-976: to_owned. The digits are borrowed from the number, then copied. *)
Definition h_copy (c : cfg) (a : nat -> Z) (x : bytes) : M mem hbuf :=
  v <~ lift (as_var c x) ;;
  h_into_buf c a (HVar (ndigits v) (weight v) (dscale v) (sign v) (HBorrowed (digits v))).
Definition h_clone (c : cfg) (a : nat -> Z) (b : hbuf) : M mem hbuf :=
  fun m => match h_deref c b m with Ret x => h_copy c a x m | o => (again o UB, m) end.

(** A result of arithmetic or parsing: digits written into a fresh buffer (var.rs 118-127), make_result. *)
Definition h_computed (c : cfg) (a : nat -> Z) (v : var) : M mem (option hbuf) :=
  d <~ h_to_owned c a (digits v) ;;
  h_make_result c a (HVar (ndigits v) (weight v) (dscale v) (sign v) (HOwned d)).
