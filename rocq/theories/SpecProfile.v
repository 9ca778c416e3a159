(** * SpecProfile: what "a debug build only adds checks" means *)
From Coq Require Import ZArith List Bool.
From Verif Require Import Base.
Import ListNotations.

(** A check that only debug builds have fired: arithmetic overflow or a debug assertion. *)
Definition trapped {A} (a : outcome A) : Prop := a = Panic WArith \/ a = Panic WAssert.

(** The release build does the same as the debug build: same result, same panic, same
    non-termination, unless the debug build trapped (or had already left defined behaviour). *)
Definition agree {A} (debug release : outcome A) : Prop :=
  trapped debug \/ debug = UB \/ release = debug.

(** The same for an operation in place: outcome and buffer afterwards. *)
Definition agree_mut {A B} (debug release : outcome A * B) : Prop :=
  trapped (fst debug) \/ fst debug = UB \/ release = debug.
