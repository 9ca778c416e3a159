# Formal model of cod-technologies/pgnumeric in Rocq (Coq 8.16.1)

The crate is a port of PostgreSQL's `numeric.c`: arbitrary precision decimals stored as base-10000
digits in a byte layout that is also the on-disk format. The model, its specification and the proofs
are in `rocq/theories`; the statements to read are in the files `P_*.v` (one theorem per claim, with
examples that meet its hypotheses) and in the specification files `Spec*.v`.

## 1. The model

* **Configuration.** Every model function takes `cfg = {dbg; be_varlen}`. `dbg = true`: the
  `debug_assert!`s and the arithmetic overflow checks are on and panic; `dbg = false`: assertions
  are off and fixed-width arithmetic wraps. `be_varlen` is the cargo feature `big-endian-varlen`.
  Theorems quantify over `cfg` unless they name a profile.
* **Outcomes.** `outcome A = Ret a | Panic why | UB | Diverge`: return, Rust panic with its cause,
  undefined behaviour (out-of-bounds unsafe access, null dereference), loop out of fuel. Functions
  whose loops are bounded by their input are structurally recursive and have no fuel; the loops with
  no bound in the code (square root iteration, ln/exp series, factorial, repeated squaring) take a
  `fuel` and return `Diverge` when it runs out. Theorems hold for every fuel, or for every fuel
  above a stated bound. "Never panics, memory safe, terminates" is thus part of every statement
  `f c x = Ret r`.
* **Variables.** `var` is `NumericVar` at the logical level (weight, scale, sign, list of digits).
  Digit, carry and accumulator arithmetic is checked/wrapping i16/i32 as in the code; weight, scale
  and index arithmetic is in `Z` (simplification; for add, sub, mul, div, rem, round, trunc, ceil, floor
  and cmp it is proved sound: `Mach.v` transcribes them with checked machine integers, indices and
  uninitialised buffers, and agrees, C87; `MachText.v` does the same for parsing, integer conversions and text
  output, C88, `MachFast.v` for fast division and square root, C89, `MachPow.v` for integer powers and scientific notation, C90, `MachLn.v` for logarithms, C91, `MachExp.v` for exp, C92, `MachFrac.v` for the remaining powers, C93, `MachMut.v` for in-place operations, operators and typmods, C94, `MachRest.v` for signs, factorials, keys, hashes and by-value integer conversions, C95, and `MachFloat.v` for float conversions, C96; `SpecMachReach.v` composes them into programs, C98); the parser and typmods, which see arbitrary i32s, use checked i32.
* **Stored numbers.** `Numeric`/`NumericBuf` are byte lists; every header and digit read is bounds
  checked, a read outside is `UB`. A mutable `NumericBuf` is an `option bytes`, `None` being the null
  buffer `as_var_owned` leaves behind.
* **Buffers.** `Data.v` models the physical buffer (16-bit words with arbitrary initial contents,
  capacity, offset, spare carry digit, header slot) for the in-place operations, and refines the
  logical level (C20, C65, C66). `Heap.v` puts these buffers into a memory with explicit allocation and
  release, and refines `Data.v` (C82).
* **Floating point.** `Flt.v` is IEEE binary64 arithmetic over rationals: exact operation, then round
  to nearest even on 53 bits. Simplification: unbounded exponent range.
* **Platform.** `f64::log10`, `f64::ln` and the numeric-to-double conversion are the fields of a
  `libm` record over which theorems quantify, under explicit hypotheses (section 4).

| file | models |
|------|--------|
| Base.v | profiles, outcomes, fixed-width arithmetic, checked and unchecked slices |
| Var.v | var.rs: add, sub, mul, div, div_trunc, rem, round, trunc, ceil, floor, cmp, strip, factorial |
| Binary.v | binary.rs and the header code of data.rs/var.rs: encode, decode, accessors |
| Format.v | var.rs write, normalize, sci scale selection |
| Parse.v | parse.rs |
| Typmod.v | typmod.rs, apply_typmod |
| Convert.v | convert.rs, all integer conversions and bool |
| Num.v | num.rs and ops.rs entry points: operators, checked_*, *_mut, *_assign, Ord, Eq, Hash, serde, Clone |
| Flt.v, Transc.v | var.rs fast division, sqrt, power_int, power_common, ln, log, exp, write_sci and their num.rs entry points |
| Mach.v | var.rs and data.rs a second time, statement by statement on machine integers, indexed arrays and uninitialised buffers: add, sub, mul, div, rem, round, trunc, ceil, floor, cmp, strip, into_numeric_buf, make_result |
| MachText.v | parse.rs, convert.rs (integers) and the text output of var.rs a second time, on machine integers and indexed buffers |
| MachFast.v | fast division and square root of var.rs a second time, on machine integers and indexed buffers |
| MachPow.v | integer powers and scientific notation of var.rs a second time, on machine integers and indexed buffers |
| MachLn.v | ln, log, log2 and log10 of var.rs a second time, on machine integers and indexed buffers |
| MachExp.v, MachFrac.v | exp and fractional powers of var.rs a second time, on machine integers and indexed buffers |
| MachMut.v | owned buffers (num.rs 67-199), typmods and the operators of ops.rs a second time, on machine integers and indexed buffers |
| MachRest.v | negate, abs, signum, inc, factorial, normalize, Hash, by-value integer conversions a second time, on machine integers and indexed buffers |
| MachFloat.v | convert.rs float conversions a second time, with the 128-byte C buffer as memory |
| Data.v | data.rs, the buffer-level code of var.rs/num.rs, Drop and Debug |
| Heap.v | the same buffers as blocks of memory: allocation, reallocation, release, unwinding, clones |
| Write.v | Display, LowerExp, UpperExp, Display of Typmod as calls on a writer that may refuse |
| Float.v | convert.rs float conversions, with snprintf and strtod as parameters |
| Errors.v | error.rs: the texts of errors |

## 2. The specification

Statements use only `Spec*.v` and the entry points of the model.

* Spec.v: `number` (sign, weight, scale, base-10000 digits), `value : number -> Q`,
  `canonical` (no zero digit at either end, scale and weight in range, digits consistent with the
  scale), `layout` (the stored bytes, with `+ * mod`, no bit operations), `round_at`, `limit`.
* SpecApi.v: `stores c x q s` (bytes `x` are the canonical layout of value `q` at scale `s`),
  `stores_nan`, `valid`, `result_of`, `order_of`, `div_scale`, `quotient_weight`, `factorial`.
* SpecText.v: literal grammar (`literal_text`), its value and scale, plain decimal text.
* SpecRoot.v, SpecLn.v: error bounds of sqrt and ln. SpecPow.v: the leading digit of a base, and what
  C52 assumes of log10 and ln. SpecSerde.v: which byte strings are complete.
  SpecData.v: buffer contents and layouts. SpecHeap.v: programs over several buffers. SpecWrite.v: what a writer sees. SpecProfile.v: agreement of profiles.
  SpecMachReach.v: programs over the whole API. SpecFormula.v: formulas, their exact meaning and how they run.
* SpecDouble.v: binary formats, rounding to nearest, significant digits, and what `%.*g` and strtod do.
* SpecLibm.v, SpecFloat.v, SpecLn.v (`logs_near`), SpecDouble.v: what is assumed of the platform.

## 3. Properties

"proved" for a property whose natural expectation is false of the code means: the statement in
properties.jsonl describes what the code does, that exact behaviour is proved, and a theorem named
`_refuted` proves the counterexample to the expectation. "partial" is kept where the property as
stated is false and no exact characterisation is proved (none at present).

@@TABLE@@

## 4. Trusted base

1. **Coq 8.16.1's kernel** (and `coqchk`, which re-checks every file), including `vm_compute` for a
   few concrete evaluations. No axiom of ours, no `Admitted`, no functor or module type, no plugin.
2. **Print Assumptions.** Every theorem of `P_*.v` prints "Closed under the global context", except
   the ones over the reals: C03 (through ln and log), C64, C67, C68, C69, C70, C74-C81, C85, C86, C91-C93, which rest on the standard library's
   `ClassicalDedekindReals.sig_not_dec`, `ClassicalDedekindReals.sig_forall_dec`,
   `FunctionalExtensionality.functional_extensionality_dep` and `Classical_Prop.classic`
   (the axioms of Coq's `Reals`). `Print Assumptions` commands sit beside the theorems.
3. **Hypotheses on the platform**, which appear in the theorem statements:
   `log10_sound` (C34, C59, C90, C93, C98: f64::log10 of a power-of-ten-bounded argument has the right integer
   part), `ln_sound`, `log10_fine`, `ln_between` (C52, C90, C93, C98: log10 of 1..9999 right to
   1e-13, ln within 0.69..0.7 per bit), `logs_near` (C67, C75-C81, C85, C91, C93, C98: f64::ln and f64::log10 within 1e-9), `float_sound` (C56, C68,
   C69, C78-C81, C86, C92, C93, C98: numeric-to-double conversion near its argument, exact on integers; C74 derives it from
   `strtod_sound`), `snprintf_sound` (C71, C73, C96, C97, C98: what C11 says of `%.*g`), `strtod_sound` (C72, C73, C96, C97, C98,
   C74: a plain decimal text is read and rounded to nearest). Each is shown to be satisfiable by an instance
   (LibmSample.v and the examples in P_*.v).
4. **The reading of the Rust**: that the definitions, each citing file and lines, mean what rustc
   makes of the cited code. Not compared by execution (no toolchain in the sandbox).

### Not modelled

* the bodies of `snprintf` (libc) and of the `strtod` crate; f64 overflow, subnormals, infinities in
  the internal double arithmetic (the values there are 0 or between 1e-17 and 1e31);
* `Formatter` flags (width, fill, sign, precision) of Display, `{:e}`, `{:E}`: the code does not
  consult them, so the model has none; of core::fmt, how integers are padded and in which pieces they
  are written is taken from its source (Write.v);
* serde formats: a format is assumed to hand back the string or bytes it was given;
* alignment of the `&NumericBinary` reference, and Rust's rule that a reference covers its whole
  type (a 6-byte number is viewed through an 8-byte struct); references to uninitialised memory that
  is not read;
* allocation failure, and `Vec::with_capacity` rounding the capacity up (C65);
* big-endian hosts; 32-bit `usize` limits;
* threads: no operation shares mutable state, so there is no schedule to quantify over;
* crate features other than `big-endian-varlen` and serde; the benches and tests.

## 5. Findings

Each is a theorem named `…_refuted` (or stated exactly in the property):

1. apply_typmod does not keep NaN (C22). 2. round_mut/apply_typmod leave a null buffer when rounding
   carries out of range; using it is UB (C23). 3. `"0e131072"` is reported as overflow (C30).
   4. `{:e}` panics below 1e-1001 (C59). 5. pow on integer exponents loses digits, pow(1.9, 128) is off
   by more than 900000 (C52, which also bounds the loss in general). 6. exponent i32::MIN (C53). 7. negative base with an integer exponent
   outside i32 panics or hangs (C62). 8. deserializing untrusted bytes reads out of bounds (C44).
   9. zero times a number overflows when the scales add up to more than 16383 (C46). 10. sqrt
   overflows an i32 in debug builds (C55). 11. exp(x) is None for x <= -6000 (C56). 12. sqrt can loop
   forever (C57). 13. sqrt below 1e-2020 panics (C58). 14. NumericBuf is freed with another alignment
   than it was allocated with (C65). 15. Debug of a fresh buffer prints uninitialised memory (C66).
   16. f32 from a numeric is an overflow error at 10^39 but Ok(infinity) at 10^309, and an overflow
   error at 10^-46 but Ok(0) at 10^-324 (C72). 17. log of a number within 10^-1020 of one panics with
   division by zero for bases from 1.1 to 1.5 (C77). 18. a fractional power between 10^-2600 and 10^-1020 of a base near one
   is returned as exactly 1, pow(0.8, 12000.5) = 1 (C81); fractional powers below 10^-2620 are None (C79).
   19. the default Typmod displays as "(65535, 65531)" (C84).

## 6. Wrong programs

`seeded/LOG.jsonl` has one line per mutation of the model tried in a scratch copy: the definition,
the edit, the claim it breaks, the theorems that failed to compile, what was tightened.
`tools/mutate.py` applies and rebuilds them; `tools/manifest.py` regenerates MANIFEST.json.
