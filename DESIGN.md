# Formal model of cod-technologies/pgnumeric in Rocq (Coq 8.16.1)

The crate is a port of PostgreSQL's `numeric.c`: arbitrary precision decimals stored as base-10000
digits in a byte layout that is also the on-disk format. The model, its specification and the proofs
are in `rocq/theories`; the statements to read are in the files `P_*.v` (one theorem per claim, with
examples that meet its hypotheses) and in the specification files `Spec*.v`.

## 1. The model

* **Configuration.** Every model function takes `cfg = {dbg; be_varlen}`. `dbg = true`: the
  `debug_assert!`s and the arithmetic overflow checks are on and panic; `dbg = false`: assertions
  are off and fixed-width arithmetic wraps. `be_varlen` is the cargo feature `big-endian-varlen`.
  Theorems quantify over `cfg` unless they name a profile.
* **Outcomes.** `outcome A = Ret a | Panic why | UB | Diverge`: return, Rust panic with its cause,
  undefined behaviour (out-of-bounds unsafe access, null dereference), loop out of fuel. Functions
  whose loops are bounded by their input are structurally recursive and have no fuel; the loops with
  no bound in the code (square root iteration, ln/exp series, factorial, repeated squaring) take a
  `fuel` and return `Diverge` when it runs out. Theorems hold for every fuel, or for every fuel
  above a stated bound. "Never panics, memory safe, terminates" is thus part of every statement
  `f c x = Ret r`.
* **Variables.** `var` is `NumericVar` at the logical level (weight, scale, sign, list of digits).
  Digit, carry and accumulator arithmetic is checked/wrapping i16/i32 as in the code; weight, scale
  and index arithmetic is in `Z` (simplification; for add, sub, mul, div, rem, round, trunc, ceil, floor
  and cmp it is proved sound: `Mach.v` transcribes them with checked machine integers, indices and
  uninitialised buffers, and agrees, C87; `MachText.v` does the same for parsing, integer conversions and text
  output, C88, `MachFast.v` for fast division and square root, C89, `MachPow.v` for integer powers and scientific notation, C90, `MachLn.v` for logarithms, C91, `MachExp.v` for exp, C92, `MachFrac.v` for the remaining powers, C93, `MachMut.v` for in-place operations, operators and typmods, C94, `MachRest.v` for signs, factorials, keys, hashes and by-value integer conversions, C95, and `MachFloat.v` for float conversions, C96; `SpecMachReach.v` composes them into programs, C98); the parser and typmods, which see arbitrary i32s, use checked i32.
* **Stored numbers.** `Numeric`/`NumericBuf` are byte lists; every header and digit read is bounds
  checked, a read outside is `UB`. A mutable `NumericBuf` is an `option bytes`, `None` being the null
  buffer `as_var_owned` leaves behind.
* **Buffers.** `Data.v` models the physical buffer (16-bit words with arbitrary initial contents,
  capacity, offset, spare carry digit, header slot) for the in-place operations, and refines the
  logical level (C20, C65, C66). `Heap.v` puts these buffers into a memory with explicit allocation and
  release, and refines `Data.v` (C82).
* **Floating point.** `Flt.v` is IEEE binary64 arithmetic over rationals: exact operation, then round
  to nearest even on 53 bits. Simplification: unbounded exponent range.
* **Platform.** `f64::log10`, `f64::ln` and the numeric-to-double conversion are the fields of a
  `libm` record over which theorems quantify, under explicit hypotheses (section 4).

| file | models |
|------|--------|
| Base.v | profiles, outcomes, fixed-width arithmetic, checked and unchecked slices |
| Var.v | var.rs: add, sub, mul, div, div_trunc, rem, round, trunc, ceil, floor, cmp, strip, factorial |
| Binary.v | binary.rs and the header code of data.rs/var.rs: encode, decode, accessors |
| Format.v | var.rs write, normalize, sci scale selection |
| Parse.v | parse.rs |
| Typmod.v | typmod.rs, apply_typmod |
| Convert.v | convert.rs, all integer conversions and bool |
| Num.v | num.rs and ops.rs entry points: operators, checked_*, *_mut, *_assign, Ord, Eq, Hash, serde, Clone |
| Flt.v, Transc.v | var.rs fast division, sqrt, power_int, power_common, ln, log, exp, write_sci and their num.rs entry points |
| Mach.v | var.rs and data.rs a second time, statement by statement on machine integers, indexed arrays and uninitialised buffers: add, sub, mul, div, rem, round, trunc, ceil, floor, cmp, strip, into_numeric_buf, make_result |
| MachText.v | parse.rs, convert.rs (integers) and the text output of var.rs a second time, on machine integers and indexed buffers |
| MachFast.v | fast division and square root of var.rs a second time, on machine integers and indexed buffers |
| MachPow.v | integer powers and scientific notation of var.rs a second time, on machine integers and indexed buffers |
| MachLn.v | ln, log, log2 and log10 of var.rs a second time, on machine integers and indexed buffers |
| MachExp.v, MachFrac.v | exp and fractional powers of var.rs a second time, on machine integers and indexed buffers |
| MachMut.v | owned buffers (num.rs 67-199), typmods and the operators of ops.rs a second time, on machine integers and indexed buffers |
| MachRest.v | negate, abs, signum, inc, factorial, normalize, Hash, by-value integer conversions a second time, on machine integers and indexed buffers |
| MachFloat.v | convert.rs float conversions a second time, with the 128-byte C buffer as memory |
| Data.v | data.rs, the buffer-level code of var.rs/num.rs, Drop and Debug |
| Heap.v | the same buffers as blocks of memory: allocation, reallocation, release, unwinding, clones |
| Write.v | Display, LowerExp, UpperExp, Display of Typmod as calls on a writer that may refuse |
| Float.v | convert.rs float conversions, with snprintf and strtod as parameters |
| Errors.v | error.rs: the texts of errors |

## 2. The specification

Statements use only `Spec*.v` and the entry points of the model.

* Spec.v: `number` (sign, weight, scale, base-10000 digits), `value : number -> Q`,
  `canonical` (no zero digit at either end, scale and weight in range, digits consistent with the
  scale), `layout` (the stored bytes, with `+ * mod`, no bit operations), `round_at`, `limit`.
* SpecApi.v: `stores c x q s` (bytes `x` are the canonical layout of value `q` at scale `s`),
  `stores_nan`, `valid`, `result_of`, `order_of`, `div_scale`, `quotient_weight`, `factorial`.
* SpecText.v: literal grammar (`literal_text`), its value and scale, plain decimal text.
* SpecRoot.v, SpecLn.v: error bounds of sqrt and ln. SpecPow.v: the leading digit of a base, and what
  C52 assumes of log10 and ln. SpecSerde.v: which byte strings are complete.
  SpecData.v: buffer contents and layouts. SpecHeap.v: programs over several buffers. SpecWrite.v: what a writer sees. SpecProfile.v: agreement of profiles.
  SpecMachReach.v: programs over the whole API. SpecFormula.v: formulas, their exact meaning and how they run.
* SpecDouble.v: binary formats, rounding to nearest, significant digits, and what `%.*g` and strtod do.
* SpecLibm.v, SpecFloat.v, SpecLn.v (`logs_near`), SpecDouble.v: what is assumed of the platform.

## 3. Properties

"proved" for a property whose natural expectation is false of the code means: the statement in
properties.jsonl describes what the code does, that exact behaviour is proved, and a theorem named
`_refuted` proves the counterexample to the expectation. "partial" is kept where the property as
stated is false and no exact characterisation is proved (none at present).

| id | property | modelled | how it is proved | status |
|----|----|----|----|----|
| C01 | Binary round trip | Binary.v encode/decode with the code's bit masks; Var.v | `encode v = layout …` and `as_var (layout …) = v` from mask lemmas (Codec.v: `land_mask`, `lor_add`, `word_le_bytes`) | proved |
| C02 | Binary header format choice and size | same | `layout` of Spec.v is written with `+ * mod` only; the header format is a case analysis on scale, weight | proved |
| C03 | Results are canonical, forever | Reach.v: every entry point as an `op`; `reachable` is the closure under histories | induction on the history; each operation's lemma returns a `canonical` number; for exp and pow (Closure.v) only that intermediate digits stay base 10000 is needed, so nothing is assumed of libm | proved |
| C04 | Addition is exact | Var.v add_common, add_abs, sub_abs, cmp_abs | column invariants over scaled integers (AddSub.v), then `strip` and the weight test (Make.v) | proved |
| C05 | Subtraction is exact | same | same | proved |
| C06 | Multiplication is exact | Var.v mul_common with the i32 accumulator | accumulator invariant (Mul.v): the cells sum to the partial product | proved |
| C07 | Multiplication accumulator never overflows | same, arithmetic checked in both profiles | cells bounded by `max_dig * 9999` plus the pending carry bound | proved |
| C08 | Division is correctly rounded | Var.v div_common (Knuth D) | quotient digit within one of the estimate, remainder < divisor; rounding of a truncated quotient with guard digits is the rounding of the quotient (Div.v, DivQ.v) | proved |
| C09 | Division scale policy | select_div_scale | `quotient_weight`, `div_scale` stated over the values in SpecApi.v | proved |
| C10 | Knuth division never overflows or goes out of bounds | div_common, checked arithmetic and indices | loop invariant of the long-division state | proved |
| C11 | Truncating division | div_trunc_common | as C08 with truncation | proved |
| C12 | Remainder identity | rem_common | identity from C11 and exactness of mul/sub | proved |
| C13 | Division by zero | entry points | case analysis | proved |
| C14 | NaN propagation | every entry point | case analysis on the NaN header | proved |
| C15 | Algebraic laws hold bit for bit | entry points | the canonical representation is unique for (value, scale) (`stores_fun`), so algebra in Q transfers | proved |
| C16 | Negation, absolute value, sign, increment | negate, abs, signum, inc | from the codec and addition lemmas | proved |
| C17 | round() rounds half away from zero | round_common | rounding inside a base-10000 digit is `floor((m + half)/unit)`; carry chain invariant (Round.v) | proved |
| C18 | trunc() truncates toward zero | trunc_common | Trunc.v | proved |
| C19 | ceil and floor | ceil_common, floor_common | from C18 and addition of one | proved |
| C20 | In-place operations stay inside their buffer and see no uninitialised memory | Data.v: the physical buffer with capacity, offset, spare digit, header slot | simulation of every logical operation by the buffer-level one (DataSim.v, DataBuf.v) for arbitrary initial memory contents; induction on histories (DataApi.v) | proved |
| C21 | apply_typmod rounds and detects overflow | Typmod.v apply_typmod | rounding lemma plus comparison with `10^(p-s)` | proved |
| C22 | apply_typmod on NaN | apply_typmod on NaN, both profiles | exact case analysis of the decoded NaN variable; the expected behaviour is refuted by a witness | proved |
| C23 | When a mutator leaves the buffer unusable | `&mut` operations on `option bytes`, `None` = buffer lost | exact condition for the lost buffer: the rounded value needs more than the representable range | proved |
| C24 | In-place variants agree with pure variants | `*_mut`, `*_assign` | both sides reduce to the same variable-level function | proved |
| C25 | Typmod constructor round trip | Typmod.v | bit packing | proved |
| C26 | Parser accepts exactly the documented grammar | Parse.v, byte by byte with checked i32 | soundness and completeness against the grammar `literal_text` of SpecText.v by induction on the text | proved |
| C27 | Parsed value is exact | same | digit grouping: value of base-10000 groups equals the decimal value | proved |
| C28 | Parser error classification | same | complement of the grammar | proved |
| C29 | Parser never panics or overflows | same, checked arithmetic | all partial operations discharged by the length bound | proved |
| C30 | Exactly which literals are reported as overflow | same | exact set of literals reported as overflow (ParseOver.v) | proved |
| C31 | Display is the exact decimal expansion | Format.v write | text equals the digit expansion of the exact value; uniqueness of `plain_text` | proved |
| C32 | Display/parse round trip | Format.v, Parse.v | C31 text is a literal of C26 with the same value and scale | proved |
| C33 | normalize() is a canonical key | Format.v normalize | trailing zeros; shortest text | proved |
| C34 | Scientific format is exact | Transc.v write_sci, log10 a parameter | the scale chosen gives an exact quotient by the power of ten; text from C31 | proved |
| C35 | Ordering is the numeric order, total, NaN greatest | cmp_common | comparison of scaled integers; order axioms from Q | proved |
| C36 | Equality ignores scale; Hash is consistent with Eq | hash as the list of write events | equal values give equal event lists | proved |
| C37 | Hash separates distinct values | same | the event list determines the value | proved |
| C38 | Conversion from integers is exact | Convert.v | digit loop invariants | proved |
| C39 | Conversion to integers rounds and range-checks | Convert.v, rounding then checked accumulation | C17 and range analysis of the accumulation loop | proved |
| C40 | Integer round trip | Convert.v | C38 with C39 | proved |
| C41 | Operators are the checked operations | Num.v operators | the panics are exactly the `None`s | proved |
| C42 | Factorial | Num.v factorial | product induction; 32177! fits and 32178! does not by mantissa bounds (FactBound.v) | proved |
| C43 | Serialized forms round trip | num.rs serde impls through their text or bytes | C32, C01 | proved |
| C44 | Exactly which byte strings are safe to deserialize | `Deserialize` of bytes with bounds-checked reads | exact set of byte strings whose declared contents are present (Serde.v) | proved |
| C45 | Debug and release builds agree | every entry point at `dbg = true` and `dbg = false` | results canonical and unique, hence equal | proved |
| C46 | Zero times anything | mul_common, scale test | case analysis, zero operand | proved |
| C47 | Clone, to_owned and byte identity | clone, to_owned, into_boxed | codec | proved |
| C48 | sqrt domain, scale and panics | Transc.v sqrt_* | Newton step stays in the window in which fast division is in bounds (Sqrt.v, SqrtConv.v) | proved |
| C49 | sqrt accuracy | same | one Newton step from any positive iterate that repeats is within the stated error of the root | proved |
| C50 | ln/log domain and trivial values | ln/log/exp entry points | case analysis; the series on zero | proved |
| C51 | pow special cases and integer powers | pow entry points | case analysis, `power_int` small cases | proved |
| C52 | Accuracy of integer powers | power_int | one-unit claim refuted by a proved counterexample; the error bound by the leading base-10000 digit proved through a multiplicative loop invariant (1 +- 11*10^-sig)^j (PowNear, PowAcc) | proved |
| C53 | Powers with an exponent of i32::MIN | power_int with exp = i32::MIN | exact, both profiles (PowMin.v) | proved |
| C54 | Approximate division used by transcendental functions | div_fast_common with IEEE doubles (Flt.v) | error of the floating estimate at most one digit unit; loop invariant on value and size of the running remainder (DivFast*.v) | proved |
| C55 | sqrt and overflow in debug builds | same, debug checks | digit count of the iterates below 10^32; the unrestricted claim refuted by a proved counterexample | proved |
| C56 | exp gives up at 6000 | exp_var | exact domain | proved |
| C57 | sqrt terminates | sqrt loop with fuel | integer form of a step: the distance to the root halves, then only a two-cycle k, k+1 can remain, which forces the root to k + 1/4 +- 1e-9 (SqrtEnd.v); the unrestricted claim refuted by a two-cycle | proved |
| C58 | sqrt of tiny numbers | sqrt loop on tiny inputs | the first iterates collapse to zero (SqrtTiny.v) | proved |
| C59 | Exactly when the scientific format panics | write_sci | exact threshold | proved |
| C60 | Integer powers that fit the result scale are exact | power_int | no rounding takes place while the exact power fits the working scale | proved |
| C61 | Negative powers of integers | power_int | one final correctly rounded quotient | proved |
| C62 | Negative base with an integer exponent outside i32 | power_common on a negative base | every path ends in a panic or does not end (PowNeg.v) | proved |
| C63 | Debug builds only add checks | everything, both profiles | relational induction over the whole model: a debug run that returns is the release run (Profile*.v) | proved |
| C64 | ln is accurate | ln_common | real analysis: argument reduction by square roots, atanh series remainder, accumulated rounding (Ln*.v) | proved |
| C65 | Layout handed back when a buffer is dropped | data.rs alloc/drop layouts | case analysis of alloc and drop | proved |
| C66 | What Debug prints of a fresh NumericBuf | Debug impl over the uninitialised header slot | buffer model with arbitrary initial contents | proved |
| C67 | ln keeps at least fifteen significant digits | ln_var scale selection | estimate of the decimal weight from `logs_near` | proved |
| C68 | exp is accurate | exp_common | Taylor remainder, repeated squaring error (Exp*.v) | proved |
| C69 | exp keeps at least fifteen significant digits | exp_var scale selection | from C68 and the estimate | proved |
| C70 | ln near one always returns | ln_common without reduction | the series loop ends: terms shrink below the working unit | proved |
| C71 | Floats convert to decimals of their reliable digits | Float.v from_floating; snprintf a parameter | C26/C27 applied to the shapes `%.*g` can print | proved |
| C72 | Numerics convert to the nearest float | Float.v try_from for f32/f64; strtod a parameter | C31 fixes the text handed to strtod | proved |
| C73 | Decimals of few digits survive a float round trip | both directions of Float.v | error of one (two) roundings to nearest below a quarter unit of the 15th (6th) digit | proved |
| C74 | exp needs no more than a correct strtod | float_of: the conversion inside exp | nearest on integers, relative error, monotonicity at 6000 | proved |
| C75 | Logarithms to a base are right to half a unit | Transc.v log_common, ln_common, div_common | relative error of each ln from its scale (estimate of the weight within one), then of the quotient; C08 for the final rounding | proved |
| C76 | Logarithms to a base have thirteen significant digits | same | the weight estimate of the quotient is within one and a half of its logarithm | proved |
| C77 | Logarithm of a number extremely close to one | same | ln of the base at scale 0 is below one half, so it is stored as zero | proved |
| C78 | Powers with a fractional exponent are accurate | Transc.v power_common, exponents that are not i32 | relative error of the logarithm from its scale, of the product, then C68's bound for exp (PowFrac.v, PowFin.v) | proved |
| C79 | Fractional powers out of range are refused | same | the double estimate of y ln x is within 1e-3 of it, and exp gives up at 6000 | proved |
| C80 | Fractional powers have fifteen significant digits | same | the weight estimate of the result | proved |
| C81 | Tiny fractional powers come out as one | same | the scale chosen for ln x is zero, so ln x is stored as zero, and exp 0 = 1 | proved |
| C82 | Every buffer is freed exactly once | Heap.v: memory as a map from addresses to blocks, with allocation, release and unwinding | simulation between the memory and Data.v's buffers with a frame (separation) invariant, then induction over the program | proved |
| C83 | Formatting into any writer | Write.v: the same code with its calls on an arbitrary writer | the calls are a fixed list, by composition; its text is the text of Format.v | proved |
| C84 | Text of a Typmod | same | same, with the round trip of C25 | proved |
| C85 | All the outcomes of a logarithm | Transc.v log_common | the scales stay within the range of the ln analysis (C64) for any estimate of the number's weight; the quotient is bounded by 10^5008 | proved |
| C86 | One to any power is one | Transc.v power_common, power_int | ln of one is stored as zero at every scale, so exp gets zero; a multiple of 10^-s within 0.504 units of one is one; integers from C60 and C61 | proved |
| C87 | Arithmetic stays inside its buffers and its machine integers | Mach.v: the same functions with indices, uninitialised buffers and checked machine integers | step-by-step simulation of Var.v (MachSim.v, MachAdd.v, MachMul.v, MachDiv.v) under bounds on lengths and weights that every stored number meets (MachApi.v) | proved |
| C88 | Parsing, integer conversions and text output stay inside their buffers and machine integers | MachText.v: parse.rs, the integer conversions and the text output a second time, on machine integers and indexed buffers | agreement with Parse.v, Convert.v and Format.v (MachParse.v, MachConv.v): every intermediate value fits; then C26, C31, C38, C39 transfer (MachTextApi.v) | proved |
| C89 | The square root stays inside its buffers and its machine integers | MachFast.v: fast division and square root a second time, on machine integers and indexed buffers | agreement with Transc.v (MachDivFast.v, MachSqrt.v): no iterate exceeds 10^147460, so every index and length fits; then C48, C49, C57 transfer | proved |
| C90 | Integer powers and scientific notation stay inside their buffers and their machine integers | MachPow.v: integer powers and scientific notation a second time, on machine integers and indexed buffers | agreement with Transc.v (MachPowSim.v, MachPowApi.v): the relative error of the squarings bounds every weight by 99000 and every length by 800000; then C34, C52 and C60 transfer | proved |
| C91 | Logarithms stay inside their buffers and their machine integers | MachLn.v: ln, log, log2, log10 a second time, on machine integers and indexed buffers | agreement with Transc.v (MachLnSim.v, MachLnTail.v, MachLnApi.v): the value invariants of C64 bound every weight and length; then C64 and C75 transfer | proved |
| C92 | The exponential stays inside its buffers and its machine integers | MachExp.v: exp a second time, on machine integers and indexed buffers | agreement with Transc.v (MachExpSim.v, MachExpApi.v): the value invariants of C68 (ExpStep.v) bound every weight and length; then C68 and C56 transfer | proved |
| C93 | Powers with any exponent stay inside their buffers and their machine integers | MachFrac.v: powers with a fractional exponent a second time, on machine integers and indexed buffers; with MachPow.v, MachLn.v, MachExp.v all of pow | agreement with Transc.v (MachFracSim.v, MachFracApi.v), from the agreement of ln (C91) and exp (C92); MachNeg.v: on a negative base every iterate of the square root stays below 10^147460 in magnitude, so the machine follows it for ever (C62); then C62, C78 and C79 transfer; LibmJoint.v: one platform meets all hypotheses at once | proved |
| C94 | A history of in-place operations stays inside its buffer and its machine integers | MachMut.v: the operations on an owned NumericBuf and the operators a second time, on machine integers and indexed buffers | induction on the history; invariant: the buffer holds a canonical number (DataBuf.v) and is at most 29000000 words long, which every operation keeps because a buffer is only replaced by a fresh one (MachMutSim.v, MachMutApi.v) | proved |
| C95 | Signs, factorials, keys, hashes and owned integer conversions stay inside their buffers and machine integers | MachRest.v: negate, abs, signum, inc, factorial, normalize, Hash and the by-value integer conversions a second time, on machine integers and indexed buffers | agreement with Num.v and Convert.v (MachRestApi.v): every running product and count fits; then C16, C33, C36, C37, C39, C42 transfer, the conversions through the invariant of C94 | proved |
| C96 | Float conversions stay inside their buffers and machine integers | MachFloat.v: float conversions a second time, with the 128-byte C buffer as memory and on machine integers and indexed buffers | a text that parses contains no NUL, so the C string read back is the text printed; then agreement with Float.v through C88 and the invariant of C94 (MachFloatApi.v); then C71-C73 transfer | proved |
| C97 | Error texts say what is wrong | Errors.v: the Display texts of error.rs on top of Parse.v, Convert.v and Float.v | distinct errors have distinct texts; then C28, C39, C71, C72 classify them | proved |
| C98 | No program over the API reaches undefined behaviour at machine level | SpecMachReach.v: the buffers a program can hold, the bytes it can read and the calls it can make, mutually inductive, over the machine-level definitions of C87-C96 | mutual induction; every call simulates the byte-level one and leaves a buffer with bounded spare room (MachApi.v, MachMutApi.v) | proved |
| C99 | Formulas are exact from text to text | SpecFormula.v: formulas over the exact operations and rounded division, their meaning in Q, and how they run on the machine-level definitions of C87, C88, C95 | induction on the formula; each operation's agreement (C87, C88, C95) with its exact specification (C04-C06, C08, C11-C19, C27); uniqueness of the stored form for equal values (Formula.v) | proved |

## 4. Trusted base

1. **Coq 8.16.1's kernel** (and `coqchk`, which re-checks every file), including `vm_compute` for a
   few concrete evaluations. No axiom of ours, no `Admitted`, no functor or module type, no plugin.
2. **Print Assumptions.** Every theorem of `P_*.v` prints "Closed under the global context", except
   the ones over the reals: C03 (through ln and log), C64, C67, C68, C69, C70, C74-C81, C85, C86, C91-C93, which rest on the standard library's
   `ClassicalDedekindReals.sig_not_dec`, `ClassicalDedekindReals.sig_forall_dec`,
   `FunctionalExtensionality.functional_extensionality_dep` and `Classical_Prop.classic`
   (the axioms of Coq's `Reals`). `Print Assumptions` commands sit beside the theorems.
3. **Hypotheses on the platform**, which appear in the theorem statements:
   `log10_sound` (C34, C59, C90, C93, C98: f64::log10 of a power-of-ten-bounded argument has the right integer
   part), `ln_sound`, `log10_fine`, `ln_between` (C52, C90, C93, C98: log10 of 1..9999 right to
   1e-13, ln within 0.69..0.7 per bit), `logs_near` (C67, C75-C81, C85, C91, C93, C98: f64::ln and f64::log10 within 1e-9), `float_sound` (C56, C68,
   C69, C78-C81, C86, C92, C93, C98: numeric-to-double conversion near its argument, exact on integers; C74 derives it from
   `strtod_sound`), `snprintf_sound` (C71, C73, C96, C97, C98: what C11 says of `%.*g`), `strtod_sound` (C72, C73, C96, C97, C98,
   C74: a plain decimal text is read and rounded to nearest). Each is shown to be satisfiable by an instance
   (LibmSample.v and the examples in P_*.v).
4. **The reading of the Rust**: that the definitions, each citing file and lines, mean what rustc
   makes of the cited code. Not compared by execution (no toolchain in the sandbox).

### Not modelled

* the bodies of `snprintf` (libc) and of the `strtod` crate; f64 overflow, subnormals, infinities in
  the internal double arithmetic (the values there are 0 or between 1e-17 and 1e31);
* `Formatter` flags (width, fill, sign, precision) of Display, `{:e}`, `{:E}`: the code does not
  consult them, so the model has none; of core::fmt, how integers are padded and in which pieces they
  are written is taken from its source (Write.v);
* serde formats: a format is assumed to hand back the string or bytes it was given;
* alignment of the `&NumericBinary` reference, and Rust's rule that a reference covers its whole
  type (a 6-byte number is viewed through an 8-byte struct); references to uninitialised memory that
  is not read;
* allocation failure, and `Vec::with_capacity` rounding the capacity up (C65);
* big-endian hosts; 32-bit `usize` limits;
* threads: no operation shares mutable state, so there is no schedule to quantify over;
* crate features other than `big-endian-varlen` and serde; the benches and tests.

## 5. Findings

Each is a theorem named `…_refuted` (or stated exactly in the property):

1. apply_typmod does not keep NaN (C22). 2. round_mut/apply_typmod leave a null buffer when rounding
   carries out of range; using it is UB (C23). 3. `"0e131072"` is reported as overflow (C30).
   4. `{:e}` panics below 1e-1001 (C59). 5. pow on integer exponents loses digits, pow(1.9, 128) is off
   by more than 900000 (C52, which also bounds the loss in general). 6. exponent i32::MIN (C53). 7. negative base with an integer exponent
   outside i32 panics or hangs (C62). 8. deserializing untrusted bytes reads out of bounds (C44).
   9. zero times a number overflows when the scales add up to more than 16383 (C46). 10. sqrt
   overflows an i32 in debug builds (C55). 11. exp(x) is None for x <= -6000 (C56). 12. sqrt can loop
   forever (C57). 13. sqrt below 1e-2020 panics (C58). 14. NumericBuf is freed with another alignment
   than it was allocated with (C65). 15. Debug of a fresh buffer prints uninitialised memory (C66).
   16. f32 from a numeric is an overflow error at 10^39 but Ok(infinity) at 10^309, and an overflow
   error at 10^-46 but Ok(0) at 10^-324 (C72). 17. log of a number within 10^-1020 of one panics with
   division by zero for bases from 1.1 to 1.5 (C77). 18. a fractional power between 10^-2600 and 10^-1020 of a base near one
   is returned as exactly 1, pow(0.8, 12000.5) = 1 (C81); fractional powers below 10^-2620 are None (C79).
   19. the default Typmod displays as "(65535, 65531)" (C84).

## 6. Wrong programs

`seeded/LOG.jsonl` has one line per mutation of the model tried in a scratch copy: the definition,
the edit, the claim it breaks, the theorems that failed to compile, what was tightened.
`tools/mutate.py` applies and rebuilds them; `tools/manifest.py` regenerates MANIFEST.json.
