import json
plan={
'C01':("Binary.v encode/decode with the code's bit masks; Var.v","`encode v = layout …` and `as_var (layout …) = v` from mask lemmas (Codec.v: `land_mask`, `lor_add`, `word_le_bytes`)"),
'C02':("same","`layout` of Spec.v is written with `+ * mod` only; the header format is a case analysis on scale, weight"),
'C03':("Reach.v: every entry point as an `op`; `reachable` is the closure under histories","induction on the history; each operation's lemma returns a `canonical` number; for exp and pow (Closure.v) only that intermediate digits stay base 10000 is needed, so nothing is assumed of libm"),
'C04':("Var.v add_common, add_abs, sub_abs, cmp_abs","column invariants over scaled integers (AddSub.v), then `strip` and the weight test (Make.v)"),
'C05':("same","same"),
'C06':("Var.v mul_common with the i32 accumulator","accumulator invariant (Mul.v): the cells sum to the partial product"),
'C07':("same, arithmetic checked in both profiles","cells bounded by `max_dig * 9999` plus the pending carry bound"),
'C08':("Var.v div_common (Knuth D)","quotient digit within one of the estimate, remainder < divisor; rounding of a truncated quotient with guard digits is the rounding of the quotient (Div.v, DivQ.v)"),
'C09':("select_div_scale","`quotient_weight`, `div_scale` stated over the values in SpecApi.v"),
'C10':("div_common, checked arithmetic and indices","loop invariant of the long-division state"),
'C11':("div_trunc_common","as C08 with truncation"),
'C12':("rem_common","identity from C11 and exactness of mul/sub"),
'C13':("entry points","case analysis"),
'C14':("every entry point","case analysis on the NaN header"),
'C15':("entry points","the canonical representation is unique for (value, scale) (`stores_fun`), so algebra in Q transfers"),
'C16':("negate, abs, signum, inc","from the codec and addition lemmas"),
'C17':("round_common","rounding inside a base-10000 digit is `floor((m + half)/unit)`; carry chain invariant (Round.v)"),
'C18':("trunc_common","Trunc.v"),
'C19':("ceil_common, floor_common","from C18 and addition of one"),
'C20':("Data.v: the physical buffer with capacity, offset, spare digit, header slot","simulation of every logical operation by the buffer-level one (DataSim.v, DataBuf.v) for arbitrary initial memory contents; induction on histories (DataApi.v)"),
'C21':("Typmod.v apply_typmod","rounding lemma plus comparison with `10^(p-s)`"),
'C22':("apply_typmod on NaN, both profiles","exact case analysis of the decoded NaN variable; the expected behaviour is refuted by a witness"),
'C23':("`&mut` operations on `option bytes`, `None` = buffer lost","exact condition for the lost buffer: the rounded value needs more than the representable range"),
'C24':("`*_mut`, `*_assign`","both sides reduce to the same variable-level function"),
'C25':("Typmod.v","bit packing"),
'C26':("Parse.v, byte by byte with checked i32","soundness and completeness against the grammar `literal_text` of SpecText.v by induction on the text"),
'C27':("same","digit grouping: value of base-10000 groups equals the decimal value"),
'C28':("same","complement of the grammar"),
'C29':("same, checked arithmetic","all partial operations discharged by the length bound"),
'C30':("same","exact set of literals reported as overflow (ParseOver.v)"),
'C31':("Format.v write","text equals the digit expansion of the exact value; uniqueness of `plain_text`"),
'C32':("Format.v, Parse.v","C31 text is a literal of C26 with the same value and scale"),
'C33':("Format.v normalize","trailing zeros; shortest text"),
'C34':("Transc.v write_sci, log10 a parameter","the scale chosen gives an exact quotient by the power of ten; text from C31"),
'C35':("cmp_common","comparison of scaled integers; order axioms from Q"),
'C36':("hash as the list of write events","equal values give equal event lists"),
'C37':("same","the event list determines the value"),
'C38':("Convert.v","digit loop invariants"),
'C39':("Convert.v, rounding then checked accumulation","C17 and range analysis of the accumulation loop"),
'C40':("Convert.v","C38 with C39"),
'C41':("Num.v operators","the panics are exactly the `None`s"),
'C42':("Num.v factorial","product induction; 32177! fits and 32178! does not by mantissa bounds (FactBound.v)"),
'C43':("num.rs serde impls through their text or bytes","C32, C01"),
'C44':("`Deserialize` of bytes with bounds-checked reads","exact set of byte strings whose declared contents are present (Serde.v)"),
'C45':("every entry point at `dbg = true` and `dbg = false`","results canonical and unique, hence equal"),
'C46':("mul_common, scale test","case analysis, zero operand"),
'C47':("clone, to_owned, into_boxed","codec"),
'C48':("Transc.v sqrt_*","Newton step stays in the window in which fast division is in bounds (Sqrt.v, SqrtConv.v)"),
'C49':("same","one Newton step from any positive iterate that repeats is within the stated error of the root"),
'C50':("ln/log/exp entry points","case analysis; the series on zero"),
'C51':("pow entry points","case analysis, `power_int` small cases"),
'C52':("power_int","one-unit claim refuted by a proved counterexample; the error bound by the leading base-10000 digit proved through a multiplicative loop invariant (1 +- 11*10^-sig)^j (PowNear, PowAcc)"),
'C53':("power_int with exp = i32::MIN","exact, both profiles (PowMin.v)"),
'C54':("div_fast_common with IEEE doubles (Flt.v)","error of the floating estimate at most one digit unit; loop invariant on value and size of the running remainder (DivFast*.v)"),
'C55':("same, debug checks","digit count of the iterates below 10^32; the unrestricted claim refuted by a proved counterexample"),
'C56':("exp_var","exact domain"),
'C57':("sqrt loop with fuel","integer form of a step: the distance to the root halves, then only a two-cycle k, k+1 can remain, which forces the root to k + 1/4 +- 1e-9 (SqrtEnd.v); the unrestricted claim refuted by a two-cycle"),
'C58':("sqrt loop on tiny inputs","the first iterates collapse to zero (SqrtTiny.v)"),
'C59':("write_sci","exact threshold"),
'C60':("power_int","no rounding takes place while the exact power fits the working scale"),
'C61':("power_int","one final correctly rounded quotient"),
'C62':("power_common on a negative base","every path ends in a panic or does not end (PowNeg.v)"),
'C63':("everything, both profiles","relational induction over the whole model: a debug run that returns is the release run (Profile*.v)"),
'C64':("ln_common","real analysis: argument reduction by square roots, atanh series remainder, accumulated rounding (Ln*.v)"),
'C65':("data.rs alloc/drop layouts","case analysis of alloc and drop"),
'C66':("Debug impl over the uninitialised header slot","buffer model with arbitrary initial contents"),
'C67':("ln_var scale selection","estimate of the decimal weight from `logs_near`"),
'C68':("exp_common","Taylor remainder, repeated squaring error (Exp*.v)"),
'C69':("exp_var scale selection","from C68 and the estimate"),
'C70':("ln_common without reduction","the series loop ends: terms shrink below the working unit"),
'C71':("Float.v from_floating; snprintf a parameter","C26/C27 applied to the shapes `%.*g` can print"),
'C72':("Float.v try_from for f32/f64; strtod a parameter","C31 fixes the text handed to strtod"),
'C73':("both directions of Float.v","error of one (two) roundings to nearest below a quarter unit of the 15th (6th) digit"),
'C74':("float_of: the conversion inside exp","nearest on integers, relative error, monotonicity at 6000"),
'C75':("Transc.v log_common, ln_common, div_common","relative error of each ln from its scale (estimate of the weight within one), then of the quotient; C08 for the final rounding"),
'C76':("same","the weight estimate of the quotient is within one and a half of its logarithm"),
'C77':("same","ln of the base at scale 0 is below one half, so it is stored as zero"),
'C78':("Transc.v power_common, exponents that are not i32","relative error of the logarithm from its scale, of the product, then C68's bound for exp (PowFrac.v, PowFin.v)"),
'C79':("same","the double estimate of y ln x is within 1e-3 of it, and exp gives up at 6000"),
'C80':("same","the weight estimate of the result"),
'C81':("same","the scale chosen for ln x is zero, so ln x is stored as zero, and exp 0 = 1"),
'C82':("Heap.v: memory as a map from addresses to blocks, with allocation, release and unwinding","simulation between the memory and Data.v's buffers with a frame (separation) invariant, then induction over the program"),
'C83':("Write.v: the same code with its calls on an arbitrary writer","the calls are a fixed list, by composition; its text is the text of Format.v"),
'C84':("same","same, with the round trip of C25"),
'C85':("Transc.v log_common","the scales stay within the range of the ln analysis (C64) for any estimate of the number's weight; the quotient is bounded by 10^5008"),
'C86':("Transc.v power_common, power_int","ln of one is stored as zero at every scale, so exp gets zero; a multiple of 10^-s within 0.504 units of one is one; integers from C60 and C61"),
'C87':("Mach.v: the same functions with indices, uninitialised buffers and checked machine integers","step-by-step simulation of Var.v (MachSim.v, MachAdd.v, MachMul.v, MachDiv.v) under bounds on lengths and weights that every stored number meets (MachApi.v)"),
'C88':("MachText.v: parse.rs, the integer conversions and the text output a second time, on machine integers and indexed buffers","agreement with Parse.v, Convert.v and Format.v (MachParse.v, MachConv.v): every intermediate value fits; then C26, C31, C38, C39 transfer (MachTextApi.v)"),
'C89':("MachFast.v: fast division and square root a second time, on machine integers and indexed buffers","agreement with Transc.v (MachDivFast.v, MachSqrt.v): no iterate exceeds 10^147460, so every index and length fits; then C48, C49, C57 transfer"),
'C90':("MachPow.v: integer powers and scientific notation a second time, on machine integers and indexed buffers","agreement with Transc.v (MachPowSim.v, MachPowApi.v): the relative error of the squarings bounds every weight by 99000 and every length by 800000; then C34, C52 and C60 transfer"),
'C91':("MachLn.v: ln, log, log2, log10 a second time, on machine integers and indexed buffers","agreement with Transc.v (MachLnSim.v, MachLnTail.v, MachLnApi.v): the value invariants of C64 bound every weight and length; then C64 and C75 transfer"),
'C92':("MachExp.v: exp a second time, on machine integers and indexed buffers","agreement with Transc.v (MachExpSim.v, MachExpApi.v): the value invariants of C68 (ExpStep.v) bound every weight and length; then C68 and C56 transfer"),
'C93':("MachFrac.v: powers with a fractional exponent a second time, on machine integers and indexed buffers; with MachPow.v, MachLn.v, MachExp.v all of pow","agreement with Transc.v (MachFracSim.v, MachFracApi.v), from the agreement of ln (C91) and exp (C92); MachNeg.v: on a negative base every iterate of the square root stays below 10^147460 in magnitude, so the machine follows it for ever (C62); then C62, C78 and C79 transfer; LibmJoint.v: one platform meets all hypotheses at once"),
'C94':("MachMut.v: the operations on an owned NumericBuf and the operators a second time, on machine integers and indexed buffers","induction on the history; invariant: the buffer holds a canonical number (DataBuf.v) and is at most 29000000 words long, which every operation keeps because a buffer is only replaced by a fresh one (MachMutSim.v, MachMutApi.v)"),
'C95':("MachRest.v: negate, abs, signum, inc, factorial, normalize, Hash and the by-value integer conversions a second time, on machine integers and indexed buffers","agreement with Num.v and Convert.v (MachRestApi.v): every running product and count fits; then C16, C33, C36, C37, C39, C42 transfer, the conversions through the invariant of C94"),
'C96':("MachFloat.v: float conversions a second time, with the 128-byte C buffer as memory and on machine integers and indexed buffers","a text that parses contains no NUL, so the C string read back is the text printed; then agreement with Float.v through C88 and the invariant of C94 (MachFloatApi.v); then C71-C73 transfer"),
'C97':("Errors.v: the Display texts of error.rs on top of Parse.v, Convert.v and Float.v","distinct errors have distinct texts; then C28, C39, C71, C72 classify them"),
'C98':("SpecMachReach.v: the buffers a program can hold, the bytes it can read and the calls it can make, mutually inductive, over the machine-level definitions of C87-C96","mutual induction; every call simulates the byte-level one and leaves a buffer with bounded spare room (MachApi.v, MachMutApi.v)"),
'C99':("SpecFormula.v: formulas over the exact operations and rounded division, their meaning in Q, and how they run on the machine-level definitions of C87, C88, C95","induction on the formula; each operation's agreement (C87, C88, C95) with its exact specification (C04-C06, C08, C11-C19, C27); uniqueness of the stored form for equal values (Formula.v)"),
}
man={c['property']:c for c in json.load(open('/verif/MANIFEST.json'))['claims']}
props=[json.loads(l) for l in open('/verif/properties.jsonl')]
body=open('/verif/tools/design.md').read()
rows=[]
for p in props:
    c=man[p['id']]; m,h=plan.get(p['id'],('',''))
    rows.append(f"| {p['id']} | {p['title']} | {m} | {h} | {c['status']} |")
tbl="| id | property | modelled | how it is proved | status |\n|----|----|----|----|----|\n"+"\n".join(rows)
open('/verif/DESIGN.md','w').write(body.replace('@@TABLE@@',tbl))
