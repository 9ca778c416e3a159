{"id": "C01", "title": "Binary round trip", "statement": "Encoding a numeric value (sign, weight, display scale, base-10000 digits) into its on-disk bytes and reading the bytes back yields exactly the same sign, weight, display scale and digits; NaN reads back as NaN. Holds for both the short and the long header and for both length-word layouts.", "quantifier": "every storable value (|weight| <= 32767, 0 <= scale <= 16383, digits 0..9999, at most 32767+16383 digits) and both settings of the big-endian-varlen feature", "why_tests_cant": "the header packs 4 fields with masks and shifts; the number of (weight, scale, sign) combinations times digit strings is astronomically large", "anchors": ["src/binary.rs: NumericBinary, NumericShort::set_header, NumericLong::set_header, as_var", "src/data.rs: NumericData::set_header"]}
{"id": "C02", "title": "Binary header format choice and size", "statement": "as_bytes() of any produced numeric is exactly: a 4-byte length word that decodes to the total byte count, followed by a 2-byte header when scale<=63 and -64<=weight<=63 (or NaN) and a 4-byte header otherwise, followed by two little-endian bytes per base-10000 digit, nothing more.", "quantifier": "every storable value", "why_tests_cant": "boundary between short and long headers depends on two independent fields; only a few points are tested", "anchors": ["src/binary.rs: can_be_short, encode_len, decode_len, header_size", "src/num.rs: as_bytes"]}
{"id": "C03", "title": "Results are canonical, forever", "statement": "Every numeric reachable by any finite sequence of API calls (parsing, integer and float conversion, arithmetic, rounding, typmod, increments, sign changes, clone, serialization, sqrt, ln, exp, pow, and log to bases not within 10^-1980 of one) is canonical: every digit in 0..9999, no leading or trailing zero digit, zero has no digits, positive sign and weight 0, no non-zero decimal digit beyond the display scale, weight within +-32767 and scale within 0..16383; whatever the platform's floating-point functions return (for log: provided its logarithms are right to 10^-9).", "quantifier": "every finite sequence of API calls with arbitrary arguments", "why_tests_cant": "it is an invariant over call histories of unbounded length", "anchors": ["src/var.rs: strip, make_result, round_common", "src/num.rs", "src/parse.rs: from_str", "src/convert.rs: unsigned_to_var", "src/var.rs: sqrt, ln, log, exp, pow", "src/convert.rs: from_floating"]}
{"id": "C04", "title": "Addition is exact", "statement": "For non-NaN a, b, a.checked_add(b) is either Some(r) with value(r) = value(a)+value(b) exactly and scale(r) = max(scale(a),scale(b)), or None; it is None exactly when |value(a)+value(b)| >= 10000^32768.", "quantifier": "every pair of non-NaN numerics", "why_tests_cant": "the set of numerics is infinite for practical purposes (131072 integral and 16383 fractional digits); tests sample a handful of literals", "anchors": ["src/num.rs: checked_add", "src/var.rs: add_common, add_abs, sub_abs, cmp_abs"]}
{"id": "C05", "title": "Subtraction is exact", "statement": "For non-NaN a, b, a.checked_sub(b) is either Some(r) with value(r) = value(a)-value(b) exactly and scale(r) = max(scale(a),scale(b)), or None; None exactly when |value(a)-value(b)| >= 10000^32768.", "quantifier": "every pair of non-NaN numerics", "why_tests_cant": "the set of numerics is infinite for practical purposes (131072 integral and 16383 fractional digits); tests sample a handful of literals", "anchors": ["src/num.rs: checked_sub", "src/var.rs: sub_common"]}
{"id": "C06", "title": "Multiplication is exact", "statement": "For non-NaN a, b whose scales sum to at most 16383, a.checked_mul(b) is Some(r) with value(r) = value(a)*value(b) exactly and scale(r) = scale(a)+scale(b), unless |value(a)*value(b)| >= 10000^32768, in which case it is None. If the scales sum to more than 16383 the result is None.", "quantifier": "every pair of non-NaN numerics", "why_tests_cant": "the set of numerics is infinite for practical purposes (131072 integral and 16383 fractional digits); tests sample a handful of literals; the truncated accumulator could drop a needed digit only for long operands", "anchors": ["src/num.rs: checked_mul", "src/var.rs: mul_common"]}
{"id": "C07", "title": "Multiplication accumulator never overflows", "statement": "No checked_mul call ever overflows the 32-bit accumulator or loses a carry: it never panics in a debug build for operands whose scales sum to at most 16383, and debug and release builds return the same result.", "quantifier": "every pair of numerics", "why_tests_cant": "the delayed-carry bound is only threatened by particular long digit patterns", "anchors": ["src/var.rs: mul_common (max_dig, dig, carry)"]}
{"id": "C08", "title": "Division is correctly rounded", "statement": "For non-NaN a and non-zero b, a.checked_div(b) is Some(r) where value(r) is the exact quotient rounded half away from zero to scale(r) decimals, or None only when the rounded quotient is >= 10000^32768 in absolute value.", "quantifier": "every pair of non-NaN numerics with non-zero divisor", "why_tests_cant": "Knuth's quotient-digit correction fires with probability about 3/10000 and the add-back step even more rarely on contrived inputs", "anchors": ["src/var.rs: div_common, checked_div", "src/num.rs: checked_div"]}
{"id": "C09", "title": "Division scale policy", "statement": "The scale of a/b is min(1000, max(scale(a), scale(b), 16 - 4*q)) where q is the estimated base-10000 weight of the quotient, so whenever it is not capped at 1000 the result carries at least 16 significant decimal digits of a non-zero quotient: 10^16 <= |a/b|*10^scale, up to the one-digit estimate.", "quantifier": "every pair of non-NaN numerics with non-zero divisor", "why_tests_cant": "the set of numerics is infinite for practical purposes (131072 integral and 16383 fractional digits); tests sample a handful of literals", "anchors": ["src/var.rs: select_div_scale"]}
{"id": "C10", "title": "Knuth division never overflows or goes out of bounds", "statement": "Division never overflows 32-bit or 16-bit intermediates, never reads or writes outside its workspace and never trips its debug assertions: debug and release builds agree for every pair of operands.", "quantifier": "every pair of non-NaN numerics with non-zero divisor", "why_tests_cant": "the estimate/correct/add-back invariants depend on all digits of both operands", "anchors": ["src/var.rs: div_common"]}
{"id": "C11", "title": "Truncating division", "statement": "a.checked_div_trunc(b) for non-zero b is Some(q), q an integer of scale 0 equal to the exact quotient truncated toward zero, or None only when that integer is >= 10000^32768 in absolute value.", "quantifier": "every pair of non-NaN numerics with non-zero divisor", "why_tests_cant": "the set of numerics is infinite for practical purposes (131072 integral and 16383 fractional digits); tests sample a handful of literals", "anchors": ["src/num.rs: checked_div_trunc", "src/var.rs: div_common"]}
{"id": "C12", "title": "Remainder identity", "statement": "a.checked_rem(b) for non-zero b is Some(r) with value(r) = a - b*trunc(a/b) exactly; hence |r| < |b|, r has the sign of a or is zero, and scale(r) = max(scale(a),scale(b)); it is never None and never panics.", "quantifier": "every pair of non-NaN numerics with non-zero divisor", "why_tests_cant": "the set of numerics is infinite for practical purposes (131072 integral and 16383 fractional digits); tests sample a handful of literals", "anchors": ["src/num.rs: checked_rem, overflowing_rem", "src/var.rs: mod_common"]}
{"id": "C13", "title": "Division by zero", "statement": "checked_div, checked_div_trunc and checked_rem return None for a zero divisor (of any scale) and a non-NaN dividend, and the / and % operators panic in exactly that case or on overflow.", "quantifier": "every non-NaN dividend and every zero", "why_tests_cant": "zero has 16384 representations times every dividend", "anchors": ["src/num.rs: checked_div, overflowing_div", "src/ops.rs: Div, Rem"]}
{"id": "C14", "title": "NaN propagation", "statement": "Every arithmetic operation, rounding function, sign function, sqrt, ln, log, exp returns NaN (never None, never a panic) if an operand is NaN; pow follows NaN^0 = 1 and 1^NaN = 1, all else NaN.", "quantifier": "every second operand and every operation", "why_tests_cant": "the set of numerics is infinite for practical purposes (131072 integral and 16383 fractional digits); tests sample a handful of literals", "anchors": ["src/num.rs: is_nan checks", "src/var.rs: pow"]}
{"id": "C15", "title": "Algebraic laws hold bit for bit", "statement": "a+b and b+a, a*b and b*a have identical bytes; a-b equals a+(-b) byte for byte; (a+b)+c equals a+(b+c) byte for byte, and a*(b+c) compares equal to a*b+a*c, whenever all intermediate results exist.", "quantifier": "every triple of numerics", "why_tests_cant": "three universally quantified operands", "anchors": ["src/num.rs: checked_add, checked_mul, checked_sub, negate"]}
{"id": "C16", "title": "Negation, absolute value, sign, increment", "statement": "negate, abs, signum and inc compute -x, |x|, sign(x) in {-1,0,1} and x+1 exactly and keep the scale (signum has scale 0); negate is an involution; -0 is never produced; inc panics exactly when x+1 >= 10000^32768.", "quantifier": "every non-NaN numeric", "why_tests_cant": "the set of numerics is infinite for practical purposes (131072 integral and 16383 fractional digits); tests sample a handful of literals", "anchors": ["src/num.rs: negate, abs, signum, inc", "src/var.rs: negate, abs, signum, inc"]}
{"id": "C17", "title": "round() rounds half away from zero", "statement": "x.round(s) has value equal to x rounded half away from zero at decimal position s (s clamped to [-1000,1000]) and scale max(0, clamped s); it panics with the overflow message exactly when the rounded value is >= 10000^32768 in absolute value.", "quantifier": "every non-NaN numeric and every i32 scale", "why_tests_cant": "carry propagation through arbitrary runs of 9999 digits", "anchors": ["src/num.rs: round", "src/var.rs: round, round_common"]}
{"id": "C18", "title": "trunc() truncates toward zero", "statement": "x.trunc(s) has value x truncated toward zero at decimal position s (s clamped to [-1000,1000]), scale max(0, clamped s), and never panics.", "quantifier": "every non-NaN numeric and every i32 scale", "why_tests_cant": "the set of numerics is infinite for practical purposes (131072 integral and 16383 fractional digits); tests sample a handful of literals", "anchors": ["src/num.rs: trunc", "src/var.rs: trunc, trunc_common"]}
{"id": "C19", "title": "ceil and floor", "statement": "x.ceil() is the least integer >= x and x.floor() the greatest integer <= x, with scale 0; they panic exactly when that integer is >= 10000^32768 in absolute value.", "quantifier": "every non-NaN numeric", "why_tests_cant": "the set of numerics is infinite for practical purposes (131072 integral and 16383 fractional digits); tests sample a handful of literals", "anchors": ["src/num.rs: ceil, floor", "src/var.rs: ceil_common, floor_common"]}
{"id": "C20", "title": "In-place operations stay inside their buffer and see no uninitialised memory", "statement": "Whatever sequence of negate_mut, abs_mut, round_mut, trunc_mut, apply_typmod and clone a NumericBuf goes through, and whatever fresh allocations contain, no operation reads or writes outside the digit buffer (the rounding carry always has a slot of its own that is not the header), every operation returns or panics, and its outcome and the bytes as_bytes shows afterwards are a function of the number alone.", "quantifier": "every stored number or freshly computed digit string, every history of in-place operations of any length, every content of uninitialised memory, both build profiles and length encodings", "why_tests_cant": "depends on the physical offset left by previous operations", "anchors": ["src/data.rs: with_ndigits, reserve_rounding_digit, buf_copy, offset_sub, set_header, digits, digits_mut", "src/var.rs: round_common, trunc_common, strip, into_numeric_buf", "src/num.rs: NumericBuf::as_bytes, as_var_owned, into_var"]}
{"id": "C21", "title": "apply_typmod rounds and detects overflow", "statement": "For a non-NaN x and typmod (p,s), apply_typmod leaves x rounded half away from zero to s decimals with scale s and returns true exactly when the rounded value has absolute value >= 10^(p-s); the default typmod leaves x unchanged and returns false.", "quantifier": "every non-NaN numeric and every valid typmod", "why_tests_cant": "the set of numerics is infinite for practical purposes (131072 integral and 16383 fractional digits); tests sample a handful of literals", "anchors": ["src/num.rs: NumericBuf::apply_typmod", "src/var.rs: apply_typmod"]}
{"id": "C22", "title": "apply_typmod on NaN", "statement": "For every type modifier (and the default one), apply_typmod on NaN: a release build reports no overflow and replaces the NaN by zero at the modifier's scale (0 for the default modifier); a debug build panics on an assertion and leaves the buffer without a value. (The property one would expect, and PostgreSQL has, is that NaN is preserved: it is false of this code, see C22_refuted.)", "quantifier": "every typmod accepted by Typmod::new, the default typmod, both build profiles", "why_tests_cant": "the only NaN path through this mutator is untested", "anchors": ["src/num.rs: NumericBuf::apply_typmod", "src/var.rs: strip"]}
{"id": "C23", "title": "When a mutator leaves the buffer unusable", "statement": "negate_mut, abs_mut and trunc_mut always leave a valid numeric in the buffer. round_mut leaves the buffer null (so that any later use or drop is undefined behaviour) exactly when the rounded magnitude reaches 10^131072, and then it panics; apply_typmod does so exactly in that case, while returning normally, and also on NaN in debug builds. (The expected property, that the buffer is always usable, is false of this code, see C23_refuted.)", "quantifier": "every numeric and every argument", "why_tests_cant": "the failing path needs a carry out of the 32768th base-10000 digit", "anchors": ["src/num.rs: as_var_owned, apply_typmod, round_mut"]}
{"id": "C24", "title": "In-place variants agree with pure variants", "statement": "negate_mut, abs_mut, round_mut, trunc_mut and the assignment operators +=, -=, *=, /=, %= leave exactly the bytes that negate, abs, round, trunc, +, -, *, /, % return, and panic in the same cases.", "quantifier": "every numeric and argument", "why_tests_cant": "the set of numerics is infinite for practical purposes (131072 integral and 16383 fractional digits); tests sample a handful of literals", "anchors": ["src/num.rs: *_mut", "src/ops.rs: *Assign"]}
{"id": "C25", "title": "Typmod constructor round trip", "statement": "Typmod::new(p,s) is Some exactly when 1<=p<=1000 and 0<=s<=p, extract() then returns (p,s), distinct (p,s) give distinct values, and the value is never below the header size (so never confused with the default).", "quantifier": "every pair of i32", "why_tests_cant": "2^64 argument pairs; bit packing", "anchors": ["src/typmod.rs: Typmod::new, extract, with_precision"]}
{"id": "C26", "title": "Parser accepts exactly the documented grammar", "statement": "A byte string parses successfully only if it is [whitespace] (NaN | [sign] (digits [. [digits]] | . digits) [(e|E) [sign] digits]) [whitespace]; every string of that form whose exponent, scale and weight are in range parses successfully.", "quantifier": "every byte string shorter than 2^30", "why_tests_cant": "the language is infinite", "anchors": ["src/parse.rs: from_str, parse_decimal, extract_exponent, extract_sign, eat_digits"]}
{"id": "C27", "title": "Parsed value is exact", "statement": "A successful parse of a decimal literal yields exactly the rational number the literal denotes and display scale max(0, fraction digits - exponent).", "quantifier": "every accepted literal", "why_tests_cant": "digit regrouping from base 10 to base 10000 has 4 alignments times every length and exponent", "anchors": ["src/parse.rs: parse_str, read_numeric_digit"]}
{"id": "C28", "title": "Parser error classification", "statement": "Parsing fails with Empty exactly on all-whitespace input, with Invalid exactly when the grammar is violated (up to an earlier exponent overflow), and with Overflow otherwise.", "quantifier": "every byte string", "why_tests_cant": "infinite language", "anchors": ["src/parse.rs", "src/error.rs"]}
{"id": "C29", "title": "Parser never panics or overflows", "statement": "Parsing never panics and never overflows its 32-bit arithmetic, in debug builds too, for every string shorter than 2^30 - 8 bytes.", "quantifier": "every byte string shorter than the bound", "why_tests_cant": "needs gigantic strings and exponents", "anchors": ["src/parse.rs: parse_str, extract_exponent"]}
{"id": "C30", "title": "Exactly which literals are reported as overflow", "statement": "A literal of the grammar is reported as an overflow exactly when its value reaches 10^131072, or its scale exceeds 16383, or the number of integral digits written plus the exponent exceeds 131072; in the last case, if value and scale are representable, the literal starts with a zero. (The expected property, that every representable literal parses, is false of this code: 0e131072, see C30_refuted.)", "quantifier": "every literal in the grammar, surrounded by any white space, shorter than 2^30 - 8 bytes", "why_tests_cant": "requires literals with more than 131072 leading zeros or zero with a large exponent", "anchors": ["src/parse.rs: from_str", "src/var.rs: make_result"]}
{"id": "C31", "title": "Display is the exact decimal expansion", "statement": "to_string() of a non-NaN x is an optional '-' (exactly when x<0), the integer part without superfluous leading zeros (0 if none), and, if scale>0, a '.' followed by exactly scale digits; reading those decimal digits back gives exactly value(x).", "quantifier": "every non-NaN numeric", "why_tests_cant": "the set of numerics is infinite for practical purposes (131072 integral and 16383 fractional digits); tests sample a handful of literals", "anchors": ["src/var.rs: write", "src/num.rs: Display"]}
{"id": "C32", "title": "Display/parse round trip", "statement": "Parsing the Display output of any numeric gives back a numeric with identical bytes (same value and same scale).", "quantifier": "every numeric", "why_tests_cant": "the set of numerics is infinite for practical purposes (131072 integral and 16383 fractional digits); tests sample a handful of literals", "anchors": ["src/var.rs: write", "src/parse.rs: from_str"]}
{"id": "C33", "title": "normalize() is a canonical key", "statement": "a.normalize() == b.normalize() if and only if a == b (NaN included).", "quantifier": "every pair of numerics", "why_tests_cant": "the set of numerics is infinite for practical purposes (131072 integral and 16383 fractional digits); tests sample a handful of literals, each with up to 16384 scales", "anchors": ["src/var.rs: normalize", "src/num.rs: normalize"]}
{"id": "C34", "title": "Scientific format is exact", "statement": "format!(\"{:e}\", x) and {:E} denote exactly the value of x (significand times 10^exponent) with one non-zero digit before the point and no trailing zeros, for every x of magnitude at least 10^-1001; zero prints 0e+00, NaN prints NaN; the text parses back to the same value; equal numerics print alike.", "quantifier": "every numeric of magnitude at least 10^-1001, zero and NaN; any log10 that is right on the integers 1..9999", "why_tests_cant": "the exponent comes from a floating-point logarithm and the significand from a division by a computed power of ten, for any of 10^131072 magnitudes", "anchors": ["src/var.rs: write_sci, select_sci_scale, power_int", "src/num.rs: LowerExp, UpperExp"]}
{"id": "C35", "title": "Ordering is the numeric order, total, NaN greatest", "statement": "cmp of non-NaN values is the order of their values; NaN equals NaN and is greater than every number; hence the order is total, antisymmetric up to ==, and transitive.", "quantifier": "every pair and triple of numerics", "why_tests_cant": "transitivity quantifies over triples", "anchors": ["src/num.rs: cmp", "src/var.rs: cmp_common, cmp_abs", "src/ops.rs: PartialEq, PartialOrd, Ord"]}
{"id": "C36", "title": "Equality ignores scale; Hash is consistent with Eq", "statement": "a == b iff their values are equal (or both are NaN), regardless of scale; a == b implies they feed the hasher identical data.", "quantifier": "every pair of numerics", "why_tests_cant": "the set of numerics is infinite for practical purposes (131072 integral and 16383 fractional digits); tests sample a handful of literals", "anchors": ["src/num.rs: hash, cmp", "src/ops.rs: PartialEq"]}
{"id": "C37", "title": "Hash separates distinct values", "statement": "Numerics that are not == feed different data to the hasher.", "quantifier": "every pair of numerics", "why_tests_cant": "the set of numerics is infinite for practical purposes (131072 integral and 16383 fractional digits); tests sample a handful of literals", "anchors": ["src/num.rs: hash"]}
{"id": "C38", "title": "Conversion from integers is exact", "statement": "NumericBuf::from(i) for every i8..i128, u8..u128, isize, usize, bool has exactly value i and scale 0 and never panics, including at MIN.", "quantifier": "every integer of each width", "why_tests_cant": "2^128 values", "anchors": ["src/convert.rs: from_signed, from_unsigned, unsigned_to_var, Signed::abs"]}
{"id": "C39", "title": "Conversion to integers rounds and range-checks", "statement": "TryFrom<numeric> for an integer type returns Ok(n) with n = the value rounded half away from zero when n is in the type's range, Err(overflow) exactly when it is not, and Err(invalid) exactly for NaN; it never panics.", "quantifier": "every numeric and every integer width", "why_tests_cant": "overflow detection is digit by digit with wrapping arithmetic", "anchors": ["src/convert.rs: into_signed, into_unsigned"]}
{"id": "C40", "title": "Integer round trip", "statement": "Converting any integer to a numeric and back to its type returns it unchanged.", "quantifier": "every integer of each width", "why_tests_cant": "2^128 values", "anchors": ["src/convert.rs"]}
{"id": "C41", "title": "Operators are the checked operations", "statement": "a+b, a-b, a*b, a/b, a%b return r exactly when the checked operation returns Some(r) and panic exactly when it returns None; all owned/borrowed combinations agree.", "quantifier": "every pair of numerics", "why_tests_cant": "the set of numerics is infinite for practical purposes (131072 integral and 16383 fractional digits); tests sample a handful of literals", "anchors": ["src/ops.rs", "src/num.rs: overflowing_div, overflowing_rem"]}
{"id": "C42", "title": "Factorial", "statement": "NumericBuf::factorial(n) is Some(n!) exactly with scale 0 for 0<=n<=32177 (1 for n<=1) and None for n>32177, and the cut-off is right: 32177! fits and 32178! does not.", "quantifier": "every i64", "why_tests_cant": "32177! has 130k+ digits", "anchors": ["src/var.rs: factorial", "src/num.rs: factorial"]}
{"id": "C43", "title": "Serialized forms round trip", "statement": "Serializing with a human-readable serde format and deserializing gives back identical bytes; likewise for binary formats.", "quantifier": "every numeric", "why_tests_cant": "the set of numerics is infinite for practical purposes (131072 integral and 16383 fractional digits); tests sample a handful of literals", "anchors": ["src/num.rs: Serialize, Deserialize"]}
{"id": "C44", "title": "Exactly which byte strings are safe to deserialize", "statement": "Deserializing an arbitrary byte string through the safe serde interface: in a release build it is undefined behaviour (an out-of-bounds read or a slice of a wrapped length) exactly when the string does not contain all the bytes its own length prefix and header announce, and otherwise gives a self-consistent buffer; in a debug build the length prefix is checked first, so only strings of fewer than six bytes are undefined behaviour. (The expected property, memory safety, is false of this code, see C44_refuted.)", "quantifier": "every byte string shorter than 2^30 - 8, both build profiles", "why_tests_cant": "adversarial inputs", "anchors": ["src/num.rs: visit_bytes, as_binary", "src/binary.rs: as_var"]}
{"id": "C45", "title": "Debug and release builds agree", "statement": "For valid numerics every exact entry point (checked arithmetic and operators, comparison, hash, accessors, copies, rounding, integer conversion, factorial, parsing, display, normalize and scientific text, in-place operations, typmods) does the same in debug builds (overflow checks and debug assertions on) as in release builds; in particular no debug check fires. The two exceptions are the product with a zero whose scales sum to more than 16383 (C46) and a typmod applied to NaN (C22).", "quantifier": "every numeric and both build profiles", "why_tests_cant": "tests run in one profile on a few values", "anchors": ["src/var.rs", "src/num.rs"]}
{"id": "C46", "title": "Zero times anything", "statement": "checked_mul with a zero operand returns zero at the sum of the scales when that sum is at most 16383; above it a release build returns None and a debug build panics. (That it never panics is false of this code, see C46_refuted.)", "quantifier": "every numeric, every zero, both build profiles", "why_tests_cant": "needs scales above 8191", "anchors": ["src/var.rs: mul_common, zero_scaled"]}
{"id": "C47", "title": "Clone, to_owned and byte identity", "statement": "clone() and to_owned() of a numeric have exactly the same bytes as the original, and mutating the copy never changes the original.", "quantifier": "every numeric", "why_tests_cant": "the set of numerics is infinite for practical purposes (131072 integral and 16383 fractional digits); tests sample a handful of literals", "anchors": ["src/num.rs: Clone, ToOwned"]}
{"id": "C48", "title": "sqrt domain, scale and panics", "statement": "sqrt(NaN) is NaN, sqrt of a negative number panics with its documented message, sqrt(0) is 0 of scale min(1000, max(scale(x), 15 - 2*weight(x))). A release-build sqrt of a positive number never panics from 10^-2016 on; a debug-build one never panics for numbers from 10^-2016 to 10^32 with at most 56 decimals.", "quantifier": "every numeric", "why_tests_cant": "the set of numerics is infinite for practical purposes (131072 integral and 16383 fractional digits); tests sample a handful of literals", "anchors": ["src/var.rs: sqrt, sqrt_common"]}
{"id": "C49", "title": "sqrt accuracy", "statement": "A returned sqrt(x) of scale s = min(1000, max(scale(x), 15 - 2*weight(x))) is within (1/2 + 2*10^-8) * 10^-s of the true root. If x is the square of a number with at most s decimals, sqrt(x) returns, and is exactly that number.", "quantifier": "every non-negative numeric on which the iteration terminates", "why_tests_cant": "Newton iteration with approximate division", "anchors": ["src/var.rs: sqrt_common, div_fast_common"]}
{"id": "C50", "title": "ln/log domain and trivial values", "statement": "ln, log2, log10 of zero and of negative numbers panic with the documented message, and so does log when the operand or the base is zero or negative (the operand is checked first); log to base one never returns a number (it divides by zero). ln(1) is 0 and exp(0) is 1, with 16 decimals or the operand's scale if larger, capped at 1000.", "quantifier": "every numeric", "why_tests_cant": "the set of numerics is infinite for practical purposes (131072 integral and 16383 fractional digits); tests sample a handful of literals", "anchors": ["src/var.rs: ln, log, log_common, ln_common"]}
{"id": "C51", "title": "pow special cases and integer powers", "statement": "pow(0, y<0) panics, pow(x<0, non-integer) panics, pow(x,0)=1, pow(0,y>0)=0, pow(x,1) is x correctly rounded to the result scale (at least 16, at least the scale of x, at most 1000), pow(x,-1) is 1/x correctly rounded, pow(x,2) differs from x*x by at most half a unit of the last place plus 1/10000 unit per base-10000 digit of x; pow(NaN,0)=1 and pow(1,NaN)=1, any other NaN operand gives NaN.", "quantifier": "every pair of numerics", "why_tests_cant": "the set of numerics is infinite for practical purposes (131072 integral and 16383 fractional digits); tests sample a handful of literals", "anchors": ["src/var.rs: pow, power_common, power_int"]}
{"id": "C52", "title": "Accuracy of integer powers", "statement": "One unit in the last displayed place cannot be promised: pow(1.9,128) is off by 9*10^5 although shown with 16 decimals. What holds: let l be |x| cut after its first base-10000 digit. For 3 <= n < 2^31, pow(x,n) never panics; it differs from x^n by at most half a unit in the last place plus 10^-5 (|x|/l)^n of one (so by at most 0.50002 units when |x|^n <= 2 l^n), unless it is zero, which happens only if l^n <= 1/4 unit; None only if |x|^n >= (1 - 10^-5) 10^131072. For -2^31 < n <= -2 the error is at most 0.50001 units for every x; the only failure is an arithmetic-overflow panic in debug builds, excluded when the scale is at most 30, |x|^n >= 10^-60 and l^n <= 10^8.", "quantifier": "every non-zero numeric base and every i32 exponent but -2^31 (0, 1, 2 and -1 are in C51), both builds", "why_tests_cant": "the error accumulates over up to 62 truncated multiplications and one approximate division, with the working precision chosen from a floating-point estimate", "anchors": ["src/var.rs: power_int, mul_common, div_fast_common", "src/num.rs: pow"]}
{"id": "C53", "title": "Powers with an exponent of i32::MIN", "statement": "pow(x, -2147483648): None when |x| < 0.9996; zero when |x| >= 2; when 0.9996 <= |x| < 2 a debug build panics and a release build returns 1. (That it does not panic and is close to 1/x^2147483648 is false of this code, see C53_pow_i32_min_refuted.)", "quantifier": "every non-zero base, both build profiles", "why_tests_cant": "single boundary exponent", "anchors": ["src/var.rs: power_int (exp.abs())"]}
{"id": "C54", "title": "Approximate division used by transcendental functions", "statement": "The fast division used by sqrt, ln, exp and pow rounds, at the requested scale, a number within 10^-9 units of the last requested place of the exact quotient; it never indexes outside its workspace, and can only panic in a debug build, with an arithmetic overflow, and only when the divisor has more than 21 base-10000 digits.", "quantifier": "every pair of operands", "why_tests_cant": "float estimates with delayed carries", "anchors": ["src/var.rs: div_fast_common"]}
{"id": "C55", "title": "sqrt and overflow in debug builds", "statement": "A debug-build sqrt of a number below 10^32 with at most 56 decimals never panics with an arithmetic overflow. (That this holds for every positive number is false of this code, see C55_sqrt_debug_overflow_refuted; release builds never do, C48.)", "quantifier": "every numeric in that range", "why_tests_cant": "needs a divisor of more than 21 base-10000 digits in a particular pattern", "anchors": ["src/var.rs: div_fast_common, sqrt_common"]}
{"id": "C56", "title": "exp gives up at 6000", "statement": "exp(x) returns None for every |x| >= 6000, negative x included, and a number for every |x| < 6000 (C68). (That exp of very negative numbers is zero at the displayed scale, as in PostgreSQL, is false of this code, see C56_exp_negative_refuted.)", "quantifier": "every numeric, any sound conversion to double", "why_tests_cant": "range boundary", "anchors": ["src/var.rs: exp_common"]}
{"id": "C57", "title": "sqrt terminates", "statement": "sqrt returns or panics within 270000 iterations on every numeric whose square root, in units of the eighth decimal beyond the scale of the result, is not within 10^-9 of an integer and a quarter. (That it ends on every numeric is false of this code: see C57_sqrt_terminates_refuted.)", "quantifier": "every numeric, both build profiles", "why_tests_cant": "the Newton loop stops only when two consecutive iterates agree; whether that ever happens depends on rounding in the last place", "anchors": ["src/var.rs: sqrt_common"]}
{"id": "C58", "title": "sqrt of tiny numbers", "statement": "sqrt of a positive numeric below 10^-2020 panics with an internal error in every build; from 10^-2020 to 10^-2016 it returns zero with 1000 decimals; from 10^-2016 on a release build does not panic. (That sqrt of a positive number never panics is false of this code, see C58_sqrt_tiny_refuted.)", "quantifier": "every positive numeric", "why_tests_cant": "the panic needs a number below 10^-2016", "anchors": ["src/var.rs: sqrt_common, sqrt"]}
{"id": "C59", "title": "Exactly when the scientific format panics", "statement": "format!(\"{:e}\", x) panics with a division by zero for every non-zero numeric below 10^-1001 in magnitude and returns for all others. (That it never panics is false of this code, see C59_sci_never_panics_refuted.)", "quantifier": "every numeric", "why_tests_cant": "panics only below 1e-1001", "anchors": ["src/var.rs: write_sci, power_int", "src/num.rs: LowerExp, UpperExp"]}
{"id": "C60", "title": "Integer powers that fit the result scale are exact", "statement": "For an integer exponent 0 <= n < 2^31 (written at any scale): if x^n is a multiple of 10^-r, r being the scale of the result, and x is an integer or n <= 16, then pow(x,n) is exactly x^n at scale r, or None when x^n has more than 131072 integral digits.", "quantifier": "every numeric base and every exponent", "why_tests_cant": "up to 31 squarings of numbers of up to 131072 digits, with a float estimate deciding overflow, underflow and working precision", "anchors": ["src/var.rs: power_int, power_common, pow", "src/num.rs: pow"]}
{"id": "C61", "title": "Negative powers of integers", "statement": "For a non-zero integer x (of scale at most 60, or in a release build of any scale) and -2^31 < n < 0, pow(x,n) returns a number within half a unit (plus a billionth) of the last place of 1/x^|n|; in particular exactly 1/x^|n| when that fits the scale.", "quantifier": "every integer base and every negative i32 exponent but the smallest", "why_tests_cant": "a float estimate decides when the result is taken as zero; the division is approximate", "anchors": ["src/var.rs: power_int, div_fast_common"]}
{"id": "C62", "title": "Negative base with an integer exponent outside i32", "statement": "pow(x,n) with x < 0 and an integer n outside the i32 range never returns: a debug build panics, a release build panics or iterates for ever. (The power is defined, so one would expect a result: false of this code, see C62_pow_beyond_i32_refuted.)", "quantifier": "every negative base, every integer exponent outside i32, any number of iterations, any libm", "why_tests_cant": "needs exponents beyond 2^31", "anchors": ["src/var.rs: power_common, ln_common"]}
{"id": "C63", "title": "Debug builds only add checks", "statement": "For every entry point, including sqrt, ln, log, exp and pow, and for every input, even bytes that are no valid numeric: a release build does what a debug build does (same result, same panic message, same non-termination, same buffer afterwards), unless one of the checks that only debug builds have (overflow check, debug assertion) fires first.", "quantifier": "every entry point and every input, valid or not", "why_tests_cant": "tests run in one profile on a few values", "anchors": ["src/num.rs", "src/var.rs", "src/binary.rs", "src/parse.rs", "src/convert.rs"]}
{"id": "C64", "title": "ln is accurate", "statement": "ln(x) of a positive x either does not return, panics on an arithmetic overflow in a debug build, or returns a numeric with a scale s between min(1000, scale of x) and 1000 whose value differs from the real natural logarithm of x by at most 0.5003 + (1 + 23*|ln x|)*(s + 10)/10^8 units of its last decimal.", "quantifier": "every positive finite numeric (up to 131072 integer digits and 16383 decimals), both build profiles, any platform log10/ln used for the scale estimate", "why_tests_cant": "the domain is infinite and the error of a reduction by repeated square roots followed by a series accumulates in a way no sample bounds", "anchors": ["src/var.rs: ln_common, estimate_ln_dweight, NumericVar::ln", "src/num.rs: NumericBuf::ln"]}
{"id": "C65", "title": "Layout handed back when a buffer is dropped", "statement": "When a NumericBuf is dropped, the memory is handed back with the size of its allocation but never with its alignment (1 instead of 2), which the allocator contract forbids. (That the layouts agree is false of this code, see C65_refuted.)", "quantifier": "every NumericBuf", "why_tests_cant": "common allocators ignore the alignment of small blocks, so a mismatch is silent", "anchors": ["src/num.rs: Drop for NumericBuf", "src/data.rs: buf_alloc, buf_free"]}
{"id": "C66", "title": "What Debug prints of a fresh NumericBuf", "statement": "{:?} of a NumericBuf made from a number prints one or two words of uninitialised memory and then exactly the bytes of the number. (That the text depends only on the number is false of this code, see C66_refuted.)", "quantifier": "every number, every content of uninitialised memory", "why_tests_cant": "a test sees whatever the allocator happens to return", "anchors": ["src/num.rs: Debug for NumericBuf"]}
{"id": "C67", "title": "ln keeps at least fifteen significant digits", "statement": "If the platform's f64 ln and log10 are right to 10^-9, then whenever ln(x) of a positive x other than 1 returns, the result has 1000 decimals or a scale s with |ln x| * 10^s >= 9*10^14.", "quantifier": "every positive finite numeric other than 1, both build profiles, every pair of platform logarithms within the stated error", "why_tests_cant": "the scale is chosen from a floating point estimate over an infinite domain, with two formulas switched at 0.9 and 1.1", "anchors": ["src/var.rs: estimate_ln_dweight, NumericVar::ln", "src/num.rs: NumericBuf::ln"]}
{"id": "C68", "title": "exp is accurate", "statement": "exp(x) of any x with |x| < 6000 returns, in both build profiles, a numeric with a scale s between min(1000, scale of x) and 1000 whose value differs from the real e^x by at most 0.504 units of its last decimal; only within 10^-11 of 6000 in magnitude may it give up (None) instead. It never panics and needs fewer than 4000 rounds of its loops.", "quantifier": "every finite numeric below 6000 in magnitude with up to 16383 decimals, both build profiles, any text to f64 conversion right to 10^-15", "why_tests_cant": "the domain is infinite, and the error of the Taylor series is doubled by up to twenty squarings; whether the guard digits cover it for every argument and scale cannot be seen from samples", "anchors": ["src/var.rs: exp_common, NumericVar::exp", "src/num.rs: NumericBuf::exp"]}
{"id": "C69", "title": "exp keeps at least fifteen significant digits", "statement": "When exp(x) with |x| < 6000 returns a value, its scale is 1000 or the result carries at least fifteen significant decimal digits.", "quantifier": "every finite numeric below 6000 in magnitude, both build profiles", "why_tests_cant": "the scale is chosen from a float estimate of the decimal exponent; an off-by-one shows only for arguments near powers of ten", "anchors": ["src/var.rs: NumericVar::exp, LOG10_E use", "src/num.rs: NumericBuf::exp"]}
{"id": "C70", "title": "ln near one always returns", "statement": "ln(x) of any numeric strictly between 0.9 and 1.1 returns after at most 505 rounds of its loops with the accuracy of C64, without a panic in a release build, and in a debug build too when x has at most 80 decimals.", "quantifier": "every numeric between 0.9 and 1.1 (up to 16383 decimals in release, 80 in debug), every round limit of at least 505, any f64::log10 and f64::ln right to 10^-9", "why_tests_cant": "the series loop has no bound in the code: it ends when a term rounds to zero, which has to be shown for every argument and scale", "anchors": ["src/var.rs: ln_common, NumericVar::ln", "src/num.rs: NumericBuf::ln"]}
{"id": "C71", "title": "Floats convert to decimals of their reliable digits", "statement": "Numeric from a finite f64 (f32) succeeds and holds the float rounded to 15 (6) significant decimal digits, at the least scale that can express that value; NaN gives NaN; the infinities, and nothing else, are refused as an invalid value.", "quantifier": "every finite f64 and f32, normal or subnormal, NaN and both infinities, both build profiles, any snprintf that prints %.*g as C11 says", "why_tests_cant": "there are 2^64 doubles; the text switches between plain and scientific notation at two exponents and the parser then chooses a scale", "anchors": ["src/convert.rs: from_floating, TryFrom<f32>, TryFrom<f64>"]}
{"id": "C72", "title": "Numerics convert to the nearest float", "statement": "f64 from a numeric is the nearest double, NaN for NaN, and an infinity of the right sign when that is beyond the range: never an error. f32 from a numeric is that double rounded to f32, and is an overflow error exactly when the double is finite and rounds to an infinity, or nonzero and rounds to zero. So numbers from 10^39 to 10^308 are an error but from 10^309 on become an infinity, and nonzero numbers up to 10^-46 are an error but below 10^-324 become zero.", "quantifier": "every valid numeric, all of NaN, by reference and by value, both build profiles, any strtod that rounds to nearest", "why_tests_cant": "the domain is infinite, and the double rounding and the two range ends differ only at values tests do not name", "anchors": ["src/convert.rs: TryFrom<&NumericVar> for f32, for f64, convert_numeric_to_float"]}
{"id": "C73", "title": "Decimals of few digits survive a float round trip", "statement": "A numeric with at most 15 significant digits that is zero or between 10^-307 and 10^308 in magnitude comes back unchanged (at its least scale) from the conversion to f64 and back; one with at most 6 digits, zero or between 10^-37 and 10^38, from the conversion to f32 and back.", "quantifier": "every numeric of at most 15 (6) significant digits and any scale in the range, both build profiles, any correct snprintf and strtod", "why_tests_cant": "about 10^17 decimals for each of six hundred exponents; a precision off by one loses only some of them", "anchors": ["src/convert.rs: from_floating, TryFrom<&NumericVar> for f32, for f64, FloatPrecision"]}
{"id": "C74", "title": "exp needs no more than a correct strtod", "statement": "With any strtod that rounds to nearest, the conversion exp uses internally meets every assumption made of it: exp returns None for every |x| >= 6000, and for |x| < 6000 the accuracy of C68 holds.", "quantifier": "every valid finite numeric, both build profiles, any strtod that rounds to nearest, any f64::log10 and f64::ln", "why_tests_cant": "the argument is converted through a text of up to 147456 characters, whose rounding, underflow and overflow the accuracy has to survive for every argument", "anchors": ["src/convert.rs: TryFrom<&NumericVar> for f64", "src/var.rs: exp_common, NumericVar::exp"]}
{"id": "C75", "title": "Logarithms to a base are right to half a unit", "statement": "If the number is not within 10^-990 of one (it may be one) and the base is not within 10^-1980 of one, log(x, b), log2(x) and log10(x) either do not end, or in a debug build panic on an arithmetic overflow, or return a number within 0.505 units in its last place of the exact ln(x)/ln(b), at a scale between the larger of the operands' scales (at most 1000) and 1000.", "quantifier": "every valid positive number and base outside those neighbourhoods of one, both build profiles and headers, any f64::log10 and f64::ln right to 10^-9, any number of loop iterations", "why_tests_cant": "two argument dimensions, each an infinite set; a working precision one digit too low shows only where a quotient falls near a rounding boundary", "anchors": ["src/var.rs: log_common, NumericVar::log, log2, log10, ln_common, estimate_ln_dweight, div_common"]}
{"id": "C76", "title": "Logarithms to a base have thirteen significant digits", "statement": "Under the conditions of C75 with a number other than one, the result that log returns has at least thirteen significant digits (the exact value is at least 3.9*10^13 units in the last place), or the maximal scale of 1000.", "quantifier": "as C75", "why_tests_cant": "depends on an estimate of the decimal weight of a quotient made from doubles, for every pair of arguments", "anchors": ["src/var.rs: log_common, estimate_ln_dweight"]}
{"id": "C77", "title": "Logarithm of a number extremely close to one", "statement": "log(x, b) with x within 10^-1020 of one but not one, and b between 1.1 and 1.5, never returns a number: it panics with the division-by-zero message (or does not end, or panics on an arithmetic overflow in a debug build), because ln(b) is computed at scale 0 and rounds to zero.", "quantifier": "every valid number x with 0 < |x-1| <= 10^-1020 and every valid base in [1.1, 1.5], both build profiles, any f64::log10 and f64::ln right to 10^-9", "why_tests_cant": "needs arguments of more than a thousand digits, and the claim is about all of them", "anchors": ["src/var.rs: log_common, div_common"]}
{"id": "C78", "title": "Powers with a fractional exponent are accurate", "statement": "pow(x, y) with x > 0 not within 10^-990 of one and y not an integer of 32 bits, whose exact value lies between 10^-1000 and 10^2600, returns a number within 0.58 of a unit in its last place of the real power x^y, with a scale from the larger of the operands' scales (capped at 1000) to 1000; otherwise it only may not end (the sqrt reduction, C57) or, in a debug build, panic on an arithmetic overflow (C55).", "quantifier": "every pair of valid numbers as stated, both build profiles, any f64::log10 and f64::ln right to 10^-9 and any text to f64 conversion right to 10^-15", "why_tests_cant": "the scales of the logarithm, the product and the exponential are chosen from estimates made in doubles; the error must be bounded for every pair of arguments", "anchors": ["src/var.rs: power_common, ln_common, exp_common", "src/num.rs: pow"]}
{"id": "C79", "title": "Fractional powers out of range are refused", "statement": "Under the conditions of C78 on x and y, pow(x, y) never returns a number when x^y is at least 10^2610, nor when it is at most 10^-2620: the result is None (also for the small ones, which PostgreSQL rounds to zero).", "quantifier": "every pair of valid numbers as in C78 with such a power", "why_tests_cant": "range over unboundedly many pairs, decided by a double computed from estimates", "anchors": ["src/var.rs: power_common, exp_common"]}
{"id": "C80", "title": "Fractional powers have fifteen significant digits", "statement": "Under the conditions of C78 on x and y with x^y at least 10^-1000, the number pow returns has a scale of 1000 or at least fifteen significant digits (the exact power is at least 9*10^14 units in the last place).", "quantifier": "as C78", "why_tests_cant": "depends on an estimate of the decimal weight made from doubles, for every pair of arguments", "anchors": ["src/var.rs: power_common, exp_common"]}
{"id": "C81", "title": "Tiny fractional powers come out as one", "statement": "pow(x, y) with x in [2/3, 9/10] or [11/10, 3/2], y not an integer of 32 bits and x^y between 10^-2600 and 10^-1020 returns exactly 1 with scale 1000 (when it returns): the logarithm of x is computed at scale 0 and rounds to zero. For instance pow(0.8, 12000.5) = 1.", "quantifier": "every such pair of valid numbers, both build profiles, platform functions as in C78", "why_tests_cant": "the claim is about every argument of a region no test visits", "anchors": ["src/var.rs: power_common"]}
{"id": "C82", "title": "Every buffer is freed exactly once", "statement": "In any program with any number of NumericBufs, made from stored numbers, from results of arithmetic or parsing and by clone, worked on with the *_mut operations and apply_typmod and dropped in any order, also when an operation panics and the panic is caught: no block of memory is freed twice or with another size than it was allocated with, no freed or foreign block is read or written, no operation on one buffer changes what another shows, and at any point the blocks that are allocated are exactly those of the buffers still alive, so that nothing is left when the last one is dropped.", "quantifier": "every sequence of statements, every content of fresh memory, both build profiles and length formats", "why_tests_cant": "a leak, a double free or an alias between clones only shows in particular interleavings of reallocation, panics and drops; tests run without a checking allocator", "anchors": ["src/data.rs: NumericData buf_alloc, buf_free, buf_copy, reserve_rounding_digit, into_raw_parts, Drop", "src/num.rs: NumericBuf as_var_owned, into_var, round_mut, apply_typmod, Clone, Drop", "src/var.rs: into_numeric_buf, make_result"]}
{"id": "C83", "title": "Formatting into any writer", "statement": "Writing a number with {} into any fmt::Write makes one fixed sequence of write_str and write_char calls, whose concatenation is the text of C31, up to the first call the writer refuses, and returns Err exactly if one was refused; a String receives the whole text; a writer that refuses at will is left with a beginning of the text, all of it if Ok was returned. {:e} and {:E} likewise with the text of C34; where they panic (C59) they do so before anything is written. Width, fill, sign and precision flags have no effect.", "quantifier": "every valid number, every writer (its state and its refusals arbitrary), both build profiles and length formats", "why_tests_cant": "writers that fail after any number of characters", "anchors": ["src/var.rs: write, write_sci", "src/num.rs: Display, LowerExp, UpperExp"]}
{"id": "C84", "title": "Text of a Typmod", "statement": "A Typmod made by Typmod::new(p, s) displays as '(p, s)' in plain decimal, on any writer; the default Typmod (no limit) displays as '(65535, 65531)'.", "quantifier": "every precision and scale accepted, every writer, both build profiles", "why_tests_cant": "half a million pairs and any writer", "anchors": ["src/typmod.rs: Display, extract, Default"]}
{"id": "C85", "title": "All the outcomes of a logarithm", "statement": "For every positive x and every positive base not within 10^-1980 of one, log(x, b) does not end, or panics (dividing by zero, C77; or, in a debug build, on an arithmetic overflow, C55), or returns a valid numeric at a scale between the larger of the operands' scales (at most 1000) and 1000; likewise log2(x) and log10(x) for every positive x, however close to one.", "quantifier": "every valid positive number, every base outside that neighbourhood of one, both build profiles and headers, any f64::log10 and f64::ln right to 10^-9, any number of loop iterations", "why_tests_cant": "the absence of any other outcome (memory error, invalid result, other panic) must hold for every pair of arguments", "anchors": ["src/var.rs: log_common, NumericVar::log, log2, log10, ln_common, estimate_ln_dweight", "src/num.rs: log, log2, log10"]}
{"id": "C86", "title": "One to any power is one", "statement": "pow(x, y) with x equal to one returns exactly one: at scale min(1000, max(16, scale of x, scale of y)) when y is not an integer of 32 bits, and at scale min(1000, max(16, scale of x)) when it is (for negative y in a debug build, with x written with at most 60 decimals; y = i32::MIN is C53).", "quantifier": "every exponent, every way of writing one, both build profiles and headers, any f64 functions as in C60 and C78", "why_tests_cant": "every exponent, of up to 131072 digits before and 16383 after the decimal point", "anchors": ["src/var.rs: power_common, power_int, ln_common, exp_common", "src/num.rs: pow"]}
{"id": "C87", "title": "Arithmetic stays inside its buffers and its machine integers", "statement": "Adding, subtracting, multiplying, dividing (rounded or truncated), taking remainders, rounding, truncating, ceil, floor and comparing two valid numerics never reads or writes outside a digit buffer, never computes an index, weight, scale or length that overflows i16, i32, u32 or usize (so debug and release builds agree), does not depend on what uninitialised memory contained, and returns the exact result of C04-C06, C08, C11, C12, C17-C19.", "quantifier": "every pair of valid numerics, every content of freshly allocated memory, both build profiles and headers", "why_tests_cant": "operands have up to 36865 base-10000 digits with weights and scales at their limits; an index or length error shows only at particular combinations, and reading uninitialised memory usually goes unnoticed", "anchors": ["src/var.rs: add_abs, sub_abs, cmp_abs, mul_common, div_common, mod_common, select_div_scale, round_common, trunc_common, strip, ceil_common, floor_common, into_numeric_buf, make_result", "src/data.rs: NumericData", "src/num.rs: checked_add, checked_sub, checked_mul, checked_div, checked_div_trunc, checked_rem, round, trunc, ceil, floor, cmp"]}
{"id": "C88", "title": "Parsing, integer conversions and text output stay inside their buffers and machine integers", "statement": "Parsing any text, converting any integer of 8 to 128 bits to a numeric and back, and displaying a numeric never read or write outside a digit buffer, never overflow u8, i16, i32, i64, u32, usize or the integer type converted (so debug and release builds agree), do not depend on what uninitialised memory contained, and give exactly the results of C26-C28, C31, C38 and C39.", "quantifier": "every byte string shorter than 2^30 - 8, every integer of every width, every valid numeric, every content of freshly allocated memory, both build profiles and headers", "why_tests_cant": "the parser computes buffer sizes from attacker-controlled exponents and lengths; an overflow or an unwritten digit shows only at particular combinations of length and exponent, and reading uninitialised memory usually goes unnoticed", "anchors": ["src/parse.rs: read_numeric_digit, extract_exponent, parse_decimal, parse_str", "src/num.rs: from_str, fmt, from, try_from", "src/convert.rs: next_digit, integer From and TryFrom implementations, into_signed, into_unsigned", "src/var.rs: write, select_sci_scale, count_zeros", "src/data.rs: NumericData"]}
{"id": "C89", "title": "The square root stays inside its buffers and its machine integers", "statement": "Taking the square root of any valid numeric never reads or writes outside a digit buffer, never computes an index, weight, scale or length that overflows i32, u32 or usize, and does not depend on what uninitialised memory contained: it panics, fails to end or returns exactly as C48, C49, C55, C57 and C58 say. The only machine overflow is that of the digit accumulator of the fast division in debug builds (C55).", "quantifier": "every valid numeric, every content of freshly allocated memory, every number of iterations, both build profiles and headers", "why_tests_cant": "the iteration allocates and resizes buffers hundreds of times on operands of up to 36865 base-10000 digits; an index error shows only at particular combinations of weight and scale, and reading uninitialised memory usually goes unnoticed", "anchors": ["src/var.rs: div_fast_common, sqrt_common, sqrt, add_common, mul_common, cmp_common, round_common", "src/data.rs: NumericData", "src/num.rs: sqrt"]}
{"id": "C90", "title": "Integer powers and scientific notation stay inside their buffers and their machine integers", "statement": "Raising any valid numeric to an integer power of type i32 (or to NaN), and writing any valid numeric in scientific notation, never reads or writes outside a digit buffer, never computes an index, weight, scale, length or number of significant digits that overflows i32, u32 or usize (but for the absolute value of i32::MIN, C53, and the digit accumulator of the fast division in debug builds, C55), and does not depend on what uninitialised memory contained: it panics or returns exactly as C34, C51-C53, C59-C61 say.", "quantifier": "every valid numeric, every exponent that is NaN or an integer from -2^31 to 2^31 - 1, every content of freshly allocated memory, both build profiles and headers, every platform log10 and ln within the stated bounds", "why_tests_cant": "up to 62 multiplications with scales that depend on floating-point estimates, on operands of up to 36865 base-10000 digits; an index error shows only at particular combinations of weight, scale and exponent, and reading uninitialised memory usually goes unnoticed", "anchors": ["src/var.rs: power_int, power_common, pow, write_sci, div_fast_common, div_common, mul_common, round_common", "src/data.rs: NumericData", "src/num.rs: pow, LowerExp, UpperExp"]}
{"id": "C91", "title": "Logarithms stay inside their buffers and their machine integers", "statement": "ln of any valid numeric, log2 and log10 of any valid numeric, and log of any valid numeric to a base that is NaN or differs from one by at least 10^-1980, never read or write outside a digit buffer, never compute an index, weight, scale or length that overflows i32, u32 or usize (but for the digit accumulator of the fast division in debug builds, C55), and do not depend on what uninitialised memory contained: they panic or return, with the digits, that C64, C75, C85 and the domain rules say, or need more rounds of their loops than given exactly when the model on lists does.", "quantifier": "every valid numeric, every base that is NaN or differs from one by at least 10^-1980, every content of freshly allocated memory, any number of rounds of the loops, both build profiles and headers; for ln every platform log10 and ln, for the others every platform log10 and ln right to 10^-9", "why_tests_cant": "a square-root loop nested in two range-reduction loops, then a series, at scales that depend on floating-point estimates; an index error shows only at particular combinations of weight and scale, and reading uninitialised memory usually goes unnoticed", "anchors": ["src/var.rs: ln_common, estimate_ln_dweight, ln, log_common, log, sqrt_common, div_fast_common, mul_common, add_common, sub_common, round_common", "src/data.rs: NumericData", "src/num.rs: ln, log, log2, log10"]}
{"id": "C92", "title": "The exponential stays inside its buffers and its machine integers", "statement": "exp of any valid numeric never reads or writes outside a digit buffer, never computes an index, weight, scale, length or number of significant digits that overflows i32, u32 or usize, and does not depend on what uninitialised memory contained: it gives up exactly where C56 and C68 say, and otherwise returns the digits and accuracy that C68 says, in every build.", "quantifier": "every valid numeric, every content of freshly allocated memory, both build profiles and headers, every platform whose text to f64 conversion is right to 10^-15, every number of loop rounds from 4000 on", "why_tests_cant": "range reduction, a series and up to 20 squarings at scales that depend on floating-point estimates; an index error shows only at particular combinations of weight and scale, and reading uninitialised memory usually goes unnoticed", "anchors": ["src/var.rs: exp_common, exp, add_common, mul_common, div_fast_common, round_common, write", "src/data.rs: NumericData", "src/convert.rs: TryFrom<&NumericVar> for f64", "src/num.rs: exp"]}
{"id": "C93", "title": "Powers with any exponent stay inside their buffers and their machine integers", "statement": "pow of two valid numerics - the exponent NaN, an i32, or anything else when the base is NaN, one, or not within 10^-990 of one - never reads or writes outside a digit buffer, never computes an index, weight, scale, length or number of significant digits that overflows i32, u32 or usize (but for C53 and the digit accumulator of the fast division in debug builds, C55), and does not depend on what uninitialised memory contained: it panics, gives up or returns, with the digits and accuracy, that C51-C53, C60-C62 and C78-C81, C86 say, or needs more rounds of its loops than given exactly when the model on lists does.", "quantifier": "every pair of valid numerics as described, every content of freshly allocated memory, every number of loop rounds from 4000 on, both build profiles and headers, every platform whose log10, ln and text to f64 conversion are within the stated bounds", "why_tests_cant": "two logarithms at scales chosen from a first estimate, a product and an exponential; an index error shows only at particular combinations of weight, scale and exponent, and reading uninitialised memory usually goes unnoticed", "anchors": ["src/var.rs: power_common, pow, estimate_ln_dweight, ln_common, exp_common, mul_common", "src/data.rs: NumericData", "src/convert.rs: TryFrom<&NumericVar> for f64", "src/num.rs: pow"]}
{"id": "C94", "title": "A history of in-place operations stays inside its buffer and its machine integers", "statement": "A NumericBuf made from a number and put through any sequence of negate_mut, abs_mut, round_mut, trunc_mut, apply_typmod, clone, +=, -=, *=, /= and %= never reads or writes outside its buffer, never computes an index, offset, length, weight, scale or digit count that overflows i32, u32 or usize, and does not depend on what uninitialised memory contained, however often the buffer is reused, shifted or reallocated: every call returns or panics as the operation on the stored number does, and the bytes shown afterwards are the same (or the buffer is null, where C23 says). After any history a type modifier rounds and reports overflow as C21 says, and += adds exactly or panics leaving the number as it was.", "quantifier": "every valid numeric, every finite sequence of these operations with every i32 scale, every type modifier value and every valid numeric as right operand, every content of freshly allocated memory, both build profiles and headers", "why_tests_cant": "the position and length of the buffer depend on the whole history; an offset error shows only after particular sequences of carries, strips and header changes, and reading uninitialised memory usually goes unnoticed", "anchors": ["src/num.rs: NumericBuf::negate_mut, abs_mut, round_mut, trunc_mut, apply_typmod, as_bytes, as_var_owned, into_var, Clone", "src/ops.rs: AddAssign, SubAssign, MulAssign, DivAssign, RemAssign, Div, Rem", "src/var.rs: apply_typmod, round_common, trunc_common, into_numeric_buf, make_result", "src/data.rs: NumericData"]}
{"id": "C95", "title": "Signs, factorials, keys, hashes and owned integer conversions stay inside their buffers and machine integers", "statement": "negate, abs, signum and inc of any number, factorial of any i64, normalize(), the data given to a Hasher, and the integer conversions of a NumericBuf with any history of in-place operations behind it never read or write outside a buffer, never compute an index, length, weight, count or running factor that overflows its machine type, and do not depend on what uninitialised memory contained. They deliver what the operations on the stored number do: n! exactly for n up to 32177 (1 for n <= 1) and nothing above, keys and hash data that are equal exactly if the numbers compare equal, and the nearest integer if it fits the type, an out-of-range error otherwise.", "quantifier": "every valid numeric, pair of numerics, every i64, every history of in-place operations and operators, every integer width of the API, every content of freshly allocated memory, both build profiles and headers", "why_tests_cant": "an index or count error shows only for particular digit counts, weights and histories; equality of keys must hold for every pair of numbers; 32177 factorials of up to 131072 digits cannot be compared one by one", "anchors": ["src/num.rs: Numeric::negate, abs, signum, inc, NumericBuf::factorial, normalize, Hash", "src/var.rs: factorial, normalize, signum, inc, hash", "src/convert.rs: TryFrom<NumericBuf> for integers"]}
{"id": "C96", "title": "Float conversions stay inside their buffers and machine integers", "statement": "Converting an f32 or f64 to a NumericBuf never writes or reads outside the 128-byte C buffer it prints to, does not depend on what that buffer or freshly allocated memory contained, never overflows a machine integer and never panics: it delivers the value rounded to 6 or 15 significant digits with the least scale, NaN for NaN, and an error for infinities. Converting a number, or a NumericBuf with any history of in-place operations behind it, to f64 or f32 never leaves its buffer or overflows either, and delivers the nearest double (for f32 as C72 says); numbers of 15 (6) digits survive the round trip.", "quantifier": "every finite f32 and f64, NaN, infinities, every valid numeric, every history, every content of the C buffer and of freshly allocated memory, both build profiles and headers", "why_tests_cant": "2^64 doubles; uninitialised stack memory usually happens to be harmless in a test run", "anchors": ["src/convert.rs: from_floating, TryFrom<f32>, TryFrom<f64>, TryFrom<&NumericVar> for f32 and f64, impl_try_from_numeric_to_floating"]}
{"id": "C97", "title": "Error texts say what is wrong", "statement": "The text of a parse error is \"cannot parse numeric from empty string\" exactly if the text is blank, \"value overflows numeric format\" exactly if it is a literal out of range (or its exponent is found to be, before the rest is read), and \"invalid numeric literal\" exactly in the remaining failing cases. The text of a failed conversion is \"cannot convert to numeric\" exactly for NaN to an integer and for infinities from a float, and \"value is out of range\" exactly if the nearest integer does not fit the type, or if the nearest double is lost in an f32. f64 never fails.", "quantifier": "every text of less than 2^30 - 8 bytes, every valid numeric, every integer width, every finite f32 and f64, NaN, infinities", "why_tests_cant": "the texts that fail, and the numbers that do not fit, are unbounded sets; each error must appear for its whole class and for nothing else", "anchors": ["src/error.rs: NumericParseError, NumericTryFromError, From<NumericParseError>", "src/parse.rs: from_str", "src/convert.rs: into_signed, into_unsigned, from_floating, TryFrom"]}
{"id": "C98", "title": "No program over the API reaches undefined behaviour at machine level", "statement": "Take any program that builds numbers from text, integers, floats and bytes in the documented layout, and passes them, in any order and any number of times, to the arithmetic, rounding, sign, root, logarithm, exponential, power, copying and in-place operations. No call reads or writes outside a buffer or is otherwise undefined, whatever freshly allocated memory contains, and in both build profiles; every NumericBuf the program holds shows NaN or a number in the documented layout; in-place operations return or panic; comparing, hashing, normalising, displaying and converting to integers and floats always deliver, and scientific notation delivers or panics (only below 10^-1001).", "quantifier": "every program over the API (an unbounded sequence of calls whose arguments come from earlier calls), every content of fresh memory, both build profiles and header byte orders", "why_tests_cant": "programs, numbers and memory contents are unbounded; undefined behaviour may depend on spare words left by earlier operations and need not be visible in a test", "anchors": ["src/num.rs: NumericBuf, Numeric", "src/var.rs: NumericVar", "src/data.rs: NumericData", "src/ops.rs", "src/convert.rs", "src/parse.rs"]}
{"id": "C99", "title": "Formulas are exact from text to text", "statement": "Take any formula of numbers read from text and i64s, with addition, subtraction, multiplication, truncating division, remainder, negation, absolute value, ceil, floor, round and trunc, and division, which rounds the quotient to the scale the division policy prescribes. If every part of it is in range (below 10^131072, products within 16383 decimals, divisors not zero), running it gives exactly its mathematical value with the expected number of decimals, and Display prints that value digit for digit. Otherwise it gives nothing or panics, or NaN if NaN is written in it: never a wrong number. Formulas with the same value and scale give the same bytes; a sum gives the same bytes in whatever order its terms are added. A formula can be cut anywhere: the text displayed for a part of it, read again, means the same and gives the same bytes.", "quantifier": "every formula (of any size and shape), every content of fresh memory, both build profiles and header byte orders", "why_tests_cant": "formulas and operands are unbounded; an error in one operation may show only on operands another produces", "anchors": ["src/parse.rs: from_str", "src/num.rs: Num::checked_add, checked_sub, checked_mul, checked_div, checked_div_trunc, checked_rem, round, trunc, ceil, floor, negate, abs", "src/convert.rs: From<i64>", "src/var.rs: write"]}
