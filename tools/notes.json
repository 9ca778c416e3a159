{
 "C09": {
  "also": [
   "C08_div_correctly_rounded"
  ],
  "note": "C08 states the exact scale; this adds the significance consequence"
 },
 "C14": {
  "note": "NaN^0 and 1^NaN: C51_pow_nan",
  "also": [
   "C51_pow_nan"
  ]
 },
 "C22": {
  "note": "exact behaviour proved for every modifier; C22_refuted is the finding: the code does not preserve NaN",
  "status": "proved"
 },
 "C23": {
  "note": "exact characterisation proved; C23_refuted is the finding",
  "status": "proved"
 },
 "C44": {
  "note": "exact characterisation proved; C44_refuted is the finding. Reading outside the given bytes is UB in the model",
  "status": "proved"
 },
 "C46": {
  "also": [
   "C06_mul_exact",
   "C06_mul_scale_overflow"
  ],
  "note": "exact behaviour proved; C46_refuted is the finding",
  "status": "proved"
 },
 "C30": {
  "note": "exact characterisation proved; C30_refuted is the finding",
  "status": "proved"
 },
 "C03": {
  "note": "the closure covers every modelled entry point, in every build, for any libm and C library (log: logarithms right to 1e-9, bases not within 10^-1980 of one unless one)"
 },
 "C55": {
  "note": "the unrestricted claim is false of the code: C55_sqrt_debug_overflow_refuted is the finding (sqrt of 19710.9711...9710 with 100 decimals panics in div_fast_common)",
  "also": [
   "C48_sqrt_no_panic"
  ],
  "status": "proved"
 },
 "C57": {
  "note": "the unrestricted claim is false of the code: C57_sqrt_terminates_refuted is the finding, sqrt(43559999999999999999.9999901) never returns (its iterates alternate between 6600000000 and 6599999999.99...9); that number lies in the excluded set (example osc_near_quarter)",
  "also": [
   "C49_sqrt_square"
  ],
  "status": "proved"
 },
 "C58": {
  "note": "exact behaviour proved; C58_sqrt_tiny_refuted is the finding. Debug builds above 10^-2016: see C55",
  "also": [
   "C48_sqrt_no_panic",
   "C48_sqrt_release_outcomes"
  ],
  "status": "proved"
 },
 "C34": {
  "note": "the platform's log10 is a parameter; SpecLibm.log10_sound states what is assumed of it (log10_exists shows it can be met). Formatter flags (width, precision, alternate) are not modelled; the code ignores them"
 },
 "C59": {
  "note": "exact behaviour proved (C34_sci_exact: all others return); C59_sci_never_panics_refuted is the finding",
  "status": "proved",
  "also": [
   "C34_sci_exact"
  ]
 },
 "C52": {
  "status": "proved",
  "note": "The one-unit claim is false of the code (C52_pow_accurate_refuted: pow(1.9, 128) is off by more than 900000, because the loop that should read sixteen digits of the base reads one base-10000 digit). The bound that does hold is proved for every base and exponent, under log10_sound, log10_fine and ln_between for the platform's functions."
 },
 "C53": {
  "note": "exact behaviour proved for every non-zero base (C51 covers zero); C53_pow_i32_min_refuted is the finding",
  "status": "proved",
  "also": []
 },
 "C62": {
  "note": "proved for every call, whatever libm does; C62_pow_beyond_i32_refuted is the finding",
  "status": "proved"
 },
 "C63": {
  "note": "the platform's log10, ln and numeric-to-double conversion are parameters, the same in both profiles; fuel bounds the loops that have no bound in the code"
 },
 "C50": {
  "note": "nothing is assumed of libm except, for exp(0), that strtod reads zero as zero"
 },
 "C56": {
  "note": "exact behaviour proved; C56_exp_negative_refuted is the finding. float_sound states what is assumed of the conversion to double",
  "status": "proved",
  "also": [
   "C68_exp_accurate"
  ]
 },
 "C20": {
  "note": "integer conversions run the same round_common on a copy; the buffer-level simulation (DataSim.round_common_sim) covers it"
 },
 "C65": {
  "note": "exact; C65_refuted is the finding. Assumes Vec::with_capacity asks for exactly the capacity it is given",
  "status": "proved"
 },
 "C66": {
  "note": "exact; C66_refuted is the finding",
  "status": "proved"
 },
 "C64": {
  "note": "uses the standard library's axioms of the reals (see DESIGN.md). ln can run forever on some inputs because sqrt can (C57): those runs are the Diverge case"
 },
 "C67": {
  "note": "uses the standard library's axioms of the reals; logs_near is the assumption on f64::ln and f64::log10"
 },
 "C71": {
  "note": "for any snprintf that meets snprintf_sound (SpecDouble.v); either way is allowed on a decimal tie"
 },
 "C72": {
  "note": "for any strtod that rounds to nearest; C72_f32_out_of_range is the finding: errors and silent infinities or zeros by size"
 },
 "C73": {
  "note": "for any sound snprintf and strtod"
 },
 "C74": {
  "note": "float_of models an infinity by a number from 2^1024 on"
 },
 "C75": {
  "note": "uses the standard library's axioms of the reals; termination of the sqrt reduction loop and the debug overflow (C55, C57) are left as alternatives"
 },
 "C77": {
  "note": "finding"
 },
 "C78": {
  "note": "uses the standard library's axioms of the reals; termination of the sqrt reduction loop and the debug overflow (C55, C57) are left as alternatives"
 },
 "C81": {
  "note": "finding"
 },
 "C82": {
  "note": "addresses are not reused in the model, so that a use after free would show; the alignment given to the allocator is C65"
 },
 "C83": {
  "note": "the flags are not an argument of the model: the code does not consult them"
 },
 "C85": {
  "note": "uses the standard library's axioms of the reals; termination of the sqrt reduction loop and the debug overflow (C55, C57) are left as alternatives"
 },
 "C86": {
  "note": "uses the standard library's axioms of the reals"
 },
 "C87": {
  "note": "allocation is assumed to succeed; the machine-level transcription covers add, sub, mul, div, div_trunc, rem, round, trunc, ceil, floor, cmp; parsing, integers and text in C88"
 },
 "C88": {
  "note": "allocation is assumed to succeed; the byte iterators of the parser (eat_digits, eat_whitespaces) are shared with Parse.v; of {:e} only the choice of scale is transcribed"
 },
 "C89": {
  "note": "allocation is assumed to succeed; doubles are those of Flt.v (unbounded exponent), as in Transc.v"
 },
 "C90": {
  "note": "exponents that are neither NaN nor an integer of type i32 are left to C75-C81 (model on lists); allocation is assumed to succeed; doubles are those of Flt.v, as in Transc.v"
 },
 "C91": {
  "note": "bases within 10^-1980 of one are left to the model on lists; allocation is assumed to succeed; doubles are those of Flt.v, as in Transc.v"
 },
 "C92": {
  "note": "allocation is assumed to succeed; doubles are those of Flt.v, and strtod a parameter, as in Transc.v"
 },
 "C93": {
  "note": "bases other than one within 10^-990 of it are left to the model on lists when the exponent is not an i32; allocation is assumed to succeed; doubles are those of Flt.v, and strtod a parameter, as in Transc.v"
 },
 "C94": {
  "note": "allocation is assumed to succeed; releasing buffers is C65 and C82"
 },
 "C95": {
  "note": "allocation is assumed to succeed"
 },
 "C96": {
  "note": "libc's snprintf and strtod are parameters assumed correct (SpecDouble.v); a usize passed for the int precision is taken to read as the same value; allocation is assumed to succeed"
 },
 "C97": {
  "note": "float conversions: snprintf and strtod are assumed correct, as in C71 and C72"
 },
 "C98": {
  "note": "bases of log within 10^-1980 of one, and bases of pow other than one within 10^-990 of it with an exponent that is not an i32, are excluded; libm, strtod and snprintf assumed as in C34, C74, C78, C72; the null buffer left by a failed in-place operation (C23) is not passed on; allocation is assumed to succeed; drop and free are C65"
 },
 "C99": {
  "note": "allocation is assumed to succeed; the value of a quotient is the exact quotient of its operands' values rounded to the scale of C08, of the operands' canonical forms"
 }
}