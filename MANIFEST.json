{
 "claims": [
  {
   "property": "C01",
   "status": "proved",
   "theorems": [
    "C01_binary_round_trip",
    "C01_binary_round_trip_nan"
   ],
   "note": ""
  },
  {
   "property": "C02",
   "status": "proved",
   "theorems": [
    "C02_layout",
    "C02_layout_nan",
    "C02_accessors"
   ],
   "note": ""
  },
  {
   "property": "C03",
   "status": "proved",
   "theorems": [
    "C03_reachable_canonical"
   ],
   "note": "the closure covers every modelled entry point, in every build, for any libm and C library (log: logarithms right to 1e-9, bases not within 10^-1980 of one unless one)"
  },
  {
   "property": "C04",
   "status": "proved",
   "theorems": [
    "C04_add_exact"
   ],
   "note": ""
  },
  {
   "property": "C05",
   "status": "proved",
   "theorems": [
    "C05_sub_exact"
   ],
   "note": ""
  },
  {
   "property": "C06",
   "status": "proved",
   "theorems": [
    "C06_mul_exact",
    "C06_mul_scale_overflow"
   ],
   "note": ""
  },
  {
   "property": "C07",
   "status": "proved",
   "theorems": [
    "C07_mul_no_overflow"
   ],
   "note": ""
  },
  {
   "property": "C08",
   "status": "proved",
   "theorems": [
    "C08_div_correctly_rounded"
   ],
   "note": ""
  },
  {
   "property": "C09",
   "status": "proved",
   "theorems": [
    "C09_div_significant_digits",
    "C08_div_correctly_rounded"
   ],
   "note": "C08 states the exact scale; this adds the significance consequence"
  },
  {
   "property": "C10",
   "status": "proved",
   "theorems": [
    "C10_div_no_overflow"
   ],
   "note": ""
  },
  {
   "property": "C11",
   "status": "proved",
   "theorems": [
    "C11_div_trunc"
   ],
   "note": ""
  },
  {
   "property": "C12",
   "status": "proved",
   "theorems": [
    "C12_rem"
   ],
   "note": ""
  },
  {
   "property": "C13",
   "status": "proved",
   "theorems": [
    "C13_div_by_zero"
   ],
   "note": ""
  },
  {
   "property": "C14",
   "status": "proved",
   "theorems": [
    "C14_nan_binary",
    "C14_nan_unary",
    "C14_nan_transcendental",
    "C51_pow_nan"
   ],
   "note": "NaN^0 and 1^NaN: C51_pow_nan"
  },
  {
   "property": "C15",
   "status": "proved",
   "theorems": [
    "C15_add_comm",
    "C15_mul_comm",
    "C15_sub_is_add_neg",
    "C15_add_assoc",
    "C15_distributive"
   ],
   "note": ""
  },
  {
   "property": "C16",
   "status": "proved",
   "theorems": [
    "C16_negate",
    "C16_negate_involution",
    "C16_abs",
    "C16_signum",
    "C16_inc"
   ],
   "note": ""
  },
  {
   "property": "C17",
   "status": "proved",
   "theorems": [
    "C17_round"
   ],
   "note": ""
  },
  {
   "property": "C18",
   "status": "proved",
   "theorems": [
    "C18_trunc"
   ],
   "note": ""
  },
  {
   "property": "C19",
   "status": "proved",
   "theorems": [
    "C19_ceil",
    "C19_floor"
   ],
   "note": ""
  },
  {
   "property": "C20",
   "status": "proved",
   "theorems": [
    "C20_history",
    "C20_computed"
   ],
   "note": "integer conversions run the same round_common on a copy; the buffer-level simulation (DataSim.round_common_sim) covers it"
  },
  {
   "property": "C21",
   "status": "proved",
   "theorems": [
    "C21_apply_typmod",
    "C21_apply_typmod_default"
   ],
   "note": ""
  },
  {
   "property": "C22",
   "status": "proved",
   "theorems": [
    "C22_refuted",
    "C22_typmod_nan"
   ],
   "note": "exact behaviour proved for every modifier; C22_refuted is the finding: the code does not preserve NaN"
  },
  {
   "property": "C23",
   "status": "proved",
   "theorems": [
    "C23_refuted",
    "C23_usable",
    "C23_lost_exactly",
    "C23_round_mut"
   ],
   "note": "exact characterisation proved; C23_refuted is the finding"
  },
  {
   "property": "C24",
   "status": "proved",
   "theorems": [
    "C24_in_place",
    "C24_assignment"
   ],
   "note": ""
  },
  {
   "property": "C25",
   "status": "proved",
   "theorems": [
    "C25_typmod_domain",
    "C25_typmod_round_trip"
   ],
   "note": ""
  },
  {
   "property": "C26",
   "status": "proved",
   "theorems": [
    "C26_parse_sound",
    "C26_parse_complete_nan"
   ],
   "note": ""
  },
  {
   "property": "C27",
   "status": "proved",
   "theorems": [
    "C27_parse_value"
   ],
   "note": ""
  },
  {
   "property": "C28",
   "status": "proved",
   "theorems": [
    "C28_parse_empty",
    "C28_parse_invalid",
    "C28_parse_overflow"
   ],
   "note": ""
  },
  {
   "property": "C29",
   "status": "proved",
   "theorems": [
    "C29_parse_total",
    "C29_parse_profiles"
   ],
   "note": ""
  },
  {
   "property": "C30",
   "status": "proved",
   "theorems": [
    "C30_refuted",
    "C30_no_spurious_overflow",
    "C30_overflow_exactly"
   ],
   "note": "exact characterisation proved; C30_refuted is the finding"
  },
  {
   "property": "C31",
   "status": "proved",
   "theorems": [
    "C31_display_exact",
    "C31_plain_text_unique",
    "C31_plain_text_value",
    "C31_display_nan"
   ],
   "note": ""
  },
  {
   "property": "C32",
   "status": "proved",
   "theorems": [
    "C32_display_parse"
   ],
   "note": ""
  },
  {
   "property": "C33",
   "status": "proved",
   "theorems": [
    "C33_normalize_shortest",
    "C33_normalize_key"
   ],
   "note": ""
  },
  {
   "property": "C34",
   "status": "proved",
   "theorems": [
    "C34_sci_exact",
    "C34_sci_zero",
    "C34_sci_nan",
    "C34_sci_parse",
    "C34_sci_same"
   ],
   "note": "the platform's log10 is a parameter; SpecLibm.log10_sound states what is assumed of it (log10_exists shows it can be met). Formatter flags (width, precision, alternate) are not modelled; the code ignores them"
  },
  {
   "property": "C35",
   "status": "proved",
   "theorems": [
    "C35_cmp",
    "C35_total_order"
   ],
   "note": ""
  },
  {
   "property": "C36",
   "status": "proved",
   "theorems": [
    "C36_eq",
    "C36_hash_consistent"
   ],
   "note": ""
  },
  {
   "property": "C37",
   "status": "proved",
   "theorems": [
    "C37_hash_separates"
   ],
   "note": ""
  },
  {
   "property": "C38",
   "status": "proved",
   "theorems": [
    "C38_from_signed",
    "C38_from_unsigned",
    "C38_from_bool"
   ],
   "note": ""
  },
  {
   "property": "C39",
   "status": "proved",
   "theorems": [
    "C39_to_signed",
    "C39_to_unsigned",
    "C39_nan"
   ],
   "note": ""
  },
  {
   "property": "C40",
   "status": "proved",
   "theorems": [
    "C40_signed_round_trip",
    "C40_unsigned_round_trip"
   ],
   "note": ""
  },
  {
   "property": "C41",
   "status": "proved",
   "theorems": [
    "C41_operators"
   ],
   "note": ""
  },
  {
   "property": "C42",
   "status": "proved",
   "theorems": [
    "C42_factorial",
    "C42_factorial_overflow"
   ],
   "note": ""
  },
  {
   "property": "C43",
   "status": "proved",
   "theorems": [
    "C43_serde_text",
    "C43_serde_bytes"
   ],
   "note": ""
  },
  {
   "property": "C44",
   "status": "proved",
   "theorems": [
    "C44_refuted",
    "C44_deserialize_release",
    "C44_deserialize_debug"
   ],
   "note": "exact characterisation proved; C44_refuted is the finding. Reading outside the given bytes is UB in the model"
  },
  {
   "property": "C45",
   "status": "proved",
   "theorems": [
    "C45_profiles_binary",
    "C45_profiles_unary",
    "C45_profiles_to_int",
    "C45_profiles_from_int",
    "C45_profiles_text",
    "C45_profiles_parse",
    "C45_profiles_mul",
    "C45_profiles_mul_nan",
    "C45_profiles_operators",
    "C45_profiles_copies",
    "C45_profiles_sci",
    "C45_profiles_in_place",
    "C45_profiles_typmod",
    "C45_profiles_factorial"
   ],
   "note": ""
  },
  {
   "property": "C46",
   "status": "proved",
   "theorems": [
    "C46_refuted",
    "C46_mul_zero",
    "C06_mul_exact",
    "C06_mul_scale_overflow"
   ],
   "note": "exact behaviour proved; C46_refuted is the finding"
  },
  {
   "property": "C47",
   "status": "proved",
   "theorems": [
    "C47_copies"
   ],
   "note": ""
  },
  {
   "property": "C48",
   "status": "proved",
   "theorems": [
    "C48_sqrt_special",
    "C48_sqrt_no_panic",
    "C48_sqrt_release_outcomes"
   ],
   "note": ""
  },
  {
   "property": "C49",
   "status": "proved",
   "theorems": [
    "C49_sqrt_accurate",
    "C49_sqrt_square",
    "C49_sqrt_square_exact"
   ],
   "note": ""
  },
  {
   "property": "C50",
   "status": "proved",
   "theorems": [
    "C50_ln_domain",
    "C50_log_domain",
    "C50_log_base_one",
    "C50_ln_one",
    "C50_exp_zero"
   ],
   "note": "nothing is assumed of libm except, for exp(0), that strtod reads zero as zero"
  },
  {
   "property": "C51",
   "status": "proved",
   "theorems": [
    "C51_pow_zero_neg",
    "C51_pow_neg_frac",
    "C51_pow_0",
    "C51_pow_zero_pos",
    "C51_pow_1",
    "C51_pow_minus_1",
    "C51_pow_2",
    "C51_pow_nan"
   ],
   "note": ""
  },
  {
   "property": "C52",
   "status": "proved",
   "theorems": [
    "C52_pow_accurate_refuted",
    "C52_pow_accurate",
    "C52_pow_one_unit",
    "C52_pow_accurate_neg"
   ],
   "note": "The one-unit claim is false of the code (C52_pow_accurate_refuted: pow(1.9, 128) is off by more than 900000, because the loop that should read sixteen digits of the base reads one base-10000 digit). The bound that does hold is proved for every base and exponent, under log10_sound, log10_fine and ln_between for the platform's functions."
  },
  {
   "property": "C53",
   "status": "proved",
   "theorems": [
    "C53_pow_i32_min",
    "C53_pow_i32_min_refuted",
    "C53_pow_i32_min_all"
   ],
   "note": "exact behaviour proved for every non-zero base (C51 covers zero); C53_pow_i32_min_refuted is the finding"
  },
  {
   "property": "C54",
   "status": "proved",
   "theorems": [
    "C54_fast_division"
   ],
   "note": ""
  },
  {
   "property": "C55",
   "status": "proved",
   "theorems": [
    "C55_sqrt_debug_small",
    "C55_sqrt_debug_overflow_refuted",
    "C48_sqrt_no_panic"
   ],
   "note": "the unrestricted claim is false of the code: C55_sqrt_debug_overflow_refuted is the finding (sqrt of 19710.9711...9710 with 100 decimals panics in div_fast_common)"
  },
  {
   "property": "C56",
   "status": "proved",
   "theorems": [
    "C56_exp_gives_up",
    "C56_exp_negative_refuted",
    "C68_exp_accurate"
   ],
   "note": "exact behaviour proved; C56_exp_negative_refuted is the finding. float_sound states what is assumed of the conversion to double"
  },
  {
   "property": "C57",
   "status": "proved",
   "theorems": [
    "C57_sqrt_terminates",
    "C57_sqrt_terminates_refuted",
    "C57_fuel_irrelevant",
    "C49_sqrt_square"
   ],
   "note": "the unrestricted claim is false of the code: C57_sqrt_terminates_refuted is the finding, sqrt(43559999999999999999.9999901) never returns (its iterates alternate between 6600000000 and 6599999999.99...9); that number lies in the excluded set (example osc_near_quarter)"
  },
  {
   "property": "C58",
   "status": "proved",
   "theorems": [
    "C58_sqrt_tiny_refuted",
    "C58_sqrt_tiny",
    "C48_sqrt_no_panic",
    "C48_sqrt_release_outcomes"
   ],
   "note": "exact behaviour proved; C58_sqrt_tiny_refuted is the finding. Debug builds above 10^-2016: see C55"
  },
  {
   "property": "C59",
   "status": "proved",
   "theorems": [
    "C59_sci_panics_below",
    "C59_sci_never_panics_refuted",
    "C34_sci_exact"
   ],
   "note": "exact behaviour proved (C34_sci_exact: all others return); C59_sci_never_panics_refuted is the finding"
  },
  {
   "property": "C60",
   "status": "proved",
   "theorems": [
    "C60_pow_exact"
   ],
   "note": ""
  },
  {
   "property": "C61",
   "status": "proved",
   "theorems": [
    "C61_pow_inverse"
   ],
   "note": ""
  },
  {
   "property": "C62",
   "status": "proved",
   "theorems": [
    "C62_pow_beyond_i32_panics",
    "C62_pow_beyond_i32_refuted",
    "C62_pow_beyond_i32_never_returns"
   ],
   "note": "proved for every call, whatever libm does; C62_pow_beyond_i32_refuted is the finding"
  },
  {
   "property": "C63",
   "status": "proved",
   "theorems": [
    "C63_arith",
    "C63_approximate",
    "C63_text_and_conversion",
    "C63_in_place"
   ],
   "note": "the platform's log10, ln and numeric-to-double conversion are parameters, the same in both profiles; fuel bounds the loops that have no bound in the code"
  },
  {
   "property": "C64",
   "status": "proved",
   "theorems": [
    "C64_ln_accurate"
   ],
   "note": "uses the standard library's axioms of the reals (see DESIGN.md). ln can run forever on some inputs because sqrt can (C57): those runs are the Diverge case"
  },
  {
   "property": "C65",
   "status": "proved",
   "theorems": [
    "C65_refuted",
    "C65_drop_layout"
   ],
   "note": "exact; C65_refuted is the finding. Assumes Vec::with_capacity asks for exactly the capacity it is given"
  },
  {
   "property": "C66",
   "status": "proved",
   "theorems": [
    "C66_refuted",
    "C66_debug_shows"
   ],
   "note": "exact; C66_refuted is the finding"
  },
  {
   "property": "C67",
   "status": "proved",
   "theorems": [
    "C67_ln_digits"
   ],
   "note": "uses the standard library's axioms of the reals; logs_near is the assumption on f64::ln and f64::log10"
  },
  {
   "property": "C68",
   "status": "proved",
   "theorems": [
    "C68_exp_accurate"
   ],
   "note": ""
  },
  {
   "property": "C69",
   "status": "proved",
   "theorems": [
    "C69_exp_digits"
   ],
   "note": ""
  },
  {
   "property": "C70",
   "status": "proved",
   "theorems": [
    "C70_ln_near_one"
   ],
   "note": ""
  },
  {
   "property": "C71",
   "status": "proved",
   "theorems": [
    "C71_from_f64",
    "C71_from_f32",
    "C71_from_special"
   ],
   "note": "for any snprintf that meets snprintf_sound (SpecDouble.v); either way is allowed on a decimal tie"
  },
  {
   "property": "C72",
   "status": "proved",
   "theorems": [
    "C72_to_f64",
    "C72_to_f32",
    "C72_to_float_nan",
    "C72_f32_out_of_range"
   ],
   "note": "for any strtod that rounds to nearest; C72_f32_out_of_range is the finding: errors and silent infinities or zeros by size"
  },
  {
   "property": "C73",
   "status": "proved",
   "theorems": [
    "C73_f64_round_trip",
    "C73_f32_round_trip"
   ],
   "note": "for any sound snprintf and strtod"
  },
  {
   "property": "C74",
   "status": "proved",
   "theorems": [
    "C74_float_sound",
    "C74_exp_accurate"
   ],
   "note": "float_of models an infinity by a number from 2^1024 on"
  },
  {
   "property": "C75",
   "status": "proved",
   "theorems": [
    "C75_log_accurate",
    "C75_log2_log10_accurate"
   ],
   "note": "uses the standard library's axioms of the reals; termination of the sqrt reduction loop and the debug overflow (C55, C57) are left as alternatives"
  },
  {
   "property": "C76",
   "status": "proved",
   "theorems": [
    "C76_log_digits"
   ],
   "note": ""
  },
  {
   "property": "C77",
   "status": "proved",
   "theorems": [
    "C77_log_near_one_panics"
   ],
   "note": "finding"
  },
  {
   "property": "C78",
   "status": "proved",
   "theorems": [
    "C78_pow_fraction_accurate"
   ],
   "note": "uses the standard library's axioms of the reals; termination of the sqrt reduction loop and the debug overflow (C55, C57) are left as alternatives"
  },
  {
   "property": "C79",
   "status": "proved",
   "theorems": [
    "C79_pow_fraction_refuses"
   ],
   "note": ""
  },
  {
   "property": "C80",
   "status": "proved",
   "theorems": [
    "C80_pow_fraction_digits"
   ],
   "note": ""
  },
  {
   "property": "C81",
   "status": "proved",
   "theorems": [
    "C81_pow_tiny_is_one"
   ],
   "note": "finding"
  },
  {
   "property": "C82",
   "status": "proved",
   "theorems": [
    "C82_programs",
    "C82_no_leak"
   ],
   "note": "addresses are not reused in the model, so that a use after free would show; the alignment given to the allocator is C65"
  },
  {
   "property": "C83",
   "status": "proved",
   "theorems": [
    "C83_display_any_writer",
    "C83_display_string",
    "C83_display_prefix",
    "C83_sci_any_writer"
   ],
   "note": "the flags are not an argument of the model: the code does not consult them"
  },
  {
   "property": "C84",
   "status": "proved",
   "theorems": [
    "C84_typmod_text",
    "C84_typmod_default_text"
   ],
   "note": ""
  },
  {
   "property": "C85",
   "status": "proved",
   "theorems": [
    "C85_log_outcomes",
    "C85_log2_log10_outcomes"
   ],
   "note": "uses the standard library's axioms of the reals; termination of the sqrt reduction loop and the debug overflow (C55, C57) are left as alternatives"
  },
  {
   "property": "C86",
   "status": "proved",
   "theorems": [
    "C86_one_to_fraction",
    "C86_one_to_integer"
   ],
   "note": "uses the standard library's axioms of the reals"
  },
  {
   "property": "C87",
   "status": "proved",
   "theorems": [
    "C87_machine_binary",
    "C87_machine_unary",
    "C87_machine_values",
    "C87_machine_quotient"
   ],
   "note": "allocation is assumed to succeed; the machine-level transcription covers add, sub, mul, div, div_trunc, rem, round, trunc, ceil, floor, cmp; parsing, integers and text in C88"
  },
  {
   "property": "C88",
   "status": "proved",
   "theorems": [
    "C88_machine_parse",
    "C88_machine_parse_values",
    "C88_machine_conversions",
    "C88_machine_read",
    "C88_machine_sci_scale"
   ],
   "note": "allocation is assumed to succeed; the byte iterators of the parser (eat_digits, eat_whitespaces) are shared with Parse.v; of {:e} only the choice of scale is transcribed"
  },
  {
   "property": "C89",
   "status": "proved",
   "theorems": [
    "C89_machine_sqrt",
    "C89_machine_sqrt_accurate",
    "C89_machine_sqrt_returns",
    "C89_machine_sqrt_square"
   ],
   "note": "allocation is assumed to succeed; doubles are those of Flt.v (unbounded exponent), as in Transc.v"
  },
  {
   "property": "C90",
   "status": "proved",
   "theorems": [
    "C90_machine_pow",
    "C90_machine_pow_accurate",
    "C90_machine_pow_exact",
    "C90_machine_sci",
    "C90_machine_sci_text"
   ],
   "note": "exponents that are neither NaN nor an integer of type i32 are left to C75-C81 (model on lists); allocation is assumed to succeed; doubles are those of Flt.v, as in Transc.v"
  },
  {
   "property": "C91",
   "status": "proved",
   "theorems": [
    "C91_machine_ln",
    "C91_machine_log",
    "C91_machine_log2_log10",
    "C91_machine_ln_accurate",
    "C91_machine_log_accurate",
    "C91_machine_log2_log10_accurate"
   ],
   "note": "bases within 10^-1980 of one are left to the model on lists; allocation is assumed to succeed; doubles are those of Flt.v, as in Transc.v"
  },
  {
   "property": "C92",
   "status": "proved",
   "theorems": [
    "C92_machine_exp",
    "C92_machine_exp_accurate",
    "C92_machine_exp_gives_up"
   ],
   "note": "allocation is assumed to succeed; doubles are those of Flt.v, and strtod a parameter, as in Transc.v"
  },
  {
   "property": "C93",
   "status": "proved",
   "theorems": [
    "C93_machine_pow",
    "C93_machine_pow_fraction_accurate",
    "C93_machine_pow_fraction_refuses",
    "C93_machine_pow_negative_beyond"
   ],
   "note": "bases other than one within 10^-990 of it are left to the model on lists when the exponent is not an i32; allocation is assumed to succeed; doubles are those of Flt.v, and strtod a parameter, as in Transc.v"
  },
  {
   "property": "C94",
   "status": "proved",
   "theorems": [
    "C94_machine_history",
    "C94_machine_typmod",
    "C94_machine_add_assign"
   ],
   "note": "allocation is assumed to succeed; releasing buffers is C65 and C82"
  },
  {
   "property": "C95",
   "status": "proved",
   "theorems": [
    "C95_machine_sign",
    "C95_machine_factorial",
    "C95_machine_normalize",
    "C95_machine_hash",
    "C95_machine_keys",
    "C95_machine_to_int"
   ],
   "note": "allocation is assumed to succeed"
  },
  {
   "property": "C96",
   "status": "proved",
   "theorems": [
    "C96_machine_from_f64",
    "C96_machine_from_f32",
    "C96_machine_from_special",
    "C96_machine_to_float",
    "C96_machine_to_f64",
    "C96_machine_buf_to_f64",
    "C96_machine_buf_to_float",
    "C96_machine_f64_round_trip",
    "C96_machine_f32_round_trip"
   ],
   "note": "libc's snprintf and strtod are parameters assumed correct (SpecDouble.v); a usize passed for the int precision is taken to read as the same value; allocation is assumed to succeed"
  },
  {
   "property": "C97",
   "status": "proved",
   "theorems": [
    "C97_parse_message",
    "C97_to_int_message",
    "C97_from_float_message",
    "C97_to_float_message"
   ],
   "note": "float conversions: snprintf and strtod are assumed correct, as in C71 and C72"
  },
  {
   "property": "C98",
   "status": "proved",
   "theorems": [
    "C98_held_valid",
    "C98_call_defined",
    "C98_step_defined",
    "C98_reads_deliver",
    "C98_owned_reads_deliver"
   ],
   "note": "bases of log within 10^-1980 of one, and bases of pow other than one within 10^-990 of it with an exponent that is not an i32, are excluded; libm, strtod and snprintf assumed as in C34, C74, C78, C72; the null buffer left by a failed in-place operation (C23) is not passed on; allocation is assumed to succeed; drop and free are C65"
  },
  {
   "property": "C99",
   "status": "proved",
   "theorems": [
    "C99_formula_exact",
    "C99_formula_never_wrong",
    "C99_meaning_unique",
    "C99_same_bytes",
    "C99_sum_any_order",
    "C99_cut_anywhere"
   ],
   "note": "allocation is assumed to succeed; the value of a quotient is the exact quotient of its operands' values rounded to the scale of C08, of the operands' canonical forms"
  }
 ]
}