{
 "claims": [
  {
   "property": "C01",
   "status": "proved",
   "theorems": [
    "C01_u128_add",
    "C01_i128_add",
    "C01_u128_sub",
    "C01_i128_sub",
    "C01_u128_addo",
    "C01_i128_addo",
    "C01_u128_subo",
    "C01_i128_subo"
   ],
   "note": ""
  },
  {
   "property": "C02",
   "status": "proved",
   "theorems": [
    "C02_mulsi3",
    "C02_muldi3",
    "C02_multi3"
   ],
   "note": "both cfg variants of __muldi3"
  },
  {
   "property": "C03",
   "status": "proved",
   "theorems": [
    "C03_mulosi4",
    "C03_mulodi4",
    "C03_muloti4",
    "C03_rust_i128_mulo",
    "C03_rust_u128_mulo",
    "C03_muloti4_uefi"
   ],
   "note": ""
  },
  {
   "property": "C04",
   "status": "proved",
   "theorems": [
    "C04_ashl",
    "C04_lshr",
    "C04_ashr",
    "C04_symbols"
   ],
   "note": ""
  },
  {
   "property": "C05",
   "status": "proved",
   "theorems": [
    "C05_clz",
    "C05_clz16",
    "C05_ctz"
   ],
   "note": "both cfg variants, any pointer width >= 16"
  },
  {
   "property": "C06",
   "status": "proved",
   "theorems": [
    "C06_bswap"
   ],
   "note": "swap_bytes of core is modelled as a byte loop"
  },
  {
   "property": "C07",
   "status": "proved",
   "theorems": [
    "C07_udiv32",
    "C07_udiv64",
    "C07_udiv128",
    "C07_div_by_zero"
   ],
   "note": "all algorithm selections; half-width division in hardware or by the crate itself"
  },
  {
   "property": "C08",
   "status": "proved",
   "theorems": [
    "C08_div32",
    "C08_div64",
    "C08_div128"
   ],
   "note": ""
  },
  {
   "property": "C09",
   "status": "proved",
   "theorems": [
    "C09_avr_udivmodqi4",
    "C09_avr_udivmodhi4",
    "C09_avr_udivmodsi4",
    "C09_avr_divmodsi4",
    "C09_aeabi_uidivmod",
    "C09_aeabi_uldivmod",
    "C09_aeabi_idivmod",
    "C09_aeabi_ldivmod"
   ],
   "note": "instruction-level models of the AVR and ARM routines"
  },
  {
   "property": "C10",
   "status": "proved",
   "theorems": [
    "C10_add",
    "C10_sub",
    "C10_shifts",
    "C10_bits",
    "C10_cmp",
    "C10_widen_mul",
    "C10_halves"
   ],
   "note": ""
  },
  {
   "property": "C11",
   "status": "proved",
   "theorems": [
    "C11_narrowing_div",
    "C11_narrowing_div_u256"
   ],
   "note": ""
  },
  {
   "property": "C12",
   "status": "proved",
   "theorems": [
    "C12_linear_mul_reduction",
    "C12_linear_mul_reduction_u128",
    "C12_huge_exponent_refuted"
   ],
   "note": "exponents up to 2^32 - width; beyond that the function's own u32 addition overflows (refuted theorem)"
  },
  {
   "property": "C13",
   "status": "proved",
   "theorems": [
    "C13_memcpy"
   ],
   "note": "Portable and x86_64 implementations, all word sizes, byte orders and the two mem_unaligned settings."
  },
  {
   "property": "C14",
   "status": "proved",
   "theorems": [
    "C14_memmove"
   ],
   "note": "Any overlap; both implementations."
  },
  {
   "property": "C15",
   "status": "proved",
   "theorems": [
    "C15_memset"
   ],
   "note": "Both implementations."
  },
  {
   "property": "C16",
   "status": "proved",
   "theorems": [
    "C16_memcmp",
    "C16_bcmp"
   ],
   "note": "Both implementations."
  },
  {
   "property": "C17",
   "status": "proved",
   "theorems": [
    "C17_strlen"
   ],
   "note": "Portable, sse2 and non-sse2 x86_64 variants; result independent of the fuel once it exceeds the length."
  },
  {
   "property": "C18",
   "status": "proved",
   "theorems": [
    "C18_memcpy",
    "C18_memmove",
    "C18_memset",
    "C18_memcmp"
   ],
   "note": "With exactly the regions of the call granted, no access fails."
  },
  {
   "property": "C19",
   "status": "proved",
   "theorems": [
    "C19_memcpy",
    "C19_memmove",
    "C19_memset",
    "C19_memclr"
   ],
   "note": "32-bit ARM, either byte order."
  },
  {
   "property": "C20",
   "status": "proved",
   "theorems": [
    "C20_add",
    "C20_sub"
   ],
   "note": "All four formats, all bit patterns; rounding is Flocq's round to nearest even in the FLT format; NaN results are quiet."
  },
  {
   "property": "C21",
   "status": "proved",
   "theorems": [
    "C21_mul"
   ],
   "note": "All four formats, all bit patterns."
  },
  {
   "property": "C22",
   "status": "proved",
   "theorems": [
    "C22_div"
   ],
   "note": "f32, f64 and f128, pointer widths up to 64 bits (both the half-width and the full-width iteration plans of f32)."
  },
  {
   "property": "C23",
   "status": "proved",
   "theorems": [
    "C23_cmp",
    "C23_nan",
    "C23_trichotomy",
    "C23_aeabi"
   ],
   "note": "All four formats."
  },
  {
   "property": "C24",
   "status": "proved",
   "theorems": [
    "C24_extend"
   ],
   "note": "All six format pairs."
  },
  {
   "property": "C25",
   "status": "proved",
   "theorems": [
    "C25_narrow",
    "C25_round_trip"
   ],
   "note": "All six format pairs."
  },
  {
   "property": "C26",
   "status": "proved",
   "theorems": [
    "C26_unsigned",
    "C26_signed",
    "C26_uefi"
   ],
   "note": "All nine width/format pairs, signed and unsigned."
  },
  {
   "property": "C27",
   "status": "proved",
   "theorems": [
    "C27_fix"
   ],
   "note": "All nine width/format pairs, signed and unsigned."
  },
  {
   "property": "C28",
   "status": "proved",
   "theorems": [
    "C28_powi_zero",
    "C28_powi",
    "C28_powi_exact",
    "C28_soft_ops"
   ],
   "note": "For any IEEE multiplication and division, and for the crate's own."
  },
  {
   "property": "C29",
   "status": "proved",
   "theorems": [
    "C29_fabs",
    "C29_copysign"
   ],
   "note": "All four formats."
  },
  {
   "property": "C30",
   "status": "proved",
   "theorems": [
    "C30_fmin",
    "C30_fmax",
    "C30_fminimum",
    "C30_fmaximum",
    "C30_fminimum_num",
    "C30_fmaximum_num",
    "soft_ops_ieee"
   ],
   "note": "For any IEEE operators; the crate's own soft-float routines are shown to be an instance."
  },
  {
   "property": "C31",
   "status": "proved",
   "theorems": [
    "C31_fdim"
   ],
   "note": ""
  },
  {
   "property": "C32",
   "status": "proved",
   "theorems": [
    "C32_trunc",
    "C32_floor",
    "C32_ceil"
   ],
   "note": "All four formats."
  },
  {
   "property": "C33",
   "status": "proved",
   "theorems": [
    "C33_rint",
    "C33_round"
   ],
   "note": "All four formats, any IEEE operators."
  },
  {
   "property": "C34",
   "status": "proved",
   "theorems": [
    "C34_frexp"
   ],
   "note": ""
  },
  {
   "property": "C35",
   "status": "proved",
   "theorems": [
    "C35_ilogb"
   ],
   "note": ""
  },
  {
   "property": "C36",
   "status": "proved",
   "theorems": [
    "C36_scalbn"
   ],
   "note": "All four formats, including the separate f16 code path; any IEEE operators."
  },
  {
   "property": "C37",
   "status": "proved",
   "theorems": [
    "C37_nextafter"
   ],
   "note": ""
  },
  {
   "property": "C38",
   "status": "proved",
   "theorems": [
    "C38_modf"
   ],
   "note": ""
  },
  {
   "property": "C39",
   "status": "proved",
   "theorems": [
    "C39_fmod"
   ],
   "note": ""
  },
  {
   "property": "C40",
   "status": "proved",
   "theorems": [
    "C40_remquo",
    "C40_remainder"
   ],
   "note": ""
  },
  {
   "property": "C41",
   "status": "proved",
   "theorems": [
    "C41_sqrt",
    "C41_sqrt_soft",
    "C41_sqrt_exact",
    "C41_usize16_refuted"
   ],
   "note": "All four formats, any IEEE operators, usize of 32 or 64 bits (16 bits: f16 and f32; f64 and f128 panic there with overflow checks, C41_usize16_refuted)."
  },
  {
   "property": "C42",
   "status": "partial",
   "theorems": [
    "C42_fma_partial",
    "C42_fma_balanced_partial",
    "C42_fma_near",
    "C42_fma_refuted"
   ],
   "note": "The claim is false for the code (C42_fma_refuted): a sticky bit of the product is computed from the wrong word when z is 2^(eb-1) times larger than x*y or more. Proved: correctly rounded outside exactly those operands, and for all finite operands no panic and an error bound before rounding."
  },
  {
   "property": "C43",
   "status": "partial",
   "theorems": [
    "C43_fmaf_partial",
    "C43_fmaf_normal_partial",
    "C43_fmaf_refuted"
   ],
   "note": "The claim is false for the code (C43_fmaf_refuted): a subnormal result whose binary64 sum is inexact and falls on a tie of binary32 is rounded twice. Proved: correctly rounded for all other operands, in particular whenever the exact result is not below the normal range."
  },
  {
   "property": "C44",
   "status": "proved",
   "theorems": [
    "C44_fmaf16",
    "f16_ops_ieee"
   ],
   "note": "Any IEEE f16 operators; f16_ops_ieee gives an instance (promotion to f32)."
  },
  {
   "property": "C45",
   "status": "partial",
   "theorems": [
    "C45_accepts_partial",
    "C45_sound",
    "C45_rejects_partial",
    "C45_unsupported",
    "C45_exact_partial",
    "C45_f128_wraps_refuted",
    "C45_exponent_refuted",
    "C45_no_fraction_refuted"
   ],
   "note": "Proved for strings under 2^26 characters, exponents between -2^32 and 2^30 and, for formats of more than 97 fraction bits, numbers below 2^(2^(128-sig_bits)-bias). Outside, the code returns 1.0 for 0x1p65536 as f128, or panics (the _refuted theorems); non-literals with more than nine characters after a p are not covered."
  },
  {
   "property": "C46",
   "status": "proved",
   "theorems": [
    "C46_round_trip",
    "C46_infinity",
    "C46_nan",
    "C46_injective"
   ],
   "note": "NaNs print distinctly (C46_injective) but the parser does not read that form (C46_nan)."
  },
  {
   "property": "C47",
   "status": "proved",
   "theorems": [
    "C47_linearizable",
    "C47_can_finish",
    "C47_alone"
   ],
   "note": "Sequentially consistent interleavings; the barriers around the helper are not modelled."
  },
  {
   "property": "C48",
   "status": "proved",
   "theorems": [
    "C48_other_bytes",
    "C48_no_lost_update",
    "C48_armv6k_other_bytes",
    "C48_armv6k_no_lost_update",
    "C49_aarch64_no_lost_update"
   ],
   "note": ""
  },
  {
   "property": "C49",
   "status": "proved",
   "theorems": [
    "C49_armv6k_linearizable",
    "C49_armv6k_can_finish",
    "C49_armv6k_alone",
    "C49_aarch64_linearizable",
    "C49_aarch64_can_finish",
    "C49_aarch64_alone",
    "C49_cas16_weak",
    "C49_cas16_torn_refuted"
   ],
   "note": "Sequentially consistent interleavings; acquire/release variants of one function have the same model. A failing 16-byte compare-and-swap may return a torn value (C49_cas16_torn_refuted); C49_cas16_weak states what it still guarantees."
  },
  {
   "property": "C50",
   "status": "partial",
   "theorems": [
    "C50_narrow_quiets",
    "C50_extend_quiets_refuted"
   ],
   "note": "True of narrowing; false of widening for every format pair (refuted theorem): the property does not hold of the code."
  },
  {
   "property": "C51",
   "status": "proved",
   "theorems": [
    "C51_add",
    "C51_sub",
    "C51_mul",
    "C51_div"
   ],
   "note": ""
  },
  {
   "property": "C52",
   "status": "proved",
   "theorems": [
    "C52_x86_64",
    "C52_x86_64_sgx",
    "C52_x86",
    "C52_chkstk_ms",
    "C52_alloca",
    "C52_uefi",
    "C52_aarch64",
    "C52_uefi_small_refuted",
    "C52_uefi_interrupt_refuted",
    "C52_alloca_interrupt_refuted"
   ],
   "note": "x86 UEFI: without handlers and for frames of 0 or at least 16 bytes; _alloca with handlers: frames of at least 8 bytes. The refuted theorems show that the conditions are needed."
  },
  {
   "property": "C53",
   "status": "proved",
   "theorems": [
    "C53_exp",
    "C53_soft_icast"
   ],
   "note": "The x87 version used on x86 without SSE2 is not modelled."
  },
  {
   "property": "C54",
   "status": "proved",
   "theorems": [
    "C54_log"
   ],
   "note": ""
  },
  {
   "property": "C55",
   "status": "proved",
   "theorems": [
    "C55_sin",
    "C55_cos",
    "C55_sincos"
   ],
   "note": ""
  },
  {
   "property": "C56",
   "status": "proved",
   "theorems": [
    "C56_hypot_near",
    "C56_hypot_exact",
    "C56_hypot_special",
    "C56_hypot_symmetric"
   ],
   "note": ""
  },
  {
   "property": "C57",
   "status": "partial",
   "theorems": [
    "C56_hypot_near",
    "C56_hypot_refuted",
    "C56_no_panic_refuted"
   ],
   "note": "The claim is false for the code: a distance exactly halfway between two doubles is rounded to the odd one (C56_hypot_refuted), and with overflow checks the slow branch can panic (C56_no_panic_refuted). Proved: the result is the rounding of a real within one part in 2^97 of the distance."
  },
  {
   "property": "C58",
   "status": "proved",
   "theorems": [
    "C58_atan",
    "C58_half_pi"
   ],
   "note": ""
  },
  {
   "property": "C59",
   "status": "proved",
   "theorems": [
    "C59_atan2",
    "C59_angle_unique",
    "C59_constants"
   ],
   "note": ""
  },
  {
   "property": "C60",
   "status": "proved",
   "theorems": [
    "C60_asin"
   ],
   "note": ""
  },
  {
   "property": "C61",
   "status": "proved",
   "theorems": [
    "C61_acos"
   ],
   "note": ""
  },
  {
   "property": "C62",
   "status": "proved",
   "theorems": [
    "C62_tan"
   ],
   "note": ""
  },
  {
   "property": "C63",
   "status": "proved",
   "theorems": [
    "C63_log1p"
   ],
   "note": ""
  },
  {
   "property": "C64",
   "status": "proved",
   "theorems": [
    "C64_log2",
    "C64_log2_power"
   ],
   "note": ""
  },
  {
   "property": "C65",
   "status": "proved",
   "theorems": [
    "C65_log10"
   ],
   "note": ""
  },
  {
   "property": "C66",
   "status": "proved",
   "theorems": [
    "C66_atanh"
   ],
   "note": ""
  },
  {
   "property": "C67",
   "status": "proved",
   "theorems": [
    "C67_asinh"
   ],
   "note": ""
  },
  {
   "property": "C68",
   "status": "proved",
   "theorems": [
    "C68_acosh"
   ],
   "note": ""
  },
  {
   "property": "C69",
   "status": "proved",
   "theorems": [
    "C69_atan_odd",
    "C69_asin_odd",
    "C69_atanh_odd",
    "C69_asinh_odd",
    "C69_atan2_odd"
   ],
   "note": ""
  },
  {
   "property": "C70",
   "status": "proved",
   "theorems": [
    "C70_sin_odd",
    "C70_cos_even",
    "C70_sincos",
    "C70_tan_odd"
   ],
   "note": ""
  },
  {
   "property": "C71",
   "status": "proved",
   "theorems": [
    "C71_sincos_agrees"
   ],
   "note": ""
  }
 ]
}