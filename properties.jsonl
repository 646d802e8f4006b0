{"id": "C01", "title": "128-bit add/sub wrap and report overflow exactly", "statement": "__rust_{u,i}128_{add,sub} return the mathematical sum/difference reduced modulo 2^128 into the type's range, and the *o variants additionally return an overflow flag that is set exactly when the mathematical result is not representable.", "quantifier": "all pairs of 128-bit operands, signed and unsigned", "why_tests_cant": "The input space (2^64 or more argument pairs) cannot be enumerated; carries and boundary bits hide in measure-zero subsets.", "anchors": ["compiler-builtins/src/int/addsub.rs: UAddSub, AddSub, Addo, Subo, __rust_*128_*"]}
{"id": "C02", "title": "Widening-free multiplication returns the exact low half", "statement": "__mulsi3, __muldi3 and __multi3 return the product of their operands modulo 2^32, 2^64 and 2^128 in every target configuration (portable half-width decomposition and the shift-and-add loop), terminate, and never hit an arithmetic-overflow panic.", "quantifier": "all operand pairs of each width, both algorithm configurations", "why_tests_cant": "The input space (2^64 or more argument pairs) cannot be enumerated; carries and boundary bits hide in measure-zero subsets.", "anchors": ["compiler-builtins/src/int/mul.rs: Mul::mul, __mulsi3, __muldi3, __multi3"]}
{"id": "C03", "title": "Overflow-reporting multiplication is exact", "statement": "__mulosi4, __mulodi4, __muloti4, __rust_i128_mulo and __rust_u128_mulo return the wrapped product and a flag that is set exactly when the mathematical product does not fit the result type, including products involving MIN, MIN * -1 and zero.", "quantifier": "all signed/unsigned operand pairs of 32, 64 and 128 bits", "why_tests_cant": "The input space (2^64 or more argument pairs) cannot be enumerated; carries and boundary bits hide in measure-zero subsets.", "anchors": ["compiler-builtins/src/int/mul.rs: UMulo::mulo, impl_signed_mulo, __mulo{s,d,t}i4, __rust_{i,u}128_mulo"]}
{"id": "C04", "title": "Shifts composed from half-width shifts are exact", "statement": "__ashlsi3/di3/ti3, __lshrsi3/di3/ti3, __ashrsi3/di3/ti3 equal multiplication by 2^s modulo the width, floor division by 2^s of the unsigned value, and floor division by 2^s of the signed value, for every shift amount below the width, with no overflowing inner shift.", "quantifier": "all values and all shift amounts 0 <= s < width, for 32/64/128 bits", "why_tests_cant": "The input space (2^64 or more argument pairs) cannot be enumerated; carries and boundary bits hide in measure-zero subsets.", "anchors": ["compiler-builtins/src/int/shift.rs: Ashl, Ashr, Lshr and the __*shl*/__*shr* symbols"]}
{"id": "C05", "title": "Leading- and trailing-zero counts are exact on every implementation variant", "statement": "__clzsi2/di2/ti2 (branching and set-on-condition variants) and __ctzsi2/di2/ti2 return the number of zero bits above the highest, respectively below the lowest, set bit, and the width for zero.", "quantifier": "all 32-, 64- and 128-bit inputs, both leading-zero algorithms", "why_tests_cant": "64- and 128-bit spaces cannot be enumerated and the target-specific variants are not run on the host.", "anchors": ["compiler-builtins/src/int/leading_zeros.rs: leading_zeros_default, leading_zeros_condset, __clz*", "compiler-builtins/src/int/trailing_zeros.rs: trailing_zeros, __ctz*"]}
{"id": "C06", "title": "Byte swaps reverse bytes and are involutive", "statement": "__bswapsi2, __bswapdi2, __bswapti2 return the value whose little-endian byte sequence is the reverse of the input's, hence applying one twice is the identity.", "quantifier": "all inputs of the width", "why_tests_cant": "The input space (2^64 or more argument pairs) cannot be enumerated; carries and boundary bits hide in measure-zero subsets.", "anchors": ["compiler-builtins/src/int/bswap.rs"]}
{"id": "C07", "title": "Unsigned division is exact for every algorithm selection", "statement": "Every unsigned division entry point (__udiv*, __umod*, __udivmod* for 32, 64 and 128 bits) returns (q, r) with n = q*d + r and 0 <= r < d for every d != 0, whichever of the algorithms (binary shift-subtract, delegate, trifecta, asymmetric with a hardware 128/64 divide, sparc) the target configuration selects, terminates, performs no overflowing arithmetic or shift, and d = 0 always reaches the division-by-zero handler.", "quantifier": "all operand pairs, all target configurations", "why_tests_cant": "Quotient-estimation corner cases (off-by-one trial quotients, maximal normalisation shifts) occur with probability about 2^-64; most configurations are not compiled on a test host.", "anchors": ["compiler-builtins/src/int/specialized_div_rem/*.rs", "compiler-builtins/src/int/udiv.rs"]}
{"id": "C08", "title": "Signed division truncates toward zero", "statement": "__div*, __mod*, __divmod* for 32, 64, 128 bits return the quotient truncated toward zero and a remainder with the sign of the dividend and magnitude below the divisor's, for every non-zero divisor, and MIN / -1 wraps to MIN with remainder 0 without a panic.", "quantifier": "all signed operand pairs with non-zero divisor", "why_tests_cant": "The input space (2^64 or more argument pairs) cannot be enumerated; carries and boundary bits hide in measure-zero subsets.", "anchors": ["compiler-builtins/src/int/sdiv.rs: sdivmod, sdiv, smod"]}
{"id": "C09", "title": "Register-level division routines match the arithmetic", "statement": "The AVR assembly routines __udivmodqi4 and __udivmodhi4, the AVR packed __udivmodsi4/__divmodsi4, and the ARM EABI trampolines __aeabi_uidivmod, __aeabi_uldivmod, __aeabi_idivmod, __aeabi_ldivmod leave exactly the quotient and remainder in their documented registers, preserving the stack pointer and callee-saved registers.", "quantifier": "all register contents / operand values with non-zero divisor", "why_tests_cant": "Assembly for AVR and ARM is never executed by the host test-suite.", "anchors": ["compiler-builtins/src/int/udiv.rs: __udivmodqi4, __udivmodhi4, __udivmodsi4", "compiler-builtins/src/int/sdiv.rs: __divmodsi4", "compiler-builtins/src/arm.rs"]}
{"id": "C10", "title": "256-bit support arithmetic is exact", "statement": "u256/i256 addition, subtraction, shifts, bit operations, widening and narrowing multiplication and comparisons agree with integer arithmetic modulo 2^256.", "quantifier": "all 256-bit values", "why_tests_cant": "The input space (2^64 or more argument pairs) cannot be enumerated; carries and boundary bits hide in measure-zero subsets.", "anchors": ["libm/src/math/support/big.rs"]}
{"id": "C11", "title": "Narrowing division", "statement": "For every numerator n and divisor d with n < d * 2^w, narrowing division of a 2w-bit number by a w-bit number returns the exact quotient and remainder; it reports failure exactly when the quotient would not fit or d = 0.", "quantifier": "all n < 2^(2w), all d < 2^w, for w in 8..128", "why_tests_cant": "The input space (2^64 or more argument pairs) cannot be enumerated; carries and boundary bits hide in measure-zero subsets.", "anchors": ["libm/src/math/support/int_traits/narrowing_div.rs"]}
{"id": "C12", "title": "Modular power-of-two reduction used by fmod", "statement": "linear_mul_reduction(x, e, y) returns (x * 2^e) mod y for every x, y meeting the documented size bounds and every e that leaves room for the width in a u32 (e + width <= 2^32), in a number of steps linear in e.", "quantifier": "all x, y, e", "why_tests_cant": "Loop over arbitrary exponent difference (up to 32765 for f128).", "anchors": ["libm/src/math/support/modular.rs"]}
{"id": "C13", "title": "memcpy copies exactly n bytes and touches nothing else", "statement": "After memcpy(dst, src, n) with non-overlapping valid regions, the n destination bytes equal the original source bytes, every other byte of memory is unchanged, dst is returned; for every relative alignment, word size, byte order and length, whether the byte, aligned-word or misaligned-word path is chosen.", "quantifier": "all memories, addresses, lengths, word sizes, endiannesses", "why_tests_cant": "Path choice depends on address residues, thresholds and endianness; big-endian and 16-bit-pointer targets are not run.", "anchors": ["compiler-builtins/src/mem/impls.rs: copy_forward*", "compiler-builtins/src/mem/mod.rs: memcpy", "compiler-builtins/src/mem/x86_64.rs: copy_forward"]}
{"id": "C14", "title": "memmove is correct for every overlap", "statement": "After memmove(dst, src, n) the n destination bytes equal the bytes the source region held before the call and all other bytes are unchanged, for every relative position of the two regions.", "quantifier": "all memories, addresses (overlapping in any way), lengths, word sizes, endiannesses", "why_tests_cant": "Overlap distance x alignment x length space is unbounded.", "anchors": ["compiler-builtins/src/mem/impls.rs: copy_forward, copy_backward", "compiler-builtins/src/mem/mod.rs: memmove", "compiler-builtins/src/mem/x86_64.rs"]}
{"id": "C15", "title": "memset", "statement": "After memset(s, c, n) the n bytes at s equal c mod 256, every other byte is unchanged, s is returned.", "quantifier": "all memories, addresses, lengths, fill values", "why_tests_cant": "Unbounded lengths/alignments.", "anchors": ["compiler-builtins/src/mem/impls.rs: set_bytes*", "compiler-builtins/src/mem/mod.rs: memset"]}
{"id": "C16", "title": "memcmp/bcmp order byte strings lexicographically", "statement": "memcmp returns 0 iff the n bytes are equal, otherwise a value whose sign is that of the first differing unsigned byte pair; bcmp is zero iff equal; memory is not modified.", "quantifier": "all memories, addresses, lengths", "why_tests_cant": "Unbounded strings; x86_64 chunked path has a different structure per remaining length.", "anchors": ["compiler-builtins/src/mem/impls.rs: compare_bytes", "compiler-builtins/src/mem/x86_64.rs: compare_bytes"]}
{"id": "C17", "title": "strlen finds the first NUL and never faults past its page-aligned word", "statement": "strlen returns the index of the first zero byte; every load performed is either inside the string (including its terminator) or an aligned load containing at least one byte of it.", "quantifier": "all memories containing a NUL, all start alignments, all x86_64 variants", "why_tests_cant": "Alignment x length x byte-content space is unbounded; borrow-trick false positives.", "anchors": ["compiler-builtins/src/mem/impls.rs: c_string_length", "compiler-builtins/src/mem/x86_64.rs: c_string_length"]}
{"id": "C18", "title": "Memory routines make no out-of-range access", "statement": "Every load of memcpy/memmove/memset/memcmp stays inside the caller's source region(s), every store inside the destination region, and word accesses are aligned when the target requires it, including on the word-at-a-time path for misaligned sources.", "quantifier": "all addresses, lengths, configurations", "why_tests_cant": "A single out-of-range load is invisible to functional tests.", "anchors": ["compiler-builtins/src/mem/impls.rs"]}
{"id": "C19", "title": "ARM EABI memory helpers", "statement": "__aeabi_memcpy{,4,8}, __aeabi_memmove{,4,8}, __aeabi_memset{,4,8}, __aeabi_memclr{,4,8} have the memcpy/memmove/memset/zero-fill effect for every length when their alignment precondition holds.", "quantifier": "all memories, aligned addresses, lengths, fill values", "why_tests_cant": "ARM-only code not run on the host; unbounded lengths.", "anchors": ["compiler-builtins/src/arm.rs"]}
{"id": "C20", "title": "Soft-float addition and subtraction are correctly rounded", "statement": "__addhf3/sf3/df3/tf3 and __sub*3 return the IEEE-754 round-to-nearest-even sum/difference: exact real result rounded once, correct signed zeros, infinities, NaN exactly when an operand is NaN or on inf - inf, overflow to infinity, gradual underflow; never panicking.", "quantifier": "all bit patterns of both operands, f16/f32/f64/f128", "why_tests_cant": "The result must be the unique correctly rounded value on every one of 2^64..2^256 operand pairs; ties, sticky bits and subnormal boundaries are measure-zero.", "anchors": ["compiler-builtins/src/float/add.rs: add", "compiler-builtins/src/float/sub.rs"]}
{"id": "C21", "title": "Soft-float multiplication is correctly rounded", "statement": "__mulhf3/sf3/df3/tf3 return the IEEE-754 round-to-nearest-even product for all operands including subnormals, zeros, infinities and NaNs.", "quantifier": "all bit patterns of both operands, all formats", "why_tests_cant": "The result must be the unique correctly rounded value on every one of 2^64..2^256 operand pairs; ties, sticky bits and subnormal boundaries are measure-zero.", "anchors": ["compiler-builtins/src/float/mul.rs: mul"]}
{"id": "C22", "title": "Soft-float division is correctly rounded", "statement": "__divsf3/df3/tf3 return the IEEE-754 round-to-nearest-even quotient for all operands, although computed through an approximate Newton-Raphson reciprocal.", "quantifier": "all bit patterns of both operands, f32/f64/f128, all iteration configurations", "why_tests_cant": "The result must be the unique correctly rounded value on every one of 2^64..2^256 operand pairs; ties, sticky bits and subnormal boundaries are measure-zero. The error bound of the reciprocal is asserted only by comments.", "anchors": ["compiler-builtins/src/float/div.rs: div"]}
{"id": "C23", "title": "Soft-float comparisons implement the IEEE-754 relations", "statement": "__{eq,ne,lt,le,gt,ge,unord,cmp}{hf,sf,df,tf}2 return integers whose comparison against zero yields exactly the ordered IEEE relation, with NaN making every relation but != false and unord true; __aeabi_*cmp* return the corresponding booleans.", "quantifier": "all bit patterns of both operands, all formats", "why_tests_cant": "The input space (2^64 or more argument pairs) cannot be enumerated; carries and boundary bits hide in measure-zero subsets.", "anchors": ["compiler-builtins/src/float/cmp.rs"]}
{"id": "C24", "title": "Float widening is exact", "statement": "__extend*f2 returns the float of the wider format with the same real value, sign and class, turning subnormals into normals where needed; a NaN stays a NaN with the same sign and its fraction left-aligned (so a quiet NaN stays quiet).", "quantifier": "all source bit patterns, all format pairs", "why_tests_cant": "f64->f128 input space cannot be enumerated.", "anchors": ["compiler-builtins/src/float/extend.rs"]}
{"id": "C25", "title": "Float narrowing is correctly rounded", "statement": "__trunc*f2 returns the source value rounded to nearest even in the narrower format, with overflow to infinity, gradual underflow, sign preservation, NaN to quiet NaN; narrowing undoes widening on every non-NaN.", "quantifier": "all source bit patterns, all format pairs", "why_tests_cant": "The result must be the unique correctly rounded value on every one of 2^64..2^256 operand pairs; ties, sticky bits and subnormal boundaries are measure-zero.", "anchors": ["compiler-builtins/src/float/trunc.rs"]}
{"id": "C26", "title": "Integer to float conversion is correctly rounded", "statement": "__float{un,}{s,d,t}i{s,d,t}f return the round-to-nearest-even float of the integer (including the two-halves calling convention on UEFI).", "quantifier": "all integers of 32, 64, 128 bits and targets f32/f64/f128", "why_tests_cant": "The result must be the unique correctly rounded value on every one of 2^64..2^256 operand pairs; ties, sticky bits and subnormal boundaries are measure-zero.", "anchors": ["compiler-builtins/src/float/conv.rs: int_to_float"]}
{"id": "C27", "title": "Float to integer conversion truncates and saturates", "statement": "__fix{uns,}{s,d,t}f{s,d,t}i return the value truncated toward zero when it fits, saturate to MIN/MAX outside the range, and return 0 for NaN, without overflowing shifts.", "quantifier": "all source bit patterns and destination integer types", "why_tests_cant": "The input space (2^64 or more argument pairs) cannot be enumerated; carries and boundary bits hide in measure-zero subsets.", "anchors": ["compiler-builtins/src/float/conv.rs: float_to_int_inner"]}
{"id": "C28", "title": "powi is total and follows the square-and-multiply specification", "statement": "__powi{s,d,t}f2(x, n) terminates and does not panic for any i32 n including i32::MIN, returns 1 for n = 0, the binary-power product of correctly rounded multiplications for n > 0, the reciprocal of that of |n| for n < 0; equals x^n exactly whenever all partial products are representable.", "quantifier": "all x and all i32 exponents", "why_tests_cant": "Unbounded exponent/loop.", "anchors": ["compiler-builtins/src/float/pow.rs"]}
{"id": "C29", "title": "fabs and copysign act on the sign bit only", "statement": "fabs clears, copysign transplants, the sign bit and leave all other bits (also of NaNs) unchanged.", "quantifier": "all bit patterns, all formats", "why_tests_cant": "Must hold bit-for-bit also on all NaN payloads.", "anchors": ["libm/src/math/generic/fabs.rs", "libm/src/math/generic/copysign.rs"]}
{"id": "C30", "title": "min/max families follow IEEE-754", "statement": "fmin/fmax ignore a NaN when the other operand is a number and otherwise return the smaller/larger operand; fminimum/fmaximum propagate NaN and order -0 < +0; fminimum_num/fmaximum_num ignore NaN and order -0 < +0. A non-NaN result equals one of the operands.", "quantifier": "all bit patterns of both operands, all formats", "why_tests_cant": "The input space (2^64 or more argument pairs) cannot be enumerated; carries and boundary bits hide in measure-zero subsets.", "anchors": ["libm/src/math/generic/fmin.rs", "libm/src/math/generic/fmax.rs", "libm/src/math/generic/fminimum.rs", "libm/src/math/generic/fmaximum.rs", "libm/src/math/generic/fminimum_num.rs", "libm/src/math/generic/fmaximum_num.rs"]}
{"id": "C31", "title": "fdim", "statement": "fdim(x,y) is +0 when x <= y, NaN if either is NaN, otherwise the correctly rounded difference.", "quantifier": "all bit patterns", "why_tests_cant": "The result must be the unique correctly rounded value on every one of 2^64..2^256 operand pairs; ties, sticky bits and subnormal boundaries are measure-zero.", "anchors": ["libm/src/math/generic/fdim.rs"]}
{"id": "C32", "title": "trunc, floor and ceil return the exact integral value", "statement": "trunc/floor/ceil return the float whose value is x rounded toward zero/-inf/+inf, preserve the sign of zero results, pass infinities and NaNs through, and report inexact exactly when the value changed.", "quantifier": "all bit patterns, all formats", "why_tests_cant": "The input space (2^64 or more argument pairs) cannot be enumerated; carries and boundary bits hide in measure-zero subsets.", "anchors": ["libm/src/math/generic/trunc.rs", "libm/src/math/generic/floor.rs", "libm/src/math/generic/ceil.rs"]}
{"id": "C33", "title": "rint/roundeven round to nearest even and round rounds half away", "statement": "rint/roundeven return the nearest integer with ties to even, round the nearest integer with ties away from zero, keeping the sign of zero; infinities are returned unchanged and NaNs stay NaNs; the inexact flag of rint is raised for a number exactly when the value changed.", "quantifier": "all bit patterns, all formats", "why_tests_cant": "The result must be the unique correctly rounded value on every one of 2^64..2^256 operand pairs; ties, sticky bits and subnormal boundaries are measure-zero.", "anchors": ["libm/src/math/generic/rint.rs", "libm/src/math/generic/round.rs", "libm/src/math/roundeven.rs"]}
{"id": "C34", "title": "frexp decomposes exactly", "statement": "for finite non-zero x, frexp(x) = (m, e) with 0.5 <= |m| < 1 and x = m * 2^e exactly; zeros, infinities and NaN are returned unchanged with exponent 0.", "quantifier": "all bit patterns, all formats", "why_tests_cant": "The input space (2^64 or more argument pairs) cannot be enumerated; carries and boundary bits hide in measure-zero subsets.", "anchors": ["libm/src/math/generic/frexp.rs"]}
{"id": "C35", "title": "ilogb extracts the exponent", "statement": "for finite non-zero x, 2^ilogb(x) <= |x| < 2^(ilogb(x)+1); zero and NaN/inf return the documented sentinels.", "quantifier": "all bit patterns, all formats", "why_tests_cant": "The input space (2^64 or more argument pairs) cannot be enumerated; carries and boundary bits hide in measure-zero subsets.", "anchors": ["libm/src/math/generic/ilogb.rs"]}
{"id": "C36", "title": "scalbn/ldexp scale by powers of two with a single rounding", "statement": "scalbn(x, n) is the correctly rounded x * 2^n for every i32 n, although computed by up to four floating multiplications (no double rounding in the subnormal range), with overflow to infinity and underflow to zero; no integer overflow for extreme n.", "quantifier": "all bit patterns and all 2^32 exponents, all formats", "why_tests_cant": "The result must be the unique correctly rounded value on every one of 2^64..2^256 operand pairs; ties, sticky bits and subnormal boundaries are measure-zero.", "anchors": ["libm/src/math/generic/scalbn.rs", "libm/src/math/ldexp.rs"]}
{"id": "C37", "title": "nextafter moves to the adjacent float", "statement": "nextafter(x,y) returns y if x == y, NaN on NaN, otherwise the float adjacent to x in the direction of y (no float lies strictly between).", "quantifier": "all bit patterns, f32 and f64", "why_tests_cant": "The input space (2^64 or more argument pairs) cannot be enumerated; carries and boundary bits hide in measure-zero subsets.", "anchors": ["libm/src/math/nextafter.rs", "libm/src/math/nextafterf.rs"]}
{"id": "C38", "title": "modf splits exactly", "statement": "modf(x) returns (f, i) with i = trunc(x), x = i + f exactly, both carrying the sign of x.", "quantifier": "all bit patterns, f32 and f64", "why_tests_cant": "The input space (2^64 or more argument pairs) cannot be enumerated; carries and boundary bits hide in measure-zero subsets.", "anchors": ["libm/src/math/modf.rs", "libm/src/math/modff.rs"]}
{"id": "C39", "title": "fmod is exact", "statement": "for finite x and finite non-zero y, fmod(x,y) is exactly x - trunc(x/y)*y and has the sign of x, including a zero result; a quiet NaN when either operand is NaN, x is infinite or y is zero; x itself for finite x and infinite y. It never panics.", "quantifier": "all bit patterns of both operands, f16/f32/f64/f128, debug assertions on or off, every IEEE-conforming set of float operators", "why_tests_cant": "Exponent difference up to 2^15; unbounded loop.", "anchors": ["libm/src/math/generic/fmod.rs", "libm/src/math/support/modular.rs"]}
{"id": "C40", "title": "remainder/remquo return the IEEE remainder", "statement": "remquo(x,y) and remquof(x,y) return x - n*y exactly, n being the integer nearest x/y with ties to even, together with the low 31 bits of n carrying the sign of x/y; a zero remainder has the sign of x; remainder returns the same first component. A quiet NaN and quotient 0 for invalid operands; (x, 0) for finite x and infinite y. No overflow panic with overflow checks on.", "quantifier": "all bit patterns of both operands, f32 and f64, overflow checks on or off", "why_tests_cant": "Loop bounded only by exponent range; tie cases measure zero.", "anchors": ["libm/src/math/remquo.rs", "libm/src/math/remquof.rs", "libm/src/math/remainder.rs", "libm/src/math/remainderf.rs"]}
{"id": "C41", "title": "sqrt is correctly rounded", "statement": "sqrt returns the round-to-nearest-even square root for every non-negative input, -0 for -0, NaN for negative input.", "quantifier": "all bit patterns, f16/f32/f64/f128", "why_tests_cant": "The result must be the unique correctly rounded value on every one of 2^64..2^256 operand pairs; ties, sticky bits and subnormal boundaries are measure-zero. Computed by Goldschmidt iterations whose error bound is only in comments.", "anchors": ["libm/src/math/generic/sqrt.rs"]}
{"id": "C42", "title": "fma rounds once (integer path, f64 and f128)", "statement": "fma(x,y,z) and fmaf128 return the exact x*y+z rounded once to nearest even, for all operands.", "quantifier": "all bit patterns of three operands", "why_tests_cant": "The result must be the unique correctly rounded value on every one of 2^64..2^256 operand pairs; ties, sticky bits and subnormal boundaries are measure-zero. Lost sticky bits only show on inputs with probability about 2^-64.", "anchors": ["libm/src/math/generic/fma.rs"]}
{"id": "C43", "title": "fmaf rounds once (wide path)", "statement": "fmaf computed through f64 arithmetic returns x*y+z rounded once to f32 nearest even (the double rounding is repaired) for all operands.", "quantifier": "all bit patterns of three f32 operands", "why_tests_cant": "The result must be the unique correctly rounded value on every one of 2^64..2^256 operand pairs; ties, sticky bits and subnormal boundaries are measure-zero.", "anchors": ["libm/src/math/generic/fma_wide.rs"]}
{"id": "C44", "title": "fmaf16 rounds once", "statement": "fmaf16(x, y, z) is the IEEE 754 fused multiply-add of f16: NaN and infinite operands and invalid combinations give the results the standard prescribes, and for finite operands the result is the exact x*y+z rounded once to the nearest f16, ties to even. It never panics, with or without debug assertions.", "quantifier": "all 2^48 operand triples, both build modes", "why_tests_cant": "2^48 triples with an independent oracle are not run.", "anchors": ["libm/src/math/fmaf16.rs"]}
{"id": "C45", "title": "Hex-float parsing is exact/correctly rounded and total", "statement": "parse_any returns the value denoted by the string rounded in the requested mode, with correct inexact/overflow/underflow status, and an error (never a panic) for strings that are not hex floats.", "quantifier": "all strings, all supported formats, all rounding modes", "why_tests_cant": "Strings are unbounded.", "anchors": ["libm/src/math/support/hex_float.rs: parse_any, parse_hex, parse_finite"]}
{"id": "C46", "title": "Hex-float printing round-trips", "statement": "Formatting any finite float as hex and parsing the result returns the same bits.", "quantifier": "all finite bit patterns, all formats", "why_tests_cant": "The input space (2^64 or more argument pairs) cannot be enumerated; carries and boundary bits hide in measure-zero subsets.", "anchors": ["libm/src/math/support/hex_float.rs: fmt_any_hex, parse_any"]}
{"id": "C47", "title": "ARM kernel-helper atomics are linearizable", "statement": "Every __sync_{fetch_and_*, *_and_fetch, lock_test_and_set, val_compare_and_swap} operation implemented on the kernel helper, on 1-, 2- and 4-byte cells of either byte order, behaves as one indivisible read-modify-write: in every interleaving of any number of threads (with arbitrary spurious failures of the helper) the history of calls and returns is one of a memory that performs each call at a single instant between its invocation and its return and returns the old or the new value as its name says. At every point of every execution a running call can finish if it runs alone, and a call made alone does exactly what the specification of the operation says.", "quantifier": "all numbers of threads, sequences of calls, sequentially consistent interleavings, spurious failures, memories, addresses, byte orders", "why_tests_cant": "Schedules cannot be enumerated; races are not reproducible.", "anchors": ["compiler-builtins/src/sync/arm_linux.rs"]}
{"id": "C48", "title": "Sub-word atomics do not disturb neighbours", "statement": "An atomic operation on a byte or half-word changes only its own bytes: no byte outside the cells named by the calls of an execution ever changes, and when calls only add to a cell (while other calls work on neighbouring cells of the same word) the cell ends as its initial value plus the sum of all the additions, so that no update is lost.", "quantifier": "all numbers of threads, calls, interleavings, offsets, sizes, byte orders", "why_tests_cant": "A lost neighbour update needs an adversarial schedule.", "anchors": ["compiler-builtins/src/sync/arm_linux.rs: get_shift_mask, insert_aligned, extract_aligned, align_ptr"]}
{"id": "C49", "title": "Load-linked/store-conditional atomics are linearizable", "statement": "thumbv6k __sync_* operations and the aarch64 outline atomics (__aarch64_{cas,swp,ldadd,ldclr,ldeor,ldset}*) are one indivisible read-modify-write under every interleaving, every spurious store-exclusive failure and every loss of the monitor, returning the old value (or new value, for the __sync_*_and_fetch functions), whatever the unused register bits hold and whichever of the LSE and exclusive paths each call takes. The exception is the value returned by a failing 16-byte compare-and-swap on the exclusive path when the processor reads the pair as two double-words: that value may be one the cell never held, but it differs from the expected one, and success, failure and effect are still indivisible.", "quantifier": "all numbers of threads, calls, interleavings, spurious failures, values of the LSE flag, memories, byte orders", "why_tests_cant": "Spurious failures and interleavings cannot be forced by tests.", "anchors": ["compiler-builtins/src/sync/thumbv6k.rs", "compiler-builtins/src/aarch64_outline_atomics.rs: try_lse_op, compare_and_swap, compare_and_swap_u128, swap, fetch_op"]}
{"id": "C50", "title": "Format conversions deliver quiet NaNs", "statement": "Converting a NaN between formats delivers a quiet NaN, also when the source NaN is signaling (IEEE 754-2019, 6.2).", "quantifier": "all NaN bit patterns, all format pairs, both directions", "why_tests_cant": "Signaling NaN patterns are easily missed, and hardware float moves may quiet them before the test observes the result.", "anchors": ["compiler-builtins/src/float/extend.rs", "compiler-builtins/src/float/trunc.rs"]}
{"id": "C51", "title": "Arithmetic through a wider format rounds as if done directly", "statement": "Adding, subtracting, multiplying or dividing two floats by widening both with __extendXfYf2, applying the wider soft-float operation and narrowing with __truncYfXf2 gives the IEEE 754 result of the narrow format (f16 through f32 or wider, f32 through f64 or f128, f64 through f128): the two roundings never differ from one, and NaN, infinity and signed-zero results agree.", "quantifier": "all operand pairs, all six pairs of formats, the four operations", "why_tests_cant": "The operand space is 2^32 to 2^128; double rounding errors, where they exist, hit isolated operand pairs.", "anchors": ["compiler-builtins/src/float/extend.rs extend", "compiler-builtins/src/float/trunc.rs trunc", "compiler-builtins/src/float/add.rs", "compiler-builtins/src/float/mul.rs", "compiler-builtins/src/float/div.rs"]}
{"id": "C52", "title": "Stack probes touch every page and are transparent", "statement": "Calling a stack probe (__rust_probestack on x86_64, x86_64 SGX, x86 and x86 UEFI; _alloca/__chkstk on x86; ___chkstk_ms on x86_64; __chkstk on aarch64) with the size of a frame: if a guard page lies anywhere inside the frame, the function faults on it before it accesses anything below the guard page, and never returns; if the stack is large enough it does not fault, returns to its caller after a number of instructions proportional to the pages of the frame, with all registers that the convention preserves, the stack pointer (lowered by the size for the functions that allocate) and the caller's memory as they were. All this also when interrupt or signal handlers overwrite the memory below the stack pointer at any moment. Exceptions, each shown by an execution: the x86 UEFI version destroys a saved register for frames of 4, 8 or 12 bytes and is not safe against handlers on the same stack; _alloca is not safe against handlers for frames of less than eight bytes.", "quantifier": "all frame sizes (aarch64: below 2^63), stack positions, register contents, memories, positions of the guard page, moments and effects of interrupts", "why_tests_cant": "A missed page shows only when a guard page happens to be the one skipped, and an interrupt has to hit a window of one or two instructions.", "anchors": ["compiler-builtins/src/probestack.rs __rust_probestack", "compiler-builtins/src/x86.rs _alloca, __chkstk", "compiler-builtins/src/x86_64.rs ___chkstk_ms", "compiler-builtins/src/aarch64.rs __chkstk"]}
{"id": "C53", "title": "exp is accurate to 17/16 ulp and never panics", "statement": "exp(x) of an f64 never panics or indexes a table out of range, and returns: NaN for NaN, +inf for +inf, +0 for -inf, exactly 1 for a zero; for finite x with e^x < 2^1024 a finite double that differs from the real number e^x by at most 17/16 units in the last place of e^x (also in the subnormal range and where it underflows to 0); for finite x with e^x >= 2^1024 it returns +inf.", "quantifier": "all 2^64 bit patterns x; all targets whose f64 operators are IEEE and whose casts between f64 and i32 are those of the language", "why_tests_cant": "The error bound is a statement about real numbers for 2^64 inputs; sampling cannot exclude an isolated worse input, and the reference values themselves come from another library.", "anchors": ["libm/src/math/exp.rs exp", "libm/src/math/generic/scalbn.rs"]}
{"id": "C54", "title": "log is accurate to 3/2 ulp and never panics", "statement": "log(x) of an f64 never panics, and returns: NaN for NaN and for every negative argument including -inf, -inf for a zero of either sign, +inf for +inf, exactly +0 for 1; for every other positive finite x, normal or subnormal, a finite double that differs from the real number ln x by at most 3/2 units in the last place of ln x (also next to 1, where ln x is near 0).", "quantifier": "all 2^64 bit patterns x; all targets whose f64 operators are IEEE and whose casts between f64 and i32 are those of the language", "why_tests_cant": "The error bound is a statement about real numbers for 2^63 inputs; sampling cannot exclude an isolated worse input, and near 1 the relative accuracy depends on cancellation that few samples exercise.", "anchors": ["libm/src/math/log.rs log"]}
{"id": "C55", "title": "sin, cos and sincos are accurate to 1 ulp for every finite double", "statement": "sin(x), cos(x) and sincos(x) of an f64 never panic, never index a table out of bounds and never loop more than four times in the argument reduction; they return NaN for NaN and for both infinities, sin of a zero is that zero with its sign and cos of a zero is exactly 1; for every finite x, up to the greatest double and down to the subnormals, each result is a finite double that differs from the real number sin x or cos x by at most one unit in the last place of that number, also where x is close to a multiple of pi/2.", "quantifier": "all 2^64 bit patterns x; both tables of digits of 2/pi (16- and 32-bit targets, 64-bit targets); all targets whose f64 operators are IEEE and whose casts between f64 and i32 are those of the language", "why_tests_cant": "The bound needs that no double of any of the 2046 exponents lies closer to a multiple of pi/2 than the reduction can resolve, and that every one of the 66 stored digits of 2/pi is right; a sample does not meet the worst cases.", "anchors": ["libm/src/math/sin.rs sin", "libm/src/math/cos.rs cos", "libm/src/math/sincos.rs sincos", "libm/src/math/k_sin.rs", "libm/src/math/k_cos.rs", "libm/src/math/rem_pio2.rs", "libm/src/math/rem_pio2_large.rs"]}
{"id": "C56", "title": "hypot never overflows or underflows on the way and returns exact distances exactly", "statement": "In a build without overflow checks, hypot(x, y) of two finite doubles terminates without a panic and returns the IEEE rounding of a real number that differs from sqrt(x^2 + y^2) by at most one part in 2^97, whatever the magnitudes, also where x^2 would overflow or underflow and where the result is subnormal; a distance that is itself a double is returned exactly. An infinite operand gives +infinity even beside a NaN, any other NaN gives a quiet NaN. The result depends neither on the signs of the operands nor on the order of finite operands.", "quantifier": "all pairs of 64-bit patterns; all targets whose f64 operators, sqrt and fma are those of this crate over IEEE operators", "why_tests_cant": "2^128 operand pairs; the branch that handles results near a tie or near a double is entered for about one pair in 2^50, the subnormal branch never in ordinary use.", "anchors": ["libm/src/math/hypot.rs hypot", "libm/src/math/hypot.rs as_hypot_hard", "libm/src/math/hypot.rs as_hypot_denorm", "libm/src/math/hypot.rs as_hypot_overflow"]}
{"id": "C57", "title": "hypot is correctly rounded and does not panic in any build profile", "statement": "hypot(x, y) of two finite doubles is the double nearest to sqrt(x^2 + y^2), ties to even, and the call returns in builds with and without overflow checks.", "quantifier": "all pairs of finite doubles; both settings of overflow checks", "why_tests_cant": "The failing operands are Pythagorean triples with a 54-bit hypotenuse, or pairs that enter the slow branch with a difference outside i64; random testing does not hit the first and the test suite of the crate tests few of the second.", "anchors": ["libm/src/math/hypot.rs hypot", "libm/src/math/hypot.rs as_hypot_hard", "libm/src/math/hypot.rs as_hypot_denorm", "libm/src/math/hypot.rs as_hypot_overflow"]}
{"id": "C58", "title": "atan is accurate to one unit in the last place", "statement": "For every double x, atan(x) terminates without a panic. A NaN and a zero are returned unchanged, an infinity gives the double nearest to pi/2 with the sign of x, and for every finite x the result differs from the real arc tangent of x by at most one unit in the last place.", "quantifier": "all 64-bit patterns", "why_tests_cant": "2^64 arguments and a real-valued reference: the error has to be bounded at every argument, among them those beside the five boundaries between the argument reductions.", "anchors": ["libm/src/math/atan.rs atan", "libm/src/math/atan.rs ATANHI", "libm/src/math/atan.rs ATANLO", "libm/src/math/atan.rs AT"]}
{"id": "C59", "title": "atan2 is accurate to three units in the last place in every quadrant", "statement": "For every two doubles y and x, atan2(y, x) terminates without a panic. If both are finite and nonzero the result differs from the polar angle of the point (x, y), taken in [-pi, pi], by at most three units in the last place. A NaN gives a quiet NaN. The results at signed zeros and infinities are those of the C standard: y or pi with the sign of y for y zero, pi/2 with the sign of y for x zero or y infinite, zero or pi with the sign of y for x infinite, pi/4 or 3 pi/4 with the sign of y for both infinite.", "quantifier": "all pairs of 64-bit patterns", "why_tests_cant": "2^128 pairs and a real-valued reference; the quotient may overflow, underflow or be subnormal, and the exponent-gap shortcuts apply at boundaries no test sweep reaches in all quadrants.", "anchors": ["libm/src/math/atan2.rs atan2", "libm/src/math/atan.rs atan"]}
{"id": "C60", "title": "asin is accurate to 1.25 units in the last place", "statement": "For every double x, asin(x) terminates without a panic. On [-1, 1] the result differs from the arc sine by at most five quarters of a unit in the last place; a zero is returned with its sign; a NaN and every argument outside of [-1, 1] give a quiet NaN.", "quantifier": "all 64-bit patterns", "why_tests_cant": "2^64 arguments and a real-valued reference; the reduction near one through a square root with a corrected low half must not lose accuracy anywhere, and the branch boundaries lie on single bit patterns.", "anchors": ["libm/src/math/asin.rs asin"]}
{"id": "C61", "title": "acos is accurate to 1.25 units in the last place", "statement": "For every double x, acos(x) terminates without a panic. On [-1, 1] the result differs from the arc cosine by at most five quarters of a unit in the last place, also near one where it tends to zero; acos(1) is plus zero; a NaN and every argument outside of [-1, 1] give a quiet NaN.", "quantifier": "all 64-bit patterns", "why_tests_cant": "2^64 arguments and a real-valued reference; near one the relative error is decided by the correction term of the square root, which a sampled test does not settle.", "anchors": ["libm/src/math/acos.rs acos"]}
{"id": "C62", "title": "tan is accurate to 1.5 units in the last place", "statement": "For every double x, tan(x) terminates without a panic. If x is finite the tangent is defined at x and the result differs from it by at most one and a half units in the last place, also next to the poles and for the largest arguments; a zero is returned with its sign; a NaN and an infinity give a NaN.", "quantifier": "all 64-bit patterns", "why_tests_cant": "2^64 arguments and a real-valued reference; the accuracy next to a pole rests on the reduction modulo pi/2 of arguments up to 2^1024 and on the exactness of the split reciprocal.", "anchors": ["libm/src/math/tan.rs tan", "libm/src/math/k_tan.rs k_tan", "libm/src/math/rem_pio2.rs rem_pio2"]}
{"id": "C63", "title": "log1p is accurate to 1.5 units in the last place", "statement": "For every double x, log1p(x) does not panic. If x is finite and above -1 the result differs from the logarithm of 1 + x, taken before any rounding of the sum, by at most one and a half units in the last place, also for x near 0, near -1 and for the largest x; a zero is returned with its sign; -1 gives minus infinity; a smaller argument, minus infinity and a NaN give a NaN; infinity gives infinity.", "quantifier": "all 64-bit patterns", "why_tests_cant": "2^64 arguments and a real-valued reference; the rounding error of 1 + x has to be recovered exactly in every binade.", "anchors": ["libm/src/math/log1p.rs log1p"]}
{"id": "C64", "title": "log2 is accurate to 1.5 units in the last place and exact at powers of two", "statement": "For every double x, log2(x) does not panic. If x is finite and positive the result differs from the logarithm of x to the base 2 by at most one and a half units in the last place, subnormal x and x near 1 included. If x is a power of two the result is its exponent, exactly. A zero gives minus infinity, a negative argument and a NaN give a NaN, infinity gives infinity, 1 gives +0.", "quantifier": "all 64-bit patterns", "why_tests_cant": "2^64 arguments and a real-valued reference; near 1 the result cancels, so the relative error has to be bounded binade by binade.", "anchors": ["libm/src/math/log2.rs log2"]}
{"id": "C65", "title": "log10 is accurate to 1.5 units in the last place", "statement": "For every double x, log10(x) does not panic. If x is finite and positive the result differs from the logarithm of x to the base 10 by at most one and a half units in the last place, subnormal x and x near 1 included. A zero gives minus infinity, a negative argument and a NaN give a NaN, infinity gives infinity, 1 gives +0.", "quantifier": "all 64-bit patterns", "why_tests_cant": "2^64 arguments and a real-valued reference; the constants of the change of base are split in two doubles, so the error of both parts counts.", "anchors": ["libm/src/math/log10.rs log10"]}
{"id": "C66", "title": "atanh is accurate to six units in the last place", "statement": "For every double x, atanh(x) does not panic. If x is strictly between -1 and 1 the result differs from the real number whose hyperbolic tangent is x by at most six units in the last place, subnormal x included. 1 and -1 give the infinity of the same sign, any other argument gives a NaN, a zero is returned unchanged.", "quantifier": "all 64-bit patterns", "why_tests_cant": "2^64 arguments and a real-valued reference; the result is composed of rounded operations and a logarithm, whose errors add up near the ends of the interval.", "anchors": ["libm/src/math/atanh.rs atanh"]}
{"id": "C67", "title": "asinh is accurate to six units in the last place", "statement": "For every double x, asinh(x) does not panic. If x is finite the result differs from the real number whose hyperbolic sine is x by at most six units in the last place. Zeros and infinities are returned unchanged, a NaN gives a NaN.", "quantifier": "all 64-bit patterns", "why_tests_cant": "2^64 arguments and a real-valued reference; four ranges with different formulas have to agree with one real function.", "anchors": ["libm/src/math/asinh.rs asinh"]}
{"id": "C68", "title": "acosh is accurate to six units in the last place", "statement": "For every double x, acosh(x) does not panic. If x is finite and at least 1 the result differs from the nonnegative real number whose hyperbolic cosine is x by at most six units in the last place. 1 gives +0, an argument below 1 gives a NaN although the code has no test for it, infinity gives infinity.", "quantifier": "all 64-bit patterns", "why_tests_cant": "2^64 arguments and a real-valued reference; that every argument below 1 ends in a NaN depends on the roundings of a root and a sum.", "anchors": ["libm/src/math/acosh.rs acosh"]}
{"id": "C69", "title": "Inverse trigonometric and hyperbolic functions are exactly odd", "statement": "Changing the sign of the argument of atan, asin, asinh or atanh, or of the first argument of atan2, changes the sign bit of the result and no other bit. This holds for zeros, subnormals and infinities too; for asin on its whole domain, for atan2 on all pairs without a NaN.", "quantifier": "all 64-bit patterns (pairs of them for atan2), any operators that follow IEEE 754", "why_tests_cant": "2^64 arguments (2^128 pairs); accuracy bounds do not imply it, since two results within the bound may still differ in the last bit, and a sum that cancels exactly gives +0 for both signs.", "anchors": ["libm/src/math/atan.rs atan", "libm/src/math/asin.rs asin", "libm/src/math/asinh.rs asinh", "libm/src/math/atanh.rs atanh", "libm/src/math/atan2.rs atan2"]}
{"id": "C70", "title": "sin and tan are exactly odd and cos is exactly even", "statement": "Changing the sign of a finite argument changes the sign bit of the results of sin and tan (and of the sine component of sincos) and no other bit, and does not change the result of cos (or the cosine component of sincos). This includes the arguments whose reduction modulo pi/2 is done in several rounds or with the table of 2/pi.", "quantifier": "all finite 64-bit patterns, any operators that follow IEEE 754, either table of 2/pi", "why_tests_cant": "2^64 arguments; accuracy does not imply it, and the reduction adds and subtracts constants of fixed sign and rounds to the nearest multiple of pi/2 with a magic constant, neither of which is symmetric in form.", "anchors": ["libm/src/math/sin.rs sin", "libm/src/math/cos.rs cos", "libm/src/math/sincos.rs sincos", "libm/src/math/tan.rs tan", "libm/src/math/rem_pio2.rs rem_pio2", "libm/src/math/k_sin.rs k_sin", "libm/src/math/k_cos.rs k_cos", "libm/src/math/k_tan.rs k_tan"]}
{"id": "C71", "title": "sincos returns exactly what sin and cos return", "statement": "For every f64, the pair returned by sincos is, bit for bit, the result of sin and the result of cos, infinities and NaNs included, so that replacing a pair of calls by one changes nothing.", "quantifier": "all 64-bit patterns, any operators that follow IEEE 754, either table of 2/pi", "why_tests_cant": "2^64 arguments; the three functions are separate code with different cut-offs for tiny arguments (sin returns x below 2^-26, sincos only below 2^-27 sqrt 2), so there is a range in which one evaluates the polynomial and the other does not.", "anchors": ["libm/src/math/sin.rs sin", "libm/src/math/cos.rs cos", "libm/src/math/sincos.rs sincos", "libm/src/math/k_sin.rs k_sin"]}
