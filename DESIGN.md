# Formal model of rust-lang/compiler-builtins in Rocq (Coq 8.16.1)

Source: /repo (read as text). Everything here is about a *model*: Gallina functions transcribed by
hand from the Rust source, each carrying the file and lines it models.

## Modelling conventions

* Machine integers are `Z`. An unsigned n-bit value is in `[0, 2^n)`, a signed one in
  `[-2^(n-1), 2^(n-1))`. Wrapping operations reduce explicitly.
* Arithmetic that panics in a build with overflow checks (`+ - * <<` on integers, `debug_assert!`,
  array indexing) is modelled in an error monad `res` (Base.v); a theorem `f x = Ok v` therefore
  says: no overflow check, assertion or index check fails in any build profile, and the value is `v`
  in every profile.
* Loops are structural recursion on fuel; running out of fuel is the distinct error `OutOfFuel`, so
  `= Ok v` also proves termination within the stated bound.
* Floats are bit patterns in `Z`, parametrised by a format record (total bits, significand bits).
  The specification side uses Flocq's IEEE-754 formalisation (rounding of the exact real result).
  Float primitives (`x + y`, `x * y` in libm code, executed by hardware or by this very crate) are
  modelled by Flocq's correctly-rounded operations.
* Memory is a total map from addresses to bytes, with a log of accesses.
* Atomics: interleaving (sequentially consistent) small-step semantics. Weak-memory effects are not
  modelled.

## Trusted base

Coq's kernel; the fidelity of the hand transcription; the standard library axioms of the classical
reals (through Flocq) where `Print Assumptions` lists them: `ClassicalDedekindReals.sig_forall_dec`,
`ClassicalDedekindReals.sig_not_dec`, `FunctionalExtensionality.functional_extensionality_dep`,
`Classical_Prop.classic`. No axiom is declared in this development; the table at the end of this
file gives, for each theorem of MANIFEST.json, what `Print Assumptions` prints.

## Plan per property

* **C01** 128-bit add/sub wrap and report overflow exactly [proved] — Model addsub.rs on Z words with explicit mod 2^n; prove equality with the reduced sum and flag <-> out of range, generic in the width.
* **C02** Widening-free multiplication returns the exact low half [proved] — Model the half-width decomposition and the shift-add loop (fuel = bit length, proved sufficient). Loop invariant: r + a*b constant mod 2^n.
* **C03** Overflow-reporting multiplication is exact [proved] — Model UMulo::mulo (four cases) and the signed wrapper; prove flag <-> unrepresentable by bounding high halves.
* **C04** Shifts composed from half-width shifts are exact [proved] — Model on (lo,hi) halves; prove against 2^s multiplication / floor division for symbolic width.
* **C05** Leading- and trailing-zero counts are exact on every implementation variant [proved] — Model both loops of leading_zeros.rs and trailing_zeros.rs step by step; prove the bracketing 2^(w-1-k) <= x < 2^(w-k).
* **C06** Byte swaps reverse bytes and are involutive [proved] — Model via byte lists; spec is list reversal.
* **C07** Unsigned division is exact for every algorithm selection [proved] — Model each algorithm (norm_shift, binary_long with and without leading_zeros, delegate, trifecta, asymmetric, sparc) in an error monad where every unchecked +,-,<< that would overflow is an error; prove result = Ok (n/d, n mod d) by loop invariants; d=0 gives the trap value.
* **C08** Signed division truncates toward zero [proved] — Model the three macros over the unsigned divider; spec Z.quot / Z.rem with wrap.
* **C09** Register-level division routines match the arithmetic [proved] — A small register-machine semantics for the AVR/ARM instructions used; prove the whole program.
* **C10** 256-bit support arithmetic is exact [proved] — Model (lo,hi) pair arithmetic; prove against Z mod 2^256.
* **C11** Narrowing division [proved] — Model div_three_digits_by_two and callers; prove Euclidean specification.
* **C12** Modular power-of-two reduction used by fmod [proved] — Model reducer and its linear loop; invariant (x*2^e) mod y.
* **C13** memcpy copies exactly n bytes and touches nothing else [proved] — Memory = total function Z -> byte plus a trace of accesses; model all copy_forward paths with word size/endianness parameters; prove the final memory pointwise.
* **C14** memmove is correct for every overlap [proved] — As C13 for the direction test and copy_backward.
* **C15** memset [proved] — As C13.
* **C16** memcmp/bcmp order byte strings lexicographically [proved] — Induction on the length; sign of the first difference.
* **C17** strlen finds the first NUL and never faults past its page-aligned word [proved] — Induction on the position of the first NUL; haszero bit-trick lemma.
* **C18** Memory routines make no out-of-range access [proved] — The memory model logs every access; theorem on all logged accesses.
* **C19** ARM EABI memory helpers [proved] — Word loops then byte tail, over the same memory model.
* **C20** Soft-float addition and subtraction are correctly rounded [proved] — Bit-pattern model of add.rs parametrised by format; specification = Flocq IEEE-754 Bplus with mode_NE on the decoded operands; the proof goes through an integer characterisation of rounding (values in units of the least subnormal).
* **C21** Soft-float multiplication is correctly rounded [proved] — As C20 with Bmult.
* **C22** Soft-float division is correctly rounded [proved] — As C20 with Bdiv; the reciprocal error bound is proved by interval-style integer inequalities, then the residual test fixes the last bit.
* **C23** Soft-float comparisons implement the IEEE-754 relations [proved] — Spec = Flocq Bcompare on decoded operands.
* **C24** Float widening is exact [proved] — Spec = equal real value / class.
* **C25** Float narrowing is correctly rounded [proved] — Spec = Flocq rounding of the real value.
* **C26** Integer to float conversion is correctly rounded [proved] — Spec = Flocq rounding of IZR n.
* **C27** Float to integer conversion truncates and saturates [proved] — Spec = clamp (Ztrunc x).
* **C28** powi is total and follows the square-and-multiply specification [proved] — Spec = recursion over Flocq Bmult; no-panic in the error monad.
* **C29** fabs and copysign act on the sign bit only [proved] — Bit-level.
* **C30** min/max families follow IEEE-754 [proved] — Spec from the IEEE definitions using Bcompare.
* **C31** fdim [proved] — Bcompare + Bminus.
* **C32** trunc, floor and ceil return the exact integral value [proved] — Spec = Ztrunc/Zfloor/Zceil of the real value + sign of zero.
* **C33** rint/roundeven round to nearest even and round rounds half away [proved] — Spec = ZnearestE / ZnearestA of the real value; the code's float additions are modelled by Flocq's Bplus (primitive float operations).
* **C34** frexp decomposes exactly [proved] — Real equation m*2^e = x.
* **C35** ilogb extracts the exponent [proved] — Bracketing of |x|.
* **C36** scalbn/ldexp scale by powers of two with a single rounding [proved] — Spec = Flocq rounding of x*2^n; primitive multiplications modelled by Bmult.
* **C37** nextafter moves to the adjacent float [proved] — Order-adjacency on the encoded integers and reals.
* **C38** modf splits exactly [proved] — Real equation.
* **C39** fmod is exact [proved] — Spec: exact remainder on integers in units of the least subnormal.
* **C40** remainder/remquo return the IEEE remainder [proved] — As C39.
* **C41** sqrt is correctly rounded [proved] — Spec = Flocq rounding of R sqrt; integer error analysis of the Goldschmidt iterations.
* **C42** fma rounds once (integer path, f64 and f128) [partial] — Spec ieee_fma (FmaSpec.v): special cases plus one rounding of the real x*y+z. Model of fma_round over abstract IEEE operators; the alignment, addition and left-alignment steps are shown to keep the real number in the same rounding cell, and the final conversion and scalbn to round it once. Cells are lost exactly under sticky_lost.
* **C43** fmaf rounds once (wide path) [partial] — Same spec; Flocq's Fast2Sum theorem gives the exact error of the wide sum, a two-step rounding lemma the effect of the final narrowing. False for subnormal double roundings (double_rounding), proved for everything else.
* **C44** fmaf16 rounds once [proved] — Spec ieee_fma. The 64-bit fixed-point sum represents the exact sum up to a sticky bit far below the result's last bit (FmaProofs7.v); the final conversion is shown to round it once.
* **C45** Hex-float parsing is exact/correctly rounded and total [partial] — Spec (HexSpec.v): an inductive grammar of literals, the real number each denotes, and one rounding in the requested direction with exact flags. The digit loop is shown to keep the number up to a sticky bit (HexProofs4.v), the rounding step to round it once (HexProofs2.v, HexProofs3.v).
* **C46** Hex-float printing round-trips [proved] — Spec: the grammar and real value of C45. The printed digits are shown to denote the value (HexProofs7.v); the round trip then follows from C45, because every finite pattern is its own rounding.
* **C47** ARM kernel-helper atomics are linearizable [proved] — Threads run the loop of the code as a small program over a shared memory of bytes (AtomicModel.v); steps of different threads interleave arbitrarily and the kernel helper may fail spuriously. Specification (AtomicSpec.v): a memory that performs each pending call in one step. Refinement: an invariant of every running call, with the successful helper call as the linearization point; induction over executions. Progress: from the invariant, a solo run from any reachable state returns.
* **C48** Sub-word atomics do not disturb neighbours [proved] — Consequences of the refinement: induction over the atomic histories (frame of put; sums of additions modulo 256^n).
* **C49** Load-linked/store-conditional atomics are linearizable [proved] — Same specification. thumbv6k: ldrex/strex loops with an exclusive monitor per thread, cleared by any conflicting write and at any moment. aarch64: the instruction sequences of the naked functions with registers, flag and monitor (AtomicA64Model.v); the LSE flag reads as any value at each call. LDXP is one 16-byte access or two 8-byte accesses in either order; the second case satisfies `weak` and a concrete execution shows that it does not satisfy `atomic`.
* **C50** Format conversions deliver quiet NaNs [partial] — Spec: is_qnan of the result for every NaN argument; proved for narrowing, refuted (with a witness for every pair) for widening.
* **C51** Arithmetic through a wider format rounds as if done directly [proved] — Compose the verified conversions and operations; Flocq's double-rounding theorems for +, -, *, / supply the innocuous second rounding (PromoteProofs.v).
* **C52** Stack probes touch every page and are transparent [proved] — The naked functions as programs of a small machine (registers, byte memory, flags; ProbeModel.v). Every execution, including handlers that overwrite anything below the stack pointer between any two instructions, is covered by an invariant per program counter: after k pages the bytes down to base - 4096k have been accessed without a fault. `probes_stack` (ProbeSpec.v) states transparency, faulting on the guard page, absence of other faults and termination without reference to the programs.
* **C53** exp is accurate to 17/16 ulp and never panics [proved] — The function over the operator record (ElemModel.v). A verified static error analysis of straight-line float code (FloatErr.v: interval and error bound of each operation, proved sound for IEEE operators) evaluated on subintervals, a verified polynomial range analysis in exact integer arithmetic (PolyBound.v) for the distance of the rational approximation from the Taylor polynomial, the Lagrange remainder (Elem.v), exactness of the Cody-Waite reduction with a 160-bit enclosure of ln 2, and C36_scalbn for the final scaling including subnormal results.
* **C54** log is accurate to 3/2 ulp and never panics [proved] — The function over the operator record (ElemModel.v). The static error analysis of FloatErr.v, extended to programs with shared intermediate results (LogProofs.v), evaluated on 57 subintervals and, near 1, on each binade of x - 1; the polynomial against the Taylor series of artanh with its remainder; exactness of x - 1 and of k * LN2_HI; the bit-level reduction to [sqrt(2)/2, sqrt(2)] and exact scaling of subnormals.
* **C55** sin, cos and sincos are accurate to 1 ulp for every finite double [proved] — The functions, the two kernels and both argument reductions over the operator record (TrigModel.v). The kernels by the static error analysis of FloatErr.v and Taylor with remainder; pi to 1700 bits from Machin's formula with a proved remainder, and from it the stored digits of 2/pi and the split constants; the distance of every double from the multiples of pi/2 by a checked certificate for each binade (TrigDist.v, TrigRed3.v); the Cody-Waite steps by exactness of the subtractions; the multi-word reduction by an integer model of the digit loop (TrigLg2-6.v), its summation by a compensated error analysis (TrigLg7-9.v).
* **C56** hypot never overflows or underflows on the way and returns exact distances exactly [proved] — The function with its three paths over the operator record (HypotModel.v), fma and sqrt being the models of C42 and C41. Exponent arithmetic on bit patterns by an extended decoding xval of integers as positive reals (HypotProofs.v); the fast path by an error analysis of the double-double sum with one Newton step (HypotProofs2-4.v); the slow path by modular arithmetic on the 64-bit residues of the squares with a proof that the candidate range is narrow enough for the residues to decide (HypotProofs5-6.v); the path for two subnormals by the monotonicity of its up/down loop (HypotProofs9.v).
* **C57** hypot is correctly rounded and does not panic in any build profile [partial] — Refuted by two witnesses computed in the model (HypotProps.v); C56 is what remains true.
* **C58** atan is accurate to one unit in the last place [proved] — The function over the operator record (AtanModel.v). The polynomial against the Taylor series of the arc tangent by checked Taylor-model arithmetic with the remainder bounded by a mean-value argument (AtanProofs.v); the table constants against pi/2, pi/4, atan(1/2), atan(3/2) by addition formulas and series; the rounding errors by the interval analysis of FloatErr.v on 44 intervals, the subtractions of the argument reductions being exact (AtanProofs2.v).
* **C59** atan2 is accurate to three units in the last place in every quadrant [proved] — The function over the operator record and the model of atan (Atan2Model.v). The polar angle is stated by its cosine and sine; the rounding of the quotient is bounded by the sharp relative error u/(1+u) and q/(1+q^2) <= atan q, so that it costs at most one unit (Atan2Proofs.v); the bit tests and the exponent gaps are translated to inequalities between the magnitudes, and the operations on constants are determined because correct rounding is (Atan2Proofs2.v).
* **C60** asin is accurate to 1.25 units in the last place [proved] — The function over the operator record and the model of sqrt (AsinModel.v). The partial sums of the arc sine series are bounded through the square of their derivative, and the rational approximation against them by interval checks of a polynomial residual (AsinProofs.v); the half-angle identity, the exact reduction (1 - x)/2 and the corrected square root s = f + c (AsinProofs2.v); rounding errors by verified interval programs over the pieces of the reduced argument (AsinProofs3.v, AsinProofs4.v); the branches on the bits (AsinProofs5.v).
* **C61** acos is accurate to 1.25 units in the last place [proved] — As for C60, with the four branches of the arc cosine (AsinProofs4.v, AsinProofs5.v).
* **C62** tan is accurate to 1.5 units in the last place [proved] — The function over the operator record, the integer casts and the model of rem_pio2 (TanModel.v). The polynomial against the Taylor polynomials of sine and cosine by interval checks, and the derivative of the tangent for the low part of the argument (TanProofs.v); the rounding errors of the correction r (TanProofs2.v); the exact split of -1/(x + r) (TanProofs3.v); arguments next to pi/4 by a verified interval program (TanProofs4.v); periods and branches on the bits (TanProofs5.v).
* **C63** log1p is accurate to 1.5 units in the last place [proved] — The function over the operator record and the integer casts (Log1pModel.v). The polynomial part is that of log, checked by the interval program of the proof of C54; the rounding error of 1 + x is a double and is computed without error, by Sterbenz's lemma and grid arguments (Log1pProofs.v); reduction on the bits and special cases (Log1pProofs2.v).
* **C64** log2 is accurate to 1.5 units in the last place and exact at powers of two [proved] — The function over the operator record and the integer casts (Log2Model.v), its argument reduction shared with log10. The polynomial is that of log; the high part of f - f^2/2 and its product with the 32-bit constant are exact, the rest is bounded by an interval program (Log2Proofs.v, Log2Proofs3.v); the compensated sum is exact up to one small rounding by Sterbenz's lemma (Log2Proofs2.v); a power of two gives an integer up to less than half a unit, hence exactly (Log2Proofs6.v).
* **C65** log10 is accurate to 1.5 units in the last place [proved] — As C64, with the constants log10(2) and 1/ln(10) checked against ln 2 and the series of ln(5/4) (Log2Proofs.v, Log2Proofs4.v).
* **C66** atanh is accurate to six units in the last place [proved] — The function over the operator record (AreaModel.v) with log1p of C63. Relative errors are propagated through the operations by general lemmas (AreaProofs.v); the logarithm does not amplify them; the real function is ln((1+x)/(1-x))/2, shown to invert tanh (AreaProofs2.v).
* **C67** asinh is accurate to six units in the last place [proved] — As C66, with sqrt of C41, log of C54 and log1p of C63 (AreaProofs3.v); for small arguments the mean value theorem on the inverse of sinh.
* **C68** acosh is accurate to six units in the last place [proved] — As C67 (AreaProofs4.v); below 1 either the radicand is negative or the argument of log1p is below -1, in spite of the roundings.
* **C69** Inverse trigonometric and hyperbolic functions are exactly odd [proved] — The models of C58-C60, C66 and C67. Rounding commutes with negation unless an exact sum is zero; the accuracy theorems show that the sums involved are not zero (OddProofs.v).
* **C70** sin and tan are exactly odd and cos is exactly even [proved] — The models of C55 and C62. The runs for x and -x are followed side by side: each pair of intermediate results is related by 'equal up to sign, zeros and NaNs identified', which every operation preserves (ParityProofs.v), the magic-constant rounding included since the constant is even (ParityProofs2.v); the accuracy theorems and the distance of doubles to multiples of pi/2 exclude a zero result (ParityProofs3.v).
* **C71** sincos returns exactly what sin and cos return [proved] — The models of C55. Where the branches differ, the polynomial's correction is shown to be below 0.4 * 2^-53 |x|, which rounds away (SinCosProofs.v).

## What is modelled, and what is not

Modelled (each definition cites its lines):

* `int/addsub.rs`, `int/mul.rs`, `int/shift.rs`, `int/leading_zeros.rs`, `int/trailing_zeros.rs`,
  `int/bswap.rs` (IntModel.v) — all exported symbols and `cfg` variants.
* `int/specialized_div_rem/{norm_shift,binary_long,delegate,trifecta,asymmetric}.rs`, `int/sdiv.rs`,
  `int/udiv.rs`, `sparc64.rs`, `avr.rs`/`arm.rs` division entry points (DivModel.v, RegModel.v).
* `int/big.rs`, libm's `int_traits/narrowing_div.rs`, `int_traits/mod_mul.rs`-style linear reduction
  (BigModel.v).
* `mem/{impls,mod,x86_64}.rs` and `arm.rs` memory functions (MemModel.v).
* `float/{add,sub,mul,cmp,extend,trunc,conv}.rs` (FloatModel.v, FloatConvModel.v), `float/{div,pow}.rs`
  (FloatDivModel.v).
* libm `generic/{fabs,copysign,fmin,fmax,fminimum,fmaximum,fminimum_num,fmaximum_num,fdim,trunc,floor,
  ceil,rint,round,frexp,ilogb,scalbn}.rs`, `nextafter(f).rs`, `modf(f).rs` (LibmModel.v). These use the float
  operators of the target: the model takes them as a record of functions and the theorems assume only
  that they meet the IEEE specification (`ieee_ops`); `soft_ops_ieee` proves that the crate's own
  routines do. Canonicalisation is modelled as the multiplication by one written in the source.
* libm `generic/fmod.rs`, `remquo(f).rs`, `remainder(f).rs` (RemModel.v), over the same operator record.
* libm `generic/fma.rs`, `generic/fma_wide.rs`, `fma.rs`, `fmaf16.rs` (FmaModel.v), over the operator record and the
  casts of the target; `soft_conv_ok`, `soft_widen_ok`, `soft_narrow_ok` show that the crate's own casts
  qualify. The status flags of `FpResult` are left out (the exported functions drop them).
* libm `generic/sqrt.rs` (SqrtModel.v), all four formats, over the operator record; the width of usize is a
  parameter. The returned `Status` and the per-architecture `sqrt` replacements are not modelled.
* libm `support/hex_float.rs` and the `Status`/`Round` types of `support/env.rs` (HexModel.v): parse_any,
  parse_hex_exact, the hf* functions and the printer (`fmt_any_hex`). Strings are lists of bytes; the text
  of panic messages is not modelled.
* `sync/{arm_linux,arm_thumb_shared,thumbv6k}.rs` (AtomicModel.v) and `aarch64_outline_atomics.rs` (AtomicA64Model.v):
  every function, as threads that interleave over a byte memory. The memory is sequentially consistent: acquire and
  release variants, barriers and reordering by the processor are not modelled. Store-exclusive may fail and the
  monitor may be lost at any moment; the LSE flag reads as any value. The kernel helper is modelled as an indivisible
  compare-and-store of a word that may fail spuriously.
* `probestack.rs`, `x86.rs`, `x86_64.rs` and `aarch64.rs` (ProbeModel.v): the stack probes, instruction by instruction, on a machine
  with general registers, byte memory and the operands of the last comparison as flags. Unwind directives are left out. A page is
  4096 bytes.
* libm `sin.rs`, `cos.rs`, `sincos.rs`, `k_sin.rs`, `k_cos.rs`, `rem_pio2.rs` and `rem_pio2_large.rs` (TrigModel.v), over the same operator
  record and casts; both tables of 2/pi. The loop of `rem_pio2_large` runs on fuel and the theorems show that four passes suffice. Not modelled:
  the precision-3 branch of `rem_pio2_large` (no caller uses it), the exception flags raised by `force_eval!`.
* libm `hypot.rs` (HypotModel.v), with the software `fma` and `sqrt` of libm, over the operator record and the casts between i64, u64 and f64. The
  two subtractions that can overflow i64 take a flag that says whether overflow checks are compiled in; all other operators are checked. Not
  modelled: the floating-point flag functions of the file, which do nothing, and directed rounding modes, which the crate does not set.
* libm `atan.rs`, `atan2.rs`, `asin.rs` and `acos.rs` (AtanModel.v, Atan2Model.v, AsinModel.v) over the operator record; `tan.rs` and `k_tan.rs` (TanModel.v) with the reduction of TrigModel.v; `log1p.rs` (Log1pModel.v); `log2.rs`, `log10.rs` (Log2Model.v); `atanh.rs`, `asinh.rs`, `acosh.rs` (AreaModel.v). Not modelled: the exception flags raised by `force_eval!`.
* libm `exp.rs` and `log.rs` (ElemModel.v), over the operator record and the casts between f64 and i32 (`icast_ok`; `C53_soft_icast` shows that
  the crate's own casts qualify). Exception flags (`force_eval!`) are left out.

Not modelled: the macro layer that generates the symbols (calling conventions, weak linkage, name
aliases), compiler code generation, and inline assembly not named above,
libm's architecture-specific versions (`libm/src/math/arch`) and the transcendental functions not named above. See the comments of the
individual definitions for local simplifications.

## Findings (behaviour of the code that a reader may not expect; each wrong behaviour is a `_refuted` theorem)

* `linear_mul_reduction` (C12): its `e += s` overflows `u32` for exponents near 2^32
  (`C12_huge_exponent_refuted`); no caller in the crate reaches such exponents.
* `extend` (C50): a signaling NaN stays signaling after widening (`C50_extend_quiets_refuted`);
  IEEE 754 and C Annex F require a quiet NaN. compiler-rt has the same behaviour.
* `rint`/`roundeven` report INEXACT for a NaN argument (C33_rint states it exactly): the flag is computed
  as `res != x`, true of NaN.
* `float/div.rs` carries two open questions in comments: "FIXME(tgross35): f128 seems to require one
  more half-width iteration" and "FIXME: Is x_UQ0 still >= 0.5?". C22_div settles both: with the extra
  iteration the reciprocal error of f128 is within the bound the final correction needs, and the second
  condition is not needed for correctness. This is a positive finding (no `_refuted` theorem).
* `remquof.rs` increments the quotient with a plain `q += 1` where `remquo.rs` wraps, and `remquo.rs:89`
  carries the comment "TODO: this matches musl behavior, but it is incorrect". C40_remquo shows that the
  addition never overflows (a full 32-bit quotient of ones with more than half a divisor left needs more
  than 24 significand bits) and that both functions return the low 31 bits of the true quotient
  with its sign for every input: the doubt is unfounded.
* `fma` and `fmaf128` (C42): `generic/fma.rs:74-76` overwrites `rlo` before it computes the sticky bit from
  it, so the bits shifted out of the product are forgotten and others are tested in their place. The
  result can be off by one unit in the last place: `C42_fma_refuted` gives
  fma(0x3ffe93742b388de2, 0x3ff0bec3171e92af, 2^54) = 2^54 where the correctly rounded sum is 2^54 + 4.
  musl, from which the code was ported, computes the sticky bit first. C42_fma_partial proves the
  function correct for all operands except those whose lost bits are followed by zeros (`sticky_lost`).
* `fma` returns a signaling NaN addend unchanged when the factors are finite and not zero
  (`C42_quiet_refuted`).
* `fmaf` (C43): when the result is subnormal the wide sum can be inexact and halfway between two f32 numbers
  although its low 29 bits are not the halfway pattern of a normal result, and is rounded twice:
  `C43_fmaf_refuted` gives fmaf(0x1969d495, 0x1a8c22c1, 0x7e1206) = 0x7e1206 instead of 0x7e1207. musl has
  the same double rounding (its comment only considers normal results).
* `sqrt` and `sqrtf128` with a 16-bit usize and overflow checks (C41): `generic/sqrt.rs:144-146` converts
  `ix >> (SIG_BITS - 6)` to usize before it masks the index, so the checked conversion panics on ordinary
  arguments (`C41_usize16_refuted`). C41_sqrt covers 32- and 64-bit usize, and 16-bit for f16 and f32.
* `sqrt` computes `d2` from `m` after `m` has been merged with the exponent (`generic/sqrt.rs:189-201`; musl does it
  before), so its test for an exact result is meaningless. C41_sqrt shows that in round-to-nearest the value is
  right anyway; the inexact flag and directed rounding, which the model does not have, would be affected.
* `parse_any` (C45): for f128 a large exponent is shifted out of the 128-bit word, so `0x1p65536` is read as 1.0
  with no overflow flag (`C45_f128_wraps_refuted`); exponents from 2^31 or so make the parser panic with overflow
  checks (`C45_exponent_refuted`); and a format without fraction bits passes the configuration check and panics
  (`C45_no_fraction_refuted`).
* `fmt_any_hex` (C46): NaNs are printed in a form that the parser does not accept (C46_nan).
* `__aarch64_cas16_*` (C49): when LSE is not available the loop loads the old value with LDXP, which the architecture
  only makes single-copy atomic if the following STXP succeeds. On the failing path no STXP is executed, so the
  function can return a mixture of two values that the cell never held (`C49_cas16_torn_refuted`). compiler-rt has the
  same sequence. C49_cas16_weak proves that success, failure and effects are right even so.
* `hypot` (C57): `hypot.rs:218-220` decides a tie with `rm -= rm & 1`. From 2^53 up `rm` advances in steps of two, so its lowest bit is always 0
  and the parity of the double is in the bit above; a tie there keeps the upper neighbour even where it is odd: hypot(0x3ffc8b5dbd5e4e60, 0x3fecedbea4c2a3fe) =
  0x4000000000000001 although the distance is 2 + 2^-52 (`C56_hypot_refuted`). The differences `m2 as i64 - rm2 as i64` are meant to wrap but are written with a plain
  `-`, so a build with overflow checks panics, for example on hypot(726735261.0, 300244580.0) (`C56_no_panic_refuted`).
* `__rust_probestack` for x86 UEFI (C52) copies the return address to the new top of the stack with `mov [esp + 12], edx` while the
  saved edx, ecx and ebp are still on the stack: for frames of 4, 8 or 12 bytes it overwrites one of them
  (`C52_uefi_small_refuted`). It then raises esp to pop the registers and lowers it again, so that the copied return address lies
  below esp for some instructions: a handler on the same stack can overwrite it (`C52_uefi_interrupt_refuted`).
* `_alloca` (C52): for frames of less than eight bytes the return address or the saved ecx lies below esp while it is still needed
  (`C52_alloca_interrupt_refuted`). LLVM only calls these functions for larger frames.

## Print Assumptions

`closed` = "Closed under the global context"; `reals` = exactly the four standard-library axioms named under Trusted base, or a subset of them.

* closed: `C01_u128_add`, `C01_i128_add`, `C01_u128_sub`, `C01_i128_sub`, `C01_u128_addo`, `C01_i128_addo`, `C01_u128_subo`, `C01_i128_subo`, `C02_mulsi3`, `C02_muldi3`, `C02_multi3`, `C03_mulosi4`, `C03_mulodi4`, `C03_muloti4`, `C03_rust_i128_mulo`, `C03_rust_u128_mulo`, `C03_muloti4_uefi`, `C04_ashl`, `C04_lshr`, `C04_ashr`, `C04_symbols`, `C05_clz`, `C05_clz16`, `C05_ctz`, `C06_bswap`, `C07_udiv32`, `C07_udiv64`, `C07_udiv128`, `C07_div_by_zero`, `C08_div32`, `C08_div64`, `C08_div128`, `C09_avr_udivmodqi4`, `C09_avr_udivmodhi4`, `C09_avr_udivmodsi4`, `C09_avr_divmodsi4`, `C09_aeabi_uidivmod`, `C09_aeabi_uldivmod`, `C09_aeabi_idivmod`, `C09_aeabi_ldivmod`, `C10_add`, `C10_sub`, `C10_shifts`, `C10_bits`, `C10_cmp`, `C10_widen_mul`, `C10_halves`, `C11_narrowing_div`, `C11_narrowing_div_u256`, `C12_linear_mul_reduction`, `C12_linear_mul_reduction_u128`, `C12_huge_exponent_refuted`, `C13_memcpy`, `C14_memmove`, `C15_memset`, `C16_memcmp`, `C16_bcmp`, `C17_strlen`, `C18_memcpy`, `C18_memmove`, `C18_memset`, `C18_memcmp`, `C19_memcpy`, `C19_memmove`, `C19_memset`, `C19_memclr`, `C23_trichotomy`, `C29_fabs`, `C29_copysign`, `C41_usize16_refuted`, `C45_sound`, `C45_rejects_partial`, `C45_unsupported`, `C45_exponent_refuted`, `C45_no_fraction_refuted`, `C46_infinity`, `C46_nan`, `C47_linearizable`, `C47_can_finish`, `C47_alone`, `C48_other_bytes`, `C48_no_lost_update`, `C48_armv6k_other_bytes`, `C48_armv6k_no_lost_update`, `C49_aarch64_no_lost_update`, `C49_armv6k_linearizable`, `C49_armv6k_can_finish`, `C49_armv6k_alone`, `C49_aarch64_linearizable`, `C49_aarch64_can_finish`, `C49_aarch64_alone`, `C49_cas16_weak`, `C49_cas16_torn_refuted`, `C52_x86_64`, `C52_x86_64_sgx`, `C52_x86`, `C52_chkstk_ms`, `C52_alloca`, `C52_uefi`, `C52_aarch64`, `C52_uefi_small_refuted`, `C52_uefi_interrupt_refuted`, `C52_alloca_interrupt_refuted`, `C56_no_panic_refuted`
* reals: `C20_add`, `C20_sub`, `C21_mul`, `C23_cmp`, `C23_nan`, `C23_aeabi`, `C24_extend`, `C25_narrow`, `C25_round_trip`, `C26_unsigned`, `C26_signed`, `C26_uefi`, `C27_fix`, `C50_narrow_quiets`, `C50_extend_quiets_refuted`, `C22_div`, `C28_powi_zero`, `C28_powi`, `C28_powi_exact`, `C28_soft_ops`, `C30_fmin`, `C30_fmax`, `C30_fminimum`, `C30_fmaximum`, `C30_fminimum_num`, `C30_fmaximum_num`, `soft_ops_ieee`, `C31_fdim`, `C32_trunc`, `C32_floor`, `C32_ceil`, `C33_rint`, `C33_round`, `C34_frexp`, `C35_ilogb`, `C36_scalbn`, `C37_nextafter`, `C38_modf`, `C39_fmod`, `C40_remquo`, `C40_remainder`, `C42_fma_partial`, `C42_fma_balanced_partial`, `C42_fma_near`, `C42_fma_refuted`, `C43_fmaf_partial`, `C43_fmaf_normal_partial`, `C43_fmaf_refuted`, `C44_fmaf16`, `f16_ops_ieee`, `C51_add`, `C51_sub`, `C51_mul`, `C51_div`, `C41_sqrt`, `C41_sqrt_soft`, `C41_sqrt_exact`, `C45_accepts_partial`, `C45_exact_partial`, `C45_f128_wraps_refuted`, `C46_round_trip`, `C46_injective`, `C53_exp`, `C53_soft_icast`, `C54_log`, `C55_sin`, `C55_cos`, `C55_sincos`, `C56_hypot_near`, `C56_hypot_exact`, `C56_hypot_special`, `C56_hypot_symmetric`, `C56_hypot_refuted`, `C58_atan`, `C58_half_pi`, `C59_atan2`, `C59_angle_unique`, `C59_constants`, `C60_asin`, `C61_acos`, `C62_tan`, `C63_log1p`, `C64_log2`, `C64_log2_power`, `C65_log10`, `C66_atanh`, `C67_asinh`, `C68_acosh`, `C69_atan_odd`, `C69_asin_odd`, `C69_atanh_odd`, `C69_asinh_odd`, `C69_atan2_odd`, `C70_sin_odd`, `C70_cos_even`, `C70_sincos`, `C70_tan_odd`, `C71_sincos_agrees`
