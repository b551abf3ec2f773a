# Formal model of std::experimental::simd (VcDevel/std-simd) in Rocq

The C++ sources in /repo are read as text; nothing is compiled or run.  The
theorems are about the Gallina model in `rocq/theories`; the tie to the code is
the file/line citation on every definition of the model.

## Layout

Flat directory `rocq/theories`, logical prefix `Verif`.

* `Prelude.v`: list and bit lemmas.
* Model files (`Abi.v`, `Fixed.v`, `X86Shift.v`, …): definitions only, each with
  a citation.
* `*Spec.v`: the vocabulary of the theorem statements, written without the
  model's helpers.
* `*Proofs.v`, `*Top.v`, `*Final.v`, …: lemmas.
* `Props*.v`: the property theorems, each followed by `Print Assumptions`, plus
  the `Example`s that instantiate its hypotheses.

`properties.jsonl` has the English statements, `MANIFEST.json` the theorems that
prove them, `seeded/LOG.jsonl` the mutations the theorems were tested against.

## Conventions of the model

* Lengths, widths and indices are `nat`; data are `Z` (bit patterns in
  `[0, 2^w)` or signed values, as stated) or an abstract element type when the
  code is generic.
* A vector register is the list of *all* its lanes.  The simd type with N
  elements uses the first N lanes; the rest ("padding") are arbitrary.
* Vector integer arithmetic is two's complement wrap-around (GNU vector
  extensions / x86 instructions).  Integer division by zero, `INT_MIN / -1`,
  shifts by at least the promoted width, and accesses outside the allocated
  memory are a distinct outcome (`UB`, `None`, or a universally quantified
  "anything" such as `oob` and `imul`).
* x86, NEON and PowerPC intrinsics are modelled by their documented lane-wise
  meaning; the model definition says which intrinsic it stands for.
* Template parameters are ordinary arguments; `if constexpr` becomes `if`; pack
  expansions and recursive templates become structural recursion on lists.
* `__builtin_constant_p` / `_M_is_constprop` paths are modelled as separate
  definitions or as a boolean argument.
* Loops `while (k) …` are fuelled; the theorems show that the fuel suffices.
* Statements about "every target, element type and N" are proved for the 48
  architectures of `Targets.v` (all 17 feature flags are first reduced to the
  combinations that GCC can produce, `arch_ok`), every arithmetic type and every
  N up to `max_fixed_size`.  `Profile.v` shows that the storage of a fixed_size
  type depends on a few numbers only, so one representative per profile is
  checked by computation and the result holds for all.  Where N is unbounded
  (C01, C09 …) the proof is by induction.

## Plan per property

| Id | Model | Spec | How it is proved |
|----|-------|------|-------|
| C01, C02, C03 | `Abi.v`: ABI tags, feature flags, validity, `_AbiList` search, storage builder, `__deduce_impl`, `native`, `compatible` | `AbiSpec.v` | strong induction on N; the search returns the first valid tag |
| C04 | `Align.v`: alignment formula of `split`, `memory_alignment`, load flags | in `PropsAlign.v` | divisibility of powers of two, all addresses |
| C05–C08 | `Fixed.v`: `_SimdTuple` as a list of chunks, chunk-wise application, re-partitioning, masks | `FixedSpec.v` | induction over the chunk list; tables for mixed types |
| C09, C10, C39, C45, C46 | `BitMask.v`: `_BitMask`, `_MaskImplFixedSize`, `__bit_iteration`, where range | `MaskSpec.v` | testbit reasoning, induction over programs |
| C11, C12 | `Mem.v`: element memory `nat -> option A`, loads, stores, masked loads and stores | `MemSpec.v` | footprint and frame statements by induction |
| C13, C14, C38, C44 | `Reduce.v`: reduction trees of all ABIs, masked reductions, min/max/minmax/clamp | `ReduceSpec.v` | fold invariance under permutation; padding arbitrary |
| C15, C50 | `MaskConv.v`: all mask conversions; the x86 sequences are expressions over byte permutations, packs and movm | `MaskConvSpec.v` | abstract interpretation of the expressions (copy of lane i / zero / unknown), sound for all masks, then a finite check of the expressions |
| C16 | `Split.v`: `split`, `concat`, `__extract_part` | `SplitSpec.v` | induction on size lists |
| C17 | `Convert.v`: `_SimdConverter`, `__convert_all`, `__vector_convert` arities | `ConvertSpec.v` | induction on chunk lists; tables for the existing combinations |
| C18 | `Padding.v`: programs over one-register values and masks; `Mem.v` for masked loads and stores | `PaddingSpec.v` | two-run simulation by induction over programs |
| C19, C20 | `IntDiv.v`: `_S_divides`, `_S_modulus`, `_S_masked_cassign` | `IntDivSpec.v` | lane-wise |
| C21 | `KMask.v`: AVX-512 masks, programs, reductions | `KMaskSpec.v` | invariant on bits above N |
| C22, C23 | `X86Mul.v`, `X86Div.v` | `X86ShiftSpec.v` | modular arithmetic; error bound of the rounded quotient in every rounding mode |
| C24–C29, C47 | `X86Shift.v`, on `X86Lanes.v` | `X86ShiftSpec.v` | bit-level lemmas, lanes and counts arbitrary |
| C48 | `PpcShift.v` | `X86ShiftSpec.v` | as C24 |
| C30 | `BoolStore.v`: all expansion tricks | `BoolStoreSpec.v` | per-group bit lemmas lifted to all N |
| C31, C43 | `X86Mask.v`, `ConstRed.v` | `X86MaskSpec.v` | lane and byte reasoning, padding arbitrary |
| C32, C33 | `FloatBits.v` | `FloatSpec.v` (own IEEE-754 decoding) | for every format and bit pattern |
| C34, C35, C37 | `FloatMath.v` | `FloatMathSpec.v` | integer reasoning on bit patterns and units of the last place |
| C36 | `FloatRound.v`, `FloatArith.v` | `FloatRoundSpec.v` | exact integer arithmetic in units of the smallest number, all rounding modes |
| C40 | `Narrow.v` | `NarrowSpec.v` | interval and precision reasoning |
| C41 | `Scalar.v` | `ScalarSpec.v` | C++17 integer rules with undefined overflow |
| C42 | `Refs.v` | `RefsSpec.v` | refinement: every program over references simulates one over scalars |
| C49 | `Neon.v` | `NeonSpec.v` | lane and bit reasoning |
| C51 | `XConv.v`: all of `__convert_x86`, as expressions over byte shuffles, or, lane additions and lane conversions | `XConvSpec.v` | symbolic evaluation byte by byte, sound for all register contents and rounding modes; the lane formulas (`hi * 2^32 + lo`, the unsigned detours) by exact arithmetic in `XConvLanes.v`; then a finite check over all types, sizes and feature levels |
| C52 | `SseWiden.v`: the SSE2 branch of `__convert_all` | `SseWidenSpec.v` | the same symbolic evaluation, per result register |
| C53 | `XCast.v`: the casts of `Convert.v` with the register conversions of `XConv.v` and `SseWiden.v` | `XCastSpec.v` | relational version of the proofs of C17 (`ConvertRel.v`, `ConvertRelTop.v`) with the domain of the calls as a parameter; storage facts of x86-64 (`XCastStorage.v`); C51 and C52 for each call |
| C54 | `BoolLoad.v`: loads of masks from `bool*` for vector, fixed_size and scalar masks, loads and stores of masks under a mask | `BoolLoadSpec.v` | case analysis over the instruction sequences with symbolic bools; bit iteration (C12) for the masked versions; fixed_size through the load and comparison theorems (C11, C07) |
| C55 | `Hypot.v`: the two paths of `__hypot` for two and three arguments, square root and fused multiply-add | `HypotSpec.v` | exact error bounds in Z for every operation (`HypotRound.v`), exactness of the scaling (`HypotScale.v`), combination (`HypotArith.v`, `HypotCore.v`), special values and vectors (`HypotTop.v`), agreement of the paths (`HypotNearest.v`) |
| C56 | `SinCos.v`: `__fold_input`, the polynomials, sin and cos for float and double | `SinCosSpec.v` | sign symmetry of every operation carried through the sequences; case analysis on the selections; bounds on the quadrant number. Accuracy (`SinCosNearSpec.v`): Taylor bounds from `Coq.Reals`, pi to 100 bits by Machin's series, rounding errors of each operation bounded by fixed-point numbers that follow the code, exactness of the first products of the argument reduction |
| C57 | `Where.v`: the masked assignment functions and the blends they use | `WhereSpec.v` | per lane: each way to blend selects (bit by bit for and/andnot/or, group by group for the sign-controlled blends, through the lemma for `_S_to_bits` for conversion to a mask register); the branches on `__builtin_constant_p` agree with it |
| C58 | `Ldexp.v`: ldexp with AVX-512 | `LdexpSpec.v` | the rounding of the model is shown to satisfy the definition of correct rounding (nearest number, ties to even, directed); exponents that are rounded themselves are beyond the range of results; frexp from C34 |
| C59 | `ArithOps.v`: operators + - * / with the padding of divisors, sqrt | `ArithSpec.v` | rounding observes of a number only how it compares with halves of integers; quotients and roots with a sticky bit compare like the exact ones |
| C60 | `Compare.v`: operators == != < <= > >= ! | `CompareSpec.v` | the dispatch is shown to find the instruction of the right size and test for every type; bits of the mask word one by one |
| C61 | `ShiftRight.v`: `__shift_elements_right`, `__extract_part` on bytes | `ShiftRightSpec.v` | one lemma per instruction sequence, for symbolic byte contents; refinement of the lane model of Convert.v |
| C62 | `MathCall.v`: the table of math functions per ABI and the calls per register and per fixed_size object | `MathCallSpec.v` | case analysis over the table; the theorems of C06 for the walk over registers; std functions are parameters |
| C63 | `PpcMask.v` | `PpcMaskSpec.v` | lane and bit reasoning |
| C64 | `Threshold.v`, `Narrow.v` | `ThresholdSpec.v` | invariant of the search (2^(p-3) units lie between its ends, which halve their distance); gap between neighbours |
| C65 | `X86Shift.v` | `X86ShiftSpec.v`, `PadShiftSpec.v` | chunks of one, two or four lanes; lane i of a chunk needs the counts of lanes 0 to i only |
| C66 | `BitOps.v`: `__xor`, `__or`, `__and`, `__andnot`, `__not` on bytes with the lanes of each instruction; the operators and selections made of them; the scalar operators | `BitOpsSpec.v` | every lane width gives the byte-wise result (little endian), by induction on the lanes; elements from bytes |
| C67 | `FixedFrexp.v`: frexp and logb of fixed_size objects; the registers' functions are those of `FloatMath.v` | `FixedFrexpSpec.v` | every element is tagged with its result, the walk over chunks commutes with removing the tags, and C06 applies to the tagged objects; C34 and C35 for the registers |
| C68 | `FixedModf.v`: modf and copysign of fixed_size objects, composed of trunc, subtraction, isinf, masked assignment and bitwise operators for every chunk | `FixedModfSpec.v` | C05–C08 for each step; trunc and isinf relate elements chunk by chunk because registers and scalars use different functions; the lane argument of C37 with any correct trunc |
| C69 | `FixedHypot.v`: hypot with two and three arguments (`__fixed_size_apply`) and the predicates of fixed_size objects | `FixedHypotSpec.v` (and `HypotSpec.v`) | relational versions of C06 and C07: every register satisfies the relation of C55, C32 or C33 between operands and result, so every element does |
| C70 | `FixedFpclassify.v`: fpclassify of fixed_size objects: one call for every register, the ints concatenated and regrouped | `FixedFpclassifySpec.v` | a check of the partitions on all targets (`fits_all`) shows that the ints of a register fill the members they initialize; then C33 for each register and C06 for the regrouping |
| C71 | `FixedArith.v`: + - * / sqrt and the rounding functions of fixed_size objects | `FixedArithSpec.v` | C36 and C59 for each lane that is an element, put together by the relational version of C06 (`registers_rel`) |

Properties are never dropped; when the full statement is false of the faithful
model a `…_refuted` theorem with a witness is given together with a
`…_partial` theorem on the domain where it holds.

## Trusted base

* Coq 8.16.1's kernel (with its VM, used by `vm_compute`; `coqchk` re-checks).
* Axioms: none of our own.  `Print Assumptions` answers "Closed under the global
  context" for every property theorem except `C59_sqrt`, `C71_sqrt`, which speak
  about the square root of a real number, and `C56_accurate`,
  `C56_accurate_small` and `C56_accurate_directed_refuted`, which speak about the
  real functions sin and cos of the Coq standard library.  For these five it lists
  axioms of `Coq.Reals`: `ClassicalDedekindReals.sig_not_dec`,
  `ClassicalDedekindReals.sig_forall_dec`,
  `FunctionalExtensionality.functional_extensionality_dep`, and for `C56_accurate`
  and `C56_accurate_small` also `Classical_Prop.classic`.
* The reading of /repo recorded in the citations.
* The meaning given to compiler built-ins, `<bit>` functions and intrinsics,
  stated in the comment of each definition, in particular:
  * `psllw` and friends on out-of-range counts give what the Intel manual says
    when the intrinsic is used, but a GNU vector shift `x << y` or `x >> y` by a
    count not less than the lane width is undefined: the theorems quantify over
    its result (`oob`).  `imul` is the same for signed overflow of `int`.
  * floating-point comparison, addition, subtraction, multiplication, division,
    `round*`, `getexp*`, `getmant*`, `fpclass*` instructions implement IEEE 754 /
    the Intel manual on bit patterns (`FloatArith.v`, `FloatBits.v`,
    `FloatMath.v`), in all four rounding modes; NaN payloads are not tracked;
    flush-to-zero and denormals-are-zero are off; x87 excess precision is not
    modelled.
  * `cvttps2dq` and `cvttpd2dq` truncate when the value fits (X86Div).
  * `int` has 32 bits; the C++17 shift rules; conversion to a signed type is
    modulo 2^w as GCC defines it.
* Two hypotheses that appear in C16 and C17 statements: `converts_registers`
  (one register conversion intrinsic converts lane by lane) and
  `unpacks_registers` (the SSE2 unpack sequences do so).  They are premises of
  the theorems, not axioms.

## Which code is modelled

* `simd.h`: ABI selection (1650–2100 region and `_AbiList`), `_BitMask`,
  `_SmartReference`, narrowing test, casts, `split`, `concat`, mask reductions
  (constant and run-time), where iteration, where expressions, min/max/clamp, reductions' entry
  points.
* `simd_fixed_size.h`: `_SimdTuple`, `_SimdImplFixedSize`, `_MaskImplFixedSize`,
  `__extract_part`, loads and stores of masks.
* `simd_builtin.h`: loads, stores, masked versions, reductions, division,
  shifts, comparisons, classification, rounding, mask conversion.
* `simd_x86.h`: multiplication, division, shifts, comparisons, classification,
  rounding, mask reductions, mask conversion, mask loads and stores, masked memory
  access.
* `simd_neon.h`: reductions, rounding, mask reductions.  `simd_ppc.h`: shifts.
* `simd_scalar.h`: everything integer, mask functions.
* `simd_math.h`: frexp, logb, modf, copysign, fabs, fpclassify, hypot, sin, cos,
  ldexp (with AVX-512).
* `simd_converter.h`: all converters.
* `simd_x86_conversions.h`: all of it (C51).
* `simd_builtin.h` 591–757, the SSE2 unpack sequences (C52).

Simplifications, each also stated at the definition:

* `__convert_all` and `__vector_convert` are modelled by the order in which they
  take and return elements; the lane-wise conversion is an arbitrary function
  in C17, and the modelled instruction sequences in C53.
* A register with 8-byte integer vectors on 32-bit x86 may consist of two
  registers; C16 excludes it (`single_register`) except for
  `C16_i386_refuted`.  The MMX paths are not modelled.
* Template acceptance conditions (SFINAE) are modelled only where a property is
  about them (ABI validity, narrowing test).
* `long double` is binary64, x87 or binary128 in C40; elsewhere floating-point
  elements are float and double.
* Big-endian targets matter for C30 only.
* ARM ILP32, 64-byte vector masks (they do not exist on real targets) and the
  i386 variants of mask conversions are not modelled.

## Not modelled

Compiler code generation, overload resolution beyond the value-level predicates
named above, inline assembly (only its documented effect), the functions of `simd_math.h`
forwarded to libm, and the variants for `-ffast-math` and
`-ffinite-math-only`.

## Findings (places where the code contradicts the property)

Proved as `…_refuted` theorems:

* C03: `native<short>` and `native<char>` with AVX512VL but without AVX512BW name
  an invalid ABI (`C03_native_refuted`).
* C04: the implicit fixed_size conversion promises `vector_aligned` for a
  temporary `std::array` (`C04_convert_ctor_refuted`); `split` into scalars of a
  12-byte long double promises 16 (`C04_split_scalar_refuted`).
* C06: int arguments (ldexp, …) of 8-byte elements on i386 with SSE2: reads beyond
  the object (`C06_mixed_type_refuted`; frexp: `C67_frexp_refuted`).
* C12: masked loads and stores with partial vector masks touch memory of padding
  lanes (`C12_masked_refuted`); AVX-512 masks with stray bits likewise
  (`C21_touched_refuted`).
* C16: `split` of the mask of a partial AVX register drops elements
  (`C16_mask_split_refuted`); `split<8,8,8>(fixed_size_simd<char,24>)` does not
  compile on i386 (`C16_i386_refuted`).
* C18, C19: signed division of a partial register overflows in a padding lane
  (`C19_broadcast_refuted`, `C18_signed_division_refuted`).
* C18, C12: for every register with padding there are masks with the same elements
  of which one makes a masked load or store undefined and the other does not
  (`C18_masked_memory_refuted`).
* C20: masked compound division divides all lanes (`C20_unselected_refuted`).
* C21, C18, C43: integer `!=` on AVX-512 leaves stray bits, which
  `find_last_set` sees; the constant-evaluated path answers differently
  (`C21_find_last_set_refuted`, `C43_find_last_set_refuted`).
* C22: 3- and 4-element 8-bit multiplication overflows a signed int
  (`C22_four_elements_refuted`).
* C24, C25: signed 8-bit `>>` by 8..31 and 64-bit `>>` by 32..63 shift vector lanes
  out of range (`C24_shr8_signed_refuted`, `C25_shr64_signed_refuted`).
* C28: the SSE 16-bit per-lane left shift leaks into the neighbour
  (`C28_shlv16_sse_refuted`).
* C29: signed 8/16-bit per-lane `>>` by at least the width gives 0 for negative
  elements (`C29_shrv_signed_sse_refuted`).
* C30: generic fixed_size mask stores reverse groups on big-endian targets
  (`C30_big_endian_refuted`).
* C31: a branch of popcount for 32-byte registers lacks a return statement
  (`C31_popcount_refuted`).
* C33: isnormal with AVX512DQ without VL, and fpclassify on SSE without SSE2, do
  not compile (`C33_isnormal_dq_refuted`, `C33_fpclassify_sse_refuted`).
* C36, C37: the sign of a zero result is lost on several rounding and modf paths
  (`C36_sign_of_zero_refuted`, `C37_modf_sign_refuted`).
* C40: the int exception of the broadcast constructor changes values, as the TS
  allows (`C40_broadcast_int_refuted`).
* C44: masked hmin/hmax return the largest/smallest finite value when all selected
  elements are infinite (`C44_masked_hmin_refuted`, `C44_masked_hmax_refuted`).
* C45: `_BitMask::count()` of an unsanitized mask returns `none()`
  (`C45_count_unsanitized_refuted`).
* C46: the end of a where range evaluates `ctz(0)`
  (`C46_where_range_ctz0_refuted`).
* C49: on NEON any_of of a partial mask is always true; some_of is wrong for partial
  masks of at most 8 bytes; popcount counts padding lanes and reads beyond small
  objects (`C49_any_of_refuted`, `C49_some_of_refuted`, `C49_popcount_refuted`).
* C50: mask casts to more elements leave the upper half undefined (same element
  size, 16 to 32 bytes), or copy padding lanes and stray bits into elements; casts
  to fewer AVX-512 elements keep stray bits (`C50_grow_undefined_refuted`,
  `C50_grow_padding_refuted`, `C50_grow_bits_refuted`,
  `C50_shrink_find_last_set_refuted`).
* C51: on x86 eight or more 64-bit integers are converted to float with more than
  one rounding unless AVX512DQ is there (`C51_i64_float_avx2_refuted`,
  `C51_i64_float_avx512f_refuted`); unsigned int 0 becomes -0.0 as double when
  rounding downward without AVX512F (`C51_zero_downward_refuted`); sixteen 16-bit
  integers to 8-bit do not compile with AVX512BW without AVX512VL
  (`C51_compiles_refuted`).
* C55: with rounding down or toward zero an element of hypot(x, y, z) depends on
  the other elements: the path for normal numbers squares the scaled argument and
  takes the root again where the general path returns it unchanged
  (`C55_independent3_refuted`).
* C56: sin(+0) is -0 when rounding downward (`C56_zero_downward_refuted`).  For
  every finite double element from 2^32 on, the quadrant comes from a conversion
  of a too large number to int, which is undefined; the result is a number or its
  opposite (`C56_large`, `C56_large_refuted`).  A float element depends on the
  others, since the fold for small numbers is used only if all are small: the
  cosine of a number near pi/2 differs next to 0 and next to 100
  (`C56_independent_refuted`).  In a rounding mode other than to nearest,
  `nearbyint` in `__fold_input` rounds the quadrant in that mode, the series are
  evaluated up to pi/2 instead of pi/4, and sin(1.5f) is wrong from the 14th bit on
  (`C56_accurate_directed_refuted`).
* C57: `where(k, v) = -0.0` (a literal) stores +0 in the selected elements: the
  branch for a constant zero tests `rhs == 0`, which holds for -0.0, and clears the
  elements (simd_builtin.h 2477-2485, `C57_minus_zero_refuted`).  `where(k, v) <<= y`
  and `>>=` call `_S_shift_left` and `_S_shift_right`, which no implementation has,
  and so do not compile (simd.h 3231-3232, `C57_shifts_refuted`).  Compound
  assignment, ++, -- and - are computed for all lanes before blending: overflow
  of a signed element that is not selected is undefined (`C57_unselected_refuted`).
  Of no consequence: `__active_mask` of 8- and 16-bit masks has all bits set, since
  `~_BuiltinType()` is promoted to int, so that constant masks of other sizes are
  not recognised as all true.
* C60: `!=` of integers with AVX-512 is `~_mm*_mask_cmpeq_*` (simd_x86.h 2320-2343):
  the bits beyond the elements become ones (`C60_not_equal_refuted`), while the same
  expression with operands known to the compiler has zeros there.  Of no consequence:
  the branches for 8-byte vectors in `_S_not_equal_to`, `_S_less` and `_S_less_equal`
  are dead, since `__builtin_is_constant_evaluated()` is always true in the condition
  of `if constexpr` (2346, 2453, 2560).
* C61, of no consequence: `__shift_elements_right` does not always shift in zeros
  (simd_builtin.h 110-116: `_mm_movehl_ps`, `_mm_unpackhi_pd` with both operands the
  same; 165-181: the immediate 0xf9 takes the last block twice), `C61_zero_fill_refuted`.
  Its only caller uses the low bytes.
* C62: `sph_legendre` (simd_math.h 1473-1482) calls `std::assoc_legendre`
  (`C62_sph_legendre_refuted`): at l = m = 0 it returns 1 instead of 1/(2 sqrt(pi)).
  tests/specialmath.cpp covers legendre and assoc_legendre only.
* C62: `beta`, `comp_ellint_1/2/3`, `cyl_bessel_i/j/k`, `cyl_neumann`, `ellint_1/2/3`,
  `expint` and `riemann_zeta` (simd_math.h 1422-1433, 1462) are declared with the macros
  that call `_Abi::_SimdImpl::_S_name`, but no `_SimdImpl` class has these members: every
  call fails to compile (`C62_special_refuted`).
* C63: on PowerPC popcount and some_of of a partial mask count the padding lanes:
  popcount(x == x) is 4 for three floats (`C63_popcount_refuted`,
  `C63_some_of_refuted`).  On Power10 popcount converts the result of vec_cntm to
  int, which is zero if the instruction leaves the count in the upper bits
  (`C63_power10_refuted`; the instruction is a parameter of the model).
* C64: digits10 of bool is 2: the type counts as an integer of eight digits
  (`C64_bool_refuted`; std::numeric_limits<bool>::digits10 is 0).
* C70: `fpclassify` of `fixed_size` objects does not compile with SSE and without SSE2
  either (`C70_fpclassify_refuted`).

Seen while reading, not proved:

* AVX-512 signbit and isinf do not mask the padding; default-initialised masks hold
  indeterminate padding.
* `where(k, x) = -0.0` with a constant stores +0.0 (simd_builtin.h 2477–2483).
* `simd_x86_conversions.h` 177–180 and 206–208 call `__extract_part` on a plain
  vector, for which there is no overload (no public call gets there); 475 lacks a
  `return` and falls through to the (right) generic conversion.
* `minmax()` does not compile for the scalar and fixed_size ABIs.
* `sph_legendre` calls another function (simd_math.h 1480); `labs` and `llabs` call
  `_SimdImpl::abs`, which does not exist.
* `_SimdWrapperBase` initialises padding under the inverted condition.
* `x[i] = y` with a const lvalue reference picks the deleted copy assignment.
* `__convert_all` drops `_Offset` (simd_builtin.h 581) and
  `__to_simd_tuple<2,4>` is wrong; both unreachable today.  The mask load at
  simd_x86.h 4344–4365 has wrong offsets, unreachable as well.
* 16-bit scalar shifts by 16..31 through GNU vector shifts are undefined.
* `bool` to `signed char` is classified as narrowing though it is lossless.
