{"id": "C01", "title": "fixed_size storage covers exactly N elements", "statement": "For every vectorizable element type T, every supported instruction-set configuration and every N >= 1, the registers that make up the storage of simd<T, fixed_size<N>> are all valid register kinds on that target, each holds at least one element, and together they hold exactly N elements: no element is lost, duplicated or left without storage.", "quantifier": "all element sizes and kinds (1,2,4,8 byte, integer, float, long double), all consistent ISA feature sets, all N >= 1", "why_tests_cant": "the recursion that picks registers is a compile-time computation per (T, N, target); a test suite instantiates a few N on one target at a time", "anchors": ["experimental/bits/simd_fixed_size.h: __fixed_size_storage_builder, __fixed_size_storage", "experimental/bits/simd.h: _AbiList, __find_next_valid_abi, _AllNativeAbis"]}
{"id": "C02", "title": "deduce_t yields an ABI of exactly the requested width", "statement": "simd_abi::deduce_t<T, N> names an ABI tag that is valid for T on the target and whose simd_size is exactly N, for every N >= 1 up to max_fixed_size<T>; for N == 1 it is the scalar ABI.", "quantifier": "all T, all ISA configurations, all N in 1..max_fixed_size<T>", "why_tests_cant": "needs every T x N x compiler-flag combination; tests only see the flags they were compiled with", "anchors": ["experimental/bits/simd.h: __deduce_impl, simd_abi::deduce, _AbiList::_FirstValidAbi", "experimental/bits/simd_fixed_size.h: _Fixed::_IsValid"]}
{"id": "C03", "title": "native and compatible ABIs are always usable", "statement": "On every target and for every vectorizable T, simd_abi::native<T> and simd_abi::compatible<T> are valid ABI tags for T; native<T> fills the widest register the target offers for T (or is scalar when there is none), and native_simd<T>::size() times sizeof(T) is exactly that register's byte size.", "quantifier": "all T and all consistent ISA feature sets", "why_tests_cant": "depends on compiler flags; a compiled test only observes one flag set", "anchors": ["experimental/bits/simd.h: __vectorized_sizeof, simd_abi::__compatible, simd_abi::__native, simd_size", "experimental/bits/simd_builtin.h: _VecBuiltin::_S_is_valid_v, _VecBltnBtmsk"]}
{"id": "C04", "title": "alignment promises made on sub-loads are true", "statement": "When split() or a fixed_size copy reads a part of an object that starts at element offset k of an object aligned to A bytes, the alignment the library promises to the compiler for that access divides the real address, for every offset and element size; memory_alignment_v is always a power of two and at least the size of the elements loaded.", "quantifier": "all power-of-two base alignments, all element sizes, all offsets, all base addresses", "why_tests_cant": "a too strong promise only faults for some addresses and some code generation choices", "anchors": ["experimental/bits/simd.h: split, memory_alignment, vector_aligned_tag, overaligned_tag"]}
{"id": "C05", "title": "fixed_size subscripting and generator constructor", "statement": "simd<T, fixed_size<N>>(gen)[i] == gen(i) for each i < N, and assigning through x[i] changes element i and no other, regardless of how the N elements are distributed over registers.", "quantifier": "all N, all register partitions, all i < N, all generators and all previous contents", "why_tests_cant": "each N on each target has a different partition; tests sample a few", "anchors": ["experimental/bits/simd_fixed_size.h: _SimdTuple::_S_generate, _SimdTuple::operator[], _SimdTuple::_M_set, _SimdImplFixedSize::_S_generator"]}
{"id": "C06", "title": "fixed_size arithmetic is element-wise", "statement": "For simd<T, fixed_size<N>>, every unary and binary operator and every math function applied chunk by chunk yields at index i exactly the scalar operation applied to the operands' element i, including when an operand or result is stored with a different register partition.", "quantifier": "all N, all partitions, all element values, all element-wise functions", "why_tests_cant": "infinitely many functions and partitions; off-by-one in chunk offsets only shows for particular N", "anchors": ["experimental/bits/simd_fixed_size.h: _SimdTuple::_M_apply_per_chunk, _M_apply_wrapped, _M_extract_argument, __to_simd_tuple, _M_apply_r, _SimdImplFixedSize"]}
{"id": "C07", "title": "fixed_size comparisons produce the element-wise mask", "statement": "Comparing two simd<T, fixed_size<N>> objects gives a mask whose i-th element is the comparison of the i-th elements, with all of the N results coming from the right register and no result bit spilling into a neighbour's position.", "quantifier": "all N, all partitions, all element values, all comparison predicates", "why_tests_cant": "the mask is assembled by shifting sub-masks of many sizes; wrong shifts appear only for some partitions and values", "anchors": ["experimental/bits/simd_fixed_size.h: _SimdTuple::_M_test, _MaskImplFixedSize, _SimdImplFixedSize::_S_equal_to", "experimental/bits/simd.h: _BitMask::_M_prepend"]}
{"id": "C08", "title": "fixed_size masked assignment touches exactly the selected elements", "statement": "where(k, x) = y, where(k, x) op= y and where(k, x) with a unary operator change element i of a fixed_size simd to the operator's result iff k[i] is true and leave every other element unchanged.", "quantifier": "all N, all partitions, all masks, all values, all operators", "why_tests_cant": "2^N masks times partitions", "anchors": ["experimental/bits/simd_fixed_size.h: _SimdImplFixedSize::_S_masked_assign, _S_masked_cassign, _S_masked_unary, __tuple_element_meta::_S_submask, _S_make_mask", "experimental/bits/simd.h: where_expression"]}
{"id": "C09", "title": "fixed_size mask operators form the Boolean algebra of N bits", "statement": "For simd_mask<T, fixed_size<N>>: !, &&, ||, &, |, ^, ==, !=, subscripting, element assignment, masked assignment and broadcast behave as on a vector of N independent bools, for every N, independent of bits above N in the representation.", "quantifier": "all N >= 1 and all mask contents", "why_tests_cant": "exponentially many masks and every N has its own word size and padding", "anchors": ["experimental/bits/simd.h: _BitMask (operators, set, operator[], _M_sanitized)", "experimental/bits/simd_fixed_size.h: _MaskImplFixedSize"]}
{"id": "C10", "title": "fixed_size mask reductions", "statement": "For simd_mask<T, fixed_size<N>>: all_of, any_of, none_of, some_of, popcount, find_first_set and find_last_set return the value defined by the N elements, for every mask (find_* for every mask with a set element).", "quantifier": "all N >= 1, all masks reachable through the API", "why_tests_cant": "exponentially many masks", "anchors": ["experimental/bits/simd_fixed_size.h: _MaskImplFixedSize::_S_all_of.._S_find_last_set", "experimental/bits/simd.h: _BitMask::all, any, none, count"]}
{"id": "C11", "title": "copy_from / copy_to round trip and footprint", "statement": "copy_to(p) writes element i to p[i] for each i < N and changes no other memory; copy_from(p) reads exactly p[0..N) and sets element i to p[i]; so copy_from after copy_to restores the object. This holds for full, partial and multi-register types and when the element type in memory differs (converted by static_cast).", "quantifier": "all N, all partitions and register sizes, all memory contents and positions", "why_tests_cant": "an extra byte read or written past the end is only noticed when it crosses a page or clobbers something checked", "anchors": ["experimental/bits/simd_builtin.h: _CommonImplBuiltin::_S_load, _S_store, _SimdImplBuiltin::_S_load, _S_store", "experimental/bits/simd_fixed_size.h: _SimdImplFixedSize::_S_load, _S_store", "experimental/bits/simd.h: simd::copy_from, copy_to"]}
{"id": "C12", "title": "masked loads and stores access only selected elements", "statement": "where(k, x).copy_from(p) reads p[i] only for indices with k[i] and leaves the other elements of x unchanged; where(k, x).copy_to(p) writes p[i] = x[i] exactly for those indices and touches no other memory, so unselected indices may lie outside the allocated range.", "quantifier": "all masks, all N, all memory layouts including ones where unselected elements are unmapped", "why_tests_cant": "requires every mask and an unmapped neighbour", "anchors": ["experimental/bits/simd_builtin.h: _SimdImplBuiltin::_S_masked_load, _S_masked_store, _S_masked_store_nocvt", "experimental/bits/simd_fixed_size.h: _SimdImplFixedSize::_S_masked_load, _S_masked_store", "experimental/bits/simd.h: _BitOps::_S_bit_iteration"]}
{"id": "C13", "title": "reduce equals the fold of all elements", "statement": "For an associative and commutative operation, reduce(x, op) equals folding op over elements 0..N-1, each used exactly once, for every width, register kind and partition; values in padding lanes never enter the result.", "quantifier": "all N, all ABIs, all associative-commutative operations, all element values, all padding contents", "why_tests_cant": "the combination tree differs for every N and mixes whole registers; only some N exercise each branch", "anchors": ["experimental/bits/simd_builtin.h: _SimdImplBuiltin::_S_reduce, _S_reduce_partial", "experimental/bits/simd_fixed_size.h: _SimdImplFixedSize::_S_reduce", "experimental/bits/simd.h: reduce"]}
{"id": "C14", "title": "masked reductions use exactly the selected elements", "statement": "reduce(where(k, x), identity, op) equals folding op over the selected elements when identity is neutral for op and returns the identity when nothing is selected; hmin/hmax over a where expression return the least/greatest selected element of an integer simd.", "quantifier": "all masks, widths, element values and operations with identity", "why_tests_cant": "all masks times all values", "anchors": ["experimental/bits/simd.h: reduce(const_where_expression), hmin, hmax"]}
{"id": "C15", "title": "mask <-> bitset conversion", "statement": "simd_mask::__to_bitset and __from_bitset are mutually inverse: bit i of the bitset is element i, for every width and mask representation (vector, bit-mask, fixed_size).", "quantifier": "all widths, all masks, all representations", "why_tests_cant": "exponentially many masks", "anchors": ["experimental/bits/simd.h: simd_mask::__to_bitset, __from_bitset", "experimental/bits/simd_builtin.h: _MaskImplBuiltinMixin::_S_to_bits, _S_to_maskvector", "experimental/bits/simd_x86.h: _MaskImplX86Mixin::_S_to_bits"]}
{"id": "C16", "title": "split and concat", "statement": "The objects returned by split<Sizes...>(x), split<V>(x) and split into arrays, taken in order, contain exactly the elements of x in order, each piece has the requested width, and concat of the pieces gives back x (same for masks); concat(a,b,...)[i] is the i-th element of the sequence a,b,....", "quantifier": "all widths, all size lists that sum to the width, all partitions, all contents", "why_tests_cant": "the number of size lists grows exponentially", "anchors": ["experimental/bits/simd.h: split, concat, __extract_center, __split_wrapper, _SizeList", "experimental/bits/simd_fixed_size.h: __extract_part, __simd_tuple_concat, __simd_tuple_pop_front"]}
{"id": "C17", "title": "simd casts convert every element in place", "statement": "static_simd_cast, simd_cast, to_fixed_size, to_native, to_compatible and resizing casts map element i of the source to element i of the destination through static_cast for every pair of ABIs and partitions, keeping the order across differently sized registers.", "quantifier": "all source/destination ABIs, all N and partitions, all element values", "why_tests_cant": "quadratically many ABI pairs, each with its own path", "anchors": ["experimental/bits/simd_converter.h: _SimdConverter", "experimental/bits/simd.h: static_simd_cast, simd_cast, to_fixed_size, to_native, to_compatible, resizing_simd_cast", "experimental/bits/simd_builtin.h: __convert_all, __vector_convert"]}
{"id": "C18", "title": "padding lanes are unobservable", "statement": "For a simd type that occupies only part of its register, the result of every element-wise operation, comparison, mask reduction (all_of .. find_last_set), horizontal reduction and store depends only on the N real elements, whatever bits the unused lanes contain.", "quantifier": "all widths, all contents of the unused lanes, all operations", "why_tests_cant": "the unused lanes hold compiler-chosen garbage which tests cannot control", "anchors": ["experimental/bits/simd_builtin.h: _VecBuiltin::_S_masked, _S_implicit_mask, _MaskImplBuiltin, _SimdImplBuiltin", "experimental/bits/simd_x86.h: _MaskImplX86::_S_all_of.._S_popcount"]}
{"id": "C19", "title": "partial-register integer division is defined whenever the visible division is", "statement": "x / y and x % y on an integer simd that only partly fills its register do not trap or overflow when no visible element pair divides by zero or overflows.", "quantifier": "all element values with defined scalar quotients, all contents of the unused lanes", "why_tests_cant": "requires particular garbage in lanes the user cannot see", "anchors": ["experimental/bits/simd_builtin.h: _SimdImplBuiltin::_S_divides, _S_modulus, _VecBuiltin::__make_padding_nonzero, _VecBltnBtmsk::__make_padding_nonzero"]}
{"id": "C20", "title": "masked compound division only divides the selected elements", "statement": "where(y != 0, x) /= y (and %=) is defined for all integer x, y whose selected quotients are defined: unselected elements are not divided.", "quantifier": "all values and masks", "why_tests_cant": "needs zero divisors in unselected lanes combined with the non-constant-folded path", "anchors": ["experimental/bits/simd_builtin.h: _SimdImplBuiltin::_S_masked_cassign", "experimental/bits/simd_x86.h: _SimdImplX86::_S_divides"]}
{"id": "C21", "title": "bit-mask (AVX-512) masks behave as N bools", "statement": "For masks kept in a mask register, every sequence of mask-producing operations (comparisons, logic, loads, element writes, masked assignment, conversions) followed by any mask reduction, including find_last_set, returns the value defined by the N elements.", "quantifier": "all finite sequences of mask operations, all N, all operand values", "why_tests_cant": "needs the invariant on unused mask bits over all operation sequences", "anchors": ["experimental/bits/simd_x86.h: _SimdImplX86::_S_not_equal_to, _S_less, _MaskImplX86::_S_find_last_set, _S_all_of, _S_bit_not, _S_masked_assign", "experimental/bits/simd_builtin.h: _VecBltnBtmsk"]}
{"id": "C22", "title": "8-bit multiplication", "statement": "x * y on simd<(un)signed char> gives in every lane the product modulo 2^8 of that lane's operands for each of the x86 code paths (2-, 4-byte and full registers), with no influence of neighbouring lanes.", "quantifier": "all 8-bit operands in all lanes, all register widths", "why_tests_cant": "cross-lane carry errors need particular neighbour values: 2^32 combinations per pair", "anchors": ["experimental/bits/simd_x86.h: _SimdImplX86::_S_multiplies"]}
{"id": "C23", "title": "integer division through floating point is exact", "statement": "The x86 integer division that converts to float (8/16 bit) or double (32 bit), divides and truncates returns the exact C++ quotient for every dividend and non-zero divisor, and % returns the exact remainder.", "quantifier": "all pairs of 8-, 16- and 32-bit signed and unsigned operands with defined quotient", "why_tests_cant": "2^64 operand pairs", "anchors": ["experimental/bits/simd_x86.h: _SimdImplX86::_S_divides, _S_modulus"]}
{"id": "C24", "title": "8-bit shift by a scalar count", "statement": "x << n and x >> n for simd<(un)signed char> with 0 <= n < 32 give in every lane the value of the promoted C++ shift converted back to the element type, with no bits moving between lanes.", "quantifier": "all 8-bit lane values, all neighbours, all counts 0..31", "why_tests_cant": "the emulation uses 16-bit shifts: errors depend on neighbours", "anchors": ["experimental/bits/simd_x86.h: _SimdImplX86::_S_bit_shift_left, _S_bit_shift_right"]}
{"id": "C25", "title": "64-bit arithmetic right shift by a scalar count", "statement": "x >> n for simd<long long> (0 <= n < 64) on targets without a 64-bit arithmetic shift gives floor(x / 2^n) in each lane and performs no undefined shift.", "quantifier": "all 64-bit values, all counts 0..63", "why_tests_cant": "2^64 values", "anchors": ["experimental/bits/simd_x86.h: _SimdImplX86::_S_bit_shift_right"]}
{"id": "C26", "title": "per-lane left shifts", "statement": "x << y with a vector of counts gives in each lane the promoted C++ shift converted back to the element type, for 8-bit (SSE2, SSE4.1), 16-bit (AVX2) and 32-bit (SSE2) elements and all counts 0..31.", "quantifier": "all lane values, counts 0..31, all neighbours", "why_tests_cant": "cross-lane leakage needs particular neighbours", "anchors": ["experimental/bits/simd_x86.h: _SimdImplX86::_S_bit_shift_left(_SimdWrapper,_SimdWrapper)"]}
{"id": "C27", "title": "per-lane right shifts, unsigned or AVX2", "statement": "x >> y with a vector of counts gives in each lane the promoted C++ shift for unsigned 8/16/32-bit elements on SSE and for signed and unsigned 8/16-bit elements on AVX2, all counts 0..31.", "quantifier": "all lane values, counts 0..31, all neighbours", "why_tests_cant": "cross-lane leakage needs particular neighbours", "anchors": ["experimental/bits/simd_x86.h: _SimdImplX86::_S_bit_shift_right(_SimdWrapper,_SimdWrapper)"]}
{"id": "C28", "title": "16-bit per-lane left shift on SSE does not mix lanes", "statement": "x << y for simd<(unsigned) short> without AVX2 gives in each lane a result that depends only on that lane's value and count for all counts 0..31 (the promoted type is 32 bits wide).", "quantifier": "all lane values, all counts 0..31 in both neighbouring lanes", "why_tests_cant": "only counts >= 16 in the even neighbour expose it", "anchors": ["experimental/bits/simd_x86.h: _SimdImplX86::_S_bit_shift_left (sizeof 2, no AVX2)"]}
{"id": "C29", "title": "signed 8/16-bit per-lane right shift on SSE", "statement": "x >> y for simd<signed char> and simd<short> without AVX2 equals the promoted C++ shift for all counts 0..31; in particular shifting by a uniform vector n equals shifting by the scalar n.", "quantifier": "all lane values and counts 0..31", "why_tests_cant": "only negative values with counts at least the element width expose it", "anchors": ["experimental/bits/simd_x86.h: _SimdImplX86::_S_bit_shift_right (sizeof 1 and 2, SSE2/SSE4.1)"]}
{"id": "C30", "title": "storing a mask to bool*", "statement": "Storing an N-element mask to a bool array writes exactly N bytes, each 0 or 1, byte i being element i, for every N and each expansion trick (multiplication, unpack-and-compare, bit deposit).", "quantifier": "all N, all masks", "why_tests_cant": "2^N masks; the multiplication constants work only if carries never collide", "anchors": ["experimental/bits/simd_builtin.h: _CommonImplBuiltin::_S_store_bool_array", "experimental/bits/simd_x86.h: _CommonImplX86::_S_store_bool_array, _MaskImplX86::_S_store"]}
{"id": "C31", "title": "vector-mask reductions on x86", "statement": "For vector masks, the x86 all_of/any_of/none_of/some_of/popcount code (ptest, movemask, shuffle-and-add) returns the value defined by the N elements whatever the padding lanes contain.", "quantifier": "all N, element sizes, masks and padding contents", "why_tests_cant": "padding contents are not controllable in a test", "anchors": ["experimental/bits/simd_x86.h: _MaskImplX86::_S_all_of, _S_any_of, _S_none_of, _S_some_of, _S_popcount"]}
{"id": "C32", "title": "floating-point ordered comparison functions", "statement": "isgreater, isgreaterequal, isless, islessequal, islessgreater and isunordered computed on the integer representation agree with IEEE-754 comparison for all bit patterns, including NaNs, infinities, subnormals and both zeros.", "quantifier": "all pairs of binary32 and binary64 bit patterns", "why_tests_cant": "2^64 / 2^128 pairs", "anchors": ["experimental/bits/simd_builtin.h: _SimdImplBuiltin::_S_isgreater.._S_islessgreater, _S_isunordered", "experimental/bits/simd_x86.h: _SimdImplX86::_S_isgreater.._S_islessequal"]}
{"id": "C33", "title": "floating-point classification", "statement": "isnan, isinf, isfinite, isnormal, signbit and fpclassify computed from integer comparisons of the representation agree with the IEEE-754 class of every bit pattern.", "quantifier": "all binary32 and binary64 bit patterns", "why_tests_cant": "2^64 patterns for double", "anchors": ["experimental/bits/simd_builtin.h: _SimdImplBuiltin::_S_isnan, _S_isfinite, _S_isinf, _S_isnormal, _S_signbit, _S_fpclassify"]}
{"id": "C34", "title": "frexp", "statement": "frexp(x, &e) returns for every finite non-zero element a mantissa m with 1/2 <= |m| < 1 and m * 2^e == x exactly, returns x itself for zero, infinity and NaN (with e = 0 for zero), and each element's result does not depend on the other elements.", "quantifier": "all vectors of bit patterns", "why_tests_cant": "a data-dependent fast path is taken only if all elements are normal", "anchors": ["experimental/bits/simd_math.h: frexp, __extract_exponent_as_int"]}
{"id": "C35", "title": "logb", "statement": "logb(x) returns for every finite non-zero element the exponent e with 2^e <= |x| < 2^(e+1), -inf for zero, +inf for infinities, NaN for NaN, and each element's result does not depend on the other elements.", "quantifier": "all vectors of bit patterns", "why_tests_cant": "three data-dependent paths", "anchors": ["experimental/bits/simd_math.h: logb"]}
{"id": "C36", "title": "rounding functions", "statement": "trunc, floor, ceil, round and nearbyint computed with the add-and-subtract-magic-number method return the correctly rounded integer value for every finite element (and x itself for large values, infinities and NaN).", "quantifier": "all finite binary32/binary64 values", "why_tests_cant": "2^64 inputs; depends on the rounding of intermediate sums", "anchors": ["experimental/bits/simd_builtin.h: _SimdImplBuiltin::_S_trunc, _S_floor, _S_ceil, _S_round, _S_nearbyint, _S_plus_minus"]}
{"id": "C37", "title": "copysign, abs and sign manipulation", "statement": "copysign(x, y) has the magnitude bits of x and the sign bit of y; abs/fabs clears exactly the sign bit; signbit reads it; modf's parts carry the sign of the argument - for every bit pattern.", "quantifier": "all pairs of bit patterns", "why_tests_cant": "2^128 pairs", "anchors": ["experimental/bits/simd_math.h: copysign, modf", "experimental/bits/simd_builtin.h: _SimdImplBuiltin::_S_abs"]}
{"id": "C38", "title": "min, max, minmax and clamp", "statement": "min(a,b)[i], max(a,b)[i], minmax and clamp(v,lo,hi)[i] agree with std::min, std::max, std::minmax and std::clamp of the i-th elements; for lo <= hi the clamped value lies in [lo, hi] and equals v when v is already inside.", "quantifier": "all element values (totally ordered), all widths and representations", "why_tests_cant": "all triples", "anchors": ["experimental/bits/simd.h: min, max, minmax, clamp", "experimental/bits/simd_builtin.h: _SimdImplBuiltin::_S_min, _S_max, _S_minmax"]}
{"id": "C39", "title": "bit iteration visits each selected element once in order", "statement": "Masked memory operations and where_range enumerate the indices of the set mask elements exactly once, in increasing order, and stop after the last one.", "quantifier": "all masks of all widths", "why_tests_cant": "exponentially many masks; the empty-mask step is undefined behaviour that usually goes unnoticed", "anchors": ["experimental/bits/simd.h: _BitOps::_S_bit_iteration, where_range iterator"]}
{"id": "C40", "title": "implicit conversions are value preserving", "statement": "Whenever the library's narrowing test classifies a conversion between arithmetic types as non-narrowing, converting any value of the source type to the destination type and back gives the same value; in particular broadcast and converting constructors that are implicit never change a value, except for the int arguments (and unsigned int arguments of unsigned element types) that the TS admits to the broadcast constructor whatever their value.", "quantifier": "all pairs of integer types and all their values; float/double to the extent of their precision and range", "why_tests_cant": "all values of all pairs of types", "anchors": ["experimental/bits/simd.h: __is_narrowing_conversion, _ValuePreserving, _ValuePreservingOrInt"]}
{"id": "C41", "title": "scalar-ABI integer arithmetic of small unsigned types is well defined", "statement": "For the scalar ABI and unsigned element types, +, -, * and << never overflow a signed intermediate: the result is the mathematical result modulo 2^bits, for every operand.", "quantifier": "all operands of 8/16/32/64 bit unsigned types", "why_tests_cant": "only large operands make the promoted int overflow, which is undefined but typically silent", "anchors": ["experimental/bits/simd_scalar.h: __promote_preserving_unsigned, _SimdImplScalar::_S_plus.._S_bit_shift_right"]}
{"id": "C42", "title": "element references", "statement": "x[i] = v, x[i] op= v, ++x[i], x[i]++ and swap(x[i], y[j]) behave as on references to independent scalars: exactly the named elements change and the returned values are those of scalar code, also when both references denote the same object.", "quantifier": "all widths, indices, values, including i == j on the same object", "why_tests_cant": "aliasing and index combinations", "anchors": ["experimental/bits/simd.h: _SmartReference, swap"]}
{"id": "C43", "title": "compile-time and run-time paths of the mask reductions agree", "statement": "all_of, any_of, none_of, some_of, popcount, find_first_set and find_last_set return the same value whether the compiler proved the mask constant (and the element-wise loop is used) or not (and the register code is used).", "quantifier": "all masks of all widths", "why_tests_cant": "which path is taken depends on the optimiser", "anchors": ["experimental/bits/simd.h: all_of, any_of, none_of, some_of, popcount, find_first_set, find_last_set"]}
{"id": "C44", "title": "masked hmin/hmax identity for floating point", "statement": "hmin(where(k,x)) and hmax(where(k,x)) for floating-point x return the least/greatest selected element also when the selected elements are infinite.", "quantifier": "all masks and all element values", "why_tests_cant": "only vectors whose selected elements are all infinite expose it", "anchors": ["experimental/bits/simd.h: hmin(const_where_expression), hmax(const_where_expression)"]}
{"id": "C45", "title": "count of an unsanitized bit mask", "statement": "The number of set elements reported for a bit mask of N bits equals the number of true elements, whether or not the unused bits of its word are known to be zero.", "quantifier": "all N and all words", "why_tests_cant": "the wrong branch is only instantiated for masks not known to be clean", "anchors": ["experimental/bits/simd.h: _BitMask::count"]}
{"id": "C46", "title": "iterating a where range never counts the trailing zeros of zero", "statement": "for (auto i : where(mask)) performs no operation whose result is undefined: it never asks for the index of the lowest set bit of an empty set.", "quantifier": "all masks of all widths", "why_tests_cant": "the undefined built-in happens to return something harmless on the tested compiler", "anchors": ["experimental/bits/simd.h: where_range::iterator, where_range::end"]}
{"id": "C47", "title": "per-lane shifts of 32- and 64-bit elements on SSE", "statement": "x >> y on simd<int> without AVX2 and x << y on simd<(unsigned) long long> without AVX2 give in each lane the C++ shift of that lane's element by that lane's count, although the SSE instructions shift every lane by one and the same count.", "quantifier": "all lane values, all counts less than the width, both the SSE2 and the SSE4.1 way to assemble the result", "why_tests_cant": "a test shifts a few values; the lanes picked out of four shifted copies must be right for every combination of counts", "anchors": ["experimental/bits/simd_x86.h: _SimdImplX86::_S_bit_shift_right, _S_bit_shift_left (_SimdWrapper,_SimdWrapper)"]}
{"id": "C48", "title": "PowerPC shifts by counts beyond the element width", "statement": "On PowerPC, x << n, x >> n, x << y and x >> y give in each lane the promoted C++ shift converted back to the element type for every count less than the promoted width, whatever the byte and halfword shift instructions do for counts of 8 or 16 and more.", "quantifier": "all element widths, signed and unsigned, all lane values, all counts, any behaviour of the instruction out of range", "why_tests_cant": "the instruction's behaviour out of range differs between targets and compilers", "anchors": ["experimental/bits/simd_ppc.h: _SimdImplPpc::_S_bit_shift_left, _S_bit_shift_right"]}
{"id": "C49", "title": "Mask reductions on ARM look at the elements only", "statement": "For every mask type of ARM NEON, whatever the lanes of the register that are no elements hold: all_of, any_of, none_of, some_of, popcount, find_first_set, find_last_set and the conversion to a bit set give the answer that the elements define.", "quantifier": "all mask element sizes, all vector sizes of 2 to 16 bytes, all partial and full registers, all masks, all contents of the padding lanes, ARMv7 and AArch64", "why_tests_cant": "tests run on full registers with zero padding; each element and vector size takes another branch with horizontal additions that wrap, and no test machine covers ARMv7 and AArch64", "anchors": ["experimental/bits/simd_neon.h: _MaskImplNeonMixin::_S_to_bits, _MaskImplNeon::_S_all_of, _S_any_of, _S_none_of, _S_some_of, _S_popcount, _S_find_first_set, _S_find_last_set"]}
{"id": "C50", "title": "Mask casts keep every element", "statement": "static_simd_cast, simd_cast and resizing_simd_cast between mask types of any element types and ABIs: element i of the result is element i of the argument, and the elements of the result beyond those of the argument are false, whatever the bits and lanes of the argument that are no elements hold.", "quantifier": "all pairs of representations (scalar, fixed_size, AVX-512 bit mask, 16- and 32-byte vector masks), all element sizes, all element counts, all masks, all x86 feature levels, all contents of padding", "why_tests_cant": "each pair of element sizes takes another instruction sequence on each feature level; tests cannot see that an element is undefined, since the register happens to hold zeros", "anchors": ["experimental/bits/simd.h: static_simd_cast, resizing_simd_cast", "experimental/bits/simd_builtin.h: _MaskImplBuiltin::_S_convert, _MaskImplBuiltinMixin::_S_to_maskvector", "experimental/bits/simd_x86.h: _MaskImplX86Mixin::_S_to_maskvector", "experimental/bits/simd_fixed_size.h: _MaskImplFixedSize::_S_convert", "experimental/bits/simd_scalar.h: _MaskImplScalar::_S_convert"]}
{"id": "C51", "title": "Conversions of whole registers on x86 convert every element", "statement": "On x86, converting one or several registers of any element type to one register of any other element type compiles, and element j of the result is static_cast of element j of the arguments: integers are sign- or zero-extended, truncated, or rounded to the nearest floating-point value once; floating-point values are truncated to integers; whatever the conversions of other elements do that are undefined in C++.", "quantifier": "all pairs of the eight integer types, float and double, all register sizes, 1 to 16 argument registers, all feature levels from SSE2 to AVX512 with VL, BW and DQ in any combination, all element values, all rounding modes", "why_tests_cant": "there are several hundred instruction sequences of shuffles, packs, shifts and arithmetic detours, chosen by feature flags that one machine cannot all have; a wrong byte or a second rounding shows for few values only", "anchors": ["experimental/bits/simd_x86_conversions.h: __convert_x86"]}
{"id": "C52", "title": "Widening integers without SSE4.1 converts every element", "statement": "On x86 with nothing beyond SSE2/SSSE3, a register of integers that is converted to several registers of a wider integer or floating-point type (casts and converting stores) yields in element j of result register i static_cast of element i*M+j, M elements per register, for every element the source has; a source that only partly fills its register, or the last result register, changes nothing.", "quantifier": "all integer element types of 8, 16 and 32 bits, all wider element types (but 32 bits to double, which takes another path), all numbers of elements, all element values, with the number of result registers deduced or rounded up, values known to the compiler or not", "why_tests_cant": "each pair of types has its own unpack and shift sequence with recursive detours through shorts and ints that depend on the parity of the number of result registers; current machines all have SSE4.1 so the code is hardly ever run", "anchors": ["experimental/bits/simd_builtin.h: __convert_all (591-757)"]}
{"id": "C53", "title": "static_simd_cast on x86-64 converts every element, from end to end", "statement": "On a 64-bit x86 processor, static_simd_cast (and simd_cast) between simd types of any two arithmetic element types of at most eight bytes and any two ABIs with the same number of elements compiles, and element i of the result is exactly static_cast of element i of the argument in the current rounding mode, whenever that is defined. What the padding lanes of the argument hold, and what undefined conversions of other elements yield, has no influence.", "quantifier": "all 64-bit x86 feature levels, all pairs of integer, float and double types, all pairs of ABIs of equal size and all sizes up to the maximum of fixed_size, all element values, all rounding modes, values known to the compiler or not", "why_tests_cant": "the partition of the argument and of the result into registers together with about two hundred instruction sequences yields tens of thousands of template instances per target; tests instantiate a handful of sizes on the machine at hand", "anchors": ["experimental/bits/simd.h: static_simd_cast (2880-2895)", "experimental/bits/simd_converter.h: _SimdConverter", "experimental/bits/simd_builtin.h: __vector_convert, __convert_all (497-757)", "experimental/bits/simd_x86_conversions.h: __convert_x86"]}
{"id": "C54", "title": "loading masks from bool arrays, and where(mask, mask).copy_from/copy_to", "statement": "simd_mask::copy_from(const bool*) gives a mask whose element i is mem[i] for every i < size() and reads no array element beyond them. where(k, x).copy_from(mem) on a mask x replaces exactly the elements of x that k selects and reads only those array elements; where(k, x).copy_to(mem) writes exactly the array elements that k selects, with the elements of x. The result of a load is a proper mask: every selected element has all bits set, and a fixed_size mask has no bit set beyond its elements.", "quantifier": "all ABIs other than the AVX-512 one (which is in C21 and C30), all element sizes, all numbers of elements, all x86 feature levels from SSE2 on and the generic code, all array contents, all masks and all padding contents", "why_tests_cant": "a dozen instruction sequences chosen by element size, element count and target; reading too many array elements is invisible unless the array ends at a page boundary, and wrong elements show for particular sizes on particular targets", "anchors": ["experimental/bits/simd_x86.h: _MaskImplX86::_S_load, _S_masked_load, _S_masked_store (4280-4712)", "experimental/bits/simd_builtin.h: _MaskImplBuiltin::_S_load, _S_masked_load, _S_masked_store (2671-2785)", "experimental/bits/simd_fixed_size.h: _MaskImplFixedSize::_S_load, _S_masked_load, _S_masked_store (1877-1962)", "experimental/bits/simd_scalar.h: _MaskImplScalar (632-678)"]}
{"id": "C55", "title": "hypot is accurate, never overflows or underflows on the way, and is element-wise", "statement": "hypot(x, y) and hypot(x, y, z) return for every element: +infinity if an argument is infinite (even if another is NaN), NaN if an argument is NaN otherwise, and else the square root of the sum of the squares up to a few rounding errors (the square of the result differs from the sum of squares by at most 5 or 6 times the relative error of one operation; subnormal results by less than 2 or 3 times the smallest positive number), although the squares themselves may overflow or underflow. The result is infinite for finite arguments only if the true root is beyond the largest number or within the error bound of it. hypot(x, y) equals hypot(y, x) bit for bit, hypot(x, +-0) is |x| exactly, and the result of an element does not depend on the other elements.", "quantifier": "float and double vectors of any number of elements, all bit patterns including NaN, infinities and subnormals, the four rounding modes, all ways in which the compiler may fuse the products into the sums, all targets for which the classification functions exist", "why_tests_cant": "there are 2^64 (or 2^96) pairs (triples) of arguments even for float; the code takes a fast path only if all elements are normal, so that an element takes a different path depending on the others; errors show at particular exponents and rounding modes", "anchors": ["experimental/bits/simd_math.h: __hypot with two and three arguments (965-1278)", "experimental/bits/simd_builtin.h: _S_min, _S_max (1764-1776)"]}
{"id": "C56", "title": "sin and cos: accuracy, special values, symmetry, and independence of undefined conversions", "statement": "sin(x) and cos(x) return NaN for an element that is NaN or infinite. cos(-x) equals cos(x) bit for bit, and sin(-x) is the opposite of sin(x). cos(+-0) is 1 and sin(+-0) is +-0. Every element is computed without undefined conversions (in particular from double to int) having an influence on it, and independently of the other elements of the vector. The result for a finite element below 2^31 in magnitude is within a few units in the last place of 1 of the sine or cosine of the element.", "quantifier": "vectors of float and double of any number of elements at least two, all bit patterns, the four rounding modes, all ways in which the compiler may fuse products into sums, all ways of dividing a vector of double into registers, all outcomes of undefined conversions", "why_tests_cant": "tests check a sample of arguments in one rounding mode on one machine, where an undefined conversion has a fixed outcome; the float code takes one of two paths depending on all elements", "anchors": ["experimental/bits/simd_math.h: sin, cos (446-545), __cosSeries, __sinSeries, __zero_low_bits, __fold_input (191-400)"]}
{"id": "C57", "title": "assignments through where change exactly the selected elements", "statement": "where(k, v) = y, where(k, v) op= y, ++where(k, v), --where(k, v) and -where(k, v) give every element that k selects the value that the operation yields for this element, and leave (or return) every other element as it was; y may be a simd object or a scalar. The same holds for where(k, m) = m2 and where(k, m) = true or false on masks m. What the padding of v, y and k holds, and whether the compiler knows some operands at compile time, has no influence. Every operator that simd has can be used through where, and an operation on an element that is not selected cannot make the program undefined.", "quantifier": "all element types of any size, vector masks and AVX-512 masks, all numbers of elements including partly filled registers, all masks, all element values, all rounding modes, every way to blend that the targets have, any subset of the operands known to the compiler", "why_tests_cant": "the code has branches that are taken only if the optimiser knows an operand (__builtin_constant_p), so the outcome of the same expression differs between a test and an application; the instruction for blending differs per target, element size and element type", "anchors": ["experimental/bits/simd.h: where_expression (3064-3340), _S_is_constprop_none_of, _S_is_constprop_all_of (2389-2411, 2530-2566)", "experimental/bits/simd_builtin.h: _S_masked_assign, _S_masked_cassign, _S_masked_unary (2454-2535, 2864-2888), _S_blend (1363-1370)", "experimental/bits/simd_x86.h: _S_blend (617-822), _MaskImplX86::_S_masked_assign (4851-4873)", "experimental/bits/simd_scalar.h: _S_masked_assign, _S_masked_cassign, _S_masked_unary (595-613, 709-715)"]}
{"id": "C58", "title": "ldexp scales by powers of two with one rounding and undoes frexp", "statement": "With AVX-512, every element of ldexp(x, e) is x * 2^e, rounded once in the rounding mode that is set, for every value of the int e, also where x or the result is subnormal, where the result overflows, and where the exponent itself is no number of the element type; NaN, infinities and zeros are kept. A result that is representable is exact, and ldexp applied to the two results of frexp returns the argument of frexp bit for bit. The lanes beyond the elements become zero.", "quantifier": "float and double, all bit patterns, all ints e, all rounding modes, all numbers of elements, both implementations of frexp", "why_tests_cant": "2^32 patterns of float times 2^32 exponents times four rounding modes; the exponent is converted to float, which is exact only up to 2^24, and double rounding shows only for few pairs", "anchors": ["experimental/bits/simd_x86.h: _S_ldexp (2611-2650)", "experimental/bits/simd_math.h: ldexp (738), frexp (639-732)"]}
{"id": "C59", "title": "the arithmetic operators and sqrt of floating-point simd are correctly rounded, and padding raises no division by zero", "statement": "Every element of x + y, x - y, x * y, x / y and sqrt(x) is the exact result rounded once to the element type in the rounding mode that is set (the nearest number, ties to even; or the next number toward zero, upward or downward), with the results of IEEE 754 for zeros, infinities and NaN. What the padding of a partly filled register holds has no influence, and the padding is never divided by zero, so a division raises the exception for a division by zero only if some element is divided by zero. Conversions from integers and between floating-point types are rounded likewise.", "quantifier": "float and double, all bit patterns, all rounding modes, all numbers of elements including partly filled registers, vector masks and AVX-512 masks, all contents of the padding", "why_tests_cant": "2^64 pairs of floats per rounding mode and 2^128 pairs of doubles; what padding holds is beyond the control of a test", "anchors": ["experimental/bits/simd.h: operators of simd (5070-5085)", "experimental/bits/simd_builtin.h: _S_plus, _S_minus, _S_multiplies, _S_divides (1651-1677), __make_padding_nonzero (1034-1058, 1186-1212)", "experimental/bits/simd_x86.h: _S_sqrt (2589-2608)"]}
{"id": "C60", "title": "the comparison operators and ! are element-wise, for every element type, register and mask kind", "statement": "Element i of x == y, x != y, x < y, x <= y, x > y, x >= y is x[i] op y[i] (with NaN only != is true; -0. equals 0.; integers compare by their signed or unsigned values), and element i of !x tells whether x[i] is zero. For every element type and register size the code has an instruction, and the outcome is the same whether the compiler knows the operands or not. The bits of an AVX-512 mask that stand for no element are zero.", "quantifier": "all six operators, integers of 1 to 8 bytes with and without sign, float and double, registers of 16, 32 and 64 bytes and vectors of 8 bytes, all numbers of elements, all element values, all padding contents", "why_tests_cant": "some hundred combinations of operator, element type, register size, instruction set and compile-time knowledge, each with its own instruction; an instruction of the wrong signedness differs only for half of the values", "anchors": ["experimental/bits/simd.h: operators of simd (5036-5038, 5087-5116)", "experimental/bits/simd_builtin.h: _S_equal_to, _S_not_equal_to, _S_less, _S_less_equal, _S_negate (1733-1762)", "experimental/bits/simd_x86.h: _S_equal_to, _S_not_equal_to, _S_less, _S_less_equal, _S_negate (2213-2583), _S_to_bits of constants (4124-4135)"]}
{"id": "C61", "title": "taking parts of a register delivers exactly the bytes of the elements asked for", "statement": "Wherever the library takes a contiguous part of a simd object (split, casts to and from several registers, loads and stores of masks), the part consists of exactly the bytes of those elements, in order, whatever the position and size of the part, the size of the register, the element type and the instruction set; no instantiation lacks an instruction sequence. Taking parts lane by lane, as in the models behind C16 and C17, and byte by byte, as the instructions do, is the same.", "quantifier": "all registers of 16, 32 and 64 bytes and smaller objects, all shifts by whole elements, all parts <index, total, combine> that pass the static_assert, all byte contents, all combinations of SSE, SSE2, AVX, AVX2, AVX512F, AVX512BW, and targets without these", "why_tests_cant": "every shift count and register size has its own instruction sequence with encoded immediates (0x81, 0xf9, 0xee, palignr counts); a test on one machine sees one of the sequences, and only if the right shift count is instantiated", "anchors": ["experimental/bits/simd_builtin.h: __shift_elements_right (97-202), __extract_part of _SimdWrapper (204-268)", "experimental/bits/simd.h: __extract, __lo128, __hi128, __hi256, __zero_extend (1906-2152)"]}
{"id": "C62", "title": "math functions left to the standard library call the function of the same name on every element", "statement": "Every function of the header that has no code of its own (acos, pow, fma, ldexp, lrint, remquo, legendre, ...) can be called for every ABI, and element i of its result (and of what it stores through a pointer) is what the std function of the same name delivers for the elements i of the operands, in their order. An operand that is converted from another type keeps its position.", "quantifier": "all functions of the header without code of their own, all ABIs, all targets, all numbers of elements including partly filled registers, all ways to divide operands and results of different element types into registers, all element values, every behaviour of the std functions", "why_tests_cant": "the functions are made from macros per ABI and are instantiated by use only: a function that no test calls may not compile, or may call another function, and chunks of int results are regrouped differently for each size and target", "anchors": ["experimental/bits/simd_math.h: _GLIBCXX_SIMD_MATH_CALL_ (61-191), special math (1399-1491)", "experimental/bits/simd_scalar.h: 298-556", "experimental/bits/simd_builtin.h: _GLIBCXX_SIMD_MATH_FALLBACK (1920-2018)", "experimental/bits/simd_fixed_size.h: _GLIBCXX_SIMD_APPLY_ON_TUPLE, _S_remquo (1574-1689)"]}
{"id": "C63", "title": "Mask reductions on PowerPC look at the elements only", "statement": "For every mask type of PowerPC, whatever the lanes of the register that are no elements hold: all_of, any_of, none_of, some_of, popcount, find_first_set, find_last_set and the conversion to a bit set give the answer that the elements define.", "quantifier": "all mask element sizes, all vector sizes of 2 to 16 bytes, all partial and full registers, all masks, all contents of the padding lanes", "why_tests_cant": "the horizontal sums of every element size take another path; tests use full registers, and the padding cannot be set from outside", "anchors": ["experimental/bits/simd_ppc.h: _MaskImplPpc::_S_popcount", "experimental/bits/simd_builtin.h: _MaskImplBuiltin::_S_all_of, _S_any_of, _S_none_of, _S_some_of, _S_find_first_set, _S_find_last_set, _MaskImplBuiltinMixin::_S_to_bits"]}
{"id": "C64", "title": "The numeric traits that are computed have the values that their names promise", "statement": "reciprocal_overflow_threshold of every binary floating-point format is found by a search that ends within as many steps as the format has digits; it is the one positive number such that the reciprocals of it and of all greater numbers are finite in every rounding direction, while those of all smaller numbers overflow when rounding to nearest. finite_min and finite_max are the bounds of every integer type; all decimal numbers of digits10 digits are values of the type, not all of one digit more; max_digits10 decimal digits write every integer and tell all floating-point numbers apart.", "quantifier": "all binary floating-point formats of at least 11 digits; all integer types of 8 to 64 bits; all numbers and all decimal steps", "why_tests_cant": "the search is run by the compiler for three formats at most, and its result is trusted, not compared with the definition; the round trip of all numbers of a type cannot be tested for 64 bits", "anchors": ["experimental/bits/numeric_traits.h: __reciprocal_overflow_threshold_impl, __digits_impl, __digits10_impl, __max_digits10_impl, __finite_min_impl, __finite_max_impl"]}
{"id": "C65", "title": "Shifts with a count per element do not look at the lanes behind the last element", "statement": "For every x << y and x >> y on x86 where the register has more lanes than the simd has elements: if the counts of the elements are in the range that the element type allows, every element of the result is the shift of the element by its count, whatever the lanes behind the last element hold in x and in y - also counts for which the vector shift of the compiler is undefined.", "quantifier": "all registers of any length, all numbers of elements, all values and counts of the elements, all contents of the other lanes, any value of an undefined vector shift", "why_tests_cant": "the lanes that pad hold what earlier operations leave there, which a test does not control; and the code joins neighbouring lanes, so that only some neighbours would show a leak", "anchors": ["experimental/bits/simd_x86.h: _SimdImplX86::_S_bit_shift_left, _S_bit_shift_right"]}
{"id": "C66", "title": "The bitwise operators work on the bits of each element, whatever lanes the instruction uses", "statement": "For every element type and register size, bit j of element i of x & y, x | y, x ^ y, ~x (integers, floating-point types through __float_bitwise_operators, and the scalar ABI) and of the internal andnot is the Boolean function of bit j of element i of the operands and of nothing else, although integers of every size are combined in 64-bit lanes. On vector masks &, |, ^, &&, || and ! therefore give the element-wise result whatever the padding holds, ! leaves no true element in the padding, and where(k, x) = 0, where(k, m) = true/false and the SSE2 blend choose element by element.", "quantifier": "all element sizes, register sizes, register contents (including padding), targets, constant or not", "why_tests_cant": "the instruction, its lane width and the constant-folding path depend on the element type, the register size, the target and the optimiser; tests see a few values on one of them", "anchors": ["experimental/bits/simd.h:1713-1897", "experimental/bits/simd.h:5174-5199", "experimental/bits/simd_builtin.h:1634-1702", "experimental/bits/simd_builtin.h:2795-2888", "experimental/bits/simd_x86.h:790-822", "experimental/bits/simd_scalar.h:200-283"]}
{"id": "C67", "title": "frexp and logb of a fixed_size simd deliver the results element by element, whatever mixture of registers and scalars holds the object", "statement": "For simd<float or double, fixed_size<n>> of every size, frexp(x, &e) returns y and stores e such that for every element x[i] = y[i] * 2^e[i] with 1/2 <= |y[i]| < 1 (zeros with exponent 0, infinities and NaN unchanged in kind), and logb(x)[i] is the exponent of x[i], although x is split into registers and scalars, the int object e is split differently, single elements are handled by std::frexp and the chunks of e are copied out and written back.", "quantifier": "all targets, sizes n up to the maximum, element values and rounding modes", "why_tests_cant": "the partition of x and e, the write-back and the algorithm for each part depend on the target and n; tests cover a few sizes with a few values on one target", "anchors": ["experimental/bits/simd_math.h:639-732", "experimental/bits/simd_math.h:749-828", "experimental/bits/simd_fixed_size.h:427-551", "experimental/bits/simd_fixed_size.h:1081-1157", "experimental/bits/simd_fixed_size.h:1690-1703"]}
{"id": "C68", "title": "modf and copysign of a fixed_size simd split and sign every element", "statement": "For simd<float or double, fixed_size<n>> of every size, modf(x, &i) returns fractions and stores integral parts such that for every element fraction + integral part = x[i] with |fraction| < 1 and the sign of x[i] on the fraction and on a non-zero integral part (an infinity has fraction 0 and itself as integral part, NaN gives NaN), and copysign(x, y)[i] has the magnitude of x[i] and the sign of y[i], although the function is composed of five operations, each of which treats the registers and the scalars of the object with different code and passes a bit mask from one to the next.", "quantifier": "all targets, sizes n up to the maximum, element values, rounding modes and contents of padding lanes", "why_tests_cant": "the partition into registers and scalars and the code for each part depend on the target and n; the composition is only tested for a few sizes and values on one target", "anchors": ["experimental/bits/simd_math.h:833-857", "experimental/bits/simd_math.h:1305-1323", "experimental/bits/simd_fixed_size.h:506-580", "experimental/bits/simd_fixed_size.h:1529-1557", "experimental/bits/simd_fixed_size.h:1705-1720", "experimental/bits/simd_fixed_size.h:1789-1802"]}
{"id": "C69", "title": "hypot, classification and comparison functions of a fixed_size simd work element by element", "statement": "For simd<float or double, fixed_size<n>> of every size, hypot(x, y)[i] and hypot(x, y, z)[i] are within the error bound of C55 of the root of the sum of the squares of the elements i, with the special cases of C Annex F, although a register chooses its code by looking at all of its elements; isinf, isfinite, isnan, isnormal and signbit, and isgreater, isgreaterequal, isless, islessequal, islessgreater and isunordered return masks whose element i is the C function of the elements i and that have no bit set beyond n.", "quantifier": "all targets, sizes n up to the maximum, element values, rounding modes, contractions and contents of padding lanes", "why_tests_cant": "the partition into registers and scalars, the code for each and the choice of path within each register depend on the target, on n and on the neighbouring elements; tests cannot cover the combinations", "anchors": ["experimental/bits/simd_math.h:951-979", "experimental/bits/simd_math.h:1103-1122", "experimental/bits/simd_math.h:1333-1372", "experimental/bits/simd_fixed_size.h:506-580", "experimental/bits/simd_fixed_size.h:1704-1768"]}
{"id": "C70", "title": "fpclassify of a fixed_size simd classifies every element", "statement": "For simd<float or double, fixed_size<n>> of every size, fpclassify(x) compiles and returns a simd<int, fixed_size<n>> whose element i is FP_NAN, FP_INFINITE, FP_ZERO, FP_SUBNORMAL or FP_NORMAL according to x[i], although each register of x produces ints in one or two registers or scalars by one of seven conversions, and these pieces are concatenated and regrouped into the different partition of the int object.", "quantifier": "all targets, sizes n up to the maximum, element values and contents of padding lanes", "why_tests_cant": "the partitions of the floating-point and of the int object and the conversion chosen depend on the target and n; most targets are never tested", "anchors": ["experimental/bits/simd_builtin.h:2354-2438", "experimental/bits/simd_fixed_size.h:553-565", "experimental/bits/simd_fixed_size.h:811-861", "experimental/bits/simd_fixed_size.h:1574-1675", "experimental/bits/simd_math.h:1333"]}
{"id": "C71", "title": "arithmetic, sqrt and rounding functions of a fixed_size floating-point simd are correctly rounded in every element", "statement": "For simd<float or double, fixed_size<n>> of every size, element i of x + y, x - y, x * y, x / y and sqrt(x) is the IEEE 754 result of x[i] (and y[i]) in the current rounding mode, and element i of trunc, floor, ceil, round, nearbyint and rint is x[i] rounded to an integer as the C standard says, whatever mixture of registers with padding and of scalars holds the object.", "quantifier": "all targets, sizes n up to the maximum, element values, rounding modes and contents of padding lanes", "why_tests_cant": "the partition into registers depends on the target and n, scalars are computed by other functions than registers, and there are too many pairs of values", "anchors": ["experimental/bits/simd_fixed_size.h:1529-1557", "experimental/bits/simd_fixed_size.h:1574-1670", "experimental/bits/simd_builtin.h:1651-1677", "experimental/bits/simd_scalar.h:210-237"]}
