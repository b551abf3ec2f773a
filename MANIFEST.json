{
 "claims": [
  {
   "property": "C01",
   "status": "proved",
   "theorems": [
    "C01_fixed_size_storage"
   ],
   "note": "every flag combination, every N"
  },
  {
   "property": "C02",
   "status": "proved",
   "theorems": [
    "C02_deduce_width",
    "C02_rebind_width"
   ],
   "note": ""
  },
  {
   "property": "C03",
   "status": "partial",
   "theorems": [
    "C03_compatible_usable",
    "C03_native_partial",
    "C03_native_refuted"
   ],
   "note": "compatible<T> proved in full; native<T> is false as stated for AVX512VL without AVX512BW with 1- and 2-byte elements, proved everywhere else"
  },
  {
   "property": "C04",
   "status": "partial",
   "theorems": [
    "C04_split_promise_true",
    "C04_split_promise_tight",
    "C04_object_alignment",
    "C04_memory_alignment",
    "C04_split_array_promise_true",
    "C04_split_scalar_partial",
    "C04_split_scalar_refuted",
    "C04_convert_ctor_refuted"
   ],
   "note": "true for split<Sizes...> and split into padding-free fixed_size parts; false for the implicit fixed_size conversion constructor (temporary std::array) and for scalars of 12-byte long double"
  },
  {
   "property": "C05",
   "status": "proved",
   "theorems": [
    "C05_generator",
    "C05_broadcast",
    "C05_assign",
    "C05_assign_noalias",
    "C05_layout"
   ],
   "note": "every target, element type and N up to max_fixed_size; both implementations of operator[]"
  },
  {
   "property": "C06",
   "status": "partial",
   "theorems": [
    "C06_same_type",
    "C06_mixed_type_partial",
    "C06_result_type",
    "C06_mixed_type_refuted"
   ],
   "note": "same-type operands and int/long results proved in full; int operands (ldexp, frexp, ...) proved everywhere except i386 with SSE2 and without AVX, 8-byte floating-point elements and N a multiple of 4, where the library reads beyond the object (refuted)"
  },
  {
   "property": "C07",
   "status": "proved",
   "theorems": [
    "C07_compare",
    "C07_not"
   ],
   "note": ""
  },
  {
   "property": "C08",
   "status": "proved",
   "theorems": [
    "C08_masked_binary",
    "C08_masked_scalar",
    "C08_masked_unary"
   ],
   "note": ""
  },
  {
   "property": "C09",
   "status": "proved",
   "theorems": [
    "C09_fixed_mask_algebra",
    "C09_bitmask_any_width"
   ],
   "note": "all programs over fixed_size masks (N <= 64 as the library's static_assert demands), plus the underlying bit mask at every width"
  },
  {
   "property": "C10",
   "status": "proved",
   "theorems": [
    "C10_fixed_mask_reductions",
    "C10_bitmask_any_width"
   ],
   "note": ""
  },
  {
   "property": "C11",
   "status": "proved",
   "theorems": [
    "C11_register_store",
    "C11_register_load",
    "C11_register_round_trip",
    "C11_x86_partial_store",
    "C11_fixed_store",
    "C11_fixed_load"
   ],
   "note": "scalar, full, partial and multi-register types, with and without conversion; __convert_all is modelled by its meaning"
  },
  {
   "property": "C12",
   "status": "partial",
   "theorems": [
    "C12_register_load_partial",
    "C12_register_store_partial",
    "C12_full_register_clean",
    "C12_fixed_load",
    "C12_fixed_store",
    "C12_masked_refuted"
   ],
   "note": "proved for fixed_size, for registers without padding and for all paths that sanitize the mask; false for partial vector registers: comparisons set padding lanes of the mask and the x86 masked loads/stores use them (refuted)"
  },
  {
   "property": "C13",
   "status": "proved",
   "theorems": [
    "C13_register_reduce",
    "C13_fixed_reduce"
   ],
   "note": "op associative and commutative as the TS requires; the operation on registers may do anything to padding lanes"
  },
  {
   "property": "C14",
   "status": "proved",
   "theorems": [
    "C14_register_masked_reduce",
    "C14_fixed_masked_reduce",
    "C14_register_hmin",
    "C14_register_hmax",
    "C14_fixed_hmin",
    "C14_fixed_hmax"
   ],
   "note": "mask padding lanes arbitrary"
  },
  {
   "property": "C15",
   "status": "proved",
   "theorems": [
    "C15_fixed_mask_bitset",
    "C15_vector_to_bitset",
    "C15_vector_from_bitset",
    "C15_vector_roundtrip",
    "C15_generic_to_bitset",
    "C15_generic_from_bitset",
    "C15_avx512_bitset"
   ],
   "note": "fixed_size, x86 16- and 32-byte vector masks on every feature level, the generic vector versions, and AVX-512 masks; NEON _S_to_bits is C49_to_bits. Assumes that the AVX (without AVX2) comparison of denormals is not flushed (DAZ off)."
  },
  {
   "property": "C16",
   "status": "partial",
   "theorems": [
    "C16_split",
    "C16_split_sizes",
    "C16_concat",
    "C16_round_trip",
    "C16_mask_split_partial",
    "C16_mask_split_refuted",
    "C16_i386_refuted"
   ],
   "note": "Values: proved for every target, width, partition and size list, except that pieces whose one-register type is stored in two registers (8-byte integer vectors on 32-bit x86) are excluded by single_register; there split<8,8,8>(fixed_size_simd<char,24>) does not compile (C16_i386_refuted). Masks: proved except for cutting a partial AVX register in two, where __lo128/__hi128 drop elements (C16_mask_split_refuted); the library has no concat for masks. Register conversion instructions as in C17."
  },
  {
   "property": "C17",
   "status": "proved",
   "theorems": [
    "C17_static_simd_cast",
    "C17_resizing_simd_cast",
    "C17_to_fixed_size",
    "C17_to_native_to_compatible"
   ],
   "note": "Every pair of ABIs and partitions on every target, including that each conversion exists. The instructions which convert one register (x86 intrinsics, SSE2 unpack sequences) are assumed to convert lane by lane (converts_registers, unpacks_registers); the splitting, padding, ordering and reassembly around them is proved. Simd masks are not part of this property."
  },
  {
   "property": "C18",
   "status": "partial",
   "theorems": [
    "C18_vector_masks_partial",
    "C18_bit_masks_partial",
    "C18_blends",
    "C18_algorithms",
    "C18_reduce",
    "C18_store",
    "C18_masked_load_partial",
    "C18_masked_store_partial",
    "C18_masked_memory_refuted",
    "C18_signed_division_refuted",
    "C18_find_last_set_refuted"
   ],
   "note": "Two runs of any program over one-register simd values and masks (element-wise operators, unsigned division, comparisons, mask operators, where assignments, element writes) that differ in the padding only agree on all elements, on all mask reductions, on reduce with any operation and on copy_to. False for signed division of partial registers and for find_last_set of AVX-512 integer != (refuted). Masked loads and stores agree as well, where the mask is sanitized or its padding is clear; refuted for the ways that hand the mask register itself to the instruction (for every register with padding). Shifts with a count per element: C65; NEON and PowerPC mask reductions: C49, C63; the math functions are stated element by element in C32-C38, C55, C56, C58, C62."
  },
  {
   "property": "C19",
   "status": "partial",
   "theorems": [
    "C19_unsigned",
    "C19_full_register",
    "C19_signed_partial",
    "C19_broadcast_refuted",
    "C23_division_exact",
    "C23_padding_divisor_nonzero"
   ],
   "note": "Refuted for signed partial registers: the padding of the divisor is made nonzero by OR with all ones (-1), so INT_MIN in a padding lane of the dividend, e.g. from a broadcast, overflows. Unsigned types, full registers and x86 types of at most 4 bytes (floating-point division) are proved without restriction."
  },
  {
   "property": "C20",
   "status": "partial",
   "theorems": [
    "C20_scalar",
    "C20_x86_small",
    "C20_generic_partial",
    "C20_unselected_refuted"
   ],
   "note": "Refuted for 8-byte integers on x86 and all integers elsewhere: _S_masked_cassign divides all lanes and blends afterwards. Proved for the scalar ABI and for x86 integers of at most 4 bytes; fixed_size works chunk by chunk with these."
  },
  {
   "property": "C21",
   "status": "partial",
   "theorems": [
    "C21_elements",
    "C21_reductions",
    "C21_find_last_set_partial",
    "C21_find_last_set_refuted",
    "C21_masked_store_partial",
    "C21_touched_partial",
    "C21_touched_refuted"
   ],
   "note": "Elements and all reductions except find_last_set are proved for every program over bit masks. find_last_set is proved for programs that clear stray bits and refuted for integer != whenever the mask word is wider than N; the same stray bits make masked loads and stores of masks touch memory beyond the N elements."
  },
  {
   "property": "C22",
   "status": "partial",
   "theorems": [
    "C22_full_registers",
    "C22_eight_bytes",
    "C22_two_elements",
    "C22_four_elements_partial",
    "C22_four_elements_refuted"
   ],
   "note": "All x86 paths for 8-bit multiplication. Full for 2-, 8-, 16-, 32- and 64-byte registers. The 3- and 4-element paths multiply four bytes as one signed int, which overflows: right with wrap-around (partial), wrong for some behaviour of the undefined overflow (refuted)."
  },
  {
   "property": "C23",
   "status": "proved",
   "theorems": [
    "C23_division_exact",
    "C23_remainder_exact",
    "C23_padding_divisor_nonzero"
   ],
   "note": "For every rounding mode, element width 8/16/32, signedness, register size, element count and padding content. Conversions int<->float are modelled lane by lane on values."
  },
  {
   "property": "C24",
   "status": "partial",
   "theorems": [
    "C24_shl8",
    "C24_shl8_two_bytes",
    "C24_shr8_unsigned",
    "C24_shr8_signed_partial",
    "C24_shr8_signed_refuted"
   ],
   "note": "signed >> by 8..31 shifts short lanes out of range: undefined for GCC vectors, right only with the saturating instruction; everything else holds for all counts"
  },
  {
   "property": "C25",
   "status": "partial",
   "theorems": [
    "C25_shr64_signed_partial",
    "C25_shr64_signed_refuted"
   ],
   "note": "counts 32..63 shift int lanes by 32 or more bits, against the claim of no undefined shift; the value is right with the saturating instruction"
  },
  {
   "property": "C26",
   "status": "proved",
   "theorems": [
    "C26_shlv"
   ],
   "note": "also the AVX-512BW paths"
  },
  {
   "property": "C27",
   "status": "proved",
   "theorems": [
    "C27_shrv_unsigned",
    "C27_shrv_signed_avx2"
   ],
   "note": "also the AVX-512BW paths"
  },
  {
   "property": "C28",
   "status": "partial",
   "theorems": [
    "C28_shlv16_sse_refuted",
    "C28_shlv16_sse_partial"
   ],
   "note": "false: a count of 16..31 in an even lane changes the odd lane above it; true when even lanes have counts up to 15"
  },
  {
   "property": "C29",
   "status": "partial",
   "theorems": [
    "C29_shrv_signed_sse_refuted",
    "C29_shrv_signed_sse_partial"
   ],
   "note": "false for counts not less than the element width and negative elements (0 instead of -1); true for smaller counts"
  },
  {
   "property": "C30",
   "status": "partial",
   "theorems": [
    "C30_fixed_x86",
    "C30_fixed_generic_partial",
    "C30_big_endian_refuted",
    "C30_kmask",
    "C30_vector",
    "C30_generic_vector"
   ],
   "note": "Proved for every N, mask and expansion trick on little-endian targets. On big-endian targets the generic fixed_size code stores 2- and 4-element masks backwards (C30_big_endian_refuted)."
  },
  {
   "property": "C31",
   "status": "partial",
   "theorems": [
    "C31_reductions",
    "C31_find",
    "C31_popcount_partial",
    "C31_popcount_refuted",
    "C31_generic"
   ],
   "note": "Everything is proved for every shape and padding content except popcount in 32-byte registers with elements below 8 bytes on a target without popcnt: that branch has no return statement (C31_popcount_refuted). NEON is not covered."
  },
  {
   "property": "C32",
   "status": "proved",
   "theorems": [
    "C32_ordered",
    "C32_islessgreater",
    "C32_isunordered"
   ],
   "note": "For every IEEE format (binary32 and binary64 are instances), every bit pattern, every code path (generic integer comparison, SSE integer comparison, ucomi, AVX and AVX-512 predicates). Comparison instructions are taken to implement IEEE comparison. -ffinite-math-only is not modelled."
  },
  {
   "property": "C33",
   "status": "proved",
   "theorems": [
    "C33_isnan",
    "C33_isinf",
    "C33_isfinite",
    "C33_isnormal",
    "C33_signbit",
    "C33_fpclassify",
    "C33_fpclassify_storage",
    "C33_isnormal_dq_refuted",
    "C33_fpclassify_sse_refuted"
   ],
   "note": "All bit patterns and code paths. Findings: isnormal of a 16/32-byte vector-mask type does not compile with AVX512DQ but without AVX512VL; fpclassify of 4 floats does not compile on i386 with SSE but without SSE2. -ffinite-math-only and -ffast-math are not modelled."
  },
  {
   "property": "C34",
   "status": "proved",
   "theorems": [
    "C34_frexp",
    "C34_independent"
   ],
   "note": "Every vector of bit patterns of float and double, every rounding mode, the AVX512 path (getexp/getmant as the Intel manual defines them) and the generic path with its all-normal shortcut. The scalar ABI and one-element vectors call std::frexp. -ffinite-math-only is not modelled."
  },
  {
   "property": "C35",
   "status": "proved",
   "theorems": [
    "C35_logb",
    "C35_independent"
   ],
   "note": "Every vector of bit patterns of float and double, every rounding mode, getexp and the generic three-path code."
  },
  {
   "property": "C36",
   "status": "proved",
   "theorems": [
    "C36_trunc",
    "C36_floor",
    "C36_ceil",
    "C36_round",
    "C36_nearbyint",
    "C36_trunc_sign",
    "C36_sign_of_zero_refuted"
   ],
   "note": "Every bit pattern of float and double, every rounding mode, the instruction, SSE2, ARMv7 NEON and generic code paths. Finding: the sign of a zero result is lost on several paths (C36_sign_of_zero_refuted). IEEE addition and the rounding instructions are modelled on bit patterns (FloatArith.v); x87 excess precision is not."
  },
  {
   "property": "C37",
   "status": "partial",
   "theorems": [
    "C37_copysign",
    "C37_abs",
    "C37_signbit",
    "C37_modf",
    "C37_modf_sign_partial",
    "C37_modf_sign_refuted"
   ],
   "note": "copysign, abs, signbit: proved for every bit pattern. modf: the parts add up exactly and the fraction has the sign of x on every target; the sign of a zero integral part is lost for floats with SSE2 and ARMv7 NEON and wrong in mode downward (C37_modf_sign_refuted), proved elsewhere (partial)."
  },
  {
   "property": "C38",
   "status": "proved",
   "theorems": [
    "C38_register_min_max_clamp",
    "C38_register_minmax",
    "C38_fixed_min",
    "C38_fixed_max",
    "C38_fixed_clamp",
    "C38_clamp_between"
   ],
   "note": "strict total orders, so no NaN and the two zeros identified; minmax exists only for single-register ABIs (for scalar and fixed_size the call does not compile)"
  },
  {
   "property": "C39",
   "status": "proved",
   "theorems": [
    "C39_bit_iteration"
   ],
   "note": ""
  },
  {
   "property": "C40",
   "status": "proved",
   "theorems": [
    "C40_value_preserving",
    "C40_exact",
    "C40_broadcast",
    "C40_broadcast_accepts",
    "C40_broadcast_int",
    "C40_fixed_convert",
    "C40_broadcast_int_refuted"
   ],
   "note": "bool, all integer types of 8 to 64 bits, float, double and long double (as double, x87 or binary128), all values, all rounding directions; also the converse (a rejected conversion loses a value). C40_broadcast_int_refuted shows that the exception for int arguments is needed: it changes values. Class types convertible to the element type are not modelled."
  },
  {
   "property": "C41",
   "status": "proved",
   "theorems": [
    "C41_unsigned",
    "C41_bits",
    "C41_signed"
   ],
   "note": "All operands of 8/16/32/64-bit types against the C++17 rules for integer operators (promotion, signed overflow undefined, int of 32 bits)."
  },
  {
   "property": "C42",
   "status": "proved",
   "theorems": [
    "C42_program",
    "C42_assign",
    "C42_op_assign",
    "C42_step",
    "C42_swap"
   ],
   "note": "Every sequence of statements through element references, over objects of every ABI (scalar, vector register, vector mask, bitmask, fixed_size tuple and fixed_size mask), refines the same statements on independent scalars. Which argument types the templates accept is not modelled; scalar operations and conversions are parameters."
  },
  {
   "property": "C43",
   "status": "partial",
   "theorems": [
    "C43_constant_path",
    "C43_fixed",
    "C43_vector",
    "C43_generic",
    "C43_scalar",
    "C43_kmask_partial",
    "C43_find_last_set_refuted"
   ],
   "note": "Both paths agree for fixed_size, scalar and vector masks; for AVX-512 mask registers all agree except find_last_set, which differs for every integer x != y with fewer elements than bits in the mask word (C43_find_last_set_refuted). popcount of vector masks as in C31."
  },
  {
   "property": "C44",
   "status": "partial",
   "theorems": [
    "C44_masked_hmin_refuted",
    "C44_masked_hmax_refuted",
    "C44_register_hmin_partial",
    "C44_register_hmax_partial",
    "C44_fixed_hmin_partial",
    "C44_fixed_hmax_partial"
   ],
   "note": "false when all selected elements are +inf (hmin) or -inf (hmax) and some element is not selected: the finite identity is returned; true otherwise"
  },
  {
   "property": "C45",
   "status": "partial",
   "theorems": [
    "C45_count_partial",
    "C45_count_unsanitized_refuted"
   ],
   "note": "false as stated: count() of an unsanitized mask returns none(); holds for sanitized masks"
  },
  {
   "property": "C46",
   "status": "partial",
   "theorems": [
    "C46_where_range_ctz0_refuted",
    "C39_bit_iteration"
   ],
   "note": "false as stated: end() evaluates __builtin_ctzl(0) for every mask; the values dereferenced by the loop are right (C39)"
  },
  {
   "property": "C47",
   "status": "proved",
   "theorems": [
    "C47_wide_shifts_sse"
   ],
   "note": ""
  },
  {
   "property": "C48",
   "status": "proved",
   "theorems": [
    "C48_ppc_shifts"
   ],
   "note": ""
  },
  {
   "property": "C49",
   "status": "partial",
   "theorems": [
    "C49_all_of",
    "C49_none_of",
    "C49_to_bits",
    "C49_find_first_set",
    "C49_find_last_set",
    "C49_any_of_partial",
    "C49_some_of_partial",
    "C49_popcount_partial",
    "C49_any_of_refuted",
    "C49_some_of_refuted",
    "C49_popcount_refuted"
   ],
   "note": "all_of, none_of, the bit set and find_first/last_set are right for every shape and padding. any_of, some_of and popcount are right for full registers only (popcount: of at least 8 bytes; elements of 8 bytes on AArch64 only) and refuted otherwise: any_of of a partial mask is always true, popcount counts padding lanes and reads 8 bytes of smaller objects."
  },
  {
   "property": "C50",
   "status": "partial",
   "theorems": [
    "C50_to_scalar",
    "C50_to_fixed_size",
    "C50_to_avx512",
    "C50_to_vector",
    "C50_grow_avx512_partial",
    "C50_grow_vector_partial",
    "C50_grow_undefined_refuted",
    "C50_grow_padding_refuted",
    "C50_grow_bits_refuted",
    "C50_shrink_find_last_set_refuted"
   ],
   "note": "All casts keep the elements of the argument. Casts to scalar and fixed_size are right for every size; casts to more elements of AVX-512 and vector masks are right only if the argument has no stray bits and the result's upper half is defined (otherwise refuted). Casts to fewer AVX-512 elements leave stray bits that find_last_set sees (refuted). 64-byte vector masks and NEON/PowerPC conversions other than the generic ones are not modelled."
  },
  {
   "property": "C51",
   "status": "partial",
   "theorems": [
    "C51_compiles_partial",
    "C51_elements_partial",
    "C51_i64_float_avx2_refuted",
    "C51_i64_float_avx512f_refuted",
    "C51_zero_downward_refuted",
    "C51_compiles_refuted"
   ],
   "note": "All of __convert_x86, for every element value, rounding mode and feature level, with the number of result elements equal to the number of argument elements (as its callers have it). False for 64-bit integers to float with at least eight elements and AVX2 without AVX512DQ (rounded more than once), for unsigned 0 to double rounding downward (-0), and for sixteen 16-bit to 8-bit integers with AVX512BW without AVX512VL (does not compile): all refuted. i386 is not modelled."
  },
  {
   "property": "C52",
   "status": "proved",
   "theorems": [
    "C52_widens"
   ],
   "note": "The unpack sequences of __convert_all for every type pair, number of elements, value and rounding mode, including the nested calls of __convert_all and __vector_convert (through the model of __convert_x86). Restricted to result registers of 16 bytes, the only ones its callers ask for; i386 (8-byte vectors held in 16 bytes) is not modelled."
  },
  {
   "property": "C53",
   "status": "partial",
   "theorems": [
    "C53_x86_cast_partial",
    "C53_i64_float_refuted"
   ],
   "note": "C17 without its two assumptions: the register conversions are the models of C51 and C52, and every call that the casts make is shown to be one those theorems cover. Missing what C51 refutes: more than four 64-bit integers to float with AVX2 without AVX512DQ (refuted here for whole objects, too), more than eight 16-bit to 8-bit integers with AVX512BW without AVX512VL (does not compile), unsigned 0 to double rounding downward. 32-bit x86 and long double are not covered."
  },
  {
   "property": "C54",
   "status": "proved",
   "theorems": [
    "C54_x86_load",
    "C54_generic_load",
    "C54_fixed_load",
    "C54_scalar_load",
    "C54_x86_masked_load",
    "C54_generic_masked_load",
    "C54_fixed_masked_load",
    "C54_scalar_masked_load",
    "C54_x86_masked_store",
    "C54_generic_masked_store",
    "C54_fixed_masked_store",
    "C54_scalar_masked_store"
   ],
   "note": "Loads for every element size, element count and x86 feature level from SSE2 on, and the generic code; the model fails if an array element outside is touched. 64-byte vector masks do not exist on real targets and are not modelled; a bool is assumed to be stored as 0 or 1 (as the code does)."
  },
  {
   "property": "C55",
   "status": "partial",
   "theorems": [
    "C55_hypot",
    "C55_symmetric",
    "C55_independent",
    "C55_zero",
    "C55_hypot3",
    "C55_independent3_partial",
    "C55_independent3_refuted"
   ],
   "note": "Accuracy, special values, overflow, for two and three arguments in all rounding modes and with all contractions; symmetry, exactness for zero and independence of the other elements for two arguments. Independence for three arguments holds with rounding to nearest and is refuted for the directed modes. The square root instruction is modelled as correctly rounded (IEEE 754). Fast-math, 32-bit ARM and long double not modelled."
  },
  {
   "property": "C56",
   "status": "partial",
   "theorems": [
    "C56_special",
    "C56_even",
    "C56_odd",
    "C56_zero_partial",
    "C56_zero_downward_refuted",
    "C56_defined",
    "C56_large",
    "C56_large_refuted",
    "C56_independent_refuted",
    "C56_accurate",
    "C56_accurate_small",
    "C56_accurate_directed_refuted"
   ],
   "note": "NaN, infinities, evenness and oddness (of float sine in the symmetric rounding modes), zeros, and definedness below 2^31 are proved for all vectors. Refuted: sin(+0) is -0 rounding downward; finite double elements from 2^32 on take their quadrant from an undefined conversion to int; a float element depends on the other elements. Accuracy below 2^31 is proved in rounding to nearest (2^-46 for double, 2^-50 if all elements are below 805, 2^-21 for float). In every other rounding mode these bounds are false: the quadrant is rounded in the mode of the thread, the series are used up to pi/2, and sine is off by more than 2^-40 (double) and 2^-14 (float) (refuted). Missing: a relative bound near the zeros."
  },
  {
   "property": "C57",
   "status": "partial",
   "theorems": [
    "C57_assign",
    "C57_assign_int",
    "C57_assign_float_partial",
    "C57_minus_zero_refuted",
    "C57_int_compound_partial",
    "C57_int_unary_partial",
    "C57_unsigned",
    "C57_unselected_refuted",
    "C57_float_compound",
    "C57_float_unary",
    "C57_compound_scalar",
    "C57_compound_scalar_float",
    "C57_scalar",
    "C57_scalar_signed",
    "C57_mask_assign",
    "C57_mask_assign_bool",
    "C57_operators_partial",
    "C57_plain_operators",
    "C57_shifts_refuted"
   ],
   "note": "Assignment of simd objects, of integers and of masks is proved in full, compound assignment for unsigned integers and floating point too. Refuted: assigning the constant -0.0 stores +0; the shifts do not compile through where; overflow of signed integers in an element that is not selected is undefined, since the operator is applied to all lanes. Integer division under a mask is in C20; fixed_size applies these functions register by register."
  },
  {
   "property": "C58",
   "status": "proved",
   "theorems": [
    "C58_ldexp",
    "C58_exact",
    "C58_frexp",
    "C58_unique"
   ],
   "note": "correctly_rounded (LdexpSpec.v) is a definition of IEEE 754 rounding by the set of all numbers of the format, independent of the arithmetic of the model; C58_unique: it has at most one solution. Without AVX-512 ldexp calls std::ldexp per element, which is not modelled."
  },
  {
   "property": "C59",
   "status": "proved",
   "theorems": [
    "C59_operators",
    "C59_divides",
    "C59_sqrt",
    "C59_fused",
    "C59_from_int",
    "C59_convert"
   ],
   "note": "The lanes of GCC vector operators and of the instructions are modelled as IEEE operations; the theorems compare that model with the definition of correct rounding in LdexpSpec.v and, for sqrt, with the square root of real numbers. C59_fused, C59_from_int and C59_convert cover the operations that the models of C34-C37, C53, C54 and C56 use."
  },
  {
   "property": "C60",
   "status": "partial",
   "theorems": [
    "C60_vector",
    "C60_bits",
    "C60_not",
    "C60_not_bits",
    "C60_not_equal_refuted"
   ],
   "note": "The elements of the results are proved right for all operators, element types, registers and paths. The claim about bits that stand for no element is proved except for != of integers with AVX-512 at run time, which sets all of them (refuted; C18 and C21 show what observes them). The fixed_size and scalar operators are in C07."
  },
  {
   "property": "C61",
   "status": "proved",
   "theorems": [
    "C61_shift",
    "C61_extract",
    "C61_lanes",
    "C61_zero_fill_refuted"
   ],
   "note": "Byte-level model of all branches. 64-byte vectors of 1- and 2-byte elements are used with AVX512BW only (has_bw). C61_lanes connects it with the model behind C16, C17 and C53. C61_zero_fill_refuted is no part of the claim: some branches fill the rest of the register with copies of other bytes instead of zeros."
  },
  {
   "property": "C62",
   "status": "partial",
   "theorems": [
    "C62_scalar",
    "C62_register",
    "C62_converted_first",
    "C62_fixed_size",
    "C62_fixed_size_coded",
    "C62_int_operand_partial",
    "C62_int_result",
    "C62_remquo_partial",
    "C62_unsigned_partial",
    "C62_unsigned_fixed_partial",
    "C62_sph_legendre_refuted",
    "C62_special_refuted"
   ],
   "note": "The std functions are parameters of the theorems. Refuted: sph_legendre calls std::assoc_legendre; thirteen special functions (beta, the elliptic integrals, the cylindrical Bessel functions, expint, riemann_zeta) call members that no ABI has, so that a call does not compile. Int operands and remquo: the targets excluded are those of C06_mixed_type_refuted. Overload resolution is not modelled beyond that."
  },
  {
   "property": "C63",
   "status": "partial",
   "theorems": [
    "C63_all_any_none",
    "C63_to_bits",
    "C63_find_first_set",
    "C63_find_last_set",
    "C63_popcount_partial",
    "C63_some_of_partial",
    "C63_full_registers",
    "C63_popcount_refuted",
    "C63_some_of_refuted",
    "C63_power10_refuted"
   ],
   "note": "All but popcount and some_of are proved for every content of the padding. popcount and some_of are right for full registers and for zero padding; in a partial register they count the padding lanes, which comparisons set (refuted). On Power10 the result depends on where vec_cntm places the count, which the repository does not say: right for bit 0, zero for bit 32 and above."
  },
  {
   "property": "C64",
   "status": "proved",
   "theorems": [
    "C64_reciprocal_overflow_threshold",
    "C64_unique",
    "C64_integer_range",
    "C64_digits10",
    "C64_max_digits10",
    "C64_max_digits10_float",
    "C64_bool_refuted"
   ],
   "note": "bool is the exception: it counts as eight digits (C64_bool_refuted). The constants the compiler predefines (epsilon, norm_min, ...) are not modelled; digits10 of floating-point types is one of them."
  },
  {
   "property": "C65",
   "status": "proved",
   "theorems": [
    "C65_shl",
    "C65_shl16_sse",
    "C65_shr_unsigned",
    "C65_shr_signed"
   ],
   "note": "The ranges of the counts are those of C26 to C29 (below 8 and 16 for signed SSE shifts, below 16 in even lanes of 16-bit SSE left shifts), demanded of the elements only. A vector shift by an out-of-range count in a lane that pads is undefined for the compiler; it is modelled as an arbitrary value of that lane."
  },
  {
   "property": "C66",
   "status": "proved",
   "theorems": [
    "C66_operators",
    "C66_andnot",
    "C66_mask_operators",
    "C66_mask_not",
    "C66_select",
    "C66_mask_select",
    "C66_scalar"
   ],
   "note": "Registers are byte lists of any power-of-two size, elements of 1, 2, 4 or 8 bytes; the lanes of each instruction are modelled. fixed_size applies these operators to its parts (C06, C09); bit masks are C21."
  },
  {
   "property": "C67",
   "status": "partial",
   "theorems": [
    "C67_frexp_partial",
    "C67_frexp_refuted",
    "C67_logb"
   ],
   "note": "logb proved in full; frexp everywhere except doubles on i386 with SSE2 and without AVX when n is a multiple of 4, where the call reads beyond the int object (refuted, the same defect as C06). std::frexp and std::logb of one element are parameters that satisfy the C standard. long double is not covered."
  },
  {
   "property": "C68",
   "status": "proved",
   "theorems": [
    "C68_modf",
    "C68_copysign"
   ],
   "note": "std::modf, std::trunc, std::isinf and std::copysign of one element are parameters that satisfy the C standard; long double is not covered. The sign of a zero integral part is C37_modf_sign_partial."
  },
  {
   "property": "C69",
   "status": "proved",
   "theorems": [
    "C69_hypot",
    "C69_hypot3",
    "C69_classify",
    "C69_compare"
   ],
   "note": "std::hypot and the std predicates of one element are parameters (std::hypot within the error bound of the vector code). isnormal, and with it hypot, does not compile for 16- and 32-byte registers with AVX512DQ without AVX512VL (C33_isnormal_dq_refuted), which dq_ok excludes. long double is not covered."
  },
  {
   "property": "C70",
   "status": "partial",
   "theorems": [
    "C70_fpclassify_partial",
    "C70_fpclassify_refuted"
   ],
   "note": "Proved for all targets except those with SSE and without SSE2, where the call does not compile (refuted, the same defect as C33_fpclassify_sse_refuted). std::fpclassify of one element is a parameter that satisfies the C standard; long double is not covered. Conversions of a register of ints to the type of the member it initializes drop lanes or add zeros."
  },
  {
   "property": "C71",
   "status": "proved",
   "theorems": [
    "C71_operators",
    "C71_sqrt",
    "C71_rounding"
   ],
   "note": "std::sqrt and the std rounding functions of one element are parameters that satisfy the C standard. As in C36 the sign of a zero result of a rounding function is not claimed (C36_sign_of_zero_refuted); long double is not covered. C71_sqrt uses the axioms of the real numbers of the standard library."
  }
 ]
}
