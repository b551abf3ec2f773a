(* Model of simd casts between ABIs and element types:
   /repo/experimental/bits/simd_converter.h, and of the register functions it is
   built from: __extract_part, __vector_convert, __convert_all
   (simd_builtin.h 204-268, 284-553, 555-799), __to_simd_tuple
   (simd_fixed_size.h 677-785).

   An object is a tuple of registers (Fixed.v); a simd of a native ABI is a
   tuple of one register.  cast is the conversion static_cast<_To>(x) of one
   element.  What has to hold for an instantiation to compile (static_assert,
   matching types) is a separate predicate on the shapes. *)
From Coq Require Import List Arith Bool.
From Verif Require Import Prelude BitMask Abi Fixed Mem.
Import ListNotations.

(* lanes of __vector_type_t<_Tp, _Np>: simd.h 1348-1370 *)
Definition lanes_of (I : isa) (t : elem) (n : nat) : nat :=
  if n =? 1 then 1 else vector_type_bytes I t n / esize t.

(* simd_builtin.h 204-268: __extract_part<_Index, _Total, _Combine> of a register
   reg with np elements; x86: _GLIBCXX_SIMD_X86INTRIN, cp: _M_is_constprop().
   Lane granularity; __shift_elements_right (90-201) is a shift by whole lanes
   that fills with zeros.  None: the static_assert at 218. *)
Fixpoint extract_part {A} (I : isa) (t : elem) (zero : A) (x86 cp : bool) (np : nat) (reg : list A)
    (fuel index total combine : nat) : option (list A) :=
  if (index mod 2 =? 0) && (total mod 2 =? 0) && (combine mod 2 =? 0) then
    match fuel with
    | S f => extract_part I t zero x86 cp np reg f (index / 2) (total / 2) (combine / 2)
    | O => None
    end
  else
    let sz := esize t in
    let vpp := np / total in
    let skip := index * vpp in
    let ret := vpp * combine in
    let r := lanes_of I t ret in
    if length reg * sz <? (index + combine) * vpp * sz then None
    else if cp then Some (firstn ret (skipn skip reg) ++ repeat zero (r - ret))   (* 226-228 *)
    else if (index =? 0) && (total =? 1) then Some reg                            (* 229-230 *)
    else if index =? 0 then Some (firstn r (reg ++ repeat zero r))                (* 231-232 *)
    else if x86 && (length reg * sz =? 32) && (ret * sz <=? 16) then              (* 234-247 *)
      if skip * sz =? 16 then Some (firstn r (skipn (16 / sz) reg))
      else Some (firstn r (firstn (16 / sz) (skipn skip reg ++ repeat zero (16 / sz))))
    else if (negb (skip mod ret =? 0) || (8 <=? r * sz))                          (* 249-257 *)
            && ((skip + ret) * sz <=? 64) && (16 <=? length reg * sz) then
      Some (firstn r (skipn skip reg ++ repeat zero skip))
    else Some (firstn ret (skipn skip reg) ++ repeat zero (r - ret)).             (* 258-266 *)

Definition is_integer (e : elem) : bool := match e with TInt _ => true | _ => false end.

(* the SSE2 unpack branch of __convert_all is chosen: simd_builtin.h 591-597;
   x86: _GLIBCXX_SIMD_X86INTRIN, sse41: __have_sse4_1 *)
Definition uses_unpack (x86 sse41 : bool) (t u : elem) : bool :=
  x86 && negb sse41 && is_integer t && (esize t <? esize u) && negb ((esize t =? 4) && eis_double u).
(* simd_converter.h 118-119 *)
Definition same_integers (t u : elem) : bool := is_integer t && is_integer u && (esize t =? esize u).

(* ------------------------------------------------------------------ *)
(* types: what the templates compute before any value exists            *)

(* simd_builtin.h 564-568, 601-604, 767-768, 791-797: the number of registers that
   __convert_all<_To, 0, _Offset>(__v) returns for a register of n elements;
   lanes: lanes of _To (1: _To is a scalar); unp: uses_unpack *)
Definition nparts (unp : bool) (n lanes off : nat) : nat :=
  if lanes =? 1 then n - off
  else if unp && (off =? 0) then n / lanes
  else if lanes <? n - off then (n - off) / lanes
  else 1.

(* simd_fixed_size.h 93-108: __simd_tuple_pop_front<_Np> on types *)
Fixpoint pop_shape (s : shape) (k : nat) : option shape :=
  if k =? 0 then Some s else
  match s with
  | (n, _) :: r => if n <=? k then pop_shape r (k - n) else None
  | [] => None
  end.

(* simd_fixed_size.h 682-785: __to_simd_tuple<_To, _Np>(vectors...) puts every
   vector into one register of the result (716-720, 691-695; an array of one
   scalar: 766-778).  lens: lanes of the vectors *)
Fixpoint straight (lens : list nat) (ret : shape) : bool :=
  match ret, lens with
  | [(n, l)], [v] => n <=? v
  | (n, l) :: r, v :: w => (2 <=? n) && (v =? n) && (l =? n) && straight w r
  | _, _ => false
  end.

(* simd_converter.h 155-214: lanes of the registers one source register of np
   elements is converted to; conv: elements converted before, rem: the registers
   of _Ret to be filled.  None: ill-formed *)
Fixpoint one_to_many_lens (unp : bool) (rounds np conv : nat) (rem : shape) : option (list nat) :=
  match rounds, rem with
  | S r, (mn, ml) :: _ =>
      let p := nparts unp np ml conv in
      if np <? conv + p * mn then None
      else if conv + p * mn =? np then
        (* several scalars: __simd_tuple_concat has no overload (simd_fixed_size.h 774) *)
        if (ml =? 1) && negb (p =? 1) then None else Some (repeat ml p)
      else if negb (ml =? mn) then None
      else match pop_shape rem (p * mn) with
           | Some rem' => option_map (app (repeat ml p)) (one_to_many_lens unp r np (conv + p * mn) rem')
           | None => None
           end
  | _, _ => None
  end.

(* simd_builtin.h 284-519: __vector_convert<_To>(registers...) exists for at most 16
   registers; more values than lanes of _To are ill-formed *)
Definition vector_convert_ok (full n count : nat) : bool :=
  (count =? 1) || ((count <=? 16) && (count * n <=? full)).

(* simd_builtin.h 284-519 *)
Definition oshape_is (o : option shape) (s : shape) : bool :=
  match o with Some r => shape_eqb r s | None => false end.

(* simd_converter.h 103-265, the types: does the conversion of a tuple of type s
   compile?  stf, stt: __fixed_size_storage_t of the two element types; same:
   same_integers.  Fuel: number of registers. *)
Fixpoint fixed_ok (unp same : bool) (stf stt : nat -> option shape) (fuel : nat) (s : shape) : bool :=
  match fuel, s, stt (ssize s) with
  | S f, (an, al) :: sr, Some ((rn, rl) :: rr) =>
      let np := ssize s in
      let ret := (rn, rl) :: rr in
      let k := div_roundup rn an in
      if negb (oshape_is (stf np) s) then false
      else if same then shape_eqb ret s
      else if rl =? 1 then forallb (fun p => (fst p =? 1) && (snd p =? 1)) ret
      else if an =? rn then
        match sr with
        | [] => match rr with [] => true | _ => false end
        | _ => if oshape_is (stt (np - an)) rr then fixed_ok unp same stf stt f sr else false
        end
      else if rn <? an then
        match sr with
        | [] => match one_to_many_lens unp 4 np 0 ret with
                | Some lens => straight lens ret
                | None => false
                end
        | _ => match stt an, stt (np - an) with
               | Some r1, Some r2 =>
                   if straight (repeat rl (nparts unp an rl 0)) r1 && shape_eqb (r1 ++ r2) ret
                   then fixed_ok unp same stf stt f sr else false
               | _, _ => false
               end
        end
      else
        let many := forallb (fun p => (fst p =? an) && (snd p =? al)) (firstn k s)
                    && (k <=? length s) && (k * an =? rn)
                    && (if al =? 1 then true else vector_convert_ok rl an k) in
        match rr with
        | [] => if negb (np mod an =? 0) then rn <? rl       (* static_assert at 236 *)
                else many
        | _ => if many then
                 if oshape_is (stt (np - rn)) rr then fixed_ok unp same stf stt f (skipn k s) else false
               else false
        end
  | _, _, _ => false
  end.

(* ------------------------------------------------------------------ *)
(* values                                                              *)

Section Convert.
Context {A B : Type}.
(* static_cast<_To>(x) of one element (where it is undefined in C++ the model
   leaves its result open) *)
Variables (cast : A -> B) (zeroA : A) (zeroB : B).
(* the target, source and destination element types *)
Variables (I : isa) (t u : elem).
(* x86: _GLIBCXX_SIMD_X86INTRIN and _GLIBCXX_SIMD_WORKAROUND_PR85048
   (simd_detail.h 265, 278); sse41: __have_sse4_1; cp: _M_is_constprop() *)
Variables (x86 sse41 cp : bool).
(* __convert_x86<_To>(registers...) (simd_x86_conversions.h): lanes of the
   result, source registers *)
Variable cx86 : nat -> list (list A) -> list B.
(* simd_builtin.h 591-757, the SSE2 unpack sequences: number of elements of the
   source register, lanes of the result registers, source register *)
Variable unpack : nat -> nat -> list A -> list (list B).

(* simd_builtin.h 504-513: append zero registers until their number is a power
   of two *)
Definition pad_pow2 (xs : list (list A)) (l : nat) : list (list A) :=
  xs ++ repeat (repeat zeroA l) (bit_ceil (length xs) - length xs).

(* simd_builtin.h 284-519: __vector_convert of registers with n elements each
   into a register with full lanes *)
Definition vector_convert (full n : nat) (xs : list (list A)) : list B :=
  let l := length (hd [] xs) in
  if x86 && negb cp && (n =? l) then cx86 full (pad_pow2 xs l)
  else
    let k := if length xs =? 1 then Nat.min full n else n in
    let vals := map cast (flat_map (firstn k) xs) in
    vals ++ repeat zeroB (full - length vals).

(* simd_builtin.h 204-268 on a register of n elements, in units of elements *)
Definition part (n : nat) (reg : list A) (index combine : nat) : list A :=
  match extract_part I t zeroA x86 cp n reg combine index n combine with Some r => r | None => [] end.

(* simd_builtin.h 559-799: __convert_all<_To, 0, _Offset>(__v) *)
Definition convert_all (n : nat) (reg : list A) (lanes off : nat) : list (list B) :=
  if lanes =? 1 then map (fun i => [cast (nth (i + off) reg zeroA)]) (seq 0 (n - off))
  else if uses_unpack x86 sse41 t u && (off =? 0) then unpack n lanes reg
  else if lanes <? n - off then
    map (fun i => vector_convert lanes lanes [part n reg (i * lanes + off) lanes]) (seq 0 ((n - off) / lanes))
  else if off =? 0 then [vector_convert lanes n [reg]]
  else [vector_convert lanes (n - off) [part n reg off (n - off)]].

(* simd_fixed_size.h 677-785, restricted to what straight describes; the other
   branches (taking a register apart) are not modelled: fixed_ok excludes them *)
Fixpoint to_tuple (ret : shape) (vs : list (list B)) : tuple B :=
  match ret, vs with
  | [(n, l)], v :: _ => [Chunk n (firstn l (v ++ repeat zeroB l))]
  | (n, _) :: r, v :: w => Chunk n v :: to_tuple r w
  | _, _ => []
  end.

(* simd_converter.h 155-214: up to four calls of __convert_all, each starting
   where the previous one ended *)
Fixpoint one_to_many (rounds np conv : nat) (rem : shape) (reg : list A) : list (list B) :=
  match rounds, rem with
  | S r, (mn, ml) :: _ =>
      let p := nparts (uses_unpack x86 sse41 t u) np ml conv in
      convert_all np reg ml conv ++
      (if conv + p * mn =? np then []
       else match pop_shape rem (p * mn) with
            | Some rem' => one_to_many r np (conv + p * mn) rem' reg
            | None => []
            end)
  | _, _ => []
  end.

(* simd_converter.h 243-252: __native_cvt(__uncvted...): 45-58 for scalars
   (__make_vector), 63-79 for registers *)
Definition many_to_one (rn rl : nat) (xs : tuple A) : tuple B :=
  [Chunk rn (if length (creg (hd (Chunk 0 []) xs)) =? 1
             then map cast (flat_map creg xs) ++ repeat zeroB (rl - length (flat_map creg xs))
             else vector_convert rl (csize (hd (Chunk 0 []) xs)) (map creg xs))].

(* static_cast<_To>(__x[__i]): simd_converter.h 127-131, 238-239 *)
Definition cast_at (x : tuple A) (i : nat) : B :=
  match t_get_const x i with Some v => cast v | None => zeroB end.

(* simd_converter.h 103-265, the values, for types with fixed_ok *)
Fixpoint fixed_values (stt : nat -> option shape) (fuel : nat) (x : tuple A) : tuple B :=
  match fuel, x, stt (ssize (tshape x)) with
  | S f, c :: xr, Some ((rn, rl) :: rr) =>
      let np := ssize (tshape x) in
      let ret := (rn, rl) :: rr in
      let k := div_roundup rn (csize c) in
      if same_integers t u then                                       (* 117-120: __bit_cast *)
        map (fun d => Chunk (csize d) (map cast (creg d))) x
      else if rl =? 1 then                                            (* 122-132 *)
        map (fun i => Chunk 1 [cast_at x i]) (seq 0 np)
      else if csize c =? rn then                                      (* 134-150 *)
        Chunk rn (vector_convert rl (csize c) [creg c]) ::
        match xr with [] => [] | _ => fixed_values stt f xr end
      else if rn <? csize c then
        match xr with
        | [] => to_tuple ret (one_to_many 4 np 0 ret (creg c))        (* 155-214 *)
        | _ =>                                                        (* 215-226 *)
            match stt (csize c) with
            | Some r1 => to_tuple r1 (convert_all (csize c) (creg c) rl 0)
            | None => []
            end ++ fixed_values stt f xr
        end
      else
        match rr with
        | [] =>
            if negb (np mod csize c =? 0) then                        (* 233-240 *)
              [Chunk rn (map (cast_at x) (seq 0 np) ++ repeat zeroB (rl - np))]
            else many_to_one rn rl (firstn k x)
        | _ =>                                                        (* 241-262 *)
            many_to_one rn rl (firstn k x) ++ fixed_values stt f (skipn k x)
        end
  | _, _, _ => []
  end.

(* simd_converter.h 103-265: fixed_size<_Np> -> fixed_size<_Np> *)
Definition fixed_convert (x : tuple A) : option (tuple B) :=
  if fixed_ok (uses_unpack x86 sse41 t u) (same_integers t u) (storage_shape I t) (storage_shape I u)
       (length x) (tshape x)
  then Some (fixed_values (storage_shape I u) (length x) x) else None.

(* simd_converter.h 35-79 and simd.h 801-806: neither side fixed_size.  x: a
   register of n elements, full: lanes of the destination (1: scalar) *)
Definition native_convert (x : chunk A) (full : nat) : option (chunk B) :=
  if full =? 1 then
    match creg x with [v] => Some (Chunk 1 [cast v]) | _ => None end
  else if length (creg x) =? 1 then None           (* 55: static_assert *)
  else Some (Chunk (csize x) (vector_convert full (csize x) [creg x])).

(* simd_converter.h 269-306, 82-89: native -> fixed_size<_Np> *)
Definition native_to_fixed (x : chunk A) : option (tuple B) :=
  if length (creg x) =? 1 then
    match creg x with [v] => Some [Chunk 1 [cast v]] | _ => None end
  else
    match storage_shape I t (csize x), storage_shape I u (csize x) with
    | Some _, Some [(rn, rl)] => Some [Chunk rn (vector_convert rl (csize x) [creg x])]
    | Some [(n, l)], Some _ => fixed_convert [x]
    | Some [(n, l); (m, k)], Some _ =>
        if l + k <=? length (creg x)               (* 297 *)
        then fixed_convert [Chunk n (firstn l (creg x)); Chunk m (firstn k (skipn l (creg x)))]
        else None
    | _, _ => None
    end.

(* simd_converter.h 310-350, 92-99: fixed_size<_Np> -> native.  full: lanes of the
   destination *)
Definition fixed_to_native (x : tuple A) (full : nat) : option (chunk B) :=
  let n := ssize (tshape x) in
  if full =? 1 then
    match x with [Chunk 1 [v]] => Some (Chunk 1 [cast v]) | _ => None end
  else
  match x with
  | [c] => if length (creg c) =? 1 then None else Some (Chunk n (vector_convert full (csize c) [creg c]))
  | c :: _ =>
      if forallb (fun p => (fst p =? csize c) && (snd p =? length (creg c))) (tshape x) then
        if length (creg c) =? 1
        then Some (Chunk n (map cast (tmem x) ++ repeat zeroB (full - n)))
        else if vector_convert_ok full (csize c) (length x)
             then Some (Chunk n (vector_convert full (csize c) (map creg x))) else None
      else match storage_shape I u n with
           | Some [_] => match fixed_convert x with Some [d] => Some d | _ => None end
           | _ =>
               let xv := map (fun i => match t_get_const x i with Some v => v | None => zeroA end) (seq 0 n)
                         ++ repeat zeroA (lanes_of I t n - n) in
               Some (Chunk n (vector_convert full n [xv]))
           end
  | [] => None
  end.

(* simd.h 2880-2895: static_simd_cast; simd_cast (2912-2917) is the same with more
   constraints.  a, b: the ABI tags; a simd object is a tuple of registers, of
   one register unless the tag is fixed_size.  Identical types (return __x) are
   left out. *)
Definition static_simd_cast (a b : abi) (x : tuple A) : option (tuple B) :=
  match a, b, x with
  | AFixed _, AFixed _, _ => fixed_convert x
  | AFixed _, _, _ => option_map (fun c => [c]) (fixed_to_native x (abi_full_size I u b))
  | _, AFixed _, [c] => native_to_fixed c
  | _, _, [c] => option_map (fun d => [d]) (native_convert c (abi_full_size I u b))
  | _, _, _ => None
  end.
End Convert.

(* the data member of simd<_Tp, _Abi> (simd.h 4897, 5158; simd_fixed_size.h
   1213, simd_builtin.h 812, simd_scalar.h 96) *)
Definition simd_shape (I : isa) (t : elem) (a : abi) : option shape :=
  match a with AFixed n => storage_shape I t n | _ => Some [abi_shape I t a] end.

(* simd.h 4897, 5158, simd_fixed_size.h 1213, simd_builtin.h 812, simd_scalar.h 96 *)
Definition is_fixed_abi (a : abi) : bool := match a with AFixed _ => true | _ => false end.

(* the same ABI tag: is_same_v;
   helper for simd_builtin.h 204-268, 284-553, 555-799, simd_fixed_size.h 677-785 *)
Definition abi_eqb (a b : abi) : bool :=
  match a, b with
  | AScalar, AScalar => true
  | AFixed n, AFixed m => n =? m
  | AVecBuiltin n, AVecBuiltin m => n =? m
  | AVecBltnBtmsk n, AVecBltnBtmsk m => n =? m
  | _, _ => false
  end.

(* simd.h 2952-2984: resizing_simd_cast between simds of the same element type.
   Masking the register to its size: simd_builtin.h 1024-1033, 1152-1180.  A
   _SimdTuple can be made of one register only if it has one (2974-2976). *)
Definition resizing_simd_cast {A} (I : isa) (t : elem) (zero : A) (a b : abi) (x : tuple A) : option (tuple A) :=
  match simd_shape I t b with
  | None => None
  | Some s =>
      let zeros := map (fun p => Chunk (fst p) (repeat zero (snd p))) s in    (* _Tp __r{} *)
      if abi_eqb b a then Some x
      else if abi_size t a =? 1 then
        match t_get x 0 with Some v => t_set zeros 0 v | None => None end
      else if abi_size t b =? 1 then
        match t_get x 0 with Some v => Some (fs_broadcast s v) | None => None end
      else if (ssizeof s =? ssizeof (tshape x)) && negb (is_fixed_abi a) then
        match s, x with
        | [(n, l)], [c] => Some [Chunk n (reg_generator zero (csize c) l (fun i => nth i (creg c) zero))]
        | _, _ => None
        end
      else
        let k := Nat.min (abi_size t b) (abi_size t a) in
        Some (tof_mem s (firstn k (obj_mem zero x) ++ skipn k (tmem zeros)))
  end.

(* simd.h 3010-3017: to_fixed_size(const simd<_Tp, _Ap>&); subscript: operator[] *)
Definition to_fixed_size {A} (I : isa) (t : elem) (zero : A) (a : abi) (x : tuple A) : option (tuple A) :=
  let n := abi_size t a in
  match storage_shape I t n with
  | Some s => Some (fs_generator zero n s (fun i => match t_get x i with Some v => v | None => zero end))
  | None => None
  end.

(* simd.h 3030-3038, 3050-3057: to_native, to_compatible: through an array of _Np
   elements (tmp: its uninitialized contents); b: the ABI of the result *)
Definition through_array {A} (I : isa) (t : elem) (x86 : bool) (zero : A) (tmp : nat -> A) (b : abi) (x : tuple A)
  : option (tuple A) :=
  let n := abi_size t b in
  match fs_store (reg_store x86 I t true (fun v => v)) 0 x (fun j => if j <? n then Some (tmp j) else None) with
  | Some m => option_map (fun r => [Chunk n r])
                (reg_load I t true (fun v => v) zero zero n (abi_full_size I t b) m)
  | None => None
  end.
