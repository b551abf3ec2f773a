(* The operators == != < <= > >= and ! of simd for values in one register: simd.h
   5036-5038, 5087-5116; simd_builtin.h 1733-1762; simd_x86.h 2212-2583.  The fixed_size
   and scalar versions are in Fixed.v (C07) and Scalar.v. *)
From Coq Require Import ZArith List Bool.
From Verif Require Import Prelude X86Lanes FloatSpec FloatBits KMask X86Mask Where.
Import ListNotations.
Local Open Scope Z_scope.

(* simd.h 5036-5038, 5087-5116, simd_builtin.h 1733-1762, simd_x86.h 2212-2583 *)
Inductive cop := CEq | CNe | CLt | CLe.
(* element types; the size is in the shape (float: 4, double: 8);
   helper for simd.h 5036-5038, 5087-5116, simd_builtin.h 1733-1762, simd_x86.h 2212-2583 *)
Inductive celem := CInt (signed : bool) | CFloat.
(* a comparison of GCC vectors, one lane (used in simd_builtin.h 1738, 1744, 1750, 1756) *)
Definition size_fmt (size : nat) : fmt := if (size =? 4)%nat then binary32 else binary64.
(* simd_builtin.h 1738, 1744, 1750, 1756 *)
Definition lane_compare (o : cop) (e : celem) (size : nat) (x y : Z) : bool :=
  match e with
  | CInt sg =>
      let a := if sg then sgn (8 * Z.of_nat size) x else x in
      let b := if sg then sgn (8 * Z.of_nat size) y else y in
      match o with CEq => a =? b | CNe => negb (a =? b) | CLt => a <? b | CLe => a <=? b end
  | CFloat =>
      cmp (match o with CEq => CMP_EQ_OQ | CNe => CMP_NEQ_UQ | CLt => CMP_LT_OQ | CLe => CMP_LE_OQ end) (size_fmt size) x y
  end.
(* simd_builtin.h 1733-1756: _S_equal_to, _S_not_equal_to, _S_less, _S_less_equal *)
Definition base_compare (o : cop) (e : celem) (s : shape) (x y : list Z) : list Z :=
  map2 (fun a b => if lane_compare o e (sz s) a b then ones s else 0) x y.
(* simd_x86.h 2274-2281: vectors of 8 bytes are compared in a register of 16 bytes, whose
   upper half (jx, jy) is not defined; the lower half of the result is copied *)
Definition wide_compare (o : cop) (e : celem) (s : shape) (jx jy x y : list Z) : list Z :=
  firstn (length x) (base_compare o e s (x ++ jx) (y ++ jy)).
(* simd_x86.h 2272-2284, 2346-2357, 2453-2464, 2560-2571: the versions for vector masks.
   wide: sizeof(x) is 8 and the value is not needed at compile time.  In the last three
   functions the condition of if constexpr contains !__builtin_is_constant_evaluated(),
   which is always false there: the branch for 8 bytes is dead *)
Definition vector_compare (o : cop) (e : celem) (wide : bool) (s : shape) (jx jy x y : list Z) : list Z :=
  match o with
  | CEq => if wide then wide_compare CEq e s jx jy x y else base_compare CEq e s x y
  | o => base_compare o e s x y
  end.

(* AVX-512: the compare instructions into mask registers, by bytes of the register and of
   the elements.  _CMP_LT_OS and _CMP_LT_OQ differ only in the exceptions for NaN;
   helper for simd.h 5036-5038, 5087-5116, simd_builtin.h 1733-1762, simd_x86.h 2212-2583 *)
Inductive ktest := TFloat (p : cmp_pred) | TEqual | TLess (signed : bool) | TLessEqual (signed : bool).
(* simd_x86.h 2272-2284, 2346-2357, 2453-2464, 2560-2571 *)
Record kinstr := { k_bytes : Z; k_size : Z; k_test : ktest }.
(* simd_x86.h 2272-2284, 2346-2357, 2453-2464, 2560-2571 *)
Definition instr (b z : Z) (t : ktest) : option kinstr := Some {| k_bytes := b; k_size := z; k_test := t |}.
(* simd_x86.h 2226-2269 (equal_to; p is _CMP_EQ_OQ) and 2299-2342 (not_equal_to; p is
   _CMP_NEQ_UQ): bytes is sizeof(__xi), z is sizeof(_Tp); None is __assert_unreachable *)
Definition select_equal (p : cmp_pred) (e : celem) (bytes z : Z) : option kinstr :=
  match e with
  | CFloat =>
      if (bytes =? 64) && (z =? 8) then instr 64 8 (TFloat p)
      else if (bytes =? 64) && (z =? 4) then instr 64 4 (TFloat p)
      else if (bytes =? 32) && (z =? 8) then instr 32 8 (TFloat p)
      else if (bytes =? 32) && (z =? 4) then instr 32 4 (TFloat p)
      else if (bytes =? 16) && (z =? 8) then instr 16 8 (TFloat p)
      else if (bytes =? 16) && (z =? 4) then instr 16 4 (TFloat p)
      else None
  | CInt _ =>
      if (bytes =? 64) && (z =? 8) then instr 64 8 TEqual
      else if (bytes =? 64) && (z =? 4) then instr 64 4 TEqual
      else if (bytes =? 64) && (z =? 2) then instr 64 2 TEqual
      else if (bytes =? 64) && (z =? 1) then instr 64 1 TEqual
      else if (bytes =? 32) && (z =? 8) then instr 32 8 TEqual
      else if (bytes =? 32) && (z =? 4) then instr 32 4 TEqual
      else if (bytes =? 32) && (z =? 2) then instr 32 2 TEqual
      else if (bytes =? 32) && (z =? 1) then instr 32 1 TEqual
      else if (bytes =? 16) && (z =? 8) then instr 16 8 TEqual
      else if (bytes =? 16) && (z =? 4) then instr 16 4 TEqual
      else if (bytes =? 16) && (z =? 2) then instr 16 2 TEqual
      else if (bytes =? 16) && (z =? 1) then instr 16 1 TEqual
      else None
  end.
(* simd_x86.h 2374-2450 (less; p is _CMP_LT_OS, t is TLess) and 2481-2557 (less_equal;
   p is _CMP_LE_OS, t is TLessEqual): the same choice for each register *)
Definition select_type (b : Z) (p : cmp_pred) (t : bool -> ktest) (e : celem) (z : Z) : option kinstr :=
  match e with
  | CFloat => if z =? 4 then instr b 4 (TFloat p) else if z =? 8 then instr b 8 (TFloat p) else None
  | CInt true =>
      if z =? 1 then instr b 1 (t true) else if z =? 2 then instr b 2 (t true)
      else if z =? 4 then instr b 4 (t true) else if z =? 8 then instr b 8 (t true) else None
  | CInt false =>
      if z =? 1 then instr b 1 (t false) else if z =? 2 then instr b 2 (t false)
      else if z =? 4 then instr b 4 (t false) else if z =? 8 then instr b 8 (t false) else None
  end.
(* simd_x86.h 2374-2450, 2481-2557 *)
Definition select_less (p : cmp_pred) (t : bool -> ktest) (e : celem) (bytes z : Z) : option kinstr :=
  if bytes =? 64 then select_type 64 p t e z
  else if bytes =? 32 then select_type 32 p t e z
  else if bytes =? 16 then select_type 16 p t e z
  else None.
(* vpcmp*, vcmpps, vcmppd with the write mask k1 (used in simd_x86.h 2226-2557): the
   instruction must be one for the register and the elements *)
Definition lane_test (t : ktest) (z x y : Z) : bool :=
  match t with
  | TFloat p => cmp p (if z =? 4 then binary32 else binary64) x y
  | TEqual => x =? y
  | TLess true => sgn (8 * z) x <? sgn (8 * z) y
  | TLess false => x <? y
  | TLessEqual true => sgn (8 * z) x <=? sgn (8 * z) y
  | TLessEqual false => x <=? y
  end.
(* simd_x86.h 2226-2557 *)
Definition run (i : kinstr) (s : shape) (k1 : Z) (x y : list Z) : option Z :=
  if (k_bytes i =? Z.of_nat (rl s * sz s)) && (k_size i =? Z.of_nat (sz s))
  then Some (Z.land k1 (of_lanes (map2 (lane_test (k_test i) (k_size i)) (to_intrin s x) (to_intrin s y))))
  else None.
(* simd_x86.h 4124-4135: _S_to_bits of a constant: the lanes are -1 or 0 *)
Definition constant_bits (s : shape) (k : list Z) : Z :=
  fold_left Z.lor
    (map (fun p => uns 64 (Z.shiftl (uns 64 (sgn (lw s) (uns (lw s) (- snd p)))) (Z.of_nat (fst p)))) (combine (seq 0 (sn s)) k)) 0.
(* what the compiler knows: nothing; both operands, and the bits of the mask; both
   operands, but not the bits (simd_x86.h 2220-2223, 4124-4135) *)
Inductive known := Unknown | Known | KnownOperands.
(* simd_x86.h 2214-2271, 2288-2345, 2361-2452, 2468-2559: the versions for AVX-512 masks.
   ~ of a mask is computed as int or wider and cut to the mask word *)
Definition bits_compare (o : cop) (e : celem) (kn : known) (s : shape) (x y : list Z) : option Z :=
  match kn with
  | Known => Some (constant_bits s (base_compare o e s x y))
  | KnownOperands => Some (x86_to_bits false s (base_compare o e s x y))
  | Unknown =>
      let k1 := implicit_mask (sn s) in
      let bytes := Z.of_nat (rl s * sz s) in
      let z := Z.of_nat (sz s) in
      let go i := match i with Some i => run i s k1 x y | None => None end in
      match o with
      | CEq => go (select_equal CMP_EQ_OQ e bytes z)
      | CNe =>
          match e with
          | CFloat => go (select_equal CMP_NEQ_UQ e bytes z)
          | CInt _ => match go (select_equal CMP_NEQ_UQ e bytes z) with
                      | Some m => Some (kword (sn s) (Z.lnot m))
                      | None => None
                      end
          end
      | CLt => go (select_less CMP_LT_OQ TLess e bytes z)
      | CLe => go (select_less CMP_LE_OQ TLessEqual e bytes z)
      end
  end.

(* simd.h 5087-5116: the operators, and the order of their operands *)
Inductive relop := REqual | RNotEqual | RLessThan | RLessOrEqual | RGreaterThan | RGreaterOrEqual.
(* simd.h 5087-5116 *)
Definition member_of (r : relop) : cop * bool :=
  match r with
  | REqual => (CEq, false) | RNotEqual => (CNe, false)
  | RLessThan => (CLt, false) | RLessOrEqual => (CLe, false)
  | RGreaterThan => (CLt, true) | RGreaterOrEqual => (CLe, true)
  end.
(* simd.h 5087-5116 *)
Definition vector_op (r : relop) (e : celem) (wide : bool) (s : shape) (jx jy x y : list Z) : list Z :=
  let (o, swap) := member_of r in
  if swap then vector_compare o e wide s jy jx y x else vector_compare o e wide s jx jy x y.
(* simd.h 5087-5116 *)
Definition bits_op (r : relop) (e : celem) (kn : known) (s : shape) (x y : list Z) : option Z :=
  let (o, swap) := member_of r in
  if swap then bits_compare o e kn s y x else bits_compare o e kn s x y.
(* simd_builtin.h 1758-1762: ! of GCC vectors compares with zero; simd_x86.h 2574-2583 *)
Definition vector_not (e : celem) (s : shape) (x : list Z) : list Z :=
  map (fun a => if lane_compare CEq e (sz s) a 0 then ones s else 0) x.
(* simd_builtin.h 1758-1762, simd_x86.h 2574-2583 *)
Definition bits_not (e : celem) (kn : known) (s : shape) (x : list Z) : option Z :=
  bits_compare CEq e kn s x (repeat 0 (length x)).
