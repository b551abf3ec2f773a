(* Model of hypot and of the predicates of a fixed_size simd:
   /repo/experimental/bits/simd_math.h 951-979, 1092-1122 (hypot), 1333-1372
   (isfinite .. isunordered), on simd_fixed_size.h 506-551 (one call for every
   register), 567-580, 1705-1719, 1743-1768 (predicates).  Registers: Hypot.v and
   FloatBits.v; registers of one element call std:: functions (simd_scalar.h
   510-555).  The instructions t m, and the contraction c m the compiler
   chooses, depend on the size m of the register.  Not modelled: long double. *)
From Coq Require Import ZArith List Bool Arith.
From Verif Require Import Prelude X86Lanes BitMask Fixed FloatSpec FloatRoundSpec FloatBits FloatArith FloatRound Hypot.
Import ListNotations.
Local Open Scope nat_scope.

(* simd_math.h 965-972: hypot of the elements of one register of size m; with one
   element the result is broadcast.  None: isnormal does not compile *)
Definition hypot_elems (std_hypot : Z -> Z -> Z) (c : contraction) (t : ftarget) (f : fmt) (md : rmode)
  (m : nat) (x y : list Z) : option (list Z) :=
  if m =? 1 then Some [std_hypot (nth 0 x 0%Z) (nth 0 y 0%Z)]
  else hypot_reg c t f md (firstn m x) (firstn m y).

(* __data of the result of one register, simd_math.h 957-961; the lanes beyond the
   elements are not modelled (they are those of the first operand); the case None
   is excluded by per_register *)
Definition store_elems (r : option (list Z)) (m : nat) (x : list Z) : list Z :=
  match r with Some r => r ++ skipn m x | None => x end.

(* the further operands belonging to the first register;
   helper for simd_fixed_size.h 506-551 *)
Fixpoint per_register (G : nat -> list Z -> list (list Z) -> option (list Z)) (x : tuple Z) (more : list (tuple Z)) : bool :=
  match x with
  | [] => true
  | c :: r => match G (csize c) (creg c) (heads more) with Some _ => per_register G r (tails more) | None => false end
  end.
(* simd_math.h 951-963: __fixed_size_apply.  None: the call for one of the
   registers does not compile *)
Definition fixed_size_apply (G : nat -> list Z -> list (list Z) -> option (list Z)) (x : tuple Z) (more : list (tuple Z))
  : option (tuple Z) :=
  if per_register G x more
  then Some (apply_per_chunk (fun m reg regs => store_elems (G m reg regs) m reg) x more) else None.

(* simd_math.h 965-979, 1092-1099; one element: std::hypot, broadcast *)
Definition hypot_fixed (std_hypot : Z -> Z -> Z) (c : nat -> contraction) (t : nat -> ftarget) (f : fmt) (md : rmode)
  (x y : tuple Z) : option (tuple Z) :=
  if ssize (tshape x) =? 1 then
    match t_get x 0, t_get y 0 with
    | Some a, Some b => Some (fs_broadcast (tshape x) (std_hypot a b))
    | _, _ => None
    end
  else fixed_size_apply (fun m reg regs => hypot_elems std_hypot (c m) (t m) f md m reg (nth 0 regs [])) x [y].

(* simd_math.h 1103-1122, 1272-1278: three arguments; the general code is used for
   registers of one element and for fixed_size<1>, too *)
Definition hypot3_fixed (c : nat -> contraction) (fused : nat -> bool) (t : nat -> ftarget) (f : fmt) (md : rmode)
  (x y z : tuple Z) : option (tuple Z) :=
  fixed_size_apply (fun m reg regs =>
    hypot3_reg (c m) (fused m) (t m) f md (firstn m reg) (firstn m (nth 0 regs [])) (firstn m (nth 1 regs []))) x [y; z].

(* simd_math.h 1334-1365: the predicates of one argument *)
Inductive pred1 := P_isinf | P_isfinite | P_isnan | P_isnormal | P_signbit.
(* simd_fixed_size.h 1715-1719: __impl._S_isinf .. _S_signbit *)
Definition pred1_reg (p : pred1) (t : ftarget) (f : fmt) (m : nat) (x : list Z) : option (list bool) :=
  match p with
  | P_isinf => isinf_reg t f m x
  | P_isfinite => isfinite_reg t f m x
  | P_isnan => isnan_reg t f m x
  | P_isnormal => isnormal_reg t f m x
  | P_signbit => signbit_reg t f m x
  end.
(* simd_math.h 1367-1372: the predicates of two arguments *)
Inductive pred2 := P_ord (r : ordrel) | P_islessgreater | P_isunordered.
(* simd_fixed_size.h 1761-1766: __impl._S_isless .. _S_isunordered *)
Definition pred2_reg (p : pred2) (t : ftarget) (f : fmt) (m : nat) (x y : list Z) : option (list bool) :=
  match p with
  | P_ord r => ord_reg t r f m x y
  | P_islessgreater => islessgreater_reg t f m x y
  | P_isunordered => isunordered_reg t f m x y
  end.

(* simd_fixed_size.h 567-580: _M_test when the call for a register may not compile
   (None) *)
Fixpoint test_compiles (G : nat -> list Z -> list (list Z) -> option (list bool)) (x : tuple Z) (more : list (tuple Z)) : bool :=
  match x with
  | [] => true
  | c :: r => match G (csize c) (creg c) (heads more) with Some _ => test_compiles G r (tails more) | None => false end
  end.
(* simd_fixed_size.h 567-580 *)
Definition test_fixed (G : nat -> list Z -> list (list Z) -> option (list bool)) (x : tuple Z) (more : list (tuple Z))
  : option bitmask :=
  if test_compiles G x more
  then Some (t_test (fun m reg regs => match G m reg regs with Some k => k | None => [] end) x more) else None.

(* simd_fixed_size.h 1705-1719 *)
Definition pred1_fixed (std : pred1 -> Z -> bool) (p : pred1) (t : nat -> ftarget) (f : fmt) (x : tuple Z) : option bitmask :=
  test_fixed (fun m reg _ => if m =? 1 then Some (map (std p) reg) else pred1_reg p (t m) f m reg) x [].
(* simd_fixed_size.h 1743-1768 *)
Definition pred2_fixed (std : pred2 -> Z -> Z -> bool) (p : pred2) (t : nat -> ftarget) (f : fmt) (x y : tuple Z) : option bitmask :=
  test_fixed (fun m reg regs => if m =? 1 then Some (map (fun q => std p (fst q) (snd q)) (combine reg (nth 0 regs [])))
                                else pred2_reg p (t m) f m reg (nth 0 regs [])) x [y].
