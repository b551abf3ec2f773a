(* Model of frexp and logb of a fixed_size simd:
   /repo/experimental/bits/simd_math.h 639-655, 749-764, simd_fixed_size.h
   1081-1157 (__autocvt_to_simd), 1690-1703 (_S_frexp).  The registers' frexp
   and logb are those of FloatMath.v; [std_frexp] and [std_logb] are std::frexp
   and std::logb.  Not modelled: the lanes of a register beyond its size (they
   are carried over), long double, __FINITE_MATH_ONLY__. *)
From Coq Require Import ZArith List Bool Arith.
From Verif Require Import Prelude X86Lanes Fixed FloatSpec FloatRoundSpec FloatBits FloatMath MathCall.
Import ListNotations.
Local Open Scope nat_scope.

Section Calls.
Context (std_frexp : Z -> Z * Z) (std_logb : Z -> Z).

(* *__exp = ... of the elements ks (simd_math.h 664, 693-694, 731), __exp points
   to the object arg (simd_fixed_size.h 1117-1122).  Simplified: element by
   element, the code stores a vector *)
Definition store_ints (arg : tuple Z) (m : nat) (ks : list Z) : tuple Z :=
  fold_left (fun z i => z_set z i (nth i ks 0%Z)) (seq 0 m) arg.

(* simd_math.h 639-732: frexp of the simd in a chunk of m elements, reg are its
   lanes; with one element 643-649: the result is broadcast (650), element 0 of *__exp
   is assigned.  None: does not compile *)
Definition frexp_elems (avx : bool) (t : ftarget) (f : fmt) (md : rmode) (m : nat) (reg : list Z)
  : option (list (Z * Z)) :=
  if m =? 1 then Some [std_frexp (nth 0 reg 0%Z)]
  else frexp_reg avx t f md (firstn m reg).
(* simd_math.h 639-732: the returned register and *__exp *)
Definition frexp_chunk (avx : bool) (t : ftarget) (f : fmt) (md : rmode) (m : nat) (reg : list Z)
    (arg : tuple Z) : list Z * tuple Z :=
  match frexp_elems avx t f md m reg with
  | Some rs =>
      (if m =? 1 then repeat (fst (nth 0 rs (0, 0)%Z)) (length reg) else map fst rs ++ skipn m reg,
       store_ints arg m (map snd rs))
  | None => (reg, arg)
  end.

(* simd_fixed_size.h 1690-1703: _S_frexp; st is the partition of
   __fixed_size_storage_t<int, n>; None: does not compile or undefined *)
Definition s_frexp (avx : bool) (t : ftarget) (f : fmt) (md : rmode) (pad : Z) (st : nat -> option shape)
    (x : tuple Z) (e : tuple Z) : option (tuple Z * tuple Z) :=
  if forallb (fun c => match frexp_elems avx t f md (csize c) (creg c) with Some _ => true | None => false end) x
  then apply_mixed pad true st (fun m reg _ arg => frexp_chunk avx t f md m reg arg) x [] (view_of e)
  else None.
(* simd_math.h 639-655: frexp(const simd<_Tp, fixed_size<n>>& __x, fixed_size_simd<int, n>* __exp) *)
Definition frexp_fixed (avx : bool) (t : ftarget) (f : fmt) (md : rmode) (pad : Z) (st : nat -> option shape)
    (x : tuple Z) (e : tuple Z) : option (tuple Z * tuple Z) :=
  if ssize (tshape x) =? 1 then
    match t_get x 0 with
    | Some a => let (r, tmp) := std_frexp a in Some (fs_broadcast (tshape x) r, z_set e 0 tmp)
    | None => None
    end
  else s_frexp avx t f md pad st x e.

(* simd_math.h 749-828: logb of the simd in a chunk of m elements; instr m says
   that a vgetexp branch (766-787) is taken for this size *)
Definition logb_elems (instr : nat -> bool) (t : ftarget) (f : fmt) (md : rmode) (m : nat) (reg : list Z)
  : option (list Z) :=
  if m =? 1 then Some [std_logb (nth 0 reg 0%Z)]
  else logb_reg (instr m) t f md (firstn m reg).
(* simd_math.h 749-828: the returned register *)
Definition logb_chunk (instr : nat -> bool) (t : ftarget) (f : fmt) (md : rmode) (m : nat) (reg : list Z)
  : list Z :=
  match logb_elems instr t f md m reg with
  | Some rs => if m =? 1 then repeat (nth 0 rs 0%Z) (length reg) else rs ++ skipn m reg
  | None => reg
  end.
(* simd_math.h 749-764: logb of a fixed_size simd *)
Definition logb_fixed (instr : nat -> bool) (t : ftarget) (f : fmt) (md : rmode) (x : tuple Z)
  : option (tuple Z) :=
  if ssize (tshape x) =? 1 then
    option_map (fun a => fs_broadcast (tshape x) (std_logb a)) (t_get x 0)
  else if forallb (fun c => match logb_elems instr t f md (csize c) (creg c) with Some _ => true | None => false end) x
  then Some (apply_per_chunk (fun m reg _ => logb_chunk instr t f md m reg) x [])
  else None.
End Calls.
