(* Programs over simd values and masks that are kept in one register, evaluated
   on all lanes of the registers including the padding lanes:
   _SimdImplBuiltin and _MaskImplBuiltin (experimental/bits/simd_builtin.h) for
   vector masks, and the AVX-512 bit masks of KMask.v.

   A lane is the unsigned value of its w bits.  GNU vector operators and the
   instructions behind them work lane by lane, on the padding lanes too. *)
From Coq Require Import List ZArith Bool Arith.
From Verif Require Import Prelude MaskSpec KMask X86Lanes X86Div IntDiv X86Mask.
Import ListNotations.
Local Open Scope Z_scope.

(* The operations of a mask representation M.
   c_bcast: simd_mask(b); c_cmp l: the result of a comparison whose lanes are l;
   c_intne l: integer x != y where l are the lanes that are equal;
   c_assign k a b: where(k, a) = b; c_blend: the same for simd values;
   helper for simd_builtin.h 1364-1370, simd_x86.h 701-758 *)
Record mops (M : Type) := {
  c_bcast : bool -> M;
  c_cmp : list bool -> M;
  c_intne : list bool -> M;
  c_not : M -> M;
  c_and : M -> M -> M;
  c_or : M -> M -> M;
  c_xor : M -> M -> M;
  c_set : M -> nat -> bool -> M;
  c_assign : M -> M -> M -> M;
  c_blend : M -> list Z -> list Z -> list Z }.
Arguments c_bcast {M}. Arguments c_cmp {M}. Arguments c_intne {M}. Arguments c_not {M}.
Arguments c_and {M}. Arguments c_or {M}. Arguments c_xor {M}. Arguments c_set {M}.
Arguments c_assign {M}. Arguments c_blend {M}.

(* Vector masks.  sel m a b is one lane of _S_blend: m ? b : a
   (simd_builtin.h 1364-1370), a blendv on the sign bit, or and/andnot/or
   (simd_x86.h 701-758) *)
Definition lane_bool (s : shape) (b : bool) : Z := if b then ones s else 0.
(* simd_builtin.h 2809-2818: _S_bit_not *)
Definition vec_not (s : shape) (x : list Z) : list Z :=
  if (sn s <? st s)%nat then map2 (fun a m => Z.land (Z.lnot a) m) x (vec_implicit s)
  else map (fun a => ones s - a) x.
(* simd_builtin.h 2809-2818 *)
Definition vec_mops (s : shape) (sel : Z -> Z -> Z -> Z) : mops (list Z) := {|
  c_bcast b := if b then vec_implicit s else repeat 0 (st s);        (* 2660-2667 *)
  c_cmp l := map (lane_bool s) l;                                    (* 1734-1757 *)
  c_intne l := map (fun b => lane_bool s (negb b)) l;                (* 1740-1744 *)
  c_not := vec_not s;
  c_and := map2 Z.land;                                              (* 2797-2801, 2820-2824 *)
  c_or := map2 Z.lor;                                                (* 2803-2807, 2826-2830 *)
  c_xor := map2 Z.lxor;                                              (* 2832-2836 *)
  c_set x i b := upd x i (lane_bool s b);                            (* 2838-2862 *)
  c_assign := map3 sel;                                              (* 2864-2870 *)
  c_blend := map3 sel |}.                                            (* 2454-2465 *)

(* AVX-512 bit masks: the operations of KMask.v; vpblendm takes bit i for lane i
   (simd_x86.h 617-700) *)
Definition bits_blend (k : Z) (a b : list Z) : list Z :=
  map3 (fun (i : nat) v0 v1 => if k_get k i then v1 else v0) (seq 0 (length a)) a b.
(* simd_x86.h 617-700 *)
Definition bit_mops (n : nat) : mops Z := {|
  c_bcast := k_broadcast n;
  c_cmp := k_compare n;
  c_intne := k_int_not_equal n;
  c_not := k_not n;
  c_and := k_and n;
  c_or := k_or n;
  c_xor := k_xor n;
  c_set := k_set n;
  c_assign := k_assign n;
  c_blend := bits_blend |}.

(* Programs.  VLane1, VLane2: operators that are one lane-wise instruction
   (+, -, *, &, |, ^, ~, unary minus, shifts, ++, min, max:
   simd_builtin.h 1634-1664, 1689-1731, 1764-1780, 2437-2446), with results
   reduced to w bits.  VAlg F: an operator that the library computes with several
   instructions on the whole register (8-bit multiplication, shifts, division by
   way of floating point on x86).  VDivU, VRemU: unsigned / and % by
   simd_builtin.h 1667-1688.  VBlend k a b: where(k, a) = b. *)
Inductive vx : Type :=
| VIn (j : nat)
| VBroadcast (a : Z)
| VLane1 (f : Z -> Z) (a : vx)
| VLane2 (f : Z -> Z -> Z) (a b : vx)
| VAlg (F : list Z -> list Z -> list Z) (a b : vx)
| VDivU (a b : vx)
| VRemU (a b : vx)
| VSet (a : vx) (i : nat) (v : Z)
| VBlend (k : mx) (a b : vx)
with mx : Type :=
| MIn (j : nat)
| MBroadcast (b : bool)
| MCompare (f : Z -> Z -> bool) (a b : vx)
| MIntNe (a b : vx)
| MNot (k : mx)
| MAnd (j k : mx)
| MOr (j k : mx)
| MXor (j k : mx)
| MSet (k : mx) (i : nat) (b : bool)
| MAssign (k a b : mx).

(* simd_builtin.h 1634-1664, 1689-1731, 1764-1780, 2437-2446, 1667-1688 *)
Definition opt2 {A B C} (f : A -> B -> option C) (a : option A) (b : option B) : option C :=
  match a, b with Some x, Some y => f x y | _, _ => None end.

(* Evaluation.  w: bits of an element; n elements in registers of `lanes` lanes;
   bitmask selects __make_padding_nonzero; ve, me: the input registers.
   None: undefined behaviour (a division by zero). *)
Section Eval.
  Context {M : Type} (C : mops M) (bitmask : bool) (w : Z) (n lanes : nat).
  Context (ve : nat -> list Z) (me : nat -> M).
  Fixpoint v_eval (e : vx) : option (list Z) :=
    match e with
    | VIn j => Some (ve j)
    | VBroadcast a => Some (repeat a lanes)
    | VLane1 f a => option_map (map (fun v => uns w (f v))) (v_eval a)
    | VLane2 f a b => opt2 (fun x y => Some (map2 (fun v u => uns w (f v u)) x y)) (v_eval a) (v_eval b)
    | VAlg F a b => opt2 (fun x y => Some (F x y)) (v_eval a) (v_eval b)
    | VDivU a b => opt2 (base_divides false bitmask w n) (v_eval a) (v_eval b)
    | VRemU a b => opt2 (base_modulus false bitmask w n) (v_eval a) (v_eval b)
    | VSet a i v => option_map (fun x => upd x i v) (v_eval a)
    | VBlend k a b =>
        match m_eval k with
        | Some m => opt2 (fun x y => Some (c_blend C m x y)) (v_eval a) (v_eval b)
        | None => None
        end
    end
  with m_eval (e : mx) : option M :=
    match e with
    | MIn j => Some (me j)
    | MBroadcast b => Some (c_bcast C b)
    | MCompare f a b => opt2 (fun x y => Some (c_cmp C (map2 f x y))) (v_eval a) (v_eval b)
    | MIntNe a b => opt2 (fun x y => Some (c_intne C (map2 Z.eqb x y))) (v_eval a) (v_eval b)
    | MNot k => option_map (c_not C) (m_eval k)
    | MAnd j k => opt2 (fun x y => Some (c_and C x y)) (m_eval j) (m_eval k)
    | MOr j k => opt2 (fun x y => Some (c_or C x y)) (m_eval j) (m_eval k)
    | MXor j k => opt2 (fun x y => Some (c_xor C x y)) (m_eval j) (m_eval k)
    | MSet k i b => option_map (fun m => c_set C m i b) (m_eval k)
    | MAssign k a b =>
        match m_eval k with
        | Some m => opt2 (fun x y => Some (c_assign C m x y)) (m_eval a) (m_eval b)
        | None => None
        end
    end.
End Eval.

(* One lane of _S_blend.  m ? b : a of GNU vectors looks at the whole lane of m;
   blendvps, blendvpd and pblendvb look at the top bit of every g bits of m (g =
   32, 64, 8; simd_x86.h 617-700, 701-758), and/andnot/or at every bit (g = 1). *)
Definition sel_lane (m a b : Z) : Z := if m =? 0 then a else b.
(* simd_x86.h 617-700, 701-758 *)
Definition sel_bits (g w : nat) (m a b : Z) : Z :=
  of_lanes (map (fun j => if Z.testbit m (Z.of_nat (j / g * g + (g - 1))) then Z.testbit b (Z.of_nat j)
                          else Z.testbit a (Z.of_nat j)) (seq 0 w)).
