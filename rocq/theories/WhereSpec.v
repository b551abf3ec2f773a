(* What where(mask, v) op= y is supposed to do (ISO/IEC TS 19570:2018
   [simd.whereexpr]): element i becomes the result of the operation if the mask is
   true at i and keeps its value otherwise. *)
From Coq Require Import List ZArith Bool.
From Verif Require Import KMaskSpec X86Mask X86MaskSpec Where.
Import ListNotations.
Local Open Scope nat_scope.

(* a register of the shape s: its lanes are numbers of that width *)
Definition register (s : shape) (v : list Z) : Prop :=
  length v = st s /\ forall i, i < st s -> (0 <= nth i v 0 < 2 ^ (8 * Z.of_nat (sz s)))%Z.
(* element i of res is element i of new where the mask is true, of old elsewhere *)
Definition replaced (n : nat) (k : list bool) (old new res : list Z) : Prop :=
  forall i, i < n -> nth i res 0%Z = if nth i k false then nth i new 0%Z else nth i old 0%Z.
(* registers are large enough for the elements *)
Definition where_shape (s : shape) : Prop := 1 <= sz s /\ 1 <= sn s <= st s.
(* the mask k consists of the booleans l.  What the padding lanes or the bits beyond
   them hold does not matter *)
Definition means (s : shape) (k : wmask) (l : list bool) : Prop :=
  match k with
  | VMask x => holds s x l
  | BMask w => size_ok (sn s) /\ length l = sn s /\ forall i, i < sn s -> Z.testbit w (Z.of_nat i) = nth i l false
  end.
(* the instructions that there are for a lane size: pblendvb for all, blendvps for
   lanes of at least 4 bytes, blendvpd for lanes of 8 bytes *)
Definition style_ok (y : style) (s : shape) : Prop :=
  match y with
  | Signs g => g = 8%Z \/ (g = 32%Z /\ (sz s = 4 \/ sz s = 8)) \/ (g = 64%Z /\ sz s = 8)
  | ToBits _ => shape_ok s
  | _ => True
  end.
(* the number that a lane of w bits represents *)
Definition number (signed : bool) (w x : Z) : Z :=
  (if signed then if x <? 2 ^ (w - 1) then x else x - 2 ^ w else x)%Z.
(* an integer operation with the mathematical result v does not overflow: all results
   do for unsigned types, which wrap around *)
Definition no_overflow (signed : bool) (w v : Z) : Prop :=
  signed = true -> (- 2 ^ (w - 1) <= v < 2 ^ (w - 1))%Z.
(* the lane r is the result of an integer operation *)
Definition result_of (signed : bool) (w v r : Z) : Prop :=
  (0 <= r < 2 ^ w)%Z /\ number signed w r = if signed then v else (v mod 2 ^ w)%Z.
(* both masks are of the same kind *)
Definition same_kind (a b : wmask) : Prop :=
  match a, b with VMask _, VMask _ | BMask _, BMask _ => True | _, _ => False end.
