(* What the comparison operators return ([simd.comparison]): element i of x op y is
   x[i] op y[i]. *)
From Coq Require Import ZArith List Bool.
From Verif Require Import FloatSpec X86Mask WhereSpec Compare.
Import ListNotations.
Local Open Scope Z_scope.

(* integers a op b *)
Definition int_truth (r : relop) (a b : Z) : bool :=
  match r with
  | REqual => a =? b | RNotEqual => negb (a =? b)
  | RLessThan => a <? b | RLessOrEqual => a <=? b
  | RGreaterThan => b <? a | RGreaterOrEqual => b <=? a
  end.
(* IEEE 754: with a NaN, only != is true *)
Definition float_truth (r : relop) (c : option comparison) : bool :=
  match r, c with
  | REqual, Some Eq => true
  | RNotEqual, Some Eq => false
  | RNotEqual, _ => true
  | RLessThan, Some Lt => true
  | RLessOrEqual, Some (Lt | Eq) => true
  | RGreaterThan, Some Gt => true
  | RGreaterOrEqual, Some (Gt | Eq) => true
  | _, _ => false
  end.
Definition truth (r : relop) (e : celem) (size : nat) (x y : Z) : bool :=
  match e with
  | CInt sg => int_truth r (number sg (8 * Z.of_nat size) x) (number sg (8 * Z.of_nat size) y)
  | CFloat => float_truth r (ieee_compare (decode (if (size =? 4)%nat then binary32 else binary64) x) (decode (if (size =? 4)%nat then binary32 else binary64) y))
  end.
Definition truths (r : relop) (e : celem) (s : shape) (x y : list Z) : list bool :=
  map (fun i => truth r e (sz s) (nth i x 0) (nth i y 0)) (seq 0 (sn s)).
(* element types *)
Definition elem_ok (e : celem) (size : nat) : Prop :=
  match e with CFloat => size = 4%nat \/ size = 8%nat | CInt _ => size = 1%nat \/ size = 2%nat \/ size = 4%nat \/ size = 8%nat end.
(* AVX-512 registers *)
Definition zmm_shape (s : shape) : Prop :=
  ((rl s * sz s = 16 \/ rl s * sz s = 32 \/ rl s * sz s = 64) /\ 2 <= sn s <= st s /\ st s <= rl s)%nat.
(* !x: which elements are zero; -0. is *)
Definition is_zero (e : celem) (size : nat) (x : Z) : bool :=
  match e with
  | CInt _ => x =? 0
  | CFloat => match decode (if (size =? 4)%nat then binary32 else binary64) x with DFin _ m => m =? 0 | _ => false end
  end.
Definition zeros (e : celem) (s : shape) (x : list Z) : list bool :=
  map (fun i => is_zero e (sz s) (nth i x 0)) (seq 0 (sn s)).
