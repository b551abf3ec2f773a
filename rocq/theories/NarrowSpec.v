(* Arithmetic types, their values, and when two values are the same number. *)
From Coq Require Import ZArith.
From Verif Require Import FloatSpec FloatRoundSpec ScalarSpec.
Open Scope Z_scope.

Inductive ftype := FFloat | FDouble | FLongDouble.
(* long double of the target: the same as double, the x87 extended format, or
   binary128.  The x87 format is given by its numbers (64 bits of precision, 15
   of exponent); its redundant explicit integer bit is left out. *)
Definition x87 : fmt := {| fw := 79; fp := 64 |}.
Definition binary128 : fmt := {| fw := 128; fp := 113 |}.
Definition long_double_fmt (l : fmt) : Prop := l = binary64 \/ l = x87 \/ l = binary128.
Definition format (l : fmt) (t : ftype) : fmt :=
  match t with FFloat => binary32 | FDouble => binary64 | FLongDouble => l end.

(* bool, the integer types by width and signedness, the floating-point types *)
Inductive aty := ABool | AInt (t : ity) | AFloat (t : ftype).
Definition aty_ok (t : aty) : Prop := match t with AInt t => std_type t | _ => True end.

(* The values of a type: 0 and 1; the integers of the type; the bit patterns of
   the format *)
Definition valid (l : fmt) (t : aty) (v : Z) : Prop :=
  match t with
  | ABool => v = 0 \/ v = 1
  | AInt t => has t v
  | AFloat t => pattern (format l t) v
  end.

(* NaN, an infinity or n / 2^k; the sign of zero is kept apart *)
Inductive number := NotANumber | Infinite (neg : bool) | Fraction (n k : Z).
Definition number_of (l : fmt) (t : aty) (v : Z) : number :=
  match t with
  | ABool | AInt _ => Fraction v 0
  | AFloat t =>
      match decode (format l t) v with
      | DNaN => NotANumber
      | DInf s => Infinite s
      | DFin s m => Fraction (num s m) (unit (format l t))
      end
  end.
Definition same_number (a b : number) : Prop :=
  match a, b with
  | NotANumber, NotANumber => True
  | Infinite s, Infinite t => s = t
  | Fraction n k, Fraction m j => n * 2 ^ j = m * 2 ^ k
  | _, _ => False
  end.
(* the value v of type t is also a value of type u *)
Definition representable (l : fmt) (t : aty) (v : Z) (u : aty) : Prop :=
  exists w, valid l u w /\ same_number (number_of l t v) (number_of l u w).
(* the element type is unsigned (bool counts as well, [meta.unary.prop], but is no
   element type) *)
Definition unsigned_elem (t : aty) : Prop :=
  match t with ABool => True | AInt t => isg t = false | AFloat _ => False end.
