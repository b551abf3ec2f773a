(* IEEE-754 binary interchange formats, written down without reference to the
   library.  A datum is NaN, an infinity, or a finite number; finite numbers
   are counted in units of the smallest positive number of the format (2^-149
   for binary32, 2^-1074 for binary64), so that every finite number is an
   integer and sums and comparisons of numbers are sums and comparisons of
   integers. *)
From Coq Require Import ZArith List Bool.
Open Scope Z_scope.

(* the format: total bits and bits of precision (numeric_limits::digits) *)
Record fmt := { fw : Z; fp : Z }.
Definition binary32 : fmt := {| fw := 32; fp := 24 |}.
Definition binary64 : fmt := {| fw := 64; fp := 53 |}.
(* bits of the stored significand and of the exponent; exponent bias *)
Definition mb (f : fmt) : Z := fp f - 1.
Definition eb (f : fmt) : Z := fw f - fp f.
Definition bias (f : fmt) : Z := 2 ^ (eb f - 1) - 1.
(* formats that make sense: at least two bits of significand, and the integers
   up to 2^(p+1) are normal numbers with room to spare *)
Definition fmt_ok (f : fmt) : Prop := 2 <= fp f /\ 2 <= eb f /\ fp f + 3 <= bias f.

(* bit patterns *)
Definition pattern (f : fmt) (n : Z) : Prop := 0 <= n < 2 ^ fw f.

Inductive datum := DNaN | DInf (s : bool) | DFin (s : bool) (m : Z).

(* IEEE 754-2008 3.4: the datum of a bit pattern *)
Definition sign_of (f : fmt) (n : Z) : bool := Z.odd (n / 2 ^ (fw f - 1)).
Definition exp_of (f : fmt) (n : Z) : Z := (n / 2 ^ mb f) mod 2 ^ eb f.
Definition frac_of (f : fmt) (n : Z) : Z := n mod 2 ^ mb f.
Definition decode (f : fmt) (n : Z) : datum :=
  let s := sign_of f n in
  let e := exp_of f n in
  let t := frac_of f n in
  if e =? 2 ^ eb f - 1 then (if t =? 0 then DInf s else DNaN)
  else if e =? 0 then DFin s t
  else DFin s ((2 ^ mb f + t) * 2 ^ (e - 1)).

(* the number a finite datum stands for *)
Definition num (s : bool) (m : Z) : Z := if s then - m else m.

(* IEEE 754-2008 5.11: comparison; None is "unordered" *)
Definition ieee_compare (x y : datum) : option comparison :=
  match x, y with
  | DNaN, _ | _, DNaN => None
  | DInf a, DInf b => Some (if Bool.eqb a b then Eq else if a then Lt else Gt)
  | DInf a, DFin _ _ => Some (if a then Lt else Gt)
  | DFin _ _, DInf b => Some (if b then Gt else Lt)
  | DFin a m, DFin b k => Some (num a m ?= num b k)
  end.

(* IEEE 754-2008 5.7.2 and C 7.12.3: the class of a datum *)
Inductive fclass := CNan | CInfinite | CZero | CSubnormal | CNormal.
Definition class_of (f : fmt) (x : datum) : fclass :=
  match x with
  | DNaN => CNan
  | DInf _ => CInfinite
  | DFin _ m => if m =? 0 then CZero else if m <? 2 ^ mb f then CSubnormal else CNormal
  end.
(* the values of the FP_ macros on the platforms of the library (glibc) *)
Definition fp_macro (c : fclass) : Z :=
  match c with CNan => 0 | CInfinite => 1 | CZero => 2 | CSubnormal => 3 | CNormal => 4 end.

(* C 7.12.14: the comparison macros *)
Definition greater (x y : datum) : bool := match ieee_compare x y with Some Gt => true | _ => false end.
Definition greater_equal (x y : datum) : bool := match ieee_compare x y with Some Gt | Some Eq => true | _ => false end.
Definition less (x y : datum) : bool := match ieee_compare x y with Some Lt => true | _ => false end.
Definition less_equal (x y : datum) : bool := match ieee_compare x y with Some Lt | Some Eq => true | _ => false end.
Definition less_greater (x y : datum) : bool := match ieee_compare x y with Some Lt | Some Gt => true | _ => false end.
Definition unordered (x y : datum) : bool := match ieee_compare x y with None => true | _ => false end.

(* C 7.12.3: the classification macros *)
Definition is_nan (f : fmt) (x : datum) : bool := match class_of f x with CNan => true | _ => false end.
Definition is_inf (f : fmt) (x : datum) : bool := match class_of f x with CInfinite => true | _ => false end.
Definition is_finite (f : fmt) (x : datum) : bool := match class_of f x with CNan | CInfinite => false | _ => true end.
Definition is_normal (f : fmt) (x : datum) : bool := match class_of f x with CNormal => true | _ => false end.
