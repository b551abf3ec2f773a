(* Vocabulary for the cast properties. *)
From Coq Require Import List Arith.
From Verif Require Import Prelude.
Import ListNotations.

(* What is assumed of the x86 conversion intrinsics (simd_x86_conversions.h):
   converting a power-of-two number of equally long registers into a register
   with full lanes converts lane by lane, in order, as far as there are source
   and destination lanes; other lanes are arbitrary. *)
Definition converts_registers {A B} (cast : A -> B) (cx86 : nat -> list (list A) -> list B) : Prop :=
  forall full l k xs, 1 <= full -> length xs = 2 ^ k -> Forall (fun x => length x = l) xs ->
    length (cx86 full xs) = full /\
    forall i d e, i < full -> i < length (concat xs) -> nth i (cx86 full xs) e = cast (nth i (concat xs) d).

(* What is assumed of the SSE2 unpack sequences (simd_builtin.h 591-757): from a
   register of n elements they fill as many registers as have all their lanes
   used, in order. *)
Definition unpacks_registers {A B} (cast : A -> B) (unpack : nat -> nat -> list A -> list (list B)) : Prop :=
  forall n lanes reg, n <= length reg -> 1 <= lanes ->
    length (unpack n lanes reg) = n / lanes /\
    Forall (fun r => length r = lanes) (unpack n lanes reg) /\
    concat (unpack n lanes reg) = map cast (firstn (n / lanes * lanes) reg).

(* simd<t, a> is a type the library offers on this target, and x is the data of
   such an object *)
From Verif Require Import Abi AbiSpec Fixed Convert.
Definition simd_type (I : isa) (t : elem) (a : abi) : Prop :=
  arch_ok I /\ elem_ok t /\ abi_valid I t a = true.
Definition is_simd {A} (I : isa) (t : elem) (a : abi) (x : tuple A) : Prop :=
  simd_shape I t a = Some (tshape x).
