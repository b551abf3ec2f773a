(* Two runs that differ in the padding lanes only. *)
From Coq Require Import List ZArith Bool Arith.
From Verif Require Import Prelude MaskSpec KMask X86Lanes X86ShiftSpec X86Mask X86MaskSpec Padding.
Import ListNotations.
Local Open Scope Z_scope.

(* the same number of lanes, the same first n lanes *)
Definition agree (n : nat) (x x' : list Z) : Prop :=
  length x = length x' /\ forall i, (i < n)%nat -> nth i x 0 = nth i x' 0.

(* F keeps the padding apart: its first n lanes depend on the first n lanes of
   its operands only *)
Definition padding_safe (w : Z) (lanes n : nat) (F : list Z -> list Z -> list Z) : Prop :=
  forall x x' y y', register w lanes x -> register w lanes x' -> register w lanes y -> register w lanes y' ->
    agree n x x' -> agree n y y' -> register w lanes (F x y) /\ agree n (F x y) (F x' y').

(* a bit mask k whose first n bits are l; the other bits of the word are anything *)
Definition bits_hold (n : nat) (k : Z) (l : list bool) : Prop :=
  0 <= k < 2 ^ Z.of_nat (kw n) /\ length l = n /\
  forall i, (i < n)%nat -> Z.testbit k (Z.of_nat i) = nth i l false.

(* well-formed programs: constants are numbers of w bits, subscripts are below
   the size, and the library's register algorithms keep the padding apart *)
Fixpoint vx_ok (w : Z) (lanes n : nat) (e : vx) : Prop :=
  match e with
  | VIn _ => True
  | VBroadcast a => 0 <= a < 2 ^ w
  | VLane1 _ a => vx_ok w lanes n a
  | VLane2 _ a b | VDivU a b | VRemU a b => vx_ok w lanes n a /\ vx_ok w lanes n b
  | VAlg F a b => padding_safe w lanes n F /\ vx_ok w lanes n a /\ vx_ok w lanes n b
  | VSet a i v => vx_ok w lanes n a /\ (i < n)%nat /\ 0 <= v < 2 ^ w
  | VBlend k a b => mx_ok w lanes n k /\ vx_ok w lanes n a /\ vx_ok w lanes n b
  end
with mx_ok (w : Z) (lanes n : nat) (e : mx) : Prop :=
  match e with
  | MIn _ | MBroadcast _ => True
  | MCompare _ a b | MIntNe a b => vx_ok w lanes n a /\ vx_ok w lanes n b
  | MNot k => mx_ok w lanes n k
  | MAnd j k | MOr j k | MXor j k => mx_ok w lanes n j /\ mx_ok w lanes n k
  | MSet k i _ => mx_ok w lanes n k /\ (i < n)%nat
  | MAssign k a b => mx_ok w lanes n k /\ mx_ok w lanes n a /\ mx_ok w lanes n b
  end.

(* inputs of two runs: the same elements, any padding *)
Definition same_values (w : Z) (lanes n : nat) (ve ve' : nat -> list Z) : Prop :=
  forall j, register w lanes (ve j) /\ register w lanes (ve' j) /\ agree n (ve j) (ve' j).
Definition same_masks {M} (sees : M -> list bool -> Prop) (me me' : nat -> M) : Prop :=
  forall j, exists l, sees (me j) l /\ sees (me' j) l.

(* two results: both undefined, or related *)
Definition both {A} (R : A -> A -> Prop) (a b : option A) : Prop :=
  match a, b with Some x, Some y => R x y | None, None => True | _, _ => False end.

(* one lane of a blend: lane 0 selects a, a lane of ones selects b; for another
   selector (padding) any number of w bits *)
Definition selects (s : shape) (sel : Z -> Z -> Z -> Z) : Prop :=
  forall m a b, 0 <= m < 2 ^ lw s -> 0 <= a < 2 ^ lw s -> 0 <= b < 2 ^ lw s ->
    sel 0 a b = a /\ sel (ones s) a b = b /\ 0 <= sel m a b < 2 ^ lw s.

(* every reduction of the mask gives the same result for both registers: x86
   with any instruction sets f, the packs path of _S_to_bits or not, and the
   generic code *)
Definition same_reductions (s : shape) (k k' : list Z) : Prop :=
  forall f packs,
    x86_all_of f s k = x86_all_of f s k' /\ x86_any_of f s k = x86_any_of f s k' /\
    x86_none_of f s k = x86_none_of f s k' /\ x86_some_of f s k = x86_some_of f s k' /\
    x86_popcount f s k = x86_popcount f s k' /\ x86_to_bits packs s k = x86_to_bits packs s k' /\
    x86_find_first_set packs s k = x86_find_first_set packs s k' /\
    x86_find_last_set packs s k = x86_find_last_set packs s k' /\
    base_all_of s k = base_all_of s k' /\ base_any_of s k = base_any_of s k' /\
    base_none_of s k = base_none_of s k' /\ base_some_of s k = base_some_of s k' /\
    base_popcount s k = base_popcount s k'.
(* bit masks: all but find_last_set; find_first_set requires a true element *)
Definition same_bit_reductions (n : nat) (k k' : Z) : Prop :=
  forall dq,
    k_all_of dq n k = k_all_of dq n k' /\ k_any_of n k = k_any_of n k' /\
    k_none_of n k = k_none_of n k' /\ k_some_of dq n k = k_some_of dq n k' /\
    k_popcount n k = k_popcount n k' /\ k_to_bits n k = k_to_bits n k' /\
    (k_any_of n k = true -> k_find_first_set n k = k_find_first_set n k').
