(* Vocabulary for the fixed_size properties, independent of how the library
   walks over registers. *)
From Coq Require Import List Arith Bool.
From Verif Require Import Prelude Fixed.
Import ListNotations.

(* Registers are filled one after the other: only the last one may have unused
   lanes. *)
Fixpoint dense (s : shape) : Prop :=
  match s with
  | [] => True
  | (n, l) :: r => 1 <= n /\ n <= l /\ (r <> [] -> n = l) /\ dense r
  end.

(* the register has at least as many lanes as elements *)
Definition chunk_ok {A} (c : chunk A) : Prop := csize c <= length (creg c).

(* A register-level function computes f element by element on the n active
   lanes (it may do anything on the other lanes); the first operand and a pack
   of further operands. *)
Definition lanewise {A} (f : A -> list A -> A)
    (F : nat -> list A -> list (list A) -> list A) : Prop :=
  forall n reg regs, n <= length reg -> Forall (fun r => length r = length reg) regs ->
    length (F n reg regs) = length reg /\
    forall i d, i < n -> nth i (F n reg regs) d
                         = f (nth i reg d) (map (fun r => nth i r d) regs).

(* the same for a predicate *)
Definition lanewise_pred {A} (f : A -> list A -> bool)
    (F : nat -> list A -> list (list A) -> list bool) : Prop :=
  forall n reg regs, n <= length reg -> Forall (fun r => length r = length reg) regs ->
    n <= length (F n reg regs) /\
    forall i d, i < n -> nth i (F n reg regs) false
                         = f (nth i reg d) (map (fun r => nth i r d) regs).

(* with one more operand of another element type, which is also an output *)
Definition lanewise_mixed {A B} (f : A -> list A -> B -> A) (g : A -> list A -> B -> B)
    (F : nat -> list A -> list (list A) -> tuple B -> list A * tuple B) : Prop :=
  forall n reg regs arg, n <= length reg -> Forall (fun r => length r = length reg) regs ->
    dense (tshape arg) -> length (telems arg) = n ->
    length (fst (F n reg regs arg)) = length reg /\
    tshape (snd (F n reg regs arg)) = tshape arg /\
    forall i d e, i < n ->
      nth i (fst (F n reg regs arg)) d
      = f (nth i reg d) (map (fun r => nth i r d) regs) (nth i (telems arg) e) /\
      nth i (telems (snd (F n reg regs arg))) e
      = g (nth i reg d) (map (fun r => nth i r d) regs) (nth i (telems arg) e).

(* masked register operations: element i is op'ed iff the mask's element i *)
Definition lanewise_masked2 {A} (f : A -> A -> A)
    (F : nat -> list bool -> list A -> list A -> list A) : Prop :=
  forall n k a b, n <= length a -> length b = length a -> length k = n ->
    length (F n k a b) = length a /\
    forall i d, i < n -> nth i (F n k a b) d
                         = if nth i k false then f (nth i a d) (nth i b d) else nth i a d.
Definition lanewise_masked1 {A S} (f : A -> S -> A)
    (F : nat -> list bool -> list A -> S -> list A) : Prop :=
  forall n k a s, n <= length a -> length k = n ->
    length (F n k a s) = length a /\
    forall i d, i < n -> nth i (F n k a s) d
                         = if nth i k false then f (nth i a d) s else nth i a d.

(* x is an object of type __fixed_size_storage_t<t, n> (the data member of
   simd<t, fixed_size<n>>), for a size the library supports on this target *)
From Verif Require Import Abi AbiSpec.
Definition fixed_size_type (I : isa) (t : elem) (n : nat) : Prop :=
  arch_ok I /\ elem_ok t /\ 1 <= n <= max_fixed_size I t.
Definition is_fixed {A} (I : isa) (t : elem) (n : nat) (x : tuple A) : Prop :=
  storage_shape I t n = Some (tshape x).

(* the objects xs have elements vs at index i *)
Definition elements_at {A} (i : nat) (xs : list (tuple A)) (vs : list A) : Prop :=
  map (fun x => t_get x i) xs = map Some vs.

(* float, double, long double *)
Definition fp_elem (t : elem) : bool := match t with TInt _ => false | _ => true end.
(* int (4 bytes), long (4 or 8 bytes) *)
Definition int_elem (t : elem) : bool := match t with TInt b => (b =? 4) || (b =? 8) | _ => false end.
(* the combination for which __fixed_size_storage_t<int, 2> is larger than two
   ints while double comes in registers of two: i386 with SSE2 and without AVX *)
Definition narrow_exception (I : isa) (t u : elem) : bool :=
  def_i386 I && have_sse2 I && negb (have_avx I) && (esize t =? 8) && (esize u =? 4).
