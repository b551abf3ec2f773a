(* What a program over masks of N elements means: N booleans.  Nothing here
   refers to words, bits or unused bits. *)
From Coq Require Import List ZArith Bool Arith.
From Verif Require Import Prelude MaskSpec KMask.
Import ListNotations.

(* the numbers of elements of masks kept in a mask register *)
Definition size_ok (n : nat) : Prop := 2 <= n <= 64.

(* Element-wise meaning.  A default-initialised mask has no defined elements;
   KDefault w has the elements that the arbitrary number w encodes. *)
Fixpoint k_meaning (n : nat) (e : kexpr) : list bool :=
  match e with
  | KBroadcast x => repeat x n
  | KBitset l => l
  | KGen g => map g (seq 0 n)
  | KLoad m => map m (seq 0 n)
  | KDefault w => map (fun i => Z.odd (w / 2 ^ Z.of_nat i)) (seq 0 n)
  | KCompare l | KLaneTest l => firstn n l
  | KIntNe l | KNotClass l => map negb (firstn n l)
  | KCast a => k_meaning n a
  | KNot a => map negb (k_meaning n a)
  | KAnd a b | KLAnd a b => map2 andb (k_meaning n a) (k_meaning n b)
  | KOr a b | KLOr a b => map2 orb (k_meaning n a) (k_meaning n b)
  | KXor a b | KNeq a b => map2 xorb (k_meaning n a) (k_meaning n b)
  | KEq a b => map2 Bool.eqb (k_meaning n a) (k_meaning n b)
  | KSet a i x => upd (k_meaning n a) i x
  | KAssign k a b =>
      map3 (fun k a b : bool => if k then b else a)
        (k_meaning n k) (k_meaning n a) (k_meaning n b)
  | KAssignB k a x =>
      map2 (fun k a : bool => if k then x else a) (k_meaning n k) (k_meaning n a)
  | KMaskedLoad k a m =>
      map3 (fun k a b : bool => if k then b else a)
        (k_meaning n k) (k_meaning n a) (map m (seq 0 n))
  end.

(* Programs whose result certainly has no stray true beyond the N elements:
   integer !=, signbit, isinf and default-initialised masks may only occur
   below a negation, below == between masks, or combined by & with such a
   program, or as a mask / value of a where that cannot let it through *)
Fixpoint cleans (e : kexpr) : Prop :=
  match e with
  | KBroadcast _ | KBitset _ | KGen _ | KLoad _ | KCompare _ | KNotClass _ => True
  | KIntNe _ | KLaneTest _ | KDefault _ => False
  | KNot _ | KEq _ _ => True
  | KCast a | KSet a _ _ => cleans a
  | KAnd a b | KLAnd a b => cleans a \/ cleans b
  | KOr a b | KXor a b | KLOr a b | KNeq a b | KMaskedLoad a b _ => cleans a /\ cleans b
  | KAssignB k a x => cleans a /\ (x = true -> cleans k)
  | KAssign k a b => cleans a /\ (cleans k \/ cleans b)
  end.
