(* What storing a mask to bool* means. *)
From Coq Require Import List ZArith Bool Arith.
From Verif Require Import Prelude BoolStore.
Import ListNotations.

(* the writes leave byte i = element i (1 for true, 0 for false) for every
   element, and every other byte as it was *)
Definition stores (ws : list (nat * list Z)) (l : list bool) : Prop :=
  forall m i, run_writes ws m i =
    match nth_error l i with
    | Some b => if b then 1%Z else 0%Z
    | None => m i
    end.
