(* C21: masks kept in AVX-512 mask registers behave as N booleans. *)
From Coq Require Import List ZArith Lia Bool Arith.
From Verif Require Import Prelude MaskSpec BitMask KMask KMaskSpec KMaskProofs.
Import ListNotations.

(* Reading the N elements of the result of any program gives the N booleans
   the program means. *)
Theorem C21_elements : forall vl n e, size_ok n -> kexpr_ok n e ->
  map (k_get (k_eval vl n e)) (seq 0 n) = k_meaning n e.
Proof. exact c21_elements. Qed.
Print Assumptions C21_elements.

(* Every reduction other than find_last_set, after any program, is the one of
   the N booleans: stray bits above the elements do not matter. *)
Theorem C21_reductions : forall vl dq n e, size_ok n -> kexpr_ok n e ->
  let k := k_eval vl n e in let l := k_meaning n e in
  k_all_of dq n k = all_true l /\
  k_any_of n k = any_true l /\
  k_none_of n k = negb (any_true l) /\
  k_some_of dq n k = (any_true l && negb (all_true l))%bool /\
  k_popcount n k = count_true l /\
  k_to_bits n k = l /\
  (any_true l = true -> is_first_true l (k_find_first_set n k)).
Proof.
  intros vl dq n e Hn He. pose proof (eval_shows vl n e Hn He) as Hs. cbv zeta.
  exact (conj (all_of_spec dq n _ _ Hn Hs) (conj (any_of_spec n _ _ Hn Hs)
    (conj (none_of_spec n _ _ Hn Hs) (conj (some_of_spec dq n _ _ Hn Hs)
    (conj (popcount_spec n _ _ Hn Hs) (conj (c21_elements vl n e Hn He)
      (find_first_spec n _ _ Hn Hs))))))).
Qed.
Print Assumptions C21_reductions.

(* find_last_set: right for every program in which integer !=, signbit, isinf
   and default-initialised masks stay below an operation that clears stray
   bits.  Missing: the other programs, for which the claim is false, see
   C21_find_last_set_refuted. *)
Theorem C21_find_last_set_partial : forall vl n e, size_ok n -> kexpr_ok n e -> cleans e ->
  any_true (k_meaning n e) = true ->
  exists i, k_find_last_set (k_eval vl n e) = Z.of_nat i /\ is_last_true (k_meaning n e) i.
Proof.
  intros vl n e Hn He Hc.
  exact (find_last_spec n _ _ Hn (eval_shows vl n e Hn He) (eval_high vl n e Hn He Hc)).
Qed.
Print Assumptions C21_find_last_set_partial.

(* For every number of elements smaller than the mask word (3 elements, 12
   elements, and 2 or 4 as well), find_last_set(x != y) on integers is the
   number of the last bit of the word, not an element: whatever x and y are. *)
Theorem C21_find_last_set_refuted : forall vl n l, size_ok n -> (n < kw n)%nat ->
  (n <= length l <= kw n)%nat ->
  let r := k_find_last_set (k_eval vl n (KIntNe l)) in
  r = (Z.of_nat (kw n) - 1)%Z /\ (Z.of_nat n <= r)%Z.
Proof. exact c21_find_last_refuted. Qed.
Print Assumptions C21_find_last_set_refuted.

(* Masked stores of masks to bool* : with a mask program that cleans, exactly the
   selected elements are written.  Missing: other mask programs, see
   C21_masked_store_refuted. *)
Theorem C21_masked_store_partial : forall vl n v k m,
  size_ok n -> kexpr_ok n v -> kexpr_ok n k -> cleans k ->
  forall i, k_masked_store n (k_eval vl n v) (k_eval vl n k) m i =
    match nth_error (k_meaning n k) i with
    | Some true => nth_error (k_meaning n v) i
    | _ => m i
    end.
Proof. exact c21_store. Qed.
Print Assumptions C21_masked_store_partial.

(* Memory touched by masked loads and stores of masks: the selected elements. *)
Theorem C21_touched_partial : forall vl n e, size_ok n -> kexpr_ok n e -> cleans e ->
  k_touched n (k_eval vl n e) = true_indices (k_meaning n e).
Proof. exact c21_touched. Qed.
Print Assumptions C21_touched_partial.

(* With where(x != y, k) on integers the byte mem + N, one past the end of the
   N booleans, is read and written, for all x and y. *)
Theorem C21_touched_refuted : forall vl n l, size_ok n -> (n < kw n)%nat ->
  (n <= length l <= kw n)%nat ->
  In n (k_touched n (k_eval vl n (KIntNe l))).
Proof. exact c21_touched_refuted. Qed.
Print Assumptions C21_touched_refuted.

(* 3 floats in an xmm register: (x < y) combined with x != y on integers *)
Definition three : kexpr :=
  KAnd (KCompare [true; false; true; true]) (KIntNe [false; true; false; true]).
Example C21_nonvacuous : size_ok 3 /\ kexpr_ok 3 three /\ cleans three /\
  k_meaning 3 three = [true; false; true] /\ k_eval true 3 three = 5%Z /\
  k_find_last_set (k_eval true 3 three) = 2%Z /\ k_popcount 3 (k_eval true 3 three) = 2%nat /\
  (3 < kw 3)%nat /\
  k_eval true 3 (KIntNe [false; true; false; true]) = 253%Z /\
  k_find_last_set (k_eval true 3 (KIntNe [false; true; false; true])) = 7%Z /\
  k_all_of true 3 (k_eval true 3 (KIntNe [false; false; false; true])) = true.
Proof. unfold size_ok. cbn. repeat split; auto; lia. Qed.
