(* Properties of fixed_size simd objects.  Elements are observed through
   operator[] (t_get), masks through their operator[] (bm_get). *)
From Coq Require Import List Arith Bool ZArith Lia.
From Verif Require Import Prelude MaskSpec BitMask Abi AbiSpec Fixed FixedSpec Targets FixedStorage FixedTop PropsAbi.
Import ListNotations.

(* ---------------------------------------------------------------- C05 *)

(* simd<t, fixed_size<n>>(g)[i] == g(i), with each implementation of
   operator[] (run-time index with and without aliasing loads, constant
   index) *)
Theorem C05_generator : forall {A} I t n (zero : A) g s,
  fixed_size_type I t n -> storage_shape I t n = Some s ->
  is_fixed I t n (fs_generator zero n s g) /\
  forall i, i < n -> t_get (fs_generator zero n s g) i = Some (g i) /\
    t_get_const (fs_generator zero n s g) i = Some (g i) /\
    forall sc, t_get_noalias sc (fs_generator zero n s g) i = Some (g i).
Proof. exact @c05_generator. Qed.
Print Assumptions C05_generator.

Theorem C05_broadcast : forall {A} I t n (x : A) s,
  fixed_size_type I t n -> storage_shape I t n = Some s ->
  is_fixed I t n (fs_broadcast s x) /\ forall i, i < n -> t_get (fs_broadcast s x) i = Some x.
Proof. exact @c05_broadcast. Qed.
Print Assumptions C05_broadcast.

(* x[i] = v changes element i and no other *)
Theorem C05_assign : forall {A} I t n (x : tuple A) i v,
  fixed_size_type I t n -> is_fixed I t n x -> i < n ->
  exists x', t_set x i v = Some x' /\ is_fixed I t n x' /\
    forall j, j < n -> t_get x' j = if j =? i then Some v else t_get x j.
Proof. exact @c05_assign. Qed.
Print Assumptions C05_assign.

Theorem C05_assign_noalias : forall {A} I t n (x : tuple A) i v sc,
  fixed_size_type I t n -> is_fixed I t n x -> i < n ->
  exists x', t_set_noalias x i v = Some x' /\ is_fixed I t n x' /\
    forall j, j < n -> t_get_noalias sc x' j = if j =? i then Some v else t_get_noalias sc x j.
Proof. exact @c05_assign_noalias. Qed.
Print Assumptions C05_assign_noalias.

(* The aliasing access treats the object as an array of elements.  That is the
   C++ layout: the k-th register starts at the byte offset of its first
   element, and sizeof is what the model uses. *)
Theorem C05_layout : forall I t n al l, arch_ok I -> elem_ok t -> 1 <= n <= max_fixed_size I t ->
  In al [1; 2; 4; 8; 16] -> Nat.divide al (esize t) ->
  fixed_size_storage I t n = Some l ->
  length (reg_offsets I t al l) = length l /\
  (forall k, k < length l ->
     nth k (reg_offsets I t al l) 0 = esize t * list_sum (map (abi_size t) (firstn k l))) /\
  tuple_sizeof I t al l = esize t * ssizeof (map (abi_shape I t) l).
Proof. exact storage_layout. Qed.
Print Assumptions C05_layout.

Lemma avx2_arch : arch_ok isa_avx2.
Proof. unfold arch_ok, isa_ok, isa_avx2; simpl. repeat split; auto; intuition discriminate. Qed.

Example C05_nonvacuous :
  fixed_size_type isa_avx2 TDouble 7 /\
  storage_shape isa_avx2 TDouble 7 = Some [(4, 4); (3, 4)] /\
  fs_generator 0 7 [(4, 4); (3, 4)] (fun i => i * i)
  = [Chunk 4 [0; 1; 4; 9]; Chunk 3 [16; 25; 36; 0]] /\
  t_get [Chunk 4 [0; 1; 4; 9]; Chunk 3 [16; 25; 36; 0]] 5 = Some 25 /\
  t_set [Chunk 4 [0; 1; 4; 9]; Chunk 3 [16; 25; 36; 0]] 5 99
  = Some [Chunk 4 [0; 1; 4; 9]; Chunk 3 [16; 99; 36; 0]] /\
  In 8 [1; 2; 4; 8; 16] /\ Nat.divide 8 (esize TDouble) /\
  fixed_size_storage isa_avx2 TDouble 7 = Some [AVecBuiltin 32; AVecBuiltin 24] /\
  reg_offsets isa_avx2 TDouble 8 [AVecBuiltin 32; AVecBuiltin 24] = [0; 32].
Proof.
  split; [split; [apply avx2_arch|split; [exact I|cbn; lia]]|].
  repeat match goal with |- _ /\ _ => split end; try reflexivity; try (simpl; tauto); exists 1; reflexivity.
Qed.

(* ---------------------------------------------------------------- C06 *)

(* Operators and functions whose operands all have the same type: whatever the
   register-level function does, if it computes f on the active lanes then the
   result has f of the operands' elements everywhere. *)
Theorem C06_same_type : forall {A} I t n f F (x : tuple A) more,
  fixed_size_type I t n -> lanewise f F ->
  is_fixed I t n x -> Forall (is_fixed I t n) more ->
  is_fixed I t n (apply_per_chunk F x more) /\
  forall i a bs, i < n -> t_get x i = Some a -> elements_at i more bs ->
    t_get (apply_per_chunk F x more) i = Some (f a bs).
Proof. exact @c06_same. Qed.
Print Assumptions C06_same_type.

(* Functions with an int or long operand or output (ldexp, scalbn, scalbln,
   frexp, remquo): the second object is stored with its own partition.  True on
   every target but one family, where the call reads behind the object. *)
Theorem C06_mixed_type_partial : forall {A B} I t u n (pad : B) wb f g F
    (x : tuple A) more (y : tuple B),
  fixed_size_type I t n -> fp_elem t = true -> int_elem u = true ->
  narrow_exception I t u && (n mod 4 =? 0) = false ->
  lanewise_mixed f g F ->
  is_fixed I t n x -> Forall (is_fixed I t n) more -> is_fixed I u n y ->
  exists r y', apply_mixed pad wb (storage_shape I u) F x more (view_of y) = Some (r, y') /\
    is_fixed I t n r /\ is_fixed I u n y' /\
    forall i a bs b, i < n -> t_get x i = Some a -> elements_at i more bs -> t_get y i = Some b ->
      t_get r i = Some (f a bs b) /\ t_get y' i = Some (if wb then g a bs b else b).
Proof. exact @c06_mixed. Qed.
Print Assumptions C06_mixed_type_partial.

(* Functions with an int or long result (ilogb, lrint, lround, ...): the
   per-register results are regrouped into the result's own partition. *)
Theorem C06_result_type : forall {A B} I t u n (zero : B) (g : A -> B) F (x : tuple A),
  fixed_size_type I t n -> fp_elem t = true -> int_elem u = true ->
  (forall m reg, m <= length reg -> 1 <= m <= n ->
     is_fixed I u m (F m reg) /\
     forall i a, i < m -> nth_error reg i = Some a -> t_get (F m reg) i = Some (g a)) ->
  is_fixed I t n x ->
  exists r, optimize_tuple zero (length (apply_r F x)) (storage_shape I u) (apply_r F x) = Some r /\
    is_fixed I u n r /\
    forall i a, i < n -> t_get x i = Some a -> t_get r i = Some (g a).
Proof. exact @c06_result. Qed.
Print Assumptions C06_result_type.

(* The excluded family: with double in SSE2 registers on i386 and N a multiple
   of 4, every call with an int operand reads beyond the int object. *)
Theorem C06_mixed_type_refuted :
  exists I t u n, fixed_size_type I t n /\ fp_elem t = true /\ int_elem u = true /\
    (exists (x y : tuple nat), is_fixed I t n x /\ is_fixed I u n y) /\
    forall (A B : Type) (pad : B) f g F (x : tuple A) more (y : tuple B),
      lanewise_mixed f g F ->
      is_fixed I t n x -> Forall (is_fixed I t n) more -> is_fixed I u n y ->
      apply_mixed pad false (storage_shape I u) F x more (view_of y) = None.
Proof. exact c06_mixed_refuted. Qed.
Print Assumptions C06_mixed_type_refuted.

Definition add_regs (n : nat) (r : list nat) (rs : list (list nat)) : list nat :=
  match rs with s :: _ => map2 Nat.add r s | [] => r end.
Example C06_nonvacuous :
  lanewise (fun a bs => match bs with b :: _ => a + b | [] => a end) add_regs /\
  apply_per_chunk add_regs [Chunk 4 [0; 1; 2; 3]; Chunk 3 [4; 5; 6; 0]]
                          [[Chunk 4 [10; 10; 10; 10]; Chunk 3 [20; 20; 20; 7]]]
  = [Chunk 4 [10; 11; 12; 13]; Chunk 3 [24; 25; 26; 7]].
Proof.
  split; [|reflexivity]. intros n reg regs Hn Hr. destruct regs as [|s regs]; simpl; auto.
  inversion Hr; subst. split; [rewrite map2_length; lia|].
  intros i d Hi. apply map2_nth; lia.
Qed.

(* the hypotheses on the register-level function can be met: ldexp-like
   addition of an int to a wider element *)
Example C06_mixed_nonvacuous :
  lanewise_mixed (fun a _ b => a + b) (fun _ _ b => b)
    (fun n reg _ arg => (map2 Nat.add reg (telems arg ++ repeat 0 (length reg - length (telems arg))), arg)) /\
  narrow_exception isa_avx2 TDouble (TInt 4) = false /\
  storage_shape isa_avx2 (TInt 4) 7 = Some [(7, 8)] /\
  apply_mixed 0 false (storage_shape isa_avx2 (TInt 4))
    (fun n reg _ arg => (map2 Nat.add reg (telems arg ++ repeat 0 (length reg - length (telems arg))), arg))
    [Chunk 4 [0; 0; 0; 0]; Chunk 3 [100; 100; 100; 0]] []
    (view_of [Chunk 7 [1; 2; 3; 4; 5; 6; 7; 0]])
  = Some ([Chunk 4 [1; 2; 3; 4]; Chunk 3 [105; 106; 107; 0]], [Chunk 7 [1; 2; 3; 4; 5; 6; 7; 0]]).
Proof.
  split; [|repeat split; reflexivity].
  intros n reg regs arg Hn _ _ Hl. cbn [fst snd]. split; [|split; auto].
  - rewrite map2_length, app_length, repeat_length. lia.
  - intros i d e Hi. split; auto. rewrite (map2_nth _ _ _ i d e) by (rewrite ?app_length; lia).
    rewrite app_nth1 by lia. auto.
Qed.

Example C06_result_nonvacuous :
  apply_r (fun m reg => [Chunk m (map S reg)]) [Chunk 4 [0; 0; 0; 0]; Chunk 3 [100; 100; 100; 0]]
  = [Chunk 4 [1; 1; 1; 1]; Chunk 3 [101; 101; 101; 1]] /\
  storage_shape isa_avx2 (TInt 4) 4 = Some [(4, 4)] /\
  storage_shape isa_avx2 (TInt 4) 3 = Some [(3, 4)] /\
  optimize_tuple 0 2 (storage_shape isa_avx2 (TInt 4)) [Chunk 4 [1; 1; 1; 1]; Chunk 3 [101; 101; 101; 1]]
  = Some [Chunk 7 [1; 1; 1; 1; 101; 101; 101; 0]].
Proof. repeat split; reflexivity. Qed.

(* ---------------------------------------------------------------- C07 *)

(* Comparisons and predicates (isnan, ...): bit i of the mask is the predicate
   of the elements i, and no bit at or above n is set. *)
Theorem C07_compare : forall {A} I t n f F (x : tuple A) more,
  fixed_size_type I t n -> lanewise_pred f F ->
  is_fixed I t n x -> Forall (is_fixed I t n) more ->
  bm_clean n (t_test F x more) /\
  forall i a bs, i < n -> t_get x i = Some a -> elements_at i more bs ->
    bm_get n (t_test F x more) i = f a bs.
Proof. exact @c07_test. Qed.
Print Assumptions C07_compare.

(* operator!, assembled differently *)
Theorem C07_not : forall {A} I t n f F (x : tuple A),
  fixed_size_type I t n ->
  (forall m reg, m <= length reg -> m <= length (F m reg) /\
     forall i d, i < m -> nth i (F m reg) false = f (nth i reg d)) ->
  is_fixed I t n x ->
  bm_clean n (fs_negate F x) /\
  forall i a, i < n -> t_get x i = Some a -> bm_get n (fs_negate F x) i = f a.
Proof. exact @c07_negate. Qed.
Print Assumptions C07_not.

Definition lt_regs (n : nat) (r : list nat) (rs : list (list nat)) : list bool :=
  match rs with s :: _ => map2 Nat.ltb r s | [] => map (fun _ => false) r end.
Example C07_nonvacuous :
  lanewise_pred (fun a bs => match bs with b :: _ => a <? b | [] => false end) lt_regs /\
  bm_list 7 (t_test lt_regs [Chunk 4 [0; 1; 2; 3]; Chunk 3 [4; 5; 6; 0]]
                          [[Chunk 4 [1; 1; 1; 10]; Chunk 3 [20; 1; 20; 7]]])
  = [true; false; false; true; true; false; true] /\
  bm_list 7 (fs_negate (fun _ => map (fun a => a =? 0)) [Chunk 4 [0; 1; 2; 0]; Chunk 3 [4; 0; 6; 0]])
  = [true; false; false; true; false; true; false].
Proof.
  split; [|split; reflexivity]. intros n reg regs Hn Hr. destruct regs as [|s regs]; simpl.
  - rewrite map_length. split; auto. intros i _ Hi. clear. revert i.
    induction reg; destruct i; simpl; auto.
  - inversion Hr; subst. split; [rewrite map2_length; lia|].
    intros i d Hi. rewrite (map2_nth _ _ _ i d d) by lia. auto.
Qed.

(* ---------------------------------------------------------------- C08 *)

(* where(k, x) = y and where(k, x) op= y (f a b = b resp. a op b) *)
Theorem C08_masked_binary : forall {A} I t n f op k (x y : tuple A),
  fixed_size_type I t n -> lanewise_masked2 f op ->
  is_fixed I t n x -> is_fixed I t n y -> bm_clean n k ->
  is_fixed I t n (fs_masked_binary op k x y) /\
  forall i a b, i < n -> t_get x i = Some a -> t_get y i = Some b ->
    t_get (fs_masked_binary op k x y) i = Some (if bm_get n k i then f a b else a).
Proof. exact @c08_binary. Qed.
Print Assumptions C08_masked_binary.

(* the same with a scalar on the right-hand side *)
Theorem C08_masked_scalar : forall {A S} I t n (f : A -> S -> A) op k (x : tuple A) s,
  fixed_size_type I t n -> lanewise_masked1 f op -> is_fixed I t n x -> bm_clean n k ->
  is_fixed I t n (fs_masked_scalar op k x s) /\
  forall i a, i < n -> t_get x i = Some a ->
    t_get (fs_masked_scalar op k x s) i = Some (if bm_get n k i then f a s else a).
Proof. exact @c08_scalar. Qed.
Print Assumptions C08_masked_scalar.

(* +where(k, x), -where(k, x), ~where(k, x), ++, -- *)
Theorem C08_masked_unary : forall {A} I t n (f : A -> A) op k (x : tuple A),
  fixed_size_type I t n ->
  lanewise_masked1 (fun a (_ : unit) => f a) (fun m k a _ => op m k a) ->
  is_fixed I t n x -> bm_clean n k ->
  is_fixed I t n (fs_masked_unary op k x) /\
  forall i a, i < n -> t_get x i = Some a ->
    t_get (fs_masked_unary op k x) i = Some (if bm_get n k i then f a else a).
Proof. exact @c08_unary. Qed.
Print Assumptions C08_masked_unary.

Definition blend_regs (n : nat) (k : list bool) (a b : list nat) : list nat :=
  map2 (fun p (ab : nat * nat) => if p : bool then snd ab else fst ab)
       (k ++ repeat true (length a - n)) (combine a b).
Example C08_nonvacuous :
  lanewise_masked2 (fun _ b => b) blend_regs /\
  bm_clean 7 [Z.of_nat 82] /\ bm_list 7 [Z.of_nat 82] = [false; true; false; false; true; false; true] /\
  fs_masked_binary blend_regs [Z.of_nat 82]
    [Chunk 4 [0; 1; 2; 3]; Chunk 3 [4; 5; 6; 0]] [Chunk 4 [10; 11; 12; 13]; Chunk 3 [14; 15; 16; 9]]
  = [Chunk 4 [0; 11; 2; 3]; Chunk 3 [14; 5; 16; 9]].
Proof.
  split; [|split; [|split; reflexivity]].
  - intros n k a b Hn Hb Hk. unfold blend_regs.
    assert (Hc : length (combine a b) = length a) by (rewrite combine_length; lia).
    assert (Hl : length (k ++ repeat true (length a - n)) = length a)
      by (rewrite app_length, repeat_length; lia).
    split; [rewrite map2_length; lia|]. intros i d Hi.
    rewrite (map2_nth _ _ _ i true (d, d)) by lia. rewrite combine_nth by auto.
    rewrite app_nth1 by lia. rewrite (nth_indep k true false) by lia.
    destruct (nth i k false); auto.
  - split; [split; [reflexivity|repeat constructor; try lia]|].
    intros i Hi. change (bm_array_size 7 * bm_word_bits 7) with 8 in Hi.
    assert (i = 7) by lia. subst. reflexivity.
Qed.
