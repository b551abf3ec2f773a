(* Element references x[i].  [scalars m] reads every element of every object of
   the state m, and every ordinary variable, as a variable of its own; the
   statements on such variables are in RefsSpec. *)
From Coq Require Import List Arith Bool ZArith Lia.
From Verif Require Import Prelude BitMask Abi AbiSpec Fixed FixedSpec RefsSpec Refs RefsProofs PropsAbi Targets FixedStorage FixedTop PropsFixed.
Import ListNotations.

(* ---------------------------------------------------------------- C42 *)

(* Any sequence of assignments, compound assignments, increments, decrements
   and swaps through element references, of any objects of any ABI, does what
   the same code does on independent scalars: same results, same values after
   every element and variable.  The right-hand sides may be element references
   again, and references may denote the same element. *)
Theorem C42_program : forall {A} (c : config) (m : state A) p s' out,
  state_ok m -> exec_all (scalars m) p = Some (s', out) ->
  exists m', run_all c m p = Some (m', out) /\ state_ok m' /\ forall l, scalars m' l = s' l.
Proof. exact @c42_program. Qed.
Print Assumptions C42_program.

(* x[i] = v *)
Theorem C42_assign : forall {A} (c : config) (m : state A) l u v,
  state_ok m -> scalars m l = Some u -> same_type u v = true ->
  exists m', run c m (Assign (fun x => Some x) l (Lit v)) = Some (m', RRef l) /\ state_ok m' /\
    scalars m' l = Some v /\ forall k, k <> l -> scalars m' k = scalars m k.
Proof. exact @c42_assign. Qed.
Print Assumptions C42_assign.

(* x[i] op= a, where a may be x[i] or another element *)
Theorem C42_op_assign : forall {A} (c : config) (m : state A) f l a u x v,
  state_ok m -> scalars m l = Some u ->
  value_of (scalars m) a = Some x -> f u x = Some v -> same_type u v = true ->
  exists m', run c m (OpAssign f l a) = Some (m', RRef l) /\ state_ok m' /\
    scalars m' l = Some v /\ forall k, k <> l -> scalars m' k = scalars m k.
Proof. exact @c42_op_assign. Qed.
Print Assumptions C42_op_assign.

(* ++x[i] returns the reference, x[i]++ the old value *)
Theorem C42_step : forall {A} (c : config) (m : state A) f l u v,
  state_ok m -> scalars m l = Some u -> f u = Some v -> same_type u v = true ->
  exists m', run c m (PreStep f l) = Some (m', RRef l) /\ run c m (PostStep f l) = Some (m', RVal u) /\
    state_ok m' /\ scalars m' l = Some v /\ forall k, k <> l -> scalars m' k = scalars m k.
Proof. exact @c42_step. Qed.
Print Assumptions C42_step.

(* swap(x[i], y[j]): x and y may be the same object, and i and j equal *)
Theorem C42_swap : forall {A} (c : config) (m : state A) a b u v,
  state_ok m -> scalars m a = Some u -> scalars m b = Some v -> same_type u v = true ->
  exists m', run c m (Swap a b) = Some (m', RVoid) /\ state_ok m' /\
    scalars m' a = Some v /\ scalars m' b = Some u /\
    forall k, k <> a -> k <> b -> scalars m' k = scalars m k.
Proof. exact @c42_swap. Qed.
Print Assumptions C42_swap.

(* A state with an object of each kind: a fixed_size<7> vector of doubles with
   AVX2, a scalar, a register of three elements, and masks. *)
Definition demo : state nat := {|
  objs := fun o => nth_error
    [ OTuple isa_avx2 TDouble 7 [Chunk 4 [0; 1; 4; 9]; Chunk 3 [16; 25; 36; 0]];
      OScalar 5; OVec 3 [10; 11; 12; 99];
      OScalarMask true; OVecMask 3 32 [0; 4294967295; 0; 7]%Z; OBitMask 3 8 250%Z;
      OFixedMask 70 (bm_zero 70) ] o;
  locals := fun v => nth_error [Num 1000; Bool true] v |}.

Definition add_num (a b : val nat) : option (val nat) :=
  match a, b with Num x, Num y => Some (Num (x + y)) | _, _ => None end.
Definition inc_num (a : val nat) : option (val nat) := add_num a (Num 1).

Definition demo_program : list (stmt nat) := [
  Swap (Elem 0 3) (Elem 0 5);                          (* swap(x[3], x[5]) *)
  OpAssign add_num (Elem 0 5) (Load (Elem 0 5));       (* x[5] += x[5] *)
  Swap (Elem 0 5) (Elem 2 2); Swap (Elem 2 2) (Elem 2 2);
  PostStep inc_num (Elem 2 2); PreStep inc_num (Elem 1 0);
  Swap (Var 0) (Elem 2 0); Swap (Elem 2 1) (Var 0);
  Assign (fun x => Some x) (Elem 6 69) (Load (Elem 4 1));
  Swap (Elem 4 1) (Elem 4 2); Swap (Elem 5 2) (Elem 5 1);
  Assign (fun x => Some x) (Elem 5 0) (Load (Var 1)) ].

Definition cfg (ce al : bool) : config :=
  {| const_eval := ce; aliasing := al; scalar_first := fun p => snd p =? 1 |}.
Definition peek {A} (m : option (state A * list (result A))) (n : nat) :=
  match m with Some (s, out) => Some (map (objs s) (seq 0 n), map (locals s) (seq 0 2), out) | None => None end.

Example C42_nonvacuous :
  state_ok demo /\
  (exists s' out, exec_all (scalars demo) demo_program = Some (s', out)) /\
  peek (run_all (cfg false true) demo demo_program) 6 =
  Some ([ Some (OTuple isa_avx2 TDouble 7 [Chunk 4 [0; 1; 4; 25]; Chunk 3 [16; 12; 36; 0]]);
          Some (OScalar 6); Some (OVec 3 [1000; 10; 19; 99]);
          Some (OScalarMask true); Some (OVecMask 3 32 [0; 0; 4294967295; 7]%Z);
          Some (OBitMask 3 8 253%Z) ],
        [Some (Num 11); Some (Bool true)],
        [RVoid; RRef (Elem 0 5); RVoid; RVoid; RVal (Num 18); RRef (Elem 1 0); RVoid; RVoid;
         RRef (Elem 6 69); RVoid; RVoid; RRef (Elem 5 0)]) /\
  peek (run_all (cfg true false) demo demo_program) 4 = peek (run_all (cfg false true) demo demo_program) 4.
Proof.
  split; [|split; [|split]].
  - intros o x. unfold demo. simpl. destruct o as [|[|[|[|[|[|[|o]]]]]]]; simpl;
      [intros [= <-]; simpl ..|].
    + split; [split; [apply avx2_arch|split; [exact I|cbn; lia]]|reflexivity].
    + exact I.
    + lia.
    + exact I.
    + split; [lia|]. split; [lia|]. repeat constructor; lia.
    + repeat split; lia.
    + split; [lia|]. split; [split; [reflexivity|repeat constructor; lia]|].
      intros i _. unfold bm_bit, bm_zero. rewrite nth_repeat. apply Z.bits_0.
    + simpl. destruct o; discriminate.
  - eexists _, _. vm_compute. reflexivity.
  - vm_compute. reflexivity.
  - vm_compute. reflexivity.
Qed.
