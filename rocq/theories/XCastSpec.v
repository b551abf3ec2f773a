(* Vocabulary for the casts on x86. *)
From Coq Require Import List ZArith Bool Arith.
From Verif Require Import Prelude FloatRoundSpec Abi AbiSpec XConv XConvSpec.
Import ListNotations.
Local Open Scope nat_scope.

(* I is a 64-bit x86 target with the extensions ft *)
Definition x86_target (ft : xfeat) (I : isa) : Prop :=
  def_x86_64 I = true /\ have_avx I = avx ft /\ have_avx2 I = avx2 ft /\ have_avx512f I = avx512f ft /\
  have_avx512vl I = avx512vl ft /\ have_avx512bw I = avx512bw ft.

(* What C51 finds wrong, for objects of n elements: 64-bit integers to float
   round more than once, 16-bit to 8-bit integers do not compile. *)
Definition cast_rounds_twice (ft : xfeat) (t u : ety) (n : nat) : Prop :=
  (exists sg, t = EI 8 sg) /\ u = EF 4 /\ avx2 ft = true /\ avx512dq ft = false /\ 4 < n.
Definition cast_ill_formed (ft : xfeat) (t u : ety) (n : nat) : Prop :=
  (exists sg, t = EI 2 sg) /\ (exists sg, u = EI 1 sg) /\ avx512bw ft = true /\ avx512vl ft = false /\ 8 < n.
(* The element of the result with pattern q is static_cast<u> of the element with
   pattern p, if that is defined.  (zero_down: C51) *)
Definition casts_element (md : rmode) (t u : ety) (p q : Z) : Prop :=
  (0 <= p < 2 ^ (8 * Z.of_nat (esize t)))%Z ->
  forall v, converted md t u p = Some v -> ~ zero_down md t u p -> stands_for u q v.
