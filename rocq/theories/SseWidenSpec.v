(* Vocabulary for widening integers on x86 without SSE4.1. *)
From Coq Require Import List ZArith Bool Arith.
From Verif Require Import Prelude FloatRoundSpec XConv XConvSpec SseWiden.
Import ListNotations.
Local Open Scope nat_scope.

(* from an integer type to a wider type, other than 32 bits to double *)
Definition widening (t u : ety) : Prop :=
  (exists w sg, t = EI w sg) /\ esize t < esize u /\ ~ (esize t = 4 /\ u = EF 8).
(* n elements are held by a register of L lanes: the next power of two *)
Definition held_by (n L : nat) : Prop := 2 <= n /\ n <= L < 2 * n /\ exists k, L = 2 ^ k.
(* The template argument _NParts is np and parts registers result: as many as the
   n elements fill (np = 0), or as many as are needed to hold them all. *)
Definition result_parts (n M np parts : nat) : Prop :=
  np = 0 /\ parts * M <= n < (parts + 1) * M
  \/ np = parts /\ 2 <= parts /\ (parts - 1) * M < n <= parts * M.
(* The n elements xs are converted to registers of M elements: element j of
   register i holds the value of static_cast<u> of element i * M + j. *)
Definition widens_elements (ft : xfeat) (cpi cpo : bool) (t u : ety) (n np parts : nat) (md : rmode) (xs : list Z) : Prop :=
  let M := 16 / esize u in
  exists es, widen_register ft cpi cpo t n u np = Some es /\ length es = parts /\
  forall i e ub, nth_error es i = Some e ->
  let result := ceval ub md (registers (esize t) (length xs) 1 xs) e in
  length result = 16 /\
  forall j v, j < M -> i * M + j < n -> converted md t u (nth (i * M + j) xs 0%Z) = Some v ->
  exists p, contains (esize u) result j p /\ stands_for u p v.
