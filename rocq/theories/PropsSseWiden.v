(* C52: widening integers on x86 without SSE4.1 *)
From Coq Require Import ZArith List Bool Arith Lia.
From Verif Require Import Prelude FloatRoundSpec NarrowSpec Narrow XConv XConvSpec SseWiden SseWidenSpec SseWidenProofs.
Import ListNotations.
Local Open Scope nat_scope.

(* __convert_all with the unpack sequences of SSE2: every element is converted as
   static_cast does it, in order, for every number of elements (also those that
   do not fill the register), whether or not the compiler knows the values. *)
Theorem C52_widens : forall ft cpi cpo t u n np parts md xs,
  flags_ok ft -> sse41 ft = false -> elem_type t -> elem_type u -> widening t u ->
  held_by n (length xs) -> length xs * esize t <= 16 -> result_parts n (16 / esize u) np parts -> patterns (esize t) xs ->
  widens_elements ft cpi cpo t u n np parts md xs.
Proof. exact widens. Qed.
Print Assumptions C52_widens.

(* five unsigned chars in a register of eight bytes to three registers of double *)
Example C52_nonvacuous : forall cpi cpo,
  widens_elements (sse2 false) cpi cpo (EI 1 false) (EF 8) 5 3 3 ToNearest [255; 0; 1; 128; 2; 77; 77; 77]%Z
  /\ converted ToNearest (EI 1 false) (EF 8) 2%Z = Some 4611686018427387904%Z.
Proof.
  intros cpi cpo. split; [|reflexivity]. apply C52_widens.
  - unfold flags_ok; cbn; intuition discriminate.
  - reflexivity.
  - cbn; auto.
  - cbn; auto.
  - split; [eauto|]. split; [cbn; lia|]. intros [H _]. discriminate.
  - split; [lia|]. split; [cbn; lia|]. exists 3. reflexivity.
  - cbn; lia.
  - right. cbn. lia.
  - repeat constructor; discriminate.
Qed.
(* four of seven shorts to one register of int *)
Example C52_nonvacuous_int : forall cpi cpo,
  widens_elements (sse2 true) cpi cpo (EI 2 true) (EI 4 false) 7 0 1 ToNearest [65535; 32768; 1; 2; 3; 4; 5; 6]%Z
  /\ converted ToNearest (EI 2 true) (EI 4 false) 32768%Z = Some (2 ^ 32 - 2 ^ 15)%Z.
Proof.
  intros cpi cpo. split; [|reflexivity]. apply C52_widens.
  - unfold flags_ok; cbn; intuition discriminate.
  - reflexivity.
  - cbn; auto.
  - cbn; auto.
  - split; [eauto|]. split; [cbn; lia|]. intros [H _]. discriminate.
  - split; [lia|]. split; [cbn; lia|]. exists 3. reflexivity.
  - cbn; lia.
  - left. cbn. lia.
  - repeat constructor; discriminate.
Qed.
