(* C40: the narrowing test and the implicit conversions it guards.  l is the
   format of long double on the target (double, x87 or binary128). *)
From Coq Require Import ZArith List Bool Lia.
From Verif Require Import Prelude Abi AbiSpec Fixed FixedSpec FloatSpec FloatRoundSpec ScalarSpec Scalar NarrowSpec Narrow NarrowProofs NarrowExact NarrowTop PropsAbi Targets FixedStorage FixedTop PropsFixed.
Import ListNotations.
Open Scope Z_scope.

(* ---------------------------------------------------------------- C40 *)

(* A conversion the test lets pass keeps every value, in every rounding
   direction, and the conversion back returns it (for NaN: a NaN). *)
Theorem C40_value_preserving : forall l from to v, long_double_fmt l -> aty_ok from -> aty_ok to ->
  narrowing l from to = false -> valid l from v ->
  forall md md', exists w v',
    cast l md from to v = Some w /\ valid l to w /\ same_number (number_of l from v) (number_of l to w) /\
    cast l md' to from w = Some v' /\ valid l from v' /\
    (v' = v \/ number_of l from v = NotANumber /\ number_of l from v' = NotANumber).
Proof. exact c40_preserves. Qed.
Print Assumptions C40_value_preserving.

(* The test is not too strict either: a conversion it rejects would lose some
   value.  (bool is the exception, see the example.) *)
Theorem C40_exact : forall l from to, long_double_fmt l -> aty_ok from -> aty_ok to -> from <> ABool ->
  narrowing l from to = true -> exists v, valid l from v /\ ~ representable l from v to.
Proof. exact exact. Qed.
Print Assumptions C40_exact.

(* Implicit broadcast: every lane gets the value.  int and, for unsigned
   elements, unsigned int arguments are accepted whatever their value (the TS
   asks for it); they are excluded here. *)
Theorem C40_broadcast : forall l md from to n v, long_double_fmt l -> aty_ok from -> aty_ok to ->
  broadcast_from l from to = true -> from <> int_a -> ~ (from = uint_a /\ unsigned_elem to) -> valid l from v ->
  exists w, broadcast_ctor l md from to n v = Some (repeat w n) /\
    valid l to w /\ same_number (number_of l from v) (number_of l to w).
Proof. exact c40_broadcast. Qed.
Print Assumptions C40_broadcast.

(* which arguments are accepted at all: int, unsigned int for unsigned elements,
   and types all of whose values the element type has; never bool *)
Theorem C40_broadcast_accepts : forall l from to, long_double_fmt l -> aty_ok from -> aty_ok to ->
  (broadcast_from l from to = true <->
   from <> ABool /\ (from = int_a \/ (from = uint_a /\ unsigned_elem to) \/ forall v, valid l from v -> representable l from v to)).
Proof. exact c40_broadcast_accepts. Qed.
Print Assumptions C40_broadcast_accepts.

(* int and unsigned int arguments: the value modulo 2^bits *)
Theorem C40_broadcast_int : forall l md from t n v, std_type t -> from = int_a \/ from = uint_a ->
  exists w, broadcast_ctor l md from (AInt t) n v = Some (repeat w n) /\ wraps_to t v w.
Proof. exact c40_broadcast_int. Qed.
Print Assumptions C40_broadcast_int.

(* Implicit conversion between fixed_size vectors: every element keeps its
   value. *)
Theorem C40_fixed_convert : forall I x86 l ls lsz md from to te ue n s tmp (x : tuple Z),
  long_double_fmt l -> aty_ok from -> aty_ok to -> fixed_from l lsz from to = true ->
  elem_of ls from = Some te -> elem_of ls to = Some ue ->
  fixed_size_type I te n -> fixed_size_type I ue n -> is_fixed I te n x -> storage_shape I ue n = Some s ->
  (forall i v, (i < n)%nat -> t_get x i = Some v -> valid l from v) ->
  exists y, fixed_convert I x86 l md from to te n s tmp x = Some y /\ is_fixed I ue n y /\
    forall i, (i < n)%nat -> exists v w, t_get x i = Some v /\ t_get y i = Some w /\
      valid l to w /\ same_number (number_of l from v) (number_of l to w).
Proof. exact c40_fixed_convert. Qed.
Print Assumptions C40_fixed_convert.

(* An implicit broadcast of an int can change the value: simd<unsigned char> x =
   300 has elements 44. *)
Definition uchar : aty := AInt {| iw := 8; isg := false |}.
Theorem C40_broadcast_int_refuted :
  broadcast_from binary64 int_a uchar = true /\ valid binary64 int_a 300 /\
  broadcast_ctor binary64 ToNearest int_a uchar 4 300 = Some [44; 44; 44; 44] /\
  ~ representable binary64 int_a 300 uchar.
Proof.
  split; [reflexivity|]. split; [cbn; unfold has; cbn; lia|]. split; [reflexivity|].
  intros (w & Hw & E). cbn in E, Hw. unfold has in Hw. cbn in Hw. lia.
Qed.
Print Assumptions C40_broadcast_int_refuted.

Definition short : aty := AInt {| iw := 16; isg := true |}.
Definition schar : aty := AInt {| iw := 8; isg := true |}.
Definition float_a : aty := AFloat FFloat.
Definition double_a : aty := AFloat FDouble.

(* short to float and float to double pass; int to float and double to float do
   not; -32768 and a subnormal float are converted exactly; bool to signed char
   is rejected although it would keep its values *)
Example C40_nonvacuous :
  map (fun p => narrowing binary64 (fst p) (snd p))
    [(short, float_a); (float_a, double_a); (int_a, float_a); (double_a, float_a);
     (float_a, AInt {| iw := 64; isg := true |}); (uint_a, int_a); (uint_a, AInt {| iw := 64; isg := true |});
     (int_a, uint_a); (ABool, schar)]
  = [false; false; true; true; true; true; false; true; true] /\
  valid binary64 short (-32768) /\ cast binary64 Upward short float_a (-32768) = Some 3338665984 /\
  valid binary64 float_a 1 /\ cast binary64 ToZero float_a double_a 1 = Some 3936146074321813504 /\
  broadcast_from binary64 short float_a = true /\ short <> int_a /\
  (forall v, valid binary64 ABool v -> representable binary64 ABool v schar).
Proof.
  split; [vm_compute; reflexivity|]. split; [cbn; unfold has; cbn; lia|]. split; [vm_compute; reflexivity|].
  split; [cbn; unfold pattern; cbn; lia|]. split; [vm_compute; reflexivity|]. split; [reflexivity|].
  split; [discriminate|]. intros v Hv. exists v. split; [|cbn; lia].
  cbn in *. unfold has. cbn. lia.
Qed.

(* seven shorts converted to seven floats with AVX2 *)
Example C40_fixed_nonvacuous :
  fixed_from binary64 8 short float_a = true /\ fixed_from binary64 8 float_a short = false /\
  elem_of 8 short = Some (TInt 2) /\ elem_of 8 float_a = Some TFloat /\
  fixed_size_type isa_avx2 (TInt 2) 7 /\ fixed_size_type isa_avx2 TFloat 7 /\
  is_fixed isa_avx2 (TInt 2) 7 [Chunk 7 [1; -2; 3; 100; -32768; 32767; 0; 99]] /\
  storage_shape isa_avx2 TFloat 7 = Some [(7%nat, 8%nat)] /\
  option_map (map (fun c => firstn (csize c) (creg c))) (fixed_convert isa_avx2 true binary64 ToNearest short float_a (TInt 2) 7 [(7%nat, 8%nat)] (fun _ => 5)
    [Chunk 7 [1; -2; 3; 100; -32768; 32767; 0; 99]])
  = Some [[1065353216; 3221225472; 1077936128; 1120403456; 3338665984; 1191181824; 0]].
Proof.
  split; [vm_compute; reflexivity|]. split; [vm_compute; reflexivity|].
  split; [reflexivity|]. split; [reflexivity|].
  split; [split; [apply avx2_arch|split; [cbn; lia|cbn; lia]]|].
  split; [split; [apply avx2_arch|split; [exact I|cbn; lia]]|].
  split; [reflexivity|]. split; [reflexivity|]. vm_compute. reflexivity.
Qed.
