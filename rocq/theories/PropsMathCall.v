(* C62: math functions that the library leaves to std deliver, for every
   element, what the function of the same name delivers for the operands'
   elements.  [std f l] is std::f(l...). *)
From Coq Require Import List Arith Bool Lia.
From Verif Require Import Prelude Abi AbiSpec Fixed FixedSpec MathCall MathCallSpec MathCallProofs PropsFixed Targets PropsAbi.
Import ListNotations.

(* simd<T, scalar> *)
Theorem C62_scalar : forall (V : Type) (std : fn -> list V -> V) f args,
  In f (plain_functions ++ [F_abs; F_ceil; F_floor; F_nearbyint; F_rint; F_round; F_trunc] ++
        int_operand_functions ++ int_result_functions ++ [F_fpclassify; F_remquo] ++ predicates ++
        unsigned_functions) -> f <> F_sph_legendre ->
  scalar_call std f args = Some (std f args).
Proof. exact @scalar_all. Qed.
Print Assumptions C62_scalar.

(* one register: m elements in length reg lanes *)
Theorem C62_register : forall (V : Type) (zero : V) std own f, In f plain_functions ->
  exists F, register_call zero std own f = Some F /\
    forall m reg regs, m <= length reg -> Forall (fun r => length r = length reg) regs ->
      length (F m reg regs) = length reg /\
      forall i d, i < m ->
        nth i (F m reg regs) d = std f (nth i reg d :: map (fun r => nth i r d) regs).
Proof. exact @plain_register. Qed.
Print Assumptions C62_register.

(* f(u, y) with a first operand that is converted to the type of y *)
Theorem C62_converted_first : forall (V : Type) (zero : V) std own f, In f plain_functions ->
  exists F, register_call_left zero std own f = Some F /\
    forall m u y, m <= length y -> length (F m u y) = length y /\
      forall i d, i < m -> nth i (F m u y) d = std f [u; nth i y d].
Proof. exact @left_register. Qed.
Print Assumptions C62_converted_first.

(* fixed_size *)
Theorem C62_fixed_size : forall (V : Type) (zero : V) std own I t n f,
  fixed_size_type I t n -> In f plain_functions ->
  exists G, fixed_call zero std own f = Some G /\
  forall (x : tuple V) more, is_fixed I t n x -> Forall (is_fixed I t n) more ->
  is_fixed I t n (G x more) /\
  forall i a bs, i < n -> t_get x i = Some a -> elements_at i more bs ->
    t_get (G x more) i = Some (std f (a :: bs)).
Proof. exact @plain_fixed. Qed.
Print Assumptions C62_fixed_size.

(* functions with register-level code of the library: fixed_size objects follow
   the registers *)
Theorem C62_fixed_size_coded : forall (V : Type) (zero : V) std own I t n f,
  fixed_size_type I t n -> In f coded_functions ->
  lanewise (fun a bs => std f (a :: bs)) (own f) ->
  exists G, fixed_call zero std own f = Some G /\
  forall (x : tuple V) more, is_fixed I t n x -> Forall (is_fixed I t n) more ->
  is_fixed I t n (G x more) /\
  forall i a bs, i < n -> t_get x i = Some a -> elements_at i more bs ->
    t_get (G x more) i = Some (std f (a :: bs)).
Proof. exact @coded_fixed. Qed.
Print Assumptions C62_fixed_size_coded.

(* ldexp, scalbn, scalbln; the excluded family is that of C06_mixed_type_refuted *)
Theorem C62_int_operand_partial : forall (V : Type) (zero : V) std I t u n (pad : V) f,
  fixed_size_type I t n -> fp_elem t = true -> int_elem u = true ->
  narrow_exception I t u && (n mod 4 =? 0) = false -> In f int_operand_functions ->
  exists G, fixed_call_int zero std pad (storage_shape I u) f = Some G /\
  forall (x y : tuple V), is_fixed I t n x -> is_fixed I u n y ->
  exists r, G x y = Some (r, y) /\ is_fixed I t n r /\
    forall i a b, i < n -> t_get x i = Some a -> t_get y i = Some b ->
      t_get r i = Some (std f [a; b]).
Proof. exact @int_fixed. Qed.
Print Assumptions C62_int_operand_partial.

(* ilogb, lrint, llrint, lround, llround *)
Theorem C62_int_result : forall (V : Type) (zero : V) std ownr I t u n f,
  fixed_size_type I t n -> fp_elem t = true -> int_elem u = true -> In f int_result_functions ->
  exists G, fixed_result zero std ownr (storage_shape I u) f = Some G /\
  forall (x : tuple V), is_fixed I t n x ->
  exists r, G x = Some r /\ is_fixed I u n r /\
    forall i a, i < n -> t_get x i = Some a -> t_get r i = Some (std f [a]).
Proof. exact @result_fixed. Qed.
Print Assumptions C62_int_result.

(* remquo: [quo l] is what std::remquo stores through its pointer *)
Theorem C62_remquo_partial : forall (V : Type) (zero : V) std quo I t n u (pad : V),
  fixed_size_type I t n -> fp_elem t = true -> int_elem u = true ->
  narrow_exception I t u && (n mod 4 =? 0) = false ->
  exists G, fixed_remquo zero std quo pad (storage_shape I u) F_remquo = Some G /\
  forall (x y z : tuple V), is_fixed I t n x -> is_fixed I t n y -> is_fixed I u n z ->
  exists r z', G x y z = Some (r, z') /\ is_fixed I t n r /\ is_fixed I u n z' /\
    forall i a b, i < n -> t_get x i = Some a -> t_get y i = Some b ->
      t_get r i = Some (std F_remquo [a; b]) /\ t_get z' i = Some (quo [a; b]).
Proof. exact @remquo_fixed. Qed.
Print Assumptions C62_remquo_partial.

(* special functions with unsigned operands ns in front, all but one *)
Theorem C62_unsigned_partial : forall (V : Type) (zero : V) std f m l (ns : list (tuple V)) x,
  In f unsigned_functions -> f <> F_sph_legendre -> m <= l ->
  exists r, special_register zero std f m l ns x = Some r /\ length r = l /\
    forall i vs a, i < m -> elements_at i ns vs -> nth_error x i = Some a ->
      nth_error r i = Some (std f (vs ++ [a])).
Proof. exact @unsigned_register. Qed.
Print Assumptions C62_unsigned_partial.

Theorem C62_unsigned_fixed_partial : forall (V : Type) (zero : V) std I t n s f (ns : list (tuple V)) (x : tuple V),
  fixed_size_type I t n -> storage_shape I t n = Some s ->
  In f unsigned_functions -> f <> F_sph_legendre ->
  exists r, special_fixed zero std f n s ns x = Some r /\ is_fixed I t n r /\
    forall i vs a, i < n -> elements_at i ns vs -> t_get x i = Some a ->
      t_get r i = Some (std f (vs ++ [a])).
Proof. exact @unsigned_fixed. Qed.
Print Assumptions C62_unsigned_fixed_partial.

(* sph_legendre delivers std::assoc_legendre: wrong wherever the two differ, for
   instance at l = m = 0, where one is 1 and the other 1/(2 sqrt(pi)) *)
Theorem C62_sph_legendre_refuted : forall (V : Type) (zero : V) std m w (ns : list (tuple V)) x i l k a,
  m <= w -> i < m -> elements_at i ns [l; k] -> nth_error x i = Some a ->
  std F_assoc_legendre [l; k; a] <> std F_sph_legendre [l; k; a] ->
  exists r, special_register zero std F_sph_legendre m w ns x = Some r /\
    nth_error r i <> Some (std F_sph_legendre [l; k; a]).
Proof.
  intros V zero std m w ns x i l k a Hm Hi Hn Hx Hd.
  destruct (unsigned_register zero std F_assoc_legendre m w ns x) as (r & E & _ & H);
    [right; left; reflexivity|discriminate|auto|].
  exists r. split; [exact E|]. rewrite (H i [l; k] a Hi Hn Hx). cbn [app]. congruence.
Qed.
Print Assumptions C62_sph_legendre_refuted.

(* thirteen declared special functions call members no ABI has: a call does not
   compile, for any element type and ABI *)
Theorem C62_special_refuted : forall (V : Type) (zero : V) std own f args, In f special_functions ->
  scalar_call std f args = None /\ register_call zero std own f = None /\ fixed_call zero std own f = None.
Proof. exact @special_none. Qed.
Print Assumptions C62_special_refuted.

(* ---------------------------------------------------------------- examples *)

(* a std whose functions differ from one another *)
Definition std_ex (f : fn) (l : list nat) : nat :=
  match f with
  | F_pow => 100 + list_sum l | F_ldexp => 200 + hd 0 l * 10 + list_sum (tl l)
  | F_assoc_legendre => 300 | F_sph_legendre => 400 | F_lrint => 500 + list_sum l
  | F_legendre => 600 + list_sum l
  | _ => 0
  end.

Example C62_register_ex :
  In F_pow plain_functions /\
  option_map (fun F => F 3 [1; 2; 3; 9] [[4; 5; 6; 9]]) (register_call 0 std_ex (fun _ _ r _ => r) F_pow)
  = Some [105; 107; 109; 0].
Proof. split; [unfold plain_functions; simpl; tauto|reflexivity]. Qed.

Example C62_fixed_ex :
  fixed_size_type isa_avx2 TDouble 7 /\
  is_fixed isa_avx2 TDouble 7 [Chunk 4 [0; 1; 2; 3]; Chunk 3 [4; 5; 6; 9]] /\
  is_fixed isa_avx2 (TInt 4) 7 [Chunk 7 [1; 2; 3; 4; 5; 6; 7; 9]] /\
  narrow_exception isa_avx2 TDouble (TInt 4) && (7 mod 4 =? 0) = false /\
  option_map (fun G => G [Chunk 4 [0; 1; 2; 3]; Chunk 3 [4; 5; 6; 9]]
                         [[Chunk 4 [1; 1; 1; 1]; Chunk 3 [2; 2; 2; 9]]])
    (fixed_call 0 std_ex (fun _ _ r _ => r) F_pow)
  = Some [Chunk 4 [101; 102; 103; 104]; Chunk 3 [106; 107; 108; 0]] /\
  option_map (fun G => G [Chunk 4 [0; 1; 2; 3]; Chunk 3 [4; 5; 6; 9]] [Chunk 7 [1; 2; 3; 4; 5; 6; 7; 9]])
    (fixed_call_int 0 std_ex 0 (storage_shape isa_avx2 (TInt 4)) F_ldexp)
  = Some (Some ([Chunk 4 [201; 212; 223; 234]; Chunk 3 [245; 256; 267; 0]],
                [Chunk 7 [1; 2; 3; 4; 5; 6; 7; 9]])) /\
  option_map (fun G => G [Chunk 4 [0; 1; 2; 3]; Chunk 3 [4; 5; 6; 9]])
    (fixed_result 0 std_ex (fun _ _ _ => []) (storage_shape isa_avx2 (TInt 8)) F_lrint)
  = Some (Some [Chunk 4 [500; 501; 502; 503]; Chunk 3 [504; 505; 506; 0]]).
Proof.
  split; [split; [apply avx2_arch|split; [exact I|cbn; lia]]|]. repeat split; reflexivity.
Qed.

Example C62_unsigned_ex :
  elements_at 1 [[Chunk 2 [3; 4]]; [Chunk 2 [1; 2]]] [4; 2] /\
  std_ex F_assoc_legendre [4; 2; 7] <> std_ex F_sph_legendre [4; 2; 7] /\
  special_register 0 std_ex F_legendre 3 4 [[Chunk 3 [3; 4; 5]]] [10; 20; 30; 0]
  = Some [613; 624; 635; 0].
Proof. split; [reflexivity|]. split; [discriminate|reflexivity]. Qed.
