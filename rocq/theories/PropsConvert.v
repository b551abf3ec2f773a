(* C17: casts between simd types *)
From Coq Require Import List ZArith Bool Arith Lia.
From Verif Require Import Prelude Abi AbiSpec Fixed FixedSpec FixedProofs Mem Targets Convert ConvertSpec ConvertProofs ConvertTop
  PropsAbi PropsFixed.
Import ListNotations.

(* ---- C17: the casts keep every element in place ------------------ *)
(* static_simd_cast and simd_cast: any element types, any ABIs of equal size, any
   partition into registers, any target.  cast is static_cast of one element;
   x86, sse41 and cp (constant propagation) choose the code paths. *)
Theorem C17_static_simd_cast : forall A B (cast : A -> B) zeroA zeroB I t u x86 sse41 cp cx86 unpack a b x,
  converts_registers cast cx86 -> unpacks_registers cast unpack ->
  simd_type I t a -> simd_type I u b -> abi_size t a = abi_size u b -> is_simd I t a x ->
  exists y, static_simd_cast cast zeroA zeroB I t u x86 sse41 cp cx86 unpack a b x = Some y /\
    is_simd I u b y /\
    forall i, i < abi_size u b -> exists v, t_get x i = Some v /\ t_get y i = Some (cast v).
Proof. intros A B. exact c17_cast. Qed.
Print Assumptions C17_static_simd_cast.
(* resizing_simd_cast: the common elements in place, new elements zero *)
Theorem C17_resizing_simd_cast : forall A I t (zero : A) a b x,
  simd_type I t a -> simd_type I t b -> is_simd I t a x ->
  exists y, resizing_simd_cast I t zero a b x = Some y /\ is_simd I t b y /\
    forall i, i < abi_size t b -> t_get y i = if i <? abi_size t a then t_get x i else Some zero.
Proof. intros A. exact c17_resize. Qed.
Print Assumptions C17_resizing_simd_cast.
Theorem C17_to_fixed_size : forall A I t (zero : A) a x, simd_type I t a -> is_simd I t a x ->
  exists y, to_fixed_size I t zero a x = Some y /\ is_fixed I t (abi_size t a) y /\
    forall i, i < abi_size t a -> t_get y i = t_get x i.
Proof. intros A. exact c17_fixed. Qed.
Print Assumptions C17_to_fixed_size.
(* to_native and to_compatible: b is the native or compatible ABI, not fixed_size *)
Theorem C17_to_native_to_compatible : forall A I t x86 (zero : A) tmp n b x,
  fixed_size_type I t n -> is_fixed I t n x -> simd_type I t b -> is_fixed_abi b = false -> abi_size t b = n ->
  exists y, through_array I t x86 zero tmp b x = Some y /\ is_simd I t b y /\
    forall i, i < n -> t_get y i = t_get x i.
Proof. intros A. exact c17_array. Qed.
Print Assumptions C17_to_native_to_compatible.

(* instances of the two assumptions: lane by lane and nothing else *)
Definition lanewise_convert (full : nat) (xs : list (list Z)) : list Z :=
  firstn full (map Z.opp (concat xs) ++ repeat 7%Z full).
Fixpoint lanewise_parts (parts lanes : nat) (reg : list Z) : list (list Z) :=
  match parts with
  | 0 => []
  | S p => map Z.opp (firstn lanes reg) :: lanewise_parts p lanes (skipn lanes reg)
  end.
Definition lanewise_unpack (n lanes : nat) : list Z -> list (list Z) := lanewise_parts (n / lanes) lanes.
Example C17_assumptions_hold : converts_registers Z.opp lanewise_convert /\ unpacks_registers Z.opp lanewise_unpack.
Proof.
  split.
  - intros full l k xs Hf Hl Hx. unfold lanewise_convert. split.
    + rewrite firstn_length, app_length, map_length, repeat_length. lia.
    + intros i d e Hi Hc. assert (E : nth_error (firstn full (map Z.opp (concat xs) ++ repeat 7%Z full)) i
        = Some (Z.opp (nth i (concat xs) d))).
      { rewrite nth_error_firstn, nth_error_app1 by (rewrite ?map_length; auto).
        rewrite nth_error_map, (nth_error_nth' _ d) by auto. reflexivity. }
      apply nth_error_nth. auto.
  - intros n lanes reg Hn Hl. assert (Hp : n / lanes * lanes <= length reg)
      by (pose proof (Nat.mul_div_le n lanes); lia).
    unfold lanewise_unpack. generalize dependent (n / lanes). intros parts. clear n Hn Hl. revert reg.
    induction parts as [|p IH]; intros reg Hp; [repeat split; constructor|].
    destruct (IH (skipn lanes reg)) as (H1 & H2 & H3); [rewrite skipn_length; simpl in Hp; lia|].
    cbn [lanewise_parts length concat Nat.mul] in *. split; [congruence|]. split.
    + constructor; auto. rewrite map_length, firstn_length. lia.
    + rewrite H3, <- map_app. f_equal. rewrite <- (firstn_skipn lanes reg) at 3.
      rewrite firstn_app, firstn_length, Nat.min_l by lia. rewrite firstn_firstn, Nat.min_r by lia.
      f_equal. f_equal. lia.
Qed.

Lemma avx2_simd t a : elem_ok t -> abi_valid isa_avx2 t a = true -> simd_type isa_avx2 t a.
Proof. intros Ht Hv. split; [exact avx2_arch|split; auto]. Qed.

(* seven floats in one AVX register to fixed_size<7> doubles (4 + 3) and back;
   the negation marks each converted element *)
Definition seven : tuple Z := [Chunk 7 [1; 2; 3; 4; 5; 6; 7; 99]%Z].
Example C17_nonvacuous :
  simd_type isa_avx2 TFloat (AVecBuiltin 28) /\ simd_type isa_avx2 TDouble (AFixed 7) /\
  abi_size TFloat (AVecBuiltin 28) = abi_size TDouble (AFixed 7) /\ is_simd isa_avx2 TFloat (AVecBuiltin 28) seven /\
  static_simd_cast Z.opp 0%Z 0%Z isa_avx2 TFloat TDouble true true false lanewise_convert lanewise_unpack
    (AVecBuiltin 28) (AFixed 7) seven
  = Some [Chunk 4 [-1; -2; -3; -4]%Z; Chunk 3 [-5; -6; -7; 0]%Z] /\
  static_simd_cast Z.opp 0%Z 0%Z isa_avx2 TDouble TFloat true true false lanewise_convert lanewise_unpack
    (AFixed 7) (AVecBuiltin 28) [Chunk 4 [-1; -2; -3; -4]%Z; Chunk 3 [-5; -6; -7; 0]%Z]
  = Some [Chunk 7 [1; 2; 3; 4; 5; 6; 7; 0]%Z] /\
  resizing_simd_cast isa_avx2 TFloat 0%Z (AVecBuiltin 28) (AFixed 10) seven
  = Some [Chunk 8 [1; 2; 3; 4; 5; 6; 7; 0]%Z; Chunk 2 [0; 0]%Z].
Proof.
  split; [apply avx2_simd; simpl; auto|]. split; [apply avx2_simd; simpl; auto|].
  repeat split; vm_compute; reflexivity.
Qed.
