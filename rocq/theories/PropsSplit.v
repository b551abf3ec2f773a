(* C16: split and concat keep every element and their order. *)
From Coq Require Import List Arith ZArith Bool Lia.
From Verif Require Import Prelude Abi AbiSpec Fixed FixedSpec FixedTop Convert ConvertSpec ConvertCheck
  PropsAbi PropsFixed PropsConvert Split SplitSpec SplitProofs SplitTop SplitFinal.
Import ListNotations.

(* array<V, parts> split<V>(x) *)
Theorem C16_split : forall A (zero : A) I t x86 sse41 alias constant cx86 unpack,
  converts_registers (fun v => v) cx86 -> unpacks_registers (fun v => v) unpack ->
  forall a b x parts, simd_type I t a -> is_simd I t a x -> simd_type I t b -> single_register I t b ->
  abi_size t a = parts * abi_size t b ->
  exists ys, split_same zero I t x86 sse41 alias constant cx86 unpack b a x = Some ys /\ length ys = parts /\
    forall p, p < parts -> exists y, nth_error ys p = Some y /\ is_simd I t b y /\
      forall j, j < abi_size t b -> t_get y j = t_get x (p * abi_size t b + j).
Proof. intros A. exact c16_split. Qed.
Print Assumptions C16_split.

(* tuple<simd<T, deduce_t<T, Sizes>>...> split<Sizes...>(x) *)
Theorem C16_split_sizes : forall A (zero : A) I t x86 sse41 alias constant junk cx86 unpack,
  converts_registers (fun v => v) cx86 -> unpacks_registers (fun v => v) unpack ->
  forall sizes a x, simd_type I t a -> is_simd I t a x -> list_sum sizes = abi_size t a ->
  Forall (fun s => 1 <= s /\ forall b, deduce I t s = Some b -> single_register I t b) sizes ->
  exists ys, split_sizes zero I t x86 sse41 alias constant junk cx86 unpack sizes a x = Some ys /\
    Forall2 (fun s y => exists b, deduce I t s = Some b /\ is_simd I t b y) sizes ys /\
    concat (map (fun p => elements (fst p) (snd p)) (combine sizes ys)) = elements (abi_size t a) x.
Proof. intros A. exact c16_split_sizes. Qed.
Print Assumptions C16_split_sizes.

(* simd<T, deduce_t<T, sum of sizes>> concat(xs...) *)
Theorem C16_concat : forall A (zero : A) I t x86 sse41 constant cx86 unpack,
  converts_registers (fun v => v) cx86 -> unpacks_registers (fun v => v) unpack ->
  forall xs b, arch_ok I -> elem_ok t ->
  Forall (fun p => simd_type I t (fst p) /\ is_simd I t (fst p) (snd p)) xs -> xs <> [] ->
  deduce I t (list_sum (map (fun p => abi_size t (fst p)) xs)) = Some b ->
  exists y, concat_simd zero I t x86 sse41 constant cx86 unpack xs = Some y /\ is_simd I t b y /\
    elements (abi_size t b) y = concat (map (fun p => elements (abi_size t (fst p)) (snd p)) xs).
Proof. intros A. exact c16_concat. Qed.
Print Assumptions C16_concat.

(* concat(split<V>(x)) is x *)
Theorem C16_round_trip : forall A (zero : A) I t x86 sse41 alias constant cx86 unpack,
  converts_registers (fun v => v) cx86 -> unpacks_registers (fun v => v) unpack ->
  forall a b x parts, simd_type I t a -> is_simd I t a x -> simd_type I t b -> single_register I t b ->
  abi_size t a = parts * abi_size t b ->
  exists ys y c, split_same zero I t x86 sse41 alias constant cx86 unpack b a x = Some ys /\
    concat_simd zero I t x86 sse41 constant cx86 unpack (map (fun p => (b, p)) ys) = Some y /\
    deduce I t (abi_size t a) = Some c /\ is_simd I t c y /\
    forall i, i < abi_size t a -> t_get y i = t_get x i.
Proof. intros A. exact c16_round_trip. Qed.
Print Assumptions C16_round_trip.

(* array<V, parts> split<V>(mask), unless a partial AVX register is cut in two *)
Theorem C16_mask_split_partial : forall I t a b x parts,
  simd_type I t a -> length x = mask_lanes I t a -> simd_type I t b ->
  abi_size t a = parts * abi_size t b -> ~ halves_partial b a ->
  exists ys, split_mask I t b a x = Some ys /\ length ys = parts /\
    forall p, p < parts -> exists y, nth_error ys p = Some y /\ abi_size t b <= length y /\
      forall j, j < abi_size t b -> mask_get y j = mask_get x (p * abi_size t b + j).
Proof. exact c16_mask_split. Qed.
Print Assumptions C16_mask_split_partial.

(* Finding: cut in two, a partial AVX mask loses the element after the first half:
   the second part starts at byte 16 of the register, not at element n / 2 *)
Theorem C16_mask_split_refuted : forall I t B B',
  simd_type I t (AVecBuiltin B) -> simd_type I t (AVecBuiltin B') ->
  abi_size t (AVecBuiltin B) = 2 * abi_size t (AVecBuiltin B') -> halves_partial (AVecBuiltin B') (AVecBuiltin B) ->
  exists x ys y, length x = mask_lanes I t (AVecBuiltin B) /\ split_mask I t (AVecBuiltin B') (AVecBuiltin B) x = Some ys /\
    nth_error ys 1 = Some y /\ mask_get x (abi_size t (AVecBuiltin B')) = Some true /\ mask_get y 0 = Some false.
Proof. exact c16_mask_refuted. Qed.
Print Assumptions C16_mask_split_refuted.

(* Finding: on 32-bit x86 split<8, 8, 8>(fixed_size_simd<char, 24>) does not compile:
   the last part is stored as two registers but has a one-register type *)
Theorem C16_i386_refuted : forall A (zero : A) x86 sse41 alias constant junk cx86 unpack x,
  is_fixed isa_i386_sse2 (TInt 1) 24 x -> constant x = false ->
  deduce isa_i386_sse2 (TInt 1) 8 = Some (AVecBuiltin 8) /\
  split_sizes zero isa_i386_sse2 (TInt 1) x86 sse41 alias constant junk cx86 unpack [8; 8; 8] (AFixed 24) x = None.
Proof.
  intros A zero x86 sse41 alias constant junk cx86 unpack x Hx Hc. split; [vm_compute; reflexivity|].
  assert (E : storage_shape isa_i386_sse2 (TInt 1) 24 = Some [(16, 16); (4, 4); (4, 4)]) by (vm_compute; reflexivity).
  unfold is_fixed in Hx. rewrite E in Hx. injection Hx as Hx.
  destruct x as [|[n1 r1] [|[n2 r2] [|[n3 r3] [|? ?]]]]; try discriminate. unfold tshape, cshape in Hx. cbn [map csize creg] in Hx.
  injection Hx as <- _ <- _ <- _.
  unfold split_sizes. rewrite Hc. cbn [abi_size Nat.eqb is_fixed_abi hd csize andb].
  replace (forallb (fun s => is_native_register (deduce isa_i386_sse2 (TInt 1) s)) [8; 8; 8]) with true by (vm_compute; reflexivity).
  replace (special 24 [8; 8; 8]) with (Some [Part 0 3 1; Part 1 3 1; Part 2 3 1]) by (vm_compute; reflexivity).
  cbn [length Nat.eqb combine omapm fst snd extract].
  replace (tuple_extract zero isa_i386_sse2 (TInt 1) x86 alias constant [Chunk 16 r1; Chunk 4 r2; Chunk 4 r3] 2 3 1) with (@None (list A))
    by reflexivity.
  cbn [option_map].
  repeat match goal with |- context [tuple_extract ?a ?b ?c ?d ?e ?f ?g ?i ?j ?k] => destruct (tuple_extract a b c d e f g i j k) end;
    reflexivity.
Qed.
Print Assumptions C16_i386_refuted.

(* twelve floats with AVX2: fixed_size<12> is 8 + 4; two halves of six *)
Definition copies (full : nat) (xs : list (list Z)) : list Z := firstn full (concat xs ++ repeat 7%Z full).
Fixpoint unpack_parts (parts lanes : nat) (reg : list Z) : list (list Z) :=
  match parts with 0 => [] | S p => firstn lanes reg :: unpack_parts p lanes (skipn lanes reg) end.
Definition unpacks (n lanes : nat) : list Z -> list (list Z) := unpack_parts (n / lanes) lanes.
Definition twelve : tuple Z := [Chunk 8 [1; 2; 3; 4; 5; 6; 7; 8]%Z; Chunk 4 [9; 10; 11; 12]%Z].
Example C16_assumptions_hold : converts_registers (fun v => v) copies /\ unpacks_registers (fun v => v) unpacks.
Proof.
  split.
  - intros full l k xs Hf Hl Hx. unfold copies. split.
    + rewrite firstn_length, app_length, repeat_length. lia.
    + intros i d e Hi Hc. rewrite <- (Prelude.nth_firstn_lt _ full) by auto. rewrite firstn_firstn, Nat.min_id.
      rewrite Prelude.nth_firstn_lt by auto. rewrite app_nth1 by auto. apply nth_indep. auto.
  - intros n lanes reg Hn Hl. assert (Hp : n / lanes * lanes <= length reg)
      by (pose proof (Nat.mul_div_le n lanes); lia).
    unfold unpacks. generalize dependent (n / lanes). intros parts. clear n Hn Hl. revert reg.
    induction parts as [|p IH]; intros reg Hp; [repeat split; constructor|].
    destruct (IH (skipn lanes reg)) as (H1 & H2 & H3); [rewrite skipn_length; simpl in Hp; lia|].
    cbn [unpack_parts length concat Nat.mul] in *. rewrite map_id in *. split; [congruence|]. split.
    + constructor; auto. rewrite firstn_length. lia.
    + rewrite H3. rewrite <- (firstn_skipn lanes reg) at 3.
      rewrite firstn_app, firstn_length, Nat.min_l by lia. rewrite firstn_firstn, Nat.min_r by lia.
      f_equal. f_equal. lia.
Qed.
Example C16_nonvacuous :
  simd_type isa_avx2 TFloat (AFixed 12) /\ is_simd isa_avx2 TFloat (AFixed 12) twelve /\
  simd_type isa_avx2 TFloat (AVecBuiltin 24) /\ single_register isa_avx2 TFloat (AVecBuiltin 24) /\
  split_same 0%Z isa_avx2 TFloat true true true (fun _ => false) copies unpacks (AVecBuiltin 24) (AFixed 12) twelve
  = Some [[Chunk 6 [1; 2; 3; 4; 5; 6; 7; 8]%Z]; [Chunk 6 [7; 8; 9; 10; 11; 12; 0; 0]%Z]] /\
  split_sizes 0%Z isa_avx2 TFloat true true true (fun _ => false) (fun _ => 5%Z) copies unpacks [8; 1; 3] (AFixed 12) twelve
  = Some [[Chunk 8 [1; 2; 3; 4; 5; 6; 7; 8]%Z]; [Chunk 1 [9%Z]]; [Chunk 3 [10; 11; 12; 0]%Z]] /\
  split_sizes 0%Z isa_avx2 TFloat true true true (fun _ => false) (fun _ => 5%Z) copies unpacks [2; 4; 2] (AVecBuiltin 32)
    [Chunk 8 [1; 2; 3; 4; 5; 6; 7; 8]%Z]
  = Some [[Chunk 2 [1; 2]%Z]; [Chunk 4 [3; 4; 5; 6]%Z]; [Chunk 2 [7; 8]%Z]] /\
  concat_simd 0%Z isa_avx2 TFloat true true (fun _ => false) copies unpacks
    [(AVecBuiltin 12, [Chunk 3 [1; 2; 3; 99]%Z]); (AScalar, [Chunk 1 [4]%Z]); (AVecBuiltin 16, [Chunk 4 [5; 6; 7; 8]%Z])]
  = Some [Chunk 8 [1; 2; 3; 4; 5; 6; 7; 8]%Z].
Proof.
  split; [apply avx2_simd; simpl; auto|]. split; [vm_compute; reflexivity|]. split; [apply avx2_simd; simpl; auto|].
  split; [exists (6, 8); vm_compute; reflexivity|]. repeat split; vm_compute; reflexivity.
Qed.
Example C16_masks_nonvacuous :
  simd_type isa_avx2 TFloat (AVecBuiltin 24) /\ simd_type isa_avx2 TFloat (AVecBuiltin 12) /\
  halves_partial (AVecBuiltin 12) (AVecBuiltin 24) /\
  split_mask isa_avx2 TFloat (AVecBuiltin 12) (AVecBuiltin 24) [true; false; false; true; false; true; false; false]
  = Some [[true; false; false; true]; [false; true; false; false]] /\
  ~ halves_partial (AVecBuiltin 8) (AVecBuiltin 24) /\
  split_mask isa_avx2 TFloat (AVecBuiltin 8) (AVecBuiltin 24) [true; false; false; true; false; true; false; false]
  = Some [[true; false]; [false; true]; [false; true]] /\
  (exists x, is_fixed (A := Z) isa_i386_sse2 (TInt 1) 24 x).
Proof.
  split; [apply avx2_simd; simpl; auto|]. split; [apply avx2_simd; simpl; auto|].
  split; [simpl; lia|]. split; [vm_compute; reflexivity|]. split; [simpl; lia|]. split; [vm_compute; reflexivity|].
  exists [Chunk 16 (repeat 0%Z 16); Chunk 4 (repeat 0%Z 4); Chunk 4 (repeat 0%Z 4)]. vm_compute. reflexivity.
Qed.
