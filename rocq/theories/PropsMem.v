(* C11 and C12: loads and stores. *)
From Coq Require Import List Arith Bool ZArith Lia.
From Verif Require Import Prelude BitMask BitMaskProofs Abi AbiSpec PropsAbi Targets Fixed FixedSpec Mem MemSpec MemProofs PropsFixed.
Import ListNotations.

(* C11.  copy_to of one register with n elements (scalar, full or partial), to
   memory of element type u (static_cast by conv unless the type is the same):
   only p[0..n) has to exist; afterwards p[i] is the converted element i and
   everything else is unchanged. *)
Theorem C11_register_store : forall T U x86 I u same (conv : T -> U) n reg (p : mem U),
  elem_ok u -> 1 <= n -> n <= length reg ->
  accessible p (fun j => j <? n) ->
  exists p', reg_store x86 I u same conv n reg p = Some p' /\
    forall j, p' j = if j <? n then option_map conv (nth_error reg j) else p j.
Proof. exact @reg_store_spec. Qed.
Print Assumptions C11_register_store.

(* copy_from of one register: only p[0..n) has to exist *)
Theorem C11_register_load : forall U T I u same (conv : U -> T) zu zero n full (p : mem U),
  elem_ok u -> 1 <= n -> n <= full ->
  accessible p (fun j => j <? n) ->
  exists r, reg_load I u same conv zu zero n full p = Some r /\
    length r = full /\ forall i, i < n -> nth_error r i = option_map conv (p i).
Proof. exact @reg_load_spec. Qed.
Print Assumptions C11_register_load.

Theorem C11_register_round_trip : forall T x86 I u (zero : T) n full reg (p : mem T),
  elem_ok u -> 1 <= n -> n <= full -> length reg = full ->
  accessible p (fun j => j <? n) ->
  exists p' r, reg_store x86 I u true (fun v => v) n reg p = Some p' /\
    reg_load I u true (fun v => v) zero zero n full p' = Some r /\
    length r = full /\ forall i, i < n -> nth_error r i = nth_error reg i.
Proof. exact @round_trip. Qed.
Print Assumptions C11_register_round_trip.

(* AVX512BW+VL stores a partial register with a masked store: it writes the
   same bytes as the memcpy it replaces *)
Theorem C11_x86_partial_store : forall B bwvl bytes (reg : list B) (p : mem B),
  1 <= bytes <= 64 -> bytes <= length reg ->
  accessible p (fun j => j <? bytes) ->
  exists p', x86_store bwvl bytes reg p = Some p' /\
    forall j, p' j = if j <? bytes then nth_error reg j else p j.
Proof. exact @x86_store_spec. Qed.
Print Assumptions C11_x86_partial_store.

(* fixed_size: several registers *)
Theorem C11_fixed_store : forall T U x86 I t u n same (conv : T -> U) (x : tuple T) (p : mem U),
  fixed_size_type I t n -> elem_ok u -> is_fixed I t n x ->
  accessible p (fun j => j <? n) ->
  exists p', fs_store (reg_store x86 I u same conv) 0 x p = Some p' /\
    forall j, p' j = if j <? n then option_map conv (t_get x j) else p j.
Proof. exact @c11_fixed_store. Qed.
Print Assumptions C11_fixed_store.

Theorem C11_fixed_load : forall T U I t u n same (conv : U -> T) zu zero s (p : mem U),
  fixed_size_type I t n -> elem_ok u -> storage_shape I t n = Some s ->
  accessible p (fun j => j <? n) ->
  exists x, fs_load (reg_load I u same conv zu zero) s 0 p = Some x /\ is_fixed I t n x /\
    forall i, i < n -> t_get x i = option_map conv (p i).
Proof. exact @c11_fixed_load. Qed.
Print Assumptions C11_fixed_load.

(* memory with exactly the given cells *)
Example C11_nonvacuous :
  elem_ok (TInt 4) /\ accessible (cells [1; 2; 3]%Z) (fun j => j <? 3) /\
  reg_load isa_avx2 (TInt 4) false (fun v => v mod 256)%Z 0%Z 0%Z 3 4 (cells [257; 2; 3]%Z) = Some [1; 2; 3; 0]%Z /\
  (* int[12] -> <char, 12>: three loads *)
  option_map (firstn 12) (reg_load isa_avx2 (TInt 4) false (fun v => v mod 256)%Z 0%Z 0%Z 12 16
     (cells [0; 1; 2; 3; 4; 5; 6; 7; 8; 9; 10; 267]%Z))
  = Some [0; 1; 2; 3; 4; 5; 6; 7; 8; 9; 10; 11]%Z /\
  (exists p, reg_store true isa_avx2 (TInt 4) false (fun v => v) 3 [7; 8; 9; 100]%Z (cells [0; 0; 0; 5]%Z) = Some p /\
     map p [0; 1; 2; 3; 4] = [Some 7; Some 8; Some 9; Some 5; None]%Z) /\
  x86_store_mask 12 = 7%Z /\
  (exists p, x86_store true 12 (seq 100 16) (fun j => if j <? 14 then Some j else None) = Some p /\
     map p [0; 11; 12; 13; 14] = [Some 100; Some 111; Some 12; Some 13; None]) /\
  fixed_size_type isa_avx2 TDouble 7 /\
  (exists x, fs_load (reg_load isa_avx2 TDouble true (fun v => v) 0%Z 0%Z) [(4, 4); (3, 4)] 0
     (cells [10; 11; 12; 13; 14; 15; 16]%Z) = Some x /\ t_get x 5 = Some 15%Z).
Proof.
  repeat match goal with |- _ /\ _ => split end; try reflexivity; try (eexists; split; reflexivity); try (simpl; tauto).
  - intros [|[|[|j]]] H; cbn; discriminate.
  - split; [apply avx2_arch|split; [exact I|cbn; lia]].
Qed.

(* C12.  Masked copy_from / copy_to of one register.  k is the mask register
   with all its lanes.  Only the selected p[i] with i < n have to exist.
   Partial: the paths that use the mask register as it is need the padding
   lanes of the mask to be clear (see C12_masked_refuted). *)
Theorem C12_register_load_partial : forall U T kind (conv : U -> T) n merge k (p : mem U),
  n <= 64 -> n <= length merge ->
  (kind = MLAvx -> clean_mask n k) ->
  accessible p (fun j => (j <? n) && nth j k false) ->
  exists r, vec_masked_load kind conv n merge k p = Some r /\
    length r = length merge /\
    forall i, i < n -> nth_error r i = if nth i k false then option_map conv (p i) else nth_error merge i.
Proof. exact @vec_masked_load_spec. Qed.
Print Assumptions C12_register_load_partial.

Theorem C12_register_store_partial : forall T U x86 I u kind (conv : T -> U) n reg k (p : mem U),
  elem_ok u -> esize u <= 8 -> 1 <= n -> n <= 64 -> n <= length reg -> (exists q, length reg = 2 ^ q) ->
  (kind = MSSame /\ x86 = true \/ kind = MSConvert -> clean_mask n k) ->
  accessible p (fun j => (j <? n) && nth j k false) ->
  exists p', vec_masked_store x86 I u kind conv n reg k p = Some p' /\
    forall j, p' j = if (j <? n) && nth j k false then option_map conv (nth_error reg j) else p j.
Proof. exact @vec_masked_store_spec. Qed.
Print Assumptions C12_register_store_partial.

(* registers without padding need no further hypothesis *)
Theorem C12_full_register_clean : forall n k, length k = n -> clean_mask n k.
Proof. intros n k H i Hi. apply nth_overflow. lia. Qed.
Print Assumptions C12_full_register_clean.

(* fixed_size: no hypothesis on padding *)
Theorem C12_fixed_load : forall T U I t n kind (conv : U -> T) (x : tuple T) k (p : mem U),
  fixed_size_type I t n -> is_fixed I t n x -> bm_clean n k ->
  accessible p (fun j => (j <? n) && nth j (bm_list n k) false) ->
  exists y, fs_masked_load (reg_masked_load kind conv) n k 0 x p = Some y /\ is_fixed I t n y /\
    forall i, i < n -> t_get y i = if nth i (bm_list n k) false then option_map conv (p i) else t_get x i.
Proof. exact @c12_fixed_load. Qed.
Print Assumptions C12_fixed_load.

Theorem C12_fixed_store : forall T U x86 I t u n kind (conv : T -> U) (x : tuple T) k (p : mem U),
  fixed_size_type I t n -> elem_ok u -> esize u <= 8 -> is_fixed I t n x -> bm_clean n k ->
  accessible p (fun j => (j <? n) && nth j (bm_list n k) false) ->
  exists p', fs_masked_store (reg_masked_store x86 I u kind conv) n k 0 x p = Some p' /\
    forall j, p' j = if (j <? n) && nth j (bm_list n k) false then option_map conv (t_get x j) else p j.
Proof. exact @c12_fixed_store. Qed.
Print Assumptions C12_fixed_store.

(* The full statement is false: for simd<int, _VecBuiltin<12>> on AVX2 (three
   elements in a register of four), where(x == x, x).copy_to(p) writes p[3] (or
   is undefined if there is no p[3]) and the masked load reads it. *)
Theorem C12_masked_refuted : exists I t n full,
  arch_ok I /\ elem_ok t /\ abi_valid I t (AVecBuiltin (n * esize t)) = true /\
  abi_shape I t (AVecBuiltin (n * esize t)) = (n, full) /\
  exists p x k,
    vec_load I t true (fun v => v) 0%Z 0%Z n full p = Some x /\
    k = vec_equal_to Z.eqb x x /\
    (exists m', vec_masked_store true I t MSSame (fun v => v) n x k (cells [9; 9; 9; 9]%Z) = Some m' /\
                m' n <> cells [9; 9; 9; 9]%Z n) /\
    vec_masked_store true I t MSSame (fun v => v) n x k (cells [9; 9; 9]%Z) = None /\
    vec_masked_load MLAvx (fun v => v) n x k (cells [9; 9; 9]%Z) = None.
Proof. exact c12_refuted. Qed.
Print Assumptions C12_masked_refuted.

Example C12_nonvacuous :
  clean_mask 3 [true; false; true; false] /\ accessible (cells [1; 2; 3]%Z) (fun j => (j <? 3) && nth j [true; false; true; false] false) /\
  (exists p, vec_masked_store true isa_avx2 (TInt 4) MSSame (fun v => v) 3 [7; 8; 9; 100]%Z [true; false; true; false]
     (fun j => if j =? 1 then None else Some 0%Z) = Some p /\
     map p [0; 1; 2; 3] = [Some 7; None; Some 9; Some 0]%Z) /\
  (* <char, 12> to int[12]: parts of 8 *)
  (exists p, vec_masked_store true isa_avx2 (TInt 4) MSConvert (fun v => v) 12 (seq 50 16)
     (map (fun i => (i =? 2) || (i =? 9)) (seq 0 16)) (fun j => if (j =? 2) || (j =? 9) then Some 0 else None) = Some p /\
     map p [2; 3; 9; 12] = [Some 52; None; Some 59; None]) /\
  bm_clean 7 [82%Z] /\
  (exists y, fs_masked_load (reg_masked_load MLAvx (fun v => v)) 7 [82%Z] 0
     [Chunk 4 [0; 0; 0; 0]; Chunk 3 [0; 0; 0; 0]]%Z (fun j => if (j =? 1) || (j =? 4) || (j =? 6) then Some (Z.of_nat j) else None)
     = Some y /\ map (t_get y) (seq 0 7) = [Some 0; Some 1; Some 0; Some 0; Some 4; Some 0; Some 6]%Z).
Proof.
  split; [intros [|[|[|[|i]]]] H; try lia; auto; destruct i; auto|].
  split; [intros [|[|[|j]]] H; cbn in *; discriminate|].
  repeat match goal with |- _ /\ _ => split end; try (eexists; split; reflexivity).
  split; [split; [reflexivity|repeat constructor; try lia]|].
  intros i Hi. change (bm_array_size 7 * bm_word_bits 7) with 8 in Hi.
  assert (i = 7) by lia. subst. reflexivity.
Qed.
