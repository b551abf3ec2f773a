(* split and concat keep the elements and their order. *)
From Coq Require Import List Arith Bool Lia.
From Verif Require Import Prelude BitMask BitMaskProofs Abi AbiSpec AbiProofs Fixed FixedSpec FixedProofs
  FixedApply Targets Profile FixedStorage FixedMixed FixedTop Mem MemSpec MemProofs
  Convert ConvertSpec ConvertProofs ConvertCheck ConvertTop Split SplitSpec.
Import ListNotations.

Lemma bc_mono a b : a <= b -> bit_ceil a <= bit_ceil b.
Proof. intros H. unfold bit_ceil. apply Nat.pow_le_mono_r; [lia|]. apply Nat.log2_up_le_mono. auto. Qed.
Lemma bc_above8 a : 8 < bit_ceil a -> 16 <= bit_ceil a.
Proof.
  unfold bit_ceil. intros H. change 16 with (2 ^ 4). apply Nat.pow_le_mono_r; [lia|].
  change 8 with (2 ^ 3) in H. apply Nat.pow_lt_mono_r_iff in H; lia.
Qed.
Lemma bc_le16 a : a <= 16 -> bit_ceil a <= 16.
Proof. intros H. apply (bc_mono a 16) in H. exact H. Qed.

Lemma lanes_mono I t m n : 1 <= esize t -> 1 <= m <= n -> lanes_of I t m <= lanes_of I t n.
Proof.
  intros Ht H. unfold lanes_of. destruct (Nat.eqb_spec m 1), (Nat.eqb_spec n 1); try lia.
  - apply Nat.div_le_lower_bound; [lia|]. pose proof (vtb_ge I t n ltac:(lia) Ht). nia.
  - apply Nat.div_le_mono; [lia|]. unfold vector_type_bytes. cbv zeta.
    pose proof (bc_mono (m * esize t) (n * esize t) ltac:(nia)).
    pose proof (BitMaskProofs.bit_ceil_ge (m * esize t) ltac:(nia)).
    pose proof (bc_above8 (n * esize t)).
    destruct (def_i386 I); cbn [andb].
    2: destruct (Nat.ltb_spec (bit_ceil (m * esize t)) (2 * esize t)), (Nat.ltb_spec (bit_ceil (n * esize t)) (2 * esize t)); lia.
    destruct (Nat.eqb_spec (bit_ceil (m * esize t)) 8), (Nat.eqb_spec (bit_ceil (n * esize t)) 8);
      destruct (Nat.ltb_spec (bit_ceil (m * esize t)) (2 * esize t)), (Nat.ltb_spec (bit_ceil (n * esize t)) (2 * esize t)); nia.
Qed.
(* up to 16 bytes fit 16 bytes *)
Lemma lanes_16 I t n : 1 <= esize t -> 1 <= n -> n * esize t <= 16 -> lanes_of I t n * esize t <= 16.
Proof.
  intros Ht Hn Hb. unfold lanes_of. destruct (Nat.eqb_spec n 1); [lia|].
  assert (vector_type_bytes I t n <= 16).
  { unfold vector_type_bytes. cbv zeta. pose proof (bc_le16 _ Hb).
    destruct (def_i386 I && _); [lia|]. destruct (Nat.ltb_spec (bit_ceil (n * esize t)) (2 * esize t)); nia. }
  pose proof (Nat.div_mod (vector_type_bytes I t n) (esize t)). nia.
Qed.

Lemma extract_part_length {A} I t (zero : A) x86 cp np reg : 1 <= esize t -> length reg = lanes_of I t np ->
  forall fuel index total combine v r,
  1 <= combine -> 1 <= total -> 1 <= v -> np = total * v -> index + combine <= total ->
  extract_part I t zero x86 cp np reg fuel index total combine = Some r ->
  length r = lanes_of I t (combine * v).
Proof.
  intros Ht Hreg. induction fuel as [|fuel IH]; intros index total combine v r Hc Htot Hv Hnp Hb;
    cbn [extract_part]; destruct ((index mod 2 =? 0) && (total mod 2 =? 0) && (combine mod 2 =? 0)) eqn:E;
    try discriminate.
  2: { btrue. intros Hr.
    assert (Hi : index = 2 * (index / 2)) by (pose proof (Nat.div_mod index 2); lia).
    assert (Hto : total = 2 * (total / 2)) by (pose proof (Nat.div_mod total 2); lia).
    assert (Hco : combine = 2 * (combine / 2)) by (pose proof (Nat.div_mod combine 2); lia).
    set (i := index / 2) in *. set (tt := total / 2) in *. set (c := combine / 2) in *.
    rewrite (IH i tt c (2 * v) r); auto; try lia; try nia. f_equal. nia. }
  all: cbv zeta; assert (Ev : np / total = v) by (subst np; rewrite Nat.mul_comm; apply Nat.div_mul; lia);
    rewrite Ev; set (ret := v * combine); set (skip := index * v); set (R := lanes_of I t ret);
    replace (combine * v) with ret by (unfold ret; nia); fold R;
    assert (HR : ret <= R) by (apply lanes_of_ge; unfold ret; nia);
    assert (Hret : 1 <= ret <= np) by (unfold ret; nia);
    assert (HRn : R <= lanes_of I t np) by (apply lanes_mono; auto);
    pose proof (lanes_of_ge I t np ltac:(nia) Ht) as Hnl;
    assert (Hs : skip + ret <= length reg) by (unfold skip, ret; nia);
    destruct (Nat.ltb_spec (length reg * esize t) ((index + combine) * v * esize t)); [discriminate|];
    (destruct cp; [intros Hr; injection Hr as <-; rewrite app_length, firstn_length, skipn_length, repeat_length; lia|]);
    (destruct (Nat.eqb_spec index 0) as [E0|E0]; cbn [andb];
     [destruct (Nat.eqb_spec total 1) as [E1|E1]; intros Hr; injection Hr as <-;
      [unfold R; rewrite Hreg; f_equal; unfold ret; nia|rewrite firstn_length, app_length, repeat_length; lia]|]);
    destruct (x86 && (length reg * esize t =? 32) && (ret * esize t <=? 16)) eqn:E32.
  1,3: btrue; assert (HR16 : R <= 16 / esize t) by
         (apply Nat.div_le_lower_bound; [lia|]; pose proof (lanes_16 I t ret Ht ltac:(lia) ltac:(lia)); unfold R; lia);
       assert (Hhalf : 16 / esize t <= length reg - 16 / esize t) by
         (pose proof (Nat.mul_div_le 16 (esize t)); nia);
       destruct (Nat.eqb_spec (skip * esize t) 16); intros Hr; injection Hr as <-;
       rewrite ?firstn_length, ?app_length, ?skipn_length, ?repeat_length; lia.
  all: match goal with |- context [if ?c then _ else _] => destruct c end; intros Hr; injection Hr as <-;
       rewrite ?firstn_length, ?app_length, ?firstn_length, ?skipn_length, ?repeat_length; lia.
Qed.

(* the storage of what follows the first register *)
Lemma builder_more I t : forall f n l, storage_builder f I t n = Some l -> forall f', f <= f' -> storage_builder f' I t n = Some l.
Proof.
  induction f as [|f IH]; intros n l H f' Hf; [discriminate|]. destruct f' as [|f']; [lia|].
  cbn [storage_builder] in *. destruct (best_abi I t all_native_abis n) as [a|]; [|discriminate].
  destruct (negb (abi_valid I t a)); [discriminate|]. destruct (n <? abi_size t a); [discriminate|].
  destruct (n - abi_size t a =? 0); auto.
  destruct (storage_builder f I t (n - abi_size t a)) as [l'|] eqn:E; [|discriminate].
  rewrite (IH _ _ E f') by lia. auto.
Qed.
Lemma storage_tail I t n p s : elem_ok t -> storage_shape I t n = Some (p :: s) -> s <> [] ->
  storage_shape I t (n - fst p) = Some s.
Proof.
  intros Ht H Hs. unfold storage_shape, fixed_size_storage in *.
  destruct (storage_builder n I t n) as [l|] eqn:E; [|discriminate]. cbn [option_map] in H.
  destruct l as [|a l]; [discriminate|]. cbn [map] in H. injection H as <- <-.
  destruct n as [|n]; [discriminate|]. cbn [storage_builder] in E.
  destruct (best_abi I t all_native_abis (S n)) as [b|]; [|discriminate].
  destruct (abi_valid I t b) eqn:Hv; [|discriminate]. cbn [negb] in E.
  destruct (S n <? abi_size t b); [discriminate|].
  destruct (S n - abi_size t b =? 0) eqn:Ez; [injection E as -> <-; exfalso; apply Hs; reflexivity|].
  destruct (storage_builder n I t (S n - abi_size t b)) as [l'|] eqn:E'; [|discriminate].
  injection E as -> ->. pose proof (valid_size_pos I t a Hv).
  change (fst (abi_shape I t a)) with (abi_size t a).
  assert (Hn : 1 <= S n - abi_size t a).
  { apply Nat.eqb_neq in Ez. lia. }
  destruct (storage_total I t (elem_ok_pos t Ht) (S n - abi_size t a) (S n - abi_size t a) Hn ltac:(lia)) as (l2 & E2 & _).
  rewrite (builder_more I t _ _ _ E2 n) in E' by lia. injection E' as <-. rewrite E2. reflexivity.
Qed.

(* registers of a fixed_size object have the lanes of their vector type *)
Definition proper {A} (I : isa) (t : elem) (x : tuple A) : Prop :=
  Forall (fun c => length (creg c) = lanes_of I t (csize c)) x.
Lemma full_lanes I t a : elem_ok t -> vector_tag a -> abi_valid I t a = true ->
  abi_full_size I t a = lanes_of I t (abi_size t a).
Proof.
  intros Ht Ha Hv. pose proof (full_facts I t a Ht Ha Hv). unfold lanes_of.
  destruct (Nat.eqb_spec (abi_size t a) 1); [lia|].
  destruct a as [|m|b|b]; try (exfalso; exact Ha); unfold abi_full_size; rewrite Hv; auto.
Qed.
Lemma fixed_proper I t n {A} (x : tuple A) : fixed_size_type I t n -> is_fixed I t n x -> proper I t x.
Proof.
  intros (HI & Ht & Hn) Hx. unfold is_fixed, storage_shape, fixed_size_storage in Hx.
  destruct (storage_total I t (elem_ok_pos t Ht) n n ltac:(lia) ltac:(lia)) as (l & E & Hl & _).
  rewrite E in Hx. cbn [option_map] in Hx. apply some_inj in Hx.
  clear E. unfold proper. revert x Hx. induction Hl as [|a l [Hv Hr] Hl IH]; intros [|c x] Hx; try discriminate; auto.
  unfold tshape in Hx. cbn [map] in Hx. injection Hx as H1 H2 H3. constructor; [|apply IH; auto].
  rewrite <- H1, <- H2.
  destruct a as [|m|b|b].
  - reflexivity.
  - exfalso. exact Hr.
  - apply full_lanes; simpl; auto.
  - apply full_lanes; simpl; auto.
Qed.

(* a register of n elements is what deduce_t finds *)
Lemma deduce_register I t a : elem_ok t -> abi_valid I t a = true -> is_register a ->
  exists b, deduce I t (abi_size t a) = Some b /\ is_register b.
Proof.
  intros Ht Hv Hr. pose proof (elem_ok_pos t Ht) as Hp.
  assert (H : has_valid_abi I t all_native_abis (abi_size t a) = true).
  { unfold all_native_abis, has_valid_abi. destruct a as [|m|b|b]; try (exfalso; exact Hr).
    - cbn [abi_size]. rewrite Nat.mul_1_r. cbn [fam_valid]. rewrite Nat.eqb_refl.
      cbn [abi_valid andb]. rewrite !orb_true_r. reflexivity.
    - destruct (register_le I t (AVecBuiltin b) Ht Logic.I Hv) as [_ E]. cbn [fam_valid fam_abi].
      rewrite (Nat.mul_comm (esize t)), <- E, Hv, orb_true_r. reflexivity.
    - destruct (register_le I t (AVecBltnBtmsk b) Ht Logic.I Hv) as [_ E]. cbn [fam_valid fam_abi].
      rewrite (Nat.mul_comm (esize t)), <- E, Hv. reflexivity. }
  unfold deduce. rewrite H. destruct (has_first _ _ _ _ H) as (b & Eb). exists b. split; auto.
  pose proof (valid_size_pos I t a Hv) as Hs. destruct (first_valid_spec I t _ _ b Hp Hs Eb) as (_ & _ & R). exact R.
Qed.
Lemma deduce_facts I t n b : arch_ok I -> elem_ok t -> 1 <= n -> deduce I t n = Some b ->
  simd_type I t b /\ abi_size t b = n.
Proof.
  intros HI Ht Hn Hd. pose proof (elem_ok_pos t Ht) as Hp. unfold deduce in Hd.
  destruct (has_valid_abi I t all_native_abis n).
  - destruct (first_valid_spec I t _ _ b Hp Hn Hd) as (H1 & H2 & _). split; [split; [auto|split; auto]|auto].
  - destruct (abi_valid I t (AFixed n)) eqn:E; [|discriminate]. injection Hd as <-.
    split; [split; [auto|split; auto]|reflexivity].
Qed.
(* the first register of a fixed_size type *)
Lemma first_deduced I t n p s : arch_ok I -> elem_ok t -> storage_shape I t n = Some (p :: s) ->
  exists b, deduce I t (fst p) = Some b /\ is_register b.
Proof.
  intros HI Ht H. unfold storage_shape, fixed_size_storage in H.
  destruct n as [|n]; [discriminate|].
  destruct (storage_total I t (elem_ok_pos t Ht) (S n) (S n) ltac:(lia) ltac:(lia)) as (l & E & Hl & _).
  rewrite E in H. cbn [option_map] in H. apply some_inj in H. destruct l as [|a l]; [discriminate|].
  cbn [map] in H. injection H as <- _. apply Forall_inv in Hl. destruct Hl. apply deduce_register; auto.
Qed.

(* ------------------------------------------------------------------ *)
(* element lists                                                        *)
Lemma list_by_index {X} (l m : list X) : length l = length m ->
  (forall i, i < length l -> nth_error l i = nth_error m i) -> l = m.
Proof.
  revert m. induction l as [|a l IH]; intros [|b m] Hl H; try discriminate; auto.
  pose proof (H 0 ltac:(simpl; lia)) as H0. injection H0 as ->. f_equal. apply IH; [simpl in Hl; lia|].
  intros i Hi. apply (H (S i)). simpl. lia.
Qed.
Lemma telems_by_get {X} (y : tuple X) k l : dense (tshape y) -> ssize (tshape y) = k -> length l = k ->
  (forall i, i < k -> t_get y i = nth_error l i) -> telems y = l.
Proof.
  intros Hd Hs Hl H. assert (length (telems y) = k) by (rewrite telems_length; auto; apply dense_ok; auto).
  apply list_by_index; [lia|]. intros i Hi. rewrite <- get_elems by (auto; lia). apply H. lia.
Qed.
Lemma nth_error_part {X} (l : list X) k o i : i < k -> nth_error (firstn k (skipn o l)) i = nth_error l (o + i).
Proof. intros. rewrite nth_error_firstn by auto. apply nth_error_skipn'. Qed.

Section Pieces.
Context {A : Type}.
Variables (zero : A) (I : isa) (t : elem) (x86 sse41 alias : bool) (constant : tuple A -> bool) (junk : nat -> A).
Variables (cx86 : nat -> list (list A) -> list A) (unpack : nat -> nat -> list A -> list (list A)).
Hypothesis Hcx : converts_registers (fun v => v) cx86.
Hypothesis Hun : unpacks_registers (fun v => v) unpack.

(* y holds the k elements of x from o on *)
Definition holds (x : tuple A) (o : nat) (b : abi) (y : tuple A) : Prop :=
  is_simd I t b y /\ telems y = firstn (abi_size t b) (skipn o (telems x)).

Lemma object_get (x : tuple A) i : dense (tshape x) -> i < ssize (tshape x) -> object zero x i = t_get x i.
Proof.
  intros Hd Hi. unfold object, obj_mem. rewrite get_elems by auto. rewrite <- dense_mem by auto.
  pose proof (dense_lanes _ Hd). rewrite nth_error_firstn by auto.
  rewrite nth_error_app1; auto. rewrite tmem_length. lia.
Qed.

Lemma fixed_type n : simd_type I t (AFixed n) -> fixed_size_type I t n.
Proof.
  intros (HI & Ht & Hv). cbn [abi_valid] in Hv. btrue. split; [auto|split; [auto|lia]].
Qed.

Lemma load_spec b (m : mem A) : simd_type I t b -> accessible m (below (abi_size t b)) ->
  exists y, load_simd zero I t b m = Some y /\ is_simd I t b y /\ forall i, i < abi_size t b -> t_get y i = m i.
Proof.
  intros Hb Hm. pose proof Hb as (HI & Ht & Hv).
  assert (Hone : forall full, 1 <= abi_size t b <= full -> [ (abi_size t b, full) ] = [ abi_shape I t b ] ->
    exists y, option_map (fun r => [Chunk (abi_size t b) r])
      (reg_load I t true (fun v => v) zero zero (abi_size t b) full m) = Some y /\
      Some [abi_shape I t b] = Some (tshape y) /\ forall i, i < abi_size t b -> t_get y i = m i).
  { intros full Hf Es. destruct (reg_load_spec I t true (fun v : A => v) zero zero (abi_size t b) full m) as (r & E & L & N);
      auto; try lia.
    rewrite E. eexists. split; [reflexivity|]. split.
    - rewrite <- Es, <- L. reflexivity.
    - intros i Hi. unfold t_get, chunk_read. cbn [creg]. rewrite N by auto. destruct (m i); reflexivity. }
  destruct b as [|n|b|b].
  - apply Hone; [simpl; lia|reflexivity].
  - pose proof (fixed_type n Hb) as Hft.
    destruct (shape_facts I t (AFixed n) Hb) as (s & Es & Ds & Ss & Ns). cbn [simd_shape] in Es.
    destruct (c11_fixed_load I t t n true (fun v : A => v) zero zero s m Hft Ht Es Hm) as (y & E & Hy & N).
    exists y. unfold load_simd. rewrite Es. split; auto. split; auto.
    intros i Hi. rewrite N by auto. destruct (m i); reflexivity.
  - pose proof (full_facts I t (AVecBuiltin b) Ht Logic.I Hv). apply Hone; [lia|reflexivity].
  - pose proof (full_facts I t (AVecBltnBtmsk b) Ht Logic.I Hv). apply Hone; [lia|reflexivity].
Qed.

Lemma generate_spec b (g : nat -> option A) : simd_type I t b -> (forall j, j < abi_size t b -> g j <> None) ->
  exists y, generate_simd zero I t b g = Some y /\ is_simd I t b y /\ forall i, i < abi_size t b -> t_get y i = g i.
Proof.
  intros Hb Hg. destruct (shape_facts I t b Hb) as (s & Es & Ds & Ss & Ns).
  destruct (omapm_spec g (seq 0 (abi_size t b))) as (l & E & L & N).
  { intros j Hj. apply in_seq in Hj. apply Hg. lia. }
  rewrite seq_length in L. unfold generate_simd. rewrite Es, E. eexists. split; [reflexivity|].
  unfold fs_generator.
  match goal with |- is_simd _ _ _ ?y /\ _ => set (yy := y) end.
  assert (Hsh : tshape yy = s).
  { apply t_generate_spec. intros. unfold reg_generator. rewrite map_length, seq_length. auto. }
  split; [unfold is_simd; rewrite Hsh; auto|].
  intros i Hi. rewrite get_elems by (rewrite Hsh; auto; lia).
  assert (Htel : telems yy = map (fun i => nth i l zero) (seq 0 (ssize s))).
  { apply (generator_elems zero s 0 (abi_size t b) (fun i => nth i l zero)); [apply dense_le; auto|lia]. }
  rewrite Htel. rewrite nth_error_map, nth_error_seq by lia. cbn [option_map plus].
  rewrite <- (N i i) by (rewrite nth_error_seq by auto; auto). symmetry. apply nth_error_nth'. lia.
Qed.

(* a piece described element by element *)
Lemma holds_get x o b y : simd_type I t b -> Forall chunk_ok x -> o + abi_size t b <= length (telems x) ->
  is_simd I t b y -> (forall i, i < abi_size t b -> t_get y i = nth_error (telems x) (o + i)) -> holds x o b y.
Proof.
  intros Hb Hx Ho Hy H. split; auto. destruct (simd_facts I t b y Hb Hy) as (D & S & _ & L & _).
  apply (telems_by_get y (abi_size t b)); auto.
  - rewrite firstn_length, skipn_length. lia.
  - intros i Hi. rewrite nth_error_part by auto. auto.
Qed.
Lemma register_holds x o b n r : simd_type I t b -> vector_tag b -> n = abi_size t b ->
  length r = lanes_of I t n -> firstn n r = firstn n (skipn o (telems x)) -> holds x o b [Chunk n r].
Proof.
  intros (HI & Ht & Hv) Hb -> Hr E. split.
  - apply register_is; auto. rewrite full_lanes by auto. exact Hr.
  - rewrite one_elems. exact E.
Qed.

Lemma cast_same_spec a b x : simd_type I t a -> simd_type I t b -> abi_size t a = abi_size t b -> is_simd I t a x ->
  exists y, cast_same zero I t x86 sse41 constant cx86 unpack a b x = Some y /\ holds x 0 b y.
Proof.
  intros Ha Hb Hs Hx. destruct (simd_facts I t a x Ha Hx) as (_ & _ & _ & L & _). pose proof Ha as (_ & Ht & _).
  unfold cast_same, holds. cbn [skipn]. rewrite <- Hs, <- L, firstn_all.
  destruct (abi_eqb a b) eqn:E; [apply abi_eqb_spec in E; subst b; exists x; auto|].
  destruct (cast_spec (fun v : A => v) zero zero I t t x86 sse41 (constant x) cx86 unpack Hcx Hun) with (a := a) (b := b) (x := x)
    as (y & Ey & Hy & He); auto; try (apply elem_ok_pos; auto).
  exists y. split; auto. split; auto. rewrite He. apply map_id.
Qed.
End Pieces.
