(* The registers that hold objects on 64-bit x86. *)
From Coq Require Import List Arith Bool Lia.
From Verif Require Import Prelude BitMask BitMaskProofs Abi AbiSpec AbiProofs Fixed FixedSpec FixedProofs
  FixedApply Targets Profile FixedStorage FixedMixed Convert ConvertSpec ConvertProofs ConvertCheck ConvertTop.
Import ListNotations.

(* ------------------------------------------------------------------ *)
Lemma bit_ceil_pow k : bit_ceil (2 ^ k) = 2 ^ k.
Proof. unfold bit_ceil. rewrite Nat.log2_up_pow2 by lia. auto. Qed.
Lemma bit_ceil_mul n e : 1 <= n -> bit_ceil (n * 2 ^ e) = bit_ceil n * 2 ^ e.
Proof. intros Hn. unfold bit_ceil. rewrite Nat.log2_up_mul_pow2 by lia. rewrite Nat.pow_add_r. apply Nat.mul_comm. Qed.
Lemma bit_ceil_mono a b : a <= b -> bit_ceil a <= bit_ceil b.
Proof. intros H. unfold bit_ceil. apply Nat.pow_le_mono_r; [lia|]. apply Nat.log2_up_le_mono. auto. Qed.
Lemma bit_ceil_lt n : 1 <= n -> bit_ceil n < 2 * n.
Proof.
  intros Hn. destruct (Nat.eq_dec n 1) as [->|]; [cbv; lia|].
  unfold bit_ceil. pose proof (Nat.log2_up_spec n ltac:(lia)) as [H _].
  assert (1 <= Nat.log2_up n) by (pose proof (Nat.log2_up_pos n); lia).
  replace (Nat.log2_up n) with (S (pred (Nat.log2_up n))) at 1 by lia. rewrite Nat.pow_succ_r'. lia.
Qed.
Lemma elem_pow t : elem_ok t -> esize t <= 8 -> exists e, esize t = 2 ^ e /\ e <= 3.
Proof.
  intros Ht H8. assert (esize t = 1 \/ esize t = 2 \/ esize t = 4 \/ esize t = 8).
  { destruct t; simpl in *; try lia. }
  destruct H as [E|[E|[E|E]]]; rewrite E; [exists 0|exists 1|exists 2|exists 3]; simpl; auto with arith.
Qed.

Section Target.
Variables (I : isa) (t : elem).
Hypothesis HI : arch_ok I.
Hypothesis Hx : def_x86_64 I = true.
Hypothesis Ht : elem_ok t.
Hypothesis H8 : esize t <= 8.

Lemma not_i386 : def_i386 I = false.
Proof.
  destruct HI as (_ & _ & _ & _ & H & _). destruct (def_i386 I); auto. exfalso. apply H. auto.
Qed.
Lemma lanes_of_ceil n : 1 <= n -> lanes_of I t n = bit_ceil n.
Proof.
  intros Hn. unfold lanes_of. destruct (Nat.eqb_spec n 1) as [->|E]; [reflexivity|].
  unfold vector_type_bytes. rewrite not_i386. cbn [andb].
  destruct (elem_pow t Ht H8) as (e & -> & _). rewrite bit_ceil_mul by auto.
  assert (2 <= bit_ceil n) by (pose proof (bit_ceil_ge n Hn); lia).
  assert (0 < 2 ^ e) by (pose proof (Nat.pow_nonzero 2 e); lia).
  destruct (Nat.ltb_spec (bit_ceil n * 2 ^ e) (2 * 2 ^ e)); [nia|]. apply Nat.div_mul. lia.
Qed.
Lemma vsz_x86 : exists k, vectorized_sizeof I t = 2 ^ k /\ 4 <= k <= 6.
Proof.
  destruct HI as ((_ & _ & _ & _ & _ & _ & H & _) & _). specialize (H Hx).
  unfold vectorized_sizeof. destruct (Nat.leb_spec (esize t) 8); [|lia]. rewrite H.
  destruct (have_avx512bw I); [exists 6; simpl; lia|].
  destruct (have_avx512f I && (4 <=? esize t)); [exists 6; simpl; lia|].
  destruct (have_avx2 I); [exists 5; simpl; lia|].
  destruct (have_avx I && efloating t); [exists 5; simpl; lia|]. exists 4; simpl; lia.
Qed.
Lemma ceil_bound n : 1 <= n -> n * esize t <= vectorized_sizeof I t -> bit_ceil n * esize t <= vectorized_sizeof I t.
Proof.
  intros Hn. destruct vsz_x86 as (k & -> & _). destruct (elem_pow t Ht H8) as (e & -> & _). intros H.
  rewrite <- bit_ceil_mul by auto. rewrite <- (bit_ceil_pow k). apply bit_ceil_mono. auto.
Qed.
(* a register of n elements *)
Definition held (p : nat * nat) : Prop :=
  1 <= fst p /\ snd p = bit_ceil (fst p) /\ (2 <= snd p -> snd p * esize t <= vectorized_sizeof I t).
Lemma valid_held a : vector_tag a -> abi_valid I t a = true -> held (abi_size t a, abi_full_size I t a).
Proof.
  intros Ha Hv. pose proof (full_facts I t a Ht Ha Hv) as [H1 H2].
  assert (E : abi_full_size I t a = bit_ceil (abi_size t a)).
  { rewrite <- lanes_of_ceil by lia. unfold lanes_of. destruct (Nat.eqb_spec (abi_size t a) 1); [lia|].
    destruct a; try (exfalso; exact Ha); unfold abi_full_size; rewrite Hv; auto. }
  split; [cbn [fst]; lia|]. split; [exact E|]. cbn [fst snd]. intros _. rewrite E. apply ceil_bound; [lia|].
  pose proof (elem_ok_pos t Ht). destruct (register_le I t a Ht Ha Hv) as [_ Heq].
  pose proof vsz_x86 as (k & Ek & Hk).
  destruct a as [|m|b|b]; try (exfalso; exact Ha); cbn [abi_size] in *.
  - injection Heq as Heq. cbn [abi_valid] in Hv. btrue. lia.
  - injection Heq as Heq. rewrite <- Heq. cbn [abi_valid] in Hv. btrue.
    assert (b <= 64) by lia. clear Heq. unfold vectorized_sizeof. destruct (Nat.leb_spec (esize t) 8); [|lia].
    match goal with H : have_avx512bw I || _ = true |- _ => apply orb_true_iff in H as [Hq|Hq] end; [rewrite Hq; auto|].
    destruct (have_avx512bw I); [lia|].
    match goal with H : have_avx512f I = true |- _ => rewrite H end. rewrite Hq. cbn [andb]. lia.
Qed.
Lemma scalar_held : held (1, 1).
Proof. split; [auto|]. split; [reflexivity|]. cbn [snd]. lia. Qed.
Lemma storage_held m s : 1 <= m <= max_fixed_size I t -> storage_shape I t m = Some s -> Forall held s.
Proof.
  intros Hm E. destruct (storage_total I t (elem_ok_pos t Ht) m m) as (l & E1 & Hl & _); [lia|lia|].
  unfold storage_shape, fixed_size_storage in E. rewrite E1 in E. cbn [option_map] in E. apply some_inj in E. subst s.
  apply Forall_forall. intros p Hp. apply in_map_iff in Hp as (a & <- & Ha). rewrite Forall_forall in Hl.
  destruct (Hl a Ha) as [Hv Hr]. destruct a as [|n|b|b]; simpl in Hr; try tauto.
  - apply scalar_held.
  - apply (valid_held (AVecBuiltin b) Logic.I Hv).
  - apply (valid_held (AVecBltnBtmsk b) Logic.I Hv).
Qed.
End Target.

(* ------------------------------------------------------------------ *)
(* Several registers: the first is as wide as the target has; a power of two
   elements are in equal registers. *)
Definition equal_chunks (s : shape) : bool :=
  match s with [] => true | (n, l) :: _ => forallb (fun p => (fst p =? n) && (snd p =? l)) s end.
Definition widest_first (vsz esz : nat) (s : shape) : bool :=
  match s with (n, l) :: _ :: _ => (l =? 1) || (l * esz =? vsz) | _ => true end.
Definition several_check (I : isa) (t : elem) (n : nat) (l : list abi) : bool :=
  let s := map (abi_shape I t) l in
  if def_i386 I then true
  else widest_first (vectorized_sizeof I t) (esize t) s && (negb (bit_ceil n =? n) || equal_chunks s).
Lemma several_check_ok : forallb (storages_check several_check) reps = true.
Proof. vm_cast_no_check (eq_refl true). Qed.
Lemma several_check_same I J t u n l : profile I t = profile J u -> several_check I t n l = several_check J u n l.
Proof.
  intros H. unfold several_check. rewrite (map_ext _ _ (p_abi_shape I J t u H)), (p_size I J t u H).
  unfold profile in H. injection H as H1 H2 H3 H4 H5 H6. rewrite H2, H6. auto.
Qed.
Lemma repeat_equal n l k : equal_chunks (repeat (n, l) k) = true.
Proof.
  destruct k; auto. unfold equal_chunks. cbn [repeat]. change ((n, l) :: repeat (n, l) k) with (repeat (n, l) (S k)).
  generalize (S k). intros m. induction m; auto. cbn [repeat forallb fst snd]. rewrite !Nat.eqb_refl. auto.
Qed.
Lemma several I t n s : arch_ok I -> elem_ok t -> def_i386 I = false -> 1 <= n <= max_fixed_size I t ->
  storage_shape I t n = Some s ->
  widest_first (vectorized_sizeof I t) (esize t) s = true /\ (bit_ceil n = n -> equal_chunks s = true).
Proof.
  intros HI Ht Hi Hn Es. destruct (scalar_only I t) eqn:Esc.
  - rewrite scalar_shape in Es by (auto; try lia; apply elem_ok_pos; auto). apply some_inj in Es. subst s.
    split; [|intros; apply repeat_equal]. destruct n as [|[|n]]; auto.
  - destruct (check_storages several_check several_check_ok I t n HI Ht Esc Hn) as (J & u & l & Hp & E & H1).
    rewrite <- (several_check_same I J t u n l Hp) in H1. rewrite <- (p_storage I J t u Hp) in E.
    unfold storage_shape in Es. rewrite E in Es. cbn [option_map] in Es. apply some_inj in Es. subst s.
    unfold several_check in H1. rewrite Hi in H1. apply andb_true_iff in H1 as [H1 H2]. split; auto.
    intros Hc. rewrite Hc, Nat.eqb_refl in H2. auto.
Qed.
