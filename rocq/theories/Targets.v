(* Exhaustive checking over all targets, element types and sizes: the set of
   targets is finite (17 feature flags), the element types are finitely many
   and fixed_size is limited to max_fixed_size (at most 64) by the library
   itself, so a computation over all of them is a proof. *)
From Coq Require Import List Arith Bool Lia.
From Verif Require Import Prelude BitMask Abi AbiSpec.
Import ListNotations.

Definition bools := [true; false].

(* all values of the record isa (simd_detail.h 50-215) *)
Definition all_isas : list isa :=
  flat_map (fun a => flat_map (fun b => flat_map (fun c => flat_map (fun d =>
  flat_map (fun e => flat_map (fun f => flat_map (fun g => flat_map (fun h =>
  flat_map (fun i => flat_map (fun j => flat_map (fun k => flat_map (fun l =>
  flat_map (fun m => flat_map (fun n => flat_map (fun o => flat_map (fun p =>
  map (fun q => Build_isa a b c d e f g h i j k l m n o p q)
  bools) bools) bools) bools) bools) bools) bools) bools) bools)
  bools) bools) bools) bools) bools) bools) bools) bools.

Lemma all_isas_complete I : In I all_isas.
Proof.
  assert (Hb : forall b, In b bools) by (intros [|]; simpl; auto).
  destruct I as [a b c d e f g h i j k l m n o p q]. unfold all_isas.
  repeat (apply in_flat_map; eexists; split; [apply Hb|]; cbv beta).
  apply in_map_iff. eexists; split; [reflexivity|]. apply Hb.
Qed.

Definition arch_okb (I : isa) : bool :=
  implb (have_avx512bw I) (have_avx512f I)
  && implb (have_avx512vl I) (have_avx512f I)
  && implb (have_avx512f I) (have_avx2 I)
  && implb (have_avx2 I) (have_avx I)
  && implb (have_avx I) (have_sse2 I)
  && implb (have_sse2 I) (have_sse I)
  && implb (def_x86_64 I) (have_sse2 I)
  && implb (def_aarch64 I) (have_neon_a64 I)
  && implb (have_neon_a64 I) (have_neon_a32 I)
  && implb (have_neon_a32 I) (have_neon I)
  && implb (have_power8vec I) (have_power_vsx I)
  && implb (have_power_vsx I) (have_power_vmx I)
  && implb (have_sse I) (def_x86_64 I || def_i386 I)
  && negb (def_x86_64 I && def_i386 I)
  && negb ((def_x86_64 I || def_i386 I)
           && (have_power_vmx I || have_neon I || def_aarch64 I))
  && negb (have_power_vmx I && (have_neon I || def_aarch64 I)).

Lemma implb_of a b : (a = true -> b = true) -> implb a b = true.
Proof. destruct a; simpl; auto. Qed.

Lemma arch_ok_b I : arch_ok I -> arch_okb I = true.
Proof.
  intros ((?&?&?&?&?&?&?&?&?&?) & H10 & H11 & H12 & H13 & H14 & H15).
  unfold arch_okb. repeat (apply andb_true_iff; split).
  all: try (apply implb_of; assumption).
  - apply implb_of. intros E. apply orb_true_iff. auto.
  - apply negb_true_iff, not_true_iff_false. intros E. apply andb_true_iff in E. auto.
  - apply negb_true_iff, not_true_iff_false. intros E. apply andb_true_iff in E as [E1 E2].
    apply H14. rewrite !orb_true_iff in *. tauto.
  - apply negb_true_iff, not_true_iff_false. intros E. apply andb_true_iff in E as [E1 E2].
    apply H15. rewrite orb_true_iff in E2. tauto.
Qed.

(* all targets with consistent features *)
Definition all_archs : list isa := filter arch_okb all_isas.

Lemma all_archs_complete I : arch_ok I -> In I all_archs.
Proof. intros H. apply filter_In. split; [apply all_isas_complete|apply arch_ok_b, H]. Qed.

Definition all_elems : list elem :=
  [TInt 1; TInt 2; TInt 4; TInt 8; TFloat; TDouble; TLongDouble 8; TLongDouble 12; TLongDouble 16].
Lemma all_elems_complete t : elem_ok t -> In t all_elems.
Proof.
  destruct t; simpl; intros H; auto 10.
  - destruct H as [->|[->|[->| ->]]]; auto 10.
  - destruct H as [->|[->| ->]]; auto 12.
Qed.

Lemma check_archs (P : isa -> bool) : forallb P all_archs = true -> forall I, arch_ok I -> P I = true.
Proof. intros H I HI. rewrite forallb_forall in H. apply H, all_archs_complete, HI. Qed.
Lemma check_elems (P : elem -> bool) : forallb P all_elems = true -> forall t, elem_ok t -> P t = true.
Proof. intros H t Ht. rewrite forallb_forall in H. apply H, all_elems_complete, Ht. Qed.
Lemma check_seq a n (P : nat -> bool) : forallb P (seq a n) = true ->
  forall i, a <= i < a + n -> P i = true.
Proof. intros H i Hi. rewrite forallb_forall in H. apply H, in_seq; lia. Qed.

Lemma max_fixed_le I t : max_fixed_size I t <= 64.
Proof. unfold max_fixed_size. destruct (_ && _)%bool; lia. Qed.

(* ------------------------------------------------------------------ *)
(* storage of all sizes up to k in one go: entry for size m at index k - m *)

From Verif Require Import AbiProofs Fixed.

Definition storage_step (I : isa) (t : elem) (n : nat) (smaller : list (option (list abi)))
  : option (list abi) :=
  match best_abi I t all_native_abis n with
  | Some a =>
      if negb (abi_valid I t a) then None
      else if n <? abi_size t a then None
      else
        let remain := n - abi_size t a in
        if remain =? 0 then Some [a]
        else match nth (n - 1 - remain) smaller None with
             | Some l => Some (a :: l)
             | None => None
             end
  | None => None
  end.
Fixpoint storage_table (I : isa) (t : elem) (k : nat) : list (option (list abi)) :=
  match k with
  | O => []
  | S k' => let tb := storage_table I t k' in storage_step I t k tb :: tb
  end.

Lemma storage_fuel I t : forall f1 f2 n, 1 <= n -> n <= f1 -> n <= f2 ->
  storage_builder f1 I t n = storage_builder f2 I t n.
Proof.
  induction f1 as [|f1 IH]; intros [|f2] n Hn H1 H2; try lia. cbn [storage_builder].
  destruct (best_abi I t all_native_abis n) as [a|]; auto.
  destruct (abi_valid I t a) eqn:Ev; auto. simpl negb. cbv iota.
  pose proof (valid_size_pos I t a Ev).
  destruct (n <? abi_size t a) eqn:E; auto. apply Nat.ltb_ge in E.
  destruct (n - abi_size t a =? 0) eqn:E0; auto. apply Nat.eqb_neq in E0.
  rewrite (IH f2) by lia. auto.
Qed.

Lemma storage_table_spec I t k : forall m, 1 <= m <= k ->
  nth (k - m) (storage_table I t k) None = fixed_size_storage I t m.
Proof.
  induction k as [|k IH]; intros m Hm; [lia|].
  cbn [storage_table]. destruct (Nat.eq_dec m (S k)) as [->|Hne].
  - rewrite Nat.sub_diag. cbn [nth]. unfold storage_step, fixed_size_storage. cbn [storage_builder].
    destruct (best_abi I t all_native_abis (S k)) as [a|]; auto.
    destruct (abi_valid I t a) eqn:Ev; auto. simpl negb. cbv iota.
    pose proof (valid_size_pos I t a Ev).
    destruct (S k <? abi_size t a) eqn:E; auto. apply Nat.ltb_ge in E.
    destruct (S k - abi_size t a =? 0) eqn:E0; auto. apply Nat.eqb_neq in E0.
    replace (S k - 1 - (S k - abi_size t a)) with (k - (S k - abi_size t a)) by lia.
    rewrite IH by lia. unfold fixed_size_storage.
    rewrite (storage_fuel I t k (S k - abi_size t a)) by lia. auto.
  - replace (S k - m) with (S (k - m)) by lia. cbn [nth]. apply IH. lia.
Qed.

(* the same with shapes *)
Definition shape_table (I : isa) (t : elem) (k : nat) : list (option shape) :=
  map (option_map (map (abi_shape I t))) (storage_table I t k).
Definition tab_get (k : nat) (tb : list (option shape)) (m : nat) : option shape :=
  if (1 <=? m) && (m <=? k) then nth (k - m) tb None else None.

Lemma shape_table_spec I t k m : 1 <= m <= k ->
  tab_get k (shape_table I t k) m = storage_shape I t m.
Proof.
  intros H. unfold tab_get.
  rewrite (proj2 (Nat.leb_le 1 m)), (proj2 (Nat.leb_le m k)) by lia. cbn [andb].
  unfold shape_table, storage_shape.
  change (@None shape) with (option_map (map (abi_shape I t)) None).
  rewrite map_nth, storage_table_spec by auto. auto.
Qed.
