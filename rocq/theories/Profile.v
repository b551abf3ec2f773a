(* Which storage the library selects depends only on a few numbers of the
   target and the element type ("profile").  One representative per profile
   therefore settles a question about all targets, element types and sizes. *)
From Coq Require Import List Arith Bool Lia.
From Verif Require Import Prelude BitMask Abi AbiSpec AbiProofs Fixed Targets.
Import ListNotations.

(* what simd.h 2573-2647, 4125-4263, 1354-1370 and simd_builtin.h 936-950,
   1071-1090 read *)
Definition profile (I : isa) (t : elem) : nat * nat * bool * bool * bool * bool :=
  (esize t, vectorized_sizeof I t, have_avx512f I,
   have_avx512bw I || (4 <=? esize t), have_avx512vl I, def_i386 I).

Definition not_fixed (a : abi) : Prop := match a with AFixed _ => False | _ => True end.

Section Same.
Variables (I J : isa) (t u : elem).
Hypothesis Hp : profile I t = profile J u.

Lemma p_size : esize t = esize u.
Proof. unfold profile in Hp. congruence. Qed.
Lemma p_abi_size a : abi_size t a = abi_size u a.
Proof. destruct a; simpl; rewrite ?p_size; auto. Qed.
Lemma p_valid a : not_fixed a -> abi_valid I t a = abi_valid J u a.
Proof.
  intros Ha. unfold profile in Hp. injection Hp as H1 H2 H3 H4 H5 H6.
  destruct a; simpl in *; try tauto; auto; rewrite ?H4, ?H3, ?H2, ?H5, ?H1; auto.
Qed.
Lemma p_vtb n : vector_type_bytes I t n = vector_type_bytes J u n.
Proof.
  unfold vector_type_bytes. rewrite p_size. unfold profile in Hp.
  injection Hp as H1 H2 H3 H4 H5 H6. rewrite H6. auto.
Qed.
Lemma p_full a : abi_full_size I t a = abi_full_size J u a.
Proof.
  destruct a; auto; unfold abi_full_size;
    rewrite (p_valid _) by exact Logic.I; rewrite p_vtb, p_abi_size, p_size; auto.
Qed.
Lemma p_partial a : abi_is_partial I t a = abi_is_partial J u a.
Proof.
  destruct a; auto; unfold abi_is_partial;
    rewrite (p_valid _) by exact Logic.I; rewrite p_full, p_abi_size; auto.
Qed.
Lemma fam_not_fixed f b : not_fixed (fam_abi f b).
Proof. destruct f; exact Logic.I. Qed.
Lemma p_fam_valid f b : fam_valid I t f b = fam_valid J u f b.
Proof.
  destruct f; unfold fam_valid; try (apply p_valid, fam_not_fixed). rewrite p_size. auto.
Qed.
Lemma p_fam_full f b : fam_full_size I t f b = fam_full_size J u f b.
Proof. destruct f; unfold fam_full_size; auto; apply p_full. Qed.
Lemma p_next f : forall fuel b, find_next_valid_abi fuel I t f b = find_next_valid_abi fuel J u f b.
Proof.
  induction fuel as [|fuel IH]; intros b; destruct f; cbn [find_next_valid_abi]; auto; cbv zeta;
    rewrite p_size, p_partial, (p_valid _ (fam_not_fixed _ _)), IH; auto.
Qed.
Lemma next_not_fixed I0 t0 f : forall fuel b a, find_next_valid_abi fuel I0 t0 f b = Some a -> not_fixed a.
Proof.
  induction fuel as [|fuel IH]; intros b a; destruct f; cbn [find_next_valid_abi]; cbv zeta;
    try discriminate; try (intros H; injection H as <-; exact Logic.I);
    (destruct (_ <? _); [intros H; injection H as <-; exact Logic.I|]);
    (destruct (negb _ && _); [intros H; injection H as <-; exact Logic.I|]); apply IH.
Qed.
Lemma p_best l n : best_abi I t l n = best_abi J u l n.
Proof.
  induction l as [|f l IH]; cbn [best_abi]; auto. cbv zeta.
  rewrite p_size, p_fam_valid, p_fam_full, p_next.
  destruct (n =? 1); auto. destruct (_ && _); auto.
  destruct (find_next_valid_abi (esize u * n) J u f (esize u * n)) as [a|] eqn:E; auto.
  rewrite (p_valid a) by (eapply next_not_fixed; eauto). rewrite p_abi_size, IH. auto.
Qed.
Lemma best_not_fixed I0 t0 l n a : best_abi I0 t0 l n = Some a -> not_fixed a.
Proof.
  induction l as [|f l IH]; cbn [best_abi]; [discriminate|]. cbv zeta.
  destruct (n =? 1); [intros H; injection H as <-; exact Logic.I|].
  destruct (_ && _); [intros H; injection H as <-; apply fam_not_fixed|].
  destruct (find_next_valid_abi _ I0 t0 f _) as [b|] eqn:E; [|discriminate].
  destruct (_ && _); auto. intros H; injection H as <-. eapply next_not_fixed; eauto.
Qed.
Lemma p_builder : forall fuel n, storage_builder fuel I t n = storage_builder fuel J u n.
Proof.
  induction fuel as [|fuel IH]; intros n; auto. cbn [storage_builder].
  rewrite p_best. destruct (best_abi J u all_native_abis n) as [a|] eqn:E; auto.
  rewrite (p_valid a) by (eapply best_not_fixed; eauto). rewrite p_abi_size, IH. auto.
Qed.
Lemma p_storage n : fixed_size_storage I t n = fixed_size_storage J u n.
Proof. apply p_builder. Qed.
Lemma p_abi_shape a : abi_shape I t a = abi_shape J u a.
Proof. unfold abi_shape. rewrite p_full, p_abi_size. auto. Qed.
Lemma p_shape n : storage_shape I t n = storage_shape J u n.
Proof.
  unfold storage_shape. rewrite p_storage. destruct (fixed_size_storage J u n); auto. simpl.
  f_equal. apply map_ext, p_abi_shape.
Qed.
Lemma p_reg_bytes a : reg_bytes I t a = reg_bytes J u a.
Proof. destruct a; unfold reg_bytes; rewrite ?p_vtb, ?p_abi_size, ?p_size; auto. Qed.
Lemma p_reg_align al a : reg_align I t al a = reg_align J u al a.
Proof. destruct a; unfold reg_align; rewrite ?p_vtb, ?p_abi_size, ?p_size; auto. Qed.
Lemma p_tuple_align al l : tuple_align I t al l = tuple_align J u al l.
Proof. induction l; simpl; auto. rewrite p_reg_align, IHl. auto. Qed.
Lemma p_offsets al l : reg_offsets I t al l = reg_offsets J u al l.
Proof. induction l; simpl; auto. rewrite p_reg_bytes, p_tuple_align, IHl. auto. Qed.
Lemma p_sizeof al l : tuple_sizeof I t al l = tuple_sizeof J u al l.
Proof. induction l; simpl; auto. rewrite p_reg_bytes, p_reg_align, p_tuple_align, IHl. auto. Qed.
End Same.

(* ------------------------------------------------------------------ *)
(* element types without vector registers: only scalars                 *)

Definition scalar_only (I : isa) (t : elem) : bool := vectorized_sizeof I t =? esize t.

Lemma scalar_valid I t a : 1 <= esize t -> scalar_only I t = true -> is_register a ->
  abi_valid I t a = true -> a = AScalar.
Proof.
  unfold scalar_only. intros He H Ha Hv. apply Nat.eqb_eq in H.
  destruct a as [|n|b|b]; auto; simpl in Ha, Hv; try tauto; exfalso; btrue.
  - assert (2 * esize t <= b); [|lia].
    transitivity (esize t * (b / esize t)); [nia|]. apply Nat.mul_div_le. lia.
  - lia.
Qed.
Lemma scalar_storage I t n : 1 <= esize t -> scalar_only I t = true -> 1 <= n ->
  fixed_size_storage I t n = Some (repeat AScalar n).
Proof.
  intros He Hs Hn. destruct (storage_total I t He n n Hn ltac:(lia)) as (l & E & Hv & Hl).
  unfold fixed_size_storage. rewrite E. f_equal.
  assert (G : l = repeat AScalar (length l)).
  { clear - He Hs Hv. induction Hv as [|a l [H1 H2] _ IH]; auto. simpl. rewrite <- IH.
    f_equal. eapply scalar_valid; eauto. }
  rewrite G in Hl. rewrite G. clear - Hl. revert n Hl. induction (length l); intros m Hl; simpl in *.
  - subst. auto.
  - subst. simpl. f_equal. auto.
Qed.
Lemma scalar_shape I t n : 1 <= esize t -> scalar_only I t = true -> 1 <= n ->
  storage_shape I t n = Some (repeat (1, 1) n).
Proof.
  intros He Hs Hn. unfold storage_shape. rewrite scalar_storage by auto. simpl. f_equal.
  clear. induction n; cbn [repeat map]; auto. rewrite IHn. auto.
Qed.

(* ------------------------------------------------------------------ *)
(* one representative per profile                                       *)

Definition profile_eqb (p q : nat * nat * bool * bool * bool * bool) : bool :=
  let '(a, b, c, d, e, f) := p in
  let '(a', b', c', d', e', f') := q in
  if a =? a' then if b =? b' then if eqb c c' then if eqb d d' then
  if eqb e e' then eqb f f' else false else false else false else false else false.
Lemma profile_eqb_spec p q : profile_eqb p q = true -> p = q.
Proof.
  destruct p as [[[[[a b] c] d] e] f], q as [[[[[a' b'] c'] d'] e'] f']. unfold profile_eqb.
  destruct (a =? a') eqn:E1; [|discriminate]. destruct (b =? b') eqn:E2; [|discriminate].
  destruct (eqb c c') eqn:E3; [|discriminate]. destruct (eqb d d') eqn:E4; [|discriminate].
  destruct (eqb e e') eqn:E5; [|discriminate]. intros E6.
  apply Nat.eqb_eq in E1, E2. apply eqb_prop in E3, E4, E5, E6. congruence.
Qed.

Fixpoint dedup {A} (eq : A -> A -> bool) (l : list A) : list A :=
  match l with
  | [] => []
  | a :: r => if existsb (eq a) r then dedup eq r else a :: dedup eq r
  end.

(* what a target says about every element type *)
Definition arch_profiles (I : isa) := map (profile I) all_elems.
Definition archs_eqb (I J : isa) : bool :=
  forallb (fun p => profile_eqb (fst p) (snd p)) (combine (arch_profiles I) (arch_profiles J))
  && eqb (have_sse2 I) (have_sse2 J) && eqb (have_avx I) (have_avx J).

(* representatives (targets that differ for some element type) *)
Definition rep_archs : list isa := Eval vm_compute in dedup archs_eqb all_archs.
Definition arch_covered (I : isa) : bool := existsb (archs_eqb I) rep_archs.
Lemma archs_covered : forallb arch_covered all_archs = true.
Proof. vm_cast_no_check (eq_refl true). Qed.

Lemma rep_arch I : arch_ok I -> exists J, In J rep_archs /\
  (forall t, elem_ok t -> profile I t = profile J t) /\
  have_sse2 I = have_sse2 J /\ have_avx I = have_avx J.
Proof.
  intros HI. pose proof (check_archs arch_covered archs_covered I HI) as H.
  unfold arch_covered in H. apply existsb_exists in H as (J & HJ & H). exists J. split; auto.
  unfold archs_eqb in H. apply andb_true_iff in H as [H H3]. apply andb_true_iff in H as [H H2].
  apply eqb_prop in H2, H3. split; [|auto]. intros t Ht. apply all_elems_complete in Ht.
  rewrite forallb_forall in H. apply profile_eqb_spec.
  assert (G : In (profile I t, profile J t) (combine (arch_profiles I) (arch_profiles J))).
  { unfold arch_profiles. clear - Ht. induction all_elems as [|a l IH]; [destruct Ht|].
    cbn [map combine]. destruct Ht as [->|Ht]; [left; auto|right; auto]. }
  apply (H _ G).
Qed.

Definition rep_elt := (isa * elem)%type.
Definition rep_eqb (x y : rep_elt) : bool :=
  profile_eqb (profile (fst x) (snd x)) (profile (fst y) (snd y)).
Definition arch_elems : list rep_elt := flat_map (fun I => map (pair I) all_elems) rep_archs.
Definition reps : list rep_elt := Eval vm_compute in
  dedup rep_eqb (filter (fun r => negb (scalar_only (fst r) (snd r))) arch_elems).
Definition rep_covered (x : rep_elt) : bool :=
  if scalar_only (fst x) (snd x) then true else existsb (rep_eqb x) reps.
Lemma reps_covered : forallb rep_covered arch_elems = true.
Proof. vm_cast_no_check (eq_refl true). Qed.
Lemma rep_elem I t : arch_ok I -> elem_ok t -> scalar_only I t = false ->
  exists r, In r reps /\ profile I t = profile (fst r) (snd r).
Proof.
  intros HI Ht Hs. destruct (rep_arch I HI) as (J & HJ & HP & _).
  pose proof reps_covered as H. rewrite forallb_forall in H.
  assert (G : In (J, t) arch_elems).
  { apply in_flat_map. exists J. split; auto. apply in_map, all_elems_complete, Ht. }
  specialize (H _ G). unfold rep_covered in H. cbn [fst snd] in H.
  replace (scalar_only J t) with false in H.
  2: { rewrite <- Hs. pose proof (HP t Ht) as E. unfold profile in E. unfold scalar_only. congruence. }
  apply existsb_exists in H as (r & Hr & H).
  exists r. split; auto. rewrite HP by auto. apply profile_eqb_spec in H. auto.
Qed.

(* check a property of the storages of all sizes for every representative *)
Definition rep_max (r : rep_elt) : nat := if esize (snd r) =? 1 then 64 else 32.
Definition storages_check (P : isa -> elem -> nat -> list abi -> bool) (r : rep_elt) : bool :=
  let k := rep_max r in
  let tb := storage_table (fst r) (snd r) k in
  forallb (fun n => match nth (k - n) tb None with Some l => P (fst r) (snd r) n l | None => false end)
    (seq 1 k).
Lemma check_storages (P : isa -> elem -> nat -> list abi -> bool) :
  forallb (storages_check P) reps = true ->
  forall I t n, arch_ok I -> elem_ok t -> scalar_only I t = false -> 1 <= n <= max_fixed_size I t ->
  exists J u l, profile I t = profile J u /\
    fixed_size_storage J u n = Some l /\ P J u n l = true.
Proof.
  intros H I t n HI Ht Hs Hn. destruct (rep_elem I t HI Ht Hs) as ([J u] & Hr & Hp).
  rewrite forallb_forall in H. specialize (H _ Hr). unfold storages_check in H. cbn [fst snd] in *. cbv zeta in H.
  assert (Hk : max_fixed_size I t <= rep_max (J, u)).
  { unfold rep_max, max_fixed_size. cbn [snd]. rewrite <- (p_size I J t u Hp).
    destruct (esize t =? 1); rewrite ?andb_true_r, ?andb_false_r; auto. destruct (have_avx512bw I); lia. }
  pose proof (check_seq _ _ _ H n ltac:(lia)) as H3. cbv beta in H3.
  rewrite storage_table_spec in H3 by lia. exists J, u.
  destruct (fixed_size_storage J u n) as [l|]; [exists l; auto|discriminate].
Qed.
