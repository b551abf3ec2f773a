(* Every fixed_size to fixed_size conversion compiles: settled for all targets,
   element types and sizes by the tables of FixedMixed.v. *)
From Coq Require Import List Arith Bool Lia.
From Verif Require Import Prelude BitMask Abi AbiSpec AbiProofs Fixed FixedSpec FixedProofs
  FixedApply Targets Profile FixedStorage FixedMixed Convert ConvertSpec ConvertProofs.
Import ListNotations.

Definition pair_eqb (x y : nat * nat) : bool := if fst x =? fst y then snd x =? snd y else false.
Definition table_pairs : list (nat * nat) := Eval vm_compute in
  dedup pair_eqb (flat_map (fun J => flat_map (fun t => flat_map (fun u =>
     match elem_index rep_index J t, elem_index rep_index J u with
     | Some i, Some j => [(i, j)]
     | _, _ => []
     end) all_elems) all_elems) rep_archs).
Definition pair_found (J : isa) (t u : elem) : bool :=
  match elem_index rep_index J t, elem_index rep_index J u with
  | Some i, Some j => existsb (pair_eqb (i, j)) table_pairs
  | _, _ => false
  end.
Definition pairs_found (J : isa) : bool := forallb (fun t => forallb (pair_found J t) all_elems) all_elems.
Definition convert_one (tbt tbu : table) (n : nat) : bool :=
  match tab_get 32 tbt n with
  | Some s =>
      if fixed_ok true false (tab_get 32 tbt) (tab_get 32 tbu) (length s) s
      then fixed_ok false false (tab_get 32 tbt) (tab_get 32 tbu) (length s) s else false
  | None => false
  end.
Definition pair_check (P : table -> table -> nat -> bool) (c : nat * nat) : bool :=
  forallb (P (nth (fst c) rep_tables []) (nth (snd c) rep_tables [])) (seq 1 32).

Lemma pairs_found_ok : forallb pairs_found rep_archs = true.
Proof. vm_cast_no_check (eq_refl true). Qed.
Lemma convert_check_ok : forallb (pair_check convert_one) table_pairs = true.
Proof. vm_cast_no_check (eq_refl true). Qed.

Lemma check_pairs (P : table -> table -> nat -> bool) :
  forallb (pair_check P) table_pairs = true ->
  forall I t u n, arch_ok I -> elem_ok t -> elem_ok u -> 1 <= n <= 32 ->
  exists tbt tbu, P tbt tbu n = true /\
    (forall m, m <= 32 -> tab_get 32 tbt m = storage_shape I t m) /\
    (forall m, m <= 32 -> tab_get 32 tbu m = storage_shape I u m).
Proof.
  intros H I t u n HI Ht Hu Hn.
  destruct (rep_arch I HI) as (J & HJ & Hprof & _).
  pose proof pairs_found_ok as Hf. rewrite forallb_forall in Hf. specialize (Hf J HJ). unfold pairs_found in Hf.
  pose proof (check_elems _ Hf t Ht) as Hf1. cbv beta in Hf1.
  pose proof (check_elems _ Hf1 u Hu) as Hf2. unfold pair_found in Hf2.
  destruct (elem_index rep_index J t) as [i|] eqn:Ei; [|discriminate].
  destruct (elem_index rep_index J u) as [j|] eqn:Ej; [|discriminate].
  apply existsb_exists in Hf2 as (c & Hc1 & Hc2).
  rewrite forallb_forall in H. specialize (H c Hc1). unfold pair_eqb in Hc2. cbn [fst snd] in Hc2.
  destruct (i =? fst c) eqn:E1; [|discriminate]. apply Nat.eqb_eq in E1, Hc2.
  unfold pair_check in H. pose proof (check_seq 1 32 _ H n ltac:(lia)) as H1. cbv beta in H1.
  exists (nth (fst c) rep_tables []), (nth (snd c) rep_tables []). split; [exact H1|].
  rewrite <- E1, <- Hc2.
  split; intros m Hm; (destruct (Nat.eq_dec m 0) as [->|]; [reflexivity|]).
  - rewrite <- (elem_index_spec rep_tables rep_index index_check_ok scalar_ok J t i) by (auto; try lia; apply elem_ok_pos; auto).
    apply p_shape. symmetry. auto.
  - rewrite <- (elem_index_spec rep_tables rep_index index_check_ok scalar_ok J u j) by (auto; try lia; apply elem_ok_pos; auto).
    apply p_shape. symmetry. auto.
Qed.

Lemma ssize_skipn k : forall s, ssize (skipn k s) <= ssize s.
Proof. induction k as [|k IH]; intros [|p s]; simpl; auto. rewrite ssize_cons. specialize (IH s). lia. Qed.

Lemma fixed_ok_ext unp same stf stf' stt stt' :
  (forall m, m <= 32 -> stf m = stf' m) -> (forall m, m <= 32 -> stt m = stt' m) ->
  forall fuel s, ssize s <= 32 -> fixed_ok unp same stf stt fuel s = fixed_ok unp same stf' stt' fuel s.
Proof.
  intros Hf Ht. induction fuel as [|f IH]; intros s Hs; [reflexivity|].
  destruct s as [|[an al] sr]; [reflexivity|]. cbn [fixed_ok]. rewrite <- Ht by auto.
  set (np := ssize ((an, al) :: sr)) in *.
  assert (Hnp : np = an + ssize sr) by apply ssize_cons.
  destruct (stt np) as [[|[rn rl] rr]|]; auto. cbv zeta.
  rewrite <- Hf by auto. rewrite <- (Ht an), <- (Ht (np - an)), <- (Ht (np - rn)) by lia.
  rewrite <- (IH sr) by lia.
  rewrite <- (IH (skipn (div_roundup rn an) ((an, al) :: sr))); auto.
  pose proof (ssize_skipn (div_roundup rn an) ((an, al) :: sr)). fold np in H. lia.
Qed.

Lemma shape_eqb_refl s : shape_eqb s s = true.
Proof.
  unfold shape_eqb. rewrite Nat.eqb_refl. cbn [andb]. induction s as [|[n l] s IH]; auto.
  cbn [combine forallb fst snd]. rewrite !Nat.eqb_refl. auto.
Qed.

Lemma fixed_ok_all I t u n unp s : arch_ok I -> elem_ok t -> elem_ok u ->
  1 <= n <= max_fixed_size I t -> n <= max_fixed_size I u -> storage_shape I t n = Some s ->
  fixed_ok unp (same_integers t u) (storage_shape I t) (storage_shape I u) (length s) s = true.
Proof.
  intros HI Ht Hu Hn Hn' Es.
  destruct (storage_shape_facts I t n HI Ht Hn) as (s' & Es' & Hd & Hsz).
  rewrite Es in Es'. apply some_inj in Es'. subst s'.
  destruct (same_integers t u) eqn:Esame.
  - unfold same_integers in Esame. btrue.
    assert (t = u) by (destruct t, u; try discriminate; simpl in *; congruence). subst u.
    destruct s as [|[an al] sr]; [unfold ssize in Hsz; simpl in Hsz; lia|]. cbn [length fixed_ok]. rewrite Hsz, Es.
    unfold oshape_is. rewrite !shape_eqb_refl. auto.
  - assert (H32 : n <= 32).
    { unfold max_fixed_size in *. destruct (have_avx512bw I && (esize t =? 1)) eqn:E1; [|lia].
      destruct (have_avx512bw I && (esize u =? 1)) eqn:E2; [|lia]. exfalso. btrue.
      unfold same_integers in Esame. destruct t as [bt| | |bt], u as [bu| | |bu]; simpl in *; try lia; subst; try discriminate.
      all: unfold elem_ok in *; simpl in *; try lia; intuition lia. }
    destruct (check_pairs convert_one convert_check_ok I t u n HI Ht Hu ltac:(lia)) as (tbt & tbu & H & Ha & Hb).
    unfold convert_one in H. rewrite Ha in H by lia. rewrite Es in H.
    rewrite <- (fixed_ok_ext unp false (tab_get 32 tbt) _ (tab_get 32 tbu) _) by (auto; lia).
    destruct (fixed_ok true false (tab_get 32 tbt) (tab_get 32 tbu) (length s) s) eqn:E; [|discriminate].
    destruct unp; auto.
Qed.

(* ------------------------------------------------------------------ *)
(* a register of n elements and fixed_size<n>                           *)
Definition two_at_most (n full : nat) (s : shape) : bool :=
  match s with
  | [(m, l)] => (m =? n) && (l =? full)
  | [(_, l); (_, k)] => l + k <=? full
  | _ => false
  end.
Definition same_lanes (s : shape) : bool :=
  match s with
  | (_, l) :: _ => (l =? 1) || (length s <=? 16)
  | [] => false
  end.
Definition register_check (I : isa) (t : elem) (n : nat) (l : list abi) : bool :=
  let s := map (abi_shape I t) l in
  same_lanes s &&
  forallb (fun a => if abi_valid I t a then two_at_most n (abi_full_size I t a) s else true)
    [AVecBuiltin (n * esize t); AVecBltnBtmsk (n * esize t)].
Lemma register_check_ok : forallb (storages_check register_check) reps = true.
Proof. vm_cast_no_check (eq_refl true). Qed.

Lemma register_check_same I J t u n l : profile I t = profile J u ->
  register_check I t n l = register_check J u n l.
Proof.
  intros Hp. unfold register_check. rewrite (map_ext _ _ (p_abi_shape I J t u Hp)).
  cbv zeta. cbn [forallb]. rewrite !(p_valid I J t u Hp), !(p_full I J t u Hp), (p_size I J t u Hp) by exact Logic.I. auto.
Qed.

Definition vector_tag (a : abi) : Prop := match a with AVecBuiltin _ | AVecBltnBtmsk _ => True | _ => False end.

Lemma vsz_le I t : elem_ok t -> vectorized_sizeof I t <= 64.
Proof.
  intros Ht. unfold vectorized_sizeof. assert (esize t <= 16) by (destruct t; simpl in *; intuition lia).
  repeat match goal with |- context [if ?c then _ else _] => destruct c end; lia.
Qed.
Lemma register_le I t a : elem_ok t -> vector_tag a -> abi_valid I t a = true ->
  2 <= abi_size t a <= max_fixed_size I t /\
  a = (match a with AVecBuiltin _ => AVecBuiltin (abi_size t a * esize t) | _ => AVecBltnBtmsk (abi_size t a * esize t) end).
Proof.
  intros Ht Ha Hv. pose proof (elem_ok_pos t Ht) as Hp. pose proof (vsz_le I t Ht) as Hvs.
  assert (Hb1 : have_avx512bw I = false -> esize t = 1 -> vectorized_sizeof I t <= 32).
  { intros E1 E2. unfold vectorized_sizeof. rewrite E1, E2. cbn [Nat.leb]. rewrite andb_false_r.
    repeat match goal with |- context [if ?c then _ else _] => destruct c end; lia. }
  destruct a as [|m|b|b]; simpl in Ha; try tauto; cbn [abi_valid abi_size] in *; btrue;
    (assert (Hb : b = esize t * (b / esize t)) by (pose proof (Nat.div_mod b (esize t)); lia));
    (set (n := b / esize t) in *);
    (split; [split; [lia|]|f_equal; lia]); unfold max_fixed_size;
    destruct (Nat.eqb_spec (esize t) 1) as [E|E]; rewrite ?andb_true_r, ?andb_false_r; try nia.
  - destruct (have_avx512bw I) eqn:Ebw; [nia|]. specialize (Hb1 eq_refl E). nia.
  - destruct (have_avx512bw I) eqn:Ebw; [nia|]. rewrite E in *. simpl in *. discriminate.
Qed.

Lemma register_storage I t a : arch_ok I -> elem_ok t -> vector_tag a -> abi_valid I t a = true ->
  exists s, storage_shape I t (abi_size t a) = Some s /\ two_at_most (abi_size t a) (abi_full_size I t a) s = true.
Proof.
  intros HI Ht Ha Hv. destruct (register_le I t a Ht Ha Hv) as [Hn Heq].
  assert (Hs : scalar_only I t = false).
  { destruct (scalar_only I t) eqn:E; auto. exfalso.
    assert (a = AScalar); [|subst a; exact Ha].
    apply (scalar_valid I t a); auto; [apply elem_ok_pos; auto|]. destruct a; simpl in *; tauto. }
  destruct (check_storages register_check register_check_ok I t (abi_size t a) HI Ht Hs ltac:(lia)) as (J & u & l & Hp & El & Hc).
  rewrite <- (register_check_same I J t u _ l Hp) in Hc. rewrite <- (p_storage I J t u Hp) in El.
  exists (map (abi_shape I t) l). split; [unfold storage_shape; rewrite El; auto|].
  unfold register_check in Hc. cbv zeta in Hc. apply andb_true_iff in Hc as [_ Hc].
  rewrite forallb_forall in Hc. specialize (Hc a).
  rewrite Hv in Hc. apply Hc. clear - Ha Heq. destruct a as [|m|b|b]; try (exfalso; exact Ha); [left|right; left]; symmetry; exact Heq.
Qed.

Lemma storage_registers I t n s : arch_ok I -> elem_ok t -> 1 <= n <= max_fixed_size I t ->
  storage_shape I t n = Some s -> same_lanes s = true.
Proof.
  intros HI Ht Hn Es. destruct (scalar_only I t) eqn:E.
  - rewrite scalar_shape in Es by (auto; try lia; apply elem_ok_pos; auto). apply some_inj in Es. subst s.
    destruct n; [lia|]. reflexivity.
  - destruct (check_storages register_check register_check_ok I t n HI Ht E Hn) as (J & u & l & Hp & El & Hc).
    rewrite <- (register_check_same I J t u _ l Hp) in Hc. rewrite <- (p_storage I J t u Hp) in El.
    unfold storage_shape in Es. rewrite El in Es. apply some_inj in Es. subst s.
    unfold register_check in Hc. cbv zeta in Hc. apply andb_true_iff in Hc as [Hc _]. exact Hc.
Qed.

(* a fixed_size object of several registers never has the size of one register *)
Definition not_a_register (I : isa) (t : elem) (n : nat) (l : list abi) : bool :=
  if length l <=? 1 then true
  else let k := ssizeof (map (abi_shape I t) l) in
       forallb (fun b => forallb (fun a =>
         if abi_valid I t a then negb (abi_full_size I t a =? k) else true) [AVecBuiltin b; AVecBltnBtmsk b]) (seq 2 63).
Lemma not_a_register_ok : forallb (storages_check not_a_register) reps = true.
Proof. vm_cast_no_check (eq_refl true). Qed.

Lemma forallb_eq {X} (f g : X -> bool) l : (forall x, f x = g x) -> forallb f l = forallb g l.
Proof. intros H. induction l; simpl; auto. rewrite H, IHl. auto. Qed.
Lemma not_a_register_same I J t u n l : profile I t = profile J u ->
  not_a_register I t n l = not_a_register J u n l.
Proof.
  intros Hp. unfold not_a_register. rewrite (map_ext _ _ (p_abi_shape I J t u Hp)). destruct (_ <=? _); auto. cbv zeta.
  apply forallb_eq. intros b. cbn [forallb].
  rewrite !(p_valid I J t u Hp), !(p_full I J t u Hp) by exact Logic.I. auto.
Qed.

Lemma fixed_not_register I t n s a : arch_ok I -> elem_ok t -> 1 <= n <= max_fixed_size I t ->
  storage_shape I t n = Some s -> vector_tag a -> abi_valid I t a = true -> abi_full_size I t a = ssizeof s ->
  exists p, s = [p].
Proof.
  intros HI Ht Hn Es Ha Hv Hf.
  assert (E : scalar_only I t = false).
  { destruct (scalar_only I t) eqn:E; auto. exfalso.
    assert (a = AScalar); [|subst a; exact Ha].
    apply (scalar_valid I t a); auto; [apply elem_ok_pos; auto|]. destruct a; simpl in *; tauto. }
  destruct (check_storages not_a_register not_a_register_ok I t n HI Ht E Hn) as (J & u & l & Hp & El & Hc).
  rewrite <- (not_a_register_same I J t u _ l Hp) in Hc. rewrite <- (p_storage I J t u Hp) in El.
  unfold storage_shape in Es. rewrite El in Es. apply some_inj in Es. subst s.
  unfold not_a_register in Hc. destruct (Nat.leb_spec (length l) 1) as [Hl|Hl].
  - destruct (storage_shape_facts I t n HI Ht Hn) as (s & Es & _ & Hs). unfold storage_shape in Es. rewrite El in Es.
    apply some_inj in Es. subst s.
    destruct l as [|p [|q l]]; cbn [length map] in *; try lia; [unfold ssize in Hs; simpl in Hs; lia|eauto].
  - exfalso. cbv zeta in Hc. rewrite forallb_forall in Hc.
    pose proof (elem_ok_pos t Ht). pose proof (vsz_le I t Ht).
    destruct a as [|m|b|b]; try (exact Ha); specialize (Hc b).
    all: assert (Hb : 2 <= b <= 64) by (cbn [abi_valid] in Hv; btrue; lia).
    all: specialize (Hc ltac:(apply in_seq; lia)); rewrite forallb_forall in Hc.
    1: specialize (Hc (AVecBuiltin b) ltac:(simpl; auto)).
    2: specialize (Hc (AVecBltnBtmsk b) ltac:(simpl; auto)).
    all: rewrite Hv, Hf, Nat.eqb_refl in Hc; discriminate.
Qed.

(* fixed_size<1> holds one scalar *)
Definition one_is_scalar (I : isa) (t : elem) (n : nat) (l : list abi) : bool :=
  if n =? 1 then shape_eqb (map (abi_shape I t) l) [(1, 1)] else true.
Lemma one_is_scalar_ok : forallb (storages_check one_is_scalar) reps = true.
Proof. vm_cast_no_check (eq_refl true). Qed.
Lemma one_storage I t : arch_ok I -> elem_ok t -> 1 <= max_fixed_size I t -> storage_shape I t 1 = Some [(1, 1)].
Proof.
  intros HI Ht Hn. destruct (scalar_only I t) eqn:E.
  - rewrite scalar_shape; auto. apply elem_ok_pos; auto.
  - destruct (check_storages one_is_scalar one_is_scalar_ok I t 1 HI Ht E) as (J & u & l & Hp & El & Hc); [lia|].
    unfold one_is_scalar in Hc. cbn [Nat.eqb] in Hc. rewrite <- (map_ext _ _ (p_abi_shape I J t u Hp)) in Hc.
    rewrite <- (p_storage I J t u Hp) in El. unfold storage_shape. rewrite El. cbn [option_map]. f_equal.
    apply shape_eqb_spec. auto.
Qed.
