From Coq Require Import ZArith List Bool Lia Arith.
From Verif Require Import Prelude Abi AbiSpec Fixed FixedSpec FixedTop Mem MemSpec MemProofs FloatSpec FloatRoundSpec ScalarSpec Scalar ScalarProofs NarrowSpec Narrow NarrowProofs NarrowExact.
Import ListNotations.
Open Scope Z_scope.

Lemma c40_preserves l from to v : long_double_fmt l -> aty_ok from -> aty_ok to ->
  narrowing l from to = false -> valid l from v ->
  forall md md', exists w v',
    cast l md from to v = Some w /\ valid l to w /\ same_number (number_of l from v) (number_of l to w) /\
    cast l md' to from w = Some v' /\ valid l from v' /\
    (v' = v \/ number_of l from v = NotANumber /\ number_of l from v' = NotANumber).
Proof. exact (preserves l from to v). Qed.

Lemma ity_eqb_refl a : ity_eqb a a = true.
Proof. unfold ity_eqb. rewrite Z.eqb_refl, eqb_reflx. auto. Qed.
Lemma aty_eqb_refl a : aty_eqb a a = true.
Proof. destruct a; simpl; auto using ity_eqb_refl, Z.eqb_refl. Qed.
Lemma aty_neq a b : a <> b -> aty_eqb a b = false.
Proof. destruct (aty_eqb a b) eqn:E; auto. apply aty_eqb_eq in E. congruence. Qed.

Lemma is_unsigned_elem t : is_unsigned t = true <-> unsigned_elem t.
Proof. destruct t as [|t|]; cbn; [tauto|destruct (isg t); cbn; split; congruence|split; [discriminate|tauto]]. Qed.
Lemma broadcast_not_narrowing l from to : broadcast_from l from to = true -> from <> int_a -> ~ (from = uint_a /\ unsigned_elem to) ->
  narrowing l from to = false.
Proof.
  intros H Hi Hu. unfold broadcast_from, value_preserving_or_int in H.
  apply andb_true_iff in H. destruct H as [_ H]. rewrite (aty_neq _ _ Hi) in H.
  assert (E : aty_eqb from uint_a && is_unsigned to = false).
  { destruct (aty_eqb from uint_a) eqn:EU; auto. apply aty_eqb_eq in EU. destruct (is_unsigned to) eqn:ET; auto.
    exfalso. apply Hu. split; auto. apply is_unsigned_elem. auto. }
  rewrite E in H. rewrite !orb_false_r in H. apply orb_true_iff in H. destruct H as [H|H].
  - unfold narrowing. rewrite H. auto.
  - apply negb_true_iff. auto.
Qed.

Lemma c40_broadcast l md from to n v : long_double_fmt l -> aty_ok from -> aty_ok to ->
  broadcast_from l from to = true -> from <> int_a -> ~ (from = uint_a /\ unsigned_elem to) -> valid l from v ->
  exists w, broadcast_ctor l md from to n v = Some (repeat w n) /\
    valid l to w /\ same_number (number_of l from v) (number_of l to w).
Proof.
  intros Hl Hf Ht Hb Hi Hu Hv.
  destruct (preserves l from to v Hl Hf Ht (broadcast_not_narrowing _ _ _ Hb Hi Hu) Hv md md)
    as (w & v' & E & Hw & Hs & _).
  exists w. unfold broadcast_ctor. rewrite E. auto.
Qed.
Lemma c40_broadcast_accepts l from to : long_double_fmt l -> aty_ok from -> aty_ok to ->
  (broadcast_from l from to = true <->
   from <> ABool /\ (from = int_a \/ (from = uint_a /\ unsigned_elem to) \/ forall v, valid l from v -> representable l from v to)).
Proof.
  intros Hl Hf Ht. split.
  - intros H. split.
    { intros ->. unfold broadcast_from in H. cbn in H. discriminate. }
    destruct (aty_eqb from int_a) eqn:EI; [left; apply aty_eqb_eq; auto|]. right.
    destruct (aty_eqb from uint_a && is_unsigned to) eqn:EU.
    + left. apply andb_true_iff in EU. destruct EU as [EU ET]. split; [apply aty_eqb_eq; auto|apply is_unsigned_elem; auto].
    + right. intros v Hv. assert (N : narrowing l from to = false).
      { apply (broadcast_not_narrowing l from to H).
        - intros ->. rewrite aty_eqb_refl in EI. discriminate.
        - intros [-> U]. rewrite aty_eqb_refl in EU. apply is_unsigned_elem in U. rewrite U in EU. discriminate. }
      destruct (preserves l from to v Hl Hf Ht N Hv ToNearest ToNearest) as (w & v' & E & Hw & Hs & _). exists w. auto.
  - intros [Hb H]. unfold broadcast_from, value_preserving_or_int. rewrite (aty_neq _ _ Hb). cbn [negb andb].
    destruct H as [-> | [[-> U] | H]].
    + rewrite aty_eqb_refl, orb_true_r. reflexivity.
    + rewrite aty_eqb_refl. apply is_unsigned_elem in U. rewrite U. rewrite !orb_true_r. reflexivity.
    + destruct (narrowing l from to) eqn:N; [|rewrite !orb_true_r; reflexivity]. exfalso.
      destruct (exact l from to Hl Hf Ht Hb N) as (v & Hv & R). auto.
Qed.

Lemma c40_broadcast_int l md from t n v : std_type t -> from = int_a \/ from = uint_a ->
  exists w, broadcast_ctor l md from (AInt t) n v = Some (repeat w n) /\ wraps_to t v w.
Proof.
  intros Ht [->| ->]; exists (conv t v); (split; [reflexivity|apply conv_wraps; auto]).
Qed.

Lemma c40_fixed_convert I x86 l ls lsz md from to te ue n s tmp (x : tuple Z) :
  long_double_fmt l -> aty_ok from -> aty_ok to -> fixed_from l lsz from to = true ->
  elem_of ls from = Some te -> elem_of ls to = Some ue ->
  fixed_size_type I te n -> fixed_size_type I ue n -> is_fixed I te n x -> storage_shape I ue n = Some s ->
  (forall i v, (i < n)%nat -> t_get x i = Some v -> valid l from v) ->
  exists y, fixed_convert I x86 l md from to te n s tmp x = Some y /\ is_fixed I ue n y /\
    forall i, (i < n)%nat -> exists v w, t_get x i = Some v /\ t_get y i = Some w /\
      valid l to w /\ same_number (number_of l from v) (number_of l to w).
Proof.
  intros Hl Hf Ht Hff Ete Eue Hte Hue Hx Es Hv.
  apply andb_true_iff in Hff. destruct Hff as [Hn _]. apply negb_true_iff in Hn.
  assert (Hok : elem_ok te) by (destruct Hte as (? & ? & ?); auto).
  destruct (c11_fixed_store x86 I te te n true (fun v => v) x
    (fun j => if (j <? n)%nat then Some (tmp j) else None) Hte Hok Hx) as (m & Em & Hm).
  { intros j Hj. change ((j <? n)%nat = true) in Hj. cbn beta. rewrite Hj. discriminate. }
  unfold fixed_convert. rewrite Em.
  destruct (fixed_facts I te n x Hte Hx) as (Hd & Hs & Hck & Hlen & _).
  assert (Hg : forall i, (i < n)%nat -> exists v, t_get x i = Some v).
  { intros i Hi. destruct (t_get x i) eqn:E; eauto. exfalso.
    pose proof (FixedProofs.get_elems x i Hd ltac:(lia)) as G. rewrite E in G. symmetry in G.
    apply nth_error_None in G. lia. }
  set (cv := fun v => match cast l md from to v with Some w => w | None => 0 end).
  destruct (c11_fixed_load I ue te n false cv 0 0 s m Hue Hok Es) as (y & Ey & Hy & Hget).
  { intros j Hj. rewrite Hm. rewrite Hj. change ((j <? n)%nat = true) in Hj. apply Nat.ltb_lt in Hj. destruct (Hg j Hj) as [v Ev].
    rewrite Ev. discriminate. }
  exists y. split; [exact Ey|]. split; auto. intros i Hi.
  destruct (Hg i Hi) as [v Ev]. rewrite Hget by auto. rewrite Hm.
  unfold below. destruct (Nat.ltb_spec i n); [|lia]. rewrite Ev. cbn [option_map].
  destruct (preserves l from to v Hl Hf Ht Hn (Hv i v Hi Ev) md md) as (w & v' & E & Hw & Hsn & _).
  exists v, w. unfold cv. rewrite E. auto.
Qed.
