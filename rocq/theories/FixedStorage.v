(* Facts about every storage the library selects, by exhaustive computation
   over all targets, element types and sizes (see Targets.v). *)
From Coq Require Import List Arith Bool Lia.
From Verif Require Import Prelude BitMask Abi AbiSpec AbiProofs Fixed FixedSpec Targets Profile FixedProofs.
Import ListNotations.

Fixpoint denseb (s : shape) : bool :=
  match s with
  | [] => true
  | (n, l) :: r => (1 <=? n) && (n <=? l) && (match r with [] => true | _ => n =? l end) && denseb r
  end.
Lemma denseb_spec s : denseb s = true -> dense s.
Proof.
  induction s as [|[n l] s IH]; cbn [denseb dense]; auto. intros H. btrue.
  split; [lia|]. split; [lia|]. split; [|auto]. intros Hne. destruct s; [congruence|]. btrue. auto.
Qed.

Fixpoint prefix_sums (acc : nat) (l : list nat) : list nat :=
  match l with [] => [] | a :: r => acc :: prefix_sums (acc + a) r end.
Lemma prefix_sums_nth l : forall acc k, k < length l ->
  nth k (prefix_sums acc l) 0 = acc + list_sum (firstn k l).
Proof.
  induction l as [|a l IH]; intros acc [|k] Hk; simpl in *; try lia.
  rewrite IH by lia. lia.
Qed.
Lemma prefix_sums_length l : forall acc, length (prefix_sums acc l) = length l.
Proof. induction l; simpl; auto. Qed.

Definition nats_eqb (a b : list nat) : bool :=
  (length a =? length b) && forallb (fun p => fst p =? snd p) (combine a b).
Lemma nats_eqb_spec a : forall b, nats_eqb a b = true -> a = b.
Proof.
  unfold nats_eqb. induction a as [|x a IH]; intros [|y b] H; cbn [length combine forallb fst snd] in *; btrue; auto; try discriminate.
  rewrite (IH b); [congruence|]. apply andb_true_iff; split; auto. apply Nat.eqb_eq. lia.
Qed.

Definition storage_check (I : isa) (t : elem) (n : nat) (l : list abi) : bool :=
  let s := map (abi_shape I t) l in
  denseb s && (ssize s =? n) && forallb (fun p => bit_ceil (snd p) =? snd p) s
  && forallb (fun a => reg_bytes I t a =? esize t * abi_full_size I t a) l
  && forallb (fun al =>
       if negb (esize t mod al =? 0) then true
       else (nats_eqb (reg_offsets I t al l) (map (Nat.mul (esize t)) (prefix_sums 0 (map fst s)))
           && (tuple_sizeof I t al l =? esize t * ssizeof s)))
     [1; 2; 4; 8; 16].

Lemma storage_check_ok : forallb (storages_check storage_check) reps = true.
Proof. vm_cast_no_check (eq_refl true). Qed.
Lemma storage_check_same I J t u n l : profile I t = profile J u ->
  storage_check I t n l = storage_check J u n l.
Proof.
  intros H. unfold storage_check.
  rewrite (map_ext _ _ (p_abi_shape I J t u H)), (p_size I J t u H).
  f_equal; [f_equal|].
  - induction l; cbn [forallb]; auto.
    rewrite (p_reg_bytes I J t u H), (p_full I J t u H), IHl. auto.
  - cbn [forallb]. rewrite !(p_offsets I J t u H), !(p_sizeof I J t u H). auto.
Qed.
Lemma storage_check_all :
  forall I t n, arch_ok I -> elem_ok t -> scalar_only I t = false -> 1 <= n <= max_fixed_size I t ->
  exists l, fixed_size_storage I t n = Some l /\ storage_check I t n l = true.
Proof.
  intros I t n HI Ht Hs Hn.
  destruct (check_storages storage_check storage_check_ok I t n HI Ht Hs Hn)
    as (J & u & l & Hp & E & H1).
  exists l. rewrite (p_storage I J t u Hp), (storage_check_same I J t u n l Hp). auto.
Qed.

(* types without registers *)
Lemma round_up_mult x a q : 1 <= a -> x = q * a -> round_up x a = x.
Proof.
  intros Ha ->. unfold round_up, div_roundup.
  replace (q * a + a - 1) with ((a - 1) + q * a) by lia.
  rewrite Nat.div_add, (Nat.div_small (a - 1)) by lia. auto.
Qed.
Lemma scalars_dense n : dense (repeat (1, 1) n).
Proof. induction n; cbn [repeat dense]; auto. Qed.
Lemma scalars_ssize n : ssize (repeat (1, 1) n) = n.
Proof. unfold ssize. induction n; simpl in *; congruence. Qed.
Lemma scalars_align n : salign (repeat (1, 1) n) = 1.
Proof. unfold salign. induction n; simpl in *; auto. rewrite IHn. auto. Qed.
Lemma scalars_ssizeof n : ssizeof (repeat (1, 1) n) = n.
Proof.
  induction n; cbn [repeat ssizeof]; auto. rewrite scalars_align, IHn.
  rewrite (round_up_mult 1 1 1) by lia. rewrite (round_up_mult _ _ (1 + n)); simpl; lia.
Qed.
Lemma scalars_talign I t al n : 1 <= al -> tuple_align I t al (repeat AScalar n) = if n =? 0 then 1 else al.
Proof.
  intros Ha. induction n; auto. cbn [repeat tuple_align reg_align]. rewrite IHn. destruct n; simpl; lia.
Qed.
Lemma scalars_step I t al n : 1 <= al -> Nat.divide al (esize t) ->
  round_up (reg_bytes I t AScalar) (tuple_align I t al (repeat AScalar n)) = esize t.
Proof.
  intros Ha [q Hq]. rewrite scalars_talign by auto. simpl reg_bytes. destruct (n =? 0).
  - apply (round_up_mult _ _ (esize t)); lia.
  - apply (round_up_mult _ _ q); lia.
Qed.
Lemma scalars_sizeof I t al n : 1 <= al -> Nat.divide al (esize t) ->
  tuple_sizeof I t al (repeat AScalar n) = esize t * n.
Proof.
  intros Ha Hd. induction n; cbn [repeat tuple_sizeof]; [lia|].
  rewrite scalars_step, IHn by auto. rewrite scalars_talign by auto. cbn [reg_align].
  destruct Hd as [q Hq]. rewrite (round_up_mult _ _ (q * S n)).
  - lia.
  - lia.
  - replace (Nat.max al (if n =? 0 then 1 else al)) with al by (destruct (n =? 0); lia). nia.
Qed.
Lemma scalars_offsets I t al n : 1 <= al -> Nat.divide al (esize t) ->
  reg_offsets I t al (repeat AScalar n) = map (Nat.mul (esize t)) (seq 0 n).
Proof.
  intros Ha Hd. induction n; cbn [repeat reg_offsets seq map]; auto.
  rewrite scalars_step, IHn by auto. f_equal; [lia|].
  rewrite <- seq_shift, !map_map. apply map_ext. intros; lia.
Qed.

Lemma elem_ok_pos t : elem_ok t -> 1 <= esize t.
Proof. destruct t; simpl; lia. Qed.

Lemma storage_shape_facts I t n : arch_ok I -> elem_ok t -> 1 <= n <= max_fixed_size I t ->
  exists s, storage_shape I t n = Some s /\ dense s /\ ssize s = n.
Proof.
  intros HI Ht Hn. destruct (scalar_only I t) eqn:Es.
  { exists (repeat (1, 1) n). split; [apply scalar_shape; auto; [apply elem_ok_pos; auto|lia]|].
    split; [apply scalars_dense|apply scalars_ssize]. }
  destruct (storage_check_all I t n HI Ht Es Hn) as (l & E & H).
  unfold storage_check in H. cbv zeta in H. btrue. unfold storage_shape. rewrite E. eexists; split; [reflexivity|].
  split; [apply denseb_spec; auto|auto].
Qed.

Lemma storage_pow2 I t n s : arch_ok I -> elem_ok t -> 1 <= n <= max_fixed_size I t ->
  storage_shape I t n = Some s -> Forall (fun p => exists q, snd p = 2 ^ q) s.
Proof.
  intros HI Ht Hn E. destruct (scalar_only I t) eqn:Es.
  { rewrite scalar_shape in E; auto; [|apply elem_ok_pos; auto|lia]. injection E as <-.
    apply Forall_forall. intros p Hp. apply repeat_spec in Hp. subst. exists 0. auto. }
  destruct (storage_check_all I t n HI Ht Es Hn) as (l & El & H).
  unfold storage_check in H. cbv zeta in H. btrue. unfold storage_shape in E. rewrite El in E. injection E as <-.
  match goal with H : forallb (fun p => bit_ceil (snd p) =? snd p) _ = true |- _ => rewrite forallb_forall in H; rename H into Hb end.
  apply Forall_forall. intros p Hp. specialize (Hb p Hp). apply Nat.eqb_eq in Hb.
  exists (Nat.log2_up (snd p)). rewrite <- Hb at 1. reflexivity.
Qed.

Lemma storage_layout I t n al l : arch_ok I -> elem_ok t -> 1 <= n <= max_fixed_size I t ->
  In al [1; 2; 4; 8; 16] -> Nat.divide al (esize t) ->
  fixed_size_storage I t n = Some l ->
  length (reg_offsets I t al l) = length l /\
  (forall k, k < length l ->
     nth k (reg_offsets I t al l) 0 = esize t * list_sum (map (abi_size t) (firstn k l))) /\
  tuple_sizeof I t al l = esize t * ssizeof (map (abi_shape I t) l).
Proof.
  intros HI Ht Hn Hal Hdiv E.
  assert (Ha : 1 <= al) by (destruct Hal as [<-|[<-|[<-|[<-|[<-|[]]]]]]; lia).
  destruct (scalar_only I t) eqn:Es.
  { rewrite (scalar_storage I t n (elem_ok_pos t Ht) Es) in E by lia. injection E as <-.
    rewrite scalars_offsets, scalars_sizeof by auto.
    rewrite map_length, seq_length, repeat_length. split; auto. split.
    - intros k Hk. rewrite nth_indep with (d' := esize t * 0) by (rewrite map_length, seq_length; auto).
      rewrite map_nth, seq_nth by auto. f_equal. clear Hn. revert n Hk.
      induction k; intros n Hk; auto. destruct n; [lia|]. simpl. f_equal.
      apply (IHk n). lia.
    - f_equal. replace (map (abi_shape I t) (repeat AScalar n)) with (repeat (1, 1) n).
      + rewrite scalars_ssizeof. auto.
      + clear. induction n; cbn [repeat map]; auto. rewrite <- IHn. auto. }
  destruct (storage_check_all I t n HI Ht Es Hn) as (l' & E' & H).
  rewrite E in E'. injection E' as <-. unfold storage_check in H. cbv zeta in H. btrue.
  match goal with H : forallb _ [1; 2; 4; 8; 16] = true |- _ =>
    rewrite forallb_forall in H; specialize (H al Hal); cbv beta in H end.
  assert (Hmod : esize t mod al = 0)
    by (apply Nat.mod_divide; auto; destruct Hal as [<-|[<-|[<-|[<-|[<-|[]]]]]]; lia).
  rewrite Hmod, Nat.eqb_refl in *. cbn [negb] in *. btrue.
  match goal with H : nats_eqb _ _ = true |- _ => apply nats_eqb_spec in H; rewrite H end.
  rewrite map_length, prefix_sums_length, !map_length. repeat split; auto.
  intros k Hk.
  rewrite nth_indep with (d' := esize t * 0) by (rewrite map_length, prefix_sums_length, !map_length; auto).
  rewrite map_nth, prefix_sums_nth by (rewrite !map_length; auto).
  rewrite map_map, firstn_map. auto.
Qed.
