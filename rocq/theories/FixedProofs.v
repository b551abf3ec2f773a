From Coq Require Import List Arith Bool ZArith Lia.
From Verif Require Import Prelude MaskSpec BitMask BitMaskProofs Abi AbiSpec AbiProofs Fixed FixedSpec.
Import ListNotations.

(* ------------------------------------------------------------------ *)
(* basic facts about tuples                                            *)

Lemma ssize_cons p s : ssize (p :: s) = fst p + ssize s.
Proof. reflexivity. Qed.
Lemma slanes_cons p s : slanes (p :: s) = snd p + slanes s.
Proof. reflexivity. Qed.
Lemma ssize_app a b : ssize (a ++ b) = ssize a + ssize b.
Proof. unfold ssize. rewrite map_app, list_sum_app. auto. Qed.
Lemma slanes_app a b : slanes (a ++ b) = slanes a + slanes b.
Proof. unfold slanes. rewrite map_app, list_sum_app. auto. Qed.
Lemma tshape_app {A} (a b : tuple A) : tshape (a ++ b) = tshape a ++ tshape b.
Proof. apply map_app. Qed.
Lemma telems_app {A} (a b : tuple A) : telems (a ++ b) = telems a ++ telems b.
Proof. apply flat_map_app. Qed.
Lemma tmem_app {A} (a b : tuple A) : tmem (a ++ b) = tmem a ++ tmem b.
Proof. apply flat_map_app. Qed.
Lemma tmem_length {A} (t : tuple A) : length (tmem t) = slanes (tshape t).
Proof. induction t; simpl; auto. rewrite app_length, IHt. auto. Qed.

Lemma dense_tail p s : dense (p :: s) -> dense s.
Proof. destruct p; simpl; tauto. Qed.
Lemma dense_app_r a b : dense (a ++ b) -> dense b.
Proof. induction a as [|[n l] a IH]; auto. intros H. apply IH. eapply dense_tail; eauto. Qed.
Lemma dense_ok {A} (t : tuple A) : dense (tshape t) -> Forall chunk_ok t.
Proof.
  induction t as [|c t IH]; simpl; auto. intros (H1 & H2 & _ & H4).
  constructor; auto.
Qed.
Lemma dense_lanes s : dense s -> ssize s <= slanes s.
Proof.
  induction s as [|[n l] s IH]; auto. intros H.
  rewrite ssize_cons, slanes_cons. simpl in *. destruct H as (? & ? & ? & ?).
  specialize (IH H2). lia.
Qed.
Lemma telems_length {A} (t : tuple A) : Forall chunk_ok t -> length (telems t) = ssize (tshape t).
Proof.
  induction 1; simpl; auto. rewrite app_length, IHForall, ssize_cons.
  unfold celems. rewrite firstn_length. unfold chunk_ok in H. simpl. lia.
Qed.

Lemma dense_mem {A} (t : tuple A) : dense (tshape t) ->
  firstn (ssize (tshape t)) (tmem t) = telems t.
Proof.
  induction t as [|c t IH]; auto. intros H.
  cbn [tshape map telems tmem flat_map] in *. change (map cshape t) with (tshape t) in *.
  rewrite ssize_cons. simpl in H. destruct H as (H1 & H2 & H3 & H4).
  specialize (IH H4). cbn [fst]. change (fst (cshape c)) with (csize c).
  destruct t as [|c' t].
  - simpl. rewrite !app_nil_r, Nat.add_0_r. reflexivity.
  - assert (E : csize c = length (creg c)) by (apply H3; discriminate).
    rewrite E at 1. rewrite firstn_app_2. unfold celems at 1.
    rewrite E, firstn_all. f_equal. exact IH.
Qed.

Lemma tof_mem_shape {A} s (m : list A) : slanes s <= length m -> tshape (tof_mem s m) = s.
Proof.
  revert m. induction s as [|[n l] s IH]; intros m H; auto.
  rewrite slanes_cons in H. simpl in *. rewrite IH by (rewrite skipn_length; lia).
  unfold cshape. simpl. rewrite firstn_length_le by lia. auto.
Qed.
Lemma tmem_tof_mem {A} s (m : list A) : slanes s <= length m ->
  tmem (tof_mem s m) = firstn (slanes s) m.
Proof.
  revert m. induction s as [|[n l] s IH]; intros m H; auto.
  rewrite slanes_cons in *. simpl in *. rewrite IH by (rewrite skipn_length; lia).
  rewrite firstn_add. auto.
Qed.
Lemma telems_tof_mem {A} s (m : list A) : dense s -> slanes s <= length m ->
  telems (tof_mem s m) = firstn (ssize s) m.
Proof.
  intros Hd Hl. rewrite <- dense_mem by (rewrite tof_mem_shape; auto).
  rewrite tof_mem_shape, tmem_tof_mem by auto. rewrite firstn_firstn.
  f_equal. pose proof (dense_lanes s Hd). lia.
Qed.

Lemma nth_error_firstn {A} (l : list A) n i : i < n -> nth_error (firstn n l) i = nth_error l i.
Proof. revert n i; induction l; intros [|n] [|i] H; simpl; auto; try lia. apply IHl. lia. Qed.

(* ------------------------------------------------------------------ *)
(* C05                                                                 *)

Lemma t_generate_spec {A} (s : shape) : forall off (gen : nat -> nat -> nat -> list A),
  (forall o n l, length (gen o n l) = l) ->
  tshape (t_generate s off gen) = s.
Proof.
  induction s as [|[n l] s IH]; intros off gen H; auto. simpl. rewrite IH by auto.
  unfold cshape. simpl. rewrite H. auto.
Qed.

Lemma map_seq_shift {A} (g : nat -> A) a n : map g (seq a n) = map (fun i => g (a + i)) (seq 0 n).
Proof.
  revert a. induction n; intros; auto. rewrite !seq_S, !map_app, IHn. auto.
Qed.

Lemma generator_elems {A} (zero : A) s : forall off np g,
  Forall (fun p => fst p <= snd p) s -> off + ssize s <= np ->
  telems (t_generate s off (fun off n l =>
    reg_generator zero n l (fun i => if i <? np then g (off + i) else zero)))
  = map g (seq off (ssize s)).
Proof.
  induction s as [|[n l] s IH]; intros off np g Hf Hb; auto.
  inversion Hf; subst. simpl in H1. rewrite ssize_cons in *. simpl fst in *.
  simpl t_generate. simpl telems. rewrite IH by (auto; lia).
  rewrite seq_app, map_app. f_equal.
  unfold celems, reg_generator. simpl.
  apply nth_eq_ext with zero.
  - rewrite firstn_length, !map_length, !seq_length. lia.
  - rewrite firstn_length, map_length, seq_length. intros i Hi.
    rewrite nth_firstn_lt by lia. rewrite nth_map_seq by lia.
    rewrite map_seq_shift, nth_map_seq by lia. rewrite !Nat.add_0_l.
    destruct (Nat.ltb_spec i n); [|lia]. destruct (Nat.ltb_spec i np); [auto|lia].
Qed.

Lemma broadcast_elems {A} (x : A) s : forall off,
  Forall (fun p => fst p <= snd p) s ->
  telems (t_generate s off (fun _ _ l => repeat x l)) = repeat x (ssize s).
Proof.
  induction s as [|[n l] s IH]; intros off Hf; auto. inversion Hf; subst. simpl in H1.
  rewrite ssize_cons. simpl. rewrite IH by auto. rewrite repeat_app. f_equal.
  unfold celems. simpl. clear -H1. revert l H1. induction n; intros [|l] H; simpl; auto; [lia|].
  f_equal. apply IHn. lia.
Qed.

Lemma dense_le s : dense s -> Forall (fun p => fst p <= snd p) s.
Proof. induction s as [|[n l] s IH]; auto. simpl. intros (?&?&?&?). constructor; auto. Qed.

Lemma get_const_elems {A} (t : tuple A) : forall i, Forall chunk_ok t ->
  t_get_const t i = nth_error (telems t) i.
Proof.
  induction t as [|c t IH]; intros i H; simpl.
  - destruct i; auto.
  - inversion H; subst. unfold chunk_ok in H2.
    assert (Hl : length (celems c) = csize c) by (unfold celems; rewrite firstn_length; lia).
    destruct (Nat.ltb_spec i (csize c)).
    + rewrite nth_error_app1 by lia. unfold celems, chunk_read. rewrite nth_error_firstn; auto.
    + rewrite nth_error_app2 by lia. rewrite Hl. auto.
Qed.

Lemma get_elems {A} (t : tuple A) i : dense (tshape t) -> i < ssize (tshape t) ->
  t_get t i = nth_error (telems t) i.
Proof.
  intros Hd Hi. rewrite <- dense_mem by auto. rewrite nth_error_firstn by auto.
  unfold t_get. destruct t as [|c [|c' t]]; auto.
  unfold chunk_read, tmem. simpl. rewrite app_nil_r. auto.
Qed.

Lemma get_noalias_elems {A} sc (t : tuple A) : forall i, dense (tshape t) -> i < ssize (tshape t) ->
  t_get_noalias sc t i = nth_error (telems t) i.
Proof.
  induction t as [|c t IH]; intros i Hd Hi; [unfold ssize in Hi; simpl in Hi; lia|].
  pose proof (get_elems (c :: t) i Hd Hi) as Hg.
  destruct t as [|c' t].
  - unfold t_get in Hg. auto.
  - change (t_get_noalias sc (c :: c' :: t) i) with
      (if sc (cshape c) then nth_error (tmem (c :: c' :: t)) i
       else if i <? csize c then chunk_read c i
       else t_get_noalias sc (c' :: t) (i - csize c)).
    unfold t_get in Hg.
    destruct (sc (cshape c)); auto.
    pose proof (dense_ok _ Hd) as Hok. inversion Hok; subst.
    rewrite <- get_const_elems by auto. cbn [t_get_const].
    destruct (Nat.ltb_spec i (csize c)); auto.
    rewrite IH.
    + symmetry. apply (get_const_elems (c' :: t)). auto.
    + eapply dense_tail. exact Hd.
    + cbn [tshape map] in Hi |- *. rewrite ssize_cons in Hi.
      change (fst (cshape c)) with (csize c) in Hi. lia.
Qed.

Lemma upd_firstn {A} (l : list A) i v n : i < n -> firstn n (upd l i v) = upd (firstn n l) i v.
Proof. revert l i. induction n; intros [|a l] [|i] H; simpl; auto; try lia. f_equal. apply IHn. lia. Qed.

Lemma set_elems {A} (t : tuple A) i v : dense (tshape t) -> i < ssize (tshape t) ->
  exists t', t_set t i v = Some t' /\ tshape t' = tshape t /\ telems t' = upd (telems t) i v.
Proof.
  intros Hd Hi. pose proof (dense_lanes _ Hd) as Hl. rewrite <- tmem_length in Hl.
  assert (Hu : forall s, dense s -> s = tshape t ->
            exists t', Some (tof_mem s (upd (tmem t) i v)) = Some t' /\ tshape t' = tshape t
                       /\ telems t' = upd (telems t) i v).
  { intros s Hs ->. eexists; split; [reflexivity|].
    assert (slanes (tshape t) <= length (upd (tmem t) i v))
      by (rewrite upd_length, tmem_length; auto).
    rewrite tof_mem_shape, telems_tof_mem by auto. split; auto.
    rewrite upd_firstn by auto. rewrite dense_mem; auto. }
  unfold t_set. destruct t as [|c [|c' t]].
  - unfold ssize in Hi; simpl in Hi. lia.
  - clear Hu. unfold chunk_write. simpl in Hd, Hi, Hl. unfold ssize in Hi. simpl in Hi.
    rewrite app_nil_r in Hl.
    destruct (Nat.ltb_spec i (length (creg c))); [|lia].
    eexists; split; [reflexivity|]. unfold tshape, cshape. simpl. rewrite upd_length. split; auto.
    unfold celems. simpl. rewrite !app_nil_r. apply upd_firstn. lia.
  - destruct (Nat.ltb_spec i (length (tmem (c :: c' :: t)))); [|lia].
    apply Hu; auto.
Qed.

Lemma set_noalias_elems {A} (t : tuple A) : forall i v, dense (tshape t) -> i < ssize (tshape t) ->
  exists t', t_set_noalias t i v = Some t' /\ tshape t' = tshape t /\ telems t' = upd (telems t) i v.
Proof.
  induction t as [|c t IH]; intros i v Hd Hi; [unfold ssize in Hi; simpl in Hi; lia|].
  pose proof (dense_ok _ Hd) as Hok. inversion Hok as [|? ? Hc Hok']; subst. unfold chunk_ok in Hc.
  assert (Hl : length (celems c) = csize c) by (unfold celems; rewrite firstn_length; lia).
  assert (Hw : forall j, j < csize c ->
     exists c', chunk_write c j v = Some c' /\ cshape c' = cshape c /\ celems c' = upd (celems c) j v).
  { intros j Hj. unfold chunk_write. destruct (Nat.ltb_spec j (length (creg c))); [|lia].
    eexists; split; [reflexivity|]. unfold cshape, celems. simpl. rewrite upd_length. split; auto.
    apply upd_firstn. auto. }
  cbn [tshape map] in Hi. rewrite ssize_cons in Hi. change (fst (cshape c)) with (csize c) in Hi.
  destruct t as [|c' t].
  - simpl in Hi. destruct (Hw i) as (c1 & E & Es & Ee); [unfold ssize in Hi; simpl in Hi; lia|].
    simpl. rewrite E. eexists; split; [reflexivity|]. simpl. rewrite Es, Ee, !app_nil_r. auto.
  - change (t_set_noalias (c :: c' :: t) i v) with
      (if i <? csize c then option_map (fun x => x :: c' :: t) (chunk_write c i v)
       else option_map (cons c) (t_set_noalias (c' :: t) (i - csize c) v)).
    destruct (Nat.ltb_spec i (csize c)).
    + destruct (Hw i) as (c1 & E & Es & Ee); auto. rewrite E.
      eexists; split; [reflexivity|]. cbn [tshape map telems flat_map]. rewrite Es, Ee.
      split; auto. rewrite upd_app1 by lia. auto.
    + destruct (IH (i - csize c) v) as (t' & E & Es & Ee).
      * eapply dense_tail; exact Hd.
      * cbn [tshape map] in *. lia.
      * rewrite E. eexists; split; [reflexivity|]. split.
        -- cbn [tshape map]. f_equal. exact Es.
        -- cbn [telems flat_map]. rewrite upd_app2 by lia. rewrite Hl. f_equal. exact Ee.
Qed.

