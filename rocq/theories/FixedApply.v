From Coq Require Import List Arith Bool ZArith Lia.
From Verif Require Import Prelude Fixed FixedSpec FixedProofs.
Import ListNotations.

(* ------------------------------------------------------------------ *)
(* C06, operands of the same type                                       *)

Lemma tails_shape {A} (more : list (tuple A)) s p :
  Forall (fun t => tshape t = p :: s) more -> Forall (fun t => tshape t = s) (tails more).
Proof.
  induction 1; simpl; constructor; auto. destruct x; simpl in *; congruence.
Qed.
Lemma heads_length {A} (more : list (tuple A)) s n l :
  Forall (fun t => tshape t = (n, l) :: s) more -> Forall (fun r => length r = l) (heads more).
Proof.
  induction 1; simpl; constructor; auto. destruct x as [|c x]; simpl in *; [discriminate|].
  injection H as H1 H2 _. auto.
Qed.

Lemma celems_length {A} (c : chunk A) : chunk_ok c -> length (celems c) = csize c.
Proof. unfold celems, chunk_ok. rewrite firstn_length. lia. Qed.

Lemma telems_cons {A} (c : chunk A) t : telems (c :: t) = celems c ++ telems t.
Proof. reflexivity. Qed.
Lemma tshape_cons {A} (c : chunk A) t : tshape (c :: t) = cshape c :: tshape t.
Proof. reflexivity. Qed.

Lemma nth_telems_head {A} (c : chunk A) t i d : chunk_ok c -> i < csize c ->
  nth i (telems (c :: t)) d = nth i (creg c) d.
Proof.
  intros Hc Hi. rewrite telems_cons, app_nth1 by (rewrite celems_length; auto).
  unfold celems. apply nth_firstn_lt. auto.
Qed.
Lemma nth_telems_tail {A} (c : chunk A) t i d : chunk_ok c -> csize c <= i ->
  nth i (telems (c :: t)) d = nth (i - csize c) (telems t) d.
Proof.
  intros Hc Hi. rewrite telems_cons, app_nth2 by (rewrite celems_length; auto).
  rewrite celems_length; auto.
Qed.

Lemma shape_head_ok {A} (t : tuple A) n l s : tshape t = (n, l) :: s -> n <= l ->
  exists c r, t = c :: r /\ csize c = n /\ length (creg c) = l /\ chunk_ok c /\ tshape r = s.
Proof.
  destruct t as [|c r]; intros H Hn; [discriminate|]. injection H as H1 H2 H3.
  exists c, r. unfold chunk_ok. repeat split; auto. lia.
Qed.

(* values of a pack at index i, for i in the first chunk / later *)
Lemma pack_head {A} (more : list (tuple A)) n l s i d :
  n <= l -> i < n -> Forall (fun t => tshape t = (n, l) :: s) more ->
  map (fun r => nth i r d) (heads more) = map (fun t => nth i (telems t) d) more.
Proof.
  intros Hn Hi. induction 1; simpl; auto. rewrite IHForall. f_equal.
  destruct (shape_head_ok x n l s H Hn) as (c & r & -> & Hc & Hl & Hok & Hs).
  rewrite nth_telems_head; auto. lia.
Qed.
Lemma pack_tail {A} (more : list (tuple A)) n l s i d :
  n <= l -> n <= i -> Forall (fun t => tshape t = (n, l) :: s) more ->
  map (fun t => nth (i - n) (telems t) d) (tails more) = map (fun t => nth i (telems t) d) more.
Proof.
  intros Hn Hi. induction 1; simpl; auto. rewrite IHForall. f_equal.
  destruct (shape_head_ok x n l s H Hn) as (c & r & -> & Hc & Hl & Hok & Hs).
  rewrite nth_telems_tail by (auto; lia). subst n. auto.
Qed.

Lemma apply_per_chunk_spec {A} (f : A -> list A -> A) F (x : tuple A) :
  lanewise f F -> forall more, Forall chunk_ok x ->
  Forall (fun t => tshape t = tshape x) more ->
  tshape (apply_per_chunk F x more) = tshape x /\
  forall i d, i < ssize (tshape x) ->
    nth i (telems (apply_per_chunk F x more)) d
    = f (nth i (telems x) d) (map (fun t => nth i (telems t) d) more).
Proof.
  intros HF. induction x as [|c x IH]; intros more Hok Hm.
  - split; auto. intros i d Hi. unfold ssize in Hi. simpl in Hi. lia.
  - inversion Hok as [|? ? Hc Hok']; subst.
    assert (Hh : Forall (fun r => length r = length (creg c)) (heads more))
      by (eapply heads_length; exact Hm).
    destruct (HF (csize c) (creg c) (heads more) Hc Hh) as [HFl HFn].
    destruct (IH (tails more) Hok') as [IHs IHe]; [eapply tails_shape; exact Hm|].
    cbn [apply_per_chunk]. rewrite !tshape_cons, IHs. unfold cshape at 1. cbn [csize creg].
    rewrite HFl. split; auto.
    intros i d Hi. rewrite ssize_cons in Hi. change (fst (cshape c)) with (csize c) in Hi.
    assert (Hok1 : chunk_ok (Chunk (csize c) (F (csize c) (creg c) (heads more))))
      by (unfold chunk_ok; simpl; rewrite HFl; auto).
    destruct (le_lt_dec (csize c) i).
    + rewrite nth_telems_tail by auto. cbn [csize]. rewrite IHe by lia.
      rewrite (nth_telems_tail c) by auto. f_equal.
      apply (pack_tail more (csize c) (length (creg c)) (tshape x) i d); auto.
    + rewrite nth_telems_head by auto. cbn [creg]. rewrite HFn by auto.
      rewrite (nth_telems_head c) by auto. f_equal.
      apply (pack_head more (csize c) (length (creg c)) (tshape x) i d); auto.
Qed.

Lemma apply_wrapped_spec {A} (F : nat -> nat -> list A -> list (list A) -> list A)
  (f : nat -> A -> list A -> A) (x : tuple A) :
  forall off more, Forall chunk_ok x ->
  Forall (fun t => tshape t = tshape x) more ->
  (forall o n reg regs, n <= length reg -> Forall (fun r => length r = length reg) regs ->
     off <= o -> o + n <= off + ssize (tshape x) ->
     length (F o n reg regs) = length reg /\
     forall i d, i < n -> nth i (F o n reg regs) d
                         = f (o + i) (nth i reg d) (map (fun r => nth i r d) regs)) ->
  tshape (apply_wrapped F off x more) = tshape x /\
  forall i d, i < ssize (tshape x) ->
    nth i (telems (apply_wrapped F off x more)) d
    = f (off + i) (nth i (telems x) d) (map (fun t => nth i (telems t) d) more).
Proof.
  induction x as [|c x IH]; intros off more Hok Hm HF.
  - split; auto. intros i d Hi. unfold ssize in Hi. simpl in Hi. lia.
  - inversion Hok as [|? ? Hc Hok']; subst.
    rewrite tshape_cons, ssize_cons in HF. change (fst (cshape c)) with (csize c) in HF.
    assert (Hh : Forall (fun r => length r = length (creg c)) (heads more))
      by (eapply heads_length; exact Hm).
    destruct (HF off (csize c) (creg c) (heads more) Hc Hh) as [HFl HFn]; [lia|lia|].
    destruct (IH (off + csize c) (tails more) Hok') as [IHs IHe];
      [eapply tails_shape; exact Hm| |].
    { intros o n reg regs H1 H2 H3 H4. apply HF; auto; lia. }
    cbn [apply_wrapped]. rewrite !tshape_cons, IHs. unfold cshape at 1. cbn [csize creg].
    rewrite HFl. split; auto.
    intros i d Hi. rewrite ssize_cons in Hi. change (fst (cshape c)) with (csize c) in Hi.
    assert (Hok1 : chunk_ok (Chunk (csize c) (F off (csize c) (creg c) (heads more))))
      by (unfold chunk_ok; simpl; rewrite HFl; auto).
    destruct (le_lt_dec (csize c) i).
    + rewrite nth_telems_tail by auto. cbn [csize]. rewrite IHe by lia.
      rewrite (nth_telems_tail c) by auto. f_equal; [lia|].
      apply (pack_tail more (csize c) (length (creg c)) (tshape x) i d); auto.
    + rewrite nth_telems_head by auto. cbn [creg]. rewrite HFn by auto.
      rewrite (nth_telems_head c) by auto. f_equal.
      apply (pack_head more (csize c) (length (creg c)) (tshape x) i d); auto.
Qed.

(* ------------------------------------------------------------------ *)
(* C06, an operand of another element type                              *)

Lemma round_up_ge x a : 0 < a -> x <= round_up x a.
Proof. intros H. unfold round_up. destruct (BitMaskProofs.div_roundup_spec x a H). lia. Qed.
Lemma salign_pos s : 1 <= salign s.
Proof. unfold salign. induction (map snd s); simpl; lia. Qed.
Lemma slanes_sizeof s : slanes s <= ssizeof s.
Proof.
  induction s as [|[n l] s IH]; auto. rewrite slanes_cons. cbn [snd ssizeof].
  pose proof (salign_pos s).
  pose proof (round_up_ge l (salign s) ltac:(lia)).
  pose proof (round_up_ge (round_up l (salign s) + ssizeof s) (Nat.max l (salign s)) ltac:(lia)).
  lia.
Qed.
Lemma obj_mem_length {A} (pad : A) t : length (obj_mem pad t) = ssizeof (tshape t).
Proof.
  unfold obj_mem. rewrite app_length, repeat_length, tmem_length.
  pose proof (slanes_sizeof (tshape t)). lia.
Qed.

Definition vpos {B} (v : view B) : nat := ssize (tshape (vdone v)) + voff v.

Lemma firstn_skipn_prefix {A} (l : list A) n k o : o + k <= n ->
  firstn k (skipn o l) = firstn k (skipn o (firstn n l)).
Proof.
  intros H. rewrite skipn_firstn_comm, firstn_firstn. f_equal. lia.
Qed.

Lemma extract_spec {B} (pad : B) st n v arg : extract_argument pad st n v = Some arg ->
  (forall s, st n = Some s -> dense s /\ ssize s = n) ->
  dense (tshape (vtup v)) -> voff v + n <= ssize (tshape (vtup v)) ->
  dense (tshape arg) /\ telems arg = firstn n (skipn (voff v) (telems (vtup v))).
Proof.
  unfold extract_argument. intros H Hst Hd Hb. destruct (st n) as [s|] eqn:Es; [|discriminate].
  destruct (Hst s eq_refl) as [Hds Hss].
  destruct (Nat.leb_spec (voff v + ssizeof s) (ssizeof (tshape (vtup v)))) as [Hle|]; [|discriminate].
  injection H as <-.
  pose proof (slanes_sizeof s).
  assert (Hl : slanes s <= length (firstn (slanes s) (skipn (voff v) (obj_mem pad (vtup v))))).
  { rewrite firstn_length, skipn_length, obj_mem_length. lia. }
  rewrite tof_mem_shape by auto. split; auto.
  rewrite telems_tof_mem by auto. rewrite firstn_firstn.
  pose proof (dense_lanes s Hds). rewrite Nat.min_l by lia. rewrite Hss.
  rewrite (firstn_skipn_prefix _ (ssize (tshape (vtup v)))) by auto.
  f_equal. f_equal. rewrite <- dense_mem by auto. unfold obj_mem.
  rewrite firstn_app. pose proof (dense_lanes _ Hd).
  replace (ssize (tshape (vtup v)) - length (tmem (vtup v))) with 0 by (rewrite tmem_length; lia).
  rewrite firstn_O, app_nil_r. auto.
Qed.

Lemma some_inj {X} (a b : X) : Some a = Some b -> a = b.
Proof. congruence. Qed.

Lemma assign_front_spec {B} : forall (t : tuple B) off x t', assign_front t off x = Some t' ->
  dense (tshape t) -> dense (tshape x) -> off + ssize (tshape x) <= ssize (tshape t) ->
  tshape t' = tshape t /\
  telems t' = firstn off (telems t) ++ telems x ++ skipn (off + ssize (tshape x)) (telems t).
Proof.
  induction t as [|c r IH]; intros off x t' H Hd Hdx Hb; [discriminate|].
  destruct x as [|d y]; [discriminate|]. cbn [assign_front] in H.
  destruct ((fst (cshape c) =? fst (cshape d)) && (snd (cshape c) =? snd (cshape d))) eqn:Esame.
  - apply andb_true_iff in Esame as [E1 E2]. apply Nat.eqb_eq in E1, E2.
    destruct (Nat.eqb_spec off 0) as [->|]; [|discriminate].
    pose proof (dense_ok _ Hd) as Hok. pose proof (dense_ok _ Hdx) as Hokx.
    inversion Hok; inversion Hokx; subst.
    assert (Ecd : cshape d = cshape c).
    { destruct (cshape c), (cshape d). simpl in *. congruence. }
    assert (Hlc : length (celems c) = csize c) by (apply celems_length; auto).
    change (fst (cshape c)) with (csize c) in E1. change (fst (cshape d)) with (csize d) in E1.
    destruct y as [|d' y].
    + injection H as <-. rewrite !tshape_cons, Ecd. split; auto.
      rewrite !telems_cons. rewrite ssize_cons.
      change (fst (cshape c)) with (csize c). change (ssize (tshape [])) with 0.
      change (telems (@nil (chunk B))) with (@nil B).
      rewrite Nat.add_0_r, app_nil_r, Nat.add_0_l. cbn [firstn app]. f_equal.
      rewrite skipn_app, <- Hlc, skipn_all, Nat.sub_diag. reflexivity.
    + destruct (Nat.leb_spec (length (d' :: y)) (length r)); [|discriminate].
      destruct (assign_front r 0 (d' :: y)) as [r'|] eqn:Er; [|discriminate].
      injection H as <-.
      destruct (IH 0 (d' :: y) r' Er) as [IHs IHe].
      * eapply dense_tail; exact Hd.
      * eapply dense_tail; exact Hdx.
      * rewrite (tshape_cons c), (tshape_cons d), !ssize_cons in Hb.
        change (fst (cshape c)) with (csize c) in Hb. change (fst (cshape d)) with (csize d) in Hb. lia.
      * rewrite !(tshape_cons _ r'), !(tshape_cons c), !(tshape_cons d), Ecd, IHs. split; auto.
        rewrite !telems_cons, IHe. cbn [firstn app]. rewrite <- app_assoc. f_equal.
        rewrite ssize_cons. rewrite Nat.add_0_l, skipn_app.
        change (fst (cshape c)) with (csize c).
        rewrite Nat.add_0_l, (skipn_all2 (celems c)) by lia. rewrite Hlc. cbn [app].
        rewrite telems_cons. do 2 f_equal. lia.
  - set (t := c :: r) in *. set (x := d :: y) in *.
    destruct (Nat.leb_spec (off + ssize (tshape x)) (length (tmem t))); [|discriminate].
    apply some_inj in H. subst t'.
    pose proof (dense_lanes _ Hd) as Hl. pose proof (dense_lanes _ Hdx) as Hlx.
    assert (Ek : firstn (ssize (tshape x)) (tmem x) = telems x) by (apply dense_mem; auto).
    assert (Hkl : length (telems x) = ssize (tshape x)) by (apply telems_length, dense_ok; auto).
    assert (Hml : length (tmem t) = slanes (tshape t)) by apply tmem_length.
    assert (Hlen : slanes (tshape t) <= length (firstn off (tmem t) ++ firstn (ssize (tshape x)) (tmem x)
             ++ skipn (off + ssize (tshape x)) (tmem t))).
    { rewrite Ek, !app_length, firstn_length, skipn_length, Hkl. lia. }
    rewrite tof_mem_shape by auto. split; auto.
    rewrite telems_tof_mem by auto. rewrite Ek.
    rewrite firstn_app, firstn_length, firstn_app, Hkl.
    rewrite firstn_firstn.
    replace (Nat.min (ssize (tshape t)) off) with off by lia.
    replace (Nat.min off (length (tmem t))) with off by lia.
    f_equal.
    { rewrite <- dense_mem by auto. rewrite firstn_firstn. f_equal. lia. }
    f_equal.
    { rewrite firstn_all2; auto. lia. }
    rewrite <- dense_mem by auto. rewrite firstn_skipn_comm. f_equal. f_equal. lia.
Qed.

Lemma pop_front_spec {B} (t : tuple B) : forall done np d' t', pop_front done t np = Some (d', t') ->
  done ++ t = d' ++ t' /\ ssize (tshape d') = ssize (tshape done) + np.
Proof.
  induction t as [|c t IH]; intros done np d' t' H; cbn [pop_front] in H.
  - destruct (Nat.eqb_spec np 0); [|discriminate]. injection H as <- <-. split; auto. lia.
  - destruct (Nat.eqb_spec np 0).
    + injection H as <- <-. split; auto. lia.
    + destruct (Nat.leb_spec (csize c) np); [|discriminate].
      destruct (IH _ _ _ _ H) as [H1 H2]. split.
      * rewrite <- H1, <- app_assoc. auto.
      * rewrite H2, tshape_app, ssize_app. unfold ssize at 2. simpl. lia.
Qed.

Lemma skip_spec {B} n (v v' : view B) : skip_argument n v = Some v' ->
  view_all v' = view_all v /\ vpos v' = vpos v + n.
Proof.
  unfold skip_argument. destruct v as [dn tp off]. cbn [vtup voff vdone].
  destruct tp as [|c r]; [discriminate|]. unfold view_all, vpos. cbn [vdone vtup voff].
  destruct ((n =? csize c) && (off =? 0)) eqn:E1.
  { intros [= <-]. cbn [vdone vtup voff]. apply andb_true_iff in E1 as [E1 E2].
    apply Nat.eqb_eq in E1, E2. subst. rewrite <- app_assoc. split; auto.
    rewrite tshape_app, ssize_app. unfold ssize at 2. simpl. lia. }
  destruct ((csize c <? n) && (n mod csize c =? 0) && (off =? 0)) eqn:E2.
  { destruct (pop_front dn (c :: r) n) as [[d' t']|] eqn:Ep; [|discriminate].
    intros [= <-]. cbn [vdone vtup voff fst snd].
    destruct (pop_front_spec _ _ _ _ _ Ep) as [H1 H2]. split; auto.
    apply andb_true_iff in E2 as [_ E2]. apply Nat.eqb_eq in E2. lia. }
  destruct (Nat.ltb_spec (n + off) (csize c)).
  { intros [= <-]. cbn [vdone vtup voff]. split; auto. lia. }
  destruct (Nat.eqb_spec (n + off) (csize c)); [|discriminate].
  intros [= <-]. cbn [vdone vtup voff]. rewrite <- app_assoc. split; auto.
  rewrite tshape_app, ssize_app. unfold ssize at 2. simpl. lia.
Qed.

(* the elements of a view, by absolute position *)
Lemma view_extract_nth {B} (v : view B) n i e :
  Forall chunk_ok (view_all v) -> voff v + n <= ssize (tshape (vtup v)) -> i < n ->
  nth i (firstn n (skipn (voff v) (telems (vtup v)))) e
  = nth (vpos v + i) (telems (view_all v)) e.
Proof.
  intros Hok Hb Hi. rewrite nth_firstn_lt by auto. rewrite nth_skipn_add.
  unfold view_all in *. apply Forall_app in Hok as [Hok1 Hok2].
  rewrite telems_app, app_nth2; rewrite telems_length by auto; unfold vpos; [|lia].
  f_equal. lia.
Qed.

Lemma apply_mixed_spec {A B} (pad : B) wb st (f : A -> list A -> B -> A) g F :
  lanewise_mixed f g F ->
  forall (x : tuple A) more v r t',
  (forall c s, In c x -> st (csize c) = Some s -> dense s /\ ssize s = csize c) ->
  apply_mixed pad wb st F x more v = Some (r, t') ->
  Forall chunk_ok x -> Forall (fun t => tshape t = tshape x) more ->
  dense (tshape (view_all v)) -> vpos v + ssize (tshape x) = ssize (tshape (view_all v)) ->
  tshape r = tshape x /\ tshape t' = tshape (view_all v) /\
  (wb = false -> t' = view_all v) /\
  (forall i d e, i < ssize (tshape x) ->
     nth i (telems r) d
     = f (nth i (telems x) d) (map (fun t => nth i (telems t) d) more)
         (nth (vpos v + i) (telems (view_all v)) e)) /\
  (forall i e, i < vpos v -> nth i (telems t') e = nth i (telems (view_all v)) e) /\
  (wb = true -> forall i d e, i < ssize (tshape x) ->
     nth (vpos v + i) (telems t') e
     = g (nth i (telems x) d) (map (fun t => nth i (telems t) d) more)
         (nth (vpos v + i) (telems (view_all v)) e)).
Proof.
  intros HF. induction x as [|c x IH]; intros more v r t' Hst H Hok Hm Hd Hn; [discriminate|].
  cbn [apply_mixed] in H.
  inversion Hok as [|? ? Hc Hok']; subst.
  assert (Hh : Forall (fun r => length r = length (creg c)) (heads more))
    by (eapply heads_length; exact Hm).
  destruct (extract_argument pad st (csize c) v) as [arg|] eqn:Ea; [|discriminate].
  rewrite tshape_cons, ssize_cons in Hn. change (fst (cshape c)) with (csize c) in Hn.
  assert (Hdt : dense (tshape (vtup v))).
  { unfold view_all in Hd. rewrite tshape_app in Hd. eapply dense_app_r; eauto. }
  assert (Hsz : voff v + (csize c + ssize (tshape x)) = ssize (tshape (vtup v))).
  { unfold view_all in Hn. rewrite tshape_app, ssize_app in Hn. unfold vpos in Hn. lia. }
  destruct (extract_spec pad st (csize c) v arg Ea) as [Hda Hea]; auto; try lia.
  { intros s Hs. apply (Hst c s); auto. left; auto. }
  assert (Hla : length (telems arg) = csize c).
  { rewrite Hea, firstn_length, skipn_length, telems_length by (apply dense_ok; auto). lia. }
  destruct (F (csize c) (creg c) (heads more) arg) as [reg arg'] eqn:EF.
  destruct (HF (csize c) (creg c) (heads more) arg Hc Hh Hda Hla) as (HFl & HFs & HFn).
  rewrite EF in HFl, HFs, HFn. cbn [fst snd] in HFl, HFs, HFn.
  pose proof (dense_ok _ Hd) as Hokv.
  (* state after the optional write-back *)
  destruct (if wb then view_assign v arg' else Some v) as [v1|] eqn:Ev; [|discriminate].
  assert (Hv1 : vdone v1 = vdone v /\ voff v1 = voff v /\ tshape (vtup v1) = tshape (vtup v)
    /\ (wb = false -> v1 = v)
    /\ (forall j e, j < vpos v -> nth j (telems (view_all v1)) e = nth j (telems (view_all v)) e)
    /\ (forall j e, vpos v + csize c <= j ->
          nth j (telems (view_all v1)) e = nth j (telems (view_all v)) e)
    /\ (wb = true -> forall i e, i < csize c ->
          nth (vpos v + i) (telems (view_all v1)) e = nth i (telems arg') e)).
  { destruct wb; [|injection Ev as <-; repeat split; auto; discriminate].
    unfold view_assign in Ev.
    destruct (assign_front (vtup v) (voff v) arg') as [t1|] eqn:Et; [|discriminate].
    injection Ev as <-. cbn [vdone voff vtup].
    assert (Hsa : ssize (tshape arg') = csize c).
    { rewrite HFs, <- Hla. symmetry. apply telems_length, dense_ok; auto. }
    assert (Hla' : length (telems arg') = csize c).
    { rewrite telems_length; auto. apply dense_ok. rewrite HFs; auto. }
    destruct (assign_front_spec _ _ _ _ Et) as [Hs1 He1]; auto; [rewrite HFs; auto|lia|].
    assert (Hld : length (telems (vdone v)) = ssize (tshape (vdone v))).
    { apply telems_length. unfold view_all in Hokv. apply Forall_app in Hokv as [? _]; auto. }
    assert (Hlt : length (telems (vtup v)) = ssize (tshape (vtup v)))
      by (apply telems_length, dense_ok; auto).
    repeat split; auto; try discriminate; unfold view_all, vpos; cbn [vdone vtup];
      intros; rewrite !telems_app, He1.
    - destruct (le_lt_dec (length (telems (vdone v))) j).
      + rewrite !(app_nth2 (telems (vdone v))) by auto.
        rewrite app_nth1 by (rewrite firstn_length; lia). apply nth_firstn_lt. lia.
      + rewrite !app_nth1 by auto. auto.
    - rewrite !(app_nth2 (telems (vdone v))) by lia.
      rewrite app_nth2 by (rewrite firstn_length; lia).
      rewrite app_nth2 by (rewrite firstn_length; lia).
      rewrite nth_skipn_add, firstn_length. f_equal. lia.
    - rewrite app_nth2 by lia. rewrite app_nth2 by (rewrite firstn_length; lia).
      rewrite app_nth1 by (rewrite firstn_length; lia). f_equal. rewrite firstn_length. lia. }
  destruct Hv1 as (Hv1d & Hv1o & Hv1t & Hv1n & Hv1lo & Hv1hi & Hv1g).
  assert (Hv1s : tshape (view_all v1) = tshape (view_all v)).
  { unfold view_all. rewrite !tshape_app, Hv1d, Hv1t. auto. }
  assert (Hv1p : vpos v1 = vpos v) by (unfold vpos; rewrite Hv1d, Hv1o; auto).
  assert (Harg : forall i e, i < csize c -> nth i (telems arg) e = nth (vpos v + i) (telems (view_all v)) e).
  { intros i e Hi. rewrite Hea. apply view_extract_nth; auto. lia. }
  assert (Hok1 : chunk_ok (Chunk (csize c) reg)) by (unfold chunk_ok in *; simpl; rewrite HFl; auto).
  (* combine with what happens to the remaining registers *)
  assert (Hmain : exists rr, r = Chunk (csize c) reg :: rr /\ tshape rr = tshape x /\
    tshape t' = tshape (view_all v) /\ (wb = false -> t' = view_all v) /\
    (forall i d e, i < ssize (tshape x) ->
     nth i (telems rr) d
     = f (nth i (telems x) d) (map (fun t => nth i (telems t) d) (tails more))
         (nth (vpos v + csize c + i) (telems (view_all v)) e)) /\
    (forall i e, i < vpos v + csize c -> nth i (telems t') e = nth i (telems (view_all v1)) e) /\
    (wb = true -> forall i d e, i < ssize (tshape x) ->
     nth (vpos v + csize c + i) (telems t') e
     = g (nth i (telems x) d) (map (fun t => nth i (telems t) d) (tails more))
         (nth (vpos v + csize c + i) (telems (view_all v)) e))).
  { destruct x as [|c2 x].
    - injection H as <- <-. exists []. repeat split; auto.
      + intros Hw. rewrite (Hv1n Hw). auto.
      + intros i d e Hi. unfold ssize in Hi. simpl in Hi. lia.
      + intros _ i d e Hi. unfold ssize in Hi. simpl in Hi. lia.
    - set (xx := c2 :: x) in *.
      destruct (skip_argument (csize c) v1) as [v2|] eqn:Esk; [|discriminate].
      destruct (skip_spec _ _ _ Esk) as [Hva Hvp].
      destruct (apply_mixed pad wb st F xx (tails more) v2) as [[rr t2]|] eqn:Er; [|discriminate].
      injection H as <- <-. exists rr. cbn [fst snd] in *.
      destruct (IH (tails more) v2 rr t2) as (I1 & I2 & I3 & I4 & I5 & I6); auto.
      + intros c' s Hc' Hs. apply (Hst c' s); auto. right; auto.
      + eapply tails_shape; exact Hm.
      + rewrite Hva, Hv1s. auto.
      + rewrite Hva, Hv1s, Hvp, Hv1p. lia.
      + rewrite Hva, Hvp, Hv1p in *. repeat split; auto.
        * congruence.
        * intros Hw. rewrite I3, (Hv1n Hw); auto.
        * intros i d e Hi. rewrite (I4 i d e) by auto. f_equal. apply Hv1hi. lia.
        * intros Hw i d e Hi. rewrite (I6 Hw i d e) by auto. f_equal. apply Hv1hi. lia. }
  destruct Hmain as (rr & -> & M1 & M2 & M3 & M4 & M5 & M6).
  split; [|split; [|split; [|split; [|split]]]]; auto.
  - rewrite !tshape_cons, M1. unfold cshape. simpl. rewrite HFl. auto.
  - intros i d e Hi. rewrite tshape_cons, ssize_cons in Hi. change (fst (cshape c)) with (csize c) in Hi.
    destruct (le_lt_dec (csize c) i).
    + rewrite nth_telems_tail by auto. cbn [csize]. rewrite (M4 _ d e) by lia.
      rewrite (nth_telems_tail c) by auto. f_equal.
      * apply (pack_tail more (csize c) (length (creg c)) (tshape x) i d); auto.
      * f_equal. lia.
    + rewrite nth_telems_head by auto. cbn [creg]. rewrite (proj1 (HFn i d e ltac:(auto))).
      rewrite (nth_telems_head c) by auto. f_equal; [apply (pack_head more (csize c) (length (creg c)) (tshape x) i d); auto|apply Harg; auto].
  - intros i e Hi. rewrite M5 by lia. apply Hv1lo. auto.
  - intros Hw i d e Hi. rewrite tshape_cons, ssize_cons in Hi. change (fst (cshape c)) with (csize c) in Hi.
    destruct (le_lt_dec (csize c) i).
    + replace (vpos v + i) with (vpos v + csize c + (i - csize c)) by lia.
      rewrite (M6 Hw (i - csize c) d e) by lia. rewrite (nth_telems_tail c) by auto. f_equal.
      apply (pack_tail more (csize c) (length (creg c)) (tshape x) i d); auto.
    + rewrite M5 by lia. rewrite Hv1g by auto. rewrite (proj2 (HFn i d e ltac:(auto))).
      rewrite (nth_telems_head c) by auto. f_equal; [apply (pack_head more (csize c) (length (creg c)) (tshape x) i d); auto|apply Harg; auto].
Qed.
