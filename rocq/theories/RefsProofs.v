From Coq Require Import List Arith Bool ZArith Lia.
From Verif Require Import Prelude BitMask BitMaskProofs Abi Fixed FixedSpec FixedProofs FixedTop RefsSpec Refs.
Import ListNotations.

Lemma testbit_read x i : (0 <= i)%Z -> negb (Z.land x (Z.shiftl 1 i) =? 0)%Z = Z.testbit x i.
Proof.
  intros Hi. rewrite Z.shiftl_1_l.
  destruct (Z.testbit x i) eqn:E.
  - destruct (Z.eqb_spec (Z.land x (2 ^ i)) 0) as [H|H]; auto.
    assert (Z.testbit (Z.land x (2 ^ i)) i = false) by (rewrite H; apply Z.bits_0).
    rewrite Z.land_spec, Z.pow2_bits_true, E in H0 by auto. discriminate.
  - destruct (Z.eqb_spec (Z.land x (2 ^ i)) 0) as [H|H]; auto. exfalso. apply H.
    apply Z.bits_inj'. intros j Hj. rewrite Z.land_spec, Z.bits_0.
    destruct (Z.eq_dec j i) as [->|D]; [rewrite E; auto|].
    rewrite Z.pow2_bits_false by auto. apply andb_false_r.
Qed.

Lemma below_bits x w : (0 <= w)%Z -> (0 <= x)%Z ->
  (forall j, (w <= j)%Z -> Z.testbit x j = false) -> (x < 2 ^ w)%Z.
Proof.
  intros Hw Hx H. destruct (Z.eq_dec x 0) as [->|D]; [apply Z.pow_pos_nonneg; lia|].
  destruct (Z_lt_le_dec (Z.log2 x) w) as [Hl|Hl].
  - apply Z.log2_lt_pow2; lia.
  - specialize (H _ Hl). rewrite Z.bit_log2 in H by lia. discriminate.
Qed.
Lemma bits_below x w j : (0 <= x < 2 ^ w)%Z -> (w <= j)%Z -> Z.testbit x j = false.
Proof.
  intros H Hj. destruct (Z.eq_dec x 0) as [->|D]; [apply Z.bits_0|].
  apply Z.bits_above_log2; [lia|]. apply Z.lt_le_trans with w; auto.
  apply Z.log2_lt_pow2; lia.
Qed.

Section Obj.
Context {A : Type} (c : config).

Lemma read_ok (o : obj A) i : obj_ok o -> i < osize o -> ref_read c o i = element o i.
Proof.
  intros Ho Hi. unfold element. destruct (Nat.ltb_spec i (osize o)); [|lia].
  destruct o as [a|n l|ar t n x|b|n w l|n w x|n b]; simpl in *; auto.
  - destruct Ho as [Hf Hx]. destruct (fixed_facts ar t n x Hf Hx) as (Hd & Hs & _).
    destruct (aliasing c); rewrite ?get_elems, ?get_noalias_elems by (auto; lia); auto.
  - destruct (Nat.ltb_spec i w); [|lia]. rewrite testbit_read by lia. auto.
  - destruct Ho as [Hn [Hw _]]. rewrite bm_get_bit by auto. auto.
Qed.

Definition obj_upd (o : obj A) (i : nat) (v : val A) (j : nat) : option (val A) :=
  if j =? i then Some v else element o j.

Lemma write_ok (o : obj A) i v u : obj_ok o -> element o i = Some u -> same_type u v = true ->
  exists o', ref_write c o i v = Some o' /\ obj_ok o' /\ osize o' = osize o /\
    forall j, element o' j = obj_upd o i v j.
Proof.
  intros Ho He Hty. unfold obj_upd, element in *.
  destruct (Nat.ltb_spec i (osize o)) as [Hi|]; [|discriminate].
  destruct o as [a|n l|ar t n x|b|n w l|n w x|n b]; simpl in *.
  - injection He as <-. destruct v as [a'|]; [|discriminate]. eexists. split; [reflexivity|].
    simpl. repeat split; auto. intros [|j]; simpl; auto.
    + destruct i; auto. lia.
    + destruct i; [auto|lia].
  - destruct (nth_error l i) eqn:E; [|discriminate]. injection He as <-.
    destruct v as [a'|]; [|discriminate]. destruct (Nat.ltb_spec i (length l)); [|lia].
    eexists. split; [reflexivity|]. simpl. rewrite upd_length. repeat split; auto.
    intros j. rewrite nth_error_upd by auto.
    destruct (Nat.eqb_spec j i) as [->|]; auto. destruct (Nat.ltb_spec i n); [auto|lia].
  - destruct (nth_error (telems x) i) eqn:E; [|discriminate]. injection He as <-.
    destruct v as [a'|]; [|discriminate]. destruct Ho as [Hf Hx].
    destruct (fixed_facts ar t n x Hf Hx) as (Hd & Hs & Hok & Hl & _).
    destruct (set_elems x i a' Hd ltac:(lia)) as (x1 & E1 & Hsh1 & He1).
    destruct (set_noalias_elems x i a' Hd ltac:(lia)) as (x2 & E2 & Hsh2 & He2).
    destruct (aliasing c); rewrite ?E1, ?E2; (eexists; split; [reflexivity|]); simpl;
      (split; [split; auto; unfold is_fixed; congruence|]); (split; [auto|]); intros j;
      rewrite ?He1, ?He2, nth_error_upd by lia;
      (destruct (Nat.eqb_spec j i) as [->|]; auto); (destruct (Nat.ltb_spec i n); [auto|lia]).
  - injection He as <-. destruct v as [|b']; [discriminate|]. eexists. split; [reflexivity|].
    simpl. repeat split; auto. intros [|j]; simpl; auto.
    + destruct i; auto. lia.
    + destruct i; [auto|lia].
  - destruct (nth_error l i) eqn:E; [|discriminate]. injection He as <-.
    destruct v as [|b']; [discriminate|]. destruct Ho as (Hn & Hw & Hl).
    assert (HM : (1 < 2 ^ Z.of_nat w)%Z) by (apply Z.pow_gt_1; lia).
    assert (Hm : (0 <= mask_lane w b' < 2 ^ Z.of_nat w)%Z) by (apply Z.mod_pos_bound; lia).
    assert (Hz : negb (mask_lane w b' =? 0)%Z = b').
    { unfold mask_lane. destruct b'; simpl.
      - change (-1)%Z with (- (1))%Z. rewrite Z.mod_opp_l_nz; rewrite ?Z.mod_small; try lia.
      - unfold b2z. simpl. auto. }
    destruct (const_eval c).
    + eexists. split; [reflexivity|]. simpl.
      rewrite app_length, map_length, seq_length, repeat_length.
      split; [|split; auto]; [split; [lia|split; auto]|].
      * apply Forall_app. split.
        -- apply Forall_forall. intros y Hy. apply in_map_iff in Hy. destruct Hy as (j & <- & Hj).
           apply in_seq in Hj. destruct (i =? j); auto.
           rewrite Forall_forall in Hl. apply Hl. apply nth_In. lia.
        -- apply Forall_forall. intros y Hy. apply repeat_spec in Hy. subst. lia.
      * intros j. destruct (Nat.ltb_spec j n).
        -- rewrite nth_error_app1 by (rewrite map_length, seq_length; auto).
           rewrite (nth_error_nth' _ 0%Z) by (rewrite map_length, seq_length; auto).
           rewrite (nth_indep _ 0%Z ((fun j => if i =? j then mask_lane w b' else nth j l 0%Z) 0))
             by (rewrite map_length, seq_length; auto).
           rewrite (map_nth (fun j => if i =? j then mask_lane w b' else nth j l 0%Z)).
           rewrite seq_nth by auto. simpl. rewrite Nat.eqb_sym.
           destruct (Nat.eqb_spec j i); [rewrite Hz; auto|].
           rewrite (nth_error_nth' l 0%Z) by lia. auto.
        -- destruct (Nat.eqb_spec j i); [lia|auto].
    + destruct (Nat.ltb_spec i (length l)); [|lia]. eexists. split; [reflexivity|]. simpl.
      rewrite upd_length. split; [|split; auto]; [split; auto; split; auto|].
      * apply Forall_forall. intros y Hy. apply In_nth_error in Hy. destruct Hy as [j Hj].
        rewrite nth_error_upd in Hj by auto. destruct (j =? i); [injection Hj as <-; auto|].
        rewrite Forall_forall in Hl. apply Hl. eapply nth_error_In; eauto.
      * intros j. rewrite nth_error_upd by auto.
        destruct (Nat.eqb_spec j i) as [->|]; auto. destruct (Nat.ltb_spec i n); [|lia].
        simpl. rewrite Hz. auto.
  - injection He as <-. destruct v as [|b']; [discriminate|]. destruct Ho as [Hn Hx].
    destruct (Nat.ltb_spec i w); [|lia]. rewrite Z.shiftl_1_l.
    set (y := if b' then Z.lor x (2 ^ Z.of_nat i) else Z.land x (Z.lnot (2 ^ Z.of_nat i))).
    assert (Hy : forall j, (0 <= j)%Z -> Z.testbit y j = if (j =? Z.of_nat i)%Z then b' else Z.testbit x j).
    { intros j Hj. unfold y. destruct b'.
      - rewrite Z.lor_spec. destruct (Z.eqb_spec j (Z.of_nat i)) as [->|].
        + rewrite Z.pow2_bits_true by lia. apply orb_true_r.
        + rewrite Z.pow2_bits_false by auto. apply orb_false_r.
      - rewrite Z.land_spec, Z.lnot_spec by auto. destruct (Z.eqb_spec j (Z.of_nat i)) as [->|].
        + rewrite Z.pow2_bits_true by lia. apply andb_false_r.
        + rewrite Z.pow2_bits_false by auto. apply andb_true_r. }
    assert (Hy0 : (0 <= y)%Z).
    { unfold y. destruct b'.
      - apply Z.lor_nonneg. split; [lia|]. apply Z.pow_nonneg. lia.
      - apply Z.land_nonneg. lia. }
    eexists. split; [reflexivity|]. simpl. split; [split; auto; split; auto|].
    + apply below_bits; try lia. intros j Hj. rewrite Hy by lia.
      destruct (Z.eqb_spec j (Z.of_nat i)); [lia|]. eapply bits_below; eauto.
    + split; auto. intros j. rewrite Hy by lia.
      destruct (Nat.eqb_spec j i) as [->|].
      * rewrite Z.eqb_refl. destruct (Nat.ltb_spec i n); [auto|lia].
      * destruct (Z.eqb_spec (Z.of_nat j) (Z.of_nat i)); [lia|auto].
  - injection He as <-. destruct v as [|b']; [discriminate|]. destruct Ho as [Hn Hc].
    pose proof Hc as [Hw _]. unfold fsm_set.
    destruct (bm_set_spec n b i b' Hn Hw Hi) as [Hw' Hb].
    eexists. split; [reflexivity|]. simpl. split; [split; auto; apply bm_set_clean; auto|].
    split; auto. intros j. destruct (Nat.ltb_spec j n).
    + rewrite Hb.
      * destruct (j =? i); auto.
      * geom n. lia.
    + destruct (Nat.eqb_spec j i); [lia|auto].
Qed.
End Obj.

Lemma loc_eqb_spec a b : reflect (a = b) (loc_eqb a b).
Proof.
  destruct a as [o i|v], b as [p j|w]; simpl; try (constructor; congruence).
  - destruct (Nat.eqb_spec o p), (Nat.eqb_spec i j); simpl; constructor; congruence.
  - destruct (Nat.eqb_spec v w); constructor; congruence.
Qed.

Section Sim.
Context {A : Type} (c : config).

Definition rel (s : vars A) (m : state A) : Prop := state_ok m /\ forall l, scalars m l = s l.

Lemma element_size (o : obj A) i v : element o i = Some v -> i < osize o.
Proof. unfold element. destruct (Nat.ltb_spec i (osize o)); [auto|discriminate]. Qed.

Lemma read_sim s m l v : rel s m -> s l = Some v -> read c m l = Some v.
Proof.
  intros [Hok Hr] Hs. rewrite <- Hr in Hs. destruct l as [o i|x]; simpl in *; auto.
  destruct (objs m o) as [x|] eqn:E; simpl in *; [|discriminate].
  rewrite read_ok; auto. - eapply Hok; eauto. - eapply element_size; eauto.
Qed.

Lemma arg_sim s m a v : rel s m -> value_of s a = Some v -> arg_value c m a = Some v.
Proof. intros Hr. destruct a; simpl; auto. apply read_sim. auto. Qed.

Lemma write_sim s m l v s' : rel s m -> assign s l v = Some s' ->
  exists m', write c m l v = Some m' /\ rel s' m'.
Proof.
  intros [Hok Hr] Ha. unfold assign in Ha. destruct (s l) as [u|] eqn:Es; [|discriminate].
  destruct (same_type u v) eqn:Ty; [|discriminate]. injection Ha as <-.
  pose proof Es as Em. rewrite <- Hr in Em. destruct l as [o i|x]; simpl in *.
  - destruct (objs m o) as [x|] eqn:E; simpl in *; [|discriminate].
    destruct (write_ok c x i v u (Hok _ _ E) Em Ty) as (x' & Ew & Hok' & Hsz & He).
    rewrite Ew. simpl. eexists. split; [reflexivity|]. split.
    + intros p y. simpl. destruct (p =? o); [intros [= <-]; auto|]. apply Hok.
    + intros k. destruct k as [p j|y].
      * cbn [scalars objs loc_eqb]. destruct (Nat.eqb_spec p o) as [->|]; simpl; [|apply (Hr (Elem p j))].
        rewrite He. unfold obj_upd. destruct (j =? i); auto.
        specialize (Hr (Elem o j)). simpl in Hr. rewrite E in Hr. auto.
      * apply (Hr (Var y)).
  - rewrite Em. simpl. rewrite Ty. eexists. split; [reflexivity|]. split; [exact Hok|].
    intros k. destruct k as [p j|y]; [apply (Hr (Elem p j))|]. simpl.
    destruct (y =? x); auto. apply (Hr (Var y)).
Qed.

Lemma bind_some {X Y} (x : option X) (f : X -> option Y) y : bind x f = Some y ->
  exists a, x = Some a /\ f a = Some y.
Proof. destruct x; simpl; [eauto|discriminate]. Qed.

Lemma exec_sim s m p s' r : rel s m -> exec s p = Some (s', r) ->
  exists m', run c m p = Some (m', r) /\ rel s' m'.
Proof.
  intros Hr He. destruct p as [cv l a|f l a|f l|f l|l q]; simpl in He |- *;
    unfold ref_assign, ref_op_assign, ref_pre, ref_post, ref_swap, ref_swap_var, ret.
  - apply bind_some in He. destruct He as (x & Ex & He).
    apply bind_some in He. destruct He as (v & Ev & He).
    apply bind_some in He. destruct He as (s1 & Ea & [= <- <-]).
    destruct (write_sim _ _ _ _ _ Hr Ea) as (m' & Ew & Hr').
    rewrite (arg_sim _ _ _ _ Hr Ex). simpl. rewrite Ev. simpl. rewrite Ew. simpl. eauto.
  - apply bind_some in He. destruct He as (x & Ex & He).
    apply bind_some in He. destruct He as (y & Ey & He).
    apply bind_some in He. destruct He as (v & Ev & He).
    apply bind_some in He. destruct He as (s1 & Ea & [= <- <-]).
    destruct (write_sim _ _ _ _ _ Hr Ea) as (m' & Ew & Hr').
    rewrite (read_sim _ _ _ _ Hr Ex). simpl. rewrite (arg_sim _ _ _ _ Hr Ey). simpl.
    rewrite Ev. simpl. rewrite Ew. simpl. eauto.
  - apply bind_some in He. destruct He as (x & Ex & He).
    apply bind_some in He. destruct He as (v & Ev & He).
    apply bind_some in He. destruct He as (s1 & Ea & [= <- <-]).
    destruct (write_sim _ _ _ _ _ Hr Ea) as (m' & Ew & Hr').
    rewrite (read_sim _ _ _ _ Hr Ex). simpl. rewrite Ev. simpl. rewrite Ew. simpl. eauto.
  - apply bind_some in He. destruct He as (x & Ex & He).
    apply bind_some in He. destruct He as (v & Ev & He).
    apply bind_some in He. destruct He as (s1 & Ea & [= <- <-]).
    destruct (write_sim _ _ _ _ _ Hr Ea) as (m' & Ew & Hr').
    rewrite (read_sim _ _ _ _ Hr Ex). simpl. rewrite Ev. simpl. rewrite Ew. simpl. eauto.
  - apply bind_some in He. destruct He as (x & Ex & He).
    apply bind_some in He. destruct He as (y & Ey & He).
    apply bind_some in He. destruct He as (s1 & Ea & He).
    apply bind_some in He. destruct He as (s2 & Eb & [= <- <-]).
    destruct (write_sim _ _ _ _ _ Hr Ea) as (m1 & Ew & Hr1).
    destruct (write_sim _ _ _ _ _ Hr1 Eb) as (m2 & Ew2 & Hr2).
    destruct (is_var q); rewrite (read_sim _ _ _ _ Hr Ex); simpl;
      rewrite (read_sim _ _ _ _ Hr Ey); simpl; rewrite Ew; simpl; rewrite Ew2; simpl; eauto.
Qed.

Lemma exec_all_sim p : forall s m s' out, rel s m -> exec_all s p = Some (s', out) ->
  exists m', run_all c m p = Some (m', out) /\ rel s' m'.
Proof.
  induction p as [|q p IH]; intros s m s' out Hr He.
  - simpl in *. injection He as <- <-. eauto.
  - simpl in He |- *. apply bind_some in He. destruct He as ([s1 r] & E1 & He).
    apply bind_some in He. destruct He as ([s2 rs] & E2 & [= <- <-]).
    destruct (exec_sim _ _ _ _ _ Hr E1) as (m1 & R1 & Hr1). simpl in E2.
    destruct (IH _ _ _ _ Hr1 E2) as (m2 & R2 & Hr2).
    rewrite R1. simpl. rewrite R2. simpl. eauto.
Qed.

Lemma c42_program (m : state A) p s' out : state_ok m -> exec_all (scalars m) p = Some (s', out) ->
  exists m', run_all c m p = Some (m', out) /\ state_ok m' /\ forall l, scalars m' l = s' l.
Proof.
  intros Hok He. destruct (exec_all_sim p (scalars m) m s' out) as (m' & R & Hr); auto.
  - split; auto.
  - exists m'. split; auto.
Qed.

(* the single operations *)
Lemma assign_some (s : vars A) l v u : s l = Some u -> same_type u v = true ->
  assign s l v = Some (fun k => if loc_eqb k l then Some v else s k).
Proof. intros E T. unfold assign. rewrite E, T. auto. Qed.

Lemma same_type_refl (u v w : val A) : same_type u v = true -> same_type v w = same_type u w.
Proof. destruct u, v; simpl; auto; discriminate. Qed.
Lemma same_type_self (u : val A) : same_type u u = true.
Proof. destruct u; auto. Qed.
Lemma same_type_sym (u v : val A) : same_type u v = same_type v u.
Proof. destruct u, v; auto. Qed.

Lemma single (m : state A) p s' r : state_ok m -> exec (scalars m) p = Some (s', r) ->
  exists m', run c m p = Some (m', r) /\ state_ok m' /\ forall l, scalars m' l = s' l.
Proof. intros Hok He. destruct (exec_sim (scalars m) m p s' r) as (m' & R & H1 & H2); [split|..]; eauto. Qed.

Lemma c42_assign (m : state A) l u v : state_ok m -> scalars m l = Some u -> same_type u v = true ->
  exists m', run c m (Assign (fun x => Some x) l (Lit v)) = Some (m', RRef l) /\ state_ok m' /\
    scalars m' l = Some v /\ forall k, k <> l -> scalars m' k = scalars m k.
Proof.
  intros Hok Hl Ht. destruct (single m (Assign (fun x => Some x) l (Lit v))
    (fun k => if loc_eqb k l then Some v else scalars m k) (RRef l) Hok) as (m' & R & H1 & H2).
  - simpl. rewrite (assign_some _ _ _ _ Hl Ht). auto.
  - exists m'. repeat split; auto.
    + rewrite H2. destruct (loc_eqb_spec l l); congruence.
    + intros k Hk. rewrite H2. destruct (loc_eqb_spec k l); congruence.
Qed.

Lemma c42_op_assign (m : state A) f l a u x v : state_ok m -> scalars m l = Some u ->
  value_of (scalars m) a = Some x -> f u x = Some v -> same_type u v = true ->
  exists m', run c m (OpAssign f l a) = Some (m', RRef l) /\ state_ok m' /\
    scalars m' l = Some v /\ forall k, k <> l -> scalars m' k = scalars m k.
Proof.
  intros Hok Hl Ha Hf Ht. destruct (single m (OpAssign f l a)
    (fun k => if loc_eqb k l then Some v else scalars m k) (RRef l) Hok) as (m' & R & H1 & H2).
  - simpl. rewrite Hl. simpl. rewrite Ha. simpl. rewrite Hf. simpl.
    rewrite (assign_some _ _ _ _ Hl Ht). auto.
  - exists m'. repeat split; auto.
    + rewrite H2. destruct (loc_eqb_spec l l); congruence.
    + intros k Hk. rewrite H2. destruct (loc_eqb_spec k l); congruence.
Qed.

Lemma c42_step (m : state A) f l u v : state_ok m -> scalars m l = Some u -> f u = Some v -> same_type u v = true ->
  exists m', run c m (PreStep f l) = Some (m', RRef l) /\ run c m (PostStep f l) = Some (m', RVal u) /\
    state_ok m' /\ scalars m' l = Some v /\ forall k, k <> l -> scalars m' k = scalars m k.
Proof.
  intros Hok Hl Hf Ht.
  assert (Hr : rel (scalars m) m) by (split; auto).
  destruct (write_sim (scalars m) m l v _ Hr (assign_some _ _ _ _ Hl Ht)) as (m' & E & H1 & H2).
  exists m'. simpl. unfold ref_pre, ref_post, ret. rewrite (read_sim _ _ _ _ Hr Hl). simpl. rewrite Hf. simpl.
  rewrite E. simpl. repeat split; auto.
  + rewrite H2. destruct (loc_eqb_spec l l); congruence.
  + intros k Hk. rewrite H2. destruct (loc_eqb_spec k l); congruence.
Qed.

Lemma c42_swap (m : state A) a b u v : state_ok m -> scalars m a = Some u -> scalars m b = Some v ->
  same_type u v = true ->
  exists m', run c m (Swap a b) = Some (m', RVoid) /\ state_ok m' /\
    scalars m' a = Some v /\ scalars m' b = Some u /\
    forall k, k <> a -> k <> b -> scalars m' k = scalars m k.
Proof.
  intros Hok Ha Hb Ht.
  set (s1 := fun k => if loc_eqb k a then Some v else scalars m k).
  destruct (single m (Swap a b) (fun k => if loc_eqb k b then Some u else s1 k) RVoid Hok)
    as (m' & R & H1 & H2).
  - simpl. rewrite Ha. simpl. rewrite Hb. simpl. rewrite (assign_some _ _ _ _ Ha Ht). simpl.
    fold s1. rewrite (assign_some s1 b u v); auto.
    + unfold s1. destruct (loc_eqb_spec b a); auto.
    + rewrite same_type_sym. auto.
  - exists m'. repeat split; auto.
    + rewrite H2. unfold s1. destruct (loc_eqb_spec a b), (loc_eqb_spec a a); try congruence.
    + rewrite H2. destruct (loc_eqb_spec b b); congruence.
    + intros k Hka Hkb. rewrite H2. unfold s1.
      destruct (loc_eqb_spec k b), (loc_eqb_spec k a); congruence.
Qed.
End Sim.
