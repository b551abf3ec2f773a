(* Masked reductions, min/max/clamp: the lemmas behind PropsReduce. *)
From Coq Require Import List Arith Bool ZArith Lia Permutation.
From Verif Require Import Prelude MaskSpec BitMask BitMaskProofs Abi AbiSpec AbiProofs Fixed FixedSpec
  FixedProofs FixedApply Targets Profile FixedStorage FixedMasks FixedTop MemProofs Reduce ReduceSpec
  ReduceProofs ReduceFixed.
Import ListNotations.

Lemma reg_type_le I t n l : arch_ok I -> reg_type I t n l -> 1 <= n <= l.
Proof.
  intros HI [[-> H]|(Hn & Hes & ->)]; [lia|].
  pose proof (fo_ge _ _ _ (vlanes_ok I t Hes (arch_neon I HI)) n). lia.
Qed.

Definition blended {A} (e : A) (k : list bool) (x : list A) : list A :=
  map2 (fun (b : bool) a => if b then a else e) k x.

Lemma blended_fold {A} (op : A -> A -> A) e : assoc_comm op -> neutral op e ->
  forall k x, length k = length x -> x <> [] ->
  fold1 op (blended e k x) = Some (match fold1 op (select k x) with Some v => v | None => e end).
Proof.
  intros Hac He.
  assert (Hee : forall o, omerge op (Some e) o = Some (match o with Some v => v | None => e end)).
  { intros [v|]; simpl; auto. destruct Hac as [_ Hc]. rewrite Hc, He. auto. }
  assert (G : forall k x, length k = length x ->
    omerge op (Some e) (fold1 op (blended e k x)) = omerge op (Some e) (fold1 op (select k x))).
  { induction k as [|b k IH]; intros [|a x] Hl; try discriminate; auto.
    cbn [blended map2 select]. fold (blended e k x). injection Hl as Hl. specialize (IH x Hl). destruct b.
    - rewrite !fold1_cons by auto. rewrite !omerge_assoc by auto. rewrite (omerge_comm op Hac (Some e)).
      rewrite <- !omerge_assoc by auto. congruence.
    - rewrite fold1_cons, omerge_assoc by auto. cbn [omerge]. rewrite He. exact IH. }
  intros k x Hl Hne. rewrite <- Hee, <- G by auto.
  destruct k as [|b k], x as [|a x]; try discriminate; [congruence|].
  unfold blended. cbn [map2 fold1]. cbn [omerge]. f_equal. destruct Hac as [_ Hc].
  rewrite Hc, He. auto.
Qed.

Lemma select_none {A} k (x : list A) : existsb (fun b => b) k = false -> select k x = [].
Proof.
  revert x. induction k as [|b k IH]; intros [|a x] H; auto; [destruct b; auto|].
  cbn [existsb] in H. apply orb_false_iff in H as [-> H]. cbn [select]. auto.
Qed.

Lemma select_in {A} k (x : list A) a : In a (select k x) -> In a x.
Proof.
  revert x. induction k as [|b k IH]; intros [|c x]; [intros []|intros []|destruct b; intros []|].
  destruct b; cbn [select]; [|right; apply IH; auto].
  intros [H|H]; [left; auto|right; apply IH; auto].
Qed.

Lemma masked_assign_firstn {A} n k e (x : list A) : n <= length x -> length k = length x ->
  firstn n (reg_masked_assign k (reg_broadcast (length x) e) x) = blended e (firstn n k) (firstn n x).
Proof.
  intros Hn Hk. unfold reg_masked_assign, reg_broadcast, blended. apply list_ext.
  { rewrite firstn_length, map3_length, map2_length, !firstn_length, repeat_length. lia. }
  intros i d Hi. rewrite firstn_length, map3_length, repeat_length in Hi.
  rewrite nth_firstn_lt by lia.
  rewrite (map3_nth _ _ _ _ i false d e) by (rewrite ?repeat_length; lia).
  rewrite (map2_nth _ _ _ i false d) by (rewrite firstn_length; lia).
  rewrite !nth_firstn_lt by lia. rewrite nth_repeat. auto.
Qed.
Lemma masked_assign_length {A} k e (x : list A) : length k = length x ->
  length (reg_masked_assign k (reg_broadcast (length x) e) x) = length x.
Proof. intros Hk. unfold reg_masked_assign, reg_broadcast. rewrite map3_length, repeat_length. lia. Qed.

Lemma c14_reg {A} I t op F o zero n none k (x : list A) e :
  arch_ok I -> reg_type I t n (length x) -> assoc_comm op -> lanewise2 op F -> op_ok op o -> neutral op e ->
  length k = length x -> none k = negb (any_true (firstn n k)) ->
  where_reduce none (reg_broadcast (length x)) reg_masked_assign (simd_reduce I t zero F o n) k x e
  = Some (match fold1 op (select (firstn n k) (firstn n x)) with Some v => v | None => e end).
Proof.
  intros HI Hr Hac HF Ho He Hk Hnone. unfold where_reduce. rewrite Hnone.
  pose proof (reg_type_le I t n _ HI Hr) as Hle.
  destruct (any_true (firstn n k)) eqn:Ea; cbn [negb].
  - rewrite (simd_reduce_spec I t op); auto.
    + rewrite masked_assign_firstn by (auto; lia). apply blended_fold; auto.
      * rewrite !firstn_length. lia.
      * intros E. apply (f_equal (@length A)) in E. rewrite firstn_length in E. simpl in E. lia.
    + rewrite masked_assign_length by auto. exact Hr.
  - rewrite select_none; auto.
Qed.

(* fixed_size *)
Lemma fixed_blend {A} I t n op k (x : tuple A) s e : fixed_size_type I t n -> lanewise_masked2 (fun _ b => b) op ->
  is_fixed I t n x -> storage_shape I t n = Some s -> bm_clean n k ->
  is_fixed I t n (fs_masked_binary op k (fs_broadcast s e) x) /\
  telems (fs_masked_binary op k (fs_broadcast s e) x) = blended e (bm_list n k) (telems x).
Proof.
  intros Hf Hop Hx Hs Hk. destruct (c05_broadcast I t n e s Hf Hs) as [Hb Hbg].
  destruct (c08_binary I t n _ op k (fs_broadcast s e) x Hf Hop Hb Hx Hk) as [H1 H2].
  split; auto.
  destruct (fixed_facts I t n _ Hf H1) as (_ & _ & _ & Hl & _).
  destruct (fixed_facts I t n _ Hf Hx) as (_ & _ & _ & Hlx & _).
  apply list_ext.
  { unfold blended. rewrite map2_length, bm_list_length. lia. }
  intros i d Hi. rewrite Hl in Hi.
  pose proof (fixed_get_nth I t n _ i d Hf H1 Hi) as E.
  pose proof (fixed_get_nth I t n _ i d Hf Hx Hi) as Ex.
  rewrite (H2 i _ _ Hi (Hbg i Hi) Ex) in E. injection E as <-.
  unfold blended. rewrite (map2_nth _ _ _ i false d) by (rewrite ?bm_list_length; lia).
  rewrite bm_list_nth by auto. auto.
Qed.

Lemma c14_fixed {A} I t n op F o zero asg none k (x : tuple A) s e :
  fixed_size_type I t n -> is_fixed I t n x -> storage_shape I t n = Some s ->
  assoc_comm op -> lanewise2 op F -> op_ok op o -> neutral op e ->
  lanewise_masked2 (fun _ b => b) asg -> bm_clean n k -> none k = negb (any_true (bm_list n k)) ->
  where_reduce none (fs_broadcast s) (fs_masked_binary asg) (fs_reduce I t zero F o (length s)) k x e
  = Some (match fold1 op (select (bm_list n k) (telems x)) with Some v => v | None => e end).
Proof.
  intros Hf Hx Hs Hac HF Ho He Hasg Hk Hnone. unfold where_reduce. rewrite Hnone.
  destruct (fixed_facts I t n _ Hf Hx) as (_ & _ & _ & Hlx & Hne).
  destruct Hf as (HI & Ht & Hn).
  destruct (any_true (bm_list n k)) eqn:Ea; cbn [negb].
  - destruct (fixed_blend I t n asg k x s e) as [H1 H2]; [split; auto|auto|auto|auto|auto|].
    rewrite (fs_reduce_spec I t op F o zero HI Ht Hac HF Ho (length s) n); auto.
    + rewrite H2. apply blended_fold; auto.
      * rewrite bm_list_length. lia.
      * intros E. rewrite E in Hlx. simpl in Hlx. lia.
    + unfold is_fixed in H1. rewrite Hs in H1. injection H1 as E. apply (f_equal (@length _)) in E.
      unfold tshape in E. rewrite map_length in E. rewrite E. apply le_n.
  - rewrite select_none; auto.
Qed.

(* ---------------- min and max ----------------------------------------- *)
Section Order.
  Context {A : Type} (lt : A -> A -> bool) (Hlt : strict_total lt).
  Definition mn (a b : A) : A := if lt a b then a else b.
  Let irr := proj1 Hlt.
  Let trans := proj1 (proj2 Hlt).
  Let tot := proj2 (proj2 Hlt).

  Lemma asym a b : lt a b = true -> lt b a = false.
  Proof. intros H. destruct (lt b a) eqn:E; auto. rewrite <- (irr a). symmetry. eauto. Qed.
  (* a <= b <= c *)
  Lemma le_trans a b c : lt b a = false -> lt c b = false -> lt c a = false.
  Proof.
    intros H1 H2. destruct (lt c a) eqn:E; auto. exfalso.
    destruct (lt a b) eqn:E1; [rewrite (trans c a b E E1) in H2; discriminate|].
    rewrite (tot a b E1 H1) in E. congruence.
  Qed.
  Lemma mn_comm a b : mn a b = mn b a.
  Proof.
    unfold mn. destruct (lt a b) eqn:E1; [rewrite (asym a b E1); reflexivity|].
    destruct (lt b a) eqn:E2; [reflexivity|]. symmetry. exact (tot a b E1 E2).
  Qed.
  Lemma mn_l a b : lt a (mn a b) = false.
  Proof. unfold mn. destruct (lt a b) eqn:E; auto. Qed.
  Lemma mn_r a b : lt b (mn a b) = false.
  Proof. rewrite mn_comm. apply mn_l. Qed.
  Lemma mn_in a b : mn a b = a \/ mn a b = b.
  Proof. unfold mn. destruct (lt a b); auto. Qed.
  Lemma mn_glb a b c : lt a c = false -> lt b c = false -> lt (mn a b) c = false.
  Proof. destruct (mn_in a b) as [-> | ->]; auto. Qed.
  Lemma mn_ac : assoc_comm mn.
  Proof.
    split; [|apply mn_comm]. intros a b c. apply tot.
    - apply mn_glb; [|apply mn_glb].
      + exact (le_trans _ _ _ (mn_l _ c) (mn_l a b)).
      + exact (le_trans _ _ _ (mn_l _ c) (mn_r a b)).
      + apply mn_r.
    - apply mn_glb; [apply mn_glb|].
      + apply mn_l.
      + exact (le_trans _ _ _ (mn_r a _) (mn_l b c)).
      + exact (le_trans _ _ _ (mn_r a _) (mn_r b c)).
  Qed.
  Lemma fold1_least l m : fold1 mn l = Some m -> is_least lt l m.
  Proof.
    revert m. induction l as [|a l IH]; intros m H; [discriminate|].
    rewrite (fold1_cons mn mn_ac) in H. destruct (fold1 mn l) as [m'|] eqn:E.
    - cbn [omerge] in H. injection H as <-. destruct (IH m' eq_refl) as [Hin Hle]. split.
      + destruct (mn_in a m') as [-> | ->]; simpl; auto.
      + intros b [<-|Hb]; [apply mn_l|]. apply (le_trans _ m'); auto. rewrite mn_comm. apply mn_l.
    - cbn [omerge] in H. injection H as <-. destruct l; [|discriminate].
      split; [simpl; auto|]. intros b [<-|[]]. auto.
  Qed.
  Lemma least_unique l m m' : is_least lt l m -> is_least lt l m' -> m = m'.
  Proof. intros [H1 H2] [H3 H4]. apply tot; auto. Qed.

  Lemma impl_min_lanewise : lanewise2 mn (impl_min lt).
  Proof.
    intros n a b Hn Hl. assert (G : length (reg_min lt a b) = length a /\
      forall i d, i < n -> nth i (reg_min lt a b) d = mn (nth i a d) (nth i b d)).
    { unfold reg_min. rewrite map2_length. split; [lia|]. intros i d Hi.
      rewrite (map2_nth _ _ _ i d d) by lia. auto. }
    unfold impl_min. destruct a as [|x [|x' a]]; auto. destruct b as [|y [|y' b]]; auto.
    split; auto. intros i d Hi. assert (i = 0) as -> by (simpl in Hn; lia). cbn [nth].
    rewrite mn_comm. unfold scalar_min, mn. auto.
  Qed.

  (* min over the blended vector *)
  Lemma in_blended e k : forall (x : list A) a, length k = length x -> In a (blended e k x) ->
    In a (select k x) \/ a = e /\ existsb negb k = true.
  Proof.
    induction k as [|b k IH]; intros [|a0 x] a Hl H; try discriminate; [destruct H|].
    unfold blended in H. cbn [map2] in H. fold (blended e k x) in H.
    destruct b; cbn [select existsb negb orb].
    - destruct H as [<-|H]; [left; simpl; auto|]. destruct (IH x a) as [G|G]; auto. left. simpl. auto.
    - destruct H as [<-|H]; [right; auto|]. destruct (IH x a) as [G|[-> G]]; auto.
  Qed.
  Lemma select_blended e k : forall (x : list A) a, length k = length x -> In a (select k x) -> In a (blended e k x).
  Proof.
    induction k as [|b k IH]; intros [|a0 x] a Hl H; try discriminate; [destruct H|].
    unfold blended. cbn [map2]. fold (blended e k x). destruct b; cbn [select] in H.
    - destruct H as [<-|H]; [left; auto|right; auto].
    - right; auto.
  Qed.

  Lemma hmin_lemma e k (x : list A) m : length k = length x -> fold1 mn (blended e k x) = Some m ->
    (select k x = [] -> x <> [] -> m = e) /\
    ((exists a, In a (select k x) /\ lt e a = false) \/ (forallb (fun b => b) k = true) ->
     is_least lt (select k x) m).
  Proof.
    intros Hl Hm. apply fold1_least in Hm as [Hin Hle]. split.
    - intros Hs _. destruct (in_blended e k x m Hl Hin) as [H|[H _]]; auto. rewrite Hs in H. destruct H.
    - intros Hcase. split; [|intros a Ha; apply Hle, select_blended; auto].
      destruct (in_blended e k x m Hl Hin) as [H|[-> H]]; auto.
      destruct Hcase as [(a & Ha & Hea)|Hall].
      + replace e with a; auto. apply tot; auto.  apply Hle, select_blended; auto.
      + exfalso. apply existsb_exists in H as (b & Hb & E). rewrite forallb_forall in Hall.
        rewrite (Hall b Hb) in E. discriminate.
  Qed.
End Order.

(* max is min of the reversed order *)
Definition gt {A} (lt : A -> A -> bool) (a b : A) : bool := lt b a.
Lemma gt_total {A} (lt : A -> A -> bool) : strict_total lt -> strict_total (gt lt).
Proof.
  intros (H1 & H2 & H3). unfold gt. split; [|split]; auto.
  - intros a b c Ha Hb. eauto.
Qed.
Lemma impl_max_lanewise {A} (lt : A -> A -> bool) : strict_total lt -> lanewise2 (mn (gt lt)) (impl_max lt).
Proof.
  intros Hlt n a b Hn Hl. assert (G : length (reg_max lt a b) = length a /\
    forall i d, i < n -> nth i (reg_max lt a b) d = mn (gt lt) (nth i a d) (nth i b d)).
  { unfold reg_max. rewrite map2_length. split; [lia|]. intros i d Hi.
    rewrite (map2_nth _ _ _ i d d) by lia. auto. }
  unfold impl_max. destruct a as [|x [|x' a]]; auto. destruct b as [|y [|y' b]]; auto.
  split; auto. intros i d Hi. assert (i = 0) as -> by (simpl in Hn; lia). cbn [nth].
  rewrite (mn_comm (gt lt) (gt_total lt Hlt)). unfold scalar_max, mn, gt. auto.
Qed.

(* r is the least selected element, e if none is selected; also when one
   selected element is at most e *)
Definition selected_least {A} (lt : A -> A -> bool) (k : list bool) (x : list A) (e : A) (r : option A) : Prop :=
  exists m, r = Some m /\ (select k x = [] -> m = e) /\
    ((exists a, In a (select k x) /\ lt e a = false) \/ forallb (fun b => b) k = true ->
     is_least lt (select k x) m).

Lemma hmin_reg {A} (lt : A -> A -> bool) I t F zero n k (x : list A) e : strict_total lt -> lanewise2 (mn lt) F ->
  arch_ok I -> reg_type I t n (length x) -> length k = length x ->
  selected_least lt (firstn n k) (firstn n x) e
    (where_hminmax (reg_broadcast (length x)) reg_masked_assign (simd_reduce I t zero F ROther n) k x e).
Proof.
  intros Hlt HF HI Hr Hk. pose proof (reg_type_le I t n _ HI Hr) as Hle. unfold where_hminmax.
  rewrite (simd_reduce_spec I t (mn lt)); auto.
  - rewrite masked_assign_firstn by (auto; lia).
    assert (Hl : length (firstn n k) = length (firstn n x)) by (rewrite !firstn_length; lia).
    assert (Hne : firstn n x <> []).
    { intros E. apply (f_equal (@length A)) in E. rewrite firstn_length in E. simpl in E. lia. }
    destruct (fold1 (mn lt) (blended e (firstn n k) (firstn n x))) as [m|] eqn:E.
    + destruct (hmin_lemma lt Hlt e _ _ m Hl E) as [G1 G2]. exists m. auto.
    + exfalso. destruct (firstn n k), (firstn n x); try discriminate; congruence.
  - apply mn_ac; auto.
  - exact Logic.I.
  - rewrite masked_assign_length by auto. exact Hr.
Qed.

Lemma hmin_fixed {A} (lt : A -> A -> bool) I t F zero n asg k (x : tuple A) s e : strict_total lt -> lanewise2 (mn lt) F ->
  fixed_size_type I t n -> is_fixed I t n x -> storage_shape I t n = Some s ->
  lanewise_masked2 (fun _ b => b) asg -> bm_clean n k ->
  selected_least lt (bm_list n k) (telems x) e
    (where_hminmax (fs_broadcast s) (fs_masked_binary asg) (fs_reduce I t zero F ROther (length s)) k x e).
Proof.
  intros Hlt HF Hf Hx Hs Hasg Hk. unfold where_hminmax.
  destruct (fixed_facts I t n _ Hf Hx) as (_ & _ & _ & Hlx & Hne).
  destruct (fixed_blend I t n asg k x s e Hf Hasg Hx Hs Hk) as [H1 H2].
  destruct Hf as (HI & Ht & Hn).
  rewrite (fs_reduce_spec I t (mn lt) F ROther zero HI Ht (mn_ac lt Hlt) HF Logic.I (length s) n); auto.
  - rewrite H2. assert (Hl : length (bm_list n k) = length (telems x)) by (rewrite bm_list_length; lia).
    destruct (fold1 (mn lt) (blended e (bm_list n k) (telems x))) as [m|] eqn:E.
    + destruct (hmin_lemma lt Hlt e _ _ m Hl E) as [G1 G2]. exists m. split; auto. split; auto.
      intros Es. apply G1; auto. intros E0. rewrite E0 in Hlx. simpl in Hlx. lia.
    + exfalso. destruct (bm_list n k), (telems x); simpl in *; try discriminate; lia.
  - unfold is_fixed in H1. rewrite Hs in H1. injection H1 as E. apply (f_equal (@length _)) in E.
      unfold tshape in E. rewrite map_length in E. rewrite E. apply le_n.
Qed.

Lemma flt_total : strict_total flt.
Proof.
  split; [|split].
  - intros []; simpl; auto. apply Z.ltb_irrefl.
  - intros [| |] [| |] [| |]; simpl; try discriminate; auto. rewrite !Z.ltb_lt. lia.
  - intros [| |] [| |]; simpl; try discriminate; auto. rewrite !Z.ltb_ge. intros. f_equal. lia.
Qed.
Lemma zlt_total : strict_total Z.ltb.
Proof.
  split; [|split]; intros *; rewrite ?Z.ltb_irrefl, ?Z.ltb_lt, ?Z.ltb_ge; auto; lia.
Qed.

(* ---------------- element-wise min/max/clamp -------------------------- *)
Section Clamp.
  Context {A : Type} (lt : A -> A -> bool) (Hlt : strict_total lt).
  Lemma mn_std a b : mn lt a b = std_min lt a b.
  Proof. rewrite mn_comm by auto. reflexivity. Qed.
  Lemma mx_std a b : mn (gt lt) a b = std_max lt a b.
  Proof. rewrite mn_comm by (apply gt_total; auto). reflexivity. Qed.
  Lemma minmax_std a b : (if lt a b then a else b, if lt a b then b else a) = std_minmax lt a b.
  Proof.
    unfold std_minmax. pose proof (mn_std a b) as H. unfold mn, std_min in H. rewrite H.
    destruct (lt b a) eqn:E; [rewrite (asym lt Hlt b a E); auto|].
    destruct (lt a b) eqn:E2; auto. f_equal. destruct Hlt as (_ & _ & Ht). symmetry. auto.
  Qed.
  Lemma clamp_std v lo hi : lt hi lo = false -> mn lt hi (mn (gt lt) lo v) = std_clamp lt v lo hi.
  Proof.
    intros H. rewrite mn_std, mx_std. unfold std_min, std_max, std_clamp.
    destruct Hlt as (H1 & H2 & H3).
    destruct (lt lo v) eqn:E1.
    - rewrite (asym lt Hlt lo v E1). destruct (lt hi v) eqn:E2.
      + rewrite (asym lt Hlt hi v E2). auto.
      + destruct (lt v hi) eqn:E3; auto.
    - destruct (lt v lo) eqn:E2.
      + destruct (lt lo hi) eqn:E3; auto.
      + assert (v = lo) by auto. subst v. rewrite H. destruct (lt lo hi) eqn:E3; auto.
  Qed.
End Clamp.

Lemma chunk_min_lanewise {A} (lt : A -> A -> bool) : strict_total lt ->
  lanewise (fun a bs => match bs with b :: _ => std_min lt a b | [] => a end)
    (fun n x ys => match ys with y :: _ => impl_min lt n x y | [] => x end).
Proof.
  intros Hlt n reg regs Hn Hr. destruct regs as [|y regs]; [split; auto|].
  apply Forall_inv in Hr. destruct (impl_min_lanewise lt Hlt n reg y Hn Hr) as [H1 H2].
  split; auto. intros i d Hi. rewrite H2 by auto. apply mn_std; auto.
Qed.
Lemma chunk_max_lanewise {A} (lt : A -> A -> bool) : strict_total lt ->
  lanewise (fun a bs => match bs with b :: _ => std_max lt a b | [] => a end)
    (fun n x ys => match ys with y :: _ => impl_max lt n x y | [] => x end).
Proof.
  intros Hlt n reg regs Hn Hr. destruct regs as [|y regs]; [split; auto|].
  apply Forall_inv in Hr. destruct (impl_max_lanewise lt Hlt n reg y Hn Hr) as [H1 H2].
  split; auto. intros i d Hi. rewrite H2 by auto. apply mx_std; auto.
Qed.
Lemma c38_fixed_min {A} I t n lt (x y : tuple A) : fixed_size_type I t n -> strict_total lt ->
  is_fixed I t n x -> is_fixed I t n y ->
  is_fixed I t n (fs_min lt x y) /\
  forall i a b, i < n -> t_get x i = Some a -> t_get y i = Some b -> t_get (fs_min lt x y) i = Some (std_min lt a b).
Proof.
  intros Hf Hlt Hx Hy. destruct (c06_same I t n _ _ x [y] Hf (chunk_min_lanewise lt Hlt) Hx) as [H1 H2]; auto.
  split; auto. intros i a b Hi Ha Hb. apply (H2 i a [b] Hi Ha). unfold elements_at. simpl. rewrite Hb. auto.
Qed.
Lemma c38_fixed_max {A} I t n lt (x y : tuple A) : fixed_size_type I t n -> strict_total lt ->
  is_fixed I t n x -> is_fixed I t n y ->
  is_fixed I t n (fs_max lt x y) /\
  forall i a b, i < n -> t_get x i = Some a -> t_get y i = Some b -> t_get (fs_max lt x y) i = Some (std_max lt a b).
Proof.
  intros Hf Hlt Hx Hy. destruct (c06_same I t n _ _ x [y] Hf (chunk_max_lanewise lt Hlt) Hx) as [H1 H2]; auto.
  split; auto. intros i a b Hi Ha Hb. apply (H2 i a [b] Hi Ha). unfold elements_at. simpl. rewrite Hb. auto.
Qed.
Lemma c38_fixed_clamp {A} I t n lt (v lo hi : tuple A) : fixed_size_type I t n -> strict_total lt ->
  is_fixed I t n v -> is_fixed I t n lo -> is_fixed I t n hi ->
  is_fixed I t n (fs_clamp lt v lo hi) /\
  forall i a l h, i < n -> t_get v i = Some a -> t_get lo i = Some l -> t_get hi i = Some h -> lt h l = false ->
    t_get (fs_clamp lt v lo hi) i = Some (std_clamp lt a l h).
Proof.
  intros Hf Hlt Hv Hl Hh. destruct (c38_fixed_max I t n lt lo v Hf Hlt Hl Hv) as [H1 H2].
  destruct (c38_fixed_min I t n lt hi _ Hf Hlt Hh H1) as [H3 H4].
  split; auto. intros i a l h Hi Ha Hlo Hhi Hle. unfold fs_clamp.
  rewrite (H4 i h _ Hi Hhi (H2 i l a Hi Hlo Ha)). rewrite <- mn_std, <- mx_std, clamp_std; auto.
Qed.
Lemma c38_reg {A} (lt : A -> A -> bool) n (a b c : list A) : strict_total lt -> n <= length a ->
  length b = length a -> length c = length a ->
  forall i d, i < n ->
    nth i (impl_min lt n a b) d = std_min lt (nth i a d) (nth i b d) /\
    nth i (impl_max lt n a b) d = std_max lt (nth i a d) (nth i b d) /\
    (lt (nth i c d) (nth i b d) = false ->
     nth i (impl_clamp lt n a b c) d = std_clamp lt (nth i a d) (nth i b d) (nth i c d)).
Proof.
  intros Hlt Hn Hb Hc i d Hi.
  destruct (impl_min_lanewise lt Hlt n a b Hn Hb) as [_ H1].
  destruct (impl_max_lanewise lt Hlt n a b Hn Hb) as [_ H2].
  split; [rewrite H1 by auto; apply mn_std; auto|].
  split; [rewrite H2 by auto; apply mx_std; auto|].
  intros Hle. destruct (impl_max_lanewise lt Hlt n b a) as [H3 H4]; [lia|lia|].
  destruct (impl_min_lanewise lt Hlt n c (impl_max lt n b a)) as [_ H5]; [lia|lia|].
  unfold impl_clamp. rewrite H5, H4 by auto. apply clamp_std; auto.
Qed.
Lemma c38_minmax {A} (lt : A -> A -> bool) n (a b : list A) : strict_total lt -> n <= length a ->
  length b = length a -> forall i d, i < n ->
  (nth i (fst (reg_minmax lt a b)) d, nth i (snd (reg_minmax lt a b)) d) = std_minmax lt (nth i a d) (nth i b d).
Proof.
  intros Hlt Hn Hb i d Hi. unfold reg_minmax. cbn [fst snd].
  rewrite !(map2_nth _ _ _ i d d) by lia. apply minmax_std; auto.
Qed.
Lemma std_clamp_between {A} (lt : A -> A -> bool) v lo hi : strict_total lt -> lt hi lo = false ->
  lt (std_clamp lt v lo hi) lo = false /\ lt hi (std_clamp lt v lo hi) = false /\
  (lt v lo = false -> lt hi v = false -> std_clamp lt v lo hi = v).
Proof.
  intros Hlt H. unfold std_clamp. destruct Hlt as (H1 & _ & _).
  destruct (lt v lo) eqn:E1, (lt hi v) eqn:E2; repeat split; auto; discriminate.
Qed.

Lemma int_least k x r lo hi : Forall (fun v => lo <= v <= hi)%Z x -> selected_least Z.ltb k x hi r ->
  exists m, r = Some m /\ (select k x <> [] -> is_least Z.ltb (select k x) m) /\ (select k x = [] -> m = hi).
Proof.
  intros Hx (m & -> & H1 & H2). exists m. split; auto. split; auto. intros Hs. apply H2. left.
  destruct (select k x) as [|a l] eqn:E; [congruence|]. exists a. split; [left; auto|].
  assert (Ha : In a x) by (apply (select_in k); rewrite E; left; auto).
  rewrite Forall_forall in Hx. specialize (Hx a Ha). simpl in Hx. apply Z.ltb_ge. lia.
Qed.
Lemma int_greatest k x r lo hi : Forall (fun v => lo <= v <= hi)%Z x -> selected_least (gt Z.ltb) k x lo r ->
  exists m, r = Some m /\ (select k x <> [] -> is_greatest Z.ltb (select k x) m) /\ (select k x = [] -> m = lo).
Proof.
  intros Hx (m & -> & H1 & H2). exists m. split; auto. split; auto. intros Hs. apply H2. left.
  destruct (select k x) as [|a l] eqn:E; [congruence|]. exists a. split; [left; auto|].
  assert (Ha : In a x) by (apply (select_in k); rewrite E; left; auto).
  rewrite Forall_forall in Hx. specialize (Hx a Ha). simpl in Hx. apply Z.ltb_ge. lia.
Qed.
Lemma float_least k x M r : (forall z, In (Fin z) x -> - M <= z <= M)%Z ->
  (exists a, In a (select k x) /\ a <> PInf) \/ (forall b, In b k -> b = true) ->
  selected_least flt k x (Fin M) r -> exists m, r = Some m /\ is_least flt (select k x) m.
Proof.
  intros Hx Hc (m & -> & _ & H2). exists m. split; auto. apply H2. destruct Hc as [(a & Ha & Hn)|Hc]; [left|right].
  - exists a. split; auto. destruct a as [|z|]; auto; [|congruence].
    apply select_in in Ha. apply Hx in Ha. simpl. apply Z.ltb_ge. lia.
  - apply forallb_forall. auto.
Qed.
Lemma float_greatest k x M r : (forall z, In (Fin z) x -> - M <= z <= M)%Z ->
  (exists a, In a (select k x) /\ a <> NInf) \/ (forall b, In b k -> b = true) ->
  selected_least (gt flt) k x (Fin (- M)) r -> exists m, r = Some m /\ is_greatest flt (select k x) m.
Proof.
  intros Hx Hc (m & -> & _ & H2). exists m. split; auto. apply H2. destruct Hc as [(a & Ha & Hn)|Hc]; [left|right].
  - exists a. split; auto. destruct a as [|z|]; auto; [congruence|].
    apply select_in in Ha. apply Hx in Ha. unfold gt. simpl. apply Z.ltb_ge. lia.
  - apply forallb_forall. auto.
Qed.
