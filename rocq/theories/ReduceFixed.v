(* Reductions of fixed_size simds. *)
From Coq Require Import List Arith Bool ZArith Lia Permutation.
From Verif Require Import Prelude BitMask BitMaskProofs Abi AbiSpec AbiProofs Fixed FixedSpec
  FixedProofs FixedApply Targets Profile FixedStorage FixedTop MemProofs Reduce ReduceSpec ReduceProofs.
Import ListNotations.

Fixpoint evens {X} (l : list X) : list X :=
  match l with a :: _ :: r => a :: evens r | _ => l end.

(* the pairwise step keeps the left registers' types; the result is the storage
   of a smaller fixed_size *)
Definition abi_eqb (a b : abi) : bool :=
  match a, b with
  | AScalar, AScalar => true
  | AFixed n, AFixed m => n =? m
  | AVecBuiltin n, AVecBuiltin m => n =? m
  | AVecBltnBtmsk n, AVecBltnBtmsk m => n =? m
  | _, _ => false
  end.
Fixpoint abis_eqb (a b : list abi) : bool :=
  match a, b with
  | [], [] => true
  | x :: a, y :: b => if abi_eqb x y then abis_eqb a b else false
  | _, _ => false
  end.
Lemma abis_eqb_spec a : forall b, abis_eqb a b = true -> a = b.
Proof.
  induction a as [|x a IH]; intros [|y b] H; cbn [abis_eqb] in H; try discriminate; auto.
  destruct (abi_eqb x y) eqn:E; [|discriminate]. f_equal; [|auto].
  destruct x, y; cbn [abi_eqb] in E; try discriminate; auto; apply Nat.eqb_eq in E; congruence.
Qed.
Fixpoint decreasing (l : list nat) : bool :=
  match l with
  | a :: (b :: _) as r => if b <=? a then decreasing r else false
  | _ => true
  end.
Definition reduce_check (I : isa) (t : elem) (n : nat) (l : list abi) : bool :=
  if decreasing (map (abi_size t) l) then
    if length l <=? 2 then true else
    match fixed_size_storage I t (list_sum (map (abi_size t) (evens l))) with
    | Some m => abis_eqb m (evens l)
    | None => false
    end
  else false.
Lemma reduce_check_ok : forallb (storages_check reduce_check) reps = true.
Proof. vm_cast_no_check (eq_refl true). Qed.

Lemma decreasing_scalars n : decreasing (repeat 1 n) = true.
Proof. induction n as [|n IH]; cbn [repeat decreasing]; auto. destruct n; auto. Qed.
Lemma evens_map {X Y} (f : X -> Y) l : evens (map f l) = map f (evens l).
Proof.
  revert l. fix IH 1. intros [|a [|b l]]; [reflexivity|reflexivity|]. cbn [map evens]. f_equal. apply IH.
Qed.
Lemma evens_repeat {X} (a : X) n : exists m, evens (repeat a n) = repeat a m /\ m <= n /\ (1 <= n -> 1 <= m).
Proof.
  revert n. fix IH 1. intros [|[|n]].
  - exists 0. auto.
  - exists 1. auto.
  - destruct (IH n) as (m & E & H & _). exists (S m). cbn [repeat evens]. rewrite E. repeat split; auto; lia.
Qed.

Lemma reduce_storage I t n s : arch_ok I -> elem_ok t -> 1 <= n <= max_fixed_size I t ->
  storage_shape I t n = Some s ->
  decreasing (map fst s) = true /\
  (2 < length s -> storage_shape I t (ssize (evens s)) = Some (evens s)).
Proof.
  intros HI Ht Hn Es. pose proof (AbiProofs.elem_ok_pos t Ht) as Hp.
  destruct (scalar_only I t) eqn:Eso.
  { rewrite scalar_shape in Es by (auto; lia). injection Es as <-. split.
    - replace (map fst (repeat (1, 1) n)) with (repeat 1 n); [apply decreasing_scalars|].
      clear. induction n; cbn [repeat map fst]; auto. f_equal. auto.
    - intros _. destruct (evens_repeat (1, 1) n) as (m & E & Hm & Hm1). rewrite E, scalars_ssize.
      apply scalar_shape; auto. lia. }
  destruct (check_storages reduce_check reduce_check_ok I t n HI Ht Eso Hn) as (J & u & l & Hprof & El & H).
  unfold storage_shape in Es. rewrite (p_storage I J t u Hprof), El in Es. cbn [option_map] in Es. injection Es as <-.
  unfold reduce_check in H.
  assert (Hsz : map fst (map (abi_shape I t) l) = map (abi_size u) l).
  { rewrite map_map. apply map_ext. intros a. cbn [abi_shape fst].
    unfold abi_size. rewrite (p_size I J t u Hprof). auto. }
  rewrite Hsz. destruct (decreasing (map (abi_size u) l)); [|discriminate]. split; auto.
  rewrite map_length. intros Hl. destruct (length l <=? 2) eqn:E2; [apply Nat.leb_le in E2; lia|].
  assert (Hss : ssize (evens (map (abi_shape I t) l)) = list_sum (map (abi_size u) (evens l))).
  { unfold ssize. rewrite <- evens_map, Hsz, evens_map. auto. }
  unfold storage_shape. rewrite Hss, (p_storage I J t u Hprof).
  destruct (fixed_size_storage J u (list_sum (map (abi_size u) (evens l)))) as [m|]; [|discriminate].
  apply abis_eqb_spec in H. subst m. cbn [option_map]. rewrite evens_map. auto.
Qed.

Lemma wide_no_register I t a : abi_valid I t a = true -> is_register a -> abi_size t a <> 1 -> esize t <= 8.
Proof.
  intros Hv Hr Hs. destruct a as [| |b|b]; cbn [abi_size abi_valid is_register] in *; try lia; try tauto.
  - unfold vectorized_sizeof in Hv. destruct (Nat.leb_spec (esize t) 8); auto. exfalso.
    btrue. assert (b / esize t <= 1); [|btrue; lia].
    etransitivity; [apply Nat.div_le_mono; [lia|eassumption]|]. rewrite Nat.div_same; lia.
  - unfold vectorized_sizeof in Hv. destruct (Nat.leb_spec (esize t) 8); auto. exfalso. btrue. lia.
Qed.

Lemma storage_lanes I t n s : elem_ok t -> 1 <= n -> storage_shape I t n = Some s ->
  Forall (fun p => fst p = 1 /\ snd p = 1 \/
     2 <= fst p /\ (esize t = 1 \/ esize t = 2 \/ esize t = 4 \/ esize t = 8) /\ snd p = vlanes I t (fst p)) s.
Proof.
  intros Ht Hn E. pose proof (AbiProofs.elem_ok_pos t Ht) as Hp.
  destruct (storage_total I t Hp n n Hn (Nat.le_refl n)) as (l & El & Hl & _).
  unfold storage_shape, fixed_size_storage in E. rewrite El in E. cbn [option_map] in E. injection E as <-.
  apply Forall_forall. intros p Hin. apply in_map_iff in Hin as (a & <- & Ha).
  rewrite Forall_forall in Hl. destruct (Hl a Ha) as [Hv Hr]. cbn [abi_shape fst snd].
  destruct a as [| |b|b]; [left; auto|destruct Hr|right|right].
  - assert (H2 : 2 <= abi_size t (AVecBuiltin b)) by (cbn [abi_valid abi_size] in *; btrue; lia).
    split; auto. split; [apply esize_cases; auto; eapply wide_no_register; eauto; lia|].
    cbn [abi_full_size]. rewrite Hv. auto.
  - assert (H2 : 2 <= abi_size t (AVecBltnBtmsk b)) by (cbn [abi_valid abi_size] in *; btrue; lia).
    split; auto. split; [apply esize_cases; auto; eapply wide_no_register; eauto; lia|].
    cbn [abi_full_size]. rewrite Hv. auto.
Qed.

Section Pairs.
  Context {A : Type} (op : A -> A -> A) (Hac : assoc_comm op).
  Context (F : nat -> list A -> list A -> list A) (HF : lanewise2 op F).

  Lemma reduce_pair_shape l r : csize l <= length (creg l) ->
    (csize l = csize r -> length (creg r) = length (creg l)) ->
    cshape (reduce_pair F l r) = cshape l.
  Proof.
    intros Hl Hr. unfold reduce_pair, cshape. destruct (Nat.eqb_spec (csize l) (csize r)) as [E|E]; cbn [csize creg].
    - f_equal. apply HF; auto.
    - f_equal. set (k := map _ _).
      assert (Hk : length k = length (creg l)) by (unfold k; rewrite map_length, seq_length; auto).
      set (ext := map3 _ k (firstn _ _) _).
      assert (He : length ext = length (creg l)).
      { unfold ext. rewrite map3_length, firstn_length, app_length. lia. }
      destruct (HF (csize l) (creg l) ext Hl He) as [Hlen _]. rewrite map3_length. lia.
  Qed.

  Lemma reduce_pair_fold l r : csize l <= length (creg l) -> csize r <= length (creg r) -> csize r <= csize l ->
    (csize l = csize r -> length (creg r) = length (creg l)) ->
    fold1 op (celems (reduce_pair F l r)) = fold1 op (celems l ++ celems r).
  Proof.
    intros Hl Hr Hlt Hsame. unfold reduce_pair. destruct (Nat.eqb_spec (csize l) (csize r)) as [E|E].
    - unfold celems. cbn [csize creg]. specialize (Hsame E).
      destruct (HF (csize l) (creg l) (creg r) Hl Hsame) as [Hlen Hnth].
      replace (firstn (csize l) (F (csize l) (creg l) (creg r)))
        with (map2 op (firstn (csize l) (creg l)) (firstn (csize r) (creg r))).
      + rewrite fold1_map2 by (auto; rewrite !firstn_length; lia). rewrite <- fold1_app; auto.
      + apply list_ext; [rewrite map2_length, !firstn_length; lia|]. intros i d Hi.
        rewrite map2_length, !firstn_length in Hi.
        rewrite (map2_nth _ _ _ i d d) by (rewrite firstn_length; lia).
        rewrite !nth_firstn_lt by lia. symmetry. apply Hnth. lia.
    - set (n := csize l) in *. set (m := csize r) in *. set (L := creg l) in *. set (R := creg r) in *.
      unfold celems. cbn [csize creg]. fold n m L R.
      set (k := map _ _).
      assert (Hk : length k = length L) by (unfold k; rewrite map_length, seq_length; auto).
      assert (Hkn : forall i, i < length L -> nth i k false = (i <? m)).
      { intros i Hi. unfold k. rewrite (nth_indep _ false (0 <? m)) by (rewrite map_length, seq_length; auto).
        rewrite (map_nth (fun j => j <? m)), seq_nth by auto. auto. }
      set (ext := map3 _ k (firstn _ _) _).
      assert (He : length ext = length L).
      { unfold ext. rewrite map3_length, firstn_length, app_length. lia. }
      destruct (HF n L ext Hl He) as [Hlen Hnth].
      match goal with |- fold1 op ?x = _ =>
        replace x with (map2 op (firstn m L) (firstn m R) ++ skipn m (firstn n L)) end.
      + rewrite fold1_app, fold1_map2 by (auto; rewrite !firstn_length; lia).
        rewrite fold1_app by auto.
        rewrite <- (firstn_skipn m (firstn n L)) at 2. rewrite firstn_firstn, Nat.min_l by lia.
        rewrite fold1_app by auto. rewrite <- !omerge_assoc by auto. f_equal. apply omerge_comm; auto.
      + assert (Hl1 : length (map2 op (firstn m L) (firstn m R)) = m)
          by (rewrite map2_length, !firstn_length; lia).
        apply list_ext.
        { rewrite app_length, Hl1, skipn_length, !firstn_length, map3_length. lia. }
        intros i d Hi. rewrite app_length, Hl1, skipn_length, firstn_length in Hi.
        rewrite nth_firstn_lt by lia.
        rewrite (map3_nth _ _ _ _ i false d d) by lia. rewrite Hkn by lia.
        destruct (Nat.ltb_spec i m).
        * rewrite app_nth1 by lia. rewrite (map2_nth _ _ _ i d d) by (rewrite firstn_length; lia).
          rewrite !nth_firstn_lt by lia. rewrite Hnth by lia. f_equal.
          unfold ext. rewrite (map3_nth _ _ _ _ i false d d) by (rewrite ?firstn_length, ?app_length; lia).
          rewrite Hkn by lia. destruct (Nat.ltb_spec i m); [|lia].
          rewrite nth_firstn_lt by lia. rewrite app_nth1 by lia. auto.
        * rewrite app_nth2 by lia. rewrite Hl1, nth_skipn_add.
          replace (m + (i - m)) with i by lia. apply nth_firstn_lt. lia.
  Qed.

  Lemma reduce_pairs_spec : forall x : tuple A, Forall chunk_ok x -> decreasing (map csize x) = true ->
    (forall c d, In c x -> In d x -> csize c = csize d -> length (creg c) = length (creg d)) ->
    tshape (reduce_pairs F x) = evens (tshape x) /\
    fold1 op (telems (reduce_pairs F x)) = fold1 op (telems x).
  Proof.
    fix IH 1. intros [|l [|r x]] Hok Hd Hs.
    - split; auto.
    - split; auto.
    - cbn [reduce_pairs]. inversion Hok as [|? ? H1 Hok1]; subst. inversion Hok1 as [|? ? H2 Hok2]; subst.
      cbn [map decreasing] in Hd. destruct (Nat.leb_spec (csize r) (csize l)) as [Hle|]; [|discriminate].
      assert (Hd2 : decreasing (map csize x) = true).
      { destruct x as [|y x]; auto. cbn [map] in *. destruct (csize y <=? csize r); [auto|discriminate]. }
      destruct (IH x Hok2 Hd2) as [E1 E2].
      { intros c d Hc Hd'. apply Hs; right; right; auto. }
      assert (Hsame : csize l = csize r -> length (creg r) = length (creg l)).
      { intros E. apply Hs; simpl; auto. }
      split.
      + unfold tshape in *. cbn [map evens]. rewrite reduce_pair_shape by auto. f_equal. exact E1.
      + rewrite !telems_cons. rewrite app_assoc. rewrite !(fold1_app op Hac _ (telems _)).
        rewrite reduce_pair_fold by auto. rewrite E2. auto.
  Qed.
End Pairs.

Lemma shape_eqb_refl s : shape_eqb s s = true.
Proof.
  unfold shape_eqb. rewrite Nat.eqb_refl. cbn [andb]. induction s as [|[a b] s IH]; auto.
  cbn [combine forallb fst snd]. rewrite !Nat.eqb_refl. auto.
Qed.

Lemma evens_length {X} (l : list X) : length (evens l) <= length l /\ (2 <= length l -> length (evens l) < length l).
Proof.
  revert l. fix IH 1. intros [|a [|b l]]; cbn [evens length]; [lia|lia|].
  destruct (IH l) as [H _]. lia.
Qed.

Lemma evens_sum s : ssize (evens s) <= ssize s.
Proof.
  revert s. fix IH 1. intros [|a [|b s]]; [cbn; lia|cbn; lia|]. cbn [evens]. rewrite !ssize_cons.
  specialize (IH s). lia.
Qed.

Lemma fs_reduce_spec {A} I t op F o zero : arch_ok I -> elem_ok t -> assoc_comm op -> @lanewise2 A op F -> op_ok op o ->
  forall fuel n (x : tuple A), 1 <= n <= max_fixed_size I t -> is_fixed I t n x -> length x <= fuel ->
  fs_reduce I t zero F o fuel x = fold1 op (telems x).
Proof.
  intros HI Ht Hac HF Ho. induction fuel as [|fuel IH]; intros n x Hn Hx Hf.
  { destruct (fixed_facts I t n x) as (_ & _ & _ & _ & Hne); [split; auto|auto|].
    destruct x; [congruence|simpl in Hf; lia]. }
  destruct (fixed_facts I t n x) as (Hdense & Hsz & Hok & Hlen & Hne); [split; auto|auto|].
  destruct (reduce_storage I t n (tshape x) HI Ht Hn Hx) as [Hdec Heven].
  assert (Hlanes : Forall (fun c => csize c = 1 /\ length (creg c) = 1 \/
     2 <= csize c /\ (esize t = 1 \/ esize t = 2 \/ esize t = 4 \/ esize t = 8) /\ length (creg c) = vlanes I t (csize c)) x).
  { pose proof (storage_lanes I t n (tshape x) Ht ltac:(lia) Hx) as H. unfold tshape in H.
    rewrite Forall_map in H. exact H. }
  assert (Hone : forall c, In c x -> simd_reduce I t zero F o (csize c) (creg c) = fold1 op (celems c)).
  { intros c Hc. rewrite Forall_forall in Hlanes. apply (simd_reduce_spec I t op); auto.
    destruct (Hlanes c Hc) as [[E1 E2]|(E1 & E2 & E3)]; [left|right]; repeat split; auto; lia. }
  assert (Hsame : forall c d, In c x -> In d x -> csize c = csize d -> length (creg c) = length (creg d)).
  { intros c d Hc Hd E. rewrite Forall_forall in Hlanes.
    destruct (Hlanes c Hc) as [[E1 E2]|(E1 & E2 & E3)], (Hlanes d Hd) as [[E4 E5]|(E4 & E5 & E6)]; try lia.
    rewrite E3, E6, E. auto. }
  assert (Hdec' : decreasing (map csize x) = true).
  { unfold tshape in Hdec. rewrite map_map in Hdec. exact Hdec. }
  destruct (reduce_pairs_spec op Hac F HF x Hok Hdec' Hsame) as [Esh Efold].
  cbn [fs_reduce]. cbv zeta.
  set (pw := match reduce_pairs F x with [] => _ | _ => _ end).
  assert (Hpw : 2 <= length x -> pw = fold1 op (telems x)).
  { intros H2. subst pw. destruct (reduce_pairs F x) as [|c [|d y]] eqn:Ep.
    - destruct x as [|a [|b x]]; [simpl in H2; lia|simpl in H2; lia|]. discriminate.
    - rewrite <- Efold. cbn [telems flat_map]. rewrite app_nil_r.
      destruct x as [|a [|b x]]; [simpl in H2; lia|simpl in H2; lia|].
      assert (Hcs : cshape c = cshape a) by (cbn [evens] in Esh; unfold tshape in Esh; cbn [map evens] in Esh; congruence).
      apply (simd_reduce_spec I t op); auto.
      injection Hcs as E1 E2. rewrite Forall_forall in Hlanes.
      destruct (Hlanes a (or_introl eq_refl)) as [[? ?]|(? & ? & ?)]; [left|right].
      + rewrite E1, E2. lia.
      + rewrite E1, E2. repeat split; auto.
    - rewrite <- Ep in *. assert (H3 : 2 < length x).
      { destruct (Nat.le_gt_cases (length x) 2) as [H|]; auto. exfalso.
        destruct x as [|a [|b [|e x]]]; simpl in *; try lia. discriminate. }
      rewrite Esh. assert (Hl3 : 2 < length (tshape x)) by (unfold tshape; rewrite map_length; auto).
      rewrite (Heven Hl3), shape_eqb_refl. rewrite <- Efold.
      assert (Hsum : 1 <= ssize (evens (tshape x)) <= max_fixed_size I t).
      { split; [|pose proof (evens_sum (tshape x)); lia].
        rewrite <- Esh, Ep. destruct c as [cn cr]. rewrite tshape_cons, ssize_cons. cbn [cshape csize fst].
        destruct x as [|a [|b x]]; [simpl in H2; lia|simpl in H2; lia|].
        cbn [reduce_pairs] in Ep. injection Ep as Ec _.
        assert (Hcs : cshape (reduce_pair F a b) = cshape a).
        { apply (reduce_pair_shape op F HF); [inversion Hok; auto|]. intros E. apply Hsame; simpl; auto. }
        rewrite Ec in Hcs. injection Hcs as E1 _. cbn [csize] in E1.
        cbn [tshape map dense] in Hdense. unfold cshape in Hdense at 1. cbn [dense] in Hdense. lia. }
      apply (IH (ssize (evens (tshape x)))); auto.
      + unfold is_fixed. rewrite Esh. apply Heven; auto.
      + assert (length (reduce_pairs F x) = length (evens (tshape x))).
        { rewrite <- Esh. unfold tshape. rewrite map_length. auto. }
        destruct (evens_length (tshape x)) as [_ He]. unfold tshape in He at 1 3. rewrite map_length in He.
        specialize (He H2). lia. }
  destruct x as [|c [|d [|e x]]].
  - congruence.
  - cbn [telems flat_map]. rewrite app_nil_r. apply Hone. simpl; auto.
  - cbn [telems flat_map] in *. rewrite app_nil_r in *.
    destruct ((2 <? _) && (csize d =? 1)) eqn:E1.
    + apply andb_true_iff in E1 as [_ E1]. apply Nat.eqb_eq in E1.
      rewrite Hone by (simpl; auto). rewrite fold1_app by auto.
      unfold celems at 3. rewrite E1.
      inversion Hok as [|? ? Hc Hok1]; subst. inversion Hok1 as [|? ? Hd Hok2]; subst. unfold chunk_ok in *.
      destruct (creg d) as [|b0 rd]; [simpl in Hd; lia|]. cbn [nth_error firstn fold1 fold_left].
      destruct (fold1 op (celems c)) as [a|] eqn:Ea; [cbn [omerge]; apply (op_scalar_spec op F HF)|].
      exfalso. destruct (celems c) eqn:Ec; [|discriminate].
      apply (f_equal (@length A)) in Ec. rewrite celems_length in Ec by auto.
      unfold tshape in Hdense. cbn [map dense] in Hdense. unfold cshape in Hdense. cbn [dense] in Hdense. simpl in Ec. lia.
    + destruct ((4 <? _) && (csize d =? 2)) eqn:E2.
      * rewrite !Hone by (simpl; auto). rewrite fold1_app by auto.
        unfold tshape in Hdense. cbn [map] in Hdense. unfold cshape in Hdense. cbn [dense] in Hdense.
        inversion Hok as [|? ? Hc Hok1]; subst. inversion Hok1 as [|? ? Hd Hok2]; subst.
        assert (Hnone : forall c', chunk_ok c' -> 1 <= csize c' -> fold1 op (celems c') <> None).
        { intros c' Hc' H1. destruct (celems c') eqn:Ec; [|discriminate].
          apply (f_equal (@length A)) in Ec. rewrite celems_length in Ec by auto. simpl in Ec. lia. }
        destruct (fold1 op (celems c)) as [a|] eqn:Ea; [|exfalso; apply (Hnone c); auto; lia].
        destruct (fold1 op (celems d)) as [b|] eqn:Eb; [|exfalso; apply (Hnone d); auto; lia].
        cbn [omerge]. apply (op_scalar_spec op F HF).
      * apply Hpw. simpl. lia.
  - apply Hpw. simpl. lia.
Qed.
