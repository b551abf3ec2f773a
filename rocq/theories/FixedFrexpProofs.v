(* Proofs of C67.  The chunks of a fixed_size object are treated by different
   functions (std::frexp for one element, the library's frexp for registers), so
   that c06_mixed does not apply as it is: the elements are tagged with their
   results first. *)
From Coq Require Import ZArith List Bool Arith Lia.
From Verif Require Import Prelude X86Lanes Abi AbiSpec Fixed FixedSpec FixedProofs FixedApply FixedStorage FixedMixed FixedTop
  FloatSpec FloatRoundSpec FloatMathSpec FloatBits FloatArith FloatProofs FloatTop FloatMath FloatMathTop FloatRoundTop MathCall MathCallProofs
  FixedFrexp FixedFrexpSpec.
Import ListNotations.
Local Open Scope nat_scope.

Section Tagged.
Context (R : Z -> Z * Z -> Prop).
Context (E : nat -> list Z -> option (list (Z * Z))).
(* the function of frexp_chunk *)
Definition Fc (m : nat) (reg : list Z) (arg : tuple Z) : list Z * tuple Z :=
  match E m reg with
  | Some rs =>
      (if m =? 1 then repeat (fst (nth 0 rs (0, 0)%Z)) (length reg) else map fst rs ++ skipn m reg,
       store_ints arg m (map snd rs))
  | None => (reg, arg)
  end.
Definition tag (m : nat) (reg : list Z) : list (Z * (Z * Z)) :=
  match E m reg with
  | Some rs => if m =? 1 then map (fun a => (a, nth 0 rs (0, 0)%Z)) reg
               else combine reg (rs ++ map (fun a => (a, 0%Z)) (skipn m reg))
  | None => map (fun a => (a, (a, 0%Z))) reg
  end.
Definition tagc (c : chunk Z) : chunk (Z * (Z * Z)) := Chunk (csize c) (tag (csize c) (creg c)).
Definition untagc (c : chunk (Z * (Z * Z))) : chunk Z := Chunk (csize c) (map fst (creg c)).
Definition Ft (m : nat) (reg : list (Z * (Z * Z))) (_ : list (list (Z * (Z * Z)))) (arg : tuple Z)
  : list (Z * (Z * Z)) * tuple Z :=
  (map (fun p => (fst (snd p), snd p)) reg, store_ints arg m (map (fun p => snd (snd p)) reg)).

Definition good (c : chunk Z) : Prop :=
  chunk_ok c /\ exists rs, E (csize c) (creg c) = Some rs /\ length rs = csize c /\ Forall2 R (celems c) rs.

Lemma store_ext arg m ks ls : (forall i, i < m -> nth i ks 0%Z = nth i ls 0%Z) -> store_ints arg m ks = store_ints arg m ls.
Proof.
  unfold store_ints. revert arg. induction m as [|m IH]; intros arg H; auto.
  rewrite seq_S, !fold_left_app. cbn [fold_left]. rewrite IH by (intros; apply H; lia). rewrite H by lia. auto.
Qed.

Lemma tag_length c : good c -> length (tag (csize c) (creg c)) = length (creg c).
Proof.
  intros (Hc & rs & Ers & Hl & _). unfold tag. rewrite Ers. destruct (Nat.eqb_spec (csize c) 1); [apply map_length|].
  rewrite combine_length, app_length, map_length, skipn_length. unfold chunk_ok in Hc. lia.
Qed.

Lemma map_fst_combine {X Y} (l : list X) (k : list Y) : length l = length k -> map fst (combine l k) = l.
Proof. revert k. induction l; intros [|b k] H; simpl in *; try discriminate; auto. f_equal. auto. Qed.
Lemma map_snd_combine {X Y} (l : list X) (k : list Y) : length l = length k -> map snd (combine l k) = k.
Proof. revert k. induction l; intros [|b k] H; simpl in *; try discriminate; auto. f_equal. auto. Qed.

Lemma tag_fst c : good c -> map fst (tag (csize c) (creg c)) = creg c.
Proof.
  intros (Hc & rs & Ers & Hl & _). unfold tag. rewrite Ers. destruct (Nat.eqb_spec (csize c) 1).
  - rewrite map_map. apply map_id.
  - apply map_fst_combine. rewrite app_length, map_length, skipn_length. unfold chunk_ok in Hc. lia.
Qed.

Lemma step c arg : good c ->
  Fc (csize c) (creg c) arg
  = (map fst (fst (Ft (csize c) (tag (csize c) (creg c)) [] arg)), snd (Ft (csize c) (tag (csize c) (creg c)) [] arg)).
Proof.
  intros (Hc & rs & Ers & Hl & _). unfold Fc, Ft, tag. rewrite Ers. cbn [fst snd]. unfold chunk_ok in Hc.
  destruct (Nat.eqb_spec (csize c) 1) as [H1|H1].
  - f_equal.
    + rewrite !map_map. cbn [fst snd]. generalize (creg c). induction l; simpl; auto. f_equal. auto.
    + apply store_ext. rewrite H1. intros i Hi. assert (i = 0) by lia. subst i. rewrite map_map. cbn [snd].
      destruct (creg c); [simpl in Hc; lia|]. destruct rs as [|r rs]; [simpl in Hl; lia|]. reflexivity.
  - assert (L : length (creg c) = length (rs ++ map (fun a => (a, 0%Z)) (skipn (csize c) (creg c)))).
    { rewrite app_length, map_length, skipn_length. lia. }
    set (k := rs ++ _) in *.
    assert (K : map (fun p : Z * (Z * Z) => fst (snd p)) (combine (creg c) k) = map fst k).
    { rewrite <- (map_map snd fst). rewrite map_snd_combine; auto. }
    assert (K' : map (fun p : Z * (Z * Z) => snd (snd p)) (combine (creg c) k) = map snd k).
    { rewrite <- (map_map snd snd). rewrite map_snd_combine; auto. }
    f_equal.
    + rewrite map_map. cbn [fst]. rewrite K. unfold k. rewrite map_app, map_map. cbn [fst]. rewrite map_id. auto.
    + rewrite K'. apply store_ext. intros i Hi. unfold k. rewrite map_app. rewrite app_nth1; auto. rewrite map_length. lia.
Qed.

Lemma sim pad st : forall x v, Forall good x ->
  apply_mixed pad true st (fun m reg _ arg => Fc m reg arg) x [] v
  = option_map (fun p => (map untagc (fst p), snd p)) (apply_mixed pad true st Ft (map tagc x) [] v).
Proof.
  induction x as [|c x IH]; intros v H; auto. inversion H as [|? ? Hc Hx]; subst. cbn [map apply_mixed tagc csize creg].
  destruct (extract_argument _ _ _ _) as [arg|]; auto. cbn [heads map]. rewrite (step c arg Hc).
  destruct (Ft _ _ _ _) as [reg arg'] eqn:EF. cbn [fst snd].
  destruct (view_assign v arg') as [v1|]; auto. destruct x as [|c' x]; auto.
  cbn [map]. destruct (skip_argument _ _) as [v2|]; auto. cbn [tails map].
  change (tagc c' :: map tagc x) with (map tagc (c' :: x)). rewrite IH by auto.
  destruct (apply_mixed _ _ _ Ft _ _ _) as [[r e]|]; reflexivity.
Qed.

Lemma Ft_lanewise : lanewise_mixed (fun p _ _ => (fst (snd p), snd p)) (fun p _ _ => snd (snd p)) Ft.
Proof.
  intros n reg regs arg Hn _ Hd Hl. unfold Ft. cbn [fst snd]. rewrite map_length. split; auto.
  destruct (z_sets (fun i => nth i (map (fun p : Z * (Z * Z) => snd (snd p)) reg) 0%Z) n arg Hd) as [Z1 Z2]; [lia|].
  fold (store_ints arg n (map (fun p : Z * (Z * Z) => snd (snd p)) reg)) in Z1, Z2. split; auto.
  intros i d e Hi. split.
  - set (h := fun p : Z * (Z * Z) => (fst (snd p), snd p)).
    rewrite (nth_indep _ d (h d)) by (rewrite map_length; lia). rewrite map_nth. auto.
  - rewrite Z2. destruct (Nat.ltb_spec i n); [|lia]. set (h := fun p : Z * (Z * Z) => snd (snd p)).
    rewrite (nth_indep _ 0%Z (h d)) by (rewrite map_length; lia). rewrite map_nth. auto.
Qed.

Lemma tagc_elems x : Forall good x -> map fst (telems (map tagc x)) = telems x.
Proof.
  induction 1 as [|c x Hc Hx IH]; auto. unfold telems in *. cbn [map flat_map]. rewrite map_app, IH. f_equal.
  unfold celems, tagc. cbn [csize creg]. rewrite <- firstn_map. rewrite tag_fst; auto.
Qed.
Lemma tagc_shape x : Forall good x -> tshape (map tagc x) = tshape x.
Proof.
  induction 1 as [|c x Hc Hx IH]; auto. unfold tshape in *. cbn [map]. rewrite IH. f_equal.
  unfold cshape, tagc. cbn [csize creg]. rewrite tag_length; auto.
Qed.
Lemma untagc_shape x : tshape (map untagc x) = tshape x.
Proof.
  unfold tshape. rewrite map_map. apply map_ext. intros c. unfold cshape, untagc. cbn [csize creg]. rewrite map_length. auto.
Qed.
Lemma untagc_elems x : telems (map untagc x) = map fst (telems x).
Proof.
  induction x as [|c x IH]; auto. unfold telems in *. cbn [map flat_map]. rewrite map_app, IH. f_equal.
  unfold celems, untagc. cbn [csize creg]. apply firstn_map.
Qed.
Lemma tag_good c : good c -> Forall (fun p => R (fst p) (snd p)) (celems (tagc c)).
Proof.
  intros (Hc & rs & Ers & Hl & HR). unfold celems, tagc, tag in *. cbn [csize creg]. rewrite Ers. unfold chunk_ok in Hc.
  destruct (Nat.eqb_spec (csize c) 1) as [H1|H1].
  - rewrite H1 in *. destruct (creg c) as [|a reg]; [simpl in Hc; lia|]. cbn [map firstn] in *. constructor; [|constructor].
    inversion HR; subst. cbn [fst snd nth]. auto.
  - assert (G : forall m (reg : list Z) rs tl, Forall2 R (firstn m reg) rs ->
        Forall (fun p => R (fst p) (snd p)) (firstn m (combine reg (rs ++ tl)))).
    { clear. induction m as [|m IH]; intros reg rs tl H; [constructor|].
      destruct reg as [|a reg]; [constructor|]. cbn [firstn] in H. inversion H; subst. cbn [app combine firstn].
      constructor; auto. }
    apply G. auto.
Qed.
Lemma tagged_good x : Forall good x -> Forall (fun p => R (fst p) (snd p)) (telems (map tagc x)).
Proof.
  induction 1 as [|c x Hc Hx IH]; [constructor|]. unfold telems in *. cbn [map flat_map]. apply Forall_app. split; auto.
  apply tag_good; auto.
Qed.

Lemma mixed_rel I t u n pad (x : tuple Z) (e : tuple Z) :
  fixed_size_type I t n -> fp_elem t = true -> int_elem u = true -> narrow_exception I t u && (n mod 4 =? 0) = false ->
  is_fixed I t n x -> is_fixed I u n e -> Forall good x ->
  exists r e', apply_mixed pad true (storage_shape I u) (fun m reg _ arg => Fc m reg arg) x [] (view_of e) = Some (r, e') /\
    is_fixed I t n r /\ is_fixed I u n e' /\
    forall i a, i < n -> t_get x i = Some a -> exists b k, t_get r i = Some b /\ t_get e' i = Some k /\ R a (b, k).
Proof.
  intros Hf Ht Hu Hex Hx He Hg.
  assert (Hx' : is_fixed I t n (map tagc x)) by (unfold is_fixed in *; rewrite tagc_shape; auto).
  destruct (c06_mixed I t u n pad true _ _ Ft (map tagc x) [] e Hf Ht Hu Hex Ft_lanewise Hx' (Forall_nil _) He)
    as (r' & e' & E1 & Hr' & He' & Hel).
  exists (map untagc r'), e'. rewrite sim by auto. rewrite E1. split; [reflexivity|].
  assert (Hr : is_fixed I t n (map untagc r')) by (unfold is_fixed in *; rewrite untagc_shape; auto).
  split; auto. split; auto. intros i a Hi Ha.
  pose proof (FixedTop.int_fixed I t u n Hf Ht Hu) as Hfu.
  destruct (fixed_get I t n _ i Hf Hx' Hi) as (p & Ep & Np). destruct (fixed_get I u n e i Hfu He Hi) as (k0 & Ek & _).
  destruct (Hel i p [] k0 Hi Ep eq_refl Ek) as [H1 H2].
  assert (Hap : a = fst p).
  { rewrite (fixed_get_nth I t n x i a Hf Hx Hi) in Ha. injection Ha as Ha. rewrite <- Ha, <- (Np p).
    rewrite <- tagc_elems by auto. destruct (fixed_facts I t n _ Hf Hx') as (_ & _ & _ & Hl & _).
    rewrite (nth_indep _ a (fst p)) by (rewrite map_length; lia). apply map_nth. }
  exists (fst (snd p)), (snd (snd p)). split; [|split; auto].
  - rewrite (fixed_get_nth I t n _ i (fst (fst (snd p), snd p)) Hf Hr Hi). rewrite untagc_elems, map_nth.
    rewrite (fixed_get_nth I t n r' i (fst (snd p), snd p) Hf Hr' Hi) in H1. injection H1 as H1. rewrite H1. auto.
  - rewrite Hap, <- surjective_pairing. pose proof (tagged_good x Hg) as G. rewrite Forall_forall in G. apply (G p).
    rewrite <- (Np p). apply nth_In. destruct (fixed_facts I t n _ Hf Hx') as (_ & _ & _ & Hl & _). lia.
Qed.
End Tagged.

Lemma patterns_elems I t n f x : fixed_size_type I t n -> is_fixed I t n x -> all_patterns f x -> Forall (pattern f) (telems x).
Proof.
  intros Hf Hx HP. apply Forall_forall. intros a Ha. destruct (In_nth _ _ a Ha) as (i & Hi & <-).
  destruct (fixed_facts I t n _ Hf Hx) as (_ & _ & _ & Hl & _).
  apply (HP i). apply (fixed_get_nth I t n x i a Hf Hx). lia.
Qed.
Lemma patterns_chunks f x : Forall (pattern f) (telems x) -> Forall (fun c => Forall (pattern f) (celems c)) x.
Proof.
  induction x as [|c x IH]; intros H; constructor; unfold telems in H; cbn [flat_map] in H; apply Forall_app in H;
    destruct H; auto.
Qed.
Lemma forall2_nth {X Y} (P : X -> Y -> Prop) l k : length k = length l ->
  (forall i a, nth_error l i = Some a -> exists b, nth_error k i = Some b /\ P a b) -> Forall2 P l k.
Proof.
  revert k. induction l as [|a l IH]; intros [|b k] Hl H; try discriminate; constructor.
  - destruct (H 0 a eq_refl) as (b' & Eb & Hb). injection Eb as <-. auto.
  - apply IH; [simpl in Hl; lia|]. intros i x Hi. apply (H (S i) x Hi).
Qed.
Lemma one_chunk (c : chunk Z) (P : Z -> Prop) (d : Z) : csize c = 1 -> chunk_ok c -> Forall P (celems c) ->
  celems c = [nth 0 (creg c) d] /\ P (nth 0 (creg c) d).
Proof.
  unfold celems, chunk_ok. intros -> Hl H. destruct (creg c) as [|a r]; [simpl in Hl; lia|]. cbn [firstn nth] in *.
  split; auto. inversion H; auto.
Qed.
Lemma storage_one_fp I t f : elem_format t f -> storage_shape I t 1 = Some [(1, 1)].
Proof.
  intros [[-> _]|[-> _]]; unfold storage_shape, fixed_size_storage;
    cbn [storage_builder all_native_abis best_abi Nat.eqb]; reflexivity.
Qed.
Lemma one_shape {A} (x : tuple A) : tshape x = [(1, 1)] -> exists a, x = [Chunk 1 [a]].
Proof.
  destruct x as [|[m reg] [|c x]]; try discriminate. unfold tshape, cshape. cbn [map csize creg]. intros H. injection H as -> H.
  destruct reg as [|a [|b reg]]; try discriminate. eauto.
Qed.
Lemma elem_format_fp t f : elem_format t f -> fp_elem t = true /\ real_fmt f.
Proof. intros [[-> ->]|[-> ->]]; split; auto; [left|right]; auto. Qed.

Lemma frexp_fixed_ok std_frexp avx t f md pad I ty n x e :
  elem_format ty f -> fixed_size_type I ty n -> narrow_exception I ty (TInt 4) && (n mod 4 =? 0) = false ->
  (avx = false -> target_ok t /\ dq_ok t) -> std_frexp_ok f std_frexp ->
  is_fixed I ty n x -> is_fixed I (TInt 4) n e -> all_patterns f x ->
  exists y e', frexp_fixed std_frexp avx t f md pad (storage_shape I (TInt 4)) x e = Some (y, e') /\
    is_fixed I ty n y /\ is_fixed I (TInt 4) n e' /\
    forall i a, i < n -> t_get x i = Some a -> exists b k, t_get y i = Some b /\ t_get e' i = Some k /\
      frexp_result f (decode f a) (decode f b) k.
Proof.
  intros Hty Hf Hex HT Hstd Hx He HP. destruct (elem_format_fp ty f Hty) as [Hft Hr].
  destruct (fixed_facts I ty n x Hf Hx) as (Hd & Hs & Hok & Hl & Hne).
  unfold frexp_fixed. rewrite Hs. destruct (Nat.eqb_spec n 1) as [->|Hn1].
  - unfold is_fixed in *. rewrite (storage_one_fp I ty f Hty) in *. rewrite storage_one in * by auto.
    injection Hx as Hx. injection He as He. destruct (one_shape x (eq_sym Hx)) as [a ->]. destruct (one_shape e (eq_sym He)) as [k0 ->].
    cbn [t_get chunk_read creg nth_error]. destruct (std_frexp a) as [r tmp] eqn:E.
    exists [Chunk 1 [r]], [Chunk 1 [tmp]]. split; [reflexivity|]. split; [reflexivity|]. split; [reflexivity|].
    intros i b Hi Hb. assert (i = 0) by lia. subst i. injection Hb as <-. exists r, tmp. split; [reflexivity|].
    split; [reflexivity|]. assert (Hp : pattern f a) by (apply (HP 0); reflexivity). specialize (Hstd a Hp). rewrite E in Hstd. auto.
  - pose proof (patterns_chunks f x (patterns_elems I ty n f x Hf Hx HP)) as HC.
    assert (Hg : Forall (good (fun a p => frexp_result f (decode f a) (decode f (fst p)) (snd p))
                    (frexp_elems std_frexp avx t f md)) x).
    { rewrite Forall_forall in *. intros c Hc. specialize (HC c Hc). specialize (Hok c Hc). split; auto.
      unfold frexp_elems. destruct (Nat.eqb_spec (csize c) 1) as [H1|H1].
      - destruct (one_chunk c (pattern f) 0%Z H1 Hok HC) as [E1 E2]. rewrite E1. eexists. split; [reflexivity|].
        split; [auto|]. constructor; [|constructor]. apply Hstd. auto.
      - destruct (c34_frexp avx t f md (celems c) Hr HT HC) as (rs & Ers & Hlr & Hrs). exists rs. split; auto.
        rewrite celems_length in Hlr by auto. split; auto. apply forall2_nth; [rewrite celems_length; auto|].
        intros i a Ha. destruct (Hrs i a Ha) as (y & k & Ey & Hy & _). exists (y, k). auto. }
    unfold s_frexp. replace (forallb _ x) with true.
    2: { symmetry. apply forallb_forall. intros c Hc. rewrite Forall_forall in Hg. destruct (Hg c Hc) as (_ & rs & -> & _). auto. }
    destruct (mixed_rel _ _ I ty (TInt 4) n pad x e Hf Hft eq_refl Hex Hx He Hg) as (y & e' & E & Hy & He' & Hel).
    exists y, e'. split; [exact E|]. auto.
Qed.

Lemma logb_fixed_ok std_logb instr t f md I ty n x :
  elem_format ty f -> fixed_size_type I ty n ->
  ((forall m, instr m = true) \/ (target_ok t /\ dq_ok t)) -> std_logb_ok f std_logb ->
  is_fixed I ty n x -> all_patterns f x ->
  exists y, logb_fixed std_logb instr t f md x = Some y /\ is_fixed I ty n y /\
    forall i a, i < n -> t_get x i = Some a -> exists b, t_get y i = Some b /\ logb_result f (decode f a) (decode f b).
Proof.
  intros Hty Hf HT Hstd Hx HP. destruct (elem_format_fp ty f Hty) as [Hft Hr].
  destruct (fixed_facts I ty n x Hf Hx) as (Hd & Hs & Hok & Hl & Hne).
  unfold logb_fixed. rewrite Hs. destruct (Nat.eqb_spec n 1) as [->|Hn1].
  - unfold is_fixed in *. rewrite (storage_one_fp I ty f Hty) in *.
    injection Hx as Hx. destruct (one_shape x (eq_sym Hx)) as [a ->].
    exists [Chunk 1 [std_logb a]]. split; [reflexivity|]. split; [reflexivity|].
    intros i b Hi Hb. assert (i = 0) by lia. subst i. injection Hb as <-. exists (std_logb a). split; [reflexivity|].
    apply Hstd. apply (HP 0). reflexivity.
  - pose proof (patterns_chunks f x (patterns_elems I ty n f x Hf Hx HP)) as HC.
    set (F := fun (m : nat) (reg : list Z) (_ : list (list Z)) => logb_chunk std_logb instr t f md m reg).
    assert (Hg : Forall (fun c => exists rs, logb_elems std_logb instr t f md (csize c) (creg c) = Some rs /\
                    length (F (csize c) (creg c) []) = length (creg c) /\
                    Forall2 (fun a b => logb_result f (decode f a) (decode f b)) (celems c)
                      (firstn (csize c) (F (csize c) (creg c) []))) x).
    { rewrite Forall_forall in *. intros c Hc. specialize (HC c Hc). specialize (Hok c Hc).
      unfold F, logb_chunk, logb_elems. destruct (Nat.eqb_spec (csize c) 1) as [H1|H1].
      - destruct (one_chunk c (pattern f) 0%Z H1 Hok HC) as [E1 E2]. rewrite E1. eexists. split; [reflexivity|].
        split; [apply repeat_length|]. rewrite H1. unfold chunk_ok in Hok. rewrite H1 in Hok. cbn [nth].
        destruct (creg c) as [|a reg]; [simpl in Hok; lia|]. cbn [length repeat firstn nth] in *.
        constructor; [|constructor]. apply Hstd. auto.
      - assert (HT' : instr (csize c) = false -> target_ok t /\ dq_ok t).
        { intros Hi. destruct HT as [HT|HT]; auto. rewrite HT in Hi. discriminate. }
        destruct (c35_logb (instr (csize c)) t f md (celems c) Hr HT' HC) as (rs & Ers & Hlr & Hrs). exists rs.
        change (firstn (csize c) (creg c)) with (celems c). rewrite Ers. split; auto.
        rewrite celems_length in Hlr by auto. unfold chunk_ok in Hok. split; [rewrite app_length, skipn_length; lia|].
        rewrite <- Hlr at 1. rewrite firstn_app, firstn_all, Nat.sub_diag. cbn [firstn]. rewrite app_nil_r.
        apply forall2_nth; [rewrite celems_length; auto|]. auto. }
    replace (forallb _ x) with true.
    2: { symmetry. apply forallb_forall. intros c Hc. rewrite Forall_forall in Hg. destruct (Hg c Hc) as (rs & -> & _). auto. }
    assert (Hsh : tshape (apply_per_chunk F x []) = tshape x).
    { clear - Hg. induction Hg as [|c x (rs & _ & H & _) _ IH]; auto. cbn [apply_per_chunk]. change (@tails Z []) with (@nil (tuple Z)). unfold tshape in *. cbn [map].
      rewrite IH. f_equal. unfold cshape. cbn [csize creg heads map]. rewrite H. auto. }
    assert (Hy : is_fixed I ty n (apply_per_chunk F x [])) by (unfold is_fixed in *; rewrite Hsh; auto).
    exists (apply_per_chunk F x []). split; [reflexivity|]. split; auto.
    assert (H2 : Forall2 (fun a b => logb_result f (decode f a) (decode f b)) (telems x) (telems (apply_per_chunk F x []))).
    { clear - Hg. induction Hg as [|c x (rs & _ & _ & H) _ IH]; [constructor|]. cbn [apply_per_chunk]. change (@tails Z []) with (@nil (tuple Z)). unfold telems in *.
      cbn [flat_map]. apply Forall2_app; auto. }
    intros i a Hi Ha. rewrite (fixed_get_nth I ty n x i a Hf Hx Hi) in Ha. injection Ha as Ha.
    destruct (fixed_facts I ty n _ Hf Hy) as (_ & _ & _ & Hly & _).
    exists (nth i (telems (apply_per_chunk F x [])) a). split; [apply (fixed_get_nth I ty n _ i a Hf Hy Hi)|].
    rewrite <- Ha at 1. clear - H2 Hi Hl. rewrite <- Hl in Hi. clear Hl. revert i Hi.
    induction H2; intros [|i] Hi; simpl in *; auto; try lia. apply IHForall2. lia.
Qed.

Lemma frexp_chunk_shape std_frexp avx t f md m reg (arg : tuple Z) : dense (tshape arg) -> m <= length (telems arg) ->
  tshape (snd (frexp_chunk std_frexp avx t f md m reg arg)) = tshape arg.
Proof.
  intros Hd Hm. unfold frexp_chunk. destruct (frexp_elems _ _ _ _ _ _ _) as [rs|]; auto. cbn [snd].
  apply (z_sets (fun i => nth i (map snd rs) 0%Z) m arg Hd Hm).
Qed.

Lemma frexp_fixed_i386 : exists I n, fixed_size_type I TDouble n /\
  (exists x e : tuple Z, is_fixed I TDouble n x /\ is_fixed I (TInt 4) n e /\ all_patterns binary64 x) /\
  forall std_frexp avx t md pad x e, is_fixed I TDouble n x -> is_fixed I (TInt 4) n e ->
    frexp_fixed std_frexp avx t binary64 md pad (storage_shape I (TInt 4)) x e = None.
Proof.
  exists isa_i386_sse2, 4. split.
  { split; [apply i386_arch|]. split; simpl; auto. cbn. lia. }
  split.
  - exists [Chunk 2 [0%Z; 0%Z]; Chunk 2 [0%Z; 0%Z]], [Chunk 4 [0; 0; 0; 0]%Z]. split; [reflexivity|]. split; [reflexivity|].
    intros i a. do 4 (destruct i as [|i]; [intros H; injection H as <-; split; [apply Z.le_refl|reflexivity]|]).
    intros H. destruct i; discriminate.
  - intros std_frexp avx t md pad x e Hx He. unfold is_fixed in *.
    assert (Sx : storage_shape isa_i386_sse2 TDouble 4 = Some [(2, 2); (2, 2)]) by reflexivity.
    assert (Se : storage_shape isa_i386_sse2 (TInt 4) 4 = Some [(4, 4)]) by reflexivity.
    assert (Se2 : storage_shape isa_i386_sse2 (TInt 4) 2 = Some [(2, 4)]) by reflexivity.
    rewrite Sx in Hx. rewrite Se in He. injection Hx as Hx. injection He as He.
    destruct x as [|[m1 r1] [|[m2 r2] [|c x]]]; try discriminate. destruct e as [|[m3 r3] [|c e]]; try discriminate.
    unfold tshape, cshape in Hx, He. cbn [map csize creg] in Hx, He. injection Hx as <- H1 <- H2. injection He as <- H3.
    unfold frexp_fixed, tshape, cshape. cbn [map csize creg]. rewrite <- H1, <- H2.
    cbn [ssize map fst list_sum fold_right Nat.add Nat.eqb]. unfold s_frexp. destruct (forallb _ _); auto.
    cbn [apply_mixed csize creg]. unfold extract_argument. rewrite Se2.
    destruct r3 as [|k0 [|k1 [|k2 [|k3 [|]]]]]; try discriminate.
    cbn -[frexp_chunk assign_front heads tails].
    match goal with |- context [frexp_chunk ?p ?a ?b ?c ?d ?m ?r ?arg] =>
      pose proof (frexp_chunk_shape p a b c d m r arg) as Hs; destruct (frexp_chunk p a b c d m r arg) as [reg arg'] end.
    cbn [snd] in Hs. match type of Hs with ?P -> _ => assert (HD : P) end. { cbn. repeat split; try lia. intros X; destruct (X eq_refl). }
    specialize (Hs HD ltac:(cbn; lia)).
    destruct arg' as [|[m4 r4] [|]]; try discriminate. unfold tshape, cshape in Hs. cbn [map csize creg length] in Hs.
    injection Hs as -> H4. destruct r4 as [|l0 [|l1 [|l2 [|l3 [|]]]]]; try discriminate.
    cbn -[frexp_chunk heads tails]. reflexivity.
Qed.
