(* Casts in terms of operator[]. *)
From Coq Require Import List Arith Bool Lia.
From Verif Require Import Prelude BitMask BitMaskProofs Abi AbiSpec AbiProofs Fixed FixedSpec FixedProofs
  FixedApply Targets Profile FixedStorage FixedMixed FixedTop Mem MemSpec MemProofs
  Convert ConvertSpec ConvertProofs ConvertCheck.
Import ListNotations.

(* simd<t, a> is a type the library offers on this target; x is its data *)
Lemma full_facts I t a : elem_ok t -> vector_tag a -> abi_valid I t a = true ->
  2 <= abi_size t a <= abi_full_size I t a.
Proof.
  intros Ht Ha Hv. destruct (register_le I t a Ht Ha Hv) as [Hn Heq]. pose proof (elem_ok_pos t Ht).
  split; [lia|].
  assert (E : abi_full_size I t a = vector_type_bytes I t (abi_size t a) / esize t).
  { destruct a as [|m|b|b]; try (exfalso; exact Ha); unfold abi_full_size; rewrite Hv; auto. }
  rewrite E. apply Nat.div_le_lower_bound; [lia|].
  pose proof (vtb_ge I t (abi_size t a)). lia.
Qed.

Lemma shape_facts I t a : simd_type I t a ->
  exists s, simd_shape I t a = Some s /\ dense s /\ ssize s = abi_size t a /\ 1 <= abi_size t a.
Proof.
  intros (HI & Ht & Hv). destruct a as [|n|b|b].
  - exists [(1, 1)]. cbn. repeat split; auto; congruence.
  - cbn [abi_valid] in Hv. btrue.
    destruct (storage_shape_facts I t n HI Ht) as (s & Es & Hd & Hs); [lia|].
    exists s. repeat split; auto; simpl; lia.
  - pose proof (full_facts I t (AVecBuiltin b) Ht Logic.I Hv). unfold simd_shape, abi_shape.
    eexists. split; [reflexivity|]. unfold ssize. cbn [dense map fst list_sum fold_right]. repeat split; try lia. congruence.
  - pose proof (full_facts I t (AVecBltnBtmsk b) Ht Logic.I Hv). unfold simd_shape, abi_shape.
    eexists. split; [reflexivity|]. unfold ssize. cbn [dense map fst list_sum fold_right]. repeat split; try lia. congruence.
Qed.

Lemma simd_facts I t a {A} (x : tuple A) : simd_type I t a -> is_simd I t a x ->
  dense (tshape x) /\ ssize (tshape x) = abi_size t a /\ Forall chunk_ok x /\
  length (telems x) = abi_size t a /\ 1 <= abi_size t a.
Proof.
  intros Ht Hx. destruct (shape_facts I t a Ht) as (s & E & Hd & Hs & H1).
  unfold is_simd in Hx. rewrite Hx in E. apply some_inj in E. subst s.
  pose proof (dense_ok _ Hd). repeat split; auto. rewrite telems_length; auto.
Qed.

(* element by element, from a statement about the element lists *)
Lemma elems_get {A B} (f : A -> B) (x : tuple A) (y : tuple B) n : dense (tshape x) -> dense (tshape y) ->
  ssize (tshape x) = n -> ssize (tshape y) = n -> telems y = map f (telems x) ->
  forall i, i < n -> exists v, t_get x i = Some v /\ t_get y i = Some (f v).
Proof.
  intros Hdx Hdy Hx Hy E i Hi.
  rewrite !get_elems by (auto; lia). rewrite E, nth_error_map.
  assert (Hl : length (telems x) = n) by (rewrite telems_length; auto; apply dense_ok; auto).
  destruct (nth_error (telems x) i) as [v|] eqn:Ev; [exists v; auto|].
  apply nth_error_None in Ev. lia.
Qed.

Section Cast.
Context {A B : Type}.
Variables (cast : A -> B) (zeroA : A) (zeroB : B) (I : isa) (t u : elem) (x86 sse41 cp : bool).
Variables (cx86 : nat -> list (list A) -> list B) (unpack : nat -> nat -> list A -> list (list B)).
Hypothesis Hx : converts_registers cast cx86.
Hypothesis Hu : unpacks_registers cast unpack.
Hypothesis Ht0 : 1 <= esize t.

Notation fconv := (fixed_convert cast zeroA zeroB I t u x86 sse41 cp cx86 unpack).

Lemma fixed_convert_spec n x : fixed_size_type I t n -> fixed_size_type I u n -> is_fixed I t n x ->
  exists y, fconv x = Some y /\ is_fixed I u n y /\ telems y = map cast (telems x).
Proof.
  intros Hft Hfu Hf. pose proof Hft as (HI & Het & Hnt). pose proof Hfu as (_ & Heu & Hnu).
  destruct (fixed_facts I t n x Hft Hf) as (Hd & Hs & Hok & Hl & Hne).
  unfold fixed_convert.
  assert (Hlen : length (tshape x) = length x) by apply map_length.
  pose proof (fixed_ok_all I t u n (uses_unpack x86 sse41 t u) (tshape x) HI Het Heu Hnt ltac:(lia) Hf) as Hall.
  rewrite Hlen in Hall. rewrite Hall. eexists. split; [reflexivity|].
  destruct (fixed_values_spec cast zeroA zeroB I t u x86 sse41 cp cx86 unpack Hx Hu (elem_ok_pos t Het)
    (storage_shape I t) (storage_shape I u) (max_fixed_size I u)
    ltac:(intros m s Hm E; destruct (storage_shape_facts I u m HI Heu Hm) as (s' & E' & ? & ?);
          rewrite E in E'; apply some_inj in E'; subst; auto)
    (length x) x Hall) as [R1 R2]; [lia|auto|].
  split; auto. unfold is_fixed. rewrite Hs in R1. auto.
Qed.

Notation sconv := (static_simd_cast cast zeroA zeroB I t u x86 sse41 cp cx86 unpack).

Lemma valid_fixed e n : arch_ok I -> elem_ok e -> abi_valid I e (AFixed n) = true -> fixed_size_type I e n.
Proof.
  intros HI He H. cbn [abi_valid] in H. btrue.
  split; [auto|split; [auto|lia]].
Qed.

Lemma one_elems {X} (c : chunk X) : telems [c] = firstn (csize c) (creg c).
Proof. unfold telems. cbn [flat_map]. rewrite app_nil_r. reflexivity. Qed.

Lemma single_convert c full n : csize c = n -> n <= length (creg c) -> 1 <= n <= full ->
  telems [Chunk n (vector_convert cast zeroA zeroB x86 cp cx86 full n [creg c])] = map cast (telems [c]) /\
  length (vector_convert cast zeroA zeroB x86 cp cx86 full n [creg c]) = full.
Proof.
  intros Hc Hn Hf. destruct (vector_convert_one cast zeroA zeroB t x86 cp cx86 Hx Ht0 full n (creg c) Hn) as [V1 V2]; [lia|].
  rewrite !one_elems. cbn [csize creg]. rewrite Nat.min_r in V2 by lia. split; auto. rewrite V2, Hc. auto.
Qed.

Lemma register_object (e : elem) (a : abi) X (x : tuple X) : vector_tag a -> is_simd I e a x ->
  exists c, x = [c] /\ csize c = abi_size e a /\ length (creg c) = abi_full_size I e a.
Proof.
  intros Ha H. unfold is_simd, simd_shape in H.
  assert (H' : [abi_shape I e a] = tshape x) by (destruct a; try (exfalso; exact Ha); congruence). clear H.
  destruct x as [|c [|? ?]]; try discriminate.
  exists c. unfold tshape, cshape, abi_shape in H'. cbn [map] in H'. injection H' as H1 H2. auto.
Qed.
Lemma scalar_object (e : elem) X (x : tuple X) : is_simd I e AScalar x -> exists v, x = [Chunk 1 [v]].
Proof.
  unfold is_simd, simd_shape. intros H. injection H as H. destruct x as [|[n r] [|? ?]]; try discriminate.
  unfold tshape, cshape, abi_shape in H. cbn [map csize creg abi_size abi_full_size] in H. injection H as H1 H2.
  destruct r as [|v [|? ?]]; try discriminate. exists v. congruence.
Qed.
Lemma register_is (e : elem) (a : abi) X n (r : list X) : vector_tag a -> n = abi_size e a ->
  length r = abi_full_size I e a -> is_simd I e a [Chunk n r].
Proof.
  intros Ha Hn Hr. unfold is_simd, simd_shape, tshape. cbn [map]. unfold cshape. cbn [csize creg].
  destruct a as [|m|b|b]; try (exfalso; exact Ha); unfold abi_shape; rewrite Hn, Hr; reflexivity.
Qed.

Lemma native_native_spec a b x : simd_type I t a -> simd_type I u b -> vector_tag a -> vector_tag b ->
  abi_size t a = abi_size u b -> is_simd I t a x ->
  exists c y, x = [c] /\ native_convert cast zeroA zeroB x86 cp cx86 c (abi_full_size I u b) = Some y /\
    is_simd I u b [y] /\ telems [y] = map cast (telems x).
Proof.
  intros (HI & Ht & Hva) (_ & Hue & Hvb) Ha Hb Hsz Hxa.
  destruct (register_object t a A x Ha Hxa) as (c & -> & Hc1 & Hc2).
  pose proof (full_facts I t a Ht Ha Hva). pose proof (full_facts I u b Hue Hb Hvb).
  exists c. unfold native_convert.
  destruct (Nat.eqb_spec (abi_full_size I u b) 1); [lia|].
  destruct (Nat.eqb_spec (length (creg c)) 1); [lia|].
  eexists. split; [auto|split; [reflexivity|]].
  destruct (single_convert c (abi_full_size I u b) (csize c)) as [S1 S2]; auto; try lia.
  split; auto. apply register_is; auto. lia.
Qed.

Lemma native_fixed_spec a n x : simd_type I t a -> fixed_size_type I u n -> vector_tag a ->
  abi_size t a = n -> is_simd I t a x ->
  exists c y, x = [c] /\ native_to_fixed cast zeroA zeroB I t u x86 sse41 cp cx86 unpack c = Some y /\
    is_fixed I u n y /\ telems y = map cast (telems x).
Proof.
  intros (HI & Ht & Hva) Hfu Ha Hsz Hxa. pose proof Hfu as (_ & Hue & Hnu).
  destruct (register_object t a A x Ha Hxa) as (c & -> & Hc1 & Hc2).
  pose proof (full_facts I t a Ht Ha Hva). destruct (register_le I t a Ht Ha Hva) as [Hle _].
  exists c. unfold native_to_fixed.
  destruct (Nat.eqb_spec (length (creg c)) 1); [lia|].
  destruct (register_storage I t a HI Ht Ha Hva) as (s & Es & H2).
  rewrite Hc1, Es.
  destruct (storage_shape_facts I u n HI Hue Hnu) as (su & Eu & Hdu & Hsu).
  destruct (storage_shape_facts I t (abi_size t a) HI Ht ltac:(lia)) as (s' & Es' & Hds & Hss).
  rewrite Es in Es'. apply some_inj in Es'. subst s'.
  rewrite Hsz, Eu.
  destruct su as [|[rn rl] su]; [unfold ssize in Hsu; simpl in Hsu; lia|].
  assert (Hfix : forall xt, is_fixed I t n xt -> telems xt = telems [c] ->
    exists y, fconv xt = Some y /\ is_fixed I u n y /\ telems y = map cast (telems [c])).
  { intros xt Hf He. destruct (fixed_convert_spec n xt) as (y & Y1 & Y2 & Y3); auto.
    { split; [auto|split; [auto|lia]]. }
    exists y. rewrite <- He. auto. }
  destruct su as [|p su].
  { eexists. split; [auto|]. split; [destruct s as [|[? ?] [|[? ?] [|? ?]]]; reflexivity|].
    assert (rn = n) by (unfold ssize in Hsu; simpl in Hsu; lia). subst rn.
    destruct Hdu as (? & ? & _).
    destruct (single_convert c rl n) as [S1 S2]; try lia.
    split; auto. unfold is_fixed. rewrite Eu. unfold tshape, cshape. cbn [map csize creg]. rewrite S2. auto. }
  destruct s as [|[n1 l1] [|[n2 l2] [|? ?]]]; try discriminate.
  - cbn [two_at_most] in H2. apply andb_true_iff in H2 as [H2a H2b]. apply Nat.eqb_eq in H2a, H2b.
    destruct (Hfix [c]) as (y & Y1 & Y2 & Y3); auto.
    { unfold is_fixed. rewrite <- Hsz, Es. unfold tshape, cshape. cbn [map]. congruence. }
    exists y. auto.
  - cbn [two_at_most] in H2. apply Nat.leb_le in H2.
    destruct (Nat.leb_spec (l1 + l2) (length (creg c))) as [Hle2|]; [|lia].
    change [Chunk n1 (firstn l1 (creg c)); Chunk n2 (firstn l2 (skipn l1 (creg c)))]
      with (tof_mem [(n1, l1); (n2, l2)] (creg c)).
    assert (Hsl : slanes [(n1, l1); (n2, l2)] <= length (creg c)) by (unfold slanes; simpl; lia).
    destruct (Hfix (tof_mem [(n1, l1); (n2, l2)] (creg c))) as (y & Y1 & Y2 & Y3).
    { unfold is_fixed. rewrite tof_mem_shape by auto. congruence. }
    { rewrite telems_tof_mem by auto. rewrite one_elems. f_equal. lia. }
    exists y. auto.
Qed.

Lemma fixed_native_spec n b x : fixed_size_type I t n -> simd_type I u b -> vector_tag b ->
  n = abi_size u b -> is_fixed I t n x ->
  exists y, fixed_to_native cast zeroA zeroB I t u x86 sse41 cp cx86 unpack x (abi_full_size I u b) = Some y /\
    is_simd I u b [y] /\ telems [y] = map cast (telems x).
Proof.
  intros Hft (_ & Hue & Hvb) Hb Hsz Hf. pose proof Hft as (HI & Ht & Hnt).
  destruct (fixed_facts I t n x Hft Hf) as (Hd & Hs & Hok & Hl & Hne).
  pose proof (full_facts I u b Hue Hb Hvb) as Hfull. destruct (register_le I u b Hue Hb Hvb) as [Hle _].
  unfold fixed_to_native. rewrite Hs. cbv zeta.
  destruct (Nat.eqb_spec (abi_full_size I u b) 1); [lia|].
  assert (Hreg : forall r : list B, length r = abi_full_size I u b -> is_simd I u b [Chunk n r])
    by (intros; apply register_is; auto).
  destruct x as [|c x]; [congruence|]. pose proof Hd as (Hc1 & Hc2 & Hc3 & Hc4).
  destruct x as [|c2 x].
  { assert (csize c = n) by (change (tshape [c]) with [cshape c] in Hs; unfold ssize, cshape in Hs; simpl in Hs; lia).
    destruct (Nat.eqb_spec (length (creg c)) 1); [lia|].
    destruct (single_convert c (abi_full_size I u b) n) as [S1 S2]; auto; try lia.
    eexists. split; [reflexivity|]. rewrite H. split; auto. }
  set (xs := c :: c2 :: x) in *.
  destruct (forallb (fun p => (fst p =? csize c) && (snd p =? length (creg c))) (tshape xs)) eqn:Eh.
  { apply forallb_repeat in Eh. rewrite (map_length cshape xs : length (tshape xs) = length xs) in Eh.
    pose proof (storage_registers I t n (tshape xs) HI Ht Hnt Hf) as Hsl.
    assert (Hcount : length xs * csize c = n) by (rewrite Eh in Hs; rewrite (ssize_repeat t Ht0) in Hs; auto).
    assert (Hfit : length (creg c) = 1 \/ vector_convert_ok (abi_full_size I u b) (csize c) (length xs) = true).
    { unfold xs in Hsl. change (tshape (c :: c2 :: x)) with ((csize c, length (creg c)) :: tshape (c2 :: x)) in Hsl.
      cbn [same_lanes] in Hsl. change ((csize c, length (creg c)) :: tshape (c2 :: x)) with (tshape xs) in Hsl.
      apply orb_true_iff in Hsl as [Hsl|Hsl]; [left; apply Nat.eqb_eq; auto|right].
      unfold vector_convert_ok. apply orb_true_iff. right. apply andb_true_iff. split.
      - apply Nat.leb_le. apply Nat.leb_le in Hsl. unfold tshape in Hsl. rewrite map_length in Hsl. auto.
      - apply Nat.leb_le. lia. }
    destruct (many_to_one_spec cast zeroA zeroB t x86 cp cx86 Hx Ht0 n (abi_full_size I u b) xs (csize c) (length (creg c)) (length xs))
      as [M1 M2]; auto; try lia.
    unfold many_to_one in M1, M2. change (hd (Chunk 0 []) xs) with c in M1, M2.
    destruct (Nat.eqb_spec (length (creg c)) 1) as [E1|E1].
    - eexists. split; [reflexivity|].
      assert (Hlm : length (flat_map creg xs) = n).
      { change (flat_map creg xs) with (tmem xs). rewrite tmem_length. rewrite Eh.
        assert (csize c = 1) by lia. rewrite E1, H in *. clear - Hcount.
        rewrite <- Hcount. generalize (length xs). intros k. induction k; auto. cbn [repeat]. rewrite slanes_cons, IHk. simpl. lia. }
      rewrite Hlm in M1, M2. change (tmem xs) with (flat_map creg xs). split; auto.
      apply Hreg. unfold tshape in M1. cbn [map] in M1. unfold cshape in M1. cbn [csize creg] in M1. congruence.
    - destruct Hfit as [?|Hfit]; [lia|]. rewrite Hfit. eexists. split; [reflexivity|]. split; auto.
      apply Hreg. unfold tshape in M1. cbn [map] in M1. unfold cshape in M1. cbn [csize creg] in M1. congruence. }
  assert (Hgen : exists y, Some (Chunk n (vector_convert cast zeroA zeroB x86 cp cx86 (abi_full_size I u b) n
      [map (fun i => match t_get_const xs i with Some v => v | None => zeroA end) (seq 0 n)
       ++ repeat zeroA (lanes_of I t n - n)])) = Some y /\ is_simd I u b [y] /\ telems [y] = map cast (telems xs)).
  { set (xv := map _ (seq 0 n) ++ repeat zeroA (lanes_of I t n - n)).
    assert (Hxv : firstn n xv = telems xs).
    { unfold xv. rewrite firstn_app_le by (rewrite map_length, seq_length; lia).
      rewrite firstn_all2 by (rewrite map_length, seq_length; lia).
      pose proof (cast_at_elems (fun v : A => v) zeroA zeroA xs Hok) as Hc. rewrite Hl in Hc. rewrite map_id in Hc.
      rewrite <- Hc. apply map_ext. intros i. unfold cast_at. auto. }
    assert (Hlx : n <= length xv) by (unfold xv; rewrite app_length, map_length, seq_length; lia).
    destruct (single_convert (Chunk n xv) (abi_full_size I u b) n) as [S1 S2]; auto; try lia.
    eexists. split; [reflexivity|]. split; [apply Hreg; auto|].
    cbn [creg] in S1. rewrite S1, one_elems. cbn [csize creg]. rewrite Hxv. auto. }
  destruct (storage_shape I u n) as [su|] eqn:Esu; [|exact Hgen].
  destruct su as [|p [|? ?]]; try exact Hgen.
  assert (Hfu : fixed_size_type I u n) by (split; [auto|split; [auto|lia]]).
  destruct (fixed_convert_spec n xs Hft Hfu Hf) as (y & Y1 & Y2 & Y3). rewrite Y1.
  unfold is_fixed in Y2. rewrite Esu in Y2. apply some_inj in Y2.
  destruct y as [|d [|? ?]]; try discriminate. exists d. split; auto. split; auto.
  destruct (register_storage I u b HI Hue Hb Hvb) as (s & E1 & E2). rewrite <- Hsz, Esu in E1. apply some_inj in E1. subst s.
  destruct p as [m l]. cbn [two_at_most] in E2. apply andb_true_iff in E2 as [E2 E3]. apply Nat.eqb_eq in E2, E3.
  unfold tshape in Y2. cbn [map] in Y2. unfold cshape in Y2. injection Y2 as Y2a Y2b.
  destruct d as [dn dr]. cbn [csize creg] in *. replace dn with n by lia. apply Hreg. congruence.
Qed.

Lemma cast_spec a b x : simd_type I t a -> simd_type I u b -> abi_size t a = abi_size u b -> is_simd I t a x ->
  exists y, sconv a b x = Some y /\ is_simd I u b y /\ telems y = map cast (telems x).
Proof.
  intros Hta Hub Hsz Hxa. pose proof Hta as (HI & Ht & Hva). pose proof Hub as (_ & Hue & Hvb).
  assert (Hcases : forall (e : elem) (c : abi), vector_tag c -> elem_ok e -> abi_valid I e c = true -> abi_size e c <> 1).
  { intros e c Hc He Hv. pose proof (full_facts I e c He Hc Hv). lia. }
  assert (Hscal : forall v : A, is_simd I u AScalar [Chunk 1 [cast v]]) by reflexivity.
  assert (Hone : forall n, abi_valid I u (AFixed n) = true -> n = 1 -> forall v : B, is_simd I u (AFixed n) [Chunk 1 [v]]).
  { intros n Hn -> v. destruct (valid_fixed u 1 HI Hue Hn) as (_ & _ & ?).
    unfold is_simd, simd_shape. rewrite one_storage by (auto; lia). reflexivity. }
  assert (Hnat : vector_tag a -> vector_tag b -> exists y, sconv a b x = Some y /\ is_simd I u b y /\ telems y = map cast (telems x)).
  { intros Ha Hb. destruct (native_native_spec a b x) as (c & y & -> & E1 & E2 & E3); auto.
    exists [y]. split; auto. unfold static_simd_cast. rewrite E1. destruct a, b; try (exfalso; auto; fail); reflexivity. }
  assert (Hnf : forall n, b = AFixed n -> vector_tag a -> exists y, sconv a b x = Some y /\ is_simd I u b y /\ telems y = map cast (telems x)).
  { intros n -> Ha. destruct (native_fixed_spec a n x) as (c & y & -> & E1 & E2 & E3); auto.
    { apply valid_fixed; auto. }
    exists y. split; auto. unfold static_simd_cast. rewrite E1. destruct a; try (exfalso; auto; fail); reflexivity. }
  assert (Hfn : forall n, a = AFixed n -> vector_tag b -> exists y, sconv a b x = Some y /\ is_simd I u b y /\ telems y = map cast (telems x)).
  { intros n -> Hb. destruct (fixed_native_spec n b x) as (y & E1 & E2 & E3); auto.
    { apply valid_fixed; auto. }
    exists [y]. split; auto. unfold static_simd_cast. rewrite E1. destruct b; try (exfalso; auto; fail); reflexivity. }
  destruct a as [|n|ba|ba].
  - destruct (scalar_object t A x Hxa) as (v & ->). cbn [abi_size] in Hsz.
    destruct b as [|m|bb|bb].
    + eexists. split; [reflexivity|]. split; auto.
    + eexists. split; [reflexivity|]. split; auto.
    + exfalso. apply (Hcases u (AVecBuiltin bb) Logic.I Hue Hvb). auto.
    + exfalso. apply (Hcases u (AVecBltnBtmsk bb) Logic.I Hue Hvb). auto.
  - destruct b as [|m|bb|bb]; try (eapply Hfn; eauto; exact Logic.I; fail).
    + cbn [abi_size] in Hsz. subst n. unfold is_simd, simd_shape in Hxa.
      destruct (valid_fixed t 1 HI Ht Hva) as (_ & _ & ?). rewrite one_storage in Hxa by (auto; lia).
      apply (scalar_object t) in Hxa as (v & ->). eexists. split; [reflexivity|]. split; auto.
    + cbn [abi_size] in Hsz. subst m. apply fixed_convert_spec; auto; apply valid_fixed; auto.
  - destruct b as [|m|bb|bb]; try (apply Hnat; exact Logic.I); [|eapply Hnf; eauto; exact Logic.I].
    exfalso. apply (Hcases t (AVecBuiltin ba) Logic.I Ht Hva). auto.
  - destruct b as [|m|bb|bb]; try (apply Hnat; exact Logic.I); [|eapply Hnf; eauto; exact Logic.I].
    exfalso. apply (Hcases t (AVecBltnBtmsk ba) Logic.I Ht Hva). auto.
Qed.
End Cast.

Lemma c17_cast {A B} (cast : A -> B) zeroA zeroB I t u x86 sse41 cp cx86 unpack a b x :
  converts_registers cast cx86 -> unpacks_registers cast unpack ->
  simd_type I t a -> simd_type I u b -> abi_size t a = abi_size u b -> is_simd I t a x ->
  exists y, static_simd_cast cast zeroA zeroB I t u x86 sse41 cp cx86 unpack a b x = Some y /\
    is_simd I u b y /\
    forall i, i < abi_size u b -> exists v, t_get x i = Some v /\ t_get y i = Some (cast v).
Proof.
  intros Hx Hu Ht Hub Hsz Hxa.
  destruct (cast_spec cast zeroA zeroB I t u x86 sse41 cp cx86 unpack Hx Hu) with (a := a) (b := b) (x := x)
    as (y & E & Hy & He); auto.
  { destruct Ht as (_ & Ht & _). apply elem_ok_pos; auto. }
  exists y. split; auto. split; auto.
  destruct (simd_facts I t a x Ht Hxa) as (D1 & S1 & _). destruct (simd_facts I u b y Hub Hy) as (D2 & S2 & _).
  apply elems_get; auto. congruence.
Qed.

Lemma abi_eqb_spec a b : abi_eqb a b = true -> a = b.
Proof. destruct a, b; simpl; try discriminate; auto; intros H; apply Nat.eqb_eq in H; congruence. Qed.

Lemma zeros_facts {A} (zero : A) s : dense s ->
  let z := map (fun p => Chunk (fst p) (repeat zero (snd p))) s in
  tshape z = s /\ tmem z = repeat zero (slanes s) /\ telems z = repeat zero (ssize s).
Proof.
  induction s as [|[n l] s IH]; [repeat split|]. intros (H1 & H2 & _ & H4). destruct (IH H4) as (E1 & E2 & E3).
  cbv zeta in *. cbn [map fst snd]. rewrite ssize_cons, slanes_cons. cbn [fst snd]. rewrite !repeat_app, <- E2, <- E3.
  split; [|split; [reflexivity|]].
  - unfold tshape in *. cbn [map]. rewrite E1. unfold cshape. cbn [csize creg]. rewrite repeat_length. reflexivity.
  - unfold telems at 1. cbn [flat_map]. unfold celems at 1. cbn [csize creg]. f_equal.
    replace l with (n + (l - n)) by lia. rewrite repeat_app, firstn_app, repeat_length, Nat.sub_diag, app_nil_r.
    apply firstn_all2. rewrite repeat_length. lia.
Qed.

Lemma one_sizeof p : 1 <= snd p -> ssizeof [p] = snd p.
Proof.
  destruct p as [n l]. cbn [ssizeof snd salign map fold_right]. intros H. unfold round_up, div_roundup.
  rewrite Nat.div_1_r. rewrite (Nat.max_l l 1) by lia.
  replace (l + 1 - 1) with l by lia. rewrite Nat.mul_1_r, Nat.add_0_r.
  replace (l + l - 1) with ((l - 1) + 1 * l) by lia. rewrite Nat.div_add by lia. rewrite Nat.div_small by lia. lia.
Qed.

Lemma single_size p : ssize [p] = fst p.
Proof. unfold ssize. simpl. lia. Qed.

Lemma c17_resize {A} I t (zero : A) a b x : simd_type I t a -> simd_type I t b -> is_simd I t a x ->
  exists y, resizing_simd_cast I t zero a b x = Some y /\ is_simd I t b y /\
    forall i, i < abi_size t b -> t_get y i = if i <? abi_size t a then t_get x i else Some zero.
Proof.
  intros Ha Hb Hx. destruct (simd_facts I t a x Ha Hx) as (Dx & Sx & Ox & Lx & Nx).
  destruct (shape_facts I t b Hb) as (s & Es & Ds & Ss & Ns).
  destruct (zeros_facts zero s Ds) as (Z1 & Z2 & Z3).
  unfold resizing_simd_cast. rewrite Es. cbv zeta in *.
  set (zeros := map _ s) in *.
  destruct (abi_eqb b a) eqn:Eab.
  { apply abi_eqb_spec in Eab. subst b. exists x. split; auto. split; auto.
    intros i Hi. apply Nat.ltb_lt in Hi. rewrite Hi. auto. }
  assert (Hget : forall i, i < abi_size t a -> t_get x i = Some (nth i (telems x) zero)).
  { intros i Hi. rewrite get_elems by (auto; lia). apply nth_error_nth'. lia. }
  destruct (Nat.eqb_spec (abi_size t a) 1) as [E1|E1].
  { rewrite Hget by lia. set (v := nth 0 (telems x) zero).
    destruct (set_elems zeros 0 v) as (y & Y1 & Y2 & Y3); [rewrite Z1; auto|rewrite Z1; lia|].
    exists y. split; auto. rewrite Z1 in Y2. split; [unfold is_simd; congruence|].
    intros i Hi. rewrite get_elems by (rewrite Y2; auto; lia).
    rewrite Y3, nth_error_upd by (rewrite Z3, repeat_length; lia). rewrite E1.
    destruct (Nat.ltb_spec i 1) as [H1|H1].
    - assert (i = 0) by lia. subst i. rewrite Hget by lia. reflexivity.
    - destruct (Nat.eqb_spec i 0); [lia|]. rewrite Z3. apply nth_error_repeat. lia. }
  destruct (Nat.eqb_spec (abi_size t b) 1) as [E2|E2].
  { rewrite Hget by lia. eexists. split; [reflexivity|]. set (v := nth 0 (telems x) zero).
    assert (Hs : tshape (fs_broadcast s v) = s) by (apply t_generate_spec; intros; apply repeat_length).
    split; [unfold is_simd; congruence|]. intros i Hi. assert (i = 0) by lia. subst i.
    destruct (Nat.ltb_spec 0 (abi_size t a)); [|lia]. rewrite Hget by lia.
    rewrite get_elems by (rewrite Hs; auto; lia). unfold fs_broadcast. rewrite broadcast_elems by (apply dense_le; auto).
    rewrite nth_error_repeat by lia. reflexivity. }
  destruct ((ssizeof s =? ssizeof (tshape x)) && negb (is_fixed_abi a)) eqn:E3.
  { apply andb_true_iff in E3 as [E3 E4]. apply Nat.eqb_eq in E3.
    assert (Va : vector_tag a) by (destruct a; simpl in *; auto; lia || discriminate).
    destruct Ha as (HI & Ht & Hva). destruct Hb as (_ & _ & Hvb).
    destruct (register_object I t a A x Va Hx) as (c & -> & Hc1 & Hc2).
    pose proof (full_facts I t a Ht Va Hva) as Hfa.
    assert (Esz : ssizeof s = length (creg c)) by (rewrite E3; apply one_sizeof; simpl; lia).
    assert (Hone : exists p, s = [p]).
    { destruct b as [|m|bb|bb]; cbn [simd_shape] in Es.
      1,3,4: apply some_inj in Es; subst s; eauto.
      cbn [abi_valid] in Hvb. btrue.
      apply (fixed_not_register I t m s a); auto; try lia. }
    destruct Hone as ([n l] & ->). rewrite single_size in Ss. cbn [fst] in Ss. subst n. destruct Ds as (Ds1 & Ds2 & _).
    rewrite one_sizeof in Esz by (simpl; lia). cbn [snd] in Esz. subst l.
    eexists. split; [reflexivity|]. unfold is_simd. rewrite Es. split.
    { unfold tshape, cshape. cbn [map csize creg]. unfold reg_generator. rewrite map_length, seq_length. auto. }
    intros i Hi. unfold t_get, chunk_read. cbn [creg]. unfold reg_generator.
    rewrite nth_error_map, (nth_error_nth' _ 0) by (rewrite seq_length; lia). rewrite seq_nth by lia.
    cbn [option_map Nat.add]. rewrite Hc1. destruct (i <? abi_size t a); auto.
    symmetry. apply nth_error_nth'. lia. }
  set (k := Nat.min (abi_size t b) (abi_size t a)).
  eexists. split; [reflexivity|]. set (mm := firstn k (obj_mem zero x) ++ skipn k (tmem zeros)).
  pose proof (dense_lanes _ Dx). pose proof (dense_lanes _ Ds).
  assert (Ho : firstn k (obj_mem zero x) = firstn k (telems x)).
  { unfold obj_mem. rewrite firstn_app, tmem_length.
    replace (k - slanes (tshape x)) with 0 by lia. rewrite app_nil_r.
    rewrite <- (dense_mem x) by auto. rewrite firstn_firstn. f_equal. lia. }
  assert (Hfl : length (firstn k (telems x)) = k) by (rewrite firstn_length; lia).
  assert (Hm : length mm = slanes s).
  { unfold mm. rewrite app_length, Ho, Hfl, skipn_length, Z2, repeat_length. lia. }
  assert (Hs : tshape (tof_mem s mm) = s) by (apply tof_mem_shape; lia).
  split; [unfold is_simd; congruence|]. intros i Hi.
  rewrite get_elems by (rewrite Hs; auto; lia). rewrite telems_tof_mem by (auto; lia).
  rewrite nth_error_firstn by lia. unfold mm. rewrite Ho.
  destruct (Nat.ltb_spec i (abi_size t a)) as [Hia|Hia].
  - rewrite nth_error_app1 by lia. rewrite nth_error_firstn by lia. rewrite Hget by lia. apply nth_error_nth'. lia.
  - rewrite nth_error_app2 by lia. rewrite Hfl, Z2.
    replace (slanes s) with (k + (slanes s - k)) by lia. rewrite repeat_app, skipn_app, repeat_length, Nat.sub_diag.
    rewrite skipn_all2 by (rewrite repeat_length; lia). cbn [app skipn]. apply nth_error_repeat. lia.
Qed.

Lemma c17_fixed {A} I t (zero : A) a x : simd_type I t a -> is_simd I t a x ->
  exists y, to_fixed_size I t zero a x = Some y /\ is_fixed I t (abi_size t a) y /\
    forall i, i < abi_size t a -> t_get y i = t_get x i.
Proof.
  intros Ha Hx. destruct (simd_facts I t a x Ha Hx) as (Dx & Sx & Ox & Lx & Nx).
  pose proof Ha as (HI & Ht & Hv).
  assert (Hf : fixed_size_type I t (abi_size t a)).
  { split; [auto|split; [auto|split; [auto|]]]. destruct a as [|n|b|b].
    - unfold max_fixed_size. repeat match goal with |- context [if ?c then _ else _] => destruct c end; simpl; lia.
    - cbn [abi_valid] in Hv. btrue. auto.
    - apply (register_le I t (AVecBuiltin b) Ht Logic.I Hv).
    - apply (register_le I t (AVecBltnBtmsk b) Ht Logic.I Hv). }
  destruct Hf as (_ & _ & Hn). destruct (storage_shape_facts I t (abi_size t a) HI Ht Hn) as (s & Es & Hd & Hs).
  unfold to_fixed_size. rewrite Es. eexists. split; [reflexivity|].
  set (g := fun i : nat => match t_get x i with Some v => v | None => zero end).
  destruct (c05_generator I t (abi_size t a) zero g s) as [G1 G2]; auto.
  { split; auto. }
  split; auto. intros i Hi. destruct (G2 i Hi) as (G & _). rewrite G. unfold g.
  rewrite get_elems by (auto; lia). rewrite (nth_error_nth' _ zero) by lia. auto.
Qed.

Lemma c17_array {A} I t x86 (zero : A) tmp n b x : fixed_size_type I t n -> is_fixed I t n x ->
  simd_type I t b -> is_fixed_abi b = false -> abi_size t b = n ->
  exists y, through_array I t x86 zero tmp b x = Some y /\ is_simd I t b y /\
    forall i, i < n -> t_get y i = t_get x i.
Proof.
  intros Hf Hx Hb Hnf Hsz. pose proof Hf as (HI & Ht & Hn).
  destruct (shape_facts I t b Hb) as (s & Es & Ds & Ss & _).
  assert (Es' : s = [abi_shape I t b]) by (destruct b; simpl in *; congruence).
  assert (Hfull : 1 <= abi_size t b <= abi_full_size I t b).
  { subst s. destruct Ds as (? & ? & _). auto. }
  destruct (fixed_facts I t n x Hf Hx) as (Dx & Sx & Ox & Lx & _).
  unfold through_array. rewrite Hsz.
  set (m0 := fun j : nat => if j <? n then Some (tmp j) else None).
  destruct (c11_fixed_store x86 I t t n true (fun v : A => v) x m0 Hf Ht Hx) as (m & E & W).
  { intros j Hj. unfold m0. unfold below in Hj. rewrite Hj. congruence. }
  rewrite E.
  assert (Hm : forall j, j < n -> m j = t_get x j).
  { intros j Hj. rewrite W. unfold below. apply Nat.ltb_lt in Hj. rewrite Hj. destruct (t_get x j); auto. }
  destruct (reg_load_spec I t true (fun v : A => v) zero zero n (abi_full_size I t b) m) as (r & R1 & R2 & R3); auto; try lia.
  { intros j Hj. unfold below in Hj. apply Nat.ltb_lt in Hj. rewrite Hm by auto.
    rewrite get_elems by (auto; lia). rewrite nth_error_Some. lia. }
  rewrite R1. eexists. split; [reflexivity|]. split.
  - unfold is_simd. rewrite Es, Es'. unfold tshape, cshape, abi_shape. cbn [map csize creg]. congruence.
  - intros i Hi. unfold t_get at 1. unfold chunk_read. cbn [creg].
    rewrite R3 by auto. rewrite <- Hm by auto. destruct (m i); auto.
Qed.
