(* Casts in terms of operator[], for conversions of registers that are only known
   to work for the calls that are made (see ConvertRel.v). *)
From Coq Require Import List Arith Bool Lia.
From Verif Require Import Prelude BitMask BitMaskProofs Abi AbiSpec AbiProofs Fixed FixedSpec FixedProofs
  FixedApply Targets Profile FixedStorage FixedMixed FixedTop Mem MemSpec MemProofs
  Convert ConvertSpec ConvertProofs ConvertCheck ConvertTop ConvertRel.
Import ListNotations.

Section Cast.
Context {A B : Type}.
Variables (cast : A -> B) (zeroA : A) (zeroB : B) (I : isa) (t u : elem) (x86 sse41 cp : bool).
Variables (cx86 : nat -> list (list A) -> list B) (unpack : nat -> nat -> list A -> list (list B)).
Variable R : A -> B -> Prop.
Hypothesis HR : forall v, R v (cast v).
Variable dom domu : nat -> nat -> nat -> Prop.
Hypothesis Hx : forall full l k xs, dom full l (2 ^ k) -> 1 <= full -> length xs = 2 ^ k -> Forall (fun x => length x = l) xs ->
    length (cx86 full xs) = full /\
    forall i d e, i < full -> i < length (concat xs) -> R (nth i (concat xs) d) (nth i (cx86 full xs) e).
Hypothesis Hu : forall n lanes reg, domu n lanes (length reg) -> n <= length reg -> 1 <= lanes ->
    length (unpack n lanes reg) = n / lanes /\
    Forall (fun r => length r = lanes) (unpack n lanes reg) /\
    Forall2 R (firstn (n / lanes * lanes) reg) (concat (unpack n lanes reg)).
Hypothesis Ht0 : 1 <= esize t.
Variables gt gu : nat * nat -> Prop.
Hypothesis Hlen : x86 = true -> forall n l k, gt (n, l) -> 1 <= k <= l -> lanes_of I t k <= l.
Hypothesis Hlen16 : x86 = true -> forall k, 1 <= k -> k * esize t <= 16 -> lanes_of I t k * esize t <= 16.
Hypothesis D1 : x86 = true -> cp = false -> forall n rn rl k, gt (n, n) -> gu (rn, rl) -> k * n = rn -> 1 <= k <= 16 -> 2 <= n \/ k = 1 /\ 2 <= rl ->
  dom rl n (bit_ceil k).
Hypothesis D2 : x86 = true -> cp = false -> forall n l mn ml, gt (n, l) -> gu (mn, ml) -> ml < n -> 2 <= ml -> dom ml ml 1.
Hypothesis D3 : x86 = true -> cp = false -> forall n l mn ml, gt (n, l) -> gu (mn, ml) -> mn < n -> lanes_of I t mn = mn -> 2 <= ml ->
  dom ml mn 1.
(* no object has more than nn elements *)
Variable nn : nat.
Hypothesis D4 : uses_unpack x86 sse41 t u = true -> forall m rn rl p rr n l, 1 <= m <= Nat.min (max_fixed_size I u) nn ->
  storage_shape I u m = Some ((rn, rl) :: p :: rr) -> gt (n, l) -> rn < n -> 2 <= rl -> domu n rl l.
Hypothesis D5 : x86 = true -> cp = false -> forall n cn cl s full, 1 <= n <= max_fixed_size I t ->
  storage_shape I t n = Some ((cn, cl) :: s) ->
  forallb (fun p => (fst p =? cn) && (snd p =? cl)) ((cn, cl) :: s) = false -> lanes_of I t n = n -> dom full n 1.
Hypothesis Gt : forall m s, 1 <= m <= max_fixed_size I t -> storage_shape I t m = Some s -> Forall gt s.
Hypothesis Gu : forall m s, 1 <= m <= max_fixed_size I u -> m <= nn -> storage_shape I u m = Some s -> Forall gu s.
Hypothesis Gta : forall a, vector_tag a -> abi_valid I t a = true -> gt (abi_size t a, abi_full_size I t a).
Hypothesis Gua : forall b, vector_tag b -> abi_valid I u b = true -> abi_size u b <= nn -> gu (abi_size u b, abi_full_size I u b).

Notation fconv := (fixed_convert cast zeroA zeroB I t u x86 sse41 cp cx86 unpack).

Lemma rel_fixed_convert n x : n <= nn -> fixed_size_type I t n -> fixed_size_type I u n -> is_fixed I t n x ->
  exists y, fconv x = Some y /\ is_fixed I u n y /\ Forall2 R (telems x) (telems y).
Proof.
  intros Hnn Hft Hfu Hf. pose proof Hft as (HI & Het & Hnt). pose proof Hfu as (_ & Heu & Hnu).
  destruct (fixed_facts I t n x Hft Hf) as (Hd & Hs & Hok & Hl & Hne).
  unfold fixed_convert.
  assert (Hlenx : length (tshape x) = length x) by apply map_length.
  pose proof (fixed_ok_all I t u n (uses_unpack x86 sse41 t u) (tshape x) HI Het Heu Hnt ltac:(lia) Hf) as Hall.
  rewrite Hlenx in Hall. rewrite Hall. eexists. split; [reflexivity|].
  destruct (rel_fixed_values cast zeroA zeroB I t u x86 sse41 cp cx86 unpack R HR dom domu Hx Hu (elem_ok_pos t Het)
    gt gu Hlen Hlen16 D1 D2 D3
    (storage_shape I t) (storage_shape I u) (Nat.min (max_fixed_size I u) nn)
    ltac:(intros m s Hm E; destruct (storage_shape_facts I u m HI Heu ltac:(lia)) as (s' & E' & ? & ?);
          pose proof (Gu m s ltac:(lia) ltac:(lia) E); rewrite E in E'; apply some_inj in E'; subst; auto)
    D4 (length x) x Hall) as [R1 R2]; [lia|auto|apply (Gt n); auto|].
  split; auto. unfold is_fixed. rewrite Hs in R1. auto.
Qed.

Notation sconv := (static_simd_cast cast zeroA zeroB I t u x86 sse41 cp cx86 unpack).

Lemma rel_single c full n : csize c = n -> n <= length (creg c) -> 1 <= n <= full ->
  (x86 = true -> cp = false -> n = length (creg c) -> dom full n 1) ->
  Forall2 R (telems [c]) (telems [Chunk n (vector_convert cast zeroA zeroB x86 cp cx86 full n [creg c])]) /\
  length (vector_convert cast zeroA zeroB x86 cp cx86 full n [creg c]) = full.
Proof.
  intros Hc Hn Hf Hdom.
  destruct (rel_one cast zeroA zeroB t x86 cp cx86 R HR dom Hx Ht0 full n (creg c) Hn) as [V1 V2]; auto; [lia|].
  rewrite !one_elems. cbn [csize creg]. rewrite Nat.min_r in V2 by lia. split; auto. rewrite Hc. auto.
Qed.

Lemma rel_native_native a b x : abi_size u b <= nn -> simd_type I t a -> simd_type I u b -> vector_tag a -> vector_tag b ->
  abi_size t a = abi_size u b -> is_simd I t a x ->
  exists c y, x = [c] /\ native_convert cast zeroA zeroB x86 cp cx86 c (abi_full_size I u b) = Some y /\
    is_simd I u b [y] /\ Forall2 R (telems x) (telems [y]).
Proof.
  intros Hnn (HI & Ht & Hva) (_ & Hue & Hvb) Ha Hb Hsz Hxa.
  destruct (register_object I t a A x Ha Hxa) as (c & -> & Hc1 & Hc2).
  pose proof (full_facts I t a Ht Ha Hva). pose proof (full_facts I u b Hue Hb Hvb).
  exists c. unfold native_convert.
  destruct (Nat.eqb_spec (abi_full_size I u b) 1); [lia|].
  destruct (Nat.eqb_spec (length (creg c)) 1); [lia|].
  eexists. split; [auto|split; [reflexivity|]].
  destruct (rel_single c (abi_full_size I u b) (csize c)) as [S1 S2]; auto; try lia.
  { intros X1 X2 X3. apply (D1 X1 X2 (csize c) (abi_size u b) (abi_full_size I u b) 1); auto; try lia.
    pose proof (Gta a Ha Hva). replace (csize c, csize c) with (abi_size t a, abi_full_size I t a) by congruence. auto. }
  split; auto. apply register_is; auto. lia.
Qed.

Lemma rel_native_fixed a n x : n <= nn -> simd_type I t a -> fixed_size_type I u n -> vector_tag a ->
  abi_size t a = n -> is_simd I t a x ->
  exists c y, x = [c] /\ native_to_fixed cast zeroA zeroB I t u x86 sse41 cp cx86 unpack c = Some y /\
    is_fixed I u n y /\ Forall2 R (telems x) (telems y).
Proof.
  intros Hnn (HI & Ht & Hva) Hfu Ha Hsz Hxa. pose proof Hfu as (_ & Hue & Hnu).
  destruct (register_object I t a A x Ha Hxa) as (c & -> & Hc1 & Hc2).
  pose proof (full_facts I t a Ht Ha Hva). destruct (register_le I t a Ht Ha Hva) as [Hle _].
  exists c. unfold native_to_fixed.
  destruct (Nat.eqb_spec (length (creg c)) 1); [lia|].
  destruct (register_storage I t a HI Ht Ha Hva) as (s & Es & H2).
  rewrite Hc1, Es.
  destruct (storage_shape_facts I u n HI Hue Hnu) as (su & Eu & Hdu & Hsu).
  destruct (storage_shape_facts I t (abi_size t a) HI Ht ltac:(lia)) as (s' & Es' & Hds & Hss).
  rewrite Es in Es'. apply some_inj in Es'. subst s'.
  rewrite Hsz, Eu.
  destruct su as [|[rn rl] su]; [unfold ssize in Hsu; simpl in Hsu; lia|].
  assert (Hfix : forall xt, is_fixed I t n xt -> telems xt = telems [c] ->
    exists y, fconv xt = Some y /\ is_fixed I u n y /\ Forall2 R (telems [c]) (telems y)).
  { intros xt Hf He. destruct (rel_fixed_convert n xt) as (y & Y1 & Y2 & Y3); auto.
    { split; [auto|split; [auto|lia]]. }
    exists y. rewrite <- He. auto. }
  destruct su as [|p su].
  { eexists. split; [auto|]. split; [destruct s as [|[? ?] [|[? ?] [|? ?]]]; reflexivity|].
    assert (rn = n) by (unfold ssize in Hsu; simpl in Hsu; lia). subst rn.
    destruct Hdu as (? & ? & _).
    destruct (rel_single c rl n) as [S1 S2]; try lia.
    { intros X1 X2 X3. apply (D1 X1 X2 n n rl 1); auto; try lia.
      - pose proof (Gta a Ha Hva). replace (n, n) with (abi_size t a, abi_full_size I t a) by congruence. auto.
      - pose proof (Gu n _ Hnu Hnn Eu) as Hg. inversion Hg; auto. }
    split; auto. unfold is_fixed. rewrite Eu. unfold tshape, cshape. cbn [map csize creg]. rewrite S2. auto. }
  destruct s as [|[n1 l1] [|[n2 l2] [|? ?]]]; try discriminate.
  - cbn [two_at_most] in H2. apply andb_true_iff in H2 as [H2a H2b]. apply Nat.eqb_eq in H2a, H2b.
    destruct (Hfix [c]) as (y & Y1 & Y2 & Y3); auto.
    { unfold is_fixed. rewrite <- Hsz, Es. unfold tshape, cshape. cbn [map]. congruence. }
    exists y. auto.
  - cbn [two_at_most] in H2. apply Nat.leb_le in H2.
    destruct (Nat.leb_spec (l1 + l2) (length (creg c))) as [Hle2|]; [|lia].
    change [Chunk n1 (firstn l1 (creg c)); Chunk n2 (firstn l2 (skipn l1 (creg c)))]
      with (tof_mem [(n1, l1); (n2, l2)] (creg c)).
    assert (Hsl : slanes [(n1, l1); (n2, l2)] <= length (creg c)) by (unfold slanes; simpl; lia).
    destruct (Hfix (tof_mem [(n1, l1); (n2, l2)] (creg c))) as (y & Y1 & Y2 & Y3).
    { unfold is_fixed. rewrite tof_mem_shape by auto. congruence. }
    { rewrite telems_tof_mem by auto. rewrite one_elems. f_equal. lia. }
    exists y. auto.
Qed.

Lemma rel_fixed_native n b x : n <= nn -> fixed_size_type I t n -> simd_type I u b -> vector_tag b ->
  n = abi_size u b -> is_fixed I t n x ->
  exists y, fixed_to_native cast zeroA zeroB I t u x86 sse41 cp cx86 unpack x (abi_full_size I u b) = Some y /\
    is_simd I u b [y] /\ Forall2 R (telems x) (telems [y]).
Proof.
  intros Hnn Hft (_ & Hue & Hvb) Hb Hsz Hf. pose proof Hft as (HI & Ht & Hnt).
  destruct (fixed_facts I t n x Hft Hf) as (Hd & Hs & Hok & Hl & Hne).
  pose proof (full_facts I u b Hue Hb Hvb) as Hfull. destruct (register_le I u b Hue Hb Hvb) as [Hle _].
  unfold fixed_to_native. rewrite Hs. cbv zeta.
  destruct (Nat.eqb_spec (abi_full_size I u b) 1); [lia|].
  assert (Hreg : forall r : list B, length r = abi_full_size I u b -> is_simd I u b [Chunk n r])
    by (intros; apply register_is; auto).
  destruct x as [|c x]; [congruence|]. pose proof Hd as (Hc1 & Hc2 & Hc3 & Hc4).
  destruct x as [|c2 x].
  { assert (csize c = n) by (change (tshape [c]) with [cshape c] in Hs; unfold ssize, cshape in Hs; simpl in Hs; lia).
    destruct (Nat.eqb_spec (length (creg c)) 1); [lia|].
    destruct (rel_single c (abi_full_size I u b) n) as [S1 S2]; auto; try lia.
    { intros X1 X2 X3. apply (D1 X1 X2 n (abi_size u b) (abi_full_size I u b) 1); auto; try lia.
      2: apply Gua; auto; lia.
      pose proof (Gt n _ Hnt Hf) as Hg. inversion Hg. unfold cshape in *. congruence. }
    eexists. split; [reflexivity|]. rewrite H. split; auto. }
  set (xs := c :: c2 :: x) in *.
  destruct (forallb (fun p => (fst p =? csize c) && (snd p =? length (creg c))) (tshape xs)) eqn:Eh.
  { apply forallb_repeat in Eh. rewrite (map_length cshape xs : length (tshape xs) = length xs) in Eh.
    pose proof (storage_registers I t n (tshape xs) HI Ht Hnt Hf) as Hsl.
    assert (Hcount : length xs * csize c = n) by (rewrite Eh in Hs; rewrite (ssize_repeat t Ht0) in Hs; auto).
    assert (Hfit : length (creg c) = 1 \/ vector_convert_ok (abi_full_size I u b) (csize c) (length xs) = true).
    { unfold xs in Hsl. change (tshape (c :: c2 :: x)) with ((csize c, length (creg c)) :: tshape (c2 :: x)) in Hsl.
      cbn [same_lanes] in Hsl. change ((csize c, length (creg c)) :: tshape (c2 :: x)) with (tshape xs) in Hsl.
      apply orb_true_iff in Hsl as [Hsl|Hsl]; [left; apply Nat.eqb_eq; auto|right].
      unfold vector_convert_ok. apply orb_true_iff. right. apply andb_true_iff. split.
      - apply Nat.leb_le. apply Nat.leb_le in Hsl. unfold tshape in Hsl. rewrite map_length in Hsl. auto.
      - apply Nat.leb_le. lia. }
    destruct (rel_many_to_one cast zeroA zeroB t x86 cp cx86 R HR dom Hx Ht0 gt gu D1 n (abi_full_size I u b) xs (csize c) (length (creg c)) (length xs))
      as [M1 M2]; auto; try lia.
    { pose proof (Gt n _ Hnt Hf) as Hg. inversion Hg; auto. }
    { rewrite Hsz. apply Gua; auto. lia. }
    unfold many_to_one in M1, M2. change (hd (Chunk 0 []) xs) with c in M1, M2.
    destruct (Nat.eqb_spec (length (creg c)) 1) as [E1|E1].
    - eexists. split; [reflexivity|].
      assert (Hlm : length (flat_map creg xs) = n).
      { change (flat_map creg xs) with (tmem xs). rewrite tmem_length. rewrite Eh.
        assert (csize c = 1) by lia. rewrite E1, H in *. clear - Hcount.
        rewrite <- Hcount. generalize (length xs). intros k. induction k; auto. cbn [repeat]. rewrite slanes_cons, IHk. simpl. lia. }
      rewrite Hlm in M1, M2. change (tmem xs) with (flat_map creg xs). split; auto.
      apply Hreg. unfold tshape in M1. cbn [map] in M1. unfold cshape in M1. cbn [csize creg] in M1. congruence.
    - destruct Hfit as [?|Hfit]; [lia|]. rewrite Hfit. eexists. split; [reflexivity|]. split; auto.
      apply Hreg. unfold tshape in M1. cbn [map] in M1. unfold cshape in M1. cbn [csize creg] in M1. congruence. }
  assert (Hgen : exists y, Some (Chunk n (vector_convert cast zeroA zeroB x86 cp cx86 (abi_full_size I u b) n
      [map (fun i => match t_get_const xs i with Some v => v | None => zeroA end) (seq 0 n)
       ++ repeat zeroA (lanes_of I t n - n)])) = Some y /\ is_simd I u b [y] /\ Forall2 R (telems xs) (telems [y])).
  { set (xv := map _ (seq 0 n) ++ repeat zeroA (lanes_of I t n - n)).
    assert (Hxv : firstn n xv = telems xs).
    { unfold xv. rewrite firstn_app_le by (rewrite map_length, seq_length; lia).
      rewrite firstn_all2 by (rewrite map_length, seq_length; lia).
      pose proof (cast_at_elems (fun v : A => v) zeroA zeroA xs Hok) as Hc. rewrite Hl in Hc. rewrite map_id in Hc.
      rewrite <- Hc. apply map_ext. intros i. unfold cast_at. auto. }
    assert (Hlx : n <= length xv) by (unfold xv; rewrite app_length, map_length, seq_length; lia).
    destruct (rel_single (Chunk n xv) (abi_full_size I u b) n) as [S1 S2]; auto; try lia.
    { cbn [creg]. unfold xv. rewrite app_length, map_length, seq_length, repeat_length. intros X1 X2 X3.
      apply (D5 X1 X2 n (csize c) (length (creg c)) (tshape (c2 :: x)) _ Hnt Hf); auto.
      pose proof (lanes_of_ge I t n). lia. }
    eexists. split; [reflexivity|]. split; [apply Hreg; auto|].
    rewrite one_elems in S1. cbn [csize creg] in S1. rewrite Hxv in S1. exact S1. }
  destruct (storage_shape I u n) as [su|] eqn:Esu; [|exact Hgen].
  destruct su as [|p [|? ?]]; try exact Hgen.
  assert (Hfu : fixed_size_type I u n) by (split; [auto|split; [auto|lia]]).
  destruct (rel_fixed_convert n xs Hnn Hft Hfu Hf) as (y & Y1 & Y2 & Y3). rewrite Y1.
  unfold is_fixed in Y2. rewrite Esu in Y2. apply some_inj in Y2.
  destruct y as [|d [|? ?]]; try discriminate. exists d. split; auto. split; auto.
  destruct (register_storage I u b HI Hue Hb Hvb) as (s & E1 & E2). rewrite <- Hsz, Esu in E1. apply some_inj in E1. subst s.
  destruct p as [m l]. cbn [two_at_most] in E2. apply andb_true_iff in E2 as [E2 E3]. apply Nat.eqb_eq in E2, E3.
  unfold tshape in Y2. cbn [map] in Y2. unfold cshape in Y2. injection Y2 as Y2a Y2b.
  destruct d as [dn dr]. cbn [csize creg] in *. replace dn with n by lia. apply Hreg. congruence.
Qed.

Lemma rel_cast a b x : abi_size u b = nn -> simd_type I t a -> simd_type I u b -> abi_size t a = abi_size u b -> is_simd I t a x ->
  exists y, sconv a b x = Some y /\ is_simd I u b y /\ Forall2 R (telems x) (telems y).
Proof.
  intros Hnn Hta Hub Hsz Hxa. assert (Hnl : abi_size u b <= nn) by lia. pose proof Hta as (HI & Ht & Hva). pose proof Hub as (_ & Hue & Hvb).
  assert (Hcases : forall (e : elem) (c : abi), vector_tag c -> elem_ok e -> abi_valid I e c = true -> abi_size e c <> 1).
  { intros e c Hc He Hv. pose proof (full_facts I e c He Hc Hv). lia. }
  assert (Hscal : forall v : A, is_simd I u AScalar [Chunk 1 [cast v]]) by reflexivity.
  assert (Hone : forall n, abi_valid I u (AFixed n) = true -> n = 1 -> forall v : B, is_simd I u (AFixed n) [Chunk 1 [v]]).
  { intros n Hn -> v. destruct (valid_fixed I t Ht0 u 1 HI Hue Hn) as (_ & _ & ?).
    unfold is_simd, simd_shape. rewrite one_storage by (auto; lia). reflexivity. }
  assert (Hnat : vector_tag a -> vector_tag b -> exists y, sconv a b x = Some y /\ is_simd I u b y /\ Forall2 R (telems x) (telems y)).
  { intros Ha Hb. destruct (rel_native_native a b x) as (c & y & -> & E1 & E2 & E3); auto.
    exists [y]. split; auto. unfold static_simd_cast. rewrite E1. destruct a, b; try (exfalso; auto; fail); reflexivity. }
  assert (Hnf : forall n, b = AFixed n -> vector_tag a -> exists y, sconv a b x = Some y /\ is_simd I u b y /\ Forall2 R (telems x) (telems y)).
  { intros n -> Ha. destruct (rel_native_fixed a n x) as (c & y & -> & E1 & E2 & E3); auto.
    { apply (valid_fixed I t Ht0); auto. }
    exists y. split; auto. unfold static_simd_cast. rewrite E1. destruct a; try (exfalso; auto; fail); reflexivity. }
  assert (Hfn : forall n, a = AFixed n -> vector_tag b -> exists y, sconv a b x = Some y /\ is_simd I u b y /\ Forall2 R (telems x) (telems y)).
  { intros n -> Hb. destruct (rel_fixed_native n b x) as (y & E1 & E2 & E3); auto.
    { cbn [abi_size] in Hsz. lia. }
    { apply (valid_fixed I t Ht0); auto. }
    exists [y]. split; auto. unfold static_simd_cast. rewrite E1. destruct b; try (exfalso; auto; fail); reflexivity. }
  destruct a as [|n|ba|ba].
  - destruct (scalar_object I t A x Hxa) as (v & ->). cbn [abi_size] in Hsz.
    destruct b as [|m|bb|bb].
    + eexists. split; [reflexivity|]. split; auto. unfold telems, celems. simpl. auto.
    + eexists. split; [reflexivity|]. split; auto. unfold telems, celems. simpl. auto.
    + exfalso. apply (Hcases u (AVecBuiltin bb) Logic.I Hue Hvb). auto.
    + exfalso. apply (Hcases u (AVecBltnBtmsk bb) Logic.I Hue Hvb). auto.
  - destruct b as [|m|bb|bb]; try (eapply Hfn; eauto; exact Logic.I; fail).
    + cbn [abi_size] in Hsz. subst n. unfold is_simd, simd_shape in Hxa.
      destruct (valid_fixed I t Ht0 t 1 HI Ht Hva) as (_ & _ & ?). rewrite one_storage in Hxa by (auto; lia).
      apply (scalar_object I t) in Hxa as (v & ->). eexists. split; [reflexivity|]. split; auto.
      unfold telems, celems. simpl. auto.
    + cbn [abi_size] in Hsz. subst m. apply rel_fixed_convert; auto; try (cbn [abi_size] in Hnl; lia); apply (valid_fixed I t Ht0); auto.
  - destruct b as [|m|bb|bb]; try (apply Hnat; exact Logic.I); [|eapply Hnf; eauto; exact Logic.I].
    exfalso. apply (Hcases t (AVecBuiltin ba) Logic.I Ht Hva). auto.
  - destruct b as [|m|bb|bb]; try (apply Hnat; exact Logic.I); [|eapply Hnf; eauto; exact Logic.I].
    exfalso. apply (Hcases t (AVecBltnBtmsk ba) Logic.I Ht Hva). auto.
Qed.
End Cast.
