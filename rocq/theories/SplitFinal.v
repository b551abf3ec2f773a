(* split and concat in terms of operator[]. *)
From Coq Require Import List Arith Bool Lia.
From Verif Require Import Prelude BitMask BitMaskProofs Abi AbiSpec AbiProofs Fixed FixedSpec FixedProofs
  FixedApply Mem MemSpec MemProofs Convert ConvertSpec ConvertProofs ConvertCheck ConvertTop
  Split SplitSpec SplitProofs SplitTop.
Import ListNotations.

Lemma elements_telems {A} I t a (x : tuple A) : simd_type I t a -> is_simd I t a x ->
  elements (abi_size t a) x = map Some (telems x).
Proof.
  intros Ha Hx. destruct (simd_facts I t a x Ha Hx) as (D & S & _ & L & _). unfold elements.
  apply list_by_index; rewrite !map_length, seq_length; auto.
  intros i Hi. rewrite nth_error_map, nth_error_seq by auto. cbn [option_map plus].
  rewrite get_elems by (auto; lia). rewrite nth_error_map.
  destruct (nth_error (telems x) i) as [v|] eqn:E; [reflexivity|]. apply nth_error_None in E. lia.
Qed.
Lemma elements_inj {A} I t a (x y : tuple A) : simd_type I t a -> is_simd I t a x -> is_simd I t a y ->
  telems x = telems y -> elements (abi_size t a) x = elements (abi_size t a) y.
Proof. intros Ha Hx Hy E. rewrite !(elements_telems I t a) by auto. congruence. Qed.

Lemma offsets_concat {A} I t (x : tuple A) sizes : forall o ys,
  Forall2 (piece_at I t x) (offsets o sizes) ys -> o + list_sum sizes <= length (telems x) ->
  flat_map telems ys = firstn (list_sum sizes) (skipn o (telems x)).
Proof.
  induction sizes as [|s r IH]; intros o ys H Ho.
  { inversion H. reflexivity. }
  cbn [offsets] in H. inversion H as [|p y ps ys' Hy Hys]; subst. cbn [flat_map].
  cbn [list_sum fold_right] in *. change (fold_right Nat.add 0 r) with (list_sum r) in *.
  rewrite (IH (o + s) ys') by (auto; lia). destruct Hy as (b & _ & _ & Hs & _ & E). cbn [fst snd] in *.
  rewrite E, Hs. rewrite skipn_add.
  rewrite <- (firstn_skipn s (firstn (s + list_sum r) (skipn o (telems x)))).
  rewrite firstn_firstn, Nat.min_l by lia. f_equal. rewrite skipn_firstn_comm. f_equal. lia.
Qed.

Section Final.
Context {A : Type}.
Variables (zero : A) (I : isa) (t : elem) (x86 sse41 alias : bool) (constant : tuple A -> bool) (junk : nat -> A).
Variables (cx86 : nat -> list (list A) -> list A) (unpack : nat -> nat -> list A -> list (list A)).
Hypothesis Hcx : converts_registers (fun v => v) cx86.
Hypothesis Hun : unpacks_registers (fun v => v) unpack.

Lemma c16_split a b x parts : simd_type I t a -> is_simd I t a x -> simd_type I t b -> single_register I t b ->
  abi_size t a = parts * abi_size t b ->
  exists ys, split_same zero I t x86 sse41 alias constant cx86 unpack b a x = Some ys /\ length ys = parts /\
    forall p, p < parts -> exists y, nth_error ys p = Some y /\ is_simd I t b y /\
      forall j, j < abi_size t b -> t_get y j = t_get x (p * abi_size t b + j).
Proof.
  intros Ha Hx Hb Hs Hsz. pose proof Ha as (HI & Ht & _).
  destruct (split_same_spec zero I t x86 sse41 alias constant (fun _ => zero) cx86 unpack Hcx Hun HI Ht a b x parts) as (ys & E & L & H); auto.
  exists ys. split; auto. split; auto. intros p Hp. destruct (H p Hp) as (y & Ey & Hy & He).
  exists y. split; auto. split; auto. intros j Hj.
  destruct (simd_facts I t a x Ha Hx) as (D & S & _ & Lx & _). destruct (simd_facts I t b y Hb Hy) as (D' & S' & _ & L' & _).
  rewrite !get_elems by (auto; nia). rewrite He. apply nth_error_part. auto.
Qed.

Lemma c16_split_sizes sizes a x : simd_type I t a -> is_simd I t a x -> list_sum sizes = abi_size t a ->
  Forall (fun s => 1 <= s /\ forall b, deduce I t s = Some b -> single_register I t b) sizes ->
  exists ys, split_sizes zero I t x86 sse41 alias constant junk cx86 unpack sizes a x = Some ys /\
    Forall2 (fun s y => exists b, deduce I t s = Some b /\ is_simd I t b y) sizes ys /\
    concat (map (fun p => elements (fst p) (snd p)) (combine sizes ys)) = elements (abi_size t a) x.
Proof.
  intros Ha Hx Hsum Hs. pose proof Ha as (HI & Ht & _).
  destruct (split_sizes_spec zero I t x86 sse41 alias constant junk cx86 unpack Hcx Hun HI Ht sizes a x) as (ys & E & H); auto.
  destruct (simd_facts I t a x Ha Hx) as (D & S & _ & Lx & _).
  exists ys. split; auto. split.
  - clear - H. revert H. generalize 0 as o. revert ys. induction sizes as [|s r IH]; intros ys o H; inversion H; subst; constructor.
    + destruct H2 as (b & H2 & _ & _ & H5 & _). exists b. auto.
    + apply (IH _ (o + s)). auto.
  - rewrite (elements_telems I t a) by auto.
    pose proof (offsets_concat I t x sizes 0 ys H ltac:(lia)) as Hc. cbn [skipn] in Hc. rewrite Hsum, <- Lx, firstn_all in Hc.
    rewrite <- Hc. clear - H. revert H. generalize 0 as o. revert ys.
    induction sizes as [|s r IH]; intros ys o H; inversion H; subst; [reflexivity|].
    cbn [combine map concat flat_map fst snd]. rewrite map_app. f_equal; [|apply (IH _ (o + s)); auto].
    destruct H2 as (b & _ & Hb & Hsb & Hy & _). cbn [snd] in Hsb. rewrite <- Hsb. apply (elements_telems I); auto.
Qed.

Lemma c16_concat xs b : arch_ok I -> elem_ok t ->
  Forall (fun p => simd_type I t (fst p) /\ is_simd I t (fst p) (snd p)) xs -> xs <> [] ->
  deduce I t (list_sum (map (fun p => abi_size t (fst p)) xs)) = Some b ->
  exists y, concat_simd zero I t x86 sse41 constant cx86 unpack xs = Some y /\ is_simd I t b y /\
    elements (abi_size t b) y = concat (map (fun p => elements (abi_size t (fst p)) (snd p)) xs).
Proof.
  intros HI Ht Hxs Hne Hd.
  destruct (concat_spec zero I t x86 sse41 constant cx86 unpack Hcx Hun HI Ht xs b Hxs Hne Hd) as (y & E & Hy & Hb & Hs & He).
  exists y. split; auto. split; auto. rewrite (elements_telems I) by auto. rewrite He.
  clear - Hxs. unfold pack_elems. induction Hxs as [|[a x] xs [Ha Hx] _ IH]; [reflexivity|].
  cbn [flat_map map concat fst snd] in *. rewrite map_app, IH. f_equal. symmetry. apply (elements_telems I); auto.
Qed.

(* concat(split<V>(x)) has the elements of x *)
Lemma c16_round_trip a b x parts : simd_type I t a -> is_simd I t a x -> simd_type I t b -> single_register I t b ->
  abi_size t a = parts * abi_size t b ->
  exists ys y c, split_same zero I t x86 sse41 alias constant cx86 unpack b a x = Some ys /\
    concat_simd zero I t x86 sse41 constant cx86 unpack (map (fun p => (b, p)) ys) = Some y /\
    deduce I t (abi_size t a) = Some c /\ is_simd I t c y /\
    forall i, i < abi_size t a -> t_get y i = t_get x i.
Proof.
  intros Ha Hx Hb Hs Hsz. pose proof Ha as (HI & Ht & _).
  destruct (split_same_spec zero I t x86 sse41 alias constant (fun _ => zero) cx86 unpack Hcx Hun HI Ht a b x parts) as (ys & E & L & H); auto.
  destruct (simd_facts I t a x Ha Hx) as (D & S & _ & Lx & Nx).
  assert (Hp : 1 <= parts) by nia.
  assert (Hsum : pack_size t (map (fun p : tuple A => (b, p)) ys) = abi_size t a).
  { rewrite Hsz, <- L. clear. unfold pack_size. rewrite map_map. cbn [fst]. induction ys; cbn [map list_sum fold_right length Nat.mul]; [reflexivity|].
    change (fold_right Nat.add 0 (map (fun _ : tuple A => abi_size t b) ys)) with (list_sum (map (fun _ : tuple A => abi_size t b) ys)). lia. }
  destruct (deduce_in I t Ht a (abi_size t a) Ha ltac:(lia)) as (c & Ec).
  assert (Hall : Forall (fun p => simd_type I t (fst p) /\ is_simd I t (fst p) (snd p)) (map (fun p : tuple A => (b, p)) ys)).
  { apply Forall_forall. intros q Hq. apply in_map_iff in Hq as (y & <- & Hin). apply In_nth_error in Hin as (i & Hi).
    assert (i < parts) by (rewrite <- L; apply nth_error_Some; congruence).
    destruct (H i H0) as (y' & Ey & Hy & _). cbn [fst snd]. split; auto. congruence. }
  destruct (concat_spec zero I t x86 sse41 constant cx86 unpack Hcx Hun HI Ht (map (fun p => (b, p)) ys) c) as (y & Ey & Hy & Hc & Hsc & He); auto.
  { destruct ys; [simpl in L; lia|discriminate]. }
  { rewrite Hsum. exact Ec. }
  exists ys, y, c. split; auto. split; auto. split; auto. split; auto.
  assert (Htel : telems y = telems x).
  { rewrite He. unfold pack_elems. clear - H L Hsz Lx.
    assert (Hg : forall zs o, (forall i, i < length zs -> exists y, nth_error zs i = Some y /\ holds I t x ((o + i) * abi_size t b) b y) ->
      (o + length zs) * abi_size t b <= length (telems x) ->
      flat_map (fun p => telems (snd p)) (map (fun p => (b, p)) zs) = firstn (length zs * abi_size t b) (skipn (o * abi_size t b) (telems x))).
    { induction zs as [|z zs IH]; intros o Hz Hl; [reflexivity|]. cbn [map flat_map snd length Nat.mul].
      destruct (Hz 0 ltac:(simpl; lia)) as (y0 & E0 & _ & Hy0). injection E0 as <-. rewrite Nat.add_0_r in Hy0.
      cbn [length] in Hl. rewrite (IH (S o)).
      - rewrite Hy0. rewrite <- (firstn_skipn (abi_size t b) (firstn (abi_size t b + length zs * abi_size t b) (skipn (o * abi_size t b) (telems x)))).
        rewrite firstn_firstn, Nat.min_l by lia. f_equal. rewrite skipn_firstn_comm, <- skipn_add. f_equal; [lia|]. f_equal. lia.
      - intros i Hi. destruct (Hz (S i) ltac:(simpl; lia)) as (y1 & E1 & H1). exists y1. split; auto.
        replace (S o + i) with (o + S i) by lia. auto.
      - replace (S o + length zs) with (o + S (length zs)) by lia. auto. }
    rewrite (Hg ys 0).
    - cbn [Nat.mul skipn]. rewrite L, <- Hsz, <- Lx. apply firstn_all.
    - intros i Hi. apply H. lia.
    - cbn [plus]. rewrite L. lia. }
  intros i Hi. destruct (simd_facts I t c y Hc Hy) as (D' & S' & _ & L' & _).
  rewrite !get_elems by (auto; lia). congruence.
Qed.
End Final.

(* ------------------------------------------------------------------ *)
(* masks                                                                *)
Lemma mask_from_get I t b bits i : i < abi_size t b -> abi_size t b <= mask_lanes I t b -> abi_size t b <= length bits ->
  mask_get (mask_from I t b bits) i = nth_error bits i.
Proof.
  intros Hi Hm Hb. unfold mask_get, mask_from. rewrite nth_error_firstn by lia.
  rewrite nth_error_app1 by (rewrite firstn_length; lia). apply nth_error_firstn. auto.
Qed.
Lemma mask_lanes_ge I t a : simd_type I t a -> 1 <= abi_size t a <= mask_lanes I t a.
Proof.
  intros Ha. destruct (shape_facts I t a Ha) as (_ & _ & _ & _ & H). destruct Ha as (_ & Ht & Hv).
  destruct a as [|n|b|b]; cbn [mask_lanes]; try lia. pose proof (full_facts I t (AVecBuiltin b) Ht Logic.I Hv). lia.
Qed.
Lemma mask_from_length I t b bits : length (mask_from I t b bits) = mask_lanes I t b.
Proof. unfold mask_from. rewrite firstn_length, app_length, repeat_length. lia. Qed.

Lemma avx_lanes I t B : elem_ok t -> abi_valid I t (AVecBuiltin B) = true -> 16 < B <= 32 ->
  abi_full_size I t (AVecBuiltin B) = 32 / esize t /\ esize t <= 8 /\ abi_size t (AVecBuiltin B) * esize t = B.
Proof.
  intros Ht Hv HB. pose proof (elem_ok_pos t Ht) as Hp. pose proof Hv as Hv'. unfold abi_full_size. rewrite Hv.
  cbn [abi_valid] in Hv'. btrue.
  assert (Hn : abi_size t (AVecBuiltin B) * esize t = B).
  { cbn [abi_size]. pose proof (Nat.div_mod B (esize t)).
    repeat match goal with H : (_ =? _) = true |- _ => apply Nat.eqb_eq in H end. lia. }
  assert (Hs : esize t <= 8).
  { destruct (Nat.leb_spec (esize t) 8) as [E|E]; auto. exfalso.
    assert (E16 : esize t <= 16) by (destruct t; simpl in *; intuition lia).
    assert (Hvs : vectorized_sizeof I t = esize t) by (unfold vectorized_sizeof; destruct (Nat.leb_spec (esize t) 8); [lia|reflexivity]).
    lia. }
  split; [|split; auto]. unfold vector_type_bytes. cbv zeta. rewrite Hn.
  assert (HB32 : bit_ceil B = 32).
  { pose proof (bc_mono B 32 ltac:(lia)) as G1. change (bit_ceil 32) with 32 in G1.
    assert (G2 : 16 < bit_ceil B) by (pose proof (BitMaskProofs.bit_ceil_ge B ltac:(lia)); lia).
    unfold bit_ceil in *. change 16 with (2 ^ 4) in G2. apply Nat.pow_lt_mono_r_iff in G2; [|lia].
    assert (G3 : 2 ^ 5 <= 2 ^ Nat.log2_up B) by (apply Nat.pow_le_mono_r; lia). change (2 ^ 5) with 32 in G3. lia. }
  rewrite HB32. change (32 =? 8) with false. rewrite andb_false_r.
  destruct (Nat.ltb_spec 32 (2 * esize t)); [lia|]. reflexivity.
Qed.

(* the lane split of two 16-byte halves is used for a partial register *)
Definition halves_partial (b a : abi) : Prop :=
  match a, b with AVecBuiltin n, AVecBuiltin m => 16 < n < 32 /\ m = n / 2 | _, _ => False end.

Lemma c16_mask_split I t a b x parts : simd_type I t a -> length x = mask_lanes I t a -> simd_type I t b ->
  abi_size t a = parts * abi_size t b -> ~ halves_partial b a ->
  exists ys, split_mask I t b a x = Some ys /\ length ys = parts /\
    forall p, p < parts -> exists y, nth_error ys p = Some y /\ abi_size t b <= length y /\
      forall j, j < abi_size t b -> mask_get y j = mask_get x (p * abi_size t b + j).
Proof.
  intros Ha Hx Hb Hsz Hnh. pose proof Ha as (HI & Ht & Hva). pose proof Hb as (_ & _ & Hvb).
  pose proof (mask_lanes_ge I t a Ha) as La. pose proof (mask_lanes_ge I t b Hb) as Lb.
  pose proof (elem_ok_pos t Ht) as Hp.
  unfold split_mask. cbv zeta. rewrite Hsz. rewrite Nat.div_mul by lia. rewrite Nat.eqb_refl.
  replace (1 <=? abi_size t b) with true by (symmetry; apply Nat.leb_le; lia). cbn [andb negb].
  destruct (abi_eqb a b) eqn:Eab.
  { apply abi_eqb_spec in Eab. subst b. assert (parts = 1) by nia. subst parts.
    exists [x]. split; auto. split; auto. intros p Hpp. assert (p = 0) by lia. subst. exists x. split; auto. split; [lia|]. auto. }
  destruct (Nat.eqb_spec parts 1) as [->|E1].
  { eexists. split; [reflexivity|]. split; auto. intros p Hpp. assert (p = 0) by lia. subst. eexists. split; [reflexivity|].
    split; [rewrite mask_from_length; lia|]. intros j Hj. cbn [Nat.mul plus].
    rewrite mask_from_get by (rewrite ?firstn_length; lia). unfold mask_get. apply nth_error_firstn. lia. }
  destruct ((parts =? 2) && is_sse_abi b && is_avx_abi a) eqn:E2.
  { apply andb_true_iff in E2 as [E2 E3]. apply andb_true_iff in E2 as [E2 E4]. apply Nat.eqb_eq in E2. subst parts.
    destruct a as [|?|B|?]; try discriminate. destruct b as [|?|B'|?]; try discriminate. cbn [is_sse_abi is_avx_abi] in *.
    apply andb_true_iff in E3 as [E5 E6]. apply Nat.leb_le in E4, E6. apply Nat.ltb_lt in E5.
    destruct (avx_lanes I t B Ht Hva ltac:(lia)) as (Hfull & Hs8 & HB).
    assert (HB' : abi_size t (AVecBuiltin B') * esize t = B').
    { destruct (register_le I t (AVecBuiltin B') Ht Logic.I Hvb) as [_ Heq]. injection Heq as Heq. auto. }
    assert (HBB : B = 2 * B') by nia.
    assert (E32 : B = 32).
    { destruct (Nat.eq_dec B 32); auto. exfalso. apply Hnh. split; [lia|]. subst B. rewrite (Nat.mul_comm 2), Nat.div_mul by lia. reflexivity. }
    assert (Hk : abi_size t (AVecBuiltin B) = 32 / esize t).
    { cbn [abi_size]. rewrite E32. reflexivity. }
    cbn [mask_lanes] in Hx. rewrite Hfull in Hx. rewrite <- Hk, Hsz in Hx.
    set (k := abi_size t (AVecBuiltin B')) in *.
    assert (Hh : length x / 2 = k) by (rewrite Hx, (Nat.mul_comm 2), Nat.div_mul; lia).
    rewrite Hh. eexists. split; [reflexivity|]. split; auto. intros p Hpp.
    destruct p as [|[|p]]; [| |lia].
    - exists (firstn k x). split; auto. split; [rewrite firstn_length; lia|]. intros j Hj. unfold mask_get. cbn [Nat.mul plus]. apply nth_error_firstn. auto.
    - exists (skipn k x). split; auto. split; [rewrite skipn_length; lia|]. intros j Hj. unfold mask_get. rewrite nth_error_skipn'. f_equal. lia. }
  eexists. split; [reflexivity|]. split; [rewrite map_length, seq_length; auto|].
  intros p Hpp. eexists. rewrite nth_error_map, nth_error_seq by auto. cbn [option_map plus]. split; [reflexivity|].
  split; [rewrite mask_from_length; lia|]. intros j Hj.
  rewrite mask_from_get by (rewrite ?skipn_length, ?firstn_length; nia).
  rewrite nth_error_skipn'. unfold mask_get. apply nth_error_firstn. nia.
Qed.

Lemma c16_mask_refuted I t B B' : simd_type I t (AVecBuiltin B) -> simd_type I t (AVecBuiltin B') ->
  abi_size t (AVecBuiltin B) = 2 * abi_size t (AVecBuiltin B') -> halves_partial (AVecBuiltin B') (AVecBuiltin B) ->
  exists x ys y, length x = mask_lanes I t (AVecBuiltin B) /\ split_mask I t (AVecBuiltin B') (AVecBuiltin B) x = Some ys /\
    nth_error ys 1 = Some y /\ mask_get x (abi_size t (AVecBuiltin B')) = Some true /\ mask_get y 0 = Some false.
Proof.
  intros Ha Hb Hsz Hh. pose proof Ha as (HI & Ht & Hva). pose proof Hb as (_ & _ & Hvb). destruct Hh as [HB HB'].
  pose proof (elem_ok_pos t Ht) as Hp.
  destruct (avx_lanes I t B Ht Hva ltac:(lia)) as (Hfull & Hs8 & HBs).
  assert (HBs' : abi_size t (AVecBuiltin B') * esize t = B').
  { destruct (register_le I t (AVecBuiltin B') Ht Logic.I Hvb) as [_ Heq]. injection Heq as Heq. auto. }
  destruct (register_le I t (AVecBuiltin B') Ht Logic.I Hvb) as [[H2 _] _].
  set (k := abi_size t (AVecBuiltin B')) in *. set (L := 32 / esize t) in *.
  assert (HL : L * esize t = 32).
  { unfold L. destruct (esize_cases t Ht Hs8) as [E|[E|[E|E]]]; rewrite E; reflexivity. }
  assert (Hev : L = 2 * (L / 2)).
  { unfold L. destruct (esize_cases t Ht Hs8) as [E|[E|[E|E]]]; rewrite E; reflexivity. }
  assert (Hk : k < L / 2) by nia.
  set (x := repeat false k ++ [true] ++ repeat false (L - k - 1)).
  assert (Hlx : length x = L) by (unfold x; rewrite !app_length, !repeat_length; simpl; lia).
  exists x, [firstn (L / 2) x; skipn (L / 2) x], (skipn (L / 2) x).
  split; [cbn [mask_lanes]; rewrite Hfull; exact Hlx|]. split.
  - unfold split_mask. cbv zeta. fold k. rewrite Hsz. rewrite Nat.div_mul by lia. rewrite Nat.eqb_refl.
    replace (1 <=? k) with true by (symmetry; apply Nat.leb_le; lia).
    assert (Eab : abi_eqb (AVecBuiltin B) (AVecBuiltin B') = false) by (cbn [abi_eqb]; apply Nat.eqb_neq; nia).
    rewrite Eab. cbn [andb negb Nat.eqb is_sse_abi is_avx_abi].
    replace (B' <=? 16) with true by (symmetry; apply Nat.leb_le; nia).
    replace (16 <? B) with true by (symmetry; apply Nat.ltb_lt; lia).
    replace (B <=? 32) with true by (symmetry; apply Nat.leb_le; lia).
    cbn [andb]. rewrite Hlx. reflexivity.
  - split; [reflexivity|]. unfold mask_get. split.
    + unfold x. rewrite nth_error_app2 by (rewrite repeat_length; lia). rewrite repeat_length, Nat.sub_diag. reflexivity.
    + rewrite nth_error_skipn', Nat.add_0_r. unfold x. rewrite nth_error_app2 by (rewrite repeat_length; lia).
      rewrite repeat_length. rewrite nth_error_app2 by (cbn [length]; lia). cbn [length].
      rewrite (nth_error_nth' _ true) by (rewrite repeat_length; lia).
      f_equal. assert (H := nth_In (repeat false (L - k - 1)) true (n := L / 2 - k - 1)). apply (repeat_spec (L - k - 1)).
      apply H. rewrite repeat_length. lia.
Qed.
