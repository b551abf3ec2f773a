(* split and concat keep the elements and their order: the pieces. *)
From Coq Require Import List Arith Bool Lia.
From Verif Require Import Prelude BitMask BitMaskProofs Abi AbiSpec AbiProofs Fixed FixedSpec FixedProofs
  FixedApply Targets Profile FixedStorage FixedMixed FixedTop Mem MemSpec MemProofs
  Convert ConvertSpec ConvertProofs ConvertCheck ConvertTop Split SplitSpec SplitProofs.
Import ListNotations.

Lemma mul_div n v : 1 <= n -> n * v / n = v.
Proof. intros. rewrite Nat.mul_comm. apply Nat.div_mul. lia. Qed.
Lemma firstn_skipn_app {X} k o (l m : list X) : o + k <= length l ->
  firstn k (skipn o (l ++ m)) = firstn k (skipn o l).
Proof.
  intros H. rewrite skipn_app. rewrite firstn_app_le by (rewrite skipn_length; lia). reflexivity.
Qed.
Lemma skipn_past {X} o (l m : list X) : length l <= o -> skipn o (l ++ m) = skipn (o - length l) m.
Proof. intros H. rewrite skipn_app, skipn_all2 by auto. reflexivity. Qed.
Lemma firstn_skipn_firstn {X} k o n (l : list X) : o + k <= n ->
  firstn k (skipn o (firstn n l)) = firstn k (skipn o l).
Proof. intros H. rewrite skipn_firstn_comm, firstn_firstn. f_equal. lia. Qed.

Section Top.
Context {A : Type}.
Variables (zero : A) (I : isa) (t : elem) (x86 sse41 alias : bool) (constant : tuple A -> bool) (junk : nat -> A).
Variables (cx86 : nat -> list (list A) -> list A) (unpack : nat -> nat -> list A -> list (list A)).
Hypothesis Hcx : converts_registers (fun v => v) cx86.
Hypothesis Hun : unpacks_registers (fun v => v) unpack.
Hypothesis HI : arch_ok I.
Hypothesis Ht : elem_ok t.

(* __extract_part of a _SimdTuple *)
Lemma tuple_extract_spec ret p b : storage_shape I t ret = Some [p] -> deduce I t ret = Some b -> vector_tag b ->
  1 <= ret ->
  forall x index total combine v,
  dense (tshape x) -> proper I t x -> storage_shape I t (ssize (tshape x)) = Some (tshape x) ->
  1 <= v -> ssize (tshape x) = total * v -> 1 <= combine -> ret = combine * v -> index + combine <= total ->
  exists r, tuple_extract zero I t x86 alias constant x index total combine = Some r /\
    firstn ret r = firstn ret (skipn (index * v) (telems x)) /\ length r = lanes_of I t ret.
Proof.
  intros Hone Hded Hb Hr1. pose proof (elem_ok_pos t Ht) as Hp.
  destruct (deduce_facts I t ret b HI Ht Hr1 Hded) as [(_ & _ & Hvb) Hsb].
  assert (Hfull : abi_full_size I t b = lanes_of I t ret) by (rewrite full_lanes by auto; rewrite Hsb; auto).
  induction x as [|c xr IH]; intros index total combine v Hd Hpr Hst Hv Hnp Hc Hret Hi.
  { unfold ssize in Hnp. simpl in Hnp. nia. }
  cbn [tuple_extract]. rewrite Hnp. assert (Htot : 1 <= total) by lia. rewrite mul_div by auto.
  rewrite Nat.mul_comm with (n := total), Nat.mod_mul by lia. rewrite (Nat.mul_comm v combine), <- Hret.
  rewrite (Nat.mul_comm v total).
  replace (index + combine <=? total) with true by (symmetry; apply Nat.leb_le; auto).
  replace (1 <=? total) with true by (symmetry; apply Nat.leb_le; auto).
  replace (total <=? total * v) with true by (symmetry; apply Nat.leb_le; nia).
  cbn [Nat.eqb andb negb].
  pose proof (Forall_inv Hpr) as Hlc. cbv beta in Hlc.
  pose proof (dense_ok _ Hd) as Hok. pose proof (Forall_inv Hok) as Hcok. unfold chunk_ok in Hcok.
  assert (Hcel : length (celems c) = csize c) by (apply celems_length; apply (Forall_inv Hok)).
  assert (Hc1 : 1 <= csize c) by (simpl in Hd; tauto).
  assert (Hsz : ssize (tshape (c :: xr)) = csize c + ssize (tshape xr)) by (unfold tshape; cbn [map]; rewrite ssize_cons; reflexivity).
  assert (Hlen : length (telems (c :: xr)) = total * v) by (rewrite telems_length; auto).
  assert (Hend : index * v + ret <= total * v) by (rewrite Hret; nia).
  (* straddling *)
    assert (Hnext : forall i, i < ret -> nth_error (telems (c :: xr)) (index * v + i) <> None).
    { intros i Hii E. apply nth_error_None in E. lia. }
    assert (Hstrad : exists r,
      (if alias then reg_load I t true (fun v0 => v0) zero zero ret (abi_full_size I t b)
                       (mshift (object zero (c :: xr)) (index * v))
       else option_map (fun l => l ++ repeat zero (abi_full_size I t b - ret))
              (omapm (fun i => t_get_const (c :: xr) (i + index * v)) (seq 0 ret))) = Some r /\
      firstn ret r = firstn ret (skipn (index * v) (telems (c :: xr))) /\ length r = lanes_of I t ret).
    { rewrite Hfull. pose proof (lanes_of_ge I t ret Hr1 Hp) as Hge.
      assert (Hval : forall r, ret <= length r ->
        (forall i, i < ret -> nth_error r i = nth_error (telems (c :: xr)) (index * v + i)) ->
        firstn ret r = firstn ret (skipn (index * v) (telems (c :: xr)))).
      { intros r Hr H. apply list_by_index; rewrite !firstn_length, ?skipn_length; try lia.
        intros i Hii. rewrite nth_error_part by lia. rewrite nth_error_firstn by lia. apply H. lia. }
      destruct alias.
      - assert (Hob : forall i, i < ret -> mshift (object zero (c :: xr)) (index * v) i = nth_error (telems (c :: xr)) (index * v + i)).
        { intros i Hii. unfold mshift. rewrite object_get by (auto; lia). apply get_elems; auto. lia. }
        destruct (reg_load_spec I t true (fun v0 : A => v0) zero zero ret (lanes_of I t ret)
          (mshift (object zero (c :: xr)) (index * v)) Ht Hr1 Hge) as (r & Er & L & N).
        { intros i Hii. unfold below in Hii. apply Nat.ltb_lt in Hii. rewrite Hob by auto. auto. }
        exists r. split; auto. split; auto. apply Hval; [lia|].
        intros i Hii. rewrite N by auto. rewrite Hob by auto. destruct (nth_error _ _); reflexivity.
      - destruct (omapm_spec (fun i => t_get_const (c :: xr) (i + index * v)) (seq 0 ret)) as (l & El & L & N).
        { intros i Hii. apply in_seq in Hii. rewrite get_const_elems by auto.
          replace (i + index * v) with (index * v + i) by lia. apply Hnext. lia. }
        rewrite seq_length in L. rewrite El. eexists. split; [reflexivity|].
        split; [|rewrite app_length, repeat_length; lia].
        apply Hval; [rewrite app_length; lia|]. intros i Hii. rewrite nth_error_app1 by lia.
        rewrite (N i i) by (rewrite nth_error_seq by auto; auto).
        rewrite get_const_elems by auto. f_equal. lia. }
  rewrite telems_cons in *.
  assert (Hhere : forall o, o + ret <= csize c ->
    firstn ret (skipn o (celems c ++ telems xr)) = firstn ret (skipn o (creg c))).
  { intros o Ho. rewrite firstn_skipn_app by lia. unfold celems. apply firstn_skipn_firstn. auto. }
  destruct (Nat.eqb_spec index 0) as [E0|E0]; cbn [andb].
  1: destruct (Nat.eqb_spec (csize c) ret) as [E1|E1];
    [exists (creg c); split; [auto|]; split; [|rewrite Hlc, E1; auto];
     rewrite E0; change (0 * v) with 0; rewrite (Hhere 0) by lia; reflexivity|].
  1: destruct (Nat.eqb_spec total combine) as [E2|E2].
  1: { exfalso. assert (Er : ret = total * v) by (subst; nia). rewrite Hnp, <- Er, Hone in Hst. apply some_inj in Hst.
    destruct xr as [|c2 xr]; [|discriminate]. rewrite Hnp in Hsz. change (ssize (tshape [])) with 0 in Hsz.
    apply E1. lia. }
  1: destruct (Nat.leb_spec ret (csize c)) as [E3|E3].
  1: { eexists. split; [reflexivity|]. pose proof (lanes_of_ge I t ret Hr1 Hp) as Hge.
    split; [|rewrite firstn_length, app_length, repeat_length; lia].
    rewrite firstn_firstn, Nat.min_l by lia. rewrite firstn_app_le by lia.
    rewrite E0. change (0 * v) with 0. rewrite (Hhere 0) by lia. reflexivity. }
  all: destruct (Nat.leb_spec (csize c) (index * v)) as [E4|E4].
  1: subst index; simpl in E4; lia.
  2: {
    (* in the remaining registers *)
    assert (Hdr : dense (tshape xr)) by (apply dense_tail with (1 := Hd)).
    assert (Hxr : xr <> []).
    { intros ->. rewrite Hnp in Hsz. change (ssize (tshape [])) with 0 in Hsz. lia. }
    assert (Hstr : storage_shape I t (ssize (tshape xr)) = Some (tshape xr)).
    { replace (ssize (tshape xr)) with (ssize (tshape (c :: xr)) - fst (cshape c)).
      - apply storage_tail; [exact Ht|rewrite Hst; reflexivity|]. destruct xr; [congruence|discriminate].
      - change (fst (cshape c)) with (csize c). lia. }
    pose proof (Forall_inv_tail Hpr) as Hprr.
    rewrite skipn_past by lia. rewrite Hcel.
    destruct (Nat.eqb_spec (csize c mod v) 0) as [E5|E5].
    - assert (Eq : csize c = csize c / v * v) by (pose proof (Nat.div_mod (csize c) v); lia).
      set (q := csize c / v) in *.
      destruct (IH (index - q) (total - q) combine v) as (r & Er & Hf & Hl); auto; try nia.
      exists r. split; auto. split; auto. rewrite Hf. do 2 f_equal. nia.
    - destruct (IH (index * v - csize c) (total * v - csize c) ret 1) as (r & Er & Hf & Hl); auto; try nia.
      exists r. split; auto. split; auto. rewrite Hf. do 2 f_equal. nia. }
  all: destruct (Nat.ltb_spec (csize c - index * v) ret) as [E6|E6].
  1,3: rewrite Hded; destruct b as [|m|bb|bb]; try (exfalso; exact Hb); exact Hstrad.
  all: destruct (Nat.eqb_spec (csize c mod v) 0) as [E5|E5].
  1,3: assert (Eq : csize c = csize c / v * v) by (pose proof (Nat.div_mod (csize c) v); lia);
    set (q := csize c / v) in *;
    destruct (extract_part_spec I t zero x86 (constant [c]) (csize c) (creg c) Hp combine index q combine v)
      as (r & Er & Hf & _); [auto|auto|nia|auto|auto|nia|];
    exists r; split; [auto|]; split; [rewrite Hhere by nia; rewrite Hret; exact Hf|];
    rewrite Hret; apply (extract_part_length I t zero x86 (constant [c]) (csize c) (creg c) Hp Hlc combine index q combine v); auto; nia.
  all: try rewrite <- Hret;
    destruct (extract_part_spec I t zero x86 (constant [c]) (csize c) (creg c) Hp ret (index * v) (csize c) ret 1)
      as (r & Er & Hf & _); [auto|auto|auto|auto|nia|nia|];
    exists r; split; [auto|]; rewrite !Nat.mul_1_r in Hf; split; [rewrite Hhere by nia; exact Hf|];
    rewrite (extract_part_length I t zero x86 (constant [c]) (csize c) (creg c) Hp Hlc ret (index * v) (csize c) ret 1 r) by (auto; nia);
    f_equal; lia.
Qed.

Lemma deduce_vector b : abi_valid I t b = true -> vector_tag b ->
  exists b', deduce I t (abi_size t b) = Some b' /\ vector_tag b'.
Proof.
  intros Hv Hb. pose proof (full_facts I t b Ht Hb Hv) as Hf.
  destruct (deduce_register I t b Ht Hv) as (b' & E & R).
  { destruct b; try (exfalso; exact Hb); exact Logic.I. }
  exists b'. split; auto. destruct (deduce_facts I t (abi_size t b) b' HI Ht ltac:(lia) E) as (_ & S).
  destruct b' as [|m|c|c]; simpl in *; auto; lia.
Qed.
Lemma single_storage b : vector_tag b -> single_register I t b ->
  exists p, storage_shape I t (abi_size t b) = Some [p].
Proof. destruct b; intros Hb; try (exfalso; exact Hb); auto. Qed.

Lemma extract_spec a b x index total combine v : simd_type I t a -> is_simd I t a x ->
  simd_type I t b -> vector_tag b -> single_register I t b ->
  1 <= v -> abi_size t a = total * v -> 1 <= combine -> abi_size t b = combine * v -> index + combine <= total ->
  exists r, extract zero I t x86 alias constant a x index total combine = Some r /\
    holds I t x (index * v) b [Chunk (abi_size t b) r].
Proof.
  intros Ha Hx Hb Hvb Hsr Hv Hsa Hc Hsb Hi. pose proof Hb as (_ & _ & Hbv). pose proof (elem_ok_pos t Ht) as Hp.
  pose proof (full_facts I t b Ht Hvb Hbv) as Hfb.
  destruct (simd_facts I t a x Ha Hx) as (Dx & Sx & Ox & Lx & Nx).
  destruct (deduce_vector b Hbv Hvb) as (b' & Hded & Hb'). destruct (single_storage b Hvb Hsr) as (p & Hsp).
  assert (Hnat : vector_tag a -> exists r, (match x with [c] =>
     extract_part I t zero x86 (constant [c]) (csize c) (creg c) combine index total combine | _ => None end) = Some r /\
     holds I t x (index * v) b [Chunk (abi_size t b) r]).
  { intros Hva. pose proof Ha as (_ & _ & Hav).
    destruct (register_object I t a A x Hva Hx) as (c & -> & Hcs & Hcr). rewrite full_lanes in Hcr by auto.
    rewrite <- Hcs in Hcr. pose proof (lanes_of_ge I t (csize c) ltac:(lia) Hp) as Hge.
    destruct (extract_part_spec I t zero x86 (constant [c]) (csize c) (creg c) Hp combine index total combine v)
      as (r & Er & Hf & _); auto; try nia.
    exists r. split; auto. apply register_holds; auto.
    - rewrite Hsb. apply (extract_part_length I t zero x86 (constant [c]) (csize c) (creg c) Hp Hcr combine index total combine v); auto; nia.
    - rewrite one_elems, Hsb, firstn_skipn_firstn by nia. exact Hf. }
  destruct a as [|n|bb|bb]; [simpl in Hsa; nia| |apply Hnat; exact Logic.I|apply Hnat; exact Logic.I].
  unfold extract. cbn [abi_size] in *.
  pose proof (fixed_type I t n Ha) as Hft.
  destruct (tuple_extract_spec (abi_size t b) p b' Hsp Hded Hb' ltac:(lia) x index total combine v) as (r & Er & Hf & Hl); auto.
  - eapply fixed_proper; eauto.
  - rewrite Sx. exact Hx.
  - lia.
  - exists r. split; auto. apply register_holds; auto.
Qed.

(* __extract_center *)
Lemma center_lanes v : 1 <= v -> lanes_of I t (4 * v) * esize t = 32 -> 4 * v * esize t <= 32 ->
  lanes_of I t (2 * v) * esize t = 16.
Proof.
  intros Hv Hl Hs. pose proof (elem_ok_pos t Ht) as Hp. revert Hl Hs. unfold lanes_of, vector_type_bytes.
  assert (H : forall (i : bool) s, In s [1; 2; 4; 8] -> forall w, In w [1; 2; 3; 4; 5; 6; 7; 8] ->
    (4 * w =? 1 = false) /\ (2 * w =? 1 = false) /\
    ((if i && (bit_ceil (4 * w * s) =? 8) then 16 else if bit_ceil (4 * w * s) <? 2 * s then 2 * s else bit_ceil (4 * w * s)) / s * s = 32 ->
     4 * w * s <= 32 ->
     (if i && (bit_ceil (2 * w * s) =? 8) then 16 else if bit_ceil (2 * w * s) <? 2 * s then 2 * s else bit_ceil (2 * w * s)) / s * s = 16)).
  { intros i s Hsn w Hw. simpl in Hsn, Hw.
    destruct i; repeat (destruct Hsn as [<-|Hsn]; [repeat (destruct Hw as [<-|Hw];
      [split; [reflexivity|split; [reflexivity|vm_compute; intros; try reflexivity; try discriminate; try lia]]|]); destruct Hw|]); destruct Hsn. }
  intros Hl Hs.
  assert (Hs' : In (esize t) [1; 2; 4; 8]).
  { simpl. assert (esize t <= 8) by nia. destruct (esize_cases t Ht) as [E|[E|[E|E]]]; rewrite ?E; auto 8. }
  assert (Hv' : In v [1; 2; 3; 4; 5; 6; 7; 8]) by (simpl; nia).
  destruct (H (def_i386 I) (esize t) Hs' v Hv') as (E4 & E2 & E).
  rewrite E4 in Hl. rewrite E2. apply E; auto.
Qed.

Lemma center_spec a b x v : simd_type I t a -> is_simd I t a x ->
  simd_type I t b -> vector_tag b -> single_register I t b -> 1 <= v ->
  abi_size t a = 4 * v -> abi_size t b = 2 * v ->
  exists r, extract_center zero I t x86 alias constant junk a x = Some r /\
    holds I t x v b [Chunk (abi_size t b) r].
Proof.
  intros Ha Hx Hb Hvb Hsr Hv Hsa Hsb. pose proof (elem_ok_pos t Ht) as Hp.
  destruct (simd_facts I t a x Ha Hx) as (Dx & Sx & Ox & Lx & Nx).
  destruct (extract_spec a b x 1 4 2 v) as (r & Er & Hr); auto; try lia.
  rewrite Nat.mul_1_l in Hr.
  destruct x as [|c [|c2 x]]; try (exists r; split; [exact Er|exact Hr]).
  clear r Er Hr. unfold extract_center.
  assert (Hcs : csize c = 4 * v).
  { unfold tshape in Sx. cbn [map] in Sx. rewrite single_size in Sx. change (fst (cshape c)) with (csize c) in Sx. lia. }
  assert (Hcr : length (creg c) = lanes_of I t (4 * v)).
  { rewrite <- Hcs. destruct a as [|n|bb|bb].
    - simpl in Hsa. lia.
    - pose proof (fixed_proper I t n [c] (fixed_type I t n Ha) Hx) as Hpr. exact (Forall_inv Hpr).
    - destruct (register_object I t (AVecBuiltin bb) A [c] Logic.I Hx) as (c' & Ec & H1 & H2). injection Ec as <-.
      rewrite H2, H1. apply full_lanes; [auto|exact Logic.I|apply Ha].
    - destruct (register_object I t (AVecBltnBtmsk bb) A [c] Logic.I Hx) as (c' & Ec & H1 & H2). injection Ec as <-.
      rewrite H2, H1. apply full_lanes; [auto|exact Logic.I|apply Ha]. }
  pose proof (lanes_of_ge I t (4 * v) ltac:(lia) Hp) as Hge. rewrite <- Hcr in Hge.
  assert (Hfin : forall r, length r = lanes_of I t (2 * v) -> firstn (2 * v) r = firstn (2 * v) (skipn v (creg c)) ->
    holds I t [c] v b [Chunk (abi_size t b) r]).
  { intros r H1 H2. apply register_holds; auto; [rewrite Hsb; auto|].
    rewrite Hsb, one_elems, firstn_skipn_firstn by lia. exact H2. }
  unfold center_register. cbv zeta. rewrite Hcs.
  replace (4 <=? 4 * v) with true by (symmetry; apply Nat.leb_le; lia).
  replace (4 * v mod 4 =? 0) with true by (symmetry; apply Nat.eqb_eq; rewrite Nat.mul_comm; apply Nat.mod_mul; lia).
  cbn [andb negb].
  assert (Htwo : forall h l, h = v -> h <= l -> firstn h (skipn h (creg c)) ++ firstn h (skipn (2 * h) (creg c)) = firstn (2 * v) (skipn v (creg c))).
  { intros h l -> _. replace (2 * v) with (v + v) at 2 by lia.
    rewrite <- (firstn_skipn v (firstn (v + v) (skipn v (creg c)))).
    rewrite firstn_firstn, Nat.min_l by lia. f_equal.
    rewrite skipn_firstn_comm. replace (v + v - v) with v by lia. f_equal. rewrite <- skipn_add. f_equal. lia. }
  assert (Hlen2 : length (firstn (2 * v) (skipn v (creg c))) = 2 * v) by (rewrite firstn_length, skipn_length; lia).
  assert (Hpow : forall B, bit_ceil B = B -> B <> 8 -> esize t * (2 * v) = B -> lanes_of I t (2 * v) = 2 * v).
  { intros B HB H8 Eb. unfold lanes_of. destruct (Nat.eqb_spec (2 * v) 1); [lia|]. unfold vector_type_bytes. cbv zeta.
    rewrite (Nat.mul_comm (2 * v)), Eb, HB. destruct (Nat.eqb_spec B 8); [lia|]. rewrite andb_false_r.
    destruct (Nat.ltb_spec B (2 * esize t)); [nia|]. rewrite <- Eb. rewrite Nat.mul_comm. apply Nat.div_mul. lia. }
  destruct (x86 && have_avx512f I && (esize t * (4 * v) =? 64)) eqn:E1.
  { btrue. assert (Ev : 16 / esize t = v).
    { replace 16 with (v * esize t) by nia. apply Nat.div_mul. lia. }
    eexists. split; [reflexivity|]. rewrite Ev. rewrite (Htwo v v) by auto. apply Hfin.
    - rewrite Hlen2. symmetry. apply (Hpow 32); [reflexivity|lia|nia].
    - rewrite firstn_firstn, Nat.min_id. reflexivity. }
  destruct (x86 && (esize t * (4 * v) =? 32) && efloating t) eqn:E2.
  { btrue. assert (Ev : 8 / esize t = v).
    { replace 8 with (v * esize t) by nia. apply Nat.div_mul. lia. }
    assert (Ev2 : 16 / esize t = 2 * v).
    { replace 16 with (2 * v * esize t) by nia. apply Nat.div_mul. lia. }
    eexists. split; [reflexivity|]. rewrite Ev, Ev2. rewrite (Htwo v v) by auto. apply Hfin.
    - rewrite Hlen2. symmetry. apply (Hpow 16); [reflexivity|lia|nia].
    - rewrite firstn_firstn, Nat.min_id. reflexivity. }
  destruct (x86 && (esize t * length (creg c) =? 32) && (esize t * (4 * v) <=? 32)) eqn:E3.
  { btrue. assert (Hcl : lanes_of I t (2 * v) * esize t = 16) by (apply center_lanes; [auto|rewrite <- Hcr; nia|nia]).
    assert (E16 : 16 / esize t = lanes_of I t (2 * v)) by (rewrite <- Hcl; apply Nat.div_mul; lia).
    assert (Ev : esize t * (4 * v) / 4 / esize t = v).
    { replace (esize t * (4 * v)) with (v * esize t * 4) by lia. rewrite Nat.div_mul by lia. apply Nat.div_mul. lia. }
    pose proof (lanes_of_ge I t (2 * v) ltac:(lia) Hp) as Hge2.
    eexists. split; [reflexivity|]. rewrite Ev, E16. apply Hfin.
    - rewrite firstn_length, skipn_length. nia.
    - rewrite firstn_firstn, Nat.min_l by lia. reflexivity. }
  replace (4 * v / 2) with (2 * v) by (replace (4 * v) with (2 * v * 2) by lia; rewrite Nat.div_mul; lia).
  replace (4 * v / 4) with v by (rewrite mul_div; lia).
  pose proof (lanes_of_ge I t (2 * v) ltac:(lia) Hp) as Hge2.
  eexists. split; [reflexivity|]. apply Hfin.
  - rewrite app_length, Hlen2, map_length, seq_length. lia.
  - rewrite firstn_app_le by lia. rewrite firstn_firstn, Nat.min_id. reflexivity.
Qed.

(* every way of making a piece from its elements *)
Lemma get_holds a b x o (g : nat -> option A) : simd_type I t a -> is_simd I t a x -> simd_type I t b ->
  o + abi_size t b <= abi_size t a -> (forall j, j < abi_size t b -> g j = nth_error (telems x) (o + j)) ->
  (exists y, generate_simd zero I t b g = Some y /\ holds I t x o b y) /\
  (exists y, load_simd zero I t b g = Some y /\ holds I t x o b y).
Proof.
  intros Ha Hx Hb Ho Hg. destruct (simd_facts I t a x Ha Hx) as (Dx & Sx & Ox & Lx & Nx).
  assert (Hne : forall j, j < abi_size t b -> g j <> None).
  { intros j Hj E. rewrite Hg in E by auto. apply nth_error_None in E. lia. }
  split.
  - destruct (generate_spec zero I t b g Hb Hne) as (y & E & Hy & N). exists y. split; auto.
    apply holds_get; auto; [lia|]. intros i Hi. rewrite N by auto. auto.
  - destruct (load_spec zero I t b g Hb) as (y & E & Hy & N).
    { intros j Hj. apply Nat.ltb_lt in Hj. auto. }
    exists y. split; auto. apply holds_get; auto; [lia|]. intros i Hi. rewrite N by auto. auto.
Qed.

Lemma split_same_spec a b x parts : simd_type I t a -> is_simd I t a x -> simd_type I t b -> single_register I t b ->
  abi_size t a = parts * abi_size t b ->
  exists ys, split_same zero I t x86 sse41 alias constant cx86 unpack b a x = Some ys /\ length ys = parts /\
    forall i, i < parts -> exists y, nth_error ys i = Some y /\ holds I t x (i * abi_size t b) b y.
Proof.
  intros Ha Hx Hb Hsr Hsz. destruct (simd_facts I t a x Ha Hx) as (Dx & Sx & Ox & Lx & Nx).
  destruct (shape_facts I t b Hb) as (sb & Esb & Dsb & Ssb & Nb).
  assert (Hp1 : 1 <= parts) by nia.
  unfold split_same. cbv zeta. rewrite Hsz. rewrite Nat.div_mul by lia. rewrite Nat.eqb_refl.
  replace (1 <=? abi_size t b) with true by (symmetry; apply Nat.leb_le; auto). cbn [andb negb].
  set (k := abi_size t b) in *.
  assert (Hall : forall f : nat -> option (tuple A),
    (forall i, i < parts -> exists y, f i = Some y /\ holds I t x (i * k) b y) ->
    exists ys, omapm f (seq 0 parts) = Some ys /\ length ys = parts /\
      forall i, i < parts -> exists y, nth_error ys i = Some y /\ holds I t x (i * k) b y).
  { intros f Hf. destruct (omapm_spec f (seq 0 parts)) as (ys & E & L & N).
    - intros i Hi. apply in_seq in Hi. destruct (Hf i ltac:(lia)) as (y & -> & _). discriminate.
    - rewrite seq_length in L. exists ys. split; auto. split; auto. intros i Hi.
      destruct (Hf i Hi) as (y & Ey & Hy). exists y. split; auto. rewrite (N i i); auto.
      rewrite nth_error_seq by auto. reflexivity. }
  destruct (Nat.eqb_spec parts 1) as [->|E1].
  { destruct (cast_same_spec zero I t x86 sse41 constant cx86 unpack Hcx Hun a b x Ha Hb ltac:(unfold k in *; lia) Hx) as (y & Ey & Hy).
    rewrite Ey. exists [y]. split; auto. split; auto. intros i Hi. assert (i = 0) by lia. subst. exists y. auto. }
  assert (Hin : forall i, i < parts -> i * k + k <= abi_size t a) by (intros; nia).
  assert (Hgetx : forall i j, i < parts -> j < k -> t_get x (i * k + j) = nth_error (telems x) (i * k + j)).
  { intros i j Hi Hj. apply get_elems; auto. nia. }
  assert (Hgen : forall i, i < parts -> exists y,
    generate_simd zero I t b (fun j => t_get x (i * k + j)) = Some y /\ holds I t x (i * k) b y).
  { intros i Hi. apply (get_holds a b x (i * k) (fun j => t_get x (i * k + j))); auto. }
  destruct (constant x); [apply Hall; auto|].
  destruct (is_fixed_abi a && (is_scalar_abi b || is_fixed_abi b && no_padding I t k)) eqn:E2.
  { apply Hall. intros i Hi. destruct alias.
    - apply (get_holds a b x (i * k) (mshift (object zero x) (i * k))); auto.
      intros j Hj. unfold mshift. rewrite object_get by (auto; nia). auto.
    - apply (get_holds a b x (i * k) (fun j => t_get_const x (j + i * k))); auto.
      intros j Hj. rewrite get_const_elems by auto. f_equal. lia. }
  destruct (is_scalar_abi b) eqn:E3.
  { destruct b; try discriminate. apply Hall. intros i Hi.
    specialize (Hgetx i 0 Hi ltac:(unfold k; simpl; lia)). unfold k in *. cbn [abi_size] in *. rewrite Nat.mul_1_r, Nat.add_0_r in *.
    rewrite Hgetx. destruct (nth_error (telems x) i) as [v|] eqn:Ev; [|apply nth_error_None in Ev; lia].
    exists [Chunk 1 [v]]. split; auto. apply holds_get; auto.
    - cbn [abi_size]. lia.
    - reflexivity.
    - cbn [abi_size]. intros j Hj. assert (j = 0) by lia. subst. rewrite Nat.add_0_r. symmetry. exact Ev. }
  apply Hall. intros i Hi. destruct (is_fixed_abi b) eqn:E4; auto.
  assert (Hvb : vector_tag b) by (destruct b; try discriminate; exact Logic.I).
  destruct (extract_spec a b x i parts 1 k) as (r & Er & Hr); auto; try (unfold k; lia).
  rewrite Er. eexists. split; [reflexivity|]. exact Hr.
Qed.

(* split<_Sizes...> *)
Definition piece_at (x : tuple A) (p : nat * nat) (y : tuple A) : Prop :=
  exists b, deduce I t (snd p) = Some b /\ simd_type I t b /\ abi_size t b = snd p /\ holds I t x (fst p) b y.

Definition piece_fits (np : nat) (p : nat * nat) (q : piece) : Prop :=
  match q with
  | Part i tot c => exists v, 1 <= v /\ np = tot * v /\ snd p = c * v /\ fst p = i * v /\ 1 <= c /\ i + c <= tot
  | Center => exists v, 1 <= v /\ np = 4 * v /\ snd p = 2 * v /\ fst p = v
  end.

Lemma offsets_bound : forall sizes o p, In p (offsets o sizes) -> o <= fst p /\ fst p + snd p <= o + list_sum sizes /\ In (snd p) sizes.
Proof.
  induction sizes as [|s r IH]; intros o p Hp; [destruct Hp|]. cbn [offsets] in Hp. cbn [list_sum fold_right].
  change (fold_right Nat.add 0 r) with (list_sum r).
  destruct Hp as [<-|Hp]; [simpl; repeat split; auto; lia|].
  destruct (IH (o + s) p Hp) as (H1 & H2 & H3). simpl. repeat split; auto; lia.
Qed.

Lemma special_spec np sizes ps : list_sum sizes = np -> sizes <> [] -> Forall (fun s => 1 <= s) sizes ->
  special np sizes = Some ps -> Forall2 (piece_fits np) (offsets 0 sizes) ps.
Proof.
  intros Hs Hne Hpos. unfold special.
  assert (D2 := Nat.div_mod np 2 ltac:(lia)). assert (D3 := Nat.div_mod np 3 ltac:(lia)).
  assert (D4 := Nat.div_mod np 4 ltac:(lia)). assert (D23 := Nat.div_mod (2 * np) 3 ltac:(lia)).
  assert (M2 := Nat.mod_upper_bound np 2 ltac:(lia)). assert (M3 := Nat.mod_upper_bound np 3 ltac:(lia)).
  assert (M4 := Nat.mod_upper_bound np 4 ltac:(lia)). assert (M23 := Nat.mod_upper_bound (2 * np) 3 ltac:(lia)).
  rewrite Forall_forall in Hpos.
  destruct (forallb (fun s => s * 2 =? np) sizes) eqn:F2.
  { intros H. injection H as <-. rewrite forallb_forall in F2.
    assert (Hq : forall s, In s sizes -> s * 2 = np) by (intros s Hin; apply Nat.eqb_eq; apply F2; auto).
    destruct sizes as [|a [|b [|c r]]]; [congruence| | |].
    all: pose proof (Hq a ltac:(simpl; auto)); pose proof (Hpos a ltac:(simpl; auto)); simpl in Hs.
    1: lia.
    all: pose proof (Hq b ltac:(simpl; auto)).
    2: pose proof (Hq c ltac:(simpl; auto)); lia.
    repeat constructor; exists a; simpl; lia. }
  repeat match goal with
  | |- context [list_eq_dec Nat.eq_dec sizes ?l] =>
      destruct (list_eq_dec Nat.eq_dec sizes l) as [El|_];
      [intros H; injection H as <-; rewrite El in *; cbn [list_sum fold_right] in Hs;
       match goal with
       | |- Forall2 _ (offsets 0 [?x; ?y]) _ => pose proof (Hpos x ltac:(simpl; auto)); pose proof (Hpos y ltac:(simpl; auto))
       | |- Forall2 _ (offsets 0 [?x; ?y; ?z]) _ => pose proof (Hpos x ltac:(simpl; auto)); pose proof (Hpos y ltac:(simpl; auto))
       end; clear Hpos Hne F2 El; cbn [offsets];
       repeat constructor; cbn [piece_fits fst snd]|]
  end.
  all: try (exists (np / 3); lia); try (exists (np / 4); lia); try (exists (np / 2); lia).
  destruct (forallb (fun s => s * 4 =? np) sizes) eqn:F4; [|discriminate].
  intros H. injection H as <-. rewrite forallb_forall in F4.
  assert (Hq : forall s, In s sizes -> s * 4 = np) by (intros s Hin; apply Nat.eqb_eq; apply F4; auto).
  destruct sizes as [|a [|b [|c [|d [|e r]]]]]; [congruence| | | | |].
  all: pose proof (Hq a ltac:(simpl; auto)); pose proof (Hpos a ltac:(simpl; auto)); simpl in Hs.
  1: lia.
  all: pose proof (Hq b ltac:(simpl; auto)). 1: lia.
  all: pose proof (Hq c ltac:(simpl; auto)). 1: lia.
  all: pose proof (Hq d ltac:(simpl; auto)).
  2: pose proof (Hq e ltac:(simpl; auto 8)); lia.
  repeat constructor; exists a; simpl; lia.
Qed.

Lemma deduce_in a n : simd_type I t a -> 1 <= n <= abi_size t a -> exists b, deduce I t n = Some b.
Proof.
  intros (_ & _ & Hv) Hn. destruct a as [|m|b|b].
  - simpl in Hn. assert (n = 1) by lia. subst. rewrite deduce_one by auto. eauto.
  - cbn [abi_valid abi_size] in *. btrue. apply deduce_total; lia.
  - destruct (register_le I t (AVecBuiltin b) Ht Logic.I Hv). apply deduce_total; lia.
  - destruct (register_le I t (AVecBltnBtmsk b) Ht Logic.I Hv). apply deduce_total; lia.
Qed.

Lemma Forall2_omapm {X Y} (f : X -> option Y) (P : X -> Y -> Prop) l :
  (forall p, In p l -> exists y, f p = Some y /\ P p y) -> exists ys, omapm f l = Some ys /\ Forall2 P l ys.
Proof.
  induction l as [|p l IH]; intros H; [exists []; split; [reflexivity|constructor]|].
  destruct (H p ltac:(simpl; auto)) as (y & E & Hy). destruct IH as (ys & Es & Hys); [intros; apply H; right; auto|].
  exists (y :: ys). cbn [omapm]. rewrite E, Es. split; [reflexivity|constructor; auto].
Qed.

Lemma split_sizes_spec : forall sizes a x, simd_type I t a -> is_simd I t a x -> list_sum sizes = abi_size t a ->
  Forall (fun s => 1 <= s /\ forall b, deduce I t s = Some b -> single_register I t b) sizes ->
  exists ys, split_sizes zero I t x86 sse41 alias constant junk cx86 unpack sizes a x = Some ys /\
    Forall2 (piece_at x) (offsets 0 sizes) ys.
Proof.
  induction sizes as [|n0 rest IH]; intros a x Ha Hx Hsum Hsizes.
  { destruct (simd_facts I t a x Ha Hx) as (_ & _ & _ & _ & Nx). simpl in Hsum. lia. }
  destruct (simd_facts I t a x Ha Hx) as (Dx & Sx & Ox & Lx & Nx).
  assert (Hgetx : forall o, o < abi_size t a -> t_get x o = nth_error (telems x) o) by (intros; apply get_elems; auto; lia).
  assert (Hoff : forall p, In p (offsets 0 (n0 :: rest)) ->
    1 <= snd p /\ fst p + snd p <= abi_size t a /\ exists b, deduce I t (snd p) = Some b /\ simd_type I t b /\ abi_size t b = snd p /\
      single_register I t b).
  { intros p Hp. destruct (offsets_bound _ _ _ Hp) as (_ & H2 & H3). rewrite Forall_forall in Hsizes.
    destruct (Hsizes _ H3) as (H1 & Hs). split; auto. split; [lia|].
    destruct (deduce_in a (snd p) Ha ltac:(lia)) as (b & Eb). destruct (deduce_facts I t (snd p) b HI Ht H1 Eb).
    exists b. auto. }
  (* all pieces by one of the element-wise ways *)
  assert (Hways : forall (mk : abi -> nat -> option (tuple A)),
    (forall b o, simd_type I t b -> o + abi_size t b <= abi_size t a -> exists y, mk b o = Some y /\ holds I t x o b y) ->
    exists ys, omapm (fun p => match deduce I t (snd p) with Some b => mk b (fst p) | None => None end) (offsets 0 (n0 :: rest)) = Some ys /\
      Forall2 (piece_at x) (offsets 0 (n0 :: rest)) ys).
  { intros mk Hmk. apply Forall2_omapm. intros p Hp. destruct (Hoff p Hp) as (_ & H2 & b & Eb & Hb & Hs & _).
    rewrite Eb. destruct (Hmk b (fst p) Hb ltac:(lia)) as (y & Ey & Hy). exists y. split; auto. exists b. auto. }
  cbn [split_sizes].
  destruct (constant x).
  { apply (Hways (fun b o => generate_simd zero I t b (fun j => t_get x (o + j)))). intros b o Hb Ho.
    apply (get_holds a b x o (fun j => t_get x (o + j))); auto. intros j Hj. apply Hgetx. lia. }
  destruct (Nat.eqb_spec (abi_size t a) n0) as [E0|E0].
  { assert (rest = []) as ->.
    { destruct rest as [|s r]; auto. exfalso. inversion Hsizes as [|? ? _ H']; subst. inversion H' as [|? ? [H1 _] _]; subst.
      simpl in Hsum. lia. }
    destruct (Hoff (0, n0) ltac:(simpl; auto)) as (_ & _ & b & Eb & Hb & Hs & _). cbn [snd] in *. rewrite Eb.
    destruct (cast_same_spec zero I t x86 sse41 constant cx86 unpack Hcx Hun a b x Ha Hb ltac:(lia) Hx) as (y & Ey & Hy).
    rewrite Ey. exists [y]. split; [reflexivity|]. repeat constructor. exists b. auto. }
  destruct (is_fixed_abi a && (csize (hd (Chunk 0 []) x) =? n0)) eqn:E1.
  { apply andb_true_iff in E1 as [Ea E1]. apply Nat.eqb_eq in E1. destruct a as [|n| |]; try discriminate. clear Ea.
    pose proof Hx as Hst. unfold is_simd in Hst. cbn [simd_shape] in Hst. cbn [abi_size] in *.
    destruct x as [|c xr]; [unfold ssize in Sx; simpl in Sx; lia|]. cbn [hd] in E1.
    assert (Hsz : ssize (tshape (c :: xr)) = csize c + ssize (tshape xr)) by (unfold tshape; cbn [map]; rewrite ssize_cons; reflexivity).
    assert (Hxr : xr <> []).
    { intros ->. change (ssize (tshape [])) with 0 in Hsz. lia. }
    assert (Hstr : storage_shape I t (n - csize c) = Some (tshape xr)).
    { apply (storage_tail I t n (cshape c)); [exact Ht|exact Hst|]. destruct xr; [congruence|discriminate]. }
    destruct (first_deduced I t n (cshape c) (tshape xr) HI Ht Hst) as (b & Eb & Rb). change (fst (cshape c)) with (csize c) in Eb.
    rewrite E1 in Eb. rewrite Eb.
    assert (Hb' : 1 <= n0) by (rewrite Forall_forall in Hsizes; apply (Hsizes n0); simpl; auto).
    destruct (deduce_facts I t n0 b HI Ht Hb' Eb) as (Hb & Hsb).
    assert (Hxr1 : 1 <= ssize (tshape xr)).
    { destruct xr as [|c2 xr2]; [congruence|]. pose proof (dense_tail _ _ Dx) as Dr. cbn [map dense cshape fst] in Dr.
      unfold tshape. cbn [map]. rewrite ssize_cons. change (fst (cshape c2)) with (csize c2). lia. }
    assert (Hmax : n <= max_fixed_size I t) by (destruct (fixed_type I t n Ha) as (_ & _ & ?); lia).
    destruct (IH (AFixed (ssize (tshape xr))) xr) as (ys & Eys & Hys).
    - split; [exact HI|split; [exact Ht|]]. cbn [abi_valid]. apply andb_true_iff.
      split; [apply Nat.ltb_lt; lia|apply Nat.leb_le; lia].
    - unfold is_simd. cbn [simd_shape]. replace (ssize (tshape xr)) with (n - csize c) by lia. exact Hstr.
    - cbn [abi_size]. cbn [list_sum fold_right] in Hsum. change (fold_right Nat.add 0 rest) with (list_sum rest) in Hsum. lia.
    - inversion Hsizes; auto.
    - rewrite Eys. cbn [option_map].
      assert (Hcel : length (celems c) = csize c) by (apply celems_length; apply (Forall_inv Ox)).
      exists ([c] :: ys). split.
      { destruct b as [|m|bb|bb]; auto. exfalso. exact Rb. }
      cbn [offsets]. constructor.
      + exists b. cbn [fst snd]. split; auto. split; auto. split; auto. split.
        * pose proof (fixed_proper I t n (c :: xr) (fixed_type I t n Ha) Hst) as Hpr. apply Forall_inv in Hpr. cbv beta in Hpr.
          unfold is_simd. assert (Hsh : abi_shape I t b = cshape c).
          { unfold abi_shape, cshape. f_equal; [lia|]. rewrite Hpr, E1, <- Hsb.
            destruct b as [|m|bb|bb]; [reflexivity|exfalso; exact Rb| |]; apply full_lanes; auto; try exact Logic.I; apply Hb. }
          unfold tshape. cbn [map]. rewrite <- Hsh. destruct b; try reflexivity. exfalso. exact Rb.
        * rewrite one_elems, telems_cons, Hsb. cbn [skipn]. rewrite firstn_app_le by lia. unfold celems.
          rewrite firstn_firstn, E1, Nat.min_id. reflexivity.
      + cbn [plus]. clear - Hys Hcel E1. rewrite <- E1, <- Hcel.
        assert (Hgen : forall r o, offsets (length (celems c) + o) r = map (fun p => (length (celems c) + fst p, snd p)) (offsets o r)).
        { induction r as [|s r IHr]; intros o; [reflexivity|]. cbn [offsets map fst snd]. f_equal.
          rewrite <- IHr. f_equal. lia. }
        rewrite <- (Nat.add_0_r (length (celems c))), Hgen. clear Hgen.
        induction Hys as [|p y ps ys Hy _ IHy]; [constructor|]. cbn [map]. constructor; auto.
        destruct Hy as (b & H1 & H2 & H3 & H4 & H5). exists b. cbn [fst snd]. split; auto. split; auto. split; auto. split; auto.
        rewrite H5. rewrite telems_cons. rewrite skipn_past by lia. do 2 f_equal. lia. }
  (* its own code or element by element *)
  destruct (if forallb (fun s => is_native_register (deduce I t s)) (n0 :: rest) then special (abi_size t a) (n0 :: rest) else None)
    as [ps|] eqn:Esp.
  - destruct (forallb (fun s => is_native_register (deduce I t s)) (n0 :: rest)) eqn:Enat; [|discriminate].
    assert (Hf : Forall2 (piece_fits (abi_size t a)) (offsets 0 (n0 :: rest)) ps).
    { apply special_spec; auto; [discriminate|]. eapply Forall_impl; [|exact Hsizes]. intros s [? _]. auto. }
    rewrite forallb_forall in Enat.
    assert (Hlen : length (offsets 0 (n0 :: rest)) = length (n0 :: rest)).
    { generalize 0. generalize (n0 :: rest). induction l as [|s r IHr]; intros o; [reflexivity|]. cbn [offsets length]. f_equal. apply IHr. }
    assert (Hps : length ps = length (n0 :: rest)) by (rewrite <- Hlen; clear - Hf; induction Hf; simpl; auto).
    rewrite Hps, Nat.eqb_refl.
    assert (Hmk : forall p q, In p (offsets 0 (n0 :: rest)) -> piece_fits (abi_size t a) p q ->
      exists y, option_map (fun r => [Chunk (snd p) r])
        (match q with Part i tot c => extract zero I t x86 alias constant a x i tot c
                    | Center => extract_center zero I t x86 alias constant junk a x end) = Some y /\ piece_at x p y).
    { intros p q Hp Hq. destruct (Hoff p Hp) as (_ & _ & b & Eb & Hb & Hs & Hsr).
      destruct (offsets_bound _ _ _ Hp) as (_ & _ & Hin). pose proof (Enat _ Hin) as Hn. rewrite Eb in Hn.
      assert (Hvb : vector_tag b) by (destruct b; try discriminate; exact Logic.I).
      destruct q as [i tot c|]; cbn [piece_fits] in Hq.
      - destruct Hq as (v & Q1 & Q2 & Q3 & Q4 & Q5 & Q6).
        destruct (extract_spec a b x i tot c v) as (r & Er & Hr); auto; try lia.
        rewrite Er. eexists. split; [reflexivity|]. exists b. rewrite Q4, <- Hs. rewrite Hs at 1. auto.
      - destruct Hq as (v & Q1 & Q2 & Q3 & Q4).
        destruct (center_spec a b x v) as (r & Er & Hr); auto; try lia.
        rewrite Er. eexists. split; [reflexivity|]. exists b. rewrite Q4, <- Hs. rewrite Hs at 1. auto. }
    clear - Hf Hmk. revert Hf Hmk. generalize (n0 :: rest) as l. generalize 0 as o. intros o l. revert o ps.
    induction l as [|s r IHl]; intros o ps Hf Hmk.
    + inversion Hf; subst. exists []. split; [reflexivity|constructor].
    + cbn [offsets] in *. inversion Hf as [|p q ps0 ps' H1 H2]; subst.
      destruct (Hmk (o, s) q ltac:(left; auto) H1) as (y & Ey & Hy).
      destruct (IHl (o + s) ps' H2) as (ys & Eys & Hys); [intros; apply Hmk; auto; right; auto|].
      exists (y :: ys). split; [|constructor; auto]. cbn [combine omapm fst snd]. cbn [snd] in Ey. rewrite Ey, Eys. reflexivity.
  - clear Esp. destruct alias.
    + apply (Hways (fun b o => load_simd zero I t b (mshift (object zero x) o))). intros b o Hb Ho.
      apply (get_holds a b x o (mshift (object zero x) o)); auto. intros j Hj. unfold mshift.
      rewrite object_get by (auto; lia). apply Hgetx. lia.
    + apply (Hways (fun b o => generate_simd zero I t b (fun j => t_get_const x (o + j)))). intros b o Hb Ho.
      apply (get_holds a b x o (fun j => t_get_const x (o + j))); auto. intros j Hj. apply get_const_elems. auto.
Qed.

(* concat *)
Definition pack_elems (xs : list (abi * tuple A)) : list A := flat_map (fun p => telems (snd p)) xs.
Definition pack_size (xs : list (abi * tuple A)) : nat := list_sum (map (fun p => abi_size t (fst p)) xs).

Lemma pack_length xs : Forall (fun p => simd_type I t (fst p) /\ is_simd I t (fst p) (snd p)) xs ->
  length (pack_elems xs) = pack_size xs.
Proof.
  induction 1 as [|[a x] xs [Ha Hx] _ IH]; [reflexivity|]. cbn [fst snd] in *. unfold pack_elems, pack_size in *.
  cbn [flat_map map list_sum fold_right fst snd]. rewrite app_length, IH.
  destruct (simd_facts I t a x Ha Hx) as (_ & _ & _ & L & _). rewrite L. reflexivity.
Qed.
Lemma subscript_spec xs : Forall (fun p => simd_type I t (fst p) /\ is_simd I t (fst p) (snd p)) xs ->
  forall i, i < pack_size xs -> subscript_in_pack t xs i = nth_error (pack_elems xs) i.
Proof.
  induction 1 as [|[a x] xs [Ha Hx] _ IH]; intros i Hi.
  { unfold pack_size in Hi. simpl in Hi. lia. }
  cbn [fst snd] in *. unfold pack_elems, pack_size in *. cbn [flat_map map list_sum fold_right fst snd subscript_in_pack] in *.
  change (fold_right Nat.add 0 (map (fun p : abi * tuple A => abi_size t (fst p)) xs))
    with (list_sum (map (fun p : abi * tuple A => abi_size t (fst p)) xs)) in Hi.
  destruct (simd_facts I t a x Ha Hx) as (D & S & _ & L & _).
  destruct (Nat.ltb_spec i (abi_size t a)).
  - rewrite nth_error_app1 by lia. apply get_elems; auto. lia.
  - rewrite nth_error_app2 by lia. rewrite L. apply IH. lia.
Qed.
Lemma store_pack_spec xs : Forall (fun p => simd_type I t (fst p) /\ is_simd I t (fst p) (snd p)) xs ->
  store_pack zero t xs = Some (pack_elems xs).
Proof.
  induction 1 as [|[a x] xs [Ha Hx] _ IH]; [reflexivity|]. cbn [fst snd store_pack] in *.
  destruct (simd_facts I t a x Ha Hx) as (D & S & _ & L & _). pose proof (dense_lanes _ D) as Hl.
  assert (Ho : length (obj_mem zero x) >= abi_size t a).
  { unfold obj_mem. rewrite app_length, tmem_length. lia. }
  destruct (Nat.ltb_spec (length (obj_mem zero x)) (abi_size t a)); [lia|]. rewrite IH. cbn [option_map].
  unfold pack_elems. cbn [flat_map snd]. f_equal. f_equal.
  unfold obj_mem. rewrite firstn_app_le by (rewrite tmem_length; lia). rewrite <- S. apply dense_mem. exact D.
Qed.
Lemma div_roundup_ge x k : 1 <= k -> x <= round_up x k.
Proof. intros H. unfold round_up, div_roundup. pose proof (Nat.div_mod (x + k - 1) k). pose proof (Nat.mod_upper_bound (x + k - 1) k). nia. Qed.
Lemma salign_pos s : 1 <= salign s.
Proof. unfold salign. induction s; simpl; lia. Qed.
Lemma sizeof_lanes s : slanes s <= ssizeof s.
Proof.
  induction s as [|[n l] s IH]; [reflexivity|]. rewrite slanes_cons. cbn [ssizeof snd].
  pose proof (salign_pos s). pose proof (div_roundup_ge l (salign s) ltac:(lia)).
  pose proof (div_roundup_ge (round_up l (salign s) + ssizeof s) (Nat.max l (salign s)) ltac:(lia)). lia.
Qed.

Lemma concat_spec xs b : Forall (fun p => simd_type I t (fst p) /\ is_simd I t (fst p) (snd p)) xs -> xs <> [] ->
  deduce I t (pack_size xs) = Some b ->
  exists y, concat_simd zero I t x86 sse41 constant cx86 unpack xs = Some y /\ is_simd I t b y /\
    simd_type I t b /\ abi_size t b = pack_size xs /\ telems y = pack_elems xs.
Proof.
  intros Hxs Hne Hd. pose proof (pack_length xs Hxs) as Hlen.
  assert (H1 : 1 <= pack_size xs).
  { destruct xs as [|[a x] xs]; [congruence|]. apply Forall_inv in Hxs. destruct Hxs as [Ha Hx].
    destruct (simd_facts I t a x Ha Hx) as (_ & _ & _ & _ & N). unfold pack_size. cbn [map fst list_sum fold_right]. lia. }
  destruct (deduce_facts I t (pack_size xs) b HI Ht H1 Hd) as (Hb & Hs).
  unfold concat_simd. change (list_sum (map (fun p : abi * tuple A => abi_size t (fst p)) xs)) with (pack_size xs). rewrite Hd.
  assert (Hmany : exists y,
    (if forallb (fun p => constant (snd p)) xs then generate_simd zero I t b (subscript_in_pack t xs)
     else match simd_shape I t b, store_pack zero t xs with
          | Some s, Some l => if ssizeof s <? length l then None
                              else Some (tof_mem s (l ++ skipn (length l) (repeat zero (slanes s))))
          | _, _ => None end) = Some y /\ is_simd I t b y /\ simd_type I t b /\ abi_size t b = pack_size xs /\ telems y = pack_elems xs).
  { destruct (forallb (fun p => constant (snd p)) xs).
    - destruct (generate_spec zero I t b (subscript_in_pack t xs) Hb) as (y & Ey & Hy & N).
      { intros j Hj E. rewrite subscript_spec in E by (auto; lia). apply nth_error_None in E. lia. }
      exists y. split; auto. split; auto. split; auto. split; auto.
      destruct (simd_facts I t b y Hb Hy) as (D & S & _ & _ & _).
      apply (telems_by_get y (abi_size t b)); auto; [lia|]. intros i Hi. rewrite N by auto. apply subscript_spec; auto. lia.
    - destruct (shape_facts I t b Hb) as (s & Es & Ds & Ss & _). rewrite Es, store_pack_spec by auto.
      pose proof (sizeof_lanes s) as H2. pose proof (dense_lanes s Ds) as H3.
      destruct (Nat.ltb_spec (ssizeof s) (length (pack_elems xs))); [lia|].
      assert (Hl : slanes s <= length (pack_elems xs ++ skipn (length (pack_elems xs)) (repeat zero (slanes s)))).
      { rewrite app_length, skipn_length, repeat_length. lia. }
      eexists. split; [reflexivity|]. split.
      { unfold is_simd. rewrite tof_mem_shape; auto. }
      split; auto. split; auto. rewrite telems_tof_mem by auto.
      rewrite Ss, Hs, <- Hlen. rewrite firstn_app_le by lia. apply firstn_all. }
  destruct xs as [|[a x] [|p2 xs]]; [congruence| |exact Hmany]. clear Hmany.
  apply Forall_inv in Hxs. destruct Hxs as [Ha Hx]. cbn [fst snd] in *.
  assert (Hsz : abi_size t a = abi_size t b) by (rewrite Hs; unfold pack_size; simpl; lia).
  destruct (cast_same_spec zero I t x86 sse41 constant cx86 unpack Hcx Hun a b x Ha Hb Hsz Hx) as (y & Ey & H2 & H3).
  exists y. split; auto. split; auto. split; auto. split; auto.
  unfold pack_elems in *. cbn [flat_map snd skipn] in *. rewrite H3. rewrite Hs, <- Hlen, app_nil_r. apply firstn_all.
Qed.
End Top.
