(* C18, masked loads and stores: two runs whose registers and masks agree on the
   elements. *)
From Coq Require Import List ZArith Bool Arith Lia.
From Verif Require Import Prelude MaskSpec BitMask KMask KMaskSpec X86Lanes X86ShiftSpec X86Mul X86Div IntDiv IntDivSpec X86Mask X86MaskSpec.
From Verif Require Import Abi AbiSpec Mem MemSpec MemProofs Padding PaddingSpec.
Import ListNotations.
Local Open Scope Z_scope.

Lemma agree_masked_load {U} kind (conv : U -> Z) n x x' k k' (p : mem U) : (n <= 64)%nat -> (n <= length x)%nat ->
  agree n x x' -> (forall i, (i < n)%nat -> nth i k false = nth i k' false) ->
  (kind = MLAvx -> clean_mask n k /\ clean_mask n k') ->
  accessible p (fun j => (j <? n)%nat && nth j k false) ->
  exists r r', vec_masked_load kind conv n x k p = Some r /\ vec_masked_load kind conv n x' k' p = Some r' /\ agree n r r'.
Proof.
  intros H64 Hn [L A] K C P.
  destruct (vec_masked_load_spec (T := Z) (U := U) kind conv n x k p) as (r & E & Lr & R); auto; [intros; apply C; auto|].
  destruct (vec_masked_load_spec (T := Z) (U := U) kind conv n x' k' p) as (r' & E' & Lr' & R'); auto; try lia; [intros; apply C; auto| |].
  { intros j Hj. apply P. cbn beta; change ((j <? n)%nat && nth j k' false = true) in Hj. revert Hj. destruct (Nat.ltb_spec j n); [|exact (fun F => F)]. rewrite K by auto. auto. }
  exists r, r'. split; [auto|]. split; [auto|]. split; [lia|]. intros i Hi.
  assert (Q : nth_error r i = nth_error r' i).
  { rewrite R, R', K by auto. destruct (nth i k' false); auto.
    rewrite (nth_error_nth' x 0), (nth_error_nth' x' 0), A by lia. auto. }
  rewrite (nth_error_nth' r 0), (nth_error_nth' r' 0) in Q by lia. injection Q; auto.
Qed.

Lemma agree_masked_store {U} x86 I u kind (conv : Z -> U) n x x' k k' (p : mem U) :
  elem_ok u -> (esize u <= 8)%nat -> (1 <= n <= 64)%nat -> (n <= length x)%nat -> (exists q, length x = 2 ^ q)%nat ->
  agree n x x' -> (forall i, (i < n)%nat -> nth i k false = nth i k' false) ->
  (kind = MSSame /\ x86 = true \/ kind = MSConvert -> clean_mask n k /\ clean_mask n k') ->
  accessible p (fun j => (j <? n)%nat && nth j k false) ->
  exists q q', vec_masked_store x86 I u kind conv n x k p = Some q /\ vec_masked_store x86 I u kind conv n x' k' p = Some q' /\
    forall j, q j = q' j.
Proof.
  intros Hu H8 H64 Hn P2 [L A] K C P.
  destruct (vec_masked_store_spec (T := Z) (U := U) x86 I u kind conv n x k p) as (r & E & R); auto; try lia; [intros; apply C; auto|].
  destruct (vec_masked_store_spec (T := Z) (U := U) x86 I u kind conv n x' k' p) as (r' & E' & R'); auto; try lia.
  { rewrite <- L. auto. }
  { intros; apply C; auto. }
  { intros j Hj. apply P. cbn beta; change ((j <? n)%nat && nth j k' false = true) in Hj. revert Hj. destruct (Nat.ltb_spec j n); [|exact (fun F => F)]. rewrite K by auto. auto. }
  exists r, r'. split; [auto|]. split; [auto|]. intros j. rewrite R, R'. unfold selected.
  destruct (Nat.ltb_spec j n); auto. cbn [andb]. rewrite K by auto. destruct (nth j k' false); auto.
  rewrite (nth_error_nth' x 0), (nth_error_nth' x' 0), A by lia. auto.
Qed.

(* a register with padding: two masks with the same elements (none), of which
   one makes the load undefined and the store write behind the elements *)
Lemma load_lanes_false {U T} (conv : U -> T) m : forall merge i q, load_lanes conv i merge (repeat false q) m = Some merge.
Proof.
  induction merge as [|x r IH]; intros i q; cbn; auto.
  replace (hd false (repeat false q)) with false by (destruct q; auto).
  replace (tl (repeat false q)) with (repeat false (pred q)) by (destruct q; auto).
  rewrite IH. auto.
Qed.
Lemma load_lanes_pad {U T} (conv : U -> T) (m : mem U) : forall n merge i, (n < length merge)%nat -> m (i + n)%nat = None ->
  load_lanes conv i merge (repeat false n ++ [true]) m = None.
Proof.
  induction n as [|n IH]; intros [|x r] i H Hm; cbn in H; try lia; cbn [repeat app load_lanes hd tl].
  - rewrite Nat.add_0_r in Hm. rewrite Hm. auto.
  - rewrite IH; auto; [lia|]. rewrite <- Hm. f_equal. lia.
Qed.
Lemma mwrites_hole {A} : forall l (m : mem A) i v, In (i, v) l -> m i = None -> mwrites m l = None.
Proof.
  induction l as [|[j w] r IH]; intros m i v HI Hm; [destruct HI|]. cbn.
  destruct HI as [HI|HI].
  - injection HI as -> ->. unfold mwrite. rewrite Hm. auto.
  - unfold mwrite. destruct (m j) as [c|] eqn:Ej; auto. apply (IH _ i v HI).
    destruct (Nat.eqb_spec i j); [congruence|auto].
Qed.
Lemma c18_masked_memory n x (I : isa) u : (n < length x)%nat -> exists k k' (p : mem Z),
  length k = length k' /\ (forall i, (i < n)%nat -> nth i k false = nth i k' false) /\
  accessible p (fun j => (j <? n)%nat) /\
  vec_masked_load MLAvx (fun v => v) n x k p = None /\ vec_masked_load MLAvx (fun v => v) n x k' p = Some x /\
  vec_masked_store true I u MSSame (fun v => v) n x k p = None /\
  (exists q, vec_masked_store true I u MSSame (fun v => v) n x k' p = Some q /\ forall j, q j = p j).
Proof.
  intros Hn. exists (repeat false n ++ [true]), (repeat false (S n)), (fun j => if (j <? n)%nat then Some 0 else None).
  split; [rewrite app_length, !repeat_length; cbn; lia|].
  split; [intros i Hi; rewrite app_nth1 by (rewrite repeat_length; auto); rewrite !nth_repeat; auto|].
  split; [intros j Hj; rewrite Hj; discriminate|].
  split; [apply load_lanes_pad; auto; rewrite Nat.add_0_l, Nat.ltb_irrefl; auto|].
  split; [apply load_lanes_false|].
  cbn [vec_masked_store]. unfold store_nocvt, store_lanes. rewrite map_id. split.
  - destruct (nth_error x n) as [v|] eqn:Ev; [|apply nth_error_None in Ev; lia].
    apply (mwrites_hole _ _ n v); [|rewrite Nat.ltb_irrefl; auto].
    apply in_flat_map. exists n. split; [apply in_seq; lia|]. rewrite Ev.
    rewrite app_nth2 by (rewrite repeat_length; auto). rewrite repeat_length, Nat.sub_diag. left. auto.
  - eexists. split; [|intros j; reflexivity].
    replace (flat_map _ _) with (@nil (nat * Z)); auto.
    generalize (seq 0 (length x)). intros l. induction l as [|i l IH]; auto. cbn [flat_map]. rewrite <- IH.
    rewrite nth_repeat. destruct (nth_error x i); auto.
Qed.
