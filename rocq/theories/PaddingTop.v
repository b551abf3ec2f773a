From Coq Require Import List ZArith Bool Arith Lia.
From Verif Require Import Prelude MaskSpec BitMask KMask KMaskSpec KMaskProofs X86Lanes X86Bits X86ShiftSpec X86ShiftProofs X86ShiftVProofs
  PpcShiftProofs X86Mul X86MulProofs X86Div X86DivProofs IntDiv IntDivSpec IntDivProofs X86Mask X86MaskSpec
  X86MaskProofs Padding PaddingSpec PaddingProofs.
From Verif Require Import Abi AbiSpec AbiSpec Mem MemSpec Profile MemProofs.
Import ListNotations.
Local Open Scope Z_scope.

Lemma both_mono {A} (R Q : A -> A -> Prop) a b : (forall x y, R x y -> Q x y) -> both R a b -> both Q a b.
Proof. destruct a, b; cbn; auto. Qed.

Lemma vector_popcount f s k k' l : shape_ok s -> holds s k l -> holds s k' l -> x86_popcount f s k = x86_popcount f s k'.
Proof.
  intros Hs H H'.
  assert (D : (f_popcnt f = true \/ (rl s * sz s = 16)%nat \/ sz s = 8%nat) \/
              (f_popcnt f = false /\ (rl s * sz s = 32)%nat /\ sz s <> 8%nat)).
  { destruct (f_popcnt f); auto. pose proof Hs as (_ & _ & _ & _ & _ & [E|[E _]]); auto.
    destruct (Nat.eq_dec (sz s) 8); auto. }
  destruct D as [D|(D1 & D2)].
  - rewrite (x86_popcount_ok f s k l), (x86_popcount_ok f s k' l); auto.
  - rewrite !x86_popcount_missing; auto.
Qed.

Lemma holds_same s k k' l : shape_ok s -> holds s k l -> holds s k' l -> same_reductions s k k'.
Proof.
  intros Hs H H' f p.
  assert (B : x86_to_bits p s k = x86_to_bits p s k').
  { rewrite (x86_to_bits_ok p s k l), (x86_to_bits_ok p s k' l); auto. }
  split; [rewrite (x86_all_of_ok f s k l), (x86_all_of_ok f s k' l); auto|].
  split; [rewrite (x86_any_of_ok f s k l), (x86_any_of_ok f s k' l); auto|].
  split; [rewrite (x86_none_of_ok f s k l), (x86_none_of_ok f s k' l); auto|].
  split; [rewrite (x86_some_of_ok f s k l), (x86_some_of_ok f s k' l); auto|].
  split; [apply (vector_popcount f s k k' l); auto|].
  split; [auto|]. split; [unfold x86_find_first_set; rewrite B; auto|].
  split; [unfold x86_find_last_set; rewrite B; auto|].
  split; [rewrite (base_all_of_ok s k l), (base_all_of_ok s k' l); auto|].
  split; [rewrite (base_any_of_ok s k l), (base_any_of_ok s k' l); auto|].
  split; [rewrite (base_none_of_ok s k l), (base_none_of_ok s k' l); auto|].
  split; [rewrite (base_some_of_ok s k l), (base_some_of_ok s k' l); auto|].
  rewrite (base_popcount_ok s k l), (base_popcount_ok s k' l); auto.
Qed.

Lemma c18_vector s sel bitmask ve ve' me me' : shape_ok s -> selects s sel ->
  same_values (lw s) (st s) (sn s) ve ve' -> same_masks (holds s) me me' ->
  (forall e, vx_ok (lw s) (st s) (sn s) e ->
    both (agree (sn s)) (v_eval (vec_mops s sel) bitmask (lw s) (sn s) (st s) ve me e)
                        (v_eval (vec_mops s sel) bitmask (lw s) (sn s) (st s) ve' me' e)) /\
  (forall e, mx_ok (lw s) (st s) (sn s) e ->
    both (fun k k' => (exists l, holds s k l /\ holds s k' l) /\ same_reductions s k k')
      (m_eval (vec_mops s sel) bitmask (lw s) (sn s) (st s) ve me e)
      (m_eval (vec_mops s sel) bitmask (lw s) (sn s) (st s) ve' me' e)).
Proof.
  intros Hs Hsel Hv Hm. pose proof Hs as (Hz & _ & Hn & _).
  destruct (run_related (vec_mops s sel) (holds s) bitmask (lw s) (sn s) (st s) (vec_ok s Hs sel Hsel)
    ltac:(unfold lw; lia) ltac:(lia) ve ve' me me' Hv Hm) as [R1 R2].
  split; intros e He.
  - apply (both_mono (vrel (lw s) (st s) (sn s))); auto. intros x y (_ & _ & H). auto.
  - apply (both_mono (mrel (holds s))); auto. intros k k' (l & H & H'). split; eauto using holds_same.
Qed.

Lemma nth_error_Some_lt {A} (l : list A) i v : nth_error l i = Some v -> (i < length l)%nat.
Proof. intros H. apply nth_error_Some. rewrite H. discriminate. Qed.

Lemma first_unique l i j : is_first_true l i -> is_first_true l j -> i = j.
Proof.
  intros (H1 & H2) (G1 & G2). destruct (Nat.lt_trichotomy i j) as [L|[L|L]]; auto.
  - specialize (G2 i L). congruence.
  - specialize (H2 j L). congruence.
Qed.

Lemma bits_same n k k' l : size_ok n -> bits_hold n k l -> bits_hold n k' l -> same_bit_reductions n k k'.
Proof.
  intros Hn H H' dq.
  split; [rewrite (all_of_spec dq n k l), (all_of_spec dq n k' l); auto|].
  split; [rewrite (any_of_spec n k l), (any_of_spec n k' l); auto|].
  split; [rewrite (none_of_spec n k l), (none_of_spec n k' l); auto|].
  split; [rewrite (some_of_spec dq n k l), (some_of_spec dq n k' l); auto|].
  split; [rewrite (popcount_spec n k l), (popcount_spec n k' l); auto|].
  split.
  - unfold k_to_bits. apply map_ext_in. intros i Hi. apply in_seq in Hi. rewrite !k_get_bit.
    destruct H as (_ & _ & H), H' as (_ & _ & H'). rewrite H, H' by lia. auto.
  - rewrite (any_of_spec n k l) by auto. intros E.
    apply (first_unique l); apply find_first_spec; auto.
Qed.

Lemma c18_bits n w lanes ve ve' me me' : size_ok n -> 0 < w -> (n <= lanes)%nat ->
  same_values w lanes n ve ve' -> same_masks (bits_hold n) me me' ->
  (forall e, vx_ok w lanes n e ->
    both (agree n) (v_eval (bit_mops n) true w n lanes ve me e) (v_eval (bit_mops n) true w n lanes ve' me' e)) /\
  (forall e, mx_ok w lanes n e ->
    both (fun k k' => (exists l, bits_hold n k l /\ bits_hold n k' l) /\ same_bit_reductions n k k')
      (m_eval (bit_mops n) true w n lanes ve me e) (m_eval (bit_mops n) true w n lanes ve' me' e)).
Proof.
  intros Hn Hw Hl Hv Hm.
  destruct (run_related (bit_mops n) (bits_hold n) true w n lanes (bit_ok n Hn w lanes Hl) Hw Hl ve ve' me me' Hv Hm)
    as [R1 R2].
  split; intros e He.
  - apply (both_mono (vrel w lanes n)); auto. intros x y (_ & _ & H). auto.
  - apply (both_mono (mrel (bits_hold n))); auto. intros k k' (l & H & H'). split; eauto using bits_same.
Qed.

(* ---- the library's algorithms on whole registers *)
Lemma every_lane_safe w lanes n (sh : Z -> Z -> Z) F : (n <= lanes)%nat ->
  (forall x y, register w lanes x -> register w lanes y -> every_lane sh x y (F x y)) ->
  (forall a b, 0 <= sh a b < 2 ^ w) -> padding_safe w lanes n F.
Proof.
  intros Hn HF Hr x x' y y' Rx Rx' Ry Ry' [_ Ax] [_ Ay].
  destruct (HF x y Rx Ry) as [L N], (HF x' y' Rx' Ry') as [L' N'].
  pose proof (proj1 Rx). pose proof (proj1 Rx'). split.
  - apply register_intro; [lia|]. intros i Hi. rewrite N by lia. apply Hr.
  - split; [lia|]. intros i Hi. rewrite N, N', Ax, Ay by lia. auto.
Qed.
Lemma every_lane_by_safe w lanes n (sh : Z -> Z -> Z) c (F : list Z -> list Z) : (n <= lanes)%nat ->
  (forall x, register w lanes x -> every_lane_by sh x c (F x)) ->
  (forall a, 0 <= a < 2 ^ w -> 0 <= sh a c < 2 ^ w) -> padding_safe w lanes n (fun x _ => F x).
Proof.
  intros Hn HF Hr x x' y y' Rx Rx' Ry Ry' [_ Ax] _.
  destruct (HF x Rx) as [L N], (HF x' Rx') as [L' N'].
  pose proof (proj1 Rx). pose proof (proj1 Rx'). split.
  - apply register_intro; [lia|]. intros i Hi. rewrite N by lia. apply Hr. eapply register_nth; eauto.
  - split; [lia|]. intros i Hi. rewrite N, N', Ax by lia. auto.
Qed.

(* ---- stores *)
Lemma agree_store {U} x86 I u same (conv : Z -> U) n x x' (p : mem U) : elem_ok u -> (1 <= n <= length x)%nat ->
  agree n x x' -> accessible p (fun j => (j <? n)%nat) ->
  exists q q', reg_store x86 I u same conv n x p = Some q /\ reg_store x86 I u same conv n x' p = Some q' /\
    forall j, q j = q' j.
Proof.
  intros Hu Hn [L A] Hp.
  destruct (reg_store_spec (T := Z) (U := U) x86 I u same conv n x p) as (q & E & Q); auto; try lia.
  destruct (reg_store_spec (T := Z) (U := U) x86 I u same conv n x' p) as (q' & E' & Q'); auto; try lia.
  exists q, q'. split; [auto|]. split; [auto|]. intros j. rewrite Q, Q'.
  change (below n j) with (j <? n)%nat.
  destruct (Nat.ltb_spec j n); auto.
  rewrite (nth_error_nth' x 0), (nth_error_nth' x' 0), A by lia. auto.
Qed.

(* ---- refutations *)
Lemma c18_signed_division w n lanes : 1 < w -> (1 <= n < lanes)%nat ->
  exists x x' y, register w lanes x /\ register w lanes x' /\ register w lanes y /\ agree n x x' /\
    base_divides true false w n x y = None /\ base_divides true false w n x' y <> None.
Proof.
  intros Hw Hn. pose proof (c19_broadcast w n lanes Hw ltac:(lia)) as H. cbv zeta in H.
  destruct H as (H1 & H2 & _).
  assert (P0 : 0 < 2 ^ (w - 1)) by (apply Z.pow_pos_nonneg; lia).
  assert (P1 : 2 ^ w = 2 * 2 ^ (w - 1)) by (rewrite <- Z.pow_succ_r by lia; f_equal; lia).
  assert (P2 : 1 < 2 ^ w) by (apply Z.pow_gt_1; lia).
  exists (broadcast lanes (2 ^ (w - 1))), (repeat (2 ^ (w - 1)) n ++ repeat 0 (lanes - n)), (broadcast lanes 1).
  assert (R : forall a, 0 <= a < 2 ^ w -> register w lanes (broadcast lanes a)).
  { intros a Ha. unfold broadcast. split; [apply repeat_length|]. apply Forall_forall. intros v Hv. apply repeat_spec in Hv. lia. }
  assert (R' : register w lanes (repeat (2 ^ (w - 1)) n ++ repeat 0 (lanes - n))).
  { split; [rewrite app_length, !repeat_length; lia|]. apply Forall_app. split; apply Forall_forall; intros v Hv; apply repeat_spec in Hv; lia. }
  split; [apply R; lia|]. split; [auto|]. split; [apply R; lia|].
  assert (A : agree n (broadcast lanes (2 ^ (w - 1))) (repeat (2 ^ (w - 1)) n ++ repeat 0 (lanes - n))).
  { unfold broadcast. split; [rewrite app_length, !repeat_length; lia|]. intros i Hi.
    rewrite app_nth1 by (rewrite repeat_length; auto). rewrite !nth_repeat_lt by lia. auto. }
  split; [auto|]. split; [exact H2|].
  destruct (c19_signed false w n lanes (repeat (2 ^ (w - 1)) n ++ repeat 0 (lanes - n)) (broadcast lanes 1))
    as (q & r & Hq & _); auto; try lia.
  - apply R. lia.
  - intros i Hi. rewrite <- (proj2 A i Hi). apply H1. auto.
  - intros i Hi. rewrite app_nth2 by (rewrite repeat_length; lia). rewrite nth_repeat. lia.
  - rewrite Hq. discriminate.
Qed.

Lemma c18_find_last n l : size_ok n -> (n < kw n)%nat -> (n <= length l <= kw n)%nat ->
  any_true (map negb (firstn n l)) = true ->
  let k := k_int_not_equal n l in let k' := k_not n (k_compare n l) in
  bits_hold n k (map negb (firstn n l)) /\ bits_hold n k' (map negb (firstn n l)) /\
  k_find_last_set k <> k_find_last_set k'.
Proof.
  intros Hn Hk Hl Ha. cbv zeta.
  assert (E : kexpr_ok n (KIntNe l)) by (cbn; auto).
  assert (E' : kexpr_ok n (KNot (KCompare l))) by (cbn; auto).
  split; [exact (eval_shows true n (KIntNe l) Hn E)|].
  split; [exact (eval_shows true n (KNot (KCompare l)) Hn E')|].
  destruct (c21_find_last_refuted true n l Hn Hk Hl) as [_ H]. cbn [k_eval] in H.
  destruct (find_last_spec n _ _ Hn (eval_shows true n (KNot (KCompare l)) Hn E') (eval_high true n (KNot (KCompare l)) Hn E' I))
    as (i & Hi & L).
  { cbn [k_meaning]. auto. }
  cbn [k_eval] in Hi. rewrite Hi. destruct L as (L & _). cbn [k_meaning] in L. 
  assert (i < n)%nat by (apply nth_error_Some_lt in L; rewrite map_length, firstn_length in L; lia). lia.
Qed.

(* ---- blends *)
Lemma of_lanes_lt l : 0 <= of_lanes l < 2 ^ Z.of_nat (length l).
Proof. pose proof (of_lanes_nonneg l). pose proof (of_lanes_bound l). lia. Qed.

Lemma bits_of_lanes w a : 0 <= a < 2 ^ Z.of_nat w -> of_lanes (map (fun j => Z.testbit a (Z.of_nat j)) (seq 0 w)) = a.
Proof.
  intros Ha. pose proof (of_lanes_lt (map (fun j => Z.testbit a (Z.of_nat j)) (seq 0 w))) as R.
  rewrite map_length, seq_length in R. apply Z.bits_inj'. intros j Hj.
  destruct (Z_lt_le_dec j (Z.of_nat w)) as [L|L].
  - rewrite <- (Z2Nat.id j) by lia. rewrite of_lanes_bit.
    rewrite (nth_indep _ false (Z.testbit a (Z.of_nat 0))) by (rewrite map_length, seq_length; lia).
    rewrite (map_nth (fun j => Z.testbit a (Z.of_nat j))), seq_nth by lia. auto.
  - rewrite !(high_bits _ (Z.of_nat w)); auto.
Qed.

Lemma sel_lane_selects s : shape_ok s -> selects s sel_lane.
Proof.
  intros Hs m a b Hm Ha Hb. pose proof (ones_pos s Hs). unfold sel_lane. split; [auto|].
  destruct (Z.eqb_spec (ones s) 0); [lia|]. split; [auto|]. destruct (m =? 0); auto.
Qed.

Lemma sel_bits_selects s g w : shape_ok s -> lw s = Z.of_nat w -> (0 < g)%nat -> (w mod g = 0)%nat -> selects s (sel_bits g w).
Proof.
  intros Hs Ew Hg Hd m a b Hm Ha Hb. unfold sel_bits. split; [|split].
  - rewrite (map_ext _ (fun j => Z.testbit a (Z.of_nat j))) by (intros j; rewrite Z.bits_0; auto).
    apply bits_of_lanes. rewrite <- Ew. auto.
  - rewrite (map_ext_in _ (fun j => Z.testbit b (Z.of_nat j))).
    + apply bits_of_lanes. rewrite <- Ew. auto.
    + intros j Hj. apply in_seq in Hj. rewrite ones_bits; auto.
      rewrite Ew. assert (j / g < w / g)%nat.
      { apply Nat.div_lt_upper_bound; [lia|]. pose proof (Nat.div_mod w g ltac:(lia)). lia. }
      pose proof (Nat.div_mod w g ltac:(lia)). nia.
  - rewrite Ew. pose proof (of_lanes_lt (map (fun j => if Z.testbit m (Z.of_nat (j / g * g + (g - 1)))
      then Z.testbit b (Z.of_nat j) else Z.testbit a (Z.of_nat j)) (seq 0 w))) as R.
    rewrite map_length, seq_length in R. auto.
Qed.
