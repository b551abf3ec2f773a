From Coq Require Import List ZArith Bool Arith Lia.
From Verif Require Import Prelude MaskSpec BitMask BitMaskProofs KMask KMaskSpec KMaskProofs X86Lanes X86Bits X86Mask X86MaskSpec
  X86MaskProofs IntDiv IntDivSpec IntDivProofs PaddingSpec PaddingProofs PaddingTop Neon NeonSpec NeonProofs NeonBits PpcMask PpcMaskSpec.
Import ListNotations.
Local Open Scope Z_scope.

Lemma ppc_neon s : ppc_ok s -> neon_ok s.
Proof. auto. Qed.

Lemma lane_firstn s x l : holds s x l -> (sn s <= st s)%nat -> firstn (sn s) x = map (lane_of s) l.
Proof.
  intros (Hx & Hl & He & _) Hle. apply (nth_eq_ext _ _ 0); [rewrite map_length, firstn_length; lia|].
  intros i Hi. rewrite firstn_length in Hi. rewrite nth_firstn_lt by lia. rewrite He by lia. rewrite lanes_map by lia. reflexivity.
Qed.

(* all lanes are elements or zero *)
Lemma clean_lanes s x l : ppc_ok s -> holds s x l -> clean s x ->
  x = map (lane_of s) (l ++ repeat false (st s - sn s)).
Proof.
  intros (_ & _ & Hn & _) (Hx & Hl & He & _) Hc. apply (nth_eq_ext _ _ 0); [rewrite map_length, app_length, repeat_length; lia|].
  intros i Hi. rewrite lanes_map by (rewrite app_length, repeat_length; lia). destruct (Nat.lt_ge_cases i (sn s)) as [L|L].
  - rewrite He, app_nth1 by lia. reflexivity.
  - rewrite Hc, app_nth2, nth_repeat by lia. reflexivity.
Qed.

Lemma count_repeat_false n : count_true (repeat false n) = 0%nat.
Proof. induction n; auto. Qed.

Lemma sgn_lane s b : ppc_ok s -> sgn (lw s) (lane_of s b) = - b2z b.
Proof.
  intros Hs. unfold lane_of, ones. destruct (neon_lw s Hs) as [E|[E|[E|E]]]; rewrite E; destruct b; reflexivity.
Qed.

Lemma sat32_small v : -64 <= v <= 64 -> sat32 v = v.
Proof. unfold sat32. lia. Qed.

Ltac unsat := repeat match goal with |- context [sat32 ?v] =>
  lazymatch v with context [sat32 _] => fail | _ => rewrite (sat32_small v) by lia end end.

Lemma uns64_small c : 0 <= c <= 64 -> uns 64 c = c.
Proof. intros H. apply Z.mod_small. lia. Qed.
Lemma trunc_count c : 0 <= c <= 64 -> sgn 32 (uns 32 c) = c.
Proof. intros H. unfold sgn, uns. rewrite Z.mod_small by lia. destruct (Z.ltb_spec c (2 ^ (32 - 1))); lia. Qed.

(* every lane of the register is counted *)
Lemma ppc_popcount_lanes s L : ppc_ok s -> length L = st s ->
  ppc_popcount None s (map (lane_of s) L) = Z.of_nat (count_true L).
Proof.
  intros Hs HL. assert (HC := neon_cases s Hs). rewrite count_b2z.
  pose proof (fun b => sgn_lane s b Hs) as HG.
  unfold ppc_popcount, to_vmx, as_ints. rewrite map_length, HL.
  destruct HC as [(E & D)|[(E & D)|[(E & D)|(E & D)]]].
  1,2: rewrite E; cbn [Nat.leb]; unfold lw in *; rewrite E in *; repeat destruct D as [D|D]; rewrite D in *; clear D; explode L HL;
    cbn - [sgn b2z Z.add Z.opp sat32 lane_of]; rewrite !HG; change (sgn 8 0) with 0; change (sgn 16 0) with 0;
    unfold vec_sums; cbn - [sgn b2z Z.add Z.opp sat32 lane_of]; b01; unsat; lia.
  - unfold lw in HG. rewrite E in *. cbn [Nat.leb Nat.eqb]. repeat destruct D as [D|D]; rewrite D in *; clear D; explode L HL;
    cbn - [sgn b2z Z.add Z.opp sat32 lane_of uns Z.div]; change (8 * 4) with 32 in HG; rewrite !HG; change (sgn 32 0) with 0; unfold vec_sums;
    cbn - [sgn b2z Z.add Z.opp sat32 lane_of uns Z.div]; b01; rewrite sat32_small by lia;
    rewrite Z.div_1_r, uns64_small, trunc_count by lia; lia.
  - rewrite E. cbn [Nat.leb Nat.eqb]. rewrite D in *. explode L HL. unfold lane_of, ones, lw. rewrite E.
    repeat match goal with b : bool |- _ => destruct b end; reflexivity.
Qed.

Lemma ppc_popcount_ok s x l : ppc_ok s -> holds s x l -> clean s x -> ppc_popcount None s x = Z.of_nat (count_true l).
Proof.
  intros Hs Hh Hc. pose proof Hs as (_ & _ & Hn & _). pose proof Hh as (_ & Hl & _).
  rewrite (clean_lanes s x l) by auto. rewrite ppc_popcount_lanes by (auto; rewrite app_length, repeat_length; lia).
  rewrite count_true_app, count_repeat_false. lia.
Qed.

Lemma full_clean s x : sn s = st s -> clean s x.
Proof. intros E i Hi. lia. Qed.

Lemma msb_lane_ppc s b : ppc_ok s -> msb (lw s) (lane_of s b) = b.
Proof.
  intros Hs. unfold lane_of, ones, msb. destruct (neon_lw s Hs) as [E|[E|[E|E]]]; rewrite E; destruct b; reflexivity.
Qed.

Lemma count_le l : (count_true l <= length l)%nat.
Proof. unfold count_true. induction l as [|[] l IH]; cbn; lia. Qed.

Lemma cntm_lanes p s x l : ppc_ok s -> holds s x l -> clean s x -> 
  vec_cntm p s (to_vmx s x) = uns 64 (Z.of_nat (count_true l) * 2 ^ p).
Proof.
  intros Hs Hh Hc. unfold vec_cntm, to_vmx. do 2 f_equal. f_equal. rewrite (clean_lanes s x l Hs Hh Hc) at 1.
  rewrite map_app, map_map, (map_ext _ (fun b => b)) by (intros; apply msb_lane_ppc; auto). rewrite map_id, !count_true_app, count_repeat_false.
  assert (G : forall n, count_true (map (msb (lw s)) (repeat 0 n)) = 0%nat).
  { intros n. induction n; cbn [repeat map]; auto. rewrite count_true_cons. unfold msb at 1. rewrite Z.testbit_0_l. auto. }
  rewrite G. lia.
Qed.

(* with the count at bit 0 the result is right, with the count at bit 32 or above
   it is zero *)
Lemma ppc_power10_ok s x l : ppc_ok s -> holds s x l -> clean s x -> ppc_popcount (Some 0) s x = Z.of_nat (count_true l).
Proof.
  intros Hs Hh Hc. cbn [ppc_popcount]. rewrite (cntm_lanes 0 s x l) by auto. rewrite Z.mul_1_r.
  pose proof (count_le l). pose proof Hs as HC%neon_cases. pose proof Hs as (_ & _ & Hn & _). pose proof Hh as (_ & Hl & _).
  rewrite uns64_small, trunc_count; lia.
Qed.
Lemma ppc_power10_high p s x : 32 <= p -> ppc_popcount (Some p) s x = 0.
Proof.
  intros Hp. cbn [ppc_popcount]. unfold vec_cntm. generalize (Z.of_nat (count_true (map (msb (lw s)) (to_vmx s x)))). intros c.
  assert (E : uns 32 (uns 64 (c * 2 ^ p)) = 0).
  { unfold uns. rewrite (Znumtheory.Zmod_div_mod (2 ^ 32) (2 ^ 64) (c * 2 ^ p)) || idtac; try (exists (2 ^ 32)); try reflexivity.
    change (2 ^ 64) with (2 ^ 32 * 2 ^ 32). rewrite Z.rem_mul_r by lia.
    replace (c * 2 ^ p) with (c * 2 ^ (p - 32) * 2 ^ 32) by (rewrite <- Z.mul_assoc, <- Z.pow_add_r by lia; do 2 f_equal; lia).
    rewrite Z.mod_mul, Z.add_0_l by lia. rewrite Z.mul_comm. apply Z.mod_mul. lia. }
  rewrite E. reflexivity.
Qed.

Lemma ppc_some_ok p10 s x l : ppc_ok s -> holds s x l -> clean s x -> p10 = None \/ p10 = Some 0 ->
  ppc_some_of p10 s x = (any_true l && negb (all_true l))%bool.
Proof.
  intros Hs Hh Hc Hp. unfold ppc_some_of. replace (ppc_popcount p10 s x) with (Z.of_nat (count_true l)).
  - rewrite <- (proj1 (proj2 Hh)). apply count_some.
  - symmetry. destruct Hp as [->| ->]; [apply ppc_popcount_ok|apply ppc_power10_ok]; auto.
Qed.

(* the loops of _MaskImplBuiltin *)
Definition x86_shape (s : shape) : shape := {| sz := sz s; fp := false; st := st s; rl := 16 / sz s; sn := sn s |}.
Lemma ppc_shape s : ppc_ok s -> shape_ok (x86_shape s).
Proof.
  intros Hs. pose proof (neon_cases s Hs) as HC. destruct Hs as (A & _ & B & C). unfold shape_ok, x86_shape. cbn [sz fp st rl sn].
  split; [auto|]. split; [discriminate|]. split; [auto|]. split; [auto|].
  destruct HC as [(E & D)|[(E & D)|[(E & D)|(E & D)]]]; rewrite E; cbn; lia.
Qed.
Lemma ppc_loops s x l : ppc_ok s -> holds s x l ->
  base_all_of s x = all_true l /\ base_any_of s x = any_true l /\ base_none_of s x = negb (any_true l).
Proof.
  intros Hs Hh. change (base_all_of s x) with (base_all_of (x86_shape s) x). change (base_any_of s x) with (base_any_of (x86_shape s) x).
  change (base_none_of s x) with (base_none_of (x86_shape s) x). change (holds s x l) with (holds (x86_shape s) x l) in Hh.
  pose proof (ppc_shape s Hs). auto using base_all_of_ok, base_any_of_ok, base_none_of_ok.
Qed.

(* the bit set *)
Lemma or_loop (l : list bool) : forall n, (n <= length l)%nat ->
  fold_left (fun r i => Z.lor r (Z.shiftl (b2z (nth i l false)) (Z.of_nat i))) (seq 0 n) 0 = of_lanes (firstn n l).
Proof.
  induction n as [|n IH]; intros Hn; [reflexivity|]. rewrite seq_S, fold_left_app, IH by lia. cbn [fold_left Nat.add].
  apply Z.bits_inj_iff'. intros j Hj. rewrite <- (Z2Nat.id j) by lia. set (i := Z.to_nat j). rewrite Z.lor_spec, !of_lanes_bit, Z.shiftl_spec by lia.
  destruct (Nat.lt_trichotomy i n) as [L|[L|L]].
  - rewrite (Z.testbit_neg_r _ (_ - _)) by lia. rewrite !nth_firstn_lt by lia. apply orb_false_r.
  - rewrite L. rewrite Z.sub_diag. rewrite nth_overflow by (rewrite firstn_length; lia). rewrite nth_firstn_lt by lia. destruct (nth n l false); reflexivity.
  - rewrite (nth_overflow (firstn n l)) by (rewrite firstn_length; lia). rewrite (nth_overflow (firstn (S n) l)) by (rewrite firstn_length; lia). cbn [orb]. destruct (nth n l false); cbn [b2z]; [|apply Z.testbit_0_l].
    change 1 with (2 ^ 0). rewrite Z.pow2_bits_eqb by lia. apply Z.eqb_neq. lia.
Qed.

Lemma fold_left_ext_in {A B} (f g : A -> B -> A) l : (forall a b, In b l -> f a b = g a b) -> forall a, fold_left f l a = fold_left g l a.
Proof. induction l as [|b l IH]; intros H a; [reflexivity|]. cbn [fold_left]. rewrite H by (left; auto). apply IH. intros. apply H. right. auto. Qed.

Lemma lane_top s b : ppc_ok s -> lane_of s b / 2 ^ (lw s - 1) = b2z b.
Proof. intros Hs. unfold lane_of, ones. destruct (neon_lw s Hs) as [E|[E|[E|E]]]; rewrite E; destruct b; reflexivity. Qed.

Lemma ppc_bits s x l : ppc_ok s -> holds s x l -> ppc_to_bits s x = of_lanes l.
Proof.
  intros Hs (Hx & Hl & He & _). unfold ppc_to_bits.
  rewrite (fold_left_ext_in _ (fun r i => Z.lor r (Z.shiftl (b2z (nth i l false)) (Z.of_nat i)))).
  - rewrite or_loop by lia. rewrite <- Hl, firstn_all. reflexivity.
  - intros a i Hi%in_seq. rewrite He by lia. change (if nth i l false then 2 ^ (8 * Z.of_nat (sz s)) - 1 else 0) with (lane_of s (nth i l false)).
    rewrite lane_top by auto. reflexivity.
Qed.

Lemma ppc_bits_spec s x l : ppc_ok s -> holds s x l ->
  0 <= ppc_to_bits s x < 2 ^ Z.of_nat (sn s) /\ forall i, Z.testbit (ppc_to_bits s x) (Z.of_nat i) = nth i l false.
Proof.
  intros Hs Hh. rewrite (ppc_bits s x l) by auto. rewrite <- (proj1 (proj2 Hh)). split; [apply of_lanes_lt|apply of_lanes_bit].
Qed.
Lemma ppc_first_ok s x l : ppc_ok s -> holds s x l -> any_true l = true -> is_first_true l (ppc_find_first_set s x).
Proof. intros Hs Hh Ha. unfold ppc_find_first_set. rewrite (ppc_bits s x l) by auto. apply of_lanes_first. auto. Qed.
Lemma ppc_last_ok s x l : ppc_ok s -> holds s x l -> any_true l = true -> exists i, ppc_find_last_set s x = Z.of_nat i /\ is_last_true l i.
Proof. intros Hs Hh Ha. unfold ppc_find_last_set. rewrite (ppc_bits s x l) by auto. apply of_lanes_last. auto. Qed.

Lemma ppc_popcount_wrong s l pad : ppc_ok s -> length l = sn s -> length pad = (st s - sn s)%nat ->
  holds s (map (mask_lane s) (l ++ pad)) l /\
  ppc_popcount None s (map (mask_lane s) (l ++ pad)) = Z.of_nat (count_true l + count_true pad).
Proof.
  intros Hs Hl Hp. pose proof Hs as (_ & _ & B & _). pose proof (neon_ones s Hs) as HO. change (mask_lane s) with (lane_of s). split.
  - unfold holds. rewrite map_length, app_length. split; [lia|]. split; [auto|]. split; intros i Hi.
    + rewrite lanes_map by (rewrite app_length; lia). rewrite app_nth1 by lia. reflexivity.
    + rewrite lanes_map by (rewrite app_length; lia). change (8 * Z.of_nat (sz s)) with (lw s). unfold lane_of. destruct (nth _ _ _); lia.
  - rewrite ppc_popcount_lanes by (auto; rewrite app_length; lia). rewrite count_true_app. auto.
Qed.
Lemma ppc_some_wrong s l pad : ppc_ok s -> length l = sn s -> length pad = (st s - sn s)%nat -> any_true l = false -> any_true pad = true ->
  holds s (map (mask_lane s) (l ++ pad)) l /\ ppc_some_of None s (map (mask_lane s) (l ++ pad)) = true.
Proof.
  intros Hs Hl Hp Ha Hb. destruct (ppc_popcount_wrong s l pad Hs Hl Hp) as (H & E). split; auto.
  unfold ppc_some_of. rewrite E.
  assert (Z0 : count_true l = 0%nat).
  { clear - Ha. induction l as [|[] l IH]; [reflexivity|discriminate|]. rewrite count_true_cons. apply IH. exact Ha. }
  assert (P0 : (0 < count_true pad)%nat).
  { clear - Hb. induction pad as [|[] l IH]; [discriminate| |]; rewrite count_true_cons; [lia|]. apply IH. exact Hb. }
  pose proof (count_le pad). destruct Hs as (_ & _ & B & C). rewrite Z0. apply andb_true_iff. split; apply Z.ltb_lt; lia.
Qed.
