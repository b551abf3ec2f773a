(* Proofs about reductions of vector masks on x86 *)
From Coq Require Import List ZArith Lia Bool Arith.
From Verif Require Import Prelude MaskSpec BitMask BitMaskProofs KMask KMaskSpec KMaskProofs
  X86Lanes X86Bits X86ShiftProofs X86Mask X86MaskSpec.
Import ListNotations.
Local Open Scope Z_scope.

Definition lane_of (s : shape) (b : bool) : Z := if b then ones s else 0.

Lemma lw_cases s : shape_ok s -> lw s = 8 \/ lw s = 16 \/ lw s = 32 \/ lw s = 64.
Proof. unfold shape_ok, lw. intros ([E|[E|[E|E]]] & _); rewrite E; auto. Qed.

Lemma ones_bits s j : shape_ok s -> 0 <= j < lw s -> Z.testbit (ones s) j = true.
Proof.
  intros Hs Hj. unfold ones. replace (2 ^ lw s - 1) with (Z.ones (lw s)) by (rewrite Z.ones_equiv; lia).
  rewrite testbit_ones by lia. apply Z.ltb_lt. lia.
Qed.

Lemma ones_pos s : shape_ok s -> 0 < ones s < 2 ^ lw s.
Proof. intros Hs. unfold ones. destruct (lw_cases s Hs) as [E|[E|[E|E]]]; rewrite E; lia. Qed.

Lemma msb_lane s b : shape_ok s -> msb (lw s) (lane_of s b) = b.
Proof.
  intros Hs. unfold msb. destruct b; cbn [lane_of].
  - apply ones_bits; auto. destruct (lw_cases s Hs) as [E|[E|[E|E]]]; rewrite E; lia.
  - apply Z.bits_0.
Qed.

Lemma list_split (x : list Z) (l : list bool) (g : bool -> Z) :
  (length l <= length x)%nat ->
  (forall i, (i < length l)%nat -> nth i x 0 = g (nth i l false)) ->
  x = map g l ++ skipn (length l) x.
Proof.
  intros Hl H. rewrite <- (firstn_skipn (length l) x) at 1. f_equal.
  apply (nth_eq_ext _ _ 0).
  - rewrite firstn_length, map_length. lia.
  - intros i Hi. rewrite firstn_length in Hi. rewrite nth_firstn_lt by lia.
    rewrite H by lia. rewrite (nth_indep (map g l) 0 (g false)) by (rewrite map_length; lia).
    rewrite map_nth. auto.
Qed.

Lemma holds_split s x l : holds s x l -> shape_ok s ->
  x = map (lane_of s) l ++ skipn (sn s) x /\ length (skipn (sn s) x) = (st s - sn s)%nat.
Proof.
  intros (Hx & Hl & He & _) Hs. split; [|rewrite skipn_length; lia].
  rewrite <- Hl. apply list_split; [|rewrite Hl; auto].
  destruct Hs as (_ & _ & ? & _). lia.
Qed.

(* the intrinsic register: elements, then padding *)
Lemma intrin_split s x l : holds s x l -> shape_ok s ->
  exists pad, to_intrin s x = map (lane_of s) l ++ pad /\ length pad = (rl s - sn s)%nat.
Proof.
  intros Hh Hs. destruct (holds_split s x l Hh Hs) as [E El].
  exists (skipn (sn s) x ++ repeat 0 (rl s - st s)). split.
  - unfold to_intrin. destruct Hh as (Hx & _). rewrite Hx, app_assoc, <- E. auto.
  - rewrite app_length, repeat_length, El. destruct Hs as (_ & _ & ? & _ & ? & _). lia.
Qed.

Lemma implicit_split s : shape_ok s ->
  implicit_intrin s = repeat (ones s) (sn s) ++ repeat 0 (rl s - sn s).
Proof.
  intros (_ & _ & H1 & _ & H2 & _). unfold implicit_intrin, to_intrin, vec_implicit.
  destruct (Nat.ltb_spec (sn s) (st s)).
  - rewrite map_length, seq_length.
    replace (rl s - sn s)%nat with ((st s - sn s) + (rl s - st s))%nat by lia.
    rewrite repeat_app, app_assoc. f_equal.
    replace (st s) with (sn s + (st s - sn s))%nat at 1 by lia.
    rewrite seq_app, map_app. f_equal.
    + apply (nth_eq_ext _ _ 0); [rewrite map_length, seq_length, repeat_length; auto|].
      intros i Hi. rewrite map_length, seq_length in Hi.
      rewrite nth_map_seq by auto. rewrite nth_repeat_lt by auto. cbn [Nat.add].
      replace (i <? sn s)%nat with true by (symmetry; apply Nat.ltb_lt; auto). auto.
    + apply (nth_eq_ext _ _ 0); [rewrite map_length, seq_length, repeat_length; auto|].
      intros i Hi. rewrite map_length, seq_length in Hi.
      rewrite nth_map_seq by auto. rewrite nth_repeat_lt by auto.
      replace (_ <? sn s)%nat with false by (symmetry; apply Nat.ltb_ge; lia). auto.
  - rewrite repeat_length. replace (st s) with (sn s) by lia. auto.
Qed.

Lemma land_repeat0 x k : length x = k -> map2 Z.land x (repeat 0 k) = repeat 0 k.
Proof.
  intros <-. induction x; cbn [map2 repeat length]; auto. rewrite Z.land_0_r, IHx. auto.
Qed.

Lemma lane_of_range s b : shape_ok s -> 0 <= lane_of s b < 2 ^ lw s.
Proof.
  intros Hs. pose proof (ones_pos s Hs). destruct b; cbn [lane_of]; lia.
Qed.

Lemma land_ones_lane s b : shape_ok s -> Z.land (lane_of s b) (ones s) = lane_of s b.
Proof.
  intros Hs. unfold ones. replace (2 ^ lw s - 1) with (Z.ones (lw s)) by (rewrite Z.ones_equiv; lia).
  pose proof (lane_of_range s b Hs). pose proof (lw_cases s Hs).
  rewrite Z.land_ones by lia. apply Z.mod_small. auto.
Qed.

Lemma lnot_ones_lane s b : shape_ok s -> Z.land (Z.lnot (lane_of s b)) (ones s) = lane_of s (negb b).
Proof.
  intros Hs. destruct b; cbn [lane_of negb].
  - rewrite Z.land_comm, Z.land_lnot_diag. auto.
  - change (Z.lnot 0) with (-1). apply Z.land_m1_l.
Qed.

(* _S_masked: the elements, then zeros *)
Lemma masked_split s x l : holds s x l -> shape_ok s ->
  vec_masked s x = map (lane_of s) l ++ repeat 0 (st s - sn s).
Proof.
  intros Hh Hs. destruct (holds_split s x l Hh Hs) as [E El].
  unfold vec_masked. destruct (Nat.ltb_spec (sn s) (st s)).
  - assert (Hi : vec_implicit s = repeat (ones s) (sn s) ++ repeat 0 (st s - sn s)).
    { unfold vec_implicit. replace (sn s <? st s)%nat with true by (symmetry; apply Nat.ltb_lt; auto).
      replace (st s) with (sn s + (st s - sn s))%nat at 1 by lia.
      rewrite seq_app, map_app. f_equal.
      + apply (nth_eq_ext _ _ 0); [rewrite map_length, seq_length, repeat_length; auto|].
        intros i Hi. rewrite map_length, seq_length in Hi.
        rewrite nth_map_seq by auto. rewrite nth_repeat_lt by auto. cbn [Nat.add].
        replace (i <? sn s)%nat with true by (symmetry; apply Nat.ltb_lt; auto). auto.
      + apply (nth_eq_ext _ _ 0); [rewrite map_length, seq_length, repeat_length; auto|].
        intros i Hi. rewrite map_length, seq_length in Hi.
        rewrite nth_map_seq by auto. rewrite nth_repeat_lt by auto.
        replace (_ <? sn s)%nat with false by (symmetry; apply Nat.ltb_ge; lia). auto. }
    rewrite Hi, E at 1. destruct Hh as (Hx & Hl & _).
    rewrite map2_app by (rewrite map_length, repeat_length; auto).
    rewrite land_repeat0 by auto. f_equal.
    rewrite <- Hl. clear -Hs. induction l; cbn [map repeat length map2]; auto.
    rewrite land_ones_lane, IHl by auto. auto.
  - replace (st s - sn s)%nat with 0%nat in * by lia. cbn [repeat].
    destruct (skipn (sn s) x); [auto|discriminate].
Qed.

(* ------------------------------------------------------------------ *)
(* ptest *)
Lemma lane_zero_0 f s : lane_zero f s 0 = true.
Proof. unfold lane_zero, msb. rewrite Z.bits_0. destruct (by_sign f s); auto. Qed.

Lemma lane_zero_of f s b : shape_ok s -> lane_zero f s (lane_of s b) = negb b.
Proof.
  intros Hs. unfold lane_zero. rewrite msb_lane by auto.
  destruct (by_sign f s); auto. pose proof (ones_pos s Hs).
  destruct b; cbn [lane_of negb]; [apply Z.eqb_neq; lia|auto].
Qed.

Lemma forallb_repeat {A} (P : A -> bool) x k : P x = true -> forallb P (repeat x k) = true.
Proof. intros H. induction k; cbn; auto. rewrite H; auto. Qed.

Lemma testz_implicit f s x l : holds s x l -> shape_ok s ->
  testz f s (to_intrin s x) (implicit_intrin s) = negb (any_true l).
Proof.
  intros Hh Hs. destruct (intrin_split s x l Hh Hs) as (pad & -> & Hp).
  rewrite implicit_split by auto. destruct Hh as (_ & Hl & _). unfold testz, any_true.
  rewrite map2_app by (rewrite map_length, repeat_length; auto).
  rewrite land_repeat0 by auto. rewrite forallb_app, (forallb_repeat _ 0), andb_true_r by apply lane_zero_0.
  rewrite <- Hl. clear -Hs. induction l; cbn [map repeat length map2 forallb existsb]; auto.
  rewrite land_ones_lane, lane_zero_of, IHl by auto. destruct a; auto.
Qed.

Lemma testz_self f s x l : holds s x l -> shape_ok s -> rl s = sn s ->
  testz f s (to_intrin s x) (to_intrin s x) = negb (any_true l).
Proof.
  intros Hh Hs Hr. destruct (intrin_split s x l Hh Hs) as (pad & -> & Hp).
  rewrite Hr, Nat.sub_diag in Hp. destruct pad; [|discriminate]. rewrite app_nil_r.
  unfold testz, any_true. rewrite map2_same, map_map.
  clear -Hs. induction l; cbn [map forallb existsb]; auto.
  rewrite Z.land_diag, lane_zero_of, IHl by auto. destruct a; auto.
Qed.

Lemma testc_implicit f s x l : holds s x l -> shape_ok s ->
  testc f s (to_intrin s x) (implicit_intrin s) = all_true l.
Proof.
  intros Hh Hs. destruct (intrin_split s x l Hh Hs) as (pad & -> & Hp).
  rewrite implicit_split by auto. destruct Hh as (_ & Hl & _). unfold testc, all_true.
  rewrite map2_app by (rewrite map_length, repeat_length; auto).
  replace (map2 _ pad (repeat 0 (rl s - sn s))) with (repeat 0 (rl s - sn s)).
  2:{ rewrite <- Hp. clear. induction pad; cbn [map2 repeat length]; auto.
      rewrite Z.land_0_r, <- IHpad. auto. }
  rewrite forallb_app, (forallb_repeat _ 0), andb_true_r by apply lane_zero_0.
  rewrite <- Hl. clear -Hs. induction l; cbn [map repeat length map2 forallb]; auto.
  rewrite lnot_ones_lane, lane_zero_of, IHl, negb_involutive by auto. auto.
Qed.

(* ------------------------------------------------------------------ *)
(* movemask *)
Lemma of_lanes_nonneg l : 0 <= of_lanes l.
Proof. induction l as [|[] l IH]; cbn [of_lanes b2z]; lia. Qed.

Lemma of_lanes_bound l : of_lanes l <= 2 ^ Z.of_nat (length l) - 1.
Proof.
  induction l as [|b l IH]; cbn [of_lanes length]; [lia|].
  rewrite Nat2Z.inj_succ, Z.pow_succ_r by lia. destruct b; cbn [b2z]; lia.
Qed.

Lemma of_lanes_all l : (of_lanes l =? 2 ^ Z.of_nat (length l) - 1) = all_true l.
Proof.
  unfold all_true. induction l as [|b l IH]; auto. cbn [of_lanes length forallb].
  pose proof (of_lanes_bound l).
  rewrite Nat2Z.inj_succ, Z.pow_succ_r by lia. destruct b; cbn [b2z andb].
  - rewrite <- IH. destruct (Z.eqb_spec (of_lanes l) (2 ^ Z.of_nat (length l) - 1));
      [apply Z.eqb_eq|apply Z.eqb_neq]; lia.
  - apply Z.eqb_neq. pose proof (Z.pow_pos_nonneg 2 (Z.of_nat (length l))). lia.
Qed.

Lemma of_lanes_any l : (of_lanes l =? 0) = negb (any_true l).
Proof.
  unfold any_true. induction l as [|b l IH]; auto. cbn [of_lanes existsb].
  pose proof (of_lanes_nonneg l). destruct b; cbn [b2z orb negb].
  - apply Z.eqb_neq. lia.
  - rewrite <- IH. destruct (Z.eqb_spec (of_lanes l) 0); [apply Z.eqb_eq|apply Z.eqb_neq]; lia.
Qed.

Lemma of_lanes_firstn l m :
  Z.land (of_lanes l) (2 ^ Z.of_nat m - 1) = of_lanes (firstn m l).
Proof.
  apply Z.bits_inj'. intros j Hj.
  replace (2 ^ Z.of_nat m - 1) with (Z.ones (Z.of_nat m)) by (rewrite Z.ones_equiv; lia).
  rewrite Z.land_spec, testbit_ones by lia. rewrite <- (Z2Nat.id j) by lia. rewrite !of_lanes_bit.
  destruct (Z.ltb_spec (Z.of_nat (Z.to_nat j)) (Z.of_nat m)).
  - rewrite nth_firstn_lt by lia. apply andb_true_r.
  - rewrite (nth_overflow (firstn m l)) by (rewrite firstn_length; lia). apply andb_false_r.
Qed.

Lemma popcount_of_lanes l : popcount (of_lanes l) = count_true l.
Proof.
  rewrite (popcount_bits (length l)).
  - f_equal. rewrite <- (map_seq_nth l false) at 2. apply map_ext. intros. apply of_lanes_bit.
  - pose proof (of_lanes_nonneg l). pose proof (of_lanes_bound l). lia.
Qed.

(* each element repeated *)
Definition expand (k : nat) (l : list bool) : list bool := flat_map (fun b => repeat b k) l.

Lemma expand_length k l : length (expand k l) = (length l * k)%nat.
Proof.
  unfold expand. induction l; cbn [flat_map length]; auto. rewrite app_length, repeat_length, IHl. auto.
Qed.

Lemma expand_all k l : (0 < k)%nat -> all_true (expand k l) = all_true l.
Proof.
  intros Hk. unfold all_true, expand. induction l; cbn [flat_map forallb]; auto.
  rewrite forallb_app, IHl. f_equal. destruct a.
  - apply forallb_repeat. auto.
  - destruct k; [lia|]. auto.
Qed.

Lemma expand_any k l : (0 < k)%nat -> any_true (expand k l) = any_true l.
Proof.
  intros Hk. unfold any_true, expand. induction l; cbn [flat_map existsb]; auto.
  rewrite existsb_app, IHl. f_equal. destruct a.
  - destruct k; [lia|]. auto.
  - clear. induction k; auto.
Qed.

Lemma expand_count k l : count_true (expand k l) = (count_true l * k)%nat.
Proof.
  unfold expand. induction l; auto. cbn [flat_map]. rewrite count_true_app, IHl, count_true_cons.
  assert (E : count_true (repeat a k) = if a then k else 0%nat).
  { clear. induction k; cbn [repeat]; [destruct a; auto|]. rewrite count_true_cons, IHk. destruct a; auto. }
  rewrite E. destruct a; lia.
Qed.

Lemma byte_signs_lane s b : shape_ok s -> byte_signs (sz s) (lane_of s b) = repeat b (sz s).
Proof.
  intros Hs. unfold byte_signs. apply (nth_eq_ext _ _ false).
  - rewrite map_length, seq_length, repeat_length. auto.
  - intros i Hi. rewrite map_length, seq_length in Hi. rewrite nth_map_seq, nth_repeat_lt by auto.
    cbn [Nat.add]. destruct b; cbn [lane_of].
    + apply ones_bits; auto. unfold lw. lia.
    + apply Z.bits_0.
Qed.

(* the boolean list movemask yields from elements l *)
Definition mm_list (s : shape) (l : list bool) : list bool :=
  if fp s then l else expand (sz s) l.

Lemma byte_signs_length k v : length (byte_signs k v) = k.
Proof. unfold byte_signs. rewrite map_length, seq_length. auto. Qed.

Lemma flat_signs s l pad : shape_ok s ->
  flat_map (byte_signs (sz s)) (map (lane_of s) l ++ pad)
  = expand (sz s) l ++ flat_map (byte_signs (sz s)) pad.
Proof.
  intros Hs. unfold expand. induction l; cbn [map app flat_map]; auto.
  rewrite IHl, byte_signs_lane, app_assoc by auto. auto.
Qed.

Lemma movemask_split s l pad : shape_ok s -> length l = sn s ->
  exists rest, movemask s (map (lane_of s) l ++ pad) = of_lanes (mm_list s l ++ rest) /\
    length (mm_list s l) = mm_bits s.
Proof.
  intros Hs Hl. unfold movemask, mm_list, mm_bits. destruct (fp s).
  - exists (map (msb (lw s)) pad). rewrite map_app, map_map. split; auto.
    f_equal. f_equal. rewrite <- (map_id l) at 2. apply map_ext. intros. apply msb_lane; auto.
  - exists (flat_map (byte_signs (sz s)) pad). split; [f_equal; apply flat_signs; auto|].
    rewrite expand_length, Hl. auto.
Qed.

Lemma movemask_masked s x l : holds s x l -> shape_ok s ->
  Z.land (movemask s (to_intrin s x)) (2 ^ Z.of_nat (mm_bits s) - 1) = of_lanes (mm_list s l)
  /\ length (mm_list s l) = mm_bits s.
Proof.
  intros Hh Hs. destruct (intrin_split s x l Hh Hs) as (pad & -> & Hp).
  destruct Hh as (_ & Hl & _).
  destruct (movemask_split s l pad Hs Hl) as (rest & -> & E). split; auto.
  rewrite of_lanes_firstn, <- E, firstn_app, Nat.sub_diag, firstn_all, app_nil_r. auto.
Qed.

Lemma sz_pos s : shape_ok s -> (0 < sz s)%nat.
Proof. intros (H & _). lia. Qed.

Lemma mm_all s l : shape_ok s -> all_true (mm_list s l) = all_true l.
Proof. intros. unfold mm_list. destruct (fp s); auto. apply expand_all, sz_pos; auto. Qed.
Lemma mm_any s l : shape_ok s -> any_true (mm_list s l) = any_true l.
Proof. intros. unfold mm_list. destruct (fp s); auto. apply expand_any, sz_pos; auto. Qed.

(* ------------------------------------------------------------------ *)
Lemma x86_all_of_ok f s x l : holds s x l -> shape_ok s -> x86_all_of f s x = all_true l.
Proof.
  intros Hh Hs. unfold x86_all_of. cbv zeta. destruct (f_sse41 f).
  - apply testc_implicit; auto.
  - destruct (movemask_masked s x l Hh Hs) as [-> <-]. rewrite of_lanes_all. apply mm_all; auto.
Qed.

Lemma full_when s : shape_ok s -> (sn s <? st s)%nat = false -> (st s * sz s <? 16)%nat = false ->
  rl s = sn s.
Proof.
  intros (Hz & _ & H1 & _ & H2 & H3) E1 E2.
  apply Nat.ltb_ge in E1. apply Nat.ltb_ge in E2.
  destruct H3 as [H3|[_ H3]]; [|lia].
  assert (st s * sz s = rl s * sz s)%nat by nia.
  assert (st s = rl s) by (apply Nat.mul_cancel_r with (p := sz s); lia). lia.
Qed.

Lemma x86_any_of_ok f s x l : holds s x l -> shape_ok s -> x86_any_of f s x = any_true l.
Proof.
  intros Hh Hs. unfold x86_any_of. cbv zeta. destruct (f_sse41 f).
  - destruct (sn s <? st s)%nat eqn:E1; cbn [orb].
    { rewrite (testz_implicit f s x l), negb_involutive; auto. }
    destruct (st s * sz s <? 16)%nat eqn:E2.
    { rewrite (testz_implicit f s x l), negb_involutive; auto. }
    rewrite (testz_self f s x l), negb_involutive; auto. apply full_when; auto.
  - destruct (movemask_masked s x l Hh Hs) as [-> _]. rewrite of_lanes_any, negb_involutive.
    apply mm_any; auto.
Qed.

Lemma x86_none_of_ok f s x l : holds s x l -> shape_ok s -> x86_none_of f s x = negb (any_true l).
Proof.
  intros Hh Hs. rewrite <- (x86_any_of_ok f s x l) by auto. unfold x86_none_of, x86_any_of. cbv zeta.
  destruct (f_sse41 f); [destruct (_ || _)%bool|]; rewrite negb_involutive; auto.
Qed.

Lemma x86_some_of_ok f s x l : holds s x l -> shape_ok s ->
  x86_some_of f s x = (any_true l && negb (all_true l))%bool.
Proof.
  intros Hh Hs. unfold x86_some_of. cbv zeta. destruct (f_sse41 f).
  - unfold testnzc. rewrite (testz_implicit f s x l), (testc_implicit f s x l), negb_involutive; auto.
  - destruct (movemask_masked s x l Hh Hs) as [-> <-].
    rewrite <- (mm_all s l), <- (mm_any s l) by auto.
    rewrite <- of_lanes_all. rewrite <- (negb_involutive (any_true _)), <- of_lanes_any.
    pose proof (of_lanes_nonneg (mm_list s l)). pose proof (of_lanes_bound (mm_list s l)).
    f_equal.
    + destruct (Z.ltb_spec 0 (of_lanes (mm_list s l))), (Z.eqb_spec (of_lanes (mm_list s l)) 0); cbn; auto; lia.
    + destruct (Z.ltb_spec (of_lanes (mm_list s l)) (2 ^ Z.of_nat (length (mm_list s l)) - 1)),
        (Z.eqb_spec (of_lanes (mm_list s l)) (2 ^ Z.of_nat (length (mm_list s l)) - 1)); cbn; auto; lia.
Qed.

(* ------------------------------------------------------------------ *)
(* popcount *)
Lemma count_pad l k : count_true (l ++ repeat false k) = count_true l.
Proof.
  rewrite count_true_app. assert (E : count_true (repeat false k) = 0%nat) by (induction k; auto).
  lia.
Qed.

(* elements and zero padding as one list of booleans *)
Lemma masked_lanes s x l : holds s x l -> shape_ok s ->
  vec_masked s x = map (lane_of s) (l ++ repeat false (st s - sn s)) /\
  to_intrin s (vec_masked s x) = map (lane_of s) (l ++ repeat false (rl s - sn s)).
Proof.
  intros Hh Hs. rewrite (masked_split s x l) by auto.
  assert (Hr : forall k, map (lane_of s) (repeat false k) = repeat 0 k).
  { clear. induction k; cbn [repeat map]; auto. rewrite IHk. auto. }
  destruct Hh as (_ & Hl & _). split.
  - rewrite map_app, Hr. auto.
  - unfold to_intrin. rewrite map_app, Hr, app_length, map_length, repeat_length, <- app_assoc. f_equal.
    rewrite <- repeat_app. f_equal. destruct Hs as (_ & _ & ? & _ & ? & _). lia.
Qed.

Lemma movemask_lanes s l : shape_ok s -> movemask s (map (lane_of s) l) = of_lanes (mm_list s l).
Proof.
  intros Hs. unfold movemask, mm_list. destruct (fp s).
  - f_equal. rewrite map_map. rewrite <- (map_id l) at 2. apply map_ext. intros. apply msb_lane; auto.
  - f_equal. pose proof (flat_signs s l [] Hs) as E. rewrite !app_nil_r in E. auto.
Qed.

(* list of four, eight, sixteen booleans *)
Lemma bools2 (l : list bool) : length l = 2%nat -> exists a b, l = [a; b].
Proof. destruct l as [|a [|b [|]]]; cbn; intros; try lia; eauto. Qed.
Lemma bools4 (l : list bool) : length l = 4%nat -> exists a b c d, l = [a; b; c; d].
Proof. destruct l as [|a [|b [|c [|d [|]]]]]; cbn; intros; try lia; repeat eexists. Qed.
Lemma bools8 (l : list bool) : length l = 8%nat ->
  exists a b c d e f g h, l = [a; b; c; d; e; f; g; h].
Proof.
  intros H. destruct (bools4 (firstn 4 l)) as (a & b & c & d & E); [rewrite firstn_length; lia|].
  destruct (bools4 (skipn 4 l)) as (e & f & g & h & F); [rewrite skipn_length; lia|].
  exists a, b, c, d, e, f, g, h. rewrite <- (firstn_skipn 4 l), E, F. auto.
Qed.
Lemma bools16 (l : list bool) : length l = 16%nat ->
  exists a b c d e f g h i j k m n o p q, l = [a; b; c; d; e; f; g; h; i; j; k; m; n; o; p; q].
Proof.
  intros H. destruct (bools8 (firstn 8 l)) as (a & b & c & d & e & f & g & h & E); [rewrite firstn_length; lia|].
  destruct (bools8 (skipn 8 l)) as (i & j & k & m & n & o & p & q & F); [rewrite skipn_length; lia|].
  exists a, b, c, d, e, f, g, h, i, j, k, m, n, o, p, q. rewrite <- (firstn_skipn 8 l), E, F. auto.
Qed.

Lemma lane_b2z s b : shape_ok s -> lane_of s b = ones s * b2z b.
Proof. intros. destruct b; cbn [lane_of b2z]; lia. Qed.

Lemma count_b2z l : Z.of_nat (count_true l) = fold_right (fun b a => b2z b + a) 0 l.
Proof.
  induction l; auto. rewrite count_true_cons. cbn [fold_right]. rewrite <- IHl. destruct a; cbn [b2z]; lia.
Qed.

Lemma neg_mod w c : 1 <= w -> 0 <= c <= 2 ^ (w - 1) ->
  - sgn w (((2 ^ w - 1) * c) mod 2 ^ w) = c.
Proof.
  intros Hw Hc. assert (H2 : 2 ^ w = 2 * 2 ^ (w - 1)).
  { rewrite <- Z.pow_succ_r by lia. f_equal. lia. }
  assert (0 < 2 ^ (w - 1)) by (apply Z.pow_pos_nonneg; lia).
  destruct (Z.eq_dec c 0) as [->|Hz].
  - rewrite Z.mul_0_r, Z.mod_0_l by lia. unfold sgn. destruct (Z.ltb_spec 0 (2 ^ (w - 1))); lia.
  - replace ((2 ^ w - 1) * c) with ((2 ^ w - c) + (c - 1) * 2 ^ w) by ring.
    rewrite Z_mod_plus_full, Z.mod_small by lia. unfold sgn.
    destruct (Z.ltb_spec (2 ^ w - c) (2 ^ (w - 1))); lia.
Qed.

Lemma padd_ones w a b : 0 <= w -> padd w (((2 ^ w - 1) * a) mod 2 ^ w) (((2 ^ w - 1) * b) mod 2 ^ w)
  = ((2 ^ w - 1) * (a + b)) mod 2 ^ w.
Proof.
  intros. unfold padd. rewrite <- Zplus_mod. f_equal. ring.
Qed.

Lemma lane_mod_ones s b : shape_ok s -> lane_of s b = ((2 ^ lw s - 1) * b2z b) mod 2 ^ lw s.
Proof.
  intros Hs. pose proof (lane_of_range s b Hs). rewrite lane_b2z by auto. fold (ones s).
  rewrite <- lane_b2z by auto. symmetry. apply Z.mod_small. auto.
Qed.

Lemma pop_sum w l : 1 <= w -> Z.of_nat (length l) <= 2 ^ (w - 1) ->
  - sgn w (((2 ^ w - 1) * fold_right (fun b a => b2z b + a) 0 l) mod 2 ^ w) = Z.of_nat (count_true l).
Proof.
  intros. rewrite count_b2z. apply neg_mod; auto.
  rewrite <- count_b2z. assert (count_true l <= length l)%nat; [|lia].
  unfold count_true. apply filter_length_le'.
Qed.

(* the bytes of the 16-lane sum *)
Lemma neg_byte c : 0 <= c <= 128 -> (- ((2 ^ 8 - 1) * c mod 2 ^ 8)) mod 2 ^ 8 = c.
Proof.
  intros. rewrite <- (Z.sub_0_l (_ mod _)), Zminus_mod_idemp_r.
  replace (0 - (2 ^ 8 - 1) * c) with (c + (- c) * 2 ^ 8) by ring.
  rewrite Z_mod_plus_full. apply Z.mod_small. lia.
Qed.

Lemma join_byte lo hi : 0 <= lo < 256 -> 0 <= hi ->
  Z.land (lo + 2 ^ 8 * hi) 255 + Z.shiftr (lo + 2 ^ 8 * hi) 8 = lo + hi.
Proof.
  intros. change 255 with (Z.ones 8). rewrite Z.land_ones, Z.shiftr_div_pow2 by lia.
  rewrite (Z.mul_comm (2 ^ 8)), Z_mod_plus_full, Z.div_add by lia.
  rewrite Z.mod_small, Z.div_small by lia. lia.
Qed.

Lemma b2z_range b : 0 <= b2z b <= 1.
Proof. destruct b; cbn; lia. Qed.
Ltac b2z_lia :=
  repeat match goal with |- context [b2z ?b] =>
    let z := fresh "z" in pose proof (b2z_range b); set (z := b2z b) in *; clearbody z end; lia.

Lemma x86_popcount_ok f s x l : holds s x l -> shape_ok s ->
  (f_popcnt f = true \/ rl s * sz s = 16 \/ sz s = 8)%nat ->
  x86_popcount f s x = Some (Z.of_nat (count_true l)).
Proof.
  intros Hh Hs Hcase. pose proof (masked_lanes s x l Hh Hs) as [Hm Hi].
  destruct Hh as (_ & Hl & _).
  pose proof (count_pad l (rl s - sn s)) as Hc.
  unfold x86_popcount. cbv zeta. rewrite Hi.
  destruct (f_popcnt f).
  { rewrite movemask_lanes by auto. rewrite popcount_of_lanes. unfold mm_list. f_equal.
    destruct (fp s); [rewrite Hc; auto|].
    rewrite expand_count, Hc, Nat2Z.inj_mul. apply Z.div_mul. pose proof (sz_pos s Hs). lia. }
  pose proof Hs as (Hz & _ & Hn & Hh2 & Hr & Hreg).
  set (L := l ++ repeat false (rl s - sn s)) in *.
  assert (HL : length L = rl s) by (unfold L; rewrite app_length, repeat_length; lia).
  destruct Hz as [E|[E|[E|E]]]; rewrite E in *; cbn [Nat.eqb];
    rewrite ?andb_false_r, ?andb_true_r.
  - (* bytes *)
    destruct Hcase as [|[Hcase|]]; [discriminate| |lia].
    replace (sn s <=? 16)%nat with true by (symmetry; apply Nat.leb_le; lia).
    assert (HL' : length L = 16%nat) by lia.
    assert (Ew : lw s = 8) by (unfold lw; rewrite E; auto).
    destruct (bools16 L HL') as (a & b & c & d & e & g & h & i & j & k & m & n & o & p & q & r & EL).
    rewrite EL in *. cbn [map].
    rewrite !(lane_mod_ones s) by auto. rewrite Ew.
    unfold add_perm, perm, rev32_1, lo0123_1, lo2301_1. cbn [map map2 nth].
    rewrite !padd_ones by lia.
    rewrite !neg_byte by b2z_lia.
    rewrite join_byte by b2z_lia.
    rewrite <- Hc, count_b2z. cbn [fold_right]. destruct (f_sse41 f); f_equal; ring.
  - destruct Hcase as [|[Hcase|]]; [discriminate| |lia].
    replace (sn s <=? 8)%nat with true by (symmetry; apply Nat.leb_le; lia).
    assert (HL' : length L = 8%nat) by lia.
    assert (Ew : lw s = 16) by (unfold lw; rewrite E; auto).
    pose proof (pop_sum 16 L ltac:(lia) ltac:(rewrite HL'; cbn; lia)) as Hps.
    destruct (bools8 L HL') as (a & b & c & d & e & g & h & i & EL).
    rewrite EL in *. cbn [map].
    rewrite !(lane_mod_ones s) by auto. rewrite Ew.
    unfold add_perm, perm, rev32_2, lo0123_2, lo2301_2. cbn [map map2 nth].
    rewrite !padd_ones by lia. rewrite <- Hc, <- Hps. cbn [fold_right].
    do 5 f_equal. ring.
  - destruct Hcase as [|[Hcase|]]; [discriminate| |lia].
    replace (sn s <=? 4)%nat with true by (symmetry; apply Nat.leb_le; lia).
    assert (HL' : length L = 4%nat) by lia.
    assert (Ew : lw s = 32) by (unfold lw; rewrite E; auto).
    pose proof (pop_sum 32 L ltac:(lia) ltac:(rewrite HL'; cbn; lia)) as Hps.
    destruct (bools4 L HL') as (a & b & c & d & EL).
    rewrite EL in *. cbn [map].
    rewrite !(lane_mod_ones s) by auto. rewrite Ew.
    unfold add_perm, perm, rev32_4, lo1032_4. cbn [map map2 nth].
    rewrite !padd_ones by lia. rewrite <- Hc, <- Hps. cbn [fold_right].
    do 5 f_equal. ring.
  - clear Hcase. assert (Ew : lw s = 64) by (unfold lw; rewrite E; auto).
    destruct (Nat.eqb_spec (sn s) 2) as [E2|E2].
    + assert (Er : rl s = 2%nat) by lia.
      rewrite Er in HL. destruct (bools2 L HL) as (a & b & EL). rewrite EL in *. cbn [map].
      rewrite <- Ew, !msb_lane by auto. f_equal. rewrite <- Hc. destruct a, b; reflexivity.
    + assert (rl s = 4%nat /\ st s = 4%nat) as [Er Est] by lia.
      replace (sn s <=? 4)%nat with true by (symmetry; apply Nat.leb_le; lia). cbn [andb].
      rewrite Hm. replace (l ++ repeat false (st s - sn s)) with L by (unfold L; rewrite Er, Est; auto).
      rewrite Er in HL. destruct (bools4 L HL) as (a & b & c & d & EL).
      rewrite EL in *. rewrite <- Hc. unfold lane_of, ones. rewrite Ew.
      destruct a, b, c, d; reflexivity.
Qed.

(* the branch without a return statement *)
Lemma x86_popcount_missing f s x : shape_ok s -> f_popcnt f = false ->
  (rl s * sz s = 32 /\ sz s <> 8)%nat -> x86_popcount f s x = None.
Proof.
  intros (Hz & _ & Hn & Hh & Hr & Hreg) Hp (H32 & H8).
  destruct Hreg as [Hreg|[_ Est]]; [lia|].
  unfold x86_popcount. cbv zeta. rewrite Hp.
  replace (sz s =? 8)%nat with false by (symmetry; apply Nat.eqb_neq; auto). rewrite !andb_false_r.
  destruct (Nat.leb_spec (sn s) 4), (Nat.leb_spec (sn s) 8), (Nat.leb_spec (sn s) 16),
    (Nat.eqb_spec (sz s) 4), (Nat.eqb_spec (sz s) 2), (Nat.eqb_spec (sz s) 1); cbn [andb]; auto; exfalso; nia.
Qed.

(* ------------------------------------------------------------------ *)
(* to_bits *)
Lemma packs_sign v : 0 <= v < 2 ^ 16 -> msb 8 (packs16 v) = msb 16 v.
Proof.
  intros Hv. unfold msb, packs16, sgn, uns.
  assert (T16 : Z.testbit v (16 - 1) = (2 ^ 15 <=? v)).
  { rewrite Z.testbit_eqb by lia. change (16 - 1) with 15.
    assert (v / 2 ^ 15 = 0 \/ v / 2 ^ 15 = 1).
    { assert (0 <= v / 2 ^ 15 < 2); [|lia]. split; [apply Z.div_pos; lia|apply Z.div_lt_upper_bound; lia]. }
    destruct (Z.leb_spec (2 ^ 15) v).
    - destruct H as [H|H]; rewrite H; auto.
      apply Z.div_small_iff in H; lia.
    - rewrite Z.div_small by lia. auto. }
  rewrite T16. change (2 ^ (16 - 1)) with (2 ^ 15).
  destruct (Z.ltb_spec v (2 ^ 15)), (Z.leb_spec (2 ^ 15) v); try lia.
  - rewrite Z.mod_small by lia.
    rewrite Z.testbit_eqb by lia. rewrite Z.div_small; auto. change (2 ^ (8 - 1)) with 128. lia.
  - set (m := Z.max (-128) (Z.min 127 (v - 2 ^ 16))).
    assert (Hm : -128 <= m <= -1) by lia.
    replace m with ((m + 2 ^ 8) + (-1) * 2 ^ 8) by ring. rewrite Z_mod_plus_full, Z.mod_small by lia.
    rewrite Z.testbit_eqb by lia. change (2 ^ (8 - 1)) with 128.
    replace ((m + 2 ^ 8) / 128) with 1; auto.
    apply Z.div_unique with (r := m + 128); lia.
Qed.

Lemma lane_lo s x l : holds s x l -> forall v, In v (to_intrin s x) -> 0 <= v < 2 ^ lw s.
Proof.
  intros (Hx & _ & _ & Hr) v Hv. unfold to_intrin in Hv. apply in_app_or in Hv.
  destruct Hv as [Hv|Hv].
  - destruct (In_nth _ _ 0 Hv) as (i & Hi & <-). apply Hr. lia.
  - apply repeat_spec in Hv. subst. split; [lia|]. apply Z.pow_pos_nonneg; unfold lw; lia.
Qed.

Lemma x86_to_bits_ok packs s x l : holds s x l -> shape_ok s ->
  x86_to_bits packs s x = of_lanes l.
Proof.
  intros Hh Hs. unfold x86_to_bits. cbv zeta. rewrite of_lanes_firstn. f_equal.
  assert (E : (if (packs && (sz s =? 2)%nat)%bool then map (msb 8) (map packs16 (to_intrin s x))
               else map (msb (lw s)) (to_intrin s x)) = map (msb (lw s)) (to_intrin s x)).
  { destruct packs; cbn [andb]; auto. destruct (Nat.eqb_spec (sz s) 2) as [E|E]; auto.
    rewrite map_map. apply map_ext_in. intros v Hv.
    pose proof (lane_lo s x l Hh v Hv) as Hr. unfold lw in *. rewrite E in *.
    apply packs_sign. auto. }
  rewrite E. destruct (intrin_split s x l Hh Hs) as (pad & -> & Hp).
  destruct Hh as (_ & Hl & _). rewrite map_app, firstn_app, map_length, map_length, Hl, Nat.sub_diag.
  cbn [firstn]. rewrite app_nil_r, firstn_all2 by (rewrite !map_length; lia).
  rewrite map_map. rewrite <- (map_id l) at 2. apply map_ext. intros. apply msb_lane; auto.
Qed.

Lemma of_lanes_first w l : any_true l = true -> is_first_true l (countr_zero w (of_lanes l)).
Proof.
  intros Ha. unfold any_true in Ha. rewrite existsb_nth in Ha. destruct Ha as (i & Hi & E).
  rewrite <- of_lanes_bit in E. pose proof (of_lanes_nonneg l).
  assert (Hk : forall j, Z.testbit (of_lanes l) (Z.of_nat j) = nth j l false) by apply of_lanes_bit.
  unfold countr_zero.
  destruct (of_lanes l) as [|p|p]; [rewrite Z.bits_0 in E; discriminate| |lia].
  destruct (ctz_spec p) as [H1 H2].
  assert (ctz_pos p < length l)%nat.
  { destruct (le_lt_dec (length l) (ctz_pos p)) as [H'|H']; auto.
    rewrite Hk, nth_overflow in H1 by auto. discriminate. }
  split.
  - rewrite (nth_error_nth' l false) by lia. rewrite <- Hk, H1. auto.
  - intros j Hj. rewrite (nth_error_nth' l false) by lia. rewrite <- Hk, H2; auto.
Qed.

Lemma of_lanes_last l : any_true l = true ->
  exists i, bit_width (of_lanes l) - 1 = Z.of_nat i /\ is_last_true l i.
Proof.
  intros Ha. unfold any_true in Ha. rewrite existsb_nth in Ha. destruct Ha as (i & Hi & E).
  rewrite <- of_lanes_bit in E. pose proof (of_lanes_nonneg l).
  assert (Hk : forall j, Z.testbit (of_lanes l) (Z.of_nat j) = nth j l false) by apply of_lanes_bit.
  unfold bit_width.
  destruct (Z.eqb_spec (of_lanes l) 0) as [Hz|Hz]; [rewrite Hz, Z.bits_0 in E; discriminate|].
  assert (Hp : 0 < of_lanes l) by lia. pose proof (Z.log2_nonneg (of_lanes l)).
  pose proof (Z.bit_log2 _ Hp) as Htop.
  exists (Z.to_nat (Z.log2 (of_lanes l))). split; [lia|].
  assert (Z.to_nat (Z.log2 (of_lanes l)) < length l)%nat.
  { destruct (le_lt_dec (length l) (Z.to_nat (Z.log2 (of_lanes l)))) as [H'|H']; auto.
    rewrite <- (Z2Nat.id (Z.log2 _)) in Htop by lia. rewrite Hk, nth_overflow in Htop by auto. discriminate. }
  split.
  - rewrite (nth_error_nth' l false) by lia. rewrite <- Hk, Z2Nat.id by lia. rewrite Htop. auto.
  - intros j Hj Hjl. rewrite (nth_error_nth' l false) by lia. rewrite <- Hk.
    rewrite Z.bits_above_log2 by lia. auto.
Qed.

(* ------------------------------------------------------------------ *)
(* generic versions *)
Lemma holds_firstn s x l : holds s x l -> shape_ok s -> firstn (sn s) x = map (lane_of s) l.
Proof.
  intros Hh Hs. destruct (holds_split s x l Hh Hs) as [E _]. rewrite E.
  destruct Hh as (_ & Hl & _). rewrite firstn_app, map_length, Hl, Nat.sub_diag.
  cbn [firstn]. rewrite app_nil_r. apply firstn_all2. rewrite map_length. lia.
Qed.

Lemma lane_eqb0 s b : shape_ok s -> (lane_of s b =? 0) = negb b.
Proof. intros Hs. pose proof (ones_pos s Hs). destruct b; cbn [lane_of negb]; [apply Z.eqb_neq; lia|auto]. Qed.

Lemma base_all_of_ok s x l : holds s x l -> shape_ok s -> base_all_of s x = all_true l.
Proof.
  intros Hh Hs. unfold base_all_of, all_true. rewrite (holds_firstn s x l) by auto.
  clear -Hs. induction l; cbn [map forallb]; auto. rewrite lane_eqb0, negb_involutive, IHl; auto.
Qed.
Lemma base_any_of_ok s x l : holds s x l -> shape_ok s -> base_any_of s x = any_true l.
Proof.
  intros Hh Hs. unfold base_any_of, any_true. rewrite (holds_firstn s x l) by auto.
  clear -Hs. induction l; cbn [map existsb]; auto. rewrite lane_eqb0, negb_involutive, IHl; auto.
Qed.
Lemma base_none_of_ok s x l : holds s x l -> shape_ok s -> base_none_of s x = negb (any_true l).
Proof.
  intros Hh Hs. unfold base_none_of, any_true. rewrite (holds_firstn s x l) by auto.
  clear -Hs. induction l; cbn [map forallb existsb]; auto. rewrite lane_eqb0, IHl; auto.
  destruct a; auto.
Qed.

Lemma fold_lanes s l : shape_ok s -> forall a,
  fold_left (fun a v => uns (lw s) (a + v)) (map (lane_of s) l) (((2 ^ lw s - 1) * a) mod 2 ^ lw s)
  = ((2 ^ lw s - 1) * (a + Z.of_nat (count_true l))) mod 2 ^ lw s.
Proof.
  intros Hs. induction l as [|b l IH]; intros a; cbn [map fold_left].
  - unfold count_true. cbn. rewrite Z.add_0_r. auto.
  - rewrite (lane_mod_ones s b Hs). unfold uns at 2. rewrite <- Zplus_mod.
    replace ((2 ^ lw s - 1) * a + (2 ^ lw s - 1) * b2z b) with ((2 ^ lw s - 1) * (a + b2z b)) by ring.
    rewrite IH, count_true_cons. f_equal. destruct b; cbn [b2z]; lia.
Qed.

Lemma count_le s l : shape_ok s -> length l = sn s -> Z.of_nat (count_true l) <= 2 ^ (lw s - 1) /\
  (count_true l <= sn s)%nat.
Proof.
  intros Hs Hl. assert (count_true l <= length l)%nat by (unfold count_true; apply filter_length_le').
  split; [|lia]. pose proof (lw_cases s Hs) as Hw.
  destruct Hs as (Hz & _ & H1 & _ & H2 & H3).
  assert (sn s <= 32)%nat by nia.
  destruct Hw as [E|[E|[E|E]]]; rewrite E; cbn; lia.
Qed.

Lemma base_popcount_ok s x l : holds s x l -> shape_ok s -> base_popcount s x = Z.of_nat (count_true l).
Proof.
  intros Hh Hs. unfold base_popcount. rewrite (holds_firstn s x l) by auto.
  destruct Hh as (_ & Hl & _).
  pose proof (fold_lanes s l Hs 0) as E. rewrite Z.mul_0_r, Z.mod_0_l, Z.add_0_l in E.
  2:{ apply Z.pow_nonzero; [lia|unfold lw; lia]. }
  rewrite E. apply neg_mod.
  - destruct (lw_cases s Hs) as [F|[F|[F|F]]]; rewrite F; lia.
  - split; [lia|]. apply count_le; auto.
Qed.

Lemma some_count l : (any_true l && negb (all_true l))%bool
  = ((0 <? count_true l)%nat && (count_true l <? length l)%nat)%bool.
Proof.
  assert (Ha : any_true l = (0 <? count_true l)%nat).
  { unfold any_true. induction l; auto. rewrite count_true_cons. cbn [existsb]. rewrite IHl. destruct a; auto. }
  assert (Hb : all_true l = negb (count_true l <? length l)%nat).
  { unfold all_true. clear Ha. induction l as [|b l IHl]; auto. rewrite count_true_cons. cbn [forallb length].
    assert (Hc : (count_true l <= length l)%nat) by (unfold count_true; apply filter_length_le').
    destruct b; cbn [andb].
    - rewrite IHl. f_equal.
    - symmetry. apply negb_false_iff. apply Nat.ltb_lt. lia. }
  rewrite Ha, Hb, negb_involutive. auto.
Qed.

Lemma base_some_of_ok s x l : holds s x l -> shape_ok s ->
  base_some_of s x = (any_true l && negb (all_true l))%bool.
Proof.
  intros Hh Hs. unfold base_some_of. rewrite (base_popcount_ok s x l), some_count by auto.
  destruct Hh as (_ & Hl & _). rewrite Hl. f_equal.
  - destruct (Nat.ltb_spec 0 (count_true l)), (Z.ltb_spec 0 (Z.of_nat (count_true l))); auto; lia.
  - destruct (Nat.ltb_spec (count_true l) (sn s)), (Z.ltb_spec (Z.of_nat (count_true l)) (Z.of_nat (sn s))); auto; lia.
Qed.
