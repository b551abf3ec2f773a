From Coq Require Import List ZArith Bool Arith Lia.
From Verif Require Import Prelude MaskSpec BitMask BitMaskProofs KMask KMaskSpec KMaskProofs X86Lanes X86Bits X86Mask X86MaskSpec
  X86MaskProofs IntDiv IntDivSpec IntDivProofs PaddingSpec PaddingProofs PaddingTop Neon NeonSpec.
Import ListNotations.
Local Open Scope Z_scope.

(* (sz, st) in every case *)
Lemma neon_cases s : neon_ok s ->
  (sz s = 1%nat /\ (st s = 2 \/ st s = 4 \/ st s = 8 \/ st s = 16)%nat) \/
  (sz s = 2%nat /\ (st s = 2 \/ st s = 4 \/ st s = 8)%nat) \/
  (sz s = 4%nat /\ (st s = 2 \/ st s = 4)%nat) \/ (sz s = 8%nat /\ st s = 2%nat).
Proof. unfold neon_ok, nbytes. intros ([E|[E|[E|E]]] & H & Hn & _); rewrite E in *; lia. Qed.

Lemma neon_lw s : neon_ok s -> lw s = 8 \/ lw s = 16 \/ lw s = 32 \/ lw s = 64.
Proof. unfold neon_ok, lw. intros ([E|[E|[E|E]]] & _); rewrite E; auto. Qed.

Lemma neon_ones s : neon_ok s -> 0 < ones s < 2 ^ lw s.
Proof. intros Hs. unfold ones. destruct (neon_lw s Hs) as [E|[E|[E|E]]]; rewrite E; lia. Qed.

(* the elements followed by lanes that are all b *)
Definition ext (s : shape) (l : list bool) (b : bool) : list bool := l ++ repeat b (st s - length l).

Lemma ext_len s l b : neon_ok s -> length l = sn s -> length (ext s l b) = st s.
Proof. intros (_ & _ & H & _) Hl. unfold ext. rewrite app_length, repeat_length. lia. Qed.

Lemma ext_nth s l b i : (i < st s)%nat -> nth i (ext s l b) false = if (i <? length l)%nat then nth i l false else b.
Proof.
  intros Hi. unfold ext. destruct (Nat.ltb_spec i (length l)).
  - apply app_nth1. auto.
  - rewrite app_nth2 by auto. apply nth_repeat_lt. lia.
Qed.

Lemma nimplicit_nth s i : (i < st s)%nat -> nth i (vec_implicit s) 0 = lane_of s (i <? sn s)%nat.
Proof.
  intros Hi. unfold vec_implicit. destruct (Nat.ltb_spec (sn s) (st s)).
  - rewrite (nth_indep _ 0 (if (0 <? sn s)%nat then ones s else 0)) by (rewrite map_length, seq_length; lia).
    rewrite (map_nth (fun i => if (i <? sn s)%nat then ones s else 0)). rewrite seq_nth by lia. cbn. reflexivity.
  - rewrite nth_repeat_lt by auto. destruct (Nat.ltb_spec i (sn s)); [reflexivity|lia].
Qed.
Lemma nimplicit_len s : length (vec_implicit s) = st s.
Proof. unfold vec_implicit. destruct (_ <? _)%nat; [rewrite map_length; apply seq_length|apply repeat_length]. Qed.

Lemma lor_ones_l w a : 0 <= w -> 0 <= a < 2 ^ w -> Z.lor a (2 ^ w - 1) = 2 ^ w - 1.
Proof.
  intros Hw Ha. replace (2 ^ w - 1) with (Z.ones w) by (rewrite Z.ones_equiv; lia).
  apply Z.bits_inj'. intros j Hj. rewrite Z.lor_spec. destruct (Z_lt_le_dec j w).
  - rewrite Z.ones_spec_low by lia. apply orb_true_r.
  - rewrite Z.ones_spec_high, (high_bits a w j) by lia. auto.
Qed.

Lemma or_padding_ok s x l : neon_ok s -> holds s x l -> or_padding s x = map (lane_of s) (ext s l true).
Proof.
  intros Hs (Hx & Hl & He & Hr). pose proof (ext_len s l true Hs Hl) as EL.
  apply (nth_eq_ext _ _ 0); unfold or_padding; rewrite map2_length, nimplicit_len, Hx; [rewrite map_length; lia|].
  intros i Hi. rewrite nth_map2z by (rewrite ?nimplicit_len; lia). rewrite nimplicit_nth by lia.
  rewrite lanes_map by lia. rewrite ext_nth, Hl by lia. specialize (Hr i ltac:(lia)).
  destruct (Nat.ltb_spec i (sn s)) as [H|H]; cbn [lane_of].
  - rewrite He by auto. unfold ones, lw. rewrite Z.sub_diag, Z.lor_0_r. unfold lane_of. destruct (nth i l false); auto.
  - rewrite Z.sub_0_r. unfold ones, lw. apply lor_ones_l; [lia|auto].
Qed.

Lemma masked_ok s x l : neon_ok s -> holds s x l -> vec_masked s x = map (lane_of s) (ext s l false).
Proof.
  intros Hs (Hx & Hl & He & Hr). pose proof (ext_len s l false Hs Hl) as EL. unfold vec_masked.
  pose proof (neon_ones s Hs) as HO.
  destruct (Nat.ltb_spec (sn s) (st s)) as [Hp|Hp].
  - apply (nth_eq_ext _ _ 0); rewrite map2_length, nimplicit_len, Hx; [rewrite map_length; lia|].
    intros i Hi. rewrite nth_map2z by (rewrite ?nimplicit_len; lia). rewrite nimplicit_nth by lia.
    rewrite lanes_map by lia. rewrite ext_nth, Hl by lia.
    destruct (Nat.ltb_spec i (sn s)) as [H|H]; cbn [lane_of]; [|apply Z.land_0_r].
    rewrite He by auto. destruct (nth i l false); cbn [lane_of]; [|auto]. apply Z.land_diag.
  - apply (nth_eq_ext _ _ 0); [rewrite map_length; lia|]. rewrite Hx. intros i Hi. rewrite lanes_map by lia.
    rewrite ext_nth, Hl by lia. destruct (Nat.ltb_spec i (sn s)); [|lia]. apply He. auto.
Qed.

Lemma ext_any_false s l : any_true (ext s l false) = any_true l.
Proof. unfold ext, any_true. rewrite existsb_app. destruct (existsb _ l); auto. cbn. induction (_ - _)%nat; auto. Qed.
Lemma ext_any_true s l : any_true (ext s l true) = (any_true l || (length l <? st s)%nat)%bool.
Proof.
  unfold ext, any_true. rewrite existsb_app. f_equal. destruct (Nat.ltb_spec (length l) (st s)).
  - destruct (st s - length l)%nat eqn:E; [lia|]. auto.
  - replace (st s - length l)%nat with 0%nat by lia. auto.
Qed.
Lemma ext_all_true s l : all_true (ext s l true) = all_true l.
Proof.
  unfold ext, all_true. rewrite forallb_app. replace (forallb _ (repeat true _)) with true; [apply andb_true_r|].
  induction (_ - _)%nat; auto.
Qed.

(* numbers made of lanes *)
Lemma join_app w a b : 0 <= w -> join w (a ++ b) = join w a + 2 ^ (w * Z.of_nat (length a)) * join w b.
Proof.
  intros Hw. induction a as [|v a IH]; cbn [app join length]; [rewrite Z.mul_0_r, Z.pow_0_r; lia|].
  rewrite IH. replace (w * Z.of_nat (S (length a))) with (w + w * Z.of_nat (length a)) by lia.
  rewrite Z.pow_add_r by nia. ring.
Qed.

Lemma join_facts s L : neon_ok s -> let J := join (lw s) (map (lane_of s) L) in let M := 2 ^ (lw s * Z.of_nat (length L)) in
  0 <= J < M /\ (J =? 0) = negb (any_true L) /\ (J =? M - 1) = all_true L.
Proof.
  intros Hs. pose proof (neon_ones s Hs) as HO. assert (Hw : 0 < lw s) by (destruct (neon_lw s Hs) as [E|[E|[E|E]]]; rewrite E; lia).
  induction L as [|b L (IH1 & IH2 & IH3)]; cbn zeta in *; cbn [map join length].
  - rewrite Z.mul_0_r, Z.pow_0_r. repeat split; auto; lia.
  - replace (lw s * Z.of_nat (S (length L))) with (lw s + lw s * Z.of_nat (length L)) by lia.
    rewrite Z.pow_add_r by nia. set (J := join _ _) in *. set (M := 2 ^ (lw s * _)) in *. unfold ones in *. set (P := 2 ^ lw s) in *.
    unfold lane_of, ones. fold P. cbn [any_true all_true existsb forallb]. unfold any_true, all_true in *.
    split; [destruct b; nia|]. split.
    + destruct b; cbn [orb negb].
      * destruct (Z.eqb_spec (P - 1 + P * J) 0); auto. nia.
      * rewrite <- IH2. destruct (Z.eqb_spec (0 + P * J) 0), (Z.eqb_spec J 0); auto; nia.
    + destruct b; cbn [andb].
      * rewrite <- IH3. destruct (Z.eqb_spec (P - 1 + P * J) (P * M - 1)), (Z.eqb_spec J (M - 1)); auto; nia.
      * destruct (Z.eqb_spec (0 + P * J) (P * M - 1)); auto. exfalso. nia.
Qed.

Lemma sgn_facts w v : 0 < w -> 0 <= v < 2 ^ w -> (sgn w v =? 0) = (v =? 0) /\ (sgn w v =? -1) = (v =? 2 ^ w - 1).
Proof.
  intros Hw Hv. assert (E : 2 ^ w = 2 * 2 ^ (w - 1)) by (rewrite <- Z.pow_succ_r by lia; f_equal; lia).
  assert (0 < 2 ^ (w - 1)) by (apply Z.pow_pos_nonneg; lia).
  unfold sgn. destruct (Z.ltb_spec v (2 ^ (w - 1))); split;
    repeat match goal with |- context [?a =? ?b] => destruct (Z.eqb_spec a b) end; auto; lia.
Qed.

Lemma join_mul s L : join (lw s) (map (lane_of s) L) = ones s * join (lw s) (map b2z L).
Proof. induction L as [|b L IH]; cbn [map join]; [lia|]. rewrite IH. destruct b; cbn [lane_of b2z]; ring. Qed.

(* the signed word of a half register is at most a quarter of its range away from 0 *)
Lemma word_small s L : neon_ok s -> (0 < length L)%nat -> lw s * Z.of_nat (length L) = 64 ->
  - 2 ^ 56 <= sgn 64 (join (lw s) (map (lane_of s) L)) < 2 ^ 56.
Proof.
  intros Hs Hl E. destruct (exists_last (l := L)) as (M & b & ->); [intros ->; cbn in Hl; lia|].
  rewrite app_length in E. cbn [length] in E. rewrite map_app. cbn [map]. rewrite join_app by (destruct (neon_lw s Hs); lia).
  rewrite map_length. cbn [join]. destruct (join_facts s M Hs) as [R _]. cbn zeta in R. set (J := join _ _) in *.
  assert (Q : exists Q, 2 ^ (lw s * Z.of_nat (length M)) = Q /\ 0 < Q <= 2 ^ 56 /\ 2 ^ 64 = Q * 2 ^ lw s).
  { exists (2 ^ (lw s * Z.of_nat (length M))). split; [auto|]. pose proof (neon_lw s Hs) as Hw. split.
    - split; [apply Z.pow_pos_nonneg; nia|]. apply Z.pow_le_mono_r; [lia|]. destruct Hw as [W|[W|[W|W]]]; rewrite W in *; lia.
    - rewrite <- Z.pow_add_r by nia. f_equal. lia. }
  destruct Q as (Q & EQ & HQ & E64). rewrite EQ in *. unfold lane_of, ones, sgn.
  change (2 ^ (64 - 1)) with (2 ^ 63). destruct b.
  - destruct (Z.ltb_spec (J + Q * (2 ^ lw s - 1 + 2 ^ lw s * 0)) (2 ^ 63)); lia.
  - destruct (Z.ltb_spec (J + Q * (0 + 2 ^ lw s * 0)) (2 ^ 63)); lia.
Qed.

Lemma halves16 s (L : list bool) : neon_ok s -> length L = st s -> nbytes s = 16%nat ->
  let A := firstn (st s / 2) L in let B := skipn (st s / 2) L in
  L = A ++ B /\ (0 < length A)%nat /\ (0 < length B)%nat /\
  lw s * Z.of_nat (length A) = 64 /\ lw s * Z.of_nat (length B) = 64.
Proof.
  intros Hs Hl Hb. cbn zeta. split; [symmetry; apply firstn_skipn|]. rewrite firstn_length, skipn_length, Hl.
  unfold nbytes, lw in *. destruct (neon_cases s Hs) as [(E & D)|[(E & D)|[(E & D)|(E & D)]]]; rewrite E in *;
    repeat destruct D as [D|D]; rewrite D in *; cbn [Nat.div Nat.divmod fst Nat.min Nat.sub] in *; try lia.
Qed.

Lemma all_app a b : all_true (a ++ b) = (all_true a && all_true b)%bool.
Proof. apply forallb_app. Qed.
Lemma any_app a b : any_true (a ++ b) = (any_true a || any_true b)%bool.
Proof. apply existsb_app. Qed.

Lemma words s L : neon_ok s -> length L = st s -> nbytes s = 16%nat ->
  let a := word0 s (map (lane_of s) L) in let b := word1 s (map (lane_of s) L) in
  - 2 ^ 63 <= a + b < 2 ^ 63 /\ (a + b =? -2) = all_true L /\ (Z.lor a b =? 0) = negb (any_true L).
Proof.
  intros Hs Hl Hb. cbn zeta. destruct (halves16 s L Hs Hl Hb) as (EL & HA & HB & WA & WB). cbn zeta in *.
  unfold word0, word1. rewrite firstn_map, skipn_map.
  set (A := firstn (st s / 2) L) in *. set (B := skipn (st s / 2) L) in *.
  pose proof (word_small s A Hs HA WA). pose proof (word_small s B Hs HB WB).
  destruct (join_facts s A Hs) as (RA & ZA & FA). destruct (join_facts s B Hs) as (RB & ZB & FB). cbn zeta in *.
  rewrite WA in *. rewrite WB in *. pose proof (join_mul s A) as MA. pose proof (join_mul s B) as MB.
  set (JA := join (lw s) (map (lane_of s) A)) in *. set (JB := join (lw s) (map (lane_of s) B)) in *.
  set (PA := join (lw s) (map b2z A)) in *. set (PB := join (lw s) (map b2z B)) in *.
  destruct (sgn_facts 64 JA ltac:(lia) RA) as [SA0 SA1]. destruct (sgn_facts 64 JB ltac:(lia) RB) as [SB0 SB1].
  split; [lia|]. split.
  - rewrite EL, all_app, <- FA, <- FB. apply Bool.eq_iff_eq_true. rewrite andb_true_iff, !Z.eqb_eq. split.
    + intros E. unfold ones in MA, MB. unfold sgn in E. change (2 ^ (64 - 1)) with (2 ^ 63) in E.
      destruct (neon_lw s Hs) as [W|[W|[W|W]]]; rewrite W in *;
        destruct (Z.ltb_spec JA (2 ^ 63)), (Z.ltb_spec JB (2 ^ 63)); lia.
    + intros [-> ->]. reflexivity.
  - rewrite EL, any_app, negb_orb, <- ZA, <- ZB, <- SA0, <- SB0. apply Bool.eq_iff_eq_true.
    rewrite andb_true_iff, !Z.eqb_eq. apply Z.lor_eq_0_iff.
Qed.

Lemma small_words s L : neon_ok s -> length L = st s ->
  let v := sgn (nbits s) (join (lw s) (map (lane_of s) L)) in
  (v =? -1) = all_true L /\ (v =? 0) = negb (any_true L).
Proof.
  intros Hs Hl. cbn zeta. destruct (join_facts s L Hs) as (R & Z0 & F). cbn zeta in *. rewrite Hl in *. fold (nbits s) in *.
  assert (0 < nbits s). { unfold nbits. destruct Hs as (? & ? & ? & ?). destruct (neon_lw s) as [W|[W|[W|W]]]; [repeat split; auto; lia| | | |]; rewrite W; lia. }
  destruct (sgn_facts (nbits s) _ H R) as [S0 S1]. rewrite S0, S1. auto.
Qed.

Lemma neon_all_ok s x l : neon_ok s -> holds s x l -> neon_all_of s x = Some (all_true l).
Proof.
  intros Hs Hh. pose proof (ext_len s l true Hs (proj1 (proj2 Hh))) as EL. unfold neon_all_of.
  rewrite (or_padding_ok s x l) by auto. rewrite <- (ext_all_true s l). destruct (Nat.eqb_spec (nbytes s) 16) as [E|E].
  - destruct (words s _ Hs EL E) as (R & A & _). cbn zeta in *. rewrite A.
    rewrite (proj2 (Z.leb_le _ _)), (proj2 (Z.ltb_lt _ _)) by lia. auto.
  - destruct (small_words s _ Hs EL) as [A _]. cbn zeta in A. rewrite A. auto.
Qed.

Lemma neon_any_ok s x l : neon_ok s -> holds s x l -> neon_any_of s x = (any_true l || (sn s <? st s)%nat)%bool.
Proof.
  intros Hs Hh. pose proof (proj1 (proj2 Hh)) as Hl. pose proof (ext_len s l true Hs Hl) as EL. unfold neon_any_of.
  rewrite (or_padding_ok s x l) by auto. rewrite <- Hl, <- ext_any_true. destruct (Nat.eqb_spec (nbytes s) 16) as [E|E].
  - destruct (words s _ Hs EL E) as (_ & _ & A). cbn zeta in *. rewrite A. apply negb_involutive.
  - destruct (small_words s _ Hs EL) as [_ A]. cbn zeta in A. rewrite A. apply negb_involutive.
Qed.

Lemma neon_none_ok s x l : neon_ok s -> holds s x l -> neon_none_of s x = negb (any_true l).
Proof.
  intros Hs Hh. pose proof (proj1 (proj2 Hh)) as Hl. pose proof (ext_len s l false Hs Hl) as EL. unfold neon_none_of.
  rewrite (masked_ok s x l) by auto. rewrite <- (ext_any_false s l). destruct (Nat.eqb_spec (nbytes s) 16) as [E|E].
  - destruct (words s _ Hs EL E) as (_ & _ & A). cbn zeta in *. rewrite A. auto.
  - destruct (small_words s _ Hs EL) as [_ A]. cbn zeta in A. rewrite A. auto.
Qed.

(* some_of up to 8 bytes *)
Lemma neon_some_small a64 s x l : neon_ok s -> holds s x l -> (nbytes s <= 8)%nat ->
  neon_some_of a64 s x = Some (if (nbytes s =? 2)%nat then any_true l
                               else negb (all_true l) && (any_true l || (sn s <? st s)%nat))%bool.
Proof.
  intros Hs Hh Hb. pose proof (proj1 (proj2 Hh)) as Hl. pose proof (ext_len s l true Hs Hl) as EL. unfold neon_some_of.
  rewrite (proj2 (Nat.leb_le _ _)) by auto. rewrite (or_padding_ok s x l) by auto.
  destruct (join_facts s (ext s l true) Hs) as (R & Z0 & F). cbn zeta in *. rewrite EL in *. fold (nbits s) in *.
  rewrite ext_any_true in Z0. rewrite ext_all_true in F. rewrite Hl in *. set (J := join _ _) in *. f_equal.
  destruct (Nat.eqb_spec (nbytes s) 2) as [E|E].
  - assert (sn s = st s). { unfold nbytes in E. destruct Hs as ([Z|[Z|[Z|Z]]] & _ & ? & _); rewrite Z in *; lia. }
    rewrite H, Nat.ltb_irrefl, orb_false_r in Z0. rewrite <- (negb_involutive (any_true l)), <- Z0.
    destruct (Z.ltb_spec 1 (J + 1)), (Z.eqb_spec J 0); auto; lia.
  - rewrite <- (negb_involutive (_ || _)%bool), <- Z0, <- F. set (M := 2 ^ nbits s) in *.
    destruct (Z.eq_dec J (M - 1)) as [E1|E1].
    + replace (J + 1) with M by lia. rewrite Z.mod_same by lia. rewrite (proj2 (Z.eqb_eq J (M - 1))) by auto. auto.
    + rewrite Z.mod_small by lia. rewrite (proj2 (Z.eqb_neq J (M - 1))) by auto. cbn [negb andb].
      destruct (Z.ltb_spec 1 (J + 1)), (Z.eqb_spec J 0); auto; lia.
Qed.
