From Coq Require Import List ZArith Bool Arith Lia.
From Verif Require Import Prelude MaskSpec BitMask BitMaskProofs KMask KMaskSpec KMaskProofs X86Lanes X86Bits X86Mask X86MaskSpec
  X86MaskProofs IntDiv IntDivSpec IntDivProofs PaddingSpec PaddingProofs PaddingTop Neon NeonSpec NeonProofs.
Import ListNotations.
Local Open Scope Z_scope.

Lemma uns_add w a b : uns w (uns w a + uns w b) = uns w (a + b).
Proof. unfold uns. symmetry. destruct (Z_le_gt_dec 0 w); [apply Z.add_mod; apply Z.pow_nonzero; lia|].
  rewrite (Z.pow_neg_r 2 w) by lia. rewrite !Zmod_0_r. auto. Qed.

Lemma lane_uns s b : neon_ok s -> lane_of s b = uns (lw s) (- b2z b).
Proof.
  intros Hs. unfold lane_of, ones, uns. destruct (neon_lw s Hs) as [E|[E|[E|E]]]; rewrite E; destruct b; reflexivity.
Qed.

Lemma sgn_neg w c : In w [8; 16; 32; 64] -> 0 <= c <= 16 -> sgn w (uns w (- c)) = - c.
Proof.
  intros Hw Hc. unfold sgn, uns.
  destruct (Z.eq_dec c 0) as [->|Hz].
  { destruct Hw as [<-|[<-|[<-|[<-|[]]]]]; reflexivity. }
  assert (E : (- c) mod 2 ^ w = 2 ^ w - c).
  { symmetry. apply Z.mod_unique with (-1); [left|lia]. destruct Hw as [<-|[<-|[<-|[<-|[]]]]]; lia. }
  rewrite E. destruct Hw as [<-|[<-|[<-|[<-|[]]]]]; match goal with |- context [?a <? ?b] => destruct (Z.ltb_spec a b) end; lia.
Qed.

Lemma bool_list n (l : list bool) : length l = n -> l = map (fun i => nth i l false) (seq 0 n).
Proof.
  intros <-. induction l as [|b l IH]; [reflexivity|]. cbn [length seq map nth]. f_equal.
  rewrite IH at 1. rewrite <- seq_shift, map_map. reflexivity.
Qed.

Ltac explode L H := let E := fresh "E" in pose proof (bool_list _ L H) as E; cbn [seq map] in E;
  repeat match type of E with context [nth ?i L false] => let b := fresh "b" in set (b := nth i L false) in E; clearbody b end;
  clear H; subst L.

(* a sum with wraps inside equals the same sum without, up to one wrap *)
Definition eqw (w a b : Z) : Prop := uns w a = uns w b.
Lemma eqw_refl w a : eqw w a a. Proof. reflexivity. Qed.
Lemma eqw_uns w a b : eqw w a b -> eqw w (uns w a) b.
Proof. unfold eqw, uns. intros H. rewrite Zmod_mod. exact H. Qed.
Lemma eqw_add w a b c d : eqw w a b -> eqw w c d -> eqw w (a + c) (b + d).
Proof. intros H H'. unfold eqw. rewrite <- (uns_add w a c), <- (uns_add w b d), H, H'. reflexivity. Qed.
Lemma eqw_eq w a b c : eqw w a b -> b = c -> eqw w a c.
Proof. intros H <-. exact H. Qed.
Ltac eqw := repeat first [apply eqw_uns | apply eqw_add | apply eqw_refl].

Lemma b2z01 b : 0 <= b2z b <= 1.
Proof. destruct b; cbn; lia. Qed.
Ltac b01 := repeat match goal with |- context [b2z ?b] => let z := fresh "z" in pose proof (b2z01 b); set (z := b2z b) in *; clearbody z end.

Lemma sgn_eqw w Y c : In w [8; 16; 32; 64] -> eqw w Y (- c) -> 0 <= c <= 16 -> - sgn w (uns w Y) = c.
Proof. intros Hw E Hc. rewrite E, (sgn_neg w c) by auto. lia. Qed.

(* popcount when every lane is all ones or zero *)
Lemma popcount_bools s L a64 : neon_ok s -> length L = st s -> (8 <= nbytes s)%nat -> sz s <> 8%nat ->
  neon_popcount a64 s (map (lane_of s) L) = Some (Z.of_nat (count_true L)).
Proof.
  intros Hs HL Hb H8. rewrite (map_ext (lane_of s) (fun b => uns (lw s) (- b2z b))) by (intros; apply lane_uns; auto).
  assert (HC := neon_cases s Hs). rewrite count_b2z. clear Hs. destruct s as [z f t r n]. unfold nbytes, neon_popcount, lo64, hi64z, lanes8, nbytes in *.
  cbn [sz st fp rl sn lw] in *. unfold lw; cbn [sz].
  destruct HC as [(E & D)|[(E & D)|[(E & D)|(E & D)]]]; subst z; repeat destruct D as [D|D]; rewrite D in *; clear D; cbn [Nat.mul Nat.add] in *; try (exfalso; lia);
    explode L HL; cbn - [uns sgn b2z Z.add Z.opp]; f_equal;
    (apply sgn_eqw; [cbn [In]; auto| |b01; lia]); (eapply eqw_eq; [eqw|b01; lia]).
Qed.

Lemma nth_mapseq (g : nat -> Z) n i : (i < n)%nat -> nth i (map g (seq 0 n)) 0 = g i.
Proof.
  intros H. rewrite (nth_indep _ 0 (g 0%nat)) by (rewrite map_length, seq_length; auto). rewrite map_nth, seq_nth by auto. reflexivity.
Qed.

Definition place (i : nat) : Z := 2 ^ Z.of_nat (if (i <? 8)%nat then i else (i - 8)%nat).

Lemma place_fits s i : neon_ok s -> (i < st s)%nat -> Z.land (ones s) (place i) = place i.
Proof.
  intros Hs Hi. unfold ones, place. rewrite Z.land_comm. rewrite <- Z.ones_equiv || idtac.
  replace (2 ^ lw s - 1) with (Z.ones (lw s)) by (rewrite Z.ones_equiv; lia).
  assert (0 <= lw s) by (destruct (neon_lw s Hs) as [E|[E|[E|E]]]; lia).
  rewrite Z.land_ones by auto. apply Z.mod_small. split; [apply Z.pow_nonneg; lia|]. apply Z.pow_lt_mono_r; [lia|auto|].
  unfold lw. destruct (neon_cases s Hs) as [(E & D)|[(E & D)|[(E & D)|(E & D)]]]; rewrite E; destruct (Nat.ltb_spec i 8); lia.
Qed.

Lemma bitsel_land s x l : neon_ok s -> holds s x l ->
  map2 Z.land x (bitsel s) = map (fun i => b2z (nth i (ext s l false) false) * place i) (seq 0 (st s)).
Proof.
  intros Hs (Hx & Hl & He & Hr). apply (nth_eq_ext _ _ 0); unfold bitsel; rewrite map2_length, !map_length, !seq_length; [lia|].
  intros i Hi. rewrite nth_map2z by (rewrite ?map_length, ?seq_length; lia).
  rewrite !nth_mapseq by lia. fold (place i). rewrite ext_nth by lia. rewrite Hl.
  destruct (Nat.ltb_spec i (sn s)) as [H|H]; [|rewrite Z.land_0_r; auto].
  rewrite He by auto. destruct (nth i l false).
  - change (2 ^ (8 * Z.of_nat (sz s)) - 1) with (ones s). rewrite place_fits by (auto; lia). unfold b2z. lia.
  - rewrite Z.land_0_l. reflexivity.
Qed.

Lemma of_lanes_app_false l n : of_lanes (l ++ repeat false n) = of_lanes l.
Proof.
  induction l as [|b l IH]; cbn [app of_lanes]; [|rewrite IH; auto].
  induction n as [|n IH]; cbn [repeat of_lanes b2z]; [auto|rewrite IH; auto].
Qed.

Lemma ext_lanes s l : of_lanes (ext s l false) = of_lanes l.
Proof. apply of_lanes_app_false. Qed.

(* the last conversion: the low bits of the mask word survive the sign extension *)
Lemma result_ok w n V : In w [8; 16; 32; 64] -> (Z.of_nat n <= w) -> 0 <= V < 2 ^ Z.of_nat n ->
  uns (Z.of_nat n) (sgn w (uns w V)) = V.
Proof.
  intros Hw Hn HV. assert (P : 2 ^ Z.of_nat n <= 2 ^ w) by (apply Z.pow_le_mono_r; lia).
  assert (Q : 2 ^ w = 2 ^ (w - Z.of_nat n) * 2 ^ Z.of_nat n) by (rewrite <- Z.pow_add_r by lia; f_equal; lia).
  unfold sgn, uns. rewrite (Z.mod_small V) by lia. destruct (V <? 2 ^ (w - 1)).
  - apply Z.mod_small. lia.
  - rewrite Q. replace (V - _) with (V + - 2 ^ (w - Z.of_nat n) * 2 ^ Z.of_nat n) by ring. rewrite Z_mod_plus_full. apply Z.mod_small. lia.
Qed.

Lemma kw_small n : (2 <= n <= 8)%nat -> kw n = 8%nat.
Proof. intros H. do 9 (destruct n as [|n]; [lia || reflexivity|]). lia. Qed.
Lemma kw_16 n : (9 <= n <= 16)%nat -> kw n = 16%nat.
Proof. intros H. do 17 (destruct n as [|n]; [lia || reflexivity|]). lia. Qed.
Lemma kw_ge n : (n <= 16)%nat -> (n <= kw n)%nat.
Proof. intros H. do 17 (destruct n as [|n]; [vm_compute; lia|]). lia. Qed.

Lemma result_eqw w n Y V : In w [8; 16; 32; 64] -> (Z.of_nat n <= w) -> 0 <= V < 2 ^ Z.of_nat n -> eqw w Y V ->
  uns (Z.of_nat n) (sgn w (uns w Y)) = V.
Proof. intros Hw Hn HV E. rewrite E. apply result_ok; auto. Qed.

Lemma small_eqw Y V : 0 <= V < 256 -> eqw 8 Y V -> uns 8 Y = V.
Proof. intros H E. rewrite E. apply Z.mod_small. exact H. Qed.

Lemma msb_lanes s x l : neon_ok s -> holds s x l -> map (msb (lw s)) (firstn (sn s) x) = l.
Proof.
  intros Hs (Hx & Hl & He & Hr). pose proof Hs as (_ & _ & HB & _). apply (nth_eq_ext _ _ false).
  - rewrite map_length, firstn_length. lia.
  - intros i Hi. rewrite map_length, firstn_length in Hi.
    rewrite (nth_indep _ false (msb (lw s) 0)) by (rewrite map_length, firstn_length; lia). rewrite map_nth.
    rewrite nth_firstn_lt by lia. rewrite He by lia. unfold msb, lw.
    destruct (neon_cases s Hs) as [(E & D)|[(E & D)|[(E & D)|(E & D)]]]; rewrite E; destruct (nth i l false); reflexivity.
Qed.

Lemma neon_to_bits_ok a64 s x l : neon_ok s -> holds s x l -> neon_to_bits a64 s x = of_lanes l.
Proof.
  intros Hs Hh. pose proof Hh as (Hx & Hl & He & Hr). pose proof (ext_len s l false Hs Hl) as EL.
  pose proof (neon_cases s Hs) as HC. pose proof Hs as (_ & _ & HN & HN2).
  assert (VB : 0 <= of_lanes l < 2 ^ Z.of_nat (kw (sn s))).
  { pose proof (of_lanes_lt l). rewrite Hl in *. split; [lia|]. eapply Z.lt_le_trans; [apply H|].
    apply Z.pow_le_mono_r; [lia|]. apply inj_le. apply kw_ge. lia. }
  destruct (Nat.ltb_spec (nbytes s) 8) as [Hb|Hb].
  { unfold neon_to_bits. replace (nbytes s =? 16)%nat with false by (symmetry; apply Nat.eqb_neq; lia).
    replace (nbytes s =? 8)%nat with false by (symmetry; apply Nat.eqb_neq; lia).
    rewrite msb_lanes with (l := l) by auto. apply Z.mod_small. auto. }
  assert (HK : kw (sn s) = if (st s =? 16)%nat then 16%nat else 8%nat).
  { destruct (Nat.eqb_spec (st s) 16); [apply kw_16|apply kw_small]; lia. }
  unfold neon_to_bits. rewrite (bitsel_land s x l) by auto. rewrite <- (ext_lanes s l) in *.
  assert (HL4 : nbytes s = 8%nat -> sz s = 4%nat -> map2 Z.land x [1; 2] = map (fun i => b2z (nth i (ext s l false) false) * place i) (seq 0 (st s))).
  { intros H1 H2. unfold nbytes in H1. assert (H3 : st s = 2%nat) by lia. rewrite <- (bitsel_land s x l) by auto.
    unfold bitsel. rewrite H3. assert (H4 : sn s = 2%nat) by lia. rewrite H4. reflexivity. }
  assert (HL8 : sz s = 8%nat -> Z.lor (Z.land (nth 0 x 0) 1) (Z.land (nth 1 x 0) 2) = of_lanes (ext s l false)).
  { intros H1. assert (H3 : st s = 2%nat) by lia. assert (H4 : sn s = 2%nat) by lia. rewrite ext_lanes.
    rewrite H4 in Hl. rewrite (He 0%nat), (He 1%nat) by lia. rewrite H1.
    destruct l as [|u [|v [|? ?]]]; try discriminate. destruct u, v; reflexivity. }
  set (L := ext s l false) in *. clearbody L. clear He Hr Hh Hl Hs.
  destruct s as [z f t r n]. unfold nbytes, lanes8 in *. cbn [sz st fp rl sn] in *. unfold lw; cbn [sz].
  rewrite HK in *. clear HK.
  destruct HC as [(E & D)|[(E & D)|[(E & D)|(E & D)]]]; subst z; repeat destruct D as [D|D]; rewrite D in *; clear D; cbn [Nat.mul Nat.add Nat.eqb] in *; try (exfalso; lia); try rewrite HL4 by reflexivity; try rewrite HL8 by reflexivity; clear HL4 HL8; try (apply Z.mod_small; assumption);
    explode L EL; cbn - [uns sgn b2z Z.add Z.mul place of_lanes Z.of_nat]; destruct a64.
  all: try (apply result_eqw; [cbn [In]; auto|lia|auto|]; (eapply eqw_eq; [eqw|]); cbn [of_lanes]; cbn [place Nat.ltb Nat.leb Nat.sub Z.of_nat Z.pow Pos.of_succ_nat Z.pow_pos Pos.iter]; lia).
  all: match goal with |- uns _ (?A + _ * ?B) = of_lanes [?c0;?c1;?c2;?c3;?c4;?c5;?c6;?c7;?d0;?d1;?d2;?d3;?d4;?d5;?d6;?d7] =>
         replace A with (of_lanes [c0;c1;c2;c3;c4;c5;c6;c7]); [replace B with (of_lanes [d0;d1;d2;d3;d4;d5;d6;d7])|] end.
  all: try (symmetry; cbn [nth]; apply small_eqw;
        [match goal with |- context [of_lanes ?v] => exact (of_lanes_lt v) end|
         (eapply eqw_eq; [eqw|]); cbn [of_lanes]; cbn [place Nat.ltb Nat.leb Nat.sub Z.of_nat Z.pow Pos.of_succ_nat Z.pow_pos Pos.iter]; lia]).
  all: match goal with |- uns _ ?a = ?b => replace a with b by (cbn [of_lanes]; lia) end; apply Z.mod_small; assumption.
Qed.

(* popcount and the shape *)
Lemma full_lanes s x l : neon_ok s -> holds s x l -> full s -> x = map (lane_of s) l.
Proof.
  intros Hs (Hx & Hl & He & Hr) Hf. unfold full in Hf. apply (nth_eq_ext _ _ 0); [rewrite map_length; lia|].
  intros i Hi. rewrite He by lia. rewrite lanes_map by lia. reflexivity.
Qed.

Lemma neon_popcount_full a64 s x l : neon_ok s -> holds s x l -> full s -> (8 <= nbytes s)%nat -> sz s <> 8%nat \/ a64 = true ->
  neon_popcount a64 s x = Some (Z.of_nat (count_true l)).
Proof.
  intros Hs Hh Hf Hb H8. pose proof (proj1 (proj2 Hh)) as Hl. rewrite (full_lanes s x l) by auto.
  destruct (Nat.eq_dec (sz s) 8) as [E|E]; [|apply popcount_bools; auto; unfold full in Hf; lia].
  destruct H8 as [H8| ->]; [lia|]. destruct (neon_cases s Hs) as [(A & D)|[(A & D)|[(A & D)|(A & D)]]]; try lia.
  unfold full in Hf. rewrite Hf, D in Hl. unfold neon_popcount, lane_of, ones, lw. rewrite E. cbn [Nat.eqb].
  destruct l as [|u [|v [|? ?]]]; try discriminate. destruct u, v; reflexivity.
Qed.

(* every lane of the register is counted *)
Lemma neon_popcount_lanes a64 s L : neon_ok s -> length L = st s -> (8 <= nbytes s)%nat -> sz s <> 8%nat ->
  neon_popcount a64 s (map (lane_of s) L) = Some (Z.of_nat (count_true L)).
Proof. intros. apply popcount_bools; auto. Qed.

Lemma neon_popcount_oob a64 s x : neon_ok s -> (nbytes s < 8)%nat -> neon_popcount a64 s x = None.
Proof.
  intros Hs Hb. unfold neon_popcount, lo64. destruct (neon_cases s Hs) as [(A & D)|[(A & D)|[(A & D)|(A & D)]]]; rewrite A; cbn [Nat.eqb];
    [..|unfold nbytes in Hb; rewrite A, D in Hb; lia];
    (replace (nbytes s <? 8)%nat with true by (symmetry; apply Nat.ltb_lt; auto)); reflexivity.
Qed.

(* ARMv7, elements of eight bytes: the first element, twice *)
Lemma neon_popcount_v7 s x l : neon_ok s -> holds s x l -> sz s = 8%nat ->
  neon_popcount false s x = Some (2 * b2z (nth 0 l false)).
Proof.
  intros Hs (Hx & Hl & He & Hr) E. destruct (neon_cases s Hs) as [(A & D)|[(A & D)|[(A & D)|(A & D)]]]; try lia.
  pose proof Hs as (_ & _ & HB & _). specialize (He 0%nat ltac:(lia)). rewrite E in He.
  destruct x as [|u [|v [|? ?]]]; try (rewrite D in Hx; discriminate). cbn [nth] in He. unfold neon_popcount. rewrite E. cbn [Nat.eqb flat_map app nth].
  rewrite He. destruct (nth 0 l false); reflexivity.
Qed.

Lemma count_some l : ((0 <? Z.of_nat (count_true l)) && (Z.of_nat (count_true l) <? Z.of_nat (length l)))%bool
  = (any_true l && negb (all_true l))%bool.
Proof.
  f_equal; induction l as [|b l IH]; auto; unfold any_true, all_true in *; rewrite count_true_cons; cbn [existsb forallb].
  - destruct b; cbn [orb]; [|rewrite <- IH; f_equal]. apply Z.ltb_lt. lia.
  - destruct b; cbn [andb negb length].
    + rewrite <- IH. destruct (Z.ltb_spec (Z.of_nat (count_true l)) (Z.of_nat (length l))); [apply Z.ltb_lt|apply Z.ltb_ge]; lia.
    + apply Z.ltb_lt. assert (H : (count_true l <= length l)%nat) by (clear; induction l as [|[] l IH]; rewrite ?count_true_cons; cbn [length]; try (cbn; lia); lia). lia.
Qed.

Lemma neon_some_full a64 s x l : neon_ok s -> holds s x l -> full s -> (8 < nbytes s)%nat -> sz s <> 8%nat \/ a64 = true ->
  neon_some_of a64 s x = Some (any_true l && negb (all_true l))%bool.
Proof.
  intros Hs Hh Hf Hb H8. unfold neon_some_of. replace (nbytes s <=? 8)%nat with false by (symmetry; apply Nat.leb_gt; auto).
  rewrite (neon_popcount_full a64 s x l) by (auto; lia). cbn [option_map]. f_equal.
  rewrite <- (proj1 (proj2 Hh)). apply count_some.
Qed.

Lemma neon_first_ok a64 s x l : neon_ok s -> holds s x l -> any_true l = true -> is_first_true l (neon_find_first_set a64 s x).
Proof. intros Hs Hh Ha. unfold neon_find_first_set. rewrite (neon_to_bits_ok a64 s x l) by auto. apply of_lanes_first. auto. Qed.

Lemma neon_last_ok a64 s x l : neon_ok s -> holds s x l -> any_true l = true ->
  exists i, neon_find_last_set a64 s x = Z.of_nat i /\ is_last_true l i.
Proof. intros Hs Hh Ha. unfold neon_find_last_set. rewrite (neon_to_bits_ok a64 s x l) by auto. apply of_lanes_last. auto. Qed.

Lemma neon_bits_spec a64 s x l : neon_ok s -> holds s x l ->
  0 <= neon_to_bits a64 s x < 2 ^ Z.of_nat (sn s) /\
  forall i, Z.testbit (neon_to_bits a64 s x) (Z.of_nat i) = nth i l false.
Proof.
  intros Hs Hh. rewrite (neon_to_bits_ok a64 s x l) by auto. rewrite <- (proj1 (proj2 Hh)).
  split; [apply of_lanes_lt|apply of_lanes_bit].
Qed.

Lemma neon_any_full s x l : neon_ok s -> holds s x l -> full s -> neon_any_of s x = any_true l.
Proof.
  intros Hs Hh Hf. rewrite (neon_any_ok s x l) by auto. unfold full in Hf. rewrite Hf, Nat.ltb_irrefl. apply orb_false_r.
Qed.

Lemma not_full s : neon_ok s -> ~ full s -> (sn s <? st s)%nat = true.
Proof. unfold full, neon_ok. intros (_ & _ & H & _) Hf. apply Nat.ltb_lt. lia. Qed.

Lemma neon_any_partial s x l : neon_ok s -> holds s x l -> ~ full s -> neon_any_of s x = true.
Proof. intros Hs Hh Hf. rewrite (neon_any_ok s x l), not_full by auto. apply orb_true_r. Qed.

Lemma neon_some_ok a64 s x l : neon_ok s -> holds s x l -> full s -> (nbytes s <> 2)%nat ->
  sz s <> 8%nat \/ a64 = true -> neon_some_of a64 s x = Some (any_true l && negb (all_true l))%bool.
Proof.
  intros Hs Hh Hf H2 H8. destruct (Nat.le_gt_cases (nbytes s) 8) as [Hb|Hb]; [|apply neon_some_full; auto].
  rewrite (neon_some_small a64 s x l) by auto. apply Nat.eqb_neq in H2. unfold full in Hf.
  rewrite H2, Hf, Nat.ltb_irrefl, orb_false_r, andb_comm. auto.
Qed.

Lemma neon_some_wrong :
  (forall a64 s x l, neon_ok s -> holds s x l -> ~ full s -> (nbytes s <= 8)%nat ->
     neon_some_of a64 s x = Some (negb (all_true l))) /\
  (forall a64 s x l, neon_ok s -> holds s x l -> nbytes s = 2%nat ->
     neon_some_of a64 s x = Some (any_true l)).
Proof.
  split; intros a64 s x l Hs Hh H; [intros Hb|]; rewrite (neon_some_small a64 s x l) by (auto; lia).
  - rewrite not_full by auto. destruct (Nat.eqb_spec (nbytes s) 2) as [E|E]; [|rewrite orb_true_r, andb_true_r; auto].
    exfalso. pose proof Hs as (A & _ & B & C). unfold full in H. unfold nbytes in E. destruct A as [A|[A|[A|A]]]; rewrite A in E; lia.
  - rewrite H. reflexivity.
Qed.

Lemma neon_popcount_wrong :
  (forall a64 s l pad, neon_ok s -> length l = sn s -> length pad = (st s - sn s)%nat -> (8 <= nbytes s)%nat -> sz s <> 8%nat ->
     holds s (map (lane_of_bool s) (l ++ pad)) l /\
     neon_popcount a64 s (map (lane_of_bool s) (l ++ pad)) = Some (Z.of_nat (count_true l + count_true pad))) /\
  (forall a64 s x, neon_ok s -> (nbytes s < 8)%nat -> neon_popcount a64 s x = None) /\
  (forall s x l, neon_ok s -> holds s x l -> sz s = 8%nat ->
     neon_popcount false s x = Some (if nth 0 l false then 2 else 0)).
Proof.
  split; [|split].
  - intros a64 s l pad Hs Hl Hp Hb H8. pose proof Hs as (_ & _ & B & _). pose proof (neon_ones s Hs) as HO. change (lane_of_bool s) with (lane_of s). split.
    + unfold holds. rewrite map_length, app_length. split; [lia|]. split; [auto|]. split; intros i Hi.
      * rewrite lanes_map by (rewrite app_length; lia). rewrite app_nth1 by lia. reflexivity.
      * rewrite lanes_map by (rewrite app_length; lia). change (8 * Z.of_nat (sz s)) with (lw s). unfold lane_of. destruct (nth _ _ _); lia.
    + rewrite popcount_bools by (auto; rewrite app_length; lia). rewrite count_true_app. auto.
  - intros. apply neon_popcount_oob; auto.
  - intros s x l Hs Hh H8. rewrite (neon_popcount_v7 s x l) by auto. destruct (nth 0 l false); reflexivity.
Qed.
