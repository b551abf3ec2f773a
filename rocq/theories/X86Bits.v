(* Bit-level facts about lanes. *)
From Coq Require Import ZArith List Bool Lia.
From Verif Require Import Prelude X86Lanes.
Import ListNotations.
Open Scope Z_scope.

Definition lane_ok (w v : Z) : Prop := 0 <= v < 2 ^ w.

Lemma tb_mod c w i : 0 <= w -> 0 <= i -> Z.testbit (c mod 2 ^ w) i = (i <? w) && Z.testbit c i.
Proof.
  intros Hw Hi. destruct (Z.ltb_spec i w); simpl.
  - apply Z.mod_pow2_bits_low; lia.
  - apply Z.mod_pow2_bits_high; lia.
Qed.
Lemma tb_div c w i : 0 <= w -> 0 <= i -> Z.testbit (c / 2 ^ w) i = Z.testbit c (i + w).
Proof. intros. apply Z.div_pow2_bits; lia. Qed.
Lemma tb_mul c k i : 0 <= k -> 0 <= i -> Z.testbit (c * 2 ^ k) i = (k <=? i) && Z.testbit c (i - k).
Proof.
  intros Hk Hi. rewrite Z.mul_pow2_bits by lia. destruct (Z.leb_spec k i); auto.
  rewrite Z.testbit_neg_r by lia. auto.
Qed.
Lemma tb_small v w i : lane_ok w v -> w <= i -> Z.testbit v i = false.
Proof.
  intros [H0 H] Hi. destruct (Z.ltb_spec w 0).
  - rewrite Z.pow_neg_r in H by lia. lia.
  - rewrite <- (Z.mod_small v (2 ^ w)) by lia. apply Z.mod_pow2_bits_high. lia.
Qed.
Lemma join_lor a b w : 0 <= w -> lane_ok w a -> a + 2 ^ w * b = Z.lor a (Z.shiftl b w).
Proof.
  intros Hw Ha. rewrite Z.shiftl_mul_pow2 by lia. rewrite (Z.mul_comm (2 ^ w)).
  assert (H : Z.land a (b * 2 ^ w) = 0).
  { apply Z.bits_inj'. intros i Hi. rewrite Z.land_spec, Z.bits_0, tb_mul by lia.
    destruct (Z.leb_spec w i); [rewrite (tb_small a w) by auto; auto|apply andb_false_r]. }
  rewrite Z.add_nocarry_lxor, Z.lxor_lor by auto. auto.
Qed.
Lemma tb_join a b w i : 0 <= w -> lane_ok w a -> 0 <= i ->
  Z.testbit (a + 2 ^ w * b) i = if i <? w then Z.testbit a i else Z.testbit b (i - w).
Proof.
  intros Hw Ha Hi. rewrite join_lor by auto. rewrite Z.lor_spec, Z.shiftl_spec by lia.
  destruct (Z.ltb_spec i w).
  - rewrite (Z.testbit_neg_r b) by lia. apply orb_false_r.
  - rewrite (tb_small a w) by auto. auto.
Qed.
Lemma lane_ext w x y : lane_ok w x -> lane_ok w y ->
  (forall i, 0 <= i < w -> Z.testbit x i = Z.testbit y i) -> x = y.
Proof.
  intros Hx Hy H. apply Z.bits_inj'. intros i Hi. destruct (Z.ltb_spec i w); [apply H; lia|].
  rewrite !(tb_small _ w) by auto. auto.
Qed.
Lemma lane_mod w v : 0 <= w -> lane_ok w (v mod 2 ^ w).
Proof. intros. apply Z.mod_pos_bound. apply Z.pow_pos_nonneg; lia. Qed.
Lemma lane_of_bits w v : 0 <= w -> 0 <= v -> (forall i, w <= i -> Z.testbit v i = false) -> lane_ok w v.
Proof.
  intros Hw Hv H. replace v with (v mod 2 ^ w); [apply lane_mod; auto|].
  apply Z.bits_inj'. intros i Hi. rewrite tb_mod by lia. destruct (Z.ltb_spec i w); auto. rewrite H by lia. auto.
Qed.
Lemma lane_land w a b : 0 <= w -> lane_ok w a -> 0 <= b -> lane_ok w (Z.land a b).
Proof.
  intros Hw Ha Hb. apply lane_of_bits; auto.
  - apply Z.land_nonneg. destruct Ha; auto.
  - intros i Hi. rewrite Z.land_spec, (tb_small a w) by auto. auto.
Qed.
Lemma lane_lor w a b : 0 <= w -> lane_ok w a -> lane_ok w b -> lane_ok w (Z.lor a b).
Proof.
  intros Hw Ha Hb. apply lane_of_bits; auto.
  - apply Z.lor_nonneg. destruct Ha, Hb; auto.
  - intros i Hi. rewrite Z.lor_spec, (tb_small a w), (tb_small b w) by auto. auto.
Qed.
Lemma lane_div w k a : 0 <= k -> lane_ok w a -> lane_ok w (a / 2 ^ k).
Proof.
  intros Hk [H0 H]. pose proof (Z.pow_pos_nonneg 2 k ltac:(lia) Hk). split.
  - apply Z.div_pos; lia.
  - apply Z.le_lt_trans with a; auto. apply Z.div_le_upper_bound; nia.
Qed.
Lemma lane_join w a b : 0 <= w -> lane_ok w a -> lane_ok w b -> lane_ok (2 * w) (a + 2 ^ w * b).
Proof.
  unfold lane_ok. intros Hw [H1 H2] [H3 H4]. replace (2 * w) with (w + w) by lia.
  rewrite Z.pow_add_r by lia. nia.
Qed.
Lemma join_mod w a b : 0 <= w -> lane_ok w a -> (a + 2 ^ w * b) mod 2 ^ w = a.
Proof. intros Hw Ha. rewrite Z.mul_comm, Z_mod_plus_full. apply Z.mod_small. auto. Qed.
Lemma join_div w a b : 0 <= w -> lane_ok w a -> (a + 2 ^ w * b) / 2 ^ w = b.
Proof.
  intros Hw Ha. pose proof (Z.pow_pos_nonneg 2 w ltac:(lia) Hw). rewrite Z.mul_comm, Z_div_plus_full by lia.
  rewrite Z.div_small by auto. lia.
Qed.
Lemma cut_join_div w c : 0 <= w -> lane_ok (2 * w) c -> lane_ok w (c / 2 ^ w).
Proof.
  unfold lane_ok. intros Hw [H0 H]. pose proof (Z.pow_pos_nonneg 2 w ltac:(lia) Hw). split.
  - apply Z.div_pos; lia.
  - apply Z.div_lt_upper_bound; auto. rewrite <- Z.pow_add_r by lia. replace (w + w) with (2 * w) by lia. auto.
Qed.
Lemma cut_join_eq w c : 0 <= w -> c mod 2 ^ w + 2 ^ w * (c / 2 ^ w) = c.
Proof.
  intros Hw. pose proof (Z.pow_pos_nonneg 2 w ltac:(lia) Hw). rewrite Z.add_comm. symmetry. apply Z.div_mod. lia.
Qed.

Lemma sgn_bits w a i : 0 < w -> lane_ok w a -> 0 <= i -> Z.testbit (sgn w a) i = Z.testbit a (Z.min i (w - 1)).
Proof.
  intros Hw Ha Hi. unfold sgn. destruct (Z.ltb_spec a (2 ^ (w - 1))) as [H|H].
  - destruct (Z.ltb_spec i (w - 1)).
    + rewrite Z.min_l by lia. auto.
    + rewrite Z.min_r by lia. assert (lane_ok (w - 1) a) by (split; [apply Ha|auto]).
      rewrite !(tb_small a (w - 1)) by (auto; lia). auto.
  - assert (Hmsb : Z.testbit a (w - 1) = true).
    { destruct (Z.testbit a (w - 1)) eqn:E; auto. exfalso.
      assert (lane_ok (w - 1) a).
      { apply lane_of_bits; [lia|apply Ha|]. intros j Hj.
        destruct (Z.eq_dec j (w - 1)) as [->|]; auto. apply (tb_small a w); auto; lia. }
      destruct H0. lia. }
    replace (a - 2 ^ w) with (a + 2 ^ w * (-1)) by lia. rewrite tb_join by (auto; lia).
    destruct (Z.ltb_spec i w).
    + destruct (Z.eq_dec i (w - 1)) as [->|]; [rewrite Z.min_id; auto|]. rewrite Z.min_l by lia. auto.
    + rewrite Z.min_r, Hmsb by lia. rewrite Z.bits_m1 by lia. auto.
Qed.
Lemma tb_sar w k a i : 0 < w -> 0 <= k -> lane_ok w a -> 0 <= i ->
  Z.testbit (uns w (sgn w a / 2 ^ k)) i = (i <? w) && Z.testbit a (Z.min (i + k) (w - 1)).
Proof.
  intros. unfold uns. rewrite tb_mod, tb_div, sgn_bits by (auto; lia). auto.
Qed.

Lemma msb_ltb w v : 0 < w -> lane_ok w v -> msb w v = (2 ^ (w - 1) <=? v).
Proof.
  intros Hw Hv. unfold msb. pose proof (sgn_bits w v (w - 1) Hw Hv ltac:(lia)) as H.
  destruct (Z.leb_spec (2 ^ (w - 1)) v).
  - destruct (Z.testbit v (w - 1)) eqn:E; auto. exfalso.
    assert (lane_ok (w - 1) v).
    { apply lane_of_bits; [lia|apply Hv|]. intros j Hj.
      destruct (Z.eq_dec j (w - 1)) as [->|]; auto. apply (tb_small v w); auto; lia. }
    destruct H1. lia.
  - apply (tb_small v (w - 1)); [split; [apply Hv|auto]|lia].
Qed.

(* lists of lanes *)
Definition reg_ok (w : Z) (l : list Z) : Prop := Forall (lane_ok w) l.
Definition even_len {A} (l : list A) : Prop := Nat.Even (length l).
Lemma pair_ind {A} (P : list A -> Prop) : P [] -> (forall a b l, even_len l -> P l -> P (a :: b :: l)) ->
  forall l, even_len l -> P l.
Proof.
  intros H0 H1. fix IH 1. intros [|a [|b l]] H.
  - exact H0.
  - destruct H as [k Hk]. simpl in Hk. exfalso. lia.
  - assert (E : even_len l) by (destruct H as [k Hk]; exists (k - 1)%nat; simpl in Hk; lia).
    apply H1; [exact E|]. apply IH. exact E.
Qed.
Lemma pair_ind2 {A} (P : list A -> list A -> Prop) : P [] [] ->
  (forall a b l c d m, even_len l -> length m = length l -> P l m -> P (a :: b :: l) (c :: d :: m)) ->
  forall l m, even_len l -> length m = length l -> P l m.
Proof.
  intros H0 H1 l m He. revert m.
  apply (pair_ind (fun l => forall m, length m = length l -> P l m)); auto; clear l He.
  - intros [|] H; [auto|discriminate].
  - intros a b l He IH [|c [|d m]] H; try discriminate. injection H as H. apply H1; auto.
Qed.
Lemma join_length w l : even_len l -> length (join w l) = Nat.div2 (length l).
Proof. revert l. refine (pair_ind _ _ _); [auto|]. intros a b l He IH. simpl. rewrite IH. auto. Qed.
Lemma cut_length w l : length (cut w l) = (2 * length l)%nat.
Proof. induction l; simpl; auto. rewrite IHl. lia. Qed.
Lemma join_ok w l : 0 <= w -> even_len l -> reg_ok w l -> reg_ok (2 * w) (join w l).
Proof.
  intros Hw. revert l. refine (pair_ind _ _ _); [intros; constructor|]. intros a b l He IH H.
  inversion_clear H as [|? ? Ha H']. inversion_clear H' as [|? ? Hb H'']. cbn [join]. constructor; [apply lane_join|apply IH]; auto.
Qed.
Lemma cut_ok w l : 0 <= w -> reg_ok (2 * w) l -> reg_ok w (cut w l).
Proof.
  intros Hw H. induction H; simpl; constructor; [apply lane_mod; auto|]. constructor; auto using cut_join_div.
Qed.
Lemma cut_join w l : 0 <= w -> even_len l -> reg_ok w l -> cut w (join w l) = l.
Proof.
  intros Hw. revert l. refine (pair_ind _ _ _); [auto|]. intros a b l He IH H.
  inversion_clear H as [|? ? Ha H']. inversion_clear H' as [|? ? Hb H''].
  cbn [join cut]. rewrite join_mod, join_div, IH by auto. auto.
Qed.
Lemma join_cut w l : 0 <= w -> join w (cut w l) = l.
Proof.
  intros Hw. induction l; auto. cbn [join cut]. rewrite cut_join_eq, IHl by auto. auto.
Qed.
