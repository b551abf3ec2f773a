From Coq Require Import ZArith Lia List Bool PeanoNat.
From Verif Require Import BitOps BitOpsSpec.
Import ListNotations.
Open Scope Z_scope.

Definition byte (b : Z) : Prop := 0 <= b < 256.
Lemma element_eq n a i : element n a i = from_bytes (firstn n (skipn (n * i) a)).
Proof. unfold element. induction (firstn n (skipn (n * i) a)); cbn [fold_right from_bytes]; [auto|rewrite IHl; auto]. Qed.

Lemma testbit_cons b r j : byte b -> 0 <= j ->
  Z.testbit (b + 256 * r) j = if j <? 8 then Z.testbit b j else Z.testbit r (j - 8).
Proof.
  intros Hb Hj. change 256 with (2 ^ 8). rewrite Z.add_comm, Z.mul_comm.
  rewrite <- Z.shiftl_mul_pow2 by lia. destruct (Z.ltb_spec j 8).
  - rewrite <- (Z.mod_pow2_bits_low _ 8) by lia. rewrite Z.shiftl_mul_pow2 by lia.
    rewrite Z.add_comm, Z.mod_add by lia. rewrite Z.mod_small by (unfold byte in Hb; lia). auto.
  - replace j with ((j - 8) + 8) at 1 by lia. rewrite <- Z.shiftr_spec by lia.
    rewrite Z.shiftr_div_pow2, Z.shiftl_mul_pow2 by lia. rewrite Z.add_comm, Z.div_add by lia.
    rewrite Z.div_small by (unfold byte in Hb; lia). auto.
Qed.
Lemma from_bytes_bound l : Forall byte l -> 0 <= from_bytes l < 2 ^ (8 * Z.of_nat (length l)).
Proof.
  induction 1; cbn [from_bytes length]; [lia|]. rewrite Nat2Z.inj_succ.
  replace (8 * Z.succ (Z.of_nat (length l))) with (8 + 8 * Z.of_nat (length l)) by lia.
  rewrite Z.pow_add_r by lia. change (2 ^ 8) with 256. unfold byte in *. nia.
Qed.
Lemma to_bytes_length w v : length (to_bytes w v) = w.
Proof. revert v; induction w; cbn; intros; auto. Qed.
Lemma to_bytes_byte w v : Forall byte (to_bytes w v).
Proof. revert v; induction w; cbn [to_bytes]; constructor; auto. apply Z.mod_pos_bound. lia. Qed.
Lemma from_to w v : from_bytes (to_bytes w v) = v mod 2 ^ (8 * Z.of_nat w).
Proof.
  revert v; induction w; intros v; cbn [to_bytes from_bytes]; [change (2 ^ (8 * Z.of_nat 0)) with 1; rewrite Z.mod_1_r; auto|].
  rewrite IHw, Nat2Z.inj_succ. replace (8 * Z.succ (Z.of_nat w)) with (8 + 8 * Z.of_nat w) by lia.
  rewrite Z.pow_add_r by lia. change (2 ^ 8) with 256. rewrite Z.rem_mul_r; lia.
Qed.
Lemma from_inj l1 l2 : Forall byte l1 -> Forall byte l2 -> length l1 = length l2 -> from_bytes l1 = from_bytes l2 -> l1 = l2.
Proof.
  intros H1; revert l2; induction H1 as [|b l1 Hb H1 IH]; intros [|c l2] H2 HL E; try discriminate; auto.
  inversion_clear H2. cbn [from_bytes] in E. unfold byte in *. injection HL as HL.
  assert (from_bytes l1 = from_bytes l2) by lia. f_equal; [lia|apply IH; auto].
Qed.

(* byte by byte *)
Fixpoint zip (f : Z -> Z -> Z) (a b : list Z) : list Z :=
  match a, b with x :: a, y :: b => f x y mod 256 :: zip f a b | _, _ => [] end.
Definition pointwise (f : Z -> Z -> Z) (g : bool -> bool -> bool) : Prop :=
  forall x y j, 0 <= j -> Z.testbit (f x y) j = g (Z.testbit x j) (Z.testbit y j).
Lemma zip_length f a b : length a = length b -> length (zip f a b) = length a.
Proof. revert b; induction a; intros [|]; cbn; intros; try discriminate; auto. Qed.
Lemma zip_byte f a b : Forall byte (zip f a b).
Proof. revert b; induction a; intros [|]; cbn; constructor; auto. apply Z.mod_pos_bound. lia. Qed.
Lemma zip_firstn f a b n : firstn n (zip f a b) = zip f (firstn n a) (firstn n b).
Proof. revert a b; induction n; intros [|] [|]; cbn; auto. f_equal; auto. Qed.
Lemma zip_nil f a : zip f a [] = [].
Proof. destruct a; auto. Qed.
Lemma zip_skipn f a b n : length a = length b -> skipn n (zip f a b) = zip f (skipn n a) (skipn n b).
Proof. revert a b; induction n; intros [|] [|]; cbn; intros; try discriminate; auto. Qed.
Lemma zip_bit f g a b j : pointwise f g -> Forall byte a -> Forall byte b -> length a = length b ->
  0 <= j < 8 * Z.of_nat (length a) ->
  Z.testbit (from_bytes (zip f a b)) j = g (Z.testbit (from_bytes a) j) (Z.testbit (from_bytes b) j).
Proof.
  intros Hg Ha; revert b j; induction Ha as [|x a Hx Ha IH]; intros [|y b] j Hb HL Hj; try discriminate; cbn [length] in *; [lia|].
  inversion_clear Hb. injection HL as HL. cbn [zip from_bytes].
  rewrite !testbit_cons by (auto; try (apply Z.mod_pos_bound); lia). destruct (Z.ltb_spec j 8).
  - change 256 with (2 ^ 8). rewrite Z.mod_pow2_bits_low by lia. apply Hg. lia.
  - apply IH; auto. lia.
Qed.
Lemma lane_zip f g a b : pointwise f g -> Forall byte a -> Forall byte b -> length a = length b ->
  to_bytes (length a) (f (from_bytes a) (from_bytes b)) = zip f a b.
Proof.
  intros Hg Ha Hb HL. apply from_inj; auto using to_bytes_byte, zip_byte.
  - rewrite to_bytes_length, zip_length; auto.
  - rewrite from_to. pose proof (from_bytes_bound _ (zip_byte f a b)) as B. rewrite zip_length in B by auto.
    apply Z.bits_inj'. intros j Hj. destruct (Z_lt_ge_dec j (8 * Z.of_nat (length a))).
    + rewrite Z.mod_pow2_bits_low by lia. rewrite Hg by lia. symmetry. apply zip_bit; auto.
    + rewrite Z.mod_pow2_bits_high by lia. symmetry. rewrite <- (Z.mod_small _ _ B). apply Z.mod_pow2_bits_high. lia.
Qed.
Lemma firstn_byte n a : Forall byte a -> Forall byte (firstn n a).
Proof. revert a; induction n; intros ? []; cbn; constructor; auto. Qed.
Lemma skipn_byte n a : Forall byte a -> Forall byte (skipn n a).
Proof. revert a; induction n; intros ? []; cbn; auto. Qed.
Lemma zip_app f a1 a2 b1 b2 : length a1 = length b1 -> zip f (a1 ++ a2) (b1 ++ b2) = zip f a1 b1 ++ zip f a2 b2.
Proof. revert b1; induction a1; intros [|]; cbn; intros; try discriminate; auto. f_equal; auto. Qed.
Lemma lanes2_zip f g w k a b : pointwise f g -> Forall byte a -> Forall byte b -> length a = length b -> length a = (k * w)%nat ->
  lanes2 k w f a b = zip f a b.
Proof.
  intros Hg; revert a b; induction k; intros a b Ha Hb HL HK; cbn [lanes2].
  - destruct a; [auto|discriminate].
  - rewrite IHk by (auto using skipn_byte; rewrite !skipn_length; lia).
    assert (E : length (firstn w a) = w) by (rewrite firstn_length; lia).
    assert (E' : length (firstn w b) = w) by (rewrite firstn_length; lia).
    rewrite <- E at 1. rewrite (lane_zip f g) by (auto using firstn_byte; congruence).
    rewrite <- zip_app by congruence. rewrite !firstn_skipn. auto.
Qed.
Lemma vec2_zip f g w a b : pointwise f g -> Forall byte a -> Forall byte b -> length a = length b -> (0 < w)%nat -> Nat.divide w (length a) ->
  vec2 w f a b = zip f a b.
Proof.
  intros Hg Ha Hb HL Hw [k Hk]. unfold vec2. rewrite Hk, Nat.div_mul by lia. apply (lanes2_zip f g); auto.
Qed.

(* one operand as two *)
Lemma lanes1_lanes2 f w k a : lanes1 k w f a = lanes2 k w (fun x _ => f x) a a.
Proof. revert a; induction k; intros a; cbn; [auto|]. rewrite IHk. auto. Qed.

Lemma divide_pow w p : In w [1; 2; 4; 8]%nat -> (w <= 2 ^ p)%nat -> Nat.divide w (2 ^ p).
Proof.
  intros Hw HL. assert (exists q, w = 2 ^ q)%nat as [q ->].
  { destruct Hw as [<-|[<-|[<-|[<-|[]]]]]; [exists 0%nat|exists 1%nat|exists 2%nat|exists 3%nat]; reflexivity. }
  apply Nat.pow_le_mono_r_iff in HL; [|lia]. exists (2 ^ (p - q))%nat. rewrite <- Nat.pow_add_r. f_equal. lia.
Qed.
Lemma reg_divide n a w : register n a -> In w [1; 2; 4; 8]%nat -> (w <= length a)%nat -> Nat.divide w (length a).
Proof. intros (Hn & [p Hp] & HL & Hb) Hw L. rewrite Hp in *. apply divide_pow; auto. Qed.
Lemma width_pos w : In w [1; 2; 4; 8]%nat -> (0 < w)%nat.
Proof. intros [<-|[<-|[<-|[<-|[]]]]]; lia. Qed.

Lemma zip_register n f a b : register n a -> length a = length b -> register n (zip f a b).
Proof. intros (Hn & Hp & HL & Hb) E. repeat split; auto; rewrite ?zip_length by auto; auto. apply zip_byte. Qed.
Lemma zip_bitwise n f g a b : pointwise f g -> register n a -> register n b -> length a = length b ->
  bitwise n a (zip f a b) (fun i j => g (Z.testbit (element n a i) j) (Z.testbit (element n b i) j)).
Proof.
  intros Hg Ha Hb HL. split; [apply zip_register; auto|]. split; [apply zip_length; auto|]. intros i j Hi Hj.
  rewrite !element_eq, zip_skipn, zip_firstn by auto. destruct Ha as (_ & _ & _ & Ha). destruct Hb as (_ & _ & _ & Hb).
  apply zip_bit; auto using firstn_byte, skipn_byte; rewrite !firstn_length, !skipn_length; lia.
Qed.
Lemma vec2_bitwise n w f g a b : pointwise f g -> register n a -> register n b -> length a = length b ->
  In w [1; 2; 4; 8]%nat -> (w <= length a)%nat ->
  bitwise n a (vec2 w f a b) (fun i j => g (Z.testbit (element n a i) j) (Z.testbit (element n b i) j)).
Proof.
  intros Hg Ha Hb HL Hw Hl. rewrite (vec2_zip f g); auto using width_pos; [apply zip_bitwise; auto|apply Ha|apply Hb|].
  apply (reg_divide n); auto.
Qed.
Lemma vec1_bitwise n w f g a : pointwise (fun x _ => f x) g -> register n a -> In w [1; 2; 4; 8]%nat -> (w <= length a)%nat ->
  bitwise n a (vec1 w f a) (fun i j => g (Z.testbit (element n a i) j) (Z.testbit (element n a i) j)).
Proof. intros Hg Ha Hw Hl. unfold vec1. rewrite lanes1_lanes2. apply vec2_bitwise; auto. Qed.

Lemma p_and : pointwise Z.land andb. Proof. intros x y j Hj. apply Z.land_spec. Qed.
Lemma p_or : pointwise Z.lor orb. Proof. intros x y j Hj. apply Z.lor_spec. Qed.
Lemma p_xor : pointwise Z.lxor xorb. Proof. intros x y j Hj. apply Z.lxor_spec. Qed.
Lemma p_andnot : pointwise and_not (fun x y => negb x && y).
Proof. intros x y j Hj. unfold and_not. rewrite Z.land_spec, Z.lnot_spec; auto. Qed.
Lemma p_not : pointwise (fun x _ => Z.lnot x) (fun x _ => negb x).
Proof. intros x y j Hj. apply Z.lnot_spec; auto. Qed.

Lemma reg_width n a : register n a -> In n [1; 2; 4; 8]%nat /\ (n <= length a)%nat.
Proof. intros (H & _ & H' & _); auto. Qed.

Lemma and_ok n a b : register n a -> register n b -> length a = length b ->
  bitwise n a (v_and n a b) (fun i j => Z.testbit (element n a i) j && Z.testbit (element n b i) j).
Proof. intros Ha Hb HL. destruct (reg_width _ _ Ha). apply (vec2_bitwise n n _ andb); auto using p_and. Qed.
Lemma or_ok n a b : register n a -> register n b -> length a = length b ->
  bitwise n a (v_or n a b) (fun i j => Z.testbit (element n a i) j || Z.testbit (element n b i) j).
Proof. intros Ha Hb HL. destruct (reg_width _ _ Ha). apply (vec2_bitwise n n _ orb); auto using p_or. Qed.
Lemma xor_ok n a b : register n a -> register n b -> length a = length b ->
  bitwise n a (v_xor n a b) (fun i j => xorb (Z.testbit (element n a i) j) (Z.testbit (element n b i) j)).
Proof. intros Ha Hb HL. destruct (reg_width _ _ Ha). apply (vec2_bitwise n n _ xorb); auto using p_xor. Qed.
Lemma andnot_ok t k n a b : register n a -> register n b -> length a = length b ->
  bitwise n a (v_andnot t k n a b) (fun i j => negb (Z.testbit (element n a i) j) && Z.testbit (element n b i) j).
Proof.
  intros Ha Hb HL. destruct (reg_width _ _ Ha) as [Hn Hl]. unfold v_andnot.
  destruct (x86_gcc t && Nat.leb 16 (length a) && negb (constants t)) eqn:C.
  - apply (vec2_bitwise n _ _ (fun x y => negb x && y)); auto using p_andnot; apply andb_prop in C; destruct C as [C _];
      apply andb_prop in C; destruct C as [_ C]; apply Nat.leb_le in C; unfold andnot_lane.
    + destruct k; [cbn; auto|]. destruct (Nat.eqb _ _); [destruct (has_avx512dq t)|]; auto; cbn; auto.
    + destruct k; [lia|]. destruct (Nat.eqb _ _); [destruct (has_avx512dq t)|]; auto; lia.
  - apply (vec2_bitwise n _ _ (fun x y => negb x && y)); auto using p_andnot.
Qed.
Lemma not_ok k n a : register n a -> (k = Floating -> 4 <= n)%nat ->
  bitwise n a (v_not k n a) (fun i j => negb (Z.testbit (element n a i) j)).
Proof.
  intros Ha Hk. destruct (reg_width _ _ Ha) as [Hn Hl]. destruct k; cbn [v_not].
  - apply (vec1_bitwise n n _ (fun x _ => negb x)); auto using p_not.
  - specialize (Hk eq_refl). apply (vec1_bitwise n 4 _ (fun x _ => negb x)); auto using p_not; [cbn; auto|lia].
Qed.

(* masks *)
Lemma ones_bits w j : 0 <= w -> 0 <= j -> Z.testbit (2 ^ w - 1) j = (j <? w).
Proof.
  intros Hw Hj. replace (2 ^ w - 1) with (Z.ones w) by (rewrite Z.ones_equiv; lia).
  destruct (Z.ltb_spec j w); [apply Z.ones_spec_low|apply Z.ones_spec_high]; lia.
Qed.
Lemma element_bound n a i : register n a -> 0 <= element n a i < 2 ^ (8 * Z.of_nat n).
Proof.
  intros (_ & _ & _ & H). rewrite element_eq. pose proof (from_bytes_bound _ (firstn_byte n _ (skipn_byte (n * i) _ H))) as B.
  split; [lia|]. eapply Z.lt_le_trans; [apply B|]. apply Z.pow_le_mono_r; [lia|]. rewrite firstn_length. lia.
Qed.
Lemma same_bits w x y : 0 <= w -> 0 <= x < 2 ^ w -> 0 <= y < 2 ^ w -> (forall j, 0 <= j < w -> Z.testbit x j = Z.testbit y j) -> x = y.
Proof.
  intros Hw Hx Hy H. rewrite <- (Z.mod_small x (2 ^ w)), <- (Z.mod_small y (2 ^ w)) by auto. apply Z.bits_inj'. intros j Hj.
  destruct (Z_lt_ge_dec j w); [rewrite !Z.mod_pow2_bits_low by lia; apply H; lia|rewrite !Z.mod_pow2_bits_high by lia; auto].
Qed.
Lemma bool_element n a r e i b : bitwise n a r e -> (n * i + n <= length a)%nat ->
  (forall j, 0 <= j < 8 * Z.of_nat n -> e i j = b) -> element n r i = if b then 2 ^ (8 * Z.of_nat n) - 1 else 0.
Proof.
  intros (Hr & HL & H) Hi Hb. pose proof (element_bound n r i Hr). apply (same_bits (8 * Z.of_nat n)); auto; [lia| |].
  - destruct b; split; try lia; apply Z.pow_pos_nonneg; lia.
  - intros j Hj. rewrite H, Hb by auto. destruct b; [rewrite ones_bits by lia; symmetry; apply Z.ltb_lt; lia|rewrite Z.bits_0; auto].
Qed.
Lemma mask_bit n m l i j : is_mask n m l -> (i < length l)%nat -> 0 <= j < 8 * Z.of_nat n -> Z.testbit (element n m i) j = nth i l false.
Proof.
  intros (_ & _ & H) Hi Hj. rewrite H by auto. destruct (nth i l false); [rewrite ones_bits by lia; apply Z.ltb_lt; lia|apply Z.bits_0].
Qed.
Lemma in_reg n m l i : is_mask n m l -> (i < length l)%nat -> (n * i + n <= length m)%nat.
Proof. intros (_ & H & _) Hi. nia. Qed.

Definition map2b (f : bool -> bool -> bool) (l1 l2 : list bool) : list bool := map (fun p => f (fst p) (snd p)) (combine l1 l2).
Lemma map2b_length f l1 l2 : length l1 = length l2 -> length (map2b f l1 l2) = length l1.
Proof. intros. unfold map2b. rewrite map_length, combine_length. lia. Qed.
Lemma map2b_nth f l1 l2 i : length l1 = length l2 -> (i < length l1)%nat -> nth i (map2b f l1 l2) false = f (nth i l1 false) (nth i l2 false).
Proof.
  intros HL Hi. unfold map2b. rewrite (nth_indep _ false (f false false)) by (rewrite map_length, combine_length; lia).
  change (f false false) with ((fun p => f (fst p) (snd p)) (false, false)). rewrite map_nth, combine_nth by auto. auto.
Qed.
Lemma binary_mask n x y r lx ly f : is_mask n x lx -> is_mask n y ly -> length lx = length ly ->
  bitwise n x r (fun i j => f (Z.testbit (element n x i) j) (Z.testbit (element n y i) j)) -> is_mask n r (map2b f lx ly).
Proof.
  intros Hx Hy HL H. assert (L : length r = length x) by apply H. split; [apply H|]. rewrite map2b_length by auto.
  split; [rewrite L; apply Hx|]. intros i Hi. rewrite map2b_nth by auto.
  apply (bool_element n x r _ i _ H); [eapply in_reg; eauto|]. intros j Hj. cbn beta.
  rewrite (mask_bit n x lx), (mask_bit n y ly) by (auto; congruence). auto.
Qed.
Lemma implicit_register n N a : register n a -> (n * N <= length a)%nat -> register n (implicit_mask n N (length a)) /\ length (implicit_mask n N (length a)) = length a.
Proof.
  intros (Hn & Hp & HL & Hb) H. assert (L : length (implicit_mask n N (length a)) = length a).
  { unfold implicit_mask. rewrite app_length, !repeat_length. lia. }
  split; auto. split; [auto|]. rewrite L. split; auto. split; auto. unfold implicit_mask. apply Forall_app. split; apply Forall_forall; intros b B; apply repeat_spec in B; subst; lia.
Qed.
Lemma firstn_repeat {A} (x : A) n k : (n <= k)%nat -> firstn n (repeat x k) = repeat x n.
Proof. revert k; induction n; intros [|k] H; cbn; auto; [lia|]. f_equal. apply IHn. lia. Qed.
Lemma skipn_repeat {A} (x : A) n k : skipn n (repeat x k) = repeat x (k - n).
Proof. revert k; induction n; intros [|k]; cbn; auto. Qed.
Lemma from_255 n : from_bytes (repeat 255 n) = 2 ^ (8 * Z.of_nat n) - 1.
Proof.
  induction n; cbn [repeat from_bytes]; [auto|]. rewrite IHn, Nat2Z.inj_succ. replace (8 * Z.succ (Z.of_nat n)) with (8 + 8 * Z.of_nat n) by lia.
  rewrite Z.pow_add_r by lia. change (2 ^ 8) with 256. lia.
Qed.
Lemma from_0 n : from_bytes (repeat 0 n) = 0.
Proof. induction n; cbn [repeat from_bytes]; auto. rewrite IHn. auto. Qed.
Lemma implicit_element n N bytes i : (n * N <= bytes)%nat -> (n * i + n <= bytes)%nat ->
  element n (implicit_mask n N bytes) i = if Nat.ltb i N then 2 ^ (8 * Z.of_nat n) - 1 else 0.
Proof.
  intros HN Hi. rewrite element_eq. unfold implicit_mask. rewrite skipn_app, repeat_length, skipn_repeat.
  destruct (Nat.ltb_spec i N).
  - rewrite firstn_app, repeat_length. replace (n - (N * n - n * i))%nat with 0%nat by nia. rewrite firstn_O, app_nil_r.
    rewrite firstn_repeat by nia. apply from_255.
  - replace (N * n - n * i)%nat with 0%nat by nia. cbn [repeat app]. rewrite skipn_repeat, firstn_repeat by nia. apply from_0.
Qed.
Lemma mask_not_ok t n N m l : is_mask n m l -> length l = N ->
  is_mask n (mask_not t n N m) (map negb l) /\ clean n (mask_not t n N m) N.
Proof.
  intros Hm HN. assert (R : register n m) by apply Hm. assert (B : (n * N <= length m)%nat) by (rewrite <- HN; apply Hm).
  unfold mask_not. destruct (Nat.ltb_spec (N * n) (length m)) as [P|P].
  - destruct (implicit_register n N m R B) as [RI LI].
    pose proof (andnot_ok t Integral n m _ R RI (eq_sym LI)) as H. set (r := v_andnot _ _ _ _ _) in *. clearbody r.
    assert (L : length r = length m) by apply H. split.
    + split; [apply H|]. rewrite map_length. split; [rewrite L; apply Hm|]. intros i Hi.
      rewrite (nth_indep _ false (negb false)) by (rewrite map_length; auto). rewrite map_nth.
      apply (bool_element n m r _ i _ H); [eapply in_reg; eauto|]. intros j Hj. cbn beta.
      rewrite (mask_bit n m l), implicit_element by (auto; eapply in_reg; eauto).
      replace (Nat.ltb i N) with true by (symmetry; apply Nat.ltb_lt; lia). rewrite ones_bits by lia.
      replace (j <? 8 * Z.of_nat n) with true by (symmetry; apply Z.ltb_lt; lia). apply andb_true_r.
    + intros i Hi Hl. rewrite L in Hl. apply (bool_element n m r _ i false H); auto. intros j Hj. cbn beta.
      rewrite implicit_element by auto. replace (Nat.ltb i N) with false by (symmetry; apply Nat.ltb_ge; lia).
      rewrite Z.bits_0. apply andb_false_r.
  - pose proof (not_ok Integral n m R ltac:(discriminate)) as H. set (r := v_not _ _ _) in *. clearbody r.
    assert (L : length r = length m) by apply H. split.
    + split; [apply H|]. rewrite map_length. split; [rewrite L; apply Hm|]. intros i Hi.
      rewrite (nth_indep _ false (negb false)) by (rewrite map_length; auto). rewrite map_nth.
      apply (bool_element n m r _ i _ H); [eapply in_reg; eauto|]. intros j Hj. cbn beta.
      rewrite (mask_bit n m l) by auto. auto.
    + intros i Hi Hl. rewrite L in Hl. exfalso. destruct R as (Hn & _). apply width_pos in Hn. nia.
Qed.

(* selections *)
Lemma select_element n a r e i v : bitwise n a r e -> (n * i + n <= length a)%nat -> 0 <= v < 2 ^ (8 * Z.of_nat n) ->
  (forall j, 0 <= j < 8 * Z.of_nat n -> e i j = Z.testbit v j) -> element n r i = v.
Proof.
  intros (Hr & HL & H) Hi Hv Hb. apply (same_bits (8 * Z.of_nat n)); auto; [lia|apply element_bound; auto|].
  intros j Hj. rewrite H by auto. auto.
Qed.
Lemma zero_ok t kd n k l x : is_mask n k l -> register n x -> length x = length k ->
  forall i, (i < length l)%nat -> element n (assign_zero t kd n k x) i = if nth i l false then 0 else element n x i.
Proof.
  intros Hk Hx HL i Hi. assert (R : register n k) by apply Hk. pose proof (element_bound n x i Hx).
  apply (select_element n k _ _ i _ (andnot_ok t kd n k x R Hx (eq_sym HL))); [eapply in_reg; eauto|destruct (nth i l false); lia|].
  intros j Hj. cbn beta. rewrite (mask_bit n k l) by auto. destruct (nth i l false); rewrite ?Z.bits_0; auto.
Qed.
Lemma blend_ok t kd n k l x y : is_mask n k l -> register n x -> register n y -> length x = length k -> length y = length k ->
  register n (blend_sse2 t kd n k x y) /\
  forall i, (i < length l)%nat -> element n (blend_sse2 t kd n k x y) i = if nth i l false then element n y i else element n x i.
Proof.
  intros Hk Hx Hy HL HL'. assert (R : register n k) by apply Hk. unfold blend_sse2.
  pose proof (andnot_ok t kd n k x R Hx (eq_sym HL)) as A. pose proof (and_ok n k y R Hy (eq_sym HL')) as B.
  set (a := v_andnot _ _ _ _ _) in *. set (b := v_and _ _ _) in *. clearbody a b.
  assert (E : length a = length b) by (destruct A as (_ & -> & _); destruct B as (_ & -> & _); auto).
  assert (La : length a = length k) by apply A.
  pose proof (or_ok n a b (proj1 A) (proj1 B) E) as C. split; [apply C|]. intros i Hi.
  pose proof (in_reg n k l i Hk Hi) as Hl. pose proof (element_bound n x i Hx). pose proof (element_bound n y i Hy).
  apply (select_element n a _ _ i _ C); [rewrite La; auto|destruct (nth i l false); auto|]. intros j Hj. cbn beta.
  destruct A as (_ & _ & A). destruct B as (_ & _ & B). rewrite A, B by auto. rewrite (mask_bit n k l) by auto.
  destruct (nth i l false); cbn; rewrite ?orb_false_r; auto.
Qed.
Lemma mask_const_ok t n k lk m lm v : is_mask n k lk -> is_mask n m lm -> length lk = length lm -> length k = length m ->
  is_mask n (mask_assign_const t n k m v) (map2b (fun s old => if s then v else old) lk lm).
Proof.
  intros Hk Hm HL E. unfold mask_assign_const. destruct v.
  - replace (map2b _ lk lm) with (map2b orb lk lm) by (unfold map2b; apply map_ext; intros [[|] [|]]; auto).
    apply (binary_mask n k m); auto. apply or_ok; auto; [apply Hk|apply Hm].
  - replace (map2b _ lk lm) with (map2b (fun x y => negb x && y) lk lm) by (unfold map2b; apply map_ext; intros [[|] [|]]; auto).
    apply (binary_mask n k m); auto. apply andnot_ok; auto; [apply Hk|apply Hm].
Qed.

(* scalars *)
Lemma to_type_small sgn w x : of_type sgn w x -> to_type sgn w x = x.
Proof.
  intros [Hw H]. unfold to_type. destruct sgn; [|apply Z.mod_small; auto].
  assert (E : 2 ^ w = 2 * 2 ^ (w - 1)) by (rewrite <- Z.pow_succ_r by (cbn in Hw; lia); f_equal; lia). rewrite Z.mod_small by lia. lia.
Qed.
Lemma to_type_mod sgn w x : 0 < w -> to_type sgn w x mod 2 ^ w = x mod 2 ^ w.
Proof.
  intros Hw. unfold to_type. destruct sgn; [|apply Zmod_mod]. rewrite Zminus_mod, Zmod_mod, <- Zminus_mod. f_equal. lia.
Qed.
Lemma to_type_range sgn w x : In w [8; 16; 32; 64] -> of_type sgn w (to_type sgn w x).
Proof.
  intros Hw. split; auto. unfold to_type.
  assert (P : 0 < w) by (cbn in Hw; lia). pose proof (Z.pow_pos_nonneg 2 w ltac:(lia) ltac:(lia)).
  assert (E : 2 ^ w = 2 * 2 ^ (w - 1)) by (rewrite <- Z.pow_succ_r by lia; f_equal; lia).
  destruct sgn; [pose proof (Z.mod_pos_bound (x + 2 ^ (w - 1)) (2 ^ w) ltac:(lia)); lia|apply Z.mod_pos_bound; lia].
Qed.
Lemma of_type_wider sgn w x : of_type sgn w x -> w < 32 -> of_type sgn 32 x.
Proof.
  intros [Hw H] L. split; [cbn; auto|]. destruct sgn.
  - assert (2 ^ (w - 1) <= 2 ^ (32 - 1)) by (apply Z.pow_le_mono_r; lia). lia.
  - assert (2 ^ w <= 2 ^ 32) by (apply Z.pow_le_mono_r; lia). lia.
Qed.
Lemma promote_id sgn w x : of_type sgn w x -> promote sgn w x = x.
Proof. intros H. unfold promote. destruct (Z.ltb_spec w 32); auto. apply to_type_small. apply (of_type_wider sgn w); auto. Qed.
Lemma width_pos_z sgn w x : of_type sgn w x -> 0 < w.
Proof. intros [H _]. cbn in H. lia. Qed.
Lemma mod_bit x y w j : x mod 2 ^ w = y mod 2 ^ w -> 0 <= j < w -> Z.testbit x j = Z.testbit y j.
Proof. intros E Hj. rewrite <- (Z.mod_pow2_bits_low x w), <- (Z.mod_pow2_bits_low y w), E by lia. auto. Qed.
Lemma scalar_ok f g sgn w x y : pointwise f g -> of_type sgn w x -> of_type sgn w y ->
  of_type sgn w (scalar_op f sgn w x y) /\
  forall j, 0 <= j < w -> Z.testbit (scalar_op f sgn w x y) j = g (Z.testbit x j) (Z.testbit y j).
Proof.
  intros Hg Hx Hy. unfold scalar_op. rewrite !promote_id by auto. split; [apply to_type_range; apply Hx|]. intros j Hj.
  rewrite (mod_bit _ (f x y) w j) by (auto; apply to_type_mod; apply (width_pos_z sgn w x Hx)). apply Hg. lia.
Qed.
Lemma complement_ok sgn w x : of_type sgn w x -> of_type sgn w (scalar_complement sgn w x) /\
  forall j, 0 <= j < w -> Z.testbit (scalar_complement sgn w x) j = negb (Z.testbit x j).
Proof.
  intros Hx. assert (P := width_pos_z _ _ _ Hx). unfold scalar_complement. split; [apply to_type_range; apply Hx|]. intros j Hj.
  rewrite (mod_bit _ (Z.lnot x) w j); auto; [apply Z.lnot_spec; lia|].
  rewrite to_type_mod by auto. destruct (Z.ltb_spec w 32).
  - rewrite Z.max_r by lia.
    assert (HX : of_type true 32 x).
    { split; [cbn; auto|]. destruct Hx as [Hw Hx]. change (2 ^ (32 - 1)) with 2147483648. cbn in Hw.
      destruct sgn; destruct Hw as [<-|[<-|[<-|[<-|[]]]]]; cbn in Hx; lia. }
    rewrite (to_type_small true 32 x HX). rewrite to_type_small; auto.
    split; [cbn; auto|]. destruct HX as [_ HX]. unfold Z.lnot. lia.
  - rewrite Z.max_l by lia. apply to_type_mod. auto.
Qed.
