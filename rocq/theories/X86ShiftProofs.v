(* Proofs about the shift operators. *)
From Coq Require Import ZArith List Bool Lia.
From Verif Require Import Prelude X86Lanes X86Bits X86Shift X86ShiftSpec.
Import ListNotations.
Open Scope Z_scope.

(* rewrite testbit of arithmetic, splitting on every comparison *)
Ltac tb_step :=
  match goal with
  | |- context [Z.testbit (Z.land ?a ?b) ?i] => rewrite (Z.land_spec a b i)
  | |- context [Z.testbit (Z.lor ?a ?b) ?i] => rewrite (Z.lor_spec a b i)
  | |- context [Z.testbit (?c mod 2 ^ ?w) ?i] =>
      rewrite (tb_mod c w i) by lia; destruct (Z.ltb_spec i w); cbn [andb]; try (exfalso; lia)
  | |- context [Z.testbit (?c / 2 ^ ?w) ?i] => rewrite (tb_div c w i) by lia
  | |- context [Z.testbit (?c * 2 ^ ?k) ?i] =>
      rewrite (tb_mul c k i) by lia; destruct (Z.leb_spec k i); cbn [andb]; try (exfalso; lia)
  | |- context [Z.testbit (?a + 2 ^ ?w * ?b) ?i] =>
      rewrite (tb_join a b w i) by (first [assumption|lia]); destruct (Z.ltb_spec i w); cbn [andb]; try (exfalso; lia)
  end.
Ltac tb := repeat tb_step.
(* close a goal between bits of the same lane *)
Ltac tb_close :=
  rewrite ?andb_false_r, ?andb_true_r, ?orb_false_r, ?orb_true_r; cbn [andb orb];
  first [ reflexivity
        | f_equal; lia
        | match goal with
          | |- Z.testbit ?a ?i = false => apply (tb_small a 8); [assumption|lia]
          | |- false = Z.testbit ?a ?i => symmetry; apply (tb_small a 8); [assumption|lia]
          end ].

Lemma tb_255 j : Z.testbit 255 j = (0 <=? j) && (j <? 8).
Proof.
  destruct (Z.leb_spec 0 j); [|apply Z.testbit_neg_r; auto]. cbn [andb]. change 255 with (Z.ones 8).
  destruct (Z.ltb_spec j 8); [apply Z.ones_spec_low|apply Z.ones_spec_high]; lia.
Qed.

(* ---------------- left shift in wider lanes, then mask ------------------ *)
Definition keepl (k : Z) : Z := (255 * 2 ^ k) mod 2 ^ 8.
Lemma keepl_ok k : lane_ok 8 (keepl k).
Proof. apply lane_mod; lia. Qed.
Lemma keepl_bits k i : 0 <= k -> 0 <= i < 8 -> Z.testbit (keepl k) i = (k <=? i).
Proof.
  intros Hk Hi. unfold keepl. rewrite tb_mod, tb_mul, tb_255 by lia.
  destruct (Z.ltb_spec i 8), (Z.leb_spec k i); cbn [andb]; auto; try lia.
Qed.
Lemma vshl_in oob w k a : k < w -> vshl oob w k a = (a * 2 ^ k) mod 2 ^ w.
Proof. intros. unfold vshl. destruct (Z.ltb_spec k w); auto; lia. Qed.
Lemma vshr_in oob w k a : k < w -> vshr oob w k a = a / 2 ^ k.
Proof. intros. unfold vshr. destruct (Z.ltb_spec k w); auto; lia. Qed.
Lemma vsar_in oob w k a : k < w -> vsar oob w k a = uns w (sgn w a / 2 ^ k).
Proof. intros. unfold vsar. destruct (Z.ltb_spec k w); auto; lia. Qed.
Lemma psll_in w k a : k < w -> psll w k a = (a * 2 ^ k) mod 2 ^ w.
Proof. intros. unfold psll. destruct (Z.ltb_spec k w); auto; lia. Qed.
Lemma psll_out w k a : w <= k -> psll w k a = 0.
Proof. intros. unfold psll. destruct (Z.ltb_spec k w); auto; lia. Qed.

Ltac lanes := unfold reg_ok in *; repeat match goal with H : Forall _ (_ :: _) |- _ => inversion_clear H end.

Lemma shl_keep2 k a b : 0 <= k < 16 -> lane_ok 8 a -> lane_ok 8 b ->
  let c := ((a + 2 ^ 8 * b) * 2 ^ k) mod 2 ^ 16 in
  Z.land (c mod 2 ^ 8) (keepl k) = cpp_shl 8 a k /\ Z.land (c / 2 ^ 8) (keepl k) = cpp_shl 8 b k.
Proof.
  intros Hk Ha Hb c. unfold cpp_shl. pose proof (keepl_ok k) as Hkk.
  assert (lane_ok 16 c) by (apply lane_mod; lia).
  split; apply (lane_ext 8); try (apply lane_mod; lia).
  - apply lane_land; [lia|apply lane_mod; lia|apply Hkk].
  - intros i Hi. rewrite Z.land_spec, keepl_bits by lia. unfold c.
    tb; try tb_close; destruct (Z.leb_spec k i); try lia; tb_close.
  - apply lane_land; [lia|apply cut_join_div; auto; lia|apply Hkk].
  - intros i Hi. rewrite Z.land_spec, keepl_bits by lia. unfold c.
    destruct (Z.leb_spec k i); tb; tb_close.
Qed.
Lemma shl_keep k f x : 0 <= k < 16 -> (forall a, f a = (a * 2 ^ k) mod 2 ^ 16) -> even_len x -> reg_ok 8 x ->
  map (fun v => Z.land v (keepl k)) (cut 8 (map f (join 8 x))) = map (fun a => cpp_shl 8 a k) x.
Proof.
  intros Hk Hf. revert x. refine (pair_ind _ _ _); [auto|]. intros a b l He IH H. lanes.
  cbn [join cut map]. rewrite Hf.
  destruct (shl_keep2 k a b) as [-> ->]; auto.
  rewrite IH by auto. auto.
Qed.

Lemma reg_ok_map w (f : Z -> Z) x : (forall a, lane_ok w (f a)) -> reg_ok w (map f x).
Proof. intros H. induction x; constructor; auto. Qed.
Lemma cpp_shl_ok w a k : 0 <= w -> lane_ok w (cpp_shl w a k).
Proof. intros. apply lane_mod. auto. Qed.

(* four bytes *)
Lemma as32_cons a b c d l : as32 (a :: b :: c :: d :: l) = (a + 2 ^ 8 * b + 2 ^ 16 * (c + 2 ^ 8 * d)) :: as32 l.
Proof. reflexivity. Qed.
Lemma as8_cons v l : as8 (v :: l)
  = ((v mod 2 ^ 16) mod 2 ^ 8) :: ((v mod 2 ^ 16) / 2 ^ 8) :: ((v / 2 ^ 16) mod 2 ^ 8) :: (v / 2 ^ 16 / 2 ^ 8) :: as8 l.
Proof. reflexivity. Qed.
Definition quad_len {A} (l : list A) : Prop := exists m, length l = (4 * m)%nat.
Lemma quad_ind {A} (P : list A -> Prop) : P [] ->
  (forall a b c d l, quad_len l -> P l -> P (a :: b :: c :: d :: l)) -> forall l, quad_len l -> P l.
Proof.
  intros H0 H1 l [m Hm]. revert l Hm. induction m as [|m IH]; intros l Hm.
  - destruct l; [auto|discriminate].
  - destruct l as [|a [|b [|c [|d l]]]]; simpl in Hm; try lia. assert (length l = 4 * m)%nat by lia.
    apply H1; [exists m; auto|auto].
Qed.
Lemma quad_ind2 {A} (P : list A -> list A -> Prop) : P [] [] ->
  (forall a b c d l a' b' c' d' m, quad_len l -> length m = length l -> P l m ->
     P (a :: b :: c :: d :: l) (a' :: b' :: c' :: d' :: m)) ->
  forall l m, quad_len l -> length m = length l -> P l m.
Proof.
  intros H0 H1 l m He. revert m.
  apply (quad_ind (fun l => forall m, length m = length l -> P l m)); auto; clear l He.
  - intros [|] H; [auto|discriminate].
  - intros a b c d l He IH [|a' [|b' [|c' [|d' m]]]] H; try discriminate. injection H as H. apply H1; auto.
Qed.
Lemma quad_even {A} (l : list A) : quad_len l -> even_len l.
Proof. intros [m Hm]. exists (2 * m)%nat. lia. Qed.
(* bit i of byte j of a 32-bit lane *)
Lemma word_ok a b c d : lane_ok 8 a -> lane_ok 8 b -> lane_ok 8 c -> lane_ok 8 d ->
  lane_ok 32 (a + 2 ^ 8 * b + 2 ^ 16 * (c + 2 ^ 8 * d)).
Proof.
  intros. change 32 with (2 * 16). apply lane_join; [lia| |]; change 16 with (2 * 8); apply lane_join; auto; lia.
Qed.
Lemma half_ok a b : lane_ok 8 a -> lane_ok 8 b -> lane_ok 16 (a + 2 ^ 8 * b).
Proof. intros. change 16 with (2 * 8). apply lane_join; auto; lia. Qed.

Ltac okl := first [assumption | apply word_ok; assumption | apply half_ok; assumption | apply lane_mod; lia
  | apply keepl_ok | lia].

Lemma bytes_ok v : lane_ok 32 v -> lane_ok 8 ((v mod 2 ^ 16) mod 2 ^ 8) /\ lane_ok 8 ((v mod 2 ^ 16) / 2 ^ 8) /\
  lane_ok 8 ((v / 2 ^ 16) mod 2 ^ 8) /\ lane_ok 8 (v / 2 ^ 16 / 2 ^ 8).
Proof.
  intros Hv. assert (lane_ok 16 (v / 2 ^ 16)) by (apply cut_join_div; [lia|exact Hv]).
  split; [apply lane_mod; lia|]. split; [apply cut_join_div; [lia|apply lane_mod; lia]|].
  split; [apply lane_mod; lia|apply cut_join_div; [lia|auto]].
Qed.

Ltac tb_step ::=
  match goal with
  | |- context [Z.testbit (Z.land ?a ?b) ?i] => rewrite (Z.land_spec a b i)
  | |- context [Z.testbit (Z.lor ?a ?b) ?i] => rewrite (Z.lor_spec a b i)
  | |- context [Z.testbit (?c mod 2 ^ ?w) ?i] =>
      rewrite (tb_mod c w i) by lia; destruct (Z.ltb_spec i w); cbn [andb]; try (exfalso; lia)
  | |- context [Z.testbit (?c / 2 ^ ?w) ?i] => rewrite (tb_div c w i) by lia
  | |- context [Z.testbit (?c * 2 ^ ?k) ?i] =>
      rewrite (tb_mul c k i) by lia; destruct (Z.leb_spec k i); cbn [andb]; try (exfalso; lia)
  | |- context [Z.testbit (?a + 2 ^ ?w * ?b) ?i] =>
      rewrite (tb_join a b w i) by okl; destruct (Z.ltb_spec i w); cbn [andb]; try (exfalso; lia)
  end.

Lemma shl_keep4 k a b c d : 0 <= k < 32 -> lane_ok 8 a -> lane_ok 8 b -> lane_ok 8 c -> lane_ok 8 d ->
  let v := ((a + 2 ^ 8 * b + 2 ^ 16 * (c + 2 ^ 8 * d)) * 2 ^ k) mod 2 ^ 32 in
  Z.land ((v mod 2 ^ 16) mod 2 ^ 8) (keepl k) = cpp_shl 8 a k /\
  Z.land ((v mod 2 ^ 16) / 2 ^ 8) (keepl k) = cpp_shl 8 b k /\
  Z.land ((v / 2 ^ 16) mod 2 ^ 8) (keepl k) = cpp_shl 8 c k /\
  Z.land (v / 2 ^ 16 / 2 ^ 8) (keepl k) = cpp_shl 8 d k.
Proof.
  intros Hk Ha Hb Hc Hd v. unfold cpp_shl. pose proof (keepl_ok k) as Hkk.
  assert (Hv : lane_ok 32 v) by (apply lane_mod; lia). destruct (bytes_ok v Hv) as (H1 & H2 & H3 & H4).
  repeat match goal with |- _ /\ _ => split end; apply (lane_ext 8); try (apply lane_mod; lia);
    try (apply lane_land; [lia|assumption|apply Hkk]);
    intros i Hi; rewrite Z.land_spec, keepl_bits by lia; unfold v;
    destruct (Z.leb_spec k i); tb; tb_close.
Qed.
Lemma shl_keep32 k f x : 0 <= k < 32 -> (forall a, f a = (a * 2 ^ k) mod 2 ^ 32) -> quad_len x -> reg_ok 8 x ->
  map (fun v => Z.land v (keepl k)) (as8 (map f (as32 x))) = map (fun a => cpp_shl 8 a k) x.
Proof.
  intros Hk Hf. revert x. refine (quad_ind _ _ _); [auto|]. intros a b c d l He IH H. lanes.
  rewrite as32_cons. cbn [map]. rewrite as8_cons. cbn [map]. rewrite Hf.
  destruct (shl_keep4 k a b c d) as (-> & -> & -> & ->); auto. rewrite IH by auto. auto.
Qed.

(* ---------------- algebra of the specification --------------------------- *)
Lemma shl_add w a j k : 0 <= w -> 0 <= j -> 0 <= k -> cpp_shl w (cpp_shl w a j) k = cpp_shl w a (j + k).
Proof.
  intros Hw Hj Hk. unfold cpp_shl. rewrite Z.mul_mod_idemp_l by (apply Z.pow_nonzero; lia).
  rewrite Z.pow_add_r by lia. f_equal. ring.
Qed.
Lemma shl_0 w a : lane_ok w a -> cpp_shl w a 0 = a.
Proof. intros. unfold cpp_shl. rewrite Z.mul_1_r. apply Z.mod_small. auto. Qed.
Lemma shl_big w a k : 0 <= w -> w <= k -> cpp_shl w a k = 0.
Proof.
  intros Hw H. unfold cpp_shl. replace k with (k - w + w) by lia. rewrite Z.pow_add_r by lia.
  rewrite Z.mul_assoc. apply Z.mod_mul. apply Z.pow_nonzero; lia.
Qed.
Lemma shru_add a j k : 0 <= j -> 0 <= k -> cpp_shr_unsigned (cpp_shr_unsigned a j) k = cpp_shr_unsigned a (j + k).
Proof.
  intros Hj Hk. unfold cpp_shr_unsigned. rewrite Z.pow_add_r by lia. apply Z.div_div; [apply Z.pow_nonzero; lia|apply Z.pow_pos_nonneg; lia].
Qed.
Lemma shru_0 a : cpp_shr_unsigned a 0 = a.
Proof. unfold cpp_shr_unsigned. apply Z.div_1_r. Qed.
Lemma shru_big w a k : lane_ok w a -> w <= k -> 0 <= w -> cpp_shr_unsigned a k = 0.
Proof.
  intros [H0 H] Hk Hw. apply Z.div_small. split; auto. apply Z.lt_le_trans with (1 := H).
  apply Z.pow_le_mono_r; lia.
Qed.
Lemma shru_ok w a k : 0 <= k -> lane_ok w a -> lane_ok w (cpp_shr_unsigned a k).
Proof. intros. apply lane_div; auto. Qed.
Lemma sgn_range w a : 0 < w -> lane_ok w a -> - 2 ^ (w - 1) <= sgn w a < 2 ^ (w - 1).
Proof.
  intros Hw [H0 H]. unfold sgn. assert (E : 2 ^ w = 2 * 2 ^ (w - 1)).
  { rewrite <- Z.pow_succ_r by lia. f_equal. lia. }
  destruct (Z.ltb_spec a (2 ^ (w - 1))); lia.
Qed.
Lemma sgn_uns w v : 0 < w -> - 2 ^ (w - 1) <= v < 2 ^ (w - 1) -> sgn w (uns w v) = v.
Proof.
  intros Hw H. assert (E : 2 ^ w = 2 * 2 ^ (w - 1)).
  { rewrite <- Z.pow_succ_r by lia. f_equal. lia. }
  unfold sgn, uns. destruct (Z.ltb_spec v 0).
  - replace (v mod 2 ^ w) with (v + 2 ^ w).
    + destruct (Z.ltb_spec (v + 2 ^ w) (2 ^ (w - 1))); lia.
    + rewrite <- (Z.mod_small (v + 2 ^ w) (2 ^ w)) by lia.
      replace (v + 2 ^ w) with (v + 1 * 2 ^ w) by lia. apply Z_mod_plus_full.
  - rewrite Z.mod_small by lia. destruct (Z.ltb_spec v (2 ^ (w - 1))); lia.
Qed.
Lemma uns_sgn w a : 0 < w -> lane_ok w a -> uns w (sgn w a) = a.
Proof.
  intros Hw Ha. unfold sgn, uns. destruct (Z.ltb_spec a (2 ^ (w - 1))).
  - apply Z.mod_small. auto.
  - replace (a - 2 ^ w) with (a + (-1) * 2 ^ w) by lia. rewrite Z_mod_plus_full. apply Z.mod_small. auto.
Qed.
Lemma div_range p v k : 0 <= k -> - p <= v < p -> - p <= v / 2 ^ k < p.
Proof.
  intros Hk H. pose proof (Z.pow_pos_nonneg 2 k ltac:(lia) Hk). split.
  - apply Z.div_le_lower_bound; nia.
  - apply Z.div_lt_upper_bound; nia.
Qed.
Lemma shrs_add w a j k : 0 < w -> lane_ok w a -> 0 <= j -> 0 <= k ->
  cpp_shr_signed w (cpp_shr_signed w a j) k = cpp_shr_signed w a (j + k).
Proof.
  intros Hw Ha Hj Hk. unfold cpp_shr_signed. rewrite sgn_uns; auto.
  - rewrite Z.pow_add_r by lia. rewrite Z.div_div; auto; [apply Z.pow_nonzero; lia|apply Z.pow_pos_nonneg; lia].
  - apply div_range; auto. apply sgn_range; auto.
Qed.
Lemma shrs_0 w a : 0 < w -> lane_ok w a -> cpp_shr_signed w a 0 = a.
Proof. intros. unfold cpp_shr_signed. rewrite Z.div_1_r. apply uns_sgn; auto. Qed.
Lemma shrs_ok w a k : 0 <= w -> lane_ok w (cpp_shr_signed w a k).
Proof. intros. apply lane_mod. auto. Qed.
Lemma psra_spec w k a : 0 < w -> 0 <= k -> lane_ok w a -> psra w k a = cpp_shr_signed w a k.
Proof.
  intros Hw Hk Ha. unfold psra, cpp_shr_signed. destruct (Z.ltb_spec k w); auto.
  rewrite <- msb_ltb by auto. apply (lane_ext w).
  - pose proof (Z.pow_pos_nonneg 2 w ltac:(lia) ltac:(lia)). unfold lane_ok. destruct (msb w a); lia.
  - apply lane_mod; lia.
  - intros i Hi. rewrite tb_sar by (auto; lia). rewrite Z.min_r by lia. unfold msb.
    destruct (Z.ltb_spec i w); [|lia]. cbn [andb]. destruct (Z.testbit a (w - 1)).
    + replace (2 ^ w - 1) with (Z.ones w) by (rewrite Z.ones_equiv; lia). apply Z.ones_spec_low. lia.
    + apply Z.bits_0.
Qed.
Lemma psll_spec w k a : 0 <= w -> psll w k a = cpp_shl w a k.
Proof. intros Hw. unfold psll. destruct (Z.ltb_spec k w); auto. rewrite shl_big; auto. Qed.
Lemma psrl_spec w k a : 0 <= w -> lane_ok w a -> psrl w k a = cpp_shr_unsigned a k.
Proof. intros Hw Ha. unfold psrl. destruct (Z.ltb_spec k w); auto. rewrite (shru_big w); auto. Qed.

(* ---------------- left shift by a scalar -------------------------------- *)
Ltac cases32 y := let E := fresh in
  assert (E : y = 0 \/ y = 1 \/ y = 2 \/ y = 3 \/ y = 4 \/ y = 5 \/ y = 6 \/ y = 7 \/ y = 8 \/ y = 9 \/ y = 10
    \/ y = 11 \/ y = 12 \/ y = 13 \/ y = 14 \/ y = 15 \/ y = 16 \/ y = 17 \/ y = 18 \/ y = 19 \/ y = 20 \/ y = 21
    \/ y = 22 \/ y = 23 \/ y = 24 \/ y = 25 \/ y = 26 \/ y = 27 \/ y = 28 \/ y = 29 \/ y = 30 \/ y = 31) by lia;
  repeat (destruct E as [E|E]; [subst y|]); try subst y.

Lemma map_land_repeat f c n : (n = length f)%nat -> map2 Z.land f (repeat c n) = map (fun v => Z.land v c) f.
Proof. intros ->. induction f; auto. cbn [length repeat map2 map]. rewrite IHf. auto. Qed.
Lemma shl8_k_spec y m : 0 <= y < 32 -> shl8_k y m = repeat (keepl y) (2 * m).
Proof.
  intros Hy. unfold shl8_k. induction m as [|m IH]; auto.
  replace (2 * S m)%nat with (S (S (2 * m))) by lia. cbn [repeat map map2 cut]. rewrite <- IH. clear IH.
  f_equal; [|f_equal]; cases32 y; reflexivity.
Qed.
Lemma even_half {A} (x : list A) : even_len x -> (2 * (length x / 2) = length x)%nat.
Proof. intros [k Hk]. rewrite Hk. rewrite (Nat.mul_comm 2 k), Nat.div_mul by lia. lia. Qed.
Lemma cut_join_len w f x : even_len x -> length (cut w (map f (join w x))) = length x.
Proof.
  intros He. rewrite cut_length, map_length, join_length by auto. destruct He as [k Hk].
  rewrite Hk, Nat.div2_double. auto.
Qed.
Lemma as8_32_len f x : quad_len x -> length (as8 (map f (as32 x))) = length x.
Proof.
  revert x. refine (quad_ind _ _ _); [auto|]. intros a b c d l He IH.
  rewrite as32_cons. cbn [map]. rewrite as8_cons. cbn [length]. rewrite IH. auto.
Qed.
Lemma map_zero {A} (f : A -> Z) l : (forall a, In a l -> f a = 0) -> map f l = map (fun _ => 0) l.
Proof. intros. apply map_ext_in. auto. Qed.

Lemma shl8_sse_spec y x : 0 <= y < 32 -> even_len x -> reg_ok 8 x -> shl8_sse y x = map (fun a => cpp_shl 8 a y) x.
Proof.
  intros Hy He Hx. unfold shl8_sse. rewrite shl8_k_spec, even_half by auto.
  rewrite map_land_repeat by (rewrite cut_join_len; auto).
  destruct (Z.ltb_spec y 16).
  - apply shl_keep; auto; [lia|]. intros a. apply psll_in. lia.
  - transitivity (map (fun _ : Z => 0) x).
    + replace (keepl y) with 0 by (symmetry; apply (shl_big 8 255); lia).
      transitivity (repeat 0 (length x)).
      * rewrite <- (cut_join_len 8 (psll 16 y) x He). induction (cut 8 (map (psll 16 y) (join 8 x))); auto.
        cbn [map length repeat]. rewrite Z.land_0_r, IHl. auto.
      * clear. induction x; auto. cbn [map length repeat]. rewrite IHx. auto.
    + symmetry. apply map_zero. intros a _. apply shl_big; lia.
Qed.
Lemma shl8_avx2_spec y x : 0 <= y < 32 -> quad_len x -> reg_ok 8 x -> shl8_avx2 y x = map (fun a => cpp_shl 8 a y) x.
Proof.
  intros Hy Hq Hx. pose proof (quad_even x Hq) as He. unfold shl8_avx2. rewrite shl8_k_spec, even_half by auto.
  rewrite map_land_repeat by (rewrite as8_32_len; auto).
  apply shl_keep32; auto. intros a. apply psll_in. lia.
Qed.
Lemma uns_mod_le w w' v : 0 <= w <= w' -> (v mod 2 ^ w') mod 2 ^ w = v mod 2 ^ w.
Proof.
  intros H. apply Z.bits_inj'. intros i Hi. rewrite !tb_mod by lia.
  destruct (Z.ltb_spec i w), (Z.ltb_spec i w'); auto; lia.
Qed.
Lemma sgn_mod w a : 0 < w -> lane_ok w a -> sgn w a mod 2 ^ w = a.
Proof. apply uns_sgn. Qed.
Lemma sext_shl8 y a : 0 <= y -> lane_ok 8 a -> (uns 16 (sgn 8 a) * 2 ^ y) mod 2 ^ 8 = cpp_shl 8 a y.
Proof.
  intros Hy Ha. unfold cpp_shl, uns. rewrite <- Z.mul_mod_idemp_l by (apply Z.pow_nonzero; lia).
  rewrite uns_mod_le, sgn_mod by (auto; lia). auto.
Qed.
Lemma shl8_avx512_spec y x : 0 <= y < 32 -> reg_ok 8 x -> shl8_avx512 y x = map (fun a => cpp_shl 8 a y) x.
Proof.
  intros Hy Hx. unfold shl8_avx512, trunc_to, sext. rewrite !map_map. apply map_ext_in. intros a Ha.
  unfold reg_ok in Hx. rewrite Forall_forall in Hx. specialize (Hx a Ha).
  rewrite psll_spec by lia. unfold cpp_shl at 1. rewrite uns_mod_le by lia. apply sext_shl8; auto. lia.
Qed.
Lemma padd_self w a : padd w a a = cpp_shl w a 1.
Proof. unfold padd, cpp_shl. f_equal. change (2 ^ 1) with 2. ring. Qed.
Lemma map2_padd w x : map2 (padd w) x x = map (fun a => cpp_shl w a 1) x.
Proof. rewrite map2_same. apply map_ext. intros. apply padd_self. Qed.

Lemma land_mod w a b : 0 <= w -> Z.land a b mod 2 ^ w = Z.land (a mod 2 ^ w) (b mod 2 ^ w).
Proof.
  intros Hw. apply Z.bits_inj'. intros i Hi. rewrite Z.land_spec, !tb_mod, Z.land_spec by lia.
  destruct (i <? w), (Z.testbit a i); auto.
Qed.
Lemma land_div w a b : 0 <= w -> Z.land a b / 2 ^ w = Z.land (a / 2 ^ w) (b / 2 ^ w).
Proof. intros Hw. apply Z.bits_inj'. intros i Hi. rewrite Z.land_spec, !tb_div, Z.land_spec by lia. auto. Qed.
Lemma lor_mod w a b : 0 <= w -> Z.lor a b mod 2 ^ w = Z.lor (a mod 2 ^ w) (b mod 2 ^ w).
Proof.
  intros Hw. apply Z.bits_inj'. intros i Hi. rewrite Z.lor_spec, !tb_mod, Z.lor_spec by lia.
  destruct (i <? w), (Z.testbit a i); auto.
Qed.
Lemma lor_div w a b : 0 <= w -> Z.lor a b / 2 ^ w = Z.lor (a / 2 ^ w) (b / 2 ^ w).
Proof. intros Hw. apply Z.bits_inj'. intros i Hi. rewrite Z.lor_spec, !tb_div, Z.lor_spec by lia. auto. Qed.

Lemma shl8_const_spec oob bytes y x : 0 <= y < 32 -> reg_ok 8 x ->
  (bytes = length x) -> (bytes = 2)%nat \/ quad_len x ->
  shl8_const oob bytes y x = map (fun a => cpp_shl 8 a y) x.
Proof.
  intros Hy Hx Hb Hl. unfold shl8_const.
  assert (Hok : forall a, In a x -> lane_ok 8 a) by (unfold reg_ok in Hx; rewrite Forall_forall in Hx; auto).
  destruct (Z.eqb_spec y 0) as [->|].
  { symmetry. rewrite <- (map_id x) at 2. apply map_ext_in. intros. apply shl_0; auto. }
  destruct (Z.eqb_spec y 1) as [->|]; [apply map2_padd|].
  destruct (Z.eqb_spec y 2) as [->|].
  { cbv zeta. rewrite !map2_padd, map_map. apply map_ext. intros. rewrite shl_add by lia. auto. }
  destruct (Z.ltb_spec 2 y); [|lia]. cbn [andb]. destruct (Z.ltb_spec y 8).
  - destruct (Nat.ltb_spec 4 bytes).
    + destruct Hl as [|Hq]; [lia|]. apply shl_keep32; auto; try lia. intros. apply vshl_in. lia.
    + assert (Hmask : (Z.land 255 (255 * 2 ^ y) * 16843009) mod 2 ^ 32
        = keepl y + 2 ^ 8 * keepl y + 2 ^ 16 * (keepl y + 2 ^ 8 * keepl y)).
      { assert (E : y = 3 \/ y = 4 \/ y = 5 \/ y = 6 \/ y = 7) by lia.
        destruct E as [->|[->|[->|[->| ->]]]]; reflexivity. }
      rewrite Hmask. clear Hmask. assert (Hkk : lane_ok 8 (keepl y)) by apply keepl_ok.
      destruct (Nat.eqb_spec bytes 2) as [E2|].
      * rewrite E2 in Hb. destruct x as [|a [|b [|]]]; try discriminate. lanes.
        cbn [join map cut]. rewrite land_mod, uns_mod_le by lia.
        rewrite (join_mod 16) by okl. rewrite land_mod, land_div, join_mod, join_div by okl.
        destruct (shl_keep2 y a b) as [-> ->]; auto; lia.
      * destruct Hl as [|[m Hm]]; [lia|]. destruct x as [|a0 x0]; [reflexivity|].
        assert (Hl4 : length (a0 :: x0) = 4%nat) by (simpl length in *; lia).
        destruct x0 as [|b [|c [|d [|]]]]; try discriminate. rename a0 into a. lanes.
        rewrite as32_cons. cbn [as32 join map]. rewrite as8_cons. cbn [as8 cut].
        rewrite !(land_mod 16), !(land_div 16), (join_mod 16), (join_div 16), !land_mod, !land_div, !join_mod, !join_div by okl.
        destruct (shl_keep4 y a b c d) as (-> & -> & -> & ->); auto; lia.
  - symmetry. rewrite map_zero; auto. intros. apply shl_big; lia.
Qed.

(* ---------------- right shift by a scalar ------------------------------- *)
Lemma shr8u_spec oob y x : 0 <= y < 32 -> even_len x -> reg_ok 8 x ->
  shr8u oob y x = map (fun a => cpp_shr_unsigned a y) x.
Proof.
  intros Hy. unfold shr8u. revert x. refine (pair_ind _ _ _); [auto|]. intros a b l He IH H. lanes.
  cbn [join cut map]. rewrite IH by auto. destruct (Z.ltb_spec y 8).
  - rewrite vshr_in by lia. set (c := (a + 2 ^ 8 * b) / 2 ^ y).
    assert (Hc : lane_ok 16 c) by (apply lane_div; [lia|okl]).
    assert (Hm : forall i, 0 <= i < 8 -> Z.testbit (255 / 2 ^ y) i = (i + y <? 8)).
    { intros i Hi. rewrite tb_div, tb_255 by lia. destruct (Z.leb_spec 0 (i + y)); auto; lia. }
    f_equal; [|f_equal]; apply (lane_ext 8); try (apply shru_ok; auto; lia).
    + apply lane_land; [lia|apply lane_mod; lia|]. apply Z.div_pos; [lia|apply Z.pow_pos_nonneg; lia].
    + intros i Hi. rewrite Z.land_spec, Hm by lia. unfold cpp_shr_unsigned, c. tb; destruct (Z.ltb_spec (i + y) 8); tb_close.
    + apply lane_land; [lia|apply cut_join_div; [lia|exact Hc]|]. apply Z.div_pos; [lia|apply Z.pow_pos_nonneg; lia].
    + intros i Hi. rewrite Z.land_spec, Hm by lia. unfold cpp_shr_unsigned, c. tb; destruct (Z.ltb_spec (i + y) 8); tb_close.
  - replace (255 / 2 ^ y) with 0 by (symmetry; apply (shru_big 8); [split; reflexivity || lia|lia|lia]).
    rewrite !Z.land_0_r, !(shru_big 8) by (auto; lia). auto.
Qed.

Lemma tb_sar_in oob w k a i : 0 < w -> 0 <= k < w -> lane_ok w a -> 0 <= i ->
  Z.testbit (vsar oob w k a) i = (i <? w) && Z.testbit a (Z.min (i + k) (w - 1)).
Proof. intros. rewrite vsar_in by lia. apply tb_sar; auto; lia. Qed.
(* a signed shift of any count when out-of-range shifts fill with the sign *)
Lemma vsar_hw w k a : 0 < w -> 0 <= k -> lane_ok w a -> vsar psra w k a = cpp_shr_signed w a k.
Proof.
  intros Hw Hk Ha. unfold vsar, cpp_shr_signed. destruct (Z.ltb_spec k w); auto. apply psra_spec; auto.
Qed.
Lemma tb_shrs w k a i : 0 < w -> 0 <= k -> lane_ok w a -> 0 <= i ->
  Z.testbit (cpp_shr_signed w a k) i = (i <? w) && Z.testbit a (Z.min (i + k) (w - 1)).
Proof. intros. apply tb_sar; auto. Qed.

Lemma shr8s_pair hi lo a b y : 0 <= y -> lane_ok 8 a -> lane_ok 8 b ->
  hi = cpp_shr_signed 16 (a + 2 ^ 8 * b) (y + 8) ->
  lo = cpp_shr_signed 16 (((a + 2 ^ 8 * b) * 2 ^ 8) mod 2 ^ 16) y ->
  let v := Z.lor ((hi * 2 ^ 8) mod 2 ^ 16) (lo / 2 ^ 8) in
  v mod 2 ^ 8 = cpp_shr_signed 8 a y /\ v / 2 ^ 8 = cpp_shr_signed 8 b y.
Proof.
  intros Hy Ha Hb -> -> v. set (h := cpp_shr_signed 16 (a + 2 ^ 8 * b) (y + 8)) in *.
  set (l := cpp_shr_signed 16 (((a + 2 ^ 8 * b) * 2 ^ 8) mod 2 ^ 16) y) in *.
  assert (Hh : forall i, 0 <= i -> Z.testbit h i = (i <? 16) && Z.testbit (a + 2 ^ 8 * b) (Z.min (i + (y + 8)) 15)).
  { intros. apply (tb_shrs 16); try lia. okl. }
  assert (Hl : forall i, 0 <= i -> Z.testbit l i = (i <? 16) && Z.testbit (((a + 2 ^ 8 * b) * 2 ^ 8) mod 2 ^ 16) (Z.min (i + y) 15)).
  { intros. apply (tb_shrs 16); try lia. okl. }
  assert (Hlo : lane_ok 16 l) by (apply shrs_ok; lia).
  assert (Hv : lane_ok 16 v).
  { apply lane_lor; [lia|apply lane_mod; lia|]. apply lane_div; [lia|auto]. }
  split; apply (lane_ext 8); try (apply shrs_ok; lia).
  - apply lane_mod; lia.
  - intros i Hi. rewrite tb_shrs by (auto; lia). unfold v. tb. rewrite Hl by lia.
    destruct (Z.ltb_spec (i + 8) 16); [|lia]. cbn [orb andb].
    destruct (Z.le_gt_cases (i + 8 + y) 15).
    + rewrite !Z.min_l by lia. tb; tb_close.
    + rewrite !Z.min_r by lia. tb; tb_close.
  - apply cut_join_div; [lia|exact Hv].
  - intros i Hi. rewrite tb_shrs by (auto; lia). unfold v. tb. rewrite Hl, Hh by lia.
    destruct (Z.ltb_spec (i + 8 + 8) 16); [lia|]. destruct (Z.ltb_spec (i + 8 - 8) 16); [|lia]. cbn [andb].
    destruct (Z.ltb_spec i 8); [|lia]. cbn [andb]. rewrite orb_false_r. destruct (Z.le_gt_cases (i + y) 7).
    + rewrite !Z.min_l by lia. tb; tb_close.
    + rewrite !Z.min_r by lia. tb; tb_close.
Qed.
Lemma shr8s_gen oob y x : 0 <= y -> (y < 8 \/ oob = psra) -> even_len x -> reg_ok 8 x ->
  shr8s oob y x = map (fun a => cpp_shr_signed 8 a y) x.
Proof.
  intros Hy Ho. unfold shr8s. revert x. refine (pair_ind _ _ _); [auto|]. intros a b l He IH H. lanes.
  cbn [join cut map map2]. rewrite IH by auto. rewrite !vshl_in, vshr_in by lia.
  assert (forall k c, 0 <= k -> (k < 16 \/ oob = psra) -> lane_ok 16 c -> vsar oob 16 k c = cpp_shr_signed 16 c k) as E.
  { intros k c Hk [Hk'| ->] Hc; [apply vsar_in; auto|apply vsar_hw; auto; lia]. }
  destruct (shr8s_pair (vsar oob 16 (y + 8) (a + 2 ^ 8 * b)) (vsar oob 16 y (((a + 2 ^ 8 * b) * 2 ^ 8) mod 2 ^ 16)) a b y)
    as [-> ->]; auto; apply E; try lia; try okl; destruct Ho; auto; left; lia.
Qed.

Lemma tb_2pow_mask i : 0 <= i -> Z.testbit (2 ^ 64 - 2 ^ 32) i = (32 <=? i) && (i <? 64).
Proof.
  intros Hi. replace (2 ^ 64 - 2 ^ 32) with (Z.ones 32 * 2 ^ 32) by reflexivity. rewrite tb_mul by lia.
  destruct (Z.leb_spec 32 i); cbn [andb]; auto.
  destruct (Z.ltb_spec i 64); [apply Z.ones_spec_low|apply Z.ones_spec_high]; lia.
Qed.
Lemma tb_pow63 i : 0 <= i -> Z.testbit (2 ^ 63) i = (i =? 63).
Proof. intros Hi. rewrite Z.pow2_bits_eqb by lia. apply Z.eqb_sym. Qed.

Lemma shr64s_gen oob y x : 0 <= y < 64 -> (y < 32 \/ oob = psra) -> reg_ok 64 x ->
  shr64s oob y x = map (fun a => cpp_shr_signed 64 a y) x.
Proof.
  intros Hy Ho Hx. unfold shr64s.
  assert (E : forall k c, 0 <= k -> (k < 32 \/ oob = psra) -> lane_ok 32 c -> vsar oob 32 k c = cpp_shr_signed 32 c k).
  { intros k c Hk [Hk'| ->] Hc; [apply vsar_in; auto|apply vsar_hw; auto; lia]. }
  destruct (Z.ltb_spec 32 y).
  - assert (Hpsra : oob = psra) by (destruct Ho; [lia|auto]).
    induction Hx as [|v l Hv Hl IH]; auto. cbn [join cut map map2]. rewrite IH. f_equal. clear IH.
    assert (H1 : lane_ok 32 (v mod 2 ^ 32)) by (apply lane_mod; lia).
    assert (H2 : lane_ok 32 (v / 2 ^ 32)) by (apply cut_join_div; [lia|exact Hv]).
    rewrite vshr_in by lia.
    assert (H3 : lane_ok 32 (v / 2 ^ 32 / 2 ^ 32)) by (apply lane_div; [lia|auto]).
    rewrite (Z.mod_small (v / 2 ^ 32)) by exact H2. rewrite !E by (auto; lia).
    pose proof (shrs_ok 32 (v mod 2 ^ 32) 32 ltac:(lia)) as K1.
    pose proof (shrs_ok 32 (v / 2 ^ 32) 32 ltac:(lia)) as K2.
    pose proof (shrs_ok 32 (v / 2 ^ 32) (y - 32) ltac:(lia)) as K3.
    pose proof (shrs_ok 32 (v / 2 ^ 32 / 2 ^ 32) (y - 32) ltac:(lia)) as K4.
    apply (lane_ext 64); [|apply shrs_ok; lia|].
    + apply lane_lor; [lia| |apply (lane_join 32); auto; lia].
      apply lane_land; [lia|apply (lane_join 32); auto; lia|lia].
    + intros i Hi. rewrite Z.lor_spec, Z.land_spec, tb_2pow_mask, !tb_join by (auto; lia).
      rewrite (tb_shrs 64) by (auto; lia). destruct (Z.ltb_spec i 64); [|lia].
      destruct (Z.ltb_spec i 32), (Z.leb_spec 32 i); try lia; cbn [andb].
      * rewrite andb_false_r. cbn [orb]. rewrite tb_shrs by (auto; lia). destruct (Z.ltb_spec i 32); [|lia]. cbn [andb].
        rewrite tb_div by lia. f_equal. lia.
      * rewrite !tb_shrs by (auto; lia). destruct (Z.ltb_spec (i - 32) 32); [|lia]. cbn [andb].
        rewrite !tb_div by lia.
        assert (F : Z.testbit v (Z.min (i - 32 + (y - 32)) (32 - 1) + 32 + 32) = false).
        { apply (tb_small v 64); auto; lia. }
        rewrite F, andb_true_r, orb_false_r. f_equal. lia.
  - induction Hx as [|v l Hv Hl IH]; auto. cbn [join cut map map2]. rewrite IH. f_equal. clear IH.
    rewrite vshr_in by lia. set (u := Z.land v (2 ^ 63)).
    assert (Hu : lane_ok 64 u) by (apply lane_land; [lia|exact Hv|lia]).
    assert (H1 : lane_ok 32 (u mod 2 ^ 32)) by (apply lane_mod; lia).
    assert (H2 : lane_ok 32 (u / 2 ^ 32)) by (apply cut_join_div; [lia|exact Hu]).
    assert (y < 32 \/ oob = psra) as Ho' by auto. rewrite !E by (auto; lia).
    pose proof (shrs_ok 32 (u mod 2 ^ 32) y ltac:(lia)) as K1.
    pose proof (shrs_ok 32 (u / 2 ^ 32) y ltac:(lia)) as K2.
    apply (lane_ext 64); [|apply shrs_ok; lia|].
    + apply lane_lor; [lia|apply lane_div; [lia|exact Hv]|apply (lane_join 32); auto; lia].
    + intros i Hi. rewrite Z.lor_spec, tb_div, tb_join by (auto; lia).
      rewrite (tb_shrs 64) by (auto; lia). destruct (Z.ltb_spec i 64); [|lia]. cbn [andb].
      assert (Hub : forall j, 0 <= j -> Z.testbit u j = Z.testbit v j && (j =? 63)).
      { intros j Hj. unfold u. rewrite Z.land_spec, tb_pow63; auto. }
      destruct (Z.ltb_spec i 32).
      * rewrite tb_shrs by (auto; lia). rewrite tb_mod, Hub by lia.
        replace (Z.min (i + y) (32 - 1) =? 63) with false by lia. rewrite !andb_false_r, orb_false_r.
        f_equal. lia.
      * rewrite tb_shrs by (auto; lia). rewrite tb_div, Hub by lia.
        destruct (Z.ltb_spec (i - 32) 32); [|lia]. cbn [andb].
        destruct (Z.le_gt_cases 63 (i + y)).
        -- replace (Z.min (i - 32 + y) (32 - 1) + 32) with 63 by lia. rewrite Z.min_r by lia.
           rewrite Z.eqb_refl, andb_true_r. destruct (Z.eq_dec (i + y) 63) as [->|]; [apply orb_diag|].
           rewrite (tb_small v 64) by (auto; lia). auto.
        -- replace (Z.min (i - 32 + y) (32 - 1) + 32 =? 63) with false by lia.
           rewrite andb_false_r, orb_false_r. f_equal. lia.
Qed.
