(* C41. *)
From Coq Require Import ZArith List Bool Lia Psatz Znumtheory.
From Verif Require Import ScalarSpec Scalar.
Open Scope Z_scope.

Section T.
  Variable t : ity.
  Hypothesis Ht : std_type t.

  Lemma iw_pos : 8 <= iw t. Proof. destruct Ht as [H|[H|[H|H]]]; lia. Qed.
  Lemma conv_wraps v : wraps_to t v (conv t v).
  Proof.
    pose proof iw_pos as Hw. assert (P : 0 < 2 ^ (iw t - 1)) by (apply Z.pow_pos_nonneg; lia).
    assert (E : 2 ^ iw t = 2 * 2 ^ (iw t - 1)) by (replace (iw t) with (1 + (iw t - 1)) at 1 by lia; rewrite Z.pow_add_r by lia; auto).
    pose proof (Z.mod_pos_bound v (2 ^ iw t) ltac:(lia)) as B. pose proof (Z.div_mod v (2 ^ iw t) ltac:(lia)) as D.
    unfold wraps_to, has, conv. cbv zeta. destruct (isg t); cbn [andb].
    - destruct (Z.leb_spec (2 ^ (iw t - 1)) (v mod 2 ^ iw t)); (split; [lia|]).
      + exists (- (v / 2 ^ iw t) - 1). lia.
      + exists (- (v / 2 ^ iw t)). lia.
    - split; [lia|]. exists (- (v / 2 ^ iw t)). lia.
  Qed.
  Lemma wraps_unique v r r' : wraps_to t v r -> wraps_to t v r' -> r = r'.
  Proof.
    pose proof iw_pos as Hw. assert (P : 0 < 2 ^ (iw t - 1)) by (apply Z.pow_pos_nonneg; lia).
    assert (E : 2 ^ iw t = 2 * 2 ^ (iw t - 1)) by (replace (iw t) with (1 + (iw t - 1)) at 1 by lia; rewrite Z.pow_add_r by lia; auto).
    unfold wraps_to, has. intros [H [k ->]] [H' [k' ->]]. enough (k = k') by congruence.
    destruct (isg t); nia.
  Qed.
  Lemma conv_same v : has t v -> conv t v = v.
  Proof. intros H. apply (wraps_unique v); [apply conv_wraps|]. split; auto. exists 0. lia. Qed.
  Lemma conv_conv u v : iw t <= iw u -> conv t (conv u v) = conv t v.
  Proof.
    intros L. pose proof iw_pos. apply (wraps_unique v); [|apply conv_wraps].
    destruct (conv_wraps (conv u v)) as [H1 [k E]]. split; auto.
    assert (Eu : exists j, conv u v = v + j * 2 ^ iw u).
    { unfold conv. cbv zeta. assert (0 < 2 ^ iw u) by (apply Z.pow_pos_nonneg; lia).
      pose proof (Z.div_mod v (2 ^ iw u) ltac:(lia)). destruct (isg u && _); [exists (- (v / 2 ^ iw u) - 1)|exists (- (v / 2 ^ iw u))]; lia. }
    destruct Eu as [j Ej]. exists (k + j * 2 ^ (iw u - iw t)). rewrite E, Ej.
    replace (2 ^ iw u) with (2 ^ (iw u - iw t) * 2 ^ iw t) by (rewrite <- Z.pow_add_r by lia; f_equal; lia). ring.
  Qed.

  (* unsigned types *)
  Hypothesis Hu : isg t = false.
  Lemma ppu_unsigned : isg (ppu_type t) = false /\ promoted (ppu_type t) = ppu_type t /\ iw (ppu_type t) = Z.max 32 (iw t).
  Proof.
    unfold ppu_type, promoted. rewrite Hu. destruct Ht as [H|[H|[H|H]]]; repeat (rewrite H || rewrite Hu || cbn [iw isg uint_t int_t andb negb Z.ltb Z.compare Pos.compare Pos.compare_cont]); auto.
  Qed.
  Lemma ppu_same x : has t x -> ppu t x = x.
  Proof.
    intros H. destruct ppu_unsigned as (S & _ & W). unfold ppu, conv. rewrite S, W. cbn [andb].
    unfold has in H. rewrite Hu in H. apply Z.mod_small. pose proof iw_pos.
    assert (2 ^ iw t <= 2 ^ Z.max 32 (iw t)) by (apply Z.pow_le_mono_r; lia). lia.
  Qed.
  Lemma unsigned_conv v : conv t v = v mod 2 ^ iw t.
  Proof. unfold conv. rewrite Hu. auto. Qed.
  Lemma unsigned_op op x y : has t x -> has t y ->
    cast_to t (c_arith op (ppu_type t) (ppu t x) (ppu t y)) = Some (op x y mod 2 ^ iw t).
  Proof.
    intros Hx Hy. destruct ppu_unsigned as (S & P & W). rewrite !ppu_same by auto. unfold c_arith, result_in. rewrite P, S.
    unfold cast_to. f_equal. rewrite <- unsigned_conv. rewrite <- (conv_conv (ppu_type t) (op x y)) by (rewrite W; lia).
    unfold conv at 3. rewrite S. auto.
  Qed.
  Lemma unsigned_div op x y : (op = Z.quot \/ op = Z.rem) -> has t x -> has t y -> y <> 0 ->
    cast_to t (c_div op (ppu_type t) (ppu t x) (ppu t y)) = Some (op x y mod 2 ^ iw t).
  Proof.
    intros _ Hx Hy N. destruct ppu_unsigned as (S & P & W). rewrite !ppu_same by auto. unfold c_div. rewrite P.
    destruct (Z.eqb_spec y 0); [contradiction|]. unfold result_in. rewrite S. unfold cast_to. f_equal.
    rewrite <- unsigned_conv. rewrite <- (conv_conv (ppu_type t) (op x y)) by (rewrite W; lia).
    unfold conv at 3. rewrite S. auto.
  Qed.
  Lemma unsigned_shl x n : has t x -> 0 <= n < Z.max 32 (iw t) -> s_shift_left t x n = Some ((x * 2 ^ n) mod 2 ^ iw t).
  Proof.
    intros Hx Hn. destruct ppu_unsigned as (S & P & W). unfold s_shift_left, c_shl. rewrite ppu_same, P, W, S by auto.
    destruct (Z.ltb_spec n 0); [lia|]. destruct (Z.leb_spec (Z.max 32 (iw t)) n); [lia|]. cbn [orb cast_to]. f_equal.
    rewrite <- unsigned_conv. rewrite <- (conv_conv (ppu_type t) (x * 2 ^ n)) by (rewrite W; lia).
    unfold conv at 3. rewrite S, W. auto.
  Qed.
  Lemma unsigned_shr x n : has t x -> 0 <= n < Z.max 32 (iw t) -> s_shift_right t x n = Some (x / 2 ^ n).
  Proof.
    intros Hx Hn. destruct ppu_unsigned as (S & P & W). unfold s_shift_right, c_shr. rewrite ppu_same, P, W by auto.
    destruct (Z.ltb_spec n 0); [lia|]. destruct (Z.leb_spec (Z.max 32 (iw t)) n); [lia|]. cbn [orb cast_to]. f_equal.
    apply conv_same. unfold has in *. rewrite Hu in *. assert (0 < 2 ^ n) by (apply Z.pow_pos_nonneg; lia).
    split; [apply Z.div_pos; lia|]. apply Z.div_lt_upper_bound; nia.
  Qed.
  (* ++, --, -, ~: the operand is promoted to int, which has room *)
  Lemma unsigned_direct op x y : has t x -> (iw t < 32 -> - 2 ^ 31 <= op x y < 2 ^ 31) ->
    cast_to t (c_arith op t x y) = Some (op x y mod 2 ^ iw t).
  Proof.
    intros Hx R. unfold c_arith, promoted. destruct (Z.ltb_spec (iw t) 32).
    - unfold result_in. cbn [isg iw int_t]. specialize (R H). change (2 ^ (32 - 1)) with (2 ^ 31).
      destruct (Z.leb_spec (- 2 ^ 31) (op x y)); [|lia]. destruct (Z.ltb_spec (op x y) (2 ^ 31)); [|lia].
      cbn [andb cast_to]. f_equal. apply unsigned_conv.
    - unfold result_in. rewrite Hu. cbn [cast_to]. f_equal. rewrite unsigned_conv. apply Z.mod_mod. pose proof iw_pos. apply Z.pow_nonzero; lia.
  Qed.
End T.

Lemma small_pow t : std_type t -> iw t < 32 -> 0 < 2 ^ iw t <= 2 ^ 16 /\ 0 < 2 ^ (iw t - 1) <= 2 ^ 15.
Proof. intros [H|[H|[H|H]]] L; rewrite H in *; try lia; vm_compute; intuition discriminate. Qed.

Lemma c41_unsigned t x y : std_type t -> isg t = false -> has t x -> has t y ->
  s_plus t x y = Some ((x + y) mod 2 ^ iw t) /\ s_minus t x y = Some ((x - y) mod 2 ^ iw t) /\
  s_multiplies t x y = Some ((x * y) mod 2 ^ iw t) /\
  (forall n, 0 <= n < Z.max 32 (iw t) ->
    s_shift_left t x n = Some ((x * 2 ^ n) mod 2 ^ iw t) /\ s_shift_right t x n = Some (x / 2 ^ n)) /\
  (y <> 0 -> s_divides t x y = Some (x / y) /\ s_modulus t x y = Some (x mod y)) /\
  s_unary_minus t x = Some ((- x) mod 2 ^ iw t) /\ s_complement t x = Some (2 ^ iw t - 1 - x) /\
  s_increment t x = Some ((x + 1) mod 2 ^ iw t) /\ s_decrement t x = Some ((x - 1) mod 2 ^ iw t).
Proof.
  intros Ht Hu Hx Hy.
  split; [apply unsigned_op; auto|]. split; [apply unsigned_op; auto|]. split; [apply unsigned_op; auto|].
  split; [intros n Hn; split; [apply unsigned_shl; auto|apply unsigned_shr; auto]|].
  assert (Rx : 0 <= x < 2 ^ iw t) by (unfold has in Hx; rewrite Hu in Hx; auto).
  assert (Ry : 0 <= y < 2 ^ iw t) by (unfold has in Hy; rewrite Hu in Hy; auto).
  split.
  { intros N. split.
    - unfold s_divides. rewrite unsigned_div by auto. rewrite Z.quot_div_nonneg by lia. f_equal. apply Z.mod_small.
      split; [apply Z.div_pos; lia|]. apply Z.div_lt_upper_bound; nia.
    - unfold s_modulus. rewrite unsigned_div by auto. rewrite Z.rem_mod_nonneg by lia. f_equal. apply Z.mod_small.
      pose proof (Z.mod_pos_bound x y). lia. }
  split. { unfold s_unary_minus. rewrite unsigned_direct; auto. { unfold has. rewrite Hu. lia. } intros L. pose proof (small_pow t Ht L). lia. }
  split. { unfold s_complement. rewrite unsigned_direct; auto.
    - f_equal. unfold Z.lnot. rewrite <- (Z.mod_add _ 1) by lia. rewrite Z.mod_small; lia.
    - unfold has. rewrite Hu. lia.
    - intros L. pose proof (small_pow t Ht L). unfold Z.lnot. lia. }
  split. { unfold s_increment. rewrite unsigned_direct; auto. intros L. pose proof (small_pow t Ht L). lia. }
  unfold s_decrement. rewrite unsigned_direct; auto. intros L. pose proof (small_pow t Ht L). lia.
Qed.

(* bitwise operations *)
Lemma c41_bits t x y : std_type t -> isg t = false -> has t x -> has t y ->
  exists a o e, s_bit_and t x y = Some a /\ s_bit_or t x y = Some o /\ s_bit_xor t x y = Some e /\
    has t a /\ has t o /\ has t e /\
    forall i, 0 <= i < iw t -> Z.testbit a i = Z.testbit x i && Z.testbit y i /\
      Z.testbit o i = Z.testbit x i || Z.testbit y i /\ Z.testbit e i = xorb (Z.testbit x i) (Z.testbit y i).
Proof.
  intros Ht Hu Hx Hy. pose proof (iw_pos t Ht).
  exists (Z.land x y mod 2 ^ iw t), (Z.lor x y mod 2 ^ iw t), (Z.lxor x y mod 2 ^ iw t).
  split; [apply unsigned_op; auto|]. split; [apply unsigned_op; auto|]. split; [apply unsigned_op; auto|].
  unfold has. rewrite Hu. assert (0 < 2 ^ iw t) by (apply Z.pow_pos_nonneg; lia).
  split; [apply Z.mod_pos_bound; auto|]. split; [apply Z.mod_pos_bound; auto|]. split; [apply Z.mod_pos_bound; auto|].
  intros i Hi. rewrite !Z.mod_pow2_bits_low by lia. rewrite Z.land_spec, Z.lor_spec, Z.lxor_spec. auto.
Qed.

(* signed types: undefined exactly if the result does not fit into the promoted
   type; types smaller than int wrap around *)
Lemma signed_ppu t x : std_type t -> isg t = true -> has t x -> ppu_type t = t /\ ppu t x = x.
Proof.
  intros Ht Hs Hx. assert (E : ppu_type t = t) by (unfold ppu_type; rewrite Hs, andb_false_r; auto).
  split; auto. unfold ppu. rewrite E. apply conv_same; auto.
Qed.
Definition fits_promoted (t : ity) (v : Z) : Prop := - 2 ^ (Z.max 32 (iw t) - 1) <= v < 2 ^ (Z.max 32 (iw t) - 1).
Lemma signed_op op t x y : std_type t -> isg t = true -> has t x -> has t y ->
  (fits_promoted t (op x y) -> exists r, cast_to t (c_arith op (ppu_type t) (ppu t x) (ppu t y)) = Some r /\ wraps_to t (op x y) r) /\
  (~ fits_promoted t (op x y) -> cast_to t (c_arith op (ppu_type t) (ppu t x) (ppu t y)) = None).
Proof.
  intros Ht Hs Hx Hy. destruct (signed_ppu t x Ht Hs Hx) as [E ->]. destruct (signed_ppu t y Ht Hs Hy) as [_ ->]. rewrite E.
  assert (P : isg (promoted t) = true /\ iw (promoted t) = Z.max 32 (iw t)).
  { unfold promoted. destruct (Z.ltb_spec (iw t) 32); cbn; split; auto; lia. }
  destruct P as [P1 P2]. unfold c_arith, result_in, fits_promoted. rewrite P1, P2.
  set (B := 2 ^ (Z.max 32 (iw t) - 1)).
  destruct (Z.leb_spec (- B) (op x y)); destruct (Z.ltb_spec (op x y) B); cbn [andb cast_to]; split; intros F; try lia; auto.
  eexists. split; auto. apply conv_wraps; auto.
Qed.
Lemma small_signed_total t x y : std_type t -> isg t = true -> iw t < 32 -> has t x -> has t y ->
  fits_promoted t (x + y) /\ fits_promoted t (x - y) /\ fits_promoted t (x * y).
Proof.
  intros Ht Hs L Hx Hy. pose proof (small_pow t Ht L) as [_ B]. unfold has in *. rewrite Hs in *. unfold fits_promoted.
  rewrite Z.max_l by lia. change (2 ^ (32 - 1)) with (2 * 2 ^ 15 * 2 ^ 15). set (P := 2 ^ (iw t - 1)) in *.
  assert (Q : - (P * P) <= x * y <= P * P) by nia.
  split; [lia|]. split; [lia|]. nia.
Qed.
Lemma c41_signed t x y : std_type t -> isg t = true -> has t x -> has t y ->
  let ok v r := (fits_promoted t v -> exists w, r = Some w /\ wraps_to t v w) /\ (~ fits_promoted t v -> r = None) in
  ok (x + y) (s_plus t x y) /\ ok (x - y) (s_minus t x y) /\ ok (x * y) (s_multiplies t x y) /\
  (iw t < 32 -> fits_promoted t (x + y) /\ fits_promoted t (x - y) /\ fits_promoted t (x * y)).
Proof.
  intros Ht Hs Hx Hy. cbv zeta. split; [apply (signed_op Z.add); auto|]. split; [apply (signed_op Z.sub); auto|].
  split; [apply (signed_op Z.mul); auto|]. intros L. apply small_signed_total; auto.
Qed.
