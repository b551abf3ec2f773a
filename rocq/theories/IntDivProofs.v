From Coq Require Import List ZArith Bool Arith Lia.
From Verif Require Import Prelude X86Lanes X86Bits X86ShiftSpec X86ShiftProofs X86Div X86DivProofs IntDiv IntDivSpec.
Import ListNotations.
Local Open Scope Z_scope.

Lemma nth_map2z (f : Z -> Z -> Z) : forall x y i, length x = length y -> (i < length x)%nat ->
  nth i (map2 f x y) 0 = f (nth i x 0) (nth i y 0).
Proof.
  induction x as [|a x IH]; intros [|b y] i Hl Hi; cbn [length] in *; try lia.
  destruct i; cbn [map2 nth]; auto. apply IH; lia.
Qed.

Lemma undef_iff signed w x y : lane_undef signed w x y = false <-> quotient_ok signed w x y.
Proof.
  unfold lane_undef, quotient_ok.
  destruct (Z.eqb_spec y 0), signed, (Z.eqb_spec x (2 ^ (w - 1))), (Z.eqb_spec y (2 ^ w - 1)); cbn;
    split; intros H; try discriminate; try tauto; split; try tauto; intros (? & ? & ?); try tauto; discriminate.
Qed.

Lemma vec_defined f signed w x y : length x = length y ->
  (forall i, (i < length x)%nat -> quotient_ok signed w (nth i x 0) (nth i y 0)) ->
  vec_divide f signed w x y = Some (map2 f x y).
Proof.
  intros Hl H. unfold vec_divide.
  destruct (existsb _ (combine x y)) eqn:E; auto. exfalso.
  apply existsb_exists in E. destruct E as ([a b] & Hin & E). cbn [fst snd] in E.
  destruct (In_nth _ _ (0, 0) Hin) as (i & Hi & En). rewrite combine_length in Hi.
  rewrite combine_nth in En by auto. injection En as <- <-.
  rewrite (proj2 (undef_iff _ _ _ _) (H i ltac:(lia))) in E. discriminate.
Qed.
Lemma vec_undefined f signed w x y i : length x = length y -> (i < length x)%nat ->
  ~ quotient_ok signed w (nth i x 0) (nth i y 0) -> vec_divide f signed w x y = None.
Proof.
  intros Hl Hi H. unfold vec_divide.
  replace (existsb _ (combine x y)) with true; auto. symmetry. apply existsb_exists.
  exists (nth i x 0, nth i y 0). split.
  - rewrite <- combine_nth by auto. apply nth_In. rewrite combine_length. lia.
  - cbn [fst snd]. destruct (lane_undef signed w (nth i x 0) (nth i y 0)) eqn:E; auto.
    exfalso. apply H, undef_iff; auto.
Qed.

Lemma mpn_len w b n y : length (make_padding_nonzero w b n y) = length y.
Proof. unfold make_padding_nonzero. rewrite map2_length, seq_length. lia. Qed.
Lemma mpn_nth w b n y i : (i < length y)%nat ->
  nth i (make_padding_nonzero w b n y) 0 =
  if Nat.ltb i n then nth i y 0 else Z.lor (nth i y 0) (if b then 1 else 2 ^ w - 1).
Proof.
  intros Hi. unfold make_padding_nonzero.
  assert (G : forall l s i, (i < length l)%nat ->
    nth i (map2 (fun i v => if Nat.ltb i n then v else Z.lor v (if b then 1 else 2 ^ w - 1)) (seq s (length l)) l) 0
    = if Nat.ltb (s + i) n then nth i l 0 else Z.lor (nth i l 0) (if b then 1 else 2 ^ w - 1)).
  { induction l as [|a l IH]; intros s j Hj; cbn [length] in *; [lia|]. cbn [seq map2].
    destruct j; cbn [nth]; [rewrite Nat.add_0_r; auto|]. rewrite IH by lia. rewrite Nat.add_succ_r. auto. }
  apply (G y 0%nat i Hi).
Qed.
Lemma lor_ones w v : 0 < w -> 0 <= v < 2 ^ w -> Z.lor v (2 ^ w - 1) = 2 ^ w - 1.
Proof.
  intros Hw Hv. replace (2 ^ w - 1) with (Z.ones w) by (rewrite Z.ones_equiv; lia).
  apply Z.bits_inj'. intros i Hi. rewrite Z.lor_spec.
  destruct (Z_lt_le_dec i w).
  - rewrite Z.ones_spec_low by lia. apply orb_true_r.
  - rewrite Z.ones_spec_high by lia. rewrite (tb_small v w); auto.
Qed.
Lemma lor1_nz v : 0 <= v -> Z.lor v 1 <> 0.
Proof. intros Hv H. apply Z.lor_eq_0_iff in H. lia. Qed.

Lemma reg_nth w m x i : register w m x -> (i < m)%nat -> 0 <= nth i x 0 < 2 ^ w.
Proof. intros [Hl Hx] Hi. rewrite Forall_forall in Hx. apply Hx, nth_In. lia. Qed.

(* the divisor lanes *)
Definition divisor (bitmask : bool) (w : Z) (n : nat) (y : list Z) : list Z :=
  if (n <? length y)%nat then make_padding_nonzero w bitmask n y else y.
Lemma divisor_len b w n y : length (divisor b w n y) = length y.
Proof. unfold divisor. destruct (n <? length y)%nat; auto. apply mpn_len. Qed.
Lemma divisor_elem b w n y i : (i < n)%nat -> (i < length y)%nat -> nth i (divisor b w n y) 0 = nth i y 0.
Proof.
  intros Hi Hl. unfold divisor. destruct (n <? length y)%nat; auto. rewrite mpn_nth by auto.
  destruct (Nat.ltb_spec i n); auto; lia.
Qed.
Lemma divisor_pad b w n y i : (n <= i < length y)%nat ->
  nth i (divisor b w n y) 0 = Z.lor (nth i y 0) (if b then 1 else 2 ^ w - 1).
Proof.
  intros Hi. unfold divisor. destruct (Nat.ltb_spec n (length y)); [|lia]. rewrite mpn_nth by lia.
  destruct (Nat.ltb_spec i n); auto; lia.
Qed.

Lemma base_general f signed b w n lanes x y : 0 < w -> register w lanes x -> register w lanes y -> (n <= lanes)%nat ->
  (forall i, (i < n)%nat -> quotient_ok signed w (nth i x 0) (nth i y 0)) ->
  (forall i, (n <= i < lanes)%nat -> signed = true -> nth i x 0 <> 2 ^ (w - 1)) ->
  exists q, vec_divide f signed w x (divisor b w n y) = Some q /\ length q = lanes /\
    forall i, (i < n)%nat -> nth i q 0 = f (nth i x 0) (nth i y 0).
Proof.
  intros Hw Hx Hy Hn He Hp. destruct Hx as [Hlx Hx'] eqn:EX, Hy as [Hly Hy'] eqn:EY.
  assert (Hl : length x = length (divisor b w n y)) by (rewrite divisor_len; lia).
  exists (map2 f x (divisor b w n y)). split; [|split].
  - apply vec_defined; auto. intros i Hi. destruct (le_lt_dec n i) as [G|G].
    + rewrite divisor_pad by lia. pose proof (reg_nth w lanes y i Hy ltac:(lia)) as Hr. split.
      * destruct b; [apply lor1_nz; lia|]. rewrite lor_ones by auto. pose proof (Z.pow_gt_1 2 w). lia.
      * intros (Hs & E & _). apply (Hp i); auto. lia.
    + rewrite divisor_elem by lia. auto.
  - rewrite map2_length. lia.
  - intros i Hi. rewrite nth_map2z by lia. rewrite divisor_elem by lia. auto.
Qed.

Lemma c19_defined signed b w n lanes x y : 0 < w -> register w lanes x -> register w lanes y -> (n <= lanes)%nat ->
  (forall i, (i < n)%nat -> quotient_ok signed w (nth i x 0) (nth i y 0)) ->
  (forall i, (n <= i < lanes)%nat -> signed = true -> nth i x 0 <> 2 ^ (w - 1)) ->
  exists q r, base_divides signed b w n x y = Some q /\ base_modulus signed b w n x y = Some r /\
    forall i, (i < n)%nat -> number_of signed w (nth i q 0) = Z.quot (number_of signed w (nth i x 0)) (number_of signed w (nth i y 0)) /\
      number_of signed w (nth i r 0) = Z.rem (number_of signed w (nth i x 0)) (number_of signed w (nth i y 0)).
Proof.
  intros Hw Hx Hy Hn He Hp.
  destruct (base_general (lane_div signed w) signed b w n lanes x y) as (q & Hq & Lq & Eq); auto.
  destruct (base_general (lane_rem signed w) signed b w n lanes x y) as (r & Hr & Lr & Er); auto.
  exists q, r. split; [exact Hq|]. split; [exact Hr|]. intros i Hi. rewrite Eq, Er by auto.
  pose proof (reg_nth w lanes x i Hx ltac:(lia)) as Rx. pose proof (reg_nth w lanes y i Hy ltac:(lia)) as Ry.
  pose proof (He i Hi) as [Hy0 Hov]. unfold lane_div, lane_rem, value, number_of.
  assert (P : 0 < 2 ^ (w - 1)) by (apply Z.pow_pos_nonneg; lia).
  assert (P2 : 2 ^ w = 2 * 2 ^ (w - 1)) by (rewrite <- Z.pow_succ_r by lia; f_equal; lia).
  destruct signed.
  - assert (Sx : - 2 ^ (w - 1) <= sgn w (nth i x 0) < 2 ^ (w - 1)) by (apply sgn_range; auto).
    assert (Sy : - 2 ^ (w - 1) <= sgn w (nth i y 0) < 2 ^ (w - 1)) by (apply sgn_range; auto).
    assert (Ny : sgn w (nth i y 0) <> 0). { unfold sgn. destruct (_ <? _); lia. }
    assert (Nov : ~ (sgn w (nth i x 0) = - 2 ^ (w - 1) /\ sgn w (nth i y 0) = -1)).
    { intros [A B]. apply Hov. split; auto. unfold sgn in A, B.
      destruct (Z.ltb_spec (nth i x 0) (2 ^ (w - 1))), (Z.ltb_spec (nth i y 0) (2 ^ (w - 1))); lia. }
    set (a := sgn w (nth i x 0)) in *. set (c := sgn w (nth i y 0)) in *.
    assert (Ha : Z.abs (Z.quot a c) <= Z.abs a).
    { rewrite <- Z.quot_abs by auto. apply Z.quot_le_upper_bound; [lia|]. nia. }
    split.
    + apply sgn_uns; auto. split; [lia|].
      destruct (Z.eq_dec a (- 2 ^ (w - 1))) as [Ea|Ea]; [|lia].
      destruct (Z_lt_le_dec (Z.quot a c) (2 ^ (w - 1))) as [L|L]; auto. exfalso.
      assert (Hc1 : c <> -1) by (intro; apply Nov; auto).
      assert (Hc2 : c <> 1). { intro E. rewrite E, Z.quot_1_r in L. lia. }
      assert (2 <= Z.abs c) by lia.
      assert (Z.abs (Z.quot a c) <= 2 ^ (w - 1) - 1); [|lia].
      rewrite <- Z.quot_abs by auto. apply Z.lt_le_pred.
      apply Z.quot_lt_upper_bound; [lia|lia|]. nia.
    + apply sgn_uns; auto.
      assert (Z.abs (Z.rem a c) < Z.abs c) by (apply Z.rem_bound_abs; auto).
      assert (Z.abs c <= 2 ^ (w - 1)) by lia. lia.
  - split.
    + unfold uns. apply Z.mod_small. split; [apply Z.quot_pos; lia|].
      apply Z.le_lt_trans with (nth i x 0); [|lia]. apply Z.quot_le_upper_bound; [lia|]. nia.
    + unfold uns. apply Z.mod_small. pose proof (Z.rem_bound_pos (nth i x 0) (nth i y 0)). lia.
Qed.

Lemma nth_broadcast lanes v i : (i < lanes)%nat -> nth i (broadcast lanes v) 0 = v.
Proof.
  unfold broadcast. revert i. induction lanes as [|l IH]; intros i H; [lia|].
  destruct i; cbn [repeat nth]; auto. apply IH. lia.
Qed.
Lemma reg_broadcast w lanes v : 0 <= v < 2 ^ w -> register w lanes (broadcast lanes v).
Proof.
  intros H. split; [apply repeat_length|]. apply Forall_forall. intros a Ha. apply repeat_spec in Ha. subst. auto.
Qed.

Lemma c19_refuted_vec f w n lanes : 0 < w -> (n < lanes)%nat ->
  vec_divide f true w (broadcast lanes (2 ^ (w - 1))) (divisor false w n (broadcast lanes 1)) = None.
Proof.
  intros Hw Hn. assert (Lb : forall v, length (broadcast lanes v) = lanes) by (intros; apply repeat_length).
  apply vec_undefined with (i := n); rewrite ?divisor_len, ?Lb; auto.
  rewrite divisor_pad by (rewrite Lb; lia). rewrite !nth_broadcast by auto.
  rewrite lor_ones; auto.
  - intros [_ H]. apply H. auto.
  - pose proof (Z.pow_gt_1 2 w). lia.
Qed.

(* broadcast -1, then every element set to 1 *)
Lemma set_all_nth (x : list Z) v n i : (n <= length x)%nat ->
  nth i (fold_left (fun y j => set_lane y j v) (seq 0 n) x) 0 = if (i <? n)%nat then v else nth i x 0.
Proof.
  induction n as [|n IH]; intros Hn.
  - cbn. auto.
  - rewrite seq_S, fold_left_app. cbn [fold_left Nat.add]. unfold set_lane at 1.
    assert (L : length (fold_left (fun y j => set_lane y j v) (seq 0 n) x) = length x).
    { clear. generalize (seq 0 n) as s. intros s. revert x. induction s; intros; cbn [fold_left]; auto.
      rewrite IHs. unfold set_lane. apply upd_length. }
    destruct (Nat.eq_dec i n) as [->|Hne].
    + rewrite upd_nth_same by lia. destruct (Nat.ltb_spec n (S n)); auto; lia.
    + rewrite upd_nth_other by auto. rewrite IH by lia.
      destruct (Nat.ltb_spec i n), (Nat.ltb_spec i (S n)); auto; lia.
Qed.
Lemma set_all_len (x : list Z) v s : length (fold_left (fun y j => set_lane y j v) s x) = length x.
Proof. revert x. induction s; intros; cbn [fold_left]; auto. rewrite IHs. apply upd_length. Qed.

Lemma c19_refuted_bitmask f w n lanes : 0 < w -> (n < lanes)%nat ->
  vec_divide f true w (broadcast lanes (2 ^ (w - 1)))
    (divisor true w n (fold_left (fun y j => set_lane y j 1) (seq 0 n) (broadcast lanes (2 ^ w - 1)))) = None.
Proof.
  intros Hw Hn. assert (Lb : forall v, length (broadcast lanes v) = lanes) by (intros; apply repeat_length).
  apply vec_undefined with (i := n); rewrite ?divisor_len, ?set_all_len, ?Lb; auto.
  rewrite divisor_pad by (rewrite set_all_len, Lb; lia).
  rewrite set_all_nth by (rewrite Lb; lia). rewrite Nat.ltb_irrefl, !nth_broadcast by auto.
  replace (Z.lor (2 ^ w - 1) 1) with (2 ^ w - 1).
  - intros [_ H]. apply H. auto.
  - rewrite Z.lor_comm, lor_ones; auto. pose proof (Z.pow_gt_1 2 w). lia.
Qed.

(* masked *)
Lemma nth_map3 (f : bool -> Z -> Z -> Z) : forall k x y i, length k = length x -> length x = length y -> (i < length x)%nat ->
  nth i (map3 f k x y) 0 = f (nth i k false) (nth i x 0) (nth i y 0).
Proof.
  induction k as [|b k IH]; intros [|a x] [|c y] i H1 H2 Hi; cbn [length] in *; try lia.
  destruct i; cbn [map3 nth]; auto. apply IH; lia.
Qed.

Lemma c19_unsigned b w n lanes x y : 0 < w -> (n <= lanes)%nat -> register w lanes x -> register w lanes y ->
  (forall i, (i < n)%nat -> nth i y 0 <> 0) ->
  exists q r, base_divides false b w n x y = Some q /\ base_modulus false b w n x y = Some r /\
    forall i, (i < n)%nat -> nth i q 0 = nth i x 0 / nth i y 0 /\ nth i r 0 = nth i x 0 mod nth i y 0.
Proof.
  intros Hw Hn Hx Hy H. destruct (c19_defined false b w n lanes x y) as (q & r & Hq & Hr & E); auto.
  - intros i Hi. split; auto. intros (? & _). discriminate.
  - discriminate.
  - exists q, r. repeat split; auto; destruct (E i H0) as [A B]; unfold number_of in *;
      pose proof (reg_nth w lanes x i Hx ltac:(lia)); pose proof (reg_nth w lanes y i Hy ltac:(lia)); pose proof (H i H0).
    + rewrite A. apply Z.quot_div_nonneg; lia.
    + rewrite B. apply Z.rem_mod_nonneg; lia.
Qed.
Lemma c19_full signed b w n x y : 0 < w -> register w n x -> register w n y ->
  (forall i, (i < n)%nat -> quotient_ok signed w (nth i x 0) (nth i y 0)) ->
  exists q r, base_divides signed b w n x y = Some q /\ base_modulus signed b w n x y = Some r /\
    forall i, (i < n)%nat ->
      number_of signed w (nth i q 0) = Z.quot (number_of signed w (nth i x 0)) (number_of signed w (nth i y 0)) /\
      number_of signed w (nth i r 0) = Z.rem (number_of signed w (nth i x 0)) (number_of signed w (nth i y 0)).
Proof. intros Hw Hx Hy H. apply c19_defined with n; auto. intros; lia. Qed.
Lemma c19_signed b w n lanes x y : 0 < w -> (n <= lanes)%nat -> register w lanes x -> register w lanes y ->
  (forall i, (i < n)%nat -> quotient_ok true w (nth i x 0) (nth i y 0)) ->
  (forall i, (n <= i < lanes)%nat -> nth i x 0 <> 2 ^ (w - 1)) ->
  exists q r, base_divides true b w n x y = Some q /\ base_modulus true b w n x y = Some r /\
    forall i, (i < n)%nat ->
      sgn w (nth i q 0) = Z.quot (sgn w (nth i x 0)) (sgn w (nth i y 0)) /\
      sgn w (nth i r 0) = Z.rem (sgn w (nth i x 0)) (sgn w (nth i y 0)).
Proof. intros Hw Hn Hx Hy H P. apply (c19_defined true b w n lanes x y); auto. Qed.
Lemma c19_broadcast w n lanes : 1 < w -> (n < lanes)%nat ->
  let x := broadcast lanes (2 ^ (w - 1)) in
  let y := broadcast lanes 1 in
  let y' := fold_left (fun v j => set_lane v j 1) (seq 0 n) (broadcast lanes (2 ^ w - 1)) in
  (forall i, (i < n)%nat -> quotient_ok true w (nth i x 0) (nth i y 0) /\ nth i y' 0 = 1) /\
  base_divides true false w n x y = None /\ base_modulus true false w n x y = None /\
  base_divides true true w n x y' = None /\ base_modulus true true w n x y' = None.
Proof.
  intros Hw Hn x y y'. split; [|split; [|split; [|split]]].
  - intros i Hi. split.
    + unfold x, y. rewrite !nth_broadcast by lia. split; [lia|]. intros (_ & _ & E).
      assert (4 <= 2 ^ w) by (change 4 with (2 ^ 2); apply Z.pow_le_mono_r; lia). lia.
    + unfold y'. rewrite set_all_nth by (unfold broadcast; rewrite repeat_length; lia).
      destruct (Nat.ltb_spec i n); auto; lia.
  - apply c19_refuted_vec; lia.
  - apply c19_refuted_vec; lia.
  - apply c19_refuted_bitmask; lia.
  - apply c19_refuted_bitmask; lia.
Qed.

Lemma c20_scalar signed w k x y : (k = true -> quotient_ok signed w x y) ->
  scalar_masked_cassign (lane_div signed w) signed w k x y = Some (if k then lane_div signed w x y else x) /\
  scalar_masked_cassign (lane_rem signed w) signed w k x y = Some (if k then lane_rem signed w x y else x).
Proof.
  intros H. unfold scalar_masked_cassign. destruct k; auto. rewrite (proj2 (undef_iff _ _ _ _)) by auto. auto.
Qed.

Lemma blend_nth k a b i : length k = length a -> length a = length b -> (i < length a)%nat ->
  nth i (blend k a b) 0 = if nth i k false then nth i b 0 else nth i a 0.
Proof. intros. unfold blend. rewrite nth_map3; auto. Qed.

Lemma masked_ok op kn k x y r n lanes : knows kn n k -> length k = lanes -> length x = lanes -> length r = lanes ->
  (n <= lanes)%nat -> op x y = Some r ->
  exists r', masked_cassign op kn k x y = Some r' /\
    forall i, (i < n)%nat -> nth i r' 0 = if nth i k false then nth i r 0 else nth i x 0.
Proof.
  intros Hk Hlk Hlx Hlr Hn E. destruct kn; cbn [masked_cassign].
  - exists x. split; auto. intros i Hi. rewrite (Hk i Hi). auto.
  - exists r. split; auto. intros i Hi. rewrite (Hk i Hi). auto.
  - rewrite E. exists (blend k x r). split; auto. intros i Hi. apply blend_nth; lia.
Qed.

Lemma c20_x86 mul up signed b w n regbytes lanes kn k x y :
  In w [8; 16; 32] -> In regbytes [16; 32; 64]%nat -> (1 <= n <= lanes)%nat ->
  (forall a b, register w lanes a -> register w lanes b -> length (mul a b) = lanes /\
     forall j, (j < n)%nat -> nth j (mul a b) 0 = (nth j a 0 * nth j b 0) mod 2 ^ w) ->
  register w lanes x -> register w lanes y -> length k = lanes -> knows kn n k ->
  (forall i, (i < n)%nat -> nth i k false = true -> quotient_ok signed w (nth i x 0) (nth i y 0)) ->
  exists q r, x86_masked_divides up signed b w n regbytes kn k x y = Some q /\
    x86_masked_modulus mul up signed b w n regbytes kn k x y = Some r /\
    forall i, (i < n)%nat -> if nth i k false
      then number_of signed w (nth i q 0) = Z.quot (number_of signed w (nth i x 0)) (number_of signed w (nth i y 0)) /\
           number_of signed w (nth i r 0) = Z.rem (number_of signed w (nth i x 0)) (number_of signed w (nth i y 0))
      else nth i q 0 = nth i x 0 /\ nth i r 0 = nth i x 0.
Proof.
  intros Hw Hrb Hn Hm Hx Hy Hk Hkn H.
  assert (Lx : length x = lanes) by apply Hx. assert (Ly : length y = lanes) by apply Hy.
  assert (W : 0 < w) by (destruct Hw as [E|[E|[E|[]]]]; lia).
  set (q := x86_divides up signed b w n regbytes x y).
  assert (Rq : register w lanes q).
  { split; unfold q; [rewrite x86_divides_length; lia|apply x86_divides_ok; auto; lia]. }
  assert (Lr : length (x86_modulus mul up signed b w n regbytes x y) = lanes).
  { unfold x86_modulus. fold q. rewrite map2_length. destruct (Hm y q Hy Rq) as [-> _]. lia. }
  unfold x86_masked_divides, x86_masked_modulus.
  destruct (masked_ok (fun x y => Some (x86_divides up signed b w n regbytes x y)) kn k x y q n lanes) as (q' & Eq & Nq);
    auto; try lia; [apply Rq|].
  destruct (masked_ok (fun x y => Some (x86_modulus mul up signed b w n regbytes x y)) kn k x y
    (x86_modulus mul up signed b w n regbytes x y) n lanes) as (r' & Er & Nr); auto; try lia.
  exists q', r'. split; auto. split; auto. intros i Hi. rewrite Nq, Nr by auto.
  destruct (nth i k false) eqn:E; auto. destruct (H i Hi E) as [H0 H1]. split.
  - apply c23_division with lanes; auto.
  - apply c23_remainder with lanes; auto.
Qed.
Lemma c20_generic signed b w n lanes kn k x y : 0 < w -> (n <= lanes)%nat ->
  register w lanes x -> register w lanes y -> length k = lanes -> knows kn n k ->
  (forall i, (i < n)%nat -> quotient_ok signed w (nth i x 0) (nth i y 0)) ->
  (forall i, (n <= i < lanes)%nat -> signed = true -> nth i x 0 <> 2 ^ (w - 1)) ->
  exists q r, masked_cassign (base_divides signed b w n) kn k x y = Some q /\
    masked_cassign (base_modulus signed b w n) kn k x y = Some r /\
    forall i, (i < n)%nat -> if nth i k false
      then number_of signed w (nth i q 0) = Z.quot (number_of signed w (nth i x 0)) (number_of signed w (nth i y 0)) /\
           number_of signed w (nth i r 0) = Z.rem (number_of signed w (nth i x 0)) (number_of signed w (nth i y 0))
      else nth i q 0 = nth i x 0 /\ nth i r 0 = nth i x 0.
Proof.
  intros Hw Hn Hx Hy Hk Hkn H P.
  destruct (c19_defined signed b w n lanes x y) as (q & r & Hq & Hr & E); auto.
  assert (Lx : length x = lanes) by apply Hx. assert (Ly : length y = lanes) by apply Hy.
  assert (Ld : length (divisor b w n y) = lanes) by (rewrite divisor_len; auto).
  assert (L : forall f z, vec_divide f signed w x (divisor b w n y) = Some z -> length z = lanes).
  { intros f z. unfold vec_divide. destruct (existsb _ _); [discriminate|]. injection 1 as <-. rewrite map2_length. lia. }
  destruct (masked_ok (base_divides signed b w n) kn k x y q n lanes) as (q' & Eq & Nq); eauto.
  destruct (masked_ok (base_modulus signed b w n) kn k x y r n lanes) as (r' & Er & Nr); eauto.
  exists q', r'. split; auto. split; auto. intros i Hi. rewrite Nq, Nr by auto.
  destruct (nth i k false); auto.
Qed.
Lemma c20_unselected signed b w n lanes x y i : 0 < w -> (i < n <= lanes)%nat ->
  register w lanes x -> register w lanes y -> nth i y 0 = 0 ->
  let k := map (fun v => negb (v =? 0)) y in
  nth i k false = false /\
  masked_cassign (base_divides signed b w n) Unknown k x y = None /\
  masked_cassign (base_modulus signed b w n) Unknown k x y = None.
Proof.
  intros Hw Hi Hx Hy H0 k. assert (Lx : length x = lanes) by apply Hx. assert (Ly : length y = lanes) by apply Hy.
  assert (U : forall f, vec_divide f signed w x (divisor b w n y) = None).
  { intros f. apply vec_undefined with (i := i); rewrite ?divisor_len; try lia.
    rewrite divisor_elem by lia. rewrite H0. intros [? _]. lia. }
  split; [|split].
  - unfold k. replace false with (negb (0 =? 0)) by auto. rewrite (map_nth (fun v => negb (v =? 0))), H0. auto.
  - cbn [masked_cassign]. unfold base_divides. fold (divisor b w n y). rewrite U. auto.
  - cbn [masked_cassign]. unfold base_modulus. fold (divisor b w n y). rewrite U. auto.
Qed.
