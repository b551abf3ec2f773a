(* Proofs about division through floating point. *)
From Coq Require Import ZArith List Bool Lia.
From Verif Require Import Prelude X86Lanes X86Bits X86ShiftSpec X86ShiftProofs X86MulProofs X86Div.
Import ListNotations.
Open Scope Z_scope.

(* ratio_log2 is the logarithm *)
Lemma ratio_log2_low n d : 0 < n -> 0 < d -> let k := ratio_log2 n d in
  d * 2 ^ Z.max 0 k <= n * 2 ^ Z.max 0 (- k).
Proof.
  intros Hn Hd k. unfold k, ratio_log2. set (k0 := Z.log2 n - Z.log2 d).
  destruct (Z.ltb_spec (n * 2 ^ Z.max 0 (- k0)) (d * 2 ^ Z.max 0 k0)) as [H|H]; auto.
  pose proof (Z.log2_spec n Hn) as [Ln Un]. pose proof (Z.log2_spec d Hd) as [Ld Ud].
  pose proof (Z.log2_nonneg n) as N0. pose proof (Z.log2_nonneg d) as D0.
  unfold Z.succ in *. unfold k0 in *.
  destruct (Z.le_gt_cases 1 (Z.log2 n - Z.log2 d)).
  - rewrite (Z.max_r 0 (Z.log2 n - Z.log2 d - 1)), (Z.max_l 0 (- (Z.log2 n - Z.log2 d - 1))) by lia.
    assert (d * 2 ^ (Z.log2 n - Z.log2 d - 1) < 2 ^ (Z.log2 d + 1) * 2 ^ (Z.log2 n - Z.log2 d - 1)).
    { apply Z.mul_lt_mono_pos_r; auto. apply Z.pow_pos_nonneg; lia. }
    rewrite <- Z.pow_add_r in H1 by lia. replace (Z.log2 d + 1 + (Z.log2 n - Z.log2 d - 1)) with (Z.log2 n) in H1 by lia. lia.
  - rewrite (Z.max_l 0 (Z.log2 n - Z.log2 d - 1)), (Z.max_r 0 (- (Z.log2 n - Z.log2 d - 1))) by lia.
    assert (2 ^ Z.log2 n * 2 ^ (- (Z.log2 n - Z.log2 d - 1)) <= n * 2 ^ (- (Z.log2 n - Z.log2 d - 1))).
    { apply Z.mul_le_mono_nonneg_r; auto. apply Z.pow_nonneg; lia. }
    rewrite <- Z.pow_add_r in H1 by lia. replace (Z.log2 n + - (Z.log2 n - Z.log2 d - 1)) with (Z.log2 d + 1) in H1 by lia. lia.
Qed.
Lemma ratio_log2_le n d : 0 < n -> 0 < d -> ratio_log2 n d <= Z.log2 n - Z.log2 d.
Proof. intros. unfold ratio_log2. destruct (_ <? _); lia. Qed.
Lemma ratio_log2_high n d : 0 < n -> 0 < d -> let k := ratio_log2 n d + 1 in
  n * 2 ^ Z.max 0 (- k) < d * 2 ^ Z.max 0 k.
Proof.
  intros Hn Hd k. unfold k, ratio_log2. set (k0 := Z.log2 n - Z.log2 d).
  destruct (Z.ltb_spec (n * 2 ^ Z.max 0 (- k0)) (d * 2 ^ Z.max 0 k0)) as [H|H].
  { replace (k0 - 1 + 1) with k0 by lia. auto. }
  pose proof (Z.log2_spec n Hn) as [Ln Un]. pose proof (Z.log2_spec d Hd) as [Ld Ud].
  pose proof (Z.log2_nonneg n) as N0. pose proof (Z.log2_nonneg d) as D0. unfold Z.succ in *. unfold k0 in *.
  destruct (Z.le_gt_cases 0 (Z.log2 n - Z.log2 d + 1)).
  - rewrite (Z.max_r 0 (Z.log2 n - Z.log2 d + 1)), (Z.max_l 0 (- (Z.log2 n - Z.log2 d + 1))) by lia.
    assert (2 ^ Z.log2 d * 2 ^ (Z.log2 n - Z.log2 d + 1) <= d * 2 ^ (Z.log2 n - Z.log2 d + 1)).
    { apply Z.mul_le_mono_nonneg_r; auto. apply Z.pow_nonneg; lia. }
    rewrite <- Z.pow_add_r in H1 by lia. replace (Z.log2 d + (Z.log2 n - Z.log2 d + 1)) with (Z.log2 n + 1) in H1 by lia. lia.
  - rewrite (Z.max_l 0 (Z.log2 n - Z.log2 d + 1)), (Z.max_r 0 (- (Z.log2 n - Z.log2 d + 1))) by lia.
    assert (n * 2 ^ (- (Z.log2 n - Z.log2 d + 1)) < 2 ^ (Z.log2 n + 1) * 2 ^ (- (Z.log2 n - Z.log2 d + 1))).
    { apply Z.mul_lt_mono_pos_r; auto. apply Z.pow_pos_nonneg; lia. }
    rewrite <- Z.pow_add_r in H1 by lia. replace (Z.log2 n + 1 + - (Z.log2 n - Z.log2 d + 1)) with (Z.log2 d) in H1 by lia. lia.
Qed.

(* Sanity of the model: the significand has p bits (or is the next power of
   two after rounding up), and the result is exact or a neighbour. *)
Lemma round_ratio_normal up p n d : 0 < p -> 0 < n -> 0 < d ->
  let s := p - 1 - ratio_log2 n d in
  let '(m, e) := round_ratio up p n d in
  e = - s /\ 2 ^ (p - 1) <= m <= 2 ^ p /\
  let num := n * 2 ^ Z.max 0 s in let den := d * 2 ^ Z.max 0 (- s) in
  (m - 1) * den < num < (m + 1) * den /\ (num mod den = 0 -> m * den = num).
Proof.
  intros Hp Hn Hd s. unfold round_ratio. destruct (Z.eqb_spec n 0); [lia|]. fold s. cbv zeta.
  set (num := n * 2 ^ Z.max 0 s). set (den := d * 2 ^ Z.max 0 (- s)).
  assert (Hden : 0 < den) by (apply Z.mul_pos_pos; auto; apply Z.pow_pos_nonneg; lia).
  pose proof (Z.div_mod num den ltac:(lia)) as E. pose proof (Z.mod_pos_bound num den Hden) as B.
  pose proof (ratio_log2_low n d Hn Hd) as Lo. pose proof (ratio_log2_high n d Hn Hd) as Hi. cbv zeta in Lo, Hi.
  set (k := ratio_log2 n d) in *. assert (Hs : s = p - 1 - k) by reflexivity. clearbody s.
  (* den * 2^(p-1) <= num < den * 2^p *)
  assert (L : den * 2 ^ (p - 1) <= num).
  { apply Z.mul_le_mono_pos_r with (2 ^ Z.max 0 (- k) * 2 ^ Z.max 0 k). { apply Z.mul_pos_pos; apply Z.pow_pos_nonneg; lia. }
    unfold num, den.
    replace (d * 2 ^ Z.max 0 (- s) * 2 ^ (p - 1) * (2 ^ Z.max 0 (- k) * 2 ^ Z.max 0 k))
      with ((d * 2 ^ Z.max 0 k) * 2 ^ (Z.max 0 (- s) + (p - 1) + Z.max 0 (- k))) by (rewrite !Z.pow_add_r by lia; ring).
    replace (n * 2 ^ Z.max 0 s * (2 ^ Z.max 0 (- k) * 2 ^ Z.max 0 k))
      with ((n * 2 ^ Z.max 0 (- k)) * 2 ^ (Z.max 0 s + Z.max 0 k)) by (rewrite !Z.pow_add_r by lia; ring).
    replace (Z.max 0 (- s) + (p - 1) + Z.max 0 (- k)) with (Z.max 0 s + Z.max 0 k) by lia.
    apply Z.mul_le_mono_nonneg_r; auto. apply Z.pow_nonneg; lia. }
  assert (U : num < den * 2 ^ p).
  { apply Z.mul_lt_mono_pos_r with (2 ^ Z.max 0 (- (k + 1)) * 2 ^ Z.max 0 (k + 1)). { apply Z.mul_pos_pos; apply Z.pow_pos_nonneg; lia. }
    unfold num, den.
    replace (d * 2 ^ Z.max 0 (- s) * 2 ^ p * (2 ^ Z.max 0 (- (k + 1)) * 2 ^ Z.max 0 (k + 1)))
      with ((d * 2 ^ Z.max 0 (k + 1)) * 2 ^ (Z.max 0 (- s) + p + Z.max 0 (- (k + 1)))) by (rewrite !Z.pow_add_r by lia; ring).
    replace (n * 2 ^ Z.max 0 s * (2 ^ Z.max 0 (- (k + 1)) * 2 ^ Z.max 0 (k + 1)))
      with ((n * 2 ^ Z.max 0 (- (k + 1))) * 2 ^ (Z.max 0 s + Z.max 0 (k + 1))) by (rewrite !Z.pow_add_r by lia; ring).
    replace (Z.max 0 (- s) + p + Z.max 0 (- (k + 1))) with (Z.max 0 s + Z.max 0 (k + 1)) by lia.
    apply Z.mul_lt_mono_pos_r; auto. apply Z.pow_pos_nonneg; lia. }
  clearbody num den. clear Lo Hi. assert (P : 0 < 2 ^ p) by (apply Z.pow_pos_nonneg; lia).
  assert (M1 : 2 ^ (p - 1) <= num / den) by (apply Z.div_le_lower_bound; lia).
  assert (M2 : num / den < 2 ^ p) by (apply Z.div_lt_upper_bound; lia).
  split; auto. destruct (Z.eqb_spec (num mod den) 0); [|destruct (up n d)]; (split; [lia|]); split; try lia; nia.
Qed.

(* integers of at most p bits are exact *)
Lemma round_ratio_one up p n : 0 < p -> 0 <= n < 2 ^ p -> let '(m, e) := round_ratio up p n 1 in
  e <= 0 /\ n * 2 ^ (- e) = m.
Proof.
  intros Hp Hn. destruct (Z.eq_dec n 0) as [->|]; [cbn; lia|].
  pose proof (round_ratio_normal up p n 1 Hp ltac:(lia) ltac:(lia)) as H. cbv zeta in H.
  assert (K : ratio_log2 n 1 <= p - 1).
  { pose proof (ratio_log2_le n 1 ltac:(lia) ltac:(lia)). change (Z.log2 1) with 0 in H0.
    assert (Z.log2 n < p) by (apply Z.log2_lt_pow2; lia). lia. }
  destruct (round_ratio up p n 1) as [m e]. destruct H as (-> & _ & _ & H).
  split; [lia|]. rewrite (Z.max_l 0 (- _)), Z.mul_1_l in H by lia. rewrite (Z.max_r 0) in H by lia.
  change (2 ^ 0) with 1 in H. rewrite Z.mod_1_r, Z.mul_1_r in H. rewrite Z.opp_involutive. symmetry. apply H. auto.
Qed.

(* the quotient *)
Lemma round_ratio_trunc up p b n d : 0 < b <= p - 1 -> 0 <= n < 2 ^ b -> 0 < d < 2 ^ b ->
  let '(m, e) := round_ratio up p n d in e <= 0 /\ 0 <= m /\ m / 2 ^ (- e) = n / d.
Proof.
  intros Hb Hn Hd. destruct (Z.eq_dec n 0) as [->|]; [cbn; split; [lia|split; lia]|].
  pose proof (round_ratio_normal up p n d ltac:(lia) ltac:(lia) ltac:(lia)) as H. cbv zeta in H.
  pose proof (ratio_log2_low n d ltac:(lia) ltac:(lia)) as Lo. cbv zeta in Lo.
  assert (K : ratio_log2 n d <= b - 1).
  { pose proof (ratio_log2_le n d ltac:(lia) ltac:(lia)). pose proof (Z.log2_nonneg d).
    assert (Z.log2 n < b) by (apply Z.log2_lt_pow2; lia). lia. }
  set (k := ratio_log2 n d) in *. clearbody k. destruct (round_ratio up p n d) as [m e].
  destruct H as (-> & _ & [H1 H2] & Hex). rewrite (Z.max_r 0 (p - 1 - k)) in * by lia.
  rewrite (Z.max_l 0 (- (p - 1 - k))) in * by lia. rewrite Z.opp_involutive. set (s := p - 1 - k) in *.
  rewrite Z.pow_0_r, Z.mul_1_r in *.
  assert (Hs : 0 <= s) by lia. pose proof (Z.pow_pos_nonneg 2 s ltac:(lia) Hs) as Ps.
  (* d < 2^s *)
  assert (Ds : d < 2 ^ s).
  { destruct (Z.le_gt_cases 0 k).
    - rewrite (Z.max_r 0 k), (Z.max_l 0 (- k)) in Lo by lia. rewrite Z.pow_0_r, Z.mul_1_r in Lo.
      assert (2 ^ b <= 2 ^ s * 2 ^ k) by (rewrite <- Z.pow_add_r by lia; apply Z.pow_le_mono_r; lia).
      pose proof (Z.pow_pos_nonneg 2 k ltac:(lia) ltac:(lia)). nia.
    - assert (2 ^ b <= 2 ^ s) by (apply Z.pow_le_mono_r; lia). lia. }
  pose proof (Z.div_mod n d ltac:(lia)) as E. pose proof (Z.mod_pos_bound n d ltac:(lia)) as B.
  set (q := n / d) in *. assert (Q0 : 0 <= q) by (apply Z.div_pos; lia).
  assert (M : q * 2 ^ s <= m).
  { assert ((q * 2 ^ s - 1) * d < m * d + d - d); [|nia].
    destruct (Z.eq_dec ((n * 2 ^ s) mod d) 0) as [Ez|Ez].
    - specialize (Hex Ez). nia.
    - assert (q * 2 ^ s * d <= n * 2 ^ s) by nia. nia. }
  split; [lia|]. split; [nia|]. symmetry. apply (Z.div_unique m (2 ^ s) q (m - 2 ^ s * q)); [|lia]. left. split; [lia|].
  assert (m < (q + 1) * 2 ^ s); [|lia].
  destruct (Z.eq_dec ((n * 2 ^ s) mod d) 0) as [Ez|Ez].
  - specialize (Hex Ez). assert (m * d < (q + 1) * 2 ^ s * d); [|nia]. rewrite Hex. nia.
  - assert ((m - 1) * d + d < (q + 1) * 2 ^ s * d); [|nia].
    assert (n + 1 <= (q + 1) * d) by nia. nia.
Qed.

(* scaling both operands by a power of two changes nothing *)
Lemma ratio_log2_scale n d t : 0 < n -> 0 < d -> 0 <= t -> ratio_log2 (n * 2 ^ t) (d * 2 ^ t) = ratio_log2 n d.
Proof.
  intros Hn Hd Ht. unfold ratio_log2. rewrite !Z.log2_mul_pow2 by lia.
  replace (t + Z.log2 n - (t + Z.log2 d)) with (Z.log2 n - Z.log2 d) by lia. set (k := Z.log2 n - Z.log2 d).
  pose proof (Z.pow_pos_nonneg 2 t ltac:(lia) Ht) as P.
  replace (n * 2 ^ t * 2 ^ Z.max 0 (- k)) with (2 ^ t * (n * 2 ^ Z.max 0 (- k))) by ring.
  replace (d * 2 ^ t * 2 ^ Z.max 0 k) with (2 ^ t * (d * 2 ^ Z.max 0 k)) by ring.
  set (A := n * 2 ^ Z.max 0 (- k)). set (B := d * 2 ^ Z.max 0 k). clearbody A B.
  destruct (Z.ltb_spec A B), (Z.ltb_spec (2 ^ t * A) (2 ^ t * B)); auto; nia.
Qed.
Lemma round_ratio_scale up p n d t : 0 <= n -> 0 < d -> 0 <= t ->
  round_ratio up p (n * 2 ^ t) (d * 2 ^ t) = round_ratio (fun a b => up (a * 2 ^ t) (b * 2 ^ t)) p n d.
Proof.
  intros Hn Hd Ht. pose proof (Z.pow_pos_nonneg 2 t ltac:(lia) Ht) as P. unfold round_ratio.
  destruct (Z.eqb_spec n 0) as [->|Hn0]; [reflexivity|]. destruct (Z.eqb_spec (n * 2 ^ t) 0); [nia|].
  rewrite ratio_log2_scale by lia. set (s := p - 1 - ratio_log2 n d). cbv zeta.
  replace (n * 2 ^ t * 2 ^ Z.max 0 s) with (n * 2 ^ Z.max 0 s * 2 ^ t) by ring.
  replace (d * 2 ^ t * 2 ^ Z.max 0 (- s)) with (d * 2 ^ Z.max 0 (- s) * 2 ^ t) by ring.
  assert (Pd : 0 < d * 2 ^ Z.max 0 (- s)) by (apply Z.mul_pos_pos; auto; apply Z.pow_pos_nonneg; lia).
  set (A := n * 2 ^ Z.max 0 s). set (B := d * 2 ^ Z.max 0 (- s)) in *. clearbody A B.
  rewrite Z.div_mul_cancel_r by lia. rewrite Z.mul_mod_distr_r by lia.
  destruct (Z.eqb_spec (A mod B) 0), (Z.eqb_spec (A mod B * 2 ^ t) 0); auto; nia.
Qed.

Lemma quot_signs x y : y <> 0 -> Z.quot x y = Z.sgn x * Z.sgn y * (Z.abs x / Z.abs y).
Proof. intros H. rewrite Z.quot_div by auto. lia. Qed.
Lemma quot_sgn_mul c m d : 0 < d -> 0 <= m -> (c = 1 \/ c = -1 \/ c = 0) -> Z.quot (c * m) d = c * (m / d).
Proof.
  intros Hd Hm [E|[E|E]]; rewrite E.
  - rewrite !Z.mul_1_l. apply Z.quot_div_nonneg; lia.
  - replace (-1 * m) with (- m) by lia. rewrite Z.quot_opp_l by lia. rewrite Z.quot_div_nonneg by lia. lia.
  - rewrite !Z.mul_0_l. apply Z.quot_0_l. lia.
Qed.
Lemma sgn_scale x s : 0 < s -> Z.sgn (x * s) = Z.sgn x.
Proof. intros. rewrite Z.sgn_mul, (Z.sgn_pos s) by auto. lia. Qed.

Lemma fdiv_trunc up p b x y : 0 < b <= p - 1 -> Z.abs x < 2 ^ b -> Z.abs y < 2 ^ b -> y <> 0 ->
  to_int (fdiv up p (of_int up p x) (of_int up p y)) = Z.quot x y.
Proof.
  intros Hb Hx Hy Hy0. unfold of_int, round_signed. change (Z.abs 1) with 1. change (Z.sgn 1) with 1.
  assert (Pb : 2 ^ b <= 2 ^ p) by (apply Z.pow_le_mono_r; lia).
  pose proof (round_ratio_one up p (Z.abs x) ltac:(lia) ltac:(lia)) as Ex.
  pose proof (round_ratio_one up p (Z.abs y) ltac:(lia) ltac:(lia)) as Ey.
  destruct (round_ratio up p (Z.abs x) 1) as [mx ex]. destruct (round_ratio up p (Z.abs y) 1) as [my ey].
  destruct Ex as [Ex0 Ex]. destruct Ey as [Ey0 Ey]. rewrite !Z.mul_1_r. unfold fdiv.
  replace (Z.sgn x * mx) with (x * 2 ^ (- ex)) by (rewrite <- Ex, Z.mul_assoc; f_equal; lia).
  replace (Z.sgn y * my) with (y * 2 ^ (- ey)) by (rewrite <- Ey, Z.mul_assoc; f_equal; lia).
  rewrite <- !Z.mul_assoc, <- !Z.pow_add_r by lia.
  replace (- ey + Z.max 0 (ey - ex)) with (- ex + Z.max 0 (ex - ey)) by lia. set (t := - ex + Z.max 0 (ex - ey)).
  assert (Ht : 0 <= t) by lia. clearbody t. clear mx my ex ey Ex Ey Ex0 Ey0.
  pose proof (Z.pow_pos_nonneg 2 t ltac:(lia) Ht) as P. unfold round_signed.
  rewrite !Z.abs_mul, (Z.abs_eq (2 ^ t)) by lia. rewrite round_ratio_scale by lia. rewrite !sgn_scale by lia.
  pose proof (round_ratio_trunc (fun a b => up (a * 2 ^ t) (b * 2 ^ t)) p b (Z.abs x) (Z.abs y) Hb ltac:(lia) ltac:(lia)) as T.
  destruct (round_ratio _ p (Z.abs x) (Z.abs y)) as [m e]. destruct T as (He & Hm & T). unfold to_int.
  rewrite (quot_signs x y) by auto. rewrite <- T.
  assert (C : Z.sgn x * Z.sgn y = 1 \/ Z.sgn x * Z.sgn y = -1 \/ Z.sgn x * Z.sgn y = 0) by (destruct x, y; cbn; auto).
  destruct (Z.leb_spec 0 e).
  - assert (e = 0) as -> by lia. change (2 ^ - 0) with 1. change (2 ^ 0) with 1. rewrite Z.div_1_r. lia.
  - apply quot_sgn_mul; auto. apply Z.pow_pos_nonneg; lia.
Qed.

(* one lane *)
Lemma value_range (s : bool) w v : 0 < w -> lane_ok w v ->
  if s then - 2 ^ (w - 1) <= value s w v < 2 ^ (w - 1) else 0 <= value s w v < 2 ^ w.
Proof. intros Hw H. destruct s; [apply sgn_range; auto|auto]. Qed.
Lemma value_abs s w v : 0 < w -> lane_ok w v -> Z.abs (value s w v) < 2 ^ w.
Proof.
  intros Hw H. pose proof (value_range s w v Hw H) as R.
  replace (2 ^ w) with (2 * 2 ^ (w - 1)) in * by (rewrite <- Z.pow_succ_r by lia; f_equal; lia).
  pose proof (Z.pow_pos_nonneg 2 (w - 1) ltac:(lia) ltac:(lia)). destruct s; lia.
Qed.
Lemma value_zero s w v : 0 < w -> lane_ok w v -> value s w v = 0 -> v = 0.
Proof.
  intros Hw [H0 H1]. unfold value, sgn. destruct s; auto.
  replace (2 ^ w) with (2 * 2 ^ (w - 1)) in * by (rewrite <- Z.pow_succ_r by lia; f_equal; lia).
  destruct (Z.ltb_spec v (2 ^ (w - 1))); lia.
Qed.
Lemma div_lane_spec up s w x y : In w [8; 16; 32] -> lane_ok w x -> lane_ok w y -> y <> 0 ->
  div_lane up s w x y = uns w (Z.quot (value s w x) (value s w y)).
Proof.
  intros Hw Hx Hy Hy0. unfold div_lane. f_equal. assert (W : 0 < w /\ w <= precision w - 1).
  { destruct Hw as [E|[E|[E|[]]]]; rewrite <- E; cbn; lia. }
  destruct W as [W1 W2]. apply (fdiv_trunc up _ w); auto using value_abs.
  intros E. apply Hy0. eapply value_zero; eauto.
Qed.

(* the pieces *)
Lemma firstn_add {A} j k : forall (l : list A), firstn (j + k) l = firstn j l ++ firstn k (skipn j l).
Proof. induction j as [|j IH]; intros [|a l]; cbn; rewrite ?firstn_nil; auto. f_equal. auto. Qed.
Lemma skipn_add {A} j k : forall (l : list A), skipn (j + k) l = skipn k (skipn j l).
Proof. induction j as [|j IH]; intros [|a l]; cbn; rewrite ?skipn_nil; auto. Qed.
Lemma pieces_concat k : forall m a (l : list Z),
  concat (map (fun i => firstn k (skipn (i * k) l)) (seq a m)) = firstn (m * k) (skipn (a * k) l).
Proof.
  induction m as [|m IH]; intros a l; auto. cbn [seq map concat]. rewrite IH.
  replace (S m * k)%nat with (k + m * k)%nat by lia. replace (S a * k)%nat with (a * k + k)%nat by lia.
  rewrite firstn_add, skipn_add. auto.
Qed.
Lemma map2_firstn {A B C} (f : A -> B -> C) : forall k a b, map2 f (firstn k a) (firstn k b) = firstn k (map2 f a b).
Proof. induction k as [|k IH]; intros [|x a] [|y b]; cbn; auto. f_equal. auto. Qed.
Lemma map2_skipn {A B C} (f : A -> B -> C) : forall k a b, length a = length b -> map2 f (skipn k a) (skipn k b) = skipn k (map2 f a b).
Proof. induction k as [|k IH]; intros [|x a] [|y b] H; cbn; auto; try discriminate. Qed.
Lemma map2_pieces (f : Z -> Z -> Z) k m x y : length x = length y ->
  map2 (map2 f) (pieces k m x) (pieces k m y) = pieces k m (map2 f x y).
Proof.
  intros H. unfold pieces. induction (seq 0 m) as [|i l IH]; cbn; auto.
  rewrite IH, map2_firstn, map2_skipn by auto. auto.
Qed.
Lemma pieces_lanes f k m x y i : length x = length y -> (i < m * k)%nat -> (i < length x)%nat ->
  nth i (concat (map2 (map2 f) (pieces k m x) (pieces k m y))) 0 = f (nth i x 0) (nth i y 0).
Proof.
  intros Hl Hi Hx. rewrite map2_pieces by auto. unfold pieces. rewrite pieces_concat. cbn [Nat.mul skipn].
  rewrite <- (map2_nth f x y i 0 0 0) by lia. rewrite <- (firstn_skipn (m * k) (map2 f x y)) at 2.
  rewrite app_nth1; auto. rewrite firstn_length, map2_length. lia.
Qed.

Lemma nonzero_length w bm n y : length (make_padding_nonzero w bm n y) = length y.
Proof. unfold make_padding_nonzero. rewrite map2_length, seq_length. lia. Qed.
Lemma nonzero_nth w bm n y i : (i < length y)%nat -> nth i (make_padding_nonzero w bm n y) 0 =
  if Nat.ltb i n then nth i y 0 else Z.lor (nth i y 0) (if bm then 1 else 2 ^ w - 1).
Proof.
  intros H. unfold make_padding_nonzero. rewrite (map2_nth _ _ _ i 0%nat 0) by (rewrite ?seq_length; lia).
  rewrite seq_nth by lia. auto.
Qed.
(* no lane of the divisor is zero *)
Lemma nonzero_padding w bm n y i : 0 < w -> (n <= i < length y)%nat -> 0 <= nth i y 0 -> nth i (make_padding_nonzero w bm n y) 0 <> 0.
Proof.
  intros Hw Hi Hy. rewrite nonzero_nth by lia. destruct (Nat.ltb_spec i n); [lia|]. intros E. apply Z.lor_eq_0_iff in E as [_ E].
  destruct bm; [lia|]. assert (1 < 2 ^ w) by (apply Z.pow_gt_1; lia). lia.
Qed.

Lemma piece_count n regbytes w : (1 <= n)%nat -> (16 <= regbytes)%nat ->
  let k := Nat.min n (regbytes / (if (w =? 32)%Z then 8 else 4)) in (1 <= k)%nat /\ (n <= div_roundup n k * k)%nat.
Proof.
  intros Hn Hr k. assert (Hk : (1 <= k)%nat).
  { unfold k. assert (2 <= regbytes / (if (w =? 32)%Z then 8 else 4))%nat; [|lia].
    destruct (w =? 32); apply Nat.div_le_lower_bound; lia. }
  split; auto. unfold div_roundup. pose proof (Nat.div_mod (n + k - 1) k ltac:(lia)).
  pose proof (Nat.mod_upper_bound (n + k - 1) k ltac:(lia)). nia.
Qed.

Lemma x86_divides_form up s bm w n rb x y : length x = length y -> exists t, x86_divides up s bm w n rb x y =
  firstn t (map2 (div_lane up s w) x (make_padding_nonzero w bm n y)) ++ repeat 0 (length x - Nat.min t (length x)).
Proof.
  intros Hl. unfold x86_divides. cbv zeta. set (k := Nat.min n _). set (m := div_roundup n k). exists (m * k)%nat.
  rewrite map2_pieces by (rewrite nonzero_length; auto). unfold pieces. rewrite pieces_concat.
  cbn [Nat.mul skipn]. rewrite firstn_length, map2_length, nonzero_length, <- Hl, Nat.min_id. auto.
Qed.
Lemma x86_divides_length up s bm w n rb x y : length x = length y -> length (x86_divides up s bm w n rb x y) = length x.
Proof.
  intros Hl. destruct (x86_divides_form up s bm w n rb x y Hl) as [t ->].
  rewrite app_length, repeat_length, firstn_length, map2_length, nonzero_length. lia.
Qed.
Lemma x86_divides_ok up s bm w n rb x y : 0 < w -> length x = length y -> Forall (lane_ok w) (x86_divides up s bm w n rb x y).
Proof.
  intros Hw Hl. destruct (x86_divides_form up s bm w n rb x y Hl) as [t ->]. apply Forall_app. split.
  - apply Forall_forall. intros v Hv. assert (In v (map2 (div_lane up s w) x (make_padding_nonzero w bm n y))).
    { rewrite <- (firstn_skipn t). apply in_or_app. auto. }
    apply (In_nth _ _ 0) in H as (j & Hj & <-). rewrite map2_length, nonzero_length in Hj.
    rewrite (map2_nth _ _ _ j 0 0) by (rewrite ?nonzero_length; lia). apply lane_mod. lia.
  - apply Forall_forall. intros v Hv. apply repeat_spec in Hv. subst. split; [lia|apply Z.pow_pos_nonneg; lia].
Qed.
Lemma x86_divides_lane up s bm w n rb x y i : In w [8; 16; 32] -> (16 <= rb)%nat ->
  length x = length y -> (i < n <= length x)%nat -> Forall (lane_ok w) x -> Forall (lane_ok w) y -> nth i y 0 <> 0 ->
  nth i (x86_divides up s bm w n rb x y) 0 = uns w (Z.quot (value s w (nth i x 0)) (value s w (nth i y 0))).
Proof.
  intros Hw Hrb Hl Hi Hx Hy Hy0. unfold x86_divides. cbv zeta.
  destruct (piece_count n rb w ltac:(lia) Hrb) as [Hk Hm]. cbv zeta in Hk, Hm.
  rewrite app_nth1. 2:{ rewrite map2_pieces by (rewrite nonzero_length; auto). unfold pieces. rewrite pieces_concat.
    cbn [Nat.mul skipn]. rewrite firstn_length, map2_length, nonzero_length. lia. }
  rewrite pieces_lanes by (rewrite ?nonzero_length; lia). rewrite nonzero_nth by lia.
  destruct (Nat.ltb_spec i n); [|lia]. apply div_lane_spec; auto.
  - rewrite Forall_forall in Hx. apply Hx, nth_In. lia.
  - rewrite Forall_forall in Hy. apply Hy, nth_In. lia.
Qed.

Lemma value_eqm s w v : exists k, value s w v = v + k * 2 ^ w.
Proof. destruct s; [apply X86MulProofs.sgn_eqm|exists 0; cbn; lia]. Qed.
Lemma x86_modulus_lane mul up s bm w n rb x y i : In w [8; 16; 32] -> (16 <= rb)%nat ->
  (forall a b, register w (length x) a -> register w (length x) b -> length (mul a b) = length x /\
     forall j, (j < n)%nat -> nth j (mul a b) 0 = (nth j a 0 * nth j b 0) mod 2 ^ w) ->
  length x = length y -> (i < n <= length x)%nat -> Forall (lane_ok w) x -> Forall (lane_ok w) y -> nth i y 0 <> 0 ->
  nth i (x86_modulus mul up s bm w n rb x y) 0 = uns w (Z.rem (value s w (nth i x 0)) (value s w (nth i y 0))).
Proof.
  intros Hw Hrb Hmul Hl Hi Hx Hy Hy0. set (q := x86_divides up s bm w n rb x y).
  assert (W : 0 < w) by (destruct Hw as [E|[E|[E|[]]]]; lia).
  assert (Lq : nth i q 0 = uns w (Z.quot (value s w (nth i x 0)) (value s w (nth i y 0)))) by (apply x86_divides_lane; auto).
  destruct (Hmul y q) as [Hml Hmn].
  { split; auto. } { split; [apply x86_divides_length; auto|apply x86_divides_ok; auto]. }
  unfold x86_modulus. fold q. rewrite (map2_nth _ _ _ i 0 0) by lia. rewrite Hmn, Lq by lia.
  destruct (value_eqm s w (nth i x 0)) as [a Ea]. destruct (value_eqm s w (nth i y 0)) as [b Eb].
  set (X := nth i x 0) in *. set (Y := nth i y 0) in *. set (VX := value s w X) in *. set (VY := value s w Y) in *.
  pose proof (Z.quot_rem' VX VY) as E. unfold uns.
  rewrite Zminus_mod_idemp_r. rewrite Zminus_mod, Zmult_mod_idemp_r, <- Zminus_mod.
  apply X86MulProofs.eqm_mod. exists (- a + b * (VX ÷ VY)). lia.
Qed.

(* back to numbers *)
Lemma value_uns (s : bool) w v : 0 < w -> (if s then - 2 ^ (w - 1) <= v < 2 ^ (w - 1) else 0 <= v < 2 ^ w) -> value s w (uns w v) = v.
Proof. intros Hw H. destruct s; cbn; [apply sgn_uns; auto|apply Z.mod_small; auto]. Qed.
Lemma quot_range (s : bool) w x y : 0 < w -> lane_ok w x -> lane_ok w y -> y <> 0 ->
  ~ (s = true /\ x = 2 ^ (w - 1) /\ y = 2 ^ w - 1) ->
  let q := Z.quot (value s w x) (value s w y) in
  if s then - 2 ^ (w - 1) <= q < 2 ^ (w - 1) else 0 <= q < 2 ^ w.
Proof.
  intros Hw Hx Hy Hy0 Hno q. pose proof (value_range s w x Hw Hx) as Rx. pose proof (value_range s w y Hw Hy) as Ry.
  assert (Vy : value s w y <> 0) by (intros E; apply Hy0; eapply value_zero; eauto).
  assert (Q : Z.abs q <= Z.abs (value s w x)).
  { unfold q. rewrite <- Z.quot_abs by auto. rewrite Z.quot_div_nonneg by lia. apply Z.div_le_upper_bound; nia. }
  destruct s.
  - assert (P : 2 ^ w = 2 * 2 ^ (w - 1)) by (rewrite <- Z.pow_succ_r by lia; f_equal; lia).
    destruct (Z.eq_dec q (2 ^ (w - 1))); [|lia]. exfalso.
    assert (Ex : value true w x = - 2 ^ (w - 1)) by lia.
    assert (Ey : value true w y = -1).
    { pose proof (Z.quot_rem' (value true w x) (value true w y)) as E. fold q in E.
      pose proof (Z.rem_bound_abs (value true w x) (value true w y) Vy). nia. }
    apply Hno. split; auto. cbn in Ex, Ey. unfold sgn in Ex, Ey. unfold lane_ok in *.
    destruct (Z.ltb_spec x (2 ^ (w - 1))), (Z.ltb_spec y (2 ^ (w - 1))); lia.
  - cbn in *. unfold q in *. split; [apply Z.quot_pos; lia|lia].
Qed.
Lemma rem_range (s : bool) w x y : 0 < w -> lane_ok w x -> lane_ok w y -> y <> 0 ->
  let r := Z.rem (value s w x) (value s w y) in
  if s then - 2 ^ (w - 1) <= r < 2 ^ (w - 1) else 0 <= r < 2 ^ w.
Proof.
  intros Hw Hx Hy Hy0 r. pose proof (value_range s w x Hw Hx) as Rx. pose proof (value_range s w y Hw Hy) as Ry.
  assert (Vy : value s w y <> 0) by (intros E; apply Hy0; eapply value_zero; eauto).
  pose proof (Z.rem_bound_abs (value s w x) (value s w y) Vy) as B. fold r in B. destruct s; cbn in *.
  - lia.
  - assert (0 <= r) by (apply Z.rem_nonneg; lia). lia.
Qed.

Lemma c23_division : forall up s bm w n rb lanes x y i,
  In w [8; 16; 32] -> In rb [16; 32; 64]%nat -> (1 <= n <= lanes)%nat ->
  register w lanes x -> register w lanes y -> (i < n)%nat ->
  (nth i y 0 <> 0 /\ ~ (s = true /\ nth i x 0 = 2 ^ (w - 1) /\ nth i y 0 = 2 ^ w - 1)) ->
  value s w (nth i (x86_divides up s bm w n rb x y) 0) = Z.quot (value s w (nth i x 0)) (value s w (nth i y 0)).
Proof.
  intros up s bm w n rb lanes x y i Hw Hrb Hn [Lx Hx] [Ly Hy] Hi [Hy0 Hno].
  assert (W : 0 < w) by (destruct Hw as [E|[E|[E|[]]]]; lia).
  assert (R : (16 <= rb)%nat) by (destruct Hrb as [E|[E|[E|[]]]]; lia).
  rewrite x86_divides_lane by (auto; lia). apply value_uns; auto. apply quot_range; auto.
  - rewrite Forall_forall in Hx. apply Hx, nth_In. lia.
  - rewrite Forall_forall in Hy. apply Hy, nth_In. lia.
Qed.
Lemma c23_remainder : forall mul up s bm w n rb lanes x y i,
  In w [8; 16; 32] -> In rb [16; 32; 64]%nat -> (1 <= n <= lanes)%nat ->
  (forall a b, register w lanes a -> register w lanes b -> length (mul a b) = lanes /\
     forall j, (j < n)%nat -> nth j (mul a b) 0 = (nth j a 0 * nth j b 0) mod 2 ^ w) ->
  register w lanes x -> register w lanes y -> (i < n)%nat -> nth i y 0 <> 0 ->
  value s w (nth i (x86_modulus mul up s bm w n rb x y) 0) = Z.rem (value s w (nth i x 0)) (value s w (nth i y 0)).
Proof.
  intros mul up s bm w n rb lanes x y i Hw Hrb Hn Hmul [Lx Hx] [Ly Hy] Hi Hy0.
  assert (W : 0 < w) by (destruct Hw as [E|[E|[E|[]]]]; lia).
  assert (R : (16 <= rb)%nat) by (destruct Hrb as [E|[E|[E|[]]]]; lia). rewrite <- Lx in Hmul.
  rewrite x86_modulus_lane by (auto; lia). apply value_uns; auto. apply rem_range; auto.
  - rewrite Forall_forall in Hx. apply Hx, nth_In. lia.
  - rewrite Forall_forall in Hy. apply Hy, nth_In. lia.
Qed.
