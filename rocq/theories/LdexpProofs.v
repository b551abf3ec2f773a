(* Proofs for ldexp. *)
From Coq Require Import ZArith List Bool Lia Psatz.
From Verif Require Import Prelude X86Lanes FloatSpec FloatRoundSpec FloatBits FloatArith FloatProofs FloatArithProofs FloatRoundProofs FloatRoundTop FloatMathSpec Ldexp LdexpSpec.
Import ListNotations.
Local Open Scope Z_scope.

Section Format.
  Variable f : fmt.
  Hypothesis Hf : fmt_ok f.

  Lemma number_mag a : 0 <= a < inf_bits f -> number_at f a (mag f a).
  Proof.
    intros Ha. pose proof (inf_lt f Hf). pose proof (pow_fw f Hf). split.
    - unfold pattern. lia.
    - exact (decode_with_sign f Hf false a Ha).
  Qed.
  Lemma number_inv x n : number_at f x n -> 0 <= x < inf_bits f /\ n = mag f x.
  Proof.
    intros [P D]. destruct (decode_fin f Hf x false n P D) as (a & Ha & E & Ex). cbn [with_sign] in Ex. subst x. auto.
  Qed.
  Lemma finite_mag n : finite_number f n -> exists a, 0 <= a < inf_bits f /\ n = mag f a.
  Proof. intros [x H]. exists x. apply number_inv; auto. Qed.

  Lemma top_mag : top f = mag f (inf_bits f).
  Proof. symmetry. apply (mag_inf f Hf). Qed.
  Lemma largest_mag : largest f = mag f (inf_bits f - 1).
  Proof.
    unfold largest, top. rewrite <- (max_val f). unfold finite_max_bits.
    pose proof (pow_eb_pos f Hf). pose proof (pow_bias f Hf). pose proof (bias_pos f Hf). pose proof (mb_pos f Hf). pose proof (pow_mb_pos f Hf).
    rewrite (mag_qr f Hf) by lia.
    replace (2 ^ eb f - 2 - 1) with (2 * bias f - 1) by lia.
    replace (mb f + 2 * bias f) with (mb f + 1 + (2 * bias f - 1)) by lia.
    rewrite Z.pow_add_r by lia. rewrite (Z.pow_add_r 2 (mb f) 1) by lia. change (2 ^ 1) with 2. lia.
  Qed.

  (* what round_bits does *)
  Lemma round_bits_cases md s n k : 0 <= k -> 0 <= n -> exists a, 0 <= a < inf_bits f /\ mag f a * 2 ^ k <= n /\
    (a = inf_bits f - 1 \/ n < mag f (a + 1) * 2 ^ k) /\
    round_bits f md s n k =
      if mag f a * 2 ^ k =? n then a
      else if round_up_mag md s (2 * n ?= (mag f a + mag f (a + 1)) * 2 ^ k) a then a + 1 else a.
  Proof.
    intros Hk Hn. assert (P : 0 < 2 ^ k) by (apply Z.pow_pos_nonneg; lia).
    pose proof (Z.div_pos n (2 ^ k) Hn P) as D. destruct (floor_bits_spec f Hf (n / 2 ^ k) D) as (B0 & B1 & B2).
    pose proof (inf_pos f Hf) as I. pose proof (max_val f) as E.
    pose proof (Z.mul_div_le n (2 ^ k) P). pose proof (Z.mul_succ_div_gt n (2 ^ k) P).
    exists (Z.min (floor_bits f (n / 2 ^ k)) (finite_max_bits f)). split; [lia|]. split.
    - pose proof (mag_le f Hf (Z.min (floor_bits f (n / 2 ^ k)) (finite_max_bits f)) (floor_bits f (n / 2 ^ k))). nia.
    - split; [|reflexivity]. destruct (Z.min_spec (floor_bits f (n / 2 ^ k)) (finite_max_bits f)) as [[L ->]|[L ->]]; [right; nia|left; lia].
  Qed.

  Lemma mag_lt a b : 0 <= a -> a < b -> mag f a < mag f b.
  Proof. apply (mag_mono f Hf). Qed.
  Lemma mag_lt_inv a b : 0 <= a -> 0 <= b -> mag f a < mag f b -> a < b.
  Proof. intros Ha Hb H. destruct (Z.lt_ge_cases a b); auto. pose proof (mag_le f Hf b a). lia. Qed.

  (* rounding is correct *)
  Lemma round_correct md s n k : 0 <= k -> 0 <= n ->
    correctly_rounded f md s n (2 ^ k) (decode f (with_sign f s (round_bits f md s n k))).
  Proof.
    intros Hk Hn. destruct (round_bits_cases md s n k Hk Hn) as (a & Ha & L & U & ->).
    assert (P : 0 < 2 ^ k) by (apply Z.pow_pos_nonneg; lia). set (u := 2 ^ k) in *.
    pose proof (inf_pos f Hf) as I. pose proof (mag_lt a (a + 1) ltac:(lia) ltac:(lia)) as AA.
    assert (TOP : forall b, 0 <= b < inf_bits f -> mag f b <= mag f (inf_bits f - 1)) by (intros; apply (mag_le f Hf); lia).
    pose proof (mag_lt (inf_bits f - 1) (inf_bits f) ltac:(lia) ltac:(lia)) as TT.
    pose proof (mag_le f Hf (a + 1) (inf_bits f) ltac:(lia) ltac:(lia)) as A1.
    pose proof (TOP a Ha) as TA.
    (* finite results *)
    assert (FIN : forall r, 0 <= r < inf_bits f ->
      match direction_of md s with
      | Inward => r = a
      | Outward => (mag f a * u = n /\ r = a) \/ (mag f a * u < n /\ r = a + 1)
      | Nearest => (r = a /\ 2 * n <= (mag f a + mag f (a + 1)) * u /\ (2 * n = (mag f a + mag f (a + 1)) * u -> Z.even a = true)) \/
                   (r = a + 1 /\ (mag f a + mag f (a + 1)) * u <= 2 * n /\ n < mag f (a + 1) * u /\ (2 * n = (mag f a + mag f (a + 1)) * u -> Z.even (a + 1) = true))
      end -> correctly_rounded f md s n u (decode f (with_sign f s r))).
    { intros r Hr H. rewrite (decode_with_sign f Hf) by auto. cbn [correctly_rounded]. split; [reflexivity|].
      exists r. split; [apply number_mag; auto|].
      assert (B : forall b, 0 <= b < inf_bits f -> mag f b * u <= n -> b <= a).
      { intros b Hb Q. destruct U as [->|U]; [lia|]. assert (mag f b < mag f (a + 1)) by nia.
        pose proof (mag_lt_inv b (a + 1) ltac:(lia) ltac:(lia)). lia. }
      assert (C : forall b, 0 <= b < inf_bits f -> b <= a \/ a + 1 <= b) by (intros; lia).
      destruct (direction_of md s).
      - subst r. split; [exact L|]. intros n' N' Q. destruct (finite_mag n' N') as (b & Hb & ->). apply (mag_le f Hf); [lia|]. auto.
      - destruct H as [[E ->]|[E ->]].
        + split; [lia|]. intros n' N' Q. nia.
        + split; [destruct U as [U|U]; [lia|lia]|]. intros n' N' Q. destruct (finite_mag n' N') as (b & Hb & ->).
          apply (mag_le f Hf); [lia|]. destruct (C b Hb) as [Q1|Q1]; [|lia]. pose proof (mag_le f Hf b a). nia.
      - assert (LT : 2 * n < (largest f + top f) * u).
        { rewrite largest_mag, top_mag. destruct H as [(-> & H1 & H2)|(-> & H1 & H2 & H3)].
          - destruct U as [->|U].
            + destruct (Z.eq_dec (2 * n) ((mag f (inf_bits f - 1) + mag f (inf_bits f - 1 + 1)) * u)) as [Q|Q].
              * specialize (H2 Q). exfalso. unfold inf_bits in H2. pose proof (mb_pos f Hf). pose proof (pow_mb_pos f Hf).
                assert (OD : Z.even ((2 ^ eb f - 1) * 2 ^ mb f - 1) = false).
                { rewrite Z.even_sub, Z.even_mul. replace (mb f) with (1 + (mb f - 1)) by lia.
                  rewrite Z.pow_add_r, Z.even_mul by lia. change (Z.even (2 ^ 1)) with true. cbn [orb]. rewrite orb_true_r. reflexivity. }
                congruence.
              * replace (inf_bits f - 1 + 1) with (inf_bits f) in * by lia. lia.
            + assert (mag f (a + 1) <= mag f (inf_bits f - 1) \/ a + 1 = inf_bits f) by (destruct (Z.eq_dec (a + 1) (inf_bits f)); [auto|left; apply TOP; lia]).
              destruct H as [Q|Q].
              * nia.
              * destruct (Z.eq_dec (2 * n) ((mag f a + mag f (a + 1)) * u)) as [Q'|Q'].
                -- specialize (H2 Q'). exfalso. replace a with (inf_bits f - 1) in H2 by lia. unfold inf_bits in H2. pose proof (mb_pos f Hf).
                   assert (OD : Z.even ((2 ^ eb f - 1) * 2 ^ mb f - 1) = false).
                   { rewrite Z.even_sub, Z.even_mul. replace (mb f) with (1 + (mb f - 1)) by lia.
                     rewrite Z.pow_add_r, Z.even_mul by lia. change (Z.even (2 ^ 1)) with true. cbn [orb]. rewrite orb_true_r. reflexivity. }
                   congruence.
                -- rewrite Q in *. replace a with (inf_bits f - 1) in * by lia. lia.
          - pose proof (TOP (a + 1) ltac:(lia)). nia. }
        split; [exact LT|]. intros n' N'. destruct (finite_mag n' N') as (b & Hb & ->).
        destruct H as [(-> & H1 & H2)|(-> & H1 & H2 & H3)].
        + destruct (C b Hb) as [Q|Q].
          * pose proof (mag_le f Hf b a ltac:(lia) Q). split; [nia|]. intros Hd He. exfalso. nia.
          * pose proof (mag_le f Hf (a + 1) b ltac:(lia) Q). split; [nia|]. intros Hd He. apply H2. nia.
        + destruct (C b Hb) as [Q|Q].
          * pose proof (mag_le f Hf b a ltac:(lia) Q). split; [nia|]. intros Hd He. apply H3. nia.
          * pose proof (mag_le f Hf (a + 1) b ltac:(lia) Q). split; [nia|]. intros Hd He. exfalso. nia. }
    assert (INF : a = inf_bits f - 1 ->
      match direction_of md s with
      | Inward => False
      | Outward => mag f a * u < n
      | Nearest => (mag f a + mag f (a + 1)) * u <= 2 * n
      end -> correctly_rounded f md s n u (decode f (with_sign f s (a + 1)))).
    { intros Ea H. replace (a + 1) with (inf_bits f) by lia. rewrite (decode_with_inf f Hf). cbn [correctly_rounded]. split; [reflexivity|].
      rewrite largest_mag, top_mag. subst a. replace (inf_bits f - 1 + 1) with (inf_bits f) in H by lia. exact H. }
    assert (ODD : forall z, Z.odd z = negb (Z.even z)) by (intros; rewrite <- Z.negb_even; reflexivity).
    destruct (Z.eqb_spec (mag f a * u) n) as [E|E].
    - apply FIN; [lia|]. destruct (direction_of md s); auto. left. split; [auto|]. split; [nia|]. intros Q. exfalso. nia.
    - assert (LL : mag f a * u < n) by lia.
      assert (LAST : a + 1 < inf_bits f \/ a = inf_bits f - 1) by lia.
      destruct md, s; cbn [round_up_mag direction_of negb] in *.
      all: try (apply FIN; [lia|auto; fail]).
      all: try (destruct LAST as [LA|LA]; [apply FIN; [lia|right; auto; fail]|apply INF; [exact LA|exact LL]]).
      all: destruct (Z.compare_spec (2 * n) ((mag f a + mag f (a + 1)) * u)) as [Q|Q|Q].
      all: try (rewrite ODD; destruct (Z.even a) eqn:EV; cbn [negb]).
      all: try (apply FIN; [lia|left; split; [reflexivity|split; [lia|intros; auto; lia]]]; fail).
      all: destruct LAST as [LA|LA]; [apply FIN; [lia|]|apply INF; [exact LA|lia]].
      all: right; split; [reflexivity|]; split; [lia|]; destruct U as [U|U]; [lia|]; split; [exact U|]; intros QQ; try lia.
      all: replace (a + 1) with (Z.succ a) by lia; rewrite Z.even_succ, ODD, EV; reflexivity.
  Qed.
  Lemma fround_correct md s v k : 0 <= k -> 0 <= v ->
    correctly_rounded f md s v (2 ^ k) (decode f (fround f md s (num s v) k)).
  Proof.
    intros Hk Hv. unfold fround. destruct (Z.eqb_spec (num s v) 0) as [E|E].
    - assert (v = 0) by (destruct s; cbn [num] in E; lia). subst v.
      pose proof (round_correct md s 0 k Hk ltac:(lia)) as R.
      assert (Z0 : round_bits f md s 0 k = 0).
      { pose proof (round_bits_exact f Hf md s k 0 Hk) as X. pose proof (inf_pos f Hf).
        replace (mag f 0) with 0 in X.
        - rewrite Z.mul_0_l in X. apply X. lia.
        - symmetry. apply Z.eqb_eq. rewrite (mag_zero f Hf) by lia. reflexivity. }
      rewrite Z0 in R. exact R.
    - assert (S : (num s v <? 0) = s) by (destruct s; cbn [num] in *; [apply Z.ltb_lt; lia|apply Z.ltb_ge; lia]).
      rewrite S. replace (Z.abs (num s v)) with v by (destruct s; cbn [num]; lia). apply round_correct; auto.
  Qed.

  Lemma zero_same md s u u' y : 0 < u -> 0 < u' -> correctly_rounded f md s 0 u y -> correctly_rounded f md s 0 u' y.
  Proof.
    intros Hu Hu'. pose proof (inf_pos f Hf) as I.
    assert (M0 : mag f 0 = 0) by (apply Z.eqb_eq; rewrite (mag_zero f Hf) by lia; reflexivity).
    assert (F0 : finite_number f 0) by (exists 0; rewrite <- M0 at 2; apply number_mag; lia).
    assert (FT : forall n, finite_number f n -> 0 <= n <= largest f).
    { intros n N. destruct (finite_mag n N) as (b & Hb & ->). rewrite largest_mag. split; [apply (mag_nonneg f Hf); lia|apply (mag_le f Hf); lia]. }
    assert (LT : 0 <= largest f < top f).
    { rewrite largest_mag, top_mag. split; [apply (mag_nonneg f Hf); lia|apply mag_lt; lia]. }
    destruct y as [|s'|s' n]; cbn [correctly_rounded]; [auto| |].
    - intros [-> H]. split; [reflexivity|]. destruct (direction_of md s); auto; nia.
    - intros [-> (x & N & H)]. split; [reflexivity|]. exists x. split; [exact N|].
      pose proof (FT n (ex_intro _ x N)).
      assert (N0 : n = 0).
      { destruct (direction_of md s).
        - nia.
        - destruct H as [_ H]. specialize (H 0 F0 ltac:(lia)). lia.
        - destruct H as [_ H]. destruct (H 0 F0) as [H3 _]. nia. }
      subst n. destruct (direction_of md s).
      + split; [lia|]. intros n' N' Q. pose proof (FT n' N'). nia.
      + split; [lia|]. intros n' N' Q. pose proof (FT n' N'). lia.
      + split; [nia|]. intros n' N'. pose proof (FT n' N'). split; [nia|]. intros Hd He. exfalso. nia.
  Qed.

  (* very large and very small numbers *)
  Lemma huge_same md s v u v' u' y : 0 < u -> 0 < u' -> 2 * top f * u <= v -> 2 * top f * u' <= v' ->
    correctly_rounded f md s v u y -> correctly_rounded f md s v' u' y.
  Proof.
    intros Hu Hu' Hv Hv'.
    assert (LT : 0 <= largest f < top f).
    { rewrite largest_mag, top_mag. pose proof (inf_pos f Hf). split; [apply (mag_nonneg f Hf); lia|apply mag_lt; lia]. }
    assert (FT : forall n, finite_number f n -> 0 <= n <= largest f).
    { intros n N. destruct (finite_mag n N) as (b & Hb & ->). rewrite largest_mag. split; [apply (mag_nonneg f Hf); lia|apply (mag_le f Hf); lia]. }
    destruct y as [|s'|s' n]; cbn [correctly_rounded]; [auto| |].
    - intros [-> H]. split; [reflexivity|]. destruct (direction_of md s); auto; nia.
    - intros [-> (x & N & H)]. split; [reflexivity|]. exists x. split; [exact N|].
      pose proof (FT n (ex_intro _ x N)). destruct (direction_of md s).
      + destruct H as [H1 H2]. split; [nia|]. intros n' N' _. apply H2; auto. pose proof (FT n' N'). nia.
      + destruct H as [H1 H2]. nia.
      + destruct H as [H1 H2]. nia.
  Qed.
  Lemma tiny_same md s v u v' u' y : 0 < v -> 0 < v' -> 2 * v < u -> 2 * v' < u' ->
    correctly_rounded f md s v u y -> correctly_rounded f md s v' u' y.
  Proof.
    intros Hv Hv' Hu Hu'.
    pose proof (inf_pos f Hf) as I.
    assert (M0 : mag f 0 = 0) by (apply Z.eqb_eq; rewrite (mag_zero f Hf) by lia; reflexivity).
    assert (IB : 1 < inf_bits f).
    { unfold inf_bits. pose proof (pow_mb_pos f Hf). pose proof (pow_eb_pos f Hf). nia. }
    assert (LP : 0 < largest f) by (rewrite largest_mag, <- M0; apply mag_lt; lia).
    assert (LT : largest f < top f) by (rewrite largest_mag, top_mag; apply mag_lt; lia).
    assert (F0 : finite_number f 0) by (exists 0; rewrite <- M0 at 2; apply number_mag; lia).
    assert (FT : forall n, finite_number f n -> 0 <= n <= largest f).
    { intros n N. destruct (finite_mag n N) as (b & Hb & ->). rewrite largest_mag. split; [apply (mag_nonneg f Hf); lia|apply (mag_le f Hf); lia]. }
    destruct y as [|s'|s' n]; cbn [correctly_rounded]; [auto| |].
    - intros [-> H]. split; [reflexivity|]. destruct (direction_of md s); auto; nia.
    - intros [-> (x & N & H)]. split; [reflexivity|]. exists x. split; [exact N|].
      pose proof (FT n (ex_intro _ x N)). destruct (direction_of md s).
      + destruct H as [H1 H2]. assert (n = 0) by nia. subst n. split; [lia|]. intros n' N' Q. pose proof (FT n' N'). nia.
      + destruct H as [H1 H2]. assert (1 <= n) by nia. split; [nia|]. intros n' N' Q. apply H2; auto. pose proof (FT n' N').
        assert (1 <= n') by (destruct (Z.eq_dec n' 0) as [->|]; lia). assert (u <= n' * u) by nia. lia.
      + destruct H as [H1 H2]. assert (N0 : n = 0).
        { destruct (H2 0 F0) as [H3 _]. replace (Z.abs (0 * u - v)) with v in H3 by lia.
          destruct (Z.eq_dec n 0); auto. assert (u <= n * u) by nia. lia. }
        subst n. split; [nia|]. intros n' N'. pose proof (FT n' N').
        replace (Z.abs (0 * u' - v')) with v' by lia.
        destruct (Z.eq_dec n' 0) as [->|D].
        * split; [lia|]. intros Hd. contradiction.
        * assert (u' <= n' * u') by nia. split; lia.
  Qed.

  (* the exponent after its conversion *)
  Lemma exponent_val md e : 2 ^ 31 * one f < largest f -> Z.abs e <= 2 ^ 31 ->
    exists b n, decode f (fof_int f md e) = DFin b n /\
      (Z.abs e <= 2 ^ fp f -> num b n = e * one f) /\
      (2 ^ fp f < e -> 2 ^ fp f * one f <= num b n) /\
      (e < - 2 ^ fp f -> num b n <= - 2 ^ fp f * one f).
  Proof.
    intros HL He. pose proof (one_pos f Hf) as O. pose proof (mb_pos f Hf) as MB.
    assert (FP : 2 ^ fp f = 2 * 2 ^ mb f) by (unfold mb; rewrite <- Z.pow_succ_r by (unfold mb in MB; lia); f_equal; lia).
    assert (PM : 0 < 2 ^ mb f) by (apply Z.pow_pos_nonneg; lia).
    destruct (Z.le_gt_cases (Z.abs e) (2 ^ fp f)) as [S|S].
    - pose proof (fof_int_val f Hf md e ltac:(lia)) as V. unfold fval in V.
      destruct (decode f (fof_int f md e)) as [| |b n]; try discriminate. injection V as V.
      exists b, n. split; [reflexivity|]. split; [intros _; exact V|]. lia.
    - assert (NZ : e <> 0) by lia.
      assert (E : fof_int f md e = fround f md (e <? 0) (num (e <? 0) (Z.abs e * one f)) 0).
      { unfold fof_int. change (2 ^ unit f) with (one f).
        replace (num (e <? 0) (Z.abs e * one f)) with (e * one f) by (destruct (Z.ltb_spec e 0); cbn [num]; lia).
        unfold fround. destruct (Z.eqb_spec (e * one f) 0); [nia|reflexivity]. }
      rewrite E. pose proof (fround_correct md (e <? 0) (Z.abs e * one f) 0 ltac:(lia) ltac:(nia)) as C. clear E.
      set (y := decode f _) in *. clearbody y. change (2 ^ 0) with 1 in C.
      assert (RI : repr f (2 ^ fp f * one f)).
      { apply (repr_int f Hf). lia. }
      destruct RI as (c & Hc & Ec). rewrite Z.abs_eq in Ec by nia.
      assert (FN : finite_number f (2 ^ fp f * one f)) by (exists c; rewrite <- Ec; apply number_mag; auto).
      assert (LT : largest f < top f).
      { rewrite largest_mag, top_mag. pose proof (inf_pos f Hf). apply mag_lt; lia. }
      destruct y as [|s|s n]; cbn [correctly_rounded] in C.
      + contradiction.
      + destruct C as [_ C]. destruct (direction_of md (e <? 0)); [contradiction| |]; exfalso; nia.
      + destruct C as [-> (x & N & C)]. exists (e <? 0), n. split; [reflexivity|].
        assert (G : 2 ^ fp f * one f <= n).
        { destruct (direction_of md (e <? 0)).
          - destruct C as [_ C]. apply C; [exact FN|nia].
          - destruct C as [C _]. nia.
          - destruct C as [_ C]. destruct (C _ FN) as [C1 _]. nia. }
        split; [lia|]. destruct (Z.ltb_spec e 0); cbn [num]; split; lia.
  Qed.
End Format.

Lemma real_largest f : real_fmt f -> 2 ^ 31 * one f < largest f.
Proof. intros [->| ->]; reflexivity. Qed.
Lemma real_exp f : real_fmt f -> mb f + 2 * bias f + 2 <= 2 ^ fp f.
Proof. intros [->| ->]; vm_compute; discriminate. Qed.

Lemma pow_max e : 0 < 2 ^ Z.max e 0 /\ (0 <= e -> 2 ^ Z.max e 0 = 2 ^ e) /\ (e <= 0 -> 2 ^ Z.max e 0 = 1).
Proof.
  split; [apply Z.pow_pos_nonneg; lia|]. split; intros; [rewrite Z.max_l by lia; reflexivity|rewrite Z.max_r by lia; reflexivity].
Qed.
Lemma ldexp_lane_ok f md x e : real_fmt f -> pattern f x -> - 2 ^ 31 <= e < 2 ^ 31 ->
  pattern f (ldexp_lane f md x e) /\ ldexp_result f md (decode f x) e (decode f (ldexp_lane f md x e)).
Proof.
  intros Hr Hx He. pose proof (real_ok f Hr) as Hf. pose proof (real_exp f Hr) as HE.
  pose proof (inf_lt f Hf) as IL. pose proof (inf_pos f Hf) as IP. pose proof (one_pos f Hf) as OP.
  destruct (exponent_val f Hf md e (real_largest f Hr) ltac:(lia)) as (b & n & D & E1 & E2 & E3).
  unfold ldexp_lane, scalef. rewrite D. destruct (decode f x) as [|s|s m] eqn:DX; cbn [ldexp_result].
  - split; [apply (pattern_nan f Hf)|apply (decode_nan f Hf)].
  - split; [apply (with_sign_pattern f Hf); lia|apply (decode_with_inf f Hf)].
  - set (q := num b n / one f).
    split; [apply (fround_pattern f Hf); lia|].
    destruct (decode_fin f Hf x s m Hx DX) as (a & Ha & Em & _).
    assert (M0 : 0 <= m) by (rewrite Em; apply (mag_nonneg f Hf); lia).
    assert (MT : m < top f) by (rewrite Em, (top_mag f Hf); apply (mag_mono f Hf); lia).
    destruct (pow_max q) as (P1 & P2 & P3). destruct (pow_max (- q)) as (Q1 & Q2 & Q3).
    replace (num s m * 2 ^ Z.max q 0) with (num s (m * 2 ^ Z.max q 0)) by (destruct s; cbn [num]; lia).
    pose proof (fround_correct f Hf md s (m * 2 ^ Z.max q 0) (Z.max (- q) 0) ltac:(lia) ltac:(nia)) as C.
    destruct (Z.le_gt_cases (Z.abs e) (2 ^ fp f)) as [S|S].
    { assert (EQ : q = e) by (unfold q; rewrite (E1 S); apply Z.div_mul; lia). rewrite EQ in *. exact C. }
    destruct (Z.eq_dec m 0) as [->|NM].
    { rewrite Z.mul_0_l in C. rewrite Z.mul_0_l.
      destruct (pow_max (- e)) as (R1 & _).
      (* zero: any unit *)
      apply (zero_same f Hf md s (2 ^ Z.max (- q) 0) (2 ^ Z.max (- e) 0)); auto. }
    assert (TP : 2 * top f = 2 ^ (mb f + 2 * bias f + 1)).
    { unfold top. pose proof (mb_pos f Hf). pose proof (bias_pos f Hf). rewrite <- Z.pow_succ_r by lia. f_equal. }
    destruct (pow_max e) as (R1 & R2 & R3). destruct (pow_max (- e)) as (S1 & S2 & S3).
    pose proof (mb_pos f Hf) as MB. pose proof (bias_pos f Hf) as BP.
    assert (BIG : forall z, 2 ^ fp f <= z -> 2 * top f <= 2 ^ z).
    { intros z Hz. rewrite TP. apply (Z.pow_le_mono_r 2 (mb f + 2 * bias f + 1) z); [reflexivity|]. clear - HE Hz. lia. }
    destruct (Z.lt_ge_cases e 0) as [NE|PE].
    + assert (E3' : e < - 2 ^ fp f) by (clear - S NE; lia). specialize (E3 E3').
      assert (QN : q <= - 2 ^ fp f) by (unfold q; apply Z.div_le_upper_bound; [exact OP|clear - E3; lia]).
      assert (FP : 0 < 2 ^ fp f) by (clear - HE MB BP; lia).
      assert (Qq : q <= 0) by (clear - QN FP; lia).
      assert (Qm : 0 <= - q) by (clear - Qq; lia). assert (Em0 : 0 <= - e) by (clear - NE; lia). assert (E0 : e <= 0) by (clear - NE; lia).
      rewrite (P3 Qq), (Q2 Qm) in C. rewrite (P3 Qq). rewrite (R3 E0), (S2 Em0).
      pose proof (BIG (- q) ltac:(clear - QN; lia)) as B1. pose proof (BIG (- e) ltac:(clear - E3'; lia)) as B2.
      apply (tiny_same f Hf md s (m * 1) (2 ^ (- q))); [| | | |exact C].
      * clear - M0 NM. lia.
      * clear - M0 NM. lia.
      * set (z := 2 ^ (- q)) in *. clear - B1 MT. lia.
      * set (z := 2 ^ (- e)) in *. clear - B2 MT. lia.
    + assert (E2' : 2 ^ fp f < e) by (clear - S PE; lia). specialize (E2 E2').
      assert (QP : 2 ^ fp f <= q) by (unfold q; apply Z.div_le_lower_bound; [exact OP|clear - E2; lia]).
      assert (FP : 0 < 2 ^ fp f) by (clear - HE MB BP; lia).
      assert (Qq : 0 <= q) by (clear - QP FP; lia). assert (Qm : - q <= 0) by (clear - Qq; lia).
      assert (Em0 : - e <= 0) by (clear - PE; lia).
      rewrite (P2 Qq), (Q3 Qm) in C. rewrite (P2 Qq). rewrite (R2 PE), (S3 Em0).
      pose proof (BIG q QP) as B1. pose proof (BIG e ltac:(clear - E2'; lia)) as B2.
      apply (huge_same f Hf md s (m * 2 ^ q) 1); [reflexivity|reflexivity| | |exact C].
      * set (z := 2 ^ q) in *. clear - B1 M0 NM. nia.
      * set (z := 2 ^ e) in *. clear - B2 M0 NM. nia.
Qed.

(* exact results, and frexp *)
Lemma rounded_exact f md s n u y : fmt_ok f -> 0 < u -> finite_number f n -> correctly_rounded f md s (n * u) u y -> y = DFin s n.
Proof.
  intros Hf Hu N.
  assert (FT : forall n, finite_number f n -> 0 <= n <= largest f).
  { intros k K. destruct (finite_mag f Hf k K) as (b & Hb & ->). rewrite (largest_mag f Hf). split; [apply (mag_nonneg f Hf); lia|apply (mag_le f Hf); lia]. }
  assert (LT : largest f < top f).
  { rewrite (largest_mag f Hf), (top_mag f Hf). pose proof (inf_pos f Hf). apply (mag_mono f Hf); lia. }
  pose proof (FT n N). destruct y as [|s'|s' n']; cbn [correctly_rounded]; [contradiction| |].
  - intros [_ C]. exfalso. destruct (direction_of md s); [contradiction| |]; nia.
  - intros [-> (x & N' & C)]. f_equal. pose proof (FT n' (ex_intro _ x N')). destruct (direction_of md s).
    + destruct C as [C1 C2]. specialize (C2 n N ltac:(lia)). nia.
    + destruct C as [C1 C2]. specialize (C2 n N ltac:(lia)). nia.
    + destruct C as [_ C2]. destruct (C2 n N) as [C3 _]. nia.
Qed.
Lemma datum_number f x s m : fmt_ok f -> pattern f x -> decode f x = DFin s m -> finite_number f m.
Proof.
  intros Hf Hx D. destruct (decode_fin f Hf x s m Hx D) as (a & Ha & -> & _). exists a. apply number_mag; auto.
Qed.
Lemma decode_inj f x y : fmt_ok f -> pattern f x -> pattern f y -> decode f x = decode f y -> decode f x <> DNaN -> x = y.
Proof.
  intros Hf Hx Hy E N. destruct (decode f x) as [|s|s m] eqn:D; [contradiction| |]; symmetry in E.
  - rewrite (decode_inf f Hf x s Hx D), (decode_inf f Hf y s Hy E). reflexivity.
  - destruct (decode_fin f Hf x s m Hx D) as (a & Ha & Em & ->). destruct (decode_fin f Hf y s m Hy E) as (b & Hb & Em' & ->).
    f_equal. apply (mag_inj f Hf); lia.
Qed.
Lemma ldexp_exact f md x e s m n : real_fmt f -> pattern f x -> - 2 ^ 31 <= e < 2 ^ 31 ->
  decode f x = DFin s m -> finite_number f n -> m * 2 ^ Z.max e 0 = n * 2 ^ Z.max (- e) 0 ->
  decode f (ldexp_lane f md x e) = DFin s n.
Proof.
  intros Hr Hx He D N E. pose proof (real_ok f Hr) as Hf. destruct (ldexp_lane_ok f md x e Hr Hx He) as [_ R].
  rewrite D in R. cbn [ldexp_result] in R. rewrite E in R. apply (rounded_exact f md s n _ _ Hf) in R; auto.
  apply Z.pow_pos_nonneg; lia.
Qed.
Lemma ldexp_frexp f md x y e : real_fmt f -> pattern f x -> pattern f y -> - 2 ^ 31 <= e < 2 ^ 31 ->
  frexp_result f (decode f x) (decode f y) e ->
  decode f (ldexp_lane f md y e) = decode f x /\ (decode f x <> DNaN -> ldexp_lane f md y e = x).
Proof.
  intros Hr Hx Hy He F. pose proof (real_ok f Hr) as Hf. destruct (ldexp_lane_ok f md y e Hr Hy He) as [P R].
  assert (E : decode f (ldexp_lane f md y e) = decode f x).
  { destruct (decode f x) as [|s|s m] eqn:D; cbn [frexp_result] in F.
    - rewrite F in R. exact R.
    - rewrite F in R. exact R.
    - destruct (Z.eqb_spec m 0) as [->|NZ].
      + destruct F as [F _]. apply (ldexp_exact f md y e s 0 0 Hr Hy He F); [|lia].
        apply (datum_number f x s 0 Hf Hx D).
      + destruct F as (n & F & _ & _ & Q). apply (ldexp_exact f md y e s n m Hr Hy He F); [|exact Q].
        apply (datum_number f x s m Hf Hx D). }
  split; [exact E|]. intros N. symmetry. apply (decode_inj f x (ldexp_lane f md y e) Hf Hx P); auto.
Qed.

(* registers *)
Lemma ldexp_reg_ok f md n xs es : real_fmt f -> Forall (pattern f) xs -> length es = length xs -> (n <= length xs)%nat ->
  Forall (fun e => - 2 ^ 31 <= e < 2 ^ 31) es ->
  length (ldexp_reg f md n xs es) = length xs /\
  forall i x e, nth_error xs i = Some x -> nth_error es i = Some e ->
    exists y, nth_error (ldexp_reg f md n xs es) i = Some y /\ pattern f y /\
      ((i < n)%nat -> ldexp_result f md (decode f x) e (decode f y)) /\ ((n <= i)%nat -> y = 0).
Proof.
  intros Hr HX HL Hn HE. unfold ldexp_reg. split; [rewrite map_length, !combine_length, seq_length; lia|].
  intros i x e Hx He. pose proof (nth_error_In _ _ Hx) as Ix. pose proof (nth_error_In _ _ He) as Ie.
  rewrite Forall_forall in HX, HE. specialize (HX x Ix). specialize (HE e Ie).
  assert (Li : (i < length xs)%nat) by (apply nth_error_Some; congruence).
  assert (Q : nth_error (combine (seq 0 (length xs)) (combine xs es)) i = Some (i, (x, e))).
  { rewrite (nth_error_nth' _ (0%nat, (0, 0))) by (rewrite !combine_length, seq_length; lia).
    rewrite !combine_nth by (rewrite ?combine_length, ?seq_length; lia). rewrite seq_nth by lia.
    rewrite (nth_error_nth _ _ 0 Hx), (nth_error_nth _ _ 0 He). reflexivity. }
  eexists. split; [apply map_nth_error; exact Q|]. cbn [fst snd].
  destruct (ldexp_lane_ok f md x e Hr HX HE) as [P R]. destruct (Nat.ltb_spec i n).
  - split; [exact P|]. split; [auto|lia].
  - split; [unfold pattern; split; [lia|destruct Hr as [-> | ->]; reflexivity]|]. split; [lia|reflexivity].
Qed.
