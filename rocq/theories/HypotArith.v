(* Error propagation for hypot, on integers. *)
From Coq Require Import ZArith Lia Psatz.
Open Scope Z_scope.

(* lo / D * y <= x <= hi / D * y *)
Definition bnd (lo hi D x y : Z) : Prop := lo * y <= D * x <= hi * y.

Lemma bnd_trans lo hi D lo' hi' D' x y z : 0 <= lo -> 0 <= hi -> 0 <= D' ->
  bnd lo hi D x y -> bnd lo' hi' D' y z -> bnd (lo * lo') (hi * hi') (D * D') x z.
Proof.
  intros Hl Hh Hd (A1 & A2) (B1 & B2). split.
  - transitivity (lo * (D' * y)); [rewrite <- Z.mul_assoc; apply Z.mul_le_mono_nonneg_l; auto|].
    replace (lo * (D' * y)) with (D' * (lo * y)) by ring. replace (D * D' * x) with (D' * (D * x)) by ring.
    apply Z.mul_le_mono_nonneg_l; auto.
  - transitivity (hi * (D' * y)); [|rewrite <- Z.mul_assoc; apply Z.mul_le_mono_nonneg_l; auto].
    replace (hi * (D' * y)) with (D' * (hi * y)) by ring. replace (D * D' * x) with (D' * (D * x)) by ring.
    apply Z.mul_le_mono_nonneg_l; auto.
Qed.
Lemma bnd_scale lo hi D x y c : 0 <= c -> bnd lo hi D x y -> bnd lo hi D (c * x) (c * y).
Proof.
  intros Hc (A1 & A2). split.
  - replace (lo * (c * y)) with (c * (lo * y)) by ring. replace (D * (c * x)) with (c * (D * x)) by ring.
    apply Z.mul_le_mono_nonneg_l; auto.
  - replace (hi * (c * y)) with (c * (hi * y)) by ring. replace (D * (c * x)) with (c * (D * x)) by ring.
    apply Z.mul_le_mono_nonneg_l; auto.
Qed.
Lemma bnd_square lo hi D x y : 0 <= lo -> 0 <= hi -> 0 <= D -> 0 <= x -> 0 <= y ->
  bnd lo hi D x y -> bnd (lo * lo) (hi * hi) (D * D) (x * x) (y * y).
Proof.
  intros Hl Hh Hd Hx Hy (A1 & A2). split.
  - replace (lo * lo * (y * y)) with ((lo * y) * (lo * y)) by ring. replace (D * D * (x * x)) with ((D * x) * (D * x)) by ring.
    apply Z.mul_le_mono_nonneg; auto; apply Z.mul_nonneg_nonneg; auto.
  - replace (hi * hi * (y * y)) with ((hi * y) * (hi * y)) by ring. replace (D * D * (x * x)) with ((D * x) * (D * x)) by ring.
    apply Z.mul_le_mono_nonneg; auto; apply Z.mul_nonneg_nonneg; auto.
Qed.
Lemma bnd_abs P x y : 0 <= P -> P * Z.abs (x - y) <= y -> bnd (P - 1) (P + 1) P x y.
Proof.
  intros HP H. destruct (Z.abs_spec (x - y)) as [[? E]|[? E]]; rewrite E in H; split; nia.
Qed.
Lemma abs_bnd P c x y : 0 < P -> bnd (P - c) (P + c) P x y -> P * Z.abs (x - y) <= c * y.
Proof.
  intros HP (A1 & A2). destruct (Z.abs_spec (x - y)) as [[? E]|[? E]]; rewrite E; lia.
Qed.
(* a weaker bound with another denominator *)
Lemma bnd_weaken lo hi D lo' hi' D' x y : 0 < D -> 0 <= D' -> 0 <= y ->
  lo' * D <= lo * D' -> hi * D' <= hi' * D -> bnd lo hi D x y -> bnd lo' hi' D' x y.
Proof.
  intros HD HD' Hy L H (A1 & A2). split; apply (Z.mul_le_mono_pos_l _ _ D); auto.
  - transitivity (D' * (lo * y)).
    + replace (D * (lo' * y)) with ((lo' * D) * y) by ring. replace (D' * (lo * y)) with ((lo * D') * y) by ring.
      apply Z.mul_le_mono_nonneg_r; auto.
    + replace (D * (D' * x)) with (D' * (D * x)) by ring. apply Z.mul_le_mono_nonneg_l; auto.
  - transitivity (D' * (hi * y)).
    + replace (D * (D' * x)) with (D' * (D * x)) by ring. apply Z.mul_le_mono_nonneg_l; auto.
    + replace (D * (hi' * y)) with ((hi' * D) * y) by ring. replace (D' * (hi * y)) with ((hi * D') * y) by ring.
      apply Z.mul_le_mono_nonneg_r; auto.
Qed.

Section P.
  Variable P : Z.
  Hypothesis HP : 64 <= P.
  Let PP := P * P.

  (* square root and its rounding: w / 4 is the root of s * U up to 1 / 4, q is
     w / 4 rounded *)
  Lemma root_bnd sU w q : 0 <= sU -> 0 <= q -> 8 * PP <= w ->
    Z.abs (w * w - 16 * sU) <= 2 * w + 1 -> P * Z.abs (4 * q - w) <= w ->
    bnd ((P - 1) * (P - 1) * (PP - 1)) ((P + 1) * (P + 1) * (PP + 1)) (P * P * PP) (16 * (q * q)) (16 * sU).
  Proof.
    intros Hs Hq Hw H4 H5. replace (16 * (q * q)) with ((4 * q) * (4 * q)) by ring.
    assert (HPP : 64 * 64 <= PP) by (unfold PP; nia).
    apply bnd_trans with (y := w * w); try nia.
    - apply bnd_square; try lia. apply bnd_abs; auto; lia.
    - apply bnd_abs; [lia|]. clear H5. fold PP. apply Z.abs_le in H4.
      assert (PP * (2 * w + 1) <= 16 * sU) by nia.
      etransitivity; [apply Z.mul_le_mono_nonneg_l; [lia|apply Z.abs_le; exact H4]|]. auto.
  Qed.

  (* the sum of two rounded squares before it is rounded *)
  Lemma sum2_bnd t A U : 0 <= A -> 0 <= U -> 3 * (P * PP) * U <= A ->
    P * Z.abs (t - A) <= A + 3 * P * U -> bnd ((P - 1) * (PP - 1)) ((P + 1) * (PP + 1)) (P * PP) t A.
  Proof.
    intros HA HU B H. assert (HPP : 64 * 64 <= PP) by (unfold PP; nia).
    assert (E : P * (t - A) <= A + 3 * P * U /\ - (A + 3 * P * U) <= P * (t - A)).
    { destruct (Z.abs_spec (t - A)) as [[? X]|[? X]]; rewrite X in H; lia. }
    assert (B' : 3 * P * U * PP <= A) by lia.
    split.
    - transitivity (PP * (P * t)); [|lia].
      assert (PP * (P * A - A - 3 * P * U) <= PP * (P * t)) by (apply Z.mul_le_mono_nonneg_l; lia).
      replace (PP * (P * A - A - 3 * P * U)) with (PP * (P * A) - PP * A - 3 * P * U * PP) in H0 by ring. nia.
    - assert (PP * (P * t) <= PP * (P * A + A + 3 * P * U)) by (apply Z.mul_le_mono_nonneg_l; lia).
      replace (PP * (P * A + A + 3 * P * U)) with (PP * (P * A) + PP * A + 3 * P * U * PP) in H0 by ring. nia.
  Qed.
  (* three squares; hh is the larger one, rounded or not, t0 the sum of the two
     smaller ones before and l after rounding *)
  Lemma sum3_bnd hh hsq t0 L l U : 0 <= hsq -> 0 <= L -> 0 <= U -> 6 * (P * PP) * U <= hsq ->
    P * Z.abs (hh - hsq) <= hsq -> P * Z.abs (t0 - L) <= L + 2 * P * U -> P * Z.abs (l - t0) <= t0 + P * U ->
    bnd ((P - 1) * (P - 1) * (PP - 1)) ((P + 1) * (P + 1) * (PP + 1)) (P * P * PP) (l + hh) (hsq + L).
  Proof.
    intros Hh HL HU B H1 H2 H3. assert (HPP : 64 * 64 <= PP) by (unfold PP; nia).
    apply bnd_abs in H1; [|lia]. destruct H1 as [H1a H1b].
    assert (E2 : P * t0 <= (P + 1) * L + 2 * P * U /\ (P - 1) * L - 2 * P * U <= P * t0).
    { destruct (Z.abs_spec (t0 - L)) as [[? X]|[? X]]; rewrite X in H2; lia. }
    assert (E3 : P * l <= (P + 1) * t0 + P * U /\ (P - 1) * t0 - P * U <= P * l).
    { destruct (Z.abs_spec (l - t0)) as [[? X]|[? X]]; rewrite X in H3; lia. }
    clear H2 H3.
    (* P^2 l *)
    assert (L1 : P * (P * l) <= (P + 1) * ((P + 1) * L) + 4 * PP * U).
    { transitivity (P * ((P + 1) * t0 + P * U)); [apply Z.mul_le_mono_nonneg_l; lia|].
      assert ((P + 1) * (P * t0) <= (P + 1) * ((P + 1) * L + 2 * P * U)) by (apply Z.mul_le_mono_nonneg_l; lia).
      unfold PP. nia. }
    assert (L2 : (P - 1) * ((P - 1) * L) - 4 * PP * U <= P * (P * l)).
    { transitivity (P * ((P - 1) * t0 - P * U)); [|apply Z.mul_le_mono_nonneg_l; lia].
      assert ((P - 1) * ((P - 1) * L - 2 * P * U) <= (P - 1) * (P * t0)) by (apply Z.mul_le_mono_nonneg_l; lia).
      unfold PP. nia. }
    assert (B' : 4 * PP * (PP * U) <= P * hsq) by (unfold PP in *; nia).
    assert (G1 : P * (P * hh) <= (P + 1) * ((P + 1) * hsq) - P * hsq).
    { transitivity (P * ((P + 1) * hsq)); [apply Z.mul_le_mono_nonneg_l; lia|]. nia. }
    assert (G2 : (P - 1) * ((P - 1) * hsq) + (P - 1) * hsq <= P * (P * hh)).
    { transitivity (P * ((P - 1) * hsq)); [|apply Z.mul_le_mono_nonneg_l; lia]. nia. }
    assert (Q1 : PP * (P * (P * (l + hh))) <= PP * ((P + 1) * ((P + 1) * (hsq + L)) + 4 * PP * U - P * hsq)).
    { apply Z.mul_le_mono_nonneg_l; lia. }
    assert (Q2 : PP * ((P - 1) * ((P - 1) * (hsq + L)) - 4 * PP * U + (P - 1) * hsq) <= PP * (P * (P * (l + hh)))).
    { apply Z.mul_le_mono_nonneg_l; lia. }
    assert (0 <= (P - 1) * ((P - 1) * (hsq + L))) by (apply Z.mul_nonneg_nonneg; [lia|apply Z.mul_nonneg_nonneg; lia]).
    assert (0 <= (P + 1) * ((P + 1) * (hsq + L))) by (apply Z.mul_nonneg_nonneg; [lia|apply Z.mul_nonneg_nonneg; lia]).
    assert (X : 4 * PP * (PP * U) <= PP * (P * hsq - hsq)) by nia.
    split.
    - replace ((P - 1) * (P - 1) * (PP - 1) * (hsq + L)) with ((PP - 1) * ((P - 1) * ((P - 1) * (hsq + L)))) by ring.
      replace (P * P * PP * (l + hh)) with (PP * (P * (P * (l + hh)))) by ring.
      replace (PP * ((P - 1) * ((P - 1) * (hsq + L)) - 4 * PP * U + (P - 1) * hsq))
        with (PP * ((P - 1) * ((P - 1) * (hsq + L))) - 4 * PP * (PP * U) + PP * (P * hsq - hsq)) in Q2 by ring. lia.
    - replace ((P + 1) * (P + 1) * (PP + 1) * (hsq + L)) with ((PP + 1) * ((P + 1) * ((P + 1) * (hsq + L)))) by ring.
      replace (P * P * PP * (l + hh)) with (PP * (P * (P * (l + hh)))) by ring.
      replace (PP * ((P + 1) * ((P + 1) * (hsq + L)) + 4 * PP * U - P * hsq))
        with (PP * ((P + 1) * ((P + 1) * (hsq + L))) + 4 * PP * (PP * U) - PP * (P * hsq)) in Q1 by ring.
      assert (0 <= PP * hsq) by (apply Z.mul_nonneg_nonneg; lia). lia.
  Qed.

  (* everything together: K and V scale *)
  Lemma hypot2_bnd q sU t A K SV : 0 <= q -> 0 <= K -> 0 <= SV ->
    bnd ((P - 1) * (P - 1) * (PP - 1)) ((P + 1) * (P + 1) * (PP + 1)) (P * P * PP) (16 * (q * q)) (16 * sU) ->
    P * Z.abs (sU - t) <= t ->
    bnd ((P - 1) * (PP - 1)) ((P + 1) * (PP + 1)) (P * PP) t A ->
    bnd (PP - 1) (PP + 1) PP (A * K) SV ->
    P * Z.abs (q * q * K - SV) <= 5 * SV.
  Proof.
    intros Hq HK HS H1 H2 H3 H4. assert (HPP : 64 * 64 <= PP) by (unfold PP; nia). apply abs_bnd; [lia|].
    assert (B : bnd ((P - 1) * (P - 1) * (PP - 1)) ((P + 1) * (P + 1) * (PP + 1)) (P * P * PP) (q * q) sU).
    { destruct H1. split; lia. }
    assert (C : bnd ((P - 1) * (P - 1) * (PP - 1) * ((P - 1) * ((P - 1) * (PP - 1))))
                    ((P + 1) * (P + 1) * (PP + 1) * ((P + 1) * ((P + 1) * (PP + 1))))
                    (P * P * PP * (P * (P * PP))) (q * q) A).
    { apply bnd_trans with (y := sU); auto; try nia. apply bnd_trans with (y := t); auto; try nia. apply bnd_abs; auto; lia. }
    apply (bnd_scale _ _ _ _ _ K HK) in C. rewrite (Z.mul_comm K A), (Z.mul_comm K (q * q)) in C.
    assert (D := fun a b c => bnd_trans _ _ _ _ _ _ _ _ _ a b c C H4).
    assert (DP : 0 < P * P * PP * (P * (P * PP)) * PP) by (repeat apply Z.mul_pos_pos; lia).
    assert (P0 : 0 <= P) by lia.
    refine (bnd_weaken _ _ _ _ _ _ _ _ DP P0 HS _ _ (D _ _ _));
      [| |repeat apply Z.mul_nonneg_nonneg; lia|repeat apply Z.mul_nonneg_nonneg; lia|lia]; clear D C; unfold PP.
    - assert (X1 : (P - 1) * (P - 1) * ((P - 1) * (P - 1)) >= P * P * P * P - 4 * (P * P * P)) by nia.
      assert (X2 : (P * P - 1) * (P * P - 1) * (P * P - 1) >= (P * P - 3) * (P * P * (P * P))) by nia.
      assert (X3 : 0 <= (P * P - 3) * (P * P * (P * P))) by (repeat apply Z.mul_nonneg_nonneg; nia).
      assert (X4 : 0 <= P * P * P * P - 4 * (P * P * P)) by nia.
      assert (X5 : (P * P * P * P - 4 * (P * P * P)) * ((P * P - 3) * (P * P * (P * P)))
                   <= (P - 1) * (P - 1) * ((P - 1) * (P - 1)) * ((P * P - 1) * (P * P - 1) * (P * P - 1))).
      { apply Z.mul_le_mono_nonneg; lia. }
      assert (X6 : 0 <= P * P * P * P * (P * P * P)) by (repeat apply Z.mul_nonneg_nonneg; nia).
      assert (X7 : (P - 5) * (P * P) <= (P - 4) * (P * P - 3)) by (clear - HP; nia).
      apply (Z.mul_le_mono_nonneg_l _ _ (P * P * P * P * (P * P * P)) X6) in X7.
      assert (X8 : 0 <= P) by lia. clear - X5 X7 X8.
      set (L := (P - 1) * (P - 1) * ((P - 1) * (P - 1)) * ((P * P - 1) * (P * P - 1) * (P * P - 1))) in *.
      replace ((P - 1) * (P - 1) * (P * P - 1) * ((P - 1) * ((P - 1) * (P * P - 1))) * (P * P - 1) * P) with (L * P)
        by (unfold L; ring).
      replace ((P - 5) * (P * P * (P * P) * (P * (P * (P * P))) * (P * P)))
        with ((P * P * P * P * (P * P * P) * ((P - 5) * (P * P))) * P) by ring.
      apply Z.mul_le_mono_nonneg_r; [auto|]. etransitivity; [exact X7|]. etransitivity; [|exact X5].
      apply Z.eq_le_incl. ring.
    - assert (X1 : (P + 1) * (P + 1) * ((P + 1) * (P + 1)) <= (P * P + 4 * P + 7) * (P * P)) by nia.
      assert (X2 : (P * P + 1) * (P * P + 1) * (P * P + 1) <= (P * P + 4) * (P * P * (P * P))) by nia.
      assert (X5 : (P + 1) * (P + 1) * ((P + 1) * (P + 1)) * ((P * P + 1) * (P * P + 1) * (P * P + 1))
                   <= (P * P + 4 * P + 7) * (P * P) * ((P * P + 4) * (P * P * (P * P)))).
      { apply Z.mul_le_mono_nonneg; try lia; nia. }
      assert (X6 : 0 <= P * P * (P * P * (P * P))) by (repeat apply Z.mul_nonneg_nonneg; nia).
      assert (X7 : (P * P + 4 * P + 7) * (P * P + 4) <= (P + 5) * (P * P * P)) by (clear - HP; nia).
      apply (Z.mul_le_mono_nonneg_l _ _ (P * P * (P * P * (P * P))) X6) in X7.
      assert (X8 : 0 <= P) by lia. clear - X5 X7 X8.
      set (L := (P + 1) * (P + 1) * ((P + 1) * (P + 1)) * ((P * P + 1) * (P * P + 1) * (P * P + 1))) in *.
      replace ((P + 1) * (P + 1) * (P * P + 1) * ((P + 1) * ((P + 1) * (P * P + 1))) * (P * P + 1) * P) with (L * P)
        by (unfold L; ring).
      replace ((P + 5) * (P * P * (P * P) * (P * (P * (P * P))) * (P * P)))
        with ((P * P * (P * P * (P * P)) * ((P + 5) * (P * P * P))) * P) by ring.
      apply Z.mul_le_mono_nonneg_r; [auto|]. etransitivity; [exact X5|]. etransitivity; [|exact X7].
      apply Z.eq_le_incl. ring.
  Qed.
  Lemma hypot3_bnd q sU t A K SV : 0 <= q -> 0 <= K -> 0 <= SV ->
    bnd ((P - 1) * (P - 1) * (PP - 1)) ((P + 1) * (P + 1) * (PP + 1)) (P * P * PP) (16 * (q * q)) (16 * sU) ->
    P * Z.abs (sU - t) <= t ->
    bnd ((P - 1) * (P - 1) * (PP - 1)) ((P + 1) * (P + 1) * (PP + 1)) (P * P * PP) t A ->
    bnd (PP - 1) (PP + 1) PP (A * K) SV ->
    P * Z.abs (q * q * K - SV) <= 6 * SV.
  Proof.
    intros Hq HK HS H1 H2 H3 H4. assert (HPP : 64 * 64 <= PP) by (unfold PP; nia). apply abs_bnd; [lia|].
    assert (B : bnd ((P - 1) * (P - 1) * (PP - 1)) ((P + 1) * (P + 1) * (PP + 1)) (P * P * PP) (q * q) sU).
    { destruct H1. split; lia. }
    assert (C : bnd ((P - 1) * (P - 1) * (PP - 1) * ((P - 1) * ((P - 1) * (P - 1) * (PP - 1))))
                    ((P + 1) * (P + 1) * (PP + 1) * ((P + 1) * ((P + 1) * (P + 1) * (PP + 1))))
                    (P * P * PP * (P * (P * P * PP))) (q * q) A).
    { apply bnd_trans with (y := sU); auto; try nia. apply bnd_trans with (y := t); auto; try nia. apply bnd_abs; auto; lia. }
    apply (bnd_scale _ _ _ _ _ K HK) in C. rewrite (Z.mul_comm K A), (Z.mul_comm K (q * q)) in C.
    assert (P1 : 0 <= (P - 1) * (P - 1) * (PP - 1)) by nia.
    assert (P2 : 0 <= (P + 1) * (P + 1) * (PP + 1)) by nia.
    assert (D := fun a b c => bnd_trans _ _ _ _ _ _ _ _ _ a b c C H4).
    assert (DP : 0 < P * P * PP * (P * (P * P * PP)) * PP) by (repeat apply Z.mul_pos_pos; lia).
    assert (P0 : 0 <= P) by lia.
    refine (bnd_weaken _ _ _ _ _ _ _ _ DP P0 HS _ _ (D _ _ _));
      [| |repeat apply Z.mul_nonneg_nonneg; lia|repeat apply Z.mul_nonneg_nonneg; lia|lia]; clear D C; unfold PP.
    - assert (X1 : (P - 5) * (P * P * (P * P)) <= (P - 1) * (P - 1) * ((P - 1) * (P - 1)) * (P - 1)).
      { assert ((P - 1) * (P - 1) * ((P - 1) * (P - 1)) >= (P - 4) * (P * P * P)) by nia.
        assert ((P - 5) * P <= (P - 4) * (P - 1)) by nia. assert (0 <= P * P * P) by nia. nia. }
      assert (X2 : (P * P - 1) * (P * P - 1) * (P * P - 1) >= (P * P - 3) * (P * P * (P * P))) by nia.
      assert (X3 : 0 <= (P * P - 3) * (P * P * (P * P))) by (repeat apply Z.mul_nonneg_nonneg; nia).
      assert (X4 : 0 <= (P - 5) * (P * P * (P * P))) by (repeat apply Z.mul_nonneg_nonneg; nia).
      assert (X5 : (P - 5) * (P * P * (P * P)) * ((P * P - 3) * (P * P * (P * P)))
                   <= (P - 1) * (P - 1) * ((P - 1) * (P - 1)) * (P - 1) * ((P * P - 1) * (P * P - 1) * (P * P - 1))).
      { apply Z.mul_le_mono_nonneg; lia. }
      assert (X6 : 0 <= P * P * (P * P) * (P * P * (P * P))) by (repeat apply Z.mul_nonneg_nonneg; nia).
      assert (X7 : (P - 6) * (P * P) <= (P - 5) * (P * P - 3)) by (clear - HP; nia).
      apply (Z.mul_le_mono_nonneg_l _ _ (P * P * (P * P) * (P * P * (P * P))) X6) in X7.
      assert (X8 : 0 <= P) by lia. clear - X5 X7 X8.
      set (L := (P - 1) * (P - 1) * ((P - 1) * (P - 1)) * (P - 1) * ((P * P - 1) * (P * P - 1) * (P * P - 1))) in *.
      replace ((P - 1) * (P - 1) * (P * P - 1) * ((P - 1) * ((P - 1) * (P - 1) * (P * P - 1))) * (P * P - 1) * P) with (L * P)
        by (unfold L; ring).
      replace ((P - 6) * (P * P * (P * P) * (P * (P * P * (P * P))) * (P * P)))
        with ((P * P * (P * P) * (P * P * (P * P)) * ((P - 6) * (P * P))) * P) by ring.
      apply Z.mul_le_mono_nonneg_r; [auto|]. etransitivity; [exact X7|]. etransitivity; [|exact X5].
      apply Z.eq_le_incl. ring.
    - assert (X1 : (P + 1) * (P + 1) * ((P + 1) * (P + 1)) * (P + 1) <= (P * P + 5 * P + 12) * (P * P * P)).
      { assert ((P + 1) * (P + 1) * ((P + 1) * (P + 1)) <= (P * P + 4 * P + 7) * (P * P)) by nia.
        assert ((P * P + 4 * P + 7) * (P + 1) <= (P * P + 5 * P + 12) * P) by nia. assert (0 <= P * P) by nia. nia. }
      assert (X2 : (P * P + 1) * (P * P + 1) * (P * P + 1) <= (P * P + 4) * (P * P * (P * P))) by nia.
      assert (X0 : 0 <= (P + 1) * (P + 1) * ((P + 1) * (P + 1)) * (P + 1)) by nia.
      assert (X5 : (P + 1) * (P + 1) * ((P + 1) * (P + 1)) * (P + 1) * ((P * P + 1) * (P * P + 1) * (P * P + 1))
                   <= (P * P + 5 * P + 12) * (P * P * P) * ((P * P + 4) * (P * P * (P * P)))).
      { apply Z.mul_le_mono_nonneg; try lia; nia. }
      assert (X6 : 0 <= P * P * P * (P * P * (P * P))) by (repeat apply Z.mul_nonneg_nonneg; nia).
      assert (X7 : (P * P + 5 * P + 12) * (P * P + 4) <= (P + 6) * (P * P * P)) by (clear - HP; nia).
      apply (Z.mul_le_mono_nonneg_l _ _ (P * P * P * (P * P * (P * P))) X6) in X7.
      assert (X8 : 0 <= P) by lia. clear - X5 X7 X8.
      set (L := (P + 1) * (P + 1) * ((P + 1) * (P + 1)) * (P + 1) * ((P * P + 1) * (P * P + 1) * (P * P + 1))) in *.
      replace ((P + 1) * (P + 1) * (P * P + 1) * ((P + 1) * ((P + 1) * (P + 1) * (P * P + 1))) * (P * P + 1) * P) with (L * P)
        by (unfold L; ring).
      replace ((P + 6) * (P * P * (P * P) * (P * (P * P * (P * P))) * (P * P)))
        with ((P * P * P * (P * P * (P * P)) * ((P + 6) * (P * P * P))) * P) by ring.
      apply Z.mul_le_mono_nonneg_r; [auto|]. etransitivity; [exact X5|]. etransitivity; [|exact X7].
      apply Z.eq_le_incl. ring.
  Qed.
End P.
