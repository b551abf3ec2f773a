(* Proofs about __shift_elements_right and __extract_part on bytes *)
From Coq Require Import List Arith Bool Lia.
From Verif Require Import Prelude ShiftRight.
Import ListNotations.

Section Proofs.
Context {A : Type} (zero : A).
Ltac explicit v L := repeat (destruct v as [|? v]; [discriminate L|]); destruct v; [|discriminate L]; clear L.
Ltac shifts k K := repeat first [exfalso; clear - K; lia | destruct k as [|k]; [split; reflexivity|]].

Lemma skipn_both a b (v : list A) : skipn a (skipn b v) = skipn (a + b) v.
Proof. revert v. induction b as [|b IH]; intros v; [rewrite Nat.add_0_r; reflexivity|]. rewrite Nat.add_succ_r. destruct v; [rewrite !skipn_nil; reflexivity|apply IH]. Qed.
Definition shifted (shift : nat) (v r : list A) : Prop := length r = length v /\ firstn (length v - shift) r = skipn shift v.
Lemma shifted_zero v : shifted 0 v v.
Proof. split; auto. rewrite Nat.sub_0_r, firstn_all. reflexivity. Qed.
Lemma shifted_all v : shifted (length v) v (zeros zero (length v)).
Proof. split; [apply repeat_length|]. rewrite Nat.sub_diag, skipn_all. reflexivity. Qed.
Lemma srli_shifted v k : length v = 16 -> k < 16 -> shifted k v (srli_si128 zero v k).
Proof.
  intros L K. unfold srli_si128, shifted. rewrite firstn_length, app_length, skipn_length. unfold zeros. rewrite repeat_length. split; [lia|].
  rewrite firstn_firstn. replace (Nat.min (length v - k) 16) with (length (skipn k v)) by (rewrite skipn_length; lia).
  rewrite firstn_app, firstn_all, Nat.sub_diag. cbn [firstn]. apply app_nil_r.
Qed.
Lemma movehl_shifted (v : list A) : length v = 16 -> shifted 8 v (movehl v).
Proof. intros L. explicit v L. split; reflexivity. Qed.
Lemma chunks_all c (v : list A) n i : 1 <= c -> length v = (i + n) * c -> flat_map (fun j => extract (i + j) c v) (seq 0 n) = skipn (i * c) v.
Proof.
  intros C. revert i. induction n as [|n IH]; intros i L.
  - cbn. symmetry. apply skipn_all2. nia.
  - cbn [seq flat_map]. rewrite <- seq_shift, flat_map_concat_map, map_map, <- flat_map_concat_map.
    erewrite flat_map_ext; [|intros j; replace (i + S j) with (S i + j) by lia; reflexivity].
    rewrite IH by nia. unfold extract. rewrite Nat.add_0_r.
    replace (S i * c) with (c + i * c) by lia. rewrite <- skipn_both. apply firstn_skipn.
Qed.
Lemma chunk_shift (v : list A) shift c k : 1 <= c -> shift mod c = 0 -> length v = k * c -> shift < length v ->
  shifted shift v (zero_extend zero (length v) (flat_map (fun i => extract (shift / c + i) c v) (seq 0 ((length v - shift) / c)))).
Proof.
  intros C M L S. assert (E : shift = c * (shift / c)) by (pose proof (Nat.div_mod shift c ltac:(lia)); lia).
  set (q := shift / c) in *. assert (Q : (length v - shift) / c = k - q).
  { rewrite L, E. replace (k * c - c * q) with ((k - q) * c) by nia. apply Nat.div_mul. lia. }
  assert (q < k) by nia. rewrite Q, chunks_all by (try lia; rewrite L; f_equal; lia). replace (q * c) with shift by lia. unfold zero_extend, shifted. split.
  - rewrite app_length, skipn_length. unfold zeros. rewrite repeat_length. lia.
  - replace (length v - shift) with (length (skipn shift v)) by apply skipn_length.
    rewrite firstn_app, firstn_all, Nat.sub_diag. cbn [firstn]. apply app_nil_r.
Qed.
Lemma chunks_shifted v shift : length v mod 8 = 0 \/ shift mod 8 <> 0 /\ length v mod 4 = 0 -> shift < length v -> shifted shift v (shift_chunks zero shift v).
Proof.
  intros L S. unfold shift_chunks. cbv zeta.
  assert (D : forall d, 1 <= d -> length v mod d = 0 -> length v = length v / d * d).
  { intros d Hd Z. pose proof (Nat.div_mod (length v) d ltac:(lia)). lia. }
  assert (L4 : length v mod 4 = 0).
  { destruct L as [L|[_ L]]; auto. apply Nat.mod_divides in L; [|lia]. destruct L as [x ->]. apply Nat.mod_divides; [lia|]. exists (2 * x). lia. }
  assert (L2 : length v mod 2 = 0).
  { apply Nat.mod_divides in L4; [|lia]. destruct L4 as [x ->]. apply Nat.mod_divides; [lia|]. exists (2 * x). lia. }
  destruct (Nat.eqb_spec (shift mod 8) 0) as [E|E].
  - apply (chunk_shift v shift 8 (length v / 8)); auto; try lia. apply D; [lia|]. destruct L as [L|[F _]]; auto. contradiction.
  - destruct (Nat.eqb_spec (shift mod 4) 0) as [E4|E4]; [apply (chunk_shift v shift 4 (length v / 4)); auto; lia|].
    destruct (Nat.eqb_spec (shift mod 2) 0) as [E2|E2]; [apply (chunk_shift v shift 2 (length v / 2)); auto; lia|].
    apply (chunk_shift v shift 1 (length v)); auto; lia.
Qed.
Lemma shift16_ok T t shift v : length v = 16 -> shift <= 16 -> shifted shift v (shift16 zero T t shift v).
Proof.
  intros L S. unfold shift16. destruct (Nat.eqb_spec shift 0) as [->|N]; [apply shifted_zero|].
  destruct (Nat.eqb_spec shift (length v)) as [->|N2]; [apply shifted_all|].
  repeat match goal with |- context [if ?b then _ else _] => destruct b eqn:?E end.
  - apply andb_true_iff in E as [E _]. apply andb_true_iff in E as [E _]. apply andb_true_iff in E as [_ E]. apply Nat.eqb_eq in E. subst. apply movehl_shifted; auto.
  - apply andb_true_iff in E0 as [E0 _]. apply andb_true_iff in E0 as [E0 _]. apply andb_true_iff in E0 as [_ E0]. apply Nat.eqb_eq in E0. subst. apply movehl_shifted; auto.
  - apply srli_shifted; auto; lia.
  - apply chunks_shifted; [left; rewrite L; reflexivity|lia].
Qed.
Lemma extend_high n m v r shift : shifted shift (skipn m v) r -> length v = n -> m <= n -> shift <= n - m -> shifted (m + shift) v (zero_extend zero n r).
Proof.
  intros [H1 H2] L M S. rewrite skipn_length in *. unfold zero_extend, zeros. split.
  - rewrite app_length, repeat_length. lia.
  - rewrite firstn_app. replace (length v - (m + shift) - length r) with 0 by lia. cbn [firstn]. rewrite app_nil_r.
    replace (length v - (m + shift)) with (length v - m - shift) by lia. rewrite H2. rewrite skipn_both. f_equal. lia.
Qed.
Lemma hi128_skip (v : list A) : length v = 32 -> hi128 v = skipn 16 v.
Proof. intros L. unfold hi128, extract. cbn [Nat.mul Nat.add]. apply firstn_all2. rewrite skipn_length. lia. Qed.
Lemma hi256_skip (v : list A) : length v = 64 -> hi256 v = skipn 32 v.
Proof. intros L. unfold hi256, extract. cbn [Nat.mul Nat.add]. apply firstn_all2. rewrite skipn_length. lia. Qed.
Lemma extract3_skip (v : list A) : length v = 64 -> extract 3 16 v = skipn 48 v.
Proof. intros L. unfold extract. cbn [Nat.mul Nat.add]. apply firstn_all2. rewrite skipn_length. lia. Qed.
Lemma avx2_shifted v k : length v = 32 -> k < 16 -> shifted k v (alignr_blocks zero 2 (permute2x128_81 zero v) v k).
Proof. intros L K. explicit v L. shifts k K. Qed.
Lemma avx_shifted v k : length v = 32 -> k < 16 -> shifted k v (alignr16 zero (hi128 v) (lo128 v) k ++ srli_si128 zero (hi128 v) k).
Proof. intros L K. explicit v L. shifts k K. Qed.
Lemma shift32_ok T t shift v : length v = 32 -> shift <= 32 -> shifted shift v (shift32 zero T t shift v).
Proof.
  intros L S. unfold shift32. destruct (Nat.eqb_spec shift 0) as [->|N]; [apply shifted_zero|].
  destruct (Nat.eqb_spec shift 32) as [->|N2]; [rewrite <- L; apply shifted_all|].
  destruct (t_x86 T); cbn [andb]; [|apply chunks_shifted; [left; rewrite L; reflexivity|lia]].
  destruct (Nat.eqb_spec shift 16) as [->|N3].
  { rewrite hi128_skip by auto. change 16 with (16 + 0) at 1. apply extend_high; auto; try lia. apply shifted_zero. }
  destruct (t_avx2 T); cbn [andb].
  { destruct (Nat.ltb_spec shift 16); [apply avx2_shifted; auto|].
    destruct (t_avx T); cbn [andb]; (destruct (Nat.ltb_spec 16 shift); [|lia]);
    rewrite hi128_skip by auto; replace shift with (16 + (shift - 16)) at 1 by lia; (apply extend_high; auto; try lia; apply shift16_ok; [rewrite skipn_length; lia|lia]). }
  destruct (t_avx T); cbn [andb].
  { destruct (Nat.ltb_spec shift 16); [apply avx_shifted; auto|]. destruct (Nat.ltb_spec 16 shift); [|lia].
    rewrite hi128_skip by auto; replace shift with (16 + (shift - 16)) at 1 by lia; apply extend_high; auto; try lia; apply shift16_ok; [rewrite skipn_length; lia|lia]. }
  destruct (Nat.ltb_spec 16 shift); [|apply chunks_shifted; [left; rewrite L; reflexivity|lia]].
  rewrite hi128_skip by auto; replace shift with (16 + (shift - 16)) at 1 by lia; apply extend_high; auto; try lia; apply shift16_ok; [rewrite skipn_length; lia|lia].
Qed.
Lemma alignr512_shifted v w k : length v = 64 -> w * k <= 64 -> shifted (w * k) v (alignr512 w (zeros zero 64) v k).
Proof.
  intros L K. unfold alignr512, shifted, zeros. rewrite firstn_length, skipn_length, app_length, repeat_length. split; [lia|].
  rewrite firstn_firstn, skipn_app. replace (w * k - length v) with 0 by lia. cbn [skipn].
  replace (Nat.min (length v - w * k) 64) with (length (skipn (w * k) v)) by (rewrite skipn_length; lia).
  rewrite firstn_app, firstn_all, Nat.sub_diag. cbn [firstn]. apply app_nil_r.
Qed.
Lemma bw_low v k : length v = 64 -> k < 16 -> shifted k v (alignr_blocks zero 4 (shuffle_i32x4 v v 249) v k).
Proof. intros L K. explicit v L. shifts k K. Qed.
Lemma bw_high v k : length v = 64 -> k < 16 -> shifted (16 + k) v (alignr_blocks zero 4 (shuffle_i32x4 v (zeros zero 64) 238) (shuffle_i32x4 v v 249) k).
Proof. intros L K. explicit v L. shifts k K. Qed.
Lemma shift64_ok T t shift v : length v = 64 -> shift <= 64 -> (shift mod 4 = 0 \/ t_avx512f T = false \/ t_avx512bw T = true) ->
  exists r, shift64 zero T t shift v = Some r /\ shifted shift v r.
Proof.
  intros L S BW. unfold shift64. destruct (Nat.eqb_spec shift 0) as [->|N]; [eexists; split; [reflexivity|apply shifted_zero]|].
  destruct (Nat.eqb_spec shift 64) as [->|N2]; [eexists; split; [reflexivity|]; rewrite <- L; apply shifted_all|].
  destruct (t_x86 T); cbn [andb]; [|eexists; split; [reflexivity|]; apply chunks_shifted; [left; rewrite L; reflexivity|lia]].
  destruct (Nat.eqb_spec shift 32) as [->|N3].
  { eexists; split; [reflexivity|]. rewrite hi256_skip by auto. change 32 with (32 + 0) at 1. apply extend_high; auto; try lia. apply shifted_zero. }
  destruct (t_avx512f T) eqn:F; cbn [andb]; [|eexists; split; [reflexivity|]; apply chunks_shifted; [left; rewrite L; reflexivity|lia]].
  destruct (Nat.leb_spec 48 shift).
  { eexists; split; [reflexivity|]. rewrite extract3_skip by auto. replace shift with (48 + (shift - 48)) at 1 by lia. apply extend_high; auto; try lia. apply shift16_ok; [rewrite skipn_length; lia|lia]. }
  destruct (Nat.leb_spec 32 shift).
  { eexists; split; [reflexivity|]. rewrite hi256_skip by auto. replace shift with (32 + (shift - 32)) at 1 by lia. apply extend_high; auto; try lia. apply shift32_ok; [rewrite skipn_length; lia|lia]. }
  destruct (Nat.eqb_spec (shift mod 8) 0) as [E|E].
  { eexists; split; [reflexivity|]. assert (X : shift = 8 * (shift / 8)) by (pose proof (Nat.div_mod shift 8); lia). rewrite X at 1. apply alignr512_shifted; auto; lia. }
  destruct (Nat.eqb_spec (shift mod 4) 0) as [E4|E4].
  { eexists; split; [reflexivity|]. assert (X : shift = 4 * (shift / 4)) by (pose proof (Nat.div_mod shift 4); lia). rewrite X at 1. apply alignr512_shifted; auto; lia. }
  destruct BW as [B|[B|B]]; [contradiction|discriminate|]. rewrite B. cbn [andb].
  destruct (Nat.ltb_spec shift 16); [eexists; split; [reflexivity|apply bw_low; auto]|].
  destruct (Nat.ltb_spec shift 32); [|lia]. eexists; split; [reflexivity|]. replace shift with (16 + (shift - 16)) at 1 by lia. apply bw_high; auto; lia.
Qed.
Lemma shift_right_ok T t shift v : (length v = 16 \/ length v = 32 \/ length v = 64) -> shift <= length v ->
  (length v = 64 -> shift mod 4 = 0 \/ t_avx512f T = false \/ t_avx512bw T = true) ->
  exists r, shift_right zero T t shift v = Some r /\ shifted shift v r.
Proof.
  intros L S BW. unfold shift_right. destruct (Nat.ltb_spec (length v) shift); [lia|].
  destruct L as [L|[L|L]].
  - rewrite L. cbn [Nat.eqb]. eexists; split; [reflexivity|apply shift16_ok; lia].
  - rewrite L. cbn [Nat.eqb]. eexists; split; [reflexivity|apply shift32_ok; lia].
  - replace (length v =? 64) with true by (rewrite L; reflexivity). apply shift64_ok; auto; lia.
Qed.
End Proofs.
