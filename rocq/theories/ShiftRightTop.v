(* __extract_part on bytes *)
From Coq Require Import List Arith Bool Lia.
From Verif Require Import Prelude BitMask Abi Fixed Mem Convert ConvertProofs ShiftRight ShiftRightSpec ShiftRightProofs.
Import ListNotations.

Section Top.
Context {A : Type} (zero : A).
Lemma shift_core T t sz shift (v : list A) : register_bytes (length v) -> shift <= length v -> has_bw T sz (length v) -> shift mod sz = 0 -> 1 <= sz ->
  exists r, shift_right zero T t shift v = Some r /\ length r = length v /\ starts_with r shift (length v - shift) v.
Proof.
  intros L S BW M Z. destruct (shift_right_ok zero T t shift v L S) as (r & E & H1 & H2).
  - intros L64. destruct (Nat.eq_dec (sz mod 4) 0) as [Z4|Z4].
    + left. apply Nat.mod_divides in M; [|lia]. destruct M as [q ->]. apply Nat.mod_divides in Z4; [|lia]. destruct Z4 as [w ->].
      apply Nat.mod_divides; [lia|]. exists (w * q). lia.
    + destruct (t_avx512f T) eqn:F; [|auto]. right. right. apply BW; auto.
  - exists r. split; auto. split; auto. unfold starts_with, bytes_at. cbn [skipn]. split; [lia|]. rewrite H2. symmetry. apply firstn_all2. rewrite skipn_length. lia.
Qed.
Lemma starts_first (r : list A) a n m x : starts_with r a n x -> m <= n -> starts_with r a m x.
Proof.
  unfold starts_with, bytes_at. cbn [skipn]. intros [L E] M. split; [lia|]. replace m with (Nat.min m n) by lia. rewrite <- !firstn_firstn, E. reflexivity.
Qed.
Lemma starts_cut (r : list A) a n k x : starts_with r a n x -> n <= k -> starts_with (firstn k r) a n x.
Proof.
  unfold starts_with, bytes_at. cbn [skipn]. intros [L E] M. rewrite firstn_length, firstn_firstn. split; [lia|]. replace (Nat.min n k) with n by lia. exact E.
Qed.
Lemma starts_extend (r : list A) a n k x : starts_with r a n x -> starts_with (zero_extend zero k r) a n x.
Proof.
  unfold starts_with, bytes_at, zero_extend. cbn [skipn]. intros [L E]. rewrite app_length. split; [lia|].
  rewrite firstn_app. replace (n - length r) with 0 by lia. cbn [firstn]. rewrite app_nil_r. exact E.
Qed.
Lemma starts_self (x : list A) a n : a + n <= length x -> starts_with (bytes_at a n x) a n x.
Proof.
  unfold starts_with, bytes_at. cbn [skipn]. intros L. rewrite firstn_length, skipn_length, firstn_firstn, Nat.min_id. split; [lia|reflexivity].
Qed.
Lemma elements_bytes (x : list A) s sz n : 1 <= sz -> (s + n) * sz <= length x -> flat_map (fun i => extract (s + i) sz x) (seq 0 n) = bytes_at (s * sz) (n * sz) x.
Proof.
  intros Z. revert s. induction n as [|n IH]; intros s L; [reflexivity|].
  cbn [seq flat_map]. rewrite <- seq_shift, flat_map_concat_map, map_map, <- flat_map_concat_map.
  erewrite flat_map_ext; [|intros j; replace (s + S j) with (S s + j) by lia; reflexivity].
  rewrite IH by nia. unfold extract, bytes_at. rewrite Nat.add_0_r. replace (S s * sz) with (s * sz + sz) by lia. rewrite <- Prelude.skipn_skipn'.
  replace (S n * sz) with (sz + n * sz) by lia. set (y := skipn (s * sz) x). rewrite <- (firstn_skipn sz y) at 3. rewrite firstn_app, firstn_firstn.
  assert (length (firstn sz y) = sz) by (rewrite firstn_length; unfold y; rewrite skipn_length; nia). rewrite H. rewrite Nat.min_r by lia. f_equal. f_equal. lia.
Qed.
Lemma alignr_part (x : list A) a n : length x = 32 -> a + n <= 32 -> n <= 16 -> starts_with (alignr16 zero (hi128 x) (lo128 x) a) a n x.
Proof.
  intros L B N. assert (E : lo128 x ++ hi128 x = x).
  { rewrite hi128_skip by auto. unfold lo128, extract. cbn [Nat.mul skipn]. apply firstn_skipn. }
  unfold alignr16. rewrite E. apply starts_cut; auto. unfold starts_with, bytes_at. cbn [skipn]. rewrite app_length, skipn_length. split; [unfold zeros; rewrite repeat_length; lia|].
  rewrite firstn_app. replace (n - length (skipn a x)) with 0 by (rewrite skipn_length; lia). cbn [firstn]. apply app_nil_r.
Qed.
Lemma extract_core T t rbytes constant sz np (x : list A) : 1 <= sz -> object_bytes (length x) -> has_bw T sz (length x) -> (forall k, k * sz <= rbytes k) ->
  forall fuel index total combine v, 1 <= combine <= fuel -> 1 <= total -> 1 <= v -> np = total * v -> (index + combine) * v * sz <= length x ->
  exists r, extract_bytes zero T t rbytes constant sz np x fuel index total combine = Some r /\ starts_with r (index * v * sz) (combine * v * sz) x.
Proof.
  intros Z O BW R. induction fuel as [|fuel IH]; intros index total combine v Hc Ht Hv Hn Hb; [lia|]. cbn [extract_bytes].
  destruct ((index mod 2 =? 0) && (total mod 2 =? 0) && (combine mod 2 =? 0)) eqn:E.
  - apply andb_true_iff in E as [E E3]. apply andb_true_iff in E as [E1 E2]. apply Nat.eqb_eq in E1, E2, E3.
    assert (Hi : index = 2 * (index / 2)) by (pose proof (Nat.div_mod index 2); lia).
    assert (Hto : total = 2 * (total / 2)) by (pose proof (Nat.div_mod total 2); lia).
    assert (Hco : combine = 2 * (combine / 2)) by (pose proof (Nat.div_mod combine 2); lia).
    set (i := index / 2) in *. set (tt := total / 2) in *. set (c := combine / 2) in *.
    destruct (IH i tt c (2 * v)) as (r & Er & Hr); try lia; try nia.
    exists r. split; auto. replace (index * v * sz) with (i * (2 * v) * sz) by nia. replace (combine * v * sz) with (c * (2 * v) * sz) by nia. exact Hr.
  - cbv zeta. assert (Ev : np / total = v) by (subst np; rewrite Nat.mul_comm; apply Nat.div_mul; lia). rewrite Ev.
    set (ret := v * combine). set (skip := index * v). replace (combine * v * sz) with (ret * sz) by (unfold ret; lia).
    assert (B : (skip + ret) * sz <= length x) by (unfold skip, ret; nia). assert (Rr : ret * sz <= rbytes ret) by apply R.
    destruct (Nat.ltb_spec (length x) ((index + combine) * v * sz)); [lia|].
    destruct constant.
    { eexists. split; [reflexivity|]. rewrite elements_bytes by auto. apply starts_extend, starts_self. lia. }
    destruct (Nat.eqb_spec index 0) as [I0|I0]; cbn [andb].
    { assert (S0 : skip = 0) by (unfold skip; rewrite I0; lia). rewrite S0 in *. cbn [Nat.mul].
      assert (Q : starts_with x 0 (ret * sz) x) by (split; [lia|reflexivity]).
      destruct (total =? 1); eexists; (split; [reflexivity|]); auto. apply starts_cut; auto. }
    assert (MEM : starts_with (zero_extend zero (rbytes ret) (firstn (ret * sz) (skipn (skip * sz) x))) (skip * sz) (ret * sz) x) by (apply starts_extend, starts_self; lia).
    destruct (t_x86 T && (length x =? 32) && (ret * sz <=? 16)) eqn:C.
    { apply andb_true_iff in C as [C C3]. apply andb_true_iff in C as [_ C2]. apply Nat.eqb_eq in C2. apply Nat.leb_le in C3.
      destruct (Nat.eqb_spec (skip * sz) 16) as [S16|S16]; eexists; (split; [reflexivity|]); apply starts_cut; auto.
      - rewrite hi128_skip by auto. rewrite S16. split; [rewrite skipn_length; lia|reflexivity].
      - apply alignr_part; lia. }
    destruct ((negb (skip mod ret =? 0) || (8 <=? rbytes ret)) && ((skip + ret) * sz <=? 64) && (16 <=? length x)) eqn:D.
    { apply andb_true_iff in D as [_ D]. apply Nat.leb_le in D.
      destruct (shift_core T t sz (skip * sz) x) as (r & Er & Lr & Sr); auto; try lia.
      - unfold object_bytes in O. unfold register_bytes in *. lia.
      - apply Nat.mod_mul. lia.
      - rewrite Er. cbn [option_map]. eexists. split; [reflexivity|]. apply starts_cut; auto. apply (starts_first _ _ _ (ret * sz)) in Sr; auto. lia. }
    eexists. split; [reflexivity|]. exact MEM.
Qed.
End Top.

(* the versions on lanes (Convert.v) *)

Section Lanes.
Context {A : Type} (zero : A).
Lemma concat_skip sz (reg : list (list A)) : Forall (fun l => length l = sz) reg -> forall a, skipn (a * sz) (concat reg) = concat (skipn a reg).
Proof.
  induction 1 as [|l reg L F IH]; intros [|a]; cbn [concat skipn Nat.mul]; auto; [rewrite skipn_nil; reflexivity|].
  rewrite Prelude.skipn_add. rewrite skipn_app. rewrite (skipn_all2 l) by lia. replace (sz - length l) with 0 by lia. cbn [skipn app]. apply IH.
Qed.
Lemma concat_first sz (reg : list (list A)) : Forall (fun l => length l = sz) reg -> forall n, firstn (n * sz) (concat reg) = concat (firstn n reg).
Proof.
  induction 1 as [|l reg L F IH]; intros [|n]; cbn [concat firstn Nat.mul]; auto; [rewrite firstn_nil; reflexivity|].
  rewrite firstn_app. rewrite firstn_all2 by lia. f_equal. rewrite L. replace (sz + n * sz - sz) with (n * sz) by lia. apply IH.
Qed.
Lemma concat_length sz (reg : list (list A)) : Forall (fun l => length l = sz) reg -> length (concat reg) = length reg * sz.
Proof. induction 1 as [|l reg L F IH]; cbn; auto. rewrite app_length, IH. lia. Qed.
Lemma refine_core T v I t x86 cp zl np (reg : list (list A)) rbytes constant index total combine w :
  1 <= esize t -> Forall (fun l => length l = esize t) reg -> object_bytes (length reg * esize t) -> has_bw T (esize t) (length reg * esize t) -> (forall k, k * esize t <= rbytes k) ->
  1 <= combine -> 1 <= total -> 1 <= w -> np = total * w -> (index + combine) * w <= length reg ->
  exists rl rb, extract_part I t zl x86 cp np reg combine index total combine = Some rl /\
    extract_bytes zero T v rbytes constant (esize t) np (concat reg) combine index total combine = Some rb /\
    firstn (combine * w * esize t) rb = concat (firstn (combine * w) rl) /\ combine * w <= length rl /\ combine * w * esize t <= length rb.
Proof.
  intros Z F O BW R Hc Ht Hw Hn Hb.
  destruct (extract_part_spec I t zl x86 cp np reg Z combine index total combine w) as (rl & El & Sl & Ll); auto.
  pose proof (concat_length (esize t) reg F) as LC.
  destruct (extract_core zero T v rbytes constant (esize t) np (concat reg)) with (fuel := combine) (index := index) (total := total) (combine := combine) (v := w) as (rb & Eb & Lb & Sb); auto; try (rewrite LC; auto).
  { apply Nat.mul_le_mono_r. lia. }
  exists rl, rb. split; [exact El|]. split; [exact Eb|]. unfold bytes_at in Sb. cbn [skipn] in Sb. split; [|auto].
  rewrite Sb, Sl. rewrite (concat_skip (esize t)) by auto. apply (concat_first (esize t)).
  apply Forall_forall. intros l Hl. rewrite Forall_forall in F. apply F. rewrite <- (firstn_skipn (index * w) reg). apply in_or_app. auto.
Qed.
End Lanes.
