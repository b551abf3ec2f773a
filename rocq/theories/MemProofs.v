(* Proofs about loads and stores. *)
From Coq Require Import List Arith Bool ZArith Lia.
From Verif Require Import Prelude MaskSpec BitMask BitMaskProofs Abi AbiSpec PropsAbi Fixed FixedSpec FixedProofs
  Targets FixedApply FixedStorage FixedMixed FixedMasks FixedTop Mem MemSpec.
Import ListNotations.

(* ------------------------------------------------------------------ *)
(* lists and options                                                    *)

Lemma omapm_spec {A B} (f : A -> option B) l : (forall a, In a l -> f a <> None) ->
  exists r, omapm f l = Some r /\ length r = length l /\
    forall i a, nth_error l i = Some a -> nth_error r i = f a.
Proof.
  induction l as [|a l IH]; intros H.
  - exists []. repeat split; auto. intros [|i]; discriminate.
  - destruct IH as (r & E & L & N); [intros; apply H; right; auto|].
    destruct (f a) as [b|] eqn:Ef; [|exfalso; apply (H a); simpl; auto].
    exists (b :: r). cbn [omapm]. rewrite Ef, E. simpl. repeat split; auto.
    intros [|i] x Hx; simpl in *; auto. injection Hx as <-. auto.
Qed.
Lemma nth_error_seq s n i : i < n -> nth_error (seq s n) i = Some (s + i).
Proof.
  intros. rewrite (nth_error_nth' _ 0) by (rewrite seq_length; auto). rewrite seq_nth; auto.
Qed.

Lemma mread_range_spec {A} (m : mem A) off n : accessible (mshift m off) (below n) ->
  exists l, mread_range m off n = Some l /\ length l = n /\
    forall i, i < n -> nth_error l i = m (off + i).
Proof.
  intros H. unfold mread_range. destruct (omapm_spec m (seq off n)) as (r & E & L & N).
  - intros a Ha. apply in_seq in Ha. specialize (H (a - off)). unfold mshift, below in H.
    replace (off + (a - off)) with a in H by lia. apply H. apply Nat.ltb_lt. lia.
  - exists r. rewrite seq_length in L. repeat split; auto. intros i Hi. apply N. apply nth_error_seq; auto.
Qed.

Definition in_dom (j : nat) (l : list nat) : bool := existsb (Nat.eqb j) l.
Lemma in_dom_iff j l : in_dom j l = true <-> In j l.
Proof.
  unfold in_dom. rewrite existsb_exists. split.
  - intros (x & Hx & E). apply Nat.eqb_eq in E. subst. auto.
  - intros. exists j. split; auto. apply Nat.eqb_refl.
Qed.

Lemma mwrites_spec {A} (l : list (nat * A)) : forall m val,
  (forall i v, In (i, v) l -> m i <> None /\ val i = Some v) ->
  exists m', mwrites m l = Some m' /\ wrote m m' (fun j => in_dom j (map fst l)) val.
Proof.
  induction l as [|[i v] l IH]; intros m val H.
  - exists m. split; auto. intros j. reflexivity.
  - cbn [mwrites]. unfold mwrite. destruct (m i) eqn:Em.
    2:{ exfalso. apply (proj1 (H i v (or_introl eq_refl))). auto. }
    destruct (IH (fun j => if j =? i then Some v else m j) val) as (m' & E & W).
    { intros i' v' Hin. destruct (H i' v') as [H1 H2]; [right; auto|]. split; auto.
      destruct (i' =? i); [discriminate|auto]. }
    exists m'. split; auto. intros j. rewrite (W j). cbn [map fst in_dom existsb].
    change (existsb (Nat.eqb j) (map fst l)) with (in_dom j (map fst l)).
    destruct (in_dom j (map fst l)) eqn:Ed; [rewrite orb_true_r; auto|]. rewrite orb_false_r.
    destruct (Nat.eqb_spec j i); auto. subst. symmetry. apply (H i v). left; auto.
Qed.
Lemma wrote_ext {A} (m m' : mem A) P Q val val' : wrote m m' P val ->
  (forall j, P j = Q j) -> (forall j, Q j = true -> val j = val' j) -> wrote m m' Q val'.
Proof. intros W E V j. rewrite (W j), E. destruct (Q j) eqn:Ej; auto. Qed.
Lemma wrote_seq {A} (m m1 m2 : mem A) P Q val : wrote m m1 P val -> wrote m1 m2 Q val ->
  wrote m m2 (fun j => P j || Q j) val.
Proof.
  intros W1 W2 j. rewrite (W2 j), (W1 j). destruct (P j), (Q j); auto.
Qed.
Lemma wrote_accessible {A} (m m' : mem A) P Q val : wrote m m' P val ->
  (forall j, P j = true -> val j <> None) -> accessible m Q -> accessible m' Q.
Proof. intros W V H j Hj. rewrite (W j). destruct (P j) eqn:E; auto. Qed.
Lemma accessible_sub {A} (m : mem A) P Q : accessible m P -> (forall j, Q j = true -> P j = true) -> accessible m Q.
Proof. intros H S j Hj. auto. Qed.

Lemma in_dom_seq j s n : in_dom j (seq s n) = (s <=? j) && (j <? s + n).
Proof.
  destruct (in_dom j (seq s n)) eqn:E.
  - apply in_dom_iff, in_seq in E. symmetry. apply andb_true_iff. rewrite Nat.leb_le, Nat.ltb_lt. lia.
  - symmetry. apply not_true_iff_false. intros H. apply andb_true_iff in H. rewrite Nat.leb_le, Nat.ltb_lt in H.
    assert (in_dom j (seq s n) = true) by (apply in_dom_iff, in_seq; lia). congruence.
Qed.
Lemma map_fst_combine {A B} (a : list A) (b : list B) : length a <= length b -> map fst (combine a b) = a.
Proof. revert b. induction a; intros [|y b] H; simpl in *; auto; try lia. f_equal. apply IHa. lia. Qed.
Lemma in_combine_seq {B} (l : list B) off i v : In (i, v) (combine (seq off (length l)) l) ->
  off <= i /\ i < off + length l /\ nth_error l (i - off) = Some v.
Proof.
  revert off. induction l as [|x l IH]; intros off H; simpl in H; [tauto|].
  destruct H as [H|H].
  - injection H as -> ->. rewrite Nat.sub_diag. simpl. repeat split; auto; lia.
  - apply IH in H as (H1 & H2 & H3). repeat split; simpl; try lia.
    replace (i - off) with (S (i - S off)) by lia. auto.
Qed.

Lemma mwrite_range_spec {A} (m : mem A) off (l : list A) :
  accessible m (fun j => (off <=? j) && (j <? off + length l)) ->
  exists m', mwrite_range m off l = Some m' /\
    wrote m m' (fun j => (off <=? j) && (j <? off + length l)) (fun j => nth_error l (j - off)).
Proof.
  intros H. unfold mwrite_range.
  destruct (mwrites_spec (combine (seq off (length l)) l) m (fun j => nth_error l (j - off))) as (m' & E & W).
  { intros i v Hin. apply in_combine_seq in Hin as (H1 & H2 & H3). split; auto.
    apply H. apply andb_true_iff. rewrite Nat.leb_le, Nat.ltb_lt. lia. }
  exists m'. split; auto. eapply wrote_ext; [exact W| |auto].
  intros j. rewrite map_fst_combine by (rewrite seq_length; auto). apply in_dom_seq.
Qed.

Lemma common_store_spec {A} n (reg : list A) off m : n <= length reg ->
  accessible m (fun j => (off <=? j) && (j <? off + n)) ->
  exists m', common_store n reg off m = Some m' /\
    wrote m m' (fun j => (off <=? j) && (j <? off + n)) (fun j => nth_error reg (j - off)).
Proof.
  intros Hn H. unfold common_store.
  assert (L : length (firstn n reg) = n) by (rewrite firstn_length; lia).
  destruct (mwrite_range_spec m off (firstn n reg)) as (m' & E & W); [rewrite L; auto|].
  exists m'. split; auto. rewrite L in W. eapply wrote_ext; [exact W|auto|].
  intros j Hj. apply andb_true_iff in Hj. rewrite Nat.leb_le, Nat.ltb_lt in Hj.
  apply nth_error_firstn. lia.
Qed.

Lemma nth_error_skipn' {A} (l : list A) n i : nth_error (skipn n l) i = nth_error l (n + i).
Proof. revert n. induction l; intros [|n]; simpl; auto. destruct i; auto. Qed.
Lemma slice_nth_error {A} w i (l : list A) j : j < w -> nth_error (slice w i l) j = nth_error l (i * w + j).
Proof. intros. unfold slice. rewrite nth_error_firstn by auto. apply nth_error_skipn'. Qed.
Lemma slice_length {A} w i (l : list A) : length (slice w i l) = Nat.min w (length l - i * w).
Proof. unfold slice. rewrite firstn_length, skipn_length. auto. Qed.

Lemma esize_cases u : elem_ok u -> esize u <= 8 -> esize u = 1 \/ esize u = 2 \/ esize u = 4 \/ esize u = 8.
Proof. destruct u; simpl; intros; lia. Qed.
Lemma esize_pos u : elem_ok u -> 1 <= esize u.
Proof. destruct u; simpl; intros; lia. Qed.
Lemma max_load_cases I u : max_load_size I u = 16 \/ max_load_size I u = 32 \/ max_load_size I u = 64.
Proof. unfold max_load_size. destruct (_ || _); auto. destruct (_ || _); auto. Qed.
Lemma max_store_cases x86 I u : max_store_size x86 I u = 16 \/ max_store_size x86 I u = 32 \/ max_store_size x86 I u = 64.
Proof. unfold max_store_size. destruct x86; auto. apply max_load_cases. Qed.


Lemma store_parts_spec {A} vs (reg : list A) c : 1 <= vs -> forall i m,
  (i + c) * vs <= length reg ->
  accessible m (fun j => (i * vs <=? j) && (j <? (i + c) * vs)) ->
  exists m', store_parts vs (seq i c) reg m = Some m' /\
    wrote m m' (fun j => (i * vs <=? j) && (j <? (i + c) * vs)) (fun j => nth_error reg j).
Proof.
  intros Hvs. induction c as [|c IH]; intros i m Hl Ha.
  - exists m. split; auto. intros j.
    destruct (Nat.leb_spec (i * vs) j), (Nat.ltb_spec j ((i + 0) * vs)); simpl; auto. lia.
  - cbn [seq store_parts].
    destruct (common_store_spec vs (slice vs i reg) (i * vs) m) as (m1 & E1 & W1).
    { rewrite slice_length. nia. }
    { eapply accessible_sub; [exact Ha|]. intros j Hj. rewrite andb_true_iff, Nat.leb_le, Nat.ltb_lt in *. nia. }
    rewrite E1.
    assert (W1' : wrote m m1 (fun j => (i * vs <=? j) && (j <? i * vs + vs)) (fun j => nth_error reg j)).
    { eapply wrote_ext; [exact W1|auto|]. intros j Hj.
      rewrite andb_true_iff, Nat.leb_le, Nat.ltb_lt in Hj. rewrite slice_nth_error by lia. f_equal. lia. }
    destruct (IH (S i) m1) as (m2 & E2 & W2).
    { lia. }
    { eapply wrote_accessible; [exact W1'| |].
      - intros j Hj. rewrite andb_true_iff, Nat.leb_le, Nat.ltb_lt in Hj. apply nth_error_Some. nia.
      - eapply accessible_sub; [exact Ha|]. intros j Hj. rewrite andb_true_iff, Nat.leb_le, Nat.ltb_lt in *. nia. }
    exists m2. split; auto. eapply wrote_ext; [eapply wrote_seq; [exact W1'|exact W2]| |auto].
    intros j. cbn beta. replace (S i * vs) with (i * vs + vs) by lia.
    replace ((S i + c) * vs) with ((i + S c) * vs) by lia.
    assert (i * vs + vs <= (i + S c) * vs) by nia.
    destruct (Nat.leb_spec (i * vs) j), (Nat.ltb_spec j (i * vs + vs)), (Nat.leb_spec (i * vs + vs) j),
      (Nat.ltb_spec j ((i + S c) * vs)); simpl; auto; lia.
Qed.

Lemma vec_store_spec {T U} x86 I u same (conv : T -> U) n reg m : elem_ok u -> n <= length reg ->
  accessible m (below n) ->
  exists m', vec_store x86 I u same conv n reg m = Some m' /\
    wrote m m' (below n) (fun j => option_map conv (nth_error reg j)).
Proof.
  intros Hu Hn Ha.
  assert (C : exists m', common_store n (map conv reg) 0 m = Some m' /\
    wrote m m' (below n) (fun j => option_map conv (nth_error reg j))).
  { destruct (common_store_spec n (map conv reg) 0 m) as (m' & E & W); [rewrite map_length; auto|exact Ha|].
    exists m'. split; auto. eapply wrote_ext; [exact W|auto|].
    intros j _. cbn beta. rewrite Nat.sub_0_r. apply nth_error_map. }
  unfold vec_store. destruct (Nat.ltb_spec 8 (esize u)) as [H8|H8].
  - assert (E0 : combine (seq 0 n) (map conv (firstn n reg))
               = combine (seq 0 (length (map conv (firstn n reg)))) (map conv (firstn n reg))).
    { rewrite map_length, firstn_length, Nat.min_l by auto. auto. }
    rewrite E0. rewrite <- firstn_map. exact C.
  - destruct same; [exact C|]. destruct (esize u * n <=? _) eqn:El; [exact C|].
    apply Nat.leb_gt in El. set (maxs := max_store_size x86 I u) in *.
    set (vs := maxs / esize u).
    assert (Hvs : 1 <= vs).
    { unfold vs. pose proof (max_store_cases x86 I u). fold maxs in H.
      destruct (esize_cases u Hu) as [E|[E|[E|E]]]; [lia| | | |]; rewrite E in *;
        destruct H as [E'|[E'|E']]; rewrite E'; vm_compute; lia. }
    assert (Hdm : n = n / vs * vs + n mod vs /\ n mod vs < vs).
    { pose proof (Nat.div_mod_eq n vs). pose proof (Nat.mod_upper_bound n vs). lia. }
    destruct Hdm as [Hdm Hmod].
    destruct (store_parts_spec vs (map conv reg) (n / vs) Hvs 0 m) as (m1 & E1 & W1).
    { rewrite map_length. simpl. lia. }
    { eapply accessible_sub; [exact Ha|]. intros j Hj. unfold below. rewrite andb_true_iff, Nat.leb_le, Nat.ltb_lt in *.
      simpl in Hj. lia. }
    rewrite E1. simpl Nat.add in W1.
    assert (Hdr : div_roundup n vs = if n mod vs =? 0 then n / vs else S (n / vs)).
    { unfold div_roundup. destruct (Nat.eqb_spec (n mod vs) 0) as [E|E].
      - symmetry. apply Nat.div_unique with (vs - 1); [lia|]. nia.
      - symmetry. apply Nat.div_unique with (n mod vs - 1); [lia|]. nia. }
    rewrite Hdr. destruct (Nat.eqb_spec (n mod vs) 0) as [Em|Em].
    + rewrite Nat.ltb_irrefl. exists m1. split; auto. eapply wrote_ext; [exact W1| |].
      * intros j. unfold below. cbn beta. replace (n / vs * vs) with n by lia. auto.
      * intros j _. apply nth_error_map.
    + replace (n / vs <? S (n / vs)) with true by (symmetry; apply Nat.ltb_lt; lia).
      destruct (common_store_spec (n - n / vs * vs) (slice vs (n / vs) (map conv reg)) (n / vs * vs) m1)
        as (m2 & E2 & W2).
      { rewrite slice_length, map_length. lia. }
      { eapply wrote_accessible; [exact W1| |].
        - intros j Hj. rewrite andb_true_iff, Nat.leb_le, Nat.ltb_lt in Hj. apply nth_error_Some. rewrite map_length. lia.
        - eapply accessible_sub; [exact Ha|]. intros j Hj. unfold below. rewrite andb_true_iff, Nat.leb_le, Nat.ltb_lt in *. lia. }
      exists m2. split; auto.
      assert (W2' : wrote m1 m2 (fun j => (n / vs * vs <=? j) && (j <? n / vs * vs + (n - n / vs * vs)))
                      (fun j => nth_error (map conv reg) j)).
      { eapply wrote_ext; [exact W2|auto|]. intros j Hj. rewrite andb_true_iff, Nat.leb_le, Nat.ltb_lt in Hj.
        rewrite slice_nth_error by lia. f_equal. lia. }
      eapply wrote_ext; [eapply wrote_seq; [exact W1|exact W2']| |intros; apply nth_error_map].
      intros j. unfold below. cbn beta. replace (n / vs * vs + (n - n / vs * vs)) with n by lia.
      set (a := n / vs * vs) in *. simpl (0 * vs).
      destruct (Nat.leb_spec 0 j), (Nat.ltb_spec j a), (Nat.leb_spec a j), (Nat.ltb_spec j n); simpl; auto; lia.
Qed.

Lemma scalar_store_spec {T U} (conv : T -> U) reg m : 1 <= length reg -> accessible m (below 1) ->
  exists m', scalar_store conv reg m = Some m' /\
    wrote m m' (below 1) (fun j => option_map conv (nth_error reg j)).
Proof.
  intros Hl Ha. destruct reg as [|x r]; [simpl in Hl; lia|]. unfold scalar_store, mwrite.
  destruct (m 0) eqn:E; [|exfalso; apply (Ha 0); auto].
  eexists. split; [reflexivity|]. intros j. unfold below. destruct j; auto.
Qed.
Lemma reg_store_spec {T U} x86 I u same (conv : T -> U) n reg m : elem_ok u -> 1 <= n -> n <= length reg ->
  accessible m (below n) ->
  exists m', reg_store x86 I u same conv n reg m = Some m' /\
    wrote m m' (below n) (fun j => option_map conv (nth_error reg j)).
Proof.
  intros Hu H1 Hn Ha. unfold reg_store. destruct (Nat.eqb_spec (length reg) 1) as [E|E].
  - assert (n = 1) by lia. subst. apply scalar_store_spec; auto.
  - apply vec_store_spec; auto.
Qed.

(* loads *)
Definition loaded {U T} (conv : U -> T) (n full : nat) (m : mem U) (r : list T) : Prop :=
  length r = full /\ forall i, i < n -> nth_error r i = option_map conv (m i).

Lemma common_load_spec {A} (zero : A) n full m : n <= full -> accessible m (below n) ->
  exists l, common_load zero n full m = Some (l ++ repeat zero (full - n)) /\ length l = n /\
    forall i, i < n -> nth_error l i = m i.
Proof.
  intros Hf Ha. unfold common_load. destruct (mread_range_spec m 0 n) as (l & E & L & N); [exact Ha|].
  rewrite E. exists l. auto.
Qed.
Lemma vconvert_loaded {U T} (conv : U -> T) zero n full m l : n <= full -> n <= length l ->
  (forall i, i < n -> nth_error l i = m i) -> loaded conv n full m (vconvert conv zero full l).
Proof.
  intros Hf Hl N. unfold vconvert. split.
  - rewrite app_length, firstn_length, map_length, repeat_length. lia.
  - intros i Hi. rewrite nth_error_app1 by (rewrite firstn_length, map_length; lia).
    rewrite nth_error_firstn by lia. rewrite nth_error_map, N; auto.
Qed.
Lemma multi_reads {A} (zu : A) q m c : bit_ceil q = q -> forall s, accessible m (below ((s + c) * q)) ->
  exists ls, omapm (fun i => common_load zu q (bit_ceil q) (mshift m (i * q))) (seq s c) = Some ls /\
    length (concat ls) = c * q /\ forall i, i < c * q -> nth_error (concat ls) i = m (s * q + i).
Proof.
  intros Hq. rewrite Hq. induction c as [|c IH]; intros s Ha.
  - exists []. repeat split; auto. intros; lia.
  - cbn [seq omapm]. destruct (common_load_spec zu q q (mshift m (s * q))) as (l & E & L & N); auto.
    { intros j Hj. unfold mshift. apply Ha. unfold below in *. apply Nat.ltb_lt in Hj. apply Nat.ltb_lt. nia. }
    rewrite E. rewrite Nat.sub_diag, app_nil_r.
    destruct (IH (S s)) as (ls & E2 & L2 & N2).
    { replace (S s + c) with (s + S c) by lia. auto. }
    rewrite E2. exists (l :: ls). split; auto. simpl concat. rewrite app_length, L, L2. split; [lia|].
    intros i Hi. destruct (le_lt_dec q i).
    + rewrite nth_error_app2 by lia. rewrite L, N2 by lia. f_equal. lia.
    + rewrite nth_error_app1 by lia. rewrite N by lia. auto.
Qed.
Lemma multi_load_spec {U T} (conv : U -> T) zu zero q c full m : 1 <= q -> 1 <= c -> bit_ceil q = q ->
  c * q <= full -> accessible m (below (c * q)) ->
  exists r, multi_load conv zu zero (c * q) full c m = Some r /\ loaded conv (c * q) full m r.
Proof.
  intros Hq1 Hc Hq Hf Ha. unfold multi_load. rewrite (Nat.mul_comm c q), Nat.div_mul by lia.
  destruct (multi_reads zu q m c Hq 0) as (ls & E & L & N); [exact Ha|].
  rewrite E. eexists. split; [reflexivity|]. rewrite (Nat.mul_comm q c).
  apply vconvert_loaded; auto; lia.
Qed.

Lemma multi_load_bytes {U T} (conv : U -> T) zu zero es q n full (m : mem U) : 1 <= es -> 1 <= q ->
  bit_ceil q = q -> 1 <= n -> (es * n) mod (es * q) = 0 -> n <= full -> accessible m (below n) ->
  exists r, multi_load conv zu zero n full (es * n / (es * q)) m = Some r /\ loaded conv n full m r.
Proof.
  intros He Hq Hb Hn Hm Hf Ha.
  rewrite Nat.div_mul_cancel_l by lia. rewrite Nat.mul_mod_distr_l in Hm by lia.
  assert (Hn0 : n = n / q * q) by (pose proof (Nat.div_mod_eq n q); nia).
  assert (1 <= n / q) by nia. set (c := n / q) in *. clearbody c. subst n.
  apply multi_load_spec; auto.
Qed.

Lemma vec_load_spec {U T} I u same (conv : U -> T) zu zero n full m : elem_ok u -> 1 <= n -> n <= full ->
  accessible m (below n) ->
  exists r, vec_load I u same conv zu zero n full m = Some r /\ loaded conv n full m r.
Proof.
  intros Hu H1 Hf Ha. unfold vec_load. destruct (Nat.ltb_spec 8 (esize u)) as [H8|H8].
  { destruct (omapm_spec (fun i => if i <? n then option_map conv (m i) else Some (conv zu)) (seq 0 full))
      as (r & E & L & N).
    - intros a _. destruct (a <? n) eqn:Ea; [|discriminate]. specialize (Ha a Ea). destruct (m a); simpl; congruence.
    - rewrite E. exists r. split; auto. rewrite seq_length in L. split; auto. intros i Hi.
      rewrite (N i i) by (apply nth_error_seq; lia). replace (i <? n) with true by (symmetry; apply Nat.ltb_lt; auto). auto. }
  destruct same.
  { destruct (common_load_spec zu n full m) as (l & E & L & N); auto. rewrite E. eexists. split; [reflexivity|]. split.
    - rewrite map_length, app_length, repeat_length. lia.
    - intros i Hi. rewrite nth_error_map, nth_error_app1 by lia. rewrite N; auto. }
  destruct (Nat.leb_spec (esize u * n) (max_load_size I u)) as [Hb|Hb].
  { destruct (common_load_spec zu n (bit_ceil n) m) as (l & E & L & N); auto using bit_ceil_ge.
    rewrite E. eexists. split; [reflexivity|]. apply vconvert_loaded; auto.
    - rewrite app_length. lia.
    - intros i Hi. rewrite nth_error_app1 by lia. auto. }
  assert (HQ : forall M, M = 8 \/ M = 16 \/ M = 32 \/ M = 64 ->
     exists q, 1 <= q /\ bit_ceil q = q /\ esize u * q = M).
  { intros M HM. exists (M / esize u).
    destruct (esize_cases u Hu) as [E|[E|[E|E]]]; [lia| | | |]; rewrite E;
      destruct HM as [->|[->|[->| ->]]]; vm_compute; repeat split; lia. }
  destruct (Nat.eqb_spec ((esize u * n) mod max_load_size I u) 0) as [Hm|Hm].
  { destruct (HQ (max_load_size I u)) as (q & Q1 & Q2 & Q3);
      [pose proof (max_load_cases I u); tauto|].
    rewrite <- Q3 in *. apply multi_load_bytes; auto. apply esize_pos; auto. }
  destruct (Nat.eqb_spec ((esize u * n) mod (max_load_size I u / 2)) 0) as [Hm2|Hm2];
    [destruct (Nat.ltb_spec 16 (max_load_size I u)) as [H16|H16]|]; cbn [andb].
  { destruct (HQ (max_load_size I u / 2)) as (q & Q1 & Q2 & Q3).
    { destruct (max_load_cases I u) as [E|[E|E]]; rewrite E; vm_compute; tauto. }
    rewrite <- Q3 in *. apply multi_load_bytes; auto. apply esize_pos; auto. }
  all: destruct (mread_range_spec m 0 n) as (l & E & L & N); [exact Ha|]; unfold mread_range in E; rewrite E;
    eexists; split; [reflexivity|]; split;
    [rewrite app_length, map_length, repeat_length; lia
    |intros i Hi; rewrite nth_error_app1 by (rewrite map_length; lia); rewrite nth_error_map, N; auto].
Qed.
Lemma reg_load_spec {U T} I u same (conv : U -> T) zu zero n full m : elem_ok u -> 1 <= n -> n <= full ->
  accessible m (below n) ->
  exists r, reg_load I u same conv zu zero n full m = Some r /\ loaded conv n full m r.
Proof.
  intros Hu H1 Hf Ha. unfold reg_load. destruct (Nat.eqb_spec full 1) as [->|E]; [|apply vec_load_spec; auto].
  assert (n = 1) by lia. subst. unfold scalar_load. pose proof (Ha 0 eq_refl) as H0.
  destruct (m 0) as [x|] eqn:E; [|congruence]. eexists. split; [reflexivity|]. split; auto.
  intros i Hi. assert (i = 0) by lia. subst. rewrite E. auto.
Qed.

(* ------------------------------------------------------------------ *)
(* fixed_size                                                           *)

Lemma at_offset_spec {U} (f : mem U -> option (mem U)) off m P val :
  (exists m', f (mshift m off) = Some m' /\ wrote (mshift m off) m' P (fun j => val (off + j))) ->
  exists m', at_offset f off m = Some m' /\ wrote m m' (fun j => (off <=? j) && P (j - off)) val.
Proof.
  intros (m' & E & W). unfold at_offset. rewrite E. eexists. split; [reflexivity|].
  intros j. destruct (Nat.ltb_spec j off), (Nat.leb_spec off j); try lia; auto.
  simpl. rewrite (W (j - off)). unfold mshift. replace (off + (j - off)) with j by lia. auto.
Qed.

Lemma fs_load_spec {U T} (conv : U -> T) ld s m :
  (forall n l m', 1 <= n -> n <= l -> accessible m' (below n) ->
     exists r, ld n l m' = Some r /\ loaded conv n l m' r) ->
  forall off, dense s -> accessible (mshift m off) (below (ssize s)) ->
  exists t, fs_load ld s off m = Some t /\ tshape t = s /\
    forall i, i < ssize s -> nth_error (telems t) i = option_map conv (m (off + i)).
Proof.
  intros Hld. induction s as [|[n l] s IH]; intros off Hd Ha.
  - exists []. repeat split; auto. intros i Hi. change (ssize []) with 0 in Hi. lia.
  - destruct Hd as (H1 & H2 & _ & Hd). rewrite ssize_cons in *. cbn [fst] in *.
    destruct (Hld n l (mshift m off)) as (r & E & L & N); auto.
    { eapply accessible_sub; [exact Ha|]. unfold below. intros j Hj. apply Nat.ltb_lt in Hj. apply Nat.ltb_lt. lia. }
    destruct (IH (off + n)) as (t & Et & St & Nt); auto.
    { intros j Hj. specialize (Ha (n + j)). unfold mshift, below in *. rewrite Nat.add_assoc in Ha. apply Ha.
      apply Nat.ltb_lt in Hj. apply Nat.ltb_lt. lia. }
    cbn [fs_load]. rewrite E, Et. exists (Chunk n r :: t). split; auto. split.
    + rewrite tshape_cons, St. unfold cshape. cbn [csize creg]. rewrite L. auto.
    + intros i Hi. unfold telems. cbn [flat_map]. fold (telems t). unfold celems. cbn [csize creg].
      assert (Lf : length (firstn n r) = n) by (rewrite firstn_length; lia).
      destruct (le_lt_dec n i).
      * rewrite nth_error_app2 by lia. rewrite Lf, Nt by lia. f_equal. f_equal. lia.
      * rewrite nth_error_app1 by lia. rewrite nth_error_firstn by auto. rewrite N by auto. auto.
Qed.

Lemma telems_cons {A} (c : chunk A) x : telems (c :: x) = celems c ++ telems x.
Proof. reflexivity. Qed.
Lemma celems_length {A} (c : chunk A) : chunk_ok c -> length (celems c) = csize c.
Proof. unfold chunk_ok, celems. intros. rewrite firstn_length. lia. Qed.

(* walking over the registers with masked stores *)
Lemma walk_store {T U} (conv : T -> U) (sel : nat -> bool) (x : tuple T) :
  forall (st : nat -> nat -> list T -> mem U -> option (mem U)) run off m,
  (forall o c r m', run o (c :: r) m' = match st o (csize c) (creg c) m' with
                                       | Some m'' => run (o + csize c) r m''
                                       | None => None end) ->
  (forall o m', run o [] m' = Some m') ->
  Forall (fun c => 1 <= csize c /\ chunk_ok c) x ->
  (forall o c m', In c x -> 1 <= csize c -> chunk_ok c -> off <= o -> o + csize c <= off + ssize (tshape x) ->
     accessible m' (fun j => (o <=? j) && (j <? o + csize c) && sel j) ->
     exists m'', st o (csize c) (creg c) m' = Some m'' /\
       wrote m' m'' (fun j => (o <=? j) && (j <? o + csize c) && sel j)
         (fun j => option_map conv (nth_error (creg c) (j - o)))) ->
  accessible m (fun j => (off <=? j) && (j <? off + ssize (tshape x)) && sel j) ->
  exists m', run off x m = Some m' /\
    wrote m m' (fun j => (off <=? j) && (j <? off + ssize (tshape x)) && sel j)
      (fun j => option_map conv (nth_error (telems x) (j - off))).
Proof.
  intros st run off m Hc Hn. revert off m. induction x as [|c x IH]; intros off m Hf Hst Ha.
  - rewrite Hn. exists m. split; auto. intros j. change (ssize (tshape [])) with 0.
    destruct (Nat.leb_spec off j), (Nat.ltb_spec j (off + 0)); simpl; auto. lia.
  - inversion Hf as [|? ? [Hc1 Hc2] Hf']; subst. rewrite tshape_cons, ssize_cons in *. change (fst (cshape c)) with (csize c) in *.
    destruct (Hst off c m) as (m1 & E1 & W1); auto; try lia; [left; auto| |].
    { eapply accessible_sub; [exact Ha|]. intros j Hj. rewrite !andb_true_iff, Nat.leb_le, Nat.ltb_lt in *. intuition lia. }
    rewrite Hc, E1.
    destruct (IH (off + csize c) m1) as (m2 & E2 & W2); auto.
    { intros. apply Hst; auto; [right; auto|lia|lia]. }
    { eapply wrote_accessible; [exact W1| |].
      - intros j Hj. rewrite !andb_true_iff, Nat.leb_le, Nat.ltb_lt in Hj.
        destruct (nth_error (creg c) (j - off)) eqn:E; [simpl; congruence|]. apply nth_error_None in E.
        unfold chunk_ok in Hc2. lia.
      - eapply accessible_sub; [exact Ha|]. intros j Hj. rewrite !andb_true_iff, Nat.leb_le, Nat.ltb_lt in *. intuition lia. }
    exists m2. split; auto.
    pose proof (celems_length c Hc2) as Lc.
    eapply wrote_ext; [eapply wrote_seq|  |].
    + eapply wrote_ext with (val' := fun j => option_map conv (nth_error (telems (c :: x)) (j - off))); [exact W1|reflexivity|].
      intros j Hj. rewrite !andb_true_iff, Nat.leb_le, Nat.ltb_lt in Hj. rewrite telems_cons, nth_error_app1 by lia.
      unfold celems. rewrite nth_error_firstn by lia. auto.
    + eapply wrote_ext; [exact W2|reflexivity|].
      intros j Hj. rewrite !andb_true_iff, Nat.leb_le, Nat.ltb_lt in Hj. rewrite telems_cons, nth_error_app2 by lia.
      do 2 f_equal. lia.
    + intros j. cbn beta. rewrite Nat.add_assoc.
      destruct (Nat.leb_spec off j), (Nat.ltb_spec j (off + csize c)), (Nat.leb_spec (off + csize c) j),
        (Nat.ltb_spec j (off + csize c + ssize (tshape x))), (sel j); simpl; auto; lia.
    + auto.
Qed.

Lemma fixed_walkable I t n {A} (x : tuple A) : fixed_size_type I t n -> is_fixed I t n x ->
  Forall (fun c => 1 <= csize c /\ chunk_ok c) x.
Proof.
  intros Hf Hx. destruct (fixed_facts I t n x Hf Hx) as (Hd & _ & Hok & _).
  apply dense_pos in Hd. rewrite Forall_forall in *. auto.
Qed.
Lemma fixed_nth_error I t n {A} (x : tuple A) i : fixed_size_type I t n -> is_fixed I t n x -> i < n ->
  nth_error (telems x) i = t_get x i.
Proof.
  intros Hf Hx Hi. destruct (fixed_facts I t n x Hf Hx) as (Hd & Hs & Hok & Hl & _).
  rewrite get_elems by (auto; lia). auto.
Qed.

Lemma c11_fixed_store {T U} x86 I t u n same (conv : T -> U) (x : tuple T) m :
  fixed_size_type I t n -> elem_ok u -> is_fixed I t n x -> accessible m (below n) ->
  exists m', fs_store (reg_store x86 I u same conv) 0 x m = Some m' /\
    wrote m m' (below n) (fun j => option_map conv (t_get x j)).
Proof.
  intros Hf Hu Hx Ha. destruct (fixed_facts I t n x Hf Hx) as (_ & Hs & _).
  destruct (walk_store conv (fun _ => true) x
    (fun o n r => at_offset (reg_store x86 I u same conv n r) o) (fs_store (reg_store x86 I u same conv)) 0 m)
    as (m' & E & W); auto.
  - eapply fixed_walkable; eauto.
  - intros o c m' _ H1 Hok _ _ Ha'.
    destruct (at_offset_spec (reg_store x86 I u same conv (csize c) (creg c)) o m' (below (csize c))
      (fun j => option_map conv (nth_error (creg c) (j - o)))) as (m2 & E2 & W2).
    { destruct (reg_store_spec x86 I u same conv (csize c) (creg c) (mshift m' o)) as (m2 & E2 & W2); auto.
      - intros j Hj. unfold mshift. apply Ha'. unfold below in Hj. apply Nat.ltb_lt in Hj.
        rewrite !andb_true_iff, Nat.leb_le, Nat.ltb_lt. repeat split; lia.
      - exists m2. split; auto. eapply wrote_ext; [exact W2|reflexivity|]. intros j _. cbn beta. replace (o + j - o) with j by lia. auto. }
    exists m2. split; auto. eapply wrote_ext; [exact W2| |reflexivity].
    intros j. unfold below. cbn beta. rewrite andb_true_r.
    destruct (Nat.leb_spec o j), (Nat.ltb_spec (j - o) (csize c)), (Nat.ltb_spec j (o + csize c)); simpl; auto; lia.
  - rewrite Hs. intros j Hj. apply Ha. rewrite andb_true_r in Hj. exact Hj.
  - exists m'. split; auto. rewrite Hs in W. eapply wrote_ext; [exact W| |].
    + intros j. cbn beta. rewrite andb_true_r. reflexivity.
    + intros j Hj. apply Nat.ltb_lt in Hj. cbn beta. rewrite Nat.sub_0_r. f_equal. eapply fixed_nth_error; eauto.
Qed.

Lemma c11_fixed_load {T U} I t u n same (conv : U -> T) zu zero s m :
  fixed_size_type I t n -> elem_ok u -> storage_shape I t n = Some s -> accessible m (below n) ->
  exists x, fs_load (reg_load I u same conv zu zero) s 0 m = Some x /\ is_fixed I t n x /\
    forall i, i < n -> t_get x i = option_map conv (m i).
Proof.
  intros Hf Hu Es Ha. pose proof Hf as (HI & Ht & Hn).
  destruct (FixedStorage.storage_shape_facts I t n HI Ht Hn) as (s' & E & Hd & Hs).
  rewrite Es in E. injection E as <-.
  destruct (fs_load_spec conv (reg_load I u same conv zu zero) s m) with (off := 0) as (x & E & Sx & N); auto.
  { intros. apply reg_load_spec; auto. }
  { rewrite Hs. exact Ha. }
  assert (Hx : is_fixed I t n x) by (unfold is_fixed; rewrite Sx; auto).
  exists x. repeat split; auto. intros i Hi. rewrite <- (fixed_nth_error I t n x i); auto.
  rewrite N by lia. auto.
Qed.

(* ------------------------------------------------------------------ *)
(* masked                                                               *)

Lemma mask_bits_spec n k : n <= 64 ->
  exists is, mask_bits n k = Some is /\ forall i, In i is <-> selected n k i = true.
Proof.
  intros Hn. unfold mask_bits. rewrite (bit_iteration_spec 64 n) ; auto.
  2:{ pose proof (bits_to_Z_bound (firstn n k)). rewrite firstn_length in H.
      assert (2 ^ Z.of_nat (Nat.min n (length k)) <= 2 ^ Z.of_nat n)%Z by (apply Z.pow_le_mono_r; lia). lia. }
  eexists. split; [reflexivity|]. intros i. unfold set_bits, selected. rewrite filter_In, in_seq, bits_to_Z_testbit.
  rewrite andb_true_iff, Nat.ltb_lt. split; intros [H1 H2]; split; try lia.
  - rewrite <- H2. symmetry. apply nth_firstn_lt. lia.
  - rewrite <- H2. apply nth_firstn_lt. lia.
Qed.

Lemma load_at_spec {U T} (conv : U -> T) is : forall merge m,
  (forall i, In i is -> i < length merge /\ m i <> None) ->
  exists r, load_at conv is merge m = Some r /\ length r = length merge /\
    forall i, nth_error r i = if in_dom i is then option_map conv (m i) else nth_error merge i.
Proof.
  induction is as [|i is IH]; intros merge m H.
  - exists merge. auto.
  - cbn [load_at]. destruct (H i (or_introl eq_refl)) as [Hi Hm]. destruct (m i) as [v|] eqn:Ei; [|congruence].
    destruct (IH (upd merge i (conv v)) m) as (r & E & L & N).
    { intros j Hj. rewrite upd_length. apply H. right; auto. }
    rewrite upd_length in L. exists r. repeat split; auto. intros j. rewrite N.
    cbn [in_dom existsb]. change (existsb (Nat.eqb j) is) with (in_dom j is).
    destruct (in_dom j is); [rewrite orb_true_r; auto|]. rewrite orb_false_r.
    rewrite nth_error_upd by auto. rewrite (Nat.eqb_sym j i). destruct (Nat.eqb_spec i j); auto. subst. rewrite Ei. auto.
Qed.
Lemma load_lanes_spec {U T} (conv : U -> T) merge : forall k off m,
  (forall i, i < length merge -> nth i k false = true -> m (off + i) <> None) ->
  exists r, load_lanes conv off merge k m = Some r /\ length r = length merge /\
    forall i, i < length merge ->
      nth_error r i = if nth i k false then option_map conv (m (off + i)) else nth_error merge i.
Proof.
  induction merge as [|x merge IH]; intros k off m H.
  - exists []. repeat split; auto. intros i Hi. simpl in Hi. lia.
  - cbn [load_lanes]. destruct (IH (tl k) (S off) m) as (r & E & L & N).
    { intros i Hi Hk. replace (S off + i) with (off + S i) by lia. apply H; [simpl; lia|]. destruct k; auto. simpl in Hk. destruct i; discriminate. }
    rewrite E.
    assert (Hy : exists y, (if hd false k then option_map conv (m off) else Some x) = Some y).
    { destruct (hd false k) eqn:Ek; [|eauto].
      specialize (H 0). rewrite Nat.add_0_r in H. destruct (m off); [simpl; eauto|].
      exfalso. apply H; auto. simpl. lia. destruct k; auto. }
    destruct Hy as (y & Hy). rewrite Hy. exists (y :: r). simpl. repeat split; auto.
    intros [|i] Hi.
    + simpl. rewrite Nat.add_0_r. destruct k; auto.
    + simpl. rewrite N by lia. replace (S off + i) with (off + S i) by lia. destruct k; auto. simpl. destruct i; auto.
Qed.

Lemma vec_masked_load_spec {U T} kind (conv : U -> T) n merge k m : n <= 64 -> n <= length merge ->
  (kind = MLAvx -> clean_mask n k) -> accessible m (selected n k) ->
  exists r, vec_masked_load kind conv n merge k m = Some r /\ length r = length merge /\
    forall i, i < n -> nth_error r i = if nth i k false then option_map conv (m i) else nth_error merge i.
Proof.
  intros Hn Hl Hk Ha. destruct kind; cbn [vec_masked_load].
  - unfold load_bits. destruct (mask_bits_spec n k Hn) as (is & E & S). rewrite E.
    destruct (load_at_spec conv is merge m) as (r & Er & L & N).
    { intros i Hi. apply S in Hi. split; auto. unfold selected in Hi. apply andb_true_iff in Hi. rewrite Nat.ltb_lt in Hi. lia. }
    exists r. repeat split; auto. intros i Hi. rewrite N.
    replace (in_dom i is) with (nth i k false); auto.
    destruct (in_dom i is) eqn:Ed.
    + apply in_dom_iff, S in Ed. unfold selected in Ed. apply andb_true_iff in Ed. tauto.
    + destruct (nth i k false) eqn:Ek; auto. rewrite <- Ed. symmetry. apply in_dom_iff, S. unfold selected. rewrite Ek.
      replace (i <? n) with true by (symmetry; apply Nat.ltb_lt; auto). auto.
  - destruct (load_lanes_spec conv merge (sanitize n k) 0 m) as (r & E & L & N).
    { intros i Hi Hs. apply Ha. unfold selected, sanitize in *. cbn [Nat.add]. destruct (Nat.ltb_spec i n).
      - rewrite nth_firstn_lt in Hs by auto. exact Hs.
      - rewrite nth_overflow in Hs by (rewrite firstn_length; lia). discriminate. }
    exists r. repeat split; auto. intros i Hi. rewrite N by lia. unfold sanitize. rewrite nth_firstn_lt by auto. auto.
  - specialize (Hk eq_refl). destruct (load_lanes_spec conv merge k 0 m) as (r & E & L & N).
    { intros i Hi Hs. apply Ha. unfold selected. cbn [Nat.add]. destruct (Nat.ltb_spec i n); auto. rewrite Hk in Hs by auto. discriminate. }
    exists r. repeat split; auto. intros i Hi. rewrite N by lia. auto.
Qed.

(* stores *)
Lemma store_bits_spec {A} n (reg : list A) k m : n <= 64 -> n <= length reg ->
  accessible m (selected n k) ->
  exists m', store_bits n reg k m = Some m' /\ wrote m m' (selected n k) (nth_error reg).
Proof.
  intros Hn Hl Ha. unfold store_bits. destruct (mask_bits_spec n k Hn) as (is & E & S). rewrite E.
  destruct (omapm_spec (nth_error reg) is) as (vs & Ev & Lv & Nv).
  { intros i Hi. apply S in Hi. unfold selected in Hi. rewrite andb_true_iff, Nat.ltb_lt in Hi. apply nth_error_Some. lia. }
  rewrite Ev. destruct (mwrites_spec (combine is vs) m (nth_error reg)) as (m' & Em & W).
  { intros i v Hin. split.
    - apply Ha, S. eapply in_combine_l; eauto.
    - apply In_nth_error in Hin as (p & Hp).
      assert (nth_error is p = Some i /\ nth_error vs p = Some v) as [Hi Hv].
      { clear - Hp. revert vs p Hp. induction is; intros [|y vs] [|p] Hp; simpl in *; try discriminate; auto.
        injection Hp as -> ->. auto. }
      rewrite <- Hv. symmetry. auto. }
  exists m'. split; auto. eapply wrote_ext; [exact W| |reflexivity].
  intros j. cbn beta. rewrite map_fst_combine by lia.
  destruct (selected n k j) eqn:Es; [apply in_dom_iff, S; auto|].
  destruct (in_dom j is) eqn:Ed; auto. apply in_dom_iff, S in Ed. congruence.
Qed.

Lemma store_lanes_spec {A} (reg : list A) k m : accessible m (selected (length reg) k) ->
  exists m', store_lanes reg k m = Some m' /\ wrote m m' (selected (length reg) k) (nth_error reg).
Proof.
  intros Ha. unfold store_lanes.
  set (f := fun i => match nth_error reg i with
                     | Some v => if nth i k false then [(i, v)] else []
                     | None => [] end).
  assert (Hf : forall i v, In (i, v) (flat_map f (seq 0 (length reg))) <->
                 selected (length reg) k i = true /\ nth_error reg i = Some v).
  { intros i v. rewrite in_flat_map. unfold f, selected. rewrite andb_true_iff, Nat.ltb_lt. split.
    - intros (p & Hp & Hin). apply in_seq in Hp. destruct (nth_error reg p) eqn:E; [|destruct Hin].
      destruct (nth p k false) eqn:Ek; [|destruct Hin]. destruct Hin as [Hin|[]]. injection Hin as <- <-. repeat split; auto; lia.
    - intros [[H1 H2] H3]. exists i. split; [apply in_seq; lia|]. rewrite H3, H2. left; auto. }
  destruct (mwrites_spec (flat_map f (seq 0 (length reg))) m (nth_error reg)) as (m' & E & W).
  { intros i v Hin. apply Hf in Hin as [H1 H2]. split; auto. }
  exists m'. split; auto. eapply wrote_ext; [exact W| |reflexivity].
  intros j. cbn beta. destruct (selected (length reg) k j) eqn:Es.
  - apply in_dom_iff. destruct (nth_error reg j) as [v|] eqn:En.
    + change j with (fst (j, v)). apply in_map. apply Hf. auto.
    + exfalso. apply nth_error_None in En. unfold selected in Es. rewrite andb_true_iff, Nat.ltb_lt in Es. lia.
  - destruct (in_dom j _) eqn:Ed; auto. apply in_dom_iff, in_map_iff in Ed as ([i v] & Hi & Hin). simpl in Hi. subst.
    apply Hf in Hin. destruct Hin. congruence.
Qed.
Lemma selected_clean n n' k j : n <= n' -> clean_mask n k -> selected n' k j = selected n k j.
Proof.
  intros Hn Hc. unfold selected. destruct (Nat.ltb_spec j n'), (Nat.ltb_spec j n); auto; try lia.
  rewrite Hc by auto. auto.
Qed.
Lemma store_nocvt_spec {A} x86 n (reg : list A) k m : n <= 64 -> n <= length reg ->
  (x86 = true -> clean_mask n k) -> accessible m (selected n k) ->
  exists m', store_nocvt x86 n reg k m = Some m' /\ wrote m m' (selected n k) (nth_error reg).
Proof.
  intros Hn Hl Hk Ha. destruct x86; cbn [store_nocvt]; [|apply store_bits_spec; auto].
  specialize (Hk eq_refl). destruct (store_lanes_spec reg k m) as (m' & E & W).
  { intros j Hj. apply Ha. erewrite <- selected_clean; eauto. }
  exists m'. split; auto. eapply wrote_ext; [exact W| |reflexivity]. intros j. apply selected_clean; auto.
Qed.

Lemma masked_parts_spec {A} x86 uw (reg : list A) k : 1 <= uw -> uw <= 64 -> forall c i m,
  (i + c) * uw <= length reg ->
  accessible m (fun j => (i * uw <=? j) && (j <? (i + c) * uw) && nth j k false) ->
  exists m', masked_store_parts x86 uw (seq i c) reg k m = Some m' /\
    wrote m m' (fun j => (i * uw <=? j) && (j <? (i + c) * uw) && nth j k false) (nth_error reg).
Proof.
  intros H1 H64 c. induction c as [|c IH]; intros i m Hl Ha.
  - exists m. split; auto. intros j.
    destruct (Nat.leb_spec (i * uw) j), (Nat.ltb_spec j ((i + 0) * uw)); simpl; auto. lia.
  - cbn [seq masked_store_parts].
    assert (Hsel : forall j, j < uw -> selected uw (slice uw i k) j = nth (i * uw + j) k false).
    { intros j Hj. unfold selected. replace (j <? uw) with true by (symmetry; apply Nat.ltb_lt; auto). cbn [andb].
      destruct (le_lt_dec (length k) (i * uw + j)).
      - rewrite !nth_overflow; auto. rewrite slice_length. lia.
      - apply nth_error_nth. rewrite slice_nth_error by auto. apply nth_error_nth'. auto. }
    assert (Hsel' : forall j, selected uw (slice uw i k) j = true -> j < uw /\ nth (i * uw + j) k false = true).
    { intros j Hj. assert (j < uw) by (unfold selected in Hj; rewrite andb_true_iff, Nat.ltb_lt in Hj; lia).
      rewrite Hsel in Hj; auto. }
    destruct (at_offset_spec (store_nocvt x86 uw (slice uw i reg) (slice uw i k)) (i * uw) m
                (selected uw (slice uw i k)) (nth_error reg)) as (m1 & E1 & W1).
    { destruct (store_nocvt_spec x86 uw (slice uw i reg) (slice uw i k) (mshift m (i * uw))) as (m1 & E1 & W1); auto.
      - rewrite slice_length. nia.
      - intros _ j Hj. apply nth_overflow. rewrite slice_length. lia.
      - intros j Hj. unfold mshift. apply Hsel' in Hj as [Hj Hk]. apply Ha.
        rewrite Hk, !andb_true_iff, Nat.leb_le, Nat.ltb_lt. repeat split; nia.
      - exists m1. split; auto. eapply wrote_ext; [exact W1|reflexivity|]. intros j Hj.
        apply Hsel' in Hj as [Hj _]. apply slice_nth_error; auto. }
    rewrite E1.
    assert (W1' : wrote m m1 (fun j => (i * uw <=? j) && (j <? i * uw + uw) && nth j k false) (nth_error reg)).
    { eapply wrote_ext; [exact W1| |reflexivity]. intros j. cbn beta.
      destruct (Nat.leb_spec (i * uw) j); auto. cbn [andb]. destruct (Nat.ltb_spec j (i * uw + uw)); cbn [andb].
      - rewrite Hsel by lia. f_equal. lia.
      - unfold selected. replace (j - i * uw <? uw) with false by (symmetry; apply Nat.ltb_ge; lia). auto. }
    destruct (IH (S i) m1) as (m2 & E2 & W2).
    { lia. }
    { eapply wrote_accessible; [exact W1'| |].
      - intros j Hj. rewrite !andb_true_iff, Nat.leb_le, Nat.ltb_lt in Hj. apply nth_error_Some. nia.
      - eapply accessible_sub; [exact Ha|]. intros j Hj. rewrite !andb_true_iff, Nat.leb_le, Nat.ltb_lt in *.
        destruct Hj as [[]]. repeat split; auto; nia. }
    exists m2. split; auto. eapply wrote_ext; [eapply wrote_seq; [exact W1'|exact W2]| |reflexivity].
    intros j. cbn beta. replace (S i * uw) with (i * uw + uw) by lia.
    replace ((S i + c) * uw) with ((i + S c) * uw) by lia.
    assert (i * uw + uw <= (i + S c) * uw) by nia.
    destruct (Nat.leb_spec (i * uw) j), (Nat.ltb_spec j (i * uw + uw)), (Nat.leb_spec (i * uw + uw) j),
      (Nat.ltb_spec j ((i + S c) * uw)), (nth j k false); simpl; auto; lia.
Qed.

Lemma pow2_div a b : 2 ^ a <= 2 ^ b -> exists c, 2 ^ b = c * 2 ^ a.
Proof.
  intros H. apply Nat.pow_le_mono_r_iff in H; [|lia]. exists (2 ^ (b - a)).
  rewrite <- Nat.pow_add_r. f_equal. lia.
Qed.
Lemma uw_pow2 x86 I u : elem_ok u -> esize u <= 8 ->
  exists q, max_store_size x86 I u / esize u = 2 ^ q /\ 1 <= q <= 6.
Proof.
  intros Hu H8. destruct (max_store_cases x86 I u) as [-> |[-> | ->]];
    destruct (esize_cases u Hu H8) as [-> |[-> |[-> | ->]]];
    [exists 4|exists 3|exists 2|exists 1|exists 5|exists 4|exists 3|exists 2|exists 6|exists 5|exists 4|exists 3];
    split; auto; lia.
Qed.

Lemma wrote_map {T U} (conv : T -> U) (m m' : mem U) P reg : wrote m m' P (nth_error (map conv reg)) ->
  wrote m m' P (fun j => option_map conv (nth_error reg j)).
Proof. intros W. eapply wrote_ext; [exact W|reflexivity|]. intros j _. apply nth_error_map. Qed.

Lemma vec_masked_store_spec {T U} x86 I u kind (conv : T -> U) n reg k m : elem_ok u -> esize u <= 8 ->
  1 <= n -> n <= 64 -> n <= length reg -> (exists p, length reg = 2 ^ p) ->
  (kind = MSSame /\ x86 = true \/ kind = MSConvert -> clean_mask n k) -> accessible m (selected n k) ->
  exists m', vec_masked_store x86 I u kind conv n reg k m = Some m' /\
    wrote m m' (selected n k) (fun j => option_map conv (nth_error reg j)).
Proof.
  intros Hu H8 H1 H64 Hl (p & Hp) Hk Ha.
  assert (Hl' : n <= length (map conv reg)) by (rewrite map_length; auto).
  destruct kind; cbn [vec_masked_store].
  - destruct (store_nocvt_spec x86 n (map conv reg) k m) as (m' & E & W); auto.
    exists m'. split; auto. apply wrote_map; auto.
  - assert (Hc : clean_mask n k) by auto.
    destruct (uw_pow2 x86 I u Hu H8) as (q & Eq & Hq). rewrite Eq.
    destruct (Nat.eqb_spec (Nat.min n (2 ^ q)) n) as [En|En].
    + destruct (store_nocvt_spec x86 n (map conv reg) k m) as (m' & E & W); auto.
      exists m'. split; auto. apply wrote_map; auto.
    + assert (Hlt : 2 ^ q < n) by lia. rewrite Nat.min_r by lia.
      assert (Hpos : 1 <= 2 ^ q) by (pose proof (Nat.pow_nonzero 2 q); lia).
      assert (Hq64 : 2 ^ q <= 64) by (change 64 with (2 ^ 6); apply Nat.pow_le_mono_r; lia).
      destruct (pow2_div q p) as (c & Ec); [rewrite <- Hp; lia|].
      destruct (div_roundup_spec n (2 ^ q)) as [D1 D2]; [lia|].
      set (d := div_roundup n (2 ^ q)) in *. set (w := 2 ^ q) in *. clearbody d w.
      assert (Hd : (0 + d) * w <= length (map conv reg)).
      { rewrite map_length, Hp, Ec. apply Nat.mul_le_mono_r. simpl. nia. }
      assert (Hsel : forall j, (0 * w <=? j) && (j <? (0 + d) * w) && nth j k false = selected n k j).
      { intros j. cbn [Nat.mul Nat.leb andb Nat.add]. change ((j <? d * w) && nth j k false) with (selected (d * w) k j).
        apply selected_clean; auto; lia. }
      destruct (masked_parts_spec x86 w (map conv reg) k Hpos Hq64 d 0 m) as (m' & E & W); auto.
      { intros j Hj. apply Ha. rewrite <- Hsel. auto. }
      exists m'. split; auto. apply wrote_map. eapply wrote_ext; [exact W|exact Hsel|reflexivity].
  - destruct (store_bits_spec n (map conv reg) k m) as (m' & E & W); auto.
    exists m'. split; auto. apply wrote_map; auto.
  - assert (Hs : forall j, selected (length (map conv reg)) (sanitize n k) j = selected n k j).
    { intros j. rewrite (selected_clean n); auto.
      - unfold selected, sanitize. destruct (Nat.ltb_spec j n); auto. rewrite nth_firstn_lt by auto. auto.
      - intros i Hi. unfold sanitize. apply nth_overflow. rewrite firstn_length. lia. }
    destruct (store_lanes_spec (map conv reg) (sanitize n k) m) as (m' & E & W).
    { intros j Hj. apply Ha. rewrite <- Hs. auto. }
    exists m'. split; auto. apply wrote_map. eapply wrote_ext; [exact W|exact Hs|reflexivity].
Qed.

Lemma scalar_masked_store_spec {T U} (conv : T -> U) reg k m : 1 <= length reg ->
  accessible m (selected 1 k) ->
  exists m', scalar_masked_store conv reg k m = Some m' /\
    wrote m m' (selected 1 k) (fun j => option_map conv (nth_error reg j)).
Proof.
  intros Hl Ha. unfold scalar_masked_store. destruct k as [|b k]; cbn [hd].
  - exists m. split; auto. intros j. unfold selected. destruct j; auto.
  - destruct b.
    + destruct (scalar_store_spec conv reg m) as (m' & E & W); auto.
      { intros j Hj. apply Ha. unfold below, selected in *. apply Nat.ltb_lt in Hj. destruct j; [auto|lia]. }
      exists m'. split; auto. eapply wrote_ext; [exact W| |reflexivity].
      intros [|j]; auto.
    + exists m. split; auto. intros [|j]; auto.
Qed.
Lemma reg_masked_store_spec {T U} x86 I u kind (conv : T -> U) n reg k m : elem_ok u -> esize u <= 8 ->
  1 <= n -> n <= 64 -> n <= length reg -> (exists p, length reg = 2 ^ p) ->
  clean_mask n k -> accessible m (selected n k) ->
  exists m', reg_masked_store x86 I u kind conv n reg k m = Some m' /\
    wrote m m' (selected n k) (fun j => option_map conv (nth_error reg j)).
Proof.
  intros. unfold reg_masked_store. destruct (Nat.eqb_spec (length reg) 1) as [E|E].
  - assert (n = 1) by lia. subst. apply scalar_masked_store_spec; auto.
  - apply vec_masked_store_spec; auto.
Qed.
Lemma reg_masked_load_spec {U T} kind (conv : U -> T) n merge k m : 1 <= n -> n <= 64 -> n <= length merge ->
  clean_mask n k -> accessible m (selected n k) ->
  exists r, reg_masked_load kind conv n merge k m = Some r /\ length r = length merge /\
    forall i, i < n -> nth_error r i = if nth i k false then option_map conv (m i) else nth_error merge i.
Proof.
  intros H1 Hn Hl Hk Ha. unfold reg_masked_load. destruct (Nat.eqb_spec (length merge) 1) as [E|E];
    [|apply vec_masked_load_spec; auto].
  assert (n = 1) by lia. subst. unfold scalar_masked_load, scalar_load.
  destruct k as [|b k]; cbn [hd].
  - exists merge. repeat split; auto. intros i _. destruct i; auto.
  - destruct b.
    + pose proof (Ha 0 eq_refl) as H0. destruct (m 0) as [v|] eqn:Ev; [|congruence].
      exists [conv v]. repeat split; auto. intros i Hi. assert (i = 0) by lia. subst. rewrite Ev. auto.
    + exists merge. repeat split; auto. intros i Hi. assert (i = 0) by lia. subst. auto.
Qed.

(* any() of the register's part of the bit mask *)
Lemma submask_any np off n bits : 1 <= n -> off + n <= np -> np <= 64 -> bm_clean np bits ->
  bm_any n (bm_extract_flag np true off n) (submask np off n bits)
  = existsb (fun x => x) (make_mask np off n bits).
Proof.
  intros Hn Ho H64 Hb. unfold submask, make_mask.
  assert (Hwf : bm_wf n (bm_extract np off n bits)) by (apply bm_extract_wf; auto).
  assert (Hs : bm_extract_flag np true off n = true -> bm_clean n (bm_extract np off n bits)).
  { intros Hfl. eapply bm_extract_flag_sound with (san := true); eauto; try lia. apply Hb. }
  rewrite bm_any_list by auto. f_equal. symmetry. apply bm_sanitized_list; auto.
Qed.
Lemma existsb_id_none l i : existsb (fun x : bool => x) l = false -> nth i l false = false.
Proof.
  revert i. induction l as [|b l IH]; intros [|i] H; simpl in *; auto; apply orb_false_iff in H as [H1 H2]; auto.
Qed.

Lemma fixed_pow2 I t n {A} (x : tuple A) : fixed_size_type I t n -> is_fixed I t n x ->
  Forall (fun c => exists q, length (creg c) = 2 ^ q) x.
Proof.
  intros (HI & Ht & Hn) Hx. pose proof (storage_pow2 I t n _ HI Ht Hn Hx) as H.
  unfold tshape in H. rewrite Forall_map in H. eapply Forall_impl; [|exact H]. auto.
Qed.

Lemma c12_fixed_store {T U} x86 I t u n kind (conv : T -> U) (x : tuple T) bits m :
  fixed_size_type I t n -> elem_ok u -> esize u <= 8 -> is_fixed I t n x -> bm_clean n bits ->
  accessible m (selected n (bm_list n bits)) ->
  exists m', fs_masked_store (reg_masked_store x86 I u kind conv) n bits 0 x m = Some m' /\
    wrote m m' (selected n (bm_list n bits)) (fun j => option_map conv (t_get x j)).
Proof.
  intros Hf Hu H8 Hx Hb Ha. destruct (fixed_facts I t n x Hf Hx) as (_ & Hs & _).
  pose proof (fixed_le64 I t n Hf) as H64. pose proof (fixed_pow2 I t n x Hf Hx) as Hp.
  set (sel := fun j => nth j (bm_list n bits) false).
  destruct (walk_store conv sel x
    (fun o c r m' =>
        if bm_any c (bm_extract_flag n true o c) (submask n o c bits)
        then at_offset (reg_masked_store x86 I u kind conv c r (make_mask n o c bits)) o m' else Some m')
    (fs_masked_store (reg_masked_store x86 I u kind conv) n bits) 0 m)
    as (m' & E & W); auto.
  - eapply fixed_walkable; eauto.
  - intros o c m' Hin H1 Hok _ Ho Ha'. rewrite Hs in Ho. cbn [Nat.add] in Ho.
    rewrite Forall_forall in Hp. specialize (Hp c Hin).
    destruct (make_mask_spec n o (csize c) bits) as [Lm Nm]; auto.
    rewrite submask_any by auto.
    set (k := make_mask n o (csize c) bits) in *.
    assert (Hsel : forall j, (o <=? j) && (j <? o + csize c) && sel j
                     = (o <=? j) && selected (csize c) k (j - o)).
    { intros j. unfold selected, sel. destruct (Nat.leb_spec o j); auto. cbn [andb].
      destruct (Nat.ltb_spec j (o + csize c)), (Nat.ltb_spec (j - o) (csize c)); try lia; auto. cbn [andb].
      rewrite Nm by auto. f_equal. lia. }
    destruct (existsb (fun x => x) k) eqn:Ek.
    + destruct (at_offset_spec (reg_masked_store x86 I u kind conv (csize c) (creg c) k) o m'
        (selected (csize c) k) (fun j => option_map conv (nth_error (creg c) (j - o)))) as (m2 & E2 & W2).
      { destruct (reg_masked_store_spec x86 I u kind conv (csize c) (creg c) k (mshift m' o)) as (m2 & E2 & W2); auto; try lia.
        - intros i Hi. apply nth_overflow. lia.
        - intros j Hj. unfold mshift. apply Ha'. rewrite Hsel.
          replace (o + j - o) with j by lia. rewrite Hj, andb_true_r. apply Nat.leb_le. lia.
        - exists m2. split; auto. eapply wrote_ext; [exact W2|reflexivity|]. intros j _. cbn beta.
          replace (o + j - o) with j by lia. auto. }
      exists m2. split; auto. eapply wrote_ext; [exact W2| |reflexivity]. intros j. symmetry. apply Hsel.
    + exists m'. split; auto. intros j. rewrite Hsel. unfold selected. rewrite (existsb_id_none k (j - o)) by auto.
      rewrite !andb_false_r. auto.
  - rewrite Hs. intros j Hj. apply Ha. exact Hj.
  - exists m'. split; auto. rewrite Hs in W. eapply wrote_ext; [exact W|reflexivity|].
    intros j Hj. unfold selected in Hj. rewrite andb_true_iff, Nat.ltb_lt in Hj. cbn beta. rewrite Nat.sub_0_r. f_equal.
    eapply fixed_nth_error; eauto. tauto.
Qed.

Lemma fs_masked_load_spec {U T} (conv : U -> T) ml np bits m : bm_clean np bits -> np <= 64 ->
  (forall n merge k m', 1 <= n -> n <= 64 -> n <= length merge -> clean_mask n k -> accessible m' (selected n k) ->
     exists r, ml n merge k m' = Some r /\ length r = length merge /\
     forall i, i < n -> nth_error r i = if nth i k false then option_map conv (m' i) else nth_error merge i) ->
  forall x off, Forall (fun c => 1 <= csize c /\ chunk_ok c) x -> off + ssize (tshape x) <= np ->
  accessible (mshift m off) (fun j => (j <? ssize (tshape x)) && nth (off + j) (bm_list np bits) false) ->
  exists y, fs_masked_load ml np bits off x m = Some y /\ tshape y = tshape x /\
    forall i, i < ssize (tshape x) -> nth_error (telems y) i =
      if nth (off + i) (bm_list np bits) false then option_map conv (m (off + i)) else nth_error (telems x) i.
Proof.
  intros Hb H64 Hml. induction x as [|c x IH]; intros off Hf Ho Ha.
  - exists []. repeat split; auto. intros i Hi. change (ssize (tshape [])) with 0 in Hi. lia.
  - inversion Hf as [|? ? [Hc1 Hc2] Hf']; subst. rewrite tshape_cons, ssize_cons in *. change (fst (cshape c)) with (csize c) in *.
    destruct (IH (off + csize c)) as (y & Ey & Sy & Ny); auto; [lia| |].
    { intros j Hj. specialize (Ha (csize c + j)). unfold mshift in *. rewrite Nat.add_assoc in Ha. apply Ha.
      rewrite andb_true_iff, Nat.ltb_lt in *. split; [lia|tauto]. }
    destruct (make_mask_spec np off (csize c) bits) as [Lm Nm]; auto; [lia|].
    cbn [fs_masked_load]. rewrite submask_any by (auto; lia). set (k := make_mask np off (csize c) bits) in *.
    assert (Hr : exists r, (if existsb (fun x => x) k then ml (csize c) (creg c) k (mshift m off) else Some (creg c)) = Some r
      /\ length r = length (creg c) /\ forall i, i < csize c ->
        nth_error r i = if nth (off + i) (bm_list np bits) false then option_map conv (m (off + i)) else nth_error (creg c) i).
    { destruct (existsb (fun x => x) k) eqn:Ek.
      - destruct (Hml (csize c) (creg c) k (mshift m off)) as (r & E & L & N); auto; [lia| | |].
        + intros i Hi. apply nth_overflow. lia.
        + intros j Hj. unfold selected in Hj. rewrite andb_true_iff, Nat.ltb_lt in Hj. apply Ha.
          rewrite andb_true_iff, Nat.ltb_lt. rewrite <- Nm by tauto. split; [lia|tauto].
        + exists r. repeat split; auto. intros i Hi. rewrite N by auto. rewrite Nm by auto. auto.
      - exists (creg c). repeat split; auto. intros i Hi. rewrite <- Nm by auto. rewrite existsb_id_none by auto. auto. }
    destruct Hr as (r & Er & Lr & Nr). rewrite Er, Ey. eexists. split; [reflexivity|]. split.
    + rewrite tshape_cons, Sy. unfold cshape at 1. cbn [csize creg]. rewrite Lr. auto.
    + intros i Hi. rewrite !telems_cons.
      assert (Lc : length (celems (Chunk (csize c) r)) = csize c)
        by (unfold celems; cbn [csize creg]; rewrite firstn_length, Lr; unfold chunk_ok in Hc2; lia).
      destruct (le_lt_dec (csize c) i).
      * rewrite !nth_error_app2 by (rewrite ?Lc, ?celems_length; auto; lia). rewrite Lc, celems_length by auto.
        rewrite Ny by lia. replace (off + csize c + (i - csize c)) with (off + i) by lia. auto.
      * rewrite !nth_error_app1 by (rewrite ?Lc, ?celems_length; auto; lia). unfold celems. cbn [csize creg].
        rewrite !nth_error_firstn by auto. auto.
Qed.
Lemma c12_fixed_load {T U} I t n kind (conv : U -> T) (x : tuple T) bits m :
  fixed_size_type I t n -> is_fixed I t n x -> bm_clean n bits ->
  accessible m (selected n (bm_list n bits)) ->
  exists y, fs_masked_load (reg_masked_load kind conv) n bits 0 x m = Some y /\ is_fixed I t n y /\
    forall i, i < n -> t_get y i = if nth i (bm_list n bits) false then option_map conv (m i) else t_get x i.
Proof.
  intros Hf Hx Hb Ha. destruct (fixed_facts I t n x Hf Hx) as (_ & Hs & _).
  destruct (fs_masked_load_spec conv (reg_masked_load kind conv) n bits m Hb (fixed_le64 I t n Hf)) with (x := x) (off := 0)
    as (y & E & Sy & Ny).
  - intros. apply reg_masked_load_spec; auto.
  - eapply fixed_walkable; eauto.
  - lia.
  - rewrite Hs. exact Ha.
  - assert (Hy : is_fixed I t n y) by (unfold is_fixed; rewrite Sy; auto).
    exists y. repeat split; auto. intros i Hi.
    rewrite <- (fixed_nth_error I t n y i), <- (fixed_nth_error I t n x i) by auto. apply Ny. lia.
Qed.

(* ------------------------------------------------------------------ *)
(* the x86 masked stores of a partial register                          *)

Lemma x86_mask_storeu_spec {B} w lanes q (reg : list B) m : 1 <= w -> q <= lanes -> q * w <= length reg ->
  accessible m (below (q * w)) ->
  exists m', x86_mask_storeu w lanes (Z.ones (Z.of_nat q)) reg m = Some m' /\
    wrote m m' (below (q * w)) (nth_error reg).
Proof.
  intros Hw Hq Hl Ha. unfold x86_mask_storeu.
  set (f := fun i => if Z.testbit (Z.ones (Z.of_nat q)) (Z.of_nat i) then combine (seq (i * w) w) (slice w i reg) else []).
  assert (Hf : forall i v, In (i, v) (flat_map f (seq 0 lanes)) <-> i < q * w /\ nth_error reg i = Some v).
  { intros i v. rewrite in_flat_map. split.
    - intros (p & Hp & Hin). unfold f in Hin. rewrite testbit_ones in Hin by lia.
      destruct (Z.ltb_spec (Z.of_nat p) (Z.of_nat q)); [|destruct Hin].
      assert (Ls : length (slice w p reg) = w) by (rewrite slice_length; nia).
      rewrite <- Ls in Hin at 2. apply in_combine_seq in Hin as (H1 & H2 & H3).
      rewrite slice_nth_error in H3 by lia. replace (p * w + (i - p * w)) with i in H3 by lia. split; auto. nia.
    - intros [H1 H2]. exists (i / w).
      assert (i / w < q) by (apply Nat.div_lt_upper_bound; lia).
      pose proof (Nat.div_mod_eq i w). pose proof (Nat.mod_upper_bound i w).
      split; [apply in_seq; lia|]. unfold f. rewrite testbit_ones by lia.
      replace (Z.of_nat (i / w) <? Z.of_nat q)%Z with true by (symmetry; apply Z.ltb_lt; lia).
      assert (Ls : length (slice w (i / w) reg) = w) by (rewrite slice_length; nia).
      apply nth_error_In with (n := i mod w).
      assert (Hc : forall (a : list nat) (b : list B) p x y, nth_error a p = Some x -> nth_error b p = Some y ->
        nth_error (combine a b) p = Some (x, y)).
      { induction a; intros [|y0 b] [|p] x y; simpl; intros; try discriminate; auto. congruence. }
      apply Hc.
      + rewrite nth_error_seq by lia. f_equal. lia.
      + rewrite slice_nth_error by lia. rewrite <- H2. f_equal. lia. }
  destruct (mwrites_spec (flat_map f (seq 0 lanes)) m (nth_error reg)) as (m' & E & W).
  { intros i v Hin. apply Hf in Hin as [H1 H2]. split; auto. apply Ha. apply Nat.ltb_lt. auto. }
  exists m'. split; auto. eapply wrote_ext; [exact W| |reflexivity].
  intros j. cbn beta. unfold below. destruct (Nat.ltb_spec j (q * w)) as [Hj|Hj].
  - apply in_dom_iff. destruct (nth_error reg j) as [v|] eqn:En.
    + change j with (fst (j, v)). apply in_map. apply Hf. auto.
    + exfalso. apply nth_error_None in En. lia.
  - destruct (in_dom j _) eqn:Ed; auto. apply in_dom_iff, in_map_iff in Ed as ([i v] & Hi & Hin). simpl in Hi. subst.
    apply Hf in Hin. lia.
Qed.

Lemma lane_bytes_mult bytes : Nat.divide 8 (x86_reg_bytes bytes) /\
  (bytes <> 0 -> bytes <= 64 -> (exists q, bytes = q * x86_lane_bytes bytes) /\
  (exists l, x86_reg_bytes bytes = l * x86_lane_bytes bytes) /\ bytes <= x86_reg_bytes bytes).
Proof.
  split.
  - unfold x86_reg_bytes. destruct (_ <? _); [exists 2; auto|]. destruct (_ <? _); [exists 4|exists 8]; auto.
  - intros H0 H64.
    assert (C : forallb (fun b => (b mod x86_lane_bytes b =? 0) && (x86_reg_bytes b mod x86_lane_bytes b =? 0) && (b <=? x86_reg_bytes b)
                 || (b =? 0)) (seq 0 65) = true) by (vm_compute; auto).
    rewrite forallb_forall in C. specialize (C bytes). rewrite in_seq in C.
    assert (C' : (bytes mod x86_lane_bytes bytes =? 0) && (x86_reg_bytes bytes mod x86_lane_bytes bytes =? 0)
       && (bytes <=? x86_reg_bytes bytes) || (bytes =? 0) = true) by (apply C; lia).
    apply orb_true_iff in C' as [C'|C']; [|apply Nat.eqb_eq in C'; lia].
    rewrite !andb_true_iff, !Nat.eqb_eq, Nat.leb_le in C'. destruct C' as [[C1 C2] C3].
    assert (x86_lane_bytes bytes <> 0) by (unfold x86_lane_bytes; repeat destruct (Nat.testbit _ _); lia).
    apply Nat.mod_divide in C1; [|auto]. apply Nat.mod_divide in C2; [|auto]. repeat split; auto.
Qed.
Lemma x86_store_spec {B} bwvl bytes (reg : list B) m : 1 <= bytes <= 64 -> bytes <= length reg ->
  accessible m (below bytes) ->
  exists m', x86_store bwvl bytes reg m = Some m' /\ wrote m m' (below bytes) (nth_error reg).
Proof.
  intros Hb Hl Ha. unfold x86_store.
  destruct (negb (Nat.land bytes (bytes - 1) =? 0) && bwvl).
  - destruct (lane_bytes_mult bytes) as (_ & H). destruct H as ((q & Hq) & (l & Hr) & Hle); try lia.
    assert (Hw : 1 <= x86_lane_bytes bytes) by (unfold x86_lane_bytes; repeat destruct (Nat.testbit _ _); lia).
    unfold x86_store_mask. set (w := x86_lane_bytes bytes) in *. clearbody w. rewrite Hr in *.
    rewrite Nat.div_mul by lia. rewrite Hq. rewrite Nat.div_mul by lia.
    assert (q <= l) by nia.
    replace (Z.shiftr (Z.ones (Z.of_nat l)) (Z.of_nat (l - q))) with (Z.ones (Z.of_nat q)).
    2:{ apply Z.bits_inj'. intros i Hi. rewrite Z.shiftr_spec, !testbit_ones by lia.
        destruct (Z.ltb_spec i (Z.of_nat q)), (Z.ltb_spec (i + Z.of_nat (l - q)) (Z.of_nat l)); auto; lia. }
    rewrite Hq in Ha, Hl. apply x86_mask_storeu_spec; auto.
  - destruct (mwrite_range_spec m 0 (firstn bytes reg)) as (m' & E & W).
    { rewrite firstn_length, Nat.min_l by auto. exact Ha. }
    rewrite firstn_length, Nat.min_l in W by auto. exists m'. split; auto.
    eapply wrote_ext; [exact W|reflexivity|]. intros j Hj. cbn beta. rewrite Nat.sub_0_r.
    apply nth_error_firstn. cbn [Nat.leb andb] in Hj. apply Nat.ltb_lt in Hj. auto.
Qed.

(* ------------------------------------------------------------------ *)
Lemma round_trip {T} x86 I u (zero : T) n full reg m : elem_ok u -> 1 <= n -> n <= full -> length reg = full ->
  accessible m (below n) ->
  exists m' r, reg_store x86 I u true (fun v => v) n reg m = Some m' /\
    reg_load I u true (fun v => v) zero zero n full m' = Some r /\
    length r = full /\ forall i, i < n -> nth_error r i = nth_error reg i.
Proof.
  intros Hu H1 Hn Hl Ha.
  destruct (reg_store_spec x86 I u true (fun v => v) n reg m) as (m' & E & W); auto; try lia.
  destruct (reg_load_spec I u true (fun v => v) zero zero n full m') as (r & Er & Lr & Nr); auto.
  { eapply wrote_accessible; [exact W| |exact Ha]. intros j Hj. apply Nat.ltb_lt in Hj.
    cbn beta. destruct (nth_error reg j) eqn:En; [cbn; discriminate|]. apply nth_error_None in En. lia. }
  exists m', r. repeat split; auto. intros i Hi. rewrite Nr, (W i) by auto. unfold below.
  replace (i <? n) with true by (symmetry; apply Nat.ltb_lt; auto). destruct (nth_error reg i); auto.
Qed.

Definition cells (l : list Z) : mem Z := nth_error l.
Lemma c12_refuted : exists I t n full,
  arch_ok I /\ elem_ok t /\ abi_valid I t (AVecBuiltin (n * esize t)) = true /\
  abi_shape I t (AVecBuiltin (n * esize t)) = (n, full) /\
  exists p x k,
    vec_load I t true (fun v => v) 0%Z 0%Z n full p = Some x /\
    k = vec_equal_to Z.eqb x x /\
    (exists m', vec_masked_store true I t MSSame (fun v => v) n x k (cells [9; 9; 9; 9]%Z) = Some m' /\
                m' n <> cells [9; 9; 9; 9]%Z n) /\
    vec_masked_store true I t MSSame (fun v => v) n x k (cells [9; 9; 9]%Z) = None /\
    vec_masked_load MLAvx (fun v => v) n x k (cells [9; 9; 9]%Z) = None.
Proof.
  exists isa_avx2, (TInt 4), 3, 4. split; [|split; [simpl; auto|split; [reflexivity|split; [reflexivity|]]]].
  { unfold arch_ok, isa_ok, isa_avx2; simpl. repeat split; auto; intuition discriminate. }
  exists (cells [1; 2; 3]%Z), [1; 2; 3; 0]%Z, [true; true; true; true].
  split; [reflexivity|]. split; [reflexivity|]. split; [|split; reflexivity].
  eexists. split; [reflexivity|]. vm_compute. discriminate.
Qed.
