(* The converters keep the elements and their order. *)
From Coq Require Import List Arith Bool Lia.
From Verif Require Import Prelude BitMask BitMaskProofs Abi AbiSpec AbiProofs Fixed FixedSpec FixedProofs
  FixedApply FixedMixed Convert ConvertSpec.
Import ListNotations.

Lemma firstn_eq_nth {A} (d : A) k : forall a b, k <= length a -> k <= length b ->
  (forall i, i < k -> nth i a d = nth i b d) -> firstn k a = firstn k b.
Proof.
  induction k as [|k IH]; intros [|x a] [|y b] Ha Hb H; simpl in *; auto; try lia.
  f_equal; [apply (H 0); lia|]. apply IH; try lia. intros i Hi. apply (H (S i)). lia.
Qed.
Lemma firstn_min {A} (a : list A) i j : firstn i (firstn j a) = firstn (Nat.min i j) a.
Proof. apply firstn_firstn. Qed.
Lemma firstn_app_le {A} (a b : list A) k : k <= length a -> firstn k (a ++ b) = firstn k a.
Proof. intros H. rewrite firstn_app. replace (k - length a) with 0 by lia. rewrite app_nil_r. auto. Qed.

Lemma vtb_ge I t n : 1 <= n -> 1 <= esize t -> n * esize t <= vector_type_bytes I t n.
Proof.
  intros Hn Ht. unfold vector_type_bytes. cbv zeta.
  pose proof (bit_ceil_ge (n * esize t) ltac:(nia)).
  destruct (def_i386 I && (bit_ceil (n * esize t) =? 8)) eqn:E.
  - apply andb_true_iff in E as [_ E]. apply Nat.eqb_eq in E. lia.
  - destruct (Nat.ltb_spec (bit_ceil (n * esize t)) (2 * esize t)); lia.
Qed.
Lemma lanes_of_ge I t n : 1 <= n -> 1 <= esize t -> n <= lanes_of I t n.
Proof.
  intros Hn Ht. unfold lanes_of. destruct (Nat.eqb_spec n 1); [lia|].
  apply Nat.div_le_lower_bound; [lia|]. pose proof (vtb_ge I t n Hn Ht). lia.
Qed.

(* __extract_part delivers the requested elements *)
Lemma extract_part_spec {A} I t (zero : A) x86 cp np reg : 1 <= esize t ->
  forall fuel index total combine v,
  1 <= combine -> combine <= fuel -> 1 <= total -> 1 <= v -> np = total * v ->
  (index + combine) * v <= length reg ->
  exists r, extract_part I t zero x86 cp np reg fuel index total combine = Some r /\
    firstn (combine * v) r = firstn (combine * v) (skipn (index * v) reg) /\
    combine * v <= length r.
Proof.
  intros Ht. induction fuel as [|fuel IH]; intros index total combine v Hc Hf Htot Hv Hnp Hb; [lia|].
  cbn [extract_part].
  destruct ((index mod 2 =? 0) && (total mod 2 =? 0) && (combine mod 2 =? 0)) eqn:E.
  - btrue. repeat match goal with H : (_ =? _) = true |- _ => apply Nat.eqb_eq in H end.
    assert (Hi : index = 2 * (index / 2)) by (pose proof (Nat.div_mod index 2); lia).
    assert (Hto : total = 2 * (total / 2)) by (pose proof (Nat.div_mod total 2); lia).
    assert (Hco : combine = 2 * (combine / 2)) by (pose proof (Nat.div_mod combine 2); lia).
    set (i := index / 2) in *. set (tt := total / 2) in *. set (c := combine / 2) in *.
    destruct (IH i tt c (2 * v)) as (r & Er & Hr & Hl); try lia; try nia.
    exists r. split; auto. split; [|nia].
    replace (combine * v) with (c * (2 * v)) by nia. rewrite Hr. do 2 f_equal. nia.
  - cbv zeta. assert (Ev : np / total = v) by (subst np; rewrite Nat.mul_comm; apply Nat.div_mul; lia).
    rewrite Ev. set (ret := v * combine). set (skip := index * v). set (R := lanes_of I t ret).
    assert (HR : ret <= R) by (apply lanes_of_ge; unfold ret; nia).
    replace (combine * v) with ret by (unfold ret; nia).
    assert (Hs : skip + ret <= length reg) by (unfold skip, ret; nia).
    assert (Hsk : ret <= length (skipn skip reg)) by (rewrite skipn_length; lia).
    assert (Hfl : length (firstn ret (skipn skip reg)) = ret) by (rewrite firstn_length; lia).
    destruct (Nat.ltb_spec (length reg * esize t) ((index + combine) * v * esize t)); [nia|].
    assert (Hmem : forall r, r = firstn ret (skipn skip reg) ++ repeat zero (R - ret) ->
       firstn ret r = firstn ret (skipn skip reg) /\ ret <= length r).
    { intros r ->. rewrite firstn_app_le by lia. rewrite firstn_firstn, Nat.min_id.
      split; auto. rewrite app_length. lia. }
    destruct cp; [eexists; split; [reflexivity|]; apply Hmem; auto|].
    destruct (Nat.eqb_spec index 0) as [E0|E0]; cbn [andb].
    { assert (skip = 0) by (unfold skip; rewrite E0; reflexivity). replace skip with 0 in * by lia. cbn [skipn] in *.
      destruct (total =? 1); (eexists; split; [reflexivity|]).
      - split; auto.
      - rewrite firstn_firstn, Nat.min_l by lia. rewrite firstn_app_le by lia. split; auto.
        rewrite firstn_length, app_length, repeat_length. lia. }
    assert (Hshift : forall Q z, ret <= Q -> ret <= length (firstn Q (skipn skip reg ++ repeat zero z)) /\
       firstn ret (firstn Q (skipn skip reg ++ repeat zero z)) = firstn ret (skipn skip reg)).
    { intros Q z HQ. split; [rewrite firstn_length, app_length; lia|].
      rewrite firstn_firstn, Nat.min_l, firstn_app_le by lia. auto. }
    destruct (x86 && (length reg * esize t =? 32) && (ret * esize t <=? 16)) eqn:E32.
    { btrue. repeat match goal with H : (_ =? _) = true |- _ => apply Nat.eqb_eq in H
                    | H : (_ <=? _) = true |- _ => apply Nat.leb_le in H end.
      assert (Hr16 : ret <= 16 / esize t) by (apply Nat.div_le_lower_bound; lia).
      destruct (Nat.eqb_spec (skip * esize t) 16) as [E16|E16]; (eexists; split; [reflexivity|]).
      - replace (16 / esize t) with skip by (rewrite <- E16; symmetry; apply Nat.div_mul; lia).
        rewrite firstn_firstn, Nat.min_l by lia. split; auto. rewrite firstn_length. lia.
      - destruct (Hshift (16 / esize t) (16 / esize t) Hr16) as [G1 G2].
        rewrite firstn_firstn, Nat.min_l by lia. split; auto. rewrite firstn_length. lia. }
    destruct ((negb (skip mod ret =? 0) || (8 <=? R * esize t)) && ((skip + ret) * esize t <=? 64)
              && (16 <=? length reg * esize t)); (eexists; split; [reflexivity|]).
    + destruct (Hshift R skip HR). auto.
    + apply Hmem; auto.
Qed.

Section Convert.
Context {A B : Type}.
Variables (cast : A -> B) (zeroA : A) (zeroB : B) (I : isa) (t u : elem) (x86 sse41 cp : bool).
Variables (cx86 : nat -> list (list A) -> list B) (unpack : nat -> nat -> list A -> list (list B)).
Hypothesis Hx : converts_registers cast cx86.
Hypothesis Hu : unpacks_registers cast unpack.
Hypothesis Ht : 1 <= esize t.

Notation vconv := (vector_convert cast zeroA zeroB x86 cp cx86).
Notation call := (convert_all cast zeroA zeroB I t u x86 sse41 cp cx86 unpack).
Notation unp := (uses_unpack x86 sse41 t u).

Lemma concat_length {X} l (xs : list (list X)) : Forall (fun x => length x = l) xs ->
  length (concat xs) = length xs * l.
Proof. induction 1; simpl; auto. rewrite app_length. lia. Qed.
Lemma flat_map_firstn_id {X} l (xs : list (list X)) : Forall (fun x => length x = l) xs ->
  flat_map (firstn l) xs = concat xs.
Proof. induction 1; simpl; auto. rewrite IHForall. f_equal. apply firstn_all2. lia. Qed.
Lemma flat_firstn_length {X} l k (xs : list (list X)) : Forall (fun x => length x = l) xs -> k <= l ->
  length (flat_map (firstn k) xs) = length xs * k.
Proof. induction 1; simpl; auto. intros. rewrite app_length, firstn_length, IHForall by auto. lia. Qed.
Lemma nth_map_lt {X Y} (f : X -> Y) l i d e : i < length l -> nth i (map f l) e = f (nth i l d).
Proof. intros. rewrite nth_indep with (d' := f d) by (rewrite map_length; auto). apply map_nth. Qed.

(* __vector_convert of several registers *)
Lemma vector_convert_spec full n xs l : xs <> [] -> Forall (fun x => length x = l) xs -> n <= l -> 1 <= full ->
  (length xs = 1 \/ length xs * n <= full) ->
  length (vconv full n xs) = full /\
  firstn (Nat.min full (length xs * n)) (vconv full n xs)
  = map cast (firstn (Nat.min full (length xs * n)) (flat_map (firstn n) xs)).
Proof.
  intros Hne Hl Hn Hf Hfit. unfold vector_convert. cbv zeta.
  assert (Hh : length (hd [] xs) = l) by (destruct xs; [congruence|]; inversion Hl; auto).
  rewrite Hh.
  destruct (x86 && negb cp && (n =? l)) eqn:E.
  - btrue. subst n.
    set (P := pad_pow2 zeroA xs l).
    assert (Hp : Forall (fun x => length x = l) P).
    { unfold P, pad_pow2. apply Forall_app. split; auto. apply Forall_forall. intros y Hy.
      apply repeat_spec in Hy. subst y. apply repeat_length. }
    assert (Hlen : length P = 2 ^ Nat.log2_up (length xs)).
    { unfold P, pad_pow2. rewrite app_length, repeat_length. change (2 ^ Nat.log2_up (length xs)) with (bit_ceil (length xs)).
      assert (1 <= length xs) by (destruct xs; [congruence|simpl; lia]).
      pose proof (bit_ceil_ge (length xs)). lia. }
    destruct (Hx full l _ P Hf Hlen Hp) as [Hx1 Hx2]. split; auto.
    rewrite (flat_map_firstn_id l) by auto.
    destruct (Nat.eq_dec (Nat.min full (length xs * l)) 0) as [E0|E0]; [rewrite E0; auto|].
    assert (Hc : length (concat xs) = length xs * l) by (apply concat_length; auto).
    assert (Hpc : concat P = concat xs ++ concat (repeat (repeat zeroA l) (bit_ceil (length xs) - length xs)))
      by (unfold P, pad_pow2; apply concat_app).
    rewrite <- firstn_map. apply (firstn_eq_nth zeroB); [lia|rewrite map_length; lia|].
    intros i Hi. rewrite (Hx2 i zeroA zeroB), (nth_map_lt _ _ _ zeroA) by (try rewrite Hpc, app_length; lia).
    f_equal. rewrite Hpc, app_nth1 by lia. auto.
  - set (k := if length xs =? 1 then Nat.min full n else n).
    assert (Hk : k <= n) by (unfold k; destruct (length xs =? 1); lia).
    assert (Hkl : length xs * k = Nat.min full (length xs * n)).
    { unfold k. destruct (Nat.eqb_spec (length xs) 1) as [->|]; [lia|]. nia. }
    assert (Hfl : length (flat_map (firstn k) xs) = Nat.min full (length xs * n)).
    { rewrite (flat_firstn_length l) by (auto; lia). auto. }
    rewrite app_length, repeat_length, map_length, Hfl. split; [lia|].
    rewrite firstn_app_le by (rewrite map_length; lia). rewrite firstn_map. f_equal.
    rewrite firstn_all2 by lia.
    unfold k. destruct (Nat.eqb_spec (length xs) 1) as [E1|E1].
    + destruct xs as [|x [|? ?]]; try discriminate. cbn [flat_map length]. rewrite !app_nil_r, firstn_firstn.
      f_equal. lia.
    + rewrite firstn_all2; auto. rewrite (flat_firstn_length l) by auto. lia.
Qed.

Lemma vector_convert_one full n reg : n <= length reg -> 1 <= full ->
  length (vconv full n [reg]) = full /\
  firstn (Nat.min full n) (vconv full n [reg]) = map cast (firstn (Nat.min full n) reg).
Proof.
  intros Hn Hf. destruct (vector_convert_spec full n [reg] (length reg)) as [H1 H2]; auto; try congruence.
  split; auto. cbn [length flat_map] in H2. rewrite Nat.mul_1_l, app_nil_r, firstn_firstn in H2.
  rewrite H2. do 2 f_equal. lia.
Qed.

Lemma part_spec n reg index k : 1 <= k -> 1 <= n -> index + k <= length reg ->
  firstn k (part zeroA I t x86 cp n reg index k) = firstn k (skipn index reg) /\
  k <= length (part zeroA I t x86 cp n reg index k).
Proof.
  intros Hk Hn Hb. unfold part.
  destruct (extract_part_spec I t zeroA x86 cp n reg Ht k index n k 1) as (r & -> & H1 & H2); try lia.
  rewrite !Nat.mul_1_r in *. auto.
Qed.

(* a sequence of blocks *)
Lemma blocks_concat {X Y} (f : X -> Y) k (src : list X) (g : nat -> list Y) : forall p off,
  off + p * k <= length src ->
  (forall i, i < p -> g i = map f (firstn k (skipn (off + i * k) src))) ->
  concat (map g (seq 0 p)) = map f (firstn (p * k) (skipn off src)).
Proof.
  induction p as [|p IH]; intros off Hl Hg; [reflexivity|].
  rewrite seq_S, map_app, concat_app, (IH off) by (try lia; intros; apply Hg; lia).
  cbn [map concat]. rewrite app_nil_r. cbn [Nat.add]. rewrite (Hg p) by lia. rewrite <- map_app. f_equal.
  rewrite (skipn_add off (p * k) src).
  rewrite <- (firstn_skipn (p * k) (firstn (S p * k) (skipn off src))).
  rewrite firstn_firstn, Nat.min_l by lia. f_equal.
  rewrite skipn_firstn_comm. f_equal. lia.
Qed.

Lemma convert_all_spec n reg lanes off : n <= length reg -> 1 <= lanes -> off < n ->
  length (call n reg lanes off) = nparts unp n lanes off /\
  Forall (fun r => length r = lanes) (call n reg lanes off) /\
  firstn (Nat.min (nparts unp n lanes off * lanes) (n - off)) (concat (call n reg lanes off))
  = map cast (firstn (Nat.min (nparts unp n lanes off * lanes) (n - off)) (skipn off reg)).
Proof.
  intros Hn Hl Ho. unfold convert_all, nparts.
  destruct (Nat.eqb_spec lanes 1) as [E1|E1].
  { rewrite map_length, seq_length. subst lanes. rewrite Nat.mul_1_r, Nat.min_id. repeat split.
    - apply Forall_forall. intros r Hr. apply in_map_iff in Hr as (i & <- & _). auto.
    - rewrite (blocks_concat cast 1 reg _ (n - off) off); try lia.
      + rewrite Nat.mul_1_r, <- firstn_map, firstn_firstn, Nat.min_id, firstn_map. auto.
      + intros i Hi. rewrite Nat.mul_1_r.
        assert (Hlt : off + i < length reg) by lia.
        replace (i + off) with (off + i) by lia. clear - Hlt. revert Hlt. generalize (off + i). clear.
        induction reg as [|x reg IH]; intros [|j] H; simpl in *; auto; try lia. apply IH. lia. }
  destruct (unp && (off =? 0)) eqn:Eu.
  { btrue. subst off.
    assert (Hd : n / lanes * lanes <= n) by (rewrite Nat.mul_comm; apply Nat.mul_div_le; lia).
    destruct (Hu n lanes reg) as (H1 & H2 & H3); [lia|lia|].
    repeat split; auto. rewrite Nat.sub_0_r, Nat.min_l by lia. cbn [skipn].
    rewrite H3, <- firstn_map, firstn_firstn, Nat.min_id. auto. }
  destruct (Nat.ltb_spec lanes (n - off)) as [Hlt|Hge].
  { assert (Hd : (n - off) / lanes * lanes <= n - off) by (rewrite Nat.mul_comm; apply Nat.mul_div_le; lia).
    set (p := (n - off) / lanes) in *. clearbody p.
    assert (Hb : forall i, i < p ->
       length (vconv lanes lanes [part zeroA I t x86 cp n reg (i * lanes + off) lanes]) = lanes /\
       vconv lanes lanes [part zeroA I t x86 cp n reg (i * lanes + off) lanes]
       = map cast (firstn lanes (skipn (off + i * lanes) reg))).
    { intros i Hi. destruct (part_spec n reg (i * lanes + off) lanes) as [P1 P2]; try nia.
      destruct (vector_convert_one lanes lanes (part zeroA I t x86 cp n reg (i * lanes + off) lanes)) as [V1 V2]; try lia.
      split; auto. rewrite Nat.min_id, P1 in V2. replace (off + i * lanes) with (i * lanes + off) by lia; rewrite <- V2, firstn_all2 by lia. auto. }
    rewrite map_length, seq_length. repeat split.
    - apply Forall_forall. intros r Hr. apply in_map_iff in Hr as (i & <- & Hi).
      apply in_seq in Hi. apply Hb. lia.
    - rewrite Nat.min_l by lia. rewrite (blocks_concat cast lanes reg _ p off) by (try lia; intros; apply Hb; auto).
      rewrite <- firstn_map, firstn_firstn, Nat.min_id. auto. }
  cbn [length Nat.mul]. rewrite Nat.add_0_r, Nat.min_r by lia.
  destruct (Nat.eqb_spec off 0) as [->|Hoff].
  { destruct (vector_convert_one lanes n reg) as [V1 V2]; auto; try lia.
    repeat split; auto. cbn [concat]. rewrite app_nil_r, Nat.sub_0_r in *. cbn [skipn].
    rewrite Nat.min_r in V2 by lia. auto. }
  destruct (part_spec n reg off (n - off)) as [P1 P2]; try lia.
  destruct (vector_convert_one lanes (n - off) (part zeroA I t x86 cp n reg off (n - off))) as [V1 V2]; try lia.
  repeat split; auto. cbn [concat]. rewrite app_nil_r. rewrite Nat.min_r in V2 by lia. rewrite V2, P1. auto.
Qed.

Notation totuple := (to_tuple zeroB).
Notation many := (one_to_many cast zeroA zeroB I t u x86 sse41 cp cx86 unpack).
Notation fvals := (fixed_values cast zeroA zeroB I t u x86 sse41 cp cx86 unpack).

Lemma to_tuple_spec : forall ret (vs : list (list B)), straight (map (@length B) vs) ret = true -> dense ret ->
  tshape (totuple ret vs) = ret /\ telems (totuple ret vs) = firstn (ssize ret) (concat vs) /\
  ssize ret <= length (concat vs).
Proof.
  induction ret as [|[n l] ret IH]; intros vs Hs Hd; [destruct vs; discriminate|].
  destruct Hd as (Hn & Hnl & Hlast & Hd).
  destruct ret as [|[n2 l2] ret].
  - destruct vs as [|v [|? ?]]; cbn [map straight] in Hs.
    + discriminate.
    + btrue. cbn [to_tuple tshape map concat]. rewrite app_nil_r. unfold cshape, ssize, telems, celems.
      cbn [map fst snd csize creg flat_map list_sum fold_right].
      rewrite !Nat.add_0_r, app_nil_r. split; [|split; auto].
      * rewrite firstn_length, app_length, repeat_length. do 2 f_equal. lia.
      * rewrite firstn_firstn, Nat.min_l, firstn_app_le by lia. auto.
    + btrue. discriminate.
  - destruct vs as [|v vs]; [discriminate|]. cbn [map] in Hs.
    change (straight (length v :: map (@length B) vs) ((n, l) :: (n2, l2) :: ret)) with
      ((2 <=? n) && (length v =? n) && (l =? n) && straight (map (@length B) vs) ((n2, l2) :: ret)) in Hs.
    btrue. destruct (IH vs) as (S1 & S2 & S3); auto.
    change (totuple ((n, l) :: (n2, l2) :: ret) (v :: vs)) with (Chunk n v :: totuple ((n2, l2) :: ret) vs).
    rewrite ssize_cons. cbn [fst]. cbn [concat]. rewrite app_length. split; [|split].
    + unfold tshape in *. cbn [map]. rewrite S1. unfold cshape. cbn [csize creg]. do 2 f_equal. lia.
    + change (telems (Chunk n v :: totuple ((n2, l2) :: ret) vs)) with
        (firstn n v ++ telems (totuple ((n2, l2) :: ret) vs)).
      rewrite S2, firstn_app, !firstn_all2 with (l := v) by lia.
      do 2 f_equal. lia.
    + lia.
Qed.

Lemma pop_shape_dense : forall s k r, pop_shape s k = Some r -> dense s -> dense r.
Proof.
  induction s as [|[n l] s IH]; intros k r; cbn [pop_shape]; destruct (k =? 0); try congruence.
  destruct (n <=? k); [|discriminate]. intros H (_ & _ & _ & Hd). eauto.
Qed.

Lemma Forall_map_length {X} l (xs : list (list X)) : Forall (fun x => length x = l) xs ->
  map (@length X) xs = repeat l (length xs).
Proof. induction 1; simpl; congruence. Qed.

Lemma one_to_many_spec np reg : np <= length reg -> forall rounds conv rem lens,
  one_to_many_lens unp rounds np conv rem = Some lens -> dense rem -> conv < np ->
  map (@length B) (many rounds np conv rem reg) = lens /\
  np - conv <= length (concat (many rounds np conv rem reg)) /\
  firstn (np - conv) (concat (many rounds np conv rem reg)) = map cast (firstn (np - conv) (skipn conv reg)).
Proof.
  intros Hnp. induction rounds as [|r IH]; intros conv rem lens H Hd Hc; [discriminate|].
  cbn [one_to_many_lens one_to_many] in *. destruct rem as [|[mn ml] rest]; [discriminate|].
  cbv zeta in H |- *. pose proof Hd as (Hm1 & Hm2 & _ & _).
  set (p := nparts unp np ml conv) in *.
  destruct (convert_all_spec np reg ml conv) as (C1 & C2 & C3); auto; try lia. fold p in C1, C3.
  destruct (Nat.ltb_spec np (conv + p * mn)) as [|Hle]; [discriminate|].
  assert (CL : length (concat (call np reg ml conv)) = p * ml) by (rewrite (concat_length ml) by auto; rewrite C1; auto).
  destruct (Nat.eqb_spec (conv + p * mn) np) as [E|E].
  - rewrite app_nil_r, (Forall_map_length ml) by auto. rewrite C1.
    assert (np - conv <= p * ml) by nia.
    rewrite Nat.min_r in C3 by lia. rewrite CL. split; [|split; auto].
    destruct ((ml =? 1) && negb (p =? 1)); congruence.
  - destruct (Nat.eqb_spec ml mn) as [Em|]; [|discriminate]. cbn [negb] in H.
    destruct (pop_shape ((mn, ml) :: rest) (p * mn)) as [rem'|] eqn:Ep; [|discriminate].
    destruct (one_to_many_lens unp r np (conv + p * mn) rem') as [lens'|] eqn:El; [|discriminate].
    cbn [option_map] in H. apply some_inj in H. subst lens.
    destruct (IH _ _ _ El) as (H1 & H2 & H3); [eapply pop_shape_dense; eauto|lia|].
    rewrite map_app, concat_app, app_length, H1, (Forall_map_length ml), C1, CL by auto.
    subst ml. rewrite Nat.min_l in C3 by lia.
    split; [auto|split; [lia|]].
    rewrite firstn_app, CL. replace (np - conv - p * mn) with (np - (conv + p * mn)) by lia. rewrite H3.
    rewrite firstn_all2 by lia. rewrite firstn_all2 in C3 by lia. rewrite C3, <- map_app. f_equal.
    rewrite (skipn_add conv (p * mn)).
    rewrite <- (firstn_skipn (p * mn) (firstn (np - conv) (skipn conv reg))).
    rewrite firstn_firstn, Nat.min_l by lia. f_equal.
    rewrite skipn_firstn_comm. f_equal. lia.
Qed.

Lemma many_to_one_spec rn rl (xs : tuple A) an al k : 1 <= an -> an <= al -> rn <= rl ->
  tshape xs = repeat (an, al) k -> 1 <= k -> k * an = rn ->
  (al = 1 \/ vector_convert_ok rl an k = true) ->
  tshape (many_to_one cast zeroA zeroB x86 cp cx86 rn rl xs) = [(rn, rl)] /\
  telems (many_to_one cast zeroA zeroB x86 cp cx86 rn rl xs) = map cast (telems xs).
Proof.
  intros Han Hal Hr Hs Hk Hkr Hok. unfold many_to_one.
  assert (Hlen : length xs = k).
  { apply (f_equal (@length _)) in Hs. unfold tshape in Hs. rewrite map_length, repeat_length in Hs. auto. }
  assert (Hh : cshape (hd (Chunk 0 []) xs) = (an, al)).
  { destruct xs as [|c xs]; [simpl in Hlen; lia|]. destruct k; [lia|]. cbn [tshape map repeat] in Hs.
    change (hd (Chunk 0 []) (c :: xs)) with c. congruence. }
  unfold cshape in Hh. injection Hh as Hh1 Hh2. rewrite Hh1, Hh2. clear Hh1 Hh2.
  assert (Hregs : Forall (fun x => length x = al) (map creg xs)).
  { clear - Hs. revert k Hs. induction xs as [|c xs IH]; intros k Hs; [constructor|].
    destruct k; [discriminate|]. cbn [tshape map repeat] in Hs. unfold cshape at 1 in Hs. injection Hs as H1 H2 H3.
    constructor; auto. apply (IH k). auto. }
  assert (Hel : telems xs = flat_map (firstn an) (map creg xs)).
  { clear - Hs. revert k Hs. induction xs as [|c xs IH]; intros k Hs; [reflexivity|].
    destruct k; [discriminate|]. cbn [tshape map repeat] in Hs. unfold cshape at 1 in Hs. injection Hs as H1 H2 H3.
    cbn [telems flat_map map]. unfold celems at 1. rewrite H1. f_equal. apply (IH k). auto. }
  assert (Hlr : length (map creg xs) = k) by (rewrite map_length; auto).
  destruct (Nat.eqb_spec al 1) as [E|E].
  - subst al. assert (an = 1) by lia. subst an.
    rewrite (flat_map_firstn_id 1) in Hel by auto.
    assert (Hfc : flat_map creg xs = concat (map creg xs)) by apply flat_map_concat_map.
    assert (Hl : length (flat_map creg xs) = k) by (rewrite Hfc, (concat_length 1), Hlr by auto; lia).
    rewrite Hl. unfold tshape, cshape, telems, celems. cbn [map flat_map csize creg]. rewrite app_nil_r.
    rewrite app_length, map_length, repeat_length, Hl. split; [do 2 f_equal; lia|].
    rewrite firstn_app_le by (rewrite map_length; lia). rewrite firstn_map, firstn_all2 by lia.
    rewrite Hfc. f_equal. symmetry. exact Hel.
  - destruct Hok as [?|Hok]; [lia|]. unfold vector_convert_ok in Hok.
    assert (Hfit : length (map creg xs) = 1 \/ length (map creg xs) * an <= rl) by (rewrite Hlr; right; lia).
    destruct (vector_convert_spec rl an (map creg xs) al) as [V1 V2]; auto; try lia.
    { intros E1. rewrite E1 in Hlr. simpl in Hlr. lia. }
    unfold tshape, cshape, telems, celems. cbn [map flat_map csize creg]. rewrite app_nil_r, V1. split; auto.
    rewrite Hlr, Nat.min_r in V2 by lia. rewrite Hkr in V2. rewrite V2. f_equal.
    transitivity (flat_map (firstn an) (map creg xs)); [|symmetry; exact Hel]. apply firstn_all2. rewrite (flat_firstn_length al) by (auto; lia). lia.
Qed.

Lemma cast_at_elems (x : tuple A) : Forall chunk_ok x ->
  map (cast_at cast zeroB x) (seq 0 (length (telems x))) = map cast (telems x).
Proof.
  intros Hok. apply nth_ext with (d := zeroB) (d' := zeroB); rewrite ?map_length, ?seq_length; auto.
  intros i Hi. rewrite (nth_map_lt _ _ _ 0), seq_nth by (rewrite ?seq_length; auto). cbn [Nat.add].
  unfold cast_at. rewrite get_const_elems by (auto; rewrite <- telems_length; auto).
  rewrite (nth_map_lt _ _ _ zeroA) by auto.
  rewrite (nth_error_nth' _ zeroA) by auto. auto.
Qed.

Lemma scalar_tuple_shape {X} (g : nat -> X) k : forall j,
  tshape (map (fun i => Chunk 1 [g i]) (seq j k)) = repeat (1, 1) k.
Proof. induction k as [|k IHk]; intros j; auto. cbn [seq map repeat tshape]. unfold cshape at 1. cbn [csize creg length]. f_equal. apply IHk. Qed.
Lemma scalar_tuple_elems {X} (g : nat -> X) k : forall j,
  telems (map (fun i => Chunk 1 [g i]) (seq j k)) = map g (seq j k).
Proof. unfold telems. induction k as [|k IHk]; intros j; auto. cbn [seq map flat_map]. unfold celems at 1. cbn [csize creg firstn app]. f_equal. apply IHk. Qed.

Lemma ssize_repeat n l k : ssize (repeat (n, l) k) = k * n.
Proof. induction k; auto. cbn [repeat]. rewrite ssize_cons, IHk. simpl. lia. Qed.
Lemma forallb_repeat (an al : nat) s : forallb (fun p => (fst p =? an) && (snd p =? al)) s = true ->
  s = repeat (an, al) (length s).
Proof. induction s as [|[n l] s IH]; intros H; auto. cbn [forallb fst snd] in H. btrue. subst. simpl. f_equal. auto. Qed.
Lemma tshape_firstn {X} k (x : tuple X) : tshape (firstn k x) = firstn k (tshape x).
Proof. unfold tshape. symmetry. apply firstn_map. Qed.
Lemma tshape_skipn {X} k (x : tuple X) : tshape (skipn k x) = skipn k (tshape x).
Proof. unfold tshape. symmetry. apply skipn_map. Qed.
Lemma oshape_is_spec o s : oshape_is o s = true -> o = Some s.
Proof. destruct o; [|discriminate]. simpl. intros H. apply shape_eqb_spec in H. congruence. Qed.

Variables (stf stt : nat -> option shape) (N : nat).
Hypothesis Hst : forall m s, 1 <= m <= N -> stt m = Some s -> dense s /\ ssize s = m.

Lemma fixed_values_spec : forall fuel x,
  fixed_ok unp (same_integers t u) stf stt fuel (tshape x) = true ->
  1 <= ssize (tshape x) <= N -> dense (tshape x) ->
  stt (ssize (tshape x)) = Some (tshape (fvals stt fuel x)) /\
  telems (fvals stt fuel x) = map cast (telems x).
Proof.
  induction fuel as [|f IH]; intros x Hok Hn Hd; [discriminate|].
  destruct x as [|c xr]; [discriminate|].
  assert (Hcok : Forall chunk_ok (c :: xr)) by (apply dense_ok; auto).
  assert (Hlen : length (telems (c :: xr)) = ssize (tshape (c :: xr))) by (apply telems_length; auto).
  cbn [fixed_ok fixed_values] in *.
  change (tshape (c :: xr)) with ((csize c, length (creg c)) :: tshape xr) in *. cbv beta iota in Hok.
  set (np := ssize ((csize c, length (creg c)) :: tshape xr)) in *.
  assert (Hnp : np = csize c + ssize (tshape xr)) by (unfold np; apply ssize_cons).
  destruct (stt np) as [[|[rn rl] rr]|] eqn:Est; try discriminate.
  destruct (Hst np _ Hn Est) as [Hdr Hsr]. cbv zeta in *.
  pose proof Hdr as (Hr1 & Hr2 & Hr3 & Hr4). rewrite ssize_cons in Hsr. cbn [fst] in Hsr.
  pose proof Hd as (Hc1 & Hc2 & Hc3 & Hc4).
  destruct (oshape_is (stf np) ((csize c, length (creg c)) :: tshape xr)); [|discriminate]. cbn [negb] in Hok.
  destruct (same_integers t u) eqn:Esame.
  { apply shape_eqb_spec in Hok. rewrite Hok. split.
    - f_equal. change ((csize c, length (creg c)) :: tshape xr) with (tshape (c :: xr)). unfold tshape.
      rewrite map_map. apply map_ext. intros d. unfold cshape. cbn [csize creg]. rewrite map_length. auto.
    - unfold telems. clear. induction (c :: xr) as [|d l IHl]; auto. cbn [map flat_map]. rewrite map_app, <- IHl.
      unfold celems. cbn [csize creg]. rewrite firstn_map. auto. }
  destruct (Nat.eqb_spec rl 1) as [E1|E1].
  { assert (Hs : (rn, rl) :: rr = repeat (1, 1) np).
    { rewrite (forallb_repeat 1 1 _ Hok). f_equal.
      assert (ssize ((rn, rl) :: rr) = np) by (rewrite ssize_cons; auto).
      rewrite (forallb_repeat 1 1 _ Hok), ssize_repeat in H. lia. }
    rewrite Hs. split.
    - f_equal. symmetry. apply scalar_tuple_shape.
    - rewrite <- (cast_at_elems (c :: xr)) by auto. rewrite Hlen. apply scalar_tuple_elems. }
  destruct (Nat.eqb_spec (csize c) rn) as [E2|E2].
  { destruct (vector_convert_one rl (csize c) (creg c)) as [V1 V2]; auto; try lia.
    rewrite Nat.min_r in V2 by lia.
    assert (Hhead : cshape (Chunk rn (vconv rl (csize c) [creg c])) = (rn, rl)).
    { unfold cshape. cbn [csize creg]. rewrite V1. auto. }
    assert (Hel : celems (Chunk rn (vconv rl (csize c) [creg c])) = map cast (celems c)).
    { unfold celems. cbn [csize creg]. rewrite <- E2. auto. }
    destruct xr as [|c2 xr].
    - destruct rr; [|discriminate]. cbn [tshape map] in *. rewrite Hhead. split; auto.
      unfold telems. cbn [flat_map]. rewrite Hel, !app_nil_r. auto.
    - change (tshape (c2 :: xr)) with ((csize c2, length (creg c2)) :: tshape xr) in Hok. cbv beta iota in Hok.
      change ((csize c2, length (creg c2)) :: tshape xr) with (tshape (c2 :: xr)) in Hok.
      destruct (oshape_is (stt (np - csize c)) rr) eqn:Ers; [|discriminate].
      apply oshape_is_spec in Ers.
      assert (Hsz : ssize (tshape (c2 :: xr)) = np - csize c) by lia.
      assert (H1 : 1 <= ssize (tshape (c2 :: xr))).
      { destruct Hc4 as (? & _). change (tshape (c2 :: xr)) with (cshape c2 :: tshape xr). rewrite ssize_cons.
        unfold cshape. cbn [fst]. lia. }
      destruct (IH (c2 :: xr) Hok) as [I1 I2]; [lia|auto|].
      rewrite Hsz, Ers in I1. apply some_inj in I1. split.
      + cbn [tshape map]. rewrite Hhead. f_equal. f_equal. exact I1.
      + cbn [telems flat_map]. rewrite Hel, map_app. f_equal. exact I2. }
  destruct (Nat.ltb_spec rn (csize c)) as [Hlt|Hge].
  { destruct xr as [|c2 xr].
    - cbn [tshape map] in Hok.
      destruct (one_to_many_lens unp 4 np 0 ((rn, rl) :: rr)) as [lens|] eqn:El; [|discriminate].
      assert (np = csize c) by (unfold np, ssize; simpl; lia).
      destruct (one_to_many_spec np (creg c) ltac:(lia) 4 0 _ _ El) as (M1 & M2 & M3); auto; [lia|].
      destruct (to_tuple_spec ((rn, rl) :: rr) (many 4 np 0 ((rn, rl) :: rr) (creg c))) as (T1 & T2 & T3); auto.
      { rewrite M1. auto. }
      rewrite T1. split; auto. rewrite T2. rewrite ssize_cons. cbn [fst]. rewrite Hsr.
      rewrite Nat.sub_0_r in M3. rewrite M3. cbn [skipn telems flat_map]. unfold celems. rewrite app_nil_r. congruence.
    - change (tshape (c2 :: xr)) with ((csize c2, length (creg c2)) :: tshape xr) in Hok. cbv beta iota in Hok.
      change ((csize c2, length (creg c2)) :: tshape xr) with (tshape (c2 :: xr)) in Hok.
      destruct (stt (csize c)) as [r1|] eqn:Er1; [|discriminate].
      destruct (stt (np - csize c)) as [r2|] eqn:Er2; [|discriminate].
      destruct (straight (repeat rl (nparts unp (csize c) rl 0)) r1 && shape_eqb (r1 ++ r2) ((rn, rl) :: rr)) eqn:Es;
        [|discriminate].
      apply andb_true_iff in Es as [Es Ese]. apply shape_eqb_spec in Ese.
      destruct (Hst (csize c) r1) as [Hd1 Hs1]; auto; [lia|].
      destruct (convert_all_spec (csize c) (creg c) rl 0) as (C1 & C2 & C3); auto; try lia.
      destruct (to_tuple_spec r1 (call (csize c) (creg c) rl 0)) as (T1 & T2 & T3); auto.
      { rewrite (Forall_map_length rl) by auto. rewrite C1. auto. }
      assert (Hsz : ssize (tshape (c2 :: xr)) = np - csize c) by lia.
      assert (H1 : 1 <= ssize (tshape (c2 :: xr))).
      { destruct Hc4 as (? & _). change (tshape (c2 :: xr)) with (cshape c2 :: tshape xr). rewrite ssize_cons.
        unfold cshape. cbn [fst]. lia. }
      destruct (IH (c2 :: xr) Hok) as [I1 I2]; [lia|auto|].
      rewrite Hsz, Er2 in I1. apply some_inj in I1.
      rewrite tshape_app, telems_app, T1, T2, <- I1, Ese. split; auto.
      rewrite I2. change (telems (c :: c2 :: xr)) with (celems c ++ telems (c2 :: xr)). rewrite map_app. f_equal.
      rewrite (concat_length rl) in T3 by auto. rewrite C1, Hs1 in T3. rewrite Hs1.
      rewrite Nat.sub_0_r, Nat.min_r in C3 by lia. rewrite C3. cbn [skipn]. auto. }
  set (k := div_roundup rn (csize c)) in *.
  set (mk := forallb _ _ && _ && _ && _) in Hok.
  assert (Hmany : mk = true ->
    tshape (many_to_one cast zeroA zeroB x86 cp cx86 rn rl (firstn k (c :: xr))) = [(rn, rl)] /\
    telems (many_to_one cast zeroA zeroB x86 cp cx86 rn rl (firstn k (c :: xr)))
    = map cast (telems (firstn k (c :: xr))) /\ ssize (tshape (firstn k (c :: xr))) = rn).
  { unfold mk. intros Hm. apply andb_true_iff in Hm as [Hm Hm4]. apply andb_true_iff in Hm as [Hm Hm3].
    apply andb_true_iff in Hm as [Hm1 Hm2]. apply Nat.eqb_eq in Hm3. apply Nat.leb_le in Hm2.
    apply forallb_repeat in Hm1. rewrite firstn_length, Nat.min_l in Hm1 by auto.
    change ((csize c, length (creg c)) :: tshape xr) with (tshape (c :: xr)) in Hm1. rewrite <- tshape_firstn in Hm1.
    destruct (many_to_one_spec rn rl (firstn k (c :: xr)) (csize c) (length (creg c)) k) as [M1 M2]; auto; try lia.
    { destruct (Nat.eqb_spec (length (creg c)) 1); auto. }
    split; [auto|split; auto]. rewrite Hm1, ssize_repeat. auto. }
  destruct rr as [|[n2 l2] rr].
  - assert (Hrn : rn = np) by (cbn [ssize map list_sum fold_right fst] in Hsr; unfold ssize in Hsr; simpl in Hsr; lia).
    destruct (negb (np mod csize c =? 0)).
    + unfold tshape, telems, cshape, celems. cbn [map flat_map csize creg]. rewrite app_nil_r.
      rewrite app_length, map_length, seq_length, repeat_length. split; [do 3 f_equal; lia|].
      rewrite firstn_app_le by (rewrite map_length, seq_length; lia). rewrite firstn_all2 by (rewrite map_length, seq_length; lia).
      rewrite <- Hlen. apply cast_at_elems. auto.
    + destruct (Hmany Hok) as (M1 & M2 & M3). rewrite M1. split; auto. rewrite M2. f_equal.
      (* nothing is left *)
      assert (Hall : ssize (tshape (skipn k (c :: xr))) = 0).
      { assert (E : tshape (c :: xr) = tshape (firstn k (c :: xr)) ++ tshape (skipn k (c :: xr)))
          by (rewrite <- tshape_app, firstn_skipn; auto).
        apply (f_equal ssize) in E. rewrite ssize_app, M3 in E. change (tshape (c :: xr)) with ((csize c, length (creg c)) :: tshape xr) in E.
        fold np in E. lia. }
      assert (Hnil : skipn k (c :: xr) = []).
      { assert (Hds : dense (tshape (skipn k (c :: xr)))).
        { apply (dense_app_r (tshape (firstn k (c :: xr)))). rewrite <- tshape_app, firstn_skipn. auto. }
        destruct (skipn k (c :: xr)) as [|d l]; auto. exfalso. destruct Hds as (? & _).
        change (tshape (d :: l)) with (cshape d :: tshape l) in Hall. rewrite ssize_cons in Hall.
        unfold cshape in Hall. cbn [fst] in Hall. lia. }
      rewrite <- (firstn_skipn k (c :: xr)) at 2. rewrite Hnil, app_nil_r. auto.
  - destruct mk eqn:Emk; [|discriminate]. destruct (Hmany eq_refl) as (M1 & M2 & M3).
    destruct (oshape_is (stt (np - rn)) ((n2, l2) :: rr)) eqn:Ers; [|discriminate].
    apply oshape_is_spec in Ers.
    change ((csize c, length (creg c)) :: tshape xr) with (tshape (c :: xr)) in Hok. rewrite <- tshape_skipn in Hok.
    assert (Hsz : ssize (tshape (skipn k (c :: xr))) = np - rn).
    { assert (E : tshape (c :: xr) = tshape (firstn k (c :: xr)) ++ tshape (skipn k (c :: xr)))
        by (rewrite <- tshape_app, firstn_skipn; auto).
      apply (f_equal ssize) in E. rewrite ssize_app, M3 in E. change (tshape (c :: xr)) with ((csize c, length (creg c)) :: tshape xr) in E.
      fold np in E. lia. }
    assert (Hpos : 1 <= ssize ((n2, l2) :: rr)) by (rewrite ssize_cons; destruct Hr4 as (? & _); simpl; lia).
    destruct (IH (skipn k (c :: xr)) Hok) as [I1 I2]; [lia| |].
    { apply (dense_app_r (tshape (firstn k (c :: xr)))). rewrite <- tshape_app, firstn_skipn. auto. }
    rewrite Hsz, Ers in I1. apply some_inj in I1.
    rewrite tshape_app, telems_app, M1, M2, <- I1, I2. split; auto.
    rewrite <- map_app, <- telems_app, firstn_skipn. auto.
Qed.
End Convert.
