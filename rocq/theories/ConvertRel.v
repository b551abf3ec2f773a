(* The converters relate every element of the result to the element it comes
   from, if the conversions of registers they call do: the lemmas of
   ConvertProofs.v for a relation R in place of a function, and with conversions
   of registers that are only known to work for the calls that are made. *)
From Coq Require Import List Arith Bool Lia.
From Verif Require Import Prelude BitMask BitMaskProofs Abi AbiSpec AbiProofs Fixed FixedSpec FixedProofs
  FixedApply FixedMixed Convert ConvertSpec ConvertProofs.
Import ListNotations.

Section Lists.
Context {A B : Type}.
Variable R : A -> B -> Prop.
Lemma F2_len l m : Forall2 R l m -> length l = length m.
Proof. induction 1; simpl; auto. Qed.
Lemma F2_firstn k l m : Forall2 R l m -> Forall2 R (firstn k l) (firstn k m).
Proof. intros H. revert k. induction H; intros [|k]; simpl; auto. Qed.
Lemma F2_map {X} (f : X -> A) (g : X -> B) l : (forall v, In v l -> R (f v) (g v)) -> Forall2 R (map f l) (map g l).
Proof. induction l; simpl; constructor; auto. Qed.
Lemma F2_nth (d : A) (e : B) l m : length l = length m -> (forall i, i < length l -> R (nth i l d) (nth i m e)) -> Forall2 R l m.
Proof.
  revert m. induction l as [|x l IH]; intros [|y m] Hl H; simpl in *; try discriminate; constructor.
  - apply (H 0). lia.
  - apply IH; [lia|]. intros i Hi. apply (H (S i)). lia.
Qed.
Lemma F2_get (d : A) (e : B) l m i : Forall2 R l m -> i < length l -> R (nth i l d) (nth i m e).
Proof. intros H. revert i. induction H; intros [|i] Hi; simpl in *; try lia; auto. apply IHForall2. lia. Qed.
Lemma F2_concat (src : list A) k (g : nat -> list B) : forall p off,
  off + p * k <= length src ->
  (forall i, i < p -> Forall2 R (firstn k (skipn (off + i * k) src)) (g i)) ->
  Forall2 R (firstn (p * k) (skipn off src)) (concat (map g (seq 0 p))).
Proof.
  induction p as [|p IH]; intros off Hl Hg; [constructor|].
  rewrite seq_S, map_app, concat_app.
  rewrite <- (firstn_skipn (p * k) (firstn (S p * k) (skipn off src))).
  rewrite firstn_firstn, Nat.min_l by lia. apply Forall2_app.
  - apply IH; [lia|]. intros i Hi. apply Hg. lia.
  - cbn [map concat]. rewrite app_nil_r. cbn [Nat.add].
    rewrite skipn_firstn_comm, <- (skipn_add off (p * k) src).
    replace (S p * k - p * k) with k by lia. apply Hg. lia.
Qed.
End Lists.

(* the lanes of the register that __extract_part returns *)
Lemma extract_part_length {A} I t (zero : A) x86 np reg L : 1 <= esize t -> length reg = L ->
  (forall k, 1 <= k <= L -> lanes_of I t k <= L) ->
  (forall k, 1 <= k -> k * esize t <= 16 -> lanes_of I t k * esize t <= 16) ->
  forall fuel index total combine v r,
  1 <= combine -> combine <= fuel -> 1 <= total -> 1 <= v -> np = total * v -> index <> 0 ->
  (index + combine) * v <= L ->
  extract_part I t zero x86 false np reg fuel index total combine = Some r ->
  length r = lanes_of I t (combine * v).
Proof.
  intros Ht HL Hmax H16. induction fuel as [|fuel IH]; intros index total combine v r Hc Hf Htot Hv Hnp Hi0 Hb; [lia|].
  cbn [extract_part].
  destruct ((index mod 2 =? 0) && (total mod 2 =? 0) && (combine mod 2 =? 0)) eqn:E.
  - btrue. repeat match goal with H : (_ =? _) = true |- _ => apply Nat.eqb_eq in H end.
    assert (Hi : index = 2 * (index / 2)) by (pose proof (Nat.div_mod index 2); lia).
    assert (Hto : total = 2 * (total / 2)) by (pose proof (Nat.div_mod total 2); lia).
    assert (Hco : combine = 2 * (combine / 2)) by (pose proof (Nat.div_mod combine 2); lia).
    set (i := index / 2) in *. set (tt := total / 2) in *. set (c := combine / 2) in *. intros Er.
    rewrite (IH i tt c (2 * v) r) by (try lia; try nia; auto). f_equal. nia.
  - cbv zeta. assert (Ev : np / total = v) by (subst np; rewrite Nat.mul_comm; apply Nat.div_mul; lia).
    rewrite Ev. set (ret := v * combine). set (skip := index * v). set (Q := lanes_of I t ret).
    assert (HR : ret <= Q) by (apply lanes_of_ge; unfold ret; nia).
    replace (combine * v) with ret by (unfold ret; nia). fold Q.
    assert (Hs : skip + ret <= L) by (unfold skip, ret; nia).
    assert (HQ : Q <= L) by (apply Hmax; unfold ret in *; nia).
    destruct (Nat.ltb_spec (length reg * esize t) ((index + combine) * v * esize t)); [discriminate|].
    destruct (Nat.eqb_spec index 0) as [E0|E0]; [lia|]; cbn [andb].
    destruct (x86 && (length reg * esize t =? 32) && (ret * esize t <=? 16)) eqn:E32.
    { btrue. repeat match goal with H : (_ =? _) = true |- _ => apply Nat.eqb_eq in H
                    | H : (_ <=? _) = true |- _ => apply Nat.leb_le in H end.
      assert (Hr16 : Q <= 16 / esize t).
      { apply Nat.div_le_lower_bound; [lia|]. rewrite Nat.mul_comm. apply H16; [unfold ret; nia|auto]. }
      destruct (Nat.eqb_spec (skip * esize t) 16) as [E16|E16]; intros Er; injection Er as <-.
      - rewrite firstn_length, skipn_length.
        assert (16 / esize t = skip) by (rewrite <- E16; apply Nat.div_mul; lia).
        assert (length reg = 2 * skip) by nia. lia.
      - rewrite !firstn_length, app_length, repeat_length. lia. }
    destruct ((negb (skip mod ret =? 0) || (8 <=? Q * esize t)) && ((skip + ret) * esize t <=? 64)
              && (16 <=? length reg * esize t)); intros Er; injection Er as <-.
    + rewrite firstn_length, app_length, skipn_length, repeat_length. lia.
    + rewrite app_length, firstn_length, skipn_length, repeat_length. lia.
Qed.

Section Convert.
Context {A B : Type}.
Variables (cast : A -> B) (zeroA : A) (zeroB : B) (I : isa) (t u : elem) (x86 sse41 cp : bool).
Variables (cx86 : nat -> list (list A) -> list B) (unpack : nat -> nat -> list A -> list (list B)).
Variable R : A -> B -> Prop.
Hypothesis HR : forall v, R v (cast v).
(* the calls that have to work: lanes of the result, lanes and number of the
   source registers; elements of the source, lanes of results and source *)
Variable dom domu : nat -> nat -> nat -> Prop.
Hypothesis Hx : forall full l k xs, dom full l (2 ^ k) -> 1 <= full -> length xs = 2 ^ k -> Forall (fun x => length x = l) xs ->
    length (cx86 full xs) = full /\
    forall i d e, i < full -> i < length (concat xs) -> R (nth i (concat xs) d) (nth i (cx86 full xs) e).
Hypothesis Hu : forall n lanes reg, domu n lanes (length reg) -> n <= length reg -> 1 <= lanes ->
    length (unpack n lanes reg) = n / lanes /\
    Forall (fun r => length r = lanes) (unpack n lanes reg) /\
    Forall2 R (firstn (n / lanes * lanes) reg) (concat (unpack n lanes reg)).
Hypothesis Ht : 1 <= esize t.
(* registers (elements and lanes) of the source and of the result *)
Variables gt gu : nat * nat -> Prop.
Hypothesis Hlen : x86 = true -> forall n l k, gt (n, l) -> 1 <= k <= l -> lanes_of I t k <= l.
Hypothesis Hlen16 : x86 = true -> forall k, 1 <= k -> k * esize t <= 16 -> lanes_of I t k * esize t <= 16.
Hypothesis D1 : x86 = true -> cp = false -> forall n rn rl k, gt (n, n) -> gu (rn, rl) -> k * n = rn -> 1 <= k <= 16 -> 2 <= n \/ k = 1 /\ 2 <= rl ->
  dom rl n (bit_ceil k).
Hypothesis D2 : x86 = true -> cp = false -> forall n l mn ml, gt (n, l) -> gu (mn, ml) -> ml < n -> 2 <= ml -> dom ml ml 1.
Hypothesis D3 : x86 = true -> cp = false -> forall n l mn ml, gt (n, l) -> gu (mn, ml) -> mn < n -> lanes_of I t mn = mn -> 2 <= ml ->
  dom ml mn 1.

Notation vconv := (vector_convert cast zeroA zeroB x86 cp cx86).
Notation call := (convert_all cast zeroA zeroB I t u x86 sse41 cp cx86 unpack).
Notation unp := (uses_unpack x86 sse41 t u).

Lemma rel_map l : Forall2 R l (map cast l).
Proof. induction l; simpl; constructor; auto. Qed.

Lemma rel_vector_convert full n xs l : xs <> [] -> Forall (fun x => length x = l) xs -> n <= l -> 1 <= full ->
  (length xs = 1 \/ length xs * n <= full) ->
  (x86 = true -> cp = false -> n = l -> dom full l (bit_ceil (length xs))) ->
  length (vconv full n xs) = full /\
  Forall2 R (firstn (Nat.min full (length xs * n)) (flat_map (firstn n) xs))
    (firstn (Nat.min full (length xs * n)) (vconv full n xs)).
Proof.
  intros Hne Hl Hn Hf Hfit Hdom. unfold vector_convert. cbv zeta.
  assert (Hh : length (hd [] xs) = l) by (destruct xs; [congruence|]; inversion Hl; auto).
  rewrite Hh.
  destruct (x86 && negb cp && (n =? l)) eqn:E.
  - apply andb_true_iff in E as [E E3]. apply andb_true_iff in E as [E1 E2]. apply negb_true_iff in E2.
    apply Nat.eqb_eq in E3. subst n. specialize (Hdom E1 E2 eq_refl).
    set (P := pad_pow2 zeroA xs l).
    assert (Hp : Forall (fun x => length x = l) P).
    { unfold P, pad_pow2. apply Forall_app. split; auto. apply Forall_forall. intros y Hy.
      apply repeat_spec in Hy. subst y. apply repeat_length. }
    assert (Hlen' : length P = 2 ^ Nat.log2_up (length xs)).
    { unfold P, pad_pow2. rewrite app_length, repeat_length. change (2 ^ Nat.log2_up (length xs)) with (bit_ceil (length xs)).
      assert (1 <= length xs) by (destruct xs; [congruence|simpl; lia]).
      pose proof (bit_ceil_ge (length xs)). lia. }
    destruct (Hx full l _ P Hdom Hf Hlen' Hp) as [Hx1 Hx2]. split; auto.
    rewrite (flat_map_firstn_id t Ht l) by auto.
    assert (Hc : length (concat xs) = length xs * l) by (apply (concat_length t Ht); auto).
    assert (Hpc : concat P = concat xs ++ concat (repeat (repeat zeroA l) (bit_ceil (length xs) - length xs)))
      by (unfold P, pad_pow2; apply concat_app).
    apply (F2_nth R zeroA zeroB); [rewrite !firstn_length; lia|].
    intros i Hi. rewrite firstn_length in Hi.
    assert (Hi' : i < Nat.min full (length xs * l)) by lia.
    rewrite !(nth_firstn_lt _ (Nat.min full (length xs * l))) by auto.
    replace (nth i (concat xs) zeroA) with (nth i (concat P) zeroA) by (rewrite Hpc, app_nth1 by lia; auto).
    apply Hx2; [lia|]. rewrite Hpc, app_length. lia.
  - set (k := if length xs =? 1 then Nat.min full n else n).
    assert (Hk : k <= n) by (unfold k; destruct (length xs =? 1); lia).
    assert (Hkl : length xs * k = Nat.min full (length xs * n)).
    { unfold k. destruct (Nat.eqb_spec (length xs) 1) as [->|]; [lia|]. nia. }
    assert (Hfl : length (flat_map (firstn k) xs) = Nat.min full (length xs * n)).
    { rewrite (flat_firstn_length t Ht l) by (auto; lia). auto. }
    rewrite app_length, repeat_length, map_length, Hfl. split; [lia|].
    rewrite firstn_app_le by (rewrite map_length; lia). rewrite firstn_map.
    rewrite (firstn_all2 (flat_map (firstn k) xs)) by lia.
    replace (firstn (Nat.min full (length xs * n)) (flat_map (firstn n) xs)) with (flat_map (firstn k) xs); [apply rel_map|].
    unfold k. destruct (Nat.eqb_spec (length xs) 1) as [E1|E1].
    + destruct xs as [|x [|? ?]]; try discriminate. cbn [flat_map length]. rewrite !app_nil_r, firstn_firstn.
      f_equal. lia.
    + rewrite firstn_all2; auto. rewrite (flat_firstn_length t Ht l) by auto. lia.
Qed.

Lemma rel_one full n reg : n <= length reg -> 1 <= full ->
  (x86 = true -> cp = false -> n = length reg -> dom full n 1) ->
  length (vconv full n [reg]) = full /\
  Forall2 R (firstn (Nat.min full n) reg) (firstn (Nat.min full n) (vconv full n [reg])).
Proof.
  intros Hn Hf Hdom. destruct (rel_vector_convert full n [reg] (length reg)) as [H1 H2]; auto; try congruence.
  { intros E1 E2 E3. rewrite <- E3. apply Hdom; auto. }
  split; auto. cbn [length flat_map] in H2. rewrite Nat.mul_1_l, app_nil_r, firstn_firstn in H2.
  replace (Nat.min (Nat.min full n) n) with (Nat.min full n) in H2 by lia. auto.
Qed.

Lemma rel_part_length n reg index k l : cp = false -> x86 = true -> gt (n, l) -> length reg = l -> 1 <= k -> 1 <= n -> index <> 0 ->
  index + k <= length reg -> length (part zeroA I t x86 cp n reg index k) = lanes_of I t k.
Proof.
  intros Hcp Hx86 Hg HL Hk Hn Hi Hb. unfold part.
  destruct (extract_part_spec I t zeroA x86 cp n reg Ht k index n k 1) as (r & Er & _ & _); try lia.
  rewrite Er. rewrite Hcp in Er.
  assert (Hm : forall m, 1 <= m <= l -> lanes_of I t m <= l) by (intros m Hm; eapply Hlen; eauto).
  rewrite (extract_part_length I t zeroA x86 n reg l Ht HL Hm (Hlen16 Hx86) k index n k 1 r); auto; try lia.
  rewrite Nat.mul_1_r. auto.
Qed.

Lemma rel_convert_all n reg mn lanes off : n <= length reg -> 1 <= mn <= lanes -> off < n ->
  gt (n, length reg) -> gu (mn, lanes) ->
  (unp = true -> off = 0 -> 2 <= lanes -> domu n lanes (length reg)) ->
  (off = 0 -> lanes < n) -> (off <> 0 -> lanes < n - off \/ lanes = 1 \/ mn = n - off) ->
  length (call n reg lanes off) = nparts unp n lanes off /\
  Forall (fun r => length r = lanes) (call n reg lanes off) /\
  Forall2 R (firstn (Nat.min (nparts unp n lanes off * lanes) (n - off)) (skipn off reg))
    (firstn (Nat.min (nparts unp n lanes off * lanes) (n - off)) (concat (call n reg lanes off))).
Proof.
  intros Hn Hml Ho Hgt Hgu Hdu Hfirst Hlast. unfold convert_all, nparts.
  destruct (Nat.eqb_spec lanes 1) as [E1|E1].
  { rewrite map_length, seq_length. subst lanes. rewrite Nat.mul_1_r, Nat.min_id. repeat split.
    - apply Forall_forall. intros r Hr. apply in_map_iff in Hr as (i & <- & _). auto.
    - rewrite (firstn_all2 (concat _)).
      2: { rewrite (concat_length t Ht 1), map_length, seq_length; [lia|].
           apply Forall_forall. intros r Hr. apply in_map_iff in Hr as (i & <- & _). auto. }
      rewrite <- (Nat.mul_1_r (n - off)) at 1. apply F2_concat; [lia|].
      intros i Hi. rewrite Nat.mul_1_r.
      replace (firstn 1 (skipn (off + i) reg)) with [nth (i + off) reg zeroA]; [constructor; auto|].
      assert (Hlt : off + i < length reg) by lia.
      replace (i + off) with (off + i) by lia. clear - Hlt. revert Hlt. generalize (off + i). clear.
      induction reg as [|x reg IH]; intros [|j] H; simpl in *; auto; try lia. apply IH. lia. }
  destruct (unp && (off =? 0)) eqn:Eu.
  { apply andb_true_iff in Eu as [Eu Eo]. apply Nat.eqb_eq in Eo. subst off.
    assert (Hd : n / lanes * lanes <= n) by (rewrite Nat.mul_comm; apply Nat.mul_div_le; lia).
    destruct (Hu n lanes reg) as (H1 & H2 & H3); [apply Hdu; auto; lia|lia|lia|].
    repeat split; auto. rewrite Nat.sub_0_r, Nat.min_l by lia. cbn [skipn].
    rewrite (firstn_all2 (concat _)); auto. rewrite (concat_length t Ht lanes) by auto. rewrite H1. lia. }
  destruct (Nat.ltb_spec lanes (n - off)) as [Hlt|Hge].
  { assert (Hd : (n - off) / lanes * lanes <= n - off) by (rewrite Nat.mul_comm; apply Nat.mul_div_le; lia).
    set (p := (n - off) / lanes) in *. clearbody p.
    assert (Hb : forall i, i < p ->
       length (vconv lanes lanes [part zeroA I t x86 cp n reg (i * lanes + off) lanes]) = lanes /\
       Forall2 R (firstn lanes (skipn (off + i * lanes) reg)) (vconv lanes lanes [part zeroA I t x86 cp n reg (i * lanes + off) lanes])).
    { intros i Hi. destruct (part_spec zeroA I t x86 cp Ht n reg (i * lanes + off) lanes) as [P1 P2]; try nia.
      destruct (rel_one lanes lanes (part zeroA I t x86 cp n reg (i * lanes + off) lanes)) as [V1 V2]; try lia.
      { intros X1 X2 _. apply (D2 X1 X2 n (length reg) mn lanes); auto; lia. }
      split; auto. rewrite Nat.min_id, P1 in V2. replace (off + i * lanes) with (i * lanes + off) by lia.
      rewrite (firstn_all2 (vconv _ _ _)) in V2 by lia. auto. }
    rewrite map_length, seq_length.
    assert (Hfa : Forall (fun r => length r = lanes)
      (map (fun i => vconv lanes lanes [part zeroA I t x86 cp n reg (i * lanes + off) lanes]) (seq 0 p))).
    { apply Forall_forall. intros r Hr. apply in_map_iff in Hr as (i & <- & Hi).
      apply in_seq in Hi. apply Hb. lia. }
    repeat split; auto.
    rewrite Nat.min_l by lia. rewrite (firstn_all2 (concat _)).
    2: { rewrite (concat_length t Ht lanes) by auto. rewrite map_length, seq_length. lia. }
    apply F2_concat; [lia|]. intros i Hi. apply Hb. auto. }
  cbn [length Nat.mul]. rewrite Nat.add_0_r, Nat.min_r by lia.
  destruct (Nat.eqb_spec off 0) as [->|Hoff]; [lia|].
  destruct (Hlast Hoff) as [?|[?|Hmn]]; try lia.
  destruct (part_spec zeroA I t x86 cp Ht n reg off (n - off)) as [P1 P2]; try lia.
  destruct (rel_one lanes (n - off) (part zeroA I t x86 cp n reg off (n - off))) as [V1 V2]; try lia.
  { intros X1 X2 X3. rewrite (rel_part_length n reg off (n - off) (length reg)) in X3 by (auto; lia).
    rewrite <- Hmn in *. apply (D3 X1 X2 n (length reg) mn lanes); auto; lia. }
  repeat split; auto. cbn [concat]. rewrite app_nil_r. rewrite Nat.min_r, P1 in V2 by lia. auto.
Qed.

Notation totuple := (to_tuple zeroB).
Notation many := (one_to_many cast zeroA zeroB I t u x86 sse41 cp cx86 unpack).
Notation fvals := (fixed_values cast zeroA zeroB I t u x86 sse41 cp cx86 unpack).

Lemma pop_shape_in : forall s k r, pop_shape s k = Some r -> forall p, In p r -> In p s.
Proof.
  induction s as [|[n l] s IH]; intros k r; cbn [pop_shape]; destruct (k =? 0); try congruence.
  destruct (n <=? k); [|discriminate]. intros H p Hp. right. eapply IH; eauto.
Qed.

Lemma nparts_pos n lanes off : off < n -> 1 <= lanes -> (off = 0 -> lanes < n) -> 1 <= nparts unp n lanes off.
Proof.
  intros Ho Hl Hf. unfold nparts. destruct (lanes =? 1); [lia|].
  destruct (unp && (off =? 0)) eqn:E.
  - apply andb_true_iff in E as [_ E]. apply Nat.eqb_eq in E. apply Nat.div_le_lower_bound; lia.
  - destruct (Nat.ltb_spec lanes (n - off)); [|lia]. apply Nat.div_le_lower_bound; lia.
Qed.

Lemma rel_one_to_many np reg : np <= length reg -> gt (np, length reg) -> forall rounds conv rem lens,
  one_to_many_lens unp rounds np conv rem = Some lens -> dense rem -> conv < np -> Forall gu rem ->
  (conv = 0 -> forall p r, rem = p :: r -> snd p < np /\ (unp = true -> 2 <= snd p -> domu np (snd p) (length reg))) ->
  map (@length B) (many rounds np conv rem reg) = lens /\
  np - conv <= length (concat (many rounds np conv rem reg)) /\
  Forall2 R (firstn (np - conv) (skipn conv reg)) (firstn (np - conv) (concat (many rounds np conv rem reg))).
Proof.
  intros Hnp Hgt. induction rounds as [|r IH]; intros conv rem lens H Hd Hc Hgu Hfst; [discriminate|].
  cbn [one_to_many_lens one_to_many] in *. destruct rem as [|[mn ml] rest]; [discriminate|].
  cbv zeta in H |- *. pose proof Hd as (Hm1 & Hm2 & Hm3 & _).
  set (p := nparts unp np ml conv) in *.
  assert (Hf0 : conv = 0 -> ml < np) by (intros E; apply (Hfst E (mn, ml) rest); auto).
  assert (Hp : 1 <= p) by (apply nparts_pos; auto; lia).
  destruct (Nat.ltb_spec np (conv + p * mn)) as [|Hle]; [discriminate|].
  assert (Hlast : conv <> 0 -> ml < np - conv \/ ml = 1 \/ mn = np - conv).
  { intros Hc0. destruct (Nat.eq_dec ml 1); [auto|]. destruct (Nat.lt_ge_cases ml (np - conv)) as [|Hge]; [auto|]. right. right.
    assert (Ep : p = 1).
    { unfold p, nparts. destruct (Nat.eqb_spec ml 1); [lia|]. destruct (Nat.eqb_spec conv 0); [lia|].
      rewrite andb_false_r. destruct (Nat.ltb_spec ml (np - conv)); lia. }
    rewrite Ep in *. destruct (Nat.eqb_spec (conv + 1 * mn) np); [lia|].
    destruct (Nat.eqb_spec ml mn); [lia|discriminate]. }
  destruct (rel_convert_all np reg mn ml conv) as (C1 & C2 & C3); auto; try lia.
  { inversion Hgu; auto. }
  { intros E1 E2 E3. apply (Hfst E2 (mn, ml) rest); auto. }
  fold p in C1, C3.
  assert (CL : length (concat (call np reg ml conv)) = p * ml) by (rewrite (concat_length t Ht ml) by auto; rewrite C1; auto).
  destruct (Nat.eqb_spec (conv + p * mn) np) as [E|E].
  - rewrite app_nil_r, (Forall_map_length ml) by auto. rewrite C1.
    assert (np - conv <= p * ml) by nia.
    rewrite Nat.min_r in C3 by lia. rewrite CL. split; [|split; auto].
    destruct ((ml =? 1) && negb (p =? 1)); congruence.
  - destruct (Nat.eqb_spec ml mn) as [Em|]; [|discriminate]. cbn [negb] in H.
    destruct (pop_shape ((mn, ml) :: rest) (p * mn)) as [rem'|] eqn:Ep; [|discriminate].
    destruct (one_to_many_lens unp r np (conv + p * mn) rem') as [lens'|] eqn:El; [|discriminate].
    cbn [option_map] in H. apply some_inj in H. subst lens.
    destruct (IH _ _ _ El) as (H1 & H2 & H3); [eapply pop_shape_dense; eauto|lia| | |].
    { rewrite Forall_forall in Hgu |- *. intros q Hq. apply Hgu. eapply pop_shape_in; eauto. }
    { intros E0. nia. }
    rewrite map_app, concat_app, app_length, H1, (Forall_map_length ml), C1, CL by auto.
    subst ml. rewrite Nat.min_l in C3 by lia.
    split; [auto|split; [lia|]].
    rewrite firstn_app, CL. replace (np - conv - p * mn) with (np - (conv + p * mn)) by lia.
    rewrite (firstn_all2 (concat (call np reg mn conv))) by lia. rewrite (firstn_all2 (concat (call np reg mn conv))) in C3 by lia.
    rewrite <- (firstn_skipn (p * mn) (firstn (np - conv) (skipn conv reg))).
    rewrite firstn_firstn, Nat.min_l by lia. apply Forall2_app; auto.
    rewrite skipn_firstn_comm, <- (skipn_add conv (p * mn)).
    replace (np - conv - p * mn) with (np - (conv + p * mn)) by lia. auto.
Qed.

Lemma rel_many_to_one rn rl (xs : tuple A) an al k : 1 <= an -> an <= al -> rn <= rl ->
  tshape xs = repeat (an, al) k -> 1 <= k -> k * an = rn ->
  (al = 1 \/ vector_convert_ok rl an k = true) -> gt (an, al) -> gu (rn, rl) ->
  tshape (many_to_one cast zeroA zeroB x86 cp cx86 rn rl xs) = [(rn, rl)] /\
  Forall2 R (telems xs) (telems (many_to_one cast zeroA zeroB x86 cp cx86 rn rl xs)).
Proof.
  intros Han Hal Hr Hs Hk Hkr Hok Hgt Hgu. unfold many_to_one.
  assert (Hlenx : length xs = k).
  { apply (f_equal (@length _)) in Hs. unfold tshape in Hs. rewrite map_length, repeat_length in Hs. auto. }
  assert (Hh : cshape (hd (Chunk 0 []) xs) = (an, al)).
  { destruct xs as [|c xs]; [simpl in Hlenx; lia|]. destruct k; [lia|]. cbn [tshape map repeat] in Hs.
    change (hd (Chunk 0 []) (c :: xs)) with c. congruence. }
  unfold cshape in Hh. injection Hh as Hh1 Hh2. rewrite Hh1, Hh2. clear Hh1 Hh2.
  assert (Hregs : Forall (fun x => length x = al) (map creg xs)).
  { clear - Hs. revert k Hs. induction xs as [|c xs IH]; intros k Hs; [constructor|].
    destruct k; [discriminate|]. cbn [tshape map repeat] in Hs. unfold cshape at 1 in Hs. injection Hs as H1 H2 H3.
    constructor; auto. apply (IH k). auto. }
  assert (Hel : telems xs = flat_map (firstn an) (map creg xs)).
  { clear - Hs. revert k Hs. induction xs as [|c xs IH]; intros k Hs; [reflexivity|].
    destruct k; [discriminate|]. cbn [tshape map repeat] in Hs. unfold cshape at 1 in Hs. injection Hs as H1 H2 H3.
    cbn [telems flat_map map]. unfold celems at 1. rewrite H1. f_equal. apply (IH k). auto. }
  assert (Hlr : length (map creg xs) = k) by (rewrite map_length; auto).
  destruct (Nat.eqb_spec al 1) as [E|E].
  - subst al. assert (an = 1) by lia. subst an.
    rewrite (flat_map_firstn_id t Ht 1) in Hel by auto.
    assert (Hfc : flat_map creg xs = concat (map creg xs)) by apply flat_map_concat_map.
    assert (Hl : length (flat_map creg xs) = k) by (rewrite Hfc, (concat_length t Ht 1), Hlr by auto; lia).
    rewrite Hl. unfold tshape, cshape. cbn [map csize creg].
    rewrite app_length, map_length, repeat_length, Hl. split; [do 2 f_equal; lia|].
    rewrite Hel. unfold telems, celems. cbn [flat_map csize creg]. rewrite app_nil_r.
    rewrite firstn_app_le by (rewrite map_length; lia). rewrite firstn_map, firstn_all2 by lia.
    rewrite <- Hfc. apply rel_map.
  - destruct Hok as [?|Hok]; [lia|].
    assert (Hk16 : k <= 16).
    { unfold vector_convert_ok in Hok. apply orb_true_iff in Hok as [Hok|Hok].
      - apply Nat.eqb_eq in Hok. lia.
      - apply andb_true_iff in Hok as [Hok _]. apply Nat.leb_le in Hok. auto. }
    assert (Hfit : length (map creg xs) = 1 \/ length (map creg xs) * an <= rl) by (rewrite Hlr; right; lia).
    destruct (rel_vector_convert rl an (map creg xs) al) as [V1 V2]; auto; try lia.
    { intros E1. rewrite E1 in Hlr. simpl in Hlr. lia. }
    { intros X1 X2 X3. rewrite Hlr. subst al. apply (D1 X1 X2 an rn rl k); auto; lia. }
    unfold tshape, cshape. cbn [map csize creg]. rewrite V1. split; auto.
    rewrite Hel. unfold telems, celems. cbn [flat_map csize creg]. rewrite app_nil_r.
    rewrite Hlr, Nat.min_r in V2 by lia. rewrite Hkr in V2.
    rewrite (firstn_all2 (flat_map (firstn an) _)) in V2; auto.
    rewrite (flat_firstn_length t Ht al) by (auto; lia). lia.
Qed.

Variables (stf stt : nat -> option shape) (N : nat).
Hypothesis Hst : forall m s, 1 <= m <= N -> stt m = Some s -> dense s /\ ssize s = m /\ Forall gu s.
Hypothesis D4 : unp = true -> forall m rn rl p rr n l, 1 <= m <= N -> stt m = Some ((rn, rl) :: p :: rr) -> gt (n, l) ->
  rn < n -> 2 <= rl -> domu n rl l.

Lemma rel_cast_at (x : tuple A) : Forall chunk_ok x ->
  Forall2 R (telems x) (map (cast_at cast zeroB x) (seq 0 (length (telems x)))).
Proof. intros Hok. rewrite (cast_at_elems cast zeroA zeroB x Hok). apply rel_map. Qed.

Lemma rel_fixed_values : forall fuel x,
  fixed_ok unp (same_integers t u) stf stt fuel (tshape x) = true ->
  1 <= ssize (tshape x) <= N -> dense (tshape x) -> Forall gt (tshape x) ->
  stt (ssize (tshape x)) = Some (tshape (fvals stt fuel x)) /\
  Forall2 R (telems x) (telems (fvals stt fuel x)).
Proof.
  induction fuel as [|f IH]; intros x Hok Hn Hd Hg; [discriminate|].
  destruct x as [|c xr]; [discriminate|].
  assert (Hcok : Forall chunk_ok (c :: xr)) by (apply dense_ok; auto).
  assert (Hlenx : length (telems (c :: xr)) = ssize (tshape (c :: xr))) by (apply telems_length; auto).
  cbn [fixed_ok fixed_values] in *.
  change (tshape (c :: xr)) with ((csize c, length (creg c)) :: tshape xr) in *. cbv beta iota in Hok.
  set (np := ssize ((csize c, length (creg c)) :: tshape xr)) in *.
  assert (Hnp : np = csize c + ssize (tshape xr)) by (unfold np; apply ssize_cons).
  destruct (stt np) as [[|[rn rl] rr]|] eqn:Est; try discriminate.
  destruct (Hst np _ Hn Est) as (Hdr & Hsr & Hgr). cbv zeta in *.
  pose proof Hdr as (Hr1 & Hr2 & Hr3 & Hr4). rewrite ssize_cons in Hsr. cbn [fst] in Hsr.
  pose proof Hd as (Hc1 & Hc2 & Hc3 & Hc4).
  assert (Hgc : gt (csize c, length (creg c))) by (inversion Hg; auto).
  assert (Hgx : Forall gt (tshape xr)) by (inversion Hg; auto).
  assert (Hgn : gu (rn, rl)) by (inversion Hgr; auto).
  destruct (oshape_is (stf np) ((csize c, length (creg c)) :: tshape xr)); [|discriminate]. cbn [negb] in Hok.
  destruct (same_integers t u) eqn:Esame.
  { apply shape_eqb_spec in Hok. rewrite Hok. split.
    - f_equal. change ((csize c, length (creg c)) :: tshape xr) with (tshape (c :: xr)). unfold tshape.
      rewrite map_map. apply map_ext. intros d. unfold cshape. cbn [csize creg]. rewrite map_length. auto.
    - unfold telems. clear - HR. induction (c :: xr) as [|d l IHl]; [constructor|]. cbn [map flat_map].
      apply Forall2_app; auto. unfold celems. cbn [csize creg]. rewrite firstn_map. apply rel_map. }
  destruct (Nat.eqb_spec rl 1) as [E1|E1].
  { assert (Hs : (rn, rl) :: rr = repeat (1, 1) np).
    { rewrite (forallb_repeat 1 1 _ Hok). f_equal.
      assert (ssize ((rn, rl) :: rr) = np) by (rewrite ssize_cons; auto).
      rewrite (forallb_repeat 1 1 _ Hok), (ssize_repeat t Ht) in H. lia. }
    rewrite Hs. split.
    - f_equal. symmetry. apply scalar_tuple_shape.
    - rewrite scalar_tuple_elems. rewrite <- Hlenx. apply rel_cast_at. auto. }
  destruct (Nat.eqb_spec (csize c) rn) as [E2|E2].
  { destruct (rel_one rl (csize c) (creg c)) as [V1 V2]; auto; try lia.
    { intros X1 X2 X3. apply (D1 X1 X2 (csize c) rn rl 1); try lia; auto. congruence. }
    rewrite Nat.min_r in V2 by lia.
    assert (Hhead : cshape (Chunk rn (vconv rl (csize c) [creg c])) = (rn, rl)).
    { unfold cshape. cbn [csize creg]. rewrite V1. auto. }
    assert (Hel : Forall2 R (celems c) (celems (Chunk rn (vconv rl (csize c) [creg c])))).
    { unfold celems. cbn [csize creg]. rewrite <- E2. auto. }
    destruct xr as [|c2 xr].
    - destruct rr; [|discriminate]. cbn [tshape map] in *. rewrite Hhead. split; auto.
      unfold telems. cbn [flat_map]. rewrite !app_nil_r. auto.
    - change (tshape (c2 :: xr)) with ((csize c2, length (creg c2)) :: tshape xr) in Hok. cbv beta iota in Hok.
      change ((csize c2, length (creg c2)) :: tshape xr) with (tshape (c2 :: xr)) in Hok.
      destruct (oshape_is (stt (np - csize c)) rr) eqn:Ers; [|discriminate].
      apply oshape_is_spec in Ers.
      assert (Hsz : ssize (tshape (c2 :: xr)) = np - csize c) by lia.
      assert (H1 : 1 <= ssize (tshape (c2 :: xr))).
      { destruct Hc4 as (? & _). change (tshape (c2 :: xr)) with (cshape c2 :: tshape xr). rewrite ssize_cons.
        unfold cshape. cbn [fst]. lia. }
      destruct (IH (c2 :: xr) Hok) as [I1 I2]; [lia|auto|auto|].
      rewrite Hsz, Ers in I1. apply some_inj in I1. split.
      + cbn [tshape map]. rewrite Hhead. f_equal. f_equal. exact I1.
      + cbn [telems flat_map]. apply Forall2_app; [exact Hel|exact I2]. }
  destruct (Nat.ltb_spec rn (csize c)) as [Hlt|Hge].
  { destruct xr as [|c2 xr].
    - cbn [tshape map] in Hok.
      destruct (one_to_many_lens unp 4 np 0 ((rn, rl) :: rr)) as [lens|] eqn:El; [|discriminate].
      assert (np = csize c) by (unfold np, ssize; simpl; lia).
      assert (Hrr : rr <> []).
      { intros ->. unfold ssize in Hsr. simpl in Hsr. lia. }
      destruct (rel_one_to_many np (creg c) ltac:(lia) ltac:(congruence) 4 0 _ _ El) as (M1 & M2 & M3); auto; [lia|..].
      { intros _ p r E. injection E as <- <-. cbn [snd]. specialize (Hr3 Hrr). split; [lia|].
        intros U1 U2. destruct rr as [|p rr]; [congruence|]. rewrite H.
        apply (D4 U1 np rn rl p rr (csize c) (length (creg c))); auto. }
      destruct (to_tuple_spec zeroB t Ht ((rn, rl) :: rr) (many 4 np 0 ((rn, rl) :: rr) (creg c))) as (T1 & T2 & T3); auto.
      { rewrite M1. auto. }
      rewrite T1. split; auto. rewrite T2. rewrite ssize_cons. cbn [fst]. rewrite Hsr.
      rewrite Nat.sub_0_r in M3. cbn [skipn] in M3. cbn [telems flat_map]. unfold celems. rewrite app_nil_r, <- H. exact M3.
    - change (tshape (c2 :: xr)) with ((csize c2, length (creg c2)) :: tshape xr) in Hok. cbv beta iota in Hok.
      change ((csize c2, length (creg c2)) :: tshape xr) with (tshape (c2 :: xr)) in Hok.
      destruct (stt (csize c)) as [r1|] eqn:Er1; [|discriminate].
      destruct (stt (np - csize c)) as [r2|] eqn:Er2; [|discriminate].
      destruct (straight (repeat rl (nparts unp (csize c) rl 0)) r1 && shape_eqb (r1 ++ r2) ((rn, rl) :: rr)) eqn:Es;
        [|discriminate].
      apply andb_true_iff in Es as [Es Ese]. apply shape_eqb_spec in Ese.
      destruct (Hst (csize c) r1) as (Hd1 & Hs1 & _); auto; [lia|].
      assert (Hrr : rr <> []).
      { intros ->. unfold ssize in Hsr. simpl in Hsr. lia. }
      specialize (Hr3 Hrr).
      destruct (rel_convert_all (csize c) (creg c) rn rl 0) as (C1 & C2 & C3); auto; try lia.
      { intros U1 _ U2. destruct rr as [|p rr]; [congruence|].
        apply (D4 U1 np rn rl p rr (csize c) (length (creg c))); auto. }
      destruct (to_tuple_spec zeroB t Ht r1 (call (csize c) (creg c) rl 0)) as (T1 & T2 & T3); auto.
      { rewrite (Forall_map_length rl) by auto. rewrite C1. auto. }
      assert (Hsz : ssize (tshape (c2 :: xr)) = np - csize c) by lia.
      assert (H1 : 1 <= ssize (tshape (c2 :: xr))).
      { destruct Hc4 as (? & _). change (tshape (c2 :: xr)) with (cshape c2 :: tshape xr). rewrite ssize_cons.
        unfold cshape. cbn [fst]. lia. }
      destruct (IH (c2 :: xr) Hok) as [I1 I2]; [lia|auto|auto|].
      rewrite Hsz, Er2 in I1. apply some_inj in I1.
      rewrite tshape_app, telems_app, T1, T2, <- I1, Ese. split; auto.
      change (telems (c :: c2 :: xr)) with (celems c ++ telems (c2 :: xr)). apply Forall2_app; [|exact I2].
      rewrite (concat_length t Ht rl) in T3 by auto. rewrite C1, Hs1 in T3. rewrite Hs1.
      rewrite Nat.sub_0_r, Nat.min_r in C3 by lia. cbn [skipn] in C3. auto. }
  set (k := div_roundup rn (csize c)) in *.
  set (mk := forallb _ _ && _ && _ && _) in Hok.
  assert (Hmany : mk = true ->
    tshape (many_to_one cast zeroA zeroB x86 cp cx86 rn rl (firstn k (c :: xr))) = [(rn, rl)] /\
    Forall2 R (telems (firstn k (c :: xr))) (telems (many_to_one cast zeroA zeroB x86 cp cx86 rn rl (firstn k (c :: xr)))) /\ ssize (tshape (firstn k (c :: xr))) = rn).
  { unfold mk. intros Hm. apply andb_true_iff in Hm as [Hm Hm4]. apply andb_true_iff in Hm as [Hm Hm3].
    apply andb_true_iff in Hm as [Hm1 Hm2]. apply Nat.eqb_eq in Hm3. apply Nat.leb_le in Hm2.
    apply forallb_repeat in Hm1. rewrite firstn_length, Nat.min_l in Hm1 by auto.
    change ((csize c, length (creg c)) :: tshape xr) with (tshape (c :: xr)) in Hm1. rewrite <- tshape_firstn in Hm1.
    destruct (rel_many_to_one rn rl (firstn k (c :: xr)) (csize c) (length (creg c)) k) as [M1 M2]; auto; try lia.
    { destruct (Nat.eqb_spec (length (creg c)) 1); auto. }
    split; [auto|split; auto]. rewrite Hm1, (ssize_repeat t Ht). auto. }
  destruct rr as [|[n2 l2] rr].
  - assert (Hrn : rn = np) by (cbn [ssize map list_sum fold_right fst] in Hsr; unfold ssize in Hsr; simpl in Hsr; lia).
    destruct (negb (np mod csize c =? 0)).
    + change (telems (c :: xr)) with (flat_map celems (c :: xr)) in *.
      unfold tshape at 1, cshape. unfold telems, celems at 2. cbn [map csize creg].
      change (flat_map (fun c0 => firstn (csize c0) (creg c0)) [Chunk rn (map (cast_at cast zeroB (c :: xr)) (seq 0 np) ++ repeat zeroB (rl - np))])
        with (firstn rn (map (cast_at cast zeroB (c :: xr)) (seq 0 np) ++ repeat zeroB (rl - np)) ++ []). rewrite app_nil_r.
      rewrite app_length, map_length, seq_length, repeat_length. split; [do 3 f_equal; lia|].
      rewrite firstn_app_le by (rewrite map_length, seq_length; lia). rewrite firstn_all2 by (rewrite map_length, seq_length; lia).
      rewrite <- Hlenx. apply (rel_cast_at (c :: xr)). auto.
    + destruct (Hmany Hok) as (M1 & M2 & M3). rewrite M1. split; auto.
      (* nothing is left *)
      assert (Hall : ssize (tshape (skipn k (c :: xr))) = 0).
      { assert (E : tshape (c :: xr) = tshape (firstn k (c :: xr)) ++ tshape (skipn k (c :: xr)))
          by (rewrite <- tshape_app, firstn_skipn; auto).
        apply (f_equal ssize) in E. rewrite ssize_app, M3 in E. change (tshape (c :: xr)) with ((csize c, length (creg c)) :: tshape xr) in E.
        fold np in E. lia. }
      assert (Hnil : skipn k (c :: xr) = []).
      { assert (Hds : dense (tshape (skipn k (c :: xr)))).
        { apply (dense_app_r (tshape (firstn k (c :: xr)))). rewrite <- tshape_app, firstn_skipn. auto. }
        destruct (skipn k (c :: xr)) as [|d l]; auto. exfalso. destruct Hds as (? & _).
        change (tshape (d :: l)) with (cshape d :: tshape l) in Hall. rewrite ssize_cons in Hall.
        unfold cshape in Hall. cbn [fst] in Hall. lia. }
      rewrite <- (firstn_skipn k (c :: xr)) at 1. rewrite Hnil, app_nil_r. auto.
  - destruct mk eqn:Emk; [|discriminate]. destruct (Hmany eq_refl) as (M1 & M2 & M3).
    destruct (oshape_is (stt (np - rn)) ((n2, l2) :: rr)) eqn:Ers; [|discriminate].
    apply oshape_is_spec in Ers.
    change ((csize c, length (creg c)) :: tshape xr) with (tshape (c :: xr)) in Hok. rewrite <- tshape_skipn in Hok.
    assert (Hsz : ssize (tshape (skipn k (c :: xr))) = np - rn).
    { assert (E : tshape (c :: xr) = tshape (firstn k (c :: xr)) ++ tshape (skipn k (c :: xr)))
        by (rewrite <- tshape_app, firstn_skipn; auto).
      apply (f_equal ssize) in E. rewrite ssize_app, M3 in E. change (tshape (c :: xr)) with ((csize c, length (creg c)) :: tshape xr) in E.
      fold np in E. lia. }
    assert (Hpos : 1 <= ssize ((n2, l2) :: rr)) by (rewrite ssize_cons; destruct Hr4 as (? & _); simpl; lia).
    assert (Hgs : Forall gt (tshape (skipn k (c :: xr)))).
    { rewrite tshape_skipn. rewrite Forall_forall in Hg |- *. intros q Hq. apply Hg.
      change ((csize c, length (creg c)) :: tshape xr) with (tshape (c :: xr)).
      rewrite <- (firstn_skipn k (tshape (c :: xr))). apply in_or_app. auto. }
    destruct (IH (skipn k (c :: xr)) Hok) as [I1 I2]; [lia| |auto|].
    { apply (dense_app_r (tshape (firstn k (c :: xr)))). rewrite <- tshape_app, firstn_skipn. auto. }
    rewrite Hsz, Ers in I1. apply some_inj in I1.
    rewrite tshape_app, telems_app, M1, <- I1. split; auto.
    rewrite <- (firstn_skipn k (c :: xr)) at 1. rewrite telems_app. apply Forall2_app; auto.
Qed.
End Convert.
