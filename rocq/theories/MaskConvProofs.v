(* Proofs about mask conversions.  The vector expressions are analysed with an
   abstract value per byte: a copy of a lane of the argument, zero, unknown. *)
From Coq Require Import List ZArith Lia Bool Arith.
From Verif Require Import Prelude MaskSpec BitMask BitMaskProofs KMask KMaskSpec KMaskProofs
  X86Lanes X86Bits X86ShiftProofs X86Mask X86MaskSpec X86MaskProofs BoolStore MaskConv MaskConvSpec.
Import ListNotations.
Local Open Scope nat_scope.

(* ------------------------------------------------------------------ *)
(* abstract bytes *)
Inductive ab := ALane (i : nat) | AZero | ATop.
Definition rel (lv : nat -> option bool) (a : ab) (v : byte) : Prop :=
  match a with
  | ALane i => match lv i with Some b => v = Some (bool_byte b) | None => True end
  | AZero => v = Some 0%Z
  | ATop => True
  end.

Definition same2 (a b : ab) : ab :=
  match a, b with
  | ALane i, ALane j => if i =? j then ALane i else ATop
  | AZero, AZero => AZero
  | _, _ => ATop
  end.
Fixpoint apacks16 (l : list ab) : list ab :=
  match l with a :: b :: t => same2 a b :: apacks16 t | _ => [] end.
Fixpoint apacks32 (l : list ab) : list ab :=
  match l with
  | a :: b :: c :: d :: t => let r := same2 (same2 a b) (same2 c d) in r :: r :: apacks32 t
  | _ => []
  end.
Definition aor (a b : ab) : ab :=
  match a, b with AZero, x => x | x, AZero => x | _, _ => ATop end.
Fixpoint aeval (bits : bool) (src : list ab) (e : vexp) : list ab :=
  match e with
  | VSrc => src
  | VZero n => repeat AZero n
  | VPerm idx a =>
      let r := aeval bits src a in
      map (fun i => match i with None => AZero | Some j => nth j r ATop end) idx
  | VCat a b => aeval bits src a ++ aeval bits src b
  | VPacks16 a b => apacks16 (aeval bits src a ++ aeval bits src b)
  | VPacks32 a b => apacks32 (aeval bits src a ++ aeval bits src b)
  | VCast a => aeval bits src a ++ repeat ATop 16
  | VMovm w n off => flat_map (fun i => repeat (if bits then ALane (off + i) else ATop) w) (seq 0 n)
  | VOr a b => map2 aor (aeval bits src a) (aeval bits src b)
  end.

Lemma Forall2_app' {A B} (R : A -> B -> Prop) l1 l2 m1 m2 :
  Forall2 R l1 m1 -> Forall2 R l2 m2 -> Forall2 R (l1 ++ l2) (m1 ++ m2).
Proof. induction 1; cbn; auto. Qed.
Lemma Forall2_repeat {A B} (R : A -> B -> Prop) a b n : R a b -> Forall2 R (repeat a n) (repeat b n).
Proof. induction n; cbn; auto. Qed.
Lemma Forall2_nth' lv l m j : Forall2 (rel lv) l m -> rel lv (nth j l ATop) (nth j m None).
Proof.
  intros H. revert j. induction H; intros j; [destruct j; cbn; auto|]. destruct j; cbn; auto.
Qed.

Lemma Forall2_len {A B} (R : A -> B -> Prop) l m : Forall2 R l m -> length l = length m.
Proof. induction 1; cbn; auto. Qed.

Lemma rel_top lv v : rel lv ATop v.
Proof. exact I. Qed.

Lemma same2_packs lv a b x y : rel lv a x -> rel lv b y ->
  rel lv (same2 a b)
    (match x, y with Some x, Some y => Some (packs16 (x + 2 ^ 8 * y)%Z) | _, _ => None end).
Proof.
  intros Ha Hb. destruct a as [i| |], b as [j| |]; cbn [same2]; try exact I.
  - destruct (Nat.eqb_spec i j) as [->|]; [|exact I]. cbn [rel] in *.
    destruct (lv j) as [[|]|]; auto; subst x y; reflexivity.
  - cbn [rel] in *. subst. reflexivity.
Qed.

Lemma same2_rel lv a b x y : rel lv a x -> rel lv b y -> rel lv (same2 a b) x /\ rel lv (same2 a b) y.
Proof.
  intros Ha Hb. destruct a as [i| |], b as [j| |]; cbn [same2]; try (split; exact I).
  - destruct (Nat.eqb_spec i j) as [->|]; [|split; exact I]. auto.
  - auto.
Qed.

Lemma apacks16_sound lv : forall l m, Forall2 (rel lv) l m -> Forall2 (rel lv) (apacks16 l) (packs16_bytes m).
Proof.
  fix IH 3. intros l m H. destruct H as [|a x l m Ha H]; [constructor|].
  destruct H as [|b y l m Hb H]; [constructor|]. cbn [apacks16 packs16_bytes].
  constructor; [apply same2_packs; auto|]. apply IH. exact H.
Qed.

Lemma same4_packs lv a b c d x y z u : rel lv a x -> rel lv b y -> rel lv c z -> rel lv d u ->
  Forall2 (rel lv) [same2 (same2 a b) (same2 c d); same2 (same2 a b) (same2 c d)]
    (match x, y, z, u with
     | Some x, Some y, Some z, Some u =>
         map Some (le_bytes 2 (packs32 (x + 2 ^ 8 * y + 2 ^ 16 * z + 2 ^ 24 * u)%Z))
     | _, _, _, _ => [None; None]
     end).
Proof.
  intros Ha Hb Hc Hd.
  destruct (same2_rel lv a b x y Ha Hb) as [H1 H2]. destruct (same2_rel lv c d z u Hc Hd) as [H3 H4].
  destruct (same2_rel lv _ _ x z H1 H3) as [K1 K3]. destruct (same2_rel lv _ _ y u H2 H4) as [K2 K4].
  set (r := same2 (same2 a b) (same2 c d)) in *.
  destruct r as [i| |]; cbn [rel] in *.
  - destruct (lv i) as [[|]|] eqn:E.
    + subst. cbn. repeat constructor; cbn; rewrite E; reflexivity.
    + subst. cbn. repeat constructor; cbn; rewrite E; reflexivity.
    + assert (R : forall v, rel lv (ALane i) v) by (intros; cbn; rewrite E; exact I).
      destruct x; [destruct y; [destruct z; [destruct u|]|]|]; cbn; repeat constructor; apply R.
  - subst. cbn. repeat constructor.
  - destruct x; [destruct y; [destruct z; [destruct u|]|]|]; cbn; repeat constructor.
Qed.

Lemma apacks32_sound lv : forall l m, Forall2 (rel lv) l m -> Forall2 (rel lv) (apacks32 l) (packs32_bytes m).
Proof.
  fix IH 3. intros l m H. destruct H as [|a x l m Ha H]; [constructor|].
  destruct H as [|b y l m Hb H]; [constructor|].
  destruct H as [|c z l m Hc H]; [constructor|].
  destruct H as [|d u l m Hd H]; [constructor|]. cbn [apacks32 packs32_bytes]. cbv zeta.
  change (?r :: ?r :: ?t) with ([r; r] ++ t).
  apply Forall2_app'; [apply same4_packs; auto|]. apply IH. exact H.
Qed.

Lemma aeval_sound lv bits asrc src k e :
  Forall2 (rel lv) asrc src ->
  (bits = true -> forall i, rel lv (ALane i) (Some (bool_byte (Z.testbit k (Z.of_nat i))))) ->
  Forall2 (rel lv) (aeval bits asrc e) (veval src k e).
Proof.
  intros Hs Hk. induction e as [|n|idx a IH|a IHa b IHb|a IHa b IHb|a IHa b IHb|a IH|w n off|a IHa b IHb];
    cbn [aeval veval].
  - auto.
  - apply Forall2_repeat. reflexivity.
  - cbv zeta. induction idx as [|[j|] t IHt]; cbn [map]; constructor; auto.
    + apply Forall2_nth'. auto.
    + reflexivity.
  - apply Forall2_app'; auto.
  - apply apacks16_sound, Forall2_app'; auto.
  - apply apacks32_sound, Forall2_app'; auto.
  - apply Forall2_app'; auto. apply (@Forall2_repeat ab byte). exact I.
  - generalize (seq 0 n). intros l. induction l as [|i l IHl]; cbn [flat_map]; [constructor|].
    apply Forall2_app'; auto. apply Forall2_repeat. destruct bits; [apply Hk; auto|exact I].
  - revert IHa IHb. generalize (aeval bits asrc a) (aeval bits asrc b) (veval src k a) (veval src k b).
    intros la lb ma mb Ha. revert lb mb. induction Ha as [|p x la ma Hp Ha IH]; intros lb mb Hb;
      cbn [map2]; [constructor|].
    destruct Hb as [|q y lb mb Hq Hb]; cbn [map2]; [constructor|]. constructor; [|apply IH; auto].
    clear - Hp Hq. destruct p as [i| |], q as [j| |]; cbn [aor]; try exact I.
    + cbn [rel] in *. subst y. destruct (lv i) as [b|]; auto. subst x. rewrite Z.lor_0_r. auto.
    + cbn [rel] in *. subst x. destruct (lv j) as [b|]; auto. subst y. reflexivity.
    + cbn [rel] in *. subst. reflexivity.
Qed.

(* ------------------------------------------------------------------ *)
(* lists of equally long pieces *)
Lemma nth_flat_map_seq {A} (g : nat -> list A) t d b : forall lanes o i,
  (forall j, o <= j < o + lanes -> length (g j) = t) -> b < t -> i < lanes ->
  nth (i * t + b) (flat_map g (seq o lanes)) d = nth b (g (o + i)) d.
Proof.
  induction lanes as [|k IH]; intros o i Hg Hb Hi; [lia|]. cbn [seq flat_map].
  destruct i as [|i].
  - rewrite app_nth1; [rewrite Nat.add_0_r; auto|]. rewrite Hg by lia. lia.
  - rewrite app_nth2; rewrite Hg by lia; [|cbn; lia].
    replace (S i * t + b - t) with (i * t + b) by (cbn; lia).
    rewrite IH; [f_equal; f_equal; lia| |auto|lia]. intros. apply Hg. lia.
Qed.

Lemma length_flat_map_seq {A} (g : nat -> list A) t : forall lanes o,
  (forall j, o <= j < o + lanes -> length (g j) = t) -> length (flat_map g (seq o lanes)) = lanes * t.
Proof.
  induction lanes as [|k IH]; intros o Hg; [auto|]. cbn [seq flat_map].
  rewrite app_length, Hg, IH by (intros; try apply Hg; lia). cbn. lia.
Qed.

Lemma flat_map_map' {A B C} (g : B -> list C) (h : A -> B) l : flat_map g (map h l) = flat_map (fun a => g (h a)) l.
Proof. induction l; cbn; [auto|]. rewrite IHl. auto. Qed.

Lemma nth_spread t l i b : b < t -> i < length l ->
  nth (i * t + b) (spread t l) None = Some (bool_byte (nth i l false)).
Proof.
  revert i. induction l as [|x l IH]; intros i Hb Hi; [cbn in Hi; lia|].
  unfold spread. cbn [flat_map]. destruct i as [|i].
  - rewrite app_nth1 by (rewrite repeat_length; lia). rewrite nth_repeat_lt by lia. auto.
  - rewrite app_nth2 by (rewrite repeat_length; cbn; lia). rewrite repeat_length.
    replace (S i * t + b - t) with (i * t + b) by (cbn; lia).
    apply IH; auto. cbn in Hi. lia.
Qed.

Lemma spread_length t l : length (spread t l) = length l * t.
Proof.
  induction l as [|x l IH]; [reflexivity|].
  change (spread t (x :: l)) with (repeat (Some (bool_byte x)) t ++ spread t l).
  rewrite app_length, IH, repeat_length. reflexivity.
Qed.

(* ------------------------------------------------------------------ *)
(* sizes *)
Definition size_check (t m : nat) : bool :=
  negb ((t =? 1) || (t =? 2) || (t =? 4) || (t =? 8)) || (m <? 2) || (32 <? t * m) ||
  ((t * m <=? vec_size t m) && (vec_size t m <=? 32) && (vec_size t m / t * t =? vec_size t m)
   && (vec_size t m =? t * bit_ceil m)
   && (if 16 <? t * m then vec_size t m =? 32 else vec_size t m <=? 16)).
Lemma size_check_all : forallb (fun t => forallb (size_check t) (seq 0 33)) (seq 0 9) = true.
Proof. vm_compute. reflexivity. Qed.

Lemma sizes t m : (t = 1 \/ t = 2 \/ t = 4 \/ t = 8) -> 2 <= m -> t * m <= 32 ->
  t * m <= vec_size t m <= 32 /\ vec_size t m / t * t = vec_size t m /\
  vec_size t m = t * bit_ceil m /\
  (16 < t * m -> vec_size t m = 32) /\ (t * m <= 16 -> vec_size t m <= 16).
Proof.
  intros Ht Hm Hb.
  pose proof size_check_all as H. rewrite forallb_forall in H.
  specialize (H t ltac:(apply in_seq; lia)). rewrite forallb_forall in H.
  specialize (H m ltac:(apply in_seq; destruct Ht as [->|[->|[->| ->]]]; lia)).
  unfold size_check in H.
  assert (E : negb ((t =? 1) || (t =? 2) || (t =? 4) || (t =? 8)) = false)
    by (destruct Ht as [->|[->|[->| ->]]]; reflexivity).
  rewrite E in H. clear E.
  destruct (Nat.ltb_spec m 2) as [|G1]; [lia|]. destruct (Nat.ltb_spec 32 (t * m)) as [|G2]; [lia|]. cbn [orb] in H.
  apply andb_prop in H as [H H5]. apply andb_prop in H as [H H4]. apply andb_prop in H as [H H3].
  apply andb_prop in H as [H1 H2].
  apply Nat.leb_le in H1, H2. apply Nat.eqb_eq in H3, H4.
  destruct (Nat.ltb_spec 16 (t * m)); [apply Nat.eqb_eq in H5|apply Nat.leb_le in H5];
    repeat split; auto; intros; lia.
Qed.

Lemma lanes_ge t m i b : t * m <= vec_size t m -> vec_size t m / t * t = vec_size t m -> b < t -> i < m ->
  i < vec_size t m / t /\ i * t + b < vec_size t m.
Proof. intros. assert (m <= vec_size t m / t) by nia. nia. Qed.

Lemma intrin_bitcast_nth avx size v p : p < length v -> p < size ->
  nth p (intrin_bitcast avx size v) None = nth p v None.
Proof.
  intros Hv Hs. unfold intrin_bitcast. destruct (Nat.ltb_spec (length v) size).
  - destruct (_ && _); apply app_nth1; auto.
  - apply nth_firstn_lt. auto.
Qed.

(* ------------------------------------------------------------------ *)
(* the bytes of a source vector *)
Lemma lane_bytes_nth s x i b : i < length x -> b < sz s ->
  nth (i * sz s + b) (lane_bytes s x) None = Some ((nth i x 0 / 2 ^ (8 * Z.of_nat b)) mod 2 ^ 8)%Z.
Proof.
  unfold lane_bytes, defined. revert i. induction x as [|v x IH]; intros i Hi Hb; [cbn in Hi; lia|].
  cbn [flat_map]. rewrite map_app.
  assert (L : length (map Some (le_bytes (sz s) v)) = sz s)
    by (unfold le_bytes; rewrite !map_length, seq_length; auto).
  destruct i as [|i].
  - rewrite app_nth1 by lia. change (0 * sz s + b) with b. cbn [nth].
    unfold le_bytes. rewrite map_map, nth_map_seq by lia. auto.
  - rewrite app_nth2 by lia. rewrite L. replace (S i * sz s + b - sz s) with (i * sz s + b) by (cbn; lia).
    cbn [nth]. apply IH; auto. cbn in Hi. lia.
Qed.

Lemma lane_bytes_length s x : length (lane_bytes s x) = length x * sz s.
Proof.
  unfold lane_bytes, defined. rewrite map_length. induction x; cbn; [auto|].
  rewrite app_length, IHx. unfold le_bytes. rewrite map_length, seq_length. auto.
Qed.

Lemma ones_byte s b : shape_ok s -> b < sz s ->
  ((2 ^ (8 * Z.of_nat (sz s)) - 1) / 2 ^ (8 * Z.of_nat b) mod 2 ^ 8)%Z = 255%Z.
Proof.
  intros (Hs & _) Hb. destruct Hs as [E|[E|[E|E]]]; rewrite E in *;
    do 8 (destruct b as [|b]; [first [reflexivity|lia]|]); lia.
Qed.

Section source.
  Variables (s : shape) (x : list Z) (l : list bool).
  Hypothesis Hs : shape_ok s.
  Hypothesis Hh : holds s x l.

  Lemma src_elem i b : i < sn s -> b < sz s ->
    nth (i * sz s + b) (lane_bytes s x) None = Some (bool_byte (nth i l false)).
  Proof.
    intros Hi Hb. pose proof Hh as (Hx & Hl & He & Hr). pose proof Hs as (_ & _ & ? & _).
    rewrite lane_bytes_nth by lia. f_equal. rewrite He by auto. destruct (nth i l false).
    - apply ones_byte; auto.
    - cbn [bool_byte]. rewrite Z.div_0_l by (apply Z.pow_nonzero; lia). reflexivity.
  Qed.

  Lemma src_pad i b : (forall i, sn s <= i < st s -> nth i x 0%Z = 0%Z) ->
    sn s <= i < st s -> b < sz s ->
    nth (i * sz s + b) (lane_bytes s x) None = Some 0%Z.
  Proof.
    intros Hz Hi Hb. pose proof Hh as (Hx & Hl & He & Hr).
    rewrite lane_bytes_nth by lia. f_equal. rewrite Hz by auto.
    rewrite Z.div_0_l by (apply Z.pow_nonzero; lia). reflexivity.
  Qed.

  Lemma src_length : length (lane_bytes s x) = st s * sz s.
  Proof. destruct Hh as (Hx & _). rewrite lane_bytes_length, Hx. auto. Qed.

  Lemma src_elem_bytes i : i < sn s ->
    elem_bytes (sz s) i (lane_bytes s x) = repeat (Some (bool_byte (nth i l false))) (sz s).
  Proof.
    intros Hi. pose proof Hs as (_ & _ & ? & _). unfold elem_bytes.
    assert (L : length (firstn (sz s) (skipn (i * sz s) (lane_bytes s x))) = sz s).
    { rewrite firstn_length, skipn_length, src_length. nia. }
    apply (nth_eq_ext _ _ None).
    - rewrite repeat_length. auto.
    - intros b Hb. rewrite L in Hb. rewrite nth_firstn_lt by lia. rewrite nth_skipn_add.
      rewrite src_elem by auto. rewrite nth_repeat_lt by lia. auto.
  Qed.

  (* the lanes of the source as the abstract values see them *)
  Definition src_lanes (clean : bool) (i : nat) : option bool :=
    if i <? sn s then Some (nth i l false) else if clean then Some false else None.
  Definition asrc (f n : nat) : list ab := flat_map (fun i => repeat (ALane i) f) (seq 0 n).

  Lemma asrc_rel clean : (clean = true -> forall i, sn s <= i < st s -> nth i x 0%Z = 0%Z) ->
    Forall2 (rel (src_lanes clean)) (asrc (sz s) (st s)) (lane_bytes s x).
  Proof.
    intros Hc. pose proof Hh as (Hx & Hl & He & Hr).
    assert (G : forall n o y, o + n = st s -> length y = n -> (forall i, i < n -> nth i y 0%Z = nth (o + i) x 0%Z) ->
      Forall2 (rel (src_lanes clean)) (flat_map (fun i => repeat (ALane i) (sz s)) (seq o n)) (lane_bytes s y)).
    { induction n as [|n IH]; intros o y Ho Hy Hn.
      - destruct y; [constructor|discriminate].
      - destruct y as [|v y]; [discriminate|]. cbn [seq flat_map]. unfold lane_bytes, defined.
        cbn [flat_map]. rewrite map_app. apply Forall2_app'.
        + specialize (Hn 0 ltac:(lia)). cbn [nth] in Hn. rewrite Nat.add_0_r in Hn.
          assert (V : forall b, b < sz s -> rel (src_lanes clean) (ALane o)
            (Some ((v / 2 ^ (8 * Z.of_nat b)) mod 2 ^ 8)%Z)).
          { intros b Hb. cbn [rel]. unfold src_lanes. destruct (Nat.ltb_spec o (sn s)) as [Ho'|Ho'].
            - pose proof (src_elem o b Ho' Hb) as E. rewrite lane_bytes_nth in E by lia.
              rewrite Hn. exact E.
            - destruct clean; [|exact I].
              pose proof (src_pad o b (Hc eq_refl) ltac:(lia) Hb) as E.
              rewrite lane_bytes_nth in E by lia. rewrite Hn. exact E. }
          unfold le_bytes. rewrite map_map.
          clear - V. assert (Q : forall k p, p + k = sz s -> Forall2 (rel (src_lanes clean))
             (repeat (ALane o) k) (map (fun j => Some ((v / 2 ^ (8 * Z.of_nat j)) mod 2 ^ 8)%Z) (seq p k))).
          { induction k as [|k IHk]; intros p Hp; cbn [repeat seq map]; constructor.
            - apply V. lia.
            - apply IHk. lia. }
          apply (Q (sz s) 0). auto.
        + apply (IH (S o) y); [lia|cbn in Hy; lia|]. intros i Hi.
          specialize (Hn (S i) ltac:(lia)). cbn [nth] in Hn. rewrite Hn. f_equal. lia. }
    apply (G (st s) 0 x); auto.
  Qed.
End source.

Lemma conv_elem_ok f t b : (f = 1 \/ f = 2 \/ f = 4 \/ f = 8) -> (t = 1 \/ t = 2 \/ t = 4 \/ t = 8) ->
  conv_elem f t (repeat (Some (bool_byte b)) f) = repeat (Some (bool_byte b)) t.
Proof.
  intros [->|[->|[->| ->]]] [->|[->|[->| ->]]]; destruct b; vm_compute; reflexivity.
Qed.
Lemma conv_elem_length f t l : length (conv_elem f t l) = t.
Proof.
  unfold conv_elem. destruct (all_defined l).
  - unfold defined, le_bytes. rewrite !map_length, seq_length. auto.
  - apply repeat_length.
Qed.

Lemma conv_loop_nth f n t lanes src i b : b < t -> i < lanes ->
  nth (i * t + b) (conv_loop f n t lanes src) None =
  if i <? n then nth b (conv_elem f t (elem_bytes f i src)) None else Some 0%Z.
Proof.
  intros Hb Hi. unfold conv_loop. rewrite (nth_flat_map_seq _ t); auto.
  - cbn [Nat.add]. destruct (i <? n); [auto|apply nth_repeat_lt; auto].
  - intros j _. destruct (j <? n); [apply conv_elem_length|apply repeat_length].
Qed.

(* ------------------------------------------------------------------ *)
(* the vector expressions, all combinations *)
Definition pos_ok (t lanes p : nat) (a : ab) : bool :=
  if p / t <? lanes then match a with ALane i => i =? p / t | _ => false end else true.
Definition pos_zero (t lanes p : nat) (a : ab) : bool :=
  if p / t <? lanes then true else match a with AZero => true | _ => false end.
Definition exp_check (ft : cfeat) (f s t u : nat) : bool :=
  match conv_vexp ft f s t u with
  | None => true
  | Some e =>
      let A := aeval false (asrc f (s / f)) e in
      (length A =? u) && forallb (fun p => pos_ok t (s / f) p (nth p A ATop)) (seq 0 u) &&
      ((s =? 32) && (u =? 32) && (t <? f) ||
       forallb (fun p => pos_zero t (s / f) p (nth p A ATop)) (seq 0 u))
  end.
Definition two_feats (ssse3 avx2 : bool) : cfeat :=
  {| c_ssse3 := ssse3; c_avx := false; c_avx2 := avx2; c_avx512f := false;
     c_avx512vl := false; c_avx512bw := false; c_avx512dq := false |}.
Lemma conv_vexp_feats ft f s t u :
  conv_vexp ft f s t u = conv_vexp (two_feats (c_ssse3 ft) (c_avx2 ft)) f s t u.
Proof. reflexivity. Qed.

Definition all_exps : bool :=
  forallb (fun a => forallb (fun b => forallb (fun f => forallb (fun t => (f =? t) ||
    forallb (fun s => forallb (fun u => exp_check (two_feats a b) f s t u) [16; 32]) [16; 32])
    [1; 2; 4; 8]) [1; 2; 4; 8]) [true; false]) [true; false].
Lemma all_exps_ok : all_exps = true.
Proof. vm_compute. reflexivity. Qed.

Lemma exps_ok ft f s t u : (f = 1 \/ f = 2 \/ f = 4 \/ f = 8) -> (t = 1 \/ t = 2 \/ t = 4 \/ t = 8) ->
  f <> t -> (s = 16 \/ s = 32) -> (u = 16 \/ u = 32) -> exp_check ft f s t u = true.
Proof.
  intros Hf Ht Hne Hs Hu. unfold exp_check. rewrite conv_vexp_feats.
  pose proof all_exps_ok as H. unfold all_exps in H. rewrite forallb_forall in H.
  specialize (H (c_ssse3 ft) ltac:(destruct (c_ssse3 ft); cbn; auto)). rewrite forallb_forall in H.
  specialize (H (c_avx2 ft) ltac:(destruct (c_avx2 ft); cbn; auto)). rewrite forallb_forall in H.
  specialize (H f ltac:(cbn; lia)). rewrite forallb_forall in H.
  specialize (H t ltac:(cbn; lia)). apply orb_prop in H as [H|H]; [apply Nat.eqb_eq in H; lia|].
  rewrite forallb_forall in H. specialize (H s ltac:(cbn; lia)).
  rewrite forallb_forall in H. specialize (H u ltac:(cbn; lia)). exact H.
Qed.

Lemma conv_vexp_sizes ft f s t u e : conv_vexp ft f s t u = Some e -> (s = 16 \/ s = 32) /\ (u = 16 \/ u = 32).
Proof.
  unfold conv_vexp. cbv zeta.
  destruct (Nat.eqb_spec u 16), (Nat.eqb_spec u 32), (Nat.eqb_spec s 16), (Nat.eqb_spec s 32);
    try lia; cbn [andb]; try discriminate; auto.
Qed.

Lemma div_pos t i b : b < t -> (i * t + b) / t = i.
Proof. intros. rewrite Nat.div_add_l by lia. rewrite Nat.div_small by lia. lia. Qed.

Section vec.
  Variables (ft : cfeat) (const : bool) (s : shape) (x : list Z) (l : list bool) (t m : nat).
  Hypothesis Hs : shape_ok s.
  Hypothesis Hst : st s = bit_ceil (sn s).
  Hypothesis Hh : holds s x l.
  Hypothesis Ht : t = 1 \/ t = 2 \/ t = 4 \/ t = 8.
  Hypothesis Hm : 2 <= m.
  Hypothesis Htm : t * m <= 32.
  Let src := lane_bytes s x.
  Let S := st s * sz s.

  Lemma vec_exp clean e i b :
    (clean = true -> forall i, sn s <= i < st s -> nth i x 0%Z = 0%Z) ->
    sz s <> t -> conv_vexp ft (sz s) S t (intrin_size t m) = Some e -> i < m -> b < t ->
    let r := nth (i * t + b) (intrin_bitcast (c_avx ft) (vec_size t m) (veval src 0 e)) None in
    (i < sn s -> r = Some (bool_byte (nth i l false))) /\
    (clean = true -> sn s <= i -> ~ (S = 32 /\ 16 < t * m /\ t < sz s) -> r = Some 0%Z).
  Proof.
    intros Hc Hne He Hi Hb r.
    destruct (conv_vexp_sizes _ _ _ _ _ _ He) as [HS HU].
    pose proof Hs as (Hf & _ & Hn & _ & _ & Hrl).
    pose proof (exps_ok ft (sz s) S t (intrin_size t m) Hf Ht Hne HS HU) as C.
    unfold exp_check in C. rewrite He in C.
    destruct (sizes t m Ht Hm Htm) as (Hv & Hd & Hbc & Hbig & Hsmall).
    destruct (lanes_ge t m i b ltac:(lia) Hd Hb Hi) as [Hli Hp].
    assert (Hvu : vec_size t m <= intrin_size t m) by (unfold intrin_size; lia).
    assert (Hlanes : S / sz s = st s) by (unfold S; rewrite Nat.div_mul by lia; auto).
    rewrite Hlanes in C.
    pose proof (asrc_rel s x l Hs Hh clean Hc) as R.
    pose proof (aeval_sound (src_lanes s l clean) false _ _ 0%Z e R ltac:(discriminate)) as A.
    set (ae := aeval false (asrc (sz s) (st s)) e) in *.
    cbv zeta in C. apply andb_prop in C as [C C3]. apply andb_prop in C as [C1 C2].
    apply Nat.eqb_eq in C1. rewrite forallb_forall in C2.
    specialize (C2 (i * t + b) ltac:(apply in_seq; lia)). unfold pos_ok in C2. rewrite div_pos in C2 by auto.
    assert (Hlen : length (veval src 0 e) = intrin_size t m) by (rewrite <- C1; symmetry; eapply Forall2_len; eauto).
    assert (Er : r = nth (i * t + b) (veval src 0 e) None) by (apply intrin_bitcast_nth; lia).
    pose proof (Forall2_nth' _ _ _ (i * t + b) A) as Rp. fold src in Rp. rewrite <- Er in Rp.
    split.
    - intros Hin. destruct (Nat.ltb_spec i (st s)); [|lia].
      destruct (nth (i * t + b) ae ATop) as [j| |]; try discriminate. apply Nat.eqb_eq in C2. subst j.
      cbn [rel] in Rp. unfold src_lanes in Rp. destruct (Nat.ltb_spec i (sn s)); [auto|lia].
    - intros Hcl Hin Hund. destruct (Nat.ltb_spec i (st s)).
      + destruct (nth (i * t + b) ae ATop) as [j| |]; try discriminate. apply Nat.eqb_eq in C2. subst j.
        cbn [rel] in Rp. unfold src_lanes in Rp. rewrite Hcl in Rp.
        destruct (Nat.ltb_spec i (sn s)); [lia|]. exact Rp.
      + apply orb_prop in C3 as [C3|C3].
        * exfalso. apply Hund. apply andb_prop in C3 as [C3 C5]. apply andb_prop in C3 as [C3 C4].
          apply Nat.eqb_eq in C3, C4. apply Nat.ltb_lt in C5. unfold intrin_size in C4.
          split; [auto|]. split; [|auto].
          destruct (le_lt_dec (t * m) 16) as [Hle|]; auto. specialize (Hsmall Hle). lia.
        * rewrite forallb_forall in C3. specialize (C3 (i * t + b) ltac:(apply in_seq; lia)).
          unfold pos_zero in C3. rewrite div_pos in C3 by auto.
          destruct (Nat.ltb_spec i (st s)); [lia|].
          destruct (nth (i * t + b) ae ATop); try discriminate. exact Rp.
  Qed.

  (* a loop over the elements *)
  Lemma vec_loop n i b : n <= sn s -> i < m -> b < t ->
    nth (i * t + b) (conv_loop (sz s) n t (vec_size t m / t) src) None =
    Some (bool_byte ((i <? n) && nth i l false)).
  Proof.
    intros Hn Hi Hb. pose proof Hs as (Hf & _).
    destruct (sizes t m Ht Hm Htm) as (Hv & Hd & _).
    destruct (lanes_ge t m i b ltac:(lia) Hd Hb Hi) as [Hli Hp].
    rewrite conv_loop_nth by auto. destruct (Nat.ltb_spec i n); [|reflexivity]. cbn [andb].
    unfold src. rewrite (src_elem_bytes s x l) by (auto; lia). rewrite conv_elem_ok by auto.
    apply nth_repeat_lt. auto.
  Qed.

  (* all paths *)
  Lemma vec_all i b : i < m -> b < t ->
    let r := nth (i * t + b) (x86_vec_to_vec ft const (sz s) (sn s) t m src) None in
    (i < sn s -> r = Some (bool_byte (nth i l false))) /\
    ((forall i, sn s <= i < st s -> nth i x 0%Z = 0%Z) -> sn s <= i ->
     ~ upper_undefined const t m (MVec s x) -> r = Some 0%Z).
  Proof.
    intros Hi Hb. cbv zeta. pose proof Hs as (Hf & _ & Hn & Hnst & Hstrl & Hrl).
    destruct (sizes t m Ht Hm Htm) as (Hv & Hd & Hbc & Hbig & Hsmall).
    destruct (lanes_ge t m i b ltac:(lia) Hd Hb Hi) as [Hli Hp].
    assert (HL : length src = S) by (unfold src, S; eapply src_length; eauto).
    unfold x86_vec_to_vec. destruct (Nat.eqb_spec t (sz s)) as [Et|Et]; cbn [andb].
    - destruct (Nat.eqb_spec (length src) (vec_size t m)) as [El|El].
      + (* bitcast *)
        destruct (Nat.leb_spec m (sn s)) as [Hle|Hgt].
        * split; [|intros; lia]. intros Hin. rewrite Et at 1. apply src_elem; auto. lia.
        * unfold masked_bytes.
          assert (Lf : length (firstn (sz s * sn s) src) = sz s * sn s)
            by (rewrite firstn_length, HL; unfold S; nia).
          split.
          -- intros Hin. rewrite app_nth1 by (rewrite Lf; nia). rewrite nth_firstn_lt by nia.
             rewrite Et at 1. apply src_elem; auto. lia.
          -- intros _ Hin _. rewrite app_nth2 by (rewrite Lf; nia). rewrite nth_repeat_lt; auto.
             rewrite Lf, El. nia.
      + destruct const.
        * split; intros; rewrite vec_loop by (auto; lia).
          -- destruct (Nat.ltb_spec i (Nat.min m (sn s))); [auto|lia].
          -- destruct (Nat.ltb_spec i (Nat.min m (sn s))); [lia|auto].
        * rewrite Et, Nat.eqb_refl.
          assert (Hpos : i < sn s -> i * sz s + b < length src) by (intros; rewrite HL; unfold S; nia).
          split.
          -- intros Hin. rewrite intrin_bitcast_nth; [|auto|rewrite <- Et; auto].
             apply src_elem; auto. lia.
          -- intros Hz Hin Hund.
             destruct (le_lt_dec (st s) i) as [Hge|Hlt].
             ++ unfold intrin_bitcast. rewrite <- Et.
                assert (HSi : length src <= i * t + b) by (rewrite HL; unfold S; nia).
                destruct (Nat.ltb_spec (length src) (vec_size t m)); [|lia].
                destruct (c_avx ft && (length src =? 16) && (vec_size t m =? 32)) eqn:E.
                ** exfalso. apply Hund. apply andb_prop in E as [E E3]. apply andb_prop in E as [E1 E2].
                   apply Nat.eqb_eq in E2, E3. cbn [upper_undefined]. split; [auto|]. split.
                   { destruct (le_lt_dec (t * m) 16) as [Hle|]; [specialize (Hsmall Hle)|]; lia. }
                   left. split; [unfold S in HL; lia|auto].
                ** rewrite app_nth2 by lia. rewrite nth_repeat_lt; auto. lia.
             ++ rewrite intrin_bitcast_nth; [|rewrite HL; unfold S; nia|rewrite <- Et; auto].
                apply (src_pad s x l); auto; lia.
    - destruct const.
      + split; intros; rewrite vec_loop by (auto; lia).
        * destruct (Nat.ltb_spec i (Nat.min m (sn s))); [auto|lia].
        * destruct (Nat.ltb_spec i (Nat.min m (sn s))); [lia|auto].
      + destruct (Nat.eqb_spec (sz s) t); [congruence|].
        destruct (conv_vexp ft (sz s) (length src) t (intrin_size t m)) as [e|] eqn:Ee.
        * rewrite HL in Ee. split.
          -- intros Hin. apply (vec_exp false e i b); auto. discriminate.
          -- intros Hz Hin Hund. apply (vec_exp true e i b); auto.
             intros (H1 & H2 & H3). apply Hund. cbn [upper_undefined]. split; [auto|]. split; [auto|].
             right. auto.
        * unfold base_vec_to_vec. destruct (Nat.eqb_spec t (sz s)); [congruence|]. cbn [andb].
          split; intros; rewrite vec_loop by (auto; lia).
          -- destruct (Nat.ltb_spec i (sn s)); [auto|lia].
          -- destruct (Nat.ltb_spec i (sn s)); [lia|auto].
  Qed.
End vec.
