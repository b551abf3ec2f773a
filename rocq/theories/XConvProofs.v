(* Soundness of the symbolic evaluation of XConvAbs.v. *)
From Coq Require Import ZArith List Bool Arith Lia Psatz.
From Verif Require Import Prelude FloatSpec FloatRoundSpec FloatArith ScalarSpec Scalar NarrowSpec Narrow XConv XConvSpec XConvAbs.
Import ListNotations.
Local Open Scope nat_scope.

(* ------------------------------------------------------------------ *)
(* the comparison of symbolic bytes *)
Lemma ety_eqb_eq a b : ety_eqb a b = true -> a = b.
Proof.
  destruct a, b; cbn; intros H; try discriminate.
  - apply andb_prop in H as [H1 H2]. apply Nat.eqb_eq in H1. apply eqb_prop in H2. congruence.
  - apply Nat.eqb_eq in H. congruence.
Qed.
Lemma lop_eqb_eq a b : lop_eqb a b = true -> a = b.
Proof.
  destruct a, b; cbn; intros H; try discriminate;
    repeat match goal with
    | H : _ && _ = true |- _ => apply andb_prop in H as [? ?]
    | H : ety_eqb _ _ = true |- _ => apply ety_eqb_eq in H
    | H : Nat.eqb _ _ = true |- _ => apply Nat.eqb_eq in H
    | H : eqb _ _ = true |- _ => apply eqb_prop in H
    | H : Z.eqb _ _ = true |- _ => apply Z.eqb_eq in H
    end; congruence.
Qed.
Fixpoint bdepth (b : sb) : nat :=
  let fix go l := match l with [] => 0 | x :: r => Nat.max (bdepth x) (go r) end in
  match b with
  | BZ | BU | BArg _ _ => 0
  | BSgn x => S (bdepth x)
  | BOp _ l _ => S (go l)
  | BSum _ l m _ => S (Nat.max (go l) (go m))
  end.
Fixpoint ldepth (l : list sb) : nat := match l with [] => 0 | x :: r => Nat.max (bdepth x) (ldepth r) end.
Fixpoint go_eqb (l m : list sb) : bool :=
  match l, m with
  | [], [] => true
  | x :: r, y :: q => if sb_eqb x y then go_eqb r q else false
  | _, _ => false
  end.
Lemma sb_eqb_depth n : forall a b, bdepth a <= n -> sb_eqb a b = true -> a = b.
Proof.
  induction n as [n IH] using lt_wf_ind. intros a b Hn E.
  assert (G : forall l m, (forall x, In x l -> bdepth x < n) -> go_eqb l m = true -> l = m).
  { induction l as [|x l IHl]; intros [|y m] Hl Hg; cbn in Hg; try discriminate; auto.
    destruct (sb_eqb x y) eqn:Exy; [|discriminate]. f_equal.
    - apply (IH (bdepth x)); auto. apply Hl; left; auto.
    - apply IHl; auto. intros; apply Hl; right; auto. }
  assert (D : forall l x, In x l -> bdepth x <= ldepth l).
  { induction l; cbn; intros x []; [subst; lia|]. specialize (IHl x H). lia. }
  destruct a as [| |i k|a|o l k|f l1 l2 k], b as [| |i0 k0|b|o0 l0 k0|f0 m1 m2 k0]; try discriminate; auto.
  - cbn in E. destruct (Nat.eqb_spec k k0); [|discriminate]. apply Nat.eqb_eq in E. congruence.
  - cbn in E, Hn. f_equal. apply (IH (bdepth a)); auto; lia.
  - change ((if k =? k0 then if lop_eqb o o0 then go_eqb l l0 else false else false) = true) in E.
    change (S (ldepth l) <= n) in Hn.
    destruct (Nat.eqb_spec k k0); [|discriminate]. destruct (lop_eqb o o0) eqn:Eo; [|discriminate].
    apply lop_eqb_eq in Eo. apply G in E; [congruence|]. intros x Hx. specialize (D l x Hx). lia.
  - change ((if k =? k0 then if f =? f0 then if go_eqb l1 m1 then go_eqb l2 m2 else false else false else false) = true) in E.
    change (S (Nat.max (ldepth l1) (ldepth l2)) <= n) in Hn.
    destruct (Nat.eqb_spec k k0); [|discriminate]. destruct (Nat.eqb_spec f f0); [|discriminate].
    destruct (go_eqb l1 m1) eqn:Ea; [|discriminate].
    apply G in Ea; [|intros x Hx; specialize (D _ x Hx); lia].
    apply G in E; [|intros x Hx; specialize (D _ x Hx); lia]. congruence.
Qed.
Lemma sb_eqb_eq a b : sb_eqb a b = true -> a = b.
Proof. apply (sb_eqb_depth (bdepth a)); auto. Qed.
Lemma sbs_eqb_eq l m : sbs_eqb l m = true -> l = m /\ Forall (fun b => b <> BU) l.
Proof.
  revert m; induction l as [|x l IH]; intros [|y m] E; cbn in E; try discriminate; auto.
  destruct (sb_eqb x y) eqn:Exy; [|discriminate]. destruct (IH m E) as [-> F].
  assert (x <> BU) by (destruct x; discriminate). apply sb_eqb_eq in Exy. subst. auto.
Qed.

(* ------------------------------------------------------------------ *)
(* bytes *)
Notation inb v := (0 <= v < 256)%Z.
Lemma le_byte_range v k : inb (le_byte v k).
Proof. unfold le_byte. apply Z.mod_pos_bound; lia. Qed.
Lemma le_split_bytes w v : le_split w (Some v) = bytes_of w v.
Proof. reflexivity. Qed.
Lemma le_split_none w : le_split w None = repeat None w.
Proof.
  unfold le_split. generalize 0. induction w; intros s; cbn; auto. f_equal. apply IHw.
Qed.
Lemma bytes_of_S w p : bytes_of (S w) p = Some (p mod 256)%Z :: bytes_of w (p / 256).
Proof.
  unfold bytes_of. cbn [seq map]. f_equal; [rewrite Z.div_1_r; auto|].
  rewrite <- seq_shift, map_map. apply map_ext. intros k.
  rewrite Nat2Z.inj_succ, Z.pow_succ_r by lia. rewrite Z.div_div by (try lia; apply Z.pow_pos_nonneg; lia). auto.
Qed.
Lemma pow256_S w : (256 ^ Z.of_nat (S w) = 256 * 256 ^ Z.of_nat w)%Z.
Proof. rewrite Nat2Z.inj_succ, Z.pow_succ_r by lia. auto. Qed.
Lemma le_val_bytes w p : (0 <= p < 256 ^ Z.of_nat w)%Z -> le_val (bytes_of w p) = Some p.
Proof.
  revert p; induction w; intros p Hp.
  - cbn in *. f_equal. lia.
  - rewrite bytes_of_S. cbn [le_val]. rewrite pow256_S in Hp.
    pose proof (Z.div_mod p 256 ltac:(lia)) as E. pose proof (Z.mod_pos_bound p 256 ltac:(lia)).
    rewrite IHw; [|nia]. f_equal. lia.
Qed.
Lemma bytes_le_val l : Forall (fun b => exists v, b = Some v /\ inb v) l ->
  exists p, le_val l = Some p /\ (0 <= p < 256 ^ Z.of_nat (length l))%Z /\ bytes_of (length l) p = l.
Proof.
  induction 1 as [|b l (v & -> & Hv) _ (p & E & Hp & B)].
  - exists 0%Z. cbn. repeat split; auto; lia.
  - exists (v + 256 * p)%Z. cbn [le_val length]. rewrite E, pow256_S, bytes_of_S. repeat split; auto; try lia.
    replace ((v + 256 * p) mod 256)%Z with v by (rewrite Z.mul_comm, Z.mod_add by lia; rewrite Z.mod_small; lia).
    replace ((v + 256 * p) / 256)%Z with p by (rewrite Z.mul_comm, Z.div_add by lia; rewrite Z.div_small; lia).
    rewrite B. auto.
Qed.
Lemma bytes_of_length w p : length (bytes_of w p) = w.
Proof. unfold bytes_of. rewrite map_length, seq_length. auto. Qed.

(* ------------------------------------------------------------------ *)
Section Sound.
  Variables (ub : Z -> Z) (md : rmode) (byt : nat -> nat -> Z).
  Hypothesis Hbyt : forall i k, inb (byt i k).

  (* what a symbolic byte stands for *)
  Fixpoint sden (b : sb) : option Z :=
    let fix go l := match l with [] => [] | x :: r => sden x :: go r end in
    match b with
    | BZ => Some 0%Z
    | BU => None
    | BArg i k => Some (byt i k)
    | BSgn x => sign_fill (sden x)
    | BOp o l k => oapp (fun v => le_byte (lop_sem ub md o v) k) (le_val (go l))
    | BSum f l m k => oapp2 (fun v w => le_byte (fadd (fmt_of f) md v w) k) (le_val (go l)) (le_val (go m))
    end.
  Lemma sden_op o l k : sden (BOp o l k) = oapp (fun v => le_byte (lop_sem ub md o v) k) (le_val (map sden l)).
  Proof.
    reflexivity.
  Qed.
  Lemma sden_sum f l m k : sden (BSum f l m k) =
    oapp2 (fun v w => le_byte (fadd (fmt_of f) md v w) k) (le_val (map sden l)) (le_val (map sden m)).
  Proof.
    reflexivity.
  Qed.

  Definition R (a : sb) (c : byte) : Prop := a = BU \/ exists v, inb v /\ sden a = Some v /\ c = Some v.
  Lemma R_byte v : inb v -> forall a, sden a = Some v -> R a (Some v).
  Proof. intros. right. eauto. Qed.

  Lemma R_all l m : Forall2 R l m -> existsb is_bu l = false ->
    map sden l = m /\ Forall (fun b => exists v, b = Some v /\ inb v) m.
  Proof.
    induction 1 as [|a c l m H _ IH]; cbn; intros E; auto. apply orb_false_elim in E as [Ea El].
    destruct (IH El) as [-> F]. destruct H as [->|(v & Hv & Es & ->)]; [discriminate|].
    split; [congruence|eauto].
  Qed.
  Lemma R_bu l m : length l = length m -> Forall (fun a => a = BU) l -> Forall2 R l m.
  Proof.
    revert m; induction l; intros [|c m] E F; try discriminate; constructor.
    - left. inversion F; auto.
    - apply IHl; auto. inversion F; auto.
  Qed.
  Lemma R_repeat w (m : list byte) : length m = w -> Forall2 R (repeat BU w) m.
  Proof.
    intros. apply R_bu; [rewrite repeat_length; auto|]. apply Forall_forall. intros x. apply repeat_spec.
  Qed.
  Lemma Forall2_len {A B} (Q : A -> B -> Prop) l m : Forall2 Q l m -> length l = length m.
  Proof. induction 1; cbn; auto. Qed.
  Lemma Forall2_nth' {A B} (Q : A -> B -> Prop) l m a b n : Forall2 Q l m -> Q a b -> Q (nth n l a) (nth n m b).
  Proof. intros H Hab. revert n; induction H; intros [|n]; cbn; auto. Qed.
  Lemma Forall2_map_same {A B C} (Q : A -> B -> Prop) (f : C -> A) (g : C -> B) l :
    (forall x, In x l -> Q (f x) (g x)) -> Forall2 Q (map f l) (map g l).
  Proof. induction l; cbn; intros; constructor; auto. Qed.
  Lemma Forall2_flat {A B C D} (Q : A -> B -> Prop) (P : C -> D -> Prop) f g l m :
    Forall2 Q l m -> (forall x y, Q x y -> Forall2 P (f x) (g y)) -> Forall2 P (flat_map f l) (flat_map g m).
  Proof. induction 1; cbn; intros; [constructor|]. apply Forall2_app; auto. Qed.
  Lemma Forall2_map2 {A B C D E F} (Q : A -> B -> Prop) (Q' : C -> D -> Prop) (P : E -> F -> Prop) f g l m l' m' :
    Forall2 Q l m -> Forall2 Q' l' m' -> (forall x y x' y', Q x y -> Q' x' y' -> P (f x x') (g y y')) ->
    Forall2 P (map2 f l l') (map2 g m m').
  Proof.
    intros H; revert l' m'; induction H as [|x y l m Hxy _ IH]; intros l' m' H' Hf; [constructor|].
    inversion H'; subst; cbn; constructor; auto.
  Qed.
  Lemma Forall2_concat {A B} (Q : A -> B -> Prop) l m : Forall2 (Forall2 Q) l m -> Forall2 Q (concat l) (concat m).
  Proof. induction 1; cbn; [constructor|]. apply Forall2_app; auto. Qed.
  Lemma Forall2_firstn {A B} (Q : A -> B -> Prop) n l m : Forall2 Q l m -> Forall2 Q (firstn n l) (firstn n m).
  Proof. intros H; revert n; induction H; intros [|n]; cbn; auto. Qed.
  Lemma Forall2_skipn {A B} (Q : A -> B -> Prop) n l m : Forall2 Q l m -> Forall2 Q (skipn n l) (skipn n m).
  Proof. intros H; revert n; induction H; intros [|n]; cbn; auto. Qed.
  Lemma lane_rel {A B} (Q : A -> B -> Prop) w l m i : Forall2 Q l m -> Forall2 Q (lane w l i) (lane w m i).
  Proof. intros. apply Forall2_firstn, Forall2_skipn. auto. Qed.

  (* lanes have w elements *)
  Definition RL w (x : list sb) (y : list byte) : Prop := Forall2 R x y /\ length x = w.
  Lemma lanes_rel w l m : Forall2 R l m -> Forall2 (RL w) (lanes w l) (lanes w m).
  Proof.
    intros H. unfold lanes. rewrite <- (Forall2_len _ _ _ H). apply Forall2_map_same.
    intros i Hi. split; [apply lane_rel; auto|]. apply in_seq in Hi. unfold lane.
    rewrite firstn_length, skipn_length. destruct w as [|w]; [cbn; lia|].
    pose proof (Nat.div_mod (length l) (S w) ltac:(lia)). nia.
  Qed.

  Lemma forallb_bz l m : Forall2 R l m -> forallb is_bz l = true -> le_val m = Some 0%Z.
  Proof.
    induction 1 as [|a c l m H _ IH]; cbn; intros E; auto. apply andb_prop in E as [Ea El]. rewrite (IH El).
    destruct a; try discriminate. destruct H as [H|(v & Hv & E & ->)]; [discriminate|]. cbn in E. inversion E. auto.
  Qed.
  Lemma R_self m : Forall (fun b => exists v, b = Some v /\ inb v) m -> forall l, map sden l = m -> Forall2 R l m.
  Proof.
    induction 1 as [|b m (v & -> & Hv) _ IH]; intros [|a l] E; try discriminate; constructor.
    - inversion E. right. eauto.
    - apply IH. inversion E. auto.
  Qed.
  Lemma aadd_sound w x y x' y' : RL w x x' -> RL w y y' ->
    Forall2 R (aadd w x y) (le_split w (oapp2 Z.add (le_val x') (le_val y'))).
  Proof.
    intros [Hx Lx] [Hy Ly]. unfold aadd.
    assert (Q : forall l l' z, Forall2 R l l' -> length l = w -> existsb is_bu l = false -> z = le_val l' ->
      Forall2 R l (le_split w z)).
    { intros l l' z Hl Ll Eb ->. destruct (R_all _ _ Hl Eb) as [El Fl]. destruct (bytes_le_val l' Fl) as (p & -> & _ & B).
      rewrite le_split_bytes. rewrite <- (Forall2_len _ _ _ Hl), Ll in B. rewrite B. auto. }
    destruct (forallb is_bz x && negb (existsb is_bu y)) eqn:E1.
    { apply andb_prop in E1 as [Ez Eu]. apply negb_true_iff in Eu. rewrite (forallb_bz _ _ Hx Ez).
      eapply Q; eauto. destruct (le_val y'); cbn; f_equal. }
    destruct (forallb is_bz y && negb (existsb is_bu x)) eqn:E2.
    { apply andb_prop in E2 as [Ez Eu]. apply negb_true_iff in Eu. rewrite (forallb_bz _ _ Hy Ez).
      eapply Q; eauto. destruct (le_val x'); cbn; f_equal. lia. }
    apply R_repeat. unfold le_split. rewrite map_length, seq_length. auto.
  Qed.
  Lemma aop_sound o wo x y : Forall2 R x y -> Forall2 R (aop o wo x) (le_split wo (oapp (lop_sem ub md o) (le_val y))).
  Proof.
    intros H. unfold aop. destruct (existsb is_bu x) eqn:E.
    { apply R_repeat. unfold le_split. rewrite map_length, seq_length. auto. }
    destruct (R_all _ _ H E) as [Ex F]. destruct (bytes_le_val y F) as (p & Ep & _).
    rewrite Ep. cbn [oapp]. unfold le_split. apply Forall2_map_same. intros k _. right.
    eexists. split; [apply le_byte_range|]. split; [|reflexivity]. rewrite sden_op, Ex, Ep. reflexivity.
  Qed.
  Lemma asum_sound f x y x' y' : Forall2 R x x' -> Forall2 R y y' ->
    Forall2 R (asum f x y) (le_split f (oapp2 (fadd (fmt_of f) md) (le_val x') (le_val y'))).
  Proof.
    intros Hx Hy. unfold asum. destruct (existsb is_bu x || existsb is_bu y) eqn:E.
    { apply R_repeat. unfold le_split. rewrite map_length, seq_length. auto. }
    apply orb_false_elim in E as [E1 E2].
    destruct (R_all _ _ Hx E1) as [Ex Fx]. destruct (bytes_le_val x' Fx) as (p & Ep & _).
    destruct (R_all _ _ Hy E2) as [Ey Fy]. destruct (bytes_le_val y' Fy) as (q & Eq & _).
    rewrite Ep, Eq. cbn [oapp2]. unfold le_split. apply Forall2_map_same. intros k _. right.
    eexists. split; [apply le_byte_range|]. split; [|reflexivity]. rewrite sden_sum, Ex, Ey, Ep, Eq. reflexivity.
  Qed.
  Lemma asgn_sound a c : R a c -> R (asgn a) (sign_fill c).
  Proof.
    intros [->|(v & Hv & E & ->)]; [left; auto|].
    assert (B : inb (if (v <? 128)%Z then 0 else 255)%Z) by (destruct (v <? 128)%Z; lia).
    destruct a; cbn [asgn]; cbn [sign_fill].
    - cbn in E. inversion E; subst. right. exists 0%Z. cbn. split; [lia|auto].
    - left; auto.
    - right. eexists. split; [exact B|]. split; auto. cbn [sden] in *. rewrite E. auto.
    - right. eexists. split; [exact B|]. split; auto. cbn [sden] in *. rewrite E. f_equal.
      destruct (sden a) as [u|]; cbn in E; [|discriminate]. inversion E. destruct (u <? 128)%Z; auto.
    - right. eexists. split; [exact B|]. split; auto. change (sign_fill (sden (BOp o l k)) = Some (if (v <? 128)%Z then 0%Z else 255%Z)).
      rewrite E. auto.
    - right. eexists. split; [exact B|]. split; auto. change (sign_fill (sden (BSum f a b k)) = Some (if (v <? 128)%Z then 0%Z else 255%Z)).
      rewrite E. auto.
  Qed.
  Lemma aor_sound a b c d : R a c -> R b d -> R (aor a b) (oapp2 Z.lor c d).
  Proof.
    intros Ha Hb.
    assert (Q : forall a c, a = BZ -> R a c -> c = Some 0%Z).
    { intros a0 c0 -> [H|(v & _ & E & ->)]; [discriminate|]. cbn in E. inversion E; auto. }
    destruct a; try (rewrite (Q _ _ eq_refl Ha); cbn [aor];
      destruct Hb as [->|(v & Hv & E & ->)]; [left; auto|right; exists v; cbn; auto]);
    destruct b; cbn [aor]; try (left; reflexivity);
    rewrite (Q _ _ eq_refl Hb); destruct Ha as [Ha|(v & Hv & E & ->)];
      try discriminate; try (left; assumption); right; exists v; cbn [oapp2]; rewrite Z.lor_0_r; auto.
  Qed.

  (* the arguments *)
  Variables (k N w : nat) (args : list (list byte)).
  Hypothesis Hargs : forall i, i < k ->
    nth i args [] = flat_map (fun j => map (fun b => Some (byt (i * N + j) b)) (seq 0 w)) (seq 0 N).
  Hypothesis Hlen : length args = k.

  Theorem aeval_sound e : Forall2 R (aeval k N w e) (ceval ub md args e).
  Proof.
    induction e; cbn [aeval ceval].
    - destruct (Nat.ltb_spec k0 k) as [H|H].
      + rewrite (Hargs k0 H). apply (Forall2_flat eq).
        * clear. induction (seq 0 N); constructor; auto.
        * intros j _ <-. apply Forall2_map_same. intros b _. right. eexists. split; [apply Hbyt|]. split; [|reflexivity]. reflexivity.
      + rewrite nth_overflow by lia. constructor.
    - apply Forall2_app; auto.
    - apply Forall2_map_same. intros i _. destruct i.
      + apply Forall2_nth'; auto. left; auto.
      + right. exists 0%Z. cbn. split; [lia|auto].
      + apply asgn_sound. apply Forall2_nth'; auto. left; auto.
      + left; auto.
    - eapply Forall2_map2; eauto using aor_sound.
    - apply Forall2_concat. eapply Forall2_map2; [apply lanes_rel; eauto|apply lanes_rel; eauto|].
      intros; apply aadd_sound; auto.
    - eapply Forall2_flat; [apply lanes_rel; eauto|]. intros x y [H _]. apply aop_sound; auto.
    - apply Forall2_concat. eapply Forall2_map2; [apply lanes_rel; eauto|apply lanes_rel; eauto|].
      intros x y x' y' [H _] [H' _]. apply asum_sound; auto.
  Qed.

  (* a lane that equals a template *)
  Lemma lane_template e us j tmpl : sbs_eqb (lane us (aeval k N w e) j) tmpl = true ->
    lane us (ceval ub md args e) j = map sden tmpl.
  Proof.
    intros E. destruct (sbs_eqb_eq _ _ E) as [El F].
    assert (H : Forall2 R (lane us (aeval k N w e) j) (lane us (ceval ub md args e) j)) by apply lane_rel, aeval_sound.
    rewrite <- El. symmetry. apply R_all; auto.
    clear - F. induction F; cbn; auto. destruct x; cbn; auto. congruence.
  Qed.

  (* ---------------------------------------------------------------- *)
  (* a list of symbolic bytes stands for the pattern q of v bytes *)
  Definition rep (x : list sb) (v : nat) (q : Z) : Prop :=
    map sden x = bytes_of v q /\ (0 <= q < 256 ^ Z.of_nat v)%Z.
  Lemma rep_val x v q : rep x v q -> le_val (map sden x) = Some q.
  Proof. intros [-> H]. apply le_val_bytes; auto. Qed.
  Lemma rep_op o wo x v q : rep x v q -> map sden (op o wo x) = bytes_of wo (lop_sem ub md o q).
  Proof.
    intros H. unfold op, bytes_of. rewrite map_map. apply map_ext. intros i. rewrite sden_op, (rep_val _ _ _ H). reflexivity.
  Qed.
  Lemma rep_sum f x y v v' q q' : rep x v q -> rep y v' q' ->
    map sden (sum f x y) = bytes_of f (fadd (fmt_of f) md q q').
  Proof.
    intros H H'. unfold sum, bytes_of. rewrite map_map. apply map_ext. intros i.
    rewrite sden_sum, (rep_val _ _ _ H), (rep_val _ _ _ H'). reflexivity.
  Qed.
  Lemma rep_op_in o wo x v q : rep x v q -> (0 <= lop_sem ub md o q < 256 ^ Z.of_nat wo)%Z -> rep (op o wo x) wo (lop_sem ub md o q).
  Proof. intros H B. split; auto. eapply rep_op; eauto. Qed.
End Sound.
