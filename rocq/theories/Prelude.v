(* Prelude: list and bit lemmas used throughout.  No model content. *)
From Coq Require Import List ZArith Lia Bool Arith.
Import ListNotations.

(* ------------------------------------------------------------------ *)
(* Outcome of running a piece of code: a value, or undefined behaviour *)
Inductive res (A : Type) : Type :=
| Ok (a : A)
| UB.
Arguments Ok {A} a.
Arguments UB {A}.

Definition rbind {A B} (x : res A) (f : A -> res B) : res B :=
  match x with Ok a => f a | UB => UB end.

Definition rmap {A B} (f : A -> B) (x : res A) : res B :=
  match x with Ok a => Ok (f a) | UB => UB end.

(* map2: element-wise application; the result has the shorter length *)
Fixpoint map2 {A B C} (f : A -> B -> C) (l1 : list A) (l2 : list B) : list C :=
  match l1, l2 with
  | a :: t1, b :: t2 => f a b :: map2 f t1 t2
  | _, _ => []
  end.

(* map3: as map2 with three lists *)
Fixpoint map3 {A B C D} (f : A -> B -> C -> D)
  (l1 : list A) (l2 : list B) (l3 : list C) : list D :=
  match l1, l2, l3 with
  | a :: t1, b :: t2, c :: t3 => f a b c :: map3 f t1 t2 t3
  | _, _, _ => []
  end.

(* set element i of a list *)
Fixpoint upd {A} (l : list A) (i : nat) (v : A) : list A :=
  match l, i with
  | [], _ => []
  | _ :: t, O => v :: t
  | h :: t, S j => h :: upd t j v
  end.

(* map over a computation that may be undefined: undefined as soon as one
   element is *)
Fixpoint rmapm {A B} (f : A -> res B) (l : list A) : res (list B) :=
  match l with
  | [] => Ok []
  | a :: t => rbind (f a) (fun b => rbind (rmapm f t) (fun bs => Ok (b :: bs)))
  end.

Section ListLemmas.
  Context {A B C D : Type}.

  Lemma map2_length (f : A -> B -> C) l1 l2 :
    length (map2 f l1 l2) = Nat.min (length l1) (length l2).
  Proof. revert l2; induction l1; destruct l2; simpl; auto. Qed.

  Lemma map2_app (f : A -> B -> C) a1 a2 b1 b2 :
    length a1 = length b1 ->
    map2 f (a1 ++ a2) (b1 ++ b2) = map2 f a1 b1 ++ map2 f a2 b2.
  Proof.
    revert b1; induction a1; destruct b1; simpl; intros; try discriminate; auto.
    f_equal; auto.
  Qed.

  Lemma map2_nth (f : A -> B -> C) l1 l2 i da db dc :
    i < length l1 -> i < length l2 ->
    nth i (map2 f l1 l2) dc = f (nth i l1 da) (nth i l2 db).
  Proof.
    revert l2 i; induction l1; intros [|b l2] [|i] H1 H2; simpl in *; try lia; auto.
    apply IHl1; lia.
  Qed.

  Lemma firstn_map2 (f : A -> B -> C) n l1 l2 :
    firstn n (map2 f l1 l2) = map2 f (firstn n l1) (firstn n l2).
  Proof.
    revert l1 l2; induction n; destruct l1, l2; simpl; auto.
    f_equal; auto.
  Qed.

  Lemma skipn_map2 (f : A -> B -> C) n l1 l2 :
    skipn n (map2 f l1 l2) = map2 f (skipn n l1) (skipn n l2).
  Proof.
    revert l1 l2; induction n; destruct l1, l2; simpl; auto.
    destruct (skipn n l1); auto.
  Qed.

  Lemma map3_length (f : A -> B -> C -> D) l1 l2 l3 :
    length (map3 f l1 l2 l3)
    = Nat.min (length l1) (Nat.min (length l2) (length l3)).
  Proof. revert l2 l3; induction l1; destruct l2, l3; simpl; auto. Qed.

  Lemma map3_app (f : A -> B -> C -> D) a1 a2 b1 b2 c1 c2 :
    length a1 = length b1 -> length b1 = length c1 ->
    map3 f (a1 ++ a2) (b1 ++ b2) (c1 ++ c2) = map3 f a1 b1 c1 ++ map3 f a2 b2 c2.
  Proof.
    revert b1 c1; induction a1; destruct b1, c1; simpl; intros;
      try discriminate; auto.
    f_equal; auto.
  Qed.

  Lemma firstn_map3 (f : A -> B -> C -> D) n l1 l2 l3 :
    firstn n (map3 f l1 l2 l3) = map3 f (firstn n l1) (firstn n l2) (firstn n l3).
  Proof.
    revert l1 l2 l3; induction n; destruct l1, l2, l3; simpl; auto.
    f_equal; auto.
  Qed.

  Lemma map3_nth (f : A -> B -> C -> D) l1 l2 l3 i da db dc dd :
    i < length l1 -> i < length l2 -> i < length l3 ->
    nth i (map3 f l1 l2 l3) dd = f (nth i l1 da) (nth i l2 db) (nth i l3 dc).
  Proof.
    revert l2 l3 i; induction l1; intros [|b l2] [|c l3] [|i] H1 H2 H3;
      simpl in *; try lia; auto.
    apply IHl1; lia.
  Qed.

  Lemma upd_length (l : list A) i v : length (upd l i v) = length l.
  Proof. revert i; induction l; destruct i; simpl; auto. Qed.

  Lemma upd_nth_same (l : list A) i v d : i < length l -> nth i (upd l i v) d = v.
  Proof. revert i; induction l; destruct i; simpl; intros; try lia; auto. apply IHl; lia. Qed.

  Lemma upd_nth_other (l : list A) i j v d : i <> j -> nth j (upd l i v) d = nth j l d.
  Proof. revert i j; induction l; destruct i, j; simpl; intros; try lia; auto. Qed.

  Lemma upd_out (l : list A) i v : length l <= i -> upd l i v = l.
  Proof. revert i; induction l; destruct i; simpl; intros; try lia; auto. f_equal; apply IHl; lia. Qed.

  Lemma upd_app1 (l1 l2 : list A) i v :
    i < length l1 -> upd (l1 ++ l2) i v = upd l1 i v ++ l2.
  Proof. revert i; induction l1; destruct i; simpl; intros; try lia; auto. f_equal; apply IHl1; lia. Qed.

  Lemma upd_app2 (l1 l2 : list A) i v :
    length l1 <= i -> upd (l1 ++ l2) i v = l1 ++ upd l2 (i - length l1) v.
  Proof. revert i; induction l1; destruct i; simpl; intros; try lia; auto. f_equal; apply IHl1; lia. Qed.

  Lemma firstn_upd (l : list A) n i v :
    firstn n (upd l i v) = upd (firstn n l) i v.
  Proof.
    revert l i; induction n; destruct l, i; simpl; auto. f_equal; auto.
  Qed.

  Lemma map_upd (f : A -> B) l i v : map f (upd l i v) = upd (map f l) i (f v).
  Proof. revert i; induction l; destruct i; simpl; auto. f_equal; auto. Qed.

  Lemma upd_nth_id (l : list A) i d : upd l i (nth i l d) = l.
  Proof. revert i; induction l; destruct i; simpl; auto. f_equal; auto. Qed.

  Lemma nth_eq_ext (l1 l2 : list A) d :
    length l1 = length l2 ->
    (forall i, i < length l1 -> nth i l1 d = nth i l2 d) -> l1 = l2.
  Proof. intros. apply nth_ext with d d; auto. Qed.

  Lemma firstn_ge (l : list A) n : length l <= n -> firstn n l = l.
  Proof. apply firstn_all2. Qed.

  Lemma nth_firstn_lt (l : list A) n i d : i < n -> nth i (firstn n l) d = nth i l d.
  Proof.
    revert l i; induction n; intros l i H; [lia|].
    destruct l, i; simpl; auto. apply IHn; lia.
  Qed.

  Lemma nth_skipn_add (l : list A) n i d : nth i (skipn n l) d = nth (n + i) l d.
  Proof.
    revert l; induction n; intros l; simpl; auto.
    destruct l; simpl; auto. destruct i; auto.
  Qed.

  Lemma map_seq_nth (l : list A) d :
    map (fun i => nth i l d) (seq 0 (length l)) = l.
  Proof.
    apply nth_ext with d d.
    - rewrite map_length, seq_length; auto.
    - intros i Hi. rewrite map_length, seq_length in Hi.
      rewrite nth_indep with (d' := nth 0 l d) by (rewrite map_length, seq_length; auto).
      rewrite (map_nth (fun i => nth i l d) (seq 0 (length l)) 0 i).
      rewrite seq_nth; auto.
  Qed.

  Lemma nth_map_seq (f : nat -> A) s n i d :
    i < n -> nth i (map f (seq s n)) d = f (s + i).
  Proof.
    intros. rewrite nth_indep with (d' := f 0) by (rewrite map_length, seq_length; auto).
    rewrite map_nth, seq_nth; auto.
  Qed.
End ListLemmas.

Lemma firstn_add {A} n m (l : list A) :
  firstn (n + m) l = firstn n l ++ firstn m (skipn n l).
Proof.
  revert l; induction n; intros l; simpl; auto.
  destruct l; simpl; [destruct m; auto|]. f_equal; auto.
Qed.

Lemma skipn_add {A} n m (l : list A) : skipn (n + m) l = skipn m (skipn n l).
Proof.
  revert l; induction n; intros l; simpl; auto.
  destruct l; simpl; auto. destruct m; auto.
Qed.

Lemma map2_map {A B C D E} (f : C -> D -> E) (g : A -> C) (h : B -> D) l1 l2 :
  map2 f (map g l1) (map h l2) = map2 (fun a b => f (g a) (h b)) l1 l2.
Proof. revert l2; induction l1; destruct l2; simpl; auto. f_equal; auto. Qed.

Lemma map2_same {A B} (f : A -> A -> B) l : map2 f l l = map (fun a => f a a) l.
Proof. induction l; simpl; auto. f_equal; auto. Qed.

Lemma map_map2 {A B C D} (g : C -> D) (f : A -> B -> C) l1 l2 :
  map g (map2 f l1 l2) = map2 (fun a b => g (f a b)) l1 l2.
Proof. revert l2; induction l1; destruct l2; simpl; auto. f_equal; auto. Qed.

Lemma map2_ext_in {A B C} (f g : A -> B -> C) l1 l2 :
  (forall a b, In a l1 -> In b l2 -> f a b = g a b) -> map2 f l1 l2 = map2 g l1 l2.
Proof.
  revert l2; induction l1; destruct l2; simpl; intros; auto. f_equal; auto.
Qed.

Lemma skipn_skipn' {A} n m (l : list A) : skipn n (skipn m l) = skipn (m + n) l.
Proof. symmetry; apply skipn_add. Qed.

Lemma rmapm_Ok {A B} (f : A -> res B) (g : A -> B) l :
  (forall a, In a l -> f a = Ok (g a)) -> rmapm f l = Ok (map g l).
Proof.
  induction l; simpl; intros H; auto.
  rewrite H by auto. simpl. rewrite IHl by auto. auto.
Qed.

Lemma rmapm_UB {A B} (f : A -> res B) l a : In a l -> f a = UB -> rmapm f l = UB.
Proof.
  induction l as [|h t IH]; simpl; [tauto|]. intros [->|Hin] Hf.
  - rewrite Hf; auto.
  - destruct (f h); simpl; auto. rewrite IH; auto.
Qed.

(* ------------------------------------------------------------------ *)
(* bits *)
Local Open Scope Z_scope.

Lemma testbit_mod_pow2 x w i :
  0 <= w -> 0 <= i -> Z.testbit (x mod 2 ^ w) i = ((i <? w) && Z.testbit x i)%bool.
Proof.
  intros Hw Hi. destruct (Z.ltb_spec i w).
  - rewrite Z.mod_pow2_bits_low by lia. auto.
  - rewrite Z.mod_pow2_bits_high by lia. auto.
Qed.

Lemma testbit_above x w i : 0 <= x < 2 ^ w -> w <= i -> Z.testbit x i = false.
Proof.
  intros [Hx0 Hx] Hi.
  destruct (Z.eq_dec x 0) as [->|Hn]; [apply Z.bits_0|].
  destruct (Z_le_gt_dec 0 w) as [Hw|Hw].
  - rewrite <- (Z.mod_small x (2 ^ w)) by lia.
    apply Z.mod_pow2_bits_high; lia.
  - rewrite Z.pow_neg_r in Hx by lia. lia.
Qed.

Lemma bounded_of_testbit x w :
  0 <= w -> 0 <= x -> (forall i, w <= i -> Z.testbit x i = false) -> x < 2 ^ w.
Proof.
  intros Hw Hx H.
  destruct (Z_lt_le_dec x (2 ^ w)); auto. exfalso.
  assert (Hp : 0 < 2 ^ w) by (apply Z.pow_pos_nonneg; lia).
  assert (Hl : w <= Z.log2 x).
  { apply Z.log2_le_pow2; lia. }
  specialize (H _ Hl). rewrite Z.bit_log2 in H by lia. discriminate.
Qed.

Lemma eq_mod_bits x y w :
  0 <= w -> (forall i, 0 <= i < w -> Z.testbit x i = Z.testbit y i) ->
  x mod 2 ^ w = y mod 2 ^ w.
Proof.
  intros Hw H. apply Z.bits_inj'. intros i Hi.
  rewrite !testbit_mod_pow2 by lia.
  destruct (Z.ltb_spec i w); simpl; auto.
Qed.

Lemma land_bound x y w : 0 <= w -> 0 <= x < 2 ^ w -> 0 <= y -> 0 <= Z.land x y < 2 ^ w.
Proof.
  intros Hw Hx Hy.
  assert (0 <= Z.land x y) by (apply Z.land_nonneg; lia).
  split; auto. apply bounded_of_testbit; auto.
  intros. rewrite Z.land_spec, (testbit_above x w) by lia. auto.
Qed.

Lemma lor_bound x y w :
  0 <= w -> 0 <= x < 2 ^ w -> 0 <= y < 2 ^ w -> 0 <= Z.lor x y < 2 ^ w.
Proof.
  intros Hw Hx Hy.
  assert (0 <= Z.lor x y) by (apply Z.lor_nonneg; lia).
  split; auto. apply bounded_of_testbit; auto.
  intros. rewrite Z.lor_spec, (testbit_above x w), (testbit_above y w) by lia. auto.
Qed.

Lemma lxor_bound x y w :
  0 <= w -> 0 <= x < 2 ^ w -> 0 <= y < 2 ^ w -> 0 <= Z.lxor x y < 2 ^ w.
Proof.
  intros Hw Hx Hy.
  assert (0 <= Z.lxor x y) by (apply Z.lxor_nonneg; lia).
  split; auto. apply bounded_of_testbit; auto.
  intros. rewrite Z.lxor_spec, (testbit_above x w), (testbit_above y w) by lia. auto.
Qed.

Lemma shiftr_bound x y w : 0 <= w -> 0 <= y -> 0 <= x < 2 ^ w -> 0 <= Z.shiftr x y < 2 ^ w.
Proof.
  intros Hw Hy Hx.
  assert (0 <= Z.shiftr x y) by (apply Z.shiftr_nonneg; lia).
  split; auto. apply bounded_of_testbit; auto.
  intros. rewrite Z.shiftr_spec by lia. apply testbit_above with w; lia.
Qed.

Lemma mod_pow2_bound x w : 0 <= w -> 0 <= x mod 2 ^ w < 2 ^ w.
Proof. intros. apply Z.mod_pos_bound. apply Z.pow_pos_nonneg; lia. Qed.

Lemma testbit_ones w i : 0 <= w -> 0 <= i -> Z.testbit (Z.ones w) i = (i <? w).
Proof.
  intros. destruct (Z.ltb_spec i w).
  - apply Z.ones_spec_low; lia.
  - apply Z.ones_spec_high; lia.
Qed.

Lemma testbit_pow2 k i : 0 <= k -> Z.testbit (2 ^ k) i = (k =? i).
Proof. intros. rewrite Z.pow2_bits_eqb by lia. auto. Qed.
