From Coq Require Import List ZArith Bool Arith Lia.
From Verif Require Import Prelude MaskSpec ConstRed BitMaskProofs.
Import ListNotations.

Definition list_of (k : nat -> bool) (n : nat) : list bool := map k (seq 0 n).

Lemma loop_ret test r is : loop_return test r is = if existsb test is then Some r else None.
Proof. induction is; cbn; auto. destruct (test a); auto. Qed.

Lemma list_of_len k n : length (list_of k n) = n.
Proof. unfold list_of. rewrite map_length, seq_length. auto. Qed.
Lemma list_of_nth k n i : i < n -> nth_error (list_of k n) i = Some (k i).
Proof.
  intros H. unfold list_of. rewrite nth_error_map.
  rewrite (nth_error_nth' _ 0) by (rewrite seq_length; auto). rewrite seq_nth; auto.
Qed.

Lemma existsb_map {A B} (f : A -> B) p l : existsb p (map f l) = existsb (fun x => p (f x)) l.
Proof. induction l; cbn; auto. rewrite IHl. auto. Qed.
Lemma forallb_map {A B} (f : A -> B) p l : forallb p (map f l) = forallb (fun x => p (f x)) l.
Proof. induction l; cbn; auto. rewrite IHl. auto. Qed.

Lemma c_all_of_ok k n : c_all_of k n = all_true (list_of k n).
Proof.
  unfold c_all_of, all_true, list_of. rewrite loop_ret, forallb_map.
  induction (seq 0 n); cbn; auto. destruct (k a); cbn; auto.
Qed.
Lemma c_any_of_ok k n : c_any_of k n = any_true (list_of k n).
Proof.
  unfold c_any_of, any_true, list_of. rewrite loop_ret, existsb_map.
  change (fun x => k x) with k. destruct (existsb k (seq 0 n)); auto.
Qed.
Lemma c_none_of_ok k n : c_none_of k n = negb (any_true (list_of k n)).
Proof.
  unfold c_none_of, any_true, list_of. rewrite loop_ret, existsb_map.
  change (fun x => k x) with k. destruct (existsb k (seq 0 n)); auto.
Qed.

(* neighbours all equal: constant *)
Lemma no_change k n : existsb (fun i => xorb (k i) (k (i - 1))) (seq 1 (n - 1)) = false ->
  forall i, i < n -> k i = k 0.
Proof.
  intros H. induction i; intros Hi; auto.
  rewrite <- IHi by lia.
  destruct (xorb (k (S i)) (k i)) eqn:E.
  - exfalso. assert (T : existsb (fun i => xorb (k i) (k (i - 1))) (seq 1 (n - 1)) = true).
    { apply existsb_exists. exists (S i). split; [apply in_seq; lia|].
      replace (S i - 1) with i by lia. auto. }
    congruence.
  - apply xorb_eq in E. auto.
Qed.

Lemma c_some_of_ok k n : c_some_of k n = (any_true (list_of k n) && negb (all_true (list_of k n)))%bool.
Proof.
  unfold c_some_of. rewrite loop_ret.
  destruct (existsb _ (seq 1 (n - 1))) eqn:E; cbn [or_else]; symmetry.
  - apply existsb_exists in E. destruct E as (i & Hi & E). apply in_seq in Hi.
    assert (Ha : any_true (list_of k n) = true).
    { unfold any_true, list_of. rewrite existsb_map. apply existsb_exists.
      revert E; destruct (k i) eqn:K; intros E; [exists i|exists (i - 1)]; (split; [apply in_seq; lia|]); auto.
      destruct (k (i - 1)); auto. }
    rewrite Ha. cbn [andb]. apply negb_true_iff.
    destruct (all_true (list_of k n)) eqn:F; auto.
    unfold all_true, list_of in F. rewrite forallb_map in F. rewrite forallb_forall in F.
    rewrite (F i), (F (i - 1)) in E by (apply in_seq; lia). discriminate.
  - pose proof (no_change k n E) as Hc.
    unfold any_true, all_true, list_of. rewrite existsb_map, forallb_map.
    destruct (existsb (fun x => k x) (seq 0 n)) eqn:F; auto. cbn [andb]. apply negb_false_iff.
    apply existsb_exists in F. destruct F as (i & Hi & F). apply in_seq in Hi.
    apply forallb_forall. intros j Hj. apply in_seq in Hj. rewrite Hc by lia. rewrite Hc in F by lia. auto.
Qed.

Lemma c_popcount_ok k n : c_popcount k n = count_true (list_of k n).
Proof.
  unfold c_popcount, list_of. induction (seq 0 n); auto. cbn [fold_right map].
  rewrite count_true_cons, IHl. destruct (k a); auto.
Qed.

Lemma min_le n l x : In x l -> fold_right Nat.min n l <= x.
Proof.
  induction l; cbn [fold_right In]; [tauto|]. intros [->|H]; [lia|]. specialize (IHl H). lia.
Qed.
Lemma min_in n l : fold_right Nat.min n l = n \/ In (fold_right Nat.min n l) l.
Proof.
  induction l; cbn [fold_right In]; auto.
  destruct (Nat.min_dec a (fold_right Nat.min n l)) as [E|E]; rewrite E; auto.
  destruct IHl; auto.
Qed.
Lemma max_ge n l x : In x l -> (x <= fold_right Z.max n l)%Z.
Proof.
  induction l; cbn [fold_right In]; [tauto|]. intros [->|H]; [lia|]. specialize (IHl H). lia.
Qed.
Lemma max_in n l : fold_right Z.max n l = n \/ In (fold_right Z.max n l) l.
Proof.
  induction l; cbn [fold_right In]; auto.
  destruct (Z.max_dec a (fold_right Z.max n l)) as [E|E]; rewrite E; auto.
  destruct IHl; auto.
Qed.

Lemma any_ex k n : any_true (list_of k n) = true <-> exists i, i < n /\ k i = true.
Proof.
  unfold any_true, list_of. rewrite existsb_map, existsb_exists.
  split; intros (i & Hi & E); exists i; rewrite in_seq in *; split; auto; lia.
Qed.

Lemma c_find_first_ok k n :
  match c_find_first_set k n with
  | Some i => is_first_true (list_of k n) i
  | None => any_true (list_of k n) = false
  end.
Proof.
  unfold c_find_first_set. cbv zeta.
  set (l := map (fun i => if k i then i else n) (seq 0 n)).
  destruct (Nat.leb_spec n (fold_right Nat.min n l)) as [H|H].
  - apply not_true_iff_false. rewrite any_ex. intros (i & Hi & E).
    assert (In i l). { unfold l. apply in_map_iff. exists i. rewrite E. split; auto. apply in_seq. lia. }
    pose proof (min_le n l i H0). lia.
  - destruct (min_in n l) as [E|E]; [lia|].
    unfold l in E at 2. apply in_map_iff in E. destruct E as (i & Ei & Hi). apply in_seq in Hi.
    destruct (k i) eqn:K; [|lia]. rewrite <- Ei in *. split.
    + rewrite list_of_nth by lia. rewrite K. auto.
    + intros j Hj. rewrite list_of_nth by lia. destruct (k j) eqn:KJ; auto. exfalso.
      assert (In j l). { unfold l. apply in_map_iff. exists j. rewrite KJ. split; auto. apply in_seq. lia. }
      pose proof (min_le n l j H0). lia.
Qed.

Lemma c_find_last_ok k n :
  match c_find_last_set k n with
  | Some z => exists i, z = Z.of_nat i /\ is_last_true (list_of k n) i
  | None => any_true (list_of k n) = false
  end.
Proof.
  unfold c_find_last_set. cbv zeta.
  set (l := map (fun i => if k i then Z.of_nat i else (-1)%Z) (seq 0 n)).
  destruct (Z.ltb_spec (fold_right Z.max (-1)%Z l) 0) as [H|H].
  - apply not_true_iff_false. rewrite any_ex. intros (i & Hi & E).
    assert (In (Z.of_nat i) l).
    { unfold l. apply in_map_iff. exists i. rewrite E. split; auto. apply in_seq. lia. }
    pose proof (max_ge (-1) l _ H0). lia.
  - destruct (max_in (-1) l) as [E|E]; [lia|].
    unfold l in E at 2. apply in_map_iff in E. destruct E as (i & Ei & Hi). apply in_seq in Hi.
    destruct (k i) eqn:K; [|lia]. rewrite <- Ei in *. exists i. split; auto. split.
    + rewrite list_of_nth by lia. rewrite K. auto.
    + intros j Hj Hl. rewrite list_of_len in Hl. rewrite list_of_nth by lia. destruct (k j) eqn:KJ; auto. exfalso.
      assert (In (Z.of_nat j) l).
      { unfold l. apply in_map_iff. exists j. rewrite KJ. split; auto. apply in_seq. lia. }
      pose proof (max_ge (-1) l _ H0). lia.
Qed.

Lemma first_unique l i j : is_first_true l i -> is_first_true l j -> i = j.
Proof.
  intros [A B] [C D]. destruct (lt_eq_lt_dec i j) as [[H|H]|H]; auto.
  - rewrite D in A by auto. discriminate.
  - rewrite B in C by auto. discriminate.
Qed.
Lemma last_unique l i j : is_last_true l i -> is_last_true l j -> i = j.
Proof.
  intros [A B] [C D]. assert (i < length l) by (apply nth_error_Some; congruence).
  assert (j < length l) by (apply nth_error_Some; congruence).
  destruct (lt_eq_lt_dec i j) as [[X|X]|X]; auto.
  - rewrite B in C by auto. discriminate.
  - rewrite D in A by auto. discriminate.
Qed.

Lemma const_first k n i : is_first_true (list_of k n) i -> c_find_first_set k n = Some i.
Proof.
  intros H. pose proof (c_find_first_ok k n) as E. destruct (c_find_first_set k n) as [j|].
  - f_equal. eapply first_unique; eauto.
  - exfalso. destruct H as [H _]. apply nth_error_In in H. unfold any_true in E.
    assert (existsb (fun x => x) (list_of k n) = true) by (apply existsb_exists; eauto). congruence.
Qed.
Lemma const_last k n i : is_last_true (list_of k n) i -> c_find_last_set k n = Some (Z.of_nat i).
Proof.
  intros H. pose proof (c_find_last_ok k n) as E. destruct (c_find_last_set k n) as [j|].
  - destruct E as (j' & -> & E). f_equal. f_equal. eapply last_unique; eauto.
  - exfalso. destruct H as [H _]. apply nth_error_In in H. unfold any_true in E.
    assert (existsb (fun x => x) (list_of k n) = true) by (apply existsb_exists; eauto). congruence.
Qed.
