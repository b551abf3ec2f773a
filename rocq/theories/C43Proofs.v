From Coq Require Import List ZArith Bool Arith Lia.
From Verif Require Import Prelude MaskSpec BitMask KMask KMaskSpec X86Mask X86MaskSpec
  ConstRed X86MaskProofs KMaskProofs BitMaskProofs ConstRedProofs.
Import ListNotations.

Lemma c31_reductions f s x l : shape_ok s -> holds s x l ->
  x86_all_of f s x = all_true l /\
  x86_any_of f s x = any_true l /\
  x86_none_of f s x = negb (any_true l) /\
  x86_some_of f s x = (any_true l && negb (all_true l))%bool.
Proof.
  intros Hs Hh. auto using x86_all_of_ok, x86_any_of_ok, x86_none_of_ok, x86_some_of_ok.
Qed.
Lemma c31_find packs s x l : shape_ok s -> holds s x l -> any_true l = true ->
  is_first_true l (x86_find_first_set packs s x) /\
  exists i, x86_find_last_set packs s x = Z.of_nat i /\ is_last_true l i.
Proof.
  intros Hs Hh Ha. unfold x86_find_first_set, x86_find_last_set.
  rewrite (x86_to_bits_ok packs s x l) by auto. split; [apply of_lanes_first|apply of_lanes_last]; auto.
Qed.
Lemma c31_generic s x l : shape_ok s -> holds s x l ->
  base_all_of s x = all_true l /\
  base_any_of s x = any_true l /\
  base_none_of s x = negb (any_true l) /\
  base_some_of s x = (any_true l && negb (all_true l))%bool /\
  base_popcount s x = Z.of_nat (count_true l).
Proof.
  intros Hs Hh. repeat match goal with |- _ /\ _ => split end;
  auto using base_all_of_ok, base_any_of_ok, base_none_of_ok, base_some_of_ok, base_popcount_ok.
Qed.

Lemma c43_constant k n :
  let l := map k (seq 0 n) in
  c_all_of k n = all_true l /\
  c_any_of k n = any_true l /\
  c_none_of k n = negb (any_true l) /\
  c_some_of k n = (any_true l && negb (all_true l))%bool /\
  c_popcount k n = count_true l /\
  (forall i, c_find_first_set k n = Some i <-> is_first_true l i) /\
  (forall i, c_find_last_set k n = Some (Z.of_nat i) <-> is_last_true l i) /\
  (c_find_first_set k n = None <-> any_true l = false) /\
  (c_find_last_set k n = None <-> any_true l = false).
Proof.
  cbv zeta. fold (list_of k n).
  pose proof (c_find_first_ok k n) as F. pose proof (c_find_last_ok k n) as L.
  repeat match goal with |- _ /\ _ => split end; auto using c_all_of_ok, c_any_of_ok, c_none_of_ok,
    c_some_of_ok, c_popcount_ok.
  - intros i. split; [intros E; rewrite E in F; auto|apply const_first].
  - intros i. split; [|apply const_last]. intros E. rewrite E in L. destruct L as (j & Ej & L).
    apply Nat2Z.inj in Ej. subst. auto.
  - split; intros E; [rewrite E in F; auto|].
    destruct (c_find_first_set k n) as [i|]; auto. exfalso. destruct F as [F _]. apply nth_error_In in F.
    assert (any_true (list_of k n) = true) by (apply existsb_exists; eauto). congruence.
  - split; intros E; [rewrite E in L; auto|].
    destruct (c_find_last_set k n) as [i|]; auto. exfalso. destruct L as (j & _ & [G _]). apply nth_error_In in G.
    assert (any_true (list_of k n) = true) by (apply existsb_exists; eauto). congruence.
Qed.

Lemma c43_fixed n e : 1 <= n -> n <= 64 -> mexpr_ok n e ->
  let k := fsm_eval n e in
  c_all_of (bm_get n k) n = fsm_all_of n k /\
  c_any_of (bm_get n k) n = fsm_any_of n k /\
  c_none_of (bm_get n k) n = fsm_none_of n k /\
  c_some_of (bm_get n k) n = fsm_some_of n k /\
  c_popcount (bm_get n k) n = fsm_popcount n k /\
  (any_true (mask_meaning n e) = true ->
   c_find_first_set (bm_get n k) n = Some (fsm_find_first_set k) /\
   c_find_last_set (bm_get n k) n = Some (fsm_find_last_set k)).
Proof.
  intros H1 H2 He. cbv zeta.
  destruct (c10_lemma n e H1 H2 He) as (-> & -> & -> & -> & -> & Hf).
  pose proof (c09_lemma n e H1 H2 He) as E. change (bm_list n (fsm_eval n e)) with (list_of (bm_get n (fsm_eval n e)) n) in E.
  rewrite c_all_of_ok, c_any_of_ok, c_none_of_ok, c_some_of_ok, c_popcount_ok, E.
  repeat match goal with |- _ /\ _ => split end; auto. intros Ha. destruct (Hf Ha) as [A (i & -> & B)].
  rewrite <- E in A, B. split; [apply const_first|apply const_last]; auto.
Qed.

Lemma v_list s x l : shape_ok s -> holds s x l -> list_of (v_get x) (sn s) = l.
Proof.
  intros Hs (Hx & Hl & Hn & _). apply nth_ext with (d := false) (d' := false); rewrite list_of_len; auto.
  intros i Hi. rewrite (nth_error_nth _ _ _ (list_of_nth (v_get x) (sn s) i Hi)).
  unfold v_get. rewrite Hn by auto. destruct (nth i l false); auto.
  pose proof (ones_pos s Hs). unfold ones, lw in H.
  destruct (Z.eqb_spec (2 ^ (8 * Z.of_nat (sz s)) - 1) 0); auto. lia.
Qed.

Lemma c43_vector f packs s x l : shape_ok s -> holds s x l ->
  c_all_of (v_get x) (sn s) = x86_all_of f s x /\
  c_any_of (v_get x) (sn s) = x86_any_of f s x /\
  c_none_of (v_get x) (sn s) = x86_none_of f s x /\
  c_some_of (v_get x) (sn s) = x86_some_of f s x /\
  (f_popcnt f = true \/ rl s * sz s = 16 \/ sz s = 8 ->
   Some (Z.of_nat (c_popcount (v_get x) (sn s))) = x86_popcount f s x) /\
  (any_true l = true ->
   c_find_first_set (v_get x) (sn s) = Some (x86_find_first_set packs s x) /\
   c_find_last_set (v_get x) (sn s) = Some (x86_find_last_set packs s x)).
Proof.
  intros Hs Hh. destruct (c31_reductions f s x l Hs Hh) as (-> & -> & -> & ->).
  rewrite c_all_of_ok, c_any_of_ok, c_none_of_ok, c_some_of_ok, c_popcount_ok, (v_list s x l) by auto.
  repeat match goal with |- _ /\ _ => split end; auto.
  - intros Hp. symmetry. apply x86_popcount_ok; auto.
  - intros Ha. destruct (c31_find packs s x l Hs Hh Ha) as [A (i & -> & B)].
    rewrite <- (v_list s x l Hs Hh) in A, B. split; [apply const_first|apply const_last]; auto.
Qed.

Lemma c43_generic s x l : shape_ok s -> holds s x l ->
  c_all_of (v_get x) (sn s) = base_all_of s x /\
  c_any_of (v_get x) (sn s) = base_any_of s x /\
  c_none_of (v_get x) (sn s) = base_none_of s x /\
  c_some_of (v_get x) (sn s) = base_some_of s x /\
  Z.of_nat (c_popcount (v_get x) (sn s)) = base_popcount s x.
Proof.
  intros Hs Hh. destruct (c31_generic s x l Hs Hh) as (-> & -> & -> & -> & ->).
  rewrite c_all_of_ok, c_any_of_ok, c_none_of_ok, c_some_of_ok, c_popcount_ok, (v_list s x l) by auto. auto.
Qed.

Lemma c43_scalar b k : (forall i, k i = b) ->
  c_all_of k 1 = s_all_of b /\
  c_any_of k 1 = s_any_of b /\
  c_none_of k 1 = s_none_of b /\
  c_some_of k 1 = s_some_of b /\
  c_popcount k 1 = s_popcount b /\
  (b = true -> c_find_first_set k 1 = Some (s_find_first_set b) /\
               c_find_last_set k 1 = Some (s_find_last_set b)).
Proof.
  intros H. unfold c_all_of, c_any_of, c_none_of, c_some_of, c_popcount, c_find_first_set, c_find_last_set. cbn.
  rewrite H. destruct b; cbn; repeat split; auto; discriminate.
Qed.

Lemma c43_kmask vl dq n e : size_ok n -> kexpr_ok n e ->
  let k := k_eval vl n e in
  c_all_of (k_get k) n = k_all_of dq n k /\
  c_any_of (k_get k) n = k_any_of n k /\
  c_none_of (k_get k) n = k_none_of n k /\
  c_some_of (k_get k) n = k_some_of dq n k /\
  c_popcount (k_get k) n = k_popcount n k /\
  (any_true (k_meaning n e) = true ->
   c_find_first_set (k_get k) n = Some (k_find_first_set n k) /\
   (cleans e -> c_find_last_set (k_get k) n = Some (k_find_last_set k))).
Proof.
  intros Hn He. cbv zeta.
  pose proof (eval_shows vl n e Hn He) as Hs.
  rewrite (KMaskProofs.all_of_spec dq n _ _ Hn Hs), (KMaskProofs.any_of_spec n _ _ Hn Hs), (KMaskProofs.none_of_spec n _ _ Hn Hs),
    (KMaskProofs.some_of_spec dq n _ _ Hn Hs), (KMaskProofs.popcount_spec n _ _ Hn Hs).
  pose proof (KMaskProofs.find_first_spec n _ _ Hn Hs) as Hf.
  pose proof (c21_elements vl n e Hn He) as E. fold (list_of (k_get (k_eval vl n e)) n) in E.
  rewrite c_all_of_ok, c_any_of_ok, c_none_of_ok, c_some_of_ok, c_popcount_ok, E.
  repeat match goal with |- _ /\ _ => split end; auto. intros Ha. split.
  - apply const_first. rewrite E. auto.
  - intros Hc. destruct (KMaskProofs.find_last_spec n _ _ Hn (eval_shows vl n e Hn He) (eval_high vl n e Hn He Hc) Ha) as (i & -> & B).
    apply const_last. rewrite E. auto.
Qed.

Lemma c43_refuted vl n l : size_ok n -> n < kw n -> n <= length l <= kw n ->
  let k := k_eval vl n (KIntNe l) in
  c_find_last_set (k_get k) n <> Some (k_find_last_set k).
Proof.
  intros Hn Hw Hl. cbv zeta. destruct (c21_find_last_refuted vl n l Hn Hw Hl) as [E G]. intros H.
  pose proof (c_find_last_ok (k_get (k_eval vl n (KIntNe l))) n) as F. rewrite H in F.
  destruct F as (i & Ei & [F _]).
  assert (i < n). { rewrite <- (list_of_len (k_get (k_eval vl n (KIntNe l))) n). apply nth_error_Some. congruence. }
  lia.
Qed.
