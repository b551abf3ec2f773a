(* Proofs about reductions. *)
From Coq Require Import List Arith Bool ZArith Lia Permutation.
From Verif Require Import Prelude BitMask BitMaskProofs Abi AbiSpec AbiProofs Fixed FixedSpec
  FixedProofs FixedApply Targets Profile FixedStorage FixedTop MemProofs Reduce ReduceSpec.
Import ListNotations.

(* ---------------- folds of an associative-commutative operation ---- *)
Definition omerge {A} (op : A -> A -> A) (x y : option A) : option A :=
  match x, y with
  | None, _ => y
  | _, None => x
  | Some a, Some b => Some (op a b)
  end.

Section Fold.
  Context {A : Type} (op : A -> A -> A) (Hac : assoc_comm op).
  Let Hassoc := proj1 Hac.
  Let Hcomm := proj2 Hac.

  Lemma omerge_assoc x y z : omerge op x (omerge op y z) = omerge op (omerge op x y) z.
  Proof. destruct x, y, z; simpl; auto. rewrite Hassoc. auto. Qed.
  Lemma omerge_comm x y : omerge op x y = omerge op y x.
  Proof. destruct x, y; simpl; auto. rewrite Hcomm. auto. Qed.
  Lemma omerge_none x : omerge op x None = x.
  Proof. destruct x; auto. Qed.

  Lemma fold_left_op l : forall a b, fold_left op l (op a b) = op a (fold_left op l b).
  Proof. induction l as [|c l IH]; intros a b; cbn [fold_left]; auto. rewrite <- Hassoc. apply IH. Qed.
  Lemma fold1_cons a l : fold1 op (a :: l) = omerge op (Some a) (fold1 op l).
  Proof. destruct l as [|b l]; cbn [fold1 fold_left omerge]; auto. rewrite fold_left_op. auto. Qed.
  Lemma fold1_app l m : fold1 op (l ++ m) = omerge op (fold1 op l) (fold1 op m).
  Proof.
    induction l as [|a l IH]; auto. cbn [app]. rewrite !fold1_cons, IH, omerge_assoc. auto.
  Qed.
  Lemma fold1_perm l m : Permutation l m -> fold1 op l = fold1 op m.
  Proof.
    induction 1; auto.
    - rewrite !fold1_cons. congruence.
    - rewrite !fold1_cons, !omerge_assoc, (omerge_comm (Some y)). auto.
    - congruence.
  Qed.
  Lemma fold1_map2 l : forall m, length l = length m ->
    fold1 op (map2 op l m) = omerge op (fold1 op l) (fold1 op m).
  Proof.
    induction l as [|a l IH]; intros [|b m] H; try discriminate; auto.
    cbn [map2]. rewrite !fold1_cons, IH by (simpl in H; lia).
    change (Some (op a b)) with (omerge op (Some a) (Some b)).
    rewrite <- !omerge_assoc. f_equal. rewrite !omerge_assoc. f_equal. apply omerge_comm.
  Qed.
  Lemma fold1_neutral e l k : neutral op e -> l <> [] -> fold1 op (l ++ repeat e k) = fold1 op l.
  Proof.
    intros He Hl. induction k as [|k IH]; [rewrite app_nil_r; auto|].
    cbn [repeat]. rewrite (fold1_perm _ (e :: l ++ repeat e k)).
    - rewrite fold1_cons, IH. destruct l as [|a l]; [congruence|].
      cbn [fold1]. cbn [omerge]. rewrite Hcomm, He. auto.
    - symmetry. apply Permutation_middle.
  Qed.

  (* evaluation trees over the elements of a list *)
  Inductive tr := Lf (i : nat) | Nd (a b : tr).
  Fixpoint teval (d : A) (l : list A) (t : tr) : A :=
    match t with Lf i => nth i l d | Nd a b => op (teval d l a) (teval d l b) end.
  Fixpoint tflat (t : tr) : list nat := match t with Lf i => [i] | Nd a b => tflat a ++ tflat b end.
  Definition tcheck (n : nat) (t : tr) : bool :=
    (length (tflat t) <=? n) && forallb (fun i => existsb (Nat.eqb i) (tflat t)) (seq 0 n).
  Lemma map_nth_seq d (l : list A) : map (fun i => nth i l d) (seq 0 (length l)) = l.
  Proof.
    induction l as [|a l IH]; auto. cbn [length seq map]. rewrite <- seq_shift, map_map. cbn [nth].
    f_equal. exact IH.
  Qed.
  Lemma teval_fold d l t : Some (teval d l t) = fold1 op (map (fun i => nth i l d) (tflat t)).
  Proof.
    induction t as [i|a IHa b IHb]; auto. cbn [tflat teval]. rewrite map_app, fold1_app, <- IHa, <- IHb. auto.
  Qed.
  Lemma tree_fold d l t : tcheck (length l) t = true -> Some (teval d l t) = fold1 op l.
  Proof.
    intros H. unfold tcheck in H. apply andb_true_iff in H as [H1 H2]. apply Nat.leb_le in H1.
    rewrite forallb_forall in H2. rewrite teval_fold.
    transitivity (fold1 op (map (fun i => nth i l d) (seq 0 (length l)))); [|rewrite map_nth_seq; auto].
    apply fold1_perm, Permutation_map, Permutation_sym.
    apply NoDup_Permutation_bis.
    - apply seq_NoDup.
    - rewrite seq_length. auto.
    - intros i Hi. apply H2 in Hi. apply existsb_exists in Hi as (j & Hj & E). apply Nat.eqb_eq in E. subst. auto.
  Qed.
End Fold.

(* ---------------- lane-wise operations ------------------------------- *)
Lemma list_ext {A} (l m : list A) : length l = length m ->
  (forall i d, i < length l -> nth i l d = nth i m d) -> l = m.
Proof.
  revert m. induction l as [|a l IH]; intros [|b m] Hl H; try discriminate; auto.
  f_equal; [apply (H 0 a); simpl; lia|]. apply IH; [simpl in Hl; lia|].
  intros i d Hi. apply (H (S i) d). simpl. lia.
Qed.

Section Reg.
  Context {A : Type} (op : A -> A -> A) (Hac : assoc_comm op).
  Context (F : nat -> list A -> list A -> list A) (HF : lanewise2 op F).

  Lemma F_full n a b : length a = n -> length b = n -> F n a b = map2 op a b.
  Proof.
    intros Ha Hb. destruct (HF n a b) as [Hl Hn]; [lia|lia|].
    apply list_ext; [rewrite map2_length; lia|]. intros i d Hi.
    rewrite Hn by lia. symmetry. apply map2_nth; lia.
  Qed.
  Lemma op_scalar_spec a b : op_scalar F a b = Some (op a b).
  Proof. unfold op_scalar. rewrite F_full by auto. auto. Qed.

  (* every 16-byte register with 4, 8 or 16 lanes *)
  Lemma reduce16_spec n x : n = 4 \/ n = 8 \/ n = 16 -> length x = n -> reduce16 F n x = fold1 op x.
  Proof.
    intros [ -> |[ -> | -> ]] Hx.
    - do 4 (destruct x as [|? x]; [discriminate|]). destruct x; [|discriminate].
      set (l := [a; a0; a1; a2]). unfold reduce16. cbn. 
      rewrite (F_full 4) by reflexivity. cbn. rewrite F_full by reflexivity. cbn [map2 hd_error].
      exact (tree_fold op Hac a l (Nd (Nd (Lf 0) (Lf 3)) (Nd (Lf 2) (Lf 1))) eq_refl).
    - do 8 (destruct x as [|? x]; [discriminate|]). destruct x; [|discriminate].
      set (l := [a; a0; a1; a2; a3; a4; a5; a6]). unfold reduce16. cbn.
      do 3 (rewrite (F_full 8) by reflexivity; cbn).
      exact (tree_fold op Hac a l
        (Nd (Nd (Nd (Lf 0) (Lf 4)) (Nd (Lf 3) (Lf 7))) (Nd (Nd (Lf 2) (Lf 6)) (Nd (Lf 1) (Lf 5)))) eq_refl).
    - do 16 (destruct x as [|? x]; [discriminate|]). destruct x; [|discriminate].
      set (l := [a; a0; a1; a2; a3; a4; a5; a6; a7; a8; a9; a10; a11; a12; a13; a14]).
      unfold reduce16. cbn.
      do 4 (rewrite (F_full 16) by reflexivity; cbn).
      exact (tree_fold op Hac a l
        (Nd (Nd (Nd (Nd (Lf 0) (Lf 8)) (Nd (Lf 4) (Lf 12))) (Nd (Nd (Lf 3) (Lf 11)) (Nd (Lf 7) (Lf 15))))
            (Nd (Nd (Nd (Lf 2) (Lf 10)) (Nd (Lf 6) (Lf 14))) (Nd (Nd (Lf 1) (Lf 9)) (Nd (Lf 5) (Lf 13))))) eq_refl).
  Qed.

  Lemma reduce_neon_spec n x r : length x = n -> reduce_neon F n x = Some r -> r = fold1 op x.
  Proof.
    intros Hx. unfold reduce_neon.
    destruct (n =? 8) eqn:E8; [|destruct (n =? 4) eqn:E4; [|destruct (n =? 2) eqn:E2; [|discriminate]]].
    - apply Nat.eqb_eq in E8. subst n. rewrite E8.
      do 8 (destruct x as [|? x]; [discriminate|]). destruct x; [|discriminate].
      set (l := [a; a0; a1; a2; a3; a4; a5; a6]). unfold step1. cbn.
      do 3 (rewrite (F_full 8) by reflexivity; cbn).
      intros H. injection H as <-.
      exact (tree_fold op Hac a l
        (Nd (Nd (Nd (Lf 0) (Lf 1)) (Nd (Lf 3) (Lf 2))) (Nd (Nd (Lf 7) (Lf 6)) (Nd (Lf 4) (Lf 5)))) eq_refl).
    - apply Nat.eqb_eq in E4. subst n. rewrite E4.
      do 4 (destruct x as [|? x]; [discriminate|]). destruct x; [|discriminate].
      set (l := [a; a0; a1; a2]). unfold step1. cbn.
      do 2 (rewrite (F_full 4) by reflexivity; cbn).
      intros H. injection H as <-.
      exact (tree_fold op Hac a l (Nd (Nd (Lf 0) (Lf 1)) (Nd (Lf 3) (Lf 2))) eq_refl).
    - apply Nat.eqb_eq in E2. subst n. rewrite E2.
      do 2 (destruct x as [|? x]; [discriminate|]). destruct x; [|discriminate].
      set (l := [a; a0]). unfold step1. cbn.
      rewrite (F_full 2) by reflexivity; cbn.
      intros H. injection H as <-. reflexivity.
  Qed.
End Reg.

(* ---------------- permute -------------------------------------------- *)
Lemma permute_upper {A} (zero : A) h k x : h + h <= length x ->
  permute zero (map (fun i => Some (h + i)) (seq 0 h) ++ repeat None k) x
  = Some (firstn h (skipn h x) ++ repeat zero k).
Proof.
  intros Hx. unfold permute.
  set (g := fun o => match o with Some i => nth_error x i | None => Some zero end).
  assert (Happ : forall a b, omapm g (a ++ b) = match omapm g a, omapm g b with
     Some u, Some v => Some (u ++ v) | _, _ => None end).
  { clear. induction a as [|o a IH]; intros b; cbn [app omapm]; [destruct (omapm g b); auto|].
    rewrite IH. destruct (g o), (omapm g a), (omapm g b); auto. }
  rewrite Happ.
  assert (H1 : omapm g (repeat None k) = Some (repeat zero k)).
  { clear. induction k; auto. cbn [repeat omapm]. rewrite IHk. auto. }
  rewrite H1.
  assert (H2 : forall m s, s + m <= h -> omapm g (map (fun i => Some (h + i)) (seq s m))
                 = Some (firstn m (skipn s (skipn h x)))).
  { induction m as [|m IH]; intros s Hs; auto. cbn [seq map omapm].
    rewrite IH by lia. cbn [g]. destruct (nth_error x (h + s)) as [a|] eqn:E.
    - f_equal. replace (skipn s (skipn h x)) with (a :: skipn (S s) (skipn h x)); auto.
      rewrite <- !skipn_add. replace (h + S s) with (S (h + s)) by lia.
      clear - E. revert x E. induction (h + s) as [|j IH]; intros [|b x] E; try discriminate; simpl in *.
      + congruence.
      + apply IH. auto.
    - apply nth_error_None in E. lia. }
  rewrite (H2 h 0) by lia. auto.
Qed.

(* ---------------- one register ---------------------------------------- *)
(* what the proof needs to know about register sizes *)
Record full_ok (neon : bool) (full : nat -> nat) (es : nat) : Prop := {
  fo_ge : forall n, n <= full n;
  fo_mono : forall n m, n <= m -> full n <= full m;
  fo_idem : forall n, 2 <= n -> full (full n) = full n;
  fo_half : forall n, 3 <= n -> full n = n -> n * es <> 16 -> exists h, n = 2 * h /\ 2 <= h /\ full h = h;
  fo_16 : forall n, 3 <= n -> n * es = 16 -> n = 4 \/ n = 8 \/ n = 16;
  fo_neon : neon = true -> forall n, (n = 2 \/ n = 4 \/ n = 8) -> full n = n;
}.

Section RegReduce.
  Context {A : Type} (op : A -> A -> A) (Hac : assoc_comm op).
  Context (F : nat -> list A -> list A -> list A) (HF : lanewise2 op F).
  Context (neon : bool) (full : nat -> nat) (es : nat) (Hfull : full_ok neon full es).
  Context (o : reduce_op A) (Ho : op_ok op o) (zero : A).

  Lemma halves h x : length x = 2 * h ->
    fold1 op (F h (firstn h x) (skipn h x)) = fold1 op x.
  Proof.
    intros Hx. rewrite (F_full op F HF) by (rewrite ?firstn_length, ?skipn_length; lia).
    rewrite fold1_map2 by (auto; rewrite ?firstn_length, ?skipn_length; lia).
    rewrite <- fold1_app by auto. rewrite firstn_skipn. auto.
  Qed.

  (* the fuel that is enough *)
  Definition need (n : nat) : nat := if full n =? n then n else full n + n + 1.

  Lemma need_bound n : need n <= full n + n + 1.
  Proof. unfold need. pose proof (fo_ge _ _ _ Hfull n). destruct (full n =? n); lia. Qed.

  Lemma half_len h x : length x = 2 * h -> length (F h (firstn h x) (skipn h x)) = h.
  Proof.
    intros Hx. rewrite (F_full op F HF), map2_length; rewrite ?firstn_length, ?skipn_length; lia.
  Qed.

  Lemma reg_reduce_spec : forall fuel n x, 1 <= n -> need n <= fuel ->
    (n = 1 /\ 1 <= length x \/ 2 <= n /\ length x = full n) ->
    reg_reduce neon full es zero F o fuel n x = fold1 op (firstn n x).
  Proof.
    induction fuel as [|fuel IH]; intros n x Hn Hf Hx.
    { exfalso. unfold need in Hf. destruct (full n =? n); lia. }
    cbn [reg_reduce]. cbv zeta.
    pose proof (fo_ge _ _ _ Hfull n) as Hge.
    set (builtin := if n =? 1 then _ else _).
    assert (HB : builtin = fold1 op (firstn n x)).
    { subst builtin.
      destruct (n =? 1) eqn:E1.
      { apply Nat.eqb_eq in E1. subst n. destruct x; [simpl in Hx; lia|]. auto. }
      apply Nat.eqb_neq in E1. destruct Hx as [[? _]|[_ Hx]]; [lia|].
      destruct (n =? 2) eqn:E2.
      { apply Nat.eqb_eq in E2. subst n. destruct x as [|a [|b x]]; [simpl in Hx; lia|simpl in Hx; lia|].
        rewrite (op_scalar_spec op F HF). auto. }
      apply Nat.eqb_neq in E2.
      destruct (full n =? n) eqn:Ep.
      - (* full register *)
        apply Nat.eqb_eq in Ep. cbn [negb].
        rewrite (firstn_all2 (n := n) x) by lia.
        destruct (n * es =? 16) eqn:E16.
        { apply Nat.eqb_eq in E16. apply (reduce16_spec op Hac F HF); [|lia].
          apply (fo_16 _ _ _ Hfull); lia. }
        apply Nat.eqb_neq in E16.
        destruct (fo_half _ _ _ Hfull n) as (h & -> & Hh & Hfh); [lia|auto|auto|].
        replace (2 * h) with (h * 2) by lia. rewrite Nat.mod_mul, Nat.div_mul by lia. cbn [Nat.eqb].
        rewrite IH.
        + rewrite firstn_all2 by (rewrite half_len; lia). apply halves. lia.
        + lia.
        + unfold need in *. rewrite Hfh, Nat.eqb_refl. rewrite Ep, Nat.eqb_refl in Hf. lia.
        + right. split; [lia|]. rewrite half_len by lia. lia.
      - (* partial register *)
        apply Nat.eqb_neq in Ep. cbn [negb].
        destruct (n =? 3) eqn:E3.
        { apply Nat.eqb_eq in E3. subst n. destruct x as [|a [|b [|c x]]]; try (simpl in Hx; lia).
          rewrite !(op_scalar_spec op F HF). auto. }
        apply Nat.eqb_neq in E3.
        assert (Hne : firstn n x <> []).
        { intros E. apply (f_equal (@length A)) in E. rewrite firstn_length in E. simpl in E. lia. }
        assert (Hpad : forall e, neutral op e ->
          reg_reduce neon full es zero F o fuel (full n) (firstn n x ++ repeat e (full n - n))
          = fold1 op (firstn n x)).
        { intros e He. assert (Hl : length (firstn n x ++ repeat e (full n - n)) = full n)
            by (rewrite app_length, repeat_length, firstn_length; lia).
          rewrite IH.
          - rewrite firstn_all2 by lia. apply fold1_neutral; auto.
          - lia.
          - unfold need in *. rewrite (fo_idem _ _ _ Hfull), Nat.eqb_refl by lia.
            destruct (Nat.eqb_spec (full n) n); lia.
          - right. rewrite (fo_idem _ _ _ Hfull); lia. }
        destruct o as [z|e|]; [apply Hpad; auto|apply Hpad; auto|].
        assert (Hbig : full n + n + 1 <= S fuel).
        { unfold need in Hf. destruct (Nat.eqb_spec (full n) n); lia. }
        destruct (n mod 2 =? 1) eqn:Eo.
        + pose proof (fo_mono _ _ _ Hfull (n - 1) n ltac:(lia)) as Hm.
          pose proof (need_bound (n - 1)) as Hnb.
          rewrite IH; [|lia|lia|right; split; [lia|rewrite firstn_length; lia]].
          rewrite firstn_firstn, Nat.min_l by (apply (fo_ge _ _ _ Hfull)).
          replace (firstn n x) with (firstn (n - 1 + 1) x) by (f_equal; lia).
          rewrite firstn_add, fold1_app by auto.
          destruct (nth_error x (n - 1)) as [l|] eqn:El; [|apply nth_error_None in El; lia].
          replace (firstn 1 (skipn (n - 1) x)) with [l].
          2: { clear - El. revert x El. induction (n - 1) as [|j IHj]; intros [|b x] E; try discriminate; simpl in *.
               - injection E as ->. auto.
               - apply IHj. auto. }
          destruct (fold1 op (firstn (n - 1) x)) as [r|] eqn:Er.
          * cbn [fold1 fold_left omerge]. apply (op_scalar_spec op F HF).
          * exfalso. destruct (firstn (n - 1) x) eqn:E; [|discriminate].
            apply (f_equal (@length A)) in E. rewrite firstn_length in E. simpl in E. lia.
        + apply Nat.eqb_neq in Eo. pose proof (Nat.mod_upper_bound n 2 ltac:(lia)) as Hm2.
          pose proof (Nat.div_mod n 2 ltac:(lia)) as Hdm.
          set (h := n / 2) in *. assert (Hnh : n = 2 * h) by lia. clearbody h.
          pose proof (fo_mono _ _ _ Hfull h n ltac:(lia)) as Hm.
          pose proof (fo_ge _ _ _ Hfull h) as Hgh.
          destruct (Nat.ltb_spec (full n) (full h)); [lia|].
          rewrite permute_upper by lia.
          set (lo := firstn (full h) x).
          set (hi := firstn (full h) (firstn h (skipn h x) ++ repeat zero (full n - h))).
          assert (Hlo : length lo = full h) by (unfold lo; rewrite firstn_length; lia).
          assert (Hhi : length hi = full h).
          { unfold hi. rewrite firstn_length, app_length, repeat_length, firstn_length, skipn_length. lia. }
          rewrite IH.
          * rewrite (F_full op F HF) by auto. rewrite firstn_map2.
            unfold lo, hi. rewrite !firstn_firstn, !(Nat.min_l h (full h)) by lia.
            rewrite firstn_app. rewrite firstn_length, skipn_length, Nat.min_l by lia.
            rewrite Nat.sub_diag. cbn [firstn]. rewrite app_nil_r, firstn_firstn, Nat.min_id.
            rewrite fold1_map2; auto; [|rewrite !firstn_length, skipn_length; lia].
            rewrite <- fold1_app by auto.
            rewrite <- firstn_add. f_equal. f_equal. lia.
          * lia.
          * pose proof (need_bound h). lia.
          * right. split; [lia|]. rewrite (F_full op F HF) by auto. rewrite map2_length. lia. }
    destruct (neon && (1 <? n)) eqn:En; [|exact HB].
    apply andb_true_iff in En as [En E1]. apply Nat.ltb_lt in E1.
    destruct Hx as [[? _]|[_ Hx]]; [lia|].
    destruct ((n * es =? 16) && (4 <=? n) && negb (negb (full n =? n))) eqn:E16.
    - apply andb_true_iff in E16 as [E16 Ep]. apply andb_true_iff in E16 as [E16 E4].
      apply Nat.eqb_eq in E16. apply Nat.leb_le in E4. rewrite negb_involutive in Ep. apply Nat.eqb_eq in Ep.
      assert (Hcase : exists h, n = h * 2 /\ (h = 2 \/ h = 4 \/ h = 8)).
      { destruct (fo_16 _ _ _ Hfull n) as [ -> |[ -> | -> ]]; [lia|auto|exists 2|exists 4|exists 8]; lia. }
      destruct Hcase as (h & -> & Hh). rewrite Nat.div_mul by lia.
      pose proof (fo_neon _ _ _ Hfull En h Hh) as Hfh.
      rewrite IH.
      + rewrite firstn_all2 by (rewrite half_len; lia). rewrite halves by lia.
        rewrite firstn_all2 by lia. auto.
      + lia.
      + unfold need in *. rewrite Hfh, Nat.eqb_refl. rewrite Ep, Nat.eqb_refl in Hf. lia.
      + right. split; [lia|]. rewrite half_len; lia.
    - destruct (reduce_neon F n x) as [r|] eqn:Er; [|exact HB].
      assert (Hlen : length x = n).
      { rewrite Hx. apply (fo_neon _ _ _ Hfull En). unfold reduce_neon in Er.
        destruct (Nat.eqb_spec n 8); [auto|]. destruct (Nat.eqb_spec n 4); [auto|].
        destruct (Nat.eqb_spec n 2); [auto|discriminate]. }
      rewrite firstn_all2 by lia. apply (reduce_neon_spec op Hac F HF n); auto.
  Qed.
End RegReduce.

(* ---------------- register sizes -------------------------------------- *)
Lemma bit_ceil_mono a b : a <= b -> bit_ceil a <= bit_ceil b.
Proof. intros H. unfold bit_ceil. apply Nat.pow_le_mono_r; [lia|]. apply Nat.log2_up_le_mono. auto. Qed.
Lemma bit_ceil_pow2' k : bit_ceil (2 ^ k) = 2 ^ k.
Proof. unfold bit_ceil. rewrite Nat.log2_up_pow2 by lia. auto. Qed.

Lemma vb_facts I t e n : esize t = 2 ^ e ->
  exists k, vector_type_bytes I t n = 2 ^ k /\ e + 1 <= k /\ n * esize t <= 2 ^ k.
Proof.
  intros He. unfold vector_type_bytes. rewrite He.
  assert (Hge : n * 2 ^ e <= bit_ceil (n * 2 ^ e)).
  { destruct n; [simpl; lia|]. apply bit_ceil_ge. pose proof (Nat.pow_nonzero 2 e). nia. }
  destruct (def_i386 I && (bit_ceil (n * 2 ^ e) =? 8)) eqn:E.
  - apply andb_true_iff in E as [E1 E2]. apply Nat.eqb_eq in E2. rewrite E2 in Hge.
    destruct (Nat.le_gt_cases (e + 1) 4) as [H|H].
    + exists 4. change (2 ^ 4) with 16. repeat split; lia.
    + exfalso. assert (H2 : 2 ^ 4 <= 2 ^ e) by (apply Nat.pow_le_mono_r; lia).
      change (2 ^ 4) with 16 in H2. destruct n; [cbn in E2; lia|nia].
  - destruct (bit_ceil (n * 2 ^ e) <? 2 * 2 ^ e) eqn:E3.
    + apply Nat.ltb_lt in E3. exists (e + 1). rewrite Nat.pow_add_r. change (2 ^ 1) with 2.
      repeat split; lia.
    + apply Nat.ltb_ge in E3. exists (Nat.log2_up (n * 2 ^ e)).
      change (2 ^ Nat.log2_up (n * 2 ^ e)) with (bit_ceil (n * 2 ^ e)). repeat split; auto.
      apply Nat.pow_le_mono_r_iff with (a := 2); [lia|].
        change (2 ^ Nat.log2_up (n * 2 ^ e)) with (bit_ceil (n * 2 ^ e)).
        rewrite Nat.pow_add_r. change (2 ^ 1) with 2. lia.
Qed.

Lemma vb_mono I t n m : n <= m -> vector_type_bytes I t n <= vector_type_bytes I t m.
Proof.
  intros H. unfold vector_type_bytes.
  pose proof (bit_ceil_mono (n * esize t) (m * esize t) ltac:(nia)) as Hb.
  set (a := bit_ceil (n * esize t)) in *. set (b := bit_ceil (m * esize t)) in *.
  assert (Ha : a = 8 \/ a < 8 \/ 16 <= a).
  { subst a. unfold bit_ceil. destruct (Nat.le_gt_cases (Nat.log2_up (n * esize t)) 3) as [Hl|Hl].
    - destruct (Nat.eq_dec (Nat.log2_up (n * esize t)) 3) as [->|]; [left; auto|right; left].
      apply Nat.lt_le_trans with (2 ^ 3); [apply Nat.pow_lt_mono_r; lia|auto].
    - right. right. change 16 with (2 ^ 4). apply Nat.pow_le_mono_r; lia. }
  assert (Hb' : b = 8 \/ b < 8 \/ 16 <= b).
  { subst b. unfold bit_ceil. destruct (Nat.le_gt_cases (Nat.log2_up (m * esize t)) 3) as [Hl|Hl].
    - destruct (Nat.eq_dec (Nat.log2_up (m * esize t)) 3) as [->|]; [left; auto|right; left].
      apply Nat.lt_le_trans with (2 ^ 3); [apply Nat.pow_lt_mono_r; lia|auto].
    - right. right. change 16 with (2 ^ 4). apply Nat.pow_le_mono_r; lia. }
  assert (Hes : b = 8 -> esize t <= 8).
  { intros E. destruct m; [exfalso; subst b; unfold bit_ceil in E; cbn in E; lia|]. pose proof (bit_ceil_ge (S m * esize t)). subst b. 
    destruct (esize t); [lia|]. rewrite E in *. nia. }
  destruct (def_i386 I); cbn [andb]; destruct (Nat.eqb_spec a 8), (Nat.eqb_spec b 8);
    destruct (Nat.ltb_spec a (2 * esize t)), (Nat.ltb_spec b (2 * esize t)); try lia.
Qed.

Lemma vlanes_ok I t : esize t = 1 \/ esize t = 2 \/ esize t = 4 \/ esize t = 8 ->
  (have_neon I = true -> def_i386 I = false) ->
  full_ok (have_neon I) (vlanes I t) (esize t).
Proof.
  intros Hes Hneon.
  assert (He : exists e, esize t = 2 ^ e) by (destruct Hes as [-> |[-> |[-> | ->]]]; [exists 0|exists 1|exists 2|exists 3]; auto).
  destruct He as [e He].
  assert (Hpos : 2 ^ e <> 0) by (apply Nat.pow_nonzero; lia).
  assert (Hv : forall n k, vector_type_bytes I t n = 2 ^ k -> e <= k -> vlanes I t n = 2 ^ (k - e)).
  { intros n k Hk Hke. unfold vlanes. rewrite Hk, He. replace k with (k - e + e) at 1 by lia.
    rewrite Nat.pow_add_r, Nat.div_mul by auto. auto. }
  assert (Hsame : forall j, 1 <= j -> negb (def_i386 I && (2 ^ (j + e) =? 8)) = true -> vlanes I t (2 ^ j) = 2 ^ j).
  { intros j Hj Hi. unfold vlanes, vector_type_bytes. rewrite He, <- Nat.pow_add_r, bit_ceil_pow2'.
    apply negb_true_iff in Hi. rewrite Hi.
    assert (2 * 2 ^ e <= 2 ^ (j + e)).
    { change 2 with (2 ^ 1) at 1. rewrite <- Nat.pow_add_r. apply Nat.pow_le_mono_r; lia. }
    destruct (Nat.ltb_spec (2 ^ (j + e)) (2 * 2 ^ e)); [lia|].
    rewrite Nat.pow_add_r, Nat.div_mul by auto. auto. }
  constructor.
  - intros n. destruct (vb_facts I t e n He) as (k & Hk & Hke & Hn).
    rewrite (Hv n k Hk) by lia. rewrite He in Hn. replace k with (k - e + e) in Hn by lia.
    rewrite Nat.pow_add_r in Hn. apply Nat.mul_le_mono_pos_r in Hn; lia.
  - intros n m H. unfold vlanes. apply Nat.div_le_mono; [rewrite He; auto|]. apply vb_mono. auto.
  - intros n Hn2. destruct (vb_facts I t e n He) as (k & Hk & Hke & Hn).
    rewrite (Hv n k Hk) by lia. apply Hsame; [lia|].
    replace (k - e + e) with k by lia. apply negb_true_iff.
    destruct (def_i386 I) eqn:Ei; auto. cbn [andb]. apply Nat.eqb_neq. intros E8.
    rewrite E8 in Hk. unfold vector_type_bytes in Hk. rewrite Ei in Hk. cbn [andb] in Hk.
    destruct (Nat.eqb_spec (bit_ceil (n * esize t)) 8); [lia|].
    destruct (Nat.ltb_spec (bit_ceil (n * esize t)) (2 * esize t)); [|lia].
    assert (n * esize t <= bit_ceil (n * esize t)) by (apply bit_ceil_ge; destruct Hes as [-> |[-> |[-> | ->]]]; lia).
    nia.
  - intros n Hn Hf H16. destruct (vb_facts I t e n He) as (k & Hk & Hke & Hnk).
    rewrite (Hv n k Hk) in Hf by lia.
    assert (Hj : 2 <= k - e).
    { destruct (Nat.le_gt_cases 2 (k - e)); auto. exfalso.
      assert (2 ^ (k - e) <= 2 ^ 1) by (apply Nat.pow_le_mono_r; lia). change (2 ^ 1) with 2 in *. lia. }
    exists (2 ^ (k - e - 1)). replace (k - e) with (S (k - e - 1)) in Hf by lia.
    rewrite Nat.pow_succ_r' in Hf. split; [lia|]. split.
    + change 2 with (2 ^ 1) at 1. apply Nat.pow_le_mono_r; lia.
    + apply Hsame; [lia|]. apply negb_true_iff.
      destruct (def_i386 I) eqn:Ei; auto. cbn [andb]. apply Nat.eqb_neq. intros E8. apply H16.
      rewrite <- Hf, He, <- Nat.mul_assoc, <- Nat.pow_add_r, E8. auto.
  - intros n Hn H16. destruct Hes as [E|[E|[E|E]]]; rewrite E in H16; lia.
  - intros Hne n Hn. pose proof (Hneon Hne) as Hi.
    assert (Hj : exists j, 1 <= j /\ n = 2 ^ j) by (destruct Hn as [-> |[-> | ->]]; [exists 1|exists 2|exists 3]; auto).
    destruct Hj as (j & Hj & ->). apply Hsame; auto. rewrite Hi. auto.
Qed.

(* ---------------- one simd with one register -------------------------- *)
Lemma arch_neon I : arch_ok I -> have_neon I = true -> def_i386 I = false.
Proof.
  intros (_ & _ & _ & _ & _ & H & _) Hn. destruct (def_i386 I) eqn:E; auto. exfalso. apply H. auto.
Qed.

Lemma simd_reduce_spec {A} I t op F o n zero (x : list A) : arch_ok I -> assoc_comm op -> lanewise2 op F -> op_ok op o ->
  (n = 1 /\ 1 <= length x \/
   2 <= n /\ (esize t = 1 \/ esize t = 2 \/ esize t = 4 \/ esize t = 8) /\ length x = vlanes I t n) ->
  simd_reduce I t zero F o n x = fold1 op (firstn n x).
Proof.
  intros HI Hac HF Ho H. unfold simd_reduce. destruct H as [[ -> Hx]|(Hn & Hes & Hx)].
  - rewrite Nat.add_1_r. cbn [reg_reduce]. cbv zeta. rewrite andb_false_r. cbn [Nat.eqb].
    destruct x; [simpl in Hx; lia|]. auto.
  - pose proof (vlanes_ok I t Hes (arch_neon I HI)) as Hok.
    apply (reg_reduce_spec op Hac F HF _ _ _ Hok o Ho); [lia| |right; auto].
    apply need_bound with (neon := have_neon I) (es := esize t). auto.
Qed.
