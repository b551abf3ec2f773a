(* From lanes to registers: comparisons and classification. *)
From Coq Require Import ZArith List Bool Lia Arith.
From Verif Require Import Prelude X86Lanes Fixed MemProofs FloatSpec FloatBits FloatProofs.
Import ListNotations.
Open Scope Z_scope.

(* x86 registers have 16, 32 (AVX) or 64 bytes (bit masks only) *)
Definition target_ok (t : ftarget) : Prop :=
  (t_bytes t = 16 \/ t_bytes t = 32 \/ t_bytes t = 64) /\
  (t_bytes t = 32 -> t_avx t = true) /\ (t_bytes t = 64 -> t_a512 t = true) /\ (t_a512 t = true -> t_avx t = true).
(* a register of bit patterns that has at least n lanes *)
Definition fregister (f : fmt) (n : nat) (x : list Z) : Prop := Forall (pattern f) x /\ (n <= length x)%nat.

Lemma freg_nth f n x i : fregister f n x -> (i < n)%nat -> pattern f (nth i x 0).
Proof.
  intros [H L] Hi. rewrite Forall_forall in H. apply H. apply nth_In. lia.
Qed.

Lemma lanes_spec n masked g len : (n <= len)%nat -> (forall i, g i <> None) ->
  exists k, lanes n masked g len = Some k /\ length k = len /\
    forall i, (i < n)%nat -> Some (nth i k false) = g i.
Proof.
  intros Hn Hg. unfold lanes.
  destruct (omapm_spec (fun i => if masked && negb (Nat.ltb i n) then Some false else g i) (seq 0 len)) as (k & E & L & N).
  { intros a _. destruct (masked && negb (Nat.ltb a n)); [discriminate|apply Hg]. }
  exists k. rewrite seq_length in L. repeat split; auto. intros i Hi.
  specialize (N i i). rewrite nth_error_seq in N by lia. specialize (N eq_refl).
  assert (Nat.ltb i n = true) as B by (apply Nat.ltb_lt; lia). rewrite B, andb_false_r in N.
  rewrite <- N. symmetry. apply nth_error_nth'. lia.
Qed.

Ltac simple_lane H :=
  let k := fresh "k" in let E := fresh "E" in let L := fresh "L" in let N := fresh "N" in
  destruct H as (k & E & L & N); exists k; split; [exact E|]; split; [exact L|];
  let i := fresh "i" in let Hi := fresh "Hi" in intros i Hi; specialize (N i Hi).

Lemma ord_lane_total t r f x y : target_ok t -> ord_lane t r f x y <> None.
Proof.
  intros ([B|[B|B]] & A & K & KA). all: unfold ord_lane, x86_ord; rewrite B; simpl.
  all: destruct (t_x86 t); [|discriminate]; destruct (t_a512 t) eqn:Ea; [discriminate|].
  - destruct (t_avx t); [discriminate|]. destruct (fw f =? 32); [discriminate|]. destruct (fw f =? 64); discriminate.
  - rewrite A by auto. discriminate.
  - specialize (K B). congruence.
Qed.
Lemma islessgreater_total t f x y : target_ok t -> islessgreater_lane t f x y <> None.
Proof.
  intros ([B|[B|B]] & A & K & KA). all: unfold islessgreater_lane, x86_islessgreater; rewrite B; simpl.
  all: destruct (t_x86 t); [|discriminate]; destruct (t_a512 t) eqn:Ea; [discriminate|].
  - destruct (t_avx t); discriminate.
  - rewrite A by auto. discriminate.
  - specialize (K B). congruence.
Qed.

Lemma c32_ord f : fmt_ok f -> forall t r n x y, target_ok t -> fregister f n x -> fregister f n y ->
  exists k, ord_reg t r f n x y = Some k /\ length k = length x /\
    forall i, (i < n)%nat ->
      nth i k false =
        match r with
        | RGreater => greater (decode f (nth i x 0)) (decode f (nth i y 0))
        | RGreaterEqual => greater_equal (decode f (nth i x 0)) (decode f (nth i y 0))
        | RLess => less (decode f (nth i x 0)) (decode f (nth i y 0))
        | RLessEqual => less_equal (decode f (nth i x 0)) (decode f (nth i y 0))
        end.
Proof.
  intros Hf t r n x y Ht Hx Hy. unfold ord_reg.
  pose proof (lanes_spec n (t_a512 t) (fun i => ord_lane t r f (nth i x 0) (nth i y 0)) (length x) (proj2 Hx)
    (fun i => ord_lane_total t r f _ _ Ht)) as H.
  simple_lane H. symmetry in N.
  rewrite (ord_lane_ok f Hf t r _ _ _ (freg_nth _ _ _ _ Hx Hi) (freg_nth _ _ _ _ Hy Hi) N).
  unfold compare_lanes, greater, greater_equal, less, less_equal.
  destruct (ieee_compare (decode f (nth i x 0)) (decode f (nth i y 0))) as [[]|]; destruct r; auto.
Qed.

Lemma c32_islessgreater f : fmt_ok f -> forall t n x y, target_ok t -> fregister f n x -> fregister f n y ->
  exists k, islessgreater_reg t f n x y = Some k /\ length k = length x /\
    forall i, (i < n)%nat -> nth i k false = less_greater (decode f (nth i x 0)) (decode f (nth i y 0)).
Proof.
  intros Hf t n x y Ht Hx Hy. unfold islessgreater_reg.
  pose proof (lanes_spec n (t_a512 t) (fun i => islessgreater_lane t f (nth i x 0) (nth i y 0)) (length x) (proj2 Hx)
    (fun i => islessgreater_total t f _ _ Ht)) as H.
  simple_lane H. symmetry in N.
  apply (islessgreater_ok f Hf t _ _ _ (freg_nth _ _ _ _ Hx Hi) (freg_nth _ _ _ _ Hy Hi) N).
Qed.

Lemma c32_isunordered f : fmt_ok f -> forall t n x y, fregister f n x -> fregister f n y ->
  exists k, isunordered_reg t f n x y = Some k /\ length k = length x /\
    forall i, (i < n)%nat -> nth i k false = unordered (decode f (nth i x 0)) (decode f (nth i y 0)).
Proof.
  intros Hf t n x y Hx Hy. unfold isunordered_reg.
  pose proof (lanes_spec n (t_a512 t) (fun i => Some (isunordered_lane t f (nth i x 0) (nth i y 0))) (length x) (proj2 Hx)
    ltac:(discriminate)) as H.
  simple_lane H. injection N as ->.
  apply isunordered_ok; auto; eapply freg_nth; eauto.
Qed.

Lemma is_class_nan f d : is_class CNan (class_of f d) = is_nan f d.
Proof. unfold is_nan. destruct (class_of f d); auto. Qed.
Lemma is_class_inf f d : is_class CInfinite (class_of f d) = is_inf f d.
Proof. unfold is_inf. destruct (class_of f d); auto. Qed.
Lemma is_class_normal f d : is_class CNormal (class_of f d) = is_normal f d.
Proof. unfold is_normal. destruct (class_of f d); auto. Qed.

Lemma c33_isnan f : fmt_ok f -> forall t n x, fregister f n x ->
  exists k, isnan_reg t f n x = Some k /\ length k = length x /\
    forall i, (i < n)%nat -> nth i k false = is_nan f (decode f (nth i x 0)).
Proof.
  intros Hf t n x Hx. unfold isnan_reg.
  pose proof (lanes_spec n (t_a512 t) (fun i => Some (isnan_lane t f (nth i x 0))) (length x) (proj2 Hx) ltac:(discriminate)) as H.
  simple_lane H. injection N as ->. rewrite isnan_ok by (auto; eapply freg_nth; eauto). apply is_class_nan.
Qed.
Lemma c33_isinf f : fmt_ok f -> forall t n x, fregister f n x ->
  exists k, isinf_reg t f n x = Some k /\ length k = length x /\
    forall i, (i < n)%nat -> nth i k false = is_inf f (decode f (nth i x 0)).
Proof.
  intros Hf t n x Hx. unfold isinf_reg.
  pose proof (lanes_spec n (t_a512 t && negb (t_dq t)) (fun i => Some (isinf_lane t f (nth i x 0))) (length x) (proj2 Hx) ltac:(discriminate)) as H.
  simple_lane H. injection N as ->. rewrite isinf_ok by (auto; eapply freg_nth; eauto). apply is_class_inf.
Qed.
Lemma c33_isfinite f : fmt_ok f -> forall t n x, fregister f n x ->
  exists k, isfinite_reg t f n x = Some k /\ length k = length x /\
    forall i, (i < n)%nat -> nth i k false = is_finite f (decode f (nth i x 0)).
Proof.
  intros Hf t n x Hx. unfold isfinite_reg.
  pose proof (lanes_spec n (t_a512 t) (fun i => Some (isfinite_lane t f (nth i x 0))) (length x) (proj2 Hx) ltac:(discriminate)) as H.
  simple_lane H. injection N as ->. rewrite isfinite_ok; auto. eapply freg_nth; eauto.
Qed.
(* AVX512DQ without AVX512VL has no path for vector masks *)
Definition dq_ok (t : ftarget) : Prop := t_x86 t = true -> t_dq t = true -> t_a512 t = true \/ t_vl t = true.
Lemma isnormal_total t f x : target_ok t -> dq_ok t -> isnormal_lane t f x <> None.
Proof.
  intros ([B|[B|B]] & A & K & KA) D. all: unfold isnormal_lane; rewrite B; simpl.
  all: destruct (t_x86 t) eqn:X; [|discriminate]; destruct (t_a512 t) eqn:Ea, (t_dq t) eqn:Eq; simpl; try discriminate.
  all: destruct (D X Eq) as [V|V]; [congruence|rewrite V; discriminate].
Qed.
Lemma c33_isnormal f : fmt_ok f -> forall t n x, target_ok t -> dq_ok t -> fregister f n x ->
  exists k, isnormal_reg t f n x = Some k /\ length k = length x /\
    forall i, (i < n)%nat -> nth i k false = is_normal f (decode f (nth i x 0)).
Proof.
  intros Hf t n x Ht Hd Hx. unfold isnormal_reg.
  pose proof (lanes_spec n (t_a512 t) (fun i => isnormal_lane t f (nth i x 0)) (length x) (proj2 Hx)
    (fun i => isnormal_total t f _ Ht Hd)) as H.
  simple_lane H. symmetry in N. rewrite (isnormal_ok f Hf t _ _ (freg_nth _ _ _ _ Hx Hi) N). apply is_class_normal.
Qed.
Lemma c33_signbit f : fmt_ok f -> forall t n x, fregister f n x ->
  exists k, signbit_reg t f n x = Some k /\ length k = length x /\
    forall i, (i < n)%nat -> nth i k false = sign_of f (nth i x 0).
Proof.
  intros Hf t n x Hx. unfold signbit_reg.
  pose proof (lanes_spec n (t_a512 t && negb (t_dq t) && (t_bytes t =? 64)) (fun i => Some (signbit_lane t f (nth i x 0))) (length x) (proj2 Hx) ltac:(discriminate)) as H.
  simple_lane H. injection N as ->. apply signbit_ok; auto. eapply freg_nth; eauto.
Qed.

(* fpclassify *)
Lemma fp_macro_range c : 0 <= fp_macro c < 2 ^ 15.
Proof. destruct c; simpl; lia. Qed.

Lemma map_id_in {A} (g : A -> A) l : (forall a, In a l -> g a = a) -> map g l = l.
Proof. induction l; simpl; intros H; auto. rewrite H, IHl; auto. Qed.
Definition small (l : list Z) : Prop := forall a, In a l -> 0 <= a < 2 ^ 15.
Lemma pack_pair l : small l -> join 16 (map sat16 (cut 32 l)) = l.
Proof.
  unfold small. induction l as [|a l IH]; intros H; auto. cbn [cut map join]. f_equal.
  - assert (0 <= a < 2 ^ 15) by (apply H; left; auto).
    rewrite (Z.mod_small a (2 ^ 32)), (Z.div_small a (2 ^ 32)) by lia.
    unfold sat16, uns, sgn. change (2 ^ (32 - 1)) with 2147483648.
    assert (E : (a <? 2147483648) = true) by (apply Z.ltb_lt; lia). rewrite E.
    change (0 <? 2147483648) with true. cbv iota.
    rewrite !Z.min_r, !Z.max_r by lia. rewrite (Z.mod_small a), (Z.mod_small 0) by lia. lia.
  - apply IH. intros b Hb. apply H. right; auto.
Qed.
Lemma fold_half (x : list Z) : firstn (Nat.div2 (length x)) x ++ skipn (Nat.div2 (length x)) x = x.
Proof. apply firstn_skipn. Qed.
Lemma cut_app w a b : cut w (a ++ b) = cut w a ++ cut w b.
Proof. induction a; simpl; auto. rewrite IHa; auto. Qed.

(* what the library's choice of the storage guarantees: the registers of
   fixed_size<n> int hold n elements; a scalar in second place is the last one *)
Definition int_storage_ok (f : fmt) (n lanes k : nat) (scalar_tail : bool) : Prop :=
  (n <= lanes)%nat /\
  (k = 1 \/ k = 2)%nat /\
  (fw f = 32 \/ (fw f = 64 /\ (k = 2 -> n = 2 /\ lanes = 2)%nat)) /\
  (k = 2%nat -> scalar_tail = true -> fw f = 32 -> n = S (Nat.div2 lanes)).

Lemma store_ok o n tmp : small tmp -> (n <= length tmp)%nat ->
  (o = FScalarTail -> n = S (Nat.div2 (length tmp))) -> (o = FTwoScalars -> n = 2%nat /\ length tmp = 2%nat) ->
  forall i, (i < n)%nat -> nth i (concat (fpc_store o n tmp)) 0 = nth i tmp 0.
Proof.
  intros Hs Hn Ht H2 i Hi.
  assert (Hmod : forall a, In a tmp -> a mod 2 ^ 32 = a) by (intros a Ha; specialize (Hs a Ha); apply Z.mod_small; lia).
  destruct o; unfold fpc_store; cbn [concat]; rewrite ?app_nil_r; auto.
  - specialize (Ht eq_refl). rewrite Ht in *. replace (S (Nat.div2 (length tmp)) - 1)%nat with (Nat.div2 (length tmp)) by lia.
    destruct (Nat.eq_dec i (Nat.div2 (length tmp))) as [->|N].
    + rewrite app_nth2 by (rewrite firstn_length; lia). rewrite firstn_length, Nat.min_l by lia.
      rewrite Nat.sub_diag. auto.
    + rewrite app_nth1 by (rewrite firstn_length; lia). apply nth_firstn_lt; lia.
  - rewrite fold_half. auto.
  - destruct (H2 eq_refl) as [-> _]. destruct i as [|[|i]]; auto. lia.
  - rewrite <- cut_app, fold_half, pack_pair; auto.
  - rewrite map_id_in; auto.
  - rewrite nth_map_seq by lia. apply Hmod. apply nth_In. lia.
Qed.

Lemma c33_fpclassify f : fmt_ok f -> forall x86 n k tail x, fregister f n x -> int_storage_ok f n (length x) k tail ->
  exists ys, fpclassify_reg x86 f n k tail x = Some ys /\
    forall i, (i < n)%nat -> nth i (concat ys) 0 = fp_macro (class_of f (decode f (nth i x 0))).
Proof.
  intros Hf x86 n k tail x Hx (_ & Hk & Hw & Ht). unfold fpclassify_reg, fpc_way.
  assert (Em : map (fpclassify_tmp f) x = map (fun v => fp_macro (class_of f (decode f v))) x).
  { apply map_ext_in. intros a Ha. apply fpclassify_tmp_ok; auto. destruct Hx as [Hx _]. rewrite Forall_forall in Hx; auto. }
  assert (Hs : small (map (fpclassify_tmp f) x)).
  { rewrite Em. intros a Ha. apply in_map_iff in Ha as (b & <- & _). apply fp_macro_range. }
  assert (Hl : length (map (fpclassify_tmp f) x) = length x) by apply map_length.
  assert (Hnth : forall i, (i < n)%nat -> nth i (map (fpclassify_tmp f) x) 0 = fp_macro (class_of f (decode f (nth i x 0)))).
  { intros i Hi. rewrite Em. rewrite nth_indep with (d' := fp_macro (class_of f (decode f 0))).
    apply (map_nth (fun v => fp_macro (class_of f (decode f v)))). rewrite map_length. destruct Hx; lia. }
  assert (K : forall o, (o = FScalarTail -> n = S (Nat.div2 (length x))) -> (o = FTwoScalars -> n = 2%nat /\ length x = 2%nat) ->
    exists ys, option_map (fun o0 => fpc_store o0 n (map (fpclassify_tmp f) x)) (Some o) = Some ys /\
      forall i, (i < n)%nat -> nth i (concat ys) 0 = fp_macro (class_of f (decode f (nth i x 0)))).
  { intros o H1 H2. eexists. split; [reflexivity|]. intros i Hi. rewrite store_ok; auto; rewrite Hl; auto. destruct Hx; auto. }
  destruct Hw as [W|[W H2]]; rewrite W.
  - change (32 =? 32) with true. cbv iota.
    destruct Hk as [->| ->]; cbn [Nat.eqb andb]; [apply K; discriminate|].
    destruct tail; apply K; try discriminate. intros _. apply Ht; auto.
  - change (64 =? 32) with false. cbv iota.
    destruct Hk as [->| ->].
    + rewrite andb_false_r, !andb_true_r. cbn [Nat.eqb].
      destruct (x86 && (length x =? 4)%nat); [apply K; discriminate|].
      destruct (x86 && (length x =? 8)%nat); apply K; discriminate.
    + destruct (H2 eq_refl) as [-> L2]. cbn [Nat.eqb andb]. apply K; [discriminate|auto].
Qed.
