(* The user-level lemmas of C05-C08, in terms of operator[]. *)
From Coq Require Import List Arith Bool ZArith Lia.
From Verif Require Import Prelude MaskSpec BitMask BitMaskProofs Abi AbiSpec AbiProofs Fixed FixedSpec
  FixedProofs FixedApply Targets FixedStorage FixedMixed FixedMasks.
Import ListNotations.

Lemma fixed_facts I t n {A} (x : tuple A) : fixed_size_type I t n -> is_fixed I t n x ->
  dense (tshape x) /\ ssize (tshape x) = n /\ Forall chunk_ok x /\ length (telems x) = n /\ x <> [].
Proof.
  intros (HI & Ht & Hn) Hx. destruct (storage_shape_facts I t n HI Ht Hn) as (s & E & Hd & Hs).
  unfold is_fixed in Hx. rewrite Hx in E. injection E as <-.
  pose proof (dense_ok _ Hd). repeat split; auto.
  - rewrite telems_length; auto.
  - intros ->. unfold ssize in Hs. simpl in Hs. lia.
Qed.

Lemma fixed_get I t n {A} (x : tuple A) i : fixed_size_type I t n -> is_fixed I t n x -> i < n ->
  exists a, t_get x i = Some a /\ forall d, nth i (telems x) d = a.
Proof.
  intros Hf Hx Hi. destruct (fixed_facts I t n x Hf Hx) as (Hd & Hs & Hok & Hl & _).
  rewrite get_elems by (auto; lia).
  destruct (nth_error (telems x) i) as [a|] eqn:E.
  - exists a. split; auto. intros d. apply nth_error_nth. auto.
  - apply nth_error_None in E. lia.
Qed.
Lemma fixed_get_nth I t n {A} (x : tuple A) i d : fixed_size_type I t n -> is_fixed I t n x -> i < n ->
  t_get x i = Some (nth i (telems x) d).
Proof. intros Hf Hx Hi. destruct (fixed_get I t n x i Hf Hx Hi) as (a & E & H). rewrite H. auto. Qed.

Lemma fixed_gets I t n {A} (xs : list (tuple A)) i d : fixed_size_type I t n ->
  Forall (is_fixed I t n) xs -> i < n ->
  elements_at i xs (map (fun x => nth i (telems x) d) xs).
Proof.
  intros Hf Hx Hi. unfold elements_at. rewrite map_map. apply map_ext_in.
  intros x Hin. rewrite Forall_forall in Hx. apply (fixed_get_nth I t n); auto.
Qed.
Lemma map_some_inj {A} (l m : list A) : map Some l = map Some m -> l = m.
Proof.
  revert m. induction l; intros [|b m] H; simpl in H; try discriminate; auto.
  injection H as -> H. f_equal. auto.
Qed.

Lemma fixed_other I t n {A} (x : tuple A) (more : list (tuple A)) : is_fixed I t n x -> Forall (is_fixed I t n) more ->
  Forall (fun y => tshape y = tshape x) more.
Proof.
  intros Hx Hm. eapply Forall_impl; [|exact Hm]. unfold is_fixed in *. intros y Hy. congruence.
Qed.

(* C05 *)
Lemma c05_generator {A} I t n (zero : A) g s : fixed_size_type I t n -> storage_shape I t n = Some s ->
  is_fixed I t n (fs_generator zero n s g) /\
  forall i, i < n -> t_get (fs_generator zero n s g) i = Some (g i) /\
    t_get_const (fs_generator zero n s g) i = Some (g i) /\
    forall sc, t_get_noalias sc (fs_generator zero n s g) i = Some (g i).
Proof.
  intros (HI & Ht & Hn) Es. destruct (storage_shape_facts I t n HI Ht Hn) as (s' & E & Hd & Hs).
  rewrite Es in E. injection E as <-.
  assert (Hsh : tshape (fs_generator zero n s g) = s).
  { apply t_generate_spec. intros. unfold reg_generator. rewrite map_length, seq_length. auto. }
  assert (He : telems (fs_generator zero n s g) = map g (seq 0 n)).
  { unfold fs_generator. rewrite generator_elems; [rewrite Hs; auto|apply dense_le; auto|lia]. }
  split; [unfold is_fixed; rewrite Hsh; auto|]. intros i Hi.
  assert (Hne : nth_error (telems (fs_generator zero n s g)) i = Some (g i)).
  { rewrite He. apply map_nth_error. rewrite (nth_error_nth' _ 0) by (rewrite seq_length; auto).
    rewrite seq_nth; auto. }
  repeat split; intros.
  - rewrite get_elems by (rewrite Hsh; auto; lia). auto.
  - rewrite get_const_elems by (apply dense_ok; rewrite Hsh; auto). auto.
  - rewrite get_noalias_elems by (rewrite Hsh; auto; lia). auto.
Qed.

Lemma c05_broadcast {A} I t n (x : A) s : fixed_size_type I t n -> storage_shape I t n = Some s ->
  is_fixed I t n (fs_broadcast s x) /\ forall i, i < n -> t_get (fs_broadcast s x) i = Some x.
Proof.
  intros (HI & Ht & Hn) Es. destruct (storage_shape_facts I t n HI Ht Hn) as (s' & E & Hd & Hs).
  rewrite Es in E. injection E as <-.
  assert (Hsh : tshape (fs_broadcast s x) = s).
  { apply t_generate_spec. intros. apply repeat_length. }
  split; [unfold is_fixed; rewrite Hsh; auto|]. intros i Hi.
  rewrite get_elems by (rewrite Hsh; auto; lia). unfold fs_broadcast.
  rewrite broadcast_elems by (apply dense_le; auto). rewrite Hs.
  rewrite nth_error_repeat; auto.
Qed.

Lemma nth_error_upd {A} (l : list A) i v j : i < length l ->
  nth_error (upd l i v) j = if j =? i then Some v else nth_error l j.
Proof. revert i j. induction l; intros [|i] [|j] H; simpl in *; auto; try lia. apply IHl. lia. Qed.

Lemma c05_assign {A} I t n (x : tuple A) i v : fixed_size_type I t n -> is_fixed I t n x -> i < n ->
  exists x', t_set x i v = Some x' /\ is_fixed I t n x' /\
    forall j, j < n -> t_get x' j = if j =? i then Some v else t_get x j.
Proof.
  intros Hf Hx Hi. destruct (fixed_facts I t n x Hf Hx) as (Hd & Hs & Hok & Hl & _).
  destruct (set_elems x i v Hd ltac:(lia)) as (x' & E & Hsh & He).
  exists x'. split; auto. split; [unfold is_fixed; rewrite Hsh; auto|].
  intros j Hj. rewrite !get_elems by (rewrite ?Hsh; auto; lia). rewrite He.
  apply nth_error_upd. lia.
Qed.
Lemma c05_assign_noalias {A} I t n (x : tuple A) i v sc : fixed_size_type I t n -> is_fixed I t n x -> i < n ->
  exists x', t_set_noalias x i v = Some x' /\ is_fixed I t n x' /\
    forall j, j < n -> t_get_noalias sc x' j = if j =? i then Some v else t_get_noalias sc x j.
Proof.
  intros Hf Hx Hi. destruct (fixed_facts I t n x Hf Hx) as (Hd & Hs & Hok & Hl & _).
  destruct (set_noalias_elems x i v Hd ltac:(lia)) as (x' & E & Hsh & He).
  exists x'. split; auto. split; [unfold is_fixed; rewrite Hsh; auto|].
  intros j Hj. rewrite !get_noalias_elems by (rewrite ?Hsh; auto; lia). rewrite He.
  apply nth_error_upd. lia.
Qed.

(* C06 *)
Lemma c06_same {A} I t n f F (x : tuple A) more : fixed_size_type I t n -> lanewise f F ->
  is_fixed I t n x -> Forall (is_fixed I t n) more ->
  is_fixed I t n (apply_per_chunk F x more) /\
  forall i a bs, i < n -> t_get x i = Some a -> elements_at i more bs ->
    t_get (apply_per_chunk F x more) i = Some (f a bs).
Proof.
  intros Hf HF Hx Hm. destruct (fixed_facts I t n x Hf Hx) as (Hd & Hs & Hok & Hl & _).
  destruct (apply_per_chunk_spec f F x HF more Hok (fixed_other I t n x more Hx Hm)) as [H1 H2].
  assert (Hr : is_fixed I t n (apply_per_chunk F x more)) by (unfold is_fixed; rewrite H1; auto).
  split; auto. intros i a bs Hi Ha Hbs.
  rewrite (fixed_get_nth I t n _ i a Hf Hr Hi). f_equal. rewrite H2 by lia.
  rewrite (fixed_get_nth I t n x i a Hf Hx Hi) in Ha. injection Ha as Ha. rewrite Ha. f_equal.
  pose proof (fixed_gets I t n more i a Hf Hm Hi) as Hg. unfold elements_at in *.
  rewrite Hg in Hbs. apply map_some_inj in Hbs. auto.
Qed.

Lemma sizes_storage I t u n {A} (x : tuple A) : fixed_size_type I t n -> is_fixed I t n x ->
  fp_elem t = true -> int_elem u = true ->
  forall c s, In c x -> storage_shape I u (csize c) = Some s -> dense s /\ ssize s = csize c.
Proof.
  intros Hf Hx Hft Hu c s Hc Hs1. destruct (fixed_facts I t n x Hf Hx) as (Hd & Hs & _ & _ & _).
  destruct Hf as (HI & Ht & Hn).
  assert (Hin : In (csize c) (map fst (tshape x))).
  { unfold tshape. rewrite map_map. apply in_map_iff. exists c. auto. }
  pose proof (dense_sizes _ _ Hd Hin) as Hb. rewrite Hs in Hb.
  destruct (storage_shape_facts I u (csize c)) as (s1 & E & ? & ?); auto.
  - apply int_elem_ok; auto.
  - rewrite max_fixed_int by auto. rewrite max_fixed_fp in Hn by auto. lia.
  - rewrite E in Hs1. injection Hs1 as <-. auto.
Qed.

Lemma int_fixed I t u n : fixed_size_type I t n -> fp_elem t = true -> int_elem u = true ->
  fixed_size_type I u n.
Proof.
  intros (HI & Ht & Hn) Hft Hu. split; auto. split; [apply int_elem_ok; auto|].
  rewrite max_fixed_int by auto. rewrite max_fixed_fp in Hn by auto. auto.
Qed.

Lemma c06_mixed {A B} I t u n (pad : B) wb f g F (x : tuple A) more (y : tuple B) :
  fixed_size_type I t n -> fp_elem t = true -> int_elem u = true ->
  narrow_exception I t u && (n mod 4 =? 0) = false ->
  lanewise_mixed f g F ->
  is_fixed I t n x -> Forall (is_fixed I t n) more -> is_fixed I u n y ->
  exists r y', apply_mixed pad wb (storage_shape I u) F x more (view_of y) = Some (r, y') /\
    is_fixed I t n r /\ is_fixed I u n y' /\
    forall i a bs b, i < n -> t_get x i = Some a -> elements_at i more bs -> t_get y i = Some b ->
      t_get r i = Some (f a bs b) /\ t_get y' i = Some (if wb then g a bs b else b).
Proof.
  intros Hf Hft Hu Hex HF Hx Hm Hy.
  destruct (fixed_facts I t n x Hf Hx) as (Hd & Hs & Hok & Hl & _).
  pose proof (int_fixed I t u n Hf Hft Hu) as Hfu.
  destruct (fixed_facts I u n y Hfu Hy) as (Hdy & Hsy & _).
  pose proof (fixed_other I t n x more Hx Hm) as Ho.
  destruct Hf as (HI & Ht & Hn). 
  destruct (mixed_success I t u n pad wb f g F x more y HI Ht Hft Hu Hn HF Hx Ho Hy) as [H1 _].
  destruct (H1 Hex) as ([r y'] & Er). exists r, y'. split; auto.
  assert (Hf : fixed_size_type I t n) by exact (conj HI (conj Ht Hn)).
  destruct (apply_mixed_spec pad wb (storage_shape I u) f g F HF x more (view_of y) r y') as (M1 & M2 & M3 & M4 & M5 & M6); auto.
  { apply (sizes_storage I t u n); auto. }
  { unfold vpos, view_of, view_all. cbn [vdone vtup voff app]. unfold ssize at 1. simpl. lia. }
  change (view_all (view_of y)) with y in *. change (vpos (view_of y)) with 0 in *. cbn [Nat.add] in *.
  assert (Hr : is_fixed I t n r) by (unfold is_fixed; rewrite M1; auto).
  assert (Hy' : is_fixed I u n y') by (unfold is_fixed; rewrite M2; auto).
  split; auto. split; auto. intros i a bs b Hi Ha Hbs Hb.
  rewrite (fixed_get_nth I t n x i a Hf Hx Hi) in Ha. injection Ha as Ha.
  rewrite (fixed_get_nth I u n y i b Hfu Hy Hi) in Hb. injection Hb as Hb.
  pose proof (fixed_gets I t n more i a Hf Hm Hi) as Hg. unfold elements_at in *.
  rewrite Hg in Hbs. apply map_some_inj in Hbs.
  rewrite (fixed_get_nth I t n r i a Hf Hr Hi), (fixed_get_nth I u n y' i b Hfu Hy' Hi).
  rewrite (M4 i a b) by lia. rewrite Ha, Hbs, Hb. split; auto. f_equal.
  destruct wb.
  - rewrite (M6 eq_refl i a b) by lia. rewrite Ha, Hbs, Hb. auto.
  - rewrite (M3 eq_refl). auto.
Qed.

Lemma c06_result {A B} I t u n (zero : B) (g : A -> B) F (x : tuple A) :
  fixed_size_type I t n -> fp_elem t = true -> int_elem u = true ->
  (forall m reg, m <= length reg -> 1 <= m <= n ->
     is_fixed I u m (F m reg) /\
     forall i a, i < m -> nth_error reg i = Some a -> t_get (F m reg) i = Some (g a)) ->
  is_fixed I t n x ->
  exists r, optimize_tuple zero (length (apply_r F x)) (storage_shape I u) (apply_r F x) = Some r /\
    is_fixed I u n r /\
    forall i a, i < n -> t_get x i = Some a -> t_get r i = Some (g a).
Proof.
  intros Hf Hft Hu HF Hx.
  destruct (fixed_facts I t n x Hf Hx) as (Hd & Hs & Hok & Hl & _).
  pose proof (int_fixed I t u n Hf Hft Hu) as Hfu.
  pose proof (sizes_storage I t u n x Hf Hx Hft Hu) as Hsz.
  assert (Hsub : forall m, 1 <= m <= n -> fixed_size_type I u m).
  { intros m Hm. destruct Hfu as (H1 & H2 & H3). split; auto. split; auto. lia. }
  assert (Hin : forall p, In p (tshape x) -> 1 <= fst p <= n).
  { intros p Hp. apply (in_map fst) in Hp. pose proof (dense_sizes _ _ Hd Hp). lia. }
  assert (Hss : exists ss, omapm (fun p => storage_shape I u (fst p)) (tshape x) = Some ss).
  { clear - Hin Hsub. induction (tshape x) as [|p s IH]; [exists []; auto|].
    destruct IH as (ss & E); [intros; apply Hin; right; auto|]. cbn [omapm].
    destruct (Hsub (fst p) (Hin p (or_introl eq_refl))) as (H1 & H2 & H3).
    destruct (storage_shape_facts I u (fst p) H1 H2 H3) as (s1 & E1 & _). rewrite E1, E. eauto. }
  destruct Hss as (ss & Ess).
  destruct (apply_r_spec (fun m => if (1 <=? m) && (m <=? n) then storage_shape I u m else None) g F) with (x := x) (ss := ss) as [R1 R2]; auto.
  - intros m reg s Hm. destruct ((1 <=? m) && (m <=? n)) eqn:E; [|discriminate]. btrue. intros Es.
    destruct (HF m reg Hm ltac:(lia)) as [F1 F2]. unfold is_fixed in F1. rewrite Es in F1.
    injection F1 as F1. split; auto. intros i d e Hi.
    assert (F1' : is_fixed I u m (F m reg)) by (unfold is_fixed; rewrite <- F1; auto).
    destruct (nth_error reg i) as [a|] eqn:Ea; [|apply nth_error_None in Ea; lia].
    pose proof (F2 i a Hi Ea) as F3.
    rewrite (fixed_get_nth I u m (F m reg) i e (Hsub m ltac:(lia)) F1' Hi) in F3.
    injection F3 as ->. f_equal. symmetry. apply nth_error_nth. auto.
  - intros c s Hc. destruct (_ && _); [|discriminate]. apply Hsz. auto.
  - rewrite <- Ess. apply omapm_ext. intros p Hp. pose proof (Hin p Hp).
    rewrite (proj2 (Nat.leb_le _ _)), (proj2 (Nat.leb_le _ _)) by lia. auto.
  - destruct Hf as (HI & Ht & Hn).
    destruct (optimize_all I t u n zero (apply_r F x) HI Ht Hft Hu Hn (tshape x) ss Hx Ess R1) as (r & E & Es & Ee).
    exists r. split; auto. split; auto. intros i a Hi Ha.
    assert (Hf : fixed_size_type I t n) by exact (conj HI (conj Ht Hn)).
    rewrite (fixed_get_nth I t n x i a Hf Hx Hi) in Ha. injection Ha as Ha.
    rewrite (fixed_get_nth I u n r i (g a) Hfu Es Hi), Ee, (R2 i a) by lia. rewrite Ha. auto.
Qed.

(* C07 *)
Lemma fixed_le64 I t n : fixed_size_type I t n -> n <= 64.
Proof. intros (_ & _ & H). pose proof (max_fixed_le I t). lia. Qed.

Lemma c07_test {A} I t n f F (x : tuple A) more : fixed_size_type I t n -> lanewise_pred f F ->
  is_fixed I t n x -> Forall (is_fixed I t n) more ->
  bm_clean n (t_test F x more) /\
  forall i a bs, i < n -> t_get x i = Some a -> elements_at i more bs ->
    bm_get n (t_test F x more) i = f a bs.
Proof.
  intros Hf HF Hx Hm. destruct (fixed_facts I t n x Hf Hx) as (Hd & Hs & Hok & Hl & Hne).
  pose proof (fixed_le64 I t n Hf) as H64.
  destruct (t_test_spec f F x HF more Hne Hd ltac:(lia) (fixed_other I t n x more Hx Hm)) as [H1 H2].
  rewrite Hs in *. split; auto. intros i a bs Hi Ha Hbs.
  destruct Hf as (HI & Ht & Hn). assert (Hf : fixed_size_type I t n) by exact (conj HI (conj Ht Hn)).
  rewrite bm_get_bit by (auto; try lia; apply H1). rewrite (H2 i a) by lia.
  rewrite (fixed_get_nth I t n x i a Hf Hx Hi) in Ha. injection Ha as Ha. rewrite Ha. f_equal.
  pose proof (fixed_gets I t n more i a Hf Hm Hi) as Hg. unfold elements_at in *.
  rewrite Hg in Hbs. apply map_some_inj in Hbs. auto.
Qed.

Lemma c07_negate {A} I t n f F (x : tuple A) : fixed_size_type I t n ->
  (forall m reg, m <= length reg -> m <= length (F m reg) /\
     forall i d, i < m -> nth i (F m reg) false = f (nth i reg d)) ->
  is_fixed I t n x ->
  bm_clean n (fs_negate F x) /\
  forall i a, i < n -> t_get x i = Some a -> bm_get n (fs_negate F x) i = f a.
Proof.
  intros Hf HF Hx. destruct (fixed_facts I t n x Hf Hx) as (Hd & Hs & Hok & Hl & Hne).
  pose proof (fixed_le64 I t n Hf) as H64.
  destruct (fs_negate_spec f F x HF Hne Hd ltac:(lia)) as [H1 H2].
  rewrite Hs in *. split; auto. intros i a Hi Ha.
  destruct Hf as (HI & Ht & Hn). assert (Hf : fixed_size_type I t n) by exact (conj HI (conj Ht Hn)).
  rewrite bm_get_bit by (auto; try lia; apply H1). rewrite (H2 i a) by lia.
  rewrite (fixed_get_nth I t n x i a Hf Hx Hi) in Ha. injection Ha as Ha. rewrite Ha. auto.
Qed.

(* C08 *)
Lemma c08_binary {A} I t n f op k (x y : tuple A) : fixed_size_type I t n -> lanewise_masked2 f op ->
  is_fixed I t n x -> is_fixed I t n y -> bm_clean n k ->
  is_fixed I t n (fs_masked_binary op k x y) /\
  forall i a b, i < n -> t_get x i = Some a -> t_get y i = Some b ->
    t_get (fs_masked_binary op k x y) i = Some (if bm_get n k i then f a b else a).
Proof.
  intros Hf HF Hx Hy Hk. destruct (fixed_facts I t n x Hf Hx) as (Hd & Hs & Hok & Hl & Hne).
  pose proof (fixed_le64 I t n Hf) as H64.
  destruct (masked_binary_spec f op k x y HF Hd ltac:(lia)) as [H1 H2];
    [unfold is_fixed in *; congruence|rewrite Hs; auto|].
  assert (Hr : is_fixed I t n (fs_masked_binary op k x y)) by (unfold is_fixed; rewrite H1; auto).
  split; auto. intros i a b Hi Ha Hb.
  rewrite (fixed_get_nth I t n x i a Hf Hx Hi) in Ha. injection Ha as Ha.
  rewrite (fixed_get_nth I t n y i a Hf Hy Hi) in Hb. injection Hb as Hb.
  rewrite (fixed_get_nth I t n _ i a Hf Hr Hi), H2 by lia. rewrite Ha, Hb, Hs.
  rewrite bm_list_nth by auto. auto.
Qed.
Lemma c08_scalar {A S} I t n (f : A -> S -> A) op k (x : tuple A) s : fixed_size_type I t n ->
  lanewise_masked1 f op -> is_fixed I t n x -> bm_clean n k ->
  is_fixed I t n (fs_masked_scalar op k x s) /\
  forall i a, i < n -> t_get x i = Some a ->
    t_get (fs_masked_scalar op k x s) i = Some (if bm_get n k i then f a s else a).
Proof.
  intros Hf HF Hx Hk. destruct (fixed_facts I t n x Hf Hx) as (Hd & Hs & Hok & Hl & Hne).
  pose proof (fixed_le64 I t n Hf) as H64.
  destruct (masked_scalar_spec f op k x s HF Hd ltac:(lia)) as [H1 H2]; [rewrite Hs; auto|].
  assert (Hr : is_fixed I t n (fs_masked_scalar op k x s)) by (unfold is_fixed; rewrite H1; auto).
  split; auto. intros i a Hi Ha.
  rewrite (fixed_get_nth I t n x i a Hf Hx Hi) in Ha. injection Ha as Ha.
  rewrite (fixed_get_nth I t n _ i a Hf Hr Hi), H2 by lia. rewrite Ha, Hs.
  rewrite bm_list_nth by auto. auto.
Qed.
Lemma c08_unary {A} I t n (f : A -> A) op k (x : tuple A) : fixed_size_type I t n ->
  lanewise_masked1 (fun a (_ : unit) => f a) (fun m k a _ => op m k a) -> is_fixed I t n x -> bm_clean n k ->
  is_fixed I t n (fs_masked_unary op k x) /\
  forall i a, i < n -> t_get x i = Some a ->
    t_get (fs_masked_unary op k x) i = Some (if bm_get n k i then f a else a).
Proof.
  intros Hf HF Hx Hk. destruct (fixed_facts I t n x Hf Hx) as (Hd & Hs & Hok & Hl & Hne).
  pose proof (fixed_le64 I t n Hf) as H64.
  destruct (masked_unary_spec f op k x HF Hd ltac:(lia)) as [H1 H2]; [rewrite Hs; auto|].
  assert (Hr : is_fixed I t n (fs_masked_unary op k x)) by (unfold is_fixed; rewrite H1; auto).
  split; auto. intros i a Hi Ha.
  rewrite (fixed_get_nth I t n x i a Hf Hx Hi) in Ha. injection Ha as Ha.
  rewrite (fixed_get_nth I t n _ i a Hf Hr Hi), H2 by lia. rewrite Ha, Hs.
  rewrite bm_list_nth by auto. auto.
Qed.

Definition isa_i386_sse2 : isa := {|
  have_sse := true; have_sse2 := true; have_avx := false; have_avx2 := false;
  have_avx512f := false; have_avx512vl := false; have_avx512bw := false;
  have_power8vec := false; have_power_vsx := false; have_power_vmx := false;
  have_neon := false; have_neon_a32 := false; have_neon_a64 := false;
  support_neon_float := false;
  def_x86_64 := false; def_i386 := true; def_aarch64 := false |}.
Lemma i386_arch : arch_ok isa_i386_sse2.
Proof. unfold arch_ok, isa_ok, isa_i386_sse2; simpl. repeat split; auto; intuition discriminate. Qed.

Lemma c06_mixed_refuted :
  exists I t u n, fixed_size_type I t n /\ fp_elem t = true /\ int_elem u = true /\
    (exists (x y : tuple nat), is_fixed I t n x /\ is_fixed I u n y) /\
    forall (A B : Type) (pad : B) f g F (x : tuple A) more (y : tuple B),
      lanewise_mixed f g F ->
      is_fixed I t n x -> Forall (is_fixed I t n) more -> is_fixed I u n y ->
      apply_mixed pad false (storage_shape I u) F x more (view_of y) = None.
Proof.
  exists isa_i386_sse2, TDouble, (TInt 4), 4.
  assert (Hf : fixed_size_type isa_i386_sse2 TDouble 4).
  { split; [apply i386_arch|]. split; simpl; auto. cbn. lia. }
  split; auto. split; auto. split; auto. split.
  - exists [Chunk 2 [0; 0]; Chunk 2 [0; 0]], [Chunk 4 [0; 0; 0; 0]]. split; reflexivity.
  - intros A B pad f g F x more y HF Hx Hm Hy.
    destruct Hf as (HI & Ht & Hn).
    destruct (mixed_success isa_i386_sse2 TDouble (TInt 4) 4 pad false f g F x more y HI Ht eq_refl eq_refl Hn HF Hx
      (fixed_other _ _ _ x more Hx Hm) Hy) as [_ H]. apply H. reflexivity.
Qed.
