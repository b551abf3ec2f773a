(* Proofs of C70. *)
From Coq Require Import ZArith List Bool Arith Lia.
From Verif Require Import Prelude BitMask Abi AbiSpec AbiProofs Fixed FixedSpec FixedProofs FixedApply Targets FloatSpec FloatBits FloatProofs FloatTop FloatStorage
  FixedStorage FixedTop FixedMixed MathCallProofs FixedFrexpSpec FixedFrexpProofs FixedHypotSpec FixedHypotProofs FixedFpclassify FixedFpclassifySpec.
Import ListNotations.
Local Open Scope nat_scope.

(* a register of m elements in l lanes: the ints fit the members they initialize *)
Definition chunk_fits (I : isa) (t : elem) (p : nat * nat) : bool :=
  if fst p =? 1 then true else
  match storage_shape I (TInt 4) (fst p) with
  | Some s =>
      let w := intrin_width I t (snd p) in
      int_storage_okb t (fst p) w (length s) (second_scalar s) &&
      match s with
      | [_] => true
      | [(a, _); _] => a =? (if eis_double t then 1 else Nat.div2 w)
      | _ => false
      end
  | None => false
  end.
Definition fits (I : isa) (t : elem) : bool :=
  forallb (fun n => match storage_shape I t n with Some s => forallb (chunk_fits I t) s | None => false end) (seq 1 32).
Lemma fits_all : forallb (fun I => if have_sse I && negb (have_sse2 I) then true else fits I TFloat && fits I TDouble) all_archs = true.
Proof. vm_cast_no_check (eq_refl true). Qed.
Lemma fits_ok I t n s : arch_ok I -> (have_sse I = true -> have_sse2 I = true) -> t = TFloat \/ t = TDouble -> 1 <= n <= 32 ->
  storage_shape I t n = Some s -> forallb (chunk_fits I t) s = true.
Proof.
  intros HI Hs Ht Hn E. pose proof (check_archs _ fits_all I HI) as C. cbv beta in C.
  assert (Ns : have_sse I && negb (have_sse2 I) = false) by (destruct (have_sse I); simpl; auto; rewrite Hs; auto).
  rewrite Ns in C. apply andb_true_iff in C as [C1 C2].
  assert (C : fits I t = true) by (destruct Ht as [-> | ->]; auto).
  unfold fits in C. rewrite forallb_forall in C. specialize (C n). rewrite E in C. apply C. apply in_seq. lia.
Qed.

Lemma fit_length l y : length (fit l y) = l.
Proof. unfold fit. rewrite firstn_length, app_length, repeat_length. lia. Qed.
Lemma nth_zeros n i : nth i (repeat 0%Z n) 0%Z = 0%Z.
Proof. revert i. induction n; intros [|i]; simpl; auto. Qed.
Lemma nth_fit l y i : i < l -> nth i (fit l y) 0%Z = nth i y 0%Z.
Proof.
  intros H. unfold fit. rewrite nth_firstn_lt by auto. destruct (le_lt_dec (length y) i).
  - rewrite app_nth2 by auto. rewrite nth_zeros. symmetry. apply nth_overflow. auto.
  - apply app_nth1. auto.
Qed.
Lemma stored_shape s ys : length ys = length s -> tshape (store_registers s ys) = s.
Proof.
  revert ys. induction s as [|[a b] s IH]; intros [|y ys] H; try discriminate; auto.
  unfold store_registers, tshape in *. cbn [combine map]. injection H as H. rewrite IH by auto.
  unfold cshape. cbn [csize creg fst snd]. rewrite fit_length. auto.
Qed.

Section Chunk.
Context (std : Z -> Z) (I : isa) (t : elem) (f : fmt) (x86 : bool) (junk : Z).
Context (HI : arch_ok I) (Ht : elem_format t f) (Hstd : std_fpclassify_ok f std) (Hj : pattern f junk).
Let g (a : Z) : Z := fp_macro (class_of f (decode f a)).

Lemma width_ge l : l <= intrin_width I t l.
Proof. unfold intrin_width. destruct (have_sse I); lia. Qed.
Lemma widened_length reg : length (widened I t junk reg) = intrin_width I t (length reg).
Proof. unfold widened. rewrite app_length, repeat_length. pose proof (width_ge (length reg)). lia. Qed.

Lemma chunk_classified m reg : 1 <= m <= 32 -> m <= length reg -> Forall (pattern f) reg -> chunk_fits I t (m, length reg) = true ->
  exists y, fpclassify_chunk std I t f x86 junk m reg = Some y /\ is_fixed I (TInt 4) m y /\
    forall i a, i < m -> nth_error reg i = Some a -> t_get y i = Some (g a).
Proof.
  intros Hm Hl Hp Hfit. unfold chunk_fits in Hfit. cbn [fst snd] in Hfit. unfold fpclassify_chunk.
  assert (Hft : t = TFloat \/ t = TDouble) by (destruct Ht as [[-> _]|[-> _]]; auto).
  assert (Ef : elem_fmt t = f) by (destruct Ht as [[-> ->]|[-> ->]]; auto).
  destruct (Nat.eqb_spec m 1) as [->|Hm1].
  { eexists. split; [reflexivity|]. split; [apply storage_one; auto|]. intros i a Hi Ha.
    assert (i = 0) by lia. subst i. simpl. unfold chunk_read. simpl. f_equal.
    destruct reg as [|b reg]; [discriminate|]. injection Ha as ->. inversion Hp; subst. apply Hstd. auto. }
  assert (HT : fixed_size_type I (TInt 4) m).
  { split; auto. split; [apply int_elem_ok; auto|]. rewrite max_fixed_int by auto. lia. }
  destruct (storage_shape I (TInt 4) m) as [s|] eqn:Es; [|discriminate].
  apply andb_true_iff in Hfit as [Hok Hs2].
  apply int_storage_okb_ok in Hok; auto. rewrite Ef in Hok.
  assert (Hr : fregister f m (widened I t junk reg)).
  { split.
    - unfold widened. apply Forall_app. split; auto. apply Forall_forall. intros b Hb. apply repeat_spec in Hb. subst. auto.
    - rewrite widened_length. pose proof (width_ge (length reg)). lia. }
  assert (Hfm : fmt_ok f) by (apply (fmt_elem t); auto).
  rewrite <- widened_length in Hok, Hs2.
  destruct (c33_fpclassify f Hfm x86 m (length s) (second_scalar s) (widened I t junk reg) Hr Hok) as (ys & Ey & HY).
  rewrite Ey. cbn [option_map]. eexists. split; [reflexivity|].
  destruct (storage_shape_facts I (TInt 4) m HI (int_elem_ok (TInt 4) eq_refl)) as (s' & Es' & Hd & Hsz).
  { rewrite max_fixed_int by auto. lia. }
  rewrite Es in Es'. injection Es' as <-.
  assert (Hval : forall i a, i < m -> nth_error reg i = Some a -> nth i (concat ys) 0%Z = g a).
  { intros i a Hi Ha. rewrite HY by auto. unfold g. do 3 f_equal. unfold widened.
    assert (i < length reg) by (apply nth_error_Some; congruence). rewrite app_nth1 by auto. apply nth_error_nth. auto. }
  assert (Hlen : length ys = length s /\ forall a b r, s = (a, b) :: r -> r <> [] -> length (nth 0 ys []) = a).
  { unfold fpclassify_reg in Ey. destruct (fpc_way _ _ _ _ _ _) as [o|] eqn:Eo; [|discriminate]. cbn [option_map] in Ey. injection Ey as <-.
    set (tmp := map (fpclassify_tmp f) (widened I t junk reg)) in *.
    assert (Lt : length tmp = length (widened I t junk reg)) by apply map_length.
    unfold fpc_way in Eo. destruct Hok as (_ & Hk & Hw & Htail).
    destruct s as [|[a b] [|[c d] [|]]]; cbn [length] in *; try (exfalso; clear - Hk; lia).
    - split; [|intros ? ? ? H; injection H as _ _ <-; congruence].
      cbn [Nat.eqb andb] in Eo. rewrite ?andb_false_r in Eo.
      destruct (fw f =? 32)%Z; [injection Eo as <-; reflexivity|].
      repeat match type of Eo with (if ?x then _ else _) = _ => destruct x end; try discriminate; injection Eo as <-; reflexivity.
    - assert (HH : length (fpc_store o m tmp) = 2 /\ length (nth 0 (fpc_store o m tmp) []) = a).
      { apply Nat.eqb_eq in Hs2. cbn [Nat.eqb andb] in Eo. rewrite ?andb_false_r, ?andb_true_r in Eo.
        destruct Ht as [[-> ->]|[-> ->]]; cbn [eis_double] in Hs2.
        - change (fw binary32 =? 32)%Z with true in Eo. cbn match in Eo.
          assert (Hh : length (firstn (Nat.div2 (length tmp)) tmp) = a).
          { rewrite firstn_length, Lt. rewrite Hs2. pose proof (Nat.div2_decr (length (widened I TFloat junk reg)) (length (widened I TFloat junk reg)) ltac:(lia)). lia. }
          destruct (second_scalar _); injection Eo as <-; cbn [fpc_store length nth]; auto.
        - change (fw binary64 =? 32)%Z with false in Eo. cbn match in Eo.
          destruct (m =? 2); [|repeat match type of Eo with (if ?x then _ else _) = _ => destruct x end; discriminate].
          injection Eo as <-. cbn [fpc_store length nth]. auto. }
      destruct HH as [H1 H2]. split; auto. intros ? ? ? H _. injection H as <- _ _. auto. }
  destruct Hlen as [L1 L2].
  pose proof (stored_shape s ys L1) as Hsh.
  split; [unfold is_fixed; rewrite Hsh; auto|].
  intros i a Hi Ha. rewrite get_elems by (rewrite Hsh; auto; lia).
  assert (Hlt : length (telems (store_registers s ys)) = m).
  { rewrite telems_length; [rewrite Hsh; auto|]. apply dense_ok. rewrite Hsh. auto. }
  rewrite (nth_error_nth' _ 0%Z) by lia. f_equal. rewrite <- (Hval i a Hi Ha).
  assert (Hle : forall p, In p s -> fst p <= snd p) by (apply Forall_forall, dense_le; auto).
  destruct Hok as (_ & Hk & _).
  destruct s as [|[p q] [|[c d] [|]]]; cbn [length] in *; try (exfalso; clear - Hk; lia).
  - destruct ys as [|y [|]]; try discriminate. unfold store_registers, telems. cbn [combine map flat_map fst snd]. unfold celems. cbn [csize creg].
    unfold ssize in Hsz. cbn in Hsz. assert (p = m) by (clear - Hsz; lia). subst p.
    pose proof (Hle (m, q) (or_introl eq_refl)) as Hq. cbn [fst snd] in Hq.
    cbn [concat]. rewrite !app_nil_r. rewrite nth_firstn_lt by auto. apply nth_fit. lia.
  - destruct ys as [|y [|z [|]]]; try discriminate. pose proof (L2 p q [(c, d)] eq_refl ltac:(discriminate)) as Ly. cbn [nth] in Ly.
    unfold store_registers, telems. cbn [combine map flat_map fst snd]. unfold celems. cbn [csize creg concat]. rewrite !app_nil_r.
    pose proof (Hle (p, q) (or_introl eq_refl)) as Hq. pose proof (Hle (c, d) (or_intror (or_introl eq_refl))) as Hcd. cbn [fst snd] in Hq, Hcd.
    assert (Hs : p + c = m) by (unfold ssize in Hsz; cbn in Hsz; clear - Hsz; lia).
    assert (Lf : length (firstn p (fit q y)) = p) by (rewrite firstn_length, fit_length; lia).
    destruct (le_lt_dec p i).
    + rewrite app_nth2 by lia. rewrite app_nth2 by lia. rewrite Lf, Ly. rewrite nth_firstn_lt by lia. apply nth_fit. lia.
    + rewrite app_nth1 by lia. rewrite app_nth1 by lia. rewrite nth_firstn_lt by lia. apply nth_fit. lia.
Qed.

Context (Hsse : have_sse I = true -> have_sse2 I = true).
Context (n : nat) (HT : fixed_size_type I t n).

Definition patternb (a : Z) : bool := (0 <=? a)%Z && (a <? 2 ^ fw f)%Z.
(* the function of every register, and one that is right for all registers *)
Definition total (m : nat) (reg : list Z) : tuple Z :=
  if chunk_fits I t (m, length reg) && forallb patternb reg then
    match fpclassify_chunk std I t f x86 junk m reg with Some y => y | None => [] end
  else match storage_shape I (TInt 4) m with Some s => fs_generator 0%Z m s (fun i => g (nth i reg 0%Z)) | None => [] end.
Lemma patternb_ok reg : Forall (pattern f) reg <-> forallb patternb reg = true.
Proof.
  rewrite forallb_forall, Forall_forall. unfold patternb, pattern. split; intros H a Ha; specialize (H a Ha).
  - apply andb_true_iff. rewrite Z.leb_le, Z.ltb_lt. auto.
  - apply andb_true_iff in H. rewrite Z.leb_le, Z.ltb_lt in H. auto.
Qed.

Lemma fpclassify_fixed_ok x : is_fixed I t n x -> all_lanes f x ->
  exists r, fpclassify_fixed std I t f x86 junk x = Some r /\ is_fixed I (TInt 4) n r /\
    forall i a, i < n -> t_get x i = Some a -> t_get r i = Some (g a).
Proof.
  intros Hx Hl. pose proof HT as (_ & Hte & Hn). assert (Hfp : fp_elem t = true) by (destruct Ht as [[-> _]|[-> _]]; auto).
  rewrite max_fixed_fp in Hn by auto.
  destruct (fixed_facts I t n x HT Hx) as (Hd & Hs & Hok & _).
  assert (HC : Forall (fun c => chunk_fits I t (csize c, length (creg c)) = true /\ 1 <= csize c <= 32 /\ csize c <= length (creg c) /\ Forall (pattern f) (creg c)) x).
  { apply Forall_forall. intros c Hc.
    assert (Hin : In (csize c, length (creg c)) (tshape x)) by (unfold tshape; apply in_map_iff; exists c; auto).
    split.
    - assert (Hft : t = TFloat \/ t = TDouble) by (destruct Ht as [[-> _]|[-> _]]; auto).
      pose proof (fits_ok I t n (tshape x) HI Hsse Hft Hn Hx) as C. rewrite forallb_forall in C. apply C. auto.
    - pose proof (dense_sizes _ _ Hd (in_map fst _ _ Hin)) as B. cbn [fst] in B. split; [lia|].
      rewrite Forall_forall in Hok. split; [apply Hok; auto|]. unfold all_lanes in Hl. rewrite Forall_forall in Hl. apply Hl. auto. }
  unfold fpclassify_fixed.
  replace (forallb _ x) with true; cycle 1.
  { symmetry. apply forallb_forall. intros c Hc. rewrite Forall_forall in HC. destruct (HC c Hc) as (A & B & C & D).
    destruct (chunk_classified (csize c) (creg c) B C D A) as (y & E & _). rewrite E. auto. }
  assert (EA : apply_r (fun m reg => match fpclassify_chunk std I t f x86 junk m reg with Some y => y | None => [] end) x = apply_r total x).
  { clear - HC. induction HC as [|c x (A & _ & _ & D) _ IH]; auto. cbn [apply_r]. rewrite IH. f_equal. unfold total. rewrite A.
    apply patternb_ok in D. rewrite D. auto. }
  cbv zeta. rewrite EA.
  apply (c06_result I t (TInt 4) n 0%Z g total x); auto.
  intros m reg Hm Hmn. unfold total.
  assert (HTm : fixed_size_type I (TInt 4) m).
  { split; auto. split; [apply int_elem_ok; auto|]. rewrite max_fixed_int by auto. lia. }
  destruct (chunk_fits I t (m, length reg) && forallb patternb reg) eqn:E.
  - apply andb_true_iff in E as [A D]. apply patternb_ok in D.
    destruct (chunk_classified m reg ltac:(lia) Hm D A) as (y & Ey & H1 & H2). rewrite Ey. auto.
  - destruct (storage_shape_facts I (TInt 4) m HI (int_elem_ok (TInt 4) eq_refl)) as (s & Es & _ & _).
    { rewrite max_fixed_int by auto. lia. }
    rewrite Es. destruct (c05_generator I (TInt 4) m 0%Z (fun i => g (nth i reg 0%Z)) s HTm Es) as [G1 G2].
    split; auto. intros i a Hi Ha. destruct (G2 i Hi) as (G3 & _). rewrite G3. do 2 f_equal. apply nth_error_nth. auto.
Qed.
End Chunk.
