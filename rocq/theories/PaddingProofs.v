From Coq Require Import List ZArith Bool Arith Lia.
From Verif Require Import Prelude MaskSpec KMask KMaskSpec KMaskProofs X86Lanes X86ShiftSpec X86Div IntDiv X86Mask X86MaskSpec
  X86MaskProofs IntDivSpec IntDivProofs Padding PaddingSpec.
Import ListNotations.
Local Open Scope Z_scope.

Lemma register_nth w lanes x i : register w lanes x -> (i < lanes)%nat -> 0 <= nth i x 0 < 2 ^ w.
Proof. intros [Hl Hx] Hi. rewrite Forall_forall in Hx. apply Hx, nth_In. lia. Qed.

Lemma register_intro w lanes x : length x = lanes -> (forall i, (i < lanes)%nat -> 0 <= nth i x 0 < 2 ^ w) ->
  register w lanes x.
Proof.
  intros Hl H. split; auto. rewrite Forall_forall. intros v Hv.
  destruct (In_nth x v 0 Hv) as (i & Hi & <-). apply H. lia.
Qed.

(* what the induction needs from a mask representation *)
Record mops_ok {M} (C : mops M) (sees : M -> list bool -> Prop) (w : Z) (lanes n : nat) : Prop := {
  o_len : forall k l, sees k l -> length l = n;
  o_bcast : forall b, sees (c_bcast C b) (repeat b n);
  o_cmp : forall l, length l = lanes -> sees (c_cmp C l) (firstn n l);
  o_intne : forall l, length l = lanes -> sees (c_intne C l) (map negb (firstn n l));
  o_not : forall k l, sees k l -> sees (c_not C k) (map negb l);
  o_and : forall j l k m, sees j l -> sees k m -> sees (c_and C j k) (map2 andb l m);
  o_or : forall j l k m, sees j l -> sees k m -> sees (c_or C j k) (map2 orb l m);
  o_xor : forall j l k m, sees j l -> sees k m -> sees (c_xor C j k) (map2 xorb l m);
  o_set : forall k l i b, sees k l -> (i < n)%nat -> sees (c_set C k i b) (upd l i b);
  o_assign : forall k l a m b p, sees k l -> sees a m -> sees b p ->
    sees (c_assign C k a b) (map3 (fun c u v : bool => if c then v else u) l m p);
  o_blend : forall k l x y, sees k l -> register w lanes x -> register w lanes y ->
    register w lanes (c_blend C k x y) /\
    forall i, (i < n)%nat -> nth i (c_blend C k x y) 0 = if nth i l false then nth i y 0 else nth i x 0 }.

Lemma agree_firstn {A} (f : Z -> Z -> A) n x x' y y' : agree n x x' -> agree n y y' ->
  (n <= length x)%nat -> (n <= length y)%nat ->
  firstn n (map2 f x y) = firstn n (map2 f x' y').
Proof.
  intros [Hx Ex] [Hy Ey] Lx Ly. rewrite !firstn_map2. f_equal.
  - apply (nth_eq_ext _ _ 0); [rewrite !firstn_length; lia|]. intros i Hi. rewrite firstn_length in Hi.
    rewrite !nth_firstn_lt by lia. apply Ex. lia.
  - apply (nth_eq_ext _ _ 0); [rewrite !firstn_length; lia|]. intros i Hi. rewrite firstn_length in Hi.
    rewrite !nth_firstn_lt by lia. apply Ey. lia.
Qed.

Definition vrel (w : Z) (lanes n : nat) (x x' : list Z) : Prop :=
  register w lanes x /\ register w lanes x' /\ agree n x x'.

(* unsigned division of simd_builtin.h *)
Lemma vec_in_range f signed w lanes x y q : (forall a b, 0 <= f a b < 2 ^ w) -> length x = lanes -> length y = lanes ->
  vec_divide f signed w x y = Some q -> register w lanes q.
Proof.
  intros Hf Hx Hy. unfold vec_divide. destruct (existsb _ _); [discriminate|]. intros H. injection H as <-.
  apply register_intro; [rewrite map2_length; lia|]. intros i Hi. rewrite nth_map2z by lia. apply Hf.
Qed.

Lemma zero_dec (y : list Z) n : {exists i, (i < n)%nat /\ nth i y 0 = 0} + {forall i, (i < n)%nat -> nth i y 0 <> 0}.
Proof.
  induction n as [|n IH].
  - right. intros i Hi. lia.
  - destruct IH as [IH|IH].
    + left. destruct IH as (i & Hi & E). exists i. split; auto.
    + destruct (Z.eq_dec (nth n y 0) 0) as [E|E].
      * left. exists n. split; auto.
      * right. intros i Hi. destruct (Nat.eq_dec i n); [subst; auto|]. apply IH. lia.
Qed.

Lemma div_both f b w n lanes x x' y y' : 0 < w -> (n <= lanes)%nat -> (forall a b, 0 <= f a b < 2 ^ w) ->
  vrel w lanes n x x' -> vrel w lanes n y y' ->
  both (vrel w lanes n) (vec_divide f false w x (divisor b w n y)) (vec_divide f false w x' (divisor b w n y')).
Proof.
  intros Hw Hn Hf (Rx & Rx' & Lx & Ax) (Ry & Ry' & Ly & Ay).
  destruct (zero_dec y n) as [(i & Hi & E)|Hnz].
  - assert (U : forall u v, register w lanes u -> register w lanes v -> nth i v 0 = 0 ->
      vec_divide f false w u (divisor b w n v) = None).
    { intros u v [Hu _] [Hv _] Ev. apply vec_undefined with (i := i); rewrite ?divisor_len; try lia.
      rewrite divisor_elem by lia. unfold quotient_ok. intros [H _]. auto. }
    rewrite !U; cbn; auto. rewrite <- Ay; auto.
  - destruct (base_general f false b w n lanes x y) as (q & Hq & Lq & Nq); auto.
    { intros i Hi. split; [apply Hnz; auto|]. intros (? & _). discriminate. }
    { intros; discriminate. }
    destruct (base_general f false b w n lanes x' y') as (q' & Hq' & Lq' & Nq'); auto.
    { intros i Hi. rewrite <- Ay by auto. split; [apply Hnz; auto|]. intros (? & _). discriminate. }
    { intros; discriminate. }
    rewrite Hq, Hq'. cbn. destruct Rx as [Lx1 _], Rx' as [Lx1' _], Ry as [Ly1 _], Ry' as [Ly1' _].
    split; [eapply vec_in_range; [exact Hf| |rewrite divisor_len|exact Hq]; lia|].
    split; [eapply vec_in_range; [exact Hf| |rewrite divisor_len|exact Hq']; lia|].
    split; [lia|]. intros i Hi. rewrite Nq, Nq' by auto. rewrite Ax, Ay by auto. auto.
Qed.

Lemma uns_range w v : 0 <= w -> 0 <= uns w v < 2 ^ w.
Proof. intros. unfold uns. apply Z.mod_pos_bound. lia. Qed.

Lemma nth_mapz (g : Z -> Z) x i : (i < length x)%nat -> nth i (map g x) 0 = g (nth i x 0).
Proof. intros Hi. rewrite (nth_indep _ 0 (g 0)) by (rewrite map_length; lia). apply map_nth. Qed.

Scheme vx_mut := Induction for vx Sort Prop
  with mx_mut := Induction for mx Sort Prop.
Combined Scheme vx_mx_ind from vx_mut, mx_mut.

(* unfolding the mutual evaluation *)
Lemma v_blend {M} (C : mops M) b w n lanes ve me k x y : v_eval C b w n lanes ve me (VBlend k x y) =
  match m_eval C b w n lanes ve me k with
  | Some m => opt2 (fun x y => Some (c_blend C m x y)) (v_eval C b w n lanes ve me x) (v_eval C b w n lanes ve me y)
  | None => None
  end.
Proof. reflexivity. Qed.
Lemma m_cmp {M} (C : mops M) b w n lanes ve me f x y : m_eval C b w n lanes ve me (MCompare f x y) =
  opt2 (fun x y => Some (c_cmp C (map2 f x y))) (v_eval C b w n lanes ve me x) (v_eval C b w n lanes ve me y).
Proof. reflexivity. Qed.
Lemma m_ne {M} (C : mops M) b w n lanes ve me x y : m_eval C b w n lanes ve me (MIntNe x y) =
  opt2 (fun x y => Some (c_intne C (map2 Z.eqb x y))) (v_eval C b w n lanes ve me x) (v_eval C b w n lanes ve me y).
Proof. reflexivity. Qed.

Section Run.
  Context {M : Type} (C : mops M) (sees : M -> list bool -> Prop) (bitmask : bool) (w : Z) (n lanes : nat).
  Context (HC : mops_ok C sees w lanes n) (Hw : 0 < w) (Hn : (n <= lanes)%nat).
  Context (ve ve' : nat -> list Z) (me me' : nat -> M).
  Context (Hv : same_values w lanes n ve ve') (Hm : same_masks sees me me').

  Definition mrel (k k' : M) : Prop := exists l, sees k l /\ sees k' l.

  Lemma run_related :
    (forall e, vx_ok w lanes n e -> both (vrel w lanes n) (v_eval C bitmask w n lanes ve me e) (v_eval C bitmask w n lanes ve' me' e)) /\
    (forall e, mx_ok w lanes n e -> both mrel (m_eval C bitmask w n lanes ve me e) (m_eval C bitmask w n lanes ve' me' e)).
  Proof.
    apply vx_mx_ind.
    - intros j _. cbn. exact (Hv j).
    - intros a Ha. cbn in *.
      assert (R : register w lanes (repeat a lanes)).
      { split; [apply repeat_length|]. apply Forall_forall. intros v Hin. apply repeat_spec in Hin. subst. auto. }
      split; [auto|]. split; [auto|]. split; auto.
    - intros f a IH Ha. cbn in *. specialize (IH Ha).
      destruct (v_eval _ _ _ _ _ ve _ a) as [x|], (v_eval _ _ _ _ _ ve' _ a) as [x'|]; cbn in *; auto.
      destruct IH as ([Lx Rx] & [Lx' Rx'] & L & A).
      assert (R : forall u, length u = lanes -> register w lanes (map (fun v => uns w (f v)) u)).
      { intros u Hu. split; [rewrite map_length; auto|]. apply Forall_forall. intros v Hin.
        apply in_map_iff in Hin as (z & <- & _). apply uns_range. lia. }
      split; [auto|]. split; [auto|]. split; [rewrite !map_length; auto|]. intros i Hi.
      rewrite !nth_mapz by lia. rewrite A; auto.
    - intros f a IHa b IHb [Ha Hb]. cbn. specialize (IHa Ha). specialize (IHb Hb).
      destruct (v_eval _ _ _ _ _ ve _ a) as [x|], (v_eval _ _ _ _ _ ve' _ a) as [x'|]; cbn in *; try tauto;
      destruct (v_eval _ _ _ _ _ ve _ b) as [y|], (v_eval _ _ _ _ _ ve' _ b) as [y'|]; cbn in *; try tauto.
      destruct IHa as ([Lx Rx] & [Lx' Rx'] & L & A). destruct IHb as ([Ly Ry] & [Ly' Ry'] & L1 & A1).
      assert (R : forall u v, length u = lanes -> length v = lanes -> register w lanes (map2 (fun v u => uns w (f v u)) u v)).
      { intros u v Hu Hv0. apply register_intro; [rewrite map2_length; lia|]. intros i Hi.
        rewrite nth_map2z by lia. apply uns_range. lia. }
      split; [auto|]. split; [auto|]. split; [rewrite !map2_length; lia|]. intros i Hi.
      rewrite !nth_map2z by lia. rewrite A, A1; auto.
    - intros F a IHa b IHb (HF & Ha & Hb). cbn. specialize (IHa Ha). specialize (IHb Hb).
      destruct (v_eval _ _ _ _ _ ve _ a) as [x|], (v_eval _ _ _ _ _ ve' _ a) as [x'|]; cbn in *; try tauto;
      destruct (v_eval _ _ _ _ _ ve _ b) as [y|], (v_eval _ _ _ _ _ ve' _ b) as [y'|]; cbn in *; try tauto.
      destruct IHa as (Rx & Rx' & A). destruct IHb as (Ry & Ry' & A1).
      destruct (HF x x' y y' Rx Rx' Ry Ry' A A1) as [R G]. split; [auto|]. split; [|auto].
      apply (HF x' x' y' y'); auto; split; auto.
    - intros a IHa b IHb [Ha Hb]. cbn. specialize (IHa Ha). specialize (IHb Hb).
      destruct (v_eval _ _ _ _ _ ve _ a) as [x|], (v_eval _ _ _ _ _ ve' _ a) as [x'|]; cbn in *; try tauto;
      destruct (v_eval _ _ _ _ _ ve _ b) as [y|], (v_eval _ _ _ _ _ ve' _ b) as [y'|]; cbn in *; try tauto.
      apply div_both; auto. intros; apply uns_range; lia.
    - intros a IHa b IHb [Ha Hb]. cbn. specialize (IHa Ha). specialize (IHb Hb).
      destruct (v_eval _ _ _ _ _ ve _ a) as [x|], (v_eval _ _ _ _ _ ve' _ a) as [x'|]; cbn in *; try tauto;
      destruct (v_eval _ _ _ _ _ ve _ b) as [y|], (v_eval _ _ _ _ _ ve' _ b) as [y'|]; cbn in *; try tauto.
      apply div_both; auto. intros; apply uns_range; lia.
    - intros a IHa i v (Ha & Hi & Hv0). cbn. specialize (IHa Ha).
      destruct (v_eval _ _ _ _ _ ve _ a) as [x|], (v_eval _ _ _ _ _ ve' _ a) as [x'|]; cbn in *; try tauto.
      destruct IHa as (Rx & Rx' & L & A).
      assert (R : forall u, register w lanes u -> register w lanes (upd u i v)).
      { intros u Ru. apply register_intro; [rewrite upd_length; apply Ru|]. intros j Hj.
        destruct (Nat.eq_dec i j) as [<-|E]; [rewrite upd_nth_same by (destruct Ru; lia); auto|].
        rewrite upd_nth_other by auto. apply (register_nth w lanes); auto. }
      split; [auto|]. split; [auto|]. split; [rewrite !upd_length; auto|]. intros j Hj.
      destruct Rx as [Lx _], Rx' as [Lx' _].
      destruct (Nat.eq_dec i j) as [<-|E]; [rewrite !upd_nth_same by lia; auto|].
      rewrite !upd_nth_other by auto. auto.
    - intros k IHk a IHa b IHb (Hk & Ha & Hb). rewrite !v_blend. specialize (IHk Hk). specialize (IHa Ha). specialize (IHb Hb).
      destruct (m_eval _ _ _ _ _ ve _ k) as [c|], (m_eval _ _ _ _ _ ve' _ k) as [c'|]; cbn in *; try tauto.
      destruct (v_eval _ _ _ _ _ ve _ a) as [x|], (v_eval _ _ _ _ _ ve' _ a) as [x'|]; cbn in *; try tauto;
      destruct (v_eval _ _ _ _ _ ve _ b) as [y|], (v_eval _ _ _ _ _ ve' _ b) as [y'|]; cbn in *; try tauto.
      destruct IHk as (l & S & S'). destruct IHa as (Rx & Rx' & L & A). destruct IHb as (Ry & Ry' & L1 & A1).
      destruct (o_blend _ _ _ _ _ HC c l x y S Rx Ry) as [R B].
      destruct (o_blend _ _ _ _ _ HC c' l x' y' S' Rx' Ry') as [R' B'].
      split; [auto|]. split; [auto|]. split; [destruct R, R'; lia|]. intros i Hi.
      rewrite B, B' by auto. rewrite A, A1 by auto. auto.
    - intros j _. cbn. exact (Hm j).
    - intros b _. cbn. exists (repeat b n). split; apply (o_bcast _ _ _ _ _ HC).
    - intros f a IHa b IHb [Ha Hb]. rewrite !m_cmp. specialize (IHa Ha). specialize (IHb Hb).
      destruct (v_eval _ _ _ _ _ ve _ a) as [x|], (v_eval _ _ _ _ _ ve' _ a) as [x'|]; cbn in *; try tauto;
      destruct (v_eval _ _ _ _ _ ve _ b) as [y|], (v_eval _ _ _ _ _ ve' _ b) as [y'|]; cbn in *; try tauto.
      destruct IHa as ([Lx _] & [Lx' _] & A). destruct IHb as ([Ly _] & [Ly' _] & A1).
      exists (firstn n (map2 f x y)). split; [apply (o_cmp _ _ _ _ _ HC); rewrite map2_length; lia|].
      rewrite (agree_firstn f n x x' y y') by (auto; lia). apply (o_cmp _ _ _ _ _ HC). rewrite map2_length. lia.
    - intros a IHa b IHb [Ha Hb]. rewrite !m_ne. specialize (IHa Ha). specialize (IHb Hb).
      destruct (v_eval _ _ _ _ _ ve _ a) as [x|], (v_eval _ _ _ _ _ ve' _ a) as [x'|]; cbn in *; try tauto;
      destruct (v_eval _ _ _ _ _ ve _ b) as [y|], (v_eval _ _ _ _ _ ve' _ b) as [y'|]; cbn in *; try tauto.
      destruct IHa as ([Lx _] & [Lx' _] & A). destruct IHb as ([Ly _] & [Ly' _] & A1).
      exists (map negb (firstn n (map2 Z.eqb x y))). split; [apply (o_intne _ _ _ _ _ HC); rewrite map2_length; lia|].
      rewrite (agree_firstn Z.eqb n x x' y y') by (auto; lia). apply (o_intne _ _ _ _ _ HC). rewrite map2_length. lia.
    - intros k IHk Hk. cbn. specialize (IHk Hk).
      destruct (m_eval _ _ _ _ _ ve _ k) as [c|], (m_eval _ _ _ _ _ ve' _ k) as [c'|]; cbn in *; try tauto.
      destruct IHk as (l & S & S'). exists (map negb l). split; apply (o_not _ _ _ _ _ HC); auto.
    - intros a IHa b IHb [Ha Hb]. cbn. specialize (IHa Ha). specialize (IHb Hb).
      destruct (m_eval _ _ _ _ _ ve _ a) as [x|], (m_eval _ _ _ _ _ ve' _ a) as [x'|]; cbn in *; try tauto;
      destruct (m_eval _ _ _ _ _ ve _ b) as [y|], (m_eval _ _ _ _ _ ve' _ b) as [y'|]; cbn in *; try tauto.
      destruct IHa as (l & S & S'), IHb as (m & T & T'). exists (map2 andb l m). split; apply (o_and _ _ _ _ _ HC); auto.
    - intros a IHa b IHb [Ha Hb]. cbn. specialize (IHa Ha). specialize (IHb Hb).
      destruct (m_eval _ _ _ _ _ ve _ a) as [x|], (m_eval _ _ _ _ _ ve' _ a) as [x'|]; cbn in *; try tauto;
      destruct (m_eval _ _ _ _ _ ve _ b) as [y|], (m_eval _ _ _ _ _ ve' _ b) as [y'|]; cbn in *; try tauto.
      destruct IHa as (l & S & S'), IHb as (m & T & T'). exists (map2 orb l m). split; apply (o_or _ _ _ _ _ HC); auto.
    - intros a IHa b IHb [Ha Hb]. cbn. specialize (IHa Ha). specialize (IHb Hb).
      destruct (m_eval _ _ _ _ _ ve _ a) as [x|], (m_eval _ _ _ _ _ ve' _ a) as [x'|]; cbn in *; try tauto;
      destruct (m_eval _ _ _ _ _ ve _ b) as [y|], (m_eval _ _ _ _ _ ve' _ b) as [y'|]; cbn in *; try tauto.
      destruct IHa as (l & S & S'), IHb as (m & T & T'). exists (map2 xorb l m). split; apply (o_xor _ _ _ _ _ HC); auto.
    - intros k IHk i b [Hk Hi]. cbn. specialize (IHk Hk).
      destruct (m_eval _ _ _ _ _ ve _ k) as [c|], (m_eval _ _ _ _ _ ve' _ k) as [c'|]; cbn in *; try tauto.
      destruct IHk as (l & S & S'). exists (upd l i b). split; apply (o_set _ _ _ _ _ HC); auto.
    - intros k IHk a IHa b IHb (Hk & Ha & Hb). cbn [m_eval]. specialize (IHk Hk). specialize (IHa Ha). specialize (IHb Hb).
      destruct (m_eval _ _ _ _ _ ve _ k) as [c|], (m_eval _ _ _ _ _ ve' _ k) as [c'|]; cbn in *; try tauto.
      destruct (m_eval _ _ _ _ _ ve _ a) as [x|], (m_eval _ _ _ _ _ ve' _ a) as [x'|]; cbn in *; try tauto;
      destruct (m_eval _ _ _ _ _ ve _ b) as [y|], (m_eval _ _ _ _ _ ve' _ b) as [y'|]; cbn in *; try tauto.
      destruct IHk as (l & S & S'), IHa as (m & T & T'), IHb as (p & U & U').
      eexists. split; apply (o_assign _ _ _ _ _ HC); eauto.
  Qed.
End Run.

(* ---- vector masks *)
Lemma bits_below x w : 0 <= w -> 0 <= x -> (forall j, w <= j -> Z.testbit x j = false) -> x < 2 ^ w.
Proof.
  intros Hw Hx H. destruct (Z.eq_dec x 0) as [->|Hn]; [apply Z.pow_pos_nonneg; lia|].
  destruct (Z_lt_le_dec (Z.log2 x) w) as [Hl|Hl].
  - apply Z.log2_lt_pow2; lia.
  - specialize (H _ Hl). rewrite Z.bit_log2 in H by lia. discriminate.
Qed.

Lemma high_bits x w j : 0 <= x < 2 ^ w -> w <= j -> Z.testbit x j = false.
Proof.
  intros Hx Hj. destruct (Z.eq_dec x 0) as [->|]; [apply Z.bits_0|].
  destruct (Z_lt_le_dec w 0); [rewrite (Z.pow_neg_r 2 w) in Hx by lia; lia|].
  apply Z.bits_above_log2; [lia|]. assert (Z.log2 x < w) by (apply Z.log2_lt_pow2; lia). lia.
Qed.

Lemma land_in w a b : 0 <= w -> 0 <= a < 2 ^ w -> 0 <= b < 2 ^ w -> 0 <= Z.land a b < 2 ^ w.
Proof.
  intros Hw Ha Hb. assert (0 <= Z.land a b) by (apply Z.land_nonneg; lia). split; auto.
  apply bits_below; auto. intros j Hj. rewrite Z.land_spec, (high_bits a w j); auto.
Qed.
Lemma lor_in w a b : 0 <= w -> 0 <= a < 2 ^ w -> 0 <= b < 2 ^ w -> 0 <= Z.lor a b < 2 ^ w.
Proof.
  intros Hw Ha Hb. assert (0 <= Z.lor a b) by (apply Z.lor_nonneg; lia). split; auto.
  apply bits_below; auto. intros j Hj. rewrite Z.lor_spec, (high_bits a w j), (high_bits b w j); auto.
Qed.
Lemma lxor_in w a b : 0 <= w -> 0 <= a < 2 ^ w -> 0 <= b < 2 ^ w -> 0 <= Z.lxor a b < 2 ^ w.
Proof.
  intros Hw Ha Hb. assert (0 <= Z.lxor a b) by (apply Z.lxor_nonneg; lia). split; auto.
  apply bits_below; auto. intros j Hj. rewrite Z.lxor_spec, (high_bits a w j), (high_bits b w j); auto.
Qed.

Lemma nth_map2b (f : bool -> bool -> bool) l m i : (i < length l)%nat -> (i < length m)%nat ->
  nth i (map2 f l m) false = f (nth i l false) (nth i m false).
Proof. intros. apply map2_nth; auto. Qed.
Lemma nth_negb l i : (i < length l)%nat -> nth i (map negb l) false = negb (nth i l false).
Proof. intros. rewrite (nth_indep _ false (negb false)) by (rewrite map_length; lia). apply map_nth. Qed.

Section Vec.
  Context (s : shape) (Hs : shape_ok s).

  Lemma lw_nonneg : 0 <= lw s. Proof. unfold lw. lia. Qed.
  Lemma lane_range b : 0 <= lane_bool s b < 2 ^ lw s.
  Proof. unfold lane_bool. destruct b; [pose proof (ones_pos s Hs); lia|]. split; [lia|]. apply Z.pow_pos_nonneg; [lia|apply lw_nonneg]. Qed.

  Lemma holds_intro x l : length x = st s -> length l = sn s ->
    (forall i, (i < sn s)%nat -> nth i x 0 = lane_bool s (nth i l false)) ->
    (forall i, (i < st s)%nat -> 0 <= nth i x 0 < 2 ^ lw s) -> holds s x l.
  Proof. intros H1 H2 H3 H4. split; [auto|]. split; [auto|]. split; auto. Qed.

  Lemma implicit_nth i : (i < st s)%nat -> nth i (vec_implicit s) 0 = lane_bool s (i <? sn s)%nat.
  Proof.
    intros Hi. unfold vec_implicit. destruct (Nat.ltb_spec (sn s) (st s)).
    - rewrite (nth_indep _ 0 (if (0 <? sn s)%nat then ones s else 0)) by (rewrite map_length, seq_length; lia).
      rewrite (map_nth (fun i => if (i <? sn s)%nat then ones s else 0)). rewrite seq_nth by lia. cbn. reflexivity.
    - rewrite nth_repeat_lt by auto. destruct (Nat.ltb_spec i (sn s)); [reflexivity|lia].
  Qed.
  Lemma implicit_len : length (vec_implicit s) = st s.
  Proof. unfold vec_implicit. destruct (_ <? _)%nat; [rewrite map_length; apply seq_length|apply repeat_length]. Qed.

  Lemma lanes_map l (g : bool -> Z) i : (i < length l)%nat -> nth i (map g l) 0 = g (nth i l false).
  Proof. intros Hi. rewrite (nth_indep _ 0 (g false)) by (rewrite map_length; auto). apply map_nth. Qed.

  Lemma op_vec f (g : bool -> bool -> bool) j l k m :
    (forall a b, 0 <= a < 2 ^ lw s -> 0 <= b < 2 ^ lw s -> 0 <= f a b < 2 ^ lw s) ->
    (forall a b, f (lane_bool s a) (lane_bool s b) = lane_bool s (g a b)) ->
    holds s j l -> holds s k m -> holds s (map2 f j k) (map2 g l m).
  Proof.
    intros Hf Hg (J1 & J2 & J3 & J4) (K1 & K2 & K3 & K4). pose proof Hs as (_ & _ & Hn & _).
    apply holds_intro; [rewrite map2_length; lia..| |]; intros i Hi.
    - rewrite nth_map2z, nth_map2b by lia. rewrite <- Hg. unfold lane_bool. unfold ones, lw. rewrite J3, K3 by auto. reflexivity.
    - rewrite nth_map2z by lia. apply Hf; [apply J4|apply K4]; auto.
  Qed.

  Lemma vec_ok sel : selects s sel -> mops_ok (vec_mops s sel) (holds s) (lw s) (st s) (sn s).
  Proof.
    intros Hsel. pose proof Hs as (_ & _ & Hn & _). pose proof lw_nonneg as Hw.
    constructor; cbn [vec_mops c_bcast c_cmp c_intne c_not c_and c_or c_xor c_set c_assign c_blend].
    - intros k l (_ & H & _). auto.
    - intros b. apply holds_intro; [destruct b; [apply implicit_len|apply repeat_length]|apply repeat_length| |]; intros i Hi.
      + rewrite nth_repeat_lt by auto. destruct b; [|apply nth_repeat]. rewrite implicit_nth by lia.
        destruct (Nat.ltb_spec i (sn s)); [reflexivity|lia].
      + destruct b; [rewrite implicit_nth by auto; apply lane_range|]. rewrite nth_repeat. apply (lane_range false).
    - intros l Hl. apply holds_intro; [rewrite map_length; auto|rewrite firstn_length; lia| |]; intros i Hi; rewrite lanes_map by (auto; lia).
      + rewrite nth_firstn_lt by auto. auto.
      + apply lane_range.
    - intros l Hl. apply holds_intro; [rewrite map_length; auto|rewrite map_length, firstn_length; lia| |]; intros i Hi; rewrite lanes_map by (auto; lia).
      + rewrite nth_negb by (rewrite firstn_length; lia). rewrite nth_firstn_lt by auto. auto.
      + apply lane_range.
    - intros k l (K1 & K2 & K3 & K4). unfold vec_not. destruct (Nat.ltb_spec (sn s) (st s)).
      + apply holds_intro; [rewrite map2_length, implicit_len; lia|rewrite map_length; auto| |]; intros i Hi.
        * rewrite nth_map2z, implicit_nth, nth_negb by (rewrite ?implicit_len; lia). rewrite K3 by auto.
          destruct (Nat.ltb_spec i (sn s)); [|lia]. destruct (nth i l false).
          -- change (Z.land (Z.lnot (ones s)) (ones s) = 0). apply Z.bits_inj'. intros j Hj.
             rewrite Z.land_spec, Z.lnot_spec by auto. rewrite Z.bits_0. destruct (Z.testbit _ _); auto.
          -- change (Z.land (-1) (ones s) = ones s). apply Z.land_m1_l.
        * rewrite nth_map2z, implicit_nth by (rewrite ?implicit_len; lia).
          pose proof (lane_range (i <? sn s)%nat) as R. set (m := lane_bool s _) in *.
          assert (E : 0 <= Z.land (Z.lnot (nth i k 0)) m) by (apply Z.land_nonneg; lia). split; auto.
          apply bits_below; auto. intros j Hj. rewrite Z.land_spec, (high_bits m (lw s)) by auto. apply andb_false_r.
      + apply holds_intro; [rewrite map_length; auto|rewrite map_length; auto| |]; intros i Hi.
        * rewrite nth_mapz, nth_negb by lia. rewrite K3 by auto. destruct (nth i l false); cbn.
          -- change (ones s - ones s = 0). lia.
          -- lia.
        * rewrite nth_mapz by lia. specialize (K4 i Hi). unfold ones. fold (lw s) in K4. lia.
    - intros j l k m. apply op_vec; [intros; apply land_in; auto|].
      intros [] []; cbn; rewrite ?Z.land_diag, ?Z.land_0_r; auto.
    - intros j l k m. apply op_vec; [intros; apply lor_in; auto|].
      intros [] []; cbn; rewrite ?Z.lor_diag, ?Z.lor_0_r; auto.
    - intros j l k m. apply op_vec; [intros; apply lxor_in; auto|].
      intros [] []; cbn; rewrite ?Z.lxor_nilpotent, ?Z.lxor_0_r; auto.
    - intros k l i b (K1 & K2 & K3 & K4) Hi. apply holds_intro; [rewrite upd_length; auto..| |]; intros j Hj;
        (destruct (Nat.eq_dec i j) as [<-|E]; [rewrite !upd_nth_same by lia|rewrite !upd_nth_other by auto]); auto; try apply lane_range.
      apply (K3 j Hj).
    - intros k l a m b p (K1 & K2 & K3 & K4) (A1 & A2 & A3 & A4) (B1 & B2 & B3 & B4).
      apply holds_intro; [rewrite map3_length; lia..| |]; intros i Hi;
        rewrite (map3_nth _ _ _ _ _ 0 0 0) by lia.
      + rewrite (map3_nth _ _ _ _ _ false false false) by lia.
        destruct (Hsel (nth i k 0) (nth i a 0) (nth i b 0)) as (S0 & S1 & _); [apply K4|apply A4|apply B4|]; try lia.
        rewrite K3 by auto. destruct (nth i l false); [fold (ones s) in *|]; unfold ones, lw in *; rewrite ?S0, ?S1; [rewrite B3|rewrite A3]; auto.
      + apply Hsel; [apply K4|apply A4|apply B4]; auto.
    - intros k l x y (K1 & K2 & K3 & K4) Rx Ry. pose proof (proj1 Rx). pose proof (proj1 Ry). split.
      + apply register_intro; [rewrite map3_length; lia|]. intros i Hi. rewrite (map3_nth _ _ _ _ _ 0 0 0) by lia.
        apply Hsel; [apply K4; auto|eapply register_nth; eauto..].
      + intros i Hi. rewrite (map3_nth _ _ _ _ _ 0 0 0) by lia.
        destruct (Hsel (nth i k 0) (nth i x 0) (nth i y 0)) as (S0 & S1 & _);
          [apply K4; lia|eapply register_nth; eauto; lia..|].
        rewrite K3 by auto. destruct (nth i l false); unfold ones, lw in *; auto.
  Qed.
End Vec.

(* ---- bit masks *)
Section Bits.
  Context (n : nat) (Hn : size_ok n).

  Lemma bits_intro k l : 0 <= k < 2 ^ Z.of_nat (kw n) -> length l = n ->
    (forall i, (i < n)%nat -> Z.testbit k (Z.of_nat i) = nth i l false) -> bits_hold n k l.
  Proof. intros. split; [auto|]. split; auto. Qed.

  Lemma small i : (i < n)%nat -> (i < kw n)%nat.
  Proof. pose proof (kw_ge n Hn). lia. Qed.

  Lemma implicit_low i : (i < n)%nat -> Z.testbit (implicit_mask n) (Z.of_nat i) = true.
  Proof. intros Hi. rewrite implicit_bit by (auto using small). apply Nat.ltb_lt. auto. Qed.

  Lemma bit_ok w lanes : (n <= lanes)%nat -> mops_ok (bit_mops n) (bits_hold n) w lanes n.
  Proof.
    intros Hlanes. constructor; cbn [bit_mops c_bcast c_cmp c_intne c_not c_and c_or c_xor c_set c_assign c_blend].
    - intros k l (_ & H & _). auto.
    - intros b. unfold k_broadcast. apply bits_intro; [|apply repeat_length|].
      + destruct b; [apply masked_bound, kword_bound|]. split; [lia|]. apply Z.pow_pos_nonneg; lia.
      + intros i Hi. rewrite nth_repeat_lt by auto. destruct b; [|apply Z.bits_0].
        rewrite masked_bit by (auto; apply kword_bound). rewrite kword_bit by (auto using small).
        rewrite Z.bits_m1 by lia. cbn. apply Nat.ltb_lt. auto.
    - intros l Hl. unfold k_compare. apply bits_intro; [apply kword_bound|rewrite firstn_length; lia|].
      intros i Hi. rewrite kword_bit, Z.land_spec, implicit_low, of_lanes_bit by (auto using small).
      rewrite nth_firstn_lt by auto. auto.
    - intros l Hl. unfold k_int_not_equal. apply bits_intro; [apply kword_bound|rewrite map_length, firstn_length; lia|].
      intros i Hi. rewrite kword_bit, Z.lnot_spec, Z.land_spec, implicit_low, of_lanes_bit by (auto using small; lia).
      rewrite nth_negb by (rewrite firstn_length; lia). rewrite nth_firstn_lt by auto. auto.
    - intros k l (K1 & K2 & K3). unfold k_not. apply bits_intro; [apply kword_bound|rewrite map_length; auto|].
      intros i Hi. rewrite kword_bit, Z.land_spec, Z.lnot_spec, implicit_low by (auto using small; lia).
      rewrite nth_negb, K3 by lia. apply andb_true_r.
    - intros j l k m (J1 & J2 & J3) (K1 & K2 & K3). unfold k_and. apply bits_intro; [apply kword_bound|rewrite map2_length; lia|].
      intros i Hi. rewrite kword_bit, Z.land_spec, nth_map2b, J3, K3 by (auto using small; lia). auto.
    - intros j l k m (J1 & J2 & J3) (K1 & K2 & K3). unfold k_or. apply bits_intro; [apply kword_bound|rewrite map2_length; lia|].
      intros i Hi. rewrite kword_bit, Z.lor_spec, nth_map2b, J3, K3 by (auto using small; lia). auto.
    - intros j l k m (J1 & J2 & J3) (K1 & K2 & K3). unfold k_xor. apply bits_intro; [apply kword_bound|rewrite map2_length; lia|].
      intros i Hi. rewrite kword_bit, Z.lxor_spec, nth_map2b, J3, K3 by (auto using small; lia). auto.
    - intros k l i b (K1 & K2 & K3) Hi. apply bits_intro; [apply set_bound|rewrite upd_length; auto|].
      intros j Hj. rewrite set_bit by (auto using small).
      destruct (Nat.eq_dec i j) as [<-|E].
      + rewrite upd_nth_same by lia. rewrite Nat.eqb_refl. auto.
      + rewrite upd_nth_other by auto. rewrite (proj2 (Nat.eqb_neq _ _)) by auto. auto.
    - intros k l a m b p (K1 & K2 & K3) (A1 & A2 & A3) (B1 & B2 & B3). unfold k_assign.
      apply bits_intro; [apply kword_bound|rewrite map3_length; lia|].
      intros i Hi. rewrite kword_bit, Z.lor_spec, !Z.land_spec, Z.lnot_spec, K3, A3, B3 by (auto using small; lia).
      rewrite (map3_nth _ _ _ _ _ false false false) by lia.
      destruct (nth i l false), (nth i m false), (nth i p false); auto.
    - intros k l x y (K1 & K2 & K3) Rx Ry. pose proof (proj1 Rx). pose proof (proj1 Ry). unfold bits_blend. split.
      + apply register_intro; [rewrite map3_length, seq_length; lia|]. intros i Hi.
        rewrite (map3_nth _ _ _ _ _ 0%nat 0 0) by (rewrite ?seq_length; lia).
        destruct (k_get _ _); eapply register_nth; eauto.
      + intros i Hi. rewrite (map3_nth _ _ _ _ _ 0%nat 0 0) by (rewrite ?seq_length; lia).
        rewrite seq_nth by lia. rewrite k_get_bit. cbn [Nat.add]. rewrite K3 by auto. auto.
  Qed.
End Bits.
