(* The x86 conversions of registers convert every element. *)
From Coq Require Import ZArith List Bool Arith Lia Psatz.
From Verif Require Import Prelude X86Lanes FloatSpec FloatRoundSpec FloatBits FloatArith FloatProofs FloatArithProofs
  FloatRoundProofs FloatRoundTop ScalarSpec Scalar ScalarProofs NarrowSpec Narrow NarrowProofs XConv XConvSpec XConvAbs XConvLanes XConvProofs.
Import ListNotations.
Local Open Scope Z_scope.

(* ------------------------------------------------------------------ *)
(* sizes *)
Lemma pow256 w : 256 ^ Z.of_nat w = 2 ^ (8 * Z.of_nat w).
Proof. change 256 with (2 ^ 8). rewrite <- Z.pow_mul_r by lia. auto. Qed.
Lemma elem_width t : elem_type t -> exists w, esize t = w /\ (w = 1 \/ w = 2 \/ w = 4 \/ w = 8)%nat.
Proof. destruct t as [w s|w]; cbn; intros H; exists w; intuition auto. Qed.
Lemma int_std w sg : (w = 1 \/ w = 2 \/ w = 4 \/ w = 8)%nat -> std_type (int_ty w sg).
Proof. unfold std_type, int_ty. cbn [iw]. intros [->|[->|[->| ->]]]; cbn; auto. Qed.
Lemma fmt_pattern w x : elem_type (EF w) -> pattern (fmt_of w) x <-> 0 <= x < 256 ^ Z.of_nat w.
Proof. intros [-> | ->]; rewrite pow256; reflexivity. Qed.

Lemma le_byte_mod p w k : (k < w)%nat -> le_byte (p mod 256 ^ Z.of_nat w) k = le_byte p k.
Proof.
  intros H. unfold le_byte. assert (0 < 256 ^ Z.of_nat k) by (apply Z.pow_pos_nonneg; lia).
  replace (256 ^ Z.of_nat w) with (256 ^ Z.of_nat k * (256 * 256 ^ Z.of_nat (w - k - 1))).
  2:{ rewrite <- Z.pow_succ_r, <- Z.pow_add_r by lia. f_equal. lia. }
  assert (0 < 256 ^ Z.of_nat (w - k - 1)) by (apply Z.pow_pos_nonneg; lia).
  rewrite Z.rem_mul_r by lia. rewrite (Z.mul_comm (256 ^ Z.of_nat k)), Z.div_add by lia.
  rewrite (Z.div_small (p mod _)) by (apply Z.mod_pos_bound; lia). rewrite Z.add_0_l.
  rewrite Z.rem_mul_r by lia. rewrite (Z.mul_comm 256), Z.mod_add by lia. apply Z.mod_mod. lia.
Qed.
Lemma bytes_of_mod w p : bytes_of w (p mod 256 ^ Z.of_nat w) = bytes_of w p.
Proof.
  unfold bytes_of. apply map_ext_in. intros k Hk. apply in_seq in Hk. f_equal. apply (le_byte_mod p w k). lia.
Qed.
Lemma le_byte_shift p a k : le_byte (p / 256 ^ Z.of_nat a) k = le_byte p (a + k).
Proof.
  unfold le_byte. rewrite Z.div_div by (try lia; apply Z.pow_pos_nonneg; lia).
  rewrite <- Z.pow_add_r by lia. rewrite Nat2Z.inj_add. auto.
Qed.

(* ------------------------------------------------------------------ *)
(* integers *)
Lemma value_range w sg p : (w = 1 \/ w = 2 \/ w = 4 \/ w = 8)%nat -> 0 <= p < 256 ^ Z.of_nat w -> has (int_ty w sg) (value (EI w sg) p).
Proof.
  intros Hw Hp. destruct sg; cbn [value].
  - apply (conv_wraps _ (int_std w true Hw)).
  - unfold has. cbn. rewrite pow256 in Hp. auto.
Qed.
Lemma value_mod w sg p : (w = 1 \/ w = 2 \/ w = 4 \/ w = 8)%nat -> 0 <= p < 256 ^ Z.of_nat w ->
  value (EI w sg) p mod 256 ^ Z.of_nat w = p.
Proof.
  intros Hw Hp. destruct sg; cbn [value]; [|apply Z.mod_small; auto].
  destruct (conv_wraps _ (int_std w true Hw) p) as [_ [k ->]]. cbn [iw int_ty]. rewrite <- pow256.
  rewrite Z.mod_add by lia. apply Z.mod_small; auto.
Qed.
Lemma value_sign w p : (w = 1 \/ w = 2 \/ w = 4 \/ w = 8)%nat -> 0 <= p < 256 ^ Z.of_nat w ->
  value (EI w true) p = if le_byte p (w - 1) <? 128 then p else p - 256 ^ Z.of_nat w.
Proof.
  intros Hw Hp. cbn [value]. unfold conv, int_ty. cbn [iw isg andb]. rewrite <- pow256. rewrite (Z.mod_small p) by auto.
  replace (2 ^ (8 * Z.of_nat w - 1)) with (128 * 256 ^ Z.of_nat (w - 1)).
  2:{ change 128 with (2 ^ 7). rewrite pow256, <- Z.pow_add_r by lia. f_equal. lia. }
  unfold le_byte. assert (P : 0 < 256 ^ Z.of_nat (w - 1)) by (apply Z.pow_pos_nonneg; lia).
  assert (E : 256 ^ Z.of_nat w = 256 * 256 ^ Z.of_nat (w - 1)) by (rewrite <- Z.pow_succ_r by lia; f_equal; lia).
  pose proof (Z.div_mod p (256 ^ Z.of_nat (w - 1)) ltac:(lia)) as D. pose proof (Z.mod_pos_bound p (256 ^ Z.of_nat (w - 1)) P).
  rewrite (Z.mod_small (p / _)) by nia. set (q := p / _) in *. set (m := p mod _) in *.
  destruct (Z.leb_spec (128 * 256 ^ Z.of_nat (w - 1)) p), (Z.ltb_spec q 128); auto; nia.
Qed.
Lemma le_byte_above p w k : 0 <= p < 256 ^ Z.of_nat w -> (w <= k)%nat -> le_byte p k = 0.
Proof.
  intros Hp Hk. unfold le_byte. rewrite Z.div_small; auto.
  assert (256 ^ Z.of_nat w <= 256 ^ Z.of_nat k) by (apply Z.pow_le_mono_r; lia). lia.
Qed.
Lemma le_byte_above_neg p w k : 0 <= p < 256 ^ Z.of_nat w -> (w <= k)%nat -> le_byte (p - 256 ^ Z.of_nat w) k = 255.
Proof.
  intros Hp Hk. unfold le_byte.
  assert (256 ^ Z.of_nat w <= 256 ^ Z.of_nat k) by (apply Z.pow_le_mono_r; lia).
  replace ((p - 256 ^ Z.of_nat w) / 256 ^ Z.of_nat k) with (-1); auto.
  apply Z.div_unique with (p - 256 ^ Z.of_nat w + 256 ^ Z.of_nat k); lia.
Qed.
Lemma value_le_byte w sg p k : (w = 1 \/ w = 2 \/ w = 4 \/ w = 8)%nat -> 0 <= p < 256 ^ Z.of_nat w ->
  le_byte (value (EI w sg) p) k =
  if (k <? w)%nat then le_byte p k else if sg then (if le_byte p (w - 1) <? 128 then 0 else 255) else 0.
Proof.
  intros Hw Hp. destruct (Nat.ltb_spec k w) as [H|H].
  - rewrite <- (le_byte_mod _ w k H), value_mod by auto. auto.
  - destruct sg.
    + rewrite value_sign by auto. destruct (_ <? _); [eapply le_byte_above|eapply le_byte_above_neg]; eauto.
    + cbn [value]. eapply le_byte_above; eauto.
Qed.
Lemma stands_mod w sg x : (w = 1 \/ w = 2 \/ w = 4 \/ w = 8)%nat ->
  stands_for (EI w sg) (x mod 256 ^ Z.of_nat w) (conv (int_ty w sg) x).
Proof.
  intros Hw. unfold stands_for. cbn [esize]. rewrite <- pow256. split; [apply Z.mod_pos_bound, Z.pow_pos_nonneg; lia|].
  unfold conv, int_ty. cbn [iw isg]. rewrite <- pow256. rewrite Z.mod_mod; auto.
  assert (0 < 256 ^ Z.of_nat w) by (apply Z.pow_pos_nonneg; lia). lia.
Qed.
Lemma value_small w sg w' : (w = 1 \/ w = 2 \/ w = 4 \/ w = 8)%nat -> (w < w' \/ w = w' /\ sg = true)%nat -> (w' = 4)%nat ->
  forall p, 0 <= p < 256 ^ Z.of_nat w ->
  value (EI w' true) (value (EI w sg) p mod 256 ^ Z.of_nat w') = value (EI w sg) p.
Proof.
  intros Hw H -> p Hp. pose proof (value_range w sg p Hw Hp) as R. cbn [value]. 
  transitivity (conv (int_ty 4 true) (value (EI w sg) p)).
  { destruct (stands_mod 4 true (value (EI w sg) p) ltac:(auto)) as [_ E]. exact E. }
  apply conv_same; [apply int_std; auto|]. unfold has in *. cbn [int_ty iw isg] in *.
  destruct Hw as [->|[->|[->| ->]]], sg; cbn in *; try lia; destruct H as [H|[_ H]]; try lia; discriminate.
Qed.

(* ------------------------------------------------------------------ *)
(* ranges of results *)
Lemma fof_int_range f md v : elem_type (EF f) -> 0 <= fof_int (fmt_of f) md v < 256 ^ Z.of_nat f.
Proof. intros Hf. apply fmt_pattern; auto. apply fround_pattern; [apply fmt_of_ok|lia]. Qed.
Lemma fconv_range f g md x : elem_type (EF g) -> 0 <= fconv (fmt_of f) (fmt_of g) md x < 256 ^ Z.of_nat g.
Proof.
  intros Hg. apply fmt_pattern; auto. pose proof (fmt_of_ok g) as F. unfold fconv.
  destruct (decode (fmt_of f) x).
  - apply pattern_nan; auto.
  - apply with_sign_pattern; [auto|]. pose proof (inf_pos _ F). pose proof (inf_lt _ F). lia.
  - destruct (Z.leb_spec (unit (fmt_of f)) (unit (fmt_of g))); apply fround_pattern; auto; lia.
Qed.
Lemma fadd_range f md x y : elem_type (EF f) -> 0 <= fadd (fmt_of f) md x y < 256 ^ Z.of_nat f.
Proof. intros Hf. apply fmt_pattern; auto. apply fadd_pattern, fmt_of_ok. Qed.
Lemma fmul_range f md x y : elem_type (EF f) -> 0 <= fmul (fmt_of f) md x y < 256 ^ Z.of_nat f.
Proof.
  intros Hf. apply fmt_pattern; auto. pose proof (fmt_of_ok f) as F. unfold fmul.
  pose proof (inf_pos _ F). pose proof (inf_lt _ F). pose proof (pattern_nan _ F).
  assert (U : 0 <= unit (fmt_of f)) by (pose proof (unit_pos _ F); pose proof (mb_pos _ F); lia).
  destruct (decode (fmt_of f) x), (decode (fmt_of f) y); auto; try (apply with_sign_pattern; [auto|lia]);
    try (apply fround_pattern; auto); destruct (_ =? _); auto; apply with_sign_pattern; auto; lia.
Qed.
Lemma fto_int_has f w sg x v : fto_int f (int_ty w sg) x = Some v -> has (int_ty w sg) v.
Proof.
  unfold fto_int, has. destruct (decode f x) as [|?|s m]; try discriminate. cbn [int_ty isg].
  destruct sg; cbn [iw]; destruct (_ && _) eqn:E; try discriminate; intros H; inversion H; subst;
    apply andb_prop in E as [E1 E2]; apply Z.leb_le in E1; apply Z.ltb_lt in E2; lia.
Qed.

Lemma converted_stands md t u p v : elem_type t -> elem_type u -> converted md t u p = Some v ->
  stands_for u (pattern_of u v) v.
Proof.
  intros Ht Hu E. unfold converted in E. destruct u as [w sg|g]; cbn [pattern_of].
  - rewrite <- pow256. assert (H : has (int_ty w sg) v).
    { destruct t as [w0 sg0|f]; cbn [aty_of cast] in E.
      - inversion E. apply (conv_wraps _ (int_std w sg Hu)).
      - rewrite format_fmt_of in E by auto. eapply fto_int_has; eauto. }
    rewrite <- (conv_same _ (int_std w sg Hu) v H) at 2. apply stands_mod; auto.
  - split; [|left; auto]. cbn [esize]. rewrite <- pow256.
    destruct t as [w0 sg0|f]; cbn [aty_of cast] in E; inversion E; rewrite !format_fmt_of by auto;
      [apply fof_int_range|apply fconv_range]; auto.
Qed.

(* ------------------------------------------------------------------ *)
Section Template.
  Variables (ub : Z -> Z) (md : rmode) (byt : nat -> nat -> Z) (j : nat) (p : Z).
  Hypothesis Hj : forall k, byt j k = le_byte p k.
  Let den := sden ub md byt.
  Let rp := rep ub md byt.

  Lemma den_args o n : map den (map (BArg j) (seq o n)) = bytes_of n (p / 256 ^ Z.of_nat o).
  Proof.
    unfold bytes_of. rewrite map_map. rewrite <- (Nat.add_0_r o) at 1. generalize 0%nat. induction n; intros s; cbn [seq map]; auto.
    f_equal.
    - unfold den; cbn [sden]. rewrite Hj. f_equal. symmetry. apply le_byte_shift.
    - rewrite plus_n_Sm. apply IHn.
  Qed.
  Lemma rep_part o n : rp (map (BArg j) (seq o n)) n (p / 256 ^ Z.of_nat o mod 256 ^ Z.of_nat n).
  Proof.
    split; [|apply Z.mod_pos_bound, Z.pow_pos_nonneg; lia]. rewrite bytes_of_mod. apply den_args.
  Qed.
  Lemma rep_src w : 0 <= p < 256 ^ Z.of_nat w -> rp (src w j) w p.
  Proof.
    intros H. unfold src. generalize (rep_part 0 w). cbn [Z.of_nat]. rewrite Z.pow_0_r, Z.div_1_r, Z.mod_small by auto. auto.
  Qed.
  Lemma rep_widen w sg v : (w = 1 \/ w = 2 \/ w = 4 \/ w = 8)%nat -> 0 <= p < 256 ^ Z.of_nat w ->
    rp (widen w sg v j) v (value (EI w sg) p mod 256 ^ Z.of_nat v).
  Proof.
    intros Hw Hp. split; [|apply Z.mod_pos_bound, Z.pow_pos_nonneg; lia]. rewrite bytes_of_mod.
    unfold widen. rewrite <- firstn_map, map_app.
    assert (E : map den (src w j) = bytes_of w p) by apply (rep_src w Hp). unfold den in E. rewrite E.
    assert (B : forall k, Some (value (EI w sg) p / 256 ^ Z.of_nat k mod 256) = Some (le_byte (value (EI w sg) p) k)) by auto.
    unfold bytes_of at 2. rewrite (map_ext _ _ B). clear B.
    rewrite (map_ext _ _ (fun k => f_equal Some (value_le_byte w sg p k Hw Hp))).
    set (s := if sg then BSgn (BArg j (w - 1)) else BZ).
    set (z := if sg then if le_byte p (w - 1) <? 128 then 0 else 255 else 0).
    assert (Ez : sden ub md byt s = Some z).
    { unfold s, z. destruct sg; cbn [sden]; auto. rewrite Hj. reflexivity. }
    assert (Er : map (sden ub md byt) (repeat s (v - w)) = repeat (Some z) (v - w)).
    { clear - Ez. induction (v - w)%nat; cbn; auto. rewrite Ez. f_equal. auto. }
    rewrite Er. clear - Hw.
    assert (L : (w <= v)%nat \/ (v < w)%nat) by lia. destruct L as [L|L].
    - replace v with (w + (v - w))%nat at 3 by lia. rewrite seq_app, map_app. rewrite firstn_all2.
      + f_equal.
        * unfold bytes_of. apply map_ext_in. intros k Hk. apply in_seq in Hk.
          replace (k <? w)%nat with true by (symmetry; apply Nat.ltb_lt; lia). reflexivity.
        * assert (G : forall n s, (w <= s)%nat ->
            repeat (Some z) n = map (fun x => Some (if (x <? w)%nat then le_byte p x else z)) (seq s n)).
          { induction n; intros s0 Hs; cbn [repeat seq map]; auto. f_equal; [|apply IHn; lia].
            replace (s0 <? w)%nat with false by (symmetry; apply Nat.ltb_ge; lia). auto. }
          apply G. lia.
      + rewrite app_length, bytes_of_length, repeat_length. lia.
    - replace (v - w)%nat with 0%nat by lia. cbn [repeat]. rewrite app_nil_r. unfold bytes_of. rewrite firstn_map.
      replace (firstn v (seq 0 w)) with (seq 0 v).
      + apply map_ext_in. intros k Hk. apply in_seq in Hk.
        replace (k <? w)%nat with true by (symmetry; apply Nat.ltb_lt; lia). reflexivity.
      + replace w with (v + (w - v))%nat by lia. rewrite seq_app, firstn_app, seq_length, Nat.sub_diag.
        rewrite firstn_all2 by (rewrite seq_length; lia). cbn. rewrite app_nil_r. auto.
  Qed.
  Lemma rep_halves a b : rp [BArg j a; BArg j b; BZ; BZ] 4 (le_byte p a + 256 * le_byte p b).
  Proof.
    pose proof (le_byte_range p a) as A. pose proof (le_byte_range p b) as B. split; [|change (256 ^ Z.of_nat 4) with 4294967296; lia].
    unfold bytes_of. cbn [map seq sden]. rewrite !Hj. set (x := le_byte p a) in *. set (y := le_byte p b) in *.
    change (256 ^ Z.of_nat 0) with 1. change (256 ^ Z.of_nat 1) with 256. change (256 ^ Z.of_nat 2) with 65536. change (256 ^ Z.of_nat 3) with 16777216.
    rewrite Z.div_1_r. rewrite (Z.div_small (x + 256 * y) 65536), (Z.div_small (x + 256 * y) 16777216) by lia.
    replace ((x + 256 * y) mod 256) with x by (rewrite Z.mul_comm, Z.mod_add by lia; rewrite Z.mod_small; lia).
    replace ((x + 256 * y) / 256) with y by (rewrite Z.mul_comm, Z.div_add by lia; rewrite Z.div_small; lia).
    rewrite (Z.mod_small y) by lia. reflexivity.
  Qed.
  Lemma rep_firstn n v x q : rp x v q -> (n <= v)%nat -> map den (firstn n x) = bytes_of n q.
  Proof.
    intros [E _] L. rewrite <- firstn_map. unfold den. rewrite E. unfold bytes_of. rewrite firstn_map. f_equal.
    replace v with (n + (v - n))%nat by lia. rewrite seq_app, firstn_app, seq_length, Nat.sub_diag.
    rewrite firstn_all2 by (rewrite seq_length; lia). cbn. apply app_nil_r.
  Qed.

  Lemma rep_of_int x w s f q : elem_type (EF f) -> rp x w q -> rp (op (OOf w s f) f x) f (fof_int (fmt_of f) md (value (EI w s) q)).
  Proof. intros Hf H. apply (rep_op_in ub md byt (OOf w s f) f x w q H). apply fof_int_range; auto. Qed.
  Lemma rep_mul x f c q : elem_type (EF f) -> rp x f q ->
    rp (op (OMul f c) f x) f (fmul (fmt_of f) md q (fof_int (fmt_of f) ToNearest c)).
  Proof. intros Hf H. apply (rep_op_in ub md byt (OMul f c) f x f q H). apply fmul_range; auto. Qed.

  (* x stands for the value v of type u *)
  Definition good (u : ety) (v : Z) (x : list sb) : Prop :=
    exists q, map den x = bytes_of (esize u) q /\ stands_for u q v.
  Lemma good_q t u v x q : elem_type t -> elem_type u -> converted md t u p = Some v ->
    map den x = bytes_of (esize u) q -> q = pattern_of u v -> good u v x.
  Proof. intros Ht Hu Hv E ->. exists (pattern_of u v). split; auto. eapply converted_stands; [exact Ht|exact Hu|exact Hv]. Qed.
  Lemma cast_sem t u v q : cast binary64 md (aty_of t) (aty_of u) (value t q) = Some v -> lop_sem ub md (OCast t u) q = pattern_of u v.
  Proof. intros Hv. cbn [lop_sem]. rewrite Hv. auto. Qed.
  Lemma good_cast t u v : elem_type t -> elem_type u -> 0 <= p < 256 ^ Z.of_nat (esize t) -> converted md t u p = Some v ->
    good u v (op (OCast t u) (esize u) (src (esize t) j)).
  Proof.
    intros Ht Hu Hp Hv. apply (good_q t u v _ (lop_sem ub md (OCast t u) p)); auto; [|apply cast_sem; exact Hv].
    eapply rep_op. apply rep_src; auto.
  Qed.

  Lemma good_int_int w s v' s' v x : elem_type (EI w s) -> elem_type (EI v' s') -> 0 <= p < 256 ^ Z.of_nat w ->
    converted md (EI w s) (EI v' s') p = Some v -> In x (good_templates (EI w s) (EI v' s') j) -> good (EI v' s') v x.
  Proof.
    intros Ht Hu Hp Hv H. cbn [good_templates] in H. rewrite in_app_iff in H. destruct H as [H|H].
    - destruct H as [<-|[<-|[]]].
      + exists (value (EI w s) p mod 256 ^ Z.of_nat v'). split; [apply rep_widen; auto|].
        unfold converted in Hv. cbn [aty_of cast] in Hv. inversion Hv. apply stands_mod; auto.
      + apply (good_cast (EI w s) (EI v' s')); auto.
    - destruct (Nat.leb_spec w 2); [|destruct H]. destruct H as [<-|[]].
      assert (V := value_small w s 4 Ht ltac:(lia) eq_refl p Hp).
      eapply (good_q (EI w s) (EI v' s') v _ _ Ht Hu Hv); [eapply rep_op, rep_widen; eauto|].
      apply cast_sem. rewrite V. exact Hv.
  Qed.

  Lemma good_int_float w s f v x : elem_type (EI w s) -> elem_type (EF f) -> 0 <= p < 256 ^ Z.of_nat w ->
    converted md (EI w s) (EF f) p = Some v -> ~ zero_down md (EI w s) (EF f) p ->
    In x (good_templates (EI w s) (EF f) j) -> good (EF f) v x.
  Proof.
    intros Ht Hu Hp Hv Hz H. pose proof Hv as Ev. unfold converted in Ev. cbn [aty_of cast] in Ev.
    rewrite format_fmt_of in Ev by auto.
    assert (Q : forall x q, map den x = bytes_of f q -> q = fof_int (fmt_of f) md (value (EI w s) p) -> good (EF f) v x).
    { intros y q E1 E2. apply (good_q (EI w s) (EF f) v y q); auto. cbn [pattern_of]. congruence. }
    cbn [good_templates] in H. rewrite !in_app_iff in H. destruct H as [H|[H|H]].
    - destruct H as [<-|[<-|[]]]; [apply (good_cast (EI w s) (EF f)); auto|].
      eapply Q; [eapply rep_op, rep_src; eauto|]. reflexivity.
    - destruct (Nat.leb_spec w 2); [|destruct H].
      assert (V := value_small w s 4 Ht ltac:(lia) eq_refl p Hp).
      assert (RC : rp (op (OCast (EI w s) (EI 4 true)) 4 (src w j)) 4 (value (EI w s) p mod 256 ^ Z.of_nat 4)).
      { replace (value (EI w s) p mod 256 ^ Z.of_nat 4) with (lop_sem ub md (OCast (EI w s) (EI 4 true)) p).
        - apply (rep_op_in ub md byt _ 4 _ w p (rep_src w Hp)). cbn [lop_sem aty_of cast pattern_of]. apply Z.mod_pos_bound. reflexivity.
        - cbn [lop_sem aty_of cast pattern_of]. rewrite pow256.
          destruct (conv_wraps (int_ty 4 true) ltac:(apply int_std; auto) (value (EI w s) p)) as [_ [k ->]].
          apply Z.mod_add. discriminate. }
      destruct H as [<-|[<-|[<-|[<-|[]]]]].
      + eapply Q; [eapply rep_op, rep_widen; eauto|]. cbn [lop_sem]. rewrite V. auto.
      + eapply Q; [eapply rep_op, rep_widen; eauto|]. cbn [lop_sem aty_of cast]. rewrite V, format_fmt_of by auto. auto.
      + eapply Q; [eapply rep_op, RC|]. cbn [lop_sem aty_of cast]. rewrite V, format_fmt_of by auto. auto.
      + eapply Q; [eapply rep_op, RC|]. cbn [lop_sem]. rewrite V. auto.
    - destruct ((w =? 8)%nat && (f =? 8)%nat) eqn:E1; [|destruct ((w =? 4)%nat && negb s && (f =? 4)%nat) eqn:E2;
        [|destruct ((w =? 4)%nat && negb s && (f =? 8)%nat) eqn:E3; [|destruct H]]].
      + apply andb_prop in E1 as [W F]. apply Nat.eqb_eq in W, F. subst w f. destruct H as [<-|[]].
        assert (F8 : elem_type (EF 8)) by (right; auto).
        eapply Q; [apply (rep_sum _ _ _ 8 _ _ 8 8); [apply rep_mul, rep_of_int, rep_part; auto|apply rep_of_int, rep_part; auto]|].
        change (fmt_of 8) with binary64. change (256 ^ Z.of_nat 4) with (2 ^ 32). change (256 ^ Z.of_nat 0) with 1.
        rewrite Z.div_1_r. change (256 ^ Z.of_nat 8) with (2 ^ 32 * 2 ^ 32) in Hp.
        pose proof (Z.div_mod p (2 ^ 32) ltac:(lia)) as D. pose proof (Z.mod_pos_bound p (2 ^ 32) ltac:(lia)) as B.
        rewrite (Z.mod_small (p / 2 ^ 32)) by nia. set (h := p / 2 ^ 32) in *. set (l := p mod 2 ^ 32) in *.
        assert (V : - 2 ^ 31 <= value (EI 4 s) h < 2 ^ 32 /\ value (EI 4 s) h * 2 ^ 32 + l = value (EI 8 s) p).
        { destruct s; cbn [value]; [|lia]. unfold conv. cbn [int_ty iw isg andb].
          change (2 ^ (8 * Z.of_nat 4)) with (2 ^ 32). change (2 ^ (8 * Z.of_nat 4 - 1)) with (2 ^ 31).
          change (2 ^ (8 * Z.of_nat 8)) with (2 ^ 32 * 2 ^ 32). change (2 ^ (8 * Z.of_nat 8 - 1)) with (2 ^ 31 * 2 ^ 32).
          rewrite (Z.mod_small h), (Z.mod_small p) by nia.
          destruct (Z.leb_spec (2 ^ 31) h), (Z.leb_spec (2 ^ 31 * 2 ^ 32) p); nia. }
        destruct V as [V1 V2]. change (value (EI 4 false) l) with l. rewrite i64_f64_lane by auto. rewrite V2. auto.
      + apply andb_prop in E2 as [W F]. apply andb_prop in W as [W S]. apply Nat.eqb_eq in W, F. apply negb_true_iff in S.
        subst w f s. destruct H as [<-|[]]. assert (F4 : elem_type (EF 4)) by (left; auto).
        eapply Q; [apply (rep_sum _ _ _ 4 _ _ 4 4); [apply rep_mul, rep_of_int, rep_halves; auto|apply rep_of_int, rep_halves; auto]|].
        change (fmt_of 4) with binary32.
        assert (E0 : Some (le_byte p 0 + 256 * (le_byte p 1 + 256 * (le_byte p 2 + 256 * (le_byte p 3 + 256 * 0)))) = Some p)
          by exact (le_val_bytes 4 p Hp).
        assert (E : le_byte p 0 + 256 * (le_byte p 1 + 256 * (le_byte p 2 + 256 * (le_byte p 3 + 256 * 0))) = p) by congruence.
        pose proof (le_byte_range p 0) as B0. pose proof (le_byte_range p 1) as B1. pose proof (le_byte_range p 2) as B2. pose proof (le_byte_range p 3) as B3.
        assert (V : forall x, 0 <= x < 2 ^ 16 -> value (EI 4 true) x = x).
        { intros y Hy. cbn [value]. apply conv_same; [apply int_std; auto|]. unfold has. cbn. lia. }
        rewrite !V by lia. rewrite u32_f32_lane by lia. f_equal. cbn [value]. lia.
      + apply andb_prop in E3 as [W F]. apply andb_prop in W as [W S]. apply Nat.eqb_eq in W, F. apply negb_true_iff in S.
        subst w f s. destruct H as [<-|[]]. assert (F8 : elem_type (EF 8)) by (right; auto).
        change (256 ^ Z.of_nat 4) with (2 ^ 32) in Hp.
        assert (X : 0 <= lop_sem ub md (OXor two31) p < 2 ^ 32).
        { cbn [lop_sem]. change two31 with (2 ^ 31). rewrite xor_top by auto. destruct (Z.ltb_spec p (2 ^ 31)); lia. }
        eapply Q; [eapply rep_op, rep_of_int; [auto|eapply rep_op_in; [apply (rep_src 4); exact Hp|exact X]]|].
        cbn [lop_sem value]. change (fmt_of 8) with binary64. change two31 with (2 ^ 31) at 1.
        rewrite <- (u32_f64_lane md p Hp).
        * f_equal. f_equal. rewrite xor_top by auto. unfold conv. cbn [int_ty iw isg andb].
          change (2 ^ (8 * Z.of_nat 4)) with (2 ^ 32). change (2 ^ (8 * Z.of_nat 4 - 1)) with (2 ^ 31).
          destruct (Z.ltb_spec p (2 ^ 31)); rewrite Z.mod_small by lia;
            [destruct (Z.leb_spec (2 ^ 31) (p + 2 ^ 31))|destruct (Z.leb_spec (2 ^ 31) (p - 2 ^ 31))]; lia.
        * intros Em Ep. apply Hz. repeat split; auto.
  Qed.

  Lemma good_float_int f v' s v x : elem_type (EF f) -> elem_type (EI v' s) -> 0 <= p < 256 ^ Z.of_nat f ->
    converted md (EF f) (EI v' s) p = Some v ->
    In x (good_templates (EF f) (EI v' s) j) -> good (EI v' s) v x.
  Proof.
    intros Ht Hu Hp Hv H. pose proof Hv as Ev. unfold converted in Ev. cbn [aty_of cast value] in Ev.
    rewrite format_fmt_of in Ev by auto.
    assert (Q : forall x q, map den x = bytes_of v' q -> q mod 256 ^ Z.of_nat v' = v mod 256 ^ Z.of_nat v' -> good (EI v' s) v x).
    { intros y q E1 E2. apply (good_q (EF f) (EI v' s) v y (q mod 256 ^ Z.of_nat v')); auto.
      - cbn [esize]. rewrite bytes_of_mod. auto.
      - cbn [pattern_of]. rewrite E2, pow256. auto. }
    assert (P : 0 < 256 ^ Z.of_nat v') by (apply Z.pow_pos_nonneg; lia).
    assert (PM : forall z, pattern_of (EI v' s) z mod 256 ^ Z.of_nat v' = z mod 256 ^ Z.of_nat v').
    { intros z. cbn [pattern_of]. rewrite <- pow256. apply Z.mod_mod. lia. }
    cbn [good_templates] in H. rewrite !in_app_iff in H. destruct H as [H|[H|H]].
    - destruct H as [<-|[<-|[]]]; [apply (good_cast (EF f) (EI v' s)); auto|].
      eapply Q; [eapply rep_op, rep_src; eauto|]. cbn [lop_sem]. rewrite Ev. apply PM.
    - destruct (Nat.leb_spec v' 2) as [L|]; [|destruct H].
      assert (E4 : fto_int (fmt_of f) (int_ty 4 true) p = Some v /\ has (int_ty 4 true) v).
      { pose proof (fto_int_has _ _ _ _ _ Ev) as Hh. unfold has, int_ty in Hh. cbn [iw isg] in Hh.
        assert (B : - 2 ^ 31 <= v < 2 ^ 31).
        { destruct Hu as [-> |[-> |[-> | ->]]]; try lia; destruct s; cbn in Hh; lia. }
        split; [|unfold has; cbn; lia].
        unfold fto_int in *. destruct (decode (fmt_of f) p) as [|?|sg m]; try discriminate.
        cbn [int_ty isg iw] in *. change (8 * Z.of_nat 4 - 1) with 31.
        assert (EV : num sg (m / one (fmt_of f)) = v) by (destruct s; destruct (_ && _); congruence).
        rewrite EV. replace ((- 2 ^ 31 <=? v) && (v <? 2 ^ 31)) with true; auto.
        symmetry; apply andb_true_intro; split; [apply Z.leb_le|apply Z.ltb_lt]; lia. }
      destruct E4 as [E4 H4]. set (q := v mod 256 ^ Z.of_nat 4).
      assert (Hq : 0 <= q < 256 ^ Z.of_nat 4) by (apply Z.mod_pos_bound; reflexivity).
      assert (Vq : value (EI 4 true) q = v).
      { cbn [value]. destruct (stands_mod 4 true v ltac:(auto)) as [_ E]. unfold q. rewrite E. apply conv_same; auto. apply int_std; auto. }
      assert (S1 : lop_sem ub md (OCast (EF f) (EI 4 true)) p = q).
      { cbn [lop_sem aty_of cast value]. rewrite format_fmt_of by auto. rewrite E4. cbn [pattern_of]. unfold q. rewrite pow256. auto. }
      assert (S2 : lop_sem ub md (OTo f 4 true) p = q).
      { cbn [lop_sem]. rewrite E4. cbn [pattern_of]. unfold q. rewrite pow256. auto. }
      assert (D : (256 ^ Z.of_nat v' | 256 ^ Z.of_nat 4)).
      { exists (256 ^ Z.of_nat (4 - v')). rewrite <- Z.pow_add_r by lia. f_equal. lia. }
      assert (QM : q mod 256 ^ Z.of_nat v' = v mod 256 ^ Z.of_nat v').
      { unfold q. symmetry. apply Znumtheory.Zmod_div_mod; auto; try reflexivity. }
      assert (R : forall y, rp y 4 q -> good (EI v' s) v (firstn v' y) /\ good (EI v' s) v (op (OCast (EI 4 true) (EI v' s)) v' y)).
      { intros y Hy. split.
        - eapply Q; [eapply rep_firstn; [exact Hy|lia]|]. auto.
        - eapply Q; [eapply rep_op; exact Hy|]. cbn [lop_sem aty_of cast]. rewrite Vq, PM.
          unfold conv. cbn [int_ty iw isg]. rewrite <- pow256. destruct (s && _).
          + rewrite <- (Z.mod_add (v mod 256 ^ Z.of_nat v' - 256 ^ Z.of_nat v') 1) by lia.
            replace (v mod 256 ^ Z.of_nat v' - 256 ^ Z.of_nat v' + 1 * 256 ^ Z.of_nat v') with (v mod 256 ^ Z.of_nat v') by lia.
            apply Z.mod_mod. lia.
          + apply Z.mod_mod. lia. }
      assert (Y1 : rp (op (OCast (EF f) (EI 4 true)) 4 (src f j)) 4 q).
      { rewrite <- S1. eapply rep_op_in; [apply rep_src; eauto|]. rewrite S1. auto. }
      assert (Y2 : rp (op (OTo f 4 true) 4 (src f j)) 4 q).
      { rewrite <- S2. eapply rep_op_in; [apply rep_src; eauto|]. rewrite S2. auto. }
      cbn [flat_map app] in H. destruct H as [<-|[<-|[<-|[<-|[]]]]]; [apply R in Y1|apply R in Y1|apply R in Y2|apply R in Y2]; tauto.
    - destruct ((f =? 8)%nat && (v' =? 4)%nat && negb s) eqn:E; [|destruct H].
      apply andb_prop in E as [E S]. apply andb_prop in E as [F V]. apply Nat.eqb_eq in F, V. apply negb_true_iff in S.
      subst f v' s. destruct H as [<-|[]]. change (fmt_of 8) with binary64 in Ev.
      assert (PT : pattern binary64 p) by (apply (fmt_pattern 8 p Ht); auto).
      pose proof (f64_u32_lane ub md p v PT Ev) as L.
      assert (E8 : elem_type (EF 8)) by (right; auto).
      eapply Q; [eapply rep_op; eapply rep_op_in; [eapply rep_op_in; [eapply rep_op_in; [apply (rep_src 8); exact Hp|]|]|]|].
      + cbn [lop_sem]. apply fmt_pattern; auto. apply (instr_value binary64 Downward p b64_ok PT).
      + cbn [lop_sem]. apply fadd_range; auto.
      + cbn [lop_sem]. clear - E8. generalize (fto_int (fmt_of 8) (int_ty 4 true) (fsub (fmt_of 8) md (fround_to_int (fmt_of 8) Downward p) (fof_int (fmt_of 8) ToNearest two31))). intros o.
        change (256 ^ Z.of_nat 4) with (2 ^ 32). change (8 * Z.of_nat 4 - 1) with 31. destruct o; cbn [pattern_of]; [apply Z.mod_pos_bound; reflexivity|lia].
      + rewrite L. auto.
  Qed.

  Lemma good_float_float f g v x : elem_type (EF f) -> elem_type (EF g) -> 0 <= p < 256 ^ Z.of_nat f ->
    converted md (EF f) (EF g) p = Some v -> In x (good_templates (EF f) (EF g) j) -> good (EF g) v x.
  Proof.
    intros Ht Hu Hp Hv H. pose proof Hv as Ev. unfold converted in Ev. cbn [aty_of cast value] in Ev.
    rewrite !format_fmt_of in Ev by auto. cbn [good_templates] in H. rewrite in_app_iff in H. destruct H as [H|H].
    - destruct (Nat.eqb_spec f g) as [<-|]; [|destruct H]. destruct H as [<-|[]].
      exists p. split; [apply rep_src; auto|]. split; [cbn [esize]; rewrite <- pow256; auto|].
      pose proof (fmt_of_ok f) as F. assert (PT : pattern (fmt_of f) p) by (apply fmt_pattern; auto).
      injection Ev as Ev. unfold fconv in Ev. rewrite Z.leb_refl, Z.sub_diag in Ev.
      destruct (decode (fmt_of f) p) as [|sg|sg m] eqn:D.
      + right. split; auto. rewrite <- Ev. apply decode_nan; auto.
      + left. rewrite <- Ev. apply decode_inf; auto.
      + left. rewrite <- Ev. destruct (decode_fin _ F p sg m PT D) as (a & Ha & Em & _).
        pose proof (mag_nonneg _ F a ltac:(lia)) as Hm.
        eapply (decode_inj_fin _ F); [exact PT|apply fround_pattern; auto; lia|exact D|].
        rewrite (fround_exact _ F md sg _ 0 (num sg m)); [|lia|ring|rewrite Em; apply repr_num, repr_mag; auto].
        destruct sg; unfold num; rewrite ?Z.abs_opp, Z.abs_eq by lia; f_equal.
        * destruct (Z.eqb_spec (- m * 2 ^ 0) 0); auto. apply Z.ltb_lt. lia.
        * destruct (Z.eqb_spec (m * 2 ^ 0) 0); auto. apply Z.ltb_ge. lia.
    - destruct H as [<-|[<-|[]]]; [apply (good_cast (EF f) (EF g)); auto|].
      apply (good_q (EF f) (EF g) v _ (lop_sem ub md (OFF f g) p)); auto; [eapply rep_op, rep_src; auto|].
      cbn [lop_sem pattern_of]. congruence.
  Qed.

  Lemma templates_good t u v x : elem_type t -> elem_type u -> 0 <= p < 256 ^ Z.of_nat (esize t) ->
    converted md t u p = Some v -> ~ zero_down md t u p -> In x (good_templates t u j) -> good u v x.
  Proof.
    intros Ht Hu Hp Hv Hz H. destruct t, u.
    - exact (good_int_int _ _ _ _ v x Ht Hu Hp Hv H).
    - exact (good_int_float _ _ _ v x Ht Hu Hp Hv Hz H).
    - exact (good_float_int _ _ _ v x Ht Hu Hp Hv H).
    - exact (good_float_float _ _ v x Ht Hu Hp Hv H).
  Qed.
End Template.

(* ------------------------------------------------------------------ *)
(* the elements of registers *)
Lemma firstn_skipn_nth {A} (d : A) n : forall m l, (m + n <= length l)%nat ->
  firstn n (skipn m l) = map (fun i => nth (m + i) l d) (seq 0 n).
Proof.
  induction m as [|m IH]; intros l H.
  - rewrite skipn_O. cbn [Nat.add]. revert l H. induction n; intros [|x l] H; cbn in *; try lia; auto.
    f_equal. rewrite IHn by lia. rewrite <- seq_shift, map_map. reflexivity.
  - destruct l as [|x l]; cbn in H; [lia|]. cbn [skipn]. rewrite IH by lia. reflexivity.
Qed.
Lemma flat_map_map {A B C} (f : B -> list C) (g : A -> B) l : flat_map f (map g l) = flat_map (fun x => f (g x)) l.
Proof. induction l; cbn; auto. f_equal. auto. Qed.

Lemma registers_args w N k xs : length xs = (k * N)%nat -> forall i, (i < k)%nat ->
  nth i (registers w N k xs) [] =
  flat_map (fun j => map (fun b => Some (le_byte (nth (i * N + j) xs 0) b)) (seq 0 w)) (seq 0 N).
Proof.
  intros L i Hi. unfold registers.
  rewrite (nth_indep _ [] (flat_map (bytes_of w) (firstn N (skipn (0 * N) xs)))) by (rewrite map_length, seq_length; auto).
  rewrite (map_nth (fun i => flat_map (bytes_of w) (firstn N (skipn (i * N) xs)))), seq_nth by auto. cbn [Nat.add].
  rewrite (firstn_skipn_nth 0) by nia. rewrite flat_map_map. reflexivity.
Qed.

Theorem check_sound t N u M k e : elem_type t -> elem_type u -> exp_check t N u M k e = true ->
  forall ub md xs, length xs = (k * N)%nat -> patterns (esize t) xs ->
  length (ceval ub md (registers (esize t) N k xs) e) = (M * esize u)%nat /\
  forall j v, (j < k * N)%nat -> converted md t u (nth j xs 0) = Some v -> ~ zero_down md t u (nth j xs 0) ->
  exists q, contains (esize u) (ceval ub md (registers (esize t) N k xs) e) j q /\ stands_for u q v.
Proof.
  intros Ht Hu C ub md xs L HP. unfold exp_check in C. cbv zeta in C.
  set (byt := fun i b => le_byte (nth i xs 0) b).
  assert (S : forall e, Forall2 (R ub md byt) (aeval k N (esize t) e) (ceval ub md (registers (esize t) N k xs) e)).
  { intros e'. apply aeval_sound.
    - intros. apply le_byte_range.
    - intros i Hi. apply registers_args; auto.
    - unfold registers. rewrite map_length, seq_length. auto. }
  destruct (Nat.eqb_spec (length (aeval k N (esize t) e)) (M * esize u)) as [EL|]; [|discriminate].
  split; [rewrite <- (Forall2_len _ _ _ (S e)); auto|].
  intros j v Hj Hv Hz. rewrite forallb_forall in C. specialize (C j). rewrite in_seq in C. specialize (C ltac:(lia)).
  unfold elem_check in C. apply existsb_exists in C as (x & Hx & Ex).
  assert (LT : lane (esize u) (ceval ub md (registers (esize t) N k xs) e) j = map (sden ub md byt) x).
  { eapply lane_template; [| | |exact Ex].
    - intros. apply le_byte_range.
    - intros i Hi. apply registers_args; auto.
    - unfold registers. rewrite map_length, seq_length. auto. }
  assert (HPj : 0 <= nth j xs 0 < 256 ^ Z.of_nat (esize t)).
  { rewrite pow256. unfold patterns in HP. rewrite Forall_forall in HP. apply HP. apply nth_In. lia. }
  destruct (templates_good ub md byt j (nth j xs 0) ltac:(reflexivity) t u v x Ht Hu HPj Hv Hz Hx) as (q & Eq & St).
  exists q. split; auto. unfold contains. unfold lane in LT. congruence.
Qed.

(* ------------------------------------------------------------------ *)
(* the finite check *)
Local Open Scope nat_scope.
Definition mk (a b c d e f v w q : bool) : xfeat :=
  {| ssse3 := a; sse41 := b; avx := c; avx2 := d; xfma := e; avx512f := f; avx512vl := v; avx512bw := w; avx512dq := q |}.
Definition tys : list ety := flat_map (fun w => [EI w true; EI w false]) [1; 2; 4; 8] ++ [EF 4; EF 8].
Definition reg_b (ft : xfeat) (t : ety) (N : nat) : bool :=
  let b := N * esize t in
  if b <=? 16 then true
  else if b =? 32 then if is_fp t then avx ft else avx2 ft
  else if b =? 64 then if avx512f ft then (4 <=? esize t) || avx512bw ft else false
  else false.
Definition regs ft t := filter (reg_b ft t) [2; 4; 8; 16; 32; 64].
Definition twice_b (ft : xfeat) (t u : ety) (M : nat) : bool :=
  match t, u with EI 8 _, EF 4 => avx2 ft && negb (avx512dq ft) && (8 <=? M) | _, _ => false end.
Definition nocomp_b (ft : xfeat) (t u : ety) (M : nat) : bool :=
  match t, u with EI 2 _, EI 1 _ => avx512bw ft && negb (avx512vl ft) && (M =? 16) | _, _ => false end.
Definition one_o (ft : xfeat) (t u : ety) (N M k : nat) (o : option cexp) : bool :=
  if nocomp_b ft t u M then match o with Some _ => false | None => true end
  else if twice_b ft t u M then match o with Some _ => true | None => false end
  else opt_check t N u M k o.
Lemma in_tys t : elem_type t -> In t tys.
Proof.
  destruct t as [w s|w]; cbn [elem_type].
  - intros [->|[->|[->| ->]]]; destruct s; cbn; auto 12.
  - intros [->| ->]; cbn; auto 12.
Qed.
Lemma in_regs ft t N : elem_type t -> register_type ft t N -> In N (regs ft t).
Proof.
  intros Ht ((n & ->) & H2 & H). unfold regs. apply filter_In. split.
  - assert (n < 7).
    { destruct (le_lt_dec 7 n); auto. exfalso. assert (2 ^ 7 <= 2 ^ n) by (apply Nat.pow_le_mono_r; lia). change (2 ^ 7) with 128 in *.
      assert (1 <= esize t) by (destruct (elem_width t Ht) as (w & -> & ?); lia). nia. }
    do 7 (destruct n as [|n]; [cbn in *; auto 10; lia|]). lia.
  - unfold reg_b. cbv zeta. destruct H as [H|[[H F]|[H [F B]]]].
    + replace (2 ^ n * esize t <=? 16) with true by (symmetry; apply Nat.leb_le; auto). auto.
    + rewrite H. cbn. destruct (is_fp t); auto.
    + rewrite H. change (64 <=? 16) with false. change (64 =? 32) with false. change (64 =? 64) with true. cbv iota. rewrite F.
      apply orb_true_iff. destruct B as [B|B]; [left; apply Nat.leb_le|right]; auto.
Qed.
Section Check.
  (* the conversions *)
  Variable cr : xfeat -> ety -> nat -> ety -> nat -> nat -> option cexp.
  Definition one_b (ft : xfeat) (t u : ety) (N M k : nat) : bool :=
    if k * N =? M then one_o ft t u N M k (cr ft t N u M k) else true.
  Definition ok (ft : xfeat) : bool :=
    forallb (fun t => forallb (fun u => forallb (fun N => forallb (fun M =>
      forallb (one_b ft t u N M) [1; 2; 4; 8; 16]) (regs ft u)) (regs ft t)) tys) tys.
  Lemma ok_spec ft t u N k : ok ft = true -> elem_type t -> elem_type u -> register_type ft t N -> register_type ft u (k * N) ->
    In k [1; 2; 4; 8; 16] -> exists o, cr ft t N u (k * N) k = o /\ one_o ft t u N (k * N) k o = true.
  Proof.
    intros O Ht Hu HN HM Hk. unfold ok in O.
    rewrite forallb_forall in O. specialize (O t (in_tys t Ht)).
    rewrite forallb_forall in O. specialize (O u (in_tys u Hu)).
    rewrite forallb_forall in O. specialize (O N (in_regs ft t N Ht HN)).
    rewrite forallb_forall in O. specialize (O (k * N) (in_regs ft u _ Hu HM)).
    rewrite forallb_forall in O. specialize (O k Hk). unfold one_b in O. rewrite Nat.eqb_refl in O. eauto.
  Qed.
  Lemma ok_from (l : list xfeat) ft : forallb ok l = true -> In ft l -> ok ft = true.
  Proof. intros H. apply forallb_forall. auto. Qed.
End Check.

Definition small_feats : list xfeat :=
  [mk false false false false false false false false false; mk true false false false false false false false false;
   mk true true false false false false false false false; mk true true true false false false false false false;
   mk true true true false true false false false false; mk true true true true false false false false false;
   mk true true true true true false false false false].
Definition avx512_feats (e v : bool) : list xfeat :=
  [mk true true true true e true v false false; mk true true true true e true v false true;
   mk true true true true e true v true false; mk true true true true e true v true true].
Lemma ok_small : forallb (ok convert_registers) small_feats = true.
Proof. vm_compute. reflexivity. Qed.
Lemma ok_512_novl e : forallb (ok convert_registers) (avx512_feats e false) = true.
Proof. vm_compute. reflexivity. Qed.
Lemma ok_512_vl e : forallb (ok convert_registers) (avx512_feats e true) = true.
Proof. vm_compute. reflexivity. Qed.

Lemma feats_cases ft : flags_ok ft -> In ft small_feats \/ In ft (avx512_feats (xfma ft) false) \/ In ft (avx512_feats (xfma ft) true).
Proof.
  destruct ft as [a b c d e f v w q]. unfold flags_ok. cbn [ssse3 sse41 avx avx2 xfma avx512f avx512vl avx512bw avx512dq].
  intros (H1 & H2 & H3 & H4 & H5). destruct f.
  - right. rewrite H2 in * by auto. rewrite H3 in * by auto. rewrite H4 in * by auto. rewrite H5 in * by auto.
    destruct v, w, q; cbn; auto 10.
  - left. destruct v; [exfalso; specialize (H1 ltac:(auto)); discriminate|].
    destruct w; [exfalso; specialize (H1 ltac:(auto)); discriminate|].
    destruct q; [exfalso; specialize (H1 ltac:(auto)); discriminate|].
    destruct c.
    + rewrite H4 in * by auto. rewrite H5 in * by auto. destruct d, e; cbn; auto 10.
    + destruct d; [specialize (H3 ltac:(auto)); discriminate|]. destruct e; [specialize (H3 ltac:(auto)); discriminate|].
      destruct b; [rewrite H5 by auto|destruct a]; cbn; auto 10.
Qed.
Lemma ok_all ft : flags_ok ft -> ok convert_registers ft = true.
Proof.
  intros H. destruct (feats_cases ft H) as [I|[I|I]].
  - exact (ok_from convert_registers _ _ ok_small I).
  - exact (ok_from convert_registers _ _ (ok_512_novl _) I).
  - exact (ok_from convert_registers _ _ (ok_512_vl _) I).
Qed.
Lemma one_ok ft t u N k : flags_ok ft -> elem_type t -> elem_type u -> register_type ft t N -> register_type ft u (k * N) ->
  In k [1; 2; 4; 8; 16] -> exists o, convert_registers ft t N u (k * N) k = o /\ one_o ft t u N (k * N) k o = true.
Proof. intros Hf. exact (ok_spec convert_registers ft t u N k (ok_all ft Hf)). Qed.
Lemma nocomp_spec ft t u M : ~ does_not_compile ft t u M -> nocomp_b ft t u M = false.
Proof.
  intros H. destruct (nocomp_b ft t u M) eqn:E; auto. exfalso. apply H. unfold nocomp_b in E.
  destruct t as [w s|w]; [|discriminate]. destruct w as [|[|[|w]]]; try discriminate.
  destruct u as [w s'|w]; [|discriminate]. destruct w as [|[|w]]; try discriminate.
  apply andb_prop in E as [E E3]. apply andb_prop in E as [E1 E2]. apply negb_true_iff in E2. apply Nat.eqb_eq in E3.
  unfold does_not_compile. eauto 10.
Qed.
Lemma twice_spec ft t u M : ~ rounds_twice ft t u M -> twice_b ft t u M = false.
Proof.
  intros H. destruct (twice_b ft t u M) eqn:E; auto. exfalso. apply H. unfold twice_b in E.
  destruct t as [w s|w]; [|discriminate]. do 9 (destruct w as [|w]; try discriminate).
  destruct u as [w s'|w]; [discriminate|]. do 5 (destruct w as [|w]; try discriminate).
  apply andb_prop in E as [E E3]. apply andb_prop in E as [E1 E2]. apply negb_true_iff in E2. apply Nat.leb_le in E3.
  unfold rounds_twice. eauto 10.
Qed.

Lemma compiles ft t u N k : flags_ok ft -> elem_type t -> elem_type u -> register_type ft t N -> register_type ft u (k * N) ->
  In k [1; 2; 4; 8; 16] -> ~ does_not_compile ft t u (k * N) -> exists e, convert_registers ft t N u (k * N) k = Some e.
Proof.
  intros Hf Ht Hu HN HM Hk Hc. destruct (one_ok ft t u N k Hf Ht Hu HN HM Hk) as (o & E & O). unfold one_o in O.
  rewrite nocomp_spec in O by auto. exists (match o with Some e => e | None => CArg 0 end). rewrite E. clear E.
  destruct o; auto. destruct (twice_b _ _ _ _); discriminate.
Qed.
Lemma elements ft t u N k e : flags_ok ft -> elem_type t -> elem_type u -> register_type ft t N -> register_type ft u (k * N) ->
  In k [1; 2; 4; 8; 16] -> convert_registers ft t N u (k * N) k = Some e -> ~ rounds_twice ft t u (k * N) ->
  forall ub md xs, length xs = k * N -> patterns (esize t) xs ->
  length (ceval ub md (registers (esize t) N k xs) e) = k * N * esize u /\
  forall j v, j < k * N -> converted md t u (nth j xs 0%Z) = Some v -> ~ zero_down md t u (nth j xs 0%Z) ->
  exists q, contains (esize u) (ceval ub md (registers (esize t) N k xs) e) j q /\ stands_for u q v.
Proof.
  intros Hf Ht Hu HN HM Hk E Hr. destruct (one_ok ft t u N k Hf Ht Hu HN HM Hk) as (o & E' & O).
  assert (X : o = Some e) by congruence. clear E E'. subst o. unfold one_o in O.
  destruct (nocomp_b ft t u (k * N)); [discriminate|].
  rewrite twice_spec in O by auto. eapply check_sound; eauto.
Qed.

Lemma elements_partial ft t u N k md xs : flags_ok ft -> elem_type t -> elem_type u ->
  register_type ft t N -> register_type ft u (k * N) -> In k [1; 2; 4; 8; 16] ->
  ~ does_not_compile ft t u (k * N) -> ~ rounds_twice ft t u (k * N) ->
  length xs = k * N -> patterns (esize t) xs -> Forall (fun p => ~ zero_down md t u p) xs ->
  converts_elements ft t u N k md xs.
Proof.
  intros Hf Ht Hu HN HM Hk Hc Hr L HP HZ. destruct (compiles ft t u N k Hf Ht Hu HN HM Hk Hc) as [e E].
  exists e. split; auto. intros ub. cbv zeta.
  destruct (elements ft t u N k e Hf Ht Hu HN HM Hk E Hr ub md xs L HP) as [EL H]. split; auto.
  intros j v Hj Hv. apply H; auto. rewrite Forall_forall in HZ. apply HZ, nth_In. lia.
Qed.

(* a wrong element *)
Lemma wrong_element ft t u N k md xs j r v :
  option_map (fun e => le_val (lane (esize u) (ceval (fun _ => 0%Z) md (registers (esize t) N k xs) e) j))
    (convert_registers ft t N u (k * N) k) = Some (Some r) ->
  j < k * N -> converted md t u (nth j xs 0%Z) = Some v -> ~ stands_for u r v -> ~ converts_elements ft t u N k md xs.
Proof.
  intros E Hj Hv Hn (e & Ee & H). rewrite Ee in E. cbn [option_map] in E. injection E as E.
  destruct (H (fun _ => 0%Z)) as [_ H2]. destruct (H2 j v Hj Hv) as (q & C & S).
  unfold contains in C. unfold lane in E. rewrite C in E.
  assert (B : (0 <= q < 256 ^ Z.of_nat (esize u))%Z) by (rewrite pow256; apply S).
  rewrite le_val_bytes in E by exact B. congruence.
Qed.
