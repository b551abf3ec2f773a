(* Proofs about widening integers on x86 without SSE4.1. *)
From Coq Require Import List ZArith Bool Arith Lia.
From Verif Require Import Prelude BitMask FloatRoundSpec XConv XConvSpec XConvAbs XConvProofs XConvTop SseWiden SseWidenSpec.
Import ListNotations.
Local Open Scope nat_scope.

(* lane j of register i is a conversion of element i * M + j *)
Definition lane_check (t u : ety) (n i M : nat) (r : list sb) (j : nat) : bool :=
  if i * M + j <? n then existsb (sbs_eqb (lane (esize u) r j)) (good_templates t u (i * M + j)) else true.
Definition part_check (t : ety) (L n : nat) (u : ety) (e : cexp) (i : nat) : bool :=
  let r := aeval 1 L (esize t) e in
  if length r =? 16 then forallb (lane_check t u n i (16 / esize u) r) (seq 0 (16 / esize u)) else false.
Fixpoint parts_check (t : ety) (L n : nat) (u : ety) (i : nat) (es : list cexp) : bool :=
  match es with
  | [] => true
  | e :: r => if part_check t L n u e i then parts_check t L n u (S i) r else false
  end.
Definition opt_parts (t : ety) (L n : nat) (u : ety) (parts : nat) (o : option (list cexp)) : bool :=
  match o with
  | Some es => if length es =? parts then parts_check t L n u 0 es else false
  | None => false
  end.

Lemma parts_check_nth t L n u es : forall i0 i e, parts_check t L n u i0 es = true -> nth_error es i = Some e ->
  part_check t L n u e (i0 + i) = true.
Proof.
  induction es as [|a es IH]; intros i0 i e C E; [destruct i; discriminate|].
  cbn [parts_check] in C. destruct (part_check t L n u a i0) eqn:C1; [|discriminate].
  destruct i as [|i]; cbn in E.
  - injection E as <-. rewrite Nat.add_0_r. auto.
  - rewrite <- Nat.add_succ_comm. apply IH; auto.
Qed.

Lemma part_sound t L n u e i : elem_type t -> elem_type u -> widening t u -> n <= L -> part_check t L n u e i = true ->
  forall ub md xs, length xs = L -> patterns (esize t) xs ->
  let r := ceval ub md (registers (esize t) L 1 xs) e in
  length r = 16 /\
  forall j v, j < 16 / esize u -> i * (16 / esize u) + j < n ->
  converted md t u (nth (i * (16 / esize u) + j) xs 0%Z) = Some v ->
  exists q, contains (esize u) r j q /\ stands_for u q v.
Proof.
  intros Ht Hu Hw HL C ub md xs LX HP. cbv zeta. unfold part_check in C. cbv zeta in C.
  set (byt := fun i b => le_byte (nth i xs 0%Z) b).
  assert (LK : length xs = 1 * L) by lia.
  assert (S : forall e, Forall2 (R ub md byt) (aeval 1 L (esize t) e) (ceval ub md (registers (esize t) L 1 xs) e)).
  { intros e'. apply aeval_sound.
    - intros. apply le_byte_range.
    - intros k Hk. apply registers_args; auto.
    - unfold registers. rewrite map_length, seq_length. auto. }
  destruct (Nat.eqb_spec (length (aeval 1 L (esize t) e)) 16) as [EL|]; [|discriminate].
  split; [rewrite <- (Forall2_len _ _ _ (S e)); auto|].
  intros j v Hj Hn Hv. rewrite forallb_forall in C. specialize (C j). rewrite in_seq in C. specialize (C ltac:(lia)).
  unfold lane_check in C. set (m := i * (16 / esize u) + j) in *.
  replace (m <? n) with true in C by (symmetry; apply Nat.ltb_lt; auto).
  apply existsb_exists in C as (x & Hx & Ex).
  assert (LT : lane (esize u) (ceval ub md (registers (esize t) L 1 xs) e) j = map (sden ub md byt) x).
  { eapply lane_template; [| | |exact Ex].
    - intros. apply le_byte_range.
    - intros k Hk. apply registers_args; auto.
    - unfold registers. rewrite map_length, seq_length. auto. }
  assert (HPj : (0 <= nth m xs 0 < 256 ^ Z.of_nat (esize t))%Z).
  { rewrite pow256. unfold patterns in HP. rewrite Forall_forall in HP. apply HP. apply nth_In. lia. }
  assert (Hz : ~ zero_down md t u (nth m xs 0%Z)).
  { intros (-> & -> & _). destruct Hw as (_ & _ & W). apply W. auto. }
  destruct (templates_good ub md byt m (nth m xs 0%Z) ltac:(reflexivity) t u v x Ht Hu HPj Hv Hz Hx) as (q & Eq & St).
  exists q. split; auto. unfold contains. unfold lane in LT. congruence.
Qed.

(* ------------------------------------------------------------------ *)
(* the finite check *)
Definition ints : list ety := flat_map (fun w => [EI w true; EI w false]) [1; 2; 4].
Definition wider (t : ety) : list ety :=
  filter (fun u => (esize t <? esize u) && negb ((esize t =? 4) && ety_eqb u (EF 8))) tys.
Section Check.
  Variable wr : xfeat -> bool -> bool -> ety -> nat -> ety -> nat -> option (list cexp).
  Definition one_w (ft : xfeat) (t u : ety) (L n np parts : nat) : bool :=
    forallb (fun a => forallb (fun b => opt_parts t L n u parts (wr ft a b t n u np)) [true; false]) [true; false].
  Definition both_w (ft : xfeat) (t u : ety) (L n : nat) : bool :=
    let M := 16 / esize u in
    if one_w ft t u L n 0 (n / M) then
      if M <? n then one_w ft t u L n ((n + M - 1) / M) ((n + M - 1) / M) else true
    else false.
  Definition ok_w (ft : xfeat) : bool :=
    forallb (fun t => forallb (fun u => forallb (fun L =>
      if L * esize t <=? 16 then forallb (both_w ft t u L) (seq (L / 2 + 1) (L / 2)) else true) [2; 4; 8; 16]) (wider t)) ints.
  Lemma one_w_spec ft t u L n np parts a b : one_w ft t u L n np parts = true -> opt_parts t L n u parts (wr ft a b t n u np) = true.
  Proof.
    intros H. unfold one_w in H. rewrite forallb_forall in H. specialize (H a ltac:(destruct a; cbn; auto)).
    rewrite forallb_forall in H. apply H. destruct b; cbn; auto.
  Qed.
  Lemma ok_w_spec ft t u L n np parts a b : ok_w ft = true -> In t ints -> In u (wider t) -> In L [2; 4; 8; 16] ->
    L * esize t <= 16 -> L / 2 < n <= L / 2 + L / 2 -> 1 <= 16 / esize u -> result_parts n (16 / esize u) np parts ->
    opt_parts t L n u parts (wr ft a b t n u np) = true.
  Proof.
    intros O Ht Hu HL H16 Hn HM HP. unfold ok_w in O.
    rewrite forallb_forall in O. specialize (O t Ht). rewrite forallb_forall in O. specialize (O u Hu).
    rewrite forallb_forall in O. specialize (O L HL). cbv beta in O.
    replace (L * esize t <=? 16) with true in O by (symmetry; apply Nat.leb_le; auto).
    rewrite forallb_forall in O. specialize (O n ltac:(apply in_seq; lia)). unfold both_w in O. cbv zeta in O.
    set (M := 16 / esize u) in *. destruct (one_w ft t u L n 0 (n / M)) eqn:O1; [|discriminate].
    destruct HP as [[-> HP]|[-> HP]].
    - replace parts with (n / M); [apply one_w_spec; auto|].
      symmetry. apply (Nat.div_unique n M parts (n - M * parts)); nia.
    - replace (M <? n) with true in O by (symmetry; apply Nat.ltb_lt; nia).
      replace ((n + M - 1) / M) with parts in O; [apply one_w_spec; auto|].
      apply (Nat.div_unique (n + M - 1) M parts (n + M - 1 - M * parts)); nia.
  Qed.
End Check.
Definition sse2 (a : bool) : xfeat := mk a false false false false false false false false.
Lemma ok_sse2 : forallb (fun a => ok_w widen_register (sse2 a)) [true; false] = true.
Proof. vm_compute. reflexivity. Qed.
Lemma ok_sse2_a a : ok_w widen_register (sse2 a) = true.
Proof. pose proof ok_sse2 as H. rewrite forallb_forall in H. apply H. destruct a; cbn; auto. Qed.
Lemma no_sse41 ft : flags_ok ft -> sse41 ft = false -> ft = sse2 (ssse3 ft).
Proof.
  destruct ft as [a b c d e f v w q]. unfold flags_ok, sse2, mk. cbn [ssse3 sse41 avx avx2 xfma avx512f avx512vl avx512bw avx512dq].
  intros (H1 & H2 & H3 & H4 & H5) ->.
  destruct c; [discriminate (H4 eq_refl)|]. destruct d; [discriminate H3; auto|]. destruct e; [discriminate H3; auto|].
  destruct f; [discriminate (H2 eq_refl)|]. destruct v; [discriminate H1; auto|]. destruct w; [discriminate H1; auto|].
  destruct q; [discriminate H1; auto|]. reflexivity.
Qed.

Lemma widens ft cpi cpo t u n np parts md xs : flags_ok ft -> sse41 ft = false -> elem_type t -> elem_type u -> widening t u ->
  held_by n (length xs) -> length xs * esize t <= 16 -> result_parts n (16 / esize u) np parts -> patterns (esize t) xs ->
  widens_elements ft cpi cpo t u n np parts md xs.
Proof.
  intros Hf Hs Ht Hu Hw (Hn2 & HL & (k & EL)) H16 HP Hx.
  assert (U : esize u = 2 \/ esize u = 4 \/ esize u = 8).
  { destruct Hw as (_ & W & _). destruct (elem_width t Ht) as (a & Ea & ?), (elem_width u Hu) as (b & Eb & ?). lia. }
  assert (It : In t ints).
  { destruct Hw as ((w & sg & ->) & W & _). cbn [elem_type esize] in *.
    destruct Ht as [->|[->|[->| ->]]]; [destruct sg; cbn; auto 10..|lia]. }
  assert (Iu : In u (wider t)).
  { unfold wider. apply filter_In. split; [apply in_tys; auto|]. destruct Hw as (_ & W & N).
    apply andb_true_iff. split; [apply Nat.ltb_lt; auto|]. apply negb_true_iff, andb_false_iff.
    destruct (Nat.eqb_spec (esize t) 4); auto. right. destruct (ety_eqb u (EF 8)) eqn:E; auto.
    exfalso. apply N. split; auto. apply ety_eqb_eq; auto. }
  assert (T1 : 1 <= esize t) by (destruct (elem_width t Ht) as (a & -> & ?); lia).
  assert (IL : In (length xs) [2; 4; 8; 16] /\ length xs = length xs / 2 + length xs / 2).
  { assert (K : k < 5).
    { destruct (le_lt_dec 5 k); auto. exfalso. assert (2 ^ 5 <= 2 ^ k) by (apply Nat.pow_le_mono_r; lia).
      change (2 ^ 5) with 32 in *. nia. }
    rewrite EL in *. do 5 (destruct k as [|k]; [cbn in *; auto 10; lia|]). lia. }
  destruct IL as [IL E2].
  assert (HM : 1 <= 16 / esize u) by (destruct U as [->|[->| ->]]; cbn; lia).
  assert (C : exists o, widen_register ft cpi cpo t n u np = o /\ opt_parts t (length xs) n u parts o = true).
  { eexists. split; [reflexivity|].
    apply (ok_w_spec widen_register ft t u (length xs) n np parts cpi cpo); auto; [|lia].
    rewrite (no_sse41 ft Hf Hs). apply ok_sse2_a. }
  destruct C as (o & Eo & C). unfold widens_elements. cbv zeta. rewrite Eo. clear Eo.
  destruct o as [es|]; [|discriminate]. unfold opt_parts in C.
  destruct (Nat.eqb_spec (length es) parts) as [EP|]; [|discriminate].
  exists es. split; auto. split; auto. intros i e ub Ei.
  apply (parts_check_nth _ _ _ _ _ 0 i e) in C; auto.
  exact (part_sound t (length xs) n u e i Ht Hu Hw ltac:(lia) C ub md xs eq_refl Hx).
Qed.
