(* Which mixed-type calls and which tuple optimizations are possible depends
   only on the tuples' types; with the exhaustive checks of Targets.v this
   settles it for every target, element type and size. *)
From Coq Require Import List Arith Bool ZArith Lia.
From Verif Require Import Prelude BitMask Abi AbiSpec AbiProofs Fixed FixedSpec FixedProofs
  FixedApply Targets Profile FixedStorage.
Import ListNotations.

Lemma tof_mem_shape_len {A B} s : forall (m : list A) (m' : list B), length m = length m' ->
  tshape (tof_mem s m) = tshape (tof_mem s m').
Proof.
  induction s as [|[n l] s IH]; intros m m' H; auto. cbn [tof_mem]. rewrite !tshape_cons.
  f_equal; [|apply IH; rewrite !skipn_length; lia]. unfold cshape. simpl.
  rewrite !firstn_length. congruence.
Qed.

Definition same_shape {A B} (a : option (tuple A)) (b : option (tuple B)) : Prop :=
  match a, b with Some x, Some y => tshape x = tshape y | None, None => True | _, _ => False end.
Definition vshape {A B} (a : view A) (b : view B) : Prop :=
  tshape (vdone a) = tshape (vdone b) /\ tshape (vtup a) = tshape (vtup b) /\ voff a = voff b.
Definition same_vshape {A B} (a : option (view A)) (b : option (view B)) : Prop :=
  match a, b with Some x, Some y => vshape x y | None, None => True | _, _ => False end.

Lemma extract_shape {A B} (p : A) (q : B) st n v w : vshape v w ->
  same_shape (extract_argument p st n v) (extract_argument q st n w).
Proof.
  intros (H1 & H2 & H3). unfold extract_argument. destruct (st n) as [s|]; simpl; auto.
  rewrite <- H2, <- H3. destruct (Nat.leb_spec (voff v + ssizeof s) (ssizeof (tshape (vtup v)))); simpl; auto.
  pose proof (slanes_sizeof s).
  rewrite !tof_mem_shape; auto; rewrite firstn_length, skipn_length, obj_mem_length.
  all: rewrite ?H3, ?H2 in *; lia.
Qed.
Lemma extract_arg_shape {A} (p : A) st n v arg :
  (forall s, st n = Some s -> dense s /\ ssize s = n) ->
  extract_argument p st n v = Some arg -> dense (tshape arg) /\ length (telems arg) = n.
Proof.
  intros Hst. unfold extract_argument. destruct (st n) as [s|]; [|discriminate].
  destruct (Hst s eq_refl) as [Hd Hn].
  destruct (Nat.leb_spec (voff v + ssizeof s) (ssizeof (tshape (vtup v)))); [|discriminate].
  intros E. apply some_inj in E. subst arg.
  pose proof (slanes_sizeof s).
  assert (E : tshape (tof_mem s (firstn (slanes s) (skipn (voff v) (obj_mem p (vtup v))))) = s).
  { apply tof_mem_shape. rewrite firstn_length, skipn_length, obj_mem_length. lia. }
  rewrite telems_length by (apply dense_ok; rewrite E; auto). rewrite E. auto.
Qed.

Lemma tshape_csize {A B} (c : chunk A) (d : chunk B) : cshape c = cshape d -> csize c = csize d.
Proof. unfold cshape. congruence. Qed.

Lemma assign_shape {A B} : forall (t : tuple A) (u : tuple B) off x y,
  tshape t = tshape u -> tshape x = tshape y ->
  same_shape (assign_front t off x) (assign_front u off y).
Proof.
  induction t as [|c t IH]; intros [|d u] off x y H1 H2; try discriminate; [simpl; auto|].
  destruct x as [|a x], y as [|b y]; try discriminate; [simpl; auto|].
  cbn [assign_front]. rewrite !tshape_cons in H1, H2.
  injection H1 as Hc Hl Ht. injection H2 as Ha Hla Hx.
  assert (Ec : cshape c = cshape d) by (unfold cshape; congruence).
  assert (Ea : cshape a = cshape b) by (unfold cshape; congruence).
  rewrite <- Ec, <- Ea.
  destruct ((fst (cshape c) =? fst (cshape a)) && (snd (cshape c) =? snd (cshape a))).
  - destruct (off =? 0); [|simpl; auto].
    destruct x as [|a' x], y as [|b' y]; try discriminate.
    + simpl. congruence.
    + replace (length (b' :: y)) with (length (a' :: x)); cycle 1.
      { apply (f_equal (@length _)) in Hx. unfold tshape in Hx. rewrite !map_length in Hx. auto. }
      replace (length u) with (length t); cycle 1.
      { apply (f_equal (@length _)) in Ht. unfold tshape in Ht. rewrite !map_length in Ht. auto. }
      destruct (_ <=? _); [|simpl; auto].
      specialize (IH u 0 (a' :: x) (b' :: y) Ht Hx).
      destruct (assign_front t 0 (a' :: x)), (assign_front u 0 (b' :: y)); simpl in *; auto.
      congruence.
  - set (t1 := c :: t) in *. set (u1 := d :: u) in *. set (x1 := a :: x) in *. set (y1 := b :: y) in *.
    assert (Es : tshape t1 = tshape u1) by (unfold t1, u1; rewrite !tshape_cons; congruence).
    assert (Ex : tshape x1 = tshape y1) by (unfold x1, y1; rewrite !tshape_cons; congruence).
    cbv zeta. rewrite <- Ex, !tmem_length, <- Es.
    destruct (Nat.leb_spec (off + ssize (tshape x1)) (slanes (tshape t1))); [|simpl; auto].
    unfold same_shape. apply tof_mem_shape_len.
    rewrite !app_length, !firstn_length, !skipn_length, !tmem_length, Es, Ex. auto.
Qed.

Lemma pop_front_shape {A B} (t : tuple A) : forall (u : tuple B) d e np,
  tshape t = tshape u -> tshape d = tshape e ->
  match pop_front d t np, pop_front e u np with
  | Some a, Some b => tshape (fst a) = tshape (fst b) /\ tshape (snd a) = tshape (snd b)
  | None, None => True | _, _ => False end.
Proof.
  induction t as [|c t IH]; intros [|c' u] d e np H1 H2; try discriminate; cbn [pop_front].
  - destruct (np =? 0); simpl; auto.
  - pose proof H1 as H1'. rewrite !tshape_cons in H1'. injection H1' as Hc Hl Ht.
    destruct (np =? 0); [simpl; auto|]. rewrite <- Hc.
    destruct (csize c <=? np); auto. apply IH; auto.
    rewrite !tshape_app. f_equal; auto. unfold tshape, cshape; simpl. congruence.
Qed.

Lemma skip_shape {A B} n (v : view A) (w : view B) : vshape v w ->
  same_vshape (skip_argument n v) (skip_argument n w).
Proof.
  destruct v as [d t o], w as [e u o']. intros (H1 & H2 & H3). cbn [vdone vtup voff] in *. subst o'.
  unfold skip_argument. cbn [vdone vtup voff].
  destruct t as [|c t], u as [|c' u]; try discriminate; [simpl; auto|].
  pose proof H2 as H2'. rewrite !tshape_cons in H2'. injection H2' as Hc Hl Ht. rewrite <- Hc.
  assert (Hd : tshape (d ++ [c]) = tshape (e ++ [c'])).
  { rewrite !tshape_app. f_equal; auto. unfold tshape, cshape; simpl. congruence. }
  destruct ((n =? csize c) && (o =? 0)); [simpl; unfold vshape; simpl; auto|].
  destruct ((csize c <? n) && (n mod csize c =? 0) && (o =? 0)).
  { pose proof (pop_front_shape (c :: t) (c' :: u) d e n H2 H1) as Hp.
    destruct (pop_front d (c :: t) n), (pop_front e (c' :: u) n); simpl; auto.
    unfold vshape; simpl; tauto. }
  destruct (n + o <? csize c); [simpl; unfold vshape; simpl; auto|].
  destruct (n + o =? csize c); simpl; unfold vshape; simpl; auto.
Qed.

Definition is_some {X} (o : option X) : bool := if o then true else false.

Lemma apply_mixed_success {A B C D} (pad : B) (pad' : D) wb st
  (F : nat -> list A -> list (list A) -> tuple B -> list A * tuple B)
  (G : nat -> list C -> list (list C) -> tuple D -> list C * tuple D) :
  (forall n reg regs arg, n <= length reg -> Forall (fun r => length r = length reg) regs ->
     dense (tshape arg) -> length (telems arg) = n ->
     tshape (snd (F n reg regs arg)) = tshape arg) ->
  (forall n reg regs arg, tshape (snd (G n reg regs arg)) = tshape arg) ->
  forall x y more more' v w,
  (forall c s, In c x -> st (csize c) = Some s -> dense s /\ ssize s = csize c) ->
  Forall chunk_ok x -> Forall (fun t => tshape t = tshape x) more ->
  tshape x = tshape y -> vshape v w ->
  is_some (apply_mixed pad wb st F x more v) = is_some (apply_mixed pad' wb st G y more' w).
Proof.
  intros HF HG. induction x as [|c x IH]; intros y more more' v w Hst Hok Hm Hs Hv.
  - destruct y; [auto|discriminate].
  - destruct y as [|c' y]; [discriminate|].
    pose proof Hs as Hs'. rewrite !tshape_cons in Hs'. injection Hs' as Hc Hl Ht.
    cbn [apply_mixed]. rewrite <- Hc. inversion Hok as [|? ? Hcok Hok']; subst.
    pose proof (extract_shape pad pad' st (csize c) v w Hv) as He.
    destruct (extract_argument pad st (csize c) v) as [arg|] eqn:Ea;
      destruct (extract_argument pad' st (csize c) w) as [arg'|]; simpl in He; try tauto.
    destruct (extract_arg_shape pad st (csize c) v arg) as [Hda Hla]; auto.
    { intros s Hs1. apply (Hst c s); simpl; auto. }
    assert (Hh : Forall (fun r => length r = length (creg c)) (heads more))
      by (eapply heads_length; exact Hm).
    pose proof (HF (csize c) (creg c) (heads more) arg Hcok Hh Hda Hla) as HFs.
    pose proof (HG (csize c) (creg c') (heads more') arg') as HGs.
    destruct (F (csize c) (creg c) (heads more) arg) as [reg a1].
    destruct (G (csize c) (creg c') (heads more') arg') as [reg' a2]. cbn [snd] in *.
    assert (Hv1 : same_vshape (if wb then view_assign v a1 else Some v)
                              (if wb then view_assign w a2 else Some w)).
    { destruct wb; [|exact Hv]. unfold view_assign. destruct Hv as (V1 & V2 & V3).
      rewrite <- V3.
      pose proof (assign_shape (vtup v) (vtup w) (voff v) a1 a2 V2 ltac:(congruence)) as Has.
      destruct (assign_front (vtup v) (voff v) a1), (assign_front (vtup w) (voff v) a2);
        simpl in *; try tauto. unfold vshape; simpl. auto. }
    destruct (if wb then view_assign v a1 else Some v) as [v1|];
      destruct (if wb then view_assign w a2 else Some w) as [w1|]; simpl in Hv1; try tauto.
    destruct x as [|c2 x], y as [|c2' y]; try discriminate; auto.
    pose proof (skip_shape (csize c) v1 w1 Hv1) as Hsk.
    destruct (skip_argument (csize c) v1) as [v2|], (skip_argument (csize c) w1) as [w2|];
      simpl in Hsk; try tauto.
    specialize (IH (c2' :: y) (tails more) (tails more') v2 w2).
    destruct (apply_mixed pad wb st F (c2 :: x) (tails more) v2),
      (apply_mixed pad' wb st G (c2' :: y) (tails more') w2); simpl in *; auto; apply IH; auto.
    all: intros; eauto using tails_shape.
Qed.

(* ------------------------------------------------------------------ *)
(* exhaustive check: calls with an int or long argument                 *)

Definition unit_tuple (s : shape) : tuple unit := map (fun p => Chunk (fst p) (repeat tt (snd p))) s.
Lemma unit_shape s : tshape (unit_tuple s) = s.
Proof. induction s as [|[n l] s IH]; simpl; auto. unfold cshape at 1. simpl. rewrite repeat_length. f_equal; auto. Qed.

Definition mixed_call (wb : bool) (st : nat -> option shape) (s s' : shape) : bool :=
  is_some (apply_mixed tt wb st (fun _ r _ a => (r, a)) (unit_tuple s) [] (view_of (unit_tuple s'))).

Definition mixed_one (ex : bool) (tbt tbu : list (option shape)) (n : nat) : bool :=
        match tab_get 32 tbt n, tab_get 32 tbu n with
        | Some s, Some s' =>
            if (if ex then (n mod 4 =? 0) else false) then negb (mixed_call false (tab_get 32 tbu) s s')
            else if mixed_call false (tab_get 32 tbu) s s' then mixed_call true (tab_get 32 tbu) s s' else false
        | _, _ => false
        end.

(* the storages of all sizes, for all targets and element types: few tables *)
Definition table := list (option shape).
Definition table_eqb (a b : table) : bool :=
  if length a =? length b then
    forallb (fun p => match p with
                      | (Some x, Some y) => shape_eqb x y
                      | (None, None) => true
                      | _ => false
                      end) (combine a b)
  else false.
Lemma shape_eqb_spec a b : shape_eqb a b = true -> a = b.
Proof.
  unfold shape_eqb. revert b. induction a as [|[n l] a IH]; intros [|[m k] b] H;
    cbn [length combine forallb fst snd] in H; btrue; auto; try discriminate.
  f_equal; [congruence|]. apply IH. apply andb_true_iff. split; auto. apply Nat.eqb_eq. lia.
Qed.
Lemma table_eqb_spec a : forall b, table_eqb a b = true -> a = b.
Proof.
  unfold table_eqb. induction a as [|x a IH]; intros [|y b] H; cbn [length combine forallb] in H;
    try discriminate; auto.
  change (S (length a) =? S (length b)) with (length a =? length b) in H.
  specialize (IH b). destruct (length a =? length b); [|discriminate]. btrue.
  rewrite IH by auto. f_equal. destruct x, y; auto; try discriminate. f_equal. apply shape_eqb_spec; auto.
Qed.

(* table 0 is the one of types without registers *)
Definition scalar_table : table := map (fun i => Some (repeat (1, 1) (32 - i))) (seq 0 32).
Lemma scalar_table_get m : 1 <= m <= 32 -> tab_get 32 scalar_table m = Some (repeat (1, 1) m).
Proof.
  intros Hm. unfold tab_get. rewrite (proj2 (Nat.leb_le 1 m)), (proj2 (Nat.leb_le m 32)) by lia.
  cbn [andb]. unfold scalar_table.
  rewrite nth_indep with (d' := Some (repeat (1, 1) (32 - 0))) by (rewrite map_length, seq_length; lia).
  rewrite (map_nth (fun i => Some (repeat (1, 1) (32 - i)))), seq_nth by lia. do 2 f_equal. lia.
Qed.

Section Tables.
Variables (tables : list table) (index : list (rep_elt * nat)) (calls : list (nat * nat * bool)).

Definition elem_index (I : isa) (t : elem) : option nat :=
  if scalar_only I t then Some 0
  else match find (fun p => rep_eqb (I, t) (fst p)) index with Some p => Some (snd p) | None => None end.

(* the pairs of tables that occur for a call *)
Definition call_eqb (x y : nat * nat * bool) : bool :=
  if fst (fst x) =? fst (fst y) then
    if snd (fst x) =? snd (fst y) then eqb (snd x) (snd y) else false
  else false.
Definition call_found (I : isa) (t u : elem) : bool :=
  if negb (fp_elem t) then true
  else if negb (int_elem u) then true
  else match elem_index I t, elem_index I u with
       | Some i, Some j => existsb (call_eqb (i, j, narrow_exception I t u)) calls
       | _, _ => false
       end.
Definition arch_found (I : isa) : bool :=
  forallb (fun t => forallb (call_found I t) all_elems) all_elems.

Definition call_check (P : bool -> table -> table -> nat -> bool) (c : nat * nat * bool) : bool :=
  forallb (P (snd c) (nth (fst (fst c)) tables []) (nth (snd (fst c)) tables [])) (seq 1 32).

Hypothesis Hindex : forallb (fun p =>
  table_eqb (shape_table (fst (fst p)) (snd (fst p)) 32) (nth (snd p) tables [])) index = true.
Hypothesis Hscalar : nth 0 tables [] = scalar_table.
Hypothesis Harch : forallb arch_found rep_archs = true.

Lemma elem_index_spec I t i m : 1 <= esize t -> elem_index I t = Some i -> 1 <= m <= 32 ->
  storage_shape I t m = tab_get 32 (nth i tables []) m.
Proof.
  unfold elem_index. intros He H Hm. destruct (scalar_only I t) eqn:Es.
  { injection H as <-. rewrite Hscalar, scalar_table_get by auto. apply scalar_shape; auto. lia. }
  destruct (find (fun p => rep_eqb (I, t) (fst p)) index) as [p|] eqn:E; [|discriminate].
  injection H as <-. apply find_some in E as [Hin E].
  assert (E' : profile I t = profile (fst (fst p)) (snd (fst p))) by (apply profile_eqb_spec; exact E).
  assert (H1 : shape_table (fst (fst p)) (snd (fst p)) 32 = nth (snd p) tables []).
  { apply table_eqb_spec. exact (proj1 (forallb_forall _ index) Hindex p Hin). }
  transitivity (storage_shape (fst (fst p)) (snd (fst p)) m); [apply p_shape; exact E'|].
  transitivity (tab_get 32 (shape_table (fst (fst p)) (snd (fst p)) 32) m).
  - symmetry. apply shape_table_spec. exact Hm.
  - rewrite H1. reflexivity.
Qed.

Lemma check_calls_in (P : bool -> table -> table -> nat -> bool) :
  forallb (call_check P) calls = true ->
  forall I t u n, arch_ok I -> elem_ok t -> elem_ok u -> fp_elem t = true -> int_elem u = true ->
  1 <= n <= 32 ->
  exists tbt tbu, P (narrow_exception I t u) tbt tbu n = true /\
    (forall m, 1 <= m <= 32 -> tab_get 32 tbt m = storage_shape I t m) /\
    (forall m, 1 <= m <= 32 -> tab_get 32 tbu m = storage_shape I u m).
Proof.
  intros H I t u n HI Ht Hu Hft Hiu Hn.
  destruct (rep_arch I HI) as (J & HJ & Hprof & Hs & Ha).
  pose proof Harch as Hf. rewrite forallb_forall in Hf. specialize (Hf J HJ).
  unfold arch_found in Hf.
  pose proof (check_elems _ Hf t Ht) as Hf1. cbv beta in Hf1.
  pose proof (check_elems _ Hf1 u Hu) as Hf2. unfold call_found in Hf2.
  rewrite Hft, Hiu in Hf2. cbn [negb] in Hf2.
  destruct (elem_index J t) as [i|] eqn:Ei; [|discriminate].
  destruct (elem_index J u) as [j|] eqn:Ej; [|discriminate].
  apply existsb_exists in Hf2 as (c & Hc1 & Hc2).
  rewrite forallb_forall in H. specialize (H c Hc1). unfold call_eqb in Hc2. cbn [fst snd] in Hc2.
  destruct (i =? fst (fst c)) eqn:E1; [|discriminate].
  destruct (j =? snd (fst c)) eqn:E2; [|discriminate].
  apply Nat.eqb_eq in E1, E2. apply eqb_prop in Hc2.
  unfold call_check in H. pose proof (check_seq 1 32 _ H n ltac:(lia)) as H1.
  exists (nth (fst (fst c)) tables []), (nth (snd (fst c)) tables []).
  assert (Hn' : narrow_exception I t u = snd c).
  { rewrite <- Hc2. unfold narrow_exception. rewrite Hs, Ha. specialize (Hprof t Ht). unfold profile in Hprof.
    injection Hprof as _ _ _ _ ->. auto. }
  rewrite Hn'. split; auto. rewrite <- E1, <- E2. split; intros m Hm.
  - rewrite <- (elem_index_spec J t i) by (auto; apply elem_ok_pos; auto).
    apply p_shape. symmetry. auto.
  - rewrite <- (elem_index_spec J u j) by (auto; apply elem_ok_pos; auto).
    apply p_shape. symmetry. auto.
Qed.
End Tables.

(* the tables, index and calls, computed *)
Definition rep_tables : list table := Eval vm_compute in
  scalar_table :: filter (fun t => negb (table_eqb t scalar_table))
    (dedup table_eqb (map (fun r : rep_elt => shape_table (fst r) (snd r) 32) reps)).
Fixpoint index_of (tb : table) (l : list table) (i : nat) : nat :=
  match l with
  | [] => i
  | x :: r => if table_eqb x tb then i else index_of tb r (S i)
  end.
Definition rep_index : list (rep_elt * nat) := Eval vm_compute in
  map (fun r : rep_elt => (r, index_of (shape_table (fst r) (snd r) 32) rep_tables 0)) reps.
Definition rep_calls : list (nat * nat * bool) := Eval vm_compute in
  dedup call_eqb (flat_map (fun I => flat_map (fun t => if fp_elem t then
    flat_map (fun u => if int_elem u then
       match elem_index rep_index I t, elem_index rep_index I u with
       | Some i, Some j => [(i, j, narrow_exception I t u)]
       | _, _ => []
       end else []) all_elems
    else []) all_elems) rep_archs).

Lemma index_check_ok : forallb (fun p =>
  table_eqb (shape_table (fst (fst p)) (snd (fst p)) 32) (nth (snd p) rep_tables [])) rep_index = true.
Proof. vm_cast_no_check (eq_refl true). Qed.
Lemma scalar_ok : nth 0 rep_tables [] = scalar_table.
Proof. vm_cast_no_check (eq_refl scalar_table). Qed.
Lemma arch_found_ok : forallb (arch_found rep_index rep_calls) rep_archs = true.
Proof. vm_cast_no_check (eq_refl true). Qed.
Definition check_calls := check_calls_in rep_tables rep_index rep_calls index_check_ok scalar_ok arch_found_ok.

Lemma mixed_check_ok : forallb (call_check rep_tables mixed_one) rep_calls = true.
Proof. vm_cast_no_check (eq_refl true). Qed.

Lemma mixed_call_ext wb st st' s s' :
  (forall m, In m (map fst s) -> st m = st' m) -> mixed_call wb st s s' = mixed_call wb st' s s'.
Proof.
  intros H. unfold mixed_call. f_equal.
  assert (G : forall x more v, (forall c, In c x -> st (csize c) = st' (csize c)) ->
    apply_mixed tt wb st (fun (_ : nat) (r : list unit) (_ : list (list unit)) (a : tuple unit) => (r, a)) x more v
    = apply_mixed tt wb st' (fun _ r _ a => (r, a)) x more v).
  { induction x as [|c x IH]; intros more v Hx; auto. cbn [apply_mixed].
    unfold extract_argument. rewrite <- (Hx c) by (left; auto).
    destruct (match st (csize c) with Some _ => _ | None => _ end); auto.
    destruct (if wb then _ else _); auto. destruct x; auto.
    destruct (skip_argument _ _); auto. rewrite IH; auto. intros; apply Hx; right; auto. }
  apply G. intros c Hc. apply H. unfold unit_tuple in Hc. apply in_map_iff in Hc as (p & <- & Hp).
  simpl. apply in_map_iff. eauto.
Qed.

Lemma dense_sizes s m : dense s -> In m (map fst s) -> 1 <= m <= ssize s.
Proof.
  induction s as [|[n l] s IH]; cbn [map In]; [tauto|]. rewrite ssize_cons. cbn [fst].
  intros (H1 & H2 & H3 & H4) [<-|Hm]; [lia|]. specialize (IH H4 Hm). lia.
Qed.

Lemma int_elem_ok u : int_elem u = true -> elem_ok u.
Proof.
  destruct u; simpl; try discriminate. intros H. apply orb_true_iff in H as [H|H];
  apply Nat.eqb_eq in H; auto.
Qed.
Lemma max_fixed_fp I t : fp_elem t = true -> elem_ok t -> max_fixed_size I t = 32.
Proof.
  unfold max_fixed_size. destruct t; simpl; try discriminate; intros _ H.
  - rewrite andb_false_r. auto.
  - rewrite andb_false_r. auto.
  - destruct H as [->|[->| ->]]; rewrite andb_false_r; auto.
Qed.
Lemma max_fixed_int I u : int_elem u = true -> max_fixed_size I u = 32.
Proof.
  unfold max_fixed_size. destruct u; simpl; try discriminate. intros H.
  apply orb_true_iff in H as [H|H]; apply Nat.eqb_eq in H; subst; rewrite andb_false_r; auto.
Qed.

Lemma mixed_call_all I t u n : arch_ok I -> elem_ok t -> fp_elem t = true -> int_elem u = true ->
  1 <= n <= max_fixed_size I t ->
  exists s s', storage_shape I t n = Some s /\ storage_shape I u n = Some s' /\
    (if narrow_exception I t u && (n mod 4 =? 0)
     then mixed_call false (storage_shape I u) s s' = false
     else forall wb, mixed_call wb (storage_shape I u) s s' = true).
Proof.
  intros HI Ht Hf Hu Hn.
  rewrite (max_fixed_fp I t Hf Ht) in Hn.
  destruct (check_calls mixed_one mixed_check_ok I t u n HI Ht (int_elem_ok u Hu) Hf Hu Hn)
    as (tbt & tbu & H4 & Htt & Htu).
  unfold mixed_one in H4. rewrite Htt, Htu in H4 by auto. rewrite <- (max_fixed_fp I t Hf Ht) in Hn.
  destruct (storage_shape_facts I t n HI Ht Hn) as (s & Es & Hd & Hs). rewrite Es in H4.
  destruct (storage_shape I u n) as [s'|]; [|discriminate]. exists s, s'. split; auto. split; auto.
  assert (Hext : forall wb,
    mixed_call wb (tab_get 32 tbu) s s' = mixed_call wb (storage_shape I u) s s').
  { intros wb. apply mixed_call_ext. intros m Hm. apply Htu.
    pose proof (dense_sizes s m Hd Hm). rewrite (max_fixed_fp I t Hf Ht) in Hn. lia. }
  rewrite !Hext in H4.
  replace (if narrow_exception I t u then n mod 4 =? 0 else false)
    with (narrow_exception I t u && (n mod 4 =? 0)) in H4 by (destruct (narrow_exception I t u); auto).
  destruct (narrow_exception I t u && (n mod 4 =? 0)).
  - apply negb_true_iff; auto.
  - destruct (mixed_call false (storage_shape I u) s s') eqn:E; [|discriminate].
    intros [|]; auto.
Qed.

(* every call either succeeds or fails, whatever the operands and the function *)
Lemma mixed_success I t u n {A B} (pad : B) wb f g
  (F : nat -> list A -> list (list A) -> tuple B -> list A * tuple B) (x : tuple A) more (y : tuple B) :
  arch_ok I -> elem_ok t -> fp_elem t = true -> int_elem u = true -> 1 <= n <= max_fixed_size I t ->
  lanewise_mixed f g F ->
  storage_shape I t n = Some (tshape x) -> Forall (fun t => tshape t = tshape x) more ->
  storage_shape I u n = Some (tshape y) ->
  (narrow_exception I t u && (n mod 4 =? 0) = false ->
     exists r, apply_mixed pad wb (storage_shape I u) F x more (view_of y) = Some r) /\
  (narrow_exception I t u && (n mod 4 =? 0) = true ->
     apply_mixed pad false (storage_shape I u) F x more (view_of y) = None).
Proof.
  intros HI Ht Hf Hu Hn HF Hx Hm Hy.
  destruct (mixed_call_all I t u n HI Ht Hf Hu Hn) as (s & s' & E1 & E2 & H).
  rewrite Hx in E1. injection E1 as <-. rewrite Hy in E2. injection E2 as <-.
  destruct (storage_shape_facts I t n HI Ht Hn) as (s & Es & Hd & Hs).
  rewrite Hx in Es. injection Es as <-.
  assert (Hsucc : forall wb, is_some (apply_mixed pad wb (storage_shape I u) F x more (view_of y))
     = mixed_call wb (storage_shape I u) (tshape x) (tshape y)).
  { intros wb0. unfold mixed_call. apply apply_mixed_success; auto.
    - intros n0 reg regs arg h1 h2 h3 h4. apply (HF n0 reg regs arg h1 h2 h3 h4).
    - intros c s0 Hc Hs0.
      assert (Hin : In (csize c) (map fst (tshape x))).
      { unfold tshape. rewrite map_map. apply in_map_iff. exists c. auto. }
      pose proof (dense_sizes _ _ Hd Hin) as Hb. rewrite Hs in Hb.
      destruct (storage_shape_facts I u (csize c)) as (s1 & E & ? & ?); auto.
      + apply int_elem_ok; auto.
      + rewrite max_fixed_int by auto. rewrite max_fixed_fp in Hn by auto. lia.
      + rewrite E in Hs0. injection Hs0 as <-. auto.
    - apply dense_ok; auto.
    - rewrite unit_shape. auto.
    - unfold vshape, view_of. simpl. rewrite unit_shape. auto. }
  split; intros Hx0; rewrite Hx0 in H.
  - specialize (Hsucc wb). rewrite H in Hsucc.
    destruct (apply_mixed pad wb (storage_shape I u) F x more (view_of y)); [eauto|discriminate].
  - specialize (Hsucc false). rewrite H in Hsucc.
    destruct (apply_mixed pad false (storage_shape I u) F x more (view_of y)); [discriminate|auto].
Qed.

(* ------------------------------------------------------------------ *)
(* results of another element type: __optimize_simd_tuple is natural in  *)
(* the elements, so a check on lane labels settles it for all contents   *)

Definition cmap {A B} (p : A -> B) (c : chunk A) : chunk B := Chunk (csize c) (map p (creg c)).
Definition tmap {A B} (p : A -> B) (t : tuple A) : tuple B := map (cmap p) t.

Lemma cmap_shape {A B} (p : A -> B) c : cshape (cmap p c) = cshape c.
Proof. unfold cshape, cmap. simpl. rewrite map_length. auto. Qed.
Lemma tmap_shape {A B} (p : A -> B) t : tshape (tmap p t) = tshape t.
Proof. unfold tshape, tmap. rewrite map_map. apply map_ext, cmap_shape. Qed.
Lemma tmap_mem {A B} (p : A -> B) t : tmem (tmap p t) = map p (tmem t).
Proof. unfold tmem, tmap. induction t; simpl; auto. rewrite map_app. f_equal; auto. Qed.
Lemma tmap_elems {A B} (p : A -> B) t : telems (tmap p t) = map p (telems t).
Proof.
  unfold telems, tmap. induction t; simpl; auto. rewrite map_app, IHt. f_equal.
  unfold celems, cmap. simpl. apply firstn_map.
Qed.
Lemma tmap_get {A B} (p : A -> B) t : forall i, t_get_const (tmap p t) i = option_map p (t_get_const t i).
Proof.
  induction t as [|c t IH]; intros i; auto. cbn [tmap map t_get_const cmap csize].
  destruct (i <? csize c); [|apply IH]. unfold chunk_read. simpl. apply nth_error_map.
Qed.
Lemma tmap_pop {A B} (p : A -> B) t : forall d n, pop_front (tmap p d) (tmap p t) n
  = option_map (fun q => (tmap p (fst q), tmap p (snd q))) (pop_front d t n).
Proof.
  induction t as [|c t IH]; intros d n; cbn [tmap map pop_front].
  - destruct (n =? 0); auto.
  - destruct (n =? 0); auto. cbn [cmap csize]. destruct (csize c <=? n); auto.
    rewrite <- IH. unfold tmap. rewrite map_app. auto.
Qed.
Lemma tmap_tof_mem {A B} (p : A -> B) s : forall m, tof_mem s (map p m) = tmap p (tof_mem s m).
Proof.
  induction s as [|[n l] s IH]; intros m; auto. cbn [tof_mem tmap map]. unfold cmap. cbn [csize creg].
  rewrite firstn_map, skipn_map, IH. auto.
Qed.
Lemma omapm_map {A B C} (p : B -> C) (f : A -> option B) (g : A -> option C) l :
  (forall a, g a = option_map p (f a)) -> omapm g l = option_map (map p) (omapm f l).
Proof.
  intros H. induction l; simpl; auto. rewrite H, IHl. destruct (f a); auto.
  simpl. destruct (omapm f l); auto.
Qed.
Lemma memcpy_natural {A B} (p : A -> B) zero s x :
  optimize_memcpy (p zero) s (tmap p x) = option_map (tmap p) (optimize_memcpy zero s x).
Proof.
  unfold optimize_memcpy. rewrite tmap_shape. destruct (_ =? _); auto. simpl. f_equal.
  rewrite <- tmap_tof_mem. f_equal. rewrite map_app, tmap_mem, firstn_map. f_equal.
  induction (slanes s - ssize s); simpl; congruence.
Qed.
Lemma map_repeat' {A B} (p : A -> B) z n : map p (repeat z n) = repeat (p z) n.
Proof. induction n; simpl; congruence. Qed.

Lemma optimize_natural {A B} (p : A -> B) zero st : forall fuel x,
  optimize_tuple (p zero) fuel st (tmap p x) = option_map (tmap p) (optimize_tuple zero fuel st x).
Proof.
  induction fuel as [|fuel IH]; intros [|c0 [|c1 rest]]; try reflexivity.
  cbn [tmap map optimize_tuple].
  change (cmap p c0 :: cmap p c1 :: map (cmap p) rest) with (tmap p (c0 :: c1 :: rest)).
  change (cmap p c1 :: map (cmap p) rest) with (tmap p (c1 :: rest)).
  rewrite !tmap_shape, !cmap_shape. destruct (st (ssize (tshape (c0 :: c1 :: rest)))) as [[|[rn rl] rr]|]; auto.
  destruct (shape_eqb ((rn, rl) :: rr) (tshape (c0 :: c1 :: rest))); auto.
  destruct (shape_eqb [(rn, rl)] [cshape c0]).
  { rewrite IH. destruct (optimize_tuple zero fuel st (c1 :: rest)); auto. }
  replace (length (creg (cmap p c0))) with (length (creg c0)) by (symmetry; apply map_length).
  cbn [cmap csize].
  destruct ((length (creg c0) =? 1) || negb (length (creg c0) =? csize c0)).
  { rewrite (omapm_map p (t_get_const (c0 :: c1 :: rest))) by (intros; apply tmap_get).
    change (@nil (chunk B)) with (tmap p (@nil (chunk A))). rewrite tmap_pop.
    destruct (omapm (t_get_const (c0 :: c1 :: rest)) (seq 0 rn)); auto. cbn [option_map].
    destruct (pop_front [] (c0 :: c1 :: rest) rn); auto. cbn [option_map fst snd]. rewrite IH.
    destruct (optimize_tuple zero fuel st _); auto. cbn [option_map tmap map]. unfold cmap.
    cbn [csize creg]. rewrite map_app, map_repeat'. reflexivity. }
  destruct (shape_eqb [cshape c0] [cshape c1] && (rn =? csize c0 + csize c1)).
  { change (map (cmap p) rest) with (tmap p rest). rewrite IH. destruct (optimize_tuple zero fuel st _); auto. cbn [option_map tmap map].
    unfold cmap. cbn [csize creg]. rewrite map_app. reflexivity. }
  destruct rest as [|c2 [|c3 rest]]; try apply (memcpy_natural p).
  cbn [map cmap csize creg]. destruct ((rn =? 4 * csize c0) && (csize c0 =? csize c3)); [|apply memcpy_natural].
  change (map (cmap p) rest) with (tmap p rest). rewrite IH. destruct (optimize_tuple zero fuel st _); auto. cbn [option_map tmap map].
  unfold cmap. cbn [csize creg]. rewrite !map_app. reflexivity.
Qed.

Definition labels (s : shape) : tuple nat := tof_mem s (seq 0 (slanes s)).
Definition opt_call (st : nat -> option shape) (s' : shape) (ss : shape) : bool :=
  match optimize_tuple (slanes ss) (length ss) st (labels ss) with
  | Some r => shape_eqb (tshape r) s' && nats_eqb (telems r) (telems (labels ss))
  | None => false
  end.
Definition opt_one (ex : bool) (tbt tbu : table) (n : nat) : bool :=
        match tab_get 32 tbt n, tab_get 32 tbu n with
        | Some s, Some s' =>
            match omapm (fun p => tab_get 32 tbu (fst p)) s with
            | Some ss => opt_call (tab_get 32 tbu) s' (concat ss)
            | None => false
            end
        | _, _ => false
        end.
Lemma opt_check_ok : forallb (call_check rep_tables opt_one) rep_calls = true.
Proof. vm_cast_no_check (eq_refl true). Qed.

Lemma labels_mem s : tmem (labels s) = seq 0 (slanes s).
Proof.
  unfold labels. rewrite tmem_tof_mem by (rewrite seq_length; auto).
  apply firstn_all2. rewrite seq_length. auto.
Qed.
Lemma labels_shape s : tshape (labels s) = s.
Proof. apply tof_mem_shape. rewrite seq_length. auto. Qed.
Lemma tof_mem_id {B} (x : tuple B) : tof_mem (tshape x) (tmem x) = x.
Proof.
  induction x as [|[n r] x IH]; auto. unfold tshape, tmem. cbn [map flat_map]. unfold cshape at 1.
  cbn [tof_mem csize creg]. rewrite firstn_app, firstn_all, Nat.sub_diag, firstn_O, app_nil_r.
  rewrite skipn_app, skipn_all, Nat.sub_diag, skipn_O. cbn [app]. f_equal. exact IH.
Qed.
Lemma labels_complete {B} (z : B) (x : tuple B) :
  tmap (fun i => nth i (tmem x) z) (labels (tshape x)) = x.
Proof.
  unfold labels. rewrite <- tmap_tof_mem, <- tmem_length.
  rewrite <- (tof_mem_id x) at 3. f_equal.
  apply nth_eq_ext with (d := z); [rewrite map_length, seq_length; auto|].
  intros i Hi. rewrite map_length, seq_length in Hi. apply nth_map_seq. auto.
Qed.

Lemma opt_ext {B} (zero : B) st st' : forall fuel x, ssize (tshape x) <= 32 ->
  Forall (fun p => 1 <= fst p) (tshape x) ->
  (forall m, 1 <= m <= 32 -> st m = st' m) ->
  optimize_tuple zero fuel st x = optimize_tuple zero fuel st' x.
Proof.
  induction fuel as [|fuel IH]; intros [|c0 [|c1 rest]] Hx Hp Hst; auto.
  inversion Hp as [|? ? Hp0 Hp1]; subst. inversion Hp1 as [|? ? Hp2 Hp3]; subst.
  cbn [optimize_tuple]. rewrite <- Hst; cycle 1.
  { rewrite (tshape_cons c0), ssize_cons in Hx |- *. lia. }
  destruct (st (ssize (tshape (c0 :: c1 :: rest)))) as [[|[rn rl] rr]|]; auto.
  assert (Hall : ssize (tshape (c1 :: rest)) <= 32 /\ ssize (tshape rest) <= 32).
  { rewrite (tshape_cons c0), ssize_cons in Hx. split; [lia|].
    rewrite (tshape_cons c1), ssize_cons in Hx. lia. }
  destruct Hall as [Ha1 Ha2].
  destruct (shape_eqb _ _); auto.
  destruct (shape_eqb _ _).
  { rewrite (IH (c1 :: rest)); auto. }
  destruct (_ || _).
  { destruct (omapm _ _); auto. destruct (pop_front [] (c0 :: c1 :: rest) rn) as [[d' t']|] eqn:Ep; auto.
    cbn [snd]. destruct (pop_front_spec _ _ _ _ _ Ep) as [H1 H2]. cbn [app] in H1.
    rewrite (IH t'); auto.
    - rewrite H1, tshape_app, ssize_app in Hx. lia.
    - rewrite H1, tshape_app in Hp. apply Forall_app in Hp as [_ ?]. auto. }
  destruct (_ && _).
  { rewrite (IH rest); auto. }
  destruct rest as [|c2 [|c3 rest]]; auto.
  destruct (_ && _); auto. rewrite (IH rest); auto.
  - rewrite !(tshape_cons c2), !(tshape_cons c3), !ssize_cons in Ha2. lia.
  - inversion Hp3 as [|? ? _ Hp4]. inversion Hp4. auto.
Qed.

Lemma omapm_ext {A B} (f g : A -> option B) l : (forall a, In a l -> f a = g a) ->
  omapm f l = omapm g l.
Proof.
  intros H. induction l; simpl; auto. rewrite (H a) by (left; auto). rewrite IHl; auto.
  intros; apply H; right; auto.
Qed.

(* the pieces the registers produce, put together *)
Lemma pieces_facts I u s ss : arch_ok I -> int_elem u = true -> dense s -> ssize s <= 32 ->
  omapm (fun p => storage_shape I u (fst p)) s = Some ss ->
  ssize (concat ss) = ssize s /\ Forall (fun p => 1 <= fst p /\ fst p <= snd p) (concat ss).
Proof.
  intros HI Hu. revert ss. induction s as [|[n l] s IH]; intros ss Hd Hs H; cbn [omapm fst] in H.
  - injection H as <-. simpl. auto.
  - destruct Hd as (D1 & D2 & D3 & D4). rewrite ssize_cons in Hs. cbn [fst] in Hs.
    destruct (storage_shape_facts I u n) as (s1 & E1 & Hd1 & Hs1); auto.
    { apply int_elem_ok; auto. } { rewrite max_fixed_int by auto. lia. }
    rewrite E1 in H. destruct (omapm _ s) as [ss1|] eqn:E2; [|discriminate]. injection H as <-.
    destruct (IH ss1 D4 ltac:(lia) eq_refl) as [I1 I2].
    cbn [concat]. rewrite ssize_app, ssize_cons. cbn [fst]. split; [lia|].
    apply Forall_app. split; auto. clear - Hd1. induction s1 as [|[a b] s1 IH]; auto.
    destruct Hd1 as (? & ? & ? & ?). constructor; auto.
Qed.

Lemma optimize_all I t u n {B} (zero : B) (y : tuple B) :
  arch_ok I -> elem_ok t -> fp_elem t = true -> int_elem u = true ->
  1 <= n <= max_fixed_size I t ->
  forall s ss, storage_shape I t n = Some s ->
  omapm (fun p => storage_shape I u (fst p)) s = Some ss -> tshape y = concat ss ->
  exists r, optimize_tuple zero (length y) (storage_shape I u) y = Some r /\
    storage_shape I u n = Some (tshape r) /\ telems r = telems y.
Proof.
  intros HI Ht Hf Hu Hn s ss Es Ess Hy.
  assert (Hk : max_fixed_size I t = 32) by (apply max_fixed_fp; auto). rewrite Hk in Hn.
  destruct (check_calls opt_one opt_check_ok I t u n HI Ht (int_elem_ok u Hu) Hf Hu Hn)
    as (tbt & tbu & H4 & Htt & Htu).
  unfold opt_one in H4. rewrite Htt, Htu, Es in H4 by auto. rewrite <- Hk in Hn.
  destruct (storage_shape I u n) as [s'|]; [|discriminate].
  destruct (storage_shape_facts I t n HI Ht Hn) as (s0 & Es0 & Hd & Hs).
  rewrite Es in Es0. injection Es0 as <-.
  rewrite Hk in *.
  rewrite (omapm_ext _ (fun p => storage_shape I u (fst p))) in H4; cycle 1.
  { intros p Hp. apply Htu. apply (in_map fst) in Hp.
    pose proof (dense_sizes s _ Hd Hp). lia. }
  rewrite Ess in H4.
  destruct (pieces_facts I u s ss HI Hu Hd ltac:(lia) Ess) as [P1 P2].
  unfold opt_call in H4. rewrite (opt_ext _ _ (storage_shape I u)) in H4; cycle 1.
  { rewrite labels_shape. lia. }
  { rewrite labels_shape. eapply Forall_impl; [|exact P2]. simpl. tauto. }
  { intros m Hm. apply Htu. auto. }
  destruct (optimize_tuple (slanes (concat ss)) (length (concat ss)) (storage_shape I u) (labels (concat ss)))
    as [r|] eqn:Er; [|discriminate].
  apply andb_true_iff in H4 as [H5 H6]. apply shape_eqb_spec in H5. apply nats_eqb_spec in H6.
  set (phi := fun i => nth i (tmem y) zero).
  assert (Hz : phi (slanes (concat ss)) = zero).
  { unfold phi. apply nth_overflow. rewrite tmem_length, Hy. auto. }
  assert (Hyl : tmap phi (labels (concat ss)) = y).
  { rewrite <- Hy. apply labels_complete. }
  exists (tmap phi r). rewrite tmap_shape, tmap_elems, H6, H5, <- tmap_elems, Hyl. split; auto.
  pose proof (optimize_natural phi (slanes (concat ss)) (storage_shape I u) (length (concat ss)) (labels (concat ss))) as Hnat.
  rewrite Er, Hz, Hyl in Hnat. cbn [option_map] in Hnat.
  replace (length y) with (length (concat ss)); auto.
  rewrite <- Hy. unfold tshape. apply map_length.
Qed.

(* the per-register results *)
Lemma apply_r_spec {A B} (st : nat -> option shape) (g : A -> B) (F : nat -> list A -> tuple B) :
  (forall n reg s, n <= length reg -> st n = Some s ->
     tshape (F n reg) = s /\
     forall i d e, i < n -> nth i (telems (F n reg)) e = g (nth i reg d)) ->
  forall x ss, Forall chunk_ok x ->
  (forall c s, In c x -> st (csize c) = Some s -> dense s /\ ssize s = csize c) -> omapm (fun p => st (fst p)) (tshape x) = Some ss ->
  tshape (apply_r F x) = concat ss /\
  forall i d e, i < ssize (tshape x) -> nth i (telems (apply_r F x)) e = g (nth i (telems x) d).
Proof.
  intros HF. induction x as [|c x IH]; intros ss Hok Hst H.
  - injection H as <-. split; auto. intros i d e Hi. unfold ssize in Hi. simpl in Hi. lia.
  - cbn [tshape map omapm fst] in H. change (map cshape x) with (tshape x) in H.
    change (fst (cshape c)) with (csize c) in H.
    destruct (st (csize c)) as [s|] eqn:Es; [|discriminate].
    destruct (omapm _ (tshape x)) as [ss1|] eqn:E; [|discriminate]. injection H as <-.
    inversion Hok as [|? ? Hc Hok']; subst.
    destruct (IH ss1 Hok' (fun c s h => Hst c s (or_intror h)) eq_refl) as [I1 I2].
    destruct (HF (csize c) (creg c) s Hc Es) as [F1 F2]. destruct (Hst c s (or_introl eq_refl) Es) as [S1 S2].
    cbn [apply_r concat]. rewrite tshape_app, F1, I1. split; auto.
    intros i d e Hi. rewrite tshape_cons, ssize_cons in Hi. change (fst (cshape c)) with (csize c) in Hi.
    assert (Hl : length (telems (F (csize c) (creg c))) = csize c).
    { rewrite telems_length, F1; auto. apply dense_ok. rewrite F1. auto. }
    rewrite telems_app. destruct (le_lt_dec (csize c) i).
    + rewrite app_nth2 by lia. rewrite Hl, (I2 _ d) by lia. rewrite nth_telems_tail by auto. auto.
    + rewrite app_nth1 by lia. rewrite (F2 i d) by auto. rewrite nth_telems_head by auto. auto.
Qed.
