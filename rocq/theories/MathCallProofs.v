(* Proofs about the functions left to std. *)
From Coq Require Import List Arith Bool Lia.
From Verif Require Import Prelude Abi AbiSpec Fixed FixedSpec FixedProofs FixedApply FixedStorage FixedMixed
  FixedTop MathCall MathCallSpec.
Import ListNotations.

Section Proofs.
Context {V : Type} (zero : V) (std : fn -> list V -> V) (quo : list V -> V).
Context (own : fn -> nat -> list V -> list (list V) -> list V) (ownr : fn -> nat -> list V -> tuple V).

Lemma map_nth_indep (i : nat) (d : V) (more : list (list V)) (x : list V) : i < length x ->
  Forall (fun r => length r = length x) more ->
  map (fun r => nth i r d) more = map (fun r => nth i r zero) more.
Proof.
  intros Hi H. apply map_ext_in. intros r Hr. rewrite Forall_forall in H.
  apply nth_indep. rewrite H; auto.
Qed.

Lemma fallback_lanewise g : lanewise (fun a bs => std g (a :: bs)) (fallback zero std g).
Proof.
  intros n reg regs Hn Hr. unfold fallback. split; [rewrite map_length, seq_length; auto|].
  intros i d Hi. rewrite nth_map_seq by lia. rewrite Nat.add_0_l.
  destruct (Nat.ltb_spec i n); [|lia].
  rewrite (map_nth_indep i d regs reg) by (auto; lia). f_equal. f_equal. apply nth_indep. lia.
Qed.

Lemma scalar_lanewise g (F : nat -> list V -> list (list V) -> list V) :
  lanewise (fun a bs => std g (a :: bs)) F ->
  lanewise (fun a bs => std g (a :: bs)) (fun m x more =>
    if length x =? 1 then [std g (nth 0 x zero :: map (fun r => nth 0 r zero) more)] else F m x more).
Proof.
  intros HF n reg regs Hn Hr. destruct (Nat.eqb_spec (length reg) 1) as [E|E]; [|apply HF; auto].
  split; [simpl; auto|]. intros i d Hi. assert (i = 0) by lia. subst i. simpl nth at 1.
  rewrite (map_nth_indep 0 d regs reg) by (auto; lia). f_equal. f_equal. apply nth_indep. lia.
Qed.

Lemma plain_register f : In f plain_functions ->
  exists F, register_call zero std own f = Some F /\ lanewise (fun a bs => std f (a :: bs)) F.
Proof.
  intros H. unfold plain_functions in H.
  repeat (destruct H as [<-|H]; [eexists; split; [reflexivity|apply scalar_lanewise, fallback_lanewise]|]).
  destruct H.
Qed.

Lemma coded_register f : In f coded_functions ->
  lanewise (fun a bs => std f (a :: bs)) (own f) ->
  exists F, register_call zero std own f = Some F /\ lanewise (fun a bs => std f (a :: bs)) F.
Proof.
  intros H Ho. unfold coded_functions in H.
  repeat (destruct H as [<-|H]; [eexists; split; [reflexivity|first [apply scalar_lanewise; exact Ho|exact Ho]]|]).
  destruct H.
Qed.

Lemma left_register f : In f plain_functions ->
  exists F, register_call_left zero std own f = Some F /\
    forall m u y, m <= length y -> length (F m u y) = length y /\
      forall i d, i < m -> nth i (F m u y) d = std f [u; nth i y d].
Proof.
  intros H. destruct (plain_register f H) as (F & E & HF). unfold register_call_left. rewrite E.
  eexists. split; [reflexivity|]. cbn beta. intros m u y Hm.
  destruct (HF m (repeat u (length y)) [y]) as [H1 H2].
  - rewrite repeat_length. auto.
  - constructor; auto. rewrite repeat_length. auto.
  - rewrite repeat_length in H1. split; auto. intros i d Hi. rewrite H2 by auto.
    rewrite (nth_indep _ d u) by (rewrite repeat_length; lia). rewrite nth_repeat. reflexivity.
Qed.

Lemma fixed_apply I t n f F : fixed_size_type I t n ->
  lanewise (fun a bs => std f (a :: bs)) F ->
  forall (x : tuple V) more, is_fixed I t n x -> Forall (is_fixed I t n) more ->
  is_fixed I t n (apply_per_chunk F x more) /\
  forall i a bs, i < n -> t_get x i = Some a -> elements_at i more bs ->
    t_get (apply_per_chunk F x more) i = Some (std f (a :: bs)).
Proof. intros. apply (c06_same I t n (fun a bs => std f (a :: bs)) F); auto. Qed.

Lemma plain_fixed I t n f : fixed_size_type I t n -> In f plain_functions ->
  exists G, fixed_call zero std own f = Some G /\
  forall (x : tuple V) more, is_fixed I t n x -> Forall (is_fixed I t n) more ->
  is_fixed I t n (G x more) /\
  forall i a bs, i < n -> t_get x i = Some a -> elements_at i more bs ->
    t_get (G x more) i = Some (std f (a :: bs)).
Proof.
  intros Hf H. destruct (plain_register f H) as (F & E & HF).
  exists (fun x more => apply_per_chunk F x more). split; [|intros; apply fixed_apply; auto].
  unfold fixed_call. unfold plain_functions in H.
  repeat (destruct H as [<-|H]; [cbn [public fixed_impl]; rewrite E; reflexivity|]). destruct H.
Qed.

Lemma coded_fixed I t n f : fixed_size_type I t n -> In f coded_functions ->
  lanewise (fun a bs => std f (a :: bs)) (own f) ->
  exists G, fixed_call zero std own f = Some G /\
  forall (x : tuple V) more, is_fixed I t n x -> Forall (is_fixed I t n) more ->
  is_fixed I t n (G x more) /\
  forall i a bs, i < n -> t_get x i = Some a -> elements_at i more bs ->
    t_get (G x more) i = Some (std f (a :: bs)).
Proof.
  intros Hf H Ho. destruct (coded_register f H Ho) as (F & E & HF).
  exists (fun x more => apply_per_chunk F x more). split; [|intros; apply fixed_apply; auto].
  unfold fixed_call. unfold coded_functions in H.
  repeat (destruct H as [<-|H]; [cbn [public fixed_impl]; rewrite E; reflexivity|]). destruct H.
Qed.

(* an operand of another type *)
Lemma tup_at_elems (y : tuple V) i d : dense (tshape y) -> i < length (telems y) ->
  tup_at zero y i = nth i (telems y) d.
Proof.
  intros Hd Hi. pose proof (dense_ok y Hd) as Ho. pose proof Hi as Hi'.
  rewrite (telems_length y Ho) in Hi'.
  unfold tup_at. rewrite get_elems by auto. rewrite (nth_error_nth' _ d) by auto. auto.
Qed.

Lemma int_register f : In f int_operand_functions ->
  exists F, register_call_int zero std f = Some F /\
    forall n reg arg, n <= length reg -> dense (tshape arg) -> length (telems arg) = n ->
      length (F n reg arg) = length reg /\
      forall i d e, i < n -> nth i (F n reg arg) d = std f [nth i reg d; nth i (telems arg) e].
Proof.
  intros H. unfold int_operand_functions in H.
  assert (K : forall g n reg (arg : tuple V), n <= length reg -> dense (tshape arg) -> length (telems arg) = n ->
     let r := if length reg =? 1 then [std g [nth 0 reg zero; tup_at zero arg 0]]
              else fallback_int zero std g n reg arg in
      length r = length reg /\
      forall i d e, i < n -> nth i r d = std g [nth i reg d; nth i (telems arg) e]).
  { intros g n reg arg Hn Hd Hl. cbv zeta. destruct (Nat.eqb_spec (length reg) 1) as [E|E].
    - split; [auto|]. intros i d e Hi. assert (i = 0) by lia. subst i. simpl nth at 1.
      rewrite (tup_at_elems arg 0 e) by (auto; lia).
      rewrite (nth_indep reg zero d) by lia. reflexivity.
    - unfold fallback_int. split; [rewrite map_length, seq_length; auto|]. intros i d e Hi.
      rewrite nth_map_seq by lia. rewrite Nat.add_0_l. destruct (Nat.ltb_spec i n); [|lia].
      rewrite (tup_at_elems arg i e) by (auto; lia).
      rewrite (nth_indep reg zero d) by lia. reflexivity. }
  repeat (destruct H as [<-|H]; [eexists; split; [reflexivity|apply K]|]). destruct H.
Qed.

Lemma int_fixed I t u n (pad : V) f : fixed_size_type I t n -> fp_elem t = true -> int_elem u = true ->
  narrow_exception I t u && (n mod 4 =? 0) = false -> In f int_operand_functions ->
  exists G, fixed_call_int zero std pad (storage_shape I u) f = Some G /\
  forall (x y : tuple V), is_fixed I t n x -> is_fixed I u n y ->
  exists r, G x y = Some (r, y) /\ is_fixed I t n r /\
    forall i a b, i < n -> t_get x i = Some a -> t_get y i = Some b ->
      t_get r i = Some (std f [a; b]).
Proof.
  intros Hf Ht Hu Hn H. destruct (int_register f H) as (F & E & HF).
  exists (fun x y => apply_mixed pad false (storage_shape I u) (fun m r _ arg => (F m r arg, arg)) x [] (view_of y)).
  split.
  { unfold fixed_call_int. unfold int_operand_functions in H.
    repeat (destruct H as [<-|H]; [cbn [fixed_impl]; rewrite E; reflexivity|]). destruct H. }
  intros x y Hx Hy.
  assert (HL : lanewise_mixed (fun a _ b => std f [a; b]) (fun _ _ b => b)
                 (fun m r (_ : list (list V)) arg => (F m r arg, arg))).
  { intros m reg regs arg Hm _ Hd Hl. destruct (HF m reg arg Hm Hd Hl) as [H1 H2]. cbn [fst snd].
    split; auto. }
  destruct (c06_mixed I t u n pad false _ _ _ x [] y Hf Ht Hu Hn HL Hx (Forall_nil _) Hy)
    as (r & y' & E1 & Hr & Hy' & Hel).
  assert (y' = y).
  { clear - E1 Hf.
    assert (G : forall (x : tuple V) more v r y',
      apply_mixed pad false (storage_shape I u) (fun m r _ arg => (F m r arg, arg)) x more v = Some (r, y') ->
      y' = view_all v).
    { clear. induction x as [|c x IH]; intros more v r y' H; [discriminate|]. cbn [apply_mixed] in H.
      destruct (extract_argument _ _ _ _) as [arg|]; [|discriminate].
      destruct x as [|c' x]; [injection H as _ <-; auto|].
      destruct (skip_argument (csize c) v) as [v2|] eqn:E; [|discriminate].
      destruct (apply_mixed _ _ _ _ (c' :: x) _ v2) as [[r2 y2]|] eqn:E2; [|discriminate].
      simpl in H. injection H as _ <-. apply IH in E2. subst y2.
      unfold skip_argument in E. unfold view_all. destruct (vtup v) as [|c0 r0] eqn:Ev; [discriminate|].
      destruct ((csize c =? csize c0) && (voff v =? 0)).
      { injection E as <-. simpl. rewrite <- app_assoc. auto. }
      destruct ((csize c0 <? csize c) && (csize c mod csize c0 =? 0) && (voff v =? 0)).
      { destruct (pop_front _ _ _) as [[d t']|] eqn:Ep; [|discriminate]. injection E as <-. simpl.
        clear - Ep.
        assert (P : forall (t : tuple V) d0 np d t', pop_front d0 t np = Some (d, t') -> d ++ t' = d0 ++ t).
        { clear. induction t as [|c t IH]; intros d0 np d t' H; simpl in H.
          - destruct (np =? 0); [injection H as <- <-; auto|discriminate].
          - destruct (np =? 0); [injection H as <- <-; auto|]. destruct (csize c <=? np); [|discriminate].
            apply IH in H. rewrite H, <- app_assoc. auto. }
        apply P in Ep. auto. }
      destruct (csize c + voff v <? csize c0); [injection E as <-; simpl; auto|].
      destruct (csize c + voff v =? csize c0); [|discriminate]. injection E as <-. simpl. rewrite <- app_assoc. auto. }
    apply G in E1. auto. }
  subst y'. exists r. split; [exact E1|]. split; auto. intros i a b Hi Ha Hb.
  destruct (Hel i a [] b Hi Ha) as [H1 _]; auto. reflexivity.
Qed.

(* a result of another type *)
Lemma storage_one I u : int_elem u = true -> storage_shape I u 1 = Some [(1, 1)].
Proof.
  intros H. destruct u as [b| | |]; try discriminate. unfold storage_shape, fixed_size_storage.
  cbn [storage_builder all_native_abis best_abi Nat.eqb]. reflexivity.
Qed.

Lemma fixedret_elems g s m (x : list V) : Forall (fun p => fst p <= snd p) s -> ssize s = m ->
  tshape (fallback_fixedret zero std g s x) = s /\
  telems (fallback_fixedret zero std g s x) = map (fun i => std g [nth i x zero]) (seq 0 m).
Proof.
  intros Hs Hm. unfold fallback_fixedret. split.
  - apply t_generate_spec. intros. unfold reg_generator. rewrite map_length, seq_length. auto.
  - subst m. generalize 0 as off. clear - Hs. induction s as [|[n l] s IH]; intros off; auto.
    inversion Hs; subst. simpl in H1. rewrite ssize_cons. simpl fst. simpl t_generate. simpl telems.
    rewrite IH by auto. rewrite seq_app, map_app. f_equal.
    unfold celems, reg_generator. simpl. apply nth_eq_ext with zero.
    + rewrite firstn_length, !map_length, !seq_length. lia.
    + rewrite firstn_length, map_length, seq_length. intros i Hi.
      rewrite nth_firstn_lt by lia. rewrite nth_map_seq by lia.
      rewrite map_seq_shift, nth_map_seq by lia. rewrite !Nat.add_0_l.
      destruct (Nat.ltb_spec i n); [auto|lia].
Qed.

Lemma result_register I u f : arch_ok I -> int_elem u = true -> In f int_result_functions ->
  exists F, register_result zero std ownr (storage_shape I u) f = Some F /\
    forall m reg, m <= length reg -> 1 <= m <= 32 ->
      is_fixed I u m (F m reg) /\
      forall i a, i < m -> nth_error reg i = Some a -> t_get (F m reg) i = Some (std f [a]).
Proof.
  intros HI Hu H.
  assert (K : forall g m (reg : list V), m <= length reg -> 1 <= m <= 32 ->
    let r := if length reg =? 1 then [Chunk 1 [std g [nth 0 reg zero]]]
             else match storage_shape I u m with Some s => fallback_fixedret zero std g s reg | None => [] end in
    is_fixed I u m r /\
    forall i a, i < m -> nth_error reg i = Some a -> t_get r i = Some (std g [a])).
  { intros g m reg Hm Hr. cbv zeta. destruct (Nat.eqb_spec (length reg) 1) as [E|E].
    - assert (m = 1) by lia. subst m. split; [apply storage_one; auto|]. intros i a Hi Ha.
      assert (i = 0) by lia. subst i. simpl. unfold chunk_read. simpl. do 2 f_equal.
      f_equal. apply nth_error_nth. auto.
    - destruct (storage_shape_facts I u m HI (int_elem_ok u Hu)) as (s & Es & Hd & Hs).
      { rewrite max_fixed_int; auto. }
      rewrite Es. destruct (fixedret_elems g s m reg (dense_le s Hd) Hs) as [H1 H2].
      split; [unfold is_fixed; rewrite H1; auto|]. intros i a Hi Ha.
      rewrite get_elems by (rewrite H1; auto; lia). rewrite H2.
      rewrite (map_nth_error _ i _ (d := i)).
      + do 2 f_equal. f_equal. apply nth_error_nth. auto.
      + rewrite (nth_error_nth' _ 0) by (rewrite seq_length; auto). rewrite seq_nth; auto. }
  unfold int_result_functions in H.
  repeat (destruct H as [<-|H]; [eexists; split; [reflexivity|apply K]|]). destruct H.
Qed.

Lemma result_fixed I t u n f : fixed_size_type I t n -> fp_elem t = true -> int_elem u = true ->
  In f int_result_functions ->
  exists G, fixed_result zero std ownr (storage_shape I u) f = Some G /\
  forall (x : tuple V), is_fixed I t n x ->
  exists r, G x = Some r /\ is_fixed I u n r /\
    forall i a, i < n -> t_get x i = Some a -> t_get r i = Some (std f [a]).
Proof.
  intros Hf Ht Hu H. pose proof Hf as (HI & Hte & Hn). rewrite max_fixed_fp in Hn by auto.
  destruct (result_register I u f HI Hu H) as (F & E & HF).
  exists (fun x => let r := apply_r F x in optimize_tuple zero (length r) (storage_shape I u) r).
  split.
  { unfold fixed_result. unfold int_result_functions in H.
    repeat (destruct H as [<-|H]; [cbn [fixed_impl]; rewrite E; reflexivity|]). destruct H. }
  intros x Hx. cbv zeta. apply (c06_result I t u n zero (fun a => std f [a]) F x); auto.
  intros m reg Hm Hmn. apply HF; lia.
Qed.

(* remquo *)
Lemma z_sets (g : nat -> V) m : forall (z : tuple V), dense (tshape z) -> m <= length (telems z) ->
  let z' := fold_left (fun z i => z_set z i (g i)) (seq 0 m) z in
  tshape z' = tshape z /\
  forall i d, nth i (telems z') d = if i <? m then g i else nth i (telems z) d.
Proof.
  induction m as [|m IH]; intros z Hd Hm; cbv zeta; [split; auto|].
  rewrite seq_S, fold_left_app. cbn [fold_left]. destruct (IH z Hd) as [I1 I2]; [lia|].
  set (z1 := fold_left _ (seq 0 m) z) in *.
  pose proof (dense_ok z Hd) as Ho. rewrite (telems_length z Ho) in Hm.
  destruct (set_elems z1 (0 + m) (g (0 + m))) as (z2 & E & S1 & S2); [rewrite I1; auto|rewrite I1; lia|].
  unfold z_set. rewrite E. split; [congruence|]. intros i d. rewrite S2. rewrite Nat.add_0_l in *.
  assert (Hl : m < length (telems z1)).
  { rewrite telems_length; [rewrite I1; lia|]. apply dense_ok. rewrite I1. auto. }
  destruct (Nat.eq_dec i m) as [->|Hne].
  - rewrite upd_nth_same by auto. destruct (Nat.ltb_spec m (S m)); [auto|lia].
  - rewrite upd_nth_other by auto. rewrite I2.
    destruct (Nat.ltb_spec i m), (Nat.ltb_spec i (S m)); auto; lia.
Qed.

Lemma remquo_fixed I t n u (pad : V) : fixed_size_type I t n -> fp_elem t = true -> int_elem u = true ->
  narrow_exception I t u && (n mod 4 =? 0) = false ->
  exists G, fixed_remquo zero std quo pad (storage_shape I u) F_remquo = Some G /\
  forall (x y z : tuple V), is_fixed I t n x -> is_fixed I t n y -> is_fixed I u n z ->
  exists r z', G x y z = Some (r, z') /\ is_fixed I t n r /\ is_fixed I u n z' /\
    forall i a b, i < n -> t_get x i = Some a -> t_get y i = Some b ->
      t_get r i = Some (std F_remquo [a; b]) /\ t_get z' i = Some (quo [a; b]).
Proof.
  intros Hf Ht Hu Hn. eexists. split; [reflexivity|]. cbn beta. intros x y z Hx Hy Hz.
  set (F := fun m x more z => _).
  (* apply_mixed only ever passes the register of y *)
  set (F' := fun (m : nat) (x : list V) (more : list (list V)) (z : tuple V) =>
      let y := nth 0 more x in
      if length x =? 1
      then ([std F_remquo [nth 0 x zero; nth 0 y zero]], z_set z 0 (quo [nth 0 x zero; nth 0 y zero]))
      else fallback_remquo zero std quo F_remquo m x y z).
  assert (EF : forall (x y : tuple V) v, apply_mixed pad true (storage_shape I u) F x [y] v
                             = apply_mixed pad true (storage_shape I u) F' x [y] v).
  { clear. induction x as [|c x IH]; intros y v; auto. cbn [apply_mixed].
    destruct (extract_argument _ _ _ _) as [arg|]; auto. cbn [heads map].
    change (F (csize c) (creg c) [match y with [] => [] | c0 :: _ => creg c0 end] arg)
      with (F' (csize c) (creg c) [match y with [] => [] | c0 :: _ => creg c0 end] arg).
    destruct (F' _ _ _ _) as [reg arg']. destruct (view_assign v arg') as [v1|]; auto.
    destruct x as [|c' x]; auto. destruct (skip_argument _ _) as [v2|]; auto.
    f_equal. apply IH. }
  rewrite EF.
  assert (HL : lanewise_mixed (fun a bs _ => std F_remquo [a; nth 0 bs a])
                 (fun a bs _ => quo [a; nth 0 bs a]) F').
  { intros m reg regs arg Hm Hr Hd Hl. unfold F'. cbv zeta.
    set (y0 := nth 0 regs reg).
    assert (Hy0 : length y0 = length reg).
    { unfold y0. destruct regs; simpl; auto. inversion Hr; auto. }
    assert (Hny : forall i d e, i < length reg ->
      nth i y0 e = nth 0 (map (fun r => nth i r d) regs) (nth i reg d)).
    { intros i d e Hi. rewrite (nth_indep y0 e d) by lia. unfold y0. destruct regs; auto. }
    assert (Z : forall k, k = m ->
      tshape (fold_left (fun z i => z_set z i (quo [nth i reg zero; nth i y0 zero])) (seq 0 k) arg) = tshape arg /\
      forall i d, nth i (telems (fold_left (fun z i => z_set z i (quo [nth i reg zero; nth i y0 zero])) (seq 0 k) arg)) d
        = if i <? k then quo [nth i reg zero; nth i y0 zero] else nth i (telems arg) d).
    { intros k ->. apply (z_sets (fun i => quo [nth i reg zero; nth i y0 zero])); auto. lia. }
    destruct (Nat.eqb_spec (length reg) 1) as [E|E]; cbn [fst snd].
    - split; [auto|].
      destruct (Nat.eq_dec m 0) as [->|Hm0].
      + split; [|intros; lia].
        assert (tshape arg = []).
        { destruct arg as [|c arg]; auto. exfalso. pose proof (dense_ok _ Hd) as Ho.
          rewrite telems_length in Hl by auto. unfold tshape in *. simpl in Hd. simpl in Hl.
          unfold cshape in *. rewrite ssize_cons in Hl. simpl in Hl. lia. }
        destruct arg; [reflexivity|discriminate].
      + assert (Hm1 : 1 = m) by lia. destruct (Z 1 Hm1) as [Z1 Z2]. cbn [seq fold_left] in Z1, Z2.
        split; [exact Z1|]. intros i d e Hi. assert (i = 0) by lia. subst i. split.
        * simpl nth at 1. rewrite <- (Hny 0 d zero) by lia. rewrite (nth_indep reg d zero) by lia. auto.
        * rewrite Z2. simpl "<?". cbv iota. rewrite <- (Hny 0 d zero) by lia.
          rewrite (nth_indep reg d zero) by lia. auto.
    - unfold fallback_remquo. cbn [fst snd].
      destruct (fallback_lanewise F_remquo m reg [y0] Hm) as [L1 L2]; [constructor; auto|].
      destruct (Z m eq_refl) as [Z1 Z2]. split; auto. split; auto.
      intros i d e Hi. split.
      + rewrite L2 by auto. cbn [map]. rewrite <- (Hny i d d) by lia. auto.
      + rewrite Z2. destruct (Nat.ltb_spec i m); [|lia]. rewrite <- (Hny i d zero) by lia.
        rewrite (nth_indep reg d zero) by lia. auto. }
  destruct (c06_mixed I t u n pad true _ _ _ x [y] z Hf Ht Hu Hn HL Hx (Forall_cons _ Hy (Forall_nil _)) Hz)
    as (r & z' & E1 & Hr & Hz' & Hel).
  exists r, z'. split; [exact E1|]. split; auto. split; auto. intros i a b Hi Ha Hb.
  assert (Hfu : fixed_size_type I u n).
  { destruct Hf as (HI & Hte & Hn'). rewrite max_fixed_fp in Hn' by auto. split; [auto|].
    split; [apply int_elem_ok; auto|rewrite max_fixed_int; auto]. }
  destruct (fixed_get I u n z i Hfu Hz Hi) as (c & Ec & _).
  destruct (Hel i a [b] c Hi Ha) as [H1 H2]; auto.
  unfold elements_at. simpl. rewrite Hb. auto.
Qed.

(* functions of unsigned operands *)
Lemma unsigned_register f m l (ns : list (tuple V)) x : In f unsigned_functions -> f <> F_sph_legendre ->
  m <= l ->
  exists r, special_register zero std f m l ns x = Some r /\ length r = l /\
    forall i vs a, i < m -> elements_at i ns vs -> nth_error x i = Some a ->
      nth_error r i = Some (std f (vs ++ [a])).
Proof.
  intros H Hne Hm.
  assert (K : forall g, length (reg_generator zero m l (fun i =>
        std g (map (fun n => tup_at zero n i) ns ++ [nth i x zero]))) = l /\
    forall i vs a, i < m -> elements_at i ns vs -> nth_error x i = Some a ->
      nth_error (reg_generator zero m l (fun i =>
        std g (map (fun n => tup_at zero n i) ns ++ [nth i x zero]))) i = Some (std g (vs ++ [a]))).
  { intros g. unfold reg_generator. split; [rewrite map_length, seq_length; auto|].
    intros i vs a Hi Hv Ha. rewrite (map_nth_error _ i _ (d := i)).
    - destruct (Nat.ltb_spec i m); [|lia]. do 2 f_equal. f_equal.
      + unfold elements_at in Hv. clear - Hv. revert vs Hv. induction ns as [|y ns IH]; intros [|v vs] Hv; simpl in Hv; try discriminate; auto.
        injection Hv as H1 H2. simpl. unfold tup_at at 1. rewrite H1. f_equal. auto.
      + f_equal. apply nth_error_nth. auto.
    - rewrite (nth_error_nth' _ 0) by (rewrite seq_length; lia). rewrite seq_nth by lia. auto. }
  unfold unsigned_functions in H.
  repeat (destruct H as [<-|H]; [first [exfalso; apply Hne; reflexivity|eexists; split; [reflexivity|apply K]]|]).
  destruct H.
Qed.

Lemma unsigned_fixed I t n s f (ns : list (tuple V)) (x : tuple V) : fixed_size_type I t n ->
  storage_shape I t n = Some s -> In f unsigned_functions -> f <> F_sph_legendre ->
  exists r, special_fixed zero std f n s ns x = Some r /\ is_fixed I t n r /\
    forall i vs a, i < n -> elements_at i ns vs -> t_get x i = Some a ->
      t_get r i = Some (std f (vs ++ [a])).
Proof.
  intros Hf Hs H Hne.
  assert (K : forall g, is_fixed I t n (fs_generator zero n s (fun i =>
        std g (map (fun y => tup_at zero y i) ns ++ [tup_at zero x i]))) /\
    forall i vs a, i < n -> elements_at i ns vs -> t_get x i = Some a ->
      t_get (fs_generator zero n s (fun i =>
        std g (map (fun y => tup_at zero y i) ns ++ [tup_at zero x i]))) i = Some (std g (vs ++ [a]))).
  { intros g. destruct (c05_generator I t n zero (fun i =>
        std g (map (fun y => tup_at zero y i) ns ++ [tup_at zero x i])) s Hf Hs) as [G1 G2].
    split; auto. intros i vs a Hi Hv Ha. destruct (G2 i Hi) as [-> _]. do 2 f_equal.
    f_equal.
    - unfold elements_at in Hv. clear - Hv. revert vs Hv. induction ns as [|y ns IH]; intros [|v vs] Hv; simpl in Hv; try discriminate; auto.
      injection Hv as H1 H2. simpl. unfold tup_at at 1. rewrite H1. f_equal. auto.
    - unfold tup_at. rewrite Ha. auto. }
  unfold unsigned_functions in H.
  repeat (destruct H as [<-|H]; [first [exfalso; apply Hne; reflexivity|eexists; split; [reflexivity|apply K]]|]).
  destruct H.
Qed.

Lemma scalar_all f args :
  In f (plain_functions ++ [F_abs; F_ceil; F_floor; F_nearbyint; F_rint; F_round; F_trunc] ++
        int_operand_functions ++ int_result_functions ++ [F_fpclassify; F_remquo] ++ predicates ++
        unsigned_functions) -> f <> F_sph_legendre ->
  scalar_call std f args = Some (std f args).
Proof.
  intros H Hne. simpl in H.
  repeat (destruct H as [<-|H]; [first [exfalso; apply Hne; reflexivity|reflexivity]|]). destruct H.
Qed.

Lemma special_none f args : In f special_functions ->
  scalar_call std f args = None /\ register_call zero std own f = None /\ fixed_call zero std own f = None.
Proof.
  intros H. simpl in H. repeat (destruct H as [<-|H]; [repeat split; reflexivity|]). destruct H.
Qed.
End Proofs.
