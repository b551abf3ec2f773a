(* The casts on x86: each call of a register conversion is one for which XConvTop.v
   or SseWidenProofs.v shows that it converts every element. *)
From Coq Require Import List ZArith Bool Arith Lia.
From Verif Require Import Prelude FloatSpec FloatRoundSpec ScalarSpec Scalar NarrowSpec Narrow
  BitMask BitMaskProofs Abi AbiSpec AbiProofs Fixed FixedSpec FixedProofs FixedApply Targets Profile FixedStorage FixedMixed FixedTop Mem MemSpec MemProofs Convert ConvertSpec ConvertProofs ConvertCheck ConvertTop
  XConv XConvSpec XConvProofs XConvTop SseWiden SseWidenSpec SseWidenProofs
  XCast XCastSpec XCastStorage ConvertRel ConvertRelTop.
Import ListNotations.
Local Open Scope nat_scope.

Lemma elem_size t : elem_type t -> Abi.esize (elem_of t) = esize t /\ 1 <= esize t <= 8 /\ elem_ok (elem_of t).
Proof.
  destruct t as [w sg|w]; cbn [elem_type elem_of esize Abi.esize elem_ok].
  - intros H. split; auto. split; [lia|]. tauto.
  - intros [->| ->]; cbn; repeat split; auto; lia.
Qed.

(* ------------------------------------------------------------------ *)
(* reading lanes                                                        *)
Lemma read_length junk w n l : length (read_lanes junk w n l) = n.
Proof. unfold read_lanes. rewrite map_length, seq_length. auto. Qed.
Lemma read_nth junk w n l j p e : j < n -> contains w l j p -> (0 <= p < 256 ^ Z.of_nat w)%Z ->
  nth j (read_lanes junk w n l) e = p.
Proof.
  intros Hj Hc Hp. unfold read_lanes. apply nth_error_nth. rewrite nth_error_map.
  rewrite (nth_error_nth' (seq 0 n) 0) by (rewrite seq_length; auto). rewrite seq_nth by auto. cbn [option_map Nat.add].
  unfold contains in Hc. unfold lane. rewrite Hc, le_val_bytes by auto. auto.
Qed.
(* patterns of lanes count modulo the size of the lane *)
Definition wrap (w : nat) (p : Z) : Z := (p mod 256 ^ Z.of_nat w)%Z.
Lemma wrap_range w p : (0 <= wrap w p < 256 ^ Z.of_nat w)%Z.
Proof. apply Z.mod_pos_bound. apply Z.pow_pos_nonneg; lia. Qed.
Lemma wrap_patterns w l : patterns w (map (wrap w) l).
Proof. apply Forall_forall. intros p Hp. apply in_map_iff in Hp as (q & <- & _). rewrite <- pow256. apply wrap_range. Qed.
Lemma reg_bytes_wrap w l : reg_bytes w l = flat_map (bytes_of w) (map (wrap w) l).
Proof.
  unfold reg_bytes. rewrite flat_map_map. apply flat_map_ext. intros p. rewrite le_split_bytes. symmetry. apply bytes_of_mod.
Qed.
Lemma registers_cut w N (xs : list (list Z)) : Forall (fun x => length x = N) xs ->
  registers w N (length xs) (concat xs) = map (flat_map (bytes_of w)) xs.
Proof.
  unfold registers. induction 1 as [|x r Hx Hr IH]; auto. cbn [length seq map concat]. f_equal.
  - rewrite Nat.mul_0_l, skipn_O. rewrite firstn_app_le by lia. rewrite firstn_all2 by lia. auto.
  - rewrite <- IH. rewrite <- seq_shift, map_map. apply map_ext. intros i. f_equal. f_equal.
    rewrite skipn_app. cbn [Nat.mul]. rewrite skipn_all2 by lia. cbn [app]. f_equal. lia.
Qed.
Lemma call_args w N xs : Forall (fun x => length x = N) xs ->
  map (reg_bytes w) xs = registers w N (length xs) (map (wrap w) (concat xs)).
Proof.
  intros H. rewrite concat_map. replace (length xs) with (length (map (map (wrap w)) xs)) by apply map_length. rewrite registers_cut.
  - rewrite map_map. apply map_ext. intros. apply reg_bytes_wrap.
  - apply Forall_map. apply Forall_impl with (2 := H). intros. rewrite map_length. auto.
Qed.
Lemma concat_len {A} N (xs : list (list A)) : Forall (fun x => length x = N) xs -> length (concat xs) = length xs * N.
Proof. induction 1; cbn [concat length]; auto. rewrite app_length. lia. Qed.

Section Cast.
Variables (ft : xfeat) (I : isa) (t u : ety) (ub : Z -> Z) (junk : Z) (md : rmode) (cpi cpo : bool) (nn : nat).
Hypothesis Hft : flags_ok ft.
Hypothesis Ht : elem_type t.
Hypothesis Hu : elem_type u.
Hypothesis HI : arch_ok I.
Hypothesis Htarget : x86_target ft I.
Hypothesis Htwice : ~ cast_rounds_twice ft t u nn.
Hypothesis Hill : ~ cast_ill_formed ft t u nn.

(* the element q of the result for the element v *)
Definition R : Z -> Z -> Prop := casts_element md t u.
Lemma R_cast v : R v (lop_sem ub md (OCast t u) v).
Proof.
  intros Hv z Hz _. rewrite (cast_sem ub md t u z v Hz). exact (converted_stands md t u v z Ht Hu Hz).
Qed.
Lemma stands_range q z : stands_for u q z -> (0 <= q < 256 ^ Z.of_nat (esize u))%Z.
Proof. intros [H _]. rewrite pow256. auto. Qed.

Definition dom (full l k : nat) : Prop :=
  In k [1; 2; 4; 8; 16] /\ full = k * l /\ register_type ft t l /\ register_type ft u full /\
  ~ does_not_compile ft t u full /\ ~ rounds_twice ft t u full.
Definition domu (n lanes L : nat) : Prop :=
  sse41 ft = false /\ widening t u /\ held_by n L /\ L * esize t <= 16 /\ lanes * esize u = 16.

Lemma wrap_id w v : (0 <= v < 2 ^ (8 * Z.of_nat w))%Z -> wrap w v = v.
Proof. intros H. apply Z.mod_small. rewrite pow256. auto. Qed.

Lemma convert_works full l k xs : dom full l (2 ^ k) -> 1 <= full -> length xs = 2 ^ k ->
  Forall (fun x => length x = l) xs ->
  length (convert_call ft t u ub junk md full xs) = full /\
  forall i d e, i < full -> i < length (concat xs) -> R (nth i (concat xs) d) (nth i (convert_call ft t u ub junk md full xs) e).
Proof.
  intros (Hk & Hf & Hrt & Hru & Hc & Hr) _ Hlen HF. subst full.
  assert (Hl : length (hd [] xs) = l).
  { destruct HF; auto. assert (2 ^ k <> 0) by (apply Nat.pow_nonzero; lia). simpl in Hlen. lia. }
  destruct (compiles ft t u l (2 ^ k) Hft Ht Hu Hrt Hru Hk Hc) as (e0 & E).
  unfold convert_call. rewrite Hl, Hlen, E. split; [apply read_length|]. intros i d e Hi Hic Hv z Hz Hd.
  rewrite (call_args _ l) by auto. rewrite Hlen.
  assert (HX : length (map (wrap (esize t)) (concat xs)) = 2 ^ k * l) by (rewrite map_length, (concat_len l) by auto; lia).
  destruct (elements ft t u l (2 ^ k) e0 Hft Ht Hu Hrt Hru Hk E Hr ub md _ HX (wrap_patterns _ _)) as [_ EL].
  assert (En : nth i (map (wrap (esize t)) (concat xs)) 0%Z = nth i (concat xs) d).
  { apply nth_error_nth. rewrite nth_error_map, (nth_error_nth' _ d) by auto. cbn [option_map]. f_equal. apply wrap_id. auto. }
  specialize (EL i z Hi). rewrite En in EL. destruct (EL Hz Hd) as (q & Q1 & Q2).
  rewrite (read_nth junk (esize u) _ _ i q e) by (auto; eapply stands_range; eauto). auto.
Qed.

Lemma F2_of_nth {A B} (P : A -> B -> Prop) (da : A) (db : B) : forall l1 l2, length l1 = length l2 ->
  (forall i, i < length l1 -> P (nth i l1 da) (nth i l2 db)) -> Forall2 P l1 l2.
Proof.
  induction l1 as [|a l1 IH]; intros [|b l2] Hl H; try discriminate; auto. constructor.
  - apply (H 0). simpl. lia.
  - apply IH; [simpl in Hl; lia|]. intros i Hi. apply (H (S i)). simpl. lia.
Qed.
Lemma nth_concat_eq {A} (M : nat) (d : A) : forall (ls : list (list A)) i j, Forall (fun r => length r = M) ls -> j < M ->
  nth (i * M + j) (concat ls) d = nth j (nth i ls []) d.
Proof.
  induction ls as [|r ls IH]; intros i j HF Hj.
  - cbn [concat]. destruct (i * M + j), i, j; auto.
  - inversion_clear HF. cbn [concat]. destruct i as [|i].
    + rewrite app_nth1 by lia. auto.
    + rewrite app_nth2 by (simpl; lia). cbn [nth]. rewrite <- IH by auto. f_equal. simpl. lia.
Qed.

Lemma widen_works n lanes reg : domu n lanes (length reg) -> n <= length reg -> 1 <= lanes ->
  length (widen_call ft cpi cpo t u ub junk md n lanes reg) = n / lanes /\
  Forall (fun r => length r = lanes) (widen_call ft cpi cpo t u ub junk md n lanes reg) /\
  Forall2 R (firstn (n / lanes * lanes) reg) (concat (widen_call ft cpi cpo t u ub junk md n lanes reg)).
Proof.
  intros (Hs & Hw & Hh & H16 & HM) Hn Hl.
  assert (EM : 16 / esize u = lanes) by (rewrite <- HM; apply Nat.div_mul; destruct (elem_size u Hu) as (_ & ? & _); lia).
  assert (HX : length (map (wrap (esize t)) reg) = length reg) by apply map_length.
  destruct (widens ft cpi cpo t u n 0 (n / lanes) md (map (wrap (esize t)) reg) Hft Hs Ht Hu Hw) as (es & E & El & Hes).
  { rewrite HX. auto. }
  { rewrite HX. auto. }
  { left. rewrite EM. split; auto. pose proof (Nat.div_mod n lanes ltac:(lia)). pose proof (Nat.mod_upper_bound n lanes ltac:(lia)). nia. }
  { apply wrap_patterns. }
  unfold widen_call. rewrite E. rewrite map_length. split; auto. rewrite EM in Hes.
  set (rd := fun e => read_lanes junk (esize u) lanes (ceval ub md [reg_bytes (esize t) reg] e)).
  assert (HF : Forall (fun r => length r = lanes) (map rd es)).
  { apply Forall_map, Forall_forall. intros. apply read_length. }
  split; auto.
  assert (Hnl : n / lanes * lanes <= n) by (rewrite Nat.mul_comm; apply Nat.mul_div_le; lia).
  apply (F2_of_nth _ 0%Z 0%Z).
  { rewrite firstn_length, (concat_len lanes) by auto. rewrite map_length, El. lia. }
  rewrite firstn_length, Nat.min_l by lia. intros m Hm.
  assert (Em : m = m / lanes * lanes + m mod lanes) by (rewrite Nat.mul_comm; apply Nat.div_mod; lia).
  pose proof (Nat.mod_upper_bound m lanes ltac:(lia)) as Hj.
  assert (Hi : m / lanes < n / lanes) by (apply Nat.div_lt_upper_bound; lia).
  rewrite Em at 2. rewrite nth_concat_eq by auto.
  destruct (nth_error es (m / lanes)) as [e|] eqn:Ee; [|apply nth_error_None in Ee; lia].
  rewrite (nth_error_nth (map rd es) (m / lanes) (x := rd e)) by (apply map_nth_error; auto).
  rewrite nth_firstn_lt by auto.
  intros Hv z Hz Hd. destruct (Hes (m / lanes) e ub Ee) as [_ HE].
  assert (Ar : registers (esize t) (length (map (wrap (esize t)) reg)) 1 (map (wrap (esize t)) reg) = [reg_bytes (esize t) reg]).
  { rewrite HX. pose proof (call_args (esize t) (length reg) [reg]) as Hc. cbn [length map concat] in Hc.
    rewrite app_nil_r in Hc. symmetry. apply Hc. auto. }
  rewrite Ar in HE. specialize (HE (m mod lanes) z Hj). rewrite <- Em in HE.
  assert (En : nth m (map (wrap (esize t)) reg) 0%Z = nth m reg 0%Z).
  { apply nth_error_nth. rewrite nth_error_map, (nth_error_nth' _ 0%Z) by lia. cbn [option_map]. f_equal. apply wrap_id. auto. }
  rewrite En in HE. destruct HE as (q & Q1 & Q2); auto; [lia|].
  unfold rd. rewrite (read_nth junk (esize u) _ _ _ q) by (auto; eapply stands_range; eauto). auto.
Qed.

(* ------------------------------------------------------------------ *)
(* the registers of the target                                          *)
Lemma pow_of_ceil n : exists k, bit_ceil n = 2 ^ k.
Proof. eexists. reflexivity. Qed.
Lemma ceil_ceil n : bit_ceil (bit_ceil n) = bit_ceil n.
Proof. destruct (pow_of_ceil n) as (k & ->). apply bit_ceil_pow. Qed.
Lemma pow_size e : elem_type e -> exists k, esize e = 2 ^ k.
Proof.
  intros He. destruct (elem_width e He) as (w & -> & [->|[->|[->| ->]]]); [exists 0|exists 1|exists 2|exists 3]; auto.
Qed.
Lemma fits_register e N : elem_type e -> (exists k, N = 2 ^ k) -> 2 <= N ->
  N * esize e <= vectorized_sizeof I (elem_of e) -> register_type ft e N.
Proof.
  intros He HN H2 H. split; auto. split; auto. destruct Htarget as (Hx & A1 & A2 & A3 & A4 & A5).
  destruct (elem_size e He) as (Es & E8 & _).
  assert (Hp : exists k, N * esize e = 2 ^ k).
  { destruct HN as (a & ->), (pow_size e He) as (b & ->). exists (a + b). symmetry. apply Nat.pow_add_r. }
  destruct Hp as (k & Ek).
  assert (Hk : 2 ^ k <= 64 -> k <= 6).
  { intros Hb. destruct (Nat.le_gt_cases k 6); auto. exfalso. assert (2 ^ 7 <= 2 ^ k) by (apply Nat.pow_le_mono_r; lia). simpl in *. lia. }
  assert (Hcases : 2 ^ k <= 64 -> 2 ^ k <= 16 \/ 2 ^ k = 32 \/ 2 ^ k = 64).
  { intros Hb. specialize (Hk Hb). do 7 (destruct k as [|k]; [cbn; lia|]). lia. }
  destruct Hft as (F1 & F2 & F3 & _).
  destruct HI as ((_ & _ & _ & _ & _ & _ & Hsse & _) & _). specialize (Hsse Hx).
  unfold vectorized_sizeof in H. rewrite Es in H. destruct (Nat.leb_spec (esize e) 8); [|lia].
  rewrite Hsse, A1, A2, A3, A5 in H. rewrite Ek in *.
  destruct (avx512bw ft) eqn:Ebw.
  { assert (Q : avx512f ft = true) by auto. assert (Q2 : avx2 ft = true) by auto. assert (Q3 : avx ft = true) by auto.
    destruct (Hcases H) as [?|[?|?]]; auto 6. right. left. split; auto. destruct (is_fp e); auto. }
  destruct (avx512f ft) eqn:Ef; cbn [andb] in H.
  { assert (Q2 : avx2 ft = true) by auto. assert (Q3 : avx ft = true) by auto.
    destruct (Nat.leb_spec 4 (esize e)).
    - destruct (Hcases H) as [?|[?|?]]; auto 6. right. left. split; auto. destruct (is_fp e); auto.
    - rewrite Q2 in H. destruct (Hcases ltac:(lia)) as [?|[?|?]]; auto; [|lia]. right. left. split; auto. destruct (is_fp e); auto. }
  destruct (avx2 ft) eqn:E2.
  { assert (Q3 : avx ft = true) by auto. destruct (Hcases ltac:(lia)) as [?|[?|?]]; auto; [|lia].
    right. left. split; auto. destruct (is_fp e); auto. }
  destruct (avx ft) eqn:E1; cbn [andb] in H; [|left; exact H].
  destruct (efloating (elem_of e)) eqn:Efl; [|left; exact H].
  destruct (Hcases ltac:(lia)) as [?|[?|?]]; auto; [|lia].
  right. left. split; auto. destruct e as [w sg|w]; [discriminate Efl|cbn [is_fp]; auto].
Qed.

Notation et := (elem_of t).
Notation eu := (elem_of u).
Definition gt (p : nat * nat) : Prop := held I et p.
Definition gu (p : nat * nat) : Prop := held I eu p /\ fst p <= nn.

Lemma gt_reg e n l N : elem_type e -> held I (elem_of e) (n, l) -> (exists k, N = 2 ^ k) -> 2 <= N <= l -> register_type ft e N.
Proof.
  intros He (H1 & H2 & H3) HN Hl. cbn [fst snd] in *. apply fits_register; auto; [lia|].
  destruct (elem_size e He) as (Es & _). rewrite <- Es. pose proof (H3 ltac:(lia)). nia.
Qed.
Lemma excluded mn ml : gu (mn, ml) -> 2 <= ml -> ~ does_not_compile ft t u ml /\ ~ rounds_twice ft t u ml.
Proof.
  intros ((H1 & H2 & _) & H3) Hl. cbn [fst snd] in *. pose proof (bit_ceil_lt mn H1). split.
  - intros (A & B & C & D & E). apply Hill. repeat split; auto. lia.
  - intros (A & B & C & D & E). apply Htwice. repeat split; auto. lia.
Qed.
Lemma dom_intro full l k nt lt mn : In k [1; 2; 4; 8; 16] -> full = k * l -> held I et (nt, lt) -> (exists p, l = 2 ^ p) ->
  2 <= l <= lt -> gu (mn, full) -> dom full l k.
Proof.
  intros Hk Hf Hg Hp Hl Hgu. assert (2 <= full) by (destruct Hk as [<-|[<-|[<-|[<-|[<-|[]]]]]]; lia).
  pose proof Hgu as ((G1 & G2 & _) & _). cbn [fst snd] in *.
  split; auto. split; auto. split; [eapply gt_reg; eauto|]. split.
  - destruct Hgu as (Hgu & _). apply (gt_reg u mn full full); auto. rewrite G2. apply pow_of_ceil.
  - eapply excluded; eauto.
Qed.
Lemma ceil_count k : 1 <= k <= 16 -> In (bit_ceil k) [1; 2; 4; 8; 16].
Proof.
  intros H. unfold bit_ceil. assert (Nat.log2_up k <= 4) by (apply (Nat.log2_up_le_mono k 16); lia).
  destruct (Nat.log2_up k) as [|[|[|[|[|?]]]]]; cbn; auto 10. lia.
Qed.

Lemma d1 n rn rl k : gt (n, n) -> gu (rn, rl) -> k * n = rn -> 1 <= k <= 16 -> 2 <= n \/ k = 1 /\ 2 <= rl -> dom rl n (bit_ceil k).
Proof.
  intros Hg Hgu Hkn Hk Hor. pose proof Hg as (G1 & G2 & _). pose proof Hgu as ((U1 & U2 & _) & _). cbn [fst snd] in *.
  destruct (pow_of_ceil n) as (p & Ep).
  assert (Erl : rl = bit_ceil k * n).
  { rewrite U2, <- Hkn. rewrite G2, Ep, bit_ceil_mul by lia. auto. }
  assert (2 <= n) by (destruct Hor as [|[-> ?]]; auto; change (bit_ceil 1) with 1 in Erl; lia).
  eapply (dom_intro rl n (bit_ceil k) n n rn); eauto. apply ceil_count; auto.
Qed.
Lemma d2 n l mn ml : gt (n, l) -> gu (mn, ml) -> ml < n -> 2 <= ml -> dom ml ml 1.
Proof.
  intros Hg Hgu H H2. pose proof Hg as (G1 & G2 & _). pose proof Hgu as ((U1 & U2 & _) & _). cbn [fst snd] in *.
  pose proof (bit_ceil_ge n G1). apply (dom_intro ml ml 1 n l mn); auto; [simpl; auto|lia|rewrite U2; apply pow_of_ceil|lia].
Qed.
Lemma d3 n l mn ml : gt (n, l) -> gu (mn, ml) -> mn < n -> lanes_of I et mn = mn -> 2 <= ml -> dom ml mn 1.
Proof.
  intros Hg Hgu H E H2. pose proof Hg as (G1 & G2 & _). pose proof Hgu as ((U1 & U2 & _) & _). cbn [fst snd] in *.
  destruct (elem_size t Ht) as (Es & ? & Hok). destruct Htarget as (Hx & _).
  rewrite lanes_of_ceil in E by (auto; lia). assert (Em : ml = mn) by congruence. rewrite Em in *. clear U2 Em.
  pose proof (bit_ceil_ge n G1). apply (dom_intro mn mn 1 n l mn); auto; [simpl; auto|lia|rewrite <- E; apply pow_of_ceil|lia].
Qed.
Lemma i386_no : def_i386 I = false.
Proof. destruct Htarget. apply not_i386; auto. Qed.
Lemma d4 : uses_unpack true (sse41 ft) et eu = true -> forall m rn rl p rr n l, 1 <= m <= Nat.min (max_fixed_size I eu) nn ->
  storage_shape I eu m = Some ((rn, rl) :: p :: rr) -> gt (n, l) -> rn < n -> 2 <= rl -> domu n rl l.
Proof.
  intros Hun m rn rl p rr n l Hm Es Hg Hn Hl. pose proof Hg as (G1 & G2 & G3). cbn [fst snd] in *.
  destruct (elem_size t Ht) as (Et & E8 & Hokt). destruct (elem_size u Hu) as (Eu & U8 & Hoku).
  unfold uses_unpack in Hun. repeat (apply andb_true_iff in Hun; destruct Hun as [Hun ?]).
  assert (S41 : sse41 ft = false) by (destruct (sse41 ft); auto; discriminate).
  assert (Hv : forall e, elem_type e -> vectorized_sizeof I (elem_of e) = 16).
  { intros e He. destruct Hft as (F1 & F2 & F3 & F4 & _). destruct Htarget as (Hx & A1 & A2 & A3 & A4 & A5).
    assert (Q1 : avx ft = false) by (destruct (avx ft); auto; rewrite F4 in S41 by auto; discriminate).
    assert (Q2 : avx2 ft = false) by (destruct (avx2 ft); auto; rewrite F3 in Q1 by auto; discriminate).
    assert (Q3 : avx512f ft = false) by (destruct (avx512f ft); auto; rewrite F2 in Q2 by auto; discriminate).
    assert (Q4 : avx512bw ft = false) by (destruct (avx512bw ft); auto; rewrite F1 in Q3 by auto; discriminate).
    destruct HI as ((_ & _ & _ & _ & _ & _ & Hsse & _) & _). specialize (Hsse Hx).
    unfold vectorized_sizeof. destruct (elem_size e He) as (-> & ? & _). destruct (Nat.leb_spec (esize e) 8); [|lia].
    rewrite Hsse, A1, A2, A3, A5, Q1, Q2, Q3, Q4. auto. }
  assert (Hrn : 1 <= rn).
  { pose proof (storage_held I eu HI) as Hs. pose proof Htarget as (Hx & _).
    specialize (Hs Hx Hoku ltac:(lia) m _ ltac:(lia) Es). inversion_clear Hs as [|? ? H5 _]. apply H5. }
  split; auto. split; [|split; [|split]].
  - match goal with H : (Abi.esize et <? Abi.esize eu) = true |- _ => apply Nat.ltb_lt in H end.
    unfold widening. rewrite <- Et, <- Eu. split; [|split; [auto|]].
    + destruct t as [w sg|w]; [eauto|]. exfalso. cbn [elem_of] in *. destruct (w =? 4); discriminate.
    + intros [E1 E2]. rewrite E1, E2 in *. discriminate.
  - split; [lia|]. pose proof (bit_ceil_lt n G1). pose proof (bit_ceil_ge n G1). split; [lia|]. rewrite G2. apply pow_of_ceil.
  - rewrite <- Et. rewrite <- (Hv t Ht). apply G3. pose proof (bit_ceil_ge n G1). lia.
  - destruct (several I eu m _ HI Hoku i386_no ltac:(lia) Es) as [Hw _]. cbn [widest_first] in Hw.
    apply orb_true_iff in Hw as [Hw|Hw]; apply Nat.eqb_eq in Hw; [lia|]. rewrite (Hv u Hu) in Hw. lia.
Qed.
Lemma d5 n cn cl s full : 1 <= n <= max_fixed_size I et -> storage_shape I et n = Some ((cn, cl) :: s) ->
  forallb (fun p => (fst p =? cn) && (snd p =? cl)) ((cn, cl) :: s) = false -> lanes_of I et n = n -> dom full n 1.
Proof.
  intros Hn Es Hf E. destruct (elem_size t Ht) as (Et & E8 & Hok). destruct Htarget as (Hx & _).
  rewrite lanes_of_ceil in E by (auto; lia). destruct (several I et n _ HI Hok i386_no Hn Es) as [_ Hq].
  specialize (Hq E). unfold equal_chunks in Hq. rewrite Hf in Hq. discriminate.
Qed.
Lemma ssize_ge p : forall s, In p s -> fst p <= ssize s.
Proof.
  induction s as [|q s IH]; [intros []|]. rewrite ssize_cons. intros [->|H]; [lia|].
  specialize (IH H). lia.
Qed.

Lemma x86_cast cp a b x : abi_size eu b = nn -> simd_type I et a -> simd_type I eu b -> abi_size et a = abi_size eu b -> is_simd I et a x ->
  exists y, x86_simd_cast ft cpi cpo t u ub junk md cp I a b x = Some y /\ is_simd I eu b y /\ Forall2 R (telems x) (telems y).
Proof.
  destruct (elem_size t Ht) as (Et & E8 & Hokt). destruct (elem_size u Hu) as (Eu & U8 & Hoku).
  pose proof Htarget as (Hx & _).
  apply (rel_cast (lop_sem ub md (OCast t u)) 0%Z 0%Z I et eu true (sse41 ft) cp _ _ R R_cast dom domu
    convert_works widen_works ltac:(lia) gt gu).
  - intros _ n l k (_ & G2 & _) Hk. cbn [fst snd] in *. rewrite lanes_of_ceil by (auto; lia).
    rewrite G2, <- (ceil_ceil n). apply XCastStorage.bit_ceil_mono. lia.
  - intros _ k Hk H16. rewrite lanes_of_ceil by (auto; lia). destruct (elem_pow et Hokt ltac:(lia)) as (e & Ee & _). rewrite Ee in *.
    rewrite <- bit_ceil_mul by auto. change 16 with (bit_ceil 16). apply XCastStorage.bit_ceil_mono. auto.
  - intros _ _. exact d1.
  - intros _ _. exact d2.
  - intros _ _. exact d3.
  - exact d4.
  - intros _ _. exact d5.
  - intros m s Hm Es. apply (storage_held I et HI Hx Hokt ltac:(lia) m); auto.
  - intros m s Hm Hmn Es. pose proof (storage_held I eu HI Hx Hoku ltac:(lia) m s Hm Es) as Hh.
    destruct (storage_shape_facts I eu m HI Hoku Hm) as (s' & E' & _ & Hsz). rewrite Es in E'. apply some_inj in E'. subst s'.
    apply Forall_forall. intros p Hp. rewrite Forall_forall in Hh. split; [apply Hh; auto|]. pose proof (ssize_ge p s Hp). lia.
  - intros a0 Ha Hv. apply valid_held; auto. lia.
  - intros b0 Hb Hv Hnn. split; [apply valid_held; auto; lia|]. auto.
Qed.
End Cast.

(* telems and operator[] *)
Lemma x86_cast_elements ft I t u md ub junk cpi cpo cp a b x :
  flags_ok ft -> elem_type t -> elem_type u -> x86_target ft I ->
  ~ cast_rounds_twice ft t u (abi_size (elem_of t) a) -> ~ cast_ill_formed ft t u (abi_size (elem_of t) a) ->
  simd_type I (elem_of t) a -> simd_type I (elem_of u) b -> abi_size (elem_of t) a = abi_size (elem_of u) b ->
  is_simd I (elem_of t) a x ->
  exists y, x86_simd_cast ft cpi cpo t u ub junk md cp I a b x = Some y /\ is_simd I (elem_of u) b y /\
  forall i, i < abi_size (elem_of u) b -> exists p q, t_get x i = Some p /\ t_get y i = Some q /\ casts_element md t u p q.
Proof.
  intros Hf Ht Hu Hg H1 H2 Ha Hb Hsz Hx. rewrite Hsz in H1, H2. pose proof Ha as (HI & _).
  destruct (x86_cast ft I t u ub junk md cpi cpo _ Hf Ht Hu HI Hg H1 H2 cp a b x eq_refl Ha Hb Hsz Hx) as (y & E & Hy & HF).
  exists y. split; auto. split; auto. intros i Hi.
  destruct (simd_facts I _ a x Ha Hx) as (D1 & S1 & _). destruct (simd_facts I _ b y Hb Hy) as (D2 & S2 & _).
  assert (L1 : length (telems x) = abi_size (elem_of t) a) by (rewrite telems_length; auto; apply dense_ok; auto).
  pose proof (F2_len _ _ _ HF).
  exists (nth i (telems x) 0%Z), (nth i (telems y) 0%Z).
  rewrite !get_elems by (auto; lia). rewrite !(nth_error_nth' _ 0%Z) by lia. split; auto. split; auto.
  apply (F2_get (casts_element md t u)); [exact HF|lia].
Qed.
