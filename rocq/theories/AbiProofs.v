From Coq Require Import List Arith Bool Lia.
From Verif Require Import Prelude BitMask Abi AbiSpec.
Import ListNotations.

Local Arguments Nat.leb : simpl never.
Local Arguments Nat.ltb : simpl never.
Local Arguments Nat.eqb : simpl never.
Local Arguments Nat.div : simpl never.
Local Arguments Nat.modulo : simpl never.
Lemma elem_ok_pos t : elem_ok t -> 1 <= esize t.
Proof. destruct t; simpl; lia. Qed.

Ltac btrue :=
  repeat match goal with
  | H : (_ && _)%bool = true |- _ => apply andb_true_iff in H; destruct H
  | H : (_ <? _) = true |- _ => apply Nat.ltb_lt in H
  | H : (_ <=? _) = true |- _ => apply Nat.leb_le in H
  | H : (_ =? _) = true |- _ => apply Nat.eqb_eq in H
  | H : (_ <? _) = false |- _ => apply Nat.ltb_ge in H
  | H : (_ <=? _) = false |- _ => apply Nat.leb_gt in H
  | H : (_ =? _) = false |- _ => apply Nat.eqb_neq in H
  | H : (_ || _)%bool = false |- _ => apply orb_false_iff in H; destruct H
  | H : negb _ = true |- _ => apply negb_true_iff in H
  | H : negb _ = false |- _ => apply negb_false_iff in H
  end.

Lemma vs_cases I t :
  vectorized_sizeof I t = esize t \/ offers I t (vectorized_sizeof I t).
Proof.
  unfold vectorized_sizeof.
  destruct (esize t <=? 8) eqn:E8; [|auto]. btrue.
  destruct (have_avx512bw I) eqn:Ebw; [right; apply off_zmm_bw; auto|].
  destruct (have_avx512f I && (4 <=? esize t))%bool eqn:Ef;
    [btrue; right; apply off_zmm; auto|].
  destruct (have_avx2 I) eqn:E2; [right; apply off_ymm; auto|].
  destruct (have_avx I && efloating t)%bool eqn:Ea;
    [btrue; right; apply off_ymm_fp; auto|].
  destruct (have_sse2 I) eqn:Es2; [right; apply off_xmm; auto|].
  destruct (have_sse I && eis_float t)%bool eqn:Es.
  { btrue. right. apply off_xmm_ps; auto. destruct t; simpl in *; congruence. }
  destruct (have_power8vec I) eqn:Ep8; [simpl; right; apply off_p8; auto|].
  destruct (have_power_vmx I && (esize t <? 8))%bool eqn:Evmx;
    [simpl; btrue; right; apply off_vmx; auto|].
  destruct (have_power_vsx I && efloating t)%bool eqn:Evsx;
    [simpl; btrue; right; apply off_vsx; auto|]. simpl.
  destruct (have_neon_a64 I) eqn:E64; [simpl; right; apply off_a64; auto|].
  destruct (have_neon_a32 I && negb (eis_double t))%bool eqn:E32.
  { simpl; btrue; right; apply off_a32; auto. intros ->. discriminate. }
  simpl.
  destruct (have_neon I && (esize t <? 8)
            && (support_neon_float I || negb (efloating t)))%bool eqn:En; [|auto].
  btrue. right. apply off_neon; auto. intros Hf. rewrite Hf in *. simpl in *.
  rewrite orb_false_r in *. assumption.
Qed.

Lemma vs_upper I t w : offers I t w -> w <= vectorized_sizeof I t.
Proof.
  intros H. unfold vectorized_sizeof.
  assert (Hle : esize t <= 8) by (destruct H; subst; simpl in *; lia).
  rewrite (proj2 (Nat.leb_le _ _) Hle).
  destruct (have_avx512bw I) eqn:Ebw; [inversion H; lia|].
  destruct (have_avx512f I && (4 <=? esize t))%bool eqn:Ef; [inversion H; lia|].
  assert (N64 : have_avx512f I = true -> 4 <= esize t -> False).
  { intros Hf H4. rewrite Hf, (proj2 (Nat.leb_le _ _) H4) in Ef. discriminate. }
  assert (W32 : w <= 32) by (inversion H; subst; try lia; try congruence; tauto).
  destruct (have_avx2 I) eqn:E2; [assumption|].
  destruct (have_avx I && efloating t)%bool eqn:Ea; [assumption|].
  assert (H16 : w = 16).
  { inversion H; subst; try lia; try congruence.
    exfalso. match goal with A : have_avx I = true, B : efloating t = true |- _ =>
      rewrite A, B in Ea end. discriminate. }
  destruct (have_sse2 I) eqn:Es2; [lia|].
  destruct (have_sse I && eis_float t)%bool eqn:Es; [lia|].
  destruct (have_power8vec I || (have_power_vmx I && (esize t <? 8))
            || (have_power_vsx I && efloating t))%bool eqn:Ep; [lia|].
  destruct (have_neon_a64 I || (have_neon_a32 I && negb (eis_double t)))%bool eqn:E3;
    [lia|].
  destruct (have_neon I && (esize t <? 8)
            && (support_neon_float I || negb (efloating t)))%bool eqn:En; [lia|].
  exfalso.
  apply orb_false_iff in Ep. destruct Ep as [Ep Ep3].
  apply orb_false_iff in Ep. destruct Ep as [Ep1 Ep2].
  apply orb_false_iff in E3. destruct E3 as [E31 E32].
  destruct H as [A B|A B C|A B|A B C|A B|B C|A B|A B C|A B|A B|A B C|A B C];
    try congruence; try lia.
  - subst. rewrite B in Es. discriminate.
  - rewrite B, (proj2 (Nat.ltb_lt _ _) A) in Ep2. discriminate.
  - rewrite B, C in Ep3. discriminate.
  - rewrite B in E32. destruct t; simpl in *; congruence.
  - rewrite B, (proj2 (Nat.ltb_lt _ _) A) in En.
    destruct (efloating t); [rewrite C in En by reflexivity; discriminate|].
    rewrite orb_true_r in En. discriminate.
Qed.

Lemma vs_64 I t :
  1 <= esize t -> esize t < vectorized_sizeof I t -> have_avx512f I = true ->
  (have_avx512bw I = true \/ 4 <= esize t) -> offers I t 64.
Proof.
  intros Hp Hlt Hf H.
  assert (esize t <= 8).
  { unfold vectorized_sizeof in Hlt. destruct (esize t <=? 8) eqn:E; btrue; lia. }
  destruct H; [apply off_zmm_bw|apply off_zmm]; auto.
Qed.

Lemma valid_usable I t a :
  1 <= esize t -> abi_valid I t a = true -> usable I t a (abi_size t a).
Proof.
  intros Hp Hv. destruct a as [|n|b|b]; simpl in *; auto.
  - unfold max_fixed_size in Hv. btrue. split; [reflexivity|]. split; [lia|].
    destruct (have_avx512bw I && (esize t =? 1))%bool eqn:E; btrue; [|lia].
    right. auto.
  - btrue. split.
    + split; [lia|]. split.
      * rewrite (Nat.div_mod b (esize t)) at 1 by lia. lia.
      * exists (vectorized_sizeof I t). split; [|lia].
        destruct (vs_cases I t) as [E|]; [|assumption].
        rewrite E in *. assert (b / esize t <= 1); [|lia].
        apply (Nat.lt_succ_r). apply Nat.div_lt_upper_bound; lia.
    + intros Hf. rewrite Hf in *. simpl in *. btrue. lia.
  - btrue.
    repeat match goal with
    | H : (_ || _)%bool = true |- _ => apply orb_true_iff in H
    end.
    assert (K : have_avx512bw I = true \/ 4 <= esize t)
      by (match goal with H : have_avx512bw I = true \/ _ |- _ => destruct H; btrue; auto end).
    assert (K2 : 32 < b \/ have_avx512vl I = true)
      by (match goal with H : _ \/ have_avx512vl I = true |- _ => destruct H; btrue; auto end).
    split; [|split; [assumption|split]].
    + split; [lia|]. split.
      * rewrite (Nat.div_mod b (esize t)) at 1 by lia. lia.
      * exists 64. split; [|lia]. apply vs_64; auto.
    + intros Hlt. destruct K; [auto|lia].
    + intros Hle. destruct K2; [lia|auto].
Qed.

Lemma valid_size_pos I t a : abi_valid I t a = true -> 1 <= abi_size t a.
Proof. destruct a; simpl; intros; btrue; lia. Qed.

Lemma fam_valid_abi I t f b :
  fam_valid I t f b = true -> abi_valid I t (fam_abi f b) = true.
Proof. destruct f; simpl; intros H; [exact H|exact H|reflexivity]. Qed.

Lemma fam_valid_size I t f n :
  1 <= esize t -> 1 <= n ->
  fam_valid I t f (esize t * n) = true -> abi_size t (fam_abi f (esize t * n)) = n.
Proof.
  intros Hp Hn. destruct f; simpl; intros; btrue.
  - rewrite Nat.mul_comm. apply Nat.div_mul. lia.
  - rewrite Nat.mul_comm. apply Nat.div_mul. lia.
  - nia.
Qed.

Lemma bit_ceil_half_lt b : 2 <= b -> bit_ceil b / 2 < b.
Proof.
  intros H. unfold bit_ceil.
  destruct (Nat.log2_up_spec b ltac:(lia)) as [Hl Hu].
  assert (Hp : 0 < Nat.log2_up b) by (apply Nat.log2_up_pos; lia).
  assert (E : 2 ^ Nat.log2_up b = 2 ^ Nat.pred (Nat.log2_up b) * 2).
  { replace (Nat.log2_up b) with (S (Nat.pred (Nat.log2_up b))) at 1 by lia.
    simpl. lia. }
  rewrite E, Nat.div_mul by lia. lia.
Qed.

Lemma find_next_some I t f : 1 <= esize t ->
  forall fuel bytes, 2 * esize t <= bytes -> bytes <= fuel ->
  exists b, find_next_valid_abi fuel I t f bytes = Some b.
Proof.
  intros Hp. induction fuel as [|fuel IH]; intros bytes H2 Hf; [lia|].
  destruct f; simpl; try (eexists; reflexivity).
  - destruct (bit_ceil bytes / 2 <? esize t * 2) eqn:E; [eexists; reflexivity|].
    destruct (_ && _)%bool; [eexists; reflexivity|]. btrue.
    apply IH; [lia|]. assert (bit_ceil bytes / 2 < bytes) by (apply bit_ceil_half_lt; lia). lia.
  - destruct (bit_ceil bytes / 2 <? esize t * 2) eqn:E; [eexists; reflexivity|].
    destruct (_ && _)%bool; [eexists; reflexivity|]. btrue.
    apply IH; [lia|]. assert (bit_ceil bytes / 2 < bytes) by (apply bit_ceil_half_lt; lia). lia.
Qed.

Lemma find_next_register I t f fuel : forall bytes b,
  find_next_valid_abi fuel I t f bytes = Some b -> is_register b.
Proof.
  induction fuel as [|fuel IH]; intros bytes b H; destruct f; simpl in H;
    try discriminate; try (injection H as <-; exact Logic.I).
  - destruct (_ <? _); [injection H as <-; exact Logic.I|].
    destruct (_ && _)%bool; [injection H as <-; exact Logic.I|]. eauto.
  - destruct (_ <? _); [injection H as <-; exact Logic.I|].
    destruct (_ && _)%bool; [injection H as <-; exact Logic.I|]. eauto.
Qed.

Lemma fam_register f b : is_register (fam_abi f b).
Proof. destruct f; exact Logic.I. Qed.

(* Every answer of _BestAbi is valid and fits; the scalar wrapper at the end of
   the list makes sure there is an answer. *)
Lemma best_abi_sound I t l n a : 1 <= esize t -> 1 <= n ->
  best_abi I t l n = Some a ->
  abi_valid I t a = true /\ abi_size t a <= n /\ is_register a.
Proof.
  intros Hp Hn. induction l as [|f r IH]; simpl; [discriminate|].
  destruct (n =? 1) eqn:E1.
  { btrue. intros [= <-]. simpl. repeat split; lia. }
  destruct (_ && _)%bool eqn:Eg.
  { btrue. intros [= <-]. split; [apply fam_valid_abi; assumption|].
    split; [|apply fam_register]. rewrite (fam_valid_size I); auto. }
  destruct (find_next_valid_abi _ _ _ _ _) as [b|] eqn:Eb; [|discriminate].
  destruct (abi_valid I t b && (abi_size t b <=? n))%bool eqn:Ev; [|exact IH].
  btrue. intros [= <-]. repeat split; auto. eapply find_next_register; eauto.
Qed.

Lemma best_abi_total I t n : 1 <= esize t -> 1 <= n ->
  exists a, best_abi I t all_native_abis n = Some a.
Proof.
  intros Hp Hn. unfold all_native_abis. simpl best_abi.
  destruct (n =? 1) eqn:E1; [eexists; reflexivity|]. btrue.
  match goal with |- context [if ?c then _ else _] => destruct c; [eexists; reflexivity|] end.
  destruct (find_next_some I t FBtmsk Hp (esize t * n) (esize t * n)) as [b ->];
    [nia|lia|].
  match goal with |- context [if ?c then _ else _] => destruct c; [eexists; reflexivity|] end.
  match goal with |- context [if ?c then _ else _] => destruct c; [eexists; reflexivity|] end.
  destruct (find_next_some I t FBuiltin Hp (esize t * n) (esize t * n)) as [b' ->];
    [nia|lia|].
  match goal with |- context [if ?c then _ else _] => destruct c; [eexists; reflexivity|] end.
  match goal with |- context [if ?c then _ else _] => destruct c; [eexists; reflexivity|] end.
  replace (find_next_valid_abi (esize t * n) I t FScalarWrapper (esize t * n))
    with (Some AScalar) by (destruct (esize t * n); reflexivity).
  simpl. destruct (1 <=? n) eqn:E; [eexists; reflexivity|]. btrue. lia.
Qed.

Lemma storage_total I t : 1 <= esize t ->
  forall fuel n, 1 <= n -> n <= fuel ->
  exists l, storage_builder fuel I t n = Some l /\
    Forall (fun a => abi_valid I t a = true /\ is_register a) l /\
    list_sum (map (abi_size t) l) = n.
Proof.
  intros Hp. induction fuel as [|fuel IH]; intros n Hn Hf; [lia|].
  destruct (best_abi_total I t n Hp Hn) as [a Ha].
  cbn [storage_builder]. rewrite Ha.
  destruct (best_abi_sound I t _ n a Hp Hn Ha) as [Hv [Hs Hr]].
  pose proof (valid_size_pos I t a Hv) as H1. rewrite Hv. simpl.
  destruct (n <? abi_size t a) eqn:E; btrue; [lia|].
  destruct (n - abi_size t a =? 0) eqn:E0; btrue.
  - exists [a]. split; [reflexivity|]. split; [repeat constructor; auto|]. simpl. lia.
  - destruct (IH (n - abi_size t a)) as [l [-> [HF HS]]]; [lia|lia|].
    exists (a :: l). split; [reflexivity|]. split; [constructor; auto|].
    simpl. rewrite HS. lia.
Qed.

Lemma c01_lemma : forall I t n, elem_ok t -> 1 <= n ->
  exists regs, fixed_size_storage I t n = Some regs /\
    (exists ks, Forall2 (fun a k => is_register a /\ usable I t a k /\ 1 <= k) regs ks /\
       list_sum ks = n /\ ks = map (abi_size t) regs).
Proof.
  intros I t n Ht Hn. pose proof (elem_ok_pos t Ht) as Hp.
  destruct (storage_total I t Hp n n Hn (Nat.le_refl n)) as [l [E [HF HS]]].
  exists l. split; [exact E|]. exists (map (abi_size t) l).
  split; [|auto]. clear E HS. induction HF as [|a l [Hv Hr] HF IH]; simpl; constructor; auto.
  split; [assumption|]. split; [apply valid_usable; assumption|].
  eapply valid_size_pos; eassumption.
Qed.

Lemma first_valid_spec I t l n a : 1 <= esize t -> 1 <= n ->
  first_valid_abi I t l n = Some a ->
  abi_valid I t a = true /\ abi_size t a = n /\ is_register a.
Proof.
  intros Hp Hn. induction l as [|f r IH]; simpl; [discriminate|].
  destruct (fam_valid _ _ _ _) eqn:E; [|exact IH].
  intros [= <-]. split; [apply fam_valid_abi; assumption|].
  split; [|apply fam_register]. eapply fam_valid_size; eassumption.
Qed.

Lemma has_first I t l n : has_valid_abi I t l n = true ->
  exists a, first_valid_abi I t l n = Some a.
Proof.
  induction l as [|f r IH]; simpl; [discriminate|].
  destruct (fam_valid _ _ _ _); [eexists; reflexivity|exact IH].
Qed.

Lemma deduce_sound I t n a : 1 <= esize t -> 1 <= n ->
  deduce I t n = Some a -> usable I t a n.
Proof.
  intros Hp Hn. unfold deduce. destruct (has_valid_abi _ _ _ _) eqn:E.
  - intros H. destruct (first_valid_spec I t _ n a Hp Hn H) as [Hv [Hs _]].
    rewrite <- Hs. apply valid_usable; assumption.
  - destruct (abi_valid I t (AFixed n)) eqn:Ev; [|discriminate].
    intros [= <-]. apply (valid_usable I t (AFixed n) Hp Ev).
Qed.

Lemma deduce_total I t n : 1 <= n -> n <= max_fixed_size I t ->
  exists a, deduce I t n = Some a.
Proof.
  intros Hn Hm. unfold deduce. destruct (has_valid_abi _ _ _ _) eqn:E.
  - apply has_first in E. exact E.
  - simpl. rewrite (proj2 (Nat.leb_le _ _) Hm).
    replace (0 <? n) with true by (symmetry; apply Nat.ltb_lt; lia).
    eexists; reflexivity.
Qed.

Lemma deduce_one I t : elem_ok t -> deduce I t 1 = Some AScalar.
Proof.
  intros Ht. pose proof (elem_ok_pos t Ht) as Hp.
  unfold deduce, all_native_abis. simpl.
  rewrite !Nat.mul_1_r, !Nat.div_same by lia.
  change (1 <? 1) with false.
  rewrite !andb_false_l, !andb_false_r, Nat.eqb_refl. reflexivity.
Qed.

Lemma max_fixed_spec I t n :
  n <= max_fixed_size I t <->
  (n <= 32 \/ (n <= 64 /\ esize t = 1 /\ have_avx512bw I = true)).
Proof.
  unfold max_fixed_size.
  destruct (have_avx512bw I) eqn:E; simpl.
  - destruct (esize t =? 1) eqn:E1; btrue; split; intros H; try lia; auto.
  - split; [auto|intros [H|[_ [_ H]]]; [assumption|discriminate]].
Qed.

Lemma c02_lemma : forall I t n, elem_ok t -> 1 <= n ->
  (forall a, deduce I t n = Some a -> usable I t a n /\ abi_size t a = n) /\
  (n <= 32 \/ (n <= 64 /\ esize t = 1 /\ have_avx512bw I = true) ->
     exists a, deduce I t n = Some a) /\
  (n = 1 -> deduce I t n = Some AScalar).
Proof.
  intros I t n Ht Hn. pose proof (elem_ok_pos t Ht) as Hp. split; [|split].
  - intros a H. split; [eapply deduce_sound; eassumption|].
    unfold deduce in H. destruct (has_valid_abi _ _ _ _).
    + apply (first_valid_spec I t _ n a Hp Hn H).
    + destruct (abi_valid _ _ _); [|discriminate]. injection H as <-. reflexivity.
  - intros H. apply deduce_total; [assumption|]. apply max_fixed_spec. exact H.
  - intros ->. apply deduce_one; assumption.
Qed.

Lemma c02_rebind_lemma : forall I t u a b, elem_ok t -> elem_ok u ->
  usable I u a (abi_size u a) ->
  rebind_abi I t u a = Some b -> usable I t b (abi_size u a) /\ abi_size t b = abi_size u a.
Proof.
  intros I t u a b Ht Hu Ha H.
  assert (1 <= abi_size u a).
  { destruct a; simpl in *; try lia; destruct Ha as [[? _] _]; lia. }
  apply (c02_lemma I t (abi_size u a)); assumption.
Qed.

(* usable and abi_valid say the same for elements C++ has *)
Lemma usable_valid I t a :
  elem_ok t -> usable I t a (abi_size t a) -> abi_valid I t a = true.
Proof.
  intros Ht H. pose proof (elem_ok_pos t Ht) as Hp.
  destruct a as [|n|b|b]; simpl in *.
  - reflexivity.
  - destruct H as [_ [H1 H2]]. apply max_fixed_spec in H2.
    rewrite (proj2 (Nat.leb_le _ _) H2). replace (0 <? n) with true; auto.
    symmetry. apply Nat.ltb_lt. lia.
  - destruct H as [[H2 [Hb [w [Ho Hw]]]] Hf]. apply vs_upper in Ho.
    assert (1 < b) by nia.
    rewrite (proj2 (Nat.ltb_lt 1 b)) by assumption.
    rewrite (proj2 (Nat.ltb_lt 1 (b / esize t))) by lia.
    rewrite (proj2 (Nat.eqb_eq (b mod esize t) 0))
      by (pose proof (Nat.div_mod b (esize t) ltac:(lia)); lia).
    rewrite (proj2 (Nat.leb_le b (vectorized_sizeof I t))) by lia. simpl.
    destruct (have_avx512f I); [|reflexivity]. simpl. apply Nat.leb_le. auto.
  - destruct H as [[H2 [Hb [w [Ho Hw]]]] [Hf [H4 H5]]].
    pose proof (vs_upper _ _ _ Ho) as Hvs.
    assert (1 < b) by nia.
    rewrite (proj2 (Nat.ltb_lt 1 b)) by assumption.
    rewrite (proj2 (Nat.ltb_lt 1 (b / esize t))) by lia.
    rewrite (proj2 (Nat.eqb_eq (b mod esize t) 0))
      by (pose proof (Nat.div_mod b (esize t) ltac:(lia)); lia).
    rewrite (proj2 (Nat.leb_le b 64)) by (inversion Ho; lia).
    rewrite (proj2 (Nat.ltb_lt (esize t) (vectorized_sizeof I t))) by nia.
    rewrite Hf. simpl.
    replace (have_avx512bw I || (4 <=? esize t))%bool with true.
    2:{ symmetry. apply orb_true_iff. destruct (le_lt_dec 4 (esize t)).
        - right. apply Nat.leb_le; assumption.
        - left. auto. }
    simpl. apply orb_true_iff. destruct (le_lt_dec b 32); [right; auto|left].
    apply Nat.ltb_lt. assumption.
Qed.

Lemma offers_mult I t w : elem_ok t -> offers I t w ->
  w = w / esize t * esize t /\ 2 <= w / esize t.
Proof.
  intros Ht Ho.
  assert (Hw : w = 16 \/ w = 32 \/ w = 64) by (inversion Ho; auto).
  assert (Hs : esize t = 1 \/ esize t = 2 \/ esize t = 4 \/ esize t = 8).
  { assert (esize t <= 8) by (inversion Ho; subst; simpl in *; lia).
    destruct t; simpl in *; lia. }
  destruct Hs as [-> | [-> | [-> | ->]]]; destruct Hw as [-> | [-> | ->]];
    split; try reflexivity; apply Nat.leb_le; reflexivity.
Qed.

Lemma c03_native_lemma : forall I t, elem_ok t -> isa_ok I ->
  (have_avx512vl I = true -> have_avx512bw I = true \/ 4 <= esize t) ->
  usable I t (native_abi I t) (abi_size t (native_abi I t)) /\
  ((exists w, widest I t w /\ abi_size t (native_abi I t) * esize t = w) \/
   ((forall w, ~ offers I t w) /\ native_abi I t = AScalar)).
Proof.
  intros I t Ht HI Hvl. pose proof (elem_ok_pos t Ht) as Hp.
  unfold native_abi.
  destruct (vectorized_sizeof I t =? esize t) eqn:E; btrue.
  { split; [reflexivity|]. right. split; [|reflexivity]. intros w Ho.
    pose proof (vs_upper _ _ _ Ho). destruct (offers_mult I t w Ht Ho). nia. }
  destruct (vs_cases I t) as [|Ho]; [contradiction|].
  destruct (offers_mult I t _ Ht Ho) as [Hm H2].
  assert (HW : widest I t (vectorized_sizeof I t)).
  { split; [assumption|]. apply vs_upper. }
  destruct HI as (I1 & I2 & _).
  destruct (have_avx512vl I || (have_avx512f I && (vectorized_sizeof I t =? 64)))%bool eqn:Eb.
  - split; [|left; exists (vectorized_sizeof I t); split; [assumption|simpl; lia]].
    simpl. split; [split; [assumption|split; [assumption|]]|].
    { exists (vectorized_sizeof I t). auto. }
    assert (Hf : have_avx512f I = true).
    { apply orb_true_iff in Eb. destruct Eb; [auto|btrue; auto]. }
    split; [assumption|]. split.
    + intros H4. destruct (have_avx512vl I) eqn:Evl; [destruct Hvl; [reflexivity|auto|lia]|].
      simpl in Eb. btrue.
      inversion Ho; try lia; auto.
    + intros H32. apply orb_true_iff in Eb. destruct Eb; [assumption|btrue; lia].
  - split; [|left; exists (vectorized_sizeof I t); split; [assumption|simpl; lia]].
    simpl. btrue. split; [split; [assumption|split; [assumption|]]|].
    { exists (vectorized_sizeof I t). auto. }
    intros Hf. rewrite Hf in H0. simpl in H0. btrue. inversion Ho; lia.
Qed.

Lemma c03_compatible_lemma : forall I t, elem_ok t -> isa_ok I ->
  usable I t (compatible_abi I t) (abi_size t (compatible_abi I t)).
Proof.
  intros I t Ht (I1 & I2 & I3 & I4 & I5 & I6 & I7 & I8 & I9 & I10).
  unfold compatible_abi.
  assert (K : offers I t 16 -> usable I t (AVecBuiltin 16) (abi_size t (AVecBuiltin 16))).
  { intros Ho. destruct (offers_mult I t _ Ht Ho). simpl.
    split; [|intros; lia]. split; [assumption|]. split; [assumption|].
    exists 16. auto. }
  destruct (def_x86_64 I || def_aarch64 I)%bool eqn:E.
  - destruct (esize t <=? 8) eqn:E8; btrue; [|reflexivity]. apply K.
    apply orb_true_iff in E. destruct E; [apply off_xmm|apply off_a64]; auto.
  - destruct (have_neon I) eqn:En; [|reflexivity].
    destruct (_ && _)%bool eqn:E8; btrue; [|reflexivity]. apply K.
    apply off_neon; auto. intros Hf. rewrite Hf, orb_false_r in *. assumption.
Qed.

(* -mavx512vl without -mavx512bw: __vectorized_sizeof<short>() is 32 and
   native<short> is _VecBltnBtmsk<32>, which asks for BW. *)
Definition isa_vl_no_bw : isa := {|
  have_sse := true; have_sse2 := true; have_avx := true; have_avx2 := true;
  have_avx512f := true; have_avx512vl := true; have_avx512bw := false;
  have_power8vec := false; have_power_vsx := false; have_power_vmx := false;
  have_neon := false; have_neon_a32 := false; have_neon_a64 := false;
  support_neon_float := false;
  def_x86_64 := true; def_i386 := false; def_aarch64 := false |}.

Lemma c03_refuted_lemma : exists I t, elem_ok t /\ isa_ok I /\
  ~ usable I t (native_abi I t) (abi_size t (native_abi I t)).
Proof.
  exists isa_vl_no_bw, (TInt 2). split; [simpl; auto|]. split.
  - repeat split; reflexivity || discriminate.
  - intros (_ & _ & H & _). specialize (H ltac:(simpl; lia)). discriminate.
Qed.
