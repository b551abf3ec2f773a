(* Proofs: shifts with a count per lane do not look at the lanes behind the
   last element. *)
From Coq Require Import ZArith List Bool Lia.
From Verif Require Import Prelude X86Lanes X86Bits X86Shift X86ShiftSpec X86ShiftProofs X86ShiftVProofs PadShiftSpec.
Import ListNotations.
Open Scope Z_scope.

(* F treats chunks of k lanes separately, and within a chunk lane i is right if
   the counts of lanes 0 .. i are good *)
Definition chunked (k : nat) (w : Z) (G : nat -> Z -> Prop) (sh : Z -> Z -> Z) (F : list Z -> list Z -> list Z) : Prop :=
  (forall x1 y1 x2 y2, length x1 = k -> length y1 = k -> length y2 = length x2 ->
     F (x1 ++ x2) (y1 ++ y2) = F x1 y1 ++ F x2 y2) /\
  (forall x1 y1, length x1 = k -> length y1 = k -> length (F x1 y1) = k) /\
  (forall x1 y1 i, (i < k)%nat -> length x1 = k -> length y1 = k -> reg_ok w x1 -> reg_ok w y1 ->
     (forall j, (j <= i)%nat -> G j (nth j y1 0)) -> nth i (F x1 y1) 0 = sh (nth i x1 0) (nth i y1 0)).

Lemma nth_split {A} k (l : list A) i d : nth i l d = if (i <? k)%nat then nth i (firstn k l) d else nth (i - k) (skipn k l) d.
Proof.
  revert l i. induction k as [|k IH]; intros l i.
  - rewrite Nat.sub_0_r. auto.
  - destruct l as [|a l]; [rewrite firstn_nil, skipn_nil; assert (N : forall j, nth j (@nil A) d = d) by (intros [|]; auto); rewrite !N; destruct (i <? S k)%nat; auto|].
    destruct i as [|i]; [auto|]. cbn [nth firstn skipn]. rewrite IH. reflexivity.
Qed.
Lemma chunk_pad k w (G : nat -> Z -> Prop) sh F : (0 < k)%nat -> (forall j c, G (k + j)%nat c -> G j c) -> chunked k w G sh F ->
  forall m x y n, reg_ok w x -> reg_ok w y -> length x = (m * k)%nat -> length y = (m * k)%nat -> (n <= m * k)%nat ->
  (forall i, (i < n)%nat -> G i (nth i y 0)) -> first_lanes sh n x y (F x y).
Proof.
  intros Hk HG (Happ & Hlen & Hlane) m. induction m as [|m IH]; intros x y n Hx Hy Lx Ly Hn HGy i Hi; [lia|].
  assert (L1 : length (firstn k x) = k) by (rewrite firstn_length; lia).
  assert (L2 : length (firstn k y) = k) by (rewrite firstn_length; lia).
  assert (L3 : length (skipn k x) = (m * k)%nat) by (rewrite skipn_length; lia).
  assert (L4 : length (skipn k y) = (m * k)%nat) by (rewrite skipn_length; lia).
  assert (X : Forall (lane_ok w) (firstn k x) /\ Forall (lane_ok w) (skipn k x)).
  { apply Forall_app. rewrite firstn_skipn. exact Hx. }
  assert (Y : Forall (lane_ok w) (firstn k y) /\ Forall (lane_ok w) (skipn k y)).
  { apply Forall_app. rewrite firstn_skipn. exact Hy. }
  destruct X as [X1 X2]. destruct Y as [Y1 Y2].
  assert (E : F x y = F (firstn k x) (firstn k y) ++ F (skipn k x) (skipn k y)).
  { rewrite <- Happ by congruence. rewrite !firstn_skipn. reflexivity. }
  rewrite (nth_split k x i), (nth_split k y i), E. destruct (Nat.ltb_spec i k) as [Hik|Hik].
  - rewrite app_nth1 by (rewrite Hlen by auto; auto). apply Hlane; auto. intros j Hj. specialize (HGy j ltac:(lia)).
    rewrite (nth_split k y j) in HGy. destruct (Nat.ltb_spec j k); [auto|lia].
  - rewrite app_nth2; rewrite (Hlen _ _ L1 L2); [|lia].
    apply (IH (skipn k x) (skipn k y) (n - k)%nat); auto; try lia.
    intros j Hj. apply HG. specialize (HGy (k + j)%nat ltac:(lia)). rewrite (nth_split k y (k + j)) in HGy.
    destruct (Nat.ltb_spec (k + j) k); [lia|]. replace (k + j - k)%nat with j in HGy by lia. auto.
Qed.

(* chunks of one lane: the theorem about registers without padding is enough *)
Lemma chunk1 w (G : nat -> Z -> Prop) sh F :
  (forall a x c y, F (a :: x) (c :: y) = F [a] [c] ++ F x y) ->
  (forall a c, length (F [a] [c]) = 1%nat) ->
  (forall a c, lane_ok w a -> lane_ok w c -> G 0%nat c -> F [a] [c] = [sh a c]) -> chunked 1 w G sh F.
Proof.
  intros H1 H2 H3. split; [|split].
  - intros [|a [|]] [|c [|]] x2 y2 L1 L2 _; try discriminate. apply H1.
  - intros [|a [|]] [|c [|]] L1 L2; try discriminate. apply H2.
  - intros [|a [|]] [|c [|]] i Hi L1 L2 Hx Hy Hg; try discriminate. destruct i; [|lia].
    inversion_clear Hx. inversion_clear Hy. rewrite H3; auto. apply (Hg 0%nat); lia.
Qed.
(* chunks of two lanes *)
Lemma chunk2 w (G : nat -> Z -> Prop) sh F :
  (forall a b x c d y, length y = length x -> F (a :: b :: x) (c :: d :: y) = F [a; b] [c; d] ++ F x y) ->
  (forall a b c d, length (F [a; b] [c; d]) = 2%nat) ->
  (forall a b c d, lane_ok w a -> lane_ok w b -> lane_ok w c -> lane_ok w d -> G 0%nat c ->
     nth 0 (F [a; b] [c; d]) 0 = sh a c) ->
  (forall a b c d, lane_ok w a -> lane_ok w b -> lane_ok w c -> lane_ok w d -> G 0%nat c -> G 1%nat d ->
     nth 1 (F [a; b] [c; d]) 0 = sh b d) -> chunked 2 w G sh F.
Proof.
  intros H1 H2 H3 H4. split; [|split].
  - intros [|a [|b [|]]] [|c [|d [|]]] x2 y2 L1 L2 L3; try discriminate. apply H1. auto.
  - intros [|a [|b [|]]] [|c [|d [|]]] L1 L2; try discriminate. apply H2.
  - intros [|a [|b [|]]] [|c [|d [|]]] i Hi L1 L2 Hx Hy Hg; try discriminate. inversion_clear Hx as [|? ? A Hx']. inversion_clear Hx'.
    inversion_clear Hy as [|? ? C Hy']. inversion_clear Hy'.
    destruct i as [|[|]]; [apply H3; auto; apply (Hg 0%nat); lia| |lia].
    apply H4; auto; first [apply (Hg 0%nat); lia|apply (Hg 1%nat); lia].
Qed.
Definition upto (lim : Z) (_ : nat) (c : Z) : Prop := 0 <= c < lim.
Definition upto16e (j : nat) (c : Z) : Prop := 0 <= c < 32 /\ (Nat.even j = true -> c < 16).

Lemma count1 c : 0 <= c < 32 -> counts [c].
Proof. intros. constructor; auto. Qed.
Lemma count2 c d : 0 <= c < 32 -> 0 <= d < 32 -> counts [c; d].
Proof. intros. repeat (apply Forall_cons || apply Forall_nil); auto. Qed.
Lemma reg1 w a : lane_ok w a -> reg_ok w [a].
Proof. intros. constructor; auto. Qed.
Lemma reg2 w a b : lane_ok w a -> lane_ok w b -> reg_ok w [a; b].
Proof. intros. repeat (apply Forall_cons || apply Forall_nil); auto. Qed.
Lemma even2 {A} (a b : A) : even_len [a; b].
Proof. exists 1%nat. auto. Qed.

(* ---------------- one lane at a time ------------------------------------ *)
Ltac one l := apply chunk1; [intros; reflexivity|intros; reflexivity|];
  intros a c Ha Hc Hg; unfold upto in Hg; apply l; auto using reg1, count1.
Lemma ch_shlv8_avx512 : chunked 1 8 (upto 32) (cpp_shl 8) shlv8_avx512.
Proof. one shlv8_avx512_spec. Qed.
Lemma ch_shlv16_avx512 : chunked 1 16 (upto 32) (cpp_shl 16) shlv16_avx512.
Proof. one shlv16_avx512_spec. Qed.
Lemma ch_shlv32_sse oob : chunked 1 32 (upto 32) (cpp_shl 32) (shlv32_sse oob).
Proof. one shlv32_sse_spec. Qed.
Lemma ch_shrv8u_avx512 : chunked 1 8 (upto 32) cpp_shr_unsigned shrv8u_avx512.
Proof. one shrv8u_avx512_spec. Qed.
Lemma ch_shrv8s_avx512 : chunked 1 8 (upto 32) (cpp_shr_signed 8) shrv8s_avx512.
Proof. one shrv8s_avx512_spec. Qed.
Lemma ch_shrv16u_avx512 : chunked 1 16 (upto 32) cpp_shr_unsigned shrv16u_avx512.
Proof. one shrv16u_avx512_spec. Qed.
Lemma ch_shrv16s_avx512 : chunked 1 16 (upto 32) (cpp_shr_signed 16) shrv16s_avx512.
Proof. one shrv16s_avx512_spec. Qed.
Lemma cut16_small sp a c : c < 16 -> cut16 sp a c = sp a c.
Proof. intros. unfold cut16. destruct (Z.ltb_spec c 16); auto; lia. Qed.
Lemma cut16_u a c : lane_ok 16 a -> 0 <= c -> cut16 cpp_shr_unsigned a c = cpp_shr_unsigned a c.
Proof. intros Ha Hc. unfold cut16. destruct (Z.ltb_spec c 16); auto. symmetry. apply (shru_big 16); auto; lia. Qed.
Lemma ch_shrv16u_sse2 oob : chunked 1 16 (upto 32) cpp_shr_unsigned (shrv16_sse2 vshr oob).
Proof.
  apply chunk1; try (intros; reflexivity). intros a c Ha Hc Hg. unfold upto in Hg.
  rewrite (shrv16_sse2_spec vshr _ oob [a] [c] shift16_shr) by auto using reg1, count1. cbn [map2]. rewrite cut16_u by (auto; lia). auto.
Qed.
Lemma ch_shrv16u_sse41 oob : chunked 1 16 (upto 32) cpp_shr_unsigned (shrv16_sse41 vshr oob).
Proof.
  apply chunk1; try (intros; reflexivity). intros a c Ha Hc Hg. unfold upto in Hg.
  rewrite (shrv16_sse41_spec vshr _ oob [a] [c] shift16_shr) by auto using reg1, count1. cbn [map2]. rewrite cut16_u by (auto; lia). auto.
Qed.
Lemma ch_shrv16s_sse2 oob : chunked 1 16 (upto 16) (cpp_shr_signed 16) (shrv16_sse2 vsar oob).
Proof.
  apply chunk1; try (intros; reflexivity). intros a c Ha Hc Hg. unfold upto in Hg. assert (0 <= c < 32) by lia.
  rewrite (shrv16_sse2_spec vsar _ oob [a] [c] shift16_sar) by auto using reg1, count1. cbn [map2]. rewrite cut16_small by lia. auto.
Qed.
Lemma ch_shrv16s_sse41 oob : chunked 1 16 (upto 16) (cpp_shr_signed 16) (shrv16_sse41 vsar oob).
Proof.
  apply chunk1; try (intros; reflexivity). intros a c Ha Hc Hg. unfold upto in Hg. assert (0 <= c < 32) by lia.
  rewrite (shrv16_sse41_spec vsar _ oob [a] [c] shift16_sar) by auto using reg1, count1. cbn [map2]. rewrite cut16_small by lia. auto.
Qed.

(* ---------------- SSE bytes: right for every count a byte can hold --------- *)
Lemma mask8_topg oob y : even_len y -> reg_ok 8 y -> Forall2 (top 8 3) (cut 8 (map (vshl oob 16 5) (join 8 y))) y.
Proof.
  revert y. refine (pair_ind _ _ _); [intros; constructor|]. intros a b l He IH H. lanes.
  cbn [join map cut]. rewrite vshl_in by lia.
  assert (Hv : lane_ok 16 (((a + 2 ^ 8 * b) * 2 ^ 5) mod 2 ^ 16)) by (apply lane_mod; lia).
  constructor; [|constructor; [|auto]].
  - split; [apply lane_mod; lia|]. intros i Hi. tb; tb_close.
  - split; [apply cut_join_div; [lia|exact Hv]|]. intros i Hi. tb; tb_close.
Qed.
Lemma land248 c : lane_ok 8 c -> Z.land c 248 = 0 -> c < 8.
Proof.
  intros Hc H. assert (E : c = c mod 2 ^ 3).
  { apply (lane_ext 8); auto.
    - pose proof (Z.mod_pos_bound c (2 ^ 3) ltac:(lia)). split; lia.
    - intros i Hi. rewrite tb_mod by lia. destruct (Z.ltb_spec i 3); auto. cbn [andb].
      assert (T : Z.testbit (Z.land c 248) i = false) by (rewrite H; apply Z.bits_0).
      rewrite Z.land_spec in T. change 248 with (31 * 2 ^ 3) in T. rewrite tb_mul in T by lia.
      destruct (Z.leb_spec 3 i); [|lia]. cbn [andb] in T. change 31 with (Z.ones 5) in T. rewrite Z.ones_spec_low in T by lia.
      rewrite andb_true_r in T. auto. }
  pose proof (Z.mod_pos_bound c (2 ^ 3) ltac:(lia)). lia.
Qed.
Lemma pick8g (f : Z -> Z -> Z) a c m : lane_ok 8 c -> top 8 3 m c -> lane_ok 8 a ->
  (forall k, 0 <= k -> lane_ok 8 (f a k)) -> f a 0 = a ->
  (forall j k, 0 <= j -> 0 <= k -> f (f a j) k = f a (j + k)) ->
  let m1 := padd 8 m m in let m2 := padd 8 m1 m1 in
  (if Z.land c 248 =? 0
   then sel8 (fun v => f v 1) m2 (sel8 (fun v => f v 2) m1 (sel8 (fun v => f v 4) m a)) else 0)
  = if c <? 8 then f a c else 0.
Proof.
  intros Hc Hm Ha Hf H0 Hadd m1 m2. destruct (Z.ltb_spec c 32).
  - apply pick8; auto. split; [apply Hc|auto].
  - destruct (Z.eqb_spec (Z.land c 248) 0) as [E|E].
    + pose proof (land248 c Hc E). lia.
    + destruct (Z.ltb_spec c 8); auto; lia.
Qed.
Lemma shlv8_sse_all oob x y : even_len x -> length y = length x -> reg_ok 8 x -> reg_ok 8 y ->
  shlv8_sse oob x y = map2 (cpp_shl 8) x y.
Proof.
  intros He Hl Hx Hy. unfold shlv8_sse. pose proof (mask8_topg oob y (even_eq x y Hl He) Hy) as Hm.
  set (mask := cut 8 _) in *. clearbody mask. pose proof (F2_length _ _ _ Hm) as Hml.
  rewrite (shlv8_step_spec oob 4) by (auto; first [lia|congruence|reflexivity]).
  rewrite shlv8_step_spec; try lia; auto.
  2:{ apply (even_eq x); auto. len. }
  2:{ apply sel8_ok; auto; [|congruence]. intros a Ha. apply cpp_shl_ok. lia. }
  2:{ len. }
  assert (Hd : forall m z, length m = length z -> reg_ok 8 z ->
    blendv 8 m z (map2 (padd 8) z z) = map2 (sel8 (fun a => cpp_shl 8 a 1)) m z).
  { clear. unfold blendv. induction m as [|m0 m IH]; intros [|a z] Hl Hz; try discriminate; auto. lanes.
    injection Hl as Hl. cbn [map2 map3]. rewrite IH by auto. f_equal. unfold sel8, cpp_shl, padd.
    replace (a + a) with (a * 2 ^ 1) by lia. auto. }
  rewrite Hd.
  2:{ len. }
  2:{ apply sel8_ok; [| |len]. { intros a Ha. apply cpp_shl_ok. lia. }
      apply sel8_ok; auto; [|congruence]. intros a Ha. apply cpp_shl_ok. lia. }
  clear Hd Hml He. revert x Hl Hx Hy. induction Hm as [|m c mask y Hmc Hm IH]; intros [|a x] Hl Hx Hy; try discriminate; auto.
  inversion_clear Hx as [|? ? Ha Hx']. inversion_clear Hy as [|? ? Hc Hy']. injection Hl as Hl. cbn [map2]. rewrite IH; auto. f_equal.
  rewrite (pick8g (cpp_shl 8)); auto.
  - destruct (Z.ltb_spec c 8); auto. symmetry. apply shl_big; lia.
  - intros. apply cpp_shl_ok. lia.
  - apply shl_0. auto.
  - intros. apply shl_add; lia.
Qed.
Lemma shrv8u_sse_all oob x y : even_len x -> length y = length x -> reg_ok 8 x -> reg_ok 8 y ->
  shrv8u_sse oob x y = map2 cpp_shr_unsigned x y.
Proof.
  intros He Hl Hx Hy. unfold shrv8u_sse. pose proof (mask8_topg oob y (even_eq x y Hl He) Hy) as Hm.
  set (mask := cut 8 _) in *. clearbody mask. pose proof (F2_length _ _ _ Hm) as Hml.
  assert (R : forall k m z, 0 <= k -> reg_ok 8 z -> length m = length z ->
    reg_ok 8 (map2 (sel8 (fun a => cpp_shr_unsigned a k)) m z)).
  { intros k m z Hk Hz Hlz. apply sel8_ok; auto. intros. apply shru_ok; auto. }
  rewrite (shrv8u_step_spec oob 4) by (auto; first [lia|congruence|reflexivity]).
  rewrite (shrv8u_step_spec oob 2); try lia; auto.
  2:{ apply (even_eq x); auto. len. }
  2:{ apply R; auto; [lia|congruence]. }
  2:{ len. }
  rewrite (shrv8u_step_spec oob 1); try lia; auto.
  2:{ apply (even_eq x); auto. len. }
  2:{ apply R; [lia| |len]. apply R; auto; [lia|congruence]. }
  2:{ len. }
  clear R Hml He. revert x Hl Hx Hy. induction Hm as [|m c mask y Hmc Hm IH]; intros [|a x] Hl Hx Hy; try discriminate; auto.
  inversion_clear Hx as [|? ? Ha Hx']. inversion_clear Hy as [|? ? Hc Hy']. injection Hl as Hl. cbn [map2]. rewrite IH; auto. f_equal.
  rewrite (pick8g cpp_shr_unsigned); auto.
  - destruct (Z.ltb_spec c 8); auto. symmetry. apply (shru_big 8); auto; lia.
  - intros. apply shru_ok; auto.
  - apply shru_0.
  - intros. apply shru_add; lia.
Qed.
Lemma pick8sg a c m : lane_ok 8 c -> top 8 3 m c -> lane_ok 8 a ->
  let m1 := padd 8 m m in let m2 := padd 8 m1 m1 in
  (if Z.land c 248 =? 0
   then sel8 (fun v => cpp_shr_signed 8 v 1) m2 (sel8 (fun v => cpp_shr_signed 8 v 2) m1 (sel8 (fun v => cpp_shr_signed 8 v 4) m a)) else 0)
  = shrs_sse a c.
Proof.
  intros Hc Hm Ha. apply (pick8g (cpp_shr_signed 8)); auto.
  - intros. apply shrs_ok; lia.
  - apply shrs_0; auto; lia.
  - intros. apply shrs_add; auto; lia.
Qed.
Lemma shrv8s_sse41_pairg oob a b l c d m : lane_ok 8 a -> lane_ok 8 b -> lane_ok 8 c -> lane_ok 8 d ->
  shrv8s_sse41 oob (a :: b :: l) (c :: d :: m) = shrs_sse a c :: shrs_sse b d :: shrv8s_sse41 oob l m.
Proof.
  intros Ha Hb Hc Hd. unfold shrv8s_sse41 at 1. cbn [join map cut].
  assert (Hm : Forall2 (top 8 3) (cut 8 (map (vshl oob 16 5) (join 8 [c; d]))) [c; d]).
  { apply mask8_topg; [exists 1%nat; auto|]. apply reg2; auto. }
  cbn [join map cut] in Hm. set (m0 := vshl oob 16 5 (c + 2 ^ 8 * d) mod 2 ^ 8) in *. set (m1 := vshl oob 16 5 (c + 2 ^ 8 * d) / 2 ^ 8) in *.
  clearbody m0 m1. inversion Hm as [|? ? ? ? T0 Hm']; subst. inversion Hm' as [|? ? ? ? T1 _]; subst. clear Hm Hm'.
  pose proof (top_double 8 3 m0 c ltac:(lia) T0) as T0'. pose proof (top_double 8 2 _ c ltac:(lia) T0') as T0''.
  pose proof (proj1 T0) as K0. pose proof (proj1 T0') as K0'. pose proof (proj1 T0'') as K0''.
  destruct (low_byte_hi8 oob a b Ha Hb) as [Ll El]. pose proof (half_ok a b Ha Hb) as Lh.
  assert (Eh : hi8 (a + 2 ^ 8 * b) = b) by (apply join_div; auto; lia).
  set (xh := a + 2 ^ 8 * b) in *. set (xl := vshl oob 16 8 xh) in *. clearbody xh xl.
  cbn [map2]. rewrite !maskl_pair by auto.
  destruct (step41_pair oob 4 m0 m1 xh (cut 8 (map (vshl oob 16 5) (join 8 m))) (join 8 l) ltac:(lia) Lh) as (h1 & -> & Lh1 & Eh1).
  destruct (step41_pair oob 4 0 m0 xl (maskl oob (cut 8 (map (vshl oob 16 5) (join 8 m)))) (map (vshl oob 16 8) (join 8 l)) ltac:(lia) Ll) as (l1 & -> & Ll1 & El1).
  match goal with |- context [shrv8s_step41 oob 2 (?p :: ?q :: ?r) (h1 :: ?t)] =>
    destruct (step41_pair oob 2 p q h1 r t ltac:(lia) Lh1) as (h2 & -> & Lh2 & Eh2) end.
  match goal with |- context [shrv8s_step41 oob 2 (?p :: ?q :: ?r) (l1 :: ?t)] =>
    destruct (step41_pair oob 2 p q l1 r t ltac:(lia) Ll1) as (l2 & -> & Ll2 & El2) end.
  match goal with |- context [shrv8s_step41 oob 1 (?p :: ?q :: ?r) (h2 :: ?t)] =>
    destruct (step41_pair oob 1 p q h2 r t ltac:(lia) Lh2) as (h3 & -> & Lh3 & Eh3) end.
  match goal with |- context [shrv8s_step41 oob 1 (?p :: ?q :: ?r) (l2 :: ?t)] =>
    destruct (step41_pair oob 1 p q l2 r t ltac:(lia) Ll2) as (l3 & -> & Ll3 & El3) end.
  cbn [map map2 cut]. rewrite (vshr_in oob 16 8 l3), land_65280 by (auto; lia).
  pose proof (hi8_ok _ Ll3) as Z1. rewrite join_mod, join_div by (auto; lia).
  rewrite El3, El2, El1, El, Eh3, Eh2, Eh1, Eh. rewrite !pick8sg by auto. reflexivity.
Qed.
Lemma mask16_hig oob a b : lane_ok 8 a -> lane_ok 8 b -> top 16 3 (vshl oob 16 5 (a + 2 ^ 8 * b)) b.
Proof. intros Ha Hb. rewrite vshl_in by lia. split; [apply lane_mod; lia|]. intros i Hi. tb; tb_close. Qed.
Lemma mask16_log oob a b : lane_ok 8 a -> lane_ok 8 b -> top 16 3 (vshl oob 16 13 (a + 2 ^ 8 * b)) a.
Proof. intros Ha Hb. rewrite vshl_in by lia. split; [apply lane_mod; lia|]. intros i Hi. tb; tb_close. Qed.
Lemma pick8hg a c m : lane_ok 8 c -> top 16 3 m c -> lane_ok 8 a ->
  let m1 := padd 16 m m in let m2 := padd 16 m1 m1 in
  (if Z.land c 248 =? 0
   then sel16l (fun v => cpp_shr_signed 8 v 1) m2 (sel16l (fun v => cpp_shr_signed 8 v 2) m1 (sel16l (fun v => cpp_shr_signed 8 v 4) m a)) else 0)
  = shrs_sse a c.
Proof.
  intros Hc Hm Ha m1 m2. destruct (Z.ltb_spec c 32).
  - apply pick8h; auto. split; [apply Hc|auto].
  - unfold shrs_sse. destruct (Z.eqb_spec (Z.land c 248) 0) as [E|E].
    + pose proof (land248 c Hc E). lia.
    + destruct (Z.ltb_spec c 8); auto; lia.
Qed.
Lemma shrv8s_sse2_pairg oob a b l c d m : lane_ok 8 a -> lane_ok 8 b -> lane_ok 8 c -> lane_ok 8 d ->
  shrv8s_sse2 oob (a :: b :: l) (c :: d :: m) = shrs_sse a c :: shrs_sse b d :: shrv8s_sse2 oob l m.
Proof.
  intros Ha Hb Hc Hd. unfold shrv8s_sse2 at 1, sel16. cbn [join map cut map2 map3].
  pose proof (mask16_hig oob c d Hc Hd) as Th. pose proof (mask16_log oob c d Hc Hd) as Tl.
  set (mh := vshl oob 16 5 (c + 2 ^ 8 * d)) in *. set (ml := vshl oob 16 13 (c + 2 ^ 8 * d)) in *. clearbody mh ml.
  pose proof (top_double 16 3 mh d ltac:(lia) Th) as Th'. pose proof (top_double 16 2 _ d ltac:(lia) Th') as Th''.
  pose proof (top_double 16 3 ml c ltac:(lia) Tl) as Tl'. pose proof (top_double 16 2 _ c ltac:(lia) Tl') as Tl''.
  destruct (low_byte_hi8 oob a b Ha Hb) as [Ll El]. pose proof (half_ok a b Ha Hb) as Lh.
  assert (Eh : hi8 (a + 2 ^ 8 * b) = b) by (apply join_div; auto; lia).
  set (xh := a + 2 ^ 8 * b) in *. set (xl := vshl oob 16 8 xh) in *. clearbody xh xl.
  destruct (sel_hi8 oob 4 mh xh ltac:(lia) (proj1 Th) Lh) as [Lh1 Eh1]. set (h1 := if 32767 <? mh then vsar oob 16 4 xh else xh) in *. clearbody h1.
  destruct (sel_hi8 oob 4 ml xl ltac:(lia) (proj1 Tl) Ll) as [Ll1 El1]. set (l1 := if 32767 <? ml then vsar oob 16 4 xl else xl) in *. clearbody l1.
  destruct (sel_hi8 oob 2 _ h1 ltac:(lia) (proj1 Th') Lh1) as [Lh2 Eh2]. set (h2 := if 32767 <? padd 16 mh mh then vsar oob 16 2 h1 else h1) in *. clearbody h2.
  destruct (sel_hi8 oob 2 _ l1 ltac:(lia) (proj1 Tl') Ll1) as [Ll2 El2]. set (l2 := if 32767 <? padd 16 ml ml then vsar oob 16 2 l1 else l1) in *. clearbody l2.
  destruct (sel_hi8 oob 1 _ h2 ltac:(lia) (proj1 Th'') Lh2) as [Lh3 Eh3].
  set (h3 := if 32767 <? padd 16 (padd 16 mh mh) (padd 16 mh mh) then vsar oob 16 1 h2 else h2) in *. clearbody h3.
  destruct (sel_hi8 oob 1 _ l2 ltac:(lia) (proj1 Tl'') Ll2) as [Ll3 El3].
  set (l3 := if 32767 <? padd 16 (padd 16 ml ml) (padd 16 ml ml) then vsar oob 16 1 l2 else l2) in *. clearbody l3.
  rewrite (vshr_in oob 16 8 l3), land_65280 by (auto; lia).
  pose proof (hi8_ok _ Ll3) as Z1. rewrite join_mod, join_div by (auto; lia).
  rewrite El3, El2, El1, El, Eh3, Eh2, Eh1, Eh. rewrite !pick8hg by auto. reflexivity.
Qed.
Lemma shrs_sse_small a c : c < 8 -> shrs_sse a c = cpp_shr_signed 8 a c.
Proof. intros. unfold shrs_sse. destruct (Z.ltb_spec c 8); auto; lia. Qed.
Ltac two := apply chunk2; [intros; reflexivity|intros; reflexivity| |].
Lemma ch_shlv8_sse oob : chunked 2 8 (upto 32) (cpp_shl 8) (shlv8_sse oob).
Proof.
  two; intros; rewrite shlv8_sse_all; auto using reg2, even2.
Qed.
Lemma ch_shrv8u_sse oob : chunked 2 8 (upto 32) cpp_shr_unsigned (shrv8u_sse oob).
Proof.
  two; intros; rewrite shrv8u_sse_all; auto using reg2, even2.
Qed.
Lemma ch_shrv8s_sse41 oob : chunked 2 8 (upto 8) (cpp_shr_signed 8) (shrv8s_sse41 oob).
Proof.
  two; unfold upto; intros; rewrite shrv8s_sse41_pairg by auto; cbn [nth]; apply shrs_sse_small; lia.
Qed.
Lemma ch_shrv8s_sse2 oob : chunked 2 8 (upto 8) (cpp_shr_signed 8) (shrv8s_sse2 oob).
Proof.
  two; unfold upto; intros; rewrite shrv8s_sse2_pairg by auto; cbn [nth]; apply shrs_sse_small; lia.
Qed.

(* ---------------- two lanes at a time ------------------------------------- *)
Lemma ch_shlv16_avx2 oob : chunked 2 16 (upto 32) (cpp_shl 16) (shlv16_avx2 oob).
Proof.
  two; unfold upto.
  - intros a b c d Ha Hb Hc Hd Hg. unfold shlv16_avx2. cbn [join map map2 cut blend_aa nth].
    rewrite land_65535, join_mod by (auto; lia). rewrite vshl_in by lia. unfold cpp_shl.
    apply (lane_ext 16); try (apply lane_mod; lia). intros i Hi. tb; tb_close.
  - intros a b c d Ha Hb Hc Hd Hg Hg'. rewrite shlv16_avx2_spec; auto using reg2, count2, even2.
Qed.
Lemma ch_shlv16_sse oob : chunked 2 16 upto16e (cpp_shl 16) (shlv16_sse oob).
Proof.
  two; unfold upto16e.
  - intros a b c d Ha Hb Hc Hd [Hg _]. unfold shlv16_sse. cbn [map join map2 cut nth].
    assert (Ec : padd 16 127 c = c + 127) by (unfold padd; rewrite Z.mod_small; lia). rewrite Ec.
    rewrite !(vshl_in oob 32 23) by lia. set (D := padd 16 127 d).
    assert (E1 : ((c + 127 + 2 ^ 16 * D) * 2 ^ 23) mod 2 ^ 32 = (c + 127) * 2 ^ 23).
    { replace ((c + 127 + 2 ^ 16 * D) * 2 ^ 23) with ((c + 127) * 2 ^ 23 + (D * 2 ^ 7) * 2 ^ 32) by lia.
      rewrite Z_mod_plus_full. apply Z.mod_small. lia. }
    rewrite E1, cvttps_pow2 by auto. rewrite vshl_in by lia. unfold pmul, cpp_shl. rewrite lor_mod by lia.
    match goal with |- context [(?t * 2 ^ 16) mod 2 ^ 32] => generalize t end. intros t.
    assert (E0 : ((t * 2 ^ 16) mod 2 ^ 32) mod 2 ^ 16 = 0).
    { apply (lane_ext 16); [apply lane_mod; lia|unfold lane_ok; lia|]. intros i Hi. rewrite Z.bits_0. tb; tb_close. }
    rewrite E0, Z.lor_0_r. apply Z.mul_mod_idemp_r. lia.
  - intros a b c d Ha Hb Hc Hd [Hg He] [Hg' _]. specialize (He eq_refl).
    rewrite shlv16_sse_spec; auto using reg2, count2, even2. cbn. split; auto. split; [apply Hg|exact He].
Qed.
Lemma ch_shrv8u_64 : chunked 2 8 (upto 32) cpp_shr_unsigned shrv8u_64.
Proof.
  two; unfold upto.
  - intros a b c d Ha Hb Hc Hd Hg. unfold shrv8u_64. cbn [join map map2 cut blend_aa maskz_55 nth].
    rewrite !Z.mul_0_r, !Z.add_0_r. assert (lane_ok 16 a) by (destruct Ha; split; lia).
    rewrite psrl_spec by (first [lia|assumption]). apply Z.mod_small. apply (shru_ok 8); auto; lia.
  - intros a b c d Ha Hb Hc Hd Hg Hg'. rewrite shrv8u_64_spec; auto using reg2, count2, even2.
Qed.
Lemma half_SS n : (S (S n) / 2)%nat = S (n / 2).
Proof. replace (S (S n)) with (n + 1 * 2)%nat by lia. rewrite Nat.div_add by lia. lia. Qed.
Lemma ch_shrv8s_64 : chunked 2 8 (upto 32) (cpp_shr_signed 8) shrv8s_64.
Proof.
  apply chunk2; [| | |].
  - intros a b x c d y H. unfold shrv8s_64. cbn [length]. rewrite half_SS. reflexivity.
  - intros. reflexivity.
  - unfold upto. intros a b c d Ha Hb Hc Hd Hg. unfold shrv8s_64. cbn [length]. change (2 / 2)%nat with 1%nat.
    cbn [join map map2 cut blend_aa maskz_55 set1_16 nth].
    assert (Ec : padd 8 c 8 = c + 8) by (unfold padd; rewrite Z.mod_small; lia). rewrite Ec.
    rewrite !Z.mul_0_r, !Z.add_0_r. rewrite psll_in by lia.
    assert (La : lane_ok 16 (((a + 2 ^ 8 * b) * 2 ^ 8) mod 2 ^ 16)) by (apply lane_mod; lia).
    rewrite psra_spec by (auto; lia).
    apply (lane_ext 8); [apply lane_mod; lia|apply shrs_ok; lia|].
    intros i Hi. rewrite tb_mod, !tb_shrs by (auto; lia).
    destruct (Z.ltb_spec i 8), (Z.ltb_spec i 16); try lia; cbn [andb]. tb; tb_close.
  - unfold upto. intros a b c d Ha Hb Hc Hd Hg Hg'. rewrite shrv8s_64_spec; auto using reg2, count2, even2.
Qed.
Lemma ch_shrv16u_avx2 oob : chunked 2 16 (upto 32) cpp_shr_unsigned (shrv16u_avx2 oob).
Proof.
  two; unfold upto.
  - intros a b c d Ha Hb Hc Hd Hg. unfold shrv16u_avx2. cbn [join map map2 cut blend_aa nth].
    rewrite !land_65535, !join_mod by (auto; lia). rewrite vshr_in by lia.
    apply Z.mod_small. apply (lane_div 16); auto; lia.
  - intros a b c d Ha Hb Hc Hd Hg Hg'. rewrite shrv16u_avx2_spec; auto using reg2, count2, even2.
Qed.
Lemma ch_shrv16s_avx2 oob : chunked 2 16 (upto 32) (cpp_shr_signed 16) (shrv16s_avx2 oob).
Proof.
  two; unfold upto.
  - intros a b c d Ha Hb Hc Hd Hg. unfold shrv16s_avx2. cbn [join map map2 cut blend_aa nth].
    rewrite land_65535, join_mod by (auto; lia). rewrite vshl_in by lia.
    assert (L1 : lane_ok 32 (((a + 2 ^ 16 * b) * 2 ^ 16) mod 2 ^ 32)) by (apply lane_mod; lia).
    assert (V : forall k v, 0 <= k < 32 -> vsar oob 32 k v = cpp_shr_signed 32 v k) by (intros; apply vsar_in; lia).
    rewrite !V by lia. pose proof (shrs_ok 32 (((a + 2 ^ 16 * b) * 2 ^ 16) mod 2 ^ 32) c ltac:(lia)) as L3.
    apply (lane_ext 16); [| apply shrs_ok; lia|].
    + apply lane_mod; lia.
    + intros i Hi. rewrite tb_mod, !tb_shrs by (auto; lia).
      destruct (Z.ltb_spec i 16), (Z.ltb_spec i 32), (Z.ltb_spec (Z.min (i + 16) (32 - 1)) 32); try lia; cbn [andb]. tb; tb_close.
  - intros a b c d Ha Hb Hc Hd Hg Hg'. rewrite shrv16s_avx2_spec; auto using reg2, count2, even2.
Qed.

(* ---------------- AVX2, four bytes at a time ------------------------------ *)
Lemma tb_low8 v i : 0 <= i -> Z.testbit (v mod 2 ^ 8) i = (i <? 8) && Z.testbit v i.
Proof. intros. apply tb_mod; lia. Qed.
(* lane i of the word only needs the counts of the lanes up to i *)
Lemma shrv8_avx2_lane_bits sh sp oob a b c d a' b' c' d' i :
  top_byte_shift sh sp -> lane_ok 8 a -> lane_ok 8 b -> lane_ok 8 c -> lane_ok 8 d ->
  lane_ok 8 a' -> lane_ok 8 b' -> lane_ok 8 c' -> lane_ok 8 d' -> a' < 32 -> 0 <= i < 8 ->
  let r := shrv8_avx2_lane sh oob (a + 2 ^ 8 * b + 2 ^ 16 * (c + 2 ^ 8 * d)) (a' + 2 ^ 8 * b' + 2 ^ 16 * (c' + 2 ^ 8 * d')) in
  Z.testbit r i = Z.testbit (sp a a') i /\
  (b' < 32 -> Z.testbit r (i + 8) = Z.testbit (sp b b') i) /\
  (c' < 32 -> Z.testbit r (i + 16) = Z.testbit (sp c c') i) /\
  (d' < 32 -> Z.testbit r (i + 24) = Z.testbit (sp d d') i).
Proof.
  intros (Hok & Hsp & Hbit) Ha Hb Hc Hd Ha' Hb' Hc' Hd' Ga Hi r. unfold r, shrv8_avx2_lane. clear r. unfold lane_ok in Ha', Hb', Hc', Hd'.
  set (x := a + 2 ^ 8 * b + 2 ^ 16 * (c + 2 ^ 8 * d)). set (y := a' + 2 ^ 8 * b' + 2 ^ 16 * (c' + 2 ^ 8 * d')).
  assert (Hx : lane_ok 32 x) by (apply word_ok; auto).
  assert (Cd : vshr oob 32 24 y = d') by (rewrite vshr_in by lia; unfold y; symmetry; apply (Z.div_unique _ _ _ (a' + 2 ^ 8 * b' + 2 ^ 16 * c')); lia).
  assert (S : forall k e r q, 0 <= k < 32 -> 0 <= e < 256 -> y * 2 ^ k = q * 2 ^ 32 + e * 2 ^ 24 + r -> 0 <= r < 2 ^ 24 ->
    vshr oob 32 24 (vshl oob 32 k y) = e).
  { intros k e r q Hk He Hy Hr. rewrite vshl_in, vshr_in by lia. rewrite Hy.
    rewrite <- Z.add_assoc, Z.add_comm, Z_mod_plus_full. rewrite Z.mod_small by lia.
    symmetry. apply (Z.div_unique _ _ _ r); lia. }
  assert (Cc : vshr oob 32 24 (vshl oob 32 8 y) = c').
  { apply (S 8 c' ((a' + 2 ^ 8 * b') * 2 ^ 8) d'); unfold y; lia. }
  assert (Cb : vshr oob 32 24 (vshl oob 32 16 y) = b').
  { apply (S 16 b' (a' * 2 ^ 16) (c' + 2 ^ 8 * d')); unfold y; lia. }
  assert (Ca : vshr oob 32 24 (vshl oob 32 24 y) = a').
  { apply (S 24 a' 0 (b' + 2 ^ 8 * c' + 2 ^ 16 * d')); unfold y; lia. }
  rewrite Ca, Cb, Cc, Cd. clear Ca Cb Cc Cd S. clearbody y.
  assert (Lx : forall k, 0 <= k < 32 -> lane_ok 32 (vshl oob 32 k x)).
  { intros k Hk. rewrite vshl_in by lia. apply lane_mod; lia. }
  assert (Bd : d' < 32 -> Z.testbit (sh oob 32 d' x) (i + 24) = Z.testbit (sp d d') i).
  { intros Gd. apply Hbit; auto; [lia|]. intros j Hj. unfold x. tb; tb_close. }
  assert (Bc : c' < 32 -> Z.testbit (sh oob 32 c' (vshl oob 32 8 x)) (i + 24) = Z.testbit (sp c c') i).
  { intros Gc. apply Hbit; auto; [lia|apply Lx; lia|]. intros j Hj. rewrite vshl_in by lia. unfold x. tb; tb_close. }
  assert (Bb : b' < 32 -> Z.testbit (sh oob 32 b' (vshl oob 32 16 x)) (i + 24) = Z.testbit (sp b b') i).
  { intros Gb. apply Hbit; auto; [lia|apply Lx; lia|]. intros j Hj. rewrite vshl_in by lia. unfold x. tb; tb_close. }
  assert (Ba : Z.testbit (sh oob 32 a' (vshl oob 32 24 x)) (i + 24) = Z.testbit (sp a a') i).
  { apply Hbit; auto; [lia|apply Lx; lia|]. intros j Hj. rewrite vshl_in by lia. unfold x. tb; tb_close. }
  pose proof (Hok oob a' _ (conj (proj1 Ha') Ga) (Lx 24 ltac:(lia))) as La.
  set (vd := sh oob 32 d' x) in *. set (vc := sh oob 32 c' (vshl oob 32 8 x)) in *.
  set (vb := sh oob 32 b' (vshl oob 32 16 x)) in *. set (va := sh oob 32 a' (vshl oob 32 24 x)) in *.
  clearbody vd vc vb va. rewrite !vshr_in by lia.
  assert (T : forall j, 32 <= j -> Z.testbit va j = false) by (intros; apply (tb_small va 32); auto; lia).
  rewrite !Z.lor_spec, !tb_div, !Z.land_spec, !tb_top8 by lia.
  repeat match goal with |- context [?p <=? ?q] => destruct (Z.leb_spec p q); try lia end.
  repeat match goal with |- context [?p <? ?q] => destruct (Z.ltb_spec p q); try lia end.
  cbn [andb]. rewrite ?andb_false_r, ?andb_true_r, ?(T (i + 8 + 24)), ?(T (i + 16 + 24)), ?(T (i + 24 + 24)) by lia.
  cbn [orb]. rewrite ?orb_false_r.
  replace (i + 8 + 16) with (i + 24) by lia. replace (i + 16 + 8) with (i + 24) by lia. auto.
Qed.
Lemma ch_shrv8_avx2 sh sp oob : top_byte_shift sh sp ->
  chunked 4 8 (upto 32) sp (fun x y => as8 (map2 (shrv8_avx2_lane sh oob) (as32 x) (as32 y))).
Proof.
  intros Hs. split; [|split].
  - intros [|a [|b [|c [|d [|]]]]] [|a' [|b' [|c' [|d' [|]]]]] x2 y2 L1 L2 L3; try discriminate. reflexivity.
  - intros [|a [|b [|c [|d [|]]]]] [|a' [|b' [|c' [|d' [|]]]]] L1 L2; try discriminate. reflexivity.
  - intros [|a [|b [|c [|d [|]]]]] [|a' [|b' [|c' [|d' [|]]]]] i Hi L1 L2 Hx Hy Hg; try discriminate.
    lanes. unfold upto in Hg. pose proof (Hg 0%nat ltac:(lia)) as G0. cbn [nth] in G0.
    destruct (Nat.eqb_spec i 3) as [->|N3].
    { pose proof (Hg 1%nat ltac:(lia)) as G1. pose proof (Hg 2%nat ltac:(lia)) as G2. pose proof (Hg 3%nat ltac:(lia)) as G3.
      cbn [nth] in G1, G2, G3. rewrite (shrv8_avx2_spec sh sp); auto.
      - exists 1%nat. auto.
      - repeat (apply Forall_cons || apply Forall_nil); auto.
      - repeat (apply Forall_cons || apply Forall_nil); auto. }
    rewrite !as32_cons. cbn [map2]. rewrite as8_cons.
    assert (B : forall j, 0 <= j < 8 -> _) by (intros j Hj; exact (shrv8_avx2_lane_bits sh sp oob a b c d a' b' c' d' j Hs
      ltac:(auto) ltac:(auto) ltac:(auto) ltac:(auto) ltac:(auto) ltac:(auto) ltac:(auto) ltac:(auto) (proj2 G0) Hj)).
    cbv zeta in B. set (r := shrv8_avx2_lane _ _ _ _) in *. clearbody r. destruct Hs as (_ & Hsp & _).
    destruct i as [|[|[|i]]]; [| | |lia]; cbn [nth].
    + apply (lane_ext 8); [apply lane_mod; lia|apply Hsp; auto|]. intros j Hj. destruct (B j Hj) as (B0 & _). rewrite <- B0. tb; tb_close.
    + pose proof (Hg 1%nat ltac:(lia)) as G1. cbn [nth] in G1.
      apply (lane_ext 8); [|apply Hsp; auto|].
      * apply (hi8_ok (r mod 2 ^ 16)). apply lane_mod; lia.
      * intros j Hj. destruct (B j Hj) as (_ & B1 & _). rewrite <- B1 by lia. tb; tb_close.
    + pose proof (Hg 2%nat ltac:(lia)) as G2. cbn [nth] in G2.
      apply (lane_ext 8); [apply lane_mod; lia|apply Hsp; auto|]. intros j Hj. destruct (B j Hj) as (_ & _ & B2 & _). rewrite <- B2 by lia. tb; tb_close.
Qed.

(* ---------------- four lanes of 32 bits ----------------------------------- *)
(* x >> n, 32-bit lanes: the counts behind lane i do not matter *)
Definition four (F : list Z -> list Z -> list Z) (sh : Z -> Z -> Z) : Prop := forall x y n,
  length x = 4%nat -> length y = 4%nat -> reg_ok 32 x -> (n <= 4)%nat -> first_counts n 32 y -> first_lanes sh n x y (F x y).
Ltac four_lanes := intros x y n Lx Ly Hx Hn Hc i Hi;
  destruct x as [|x0 [|x1 [|x2 [|x3 [|]]]]]; try discriminate; destruct y as [|y0 [|y1 [|y2 [|y3 [|]]]]]; try discriminate;
  lanes; unfold first_counts in Hc;
  pose proof (Hc 0%nat) as C0; pose proof (Hc 1%nat) as C1; pose proof (Hc 2%nat) as C2; pose proof (Hc 3%nat) as C3; cbn [nth] in C0, C1, C2, C3; clear Hc.
Lemma factor1 oob c : 0 <= c < 32 -> cvttps ((1325400064 - vshl oob 32 23 c) mod 2 ^ 32) = 2 ^ (31 - c).
Proof.
  intros Hc. rewrite vshl_in by lia. rewrite (Z.mod_small (c * 2 ^ 23)) by lia.
  rewrite Z.mod_small by lia. replace (1325400064 - c * 2 ^ 23) with ((31 - c + 127) * 2 ^ 23) by lia.
  apply cvttps_pow2. lia.
Qed.
Lemma four_shrv32u_sse41 oob : four (shrv32u_sse41 oob) cpp_shr_unsigned.
Proof.
  four_lanes. unfold shrv32u_sse41, shrv32u_factor. cbn [map cut blend_aa].
  assert (O : forall a c, lane_ok 32 a -> 0 <= c < 32 -> psll 64 1 (a * 2 ^ (31 - c)) / 2 ^ 32 = a / 2 ^ c).
  { intros a c Ha Hc. rewrite psll_in by lia. pose proof (prod_ok a c Ha Hc) as P. unfold lane_ok in P. rewrite Z.mod_small by lia.
    rewrite <- Z.mul_assoc. replace (2 ^ (31 - c) * 2 ^ 1) with (2 ^ (32 - c)); [apply mul_pow_div; lia|].
    rewrite <- Z.pow_add_r by lia. f_equal. lia. }
  destruct i as [|[|[|[|i]]]]; [| | | |lia]; cbn [nth].
  - specialize (C0 ltac:(lia)). rewrite factor1, factor_even by auto. auto.
  - specialize (C1 ltac:(lia)). rewrite factor1, O by auto. auto.
  - specialize (C2 ltac:(lia)). rewrite factor1, factor_even by auto. auto.
  - specialize (C3 ltac:(lia)). rewrite factor1, O by auto. auto.
Qed.
Lemma four_shrv32u_sse2 oob : four (shrv32u_sse2 oob) cpp_shr_unsigned.
Proof.
  four_lanes. unfold shrv32u_sse2, shrv32u_factor. cbn [map cut map2 removelast].
  assert (O : forall a c, lane_ok 32 a -> 0 <= c < 32 -> psrl 64 31 (a * 2 ^ (31 - c)) / 2 ^ 32 = 0).
  { intros a c Ha Hc. unfold psrl. cbn [Z.ltb Z.compare Pos.compare Pos.compare_cont]. rewrite mul_pow_div by lia.
    apply Z.div_small. apply lane_div; auto; lia. }
  destruct i as [|[|[|[|i]]]]; [| | | |lia]; cbn [nth].
  - specialize (C0 ltac:(lia)). rewrite factor1, factor_even by auto. apply Z.lor_0_r.
  - specialize (C0 ltac:(lia)). specialize (C1 ltac:(lia)). rewrite !factor1, factor_even, O by auto. apply Z.lor_0_l.
  - specialize (C1 ltac:(lia)). specialize (C2 ltac:(lia)). rewrite !factor1, factor_even, O by auto. apply Z.lor_0_r.
  - specialize (C2 ltac:(lia)). specialize (C3 ltac:(lia)). rewrite !factor1, factor_even, O by auto. apply Z.lor_0_l.
Qed.
Lemma four_shrv32s_sse b : four (shrv32s_sse b) (cpp_shr_signed 32).
Proof.
  four_lanes. unfold shrv32s_sse, psra_all. cbn [map nth skipn firstn app].
  rewrite !Z.mul_0_r, !Z.add_0_r.
  destruct i as [|[|[|[|i]]]]; [| | | |lia]; destruct b; cbn [nth];
    [specialize (C0 ltac:(lia))|specialize (C0 ltac:(lia))|specialize (C1 ltac:(lia))|specialize (C1 ltac:(lia))
    |specialize (C2 ltac:(lia))|specialize (C2 ltac:(lia))|specialize (C3 ltac:(lia))|specialize (C3 ltac:(lia))];
    apply psra_spec; auto; lia.
Qed.
Lemma chunk_ok k w lim sh F m x y n : (0 < k)%nat -> chunked k w (upto lim) sh F ->
  register w (k * m) x -> register w (k * m) y -> (n <= k * m)%nat -> first_counts n lim y -> first_lanes sh n x y (F x y).
Proof.
  intros Hk Hch [Lx Hx] [Ly Hy] Hn Hc. rewrite Nat.mul_comm in Lx, Ly, Hn.
  apply (chunk_pad k w (upto lim) sh F Hk) with (m := m); auto.
Qed.
