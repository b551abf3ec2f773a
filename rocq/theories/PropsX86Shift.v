(* Shift operators on x86 (C24-C29, C47) and PowerPC (C48).  A lane is the
   unsigned value of its representation; register, count_vector, every_lane and
   the meaning of a shift of one element (cpp_shl, ...) are in X86ShiftSpec.
   oob is the value of a GCC vector shift whose count is not less than the lane
   width: a theorem for all oob holds whatever the compiler makes of it. *)
From Coq Require Import ZArith List Bool Lia.
From Verif Require Import Prelude X86Lanes X86Bits X86Shift X86ShiftSpec X86ShiftProofs X86ShiftVProofs PpcShift PpcShiftProofs.
Import ListNotations.
Open Scope Z_scope.

Lemma even_reg {A} (x : list A) m : length x = (2 * m)%nat -> even_len x.
Proof. intros H. exists m. auto. Qed.
Lemma quad_reg {A} (x : list A) m : length x = (4 * m)%nat -> quad_len x.
Proof. intros H. exists m. auto. Qed.

Ltac sp := match goal with |- _ /\ _ => split; [|sp] | _ => idtac end.
Ltac regs := repeat match goal with |- register _ _ _ => split; [reflexivity|] | |- count_vector _ _ => split; [reflexivity|]
  | |- Forall _ [] => constructor | |- Forall _ (_ :: _) => constructor; [lia|] end.
Ltac byn l := apply map_every; apply l; auto; lia.
Ltac byv l := apply map2_every; [apply l; auto; lia|congruence].

(* ===================== C24 ============================================ *)
(* x << n, 8-bit lanes: constant n, SSE2, AVX2, AVX-512BW *)
Theorem C24_shl8 : forall oob n x m, 0 <= n < 32 -> register 8 (4 * m) x ->
  every_lane_by (cpp_shl 8) x n (shl8_const oob (length x) n x) /\
  every_lane_by (cpp_shl 8) x n (shl8_sse n x) /\
  every_lane_by (cpp_shl 8) x n (shl8_avx2 n x) /\
  every_lane_by (cpp_shl 8) x n (shl8_avx512 n x).
Proof.
  intros oob n x m Hn [Hl Hx]. pose proof (quad_reg x m Hl) as Hq. pose proof (quad_even x Hq) as He.
  sp; [byn shl8_const_spec|byn shl8_sse_spec|byn shl8_avx2_spec|byn shl8_avx512_spec].
Qed.
Print Assumptions C24_shl8.
(* constant n, a register of two bytes *)
Theorem C24_shl8_two_bytes : forall oob n x, 0 <= n < 32 -> register 8 2 x ->
  every_lane_by (cpp_shl 8) x n (shl8_const oob 2 n x).
Proof. intros oob n x Hn [Hl Hx]. byn shl8_const_spec. Qed.
Print Assumptions C24_shl8_two_bytes.
(* x >> n, unsigned *)
Theorem C24_shr8_unsigned : forall oob n x m, 0 <= n < 32 -> register 8 (2 * m) x ->
  every_lane_by cpp_shr_unsigned x n (shr8u oob n x).
Proof. intros oob n x m Hn [Hl Hx]. pose proof (even_reg x m Hl). byn shr8u_spec. Qed.
Print Assumptions C24_shr8_unsigned.
(* x >> n, signed.  Missing: for n >= 8 the code shifts short lanes by n and
   n + 8 bits, and only a compiler that turns this into the saturating psraw
   instruction (oob = psra) gives the right result *)
Theorem C24_shr8_signed_partial : forall oob n x m, 0 <= n < 32 -> n < 8 \/ oob = psra -> register 8 (2 * m) x ->
  every_lane_by (cpp_shr_signed 8) x n (shr8s oob n x).
Proof. intros oob n x m Hn Ho [Hl Hx]. pose proof (even_reg x m Hl). byn shr8s_gen. Qed.
Print Assumptions C24_shr8_signed_partial.
(* whatever the count 8..31, some meaning of the undefined shift is wrong *)
Theorem C24_shr8_signed_refuted : forall n, 8 <= n < 32 -> exists oob x,
  register 8 2 x /\ ~ every_lane_by (cpp_shr_signed 8) x n (shr8s oob n x).
Proof.
  intros n Hn. exists (fun _ _ _ => 1), [0; 0]. split.
  - regs.
  - intros [_ H]. specialize (H 1%nat ltac:(cbn; lia)). revert H. assert (C : 0 <= n < 32) by lia.
    cases32 n; try lia; cbn; discriminate.
Qed.
Print Assumptions C24_shr8_signed_refuted.
Example C24_nonvacuous : register 8 (4 * 1) [200; 255; 128; 1] /\
  shl8_sse 3 [200; 255; 128; 1] = [64; 248; 0; 8] /\ shl8_avx2 3 [200; 255; 128; 1] = [64; 248; 0; 8] /\
  shl8_const (fun _ _ _ => 0) 4 3 [200; 255; 128; 1] = [64; 248; 0; 8] /\
  shr8u (fun _ _ _ => 0) 3 [200; 255; 128; 1] = [25; 31; 16; 0] /\
  shr8s psra 3 [200; 255; 128; 1] = [249; 255; 240; 0] /\ shr8s psra 9 [200; 255; 128; 1] = [255; 255; 255; 0].
Proof. split; [regs|]. repeat split; reflexivity. Qed.

(* ===================== C25 ============================================ *)
(* Missing for counts 32 and more: the code shifts int lanes by 32 bits, or by
   n = 32 bits, which only the saturating psrad instruction gets right *)
Theorem C25_shr64_signed_partial : forall oob n x m, 0 <= n < 64 -> n < 32 \/ oob = psra -> register 64 m x ->
  every_lane_by (cpp_shr_signed 64) x n (shr64s oob n x).
Proof. intros oob n x m Hn Ho [Hl Hx]. byn shr64s_gen. Qed.
Print Assumptions C25_shr64_signed_partial.
Theorem C25_shr64_signed_refuted : forall n, 32 <= n < 64 -> exists oob x,
  register 64 1 x /\ ~ every_lane_by (cpp_shr_signed 64) x n (shr64s oob n x).
Proof.
  intros n Hn. exists (fun _ _ _ => 1), [0]. split.
  - regs.
  - intros [_ H]. specialize (H 0%nat ltac:(cbn; lia)). revert H.
    assert (C : 0 <= n - 32 < 32) by lia. remember (n - 32) as k eqn:E. assert (n = k + 32) by lia. subst n. clear E Hn.
    cases32 k; cbn; discriminate.
Qed.
Print Assumptions C25_shr64_signed_refuted.
Example C25_nonvacuous : register 64 2 [2 ^ 64 - 5; 7 * 2 ^ 40] /\
  shr64s psra 1 [2 ^ 64 - 5; 7 * 2 ^ 40] = [2 ^ 64 - 3; 7 * 2 ^ 39] /\
  shr64s psra 40 [2 ^ 64 - 5; 7 * 2 ^ 40] = [2 ^ 64 - 1; 7].
Proof. split; [regs|]. split; reflexivity. Qed.

(* ===================== C26 ============================================ *)
Theorem C26_shlv : forall oob x y m,
  (register 8 (2 * m) x -> count_vector (2 * m) y ->
     every_lane (cpp_shl 8) x y (shlv8_sse oob x y) /\ every_lane (cpp_shl 8) x y (shlv8_avx512 x y)) /\
  (register 16 (2 * m) x -> count_vector (2 * m) y ->
     every_lane (cpp_shl 16) x y (shlv16_avx2 oob x y) /\ every_lane (cpp_shl 16) x y (shlv16_avx512 x y)) /\
  (register 32 m x -> count_vector m y -> every_lane (cpp_shl 32) x y (shlv32_sse oob x y)).
Proof.
  intros oob x y m. split; [|split].
  - intros [Hl Hx] [Hl' Hy]. pose proof (even_reg x m Hl). assert (length y = length x) by congruence.
    sp; [byv shlv8_sse_spec|byv shlv8_avx512_spec].
  - intros [Hl Hx] [Hl' Hy]. pose proof (even_reg x m Hl). assert (length y = length x) by congruence.
    sp; [byv shlv16_avx2_spec|byv shlv16_avx512_spec].
  - intros [Hl Hx] [Hl' Hy]. assert (length y = length x) by congruence. byv shlv32_sse_spec.
Qed.
Print Assumptions C26_shlv.
Example C26_nonvacuous : register 8 (2 * 2) [3; 255; 1; 129] /\ count_vector (2 * 2) [7; 1; 31; 4] /\
  shlv8_sse (fun _ _ _ => 77) [3; 255; 1; 129] [7; 1; 31; 4] = [128; 254; 0; 16] /\
  shlv16_avx2 (fun _ _ _ => 77) [3; 65535] [15; 31] = [32768; 0] /\
  shlv32_sse (fun _ _ _ => 77) [3; 5] [31; 30] = [2 ^ 31; 2 ^ 30].
Proof.
  split; [regs|]. split; [regs|].
  repeat split; reflexivity.
Qed.

(* ===================== C27 ============================================ *)
(* unsigned elements *)
Theorem C27_shrv_unsigned : forall oob x y m,
  (register 8 (2 * m) x -> count_vector (2 * m) y ->
     every_lane cpp_shr_unsigned x y (shrv8u_sse oob x y) /\
     every_lane cpp_shr_unsigned x y (shrv8u_64 x y) /\
     every_lane cpp_shr_unsigned x y (shrv8u_avx512 x y)) /\
  (register 8 (4 * m) x -> count_vector (4 * m) y -> every_lane cpp_shr_unsigned x y (shrv8u_avx2 oob x y)) /\
  (register 16 (2 * m) x -> count_vector (2 * m) y ->
     every_lane cpp_shr_unsigned x y (shrv16_sse2 vshr oob x y) /\
     every_lane cpp_shr_unsigned x y (shrv16_sse41 vshr oob x y) /\
     every_lane cpp_shr_unsigned x y (shrv16u_avx2 oob x y) /\
     every_lane cpp_shr_unsigned x y (shrv16u_avx512 x y)) /\
  (register 32 4 x -> count_vector 4 y ->
     every_lane cpp_shr_unsigned x y (shrv32u_sse41 oob x y) /\
     every_lane cpp_shr_unsigned x y (shrv32u_sse2 oob x y)).
Proof.
  intros oob x y m.
  assert (U : forall x y : list Z, reg_ok 16 x -> counts y -> length y = length x -> map2 (cut16 cpp_shr_unsigned) x y = map2 cpp_shr_unsigned x y).
  { clear. intros x y Hx. revert y. induction Hx as [|a x Ha Hx IH]; intros [|c y] Hy Hl; try discriminate; auto.
    inversion_clear Hy. injection Hl as Hl. cbn [map2]. rewrite IH by auto. f_equal. unfold cut16.
    destruct (Z.ltb_spec c 16); auto. symmetry. apply (shru_big 16); auto; lia. }
  split; [|split; [|split]].
  - intros [Hl Hx] [Hl' Hy]. pose proof (even_reg x m Hl). assert (length y = length x) by congruence.
    sp; [byv shrv8u_sse_spec|byv shrv8u_64_spec|byv shrv8u_avx512_spec].
  - intros [Hl Hx] [Hl' Hy]. pose proof (quad_reg x m Hl). assert (length y = length x) by congruence.
    apply map2_every; auto. apply shrv8_avx2_spec; auto. apply top_byte_vshr.
  - intros [Hl Hx] [Hl' Hy]. pose proof (even_reg x m Hl). assert (length y = length x) by congruence.
    sp; try (apply map2_every; auto; rewrite <- U by auto).
    + apply shrv16_sse2_spec; auto. apply shift16_shr.
    + apply shrv16_sse41_spec; auto. apply shift16_shr.
    + rewrite U by auto. apply shrv16u_avx2_spec; auto.
    + rewrite U by auto. apply shrv16u_avx512_spec; auto.
  - intros [Hl Hx] [Hl' Hy]. sp; [byv shrv32u_sse41_spec|byv shrv32u_sse2_spec].
Qed.
Print Assumptions C27_shrv_unsigned.
(* signed elements with AVX2 or AVX-512BW *)
Theorem C27_shrv_signed_avx2 : forall oob x y m,
  (register 8 (4 * m) x -> count_vector (4 * m) y ->
     every_lane (cpp_shr_signed 8) x y (shrv8s_avx2 oob x y) /\
     every_lane (cpp_shr_signed 8) x y (shrv8s_64 x y) /\
     every_lane (cpp_shr_signed 8) x y (shrv8s_avx512 x y)) /\
  (register 16 (2 * m) x -> count_vector (2 * m) y ->
     every_lane (cpp_shr_signed 16) x y (shrv16s_avx2 oob x y) /\
     every_lane (cpp_shr_signed 16) x y (shrv16s_avx512 x y)).
Proof.
  intros oob x y m. split.
  - intros [Hl Hx] [Hl' Hy]. pose proof (quad_reg x m Hl) as Hq. pose proof (quad_even x Hq).
    assert (length y = length x) by congruence. sp; [|byv shrv8s_64_spec|byv shrv8s_avx512_spec].
    apply map2_every; auto. apply shrv8_avx2_spec; auto. apply top_byte_vsar.
  - intros [Hl Hx] [Hl' Hy]. pose proof (even_reg x m Hl). assert (length y = length x) by congruence.
    sp; [byv shrv16s_avx2_spec|byv shrv16s_avx512_spec].
Qed.
Print Assumptions C27_shrv_signed_avx2.
Definition oob7 : oob_t := fun _ _ _ => 7.
Example C27_nonvacuous : register 8 (4 * 1) [200; 255; 128; 127] /\ count_vector (4 * 1) [3; 31; 7; 0] /\
  shrv8u_sse oob7 [200; 255; 128; 127] [3; 31; 7; 0] = [25; 0; 1; 127] /\
  shrv8u_avx2 oob7 [200; 255; 128; 127] [3; 31; 7; 0] = [25; 0; 1; 127] /\
  shrv8s_avx2 oob7 [200; 255; 128; 127] [3; 31; 7; 0] = [249; 255; 255; 127] /\
  shrv8s_64 [200; 255; 128; 127] [3; 31; 7; 0] = [249; 255; 255; 127] /\
  shrv16_sse2 vshr oob7 [40000; 65535] [3; 17] = [5000; 0] /\
  shrv16s_avx2 oob7 [40000; 65535] [3; 17] = [62344; 65535] /\
  shrv32u_sse2 oob7 [2 ^ 32 - 1; 2 ^ 31; 12; 5] [0; 31; 2; 1] = [2 ^ 32 - 1; 1; 3; 2].
Proof.
  split; [regs|]. split; [regs|].
  repeat split; reflexivity.
Qed.

(* ===================== C28 ============================================ *)
(* lane 1 changes with the count of lane 0 *)
Theorem C28_shlv16_sse_refuted : forall oob, exists x y,
  register 16 2 x /\ count_vector 2 y /\ ~ every_lane (cpp_shl 16) x y (shlv16_sse oob x y) /\
  exists y', nth 1 y' 0 = nth 1 y 0 /\ count_vector 2 y' /\ nth 1 (shlv16_sse oob x y') 0 <> nth 1 (shlv16_sse oob x y) 0.
Proof.
  intros oob. exists [1; 1], [16; 3].
  split; [regs|]. split; [regs|].
  assert (P : forall c d, 0 <= c < 32 -> 0 <= d < 32 -> shlv16_sse oob [1; 1] [c; d] = [cpp_shl 16 1 c; leak 1 1 c d]).
  { intros c d Hc Hd. rewrite shlv16_sse_pair by auto. reflexivity. }
  rewrite P by lia. split.
  - intros [_ H]. specialize (H 1%nat ltac:(cbn; lia)). cbn in H. discriminate.
  - exists [0; 3]. split; auto. split; [regs|]. rewrite P by lia. cbn. discriminate.
Qed.
Print Assumptions C28_shlv16_sse_refuted.
(* Missing: counts 16..31 in lanes 0, 2, 4, ...; they spill into the next lane *)
Theorem C28_shlv16_sse_partial : forall oob x y m, register 16 (2 * m) x -> count_vector (2 * m) y ->
  (forall i, (2 * i < length y)%nat -> nth (2 * i) y 0 < 16) ->
  every_lane (cpp_shl 16) x y (shlv16_sse oob x y).
Proof.
  intros oob x y m [Hl Hx] [Hl' Hy] He. assert (length y = length x) by congruence.
  apply map2_every; auto. apply shlv16_sse_spec; auto; [apply (even_reg x m); auto|].
  clear - Hl' Hy He. revert m y Hl' Hy He. induction m as [|m IH]; intros y Hl Hy He.
  - destruct y; [exact I|discriminate].
  - destruct y as [|c [|d y]]; cbn [length] in Hl; try lia. inversion_clear Hy as [|? ? H1 H2]. inversion_clear H2 as [|? ? H3 H4].
    split.
    + specialize (He 0%nat ltac:(cbn; lia)). cbn in He. lia.
    + apply IH; auto; [lia|]. intros i Hi. specialize (He (S i) ltac:(cbn; lia)).
      replace (2 * S i)%nat with (S (S (2 * i))) in He by lia. exact He.
Qed.
Print Assumptions C28_shlv16_sse_partial.
Example C28_nonvacuous : register 16 (2 * 1) [3; 5] /\ count_vector (2 * 1) [15; 31] /\
  (forall i, (2 * i < length [15; 31])%nat -> nth (2 * i) [15; 31] 0 < 16) /\
  shlv16_sse oob7 [3; 5] [15; 2] = [32768; 20] /\ shlv16_sse oob7 [3; 5] [15; 31] = [32768; 0].
Proof.
  split; [regs|]. split; [regs|].
  split; [|split; reflexivity]. intros i Hi. cbn in Hi. assert (i = 0)%nat as -> by lia. reflexivity.
Qed.

(* ===================== C29 ============================================ *)
(* Missing: counts of 8 (16) and more, where the code returns 0 *)
Theorem C29_shrv_signed_sse_partial : forall oob x y m,
  (register 8 (2 * m) x -> count_vector (2 * m) y -> Forall (fun c => c < 8) y ->
     every_lane (cpp_shr_signed 8) x y (shrv8s_sse41 oob x y) /\
     every_lane (cpp_shr_signed 8) x y (shrv8s_sse2 oob x y)) /\
  (register 16 m x -> count_vector m y -> Forall (fun c => c < 16) y ->
     every_lane (cpp_shr_signed 16) x y (shrv16_sse41 vsar oob x y) /\
     every_lane (cpp_shr_signed 16) x y (shrv16_sse2 vsar oob x y)).
Proof.
  intros oob x y m.
  assert (E : forall (f g : Z -> Z -> Z) N (x y : list Z), (forall a c, c < N -> f a c = g a c) -> Forall (fun c => c < N) y -> map2 f x y = map2 g x y).
  { clear. intros f g N x y H Hy. revert x. induction Hy; intros [|a x']; auto. cbn [map2]. rewrite H, IHHy; auto. }
  assert (E8 : forall a c, c < 8 -> shrs_sse a c = cpp_shr_signed 8 a c) by (intros a c Hc; unfold shrs_sse; destruct (Z.ltb_spec c 8); auto; lia).
  assert (E16 : forall a c, c < 16 -> cut16 (cpp_shr_signed 16) a c = cpp_shr_signed 16 a c) by (intros a c Hc; unfold cut16; destruct (Z.ltb_spec c 16); auto; lia).
  split; intros [Hl Hx] [Hl' Hy] Hc; assert (length y = length x) by congruence.
  - pose proof (even_reg x m Hl). split; apply map2_every; auto; rewrite <- (E _ _ 8 x y E8 Hc);
      [apply shrv8s_sse41_spec|apply shrv8s_sse2_spec]; auto.
  - split; apply map2_every; auto; rewrite <- (E _ _ 16 x y E16 Hc);
      [apply shrv16_sse41_spec|apply shrv16_sse2_spec]; auto; apply shift16_sar.
Qed.
Print Assumptions C29_shrv_signed_sse_partial.
(* every count 8..31 (16..31) is wrong in every lane with a negative element *)
Theorem C29_shrv_signed_sse_refuted : forall oob x y m i,
  (register 8 (2 * m) x -> count_vector (2 * m) y -> (i < 2 * m)%nat -> 8 <= nth i y 0 -> sgn 8 (nth i x 0) < 0 ->
     nth i (shrv8s_sse41 oob x y) 0 = 0 /\ nth i (shrv8s_sse2 oob x y) 0 = 0 /\
     cpp_shr_signed 8 (nth i x 0) (nth i y 0) = 255) /\
  (register 16 m x -> count_vector m y -> (i < m)%nat -> 16 <= nth i y 0 -> sgn 16 (nth i x 0) < 0 ->
     nth i (shrv16_sse41 vsar oob x y) 0 = 0 /\ nth i (shrv16_sse2 vsar oob x y) 0 = 0 /\
     cpp_shr_signed 16 (nth i x 0) (nth i y 0) = 65535).
Proof.
  intros oob x y m i.
  assert (S : forall w a c, 0 < w -> lane_ok w a -> w <= c -> sgn w a < 0 -> cpp_shr_signed w a c = 2 ^ w - 1).
  { intros w a c Hw Ha Hc Hs. rewrite <- psra_spec by (auto; lia). unfold psra. destruct (Z.ltb_spec c w); [lia|].
    unfold sgn in Hs. destruct (Z.ltb_spec a (2 ^ (w - 1))), (Z.leb_spec (2 ^ (w - 1)) a); auto; try lia. destruct Ha; lia. }
  split; intros [Hl Hx] [Hl' Hy] Hi Hc Hs; assert (length y = length x) by congruence.
  - pose proof (even_reg x m Hl). assert (Ha : lane_ok 8 (nth i x 0)) by (apply (Forall_forall (lane_ok 8) x); auto; apply nth_In; lia).
    rewrite shrv8s_sse41_spec, shrv8s_sse2_spec by auto.
    rewrite (map2_nth shrs_sse x y i 0 0 0) by lia. rewrite (S 8) by (auto; lia). unfold shrs_sse.
    destruct (Z.ltb_spec (nth i y 0) 8); [lia|]. auto.
  - assert (Ha : lane_ok 16 (nth i x 0)) by (apply (Forall_forall (lane_ok 16) x); auto; apply nth_In; lia).
    rewrite (shrv16_sse41_spec vsar (cpp_shr_signed 16)), (shrv16_sse2_spec vsar (cpp_shr_signed 16)) by (auto using shift16_sar).
    rewrite (map2_nth (cut16 (cpp_shr_signed 16)) x y i 0 0 0) by lia. rewrite (S 16) by (auto; lia). unfold cut16.
    destruct (Z.ltb_spec (nth i y 0) 16); [lia|]. auto.
Qed.
Print Assumptions C29_shrv_signed_sse_refuted.
Example C29_nonvacuous : register 8 (2 * 1) [200; 100] /\ count_vector (2 * 1) [3; 8] /\
  shrv8s_sse41 oob7 [200; 100] [3; 7] = [249; 0] /\ shrv8s_sse2 oob7 [200; 100] [3; 7] = [249; 0] /\
  shrv16_sse41 vsar oob7 [40000; 100] [3; 4] = [62344; 6] /\
  (* -56 >> 8 is -1, but the vector shift gives 0 *)
  sgn 8 200 = -56 /\ cpp_shr_signed 8 200 8 = 255 /\ shrv8s_sse2 oob7 [200; 100] [8; 8] = [0; 0].
Proof.
  split; [regs|]. split; [regs|].
  repeat split; reflexivity.
Qed.

(* ===================== C47 ============================================ *)
Theorem C47_wide_shifts_sse :
  (forall sse41 x y, register 32 4 x -> count_vector 4 y -> every_lane (cpp_shr_signed 32) x y (shrv32s_sse sse41 x y)) /\
  (forall x y, register 64 2 x -> length y = 2%nat -> Forall (fun c => 0 <= c < 64) y ->
     every_lane (cpp_shl 64) x y (shlv64_sse x y)).
Proof.
  split.
  - intros b x y [Hl Hx] [Hl' Hy]. byv shrv32s_sse_spec.
  - intros x y [Hl Hx] Hl' Hy. destruct x as [|x0 [|x1 [|]]]; try discriminate. destruct y as [|y0 [|y1 [|]]]; try discriminate.
    apply map2_every; auto. apply shlv64_sse_spec.
Qed.
Print Assumptions C47_wide_shifts_sse.
Example C47_nonvacuous : register 32 4 [2 ^ 31; 5; 2 ^ 32 - 1; 1000] /\ count_vector 4 [31; 1; 7; 3] /\
  shrv32s_sse false [2 ^ 31; 5; 2 ^ 32 - 1; 1000] [31; 1; 7; 3] = [2 ^ 32 - 1; 2; 2 ^ 32 - 1; 125] /\
  shrv32s_sse true [2 ^ 31; 5; 2 ^ 32 - 1; 1000] [31; 1; 7; 3] = [2 ^ 32 - 1; 2; 2 ^ 32 - 1; 125] /\
  register 64 2 [5; 7] /\ shlv64_sse [5; 7] [63; 2] = [2 ^ 63; 28].
Proof.
  split; [regs|]. split; [regs|].
  split; [reflexivity|]. split; [reflexivity|]. split; [regs|reflexivity].
Qed.

(* ===================== C48 ============================================ *)
(* w = 8, 16, 32 or 64; the count is less than the width of the promoted type *)
Theorem C48_ppc_shifts : forall oob w x y n, 0 < w -> register w (length y) x ->
  Forall (fun c => 0 <= c < Z.max w 32) y -> 0 <= n < Z.max w 32 ->
  every_lane (cpp_shl w) x y (ppc_shlv oob w x y) /\
  every_lane cpp_shr_unsigned x y (ppc_shrv false oob w x y) /\
  every_lane (cpp_shr_signed w) x y (ppc_shrv true oob w x y) /\
  every_lane_by (cpp_shl w) x n (ppc_shl oob w x n) /\
  every_lane_by cpp_shr_unsigned x n (ppc_shr false oob w x n) /\
  every_lane_by (cpp_shr_signed w) x n (ppc_shr true oob w x n).
Proof.
  intros oob w x y n Hw [Hl Hx] Hy Hn. assert (length y = length x) by congruence.
  sp; [byv ppc_shlv_spec|byv ppc_shrvu_spec|byv ppc_shrvs_spec|byn ppc_shl_spec|byn ppc_shru_spec|byn ppc_shrs_spec].
Qed.
Print Assumptions C48_ppc_shifts.
(* what the instructions do: the count is taken modulo the width *)
Definition oob_ppc : oob_t := fun w k a => uns w (sgn w a / 2 ^ (k mod w)).
Example C48_nonvacuous : register 8 2 [200; 100] /\ Forall (fun c => 0 <= c < Z.max 8 32) [8; 31] /\
  ppc_shlv oob_ppc 8 [200; 100] [8; 1] = [0; 200] /\ ppc_shrv false oob_ppc 8 [200; 100] [8; 1] = [0; 50] /\
  ppc_shrv true oob_ppc 8 [200; 100] [31; 1] = [255; 50] /\ ppc_shr true oob_ppc 8 [200; 100] 12 = [255; 0].
Proof.
  split; [regs|]. split; [regs|]. repeat split; reflexivity.
Qed.
