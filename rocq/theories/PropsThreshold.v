(* C64: the numeric traits that are computed. *)
From Coq Require Import ZArith Bool Lia.
From Verif Require Import ScalarSpec FloatSpec FloatRoundSpec LdexpSpec NarrowSpec Narrow Threshold ThresholdSpec ThresholdProofs ThresholdDigits.
Local Open Scope Z_scope.

(* The search ends, after at most as many steps as the format has digits, and
   returns the smallest number whose reciprocal does not overflow. *)
Theorem C64_reciprocal_overflow_threshold : forall f, wide_fmt f -> forall fuel, (Z.to_nat (fp f) <= fuel)%nat ->
  exists z t, reciprocal_overflow_threshold f fuel = Some z /\ pattern f z /\ decode f z = DFin false t /\ is_threshold f t.
Proof.
  intros f Hw fuel Hn. destruct (threshold_value f Hw fuel Hn) as (z & A & B & C).
  exists z. eexists. split; [exact A|]. split; [exact B|]. split; [exact C|]. exact (threshold_right f Hw).
Qed.
Print Assumptions C64_reciprocal_overflow_threshold.
(* there is no other such number *)
Theorem C64_unique : forall f t t', fmt_ok f -> is_threshold f t -> is_threshold f t' -> t = t'.
Proof. exact threshold_unique. Qed.
Print Assumptions C64_unique.

(* integers: finite_min and finite_max are the bounds of the type *)
Theorem C64_integer_range : forall l t v, std_type t ->
  has t v <-> finite_min l (AInt t) <= v <= finite_max l (AInt t).
Proof. exact integer_range. Qed.
Print Assumptions C64_integer_range.
Theorem C64_digits10 : forall l t, std_type t -> is_digits10 (has t) (digits10 (digits l (AInt t))).
Proof. exact digits10_ok. Qed.
Print Assumptions C64_digits10.
Theorem C64_max_digits10 : forall l t, std_type t -> is_max_digits10 (has t) (max_digits10 false (digits l (AInt t))).
Proof. exact max_digits10_ok. Qed.
Print Assumptions C64_max_digits10.
(* floating point: that many decimal digits tell all numbers apart, and with one
   digit less there are not more decimal numbers than binary ones in a power *)
Theorem C64_max_digits10_float : forall f, fmt_ok f -> fp f <= 128 ->
  differentiates f (max_digits10 true (fp f)) /\ 10 ^ (max_digits10 true (fp f) - 2) <= 2 ^ fp f.
Proof. exact float_max_digits10_ok. Qed.
Print Assumptions C64_max_digits10_float.

(* bool counts as an integer of eight digits *)
Theorem C64_bool_refuted : forall l, ~ is_digits10 bool_value (digits10 (digits l ABool)).
Proof. exact bool_digits10. Qed.
Print Assumptions C64_bool_refuted.

Example C64_ex_formats : wide_fmt binary16 /\ wide_fmt binary32 /\ wide_fmt binary64 /\ wide_fmt binary128.
Proof. repeat split; vm_compute; congruence. Qed.
(* binary16: 257 units of 2^-24 *)
Example C64_ex_binary16 : reciprocal_overflow_threshold binary16 11 = Some 257.
Proof. vm_compute. reflexivity. Qed.
Example C64_ex_threshold : is_threshold binary16 257 /\ ~ is_threshold binary16 256.
Proof.
  assert (T : is_threshold binary16 257) by (apply (threshold_right binary16); exact (proj1 C64_ex_formats)).
  split; [exact T|]. intros T'. pose proof (threshold_unique binary16 256 257 (proj1 (proj1 C64_ex_formats)) T' T). discriminate.
Qed.
Example C64_ex_short : digits10 15 = 4 /\ max_digits10 false 15 = 5 /\ max_digits10 true 24 = 9 /\ max_digits10 true 53 = 17.
Proof. vm_compute. auto. Qed.
(* eight digits are not enough for binary32: 2^24 - 2 and 2^24 - 1 units *)
Example C64_ex_eight : ~ differentiates binary32 8.
Proof.
  intros D. assert (F : forall v, 2 ^ 23 <= v < 2 ^ 24 -> finite_number binary32 v).
  { intros v Hv. pose proof (shifted_number binary32 (proj1 (proj2 C64_ex_formats)) v 0) as S. change (mb binary32) with 23 in S. change (bias binary32) with 127 in S.
    rewrite Z.mul_1_r in S. apply S; lia. }
  assert (W : forall m, Z.abs (m * 2 - 33554429) <= 1 -> written m 10000000 33554429 20000000) by (intros m Hm; unfold written; lia).
  assert (F1 : finite_number binary32 16777214) by (apply F; lia). assert (F2 : finite_number binary32 16777215) by (apply F; lia).
  assert (E : 16777214 = 16777215); [|discriminate].
  apply (D 16777214 16777215 F1 F2 10000000 33554429 20000000); [lia|lia|lia|apply W; lia|apply W; lia].
Qed.
