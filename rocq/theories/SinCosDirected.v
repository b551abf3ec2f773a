(* sin with another rounding mode than to nearest: __fold_input rounds the quotient
   to an integer in the mode of the thread, so that the rest is not between
   -pi / 4 and pi / 4, and the series are used far from where they are accurate. *)
From Coq Require Import ZArith Reals Lra Lia List Bool.
From Verif Require Import FloatSpec FloatRoundSpec FloatBits FloatArith SinCosNearSpec SinCos SinCosTaylor SinCosInt.
Import ListNotations.
Open Scope R_scope.

Lemma far f s m X S D k : IZR S / IZR D <= X -> (0 < D)%Z -> (0 <= k)%Z -> (0 < one f)%Z ->
  (num s m * D * 2 ^ k + one f * D <? S * one f * 2 ^ k)%Z = true -> ~ close f (DFin s m) X (/ IZR (2 ^ k)).
Proof.
  intros HX HD Hk HO C H. apply Z.ltb_lt in C. unfold close, real in H.
  pose proof (Rabs_def2) as _. assert (L : X - IZR (num s m) / IZR (one f) <= / IZR (2 ^ k)).
  { revert H. unfold Rabs. destruct (Rcase_abs _); lra. }
  assert (PD : 0 < IZR D) by (apply IZR_lt; auto). assert (PO : 0 < IZR (one f)) by (apply IZR_lt; auto).
  assert (PK : 0 < IZR (2 ^ k)) by (apply IZR_lt; apply Z.pow_pos_nonneg; lia).
  apply IZR_lt in C. rewrite plus_IZR, !mult_IZR in C.
  set (n := IZR (num s m)) in *. set (o := IZR (one f)) in *. set (d := IZR D) in *. set (t := IZR (2 ^ k)) in *. set (u := IZR S) in *.
  clearbody n o d t u.
  assert (E : u / d - n / o <= / t) by lra.
  apply (Rmult_le_compat_r (d * o * t)) in E; [|apply Rlt_le; repeat apply Rmult_lt_0_compat; auto].
  replace ((u / d - n / o) * (d * o * t)) with (u * o * t - n * d * t) in E by (field; lra).
  replace (/ t * (d * o * t)) with (o * d) in E by (field; lra). lra.
Qed.
Ltac facts := repeat match goal with |- context [zfact ?n] => let v := eval vm_compute in (zfact n) in change (zfact n) with v end.
Lemma Rabs_le_between x e : Rabs x <= e -> - e <= x <= e.
Proof. unfold Rabs. destruct (Rcase_abs x); lra. Qed.
Ltac taylor a :=
  pose proof (sin_taylor a 3 ltac:(lra)) as T; change (2 * (3 + 1))%nat with 8%nat in T; change (2 * 3 + 3)%nat with 9%nat in T;
  cbn [sum_f_R0] in T; rewrite !sin_term_val in T; revert T; cbn [Nat.mul Nat.add]; facts; cbn [pow]; intros T;
  apply Rabs_le_between in T; lra.
Lemma sin_3_2 : 9974949866040 / 10000000000000 <= sin (3 / 2).
Proof. taylor (3 / 2). Qed.
Lemma sin_13_8 : 9985313405398 / 10000000000000 <= sin (13 / 8).
Proof. taylor (13 / 8). Qed.

Lemma real_frac f m a b : (0 < b)%Z -> (0 < one f)%Z -> (m * b =? a * one f)%Z = true -> real f false m = IZR a / IZR b.
Proof.
  intros Hb Ho E. apply Z.eqb_eq in E. apply (f_equal IZR) in E. rewrite !mult_IZR in E. unfold real. cbn [num].
  apply IZR_lt in Hb. apply IZR_lt in Ho. apply (Rmult_eq_reg_r (IZR (one f) * IZR b)); [|apply Rgt_not_eq, Rmult_lt_0_compat; auto].
  replace (IZR m / IZR (one f) * (IZR (one f) * IZR b)) with (IZR m * IZR b) by (field; lra).
  replace (IZR a / IZR b * (IZR (one f) * IZR b)) with (IZR a * IZR (one f)) by (field; lra). auto.
Qed.
(* x is a / b, and the result r is less than S / D - 2^-k *)
Definition off (f : fmt) (k S D a b x r : Z) : bool :=
  match decode f x, decode f r with
  | DFin false m, DFin s n => ((m * b =? a * one f) && (m <? 2 ^ 31 * one f) && (num s n * D * 2 ^ k + one f * D <? S * one f * 2 ^ k))%Z
  | _, _ => false
  end.
Lemma off_ok f k S D a b x r : (0 < one f)%Z -> (0 < b)%Z -> (0 < D)%Z -> (0 <= k)%Z -> IZR S / IZR D <= sin (IZR a / IZR b) ->
  off f k S D a b x r = true -> ~ closely f sin (/ IZR (2 ^ k)) [x] [r].
Proof.
  intros Ho Hb HD Hk HS C H. inversion_clear H as [|? ? ? ? H1 _]. unfold off in C.
  destruct (decode f x) as [| |[|] m] eqn:Ex; try discriminate. destruct (decode f r) as [| |s n]; try discriminate.
  apply andb_prop in C. destruct C as [C C3]. apply andb_prop in C. destruct C as [C1 C2].
  specialize (H1 false m eq_refl). cbn [less] in H1. apply Z.ltb_lt in C2. specialize (H1 C2).
  rewrite (real_frac f m a b Hb Ho C1) in H1. exact (far f s n _ S D k HS HD Hk Ho C3 H1).
Qed.
Definition arg (md : rmode) (f : fmt) : Z := match md with Upward => lit f false 13 (-3) | _ => lit f false 3 (-1) end.
Lemma any_ub md ub : sin_reg64 unfused ub md [arg md binary64] = sin_reg64 unfused (fun _ => 0%Z) md [arg md binary64].
Proof.
  pose proof (defined_sin64 unfused ub (fun _ => 0%Z) md [arg md binary64] 0%nat ltac:(cbn; lia) ltac:(destruct md; vm_compute; auto)) as E.
  pose proof (sin64_length unfused ub md [arg md binary64]) as L1. pose proof (sin64_length unfused (fun _ => 0%Z) md [arg md binary64]) as L2.
  destruct (sin_reg64 unfused ub md _) as [|a [|]]; try discriminate. destruct (sin_reg64 unfused (fun _ => 0%Z) md _) as [|b [|]]; try discriminate.
  cbn [nth] in E. congruence.
Qed.
Lemma directed64 md ub : md <> ToNearest -> ~ closely binary64 sin (/ IZR (2 ^ 40)) [arg md binary64] (sin_reg64 unfused ub md [arg md binary64]).
Proof.
  intros Hm. assert (O1 : (0 < one binary64)%Z) by reflexivity. rewrite any_ub.
  destruct md; try congruence;
    match goal with |- ~ closely _ _ _ _ ?r => let v := eval vm_compute in r in let E := fresh in assert (E : r = v) by (vm_cast_no_check (@eq_refl (list Z) v)); rewrite E; clear E end; cbn [arg].
  - apply (off_ok binary64 40 9974949866040 10000000000000 3 2); [exact O1|lia|lia|lia|exact sin_3_2|vm_compute; reflexivity].
  - apply (off_ok binary64 40 9985313405398 10000000000000 13 8); [exact O1|lia|lia|lia|exact sin_13_8|vm_compute; reflexivity].
  - apply (off_ok binary64 40 9974949866040 10000000000000 3 2); [exact O1|lia|lia|lia|exact sin_3_2|vm_compute; reflexivity].
Qed.
Lemma directed32 md ub : md <> ToNearest -> ~ closely binary32 sin (/ IZR (2 ^ 14)) [arg md binary32] (sin_reg32 unfused ub md [1%nat] [arg md binary32]).
Proof.
  intros Hm. assert (O1 : (0 < one binary32)%Z) by reflexivity.
  destruct md; try congruence;
    match goal with |- ~ closely _ _ _ _ ?r => let v := eval vm_compute in r in let E := fresh in assert (E : r = v) by (vm_cast_no_check (@eq_refl (list Z) v)); rewrite E; clear E end; cbn [arg].
  - apply (off_ok binary32 14 9974949866040 10000000000000 3 2); [exact O1|lia|lia|lia|exact sin_3_2|vm_compute; reflexivity].
  - apply (off_ok binary32 14 9985313405398 10000000000000 13 8); [exact O1|lia|lia|lia|exact sin_13_8|vm_compute; reflexivity].
  - apply (off_ok binary32 14 9974949866040 10000000000000 3 2); [exact O1|lia|lia|lia|exact sin_3_2|vm_compute; reflexivity].
Qed.
Lemma arg_pattern md : pattern binary64 (arg md binary64) /\ pattern binary32 (arg md binary32).
Proof. destruct md; split; split; vm_compute; congruence. Qed.
