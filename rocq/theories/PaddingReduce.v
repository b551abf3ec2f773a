From Coq Require Import List Bool Arith Lia.
From Verif Require Import Prelude Abi AbiSpec AbiProofs Fixed FixedSpec Targets Profile FixedStorage FixedTop MemProofs Reduce ReduceSpec ReduceProofs.
Import ListNotations.

Section Local.
  Context {A : Type} (op : A -> A -> A) (F : nat -> list A -> list A -> list A) (HF : lanewise2 op F).
  Context (neon : bool) (full : nat -> nat) (es : nat) (Hfull : full_ok neon full es).
  Context (o : reduce_op A) (zero : A).

  (* whatever op is, the reduction looks at the first n lanes only *)
  Lemma reg_reduce_local : forall fuel n x x', 2 <= n -> length x = full n -> length x' = full n ->
    firstn n x = firstn n x' ->
    reg_reduce neon full es zero F o fuel n x = reg_reduce neon full es zero F o fuel n x'.
  Proof.
    induction fuel as [|fuel IH]; intros n x x' Hn Hx Hx' E; [reflexivity|].
    pose proof (fo_ge _ _ _ Hfull n) as Hge.
    destruct (Nat.eq_dec (full n) n) as [Ef|Ef].
    { rewrite !firstn_all2 in E by lia. subst x'. reflexivity. }
    cbn [reg_reduce]. cbv zeta.
    rewrite !(proj2 (Nat.eqb_neq _ _) Ef). cbn [negb]. rewrite andb_false_r.
    rewrite (proj2 (Nat.eqb_neq n 1)) by lia.
    set (b1 := if n =? 2 then _ else _). set (b2 := if n =? 2 then _ else _).
    assert (HB : b1 = b2).
    { subst b1 b2.
      destruct (Nat.eqb_spec n 2) as [->|E2].
      { destruct x as [|a [|b x]], x' as [|a' [|b' x']]; cbn in *; try lia. injection E as -> ->. reflexivity. }
      destruct (Nat.eqb_spec n 3) as [->|E3].
      { destruct x as [|a [|b [|c x]]], x' as [|a' [|b' [|c' x']]]; cbn in *; try lia. injection E as -> -> ->. reflexivity. }
      destruct o; [rewrite E; reflexivity..|].
      assert (Hnth : forall i, i < n -> nth_error x i = nth_error x' i).
      { intros i Hi. rewrite <- (firstn_skipn n x), <- (firstn_skipn n x'), E.
        rewrite !nth_error_app1 by (rewrite firstn_length; lia). reflexivity. }
      assert (Hfirst : forall m, m <= n -> firstn m x = firstn m x').
      { intros m Hm. rewrite <- (Nat.min_l m n), <- !firstn_firstn, E by auto. reflexivity. }
      destruct (n mod 2 =? 1) eqn:Eo.
      - pose proof (fo_mono _ _ _ Hfull (n - 1) n ltac:(lia)) as Hm.
        pose proof (fo_ge _ _ _ Hfull (n - 1)) as Hg.
        rewrite (Hnth (n - 1)) by lia.
        rewrite (IH (n - 1) (firstn (full (n - 1)) x) (firstn (full (n - 1)) x')); [reflexivity|lia|rewrite firstn_length; lia..|].
        rewrite !firstn_firstn, Nat.min_l by lia. apply Hfirst. lia.
      - apply Nat.eqb_neq in Eo. pose proof (Nat.mod_upper_bound n 2 ltac:(lia)) as Hm2.
        pose proof (Nat.div_mod n 2 ltac:(lia)) as Hdm.
        set (h := n / 2) in *. assert (Hnh : n = 2 * h) by lia. clearbody h.
        pose proof (fo_mono _ _ _ Hfull h n ltac:(lia)) as Hm.
        pose proof (fo_ge _ _ _ Hfull h) as Hgh.
        destruct (Nat.ltb_spec (full n) (full h)); [lia|].
        rewrite !permute_upper by lia.
        assert (Es : firstn h (skipn h x) = firstn h (skipn h x')).
        { rewrite !firstn_skipn_comm. replace (h + h) with n by lia. rewrite E. reflexivity. }
        rewrite Es. set (hi := firstn (full h) (firstn h (skipn h x') ++ repeat zero (full n - h))).
        assert (Hhi : length hi = full h).
        { unfold hi. rewrite firstn_length, app_length, repeat_length, firstn_length, skipn_length. lia. }
        rewrite !(F_full op F HF) by (auto; rewrite firstn_length; lia).
        apply IH; [lia|rewrite map2_length, firstn_length; lia..|].
        rewrite !firstn_map2, !firstn_firstn, !(Nat.min_l h (full h)) by lia.
        f_equal. apply Hfirst. lia. }
    destruct (neon && (1 <? n)) eqn:En; [|exact HB].
    apply andb_true_iff in En as [En _].
    assert (Hno : forall u, reduce_neon F n u = None).
    { intros u. unfold reduce_neon. rewrite !(proj2 (Nat.eqb_neq n _)); auto.
      all: intros ->; apply Ef; apply (fo_neon _ _ _ Hfull En); auto. }
    rewrite !Hno. exact HB.
  Qed.
End Local.

Lemma simd_reduce_local {A} I t op F o n zero (x x' : list A) : arch_ok I -> lanewise2 op F ->
  reg_type I t n (length x) -> length x' = length x -> firstn n x = firstn n x' ->
  simd_reduce I t zero F o n x = simd_reduce I t zero F o n x'.
Proof.
  intros HI HF [[-> Hx]|(Hn & Hes & Hx)] Hl E; unfold simd_reduce.
  - rewrite Nat.add_1_r. cbn [reg_reduce]. cbv zeta. rewrite andb_false_r. cbn [Nat.eqb].
    destruct x, x'; cbn in *; try lia. injection E as ->. reflexivity.
  - pose proof (vlanes_ok I t Hes (arch_neon I HI)) as Hok.
    apply (reg_reduce_local op F HF _ _ _ Hok); auto; congruence.
Qed.
