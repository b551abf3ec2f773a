(* The result of fpclassify fits the storage of fixed_size<N> int on every
   target that has SSE2 whenever it has SSE. *)
From Coq Require Import ZArith List Bool Lia Arith.
From Verif Require Import Prelude BitMask Abi AbiSpec AbiProofs Fixed Targets ConvertCheck FloatSpec FloatBits FloatTop.
Import ListNotations.
Open Scope nat_scope.

(* sizeof(__to_intrin(x)) / sizeof(_Tp): simd.h 2066-2092 with 1875-2040; x86
   registers have at least 16 bytes *)
Definition intrin_lanes (I : isa) (t : elem) (a : abi) : nat :=
  let full := abi_full_size I t a in
  if have_sse I then Nat.max 16 (full * esize t) / esize t else full.
(* is_same_v<_SecondType::_FirstAbi, simd_abi::scalar>; helper for simd.h 2066-2092 *)
Definition second_scalar (s : shape) : bool :=
  match s with _ :: (1, 1) :: _ => true | _ => false end.
(* simd.h 2066-2092, 1875-2040 *)
Definition elem_fmt (t : elem) : fmt := match t with TDouble => binary64 | _ => binary32 end.

(* int_storage_ok as a computation; helper for simd.h 2066-2092 *)
Definition int_storage_okb (t : elem) (n lanes k : nat) (tail : bool) : bool :=
  (n <=? lanes) && ((k =? 1) || (k =? 2)) &&
  (if eis_double t then implb (k =? 2) ((n =? 2) && (lanes =? 2)) else implb ((k =? 2) && tail) (n =? S (Nat.div2 lanes))).
Lemma int_storage_okb_ok t n lanes k tail : t = TFloat \/ t = TDouble ->
  int_storage_okb t n lanes k tail = true -> int_storage_ok (elem_fmt t) n lanes k tail.
Proof.
  unfold int_storage_okb, int_storage_ok. intros Ht H.
  apply andb_true_iff in H as [H H3]. apply andb_true_iff in H as [H1 H2].
  apply Nat.leb_le in H1. apply orb_true_iff in H2. rewrite !Nat.eqb_eq in H2.
  split; [auto|]. split; [auto|].
  destruct Ht as [-> | ->]; simpl in *.
  - split; [left; reflexivity|]. intros -> -> _. simpl in H3. apply Nat.eqb_eq in H3. auto.
  - split; [right; split; [reflexivity|]|].
    + intros ->. simpl in H3. apply andb_true_iff in H3. rewrite !Nat.eqb_eq in H3. auto.
    + intros -> _ H. discriminate.
Qed.

(* simd.h 2066-2092, 1875-2040 *)
Definition storage_check (I : isa) (t : elem) (a : abi) : bool :=
  if abi_valid I t a then
    match storage_shape I (TInt 4) (abi_size t a) with
    | Some s => int_storage_okb t (abi_size t a) (intrin_lanes I t a) (length s) (second_scalar s)
    | None => false
    end
  else true.
(* simd.h 2066-2092, 1875-2040 *)
Definition storage_checks (I : isa) : bool :=
  if have_sse I && negb (have_sse2 I) then true else
  forallb (fun n => storage_check I TFloat (AVecBuiltin (4 * n)) && storage_check I TFloat (AVecBltnBtmsk (4 * n))
                    && storage_check I TDouble (AVecBuiltin (8 * n)) && storage_check I TDouble (AVecBltnBtmsk (8 * n))) (seq 0 17).
Lemma storage_checks_all : forallb storage_checks all_archs = true.
Proof. vm_cast_no_check (eq_refl true). Qed.

Lemma c33_storage I t a s : arch_ok I -> (have_sse I = true -> have_sse2 I = true) -> t = TFloat \/ t = TDouble ->
  vector_tag a -> abi_valid I t a = true -> storage_shape I (TInt 4) (abi_size t a) = Some s ->
  int_storage_ok (elem_fmt t) (abi_size t a) (intrin_lanes I t a) (length s) (second_scalar s).
Proof.
  intros HI Hs Ht Hv Ha E. apply int_storage_okb_ok; auto.
  pose proof (check_archs storage_checks storage_checks_all I HI) as C. unfold storage_checks in C.
  assert (Ns : have_sse I && negb (have_sse2 I) = false).
  { destruct (have_sse I); simpl; auto. rewrite Hs; auto. }
  rewrite Ns in C. rewrite forallb_forall in C.
  assert (K : storage_check I t a = true).
  { assert (He : elem_ok t) by (destruct Ht as [-> | ->]; exact Logic.I).
    assert (Hb : exists n, n <= 16 /\ (a = AVecBuiltin (esize t * n) \/ a = AVecBltnBtmsk (esize t * n))).
    { assert (Hm : forall b, 1 <= esize t -> b mod esize t = 0 -> b = esize t * (b / esize t)).
      { intros b H1 H0. pose proof (Nat.div_mod b (esize t) ltac:(lia)). lia. }
      assert (V : vectorized_sizeof I t <= 64).
      { unfold vectorized_sizeof. destruct Ht as [-> | ->]; simpl;
          repeat match goal with |- context [if ?b then _ else _] => destruct b end; lia. }
      assert (Hd : forall b, b <= 64 -> b / esize t <= 16).
      { intros b Hb. destruct Ht as [-> | ->]; simpl esize.
        - apply Nat.div_le_upper_bound; lia.
        - apply Nat.div_le_upper_bound; lia. }
      assert (Ez : 1 <= esize t) by (destruct Ht as [-> | ->]; simpl; lia).
      destruct a; simpl in Hv; try tauto; simpl in Ha; repeat rewrite andb_true_iff in Ha; rewrite ?Nat.leb_le, ?Nat.eqb_eq in Ha.
      - exists (bytes / esize t). split; [apply Hd; lia|]. left. f_equal. apply Hm; tauto.
      - exists (bytes / esize t). split; [apply Hd; lia|]. right. f_equal. apply Hm; tauto. }
    destruct Hb as (n & Hn & Hb). specialize (C n ltac:(apply in_seq; lia)).
    repeat rewrite andb_true_iff in C. destruct C as [[[C1 C2] C3] C4].
    destruct Ht as [-> | ->]; destruct Hb as [-> | ->]; auto. }
  unfold storage_check in K. rewrite Ha, E in K. auto.
Qed.
