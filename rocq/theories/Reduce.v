(* Model of reductions and of min/max/minmax/clamp.
   /repo/experimental/bits/simd_builtin.h 1764-1916, simd_neon.h 88-134,
   simd_scalar.h 185-199, simd_fixed_size.h 1411-1508, simd.h 3440-3577.

   A register is the list of all its lanes (padding included).  The binary
   operation works on whole simd objects; F n a b is what it returns for
   objects with n elements held in the registers a and b. *)
From Coq Require Import List Arith Bool ZArith.
From Verif Require Import Prelude BitMask Abi Fixed.
Import ListNotations.

(* lanes of __vector_type_t<_Tp, _Np>: simd.h 1354-1370, _S_full_size *)
Definition vlanes (I : isa) (t : elem) (n : nat) : nat := vector_type_bytes I t n / esize t.

(* simd_builtin.h 54-63 (__vector_permute): index -1 (None) gives zero *)
Definition permute {A} (zero : A) (idx : list (option nat)) (x : list A) : option (list A) :=
  omapm (fun o => match o with None => Some zero | Some i => nth_error x i end) idx.
(* a permutation of lanes of a wider type: __vector_bitcast to elements of g
   lanes each, __vector_permute<idx...>, and back;
   helper for simd_builtin.h 1764-1916, simd_neon.h 88-134, simd_scalar.h 185-199, simd_fixed_size.h 1411-1508 *)
Definition permute_groups {A} (g : nat) (idx : list nat) (x : list A) : option (list A) :=
  option_map (@concat A)
    (omapm (fun i => if i * g + g <=? length x then Some (firstn g (skipn (i * g) x)) else None) idx).

(* what _S_reduce knows about the operation: plus<> (the padding is zeroed),
   multiplies<> (the padding is set to one), or anything else;
   helper for simd_builtin.h 1764-1916, simd_neon.h 88-134, simd_scalar.h 185-199, simd_fixed_size.h 1411-1508 *)
Inductive reduce_op (A : Type) := RPlus (zero : A) | RMultiplies (one : A) | ROther.
Arguments RPlus {A}. Arguments RMultiplies {A}. Arguments ROther {A}.

(* simd<_Tp, scalar>(a) op simd<_Tp, scalar>(b), element 0;
   helper for simd_builtin.h 1764-1916, simd_neon.h 88-134, simd_scalar.h 185-199, simd_fixed_size.h 1411-1508 *)
Definition op_scalar {A} (F : nat -> list A -> list A -> list A) (a b : A) : option A :=
  hd_error (F 1 [a] [b]).

(* simd_builtin.h 1869-1901: full registers of 16 bytes *)
Definition reduce16 {A} (F : nat -> list A -> list A -> list A) (n : nat) (x0 : list A)
  : option A :=
  let step (g : nat) (l r : list nat) (x : list A) :=
    match permute_groups g l x, permute_groups g r x with
    | Some a, Some b => Some (F n a b)
    | _, _ => None
    end in
  let x1 := if n =? 16
            then step 1 [0; 0; 1; 1; 2; 2; 3; 3; 4; 4; 5; 5; 6; 6; 7; 7]
                        [8; 8; 9; 9; 10; 10; 11; 11; 12; 12; 13; 13; 14; 14; 15; 15] x0
            else Some x0 in
  match x1 with
  | None => None
  | Some x1 =>
      let x2 := if 8 <=? n
                then step (n / 8) [0; 0; 1; 1; 2; 2; 3; 3] [4; 4; 5; 5; 6; 6; 7; 7] x1
                else Some x1 in
      match x2 with
      | None => None
      | Some x2 =>
          let x3 := if 4 <=? n
                    then match permute_groups (n / 4) [3; 2; 1; 0] x2 with
                         | Some b => Some (F n x2 b)
                         | None => None
                         end
                    else Some x2 in
          match x3 with
          | None => None
          | Some x3 =>
              match permute_groups (n / 2) [1; 1] x3 with
              | Some b => hd_error (F n x3 b)
              | None => None
              end
          end
      end
  end.

(* x op permuted x, one step of simd_neon.h 103-130 *)
Definition step1 {A} (F : nat -> list A -> list A -> list A) (n : nat) (idx : list nat) (x : list A)
  : option (list A) :=
  match permute_groups 1 idx x with Some b => Some (F n x b) | None => None end.

(* simd_neon.h 103-130; None: not one of these sizes *)
Definition reduce_neon {A} (F : nat -> list A -> list A -> list A) (n : nat) (x : list A)
  : option (option A) :=
  if n =? 8 then
    Some (match step1 F n [1; 0; 3; 2; 5; 4; 7; 6] x with
          | Some x1 =>
              match step1 F n [3; 2; 1; 0; 7; 6; 5; 4] x1 with
              | Some x2 =>
                  match step1 F n [7; 6; 5; 4; 3; 2; 1; 0] x2 with
                  | Some x3 => hd_error x3
                  | None => None
                  end
              | None => None
              end
          | None => None
          end)
  else if n =? 4 then
    Some (match step1 F n [1; 0; 3; 2] x with
          | Some x1 => match step1 F n [3; 2; 1; 0] x1 with
                       | Some x2 => hd_error x2
                       | None => None
                       end
          | None => None
          end)
  else if n =? 2 then
    Some (match step1 F n [1; 0] x with Some x1 => hd_error x1 | None => None end)
  else None.

(* simd_builtin.h 1787-1916 (_S_reduce_partial, _S_reduce) and, for NEON
   (neon = true), simd_neon.h 90-134.  full n: lanes of the register for n
   elements; es: sizeof(_Tp).  One step calls _S_reduce of another ABI with
   another number of elements.  None: fuel exhausted or ill-formed. *)
Fixpoint reg_reduce {A} (neon : bool) (full : nat -> nat) (es : nat) (zero : A)
    (F : nat -> list A -> list A -> list A) (o : reduce_op A) (fuel n : nat) (x : list A)
  : option A :=
  match fuel with
  | O => None
  | S fuel' =>
      let recurse := reg_reduce neon full es zero F o fuel' in
      let partial := negb (full n =? n) in
      let builtin (_ : unit) :=
        if n =? 1 then nth_error x 0                                   (* 1814 *)
        else if n =? 2 then                                            (* 1816 *)
          match x with a :: b :: _ => op_scalar F a b | _ => None end
        else if partial then
          if n =? 3 then                                               (* 1823 *)
            match x with
            | a :: b :: c :: _ =>
                match op_scalar F a b with Some ab => op_scalar F ab c | None => None end
            | _ => None
            end
          else match o with
          | RPlus z => recurse (full n) (firstn n x ++ repeat z (full n - n))        (* 1828 *)
          | RMultiplies e => recurse (full n) (firstn n x ++ repeat e (full n - n))  (* 1837 *)
          | ROther =>
              if n mod 2 =? 1 then                                     (* 1854 *)
                match recurse (n - 1) (firstn (full (n - 1)) x), nth_error x (n - 1) with
                | Some r, Some l => op_scalar F r l
                | _, _ => None
                end
              else                                                     (* 1787-1807 *)
                let h := n / 2 in
                if full n <? full h then None else                     (* 1794 *)
                match permute zero (map (fun i => Some (h + i)) (seq 0 h)
                                    ++ repeat None (full n - h)) x with
                | Some hi =>
                    recurse h (F (full h) (firstn (full h) x) (firstn (full h) hi))
                | None => None
                end
          end
        else if n * es =? 16 then reduce16 F n x                       (* 1869 *)
        else if n mod 2 =? 0 then                                      (* 1903-1915 *)
          recurse (n / 2) (F (n / 2) (firstn (n / 2) x) (skipn (n / 2) x))
        else None in
      if neon && (1 <? n) then
        if (n * es =? 16) && (4 <=? n) && negb partial then            (* simd_neon.h 94 *)
          recurse (n / 2) (F (n / 2) (firstn (n / 2) x) (skipn (n / 2) x))
        else match reduce_neon F n x with
             | Some r => r
             | None => builtin tt
             end
      else builtin tt
  end.

(* reduce(simd<_Tp, _Abi>, op) with one register (scalar: n = 1,
   simd_scalar.h 185-190): simd.h 3444-3448 *)
Definition simd_reduce {A} (I : isa) (t : elem) (zero : A)
    (F : nat -> list A -> list A -> list A) (o : reduce_op A) (n : nat) (x : list A) : option A :=
  reg_reduce (have_neon I) (vlanes I t) (esize t) zero F o (vlanes I t n + n + 1) n x.

(* simd_fixed_size.h 1451-1477: left op right for two neighbouring registers *)
Definition reduce_pair {A} (F : nat -> list A -> list A -> list A) (l r : chunk A) : chunk A :=
  if csize l =? csize r then Chunk (csize l) (F (csize l) (creg l) (creg r))
  else
    let k := map (fun j => j <? csize r) (seq 0 (length (creg l))) in
    let ext_right := map3 (fun (b : bool) u v => if b then u else v) k
                       (firstn (length (creg l)) (creg r ++ creg l)) (creg l) in
    Chunk (csize l) (map3 (fun (b : bool) u v => if b then u else v) k
                       (F (csize l) (creg l) ext_right) (creg l)).
(* simd_fixed_size.h 1451-1477 *)
Fixpoint reduce_pairs {A} (F : nat -> list A -> list A -> list A) (x : tuple A) : tuple A :=
  match x with
  | l :: r :: rest => reduce_pair F l r :: reduce_pairs F rest
  | _ => x
  end.

(* simd_fixed_size.h 1411-1483.  The result of the pairwise step is used as the
   data member of fixed_size_simd<_Tp, _Tup2::_S_size()>, so its type must be
   that storage.  Fuel: number of registers. *)
Fixpoint fs_reduce {A} (I : isa) (t : elem) (zero : A)
    (F : nat -> list A -> list A -> list A) (o : reduce_op A) (fuel : nat) (x : tuple A)
  : option A :=
  let one (c : chunk A) := simd_reduce I t zero F o (csize c) (creg c) in
  match fuel with
  | O => None
  | S fuel' =>
      let pairwise (_ : unit) :=
        match reduce_pairs F x with
        | [c] => one c
        | x2 => match storage_shape I t (ssize (tshape x2)) with
                | Some s => if shape_eqb s (tshape x2)
                            then fs_reduce I t zero F o fuel' x2 else None
                | None => None
                end
        end in
      match x with
      | [c] => one c
      | [c; d] =>
          if (2 <? ssize (tshape x)) && (csize d =? 1) then
            match one c, nth_error (creg d) 0 with
            | Some a, Some b => op_scalar F a b
            | _, _ => None
            end
          else if (4 <? ssize (tshape x)) && (csize d =? 2) then
            match one c, one d with
            | Some a, Some b => op_scalar F a b
            | _, _ => None
            end
          else pairwise tt
      | _ => pairwise tt
      end
  end.

(* simd.h 3450-3462: reduce(where(k, x), identity, op); masked_assign is
   _Impl::_S_masked_assign, none_of the mask reduction, red the unmasked reduce *)
Definition where_reduce {V M A} (none_of : M -> bool) (broadcast : A -> V)
    (masked_assign : M -> V -> V -> V) (red : V -> option A) (k : M) (x : V) (identity : A)
  : option A :=
  if none_of k then Some identity
  else red (masked_assign k (broadcast identity) x).

(* simd.h 3503-3543: hmin / hmax of a where expression; id_elem is
   __finite_max_v / __finite_min_v (GCC always defines __FINITE_MATH_ONLY__, as
   0 or 1, so #ifdef takes the first branch) *)
Definition where_hminmax {V M A} (broadcast : A -> V) (masked_assign : M -> V -> V -> V)
    (red : V -> option A) (k : M) (x : V) (id_elem : A) : option A :=
  red (masked_assign k (broadcast id_elem) x).

(* simd_builtin.h 1414-1418: broadcast into a register of l lanes *)
Definition reg_broadcast {A} (l : nat) (a : A) : list A := repeat a l.
(* simd_builtin.h 2455-2466 (_S_masked_assign), 1364-1371 and simd_x86.h 763-836
   (_S_blend): per lane *)
Definition reg_masked_assign {A} (k : list bool) (lhs rhs : list A) : list A :=
  map3 (fun (b : bool) r l => if b then r else l) k rhs lhs.

(* ------------------------------------------------------------------ *)
(* min, max, minmax, clamp; lt is operator< on elements (NaN: Rounding is not
   involved, lt a b = false whenever one of them is NaN) *)

(* simd_builtin.h 1765-1769: _S_min: vector ?: on all lanes *)
Definition reg_min {A} (lt : A -> A -> bool) (a b : list A) : list A :=
  map2 (fun x y => if lt x y then x else y) a b.
(* simd_builtin.h 1771-1775: _S_max (a > b is lt b a) *)
Definition reg_max {A} (lt : A -> A -> bool) (a b : list A) : list A :=
  map2 (fun x y => if lt y x then x else y) a b.
(* simd_builtin.h 1777-1784: _S_minmax *)
Definition reg_minmax {A} (lt : A -> A -> bool) (a b : list A) : list A * list A :=
  (map2 (fun x y => if lt x y then x else y) a b,
   map2 (fun x y => if lt x y then y else x) a b).

(* simd_scalar.h 191-199: std::min, std::max of the elements *)
Definition scalar_min {A} (lt : A -> A -> bool) (a b : A) : A := if lt b a then b else a.
(* simd_scalar.h 191-199 *)
Definition scalar_max {A} (lt : A -> A -> bool) (a b : A) : A := if lt a b then b else a.

(* the register-level functions used per chunk: one lane is the scalar ABI;
   helper for simd_builtin.h 1764-1916, simd_neon.h 88-134, simd_scalar.h 185-199, simd_fixed_size.h 1411-1508 *)
Definition impl_min {A} (lt : A -> A -> bool) (n : nat) (a b : list A) : list A :=
  match a, b with
  | [x], [y] => [scalar_min lt x y]
  | _, _ => reg_min lt a b
  end.
(* simd_scalar.h 191-199 *)
Definition impl_max {A} (lt : A -> A -> bool) (n : nat) (a b : list A) : list A :=
  match a, b with
  | [x], [y] => [scalar_max lt x y]
  | _, _ => reg_max lt a b
  end.
(* simd.h 3569-3577: clamp *)
Definition impl_clamp {A} (lt : A -> A -> bool) (n : nat) (v lo hi : list A) : list A :=
  impl_min lt n hi (impl_max lt n lo v).

(* simd_fixed_size.h 1485-1508: chunk-wise *)
Definition fs_min {A} (lt : A -> A -> bool) (a b : tuple A) : tuple A :=
  apply_per_chunk (fun n x ys => match ys with y :: _ => impl_min lt n x y | [] => x end) a [b].
(* simd_fixed_size.h 1485-1508 *)
Definition fs_max {A} (lt : A -> A -> bool) (a b : tuple A) : tuple A :=
  apply_per_chunk (fun n x ys => match ys with y :: _ => impl_max lt n x y | [] => x end) a [b].
(* simd_fixed_size.h 1485-1508 *)
Definition fs_clamp {A} (lt : A -> A -> bool) (v lo hi : tuple A) : tuple A :=
  fs_min lt hi (fs_max lt lo v).
