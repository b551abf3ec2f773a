(* Symbolic evaluation of the vector expressions of XConv.v, byte by byte, and
   the finite check of all conversions built on it (used by XConvProofs.v). *)
From Coq Require Import List ZArith Bool Arith.
From Verif Require Import Prelude XConv.
Import ListNotations.
Local Open Scope nat_scope.

(* zero; unknown; byte k of source element i; sign of a byte; byte k of the
   result of an operation on a lane; byte k of a float sum *)
Inductive sb :=
| BZ
| BU
| BArg (i k : nat)
| BSgn (b : sb)
| BOp (o : lop) (l : list sb) (k : nat)
| BSum (f : nat) (a b : list sb) (k : nat).

Definition ety_eqb (a b : ety) : bool :=
  match a, b with
  | EI w s, EI v r => (w =? v) && eqb s r
  | EF w, EF v => w =? v
  | _, _ => false
  end.
Definition lop_eqb (a b : lop) : bool :=
  match a, b with
  | OCast t u, OCast v w => ety_eqb t v && ety_eqb u w
  | OOf w s f, OOf w' s' f' => (w =? w') && eqb s s' && (f =? f')
  | OTo f w s, OTo f' w' s' => (f =? f') && (w =? w') && eqb s s'
  | OFF f g, OFF f' g' => (f =? f') && (g =? g')
  | OFloor f, OFloor f' => f =? f'
  | OMul f c, OMul f' c' | OAdd f c, OAdd f' c' | OSub f c, OSub f' c' => (f =? f') && (c =? c')%Z
  | OXor c, OXor c' => (c =? c')%Z
  | _, _ => false
  end.
Fixpoint sb_eqb (a b : sb) {struct a} : bool :=
  let fix go (l m : list sb) {struct l} : bool :=
    match l, m with
    | [], [] => true
    | x :: r, y :: q => if sb_eqb x y then go r q else false
    | _, _ => false
    end in
  match a, b with
  | BZ, BZ => true
  | BArg i k, BArg j h => if k =? h then i =? j else false
  | BSgn x, BSgn y => sb_eqb x y
  | BOp o l k, BOp p m h => if k =? h then if lop_eqb o p then go l m else false else false
  | BSum f l1 l2 k, BSum g m1 m2 h =>
      if k =? h then if f =? g then if go l1 m1 then go l2 m2 else false else false else false
  | _, _ => false
  end.
Fixpoint sbs_eqb (l m : list sb) : bool :=
  match l, m with
  | [], [] => true
  | x :: r, y :: q => if sb_eqb x y then sbs_eqb r q else false
  | _, _ => false
  end.

Definition is_bu (b : sb) : bool := match b with BU => true | _ => false end.
Definition is_bz (b : sb) : bool := match b with BZ => true | _ => false end.
Definition asgn (b : sb) : sb := match b with BZ => BZ | BU => BU | BSgn c => BSgn c | _ => BSgn b end.
Definition aor (a b : sb) : sb := match a, b with BZ, x => x | x, BZ => x | _, _ => BU end.
Definition aadd (w : nat) (x y : list sb) : list sb :=
  if forallb is_bz x && negb (existsb is_bu y) then y
  else if forallb is_bz y && negb (existsb is_bu x) then x else repeat BU w.
Definition aop (o : lop) (wo : nat) (x : list sb) : list sb :=
  if existsb is_bu x then repeat BU wo else map (BOp o x) (seq 0 wo).
Definition asum (f : nat) (x y : list sb) : list sb :=
  if existsb is_bu x || existsb is_bu y then repeat BU f else map (BSum f x y) (seq 0 f).

(* nargs registers of N elements of ts bytes *)
Fixpoint aeval (nargs N ts : nat) (e : cexp) : list sb :=
  match e with
  | CArg k =>
      if k <? nargs then flat_map (fun i => map (BArg (k * N + i)) (seq 0 ts)) (seq 0 N) else []
  | CCat a b => aeval nargs N ts a ++ aeval nargs N ts b
  | CPerm s a =>
      let r := aeval nargs N ts a in
      map (fun i => match i with
                    | P n => nth n r BU
                    | Z0 => BZ
                    | Sg n => asgn (nth n r BU)
                    | Un => BU
                    end) s
  | COr a b => map2 aor (aeval nargs N ts a) (aeval nargs N ts b)
  | CAdd w a b => concat (map2 (aadd w) (lanes w (aeval nargs N ts a)) (lanes w (aeval nargs N ts b)))
  | CLane o wi wo a => flat_map (aop o wo) (lanes wi (aeval nargs N ts a))
  | CFAdd f a b => concat (map2 (asum f) (lanes f (aeval nargs N ts a)) (lanes f (aeval nargs N ts b)))
  end.

(* ------------------------------------------------------------------ *)
(* The byte sequences that are the conversion of element j *)
Definition src (w j : nat) : list sb := map (BArg j) (seq 0 w).
Definition widen (w : nat) (sg : bool) (v j : nat) : list sb :=
  firstn v (src w j ++ repeat (if sg then BSgn (BArg j (w - 1)) else BZ) (v - w)).
Definition op (o : lop) (wo : nat) (x : list sb) : list sb := map (BOp o x) (seq 0 wo).
Definition sum (f : nat) (x y : list sb) : list sb := map (BSum f x y) (seq 0 f).

Definition good_templates (t u : ety) (j : nat) : list (list sb) :=
  match t, u with
  | EI w s, EI v _ =>
      [widen w s v j; op (OCast t u) v (src w j)]
      ++ (if w <=? 2 then [op (OCast (EI 4 true) u) v (widen w s 4 j)] else [])
  | EI w s, EF f =>
      [op (OCast t u) f (src w j); op (OOf w s f) f (src w j)]
      ++ (if w <=? 2 then [op (OOf 4 true f) f (widen w s 4 j); op (OCast (EI 4 true) u) f (widen w s 4 j);
                           op (OCast (EI 4 true) u) f (op (OCast t (EI 4 true)) 4 (src w j));
                           op (OOf 4 true f) f (op (OCast t (EI 4 true)) 4 (src w j))] else [])
      ++ (if (w =? 8) && (f =? 8) then
            [sum 8 (op (OMul 8 two32) 8 (op (OOf 4 s 8) 8 (map (BArg j) (seq 4 4))))
                   (op (OOf 4 false 8) 8 (map (BArg j) (seq 0 4)))]
          else if (w =? 4) && negb s && (f =? 4) then
            [sum 4 (op (OMul 4 two16) 4 (op (OOf 4 true 4) 4 [BArg j 2; BArg j 3; BZ; BZ]))
                   (op (OOf 4 true 4) 4 [BArg j 0; BArg j 1; BZ; BZ])]
          else if (w =? 4) && negb s && (f =? 8) then
            [op (OAdd 8 two31) 8 (op (OOf 4 true 8) 8 (op (OXor two31) 4 (src 4 j)))]
          else [])
  | EF f, EI v s =>
      [op (OCast t u) v (src f j); op (OTo f v s) v (src f j)]
      ++ (if v <=? 2 then
            flat_map (fun x => [firstn v x; op (OCast (EI 4 true) u) v x])
              [op (OCast t (EI 4 true)) 4 (src f j); op (OTo f 4 true) 4 (src f j)]
          else [])
      ++ (if (f =? 8) && (v =? 4) && negb s then
            [op (OXor two31) 4 (op (OTo 8 4 true) 4 (op (OSub 8 two31) 8 (op (OFloor 8) 8 (src 8 j))))]
          else [])
  | EF f, EF g =>
      (if f =? g then [src f j] else []) ++ [op (OCast t u) g (src f j); op (OFF f g) g (src f j)]
  end.

Definition elem_check (t u : ety) (r : list sb) (j : nat) : bool :=
  let l := lane (esize u) r j in existsb (sbs_eqb l) (good_templates t u j).
Definition exp_check (t : ety) (N : nat) (u : ety) (M k : nat) (e : cexp) : bool :=
  let r := aeval k N (esize t) e in
  if length r =? M * esize u then forallb (elem_check t u r) (seq 0 (k * N)) else false.
Definition opt_check (t : ety) (N : nat) (u : ety) (M k : nat) (o : option cexp) : bool :=
  match o with Some e => exp_check t N u M k e | None => false end.
