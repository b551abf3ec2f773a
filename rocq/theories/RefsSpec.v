(* What code using element references must do, without any simd object: every
   element is a variable of its own.  A location names such a variable; a
   program is a list of statements over locations. *)
From Coq Require Import List Arith Bool.
Import ListNotations.

(* x[i] for the i-th element of the object number o, or an ordinary variable *)
Inductive loc := Elem (o i : nat) | Var (v : nat).

Definition loc_eqb (a b : loc) : bool :=
  match a, b with
  | Elem o i, Elem p j => (o =? p) && (i =? j)
  | Var v, Var w => v =? w
  | _, _ => false
  end.

(* values: elements of vectors, and elements of masks *)
Inductive val (A : Type) := Num (a : A) | Bool (b : bool).
Arguments Num {A}. Arguments Bool {A}.

Definition same_type {A} (u v : val A) : bool :=
  match u, v with Num _, Num _ => true | Bool _, Bool _ => true | _, _ => false end.

(* the right-hand side of an assignment: a value, or the value of a variable *)
Inductive arg (A : Type) := Lit (v : val A) | Load (l : loc).
Arguments Lit {A}. Arguments Load {A}.

(* The statements.  The functions are the scalar operations with the conversion
   of their result to the type of the left-hand side; [None] is undefined
   behaviour (or, for a conversion, one that does not exist). *)
Inductive stmt (A : Type) :=
| Assign (c : val A -> option (val A)) (l : loc) (a : arg A)              (* l = a *)
| OpAssign (f : val A -> val A -> option (val A)) (l : loc) (a : arg A)   (* l op= a *)
| PreStep (f : val A -> option (val A)) (l : loc)                         (* ++l, --l *)
| PostStep (f : val A -> option (val A)) (l : loc)                        (* l++, l-- *)
| Swap (l r : loc).                                                       (* swap(l, r) *)
Arguments Assign {A}. Arguments OpAssign {A}. Arguments PreStep {A}.
Arguments PostStep {A}. Arguments Swap {A}.

(* the value of the expression: a reference, a value or nothing *)
Inductive result (A : Type) := RRef (l : loc) | RVal (v : val A) | RVoid.
Arguments RRef {A}. Arguments RVal {A}. Arguments RVoid {A}.

(* independent variables, each with a value of its type *)
Definition vars (A : Type) := loc -> option (val A).

Definition assign {A} (s : vars A) (l : loc) (v : val A) : option (vars A) :=
  match s l with
  | Some old => if same_type old v
                then Some (fun k => if loc_eqb k l then Some v else s k) else None
  | None => None
  end.
Definition value_of {A} (s : vars A) (a : arg A) : option (val A) :=
  match a with Lit v => Some v | Load l => s l end.

Definition bind {A B} (x : option A) (f : A -> option B) : option B :=
  match x with Some a => f a | None => None end.
Definition ret {A} (r : result A) {S} (s : S) : option (S * result A) := Some (s, r).

(* one statement on independent variables *)
Definition exec {A} (s : vars A) (p : stmt A) : option (vars A * result A) :=
  match p with
  | Assign c l a =>
      bind (value_of s a) (fun x => bind (c x) (fun v => bind (assign s l v) (ret (RRef l))))
  | OpAssign f l a =>
      bind (s l) (fun x => bind (value_of s a) (fun y => bind (f x y) (fun v =>
      bind (assign s l v) (ret (RRef l)))))
  | PreStep f l =>
      bind (s l) (fun x => bind (f x) (fun v => bind (assign s l v) (ret (RRef l))))
  | PostStep f l =>
      bind (s l) (fun x => bind (f x) (fun v => bind (assign s l v) (ret (RVal x))))
  | Swap l r =>
      bind (s l) (fun x => bind (s r) (fun y =>
      bind (assign s l y) (fun s1 => bind (assign s1 r x) (ret RVoid))))
  end.

Fixpoint exec_all {A} (s : vars A) (p : list (stmt A)) : option (vars A * list (result A)) :=
  match p with
  | [] => Some (s, [])
  | c :: p => bind (exec s c) (fun sr => bind (exec_all (fst sr) p) (fun sl =>
              Some (fst sl, snd sr :: snd sl)))
  end.
