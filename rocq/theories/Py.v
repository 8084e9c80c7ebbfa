(* Python building blocks used by the model: exceptions as values, zip-like maps,
   range, itertools.product, sets compared by a user-defined __eq__, dictionaries
   with integer keys. *)
From Coq Require Export List ZArith Lia Bool Arith.
Export ListNotations.

(* The exceptions the modelled code can raise.  OutOfFuel is not a Python
   exception: it marks a [while] loop that ran longer than the fuel given. *)
Inductive exn :=
| AssertionError | KeyError | IndexError | StopIteration | RuntimeError
| NotImplementedError | ValueError | UnexpectedMessage | UserException | StructError
| TypeError | OutOfFuel.

Inductive res (A : Type) :=
| Ok (a : A)
| Err (e : exn).
Arguments Ok {A} a.
Arguments Err {A} e.

Definition bind {A B} (m : res A) (k : A -> res B) : res B :=
  match m with Ok a => k a | Err e => Err e end.

Notation "x <- m ;; k" := (bind m (fun x => k))
  (at level 61, m at next level, right associativity).
Notation "' p <- m ;; k" := (bind m (fun x => match x with p => k end))
  (at level 61, p pattern, m at next level, right associativity).

(* A list comprehension / for loop whose body may raise. *)
Fixpoint mapM {A B} (f : A -> res B) (l : list A) : res (list B) :=
  match l with
  | [] => Ok []
  | a :: r => b <- f a ;; bs <- mapM f r ;; Ok (b :: bs)
  end.

(* A for loop over [l] with accumulator, whose body may raise. *)
Fixpoint foldM {A S} (f : S -> A -> res S) (l : list A) (s : S) : res S :=
  match l with
  | [] => Ok s
  | a :: r => s' <- f s a ;; foldM f r s'
  end.

(* [f(a, b) for a, b in zip(l1, l2)]: zip stops at the shorter list. *)
Fixpoint map2 {A B C} (f : A -> B -> C) (l1 : list A) (l2 : list B) : list C :=
  match l1, l2 with
  | a :: r1, b :: r2 => f a b :: map2 f r1 r2
  | _, _ => []
  end.

Definition map3 {A B C D} (f : A -> B -> C -> D) l1 l2 l3 : list D :=
  map2 (fun g c => g c) (map2 f l1 l2) l3.
Definition map4 {A B C D E} (f : A -> B -> C -> D -> E) l1 l2 l3 l4 : list E :=
  map2 (fun g d => g d) (map3 f l1 l2 l3) l4.

(* all([...]) over a list of booleans *)
Definition all (l : list bool) : bool := forallb (fun x => x) l.

(* range(lo, hi, step) for step > 0.  (Python raises ValueError for step = 0; the
   theorems assume positive block shapes.) *)
Definition py_range (lo hi step : Z) : list Z :=
  map (fun k => (lo + Z.of_nat k * step)%Z)
      (seq 0 (Z.to_nat ((hi - lo + step - 1) / step))).

(* itertools.product over the lists ls: the first factor varies slowest. *)
Fixpoint product {A} (ls : list (list A)) : list (list A) :=
  match ls with
  | [] => [[]]
  | l :: r => flat_map (fun x => map (cons x) (product r)) l
  end.

(* Python sets / "in" tests, with __eq__ given by [eqb]. *)
Section PySet.
  Context {A : Type} (eqb : A -> A -> bool).

  Definition mem (x : A) (s : list A) : bool := existsb (eqb x) s.
  (* set.add *)
  Definition sadd (x : A) (s : list A) : list A := if mem x s then s else s ++ [x].
  (* set difference of one element *)
  Definition sdel (x : A) (s : list A) : list A := filter (fun y => negb (eqb x y)) s.
  (* set.remove: raises KeyError if absent *)
  Definition sremove (x : A) (s : list A) : res (list A) :=
    if mem x s then Ok (sdel x s) else Err KeyError.
  (* set(l): the first of equal elements is kept *)
  Fixpoint dedup_acc (acc l : list A) : list A :=
    match l with
    | [] => acc
    | x :: r => dedup_acc (sadd x acc) r
    end.
  Definition dedup (l : list A) : list A := dedup_acc [] l.
  (* s - t *)
  Definition sminus (s t : list A) : list A := filter (fun x => negb (mem x t)) s.
  (* s.union(t) *)
  Definition sunion (s t : list A) : list A := dedup_acc s t.
End PySet.

(* A dictionary with integer keys and a default value (defaultdict). *)
Definition upd {V} (f : nat -> V) (k : nat) (v : V) : nat -> V :=
  fun k' => if Nat.eqb k k' then v else f k'.

(* The n-th element, raising IndexError. *)
Definition py_nth {A} (l : list A) (n : nat) : res A :=
  match nth_error l n with Some a => Ok a | None => Err IndexError end.
