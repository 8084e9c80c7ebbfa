(* Model of funlib.math.cantor_number (used by daisy/block.py:4, 88-93).  The library's
   source is not part of /repo; this is the generalised Cantor numbering
     cantor(x1,...,xd) = C(x1+...+xd + d-1, d) + cantor(x1,...,x(d-1)),  cantor(x1) = x1,
   which gives all block ids quoted in tests/test_scheduler.py. *)
From Verif Require Import Py Geom.
Open Scope Z_scope.

Definition zsum (l : list Z) : Z := fold_right Z.add 0 l.

(* edge * (edge+1) * ... * (edge+dims-1) *)
Fixpoint rising (edge : Z) (dims : nat) : Z :=
  match dims with
  | O => 1
  | S d => rising edge d * (edge + Z.of_nat d)
  end.

Fixpoint zfact (n : nat) : Z :=
  match n with
  | O => 1
  | S m => Z.of_nat n * zfact m
  end.

(* volume of the discrete simplex ("pyramide") of the given dimension and edge length *)
Definition pyramide_volume (dims : nat) (edge : Z) : Z := rising edge dims / zfact dims.

(* on the reversed coordinate list, so that "coordinates[:-1]" is the tail *)
Fixpoint cantor_rev (l : list Z) : Z :=
  match l with
  | [] => 0
  | [x] => x
  | _ :: r => pyramide_volume (length l) (zsum l) + cantor_rev r
  end.

Definition cantor_number (l : coord) : Z := cantor_rev (rev l).

(* Ids quoted in tests/test_scheduler.py: rows of task_2d. *)
Example cantor_task_2d :
  map (fun x => map (fun y => cantor_number [x; y]) [1; 2; 3; 4]) [1; 2; 3; 4]
  = [[4; 7; 11; 16]; [8; 12; 17; 23]; [13; 18; 24; 31]; [19; 25; 32; 40]].
Proof. reflexivity. Qed.
Example cantor_task_1d : map (fun x => cantor_number [x]) [1; 2] = [1; 2].
Proof. reflexivity. Qed.
