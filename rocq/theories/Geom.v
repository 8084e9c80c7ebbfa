(* Model of funlib.geometry's Coordinate and Roi (imported by daisy/coordinate.py:1
   and daisy/roi.py:1; the library's source is not part of /repo, see DESIGN.md). *)
From Verif Require Export Py.
Open Scope Z_scope.

(* Coordinate: a tuple of ints. *)
Notation coord := (list Z).

(* Elementwise operators of Coordinate. *)
Definition cadd : coord -> coord -> coord := map2 Z.add.
Definition csub : coord -> coord -> coord := map2 Z.sub.
Definition cmul : coord -> coord -> coord := map2 Z.mul.
Definition cneg : coord -> coord := map Z.opp.
(* // and % : floor division and modulus, as Z.div and Z.modulo (divisor <> 0) *)
Definition cfloordiv : coord -> coord -> coord := map2 Z.div.
Definition cmod : coord -> coord -> coord := map2 Z.modulo.
(* / : true division; the Coordinate constructor applies int(), which truncates *)
Definition ctruediv : coord -> coord -> coord := map2 Z.quot.
Definition cmin : coord -> coord -> coord := map2 Z.min.
Definition cmax : coord -> coord -> coord := map2 Z.max.

(* tuple equality *)
Fixpoint coord_eqb (a b : coord) : bool :=
  match a, b with
  | [], [] => true
  | x :: r, y :: s => Z.eqb x y && coord_eqb r s
  | _, _ => false
  end.

(* Roi(offset, shape) *)
Record roi := Roi { offset : coord; shape : coord }.

Definition rbegin (r : roi) : coord := offset r.
Definition rend (r : roi) : coord := cadd (offset r) (shape r).
Definition dims (r : roi) : nat := length (offset r).

(* roi + coordinate, roi - coordinate *)
Definition rshift (r : roi) (c : coord) : roi := Roi (cadd (offset r) c) (shape r).
Definition rshift_neg (r : roi) (c : coord) : roi := Roi (csub (offset r) c) (shape r).

(* roi.grow(amount_neg, amount_pos) *)
Definition grow (r : roi) (neg pos : coord) : roi :=
  let b := csub (rbegin r) neg in
  let e := cadd (rend r) pos in
  Roi b (csub e b).

(* roi.empty: the size (product of the shape) is 0 *)
Definition rempty (r : roi) : bool := existsb (Z.eqb 0) (shape r).

(* roi.contains(point) *)
Definition contains_pt (r : roi) (p : coord) : bool :=
  all (map3 (fun x b e => (b <=? x) && (x <? e)) p (rbegin r) (rend r)).

(* roi.contains(other_roi) *)
Definition contains_roi (r o : roi) : bool :=
  if rempty o then contains_pt r (rbegin o)
  else contains_pt r (rbegin o) && contains_pt r (map (fun x => x - 1) (rend o)).

(* roi.intersects(other) *)
Definition intersects (a b : roi) : bool :=
  if rempty a || rempty b then false
  else negb (existsb (fun x => x)
         (map4 (fun b1 b2 e1 e2 => (e2 <=? b1) || (e1 <=? b2))
               (rbegin a) (rbegin b) (rend a) (rend b))).

(* roi.intersect(other): an empty intersection is the empty ROI at the origin *)
Definition intersect (a b : roi) : roi :=
  if intersects a b then
    let bg := cmax (rbegin a) (rbegin b) in
    let en := cmin (rend a) (rend b) in
    Roi bg (csub en bg)
  else Roi (map (fun _ => 0) (offset a)) (map (fun _ => 0) (offset a)).
