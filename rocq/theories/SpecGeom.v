(* Vocabulary for the geometric properties: points and boxes, independent of the code's own
   Roi predicates. *)
From Coq Require Import Permutation.
From Verif Require Export BGraph DGraph.
Open Scope Z_scope.

Notation "v @ i" := (nth i v 0) (at level 9, i at level 9, format "v @ i").

(* p is one of the points of the box r *)
Definition pt_in (p : coord) (r : roi) : Prop :=
  length p = length (offset r) /\
  forall i, (i < length p)%nat -> (offset r)@i <= p@i < (offset r)@i + (shape r)@i.

Definition overlap (r s : roi) : Prop := exists p, pt_in p r /\ pt_in p s.

Definition roi_dims (n : nat) (r : roi) : Prop := length (offset r) = n /\ length (shape r) = n.

(* A proper task geometry: equal dimensions, positive write shape, the read ROI contains the
   write ROI, and the total ROI is at least as large as the context (so that the total write
   ROI does not have negative size). *)
Record wf_inputs (n : nat) (bread bwrite tread : roi) : Prop := {
  wi_br : roi_dims n bread;
  wi_bw : roi_dims n bwrite;
  wi_tr : roi_dims n tread;
  wi_w : forall i, (i < n)%nat -> 0 < (shape bwrite)@i;
  wi_c0 : forall i, (i < n)%nat -> (offset bread)@i <= (offset bwrite)@i;
  wi_c1 : forall i, (i < n)%nat ->
    (offset bwrite)@i + (shape bwrite)@i <= (offset bread)@i + (shape bread)@i;
  wi_e : forall i, (i < n)%nat -> (shape bread)@i - (shape bwrite)@i <= (shape tread)@i
}.

Definition geom_ok (n : nat) (t : task) : Prop := wf_inputs n (t_read t) (t_write t) (t_total t).

(* b is one of the blocks daisy generates for the task *)
Definition generated (g : bgraph) (b : block) : Prop :=
  exists l bs, level_blocks g l = Ok bs /\ In b bs.

(* the volume the task is to write: the total ROI minus the context at either end *)
Definition in_total_write (t : task) (p : coord) : Prop :=
  length p = length (offset (t_total t)) /\
  forall i, (i < length p)%nat ->
    (offset (t_total t))@i + ((offset (t_write t))@i - (offset (t_read t))@i) <= p@i
    /\ p@i < (offset (t_total t))@i + (shape (t_total t))@i
           - ((offset (t_read t))@i + (shape (t_read t))@i
              - ((offset (t_write t))@i + (shape (t_write t))@i)).

(* how far block number k (per dimension) is shifted from the task's block ROIs *)
Definition cell_shift (t : task) (k : coord) : coord :=
  map (fun i => (offset (t_total t))@i - (offset (t_read t))@i + k@i * (shape (t_write t))@i)
      (seq 0 (length (offset (t_total t)))).
Definition cell (t : task) (k : coord) : roi := rshift (t_write t) (cell_shift t k).

(* k is the number of a cell that the fit promises to process *)
Definition cell_fits (t : task) (k : coord) : Prop :=
  length k = length (offset (t_total t)) /\
  match t_fit t with
  | Valid => forall p, pt_in p (cell t k) -> in_total_write t p
  | _ => in_total_write t (offset (cell t k))
  end.

(* a is a direct / transitive upstream dependency of b inside its task *)
Definition depends (ord : list block -> list block) (g : bgraph) (b a : block) : Prop :=
  exists u, upstream ord g b = Ok u /\ In a u.
Inductive depends_trans (ord : list block -> list block) (g : bgraph) : block -> block -> Prop :=
| dt_one b a : depends ord g b a -> depends_trans ord g b a
| dt_more b c a : depends ord g b c -> depends_trans ord g c a -> depends_trans ord g b a.

(* ord lists the elements of a set in some order *)
Definition is_order {A} (ord : list A -> list A) : Prop := forall l, Permutation (ord l) l.
