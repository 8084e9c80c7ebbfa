(* Model of daisy/block.py. *)
From Verif Require Export Py Geom Cantor.
Open Scope Z_scope.

(* block.py:8-12 *)
Inductive status := CREATED | PROCESSING | SUCCESS | FAILED.

Definition status_eqb (a b : status) : bool :=
  match a, b with
  | CREATED, CREATED | PROCESSING, PROCESSING | SUCCESS, SUCCESS | FAILED, FAILED => true
  | _, _ => false
  end.

(* block.py:70-82, the attributes that never change during scheduling.  Task ids (strings in
   Python) are natural numbers.  The mutable [status] attribute is split off into [pyblock]
   below because neither __eq__/__hash__ nor the dependency graph ever read it.  The
   timestamps started_processing/stopped_processing are not modelled. *)
Record block := Block {
  b_task : nat;
  b_num : Z;
  b_read : roi;
  b_write : roi;
  b_req : roi          (* requested_write_roi *)
}.

(* block.py:78: block_id = (task_id, number) *)
Definition bid (b : block) : nat * Z := (b_task b, b_num b).

Definition bid_eqb (a b : nat * Z) : bool := Nat.eqb (fst a) (fst b) && Z.eqb (snd a) (snd b).

(* block.py:103-107: equality and hash look at the block_id only *)
Definition block_eqb (a b : block) : bool := bid_eqb (bid a) (bid b).

(* block.py:87-93 *)
Definition compute_block_id (total write : roi) : Z :=
  cantor_number (ctruediv (csub (offset write) (offset total)) (shape write)).

(* block.py:70-82 with block_id=None *)
Definition mk_block (total rd wr : roi) (tid : nat) : block :=
  Block tid (compute_block_id total wr) rd wr wr.

(* A Block object as it travels between scheduler and clients. *)
Record pyblock := PB { pb_block : block; pb_status : status }.
