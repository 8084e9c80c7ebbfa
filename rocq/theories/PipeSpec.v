(* Vocabulary for pipelines of tasks. *)
From Verif Require Export SpecGeom SchedSpec.
Open Scope Z_scope.

(* x is t or one of the tasks t requires, directly or not *)
Inductive requires : task -> task -> Prop :=
| req_self t : requires t t
| req_up t u x : In u (t_ups t) -> requires u x -> requires t x.

(* the tasks a scheduler for [tasks] deals with *)
Definition in_pipe (tasks : list task) (x : task) : Prop := exists t, In t tasks /\ requires t x.

Definition tdims (t : task) : nat := length (offset (t_total t)).

(* A proper pipeline: every task has a proper geometry, the tasks have different ids, connected
   tasks have the same number of dimensions. *)
Record pipe_ok (tasks : list task) : Prop := {
  po_geom : forall t, in_pipe tasks t -> geom_ok (tdims t) t;
  po_ids : forall t t', in_pipe tasks t -> in_pipe tasks t' -> t_id t = t_id t' -> t = t';
  po_dims : forall t u, in_pipe tasks t -> In u (t_ups t) -> tdims u = tdims t
}.

(* b is one of the blocks of one of the tasks *)
Definition pipe_block (tasks : list task) (b : block) : Prop :=
  exists t g, in_pipe tasks t /\ task_graph t = Ok g /\ generated g b.

(* Conditions on an edge (t requires u) under which the two queries of get_subgraph_blocks agree.
   [ctx_lo]/[ctx_hi]: by how much the read ROI exceeds the write ROI at either end;
   [wr_hi]: the end of the total write ROI. *)
Definition ctx_lo (t : task) (i : nat) : Z := (offset (t_write t))@i - (offset (t_read t))@i.
Definition ctx_hi (t : task) (i : nat) : Z :=
  ((offset (t_read t))@i + (shape (t_read t))@i) - ((offset (t_write t))@i + (shape (t_write t))@i).
Definition wr_hi (t : task) (i : nat) : Z :=
  (offset (t_total t))@i + (shape (t_total t))@i - ctx_hi t i.
(* no cell of the task has the origin strictly inside (see C11) *)
Definition no_origin_cell (t : task) : Prop :=
  ~ exists k, cell_fits t k /\ forall i, (i < tdims t)%nat ->
      (offset (cell t k))@i < 0 < (offset (cell t k))@i + (shape (cell t k))@i.
Record edge_ok (u t : task) : Prop := {
  eo_sym : forall i, (i < tdims t)%nat -> ctx_lo t i = ctx_hi t i;
  eo_orig_u : no_origin_cell u;
  eo_orig_t : no_origin_cell t;
  eo_over_u : t_fit u = Overhang -> forall i, (i < tdims t)%nat -> wr_hi t i - ctx_lo t i <= wr_hi u i;
  eo_over_t : t_fit t = Overhang -> forall i, (i < tdims t)%nat -> wr_hi u i <= wr_hi t i + ctx_lo t i
}.
Definition edges_ok (tasks : list task) : Prop :=
  forall t u, in_pipe tasks t -> In u (t_ups t) -> edge_ok u t.

(* upstream() and downstream() of the dependency graph are inverse relations (C12) *)
Definition inverse (tasks : list task) ord ordt (d : dgraph) : Prop :=
  forall a b, pipe_block tasks a -> pipe_block tasks b ->
  (In b (dg_down ord ordt d a) <-> In a (dg_up ord ordt d b)).

(* every block of a task that requires others has a dependency (C19) *)
Definition no_lonely (tasks : list task) ord ordt (d : dgraph) : Prop :=
  forall t g b, in_pipe tasks t -> t_ups t <> [] -> task_graph t = Ok g -> generated g b ->
  dg_up ord ordt d b <> [].
(* A sufficient condition in terms of geometry: every block of such a task reads a point that a
   block of a required task writes. *)
Definition covered (tasks : list task) : Prop :=
  forall t g b, in_pipe tasks t -> t_ups t <> [] -> task_graph t = Ok g -> generated g b ->
  exists u gu a p, In u (t_ups t) /\ task_graph u = Ok gu /\ generated gu a /\
    pt_in p (b_write a) /\ pt_in p (b_read b) /\ in_total_write u p.

(* enough fuel for the loops of the model *)
Definition fuel_ok (tasks : list task) (fuel : nat) : Prop :=
  forall l, NoDup l -> (forall b, In b l -> pipe_block tasks b) -> enough l fuel.

(* A scheduler was built for [tasks] and reached state s with history h. *)
Record pipe_run (tasks : list task) ord ordt (d : dgraph) (s0 : sched) (fuel : nat) (h : history) (s : sched) : Prop := {
  pr_ok : pipe_ok tasks;
  pr_ord : is_order ord;
  pr_ordt : is_order ordt;
  pr_init : sched_init tasks = Ok (d, s0);
  pr_reach : reach (dg_up ord ordt d) (dg_down ord ordt d) (dg_max_retries d) fuel s0 h s
}.

(* no block depends directly on more than two others (C21) *)
Definition few_upstream (tasks : list task) ord ordt (d : dgraph) : Prop :=
  forall b, pipe_block tasks b -> (length (dg_up ord ordt d b) <= 2)%nat.

(* Weaker (C21): failures that orphan a block of which one direct upstream block succeeded do so
   through the same direct upstream blocks. *)
Definition apart_failures (tasks : list task) ord ordt (d : dgraph) (h : history) : Prop :=
  apart (pipe_block tasks) (dg_up ord ordt d) (dg_max_retries d) h.
(* the same of all blocks that may fail *)
Definition spread (tasks : list task) ord ordt (d : dgraph) (bad : block -> Prop) : Prop :=
  spread_in (pipe_block tasks) (dg_up ord ordt d) bad.

(* A task all of whose writes lie where a required task (fit not "valid") is to write is covered. *)
Definition inside_upstream (tasks : list task) : Prop :=
  forall t, in_pipe tasks t -> t_ups t <> [] ->
  exists u, In u (t_ups t) /\ t_fit u <> Valid /\ forall p, in_total_write t p -> in_total_write u p.
