(* Model of daisy/task.py (class Task), class DependencyGraph
   (daisy/dependency_graph.py:557-643) and Scheduler.__init__ (daisy/scheduler.py:38-59,
   162-169). *)
From Verif Require Export Py Geom Block BGraph Surface Sched.
Open Scope Z_scope.

(* task.py:128-166.  Not modelled: process_function, init_callback_fn, timeout (never read
   by the rest of /repo).  check_function appears as the oracle of Sched.acquire_block. *)
Inductive task := Task {
  t_id : nat;
  t_total : roi;
  t_read : roi;
  t_write : roi;
  t_rwc : bool;
  t_fit : fit;
  t_workers : Z;
  t_retries : Z;
  t_ups : list task
}.

(* dependency_graph.py:558-567; dictionaries with insertion order kept by [d_ids] *)
Record dgraph := DGraph {
  d_ids : list nat;                   (* keys of task_map, in insertion order *)
  d_task : nat -> option task;        (* task_map *)
  d_ups : nat -> list nat;            (* upstream_tasks *)
  d_downs : nat -> list nat;          (* downstream_tasks *)
  d_graph : nat -> option bgraph      (* task_dependency_graphs *)
}.

Definition dgraph_empty : dgraph :=
  DGraph [] (fun _ => None) (fun _ => []) (fun _ => []) (fun _ => None).

(* dependency_graph.py:623-631 __add_task.  The recursion is on the task tree. *)
Fixpoint add_task (t : task) (d : dgraph) {struct t} : dgraph :=
  if mem Nat.eqb (t_id t) (d_ids d) then d
  else
    let d1 := DGraph (d_ids d ++ [t_id t]) (upd (d_task d) (t_id t) (Some t))
                     (upd (d_ups d) (t_id t) []) (upd (d_downs d) (t_id t) [])
                     (d_graph d) in
    (fix loop (us : list task) (d : dgraph) : dgraph :=
       match us with
       | [] => d
       | u :: r =>
           let d2 := add_task u d in
           loop r (DGraph (d_ids d2) (d_task d2)
                     (upd (d_ups d2) (t_id t) (sadd Nat.eqb (t_id u) (d_ups d2 (t_id t))))
                     (upd (d_downs d2) (t_id u) (sadd Nat.eqb (t_id t) (d_downs d2 (t_id u))))
                     (d_graph d2))
       end) (t_ups t) d1.

(* dependency_graph.py:633-643 __add_task_dependency_graph *)
Definition task_graph (t : task) : res bgraph :=
  bgraph_init (t_id t) (t_read t) (t_write t) (t_rwc t) (t_fit t) (Some (t_total t)) None.

(* dependency_graph.py:566-567: the loop over task_map.values() *)
Definition add_graphs (ids : list nat) (d : dgraph) : res dgraph :=
  foldM (fun d i =>
           match d_task d i with
           | None => Ok d
           | Some t =>
               g <- task_graph t ;;
               Ok (DGraph (d_ids d) (d_task d) (d_ups d) (d_downs d)
                          (upd (d_graph d) i (Some g)))
           end) ids d.

(* dependency_graph.py:558-567 DependencyGraph.__init__ *)
Definition dgraph_init (tasks : list task) : res dgraph :=
  let d := fold_left (fun d t => add_task t d) tasks dgraph_empty in
  add_graphs (d_ids d) d.

(* sorted(l, key=lambda b: b.block_id[1]): a stable sort *)
Fixpoint insert_block (b : block) (l : list block) : list block :=
  match l with
  | [] => [b]
  | c :: r => if b_num b <=? b_num c then b :: l else c :: insert_block b r
  end.
Fixpoint sort_blocks (l : list block) : list block :=
  match l with
  | [] => []
  | b :: r => insert_block b (sort_blocks r)
  end.

Section WithOrder.
  (* iteration order over set(conflicts) and over the sets of task ids *)
  Variable ord : list block -> list block.
  Variable ordt : list nat -> list nat.

  Definition get_graph (d : dgraph) (t : nat) : res bgraph :=
    match d_graph d t with Some g => Ok g | None => Err KeyError end.

  (* dependency_graph.py:576-587 upstream *)
  Definition dg_upstream (d : dgraph) (b : block) : res (list block) :=
    g <- get_graph d (b_task b) ;;
    us <- upstream ord g b ;;
    vs <- mapM (fun u => g' <- get_graph d u ;; Ok (get_subgraph_blocks g' (b_read b) false))
               (ordt (d_ups d (b_task b))) ;;
    Ok (sort_blocks (us ++ concat vs)).

  (* dependency_graph.py:589-601 downstream *)
  Definition dg_downstream (d : dgraph) (b : block) : res (list block) :=
    g <- get_graph d (b_task b) ;;
    us <- downstream ord g b ;;
    vs <- mapM (fun u => g' <- get_graph d u ;; Ok (get_subgraph_blocks g' (b_write b) true))
               (ordt (d_downs d (b_task b))) ;;
    Ok (sort_blocks (us ++ concat vs)).

  (* The same as total functions, for the ready surface.  An exception becomes []; DGFacts
     proves that none is raised on the blocks of the graph. *)
  Definition or_nil (r : res (list block)) : list block :=
    match r with Ok l => l | Err _ => [] end.
  Definition dg_up (d : dgraph) (b : block) : list block := or_nil (dg_upstream d b).
  Definition dg_down (d : dgraph) (b : block) : list block := or_nil (dg_downstream d b).
End WithOrder.

(* dependency_graph.py:603-608 root_tasks *)
Definition root_tasks (d : dgraph) : list nat :=
  filter (fun t => match d_ups d t with [] => true | _ => false end) (d_ids d).

(* scheduler.py:51-54: the loop over dependency_graph.roots() (616-621) *)
Definition init_roots (d : dgraph) (s : sched) : res sched :=
  foldM (fun s t =>
           g <- get_graph d t ;;
           n <- num_roots g ;;
           gen <- root_gen g ;;
           Ok (Sched (s_surf s) (upd (s_q s) t (pqueue_init n gen))
                     (upd (s_st s) t (ts_add_ready n (s_st s t)))
                     (sadd Nat.eqb t (s_order s))))
        (root_tasks d) s.

(* scheduler.py:162-169 __init_task, with task_map given by the ids seen so far *)
Fixpoint init_task (d : dgraph) (t : task) (acc : list nat * sched) {struct t}
  : res (list nat * sched) :=
  let '(seen, s) := acc in
  if mem Nat.eqb (t_id t) seen then Ok acc
  else
    g <- get_graph d (t_id t) ;;
    n <- num_blocks g ;;
    let s1 := Sched (s_surf s) (s_q s)
                    (upd (s_st s) (t_id t) (ts_set_total n (s_st s (t_id t))))
                    (sadd Nat.eqb (t_id t) (s_order s)) in
    (fix loop (us : list task) (acc : list nat * sched) : res (list nat * sched) :=
       match us with
       | [] => Ok acc
       | u :: r => acc' <- init_task d u acc ;; loop r acc'
       end) (t_ups t) (seen ++ [t_id t], s1).

(* scheduler.py:38-59 Scheduler.__init__ *)
Definition sched_init (tasks : list task) : res (dgraph * sched) :=
  d <- dgraph_init tasks ;;
  let s0 := Sched (surf_init) (fun _ => pqueue_init 0 []) (fun _ => tstate_init) [] in
  s1 <- init_roots d s0 ;;
  '(_, s2) <- foldM (fun acc t => init_task d t acc) tasks ([], s1) ;;
  Ok (d, s2).

(* task_map[t].max_retries.  (KeyError for unknown tasks is not modelled: release_block has
   by then found the block in the task's processing set.) *)
Definition dg_max_retries (d : dgraph) (t : nat) : Z :=
  match d_task d t with Some tk => t_retries tk | None => 0 end.
