(* A call of run_blockwise with multiprocessing, from the collection of the tasks to its value or exception.
   convenience.py:8-62, server.py:39-81. *)
From Coq Require Import Arith.
From Verif Require Export WholeAny Conv.
From Verif Require Pool.
Open Scope Z_scope.

(* The server, its pools and workers, and whether the stop event was set by the main thread
   (convenience.py:51-53, after KeyboardInterrupt).  The event is read at the head of the loop only (server.py:75), so
   one that is set during an iteration has the same effect as one set right after it. *)
Record top := Top { tp_h : whole; tp_stop : bool }.
Inductive tmove := TMove (m : amove) | TStop.
Definition serves (m : amove) : bool := match m with AMove (HServe _ _) => true | _ => false end.

(* what the caller of run_blockwise gets *)
Inductive ending := Returned (b : bool) | Raised (x : exn).

Section Top.
  Variables up down : block -> list block.
  Variable maxr : nat -> Z.
  Variable fuel : nat.
  Variable init : nat -> res unit.         (* init_callback_fn: may raise *)
  Variable nw : nat -> Z.                  (* num_workers *)
  Variable mbf : Z.                        (* max_block_failures *)

  Inductive tstep (y : top) : tmove -> top -> Prop :=
  | ts_move m h : astep up down maxr fuel init nw mbf (tp_h y) m h -> (serves m = true -> tp_stop y = false) ->
      tstep y (TMove m) (Top h (tp_stop y))
  | ts_stop : tstep y TStop (Top (tp_h y) true).
  Inductive truns (y : top) : list tmove -> top -> Prop :=
  | truns_nil : truns y [] y
  | truns_step ms y1 m y2 : truns y ms y1 -> tstep y1 m y2 -> truns y (ms ++ [m]) y2.

  (* server.py:59-71: how the loop is left, and the pools after [finally].  [es]: what the pools were told to do in
     the iteration that is left by an exception (the part of it that was run is not kept track of). *)
  Inductive ended (y : top) : ending -> Pool.pools -> Prop :=
  | en_stop : sv_stop (h_sv (tp_h y)) = true \/ tp_stop y = true ->
      ended y (Returned (result (sv_s (h_sv (tp_h y))))) (Pool.pools_stop (h_ps (tp_h y)))
  | en_raise i x es : tp_stop y = false -> raises up down maxr fuel init nw mbf (tp_h y) i x ->
      ended y (Raised x) (Pool.pools_stop (fold_left (fun ps e => fst (Pool.pstep nw mbf e ps)) es (h_ps (tp_h y)))).
End Top.

(* convenience.py:27-36 and 44-62, server.py:41-71, with the tasks' ids for task ids, num_workers [nw], and
   max_block_failures = 3 (task_worker_pools.py:11).  [ord], [ordt]: iteration orders of sets; [d]: the dependency graph the
   scheduler makes of the collected tasks [all].  The exception of an init callback at the first call of
   _recruit_workers (server.py:57) is raised outside of the try statement: the pools are not stopped. *)
Inductive run_blockwise (tasks : list task) ord ordt fuel init nw all d (s0 : sched) :
  list tmove -> option top -> ending -> Pool.pools -> Prop :=
| rb_start k x : collect_tasks k tasks = Ok all -> sched_init all = Ok (d, s0) ->
    whole_init init nw 3 (map t_id all) s0 = Err x ->
    run_blockwise tasks ord ordt fuel init nw all d s0 [] None (Raised x)
      (Pool.pools_init (dedup Nat.eqb (map t_id all)) (Pool.Sys (fun _ => None) 0))
| rb_run k h ms y e ps : collect_tasks k tasks = Ok all -> sched_init all = Ok (d, s0) ->
    whole_init init nw 3 (map t_id all) s0 = Ok h ->
    truns (dg_up ord ordt d) (dg_down ord ordt d) (dg_max_retries d) fuel init nw 3 (Top h false) ms y ->
    ended (dg_up ord ordt d) (dg_down ord ordt d) (dg_max_retries d) fuel init nw 3 y e ps ->
    run_blockwise tasks ord ordt fuel init nw all d s0 ms (Some y) e ps.
