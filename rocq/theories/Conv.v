(* convenience.py *)
From Verif Require Export DGraph.
Open Scope Z_scope.

(* convenience.py:29-34: the loop of run_blockwise that collects the tasks.  [ids] is task_ids,
   [acc] all_tasks; the upstream tasks are appended whether or not the task was seen before. *)
Fixpoint collect (fuel : nat) (tasks : list task) (ids : list nat) (acc : list task) : res (list task) :=
  match fuel with
  | O => Err OutOfFuel
  | S n =>
    match tasks with
    | [] => Ok acc
    | t :: rest =>
      let '(ids', acc') :=
        if negb (mem Nat.eqb (t_id t) ids) then (sadd Nat.eqb (t_id t) ids, acc ++ [t]) else (ids, acc) in
      collect n (rest ++ t_ups t) ids' acc'
    end
  end.
(* convenience.py:27-36 *)
Definition collect_tasks (fuel : nat) (tasks : list task) : res (list task) := collect fuel tasks [] [].

(* convenience.py:56-60: the value returned with multiprocessing, given the task states with which
   the server ended *)
Definition result (s : sched) : bool := forallb (fun t => ts_is_done (s_st s t)) (s_order s).
(* convenience.py:38-41: without multiprocessing the dict of task states itself is returned;
   [truth] is its truth value in Python *)
Definition truth (s : sched) : bool := match s_order s with [] => false | _ => true end.
