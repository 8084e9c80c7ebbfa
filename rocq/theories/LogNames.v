(* The log files the execution summary refers to: cl_monitor.py:142-153, logging.py:32-43, str of pathlib paths. *)
From Verif Require Export TaskFn.
Open Scope string_scope.

(* str(p) *)
Definition path_str (p : path) : string :=
  match p_root p ++ String.concat "/" (p_parts p) with EmptyString => "." | s => s end.
(* f"{p}" of a path or None *)
Definition opt_str (p : option path) : string := match p with Some p => path_str p | None => "None" end.

(* logging.py:32-43 as the monitor calls it (cl_monitor.py:147-149): the worker id is what the context of the client says,
   a string; [base] is LOG_BASEDIR of the server's process *)
Definition log_basename_for (base : option path) (worker_id task_id : string) : option path :=
  match base with None => None | Some p => Some (joinpath (joinpath p task_id) ("worker_" ++ worker_id)) end.

(* cl_monitor.py:146-150: a line of the summary, without the six spaces in front *)
Definition log_line (base : option path) (worker_id task_id : string) : string :=
  opt_str (log_basename_for base worker_id task_id) ++ ".err / .out".
(* cl_monitor.py:141-152: the lines for the failures of a task, given by the worker ids in the contexts of the clients that
   reported them (server.py:236, cl_monitor.py:83-87) *)
Definition log_lines (base : option path) (task_id : string) (failures : list string) : list string :=
  map (fun w => log_line base w task_id) (firstn 10 failures) ++ if (10 <? List.length failures)%nat then ["..."] else [].

(* cl_monitor.py:86 context["worker_id"] *)
Definition reported_worker (c : context) : res value :=
  match Ctx.get c "worker_id" with Some v => Ok v | None => Err KeyError end.
