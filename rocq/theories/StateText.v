(* The text of a task state: task_state.py:34-48, and what the progress bar shows behind it: cl_monitor.py:165-173.
   Python strings are Coq strings; the five symbols of the bar are left out, their order is kept. *)
From Coq Require Export String Ascii.
From Coq Require Import DecimalString DecimalZ.
From Verif Require Export Sched.
Local Open Scope string_scope.

(* f"{n}" of an int, f"{b}" of a bool *)
Definition str_int (n : Z) : string := NilZero.string_of_int (Z.to_int n).
Definition str_bool (b : bool) : string := if b then "True" else "False".
(* "\n" *)
Definition newline : string := String (ascii_of_nat 10) "".
(* one line of the f-strings of 35-45 *)
Definition line (label value : string) : string := label ++ ": " ++ value ++ newline.

(* task_state.py:34-45 TaskState.__str__ *)
Definition tstate_str (t : tstate) : string :=
  line "Started" (str_bool (ts_started t)) ++
  line "Total Blocks" (str_int (ts_total t)) ++
  line "Ready" (str_int (ts_ready t)) ++
  line "Processing" (str_int (ts_processing t)) ++
  line "Pending" (str_int (ts_pending t)) ++
  line "Completed" (str_int (ts_completed t)) ++
  line "Skipped" (str_int (ts_skipped t)) ++
  line "Failed" (str_int (ts_failed t)) ++
  line "Orphaned" (str_int (ts_orphaned t)).
(* task_state.py:47-48 TaskState.__repr__ *)
Definition tstate_repr (t : tstate) : string := tstate_str t.

(* cl_monitor.py:165-173: the dict given to set_postfix, in its order (pending, processing, completed, failed,
   orphaned) *)
Definition postfix (t : tstate) : list Z :=
  [ts_pending t; ts_processing t; ts_completed t; ts_failed t; ts_orphaned t].
