(* The progress report: cl_monitor.py, class CLMonitor (an observer of a server). *)
From Verif Require Export Serial.
Open Scope Z_scope.

(* A tqdm progress bar: update(k) adds k to n unless the bar was closed (tqdm's documented
   behaviour); terminal output is not modelled. *)
Record bar := Bar { bar_n : Z; bar_total : Z; bar_closed : bool }.
Definition bar_update (k : Z) (b : bar) : bar :=
  if bar_closed b then b else Bar (bar_n b + k) (bar_total b) false.
Definition bar_close (b : bar) : bar := Bar (bar_n b) (bar_total b) true.

(* a dict from task ids, in insertion order *)
Section Dict.
  Context {V : Type}.
  Definition dict := list (nat * V).
  Fixpoint dget (d : dict) (t : nat) : option V :=
    match d with [] => None | (u, v) :: r => if Nat.eqb t u then Some v else dget r t end.
  Fixpoint dset (d : dict) (t : nat) (v : V) : dict :=
    match d with [] => [(t, v)] | (u, w) :: r => if Nat.eqb t u then (t, v) :: r else (u, w) :: dset r t v end.
End Dict.
Arguments dict : clear implicits.

(* cl_monitor.py:35-45: a reported failure, by block and worker (the exception is only printed) *)
Definition failure := (pyblock * nat)%type.
(* cl_monitor.py:48-54: progresses, and summaries (29-32).  A TaskSummary's state is the
   scheduler's TaskState object of the task, so it is looked up when it is printed. *)
Record monitor := Monitor { m_bars : dict bar; m_sums : dict (list failure) }.
Definition mon_init : monitor := Monitor [] [].

(* cl_monitor.py:158-177 _update_state *)
Definition update_state (t : nat) (ts : tstate) (m : monitor) : monitor :=
  let b := match dget (m_bars m) t with Some b => b | None => Bar 0 (ts_total ts) false end in
  Monitor (dset (m_bars m) t (bar_update (ts_completed ts - bar_n b) b)) (m_sums m).

(* the on_... methods, cl_monitor.py:77-110 *)
Definition mon_step (m : monitor) (n : note) : res monitor :=
  match n with
  | NAcquire t ts => Ok (update_state t ts m)                                 (* 77-78 *)
  | NRelease t ts => Ok (update_state t ts m)                                 (* 80-81 *)
  | NFailure pb w =>                                                          (* 83-87 *)
      let t := b_task (pb_block pb) in
      match dget (m_sums m) t with
      | Some l => Ok (Monitor (m_bars m) (dset (m_sums m) t (l ++ [(pb, w)])))
      | None => Err KeyError
      end
  | NStart t ts => Ok (Monitor (m_bars m) (dset (m_sums m) t []))             (* 89-90 *)
  | NDone t ts =>                                                             (* 92-106 *)
      let sums := match dget (m_sums m) t with Some _ => m_sums m | None => dset (m_sums m) t [] end in
      let bars := match dget (m_bars m) t with Some b => dset (m_bars m) t (bar_close b) | None => m_bars m end in
      Ok (Monitor bars sums)
  | NExit => Ok (Monitor (map (fun tb => (fst tb, bar_close (snd tb))) (m_bars m)) (m_sums m))  (* 108-110 *)
  end.
(* a sequence of notifications, oldest first *)
Definition mon_run (l : list note) : res monitor := foldM mon_step l mon_init.

(* cl_monitor.py:112-156: what is printed for one task *)
Record report := Report {
  r_total : Z; r_completed : Z; r_skipped : Z; r_failed : Z; r_orphaned : Z;
  r_failures : list failure;       (* the blocks listed *)
  r_more : Z;                      (* "(and N more)", 0 if not printed *)
  r_all_ok : bool                  (* "all blocks processed successfully" *)
}.
Definition max_entries : nat := 100.
Definition report_of (ts : tstate) (l : list failure) : report :=
  Report (ts_total ts) (ts_completed ts) (ts_skipped ts) (ts_failed ts) (ts_orphaned ts)
         (firstn max_entries l)
         (if (max_entries <? length l)%nat then Z.of_nat (length l) - Z.of_nat max_entries else 0)
         (ts_completed ts =? ts_total ts).
(* cl_monitor.py:118-119; [cur] are the task states when the server exits *)
Definition summary (cur : nat -> tstate) (m : monitor) : dict report :=
  map (fun tl => (fst tl, report_of (cur (fst tl)) (snd tl))) (m_sums m).

(* The symbol behind the name of a task on its bar, cl_monitor.py:92-105 and 158-163: set when the bar is made, and
   again by on_task_done if there is a bar. *)
Inductive mark := Going        (* "▶" *)
  | Cross                      (* "✗" *)
  | Void                       (* "∅" *)
  | Tick.                      (* "✔" *)
Definition mark_of (ts : tstate) : mark :=                                    (* 98-103 *)
  if 0 <? ts_failed ts then Cross else if 0 <? ts_orphaned ts then Void else Tick.
Definition mark_step (d : dict mark) (n : note) : dict mark :=
  match n with
  | NAcquire t _ | NRelease t _ => match dget d t with Some _ => d | None => dset d t Going end   (* 159-163 *)
  | NDone t ts => match dget d t with Some _ => dset d t (mark_of ts) | None => d end             (* 97-104 *)
  | _ => d
  end.
(* after a sequence of notifications, oldest first *)
Definition marks (l : list note) : dict mark := fold_left mark_step l [].
