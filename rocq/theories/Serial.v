(* Model of daisy/serial_server.py and of the notifications of daisy/server_observer.py. *)
From Verif Require Export Py Block Sched SchedSpec.
Open Scope Z_scope.

(* server_observer.py:29-60: the notifications a server sends to its observers, newest first.
   Python passes the (mutable) TaskState object; the model records its value at that moment. *)
Inductive note :=
| NStart (t : nat) (ts : tstate)
| NAcquire (t : nat) (ts : tstate)
| NRelease (t : nat) (ts : tstate)
| NDone (t : nat) (ts : tstate)
| NFailure (pb : pyblock) (worker : nat)
| NExit.

(* The local variables of SerialServer.run_blockwise.  [ss_h] is not part of the Python state:
   it records the calls made to the scheduler. *)
Record serial := SS {
  ss_s : sched;
  ss_h : history;
  ss_started : list nat;              (* started_tasks *)
  ss_finished : list nat;             (* finished_tasks *)
  ss_funcs : list nat;                (* keys of process_funcs *)
  ss_notes : list note
}.

Definition set_eqb (a b : list nat) : bool :=
  forallb (fun x => mem Nat.eqb x b) a && forallb (fun x => mem Nat.eqb x a) b.

Section Serial.
  Variables up down : block -> list block.
  Variable maxr : nat -> Z.
  Variable fuel : nat.                          (* for the loops of the scheduler *)
  Variable all_tasks : list nat.                (* serial_server.py:23 *)
  (* User code.  Its behaviour may depend on everything that happened so far. *)
  Variable chk : history -> nat -> block -> check_result.   (* check_function *)
  (* process_function: the block's status when it returns, or Err if it raises *)
  Variable proc : history -> pyblock -> res status.
  Variable pick : history -> nat -> list block -> nat.      (* set.pop() in mark_failure *)

  (* serial_server.py:31-35: the first of the ready tasks that gives a block *)
  Fixpoint first_block (ts : list nat) (h : history) (s : sched)
    : res (sched * option pyblock * history) :=
    match ts with
    | [] => Ok (s, None, h)
    | t :: r =>
        '(s', b, sk) <- acquire_block up down maxr fuel (chk h) s t ;;
        match b with
        | Some pb => Ok (s', Some pb, EvHand t pb :: rev (map EvSkip sk) ++ h)
        | None => first_block r (EvNone t :: rev (map EvSkip sk) ++ h) s'
        end
    end.

  (* serial_server.py:38-62, for a block handed out *)
  Definition serial_block (x : serial) (s1 : sched) (h1 : history) (pb : pyblock) : res serial :=
    let t := b_task (pb_block pb) in
    let n0 := if mem Nat.eqb t (ss_started x) then ss_notes x
              else NStart t (s_st s1 t) :: ss_notes x in                      (* 38-42 *)
    let started := sadd Nat.eqb t (ss_started x) in
    let n1 := NAcquire t (s_st s1 t) :: n0 in                                 (* 43-45 *)
    if mem Nat.eqb t (ss_funcs x) then                                        (* 46 *)
      st <- proc h1 pb ;;
      let st := if status_eqb st FAILED then FAILED else SUCCESS in           (* 47-50 *)
      s2 <- release_block up down maxr fuel (pick h1) s1 (PB (pb_block pb) st) ;;  (* 51 *)
      let h2 := EvRel (PB (pb_block pb) st) :: h1 in
      let n2 := NRelease t (s_st s2 t) :: n1 in                               (* 52-54 *)
      if ts_is_done (s_st s2 t) then                                          (* 56-62 *)
        started' <- sremove Nat.eqb t started ;;
        Ok (SS s2 h2 started' (sadd Nat.eqb t (ss_finished x)) (sdel Nat.eqb t (ss_funcs x))
               (NDone t (s_st s2 t) :: n2))
      else Ok (SS s2 h2 started (ss_finished x) (ss_funcs x) n2)
    else Err KeyError.

  (* serial_server.py:26-67 the while loop *)
  Fixpoint serial_loop (n : nat) (x : serial) : res serial :=
    match n with
    | O => Err OutOfFuel
    | S n =>
        if set_eqb (ss_finished x) all_tasks then Ok x                        (* 28-29 *)
        else
          '(s1, b, h1) <- first_block (get_ready_tasks (ss_s x)) (ss_h x) (ss_s x) ;;
          match b with
          | None => Ok (SS s1 h1 (ss_started x) (ss_finished x) (ss_funcs x) (ss_notes x))  (* 36-37 *)
          | Some pb =>
              y <- serial_block x s1 h1 pb ;;
              match ss_funcs y with [] => Ok y | _ => serial_loop n y end     (* 64-65 *)
          end
    end.

  (* serial_server.py:21-24 *)
  Definition serial_init (s0 : sched) : serial := SS s0 [] [] [] (dedup Nat.eqb all_tasks) [].

  (* serial_server.py:15-68; the result is scheduler.task_states (and the notifications) *)
  Definition serial_run (n : nat) (s0 : sched) : res serial :=
    x <- serial_loop n (serial_init s0) ;;
    Ok (SS (ss_s x) (ss_h x) (ss_started x) (ss_finished x) (ss_funcs x) (NExit :: ss_notes x)).
End Serial.
