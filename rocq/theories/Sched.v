(* Model of daisy/processing_queue.py, daisy/task_state.py and the methods of
   daisy/scheduler.py (class Scheduler) that work on its state. *)
From Verif Require Export Py Geom Block Surface.
Open Scope Z_scope.

(* task_state.py:1-13 *)
Record tstate := TState {
  ts_started : bool;
  ts_total : Z;
  ts_ready : Z;
  ts_processing : Z;
  ts_completed : Z;
  ts_skipped : Z;
  ts_failed : Z;
  ts_orphaned : Z
}.

(* task_state.py:2-13 *)
Definition tstate_init : tstate := TState false 0 0 0 0 0 0 0.

(* task_state.py:15-24 *)
Definition ts_pending (t : tstate) : Z :=
  ts_total t - (ts_ready t + ts_completed t + ts_failed t + ts_orphaned t + ts_processing t).

(* task_state.py:26-32 *)
Definition ts_is_done (t : tstate) : bool :=
  (ts_total t - ts_completed t - ts_failed t - ts_orphaned t) =? 0.

(* "task_state.x += k" *)
Definition ts_add_ready k t :=
  TState (ts_started t) (ts_total t) (ts_ready t + k) (ts_processing t) (ts_completed t)
         (ts_skipped t) (ts_failed t) (ts_orphaned t).
Definition ts_add_processing k t :=
  TState (ts_started t) (ts_total t) (ts_ready t) (ts_processing t + k) (ts_completed t)
         (ts_skipped t) (ts_failed t) (ts_orphaned t).
Definition ts_add_completed k t :=
  TState (ts_started t) (ts_total t) (ts_ready t) (ts_processing t) (ts_completed t + k)
         (ts_skipped t) (ts_failed t) (ts_orphaned t).
Definition ts_add_skipped k t :=
  TState (ts_started t) (ts_total t) (ts_ready t) (ts_processing t) (ts_completed t)
         (ts_skipped t + k) (ts_failed t) (ts_orphaned t).
Definition ts_add_failed k t :=
  TState (ts_started t) (ts_total t) (ts_ready t) (ts_processing t) (ts_completed t)
         (ts_skipped t) (ts_failed t + k) (ts_orphaned t).
Definition ts_add_orphaned k t :=
  TState (ts_started t) (ts_total t) (ts_ready t) (ts_processing t) (ts_completed t)
         (ts_skipped t) (ts_failed t) (ts_orphaned t + k).
Definition ts_set_started t :=
  TState true (ts_total t) (ts_ready t) (ts_processing t) (ts_completed t)
         (ts_skipped t) (ts_failed t) (ts_orphaned t).
Definition ts_set_total k t :=
  TState (ts_started t) k (ts_ready t) (ts_processing t) (ts_completed t)
         (ts_skipped t) (ts_failed t) (ts_orphaned t).

(* processing_queue.py:14-20.  The root generator is the list of blocks it still has to
   yield (Python evaluates it lazily). *)
Record pqueue := PQueue {
  q_ready : list pyblock;             (* ready_queue *)
  q_proc : list (nat * Z);            (* processing_blocks: a set of block ids *)
  q_retries : nat * Z -> Z;           (* block_retries *)
  q_roots : Z;                        (* ready_roots *)
  q_gen : list block                  (* root_generator *)
}.

(* processing_queue.py:14-20 *)
Definition pqueue_init (num_roots : Z) (gen : list block) : pqueue :=
  PQueue [] [] (fun _ => 0) num_roots gen.

(* processing_queue.py:22-24 *)
Definition num_ready (q : pqueue) : Z := q_roots q + Z.of_nat (length (q_ready q)).

(* processing_queue.py:26-34.  A block yielded by the generator is freshly constructed, so
   its status is CREATED (block.py:79). *)
Definition get_next (q : pqueue) : res (pqueue * option pyblock) :=
  if 0 <? num_ready q then
    if 0 <? q_roots q then
      match q_gen q with
      | [] => Err StopIteration
      | b :: gen =>
          Ok (PQueue (q_ready q) (q_proc q) (q_retries q) (q_roots q - 1) gen,
              Some (PB b CREATED))
      end
    else
      match q_ready q with
      | [] => Err IndexError
      | b :: r => Ok (PQueue r (q_proc q) (q_retries q) (q_roots q) (q_gen q), Some b)
      end
  else Ok (q, None).

Definition q_push (q : pqueue) (b : pyblock) : pqueue :=
  PQueue (q_ready q ++ [b]) (q_proc q) (q_retries q) (q_roots q) (q_gen q).
Definition q_set_proc (q : pqueue) (p : list (nat * Z)) : pqueue :=
  PQueue (q_ready q) p (q_retries q) (q_roots q) (q_gen q).
Definition q_inc_retry (q : pqueue) (i : nat * Z) : pqueue :=
  PQueue (q_ready q) (q_proc q)
         (fun j => if bid_eqb i j then q_retries q i + 1 else q_retries q j)
         (q_roots q) (q_gen q).

(* scheduler.py:38-59: the mutable state of a Scheduler.  [s_order] lists the keys of
   task_states in insertion order. *)
Record sched := Sched {
  s_surf : surf block;
  s_q : nat -> pqueue;                (* task_queues *)
  s_st : nat -> tstate;               (* task_states *)
  s_order : list nat
}.

Definition upd_q (s : sched) (t : nat) (f : pqueue -> pqueue) : sched :=
  Sched (s_surf s) (upd (s_q s) t (f (s_q s t))) (s_st s) (s_order s).
Definition upd_st (s : sched) (t : nat) (f : tstate -> tstate) : sched :=
  Sched (s_surf s) (s_q s) (upd (s_st s) t (f (s_st s t))) (s_order s).
Definition set_surf (s : sched) (sf : surf block) : sched :=
  Sched sf (s_q s) (s_st s) (s_order s).

(* The outcome of calling the user's check_function (scheduler.py:190-200). *)
Inductive check_result := CheckTrue | CheckFalse | CheckRaises.

Section Scheduler.
  Variables up down : block -> list block.      (* dependency_graph.upstream/downstream *)
  Variable max_retries : nat -> Z.              (* task_map[t].max_retries *)
  Variable fuel : nat.                          (* for the loops of mark_failure/acquire *)

  (* scheduler.py:61-69 get_ready_tasks, as task ids *)
  Definition get_ready_tasks (s : sched) : list nat :=
    filter (fun t => 0 <? ts_ready (s_st s t)) (s_order s).

  (* scheduler.py:171-176 __queue_ready_block (always called without index) *)
  Definition queue_ready_block (s : sched) (b : pyblock) : sched :=
    let t := b_task (pb_block b) in
    upd_st (upd_q s t (fun q => q_push q b)) t (ts_add_ready 1).

  (* scheduler.py:178-180 __remove_from_processing_blocks *)
  Definition remove_from_processing (s : sched) (b : block) : res sched :=
    let t := b_task b in
    p <- sremove bid_eqb (bid b) (q_proc (s_q s t)) ;;
    Ok (upd_st (upd_q s t (fun q => q_set_proc q p)) t (ts_add_processing (-1))).

  (* scheduler.py:182-188 __update_ready_queue (the returned dict, which nothing in daisy
     reads, is modelled in Released.v).  Blocks made by the dependency graph are fresh:
     status CREATED. *)
  Definition update_ready_queue (s : sched) (bs : list block) : sched :=
    fold_left (fun s b => queue_ready_block s (PB b CREATED)) bs s.

  (* scheduler.py:110-160 release_block *)
  Definition release_block (pick : nat -> list block -> nat) (s : sched) (pb : pyblock)
    : res sched :=
    let b := pb_block pb in
    let t := b_task b in
    s1 <- remove_from_processing s b ;;                                       (* 132 *)
    match pb_status pb with
    | SUCCESS =>                                                              (* 133-137 *)
        '(sf, news) <- mark_success block_eqb up down (s_surf s1) b ;;
        let s2 := upd_st (set_surf s1 sf) t (ts_add_completed 1) in
        Ok (update_ready_queue s2 news)
    | FAILED =>
        if max_retries t <=? q_retries (s_q s1 t) (bid b) then                (* 139-151 *)
          '(sf, orphans) <- mark_failure block_eqb up down pick fuel (s_surf s1) b ;;
          let s2 := upd_st (set_surf s1 sf) t (ts_add_failed 1) in
          Ok (fold_left (fun s o => upd_st s (b_task o) (ts_add_orphaned 1)) orphans s2)
        else                                                                  (* 152-156 *)
          let s2 := queue_ready_block s1 pb in
          Ok (upd_q s2 t (fun q => q_inc_retry q (bid b)))
    | CREATED | PROCESSING => Err RuntimeError                                (* 157-160 *)
    end.

  (* scheduler.py:190-200 __precheck: exceptions count as "not done" *)
  Definition precheck (c : check_result) : bool :=
    match c with CheckTrue => true | CheckFalse => false | CheckRaises => false end.

  (* scheduler.py:71-108 acquire_block.  [chk] gives the outcome of each call of
     check_function (the k-th call of this acquire, on this block); a task without
     check_function is CheckFalse.  The third component lists the blocks skipped on the
     way; it is not part of the Python state. *)
  Fixpoint acquire_loop (chk : nat -> block -> check_result) (fuel : nat) (s : sched)
    (t : nat) : res (sched * option pyblock * list block) :=
    match fuel with
    | O => Err OutOfFuel
    | S f =>
        '(q, nb) <- get_next (s_q s t) ;;                                     (* 85 *)
        match nb with
        | None => Ok (s, None, [])                                            (* 107-108 *)
        | Some pb =>
            let b := pb_block pb in
            let s1 := upd_q s t (fun _ => q) in
            let s2 := upd_st (upd_st s1 t (ts_add_ready (-1))) t (ts_add_processing 1) in
            let add_proc := fun q => q_set_proc q (sadd bid_eqb (bid b) (q_proc q)) in
            if precheck (chk f b) then                                        (* 92-101 *)
              let s3 := upd_q (upd_st s2 t (ts_add_skipped 1)) t add_proc in
              s4 <- release_block (fun _ _ => O) s3 (PB b SUCCESS) ;;
              '(s5, r, sk) <- acquire_loop chk f s4 t ;;
              Ok (s5, r, b :: sk)
            else                                                              (* 102-105 *)
              Ok (upd_q (upd_st s2 t ts_set_started) t add_proc, Some pb, [])
        end
    end.

  Definition acquire_block (chk : nat -> block -> check_result) (s : sched) (t : nat) :=
    acquire_loop chk fuel s t.
End Scheduler.
