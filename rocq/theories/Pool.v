(* Worker pools: worker.py, worker_pool.py, task_worker_pools.py.  Processes are entries of a
   table; when they exit, and with which code, is an input. *)
From Verif Require Export Py.
Open Scope Z_scope.

(* a process of the operating system: of which task, and whether it runs *)
Inductive pstat := Running | Exited (code : Z).
(* worker.py:30-38 get_next_id ([nxt]) and the processes started so far, by worker id *)
Record sys := Sys { tbl : nat -> option (nat * pstat); nxt : nat }.
Definition set_proc (s : sys) (i t : nat) (st : pstat) : sys :=
  Sys (fun j => if Nat.eqb i j then Some (t, st) else tbl s j) (nxt s).

(* worker.py:40-51, 61-69: a Worker; creating it starts its process.  [w_proc]: worker.process is
   not None *)
Record worker := Worker { w_id : nat; w_proc : bool }.
Definition new_worker (t : nat) (s : sys) : sys * worker :=
  (Sys (tbl (set_proc s (nxt s) t Running)) (S (nxt s)), Worker (nxt s) true).
(* worker.py:71-84 stop: terminate and join.  -15: killed by SIGTERM *)
Definition stop_worker (t : nat) (s : sys) (w : worker) : sys :=
  if w_proc w then
    match tbl s (w_id w) with
    | Some (_, Exited _) => s
    | _ => set_proc s (w_id w) t (Exited (-15))
    end
  else s.

(* worker_pool.py:32-41: WorkerPool.workers, a dict by worker id, in insertion order *)
Definition pool := list worker.
Definition has_worker (p : pool) (i : nat) : bool := existsb (fun w => Nat.eqb (w_id w) i) p.
Definition del_worker (p : pool) (i : nat) : pool := filter (fun w => negb (Nat.eqb (w_id w) i)) p.

(* worker_pool.py:138-144 _start_workers; the new ids are new keys of the dict *)
Fixpoint start_n (t : nat) (n : nat) (s : sys) : sys * list worker :=
  match n with
  | O => (s, [])
  | S n => let '(s1, w) := new_worker t s in let '(s2, ws) := start_n t n s1 in (s2, w :: ws)
  end.
Definition start_workers (t : nat) (n : Z) (x : sys * pool) : sys * pool :=
  let '(s, p) := x in let '(s', ws) := start_n t (Z.to_nat n) s in (s', p ++ ws).
(* worker_pool.py:146-155 _stop_workers; n > 0 *)
Definition stop_workers (t : nat) (n : Z) (x : sys * pool) : sys * pool :=
  let '(s, p) := x in
  let sentenced := skipn (length p - Z.to_nat n) p in
  fold_left (fun '(s, p) w => (stop_worker t s w, del_worker p (w_id w))) sentenced (s, p).
(* worker_pool.py:43-70 *)
Definition set_num_workers (t : nat) (n : Z) (x : sys * pool) : sys * pool :=
  let diff := n - Z.of_nat (length (snd x)) in
  if 0 <? diff then start_workers t diff x
  else if diff <? 0 then stop_workers t (- diff) x
  else x.
(* worker_pool.py:72-73 *)
Definition inc_num_workers (t : nat) (n : Z) (x : sys * pool) : sys * pool := start_workers t n x.
(* worker_pool.py:75-89 *)
Definition pool_stop (t : nat) (wid : option nat) (x : sys * pool) : sys * pool :=
  match wid with
  | None => set_num_workers t 0 x
  | Some i =>
      let '(s, p) := x in
      match find (fun w => Nat.eqb (w_id w) i) p with
      | None => x
      | Some w => (stop_worker t s w, del_worker p i)
      end
  end.
(* worker_pool.py:105-136: None for a worker that is alive, otherwise its exit code *)
Definition exitcode (s : sys) (w : worker) : option Z :=
  if w_proc w then match tbl s (w_id w) with Some (_, Exited c) => Some c | _ => None end else None.
Definition reap_dead_workers (x : sys * pool) : pool * Z :=
  let '(s, p) := x in
  let dead := filter (fun w => match exitcode s w with Some c => negb (c =? 0) | None => false end) p in
  let p1 := map (fun w => match exitcode s w with Some _ => Worker (w_id w) false | None => w end) p in
  (fold_left (fun p w => del_worker p (w_id w)) dead p1, Z.of_nat (length dead)).

(* task_worker_pools.py:10-24: the pools by task id, in insertion order, the exceptions in their
   error queues, and failure_counts (0 where there is no entry, cf. 55-59) *)
Record pools := Pools {
  ps_sys : sys;
  ps_pools : list (nat * pool);
  ps_err : nat -> list exn;
  ps_fc : nat -> nat -> Z
}.
Definition pools_init (tasks : list nat) (s : sys) : pools :=
  Pools s (map (fun t => (t, [])) tasks) (fun _ => []) (fun _ _ => 0).

(* apply f to the pools in dict order, threading the process table *)
Fixpoint each (f : nat -> sys * pool -> sys * pool) (s : sys) (l : list (nat * pool)) : sys * list (nat * pool) :=
  match l with
  | [] => (s, [])
  | (t, p) :: r => let '(s1, p1) := f t (s, p) in let '(s2, r2) := each f s1 r in (s2, (t, p1) :: r2)
  end.
Definition on_pools (f : nat -> sys * pool -> sys * pool) (x : pools) : pools :=
  let '(s, l) := each f (ps_sys x) (ps_pools x) in Pools s l (ps_err x) (ps_fc x).

Section Pools.
  Variable num_workers : nat -> Z.            (* task.num_workers *)
  Variable max_block_failures : Z.            (* 3, task_worker_pools.py:11 *)

  (* task_worker_pools.py:26-34; [ts] are the keys of the dict given *)
  Definition recruit_workers (ts : list nat) (x : pools) : pools :=
    on_pools (fun t sp => if mem Nat.eqb t ts then set_num_workers t (num_workers t) sp else sp) x.
  (* task_worker_pools.py:36-39 *)
  Definition pools_stop (x : pools) : pools := on_pools (fun t => pool_stop t None) x.

  (* task_worker_pools.py:41-49 check_worker_health; an exception from an error queue
     (worker_pool.py:91-103) ends it *)
  Fixpoint health (s : sys) (err : nat -> list exn) (l : list (nat * pool))
    : sys * (nat -> list exn) * list (nat * pool) * option exn :=
    match l with
    | [] => (s, err, [], None)
    | (t, p) :: r =>
        match err t with
        | e :: es => (s, (fun u => if Nat.eqb t u then es else err u), l, Some e)
        | [] =>
            let '(p1, reaped) := reap_dead_workers (s, p) in
            let '(s2, p2) := if 0 <? reaped then inc_num_workers t reaped (s, p1) else (s, p1) in
            let '(s3, err3, r3, e) := health s2 err r in
            (s3, err3, (t, p2) :: r3, e)
        end
    end.
  Definition check_worker_health (x : pools) : pools * option exn :=
    let '(s, err, l, e) := health (ps_sys x) (ps_err x) (ps_pools x) in (Pools s l err (ps_fc x), e).

  (* task_worker_pools.py:51-71 *)
  Definition set_fc (fc : nat -> nat -> Z) (t w : nat) (n : Z) : nat -> nat -> Z :=
    fun t' w' => if Nat.eqb t t' && Nat.eqb w w' then n else fc t' w'.
  Definition on_block_failure (t wid : nat) (x : pools) : pools * option exn :=
    let n := ps_fc x t wid + 1 in
    if max_block_failures <? n then
      let y := Pools (ps_sys x) (ps_pools x) (ps_err x) (set_fc (ps_fc x) t wid 0) in
      if existsb (fun tp => Nat.eqb (fst tp) t) (ps_pools x) then
        (on_pools (fun u sp => if Nat.eqb u t then inc_num_workers t 1 (pool_stop t (Some wid) sp) else sp) y, None)
      else (y, Some KeyError)
    else (Pools (ps_sys x) (ps_pools x) (ps_err x) (set_fc (ps_fc x) t wid n), None).

  (* what can happen to the pools *)
  Inductive pevent :=
  | PRecruit (ts : list nat)         (* recruit_workers *)
  | PStop                            (* stop *)
  | PHealth                          (* check_worker_health *)
  | PFailure (t wid : nat)           (* on_block_failure, sent by worker wid of task t *)
  | PExit (wid : nat) (code : Z)     (* the process of worker wid ends *)
  | PError (t : nat) (e : exn).      (* a worker of t queues an exception, worker.py:102-110 *)
  Definition pstep (e : pevent) (x : pools) : pools * option exn :=
    match e with
    | PRecruit ts => (recruit_workers ts x, None)
    | PStop => (pools_stop x, None)
    | PHealth => check_worker_health x
    | PFailure t wid => on_block_failure t wid x
    | PExit wid code =>
        (Pools (match tbl (ps_sys x) wid with
                | Some (t, Running) => set_proc (ps_sys x) wid t (Exited code)
                | _ => ps_sys x
                end) (ps_pools x) (ps_err x) (ps_fc x), None)
    | PError t e => (Pools (ps_sys x) (ps_pools x) (fun u => if Nat.eqb t u then ps_err x t ++ [e] else ps_err x u)
                           (ps_fc x), None)
    end.
End Pools.
