(* A run as a whole: the server, its pools of worker processes, and the workers.  server.py
   (Server.v), task_worker_pools.py, worker_pool.py, worker.py (Pool.v), client.py (Sys.v). *)
From Coq Require Import Arith.
From Verif Require Export Sys.
From Verif Require Client Pool.
Open Scope Z_scope.

(* Worker ids (worker.py:30-38) serve as numbers of processes and of streams as well: every
   process opens one connection (client.py:52-58).  The phase Replaced of Sys.v is not used: who was
   replaced is no longer in its pool. *)
Record whole := Whole { h_sv : server; h_ps : Pool.pools; h_w : nat -> worker }.

Definition proc (h : whole) (st : nat) : option (nat * Pool.pstat) := Pool.tbl (Pool.ps_sys (h_ps h)) st.
Definition alive (h : whole) (st : nat) : Prop := exists t, proc h st = Some (t, Pool.Running).
Definition known (h : whole) (st : nat) : Prop := proc h st <> None.
Definition pooled (ps : Pool.pools) (st : nat) : Prop :=
  exists t p, In (t, p) (Pool.ps_pools ps) /\ In st (map Pool.w_id p).
(* dead and no longer in the pool *)
Definition gone (h : whole) (st : nat) : Prop := known h st /\ w_at (h_w h st) = Dead /\ ~ pooled (h_ps h) st.
(* not yet connected, or dead and to be replaced *)
Definition to_come (h : whole) (st : nat) : Prop :=
  known h st /\ (w_at (h_w h st) = Unborn \/ w_at (h_w h st) = Dead /\ pooled (h_ps h) st).
Definition hput (h : whole) (st : nat) (w : worker) : whole :=
  Whole (h_sv h) (h_ps h) (fun s => if Nat.eqb s st then w else h_w h s).

(* What the server has its pools do, oldest first: server.py:245-258 (recruit_workers), and
   on_block_failure (server.py:224-233 through the context of the worker, task_worker_pools.py:51-71). *)
Definition pool_acts (l : list act) : list Pool.pevent :=
  flat_map (fun a => match a with
                     | ARecruit ts => [Pool.PRecruit ts]
                     | ANote (NFailure pb w) => [Pool.PFailure (b_task (pb_block pb)) w]
                     | _ => []
                     end) (rev l).
(* the workers after something was done to the processes: new ones, and those that were killed
   (worker.py:71-84); [cut]: how many of their messages still arrive *)
Definition sync (cut : nat -> nat) (a b : Pool.pools) (f : nat -> worker) (st : nat) : worker :=
  match Pool.tbl (Pool.ps_sys a) st, Pool.tbl (Pool.ps_sys b) st with
  | None, Some (t, Pool.Running) => Worker t Unborn [] []
  | None, Some (t, Pool.Exited _) => Worker t Dead [] []
  | Some (_, Pool.Running), Some (_, Pool.Exited _) => Worker (w_task (f st)) Dead (firstn (cut st) (w_out (f st))) []
  | _, _ => f st
  end.

(* What the outside can do to one iteration of the server's loop (cf. Sys.input_ok). *)
Definition hinput_ok (h : whole) (i : input) : Prop :=
  i_health i = Ok tt /\
  match i_get i with
  | GotMessage st m => known h st /\ exists r, w_out (h_w h st) = m :: r
  | GotError _ => False
  | _ => True
  end /\
  forall st, i_closed i st = true -> known h st /\ offline (w_at (h_w h st)).

Inductive hmove :=
| HConnect (st : nat)                     (* the process has started and connects *)
| HAsk (st : nat)                         (* client.py:72 *)
| HGet (st : nat)                         (* client.py:74-82, 102-105 *)
| HFinish (st : nat) (o : Client.outcome) (* the body ends: client.py:86-101 *)
| HExit (st : nat)                        (* worker.py:128-136: the process ends by itself, exit code 0 *)
| HEnd (st n : nat) (c : Z)               (* the process ends otherwise, with exit code c; n of its messages still arrive *)
| HServe (i : input) (cut : nat -> nat).  (* server.py:74-81 *)

Section Whole.
  Variables up down : block -> list block.
  Variable maxr : nat -> Z.
  Variable fuel : nat.
  Variable init : nat -> res unit.
  Variable nw : nat -> Z.                  (* task.num_workers *)
  Variable mbf : Z.                        (* max_block_failures: 3, task_worker_pools.py:11 *)

  Fixpoint on_all (cut : nat -> nat) (es : list Pool.pevent) (ps : Pool.pools) (f : nat -> worker)
    : res (Pool.pools * (nat -> worker)) :=
    match es with
    | [] => Ok (ps, f)
    | e :: es => match Pool.pstep nw mbf e ps with
                 | (ps', None) => on_all cut es ps' (sync cut ps ps' f)
                 | (_, Some x) => Err x
                 end
    end.

  Inductive hstep (h : whole) : hmove -> whole -> Prop :=
  | hs_connect st t o r : alive h st -> h_w h st = Worker t Unborn o r ->
      hstep h (HConnect st) (hput h st (Worker t Asking o r))
  | hs_ask st t o r : alive h st -> h_w h st = Worker t Asking o r ->
      hstep h (HAsk st) (hput h st (Worker t Waiting (o ++ [MAcquire t]) r))
  | hs_block st t o pb r : alive h st -> h_w h st = Worker t Waiting o (Client.RSend pb :: r) ->
      hstep h (HGet st) (hput h st (Worker t (Working pb) o r))
  | hs_leave st t o r : alive h st -> h_w h st = Worker t Waiting o (Client.RShutdown :: r) ->
      hstep h (HGet st) (hput h st (Worker t Left o r))
  | hs_finish st t o pb r out : alive h st -> h_w h st = Worker t (Working pb) o r ->
      (forall s, out <> Client.Interrupted s) ->
      hstep h (HFinish st out) (hput h st (Worker t Asking (o ++ returned st pb out) r))
  | hs_exit st : alive h st -> w_at (h_w h st) = Left ->
      hstep h (HExit st) (Whole (h_sv h) (fst (Pool.pstep nw mbf (Pool.PExit st 0) (h_ps h))) (h_w h))
  | hs_end st n c t p o r : alive h st -> h_w h st = Worker t p o r -> c <> 0 \/ p <> Left ->
      hstep h (HEnd st n c)
        (Whole (h_sv h) (fst (Pool.pstep nw mbf (Pool.PExit st c) (h_ps h)))
               (fun s => if Nat.eqb s st then Worker t Dead (firstn n o) [] else h_w h s))
  | hs_serve i cut sv l ps f : sv_stop (h_sv h) = false -> hinput_ok h i ->
      iteration up down maxr fuel init i (h_sv h) = Ok sv -> sv_tr sv = l ++ sv_tr (h_sv h) ->
      on_all cut (pool_acts l ++ [Pool.PHealth]) (h_ps h)
        (fun s => deliver s l (taken (i_get i) s (h_w h s))) = Ok (ps, f) ->
      hstep h (HServe i cut) (Whole sv ps f).

  Inductive hruns (h : whole) : list hmove -> whole -> Prop :=
  | hruns_nil : hruns h [] h
  | hruns_step ms h1 m h2 : hruns h ms h1 -> hstep h1 m h2 -> hruns h (ms ++ [m]) h2.

  (* the beginning (server.py:39-71): one pool for each task, and the first workers *)
  Definition whole_init (tasks : list nat) (s0 : sched) : res whole :=
    sv <- server_init init tasks false s0 ;;
    '(ps, f) <- on_all (fun _ => 0%nat) (pool_acts (sv_tr sv))
                  (Pool.pools_init (dedup Nat.eqb tasks) (Pool.Sys (fun _ => None) 0))
                  (fun _ => Worker 0 Unborn [] []) ;;
    Ok (Whole sv ps f).
End Whole.

(* Moves that are not excluded: the loss of a worker with its block is noticed before another
   worker of its task connects, and its connection stays noticed; a process that has not been told to
   leave does not end with exit code 0, and one that dies does not leave a report of a failed block
   behind. *)
Definition prudent (h : whole) (m : hmove) : Prop :=
  match m with
  | HConnect st => forall s, gone h s -> w_task (h_w h s) = w_task (h_w h st) -> ~ has_block (h_sv h) s
  | HEnd st n c => c <> 0 /\ forall pb w, ~ In (MBlockFailed pb w) (firstn n (w_out (h_w h st)))
  | HServe i _ => forall s, gone h s -> i_closed i s = true \/
      exists u, to_come h u /\ w_task (h_w h u) = w_task (h_w h s)
  | _ => True
  end.
