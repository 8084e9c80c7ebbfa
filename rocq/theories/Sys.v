(* The server together with its workers: what a worker sends is what the server receives, in
   order, and what the server answers is what the worker gets.  server.py, client.py (through
   Client.v and C38), worker.py:88-136, worker_pool.py:60-83, tcp/tcp_stream.py. *)
From Coq Require Import Arith.
From Verif Require Export Server.
From Verif Require Client.
Open Scope Z_scope.

(* Where a worker is.  [Waiting]: in acquire_block, after the request was sent (client.py:72-74);
   [Left]: it was told to shut down and has disconnected (client.py:102-105);
   [Dead]: its process or its connection is gone (worker.py:128-136: exit code not 0);
   [Replaced]: so is it, and worker_pool.py:66-83 has started another one in its place. *)
Inductive phase := Unborn | Asking | Waiting | Working (pb : pyblock) | Left | Dead | Replaced.
(* [w_out]: sent and not yet taken by Server._handle_client_messages, oldest first; [w_in]: sent
   by the server and not yet taken by the client, oldest first (tcp keeps the order of a stream). *)
Record worker := Worker { w_task : nat; w_at : phase; w_out : list message; w_in : list Client.reply }.
(* [y_team]: the streams of the workers so far.  Streams are numbered as in Server.v. *)
Record sys := Sys { y_sv : server; y_team : list nat; y_w : nat -> worker }.
Definition put (y : sys) (st : nat) (w : worker) : sys :=
  Sys (y_sv y) (y_team y) (fun s => if Nat.eqb s st then w else y_w y s).

Definition offline (p : phase) : Prop := match p with Left | Dead | Replaced => True | _ => False end.
Definition running (p : phase) : Prop := match p with Dead | Replaced => False | _ => True end.
(* a worker that has not connected yet, or will be replaced by one *)
Definition coming (p : phase) : Prop := match p with Unborn | Dead => True | _ => False end.

(* what the client sends after its body, Client.run_block (client.py:83-101); an interrupted
   worker (KeyboardInterrupt) is left out *)
Definition returned (st : nat) (pb : pyblock) (o : Client.outcome) : list message :=
  flat_map (fun m => match m with
                     | Client.CBlockFailed b => [MBlockFailed b st]
                     | Client.CRelease b => [MRelease b]
                     | _ => []
                     end)
    (Client.cr_sent (Client.run_block pb (fun _ => o) (Client.Drops false false false) [])).

(* the answers of the server to stream st, in a piece of its trace *)
Definition replies (st : nat) (l : list act) : list Client.reply :=
  flat_map (fun a => match a with
                     | ASend s pb => if Nat.eqb s st then [Client.RSend pb] else []
                     | AShutdown _ s => if Nat.eqb s st then [Client.RShutdown] else []
                     | _ => []
                     end) (rev l).
Definition deliver (st : nat) (l : list act) (w : worker) : worker :=
  Worker (w_task w) (w_at w) (w_out w) (w_in w ++ replies st l).
(* the message is taken *)
Definition taken (g : got) (st : nat) (w : worker) : worker :=
  match g with
  | GotMessage s _ => if Nat.eqb s st then Worker (w_task w) (w_at w) (tl (w_out w)) (w_in w) else w
  | _ => w
  end.

(* What the outside can do to one iteration of the server's loop: messages come from the
   workers, in the order they were sent; a stream is closed only if its worker is gone, and the
   stream of a worker that was replaced is seen closed unless a worker of its task is still to
   connect; no worker reports an exception by the error queue. *)
Definition input_ok (y : sys) (i : input) : Prop :=
  i_health i = Ok tt /\
  match i_get i with
  | GotMessage st m => In st (y_team y) /\ exists r, w_out (y_w y st) = m :: r
  | GotError _ => False
  | _ => True
  end /\
  (forall st, i_closed i st = true -> In st (y_team y) /\ offline (w_at (y_w y st))) /\
  (forall st, In st (y_team y) -> w_at (y_w y st) = Replaced -> i_closed i st = true \/
     exists s, In s (y_team y) /\ w_task (y_w y s) = w_task (y_w y st) /\ coming (w_at (y_w y s))).

Inductive move :=
| Spawn (st : nat)                       (* the process starts and connects *)
| Ask (st : nat)                         (* client.py:72 *)
| Get (st : nat)                         (* client.py:74-82, 102-105 *)
| Finish (st : nat) (o : Client.outcome) (* the body ends: client.py:86-101 *)
| Die (st n : nat)                       (* the process dies; n of its messages still arrive *)
| Replace (st st' : nat)                 (* worker_pool.py:66-83 *)
| Hire (st t : nat)                      (* worker_pool.py:138-144: one more worker for task t *)
| Serve (i : input).                     (* server.py:74-81 *)

(* a block sent to st is in the book *)
Definition has_block (sv : server) (st : nat) : Prop := exists e, In e (sv_book sv) /\ lg_stream (snd e) = st.

Section Sys.
  Variables up down : block -> list block.
  Variable maxr : nat -> Z.
  Variable fuel : nat.
  Variable init : nat -> res unit.

  Inductive step (y : sys) : move -> sys -> Prop :=
  (* server.py:252-258: recruit_workers is called for tasks that are started.  That a worker was
     lost with its block is noticed before the next one connects *)
  | step_spawn st t o r : In st (y_team y) -> y_w y st = Worker t Unborn o r -> In t (sv_started (y_sv y)) ->
      (forall s, In s (y_team y) -> w_task (y_w y s) = t -> w_at (y_w y s) = Replaced -> ~ has_block (y_sv y) s) ->
      step y (Spawn st) (put y st (Worker t Asking o r))
  | step_ask st t o r : In st (y_team y) -> y_w y st = Worker t Asking o r ->
      step y (Ask st) (put y st (Worker t Waiting (o ++ [MAcquire t]) r))
  | step_block st t o pb r : In st (y_team y) -> y_w y st = Worker t Waiting o (Client.RSend pb :: r) ->
      step y (Get st) (put y st (Worker t (Working pb) o r))
  | step_leave st t o r : In st (y_team y) -> y_w y st = Worker t Waiting o (Client.RShutdown :: r) ->
      step y (Get st) (put y st (Worker t Left o r))
  | step_finish st t o pb r out : In st (y_team y) -> y_w y st = Worker t (Working pb) o r ->
      (forall s, out <> Client.Interrupted s) ->
      step y (Finish st out) (put y st (Worker t Asking (o ++ returned st pb out) r))
  | step_die st t p o r n : In st (y_team y) -> y_w y st = Worker t p o r -> running p -> In t (sv_started (y_sv y)) ->
      step y (Die st n) (put y st (Worker t Dead (firstn n o) []))
  | step_replace st st' t o r : In st (y_team y) -> y_w y st = Worker t Dead o r -> ~ In st' (y_team y) ->
      step y (Replace st st')
        (Sys (y_sv y) (st' :: y_team y)
             (fun s => if Nat.eqb s st' then Worker t Unborn [] []
                       else if Nat.eqb s st then Worker t Replaced o r else y_w y s))
  (* for one of the tasks of the server (server.py:50-51) *)
  | step_hire st t : ~ In st (y_team y) -> In t (map fst (sv_pend (y_sv y))) ->
      step y (Hire st t)
        (Sys (y_sv y) (st :: y_team y) (fun s => if Nat.eqb s st then Worker t Unborn [] [] else y_w y s))
  | step_serve i sv l : sv_stop (y_sv y) = false -> input_ok y i ->
      iteration up down maxr fuel init i (y_sv y) = Ok sv -> sv_tr sv = l ++ sv_tr (y_sv y) ->
      step y (Serve i) (Sys sv (y_team y) (fun s => deliver s l (taken (i_get i) s (y_w y s)))).

  Inductive runs (y : sys) : list move -> sys -> Prop :=
  | runs_nil : runs y [] y
  | runs_step ms y1 m y2 : runs y ms y1 -> step y1 m y2 -> runs y (ms ++ [m]) y2.

  (* the beginning: the server is set up, and for each worker to be started, its task
     (worker_pools of the tasks, task.num_workers each) *)
  Definition crew_worker (crew : list nat) (st : nat) : worker :=
    Worker (nth st crew 0%nat) Unborn [] [].
  Definition start_of (sv : server) (crew : list nat) : sys := Sys sv (seq 0 (length crew)) (crew_worker crew).
End Sys.

(* what counts as work: anything a worker does; an iteration of the server in which a message
   is taken, a block is sent, skipped or comes back, or a worker is told to shut down *)
Definition effect (a : act) : bool :=
  match a with
  | ASend _ _ | AShutdown _ _ | ALost _ _ => true
  | ACall (EvSkip _) | ACall (EvRel _) | ACall (EvHand _ _) => true
  | _ => false
  end.
Definition works (y : sys) (m : move) (y' : sys) : Prop :=
  match m with
  | Die _ _ | Replace _ _ | Hire _ _ => False
  | Serve i => (exists st msg, i_get i = GotMessage st msg) \/
               exists l, sv_tr (y_sv y') = l ++ sv_tr (y_sv y) /\ existsb effect l = true
  | _ => True
  end.
