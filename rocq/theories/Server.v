(* Model of daisy/server.py (class Server) and daisy/block_bookkeeper.py. *)
From Verif Require Export Py Block Sched SchedSpec Serial.
Open Scope Z_scope.

(* block_bookkeeper.py:7-11 BlockLog.  Streams are numbered; times are whole numbers of some
   small unit. *)
Record blog := BLog { lg_block : pyblock; lg_stream : nat; lg_time : Z }.
(* block_bookkeeper.py:15-17: sent_blocks, a dict by block id, in insertion order *)
Definition book := list ((nat * Z) * blog).
Definition bget (i : nat * Z) (b : book) : option blog :=
  match find (fun e => bid_eqb i (fst e)) b with Some e => Some (snd e) | None => None end.
Definition bdel (i : nat * Z) (b : book) : book := filter (fun e => negb (bid_eqb i (fst e))) b.

(* block_bookkeeper.py:19-28 *)
Definition notify_block_sent (now : Z) (pb : pyblock) (st : nat) (b : book) : res book :=
  match bget (bid (pb_block pb)) b with
  | Some _ => Err AssertionError
  | None => Ok (b ++ [(bid (pb_block pb), BLog pb st now)])
  end.
(* block_bookkeeper.py:30-45.  The attributes started_processing and stopped_processing set
   there are read nowhere in daisy and are left out. *)
Definition notify_block_returned (pb : pyblock) (st : nat) (b : book) : res book :=
  match bget (bid (pb_block pb)) b with
  | None => Err AssertionError
  | Some l => if Nat.eqb st (lg_stream l) then Ok (bdel (bid (pb_block pb)) b) else Err AssertionError
  end.
(* block_bookkeeper.py:47-63 *)
Definition is_valid_return (pb : pyblock) (st : nat) (b : book) : bool :=
  match bget (bid (pb_block pb)) b with
  | None => false
  | Some l => Nat.eqb (lg_stream l) st
  end.
(* block_bookkeeper.py:71-80.  [closed] tells which streams are closed, [now i] what time.time()
   returns when entry i is looked at. *)
Definition lost_ids (closed : nat -> bool) (timeout : option Z) (now : nat * Z -> Z) (b : book)
  : list (nat * Z) :=
  flat_map (fun e => (if closed (lg_stream (snd e)) then [fst e] else []) ++
                     match timeout with
                     | Some T => if T <? now (fst e) - lg_time (snd e) then [fst e] else []
                     | None => []
                     end) b.
(* block_bookkeeper.py:82-86 *)
Fixpoint take_lost (ids : list (nat * Z)) (b : book) : res (list pyblock * book) :=
  match ids with
  | [] => Ok ([], b)
  | i :: r =>
      match bget i b with
      | None => Err KeyError
      | Some l => '(bs, b') <- take_lost r (bdel i b) ;; Ok (lg_block l :: bs, b')
      end
  end.
(* block_bookkeeper.py:65-88 *)
Definition get_lost_blocks closed timeout now (b : book) : res (list pyblock * book) :=
  take_lost (lost_ids closed timeout now b) b.

(* daisy/messages: what a client can send.  [worker] is the worker_id in the context of a
   BlockFailed message. *)
Inductive message :=
| MAcquire (t : nat)
| MRelease (pb : pyblock)
| MBlockFailed (pb : pyblock) (worker : nat)
| MClientException (e : exn)
| MOther.

(* What the server does, in the order it does it; the newest action comes first in a trace.
   [ACall] records the calls of the scheduler (as in SchedSpec).  None of this is part of the
   Python state. *)
Inductive act :=
| ARecv (st : nat) (m : message)        (* took message m of stream st from the tcp server *)
| ARetry (t st : nat)                   (* took the delayed request of st from the queue of t *)
| ACall (e : event)
| ANote (n : note)                      (* notified the observers *)
| ASend (st : nat) (pb : pyblock)       (* sent SendBlock(pb) *)
| AShutdown (t st : nat)                (* answered a request for t by RequestShutdown *)
| ADelay (t st : nat)                   (* queued the request *)
| AInit (t : nat)                       (* called init_callback_fn *)
| ARecruit (ts : list nat)              (* called worker_pools.recruit_workers *)
| ALost (pb : pyblock) (st : nat).      (* found that pb, sent to st, is lost *)

Definition hist (tr : list act) : history :=
  flat_map (fun a => match a with ACall e => [e] | _ => [] end) tr.

(* server.py:28-55.  [sv_pend] is pending_requests, in the order of the tasks; the queue of task t
   holds AcquireBlock messages for t, of which only the stream is kept. *)
Record server := Server {
  sv_s : sched;
  sv_book : book;
  sv_pend : list (nat * list nat);
  sv_started : list nat;
  sv_finished : list nat;
  sv_stop : bool;
  sv_tr : list act
}.
Definition set_s (x : server) (s : sched) : server :=
  Server s (sv_book x) (sv_pend x) (sv_started x) (sv_finished x) (sv_stop x) (sv_tr x).
Definition set_book (x : server) (b : book) : server :=
  Server (sv_s x) b (sv_pend x) (sv_started x) (sv_finished x) (sv_stop x) (sv_tr x).
Definition set_pend (x : server) p : server :=
  Server (sv_s x) (sv_book x) p (sv_started x) (sv_finished x) (sv_stop x) (sv_tr x).
Definition add_tr (x : server) (l : list act) : server :=
  Server (sv_s x) (sv_book x) (sv_pend x) (sv_started x) (sv_finished x) (sv_stop x) (l ++ sv_tr x).

(* Queue.put and Queue.get of pending_requests[t] *)
Fixpoint pput (t st : nat) (p : list (nat * list nat)) : res (list (nat * list nat)) :=
  match p with
  | [] => Err KeyError
  | (u, q) :: r => if Nat.eqb t u then Ok ((u, q ++ [st]) :: r)
                   else r' <- pput t st r ;; Ok ((u, q) :: r')
  end.
(* server.py:92-97: the oldest request of the first queue that is not empty *)
Fixpoint pfirst (p : list (nat * list nat)) : option (nat * nat * list (nat * list nat)) :=
  match p with
  | [] => None
  | (u, []) :: r => match pfirst r with Some (t, st, r') => Some (t, st, (u, []) :: r') | None => None end
  | (u, st :: q) :: r => Some (u, st, (u, q) :: r)
  end.

(* What tcp_server.get_message gives (tcp_server.py:46-68). *)
Inductive got :=
| GotMessage (st : nat) (m : message)
| GotNothing                            (* the timeout of 0.1 s elapsed *)
| GotClosed                             (* StreamClosedError of some stream *)
| GotError (e : exn).                   (* another exception of handle_stream, e.g. in pickle.loads *)
(* The environment's part in one iteration of the event loop. *)
Record input := Input {
  i_get : got;
  i_closed : nat -> bool;                      (* stream.closed(), at _check_for_lost_blocks *)
  i_now : Z;                                   (* time.time() when a block is sent *)
  i_tick : bool;                               (* more than a second since the last check *)
  i_health : res unit;                         (* worker_pools.check_worker_health(), see Pool.v *)
  i_chk : nat -> block -> check_result;        (* check_function *)
  i_pick : block -> nat -> list block -> nat   (* set.pop() in mark_failure *)
}.

Section Server.
  Variables up down : block -> list block.
  Variable maxr : nat -> Z.
  Variable fuel : nat.
  Variable init : nat -> res unit.             (* init_callback_fn of the task *)

  (* server.py:187-208 *)
  Definition check_all (x : server) : server :=
    let st := s_st (sv_s x) in
    let '(fin, tr, all_done) :=
      fold_left (fun '(fin, tr, all_done) t =>
                   if ts_is_done (st t) then
                     if mem Nat.eqb t fin then (fin, tr, all_done)
                     else (sadd Nat.eqb t fin, ANote (NDone t (st t)) :: tr, all_done)
                   else (fin, tr, false))
                (s_order (sv_s x)) (sv_finished x, sv_tr x, true) in
    Server (sv_s x) (sv_book x) (sv_pend x) (sv_started x) fin (sv_stop x || all_done) tr.

  (* server.py:241-259 *)
  Definition recruit (x : server) : res server :=
    let ready := get_ready_tasks (sv_s x) in
    '(started, tr) <- foldM (fun '(started, tr) t =>
        if mem Nat.eqb t started then Ok (started, tr)
        else _ <- init t ;;
             Ok (sadd Nat.eqb t started, AInit t :: ANote (NStart t (s_st (sv_s x) t)) :: tr))
      ready (sv_started x, sv_tr x) ;;
    Ok (Server (sv_s x) (sv_book x) (sv_pend x) started (sv_finished x) (sv_stop x)
               (ARecruit ready :: tr)).

  (* server.py:174-185 *)
  Definition sv_release (i : input) (pb : pyblock) (x : server) : res server :=
    let t := b_task (pb_block pb) in
    s1 <- release_block up down maxr fuel (i_pick i (pb_block pb)) (sv_s x) pb ;;
    recruit (check_all (add_tr (set_s x s1) [ANote (NRelease t (s_st s1 t)); ACall (EvRel pb)])).

  (* server.py:210-221 *)
  Definition safe_release (i : input) (pb : pyblock) (st : nat) (x : server) : res server :=
    if is_valid_return pb st (sv_book x) then
      y <- sv_release i pb x ;;
      b <- notify_block_returned pb st (sv_book y) ;;
      Ok (set_book y b)
    else Ok x.

  (* task_states is a defaultdict (scheduler.py:45): looking up an unknown task adds it *)
  Definition touch (s : sched) (t : nat) : sched :=
    Sched (s_surf s) (s_q s) (s_st s) (sadd Nat.eqb t (s_order s)).

  (* server.py:125-168.  ASend and AShutdown stand for the attempt to send: a StreamClosedError
     is ignored (99-103). *)
  Definition handle_acquire (i : input) (t st : nat) (x : server) : res server :=
    '(s1, r, sk) <- acquire_block up down maxr fuel (i_chk i) (touch (sv_s x) t) t ;;
    let ts := s_st s1 t in
    let call := match r with Some pb => EvHand t pb | None => EvNone t end in
    let y := add_tr (set_s x s1) (map ACall (call :: rev (map EvSkip sk))) in
    match r with
    | None =>
        if negb (ts_ready ts =? 0) then Err AssertionError                    (* 135 *)
        else if ts_pending ts =? 0 then recruit (add_tr y [AShutdown t st])   (* 137-151 *)
        else p <- pput t st (sv_pend y) ;;                                    (* 159 *)
             Ok (add_tr (set_pend y p) [ADelay t st])
    | Some pb =>                                                              (* 161-168 *)
        b <- notify_block_sent (i_now i) pb st (sv_book y) ;;
        Ok (add_tr (set_book y b) [ANote (NAcquire t ts); ASend st pb])
    end.

  (* server.py:113-123, 170-172, 223-239 *)
  Definition handle_message (i : input) (st : nat) (m : message) (x : server) : res server :=
    y <- match m with
         | MAcquire t => handle_acquire i t st x
         | MRelease pb => safe_release i pb st x
         | MBlockFailed pb w =>
             let pb' := PB (pb_block pb) FAILED in
             y <- safe_release i pb' st x ;;
             Ok (add_tr y [ANote (NFailure pb' w)])
         | MClientException e => Err e
         | MOther => Err UnexpectedMessage
         end ;;
    Ok (check_all y).

  (* server.py:83-111 *)
  Definition handle_messages (i : input) (x : server) : res server :=
    match i_get i with
    | GotError e => Err e
    | GotClosed => Ok x
    | GotMessage st m => handle_message i st m (add_tr x [ARecv st m])
    | GotNothing =>
        match pfirst (sv_pend x) with
        | None => Ok x
        | Some (t, st, p) => handle_message i st (MAcquire t) (add_tr (set_pend x p) [ARetry t st])
        end
    end.

  (* server.py:261-268.  The server has no processing_timeout (48). *)
  Definition check_lost (i : input) (x : server) : res server :=
    '(bs, b) <- get_lost_blocks (i_closed i) None (fun _ => i_now i) (sv_book x) ;;
    let note := flat_map (fun e => if i_closed i (lg_stream (snd e))
                                   then [ALost (lg_block (snd e)) (lg_stream (snd e))] else [])
                         (sv_book x) in
    foldM (fun x pb => sv_release i (PB (pb_block pb) FAILED) x) bs
          (add_tr (set_book x b) (rev note)).

  (* server.py:74-81 the body of the event loop *)
  Definition iteration (i : input) (x : server) : res server :=
    y <- handle_messages i x ;;
    z <- check_lost i y ;;
    _ <- i_health i ;;
    Ok (if i_tick i then check_all z else z).

  (* server.py:72-81, for as many iterations as there are inputs *)
  Fixpoint event_loop (ins : list input) (x : server) : res server :=
    if sv_stop x then Ok x
    else match ins with
         | [] => Ok x
         | i :: r => y <- iteration i x ;; event_loop r y
         end.

  (* server.py:41-57.  [tasks]: the ids of the tasks given; [stopped]: the stop event was set
     before. *)
  Definition server_init (tasks : list nat) (stopped : bool) (s0 : sched) : res server :=
    recruit (Server s0 [] (map (fun t => (t, [])) (dedup Nat.eqb tasks)) [] [] stopped []).
  (* server.py:41-70; the worker pools are stopped and the streams closed at the end *)
  Definition server_run tasks stopped ins s0 : res server :=
    x <- server_init tasks stopped s0 ;;
    y <- event_loop ins x ;;
    Ok (add_tr y [ANote NExit]).
End Server.
