(* A run as a whole over the network: the server, its pools of worker processes, the connections
   between them (Net.v) and the programs of the workers.  As WholeAny.v, with the threads, queues
   and sockets of Net.v in place of lists of messages.  server.py, task_worker_pools.py,
   client.py, tcp/. *)
From Coq Require Import Arith.
From Verif Require Export WholeAny.
From Verif Require Client Pool Tcp Net NetFacts.
Open Scope Z_scope.

(* daisy/messages: what goes from a worker to the server, and back *)
Inductive payload := ToServer (m : message) | ToWorker (r : Client.reply).

(* Where the program of a worker is (client.py:36-107 in the loop of task.py:183-189).  [PNew]: in
   the constructor of its TCPClient; [PSend l more]: has to send the messages l about its last
   block, and then, if [more], the request for another one; [PWait]: in the loop of acquire_block;
   [PWork pb]: in the body; [PBye]: in disconnect(); [PEnd]: makes no more calls. *)
Inductive pc := PNew | PSend (l : list message) (more : bool) | PWait | PWork (pb : pyblock) | PBye | PEnd.

(* the next call of TCPClient.  client.py:72, 76, 93, 101, 104; t: the worker's task *)
Definition request (t : nat) (p : pc) : option (Net.call payload) :=
  match p with
  | PSend (m :: _) _ => Some (Net.CSend (ToServer m))
  | PSend [] true => Some (Net.CSend (ToServer (MAcquire t)))
  | PWait => Some Net.CGet
  | PBye => Some Net.CDisc
  | _ => None
  end.
(* how the program goes on after the call.  client.py:74-82, 102-107; an exception ends it *)
Definition resume (p : pc) (r : Net.cret payload) : pc :=
  match r, p with
  | Net.RConnected, PNew => PSend [] true
  | Net.RSent _, PSend (_ :: l) b => PSend l b
  | Net.RSent _, PSend [] _ => PWait
  | Net.RGotten None, PWait => PWait                                            (* 75: while message is None *)
  | Net.RGotten (Some (Net.App (ToWorker (Client.RSend pb)))), PWait => PWork pb
  | Net.RGotten (Some (Net.App (ToWorker Client.RShutdown))), PWait => PBye
  | _, _ => PEnd
  end.
(* client.py:86-101; KeyboardInterrupt and SystemExit leave the loop of the worker *)
Definition goes_on (o : Client.outcome) : bool := match o with Client.Interrupted _ => false | _ => true end.

(* The network and the threads of the IO loops; [client_side]: in the process of the worker. *)
Definition io (k : Net.klabel payload) : bool :=
  match k with
  | Net.KConn _ | Net.KFlushC _ | Net.KArriveC _ | Net.KReadC | Net.KFailC | Net.KLateC
  | Net.KFlushS _ | Net.KArriveS _ | Net.KReadS | Net.KFailS | Net.KLateS => true
  | _ => false
  end.
Definition client_side (k : Net.klabel payload) : bool :=
  match k with Net.KConn _ | Net.KFlushC _ | Net.KReadC | Net.KFailC | Net.KLateC => true | _ => false end.

(* Processes and streams are numbered as in Whole.v.  [x_todo]: what the main thread of the server
   has still to send in this iteration of its loop. *)
Record wire := Wire {
  x_sv : server; x_ps : Pool.pools; x_net : Net.net payload; x_pc : nat -> pc; x_todo : list (nat * Client.reply) }.
Definition xproc (x : wire) (st : nat) : option (nat * Pool.pstat) := Pool.tbl (Pool.ps_sys (x_ps x)) st.
Definition set_net (x : wire) (n : Net.net payload) : wire := Wire (x_sv x) (x_ps x) n (x_pc x) (x_todo x).
Definition set_pc (x : wire) (st : nat) (p : pc) : wire :=
  Wire (x_sv x) (x_ps x) (x_net x) (fun s => if Nat.eqb s st then p else x_pc x s) (x_todo x).
Definition set_ps (x : wire) (ps : Pool.pools) : wire := Wire (x_sv x) ps (x_net x) (x_pc x) (x_todo x).
Definition rets (x : wire) (st : nat) : list (Net.cret payload) := Net.c_rets (Net.n_link (x_net x) st).

(* server.py:83-90: what tcp_server.get_message gave.  Other exceptions than StreamClosedError end
   the server (C82) *)
Definition got_of (r : Net.sret payload) : option got :=
  match r with
  | Net.SGot st (Net.App (ToServer m)) => Some (GotMessage st m)
  | Net.SNone => Some GotNothing
  | Net.SRaised _ Net.StreamClosedErr => Some GotClosed
  | _ => None
  end.
(* what the server sends, oldest first *)
Definition sends (l : list act) : list (nat * Client.reply) :=
  flat_map (fun a => match a with
                     | ASend s pb => [(s, Client.RSend pb)]
                     | AShutdown _ s => [(s, Client.RShutdown)]
                     | _ => []
                     end) (rev l).

Inductive xmove :=
| XNet (st : nat) (k : Net.klabel payload)    (* the network, or an IO loop *)
| XLost (st : nat)                            (* the process is gone, so its socket is closed *)
| XCall (st : nat)                            (* a worker calls its TCPClient *)
| XMain (st : nat) (k : Net.klabel payload)   (* the call goes on *)
| XBody (st : nat) (o : Client.outcome)       (* the body ends: client.py:86-101 *)
| XEnd (st : nat) (c : Z)                     (* the process ends, with exit code c *)
| XRaise (st : nat) (e : exn)                 (* worker.py:102-110: the spawn function raises e *)
| XServe (i : input)                          (* server.py:74-81, but for the sending *)
| XSend.                                      (* server.py:99-103, 143, 164 *)

(* A stream may be seen to be closed if something came through it and the connection is gone.  The server
   does not know the others and does not ask for them. *)
Definition closable (x : wire) (st : nat) : Prop :=
  (NetFacts.got_from st (Net.n_rets (x_net x)) <> [] /\ Net.broken (Net.n_link (x_net x) st) = true) \/
  (NetFacts.got_from st (Net.n_rets (x_net x)) = [] /\ exists t c, xproc x st = Some (t, Pool.Exited c)).

Section Wire.
  Variables up down : block -> list block.
  Variable maxr : nat -> Z.
  Variable fuel : nat.
  Variable init : nat -> res unit.
  Variable nw : nat -> Z.
  Variable mbf : Z.
  (* pickle, as in Net.v *)
  Variable dumps : Net.nmsg payload -> option Tcp.bytes.
  Variable loads : Tcp.bytes -> option (Net.nmsg payload).
  Local Notation nstep := (Net.nstep dumps loads).

  Fixpoint pools_do (es : list Pool.pevent) (ps : Pool.pools) : res Pool.pools :=
    match es with
    | [] => Ok ps
    | e :: es => match Pool.pstep nw mbf e ps with (ps', None) => pools_do es ps' | (_, Some x) => Err x end
    end.

  Inductive xstep (x : wire) : xmove -> wire -> Prop :=
  | xs_net st k n : io k = true -> xproc x st <> None ->
      (client_side k = true -> exists t, xproc x st = Some (t, Pool.Running)) ->
      nstep (Net.NLink st k) (x_net x) = Some n -> xstep x (XNet st k) (set_net x n)
  | xs_lost st t c n : xproc x st = Some (t, Pool.Exited c) ->
      nstep (Net.NLink st Net.KBreak) (x_net x) = Some n -> xstep x (XLost st) (set_net x n)
  | xs_call st t c n : xproc x st = Some (t, Pool.Running) -> request t (x_pc x st) = Some c ->
      nstep (Net.NLink st (Net.KCall c)) (x_net x) = Some n -> xstep x (XCall st) (set_net x n)
  | xs_main st t k n rs : xproc x st = Some (t, Pool.Running) -> k = Net.KMain \/ k = Net.KTimeout ->
      nstep (Net.NLink st k) (x_net x) = Some n -> Net.c_rets (Net.n_link n st) = rets x st ++ rs ->
      xstep x (XMain st k) (set_pc (set_net x n) st (fold_left resume rs (x_pc x st)))
  | xs_body st t pb o : xproc x st = Some (t, Pool.Running) -> x_pc x st = PWork pb ->
      xstep x (XBody st o) (set_pc x st (PSend (returned st pb o) (goes_on o)))
  | xs_end st t c : xproc x st = Some (t, Pool.Running) ->
      xstep x (XEnd st c) (set_ps x (fst (Pool.pstep nw mbf (Pool.PExit st c) (x_ps x))))
  | xs_raise st t e : xproc x st = Some (t, Pool.Running) ->
      xstep x (XRaise st e) (set_ps x (fst (Pool.pstep nw mbf (Pool.PExit st 0) (queued nw mbf (x_ps x) t e))))
  | xs_serve i n r sv l ps : x_todo x = [] -> sv_stop (x_sv x) = false ->
      (* server.py:85: the message *)
      nstep Net.NGet (x_net x) = Some n -> Net.n_rets n = Net.n_rets (x_net x) ++ [r] -> got_of r = Some (i_get i) ->
      i_health i = Ok tt ->
      (* server.py:261-268, block_bookkeeper.py:71-75, tcp_stream.py:58-62: the streams that are closed *)
      (forall st, i_closed i st = true -> closable x st) ->
      iteration up down maxr fuel init i (x_sv x) = Ok sv -> sv_tr sv = l ++ sv_tr (x_sv x) ->
      pools_do (pool_acts l ++ [Pool.PHealth]) (x_ps x) = Ok ps ->
      xstep x (XServe i) (Wire sv ps n (x_pc x) (sends l))
  | xs_send st r todo : x_todo x = (st, r) :: todo ->
      (* StreamClosedError: server.py:99-103 *)
      xstep x XSend (Wire (x_sv x) (x_ps x)
        (match nstep (Net.NLink st (Net.KSend (ToWorker r))) (x_net x) with Some n => n | None => x_net x end) (x_pc x) todo).

  Inductive xruns (x : wire) : list xmove -> wire -> Prop :=
  | xruns_nil : xruns x [] x
  | xruns_step ms x1 m x2 : xruns x ms x1 -> xstep x1 m x2 -> xruns x (ms ++ [m]) x2.

  (* server.py:39-71: no connection yet *)
  Definition wire_init (h : whole) : wire := Wire (h_sv h) (h_ps h) Net.net_init (fun _ => PNew) [].
End Wire.
