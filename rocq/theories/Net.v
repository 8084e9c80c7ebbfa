(* Model of daisy/tcp/tcp_client.py, tcp_server.py and of TCPStream (tcp_stream.py): the threads
   at both ends of a connection and the queues between them.  Every label is one atomic piece of
   one thread: a main thread between two accesses to shared data, or a coroutine of the IO loop
   up to its next await.  tornado's IOStream is modelled as in Tcp.v; once a connection is broken
   (closed by one side or lost) reads and writes may fail, and what is under way may get lost.
   A client process has one connection, accepted by the server at the moment it is made; the IO
   loops run the callbacks in the order they were added (io_looper.py, tornado's add_callback). *)
From Verif Require Export Tcp.
Open Scope Z_scope.

(* tcp/exceptions.py; [AttrErr]: AttributeError (an attribute of None); [LoadErr]: pickle.loads
   raised; [ConnErr]: the connection could not be made *)
Inductive nexn := StreamClosedErr | NotConnectedErr | AttrErr | LoadErr | ConnErr.

Section Net.
  (* A: the messages of the users of TCPClient and TCPServer *)
  Context {A : Type}.
  (* tcp/internal_messages.py *)
  Inductive nmsg := App (a : A) | Notify | Ack.
  (* pickle.dumps, None if it raises; pickle.loads, None if it raises *)
  Context (dumps : nmsg -> option bytes) (loads : bytes -> option nmsg).

  (* One direction of a connection.  [ch_cbs]: the callbacks _send_message added to the sender's
     IO loop (tcp_stream.py:47); [ch_wire]: written, not yet arrived; [ch_buf]: arrived, not yet
     read.  tcp_stream.py:85-102: [RSize] waits for read_bytes(4) (or is about to), [RGot n] was
     resumed with the size, [RBody n] waits for read_bytes(n). *)
  Inductive rstate := RSize | RGot (n : Z) | RBody (n : Z).
  Record chan := Chan { ch_cbs : list nmsg; ch_wire : bytes; ch_st : rstate; ch_buf : bytes }.
  Definition chan_init : chan := Chan [] [] RSize [].
  Definition post (m : nmsg) (h : chan) : chan :=
    Chan (ch_cbs h ++ [m]) (ch_wire h) (ch_st h) (ch_buf h).
  (* tcp_stream.py:64-83, [ok]: the stream takes the bytes.  If pickle.dumps or struct.pack
     raises, the coroutine ends (the IO loop logs it) and nothing is written. *)
  Definition flush (ok : bool) (h : chan) : option chan :=
    match ch_cbs h with
    | [] => None
    | m :: r =>
        Some (Chan r (if ok then match dumps m with Some p => write (ch_wire h) p | None => ch_wire h end
                      else ch_wire h) (ch_st h) (ch_buf h))
    end.
  (* n more bytes arrive *)
  Definition arrive (n : nat) (h : chan) : option chan :=
    if (1 <=? n)%nat && (n <=? length (ch_wire h))%nat
    then Some (Chan (ch_cbs h) (skipn n (ch_wire h)) (ch_st h) (ch_buf h ++ firstn n (ch_wire h)))
    else None.
  (* the coroutine _get_message goes on; Some p: the message's bytes were read.  [open]: the
     attribute stream of the TCPStream is not None *)
  Definition advance (open : bool) (h : chan) : option (chan * option bytes) :=
    match ch_st h with
    | RSize => if (4 <=? length (ch_buf h))%nat                                 (* 90-91 *)
               then Some (Chan (ch_cbs h) (ch_wire h) (RGot (unpack_I (firstn 4 (ch_buf h)))) (skipn 4 (ch_buf h)), None)
               else None
    | RGot n => if open then Some (Chan (ch_cbs h) (ch_wire h) (RBody n) (ch_buf h), None) else None   (* 94 *)
    | RBody n => if n <=? Z.of_nat (length (ch_buf h))
                 then Some (Chan (ch_cbs h) (ch_wire h) RSize (skipn (Z.to_nat n) (ch_buf h)),
                            Some (firstn (Z.to_nat n) (ch_buf h)))
                 else None
    end.
  (* _get_message raises: what.  StreamClosedError at 86-87 and 96-98; AttributeError at 94 if the
     stream was set to None while the coroutine waited *)
  Definition fails (open broken : bool) (h : chan) : option nexn :=
    match ch_st h with
    | RGot _ => if open then (if broken then Some StreamClosedErr else None) else Some AttrErr
    | _ => if broken || negb open then Some StreamClosedErr else None
    end.

  (* The main thread of a client, at the points where the IO loop's thread may come between.
     [Send1], [Get1]: after _check_for_errors; [Send2], [Get2]: after connected(). *)
  Inductive cpc := Idle | Connecting | Send0 (a : A) | Send1 (a : A) | Send2 (a : A)
    | Get0 | Get1 | Get2 | Disc0 | Disc1 | DiscWait | Over.
  (* how its calls ended *)
  Inductive cret := RConnected | RSent (a : A) | RGotten (m : option nmsg) | RDisconnected | RRaised (e : nexn).

  (* A connection.  Client: [c_conn]: TCPClient.stream is not None; [c_open]: that TCPStream's
     stream is not None; [c_loop]: _receive runs.  Server: [s_open] as c_open; [s_loop]:
     handle_stream runs; [s_in]: the stream is in client_streams. *)
  Record link := Link {
    up : chan; dn : chan;
    c_conn : bool; c_open : bool; c_loop : bool; c_mq : list nmsg; c_eq : list nexn;
    c_main : cpc; c_rets : list cret;
    s_open : bool; s_loop : bool; s_in : bool;
    broken : bool
  }.
  (* tcp_client.py:28-40: the constructor calls connect *)
  Definition link_init : link :=
    Link chan_init chan_init false false false [] [] Connecting [] false false false false.
  Definition with_up h l := Link h (dn l) (c_conn l) (c_open l) (c_loop l) (c_mq l) (c_eq l) (c_main l) (c_rets l) (s_open l) (s_loop l) (s_in l) (broken l).
  Definition with_dn h l := Link (up l) h (c_conn l) (c_open l) (c_loop l) (c_mq l) (c_eq l) (c_main l) (c_rets l) (s_open l) (s_loop l) (s_in l) (broken l).
  Definition with_main p l := Link (up l) (dn l) (c_conn l) (c_open l) (c_loop l) (c_mq l) (c_eq l) p (c_rets l) (s_open l) (s_loop l) (s_in l) (broken l).
  (* a call of the main thread ends *)
  Definition ret r l := Link (up l) (dn l) (c_conn l) (c_open l) (c_loop l) (c_mq l) (c_eq l) Idle (c_rets l ++ [r]) (s_open l) (s_loop l) (s_in l) (broken l).
  (* the client's side: attributes *)
  Definition with_c (conn open loop : bool) l := Link (up l) (dn l) conn open loop (c_mq l) (c_eq l) (c_main l) (c_rets l) (s_open l) (s_loop l) (s_in l) (broken l).
  Definition with_q mq eq l := Link (up l) (dn l) (c_conn l) (c_open l) (c_loop l) mq eq (c_main l) (c_rets l) (s_open l) (s_loop l) (s_in l) (broken l).
  Definition with_s (open loop inn : bool) l := Link (up l) (dn l) (c_conn l) (c_open l) (c_loop l) (c_mq l) (c_eq l) (c_main l) (c_rets l) open loop inn (broken l).
  Definition break l := Link (up l) (dn l) (c_conn l) (c_open l) (c_loop l) (c_mq l) (c_eq l) (c_main l) (c_rets l) (s_open l) (s_loop l) (s_in l) true.

  Inductive call := CSend (a : A) | CGet | CDisc.
  Inductive klabel :=
  | KConn (ok : bool)                 (* client IO loop: _connect *)
  | KCall (c : call)                  (* client main: a call starts *)
  | KMain                             (* client main: goes on *)
  | KTimeout                          (* client main: message_queue.get runs into its timeout *)
  | KFlushC (ok : bool)               (* client IO loop: _send_message *)
  | KArriveC (n : nat)
  | KReadC                            (* client IO loop: _receive goes on *)
  | KFailC                            (* client IO loop: _get_message raises in _receive *)
  | KLateC                            (* client IO loop: an awaited write fails: not all of its bytes have been taken
                                         over by the network (tornado's IOStream.write), so they cannot have arrived *)
  | KSend (a : A)                     (* server main: stream.send_message *)
  | KClose                            (* server main: TCPServer.disconnect closes this stream *)
  | KFlushS (ok : bool)
  | KArriveS (n : nat)
  | KReadS                            (* server IO loop: handle_stream goes on *)
  | KFailS
  | KLateS
  | KBreak.                           (* the connection is lost, or the client's process ends *)

  (* what the link tells the rest of the server *)
  Inductive note := Put (m : nmsg) | Exc (e : nexn) | Sent (a : A).

  (* tcp_client.py:43-121, the main thread of the client *)
  Definition main_step (l : link) : option link :=
    let checked (p : cpc) := match c_eq l with                                  (* 116-121 *)
                             | e :: r => ret (RRaised e) (with_q (c_mq l) r l)
                             | [] => with_main p l
                             end in
    let connected (p : cpc) := if c_conn l then with_main p l else ret (RRaised NotConnectedErr) l in
    match c_main l with
    | Connecting =>
        if c_conn l then Some (ret RConnected (with_c (c_conn l) (c_open l) true l))     (* 49, 55 *)
        else match c_eq l with                                                  (* 50: the constructor raises *)
             | e :: r => Some (with_main Over (ret (RRaised e) (with_q (c_mq l) r l)))
             | [] => None
             end
    | Send0 a => Some (checked (Send1 a))                                       (* 86 *)
    | Send1 a => Some (connected (Send2 a))                                     (* 88-89 *)
    | Send2 a =>                                                                (* 91, tcp_stream.py:44-47 *)
        Some (if c_conn l then
                if c_open l then ret (RSent a) (with_up (post (App a) (up l)) l)
                else ret (RRaised StreamClosedErr) l
              else ret (RRaised AttrErr) l)
    | Get0 => Some (checked Get1)                                               (* 105 *)
    | Get1 => Some (connected Get2)                                             (* 107-108 *)
    | Get2 => match c_mq l with                                                 (* 111 *)
              | m :: r => Some (ret (RGotten (Some m)) (with_q r (c_eq l) l))
              | [] => None
              end
    | Disc0 => Some (if c_conn l then with_main Disc1 l else ret RDisconnected l)        (* 60-62 *)
    | Disc1 =>                                                                  (* 65 *)
        Some (if c_conn l then
                if c_open l then with_main DiscWait (with_up (post Notify (up l)) l)
                else ret (RRaised StreamClosedErr) l
              else ret (RRaised AttrErr) l)
    | DiscWait => if c_conn l then None else Some (ret RDisconnected l)         (* 67-68 *)
    | Idle | Over => None
    end.

  Definition kstep (k : klabel) (l : link) : option (link * list note) :=
    match k with
    | KConn ok =>                                                               (* tcp_client.py:123-132 *)
        match c_main l, c_conn l, c_eq l with
        | Connecting, false, [] =>
            if ok then Some (with_s true true true (with_c true true false l), [])       (* tcp_server.py:94-97 *)
            else Some (with_q (c_mq l) [ConnErr] l, [])
        | _, _, _ => None
        end
    | KCall c =>
        match c_main l with
        | Idle => Some (with_main (match c with CSend a => Send0 a | CGet => Get0 | CDisc => Disc0 end) l, [])
        | _ => None
        end
    | KMain => match main_step l with Some l' => Some (l', []) | None => None end
    | KTimeout =>                                                               (* tcp_client.py:113-114 *)
        match c_main l, c_mq l with Get2, [] => Some (ret (RGotten None) l, []) | _, _ => None end
    | KFlushC ok =>
        if negb (c_open l) then                                                 (* tcp_stream.py:65-66, 75-79 *)
          match flush false (up l) with Some h => Some (with_up h l, []) | None => None end
        else if ok then match flush true (up l) with Some h => Some (with_up h l, []) | None => None end
        else if broken l then                                                   (* 81-83 *)
          match flush false (up l) with Some h => Some (with_up h (with_c (c_conn l) false (c_loop l) l), []) | None => None end
        else None
    | KArriveC n => match arrive n (dn l) with Some h => Some (with_dn h l, []) | None => None end
    | KReadC =>                                                                 (* tcp_client.py:134-158 *)
        if c_loop l then
          match advance (c_open l) (dn l) with
          | None => None
          | Some (h, None) => Some (with_dn h l, [])
          | Some (h, Some p) =>
              let l := with_dn h l in
              match loads p with
              | Some Ack => Some (break (with_c false false false l), [])       (* 144-153 *)
              | Some m => Some (with_q (c_mq l ++ [m]) (c_eq l) l, [])          (* 156 *)
              | None => Some (break (with_q (c_mq l) (c_eq l ++ [LoadErr]) (with_c false false false l)), [])   (* 158-167 *)
              end
          end
        else None
    | KFailC =>
        if c_loop l then
          match fails (c_open l) (broken l) (dn l) with
          | Some e => Some (break (with_q (c_mq l) (c_eq l ++ [e]) (with_c false false false l)), [])
          | None => None
          end
        else None
    | KLateC => match ch_wire (up l) with
                | [] => None                                                    (* all writes have ended *)
                | _ => if broken l && c_conn l then Some (with_c (c_conn l) false (c_loop l) l, []) else None
                end
    | KSend a =>                                                                (* tcp_stream.py:44-47 *)
        if s_open l then Some (with_dn (post (App a) (dn l)) l, [Sent a]) else None
    | KClose =>                                                                 (* tcp_server.py:73-76, tcp_stream.py:49-56 *)
        if s_in l then Some (break (with_s false (s_loop l) (s_in l) l), []) else None
    | KFlushS ok =>
        if negb (s_open l) then
          match flush false (dn l) with Some h => Some (with_dn h l, []) | None => None end
        else if ok then match flush true (dn l) with Some h => Some (with_dn h l, []) | None => None end
        else if broken l then
          match flush false (dn l) with Some h => Some (with_dn h (with_s false (s_loop l) (s_in l) l), []) | None => None end
        else None
    | KArriveS n => match arrive n (up l) with Some h => Some (with_up h l, []) | None => None end
    | KReadS =>                                                                 (* tcp_server.py:99-121 *)
        if s_loop l then
          match advance (s_open l) (up l) with
          | None => None
          | Some (h, None) => Some (with_up h l, [])
          | Some (h, Some p) =>
              let l := with_up h l in
              match loads p with
              | Some Notify =>                                                  (* 103-109 *)
                  if s_open l then Some (with_s (s_open l) false false (with_dn (post Ack (dn l)) l), [])
                  else Some (with_s (s_open l) false false l, [Exc StreamClosedErr])
              | Some m => Some (l, [Put m])                                     (* 111-112 *)
              | None => Some (with_s (s_open l) false false l, [Exc LoadErr])   (* 114-121 *)
              end
          end
        else None
    | KFailS =>
        if s_loop l then
          match fails (s_open l) (broken l) (up l) with
          | Some e => Some (with_s false false false l, [Exc e])
          | None => None
          end
        else None
    | KLateS => match ch_wire (dn l) with
                | [] => None
                | _ => if broken l then Some (with_s false (s_loop l) (s_in l) l, []) else None
                end
    | KBreak => if c_conn l || s_loop l then Some (break l, []) else None
    end.

  (* TCPServer: the queues are shared by all connections.  A message comes with its stream, here
     the number of the connection.  What get_message returned or raised, and what was sent. *)
  Inductive sret := SGot (c : nat) (m : nmsg) | SNone | SRaised (c : nat) (e : nexn) | SSent (c : nat) (a : A).
  Record net := Net { n_link : nat -> link; n_mq : list (nat * nmsg); n_eq : list (nat * nexn); n_rets : list sret }.
  Definition net_init : net := Net (fun _ => link_init) [] [] [].
  Inductive nlabel := NLink (c : nat) (k : klabel) | NGet.

  Definition tell (c : nat) (s : net) (x : note) : net :=
    match x with
    | Put m => Net (n_link s) (n_mq s ++ [(c, m)]) (n_eq s) (n_rets s)
    | Exc e => Net (n_link s) (n_mq s) (n_eq s ++ [(c, e)]) (n_rets s)
    | Sent a => Net (n_link s) (n_mq s) (n_eq s) (n_rets s ++ [SSent c a])
    end.
  Definition nstep (x : nlabel) (s : net) : option net :=
    match x with
    | NLink c k =>
        match kstep k (n_link s c) with
        | Some (l, ns) => Some (fold_left (tell c) ns (Net (upd (n_link s) c l) (n_mq s) (n_eq s) (n_rets s)))
        | None => None
        end
    | NGet =>                                                                   (* tcp_server.py:62-68, 123-128 *)
        Some match n_eq s with
             | (c, e) :: r => Net (n_link s) (n_mq s) r (n_rets s ++ [SRaised c e])
             | [] => match n_mq s with
                     | (c, m) :: r => Net (n_link s) r (n_eq s) (n_rets s ++ [SGot c m])
                     | [] => Net (n_link s) [] (n_eq s) (n_rets s ++ [SNone])
                     end
             end
    end.
  Fixpoint nrun (xs : list nlabel) (s : net) : option net :=
    match xs with
    | [] => Some s
    | x :: r => match nstep x s with Some s' => nrun r s' | None => None end
    end.
End Net.
Arguments nmsg A : clear implicits.
Arguments cpc A : clear implicits.
Arguments cret A : clear implicits.
Arguments link A : clear implicits.
Arguments chan A : clear implicits.
Arguments klabel A : clear implicits.
Arguments call A : clear implicits.
Arguments note A : clear implicits.
Arguments sret A : clear implicits.
Arguments net A : clear implicits.
Arguments nlabel A : clear implicits.
