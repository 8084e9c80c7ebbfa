(* How a server finds its address and a client finds the server: tcp/tcp_server.py:24-47 and 125-176, client.py:55-67;
   and which IO loop an object uses: tcp/io_looper.py. *)
From Coq Require Import DecimalString DecimalNat.
From Verif Require Export Ctx.
Local Open Scope string_scope.

(* ---- tcp_server.py ---- *)
(* what self.listen(0) does: it binds a port or raises OSError *)
Inductive attempt := Bound (port : nat) | OSErr.
(* how TCPServer(host) ends *)
Inductive started := Listens (host : string) (port : nat) | AttributeError | NoFreePort | NoSocket (* IndexError *).

(* The attribute max_port_tries of a TCPServer: never assigned in tcp_server.py (the parameter of the same name is not stored),
   and not an attribute of tornado.tcpserver.TCPServer or IOLooper. *)
Definition self_max_port_tries : option nat := None.
(* 33-45, the iterations i, i+1, .. of which [n] are left *)
Fixpoint listen_loop (att : nat -> attempt) (i n : nat) : started + option nat :=
  match n with
  | O => inr None
  | S n =>
      match att i with
      | Bound p => inr (Some p)                                               (* 35-36 *)
      | OSErr =>                                                              (* 38-43 *)
          match self_max_port_tries with
          | None => inl AttributeError
          | Some m => if Nat.eqb (S i) m then inl NoFreePort else listen_loop att (S i) n
          end
      end
  end.
(* 125-176: [detect] is the address found with the help of an outside socket (None if that raised), [valid] says whether
   _validate_address returns True *)
Definition get_host (host detect : option string) (valid : string -> bool) : string :=
  match host with
  | Some h => h                                                               (* 142-143 *)
  | None =>
      let ip := match detect with
                | Some ip => if negb (String.eqb ip "127.0.0.1") && negb (valid ip) then None else Some ip   (* 163-170 *)
                | None => None end in
      match ip with Some ip => ip | None => "127.0.0.1" end                   (* 172-175 *)
  end.
(* 24-47 *)
Definition server_init (host : option string) (max_port_tries : nat) (att : nat -> attempt) (detect : option string)
  (valid : string -> bool) : started :=
  match listen_loop att 0 max_port_tries with
  | inl e => e
  | inr None => NoSocket                                                      (* 139: list(..)[0] *)
  | inr (Some p) => Listens (get_host host detect valid) p
  end.

(* ---- client.py ---- *)
(* int(s) for strings of digits *)
Definition py_int (s : string) : res nat :=
  match NilZero.uint_of_string s with Some d => Ok (Nat.of_uint d) | None => Err ValueError end.
(* client.py:55-67: the address a client connects to; [here] as in from_env *)
Definition client_address (here : value) (env : string) : res (string * nat) :=
  c <- from_env here env ;;
  match Ctx.get c "hostname", Ctx.get c "port" with
  | Some h, Some p => p <- py_int (str p) ;; Ok (str h, p)
  | _, _ => Err KeyError
  end.

(* ---- io_looper.py ---- *)
(* A process has its own copy of the two class attributes, which always have the same keys: [pr_loops] maps process ids to IO
   loops.  A loop is started in a thread of the process that made it; a fork copies the dictionaries but not the thread. *)
Record proc := Proc { pr_pid : nat; pr_loops : list (nat * nat); pr_alive : bool }.
Record world := World { w_procs : list proc; w_home : list nat (* the process (its index) in which loop l runs *) }.
Inductive act :=
| New (i : nat)              (* IOLooper.__init__ in process i, 29-46 *)
| Clear (i : nat)            (* 24-27 *)
| Fork (i pid : nat)         (* process i starts a process *)
| Exit (i : nat).
Fixpoint find_loop (d : list (nat * nat)) (pid : nat) : option nat :=
  match d with [] => None | (k, l) :: r => if Nat.eqb k pid then Some l else find_loop r pid end.
Fixpoint set_proc (ps : list proc) (i : nat) (p : proc) : list proc :=
  match ps, i with [], _ => [] | _ :: r, O => p :: r | q :: r, S i => q :: set_proc r i p end.
(* the new world, and for New the loop the object uses; None if the act is impossible *)
Definition act_step (w : world) (a : act) : option (world * option nat) :=
  match a with
  | New i =>
      match nth_error (w_procs w) i with
      | Some p => if negb (pr_alive p) then None else
          match find_loop (pr_loops p) (pr_pid p) with
          | Some l => Some (w, Some l)                                        (* 44-46 *)
          | None =>                                                           (* 32-42 *)
              let l := List.length (w_home w) in
              Some (World (set_proc (w_procs w) i (Proc (pr_pid p) ((pr_pid p, l) :: pr_loops p) true)) (w_home w ++ [i])%list, Some l)
          end
      | None => None
      end
  | Clear i =>
      match nth_error (w_procs w) i with
      | Some p => if negb (pr_alive p) then None else Some (World (set_proc (w_procs w) i (Proc (pr_pid p) [] true)) (w_home w), None)
      | None => None
      end
  | Fork i pid =>
      match nth_error (w_procs w) i with
      | Some p => if negb (pr_alive p) || existsb (fun q => pr_alive q && Nat.eqb (pr_pid q) pid) (w_procs w) then None
                  else Some (World (w_procs w ++ [Proc pid (pr_loops p) true])%list (w_home w), None)
      | None => None
      end
  | Exit i =>
      match nth_error (w_procs w) i with
      | Some p => if negb (pr_alive p) then None else Some (World (set_proc (w_procs w) i (Proc (pr_pid p) (pr_loops p) false)) (w_home w), None)
      | None => None
      end
  end.
(* the first process *)
Definition world_init (pid : nat) : world := World [Proc pid [] true] [].
(* a sequence of acts, and for each of them the loop used *)
Fixpoint acts (w : world) (l : list act) : option (world * list (option nat)) :=
  match l with
  | [] => Some (w, [])
  | a :: r => match act_step w a with
              | Some (w1, o) => match acts w1 r with Some (w2, os) => Some (w2, o :: os) | None => None end
              | None => None
              end
  end.
