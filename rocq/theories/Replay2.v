(* Tests (not proofs): what the tests of /repo/tests assert of the servers, the client, the pools and
   the connections holds of the model. *)
From Verif Require Import DGraph Sanity Replay Serial Client.
From Verif Require Pool.
From Verif Require Import P_NetEx Net.
Open Scope Z_scope.

(* test_server.py:12-29 with a SerialServer; the server with workers is below *)
Definition rp_server : task := rp_o 1 [].
Definition rp_serial (f : list event -> pyblock -> res status) : res (tstate * list nat) :=
  '(d, s) <- sched_init [rp_server] ;;
  x <- serial_run (dg_up idl rp_idt d) (dg_down idl rp_idt d) (dg_max_retries d) 1000 [1%nat] (fun _ _ _ => CheckFalse) f (fun _ _ _ => O) 100 s ;;
  Ok (s_st (ss_s x) 1%nat, ss_finished x).
Example rp_server_serial : rp_serial (fun _ _ => Ok PROCESSING) = Ok (TState true 12 0 0 12 0 0 0, [1%nat]).
Proof. vm_compute. reflexivity. Qed.

(* test_client.py *)
Definition rp_cube : roi := Roi [0; 0; 0] [10; 10; 10].
Definition rp_block : block := mk_block rp_cube rp_cube rp_cube 1.
Example rp_client :
  Client.acquire_block 1 Up (RSend (PB rp_block CREATED)) (fun _ => Finished SUCCESS) (Drops false false false) =
  CR [CAcquire 1; CRelease (PB rp_block SUCCESS)] (Some (Some (PB rp_block PROCESSING))) None Up.
Proof. vm_compute. reflexivity. Qed.

(* test_dead_workers.py:63-97 *)
Definition rp_procs : Pool.sys := Pool.Sys (fun i => nth i [Some (1%nat, Pool.Exited 0); Some (1%nat, Pool.Exited 1)] None) 2.
Example rp_reap : Pool.reap_dead_workers (rp_procs, [Pool.Worker 0 true; Pool.Worker 1 true]) = ([Pool.Worker 0 false], 1).
Proof. vm_compute. reflexivity. Qed.

(* test_tcp.py: messages 3 and 7; get_message(timeout=0) finds nothing at either end; after disconnect() *)
Definition rp_tcp_run : list (nlabel nat) :=
  on 1 (connect ++ send 3 ++ up6) ++ [NGet; NLink 1%nat (KSend 7%nat)] ++ on 1 (dn6 ++ P_NetEx.get) ++ [NGet] ++
  on 1 [KCall CGet; KMain; KMain; KTimeout] ++ on 1 (leave ++ bye_up ++ bye_dn) ++
  on 1 [KCall (CSend 8%nat); KMain; KMain; KCall CGet; KMain; KMain] ++ [NGet].
Example rp_tcp : match nrun dump7 load7 rp_tcp_run net_init with
  | Some s => c_rets (n_link s 1%nat) = [RConnected; RSent 3; RGotten (Some (App 7)); RGotten None; RDisconnected;
                                         RRaised NotConnectedErr; RRaised NotConnectedErr]%nat /\
              n_rets s = [SGot 1 (App 3); SSent 1 7; SNone; SNone]%nat
  | None => False
  end.
Proof. vm_compute. auto. Qed.
