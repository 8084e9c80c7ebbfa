(* A run as a whole, whatever the workers do: besides the moves of Whole.v, spawn functions that
   raise exceptions, and bodies left by KeyboardInterrupt or SystemExit.  worker.py:86-113,
   client.py:83-101, worker_pool.py:91-103. *)
From Coq Require Import Arith.
From Verif Require Export Whole.
From Verif Require Client Pool.
Open Scope Z_scope.

Inductive amove :=
| AMove (m : hmove)
| ARaise (st : nat) (e : exn) (n : nat)      (* worker.py:102-110: the spawn function raises e, the process ends;
                                                n of its messages still arrive *)
| ABreak (st : nat) (s : status) (n : nat) (c : Z).
                                             (* client.py:95-101: the body is left by KeyboardInterrupt or
                                                SystemExit (exit code c), having set the status s *)
Section Any.
  Variables up down : block -> list block.
  Variable maxr : nat -> Z.
  Variable fuel : nat.
  Variable init : nat -> res unit.
  Variable nw : nat -> Z.
  Variable mbf : Z.

  (* the worker is gone *)
  Definition leave (h : whole) (ps : Pool.pools) (st : nat) (c : Z) (o : list message) : whole :=
    Whole (h_sv h) (fst (Pool.pstep nw mbf (Pool.PExit st c) ps))
          (fun s => if Nat.eqb s st then Worker (w_task (h_w h st)) Dead o [] else h_w h s).

  (* client.py:95-101: what is said about the block before the process ends *)
  Definition broken (h : whole) (st : nat) (pb : pyblock) (s : status) : whole :=
    hput h st (Worker (w_task (h_w h st)) Asking (w_out (h_w h st) ++ returned st pb (Client.Interrupted s)) (w_in (h_w h st))).

  (* worker.py:104-110; the queue takes 100 exceptions (worker_pool.py:41), others are dropped.  One that cannot be
     pickled is lost, too: such a worker makes the move HEnd with exit code 0 *)
  Definition queued (ps : Pool.pools) (t : nat) (e : exn) : Pool.pools :=
    if (length (Pool.ps_err ps t) <? 100)%nat then fst (Pool.pstep nw mbf (Pool.PError t e) ps) else ps.

  Inductive astep (h : whole) : amove -> whole -> Prop :=
  | as_move m h' : hstep up down maxr fuel init nw mbf h m h' -> astep h (AMove m) h'
  | as_raise st e n : alive h st ->
      astep h (ARaise st e n) (leave h (queued (h_ps h) (w_task (h_w h st)) e) st 0 (firstn n (w_out (h_w h st))))
  | as_break st s n c pb : alive h st -> w_at (h_w h st) = Working pb ->
      astep h (ABreak st s n c)
        (leave (broken h st pb s) (h_ps h) st c (firstn n (w_out (h_w h st) ++ returned st pb (Client.Interrupted s)))).

  Inductive aruns (h : whole) : list amove -> whole -> Prop :=
  | aruns_nil : aruns h [] h
  | aruns_step ms h1 m h2 : aruns h ms h1 -> astep h1 m h2 -> aruns h (ms ++ [m]) h2.

  (* an iteration of the server's loop is left by the exception x (server.py:74-81): in the handling
     of a message or of lost blocks, or by the pools *)
  Inductive raises (h : whole) (i : input) (x : exn) : Prop :=
  | ra_server : sv_stop (h_sv h) = false -> hinput_ok h i -> iteration up down maxr fuel init i (h_sv h) = Err x -> raises h i x
  | ra_pools cut sv l : sv_stop (h_sv h) = false -> hinput_ok h i -> iteration up down maxr fuel init i (h_sv h) = Ok sv ->
      sv_tr sv = l ++ sv_tr (h_sv h) ->
      on_all nw mbf cut (pool_acts l ++ [Pool.PHealth]) (h_ps h) (fun s => deliver s l (taken (i_get i) s (h_w h s))) = Err x -> raises h i x.
End Any.

(* the iterations of a run, and the exceptions the workers raised *)
Definition aserved (ms : list amove) : list input := flat_map (fun m => match m with AMove (HServe i _) => [i] | _ => [] end) ms.
