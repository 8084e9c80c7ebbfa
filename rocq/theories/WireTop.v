(* A call of run_blockwise with multiprocessing over the network: Top.v with the runs of Wire.v.
   convenience.py:8-62, server.py:39-81. *)
From Coq Require Import Arith.
From Verif Require Import Conv.
From Verif Require Export Wire.
From Verif Require Client Pool Tcp Net NetFacts Top.
Open Scope Z_scope.

(* The server, its pools, the connections and the workers, and whether the main thread has set the stop
   event (convenience.py:51-53), as in Top.v. *)
Record xtop := XTop { xt_x : wire; xt_stop : bool }.
Inductive xtmove := XTMove (m : xmove) | XTStop.
Definition xserves (m : xmove) : bool := match m with XServe _ => true | _ => false end.

(* What the caller gets.  [XBroke e]: an exception of tcp/ that the loop does not catch (server.py:84-87). *)
Inductive xending := XEnded (e : Top.ending) | XBroke (e : Net.nexn).

Section WireTop.
  Variables up down : block -> list block.
  Variable maxr : nat -> Z.
  Variable fuel : nat.
  Variable init : nat -> res unit.         (* init_callback_fn: may raise *)
  Variable nw : nat -> Z.                  (* num_workers *)
  Variable mbf : Z.                        (* max_block_failures *)
  Variable dumps : Net.nmsg payload -> option Tcp.bytes.
  Variable loads : Tcp.bytes -> option (Net.nmsg payload).

  Inductive xtstep (y : xtop) : xtmove -> xtop -> Prop :=
  | xts_move m x : xstep up down maxr fuel init nw mbf dumps loads (xt_x y) m x -> (xserves m = true -> xt_stop y = false) ->
      xtstep y (XTMove m) (XTop x (xt_stop y))
  | xts_stop : xtstep y XTStop (XTop (xt_x y) true).
  Inductive xtruns (y : xtop) : list xtmove -> xtop -> Prop :=
  | xtruns_nil : xtruns y [] y
  | xtruns_step ms y1 m y2 : xtruns y ms y1 -> xtstep y1 m y2 -> xtruns y (ms ++ [m]) y2.

  (* server.py:59-71: how the loop is left, and the pools after [finally], as in Top.v.  The condition of the loop is read when
     everything has been sent.  What is sent in an iteration that is left by an exception does not matter: all workers
     are stopped. *)
  Inductive xended (y : xtop) : xending -> Pool.pools -> Prop :=
  | xe_stop : x_todo (xt_x y) = [] -> sv_stop (x_sv (xt_x y)) = true \/ xt_stop y = true ->
      xended y (XEnded (Top.Returned (result (sv_s (x_sv (xt_x y)))))) (Pool.pools_stop (x_ps (xt_x y)))
  | xe_raise i n r e es : x_todo (xt_x y) = [] -> sv_stop (x_sv (xt_x y)) = false -> xt_stop y = false ->
      Net.nstep dumps loads Net.NGet (x_net (xt_x y)) = Some n -> Net.n_rets n = Net.n_rets (x_net (xt_x y)) ++ [r] -> got_of r = Some (i_get i) ->
      i_health i = Ok tt -> (forall st, i_closed i st = true -> closable (xt_x y) st) ->
      (* by the server, or by its pools *)
      (iteration up down maxr fuel init i (x_sv (xt_x y)) = Err e \/
       exists sv l, iteration up down maxr fuel init i (x_sv (xt_x y)) = Ok sv /\ sv_tr sv = l ++ sv_tr (x_sv (xt_x y)) /\
         pools_do nw mbf (pool_acts l ++ [Pool.PHealth]) (x_ps (xt_x y)) = Err e) ->
      xended y (XEnded (Top.Raised e)) (Pool.pools_stop (fold_left (fun ps e => fst (Pool.pstep nw mbf e ps)) es (x_ps (xt_x y))))
  | xe_net n c e : x_todo (xt_x y) = [] -> sv_stop (x_sv (xt_x y)) = false -> xt_stop y = false ->
      Net.nstep dumps loads Net.NGet (x_net (xt_x y)) = Some n -> Net.n_rets n = Net.n_rets (x_net (xt_x y)) ++ [Net.SRaised c e] ->
      got_of (Net.SRaised c e) = None ->
      xended y (XBroke e) (Pool.pools_stop (x_ps (xt_x y))).
End WireTop.

(* As Top.run_blockwise. *)
Inductive run_net (tasks : list task) ord ordt fuel init nw all d (s0 : sched) dumps loads :
  list xtmove -> option xtop -> xending -> Pool.pools -> Prop :=
| rn_start k x : collect_tasks k tasks = Ok all -> sched_init all = Ok (d, s0) ->
    whole_init init nw 3 (map t_id all) s0 = Err x ->
    run_net tasks ord ordt fuel init nw all d s0 dumps loads [] None (XEnded (Top.Raised x))
      (Pool.pools_init (dedup Nat.eqb (map t_id all)) (Pool.Sys (fun _ => None) 0))
| rn_run k h ms y e ps : collect_tasks k tasks = Ok all -> sched_init all = Ok (d, s0) ->
    whole_init init nw 3 (map t_id all) s0 = Ok h ->
    xtruns (dg_up ord ordt d) (dg_down ord ordt d) (dg_max_retries d) fuel init nw 3 dumps loads (XTop (wire_init h) false) ms y ->
    xended (dg_up ord ordt d) (dg_down ord ordt d) (dg_max_retries d) fuel init nw 3 dumps loads y e ps ->
    run_net tasks ord ordt fuel init nw all d s0 dumps loads ms (Some y) e ps.
