(* A call of run_blockwise with multiprocessing over a network that may lose connections at any moment: WireTop.v with the runs of
   WireLoss.v and WireTail.v.  convenience.py:8-62, server.py:39-81. *)
From Coq Require Import Arith.
From Verif Require Import Conv.
From Verif Require Client Pool Tcp Net NetFacts Top.
From Verif Require Export Wire WireTop WireLoss WireTail.
Open Scope Z_scope.

(* LTStop: the main thread sets the stop event (convenience.py:51-53), as in Top.v *)
Inductive ltmove := LTMove (m : lmove) | LTStop.
Definition lserves (m : lmove) : bool := match m with LDo m => xserves m | LBreak _ => false end.
(* the moves of a run without those of the main thread *)
Definition lmoves (ms : list ltmove) : list lmove := flat_map (fun m => match m with LTMove a => [a] | LTStop => [] end) ms.
Section LossTop.
  Variables up down : block -> list block.
  Variable maxr : nat -> Z.
  Variable fuel : nat.
  Variable init : nat -> res unit.         (* init_callback_fn: may raise *)
  Variable nw : nat -> Z.                  (* num_workers *)
  Variable mbf : Z.                        (* max_block_failures *)
  Variable dumps : Net.nmsg payload -> option Tcp.bytes.
  Variable loads : Tcp.bytes -> option (Net.nmsg payload).
  Variable tail : bool.                    (* of a write that failed some byte never arrives (WireTail.v) *)

  Inductive ltstep (y : xtop) : ltmove -> xtop -> Prop :=
  | lts_move m x : lstep up down maxr fuel init nw mbf dumps loads (xt_x y) m x -> (lserves m = true -> xt_stop y = false) ->
      ltstep y (LTMove m) (XTop x (xt_stop y))
  | lts_stop : ltstep y LTStop (XTop (xt_x y) true).
  Inductive ltruns (y : xtop) : list ltmove -> xtop -> Prop :=
  | ltruns_nil : ltruns y [] y
  | ltruns_step ms y1 m y2 : ltruns y ms y1 -> ltstep y1 m y2 ->
      (tail = true -> forall st, late st (lmoves (ms ++ [m])) -> Net.ch_wire (Net.dn (Net.n_link (x_net (xt_x y2)) st)) <> []) -> ltruns y (ms ++ [m]) y2.
End LossTop.

(* As run_net of WireTop.v. *)
Inductive run_lossy (tail : bool) (tasks : list task) ord ordt fuel init nw all d (s0 : sched) dumps loads :
  list ltmove -> option xtop -> xending -> Pool.pools -> Prop :=
| rl_start k x : collect_tasks k tasks = Ok all -> sched_init all = Ok (d, s0) ->
    whole_init init nw 3 (map t_id all) s0 = Err x ->
    run_lossy tail tasks ord ordt fuel init nw all d s0 dumps loads [] None (XEnded (Top.Raised x))
      (Pool.pools_init (dedup Nat.eqb (map t_id all)) (Pool.Sys (fun _ => None) 0))
| rl_run k h ms y e ps : collect_tasks k tasks = Ok all -> sched_init all = Ok (d, s0) ->
    whole_init init nw 3 (map t_id all) s0 = Ok h ->
    ltruns (dg_up ord ordt d) (dg_down ord ordt d) (dg_max_retries d) fuel init nw 3 dumps loads tail (XTop (wire_init h) false) ms y ->
    xended (dg_up ord ordt d) (dg_down ord ordt d) (dg_max_retries d) fuel init nw 3 dumps loads y e ps ->
    run_lossy tail tasks ord ordt fuel init nw all d s0 dumps loads ms (Some y) e ps.
