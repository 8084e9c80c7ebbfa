(* The value of Scheduler.release_block (daisy/scheduler.py:110-160), which Sched.v leaves out: a dict from ids of tasks to
   their states. The states are the objects in task_states, so a dict is given by its keys, in the order of insertion. *)
From Verif Require Import Py Geom Block Surface Sched.
Open Scope Z_scope.

(* d[k] = v: a key that is there keeps its place *)
Definition dict_set (d : list nat) (k : nat) : list nat := if existsb (Nat.eqb k) d then d else d ++ [k].

(* scheduler.py:182-188 __update_ready_queue *)
Fixpoint update_ready_queue_r (s : sched) (bs : list block) (updated : list nat) : sched * list nat :=
  match bs with
  | [] => (s, updated)
  | b :: bs => update_ready_queue_r (queue_ready_block s (PB b CREATED)) bs (dict_set updated (b_task b))
  end.

Section Released.
  Variables up down : block -> list block.
  Variable max_retries : nat -> Z.
  Variable fuel : nat.
  (* scheduler.py:110-160 release_block *)
  Definition release_block_r (pick : nat -> list block -> nat) (s : sched) (pb : pyblock) : res (sched * list nat) :=
    let b := pb_block pb in
    let t := b_task b in
    s1 <- remove_from_processing s b ;;                                       (* 132 *)
    match pb_status pb with
    | SUCCESS =>                                                              (* 133-137 *)
        '(sf, news) <- mark_success block_eqb up down (s_surf s1) b ;;
        let s2 := upd_st (set_surf s1 sf) t (ts_add_completed 1) in
        Ok (update_ready_queue_r s2 news [])
    | FAILED =>
        if max_retries t <=? q_retries (s_q s1 t) (bid b) then                (* 139-151: return {} *)
          '(sf, orphans) <- mark_failure block_eqb up down pick fuel (s_surf s1) b ;;
          let s2 := upd_st (set_surf s1 sf) t (ts_add_failed 1) in
          Ok (fold_left (fun s o => upd_st s (b_task o) (ts_add_orphaned 1)) orphans s2, [])
        else                                                                  (* 152-156 *)
          let s2 := queue_ready_block s1 pb in
          Ok (upd_q s2 t (fun q => q_inc_retry q (bid b)), dict_set [] t)
    | CREATED | PROCESSING => Err RuntimeError                                (* 157-160 *)
    end.
End Released.
