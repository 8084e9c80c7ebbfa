(* Vocabulary for the scheduler theorems: histories of calls and what they say about a block.
   Nothing here looks at the scheduler's own data structures. *)
From Coq Require Import Permutation.
From Verif Require Export Sched.
Open Scope Z_scope.

(* Decidable equality of all components of a block (not Python's __eq__, which compares ids). *)
Definition roi_dec (a b : roi) : {a = b} + {a <> b}.
Proof. decide equality; apply (list_eq_dec Z.eq_dec). Defined.
Definition block_dec (a b : block) : {a = b} + {a <> b}.
Proof. decide equality; try apply roi_dec; [apply Z.eq_dec | apply Nat.eq_dec]. Defined.

(* What a caller of the scheduler observes. *)
Inductive event :=
| EvSkip (b : block)                (* acquire_block skipped b: check_function said it is done *)
| EvHand (t : nat) (pb : pyblock)   (* acquire_block(t) returned pb *)
| EvNone (t : nat)                  (* acquire_block(t) returned None *)
| EvRel (pb : pyblock).             (* release_block(pb) *)

(* Histories have the newest event first. *)
Definition history := list event.

Definition skipped (h : history) (b : block) : Prop := In (EvSkip b) h.
Definition succeeded (h : history) (b : block) : Prop :=
  In (EvSkip b) h \/ In (EvRel (PB b SUCCESS)) h.

Definition is_block (a b : block) : bool := if block_dec a b then true else false.
Fixpoint count (p : event -> bool) (h : history) : Z :=
  match h with [] => 0 | e :: r => (if p e then 1 else 0) + count p r end.

(* How often b was handed out, released, released as failed. *)
Definition n_handed (h : history) (b : block) : Z :=
  count (fun e => match e with EvHand _ pb => is_block (pb_block pb) b | _ => false end) h.
Definition n_released (h : history) (b : block) : Z :=
  count (fun e => match e with EvRel pb => is_block (pb_block pb) b | _ => false end) h.
Definition n_failed (h : history) (b : block) : Z :=
  count (fun e => match e with EvRel pb => is_block (pb_block pb) b && status_eqb (pb_status pb) FAILED
                             | _ => false end) h.

(* b is in flight *)
Definition held (h : history) (b : block) : Prop := n_released h b < n_handed h b.

(* exactly k blocks have the property *)
Definition card (P : block -> Prop) (k : Z) : Prop :=
  exists l, NoDup l /\ (forall b, In b l <-> P b) /\ Z.of_nat (length l) = k.

(* a is a direct or transitive upstream block of b *)
Inductive ancestor (up : block -> list block) (a : block) : block -> Prop :=
| anc_one b : In a (up b) -> ancestor up a b
| anc_more b c : ancestor up a b -> In b (up c) -> ancestor up a c.

(* More failed releases than retries allowed (a negative max_retries counts as 0). *)
Definition perm_failed (max_retries : nat -> Z) (h : history) (b : block) : Prop :=
  0 < n_failed h b /\ max_retries (b_task b) < n_failed h b.
Definition orphan up max_retries (h : history) (b : block) : Prop :=
  exists a, perm_failed max_retries h a /\ ancestor up a b.

Definition settled up max_retries (h : history) (b : block) : Prop :=
  succeeded h b \/ perm_failed max_retries h b \/ orphan up max_retries h b.
(* no two blocks failed for good *)
Definition one_failure max_retries (h : history) : Prop :=
  forall a b, perm_failed max_retries h a -> perm_failed max_retries h b -> a = b.
(* a block is b or b depends on it *)
Definition anc_eq up (a b : block) : Prop := a = b \/ ancestor up a b.
(* Failures that orphan a block of which one direct upstream block succeeded do so through the
   same direct upstream blocks. *)
Definition apart (P : block -> Prop) up max_retries (h : history) : Prop :=
  forall x u a b w, P x -> In u (up x) -> succeeded h u ->
  perm_failed max_retries h a -> perm_failed max_retries h b -> ancestor up a x -> ancestor up b x ->
  In w (up x) -> anc_eq up a w -> anc_eq up b w.
(* the same of all blocks that may fail *)
Definition spread_in (P : block -> Prop) up (bad : block -> Prop) : Prop :=
  forall x a b w, P x -> bad a -> bad b -> ancestor up a x -> ancestor up b x ->
  In w (up x) -> anc_eq up a w -> anc_eq up b w.
(* the event takes b from the queue *)
Definition takes (e : event) (b : block) : Prop :=
  match e with EvSkip b' => b' = b | EvHand _ pb => pb_block pb = b | _ => False end.

(* The states a scheduler can be in, with the history that led there.  The caller acquires
   blocks of any task at any time, with any outcome of check_function; it releases blocks in
   flight, once per hand-out, as SUCCESS or FAILED; set.pop() is arbitrary ([pick]). *)
Inductive reach up down max_retries fuel (s0 : sched) : history -> sched -> Prop :=
| reach_init : reach up down max_retries fuel s0 [] s0
| reach_acquire h s t chk s' r sk :
    reach up down max_retries fuel s0 h s ->
    acquire_block up down max_retries fuel chk s t = Ok (s', r, sk) ->
    reach up down max_retries fuel s0
          (match r with Some pb => EvHand t pb | None => EvNone t end :: rev (map EvSkip sk) ++ h) s'
| reach_release h s pick pb s' :
    reach up down max_retries fuel s0 h s ->
    held h (pb_block pb) ->
    pb_status pb = SUCCESS \/ pb_status pb = FAILED ->
    release_block up down max_retries fuel pick s pb = Ok s' ->
    reach up down max_retries fuel s0 (EvRel pb :: h) s'.

(* What the theorems need of the dependency graph.  [V] lists all blocks, [seeds t] the blocks
   the root generator of task t yields. *)
Record good_graph (V : list block) (up down : block -> list block) (seeds : nat -> list block) : Prop := {
  gg_nodup : NoDup V;
  gg_ids : forall a b, In a V -> In b V -> bid a = bid b -> a = b;
  gg_up : forall a b, In b V -> In a (up b) -> In a V;
  gg_down : forall a b, In a V -> In b (down a) -> In b V;
  gg_dual : forall a b, In a V -> In b V -> (In b (down a) <-> In a (up b));
  gg_nodup_up : forall b, In b V -> NoDup (up b);
  gg_nodup_down : forall b, In b V -> NoDup (down b);
  gg_acyclic : exists rank : block -> nat, forall a b, In b V -> In a (up b) -> (rank a < rank b)%nat;
  gg_seeds : forall t b, In b (seeds t) -> In b V /\ b_task b = t /\ up b = [];
  gg_nodup_seeds : forall t, NoDup (seeds t)
}.

(* a freshly constructed scheduler for that graph *)
Record fresh (V : list block) (seeds : nat -> list block) (s : sched) : Prop := {
  fr_surf : s_surf s = surf_init;
  fr_ready : forall t, q_ready (s_q s t) = [];
  fr_proc : forall t, q_proc (s_q s t) = [];
  fr_retries : forall t i, q_retries (s_q s t) i = 0;
  fr_gen : forall t, q_gen (s_q s t) = seeds t;
  fr_roots : forall t, q_roots (s_q s t) = Z.of_nat (length (seeds t));
  fr_nready : forall t, ts_ready (s_st s t) = Z.of_nat (length (seeds t));
  fr_zero : forall t, ts_processing (s_st s t) = 0 /\ ts_completed (s_st s t) = 0 /\
                      ts_skipped (s_st s t) = 0 /\ ts_failed (s_st s t) = 0 /\
                      ts_orphaned (s_st s t) = 0;
  fr_total : forall t, card (fun b => In b V /\ b_task b = t) (ts_total (s_st s t))
}.

(* enough fuel for the while loops, given the number of blocks *)
Definition enough (V : list block) (fuel : nat) : Prop :=
  (length V * (length V + 1) + length V + 1 <= fuel)%nat.
