(* What bodies do to the arrays they read and write.  The arrays are not part of the code: task.py:19-41, 67-74 and block.py:20-26 only say
   that the body of a block reads its read ROI and writes its write ROI.  One array per task, written by the bodies of this task only,
   and any number of arrays that no task writes.  Reads and writes of single cells of bodies that run at the same time are interleaved
   in any way. *)
From Verif Require Export SpecGeom SchedSpec PipeSpec.
Open Scope Z_scope.

Definition cell := (nat * coord)%type.                                          (* an array, a point *)
Definition cell_dec (a b : cell) : {a = b} + {a <> b}.
Proof. decide equality; [apply (list_eq_dec Z.eq_dec)|apply PeanoNat.Nat.eq_dec]. Defined.

(* The body of b writes the array of its task inside its write ROI ... *)
Definition may_write (b : block) (c : cell) : Prop := fst c = b_task b /\ pt_in (snd c) (b_write b).
(* ... and reads inside its read ROI: what a task required by its own one is to write, the array of its own task outside its write
   ROI if the task was declared with read_write_conflict, and arrays no task writes. *)
Definition may_read (tasks : list task) (b : block) (c : cell) : Prop :=
  pt_in (snd c) (b_read b) /\ ~ may_write b c /\ exists t, in_pipe tasks t /\ t_id t = b_task b /\
  ((exists u, In u (t_ups t) /\ fst c = t_id u /\ in_total_write u (snd c)) \/
   (fst c = t_id t /\ t_rwc t = true) \/
   (forall u, in_pipe tasks u -> fst c <> t_id u)).

Section Store.
  Variable V : Type.
  Definition store := cell -> V.
  Definition put (m : store) (c : cell) (v : V) : store := fun a => if cell_dec a c then v else m a.
  (* what a body does *)
  Inductive prog := Done | Get (c : cell) (k : V -> prog) | Put (c : cell) (v : V) (k : prog).
  Section Keeps.
    Variables reads writes : cell -> Prop.
    Fixpoint keeps (p : prog) : Prop :=
      match p with Done => True | Get c k => reads c /\ forall v, keeps (k v) | Put c v k => writes c /\ keeps k end.
  End Keeps.
  (* a body that runs alone *)
  Fixpoint exec (p : prog) (m : store) : store :=
    match p with Done => m | Get c k => exec (k (m c)) m | Put c v k => exec k (put m c v) end.

  Variable code : block -> prog.
  (* one body after the other *)
  Definition one_by_one (l : list block) (m : store) : store := fold_left (fun m b => exec (code b) m) l m.

  (* Bodies interleaved with the calls of the scheduler.  [r b]: what the body of b has still to do.  The body begins when b is
     handed out and has ended when b is released as successful; it may have failed, or its process ended, at any point when b is
     released as failed.  check_function is right: it calls b done only if the body of b would change nothing. *)
  Definition body (r : block -> option prog) (b : block) (p : option prog) : block -> option prog := fun a => if block_dec a b then p else r a.
  Variable m0 : store.
  Inductive mrun : history -> store -> (block -> option prog) -> Prop :=
  | mr_init : mrun [] m0 (fun _ => None)
  | mr_hand h m r t pb : mrun h m r -> mrun (EvHand t pb :: h) m (body r (pb_block pb) (Some (code (pb_block pb))))
  | mr_skip h m r b : mrun h m r -> (forall c, exec (code b) m c = m c) -> mrun (EvSkip b :: h) m r
  | mr_none h m r t : mrun h m r -> mrun (EvNone t :: h) m r
  | mr_success h m r b : mrun h m r -> r b = Some Done -> mrun (EvRel (PB b SUCCESS) :: h) m (body r b None)
  | mr_failed h m r b : mrun h m r -> mrun (EvRel (PB b FAILED) :: h) m (body r b None)
  | mr_get h m r b c k : mrun h m r -> r b = Some (Get c k) -> mrun h m (body r b (Some (k (m c))))
  | mr_put h m r b c v k : mrun h m r -> r b = Some (Put c v k) -> mrun h (put m c v) (body r b (Some k)).
End Store.
Arguments Done {V}.
Arguments Get {V}.
Arguments Put {V}.
Arguments put {V}.
Arguments keeps {V}.
Arguments exec {V}.
Arguments one_by_one {V}.
Arguments body {V}.
Arguments mrun {V}.

(* the blocks released as successful, or called done, oldest first *)
Definition finished (h : history) : list block :=
  flat_map (fun e => match e with EvSkip b | EvRel (PB b SUCCESS) => [b] | _ => [] end) (rev h).
(* every block comes after those it depends on directly *)
Definition in_order (up : block -> list block) (l : list block) : Prop :=
  forall l1 b l2, l = l1 ++ b :: l2 -> forall a, In a (up b) -> In a l1.
(* the body of b was begun *)
Definition handed_out (h : history) (b : block) : Prop := exists t s, In (EvHand t (PB b s)) h.
