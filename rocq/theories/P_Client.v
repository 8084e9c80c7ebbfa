(* The client's block protocol (C38). *)
From Coq Require Import Lia.
From Verif Require Import Client.

Definition no_drops : drops := Drops false false false.
Definition releases (l : list cmsg) : list pyblock :=
  flat_map (fun m => match m with CRelease pb => [pb] | _ => [] end) l.

(* C38 while the connection lasts: a block is received *)
Theorem C38_block_partial : forall t pb body, let r := acquire_block t Up (RSend pb) body no_drops in
  let b := pb_block pb in let o := body (Some (PB b PROCESSING)) in
  cr_yield r = Some (Some (PB b PROCESSING)) /\
  (exists st, releases (cr_sent r) = [PB b st] /\ (st = SUCCESS \/ st = FAILED) /\
     (st = SUCCESS <-> o = Finished PROCESSING \/ o = Finished SUCCESS \/ o = Interrupted SUCCESS)) /\
  (forall s, o = Raised s -> cr_sent r = [CAcquire t; CBlockFailed (PB b FAILED); CRelease (PB b FAILED)] /\ cr_exn r = None) /\
  (forall s, o = Finished s -> exists st, cr_sent r = [CAcquire t; CRelease (PB b st)] /\ cr_exn r = None) /\
  (forall s, o = Interrupted s -> exists st, cr_sent r = [CAcquire t; CRelease (PB b st)] /\ cr_exn r = Some Interrupt).
Proof.
  intros t pb body r b o. unfold r, acquire_block, run_block. cbn [lose no_drops d_before d_body d_between tcp_send].
  fold b. fold o.
  destruct o as [s|s|s]; [destruct s| |destruct s]; cbn;
    (split; [reflexivity|]; split; [eexists; split; [reflexivity|]; split; auto; split; intros; auto; try discriminate;
       repeat (match goal with H : _ \/ _ |- _ => destruct H end); congruence|];
     repeat split; intros; try discriminate; try (eexists; split; reflexivity); reflexivity).
Qed.
(* C38: no block *)
Theorem C38_no_block_partial : forall t body rep, rep = RShutdown \/ rep = RClosed ->
  let r := acquire_block t Up rep body no_drops in
  cr_yield r = Some None /\ releases (cr_sent r) = [] /\
  cr_exn r = match body None with Finished _ => None | Raised _ => Some BodyException | Interrupted _ => Some Interrupt end /\
  cr_sent r = CAcquire t :: (if match rep with RShutdown => true | _ => false end then [CDisconnect] else []) /\
  (* the client cannot be used again *)
  forall t' rep' body' d, let r' := acquire_block t' (cr_conn r) rep' body' d in
    cr_sent r' = [] /\ cr_yield r' = None /\ cr_exn r' = Some NotConnected.
Proof.
  intros t body rep [-> | ->]; cbn; repeat split; auto; unfold acquire_block; destruct (d_before d); reflexivity.
Qed.
(* In every case: at most one release, only of the block received, SUCCESS or FAILED, and a
   BlockFailed is never sent after it. *)
Theorem C38_at_most_one_release : forall t c rep body d, let r := acquire_block t c rep body d in
  (releases (cr_sent r) = [] \/ exists pb st, rep = RSend pb /\ releases (cr_sent r) = [PB (pb_block pb) st] /\
     (st = SUCCESS \/ st = FAILED)) /\
  (forall pb l1 l2, cr_sent r = l1 ++ CBlockFailed pb :: l2 -> releases l1 = [] /\ pb_status pb = FAILED /\
     exists s, rep = RSend (PB (pb_block pb) s)) /\
  (cr_exn r = None -> forall pb, rep = RSend pb -> releases (cr_sent r) <> []).
Proof.
  assert (Inv : forall (l : list cmsg) a l1 l2 pb, l = [a] -> a <> CBlockFailed pb -> l = l1 ++ CBlockFailed pb :: l2 -> False).
  { intros l a l1 l2 pb -> N E. destruct l1 as [|x l1]; cbn in E; [injection E; congruence|].
    injection E as _ E. destruct l1; discriminate. }
  intros t c rep body d r. unfold r, acquire_block.
  destruct (tcp_send (lose (d_before d) c)) as [c1 [x|]] eqn:E1.
  { cbn. repeat split; auto; try discriminate; intros; destruct l1; discriminate. }
  destruct rep as [pb| | |].
  - unfold run_block. set (b := pb_block pb).
    destruct (body (Some (PB b PROCESSING))) as [s|s|s].
    + destruct (lose (d_body d) Up); cbn.
      * split; [right; exists pb; eexists; split; auto; split; [reflexivity|]; destruct s; cbn; auto|].
        split; [|intros _ pb' _; discriminate].
        intros pb' [|x [|y [|z l1]]] l2 E; try discriminate.
      * split; auto. split; [|discriminate]. intros pb' l1 l2 E. exfalso. eapply Inv; [reflexivity| |exact E]. discriminate.
      * split; auto. split; [|discriminate]. intros pb' l1 l2 E. exfalso. eapply Inv; [reflexivity| |exact E]. discriminate.
    + destruct (lose (d_body d) Up) eqn:El; cbn.
      * destruct (d_between d); cbn.
        -- split; auto. split; [|discriminate].
           intros pb' [|x [|y [|z l1]]] l2 E; try discriminate. cbn in E. injection E as <- <- _. cbn.
           split; auto. split; auto. exists (pb_status pb). unfold b. destruct pb. reflexivity.
        -- split; [right; exists pb, FAILED; auto|].
           split; [|intros _ pb' _; discriminate].
           intros pb' [|x [|y [|z [|w l1]]]] l2 E; try discriminate. cbn in E. injection E as <- <- _. cbn.
           split; auto. split; auto. exists (pb_status pb). unfold b. destruct pb. reflexivity.
      * destruct (d_between d); cbn; (split; auto; split; [|discriminate];
          intros pb' l1 l2 E; exfalso; eapply Inv; [reflexivity| |exact E]; discriminate).
      * destruct (d_between d); cbn; (split; auto; split; [|discriminate];
          intros pb' l1 l2 E; exfalso; eapply Inv; [reflexivity| |exact E]; discriminate).
    + destruct (lose (d_body d) Up); cbn.
      * split; [right; exists pb; eexists; split; auto; split; [reflexivity|]; destruct s; cbn; auto|].
        split; [|discriminate].
        intros pb' [|x [|y [|z l1]]] l2 E; try discriminate.
      * split; auto. split; [|discriminate]. intros pb' l1 l2 E. exfalso. eapply Inv; [reflexivity| |exact E]. discriminate.
      * split; auto. split; [|discriminate]. intros pb' l1 l2 E. exfalso. eapply Inv; [reflexivity| |exact E]. discriminate.
  - cbn. split; auto. split; [|intros; discriminate]. intros pb' [|x [|y [|z l1]]] l2 E; discriminate.
  - cbn. split; auto. split; [|intros; discriminate]. intros pb' [|x [|y l1]] l2 E; discriminate.
  - cbn. split; auto. split; [|intros; discriminate]. intros pb' [|x [|y l1]] l2 E; discriminate.
Qed.
Print Assumptions C38_block_partial.
Print Assumptions C38_no_block_partial.
Print Assumptions C38_at_most_one_release.

(* C38 fails in three ways when read literally. *)
Definition some_roi : roi := Roi [0%Z] [1%Z].
Definition some_pb : pyblock := PB (Block 1 0 some_roi some_roi some_roi) CREATED.
(* 1. the connection was lost before acquire_block is called (the server is down): it does not
   yield None but raises *)
Theorem C38_closed_before_refuted : forall t rep body, let r := acquire_block t Up rep body (Drops true false false) in
  cr_yield r = None /\ cr_exn r = Some StreamClosed /\ cr_sent r = [].
Proof. intros. cbn. auto. Qed.
(* 2. the connection is lost while the body runs: no ReleaseBlock, and the with-statement raises
   although the body did not, or raised something that was to be caught *)
Theorem C38_lost_in_body_refuted : forall t pb body, let r := acquire_block t Up (RSend pb) body (Drops false true false) in
  releases (cr_sent r) = [] /\ cr_exn r = Some StreamClosed \/
  releases (cr_sent r) = [] /\ cr_exn r = Some NotConnected /\ exists s, body (Some (PB (pb_block pb) PROCESSING)) = Raised s.
Proof.
  intros t pb body r. unfold r, acquire_block, run_block. cbn [lose d_before d_body d_between tcp_send].
  destruct (body _) as [s|s|s]; cbn; [auto| |auto]. right. eauto.
Qed.
(* 3. an interrupt after the body set the status to SUCCESS is released as SUCCESS *)
Theorem C38_interrupt_refuted : exists body, let r := acquire_block 1 Up (RSend some_pb) body no_drops in
  cr_sent r = [CAcquire 1; CRelease (PB (pb_block some_pb) SUCCESS)] /\ cr_exn r = Some Interrupt.
Proof. exists (fun _ => Interrupted SUCCESS). cbn. auto. Qed.
Print Assumptions C38_closed_before_refuted.
Print Assumptions C38_lost_in_body_refuted.
Print Assumptions C38_interrupt_refuted.

(* The messages of a worker that runs Task._process_blocks: requests, each answered block being
   released before the next request. *)
Inductive worker_trace (t : nat) : list cmsg -> Prop :=
| wt_end : worker_trace t []
| wt_ask : worker_trace t [CAcquire t]
| wt_stop : worker_trace t [CAcquire t; CDisconnect]
| wt_lost b : worker_trace t [CAcquire t; CBlockFailed (PB b FAILED)]
| wt_done b st l : st = SUCCESS \/ st = FAILED -> worker_trace t l ->
    worker_trace t (CAcquire t :: CRelease (PB b st) :: l)
| wt_fail b l : worker_trace t l ->
    worker_trace t (CAcquire t :: CBlockFailed (PB b FAILED) :: CRelease (PB b FAILED) :: l).

Theorem C38_worker_trace : forall t replies process drop n i c l e,
  process_blocks n t i c replies process drop = (l, e) -> worker_trace t l.
Proof.
  intros t replies process drop. induction n as [|n IH]; intros i c l e; cbn [process_blocks].
  - intros E. injection E as <- _. constructor.
  - set (body := fun b => match b with Some pb => process i pb | None => Finished CREATED end).
    unfold acquire_block. destruct (tcp_send (lose (d_before (drop i)) c)) as [c1 [x|]] eqn:E1.
    { cbn. intros E. injection E as <- _. constructor. }
    destruct (replies i) as [pb| | |].
    + unfold run_block. cbn [body]. destruct (process i _) as [s|s|s].
      * destruct (lose (d_body (drop i)) Up); cbn.
        -- destruct (process_blocks _ _ _ _ _ _ _) as [l' e'] eqn:E'. intros E. injection E as <- _.
           apply wt_done; [destruct s; cbn; auto|]. eapply IH; eauto.
        -- intros E. injection E as <- _. constructor.
        -- intros E. injection E as <- _. constructor.
      * destruct (lose (d_body (drop i)) Up); cbn.
        -- destruct (d_between (drop i)); cbn.
           ++ intros E. injection E as <- _. constructor.
           ++ destruct (process_blocks _ _ _ _ _ _ _) as [l' e'] eqn:E'. intros E. injection E as <- _.
              apply wt_fail. eapply IH; eauto.
        -- destruct (d_between (drop i)); cbn; intros E; injection E as <- _; constructor.
        -- destruct (d_between (drop i)); cbn; intros E; injection E as <- _; constructor.
      * destruct (lose (d_body (drop i)) Up); cbn.
        -- intros E. injection E as <- _. apply wt_done; [destruct s; cbn; auto|constructor].
        -- intros E. injection E as <- _. constructor.
        -- intros E. injection E as <- _. constructor.
    + cbn. intros E. injection E as <- _. constructor.
    + cbn. intros E. injection E as <- _. constructor.
    + cbn. intros E. injection E as <- _. constructor.
Qed.
Print Assumptions C38_worker_trace.

(* A whole worker, while the connection lasts: it is sent the blocks bs, then told to shut down or the server
   goes away.  Every block is processed once, in the order received, answered by its release (after a report if
   the function raised) before the next request, and then the worker ends without an exception. *)
Definition answers (t : nat) (pb : pyblock) (o : outcome) : list cmsg :=
  let b := pb_block pb in
  match o with
  | Finished s => [CAcquire t; CRelease (PB b (match s with PROCESSING | SUCCESS => SUCCESS | _ => FAILED end))]
  | _ => [CAcquire t; CBlockFailed (PB b FAILED); CRelease (PB b FAILED)]
  end.
Fixpoint session (t i : nat) (bs : list pyblock) (process : nat -> pyblock -> outcome) : list cmsg :=
  match bs with
  | [] => []
  | pb :: r => answers t pb (process i (PB (pb_block pb) PROCESSING)) ++ session t (S i) r process
  end.
Theorem C38_worker : forall t replies process last bs i n,
  (forall k pb, nth_error bs k = Some pb -> replies (i + k)%nat = RSend pb) ->
  replies (i + length bs)%nat = last -> last = RShutdown \/ last = RClosed ->
  (forall k pb s, process k pb <> Interrupted s) -> (length bs < n)%nat ->
  process_blocks n t i Up replies process (fun _ => no_drops) =
    (session t i bs process ++ CAcquire t :: (if match last with RShutdown => true | _ => false end then [CDisconnect] else []), Some None).
Proof.
  intros t replies process last. induction bs as [|pb bs IH]; intros i n Hb Hl Ho Np Hn; (destruct n as [|n]; [cbn in Hn; lia|]); cbn [process_blocks session].
  - rewrite Nat.add_0_r in Hl. rewrite Hl. destruct Ho as [-> | ->]; reflexivity.
  - pose proof (Hb O pb eq_refl) as H0. rewrite Nat.add_0_r in H0. rewrite H0.
    assert (E : process_blocks n t (S i) Up replies process (fun _ => no_drops) =
      (session t (S i) bs process ++ CAcquire t :: (if match last with RShutdown => true | _ => false end then [CDisconnect] else []), Some None)).
    { apply IH; auto; [|rewrite Nat.add_succ_comm; exact Hl|cbn in Hn; lia].
      intros k pb' Hk. rewrite Nat.add_succ_comm. apply Hb. exact Hk. }
    unfold acquire_block, run_block. cbn [lose no_drops d_before d_body d_between tcp_send].
    pose proof (Np i (PB (pb_block pb) PROCESSING)) as N.
    destruct (process i (PB (pb_block pb) PROCESSING)) as [s|s|s]; [| |destruct (N s eq_refl)].
    + destruct s; cbn; rewrite E; reflexivity.
    + cbn. rewrite E. reflexivity.
Qed.
Print Assumptions C38_worker.
Example worker_example :
  process_blocks 5 1 0 Up (fun i => if Nat.ltb i 3 then RSend some_pb else RShutdown)
    (fun i _ => if Nat.eqb i 1 then Raised PROCESSING else Finished PROCESSING) (fun _ => no_drops) =
  ([CAcquire 1; CRelease (PB (pb_block some_pb) SUCCESS);
    CAcquire 1; CBlockFailed (PB (pb_block some_pb) FAILED); CRelease (PB (pb_block some_pb) FAILED);
    CAcquire 1; CRelease (PB (pb_block some_pb) SUCCESS); CAcquire 1; CDisconnect], Some None).
Proof. reflexivity. Qed.
