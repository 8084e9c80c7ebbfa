(* Runs for C99, computed. *)
From Coq Require Import Arith Lia.
From Verif Require Import SchedProps SchedExec DGFacts2 PipeRun P_SchedCE P_Sched P_ServerCE P_WholeOwnEx.
From Verif Require Import Store StoreFacts P_Store.
Open Scope Z_scope.

(* every write of the body is of what is there *)
Fixpoint idle_b (p : prog Z) (m : store Z) : bool :=
  match p with Done => true | Get c k => idle_b (k (m c)) m | Put c v k => (m c =? v) && idle_b k m end.
Lemma idle_ok p m : idle_b p m = true -> forall m', (forall c, m' c = m c) -> forall c, exec p m' c = m c.
Proof.
  induction p as [|a k IH|a v k IH]; intros H m' E c; cbn [idle_b exec] in *; [apply E| |].
  - apply IH; [|exact E]. rewrite (E a). exact H.
  - apply andb_prop in H. destruct H as [H1 H2]. apply Z.eqb_eq in H1. apply IH; [exact H2|]. intros e. unfold put. destruct (cell_dec e a) as [->|]; [congruence|apply E].
Qed.
Section Play.
  Variable code : block -> prog Z.
  Variable m0 : store Z.
  Local Notation st := (history * store Z * (block -> option (prog Z)))%type.
  Definition by_event (e : event) (x : st) : option st :=
    match x with (h, m, r) =>
      match e with
      | EvHand t pb => Some (e :: h, m, body r (pb_block pb) (Some (code (pb_block pb))))
      | EvSkip b => if idle_b (code b) m then Some (e :: h, m, r) else None
      | EvNone t => Some (e :: h, m, r)
      | EvRel (PB b SUCCESS) => match r b with Some Done => Some (e :: h, m, body r b None) | _ => None end
      | EvRel (PB b FAILED) => Some (e :: h, m, body r b None)
      | _ => None end end.
  Definition by_body (b : block) (x : st) : option st :=
    match x with (h, m, r) =>
      match r b with
      | Some (Get c k) => Some (h, m, body r b (Some (k (m c))))
      | Some (Put c v k) => Some (h, put m c v, body r b (Some k))
      | _ => None end end.
  Fixpoint by_bodies (bs : list block) (x : st) : option st :=
    match bs with [] => Some x | b :: bs => match by_body b x with Some x => by_bodies bs x | None => None end end.
  (* events, oldest first, each followed by steps of bodies *)
  Fixpoint mplay (es : list (event * list block)) (x : st) : option st :=
    match es with
    | [] => Some x
    | (e, bs) :: es => match by_event e x with Some x => match by_bodies bs x with Some x => mplay es x | None => None end | None => None end
    end.
  Definition running (x : st) : Prop := match x with (h, m, r) => mrun code m0 h m r end.
  Lemma by_event_ok e x y : running x -> by_event e x = Some y -> running y.
  Proof.
    destruct x as [[h m] r]. cbn [running]. intros Q H. destruct e as [b|t pb|t|[b []]]; cbn [by_event] in H; try discriminate H.
    - destruct (idle_b (code b) m) eqn:I; [|discriminate H]. injection H as <-. apply mr_skip; auto. intros c. apply idle_ok; auto.
    - injection H as <-. apply mr_hand. exact Q.
    - injection H as <-. apply mr_none. exact Q.
    - destruct (r b) as [[]|] eqn:E; try discriminate H. injection H as <-. apply mr_success; auto.
    - injection H as <-. apply mr_failed. exact Q.
  Qed.
  Lemma by_body_ok b x y : running x -> by_body b x = Some y -> running y.
  Proof.
    destruct x as [[h m] r]. cbn [running]. intros Q H. cbn [by_body] in H. destruct (r b) as [[|c k|c v k]|] eqn:E; try discriminate H; injection H as <-; [apply mr_get|apply mr_put]; auto.
  Qed.
  Lemma by_bodies_ok bs : forall x y, running x -> by_bodies bs x = Some y -> running y.
  Proof. induction bs as [|b bs IH]; intros x y Q H; cbn [by_bodies] in H; [injection H as <-; exact Q|]. destruct (by_body b x) as [z|] eqn:E; [|discriminate H]. eapply IH; [|exact H]. eapply by_body_ok; eauto. Qed.
  Lemma mplay_ok es : forall x y, running x -> mplay es x = Some y -> running y.
  Proof.
    induction es as [|[e bs] es IH]; intros x y Q H; cbn [mplay] in H; [injection H as <-; exact Q|]. destruct (by_event e x) as [z|] eqn:E; [|discriminate H]. destruct (by_bodies bs z) as [w|] eqn:E2; [|discriminate H].
    eapply IH; [|exact H]. eapply by_bodies_ok; [|exact E2]. eapply by_event_ok; eauto.
  Qed.
  Lemma bodies_history bs : forall x y, by_bodies bs x = Some y -> fst (fst y) = fst (fst x).
  Proof.
    induction bs as [|b bs IH]; intros [[h m] r] y H; cbn [by_bodies] in H; [injection H as <-; reflexivity|]. destruct (by_body b (h, m, r)) as [z|] eqn:E; [|discriminate H]. rewrite (IH _ _ H).
    cbn [by_body] in E. destruct (r b) as [[|c k|c v k]|]; try discriminate E; injection E as <-; reflexivity.
  Qed.
  Lemma mplay_history es : forall x y, mplay es x = Some y -> fst (fst y) = rev (map fst es) ++ fst (fst x).
  Proof.
    induction es as [|[e bs] es IH]; intros [[h m] r] y H; cbn [mplay] in H; [injection H as <-; reflexivity|]. destruct (by_event e (h, m, r)) as [z|] eqn:E; [|discriminate H]. destruct (by_bodies bs z) as [w|] eqn:E2; [|discriminate H].
    rewrite (IH _ _ H), (bodies_history _ _ _ E2). cbn [map rev fst]. rewrite <- app_assoc. f_equal. cbn [by_event] in E.
    destruct e as [b|t pb|t|[b []]]; try discriminate E; try (injection E as <-; reflexivity). all: destruct (idle_b _ _) || destruct (r b) as [[]|]; try discriminate E; injection E as <-; reflexivity.
  Qed.
  Lemma mplay_run es h : map fst es = rev h -> forall h' m r, mplay es ([], m0, fun _ => None) = Some (h', m, r) -> mrun code m0 h m r.
  Proof.
    intros E h' m r H. assert (X : running (h', m, r)) by (eapply mplay_ok; [|exact H]; constructor). apply mplay_history in H. cbn [fst] in H. rewrite E, rev_involutive, app_nil_r in H. subst h'. exact X.
  Qed.
End Play.
Lemma fst_combine {A B} (l : list A) : forall (k : list B), (length l <= length k)%nat -> map fst (combine l k) = l.
Proof. induction l as [|a l IH]; intros [|b k] H; cbn in *; auto; [lia|]. f_equal. apply IH. lia. Qed.

(* The two tasks of P_WholeOwnEx.v.  Bodies of the first read an array 7 that no task writes; those of the second read the array of the
   first and the cells of their own array at either side. *)
Definition lo (b : block) : Z := (offset (b_write b))@0.
Definition st_code (b : block) : prog Z :=
  if Nat.eqb (b_task b) 1 then Get (7%nat, [lo b]) (fun x => Put (1%nat, [lo b]) (x + 1) (Put (1%nat, [lo b + 1]) (2 * x) Done))
  else Get (1%nat, [lo b]) (fun x => Get (2%nat, [lo b - 1]) (fun y => Get (2%nat, [lo b + 2]) (fun z =>
       Put (2%nat, [lo b]) (x + 10 * y + 100 * z) (Put (2%nat, [lo b + 1]) x Done)))).
Definition st_m0 : store Z := fun c => match c with (7%nat, [x]) => x + 1 | (1%nat, [6]) => 8 | (1%nat, [7]) => 14 | _ => 0 end.
Definition roi_b (a b : roi) : bool := if roi_dec a b then true else false.
Definition st_form (b : block) : bool :=
  (Nat.eqb (b_task b) 1 && roi_b (b_read b) (Roi [lo b] [2]) && roi_b (b_write b) (Roi [lo b] [2])) ||
  (Nat.eqb (b_task b) 2 && roi_b (b_read b) (Roi [lo b - 1] [4]) && roi_b (b_write b) (Roi [lo b] [2]) && (0 <=? lo b) && (lo b + 2 <=? 8)).
Lemma pt_one x a n : pt_in [x] (Roi [a] [n]) <-> a <= x < a + n.
Proof. unfold pt_in. cbn. split; [intros [_ H]; apply (H O); lia|]. intros H. split; [reflexivity|]. intros [|i] Hi; [exact H|lia]. Qed.
Lemma ow_in_d : in_pipe [ow_d; ow_u] ow_d.
Proof. exists ow_d. split; [left; reflexivity|constructor]. Qed.
Lemma ow_in_u : in_pipe [ow_d; ow_u] ow_u.
Proof. exists ow_u. split; [right; left; reflexivity|constructor]. Qed.
Lemma ow_only t : in_pipe [ow_d; ow_u] t -> t = ow_d \/ t = ow_u.
Proof. intros H. pipe_tac; auto. Qed.
Lemma st_keeps b : st_form b = true -> keeps (may_read [ow_d; ow_u] b) (may_write b) (st_code b).
Proof.
  unfold st_form, roi_b. intros H. apply Bool.orb_prop in H. destruct H as [H|H].
  - apply andb_prop in H. destruct H as [H H3]. apply andb_prop in H. destruct H as [H1 H2]. unfold st_code. rewrite H1. apply Nat.eqb_eq in H1.
    destruct (roi_dec (b_read b) _) as [Er|]; [|discriminate H2]. destruct (roi_dec (b_write b) _) as [Ew|]; [|discriminate H3]. cbn [keeps].
    assert (W : forall c x, may_write b (c, [x]) <-> c = 1%nat /\ lo b <= x < lo b + 2) by (intros c x; unfold may_write; cbn [fst snd]; rewrite Ew, pt_one, H1; tauto).
    assert (R : forall x, pt_in [x] (b_read b) <-> lo b <= x < lo b + 2) by (intros x; rewrite Er, pt_one; tauto).
    split; [|intros v; rewrite !W; repeat split; lia].
    unfold may_read. rewrite W. cbn [snd fst]. rewrite R, H1. split; [lia|]. split; [lia|].
    exists ow_u. split; [apply ow_in_u|]. split; [reflexivity|]. right. right. intros u Hu. destruct (ow_only u Hu) as [-> | ->]; cbn; lia.
  - apply andb_prop in H. destruct H as [H H5]. apply andb_prop in H. destruct H as [H H4]. apply andb_prop in H. destruct H as [H H3]. apply andb_prop in H. destruct H as [H1 H2].
    unfold st_code. apply Nat.eqb_eq in H1. replace (Nat.eqb (b_task b) 1) with false by (rewrite H1; reflexivity). apply Z.leb_le in H4, H5.
    destruct (roi_dec (b_read b) _) as [Er|]; [|discriminate H2]. destruct (roi_dec (b_write b) _) as [Ew|]; [|discriminate H3]. cbn [keeps].
    assert (W : forall c x, may_write b (c, [x]) <-> c = 2%nat /\ lo b <= x < lo b + 2) by (intros c x; unfold may_write; cbn [fst snd]; rewrite Ew, pt_one, H1; tauto).
    assert (R : forall x, pt_in [x] (b_read b) <-> lo b - 1 <= x < lo b + 3) by (intros x; rewrite Er, pt_one; lia).
    unfold may_read. split; [|intros x; split; [|intros y; split; [|intros z; rewrite !W; repeat split; lia]]];
      rewrite W; cbn [snd fst]; rewrite R, H1; (split; [lia|]); (split; [lia|]); exists ow_d; (split; [apply ow_in_d|]); (split; [reflexivity|]).
    + left. exists ow_u. split; [left; reflexivity|]. split; [reflexivity|]. unfold in_total_write. cbn. split; [reflexivity|]. intros [|i] Hi; [cbn; lia|lia].
    + right. left. auto.
    + right. left. auto.
Qed.
(* The last block of the first task has been done before.  The three others run at once, interleaved; one fails after its first write
   and is tried again, while a block of the second task runs that does not need it, ... *)
Definition st_chk : nat -> block -> check_result := fun _ b => if bid_eqb (bid b) (1%nat, 3) then CheckTrue else CheckFalse.
Definition st_calls : list call := acq 1 3 ++ [Acq 1 st_chk] ++ rel 1 FAILED [0] ++ rel 1 SUCCESS [2] ++ acq 2 1 ++ acq 1 1 ++ rel 1 SUCCESS [1; 0] ++ acq 2 1 ++ rel 2 SUCCESS [1; 3] ++ acq 2 2 ++ rel 2 SUCCESS [2; 0].
(* ... steps of bodies after each of these calls, by position in the list of blocks *)
Definition st_steps : list (list nat) := [[4; 4]; [5]; [6; 5; 6]; []; [6; 5]; []; []; [1; 1]; [4; 1; 4; 4]; []; []; [0; 1; 0; 0; 0; 1; 0]; []; []; [2; 2]; [3; 2; 3; 2; 3; 3; 2; 3]; []; []]%nat.
Definition pick_at (bs : list block) (l : list nat) : list block := flat_map (fun i => match nth_error bs i with Some b => [b] | None => [] end) l.
Definition in_order_b (up : block -> list block) (l : list block) : bool :=
  forallb (fun i => match nth_error l i with Some b => forallb (fun a => mem_b a (firstn i l)) (up b) | None => false end) (seq 0 (length l)).
Lemma in_order_b_ok up l : in_order_b up l = true -> in_order up l.
Proof.
  intros H l1 b l2 E a Ha. unfold in_order_b in H. rewrite forallb_forall in H. specialize (H (length l1)). rewrite E in H. rewrite nth_error_app2 in H by lia. rewrite Nat.sub_diag in H. cbn [nth_error] in H.
  assert (I : In (length l1) (seq 0 (length (l1 ++ b :: l2)))) by (apply in_seq; rewrite app_length; cbn; lia). specialize (H I). rewrite forallb_forall in H. specialize (H a Ha).
  rewrite firstn_app, Nat.sub_diag, firstn_all in H. cbn [firstn] in H. rewrite app_nil_r in H. apply mem_b_true. exact H.
Qed.
Definition st_es (d : dgraph) (h : history) (steps : list (list nat)) : list (event * list block) := combine (rev h) (map (pick_at (pblocks d)) steps).
Definition st_play (code : block -> prog Z) (m0 : store Z) (d : dgraph) (h : history) (steps : list (list nat)) (P : store Z -> bool) : bool :=
  Nat.leb (length (rev h)) (length steps) && match mplay code (st_es d h steps) ([], m0, fun _ => None) with Some (_, m, _) => P m | None => false end.
Lemma st_play_ok code m0 d h steps P : st_play code m0 d h steps P = true -> exists m r, mrun code m0 h m r /\ P m = true.
Proof.
  unfold st_play. intros H. apply andb_prop in H. destruct H as [L H]. apply Nat.leb_le in L. destruct (mplay _ _ _) as [[[h' m] r]|] eqn:E; [|discriminate H].
  exists m, r. split; [|exact H]. eapply mplay_run; [|exact E]. unfold st_es. apply fst_combine. rewrite map_length. exact L.
Qed.
Definition st_row (m : store Z) (a : nat) : list Z := map (fun x => m (a, [x])) [0; 1; 2; 3; 4; 5; 6; 7].
Definition row_b (a b : list Z) : bool := if list_eq_dec Z.eq_dec a b then true else false.
Definition nodup_b (l : list block) : bool := Nat.eqb (length (nodup block_dec l)) (length l).
Lemma nodup_b_ok l : nodup_b l = true -> NoDup l.
Proof. intros H. apply Nat.eqb_eq in H. apply (@NoDup_incl_NoDup _ (nodup block_dec l)); [apply NoDup_nodup|lia|]. intros x Hx. apply nodup_In in Hx. exact Hx. Qed.
Definition rel_failed (h : history) : list block := flat_map (fun e => match e with EvRel (PB b FAILED) => [b] | _ => [] end) h.
Definition skips_of (h : history) : list block := flat_map (fun e => match e with EvSkip b => [b] | _ => [] end) h.
Definition st_check (d : dgraph) (h : history) (s : sched) : bool :=
  enough_b d 100 && forallb st_form (pblocks d) && forallb (succ_b h) (pblocks d) &&
  match rel_failed h with [] => false | _ => true end && match skips_of h with [] => false | _ => true end &&
  (let l := pick_at (pblocks d) [4; 5; 6; 7; 0; 1; 2; 3]%nat in
   nodup_b l && forallb (fun b => mem_b b l) (pblocks d) && forallb (fun b => mem_b b (pblocks d)) l && in_order_b (dg_up idl idl d) l && negb (if list_eq_dec block_dec l (finished h) then true else false)) &&
  st_play st_code st_m0 d h st_steps (fun m => row_b (st_row m 1) [2; 2; 4; 6; 6; 10; 8; 14] && row_b (st_row m 2) [402; 2; 4; 4; 846; 6; 8; 8]).
Lemma st_checked : match run_of [ow_d; ow_u] 100 st_calls with Ok (d, s0, h, s) => st_check d h s | Err _ => false end = true.
Proof. vm_compute. reflexivity. Qed.
Lemma row_b_ok a b : row_b a b = true -> a = b.
Proof. unfold row_b. destruct (list_eq_dec _ _ _); [auto|discriminate]. Qed.
Theorem C99_example : exists d s0 h s m r, pipe_run [ow_d; ow_u] idl idl d s0 100 h s /\ inverse [ow_d; ow_u] idl idl d /\ fuel_ok [ow_d; ow_u] 100 /\
  (forall b, pipe_block [ow_d; ow_u] b -> keeps (may_read [ow_d; ow_u] b) (may_write b) (st_code b)) /\ mrun st_code st_m0 h m r /\
  (forall b, pipe_block [ow_d; ow_u] b -> succeeded h b) /\ (exists b, In (EvRel (PB b FAILED)) h) /\ (exists b, In (EvSkip b) h) /\
  st_row m 1 = [2; 2; 4; 6; 6; 10; 8; 14] /\ st_row m 2 = [402; 2; 4; 4; 846; 6; 8; 8] /\
  (exists l, l <> finished h /\ NoDup l /\ (forall b, In b l <-> pipe_block [ow_d; ow_u] b) /\ in_order (dg_up idl idl d) l).
Proof.
  destruct (run_ce [ow_d; ow_u] 100 st_calls st_check ow_ok st_checked) as [d [s0 [h [s [R H]]]]].
  unfold st_check in H. apply andb_prop in H. destruct H as [H H6]. apply andb_prop in H. destruct H as [H H5]. apply andb_prop in H. destruct H as [H H7]. apply andb_prop in H. destruct H as [H H4]. apply andb_prop in H. destruct H as [H H3]. apply andb_prop in H. destruct H as [H1 H2].
  rewrite forallb_forall in H2, H3. destruct (st_play_ok _ _ _ _ _ _ H6) as [m [r [Q P]]]. apply andb_prop in P. destruct P as [P1 P2].
  exists d, s0, h, s, m, r. split; [exact R|]. split; [apply (run_dual _ _ _ _ _ _ _ _ R), ow_edges|]. split; [eapply enough_b_ok; [apply ow_ok|apply (pr_init _ _ _ _ _ _ _ _ R)|exact H1]|].
  split; [intros b Hb; apply st_keeps, H2, (run_in _ _ _ _ _ _ _ _ R); exact Hb|]. split; [exact Q|].
  split; [intros b Hb; apply succ_b_true, H3, (run_in _ _ _ _ _ _ _ _ R); exact Hb|].
  split. { destruct (rel_failed h) as [|b l] eqn:E; [discriminate H4|]. exists b. assert (X : In b (rel_failed h)) by (rewrite E; left; reflexivity). unfold rel_failed in X. apply in_flat_map in X.
    destruct X as [e [I X]]. destruct e as [|? ?|?|[a []]]; try (destruct X; fail). destruct X as [<-|[]]. exact I. }
  split. { destruct (skips_of h) as [|b l] eqn:E; [discriminate H7|]. exists b. assert (X : In b (skips_of h)) by (rewrite E; left; reflexivity). unfold skips_of in X. apply in_flat_map in X.
    destruct X as [e [I X]]. destruct e; try (destruct X; fail). destruct X as [<-|[]]. exact I. }
  split; [apply row_b_ok; exact P1|]. split; [apply row_b_ok; exact P2|]. clear H4 H6 H7 Q P1 P2.
  cbv zeta in H5. generalize dependent (pick_at (pblocks d) [4; 5; 6; 7; 0; 1; 2; 3]%nat). intros l H5.
  apply andb_prop in H5. destruct H5 as [H5 L5]. apply andb_prop in H5. destruct H5 as [H5 L4]. apply andb_prop in H5. destruct H5 as [H5 L3]. apply andb_prop in H5. destruct H5 as [L1 L2].
  exists l. split; [intros E; destruct (list_eq_dec block_dec l (finished h)); [discriminate L5|contradiction]|]. split; [apply nodup_b_ok; exact L1|]. split; [|apply in_order_b_ok; exact L4].
  rewrite forallb_forall in L2, L3. intros b. split; intros Hb.
  - apply (run_in _ _ _ _ _ _ _ _ R), mem_b_true, L3. exact Hb.
  - apply mem_b_true, L2, (run_in _ _ _ _ _ _ _ _ R). exact Hb.
Qed.

(* A task that reads its own array around its write ROI without read_write_conflict: the same calls of the scheduler, every block
   succeeds, and what is left depends on which body was faster. *)
Definition un_t : task := Task 1 (Roi [-1] [6]) (Roi [-1] [4]) (Roi [0] [2]) false Valid 2 3 [].
Definition un_code (b : block) : prog Z := Get (1%nat, [lo b - 1]) (fun y => Get (1%nat, [lo b + 2]) (fun z => Put (1%nat, [lo b]) (y + z + 1) (Put (1%nat, [lo b + 1]) (y + z + 1) Done))).
Definition near (b : block) (c : cell) : Prop := pt_in (snd c) (b_read b) /\ ~ may_write b c.
Definition un_form (b : block) : bool := Nat.eqb (b_task b) 1 && roi_b (b_read b) (Roi [lo b - 1] [4]) && roi_b (b_write b) (Roi [lo b] [2]).
Lemma un_keeps b : un_form b = true -> keeps (near b) (may_write b) (un_code b).
Proof.
  unfold un_form, roi_b. intros H. apply andb_prop in H. destruct H as [H H3]. apply andb_prop in H. destruct H as [H1 H2]. apply Nat.eqb_eq in H1.
  destruct (roi_dec (b_read b) _) as [Er|]; [|discriminate H2]. destruct (roi_dec (b_write b) _) as [Ew|]; [|discriminate H3].
  assert (W : forall c x, may_write b (c, [x]) <-> c = 1%nat /\ lo b <= x < lo b + 2) by (intros c x; unfold may_write; cbn [fst snd]; rewrite Ew, pt_one, H1; tauto).
  assert (R : forall x, pt_in [x] (b_read b) <-> lo b - 1 <= x < lo b + 3) by (intros x; rewrite Er, pt_one; lia).
  unfold un_code, near. cbn [keeps]. rewrite W. cbn [snd fst]. rewrite R. split; [lia|]. intros y. rewrite W. cbn [snd fst]. rewrite R. split; [lia|]. intros z. rewrite !W. repeat split; lia.
Qed.
Definition un_m0 : store Z := fun _ => 0.
Definition un_check (d : dgraph) (h : history) (s : sched) : bool :=
  forallb un_form (pblocks d) && forallb (succ_b h) (pblocks d) && negb (Nat.eqb (length (pblocks d)) 0) &&
  st_play un_code un_m0 d h [[]; [0; 0; 0; 0; 1; 1; 1; 1]; []; []]%nat (fun m => m (1%nat, [0]) =? 1) &&
  st_play un_code un_m0 d h [[]; [1; 1; 1; 1; 0; 0; 0; 0]; []; []]%nat (fun m => m (1%nat, [0]) =? 2).
Lemma un_checked : match run_of [un_t] 100 (acq 1 2 ++ rel 1 SUCCESS [0; 1]) with Ok (d, s0, h, s) => un_check d h s | Err _ => false end = true.
Proof. vm_compute. reflexivity. Qed.
Theorem C99_undeclared_refuted : exists t d s0 h s m r m' r', t_rwc t = false /\ pipe_run [t] idl idl d s0 100 h s /\
  (forall b, pipe_block [t] b -> keeps (near b) (may_write b) (un_code b)) /\ (forall b, pipe_block [t] b -> succeeded h b) /\
  mrun un_code un_m0 h m r /\ mrun un_code un_m0 h m' r' /\ m (1%nat, [0]) <> m' (1%nat, [0]).
Proof.
  destruct (run_ce [un_t] 100 (acq 1 2 ++ rel 1 SUCCESS [0; 1]) un_check ltac:(pipe_ok_tac) un_checked) as [d [s0 [h [s [R H]]]]].
  unfold un_check in H. apply andb_prop in H. destruct H as [H H5]. apply andb_prop in H. destruct H as [H H4]. apply andb_prop in H. destruct H as [H _]. apply andb_prop in H. destruct H as [H1 H2].
  rewrite forallb_forall in H1, H2. destruct (st_play_ok _ _ _ _ _ _ H4) as [m [r [Q P]]]. destruct (st_play_ok _ _ _ _ _ _ H5) as [m' [r' [Q' P']]].
  apply Z.eqb_eq in P, P'. exists un_t, d, s0, h, s, m, r, m', r'. split; [reflexivity|]. split; [exact R|].
  split; [intros b Hb; apply un_keeps, H1, (run_in _ _ _ _ _ _ _ _ R); exact Hb|]. split; [intros b Hb; apply succ_b_true, H2, (run_in _ _ _ _ _ _ _ _ R); exact Hb|].
  split; [exact Q|]. split; [exact Q'|]. rewrite P, P'. discriminate.
Qed.
Print Assumptions C99_example.
Print Assumptions C99_undeclared_refuted.
