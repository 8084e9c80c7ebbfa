(* C101: attempts that run on after their block was given up. *)
From Coq Require Import Arith Lia.
From Verif Require Import SchedProps SchedExec DGFacts2 PipeRun P_SchedCE P_Sched SerialFacts P_Conv P_Serial P_ServerCE P_WholeOwnEx.
From Verif Require Import Store StoreFacts P_Store P_StoreEx P_StoreSerial P_StoreSerialEx.
Open Scope Z_scope.

(* server.py:261-270, block_bookkeeper.py:65-88: a block whose connection was closed, or whose time is over, is released as failed,
   whether or not its process still works on it; nothing stops the process function (client.py:81-103).  [late]: what attempts that were given up have still to do.  As mrun of
   Store.v otherwise: an attempt may also have ended when its block is released as failed. *)
Section Late.
  Variable V : Type.
  Variable code : block -> prog V.
  Variable m0 : store V.
  Inductive zrun : history -> store V -> (block -> option (prog V)) -> list (prog V) -> Prop :=
  | zr_init : zrun [] m0 (fun _ => None) []
  | zr_hand h m r late t pb : zrun h m r late -> zrun (EvHand t pb :: h) m (body r (pb_block pb) (Some (code (pb_block pb)))) late
  | zr_skip h m r late b : zrun h m r late -> (forall c, Store.exec (code b) m c = m c) -> zrun (EvSkip b :: h) m r late
  | zr_none h m r late t : zrun h m r late -> zrun (EvNone t :: h) m r late
  | zr_success h m r late b : zrun h m r late -> r b = Some Done -> zrun (EvRel (PB b SUCCESS) :: h) m (body r b None) late
  | zr_failed h m r late b : zrun h m r late -> zrun (EvRel (PB b FAILED) :: h) m (body r b None) late
  | zr_given_up h m r late b p : zrun h m r late -> r b = Some p -> zrun (EvRel (PB b FAILED) :: h) m (body r b None) (p :: late)
  | zr_get h m r late b c k : zrun h m r late -> r b = Some (Get c k) -> zrun h m (body r b (Some (k (m c)))) late
  | zr_put h m r late b c v k : zrun h m r late -> r b = Some (Put c v k) -> zrun h (Store.put m c v) (body r b (Some k)) late
  | zr_late_get h m r l1 l2 c k : zrun h m r (l1 ++ Get c k :: l2) -> zrun h m r (l1 ++ k (m c) :: l2)
  | zr_late_put h m r l1 l2 c v k : zrun h m r (l1 ++ Put c v k :: l2) -> zrun h (Store.put m c v) r (l1 ++ k :: l2).

  (* The runs of C99 are those in which no attempt runs on. *)
  Theorem C101_includes : forall h m r, mrun code m0 h m r -> zrun h m r [].
  Proof. intros h m r Q. induction Q; econstructor; eauto. Qed.
  (* Nothing is given up without a block released as failed. *)
  Theorem C101_none_late : forall h m r late, zrun h m r late -> (forall b, ~ In (EvRel (PB b FAILED)) h) -> late = [] /\ mrun code m0 h m r.
  Proof.
    intros h m r late Q. induction Q as [|h m r late t pb Q IH|h m r late b Q IH Hs|h m r late t Q IH|h m r late b Q IH E|h m r late b Q IH|h m r late b p Q IH E|h m r late b c k Q IH E|h m r late b c v k Q IH E|h m r l1 l2 c k Q IH|h m r l1 l2 c v k Q IH]; intros N.
    - split; [reflexivity|constructor].
    - destruct IH as [-> M]; [intros a X; apply (N a); right; exact X|]. split; [reflexivity|]. apply mr_hand. exact M.
    - destruct IH as [-> M]; [intros a X; apply (N a); right; exact X|]. split; [reflexivity|]. apply mr_skip; auto.
    - destruct IH as [-> M]; [intros a X; apply (N a); right; exact X|]. split; [reflexivity|]. apply mr_none. exact M.
    - destruct IH as [-> M]; [intros a X; apply (N a); right; exact X|]. split; [reflexivity|]. apply mr_success; auto.
    - exfalso. apply (N b). left. reflexivity.
    - exfalso. apply (N b). left. reflexivity.
    - destruct (IH N) as [-> M]. split; [reflexivity|]. apply mr_get; auto.
    - destruct (IH N) as [-> M]. split; [reflexivity|]. apply mr_put; auto.
    - destruct (IH N) as [X _]. destruct l1; discriminate X.
    - destruct (IH N) as [X _]. destruct l1; discriminate X.
  Qed.
  (* If no block is released as failed and all succeed, the arrays are those of any sequential run. *)
  Theorem C101_complete : forall tasks ord ordt d s0 fuel, inverse tasks ord ordt d -> fuel_ok tasks fuel ->
    (forall b, pipe_block tasks b -> keeps (may_read tasks b) (may_write b) (code b)) ->
    forall h s m r late, pipe_run tasks ord ordt d s0 fuel h s -> zrun h m r late -> (forall b, ~ In (EvRel (PB b FAILED)) h) -> (forall b, pipe_block tasks b -> succeeded h b) ->
    forall l, NoDup l -> (forall b, In b l <-> pipe_block tasks b) -> in_order (dg_up ord ordt d) l -> forall c, m c = one_by_one code l m0 c.
  Proof.
    intros tasks ord ordt d s0 fuel IV FO KEEP h s m r late PR Q N A. destruct (C101_none_late _ _ _ _ Q N) as [_ M]. exact (C99_complete tasks ord ordt d s0 fuel IV FO V code KEEP m0 h s m r PR M A).
  Qed.
End Late.
Print Assumptions C101_includes.
Print Assumptions C101_none_late.
Print Assumptions C101_complete.

Section Play.
  Variable code : block -> prog Z.
  Variable m0 : store Z.
  Local Notation st := (history * store Z * (block -> option (prog Z)) * list (prog Z))%type.
  (* an event, a step of a body, a step of the attempt that was given up last *)
  Inductive zmove := ZE (e : event) | ZB (b : block) | ZL.
  Definition zstep (a : zmove) (x : st) : option st :=
    match x with (h, m, r, late) =>
      match a with
      | ZE (EvHand t pb) => Some (EvHand t pb :: h, m, body r (pb_block pb) (Some (code (pb_block pb))), late)
      | ZE (EvNone t) => Some (EvNone t :: h, m, r, late)
      | ZE (EvRel (PB b SUCCESS)) => match r b with Some Done => Some (EvRel (PB b SUCCESS) :: h, m, body r b None, late) | _ => None end
      | ZE (EvRel (PB b FAILED)) => match r b with Some p => Some (EvRel (PB b FAILED) :: h, m, body r b None, p :: late) | _ => None end
      | ZE _ => None
      | ZB b => match r b with
                | Some (Get c k) => Some (h, m, body r b (Some (k (m c))), late)
                | Some (Put c v k) => Some (h, Store.put m c v, body r b (Some k), late)
                | _ => Some x end
      | ZL => match late with
              | Get c k :: l => Some (h, m, r, k (m c) :: l)
              | Put c v k :: l => Some (h, Store.put m c v, r, k :: l)
              | _ => Some x end
      end end.
  Fixpoint zplay (l : list zmove) (x : st) : option st :=
    match l with [] => Some x | a :: l => match zstep a x with Some x => zplay l x | None => None end end.
  Definition zruns (x : st) : Prop := match x with (h, m, r, late) => zrun Z code m0 h m r late end.
  Lemma zstep_ok a x y : zruns x -> zstep a x = Some y -> zruns y.
  Proof.
    destruct x as [[[h m] r] late]. cbn [zruns]. intros Q H. destruct a as [[b|t pb|t|[b []]]|b|]; cbn [zstep] in H; try discriminate H.
    - injection H as <-. apply zr_hand. exact Q.
    - injection H as <-. apply zr_none. exact Q.
    - destruct (r b) as [[]|] eqn:E; try discriminate H. injection H as <-. apply zr_success; auto.
    - destruct (r b) as [p|] eqn:E; try discriminate H. injection H as <-. apply zr_given_up; auto.
    - destruct (r b) as [[|c k|c v k]|] eqn:E; injection H as <-; auto; [apply zr_get|apply zr_put]; auto.
    - destruct late as [|[|c k|c v k] l]; injection H as <-; auto; [apply (zr_late_get Z code m0 h m r [] l c k)|apply (zr_late_put Z code m0 h m r [] l c v k)]; exact Q.
  Qed.
  Lemma zplay_ok l : forall x y, zruns x -> zplay l x = Some y -> zruns y.
  Proof. induction l as [|a l IH]; intros x y Q H; cbn [zplay] in H; [injection H as <-; exact Q|]. destruct (zstep a x) as [z|] eqn:E; [|discriminate H]. eapply IH; [|exact H]. eapply zstep_ok; eauto. Qed.
  Definition zevents (l : list zmove) : history := flat_map (fun a => match a with ZE e => [e] | _ => [] end) l.
  Lemma zstep_h a x y : zstep a x = Some y -> fst (fst (fst y)) = zevents [a] ++ fst (fst (fst x)).
  Proof.
    destruct x as [[[h m] r] late]. intros H. destruct a as [[b|t pb|t|[b []]]|b|]; cbn [zstep] in H; try discriminate H; try (injection H as <-; reflexivity);
      [destruct (r b) as [[]|]|destruct (r b)|destruct (r b) as [[|c k|c v k]|]|destruct late as [|[|c k|c v k] l]]; try discriminate H; injection H as <-; reflexivity.
  Qed.
  Lemma zplay_h l : forall x y, zplay l x = Some y -> fst (fst (fst y)) = rev (zevents l) ++ fst (fst (fst x)).
  Proof.
    induction l as [|a l IH]; intros x y H; cbn [zplay] in H; [injection H as <-; reflexivity|]. destruct (zstep a x) as [z|] eqn:E; [|discriminate H].
    rewrite (IH _ _ H), (zstep_h _ _ _ E). unfold zevents. cbn [flat_map]. rewrite app_nil_r. destruct a; cbn [app]; [|reflexivity|reflexivity]. cbn [rev]. rewrite <- app_assoc. reflexivity.
  Qed.
End Play.

(* The pipeline of C99_example.  The first attempt at a block of the second task is given up before its first step, and a second one
   succeeds; when all blocks have, the first attempt goes on to its end.  It reads what the blocks beside it have written since. *)
Definition zz_fail : history -> pyblock -> res status := fun h pb =>
  if bid_eqb (bid (pb_block pb)) (2%nat, 1) && (n_failed h (pb_block pb) =? 0) then Ok FAILED else Ok SUCCESS.
Definition zz_moves (h : history) : list zmove :=
  flat_map (fun e => match e with EvRel (PB b SUCCESS) => repeat (ZB b) 5 ++ [ZE e] | _ => [ZE e] end) (rev h) ++ repeat ZL 5.
Lemma zz_events h : zevents (zz_moves h) = rev h.
Proof.
  unfold zevents, zz_moves. rewrite flat_map_app. replace (flat_map _ (repeat ZL 5)) with (@nil event) by reflexivity. rewrite app_nil_r.
  induction (rev h) as [|e l IH]; [reflexivity|]. cbn [flat_map]. rewrite flat_map_app, IH. destruct e as [b|t pb|t|[b []]]; reflexivity.
Qed.
Definition zz_check (d : dgraph) (y : serial) : bool :=
  enough_b d 100 && forallb st_form (pblocks d) && forallb (succ_b (ss_h y)) (pblocks d) &&
  match splay st_code st_m0 0 (ss_h y) with Some m => m (2%nat, [2]) =? 4 | None => false end &&
  match zplay st_code (zz_moves (ss_h y)) ([], st_m0, fun _ => None, []) with Some (_, m, _, [Done]) => m (2%nat, [2]) =? 84624 | _ => false end.
Lemma zz_checked : match serial_of [ow_d; ow_u] 100 (fun _ => no_check) zz_fail 100 with Ok (d, s0, y) => zz_check d y | Err _ => false end = true.
Proof. vm_compute. reflexivity. Qed.
Theorem C101_late_refuted : exists tasks d s0 h s m r c, pipe_run tasks idl idl d s0 100 h s /\ inverse tasks idl idl d /\ fuel_ok tasks 100 /\
  (forall b, pipe_block tasks b -> keeps (may_read tasks b) (may_write b) (st_code b)) /\
  zrun Z st_code st_m0 h m r [Done] /\ (forall b, pipe_block tasks b -> succeeded h b) /\
  forall l, NoDup l -> (forall b, In b l <-> pipe_block tasks b) -> in_order (dg_up idl idl d) l -> m c <> one_by_one st_code l st_m0 c.
Proof.
  destruct (serial_ce [ow_d; ow_u] 100 (fun _ => no_check) zz_fail 100 zz_check ow_ok zz_checked) as [d [s0 [y [E [Ey [R H]]]]]]. unfold zz_check in H. set (h := ss_h y) in *. clearbody h.
  apply andb_prop in H. destruct H as [H H6]. apply andb_prop in H. destruct H as [H H5]. apply andb_prop in H. destruct H as [H H3]. apply andb_prop in H. destruct H as [H1 H2].
  rewrite forallb_forall in H2, H3. pose proof (zz_events h) as He. destruct (splay _ _ _ _) as [m1|] eqn:E1; [|discriminate H5]. apply splay_ok in E1. apply Z.eqb_eq in H5.
  destruct (zplay _ _ _) as [[[[h' m] r] late]|] eqn:E2; [|discriminate H6]. assert (Hl : late = [Done] /\ m (2%nat, [2]) = 84624) by (destruct late as [|[] [|]]; try discriminate H6; apply Z.eqb_eq in H6; auto). destruct Hl as [-> Hm].
  pose proof (zplay_h _ _ _ _ E2) as Eh. cbn [fst] in Eh. rewrite He, rev_involutive, app_nil_r in Eh. subst h'.
  assert (Q : zrun Z st_code st_m0 h m r [Done]) by (apply (zplay_ok st_code st_m0 _ _ _ (zr_init Z st_code st_m0 : zruns st_code st_m0 ([], st_m0, fun _ => None, [])) E2)).
  assert (IV : inverse [ow_d; ow_u] idl idl d) by (apply (run_dual _ _ _ _ _ _ _ _ R), ow_edges).
  assert (FO : fuel_ok [ow_d; ow_u] 100) by (eapply enough_b_ok; [apply ow_ok|apply (pr_init _ _ _ _ _ _ _ _ R)|exact H1]).
  assert (KP : forall b, pipe_block [ow_d; ow_u] b -> keeps (may_read [ow_d; ow_u] b) (may_write b) (st_code b)) by (intros b Hb; apply st_keeps, H2, (run_in _ _ _ _ _ _ _ _ R); exact Hb).
  assert (Su : forall b, pipe_block [ow_d; ow_u] b -> succeeded h b) by (intros b Hb; apply succ_b_true, H3, (run_in _ _ _ _ _ _ _ _ R); exact Hb).
  exists [ow_d; ow_u], d, s0, h, (ss_s y), m, r, (2%nat, [2]). split; [exact R|]. split; [exact IV|]. split; [exact FO|]. split; [exact KP|]. split; [exact Q|]. split; [exact Su|].
  intros l Nd Il Io. destruct (C100_alone _ _ _ _ _ _ IV FO Z st_code st_m0 _ _ _ R E1) as [r1 Q1].
  rewrite <- (C99_complete _ _ _ _ _ _ IV FO Z st_code KP st_m0 _ _ _ _ R Q1 Su l Nd Il Io (2%nat, [2])). rewrite Hm, H5. discriminate.
Qed.
Print Assumptions C101_late_refuted.

(* A run for C101_complete: nothing fails. *)
Definition zn_check (d : dgraph) (y : serial) : bool :=
  forallb (succ_b (ss_h y)) (pblocks d) && match rel_failed (ss_h y) with [] => true | _ => false end &&
  match splay st_code st_m0 0 (ss_h y) with Some m => row_b (st_row m 2) [402; 2; 4; 4; 846; 6; 8; 8] | None => false end.
Lemma zn_checked : match serial_of [ow_d; ow_u] 100 (fun _ => no_check) untouched 100 with Ok (d, s0, y) => zn_check d y | Err _ => false end = true.
Proof. vm_compute. reflexivity. Qed.
Example C101_example : exists d s0 h s m r l, pipe_run [ow_d; ow_u] idl idl d s0 100 h s /\ inverse [ow_d; ow_u] idl idl d /\ fuel_ok [ow_d; ow_u] 100 /\
  (forall b, pipe_block [ow_d; ow_u] b -> keeps (may_read [ow_d; ow_u] b) (may_write b) (st_code b)) /\
  zrun Z st_code st_m0 h m r [] /\ (forall b, ~ In (EvRel (PB b FAILED)) h) /\ (forall b, pipe_block [ow_d; ow_u] b -> succeeded h b) /\
  NoDup l /\ (forall b, In b l <-> pipe_block [ow_d; ow_u] b) /\ in_order (dg_up idl idl d) l /\ st_row m 2 = [402; 2; 4; 4; 846; 6; 8; 8].
Proof.
  destruct C99_example as [d [s0 [h0 [s1 [m' [r' [R0 [IV [FO [KP [_ [_ [_ [_ [_ [_ [l [_ [Nd [Il Io]]]]]]]]]]]]]]]]]]]].
  destruct (serial_ce [ow_d; ow_u] 100 (fun _ => no_check) untouched 100 zn_check ow_ok zn_checked) as [d1 [s2 [y [E [_ [R H]]]]]].
  rewrite (pr_init _ _ _ _ _ _ _ _ R0) in E. injection E as <- <-. unfold zn_check in H. set (h := ss_h y) in *. clearbody h.
  apply andb_prop in H. destruct H as [H H3]. apply andb_prop in H. destruct H as [H1 H2]. rewrite forallb_forall in H1.
  destruct (splay _ _ _ _) as [m|] eqn:Em; [|discriminate H3]. apply splay_ok in Em. destruct (C100_alone _ _ _ _ _ _ IV FO Z st_code st_m0 _ _ _ R Em) as [r Q].
  exists d, s0, h, (ss_s y), m, r, l. split; [exact R|]. split; [exact IV|]. split; [exact FO|]. split; [exact KP|]. split; [apply C101_includes; exact Q|].
  split. { intros b X. destruct (rel_failed h) as [|a k] eqn:Er; [|discriminate H2]. assert (Y : In b (rel_failed h)) by (unfold rel_failed; apply in_flat_map; eexists; split; [exact X|left; reflexivity]). rewrite Er in Y. destruct Y. }
  split; [intros b Hb; apply succ_b_true, H1, (run_in _ _ _ _ _ _ _ _ R); exact Hb|]. split; [exact Nd|]. split; [exact Il|]. split; [exact Io|apply row_b_ok; exact H3].
Qed.
Print Assumptions C101_example.
