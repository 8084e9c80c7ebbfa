(* Runs for C100, computed. *)
From Coq Require Import Arith Lia.
From Verif Require Import SchedProps SchedExec DGFacts2 PipeRun P_SchedCE P_Sched P_Apart SerialFacts P_Conv P_Serial ServerFacts ServerSteps ServerIdle P_Server P_Server2 P_ServerCE P_Outcome P_Notify PoolAll
  P_PoolFail P_WholeOwnEx.
From Verif Require Client Pool P_WholeCE P_Cause Tcp Net NetFacts P_Net P_NetErr WireNet.
From Verif Require Import P_SysEx P_SysCE Sys SysFacts SysMeasure SysTrace WholeFair WholeInv WholeSrv P_Whole WholeSim WholeAny WholeAll WholeRun P_WholeAny TopInit Top P_Top P_TopFair P_Good Wire WireSim P_Wire WireFair
  P_WireFair P_WireEx P_WireFairEx WireTop P_WireTop P_WireTopEx.
From Verif Require Import Store StoreFacts P_Store P_StoreEx P_StoreSerial.
Open Scope Z_scope.

(* plays a history, oldest event first, bodies alone; a failing one takes k steps *)
Section Play.
  Variable code : block -> prog Z.
  Variable m0 : store Z.
  Variable k : nat.
  Fixpoint splay (h : history) : option (store Z) :=
    match h with
    | [] => Some m0
    | e :: h => match splay h with
      | None => None
      | Some m => match e with
        | EvHand _ _ | EvNone _ => Some m
        | EvSkip b => if idle_b (code b) m then Some m else None
        | EvRel (PB b SUCCESS) => Some (Store.exec (code b) m)
        | EvRel (PB b FAILED) => Some (exec_n Z k (code b) m)
        | _ => None end end
    end.
  Lemma splay_ok h : forall m, splay h = Some m -> alone Z code m0 h m.
  Proof.
    induction h as [|e h IH]; intros m H; cbn [splay] in H; [injection H as <-; constructor|]. destruct (splay h) as [m1|] eqn:E; [|discriminate H]. specialize (IH m1 eq_refl).
    destruct e as [b|t pb|t|[b []]]; try discriminate H.
    - destruct (idle_b (code b) m1) eqn:I; [|discriminate H]. injection H as <-. apply al_skip; auto. intros c. apply idle_ok; auto.
    - injection H as <-. constructor. exact IH.
    - injection H as <-. constructor. exact IH.
    - injection H as <-. apply al_success. exact IH.
    - injection H as <-. apply al_failed. exact IH.
  Qed.
End Play.

(* The pipeline of C99_example under the serial server: the second block of the first task fails once, after its read and one write;
   the process function sets the status again at the second attempt (C29). *)
Definition ss_fail : history -> pyblock -> res status := fun h pb =>
  if bid_eqb (bid (pb_block pb)) (1%nat, 1) && (n_failed h (pb_block pb) =? 0) then Ok FAILED else Ok SUCCESS.
Definition ss_chk : history -> nat -> block -> check_result := fun _ => st_chk.
Definition ss_check (d : dgraph) (y : serial) : bool :=
  forallb (succ_b (ss_h y)) (pblocks d) && match rel_failed (ss_h y) with [] => false | _ => true end && match skips_of (ss_h y) with [] => false | _ => true end &&
  match splay st_code st_m0 2 (ss_h y) with Some m => row_b (st_row m 1) [2; 2; 4; 6; 6; 10; 8; 14] && row_b (st_row m 2) [402; 2; 4; 4; 846; 6; 8; 8] | None => false end.
Lemma ss_checked : match serial_of [ow_d; ow_u] 100 ss_chk ss_fail 100 with Ok (d, s0, y) => ss_check d y | Err _ => false end = true.
Proof. vm_compute. reflexivity. Qed.
Theorem C100_example : exists d s0 y m h s m' r, sched_init [ow_d; ow_u] = Ok (d, s0) /\ pipe_ok [ow_d; ow_u] /\ inverse [ow_d; ow_u] idl idl d /\ fuel_ok [ow_d; ow_u] 100 /\
  (forall b, pipe_block [ow_d; ow_u] b -> keeps (may_read [ow_d; ow_u] b) (may_write b) (st_code b)) /\
  serial_pipe [ow_d; ow_u] idl idl d 100 ss_chk ss_fail (fun _ => first) 100 s0 = Ok y /\ alone Z st_code st_m0 (ss_h y) m /\
  pipe_run [ow_d; ow_u] idl idl d s0 100 h s /\ mrun st_code st_m0 h m' r /\
  (forall b, pipe_block [ow_d; ow_u] b -> succeeded (ss_h y) b /\ succeeded h b) /\
  (exists b, In (EvRel (PB b FAILED)) (ss_h y)) /\ (exists b, In (EvSkip b) (ss_h y)) /\
  st_row m 1 = [2; 2; 4; 6; 6; 10; 8; 14] /\ st_row m' 1 = st_row m 1 /\ st_row m 2 = [402; 2; 4; 4; 846; 6; 8; 8] /\ st_row m' 2 = st_row m 2.
Proof.
  destruct C99_example as [d [s0 [h [s [m' [r [R [IV [FO [KP [Q [Su [_ [_ [P1 [P2 _]]]]]]]]]]]]]]]].
  destruct (serial_ce [ow_d; ow_u] 100 ss_chk ss_fail 100 ss_check ow_ok ss_checked) as [d1 [s1 [y [E [Ey [R1 H]]]]]].
  rewrite (pr_init _ _ _ _ _ _ _ _ R) in E. injection E as <- <-.
  unfold ss_check in H. apply andb_prop in H. destruct H as [H H4]. apply andb_prop in H. destruct H as [H H3]. apply andb_prop in H. destruct H as [H1 H2].
  rewrite forallb_forall in H1. destruct (splay _ _ _ _) as [m|] eqn:Em; [|discriminate H4]. apply splay_ok in Em. apply andb_prop in H4. destruct H4 as [H4 H5]. apply row_b_ok in H4, H5.
  exists d, s0, y, m, h, s, m', r. split; [apply (pr_init _ _ _ _ _ _ _ _ R)|]. split; [exact ow_ok|]. split; [exact IV|]. split; [exact FO|]. split; [exact KP|]. split; [exact Ey|]. split; [exact Em|].
  split; [exact R|]. split; [exact Q|].
  split; [intros b Hb; split; [apply succ_b_true, H1, (run_in _ _ _ _ _ _ _ _ R); exact Hb|apply Su; exact Hb]|].
  split. { destruct (rel_failed (ss_h y)) as [|b k] eqn:E; [discriminate H2|]. exists b. assert (X : In b (rel_failed (ss_h y))) by (rewrite E; left; reflexivity). unfold rel_failed in X. apply in_flat_map in X.
    destruct X as [e [I X]]. destruct e as [|? ?|?|[a []]]; try (destruct X; fail). destruct X as [<-|[]]. exact I. }
  split. { destruct (skips_of (ss_h y)) as [|b k] eqn:E; [discriminate H3|]. exists b. assert (X : In b (skips_of (ss_h y))) by (rewrite E; left; reflexivity). unfold skips_of in X. apply in_flat_map in X.
    destruct X as [e [I X]]. destruct e; try (destruct X; fail). destruct X as [<-|[]]. exact I. }
  split; [exact H4|]. split; [congruence|]. split; [exact H5|congruence].
Qed.
Print Assumptions C100_example.

(* The call of C90_example that returns True: a worker process ends with the only block, after any part of the body, and another one does
   it.  The serial server does it at once. *)
Definition cc_code (b : block) : prog Z := Get (7%nat, [0]) (fun x => Put (1%nat, [0]) x (Put (1%nat, [0]) (x + 1) Done)).
Definition cc_m0 : store Z := fun c => match c with (7%nat, _) => 6 | _ => 0 end.
Definition cc_form (b : block) : bool := Nat.eqb (b_task b) 1 && roi_b (b_read b) (Roi [0] [1]) && roi_b (b_write b) (Roi [0] [1]).
Definition cc_check (d : dgraph) (x : wire) : bool :=
  within_b (dg_max_retries d) (hist (sv_tr (x_sv x))) && forallb cc_form (pblocks d) && match rel_failed (hist (sv_tr (x_sv x))) with [] => false | _ => true end &&
  match splay cc_code cc_m0 2 (hist (sv_tr (x_sv x))) with Some m => m (1%nat, [0]) =? 7 | None => false end.
Definition cc_serial (d : dgraph) (y : serial) : bool :=
  forallb (succ_b (ss_h y)) (pblocks d) && match rel_failed (ss_h y) with [] => true | _ => false end && match splay cc_code cc_m0 2 (ss_h y) with Some m => m (1%nat, [0]) =? 7 | None => false end.
Lemma cc_checked : match wx_run wn with Some (d, s0, h, b, (m1, x1), (m2, x2), (m3, x3)) => wx_check d b m1 x1 m2 x2 m3 x3 && wm_check d x1 x2 && cc_check d x2 | None => false end = true.
Proof. vm_compute. reflexivity. Qed.
Lemma cc_serial_checked : match serial_of wn 100 (fun _ => no_check) untouched 100 with Ok (d, s0, y) => cc_serial d y | Err _ => false end = true.
Proof. vm_compute. reflexivity. Qed.
Lemma cc_keeps b : cc_form b = true -> keeps (may_read wn b) (may_write b) (cc_code b).
Proof.
  unfold cc_form, roi_b. intros H. apply andb_prop in H. destruct H as [H H3]. apply andb_prop in H. destruct H as [H1 H2]. apply Nat.eqb_eq in H1.
  destruct (roi_dec (b_read b) _) as [Er|]; [|discriminate H2]. destruct (roi_dec (b_write b) _) as [Ew|]; [|discriminate H3]. unfold cc_code. cbn [keeps].
  assert (W : forall c x, may_write b (c, [x]) <-> c = 1%nat /\ 0 <= x < 1) by (intros c x; unfold may_write; cbn [fst snd]; rewrite Ew, pt_one, H1; tauto).
  split; [|intros v; rewrite !W; repeat split; lia]. unfold may_read. rewrite W. cbn [snd fst]. rewrite Er, pt_one, H1. split; [lia|]. split; [lia|].
  exists (P_WholeCE.wc 1 5). split; [exists (P_WholeCE.wc 1 5); split; [left; reflexivity|constructor]|]. split; [reflexivity|]. right. right. intros u Hu.
  assert (E : u = P_WholeCE.wc 1 5) by (unfold wn, P_WholeCE.wc in *; pipe_tac; auto). rewrite E. cbn. lia.
Qed.
Lemma cc_ok : pipe_ok wn.
Proof. apply P_Cause.c_ok. lia. Qed.
Definition cc_claim (d : dgraph) (s0 : sched) (b : block) (ms : list xmove) (x : wire) (y : serial) (m m' : store Z) : Prop :=
  call wn idl idl wn d 100 P_WholeCE.one_each /\ P_Net.lossless (dumpx b) (loadx b) /\
  (forall a, pipe_block wn a -> keeps (may_read wn a) (may_write a) (cc_code a)) /\
  (exists ps, run_net wn idl idl 100 no_init P_WholeCE.one_each wn d s0 (dumpx b) (loadx b) (map XTMove ms) (Some (XTop x false)) (XEnded (Returned true)) ps) /\ small (dumpx b) x /\
  (forall a, ~ perm_failed (dg_max_retries d) (hist (sv_tr (x_sv x))) a) /\ (exists r, mrun cc_code cc_m0 (hist (sv_tr (x_sv x))) m r) /\
  serial_pipe wn idl idl d 100 (fun _ => no_check) untouched (fun _ => first) 100 s0 = Ok y /\ (forall a, pipe_block wn a -> succeeded (ss_h y) a) /\ alone Z cc_code cc_m0 (ss_h y) m' /\
  (exists a, In (EvRel (PB a FAILED)) (hist (sv_tr (x_sv x)))) /\ rel_failed (ss_h y) = [] /\ m (1%nat, [0]) = 7 /\ m' (1%nat, [0]) = 7.
Lemma cc_from d s0 b m1 x1 m2 x2 m3 x3 : sched_init wn = Ok (d, s0) -> wm_claim d s0 b m1 x1 m2 x2 m3 x3 -> cc_check d x2 = true -> exists y m m', cc_claim d s0 b (m1 ++ m2) x2 y m m'.
Proof.
  intros Es C Q. destruct C as [CA [Lo [_ [S2 [_ [_ [[ps RN] _]]]]]]].
  destruct (serial_ce wn 100 (fun _ => no_check) untouched 100 cc_serial cc_ok cc_serial_checked) as [d1 [s1 [y [E [Ey [R H]]]]]]. rewrite Es in E. injection E as <- <-.
  unfold cc_check in Q. apply andb_prop in Q. destruct Q as [Q Q4]. apply andb_prop in Q. destruct Q as [Q Q3]. apply andb_prop in Q. destruct Q as [Q1 Q2]. rewrite forallb_forall in Q2.
  unfold cc_serial in H. apply andb_prop in H. destruct H as [H H3]. apply andb_prop in H. destruct H as [H1 H2]. rewrite forallb_forall in H1.
  destruct (splay _ _ _ (ss_h y)) as [m'|] eqn:Em'; [|discriminate H3]. destruct (splay _ _ _ (hist _)) as [m|] eqn:Em; [|discriminate Q4]. apply splay_ok in Em, Em'. apply Z.eqb_eq in H3, Q4.
  exists y, m, m'. split; [exact CA|]. split; [exact Lo|]. split; [intros a Ha; apply cc_keeps, Q2, (run_in _ _ _ _ _ _ _ _ R); exact Ha|]. split; [exists ps; exact RN|]. split; [exact S2|].
  split; [intros a [P1 P2]; pose proof (within_b_ok _ _ a Q1) as W; cbv beta in P1, P2; apply (Z.lt_irrefl (n_failed (hist (sv_tr (x_sv x2))) a)); eapply Z.le_lt_trans; [exact W|apply Z.max_lub_lt; [exact P2|exact P1]]|].
  split. { inversion RN as [|k h0 ? ? ? ? Ec Es' Ei RR E]; subst. pose proof (ca_setup _ _ _ _ _ _ _ _ _ _ _ CA Ec Es' Ei) as SE. pose proof (xtruns_quiet _ _ _ _ _ _ _ _ _ _ _ _ RR) as Qx. cbn [xt_x] in Qx.
    destruct (C88_server _ _ _ _ _ _ _ _ _ _ _ _ SE Lo _ _ Qx S2) as [S _]. pose proof (a_pipe _ _ _ _ _ _ _ _ _ _ S) as P.
    apply (C100_alone wn idl idl d s0 100 (ca_inverse _ _ _ _ _ _ _ CA) (ca_fuel _ _ _ _ _ _ _ CA) Z cc_code cc_m0 _ _ _ P Em). }
  split; [exact Ey|]. split; [intros a Ha; apply succ_b_true, H1, (run_in _ _ _ _ _ _ _ _ R); exact Ha|]. split; [exact Em'|].
  split. { destruct (rel_failed _) as [|a k] eqn:E in Q3; [discriminate Q3|]. exists a. assert (X : In a (rel_failed (hist (sv_tr (x_sv x2))))) by (rewrite E; left; reflexivity). unfold rel_failed in X. apply in_flat_map in X.
    destruct X as [e [I X]]. destruct e as [|? ?|?|[a' []]]; try (destruct X; fail). destruct X as [<-|[]]. exact I. }
  split; [destruct (rel_failed (ss_h y)); [reflexivity|discriminate H2]|]. split; [exact Q4|exact H3].
Qed.
Theorem C100_call_example : exists d s0 b ms x y m m', cc_claim d s0 b ms x y m m'.
Proof.
  pose proof cc_checked as Q. destruct (wx_run _) as [[[[[[[d s0] h] b] [m1 x1]] [m2 x2]] [m3 x3]]|] eqn:E; [|discriminate Q].
  apply andb_prop in Q. destruct Q as [Q K]. apply andb_prop in Q. destruct Q as [Q M]. destruct (wx_run_is _ _ _ _ _ _ _ _ _ _ _ E) as [Es [Ei [Hb [E1 [E2 E3]]]]].
  exists d, s0, b, (m1 ++ m2), x2. exact (cc_from _ _ _ _ _ _ _ _ _ Es (wm_from _ _ _ _ _ _ _ _ _ _ Es Ei (wx_from _ _ _ _ _ _ _ _ _ _ Es Ei Hb E1 E2 E3 Q) M) K).
Qed.
Print Assumptions C100_call_example.
