(* C90: calls of run_blockwise over the network (WireTop.v). *)
From Coq Require Import Arith Lia.
From Verif Require Import SchedProps SchedExec DGFacts2 PipeRun P_SchedCE P_Sched SerialFacts P_Conv P_Serial ServerFacts ServerSteps
  ServerIdle P_Server P_Server2 P_ServerCE P_Outcome P_Notify PoolAll P_PoolFail P_Sys.
From Verif Require Client Pool P_Pool Net NetFacts P_Net WireNet.
From Verif Require Import Sys SysFacts SysMeasure SysTrace WholeSrv WholeFair P_Whole WholeSim WholeAny WholeAll WholeRun P_WholeAny TopInit Top P_Top
  P_TopFair P_Good Wire WireSim P_Wire WireFair P_WireFair WireAttr P_WireAttr WireTop.
Open Scope Z_scope.
Local Notation all_kept := (fun _ : nat => @None nat).

(* the moves of a run without those of the main thread *)
Definition xmoves (ms : list xtmove) : list xmove := flat_map (fun m => match m with XTMove a => [a] | XTStop => [] end) ms.
Lemma xmoves_in ms m : In m (xmoves ms) <-> In (XTMove m) ms.
Proof.
  unfold xmoves. rewrite in_flat_map. split.
  - intros [[a|] [H Q]]; [|destruct Q]. destruct Q as [->|[]]. exact H.
  - intros H. exists (XTMove m). split; [exact H|left; reflexivity].
Qed.
Section Quiet.
  Variables (up down : block -> list block) (maxr : nat -> Z) (fuel : nat) (init : nat -> res unit) (nw : nat -> Z) (mbf : Z).
  Variable dumps : Net.nmsg payload -> option Tcp.bytes.
  Variable loads : Tcp.bytes -> option (Net.nmsg payload).
  Local Notation xtruns := (xtruns up down maxr fuel init nw mbf dumps loads).
  Lemma xstep_quiet x m x' : xstep up down maxr fuel init nw mbf dumps loads x m x' -> xstep up down maxr fuel TopInit.quiet nw mbf dumps loads x m x'.
  Proof.
    intros S. destruct S; [eapply xs_net|eapply xs_lost|eapply xs_call|eapply xs_main|eapply xs_body|eapply xs_end|eapply xs_raise|eapply xs_serve|eapply xs_send];
      eauto using iteration_quiet.
  Qed.
  Lemma xtruns_quiet y ms y' : xtruns y ms y' -> xruns up down maxr fuel TopInit.quiet nw mbf dumps loads (xt_x y) (xmoves ms) (xt_x y').
  Proof.
    induction 1 as [|ms y1 m y2 R IH S]; [constructor|]. unfold xmoves. rewrite flat_map_app. destruct S as [m x A _|]; cbn [flat_map app xt_x].
    - eapply xruns_step; eauto using xstep_quiet.
    - rewrite app_nil_r. exact IH.
  Qed.
  Lemma xtruns_stop y ms y' : xtruns y ms y' -> (xt_stop y' = true <-> xt_stop y = true \/ In XTStop ms).
  Proof.
    induction 1 as [|ms y1 m y2 R IH S]; [cbn; tauto|]. rewrite in_app_iff. destruct S as [m x A _|]; cbn [xt_stop].
    - rewrite IH. cbn. split; [tauto|]. intros [?|[?|[H|[]]]]; auto. discriminate.
    - split; auto. intros _. right. right. left. reflexivity.
  Qed.
  Lemma xtruns_stopped y ms y' : xtruns y ms y' -> xt_stop y = true ->
    xt_stop y' = true /\ x_sv (xt_x y') = x_sv (xt_x y) /\ exists sent, x_todo (xt_x y) = sent ++ x_todo (xt_x y').
  Proof.
    induction 1 as [|ms y1 m y2 R IH S]; [intros E; split; [exact E|]; split; auto; exists []; auto|]. intros E. destruct (IH E) as [E1 [E2 [sent E3]]].
    destruct S as [m x A N|]; cbn [xt_stop xt_x]; [|eauto]. split; auto. rewrite <- E2, E3.
    destruct A; cbn [set_net set_pc set_ps x_sv x_todo]; try (split; [reflexivity|exists sent; reflexivity]).
    - rewrite N in E1; [discriminate|reflexivity].
    - split; auto. exists (sent ++ [(st, r)]). rewrite H, <- app_assoc. reflexivity.
  Qed.
  Lemma xtruns_app a l1 b l2 c : xtruns a l1 b -> xtruns b l2 c -> xtruns a (l1 ++ l2) c.
  Proof. intros H1 H2. induction H2 as [|ms z1 m z2 H2 IH S2]; [rewrite app_nil_r; exact H1|]. rewrite app_assoc. eapply xtruns_step; eauto. Qed.
  Lemma xtruns_lift x ms x' : xruns up down maxr fuel init nw mbf dumps loads x ms x' -> xtruns (XTop x false) (map XTMove ms) (XTop x' false).
  Proof.
    induction 1 as [|ms x1 m x2 R IH S]; [constructor|]. rewrite map_app. cbn [map]. eapply xtruns_step; eauto.
    change (XTop x2 false) with (XTop x2 (xt_stop (XTop x1 false))). apply xts_move; auto.
  Qed.
End Quiet.
Section Call.
  Variables (tasks : list task) (ord : list block -> list block) (ordt : list nat -> list nat) (fuel : nat) (init : nat -> res unit) (nw : nat -> Z).
  Variables (all : list task) (d : dgraph) (s0 : sched).
  Variable dumps : Net.nmsg payload -> option Tcp.bytes.
  Variable loads : Tcp.bytes -> option (Net.nmsg payload).
  Hypothesis CA : call tasks ord ordt all d fuel nw.
  Hypothesis L : P_Net.lossless dumps loads.
  Local Notation up := (dg_up ord ordt d).
  Local Notation down := (dg_down ord ordt d).
  Local Notation maxr := (dg_max_retries d).
  Local Notation run_net := (run_net tasks ord ordt fuel init nw all d s0 dumps loads).
  Local Notation xtruns := (xtruns up down maxr fuel init nw 3 dumps loads).
  Local Notation xtstep := (xtstep up down maxr fuel init nw 3 dumps loads).

  (* The value: True if and only if every block of the tasks and of those they require has succeeded, failed for good, or cannot run
     because a block it depends on failed. *)
  Theorem C90_value_partial : forall ms y v ps, run_net ms (Some y) (XEnded (Returned v)) ps -> small dumps (xt_x y) ->
    let h := hist (sv_tr (x_sv (xt_x y))) in
    apart_failures all ord ordt d h -> (v = true <-> forall b, pipe_block tasks b -> settled up maxr h b).
  Proof.
    intros ms y v ps RN Sm h F. inversion RN as [|k h0 ? ? ? ? Ec Es Ei R E]; subst.
    pose proof (ca_setup _ _ _ _ _ _ _ _ _ _ _ CA Ec Es Ei) as SE. pose proof (xtruns_quiet _ _ _ _ _ _ _ _ _ _ _ _ R) as Q. cbn [xt_x] in Q.
    destruct (C88_server _ _ _ _ _ _ _ _ _ _ _ _ SE L _ _ Q Sm) as [S _]. pose proof (a_pipe _ _ _ _ _ _ _ _ _ _ S) as P.
    inversion E; subst. rewrite (C40_true_iff_settled_partial _ _ _ _ _ _ _ _ P (ca_inverse _ _ _ _ _ _ _ CA) (ca_fuel _ _ _ _ _ _ _ CA) F).
    destruct (ca_all _ _ _ _ _ _ _ _ _ CA Ec Es) as [_ [X _]]. split; intros H b Hb; apply H, X, Hb.
  Qed.
  (* It is False only if the main thread was interrupted. *)
  Theorem C90_false_partial : forall ms y ps, run_net ms (Some y) (XEnded (Returned false)) ps -> small dumps (xt_x y) ->
    apart_failures all ord ordt d (hist (sv_tr (x_sv (xt_x y)))) -> In XTStop ms.
  Proof.
    intros ms y ps RN Sm F. pose proof (C90_value_partial _ _ _ _ RN Sm F) as V.
    inversion RN as [|k h0 ? ? ? ? Ec Es Ei R E]; subst.
    pose proof (ca_setup _ _ _ _ _ _ _ _ _ _ _ CA Ec Es Ei) as SE. pose proof (xtruns_quiet _ _ _ _ _ _ _ _ _ _ _ _ R) as Q. cbn [xt_x] in Q.
    inversion E as [Td [Sp|Tp]| |]; subst.
    - exfalso. assert (X : false = true); [|discriminate X]. apply V. intros b Hb. destruct (ca_all _ _ _ _ _ _ _ _ _ CA Ec Es) as [_ [X _]].
      apply (C88_settled_partial _ _ _ _ _ _ _ _ _ _ _ _ SE L _ _ Q Sm F Sp). apply X. exact Hb.
    - apply (xtruns_stop _ _ _ _ _ _ _ _ _ _ _ _ R) in Tp. destruct Tp as [Tp|Tp]; [discriminate|exact Tp].
  Qed.
  (* An exception is one that a worker or an init callback raised, ... *)
  Theorem C90_raised : forall ms o e ps, run_net ms o (XEnded (Raised e)) ps -> (forall y, o = Some y -> small dumps (xt_x y)) ->
    (exists st, In (XTMove (XRaise st e)) ms) \/ exists t, in_pipe tasks t /\ init (t_id t) = Err e.
  Proof.
    intros ms o e ps RN Sm. inversion RN as [k ? Ec Es Ei|k h0 ? y ? ? Ec Es Ei R E]; subst.
    - destruct (C66_raised tasks ord ordt fuel init nw all d s0 [] None e _ CA (rb_start _ _ _ _ _ _ _ _ _ _ _ Ec Es Ei)) as [[st [n []]]|H]; auto.
    - specialize (Sm y eq_refl).
      pose proof (ca_setup _ _ _ _ _ _ _ _ _ _ _ CA Ec Es Ei) as SE. pose proof (xtruns_quiet _ _ _ _ _ _ _ _ _ _ _ _ R) as Q. cbn [xt_x] in Q.
      inversion E as [|i n r e' es Td Sp Tp Hn Er Eg Eh Ecl X|]; subst.
      destruct (wire_runs _ _ _ _ _ _ _ _ _ _ SE _ _ all_kept L _ _ (fun _ => eq_refl) Q Sm) as [ams [h [A [Re _]]]].
      pose proof (serve_input dumps loads all_kept L _ _ _ _ _ Re Sm (all_in _) Hn Er Eg Eh Ecl) as Io.
      pose proof (ai_runs _ _ _ _ _ _ _ _ _ _ SE _ _ A) as AI.
      destruct X as [X|[sv [l [X1 [X2 X3]]]]].
      + destruct (ai_iteration _ _ _ _ _ _ _ _ _ _ SE _ _ _ AI Io) as [sv [l [Ev El]]]. rewrite (r_sv _ _ _ _ _ Re) in Ev.
        destruct (iteration_alike up down maxr fuel init i (x_sv (xt_x y))) as [Eq|[e' [t [E1 [I H]]]]]; [congruence|].
        right. rewrite X in E1. injection E1 as <-. specialize (H sv Ev).
        assert (S : server_run_to all ord ordt d s0 fuel TopInit.quiet false (aserved ams ++ [i]) sv).
        { pose proof (ai_server _ _ _ _ _ _ _ _ _ _ _ AI) as S. destruct S. constructor; auto.
          + apply Forall_app. split; [exact sr_fair|]. constructor; [|constructor]. eapply ai_fair; eauto.
          + unfold server_pipe in *. destruct (server_init _ _ _ _) as [z|]; [|discriminate]. cbn [bind] in *. eapply loop_snoc; eauto;
              rewrite (r_sv _ _ _ _ _ Re); auto. }
        assert (Ht : In t (map t_id all)) by (eapply inits_all; eauto).
        destruct (ca_all _ _ _ _ _ _ _ _ _ CA Ec Es) as [_ [_ Y]]. destruct (Y _ Ht) as [tk [Pt <-]]. exists tk. auto.
      + left. destruct (C88_only_workers _ _ _ _ _ _ _ _ _ _ _ _ SE L _ _ Q Sm i e) as [st Hst].
        { repeat split; auto. eauto. }
        { right. exists sv, l. split; auto. eapply iteration_quiet; eauto. }
        exists st. apply xmoves_in. exact Hst.
  Qed.
  (* ... and none comes from the connections. *)
  Theorem C90_never_broke : forall ms o e ps, run_net ms o (XBroke e) ps -> (forall y, o = Some y -> small dumps (xt_x y)) -> False.
  Proof.
    intros ms o e ps RN Sm. inversion RN as [|k h0 ? y ? ? Ec Es Ei R E]; subst. specialize (Sm y eq_refl).
    pose proof (ca_setup _ _ _ _ _ _ _ _ _ _ _ CA Ec Es Ei) as SE. pose proof (xtruns_quiet _ _ _ _ _ _ _ _ _ _ _ _ R) as Q. cbn [xt_x] in Q.
    inversion E as [| |n c e' Td Sp Tp Hn Er Eg]; subst.
    destruct (C91_gets _ _ _ _ _ _ _ _ _ _ _ _ SE L _ _ Q Sm) as [n' [r [g [Hn' [Er' Eg']]]]]. rewrite Hn in Hn'. apply some_inj in Hn'. subst n'.
    rewrite Er in Er'. apply app_inj_tail in Er'. destruct Er' as [_ <-]. congruence.
  Qed.
  (* However it ends, no worker process is left. *)
  Theorem C90_none_outlives : forall ms o e ps, run_net ms o e ps -> (forall y, o = Some y -> small dumps (xt_x y)) ->
    (forall st t, Pool.tbl (Pool.ps_sys ps) st <> Some (t, Pool.Running)) /\ forall t p, In (t, p) (Pool.ps_pools ps) -> p = [].
  Proof.
    intros ms o e ps RN Sm. inversion RN as [k ? Ec Es Ei|k h0 ? y ? ? Ec Es Ei R E]; subst.
    - apply (C66_none_outlives tasks ord ordt fuel init nw all d s0 [] None _ _ CA (rb_start _ _ _ _ _ _ _ _ _ _ _ Ec Es Ei)).
    - specialize (Sm y eq_refl).
      pose proof (ca_setup _ _ _ _ _ _ _ _ _ _ _ CA Ec Es Ei) as SE. pose proof (xtruns_quiet _ _ _ _ _ _ _ _ _ _ _ _ R) as Q. cbn [xt_x] in Q.
      inversion E as [|i n r e' es|]; subst.
      + apply (C88_none_outlives _ _ _ _ _ _ _ _ _ _ _ _ SE L _ _ Q Sm []).
      + apply (C88_none_outlives _ _ _ _ _ _ _ _ _ _ _ _ SE L _ _ Q Sm es).
      + apply (C88_none_outlives _ _ _ _ _ _ _ _ _ _ _ _ SE L _ _ Q Sm []).
  Qed.
  (* After the interrupt the server does nothing more to the blocks; it sends what it still has to send, then run_blockwise
     returns.  It does not raise an exception. *)
  Theorem C90_interrupted : forall k h ms1 y1 ms2 y, collect_tasks k tasks = Ok all -> sched_init all = Ok (d, s0) ->
    whole_init init nw 3 (map t_id all) s0 = Ok h -> xtruns (XTop (wire_init h) false) ms1 y1 -> xtruns (XTop (xt_x y1) true) ms2 y ->
    x_sv (xt_x y) = x_sv (xt_x y1) /\
    (exists ms3 y' ps, xtruns y ms3 y' /\ (forall m, In m ms3 -> m = XTMove XSend) /\
       run_net (ms1 ++ XTStop :: ms2 ++ ms3) (Some y') (XEnded (Returned (result (sv_s (x_sv (xt_x y1)))))) ps) /\
    forall e ps, run_net (ms1 ++ XTStop :: ms2) (Some y) e ps -> e = XEnded (Returned (result (sv_s (x_sv (xt_x y1))))).
  Proof.
    intros k h ms1 y1 ms2 y Ec Es Ei R1 R2. destruct (xtruns_stopped _ _ _ _ _ _ _ _ _ _ _ _ R2 eq_refl) as [St [Sv _]]. cbn [xt_x] in Sv.
    assert (RS : forall ms3 y', xtruns y ms3 y' -> xtruns (XTop (wire_init h) false) (ms1 ++ XTStop :: ms2 ++ ms3) y').
    { intros ms3 y' H. eapply xtruns_app; [exact R1|]. change (XTStop :: ms2 ++ ms3) with ([XTStop] ++ ms2 ++ ms3).
      eapply xtruns_app; [|eapply xtruns_app; eauto]. apply (xtruns_step _ _ _ _ _ _ _ _ _ _ [] y1 XTStop); constructor. }
    split; [exact Sv|]. split.
    - assert (G : forall todo z, x_todo (xt_x z) = todo -> exists ms3 y', xtruns z ms3 y' /\ (forall m, In m ms3 -> m = XTMove XSend) /\ x_todo (xt_x y') = []).
      { induction todo as [|[st r] todo IH]; intros z Ez; [exists [], z; repeat split; auto; [constructor|intros m []]|].
        pose proof (xs_send up down maxr fuel init nw 3 dumps loads (xt_x z) st r todo Ez) as S. match type of S with Wire.xstep _ _ _ _ _ _ _ _ _ _ _ ?x' => destruct (IH (XTop x' (xt_stop z)) eq_refl) as [ms3 [y' [A [B C]]]];
          exists (XTMove XSend :: ms3), y' end.
        split; [|split; auto; intros m [<-|Hm]; auto]. change (XTMove XSend :: ms3) with ([XTMove XSend] ++ ms3). eapply xtruns_app; [|exact A].
        apply (xtruns_step _ _ _ _ _ _ _ _ _ _ [] z (XTMove XSend)); [constructor|]. apply xts_move; [exact S|discriminate]. }
      destruct (G _ y eq_refl) as [ms3 [y' [A [B C]]]]. destruct (xtruns_stopped _ _ _ _ _ _ _ _ _ _ _ _ A St) as [St' [Sv' _]].
      exists ms3, y', (Pool.pools_stop (x_ps (xt_x y'))). split; auto. split; auto. rewrite <- Sv, <- Sv'. eapply rn_run; eauto. apply xe_stop; auto.
    - intros e ps RN. inversion RN as [|k' h' ? ? ? ? Ec' Es' Ei' R E]; subst. inversion E; subst; [rewrite Sv; reflexivity|congruence..].
  Qed.
  (* Once a worker has raised an exception, or the main thread was interrupted, the call has ended as soon as the server has sent
     what it had to send, and there is no further iteration. *)
  Theorem C90_over : forall k h ms y, collect_tasks k tasks = Ok all -> sched_init all = Ok (d, s0) ->
    whole_init init nw 3 (map t_id all) s0 = Ok h -> xtruns (XTop (wire_init h) false) ms y -> small dumps (xt_x y) ->
    In XTStop ms \/ (exists st e, In (XTMove (XRaise st e)) ms) ->
    (x_todo (xt_x y) = [] -> exists e ps, run_net ms (Some y) (XEnded e) ps) /\ forall i y', ~ xtstep y (XTMove (XServe i)) y'.
  Proof.
    intros k h ms y Ec Es Ei R Sm H.
    assert (EN : (x_todo (xt_x y) = [] -> exists e ps, xended up down maxr fuel init nw 3 dumps loads y (XEnded e) ps) /\ forall i y', ~ xtstep y (XTMove (XServe i)) y').
    2:{ destruct EN as [E N]. split; auto. intros Td. destruct (E Td) as [e [ps E']]. exists e, ps. eapply rn_run; eauto. }
    destruct (sv_stop (x_sv (xt_x y))) eqn:Sp.
    { split; [intros Td; do 2 eexists; apply xe_stop; auto|]. intros i y' S. inversion S as [m x A _|]; subst. inversion A; subst. congruence. }
    destruct (xt_stop y) eqn:Tp.
    { split; [intros Td; do 2 eexists; apply xe_stop; auto|]. intros i y' S. inversion S as [m x A N|]; subst. rewrite N in Tp by reflexivity. discriminate. }
    destruct H as [H|[st [e H]]].
    { assert (X : xt_stop y = true) by (apply (xtruns_stop _ _ _ _ _ _ _ _ _ _ _ _ R); auto). congruence. }
    pose proof (ca_setup _ _ _ _ _ _ _ _ _ _ _ CA Ec Es Ei) as SE. pose proof (xtruns_quiet _ _ _ _ _ _ _ _ _ _ _ _ R) as Q. cbn [xt_x] in Q.
    apply xmoves_in in H. split.
    - intros Td. destruct (C91_gets _ _ _ _ _ _ _ _ _ _ _ _ SE L _ _ Q Sm) as [n [r [g [Hn [Er Eg]]]]].
      set (i := Input g (fun _ => false) 0 false (Ok tt) (fun _ _ => CheckFalse) (fun _ _ _ => O)).
      assert (Rd : serve_ready dumps loads (xt_x y) i) by (repeat split; auto; [intros ? X; discriminate X|exists n, r; auto]).
      destruct (C88_ends _ _ _ _ _ _ _ _ _ _ _ _ SE L _ _ Q Sm _ _ _ H Rd) as [[e' X] _]. unfold xraises in X.
      assert (X' : exists e', iteration up down maxr fuel init i (x_sv (xt_x y)) = Err e' \/
        exists sv l, iteration up down maxr fuel init i (x_sv (xt_x y)) = Ok sv /\ sv_tr sv = l ++ sv_tr (x_sv (xt_x y)) /\
          pools_do nw 3 (pool_acts l ++ [Pool.PHealth]) (x_ps (xt_x y)) = Err e').
      { destruct (iteration_alike up down maxr fuel init i (x_sv (xt_x y))) as [Eq|[e'' [t [E1 _]]]]; [exists e'; rewrite Eq; exact X|eauto]. }
      destruct X' as [e'' X']. do 2 eexists. eapply (xe_raise _ _ _ _ _ _ _ _ _ y i n r e'' []); eauto; try reflexivity. intros ? Z; discriminate Z.
    - intros i y' S. inversion S as [m x A _|]; subst. pose proof (xstep_quiet _ _ _ _ _ _ _ _ _ _ _ _ A) as A'.
      assert (Rd : serve_ready dumps loads (xt_x y) i) by (inversion A; subst; repeat split; eauto).
      destruct (C88_ends _ _ _ _ _ _ _ _ _ _ _ _ SE L _ _ Q Sm _ _ _ H Rd) as [_ N]. exact (N _ A').
  Qed.
  (* The interrupt ends the server's iterations and nothing else. *)
  Theorem C90_only_server_stops : forall y m x, xstep up down maxr fuel init nw 3 dumps loads (xt_x y) m x ->
    ((exists y', xtstep y (XTMove m) y') <-> xt_stop y = false \/ forall i, m <> XServe i).
  Proof.
    clear. intros y m x S. split.
    - intros [y' T]. inversion T as [m' h' S' N|]; subst. destruct (xt_stop y); auto. right. intros i ->. discriminate (N eq_refl).
    - intros H. exists (XTop x (xt_stop y)). apply xts_move; auto. intros E. destruct H as [H|H]; auto.
      destruct m; try discriminate E. destruct (H _ eq_refl).
  Qed.
End Call.
Print Assumptions C90_value_partial.
Print Assumptions C90_false_partial.
Print Assumptions C90_raised.
Print Assumptions C90_never_broke.
Print Assumptions C90_none_outlives.
Print Assumptions C90_interrupted.
Print Assumptions C90_over.
Print Assumptions C90_only_server_stops.

Section Ends.
  Variables (up down : block -> list block) (maxr : nat -> Z) (fuel : nat) (init : nat -> res unit) (nw : nat -> Z) (mbf : Z).
  Variable dumps : Net.nmsg payload -> option Tcp.bytes.
  Variable loads : Tcp.bytes -> option (Net.nmsg payload).
  Variables (last : nat -> option nat) (r : nat -> wire) (mv : nat -> option xmove).
  Hypothesis FA : xfair up down maxr fuel init nw mbf dumps loads last r mv.
  Lemma xfair_prefix n : exists ms, xruns up down maxr fuel init nw mbf dumps loads (r O) ms (r n).
  Proof.
    induction n as [|n [ms IH]]; [exists []; constructor|]. pose proof (xf_step _ _ _ _ _ _ _ _ _ _ _ _ FA n) as S.
    destruct (mv n) as [m|] eqn:E; [|rewrite S; eauto]. exists (ms ++ [m]). eapply xruns_step; eauto.
  Qed.
  (* the server that has stopped sends what it has to send *)
  Lemma all_sent n : sv_stop (x_sv (r n)) = true -> exists k, (n <= k)%nat /\ x_sv (r k) = x_sv (r n) /\ x_todo (r k) = [].
  Proof.
    assert (W : forall k n, sv_stop (x_sv (r n)) = true -> x_sv (r (k + n)%nat) = x_sv (r n) /\ exists sent, x_todo (r n) = sent ++ x_todo (r (k + n)%nat)).
    { induction k as [|k IH]; intros m Sm; [split; [reflexivity|exists []; reflexivity]|]. destruct (IH m Sm) as [E [sent T]].
      pose proof (xf_step _ _ _ _ _ _ _ _ _ _ _ _ FA (k + m)) as S. cbn [Nat.add]. destruct (mv (k + m)%nat) as [a|]; [|rewrite S; eauto].
      rewrite <- E in Sm |- *. rewrite T. remember (r (k + m)%nat) as x. remember (r (Datatypes.S (k + m)%nat)) as x'. clear -S Sm.
      destruct S as [| | | | | | | |st q todo H]; cbn [set_net set_pc set_ps x_sv x_todo]; try (split; [reflexivity|exists sent; reflexivity]); [congruence|].
      split; auto. exists (sent ++ [(st, q)]). rewrite H, <- app_assoc. reflexivity. }
    remember (length (x_todo (r n))) as j eqn:Ej. revert n Ej. induction j as [j IH] using lt_wf_ind. intros n Ej Sn.
    destruct (x_todo (r n)) as [|a todo] eqn:Et; [exists n; auto|].
    destruct (xf_send _ _ _ _ _ _ _ _ _ _ _ _ FA n) as [k [Hk Ek]]; [rewrite Et; discriminate|].
    destruct (W (k - n)%nat n Sn) as [E [sent T]]. replace (k - n + n)%nat with k in * by lia.
    pose proof (xf_step _ _ _ _ _ _ _ _ _ _ _ _ FA k) as S. rewrite Ek in S. inversion S as [| | | | | | | |st q todo' Ek' Eq Er]; clear Eq; subst j.
    destruct (IH (length (x_todo (r (Datatypes.S k))))) with (n := Datatypes.S k) as [k' [Hk' [E' T']]]; auto.
    - rewrite Et in T. rewrite Ek' in T. rewrite T, app_length. rewrite <- Er. cbn. lia.
    - rewrite <- Er. cbn. rewrite E. exact Sn.
    - exists k'. split; [lia|]. split; auto. rewrite E', <- Er. cbn. exact E.
  Qed.
End Ends.

(* Every fair run over the network in which nobody interrupts the main thread and no worker process raises an exception ends
   with the value True, after every block of the pipeline has succeeded, failed for good, or lost a block it depends on. *)
Theorem C90_ends_partial : forall tasks ord ordt fuel init nw all d s0 h dumps loads last r mv,
  let up := dg_up ord ordt d in let down := dg_down ord ordt d in let maxr := dg_max_retries d in
  begun tasks ord ordt fuel init nw all d s0 (Top h false) -> no_lonely all ord ordt d -> in_order all ->
  P_Net.lossless dumps loads -> r O = wire_init h -> xfair up down maxr fuel init nw 3 dumps loads last r mv ->
  (forall n, apart_failures all ord ordt d (hist (sv_tr (x_sv (r n))))) ->
  exists n ms ps, run_net tasks ord ordt fuel init nw all d s0 dumps loads ms (Some (XTop (r n) false)) (XEnded (Returned true)) ps /\
    ~ In XTStop ms /\ forall b, pipe_block tasks b -> settled up maxr (hist (sv_tr (x_sv (r n)))) b.
Proof.
  intros tasks ord ordt fuel init nw all d s0 h dumps loads last r mv up down maxr BE NL IO Lo R0 FA F.
  pose proof (begun_company _ _ _ _ _ _ _ _ _ _ BE) as CO. cbn [tp_h] in CO. destruct BE as [CA CB CW [k Ec] Es [h' [Eh E0]]]. injection E0 as <-.
  destruct (C89_ends_partial all ord ordt d s0 fuel init nw 3 h dumps loads last r mv) as [q [Sq Hq]]; auto; [lia|].
  destruct (all_sent _ _ _ _ _ _ _ _ _ _ _ _ FA q Sq) as [n [_ [En Tn]]]. rewrite <- En in Sq, Hq.
  destruct (xfair_prefix _ _ _ _ _ _ _ _ _ _ _ _ FA n) as [ms R]. rewrite R0 in R. pose proof (xtruns_lift _ _ _ _ _ _ _ _ _ _ _ _ R) as R'.
  assert (RN : run_net tasks ord ordt fuel init nw all d s0 dumps loads (map XTMove ms) (Some (XTop (r n) false))
    (XEnded (Returned (result (sv_s (x_sv (r n)))))) (Pool.pools_stop (x_ps (r n)))).
  { eapply rn_run; eauto. apply (xe_stop _ _ _ _ _ _ _ _ _ (XTop (r n) false)); auto. }
  assert (Se : forall b, pipe_block tasks b -> settled up maxr (hist (sv_tr (x_sv (r n)))) b).
  { intros b Hb. apply Hq. apply (ca_all _ _ _ _ _ _ _ _ _ CA Ec Es). exact Hb. }
  assert (V : result (sv_s (x_sv (r n))) = true).
  { apply (C90_value_partial _ _ _ _ _ _ _ _ _ _ _ CA Lo _ _ _ _ RN); [apply (xf_small _ _ _ _ _ _ _ _ _ _ _ _ FA)|apply F|exact Se]. }
  rewrite V in RN. exists n, (map XTMove ms), (Pool.pools_stop (x_ps (r n))). split; [exact RN|]. split; [|exact Se].
  intros H. apply in_map_iff in H. destruct H as [? [H _]]. discriminate H.
Qed.
Print Assumptions C90_ends_partial.
(* With conditions on the tasks only: if no block fails more than max_retries times, by its process function or with its worker,
   the call ends, returns True, and every block of every task has succeeded. *)
Theorem C90_all_well : forall tasks ord ordt fuel init nw all d s0 h dumps loads last r mv,
  let up := dg_up ord ordt d in let down := dg_down ord ordt d in let maxr := dg_max_retries d in
  plain tasks -> started tasks ord ordt fuel init nw all d s0 (Top h false) ->
  P_Net.lossless dumps loads -> r O = wire_init h -> xfair up down maxr fuel init nw 3 dumps loads last r mv ->
  (forall n b, n_failed (hist (sv_tr (x_sv (r n)))) b <= Z.max (maxr (b_task b)) 0) ->
  exists n ms ps, run_net tasks ord ordt fuel init nw all d s0 dumps loads ms (Some (XTop (r n) false)) (XEnded (Returned true)) ps /\
    ~ In XTStop ms /\ forall b, pipe_block tasks b -> succeeded (hist (sv_tr (x_sv (r n)))) b.
Proof.
  intros tasks ord ordt fuel init nw all d s0 h dumps loads last r mv up down maxr PL SD Lo R0 FA Fw.
  destruct (plain_begun _ _ _ _ _ _ _ _ _ _ PL SD) as [BE [NL IO]].
  assert (NP : forall n a, ~ perm_failed maxr (hist (sv_tr (x_sv (r n)))) a).
  { intros n a [P1 P2]. specialize (Fw n a). unfold maxr in *. lia. }
  destruct (C90_ends_partial tasks ord ordt fuel init nw all d s0 h dumps loads last r mv) as [n [ms [ps [RN [NS S]]]]]; auto.
  { intros n x u a b w _ _ _ Fa. destruct (NP n a Fa). }
  exists n, ms, ps. split; [exact RN|]. split; [exact NS|]. intros b Hb. destruct (S b Hb) as [Su|[Pf|[a [Pa _]]]]; auto; exfalso; eapply NP; eauto.
Qed.
Print Assumptions C90_all_well.
