(* Calls of run_blockwise, computed (for C66). *)
From Coq Require Import Arith Lia.
From Verif Require Import SchedProps SchedExec DGFacts2 PipeRun P_SchedCE P_Sched SerialFacts P_Conv P_Serial ServerFacts ServerSteps
  ServerIdle P_Server P_ServerCE PoolAll P_PoolFail.
From Verif Require Client Pool P_WholeEx P_WholeCE.
From Verif Require Import Sys WholeAny WholeAll WholeRun P_WholeAny TopInit Top P_Top.
Open Scope Z_scope.

Section Loud.
  Variables (up down : block -> list block) (maxr : nat -> Z) (fuel : nat) (init : nat -> res unit) (nw : nat -> Z) (mbf : Z).
  Definition calm (h : whole) : Prop := forall t, In (AInit t) (sv_tr (h_sv h)) -> init t = Ok tt.
  (* callbacks that were called and raised nothing *)
  Lemma hstep_loud h m h' : hstep up down maxr fuel quiet nw mbf h m h' -> calm h' -> hstep up down maxr fuel init nw mbf h m h'.
  Proof.
    intros S C. destruct S as [st t o r A Ew|st t o r A Ew|st t o pb r A Ew|st t o r A Ew|st t o pb r out A Ew No|st A Ew|st n c t p o r A Ew D|i cut sv l ps f Sp Io E El Eo];
      [eapply hs_connect|eapply hs_ask|eapply hs_block|eapply hs_leave|eapply hs_finish|eapply hs_exit|eapply hs_end|eapply hs_serve]; eauto.
    destruct (iteration_alike up down maxr fuel init i (h_sv h)) as [->|[e [t [E1 [I H]]]]]; auto. specialize (C t (H _ E)). congruence.
  Qed.
  Lemma step_calm h m h' : astep up down maxr fuel quiet nw mbf h m h' -> calm h' -> calm h.
  Proof.
    intros S C t H. apply C. destruct S as [m h' S| |]; auto. destruct S; auto. cbn [h_sv]. rewrite H3. apply in_or_app. auto.
  Qed.
  Lemma aruns_loud h ms h' : aruns up down maxr fuel quiet nw mbf h ms h' -> calm h' -> aruns up down maxr fuel init nw mbf h ms h'.
  Proof.
    induction 1 as [|ms h1 m h2 R IH S]; [constructor|]. intros C. pose proof (step_calm _ _ _ S C) as C1.
    eapply aruns_step; [apply IH; exact C1|]. destruct S; [apply as_move, hstep_loud; auto|apply as_raise; auto|apply as_break; auto].
  Qed.
  Lemma aruns_truns h ms h' : aruns up down maxr fuel init nw mbf h ms h' -> truns up down maxr fuel init nw mbf (Top h false) (map TMove ms) (Top h' false).
  Proof.
    induction 1 as [|ms h1 m h2 R IH S]; [constructor|]. rewrite map_app. eapply truns_step; [exact IH|].
    apply (ts_move _ _ _ _ _ _ _ (Top h1 false) m h2); auto.
  Qed.
End Loud.

(* A task of one block that requires another task of one block; a worker each. *)
Definition tx_a : task := Task 1 (Roi [0] [1]) (Roi [0] [1]) (Roi [0] [1]) false Valid 1 0 [].
Definition tx_b : task := Task 2 (Roi [0] [1]) (Roi [0] [1]) (Roi [0] [1]) false Valid 1 0 [tx_a].
Definition tx_nw (t : nat) : Z := 1.
Lemma tx_ok : pipe_ok [tx_b].
Proof. unfold tx_b, tx_a. pipe_ok_tac. Qed.
Lemma tx_ok2 : pipe_ok [tx_b; tx_a].
Proof. unfold tx_b, tx_a. pipe_ok_tac. Qed.
Lemma tx_edges : edges_ok [tx_b; tx_a].
Proof.
  intros t u Ht Hu. unfold tx_b, tx_a in *. pipe_tac;
  (constructor; try discriminate;
   [intros i Hi; cbn in Hi; destruct i as [|i]; [reflexivity|lia]
   |intros [k [[L _] X]]; specialize (X O); cbn in *; lia..]).
Qed.
(* the first block is done, but the server has not been told *)
Definition tx_1 : list adeed := map EDo ([P_WholeEx.EConnect 0] ++ P_WholeCE.ask 0 [] ++ [P_WholeEx.EFinish 0 (Client.Finished SUCCESS)]).
(* both are done *)
Definition tx_2 : list adeed := tx_1 ++ map EDo ([P_WholeEx.ETake 0 []; P_WholeEx.EConnect 1] ++ P_WholeCE.ask 1 [] ++
  [P_WholeEx.EFinish 1 (Client.Finished SUCCESS); P_WholeEx.ETake 1 []]).
Definition tx_3 : list adeed := tx_1 ++ [ERaise 0 ValueError 0].
Definition failing (u : nat) : nat -> res unit := fun t => if Nat.eqb t u then Err ValueError else Ok tt.
Lemma whole_init_loud init nw mbf ts s0 h : whole_init quiet nw mbf ts s0 = Ok h -> calm init h -> whole_init init nw mbf ts s0 = Ok h.
Proof.
  unfold whole_init. destruct (server_init quiet ts false s0) as [sv|] eqn:E; [|discriminate]. cbn [bind]. destruct (on_all _ _ _ _ _ _) as [[p f]|] eqn:O; [|discriminate].
  cbn [bind]. intros H C. injection H as <-. destruct (init_alike init ts false s0) as [->|[e [t [_ [I H]]]]]; [rewrite E; cbn [bind]; rewrite O; reflexivity|].
  specialize (H _ E). specialize (C t H). congruence.
Qed.
Definition tx_all (ts : list task) : option (dgraph * sched * whole * (list amove * whole) * (list amove * whole) * (list amove * whole)) :=
  match sched_init ts with
  | Ok (d, s0) =>
      match whole_init quiet tx_nw 3 (map t_id ts) s0 with
      | Ok h => let play := aplay (dg_up idl idl d) (dg_down idl idl d) (dg_max_retries d) 100 tx_nw 3 in
          match play tx_1 h, play tx_2 h, play tx_3 h with
          | Some r1, Some r2, Some r3 => Some (d, s0, h, r1, r2, r3)
          | _, _, _ => None end
      | Err _ => None end
  | Err _ => None end.
Definition tx_input (h : whole) : input := an_input (match w_out (h_w h 0) with m :: _ => GotMessage 0 m | [] => GotNothing end) [] true no_check.
Definition is_value_error {A} (r : res A) : bool := match r with Err ValueError => true | _ => false end.
Definition tx_test ts d s0 h1 m2 h2 m3 h3 : bool :=
  enough_b d 100 && negb (result (sv_s (h_sv h1))) && (sv_stop (h_sv h2) && result (sv_s (h_sv h2))) &&
  forallb (fun a => match a with AInit t => negb (Nat.eqb t 2) | _ => true end) (sv_tr (h_sv h1)) &&
  P_WholeEx.alive_b h1 0 && negb (sv_stop (h_sv h1)) &&
  is_value_error (iteration (dg_up idl idl d) (dg_down idl idl d) (dg_max_retries d) 100 (failing 2) (tx_input h1) (h_sv h1)) &&
  is_value_error (whole_init (failing 1) tx_nw 3 (map t_id ts) s0) &&
  match first_error (fun t => raised h3 t m3) (dedup Nat.eqb (map t_id ts)) with Some ValueError => true | _ => false end && negb (sv_stop (h_sv h3)) &&
  forallb (fun m : amove => match m with ARaise _ _ _ => false | _ => true end) m2.
Definition tx_check (ts : list task) : bool :=
  match tx_all ts with Some (d, s0, h, (m1, h1), (m2, h2), (m3, h3)) => tx_test ts d s0 h1 m2 h2 m3 h3 | None => false end.
Definition tx_claim (given ts : list task) d s0 : Prop :=
  let run := fun init => run_blockwise given idl idl 100 init tx_nw ts d s0 in
  call given idl idl ts d 100 tx_nw /\
  (exists ms y ps, run quiet ms (Some y) (Returned true) ps /\ (forall st x n, ~ In (TMove (ARaise st x n)) ms) /\ ~ In TStop ms) /\
  (exists ms y ps, run quiet (ms ++ [TStop]) (Some y) (Returned false) ps) /\
  (exists ms y ps, run quiet ms (Some y) (Raised ValueError) ps) /\
  (exists ms y ps, run (failing 2) ms (Some y) (Raised ValueError) ps) /\
  exists ps, run (failing 1) [] None (Raised ValueError) ps.
Lemma tx_from given ts k d s0 h m1 h1 m2 h2 m3 h3 : pipe_ok given -> pipe_ok ts -> edges_ok ts -> collect_tasks k given = Ok ts ->
  tx_all ts = Some (d, s0, h, (m1, h1), (m2, h2), (m3, h3)) -> tx_test ts d s0 h1 m2 h2 m3 h3 = true -> tx_claim given ts d s0.
Proof.
  intros PG PO EO Ec E Q. unfold tx_all in E. destruct (sched_init ts) as [[d' s']|] eqn:Es; [|discriminate]. destruct (whole_init _ _ _ _ _) as [h'|] eqn:Ei; [|discriminate].
  cbv zeta in E. destruct (aplay _ _ _ _ _ _ tx_1 h') as [[n1 y1]|] eqn:E1; [|discriminate]. destruct (aplay _ _ _ _ _ _ tx_2 h') as [[n2 y2]|] eqn:E2; [|discriminate].
  destruct (aplay _ _ _ _ _ _ tx_3 h') as [[n3 y3]|] eqn:E3; [|discriminate]. injection E as -> -> -> -> -> -> -> -> ->.
  unfold tx_test in Q. apply andb_prop in Q. destruct Q as [Q Q10]. apply andb_prop in Q. destruct Q as [Q Q9]. apply andb_prop in Q. destruct Q as [Q Q8].
  apply andb_prop in Q. destruct Q as [Q Q7]. apply andb_prop in Q. destruct Q as [Q Q6]. apply andb_prop in Q. destruct Q as [Q Q5]. apply andb_prop in Q. destruct Q as [Q Q4].
  apply andb_prop in Q. destruct Q as [Q Q3]. apply andb_prop in Q. destruct Q as [Q Q2]. apply andb_prop in Q. destruct Q as [Q0 Q1]. apply andb_prop in Q2. destruct Q2 as [Q2 Q2'].
  apply Bool.negb_true_iff in Q1, Q5, Q9. rewrite forallb_forall in Q3, Q10. apply P_WholeEx.alive_b_true in Q4.
  apply aplay_runs in E1, E2, E3. change no_init with quiet in E1, E2, E3.
  assert (PR : pipe_run ts idl idl d s0 100 [] s0) by (constructor; auto using idl_order; constructor).
  assert (CA : call given idl idl ts d 100 tx_nw).
  { constructor; auto using idl_order.
    - apply (run_dual ts idl idl d s0 100 [] s0); auto.
    - eapply enough_b_ok; eauto.
    - intros t. unfold tx_nw. lia. }
  split; [exact CA|]. split; [|split; [|split; [|split]]].
  - exists (map TMove m2), (Top h2 false), (Pool.pools_stop (h_ps h2)). split.
    + eapply rb_run; eauto using aruns_truns. replace true with (result (sv_s (h_sv (tp_h (Top h2 false))))). apply en_stop. left. exact Q2.
    + split; [intros st x n H; apply in_map_iff in H; destruct H as [m [Em Hm]]; injection Em as ->; apply Q10 in Hm; discriminate Hm|].
      intros H. apply in_map_iff in H. destruct H as [m [Em _]]. discriminate Em.
  - exists (map TMove m1), (Top h1 true), (Pool.pools_stop (h_ps h1)).
    eapply rb_run; eauto; [eapply truns_step; [eapply aruns_truns; eauto|apply (ts_stop _ _ _ _ _ _ _ (Top h1 false))]|].
    replace false with (result (sv_s (h_sv (tp_h (Top h1 true))))). apply en_stop. right. reflexivity.
  - exists (map TMove m3), (Top h3 false), (Pool.pools_stop (h_ps h3)).
    eapply rb_run; eauto using aruns_truns. apply (en_raise _ _ _ _ _ _ _ (Top h3 false) idle ValueError []); [reflexivity|].
    assert (Io : hinput_ok h3 idle) by (split; [reflexivity|split; [exact I|intros st H; discriminate H]]).
    apply (C64_raises _ _ _ _ _ _ _ _ _ _ _ _ _ _ (ca_setup _ _ _ _ _ _ _ _ _ _ _ CA Ec Es Ei) E3 Q9 Io). destruct (first_error _ _) as [[]|]; try discriminate Q8. reflexivity.
  - assert (C1 : calm (failing 2) h1).
    { intros t H. apply Q3 in H. apply Bool.negb_true_iff in H. unfold failing. rewrite H. reflexivity. }
    assert (C0 : calm (failing 2) h).
    { clear -E1 C1. induction E1 as [|ms z1 m z2 R IH S]; auto. apply IH. eapply step_calm; eauto. }
    exists (map TMove m1), (Top h1 false), (Pool.pools_stop (h_ps h1)).
      eapply rb_run; eauto using whole_init_loud, aruns_truns, aruns_loud. apply (en_raise _ _ _ _ _ _ _ (Top h1 false) (tx_input h1) ValueError []); [reflexivity|].
      apply ra_server; cbn [tp_h]; auto; [|unfold is_value_error in Q6; destruct (iteration _ _ _ _ _ _ _) as [|[]]; try discriminate Q6; reflexivity].
      split; [reflexivity|]. split; [|intros st H; discriminate H]. unfold tx_input. cbn [i_get an_input]. destruct (w_out (h_w h1 0)) as [|m r] eqn:Ew; [exact I|].
      split; [destruct Q4 as [t Q4]; unfold known; rewrite Q4; discriminate|eauto].
  - eexists. eapply rb_start; eauto. unfold is_value_error in Q7. destruct (whole_init (failing 1) _ _ _ _) as [|[]]; try discriminate Q7. reflexivity.
Qed.
Lemma tx_checked : tx_check [tx_b; tx_a] = true.
Proof. vm_compute. reflexivity. Qed.
(* Five calls of run_blockwise([b]): one returns True; one, interrupted after the first block, False; in one a worker raises
   an exception, in one the init callback of b when b becomes ready, in one that of a at the start. *)
Example top_example : exists d s0, tx_claim [tx_b] [tx_b; tx_a] d s0.
Proof.
  pose proof tx_checked as Q. unfold tx_check in Q. destruct (tx_all _) as [[[[[[d s0] h] [m1 h1]] [m2 h2]] [m3 h3]]|] eqn:E; [|discriminate Q].
  exists d, s0. exact (tx_from [tx_b] [tx_b; tx_a] 9 _ _ _ _ _ _ _ _ _ tx_ok tx_ok2 tx_edges eq_refl E Q).
Qed.
Print Assumptions top_example.
