(* C61 without one of its conditions: the server waits for ever, or a block fails that nobody
   failed. *)
From Coq Require Import Arith Lia.
From Verif Require Import SchedProps SchedExec DGFacts2 PipeRun P_SchedCE P_Sched SerialFacts P_Conv P_Serial ServerFacts ServerSteps
  ServerIdle P_Server P_ServerCE P_Outcome P_Notify P_SysEx P_SysCE.
From Verif Require Client Pool P_Pool.
From Verif Require Import Sys SysFacts SysMeasure SysLive SysFair SysTrace P_Sys WholeFair P_Whole P_WholeEx.
Open Scope Z_scope.

(* a run whose moves meet [ok] *)
Inductive xruns (ok : whole -> hmove -> Prop) up down maxr fuel init nw mbf (h : whole) : list hmove -> whole -> Prop :=
| xruns_nil : xruns ok up down maxr fuel init nw mbf h [] h
| xruns_cons m h1 ms h2 : ok h m -> hstep up down maxr fuel init nw mbf h m h1 -> xruns ok up down maxr fuel init nw mbf h1 ms h2 ->
    xruns ok up down maxr fuel init nw mbf h (m :: ms) h2.
Lemma xruns_hruns ok up down maxr fuel nw mbf h ms h' : xruns ok up down maxr fuel no_init nw mbf h ms h' -> hruns up down maxr fuel no_init nw mbf h ms h'.
Proof. intros R. induction R as [|h m h1 ms h2 O S R IH]; [constructor|]. eapply hruns_cons; eauto. Qed.

Section Trap.
  Variables (up down : block -> list block) (maxr : nat -> Z) (fuel : nat) (init : nat -> res unit) (nw : nat -> Z) (mbf : Z).
  Local Notation hstep := (hstep up down maxr fuel init nw mbf).
  Local Notation hruns := (hruns up down maxr fuel init nw mbf).
  (* nobody is left, and nothing is under way, though a task is not done *)
  Record deserted (h : whole) : Prop := {
    ds_stop : sv_stop (h_sv h) = false;
    ds_book : sv_book (h_sv h) = [];
    ds_pend : pfirst (sv_pend (h_sv h)) = None;
    ds_todo : all_done (sv_s (h_sv h)) = false;
    ds_proc : forall st t, proc h st <> Some (t, Pool.Running);
    ds_out : forall st, known h st -> w_out (h_w h st) = [];
    ds_err : forall t, In t (map fst (Pool.ps_pools (h_ps h))) -> Pool.ps_err (h_ps h) t = [];
    ds_pools : forall t p w, In (t, p) (Pool.ps_pools (h_ps h)) -> In w p ->
      Pool.exitcode (Pool.ps_sys (h_ps h)) w = None \/ Pool.exitcode (Pool.ps_sys (h_ps h)) w = Some 0
  }.
  Lemma filter_none {A} (f : A -> bool) l : (forall x, In x l -> f x = false) -> filter f l = [].
  Proof. induction l as [|a l IH]; intros H; cbn; auto. rewrite (H a) by (left; auto). apply IH. intros x Hx. apply H. right; auto. Qed.
  Lemma quiet_health s err : forall l, (forall t, In t (map fst l) -> err t = []) ->
    (forall t p w, In (t, p) l -> In w p -> Pool.exitcode s w = None \/ Pool.exitcode s w = Some 0) ->
    exists l', Pool.health s err l = (s, err, l', None) /\ map fst l' = map fst l /\
      forall t p w, In (t, p) l' -> In w p -> Pool.exitcode s w = None \/ Pool.exitcode s w = Some 0.
  Proof.
    induction l as [|[t p] l IH]; intros He Hp; [exists []; repeat split; auto; intros t p w []|].
    destruct IH as [l' [E [K H]]]; [intros u Hu; apply He; right; auto|intros u q w Hq; apply (Hp u q w); right; auto|].
    assert (P0 : forall w, In w p -> Pool.exitcode s w = None \/ Pool.exitcode s w = Some 0) by (intros w; apply (Hp t p w); left; auto).
    cbn [Pool.health]. rewrite (He t) by (left; auto). cbn [Pool.reap_dead_workers]. rewrite filter_none.
    2: { intros w Hw. destruct (P0 w Hw) as [->| ->]; reflexivity. }
    cbn [fold_left length]. change (0 <? Z.of_nat 0) with false. cbv iota. rewrite E.
    eexists. split; [reflexivity|]. split; [cbn; rewrite K; reflexivity|].
    intros u q w [Hq|Hq] Hw; [|eauto]. injection Hq as <- <-. apply in_map_iff in Hw. destruct Hw as [v [Ev Hv]].
    destruct (P0 v Hv) as [X|X]; rewrite X in Ev; subst w; [left; exact X|left; reflexivity].
  Qed.
  Lemma deserted_iter h i : deserted h -> hinput_ok h i -> exists sv l, iteration up down maxr fuel init i (h_sv h) = Ok sv /\
    sv_tr sv = l ++ sv_tr (h_sv h) /\ besides (h_sv h) sv /\ sv_stop sv = false /\ Forall (fun a => exists t s, a = ANote (NDone t s)) l.
  Proof.
    intros D [Hh [Hg Hc]].
    assert (E1 : handle_messages up down maxr fuel init i (h_sv h) = Ok (h_sv h)).
    { unfold handle_messages. destruct (i_get i) as [st m| | |e] eqn:Eg; auto.
      - exfalso. destruct Hg as [K [r Er]]. rewrite (ds_out _ D st K) in Er. discriminate Er.
      - rewrite (ds_pend _ D). reflexivity.
      - destruct Hg. }
    assert (E2 : check_lost up down maxr fuel init i (h_sv h) = Ok (h_sv h)).
    { unfold check_lost. pose proof (ds_book _ D) as B. destruct (h_sv h) as [a b c d0 e1 g k]; cbn in *. subst b. reflexivity. }
    unfold iteration. rewrite E1. cbn [bind]. rewrite E2. cbn [bind]. rewrite Hh. cbn [bind]. destruct (i_tick i).
    - destruct (check_all_spec (h_sv h)) as [B [_ [St [_ [l' [El' F]]]]]]. exists (check_all (h_sv h)), l'.
      repeat (split; auto); try apply B. { rewrite St, (ds_stop _ D), (ds_todo _ D). reflexivity. }
      eapply Forall_impl; [|exact F]. intros a [t [-> _]]. eauto.
    - exists (h_sv h), []. split; auto. split; auto. split; [apply besides_refl|]. split; [apply D|constructor].
  Qed.
  Lemma deserted_pools h l : deserted h -> Forall (fun a => exists t s, a = ANote (NDone t s)) l -> forall cut f,
    exists l', on_all nw mbf cut (pool_acts l ++ [Pool.PHealth]) (h_ps h) f =
        Ok (Pool.Pools (Pool.ps_sys (h_ps h)) l' (Pool.ps_err (h_ps h)) (Pool.ps_fc (h_ps h)),
            sync cut (h_ps h) (Pool.Pools (Pool.ps_sys (h_ps h)) l' (Pool.ps_err (h_ps h)) (Pool.ps_fc (h_ps h))) f) /\
      map fst l' = map fst (Pool.ps_pools (h_ps h)) /\
      forall t p w, In (t, p) l' -> In w p -> Pool.exitcode (Pool.ps_sys (h_ps h)) w = None \/ Pool.exitcode (Pool.ps_sys (h_ps h)) w = Some 0.
  Proof.
    intros D F cut f. assert (Pa : pool_acts l = []).
    { unfold pool_acts. apply Forall_rev in F. induction F as [|a r [t [s ->]] F IH]; auto. }
    destruct (quiet_health (Pool.ps_sys (h_ps h)) (Pool.ps_err (h_ps h)) (Pool.ps_pools (h_ps h)) (ds_err _ D) (ds_pools _ D)) as [l' [Eh [Ek Hw]]].
    exists l'. rewrite Pa. cbn [app on_all]. unfold Pool.pstep, Pool.check_worker_health. rewrite Eh. auto.
  Qed.
  Lemma deserted_serves h i cut : deserted h -> hinput_ok h i -> exists h', hstep h (HServe i cut) h'.
  Proof.
    intros D Io. destruct (deserted_iter h i D Io) as [sv [l [Ei [El [_ [_ F]]]]]].
    destruct (deserted_pools h l D F cut (fun s => deliver s l (taken (i_get i) s (h_w h s)))) as [l' [Eo _]].
    eexists. eapply hs_serve; eauto. apply D.
  Qed.
  Lemma deserted_step h m h' : deserted h -> hstep h m h' -> deserted h' /\ hist (sv_tr (h_sv h')) = hist (sv_tr (h_sv h)).
  Proof.
    intros D S. assert (NA : forall st, ~ alive h st) by (intros st [t A]; exact (ds_proc _ D st t A)).
    destruct S as [st t o r A|st t o r A|st t o pb r A|st t o r A|st t o pb r out A|st A|st n c t p o r A|i cut sv l ps f Sp Io Ei El Eo];
      try (destruct (NA _ A)).
    destruct (deserted_iter h i D Io) as [sv' [l1 [Ei' [El' [B [St F]]]]]]. rewrite Ei in Ei'. injection Ei' as <-.
    rewrite El in El'. apply app_inv_tail in El'. subst l1.
    destruct (deserted_pools h l D F cut (fun s => deliver s l (taken (i_get i) s (h_w h s)))) as [l' [Eo' [Ek Hw]]].
    rewrite Eo in Eo'. injection Eo' as -> ->. split.
    - constructor; cbn [h_sv h_ps h_w Pool.ps_sys Pool.ps_pools Pool.ps_err].
      + exact St.
      + rewrite (be_book _ _ B). apply D.
      + rewrite (be_pend _ _ B). apply D.
      + rewrite (be_s _ _ B). apply D.
      + apply D.
      + intros st K. unfold known, proc in K. cbn [h_ps Pool.ps_sys] in K. pose proof (ds_out _ D st K) as O.
        assert (Y : w_out (deliver st l (taken (i_get i) st (h_w h st))) = []).
        { cbn [deliver w_out]. unfold taken. destruct (i_get i) as [s m| | |]; auto. destruct (Nat.eqb s st); auto. cbn. rewrite O. reflexivity. }
        unfold sync. cbn [Pool.ps_sys]. destruct (Pool.tbl (Pool.ps_sys (h_ps h)) st) as [[u [|c]]|]; exact Y.
      + rewrite Ek. apply D.
      + exact Hw.
    - cbn [h_sv]. rewrite El. unfold hist. rewrite flat_map_app.
      replace (flat_map (fun a => match a with ACall e => [e] | _ => [] end) l) with (@nil event); [reflexivity|].
      clear -F. induction F as [|a r [t [s ->]] F IH]; auto.
  Qed.
  (* whatever happens from now on, the server goes on and never stops, and nothing is done any more *)
  Definition waits_for_ever (h : whole) : Prop := forall ms h', hruns h ms h' ->
    sv_stop (h_sv h') = false /\ hist (sv_tr (h_sv h')) = hist (sv_tr (h_sv h)) /\ (forall st, ~ alive h' st) /\
    forall i cut, hinput_ok h' i -> exists h2, hstep h' (HServe i cut) h2.
  Lemma deserted_waits h : deserted h -> waits_for_ever h.
  Proof.
    intros D ms h' R. assert (X : deserted h' /\ hist (sv_tr (h_sv h')) = hist (sv_tr (h_sv h))).
    { induction R as [|ms h1 m h2 R [IH1 IH2] S]; [auto|]. destruct (deserted_step _ _ _ IH1 S) as [A B]. split; auto. congruence. }
    destruct X as [X1 X2]. split; [apply X1|]. split; auto. split; [intros st [t A]; exact (ds_proc _ X1 st t A)|].
    intros i cut. apply deserted_serves. exact X1.
  Qed.
End Trap.

Definition nil_b {A} (l : list A) : bool := match l with [] => true | _ => false end.
Lemma nil_b_true {A} (l : list A) : nil_b l = true -> l = [].
Proof. destruct l; [reflexivity|discriminate]. Qed.
Definition deserted_b (h : whole) : bool :=
  negb (sv_stop (h_sv h)) && nil_b (sv_book (h_sv h)) && match pfirst (sv_pend (h_sv h)) with None => true | _ => false end &&
  negb (all_done (sv_s (h_sv h))) && forallb (fun st => negb (alive_b h st)) (everyone h) &&
  forallb (fun st => nil_b (w_out (h_w h st))) (everyone h) &&
  forallb (fun tp => nil_b (Pool.ps_err (h_ps h) (fst tp)) &&
             forallb (fun w => match Pool.exitcode (Pool.ps_sys (h_ps h)) w with None => true | Some c => c =? 0 end) (snd tp)) (Pool.ps_pools (h_ps h)).
Lemma deserted_b_ok h : numbered h -> deserted_b h = true -> deserted h.
Proof.
  intros N Q. unfold deserted_b in Q. apply andb_prop in Q. destruct Q as [Q Q7]. apply andb_prop in Q. destruct Q as [Q Q6]. apply andb_prop in Q. destruct Q as [Q Q5].
  apply andb_prop in Q. destruct Q as [Q Q4]. apply andb_prop in Q. destruct Q as [Q Q3]. apply andb_prop in Q. destruct Q as [Q1 Q2].
  rewrite forallb_forall in Q5, Q6, Q7. constructor.
  - apply Bool.negb_true_iff. exact Q1.
  - apply nil_b_true. exact Q2.
  - destruct (pfirst _); [discriminate Q3|reflexivity].
  - apply Bool.negb_true_iff. exact Q4.
  - intros st t E. assert (A : alive h st) by (exists t; exact E). pose proof (Q5 st (in_everyone h st N (alive_known _ _ A))) as X.
    apply alive_b_true in A. rewrite A in X. discriminate X.
  - intros st K. apply nil_b_true, Q6, in_everyone; auto.
  - intros t Ht. apply in_map_iff in Ht. destruct Ht as [tp [<- Ht]]. apply Q7 in Ht. apply andb_prop in Ht. apply nil_b_true, Ht.
  - intros t p w Hp Hw. apply Q7 in Hp. apply andb_prop in Hp. destruct Hp as [_ Hp]. rewrite forallb_forall in Hp. apply Hp in Hw.
    destruct (Pool.exitcode _ w) as [c|]; auto. apply Z.eqb_eq in Hw. subst c. auto.
Qed.

(* a single task: all the conditions of C61 on the pipeline are met *)
Lemma one_no_lonely t d : t_ups t = [] -> no_lonely [t] idl idl d.
Proof.
  intros U x g b [y [[<-|[]] Hr]] Nx. exfalso. apply Nx. clear -U Hr. revert U.
  induction Hr as [|a c e H _ _]; auto. intros E. rewrite E in H. destruct H.
Qed.
Lemma one_first t : t_ups t = [] -> in_order [t].
Proof.
  intros U l1 x l2 u E Hu. destruct l1 as [|a l1]; [injection E as <- _; rewrite U in Hu; destruct Hu|]. injection E as _ E. destruct l1; discriminate E.
Qed.
(* a story of a single task, after which nobody is left; all moves meet [okb] *)
Definition story (t : task) fuel nw mbf (okb : whole -> hmove -> bool) cut cs : bool :=
  match sched_init [t] with
  | Ok (d, s0) =>
      match whole_init no_init nw mbf [t_id t] s0 with
      | Ok h => match hplay (dg_up idl idl d) (dg_down idl idl d) (dg_max_retries d) fuel nw mbf cut cs h with
                | Some l => enough_b d fuel && forallb (fun b => Nat.leb (length (dg_up idl idl d b)) 2) (pblocks d) &&
                            forallb (fun '(h, m) => okb h m) (hbefores h l) && deserted_b (hlast h l) &&
                            some_block (P_ServerCE.can_b d (hist (sv_tr (h_sv (hlast h l)))) (t_id t)) d
                | None => false end
      | Err _ => false end
  | Err _ => false end.
Lemma hchain_xruns (ok : whole -> hmove -> Prop) up down maxr fuel nw mbf l : forall h, hchain up down maxr fuel nw mbf h l ->
  (forall h1 m, In (h1, m) (hbefores h l) -> ok h1 m) -> xruns ok up down maxr fuel no_init nw mbf h (map fst l) (hlast h l).
Proof.
  induction l as [|[m h'] l IH]; intros h C O; [constructor|]. inversion C as [|? ? ? S C']; subst. cbn [map fst]. rewrite hlast_cons.
  econstructor; [apply O; left; reflexivity|exact S|]. apply IH; auto. intros h1 m1 H1. apply O. right. exact H1.
Qed.
Lemma story_ok t fuel nw mbf (ok : whole -> hmove -> Prop) okb cut cs : pipe_ok [t] -> edges_ok [t] -> (forall x, 0 <= nw x) ->
  (forall h m, numbered h -> okb h m = true -> ok h m) -> story t fuel nw mbf okb cut cs = true -> exists d s0 h0 ms z b,
  sched_init [t] = Ok (d, s0) /\ fuel_ok [t] fuel /\ inverse [t] idl idl d /\ whole_init no_init nw mbf [t_id t] s0 = Ok h0 /\ few_upstream [t] idl idl d /\
  xruns ok (dg_up idl idl d) (dg_down idl idl d) (dg_max_retries d) fuel no_init nw mbf h0 ms z /\
  can_run [t] (dg_up idl idl d) (dg_max_retries d) (hist (sv_tr (h_sv z))) (t_id t) b /\
  waits_for_ever (dg_up idl idl d) (dg_down idl idl d) (dg_max_retries d) fuel no_init nw mbf z.
Proof.
  intros PO EO NN OK Q. unfold story in Q. destruct (sched_init [t]) as [[d s0]|] eqn:E; [|discriminate Q].
  destruct (whole_init _ _ _ _ _) as [h|] eqn:Ei; [|discriminate Q]. destruct (hplay _ _ _ _ _ _ _ _ _) as [l|] eqn:El; [|discriminate Q].
  apply andb_prop in Q. destruct Q as [Q Q5]. apply andb_prop in Q. destruct Q as [Q Q4]. apply andb_prop in Q. destruct Q as [Q Q3].
  apply andb_prop in Q. destruct Q as [Q1 Q2]. apply existsb_exists in Q5. destruct Q5 as [b [Hb Cb]].
  assert (PR : pipe_run [t] idl idl d s0 fuel [] s0) by (constructor; auto using idl_order; constructor).
  assert (C : hchain (dg_up idl idl d) (dg_down idl idl d) (dg_max_retries d) fuel nw mbf h l) by (eapply hplay_chain; eauto).
  exists d, s0, h, (map fst l), (hlast h l), b. split; auto. split; [eapply enough_b_ok; eauto|]. split; [eapply run_dual; eauto|]. split; auto. split; [|split; [|split]].
  - intros c Hc. apply (run_in _ _ _ _ _ _ _ _ PR) in Hc. rewrite forallb_forall in Q2. apply Q2 in Hc. apply Nat.leb_le in Hc. exact Hc.
  - apply hchain_xruns; auto. intros h1 m H1. destruct (hchain_mid _ _ _ _ _ _ _ _ C _ _ H1) as [ms R]. rewrite forallb_forall in Q3.
    apply OK; [eapply runs_numbered; eauto|]. exact (Q3 _ H1).
  - unfold P_ServerCE.can_b in Cb.
    apply andb_prop in Cb. destruct Cb as [H H5]. apply andb_prop in H. destruct H as [H H4].
    apply andb_prop in H. destruct H as [H H3]. apply andb_prop in H. destruct H as [H1 H2].
    split; [apply (run_in _ _ _ _ _ _ _ _ PR); auto|]. split; [apply Nat.eqb_eq; auto|]. split; [|split; [|split]].
    + intros a Ha. rewrite forallb_forall in H2. apply succ_b_true. auto.
    + unfold held. apply Bool.negb_true_iff, Z.ltb_ge in H3. lia.
    + rewrite <- succ_b_true. intros X. rewrite X in H4. discriminate H4.
    + rewrite <- perm_b_true. intros X. rewrite X in H5. discriminate H5.
  - apply deserted_waits, deserted_b_ok; auto. eapply runs_numbered; eauto. apply hchain_runs. exact C.
Qed.

(* Everything C61 asks for, except that the moves meet [ok] instead of [prudent]: and yet the server waits for ever
   though a block can run; no worker process is left.  max_block_failures is 3. *)
Definition deserts (ok : whole -> hmove -> Prop) : Prop := exists t d s0 fuel nw h0 ms z b,
  company [t] idl idl d s0 fuel no_init nw 3 h0 /\ no_lonely [t] idl idl d /\ in_order [t] /\ few_upstream [t] idl idl d /\
  xruns ok (dg_up idl idl d) (dg_down idl idl d) (dg_max_retries d) fuel no_init nw 3 h0 ms z /\
  can_run [t] (dg_up idl idl d) (dg_max_retries d) (hist (sv_tr (h_sv z))) (t_id t) b /\
  waits_for_ever (dg_up idl idl d) (dg_down idl idl d) (dg_max_retries d) fuel no_init nw 3 z.
(* one task *)
Definition wc (blocks retries : Z) : task := Task 1 (Roi [0] [blocks]) (Roi [0] [1]) (Roi [0] [1]) false Valid 1 retries [].
Lemma wc2_ok : pipe_ok [wc 2 5].
Proof. unfold wc. pipe_ok_tac. Qed.
Lemma wc2_edges : edges_ok [wc 2 5].
Proof. apply single_edges. intros t [<-|[]]. reflexivity. Qed.
Definition one_each (t : nat) : Z := 1.
Lemma story_deserts (ok : whole -> hmove -> Prop) okb cut cs : (forall h m, numbered h -> okb h m = true -> ok h m) ->
  story (wc 2 5) 100 one_each 3 okb cut cs = true -> deserts ok.
Proof.
  intros O Q. destruct (story_ok _ _ _ _ ok _ _ _ wc2_ok wc2_edges (fun _ => Z.le_0_1) O Q) as [d [s0 [h0 [ms [z [b [E [F [I [W [Fu [X [C A]]]]]]]]]]]]].
  exists (wc 2 5), d, s0, 100%nat, one_each, h0, ms, z, b. split; [|split; [apply one_no_lonely; reflexivity|split; [apply one_first; reflexivity|auto]]].
  constructor; auto using idl_order, wc2_ok. intros t. unfold one_each. lia.
Qed.
Definition ask (st : nat) (closed : list nat) : list hdeed := [EAsk st; ETake st closed; EGet st].
Definition done (st : nat) (closed : list nat) : list hdeed := [EFinish st (Client.Finished SUCCESS); ETake st closed].
Definition raises (st : nat) (closed : list nat) : list hdeed := [EFinish st (Client.Raised PROCESSING); ETake st closed; ETake st closed].

(* C61 fails if a worker process ends with exit code 0 before it was told to: it is not replaced
   (worker_pool.py:117-124); its block is taken back, but nobody asks for it. *)
Definition s_code := [EConnect 0] ++ ask 0 [] ++ [EEnd 0 0 0; EIdle [0%nat]].
Theorem C61_exit_code_0_refuted : deserts (fun h m => timely h m /\ silent h m /\ watched h m).
Proof.
  apply (story_deserts _ (fun h m => timely_b h m && silent_b h m && watched_b h m) (fun _ => O) s_code); [|vm_compute; reflexivity].
  intros h m N H. apply andb_prop in H. destruct H as [H H3]. apply andb_prop in H. destruct H as [H1 H2]. auto using timely_b_ok, silent_b_ok, watched_b_ok.
Qed.
(* C61 fails if a worker is killed with the last block, and the worker started in its place asks before
   the server has noticed that the connection of the first is closed: there is nothing left to do, so it is told to leave, and
   leaves with exit code 0.  Then the block is taken back. *)
Definition s_timely := [EConnect 0] ++ ask 0 [] ++ done 0 [] ++ ask 0 [] ++ [EEnd 0 0 (-9); EIdle []; EConnect 1] ++
  ask 1 [0%nat] ++ [EExit 1; EIdle [0%nat; 1%nat]].
Theorem C61_replaced_too_early_refuted : deserts (fun h m => coded m /\ silent h m /\ watched h m).
Proof.
  apply (story_deserts _ (fun h m => coded_b m && silent_b h m && watched_b h m) (fun _ => O) s_timely); [|vm_compute; reflexivity].
  intros h m N H. apply andb_prop in H. destruct H as [H H3]. apply andb_prop in H. destruct H as [H1 H2]. auto using coded_b_ok, silent_b_ok, watched_b_ok.
Qed.
(* C61 fails if the fourth report of a failed block of a worker is handled after it was killed and replaced (C45): there is
   one worker more than num_workers.  The first of them has left when the second, with the last block, fails: the block can be
   tried again, so workers are recruited, of whom there are too many: the youngest is stopped. *)
Definition s_silent := [EConnect 0] ++ ask 0 [] ++ raises 0 [] ++ ask 0 [] ++ raises 0 [] ++ ask 0 [] ++ raises 0 [] ++ ask 0 [] ++
  [EFinish 0 (Client.Raised PROCESSING); EEnd 0 1 (-9); EIdle []; ETake 0 []; EConnect 1; EConnect 2] ++
  ask 2 [0%nat] ++ ask 1 [0%nat] ++ done 1 [0%nat] ++ ask 1 [0%nat] ++ [EExit 1; EFinish 2 (Client.Raised PROCESSING); ETake 2 [0%nat]].
Theorem C61_late_report_refuted : deserts (fun h m => timely h m /\ coded m /\ watched h m).
Proof.
  apply (story_deserts _ (fun h m => timely_b h m && coded_b m && watched_b h m) (fun _ => O) s_silent); [|vm_compute; reflexivity].
  intros h m N H. apply andb_prop in H. destruct H as [H H3]. apply andb_prop in H. destruct H as [H1 H2]. auto using timely_b_ok, coded_b_ok, watched_b_ok.
Qed.
(* C61 fails if the server does not notice that a connection is closed before it answers a request that
   arrived by it: the last block is sent to a dead process, and the worker started in its place is told to leave. *)
Definition s_watched := [EConnect 0; EAsk 0; EEnd 0 1 (-9); EIdle []; EConnect 1] ++ ask 1 [0%nat] ++ [ETake 0 []] ++ done 1 [] ++
  ask 1 [] ++ [EExit 1; EIdle [0%nat; 1%nat]].
Theorem C61_closed_late_refuted : deserts (fun h m => timely h m /\ coded m /\ silent h m).
Proof.
  apply (story_deserts _ (fun h m => timely_b h m && coded_b m && silent_b h m) (fun _ => O) s_watched); [|vm_compute; reflexivity].
  intros h m N H. apply andb_prop in H. destruct H as [H H3]. apply andb_prop in H. destruct H as [H1 H2]. auto using timely_b_ok, coded_b_ok, silent_b_ok.
Qed.
Print Assumptions C61_exit_code_0_refuted.
Print Assumptions C61_replaced_too_early_refuted.
Print Assumptions C61_late_report_refuted.
Print Assumptions C61_closed_late_refuted.
(* C61 fails with num_workers = 0 (nothing checks it): nothing happens at all. *)
Theorem C61_no_workers_refuted : exists d s0 fuel h0 b,
  pipe_ok [wc 2 5] /\ sched_init [wc 2 5] = Ok (d, s0) /\ fuel_ok [wc 2 5] fuel /\ whole_init no_init (fun _ => 0) 3 [1%nat] s0 = Ok h0 /\
  can_run [wc 2 5] (dg_up idl idl d) (dg_max_retries d) (hist (sv_tr (h_sv h0))) 1 b /\
  waits_for_ever (dg_up idl idl d) (dg_down idl idl d) (dg_max_retries d) fuel no_init (fun _ => 0) 3 h0.
Proof.
  destruct (story_ok (wc 2 5) 100 (fun _ => 0) 3 (fun _ _ => False) (fun _ _ => false) (fun _ => O) [] wc2_ok wc2_edges (fun _ => Z.le_refl 0))
    as [d [s0 [h0 [ms [z [b [E [F [I [W [Fu [X [C A]]]]]]]]]]]]]; [discriminate|vm_compute; reflexivity|].
  inversion X; subst; [|contradiction]. exists d, s0, 100%nat, z, b. split; [apply wc2_ok|]. split; [exact E|]. split; [exact F|]. split; [exact W|]. split; [exact C|exact A].
Qed.
Print Assumptions C61_no_workers_refuted.

(* A block nobody failed can fail for good though no process dies by itself and every body ends well exactly if
   its block is not bad: after its fourth failure a worker is killed by its pool while its next request is under way; the
   block sent in answer is lost at once, which counts as a failed attempt (C49). *)
Definition hsteady (bad : block -> Prop) (h : whole) (m : hmove) : Prop :=
  match m with
  | HFinish st o => forall pb, w_at (h_w h st) = Working pb -> (well o <-> ~ bad (pb_block pb))
  | HEnd _ _ _ => False
  | HServe i _ => forall k b, i_chk i k b <> CheckTrue
  | _ => True
  end.
Definition four_bad (b : block) : bool := b_num b <? 4.
Lemma wc6_ok : pipe_ok [wc 6 0].
Proof. unfold wc. pipe_ok_tac. Qed.
Lemma wc6_edges : edges_ok [wc 6 0].
Proof. apply single_edges. intros t [<-|[]]. reflexivity. Qed.
Definition wc_body (st : nat) (pb : pyblock) : option Client.outcome :=
  if four_bad (pb_block pb) then Some (Client.Raised PROCESSING) else Some (Client.Finished SUCCESS).
Definition s_innocent := [EConnect 0] ++ ask 0 [] ++ raises 0 [] ++ ask 0 [] ++ raises 0 [] ++ ask 0 [] ++ raises 0 [] ++ ask 0 [] ++
  [EFinish 0 (Client.Raised PROCESSING); EAsk 0; ETake 0 []; ETake 0 [0%nat]; ETake 0 [0%nat]].
Definition hsteady_b (h : whole) (m : hmove) : bool :=
  match m with
  | HFinish st o => match w_at (h_w h st) with
                    | Working pb => match o with
                                    | Client.Finished SUCCESS => negb (four_bad (pb_block pb))
                                    | Client.Raised _ => four_bad (pb_block pb)
                                    | _ => false
                                    end
                    | _ => true end
  | HEnd _ _ _ => false
  | _ => true
  end.
Lemma hchain_app up down maxr fuel nw mbf l1 l2 : forall h, hchain up down maxr fuel nw mbf h l1 -> hchain up down maxr fuel nw mbf (hlast h l1) l2 ->
  hchain up down maxr fuel nw mbf h (l1 ++ l2).
Proof.
  induction l1 as [|[m h'] l1 IH]; intros h C D; [exact D|]. inversion C as [|? ? ? S C']; subst. rewrite hlast_cons in D. cbn. constructor; auto.
Qed.
Lemma hplay_chk up down maxr fuel nw mbf cut cs : forall h l i k h', hplay up down maxr fuel nw mbf cut cs h = Some l -> In (HServe i k, h') l -> i_chk i = no_check.
Proof.
  induction cs as [|c r IH]; intros h l i k h' H Hi; cbn [hplay] in H; [injection H as <-; destruct Hi|].
  destruct (hperform _ _ _ _ _ _ _ c h) as [[m h1]|] eqn:E; [|discriminate H]. destruct (hplay _ _ _ _ _ _ _ r h1) as [l'|] eqn:El; [|discriminate H]. injection H as <-.
  destruct Hi as [Hi|Hi]; [injection Hi as -> ->; eapply hperform_chk; eauto|eauto].
Qed.
Definition innocent : res (dgraph * sched * whole * list (hmove * whole) * list (hmove * whole)) :=
  '(d, s0) <- sched_init [wc 6 0] ;;
  h <- whole_init no_init one_each 3 [1%nat] s0 ;;
  match hplay (dg_up idl idl d) (dg_down idl idl d) (dg_max_retries d) 100 one_each 3 (fun _ => 2%nat) s_innocent h with
  | Some l => Ok (d, s0, h, l, hauto (dg_up idl idl d) (dg_down idl idl d) (dg_max_retries d) 100 one_each 3 (fun _ => O) wc_body 100 (hlast h l))
  | None => Err KeyError end.
Definition innocent_checks (d : dgraph) (h : whole) (l : list (hmove * whole)) : bool :=
  let z := hlast h l in
  enough_b d 100 && sv_stop (h_sv z) && negb (existsb (hcan_b z) (everyone z)) &&
  forallb (fun '(h, m) => prudent_b h m) (hbefores h l) && forallb (fun '(h, m) => hsteady_b h m) (hbefores h l) &&
  forallb (fun b => Nat.leb (length (dg_up idl idl d b)) 2) (pblocks d) &&
  some_block (fun b => negb (four_bad b) && perm_b d (hist (sv_tr (h_sv z))) b) d.
Theorem C61_innocent_block_refuted : exists d s0 fuel r mv n b,
  let bad := fun b => four_bad b = true in
  company [wc 6 0] idl idl d s0 fuel no_init one_each 3 (r O) /\ no_lonely [wc 6 0] idl idl d /\ in_order [wc 6 0] /\
  few_upstream [wc 6 0] idl idl d /\
  hfair (dg_up idl idl d) (dg_down idl idl d) (dg_max_retries d) fuel no_init one_each 3 r mv /\
  (forall n m, mv n = Some m -> hsteady bad (r n) m) /\
  sv_stop (h_sv (r n)) = true /\ pipe_block [wc 6 0] b /\ ~ bad b /\ perm_failed (dg_max_retries d) (hist (sv_tr (h_sv (r n)))) b.
Proof.
  assert (Q : match innocent with Ok (d, s0, h, l1, l2) => innocent_checks d h (l1 ++ l2) | Err _ => false end = true) by (vm_compute; reflexivity).
  unfold innocent in Q. destruct (sched_init [wc 6 0]) as [[d s0]|] eqn:E; [|discriminate Q]. cbn [bind] in Q.
  destruct (whole_init no_init one_each 3 [1%nat] s0) as [h|] eqn:Ei; [|discriminate Q]. cbn [bind] in Q.
  destruct (hplay _ _ _ _ _ _ _ _ h) as [l1|] eqn:E1; [|discriminate Q].
  set (l2 := hauto _ _ _ _ _ _ _ _ _ _) in Q. unfold innocent_checks in Q.
  apply andb_prop in Q. destruct Q as [Q Q7]. apply andb_prop in Q. destruct Q as [Q Q6]. apply andb_prop in Q. destruct Q as [Q Q5].
  apply andb_prop in Q. destruct Q as [Q Q4]. apply andb_prop in Q. destruct Q as [Q Q3]. apply andb_prop in Q. destruct Q as [Q1 Q2].
  apply Bool.negb_true_iff in Q3. set (l := l1 ++ l2) in *.
  assert (NW : forall t, 1 <= one_each t) by (intros t; unfold one_each; lia).
  assert (CO : company [wc 6 0] idl idl d s0 100 no_init one_each 3 h).
  { apply (company_ok [wc 6 0] 100 one_each 3 d s0 h wc6_ok wc6_edges E Q1 NW Ei). }
  assert (C : hchain (dg_up idl idl d) (dg_down idl idl d) (dg_max_retries d) 100 one_each 3 h l).
  { apply hchain_app; [eapply hplay_chain; exact E1|apply hauto_chain]. }
  assert (NN : forall t, 0 <= one_each t) by (intros t; unfold one_each; lia).
  pose proof (hchain_fair _ _ _ _ _ _ _ _ _ NN (co_start _ _ _ _ _ _ _ _ _ _ CO) l C Q4 Q2 Q3) as FA.
  pose proof (hchain_end h l) as Ez.
  apply existsb_exists in Q7. destruct Q7 as [b [Hb Q7]]. apply andb_prop in Q7. destruct Q7 as [Bb Pb]. rewrite perm_b_true in Pb.
  apply Bool.negb_true_iff in Bb.
  exists d, s0, 100%nat, (fun n => nth n (h :: map snd l) (hlast h l)), (fun n => nth_error (map fst l) n), (length l), b.
  cbv zeta. rewrite Ez. pose proof (f_in _ _ _ _ _ _ _ _ _ (w_staffed _ _ _ _ _ _ _ _ _ _ CO)) as FI.
  split; [exact CO|]. split; [apply one_no_lonely; reflexivity|split; [apply one_first; reflexivity|split; [|split; [exact FA|split]]]].
  - intros c Hc. apply FI in Hc. rewrite forallb_forall in Q6. apply Q6 in Hc. apply Nat.leb_le in Hc. exact Hc.
  - intros n m' H. pose proof (hbefores_nth (hlast h l) l h n m' H) as Hi. rewrite forallb_forall in Q5. apply Q5 in Hi. cbn beta iota in Hi.
    destruct m' as [| | |st o| | |i k]; try exact I; try discriminate Hi.
    + intros pb' Ew. unfold hsteady_b in Hi. rewrite Ew in Hi. unfold well. destruct o as [[]| |]; try discriminate Hi; try (apply Bool.negb_true_iff in Hi; rewrite Hi);
        try rewrite Hi; split; intros X; try discriminate; try exact I; try contradiction; try (exfalso; apply X; reflexivity); intros Y; discriminate Y.
    + intros j c. assert (X : i_chk i = no_check).
      { apply nth_error_In in H. apply in_map_iff in H. destruct H as [[m0 y0] [E0 H]]. cbn in E0. subst m0.
        apply in_app_or in H. destruct H as [H|H]; [eapply hplay_chk; eauto|eapply hauto_chk; eauto]. }
      rewrite X. unfold no_check. discriminate.
  - split; [exact Q2|]. split; [apply FI; exact Hb|]. split; [congruence|exact Pb].
Qed.
Print Assumptions C61_innocent_block_refuted.
