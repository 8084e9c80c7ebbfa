(* All runs of the server, its pools and the workers: what holds in every state. *)
From Coq Require Import Arith Lia Permutation.
From Verif Require Import SchedProps SchedExec DGFacts2 PipeRun P_SchedCE P_Sched SerialFacts P_Conv P_Serial ServerFacts ServerSteps
  ServerIdle P_Server P_Server2 P_ServerCE P_Outcome P_Notify PoolAll P_PoolFail.
From Verif Require Client Pool P_Pool.
From Verif Require Import Sys SysFacts SysMeasure SysTrace WholeSrv WholeSim WholeAny WholeAll.
Open Scope Z_scope.

(* The beginning, as in P_Whole.company; num_workers may be 0. *)
Record setup (tasks : list task) ord ordt (d : dgraph) (s0 : sched) fuel init (nw : nat -> Z) (mbf : Z) (h : whole) : Prop := {
  se_ok : pipe_ok tasks;
  se_ord : is_order ord;
  se_ordt : is_order ordt;
  se_init : sched_init tasks = Ok (d, s0);
  se_inverse : inverse tasks ord ordt d;
  se_fuel : fuel_ok tasks fuel;
  se_callback : forall t, init t = Ok tt;
  se_workers : forall t, 0 <= nw t;
  se_limit : 0 <= mbf;
  se_start : whole_init init nw mbf (map t_id tasks) s0 = Ok h
}.

(* the failures of worker w at blocks of task t the server was told of *)
Definition is_fail (t w : nat) (a : act) : bool :=
  match a with ANote (NFailure pb w') => Nat.eqb (b_task (pb_block pb)) t && Nat.eqb w' w | _ => false end.
Definition fail_notes (t w : nat) (l : list act) : Z := Z.of_nat (length (filter (is_fail t w) l)).
Lemma fail_notes_app t w l m : fail_notes t w (l ++ m) = fail_notes t w l + fail_notes t w m.
Proof. unfold fail_notes. rewrite filter_app, app_length. lia. Qed.
Lemma reports_app t w a b : reports t w (a ++ b) = reports t w a + reports t w b.
Proof. unfold reports. rewrite filter_app, app_length. lia. Qed.
Lemma acts_reports t w l : reports t w (pool_acts l) = fail_notes t w l.
Proof.
  unfold pool_acts. induction l as [|a l IH]; [reflexivity|]. cbn [rev]. rewrite flat_map_app, reports_app, IH.
  change (a :: l) with ([a] ++ l). rewrite fail_notes_app. rewrite Z.add_comm. f_equal. cbn [flat_map]. rewrite app_nil_r.
  unfold reports, fail_notes. destruct a as [| | |n| | | | | |]; try reflexivity. destruct n as [| | | |pb v|]; try reflexivity. cbn [filter is_fail].
  destruct (Nat.eqb _ t && Nat.eqb v w); reflexivity.
Qed.

(* what a worker may have sent and received *)
Definition sent_to (tr : list act) (j : nat) (b : block) : Prop := exists pb, In (ASend j pb) tr /\ pb_block pb = b.
Definition mok (tr : list act) (j t : nat) (m : message) : Prop :=
  match m with
  | MAcquire u => u = t
  | MRelease pb => sent_to tr j (pb_block pb) /\ (pb_status pb = SUCCESS \/ pb_status pb = FAILED)
  | MBlockFailed pb w => sent_to tr j (pb_block pb) /\ w = j
  | _ => False
  end.
Record wok (tr : list act) (j : nat) (w : worker) : Prop := {
  wo_out : forall m, In m (w_out w) -> mok tr j (w_task w) m;
  wo_in : forall pb, In (Client.RSend pb) (w_in w) -> In (ASend j pb) tr;
  wo_at : forall pb, w_at w = Working pb -> In (ASend j pb) tr
}.
Lemma sent_more l tr j b : sent_to tr j b -> sent_to (l ++ tr) j b.
Proof. intros [pb [H E]]. exists pb. split; auto. apply in_or_app. auto. Qed.
Lemma mok_more l tr j t m : mok tr j t m -> mok (l ++ tr) j t m.
Proof. destruct m; cbn; auto; intros [A B]; split; auto using sent_more. Qed.
Lemma wok_more l tr j w : wok tr j w -> wok (l ++ tr) j w.
Proof. intros [A B C]. constructor; intros; auto using mok_more; apply in_or_app; auto. Qed.
Lemma wok_lasting tr : lasting (wok tr).
Proof.
  constructor.
  - intros j t. constructor; cbn; try tauto; discriminate.
  - intros j w n [A B C]. constructor; cbn; try tauto; try discriminate. intros m Hm. apply A. rewrite <- (firstn_skipn n). apply in_or_app. auto.
Qed.
Lemma returned_all st pb out : 
  (exists s, returned st pb out = [MRelease (PB (pb_block pb) s)] /\ (s = SUCCESS \/ s = FAILED)) \/
  returned st pb out = [MBlockFailed (PB (pb_block pb) FAILED) st; MRelease (PB (pb_block pb) FAILED)].
Proof.
  destruct out as [s|s|s]; [left| |left]; destruct s; cbn; auto; eexists; (split; [reflexivity|]); auto.
Qed.
Lemma returned_mok tr st pb out t : In (ASend st pb) tr -> forall m, In m (returned st pb out) -> mok tr st t m.
Proof.
  intros H m. assert (S : sent_to tr st (pb_block pb)) by (exists pb; auto).
  destruct (returned_all st pb out) as [[s [-> Hs]]| ->]; intros Hm.
  - destruct Hm as [<-|[]]. split; auto.
  - destruct Hm as [<-|[<-|[]]]; split; cbn; auto.
Qed.
Lemma replies_sent st l pb : In (Client.RSend pb) (replies st l) -> In (ASend st pb) l.
Proof.
  unfold replies. intros H. apply in_flat_map in H. destruct H as [a [Ha H]]. apply in_rev in Ha.
  destruct a as [| | | |s p|t s| | | |]; try (destruct H; fail).
  - destruct (Nat.eqb_spec s st) as [->|]; [|destruct H]. destruct H as [H|[]]. injection H as ->. exact Ha.
  - destruct (Nat.eqb s st); [|destruct H]. destruct H as [H|[]]. discriminate.
Qed.
Lemma wok_served i l tr j w : wok tr j w -> wok (l ++ tr) j (deliver j l (taken (i_get i) j w)).
Proof.
  intros H. pose proof (wok_more l _ _ _ H) as [A B C]. constructor.
  - unfold deliver. cbn [w_out w_task]. intros m Hm. assert (Et : w_task (taken (i_get i) j w) = w_task w) by (unfold taken; destruct (i_get i); auto; destruct (Nat.eqb _ _); auto).
    rewrite Et. apply A. unfold taken in Hm. destruct (i_get i); auto. destruct (Nat.eqb _ _); auto. cbn [w_out] in Hm. destruct (w_out w); [destruct Hm|right; exact Hm].
  - unfold deliver. cbn [w_in]. intros pb Hp. apply in_app_or in Hp. destruct Hp as [Hp|Hp].
    + apply B. unfold taken in Hp. destruct (i_get i); auto. destruct (Nat.eqb _ _); auto.
    + apply in_or_app. left. apply replies_sent. exact Hp.
  - intros pb Hp. rewrite at_moved in Hp. auto.
Qed.

(* the blocks that were sent *)
Lemma steps_hand up down maxr fuel init gr ga x y : steps up down maxr fuel init gr ga x y -> sv_tr x = [] ->
  forall st pb, In (ASend st pb) (sv_tr y) -> exists t, In (EvHand t pb) (hist (sv_tr y)).
Proof.
  intros S Ex. induction S as [|y z S IH U]; [rewrite Ex; intros ? ? []|].
  assert (OLD : forall l, sv_tr z = l ++ sv_tr y -> (forall st pb, ~ In (ASend st pb) l) -> forall st pb, In (ASend st pb) (sv_tr z) -> exists t, In (EvHand t pb) (hist (sv_tr z))).
  { intros l E N st1 pb1. rewrite E. intros H. apply in_app_or in H. destruct H as [H|H]; [destruct (N _ _ H)|]. destruct (IH _ _ H) as [t Ht]. exists t.
    unfold hist. rewrite flat_map_app. apply in_or_app. auto. }
  assert (NC : forall st pb t r sk, ~ In (ASend st pb) (calls t r sk)).
  { intros ? ? ? ? ? X. unfold calls in X. apply in_map_iff in X. destruct X as [? [X _]]. discriminate. }
  destruct U as [st1 m|t st1 p P|chk now t st1 s1 pb1 sk b A G Ea N|chk t st1 s1 sk A G Ea Er Ep|chk t st1 s1 sk p A G Ea Er Ep P|pick pb1 s1 G Ea|pb1 w| |z Ea|b Sb|m L].
  - eapply OLD; [reflexivity|]. intros ? ? [X|[]]. discriminate.
  - eapply OLD; [reflexivity|]. intros ? ? [X|[]]. discriminate.
  - cbn [add_tr set_book set_s sv_tr]. intros st2 pb2 H. rewrite <- app_assoc in H. apply in_app_or in H. destruct H as [[H|[H|[]]]|H]; [discriminate| |].
    + injection H as -> ->. exists t. left. reflexivity.
    + apply in_app_or in H. destruct H as [H|H]; [destruct (NC _ _ _ _ _ H)|]. destruct (IH _ _ H) as [u Hu]. exists u.
      unfold hist. rewrite !flat_map_app. apply in_or_app. right. exact Hu.
  - eapply OLD; [reflexivity|]. intros ? ? [X|X]; [discriminate|]. eapply NC; eauto.
  - eapply OLD; [reflexivity|]. intros ? ? [X|X]; [discriminate|]. eapply NC; eauto.
  - eapply OLD; [reflexivity|]. intros ? ? [X|[X|[]]]; discriminate.
  - eapply OLD; [reflexivity|]. intros ? ? [X|[]]. discriminate.
  - destruct (check_all_spec y) as [_ [_ [_ [_ [l [E F]]]]]]. eapply OLD; [exact E|]. intros ? ? X. rewrite Forall_forall in F. destruct (F _ X) as [? [Q _]]. discriminate.
  - destruct (recruit_spec init _ _ Ea) as [_ [_ [_ [_ [l [E F]]]]]]. eapply (OLD (_ :: l)); [exact E|]. intros ? ? [X|X]; [discriminate|].
    rewrite Forall_forall in F. destruct (F _ X) as [? [[Q|Q] _]]; discriminate.
  - apply (OLD []); [reflexivity|]. intros ? ? [].
  - eapply OLD; [reflexivity|]. intros ? ? X. rewrite Forall_forall in L. exact (L _ X).
Qed.
Section Sent.
  Variables (tasks : list task) (ord : list block -> list block) (ordt : list nat -> list nat) (d : dgraph) (s0 : sched) (fuel : nat).
  Variables (init : nat -> res unit) (stopped : bool) (ins : list input) (y : server).
  Hypothesis R : server_run_to tasks ord ordt d s0 fuel init stopped ins y.
  Lemma sent_asked st pb : In (ASend st pb) (sv_tr y) -> In (ARecv st (MAcquire (b_task (pb_block pb)))) (sv_tr y).
  Proof.
    intros H. pose proof (C50_answered_for_task_partial _ _ _ _ _ _ _ _ _ _ st (b_task (pb_block pb)) R) as E.
    assert (P : (0 < answers (Nat.eqb (b_task (pb_block pb))) st (sv_tr y))%nat).
    { unfold answers. assert (I : In (ASend st pb) (filter (is_answer (Nat.eqb (b_task (pb_block pb))) st) (sv_tr y))).
      { apply filter_In. split; auto. cbn. rewrite !Nat.eqb_refl. reflexivity. }
      destruct (filter _ _); [destruct I|cbn; lia]. }
    assert (Q : (0 < requests (Nat.eqb (b_task (pb_block pb))) st (sv_tr y))%nat) by lia.
    unfold requests in Q. destruct (filter _ _) as [|a l] eqn:F; [cbn in Q; lia|].
    assert (I : In a (a :: l)) by (left; auto). rewrite <- F in I. apply filter_In in I. destruct I as [I J].
    destruct a as [s m| | | | | | | | |]; try discriminate. destruct m; try discriminate. cbn in J. apply andb_prop in J. destruct J as [J1 J2].
    apply Nat.eqb_eq in J1, J2. subst. exact I.
  Qed.
  Lemma sent_V st pb : In (ASend st pb) (sv_tr y) -> In (pb_block pb) (pblocks d).
  Proof.
    pose proof (steps_hand _ _ _ _ _ _ _ _ _ (a_steps _ _ _ _ _ _ _ _ _ _ R) eq_refl) as Q.
    intros H. destruct (Q _ _ H) as [t Ht]. apply in_split in Ht. destruct Ht as [l1 [l2 E]].
    pose proof (si_reach _ _ _ _ _ _ _ _ (a_sinv _ _ _ _ _ _ _ _ _ _ R)) as Re.
    apply (ok_at _ _ _ _ _ fuel (a_good _ _ _ _ _ _ _ _ _ _ R) (a_enough _ _ _ _ _ _ _ _ _ _ R) s0 (a_fresh _ _ _ _ _ _ _ _ _ _ R) _ _ Re _ _ _ E).
  Qed.
End Sent.

(* What an iteration hears.  Whole.hinput_ok but for the streams that are closed, any of which may be. *)
Definition hears (h : whole) (i : input) : Prop :=
  i_health i = Ok tt /\
  match i_get i with
  | GotMessage st m => known h st /\ exists r, w_out (h_w h st) = m :: r
  | GotError _ => False
  | _ => True
  end.
Lemma hears_of h i : hinput_ok h i -> hears h i.
Proof. intros [A [B _]]. split; auto. Qed.

Section Run.
  Variables (tasks : list task) (ord : list block -> list block) (ordt : list nat -> list nat) (d : dgraph) (s0 : sched) (fuel : nat).
  Variables (init : nat -> res unit) (nw : nat -> Z) (mbf : Z) (h0 : whole).
  Hypothesis SE : setup tasks ord ordt d s0 fuel init nw mbf h0.
  Local Notation V := (pblocks d).
  Local Notation up := (dg_up ord ordt d).
  Local Notation down := (dg_down ord ordt d).
  Local Notation maxr := (dg_max_retries d).
  Local Notation ids := (map t_id tasks).
  Local Notation keys := (dedup Nat.eqb ids).
  Local Notation astep := (astep up down maxr fuel init nw mbf).
  Local Notation aruns := (aruns up down maxr fuel init nw mbf).
  Local Notation run_to := (server_run_to tasks ord ordt d s0 fuel init false).
  Local Notation tb h := (Pool.tbl (Pool.ps_sys (h_ps h))).

  Record AI (ms : list amove) (h : whole) : Prop := {
    ai_server : run_to (aserved ms) (h_sv h);
    ai_honest : honest (sv_tr (h_sv h));
    ai_told : exists es, P_PoolFail.told nw mbf keys no_process es (h_ps h) /\ forall t w, reports t w es = fail_notes t w (sv_tr (h_sv h));
    ai_procs : procs keys (sv_started (h_sv h)) (h_ps h) (h_w h);
    ai_wok : forall j, tb h j <> None -> wok (sv_tr (h_sv h)) j (h_w h j);
    ai_asked : forall st t, In (ARecv st (MAcquire t)) (sv_tr (h_sv h)) -> tb h st <> None /\ w_task (h_w h st) = t;
    ai_err : forall t e, In e (Pool.ps_err (h_ps h) t) -> exists st n, In (ARaise st e n) ms /\ tb h st <> None /\ w_task (h_w h st) = t;
    ai_raise : forall st e n, In (ARaise st e n) ms -> exists t, In t keys /\ Pool.ps_err (h_ps h) t <> []
  }.
  Lemma keys_in t : In t keys <-> In t ids.
  Proof. apply in_dedup_nat. Qed.
  Lemma ai_sent ms h st pb : AI ms h -> In (ASend st pb) (sv_tr (h_sv h)) -> tb h st <> None /\ w_task (h_w h st) = b_task (pb_block pb) /\ In (pb_block pb) V.
  Proof.
    intros A H. destruct (ai_asked _ _ A _ _ (sent_asked _ _ _ _ _ _ _ _ _ _ (ai_server _ _ A) _ _ H)) as [K E].
    split; auto. split; auto. eapply sent_V; [apply A|exact H].
  Qed.
  Lemma ai_message ms h st m r : AI ms h -> tb h st <> None -> w_out (h_w h st) = m :: r -> mok (sv_tr (h_sv h)) st (w_task (h_w h st)) m.
  Proof. intros A K E. apply (wo_out _ _ _ (ai_wok _ _ A st K)). rewrite E. left. reflexivity. Qed.
  Lemma ah_fair ms h i : AI ms h -> hears h i -> fair tasks i.
  Proof.
    intros A [H1 H2]. split; auto. destruct (i_get i) as [st m| | |e]; auto. destruct H2 as [K [r E]]. unfold known, proc in K.
    pose proof (ai_message _ _ _ _ _ A K E) as M.
    assert (B : forall b, sent_to (sv_tr (h_sv h)) st b -> pipe_block tasks b).
    { intros b [pb [Hp <-]]. apply (a_in _ _ _ _ _ _ _ _ _ _ (ai_server _ _ A)). eapply ai_sent; eauto. }
    destruct m as [t|pb|pb w|e|]; cbn in M; try contradiction.
    - subst t. destruct (tb h st) as [[t s]|] eqn:Et; [|congruence]. destruct (ai_procs _ _ A _ _ _ Et) as [_ [Q E']]. rewrite E'.
      apply keys_in in Q. apply in_map_iff in Q. destruct Q as [x [Ex Hx]]. cbn. eauto.
    - cbn. destruct M. auto.
    - cbn. destruct M. auto.
  Qed.
  Lemma ai_fair ms h i : AI ms h -> hinput_ok h i -> fair tasks i.
  Proof. eauto using ah_fair, hears_of. Qed.
  Lemma ah_events ms h i sv l : AI ms h -> hears h i -> iteration up down maxr fuel init i (h_sv h) = Ok sv -> sv_tr sv = l ++ sv_tr (h_sv h) ->
    Forall (ev_ok keys (sv_started sv) (h_ps h)) (pool_acts l ++ [Pool.PHealth]) /\ (forall e, In e (pool_acts l) -> e <> Pool.PHealth) /\
    (forall t x, ~ In (Pool.PError t x) (pool_acts l ++ [Pool.PHealth])) /\ procs keys (sv_started sv) (h_ps h) (fun s => deliver s l (taken (i_get i) s (h_w h s))).
  Proof.
    intros A Io E El. pose proof (iter_recruited _ _ _ _ _ _ _ _ _ E El) as Rc. pose proof (iter_fails _ _ _ _ _ _ _ _ _ E El) as Fl.
    assert (X : forall e, In e (pool_acts l) -> (exists ts, e = Pool.PRecruit ts /\ In (ARecruit ts) l) \/
       exists pb w, e = Pool.PFailure (b_task (pb_block pb)) w /\ In (pb, w) (fails l)).
    { intros e He. unfold pool_acts in He. apply in_flat_map in He. destruct He as [a [Ha He]]. apply in_rev in Ha.
      destruct a as [| | |n| | |ts| | |]; try (destruct He; fail).
      - destruct n as [| | | |pb w|]; try (destruct He; fail). destruct He as [<-|[]]. right. exists pb, w. split; auto.
        unfold fails. apply in_flat_map. exists (ANote (NFailure pb w)). rewrite <- in_rev. split; auto. left. reflexivity.
      - destruct He as [<-|[]]. left. eauto. }
    split; [|split; [|split]].
    - apply Forall_app. split; [|repeat constructor]. apply Forall_forall. intros e He. destruct (X e He) as [[ts [-> Ht]]|[pb [w [-> Hp]]]]; cbn [ev_ok].
      + intros t Hi. apply Rc. right. exists ts. auto.
      + rewrite Fl in Hp. unfold reported in Hp. destruct Io as [_ G]. destruct (i_get i) as [st m| | |]; try (destruct Hp; fail).
        destruct m as [| |pb' w'| |]; try (destruct Hp; fail). destruct Hp as [Hp|[]]. injection Hp as <- <-. cbn [pb_block]. destruct G as [K [r Er]]. unfold known, proc in K.
        destruct (ai_message _ _ _ _ _ A K Er) as [[pb2 [Hs Eb]] ->]. destruct (ai_sent _ _ _ _ A Hs) as [_ [Et _]]. rewrite Eb in Et. rewrite <- Et.
        destruct (tb h st) as [[t s]|] eqn:Ep; [|congruence]. destruct (ai_procs _ _ A _ _ _ Ep) as [P1 [P2 P3]]. rewrite P3.
        split; [apply Rc; auto|]. split; auto.
    - intros e He. destruct (X e He) as [[ts [-> _]]|[pb [w [-> _]]]]; discriminate.
    - intros t x He. apply in_app_or in He. destruct He as [He|[He|[]]]; [|discriminate]. destruct (X _ He) as [[ts [Q _]]|[pb [w [Q _]]]]; discriminate.
    - intros j t s Hj. destruct (ai_procs _ _ A _ _ _ Hj) as [P1 [P2 P3]]. rewrite task_moved. split; [apply Rc; auto|]. auto.
  Qed.
  Lemma ai_events ms h i sv l : AI ms h -> hinput_ok h i -> iteration up down maxr fuel init i (h_sv h) = Ok sv -> sv_tr sv = l ++ sv_tr (h_sv h) ->
    Forall (ev_ok keys (sv_started sv) (h_ps h)) (pool_acts l ++ [Pool.PHealth]) /\ (forall e, In e (pool_acts l) -> e <> Pool.PHealth) /\
    (forall t x, ~ In (Pool.PError t x) (pool_acts l ++ [Pool.PHealth])) /\ procs keys (sv_started sv) (h_ps h) (fun s => deliver s l (taken (i_get i) s (h_w h s))).
  Proof. eauto using ah_events, hears_of. Qed.
  (* a step that does not concern the server *)
  Lemma ai_idle ms h m h' evs : AI ms h -> h_sv h' = h_sv h -> h_ps h' = P_Pool.steps nw mbf evs (h_ps h) ->
    (forall e, In e evs -> (exists w c, e = Pool.PExit w c) \/ exists st x, e = Pool.PError (w_task (h_w h st)) x /\ tb h st <> None /\ exists n, m = ARaise st x n) ->
    (forall st x n, m = ARaise st x n -> exists t, In t keys /\ Pool.ps_err (h_ps h') t <> []) ->
    (forall j, tb h j <> None -> w_task (h_w h' j) = w_task (h_w h j) /\ wok (sv_tr (h_sv h)) j (h_w h' j)) -> aserved [m] = [] -> AI (ms ++ [m]) h'.
  Proof.
    intros A Es Ep Ev Ra Wk Sv.
    destruct (ai_told _ _ A) as [es [T Rp]].
    assert (X : P_PoolFail.told nw mbf keys no_process (es ++ evs) (h_ps h') /\ (forall j t s, tb h j = Some (t, s) -> exists s', tb h' j = Some (t, s')) /\
      (forall j, tb h j = None -> tb h' j = None) /\ (forall t w, reports t w (es ++ evs) = reports t w es) /\
      (forall t e, In e (Pool.ps_err (h_ps h') t) -> In e (Pool.ps_err (h_ps h) t) \/ In (Pool.PError t e) evs) /\
      (forall t, Pool.ps_err (h_ps h) t <> [] -> Pool.ps_err (h_ps h') t <> [])).
    { rewrite Ep. assert (Ev' : forall e, In e evs -> (exists w c, e = Pool.PExit w c) \/ exists t x, e = Pool.PError t x).
      { intros e He. destruct (Ev e He) as [Q|[st [x [Q _]]]]; eauto. }
      clear Ep Ev Rp Wk Ra Es. revert es T. generalize (h_ps h). revert Ev'. induction evs as [|e evs IH]; intros Ev' ps es T.
      - rewrite app_nil_r. cbn. split; auto. split; [eauto|]. split; auto.
      - unfold P_Pool.steps. cbn [fold_left]. fold (P_Pool.steps nw mbf evs (fst (Pool.pstep nw mbf e ps))).
        assert (T1 : P_PoolFail.told nw mbf keys no_process (es ++ [e]) (fst (Pool.pstep nw mbf e ps))).
        { constructor; auto. destruct (Ev' e (or_introl eq_refl)) as [[w [c ->]]|[t [x ->]]]; exact I. }
        destruct (told_sound nw mbf keys no_process no_process_ok _ _ T) as [Sd _].
        destruct (IH (fun e' H => Ev' e' (or_intror H)) _ _ T1) as [H1 [H2 [H3 [H4 [H5 H6]]]]]. rewrite <- app_assoc in H1, H4. cbn [app] in H1, H4. split; auto.
        destruct (Ev' e (or_introl eq_refl)) as [[w [c ->]]|[t [x ->]]].
        + destruct (exit_sound nw mbf w c ps Sd) as [_ [Tb _]]. split; [|split; [|split; [|split]]].
          * intros j t s Hj. assert (Q : exists s1, Pool.tbl (Pool.ps_sys (fst (Pool.pstep nw mbf (Pool.PExit w c) ps))) j = Some (t, s1)).
            { rewrite Tb, Hj. destruct s; [destruct (Nat.eqb _ _)|]; eauto. }
            destruct Q as [s1 Q]. eauto.
          * intros j Hj. apply H3. rewrite Tb, Hj. reflexivity.
          * intros u v. rewrite H4, reports_app. unfold reports at 2. cbn. lia.
          * intros u y Hy. destruct (H5 u y Hy) as [Q|Q]; [left; exact Q|right; right; exact Q].
          * intros u Hu. apply H6. exact Hu.
        + split; [exact H2|]. split; [exact H3|]. split; [|split].
          * intros u v. rewrite H4, reports_app. unfold reports at 2. cbn. lia.
          * intros u y Hy. destruct (H5 u y Hy) as [Q|Q]; [|right; right; exact Q]. cbn in Q. destruct (Nat.eqb_spec t u) as [->|]; [|left; exact Q].
            apply in_app_or in Q. destruct Q as [Q|[->|[]]]; [left; exact Q|right; left; reflexivity].
          * intros u Hu. apply H6. cbn. destruct (Nat.eqb_spec t u) as [->|]; auto. destruct (Pool.ps_err ps u); discriminate. }
    destruct X as [T' [K [N [Rp' [Er Er']]]]].
    assert (K' : forall j, tb h' j <> None -> tb h j <> None) by (intros j Hj Hn; apply Hj; apply N; exact Hn).
    assert (K2 : forall j, tb h j <> None -> tb h' j <> None).
    { intros j Hj. destruct (tb h j) as [[t s]|] eqn:E; [|congruence]. destruct (K _ _ _ E) as [s' Es']. congruence. }
    constructor; rewrite ?Es; try apply A.
    - unfold aserved in *. rewrite flat_map_app, Sv, app_nil_r. apply A.
    - exists (es ++ evs). split; auto. intros t w. rewrite Rp'. apply Rp.
    - intros j t s Hj. assert (Hj' : tb h j <> None) by (apply K'; congruence). destruct (tb h j) as [[t' s']|] eqn:Ej; [|congruence].
      destruct (K _ _ _ Ej) as [s2 Q]. rewrite Hj in Q. injection Q as <- <-. destruct (ai_procs _ _ A _ _ _ Ej) as [P1 [P2 P3]].
      destruct (Wk j) as [W1 _]; [congruence|]. rewrite W1. auto.
    - intros j Hj. apply Wk. auto.
    - intros st t H. destruct (ai_asked _ _ A _ _ H) as [K1 E1]. split; auto. destruct (Wk st K1) as [W1 _]. congruence.
    - intros t e He. destruct (Er t e He) as [Q|Q].
      + destruct (ai_err _ _ A _ _ Q) as [st [n [Q1 [Q2 Q3]]]]. exists st, n. split; [apply in_or_app; auto|]. split; auto. destruct (Wk st Q2) as [W1 _]. congruence.
      + destruct (Ev _ Q) as [[w [c Q']]|[st [x [Q1 [Q2 [n ->]]]]]]; [discriminate|]. injection Q1 as -> ->. exists st, n.
        split; [apply in_or_app; right; left; reflexivity|]. split; auto. destruct (Wk st Q2) as [W1 _]. congruence.
    - intros st e n Hi. apply in_app_or in Hi. destruct Hi as [Hi|[Hi|[]]]; [|eapply Ra; eauto].
      destruct (ai_raise _ _ A _ _ _ Hi) as [t [Ht Q]]. exists t. split; auto.
  Qed.
  Lemma ai_noted ms h : AI ms h -> forall t, In t (sv_started (h_sv h)) -> exists ts, In (ANote (NStart t ts)) (sv_tr (h_sv h)).
  Proof.
    intros A. apply once_noted. pose proof (a_steps _ _ _ _ _ _ _ _ _ _ (ai_server _ _ A)) as S.
    eapply steps_once; [exact S|]. apply idle_once.
  Qed.
  (* the server's part of an iteration raises nothing *)
  Lemma ah_iteration ms h i : AI ms h -> hears h i -> exists sv l, iteration up down maxr fuel init i (h_sv h) = Ok sv /\ sv_tr sv = l ++ sv_tr (h_sv h).
  Proof.
    intros A Io. pose proof (ai_server _ _ A) as R.
    destruct (iteration_ok V up down (root_seeds d) maxr fuel (a_good _ _ _ _ _ _ _ _ _ _ R) (a_enough _ _ _ _ _ _ _ _ _ _ R) s0 (a_fresh _ _ _ _ _ _ _ _ _ _ R)
      ids (a_known _ _ _ _ _ _ _ _ _ _ R) init (se_callback _ _ _ _ _ _ _ _ _ _ SE) i (h_sv h) (a_sinv _ _ _ _ _ _ _ _ _ _ R)) as [sv [E _]].
    - pose proof SE as C. destruct C. eapply (p_fair tasks ord ordt d s0 fuel); eauto using ah_fair.
    - destruct (iter_adds _ _ _ _ _ _ _ _ E) as [l [El _]]. exists sv, (l ++ recv i). split; auto. rewrite El. cbn [add_tr sv_tr]. rewrite app_assoc. reflexivity.
  Qed.
  Lemma ai_iteration ms h i : AI ms h -> hinput_ok h i -> exists sv l, iteration up down maxr fuel init i (h_sv h) = Ok sv /\ sv_tr sv = l ++ sv_tr (h_sv h).
  Proof. eauto using ah_iteration, hears_of. Qed.
  Lemma ah_pools ms h i cut sv l : AI ms h -> hears h i -> iteration up down maxr fuel init i (h_sv h) = Ok sv -> sv_tr sv = l ++ sv_tr (h_sv h) ->
    match first_error (Pool.ps_err (h_ps h)) keys with
    | None => exists r, on_all nw mbf cut (pool_acts l ++ [Pool.PHealth]) (h_ps h) (fun s => deliver s l (taken (i_get i) s (h_w h s))) = Ok r
    | Some x => on_all nw mbf cut (pool_acts l ++ [Pool.PHealth]) (h_ps h) (fun s => deliver s l (taken (i_get i) s (h_w h s))) = Err x
    end.
  Proof.
    intros A Io E El. destruct (ah_events _ _ _ _ _ A Io E El) as [Ev [NH [_ Pr]]]. destruct (ai_told _ _ A) as [es [T _]].
    eapply (on_all_err nw mbf keys (sv_started sv) (wok (l ++ sv_tr (h_sv h))) cut (wok_lasting _)); eauto.
    - apply Forall_app in Ev. apply Ev.
    - intros j Hj. apply wok_served. apply A. exact Hj.
  Qed.
  Lemma ai_pools ms h i cut sv l : AI ms h -> hinput_ok h i -> iteration up down maxr fuel init i (h_sv h) = Ok sv -> sv_tr sv = l ++ sv_tr (h_sv h) ->
    match first_error (Pool.ps_err (h_ps h)) keys with
    | None => exists r, on_all nw mbf cut (pool_acts l ++ [Pool.PHealth]) (h_ps h) (fun s => deliver s l (taken (i_get i) s (h_w h s))) = Ok r
    | Some x => on_all nw mbf cut (pool_acts l ++ [Pool.PHealth]) (h_ps h) (fun s => deliver s l (taken (i_get i) s (h_w h s))) = Err x
    end.
  Proof. intros A Io. exact (ah_pools _ _ _ _ _ _ A (hears_of _ _ Io)). Qed.
  Lemma ah_serve ms h i cut sv l ps f : AI ms h -> sv_stop (h_sv h) = false -> hears h i ->
    iteration up down maxr fuel init i (h_sv h) = Ok sv -> sv_tr sv = l ++ sv_tr (h_sv h) ->
    on_all nw mbf cut (pool_acts l ++ [Pool.PHealth]) (h_ps h) (fun s => deliver s l (taken (i_get i) s (h_w h s))) = Ok (ps, f) ->
    AI (ms ++ [AMove (HServe i cut)]) (Whole sv ps f).
  Proof.
    intros A Sp Io E El Eo. destruct (ah_events _ _ _ _ _ A Io E El) as [Ev [NH [NE Pr]]]. destruct (ai_told _ _ A) as [es [T Rp]].
    assert (Wf : forall j, tb h j <> None -> wok (l ++ sv_tr (h_sv h)) j (deliver j l (taken (i_get i) j (h_w h j)))).
    { intros j Hj. apply wok_served. apply A. exact Hj. }
    destruct (on_all_all nw mbf keys (sv_started sv) (wok (l ++ sv_tr (h_sv h))) cut (wok_lasting _) _ _ _ _ _ _ T Ev Pr Wf Eo) as [T' [P' [W' [K' Q']]]].
    assert (Kn : forall j, tb h j <> None -> Pool.tbl (Pool.ps_sys ps) j <> None).
    { intros j Hj. destruct (tb h j) as [[t s]|] eqn:Ej; [|congruence]. destruct (K' _ _ _ Ej) as [s' ->]. discriminate. }
    assert (Tk : forall j, tb h j <> None -> w_task (f j) = w_task (h_w h j)).
    { intros j Hj. rewrite (Q' j Hj). apply task_moved. }
    pose proof (on_all_no_err nw mbf cut _ _ _ _ _ Eo NE) as Er.
    destruct (iter_adds _ _ _ _ _ _ _ _ E) as [l1 [E1 F1]]. cbn [add_tr sv_tr] in E1.
    assert (Msg : forall st m, In (ARecv st m) (recv i) -> tb h st <> None /\ mok (sv_tr (h_sv h)) st (w_task (h_w h st)) m).
    { intros st m. unfold recv. destruct Io as [_ G]. destruct (i_get i) as [st' m'| | |e]; try (intros []; fail).
      intros [H|[]]. injection H as <- <-. destruct G as [K [r Er']]. unfold known, proc in K. split; auto. eapply ai_message; eauto. }
    constructor; cbn [h_sv h_ps h_w].
    - pose proof (ai_server _ _ A) as R. destruct R. constructor; auto.
      + unfold aserved. rewrite flat_map_app. apply Forall_app. split; [exact sr_fair|]. repeat constructor. 1,2: eapply ah_fair; eauto.
      + unfold server_pipe in *. destruct (server_init _ _ _ _) as [x|]; [|discriminate]. cbn [bind] in *.
        unfold aserved. rewrite flat_map_app. eapply loop_snoc; eauto.
    - rewrite E1. apply honest_more; auto. destruct (ai_honest _ _ A) as [H1 H2].
      assert (R1 : recv i = [] \/ exists st m, recv i = [ARecv st m]) by (unfold recv; destruct (i_get i); eauto).
      destruct R1 as [-> |[st [m Em]]]; [apply A|]. rewrite Em in *. destruct (Msg st m (or_introl eq_refl)) as [Hk M]. split.
      + intros l2 st1 t k Ek. destruct l2 as [|a l2]; cbn [app] in Ek; injection Ek; [intros <- -> _|intros Ek' _; eauto]. cbn in M. subst t.
        destruct (tb h st) as [[t s]|] eqn:Et; [|congruence]. destruct (ai_procs _ _ A _ _ _ Et) as [P1 [_ P3]]. rewrite P3. eapply ai_noted; eauto.
      + intros l2 st1 pb w k Ek. destruct l2 as [|a l2]; cbn [app] in Ek; injection Ek; [intros <- -> _|intros Ek' _; eauto]. cbn in M. destruct M as [[pb' [Hs Eb]] ->]. eauto.
    - exists (es ++ pool_acts l ++ [Pool.PHealth]). split; auto. intros t w. rewrite !reports_app, Rp, acts_reports, El, fail_notes_app. unfold reports. cbn. lia.
    - exact P'.
    - rewrite El. exact W'.
    - intros st t H. rewrite E1 in H. apply in_app_or in H. destruct H as [H|H]; [rewrite Forall_forall in F1; destruct (F1 _ H)|].
      apply in_app_or in H. destruct H as [H|H].
      + destruct (Msg _ _ H) as [K M]. cbn in M. split; auto. rewrite Tk; auto.
      + destruct (ai_asked _ _ A _ _ H) as [K M]. split; auto. rewrite Tk; auto.
    - intros t e He. rewrite Er in He. destruct (ai_err _ _ A _ _ He) as [st [n [Q1 [Q2 Q3]]]]. exists st, n. split; [apply in_or_app; auto|]. split; auto. rewrite Tk; auto.
    - intros st e n Hi. rewrite Er. apply in_app_or in Hi. destruct Hi as [Hi|[Hi|[]]]; [|discriminate]. eapply ai_raise; eauto.
  Qed.
  Lemma ai_serve ms h i cut sv l ps f : AI ms h -> sv_stop (h_sv h) = false -> hinput_ok h i ->
    iteration up down maxr fuel init i (h_sv h) = Ok sv -> sv_tr sv = l ++ sv_tr (h_sv h) ->
    on_all nw mbf cut (pool_acts l ++ [Pool.PHealth]) (h_ps h) (fun s => deliver s l (taken (i_get i) s (h_w h s))) = Ok (ps, f) ->
    AI (ms ++ [AMove (HServe i cut)]) (Whole sv ps f).
  Proof. intros. eapply ah_serve; eauto using hears_of. Qed.
  Lemma ai_put ms h m st w : AI ms h -> w_task w = w_task (h_w h st) -> (wok (sv_tr (h_sv h)) st (h_w h st) -> wok (sv_tr (h_sv h)) st w) ->
    aserved [m] = [] -> (forall s x n, m <> ARaise s x n) -> AI (ms ++ [m]) (hput h st w).
  Proof.
    intros A Et Wk Sv Nr. apply (ai_idle ms h m _ []); auto.
    - intros e [].
    - intros s x n E. destruct (Nr _ _ _ E).
    - intros j Hj. cbn [hput h_w]. destruct (Nat.eqb_spec j st) as [->|]; split; auto; try (apply A; exact Hj). apply Wk. apply A. exact Hj.
  Qed.
  Lemma ai_leave ms h m st c w : AI ms h -> w_task w = w_task (h_w h st) -> (wok (sv_tr (h_sv h)) st (h_w h st) -> wok (sv_tr (h_sv h)) st w) ->
    aserved [m] = [] -> (forall s x n, m <> ARaise s x n) ->
    AI (ms ++ [m]) (Whole (h_sv h) (fst (Pool.pstep nw mbf (Pool.PExit st c) (h_ps h))) (fun s => if Nat.eqb s st then w else h_w h s)).
  Proof.
    intros A Et Wk Sv Nr. apply (ai_idle ms h m _ [Pool.PExit st c]); auto.
    - intros e [<-|[]]. eauto.
    - intros s x n E. destruct (Nr _ _ _ E).
    - intros j Hj. cbn [h_w]. destruct (Nat.eqb_spec j st) as [->|]; split; auto; try (apply A; exact Hj). apply Wk. apply A. exact Hj.
  Qed.
  Lemma wok_out tr j w p o r : wok tr j w -> (forall m, In m o -> mok tr j (w_task w) m) -> incl r (w_in w) -> (forall pb, p = Working pb -> In (ASend j pb) tr) ->
    wok tr j (Worker (w_task w) p o r).
  Proof. intros [A B C] H1 H2 H3. constructor; cbn; auto. Qed.
  Lemma ai_step ms h m h' : AI ms h -> astep h m h' -> AI (ms ++ [m]) h'.
  Proof.
    intros A S. destruct S as [m h' S|st e n Al|st s n c pb Al At].
    - destruct S as [st t o r Al Ew|st t o r Al Ew|st t o pb r Al Ew|st t o r Al Ew|st t o pb r out Al Ew No|st Al Ew|st n c t p o r Al Ew D|i cut sv l ps f Sp Io E El Eo].
      + apply ai_put; auto; try discriminate; rewrite Ew; auto. intros [B1 B2 B3]. constructor; cbn in *; auto. discriminate.
      + apply ai_put; auto; try discriminate; rewrite Ew; auto. intros [B1 B2 B3]. constructor; cbn in *; auto; try discriminate.
        intros m Hm. apply in_app_or in Hm. destruct Hm as [Hm|[<-|[]]]; auto. reflexivity.
      + apply ai_put; auto; try discriminate; rewrite Ew; auto. intros [B1 B2 B3]. constructor; cbn in *; auto. intros pb' Q. injection Q as <-. auto.
      + apply ai_put; auto; try discriminate; rewrite Ew; auto. intros [B1 B2 B3]. constructor; cbn in *; auto. discriminate.
      + apply ai_put; auto; try discriminate; rewrite Ew; auto. intros [B1 B2 B3]. constructor; cbn in *; auto; try discriminate.
        intros m Hm. apply in_app_or in Hm. destruct Hm as [Hm|Hm]; auto. eapply returned_mok; eauto.
      + apply (ai_idle ms h _ _ [Pool.PExit st 0]); auto; try discriminate.
        * intros e [<-|[]]. eauto.
        * intros j Hj. cbn. split; auto. apply A. exact Hj.
      + apply ai_leave; auto; try discriminate; rewrite Ew; auto. intros W. apply (la_cut _ (wok_lasting _) _ _ n W).
      + eapply ai_serve; eauto.
    - assert (K : tb h st <> None) by (destruct Al as [t Ht]; unfold proc in Ht; congruence).
      assert (Ht : In (w_task (h_w h st)) keys).
      { destruct (tb h st) as [[t s]|] eqn:Et; [|congruence]. destruct (ai_procs _ _ A _ _ _ Et) as [_ [P2 P3]]. rewrite P3. exact P2. }
      assert (Wk : forall j, tb h j <> None -> w_task (h_w (leave nw mbf h (queued nw mbf (h_ps h) (w_task (h_w h st)) e) st 0 (firstn n (w_out (h_w h st)))) j) = w_task (h_w h j) /\
                 wok (sv_tr (h_sv h)) j (h_w (leave nw mbf h (queued nw mbf (h_ps h) (w_task (h_w h st)) e) st 0 (firstn n (w_out (h_w h st)))) j)).
      { intros j Hj. cbn [leave h_w]. destruct (Nat.eqb_spec j st) as [->|]; split; auto; try (apply A; exact Hj). apply la_cut; [apply wok_lasting|]. apply A. exact Hj. }
      unfold queued in *. destruct (length (Pool.ps_err (h_ps h) (w_task (h_w h st))) <? 100)%nat eqn:L.
      + apply (ai_idle ms h _ _ [Pool.PError (w_task (h_w h st)) e; Pool.PExit st 0]); auto.
        * intros x [<-|[<-|[]]]; [right|left; eauto]. exists st, e. split; auto. split; auto. eauto.
        * intros st' x n' _. exists (w_task (h_w h st)). split; auto. cbn. rewrite Nat.eqb_refl. destruct (Pool.ps_err _ _); discriminate.
      + apply (ai_idle ms h _ _ [Pool.PExit st 0]); auto.
        * intros x [<-|[]]. left. eauto.
        * intros st' x n' _. exists (w_task (h_w h st)). split; auto. cbn. intros Q. rewrite Q in L. discriminate.
    - apply (ai_idle ms h _ _ [Pool.PExit st c]); auto; try discriminate; [intros e [<-|[]]; eauto|].
      intros j Hj. cbn [leave broken hput h_w]. destruct (Nat.eqb_spec j st) as [->|Nj]; [|destruct (Nat.eqb_spec j st); [contradiction|]; split; auto; apply A; exact Hj].
      rewrite Nat.eqb_refl. split; [reflexivity|]. destruct (ai_wok _ _ A st Hj) as [B1 B2 B3]. constructor; cbn; try tauto; try discriminate.
      intros m Hm. assert (Hm' : In m (w_out (h_w h st) ++ returned st pb (Client.Interrupted s))) by (rewrite <- (firstn_skipn n); apply in_or_app; auto).
      apply in_app_or in Hm'. destruct Hm' as [Hm'|Hm']; auto. eapply returned_mok; eauto.
  Qed.
  Lemma ai_init : AI [] h0.
  Proof.
    pose proof SE as C. destruct C. unfold whole_init in se_start0.
    destruct (server_init init ids false s0) as [sv|] eqn:Es; [|discriminate]. cbn [bind] in se_start0.
    destruct (on_all _ _ _ _ _ _) as [[ps f]|] eqn:Eo; [|discriminate]. cbn in se_start0. injection se_start0 as <-.
    destruct (init_recruited init _ _ _ Es) as [Rc Fl].
    assert (T0 : P_PoolFail.told nw mbf keys no_process [] (Pool.pools_init keys no_process)) by constructor.
    assert (Ev : Forall (ev_ok keys (sv_started sv) (Pool.pools_init keys no_process)) (pool_acts (sv_tr sv)) /\ forall t x, ~ In (Pool.PError t x) (pool_acts (sv_tr sv))).
    { assert (X : forall e, In e (pool_acts (sv_tr sv)) -> exists ts, e = Pool.PRecruit ts /\ incl ts (sv_started sv)).
      { intros e He. unfold pool_acts in He. apply in_flat_map in He. destruct He as [a [Ha He]]. apply in_rev in Ha.
        destruct a as [| | |n| | |ts| | |]; try (destruct He; fail).
        - destruct n as [| | | |pb w|]; try (destruct He; fail).
          assert (Q : In (pb, w) (fails (sv_tr sv))); [|rewrite Fl in Q; destruct Q].
          unfold fails. apply in_flat_map. exists (ANote (NFailure pb w)). rewrite <- in_rev. split; auto. left. reflexivity.
        - destruct He as [<-|[]]. exists ts. split; auto. intros t Ht. apply Rc. exists ts. auto. }
      split; [apply Forall_forall; intros e He; destruct (X e He) as [ts [-> Q]]; exact Q|]. intros t x He. destruct (X _ He) as [ts [Q _]]. discriminate. }
    destruct Ev as [Ev NE].
    assert (Nb : forall st m, ~ In (ARecv st m) (sv_tr sv)).
    { intros st m H. unfold server_init in Es. destruct (recruit_spec init _ _ Es) as [_ [_ [_ [_ [l [E F]]]]]]. rewrite E in H. cbn [sv_tr] in H. rewrite app_nil_r in H.
      destruct H as [H|H]; [discriminate|]. rewrite Forall_forall in F. destruct (F _ H) as [? [[Q|Q] _]]; discriminate. }
    assert (P0 : procs keys (sv_started sv) (Pool.pools_init keys no_process) (fun _ => Worker 0 Unborn [] [])) by (intros j t s Hj; discriminate).
    assert (W0 : forall j, Pool.tbl (Pool.ps_sys (Pool.pools_init keys no_process)) j <> None -> wok (sv_tr sv) j (Worker 0 Unborn [] [])) by (intros j Hj; cbn in Hj; congruence).
    destruct (on_all_all nw mbf keys (sv_started sv) (wok (sv_tr sv)) (fun _ => 0%nat) (wok_lasting _) _ _ _ _ _ _ T0 Ev P0 W0 Eo) as [T' [P' [W' [K' Q']]]].
    pose proof (on_all_no_err nw mbf _ _ _ _ _ _ Eo NE) as Er. cbn in Er.
    constructor; cbn [h_sv h_ps h_w]; auto.
    - constructor; auto; [constructor|]. unfold server_pipe. rewrite Es. cbn [bind]. cbn. destruct (sv_stop sv); reflexivity.
    - split; intros l2 st; intros; exfalso; eapply (Nb st); rewrite H; apply in_or_app; right; left; reflexivity.
    - exists (pool_acts (sv_tr sv)). split; auto. intros t w. apply acts_reports.
    - intros st t H. destruct (Nb _ _ H).
    - intros t e He. rewrite Er in He. destruct He.
    - intros st e n [].
  Qed.
  Lemma ai_runs ms h : aruns h0 ms h -> AI ms h.
  Proof. intros R. induction R; [apply ai_init|]. eapply ai_step; eauto. Qed.
End Run.
