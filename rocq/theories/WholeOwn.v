(* Which blocks the workers have, in every run whatever the workers do (WholeAny.v): the invariant of the server with its
   workers (SysFacts.v), kept by the runs of WholeAny.v. *)
From Coq Require Import Arith Lia Permutation.
From Verif Require Import SchedProps SchedExec DGFacts2 PipeRun P_SchedCE P_Sched SerialFacts P_Conv P_Serial ServerFacts ServerSteps
  ServerIdle P_Server P_Server2 P_ServerCE P_Outcome P_Notify PoolAll P_PoolFail.
From Verif Require Client Pool P_Pool.
From Verif Require Import Sys SysFacts SysMeasure SysTrace WholeSrv WholeSim WholeAny WholeAll WholeRun.
Open Scope Z_scope.

(* what becomes of the workers when something is done to the processes *)
Definition fresh_worker (w : worker) : Prop := w_at w = Dead \/ w_at w = Unborn /\ w_out w = [] /\ w_in w = [].
Section OnAll.
  Variable nw : nat -> Z.
  Variable mbf : Z.
  Variable keys : list nat.
  Local Notation tb ps := (Pool.tbl (Pool.ps_sys ps)).
  Lemma on_all_cases S cut : forall evs es ps f ps' f', P_PoolFail.told nw mbf keys no_process es ps -> Forall (ev_ok keys S ps) evs -> procs keys S ps f ->
    on_all nw mbf cut evs ps f = Ok (ps', f') ->
    (forall j, tb ps j <> None -> f' j = f j \/ w_at (f' j) = Dead) /\ (forall j, tb ps j = None -> tb ps' j <> None -> fresh_worker (f' j)).
  Proof.
    induction evs as [|e evs IH]; intros es ps f ps' f' T Ok P; cbn [on_all].
    - intros H. injection H as <- <-. split; auto. congruence.
    - destruct (Pool.pstep nw mbf e ps) as [ps1 [x|]] eqn:E; [discriminate|]. intros H. inversion Ok as [|? ? O1 O2]; subst.
      destruct (pools_step nw mbf keys S (fun _ _ => True) cut es ps f e ps1) as [T1 [P1 [_ [K1 _]]]]; auto; [constructor; auto|rewrite E; reflexivity|].
      destruct (IH (es ++ [e]) ps1 (sync cut ps ps1 f) ps' f') as [A B]; auto.
      { eapply Forall_impl; [|exact O2]. intros a. apply ev_ok_more. exact K1. }
      split.
      + intros j Hj. assert (Hj1 : tb ps1 j <> None) by (destruct (tb ps j) as [[t s]|] eqn:Ej; [destruct (K1 _ _ _ Ej) as [s' ->]; discriminate|congruence]).
        assert (C : sync cut ps ps1 f j = f j \/ w_at (sync cut ps ps1 f j) = Dead).
        { unfold sync. destruct (tb ps j) as [[t s]|]; [|congruence]. destruct s; auto. destruct (tb ps1 j) as [[t1 [|c]]|]; auto. }
        destruct (A j Hj1) as [Q|Q]; auto. rewrite Q. exact C.
      + intros j Hj Hj'. destruct (tb ps1 j) as [[t s]|] eqn:E1; [|apply B; auto].
        assert (C : fresh_worker (sync cut ps ps1 f j)) by (unfold sync; rewrite Hj, E1; destruct s; unfold fresh_worker; auto 6).
        destruct (A j) as [Q|Q]; [congruence|rewrite Q; exact C|left; exact Q].
  Qed.
  Lemma on_all_fresh cut : forall evs ps f ps' f', (forall j, fresh_worker (f j)) -> on_all nw mbf cut evs ps f = Ok (ps', f') -> forall j, fresh_worker (f' j).
  Proof.
    induction evs as [|e evs IH]; intros ps f ps' f' F; cbn [on_all]; [intros H; injection H as <- <-; exact F|].
    destruct (Pool.pstep nw mbf e ps) as [ps1 [x|]]; [discriminate|]. apply IH. intros j. unfold sync.
    destruct (tb ps j) as [[t [|c]]|], (tb ps1 j) as [[t1 [|c1]]|]; auto; unfold fresh_worker; cbn; auto.
  Qed.
End OnAll.

Section Own.
  Variables (tasks : list task) (ord : list block -> list block) (ordt : list nat -> list nat) (d : dgraph) (s0 : sched) (fuel : nat).
  Variables (init : nat -> res unit) (nw : nat -> Z) (mbf : Z) (h0 : whole).
  Hypothesis SE : setup tasks ord ordt d s0 fuel init nw mbf h0.
  Local Notation V := (pblocks d).
  Local Notation up := (dg_up ord ordt d).
  Local Notation down := (dg_down ord ordt d).
  Local Notation maxr := (dg_max_retries d).
  Local Notation ids := (map t_id tasks).
  Local Notation keys := (dedup Nat.eqb ids).
  Local Notation astep := (astep up down maxr fuel init nw mbf).
  Local Notation aruns := (aruns up down maxr fuel init nw mbf).
  Local Notation AI := (AI tasks ord ordt d s0 fuel init nw mbf).
  Local Notation YInv := (YInv V up down maxr fuel s0 ids).
  Local Notation tb h := (Pool.tbl (Pool.ps_sys (h_ps h))).
  Local Notation pend h := (sv_pend (h_sv h)).
  Local Notation bk h := (sv_book (h_sv h)).

  Record Own (h : whole) : Prop := {
    ow_talk : forall st, tb h st <> None -> talk (pend h) (bk h) st (h_w h st) /\ w_at (h_w h st) <> Replaced;
    ow_queue : forall t st, qin (pend h) t st -> tb h st <> None /\ w_task (h_w h st) = t /\ w_at (h_w h st) <> Unborn;
    ow_book : forall e, In e (bk h) -> tb h (owner e) <> None /\ w_task (h_w h (owner e)) = b_task (blk e) /\ w_at (h_w h (owner e)) <> Unborn
  }.
  Definition crew (h : whole) : list nat := seq 0 (Pool.nxt (Pool.ps_sys (h_ps h))).
  Lemma crew_in ms h st : AI ms h -> (In st (crew h) <-> tb h st <> None).
  Proof.
    intros A. destruct (ai_told _ _ _ _ _ _ _ _ _ _ _ A) as [es [T _]]. destruct (told_sound nw mbf keys no_process no_process_ok _ _ T) as [[F _] _].
    unfold crew. rewrite in_seq. specialize (F st). destruct (tb h st) eqn:E; split; try congruence.
    - intros _. destruct (Nat.lt_ge_cases st (Pool.nxt (Pool.ps_sys (h_ps h)))) as [H|H]; [lia|]. apply F in H. discriminate.
    - intros H. exfalso. destruct F as [F _]. specialize (F eq_refl). lia.
  Qed.
  Lemma own_msg ms h st m : AI ms h -> tb h st <> None -> In m (w_out (h_w h st)) -> msg_ok V (h_sv h) (w_task (h_w h st)) m.
  Proof.
    intros A K Hm. pose proof (wo_out _ _ _ (ai_wok _ _ _ _ _ _ _ _ _ _ _ A st K) m Hm) as M.
    assert (B : forall b, sent_to (sv_tr (h_sv h)) st b -> In b V) by (intros b [pb [Hp <-]]; eapply ai_sent; eauto).
    destruct m as [t|pb|pb w|e|]; cbn in M |- *; auto.
    - destruct M as [M1 M2]. split; auto.
    - destruct M as [M1 _]. split; auto. destruct M1 as [pb' [Hp E]]. exists st, pb'. auto.
  Qed.
  Lemma own_yinv ms h : AI ms h -> Own h -> YInv None (h_sv h) (crew h) (h_w h).
  Proof.
    intros A [O1 O2 O3]. pose proof (crew_in ms h) as C.
    assert (P : forall st, tb h st <> None -> In (w_task (h_w h st)) (sv_started (h_sv h)) /\ In (w_task (h_w h st)) keys).
    { intros st K. destruct (tb h st) as [[t s]|] eqn:E; [|congruence]. destruct (ai_procs _ _ _ _ _ _ _ _ _ _ _ A _ _ _ E) as [P1 [P2 ->]]. auto. }
    constructor.
    - apply (a_sinv _ _ _ _ _ _ _ _ _ _ (ai_server _ _ _ _ _ _ _ _ _ _ _ A)).
    - apply seq_NoDup.
    - intros st H. apply (keys_in tasks). apply P. apply C; auto.
    - intros st H _. apply P. apply C; auto.
    - intros st m H Hm. eapply own_msg; eauto. apply C; auto.
    - intros st H. apply O1. apply C; auto.
    - intros t st H. destruct (O2 t st H) as [H1 [H2 H3]]. split; auto. apply C; auto.
    - intros e H. destruct (O3 e H) as [H1 [H2 H3]]. split; auto. apply C; auto.
  Qed.
  (* only the worker st changes, or becomes known *)
  Lemma own_put h ps st w : Own h -> tb h st <> None -> (forall j, tb h j <> None <-> Pool.tbl (Pool.ps_sys ps) j <> None) ->
    w_task w = w_task (h_w h st) -> w_at w <> Unborn -> w_at w <> Replaced ->
    (talk (pend h) (bk h) st (h_w h st) -> talk (pend h) (bk h) st w) ->
    Own (Whole (h_sv h) ps (fun s => if Nat.eqb s st then w else h_w h s)).
  Proof.
    intros [O1 O2 O3] K Kn Et Nu Nr Tk. constructor; cbn [h_sv h_ps h_w].
    - intros s Hs. apply Kn in Hs. destruct (Nat.eqb_spec s st) as [->|]; auto. split; auto. apply Tk. apply O1. exact K.
    - intros t s Hq. destruct (O2 t s Hq) as [H1 [H2 H3]]. split; [apply Kn; auto|]. destruct (Nat.eqb_spec s st) as [->|]; auto. rewrite Et. auto.
    - intros e He. destruct (O3 e He) as [H1 [H2 H3]]. split; [apply Kn; auto|]. destruct (Nat.eqb_spec (owner e) st) as [E|]; auto. rewrite Et, <- E. auto.
  Qed.
  Lemma exit_known ps w c : sound ps -> forall j, Pool.tbl (Pool.ps_sys ps) j <> None <-> Pool.tbl (Pool.ps_sys (fst (Pool.pstep nw mbf (Pool.PExit w c) ps))) j <> None.
  Proof.
    intros Sd j. destruct (exit_sound nw mbf w c ps Sd) as [_ [Tb _]]. rewrite Tb. destruct (Pool.tbl (Pool.ps_sys ps) j) as [[t s]|]; [|tauto].
    destruct s; [destruct (Nat.eqb _ _)|]; split; congruence.
  Qed.
  Lemma ai_sound ms h : AI ms h -> sound (h_ps h).
  Proof. intros A. destruct (ai_told _ _ _ _ _ _ _ _ _ _ _ A) as [es [T _]]. apply (told_sound nw mbf keys no_process no_process_ok _ _ T). Qed.
  Lemma own_serve ms h i cut sv l ps f : AI ms h -> Own h -> hinput_ok h i ->
    iteration up down maxr fuel init i (h_sv h) = Ok sv -> sv_tr sv = l ++ sv_tr (h_sv h) ->
    on_all nw mbf cut (pool_acts l ++ [Pool.PHealth]) (h_ps h) (fun s => deliver s l (taken (i_get i) s (h_w h s))) = Ok (ps, f) ->
    Own (Whole sv ps f).
  Proof.
    intros A O Io E El Eo. pose proof (own_yinv ms h A O) as Y. pose proof (crew_in ms h) as C. pose proof (ai_server _ _ _ _ _ _ _ _ _ _ _ A) as R.
    assert (G : input_ok (Sys (h_sv h) (crew h) (h_w h)) i).
    { destruct Io as [H1 [H2 H3]]. unfold input_ok. cbn [y_sv y_team y_w]. split; auto. split; [|split].
      - destruct (i_get i); auto. destruct H2 as [K H2]. split; auto. apply C; auto.
      - intros st Hc. destruct (H3 st Hc) as [K H4]. split; auto. apply C; auto.
      - intros st Hs Hr. destruct (ow_talk _ O st) as [_ N]; [apply C; auto|congruence]. }
    destruct (iter_yinv V up down (root_seeds d) maxr fuel (a_good _ _ _ _ _ _ _ _ _ _ R) (a_enough _ _ _ _ _ _ _ _ _ _ R) s0 (a_fresh _ _ _ _ _ _ _ _ _ _ R)
      ids (a_known _ _ _ _ _ _ _ _ _ _ R) init (se_callback _ _ _ _ _ _ _ _ _ _ SE) i (h_sv h) sv l (crew h) (h_w h) Y G E El) as [Y1 _].
    destruct (ai_events tasks ord ordt d s0 fuel init nw mbf _ _ _ _ _ A Io E El) as [Ev [_ [_ Pr]]]. destruct (ai_told _ _ _ _ _ _ _ _ _ _ _ A) as [es [T _]].
    destruct (on_all_cases nw mbf keys (sv_started sv) cut _ _ _ _ _ _ T Ev Pr Eo) as [F1 F2].
    destruct (on_all_all nw mbf keys (sv_started sv) (fun _ _ => True) cut ltac:(constructor; auto) _ _ _ _ _ _ T Ev Pr (fun _ _ => I) Eo) as [_ [_ [_ [K' Q']]]].
    assert (Kn : forall j, tb h j <> None -> Pool.tbl (Pool.ps_sys ps) j <> None).
    { intros j Hj. destruct (tb h j) as [[t s]|] eqn:Ej; [|congruence]. destruct (K' _ _ _ Ej) as [s' ->]. discriminate. }
    destruct Y1 as [A1 A2 A3 A4 A5 A6 A7 A8]. constructor; cbn [h_sv h_ps h_w].
    - intros st Hst. destruct (tb h st) as [[t s]|] eqn:Ej.
      + assert (Kj : tb h st <> None) by congruence. destruct (F1 st Kj) as [-> | D].
        * split; [apply (A6 st); apply C; auto|]. rewrite at_moved. apply O. exact Kj.
        * unfold talk. rewrite D. split; auto. discriminate.
      + destruct (F2 st Ej Hst) as [D|[D [D1 D2]]]; unfold talk; rewrite D; (split; [|discriminate]); auto.
        rewrite D1, D2. split; auto. split; auto. split.
        * unfold waits. apply count_occ_not_In. intros H. apply in_flat_map in H. destruct H as [[t' q] [H1 H2]].
          destruct (A7 t' st (ex_intro _ q (conj H1 H2))) as [H _]. apply C in H; auto.
        * apply free_iff. intros e He Oe. destruct (A8 e He) as [H _]. rewrite Oe in H. apply C in H; auto.
    - intros t st Hq. destruct (A7 t st Hq) as [H1 [H2 H3]]. apply C in H1; auto. split; auto. rewrite at_moved in H3. rewrite (Q' st H1). split; auto.
      destruct (F1 st H1) as [-> | ->]; [rewrite at_moved; auto|discriminate].
    - intros e He. destruct (A8 e He) as [H1 [H2 H3]]. apply C in H1; auto. split; auto. rewrite at_moved in H3. rewrite (Q' _ H1). split; auto.
      destruct (F1 _ H1) as [-> | ->]; [rewrite at_moved; auto|discriminate].
  Qed.
  Lemma queued_known ps t e : forall j, Pool.tbl (Pool.ps_sys ps) j <> None <-> Pool.tbl (Pool.ps_sys (queued nw mbf ps t e)) j <> None.
  Proof. intros j. unfold queued. destruct (_ <? _)%nat; cbn; reflexivity. Qed.
  Lemma queued_sound ps t e : sound ps -> sound (queued nw mbf ps t e).
  Proof. intros S. unfold queued. destruct (_ <? _)%nat; auto. Qed.
  Lemma own_step ms h m h' : AI ms h -> Own h -> astep h m h' -> Own h'.
  Proof.
    intros A O S. pose proof (ai_sound ms h A) as Sd.
    assert (Al' : forall st, alive h st -> tb h st <> None) by (intros st [t Ht]; unfold proc in Ht; congruence).
    destruct S as [m h' S|st e n Al|st s n c pb Al At].
    - destruct S as [st t o r Al Ew|st t o r Al Ew|st t o pb r Al Ew|st t o r Al Ew|st t o pb r out Al Ew No|st Al Ew|st n c t p o r Al Ew D|i cut sv l ps f Sp Io E El Eo].
      + apply own_put; auto; try tauto; try discriminate; rewrite Ew; auto. unfold talk. cbn. intros [-> [-> [B1 B2]]]. cbn. auto.
      + apply own_put; auto; try tauto; try discriminate; rewrite Ew; auto. unfold talk. cbn. intros [-> [B1 B2]]. left. exists o. auto.
      + apply own_put; auto; try tauto; try discriminate; rewrite Ew; auto.
        unfold talk. cbn. intros [[o' [_ [E _]]]|[[_ [E _]]|[[_ [E _]]|[pb' [-> [E [B1 B2]]]]]]]; try discriminate. injection E as <- ->. auto.
      + apply own_put; auto; try tauto; try discriminate; rewrite Ew; auto.
        unfold talk. cbn. intros [[o' [_ [E _]]]|[[_ [E _]]|[[-> [E [B1 B2]]]|[pb' [-> [E [B1 B2]]]]]]]; try discriminate. injection E as ->. auto.
      + apply own_put; auto; try tauto; try discriminate; rewrite Ew; auto. unfold talk. cbn. intros [-> [-> [B1 B2]]]. cbn [app].
        repeat split; auto. destruct (returned_forms st pb out No) as [[s [E Ok]]|E]; rewrite E; cbn; auto.
      + destruct O as [O1 O2 O3]. pose proof (exit_known (h_ps h) st 0 Sd) as K. constructor; cbn [h_sv h_ps h_w].
        * intros j Hj. apply O1. apply K. exact Hj.
        * intros t j Hq. destruct (O2 t j Hq) as [H1 H2]. split; auto. apply K. auto.
        * intros e He. destruct (O3 e He) as [H1 H2]. split; auto. apply K. auto.
      + apply own_put; auto; try discriminate; try (intros _; exact I); [apply exit_known; auto|rewrite Ew; auto].
      + eapply own_serve; eauto.
    - apply own_put; auto; try discriminate; try (intros _; exact I). intros j. rewrite (queued_known (h_ps h) (w_task (h_w h st)) e j). apply exit_known. apply queued_sound. exact Sd.
    - pose proof (own_put h (fst (Pool.pstep nw mbf (Pool.PExit st c) (h_ps h))) st
        (Worker (w_task (h_w h st)) Dead (firstn n (w_out (h_w h st) ++ returned st pb (Client.Interrupted s))) []) O (Al' _ Al) (exit_known _ _ _ Sd) eq_refl) as X.
      destruct X as [X1 X2 X3]; try discriminate; [intros _; exact I|]. cbn [h_sv h_ps h_w] in *.
      assert (Ef : forall j, h_w (leave nw mbf (broken h st pb s) (h_ps h) st c (firstn n (w_out (h_w h st) ++ returned st pb (Client.Interrupted s)))) j =
        if Nat.eqb j st then Worker (w_task (h_w h st)) Dead (firstn n (w_out (h_w h st) ++ returned st pb (Client.Interrupted s))) [] else h_w h j).
      { intros j. cbn [leave broken hput h_w]. destruct (Nat.eqb_spec j st) as [->|N]; [rewrite Nat.eqb_refl; reflexivity|reflexivity]. }
      constructor.
      + intros j Hj. rewrite Ef. apply X1. exact Hj.
      + intros t j Hq. rewrite Ef. apply X2. exact Hq.
      + intros e He. rewrite Ef. apply X3. exact He.
  Qed.
  Lemma own_init : Own h0.
  Proof.
    pose proof (se_start _ _ _ _ _ _ _ _ _ _ SE) as se_start0. unfold whole_init in se_start0.
    destruct (server_init init ids false s0) as [sv|] eqn:Es; [|discriminate]. cbn [bind] in se_start0.
    destruct (on_all _ _ _ _ _ _) as [[ps f]|] eqn:Eo; [|discriminate]. cbn in se_start0. injection se_start0 as <-.
    unfold server_init in Es. destruct (recruit_spec init _ _ Es) as [B _]. pose proof (be_book _ _ B) as Bb. pose proof (be_pend _ _ B) as Bp. cbn in Bb, Bp.
    assert (Q : forall t st, ~ qin (sv_pend sv) t st).
    { intros t st [q [H1 H2]]. rewrite Bp in H1. apply in_map_iff in H1. destruct H1 as [u [H1 _]]. injection H1 as _ <-. destruct H2. }
    constructor; cbn [h_sv h_ps h_w].
    - intros st _. assert (Fw : fresh_worker (f st)).
      { eapply (on_all_fresh nw mbf); [|exact Eo]. intros j. right. auto. }
      destruct Fw as [D|[D [D1 D2]]]; unfold talk; rewrite D; (split; [|discriminate]); auto. rewrite D1, D2, Bb. split; auto. split; auto. split; [|reflexivity].
      unfold waits. apply count_occ_not_In. intros H. apply in_flat_map in H. destruct H as [[t' q] [H1 H2]]. apply (Q t' st). exists q. auto.
    - intros t st H. destruct (Q _ _ H).
    - intros e He. rewrite Bb in He. destruct He.
  Qed.
  Lemma own_runs ms h : aruns h0 ms h -> Own h.
  Proof.
    intros R. induction R as [|ms h m h' R IH S]; [apply own_init|]. eapply own_step; eauto. eapply ai_runs; eauto.
  Qed.
End Own.
