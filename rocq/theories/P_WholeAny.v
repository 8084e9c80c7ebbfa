(* C63-C65: server, pools and workers together, whatever the workers do (WholeAny.v).  Nothing is assumed about the order
   of events, exit codes, exceptions, interrupts, or when the server notices that a connection is closed. *)
From Coq Require Import Arith Lia.
From Verif Require Import SchedProps SchedExec DGFacts2 PipeRun P_SchedCE P_Sched SerialFacts P_Conv P_Serial ServerFacts ServerSteps
  ServerIdle P_Server P_Server2 P_ServerCE P_Outcome P_Notify PoolAll P_PoolFail P_SysEx P_SysCE.
From Verif Require Client Pool P_Pool P_Whole P_WholeEx P_WholeCE.
From Verif Require Import Sys SysFacts SysMeasure SysTrace WholeFair WholeSrv WholeSim WholeAny WholeAll WholeRun.
Open Scope Z_scope.

(* the exceptions raised by workers of task t, oldest first ([h]: tells the tasks of the workers) *)
Definition raised (h : whole) (t : nat) (ms : list amove) : list exn :=
  flat_map (fun m => match m with ARaise st e _ => if Nat.eqb (w_task (h_w h st)) t then [e] else [] | _ => [] end) ms.
(* the move m (made in the state h) says that the body of b ended well, or that there was no need to run it *)
Definition claims (b : block) (h : whole) (m : amove) : Prop :=
  match m with
  | AMove (HFinish st o) => well o /\ exists pb, w_at (h_w h st) = Working pb /\ pb_block pb = b
  | ABreak st s _ _ => s = SUCCESS /\ exists pb, w_at (h_w h st) = Working pb /\ pb_block pb = b
  | AMove (HServe i _) => exists k, i_chk i k b = CheckTrue
  | _ => False
  end.

Section Any.
  Variables (tasks : list task) (ord : list block -> list block) (ordt : list nat -> list nat) (d : dgraph) (s0 : sched) (fuel : nat).
  Variables (init : nat -> res unit) (nw : nat -> Z) (mbf : Z) (h0 : whole).
  Hypothesis SE : setup tasks ord ordt d s0 fuel init nw mbf h0.
  Local Notation V := (pblocks d).
  Local Notation up := (dg_up ord ordt d).
  Local Notation down := (dg_down ord ordt d).
  Local Notation maxr := (dg_max_retries d).
  Local Notation ids := (map t_id tasks).
  Local Notation keys := (dedup Nat.eqb ids).
  Local Notation astep := (astep up down maxr fuel init nw mbf).
  Local Notation aruns := (aruns up down maxr fuel init nw mbf).
  Local Notation AI := (AI tasks ord ordt d s0 fuel init nw mbf).
  Local Notation tb h := (Pool.tbl (Pool.ps_sys (h_ps h))).
  Local Notation err h := (Pool.ps_err (h_ps h)).

  (* the work that was claimed *)
  Definition claimed (ms : list amove) (h : whole) (b : block) : Prop :=
    exists ms1 h1 m h2 ms2, ms = ms1 ++ m :: ms2 /\ aruns h0 ms1 h1 /\ astep h1 m h2 /\ aruns h2 ms2 h /\ claims b h1 m.
  Lemma claimed_more ms h b m h' : claimed ms h b -> astep h m h' -> claimed (ms ++ [m]) h' b.
  Proof.
    intros [ms1 [h1 [x [h2 [ms2 [E [R1 [S1 [R2 C]]]]]]]]] S. exists ms1, h1, x, h2, (ms2 ++ [m]). split; [subst; rewrite <- app_assoc; reflexivity|].
    split; auto. split; auto. split; auto. econstructor; eauto.
  Qed.
  Lemma claimed_now ms h b m h' : aruns h0 ms h -> astep h m h' -> claims b h m -> claimed (ms ++ [m]) h' b.
  Proof. intros R S C. exists ms, h, m, h', []. split; auto. split; auto. split; auto. split; auto. constructor. Qed.

  Definition mclaim ms h (m : message) : Prop := match m with MRelease pb => pb_status pb = SUCCESS -> claimed ms h (pb_block pb) | _ => True end.
  Definition CL ms h : Prop := (forall st m, In m (w_out (h_w h st)) -> mclaim ms h m) /\ forall b, succeeded (hist (sv_tr (h_sv h))) b -> claimed ms h b.
  Lemma sync_out cut ps ps' f j m : In m (w_out (sync cut ps ps' f j)) -> In m (w_out (f j)).
  Proof.
    unfold sync. destruct (Pool.tbl (Pool.ps_sys ps') j) as [[t [|c]]|]; destruct (Pool.tbl (Pool.ps_sys ps) j) as [[t' [|c']]|]; cbn; auto; try tauto;
      intros H; rewrite <- (firstn_skipn (cut j) (w_out (f j))); apply in_or_app; auto.
  Qed.
  Lemma on_all_out cut : forall evs ps f ps' f', on_all nw mbf cut evs ps f = Ok (ps', f') -> forall j m, In m (w_out (f' j)) -> In m (w_out (f j)).
  Proof.
    induction evs as [|e evs IH]; intros ps f ps' f'; cbn [on_all]; [intros H; injection H as <- <-; auto|].
    destruct (Pool.pstep nw mbf e ps) as [ps1 [x|]]; [discriminate|]. intros H j m Hm. eapply sync_out. eapply IH; eauto.
  Qed.
  Lemma cl_step ms h m h' : aruns h0 ms h -> CL ms h -> astep h m h' -> CL (ms ++ [m]) h'.
  Proof.
    intros R [C1 C2] S.
    assert (OLD : forall x, mclaim ms h x -> mclaim (ms ++ [m]) h' x) by (intros x; destruct x; cbn; auto; intros H E; eapply claimed_more; eauto).
    assert (X : h_sv h' = h_sv h -> (forall st x, In x (w_out (h_w h' st)) -> In x (w_out (h_w h st)) \/ mclaim (ms ++ [m]) h' x) -> CL (ms ++ [m]) h').
    { intros Ev Ho. split; [intros st x Hx; destruct (Ho st x Hx) as [Q|Q]; auto; apply OLD; eauto|]. rewrite Ev. intros b Hb. eapply claimed_more; eauto. }
    destruct S as [m h' S|st e n Al|st s n c pb Al At].
    - destruct S as [st t o r Al Ew|st t o r Al Ew|st t o pb r Al Ew|st t o r Al Ew|st t o pb r out Al Ew No|st Al Ew|st n c t p o r Al Ew D|i cut sv l ps f Sp Io Ei El Eo].
      1-5: apply X; auto; cbn [hput h_w]; intros j x; destruct (Nat.eqb_spec j st) as [->|]; auto; cbn [w_out]; rewrite Ew; cbn [w_out]; auto.
      + intros Hx. apply in_app_or in Hx. destruct Hx as [Hx|[<-|[]]]; auto. right. exact I.
      + intros Hx. apply in_app_or in Hx. destruct Hx as [Hx|Hx]; auto. right. destruct x as [|pb'| | |]; try exact I. intros Es.
        apply (claimed_now ms h _ _ _ R).
        * apply as_move. apply hs_finish; auto.
        * cbn. rewrite Ew. cbn [w_at]. destruct out as [s|s|s]; [| |destruct (No s eq_refl)].
          -- destruct s; cbn in Hx; destruct Hx as [Hx|[]]; injection Hx as <-; cbn in *; try discriminate Es; eauto.
          -- cbn in Hx. destruct Hx as [Hx|[Hx|[]]]; [discriminate|]. injection Hx as <-. discriminate Es.
      + apply X; auto.
      + apply X; auto. cbn [h_w]. intros j x. destruct (Nat.eqb_spec j st) as [->|]; auto. cbn [w_out]. rewrite Ew. cbn [w_out]. intros Hx. left.
        rewrite <- (firstn_skipn n). apply in_or_app. auto.
      + assert (S' : astep h (AMove (HServe i cut)) (Whole sv ps f)) by (apply as_move; eapply hs_serve; eauto).
        set (M := ms ++ [AMove (HServe i cut)]) in *. set (h' := Whole sv ps f) in *. split.
        * intros j x Hx. apply OLD. apply (C1 j). cbn [h' h_w] in Hx. apply (on_all_out _ _ _ _ _ _ Eo) in Hx. unfold deliver in Hx. cbn [w_out] in Hx.
          unfold taken in Hx. destruct (i_get i); auto. destruct (Nat.eqb _ _); auto. cbn [w_out] in Hx. destruct (w_out (h_w h j)); [destruct Hx|right; exact Hx].
        * set (RR := fun pb : pyblock => pb_status pb = SUCCESS -> claimed M h' (pb_block pb)). set (KK := fun b : block => claimed M h' b).
          assert (HK : forall k b, i_chk i k b = CheckTrue -> KK b) by (intros k b Hk; eapply claimed_now; eauto; exists k; exact Hk).
          destruct (iter_split up down maxr fuel init i _ _ Ei) as [a [b1 [Ea [Eb Ey]]]].
          apply (msgs_adds up down maxr fuel init RR KK) in Ea; [| |exact HK].
          2:{ intros st m pb Gm Tm. destruct Io as [_ [Gi _]]. rewrite Gm in Gi. destruct Gi as [_ [r Er]].
              assert (Q : mclaim M h' m) by (apply OLD; apply (C1 st); rewrite Er; left; reflexivity).
              destruct m; cbn in Tm; try tauto; subst pb; [exact Q|]. intros E. discriminate E. }
          apply (lost_adds up down maxr fuel init RR KK) in Eb; [|intros c E; discriminate E].
          assert (A2 : adds RR KK b1 sv).
          { subst sv. destruct (i_tick i); [apply adds_besides, check_all_spec|apply adds_refl; reflexivity]. }
          destruct (adds_trans _ _ _ _ _ (adds_trans _ _ _ _ _ Ea Eb) A2) as [l1 [E1 F1]]. cbn [add_tr sv_tr] in E1. cbn [h' h_sv]. intros b Hb.
          assert (Q : forall e, In e (hist (sv_tr sv)) -> In (ACall e) l1 \/ In e (hist (sv_tr (h_sv h)))).
          { intros e He. rewrite E1 in He. unfold hist in He. rewrite !flat_map_app in He. apply in_app_or in He. destruct He as [He|He].
            - left. apply in_flat_map in He. destruct He as [y [Hy He]]. destruct y; try (destruct He; fail). destruct He as [<-|[]]. exact Hy.
            - right. apply in_app_or in He. destruct He as [He|He]; auto. exfalso. unfold recv in He. destruct (i_get i); destruct He. }
          rewrite Forall_forall in F1. destruct Hb as [Hb|Hb]; destruct (Q _ Hb) as [Hn|Ho].
          -- exact (F1 _ Hn).
          -- eapply claimed_more; [|exact S']. apply C2. left. exact Ho.
          -- exact (F1 _ Hn eq_refl).
          -- eapply claimed_more; [|exact S']. apply C2. right. exact Ho.
    - apply X; auto. cbn [leave h_w]. intros j x. destruct (Nat.eqb_spec j st) as [->|]; auto. cbn [w_out]. intros Hx. left.
      rewrite <- (firstn_skipn n). apply in_or_app. auto.
    - apply X; auto. cbn [leave broken hput h_w]. intros j x. destruct (Nat.eqb_spec j st) as [->|Nj]; [|auto]. cbn [w_out]. intros Hx.
      assert (Hx' : In x (w_out (h_w h st) ++ returned st pb (Client.Interrupted s))) by (rewrite <- (firstn_skipn n); apply in_or_app; auto).
      apply in_app_or in Hx'. destruct Hx' as [Hx'|Hx']; auto. right. destruct x as [|pb'| | |]; try exact I. intros Es.
      apply (claimed_now ms h _ _ _ R).
      + eapply as_break; eauto.
      + cbn. destruct s; cbn in Hx'; destruct Hx' as [Hx'|[]]; injection Hx' as <-; cbn in *; try discriminate Es; eauto.
  Qed.
  Lemma cl_init : CL [] h0.
  Proof.
    pose proof SE as C. destruct C. unfold whole_init in se_start.
    destruct (server_init init ids false s0) as [sv|] eqn:Es; [|discriminate]. cbn [bind] in se_start.
    destruct (on_all _ _ _ _ _ _) as [[ps f]|] eqn:Eo; [|discriminate]. cbn in se_start. injection se_start as <-. split; cbn [h_w h_sv].
    - intros st m Hm. apply (on_all_out _ _ _ _ _ _ Eo) in Hm. destruct Hm.
    - intros b Hb. exfalso. assert (Q : hist (sv_tr sv) = []); [|rewrite Q in Hb; destruct Hb as [[]|[]]].
      unfold server_init in Es. destruct (recruit_spec init _ _ Es) as [_ [_ [_ [_ [l [E F]]]]]]. rewrite E. cbn [sv_tr]. rewrite app_nil_r. cbn.
      clear -F. induction F as [|a l [t [[->| ->] _]] F IH]; auto.
  Qed.
  Lemma cl_runs ms h : aruns h0 ms h -> CL ms h.
  Proof. intros R. induction R as [|ms h m h' R IH S]; [apply cl_init|]. eapply cl_step; eauto. Qed.

  (* the exceptions that wait in the queue of a pool *)
  Lemma step_kept ms h m h' : AI ms h -> astep h m h' ->
    (forall j, tb h j <> None -> w_task (h_w h' j) = w_task (h_w h j) /\ tb h' j <> None) /\
    forall t, err h' t = match m with
                        | ARaise st e _ => if Nat.eqb (w_task (h_w h st)) t then firstn 100 (err h t ++ [e]) else err h t
                        | _ => err h t end \/ (100 < length (err h t))%nat.
  Proof.
    intros A S.
    assert (KX : forall ps st c j, Pool.tbl (Pool.ps_sys ps) j <> None -> Pool.tbl (Pool.ps_sys (fst (Pool.pstep nw mbf (Pool.PExit st c) ps))) j <> None).
    { intros ps st c j Hj. cbn [Pool.pstep fst Pool.ps_sys]. destruct (Pool.tbl (Pool.ps_sys ps) st) as [[u [|c']]|]; auto. unfold Pool.set_proc. cbn [Pool.tbl]. destruct (Nat.eqb_spec st j); [discriminate|auto]. }
    destruct S as [m h' S|st e n Al|st s n c pb Al At].
    - destruct S as [st t o r Al Ew|st t o r Al Ew|st t o pb r Al Ew|st t o r Al Ew|st t o pb r out Al Ew No|st Al Ew|st n c t p o r Al Ew D|i cut sv l ps f Sp Io E El Eo].
      1-5: split; auto; intros j Hj; cbn [hput h_w h_ps]; split; auto; destruct (Nat.eqb_spec j st) as [->|]; auto; rewrite Ew; reflexivity.
      + split; auto. intros j Hj. split; auto. cbn [h_ps]. apply KX. exact Hj.
      + split; auto. intros j Hj. cbn [h_w h_ps]. split; [|apply KX; exact Hj]. destruct (Nat.eqb_spec j st) as [->|]; auto. rewrite Ew. reflexivity.
      + destruct (ai_events _ _ _ _ _ _ _ _ _ _ _ _ _ _ A Io E El) as [Ev [NH [NE Pr]]]. destruct (ai_told _ _ _ _ _ _ _ _ _ _ _ A) as [es [T _]].
        assert (Wf : forall j, tb h j <> None -> wok (l ++ sv_tr (h_sv h)) j (deliver j l (taken (i_get i) j (h_w h j)))).
        { intros j Hj. apply wok_served. eapply ai_wok; eauto. }
        destruct (on_all_all nw mbf keys (sv_started sv) (wok (l ++ sv_tr (h_sv h))) cut (wok_lasting _) _ _ _ _ _ _ T Ev Pr Wf Eo) as [_ [_ [_ [K' Q']]]].
        cbn [h_w h_ps]. split.
        * intros j Hj. split; [rewrite (Q' j Hj); apply task_moved|]. destruct (tb h j) as [[t s]|] eqn:Ej; [|congruence]. destruct (K' _ _ _ Ej) as [s' ->]. discriminate.
        * intros t. left. rewrite (on_all_no_err nw mbf cut _ _ _ _ _ Eo NE). reflexivity.
    - cbn [leave h_w h_ps]. split.
      + intros j Hj. split; [destruct (Nat.eqb_spec j st) as [->|]; auto|]. apply KX. unfold queued. destruct (_ <? _)%nat; auto.
      + intros t. unfold queued. destruct (Nat.ltb_spec (length (err h (w_task (h_w h st)))) 100) as [L|L].
        * left. cbn [Pool.pstep fst Pool.ps_err]. destruct (Nat.eqb_spec (w_task (h_w h st)) t) as [<-|]; auto. rewrite firstn_all2; [reflexivity|]. rewrite app_length. cbn [length]. lia.
        * cbn [Pool.pstep fst Pool.ps_err]. destruct (Nat.eqb_spec (w_task (h_w h st)) t) as [<-|]; auto. destruct (Nat.eq_dec (length (err h (w_task (h_w h st)))) 100) as [L'|]; [left|right; lia].
          rewrite firstn_app, L'. replace (100 - 100)%nat with O by lia. rewrite firstn_O, app_nil_r, firstn_all2; [reflexivity|lia].
    - cbn [leave broken hput h_w h_ps]. split; auto. intros j Hj. split; [destruct (Nat.eqb_spec j st) as [->|]; [rewrite Nat.eqb_refl|]; auto|]. apply KX. exact Hj.
  Qed.
  (* moves are made by workers that were started *)
  Lemma raised_app h t a b : raised h t (a ++ b) = raised h t a ++ raised h t b.
  Proof. apply flat_map_app. Qed.
  Lemma firstn_snoc {A} n (l : list A) e : firstn n (firstn n l ++ [e]) = firstn n (l ++ [e]).
  Proof. revert n. induction l as [|a l IH]; intros [|n]; cbn; auto. f_equal. apply IH. Qed.
  Lemma err_runs ms h : aruns h0 ms h -> (forall st e n, In (ARaise st e n) ms -> tb h st <> None) /\ forall t, err h t = firstn 100 (raised h t ms).
  Proof.
    intros R. induction R as [|ms h m h' R [K IH] S].
    - split; [intros ? ? ? []|]. intros t. cbn. pose proof (ai_init _ _ _ _ _ _ _ _ _ _ SE) as A.
      destruct (err h0 t) as [|e l] eqn:E; [reflexivity|]. destruct (ai_err _ _ _ _ _ _ _ _ _ _ _ A t e) as [? [? [[] _]]]. rewrite E. left. reflexivity.
    - pose proof (ai_runs _ _ _ _ _ _ _ _ _ _ SE _ _ R) as A. destruct (step_kept _ _ _ _ A S) as [S1 S2]. split.
      + intros st e n H. apply in_app_or in H. destruct H as [H|[H|[]]]; [apply S1; eauto|]. subst m.
        assert (Al : alive h st) by (inversion S; auto). destruct Al as [t Al]. unfold proc in Al. apply S1. congruence.
      + intros t. rewrite raised_app.
        assert (Er : raised h' t ms = raised h t ms).
        { clear -K S1. unfold raised. induction ms as [|x ms IHm]; auto. cbn [flat_map]. f_equal; [|apply IHm; intros st e n H; apply (K st e n); right; exact H].
          destruct x as [|st e n|]; auto. destruct (S1 st) as [-> _]; auto. apply (K st e n). left. reflexivity. }
        rewrite Er. destruct (S2 t) as [Q|Q]; [|rewrite (IH t), firstn_length in Q; lia]. rewrite Q. destruct m as [m|st e n|st s n c]; cbn [raised flat_map]; rewrite ?app_nil_r; auto.
        assert (Al : alive h st) by (inversion S; auto). destruct Al as [u Al]. unfold proc in Al. destruct (S1 st) as [-> _]; [congruence|].
        destruct (Nat.eqb _ t); [|rewrite app_nil_r; auto]. rewrite (IH t). apply firstn_snoc.
  Qed.
  Lemma first_error_cut f g l : (forall t, In t l -> f t = firstn 100 (g t)) -> first_error f l = first_error g l.
  Proof.
    induction l as [|t l IH]; intros H; cbn [first_error]; auto. rewrite (H t) by (left; reflexivity). rewrite IH by (intros u Hu; apply H; right; exact Hu).
    destruct (g t); reflexivity.
  Qed.
End Any.

(* ---- C63, the whole ---- *)
(* A worker whose process runs has reported at most max_block_failures failures to the server. *)
Theorem C63_whole : forall tasks ord ordt d s0 fuel init nw mbf h0 ms h st t,
  setup tasks ord ordt d s0 fuel init nw mbf h0 ->
  aruns (dg_up ord ordt d) (dg_down ord ordt d) (dg_max_retries d) fuel init nw mbf h0 ms h ->
  proc h st = Some (t, Pool.Running) -> w_task (h_w h st) = t /\ fail_notes t st (sv_tr (h_sv h)) <= mbf.
Proof.
  intros tasks ord ordt d s0 fuel init nw mbf h0 ms h st t SE R P. pose proof (ai_runs _ _ _ _ _ _ _ _ _ _ SE _ _ R) as A.
  split; [eapply ai_procs; eauto|]. destruct (ai_told _ _ _ _ _ _ _ _ _ _ _ A) as [es [T E]]. rewrite <- E.
  eapply C63_limit; eauto; [apply SE|apply keys_nodup|apply no_process_ok|apply SE].
Qed.
Print Assumptions C63_whole.

(* ---- C64 ---- *)
(* Which iterations are left by an exception: those after a worker has raised one, and the exception is the
   first one raised by a worker of the first task (in the order of the pools) that has such a worker. *)
Theorem C64_raises : forall tasks ord ordt d s0 fuel init nw mbf h0 ms h i x,
  setup tasks ord ordt d s0 fuel init nw mbf h0 ->
  aruns (dg_up ord ordt d) (dg_down ord ordt d) (dg_max_retries d) fuel init nw mbf h0 ms h ->
  sv_stop (h_sv h) = false -> hinput_ok h i ->
  (raises (dg_up ord ordt d) (dg_down ord ordt d) (dg_max_retries d) fuel init nw mbf h i x <->
   first_error (fun t => raised h t ms) (dedup Nat.eqb (map t_id tasks)) = Some x).
Proof.
  intros tasks ord ordt d s0 fuel init nw mbf h0 ms h i x SE R Sp Io. pose proof (ai_runs _ _ _ _ _ _ _ _ _ _ SE _ _ R) as A.
  destruct (err_runs _ _ _ _ _ _ _ _ _ _ SE _ _ R) as [_ Er]. rewrite <- (first_error_cut _ _ _ (fun t _ => Er t)).
  destruct (ai_iteration _ _ _ _ _ _ _ _ _ _ SE _ _ _ A Io) as [sv [l [E El]]]. split.
  - intros H. destruct H as [_ _ H|cut sv' l' _ _ E' El' Eo].
    + rewrite E in H. discriminate.
    + pose proof (ai_pools _ _ _ _ _ _ _ _ _ _ _ _ cut _ _ A Io E' El') as Q. destruct (first_error _ _) as [y|]; [|destruct Q as [r Q]]; rewrite Eo in Q; congruence.
  - intros H. pose proof (ai_pools _ _ _ _ _ _ _ _ _ _ _ _ (fun _ => O) _ _ A Io E El) as Q. rewrite H in Q. eapply ra_pools; eauto.
Qed.
Print Assumptions C64_raises.
(* An exception of the server is one that a worker has raised. *)
Theorem C64_only_workers : forall tasks ord ordt d s0 fuel init nw mbf h0 ms h i x,
  setup tasks ord ordt d s0 fuel init nw mbf h0 ->
  aruns (dg_up ord ordt d) (dg_down ord ordt d) (dg_max_retries d) fuel init nw mbf h0 ms h ->
  raises (dg_up ord ordt d) (dg_down ord ordt d) (dg_max_retries d) fuel init nw mbf h i x -> exists st n, In (ARaise st x n) ms.
Proof.
  intros tasks ord ordt d s0 fuel init nw mbf h0 ms h i x SE R Ra.
  assert (X : sv_stop (h_sv h) = false /\ hinput_ok h i) by (destruct Ra; auto). destruct X as [Sp Io].
  apply (C64_raises _ _ _ _ _ _ _ _ _ _ _ _ _ _ SE R Sp Io) in Ra. apply first_error_some in Ra. destruct Ra as [t [_ H]].
  unfold raised in H. apply in_flat_map in H. destruct H as [m [Hm H]]. destruct m as [|st e n|]; try (destruct H; fail).
  destruct (Nat.eqb _ _); [|destruct H]. destruct H as [->|[]]. eauto.
Qed.
Print Assumptions C64_only_workers.
(* Once a worker has raised an exception the server completes no further iteration: whatever the input, the next one is left by
   an exception. *)
Theorem C64_ends : forall tasks ord ordt d s0 fuel init nw mbf h0 ms h st e n i,
  setup tasks ord ordt d s0 fuel init nw mbf h0 ->
  aruns (dg_up ord ordt d) (dg_down ord ordt d) (dg_max_retries d) fuel init nw mbf h0 ms h ->
  In (ARaise st e n) ms -> sv_stop (h_sv h) = false -> hinput_ok h i ->
  (exists x, raises (dg_up ord ordt d) (dg_down ord ordt d) (dg_max_retries d) fuel init nw mbf h i x) /\
  forall cut h', ~ hstep (dg_up ord ordt d) (dg_down ord ordt d) (dg_max_retries d) fuel init nw mbf h (HServe i cut) h'.
Proof.
  intros tasks ord ordt d s0 fuel init nw mbf h0 ms h st e n i SE R Hi Sp Io. pose proof (ai_runs _ _ _ _ _ _ _ _ _ _ SE _ _ R) as A.
  destruct (ai_raise _ _ _ _ _ _ _ _ _ _ _ A _ _ _ Hi) as [t [Ht Q]].
  destruct (first_error (Pool.ps_err (h_ps h)) (dedup Nat.eqb (map t_id tasks))) as [x|] eqn:F.
  2:{ exfalso. apply Q. apply (proj1 (first_error_none _ _) F). exact Ht. }
  split.
  - exists x. apply (C64_raises _ _ _ _ _ _ _ _ _ _ _ _ _ _ SE R Sp Io). destruct (err_runs _ _ _ _ _ _ _ _ _ _ SE _ _ R) as [_ Er].
    rewrite <- (first_error_cut _ _ _ (fun t _ => Er t)). exact F.
  - intros cut h' S. inversion S as [| | | | | | |i' cut' sv l ps f _ _ E El Eo]; subst. pose proof (ai_pools _ _ _ _ _ _ _ _ _ _ _ _ cut _ _ A Io E El) as G.
    rewrite F in G. congruence.
Qed.
Print Assumptions C64_ends.
(* As long as nobody has raised one, every iteration comes to its end. *)
Theorem C64_goes_on : forall tasks ord ordt d s0 fuel init nw mbf h0 ms h i cut,
  setup tasks ord ordt d s0 fuel init nw mbf h0 ->
  aruns (dg_up ord ordt d) (dg_down ord ordt d) (dg_max_retries d) fuel init nw mbf h0 ms h ->
  (forall st e n, ~ In (ARaise st e n) ms) -> sv_stop (h_sv h) = false -> hinput_ok h i ->
  exists h', hstep (dg_up ord ordt d) (dg_down ord ordt d) (dg_max_retries d) fuel init nw mbf h (HServe i cut) h'.
Proof.
  intros tasks ord ordt d s0 fuel init nw mbf h0 ms h i cut SE R No Sp Io. pose proof (ai_runs _ _ _ _ _ _ _ _ _ _ SE _ _ R) as A.
  destruct (ai_iteration _ _ _ _ _ _ _ _ _ _ SE _ _ _ A Io) as [sv [l [E El]]]. pose proof (ai_pools _ _ _ _ _ _ _ _ _ _ _ _ cut _ _ A Io E El) as Q.
  destruct (first_error _ _) as [x|] eqn:F.
  - exfalso. apply first_error_some in F. destruct F as [t [_ F]]. destruct (ai_err _ _ _ _ _ _ _ _ _ _ _ A _ _ F) as [st [n [H _]]]. exact (No _ _ _ H).
  - destruct Q as [[ps f] Q]. eexists. eapply hs_serve; eauto.
Qed.
Print Assumptions C64_goes_on.
(* And whenever the loop is left, by an exception or not, no process stays behind ([es]: what the pools had done in an iteration
   that was not completed). *)
Theorem C64_none_outlives : forall tasks ord ordt d s0 fuel init nw mbf h0 ms h es,
  setup tasks ord ordt d s0 fuel init nw mbf h0 ->
  aruns (dg_up ord ordt d) (dg_down ord ordt d) (dg_max_retries d) fuel init nw mbf h0 ms h ->
  let ps := Pool.pools_stop (P_Pool.steps nw mbf es (h_ps h)) in
  (forall st t, Pool.tbl (Pool.ps_sys ps) st <> Some (t, Pool.Running)) /\ forall t p, In (t, p) (Pool.ps_pools ps) -> p = [].
Proof.
  intros tasks ord ordt d s0 fuel init nw mbf h0 ms h es SE R ps. pose proof (ai_runs _ _ _ _ _ _ _ _ _ _ SE _ _ R) as A.
  destruct (ai_told _ _ _ _ _ _ _ _ _ _ _ A) as [evs [T _]].
  assert (Re : exists k, P_Pool.reached nw mbf (dedup Nat.eqb (map t_id tasks)) no_process k (h_ps h)).
  { clear -T. induction T as [|es x e T [k IH] _]; [exists 0; constructor|]. destruct (P_Pool.steps_reached _ _ _ _ [e] k x IH) as [k' H]. exists k'. exact H. }
  destruct Re as [k Re]. destruct (P_Pool.steps_reached _ _ _ _ es _ _ Re) as [k' Re'].
  destruct (P_Pool.C62_stop _ _ _ _ _ _ (se_workers _ _ _ _ _ _ _ _ _ _ SE) (keys_nodup (map t_id tasks)) P_Pool.sys0_clean Re') as [X B].
  split; [exact X|]. intros t p Hp. unfold ps in Hp. rewrite B in Hp. apply in_map_iff in Hp. destruct Hp as [u [Eu _]]. congruence.
Qed.
Print Assumptions C64_none_outlives.

(* ---- C65 ---- *)
(* The server meets fair clients only, so that C30-C37, C50 and C52 apply to it. *)
Theorem C65_server : forall tasks ord ordt d s0 fuel init nw mbf h0 ms h,
  setup tasks ord ordt d s0 fuel init nw mbf h0 ->
  aruns (dg_up ord ordt d) (dg_down ord ordt d) (dg_max_retries d) fuel init nw mbf h0 ms h ->
  server_run_to tasks ord ordt d s0 fuel init false (aserved ms) (h_sv h) /\ honest (sv_tr (h_sv h)).
Proof.
  intros tasks ord ordt d s0 fuel init nw mbf h0 ms h SE R. pose proof (ai_runs _ _ _ _ _ _ _ _ _ _ SE _ _ R) as A. split; apply A.
Qed.
Print Assumptions C65_server.
(* A block counts as done only if a worker that was sent this block said that its body had ended well, or a check
   function said that it was done. *)
Theorem C65_done_by : forall tasks ord ordt d s0 fuel init nw mbf h0 ms h b,
  setup tasks ord ordt d s0 fuel init nw mbf h0 ->
  aruns (dg_up ord ordt d) (dg_down ord ordt d) (dg_max_retries d) fuel init nw mbf h0 ms h ->
  succeeded (hist (sv_tr (h_sv h))) b -> exists ms1 h1 m h2 ms2, ms = ms1 ++ m :: ms2 /\
    aruns (dg_up ord ordt d) (dg_down ord ordt d) (dg_max_retries d) fuel init nw mbf h0 ms1 h1 /\
    astep (dg_up ord ordt d) (dg_down ord ordt d) (dg_max_retries d) fuel init nw mbf h1 m h2 /\
    aruns (dg_up ord ordt d) (dg_down ord ordt d) (dg_max_retries d) fuel init nw mbf h2 ms2 h /\ claims b h1 m.
Proof. intros tasks ord ordt d s0 fuel init nw mbf h0 ms h b SE R. apply (cl_runs _ _ _ _ _ _ _ _ _ _ SE _ _ R). Qed.
Print Assumptions C65_done_by.
(* If the server has stopped, every block is settled. *)
Theorem C65_settled_partial : forall tasks ord ordt d s0 fuel init nw mbf h0 ms h b,
  setup tasks ord ordt d s0 fuel init nw mbf h0 ->
  aruns (dg_up ord ordt d) (dg_down ord ordt d) (dg_max_retries d) fuel init nw mbf h0 ms h ->
  apart_failures tasks ord ordt d (hist (sv_tr (h_sv h))) ->
  sv_stop (h_sv h) = true -> pipe_block tasks b -> settled (dg_up ord ordt d) (dg_max_retries d) (hist (sv_tr (h_sv h))) b.
Proof.
  intros tasks ord ordt d s0 fuel init nw mbf h0 ms h b SE R F Sp Pb. eapply C35_stops_when_settled_partial; eauto. eapply C65_server; eauto.
Qed.
Print Assumptions C65_settled_partial.

(* ---- a run ---- *)
Inductive adeed := EDo (c : P_WholeEx.hdeed) | ERaise (st : nat) (e : exn) (n : nat) | EBreak (st : nat) (s : status) (n : nat) (c : Z).
Section Play.
  Variables (up down : block -> list block) (maxr : nat -> Z) (fuel : nat) (nw : nat -> Z) (mbf : Z).
  Local Notation astep := (astep up down maxr fuel no_init nw mbf).
  Local Notation aruns := (aruns up down maxr fuel no_init nw mbf).
  Definition aperform (c : adeed) (h : whole) : option (amove * whole) :=
    match c with
    | EDo c => match P_WholeEx.hperform up down maxr fuel nw mbf (fun _ => O) c h with Some (m, h') => Some (AMove m, h') | None => None end
    | ERaise st e n => if P_WholeEx.alive_b h st then
        Some (ARaise st e n, leave nw mbf h (queued nw mbf (h_ps h) (w_task (h_w h st)) e) st 0 (firstn n (w_out (h_w h st)))) else None
    | EBreak st s n c => if P_WholeEx.alive_b h st then
        match w_at (h_w h st) with
        | Working pb => Some (ABreak st s n c, leave nw mbf (broken h st pb s) (h_ps h) st c (firstn n (w_out (h_w h st) ++ returned st pb (Client.Interrupted s))))
        | _ => None end else None
    end.
  Lemma aperform_step c h m h' : aperform c h = Some (m, h') -> astep h m h'.
  Proof.
    destruct c as [c|st e n|st s n c]; cbn [aperform].
    - destruct (P_WholeEx.hperform _ _ _ _ _ _ _ c h) as [[m1 h1]|] eqn:E; [|discriminate]. intros H. injection H as <- <-. apply as_move. eapply P_WholeEx.hperform_step; eauto.
    - destruct (P_WholeEx.alive_b h st) eqn:A; [|discriminate]. apply P_WholeEx.alive_b_true in A. intros H. injection H as <- <-. apply as_raise. exact A.
    - destruct (P_WholeEx.alive_b h st) eqn:A; [|discriminate]. apply P_WholeEx.alive_b_true in A. destruct (w_at (h_w h st)) eqn:W; try discriminate.
      intros H. injection H as <- <-. apply as_break; auto.
  Qed.
  Fixpoint aplay (cs : list adeed) (h : whole) : option (list amove * whole) :=
    match cs with
    | [] => Some ([], h)
    | c :: r => match aperform c h with
                | Some (m, h') => match aplay r h' with Some (ms, h2) => Some (m :: ms, h2) | None => None end
                | None => None
                end
    end.
  Lemma aruns_cons h m h1 ms h2 : astep h m h1 -> aruns h1 ms h2 -> aruns h (m :: ms) h2.
  Proof.
    intros S Q. induction Q as [|ms z1 m1 z2 Q IH Sz]; [apply (aruns_step _ _ _ _ _ _ _ h [] h m h1); [constructor|exact S]|].
    change (m :: ms ++ [m1]) with ((m :: ms) ++ [m1]). eapply aruns_step; eauto.
  Qed.
  Lemma aplay_runs cs : forall h ms h', aplay cs h = Some (ms, h') -> aruns h ms h'.
  Proof.
    induction cs as [|c r IH]; intros h ms h' H; cbn [aplay] in H; [injection H as <- <-; constructor|].
    destruct (aperform c h) as [[m h1]|] eqn:E; [|discriminate H]. destruct (aplay r h1) as [[ms1 h2]|] eqn:El; [|discriminate H]. injection H as <- <-.
    eapply aruns_cons; eauto. eapply aperform_step; eauto.
  Qed.
End Play.

(* One task of six blocks, two workers.  Worker 0 fails three times and still runs.  Worker 1 is interrupted with a block that it had
   marked as done, which the server believes; it ends with exit code 0 and is not replaced.  Worker 0 fails a fourth time: it is killed, and
   worker 2 started.  This one raises an exception: the next iteration of the server is left by it. *)
Definition ax_1 : list adeed := map EDo ([P_WholeEx.EConnect 0] ++ P_WholeCE.ask 0 [] ++ P_WholeCE.raises 0 [] ++ P_WholeCE.ask 0 [] ++ P_WholeCE.raises 0 [] ++
  P_WholeCE.ask 0 [] ++ P_WholeCE.raises 0 []).
Definition ax_2 : list adeed := map EDo ([P_WholeEx.EConnect 1] ++ P_WholeCE.ask 1 []) ++ [EBreak 1 SUCCESS 1 0; EDo (P_WholeEx.ETake 1 [])] ++
  map EDo (P_WholeCE.ask 0 [] ++ [P_WholeEx.EFinish 0 (Client.Raised PROCESSING); P_WholeEx.ETake 0 []; P_WholeEx.EConnect 2]).
Definition ax_3 : list adeed := [ERaise 2 ValueError 0].
Definition ax_nw (t : nat) : Z := 2.
Lemma ax_ok : pipe_ok [P_WholeCE.wc 6 5].
Proof. unfold P_WholeCE.wc. pipe_ok_tac. Qed.
Lemma ax_edges : edges_ok [P_WholeCE.wc 6 5].
Proof. apply single_edges. intros t [<-|[]]. reflexivity. Qed.
Definition ax_run (ts : list task) (ids : list nat) : option (dgraph * sched * whole * (list amove * whole) * (list amove * whole) * (list amove * whole)) :=
  match sched_init ts with
  | Ok (d, s0) =>
      match whole_init no_init ax_nw 3 ids s0 with
      | Ok h => let play := aplay (dg_up idl idl d) (dg_down idl idl d) (dg_max_retries d) 100 ax_nw 3 in
          match play ax_1 h with
          | Some (ms1, h1) => match play ax_2 h1 with
                              | Some (ms2, h2) => match play ax_3 h2 with
                                                  | Some (ms3, h3) => Some (d, s0, h, (ms1, h1), (ms2, h2), (ms3, h3))
                                                  | None => None end
                              | None => None end
          | None => None end
      | Err _ => None end
  | Err _ => None end.
Lemma ax_run_is ts ids d s0 h m1 x1 m2 x2 m3 x3 : ax_run ts ids = Some (d, s0, h, (m1, x1), (m2, x2), (m3, x3)) ->
  let play := aplay (dg_up idl idl d) (dg_down idl idl d) (dg_max_retries d) 100 ax_nw 3 in
  sched_init ts = Ok (d, s0) /\ whole_init no_init ax_nw 3 ids s0 = Ok h /\
  play ax_1 h = Some (m1, x1) /\ play ax_2 x1 = Some (m2, x2) /\ play ax_3 x2 = Some (m3, x3).
Proof.
  unfold ax_run. destruct (sched_init ts) as [[d' s']|] eqn:Es; [|discriminate]. destruct (whole_init _ _ _ _ _) as [h'|] eqn:Ei; [|discriminate].
  cbv zeta. destruct (aplay _ _ _ _ _ _ ax_1 h') as [[n1 y1]|] eqn:E1; [|discriminate]. destruct (aplay _ _ _ _ _ _ ax_2 y1) as [[n2 y2]|] eqn:E2; [|discriminate].
  destruct (aplay _ _ _ _ _ _ ax_3 y2) as [[n3 y3]|] eqn:E3; [|discriminate]. intros E. injection E as <- <- <- <- <- <- <- <- <-. auto.
Qed.
Definition runs_b (h : whole) (st t : nat) : bool := match proc h st with Some (u, Pool.Running) => Nat.eqb u t | _ => false end.
Lemma runs_b_ok h st t : runs_b h st t = true -> proc h st = Some (t, Pool.Running).
Proof. unfold runs_b. destruct (proc h st) as [[u [|c]]|]; try discriminate. intros H. apply Nat.eqb_eq in H. subst. reflexivity. Qed.
Definition idle : input := an_input GotNothing [] true no_check.
Definition ax_check : bool :=
  match ax_run [P_WholeCE.wc 6 5] (map t_id [P_WholeCE.wc 6 5]) with
    | Some (d, s0, h, (ms1, h1), (ms2, h2), (ms3, h3)) =>
        enough_b d 100 && (fail_notes 1 0 (sv_tr (h_sv h1)) =? 3) && runs_b h1 0 1 && (fail_notes 1 0 (sv_tr (h_sv h2)) =? 4) && negb (runs_b h2 0 1) && runs_b h2 2 1 &&
        existsb (succ_b (hist (sv_tr (h_sv h2)))) (pblocks d) && negb (sv_stop (h_sv h3)) &&
        match ms3 with [ARaise 2 ValueError 0] => true | _ => false end &&
        match first_error (fun t => raised h3 t ((ms1 ++ ms2) ++ ms3)) (dedup Nat.eqb (map t_id [P_WholeCE.wc 6 5])) with Some ValueError => true | _ => false end
    | None => false end.
Lemma ax_checked : ax_check = true.
Proof. vm_compute. reflexivity. Qed.
Lemma ax_from d' s' h' m1 x1 m2 x2 m3 x3 :
  let play := aplay (dg_up idl idl d') (dg_down idl idl d') (dg_max_retries d') 100 ax_nw 3 in
  sched_init [P_WholeCE.wc 6 5] = Ok (d', s') -> whole_init no_init ax_nw 3 (map t_id [P_WholeCE.wc 6 5]) s' = Ok h' ->
  play ax_1 h' = Some (m1, x1) -> play ax_2 x1 = Some (m2, x2) -> play ax_3 x2 = Some (m3, x3) ->
  enough_b d' 100 && (fail_notes 1 0 (sv_tr (h_sv x1)) =? 3) && runs_b x1 0 1 && (fail_notes 1 0 (sv_tr (h_sv x2)) =? 4) && negb (runs_b x2 0 1) && runs_b x2 2 1 &&
        existsb (succ_b (hist (sv_tr (h_sv x2)))) (pblocks d') && negb (sv_stop (h_sv x3)) &&
        match m3 with [ARaise 2 ValueError 0] => true | _ => false end &&
        match first_error (fun t => raised x3 t ((m1 ++ m2) ++ m3)) (dedup Nat.eqb (map t_id [P_WholeCE.wc 6 5])) with Some ValueError => true | _ => false end = true ->
  exists d s0 fuel h0 ms1 h1 ms2 h2 ms3 h3 b,
  let up := dg_up idl idl d in let down := dg_down idl idl d in let maxr := dg_max_retries d in
  setup [P_WholeCE.wc 6 5] idl idl d s0 fuel no_init ax_nw 3 h0 /\
  aruns up down maxr fuel no_init ax_nw 3 h0 ms1 h1 /\ aruns up down maxr fuel no_init ax_nw 3 h1 ms2 h2 /\ aruns up down maxr fuel no_init ax_nw 3 h2 ms3 h3 /\
  fail_notes 1 0 (sv_tr (h_sv h1)) = 3 /\ proc h1 0 = Some (1%nat, Pool.Running) /\
  fail_notes 1 0 (sv_tr (h_sv h2)) = 4 /\ proc h2 0 <> Some (1%nat, Pool.Running) /\ proc h2 2 = Some (1%nat, Pool.Running) /\
  pipe_block [P_WholeCE.wc 6 5] b /\ succeeded (hist (sv_tr (h_sv h2))) b /\
  ms3 = [ARaise 2 ValueError 0] /\ sv_stop (h_sv h3) = false /\ hinput_ok h3 idle /\ raises up down maxr fuel no_init ax_nw 3 h3 idle ValueError.
Proof.
  intros play Es Ei E1 E2 E3 Q. subst play.
  apply andb_prop in Q. destruct Q as [Q Q0]. apply andb_prop in Q. destruct Q as [Q Q9]. apply andb_prop in Q. destruct Q as [Q Q8]. apply andb_prop in Q. destruct Q as [Q Q7]. apply andb_prop in Q. destruct Q as [Q Q6].
  apply andb_prop in Q. destruct Q as [Q Q5]. apply andb_prop in Q. destruct Q as [Q Q4]. apply andb_prop in Q. destruct Q as [Q Q3]. apply andb_prop in Q. destruct Q as [Q1 Q2].
  apply existsb_exists in Q7. destruct Q7 as [b [Hb Sb]].
  assert (PR : pipe_run [P_WholeCE.wc 6 5] idl idl d' s' 100 [] s') by (constructor; auto using idl_order, ax_ok; constructor).
  assert (SE : setup [P_WholeCE.wc 6 5] idl idl d' s' 100 no_init ax_nw 3 h').
  { constructor; auto using idl_order, ax_ok; try lia.
    - apply (run_dual [P_WholeCE.wc 6 5] idl idl d' s' 100 [] s'); auto using ax_edges.
    - eapply enough_b_ok; eauto using ax_ok.
    - intros t. unfold ax_nw. lia. }
  apply aplay_runs in E1, E2, E3. exists d', s', 100%nat, h', m1, x1, m2, x2, m3, x3, b. cbv zeta.
  assert (E4 : m3 = [ARaise 2 ValueError 0]).
  { destruct m3 as [|[|[|[|[|st]]] [] [|n]|] [|]]; try discriminate Q9. reflexivity. }
  assert (Io : hinput_ok x3 idle) by (split; [reflexivity|split; [exact I|intros st H; discriminate H]]).
  assert (Sp : sv_stop (h_sv x3) = false) by (apply Bool.negb_true_iff; exact Q8).
  split; [exact SE|]. split; [exact E1|]. split; [exact E2|]. split; [exact E3|].
  split; [apply Z.eqb_eq; exact Q2|]. split; [apply runs_b_ok; exact Q3|]. split; [apply Z.eqb_eq; exact Q4|].
  split. { intros X. unfold runs_b in Q5. rewrite X in Q5. discriminate Q5. }
  split; [apply runs_b_ok; exact Q6|]. split; [apply (run_in _ _ _ _ _ _ _ _ PR); exact Hb|]. split; [apply succ_b_true; exact Sb|].
  split; [exact E4|]. split; [exact Sp|]. split; [exact Io|].
  assert (R : aruns (dg_up idl idl d') (dg_down idl idl d') (dg_max_retries d') 100 no_init ax_nw 3 h' ((m1 ++ m2) ++ m3) x3).
  { assert (APP : forall a l1 b0 l2 c, aruns (dg_up idl idl d') (dg_down idl idl d') (dg_max_retries d') 100 no_init ax_nw 3 a l1 b0 ->
        aruns (dg_up idl idl d') (dg_down idl idl d') (dg_max_retries d') 100 no_init ax_nw 3 b0 l2 c -> aruns (dg_up idl idl d') (dg_down idl idl d') (dg_max_retries d') 100 no_init ax_nw 3 a (l1 ++ l2) c).
    { intros a l1 b0 l2 c R1 R2. induction R2 as [|ms z1 m z2 R2 IH S2]; [rewrite app_nil_r; exact R1|]. rewrite app_assoc. eapply aruns_step; eauto. }
    eauto. }
  apply (C64_raises _ _ _ _ _ _ _ _ _ _ _ _ _ _ SE R Sp Io). destruct (first_error _ _) as [[]|]; try discriminate Q0. reflexivity.
Qed.
Example any_example : exists d s0 fuel h0 ms1 h1 ms2 h2 ms3 h3 b,
  let up := dg_up idl idl d in let down := dg_down idl idl d in let maxr := dg_max_retries d in
  setup [P_WholeCE.wc 6 5] idl idl d s0 fuel no_init ax_nw 3 h0 /\
  aruns up down maxr fuel no_init ax_nw 3 h0 ms1 h1 /\ aruns up down maxr fuel no_init ax_nw 3 h1 ms2 h2 /\ aruns up down maxr fuel no_init ax_nw 3 h2 ms3 h3 /\
  fail_notes 1 0 (sv_tr (h_sv h1)) = 3 /\ proc h1 0 = Some (1%nat, Pool.Running) /\
  fail_notes 1 0 (sv_tr (h_sv h2)) = 4 /\ proc h2 0 <> Some (1%nat, Pool.Running) /\ proc h2 2 = Some (1%nat, Pool.Running) /\
  pipe_block [P_WholeCE.wc 6 5] b /\ succeeded (hist (sv_tr (h_sv h2))) b /\
  ms3 = [ARaise 2 ValueError 0] /\ sv_stop (h_sv h3) = false /\ hinput_ok h3 idle /\ raises up down maxr fuel no_init ax_nw 3 h3 idle ValueError.
Proof.
  pose proof ax_checked as Q. unfold ax_check in Q. destruct (ax_run _ _) as [[[[[[d s0] h] [ms1 h1]] [ms2 h2]] [ms3 h3]]|] eqn:E; [|discriminate Q].
  destruct (ax_run_is _ _ _ _ _ _ _ _ _ _ _ E) as [Es [Ei [E1 [E2 E3]]]]. exact (ax_from _ _ _ _ _ _ _ _ _ Es Ei E1 E2 E3 Q).
Qed.
Print Assumptions any_example.
