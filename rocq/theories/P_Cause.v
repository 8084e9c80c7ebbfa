(* C77: in every run, whatever the workers do (WholeAny.v), every failure of a block has its own cause: a body that did not
   end well, or a process that had the block and died. *)
From Coq Require Import Arith Lia.
From Verif Require Import SchedProps SchedExec DGFacts2 PipeRun P_SchedCE P_Sched SerialFacts P_Conv P_Serial ServerFacts ServerSteps
  ServerIdle P_Server P_Server2 P_ServerCE P_Outcome P_Notify PoolAll P_PoolFail P_SysEx P_SysCE.
From Verif Require Client Pool P_Pool P_Whole P_WholeEx P_WholeCE TopFair.
From Verif Require Import Sys SysFacts SysMeasure SysTrace WholeFair WholeSrv WholeSim WholeAny WholeAll WholeRun P_WholeAny WholeOwn P_WholeOwn.
Open Scope Z_scope.

(* ---- what the claim says ---- *)
(* The move m, from h to h', is a cause for one failure of block b: its body raises an exception or leaves the status FAILED
   (client.py:86-101), it is interrupted without having set the status SUCCESS, or the server finds the connection of a
   process closed that is dead, and that was the last one to which b was sent (server.py:261-268). *)
Definition causes (b : block) (h : whole) (m : amove) (h' : whole) : Prop :=
  match m with
  | AMove (HFinish st o) => ~ well o /\ working h st b
  | ABreak st s _ _ => s <> SUCCESS /\ working h st b
  | AMove (HServe i _) => exists st, i_closed i st = true /\ w_at (h_w h st) = Dead /\ last_sent (sv_tr (h_sv h')) b = Some st
  | _ => False
  end.
(* a run, n moves of which were causes for a failure of b; not all causes need be counted *)
Inductive caused (step : whole -> amove -> whole -> Prop) (b : block) (h : whole) : list amove -> whole -> nat -> Prop :=
| caused_nil : caused step b h [] h 0
| caused_by ms h1 n m h2 : caused step b h ms h1 n -> step h1 m h2 -> causes b h1 m h2 -> caused step b h (ms ++ [m]) h2 (S n)
| caused_not ms h1 n m h2 : caused step b h ms h1 n -> step h1 m h2 -> caused step b h (ms ++ [m]) h2 n.

(* ---- the order of what a worker says ---- *)
Definition last_ask (o : list message) : Prop := forall l t r, o = l ++ MAcquire t :: r -> r = [].
Lemma last_ask_nil : last_ask [].
Proof. intros l t r E. destruct l; discriminate. Qed.
Lemma last_ask_none o : (forall t, ~ In (MAcquire t) o) -> last_ask o.
Proof. intros H l t r E. exfalso. apply (H t). rewrite E. apply in_elt. Qed.
Lemma last_ask_snoc o t : (forall u, ~ In (MAcquire u) o) -> last_ask (o ++ [MAcquire t]).
Proof.
  intros H l u r E. destruct r as [|x r]; auto. exfalso.
  destruct (exists_last (l := x :: r)) as [r' [y Ey]]; [discriminate|]. rewrite Ey in E.
  change (MAcquire u :: r' ++ [y]) with ((MAcquire u :: r') ++ [y]) in E. rewrite app_assoc in E. apply app_inj_tail in E. destruct E as [E _].
  apply (H u). rewrite E. apply in_elt.
Qed.
Lemma last_ask_firstn n o : last_ask o -> last_ask (firstn n o).
Proof.
  intros H l t r E. specialize (H l t (r ++ skipn n o)). rewrite <- (firstn_skipn n o) in H at 1. rewrite E, <- app_assoc in H.
  specialize (H eq_refl). apply app_eq_nil in H. tauto.
Qed.
Lemma last_ask_tl m o : last_ask (m :: o) -> last_ask o.
Proof. intros H l t r E. apply (H (m :: l) t r). rewrite E. reflexivity. Qed.
Lemma owes_no_ask bk st o : owes bk st o -> forall t, ~ In (MAcquire t) o.
Proof.
  intros H t Hi. destruct o as [|m o]; [destruct Hi|]. destruct m as [u|pb|pb w|e|]; cbn in H; try tauto; try (destruct o; contradiction).
  - destruct o; [|tauto]. destruct Hi as [D|[]]. discriminate D.
  - destruct o as [|[u|pb'|pb' w'|e|] o]; try tauto. destruct o; [|tauto]. destruct Hi as [D|[D|[]]]; discriminate D.
Qed.
Lemma phase_dead p : p = Dead \/ p <> Dead.
Proof. destruct p; auto; right; discriminate. Qed.
(* a request of a worker is its last word, also if the request was delayed *)
Definition asks_last (p : list (nat * list nat)) (st : nat) (o : list message) : Prop := (waits p st <> 0%nat -> o = []) /\ last_ask o.
Lemma talk_last p bk st w : talk p bk st w -> w_at w <> Dead -> w_at w <> Replaced -> asks_last p st (w_out w).
Proof.
  unfold talk, asks_last. intros T Nd Nr. destruct (w_at w); try congruence.
  - destruct T as [-> _]. split; auto. apply last_ask_nil.
  - destruct T as [_ [W O]]. split; [congruence|]. apply last_ask_none. eapply owes_no_ask; eauto.
  - destruct T as [[o [-> [_ [W O]]]]|[[-> _]|[[-> _]|[pb [-> _]]]]]; try (split; auto; apply last_ask_nil).
    split; [congruence|]. apply last_ask_snoc. eapply owes_no_ask; eauto.
  - destruct T as [-> _]. split; auto. apply last_ask_nil.
  - destruct T as [-> _]. split; auto. apply last_ask_nil.
Qed.
Lemma asks_firstn p st n o : asks_last p st o -> asks_last p st (firstn n o).
Proof. intros [H1 H2]. split; [|apply last_ask_firstn; auto]. intros W. rewrite (H1 W). apply firstn_nil. Qed.

Lemma sync_prefix cut ps ps' f j : exists n, w_out (sync cut ps ps' f j) = firstn n (w_out (f j)).
Proof.
  assert (Z : forall o : list message, exists n, o = firstn n o) by (intros o; exists (length o); symmetry; apply firstn_all).
  assert (N : forall o : list message, exists n, [] = firstn n o) by (intros o; exists O; reflexivity).
  unfold sync. destruct (Pool.tbl (Pool.ps_sys ps) j) as [[t [|c]]|]; destruct (Pool.tbl (Pool.ps_sys ps') j) as [[t' [|c']]|]; cbn [w_out]; auto. eauto.
Qed.
Lemma on_all_prefix nw mbf cut : forall evs ps f ps' f', on_all nw mbf cut evs ps f = Ok (ps', f') -> forall j, exists n, w_out (f' j) = firstn n (w_out (f j)).
Proof.
  induction evs as [|e evs IH]; intros ps f ps' f'; cbn [on_all].
  - intros H j. injection H as <- <-. exists (length (w_out (f j))). symmetry. apply firstn_all.
  - destruct (Pool.pstep nw mbf e ps) as [ps1 [x|]]; [discriminate|]. intros H j. destruct (IH _ _ _ _ H j) as [n ->].
    destruct (sync_prefix cut ps ps1 f j) as [k ->]. rewrite firstn_firstn. eauto.
Qed.
Lemma count_app p h1 h2 : count p (h1 ++ h2) = count p h1 + count p h2.
Proof. induction h1; cbn [count app]; lia. Qed.
Lemma count_zero p h : (forall e, In e h -> p e = false) -> count p h = 0.
Proof. induction h as [|e h IH]; cbn [count]; intros H; auto. rewrite (H e) by (left; auto). rewrite IH; auto. intros x Hx. apply H. right; auto. Qed.
Lemma waits_qin p st : waits p st <> 0%nat -> exists t, qin p t st.
Proof.
  unfold waits. intros H. destruct (in_dec Nat.eq_dec st (flat_map snd p)) as [Hi|Hn]; [|apply (count_occ_not_In Nat.eq_dec) in Hn; congruence].
  apply in_flat_map in Hi. destruct Hi as [[t q] [H1 H2]]. exists t, q. auto.
Qed.
Lemma qin_waits p st t : qin p t st -> waits p st <> 0%nat.
Proof. intros [q [H1 H2]] E. unfold waits in E. apply (count_occ_not_In Nat.eq_dec) in E. apply E. apply in_flat_map. exists (t, q). auto. Qed.
Lemma last_sent_skip l tr b : Forall silent l -> last_sent (l ++ tr) b = last_sent tr b.
Proof. intros F. apply last_sent_app. eapply Forall_impl; [|exact F]. intros a. destruct a; cbn; tauto. Qed.

Lemma plain_hist l : Forall ServerFacts.plain l -> hist l = [].
Proof. induction 1 as [|a l H _ IH]; auto. unfold hist in *. cbn. rewrite IH. destruct a; cbn in H; tauto. Qed.

Section Cause.
  Variables (tasks : list task) (ord : list block -> list block) (ordt : list nat -> list nat) (d : dgraph) (s0 : sched) (fuel : nat).
  Variables (init : nat -> res unit) (nw : nat -> Z) (mbf : Z) (h0 : whole).
  Hypothesis SE : setup tasks ord ordt d s0 fuel init nw mbf h0.
  Local Notation V := (pblocks d).
  Local Notation up := (dg_up ord ordt d).
  Local Notation down := (dg_down ord ordt d).
  Local Notation maxr := (dg_max_retries d).
  Local Notation ids := (map t_id tasks).
  Local Notation astep := (astep up down maxr fuel init nw mbf).
  Local Notation aruns := (aruns up down maxr fuel init nw mbf).
  Local Notation AI := (AI tasks ord ordt d s0 fuel init nw mbf).
  Local Notation tb h := (Pool.tbl (Pool.ps_sys (h_ps h))).
  Local Notation fails b x := (n_failed (hist (sv_tr x)) b).
  Local Notation causedr := (caused astep).

  Definition AL (h : whole) : Prop := forall st, asks_last (sv_pend (h_sv h)) st (w_out (h_w h st)).
  (* b is with a worker that has already said that it failed *)
  Definition hot (b : block) (bk : book) (f : nat -> worker) : Prop :=
    exists e m, In e bk /\ blk e = b /\ In m (w_out (f (owner e))) /\ told m (PB b FAILED).

  (* what one iteration of the server does, in terms of [hm] *)
  Lemma serve_parts ms h i sv l : aruns h0 ms h -> hinput_ok h i ->
    iteration up down maxr fuel init i (h_sv h) = Ok sv -> sv_tr sv = l ++ sv_tr (h_sv h) ->
    exists a l1, hm up down maxr fuel s0 ids init i (h_sv h) a (crew h) (h_w h) /\
      sv_tr a = l1 ++ sv_tr (h_sv h) /\ YInv V up down maxr fuel s0 ids None a (crew h) (fun s => deliver s l1 (taken (i_get i) s (h_w h s))) /\
      sv_book sv = filter (fun e => negb (i_closed i (owner e))) (sv_book a) /\ sv_pend sv = sv_pend a /\
      hist (sv_tr sv) = rev (map (fun e => EvRel (PB (blk e) FAILED)) (filter (fun e => i_closed i (owner e)) (sv_book a))) ++ hist (sv_tr a) /\
      (forall b, last_sent (sv_tr sv) b = last_sent (sv_tr a) b).
  Proof.
    intros R Io E El. pose proof (ai_runs _ _ _ _ _ _ _ _ _ _ SE _ _ R) as A. pose proof (own_runs _ _ _ _ _ _ _ _ _ _ SE _ _ R) as O.
    pose proof (own_yinv tasks ord ordt d s0 fuel init nw mbf ms h A O) as Y. pose proof (ai_server _ _ _ _ _ _ _ _ _ _ _ A) as SR.
    pose proof (crew_in tasks ord ordt d s0 fuel init nw mbf ms h) as C.
    assert (G : input_ok (Sys (h_sv h) (crew h) (h_w h)) i).
    { destruct Io as [H1 [H2 H3]]. unfold input_ok. cbn [y_sv y_team y_w]. split; auto. split; [|split].
      - destruct (i_get i); auto. destruct H2 as [K H2]. split; auto. apply C; auto.
      - intros st Hc. destruct (H3 st Hc) as [K H4]. split; auto. apply C; auto.
      - intros st Hs Hr. destruct (ow_talk _ O st) as [_ N]; [apply C; auto|congruence]. }
    destruct (iter_split up down maxr fuel init i _ _ E) as [a [b1 [Ea [Eb Ey]]]].
    pose proof (a_good _ _ _ _ _ _ _ _ _ _ SR) as GG. pose proof (a_enough _ _ _ _ _ _ _ _ _ _ SR) as EN. pose proof (a_fresh _ _ _ _ _ _ _ _ _ _ SR) as FR.
    pose proof (a_known _ _ _ _ _ _ _ _ _ _ SR) as KN. pose proof (se_callback _ _ _ _ _ _ _ _ _ _ SE) as CB.
    pose proof (msgs_hm V up down (root_seeds d) maxr fuel GG EN s0 FR ids KN init CB _ _ _ _ _ Y G Ea) as Q.
    destruct (hm_yinv V up down (root_seeds d) maxr fuel GG EN s0 FR ids init CB _ _ _ _ _ Y Q) as [l1 [L1 [Y1 _]]].
    destruct (check_lost_ok V up down (root_seeds d) maxr fuel GG EN s0 FR ids init CB i a (yi_sv _ _ _ _ _ _ _ _ _ _ _ Y1)) as [y' [E' [_ [Bk [Pd [Hs _]]]]]].
    rewrite Eb in E'. injection E' as <-. destruct (lost_more up down maxr fuel init _ _ _ Eb) as [[l2 [L2 S2]] _].
    exists a, l1. split; auto. split; auto. split; auto.
    assert (B : besides b1 sv) by (subst sv; destruct (i_tick i); [apply check_all_spec|constructor; auto; exists []; auto]).
    split; [rewrite (be_book _ _ B); exact Bk|]. split; [rewrite (be_pend _ _ B); exact Pd|]. split; [rewrite (besides_hist _ _ B); exact Hs|].
    intros b. destruct (be_tr _ _ B) as [l3 [-> F3]]. rewrite last_sent_skip by (apply aside_silent; auto). rewrite L2. apply last_sent_skip; auto.
  Qed.

  Lemma taken_out g s l w : w_out (deliver s l (taken g s w)) = w_out (taken g s w).
  Proof. reflexivity. Qed.
  Lemma al_serve ms h i cut sv l ps f : aruns h0 ms h -> AL h -> hinput_ok h i ->
    iteration up down maxr fuel init i (h_sv h) = Ok sv -> sv_tr sv = l ++ sv_tr (h_sv h) ->
    on_all nw mbf cut (pool_acts l ++ [Pool.PHealth]) (h_ps h) (fun s => deliver s l (taken (i_get i) s (h_w h s))) = Ok (ps, f) ->
    (forall st, asks_last (sv_pend sv) st (w_out (taken (i_get i) st (h_w h st)))).
  Proof.
    intros R Al Io E El Eo st. destruct (serve_parts ms h i sv l R Io E El) as [a [l1 [Q [_ [_ [_ [-> _]]]]]]].
    assert (T : last_ask (w_out (taken (i_get i) st (h_w h st)))).
    { unfold taken. destruct (i_get i); try apply Al. destruct (Nat.eqb _ _); [|apply Al]. cbn [w_out].
      destruct (Al st) as [_ L]. destruct (w_out (h_w h st)); [exact L|eapply last_ask_tl; exact L]. }
    split; auto. intros W.
    assert (Same : waits (sv_pend (h_sv h)) st <> 0%nat -> w_out (taken (i_get i) st (h_w h st)) = []).
    { intros W0. unfold taken. rewrite (proj1 (Al st) W0). destruct (i_get i); auto; try apply (proj1 (Al st) W0). destruct (Nat.eqb _ _); auto. apply (proj1 (Al st) W0). }
    destruct Q as [s t r a1 l' Ei Hs Eo' Q I1 L1 T1 Ea|s t p a1 l' Ei P Q I1 L1 T1 Ea|s m r pb a1 n Ei Hs Eo' Tm E1 Hn Ea|Ei Ea].
    - subst a. destruct (check_all_spec a1) as [B _]. rewrite (be_pend _ _ B) in W.
      destruct Q as [chk pb sk now H1 H2 H3 H4|chk sk m H1 H2 H3 H4 H5 H6 H7|chk sk H1 H2 H3 H4 H5 H6]; cbn [add_tr sv_pend] in H3.
      + apply Same. rewrite <- H3. exact W.
      + apply Same. rewrite <- H3. exact W.
      + destruct (pput_qin _ _ _ _ H3) as [_ Qp]. destruct (waits_qin _ _ W) as [u Hu]. apply Qp in Hu. destruct Hu as [Hu|[-> ->]]; [apply Same; eapply qin_waits; eauto|].
        unfold taken. rewrite Ei, Nat.eqb_refl. cbn [w_out]. rewrite Eo'. cbn [tl]. destruct (Al s) as [_ L]. apply (L [] t r). exact Eo'.
    - subst a. destruct (check_all_spec a1) as [B _]. rewrite (be_pend _ _ B) in W. destruct (pfirst_qin _ _ _ _ P) as [_ [P1 P2]].
      assert (Sub : forall u j, qin p u j -> waits (sv_pend (h_sv h)) j <> 0%nat) by (intros u j Hq; eapply qin_waits; eauto).
      destruct (waits_qin _ _ W) as [u Hu].
      destruct Q as [chk pb sk now H1 H2 H3 H4|chk sk m H1 H2 H3 H4 H5 H6 H7|chk sk H1 H2 H3 H4 H5 H6]; cbn [add_tr set_pend sv_pend] in H3.
      + rewrite H3 in Hu. apply Same. eauto.
      + rewrite H3 in Hu. apply Same. eauto.
      + destruct (pput_qin _ _ _ _ H3) as [_ Qp]. apply Qp in Hu. destruct Hu as [Hu|[-> ->]]; apply Same; eauto. eapply qin_waits; eauto.
    - apply Same. subst a. destruct (check_all_spec (add_tr a1 n)) as [B _]. rewrite (be_pend _ _ B) in W. cbn [add_tr sv_pend] in W.
      unfold safe_release in E1. destruct (is_valid_return _ _ _).
      + destruct (sv_release _ _ _ _ _ _ _ _) as [z|] eqn:Ez; [|discriminate]. cbn [bind] in E1. destruct (notify_block_returned _ _ _); [|discriminate].
        cbn [bind] in E1. injection E1 as <-. cbn [set_book sv_pend] in W. unfold sv_release in Ez. destruct (release_block _ _ _ _ _ _ _); [|discriminate]. cbn [bind] in Ez.
        destruct (recruit_spec init _ _ Ez) as [B2 _]. rewrite (be_pend _ _ B2) in W.
        match type of W with waits (sv_pend (check_all ?z)) _ <> _ => destruct (check_all_spec z) as [B3 _]; rewrite (be_pend _ _ B3) in W end. exact W.
      + injection E1 as <-. exact W.
    - apply Same. subst a. exact W.
  Qed.
  Lemma al_step ms h m h' : aruns h0 ms h -> AL h -> astep h m h' -> AL h'.
  Proof.
    intros R Al S. assert (R' : aruns h0 (ms ++ [m]) h') by (econstructor; eauto).
    pose proof (own_runs _ _ _ _ _ _ _ _ _ _ SE _ _ R) as O. pose proof (own_runs _ _ _ _ _ _ _ _ _ _ SE _ _ R') as O'.
    pose proof (ai_runs _ _ _ _ _ _ _ _ _ _ SE _ _ R) as A. pose proof (ai_sound tasks ord ordt d s0 fuel init nw mbf _ _ A) as Sd.
    assert (X : (forall st, tb h' st = None \/ w_at (h_w h' st) = Dead -> asks_last (sv_pend (h_sv h')) st (w_out (h_w h' st))) -> AL h').
    { intros H st. destruct (tb h' st) as [x|] eqn:K; [|apply H; auto]. destruct (ow_talk _ O' st) as [T Nr]; [congruence|].
      destruct (phase_dead (w_at (h_w h' st))) as [D|D]; [apply H; auto|]. eapply talk_last; eauto. }
    apply X. clear X. intros j D.
    assert (Al' : forall st, alive h st -> tb h st <> None) by (intros st [t Ht]; unfold proc in Ht; congruence).
    destruct S as [m h' S|st e n Av|st s n c pb Av At].
    - destruct S as [st t o r Av Ew|st t o r Av Ew|st t o pb r Av Ew|st t o r Av Ew|st t o pb r out Av Ew No|st Av Ew|st n c t p o r Av Ew N|i cut sv l ps f Sp Io E El Eo].
      1-5: cbn [hput h_w h_sv h_ps] in *; destruct (Nat.eqb_spec j st) as [Ej|]; [exfalso; destruct D as [D|D]; [rewrite Ej in D; exact (Al' _ Av D)|discriminate D]|apply Al].
      + apply Al.
      + cbn [h_w h_sv]. destruct (Nat.eqb_spec j st) as [->|]; [|apply Al].
        cbn [w_out]. apply asks_firstn. specialize (Al st). rewrite Ew in Al. exact Al.
      + cbn [h_w h_sv]. destruct (on_all_prefix nw mbf _ _ _ _ _ _ Eo j) as [n ->]. apply asks_firstn. rewrite taken_out. eapply al_serve; eauto.
    - cbn [leave h_w h_sv]. destruct (Nat.eqb_spec j st) as [->|]; [|apply Al]. cbn [w_out]. apply asks_firstn. apply Al.
    - cbn [leave broken hput h_w h_sv]. destruct (Nat.eqb_spec j st) as [->|]; [|apply Al]. cbn [w_out]. apply asks_firstn.
      destruct (ow_talk _ O st (Al' _ Av)) as [T _]. unfold talk in T. rewrite At in T. destruct T as [-> [_ [W _]]]. split; [congruence|].
      apply last_ask_none. intros t Hi. destruct s; cbn in Hi; destruct Hi as [Hi|[]]; discriminate Hi.
  Qed.
  Lemma al_init : AL h0.
  Proof.
    pose proof (se_start _ _ _ _ _ _ _ _ _ _ SE) as S. unfold whole_init in S.
    destruct (server_init init ids false s0) as [sv|] eqn:Es; [|discriminate]. cbn [bind] in S.
    destruct (on_all _ _ _ _ _ _) as [[ps f]|] eqn:Eo; [|discriminate]. cbn in S. injection S as <-. intros st. cbn [h_sv h_w].
    destruct (on_all_prefix nw mbf _ _ _ _ _ _ Eo st) as [n ->]. rewrite firstn_nil. split; auto. apply last_ask_nil.
  Qed.
  Lemma al_runs ms h : aruns h0 ms h -> AL h.
  Proof. intros R. induction R as [|ms h m h' R IH S]; [apply al_init|]. eapply al_step; eauto. Qed.

  Definition within (b : block) (x : server) (f : nat -> worker) (n : nat) : Prop :=
    fails b x <= Z.of_nat n /\ (hot b (sv_book x) f -> fails b x + 1 <= Z.of_nat n).
  Lemma within_less b x y f g n : fails b y = fails b x -> (forall e, In e (sv_book y) -> In e (sv_book x)) ->
    (forall st m, In m (w_out (g st)) -> In m (w_out (f st))) -> within b x f n -> within b y g n.
  Proof.
    intros Ef Hb Ho [W1 W2]. split; rewrite Ef; auto. intros [e [m [H1 [H2 [H3 H4]]]]]. apply W2. exists e, m. auto.
  Qed.
  Lemma taken_in g st m w : In m (w_out (taken g st w)) -> In m (w_out w).
  Proof. unfold taken. destruct g; auto. destruct (Nat.eqb _ _); auto. cbn [w_out]. destruct (w_out w); cbn; auto. Qed.
  Lemma calls_fails b t r sk tr : n_failed (hist (calls t r sk ++ tr)) b = n_failed (hist tr) b.
  Proof.
    rewrite hist_app. unfold n_failed. rewrite count_app. rewrite count_zero; [lia|]. unfold calls. rewrite hist_calls. intros e [<-|He]; [destruct r; reflexivity|].
    apply in_rev in He. apply in_map_iff in He. destruct He as [x [<- _]]. reflexivity.
  Qed.
  Lemma acq_fails b t st x y l : acq up down maxr fuel t st x y l -> n_failed (hist (l ++ sv_tr x)) b = fails b x.
  Proof.
    intros [chk pb sk now H1 H2 H3 H4|chk sk m H1 H2 H3 H4 H5 H6 H7|chk sk H1 H2 H3 H4 H5 H6].
    - rewrite <- app_assoc. cbn [app]. rewrite <- (calls_fails b t (Some pb) sk (sv_tr x)). reflexivity.
    - rewrite <- app_assoc, hist_app, (hist_aside m H6). cbn [app]. rewrite <- (calls_fails b t None sk (sv_tr x)). reflexivity.
    - cbn [app]. rewrite <- (calls_fails b t None sk (sv_tr x)). reflexivity.
  Qed.
  Lemma acq_book t st x y l : acq up down maxr fuel t st x y l -> forall e, In e (sv_book y) -> In e (sv_book x) \/ owner e = st.
  Proof.
    intros [chk pb sk now H1 H2 H3 H4|chk sk m H1 H2 H3 H4 H5 H6 H7|chk sk H1 H2 H3 H4 H5 H6] e; rewrite H2; auto.
    intros He. apply in_app_or in He. destruct He as [He|[<-|[]]]; auto.
  Qed.
  Lemma acq_within b t st x y l f g n : acq up down maxr fuel t st x y l -> sv_tr y = l ++ sv_tr x -> w_out (g st) = [] ->
    (forall st m, In m (w_out (g st)) -> In m (w_out (f st))) -> within b x f n -> within b y g n.
  Proof.
    intros Q El Eo Ho [W1 W2]. unfold within. rewrite El, (acq_fails b _ _ _ _ _ Q). split; auto.
    intros [e [m [H1 [H2 [H3 H4]]]]]. apply W2. destruct (acq_book _ _ _ _ _ Q e H1) as [H|H]; [exists e, m; auto|].
    rewrite H, Eo in H3. destruct H3.
  Qed.
  Lemma check_within b x f n : within b x f n -> within b (check_all x) f n.
  Proof.
    destruct (check_all_spec x) as [B _]. apply within_less; auto; [rewrite (besides_hist _ _ B); auto|rewrite (be_book _ _ B); auto].
  Qed.
  Lemma told_dec m pb : told m pb \/ ~ told m pb.
  Proof.
    destruct m as [t|q|q w|e|]; cbn; try (right; tauto).
    - destruct pb as [c s], q as [c' s']. destruct (block_dec c c') as [->|N]; [|right; congruence]. destruct s, s'; (left; reflexivity) || (right; discriminate).
    - destruct pb as [c s], q as [c' s']. cbn. destruct (block_dec c c') as [->|N]; [|right; congruence]. destruct s; (left; reflexivity) || (right; discriminate).
  Qed.
  Lemma told_one m pb pb' : told m pb -> told m pb' -> pb = pb'.
  Proof. destruct m; cbn; try tauto; congruence. Qed.
  Lemma hm_within b ms h i a n : aruns h0 ms h -> hm up down maxr fuel s0 ids init i (h_sv h) a (crew h) (h_w h) ->
    within b (h_sv h) (h_w h) n -> within b a (fun s => taken (i_get i) s (h_w h s)) n.
  Proof.
    intros R Q W. pose proof (al_runs ms h R) as Al.
    pose proof (ai_runs _ _ _ _ _ _ _ _ _ _ SE _ _ R) as A. pose proof (own_runs _ _ _ _ _ _ _ _ _ _ SE _ _ R) as O.
    pose proof (own_yinv tasks ord ordt d s0 fuel init nw mbf ms h A O) as Y. pose proof (ai_server _ _ _ _ _ _ _ _ _ _ _ A) as SR.
    assert (Ti : forall st m, In m (w_out (taken (i_get i) st (h_w h st))) -> In m (w_out (h_w h st))) by (intros; eapply taken_in; eauto).
    destruct Q as [s t r a1 l' Ei Hs Eo Q I1 L1 T1 Ea|s t p a1 l' Ei P Q I1 L1 T1 Ea|s m r pb a1 k Ei Hs Eo Tm E1 Hk Ea|Ei Ea].
    - subst a. apply check_within. eapply acq_within; eauto. cbn. rewrite Ei. cbn. rewrite Nat.eqb_refl. cbn [w_out]. rewrite Eo. cbn [tl].
      destruct (Al s) as [_ L]. apply (L [] t r). exact Eo.
    - subst a. apply check_within. eapply acq_within; [exact Q|exact L1| |exact Ti|exact W]. cbn. rewrite Ei. cbn.
      apply (Al s). destruct (pfirst_qin _ _ _ _ P) as [_ [P1 _]]. eapply qin_waits; eauto.
    - subst a. apply check_within.
      assert (W1 : within b a1 (fun s0 => taken (i_get i) s0 (h_w h s0)) n).
      { assert (Y1 : YInv V up down maxr fuel s0 ids None (add_tr (h_sv h) [ARecv s m]) (crew h) (h_w h)) by (apply yinv_plain; auto; repeat constructor).
        pose proof (yi_sv _ _ _ _ _ _ _ _ _ _ _ Y1) as I1.
        assert (Mk : msg_ok V (add_tr (h_sv h) [ARecv s m]) (w_task (h_w h s)) m) by (apply (yi_out _ _ _ _ _ _ _ _ _ _ _ Y1); auto; rewrite Eo; left; auto).
        destruct (told_ok V maxr fuel _ _ _ _ Tm Mk) as [Vb Sb].
        pose proof (a_good _ _ _ _ _ _ _ _ _ _ SR) as GG. pose proof (a_enough _ _ _ _ _ _ _ _ _ _ SR) as EN. pose proof (a_fresh _ _ _ _ _ _ _ _ _ _ SR) as FR.
        pose proof (se_callback _ _ _ _ _ _ _ _ _ _ SE) as CB.
        destruct (safe_release_ok V up down (root_seeds d) maxr fuel GG EN s0 FR ids init CB i pb s _ I1 Vb Sb) as [y [E2 [_ [Hv Hn]]]].
        rewrite E1 in E2. injection E2 as <-. cbn [add_tr sv_book] in Hv, Hn.
        destruct (is_valid_return pb s (sv_book (h_sv h))) eqn:Va.
        2:{ rewrite Hn by auto. eapply within_less; [| |exact Ti|exact W]; auto. }
        destruct (Hv eq_refl) as [Bk [_ [l [Htr Pl]]]]. cbn [add_tr sv_tr] in Htr.
        destruct (valid_block V up down (root_seeds d) maxr fuel GG EN s0 FR ids pb s [] _ I1 Vb Va) as [lg [Hl [Hb [Es _]]]]. cbn [add_tr sv_book] in Hl.
        assert (Ef : fails b a1 = (if match pb_status pb with FAILED => true | _ => false end && is_block (pb_block pb) b then 1 else 0) + fails b (h_sv h)).
        { rewrite Htr, hist_app, (plain_hist _ Pl). cbn. unfold n_failed. cbn [count]. f_equal. destruct (pb_status pb), (is_block (pb_block pb) b); reflexivity. }
        destruct (_ && _)%bool eqn:Et.
        - apply andb_prop in Et. destruct Et as [Et1 Et2]. destruct pb as [c st]. cbn [pb_status pb_block] in *. destruct st; try discriminate Et1.
          unfold is_block in Et2. destruct (block_dec c b) as [->|]; [|discriminate Et2].
          destruct W as [_ W]. assert (Hh : hot b (sv_book (h_sv h)) (h_w h)).
          { exists (bid b, lg), m. split; auto. split; [exact Hb|]. split; auto. unfold owner. cbn [snd]. rewrite Es, Eo. left; auto. }
          specialize (W Hh). split; [lia|]. intros [e [m' [H1 [H2 _]]]]. exfalso. rewrite Bk in H1. apply in_bdel in H1. destruct H1 as [H1 N].
          apply N. pose proof (si_key _ _ _ _ _ _ _ _ I1 e H1) as K. rewrite K. change (pb_block (lg_block (snd e))) with (blk e). rewrite H2. reflexivity.
        - eapply within_less; [| |exact Ti|exact W]; [lia|]. intros e He. rewrite Bk in He. apply in_bdel in He. tauto. }
      eapply within_less; [| | |exact W1]; auto. cbn [add_tr sv_tr]. rewrite hist_app. destruct Hk as [->|[pb' [w ->]]]; reflexivity.
    - subst a. eapply within_less; [| |exact Ti|exact W]; auto.
  Qed.

  Lemma lost_fails b l : NoDup (map blk l) ->
    n_failed (rev (map (fun e => EvRel (PB (blk e) FAILED)) l)) b = 0 \/
    n_failed (rev (map (fun e => EvRel (PB (blk e) FAILED)) l)) b = 1 /\ exists e, In e l /\ blk e = b.
  Proof.
    induction l as [|e l IH]; cbn [map rev]; [left; reflexivity|]. intros N. inversion N as [|? ? N1 N2]; subst.
    unfold n_failed. rewrite count_app. cbn [count pb_block pb_status status_eqb].
    assert (Q : is_block (blk e) b = if block_dec (blk e) b then true else false) by (unfold is_block; destruct (block_dec _ _); reflexivity).
    rewrite Q. clear Q. destruct (block_dec (blk e) b) as [E|E].
    - right. destruct (IH N2) as [H|[_ [e' [H1 H2]]]].
      + unfold n_failed in H. rewrite H. split; [reflexivity|]. exists e. cbn. auto.
      + exfalso. apply N1. rewrite E, <- H2. apply in_map. exact H1.
    - destruct (IH N2) as [H|[H [e' [H1 H2]]]]; unfold n_failed in H; rewrite H; cbn; [left; reflexivity|right]. split; [reflexivity|]. exists e'. auto.
  Qed.
  Lemma returned_fails st pb out m b : In m (returned st pb out) -> told m (PB b FAILED) ->
    pb_block pb = b /\ match out with Client.Interrupted s => s <> SUCCESS | _ => ~ well out end.
  Proof.
    destruct out as [s|s|s]; destruct s; cbn; intros H T; destruct H as [<-|H]; try (destruct H as [<-|H]); try contradiction;
      cbn in T; try discriminate T; injection T; intros; subst; (split; [reflexivity|]); (tauto || discriminate).
  Qed.
  Definition CA (b : block) (ms : list amove) (h : whole) : Prop := exists n, causedr b h0 ms h n /\ within b (h_sv h) (h_w h) n.
  Lemma ca_step b ms h m h' : aruns h0 ms h -> CA b ms h -> astep h m h' -> CA b (ms ++ [m]) h'.
  Proof.
    intros R [n [C W]] S. pose proof (own_runs _ _ _ _ _ _ _ _ _ _ SE _ _ R) as O. pose proof (ai_runs _ _ _ _ _ _ _ _ _ _ SE _ _ R) as A.
    assert (X : h_sv h' = h_sv h -> (forall st x, In x (w_out (h_w h' st)) -> In x (w_out (h_w h st))) -> CA b (ms ++ [m]) h').
    { intros Ev Ho. exists n. split; [eapply caused_not; eauto|]. rewrite Ev. eapply within_less; [| | |exact W]; auto. }
    assert (X1 : forall st pb out k, h_sv h' = h_sv h -> alive h st -> w_at (h_w h st) = Working pb ->
      (forall j, j <> st -> h_w h' j = h_w h j) -> w_out (h_w h' st) = firstn k (w_out (h_w h st) ++ returned st pb out) ->
      (forall s, out = Client.Interrupted s -> s <> SUCCESS -> working h st b -> causes b h m h') ->
      ((forall s, out <> Client.Interrupted s) -> ~ well out -> working h st b -> causes b h m h') -> CA b (ms ++ [m]) h').
    { intros st pb out k Ev Av At Other Eo H1 H2.
      assert (Sub : forall x, In x (w_out (h_w h' st)) -> In x (w_out (h_w h st)) \/ In x (returned st pb out)).
      { intros x Hx. rewrite Eo in Hx. apply in_app_or. rewrite <- (firstn_skipn k). apply in_or_app. auto. }
      assert (D : (exists x, In x (returned st pb out) /\ told x (PB b FAILED)) \/ ~ exists x, In x (returned st pb out) /\ told x (PB b FAILED)).
      { clear. induction (returned st pb out) as [|x l IH]; [right; intros [x [[] _]]|]. destruct (told_dec x (PB b FAILED)) as [T|T]; [left; exists x; cbn; auto|].
        destruct IH as [[y [Y1 Y2]]|N]; [left; exists y; cbn; auto|]. right. intros [y [[<-|Y1] Y2]]; auto. apply N. eauto. }
      destruct D as [[x [Hx Tx]]|N].
      - destruct (returned_fails _ _ _ _ _ Hx Tx) as [Eb Q]. assert (Wk : working h st b) by (split; auto; eauto).
        exists (Datatypes.S n). split.
        + eapply caused_by; eauto. destruct out as [s|s|s]; [apply H2; auto; discriminate|apply H2; auto; discriminate|eapply H1; eauto].
        + destruct W as [W1 W2]. rewrite Ev. split; lia.
      - exists n. split; [eapply caused_not; eauto|]. destruct W as [W1 W2]. split; rewrite Ev; auto. intros [e [x [E1 [E2 [E3 E4]]]]]. apply W2. exists e, x.
        repeat split; auto. destruct (Nat.eq_dec (owner e) st) as [E|E]; [rewrite E in *|rewrite Other in E3; auto].
        destruct (Sub x E3) as [H|H]; auto. exfalso. apply N. eauto. }
    destruct S as [m h' S|st e k Av|st s k c pb Av At].
    - destruct S as [st t o r Av Ew|st t o r Av Ew|st t o pb r Av Ew|st t o r Av Ew|st t o pb r out Av Ew No|st Av Ew|st k c t p o r Av Ew D|i cut sv l ps f Sp Io Ei El Eo].
      1,3,4: apply X; auto; cbn [hput h_w]; intros j x; destruct (Nat.eqb_spec j st) as [->|]; auto; cbn [w_out]; rewrite Ew; cbn [w_out]; auto.
      + exists n. split; [eapply caused_not; eauto; apply as_move; apply hs_ask; auto|]. destruct W as [W1 W2]. cbn [hput h_sv h_w]. split; auto. intros [e [x [E1 [E2 [E3 E4]]]]]. apply W2.
        exists e, x. repeat split; auto. destruct (Nat.eqb_spec (owner e) st) as [E|E]; auto. cbn [w_out] in E3. apply in_app_or in E3. rewrite E, Ew. cbn [w_out].
        destruct E3 as [E3|[<-|[]]]; auto. destruct E4.
      + apply (X1 st pb out (length (o ++ returned st pb out))); auto.
        * rewrite Ew. reflexivity.
        * intros j N. cbn [hput h_w]. rewrite (proj2 (Nat.eqb_neq _ _) N). reflexivity.
        * cbn [hput h_w]. rewrite Nat.eqb_refl, Ew. cbn [w_out]. symmetry. apply firstn_all.
        * intros s E. destruct (No s E).
        * cbn. auto.
      + apply X; auto.
      + apply X; auto. cbn [h_w]. intros j x. destruct (Nat.eqb_spec j st) as [->|]; auto. cbn [w_out]. rewrite Ew. cbn [w_out]. intros Hx.
        rewrite <- (firstn_skipn k). apply in_or_app. auto.
      + destruct (serve_parts ms h i sv l R Io Ei El) as [a [l1 [Q [L1 [Y1 [Bk [_ [Hs Ls]]]]]]]].
        pose proof (hm_within b ms h i a n R Q W) as Wa.
        assert (S' : astep h (AMove (HServe i cut)) (Whole sv ps f)) by (apply as_move; eapply hs_serve; eauto).
        assert (Sub : forall st x, In x (w_out (f st)) -> In x (w_out (taken (i_get i) st (h_w h st)))).
        { intros st x Hx. destruct (on_all_prefix nw mbf _ _ _ _ _ _ Eo st) as [k Ek]. rewrite Ek, taken_out in Hx. rewrite <- (firstn_skipn k). apply in_or_app. auto. }
        set (lost := filter (fun e => i_closed i (owner e)) (sv_book a)) in *.
        assert (Nd : NoDup (map blk lost)).
        { pose proof (si_nodup _ _ _ _ _ _ _ _ (yi_sv _ _ _ _ _ _ _ _ _ _ _ Y1)) as N. rewrite app_nil_r in N. change (blocks_of (sv_book a)) with (map blk (sv_book a)) in N.
          apply NoDup_filter_map. exact N. }
        assert (Ef : fails b sv = n_failed (rev (map (fun e => EvRel (PB (blk e) FAILED)) lost)) b + fails b a) by (rewrite Hs; unfold n_failed; apply count_app).
        destruct (lost_fails b lost Nd) as [Z|[Z [e [He Eb]]]]; rewrite Z in Ef.
        * exists n. split; [eapply caused_not; eauto|]. cbn [h_sv h_w]. eapply within_less; [| |exact Sub|exact Wa]; [lia|].
          intros e He. rewrite Bk in He. apply filter_In in He. tauto.
        * apply filter_In in He. destruct He as [He Hc]. exists (Datatypes.S n). split.
          -- eapply caused_by; eauto. cbn [causes h_sv]. exists (owner e). split; auto. split.
             ++ destruct Io as [_ [_ Cl]]. destruct (Cl _ Hc) as [K Of]. destruct (ow_talk _ O _ K) as [_ Nr].
                assert (Ic : In (owner e) (crew h)) by (eapply crew_in; eauto).
                pose proof (yi_talk _ _ _ _ _ _ _ _ _ _ _ Y1 (owner e) Ic) as T. cbn in T. unfold talk in T.
                change (w_at (h_w h (owner e))) with (w_at (h_w h (owner e))) in *. pose proof (at_moved (i_get i) (owner e) l1 (h_w h (owner e))) as Am.
                destruct (w_at (h_w h (owner e))) eqn:Ep; cbn in Of; try tauto.
                rewrite Am in T. destruct T as [_ [_ [_ T]]]. exfalso. apply (proj1 (free_iff _ _) T e He). reflexivity.
             ++ rewrite Ls, <- Eb. apply (si_sent _ _ _ _ _ _ _ _ (yi_sv _ _ _ _ _ _ _ _ _ _ _ Y1) e He).
          -- cbn [h_sv h_w]. destruct Wa as [W1 W2]. split; [lia|]. intros [x [y [E1 [E2 [E3 E4]]]]].
             assert (fails b a + 1 <= Z.of_nat n); [|lia]. apply W2. exists x, y. rewrite Bk in E1. apply filter_In in E1. repeat split; auto; tauto.
    - apply X; auto. cbn [leave h_w]. intros j x. destruct (Nat.eqb_spec j st) as [->|]; auto. cbn [w_out]. intros Hx.
      rewrite <- (firstn_skipn k). apply in_or_app. auto.
    - apply (X1 st pb (Client.Interrupted s) k); auto.
      + intros j N. cbn [leave broken hput h_w]. rewrite (proj2 (Nat.eqb_neq _ _) N). reflexivity.
      + cbn [leave broken hput h_w]. rewrite Nat.eqb_refl. reflexivity.
      + intros s' E. injection E as <-. cbn. auto.
      + intros E. destruct (E s eq_refl).
  Qed.
  Lemma ca_runs b ms h : aruns h0 ms h -> CA b ms h.
  Proof.
    intros R. induction R as [|ms h m h' R IH S]; [|eapply ca_step; eauto]. exists 0%nat. split; [constructor|].
    pose proof (se_start _ _ _ _ _ _ _ _ _ _ SE) as S. unfold whole_init in S.
    destruct (server_init init ids false s0) as [sv|] eqn:Es; [|discriminate]. cbn [bind] in S.
    destruct (on_all _ _ _ _ _ _) as [[ps f]|] eqn:Eo; [|discriminate]. cbn in S. injection S as <-. cbn [h_sv h_w].
    unfold server_init in Es. destruct (recruit_spec init _ _ Es) as [B _].
    split; [rewrite (besides_hist _ _ B); cbn; lia|]. rewrite (be_book _ _ B). intros [e [x [[] _]]].
  Qed.
  Lemma caused_less b ms h n k : causedr b h0 ms h n -> (k <= n)%nat -> causedr b h0 ms h k.
  Proof.
    intros C. revert k. induction C as [|ms h1 n m h2 C IH S Q|ms h1 n m h2 C IH S]; intros k L.
    - replace k with 0%nat by lia. constructor.
    - destruct k as [|k]; [eapply caused_not; eauto; apply IH; lia|]. eapply caused_by; eauto. apply IH. lia.
    - eapply caused_not; eauto.
  Qed.
End Cause.

(* ---- C77 ---- *)
(* As many moves of a run were causes for failures of block b as b has failed: no failure without a cause, and no cause
   counts twice. *)
Theorem C77_every_failure_has_a_cause : forall tasks ord ordt d s0 fuel init nw mbf h0 ms h b,
  setup tasks ord ordt d s0 fuel init nw mbf h0 ->
  aruns (dg_up ord ordt d) (dg_down ord ordt d) (dg_max_retries d) fuel init nw mbf h0 ms h ->
  exists n, n_failed (hist (sv_tr (h_sv h))) b = Z.of_nat n /\
    caused (astep (dg_up ord ordt d) (dg_down ord ordt d) (dg_max_retries d) fuel init nw mbf) b h0 ms h n.
Proof.
  intros tasks ord ordt d s0 fuel init nw mbf h0 ms h b SE R.
  destruct (ca_runs _ _ _ _ _ _ _ _ _ _ SE b ms h R) as [n [C [W _]]].
  assert (P : 0 <= n_failed (hist (sv_tr (h_sv h))) b) by (unfold n_failed; apply count_nonneg).
  exists (Z.to_nat (n_failed (hist (sv_tr (h_sv h))) b)). split; [lia|]. eapply caused_less; [exact C|lia].
Qed.
Print Assumptions C77_every_failure_has_a_cause.

(* A block fails for good only if that happened once more often than its task allows (task.py:79, scheduler.py:151-160). *)
Theorem C77_failed_for_good : forall tasks ord ordt d s0 fuel init nw mbf h0 ms h b,
  setup tasks ord ordt d s0 fuel init nw mbf h0 ->
  aruns (dg_up ord ordt d) (dg_down ord ordt d) (dg_max_retries d) fuel init nw mbf h0 ms h ->
  perm_failed (dg_max_retries d) (hist (sv_tr (h_sv h))) b ->
  exists n, Z.of_nat n = Z.max (dg_max_retries d (b_task b)) 0 + 1 /\
    caused (astep (dg_up ord ordt d) (dg_down ord ordt d) (dg_max_retries d) fuel init nw mbf) b h0 ms h n.
Proof.
  intros tasks ord ordt d s0 fuel init nw mbf h0 ms h b SE R P.
  destruct (C77_every_failure_has_a_cause _ _ _ _ _ _ _ _ _ _ _ _ b SE R) as [n [E C]]. exists (Z.to_nat (Z.max (dg_max_retries d (b_task b)) 0 + 1)).
  destruct P as [P1 P2]. split; [lia|]. eapply caused_less; [exact C|lia].
Qed.
Print Assumptions C77_failed_for_good.
(* If all bodies end well, and the connections that the server finds closed are those of workers that it had told to leave,
   no block fails. *)
Lemma caused_some up down maxr fuel init nw mbf b h ms h' n : caused (astep up down maxr fuel init nw mbf) b h ms h' n -> n <> 0%nat ->
  exists ms1 h1 m h2 ms2, ms = ms1 ++ m :: ms2 /\ aruns up down maxr fuel init nw mbf h ms1 h1 /\ causes b h1 m h2.
Proof.
  assert (A : forall ms h' n, caused (astep up down maxr fuel init nw mbf) b h ms h' n -> aruns up down maxr fuel init nw mbf h ms h').
  { induction 1; [constructor| |]; eapply aruns_step; eauto. }
  induction 1 as [|ms h1 n m h2 C IH S Q|ms h1 n m h2 C IH S]; intros N; [congruence| |].
  - exists ms, h1, m, h2, []. split; auto. split; auto. eapply A; eauto.
  - destruct (IH N) as [ms1 [x [y [z [ms2 [H1 H2]]]]]]. exists ms1, x, y, z, (ms2 ++ [m]). split; auto. subst ms. rewrite <- app_assoc. reflexivity.
Qed.
Theorem C77_no_cause_no_failure : forall tasks ord ordt d s0 fuel init nw mbf h0 ms h b,
  setup tasks ord ordt d s0 fuel init nw mbf h0 ->
  aruns (dg_up ord ordt d) (dg_down ord ordt d) (dg_max_retries d) fuel init nw mbf h0 ms h ->
  (forall st o, In (AMove (HFinish st o)) ms -> well o) -> (forall st s n c, In (ABreak st s n c) ms -> s = SUCCESS) ->
  (forall ms1 h1 i cut ms2 st, ms = ms1 ++ AMove (HServe i cut) :: ms2 ->
    aruns (dg_up ord ordt d) (dg_down ord ordt d) (dg_max_retries d) fuel init nw mbf h0 ms1 h1 -> i_closed i st = true -> w_at (h_w h1 st) = Left) ->
  n_failed (hist (sv_tr (h_sv h))) b = 0.
Proof.
  intros tasks ord ordt d s0 fuel init nw mbf h0 ms h b SE R F B L.
  destruct (C77_every_failure_has_a_cause _ _ _ _ _ _ _ _ _ _ _ _ b SE R) as [n [E C]]. rewrite E.
  destruct n as [|n]; [reflexivity|]. exfalso. destruct (caused_some _ _ _ _ _ _ _ _ _ _ _ _ C ltac:(discriminate)) as [ms1 [x [m [y [ms2 [Em [R1 Q]]]]]]].
  assert (Hm : In m ms) by (rewrite Em; apply in_elt).
  destruct m as [[st|st|st|st o|st|st k c|i cut]|st e k|st s k c]; cbn in Q; try tauto.
  - destruct Q as [Q _]. apply Q. eapply F; eauto.
  - destruct Q as [st [Q1 [Q2 _]]]. rewrite (L _ _ _ _ _ st Em R1 Q1) in Q2. discriminate.
  - destruct Q as [Q _]. apply Q. eapply B; eauto.
Qed.
Print Assumptions C77_no_cause_no_failure.

(* ---- runs ---- *)
(* One block, one worker at a time.  The first process is killed with the block; the second one raises an exception.  The block
   has failed twice. *)
Definition cx_1 : list adeed := map EDo ([P_WholeEx.EConnect 0] ++ P_WholeCE.ask 0 [] ++ [P_WholeEx.EEnd 0 0 1; P_WholeEx.EIdle [0%nat]; P_WholeEx.EConnect 1] ++
  P_WholeCE.ask 1 []).
Definition cx_2 : list adeed := map EDo (P_WholeCE.raises 1 []).
(* Two workers and no retries.  Worker 0 has done its block and says so, but its process ends before the server has taken this
   message: the server takes one of worker 1, and finds the connection of worker 0 closed (server.py:74-81). *)
Definition cy_1 : list adeed := map EDo ([P_WholeEx.EConnect 0; P_WholeEx.EConnect 1] ++ P_WholeCE.ask 0 [] ++ [P_WholeEx.EAsk 1]).
Definition cy_2 : list adeed := map EDo [P_WholeEx.EFinish 0 (Client.Finished SUCCESS); P_WholeEx.EEnd 0 1 1; P_WholeEx.ETake 1 [0%nat]; P_WholeEx.ETake 0 [0%nat]].
Definition c_run (c1 c2 : list adeed) (k : nat -> Z) (ts : list task) (ids : list nat) : option (dgraph * sched * whole * (list amove * whole) * (list amove * whole)) :=
  match sched_init ts with
  | Ok (d, s0) =>
      match whole_init no_init k 3 ids s0 with
      | Ok h => let play := aplay (dg_up idl idl d) (dg_down idl idl d) (dg_max_retries d) 100 k 3 in
          match play c1 h with
          | Some (ms1, h1) => match play c2 h1 with Some (ms2, h2) => Some (d, s0, h, (ms1, h1), (ms2, h2)) | None => None end
          | None => None end
      | Err _ => None end
  | Err _ => None end.
Lemma c_run_is c1 c2 k ts d s0 h m1 x1 m2 x2 : (forall t, 0 <= k t) -> pipe_ok ts -> edges_ok ts -> c_run c1 c2 k ts (map t_id ts) = Some (d, s0, h, (m1, x1), (m2, x2)) ->
  enough_b d 100 = true ->
  setup ts idl idl d s0 100 no_init k 3 h /\
  aruns (dg_up idl idl d) (dg_down idl idl d) (dg_max_retries d) 100 no_init k 3 h m1 x1 /\
  aruns (dg_up idl idl d) (dg_down idl idl d) (dg_max_retries d) 100 no_init k 3 x1 m2 x2.
Proof.
  intros Kp Po Eg. unfold c_run. destruct (sched_init ts) as [[d' s']|] eqn:Es; [|discriminate]. destruct (whole_init _ _ _ _ _) as [h'|] eqn:Ei; [|discriminate].
  cbv zeta. destruct (aplay _ _ _ _ _ _ c1 h') as [[n1 y1]|] eqn:E1; [|discriminate]. destruct (aplay _ _ _ _ _ _ c2 y1) as [[n2 y2]|] eqn:E2; [|discriminate].
  intros E Q. injection E as <- <- <- <- <- <- <-.
  assert (PR : pipe_run ts idl idl d' s' 100 [] s') by (constructor; auto using idl_order; constructor).
  split; [|split; eapply aplay_runs; eauto]. constructor; auto using idl_order; try lia.
  - apply (run_dual ts idl idl d' s' 100 [] s'); auto.
  - eapply enough_b_ok; eauto.
Qed.
Lemma c_ok n r : 0 < n < 10 -> pipe_ok [P_WholeCE.wc n r].
Proof. intros H. unfold P_WholeCE.wc. assert (n = 1 \/ n = 2 \/ n = 3 \/ n = 4 \/ n = 5 \/ n = 6 \/ n = 7 \/ n = 8 \/ n = 9) as N by lia.
  repeat (destruct N as [->|N]; [pipe_ok_tac|]). subst. pipe_ok_tac. Qed.
Lemma c_edges n r : edges_ok [P_WholeCE.wc n r].
Proof. apply single_edges. intros t [<-|[]]. reflexivity. Qed.

Definition at_b (h : whole) (st : nat) (b : block) : bool :=
  P_WholeEx.alive_b h st && match w_at (h_w h st) with Working pb => is_block (pb_block pb) b | _ => false end.
Lemma at_b_ok h st b : at_b h st b = true -> working h st b.
Proof.
  unfold at_b. intros H. apply andb_prop in H. destruct H as [H1 H2]. split; [apply P_WholeEx.alive_b_true; exact H1|].
  destruct (w_at (h_w h st)) as [| | |pb| | |]; try discriminate. exists pb. split; auto. unfold is_block in H2. destruct (block_dec _ _); congruence.
Qed.
Example C77_example : exists d s0 fuel h0 ms1 h1 ms2 h2 b,
  let up := dg_up idl idl d in let down := dg_down idl idl d in let maxr := dg_max_retries d in
  setup [P_WholeCE.wc 1 5] idl idl d s0 fuel no_init P_WholeCE.one_each 3 h0 /\
  aruns up down maxr fuel no_init P_WholeCE.one_each 3 h0 ms1 h1 /\ aruns up down maxr fuel no_init P_WholeCE.one_each 3 h1 ms2 h2 /\
  n_failed (hist (sv_tr (h_sv h1))) b = 1 /\ (forall st o, ~ In (AMove (HFinish st o)) ms1) /\ working h1 1 b /\ n_failed (hist (sv_tr (h_sv h2))) b = 2.
Proof.
  assert (Q : match c_run cx_1 cx_2 P_WholeCE.one_each [P_WholeCE.wc 1 5] (map t_id [P_WholeCE.wc 1 5]) with
    | Some (d, s0, h, (ms1, h1), (ms2, h2)) => enough_b d 100 && existsb (fun b => (n_failed (hist (sv_tr (h_sv h1))) b =? 1) && at_b h1 1 b && (n_failed (hist (sv_tr (h_sv h2))) b =? 2)) (pblocks d) &&
        forallb (fun m => match m with AMove (HFinish _ _) => false | _ => true end) ms1
    | None => false end = true) by (vm_compute; reflexivity).
  destruct (c_run _ _ _ _ _) as [[[[[d s0] h] [ms1 h1]] [ms2 h2]]|] eqn:E; [|discriminate Q].
  apply andb_prop in Q. destruct Q as [Q Q3]. apply andb_prop in Q. destruct Q as [Q1 Q2]. apply existsb_exists in Q2. destruct Q2 as [b [_ Q2]].
  apply andb_prop in Q2. destruct Q2 as [Q2 Q5]. apply andb_prop in Q2. destruct Q2 as [Q2 Q4].
  destruct (c_run_is cx_1 cx_2 P_WholeCE.one_each _ _ _ _ _ _ _ _ ltac:(intros t; unfold P_WholeCE.one_each; lia) (c_ok 1 5 ltac:(lia)) (c_edges 1 5) E Q1) as [SE [R1 R2]].
  exists d, s0, 100%nat, h, ms1, h1, ms2, h2, b. cbv zeta. repeat (split; [assumption|]). split; [apply Z.eqb_eq; exact Q2|]. split.
  { intros st o H. rewrite forallb_forall in Q3. specialize (Q3 _ H). discriminate. }
  split; [apply at_b_ok; exact Q4|apply Z.eqb_eq; exact Q5].
Qed.
Print Assumptions C77_example.
(* It is not so that a block whose body has ended well, and which was run once only, does not fail: the report may come too late. *)
Theorem C77_well_done_refuted : exists d s0 fuel h0 ms1 h1 ms2 h2 b,
  let up := dg_up idl idl d in let down := dg_down idl idl d in let maxr := dg_max_retries d in
  setup [P_WholeCE.wc 2 0] idl idl d s0 fuel no_init ax_nw 3 h0 /\
  aruns up down maxr fuel no_init ax_nw 3 h0 ms1 h1 /\ working h1 0 b /\
  aruns up down maxr fuel no_init ax_nw 3 h1 (AMove (HFinish 0 (Client.Finished SUCCESS)) :: ms2) h2 /\
  (forall st o, ~ In (AMove (HFinish st o)) (ms1 ++ ms2)) /\ In (ARecv 0 (MRelease (PB b SUCCESS))) (sv_tr (h_sv h2)) /\
  perm_failed maxr (hist (sv_tr (h_sv h2))) b /\ ~ succeeded (hist (sv_tr (h_sv h2))) b.
Proof.
  assert (Q : match c_run cy_1 cy_2 ax_nw [P_WholeCE.wc 2 0] (map t_id [P_WholeCE.wc 2 0]) with
    | Some (d, s0, h, (ms1, h1), (ms2, h2)) => enough_b d 100 && existsb (fun b => perm_b d (hist (sv_tr (h_sv h2))) b && negb (succ_b (hist (sv_tr (h_sv h2))) b) && at_b h1 0 b &&
          existsb (fun a => match a with ARecv O (MRelease (PB c SUCCESS)) => is_block c b | _ => false end) (sv_tr (h_sv h2))) (pblocks d) &&
        forallb (fun m => match m with AMove (HFinish _ _) => false | _ => true end) (ms1 ++ tl ms2) &&
        match ms2 with AMove (HFinish O (Client.Finished SUCCESS)) :: _ => true | _ => false end
    | None => false end = true) by (vm_compute; reflexivity).
  destruct (c_run _ _ _ _ _) as [[[[[d s0] h] [ms1 h1]] [ms2 h2]]|] eqn:E; [|discriminate Q].
  apply andb_prop in Q. destruct Q as [Q Q4]. apply andb_prop in Q. destruct Q as [Q Q3]. apply andb_prop in Q. destruct Q as [Q1 Q2]. apply existsb_exists in Q2. destruct Q2 as [b [_ Q2]].
  apply andb_prop in Q2. destruct Q2 as [Q2 Q8]. apply andb_prop in Q2. destruct Q2 as [Q2 Q7]. apply andb_prop in Q2. destruct Q2 as [Q5 Q6].
  destruct (c_run_is cy_1 cy_2 ax_nw _ _ _ _ _ _ _ _ ltac:(intros t; unfold ax_nw; lia) (c_ok 2 0 ltac:(lia)) (c_edges 2 0) E Q1) as [SE [R1 R2]].
  destruct ms2 as [|m ms2]; [discriminate Q4|]. assert (Em : m = AMove (HFinish 0 (Client.Finished SUCCESS))).
  { destruct m as [[| | |[|st] [[]|?|?]| | |]| |]; try discriminate Q4. reflexivity. }
  exists d, s0, 100%nat, h, ms1, h1, ms2, h2, b. cbv zeta. split; [exact SE|]. split; [exact R1|]. split; [apply at_b_ok; exact Q7|]. split; [rewrite <- Em; exact R2|]. split.
  { intros st o H. rewrite forallb_forall in Q3. specialize (Q3 _ H). discriminate. }
  split.
  { apply existsb_exists in Q8. destruct Q8 as [a [Ha Q8]]. destruct a as [[|?] [|[c []]| | |]| | | | | | | | |]; try discriminate Q8. unfold is_block in Q8. destruct (block_dec c b) as [->|]; [exact Ha|discriminate]. }
  split; [apply perm_b_true; exact Q5|]. rewrite <- succ_b_true. apply Bool.negb_true_iff in Q6. rewrite Q6. discriminate.
Qed.
Print Assumptions C77_well_done_refuted.
