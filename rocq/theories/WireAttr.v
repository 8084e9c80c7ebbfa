(* In the runs of Wire.v get_message of the server raises no AttributeError: invariant.  The stream of a connection is set to None
   under the coroutine that reads from it only if an answer could not be written.  A worker that is owed an answer has asked for it and
   waits, so nothing else of it is under way. *)
From Coq Require Import Arith Lia.
From Verif Require Import SchedProps SchedExec DGFacts2 PipeRun P_SchedCE P_Sched SerialFacts P_Conv P_Serial ServerFacts ServerSteps
  ServerIdle P_Server P_Server2 P_ServerCE P_Outcome P_Notify PoolAll P_PoolFail P_SysEx P_SysCE.
From Verif Require Client Pool P_Pool P_Whole P_WholeEx P_WholeCE P_Cause Tcp Net NetFacts P_Net P_NetErr WireNet.
From Verif Require Import Sys SysFacts SysMeasure SysTrace WholeFair WholeSrv WholeSim WholeAny WholeAll WholeRun P_WholeAny Wire WireSim P_Wire.
Open Scope Z_scope.

Local Notation link x st := (Net.n_link (x_net x) st).
Local Notation gots x st := (NetFacts.got_from st (Net.n_rets (x_net x))).
Local Notation outs x st := (NetFacts.sent_to st (Net.n_rets (x_net x))).
Local Notation tbx x st := (Pool.tbl (Pool.ps_sys (x_ps x)) st).
Local Notation all_kept := (fun _ : nat => @None nat).

(* ---- one direction of a connection ---- *)
Section Chan.
  Context {A : Type} (dumps : Net.nmsg A -> option Tcp.bytes).
  Definition clear (h : Net.chan A) : Prop := Net.ch_cbs h = [] /\ Net.ch_wire h = [] /\ Net.ch_buf h = [] /\ Net.ch_st h = Net.RSize.
  Lemma filter_all {B} (f : B -> bool) l : (forall b, In b l -> f b = true) -> filter f l = l.
  Proof. induction l as [|b l IH]; intros H; auto. cbn. rewrite (H b) by (left; auto). f_equal. apply IH. intros c Hc. apply H. right. auto. Qed.
  Lemma chan_owes P O h : NetFacts.CInv dumps true P O h -> (forall m, In m P -> NetFacts.fit dumps m = true) ->
    Net.ch_cbs h <> [] \/ Net.ch_wire h <> [] -> (length O < length P)%nat.
  Proof.
    intros [F [D [R [E [HD [HR HS]]]]]] Fi Ne. rewrite HD in E by reflexivity. cbn [app] in E. subst P.
    rewrite filter_all in HR by (intros b Hb; apply Fi; apply in_or_app; auto). subst F. rewrite !app_length.
    destruct Ne as [Ne|Ne]; [destruct (Net.ch_cbs h); [congruence|cbn; lia]|].
    destruct R as [|m R]; [|cbn; lia]. destruct (Net.ch_st h).
    - cbn in HS. apply app_eq_nil in HS. destruct HS as [_ X]. contradiction.
    - destruct HS as [? [? [X _]]]. discriminate.
    - destruct HS as [? [? [X _]]]. discriminate.
  Qed.
  Lemma chan_clear b P O h : NetFacts.CInv dumps b P O h -> (forall m, In m P -> NetFacts.fit dumps m = true) ->
    (length P <= length O)%nat -> clear h.
  Proof.
    intros [F [D [R [E [HD [HR HS]]]]]] Fi Le. subst P.
    rewrite filter_all in HR by (intros c Hc; apply Fi; apply in_or_app; auto). subst F. rewrite !app_length in Le.
    assert (Rn : R = []) by (destruct R; [auto|cbn in Le; lia]). assert (Cn : Net.ch_cbs h = []) by (destruct (Net.ch_cbs h); [auto|cbn in Le; lia]).
    subst R. unfold clear. destruct (Net.ch_st h).
    - cbn in HS. apply app_eq_nil in HS. tauto.
    - destruct HS as [? [? [X _]]]. discriminate.
    - destruct HS as [? [? [X _]]]. discriminate.
  Qed.
End Chan.

(* ---- the questions of a worker ---- *)
Definition is_ask (m : message) : bool := match m with MAcquire _ => true | _ => false end.
Definition asked (l : list message) : nat := length (filter is_ask l).
Lemma asked_app a b : asked (a ++ b) = (asked a + asked b)%nat.
Proof. unfold asked. rewrite filter_app, app_length. reflexivity. Qed.
Lemma asked_returned st pb o : asked (returned st pb o) = 0%nat.
Proof.
  unfold returned. generalize (Client.cr_sent (Client.run_block pb (fun _ => o) (Client.Drops false false false) [])). intros l.
  induction l as [|m l IH]; auto. cbn [flat_map]. rewrite asked_app, IH. destruct m; reflexivity.
Qed.
(* p: where its program is, l: its connection *)
Definition wkr (p : pc) (l : Net.link payload) : Prop :=
  exists said, NetFacts.sents (Net.c_rets l) = map ToServer said /\
  match p with
  | PWait => (exists s t, said = s ++ [MAcquire t] /\ (asked s <= length (NetFacts.gottens (Net.c_rets l)))%nat) /\
             Net.c_conn l = true /\ Net.c_main l <> Net.DiscWait
  | PSend r _ => (asked said <= length (NetFacts.gottens (Net.c_rets l)))%nat /\ asked r = 0%nat
  | _ => (asked said <= length (NetFacts.gottens (Net.c_rets l)))%nat
  end.

(* ---- the answers of the server ---- *)
Definition received (st : nat) (tr : list act) : list (Net.nmsg payload) :=
  flat_map (fun a => match a with ARecv s m => if Nat.eqb s st then [cpay m] else [] | _ => [] end) (rev tr).
Definition srv (x : wire) (st : nat) : Prop :=
  (length (outs x st) + length (NetFacts.of_conn st (x_todo x)) <= length (replies st (sv_tr (x_sv x))))%nat /\
  received st (sv_tr (x_sv x)) = gots x st.
Lemma received_app st l tr : received st (l ++ tr) = received st tr ++ received st l.
Proof. unfold received. rewrite rev_app_distr, flat_map_app. reflexivity. Qed.
Lemma received_none st R K l : Forall (act_ok R K) l -> received st l = [].
Proof. intros F. unfold received. apply Forall_rev in F. induction F as [|a r H F IH]; auto. cbn [flat_map]. rewrite IH. destruct a; try reflexivity. destruct H. Qed.
Lemma replies_answers st tr : length (replies st tr) = answers (fun _ => true) st tr.
Proof.
  induction tr as [|a tr IH]; auto. change (a :: tr) with ([a] ++ tr). rewrite replies_app, app_length, IH. unfold answers. cbn [app filter].
  destruct a; cbn; try lia; rewrite Bool.andb_true_r; destruct (Nat.eqb _ _); cbn; lia.
Qed.
Lemma received_asks st tr got : received st tr = map cpay got -> requests (fun _ => true) st tr = asked got.
Proof.
  revert got. induction tr as [|a tr IH]; intros got.
  { cbn. destruct got; [auto|discriminate]. }
  change (a :: tr) with ([a] ++ tr). rewrite received_app. intros E.
  assert (Q : forall m, received st [a] = [cpay m] -> exists g, got = g ++ [m] /\ received st tr = map cpay g).
  { intros m Em. rewrite Em in E. symmetry in E. apply map_eq_app in E. destruct E as [g [z [-> [E1 E2]]]].
    destruct z as [|m' [|? ?]]; try discriminate. cbn [map] in E2. injection E2 as ->. exists g. auto. }
  destruct a as [s m| | | | | | | | |]; try (cbn in E; rewrite app_nil_r in E; rewrite <- (IH _ E); reflexivity).
  destruct (Nat.eqb s st) eqn:Es.
  - destruct (Q m) as [g [-> Eg]]; [cbn; rewrite Es; reflexivity|]. rewrite asked_app, <- (IH _ Eg). unfold requests. cbn [app filter is_request asked is_ask].
    destruct m; cbn [is_request]; rewrite ?Es; cbn; lia.
  - cbn [received rev app flat_map] in E. rewrite Es, app_nil_r in E. rewrite <- (IH _ E). unfold requests. cbn [app filter is_request].
    destruct m; rewrite ?Es; reflexivity.
Qed.
(* at most one answer for each question *)
Lemma answers_asked tasks ord ordt d s0 fuel init stopped ins y : server_run_to tasks ord ordt d s0 fuel init stopped ins y ->
  forall st got, received st (sv_tr y) = map cpay got -> (length (replies st (sv_tr y)) <= asked got)%nat.
Proof.
  intros R st got E. rewrite replies_answers, <- (received_asks _ _ _ E). destruct (a_split _ _ _ _ _ _ _ _ _ _ R) as [x [Ex Ey]].
  pose proof (C50_answered_once _ _ _ _ _ _ _ _ _ _ _ st Ex Ey) as B. cbv zeta in B. rewrite B. lia.
Qed.

Section Attr.
  Variables (tasks : list task) (ord : list block -> list block) (ordt : list nat -> list nat) (d : dgraph) (s0 : sched) (fuel : nat).
  Variables (init : nat -> res unit) (nw : nat -> Z) (mbf : Z) (h0 : whole).
  Hypothesis SE : setup tasks ord ordt d s0 fuel init nw mbf h0.
  Variable dumps : Net.nmsg payload -> option Tcp.bytes.
  Variable loads : Tcp.bytes -> option (Net.nmsg payload).
  Hypothesis L : P_Net.lossless dumps loads.
  Local Notation up := (dg_up ord ordt d).
  Local Notation down := (dg_down ord ordt d).
  Local Notation maxr := (dg_max_retries d).
  Local Notation xstep := (xstep up down maxr fuel init nw mbf dumps loads).
  Local Notation xruns := (xruns up down maxr fuel init nw mbf dumps loads).
  Local Notation Rel := (Rel dumps loads all_kept).
  Local Notation small := (small dumps).
  Local Notation nstep := (Net.nstep dumps loads).
  Local Notation kstep := (Net.kstep dumps loads).

  (* a worker that waits is connected *)
  Lemma wait_conn x h st t : Rel x h -> tbx x st = Some (t, Pool.Running) -> x_pc x st = PWait ->
    Net.broken (link x st) = false /\ Net.c_conn (link x st) = true /\ Net.c_main (link x st) <> Net.DiscWait.
  Proof.
    intros R Ht Ep. destruct (r_live _ _ _ _ _ R _ _ Ht) as [La Lm Lb Ln Ld Lo Lr]. rewrite Ep in Lm. cbn in Lm.
    assert (M : forall m, Net.c_main (link x st) = m -> m = Net.Idle \/ m = Net.Get0 \/ m = Net.Get1 \/ m = Net.Get2) by (intros m <-; exact Lm).
    assert (N : Net.c_main (link x st) <> Net.DiscWait) by (intros Q; apply M in Q; repeat (destruct Q as [Q|Q]); discriminate).
    assert (B : Net.broken (link x st) = false) by (destruct (Net.broken (link x st)); auto; destruct (Lb eq_refl); [congruence|contradiction]).
    destruct (linv _ _ _ L _ _ st R) as [puts [excs [ss V]]].
    destruct (WireNet.live_fine _ _ _ _ _ _ V B) as [C _]; auto; intros Q; apply M in Q; repeat (destruct Q as [Q|Q]); discriminate.
  Qed.
  Lemma said_got x h st : Rel x h -> exists said got, NetFacts.sents (rets x st) = map ToServer said /\ gots x st = map cpay got.
  Proof.
    intros R. destruct (tbx x st) as [[t s]|] eqn:Ht.
    - destruct (r_up _ _ _ _ _ R _ _ _ Ht) as [said [got [A [B _]]]]. eauto.
    - destruct (r_none _ _ _ _ _ R _ Ht) as [A [_ [B _]]]. exists [], []. unfold rets. rewrite A, B. auto.
  Qed.

  (* an answer is under way: the worker waits for it, and nothing goes the other way *)
  Lemma owed ms x h st : xruns (wire_init h0) ms x -> small x -> Rel x h -> wkr (x_pc x st) (link x st) -> srv x st ->
    Net.s_loop (link x st) = true -> Net.s_open (link x st) = true ->
    Net.ch_cbs (Net.dn (link x st)) <> [] \/ Net.ch_wire (Net.dn (link x st)) <> [] -> x_pc x st = PWait /\ clear (Net.up (link x st)).
  Proof.
    intros X Sm R W [S1 S2] Sl So Ne. destruct (C88_server _ _ _ _ _ _ _ _ _ _ _ _ SE L _ _ X Sm) as [Sv _].
    destruct (said_got _ _ st R) as [said [got [Es Eg]]]. destruct (r_run _ _ _ _ _ R) as [xs Hx]. pose proof (WireNet.run_inv _ _ L _ _ Hx st) as V.
    destruct V as [[V _]|V].
    { destruct V as [_ [_ [_ [_ [_ [_ [_ [Q _]]]]]]]]. congruence. }
    destruct (NetFacts.v_up _ _ _ _ _ _ V) as [b [O [Cu [B1 [B2 [O1 [O2 [P [O' [Cd [P1 [P2 [P3 [P4 [Q1 Q2]]]]]]]]]]]]]]].
    specialize (O1 Sl). destruct (Sm st) as [F1 F2]. fold (rets x st) in Cu, Q1, Q2.
    assert (NA : ~ In Net.Ack P).
    { intros I. specialize (P2 I). rewrite O1 in P2. rewrite <- (app_nil_r (_ ++ _)) in P2 at 1. apply app_inv_head in P2. discriminate. }
    assert (EP : P = map Net.App (outs x st)).
    { transitivity (filter NetFacts.isapp P); [symmetry; apply filter_all; intros m Hm; destruct m; auto; contradiction|exact P1]. }
    rewrite So in Cd.
    assert (Lt : (length O' < length (outs x st))%nat).
    { pose proof (f_equal (@length _) EP) as LP. rewrite map_length in LP. rewrite <- LP. eapply chan_owes; eauto. intros m Hm. rewrite EP in Hm. apply in_map_iff in Hm. destruct Hm as [a [<- Ha]]. auto. }
    assert (Lg : (length (NetFacts.gottens (rets x st)) <= length O')%nat).
    { destruct (Net.c_conn (link x st)).
      - rewrite Q1, app_length by reflexivity. lia.
      - destruct (Q2 eq_refl) as [[[Y|[m [_ Y]]] _]|Y]; rewrite Y, !app_length; lia. }
    assert (La : (length (outs x st) <= asked got)%nat).
    { rewrite Eg in S2. pose proof (answers_asked _ _ _ _ _ _ _ _ _ _ Sv st got S2). lia. }
    destruct (said_prefix dumps loads all_kept L _ _ _ _ _ R Sm Es Eg) as [q [rest [E Eq]]].
    destruct W as [said' [Es' W]]. fold (rets x st) in Es', W. rewrite Es in Es'. apply map_inj in Es'; [|intros ? ? Z; injection Z; auto]. subst said'.
    assert (Ls : asked said = (asked got + asked q)%nat) by (rewrite E, asked_app; reflexivity).
    destruct (x_pc x st) as [|r mo| |pb| |]; try lia. split; auto. destruct W as [[s [t [Ew Wl]]] [Wc Wm]].
    assert (Qn : q = []).
    { destruct q as [|m q] using rev_ind; auto. exfalso. rewrite app_assoc in E. rewrite E in Ew. apply app_inj_tail in Ew. destruct Ew as [Ew ->].
      rewrite <- Ew, asked_app in Wl. lia. }
    subst q. rewrite app_nil_r in E. subst said.
    assert (Bf : b = false) by (destruct b; auto; destruct (B1 eq_refl) as [Q|Q]; [contradiction|apply (NetFacts.v_disc _ _ _ _ _ _ V) in Q; congruence]). subst b. cbn [NetFacts.bye] in Cu. rewrite app_nil_r in Cu.
    eapply chan_clear; [exact Cu| |].
    - intros m Hm. apply in_map_iff in Hm. destruct Hm as [a [<- Ha]]. auto.
    - rewrite O1, Eg, Es, app_length, !map_length, E. lia.
  Qed.

  (* the server's stream was closed because an answer could not be written *)
  Definition mute (x : wire) (st : nat) : Prop := Net.s_loop (link x st) = true -> Net.s_open (link x st) = false ->
    x_pc x st = PWait /\ Net.broken (link x st) = true /\ clear (Net.up (link x st)).
  Record AInv (x : wire) : Prop := {
    a_wkr : forall st, wkr (x_pc x st) (link x st);
    a_srv : forall st, srv x st;
    a_mute : forall st, mute x st;
    a_eq : forall c e, In (c, e) (Net.n_eq (x_net x)) -> e <> Net.AttrErr;
    a_rets : forall c, ~ In (Net.SRaised c Net.AttrErr) (Net.n_rets (x_net x))
  }.

  Lemma nstep_eq c k s n : nstep (Net.NLink c k) s = Some n -> exists l ns, kstep k (Net.n_link s c) = Some (l, ns) /\
    Net.n_link n c = l /\ (forall e, e <> c -> Net.n_link n e = Net.n_link s e) /\
    Net.n_eq n = Net.n_eq s ++ map (pair c) (NetFacts.n_excs ns) /\ Net.n_rets n = Net.n_rets s ++ map (Net.SSent c) (NetFacts.n_sent ns).
  Proof.
    cbn [Net.nstep]. destruct (kstep k (Net.n_link s c)) as [[l ns]|] eqn:Hk; [|discriminate]. intros H. apply some_inj in H.
    match type of H with fold_left _ _ ?s0 = _ => destruct (NetFacts.tell_all c ns s0) as [mq [eq [rs [E [-> [-> ->]]]]]] end.
    rewrite E in H. subst n. exists l, ns. cbn [Net.n_link Net.n_eq Net.n_rets]. unfold Py.upd. rewrite Nat.eqb_refl. repeat split; auto.
    intros e He. destruct (Nat.eqb_spec c e); [congruence|auto].
  Qed.
  Lemma io_conn k l l' ns : io k = true -> client_side k = false -> kstep k l = Some (l', ns) -> Net.c_conn l' = Net.c_conn l.
  Proof.
    destruct k as [ok|c| | |ok|n| | | |a| |ok|n| | | |]; try discriminate; intros _ Cs H; try discriminate Cs; cbn [Net.kstep] in H;
      repeat match type of H with context [match ?b with _ => _ end] => destruct b eqn:? end; try discriminate H;
      apply some_inj in H; apply pair_equal_spec in H; destruct H as [<- <-]; reflexivity.
  Qed.
  (* steps that are not of the server's IO loop leave its attributes alone *)
  Lemma calls_quiet k l l' ns : (exists c, k = Net.KCall c) \/ k = Net.KMain \/ k = Net.KTimeout -> kstep k l = Some (l', ns) ->
    ns = [] /\ Net.s_open l' = Net.s_open l /\ Net.s_loop l' = Net.s_loop l /\ Net.broken l' = Net.broken l.
  Proof.
    intros K H. destruct K as [[c ->]|[-> | ->]]; cbn [Net.kstep] in H.
    - destruct (Net.c_main l); try discriminate. apply some_inj in H. apply pair_equal_spec in H. destruct H as [<- <-]. auto.
    - destruct (Net.main_step l) as [l1|] eqn:M; [|discriminate]. apply some_inj in H. apply pair_equal_spec in H. destruct H as [<- <-]. split; auto.
      unfold Net.main_step in M. destruct (Net.c_main l); try discriminate;
        repeat match type of M with context [match ?b with _ => _ end] => destruct b end; try discriminate; apply some_inj in M; subst l1; cbn; auto.
    - destruct (Net.c_main l); try discriminate. destruct (Net.c_mq l); [|discriminate]. apply some_inj in H. apply pair_equal_spec in H. destruct H as [<- <-]. auto.
  Qed.

  (* the main thread of a worker *)
  Definition why (r : Net.cret payload) (m m' : Net.cpc payload) : Prop :=
    match r with
    | Net.RConnected => m = Net.Connecting
    | Net.RSent a => m = Net.Send2 a
    | Net.RGotten _ => m = Net.Get2
    | Net.RDisconnected => m = Net.Disc0 \/ m = Net.DiscWait
    | Net.RRaised _ => m = Net.Connecting \/ m' = Net.Idle
    end.
  Lemma main_rets k l l' ns rs : k = Net.KMain \/ k = Net.KTimeout -> kstep k l = Some (l', ns) -> Net.c_rets l' = Net.c_rets l ++ rs ->
    rs = [] \/ exists r, rs = [r] /\ why r (Net.c_main l) (Net.c_main l').
  Proof.
    intros [-> | ->] H Er; cbn [Net.kstep] in H.
    - destruct (Net.main_step l) as [l1|] eqn:Hm; [|discriminate]. apply some_inj in H. apply pair_equal_spec in H. destruct H as [<- _].
      unfold Net.main_step in Hm. destruct (Net.c_main l); try discriminate;
        repeat match type of Hm with context [match ?b with _ => _ end] => destruct b end; try discriminate; apply some_inj in Hm; subst l1; cbn in Er;
        first [apply app_inv_head in Er; subst rs; right; eexists; split; [reflexivity|]; cbn; auto; fail
              |left; rewrite <- (app_nil_r (Net.c_rets l)) in Er at 1; apply app_inv_head in Er; auto].
    - destruct (Net.c_main l); try discriminate. destruct (Net.c_mq l); [|discriminate]. apply some_inj in H. apply pair_equal_spec in H. destruct H as [<- _].
      cbn in Er. apply app_inv_head in Er. right. eexists. split; [symmetry; exact Er|]. reflexivity.
  Qed.
  Ltac off M := cbn in M; repeat match type of M with _ \/ _ => destruct M as [M|M] | exists _, _ => let a := fresh "a" in destruct M as [a M] | _ /\ _ => destruct M as [? M] end; try discriminate M.
  Lemma wkr_main t p k l l' ns rs : main_ok t p (Net.c_main l) -> k = Net.KMain \/ k = Net.KTimeout -> kstep k l = Some (l', ns) ->
    Net.c_rets l' = Net.c_rets l ++ rs -> (forall e, In (Net.RRaised e) (Net.c_rets l') -> Net.c_main l' = Net.Over) ->
    (fold_left resume rs p = PWait -> Net.c_conn l' = true /\ Net.c_main l' <> Net.DiscWait) ->
    wkr p l -> wkr (fold_left resume rs p) l'.
  Proof.
    intros M K H Er Ov Wt [said [Es W]]. unfold wkr. rewrite Er in *. unfold NetFacts.sents, NetFacts.gottens in *. rewrite !flat_map_app in *.
    destruct (main_rets _ _ _ _ _ K H Er) as [->|[r [-> Y]]].
    { cbn [fold_left flat_map] in *. rewrite !app_nil_r. exists said. split; auto. destruct p; auto. destruct W. auto. }
    cbn [fold_left] in *. destruct r as [|a|[m|]| |e]; cbn [why] in Y; cbn [flat_map]; rewrite ?app_nil_r.
    - exists said. rewrite Y in M. destruct p; off M. cbn [resume]. auto.
    - rewrite Y in M. destruct p as [|ml b| |pb| |]; off M. injection M as ->. destruct W as [W1 W2]. destruct ml as [|m ml].
      + destruct b; [|discriminate]. cbn in H0. injection H0 as <-. cbn [resume] in *. exists (said ++ [MAcquire t]). rewrite Es, map_app. split; auto. split; auto. exists said, t. auto.
      + cbn in H0. injection H0 as <-. cbn [resume]. exists (said ++ [m]). rewrite Es, map_app. split; auto.
        change (m :: ml) with ([m] ++ ml) in W2. rewrite asked_app in *. lia.
    - exists said. split; auto. rewrite Y in M. destruct p; off M. destruct W as [[s [t0 [-> Wl]]] _]. rewrite asked_app, app_length in *. cbn [length asked filter is_ask] in *.
      assert (Q : (asked s + asked [MAcquire t0] <= length (flat_map (fun r => match r with Net.RGotten (Some m0) => [m0] | _ => [] end) (Net.c_rets l)) + 1)%nat) by (cbn; lia).
      destruct m as [[ms|[pb| | |]]| |]; exact Q.
    - exists said. split; auto. rewrite Y in M. destruct p; off M. cbn [resume] in *. destruct W. auto.
    - exists said. split; auto. destruct Y as [Y|Y]; rewrite Y in M; destruct p; off M; exact W.
    - exists said. split; auto. destruct p; try exact W; try (destruct W as [W _]; exact W). exfalso. cbn [resume] in *. rewrite Ov with (e := e) in Y by (apply in_or_app; right; left; reflexivity).
      destruct Y as [Y|Y]; [rewrite Y in M; off M|discriminate].
  Qed.

  Lemma client_keeps k l l' ns : client_side k = true -> kstep k l = Some (l', ns) ->
    ns = [] /\ ((Net.s_open l' = Net.s_open l /\ Net.s_loop l' = Net.s_loop l) \/ Net.s_open l' = true).
  Proof.
    destruct k as [ok|c| | |ok|n| | | |a| |ok|n| | | |]; try discriminate; intros _ H; cbn [Net.kstep] in H;
      repeat match type of H with context [match ?b with _ => _ end] => destruct b eqn:? end; try discriminate H;
      apply some_inj in H; apply pair_equal_spec in H; destruct H as [<- <-]; cbn; auto.
  Qed.
  (* the network and the IO loops *)
  Definition muted (p : pc) (l : Net.link payload) : Prop := Net.s_loop l = true -> Net.s_open l = false ->
    p = PWait /\ Net.broken l = true /\ clear (Net.up l).
  Lemma muted_io p k l l' ns : io k = true -> client_side k = false -> kstep k l = Some (l', ns) -> muted p l ->
    (Net.s_loop l = true -> Net.s_open l = true -> Net.ch_cbs (Net.dn l) <> [] \/ Net.ch_wire (Net.dn l) <> [] -> p = PWait /\ clear (Net.up l)) ->
    muted p l' /\ forall e, In e (NetFacts.n_excs ns) -> e <> Net.AttrErr.
  Proof.
    intros Io Cs H Mu Ow. unfold muted in *. destruct k as [ok|c| | |ok|n| | | |a| |ok|n| | | |]; try discriminate Io; try discriminate Cs; cbn [Net.kstep] in H.
    - destruct (Net.arrive n (Net.dn l)); [|discriminate]. apply some_inj in H. apply pair_equal_spec in H. destruct H as [<- <-]. cbn. split; auto; intros ? [].
    - destruct (Net.s_open l) eqn:So; cbn [negb] in H.
      + destruct ok.
        * destruct (Net.flush dumps true (Net.dn l)); [|discriminate]. apply some_inj in H. apply pair_equal_spec in H. destruct H as [<- <-]. cbn. rewrite So. split; auto; intros ? [].
        * destruct (Net.broken l) eqn:Eb; [|discriminate]. unfold Net.flush in H. destruct (Net.ch_cbs (Net.dn l)) as [|m r] eqn:Ec; [discriminate|].
          apply some_inj in H. apply pair_equal_spec in H. destruct H as [<- <-]. cbn. rewrite Eb. split; [|intros ? []]. intros Sl _. destruct Ow as [O1 O2]; auto. left. discriminate.
      + destruct (Net.flush dumps false (Net.dn l)); [|discriminate]. apply some_inj in H. apply pair_equal_spec in H. destruct H as [<- <-]. cbn. rewrite So. split; auto; intros ? [].
    - unfold Net.arrive in H. destruct (_ && _)%bool eqn:El; [|discriminate]. apply some_inj in H. apply pair_equal_spec in H. destruct H as [<- <-]. cbn. split; [|intros ? []].
      intros Sl So. destruct (Mu Sl So) as [_ [_ [_ [W _]]]]. rewrite W in El. apply andb_prop in El. destruct El as [E1 E2]. apply Nat.leb_le in E1, E2. cbn in E2. lia.
    - destruct (Net.s_loop l) eqn:Sl; [|discriminate]. destruct (Net.s_open l) eqn:So.
      + destruct (Net.advance true (Net.up l)) as [[h [q|]]|]; [| |discriminate].
        * destruct (loads q) as [[a| |]|]; cbn in H; rewrite ?So in H; apply some_inj in H; apply pair_equal_spec in H; destruct H as [<- <-]; cbn; rewrite ?So; (split; [congruence|]); try (intros ? []; fail). intros e [<-|[]]. discriminate.
        * apply some_inj in H. apply pair_equal_spec in H. destruct H as [<- <-]. cbn. rewrite So. split; [congruence|intros ? []].
      + destruct (Mu eq_refl eq_refl) as [_ [_ [_ [_ [Bf St]]]]]. unfold Net.advance in H. rewrite St, Bf in H. cbn in H. discriminate.
    - destruct (Net.s_loop l) eqn:Sl; [|discriminate]. unfold Net.fails in H. destruct (Net.s_open l) eqn:So.
      + destruct (Net.ch_st (Net.up l)); cbn in H; destruct (Net.broken l); cbn in H; try discriminate; apply some_inj in H; apply pair_equal_spec in H; destruct H as [<- <-]; cbn; (split; [congruence|]);
          intros e [<-|[]]; discriminate.
      + destruct (Mu eq_refl eq_refl) as [_ [Bk [_ [_ [Bf St]]]]]. rewrite St, Bk in H. cbn in H. apply some_inj in H; apply pair_equal_spec in H; destruct H as [<- <-]; cbn; (split; [congruence|]).
        intros e [<-|[]]; discriminate.
    - destruct (Net.ch_wire (Net.dn l)) as [|b w] eqn:Ew; [discriminate|]. destruct (Net.broken l) eqn:Eb; [|discriminate].
      apply some_inj in H; apply pair_equal_spec in H; destruct H as [<- <-]. cbn. rewrite Eb. split; [|intros ? []]. intros Sl _. destruct (Net.s_open l); [|auto].
      destruct Ow as [O1 O2]; auto. right. discriminate.
  Qed.

  Lemma a_init : AInv (wire_init h0).
  Proof.
    pose proof (rel_init _ _ _ _ _ _ _ _ _ _ SE dumps loads all_kept) as R. constructor; cbn [wire_init x_net x_pc x_sv x_todo].
    - intros st. exists []. split; [reflexivity|]. cbn. lia.
    - intros st. split; [cbn; lia|]. cbn [Net.net_init Net.n_rets NetFacts.got_from flat_map wire_init x_sv x_net].
      destruct (received st (sv_tr (h_sv h0))) as [|a r] eqn:E; auto. exfalso. assert (I : In a (received st (sv_tr (h_sv h0)))) by (rewrite E; left; auto).
      unfold received in I. apply in_flat_map in I. destruct I as [b [Hb I]]. apply in_rev in Hb. destruct b as [s m| | | | | | | | |]; try (destruct I; fail).
      destruct (Nat.eqb_spec s st) as [->|]; [|destruct I]. apply (r_recv _ _ _ _ _ R st m Hb). reflexivity.
    - intros st Q. discriminate.
    - intros c e [].
    - intros c [].
  Qed.

  (* what only touches the connection of one worker *)
  Lemma a_one x x' st : AInv x -> x_sv x' = x_sv x -> x_todo x' = x_todo x -> (forall s, s <> st -> link x' s = link x s /\ x_pc x' s = x_pc x s) ->
    Net.n_rets (x_net x') = Net.n_rets (x_net x) -> (exists es, Net.n_eq (x_net x') = Net.n_eq (x_net x) ++ map (pair st) es /\ forall e, In e es -> e <> Net.AttrErr) ->
    wkr (x_pc x' st) (link x' st) -> muted (x_pc x' st) (link x' st) -> AInv x'.
  Proof.
    intros [A1 A2 A3 A4 A5] E1 E2 E3 E4 [es [E5 E6]] W M. constructor.
    - intros s. destruct (Nat.eq_dec s st) as [->|N]; auto. destruct (E3 s N) as [-> ->]. apply A1.
    - intros s. unfold srv. rewrite E1, E2, E4. apply A2.
    - intros s. unfold mute. destruct (Nat.eq_dec s st) as [->|N]; auto. destruct (E3 s N) as [-> ->]. apply A3.
    - intros c e. rewrite E5. intros I. apply in_app_or in I. destruct I as [I|I]; [eauto|]. apply in_map_iff in I. destruct I as [e' [Q I]]. injection Q as <- <-. auto.
    - rewrite E4. exact A5.
  Qed.

  Lemma a_step ms x m x' : xruns (wire_init h0) ms x -> xstep x m x' -> small x' -> AInv x -> AInv x'.
  Proof.
    intros X St Sm A. assert (X' : xruns (wire_init h0) (ms ++ [m]) x') by (econstructor; eauto). assert (Sx : small x) by (eapply small_step; eauto).
    destruct (wire_runs _ _ _ _ _ _ _ _ _ _ SE _ _ all_kept L _ _ (fun _ => eq_refl) X Sx) as [am1 [h1 [_ [R _]]]].
    destruct (wire_runs _ _ _ _ _ _ _ _ _ _ SE _ _ all_kept L _ _ (fun _ => eq_refl) X' Sm) as [am2 [h2 [_ [R' _]]]].
    pose proof (fun st => owed ms x h1 st X Sx R (a_wkr _ A st) (a_srv _ A st)) as Ow.
    assert (Run : forall st t, tbx x st = Some (t, Pool.Running) -> Net.s_loop (link x st) = true -> Net.s_open (link x st) = false -> False).
    { intros st t Ht Sl So. destruct (a_mute _ A st Sl So) as [Ep [Bk _]]. destruct (wait_conn _ _ _ _ R Ht Ep) as [B _]. congruence. }
    pose proof A as [A1 A2 A3 A4 A5].
    destruct St as [st k n Io Kn Cl Hn|st t c n Ht Hn|st t c n Ht Rq Hn|st t k n rs Ht Hk Hn Er|st t pb o Ht Ep|st t c Ht|st t e Ht|i n r sv l ps T0 S0 Hn Er Eg Eh Ec E El Ep|st r todo Et].
    - destruct (nstep_eq _ _ _ _ Hn) as [l [ns [Hl [El [Ne [Eq En]]]]]]. destruct (WireNet.io_quiet _ _ _ _ _ _ Io Hl) as [Q1 [Q2 Q3]]. rewrite Q3 in En. cbn in En. rewrite app_nil_r in En.
      assert (Wk : wkr (x_pc x st) l).
      { destruct (A1 st) as [said [Es W]]. exists said. rewrite Q1. split; auto. destruct (x_pc x st) eqn:Ep; auto. rewrite Q2. destruct W as [W1 [W2 W3]]. split; auto. split; auto.
        destruct (client_side k) eqn:Cs; [|rewrite (io_conn _ _ _ _ Io Cs Hl); exact W2]. destruct (Cl eq_refl) as [t Ht].
        destruct (wait_conn (set_net x n) h2 st t R' Ht Ep) as [_ [C _]]. cbn [set_net x_net] in C. rewrite El in C. exact C. }
      destruct (client_side k) eqn:Cs.
      + destruct (client_keeps _ _ _ _ Cs Hl) as [Nn K]. destruct (Cl eq_refl) as [t Ht].
        apply (a_one x (set_net x n) st A); cbn [set_net x_sv x_todo x_net x_pc]; auto; rewrite ?El, ?Eq; auto.
        * rewrite Nn. cbn. exists []. split; [reflexivity|intros ? []].
        * intros Sl So. destruct K as [[K1 K2]|K]; [|congruence]. destruct (Run st t Ht); congruence.
      + destruct (muted_io (x_pc x st) _ _ _ _ Io Cs Hl (A3 st) (Ow st)) as [Mu Ex].
        apply (a_one x (set_net x n) st A); cbn [set_net x_sv x_todo x_net x_pc]; auto; rewrite ?El, ?Eq; eauto.
    - destruct (nstep_eq _ _ _ _ Hn) as [l [ns [Hl [El [Ne [Eq En]]]]]]. cbn [Net.kstep] in Hl. destruct (_ || _)%bool; [|discriminate].
      apply some_inj in Hl. apply pair_equal_spec in Hl. destruct Hl as [<- <-]. cbn in En. rewrite app_nil_r in En.
      apply (a_one x (set_net x n) st A); cbn [set_net x_sv x_todo x_net x_pc]; auto; rewrite ?El, ?Eq; auto.
      + exists []. split; [reflexivity|intros ? []].
      + exact (A1 st).
      + intros Sl So. destruct (A3 st Sl So) as [P1 [_ P2]]. auto.
    - destruct (nstep_eq _ _ _ _ Hn) as [l [ns [Hl [El [Ne [Eq En]]]]]]. destruct (calls_quiet _ _ _ _ (or_introl (ex_intro _ c eq_refl)) Hl) as [-> [K1 [K2 K3]]]. cbn in En. rewrite app_nil_r in En.
      apply (a_one x (set_net x n) st A); cbn [set_net x_sv x_todo x_net x_pc]; auto; rewrite ?El, ?Eq; auto.
      + exists []. split; [reflexivity|intros ? []].
      + cbn [Net.kstep] in Hl. destruct (Net.c_main (link x st)); try discriminate. apply some_inj in Hl. apply pair_equal_spec in Hl. destruct Hl as [<- _].
        destruct (A1 st) as [said [Es W]]. exists said. split; [exact Es|]. destruct (x_pc x st) eqn:Ep; try exact W. destruct W as [W1 [W2 W3]]. split; [exact W1|].
        destruct (wait_conn (set_net x n) h2 st t R' Ht Ep) as [_ C]. cbn [set_net x_net] in C. rewrite El in C. exact C.
      + intros Sl So. destruct (Run st t Ht); congruence.
    - destruct (nstep_eq _ _ _ _ Hn) as [l [ns [Hl [El [Ne [Eq En]]]]]]. destruct (calls_quiet _ _ _ _ (or_intror Hk) Hl) as [-> [K1 [K2 K3]]]. cbn in En. rewrite app_nil_r in En. rewrite El in Er.
      apply (a_one x (set_pc (set_net x n) st (fold_left resume rs (x_pc x st))) st A); cbn [set_net set_pc x_sv x_todo x_net x_pc]; auto; rewrite ?Nat.eqb_refl, ?El, ?Eq; auto.
      + intros s Ns. rewrite Ne by auto. destruct (Nat.eqb_spec s st); [contradiction|auto].
      + exists []. split; [reflexivity|intros ? []].
      + pose proof (r_live _ _ _ _ _ R _ _ Ht) as Li. pose proof (r_live _ _ _ _ _ R' st t Ht) as Li'.
        eapply (wkr_main t _ k _ _ _ _ (l_main _ _ _ _ Li) Hk Hl Er); auto.
        * intros e He. pose proof (l_ok _ _ _ _ Li' e) as Q. unfold rets in Q. cbn [set_net set_pc x_net] in Q. rewrite El in Q. apply Q. exact He.
        * intros Ep. pose proof (wait_conn _ _ st t R' Ht) as Q. cbn [set_net set_pc x_net x_pc] in Q. rewrite Nat.eqb_refl, El in Q. apply Q. exact Ep.
      + intros Sl So. destruct (Run st t Ht); congruence.
    - apply (a_one x (set_pc x st (PSend (returned st pb o) (goes_on o))) st A); cbn [set_pc x_sv x_todo x_net x_pc]; auto; rewrite ?Nat.eqb_refl.
      + intros s Ns. destruct (Nat.eqb_spec s st); [contradiction|auto].
      + exists []. rewrite app_nil_r. split; [reflexivity|intros ? []].
      + destruct (A1 st) as [said [Es W]]. rewrite Ep in W. exists said. split; auto. split; auto. apply asked_returned.
      + intros Sl So. destruct (Run st t Ht Sl So).
    - constructor; auto.
    - constructor; auto.
    - destruct (WireNet.no_get _ _ _ _ _ Hn Er) as [Nl Nr].
      assert (Os : forall s, NetFacts.sent_to s (Net.n_rets n) = outs x s).
      { intros s. rewrite Er. unfold NetFacts.sent_to. rewrite flat_map_app. destruct r; cbn in Nr |- *; try apply app_nil_r. destruct Nr. }
      constructor; cbn [x_sv x_ps x_net x_pc x_todo].
      + intros s. rewrite Nl. apply A1.
      + intros s. destruct (A2 s) as [B1 B2]. rewrite T0 in B1. cbn in B1. split; cbn [x_sv x_net x_todo].
        * rewrite Os, El, replies_app, app_length, (replies_of s l). lia.
        * rewrite (gets_more x n r i s Er Eg), <- B2. destruct (iter_adds _ _ _ _ _ _ _ _ E) as [l1 [E1 F1]]. rewrite E1. cbn [add_tr sv_tr].
          rewrite !received_app, (received_none _ _ _ _ F1), app_nil_r. f_equal. unfold recv, gets_in. destruct (i_get i); try reflexivity. cbn. destruct (Nat.eqb _ _); reflexivity.
      + intros s. unfold mute. cbn [x_net x_pc]. rewrite Nl. apply A3.
      + cbn [Net.nstep] in Hn. apply some_inj in Hn. subst n. intros c e I. apply (A4 c e). destruct (Net.n_eq (x_net x)) as [|[c0 e0] q]; [destruct (Net.n_mq (x_net x)) as [|[? ?] ?]; destruct I|right; exact I].
      + intros c I. rewrite Er in I. apply in_app_or in I. destruct I as [I|[I|[]]]; [exact (A5 c I)|]. subst r. discriminate Eg.
    - destruct (nstep (Net.NLink st (Net.KSend (ToWorker r))) (x_net x)) as [n|] eqn:Hn.
      + destruct (nstep_eq _ _ _ _ Hn) as [l [ns [Hl [El [Ne [Eq En]]]]]]. cbn [Net.kstep] in Hl. destruct (Net.s_open (link x st)) eqn:So; [|discriminate].
        apply some_inj in Hl. apply pair_equal_spec in Hl. destruct Hl as [<- <-]. cbn in En, Eq. rewrite app_nil_r in Eq.
        constructor; cbn [x_sv x_ps x_net x_pc x_todo].
        * intros s. destruct (Nat.eq_dec s st) as [->|N]; [rewrite El; exact (A1 st)|rewrite Ne; auto].
        * intros s. destruct (A2 s) as [B1 B2]. rewrite Et in B1. split; cbn [x_sv x_net x_todo]; rewrite En.
          -- unfold NetFacts.sent_to, NetFacts.of_conn in *. rewrite flat_map_app, app_length. cbn [flat_map fst snd] in *. rewrite app_length in B1. destruct (Nat.eqb st s); cbn [length app] in *; lia.
          -- unfold NetFacts.got_from in *. rewrite flat_map_app. cbn. rewrite app_nil_r. exact B2.
        * intros s. unfold mute. cbn [x_net x_pc]. destruct (Nat.eq_dec s st) as [->|N]; [rewrite El; cbn; congruence|rewrite Ne by auto; apply A3].
        * rewrite Eq. exact A4.
        * intros c I. rewrite En in I. apply in_app_or in I. destruct I as [I|[I|[]]]; [exact (A5 c I)|discriminate].
      + constructor; cbn [x_sv x_ps x_net x_pc x_todo]; auto. intros s. destruct (A2 s) as [B1 B2]. rewrite Et in B1. split; cbn [x_sv x_net x_todo]; auto.
        unfold NetFacts.of_conn in *. cbn [flat_map] in B1. rewrite app_length in B1. lia.
  Qed.
  Theorem a_runs ms x : xruns (wire_init h0) ms x -> small x -> AInv x.
  Proof.
    intros H. induction H as [|ms x m x' H IH S]; intros Sm; [apply a_init|]. eapply a_step; eauto. apply IH. eapply small_step; eauto.
  Qed.
End Attr.
