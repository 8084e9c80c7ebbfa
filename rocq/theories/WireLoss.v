(* Runs over the network (Wire.v) in which the connection of any worker may be lost at any moment, whether its process runs or not:
   what the server sees of them. *)
From Coq Require Import Arith Lia.
From Verif Require Import SchedProps SchedExec DGFacts2 PipeRun P_SchedCE P_Sched SerialFacts P_Conv P_Serial ServerFacts ServerSteps
  ServerIdle P_Server P_Server2 P_ServerCE P_Outcome P_Notify PoolAll P_PoolFail P_SysEx P_SysCE.
From Verif Require Client Pool P_Pool Tcp Net NetFacts P_Net P_NetErr WireNet.
From Verif Require Import Sys SysFacts SysMeasure SysTrace WholeFair WholeSrv WholeSim WholeAny WholeAll WholeRun P_WholeAny Wire WireSim P_Wire.
Open Scope Z_scope.

(* [LBreak st]: the network loses the connection of the process st (Net.KBreak) *)
Inductive lmove := LDo (m : xmove) | LBreak (st : nat).
Section Loss.
  Variables (up down : block -> list block) (maxr : nat -> Z) (fuel : nat) (init : nat -> res unit) (nw : nat -> Z) (mbf : Z).
  Variable dumps : Net.nmsg payload -> option Tcp.bytes.
  Variable loads : Tcp.bytes -> option (Net.nmsg payload).
  Inductive lstep (x : wire) : lmove -> wire -> Prop :=
  | ls_do m x' : xstep up down maxr fuel init nw mbf dumps loads x m x' -> lstep x (LDo m) x'
  | ls_break st n : xproc x st <> None -> Net.nstep dumps loads (Net.NLink st Net.KBreak) (x_net x) = Some n -> lstep x (LBreak st) (set_net x n).
  Inductive lruns (x : wire) : list lmove -> wire -> Prop :=
  | lruns_nil : lruns x [] x
  | lruns_step ms x1 m x2 : lruns x ms x1 -> lstep x1 m x2 -> lruns x (ms ++ [m]) x2.
End Loss.
Definition lserved (ms : list lmove) : list input := flat_map (fun m => match m with LDo (XServe i) => [i] | _ => [] end) ms.

(* what an iteration makes of the messages and the answers of the check functions *)
Lemma iter_succeeded up down maxr fuel init (Q : block -> Prop) i x y : iteration up down maxr fuel init i x = Ok y ->
  (forall k b, i_chk i k b = CheckTrue -> Q b) -> (forall st pb, i_get i = GotMessage st (MRelease pb) -> pb_status pb = SUCCESS -> Q (pb_block pb)) ->
  forall b, succeeded (hist (sv_tr y)) b -> succeeded (hist (sv_tr x)) b \/ Q b.
Proof.
  intros Ei HK HR b Hb. set (RR := fun pb : pyblock => pb_status pb = SUCCESS -> Q (pb_block pb)).
  destruct (iter_split up down maxr fuel init i _ _ Ei) as [a [b1 [Ea [Eb Ey]]]].
  apply (msgs_adds up down maxr fuel init RR Q) in Ea; [| |exact HK].
  2:{ intros st m pb Gm Tm. destruct m; cbn in Tm; try tauto; subst pb; [exact (HR _ _ Gm)|]. intros E. discriminate E. }
  apply (lost_adds up down maxr fuel init RR Q) in Eb; [|intros c E; discriminate E].
  assert (A2 : adds RR Q b1 y).
  { subst y. destruct (i_tick i); [apply adds_besides, check_all_spec|apply adds_refl; reflexivity]. }
  destruct (adds_trans _ _ _ _ _ (adds_trans _ _ _ _ _ Ea Eb) A2) as [l1 [E1 F1]]. cbn [add_tr sv_tr] in E1.
  assert (H : forall e, In e (hist (sv_tr y)) -> In (ACall e) l1 \/ In e (hist (sv_tr x))).
  { intros e He. rewrite E1 in He. unfold hist in He. rewrite !flat_map_app in He. apply in_app_or in He. destruct He as [He|He].
    - left. apply in_flat_map in He. destruct He as [z [Hz He]]. destruct z; try (destruct He; fail). destruct He as [<-|[]]. exact Hz.
    - right. apply in_app_or in He. destruct He as [He|He]; auto. exfalso. unfold recv in He. destruct (i_get i); destruct He. }
  rewrite Forall_forall in F1. destruct Hb as [Hb|Hb]; destruct (H _ Hb) as [Hn|Ho].
  - right. exact (F1 _ Hn).
  - left. left. exact Ho.
  - right. exact (F1 _ Hn eq_refl).
  - left. right. exact Ho.
Qed.

(* ---- one connection ---- *)
Definition sending (m : Net.cpc payload) : option payload := match m with Net.Send0 a | Net.Send1 a | Net.Send2 a => Some a | _ => None end.
Section Link.
  Variable dumps : Net.nmsg payload -> option Tcp.bytes.
  Variable loads : Tcp.bytes -> option (Net.nmsg payload).
  Local Notation kstep := (Net.kstep dumps loads).
  Lemma break_quiet l l' ns : kstep Net.KBreak l = Some (l', ns) -> Net.c_rets l' = Net.c_rets l /\ Net.c_main l' = Net.c_main l /\ NetFacts.n_sent ns = [].
  Proof. cbn [Net.kstep]. destruct (_ || _); [|discriminate]. intros H. apply some_inj, pair_equal_spec in H. destruct H as [<- <-]. auto. Qed.
  Lemma send_quiet a l l' ns : kstep (Net.KSend a) l = Some (l', ns) -> Net.c_rets l' = Net.c_rets l /\ Net.c_main l' = Net.c_main l /\ NetFacts.n_sent ns = [a].
  Proof. cbn [Net.kstep]. destruct (Net.s_open l); [|discriminate]. intros H. apply some_inj, pair_equal_spec in H. destruct H as [<- <-]. auto. Qed.
  Lemma call_step c l l' ns : kstep (Net.KCall c) l = Some (l', ns) -> Net.c_rets l' = Net.c_rets l /\ NetFacts.n_sent ns = [] /\
    sending (Net.c_main l') = match c with Net.CSend a => Some a | _ => None end.
  Proof. cbn [Net.kstep]. destruct (Net.c_main l); try discriminate. intros H. apply some_inj, pair_equal_spec in H. destruct H as [<- <-]. destruct c; auto. Qed.
  Lemma main_sends k l l' ns : k = Net.KMain \/ k = Net.KTimeout -> kstep k l = Some (l', ns) -> exists rs, Net.c_rets l' = Net.c_rets l ++ rs /\ NetFacts.n_sent ns = [] /\
    (forall a, In a (NetFacts.sents rs) -> sending (Net.c_main l) = Some a) /\ forall a, sending (Net.c_main l') = Some a -> sending (Net.c_main l) = Some a.
  Proof.
    intros K H. destruct K as [-> | ->]; cbn [Net.kstep] in H.
    - destruct (Net.main_step l) as [l1|] eqn:E; [|discriminate]. apply some_inj, pair_equal_spec in H. destruct H as [<- <-]. unfold Net.main_step in E.
      assert (X : forall r m q, sending m = None -> (forall a, r = Net.RSent a -> sending (Net.c_main l) = Some a) -> Net.c_rets l1 = Net.c_rets q ++ [r] -> Net.c_main l1 = m -> Net.c_rets q = Net.c_rets l ->
        exists rs, Net.c_rets l1 = Net.c_rets l ++ rs /\ NetFacts.n_sent (@nil (Net.note payload)) = [] /\
          (forall a, In a (NetFacts.sents rs) -> sending (Net.c_main l) = Some a) /\ forall a, sending (Net.c_main l1) = Some a -> sending (Net.c_main l) = Some a).
      { intros r m q Hm Hr E1 E2 E3. exists [r]. rewrite E1, E3. split; auto. split; auto. rewrite E2, Hm. split; [|discriminate].
        intros a Ha. destruct r; cbn in Ha; try tauto. destruct Ha as [->|[]]. auto. }
      assert (Y : forall m, (forall a, sending m = Some a -> sending (Net.c_main l) = Some a) -> Net.c_rets l1 = Net.c_rets l -> Net.c_main l1 = m ->
        exists rs, Net.c_rets l1 = Net.c_rets l ++ rs /\ NetFacts.n_sent (@nil (Net.note payload)) = [] /\
          (forall a, In a (NetFacts.sents rs) -> sending (Net.c_main l) = Some a) /\ forall a, sending (Net.c_main l1) = Some a -> sending (Net.c_main l) = Some a).
      { intros m Hm E1 E2. exists []. rewrite E1, app_nil_r, E2. repeat split; auto; try (intros a []). }
      destruct (Net.c_main l) eqn:Em; try discriminate;
        repeat match type of E with context [match ?b with _ => _ end] => destruct b eqn:? end; try discriminate E; apply some_inj in E; subst l1;
        first [eapply Y; [|reflexivity|reflexivity]; cbn; intros; congruence|eapply X; [| |reflexivity|reflexivity|reflexivity]; cbn; intros; congruence].
    - destruct (Net.c_main l) eqn:Em; try discriminate. destruct (Net.c_mq l); try discriminate. apply some_inj, pair_equal_spec in H. destruct H as [<- <-].
      exists [Net.RGotten None]. cbn. repeat split; auto; try tauto.
  Qed.
End Link.

(* ---- the runs ---- *)
Local Notation link x st := (Net.n_link (x_net x) st).
Local Notation outs x st := (NetFacts.sent_to st (Net.n_rets (x_net x))).
Local Notation tbx x st := (Pool.tbl (Pool.ps_sys (x_ps x)) st).
(* what the worker st of task t may say; [C]: the blocks whose bodies have ended well *)
Definition good (tr : list act) (C : block -> Prop) (st t : nat) (m : message) : Prop :=
  mok tr st t m /\ match m with MRelease pb => pb_status pb = SUCCESS -> C (pb_block pb) | _ => True end.
Record own (tr : list act) (C : block -> Prop) (st t : nat) (rs : list (Net.cret payload)) (mn : Net.cpc payload) (p : pc) : Prop := {
  ow_said : forall a, In a (NetFacts.sents rs) \/ sending mn = Some a -> exists m, a = ToServer m /\ good tr C st t m;
  ow_todo : forall l b m, p = PSend l b -> In m l -> good tr C st t m;
  ow_work : forall pb, p = PWork pb -> In (ASend st pb) tr
}.
Lemma good_more l tr (C D : block -> Prop) st t m : (forall b, C b -> D b) -> good tr C st t m -> good (l ++ tr) D st t m.
Proof. intros I [A B]. split; [apply mok_more; exact A|]. destruct m; auto. Qed.
Lemma own_more l tr (C D : block -> Prop) st t rs mn p : (forall b, C b -> D b) -> own tr C st t rs mn p -> own (l ++ tr) D st t rs mn p.
Proof.
  intros I [A B E]. constructor.
  - intros a Ha. destruct (A a Ha) as [m [-> G]]. exists m. split; auto. eapply good_more; eauto.
  - intros k b m Hk Hm. eapply good_more; eauto.
  - intros pb Hp. apply in_or_app. auto.
Qed.
Lemma resume_own tr C st t p r : (forall l b m, p = PSend l b -> In m l -> good tr C st t m) -> (forall pb, p = PWork pb -> In (ASend st pb) tr) ->
  (forall pb, r = Net.RGotten (Some (Net.App (ToWorker (Client.RSend pb)))) -> In (ASend st pb) tr) ->
  (forall l b m, resume p r = PSend l b -> In m l -> good tr C st t m) /\ forall pb, resume p r = PWork pb -> In (ASend st pb) tr.
Proof.
  intros A B G.
  destruct r as [|a|[[[|[]]| |]|]| |]; destruct p as [|[|m0 l0] b0| | | |]; cbn [resume]; split; intros; try discriminate; try congruence.
  all: try (match goal with H : PSend _ _ = PSend _ _ |- _ => injection H as <- <- end; try (destruct H0; fail)).
  all: try (eapply A; [reflexivity|right; eassumption]).
  match goal with H : PWork _ = PWork _ |- _ => injection H as <- end. apply G. reflexivity.
Qed.
Lemma resumes_own tr C st t : forall rs p, (forall l b m, p = PSend l b -> In m l -> good tr C st t m) -> (forall pb, p = PWork pb -> In (ASend st pb) tr) ->
  (forall pb, In (Net.RGotten (Some (Net.App (ToWorker (Client.RSend pb))))) rs -> In (ASend st pb) tr) ->
  (forall l b m, fold_left resume rs p = PSend l b -> In m l -> good tr C st t m) /\ forall pb, fold_left resume rs p = PWork pb -> In (ASend st pb) tr.
Proof.
  induction rs as [|r rs IH]; intros p A B G; cbn [fold_left]; [split; auto|].
  destruct (resume_own tr C st t p r A B) as [A' B']; [intros pb E; apply G; left; exact E|]. apply IH; auto. intros pb H. apply G. right. exact H.
Qed.
Lemma in_fits dumps (a : payload) l : In (Net.App a) (P_Net.fits dumps l) -> In a l.
Proof.
  unfold P_Net.fits. intros H. repeat (apply filter_In in H; destruct H as [H _]). apply in_map_iff in H. destruct H as [b [E Hb]]. injection E as ->. exact Hb.
Qed.

Section Runs.
  Variables (tasks : list task) (ord : list block -> list block) (ordt : list nat -> list nat) (d : dgraph) (s0 : sched) (fuel : nat).
  Variables (init : nat -> res unit) (nw : nat -> Z) (mbf : Z) (h0 : whole).
  Variable dumps : Net.nmsg payload -> option Tcp.bytes.
  Variable loads : Tcp.bytes -> option (Net.nmsg payload).
  Hypothesis SE : setup tasks ord ordt d s0 fuel init nw mbf h0.
  Hypothesis L : P_Net.lossless dumps loads.
  Local Notation up := (dg_up ord ordt d).
  Local Notation down := (dg_down ord ordt d).
  Local Notation maxr := (dg_max_retries d).
  Local Notation keys := (dedup Nat.eqb (map t_id tasks)).
  Local Notation xstep := (xstep up down maxr fuel init nw mbf dumps loads).
  Local Notation lstep := (lstep up down maxr fuel init nw mbf dumps loads).
  Local Notation lruns := (lruns up down maxr fuel init nw mbf dumps loads).
  Local Notation AI := (AI tasks ord ordt d s0 fuel init nw mbf).
  Local Notation nstep := (Net.nstep dumps loads).
  Local Notation reached := (reached dumps loads).
  Local Notation trx x := (sv_tr (x_sv x)).
  Local Notation ownx C x st t := (own (trx x) C st t (rets x st) (Net.c_main (link x st)) (x_pc x st)).

  Definition lclaimed (ms : list lmove) (b : block) : Prop :=
    exists ms1 x1 m x2 ms2, ms = ms1 ++ LDo m :: ms2 /\ lruns (wire_init h0) ms1 x1 /\ xstep x1 m x2 /\ xclaims b x1 m.
  Lemma lclaimed_more ms m b : lclaimed ms b -> lclaimed (ms ++ [m]) b.
  Proof. intros [ms1 [x1 [k [x2 [ms2 [-> H]]]]]]. exists ms1, x1, k, x2, (ms2 ++ [m]). rewrite <- app_assoc. auto. Qed.
  Lemma lclaimed_now ms x m x' b : lruns (wire_init h0) ms x -> xstep x m x' -> xclaims b x m -> lclaimed (ms ++ [LDo m]) b.
  Proof. intros R S C. exists ms, x, m, x', []. auto. Qed.

  Record LI (ms : list lmove) (x : wire) : Prop := {
    li_ai : exists am h, AI am h /\ h_sv h = x_sv x /\ h_ps h = x_ps x /\ aserved am = lserved ms /\
      forall st e, In (LDo (XRaise st e)) ms <-> exists n, In (ARaise st e n) am;
    li_run : reached (x_net x);
    li_none : forall st, tbx x st = None -> rets x st = [] /\ sending (Net.c_main (link x st)) = None /\ x_pc x st = PNew;
    li_own : forall st t s, tbx x st = Some (t, s) -> ownx (lclaimed ms) x st t;
    li_outs : forall st pb, In (ToWorker (Client.RSend pb)) (outs x st) -> In (ASend st pb) (trx x);
    li_todo : forall st pb, In (st, Client.RSend pb) (x_todo x) -> In (ASend st pb) (trx x);
    li_done : forall b, succeeded (hist (trx x)) b -> lclaimed ms b
  }.
  Lemma task_of am h st t s : AI am h -> Pool.tbl (Pool.ps_sys (h_ps h)) st = Some (t, s) -> w_task (h_w h st) = t.
  Proof. intros A H. apply (ai_procs _ _ _ _ _ _ _ _ _ _ _ A _ _ _ H). Qed.

  (* one connection and its worker move *)
  Lemma li_keep ms x m x' st t s : LI ms x -> tbx x st = Some (t, s) -> x_sv x' = x_sv x -> x_ps x' = x_ps x -> x_todo x' = x_todo x -> reached (x_net x') ->
    (forall j, j <> st -> link x' j = link x j /\ x_pc x' j = x_pc x j) -> (forall j, outs x' j = outs x j) ->
    ownx (lclaimed (ms ++ [m])) x' st t -> lserved [m] = [] -> (forall j e, m <> LDo (XRaise j e)) -> LI (ms ++ [m]) x'.
  Proof.
    intros I Ht E1 E2 E3 Rn El Eo O Sv Nr. constructor; rewrite ?E1, ?E2, ?E3; auto.
    - destruct (li_ai _ _ I) as [am [h [A [B1 [B2 [B3 B4]]]]]]. exists am, h. split; auto. split; auto. split; auto. split.
      + rewrite B3. unfold lserved in *. rewrite flat_map_app, Sv, app_nil_r. reflexivity.
      + intros j e. rewrite <- B4. rewrite in_app_iff. split; auto. intros [H|[H|[]]]; auto. destruct (Nr _ _ H).
    - intros j Hj. destruct (Nat.eq_dec j st) as [->|Nj]; [congruence|]. destruct (El j Nj) as [Q1 Q2]. unfold rets. rewrite Q1, Q2. apply (li_none _ _ I). exact Hj.
    - intros j u q Hj. destruct (Nat.eq_dec j st) as [->|Nj].
      + rewrite Ht in Hj. injection Hj as <- <-. rewrite E1 in O. exact O.
      + destruct (El j Nj) as [Q1 Q2]. unfold rets. rewrite Q1, Q2. apply (own_more []) with (C := lclaimed ms); [intros b; apply lclaimed_more|]. eapply li_own; eauto.
    - intros j pb. rewrite Eo. apply (li_outs _ _ I).
    - apply (li_todo _ _ I).
    - intros b Hb. apply lclaimed_more. apply (li_done _ _ I). exact Hb.
  Qed.
  Lemma own_now ms m x st t s : LI ms x -> tbx x st = Some (t, s) -> ownx (lclaimed (ms ++ [m])) x st t.
  Proof. intros I Ht. apply (own_more []) with (C := lclaimed ms); [intros b; apply lclaimed_more|]. eapply li_own; eauto. Qed.
  (* a step of a connection that is none of its main thread *)
  Lemma li_quiet ms x m st k n : LI ms x -> tbx x st <> None -> nstep (Net.NLink st k) (x_net x) = Some n ->
    (forall l l' ns, Net.kstep dumps loads k l = Some (l', ns) -> Net.c_rets l' = Net.c_rets l /\ Net.c_main l' = Net.c_main l /\ NetFacts.n_sent ns = []) ->
    lserved [m] = [] -> (forall j e, m <> LDo (XRaise j e)) -> LI (ms ++ [m]) (set_net x n).
  Proof.
    intros I Kn Hn Q Sv Nr. destruct (tbx x st) as [[t s]|] eqn:Ht; [|congruence].
    destruct (WireNet.nstep_link _ _ _ _ _ _ Hn) as [l [ns [Hk [El [Eo [_ Er]]]]]]. destruct (Q _ _ _ Hk) as [Q1 [Q2 Q3]].
    eapply (li_keep ms x m _ st t s); cbn [set_net x_sv x_ps x_net x_pc x_todo]; auto.
    - eapply reached_step; [apply I|exact Hn].
    - intros j. rewrite Er, Q3. cbn. rewrite app_nil_r. reflexivity.
    - unfold rets. cbn [set_net x_net]. rewrite El, Q1, Q2. eapply own_now; eauto.
  Qed.
  Lemma exit_known ps st c : forall j t s, Pool.tbl (Pool.ps_sys (fst (Pool.pstep nw mbf (Pool.PExit st c) ps))) j = Some (t, s) ->
    exists s', Pool.tbl (Pool.ps_sys ps) j = Some (t, s').
  Proof.
    intros j t s. cbn [Pool.pstep fst Pool.ps_sys]. destruct (Pool.tbl (Pool.ps_sys ps) st) as [[u [|c']]|] eqn:E; eauto. unfold Pool.set_proc. cbn [Pool.tbl].
    destruct (Nat.eqb_spec st j) as [->|]; eauto. intros H. injection H as <- <-. eauto.
  Qed.
  Lemma exit_none ps st c : forall j, Pool.tbl (Pool.ps_sys (fst (Pool.pstep nw mbf (Pool.PExit st c) ps))) j = None -> Pool.tbl (Pool.ps_sys ps) j = None.
  Proof.
    intros j. cbn [Pool.pstep fst Pool.ps_sys]. destruct (Pool.tbl (Pool.ps_sys ps) st) as [[u [|c']]|] eqn:E; auto. unfold Pool.set_proc. cbn [Pool.tbl].
    destruct (Nat.eqb_spec st j) as [->|]; auto. discriminate.
  Qed.
  (* a process ends *)
  Lemma li_gone ms x m ps : LI ms x -> (forall j t s, Pool.tbl (Pool.ps_sys ps) j = Some (t, s) -> exists s', tbx x j = Some (t, s')) ->
    (forall j, Pool.tbl (Pool.ps_sys ps) j = None -> tbx x j = None) -> lserved [m] = [] ->
    (exists am h, AI am h /\ h_sv h = x_sv x /\ h_ps h = ps /\ aserved am = lserved ms /\
      forall st e, In (LDo (XRaise st e)) (ms ++ [m]) <-> exists n, In (ARaise st e n) am) -> LI (ms ++ [m]) (set_ps x ps).
  Proof.
    intros I K N Sv [am [h [A [B1 [B2 [B3 B4]]]]]]. constructor; cbn [set_ps x_sv x_ps x_net x_pc x_todo]; try apply I.
    - exists am, h. split; auto. split; auto. split; auto. split; auto. rewrite B3. unfold lserved in *. rewrite flat_map_app, Sv, app_nil_r. reflexivity.
    - intros j Hj. apply (li_none _ _ I). auto.
    - intros j t s Hj. destruct (K _ _ _ Hj) as [s' Hs]. unfold rets. cbn [set_ps x_net]. eapply own_now; eauto.
    - intros b Hb. apply lclaimed_more. apply (li_done _ _ I). exact Hb.
  Qed.
  (* what the server gets was said *)
  Lemma got_said x n r st m : reached (x_net x) -> nstep Net.NGet (x_net x) = Some n -> Net.n_rets n = Net.n_rets (x_net x) ++ [r] ->
    got_of r = Some (GotMessage st m) -> In (ToServer m) (NetFacts.sents (rets x st)).
  Proof.
    intros [xs Hx] Hn Er Eg. destruct (WireNet.no_get _ _ _ _ _ Hn Er) as [_ Nr].
    destruct r as [c [[m'|]| |]| |c []|]; try discriminate. cbn in Eg. injection Eg as -> ->.
    destruct (P_Net.C55_to_server dumps loads (P_Net.lossless_pickles _ _ L) _ _ Hx st) as [rest E]. eapply in_fits. unfold rets. rewrite E.
    apply in_or_app. right. apply in_or_app. left. apply of_conn_in. rewrite Nr. left. reflexivity.
  Qed.
  Lemma li_message ms x n r st m am h : LI ms x -> AI am h -> h_sv h = x_sv x -> h_ps h = x_ps x ->
    nstep Net.NGet (x_net x) = Some n -> Net.n_rets n = Net.n_rets (x_net x) ++ [r] -> got_of r = Some (GotMessage st m) ->
    known h st /\ good (trx x) (lclaimed ms) st (w_task (h_w h st)) m.
  Proof.
    intros I A B1 B2 Hn Er Eg. pose proof (got_said _ _ _ _ _ (li_run _ _ I) Hn Er Eg) as S.
    destruct (tbx x st) as [[t s]|] eqn:Ht.
    - unfold known, proc. rewrite B2, Ht. split; [discriminate|].
      assert (E : w_task (h_w h st) = t) by (eapply task_of; [exact A|rewrite B2; exact Ht]). rewrite E.
      destruct (ow_said _ _ _ _ _ _ _ (li_own _ _ I _ _ _ Ht) _ (or_introl S)) as [m' [Em G]]. injection Em as <-. exact G.
    - destruct (li_none _ _ I _ Ht) as [Q _]. rewrite Q in S. destruct S.
  Qed.
  (* the iteration hears what some worker said *)
  Lemma li_heard ms x n r i : LI ms x -> nstep Net.NGet (x_net x) = Some n -> Net.n_rets n = Net.n_rets (x_net x) ++ [r] -> got_of r = Some (i_get i) ->
    i_health i = Ok tt -> exists am h, AI am h /\ h_sv h = x_sv x /\ h_ps h = x_ps x /\ aserved am = lserved ms /\
      (forall st e, In (LDo (XRaise st e)) ms <-> exists k, In (ARaise st e k) am) /\ hears h i.
  Proof.
    intros I Hn Er Eg Eh. destruct (li_ai _ _ I) as [am [h [A [B1 [B2 [B3 B4]]]]]]. destruct (i_get i) as [st m| | |e] eqn:G.
    - destruct (li_message _ _ _ _ _ _ _ _ I A B1 B2 Hn Er Eg) as [Kn [Mk _]].
      exists (am ++ [AMove (HConnect st)]), (hput h st (Worker (w_task (h_w h st)) Dead [m] [])).
      split; [apply (ai_put tasks ord ordt d s0 fuel init nw mbf); auto; try discriminate; intros _; constructor; cbn; try discriminate; try tauto; intros m' [<-|[]]; rewrite B1; exact Mk|].
      split; [exact B1|]. split; [exact B2|]. split; [unfold aserved in *; rewrite flat_map_app; cbn; rewrite app_nil_r; exact B3|]. split.
      + intros j e. rewrite B4. split; intros [k Hk]; exists k; [apply in_or_app; auto|]. apply in_app_or in Hk. destruct Hk as [Hk|[Hk|[]]]; [auto|discriminate].
      + split; auto. rewrite G. split; [exact Kn|]. exists []. cbn [hput h_w]. rewrite Nat.eqb_refl. reflexivity.
    - exists am, h. repeat (split; auto); try (apply B4; auto). rewrite G. exact Logic.I.
    - exists am, h. repeat (split; auto); try (apply B4; auto). rewrite G. exact Logic.I.
    - destruct r as [c [[]| |]| |c []|]; discriminate.
  Qed.

  Lemma li_serve ms x i n r sv l ps : LI ms x -> lruns (wire_init h0) ms x -> xstep x (XServe i) (Wire sv ps n (x_pc x) (sends l)) -> sv_stop (x_sv x) = false ->
    nstep Net.NGet (x_net x) = Some n -> Net.n_rets n = Net.n_rets (x_net x) ++ [r] -> got_of r = Some (i_get i) -> i_health i = Ok tt ->
    iteration up down maxr fuel init i (x_sv x) = Ok sv -> sv_tr sv = l ++ sv_tr (x_sv x) -> pools_do nw mbf (pool_acts l ++ [Pool.PHealth]) (x_ps x) = Ok ps ->
    LI (ms ++ [LDo (XServe i)]) (Wire sv ps n (x_pc x) (sends l)).
  Proof.
    intros I R Sx Sp Hn Er Eg Eh Ei El Ep. destruct (li_heard _ _ _ _ _ I Hn Er Eg Eh) as [am [h [A [B1 [B2 [B3 [B4 Hd]]]]]]].
    rewrite <- B1, <- B2 in *. destruct (pools_do_all nw mbf (fun _ => O) _ _ (fun s => deliver s l (taken (i_get i) s (h_w h s))) _ Ep) as [f Eo].
    pose proof (ah_serve _ _ _ _ _ _ _ _ _ _ _ _ _ _ _ _ _ A Sp Hd Ei El Eo) as A'.
    destruct (ah_events _ _ _ _ _ _ _ _ _ _ _ _ _ _ A Hd Ei El) as [Ev [NH [NE Pr]]]. destruct (ai_told _ _ _ _ _ _ _ _ _ _ _ A) as [es [T _]].
    assert (Wf : forall j, Pool.tbl (Pool.ps_sys (h_ps h)) j <> None -> wok (l ++ sv_tr (h_sv h)) j (deliver j l (taken (i_get i) j (h_w h j)))).
    { intros j Hj. apply wok_served. eapply ai_wok; eauto. }
    destruct (on_all_all nw mbf keys (sv_started sv) (wok (l ++ sv_tr (h_sv h))) (fun _ => O) (wok_lasting _) _ _ _ _ _ _ T Ev Pr Wf Eo) as [_ [_ [_ [K _]]]].
    destruct (WireNet.no_get _ _ _ _ _ Hn Er) as [Nl Nr]. rewrite B2 in K.
    assert (Le : forall j, rets (Wire sv ps n (x_pc x) (sends l)) j = rets x j) by (intros j; unfold rets; cbn [x_net]; rewrite Nl; reflexivity).
    constructor; cbn [x_sv x_ps x_net x_pc x_todo].
    - exists (am ++ [AMove (HServe i (fun _ => O))]), (Whole sv ps f). split; [exact A'|]. split; auto. split; auto. split.
      + unfold aserved, lserved in *. rewrite !flat_map_app, B3. reflexivity.
      + intros j e. rewrite in_app_iff, B4. split.
        * intros [[k Hk]|[H|[]]]; [|discriminate]. exists k. apply in_or_app. auto.
        * intros [k Hk]. apply in_app_or in Hk. destruct Hk as [Hk|[H|[]]]; [eauto|discriminate].
    - eapply reached_step; [apply I|exact Hn].
    - intros j Hj. rewrite Le, Nl. apply (li_none _ _ I). destruct (tbx x j) as [[t s]|] eqn:E; auto. destruct (K _ _ _ E) as [s' Q]. congruence.
    - intros j t s Hj. rewrite Le, Nl. destruct (tbx x j) as [[u q]|] eqn:E.
      + destruct (K _ _ _ E) as [s' Q]. rewrite Q in Hj. injection Hj as <- <-. rewrite El, B1. apply own_more with (C := lclaimed ms); [intros b; apply lclaimed_more|]. eapply li_own; eauto.
      + destruct (li_none _ _ I _ E) as [Q1 [Q2 Q3]]. rewrite Q1, Q3. constructor; try discriminate. intros a [[]|Q]. congruence.
    - intros j pb Hp. rewrite El. apply in_or_app. right. rewrite B1. apply (li_outs _ _ I). rewrite Er in Hp. unfold NetFacts.sent_to in *. rewrite flat_map_app in Hp.
      apply in_app_or in Hp. destruct Hp as [Hp|Hp]; auto. exfalso. destruct r as [| | |c a]; try (destruct Hp; fail). destruct Nr.
    - intros j pb Hp. rewrite El. apply in_or_app. left. destruct (in_sends _ _ _ Hp) as [[pb' [H1 H2]]|[t [_ H2]]]; [injection H2 as ->; exact H1|discriminate].
    - intros b Hb. destruct (iter_succeeded _ _ _ _ _ (lclaimed (ms ++ [LDo (XServe i)])) _ _ _ Ei) with (b := b) as [Q|Q]; auto.
      + intros k c Hk. eapply lclaimed_now; eauto. exists k. exact Hk.
      + intros st pb Gm Es. apply lclaimed_more. rewrite Gm in Eg. destruct (li_message _ _ _ _ _ _ _ _ I A B1 B2 Hn Er Eg) as [_ [_ Q]]. auto.
      + apply lclaimed_more. apply (li_done _ _ I). rewrite <- B1. exact Q.
  Qed.
  Lemma li_step ms x m x' : LI ms x -> lruns (wire_init h0) ms x -> lstep x m x' -> LI (ms ++ [m]) x'.
  Proof.
    intros I R S. destruct S as [m x' S|st n Kn Hn].
    2:{ eapply li_quiet; eauto using break_quiet; try discriminate. }
    pose proof S as Sx. destruct S as [st k n Io Kn Cs Hn|st t c n Ht Hn|st t c n Ht Rq Hn|st t k n rs Ht Hk Hn Er|st t pb o Ht Hp|st t c Ht|st t e Ht|i n r sv l ps Td Sp Hn Er Eg Eh Ec Ei El Ep|st r todo Td];
      unfold xproc in *.
    - eapply li_quiet; eauto; try discriminate. intros l l' ns. apply WireNet.io_quiet. exact Io.
    - eapply li_quiet; eauto using break_quiet; try discriminate. congruence.
    - destruct (WireNet.nstep_link _ _ _ _ _ _ Hn) as [l [ns [Hk [El [Eo [_ Er]]]]]]. destruct (call_step _ _ _ _ _ _ Hk) as [Q1 [Q2 Q3]].
      eapply (li_keep ms x _ _ st t Pool.Running); cbn [set_net x_sv x_ps x_net x_pc x_todo]; auto; try discriminate.
      + eapply reached_step; [apply I|exact Hn].
      + intros j. rewrite Er, Q2. cbn. rewrite app_nil_r. reflexivity.
      + unfold rets. cbn [set_net x_net]. rewrite El, Q1. destruct (own_now ms (LDo (XCall st)) x st t _ I Ht) as [O1 O2 O3]. constructor; auto.
        rewrite Q3. intros a [Ha|Ha]; [apply O1; auto|]. destruct c as [b| |]; try discriminate. injection Ha as ->.
        destruct (x_pc x st) as [|[|m q] []| | | |] eqn:Ep; cbn in Rq; try discriminate; injection Rq as <-; eexists; (split; [reflexivity|]).
        * split; [reflexivity|exact Logic.I].
        * eapply O2; [reflexivity|left; reflexivity].
        * eapply O2; [reflexivity|left; reflexivity].
    - destruct (WireNet.nstep_link _ _ _ _ _ _ Hn) as [l [ns [Hs [El [Eo [_ En]]]]]]. destruct (main_sends _ _ _ _ _ _ Hk Hs) as [rs' [Q1 [Q2 [Q3 Q4]]]].
      rewrite El, Q1 in Er. apply app_inv_head in Er. subst rs'.
      assert (Eo' : forall j, NetFacts.sent_to j (Net.n_rets n) = outs x j) by (intros j; rewrite En, Q2; cbn; rewrite app_nil_r; reflexivity).
      eapply (li_keep ms x _ _ st t Pool.Running); cbn [set_pc set_net x_sv x_ps x_net x_pc x_todo]; auto; try discriminate.
      + eapply reached_step; [apply I|exact Hn].
      + intros j Nj. split; auto. destruct (Nat.eqb_spec j st); [contradiction|reflexivity].
      + unfold rets. cbn [set_pc set_net x_net]. rewrite El, Q1, Nat.eqb_refl. destruct (own_now ms (LDo (XMain st k)) x st t _ I Ht) as [O1 O2 O3].
        destruct (resumes_own (trx x) (lclaimed (ms ++ [LDo (XMain st k)])) st t rs (x_pc x st) O2 O3) as [P1 P2].
        { intros pb Hp. apply (li_outs _ _ I). rewrite <- Eo'. destruct (reached_step _ _ _ _ _ (li_run _ _ I) Hn) as [xs Hx].
          destruct (P_Net.C55_to_client dumps loads (P_Net.lossless_pickles _ _ L) _ _ Hx st) as [rest E]. eapply in_fits. rewrite E. apply in_or_app. left.
          rewrite El, Q1, NetFacts.gottens_app. apply in_or_app. right. unfold NetFacts.gottens. apply in_flat_map. eexists. split; [exact Hp|]. left. reflexivity. }
        constructor; auto. intros a [Ha|Ha]; [|apply O1; auto]. rewrite NetFacts.sents_app in Ha. apply in_app_or in Ha. destruct Ha as [Ha|Ha]; apply O1; auto.
    - eapply (li_keep ms x _ _ st t Pool.Running); cbn [set_pc x_sv x_ps x_net x_pc x_todo]; auto; try discriminate.
      + apply I.
      + intros j Nj. split; auto. destruct (Nat.eqb_spec j st); [contradiction|reflexivity].
      + unfold rets. cbn [set_pc x_net]. rewrite Nat.eqb_refl. destruct (own_now ms (LDo (XBody st o)) x st t _ I Ht) as [O1 O2 O3].
        constructor; auto; [|discriminate]. intros q b m Eq Hm. injection Eq as <- _. split; [eapply returned_mok; eauto|].
        destruct m as [|pb'| | |]; try exact Logic.I. intros Es. eapply lclaimed_now; eauto. cbn. rewrite Hp.
        destruct o as [s|s|s]; destruct s; cbn in Hm; destruct Hm as [Hm|Hm]; try discriminate Hm; try (destruct Hm as [Hm|[]]); try discriminate Hm; try (destruct Hm; fail);
          injection Hm as <-; cbn in Es |- *; try discriminate Es; eauto.
    - eapply li_gone; eauto; [apply exit_known|apply exit_none|].
      destruct (li_ai _ _ I) as [am [h [A [B1 [B2 [B3 B4]]]]]].
      exists (am ++ [AMove (HConnect st)]), (Whole (h_sv h) (fst (Pool.pstep nw mbf (Pool.PExit st c) (h_ps h))) (h_w h)).
      split; [apply (ai_idle tasks ord ordt d s0 fuel init nw mbf am h _ _ [Pool.PExit st c]); auto; try discriminate; [intros v [<-|[]]; eauto|intros j Hj; split; auto; exact (ai_wok _ _ _ _ _ _ _ _ _ _ _ A j Hj)]|].
      split; auto. split; [cbn [h_ps]; rewrite B2; reflexivity|]. split; [unfold aserved in *; rewrite flat_map_app; cbn; rewrite app_nil_r; exact B3|].
      intros j e. rewrite in_app_iff, B4. split.
      + intros [[k Hk]|[H|[]]]; [|discriminate]. exists k. apply in_or_app. auto.
      + intros [k Hk]. apply in_app_or in Hk. destruct Hk as [Hk|[H|[]]]; [eauto|discriminate].
    - destruct (li_ai _ _ I) as [am [h [A [B1 [B2 [B3 B4]]]]]].
      assert (Hh : Pool.tbl (Pool.ps_sys (h_ps h)) st = Some (t, Pool.Running)) by (rewrite B2; exact Ht).
      pose proof (task_of _ _ _ _ _ A Hh) as Et.
      assert (Hk : In t keys) by (apply (ai_procs _ _ _ _ _ _ _ _ _ _ _ A _ _ _ Hh)).
      assert (Eq : forall j, Pool.tbl (Pool.ps_sys (queued nw mbf (x_ps x) t e)) j = tbx x j) by (intros j; unfold queued; destruct (_ <? _)%nat; reflexivity).
      eapply li_gone; eauto.
      + intros j u s Hj. destruct (exit_known _ _ _ _ _ _ Hj) as [s' Q]. rewrite Eq in Q. eauto.
      + intros j Hj. apply exit_none in Hj. rewrite Eq in Hj. exact Hj.
      + exists (am ++ [ARaise st e 0]), (Whole (h_sv h) (fst (Pool.pstep nw mbf (Pool.PExit st 0) (queued nw mbf (h_ps h) t e))) (h_w h)).
        split; [|split; auto; split; [cbn [h_ps]; rewrite B2; reflexivity|]; split; [unfold aserved in *; rewrite flat_map_app; cbn; rewrite app_nil_r; exact B3|]].
        * unfold queued. destruct (length (Pool.ps_err (h_ps h) t) <? 100)%nat eqn:Lt.
          -- apply (ai_idle tasks ord ordt d s0 fuel init nw mbf am h _ _ [Pool.PError t e; Pool.PExit st 0]); auto.
             ++ intros v [<-|[<-|[]]]; [right|left; eauto]. exists st, e. rewrite Et. split; auto. split; [congruence|]. eauto.
             ++ intros st' v n' _. exists t. split; auto. cbn. rewrite Nat.eqb_refl. destruct (Pool.ps_err _ _); discriminate.
             ++ intros j Hj. split; auto. exact (ai_wok _ _ _ _ _ _ _ _ _ _ _ A j Hj).
          -- apply (ai_idle tasks ord ordt d s0 fuel init nw mbf am h _ _ [Pool.PExit st 0]); auto.
             ++ intros v [<-|[]]. left. eauto.
             ++ intros st' v n' _. exists t. split; auto. cbn. intros Q. rewrite Q in Lt. discriminate.
             ++ intros j Hj. split; auto. exact (ai_wok _ _ _ _ _ _ _ _ _ _ _ A j Hj).
        * intros j v. rewrite in_app_iff, B4. split.
          -- intros [[k Hk']|[H|[]]]; [exists k; apply in_or_app; auto|]. injection H as -> ->. exists O. apply in_or_app. right. left. reflexivity.
          -- intros [k Hk']. apply in_app_or in Hk'. destruct Hk' as [Hk'|[H|[]]]; [eauto|]. injection H as -> -> _. right. left. reflexivity.
    - eapply li_serve; eauto.
    - assert (Ke : forall n, reached n -> (forall j, Net.c_rets (Net.n_link n j) = rets x j /\ Net.c_main (Net.n_link n j) = Net.c_main (link x j)) ->
        (forall j a, In a (NetFacts.sent_to j (Net.n_rets n)) -> In a (outs x j) \/ (j = st /\ a = ToWorker r)) -> LI (ms ++ [LDo XSend]) (Wire (x_sv x) (x_ps x) n (x_pc x) todo)).
      { intros n Rn Ln On. constructor; cbn [x_sv x_ps x_net x_pc x_todo]; auto.
        - destruct (li_ai _ _ I) as [am [h [A [B1 [B2 [B3 B4]]]]]]. exists am, h. split; auto. split; auto. split; auto. split.
          + rewrite B3. unfold lserved. rewrite flat_map_app. cbn. rewrite app_nil_r. reflexivity.
          + intros j e. rewrite <- B4, in_app_iff. split; auto. intros [H|[H|[]]]; auto. discriminate.
        - intros j Hj. unfold rets. cbn [x_net]. destruct (Ln j) as [-> ->]. apply (li_none _ _ I). exact Hj.
        - intros j t s Hj. unfold rets at 1. cbn [x_net]. destruct (Ln j) as [-> ->]. eapply own_now; eauto.
        - intros j pb Hp. destruct (On _ _ Hp) as [Q|[-> Q]]; [apply (li_outs _ _ I); exact Q|]. injection Q as <-. apply (li_todo _ _ I). rewrite Td. left. reflexivity.
        - intros j pb Hp. apply (li_todo _ _ I). rewrite Td. right. exact Hp.
        - intros b Hb. apply lclaimed_more. apply (li_done _ _ I). exact Hb. }
      destruct (nstep (Net.NLink st (Net.KSend (ToWorker r))) (x_net x)) as [n|] eqn:Hn; [|apply Ke; auto; apply I].
      destruct (WireNet.nstep_link _ _ _ _ _ _ Hn) as [l [ns [Hk [El [Eo [_ En]]]]]]. destruct (send_quiet _ _ _ _ _ _ Hk) as [Q1 [Q2 Q3]]. apply Ke.
      + eapply reached_step; [apply I|exact Hn].
      + intros j. destruct (Nat.eq_dec j st) as [->|Nj]; [rewrite El; auto|rewrite Eo; auto].
      + intros j a. rewrite En, Q3. unfold NetFacts.sent_to. rewrite flat_map_app. intros H. apply in_app_or in H. destruct H as [H|H]; auto. cbn in H.
        destruct (Nat.eqb_spec st j) as [->|]; [|destruct H]. destruct H as [<-|[]]. auto.
  Qed.
  Lemma li_init : LI [] (wire_init h0).
  Proof.
    constructor; cbn [wire_init x_sv x_ps x_net x_pc x_todo].
    - exists [], h0. split; [eapply ai_init; eauto|]. split; auto. split; auto. split; auto. intros st e. split; [intros []|intros [n []]].
    - exists []. reflexivity.
    - intros st _. auto.
    - intros st t s _. constructor; try discriminate. intros a [[]|Q]. discriminate.
    - intros st pb [].
    - intros st pb [].
    - intros b Hb. destruct (cl_init _ _ _ _ _ _ _ _ _ _ SE) as [_ C]. destruct (C b Hb) as [ms1 [h1 [m [h2 [ms2 [E _]]]]]]. destruct ms1; discriminate.
  Qed.
  Lemma li_runs ms x : lruns (wire_init h0) ms x -> LI ms x.
  Proof. intros R. induction R as [|ms x1 m x2 R IH S]; [apply li_init|]. eapply li_step; eauto. Qed.
End Runs.
