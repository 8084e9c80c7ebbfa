(* Runs over the network in which connections are lost (WireLoss.v) and a write that fails has left bytes behind that never arrive: no
   AttributeError comes out of the server's get_message.  Invariant. *)
From Coq Require Import Arith Lia.
From Verif Require Import SchedProps SchedExec DGFacts2 PipeRun P_SchedCE P_Sched SerialFacts P_Conv P_Serial ServerFacts ServerSteps
  ServerIdle P_Server P_Server2 P_ServerCE P_Outcome P_Notify PoolAll P_PoolFail P_SysEx P_SysCE.
From Verif Require Client Pool P_Pool P_Whole P_WholeEx P_WholeCE P_Cause Tcp Net NetFacts P_Net P_NetErr WireNet.
From Verif Require Import Sys SysFacts SysMeasure SysTrace WholeFair WholeSrv WholeSim WholeAny WholeAll WholeRun P_WholeAny Wire WireSim P_Wire
  WireAttr WireLoss P_WireLoss WireIntact.
Open Scope Z_scope.

Local Notation link x st := (Net.n_link (x_net x) st).
Local Notation gots x st := (NetFacts.got_from st (Net.n_rets (x_net x))).
Local Notation outs x st := (NetFacts.sent_to st (Net.n_rets (x_net x))).
Local Notation tbx x st := (Pool.tbl (Pool.ps_sys (x_ps x)) st).

(* ---- the runs ---- *)
(* tcp_stream.py:79-83: an awaited write of the server to the process st failed after it had begun *)
Definition late (st : nat) (ms : list lmove) : Prop := In (LDo (XNet st Net.KLateS)) ms.
Section Tail.
  Variables (up down : block -> list block) (maxr : nat -> Z) (fuel : nat) (init : nat -> res unit) (nw : nat -> Z) (mbf : Z).
  Variable dumps : Net.nmsg payload -> option Tcp.bytes.
  Variable loads : Tcp.bytes -> option (Net.nmsg payload).
  Local Notation lstep := (lstep up down maxr fuel init nw mbf dumps loads).
  Local Notation lruns := (lruns up down maxr fuel init nw mbf dumps loads).
  (* tornado's IOStream.write: the future is resolved when all bytes were handed to the socket; so of a write that failed some byte never
     arrives *)
  Inductive truns (x : wire) : list lmove -> wire -> Prop :=
  | truns_nil : truns x [] x
  | truns_step ms x1 m x2 : truns x ms x1 -> lstep x1 m x2 -> (forall st, late st (ms ++ [m]) -> Net.ch_wire (Net.dn (link x2 st)) <> []) -> truns x (ms ++ [m]) x2.
  Lemma truns_lruns x ms y : truns x ms y -> lruns x ms y.
  Proof. induction 1; econstructor; eauto. Qed.
  Lemma truns_late x ms y st : truns x ms y -> late st ms -> Net.ch_wire (Net.dn (link y st)) <> [].
  Proof. destruct 1 as [|ms x1 m x2 R S T]; [intros []|apply T]. Qed.
End Tail.

(* ---- one direction of a connection ---- *)
Section Chan.
  Context {A : Type} (dumps : Net.nmsg A -> option Tcp.bytes).
  Lemma wire_owes b P O h : NetFacts.CInv dumps b P O h -> Net.ch_wire h <> [] -> (length O < length P)%nat.
  Proof.
    intros [F [D [R [E [HD [HR HS]]]]]] Ne. pose proof (f_equal (@length _) HR) as Q. rewrite app_length in Q. pose proof (filter_len (NetFacts.fit dumps) F). subst P. rewrite app_length.
    destruct R as [|m R]; [|cbn in Q; lia]. destruct (Net.ch_st h).
    - cbn in HS. apply app_eq_nil in HS. destruct HS as [_ X]. contradiction.
    - destruct HS as [? [? [X _]]]. discriminate.
    - destruct HS as [? [? [X _]]]. discriminate.
  Qed.
  Lemma all_read b P O h : NetFacts.CInv dumps b P O h -> (length (filter (NetFacts.fit dumps) P) <= length O)%nat -> Net.ch_st h = Net.RSize.
  Proof.
    intros [F [D [R [E [HD [HR HS]]]]]] Le. subst P. rewrite filter_app, HR, !app_length in Le. destruct R as [|m R]; [|cbn in Le; lia].
    destruct (Net.ch_st h); auto; destruct HS as [? [? [X _]]]; discriminate.
  Qed.
  Lemma true_len P O h : NetFacts.CInv dumps true P O h -> (length O + length (Net.ch_cbs h) <= length P)%nat.
  Proof.
    intros [F [D [R [E [HD [HR HS]]]]]]. rewrite HD in E by reflexivity. subst P. pose proof (f_equal (@length _) HR) as Q. rewrite app_length in Q. pose proof (filter_len (NetFacts.fit dumps) F). rewrite app_length.
    cbn. lia.
  Qed.
  (* what is not yet written does not count *)
  Lemma true_drop F O h h' m : NetFacts.CInv dumps true (F ++ Net.ch_cbs h) O h -> Net.ch_cbs h = m :: Net.ch_cbs h' ->
    Net.ch_wire h' = Net.ch_wire h -> Net.ch_st h' = Net.ch_st h -> Net.ch_buf h' = Net.ch_buf h -> NetFacts.CInv dumps true (F ++ Net.ch_cbs h') O h'.
  Proof.
    intros [F' [D [R [E [HD [HR HS]]]]]] Ec Ew Es Eb. rewrite HD in E by reflexivity. apply app_inv_tail in E. subst F'. exists F, [], R. rewrite Es, Eb, Ew. auto.
  Qed.
End Chan.

(* ---- the program of a worker ---- *)
Definition waits_on (said : list message) (l : Net.link payload) : Prop :=
  (exists s t, said = s ++ [MAcquire t] /\ (asked s <= length (NetFacts.gottens (Net.c_rets l)))%nat) /\ ~ In Net.RDisconnected (Net.c_rets l).
Definition tprog (p : pc) (l : Net.link payload) : Prop :=
  exists said, NetFacts.sents (Net.c_rets l) = map ToServer said /\
  match p with
  | PWait => waits_on said l
  | PSend r _ => ((asked said <= length (NetFacts.gottens (Net.c_rets l)))%nat /\ asked r = 0%nat) /\ ~ In Net.RDisconnected (Net.c_rets l)
  | PEnd => (asked said <= length (NetFacts.gottens (Net.c_rets l)))%nat \/ waits_on said l
  | _ => (asked said <= length (NetFacts.gottens (Net.c_rets l)))%nat /\ ~ In Net.RDisconnected (Net.c_rets l)
  end.
Lemma tprog_same p l l' : Net.c_rets l' = Net.c_rets l -> tprog p l -> tprog p l'.
Proof. intros E. unfold tprog, waits_on. rewrite E. auto. Qed.
Section Prog.
  Variable dumps : Net.nmsg payload -> option Tcp.bytes.
  Variable loads : Tcp.bytes -> option (Net.nmsg payload).
  Local Notation kstep := (Net.kstep dumps loads).
  Lemma not_disc (l : list (Net.cret payload)) r : ~ In Net.RDisconnected l -> r <> Net.RDisconnected -> ~ In Net.RDisconnected (l ++ [r]).
  Proof. intros N Q H. apply in_app_or in H. destruct H as [H|[H|[]]]; auto. Qed.
  Lemma tprog_goes t p k l l' ns rs : main_ok t p (Net.c_main l) -> k = Net.KMain \/ k = Net.KTimeout -> kstep k l = Some (l', ns) ->
    Net.c_rets l' = Net.c_rets l ++ rs -> tprog p l -> tprog (fold_left resume rs p) l'.
  Proof.
    intros M K H Er [said [Es W]]. unfold tprog, waits_on in *. rewrite Er, NetFacts.sents_app, NetFacts.gottens_app.
    destruct (main_rets _ _ _ _ _ _ _ K H Er) as [->|[r [-> Y]]].
    { cbn [fold_left]. exists said. unfold NetFacts.sents at 2, NetFacts.gottens at 2 4 6 8 10 12. cbn. rewrite !app_nil_r. split; auto. }
    cbn [fold_left]. rewrite app_length. destruct r as [|a|[m|]| |e]; cbn [why] in Y; cbn [NetFacts.sents NetFacts.gottens flat_map app length]; rewrite ?app_nil_r, ?Nat.add_0_r.
    - exists said. split; auto. rewrite Y in M. destruct p; cbn [resume]; try (destruct M as [M|M]; discriminate); try discriminate M.
      + destruct W as [W1 W2]. split; [auto|]. apply not_disc; auto. discriminate.
      + destruct M as [M|[a [_ [M|[M|M]]]]]; discriminate.
      + destruct M as [M|[M|[M|M]]]; discriminate.
      + destruct M as [M|[M|[M|M]]]; discriminate.
    - rewrite Y in M. destruct p as [|ml b| |pb| |]; try (destruct M as [M|M]; discriminate); try discriminate M; try (destruct M as [M|[M|[M|M]]]; discriminate).
      destruct M as [M|[a' [Rq M]]]; [discriminate|]. destruct M as [M|[M|M]]; try discriminate. injection M as <-. destruct W as [[W1 W2] W3]. destruct ml as [|m ml]; cbn in Rq.
      + destruct b; [|discriminate]. injection Rq as <-. cbn [resume]. exists (said ++ [MAcquire t]). rewrite map_app, Es. split; auto. split; [eauto|]. apply not_disc; auto. discriminate.
      + injection Rq as <-. cbn [resume]. exists (said ++ [m]). rewrite map_app, Es. split; auto. change (m :: ml) with ([m] ++ ml) in W2. rewrite asked_app in *. split; [lia|]. apply not_disc; auto. discriminate.
    - rewrite Y in M. exists said. split; auto. destruct p as [|ml b| |pb| |]; try (destruct M as [M|M]; discriminate); try discriminate M; try (destruct M as [M|[M|[M|M]]]; discriminate); try (destruct M as [M|[a [_ [M|[M|M]]]]]; discriminate).
      destruct W as [[s [u [-> W]]] W3]. assert (Q : (asked (s ++ [MAcquire u]) <= length (flat_map (fun r => match r with Net.RGotten (Some m0) => [m0] | _ => [] end) (Net.c_rets l)) + 1)%nat) by (rewrite asked_app; cbn; unfold NetFacts.gottens in W; lia).
      assert (N : ~ In Net.RDisconnected (Net.c_rets l ++ [Net.RGotten (Some m)])) by (apply not_disc; auto; discriminate).
      destruct m as [[|[]]| |]; cbn [resume]; auto.
    - rewrite Y in M. exists said. split; auto. destruct p as [|ml b| |pb| |]; try (destruct M as [M|M]; discriminate); try discriminate M; try (destruct M as [M|[M|[M|M]]]; discriminate); try (destruct M as [M|[a [_ [M|[M|M]]]]]; discriminate).
      destruct W as [W1 W3]. cbn [resume]. split; [exact W1|]. apply not_disc; auto. discriminate.
    - exists said. split; auto. destruct Y as [Y|Y]; rewrite Y in M; destruct p as [|ml b| |pb| |]; try (destruct M as [M|M]; discriminate); try discriminate M; try (destruct M as [M|[M|[M|M]]]; discriminate); try (destruct M as [M|[a [_ [M|[M|M]]]]]; discriminate);
        cbn [resume]; left; apply W.
    - exists said. split; auto. destruct p as [|ml b| |pb| |]; cbn [resume]; try (left; apply W; fail).
      + right. destruct W as [W1 W3]. split; [exact W1|]. apply not_disc; auto. discriminate.
      + destruct W as [W|[W1 W3]]; [left; exact W|right]. split; [exact W1|]. apply not_disc; auto. discriminate.
  Qed.
  Lemma main_mq k l l' ns : k = Net.KMain \/ k = Net.KTimeout -> kstep k l = Some (l', ns) ->
    Net.dn l' = Net.dn l /\ (length (NetFacts.gottens (Net.c_rets l') ++ Net.c_mq l') <= length (NetFacts.gottens (Net.c_rets l) ++ Net.c_mq l))%nat.
  Proof.
    intros [-> | ->] H; cbn [Net.kstep] in H.
    - destruct (Net.main_step l) as [l1|] eqn:Hm; [|discriminate]. apply some_inj, pair_equal_spec in H. destruct H as [<- _].
      unfold Net.main_step in Hm. destruct (Net.c_main l); try discriminate;
        repeat match type of Hm with context [match ?b with _ => _ end] => destruct b eqn:? end; try discriminate; apply some_inj in Hm; subst l1; (split; [reflexivity|]);
        unfold NetFacts.gottens; cbn; rewrite ?flat_map_app, ?app_length; cbn [flat_map app length]; try lia;
        repeat match goal with H : Net.c_mq l = _ |- _ => rewrite H; clear H end; cbn [length]; lia.
    - destruct (Net.c_main l); try discriminate. destruct (Net.c_mq l) eqn:E; [|discriminate]. apply some_inj, pair_equal_spec in H. destruct H as [<- _].
      unfold NetFacts.gottens. cbn. split; [reflexivity|]. rewrite E, flat_map_app, !app_length. cbn. lia.
  Qed.

  (* ---- an answer that never comes ---- *)
  Definition DI (n : nat) (l : Net.link payload) : Prop :=
    exists F O, NetFacts.CInv dumps true (F ++ Net.ch_cbs (Net.dn l)) O (Net.dn l) /\ (length (NetFacts.gottens (Net.c_rets l) ++ Net.c_mq l) <= length O)%nat /\ (length F < n)%nat.
  Lemma di_keep n n' l l' : Net.dn l' = Net.dn l -> (length (NetFacts.gottens (Net.c_rets l') ++ Net.c_mq l') <= length (NetFacts.gottens (Net.c_rets l) ++ Net.c_mq l))%nat ->
    (n <= n')%nat -> DI n l -> DI n' l'.
  Proof. intros E Le N [F [O [C [B1 B2]]]]. exists F, O. rewrite E. split; auto. lia. Qed.
  Lemma di_owes n l : DI n l -> (length (NetFacts.gottens (Net.c_rets l)) < n)%nat.
  Proof. intros [F [O [C [B1 B2]]]]. apply true_len in C. rewrite app_length in *. lia. Qed.
  (* the stream is closed by a write that fails at once *)
  Lemma di_enter l h ss : Net.flush dumps false (Net.dn l) = Some h -> forall P O, NetFacts.CInv dumps true P O (Net.dn l) -> (length P <= ss)%nat ->
    (length (NetFacts.gottens (Net.c_rets l) ++ Net.c_mq l) <= length O)%nat -> forall l', Net.dn l' = h -> Net.c_rets l' = Net.c_rets l -> Net.c_mq l' = Net.c_mq l -> DI ss l'.
  Proof.
    intros Fl P O C Le Lo l' E1 E2 E3. unfold Net.flush in Fl. destruct (Net.ch_cbs (Net.dn l)) as [|m r] eqn:Ec; [discriminate|]. apply some_inj in Fl. subst h.
    pose proof C as [F [D [R [E [HD _]]]]]. rewrite HD, Ec in E by reflexivity. cbn [app] in E. exists F, O. rewrite E1, E2, E3. cbn [Net.ch_cbs]. split; [|split; [exact Lo|]].
    - change r with (Net.ch_cbs (Net.Chan r (Net.ch_wire (Net.dn l)) (Net.ch_st (Net.dn l)) (Net.ch_buf (Net.dn l)))) at 1.
      eapply true_drop with (h := Net.dn l) (m := m); try reflexivity; [|exact Ec]. rewrite Ec, <- E. exact C.
    - subst P. rewrite app_length in Le. cbn in Le. lia.
  Qed.
  Lemma di_drop n l h l' : Net.flush dumps false (Net.dn l) = Some h -> Net.dn l' = h -> Net.c_rets l' = Net.c_rets l -> Net.c_mq l' = Net.c_mq l -> DI n l -> DI n l'.
  Proof.
    intros Fl E1 E2 E3 [F [O [C [B1 B2]]]]. unfold Net.flush in Fl. destruct (Net.ch_cbs (Net.dn l)) as [|m r] eqn:Ec; [discriminate|]. apply some_inj in Fl. subst h.
    exists F, O. rewrite E1, E2, E3. split; [|auto]. cbn [Net.ch_cbs].
    change r with (Net.ch_cbs (Net.Chan r (Net.ch_wire (Net.dn l)) (Net.ch_st (Net.dn l)) (Net.ch_buf (Net.dn l)))) at 1.
    eapply true_drop with (h := Net.dn l) (m := m); try reflexivity; [|exact Ec]. rewrite Ec. exact C.
  Qed.
  Lemma di_arrive n k l h l' : Net.arrive k (Net.dn l) = Some h -> Net.dn l' = h -> Net.c_rets l' = Net.c_rets l -> Net.c_mq l' = Net.c_mq l -> DI n l -> DI n l'.
  Proof.
    intros Ar E1 E2 E3 [F [O [C [B1 B2]]]]. exists F, O. rewrite E1, E2, E3. split; [|auto].
    replace (Net.ch_cbs h) with (Net.ch_cbs (Net.dn l)); [eapply NetFacts.c_arrive; eauto|]. unfold Net.arrive in Ar. destruct (_ && _)%bool; [|discriminate]. apply some_inj in Ar. subst h. reflexivity.
  Qed.
  Lemma di_advance n o l h r l' : Net.advance o (Net.dn l) = Some (h, r) -> Net.dn l' = h -> Net.c_rets l' = Net.c_rets l ->
    (length (Net.c_mq l') <= length (Net.c_mq l) + match r with None => 0 | Some _ => 1 end)%nat -> DI n l -> DI n l'.
  Proof.
    intros Ad E1 E2 E3 [F [O [C [B1 B2]]]]. pose proof (NetFacts.c_advance _ _ _ _ _ _ _ _ C Ad) as Q.
    assert (Ec : Net.ch_cbs h = Net.ch_cbs (Net.dn l)).
    { unfold Net.advance in Ad. destruct (Net.ch_st (Net.dn l)); [destruct (_ <=? _)%nat|destruct o|destruct (_ <=? _)]; try discriminate Ad; apply some_inj, pair_equal_spec in Ad; destruct Ad as [<- _]; reflexivity. }
    unfold DI. rewrite E1, E2, Ec. rewrite app_length in *. destruct r as [q|].
    - destruct Q as [m [_ [_ Q]]]. exists F, (O ++ [m]). rewrite app_length. cbn. split; [exact Q|]. lia.
    - exists F, O. split; [exact Q|]. lia.
  Qed.
End Prog.

Section TI.
  Variables (tasks : list task) (ord : list block -> list block) (ordt : list nat -> list nat) (d : dgraph) (s0 : sched) (fuel : nat).
  Variables (init : nat -> res unit) (nw : nat -> Z) (mbf : Z) (h0 : whole).
  Variable dumps : Net.nmsg payload -> option Tcp.bytes.
  Variable loads : Tcp.bytes -> option (Net.nmsg payload).
  Hypothesis SE : setup tasks ord ordt d s0 fuel init nw mbf h0.
  Hypothesis L : P_Net.lossless dumps loads.
  Local Notation up := (dg_up ord ordt d).
  Local Notation down := (dg_down ord ordt d).
  Local Notation maxr := (dg_max_retries d).
  Local Notation keys := (dedup Nat.eqb (map t_id tasks)).
  Local Notation xstep := (xstep up down maxr fuel init nw mbf dumps loads).
  Local Notation lstep := (lstep up down maxr fuel init nw mbf dumps loads).
  Local Notation lruns := (lruns up down maxr fuel init nw mbf dumps loads).
  Local Notation truns := (truns up down maxr fuel init nw mbf dumps loads).
  Local Notation nstep := (Net.nstep dumps loads).
  Local Notation kstep := (Net.kstep dumps loads).
  Local Notation trx x := (sv_tr (x_sv x)).

  (* what the server sent is all in the stream while its loop for the connection runs *)
  Lemma sent_all l puts excs ss : NetFacts.Live dumps loads l puts excs ss -> Net.s_loop l = true ->
    exists O', NetFacts.CInv dumps (Net.s_open l) (map Net.App ss) O' (Net.dn l) /\ (length (NetFacts.gottens (Net.c_rets l) ++ Net.c_mq l) <= length O')%nat.
  Proof.
    intros V Sl. destruct (NetFacts.v_up _ _ _ _ _ _ V) as [b [O [Cu [B1 [B2 [O1 [O2 [P [O' [Cd [P1 [P2 [P3 [P4 [Q1 Q2]]]]]]]]]]]]]]]. specialize (O1 Sl).
    assert (NA : ~ In Net.Ack P).
    { intros I. specialize (P2 I). rewrite O1 in P2. rewrite <- (app_nil_r puts) in P2 at 1. apply app_inv_head in P2. discriminate. }
    assert (EP : P = map Net.App ss).
    { transitivity (filter NetFacts.isapp P); [symmetry; apply filter_all; intros m Hm; destruct m; auto; contradiction|exact P1]. }
    rewrite EP in Cd. exists O'. split; auto. destruct (Net.c_conn l).
    - rewrite Q1 by reflexivity. auto.
    - destruct (Q2 eq_refl) as [[[Y|[m [_ Y]]] _]|Y]; rewrite Y, !app_length; lia.
  Qed.
  (* The server owes the worker an answer it has handed to the stream: the worker's program waits for it (or gave up), and all that the worker
     said has been read. *)
  Lemma owes_read ms x st : lruns (wire_init h0) ms x -> tprog (x_pc x st) (link x st) -> Net.s_loop (link x st) = true ->
    (length (NetFacts.gottens (Net.c_rets (link x st))) < length (outs x st))%nat -> Net.ch_st (Net.up (link x st)) = Net.RSize.
  Proof.
    intros R W Sl Lt. pose proof (ki_runs _ _ _ _ _ _ _ _ _ _ _ _ SE L _ _ R) as K. pose proof (li_run _ _ _ _ _ _ _ _ _ _ _ _ _ _ (li_runs _ _ _ _ _ _ _ _ _ _ _ _ SE L _ _ R)) as [xs Hx].
    destruct (C92_server _ _ _ _ _ _ _ _ _ _ _ _ SE L _ _ R) as [Sv _]. destruct W as [said [Es W]].
    pose proof (WireNet.run_inv _ _ L _ _ Hx st) as V. destruct V as [[V _]|V].
    { destruct V as [_ [_ [_ [_ [_ [_ [_ [Q _]]]]]]]]. congruence. }
    destruct (NetFacts.v_up _ _ _ _ _ _ V) as [b [O [Cu [B1 [B2 [O1 _]]]]]]. specialize (O1 Sl).
    destruct (P_Net.C55_to_server dumps loads (P_Net.lossless_pickles _ _ L) _ _ Hx st) as [r2 E2].
    pose proof (ki_out _ K st) as Su. pose proof (ki_recv _ K st) as Rc.
    set (f := fun m => NetFacts.fit dumps (cpay m)).
    assert (Ef : P_Net.fits dumps (map ToServer said) = map cpay (filter f said)).
    { unfold P_Net.fits. clear. induction said as [|m l IH]; auto. cbn [map filter]. unfold f at 1. fold (cpay m). destruct (NetFacts.fit dumps (cpay m)) eqn:F.
      - replace (f m) with true by (symmetry; exact F). cbn [map]. rewrite IH. reflexivity.
      - replace (f m) with false by (symmetry; exact F). exact IH. }
    rewrite Es, Ef in E2. apply map_eq_app in E2. destruct E2 as [got [rest [E2 [G1 G2]]]]. rewrite <- Rc in G1. symmetry in G1.
    pose proof (answers_asked _ _ _ _ _ _ _ _ _ _ Sv st got G1) as N1. pose proof (asked_filter f said) as N2.
    pose proof (sub_len _ _ Su) as N5. rewrite app_length, !map_length in N5. pose proof (f_equal asked E2) as N7. rewrite asked_app in N7.
    assert (Wt : (x_pc x st = PWait \/ x_pc x st = PEnd) /\ waits_on said (link x st)).
    { destruct (x_pc x st); try (exfalso; lia); [split; [auto|exact W]|destruct W as [W|W]; [exfalso; lia|split; [auto|exact W]]]. }
    destruct Wt as [Pw [[s [t [-> Ws]]] Nd]]. pose proof (asked_filter f s) as N3. assert (N8 : asked (s ++ [MAcquire t]) = (asked s + 1)%nat) by (rewrite asked_app; reflexivity).
    rewrite filter_app in E2, N7. cbn [filter] in E2, N7.
    assert (Fa : f (MAcquire t) = true).
    { destruct (f (MAcquire t)) eqn:F; auto. exfalso. rewrite app_nil_r in N7. lia. }
    rewrite Fa in E2, N7. rewrite asked_app in N7. cbn [asked filter is_ask length] in N7. change (asked [MAcquire t]) with 1%nat in N7.
    assert (Er : rest = []).
    { destruct rest as [|m rest] using rev_ind; auto. exfalso.
      rewrite app_assoc in E2. apply app_inj_tail in E2. destruct E2 as [E2 <-]. rewrite asked_app in N7. change (asked [MAcquire t]) with 1%nat in N7. lia. }
    assert (Bf : b = false).
    { destruct b; auto. exfalso. destruct (B1 eq_refl) as [Q|Q]; [|contradiction].
      pose proof (ki_main _ K st) as M. unfold at_main in M. rewrite Q in M. destruct (tbx x st) as [[u s1]|]; [|destruct M; discriminate].
      destruct Pw as [Pw|Pw]; rewrite Pw in M; cbn in M; repeat (destruct M as [M|M]; try discriminate M); discriminate M. }
    subst b rest. cbn [NetFacts.bye] in Cu. rewrite app_nil_r in Cu. eapply all_read; [exact Cu|]. rewrite O1, app_length.
    symmetry in G2. apply app_eq_nil in G2. destruct G2 as [G2 _].
    match goal with |- (length ?a <= _)%nat => change a with (P_Net.fits dumps (NetFacts.sents (Net.c_rets (link x st)))) end. rewrite Es, Ef, filter_app. cbn [filter]. rewrite Fa, E2, app_nil_r, <- G1, Rc. lia.
  Qed.

  (* the stream of the server is closed and its loop for the connection runs *)
  Definition gone (b : Prop) (n : nat) (l : Net.link payload) : Prop := Net.s_loop l = true -> Net.s_open l = false -> b \/ DI dumps n l.
  Record TI (ms : list lmove) (x : wire) : Prop := {
    ti_prog : forall st, tprog (x_pc x st) (link x st);
    ti_gone : forall st, gone (late st ms) (length (outs x st)) (link x st);
    ti_eq : forall c e, In (c, e) (Net.n_eq (x_net x)) -> e <> Net.AttrErr;
    ti_rets : forall c, ~ In (Net.SRaised c Net.AttrErr) (Net.n_rets (x_net x))
  }.
  Lemma late_more st ms m : late st ms -> late st (ms ++ [m]).
  Proof. unfold late. intros H. apply in_or_app. auto. Qed.
  Lemma ti_init : TI [] (wire_init h0).
  Proof.
    constructor; cbn [wire_init x_net x_pc].
    - intros st. exists []. split; [reflexivity|]. cbn. split; [lia|intros []].
    - intros st Q. discriminate.
    - intros c e [].
    - intros c [].
  Qed.
  Lemma ti_one ms m x x' st : TI ms x -> (forall j, j <> st -> link x' j = link x j /\ x_pc x' j = x_pc x j) ->
    Net.n_rets (x_net x') = Net.n_rets (x_net x) -> (exists es, Net.n_eq (x_net x') = Net.n_eq (x_net x) ++ map (pair st) es /\ forall e, In e es -> e <> Net.AttrErr) ->
    tprog (x_pc x' st) (link x' st) -> gone (late st (ms ++ [m])) (length (outs x st)) (link x' st) -> TI (ms ++ [m]) x'.
  Proof.
    intros [A1 A2 A3 A4] E1 E2 [es [E3 E4]] W G. constructor.
    - intros j. destruct (Nat.eq_dec j st) as [->|N]; auto. destruct (E1 j N) as [-> ->]. apply A1.
    - intros j. rewrite E2. destruct (Nat.eq_dec j st) as [->|N]; auto. destruct (E1 j N) as [-> _]. intros Sl So. destruct (A2 j Sl So); [left; apply late_more|]; auto.
    - intros c e. rewrite E3. intros I. apply in_app_or in I. destruct I as [I|I]; [eauto|]. apply in_map_iff in I. destruct I as [e' [Q I]]. injection Q as <- <-. auto.
    - rewrite E2. exact A4.
  Qed.
  (* a step of the network or of an IO loop *)
  Lemma gone_io (b : Prop) n k l l' ns : io k = true -> kstep k l = Some (l', ns) -> (k = Net.KLateS -> b) -> gone b n l ->
    (Net.s_loop l = true -> Net.s_open l = true -> exists P O', NetFacts.CInv dumps true P O' (Net.dn l) /\ (length P <= n)%nat /\
       (length (NetFacts.gottens (Net.c_rets l) ++ Net.c_mq l) <= length O')%nat) ->
    (Net.s_loop l = true -> Net.s_open l = false -> Net.ch_st (Net.up l) = Net.RSize) ->
    gone b n l' /\ forall e, In e (NetFacts.n_excs ns) -> e <> Net.AttrErr.
  Proof.
    intros Io H Lt G En Rd. unfold gone in *. destruct k as [ok|c| | |ok|z| | | |a| |ok|z| | | |]; try discriminate Io; cbn [Net.kstep] in H.
    - destruct (Net.c_main l); try discriminate. destruct (Net.c_conn l); try discriminate. destruct (Net.c_eq l); try discriminate. destruct ok; apply some_inj, pair_equal_spec in H; destruct H as [<- <-]; cbn [Net.with_s Net.with_c Net.with_q Net.s_loop Net.s_open]; (split; [|intros ? []]).
      + discriminate.
      + intros Sl So. destruct (G Sl So) as [Q|Q]; auto.
    - destruct (negb (Net.c_open l)); [|destruct ok; [|destruct (Net.broken l); [|discriminate]]]; destruct (Net.flush dumps _ (Net.up l)); try discriminate; apply some_inj, pair_equal_spec in H; destruct H as [<- <-];
        (split; [exact G|intros ? []]).
    - destruct (Net.arrive z (Net.dn l)) as [h|] eqn:Ar; [|discriminate]. apply some_inj, pair_equal_spec in H. destruct H as [<- <-]. split; [|intros ? []].
      intros Sl So. destruct (G Sl So) as [Q|Q]; auto. right. eapply di_arrive; eauto.
    - destruct (Net.c_loop l); [|discriminate]. destruct (Net.advance _ (Net.dn l)) as [[h [q|]]|] eqn:Ad; [| |discriminate].
      + destruct (loads q) as [[a| |]|]; apply some_inj, pair_equal_spec in H; destruct H as [<- <-]; (split; [|intros ? []]); intros Sl So; destruct (G Sl So) as [Q|Q]; auto; right; eapply di_advance; eauto; cbn; rewrite ?app_length; cbn; lia.
      + apply some_inj, pair_equal_spec in H. destruct H as [<- <-]. split; [|intros ? []]. intros Sl So. destruct (G Sl So) as [Q|Q]; auto. right. eapply di_advance; eauto. cbn. lia.
    - destruct (Net.c_loop l); [|discriminate]. destruct (Net.fails _ _ _); [|discriminate]. apply some_inj, pair_equal_spec in H. destruct H as [<- <-]. split; [|intros ? []]. exact G.
    - destruct (Net.ch_wire (Net.up l)); [discriminate|]. destruct (_ && _)%bool; [|discriminate]. apply some_inj, pair_equal_spec in H. destruct H as [<- <-]. split; [|intros ? []]. exact G.
    - destruct (Net.s_open l) eqn:So; cbn [negb] in H.
      + destruct ok.
        * destruct (Net.flush dumps true (Net.dn l)); [|discriminate]. apply some_inj, pair_equal_spec in H. destruct H as [<- <-]. cbn. rewrite So. split; [congruence|intros ? []].
        * destruct (Net.broken l); [|discriminate]. destruct (Net.flush dumps false (Net.dn l)) as [h|] eqn:Fl; [|discriminate]. apply some_inj, pair_equal_spec in H. destruct H as [<- <-]. split; [|intros ? []].
          intros Sl _. right. destruct (En Sl eq_refl) as [P [O' [C [N1 N2]]]]. eapply (di_enter _ _ _ _ Fl _ _ C N1 N2); reflexivity.
      + destruct (Net.flush dumps false (Net.dn l)) as [h|] eqn:Fl; [|discriminate]. apply some_inj, pair_equal_spec in H. destruct H as [<- <-]. split; [|intros ? []].
        intros Sl _. destruct (G Sl eq_refl) as [Q|Q]; auto. right. eapply (di_drop _ _ _ _ _ Fl); try reflexivity. exact Q.
    - destruct (Net.arrive z (Net.up l)) as [h|] eqn:Ar; [|discriminate]. apply some_inj, pair_equal_spec in H. destruct H as [<- <-]. split; [exact G|intros ? []].
    - destruct (Net.s_loop l) eqn:Sl; [|discriminate]. destruct (Net.advance _ (Net.up l)) as [[h [q|]]|]; [| |discriminate].
      + destruct (loads q) as [[a| |]|]; cbn [Net.with_up Net.s_open] in H; [|destruct (Net.s_open l) eqn:So| |]; apply some_inj, pair_equal_spec in H; destruct H as [<- <-]; cbn [NetFacts.n_excs flat_map app];
          (split; [first [exact G|intros Q; exfalso; cbn in Q; discriminate Q|cbn; rewrite Sl; exact G]|]); try (intros e []; fail); intros e [<-|[]]; discriminate.
      + apply some_inj, pair_equal_spec in H. destruct H as [<- <-]. split; [cbn; rewrite Sl; exact G|intros ? []].
    - destruct (Net.s_loop l) eqn:Sl; [|discriminate]. unfold Net.fails in H. destruct (Net.s_open l) eqn:So.
      + destruct (Net.ch_st (Net.up l)); cbn in H; destruct (Net.broken l); cbn in H; try discriminate; apply some_inj, pair_equal_spec in H; destruct H as [<- <-]; cbn; (split; [congruence|]);
          intros e [<-|[]]; discriminate.
      + rewrite (Rd eq_refl eq_refl), Bool.orb_true_r in H. apply some_inj, pair_equal_spec in H. destruct H as [<- <-]. cbn. split; [congruence|]. intros e [<-|[]]. discriminate.
    - destruct (Net.ch_wire (Net.dn l)); [discriminate|]. destruct (Net.broken l); [|discriminate]. apply some_inj, pair_equal_spec in H. destruct H as [<- <-]. split; [|intros ? []]. auto.
  Qed.

  (* in a state of such a run *)
  Lemma ti_reads ms x st : truns (wire_init h0) ms x -> TI ms x -> Net.s_loop (link x st) = true -> Net.s_open (link x st) = false -> Net.ch_st (Net.up (link x st)) = Net.RSize.
  Proof.
    intros T I Sl So. pose proof (truns_lruns _ _ _ _ _ _ _ _ _ _ _ _ T) as R. apply (owes_read ms); auto; [apply I|].
    destruct (ti_gone _ _ I st Sl So) as [Lt|D]; [|apply di_owes in D; exact D].
    pose proof (li_run _ _ _ _ _ _ _ _ _ _ _ _ _ _ (li_runs _ _ _ _ _ _ _ _ _ _ _ _ SE L _ _ R)) as [xs Hx].
    pose proof (WireNet.run_inv _ _ L _ _ Hx st) as V. destruct V as [[V _]|V].
    { destruct V as [_ [_ [_ [_ [_ [_ [_ [Q _]]]]]]]]. congruence. }
    destruct (sent_all _ _ _ _ V Sl) as [O' [C Le]]. pose proof (wire_owes _ _ _ _ _ C (truns_late _ _ _ _ _ _ _ _ _ _ _ _ st T Lt)) as Q. rewrite map_length in Q. rewrite app_length in Le. lia.
  Qed.
  Lemma ti_opened ms x st : lruns (wire_init h0) ms x -> Net.s_loop (link x st) = true -> Net.s_open (link x st) = true ->
    exists P O', NetFacts.CInv dumps true P O' (Net.dn (link x st)) /\ (length P <= length (outs x st))%nat /\ (length (NetFacts.gottens (Net.c_rets (link x st)) ++ Net.c_mq (link x st)) <= length O')%nat.
  Proof.
    intros R Sl So. pose proof (li_run _ _ _ _ _ _ _ _ _ _ _ _ _ _ (li_runs _ _ _ _ _ _ _ _ _ _ _ _ SE L _ _ R)) as [xs Hx].
    pose proof (WireNet.run_inv _ _ L _ _ Hx st) as V. destruct V as [[V _]|V].
    { destruct V as [_ [_ [_ [_ [_ [_ [_ [Q _]]]]]]]]. congruence. }
    destruct (sent_all _ _ _ _ V Sl) as [O' [C Le]]. rewrite So in C. eexists. exists O'. split; [exact C|]. rewrite map_length. auto.
  Qed.
  Lemma broken_one ms m x st n : TI ms x -> nstep (Net.NLink st Net.KBreak) (x_net x) = Some n -> TI (ms ++ [m]) (set_net x n).
  Proof.
    intros I Hn. destruct (nstep_eq _ _ _ _ _ _ Hn) as [l [ns [Hl [El [Ne [Eq En]]]]]]. cbn [Net.kstep] in Hl. destruct (_ || _)%bool; [|discriminate].
    apply some_inj, pair_equal_spec in Hl. destruct Hl as [<- <-]. cbn in En. rewrite app_nil_r in En.
    apply (ti_one _ _ x (set_net x n) st I); cbn [set_net x_net x_pc]; auto; rewrite ?El, ?Eq.
    - exists []. split; [reflexivity|intros ? []].
    - apply (ti_prog _ _ I).
    - intros Sl So. destruct (ti_gone _ _ I st Sl So) as [Q|Q]; [left; apply late_more|right]; auto.
  Qed.

  Lemma ti_step ms x m x' : truns (wire_init h0) ms x -> TI ms x -> lstep x m x' -> TI (ms ++ [m]) x'.
  Proof.
    intros T I S. pose proof (truns_lruns _ _ _ _ _ _ _ _ _ _ _ _ T) as R. pose proof (ki_runs _ _ _ _ _ _ _ _ _ _ _ _ SE L _ _ R) as K. pose proof I as [A1 A2 A3 A4].
    destruct S as [m x' S|st n Kn Hn]; [|eapply broken_one; eauto].
    destruct S as [st k n Io Kn Cs Hn|st t c n Ht Hn|st t c n Ht Rq Hn|st t k n rs Ht Hk Hn Er|st t pb o Ht Hp|st t c Ht|st t e Ht|i n r sv l ps Td Sp Hn Er Eg Eh Ec Ei El Ep|st r todo Td];
      unfold xproc in *.
    - destruct (nstep_eq _ _ _ _ _ _ Hn) as [l [ns [Hl [El [Ne [Eq En]]]]]]. destruct (WireNet.io_quiet _ _ _ _ _ _ Io Hl) as [Q1 [Q2 Q3]]. rewrite Q3 in En. cbn in En. rewrite app_nil_r in En.
      destruct (gone_io (late st (ms ++ [LDo (XNet st k)])) (length (outs x st)) _ _ _ _ Io Hl) as [G Ex].
      + intros ->. apply in_or_app. right. left. reflexivity.
      + intros Sl So. destruct (A2 st Sl So) as [Q|Q]; [left; apply late_more|right]; auto.
      + apply (ti_opened _ _ _ R).
      + apply (ti_reads _ _ _ T I).
      + apply (ti_one _ _ x (set_net x n) st I); cbn [set_net x_net x_pc]; auto; rewrite ?El, ?Eq; eauto. eapply tprog_same; eauto.
    - eapply broken_one; eauto.
    - destruct (nstep_eq _ _ _ _ _ _ Hn) as [l [ns [Hl [El [Ne [Eq En]]]]]]. destruct (calls_quiet _ _ _ _ _ _ (or_introl (ex_intro _ c eq_refl)) Hl) as [-> [K1 [K2 K3]]]. cbn in En. rewrite app_nil_r in En.
      apply (ti_one _ _ x (set_net x n) st I); cbn [set_net x_net x_pc]; auto; rewrite ?El, ?Eq; auto.
      + exists []. split; [reflexivity|intros ? []].
      + destruct (call_step _ _ _ _ _ _ Hl) as [Q1 _]. eapply tprog_same; eauto.
      + intros Sl So. rewrite K1 in So. rewrite K2 in Sl. destruct (A2 st Sl So) as [Q|Q]; [left; apply late_more; auto|right]. cbn [Net.kstep] in Hl.
        destruct (Net.c_main (link x st)); try discriminate. apply some_inj, pair_equal_spec in Hl. destruct Hl as [<- _]. exact Q.
    - destruct (nstep_eq _ _ _ _ _ _ Hn) as [l [ns [Hl [El [Ne [Eq En]]]]]]. destruct (calls_quiet _ _ _ _ _ _ (or_intror Hk) Hl) as [-> [K1 [K2 K3]]]. cbn in En. rewrite app_nil_r in En. rewrite El in Er. unfold rets in Er.
      pose proof (ki_main _ K st) as M. unfold at_main in M. rewrite Ht in M.
      apply (ti_one _ _ x (set_pc (set_net x n) st (fold_left resume rs (x_pc x st))) st I); cbn [set_net set_pc x_net x_pc]; auto; rewrite ?Nat.eqb_refl, ?El, ?Eq; auto.
      + intros j Nj. rewrite Ne by auto. destruct (Nat.eqb_spec j st); [contradiction|auto].
      + exists []. split; [reflexivity|intros ? []].
      + eapply tprog_goes; eauto.
      + intros Sl So. rewrite K1 in So. rewrite K2 in Sl. destruct (A2 st Sl So) as [Q|Q]; [left; apply late_more; auto|right]. destruct (main_mq _ _ _ _ _ _ Hk Hl) as [M1 M2]. eapply di_keep; eauto.
    - apply (ti_one _ _ x (set_pc x st (PSend (returned st pb o) (goes_on o))) st I); cbn [set_pc x_net x_pc]; auto; rewrite ?Nat.eqb_refl.
      + intros j Nj. destruct (Nat.eqb_spec j st); [contradiction|auto].
      + exists []. rewrite app_nil_r. split; [reflexivity|intros ? []].
      + destruct (A1 st) as [said [Es W]]. rewrite Hp in W. destruct W as [W1 W2]. exists said. split; auto. split; auto. split; auto. apply asked_returned.
      + intros Sl So. destruct (A2 st Sl So) as [Q|Q]; [left; apply late_more|right]; auto.
    - constructor; auto. intros j Sl So. destruct (A2 j Sl So) as [Q|Q]; [left; apply late_more|right]; auto.
    - constructor; auto. intros j Sl So. destruct (A2 j Sl So) as [Q|Q]; [left; apply late_more|right]; auto.
    - destruct (WireNet.no_get _ _ _ _ _ Hn Er) as [Nl Nr].
      assert (Os : forall s, NetFacts.sent_to s (Net.n_rets n) = outs x s).
      { intros s. rewrite Er. unfold NetFacts.sent_to. rewrite flat_map_app. destruct r; cbn in Nr |- *; try apply app_nil_r. destruct Nr. }
      constructor; cbn [x_net x_pc].
      + intros s. rewrite Nl. apply A1.
      + intros s. rewrite Nl, Os. intros Sl So. destruct (A2 s Sl So) as [Q|Q]; [left; apply late_more|right]; auto.
      + cbn [Net.nstep] in Hn. apply some_inj in Hn. subst n. intros c e J. apply (A3 c e). destruct (Net.n_eq (x_net x)) as [|[c0 e0] q]; [destruct (Net.n_mq (x_net x)) as [|[? ?] ?]; destruct J|right; exact J].
      + intros c J. rewrite Er in J. apply in_app_or in J. destruct J as [J|[J|[]]]; [exact (A4 c J)|]. subst r. discriminate Eg.
    - destruct (nstep (Net.NLink st (Net.KSend (ToWorker r))) (x_net x)) as [n|] eqn:Hn.
      + destruct (nstep_eq _ _ _ _ _ _ Hn) as [l [ns [Hl [El [Ne [Eq En]]]]]]. cbn [Net.kstep] in Hl. destruct (Net.s_open (link x st)) eqn:So; [|discriminate].
        apply some_inj, pair_equal_spec in Hl. destruct Hl as [<- <-]. cbn in En, Eq. rewrite app_nil_r in Eq.
        constructor; cbn [x_net x_pc].
        * intros j. destruct (Nat.eq_dec j st) as [->|N]; [rewrite El; eapply tprog_same; [|apply A1]; reflexivity|rewrite Ne; auto].
        * intros j Sl Sj. destruct (Nat.eq_dec j st) as [->|N]; [rewrite El in Sj; cbn in Sj; congruence|]. rewrite Ne in * by auto. rewrite En. unfold NetFacts.sent_to. rewrite flat_map_app, app_length. cbn [flat_map].
          destruct (A2 j Sl Sj) as [Q|Q]; [left; apply late_more; auto|right]. eapply di_keep; [reflexivity|reflexivity| |exact Q]. unfold NetFacts.sent_to. lia.
        * rewrite Eq. exact A3.
        * intros c J. rewrite En in J. apply in_app_or in J. destruct J as [J|[J|[]]]; [exact (A4 c J)|discriminate].
      + constructor; cbn [x_net x_pc]; auto. intros j Sl So. destruct (A2 j Sl So) as [Q|Q]; [left; apply late_more|right]; auto.
  Qed.
  Lemma ti_runs ms x : truns (wire_init h0) ms x -> TI ms x.
  Proof. intros T. induction T as [|ms x1 m x2 T IH S Lt]; [apply ti_init|]. eapply ti_step; eauto. Qed.
End TI.
