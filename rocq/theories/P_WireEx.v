(* A run over the network (Wire.v) that meets the hypotheses of the theorems in P_Wire (C88). *)
From Coq Require Import Arith Lia.
From Verif Require Import SchedProps SchedExec DGFacts2 PipeRun P_SchedCE P_Sched SerialFacts P_Conv P_Serial ServerFacts ServerSteps
  ServerIdle P_Server P_Server2 P_ServerCE P_Outcome P_Notify PoolAll P_PoolFail P_SysEx P_SysCE.
From Verif Require Client Pool P_Pool P_Whole P_WholeEx P_WholeCE P_Cause Tcp Net NetFacts P_Net P_NetErr WireNet.
From Verif Require Import Sys SysFacts SysMeasure SysTrace WholeFair WholeSrv WholeSim WholeAny WholeAll WholeRun P_WholeAny Wire WireSim P_Wire.
Open Scope Z_scope.

(* pickles of the messages about the block b *)
Definition scode (s : status) : Z :=
  match s with SUCCESS => 0 | FAILED => 1 | PROCESSING => 2 | CREATED => 3 end.
Definition scoded (n : Z) : option status :=
  match n with 0 => Some SUCCESS | 1 => Some FAILED | 2 => Some PROCESSING | 3 => Some CREATED | _ => None end.
Definition dumpx (b : block) (m : Net.nmsg payload) : option Tcp.bytes :=
  match m with
  | Net.Notify => Some [0]
  | Net.Ack => Some [1]
  | Net.App (ToServer (MAcquire t)) => Some [2; Z.of_nat t]
  | Net.App (ToServer (MRelease (PB c s))) => if is_block c b then Some [3; scode s] else None
  | Net.App (ToWorker (Client.RSend (PB c s))) => if is_block c b then Some [4; scode s] else None
  | Net.App (ToWorker Client.RShutdown) => Some [5]
  | _ => None
  end.
Definition loadx (b : block) (p : Tcp.bytes) : option (Net.nmsg payload) :=
  match p with
  | [0] => Some Net.Notify
  | [1] => Some Net.Ack
  | [2; t] => Some (Net.App (ToServer (MAcquire (Z.to_nat t))))
  | [3; c] => match scoded c with Some s => Some (Net.App (ToServer (MRelease (PB b s)))) | None => None end
  | [4; c] => match scoded c with Some s => Some (Net.App (ToWorker (Client.RSend (PB b s)))) | None => None end
  | [5] => Some (Net.App (ToWorker Client.RShutdown))
  | _ => None
  end.
Lemma loadx_lossless b : P_Net.lossless (dumpx b) (loadx b).
Proof.
  assert (Sc : forall s, scoded (scode s) = Some s) by (intros []; reflexivity).
  intros [[[t|[c s]|x w| | ]|[[c s]| | |]]| |] p H; cbn [dumpx] in H; try discriminate H;
    try (unfold is_block in H; destruct (block_dec c b) as [->|]; [|discriminate H]); injection H as <-; cbn [loadx]; rewrite ?Sc, ?Nat2Z.id; reflexivity.
Qed.

Inductive xdeed := DNet (st : nat) (k : Net.klabel payload) | DLost (st : nat) | DCall (st : nat) | DMain (st : nat)
  | DBody (st : nat) (o : Client.outcome) | DEnd (st : nat) (c : Z) | DRaise (st : nat) (e : exn) | DServe (closed : list nat) | DSend.
Section Play.
  Variables (up down : block -> list block) (maxr : nat -> Z) (fuel : nat) (nw : nat -> Z) (mbf : Z).
  Variable dumps : Net.nmsg payload -> option Tcp.bytes.
  Variable loads : Tcp.bytes -> option (Net.nmsg payload).
  Local Notation xstep := (xstep up down maxr fuel no_init nw mbf dumps loads).
  Local Notation xruns := (xruns up down maxr fuel no_init nw mbf dumps loads).
  Local Notation nstep := (Net.nstep dumps loads).
  Definition xruns_b (x : wire) (st : nat) : bool := match xproc x st with Some (_, Pool.Running) => true | _ => false end.
  Definition after {A} (l l' : list A) : list A := skipn (length l) l'.
  Definition last_ret (rs : list (Net.sret payload)) : Net.sret payload := last rs Net.SNone.
  Definition xperform (c : xdeed) (x : wire) : option (xmove * wire) :=
    match c with
    | DNet st k => if io k && (if client_side k then xruns_b x st else match xproc x st with Some _ => true | None => false end) then
        match nstep (Net.NLink st k) (x_net x) with Some n => Some (XNet st k, set_net x n) | None => None end else None
    | DLost st => match xproc x st with
        | Some (_, Pool.Exited _) => match nstep (Net.NLink st Net.KBreak) (x_net x) with Some n => Some (XLost st, set_net x n) | None => None end
        | _ => None end
    | DCall st => match xproc x st with
        | Some (t, Pool.Running) => match request t (x_pc x st) with
            | Some c => match nstep (Net.NLink st (Net.KCall c)) (x_net x) with Some n => Some (XCall st, set_net x n) | None => None end
            | None => None end
        | _ => None end
    | DMain st => if xruns_b x st then
        match nstep (Net.NLink st Net.KMain) (x_net x) with
        | Some n => Some (XMain st Net.KMain, set_pc (set_net x n) st (fold_left resume (after (rets x st) (Net.c_rets (Net.n_link n st))) (x_pc x st)))
        | None => None end else None
    | DBody st o => if xruns_b x st then
        match x_pc x st with PWork pb => Some (XBody st o, set_pc x st (PSend (returned st pb o) (goes_on o))) | _ => None end else None
    | DEnd st c => if xruns_b x st then Some (XEnd st c, set_ps x (fst (Pool.pstep nw mbf (Pool.PExit st c) (x_ps x)))) else None
    | DRaise st e => match xproc x st with
        | Some (t, Pool.Running) => Some (XRaise st e, set_ps x (fst (Pool.pstep nw mbf (Pool.PExit st 0) (queued nw mbf (x_ps x) t e))))
        | _ => None end
    | DServe closed =>
        match x_todo x, sv_stop (x_sv x), nstep Net.NGet (x_net x) with
        | [], false, Some n =>
            match got_of (last_ret (Net.n_rets n)) with
            | Some g =>
                let i := an_input g closed true no_check in
                if forallb (fun st => match NetFacts.got_from st (Net.n_rets (x_net x)) with [] => false | _ => true end && Net.broken (Net.n_link (x_net x) st)) closed then
                  match iteration up down maxr fuel no_init i (x_sv x) with
                  | Ok sv =>
                      let l := firstn (length (sv_tr sv) - length (sv_tr (x_sv x))) (sv_tr sv) in
                      match pools_do nw mbf (pool_acts l ++ [Pool.PHealth]) (x_ps x) with
                      | Ok ps => Some (XServe i, Wire sv ps n (x_pc x) (sends l))
                      | Err _ => None end
                  | Err _ => None end
                else None
            | None => None end
        | _, _, _ => None end
    | DSend => match x_todo x with
        | (st, r) :: todo => Some (XSend, Wire (x_sv x) (x_ps x)
            (match nstep (Net.NLink st (Net.KSend (ToWorker r))) (x_net x) with Some n => n | None => x_net x end) (x_pc x) todo)
        | [] => None end
    end.
  Lemma xruns_b_ok x st : xruns_b x st = true -> exists t, xproc x st = Some (t, Pool.Running).
  Proof. unfold xruns_b. destruct (xproc x st) as [[t [|c]]|]; try discriminate. eauto. Qed.
  Lemma get_last x n : nstep Net.NGet x = Some n -> Net.n_rets n = Net.n_rets x ++ [last_ret (Net.n_rets n)].
  Proof.
    cbn [Net.nstep]. intros H. apply some_inj in H. subst n. unfold last_ret.
    destruct (Net.n_eq x) as [|[c e] q]; [destruct (Net.n_mq x) as [|[c m] q]|]; cbn [Net.n_rets]; rewrite last_last; reflexivity.
  Qed.
  Lemma xperform_step c x m x' : xperform c x = Some (m, x') -> xstep x m x'.
  Proof.
    destruct c as [st k|st|st|st|st o|st c|st e|cl|]; cbn [xperform]; intros H.
    - destruct (io k) eqn:Ik; [|discriminate H]. cbn [andb] in H.
      destruct (if client_side k then xruns_b x st else match xproc x st with Some _ => true | None => false end) eqn:Hc; [|discriminate H].
      destruct (nstep _ _) as [n|] eqn:En; [|discriminate H]. apply some_inj, pair_equal_spec in H. destruct H as [<- <-]. apply xs_net; auto.
      + destruct (client_side k); [apply xruns_b_ok in Hc; destruct Hc as [t Ht]; congruence|]. destruct (xproc x st); [discriminate|discriminate Hc].
      + intros Hk. rewrite Hk in Hc. apply xruns_b_ok. exact Hc.
    - destruct (xproc x st) as [[t [|c]]|] eqn:Ex; try discriminate H. destruct (nstep _ _) as [n|] eqn:En; [|discriminate H]. apply some_inj, pair_equal_spec in H. destruct H as [<- <-]. eapply xs_lost; eauto.
    - destruct (xproc x st) as [[t [|c]]|] eqn:Ex; try discriminate H. destruct (request t (x_pc x st)) as [c|] eqn:Er; [|discriminate H].
      destruct (nstep _ _) as [n|] eqn:En; [|discriminate H]. apply some_inj, pair_equal_spec in H. destruct H as [<- <-]. eapply xs_call; eauto.
    - destruct (xruns_b x st) eqn:Ex; [|discriminate H]. apply xruns_b_ok in Ex. destruct Ex as [t Ht].
      destruct (nstep _ _) as [n|] eqn:En; [|discriminate H]. apply some_inj, pair_equal_spec in H. destruct H as [<- <-].
      destruct (nstep_grows _ _ _ _ _ En) as [_ Gr]. destruct (Gr st) as [rs Ers]. change (Net.c_rets (Net.n_link n st) = rets x st ++ rs) in Ers.
      replace (after (rets x st) (Net.c_rets (Net.n_link n st))) with rs; [eapply xs_main; eauto|].
      rewrite Ers. unfold after. rewrite skipn_app, skipn_all, Nat.sub_diag. reflexivity.
    - destruct (xruns_b x st) eqn:Ex; [|discriminate H]. apply xruns_b_ok in Ex. destruct Ex as [t Ht]. destruct (x_pc x st) eqn:Ep; try discriminate H.
      apply some_inj, pair_equal_spec in H. destruct H as [<- <-]. eapply xs_body; eauto.
    - destruct (xruns_b x st) eqn:Ex; [|discriminate H]. apply xruns_b_ok in Ex. destruct Ex as [t Ht]. apply some_inj, pair_equal_spec in H. destruct H as [<- <-]. eapply xs_end; eauto.
    - destruct (xproc x st) as [[t [|c]]|] eqn:Ex; try discriminate H. apply some_inj, pair_equal_spec in H. destruct H as [<- <-]. eapply xs_raise; eauto.
    - destruct (x_todo x) eqn:Et; [|discriminate H]. destruct (sv_stop (x_sv x)) eqn:Sp; [discriminate H|]. destruct (nstep Net.NGet (x_net x)) as [n|] eqn:En; [|discriminate H].
      destruct (got_of _) as [g|] eqn:Eg; [|discriminate H]. cbv zeta in H. destruct (forallb _ cl) eqn:Cl; [|discriminate H].
      destruct (iteration _ _ _ _ _ _ _) as [sv|] eqn:E; [|discriminate H].
      destruct (iter_adds _ _ _ _ _ _ _ _ E) as [l [Le _]]. cbn [add_tr sv_tr] in Le. rewrite app_assoc in Le.
      replace (firstn (length (sv_tr sv) - length (sv_tr (x_sv x))) (sv_tr sv)) with (l ++ recv (an_input g cl true no_check)) in H.
      2: { rewrite Le. rewrite app_length, Nat.add_sub, firstn_app, Nat.sub_diag, firstn_all. cbn [firstn]. rewrite app_nil_r. reflexivity. }
      destruct (pools_do _ _ _ _) as [ps|] eqn:Eo; [|discriminate H]. apply some_inj, pair_equal_spec in H. destruct H as [<- <-].
      eapply xs_serve; eauto; [apply get_last; exact En|]. unfold an_input. cbn [i_closed]. intros st H. apply mem_nat in H.
      rewrite forallb_forall in Cl. apply Cl in H. apply andb_prop in H. destruct H as [H1 H2]. left; split; auto. intros Q. rewrite Q in H1. discriminate H1.
    - destruct (x_todo x) as [|[st r] todo] eqn:Et; [discriminate H|]. apply some_inj, pair_equal_spec in H. destruct H as [<- <-]. apply xs_send. exact Et.
  Qed.
  Fixpoint xplay (cs : list xdeed) (x : wire) : option (list xmove * wire) :=
    match cs with
    | [] => Some ([], x)
    | c :: r => match xperform c x with
                | Some (m, x1) => match xplay r x1 with Some (ms, x2) => Some (m :: ms, x2) | None => None end
                | None => None
                end
    end.
  Lemma xruns_cons x m x1 ms x2 : xstep x m x1 -> xruns x1 ms x2 -> xruns x (m :: ms) x2.
  Proof.
    intros S Q. induction Q as [|ms z1 m1 z2 Q IH Sz]; [apply (xruns_step _ _ _ _ _ _ _ _ _ x [] x m x1); [constructor|exact S]|].
    change (m :: ms ++ [m1]) with ((m :: ms) ++ [m1]). eapply xruns_step; eauto.
  Qed.
  Lemma xplay_runs cs : forall x ms x', xplay cs x = Some (ms, x') -> xruns x ms x'.
  Proof.
    induction cs as [|c r IH]; intros x ms x' H; cbn [xplay] in H; [apply some_inj, pair_equal_spec in H; destruct H as [<- <-]; constructor|].
    destruct (xperform c x) as [[m x1]|] eqn:E; [|discriminate H]. destruct (xplay r x1) as [[ms1 x2]|] eqn:El; [|discriminate H].
    apply some_inj, pair_equal_spec in H. destruct H as [<- <-]. eapply xruns_cons; eauto. eapply xperform_step; eauto.
  Qed.
  Lemma xruns_app a l1 b0 l2 c : xruns a l1 b0 -> xruns b0 l2 c -> xruns a (l1 ++ l2) c.
  Proof. intros R1 R2. induction R2 as [|ms z1 m z2 R2 IH S2]; [rewrite app_nil_r; exact R1|]. rewrite app_assoc. eapply xruns_step; eauto. Qed.

  (* only the main threads of the workers make calls *)
  Lemma rets_same st k n x : (k <> Net.KMain /\ k <> Net.KTimeout) -> nstep (Net.NLink st k) (x_net x) = Some n -> forall s, Net.c_rets (Net.n_link n s) = rets x s.
  Proof.
    intros [K1 K2] H s. apply WireNet.nstep_link in H. destruct H as [l [ns [Hk [El [Ne _]]]]]. destruct (Nat.eq_dec s st) as [->|Ns]; [|rewrite Ne by auto; reflexivity].
    rewrite El. unfold rets. revert Hk. generalize (Net.n_link (x_net x) st). clear -K1 K2. intros l0 H.
    destruct k as [ok|c| | |ok|n| | | |a| |ok|n| | | |]; try congruence; cbn [Net.kstep] in H;
      repeat match type of H with context [match ?b with _ => _ end] => destruct b eqn:? end; try discriminate H;
      apply some_inj in H; apply pair_equal_spec in H; destruct H as [<- _]; reflexivity.
  Qed.
  Lemma calls_by h ms x st : xruns (wire_init h) ms x -> rets x st <> [] -> exists k, In (XMain st k) ms.
  Proof.
    intros R. induction R as [|ms x m x' R IH S]; [intros H; destruct (H eq_refl)|]. intros H.
    assert (Q : rets x' st = rets x st \/ exists k, m = XMain st k).
    { destruct S as [s k n Ik _ _ En|s t c n _ En|s t c n _ _ En|s t k n rs _ Kk En _| | | |i n r sv l ps _ _ En _ _ _ _ _ _ _|s r todo Et];
        unfold rets; cbn [set_net set_pc set_ps x_net]; auto.
      - left. eapply rets_same; eauto. destruct k; try discriminate Ik; split; discriminate.
      - left. eapply rets_same; eauto. split; discriminate.
      - left. eapply rets_same; eauto. split; discriminate.
      - destruct (Nat.eq_dec st s) as [->|Ns]; [eauto|]. left. apply WireNet.nstep_link in En. destruct En as [l [ns [_ [_ [Ne _]]]]]. rewrite Ne; auto.
      - left. cbn [Net.nstep] in En. apply some_inj in En. subst n. destruct (Net.n_eq _) as [|[c e] q]; [destruct (Net.n_mq _) as [|[c m] q]|]; reflexivity.
      - left. destruct (nstep (Net.NLink s (Net.KSend (ToWorker r))) (x_net x)) as [n|] eqn:En; auto. eapply rets_same; eauto. split; discriminate. }
    destruct Q as [Q|[k ->]].
    - rewrite Q in H. destruct (IH H) as [k Hk]. exists k. apply in_or_app. auto.
    - exists k. apply in_or_app. right. left. reflexivity.
  Qed.
  Definition small_b (ms : list xmove) (x : wire) : bool :=
    forallb (fun m => match m with XMain st _ => forallb (fun a => NetFacts.fit dumps (Net.App a)) (NetFacts.sents (rets x st)) | _ => true end) ms &&
    forallb (fun r => match r with Net.SSent _ a => NetFacts.fit dumps (Net.App a) | _ => true end) (Net.n_rets (x_net x)).
  Lemma small_b_ok h ms x : xruns (wire_init h) ms x -> small_b ms x = true -> small dumps x.
  Proof.
    intros R H. apply andb_prop in H. destruct H as [H1 H2]. rewrite forallb_forall in H1, H2. intros st. split; intros a Ha.
    - destruct (rets x st) as [|r q] eqn:Er; [destruct Ha|]. destruct (calls_by _ _ _ st R) as [k Hk]; [rewrite Er; discriminate|].
      specialize (H1 _ Hk). cbn in H1. rewrite forallb_forall in H1. apply H1. rewrite Er. exact Ha.
    - unfold NetFacts.sent_to in Ha. apply in_flat_map in Ha. destruct Ha as [r [Hr Ha]]. specialize (H2 _ Hr). destruct r; try (destruct Ha; fail). destruct (Nat.eqb _ _); [|destruct Ha]. destruct Ha as [<-|[]]. exact H2.
  Qed.
End Play.

(* the deeds of a worker; n: how many bytes there are *)
Definition net (st : nat) (ks : list (Net.klabel payload)) : list xdeed := map (DNet st) ks.
Definition connect (st : nat) : list xdeed := [DNet st (Net.KConn true); DMain st].
Definition calls (st : nat) : list xdeed := [DCall st; DMain st; DMain st; DMain st].
Definition goes_up (st n : nat) : list xdeed := net st [Net.KFlushC true; Net.KArriveS n; Net.KReadS; Net.KReadS; Net.KReadS].
Definition comes_down (st n : nat) : list xdeed := net st [Net.KFlushS true; Net.KArriveC n; Net.KReadC; Net.KReadC; Net.KReadC] ++ calls st.
Definition asks (st : nat) : list xdeed := calls st ++ goes_up st 6 ++ [DServe []; DSend].
(* One block, one worker at a time.  Worker 0 has got the block when its process ends.  The connection is lost; the server notices it,
   and starts worker 1, which gets the block ... *)
Definition wx_1 : list xdeed := connect 0 ++ asks 0 ++ comes_down 0 6 ++ [DEnd 0 1; DLost 0; DNet 0 Net.KFailS; DServe [0%nat]] ++
  connect 1 ++ asks 1 ++ comes_down 1 6.
(* ... does it and says so; the server has stopped while the worker asks for more. *)
Definition wx_2 : list xdeed := [DBody 1 (Client.Finished SUCCESS)] ++ calls 1 ++ calls 1 ++ goes_up 1 6 ++ goes_up 1 6 ++ [DServe []].
(* Or it raises an exception. *)
Definition wx_3 : list xdeed := [DRaise 1 ValueError].
Definition wx_play (d : dgraph) (b : block) := xplay (dg_up idl idl d) (dg_down idl idl d) (dg_max_retries d) 100 P_WholeCE.one_each 3 (dumpx b) (loadx b).
Definition wx_run (ts : list task) : option (dgraph * sched * whole * block * (list xmove * wire) * (list xmove * wire) * (list xmove * wire)) :=
  match sched_init ts with
  | Ok (d, s0) =>
      match whole_init no_init P_WholeCE.one_each 3 (map t_id ts) s0, pblocks d with
      | Ok h, b :: _ =>
          match wx_play d b wx_1 (wire_init h) with
          | Some (ms1, x1) => match wx_play d b wx_2 x1, wx_play d b wx_3 x1 with
                              | Some (ms2, x2), Some (ms3, x3) => Some (d, s0, h, b, (ms1, x1), (ms2, x2), (ms3, x3))
                              | _, _ => None end
          | None => None end
      | _, _ => None end
  | Err _ => None end.
Lemma wx_run_is ts d s0 h b m1 x1 m2 x2 m3 x3 : wx_run ts = Some (d, s0, h, b, (m1, x1), (m2, x2), (m3, x3)) ->
  sched_init ts = Ok (d, s0) /\ whole_init no_init P_WholeCE.one_each 3 (map t_id ts) s0 = Ok h /\ In b (pblocks d) /\
  wx_play d b wx_1 (wire_init h) = Some (m1, x1) /\ wx_play d b wx_2 x1 = Some (m2, x2) /\ wx_play d b wx_3 x1 = Some (m3, x3).
Proof.
  unfold wx_run. destruct (sched_init ts) as [[d' s']|] eqn:Es; [|discriminate]. destruct (whole_init _ _ _ _ _) as [h'|] eqn:Ei; [|discriminate].
  destruct (pblocks d') as [|b' q] eqn:Eb; [discriminate|]. destruct (wx_play d' b' wx_1 _) as [[n1 y1]|] eqn:E1; [|discriminate].
  destruct (wx_play d' b' wx_2 y1) as [[n2 y2]|] eqn:E2; [|discriminate]. destruct (wx_play d' b' wx_3 y1) as [[n3 y3]|] eqn:E3; [|discriminate].
  intros E. apply some_inj in E. repeat (apply pair_equal_spec in E; let F := fresh in destruct E as [E F]; try (apply pair_equal_spec in F; destruct F)). subst.
  rewrite Eb. repeat split; auto. left. reflexivity.
Qed.
Lemma wx_setup ts d s0 h : pipe_ok ts -> edges_ok ts -> sched_init ts = Ok (d, s0) -> whole_init no_init P_WholeCE.one_each 3 (map t_id ts) s0 = Ok h ->
  enough_b d 100 = true -> setup ts idl idl d s0 100 no_init P_WholeCE.one_each 3 h.
Proof.
  intros Po Eg Es Ei Q. assert (PR : pipe_run ts idl idl d s0 100 [] s0) by (constructor; auto using idl_order; constructor).
  constructor; auto using idl_order; try lia.
  - apply (run_dual ts idl idl d s0 100 [] s0); auto.
  - eapply enough_b_ok; eauto.
  - intros t. unfold P_WholeCE.one_each. lia.
Qed.
(* what is checked by computation *)
Definition wx_gone (x : wire) : bool := match xproc x 0%nat with Some (_, Pool.Exited _) => true | _ => false end.
Definition wx_works (x : wire) (b : block) : bool := match x_pc x 1%nat with PWork pb => is_block (pb_block pb) b | _ => false end.
Definition wx_ready (d : dgraph) (x : wire) (closed : list nat) : bool :=
  match x_todo x with [] => negb (sv_stop (x_sv x)) | _ => false end &&
  match Net.n_eq (x_net x), Net.n_mq (x_net x) with [], [] => true | _, _ => false end &&
  forallb (fun st => match NetFacts.got_from st (Net.n_rets (x_net x)) with [] => false | _ => true end && Net.broken (Net.n_link (x_net x) st)) closed.
Definition wx_leaves (d : dgraph) (x : wire) (i : input) : bool :=
  match iteration (dg_up idl idl d) (dg_down idl idl d) (dg_max_retries d) 100 no_init i (x_sv x) with
  | Ok sv => match pools_do P_WholeCE.one_each 3 (pool_acts (firstn (length (sv_tr sv) - length (sv_tr (x_sv x))) (sv_tr sv)) ++ [Pool.PHealth]) (x_ps x) with
             | Err ValueError => true | _ => false end
  | Err _ => false end.
Definition no_raise (ms : list xmove) : bool := forallb (fun m => match m with XRaise _ _ => false | _ => true end) ms.
Definition waits (closed : list nat) : input := an_input GotNothing closed true no_check.
Definition wx_check (d : dgraph) (b : block) (m1 : list xmove) (x1 : wire) (m2 : list xmove) (x2 : wire) (m3 : list xmove) (x3 : wire) : bool :=
  enough_b d 100 && small_b (dumpx b) (m1 ++ m2) x2 && small_b (dumpx b) (m1 ++ m3) x3 && no_raise (m1 ++ m2) &&
  wx_gone x1 && xruns_b x1 1 && wx_works x1 b && (n_failed (hist (sv_tr (x_sv x1))) b =? 1) && wx_ready d x1 [0%nat] &&
  sv_stop (x_sv x2) && succ_b (hist (sv_tr (x_sv x2))) b &&
  match m3 with [XRaise 1 ValueError] => true | _ => false end && wx_ready d x3 [] && wx_leaves d x3 (waits []).
Lemma wx_checked : match wx_run [P_WholeCE.wc 1 5] with Some (d, s0, h, b, (m1, x1), (m2, x2), (m3, x3)) => wx_check d b m1 x1 m2 x2 m3 x3 | None => false end = true.
Proof. vm_compute. reflexivity. Qed.
Lemma wx_ready_ok d b x cl : wx_ready d x cl = true -> serve_ready (dumpx b) (loadx b) x (waits cl).
Proof.
  unfold wx_ready. intros H. apply andb_prop in H. destruct H as [H Cl]. apply andb_prop in H. destruct H as [H Q].
  destruct (x_todo x) eqn:Et; [|discriminate H]. split; [exact Et|]. split; [apply Bool.negb_true_iff; exact H|]. split; [reflexivity|]. split.
  - unfold waits, an_input. cbn [i_closed]. intros st Hs. apply mem_nat in Hs. rewrite forallb_forall in Cl. apply Cl in Hs. apply andb_prop in Hs. destruct Hs as [H1 H2].
    left; split; auto. intros Z. rewrite Z in H1. discriminate H1.
  - destruct (Net.n_eq (x_net x)) eqn:E1; [|discriminate Q]. destruct (Net.n_mq (x_net x)) eqn:E2; [|discriminate Q].
    eexists. exists Net.SNone. split; [reflexivity|]. rewrite E1, E2. split; reflexivity.
Qed.
Lemma wx_leaves_ok d x i : wx_leaves d x i = true -> xraises idl idl d 100 no_init P_WholeCE.one_each 3 x i ValueError.
Proof.
  unfold wx_leaves. intros H. right. destruct (iteration _ _ _ _ _ _ _) as [sv|] eqn:E; [|discriminate H].
  destruct (iter_adds _ _ _ _ _ _ _ _ E) as [l [Le _]]. cbn [add_tr sv_tr] in Le. rewrite app_assoc in Le.
  replace (firstn (length (sv_tr sv) - length (sv_tr (x_sv x))) (sv_tr sv)) with (l ++ recv i) in H.
  2: { rewrite Le. rewrite app_length, Nat.add_sub, firstn_app, Nat.sub_diag, firstn_all. cbn [firstn]. rewrite app_nil_r. reflexivity. }
  exists sv, (l ++ recv i). split; [reflexivity|]. split; [exact Le|]. destruct (pools_do _ _ _ _) as [ps|[]]; try discriminate H. reflexivity.
Qed.
(* The hypotheses of the theorems hold of the two runs. *)
Definition wx_claim (d : dgraph) (s0 : sched) (h : whole) (b : block) (m1 : list xmove) (x1 : wire) (m2 : list xmove) (x2 : wire) (m3 : list xmove) (x3 : wire) : Prop :=
  let runs := xruns (dg_up idl idl d) (dg_down idl idl d) (dg_max_retries d) 100 no_init P_WholeCE.one_each 3 (dumpx b) (loadx b) in
  setup [P_WholeCE.wc 1 5] idl idl d s0 100 no_init P_WholeCE.one_each 3 h /\ P_Net.lossless (dumpx b) (loadx b) /\
  runs (wire_init h) m1 x1 /\ runs (wire_init h) (m1 ++ m2) x2 /\ runs (wire_init h) (m1 ++ m3) x3 /\
  small (dumpx b) x1 /\ small (dumpx b) x2 /\ small (dumpx b) x3 /\ (forall st e, ~ In (XRaise st e) (m1 ++ m2)) /\
  (* worker 0 is gone, its block has failed once; worker 1 has it *)
  (exists t c, xproc x1 0 = Some (t, Pool.Exited c)) /\ (exists t, xproc x1 1 = Some (t, Pool.Running)) /\
  (exists pb, x_pc x1 1 = PWork pb /\ pb_block pb = b) /\ n_failed (hist (sv_tr (x_sv x1))) b = 1 /\ serve_ready (dumpx b) (loadx b) x1 (waits [0%nat]) /\
  (* the block is done, the server has stopped *)
  pipe_block [P_WholeCE.wc 1 5] b /\ succeeded (hist (sv_tr (x_sv x2))) b /\ sv_stop (x_sv x2) = true /\
  (* the exception of worker 1 leaves the loop *)
  m3 = [XRaise 1 ValueError] /\ serve_ready (dumpx b) (loadx b) x3 (waits []) /\ xraises idl idl d 100 no_init P_WholeCE.one_each 3 x3 (waits []) ValueError.
Lemma wx_from d s0 h b m1 x1 m2 x2 m3 x3 : sched_init [P_WholeCE.wc 1 5] = Ok (d, s0) -> whole_init no_init P_WholeCE.one_each 3 (map t_id [P_WholeCE.wc 1 5]) s0 = Ok h ->
  In b (pblocks d) -> wx_play d b wx_1 (wire_init h) = Some (m1, x1) -> wx_play d b wx_2 x1 = Some (m2, x2) -> wx_play d b wx_3 x1 = Some (m3, x3) ->
  wx_check d b m1 x1 m2 x2 m3 x3 = true -> wx_claim d s0 h b m1 x1 m2 x2 m3 x3.
Proof.
  intros Es Ei Hb E1 E2 E3 Q. unfold wx_check in Q.
  apply andb_prop in Q. destruct Q as [Q Q14]. apply andb_prop in Q. destruct Q as [Q Q13]. apply andb_prop in Q. destruct Q as [Q Q12]. apply andb_prop in Q. destruct Q as [Q Q11].
  apply andb_prop in Q. destruct Q as [Q Q10]. apply andb_prop in Q. destruct Q as [Q Q9]. apply andb_prop in Q. destruct Q as [Q Q8]. apply andb_prop in Q. destruct Q as [Q Q7].
  apply andb_prop in Q. destruct Q as [Q Q6]. apply andb_prop in Q. destruct Q as [Q Q5]. apply andb_prop in Q. destruct Q as [Q Q4]. apply andb_prop in Q. destruct Q as [Q Q3]. apply andb_prop in Q. destruct Q as [Q1 Q2].
  assert (Po : pipe_ok [P_WholeCE.wc 1 5]) by (apply P_Cause.c_ok; lia).
  assert (PR : pipe_run [P_WholeCE.wc 1 5] idl idl d s0 100 [] s0) by (constructor; auto using idl_order; constructor).
  pose proof (wx_setup _ _ _ _ Po (P_Cause.c_edges 1 5) Es Ei Q1) as SE.
  unfold wx_play in E1, E2, E3. apply xplay_runs in E1, E2, E3. pose proof (xruns_app _ _ _ _ _ _ _ _ _ _ _ _ _ E1 E2) as R2. pose proof (xruns_app _ _ _ _ _ _ _ _ _ _ _ _ _ E1 E3) as R3.
  pose proof (small_b_ok _ _ _ _ _ _ _ _ _ _ _ R2 Q2) as S2. pose proof (small_b_ok _ _ _ _ _ _ _ _ _ _ _ R3 Q3) as S3.
  unfold wx_claim. split; [exact SE|]. split; [apply loadx_lossless|]. split; [exact E1|]. split; [exact R2|]. split; [exact R3|].
  split. { clear -E2 S2. induction E2 as [|ms y1 m y2 E2 IH S]; auto. apply IH. eapply small_step; eauto. }
  split; [exact S2|]. split; [exact S3|].
  split. { intros st e Hi. unfold no_raise in Q4. rewrite forallb_forall in Q4. apply Q4 in Hi. discriminate Hi. }
  split. { unfold wx_gone in Q5. destruct (xproc x1 0%nat) as [[t [|c]]|]; try discriminate Q5. eauto. }
  split; [apply xruns_b_ok; exact Q6|].
  split. { unfold wx_works in Q7. destruct (x_pc x1 1%nat); try discriminate Q7. eexists. split; [reflexivity|]. unfold is_block in Q7. destruct (block_dec _ _); [assumption|discriminate Q7]. }
  split; [apply Z.eqb_eq; exact Q8|]. split; [eapply wx_ready_ok; exact Q9|].
  split; [apply (run_in _ _ _ _ _ _ _ _ PR); exact Hb|]. split; [apply succ_b_true; exact Q11|]. split; [exact Q10|].
  split. { destruct m3 as [|[| | | | | |[|[|st]] []| |] [|]]; try discriminate Q12. reflexivity. }
  split; [eapply wx_ready_ok; exact Q13|]. apply wx_leaves_ok. exact Q14.
Qed.
Example C88_example : exists d s0 h b m1 x1 m2 x2 m3 x3, wx_claim d s0 h b m1 x1 m2 x2 m3 x3.
Proof.
  pose proof wx_checked as Q. destruct (wx_run _) as [[[[[[[d s0] h] b] [m1 x1]] [m2 x2]] [m3 x3]]|] eqn:E; [|discriminate Q].
  destruct (wx_run_is _ _ _ _ _ _ _ _ _ _ _ E) as [Es [Ei [Hb [E1 [E2 E3]]]]].
  exists d, s0, h, b, m1, x1, m2, x2, m3, x3. exact (wx_from _ _ _ _ _ _ _ _ _ _ Es Ei Hb E1 E2 E3 Q).
Qed.
Print Assumptions C88_example.
