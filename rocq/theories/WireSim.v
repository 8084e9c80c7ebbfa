(* The runs of Wire.v are runs of WholeAny.v: the simulation. *)
From Coq Require Import Arith Lia.
From Verif Require Import SchedProps SchedExec DGFacts2 PipeRun P_SchedCE P_Sched SerialFacts P_Conv P_Serial ServerFacts ServerSteps
  ServerIdle P_Server P_Server2 P_ServerCE P_Outcome P_Notify PoolAll P_PoolFail.
From Verif Require Client Pool P_Pool Net NetFacts P_Net WireNet.
From Verif Require Import Sys SysFacts SysMeasure SysTrace WholeSrv WholeSim WholeAny WholeAll WholeRun Wire.
Open Scope Z_scope.

(* what the pools do to the workers, at once *)
Section Pools.
  Variable nw : nat -> Z.
  Variable mbf : Z.
  Variable keys : list nat.
  Local Notation tb ps := (Pool.tbl (Pool.ps_sys ps)).
  Lemma pools_do_all cut : forall evs ps f ps', pools_do nw mbf evs ps = Ok ps' -> exists f', on_all nw mbf cut evs ps f = Ok (ps', f').
  Proof.
    induction evs as [|e evs IH]; intros ps f ps'; cbn [pools_do on_all]; [intros H; injection H as <-; eauto|].
    destruct (Pool.pstep nw mbf e ps) as [ps1 [x|]]; [discriminate|]. apply IH.
  Qed.
  Lemma on_all_do cut : forall evs ps f r, on_all nw mbf cut evs ps f = Ok r -> pools_do nw mbf evs ps = Ok (fst r).
  Proof.
    induction evs as [|e evs IH]; intros ps f r; cbn [pools_do on_all]; [intros H; injection H as <-; reflexivity|].
    destruct (Pool.pstep nw mbf e ps) as [ps1 [x|]]; [discriminate|]. apply IH.
  Qed.
  Lemma on_all_sync S cut : forall evs es ps f ps' f', P_PoolFail.told nw mbf keys no_process es ps -> Forall (ev_ok keys S ps) evs -> procs keys S ps f ->
    on_all nw mbf cut evs ps f = Ok (ps', f') ->
    (forall j t s, tb ps j = Some (t, s) -> tb ps' j = Some (t, s) \/ exists c, s = Pool.Running /\ tb ps' j = Some (t, Pool.Exited c)) /\
    forall j, f' j = sync cut ps ps' f j.
  Proof.
    induction evs as [|e evs IH]; intros es ps f ps' f' T Ok P; cbn [on_all].
    - intros H. injection H as <- <-. split; auto. intros j. unfold sync. destruct (tb ps j) as [[t [|c]]|]; auto.
    - destruct (Pool.pstep nw mbf e ps) as [ps1 [x|]] eqn:E; [discriminate|]. intros H. inversion Ok as [|? ? O1 O2]; subst.
      destruct (pools_step nw mbf keys S (fun _ _ => True) cut es ps f e ps1) as [T1 [P1 [_ [K1 _]]]]; auto; [constructor; auto|rewrite E; reflexivity|].
      destruct (told_sound nw mbf keys no_process no_process_ok _ _ T) as [Sd K].
      destruct (pstep_chg nw mbf e ps Sd (no_exit _ _ _ _ O1)) as [C _]. rewrite E in C. cbn [fst] in C.
      destruct (IH (es ++ [e]) ps1 (sync cut ps ps1 f) ps' f') as [A B]; auto.
      { eapply Forall_impl; [|exact O2]. intros a. apply ev_ok_more. exact K1. }
      split.
      + intros j t s Hj. destruct (c_old _ _ _ C _ _ _ Hj) as [H1|[-> H1]].
        * apply A. exact H1.
        * right. destruct (A _ _ _ H1) as [H2|[c [Q _]]]; [eauto|discriminate].
      + intros j. rewrite B. unfold sync. destruct (tb ps1 j) as [[t1 s1]|] eqn:E1.
        * destruct (A _ _ _ E1) as [H2|[c [-> H2]]]; rewrite H2.
          -- destruct (tb ps j) as [[t [|c]]|], s1; reflexivity.
          -- destruct (tb ps j) as [[t s]|] eqn:Ej; [|cbn; rewrite firstn_nil; reflexivity].
             destruct (c_old _ _ _ C _ _ _ Ej) as [H3|[-> H3]]; rewrite E1 in H3; [|discriminate]. injection H3 as <- <-. reflexivity.
        * destruct (tb ps j) as [[t s]|] eqn:Ej; [destruct (K1 _ _ _ Ej) as [s' Q]; congruence|].
          destruct (tb ps' j) as [[t2 [|c]]|]; reflexivity.
  Qed.
End Pools.

Lemma replies_of st l : replies st l = NetFacts.of_conn st (sends l).
Proof.
  unfold replies, sends. induction (rev l) as [|a r IH]; [reflexivity|]. cbn [flat_map]. rewrite NetFacts.of_app, <- IH. f_equal. destruct a; cbn; auto; destruct (Nat.eqb _ _); auto.
Qed.
Lemma replies_app st l tr : replies st (l ++ tr) = replies st tr ++ replies st l.
Proof. unfold replies. rewrite rev_app_distr, flat_map_app. reflexivity. Qed.
Lemma in_sends st r l : In (st, r) (sends l) -> (exists pb, In (ASend st pb) l /\ r = Client.RSend pb) \/ exists t, In (AShutdown t st) l /\ r = Client.RShutdown.
Proof.
  unfold sends. intros H. apply in_flat_map in H. destruct H as [a [Ha H]]. apply in_rev in Ha. destruct a; try (destruct H; fail); destruct H as [H|[]]; injection H as <- <-; eauto.
Qed.
Lemma of_conn_in {B} st (x : B) q : In x (NetFacts.of_conn st q) <-> In (st, x) q.
Proof.
  unfold NetFacts.of_conn. rewrite in_flat_map. split.
  - intros [[s y] [H1 H2]]. cbn in H2. destruct (Nat.eqb_spec s st) as [->|]; [|destruct H2]. destruct H2 as [<-|[]]. exact H1.
  - intros H. exists (st, x). split; auto. cbn. rewrite Nat.eqb_refl. left. reflexivity.
Qed.

(* who is answered has asked *)
Lemma answered_asked tasks ord ordt d s0 fuel init stopped ins y : server_run_to tasks ord ordt d s0 fuel init stopped ins y ->
  forall st r, In (st, r) (sends (sv_tr y)) -> exists t, In (ARecv st (MAcquire t)) (sv_tr y).
Proof.
  intros R st r H.
  assert (A : exists t a, In a (sv_tr y) /\ is_answer (Nat.eqb t) st a = true).
  { destruct (in_sends _ _ _ H) as [[pb [Hp _]]|[t [Ht _]]].
    - exists (b_task (pb_block pb)), (ASend st pb). split; auto. cbn. rewrite !Nat.eqb_refl. reflexivity.
    - exists t, (AShutdown t st). split; auto. cbn. rewrite !Nat.eqb_refl. reflexivity. }
  destruct A as [t [a [Ha Ea]]]. pose proof (C50_answered_for_task_partial _ _ _ _ _ _ _ _ _ _ st t R) as E.
  assert (P : (0 < answers (Nat.eqb t) st (sv_tr y))%nat).
  { unfold answers. assert (I : In a (filter (is_answer (Nat.eqb t) st) (sv_tr y))) by (apply filter_In; auto). destruct (filter _ _); [destruct I|cbn; lia]. }
  assert (Q : (0 < requests (Nat.eqb t) st (sv_tr y))%nat) by lia.
  unfold requests in Q. destruct (filter _ _) as [|b l] eqn:F; [cbn in Q; lia|].
  assert (I : In b (b :: l)) by (left; auto). rewrite <- F in I. apply filter_In in I. destruct I as [I J].
  destruct b as [s m| | | | | | | | |]; try discriminate. destruct m; try discriminate. cbn in J. apply andb_prop in J. destruct J as [J1 J2].
  apply Nat.eqb_eq in J1, J2. subst. eauto.
Qed.

(* ---- the relation ---- *)
Definition cpay (m : message) : Net.nmsg payload := Net.App (ToServer m).
Definition spay (r : Client.reply) : Net.nmsg payload := Net.App (ToWorker r).
Definition unsent (p : pc) : list message := match p with PSend l _ => l | _ => [] end.
Definition at_ok (p : pc) (w : phase) (m : Net.cpc payload) : Prop :=
  match p with
  | PNew => w = Unborn
  | PSend _ _ => w = Asking
  | PWait => w = Waiting
  | PWork pb => w = Working pb
  | PBye => w = Left
  | PEnd => w = Left \/ (w = Unborn /\ m = Net.Over)
  end.
Definition main_ok (t : nat) (p : pc) (m : Net.cpc payload) : Prop :=
  match p with
  | PNew => m = Net.Connecting
  | PSend _ _ => m = Net.Idle \/ exists a, request t p = Some (Net.CSend a) /\ (m = Net.Send0 a \/ m = Net.Send1 a \/ m = Net.Send2 a)
  | PWait => m = Net.Idle \/ m = Net.Get0 \/ m = Net.Get1 \/ m = Net.Get2
  | PWork _ => m = Net.Idle
  | PBye => m = Net.Idle \/ m = Net.Disc0 \/ m = Net.Disc1 \/ m = Net.DiscWait
  | PEnd => m = Net.Idle \/ m = Net.Over
  end.
Local Notation link x st := (Net.n_link (x_net x) st).
Local Notation gots x st := (NetFacts.got_from st (Net.n_rets (x_net x))).
Local Notation outs x st := (NetFacts.sent_to st (Net.n_rets (x_net x))).
Local Notation tbx x st := (Pool.tbl (Pool.ps_sys (x_ps x)) st).

(* [last st]: how many messages of the worker st the server gets once its process has ended, all if None.  What is lost with
   the process is chosen at its end. *)
Definition kept {A} (o : option nat) (l : list A) : list A := match o with Some n => firstn n l | None => l end.
Definition arriving (o : option nat) (g k : nat) : nat := match o with Some n => Nat.min k (n - g) | None => k end.
(* what the worker sent; s: the state of its process *)
Definition RU (last : nat -> option nat) (x : wire) (h : whole) (st : nat) (s : Pool.pstat) : Prop :=
  exists said got, NetFacts.sents (rets x st) = map ToServer said /\ gots x st = map cpay got /\
    match s with Pool.Running => said ++ unsent (x_pc x st) | Pool.Exited _ => kept (last st) said end = got ++ w_out (h_w h st).
(* a worker whose process runs *)
Record RL (x : wire) (h : whole) (st t : nat) : Prop := {
  l_at : at_ok (x_pc x st) (w_at (h_w h st)) (Net.c_main (link x st));
  l_main : main_ok t (x_pc x st) (Net.c_main (link x st));
  l_fine : Net.broken (link x st) = true -> x_pc x st = PEnd \/ Net.c_main (link x st) = Net.DiscWait;
  l_new : x_pc x st = PNew -> rets x st = [];
  l_down : x_pc x st <> PBye -> x_pc x st <> PEnd -> exists gs, NetFacts.gottens (rets x st) = map spay gs /\
           outs x st ++ map ToWorker (NetFacts.of_conn st (x_todo x)) = map ToWorker (gs ++ w_in (h_w h st));
  l_ok : forall e, In (Net.RRaised e) (rets x st) -> x_pc x st = PEnd /\ Net.c_main (link x st) = Net.Over;
  l_all : x_pc x st <> PBye -> x_pc x st <> PEnd -> outs x st ++ map ToWorker (NetFacts.of_conn st (x_todo x)) = map ToWorker (replies st (sv_tr (x_sv x)))
}.
Section Rel.
  Variable dumps : Net.nmsg payload -> option Tcp.bytes.
  Variable loads : Tcp.bytes -> option (Net.nmsg payload).
  Variable last : nat -> option nat.
  Hypothesis L : P_Net.lossless dumps loads.
  Local Notation RU := (RU last).
  Local Notation nstep := (Net.nstep dumps loads).
  Local Notation nrun := (Net.nrun dumps loads).
  Local Notation fit := (NetFacts.fit dumps).

  Definition reached (n : Net.net payload) : Prop := exists xs, nrun xs Net.net_init = Some n.
  Lemma reached_step n k n' : reached n -> nstep k n = Some n' -> reached n'.
  Proof. intros [xs R] H. exists (xs ++ [k]). rewrite NetFacts.nrun_app, R. cbn [Net.nrun]. rewrite H. reflexivity. Qed.
  Record Rel (x : wire) (h : whole) : Prop := {
    r_sv : h_sv h = x_sv x;
    r_ps : h_ps h = x_ps x;
    r_run : reached (x_net x);
    r_none : forall st, tbx x st = None -> link x st = Net.link_init /\ x_pc x st = PNew /\ gots x st = [] /\ outs x st = [];
    r_up : forall st t s, tbx x st = Some (t, s) -> RU x h st s;
    r_dead : forall st t c, tbx x st = Some (t, Pool.Exited c) -> w_at (h_w h st) = Dead \/ w_at (h_w h st) = Left;
    r_live : forall st t, tbx x st = Some (t, Pool.Running) -> RL x h st t;
    r_recv : forall st m, In (ARecv st m) (sv_tr (x_sv x)) -> gots x st <> [];
    r_todo : forall st r, In (st, r) (x_todo x) -> gots x st <> [];
    r_kind : forall st a, In a (outs x st ++ map ToWorker (NetFacts.of_conn st (x_todo x))) ->
      exists r, a = ToWorker r /\ (r = Client.RShutdown \/ exists pb, r = Client.RSend pb)
  }.
  Definition within (x : wire) : Prop := forall st n, last st = Some n -> (length (gots x st) <= n)%nat.
  (* nothing of a worker that left is under way *)
  Definition hushed (h : whole) : Prop := forall st, alive h st -> w_at (h_w h st) = Left -> last st = None \/ w_out (h_w h st) = [].
  (* every message sent so far can be pickled into fewer than 2^32 bytes *)
  Definition small (x : wire) : Prop := forall st,
    (forall a, In a (NetFacts.sents (rets x st)) -> fit (Net.App a) = true) /\ forall a, In a (outs x st) -> fit (Net.App a) = true.

  (* the network moves *)
  Lemma rel_net x h n : Rel x h -> reached n ->
    (forall st, Net.c_rets (Net.n_link n st) = rets x st) -> (forall st, Net.c_main (Net.n_link n st) = Net.c_main (link x st)) ->
    Net.n_rets n = Net.n_rets (x_net x) -> (forall st, tbx x st = None -> Net.n_link n st = link x st) ->
    (forall st t, tbx x st = Some (t, Pool.Running) -> Net.broken (Net.n_link n st) = true -> Net.broken (link x st) = true \/ Net.c_main (link x st) = Net.DiscWait) ->
    Rel (set_net x n) h.
  Proof.
    intros [R1 R2 R3 R4 R5 R6 R7 R8 R9 R10] Rn Er Em En El Eb. constructor; cbn [set_net x_sv x_ps x_net x_pc x_todo]; auto.
    - intros st Ht. rewrite (El _ Ht), En. auto.
    - intros st t s Ht. destruct (R5 _ _ _ Ht) as [said [got [A [B C]]]]. exists said, got. unfold rets. cbn [set_net x_net x_pc]. rewrite Er, En. auto.
    - intros st t Ht. destruct (R7 _ _ Ht) as [A B C D E F G]. constructor; unfold rets; cbn [set_net x_net x_pc x_todo]; rewrite ?Em, ?Er, ?En; auto.
      intros Q. destruct (Eb _ _ Ht Q); auto.
    - intros st m Hm. rewrite En. eauto.
    - intros st r Hr. rewrite En. eauto.
    - intros st a. rewrite En. apply R10.
  Qed.
  (* one worker moves *)
  Lemma rel_one x h st t x' h' : Rel x h -> tbx x st = Some (t, Pool.Running) -> x_sv x' = x_sv x -> x_ps x' = x_ps x -> x_todo x' = x_todo x ->
    reached (x_net x') -> (forall s, s <> st -> link x' s = link x s) -> Net.n_rets (x_net x') = Net.n_rets (x_net x) ->
    (forall s, s <> st -> x_pc x' s = x_pc x s) -> h_sv h' = h_sv h -> h_ps h' = h_ps h -> (forall s, s <> st -> h_w h' s = h_w h s) ->
    RU x' h' st Pool.Running -> RL x' h' st t -> Rel x' h'.
  Proof.
    intros [R1 R2 R3 R4 R5 R6 R7 R8 R9 R10] Ht E1 E2 E3 Rn El En Ep F1 F2 F3 U V. constructor; rewrite ?E1, ?E2, ?E3, ?F1, ?F2; auto.
    - intros s Hs. destruct (Nat.eq_dec s st) as [->|Ns]; [congruence|]. rewrite El, Ep, En; auto.
    - intros s u q Hs. destruct (Nat.eq_dec s st) as [->|Ns]; [rewrite Ht in Hs; injection Hs as <- <-; exact U|].
      destruct (R5 _ _ _ Hs) as [said [got [A [B C]]]]. exists said, got. unfold rets. rewrite El, En, Ep, F3; auto.
    - intros s u c Hs. destruct (Nat.eq_dec s st) as [->|Ns]; [congruence|]. rewrite F3; eauto.
    - intros s u Hs. destruct (Nat.eq_dec s st) as [->|Ns]; [rewrite Ht in Hs; injection Hs as <-; exact V|].
      destruct (R7 _ _ Hs) as [A B C D E F G]. constructor; unfold rets; rewrite ?El, ?Ep, ?F3, ?En, ?E1, ?E3; auto.
    - intros s m Hm. rewrite En. eauto.
    - intros s r Hr. rewrite En. eauto.
    - intros s a. rewrite En. apply R10.
  Qed.
  Lemma linv x h st : Rel x h -> exists puts excs ss, NetFacts.LInv dumps loads (link x st) puts excs ss.
  Proof. intros R. destruct (r_run _ _ R) as [xs H]. pose proof (WireNet.run_inv _ _ L _ _ H st) as V. eauto. Qed.
End Rel.

Lemma some_inj {A} (a b : A) : Some a = Some b -> a = b.
Proof. intros H. injection H as ->. reflexivity. Qed.
Lemma map_prefix {A B} (f : A -> B) : (forall a b, f a = f b -> a = b) -> forall a b z, map f a = map f b ++ z -> exists q, a = b ++ q /\ z = map f q.
Proof.
  intros I. induction a as [|x a IH]; intros [|y b] z; cbn; intros H; try discriminate.
  - exists []. auto.
  - exists (x :: a). auto.
  - injection H as H1 H2. apply I in H1. subst y. destruct (IH _ _ H2) as [q [-> ->]]. exists q. auto.
Qed.
Lemma cpay_inj a b : cpay a = cpay b -> a = b.
Proof. intros H. injection H as ->. reflexivity. Qed.
Lemma map_inj {A B} (f : A -> B) : (forall a b, f a = f b -> a = b) -> forall a b, map f a = map f b -> a = b.
Proof. intros I. induction a as [|x a IH]; intros [|y b]; cbn; intros H; try discriminate; auto. injection H as H1 H2. f_equal; auto. Qed.
Lemma worker_inj a b : ToWorker a = ToWorker b -> a = b.
Proof. intros H. injection H as ->. reflexivity. Qed.
Lemma cut_unsent {A} (said got q u w : list A) : said ++ u = got ++ w -> said = got ++ q -> firstn (length w - length u) w = q.
Proof.
  intros E ->. rewrite <- app_assoc in E. apply app_inv_head in E. subst w. rewrite app_length. replace (length q + length u - length u)%nat with (length q) by lia.
  rewrite firstn_app, Nat.sub_diag, firstn_all. cbn. apply app_nil_r.
Qed.

Lemma kept_cut {A} o (said got u w q : list A) : said ++ u = got ++ w -> said = got ++ q -> (forall n, o = Some n -> (length got <= n)%nat) ->
  kept o said = got ++ firstn (arriving o (length got) (length w - length u)) w.
Proof.
  intros E1 E2 W. pose proof (cut_unsent _ _ _ _ _ E1 E2) as C. destruct o as [n|]; cbn [kept arriving]; [|rewrite C; exact E2].
  specialize (W n eq_refl). rewrite Nat.min_comm, <- firstn_firstn, C, E2, firstn_app, (firstn_all2 got) by lia. reflexivity.
Qed.
(* the iterations of a run *)
Definition xserved (ms : list xmove) : list input := flat_map (fun m => match m with XServe i => [i] | _ => [] end) ms.
(* the moves of Wire.v that may be none of WholeAny.v, and those that correspond *)
Definition quiet (m : xmove) : Prop := match m with XServe _ | XRaise _ _ | XBody _ _ | XEnd _ _ => False | _ => True end.
(* the outcome of a body, told apart by what is said about it (client.py:86-101) *)
Definition tame (o : Client.outcome) : Client.outcome :=
  match o with Client.Interrupted s => Client.Finished (if status_eqb s SUCCESS then SUCCESS else FAILED) | _ => o end.
Definition ends (last : nat -> option nat) (x : wire) (h : whole) (st : nat) : nat :=
  arriving (last st) (length (gots x st)) (length (w_out (h_w h st)) - length (unsent (x_pc x st))).
Definition cuts (last : nat -> option nat) (x : wire) (h : whole) (i : input) (st : nat) : nat :=
  arriving (last st) (length (gots x st) + match i_get i with GotMessage c _ => if Nat.eqb c st then 1 else 0 | _ => 0 end)
    (length (w_out (taken (i_get i) st (h_w h st))) - length (unsent (x_pc x st))).
Definition tag (last : nat -> option nat) (x : wire) (h : whole) (m : xmove) (am : amove) : Prop :=
  match m with
  | XServe i => am = AMove (HServe i (cuts last x h i))
  | XRaise st e => exists n, am = ARaise st e n
  | XBody st o => am = AMove (HFinish st (tame o))
  | XMain st _ => am = AMove (HConnect st) \/ am = AMove (HAsk st) \/ am = AMove (HGet st)
  | XEnd st c => (c = 0 /\ w_at (h_w h st) = Left /\ am = AMove (HExit st)) \/
                 ((c <> 0 \/ w_at (h_w h st) <> Left) /\ am = AMove (HEnd st (ends last x h st) c))
  | _ => False
  end.

Section Sim.
  Variables (tasks : list task) (ord : list block -> list block) (ordt : list nat -> list nat) (d : dgraph) (s0 : sched) (fuel : nat).
  Variables (init : nat -> res unit) (nw : nat -> Z) (mbf : Z) (h0 : whole).
  Hypothesis SE : setup tasks ord ordt d s0 fuel init nw mbf h0.
  Local Notation up := (dg_up ord ordt d).
  Local Notation down := (dg_down ord ordt d).
  Local Notation maxr := (dg_max_retries d).
  Local Notation keys := (dedup Nat.eqb (map t_id tasks)).
  Local Notation astep := (astep up down maxr fuel init nw mbf).
  Local Notation aruns := (aruns up down maxr fuel init nw mbf).
  Local Notation AI := (AI tasks ord ordt d s0 fuel init nw mbf).
  Variable dumps : Net.nmsg payload -> option Tcp.bytes.
  Variable loads : Tcp.bytes -> option (Net.nmsg payload).
  Variable last : nat -> option nat.
  Hypothesis L : P_Net.lossless dumps loads.
  Local Notation within := (within last).
  Local Notation hushed := (hushed last).
  Local Notation tag := (tag last).
  Local Notation ends := (ends last).
  Local Notation cuts := (cuts last).
  Local Notation RU := (RU last).
  Local Notation xstep := (xstep up down maxr fuel init nw mbf dumps loads).
  Local Notation xruns := (xruns up down maxr fuel init nw mbf dumps loads).
  Local Notation Rel := (Rel dumps loads last).
  Local Notation small := (small dumps).
  Local Notation nstep := (Net.nstep dumps loads).

  (* h' is h, or follows from it by the move that corresponds *)
  Definition next (x : wire) (m : xmove) (h h' : whole) : Prop := (h' = h /\ quiet m) \/ exists am, astep h am h' /\ tag x h m am.

  (* what the server got of a worker is the beginning of what the worker said *)
  Lemma said_prefix x h st said got : Rel x h -> small x -> NetFacts.sents (rets x st) = map ToServer said -> gots x st = map cpay got ->
    exists q rest, said = got ++ q /\ map cpay q = NetFacts.of_conn st (Net.n_mq (x_net x)) ++ rest.
  Proof.
    intros R S E1 E2. destruct (r_run _ _ _ _ _ R) as [xs H]. destruct (WireNet.to_server _ _ L _ _ H st (proj1 (S st))) as [rest Q].
    fold (rets x st) in Q. rewrite E1, E2, map_map in Q. change (map cpay said = map cpay got ++ NetFacts.of_conn st (Net.n_mq (x_net x)) ++ rest) in Q.
    destruct (map_prefix cpay cpay_inj _ _ _ Q) as [q [-> Eq]]. exists q, rest. auto.
  Qed.
  Lemma in_task ms h x st t s : AI ms h -> Rel x h -> tbx x st = Some (t, s) -> w_task (h_w h st) = t.
  Proof. intros A R Ht. rewrite <- (r_ps _ _ _ _ _ R) in Ht. eapply ai_procs; eauto. Qed.
  Lemma wake h st w : h_w h st = w -> h_w h st = Worker (w_task w) (w_at w) (w_out w) (w_in w).
  Proof. intros ->. destruct w. reflexivity. Qed.

  (* the process of a worker ends *)
  Lemma rel_end x h st t c ps h' : Rel x h -> small x -> tbx x st = Some (t, Pool.Running) ->
    (forall s, Pool.tbl (Pool.ps_sys ps) s = if Nat.eqb st s then Some (t, Pool.Exited c) else tbx x s) ->
    h_sv h' = h_sv h -> h_ps h' = ps -> (forall s, s <> st -> h_w h' s = h_w h s) -> w_at (h_w h' st) = Dead \/ w_at (h_w h' st) = Left ->
    w_out (h_w h' st) = firstn (ends x h st) (w_out (h_w h st)) -> within (set_ps x ps) -> Rel (set_ps x ps) h'.
  Proof.
    intros R Sm Ht Tb F1 F2 F3 F4 F5 Wi. pose proof R as [R1 R2 R3 R4 R5 R6 R7 R8 R9 R10].
    constructor; cbn [set_ps x_sv x_ps x_net x_pc x_todo]; auto; try congruence.
    - intros s. rewrite Tb. destruct (Nat.eqb_spec st s); [discriminate|]. apply R4.
    - intros s u q. rewrite Tb. destruct (Nat.eqb_spec st s) as [<-|Ns].
      + intros Q. injection Q as <- <-. destruct (R5 _ _ _ Ht) as [said [got [A [B C]]]]. exists said, got. split; auto. split; auto.
        rewrite F5. destruct (said_prefix _ _ _ _ _ R Sm A B) as [q [_ [E _]]]. unfold ends. rewrite B, map_length. apply (kept_cut _ _ _ _ _ q C E).
        intros n En. pose proof (Wi st n En) as W. cbn [set_ps x_net] in W. rewrite B, map_length in W. exact W.
      + intros Q. destruct (R5 _ _ _ Q) as [said [got [A [B C]]]]. exists said, got. rewrite F3 by auto. auto.
    - intros s u q. rewrite Tb. destruct (Nat.eqb_spec st s) as [<-|Ns]; [auto|]. rewrite F3 by auto. eauto.
    - intros s u. rewrite Tb. destruct (Nat.eqb_spec st s) as [<-|Ns]; [discriminate|]. intros Q. destruct (R7 _ _ Q) as [A B C D E F G].
      constructor; cbn [set_ps x_sv x_ps x_net x_pc x_todo]; rewrite ?F3 by auto; auto.
  Qed.
  Lemma exit_tbl ps st t c : Pool.tbl (Pool.ps_sys ps) st = Some (t, Pool.Running) ->
    forall s, Pool.tbl (Pool.ps_sys (fst (Pool.pstep nw mbf (Pool.PExit st c) ps))) s = if Nat.eqb st s then Some (t, Pool.Exited c) else Pool.tbl (Pool.ps_sys ps) s.
  Proof. intros H s. cbn. rewrite H. reflexivity. Qed.
  Lemma queued_tbl ps t e : Pool.ps_sys (queued nw mbf ps t e) = Pool.ps_sys ps.
  Proof. unfold queued. destruct (_ <? _)%nat; reflexivity. Qed.

  Lemma sim_end ms x h st t c : AI ms h -> Rel x h -> small x -> within x -> hushed h -> tbx x st = Some (t, Pool.Running) ->
    exists h', next x (XEnd st c) h h' /\ Rel (set_ps x (fst (Pool.pstep nw mbf (Pool.PExit st c) (x_ps x)))) h'.
  Proof.
    intros A R Sm Wi Hu Ht. pose proof (wake h st _ eq_refl) as Ew.
    assert (Al : alive h st) by (exists t; unfold proc; rewrite (r_ps _ _ _ _ _ R); exact Ht).
    assert (D : (c = 0 /\ w_at (h_w h st) = Left) \/ (c <> 0 \/ w_at (h_w h st) <> Left)).
    { destruct (Z.eq_dec c 0) as [->|]; [|auto]. destruct (w_at (h_w h st)); auto; right; right; discriminate. }
    destruct D as [[-> El]|D].
    - exists (Whole (h_sv h) (fst (Pool.pstep nw mbf (Pool.PExit st 0) (h_ps h))) (h_w h)). split.
      + right. exists (AMove (HExit st)). split; [|left; auto]. constructor. apply hs_exit; auto.
      + rewrite <- (r_ps _ _ _ _ _ R). eapply (rel_end x h st t 0); eauto; cbn [h_sv h_ps h_w]; auto.
        * rewrite <- (r_ps _ _ _ _ _ R). apply exit_tbl. rewrite (r_ps _ _ _ _ _ R). exact Ht.
        * assert (U : unsent (x_pc x st) = []).
          { pose proof (l_at _ _ _ _ (r_live _ _ _ _ _ R _ _ Ht)) as Q. rewrite El in Q. destruct (x_pc x st); cbn in Q; try discriminate; reflexivity. }
          unfold WireSim.ends. rewrite U. cbn [length]. rewrite Nat.sub_0_r. destruct (Hu _ Al El) as [-> | ->]; cbn [arriving]; rewrite ?firstn_all, ?firstn_nil; reflexivity.
    - eexists. split.
      + right. exists (AMove (HEnd st (ends x h st) c)). split; [|right; auto]. constructor. eapply hs_end; eauto.
      + rewrite <- (r_ps _ _ _ _ _ R). eapply (rel_end x h st t c); eauto; cbn [h_sv h_ps h_w]; rewrite ?Nat.eqb_refl; cbn [w_at w_out]; auto.
        * rewrite <- (r_ps _ _ _ _ _ R). apply exit_tbl. rewrite (r_ps _ _ _ _ _ R). exact Ht.
        * intros s Ns. destruct (Nat.eqb_spec s st); [contradiction|reflexivity].
  Qed.
  Lemma sim_raise ms x h st t e : AI ms h -> Rel x h -> small x -> within x -> tbx x st = Some (t, Pool.Running) ->
    exists h', next x (XRaise st e) h h' /\ Rel (set_ps x (fst (Pool.pstep nw mbf (Pool.PExit st 0) (queued nw mbf (x_ps x) t e)))) h'.
  Proof.
    intros A R Sm Wi Ht. assert (Al : alive h st) by (exists t; unfold proc; rewrite (r_ps _ _ _ _ _ R); exact Ht).
    eexists. split.
    - right. exists (ARaise st e (ends x h st)). split; [apply as_raise; exact Al|eexists; reflexivity].
    - unfold leave. rewrite (in_task _ _ _ _ _ _ A R Ht), (r_ps _ _ _ _ _ R). eapply (rel_end x h st t 0); eauto; cbn [h_sv h_ps h_w]; rewrite ?Nat.eqb_refl; cbn [w_at w_out]; auto.
      + intros s. erewrite exit_tbl; [|rewrite queued_tbl; exact Ht]. rewrite queued_tbl. reflexivity.
      + intros s Ns. destruct (Nat.eqb_spec s st); [contradiction|reflexivity].
  Qed.

  (* the network *)
  Lemma sim_net x h st k n : Rel x h -> io k = true \/ (k = Net.KBreak /\ exists t c, tbx x st = Some (t, Pool.Exited c)) -> tbx x st <> None ->
    nstep (Net.NLink st k) (x_net x) = Some n -> Rel (set_net x n) h.
  Proof.
    intros R Io Kn H. pose proof (reached_step _ _ _ _ _ (r_run _ _ _ _ _ R) H) as Rn.
    destruct (WireNet.nstep_link _ _ _ _ _ _ H) as [l [ns [Hk [El [Ne [_ Er]]]]]].
    assert (Q : Net.c_rets l = rets x st /\ Net.c_main l = Net.c_main (link x st) /\ NetFacts.n_sent ns = []).
    { destruct Io as [Io|[-> _]]; [eapply WireNet.io_quiet; eauto|]. cbn [Net.kstep] in Hk. destruct (_ || _); [|discriminate]. injection Hk as <- <-. auto. }
    destruct Q as [Q1 [Q2 Q3]]. rewrite Q3 in Er. cbn in Er. rewrite app_nil_r in Er.
    apply rel_net; auto.
    - intros s. destruct (Nat.eq_dec s st) as [->|Ns]; [rewrite El; auto|rewrite Ne; auto].
    - intros s. destruct (Nat.eq_dec s st) as [->|Ns]; [rewrite El; auto|rewrite Ne; auto].
    - intros s Hs. destruct (Nat.eq_dec s st) as [->|Ns]; [contradiction|rewrite Ne; auto].
    - intros s t Hs. destruct (Nat.eq_dec s st) as [->|Ns]; [|rewrite Ne; auto]. destruct Io as [Io|[_ [u [c Q]]]]; [|congruence].
      rewrite El. intros B. destruct (Net.broken (link x st)) eqn:Eb; auto. right.
      destruct (linv _ _ _ L _ _ st R) as [puts [excs [ss V]]].
      assert (D : Net.c_main (link x st) = Net.DiscWait \/ Net.c_main (link x st) <> Net.DiscWait) by (destruct (Net.c_main (link x st)); auto; right; discriminate).
      destruct D as [D|D]; auto. rewrite (WireNet.io_fine _ _ L _ _ _ _ _ _ _ V Io Hk Eb D) in B. discriminate.
  Qed.

  (* a worker calls its TCPClient *)
  Lemma sim_call x h st t c n : Rel x h -> tbx x st = Some (t, Pool.Running) -> request t (x_pc x st) = Some c ->
    nstep (Net.NLink st (Net.KCall c)) (x_net x) = Some n -> Rel (set_net x n) h.
  Proof.
    intros R Ht Rq H. pose proof (reached_step _ _ _ _ _ (r_run _ _ _ _ _ R) H) as Rn.
    destruct (WireNet.nstep_link _ _ _ _ _ _ H) as [l [ns [Hk [El [Ne [_ Er]]]]]]. cbn [Net.kstep] in Hk.
    destruct (Net.c_main (link x st)) eqn:Em; try discriminate. apply some_inj in Hk. apply pair_equal_spec in Hk. destruct Hk as [<- <-]. cbn in Er. rewrite app_nil_r in Er.
    eapply (rel_one _ _ _ x h st t); eauto; cbn [set_net x_sv x_ps x_net x_pc x_todo]; auto.
    - destruct (r_up _ _ _ _ _ R _ _ _ Ht) as [said [got [A [B C]]]]. exists said, got. unfold rets. cbn [set_net x_sv x_ps x_net x_pc x_todo]. rewrite El, Er. auto.
    - destruct (r_live _ _ _ _ _ R _ _ Ht) as [A B C D E F G]. rewrite Em in *.
      constructor; unfold rets; cbn [set_net x_sv x_ps x_net x_pc x_todo]; rewrite ?El, ?Er; cbn [Net.with_main Net.c_main Net.broken Net.c_rets]; auto.
      + destruct (x_pc x st); cbn in A |- *; auto. destruct A as [A|[_ A]]; [auto|discriminate].
      + destruct (x_pc x st) as [|[|m l] [|]| | | |]; cbn in Rq |- *; try discriminate; injection Rq as <-; eauto 6.
      + intros Q. destruct (C Q) as [X|X]; [auto|discriminate].
      + intros e He. destruct (F e He) as [_ X]. discriminate.
  Qed.

  (* the server sends *)
  Lemma sim_send x h st r todo : Rel x h -> x_todo x = (st, r) :: todo ->
    Rel (Wire (x_sv x) (x_ps x) (match nstep (Net.NLink st (Net.KSend (ToWorker r))) (x_net x) with Some n => n | None => x_net x end) (x_pc x) todo) h.
  Proof.
    intros R Et. pose proof R as [R1 R2 R3 R4 R5 R6 R7 R8 R9 R10]. rewrite Et in R9, R10.
    assert (Kn : tbx x st <> None) by (intros Q; destruct (R4 _ Q) as [_ [_ [X _]]]; apply (R9 st r); [left; reflexivity|exact X]).
    assert (Tk : forall s, s <> st -> NetFacts.of_conn s ((st, r) :: todo) = NetFacts.of_conn s todo).
    { intros s Ns. unfold NetFacts.of_conn. cbn. destruct (Nat.eqb_spec st s); [congruence|reflexivity]. }
    assert (Ts : NetFacts.of_conn st ((st, r) :: todo) = r :: NetFacts.of_conn st todo) by (unfold NetFacts.of_conn; cbn; rewrite Nat.eqb_refl; reflexivity).
    destruct (nstep (Net.NLink st (Net.KSend (ToWorker r))) (x_net x)) as [n|] eqn:H.
    - destruct (WireNet.nstep_link _ _ _ _ _ _ H) as [l [ns [Hk [El [Ne [_ Er]]]]]]. cbn [Net.kstep] in Hk.
      destruct (Net.s_open (link x st)); [|discriminate]. apply some_inj in Hk. apply pair_equal_spec in Hk. destruct Hk as [<- <-]. cbn [NetFacts.n_sent flat_map app map] in Er.
      assert (Gs : forall s, NetFacts.got_from s (Net.n_rets n) = gots x s).
      { intros s. rewrite Er. unfold NetFacts.got_from. rewrite flat_map_app. cbn. apply app_nil_r. }
      assert (Os : forall s, s <> st -> NetFacts.sent_to s (Net.n_rets n) = outs x s).
      { intros s Ns. rewrite Er. unfold NetFacts.sent_to. rewrite flat_map_app. cbn. destruct (Nat.eqb_spec st s); [congruence|]. apply app_nil_r. }
      assert (O1 : NetFacts.sent_to st (Net.n_rets n) = outs x st ++ [ToWorker r]).
      { rewrite Er. unfold NetFacts.sent_to. rewrite flat_map_app. cbn. rewrite Nat.eqb_refl. reflexivity. }
      assert (Oa : forall s, NetFacts.sent_to s (Net.n_rets n) ++ map ToWorker (NetFacts.of_conn s todo) = outs x s ++ map ToWorker (NetFacts.of_conn s ((st, r) :: todo))).
      { intros s. destruct (Nat.eq_dec s st) as [->|Ns]; [rewrite O1, Ts, <- app_assoc; reflexivity|rewrite Os, Tk; auto]. }
      assert (Sa : forall s, Net.c_rets (Net.n_link n s) = rets x s /\ Net.c_main (Net.n_link n s) = Net.c_main (link x s) /\ Net.broken (Net.n_link n s) = Net.broken (link x s)).
      { intros s. destruct (Nat.eq_dec s st) as [->|Ns]; [rewrite El; auto|rewrite Ne; auto]. }
      constructor; cbn [x_sv x_ps x_net x_pc x_todo]; auto.
      + eapply reached_step; eauto.
      + intros s Hs. destruct (Nat.eq_dec s st) as [->|Ns]; [contradiction|]. rewrite Ne, Gs, Os; auto.
      + intros s t q Hs. destruct (R5 _ _ _ Hs) as [said [got [A [B C]]]]. exists said, got. unfold rets. cbn [x_net x_pc]. destruct (Sa s) as [-> _]. rewrite Gs. auto.
      + intros s t Hs. destruct (R7 _ _ Hs) as [A B C D E F G]. destruct (Sa s) as [S1 [S2 S3]].
        constructor; unfold rets; cbn [x_net x_pc x_todo]; rewrite ?S1, ?S2, ?S3; auto.
        * intros Q1 Q2. destruct (E Q1 Q2) as [gs [G1 G2]]. exists gs. split; auto. rewrite Oa, <- Et. exact G2.
        * intros Q1 Q2. rewrite Oa, <- Et. auto.
      + intros s m Hm. rewrite Gs. eauto.
      + intros s q Hq. rewrite Gs. apply (R9 s q). right. exact Hq.
      + intros s a. rewrite Oa. apply R10.
    - constructor; cbn [x_sv x_ps x_net x_pc x_todo]; auto.
      + intros s t Hs. destruct (R7 _ _ Hs) as [A B C D E F G].
        assert (Ne : x_pc x s <> PBye -> x_pc x s <> PEnd -> s <> st).
        2:{ constructor; unfold rets; cbn [x_sv x_net x_pc x_todo]; auto; intros Q1 Q2; pose proof (Ne Q1 Q2) as Ns.
            - destruct (E Q1 Q2) as [gs [G1 G2]]; exists gs; rewrite Et, (Tk _ Ns) in G2; auto.
            - rewrite <- (G Q1 Q2), Et, (Tk _ Ns). reflexivity. }
        intros Q1 Q2 ->.
        assert (Bf : Net.broken (link x st) = false).
        { destruct (Net.broken (link x st)) eqn:Q; auto. destruct (C eq_refl) as [X|X]; [contradiction|]. rewrite X in B.
          destruct (x_pc x st) as [|[|m l] [|]| | | |]; cbn in B; try discriminate; try contradiction; repeat (destruct B as [B|B]); try discriminate;
            destruct B as [a [_ B]]; repeat (destruct B as [B|B]); discriminate. }
        assert (Pn : x_pc x st <> PNew).
        { intros Q. destruct (R5 _ _ _ Hs) as [said [got [A' [B' C']]]]. rewrite (D Q) in A'. cbn in A'. destruct said; [|discriminate]. rewrite Q in C'. cbn in C'.
          destruct got; [|discriminate]. apply (R9 st r); [left; reflexivity|exact B']. }
        destruct (linv _ _ _ L _ _ st R) as [puts [excs [ss V]]].
        destruct (WireNet.live_fine _ _ _ _ _ _ V Bf) as [_ [_ [_ So]]].
        * intros X. rewrite X in B. destruct (x_pc x st) as [|[|m l] [|]| | | |]; cbn in B; try contradiction; try congruence; repeat (destruct B as [B|B]); try discriminate;
            destruct B as [a [_ B]]; repeat (destruct B as [B|B]); discriminate.
        * intros X. rewrite X in B. destruct (x_pc x st) as [|[|m l] [|]| | | |]; cbn in B; try contradiction; try congruence; repeat (destruct B as [B|B]); try discriminate;
            destruct B as [a [_ B]]; repeat (destruct B as [B|B]); discriminate.
        * cbn [Net.nstep Net.kstep] in H. rewrite So in H. discriminate.
      + intros s q Hq. apply (R9 s q). right. exact Hq.
      + intros s a Ha. apply (R10 s). apply in_app_or in Ha. apply in_or_app. destruct Ha as [Ha|Ha]; auto. right. destruct (Nat.eq_dec s st) as [->|Ns]; [rewrite Ts; right; exact Ha|rewrite Tk; auto].
  Qed.

  (* the body ends *)
  Lemma returned_same st o : (forall s, tame o <> Client.Interrupted s) /\ forall pb, returned st pb (tame o) = returned st pb o.
  Proof. destruct o as [s|s|s]; (split; [discriminate|reflexivity]) || (split; [discriminate|destruct s; reflexivity]). Qed.
  Lemma alive_x x h st t : Rel x h -> tbx x st = Some (t, Pool.Running) -> alive h st.
  Proof. intros R Ht. exists t. unfold proc. rewrite (r_ps _ _ _ _ _ R). exact Ht. Qed.
  Lemma sim_body x h st t pb o : Rel x h -> tbx x st = Some (t, Pool.Running) -> x_pc x st = PWork pb ->
    exists h', next x (XBody st o) h h' /\ Rel (set_pc x st (PSend (returned st pb o) (goes_on o))) h'.
  Proof.
    intros R Ht Ep. destruct (r_live _ _ _ _ _ R _ _ Ht) as [A B C D E F G]. rewrite Ep in *. cbn in A, B.
    destruct (returned_same st o) as [No Eo]. pose proof (wake h st _ eq_refl) as Ew. rewrite A in Ew.
    eexists. split; [right; exists (AMove (HFinish st (tame o))); split; [constructor; eapply hs_finish; eauto; eapply alive_x; eauto|reflexivity]|].
    eapply (rel_one _ _ _ x h st t); eauto; cbn [hput h_sv h_ps h_w set_pc x_sv x_ps x_net x_pc x_todo]; auto.
    - apply R.
    - intros s Ns. destruct (Nat.eqb_spec s st); [contradiction|reflexivity].
    - intros s Ns. destruct (Nat.eqb_spec s st); [contradiction|reflexivity].
    - destruct (r_up _ _ _ _ _ R _ _ _ Ht) as [said [got [A' [B' C']]]]. exists said, got. unfold rets. cbn [hput h_w set_pc x_net x_pc]. rewrite Nat.eqb_refl. split; auto. split; auto.
      cbn [unsent w_out]. rewrite Ep in C'. cbn [unsent] in C'. rewrite app_nil_r in C'. rewrite C', Eo, app_assoc. reflexivity.
    - constructor; unfold rets; cbn [hput h_w set_pc x_net x_pc x_todo]; rewrite ?Nat.eqb_refl; cbn [w_at w_in]; auto; try (cbn; auto; fail); try discriminate.
      + intros Q. destruct (C Q); [discriminate|auto].
      + intros _ _. apply E; discriminate.
      + intros e He. destruct (F e He). discriminate.
      + intros _ _. apply G; discriminate.
  Qed.
  (* the main thread of a worker *)
  Lemma rel_main x h st t n l rs p h' : Rel x h -> tbx x st = Some (t, Pool.Running) -> reached dumps loads n ->
    Net.n_link n st = l -> (forall s, s <> st -> Net.n_link n s = link x s) -> Net.n_rets n = Net.n_rets (x_net x) -> Net.c_rets l = rets x st ++ rs ->
    h_sv h' = h_sv h -> h_ps h' = h_ps h -> (forall s, s <> st -> h_w h' s = h_w h s) ->
    at_ok p (w_at (h_w h' st)) (Net.c_main l) -> main_ok t p (Net.c_main l) ->
    (Net.broken l = true -> p = PEnd \/ Net.c_main l = Net.DiscWait) -> (p = PNew -> rets x st ++ rs = []) -> (forall e, In (Net.RRaised e) (rets x st ++ rs) -> p = PEnd /\ Net.c_main l = Net.Over) ->
    (p <> PBye -> p <> PEnd -> x_pc x st <> PBye /\ x_pc x st <> PEnd /\ exists gs, NetFacts.gottens rs = map spay gs /\ w_in (h_w h st) = gs ++ w_in (h_w h' st)) ->
    (exists s o, NetFacts.sents rs = map ToServer s /\ w_out (h_w h' st) = w_out (h_w h st) ++ o /\ unsent (x_pc x st) ++ o = s ++ unsent p) ->
    Rel (set_pc (set_net x n) st p) h'.
  Proof.
    intros R Ht Rn El Ne En Er F1 F2 F3 H1 H2 H3 H4 H7 H5 H6.
    eapply (rel_one _ _ _ x h st t); eauto; cbn [set_net set_pc x_sv x_ps x_net x_pc x_todo]; auto.
    - intros s Ns. destruct (Nat.eqb_spec s st); [contradiction|reflexivity].
    - destruct (r_up _ _ _ _ _ R _ _ _ Ht) as [said [got [A [B C]]]]. destruct H6 as [s [o [S1 [S2 S3]]]]. exists (said ++ s), got.
      unfold rets. cbn [set_net set_pc x_net x_pc]. rewrite Nat.eqb_refl, El, Er, En. split; [|split; auto].
      + unfold NetFacts.sents in *. rewrite flat_map_app, A, S1, map_app. reflexivity.
      + rewrite S2, <- app_assoc, <- S3, !app_assoc, C. reflexivity.
    - constructor; unfold rets; cbn [set_net set_pc x_net x_pc x_todo]; rewrite ?Nat.eqb_refl, ?El, ?Er, ?En; auto.
      2:{ intros Q1 Q2. destruct (H5 Q1 Q2) as [P1 [P2 _]]. apply (l_all _ _ _ _ (r_live _ _ _ _ _ R _ _ Ht) P1 P2). }
      intros Q1 Q2. destruct (H5 Q1 Q2) as [P1 [P2 [gs [G1 G2]]]]. destruct (l_down _ _ _ _ (r_live _ _ _ _ _ R _ _ Ht) P1 P2) as [gs0 [G3 G4]].
      exists (gs0 ++ gs). unfold NetFacts.gottens in *. rewrite flat_map_app, G3, G1, map_app. split; auto. rewrite G4, G2, app_assoc. reflexivity.
  Qed.

  (* the answer *)
  Lemma next_answer x h st t m r : Rel x h -> small x -> tbx x st = Some (t, Pool.Running) -> x_pc x st = PWait -> Net.c_mq (link x st) = m :: r ->
    exists a q, m = spay a /\ w_in (h_w h st) = a :: q /\ (a = Client.RShutdown \/ exists pb, a = Client.RSend pb).
  Proof.
    intros R Sm Ht Ep Em. destruct (l_down _ _ _ _ (r_live _ _ _ _ _ R _ _ Ht)) as [gs [G1 G2]]; try (rewrite Ep; discriminate).
    destruct (r_run _ _ _ _ _ R) as [xs Hx]. destruct (WireNet.to_client _ _ L _ _ Hx st (proj2 (Sm st))) as [rest Q]. fold (rets x st) in Q. rewrite G1, Em in Q.
    symmetry in G2. destruct (map_eq_app _ _ _ _ G2) as [o1 [o2 [E1 [E2 _]]]].
    rewrite <- E2, map_map in Q. change (map spay o1 = map spay gs ++ (m :: r) ++ rest) in Q.
    destruct (map_prefix spay) with (a := o1) (b := gs) (z := (m :: r) ++ rest) as [q [Eq Ez]]; auto.
    { intros a b H. injection H as ->. reflexivity. }
    destruct q as [|a q]; [discriminate|]. cbn in Ez. injection Ez as -> _. exists a, (q ++ o2). split; auto.
    rewrite Eq in E1. rewrite <- app_assoc in E1. apply app_inv_head in E1. split; auto.
    assert (I : In (ToWorker a) (outs x st ++ map ToWorker (NetFacts.of_conn st (x_todo x)))).
    { apply in_or_app. left. rewrite <- E2, Eq. apply in_map. apply in_or_app. right. left. reflexivity. }
    destruct (r_kind _ _ _ _ _ R _ _ I) as [b [Eb K]]. injection Eb as <-. exact K.
  Qed.

  Ltac noerr No := try match goal with |- forall e, _ \/ _ -> _ => intros ? [?|[]]; discriminate | |- forall e, False -> _ => intros ? []
    | |- forall e, In (Net.RRaised e) _ -> _ => let e := fresh "e" in let H := fresh "H" in intros e H; exfalso; revert H; apply No; discriminate end.
  Lemma sim_main ms x h st t k n rs : AI ms h -> Rel x h -> small x -> tbx x st = Some (t, Pool.Running) -> k = Net.KMain \/ k = Net.KTimeout ->
    nstep (Net.NLink st k) (x_net x) = Some n -> Net.c_rets (Net.n_link n st) = rets x st ++ rs ->
    exists h', next x (XMain st k) h h' /\ Rel (set_pc (set_net x n) st (fold_left resume rs (x_pc x st))) h'.
  Proof.
    intros A R Sm Ht Hk H Er. pose proof (reached_step _ _ _ _ _ (r_run _ _ _ _ _ R) H) as Rn.
    destruct (WireNet.nstep_link _ _ _ _ _ _ H) as [l [ns [Hl [El [Ne [_ En]]]]]]. rewrite El in Er. clear H. pose proof (conj El I) as Elx. clear El.
    assert (Al : alive h st) by (eapply alive_x; eauto). pose proof (wake h st _ eq_refl) as Ew. pose proof (in_task _ _ _ _ _ _ A R Ht) as Et.
    destruct (linv _ _ _ L _ _ st R) as [puts [excs [ss V]]]. pose proof (WireNet.live_fine _ _ _ _ _ _ V) as Lf.
    destruct (r_live _ _ _ _ _ R _ _ Ht) as [La Lm Lb Ln Ld Lo Lr].
    assert (Tm : k = Net.KTimeout -> Net.c_main (link x st) = Net.Get2 /\ l = Net.ret (Net.RGotten None) (link x st) /\ ns = []).
    { intros ->. cbn [Net.kstep] in Hl. destruct (Net.c_main (link x st)); try discriminate. destruct (Net.c_mq (link x st)); [|discriminate].
      apply some_inj in Hl. apply pair_equal_spec in Hl. destruct Hl as [<- <-]. auto. }
    assert (Mn : k = Net.KMain -> Net.main_step (link x st) = Some l /\ ns = []).
    { intros ->. cbn [Net.kstep] in Hl. destruct (Net.main_step (link x st)); [|discriminate]. apply some_inj in Hl. apply pair_equal_spec in Hl. destruct Hl as [<- <-]. auto. }
    assert (Ns0 : ns = []) by (destruct Hk as [Hk|Hk]; [apply Mn|apply Tm]; auto). subst ns. cbn in En. rewrite app_nil_r in En. clear Hl.
    assert (Nr : forall e, ~ In (Net.RRaised e) (rets x st)).
    { intros e He. destruct (Lo e He) as [_ X]. destruct Hk as [Hk|Hk]; [|destruct (Tm Hk); congruence]. destruct (Mn Hk) as [Hm _]. unfold Net.main_step in Hm. rewrite X in Hm. discriminate. }
    assert (No : forall r, (forall e, r <> Net.RRaised e) -> forall e, ~ In (Net.RRaised e) (rets x st ++ [r])).
    { intros r Hr e He. apply in_app_or in He. destruct He as [He|[He|[]]]; [exact (Nr e He)|exact (Hr e He)]. }
    assert (Stay : forall p, Net.c_rets l = rets x st ++ rs -> NetFacts.sents rs = [] -> NetFacts.gottens rs = [] -> unsent (x_pc x st) = unsent p ->
       at_ok p (w_at (h_w h st)) (Net.c_main l) -> main_ok t p (Net.c_main l) -> (Net.broken l = true -> p = PEnd \/ Net.c_main l = Net.DiscWait) ->
       p <> PNew -> (forall e, In (Net.RRaised e) rs -> p = PEnd /\ Net.c_main l = Net.Over) -> (p <> PBye -> p <> PEnd -> x_pc x st <> PBye /\ x_pc x st <> PEnd) -> exists h', next x (XMain st k) h h' /\ Rel (set_pc (set_net x n) st p) h').
    { intros p Q1 Q2 Q3 Q4 Q5 Q6 Q7 Q8 Qo Q9. exists h. split; [left; split; [reflexivity|exact I]|]. eapply (rel_main x h st t n l rs p h R Ht Rn (proj1 Elx) Ne En); eauto; try contradiction.
      - intros e He. apply in_app_or in He. destruct He as [He|He]; [destruct (Nr e He)|eauto].
      - intros X Y. destruct (Q9 X Y). split; auto. split; auto. exists []. auto.
      - exists [], []. rewrite !app_nil_r. auto. }
    destruct Hk as [Hk|Hk].
    2:{ destruct (Tm Hk) as [M [-> _]]. rewrite M in *. cbn in Er. apply app_inv_head in Er. subst rs. cbn [fold_left].
        assert (Ep : x_pc x st = PWait).
        { destruct (x_pc x st) as [|[|m l] [|]| | | |]; cbn in Lm; try discriminate; auto; repeat (destruct Lm as [Lm|Lm]); try discriminate;
            destruct Lm as [a [_ B]]; repeat (destruct B as [B|B]); discriminate. }
        rewrite Ep in *. cbn [resume]. apply Stay; auto; try discriminate; cbn; auto; noerr No. intros Q. destruct (Lb Q); discriminate. }
    destruct (Mn Hk) as [Hm _]. clear Tm Mn. unfold Net.main_step in Hm.
    assert (Bf : x_pc x st <> PEnd -> Net.c_main (link x st) <> Net.DiscWait -> Net.broken (link x st) = false).
    { intros Q1 Q2. destruct (Net.broken (link x st)); auto. destruct (Lb eq_refl); contradiction. }
    destruct (x_pc x st) as [|ml b| |pb| |] eqn:Ep; cbn [main_ok] in Lm.
    - (* PNew *)
      rewrite Lm in *. destruct (Net.c_conn (link x st)) eqn:Ec.
      + apply some_inj in Hm. subst l. cbn [Net.ret Net.with_c Net.c_rets] in Er. fold (rets x st) in Er. apply app_inv_head in Er. subst rs. cbn [fold_left resume].
        cbn in La. rewrite La in Ew. eexists. split; [right; exists (AMove (HConnect st)); split; [constructor; eapply hs_connect; eauto|cbn; auto]|].
        eapply (rel_main x h st t n _ _ _ _ R Ht Rn (proj1 Elx) Ne En); eauto; cbn [hput h_sv h_ps h_w]; rewrite ?Nat.eqb_refl; cbn; auto; try discriminate; noerr No.
        * intros s Ns. destruct (Nat.eqb_spec s st); [contradiction|reflexivity].
        * intros Q. rewrite Bf in Q; discriminate.
        * intros _ _. split; [congruence|]. split; [congruence|]. exists []. auto.
        * exists [], []. rewrite !app_nil_r, Ep. auto.
      + destruct (Net.c_eq (link x st)) as [|e r]; [discriminate|]. apply some_inj in Hm. subst l. cbn in Er. fold (rets x st) in Er. apply app_inv_head in Er. subst rs. cbn [fold_left resume].
        apply Stay; auto; try discriminate; cbn; auto; try congruence.
    - (* PSend *)
      cbn in La. assert (B0 : Net.broken (link x st) = false).
      { apply Bf; [discriminate|]. intros Q. rewrite Q in Lm. destruct Lm as [Lm|[a [_ Lm]]]; [discriminate|]. repeat (destruct Lm as [Lm|Lm]); discriminate. }
      specialize (Lf B0). destruct Lm as [Lm|[a [Rq Lm]]]; [rewrite Lm in Hm; discriminate|].
      destruct Lf as [L1 [L2 [L3 _]]]; try (intros Q; rewrite Q in Lm; repeat (destruct Lm as [Lm|Lm]); discriminate).
      rewrite L1, L2, L3 in Hm. destruct Lm as [Lm|[Lm|Lm]]; rewrite Lm in Hm; apply some_inj in Hm; subst l.
      + cbn in Er. fold (rets x st) in Er. rewrite <- (app_nil_r (rets x st)) in Er at 1. apply app_inv_head in Er. subst rs. cbn [fold_left].
        apply Stay; auto; cbn; auto; try congruence; try discriminate; noerr No; [symmetry; apply app_nil_r|]. right. exists a. auto.
      + cbn in Er. fold (rets x st) in Er. rewrite <- (app_nil_r (rets x st)) in Er at 1. apply app_inv_head in Er. subst rs. cbn [fold_left].
        apply Stay; auto; cbn; auto; try congruence; try discriminate; noerr No; [symmetry; apply app_nil_r|]. right. exists a. auto.
      + cbn in Er. fold (rets x st) in Er. apply app_inv_head in Er. subst rs. cbn [fold_left].
        destruct ml as [|m ml].
        * destruct b; [|discriminate]. cbn in Rq. injection Rq as <-. cbn [resume]. rewrite La in Ew.
          eexists. split; [right; exists (AMove (HAsk st)); split; [constructor; eapply hs_ask; eauto|cbn; auto]|].
          eapply (rel_main x h st t n _ _ _ _ R Ht Rn (proj1 Elx) Ne En); eauto; cbn [hput h_sv h_ps h_w]; rewrite ?Nat.eqb_refl; cbn; auto; try discriminate; noerr No.
          -- intros s Ns. destruct (Nat.eqb_spec s st); [contradiction|reflexivity].
          -- congruence.
          -- intros _ _. split; [congruence|]. split; [congruence|]. exists []. auto.
          -- exists [MAcquire t], [MAcquire t]. rewrite Et, Ep. auto.
        * cbn in Rq. injection Rq as <-. cbn [resume]. exists h. split; [left; split; [reflexivity|exact I]|].
          eapply (rel_main x h st t n _ _ _ _ R Ht Rn (proj1 Elx) Ne En); eauto; cbn; auto; try discriminate; noerr No.
          -- congruence.
          -- intros _ _. split; [congruence|]. split; [congruence|]. exists []. auto.
          -- exists [m], []. rewrite Ep, !app_nil_r. auto.
    - (* PWait *)
      cbn in La. assert (B0 : Net.broken (link x st) = false).
      { apply Bf; [discriminate|]. intros Q. rewrite Q in Lm. repeat (destruct Lm as [Lm|Lm]); discriminate. }
      specialize (Lf B0). destruct Lf as [L1 [L2 [L3 _]]]; try (intros Q; rewrite Q in Lm; repeat (destruct Lm as [Lm|Lm]); discriminate).
      rewrite L1, L3 in Hm. destruct Lm as [Lm|[Lm|[Lm|Lm]]]; rewrite Lm in Hm; [discriminate| | |].
      + apply some_inj in Hm; subst l. cbn in Er. fold (rets x st) in Er. rewrite <- (app_nil_r (rets x st)) in Er at 1. apply app_inv_head in Er. subst rs. cbn [fold_left].
        apply Stay; auto; cbn; auto; try congruence; try discriminate; noerr No; symmetry; apply app_nil_r.
      + apply some_inj in Hm; subst l. cbn in Er. fold (rets x st) in Er. rewrite <- (app_nil_r (rets x st)) in Er at 1. apply app_inv_head in Er. subst rs. cbn [fold_left].
        apply Stay; auto; cbn; auto; try congruence; try discriminate; noerr No; symmetry; apply app_nil_r.
      + destruct (Net.c_mq (link x st)) as [|m r] eqn:Em; [discriminate|]. apply some_inj in Hm; subst l. cbn in Er. fold (rets x st) in Er. apply app_inv_head in Er. subst rs. cbn [fold_left].
        destruct (next_answer _ _ _ _ _ _ R Sm Ht Ep Em) as [a [q [-> [Ei Ka]]]]. rewrite La, Ei in Ew. unfold spay. destruct Ka as [->|[pb ->]]; cbn [resume].
        * eexists. split; [right; exists (AMove (HGet st)); split; [constructor; eapply hs_leave; eauto|cbn; auto]|].
          eapply (rel_main x h st t n _ _ _ _ R Ht Rn (proj1 Elx) Ne En); eauto; cbn [hput h_sv h_ps h_w]; rewrite ?Nat.eqb_refl; cbn; auto; try discriminate; noerr No.
          -- intros s Ns. destruct (Nat.eqb_spec s st); [contradiction|reflexivity].
          -- congruence.
          -- congruence.
          -- exists [], []. rewrite Ep, !app_nil_r. auto.
        * eexists. split; [right; exists (AMove (HGet st)); split; [constructor; eapply hs_block; eauto|cbn; auto]|].
          eapply (rel_main x h st t n _ _ _ _ R Ht Rn (proj1 Elx) Ne En); eauto; cbn [hput h_sv h_ps h_w]; rewrite ?Nat.eqb_refl; cbn; auto; try discriminate; noerr No.
          -- intros s Ns. destruct (Nat.eqb_spec s st); [contradiction|reflexivity].
          -- congruence.
          -- intros _ _. split; [congruence|]. split; [congruence|]. exists [Client.RSend pb]. auto.
          -- exists [], []. rewrite Ep, !app_nil_r. auto.
    - (* PWork *) rewrite Lm in Hm. discriminate.
    - (* PBye *)
      cbn in La. destruct Lm as [Lm|[Lm|[Lm|Lm]]]; rewrite Lm in Hm; [discriminate| | |].
      + specialize (Lf (Bf ltac:(discriminate) ltac:(congruence))). destruct Lf as [L1 _]; try congruence. rewrite L1 in Hm. apply some_inj in Hm. subst l.
        cbn in Er. fold (rets x st) in Er. rewrite <- (app_nil_r (rets x st)) in Er at 1. apply app_inv_head in Er. subst rs. cbn [fold_left].
        apply Stay; auto; cbn; auto; try congruence; try discriminate; noerr No; [symmetry; apply app_nil_r|]. intros Q. rewrite Bf in Q; congruence.
      + specialize (Lf (Bf ltac:(discriminate) ltac:(congruence))). destruct Lf as [L1 [L2 _]]; try congruence. rewrite L1, L2 in Hm. apply some_inj in Hm. subst l.
        cbn in Er. fold (rets x st) in Er. rewrite <- (app_nil_r (rets x st)) in Er at 1. apply app_inv_head in Er. subst rs. cbn [fold_left].
        apply Stay; auto; cbn; auto; try congruence; try discriminate; noerr No; symmetry; apply app_nil_r.
      + destruct (Net.c_conn (link x st)); [discriminate|]. apply some_inj in Hm. subst l. cbn in Er. fold (rets x st) in Er. apply app_inv_head in Er. subst rs. cbn [fold_left resume].
        apply Stay; auto; cbn; auto; try congruence; try discriminate; noerr No; symmetry; apply app_nil_r.
    - (* PEnd *) destruct Lm as [Lm|Lm]; rewrite Lm in Hm; discriminate.
  Qed.
  (* an iteration of the server's loop *)
  Lemma known_x x h st : Rel x h -> known h st <-> tbx x st <> None.
  Proof. intros R. unfold known, proc. rewrite (r_ps _ _ _ _ _ R). tauto. Qed.
  Lemma kept_got {A} o (said got z w : list A) m : kept o said = got ++ w -> said = got ++ m :: z -> (forall k, o = Some k -> (length (got ++ [m]) <= k)%nat) ->
    exists w', w = m :: w'.
  Proof.
    intros E1 E2 W. destruct o as [k|]; cbn [kept] in E1; [|rewrite E2 in E1; apply app_inv_head in E1; eauto].
    specialize (W k eq_refl). rewrite app_length in W. cbn in W. rewrite E2, firstn_app, (firstn_all2 got) in E1 by lia. apply app_inv_head in E1.
    destruct (k - length got)%nat as [|j] eqn:Q; [lia|]. cbn in E1. eauto.
  Qed.
  Definition gets_in (i : input) (s : nat) : list (Net.nmsg payload) := match i_get i with GotMessage c m => if Nat.eqb c s then [cpay m] else [] | _ => [] end.
  Lemma gets_more x (n : Net.net payload) r i s : Net.n_rets n = Net.n_rets (x_net x) ++ [r] -> got_of r = Some (i_get i) -> NetFacts.got_from s (Net.n_rets n) = gots x s ++ gets_in i s.
  Proof.
    intros Er Eg. rewrite Er. unfold NetFacts.got_from, gets_in. rewrite flat_map_app. f_equal. destruct r as [c [[m|a]| |]| |c [| | | |]|c a]; cbn in Eg; try discriminate; injection Eg as <-; cbn; auto.
    destruct (Nat.eqb c s); reflexivity.
  Qed.
  Definition within_net (n : Net.net payload) : Prop := forall st k, last st = Some k -> (length (NetFacts.got_from st (Net.n_rets n)) <= k)%nat.
  Lemma serve_input x h n r i : Rel x h -> small x -> within_net n -> nstep Net.NGet (x_net x) = Some n -> Net.n_rets n = Net.n_rets (x_net x) ++ [r] -> got_of r = Some (i_get i) ->
    i_health i = Ok tt -> (forall st, i_closed i st = true -> closable x st) -> hinput_ok h i.
  Proof.
    intros R Sm Wn Hn Er Eg Eh Ec. destruct (WireNet.no_get _ _ _ _ _ Hn Er) as [_ Nr]. split; auto. split.
    - pose proof (fun s => gets_more x n r i s Er Eg) as Gs. destruct r as [c [[m|a]| |]| |c [| | | |]|c a]; cbn in Eg; try discriminate; injection Eg as Eg; rewrite <- Eg; auto.
      assert (Gc : NetFacts.got_from c (Net.n_rets n) = gots x c ++ [cpay m]) by (rewrite Gs; unfold gets_in; rewrite <- Eg, Nat.eqb_refl; reflexivity).
      assert (Z : forall q rest, map cpay q = NetFacts.of_conn c (Net.n_mq (x_net x)) ++ rest -> exists z, q = m :: z).
      { intros q rest Q. rewrite Nr in Q. unfold NetFacts.of_conn in Q. cbn in Q. rewrite Nat.eqb_refl in Q. cbn in Q. destruct q as [|m' z]; [discriminate|]. cbn [map] in Q. injection Q as -> _. eauto. }
      destruct (tbx x c) as [[t s]|] eqn:Et.
      + split; [apply (known_x _ _ _ R); congruence|].
        destruct (r_up _ _ _ _ _ R _ _ _ Et) as [said [got [A [B C]]]]. destruct (said_prefix _ _ _ _ _ R Sm A B) as [q [rest [E Q]]].
        destruct (Z _ _ Q) as [z ->]. destruct s as [|e].
        * rewrite E, <- app_assoc in C. apply app_inv_head in C. eauto.
        * eapply kept_got; eauto. intros k Hk. specialize (Wn c k Hk). rewrite Gc, B, app_length, map_length in Wn. rewrite app_length. exact Wn.
      + destruct (r_none _ _ _ _ _ R _ Et) as [A [_ [B _]]].
        assert (A' : NetFacts.sents (rets x c) = map ToServer []) by (unfold rets; rewrite A; reflexivity).
        destruct (said_prefix _ _ _ _ [] R Sm A' B) as [q [rest [E Q]]]. destruct (Z _ _ Q) as [z ->]. discriminate.
    - intros st Hc. destruct (Ec _ Hc) as [[G B]|[_ [u [e Hx]]]].
      2:{ unfold xproc in Hx. split; [apply (known_x _ _ _ R); congruence|]. destruct (r_dead _ _ _ _ _ R _ _ _ Hx) as [-> | ->]; exact I. }
      assert (K : tbx x st <> None) by (intros K; destruct (r_none _ _ _ _ _ R _ K) as [_ [_ [X _]]]; contradiction).
      split; [apply (known_x _ _ _ R); exact K|]. destruct (tbx x st) as [[t [|c]]|] eqn:Et; [| |congruence].
      + destruct (r_live _ _ _ _ _ R _ _ Et) as [La Lm Lb Ln Ld Lo Lr]. destruct (Lb B) as [Ep|Ed].
        * rewrite Ep in La. destruct La as [->|[_ Eo]]; [exact I|]. destruct (linv _ _ _ L _ _ st R) as [puts [excs [ss V]]]. rewrite (WireNet.over_fine _ _ _ _ _ _ V Eo) in B. discriminate.
        * rewrite Ed in Lm. destruct (x_pc x st) as [|[|m l] [|]| | | |]; cbn in Lm, La; try discriminate; try (rewrite La; exact I); try (destruct Lm; discriminate);
            repeat (destruct Lm as [Lm|Lm]); try discriminate; destruct Lm as [a [_ Q]]; repeat (destruct Q as [Q|Q]); discriminate.
      + destruct (r_dead _ _ _ _ _ R _ _ _ Et) as [-> | ->]; exact I.
  Qed.

  Lemma sim_serve ms x h i n r sv l ps : AI ms h -> Rel x h -> small x -> within_net n -> x_todo x = [] -> sv_stop (x_sv x) = false ->
    nstep Net.NGet (x_net x) = Some n -> Net.n_rets n = Net.n_rets (x_net x) ++ [r] -> got_of r = Some (i_get i) ->
    i_health i = Ok tt -> (forall st, i_closed i st = true -> closable x st) ->
    iteration up down maxr fuel init i (x_sv x) = Ok sv -> sv_tr sv = l ++ sv_tr (x_sv x) ->
    pools_do nw mbf (pool_acts l ++ [Pool.PHealth]) (x_ps x) = Ok ps ->
    exists h', next x (XServe i) h h' /\ Rel (Wire sv ps n (x_pc x) (sends l)) h'.
  Proof.
    intros A R Sm Wn Et Sp Hn Er Eg Eh Ec E El Ep.
    pose proof (serve_input _ _ _ _ _ R Sm Wn Hn Er Eg Eh Ec) as Io. destruct (WireNet.no_get _ _ _ _ _ Hn Er) as [Nl Nr].
    pose proof (reached_step _ _ _ _ _ (r_run _ _ _ _ _ R) Hn) as Rn. pose proof R as [R1 R2 R3 R4 R5 R6 R7 R8 R9 R10]. rewrite <- R1 in Sp, E, El.
    pose (w1 := fun s => taken (i_get i) s (h_w h s)). pose (cut := cuts x h i).
    destruct (pools_do_all nw mbf cut _ _ (fun s => deliver s l (w1 s)) _ Ep) as [f Ef]. rewrite <- R2 in Ef.
    assert (A' : AI (ms ++ [AMove (HServe i cut)]) (Whole sv ps f)) by (eapply ai_serve; eauto).
    assert (Ast : astep h (AMove (HServe i cut)) (Whole sv ps f)) by (constructor; eapply hs_serve; eauto).
    destruct (ai_events _ _ _ _ _ _ _ _ _ _ _ _ _ _ A Io E El) as [Ev [_ [_ Pr]]]. destruct (ai_told _ _ _ _ _ _ _ _ _ _ _ A) as [es [T _]].
    destruct (on_all_sync nw mbf keys (sv_started sv) cut _ _ _ _ _ _ T Ev Pr Ef) as [Mo Sy]. rewrite R2 in Mo, Sy. change (forall j, f j = sync cut (x_ps x) ps (fun s => deliver s l (w1 s)) j) in Sy.
    (* what was got and sent *)
    assert (Os : forall s, NetFacts.sent_to s (Net.n_rets n) = outs x s).
    { intros s. rewrite Er. unfold NetFacts.sent_to. rewrite flat_map_app. destruct r; cbn in Nr |- *; try apply app_nil_r. destruct Nr. }
    pose proof (fun s => gets_more x n r i s Er Eg) as Gs.
    assert (Gn : forall s, gots x s <> [] -> NetFacts.got_from s (Net.n_rets n) <> []).
    { intros s Hs Q. rewrite Gs in Q. apply app_eq_nil in Q. destruct Q. contradiction. }
    assert (Up : forall s t q, tbx x s = Some (t, q) -> exists said got z, NetFacts.sents (rets x s) = map ToServer said /\ NetFacts.got_from s (Net.n_rets n) = map cpay got /\
       match q with Pool.Running => said ++ unsent (x_pc x s) | Pool.Exited _ => kept (last s) said end = got ++ w_out (w1 s) /\ said = got ++ z).
    { intros s t q Hs. destruct (R5 _ _ _ Hs) as [said [got [A1 [B1 C1]]]]. destruct (said_prefix _ _ _ _ _ R Sm A1 B1) as [z [rest [Z1 Z2]]].
      rewrite Gs. unfold w1, taken, gets_in. specialize (Wn s). rewrite Gs in Wn. unfold gets_in in Wn. destruct (i_get i) as [c m| | |e] eqn:Ei; try (rewrite app_nil_r; exists said, got, z; auto; fail).
      destruct (Nat.eqb_spec c s) as [->|Ns]; [|rewrite app_nil_r; exists said, got, z; auto].
      assert (Hm : r = Net.SGot s (cpay m)) by (destruct r as [c [[m'|a]| |]| |c [| | | |]|c a]; cbn in Eg; try discriminate; injection Eg as <- <-; reflexivity). subst r.
      rewrite Nr in Z2. unfold NetFacts.of_conn in Z2. cbn in Z2. rewrite Nat.eqb_refl in Z2. cbn in Z2. destruct z as [|m' z]; [discriminate|]. cbn [map] in Z2. injection Z2 as -> _.
      exists said, (got ++ [m]), z. split; auto. split; [rewrite B1, map_app; reflexivity|]. cbn [w_out]. split; [|rewrite Z1, <- app_assoc; reflexivity].
      destruct q as [|e].
      - rewrite Z1, <- !app_assoc in C1. apply app_inv_head in C1. cbn in C1. rewrite <- C1. cbn [tl]. rewrite Z1, <- !app_assoc. reflexivity.
      - destruct (kept_got _ _ _ _ _ _ C1 Z1) as [w' Ew]; [|rewrite C1, Ew, <- app_assoc; reflexivity].
        intros k Hk. specialize (Wn k Hk). rewrite B1, app_length, map_length in Wn. rewrite app_length. exact Wn. }
    assert (Rc : forall st m, In (ARecv st m) (sv_tr sv) -> NetFacts.got_from st (Net.n_rets n) <> []).
    { intros st m Hm. destruct (iter_adds _ _ _ _ _ _ _ _ E) as [l1 [E1 F1]]. cbn [add_tr sv_tr] in E1. rewrite E1 in Hm. apply in_app_or in Hm.
      destruct Hm as [Hm|Hm]; [rewrite Forall_forall in F1; destruct (F1 _ Hm)|]. apply in_app_or in Hm. destruct Hm as [Hm|Hm].
      - unfold recv in Hm. rewrite Gs. unfold gets_in. destruct (i_get i) as [c m'| | |e]; try (destruct Hm; fail). destruct Hm as [Hm|[]]. injection Hm as <- <-. rewrite Nat.eqb_refl. intros Q. apply app_eq_nil in Q. destruct Q. discriminate.
      - apply Gn. apply (R8 st m). rewrite <- R1. exact Hm. }
    assert (Ta : forall st a, In (st, a) (sends (sv_tr sv)) -> NetFacts.got_from st (Net.n_rets n) <> []).
    { intros st a Ha. pose proof (ai_server _ _ _ _ _ _ _ _ _ _ _ A') as Rt. cbn [h_sv] in Rt.
      destruct (answered_asked _ _ _ _ _ _ _ _ _ _ Rt st a) as [t Ht]; [exact Ha|eapply Rc; eauto]. }
    assert (Td : forall st a, In (st, a) (sends l) -> NetFacts.got_from st (Net.n_rets n) <> []).
    { intros st a Ha. apply (Ta st a). rewrite El. unfold sends in *. rewrite rev_app_distr, flat_map_app. apply in_or_app. auto. }
    assert (New : forall s, tbx x s = None -> NetFacts.got_from s (Net.n_rets n) = []).
    { intros s Hs. destruct (R4 _ Hs) as [_ [_ [G _]]]. rewrite Gs, G. unfold gets_in. destruct Io as [_ [I1 _]]. destruct (i_get i) as [c m| | |e]; auto. destruct I1 as [K _].
      apply (known_x _ _ _ R) in K. destruct (Nat.eqb_spec c s); [congruence|reflexivity]. }
    assert (Wf : forall s, w_at (deliver s l (w1 s)) = w_at (h_w h s) /\ w_in (deliver s l (w1 s)) = w_in (h_w h s) ++ replies s l /\ w_out (deliver s l (w1 s)) = w_out (w1 s)).
    { intros s. unfold deliver, w1, taken. destruct (i_get i) as [c m| | |e]; cbn; auto. destruct (Nat.eqb c s); cbn; auto. }
    exists (Whole sv ps f). split; [right; eexists; split; [exact Ast|reflexivity]|].
    constructor; cbn [x_sv x_ps x_net x_pc x_todo h_sv h_ps h_w]; auto.
    - intros s Hs. destruct (tbx x s) as [[t q]|] eqn:Hx; [destruct (Mo _ _ _ Hx) as [X|[c [_ X]]]; congruence|]. rewrite Nl, Os, New; auto. destruct (R4 _ Hx) as [X1 [X2 [_ X4]]]. auto.
    - intros s t q Hs. unfold RU, rets. cbn [x_net x_pc h_w]. rewrite Nl, Sy. unfold sync. rewrite Hs. destruct (tbx x s) as [[t0 q0]|] eqn:Hx.
      + destruct (Up _ _ _ Hx) as [said [got [z [U1 [U2 [U3 U4]]]]]]. exists said, got. split; auto. split; auto. destruct (Wf s) as [_ [_ W3]].
        destruct (Mo _ _ _ Hx) as [X|[c [-> X]]]; rewrite Hs in X; injection X as -> ->.
        * destruct q0; cbv beta; rewrite W3; exact U3.
        * cbn [w_out]. change (kept (last s) said = got ++ firstn (cut s) (w_out (w1 s))).
          assert (Lg : (length (gots x s) + match i_get i with GotMessage c0 _ => if Nat.eqb c0 s then 1 else 0 | _ => 0 end)%nat = length got).
          { rewrite <- (map_length cpay), <- U2, Gs, app_length. unfold gets_in. destruct (i_get i) as [c0 m| | |e]; auto. destruct (Nat.eqb c0 s); reflexivity. }
          unfold cut, WireSim.cuts. rewrite Lg. apply (kept_cut _ _ _ _ _ _ U3 U4). intros k Hk. specialize (Wn s k Hk). rewrite U2, map_length in Wn. exact Wn.
      + destruct (R4 _ Hx) as [X1 [X2 _]]. exists [], []. rewrite X1, X2, New by auto. split; auto. split; auto. destruct q; auto. cbn. destruct (last s) as [[|k]|]; reflexivity.
    - intros s t c Hs. rewrite Sy. unfold sync. rewrite Hs. destruct (tbx x s) as [[t0 [|c0]]|] eqn:Hx; cbn [w_at]; auto. cbv beta. destruct (Wf s) as [-> _]. eapply R6; eauto.
    - intros s t Hs. destruct (tbx x s) as [[t0 q0]|] eqn:Hx.
      + destruct (Mo _ _ _ Hx) as [X|[c [_ X]]]; rewrite Hs in X; [|discriminate]. injection X as -> <-.
        assert (Fs : f s = deliver s l (w1 s)) by (rewrite Sy; unfold sync; rewrite Hx, Hs; reflexivity). destruct (Wf s) as [W1 [W2 _]].
        destruct (R7 _ _ Hx) as [La Lm Lb Ln Ld Lo Lr]. constructor; unfold rets; cbn [x_sv x_net x_pc x_todo h_w]; rewrite ?Nl, ?Os, ?Fs, ?W1, ?W2; auto.
        2:{ intros Q1 Q2. pose proof (Lr Q1 Q2) as G. rewrite Et in G. cbn in G. rewrite app_nil_r in G. rewrite G, El, replies_app, map_app, <- R1, (replies_of s l). reflexivity. }
        intros Q1 Q2. destruct (Ld Q1 Q2) as [gs [G1 G2]]. exists gs. split; auto. rewrite Et in G2. cbn in G2. rewrite app_nil_r in G2.
        rewrite G2, replies_of, app_assoc, (map_app _ (gs ++ _)). reflexivity.
      + destruct (R4 _ Hx) as [X1 [X2 [X3 X4]]].
        assert (Fs : f s = Worker t Unborn [] []) by (rewrite Sy; unfold sync; rewrite Hx, Hs; reflexivity).
        assert (Ol : NetFacts.of_conn s (sends l) = []).
        { destruct (NetFacts.of_conn s (sends l)) as [|a q] eqn:Eo; auto. exfalso. apply (Td s a); [|apply New; auto]. apply of_conn_in. rewrite Eo. left. reflexivity. }
        assert (Oa : NetFacts.of_conn s (sends (sv_tr sv)) = []).
        { destruct (NetFacts.of_conn s (sends (sv_tr sv))) as [|a q] eqn:Eo; auto. exfalso. apply (Ta s a); [|apply New; auto]. apply of_conn_in. rewrite Eo. left. reflexivity. }
        constructor; unfold rets; cbn [x_sv x_net x_pc x_todo h_w]; rewrite ?Nl, ?Os, ?Fs, ?X1, ?X2, ?X4, ?Ol, ?replies_of, ?Oa; cbn; auto; try discriminate; try tauto.
        intros _ _. exists []. auto.
    - intros s a Ha. rewrite Os in Ha. apply in_app_or in Ha. destruct Ha as [Ha|Ha]; [apply (R10 s); apply in_or_app; auto|].
      apply in_map_iff in Ha. destruct Ha as [b [<- Hb]]. apply of_conn_in in Hb. exists b. split; auto. destruct (in_sends _ _ _ Hb) as [[pb [_ ->]]|[t [_ ->]]]; eauto.
  Qed.

  Lemma sim_step ms x h m x' : AI ms h -> Rel x h -> small x -> within x' -> hushed h -> xstep x m x' -> exists h', next x m h h' /\ Rel x' h'.
  Proof.
    intros A R Sm Wi Hu H. destruct H.
    - exists h. split; [left; split; [reflexivity|exact I]|]. eapply sim_net; eauto.
    - exists h. split; [left; split; [reflexivity|exact I]|]. eapply sim_net; eauto. unfold xproc in *. congruence.
    - exists h. split; [left; split; [reflexivity|exact I]|]. eapply sim_call; eauto.
    - eapply sim_main; eauto.
    - eapply sim_body; eauto.
    - eapply sim_end; eauto.
    - eapply sim_raise; eauto.
    - eapply sim_serve; eauto.
    - exists h. split; [left; split; [reflexivity|exact I]|]. apply sim_send; auto.
  Qed.
  (* the beginning *)
  Lemma rel_init : Rel (wire_init h0) h0.
  Proof.
    pose proof SE as C. destruct C. unfold whole_init in se_start.
    destruct (server_init init (map t_id tasks) false s0) as [sv|] eqn:Es; [|discriminate]. cbn [bind] in se_start.
    destruct (on_all _ _ _ _ _ _) as [[ps f]|] eqn:Eo; [|discriminate]. cbn in se_start. injection se_start as <-.
    destruct (init_recruited init _ _ _ Es) as [Rc Fl].
    assert (T0 : P_PoolFail.told nw mbf keys no_process [] (Pool.pools_init keys no_process)) by constructor.
    assert (Ev : Forall (ev_ok keys (sv_started sv) (Pool.pools_init keys no_process)) (pool_acts (sv_tr sv))).
    { apply Forall_forall. intros e He. unfold pool_acts in He. apply in_flat_map in He. destruct He as [a [Ha He]]. apply in_rev in Ha.
      destruct a as [| | |n| | |ts| | |]; try (destruct He; fail).
      - destruct n as [| | | |pb w|]; try (destruct He; fail).
        assert (Q : In (pb, w) (fails (sv_tr sv))); [|rewrite Fl in Q; destruct Q].
        unfold fails. apply in_flat_map. exists (ANote (NFailure pb w)). rewrite <- in_rev. split; auto. left. reflexivity.
      - destruct He as [<-|[]]. intros t Ht. apply Rc. exists ts. auto. }
    assert (Nb : forall st m, ~ In (ARecv st m) (sv_tr sv)).
    { intros st m H. unfold server_init in Es. destruct (recruit_spec init _ _ Es) as [_ [_ [_ [_ [l [E F]]]]]]. rewrite E in H. cbn [sv_tr] in H. rewrite app_nil_r in H.
      destruct H as [H|H]; [discriminate|]. rewrite Forall_forall in F. destruct (F _ H) as [? [[Q|Q] _]]; discriminate. }
    assert (P0 : procs keys (sv_started sv) (Pool.pools_init keys no_process) (fun _ => Worker 0 Unborn [] [])) by (intros j t s Hj; discriminate).
    destruct (on_all_sync nw mbf keys (sv_started sv) (fun _ => 0%nat) _ _ _ _ _ _ T0 Ev P0 Eo) as [_ Sy].
    assert (W : forall j t s, Pool.tbl (Pool.ps_sys ps) j = Some (t, s) -> f j = match s with Pool.Running => Worker t Unborn [] [] | Pool.Exited _ => Worker t Dead [] [] end).
    { intros j t s Hj. rewrite Sy. unfold sync. rewrite Hj. reflexivity. }
    assert (Sn : forall st, replies st (sv_tr sv) = []).
    { intros st. rewrite replies_of. destruct (NetFacts.of_conn st (sends (sv_tr sv))) as [|a q] eqn:Er; auto. exfalso.
      assert (Ia : In (st, a) (sends (sv_tr sv))) by (apply of_conn_in; rewrite Er; left; reflexivity).
      pose proof (ai_server _ _ _ _ _ _ _ _ _ _ _ (ai_init _ _ _ _ _ _ _ _ _ _ SE)) as Rt.
      destruct (answered_asked _ _ _ _ _ _ _ _ _ _ Rt st a Ia) as [t Q]. exact (Nb _ _ Q). }
    constructor; cbn [wire_init x_sv x_ps x_net x_pc x_todo h_sv h_ps h_w]; auto.
    - exists []. reflexivity.
    - intros st t s Hs. exists [], []. unfold rets. cbn. rewrite (W _ _ _ Hs). split; auto. split; auto. destruct s; auto. cbn. destruct (last st) as [[|k]|]; reflexivity.
    - intros st t c Hs. rewrite (W _ _ _ Hs). auto.
    - intros st t Hs. constructor; unfold rets; cbn; rewrite ?(W _ _ _ Hs), ?Sn; cbn; auto; try discriminate; try tauto. intros _ _. exists []. auto.
    - intros st m Hm. destruct (Nb _ _ Hm).
    - intros st a [].
  Qed.

  (* the histories only grow *)
  Lemma main_grows (l l' : Net.link payload) : Net.main_step l = Some l' -> exists e, Net.c_rets l' = Net.c_rets l ++ e.
  Proof.
    unfold Net.main_step. intros H.
    repeat match type of H with context [match ?b with _ => _ end] => destruct b eqn:? end; try discriminate H;
      apply some_inj in H; subst l'; cbn; eauto; exists []; symmetry; apply app_nil_r.
  Qed.
  Lemma link_grows k l l' ns : Net.kstep dumps loads k l = Some (l', ns) -> exists e, Net.c_rets l' = Net.c_rets l ++ e.
  Proof.
    destruct k as [ok|c| | |ok|n| | | |a| |ok|n| | | |]; intros H; cbn [Net.kstep] in H;
      try (destruct (Net.main_step l) eqn:M; [|discriminate]; apply some_inj in H; apply pair_equal_spec in H; destruct H as [<- _]; apply main_grows; exact M);
      repeat match type of H with context [match ?b with _ => _ end] => destruct b eqn:? end; try discriminate H;
      apply some_inj in H; apply pair_equal_spec in H; destruct H as [<- _]; cbn; eauto; exists []; symmetry; apply app_nil_r.
  Qed.
  Lemma nstep_grows k n n' : nstep k n = Some n' -> (exists e, Net.n_rets n' = Net.n_rets n ++ e) /\ forall st, exists e, Net.c_rets (Net.n_link n' st) = Net.c_rets (Net.n_link n st) ++ e.
  Proof.
    intros H. split; [apply (P_Net.rets_grow dumps loads [k]); cbn [Net.nrun]; rewrite H; reflexivity|]. destruct k as [c k|].
    - apply WireNet.nstep_link in H. destruct H as [l [ns [Hk [El [Ne _]]]]]. intros st. destruct (Nat.eq_dec st c) as [->|Ns].
      + rewrite El. eapply link_grows; eauto.
      + rewrite Ne by auto. exists []. symmetry. apply app_nil_r.
    - cbn [Net.nstep] in H. apply some_inj in H. subst n'. intros st. exists []. rewrite app_nil_r. destruct (Net.n_eq n) as [|[? ?] ?]; [destruct (Net.n_mq n) as [|[? ?] ?]|]; reflexivity.
  Qed.
  Lemma small_back n n' x x' k : x_net x = n -> x_net x' = n' -> nstep k n = Some n' -> small x' -> small x.
  Proof.
    intros E1 E2 H Sm st. destruct (nstep_grows _ _ _ H) as [[e G] Gl]. destruct (Gl st) as [e1 G1]. destruct (Sm st) as [S1 S2]. unfold rets in *. rewrite E1, E2 in *. split; intros a Ha.
    - apply S1. rewrite G1. unfold NetFacts.sents in *. rewrite flat_map_app. apply in_or_app. auto.
    - apply S2. rewrite G. unfold NetFacts.sent_to in *. rewrite flat_map_app. apply in_or_app. auto.
  Qed.
  Lemma small_step x m x' : xstep x m x' -> small x' -> small x.
  Proof.
    intros H Sm. destruct H; try exact Sm; try (eapply small_back; [reflexivity| |eassumption|exact Sm]; reflexivity).
    cbn [x_net] in Sm. destruct (nstep (Net.NLink st (Net.KSend (ToWorker r))) (x_net x)) as [n|] eqn:H1; [|exact Sm].
    eapply small_back; [reflexivity| |exact H1|exact Sm]. reflexivity.
  Qed.

  (* the runs over the network are runs of WholeAny.v *)
  Theorem wire_runs ms x : (forall st, last st = None) -> xruns (wire_init h0) ms x -> small x -> exists ams h, aruns h0 ams h /\ Rel x h /\
    aserved ams = xserved ms /\ (forall st e, In (XRaise st e) ms <-> exists n, In (ARaise st e n) ams) /\
    forall a1 am a2, ams = a1 ++ am :: a2 -> exists h1 h2 ms1 x1 m x2 ms2, aruns h0 a1 h1 /\ astep h1 am h2 /\ 
      ms = ms1 ++ m :: ms2 /\ xruns (wire_init h0) ms1 x1 /\ xstep x1 m x2 /\ Rel x1 h1 /\ tag x1 h1 m am.
  Proof.
    intros Ln H. assert (Wi : forall x, within x) by (intros z st n E; rewrite Ln in E; discriminate). assert (Hu : forall h, hushed h) by (intros z st _ _; auto).
    induction H as [|ms x m x' H IH S]; intros Sm.
    { exists [], h0. split; [constructor|]. split; [apply rel_init|]. split; auto. split; [intros st e; split; [intros []|intros [n []]]|]. intros a1 am a2 E. destruct a1; discriminate. }
    pose proof (small_step _ _ _ S Sm) as Sx. destruct (IH Sx) as [ams [h [R1 [R2 [R3 [R4 R5]]]]]].
    destruct (sim_step _ _ _ _ _ (ai_runs _ _ _ _ _ _ _ _ _ _ SE _ _ R1) R2 Sx (Wi _) (Hu _) S) as [h' [[[-> Q]|[am [Sa T]]] R']].
    - exists ams, h. split; auto. split; auto. split; [|split].
      + unfold xserved. rewrite flat_map_app. destruct m; cbn in Q |- *; try contradiction; rewrite app_nil_r; exact R3.
      + intros st e. rewrite <- R4, in_app_iff. split; [intros [X|[X|[]]]; auto; subst m; destruct Q|auto].
      + intros a1 am a2 E. destruct (R5 _ _ _ E) as [h1 [h2 [ms1 [x1 [m1 [x2 [ms2 [X1 [X2 [X3 [X4 [X5 [X6 X7]]]]]]]]]]]]].
        exists h1, h2, ms1, x1, m1, x2, (ms2 ++ [m]). rewrite X3, <- app_assoc. auto 10.
    - exists (ams ++ [am]), h'. split; [econstructor; eauto|]. split; auto. split; [|split].
      + unfold xserved, aserved in *. rewrite !flat_map_app, R3. f_equal. destruct m; cbn in T; try contradiction; repeat match type of T with _ \/ _ => destruct T as [T|T] | _ /\ _ => destruct T as [? T] | exists _, _ => destruct T as [? T] end; subst am; reflexivity.
      + intros st e. rewrite in_app_iff, R4. split.
        * intros [[n Hn]|[E|[]]]; [exists n; apply in_or_app; auto|]. subst m. destruct T as [n ->]. exists n. apply in_or_app. right. left. reflexivity.
        * intros [n Hn]. apply in_app_or in Hn. destruct Hn as [Hn|[->|[]]]; [left; eauto|]. right. left.
          destruct m; cbn in T; try contradiction; repeat match type of T with _ \/ _ => destruct T as [T|T] | _ /\ _ => destruct T as [? T] | exists _, _ => destruct T as [? T] end; try discriminate. congruence.
      + intros a1 am' a2 E. destruct a2 as [|z a2] using rev_ind.
        * apply app_inj_tail in E. destruct E as [<- <-]. exists h, h', ms, x, m, x', []. auto 10.
        * clear IHa2. rewrite app_comm_cons, app_assoc in E. apply app_inj_tail in E. destruct E as [E _].
          destruct (R5 _ _ _ E) as [h1 [h2 [ms1 [x1 [m1 [x2 [ms2 [X1 [X2 [X3 [X4 [X5 [X6 X7]]]]]]]]]]]]].
          exists h1, h2, ms1, x1, m1, x2, (ms2 ++ [m]). rewrite X3, <- app_assoc. auto 10.
  Qed.
End Sim.
