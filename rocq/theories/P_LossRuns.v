(* C97: how often the body of a block is begun, though connections are lost. *)
From Coq Require Import Arith Lia.
From Verif Require Import SchedProps SchedExec DGFacts2 PipeRun P_SchedCE P_Sched SerialFacts P_Conv P_Serial ServerFacts ServerSteps
  ServerIdle P_Server P_Server2 P_ServerCE P_Outcome P_Notify PoolAll P_PoolFail P_SysEx P_SysCE.
From Verif Require Client Pool P_Pool P_Whole P_WholeEx P_WholeCE P_Cause Tcp Net NetFacts P_Net P_NetErr WireNet.
From Verif Require Import Sys SysFacts SysMeasure SysTrace WholeFair WholeSrv WholeSim WholeAny WholeAll WholeRun P_WholeAny Wire WireSim P_Wire
  WireAttr WireLoss P_WireLoss WireIntact.
Open Scope Z_scope.

Local Notation link x st := (Net.n_link (x_net x) st).
Local Notation outs x st := (NetFacts.sent_to st (Net.n_rets (x_net x))).

(* ---- specification ---- *)
(* the process st is in the body for b (client.py:86) *)
Definition in_body (b : block) (x : wire) (st : nat) : Prop := exists pb, x_pc x st = PWork pb /\ pb_block pb = b.
Definition in_body_b (b : block) (x : wire) (st : nat) : bool := match x_pc x st with PWork pb => is_block (pb_block pb) b | _ => false end.
(* the process that makes a move; for the other moves any *)
Definition mover (m : lmove) : nat := match m with LDo (XMain st _) | LDo (XBody st _) | LDo (XCall st) | LDo (XNet st _) | LDo (XLost st) | LDo (XEnd st _) | LDo (XRaise st _) | LBreak st => st | _ => O end.
(* it is in the body for b after the move, and was not before or the body ended with the move *)
Definition begins (b : block) (x : wire) (m : lmove) (y : wire) : bool :=
  (negb (in_body_b b x (mover m)) || match m with LDo (XBody _ _) => true | _ => false end) && in_body_b b y (mover m).
Section Begun.
  Variables (up down : block -> list block) (maxr : nat -> Z) (fuel : nat) (init : nat -> res unit) (nw : nat -> Z) (mbf : Z).
  Variable dumps : Net.nmsg payload -> option Tcp.bytes.
  Variable loads : Tcp.bytes -> option (Net.nmsg payload).
  Local Notation lstep := (lstep up down maxr fuel init nw mbf dumps loads).
  (* a run in which bodies for b were begun n times *)
  Inductive begun (b : block) (x : wire) : list lmove -> wire -> Z -> Prop :=
  | begun_nil : begun b x [] x 0
  | begun_step ms x1 m x2 n : begun b x ms x1 n -> lstep x1 m x2 -> begun b x (ms ++ [m]) x2 (n + if begins b x1 m x2 then 1 else 0).
  Lemma begun_lruns b x ms y n : begun b x ms y n -> lruns up down maxr fuel init nw mbf dumps loads x ms y.
  Proof. induction 1; econstructor; eauto. Qed.
  Lemma begun_all b x ms y : lruns up down maxr fuel init nw mbf dumps loads x ms y -> exists n, begun b x ms y n.
  Proof. induction 1 as [|ms x1 m x2 R [n IH] S]; [exists 0; constructor|]. eexists. econstructor; eauto. Qed.
End Begun.

(* ---- the messages that begin a body ---- *)
Definition is_send (b : block) (m : Net.nmsg payload) : bool := match m with Net.App (ToWorker (Client.RSend pb)) => is_block (pb_block pb) b | _ => false end.
Definition tally {A} (f : A -> bool) (l : list A) : nat := length (filter f l).
Lemma tally_app {A} (f : A -> bool) l m : tally f (l ++ m) = (tally f l + tally f m)%nat.
Proof. unfold tally. rewrite filter_app, app_length. reflexivity. Qed.
Lemma tally_sub {A} (f : A -> bool) l m : sub l m -> (tally f l <= tally f m)%nat.
Proof. unfold tally. induction 1 as [l|a l m S IH|a l m S IH]; cbn; [lia| |]; destruct (f a); cbn; lia. Qed.
Lemma tally_filter {A} (f g : A -> bool) l : (tally f (filter g l) <= tally f l)%nat.
Proof. unfold tally. induction l as [|a l IH]; cbn; auto. destruct (g a); cbn; destruct (f a); cbn; lia. Qed.
Lemma tally_map {A B} (f : B -> bool) (g : A -> B) l : tally f (map g l) = tally (fun a => f (g a)) l.
Proof. unfold tally. induction l as [|a l IH]; cbn; auto. destruct (f (g a)); cbn; auto. Qed.
Definition sum (f : nat -> nat) (l : list nat) : nat := fold_right Nat.add O (map f l).
Lemma sum_le f g l : (forall a, In a l -> (f a <= g a)%nat) -> (sum f l <= sum g l)%nat.
Proof. unfold sum. induction l as [|a l IH]; intros H; cbn; auto. pose proof (H a (or_introl eq_refl)). assert (forall c, In c l -> (f c <= g c)%nat) by (intros; apply H; right; auto). specialize (IH H1). lia. Qed.
Lemma sum_more f g l a : NoDup l -> In a l -> (forall c, (f c <= g c)%nat) -> (f a + 1 <= g a)%nat -> (sum f l + 1 <= sum g l)%nat.
Proof.
  unfold sum. induction l as [|c l IH]; intros N H G Ga; [destruct H|]. inversion N; subst. cbn. destruct H as [->|H].
  - pose proof (sum_le f g l (fun c _ => G c)). unfold sum in H. lia.
  - specialize (IH H3 H G Ga). specialize (G c). lia.
Qed.

Lemma sum_one s k l : NoDup l -> (sum (fun st => if Nat.eqb s st then k else O) l <= k)%nat.
Proof.
  unfold sum. induction l as [|c l IH]; intros N; cbn; [lia|]. inversion N; subst. destruct (Nat.eqb_spec s c) as [->|Ns]; [|cbn; auto].
  assert (Z : fold_right Nat.add O (map (fun st => if Nat.eqb c st then k else O) l) = O).
  { clear -H1. induction l as [|e l IHl]; cbn; auto. destruct (Nat.eqb_spec c e) as [->|Ne]; [destruct H1; left; auto|]. cbn. apply IHl. intros H. apply H1. right. auto. }
  rewrite Z. lia.
Qed.
(* what the server sent to the processes of a list *)
Definition sent_b (b : block) (tr : list act) : nat := tally (fun a => match a with ASend _ pb => is_block (pb_block pb) b | _ => false end) tr.
Lemma sum_sent b l tr : NoDup l -> (sum (fun st => tally (fun r => is_send b (Net.App (ToWorker r))) (replies st tr)) l <= sent_b b tr)%nat.
Proof.
  intros N. induction tr as [|a tr IH].
  - unfold sum. induction l as [|c l IHl]; cbn; auto. inversion N; subst. apply IHl. auto.
  - change (a :: tr) with ([a] ++ tr). unfold sent_b in *. rewrite tally_app.
    assert (E : forall st, tally (fun r => is_send b (Net.App (ToWorker r))) (replies st ([a] ++ tr)) =
      (tally (fun r => is_send b (Net.App (ToWorker r))) (replies st tr) + tally (fun r => is_send b (Net.App (ToWorker r))) (replies st [a]))%nat).
    { intros st. rewrite replies_app, tally_app. reflexivity. }
    assert (P : (sum (fun st => tally (fun r => is_send b (Net.App (ToWorker r))) (replies st [a])) l <= tally (fun a => match a with ASend _ pb => is_block (pb_block pb) b | _ => false end) [a])%nat).
    { set (k := tally _ [a]). eapply Nat.le_trans; [|apply (sum_one match a with ASend s _ => s | _ => O end k l N)]. apply sum_le. intros st _. unfold k, tally. clear.
      destruct a as [| | | |s pb|t s| | | |]; cbn; try lia; [destruct (Nat.eqb s st)|destruct (Nat.eqb s st)]; cbn; try lia; destruct (is_block (pb_block pb) b); cbn; lia. }
    assert (Q : forall f g l, (sum (fun st => f st + g st) l = sum f l + sum g l)%nat).
    { clear. intros f g l. unfold sum. induction l as [|c l IHl]; cbn; auto. lia. }
    assert (X : (sum (fun st => tally (fun r => is_send b (Net.App (ToWorker r))) (replies st ([a] ++ tr))) l =
      sum (fun st => tally (fun r => is_send b (Net.App (ToWorker r))) (replies st tr)) l + sum (fun st => tally (fun r => is_send b (Net.App (ToWorker r))) (replies st [a])) l)%nat).
    { rewrite <- Q. unfold sum. f_equal. apply map_ext. exact E. }
    rewrite X. lia.
Qed.
(* every block that is sent was handed out for it *)
Lemma sent_handed up down maxr fuel init gr ga x y b : steps up down maxr fuel init gr ga x y -> sv_tr x = [] ->
  Z.of_nat (sent_b b (sv_tr y)) <= n_handed (hist (sv_tr y)) b.
Proof.
  intros S Ex. assert (NN : forall h, 0 <= n_handed h b) by (intros h; unfold n_handed; apply count_nonneg).
  assert (HA : forall l m, n_handed (hist (l ++ m)) b = n_handed (hist l) b + n_handed (hist m) b) by (intros l m; unfold n_handed, hist; rewrite flat_map_app, count_app; reflexivity).
  assert (SA : forall l m, sent_b b (l ++ m) = (sent_b b l + sent_b b m)%nat) by (intros; apply tally_app).
  induction S as [|y z S IH U]; [rewrite Ex; cbn; lia|].
  assert (Z0 : forall l, (forall st pb, ~ In (ASend st pb) l) -> sent_b b l = O).
  { intros l. unfold sent_b, tally. induction l as [|a l IHl]; intros N; cbn; auto. destruct a; cbn; try (apply IHl; intros ? ? H; eapply N; right; eauto; fail).
    exfalso. eapply N. left. reflexivity. }
  assert (OLD : forall l, sv_tr z = l ++ sv_tr y -> (forall st pb, ~ In (ASend st pb) l) -> Z.of_nat (sent_b b (sv_tr z)) <= n_handed (hist (sv_tr z)) b).
  { intros l E N. rewrite E, SA, HA, (Z0 l N). pose proof (NN (hist l)). lia. }
  assert (NC : forall st pb t r sk, ~ In (ASend st pb) (calls t r sk)).
  { intros ? ? ? ? ? X. unfold calls in X. apply in_map_iff in X. destruct X as [? [X _]]. discriminate. }
  destruct U as [st1 m|t st1 p P|chk now t st1 s1 pb1 sk b1 A G Ea N|chk t st1 s1 sk A G Ea Er Ep|chk t st1 s1 sk p A G Ea Er Ep P|pick pb1 s1 G Ea|pb1 w| |z Ea|b1 Sb|m L].
  - eapply OLD; [reflexivity|]. intros ? ? [X|[]]. discriminate.
  - eapply OLD; [reflexivity|]. intros ? ? [X|[]]. discriminate.
  - cbn [add_tr set_book set_s sv_tr]. rewrite <- app_assoc, !SA, !HA, (Z0 (calls t (Some pb1) sk)) by (intros; apply NC).
    assert (E : n_handed (hist (calls t (Some pb1) sk)) b = (if is_block (pb_block pb1) b then 1 else 0)).
    { rewrite <- (app_nil_r (calls _ _ _)), hist_call. unfold n_handed. cbn [count hist flat_map]. rewrite app_nil_r.
      assert (Q : forall l, count (fun e => match e with EvHand _ pb => is_block (pb_block pb) b | _ => false end) (rev (map EvSkip l)) = 0).
      { clear. induction l as [|c l IH]; cbn; auto. rewrite count_app, IH. reflexivity. }
      rewrite Q. lia. }
    rewrite E. pose proof (NN (hist [ANote (NAcquire t (s_st s1 t)); ASend st1 pb1])). unfold sent_b at 1, tally. cbn [filter]. destruct (is_block (pb_block pb1) b); cbn [length]; lia.
  - eapply OLD; [reflexivity|]. intros ? ? [X|X]; [discriminate|]. eapply NC; eauto.
  - eapply OLD; [reflexivity|]. intros ? ? [X|X]; [discriminate|]. eapply NC; eauto.
  - eapply OLD; [reflexivity|]. intros ? ? [X|[X|[]]]; discriminate.
  - eapply OLD; [reflexivity|]. intros ? ? [X|[]]. discriminate.
  - destruct (check_all_spec y) as [_ [_ [_ [_ [l [E F]]]]]]. eapply OLD; [exact E|]. intros ? ? X. rewrite Forall_forall in F. destruct (F _ X) as [? [Q _]]. discriminate.
  - destruct (recruit_spec init _ _ Ea) as [_ [_ [_ [_ [l [E F]]]]]]. eapply (OLD (_ :: l)); [exact E|]. intros ? ? [X|X]; [discriminate|].
    rewrite Forall_forall in F. destruct (F _ X) as [? [[Q|Q] _]]; discriminate.
  - apply (OLD []); [reflexivity|]. intros ? ? [].
  - eapply OLD; [reflexivity|]. intros ? ? X. rewrite Forall_forall in L. exact (L _ X).
Qed.

(* ---- the program of a worker ---- *)
Lemma resume_begins rs p pb : fold_left resume rs p = PWork pb -> p = PWork pb \/ In (Net.App (ToWorker (Client.RSend pb))) (NetFacts.gottens rs).
Proof.
  destruct rs as [|r rs _] using rev_ind; [left; assumption|]. rewrite fold_left_app. cbn [fold_left]. intros H. right. unfold NetFacts.gottens. rewrite flat_map_app. apply in_or_app. right.
  destruct r as [| |[[[|[]]| |]|]| |]; destruct (fold_left resume rs p) as [|[|? ?]| | | |]; cbn in H; try discriminate H; injection H as ->; left; reflexivity.
Qed.
Lemma resume_work rs pb pb' : fold_left resume rs (PWork pb) = PWork pb' -> pb' = pb.
Proof.
  assert (E : forall l, fold_left resume l PEnd = PEnd).
  { induction l as [|r l IH]; cbn [fold_left]; auto. replace (resume PEnd r) with PEnd; auto. destruct r as [| |[[[|[]]| |]|]| |]; reflexivity. }
  destruct rs as [|r rs]; cbn [fold_left]; intros H; [injection H as ->; reflexivity|].
  replace (resume (PWork pb) r) with PEnd in H by (destruct r as [| |[[[|[]]| |]|]| |]; reflexivity). rewrite E in H. discriminate H.
Qed.

(* ---- C97 ---- *)
Definition got_b (b : block) (x : wire) (st : nat) : nat := tally (is_send b) (NetFacts.gottens (rets x st)).
Section C97.
  Variables (tasks : list task) (ord : list block -> list block) (ordt : list nat -> list nat) (d : dgraph) (s0 : sched) (fuel : nat).
  Variables (init : nat -> res unit) (nw : nat -> Z) (mbf : Z) (h0 : whole).
  Variable dumps : Net.nmsg payload -> option Tcp.bytes.
  Variable loads : Tcp.bytes -> option (Net.nmsg payload).
  Hypothesis SE : setup tasks ord ordt d s0 fuel init nw mbf h0.
  Hypothesis L : P_Net.lossless dumps loads.
  Local Notation up := (dg_up ord ordt d).
  Local Notation down := (dg_down ord ordt d).
  Local Notation maxr := (dg_max_retries d).
  Local Notation lstep := (lstep up down maxr fuel init nw mbf dumps loads).
  Local Notation begun := (begun up down maxr fuel init nw mbf dumps loads).
  Lemma link_grows st k x n j : Net.nstep dumps loads (Net.NLink st k) (x_net x) = Some n -> exists new, Net.c_rets (Net.n_link n j) = rets x j ++ new.
  Proof.
    intros Hn. destruct (WireNet.nstep_link _ _ _ _ _ _ Hn) as [l [ns [Hk [El [Eo _]]]]]. destruct (Nat.eq_dec j st) as [->|N].
    - rewrite El. exact (proj2 (P_NetErr.k_grows _ _ _ _ _ _ Hk)).
    - rewrite (Eo _ N). exists []. rewrite app_nil_r. reflexivity.
  Qed.
  Lemma step_grows x m y j : lstep x m y -> exists new, rets y j = rets x j ++ new.
  Proof.
    assert (Z : exists new, rets x j = rets x j ++ new) by (exists []; rewrite app_nil_r; reflexivity).
    intros [m' y' S|st n Kn Hn]; [|eapply link_grows; eauto].
    destruct S as [st k n Io Kn Cs Hn|st t c n Ht Hn|st t c n Ht Rq Hn|st t k n rs Ht Hk Hn Er|st t pb o Ht Hp|st t c Ht|st t e Ht|i n r sv l ps Td Sp Hn Er Eg Eh Ec Ei El Ep|st r todo Td]; try exact Z;
      try (eapply link_grows; exact Hn).
    - unfold rets at 1. cbn [x_net]. assert (E : Net.n_link n j = link x j).
      { cbn [Net.nstep] in Hn. destruct (Net.n_eq (x_net x)) as [|[]]; [destruct (Net.n_mq (x_net x)) as [|[]]|]; apply some_inj in Hn; subst n; reflexivity. }
      rewrite E. exact Z.
    - unfold rets at 1. cbn [x_net]. destruct (Net.nstep dumps loads _ (x_net x)) as [n|] eqn:Hn; [eapply link_grows; exact Hn|exact Z].
  Qed.
  Lemma in_body_ok b x st : in_body_b b x st = true <-> in_body b x st.
  Proof.
    unfold in_body_b, in_body, is_block. split.
    - destruct (x_pc x st) as [| | |pb| |]; try discriminate. destruct (block_dec (pb_block pb) b) as [E|]; [eauto|discriminate].
    - intros [pb [-> E]]. destruct (block_dec (pb_block pb) b); auto.
  Qed.
  (* A body is begun by a message of the server in the process in which it runs. *)
  Lemma enters b x m y st : lstep x m y -> ~ in_body b x st -> in_body b y st -> (exists k, m = LDo (XMain st k)) /\ (got_b b x st + 1 <= got_b b y st)%nat.
  Proof.
    intros S N [pb [E Eb]]. assert (Same : forall z, x_pc z = x_pc x -> x_pc z st = PWork pb -> False) by (intros z Ez Ep; apply N; exists pb; rewrite <- Ez; auto).
    destruct S as [m' y' S|s n Kn Hn]; [|exfalso; eapply (Same (set_net x n)); eauto].
    destruct S as [s k n Io Kn Cs Hn|s t c n Ht Hn|s t c n Ht Rq Hn|s t k n rs Ht Hk Hn Er|s t pb' o Ht Hp|s t c Ht|s t e Ht|i n r sv l ps Td Sp Hn Er Eg Eh Ec Ei El Ep|s r todo Td];
      try (exfalso; eapply Same; [|exact E]; reflexivity).
    - cbn [set_pc x_pc] in E. destruct (Nat.eqb_spec st s) as [->|Ns]; [|exfalso; apply N; exists pb; auto]. split; [eauto|].
      destruct (resume_begins _ _ _ E) as [Q|Q]; [exfalso; apply N; exists pb; auto|]. unfold got_b, rets in *. cbn [set_pc set_net x_net]. rewrite Er.
      unfold NetFacts.gottens in *. rewrite flat_map_app, tally_app. apply Nat.add_le_mono_l.
      apply in_split in Q. destruct Q as [l1 [l2 Q]]. rewrite Q, tally_app. unfold tally. cbn [filter is_send]. rewrite Eb. unfold is_block. destruct (block_dec b b); [cbn; lia|contradiction].
    - cbn [set_pc x_pc] in E. destruct (Nat.eqb_spec st s) as [->|Ns]; [discriminate E|exfalso; apply N; exists pb; auto].
  Qed.
  Lemma begun_got b ms x n : begun b (wire_init h0) ms x n -> exists l, NoDup l /\ n <= Z.of_nat (sum (got_b b x) l).
  Proof.
    induction 1 as [|ms x1 m x2 n B [l [N IH]] S]; [exists []; split; [constructor|cbn; lia]|].
    assert (G : forall st, (got_b b x1 st <= got_b b x2 st)%nat).
    { intros st. destruct (step_grows _ _ _ st S) as [new E]. unfold got_b. rewrite E. unfold NetFacts.gottens. rewrite flat_map_app, tally_app. lia. }
    destruct (begins b x1 m x2) eqn:Bg.
    - unfold begins in Bg. apply andb_prop in Bg. destruct Bg as [B1 B2].
      assert (NB : match m with LDo (XBody _ _) => true | _ => false end = false).
      { destruct m as [[]|]; try reflexivity. exfalso. inversion S as [? ? S1|]; subst. inversion S1; subst. unfold in_body_b in B2. cbn in B2. rewrite Nat.eqb_refl in B2. discriminate B2. }
      rewrite NB, Bool.orb_false_r in B1. apply Bool.negb_true_iff in B1.
      assert (Hx : ~ in_body b x1 (mover m)) by (intros H; apply in_body_ok in H; congruence). apply in_body_ok in B2.
      destruct (enters _ _ _ _ _ S Hx B2) as [_ I]. destruct (in_dec Nat.eq_dec (mover m) l) as [Hi|Hi].
      + exists l. split; auto. pose proof (sum_more _ _ _ _ N Hi G I). lia.
      + exists (mover m :: l). split; [constructor; auto|]. pose proof (sum_le _ _ l (fun c _ => G c)). unfold sum in *. cbn [map fold_right]. lia.
    - exists l. split; auto. pose proof (sum_le _ _ l (fun c _ => G c)). lia.
  Qed.
  Lemma got_sent ms x b st : lruns up down maxr fuel init nw mbf dumps loads (wire_init h0) ms x ->
    (got_b b x st <= tally (fun r => is_send b (Net.App (ToWorker r))) (replies st (sv_tr (x_sv x))))%nat.
  Proof.
    intros R. pose proof (ki_runs _ _ _ _ _ _ _ _ _ _ _ _ SE L _ _ R) as K. pose proof (li_run _ _ _ _ _ _ _ _ _ _ _ _ _ _ (li_runs _ _ _ _ _ _ _ _ _ _ _ _ SE L _ _ R)) as [xs Hx].
    destruct (P_Net.C55_to_client dumps loads (P_Net.lossless_pickles _ _ L) _ _ Hx st) as [r1 E1]. pose proof (ki_out _ K st) as Su.
    apply (tally_sub (fun p => is_send b (Net.App p))) in Su. rewrite tally_app, !tally_map in Su.
    pose proof (tally_filter (is_send b) (NetFacts.fit dumps) (map Net.App (outs x st))) as F. fold (P_Net.fits dumps (outs x st)) in F. rewrite E1, !tally_app, tally_map in F.
    unfold got_b, rets. lia.
  Qed.
  (* Only a process itself begins a body; the moves of others do not count as such. *)
  Theorem C97_who : forall x m y st b, lstep x m y -> ~ in_body b x st -> in_body b y st -> mover m = st /\ begins b x m y = true.
  Proof.
    intros x m y st b S N E. destruct (enters _ _ _ _ _ S N E) as [[k ->] _]. split; [reflexivity|]. unfold begins. cbn [mover]. apply in_body_ok in E. rewrite E.
    destruct (in_body_b b x st) eqn:Q; [apply in_body_ok in Q; contradiction|reflexivity].
  Qed.
  (* All processes together begin the body of a block at most as often as the server handed it out, ... *)
  Theorem C97_handed : forall b ms x n, begun b (wire_init h0) ms x n -> n <= n_handed (hist (sv_tr (x_sv x))) b.
  Proof.
    intros b ms x n B. pose proof (begun_lruns _ _ _ _ _ _ _ _ _ _ _ _ _ _ B) as R. destruct (begun_got _ _ _ _ B) as [l [N I]].
    pose proof (sum_le _ _ l (fun st _ => got_sent _ _ b st R)) as I2. pose proof (sum_sent b l (sv_tr (x_sv x)) N) as I3.
    destruct (C92_server _ _ _ _ _ _ _ _ _ _ _ _ SE L _ _ R) as [Sv _].
    pose proof (sent_handed _ _ _ _ _ _ _ _ _ b (a_steps _ _ _ _ _ _ _ _ _ _ Sv) eq_refl). lia.
  Qed.
  (* ... once more than max_retries, ... *)
  Theorem C97_bounded : forall b ms x n, begun b (wire_init h0) ms x n -> n <= Z.max (maxr (b_task b)) 0 + 1.
  Proof.
    intros b ms x n B. pose proof (C97_handed _ _ _ _ B). destruct (C92_server _ _ _ _ _ _ _ _ _ _ _ _ SE L _ _ (begun_lruns _ _ _ _ _ _ _ _ _ _ _ _ _ _ B)) as [Sv _].
    destruct (C17_hand_outs_bounded_partial _ _ _ _ _ _ _ _ (a_pipe _ _ _ _ _ _ _ _ _ _ Sv) (se_inverse _ _ _ _ _ _ _ _ _ _ SE) (se_fuel _ _ _ _ _ _ _ _ _ _ SE) b) as [I _]. lia.
  Qed.
  (* ... and once more than attempts were counted as failed. *)
  Theorem C97_again : forall b ms x n, begun b (wire_init h0) ms x n -> n <= n_failed (hist (sv_tr (x_sv x))) b + 1.
  Proof.
    intros b ms x n B. pose proof (C97_handed _ _ _ _ B) as H. destruct (C92_server _ _ _ _ _ _ _ _ _ _ _ _ SE L _ _ (begun_lruns _ _ _ _ _ _ _ _ _ _ _ _ _ _ B)) as [Sv _].
    cut (n_handed (hist (sv_tr (x_sv x))) b <= n_failed (hist (sv_tr (x_sv x))) b + 1); [lia|]. clear H B n.
    pose proof (a_pipe _ _ _ _ _ _ _ _ _ _ Sv) as P. set (h := hist (sv_tr (x_sv x))) in *. clearbody h.
    pose proof (run_good _ _ _ _ _ _ _ _ P (se_inverse _ _ _ _ _ _ _ _ _ _ SE)) as GG. pose proof (run_enough _ _ _ _ _ _ _ _ P (se_fuel _ _ _ _ _ _ _ _ _ _ SE)) as EN.
    pose proof (run_fresh _ _ _ _ _ _ _ _ P) as FR. pose proof (pr_reach _ _ _ _ _ _ _ _ P) as RR.
    assert (G : forall h1 h2, h = h2 ++ h1 -> n_handed h1 b <= n_failed h1 b + 1).
    { induction h1 as [|e h1 IH]; intros h2 E; [cbn; lia|].
      assert (E' : h = (h2 ++ [e]) ++ h1) by (rewrite <- app_assoc; auto). specialize (IH _ E'). unfold n_handed, n_failed in *. cbn [count].
      destruct e as [c|t pb|t|pb]; try lia; [|destruct (is_block _ _ && _); lia].
      destruct (block_dec b (pb_block pb)) as [->|Nb]; [|rewrite is_block_other by auto; lia]. rewrite is_block_same.
      destruct (ok_at _ _ _ _ _ _ GG EN _ FR _ _ RR _ _ _ E) as [_ [_ [_ [NS [NF NH]]]]]. destruct (counts_app _ _ _ _ _ _ GG EN _ FR _ _ RR _ _ E' (pb_block pb)) as [K1 K2]. specialize (K2 NS).
      unfold held in NH. unfold n_handed, n_failed in *. lia. }
    apply (G h []). reflexivity.
  Qed.
End C97.
Print Assumptions C97_who.
Print Assumptions C97_handed.
Print Assumptions C97_bounded.
Print Assumptions C97_again.
