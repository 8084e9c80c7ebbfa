(* Runs of connections that meet the hypotheses of the theorems in P_Net (C55-C58), and runs in which
   what one would expect of a connection fails. *)
From Coq Require Import Lia.
From Verif Require Import SchedProps SchedExec DGFacts2 PipeRun P_SchedCE P_Sched Server SchedFacts ServerFacts P_Server P_ServerCE.
From Verif Require Import P_Tcp Net NetFacts P_Net.
Open Scope Z_scope.

(* Messages are numbers; message 0 cannot be pickled, and for [load9] the pickle of 9 cannot be loaded. *)
Definition dump7 (m : nmsg nat) : option bytes :=
  match m with App O => None | App n => Some [1; Z.of_nat n] | Notify => Some [2] | Ack => Some [3] end.
Definition load7 (p : bytes) : option (nmsg nat) :=
  match p with [1; n] => Some (App (Z.to_nat n)) | [2] => Some Notify | [3] => Some Ack | _ => None end.
Definition load9 (p : bytes) : option (nmsg nat) := match p with [1; 9] => None | _ => load7 p end.
Lemma load7_lossless : lossless dump7 load7.
Proof. intros [[|n]| |] p H; cbn in H; try discriminate; injection H as <-; auto. change (Z.pos (Pos.of_succ_nat n)) with (Z.of_nat (S n)). cbn [load7]. rewrite Nat2Z.id. auto. Qed.
Lemma load9_pickles : pickles dump7 load9.
Proof.
  intros m p x H1 H2. assert (H : load7 p = Some x).
  { unfold load9 in H2. repeat match type of H2 with context [match ?b with _ => _ end] => destruct b end; auto; discriminate. }
  rewrite (load7_lossless _ _ H1) in H. congruence.
Qed.

(* the IO loops of a connection that is not broken have nothing to do *)
Definition quiet_b {A} (l : link A) : bool :=
  c_open l && s_open l && negb (broken l) &&
  match ch_cbs (up l), ch_cbs (dn l), ch_wire (up l), ch_wire (dn l) with [], [], [], [] => true | _, _, _, _ => false end &&
  (negb (s_loop l) || match advance true (up l) with None => true | _ => false end) &&
  (negb (c_loop l) || match advance true (dn l) with None => true | _ => false end).
Lemma quiet_ok {A} dumps loads (l : link A) : quiet_b l = true -> quiet dumps loads l.
Proof.
  unfold quiet_b. intros H. repeat (apply andb_prop in H; destruct H as [H ?]).
  destruct (ch_cbs (up l)) eqn:E1; [|discriminate]. destruct (ch_cbs (dn l)) eqn:E2; [|discriminate].
  destruct (ch_wire (up l)) eqn:E3; [|discriminate]. destruct (ch_wire (dn l)) eqn:E4; [|discriminate].
  apply Bool.negb_true_iff in H3. rename H into Co, H4 into So, H3 into B. intros k Hk.
  assert (AR : forall n h, ch_wire h = [] -> arrive (A:=A) n h = None).
  { intros n h Eh. unfold arrive. rewrite Eh. cbn. destruct n; auto. }
  assert (FL : forall b h, ch_cbs h = [] -> flush dumps b h = None) by (intros b h Eh; unfold flush; rewrite Eh; auto).
  assert (FA : forall h, fails (A:=A) true false h = None) by (intros h; unfold fails; destruct (ch_st h); auto).
  destruct k as [ok|cl| | |ok|n| | | |a| |ok|n| | | |]; try discriminate; cbn [kstep].
  - rewrite Co, !FL by auto. destruct ok; cbn; auto. rewrite B. auto.
  - rewrite AR by auto. auto.
  - destruct (c_loop l) eqn:El; auto. cbn in H0. rewrite Co. destruct (advance true (dn l)); [discriminate|auto].
  - rewrite Co, B, FA. destruct (c_loop l); auto.
  - rewrite So, !FL by auto. destruct ok; cbn; auto. rewrite B. auto.
  - rewrite AR by auto. auto.
  - destruct (s_loop l) eqn:El; auto. cbn in H1. rewrite So. destruct (advance true (up l)); [discriminate|auto].
  - rewrite So, B, FA. destruct (s_loop l); auto.
Qed.

(* what a run did *)
Definition on (c : nat) (ks : list (klabel nat)) : list (nlabel nat) := map (NLink c) ks.
Definition connect : list (klabel nat) := [KConn true; KMain].
Definition send (a : nat) : list (klabel nat) := [KCall (CSend a); KMain; KMain; KMain].
Definition get : list (klabel nat) := [KCall CGet; KMain; KMain; KMain].
Definition up6 : list (klabel nat) := [KFlushC true; KArriveS 6; KReadS; KReadS; KReadS].
Definition dn6 : list (klabel nat) := [KFlushS true; KArriveC 6; KReadC; KReadC; KReadC].
Definition leave : list (klabel nat) := [KCall CDisc; KMain; KMain].
Definition bye_up : list (klabel nat) := [KFlushC true; KArriveS 5; KReadS; KReadS; KReadS].
Definition bye_dn : list (klabel nat) := [KFlushS true; KArriveC 5; KReadC; KReadC; KReadC; KMain].

(* C55: the bytes of two messages arrive in three pieces, between them a message of another client,
   and an answer: all has arrived and nothing is under way. *)
Definition run55 : list (nlabel nat) :=
  on 1 connect ++ on 2 connect ++ on 1 (send 3 ++ send 4) ++ on 1 [KFlushC true; KFlushC true; KArriveS 3] ++
  on 2 (send 5 ++ up6) ++ on 1 [KArriveS 7; KReadS; KReadS; KReadS; KArriveS 2; KReadS; KReadS; KReadS] ++
  [NGet; NLink 2%nat (KSend 7%nat); NGet] ++ on 2 dn6 ++ on 2 get ++ [NGet; NGet].
Example C55_ex : exists s, nrun dump7 load7 run55 net_init = Some s /\
  n_rets s = [SGot 2 (App 5); SSent 2 7; SGot 1 (App 3); SGot 1 (App 4); SNone]%nat /\
  c_rets (n_link s 1%nat) = [RConnected; RSent 3; RSent 4]%nat /\
  c_rets (n_link s 2%nat) = [RConnected; RSent 5; RGotten (Some (App 7))]%nat /\
  quiet dump7 load7 (n_link s 1%nat) /\ quiet dump7 load7 (n_link s 2%nat).
Proof.
  destruct (nrun dump7 load7 run55 net_init) as [s|] eqn:E; [|vm_compute in E; discriminate]. exists s. split; auto.
  assert (K : match nrun dump7 load7 run55 net_init with Some s => quiet_b (n_link s 1%nat) && quiet_b (n_link s 2%nat) | None => false end = true) by (vm_compute; auto).
  rewrite E in K. apply andb_prop in K. destruct K as [K1 K2].
  assert (K : match nrun dump7 load7 run55 net_init with Some s => (n_rets s, c_rets (n_link s 1%nat), c_rets (n_link s 2%nat)) | None => ([], [], []) end =
    ([SGot 2 (App 5); SSent 2 7; SGot 1 (App 3); SGot 1 (App 4); SNone], [RConnected; RSent 3; RSent 4], [RConnected; RSent 5; RGotten (Some (App 7))])%nat) by (vm_compute; auto).
  rewrite E in K. apply pair_equal_spec in K. destruct K as [K K3]. apply pair_equal_spec in K. destruct K as [K4 K5].
  repeat split; auto; apply quiet_ok; auto.
Qed.
(* a client sends and says goodbye before the server looks at its queue *)
Definition run55b : list (nlabel nat) := on 1 (connect ++ send 3 ++ leave ++ up6 ++ bye_up ++ bye_dn).
Example C55_goodbye_ex : exists s, nrun dump7 load7 run55b net_init = Some s /\
  c_rets (n_link s 1%nat) = [RConnected; RSent 3; RDisconnected]%nat /\ c_eq (n_link s 1%nat) = [] /\ n_mq s = [(1, App 3)]%nat.
Proof. eexists. split; [vm_compute; reflexivity|]. vm_compute. auto. Qed.

(* send_message returned, the connection is fine, nothing is under way: the message never arrives,
   because it cannot be pickled. *)
Theorem C55_dropped_refuted : exists s, nrun dump7 load7 (on 1 (connect ++ send 0 ++ [KFlushC true])) net_init = Some s /\ lossless dump7 load7 /\
  sents (c_rets (n_link s 1%nat)) = [0%nat] /\ got_from 1 (n_rets s) ++ of_conn 1 (n_mq s) = [] /\
  quiet dump7 load7 (n_link s 1%nat) /\ broken (n_link s 1%nat) = false /\ c_loop (n_link s 1%nat) = true /\ s_loop (n_link s 1%nat) = true.
Proof.
  eexists. split; [vm_compute; reflexivity|]. split; [apply load7_lossless|]. repeat split; auto. apply quiet_ok. vm_compute. auto.
Qed.
(* An answer has arrived at the client, in its queue; then the connection is lost.  get_message
   never returns the answer, whatever happens. *)
Definition run_lost : list (nlabel nat) :=
  on 1 (connect ++ send 3 ++ up6) ++ [NGet; NLink 1%nat (KSend 7%nat)] ++ on 1 (dn6 ++ [KBreak; KFailC]).
Theorem C55_answer_lost_refuted : exists s, nrun dump7 load7 run_lost net_init = Some s /\ c_mq (n_link s 1%nat) = [App 7%nat] /\
  forall ys s', nrun dump7 load7 ys s = Some s' -> gottens (c_rets (n_link s' 1%nat)) = [].
Proof.
  destruct (nrun dump7 load7 run_lost net_init) as [s|] eqn:E; [|vm_compute in E; discriminate]. exists s. split; auto.
  assert (K : match nrun dump7 load7 run_lost net_init with Some s => (c_mq (n_link s 1%nat), c_conn (n_link s 1%nat), c_main (n_link s 1%nat), gottens (c_rets (n_link s 1%nat)))
     | None => ([], true, Over, []) end = ([App 7%nat], false, Idle, [])) by (vm_compute; auto).
  rewrite E in K. apply pair_equal_spec in K. destruct K as [K K4]. apply pair_equal_spec in K. destruct K as [K K3]. apply pair_equal_spec in K. destruct K as [K1 K2].
  split; auto. intros ys s' H.
  destruct (C58_gone _ _ (lossless_pickles _ _ load7_lossless) _ _ E 1%nat K2 K3 _ _ H) as [new [N1 [N2 _]]].
  rewrite N1. unfold gottens. rewrite flat_map_app. change (gottens (c_rets (n_link s 1%nat)) ++ gottens new = []). rewrite K4. cbn.
  clear - N2. unfold gottens. induction new as [|r new IH]; auto. cbn. rewrite IH by (intros r0 I; apply N2; right; auto).
  destruct (N2 r (or_introl eq_refl)) as [->|[e ->]]; auto.
Qed.
Print Assumptions C55_dropped_refuted.
Print Assumptions C55_answer_lost_refuted.

(* C56: the connection of client 1 is lost after its message; the message of client 2 is returned by
   the third call. *)
Definition run56 : list (nlabel nat) :=
  on 1 (connect ++ send 3 ++ up6) ++ on 2 (connect ++ send 5 ++ up6).
Example C56_ex : exists s s', nrun dump7 load7 run56 net_init = Some s /\ n_mq s = [(1, App 3)]%nat ++ (2, App 5)%nat :: [] /\
  nrun dump7 load7 (on 1 [KBreak; KFailS] ++ on 2 [KCall CGet] ++ [NGet; NGet; NGet; NGet]) s = Some s' /\
  (length [(1, @App nat 3)]%nat + length [1; 2]%nat < gets (on 1 [KBreak; KFailS] ++ on 2 [KCall CGet] ++ [NGet; NGet; NGet; NGet]))%nat /\
  n_rets s' = [SRaised 1 StreamClosedErr; SGot 1 (App 3); SGot 2 (App 5); SNone]%nat /\ raised_for 1 (n_rets s') <> [].
Proof.
  eexists. eexists. split; [vm_compute; reflexivity|]. split; [reflexivity|]. split; [vm_compute; reflexivity|]. vm_compute. repeat split; auto. discriminate.
Qed.

(* C57: a client waits in disconnect(); the connection is lost *)
Definition run57 : list (nlabel nat) := on 1 (connect ++ leave ++ [KFlushC true; KBreak; KFailC]).
Example C57_ex : exists s, nrun dump7 load7 run57 net_init = Some s /\ c_main (n_link s 1%nat) = DiscWait /\ c_conn (n_link s 1%nat) = false /\
  (moved 1 run57 = 2)%nat /\ fit dump7 Notify = true /\ fit dump7 Ack = true.
Proof. eexists. split; [vm_compute; reflexivity|]. vm_compute. auto. Qed.
(* the server has answered and the answer was read *)
Example C57_ex2 : exists s, nrun dump7 load7 (on 1 (connect ++ leave ++ bye_up ++ removelast bye_dn)) net_init = Some s /\
  c_main (n_link s 1%nat) = DiscWait /\ quiet dump7 load7 (n_link s 1%nat).
Proof.
  eexists. split; [vm_compute; reflexivity|]. split; [reflexivity|]. intros [ok|cl| | |ok|n| | | |a| |ok|n| | | |] H; try discriminate; cbn; auto;
  try (destruct ok; reflexivity); destruct n; reflexivity.
Qed.
(* One message that the server cannot unpickle: the server has stopped reading, and the client waits
   in disconnect() though the connection is fine, until the server sends something, or the
   connection is closed or lost. *)
Theorem C57_hangs_refuted : exists s, nrun dump7 load9 (on 1 (connect ++ send 9 ++ leave ++ up6 ++ [KFlushC true; KArriveS 5])) net_init = Some s /\
  pickles dump7 load9 /\ c_main (n_link s 1%nat) = DiscWait /\ broken (n_link s 1%nat) = false /\
  forall k, (forall a, k <> KSend a) -> k <> KClose -> k <> KBreak -> kstep dump7 load9 k (n_link s 1%nat) = None.
Proof.
  eexists. split; [vm_compute; reflexivity|]. split; [apply load9_pickles|]. split; [reflexivity|]. split; [reflexivity|].
  intros [ok|cl| | |ok|n| | | |a| |ok|n| | | |] N1 N2 N3; cbn; auto; try (destruct ok; reflexivity); try (destruct n; reflexivity); try contradiction; destruct (N1 a); auto.
Qed.
Print Assumptions C57_hangs_refuted.

(* C58: after a loss the exception of the loss is raised once, then NotConnected *)
Example C58_ex : exists s s', nrun dump7 load7 (on 1 (connect ++ [KBreak; KFailC])) net_init = Some s /\
  c_conn (n_link s 1%nat) = false /\ c_main (n_link s 1%nat) = Idle /\
  nrun dump7 load7 (on 1 ([KCall (CSend 3%nat); KMain] ++ [KCall CGet; KMain; KMain] ++ [KCall CDisc; KMain])) s = Some s' /\
  c_rets (n_link s' 1%nat) = [RConnected; RRaised StreamClosedErr; RRaised NotConnectedErr; RDisconnected].
Proof. eexists. eexists. split; [vm_compute; reflexivity|]. split; [reflexivity|]. split; [reflexivity|]. split; vm_compute; reflexivity. Qed.
(* While a call is under way the loss shows itself in other ways: get_message, and with it
   Client.acquire_block, raises NotConnected although it is the first to notice; send_message and
   disconnect() raise AttributeError. *)
Theorem C58_race_refuted :
  (exists s, nrun dump7 load7 (on 1 (connect ++ [KCall CGet; KMain; KBreak; KFailC; KMain])) net_init = Some s /\
     c_rets (n_link s 1%nat) = [RConnected; RRaised NotConnectedErr] /\ c_eq (n_link s 1%nat) = [StreamClosedErr]) /\
  (exists s, nrun dump7 load7 (on 1 (connect ++ [KCall (CSend 3%nat); KMain; KMain; KBreak; KFailC; KMain])) net_init = Some s /\
     c_rets (n_link s 1%nat) = [RConnected; RRaised AttrErr]) /\
  (exists s, nrun dump7 load7 (on 1 (connect ++ [KCall CDisc; KMain; KBreak; KFailC; KMain])) net_init = Some s /\
     c_rets (n_link s 1%nat) = [RConnected; RRaised AttrErr]).
Proof. repeat split; eexists; (split; [vm_compute; reflexivity|]); vm_compute; auto. Qed.
Print Assumptions C58_race_refuted.

(* ---- C59: the server behind the connections ---- *)
(* [mean]: what the numbers stand for.  server.py:83-90: what a call of get_message is for the
   event loop; StreamClosedError is caught, any other exception is not. *)
Definition as_got (mean : nat -> message) (r : sret nat) : list got :=
  match r with
  | SGot c (App n) => [GotMessage c (mean n)]
  | SGot _ _ => [GotMessage 0 MOther]
  | SNone => [GotNothing]
  | SRaised _ StreamClosedErr => [GotClosed]
  | SRaised _ _ => [GotError TypeError]
  | SSent _ _ => []
  end.
Definition bad_input : input := an_input (GotError TypeError) [] false no_check.
(* what the two clients of a task with two blocks send: 1: a request; 9: the failure of the first
   block, with an exception that cannot be unpickled; 4: stands for the server's SendBlock *)
Definition mean59 (b : pyblock) (n : nat) : message :=
  match n with 1%nat => MAcquire 1 | 9%nat => MBlockFailed b 1 | _ => MOther end.
Definition run59 : list (nlabel nat) :=
  on 1 (connect ++ send 1 ++ up6) ++ on 2 (connect ++ send 1 ++ up6) ++
  [NGet; NLink 1%nat (KSend 4%nat); NGet; NLink 2%nat (KSend 4%nat)] ++ on 1 (dn6 ++ get ++ send 9 ++ up6) ++ [NGet].
Lemma ce_c1_ok : pipe_ok [ce_c1].
Proof. pipe_ok_tac. Qed.
Lemma ce_c1_edges : edges_ok [ce_c1].
Proof. apply single_edges. intros t [<-|[]]. reflexivity. Qed.
Lemma loop_app up down maxr fuel init ins i : forall x y, event_loop up down maxr fuel init ins x = Ok y -> sv_stop y = false ->
  event_loop up down maxr fuel init (ins ++ [i]) x = (z <- iteration up down maxr fuel init i y ;; Ok z).
Proof.
  induction ins as [|j ins IH]; intros x y H S; cbn [event_loop app] in *.
  - assert (x = y) by (destruct (sv_stop x); congruence). subst. rewrite S. destruct (iteration _ _ _ _ _ _ _) as [z|]; cbn; auto. destruct (sv_stop z); auto.
  - destruct (sv_stop x) eqn:Sx; [congruence|]. destruct (iteration _ _ _ _ _ j x) as [z|]; cbn [bind] in *; [|discriminate]. auto.
Qed.
Definition gots (mean : nat -> message) (rs : list (sret nat)) : list got := flat_map (as_got mean) rs.
Lemma serve_ins tasks fuel chk cs (P : dgraph -> list input -> server -> bool) : pipe_ok tasks -> edges_ok tasks ->
  match serve tasks fuel chk cs with
  | Ok (d, s0, ins, Ok y) => enough_b d fuel && forallb (fair_b tasks d) ins && P d ins y
  | _ => false
  end = true ->
  exists d s0 ins y, server_run_to tasks idl idl d s0 fuel no_init false ins y /\ P d ins y = true.
Proof.
  intros PO EO. unfold serve. destruct (sched_init tasks) as [[d s0]|] eqn:E; [|discriminate]. cbn [bind].
  destruct (server_init _ _ _ _) as [x|] eqn:Ei; [|discriminate]. cbn [bind].
  destruct (script _ _ _ _ _ _ _) as [ins z] eqn:Es. destruct z as [y|]; [|discriminate]. intros H.
  apply andb_prop in H. destruct H as [H HP]. apply andb_prop in H. destruct H as [H1 H2].
  assert (FU : fuel_ok tasks fuel) by (eapply enough_b_ok; eauto).
  exists d, s0, ins, y. split; [|exact HP]. constructor; auto using idl_order.
  - apply (run_dual tasks idl idl d s0 fuel [] s0); auto. constructor; auto using idl_order. constructor.
  - apply Forall_forall. intros i Hi. rewrite forallb_forall in H2. eapply fair_b_ok; eauto.
  - unfold server_pipe. rewrite Ei. cbn [bind]. eapply script_loop; eauto. discriminate.
Qed.
(* Two blocks are handed out to two clients.  One fails with such an exception: the event loop ends with
   an exception while the other block is being processed; no connection was lost. *)
Theorem C59_bad_exception_refuted : exists d s0 fuel ins y pb b s,
  server_run_to [ce_c1] idl idl d s0 fuel no_init false ins y /\ sv_stop y = false /\
  (exists t, sv_book y = [(bid (pb_block pb), BLog pb 1 t); (bid (pb_block b), BLog b 2 t)]) /\
  pickles dump7 load9 /\ nrun dump7 load9 run59 net_init = Some s /\ (forall c, broken (n_link s c) = false) /\
  sents (c_rets (n_link s 1%nat)) = [1; 9]%nat /\ sents (c_rets (n_link s 2%nat)) = [1]%nat /\
  mean59 pb 1 = MAcquire 1 /\ mean59 pb 9 = MBlockFailed pb 1 /\
  map i_get (ins ++ [bad_input]) = gots (mean59 pb) (n_rets s) /\
  server_pipe [ce_c1] idl idl d fuel no_init false (ins ++ [bad_input]) s0 = Err TypeError.
Proof.
  destruct (serve_ins [ce_c1] 50 no_check [Ask 1 1; Ask 1 2]
    (fun d ins y => negb (sv_stop y) &&
       match map i_get ins with [GotMessage 1 (MAcquire 1); GotMessage 2 (MAcquire 1)] => true | _ => false end &&
       match sv_book y with
       | [(i, BLog pb 1 t); (j, BLog b 2 u)] => bid_eqb i (bid (pb_block pb)) && bid_eqb j (bid (pb_block b)) && (t =? u)
       | _ => false
       end) ce_c1_ok ce_c1_edges) as [d [s0 [ins [y [R H]]]]].
  { vm_compute. reflexivity. }
  apply andb_prop in H. destruct H as [H HB]. apply andb_prop in H. destruct H as [HS HG]. apply Bool.negb_true_iff in HS.
  destruct (sv_book y) as [|[i [pb [|[|?]] t]] [|[j [b [|[|[|?]]] u]] [|? ?]]] eqn:EB; try discriminate.
  apply andb_prop in HB. destruct HB as [HB T]. apply andb_prop in HB. destruct HB as [B1 B2].
  apply bid_eqb_eq in B1. apply bid_eqb_eq in B2. apply Z.eqb_eq in T. subst i j u.
  assert (EG : map i_get ins = [GotMessage 1 (MAcquire 1); GotMessage 2 (MAcquire 1)]).
  { destruct (map i_get ins) as [|g1 [|g2 [|]]]; try discriminate; destruct g1 as [[|[|?]] [[|[|?]]| | | |]| | |]; try discriminate.
    all: destruct g2 as [[|[|[|?]]] [[|[|?]]| | | |]| | |]; try discriminate. reflexivity. }
  destruct (nrun dump7 load9 run59 net_init) as [s|] eqn:E; [|vm_compute in E; discriminate].
  exists d, s0, 50%nat, ins, y, pb, b, s. split; auto. split; auto. split; [exists t; auto|]. split; [apply load9_pickles|]. split; auto.
  assert (K : match nrun dump7 load9 run59 net_init with
              | Some s => (n_rets s, broken (n_link s 1%nat), broken (n_link s 2%nat), sents (c_rets (n_link s 1%nat)), sents (c_rets (n_link s 2%nat)))
              | None => ([], true, true, [], []) end =
    ([SGot 1 (App 1); SSent 1 4; SGot 2 (App 1); SSent 2 4; SRaised 1 LoadErr], false, false, [1; 9], [1])%nat) by (vm_compute; auto).
  rewrite E in K. apply pair_equal_spec in K. destruct K as [K K5]. apply pair_equal_spec in K. destruct K as [K K4].
  apply pair_equal_spec in K. destruct K as [K K3]. apply pair_equal_spec in K. destruct K as [K1 K2].
  split.
  { intros c. destruct (Nat.eq_dec c 1); [subst; auto|]. destruct (Nat.eq_dec c 2); [subst; auto|].
    rewrite (pre_untouched _ _ _ _ _ E c); auto. intros k I. unfold run59, on in I.
    repeat rewrite in_app_iff in I. rewrite !in_map_iff in I.
    repeat match type of I with _ \/ _ => destruct I as [I|I] end; try (destruct I as [? [X _]]; congruence);
    cbn in I; repeat match type of I with _ \/ _ => destruct I as [I|I] end; try contradiction; congruence. }
  do 4 (split; auto). split.
  - rewrite map_app, EG, K1. reflexivity.
  - assert (RR := sr_run _ _ _ _ _ _ _ _ _ _ R). unfold server_pipe in *. destruct (server_init _ _ _ _) as [x|]; [|discriminate]. cbn [bind] in *.
    rewrite (loop_app _ _ _ _ _ _ _ _ _ RR HS). reflexivity.
Qed.
Print Assumptions C59_bad_exception_refuted.
