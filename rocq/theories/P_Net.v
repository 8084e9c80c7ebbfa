(* Connections between clients and the server (C55-C58): what the two ends of a connection can
   rely on, for every interleaving of the threads and every loss of the connection. *)
From Coq Require Import Lia.
From Verif Require Import P_Tcp NetFacts.
Open Scope Z_scope.

(* Vocabulary (NetFacts.v): [sents]: the messages for which the client's send_message returned;
   [gottens]: what its get_message returned; [got_from c], [raised_for c], [sent_to c]: the same
   for the server and connection c; [of_conn c]: the part of a queue that belongs to c; [fit]: the
   message can be pickled into fewer than 2^32 bytes; [bad]: and this pickle cannot be loaded. *)
Definition pickles {A} (dumps : nmsg A -> option bytes) (loads : bytes -> option (nmsg A)) : Prop :=
  forall m p x, dumps m = Some p -> loads p = Some x -> x = m.
(* nothing is wrong with any pickle *)
Definition lossless {A} (dumps : nmsg A -> option bytes) (loads : bytes -> option (nmsg A)) : Prop :=
  forall m p, dumps m = Some p -> loads p = Some m.
Definition fits {A} (dumps : nmsg A -> option bytes) (l : list A) : list (nmsg A) :=
  filter (fit dumps) (map App l).
(* the IO loops of both ends have nothing to do on this connection *)
Definition quiet {A} dumps loads (l : link A) : Prop := forall k, moves k = true -> kstep dumps loads k l = None.

Lemma lossless_pickles {A} dumps (loads : bytes -> option (nmsg A)) : lossless dumps loads -> pickles dumps loads.
Proof. intros L m p x H1 H2. rewrite (L _ _ H1) in H2. congruence. Qed.
Lemma lossless_bad {A} dumps (loads : bytes -> option (nmsg A)) m : lossless dumps loads -> ~ bad dumps loads m.
Proof.
  intros L [F B]. unfold fit, pk in *. destruct (dumps m) as [p|] eqn:E; [|discriminate]. rewrite (L _ _ E) in B. discriminate.
Qed.
Lemma reach {A} dumps (loads : bytes -> option (nmsg A)) xs s : pickles dumps loads -> nrun dumps loads xs net_init = Some s -> NInv dumps loads s.
Proof. intros P H. eapply nrun_inv; [exact P| |exact H]. apply ninit_inv. Qed.

(* the last list is a prefix of the fitting messages *)
Lemma c_prefix {A} dumps (open : bool) P O (h : chan A) : CInv dumps open P O h -> exists r, filter (fit dumps) P = O ++ r.
Proof.
  intros [F [D [R [E [_ [H _]]]]]]. exists (R ++ filter (fit dumps) (D ++ ch_cbs h)). rewrite E, filter_app, H, app_assoc. auto.
Qed.
Lemma apps_prefix {A} (l p r : list (nmsg A)) : l = p ++ r -> filter isapp p = p -> filter isapp l = p ++ filter isapp r.
Proof. intros -> H. rewrite filter_app, H. auto. Qed.
Lemma all_apps {A} (l : list (nmsg A)) : (forall m, In m l -> isapp m = true) -> filter isapp l = l.
Proof. induction l as [|x l IH]; cbn; intros H; auto. rewrite (H x) by auto. rewrite IH; auto. Qed.
Lemma filter_comm {B} (f g : B -> bool) l : filter f (filter g l) = filter g (filter f l).
Proof. induction l as [|x l IH]; cbn; auto. destruct (g x) eqn:G; destruct (f x) eqn:F; cbn; rewrite ?G, ?F, IH; auto. Qed.
Lemma sent_apps {A} (l : list A) b : filter isapp (map App l ++ bye b) = map App l.
Proof. rewrite filter_app, apps. destruct b; cbn; apply app_nil_r. Qed.

(* the goodbye was read: so was all before it *)
Lemma until_bye {A} dumps (l : list A) b puts r : filter (fit dumps) (map App l ++ bye b) = (puts ++ [Notify]) ++ r ->
  filter isapp puts = puts -> fits dumps l = puts.
Proof.
  unfold fits. rewrite filter_app. intros E AP.
  assert (N1 : ~ In Notify (filter (fit dumps) (map App l))).
  { intros I. apply filter_In in I. destruct I as [I _]. apply in_map_iff in I. destruct I as [? [? _]]. discriminate. }
  assert (N2 : ~ In Notify puts) by (intros I; rewrite <- AP in I; apply filter_In in I; destruct I; discriminate).
  revert E N1 N2. generalize (filter (fit dumps) (map App l)). clear AP. intros a. revert puts.
  induction a as [|x a IH]; intros [|y g] E N1 N2; cbn in *; auto.
  - destruct b; cbn in E; [|discriminate]. destruct (fit dumps Notify); [|discriminate]. injection E as <- _. tauto.
  - injection E as -> E. tauto.
  - injection E as <- E. f_equal. apply IH; tauto.
Qed.

Section C55.
  Context {A : Type} (dumps : nmsg A -> option bytes) (loads : bytes -> option (nmsg A)).

  (* In any run, what the server received on a connection, in the order received, is the beginning
     of what that client sent; so nothing is altered, invented, repeated or out of order. *)
  Theorem C55_to_server : pickles dumps loads -> forall xs s, nrun dumps loads xs net_init = Some s -> forall c,
    exists rest, fits dumps (sents (c_rets (n_link s c))) = got_from c (n_rets s) ++ of_conn c (n_mq s) ++ rest.
  Proof.
    intros PK xs s H c. destruct (reach _ _ _ _ PK H c) as [[V [E _]]|V].
    - apply app_eq_nil in E. destruct E as [-> ->]. cbn. eauto.
    - destruct (v_up _ _ _ _ _ _ V) as [b [O [Cu [B1 [B2 [O1 [O2 _]]]]]]]. destruct (c_prefix _ _ _ _ _ Cu) as [r Hr].
      assert (AP := all_apps _ (v_apps _ _ _ _ _ _ V)).
      assert (K : exists r', filter (fit dumps) (map App (sents (c_rets (n_link s c))) ++ bye b) =
                             (got_from c (n_rets s) ++ of_conn c (n_mq s)) ++ r').
      { rewrite Hr. destruct (s_loop (n_link s c)) eqn:El.
        - rewrite (O1 eq_refl). eauto.
        - destruct (O2 eq_refl) as [[_ ->]|[[_ ->]|[[_ [m [_ ->]]]|[_ ->]]]]; eauto; rewrite <- app_assoc; eauto. }
      destruct K as [r' K]. apply apps_prefix in K; auto. rewrite filter_comm, sent_apps in K. unfold fits. rewrite K, <- app_assoc. eauto.
  Qed.

  (* The same for what the client received. *)
  Theorem C55_to_client : pickles dumps loads -> forall xs s, nrun dumps loads xs net_init = Some s -> forall c,
    exists rest, fits dumps (sent_to c (n_rets s)) = gottens (c_rets (n_link s c)) ++ c_mq (n_link s c) ++ rest.
  Proof.
    intros PK xs s H c. destruct (reach _ _ _ _ PK H c) as [[V [_ [_ E]]]|V].
    - destruct V as [_ [_ [_ [_ [_ [Hq [_ [_ [_ [_ D]]]]]]]]]]. rewrite E, Hq.
      destruct D as [[_ [-> _]]|[_ [-> _]]]; cbn; eauto.
    - destruct (v_up _ _ _ _ _ _ V) as [b [O [_ [_ [_ [_ [_ [P [O' [Cd [P1 [_ [_ [_ [Q1 Q2]]]]]]]]]]]]]]].
      destruct (c_prefix _ _ _ _ _ Cd) as [r Hr]. assert (AP := all_apps _ (v_got _ _ _ _ _ _ V)).
      assert (K : exists r', filter (fit dumps) P = (gottens (c_rets (n_link s c)) ++ c_mq (n_link s c)) ++ r').
      { rewrite Hr. destruct (c_conn (n_link s c)) eqn:Ec.
        - rewrite (Q1 eq_refl). eauto.
        - destruct (Q2 eq_refl) as [[[->|[m [_ ->]]] _]| ->]; [exists r|exists (m :: r)|exists (Ack :: r)]; rewrite <- !app_assoc; auto. }
      destruct K as [r' K]. apply apps_prefix in K; auto. rewrite filter_comm, P1 in K. unfold fits. rewrite K, <- app_assoc. eauto.
  Qed.

  (* As long as the connection is not closed or lost, nothing stays on the way: when the IO loops
     have nothing left to do, all has arrived. *)
  Theorem C55_nothing_lost : lossless dumps loads -> forall xs s, nrun dumps loads xs net_init = Some s -> forall c,
    broken (n_link s c) = false -> c_conn (n_link s c) = true -> quiet dumps loads (n_link s c) ->
    fits dumps (sents (c_rets (n_link s c))) = got_from c (n_rets s) ++ of_conn c (n_mq s) /\
    (c_loop (n_link s c) = true ->
     fits dumps (sent_to c (n_rets s)) = gottens (c_rets (n_link s c)) ++ c_mq (n_link s c)).
  Proof.
    intros L xs s H c NB Ec Q. destruct (reach _ _ _ _ (lossless_pickles _ _ L) H c) as [[V _]|V].
    { destruct V as [_ [_ [X _]]]. congruence. }
    assert (AP := all_apps _ (v_apps _ _ _ _ _ _ V)). assert (AG := all_apps _ (v_got _ _ _ _ _ _ V)).
    destruct (v_fine _ _ _ _ _ _ V NB) as [Co [So [EX _]]].
    destruct (v_up _ _ _ _ _ _ V) as [b [O [Cu [B1 [B2 [O1 [O2 [P [O' [Cd [P1 [P2 [P3 [P4 [Q1 Q2]]]]]]]]]]]]]]].
    rewrite Co in Cu. rewrite So in Cd.
    assert (F1 : flush dumps true (up (n_link s c)) = None).
    { specialize (Q (KFlushC true) eq_refl). cbn in Q. rewrite Co in Q. cbn in Q. destruct (flush _ _ _); [discriminate|auto]. }
    assert (F2 : flush dumps true (dn (n_link s c)) = None).
    { specialize (Q (KFlushS true) eq_refl). cbn in Q. rewrite So in Q. cbn in Q. destruct (flush _ _ _); [discriminate|auto]. }
    assert (W1 : forall n, arrive n (up (n_link s c)) = None).
    { intros n. specialize (Q (KArriveS n) eq_refl). cbn in Q. destruct (arrive _ _); [discriminate|auto]. }
    assert (W2 : forall n, arrive n (dn (n_link s c)) = None).
    { intros n. specialize (Q (KArriveC n) eq_refl). cbn in Q. destruct (arrive _ _); [discriminate|auto]. }
    assert (EX' : raised_for c (n_rets s) ++ of_conn c (n_eq s) = []).
    { destruct EX as [E|[m Bm]]; auto. destruct (lossless_bad _ _ _ L Bm). }
    split.
    - destruct (s_loop (n_link s c)) eqn:El.
      + assert (A1 : advance true (up (n_link s c)) = None).
        { specialize (Q KReadS eq_refl). cbn in Q. rewrite El, So in Q. destruct (advance _ _) as [[h [p|]]|]; auto; [|discriminate].
          destruct (loads p) as [[| |]|]; cbn in Q; rewrite ?So in Q; discriminate. }
        assert (K := c_quiet _ _ _ _ Cu F1 W1 A1). rewrite (O1 eq_refl) in K.
        unfold fits. rewrite <- AP, <- K, filter_comm, sent_apps. auto.
      + destruct (O2 eq_refl) as [[N _]|[[N _]|[[N _]|[_ E]]]]; try contradiction. destruct (c_prefix _ _ _ _ _ Cu) as [r Hr].
        subst O. eapply until_bye; eauto.
    - intros El. assert (A2 : advance true (dn (n_link s c)) = None).
      { specialize (Q KReadC eq_refl). cbn in Q. rewrite El, Co in Q. destruct (advance _ _) as [[h [p|]]|]; auto; [|discriminate].
        destruct (loads p) as [[| |]|]; discriminate. }
      assert (K := c_quiet _ _ _ _ Cd F2 W2 A2). rewrite (Q1 Ec) in K.
      unfold fits. rewrite <- AG, <- K, filter_comm, P1. auto.
  Qed.

  (* disconnect() returned and no call raised: everything sent before has arrived. *)
  Theorem C55_goodbye : pickles dumps loads -> forall xs s, nrun dumps loads xs net_init = Some s -> forall c,
    In RDisconnected (c_rets (n_link s c)) -> (forall e, ~ In (RRaised e) (c_rets (n_link s c))) -> c_eq (n_link s c) = [] ->
    fits dumps (sents (c_rets (n_link s c))) = got_from c (n_rets s) ++ of_conn c (n_mq s).
  Proof.
    intros PK xs s H c D NR NE. destruct (reach _ _ _ _ PK H c) as [[V _]|V].
    { destruct V as [_ [_ [_ [_ [_ [_ [_ [_ [_ [_ X]]]]]]]]]]. exfalso.
      destruct X as [[_ [X _]]|[_ [X _]]]; rewrite X in D; [destruct D|destruct D as [D|[]]; discriminate]. }
    assert (AP := all_apps _ (v_apps _ _ _ _ _ _ V)). assert (Ec := v_disc _ _ _ _ _ _ V D).
    destruct (v_up _ _ _ _ _ _ V) as [b [O [Cu [B1 [B2 [O1 [O2 [P [O' [Cd [P1 [P2 [P3 [P4 [Q1 Q2]]]]]]]]]]]]]]].
    destruct (Q2 Ec) as [[_ [N|[e N]]]|E]; [contradiction|destruct (NR e N)|].
    assert (I : In Ack P).
    { destruct (c_prefix _ _ _ _ _ Cd) as [r Hr]. assert (I : In Ack (filter (fit dumps) P)).
      { rewrite Hr, E. apply in_or_app. left. apply in_or_app. right. apply in_or_app. right. left. auto. }
      apply filter_In in I. tauto. }
    destruct (c_prefix _ _ _ _ _ Cu) as [r Hr]. rewrite (P2 I) in Hr. eapply until_bye; eauto.
  Qed.
End C55.
Print Assumptions C55_to_server.
Print Assumptions C55_to_client.
Print Assumptions C55_nothing_lost.
Print Assumptions C55_goodbye.

(* ---- C56: the server's get_message ---- *)
Section C56.
  Context {A : Type} (dumps : nmsg A -> option bytes) (loads : bytes -> option (nmsg A)).
  Definition is_get (x : nlabel A) : bool := match x with NGet => true | _ => false end.
  Definition gets (xs : list (nlabel A)) : nat := length (filter is_get xs).
  Definition excs_of (rs : list (sret A)) : list (nat * nexn) :=
    flat_map (fun r => match r with SRaised c e => [(c, e)] | _ => [] end) rs.

  (* a connection makes get_message raise at most once, and none of its messages are received after those
     that were queued by then *)
  Theorem C56_one_exception : pickles dumps loads -> forall xs s, nrun dumps loads xs net_init = Some s -> forall c,
    (length (raised_for c (n_rets s)) <= 1)%nat /\
    (raised_for c (n_rets s) <> [] -> forall ys s', nrun dumps loads ys s = Some s' ->
       got_from c (n_rets s') ++ of_conn c (n_mq s') = got_from c (n_rets s) ++ of_conn c (n_mq s)).
  Proof.
    intros PK xs s H c. assert (V := reach _ _ _ _ PK H). split.
    - destruct (V c) as [[_ [_ [E _]]]|L].
      + apply app_eq_nil in E. destruct E as [-> _]. cbn. lia.
      + assert (X := v_one _ _ _ _ _ _ L). rewrite app_length in X. lia.
    - intros NE ys. assert (SL : s_loop (n_link s c) = false).
      { destruct (V c) as [[_ [_ [E _]]]|L]; [apply app_eq_nil in E; destruct E as [E _]; contradiction|].
        destruct (s_loop (n_link s c)) eqn:El; auto. assert (E := v_run _ _ _ _ _ _ L El). apply app_eq_nil in E. destruct E as [E _]. contradiction. }
      assert (RN : raised_for c (n_rets s) ++ of_conn c (n_eq s) <> []) by (intros E; apply app_eq_nil in E; tauto).
      clear H NE. revert s V SL RN. induction ys as [|y ys IH]; intros s V SL RN s' H; cbn in H; [apply some_inj in H; subst; auto|].
      destruct (nstep dumps loads y s) as [s1|] eqn:Hs; [|discriminate]. assert (V1 := nstep_inv _ _ PK _ _ _ V Hs).
      assert (K : s_loop (n_link s1 c) = false /\ raised_for c (n_rets s1) ++ of_conn c (n_eq s1) <> [] /\
                  got_from c (n_rets s1) ++ of_conn c (n_mq s1) = got_from c (n_rets s) ++ of_conn c (n_mq s)).
      { destruct y as [c0 k|]; cbn [nstep] in Hs.
        - destruct (kstep dumps loads k (n_link s c0)) as [[l ns]|] eqn:Hk; [|discriminate]. apply some_inj in Hs.
          match type of Hs with fold_left _ _ ?s0 = _ => destruct (tell_all c0 ns s0) as [mq [eq [rs [E [-> [-> ->]]]]]] end.
          rewrite E in Hs. subst s1. cbn [n_link n_mq n_eq n_rets].
          rewrite got_app, raised_app, !of_app, !of_pairs, got_sends, raised_sends, !app_nil_r. unfold upd.
          destruct (Nat.eqb c0 c) eqn:Ec; [|rewrite !app_nil_r; auto]. apply Nat.eqb_eq in Ec. subst c0.
          assert (NP : s_loop l = false /\ n_puts ns = []).
          { destruct (V c) as [[_ [_ [X _]]]|L]; [contradiction|]. clear - Hk SL L.
            destruct k as [ok|cl| | |ok|n| | | |a| |ok|n| | | |]; cbn [kstep] in Hk.
            - destruct (c_main (n_link s c)) eqn:Em; try discriminate. destruct (c_conn (n_link s c)) eqn:Ec; [discriminate|].
              destruct (v_gone _ _ _ _ _ _ L Ec) as [_ [_ [_ X]]]. contradiction.
            - destruct (c_main (n_link s c)); try discriminate. injection Hk as <- <-. auto.
            - destruct (main_step (n_link s c)) as [l0|] eqn:Hm; [|discriminate]. injection Hk as <- <-. split; auto.
              unfold main_step in Hm. destruct (c_main (n_link s c)); try discriminate;
                repeat match type of Hm with context [match ?b with _ => _ end] => destruct b end;
                try discriminate; apply some_inj in Hm; subst l0; cbn; auto.
            - destruct (c_main (n_link s c)); try discriminate. destruct (c_mq (n_link s c)); [|discriminate]. injection Hk as <- <-. auto.
            - repeat match type of Hk with context [match ?b with _ => _ end] => destruct b end; try discriminate; injection Hk as <- <-; auto.
            - destruct (arrive _ _); [|discriminate]. injection Hk as <- <-. auto.
            - repeat match type of Hk with context [match ?b with _ => _ end] => destruct b end; try discriminate; injection Hk as <- <-; auto.
            - repeat match type of Hk with context [match ?b with _ => _ end] => destruct b end; try discriminate; injection Hk as <- <-; auto.
            - repeat match type of Hk with context [match ?b with _ => _ end] => destruct b end; try discriminate; injection Hk as <- <-; auto.
            - repeat match type of Hk with context [match ?b with _ => _ end] => destruct b end; try discriminate; injection Hk as <- <-; auto.
            - destruct (s_in _); [|discriminate]. injection Hk as <- <-. auto.
            - repeat match type of Hk with context [match ?b with _ => _ end] => destruct b end; try discriminate; injection Hk as <- <-; auto.
            - destruct (arrive _ _); [|discriminate]. injection Hk as <- <-. auto.
            - rewrite SL in Hk. discriminate.
            - rewrite SL in Hk. discriminate.
            - destruct (ch_wire _); [discriminate|]. destruct (broken _); [|discriminate]. injection Hk as <- <-. auto.
            - destruct (_ || _); [|discriminate]. injection Hk as <- <-. auto. }
          destruct NP as [NP1 NP2]. rewrite NP2, app_nil_r. split; auto. split; auto. rewrite app_assoc. intros X. apply app_eq_nil in X. tauto.
        - apply some_inj in Hs. subst s1. clear - SL RN. destruct s as [lk mq eq rs]. cbn [n_link n_mq n_eq n_rets] in *.
          destruct eq as [|[c0 e] r]; [destruct mq as [|[c0 m] r]|]; cbn [n_link n_mq n_eq n_rets];
            rewrite got_app, raised_app; cbn; rewrite ?app_nil_r; cbn in RN; rewrite ?app_nil_r in RN; (split; [auto|split]); auto.
          + rewrite <- app_assoc. auto.
          + rewrite <- app_assoc. auto. }
      destruct K as [K1 [K2 K3]]. rewrite (IH s1 V1 K1 K2 s' H). auto.
  Qed.

  Lemma rets_grow ys : forall s s', nrun dumps loads ys s = Some s' -> exists rs, n_rets s' = n_rets s ++ rs.
  Proof.
    induction ys as [|y ys IH]; intros s s' H; cbn in H; [apply some_inj in H; subst; exists []; rewrite app_nil_r; auto|].
    destruct (nstep dumps loads y s) as [s1|] eqn:Hs; [|discriminate]. destruct (IH _ _ H) as [rs Hr].
    assert (K : exists r1, n_rets s1 = n_rets s ++ r1).
    { destruct y as [c0 k|]; cbn [nstep] in Hs.
      - destruct (kstep dumps loads k (n_link s c0)) as [[l ns]|]; [|discriminate]. apply some_inj in Hs.
        match type of Hs with fold_left _ _ ?s0 = _ => destruct (tell_all c0 ns s0) as [mq [eq [rs0 [E _]]]] end.
        rewrite E in Hs. subst s1. cbn. eauto.
      - apply some_inj in Hs. subst s1. destruct (n_eq s) as [|[]]; [destruct (n_mq s) as [|[]]|]; cbn; eauto. }
    destruct K as [r1 K]. exists (r1 ++ rs). rewrite Hr, K, app_assoc. auto.
  Qed.

  (* a message in the queue is returned after the messages before it and the exceptions raised meanwhile *)
  Lemma served ys : forall s s' pre c m post, n_mq s = pre ++ (c, m) :: post -> nrun dumps loads ys s = Some s' ->
    forall rs, n_rets s' = n_rets s ++ rs -> (length pre + length (excs_of rs) < gets ys)%nat -> In (SGot c m) rs.
  Proof.
    induction ys as [|y ys IH]; intros s s' pre c m post E H rs Er L; cbn in H; [unfold gets in L; cbn in L; lia|].
    destruct (nstep dumps loads y s) as [s1|] eqn:Hs; [|discriminate]. destruct (rets_grow _ _ _ H) as [rs1 Er1].
    destruct y as [c0 k|]; cbn [nstep] in Hs.
    - destruct (kstep dumps loads k (n_link s c0)) as [[l ns]|]; [|discriminate]. apply some_inj in Hs.
      match type of Hs with fold_left _ _ ?s0 = _ => destruct (tell_all c0 ns s0) as [mq [eq [rs0 [E0 [-> [-> ->]]]]]] end.
      rewrite E0 in Hs. assert (Em : n_mq s1 = pre ++ (c, m) :: (post ++ map (pair c0) (n_puts ns))) by (subst s1; cbn; rewrite E, <- app_assoc; auto).
      assert (Eq : n_rets s1 = n_rets s ++ map (SSent c0) (n_sent ns)) by (subst s1; auto).
      rewrite Er1, Eq, <- app_assoc in Er. apply app_inv_head in Er. rewrite <- Er in L |- *.
      apply in_or_app. right. eapply IH; eauto. unfold gets in L. cbn [filter is_get] in L.
      assert (Z : excs_of (map (SSent c0) (n_sent ns) ++ rs1) = excs_of rs1).
      { unfold excs_of. rewrite flat_map_app. assert (Z : forall l0, flat_map (fun r : sret A => match r with SRaised c1 e => [(c1, e)] | _ => [] end) (map (SSent c0) l0) = []) by (induction l0; auto).
        rewrite Z. auto. }
      rewrite Z in L. exact L.
    - apply some_inj in Hs. unfold gets in L. cbn [filter is_get length] in L. fold (gets ys) in L.
      destruct (n_eq s) as [|[c0 e] r].
      + rewrite E in Hs. destruct pre as [|[c0 m0] pre]; cbn [app] in Hs.
        * assert (Eq : n_rets s1 = n_rets s ++ [SGot c m]) by (subst s1; auto).
          rewrite Er1, Eq, <- app_assoc in Er. apply app_inv_head in Er. rewrite <- Er. left. auto.
        * assert (Eq : n_rets s1 = n_rets s ++ [SGot c0 m0]) by (subst s1; auto).
          assert (Em : n_mq s1 = pre ++ (c, m) :: post) by (subst s1; auto).
          rewrite Er1, Eq, <- app_assoc in Er. apply app_inv_head in Er. rewrite <- Er in L |- *.
          right. apply (IH _ _ _ _ _ _ Em H _ Er1). cbn [app] in L. unfold excs_of in *. cbn [flat_map app length] in L. unfold gets in *. lia.
      + assert (Eq : n_rets s1 = n_rets s ++ [SRaised c0 e]) by (subst s1; auto).
        assert (Em : n_mq s1 = pre ++ (c, m) :: post) by (subst s1; auto).
        rewrite Er1, Eq, <- app_assoc in Er. apply app_inv_head in Er. rewrite <- Er in L |- *.
        right. apply (IH _ _ _ _ _ _ Em H _ Er1). cbn [app] in L. unfold excs_of in *. cbn [flat_map app length] in L. unfold gets in *. lia.
  Qed.

  Lemma raised_excs c rs : raised_for c rs = map snd (filter (fun x => Nat.eqb (fst x) c) (excs_of rs)).
  Proof.
    unfold raised_for, excs_of. induction rs as [|[| | |] rs IH]; cbn; auto. rewrite IH. destruct (Nat.eqb c0 c); auto.
  Qed.
  Lemma excs_nodup rs : (forall c, (length (raised_for c rs) <= 1)%nat) -> NoDup (map fst (excs_of rs)).
  Proof.
    intros H. assert (K : forall c, (length (filter (fun x => Nat.eqb (fst x) c) (excs_of rs)) <= 1)%nat).
    { intros c. specialize (H c). rewrite raised_excs, map_length in H. auto. }
    revert K. generalize (excs_of rs). intros l. induction l as [|[c e] l IH]; intros K; cbn; constructor.
    - intros I. apply in_map_iff in I. destruct I as [[c' e'] [E I]]. cbn in E. subst c'. specialize (K c). cbn in K. rewrite Nat.eqb_refl in K.
      assert (I' : In (c, e') (filter (fun x => Nat.eqb (fst x) c) l)) by (apply filter_In; cbn; rewrite Nat.eqb_refl; auto).
      destruct (filter _ l); [destruct I'|cbn in K; lia].
    - apply IH. intros c'. specialize (K c'). cbn in K. destruct (Nat.eqb c c'); cbn in K; lia.
  Qed.
  Lemma pre_untouched xs : forall s s', nrun dumps loads xs s = Some s' -> forall c, (forall k, ~ In (NLink c k) xs) ->
    n_link s' c = n_link s c.
  Proof.
    induction xs as [|x xs IH]; intros s s' H c N; cbn in H; [apply some_inj in H; subst; auto|].
    destruct (nstep dumps loads x s) as [s1|] eqn:Hs; [|discriminate]. rewrite (IH _ _ H c) by (intros k I; apply (N k); right; auto).
    destruct x as [c0 k|]; cbn [nstep] in Hs.
    - destruct (kstep dumps loads k (n_link s c0)) as [[l ns]|]; [|discriminate]. apply some_inj in Hs.
      match type of Hs with fold_left _ _ ?s0 = _ => destruct (tell_all c0 ns s0) as [mq [eq [rs0 [E _]]]] end.
      rewrite E in Hs. subst s1. cbn. unfold upd. destruct (Nat.eqb c0 c) eqn:Ec; auto. apply Nat.eqb_eq in Ec. subst. destruct (N k). left. auto.
    - apply some_inj in Hs. subst s1. destruct (n_eq s) as [|[]]; [destruct (n_mq s) as [|[]]|]; auto.
  Qed.

  (* Every message in the server's queue is returned by get_message after as many calls as there
     are messages before it and connections, whatever else happens meanwhile. *)
  Theorem C56_served : pickles dumps loads -> forall xs s, nrun dumps loads xs net_init = Some s ->
    forall pre c m post, n_mq s = pre ++ (c, m) :: post -> forall ys s', nrun dumps loads ys s = Some s' ->
    forall conns, (forall c k, In (NLink c k) (xs ++ ys) -> In c conns) -> (length pre + length conns < gets ys)%nat ->
    exists rs, n_rets s' = n_rets s ++ rs /\ In (SGot c m) rs.
  Proof.
    intros PK xs s H pre c m post E ys s' H' conns IC L. destruct (rets_grow _ _ _ H') as [rs Er]. exists rs. split; auto.
    eapply served; eauto. enough (length (excs_of rs) <= length conns)%nat by lia.
    assert (HH : nrun dumps loads (xs ++ ys) net_init = Some s') by (rewrite nrun_app, H; auto).
    assert (ND : NoDup (map fst (excs_of rs))).
    { apply excs_nodup. intros c0. destruct (C56_one_exception PK _ _ HH c0) as [X _]. rewrite Er, raised_app, app_length in X. lia. }
    assert (IN : incl (map fst (excs_of rs)) conns).
    { intros c0 I. assert (NR : raised_for c0 (n_rets s') <> []).
      { rewrite Er, raised_app, (raised_excs c0 rs). intros X. apply app_eq_nil in X. destruct X as [_ X]. apply map_eq_nil in X.
        apply in_map_iff in I. destruct I as [[c1 e] [<- I]].
        assert (I' : In (c1, e) (filter (fun x => Nat.eqb (fst x) c1) (excs_of rs))) by (apply filter_In; cbn; rewrite Nat.eqb_refl; auto).
        cbn in X. rewrite X in I'. destruct I'. }
      destruct (in_dec Nat.eq_dec c0 conns) as [|N]; auto. exfalso.
      assert (U := pre_untouched _ _ _ HH c0 (fun k I0 => N (IC _ _ I0))). cbn in U.
      destruct (reach _ _ _ _ PK HH c0) as [[_ [_ [X _]]]|V].
      - apply app_eq_nil in X. tauto.
      - assert (X := v_gone _ _ _ _ _ _ V). rewrite U in X. cbn in X. destruct (X eq_refl) as [_ [_ [X' _]]]. discriminate. }
    rewrite <- (map_length fst). apply NoDup_incl_length; auto.
  Qed.
End C56.
Print Assumptions C56_one_exception.
Print Assumptions C56_served.

(* ---- C57: the end of a connection ---- *)
Section C57.
  Context {A : Type} (dumps : nmsg A -> option bytes) (loads : bytes -> option (nmsg A)).
  (* the steps of the IO loops and the network for connection c *)
  Definition moved (c : nat) (xs : list (nlabel A)) : nat :=
    length (filter (fun x => match x with NLink c' k => Nat.eqb c' c && moves k | NGet => false end) xs).
  (* each message costs at most two steps for each byte it takes on the wire, and one *)
  Definition byte_steps (l : list (nmsg A)) : nat :=
    fold_right (fun m n => 2 * (length (match dumps m with Some p => p | None => [] end) + 4) + 1 + n)%nat 0%nat l.

  Lemma byte_costs l : byte_steps l = costs dumps l.
  Proof. unfold byte_steps, costs, cost, pk. induction l as [|m l IH]; cbn; auto. Qed.
  Lemma sent_to_app c l1 l2 : sent_to (A:=A) c (l1 ++ l2) = sent_to c l1 ++ sent_to c l2.
  Proof. unfold sent_to. apply flat_map_app. Qed.

  Lemma run_work c : forall xs s s', pickles dumps loads -> NInv dumps loads s -> nrun dumps loads xs s = Some s' ->
    exists new news, sents (c_rets (n_link s' c)) = sents (c_rets (n_link s c)) ++ new /\ sent_to c (n_rets s') = sent_to c (n_rets s) ++ news /\
    (work dumps (n_link s' c) + moved c xs <= work dumps (n_link s c) + costs dumps (map App new) + costs dumps (map App news))%nat.
  Proof.
    induction xs as [|x xs IH]; intros s s' PK V H; cbn in H.
    { apply some_inj in H. subst. exists [], []. rewrite !app_nil_r. repeat split; auto. unfold moved. cbn. lia. }
    destruct (nstep dumps loads x s) as [s1|] eqn:Hs; [|discriminate]. assert (V1 := nstep_inv _ _ PK _ _ _ V Hs).
    destruct (IH _ _ PK V1 H) as [new [news [E1 [E2 L]]]]. destruct x as [c0 k|]; cbn [nstep] in Hs.
    - destruct (kstep dumps loads k (n_link s c0)) as [[l ns]|] eqn:Hk; [|discriminate]. apply some_inj in Hs.
      match type of Hs with fold_left _ _ ?s0 = _ => destruct (tell_all c0 ns s0) as [mq [eq [rs [E [Em [Ee Er]]]]]] end.
      rewrite E in Hs. assert (Kl : n_link s1 = upd (n_link s) c0 l) by (subst s1; auto).
      assert (Kr : n_rets s1 = n_rets s ++ map (SSent c0) (n_sent ns)) by (subst s1; subst rs; auto).
      rewrite Kl in E1, L. unfold upd in E1, L. rewrite Kr, sent_to_app in E2.
      assert (S0 : sent_to c (map (SSent c0) (n_sent ns)) = if Nat.eqb c0 c then n_sent ns else []).
      { clear. unfold sent_to. induction (n_sent ns) as [|a r IH]; cbn; [destruct (Nat.eqb c0 c); auto|]. rewrite IH. destruct (Nat.eqb c0 c); auto. }
      rewrite S0 in E2. unfold moved. cbn [filter]. destruct (Nat.eqb c0 c) eqn:Ec.
      + apply Nat.eqb_eq in Ec. subst c0. destruct (step_work _ _ _ _ _ _ _ _ _ (V c) Hk) as [nw [Es W]].
        exists (nw ++ new), (n_sent ns ++ news). rewrite E1, E2, Es, !app_assoc. split; auto. split; auto.
        rewrite !map_app, !costs_app. cbn [andb]. unfold moved in L. destruct (moves k); cbn [length]; lia.
      + exists new, news. rewrite app_nil_r in E2. split; auto.
    - apply some_inj in Hs. assert (Kl : n_link s1 = n_link s) by (subst s1; destruct (n_eq s) as [|[]]; [destruct (n_mq s) as [|[]]|]; auto).
      assert (Kr : sent_to c (n_rets s1) = sent_to c (n_rets s)).
      { subst s1. destruct (n_eq s) as [|[]]; [destruct (n_mq s) as [|[]]|]; cbn [n_rets]; rewrite sent_to_app; cbn; rewrite app_nil_r; auto. }
      rewrite Kl in E1, L. rewrite Kr in E2. exists new, news. auto.
  Qed.

  (* However the connection ends, its IO loops have only so much to do: the bytes of the messages sent
     and of the goodbye. *)
  Theorem C57_bounded : pickles dumps loads -> forall xs s, nrun dumps loads xs net_init = Some s -> forall c,
    (moved c xs <= byte_steps (map App (sents (c_rets (n_link s c)))) + byte_steps (map App (sent_to c (n_rets s))) +
                   byte_steps [Notify; Ack] + 2)%nat.
  Proof.
    intros PK xs s H c. destruct (run_work c _ _ _ PK (ninit_inv _ _) H) as [new [news [E1 [E2 L]]]]. cbn in E1, E2. subst new news.
    rewrite !byte_costs. cbn [n_link net_init] in L.
    assert (W : work dumps (@link_init A) = (cost dumps Ack + cost dumps Notify + 2)%nat) by reflexivity.
    rewrite W in L. rewrite (byte_costs (map App (sent_to _ _))), (byte_costs [Notify; Ack]). unfold costs at 3. cbn [fold_right]. lia.
  Qed.

  (* A client that waits in disconnect() waits for something the IO loops still have to do; when
     they are done it returns, whether the server answered or the connection was lost. *)
  Theorem C57_disconnect_ends : lossless dumps loads -> fit dumps Notify = true -> fit dumps Ack = true ->
    forall xs s, nrun dumps loads xs net_init = Some s -> forall c,
    c_main (n_link s c) = DiscWait -> quiet dumps loads (n_link s c) ->
    exists s', nstep dumps loads (NLink c KMain) s = Some s' /\ c_rets (n_link s' c) = c_rets (n_link s c) ++ [RDisconnected].
  Proof.
    intros L FN FA xs s H c Em Q. assert (Ec : c_conn (n_link s c) = false).
    2:{ cbn [nstep kstep]. unfold main_step. rewrite Em, Ec. eexists. split; [reflexivity|]. cbn. unfold upd. rewrite Nat.eqb_refl. auto. }
    destruct (c_conn (n_link s c)) eqn:Ec; auto. exfalso.
    destruct (reach _ _ _ _ (lossless_pickles _ _ L) H c) as [[V _]|V].
    { destruct V as [_ [_ [X _]]]. congruence. }
    destruct (v_conn _ _ _ _ _ _ V Ec) as [_ [El|El]]; [|congruence].
    assert (NB : broken (n_link s c) = false).
    { destruct (broken (n_link s c)) eqn:B; auto. specialize (Q KFailC eq_refl). cbn in Q. rewrite El, B in Q. unfold fails in Q.
      destruct (ch_st _), (c_open _); cbn in Q; discriminate. }
    assert (AP := v_apps _ _ _ _ _ _ V). assert (AG := v_got _ _ _ _ _ _ V).
    destruct (v_fine _ _ _ _ _ _ V NB) as [Co [So [EX _]]].
    destruct (v_up _ _ _ _ _ _ V) as [b [O [Cu [B1 [B2 [O1 [O2 [P [O' [Cd [P1 [P2 [P3 [P4 [Q1 Q2]]]]]]]]]]]]]]].
    rewrite Co in Cu. rewrite So in Cd. rewrite (B2 Em) in Cu.
    assert (F1 : flush dumps true (up (n_link s c)) = None).
    { specialize (Q (KFlushC true) eq_refl). cbn in Q. rewrite Co in Q. cbn in Q. destruct (flush _ _ _); [discriminate|auto]. }
    assert (F2 : flush dumps true (dn (n_link s c)) = None).
    { specialize (Q (KFlushS true) eq_refl). cbn in Q. rewrite So in Q. cbn in Q. destruct (flush _ _ _); [discriminate|auto]. }
    assert (W1 : forall n, arrive n (up (n_link s c)) = None).
    { intros n. specialize (Q (KArriveS n) eq_refl). cbn in Q. destruct (arrive _ _); [discriminate|auto]. }
    assert (W2 : forall n, arrive n (dn (n_link s c)) = None).
    { intros n. specialize (Q (KArriveC n) eq_refl). cbn in Q. destruct (arrive _ _); [discriminate|auto]. }
    assert (EX' : raised_for c (n_rets s) ++ of_conn c (n_eq s) = []).
    { destruct EX as [E|[m Bm]]; auto. destruct (lossless_bad _ _ _ L Bm). }
    destruct (s_loop (n_link s c)) eqn:Es.
    - assert (A1 : advance true (up (n_link s c)) = None).
      { specialize (Q KReadS eq_refl). cbn in Q. rewrite Es, So in Q. destruct (advance _ _) as [[h [p|]]|]; auto; [|discriminate].
        destruct (loads p) as [[| |]|]; cbn in Q; rewrite ?So in Q; discriminate. }
      assert (K := c_quiet _ _ _ _ Cu F1 W1 A1). rewrite (O1 eq_refl) in K.
      assert (I : In Notify (got_from c (n_rets s) ++ of_conn c (n_mq s))).
      { rewrite <- K. apply filter_In. split; auto. apply in_or_app. right. left. auto. }
      apply AP in I. discriminate.
    - assert (A2 : advance true (dn (n_link s c)) = None).
      { specialize (Q KReadC eq_refl). cbn in Q. rewrite El, Co in Q. destruct (advance _ _) as [[h [p|]]|]; auto; [|discriminate].
        destruct (loads p) as [[| |]|]; discriminate. }
      assert (K := c_quiet _ _ _ _ Cd F2 W2 A2). rewrite (Q1 Ec) in K.
      assert (I : In Ack (gottens (c_rets (n_link s c)) ++ c_mq (n_link s c))).
      { rewrite <- K. apply filter_In. split; auto. }
      apply AG in I. discriminate.
  Qed.
End C57.
Print Assumptions C57_bounded.
Print Assumptions C57_disconnect_ends.

(* ---- C58: what the client's calls raise ---- *)
Section C58.
  Context {A : Type} (dumps : nmsg A -> option bytes) (loads : bytes -> option (nmsg A)).
  Definition raised (rs : list (cret A)) : list nexn := flat_map (fun r => match r with RRaised e => [e] | _ => [] end) rs.

  (* Nothing is raised while the connection is neither lost nor closed (the constructor raises if it
     cannot be made). *)
  Theorem C58_fine : pickles dumps loads -> forall xs s, nrun dumps loads xs net_init = Some s -> forall c,
    broken (n_link s c) = false -> forall e, In (RRaised e) (c_rets (n_link s c)) -> c_rets (n_link s c) = [RRaised ConnErr].
  Proof.
    intros PK xs s H c NB e I. destruct (reach _ _ _ _ PK H c) as [[V _]|V].
    - destruct V as [_ [_ [_ [_ [_ [_ [_ [_ [_ [_ X]]]]]]]]]]. destruct X as [[_ [X _]]|[_ [X _]]]; auto. rewrite X in I. destruct I.
    - destruct (v_fine _ _ _ _ _ _ V NB) as [_ [_ [_ N]]]. destruct (N e I).
  Qed.

  Definition Gone (l0 l : link A) : Prop :=
    c_conn l = false /\ c_loop l = false /\ c_mq l = c_mq l0 /\
    match c_main l with Idle | Send0 _ | Get0 | Disc0 => True | Send1 _ | Get1 => c_eq l = [] | _ => False end /\
    exists new, c_rets l = c_rets l0 ++ new /\ Forall (fun r => match r with RDisconnected | RRaised _ => True | _ => False end) new /\
      ((raised new = [] /\ c_eq l = c_eq l0) \/ (c_eq l = [] /\ exists n, raised new = c_eq l0 ++ repeat NotConnectedErr n)).

  Lemma raised_rets r1 r2 : raised (r1 ++ r2) = raised r1 ++ raised r2.
  Proof. unfold raised. apply flat_map_app. Qed.
  Lemma gone_step l0 k l l' ns : (length (c_eq l0) <= 1)%nat -> Gone l0 l -> kstep dumps loads k l = Some (l', ns) -> Gone l0 l'.
  Proof.
    intros LE [G1 [G2 [G3 [G4 [new [G5 [G6 G7]]]]]]] H.
    assert (KEEP : forall l', c_conn l' = c_conn l -> c_loop l' = c_loop l -> c_mq l' = c_mq l -> c_main l' = c_main l -> c_eq l' = c_eq l ->
       c_rets l' = c_rets l -> Gone l0 l').
    { intros l1 E1 E2 E3 E4 E5 E6. unfold Gone. rewrite E1, E2, E3, E4, E5, E6. do 4 (split; auto). exists new. auto. }
    destruct k as [ok|cl| | |ok|n| | | |a| |ok|n| | | |]; cbn [kstep] in H.
    - destruct (c_main l); try discriminate. destruct G4.
    - destruct (c_main l) eqn:Em; try discriminate. injection H as <- <-. unfold Gone. cbn [c_conn c_loop c_mq c_main c_eq c_rets with_main].
      do 3 (split; auto). split; [destruct cl; exact I|]. exists new. auto.
    - destruct (main_step l) as [l1|] eqn:Hm; [|discriminate]. injection H as <- <-. unfold main_step in Hm.
      assert (RET : forall r eq, match r with RDisconnected | RRaised _ => True | _ => False end ->
         ((raised (new ++ [r]) = [] /\ eq = c_eq l0) \/ (eq = [] /\ exists n, raised (new ++ [r]) = c_eq l0 ++ repeat NotConnectedErr n)) ->
         Gone l0 (ret r (with_q (c_mq l) eq l))).
      { intros r eq K1 K2. unfold Gone. cbn [c_conn c_loop c_mq c_main c_eq c_rets ret with_q]. do 4 (split; auto).
        exists (new ++ [r]). rewrite G5, app_assoc. split; auto. split; auto. apply Forall_app. split; auto. }
      assert (SAME : with_q (c_mq l) (c_eq l) l = l) by (destruct l; auto).
      assert (CHK : forall p, (c_eq l = [] -> match p with Send1 _ | Get1 => True | _ => False end) ->
         Gone l0 (match c_eq l with e :: r => ret (RRaised e) (with_q (c_mq l) r l) | [] => with_main p l end)).
      { intros p Hp. destruct (c_eq l) as [|e r] eqn:Ee.
        - unfold Gone. cbn [c_conn c_loop c_mq c_main c_eq c_rets with_main]. rewrite Ee. do 3 (split; auto).
          split; [specialize (Hp eq_refl); destruct p; auto; contradiction|]. exists new. auto.
        - apply RET; auto. right. destruct G7 as [[R1 R2]|[R1 _]]; [|discriminate].
          assert (r = []) as -> by (rewrite <- R2 in LE; destruct r; [auto|cbn in LE; lia]).
          split; auto. exists 0%nat. rewrite raised_rets, R1, <- R2. cbn. auto. }
      assert (NC : c_eq l = [] -> Gone l0 (ret (RRaised NotConnectedErr) l)).
      { intros Ee. rewrite <- SAME. rewrite Ee. apply RET; auto. right. split; auto. rewrite raised_rets.
        destruct G7 as [[R1 R2]|[_ [n R]]].
        - rewrite R1, <- R2, Ee. exists 1%nat. auto.
        - exists (n + 1)%nat. rewrite R, repeat_app, app_assoc. auto. }
      destruct (c_main l) eqn:Em; try contradiction; try discriminate; apply some_inj in Hm; subst l1.
      + apply CHK. auto.
      + rewrite G1. apply NC. auto.
      + apply CHK. auto.
      + rewrite G1. apply NC. auto.
      + rewrite G1. rewrite <- SAME. apply RET; auto. rewrite raised_rets, app_nil_r. auto.
    - destruct (c_main l); try discriminate. destruct G4.
    - repeat match type of H with context [match ?b with _ => _ end] => destruct b end; try discriminate; injection H as <- <-; apply KEEP; auto.
    - destruct (arrive _ _); [|discriminate]. injection H as <- <-. apply KEEP; auto.
    - rewrite G2 in H. discriminate.
    - rewrite G2 in H. discriminate.
    - destruct (ch_wire _); [discriminate|]. rewrite G1, Bool.andb_false_r in H. discriminate.
    - destruct (s_open l); [|discriminate]. injection H as <- <-. apply KEEP; auto.
    - destruct (s_in l); [|discriminate]. injection H as <- <-. apply KEEP; auto.
    - repeat match type of H with context [match ?b with _ => _ end] => destruct b end; try discriminate; injection H as <- <-; apply KEEP; auto.
    - destruct (arrive _ _); [|discriminate]. injection H as <- <-. apply KEEP; auto.
    - repeat match type of H with context [match ?b with _ => _ end] => destruct b end; try discriminate; injection H as <- <-; apply KEEP; auto.
    - repeat match type of H with context [match ?b with _ => _ end] => destruct b end; try discriminate; injection H as <- <-; apply KEEP; auto.
    - destruct (ch_wire _); [discriminate|]. destruct (broken l); [|discriminate]. injection H as <- <-. apply KEEP; auto.
    - destruct (_ || _); [|discriminate]. injection H as <- <-. apply KEEP; auto.
  Qed.

  (* The connection is gone and no call is under way: from then on send_message and get_message raise,
     first what ended the connection (if that has not been raised), then NotConnectedError; and
     disconnect() returns at once.  What is left in the queue is never returned. *)
  Theorem C58_gone : pickles dumps loads -> forall xs s, nrun dumps loads xs net_init = Some s -> forall c,
    c_conn (n_link s c) = false -> c_main (n_link s c) = Idle ->
    forall ys s', nrun dumps loads ys s = Some s' ->
    exists new, c_rets (n_link s' c) = c_rets (n_link s c) ++ new /\ (forall r, In r new -> r = RDisconnected \/ exists e, r = RRaised e) /\
      (raised new = [] \/ exists n, raised new = c_eq (n_link s c) ++ repeat NotConnectedErr n) /\ (length (c_eq (n_link s c)) <= 1)%nat /\
      c_mq (n_link s' c) = c_mq (n_link s c).
  Proof.
    intros PK xs s H c Ec Em ys s' H'.
    assert (LE : (length (c_eq (n_link s c)) <= 1)%nat /\ c_loop (n_link s c) = false).
    { destruct (reach _ _ _ _ PK H c) as [[V _]|V].
      - destruct V as [_ [_ [_ [_ [E [_ [_ [_ [_ [_ X]]]]]]]]]]. split; auto. destruct X as [[X _]|[X _]]; congruence.
      - split; [apply (v_eq _ _ _ _ _ _ V)|]. destruct (v_gone _ _ _ _ _ _ V Ec) as [_ [X _]]. auto. }
    destruct LE as [LE EL].
    assert (G : Gone (n_link s c) (n_link s c)).
    { unfold Gone. rewrite Em. do 4 (split; auto). exists []. rewrite app_nil_r. split; auto. }
    assert (G' : forall ys s1 s2, nrun dumps loads ys s1 = Some s2 -> Gone (n_link s c) (n_link s1 c) -> Gone (n_link s c) (n_link s2 c)).
    { clear ys s' H'. induction ys as [|y ys IH]; intros s1 s2 R K; cbn in R; [apply some_inj in R; subst; auto|].
      destruct (nstep dumps loads y s1) as [s3|] eqn:Hs; [|discriminate]. apply (IH _ _ R). destruct y as [c0 k|]; cbn [nstep] in Hs.
      - destruct (kstep dumps loads k (n_link s1 c0)) as [[l ns]|] eqn:Hk; [|discriminate]. apply some_inj in Hs.
        match type of Hs with fold_left _ _ ?s0 = _ => destruct (tell_all c0 ns s0) as [mq [eq [rs [E _]]]] end.
        rewrite E in Hs. subst s3. cbn. unfold upd. destruct (Nat.eqb c0 c) eqn:E0; auto. apply Nat.eqb_eq in E0. subst c0. eapply gone_step; eauto.
      - apply some_inj in Hs. subst s3. destruct (n_eq s1) as [|[]]; [destruct (n_mq s1) as [|[]]|]; auto. }
    destruct (G' _ _ _ H' G) as [_ [_ [K3 [_ [new [K5 [K6 K7]]]]]]]. exists new. split; auto. split; [|split; [|auto]].
    - intros r I. rewrite Forall_forall in K6. specialize (K6 r I). destruct r; try contradiction; eauto.
    - destruct K7 as [[K _]|[_ K]]; auto.
  Qed.
End C58.
Print Assumptions C58_fine.
Print Assumptions C58_gone.
