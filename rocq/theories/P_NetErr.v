(* Which exceptions the server's loop can meet because of its connections (C82). *)
From Coq Require Import Lia.
From Verif Require Import SchedProps SchedExec DGFacts2 PipeRun P_SchedCE P_Sched Server SchedFacts ServerFacts P_Server P_ServerCE.
From Verif Require Import P_Tcp Net NetFacts P_Net P_NetEx.
Open Scope Z_scope.

Section C82.
  Context {A : Type} (dumps : nmsg A -> option bytes) (loads : bytes -> option (nmsg A)).

  (* why get_message may raise e for a connection *)
  Definition reason (l : link A) (e : nexn) : Prop :=
    match e with
    | StreamClosedErr | AttrErr => broken l = true
    | LoadErr => exists m, bad dumps loads m /\ (m = Notify \/ exists a, m = App a /\ In a (sents (c_rets l)))
    | NotConnectedErr | ConnErr => False
    end.

  Lemma main_grows (l l' : link A) : main_step l = Some l' -> broken l' = broken l /\ exists new, c_rets l' = c_rets l ++ new.
  Proof.
    unfold main_step, ret, with_main, with_q, with_c, with_up. intros H.
    destruct (c_main l); try discriminate;
      repeat match type of H with context [match ?x with _ => _ end] => destruct x; try discriminate H end;
      apply some_inj in H; subst l'; cbn; (split; [auto|]); try (exists []; rewrite app_nil_r; reflexivity); eexists; reflexivity.
  Qed.
  Lemma k_grows k (l l' : link A) ns : kstep dumps loads k l = Some (l', ns) ->
    (broken l = true -> broken l' = true) /\ exists new, c_rets l' = c_rets l ++ new.
  Proof.
    intros H. destruct k as [ok|cl| | |ok|n| | | |a| |ok|n| | | |]; cbn [kstep] in H.
    3: { destruct (main_step l) as [l1|] eqn:E; [|discriminate]. apply some_inj, pair_equal_spec in H. destruct H as [<- _].
         destruct (main_grows _ _ E) as [-> X]. auto. }
    all: unfold ret, with_main, with_q, with_c, with_up, with_dn, with_s, break in H.
    all: repeat match type of H with
         | context [match ?x with _ => _ end] => destruct x; try discriminate H
         end; apply some_inj, pair_equal_spec in H; destruct H as [<- _]; cbn; (split; [auto|]);
      try (exists []; rewrite app_nil_r; reflexivity); eexists; reflexivity.
  Qed.
  Lemma reason_grows k (l l' : link A) ns e : kstep dumps loads k l = Some (l', ns) -> reason l e -> reason l' e.
  Proof.
    intros H. destruct (k_grows _ _ _ _ H) as [B [new E]]. destruct e; cbn; auto.
    intros [m [Bm [->|[a [-> I]]]]]; eauto. exists (App a). split; auto. right. exists a. split; auto.
    rewrite E, sents_app. apply in_or_app. auto.
  Qed.
  Lemma exc_reason k (l l' : link A) ns puts excs ss e : LInv dumps loads l puts excs ss ->
    kstep dumps loads k l = Some (l', ns) -> In e (n_excs ns) -> reason l' e.
  Proof.
    intros V H I. assert (So : s_loop l = true -> Live dumps loads l puts excs ss).
    { intros X. destruct V as [[P _]|V]; auto. unfold Pre in P. destruct P as [_ [_ [_ [_ [_ [_ [_ [P _]]]]]]]]. congruence. }
    destruct k as [ok|cl| | |ok|n| | | |a| |ok|n| | | |]; cbn [kstep] in H.
    14: { (* KReadS *) destruct (s_loop l); [|discriminate]. specialize (So eq_refl).
      destruct (advance (s_open l) (up l)) as [[h [p|]]|] eqn:Ha; [| |discriminate].
      2: { apply some_inj, pair_equal_spec in H. destruct H as [<- <-]. destruct I. }
      destruct (v_up _ _ _ _ _ _ So) as [b [O [Cu _]]]. destruct (c_advance _ _ _ _ _ _ _ _ Cu Ha) as [m [Fm [-> Cm]]].
      destruct (c_in _ _ _ _ _ _ Cm) as [Im _].
      assert (SO : s_open l = false -> broken l = true).
      { intros X. destruct (broken l) eqn:B; auto. destruct (v_fine _ _ _ _ _ _ So B) as [_ [Y _]]. congruence. }
      destruct (loads (pk dumps m)) as [x|] eqn:Lx.
      - destruct x as [a| |]; try (apply some_inj, pair_equal_spec in H; destruct H as [<- <-]; destruct I).
        cbn [with_up s_open] in H. destruct (s_open l) eqn:Eo; apply some_inj, pair_equal_spec in H; destruct H as [<- <-]; cbn in I; [destruct I|].
        destruct I as [<-|[]]. cbn. auto.
      - apply some_inj, pair_equal_spec in H. destruct H as [<- <-]. cbn in I. destruct I as [<-|[]]. cbn. exists m. split; [split; auto|].
        apply in_app_or in Im. destruct Im as [Im|Im].
        + apply in_map_iff in Im. destruct Im as [a [<- Ia]]. eauto.
        + destruct b; [destruct Im as [<-|[]]; auto|destruct Im]. }
    14: { (* KFailS *) destruct (s_loop l); [|discriminate]. specialize (So eq_refl).
      destruct (fails (s_open l) (broken l) (up l)) as [x|] eqn:Hf; [|discriminate]. apply some_inj, pair_equal_spec in H. destruct H as [<- <-].
      cbn in I. destruct I as [<-|[]]. assert (B : broken l = true).
      { destruct (broken l) eqn:B; auto. destruct (v_fine _ _ _ _ _ _ So B) as [_ [Y _]]. rewrite Y in Hf. unfold fails in Hf. destruct (ch_st (up l)); discriminate. }
      unfold fails in Hf. rewrite B in Hf. cbn in Hf. destruct (ch_st (up l)), (s_open l); apply some_inj in Hf; subst x; cbn; auto. }
    all: exfalso; repeat match type of H with
         | context [match ?x with _ => _ end] => destruct x; try discriminate H
         end; apply some_inj, pair_equal_spec in H; destruct H as [_ <-]; destruct I.
  Qed.

  (* The server's get_message raises, for a connection, at most one exception: StreamClosedError or AttributeError if the connection
     is gone, or the exception of pickle.loads if the client sent something that can be pickled but not unpickled. *)
  Theorem C82_reasons : pickles dumps loads -> forall xs s, nrun dumps loads xs net_init = Some s -> forall c e,
    In (SRaised c e) (n_rets s) -> raised_for c (n_rets s) = [e] /\ reason (n_link s c) e.
  Proof.
    intros PK xs s H c e I.
    assert (I' : In e (raised_for c (n_rets s))).
    { unfold raised_for. apply in_flat_map. exists (SRaised c e). split; auto. rewrite Nat.eqb_refl. left. auto. }
    assert (V := reach _ _ _ _ PK H). split.
    { destruct (V c) as [[_ [_ [E _]]]|L].
      - apply app_eq_nil in E. destruct E as [E _]. rewrite E in I'. destruct I'.
      - pose proof (v_one _ _ _ _ _ _ L) as X. rewrite app_length in X. destruct (raised_for c (n_rets s)) as [|y [|z r]]; cbn in X; [destruct I'| |lia].
        destruct I' as [->|[]]. auto. }
    assert (K : forall c e, In e (raised_for c (n_rets s) ++ of_conn c (n_eq s)) -> reason (n_link s c) e).
    2:{ apply K, in_or_app. auto. }
    clear V I I' c e.
    assert (G : forall xs s s', NInv dumps loads s -> nrun dumps loads xs s = Some s' ->
      (forall c e, In e (raised_for c (n_rets s) ++ of_conn c (n_eq s)) -> reason (n_link s c) e) ->
      (forall c e, In e (raised_for c (n_rets s') ++ of_conn c (n_eq s')) -> reason (n_link s' c) e)).
    { clear xs s H. induction xs as [|x xs IH]; intros s s' V H K; cbn [nrun] in H; [apply some_inj in H; subst; auto|].
      destruct (nstep dumps loads x s) as [s1|] eqn:E; [|discriminate]. apply (IH s1 s' (nstep_inv _ _ PK _ _ _ V E) H). clear IH H.
      intros c e I. destruct x as [c0 k|]; cbn [nstep] in E.
      - destruct (kstep dumps loads k (n_link s c0)) as [[l ns]|] eqn:Hk; [|discriminate]. apply some_inj in E.
        match type of E with fold_left _ _ ?s0 = _ => destruct (tell_all c0 ns s0) as [mq [eq [rs [E' [-> [-> ->]]]]]] end.
        rewrite E' in E. subst s1. cbn [n_link n_mq n_eq n_rets] in *.
        rewrite raised_app, of_app, of_pairs, raised_sends, app_nil_r in I. unfold upd. destruct (Nat.eqb c0 c) eqn:Ec.
        + apply Nat.eqb_eq in Ec. subst c0. rewrite app_assoc in I. apply in_app_or in I. destruct I as [I|I].
          * eapply reason_grows; eauto.
          * eapply exc_reason; eauto.
        + rewrite app_nil_r in I. auto.
      - apply some_inj in E. subst s1. specialize (K c e). destruct s as [lk mq eq rs]. cbn [n_link n_mq n_eq n_rets] in *.
        destruct eq as [|[c0 e0] r]; [destruct mq as [|[c0 m] r]|]; cbn [n_link n_mq n_eq n_rets] in *;
          rewrite raised_app in I; cbn in I; rewrite ?app_nil_r in *; auto.
        rewrite <- app_assoc in I. auto. }
    apply (G xs net_init s); auto using ninit_inv. intros c e [].
  Qed.

  (* So with pickles that load the loop only meets exceptions of connections that are gone; those that are fine raise nothing. *)
  Theorem C82_lossless : lossless dumps loads -> forall xs s, nrun dumps loads xs net_init = Some s -> forall c e,
    In (SRaised c e) (n_rets s) -> broken (n_link s c) = true /\ (e = StreamClosedErr \/ e = AttrErr).
  Proof.
    intros L xs s H c e I. destruct (C82_reasons (lossless_pickles _ _ L) _ _ H _ _ I) as [_ R]. destruct e; cbn in R; auto; try contradiction.
    destruct R as [m [B _]]. destruct (lossless_bad _ _ _ L B).
  Qed.
End C82.

(* The loop catches StreamClosedError only (server.py:84-87).  A client waits for a block, is interrupted and says goodbye, and the
   connection is lost when the server's IO loop has read the first four bytes of the goodbye; then the server's answer to the client's
   request cannot be written, which sets the stream to None: reading on fails with AttributeError.  It ends the event loop, while
   another client processes a block.  Nothing is wrong with any pickle. *)
Definition run82 : list (nlabel nat) :=
  on 2 (connect ++ send 1 ++ up6) ++ on 1 (connect ++ send 1 ++ up6) ++ [NGet; NLink 2%nat (KSend 4%nat); NGet] ++
  on 1 (leave ++ [KFlushC true; KArriveS 4; KReadS; KBreak; KSend 4%nat; KFlushS false; KFailS]) ++ [NGet].
Theorem C82_race_refuted : exists d s0 fuel ins y pb b s,
  server_run_to [ce_c1] idl idl d s0 fuel no_init false ins y /\ sv_stop y = false /\
  (exists t, sv_book y = [(bid (pb_block pb), BLog pb 2 t); (bid (pb_block b), BLog b 1 t)]) /\
  lossless dump7 load7 /\ nrun dump7 load7 run82 net_init = Some s /\ broken (n_link s 2%nat) = false /\
  n_rets s = [SGot 2 (App 1); SSent 2 4; SGot 1 (App 1); SSent 1 4; SRaised 1 AttrErr]%nat /\
  map i_get (ins ++ [bad_input]) = gots (mean59 pb) (n_rets s) /\
  server_pipe [ce_c1] idl idl d fuel no_init false (ins ++ [bad_input]) s0 = Err TypeError.
Proof.
  destruct (serve_ins [ce_c1] 50 no_check [Ask 1 2; Ask 1 1]
    (fun d ins y => negb (sv_stop y) &&
       match map i_get ins with [GotMessage 2 (MAcquire 1); GotMessage 1 (MAcquire 1)] => true | _ => false end &&
       match sv_book y with
       | [(i, BLog pb 2 t); (j, BLog b 1 u)] => bid_eqb i (bid (pb_block pb)) && bid_eqb j (bid (pb_block b)) && (t =? u)
       | _ => false
       end) ce_c1_ok ce_c1_edges) as [d [s0 [ins [y [R H]]]]].
  { vm_compute. reflexivity. }
  apply andb_prop in H. destruct H as [H HB]. apply andb_prop in H. destruct H as [HS HG]. apply Bool.negb_true_iff in HS.
  destruct (sv_book y) as [|[i [pb [|[|[|?]]] t]] [|[j [b [|[|?]] u]] [|? ?]]] eqn:EB; try discriminate.
  apply andb_prop in HB. destruct HB as [HB T]. apply andb_prop in HB. destruct HB as [B1 B2].
  apply bid_eqb_eq in B1. apply bid_eqb_eq in B2. apply Z.eqb_eq in T. subst i j u.
  assert (EG : map i_get ins = [GotMessage 2 (MAcquire 1); GotMessage 1 (MAcquire 1)]).
  { destruct (map i_get ins) as [|g1 [|g2 [|]]]; try discriminate; destruct g1 as [[|[|[|?]]] [[|[|?]]| | | |]| | |]; try discriminate.
    all: destruct g2 as [[|[|?]] [[|[|?]]| | | |]| | |]; try discriminate; reflexivity. }
  destruct (nrun dump7 load7 run82 net_init) as [s|] eqn:EN; [|vm_compute in EN; discriminate].
  assert (K : match nrun dump7 load7 run82 net_init with Some s => (n_rets s, broken (n_link s 2%nat)) | None => ([], true) end =
    ([SGot 2 (App 1); SSent 2 4; SGot 1 (App 1); SSent 1 4; SRaised 1 AttrErr]%nat, false)) by (vm_compute; auto).
  rewrite EN in K. apply pair_equal_spec in K. destruct K as [K1 K2].
  exists d, s0, 50%nat, ins, y, pb, b, s. split; [exact R|]. split; [exact HS|]. split; [exists t; exact EB|]. split; [apply load7_lossless|].
  split; [reflexivity|]. split; [exact K2|]. split; [exact K1|]. split.
  - rewrite K1, map_app, EG. reflexivity.
  - assert (RR := sr_run _ _ _ _ _ _ _ _ _ _ R). unfold server_pipe in *. destruct (server_init _ _ _ _) as [x|]; [|discriminate]. cbn [bind] in *.
    rewrite (loop_app _ _ _ _ _ _ _ _ _ RR HS). reflexivity.
Qed.
(* a connection that is lost raises one StreamClosedError; a pickle that cannot be loaded its exception *)
Example C82_example :
  (exists s, nrun dump7 load7 (on 1 (connect ++ send 3 ++ up6 ++ [KBreak; KFailS]) ++ [NGet; NGet]) net_init = Some s /\
     n_rets s = [SRaised 1 StreamClosedErr; SGot 1 (App 3)]%nat) /\
  (exists s, nrun dump7 load9 (on 1 (connect ++ send 9 ++ up6) ++ [NGet]) net_init = Some s /\
     n_rets s = [SRaised 1 LoadErr]%nat /\ bad dump7 load9 (App 9%nat)).
Proof. split; (eexists; split; [vm_compute; reflexivity|]); vm_compute; auto. Qed.
Print Assumptions C82_reasons.
Print Assumptions C82_lossless.
Print Assumptions C82_race_refuted.
