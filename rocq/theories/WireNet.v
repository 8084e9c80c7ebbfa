(* What a connection (Net.v) does for a worker whose process runs, in the runs of Wire.v. *)
From Coq Require Import Arith Lia.
From Verif Require Import P_Tcp NetFacts P_Net.
From Verif Require Wire.
Open Scope Z_scope.
Local Notation payload := Wire.payload.

Local Ltac inj H := apply some_inj in H; apply pair_equal_spec in H; destruct H as [<- _]; cbn; auto.
Section WireNet.
  Variable dumps : nmsg payload -> option bytes.
  Variable loads : bytes -> option (nmsg payload).
  Hypothesis L : lossless dumps loads.
  Local Notation nstep := (nstep dumps loads).
  Local Notation kstep := (kstep dumps loads).
  Local Notation nrun := (nrun dumps loads).

  Lemma nstep_link c k s n : nstep (NLink c k) s = Some n -> exists l ns, kstep k (n_link s c) = Some (l, ns) /\
    n_link n c = l /\ (forall d, d <> c -> n_link n d = n_link s d) /\
    n_mq n = n_mq s ++ map (pair c) (n_puts ns) /\ n_rets n = n_rets s ++ map (SSent c) (n_sent ns).
  Proof.
    cbn [Net.nstep]. destruct (kstep k (n_link s c)) as [[l ns]|] eqn:Hk; [|discriminate]. intros H. apply some_inj in H.
    match type of H with fold_left _ _ ?s0 = _ => destruct (tell_all c ns s0) as [mq [eq [rs [E [-> [-> ->]]]]]] end.
    rewrite E in H. subst n. exists l, ns. cbn [n_link n_mq n_rets]. unfold upd. rewrite Nat.eqb_refl. repeat split; auto.
    intros d Hd. destruct (Nat.eqb_spec c d); [congruence|auto].
  Qed.

  (* the network and the IO loops do nothing in the main threads *)
  Lemma io_quiet k l l' ns : Wire.io k = true -> kstep k l = Some (l', ns) -> c_rets l' = c_rets l /\ c_main l' = c_main l /\ n_sent ns = [].
  Proof.
    destruct k as [ok|c| | |ok|n| | | |a| |ok|n| | | |]; try discriminate; intros _ H; cbn [Net.kstep] in H;
      repeat match type of H with context [match ?b with _ => _ end] => destruct b eqn:? end; try discriminate H;
      apply some_inj in H; apply pair_equal_spec in H; destruct H as [<- <-]; cbn; auto.
  Qed.
  (* nothing of that loses the connection, unless the worker is about to leave *)
  Lemma io_fine k l l' ns puts excs ss : LInv dumps loads l puts excs ss -> Wire.io k = true -> kstep k l = Some (l', ns) -> broken l = false ->
    c_main l <> DiscWait -> broken l' = false.
  Proof.
    intros V Io H B M. destruct V as [[V _]|V].
    - destruct V as [U [D [Cc [Co [Cl [Cq [So [Sl [Si [Bb E]]]]]]]]]].
      destruct k as [ok|c| | |ok|n| | | |a| |ok|n| | | |]; try discriminate Io; cbn [Net.kstep] in H; rewrite ?Cc, ?Co, ?Cl, ?So, ?Sl, ?B, ?U, ?D in H; cbn in H; try discriminate H.
      + destruct (c_main l); try discriminate. destruct (c_eq l); try discriminate. destruct ok; inj H.
      + unfold arrive in H. destruct n as [|n]; cbn in H; discriminate H.
      + unfold arrive in H. destruct n as [|n]; cbn in H; discriminate H.
    - destruct (v_fine _ _ _ _ _ _ V B) as [Co [So _]].
      destruct k as [ok|c| | |ok|n| | | |a| |ok|n| | | |]; try discriminate Io; cbn [Net.kstep] in H; rewrite ?Co, ?So, ?B in H; cbn [negb orb andb] in H; try discriminate H.
      + destruct (c_main l); try discriminate. destruct (c_conn l); try discriminate. destruct (c_eq l); try discriminate. destruct ok; inj H.
      + destruct ok; [|discriminate]. destruct (flush _ _ _); [|discriminate]. inj H.
      + destruct (arrive _ _); [|discriminate]. inj H.
      + (* KReadC *)
        destruct (c_loop l) eqn:El; [|discriminate]. destruct (advance true (dn l)) as [[h [p|]]|] eqn:Ea; [| |discriminate].
        * destruct (v_up _ _ _ _ _ _ V) as [b [O [Cu [B1 [B2 [O1 [O2 [P [O' [Cd [P1 [P2 [P3 [P4 [Q1 Q2]]]]]]]]]]]]]]].
          destruct (c_advance _ _ _ _ _ _ _ _ Cd Ea) as [m [Fm [-> Cd']]].
          assert (Lm : loads (pk dumps m) = Some m).
          { unfold fit, pk in *. destruct (dumps m) as [q|] eqn:Ed; [|discriminate]. apply L. exact Ed. }
          rewrite Lm in H. destruct m as [a| |]; try (inj H; fail).
          exfalso. assert (IP : In Ack P).
          { destruct (c_prefix _ _ _ _ _ Cd') as [r Hr]. assert (I : In Ack (filter (fit dumps) P)).
            { rewrite Hr. apply in_or_app. left. apply in_or_app. right. left. reflexivity. }
            apply filter_In in I. apply I. }
          pose proof (P2 IP) as EO. destruct (c_prefix _ _ _ _ _ Cu) as [r Hr].
          assert (IN : In Notify (map App (sents (c_rets l)) ++ bye b)).
          { assert (I : In Notify (filter (fit dumps) (map App (sents (c_rets l)) ++ bye b))).
            { rewrite Hr, EO. apply in_or_app. left. apply in_or_app. right. left. reflexivity. }
            apply filter_In in I. apply I. }
          apply in_app_or in IN. destruct IN as [IN|IN]; [apply in_map_iff in IN; destruct IN as [? [X _]]; discriminate|].
          destruct b; [|destruct IN]. destruct (B1 eq_refl) as [X|X]; [auto|]. apply (v_disc _ _ _ _ _ _ V) in X. destruct (v_gone _ _ _ _ _ _ V X) as [_ [_ [Y _]]]. congruence.
        * inj H.
      + destruct (c_loop l) eqn:El; [|discriminate]. unfold fails in H. destruct (ch_st (dn l)); discriminate.
      + destruct (ch_wire _); discriminate.
      + destruct ok; [|discriminate]. destruct (flush _ _ _); [|discriminate]. inj H.
      + destruct (arrive _ _); [|discriminate]. inj H.
      + destruct (s_loop l) eqn:El; [|discriminate]. destruct (advance _ _) as [[h [p|]]|]; [| |discriminate].
        * destruct (loads p) as [[a| |]|]; cbn in H; rewrite ?So in H; inj H.
        * inj H.
      + destruct (s_loop l) eqn:El; [|discriminate]. unfold fails in H. destruct (ch_st (up l)); discriminate.
      + destruct (ch_wire _); discriminate.
  Qed.

  (* all that was sent can be pickled in time *)
  Lemma fits_all l : (forall a, In a l -> fit dumps (App a) = true) -> fits dumps l = map App l.
  Proof.
    unfold fits. induction l as [|a l IH]; intros H; cbn; auto. rewrite (H a) by (left; auto). f_equal. apply IH. intros b Hb. apply H. right. auto.
  Qed.
  Lemma to_server xs s : nrun xs net_init = Some s -> forall c, (forall a, In a (sents (c_rets (n_link s c))) -> fit dumps (App a) = true) ->
    exists rest, map App (sents (c_rets (n_link s c))) = got_from c (n_rets s) ++ of_conn c (n_mq s) ++ rest.
  Proof. intros R c F. rewrite <- (fits_all _ F). eapply C55_to_server; eauto. apply lossless_pickles. exact L. Qed.
  Lemma to_client xs s : nrun xs net_init = Some s -> forall c, (forall a, In a (sent_to c (n_rets s)) -> fit dumps (App a) = true) ->
    exists rest, map App (sent_to c (n_rets s)) = gottens (c_rets (n_link s c)) ++ c_mq (n_link s c) ++ rest.
  Proof. intros R c F. rewrite <- (fits_all _ F). eapply C55_to_client; eauto. apply lossless_pickles. exact L. Qed.
  Lemma run_inv xs s : nrun xs net_init = Some s -> NInv dumps loads s.
  Proof. intros R. eapply reach; eauto. apply lossless_pickles. exact L. Qed.

  (* connected, and not lost: the calls of the main thread go through *)
  Lemma live_fine l puts excs ss : LInv dumps loads l puts excs ss -> broken l = false -> c_main l <> Connecting -> c_main l <> Over ->
    c_conn l = true /\ c_open l = true /\ c_eq l = [] /\ s_open l = true.
  Proof.
    intros [[V _]|V] B M1 M2.
    - destruct V as [_ [_ [_ [_ [_ [_ [_ [_ [_ [_ [[E _]|[E _]]]]]]]]]]]]; congruence.
    - destruct (v_fine _ _ _ _ _ _ V B) as [Co [So _]].
      assert (Cc : c_conn l = true) by (destruct (c_conn l) eqn:E; auto; destruct (v_gone _ _ _ _ _ _ V E) as [_ [_ [X _]]]; congruence).
      destruct (v_conn _ _ _ _ _ _ V Cc) as [E _]. auto.
  Qed.
  Lemma over_fine l puts excs ss : LInv dumps loads l puts excs ss -> c_main l = Over -> broken l = false.
  Proof. intros [[V _]|V] M; [apply V|]. destruct (v_over _ _ _ _ _ _ V M). Qed.
  Lemma no_get s n r : nstep NGet s = Some n -> n_rets n = n_rets s ++ [r] ->
    n_link n = n_link s /\ match r with
    | SGot c m => n_mq s = (c, m) :: n_mq n
    | SNone | SRaised _ _ => True
    | SSent _ _ => False
    end.
  Proof.
    cbn [Net.nstep]. intros H E. apply some_inj in H. subst n. destruct (n_eq s) as [|[c e] q]; [destruct (n_mq s) as [|[c m] q] eqn:Q|]; cbn [n_rets n_link n_mq] in *;
      apply app_inv_head in E; injection E as <-; auto.
  Qed.
End WireNet.
