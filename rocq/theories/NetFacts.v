(* Invariant of a connection (Net.v): what is in its queues and buffers. *)
From Coq Require Import Lia.
From Verif Require Import P_Tcp.
From Verif Require Export Net.
Open Scope Z_scope.

Section NetFacts.
  Context {A : Type} (dumps : nmsg A -> option bytes) (loads : bytes -> option (nmsg A)).
  (* a pickle is read as what it was, if it can be read *)
  Hypothesis faithful : forall m p x, dumps m = Some p -> loads p = Some x -> x = m.

  Definition pk (m : nmsg A) : bytes := match dumps m with Some p => p | None => [] end.
  (* the message can be sent: pickle.dumps does not raise, the size fits into four bytes (C42) *)
  Definition fit (m : nmsg A) : bool :=
    match dumps m with Some p => Z.of_nat (length p) <? 2 ^ 32 | None => false end.
  (* it can be sent, but the other end cannot read it *)
  Definition bad (m : nmsg A) : Prop := fit m = true /\ loads (pk m) = None.

  (* What the calls of a client returned. *)
  Definition sents (rs : list (cret A)) : list A :=
    flat_map (fun r => match r with RSent a => [a] | _ => [] end) rs.
  Definition gottens (rs : list (cret A)) : list (nmsg A) :=
    flat_map (fun r => match r with RGotten (Some m) => [m] | _ => [] end) rs.
  Definition isapp (m : nmsg A) : bool := match m with App _ => true | _ => false end.

  (* P: the messages given to send_message on one side, O: those read on the other *)
  Definition CInv (open : bool) (P O : list (nmsg A)) (h : chan A) : Prop :=
    exists F D R, P = F ++ D ++ ch_cbs h /\ (open = true -> D = []) /\ filter fit F = O ++ R /\
      match ch_st h with
      | RSize => ch_buf h ++ ch_wire h = enc (map pk R)
      | RGot n | RBody n => exists m R', R = m :: R' /\ n = Z.of_nat (length (pk m)) /\
          ch_buf h ++ ch_wire h = pk m ++ enc (map pk R')
      end.

  Lemma fit_small m : fit m = true -> small (pk m).
  Proof. unfold fit, pk, small. destruct (dumps m); [|discriminate]. intros H. apply Z.ltb_lt in H. auto. Qed.
  Lemma c_init b : CInv b [] [] chan_init.
  Proof. exists [], [], []. cbn. repeat split; auto. Qed.
  Lemma c_post b P O h m : CInv b P O h -> CInv b (P ++ [m]) O (post m h).
  Proof.
    intros [F [D [R [E [HD [HR HS]]]]]]. exists F, D, R. cbn. split; [rewrite E, <- !app_assoc; auto|]. auto.
  Qed.
  Lemma c_close b P O h : CInv b P O h -> CInv false P O h.
  Proof. intros [F [D [R [E [HD [HR HS]]]]]]. exists F, D, R. repeat split; auto. discriminate. Qed.
  Lemma c_flush P O h h' : CInv true P O h -> flush dumps true h = Some h' -> CInv true P O h'.
  Proof.
    intros [F [D [R [E [HD [HR HS]]]]]] H. specialize (HD eq_refl). subst D. cbn [app] in E.
    unfold flush in H. destruct (ch_cbs h) as [|m r] eqn:Ec; [discriminate|]. apply some_inj in H. subst h'. cbn [ch_cbs ch_wire ch_st ch_buf].
    exists (F ++ [m]), [], (if fit m then R ++ [m] else R). cbn [ch_cbs ch_wire ch_st ch_buf app].
    split; [rewrite E, <- app_assoc; auto|]. split; auto.
    assert (K : match dumps m with Some p => write (ch_wire h) p | None => ch_wire h end =
                ch_wire h ++ if fit m then hdr (pk m) ++ pk m else []).
    { unfold fit, pk, write. destruct (dumps m) as [p|]; [|rewrite app_nil_r; auto].
      destruct (_ <? _) eqn:L.
      - rewrite frame_small; auto. apply Z.ltb_lt in L. exact L.
      - apply Z.ltb_ge in L. destruct (C42_limit_partial p) as [_ H]. destruct H as [_ H]; [lia|].
        specialize (H (ch_wire h)). unfold write in H. rewrite H, app_nil_r. auto. }
    rewrite K. split.
    - rewrite filter_app, HR. cbn [filter]. destruct (fit m); [rewrite app_assoc; auto|rewrite !app_nil_r; auto].
    - destruct (fit m); [|rewrite !app_nil_r; auto].
      assert (EE : forall l, enc (map pk (l ++ [m])) = enc (map pk l) ++ hdr (pk m) ++ pk m).
      { intros l. rewrite map_app, enc_app. unfold enc at 2. cbn. rewrite app_nil_r. auto. }
      destruct (ch_st h).
      + rewrite app_assoc, HS, EE. auto.
      + destruct HS as [m0 [R' [-> [-> HS]]]]. exists m0, (R' ++ [m]). split; auto. split; auto.
        rewrite app_assoc, HS, EE, !app_assoc. auto.
      + destruct HS as [m0 [R' [-> [-> HS]]]]. exists m0, (R' ++ [m]). split; auto. split; auto.
        rewrite app_assoc, HS, EE, !app_assoc. auto.
  Qed.
  Lemma c_drop b P O h h' : CInv b P O h -> flush dumps false h = Some h' -> CInv false P O h'.
  Proof.
    intros [F [D [R [E [HD [HR HS]]]]]] H.
    unfold flush in H. destruct (ch_cbs h) as [|m r] eqn:Ec; [discriminate|]. apply some_inj in H. subst h'. cbn [ch_cbs ch_wire ch_st ch_buf].
    exists F, (D ++ [m]), R. cbn. split; [rewrite E, <- !app_assoc; auto|]. repeat split; auto. discriminate.
  Qed.
  Lemma c_arrive b P O h h' n : CInv b P O h -> arrive n h = Some h' -> CInv b P O h'.
  Proof.
    intros [F [D [R [E [HD [HR HS]]]]]] H. unfold arrive in H. destruct (_ && _); [|discriminate].
    apply some_inj in H. subst h'. exists F, D, R. cbn. repeat split; auto.
    assert (K : (ch_buf h ++ firstn n (ch_wire h)) ++ skipn n (ch_wire h) = ch_buf h ++ ch_wire h)
      by (rewrite <- app_assoc, firstn_skipn; auto).
    rewrite K. auto.
  Qed.
  Lemma c_advance b ro P O h h' r : CInv b P O h -> advance ro h = Some (h', r) ->
    match r with
    | None => CInv b P O h'
    | Some p => exists m, fit m = true /\ p = pk m /\ CInv b P (O ++ [m]) h'
    end.
  Proof.
    intros [F [D [R [E [HD [HR HS]]]]]] H. unfold advance in H. destruct (ch_st h) as [|n|n] eqn:Es.
    - destruct (4 <=? _)%nat eqn:L; [|discriminate]. apply some_inj in H. apply pair_equal_spec in H; destruct H as [<- <-]. apply Nat.leb_le in L.
      destruct R as [|m R'].
      { cbn in HS. apply app_eq_nil in HS. destruct HS as [HS _]. rewrite HS in L. cbn in L. lia. }
      cbn [map] in HS. rewrite enc_cons in HS.
      destruct (split_app _ _ _ _ HS) as [x [Ex Ey]]; [rewrite hdr_length; auto|].
      assert (FM : fit m = true).
      { assert (I : In m (filter fit F)) by (rewrite HR; apply in_or_app; right; left; auto). apply filter_In in I. tauto. }
      exists F, D, (m :: R'). cbn [ch_cbs ch_st ch_buf ch_wire]. repeat split; auto. exists m, R'. split; auto.
      rewrite Ex, firstn_all_app, skipn_all_app by apply hdr_length. rewrite hdr_size by (apply fit_small; auto). auto.
    - destruct ro; [|discriminate]. apply some_inj in H. apply pair_equal_spec in H; destruct H as [<- <-]. exists F, D, R. cbn. repeat split; auto.
    - destruct (n <=? _) eqn:L; [|discriminate]. apply some_inj in H. apply pair_equal_spec in H; destruct H as [<- <-]. apply Z.leb_le in L.
      destruct HS as [m [R' [-> [-> HS]]]]. rewrite Nat2Z.id.
      destruct (split_app _ _ _ _ HS) as [x [Ex Ey]]; [lia|].
      assert (FM : fit m = true).
      { assert (I : In m (filter fit F)) by (rewrite HR; apply in_or_app; right; left; auto). apply filter_In in I. tauto. }
      exists m. rewrite Ex, firstn_all_app, skipn_all_app by auto. split; auto. split; auto.
      exists F, D, R'. cbn [ch_cbs ch_st ch_buf ch_wire]. rewrite <- app_assoc. repeat split; auto.
  Qed.
  (* nothing can move in this direction: everything was read *)
  Lemma c_quiet P O h : CInv true P O h -> flush dumps true h = None ->
    (forall n, arrive n h = None) -> advance true h = None -> filter fit P = O.
  Proof.
    intros [F [D [R [E [HD [HR HS]]]]]] H1 H2 H3. rewrite HD in E by auto. cbn in E. clear HD.
    unfold flush in H1. destruct (ch_cbs h); [|discriminate]. rewrite app_nil_r in E. subst F.
    assert (W : ch_wire h = []).
    { destruct (ch_wire h) as [|x w] eqn:Ew; auto. specialize (H2 1%nat). unfold arrive in H2. rewrite Ew in H2. cbn in H2. discriminate. }
    rewrite W, app_nil_r in HS. unfold advance in H3. destruct (ch_st h).
    - destruct (4 <=? _)%nat eqn:L; [discriminate|]. apply Nat.leb_gt in L. destruct R as [|m R']; [rewrite app_nil_r in HR; auto|].
      cbn [map] in HS. rewrite enc_cons in HS. rewrite HS, app_length, hdr_length in L. lia.
    - discriminate.
    - destruct HS as [m [R' [-> [-> HS]]]]. destruct (_ <=? _) eqn:L; [discriminate|]. apply Z.leb_gt in L.
      rewrite HS, app_length in L. lia.
  Qed.

  Definition bye (b : bool) : list (nmsg A) := if b then [Notify] else [].

  (* before the connection is made *)
  Definition Pre (l : link A) : Prop :=
    up l = chan_init /\ dn l = chan_init /\ c_conn l = false /\ c_open l = false /\ c_loop l = false /\ c_mq l = [] /\
    s_open l = false /\ s_loop l = false /\ s_in l = false /\ broken l = false /\
    ((c_main l = Connecting /\ c_rets l = [] /\ (c_eq l = [] \/ c_eq l = [ConnErr])) \/
     (c_main l = Over /\ c_rets l = [RRaised ConnErr] /\ c_eq l = [])).

  (* [puts]: the messages of this connection put into the server's queue so far; [excs]: the
     exceptions; [ss]: the messages the server sent *)
  Record Live (l : link A) (puts : list (nmsg A)) (excs : list nexn) (ss : list A) : Prop := {
    v_over : c_main l <> Over;
    v_conn : c_conn l = true -> c_eq l = [] /\ (c_loop l = true \/ c_main l = Connecting);
    v_gone : c_conn l = false -> c_open l = false /\ c_loop l = false /\ broken l = true /\ c_main l <> Connecting;
    v_new : c_main l = Connecting -> c_loop l = false /\ c_rets l = [] /\ c_mq l = [];
    v_fine : broken l = false -> c_open l = true /\ s_open l = true /\ (excs = [] \/ exists m, bad m) /\
             forall e, ~ In (RRaised e) (c_rets l);
    v_sin : s_in l = s_loop l;
    v_run : s_loop l = true -> excs = [];
    v_one : (length excs <= 1)%nat;
    v_eq : (length (c_eq l) <= 1)%nat;
    v_disc : In RDisconnected (c_rets l) -> c_conn l = false;
    v_apps : forall m, In m puts -> isapp m = true;
    v_got : forall m, In m (gottens (c_rets l) ++ c_mq l) -> isapp m = true;
    v_up : exists b O, CInv (c_open l) (map App (sents (c_rets l)) ++ bye b) O (up l) /\
           (b = true -> c_main l = DiscWait \/ In RDisconnected (c_rets l)) /\ (c_main l = DiscWait -> b = true) /\
           (s_loop l = true -> O = puts) /\
           (s_loop l = false -> (excs <> [] /\ O = puts) \/ (excs <> [] /\ O = puts ++ [Notify]) \/
              (excs <> [] /\ exists m, bad m /\ O = puts ++ [m]) \/ (excs = [] /\ O = puts ++ [Notify])) /\
           exists P O', CInv (s_open l) P O' (dn l) /\ filter isapp P = map App ss /\
             (In Ack P -> O = puts ++ [Notify]) /\ ~ In Notify P /\
             (s_loop l = false -> excs = [] -> In Ack P) /\
             (c_conn l = true -> O' = gottens (c_rets l) ++ c_mq l) /\
             (c_conn l = false -> (O' = gottens (c_rets l) ++ c_mq l \/
                (exists m, bad m /\ O' = gottens (c_rets l) ++ c_mq l ++ [m])) /\ (c_eq l <> [] \/ exists e, In (RRaised e) (c_rets l))
                \/ O' = gottens (c_rets l) ++ c_mq l ++ [Ack])
  }.
  Definition LInv (l : link A) puts excs ss : Prop :=
    (Pre l /\ puts = [] /\ excs = [] /\ ss = []) \/ Live l puts excs ss.

  (* the notes of a step, by kind *)
  Definition n_puts (ns : list (note A)) : list (nmsg A) := flat_map (fun x => match x with Put m => [m] | _ => [] end) ns.
  Definition n_excs (ns : list (note A)) : list nexn := flat_map (fun x => match x with Exc e => [e] | _ => [] end) ns.
  Definition n_sent (ns : list (note A)) : list A := flat_map (fun x => match x with Sent a => [a] | _ => [] end) ns.

  Lemma init_inv : LInv link_init [] [] [].
  Proof. left. unfold Pre. cbn. tauto. Qed.

  Lemma sents_app a b : sents (a ++ b) = sents a ++ sents b.
  Proof. apply flat_map_app. Qed.
  Lemma gottens_app a b : gottens (a ++ b) = gottens a ++ gottens b.
  Proof. apply flat_map_app. Qed.

  Ltac fields := cbn [up dn c_conn c_open c_loop c_mq c_eq c_main c_rets s_open s_loop s_in broken
    with_up with_dn with_main ret with_c with_q with_s break n_puts n_excs n_sent flat_map app] in *;
    rewrite ?app_nil_r in *.

  (* steps of the client's main thread other than connect *)
  Lemma main_inv l l' puts excs ss : Live l puts excs ss -> main_step l = Some l' -> Live l' puts excs ss.
  Proof.
    intros V H. destruct V as [V1 V2 V3 V4 V5 V6 V7 V8 V9 V10 V11 V12 V13].
    destruct V13 as [b [O [Cu [B1 [B2 [O1 [O2 [P [O' [Cd [P1 [P2 [P3 [P4 [Q1 Q2]]]]]]]]]]]]]]].
    (* a call ends with an exception after the connection was lost *)
    assert (RR : forall e q, (c_conn l = false \/ c_open l = false) -> c_main l <> Connecting -> c_main l <> DiscWait ->
      (length q <= 1)%nat -> (c_conn l = true -> q = []) ->
      Live (ret (RRaised e) (with_q (c_mq l) q l)) puts excs ss).
    { intros e q NB M1 M2 LQ CQ.
      assert (BB : broken l = true).
      { destruct (broken l) eqn:Eb; auto. destruct (V5 eq_refl) as [X _]. destruct NB as [NB|NB]; [|congruence].
        destruct (V3 NB) as [_ [_ [X' _]]]. congruence. }
      constructor; fields; try rewrite sents_app; try rewrite gottens_app; cbn [sents gottens flat_map] in *; rewrite ?app_nil_r; auto.
      - discriminate.
      - intros C. split; auto. destruct (V2 C) as [_ [X|X]]; auto; congruence.
      - intros C. destruct (V3 C) as [? [? [? ?]]]. repeat split; auto. discriminate.
      - discriminate.
      - congruence.
      - intros I. apply in_app_or in I. destruct I as [I|[I|[]]]; [auto|discriminate].
      - exists b, O. split; auto. split; [intros Hb; destruct (B1 Hb); [contradiction|right; apply in_or_app; auto]|]. split; [discriminate|].
        do 2 (split; [auto|]). exists P, O'. do 6 (split; [auto|]).
        intros C. destruct (Q2 C) as [[X Y]|X]; auto. left. split; auto. right. exists e. apply in_or_app. right. left. auto. }
    assert (EQ : forall l0 : link A, with_q (c_mq l0) (c_eq l0) l0 = l0) by (intros []; reflexivity).
    (* the call goes on *)
    assert (GO : forall p, c_main l <> Connecting -> c_main l <> DiscWait -> p <> Over -> p <> Connecting -> p <> DiscWait ->
      Live (with_main p l) puts excs ss).
    { intros p M1 M2 N1 N2 N3. constructor; fields; auto.
      - intros C. destruct (V2 C) as [X [Y|Y]]; [auto|congruence].
      - intros C. destruct (V3 C) as [? [? [? ?]]]. auto.
      - congruence.
      - exists b, O. split; auto. split; [intros Hb; destruct (B1 Hb); [contradiction|auto]|]. split; [congruence|].
        do 2 (split; [auto|]). exists P, O'. auto 10. }
    assert (BE : c_conn l = true -> c_eq l = []) by (intros C; apply V2, C).
    (* a call ends without an exception: the fields that do not depend on it *)
    assert (RT : forall r lp, (c_conn l = true -> lp = true) -> (c_conn l = false -> lp = false) -> (r = RDisconnected -> c_conn l = false) ->
      (forall e, r <> RRaised e) -> (forall m, r <> RGotten (Some m)) -> (forall a, r <> RSent a) ->
      (c_main l = DiscWait -> r = RDisconnected) ->
      Live (ret r (with_c (c_conn l) (c_open l) lp l)) puts excs ss).
    { intros r lp N1 N2 N3 N4 N5 N6 N7.
      assert (S1 : sents (c_rets l ++ [r]) = sents (c_rets l)).
      { rewrite sents_app. destruct r; cbn; rewrite ?app_nil_r; auto. exfalso. eapply N6; eauto. }
      assert (S2 : gottens (c_rets l ++ [r]) = gottens (c_rets l)).
      { rewrite gottens_app. destruct r as [| |[]| |]; cbn; rewrite ?app_nil_r; auto. exfalso. eapply N5; eauto. }
      constructor; fields; rewrite ?S1, ?S2.
      - discriminate.
      - intros C. auto.
      - intros C. destruct (V3 C) as [? [? [? ?]]]. repeat split; auto. discriminate.
      - discriminate.
      - intros Hb. destruct (V5 Hb) as [? [? [? N]]]. repeat split; auto. intros e I. apply in_app_or in I.
        destruct I as [I|[I|[]]]; [eapply N; eauto|eapply N4; eauto].
      - auto.
      - auto.
      - auto.
      - auto.
      - intros I. apply in_app_or in I. destruct I as [I|[I|[]]]; auto.
      - auto.
      - auto.
      - exists b, O. split; [auto|]. split; [intros Hb; right; apply in_or_app; destruct (B1 Hb) as [X|X]; [right; left; auto|auto]|]. split; [discriminate|].
        do 2 (split; [auto|]). exists P, O'. do 6 (split; [auto|]).
        intros C. destruct (Q2 C) as [[X [Y|[e Y]]]|X]; auto. left. split; auto. right. exists e. apply in_or_app. auto. }
    assert (EC : forall (l0 : link A) x, c_loop l0 = x -> with_c (c_conn l0) (c_open l0) x l0 = l0) by (intros [] x <-; reflexivity).
    assert (VL : c_main l <> Connecting -> c_conn l = true -> c_loop l = true).
    { intros M C. destruct (V2 C) as [_ [X|X]]; [auto|contradiction]. }
    unfold main_step in H. destruct (c_main l) eqn:Em; try discriminate H.
    - (* Connecting *)
      destruct (c_conn l) eqn:Ec.
      + apply some_inj in H. subst l'. apply RT; auto; congruence.
      + destruct (V3 eq_refl) as [_ [_ [_ X]]]. congruence.
    - (* Send0 *) destruct (c_eq l) as [|e r] eqn:Eq; apply some_inj in H; subst l'.
      + apply GO; congruence.
      + cbn [length] in V9. apply RR; try congruence; try lia.
        * left. destruct (c_conn l); auto. discriminate (BE eq_refl).
        * intros C. discriminate (BE C).
    - (* Send1 *) destruct (c_conn l) eqn:Ec; apply some_inj in H; subst l'; [apply GO; congruence|].
      rewrite <- (EQ l). apply RR; try congruence; auto.
    - (* Send2 *) destruct (c_conn l) eqn:Ec; [destruct (c_open l) eqn:Eo|]; apply some_inj in H; subst l'.
      + assert (Hb : b = false) by (destruct b; auto; destruct (B1 eq_refl) as [X|X]; [congruence|apply V10 in X; congruence]). subst b.
        constructor; fields; rewrite ?sents_app, ?gottens_app; cbn [sents gottens flat_map bye] in *; rewrite ?Ec, ?Eo, ?map_app, ?app_nil_r in *.
        * discriminate.
        * intros _. split; [apply V2; auto|]. left. apply VL; congruence.
        * discriminate.
        * discriminate.
        * intros Hb. destruct (V5 Hb) as [? [? [? N]]]. repeat split; auto. intros e I. apply in_app_or in I. destruct I as [I|[I|[]]]; [eapply N; eauto|discriminate].
        * auto.
        * auto.
        * auto.
        * auto.
        * intros I. apply in_app_or in I. destruct I as [I|[I|[]]]; [auto|discriminate].
        * auto.
        * auto.
        * exists false, O. cbn [bye]. rewrite app_nil_r. split; [apply c_post; auto|].
          do 2 (split; [discriminate|]). do 2 (split; [auto|]). exists P, O'. do 6 (split; [auto|]). discriminate.
      + rewrite <- (EQ l). apply RR; try congruence; auto.
      + rewrite <- (EQ l). apply RR; try congruence; auto.
    - (* Get0 *) destruct (c_eq l) as [|e r] eqn:Eq; apply some_inj in H; subst l'.
      + apply GO; congruence.
      + cbn [length] in V9. apply RR; try congruence; try lia.
        * left. destruct (c_conn l); auto. discriminate (BE eq_refl).
        * intros C. discriminate (BE C).
    - (* Get1 *) destruct (c_conn l) eqn:Ec; apply some_inj in H; subst l'; [apply GO; congruence|].
      rewrite <- (EQ l). apply RR; try congruence; auto.
    - (* Get2 *) destruct (c_mq l) as [|m q] eqn:Eq; [discriminate|]. apply some_inj in H. subst l'.
      assert (K2 : forall z, gottens (c_rets l ++ [RGotten (Some m)]) ++ q ++ z = gottens (c_rets l) ++ (m :: q) ++ z)
        by (intros z; rewrite gottens_app; cbn; rewrite <- app_assoc; auto).
      assert (K : gottens (c_rets l ++ [RGotten (Some m)]) ++ q = gottens (c_rets l) ++ m :: q)
        by (rewrite <- (app_nil_r q), K2, !app_nil_r; auto).
      constructor; fields; rewrite ?sents_app, ?K; cbn [sents flat_map]; rewrite ?app_nil_r.
      + discriminate.
      + intros C. split; [auto|]. left. apply VL; congruence.
      + intros C. destruct (V3 C) as [? [? [? ?]]]. repeat split; auto. discriminate.
      + discriminate.
      + intros Hb. destruct (V5 Hb) as [? [? [? N]]]. repeat split; auto. intros e I. apply in_app_or in I. destruct I as [I|[I|[]]]; [eapply N; eauto|discriminate].
      + auto.
      + auto.
      + auto.
      + auto.
      + intros I. apply in_app_or in I. destruct I as [I|[I|[]]]; [auto|discriminate].
      + auto.
      + auto.
      + exists b, O. split; [auto|]. split; [intros Hb; destruct (B1 Hb); [discriminate|right; rewrite ?in_app_iff; auto]|]. split; [discriminate|].
        do 2 (split; [auto|]). exists P, O'. do 6 (split; [auto|]).
        intros C. destruct (Q2 C) as [[X Y]|X].
        * left. split; [|destruct Y as [Y|[e Y]]; auto; right; exists e; apply in_or_app; auto].
          destruct X as [X|[m0 [X0 X]]]; auto. right. exists m0. split; auto. rewrite K2. auto.
        * right. rewrite K2. auto.
    - (* Disc0 *) destruct (c_conn l) eqn:Ec; apply some_inj in H; subst l'; [apply GO; congruence|].
      destruct (V3 eq_refl) as [X1 [X2 [X3 X4]]].
      rewrite <- (EC l false), Ec by auto. apply RT; auto; congruence.
    - (* Disc1 *) destruct (c_conn l) eqn:Ec; [destruct (c_open l) eqn:Eo|]; apply some_inj in H; subst l'.
      + assert (Hb : b = false) by (destruct b; auto; destruct (B1 eq_refl) as [X|X]; [congruence|apply V10 in X; congruence]). subst b.
        constructor; fields; cbn [bye] in *; rewrite ?Ec, ?Eo, ?app_nil_r in *.
        * discriminate.
        * intros _. split; [apply V2; auto|]. left. apply VL; congruence.
        * discriminate.
        * discriminate.
        * auto.
        * auto.
        * auto.
        * auto.
        * auto.
        * auto.
        * auto.
        * auto.
        * exists true, O. cbn [bye]. split; [apply c_post; auto|].
          do 2 (split; [auto|]). do 2 (split; [auto|]). exists P, O'. do 6 (split; [auto|]). discriminate.
      + rewrite <- (EQ l). apply RR; try congruence; auto.
      + rewrite <- (EQ l). apply RR; try congruence; auto.
    - (* DiscWait *) destruct (c_conn l) eqn:Ec; [discriminate|]. apply some_inj in H; subst l'.
      destruct (V3 eq_refl) as [X1 [X2 [X3 X4]]].
      rewrite <- (EC l false), Ec by auto. apply RT; auto; congruence.
  Qed.

  Lemma apps d : filter isapp (map App d) = map App d.
  Proof. induction d; cbn; congruence. Qed.

  (* steps that only move messages and close streams *)
  Lemma live_move l l' puts excs ss d : Live l puts excs ss ->
    c_conn l' = c_conn l -> c_loop l' = c_loop l -> c_mq l' = c_mq l -> c_eq l' = c_eq l -> c_main l' = c_main l ->
    c_rets l' = c_rets l -> s_loop l' = s_loop l -> s_in l' = s_in l -> (broken l = true -> broken l' = true) ->
    (broken l' = false -> c_open l' = true /\ s_open l' = true) -> (c_open l = false -> c_open l' = false) ->
    (forall P O, CInv (c_open l) P O (up l) -> CInv (c_open l') P O (up l')) ->
    (forall P O, CInv (s_open l) P O (dn l) -> CInv (s_open l') (P ++ map App d) O (dn l')) ->
    Live l' puts excs (ss ++ d).
  Proof.
    intros V E1 E2 E3 E4 E5 E6 E7 E8 Hb Ho Hc Hu Hd. destruct V as [V1 V2 V3 V4 V5 V6 V7 V8 V9 V10 V11 V12 V13].
    destruct V13 as [b [O [Cu [B1 [B2 [O1 [O2 [P [O' [Cd [P1 [P2 [P3 [P4 [Q1 Q2]]]]]]]]]]]]]]].
    constructor; rewrite ?E1, ?E2, ?E3, ?E4, ?E5, ?E6, ?E7, ?E8; auto.
    - intros C. destruct (V3 C) as [? [? [? ?]]]. auto.
    - intros B. assert (B0 : broken l = false) by (destruct (broken l); auto; rewrite Hb in B; auto; discriminate).
      destruct (V5 B0) as [? [? [? ?]]]. destruct (Ho B). auto.
    - exists b, O. split; [auto|]. do 4 (split; [auto|]). exists (P ++ map App d), O'. split; [auto|].
      split; [rewrite filter_app, P1, map_app, apps; auto|].
      assert (ND : forall m, In m (P ++ map App d) -> isapp m = false -> In m P).
      { intros m I N. apply in_app_or in I. destruct I as [I|I]; auto. apply in_map_iff in I. destruct I as [a [<- _]]. discriminate. }
      split; [intros I; apply P2, ND; auto|]. split; [intros I; apply P3, ND; auto|].
      split; [intros X Y; apply in_or_app; auto|]. auto.
  Qed.

  Lemma c_in b P O h m : CInv b P (O ++ [m]) h -> In m P /\ fit m = true.
  Proof.
    intros [F [D [R [E [_ [H _]]]]]]. assert (I : In m (filter fit F)) by (rewrite H; apply in_or_app; left; apply in_or_app; right; left; auto).
    apply filter_In in I. split; [|tauto]. rewrite E. apply in_or_app. tauto.
  Qed.
  Lemma load_eq m x : fit m = true -> loads (pk m) = Some x -> x = m.
  Proof. unfold fit, pk. destruct (dumps m) as [p|] eqn:E; [|discriminate]. intros _ H. eapply faithful; eauto. Qed.

  Lemma step_inv k l l' ns puts excs ss : LInv l puts excs ss -> kstep dumps loads k l = Some (l', ns) ->
    LInv l' (puts ++ n_puts ns) (excs ++ n_excs ns) (ss ++ n_sent ns).
  Proof.
    intros [[V [-> [-> ->]]]|V] H.
    - (* before the connection *)
      destruct V as [X1 [X2 [X3 [X4 [X5 [X6 [X7 [X8 [X9 [X10 X11]]]]]]]]]].
      destruct l as [up0 dn0 cc co cl mq eq mn rs so sl si br]. fields. subst.
      destruct k as [ok|[a| |]| | |ok|n| | | |a| |ok|n| | | |]; cbn in H.
      + destruct X11 as [[-> [-> [->| ->]]]|[-> [-> ->]]]; try discriminate. destruct ok; apply some_inj in H; injection H as <- <-; fields.
        * right. constructor; cbn; auto; try discriminate; try (intros; exfalso; tauto).
          exists false, []. cbn. split; [apply c_init|]. split; [discriminate|]. split; [discriminate|]. split; [auto|]. split; [discriminate|].
          exists [], []. split; [apply c_init|]. cbn. split; auto. split; [tauto|]. split; [tauto|]. split; [discriminate|]. split; [auto|discriminate].
        * left. split; auto. unfold Pre. fields. intuition.
      + destruct X11 as [[-> _]|[-> _]]; discriminate.
      + destruct X11 as [[-> _]|[-> _]]; discriminate.
      + destruct X11 as [[-> _]|[-> _]]; discriminate.
      + destruct X11 as [[-> [-> [->| ->]]]|[-> [-> ->]]]; cbn in H; try discriminate. injection H as <- <-. left. split; auto. unfold Pre. fields. intuition.
      + destruct X11 as [[-> _]|[-> _]]; discriminate.
      + discriminate.
      + unfold arrive in H. cbn in H. destruct n; discriminate.
      + discriminate.
      + discriminate.
      + discriminate.
      + discriminate.
      + discriminate.
      + discriminate.
      + unfold arrive in H. cbn in H. destruct n; discriminate.
      + discriminate.
      + discriminate.
      + discriminate.
      + discriminate.
    - right.
      assert (V0 := V). destruct V0 as [V1 V2 V3 V4 V5 V6 V7 V8 V9 V10 V11 V12 V13].
      destruct V13 as [b [O [Cu [B1 [B2 [O1 [O2 [P [O' [Cd [P1 [P2 [P3 [P4 [Q1 Q2]]]]]]]]]]]]]]].
      assert (NO : forall b0 P0 O0 h0, CInv b0 P0 O0 h0 -> CInv b0 (P0 ++ map App (@nil A)) O0 h0) by (intros; cbn; rewrite app_nil_r; auto).
      assert (BO : broken l = false -> c_open l = true /\ s_open l = true) by (intros B; destruct (V5 B) as [? [? _]]; auto).
      destruct k as [ok|cl| | |ok|n| | | |a| |ok|n| | | |]; cbn [kstep] in H.
      + (* KConn *) destruct (c_main l) eqn:Em; try discriminate. destruct (c_conn l) eqn:Ec; [discriminate|].
        destruct (V3 eq_refl) as [_ [_ [_ X]]]. congruence.
      + (* KCall *) destruct (c_main l) eqn:Em; try discriminate. apply some_inj in H. apply pair_equal_spec in H. destruct H as [<- <-]. fields.
        constructor; fields; auto.
        * destruct cl; discriminate.
        * intros C. destruct (V2 C) as [? [?|?]]; [auto|discriminate].
        * intros C. destruct (V3 C) as [? [? [? ?]]]. repeat split; auto. destruct cl; discriminate.
        * destruct cl; discriminate.
        * exists b, O. split; [auto|]. split; [intros Hb; destruct (B1 Hb); [discriminate|right; rewrite ?in_app_iff; auto]|].
          split; [destruct cl; discriminate|]. do 2 (split; [auto|]). exists P, O'. auto 10.
      + (* KMain *) destruct (main_step l) as [l0|] eqn:Hm; [|discriminate]. apply some_inj in H. injection H as <- <-. fields.
        eapply main_inv; eauto.
      + (* KTimeout *) destruct (c_main l) eqn:Em; try discriminate. destruct (c_mq l) eqn:Eq; [|discriminate]. apply some_inj in H. apply pair_equal_spec in H. destruct H as [<- <-]. fields.
        constructor; fields; rewrite ?sents_app, ?gottens_app; cbn [sents gottens flat_map]; rewrite ?app_nil_r; auto; try discriminate.
        * intros C. destruct (V2 C) as [? [?|?]]; [auto|discriminate].
        * intros C. destruct (V3 C) as [? [? [? ?]]]. repeat split; auto. discriminate.
        * intros Hb. destruct (V5 Hb) as [? [? [? N]]]. repeat split; auto. intros e I. apply in_app_or in I. destruct I as [I|[I|[]]]; [eapply N; eauto|discriminate].
        * intros I. apply in_app_or in I. destruct I as [I|[I|[]]]; [auto|discriminate].
        * rewrite Eq. cbn. rewrite app_nil_r. auto.
        * exists b, O. rewrite Eq. rewrite ?app_nil_r. split; [auto|]. split; [intros Hb; destruct (B1 Hb); [discriminate|right; rewrite ?in_app_iff; auto]|]. split; [discriminate|].
          do 2 (split; [auto|]). exists P, O'. do 6 (split; [auto|]).
          intros C. destruct (Q2 C) as [[X [Y|[e Y]]]|X]; auto. left. split; auto. right. exists e. apply in_or_app. auto.
      + (* KFlushC *) destruct (c_open l) eqn:Eo; cbn [negb] in H; [destruct ok|].
        * destruct (flush dumps true (up l)) as [h|] eqn:Hf; [|discriminate]. apply some_inj in H. apply pair_equal_spec in H. destruct H as [<- <-]. fields.
          rewrite <- (app_nil_r ss). apply (live_move l); fields; rewrite ?Eo; auto.
          intros. eapply c_flush; eauto.
        * destruct (broken l) eqn:Eb; [|discriminate]. destruct (flush dumps false (up l)) as [h|] eqn:Hf; [|discriminate]. apply some_inj in H. apply pair_equal_spec in H. destruct H as [<- <-]. fields.
          rewrite <- (app_nil_r ss). apply (live_move l); fields; rewrite ?Eo, ?Eb; auto; try congruence.
          intros. eapply c_drop; eauto.
        * destruct (flush dumps false (up l)) as [h|] eqn:Hf; [|discriminate]. apply some_inj in H. apply pair_equal_spec in H. destruct H as [<- <-]. fields.
          rewrite <- (app_nil_r ss). apply (live_move l); fields; rewrite ?Eo; auto.
          intros. eapply c_drop; eauto.
      + (* KArriveC *) destruct (arrive n (dn l)) as [h|] eqn:Ha; [|discriminate]. apply some_inj in H. apply pair_equal_spec in H. destruct H as [<- <-]. fields.
        rewrite <- (app_nil_r ss). apply (live_move l); fields; auto. intros. apply NO. eapply c_arrive; eauto.
      + (* KReadC *) destruct (c_loop l) eqn:El; [|discriminate].
        assert (Ec : c_conn l = true) by (destruct (c_conn l); auto; destruct (V3 eq_refl) as [_ [? _]]; congruence).
        assert (NC : c_main l <> Connecting) by (intros C; destruct (V4 C); congruence).
        destruct (advance (c_open l) (dn l)) as [[h [p|]]|] eqn:Ha; [| |discriminate].
        2:{ apply some_inj in H. apply pair_equal_spec in H. destruct H as [<- <-]. fields. rewrite <- (app_nil_r ss). apply (live_move l); fields; auto.
            intros P0 O0 C0. apply NO. exact (c_advance _ _ _ _ _ _ _ C0 Ha). }
        destruct (c_advance _ _ _ _ _ _ _ Cd Ha) as [m [Fm [-> Cm]]]. destruct (c_in _ _ _ _ _ Cm) as [Im _].
        assert (NE : c_eq l = []) by (apply V2; auto).
        destruct (loads (pk m)) as [x|] eqn:Lx.
        * assert (x = m) by (eapply load_eq; eauto). subst x. destruct m as [a| |].
          -- apply some_inj in H. apply pair_equal_spec in H. destruct H as [<- <-]. fields.
             constructor; fields; auto; try congruence.
             ++ intros m. rewrite app_assoc. intros I. apply in_app_or in I. destruct I as [I|[<-|[]]]; auto.
             ++ exists b, O. do 5 (split; [auto|]). exists P, (O' ++ [App a]). do 5 (split; [auto|]).
                split; [intros _; rewrite (Q1 Ec), app_assoc; auto|]. congruence.
          -- contradiction.
          -- apply some_inj in H. apply pair_equal_spec in H. destruct H as [<- <-]. fields.
             constructor; fields; auto; try discriminate; try congruence.
             exists b, O. split; [eapply c_close; eauto|]. split; [auto|]. split; [auto|]. do 2 (split; [auto|]).
             exists P, (O' ++ [Ack]). do 5 (split; [auto|]). split; [discriminate|]. intros _. right. rewrite (Q1 Ec), <- app_assoc. auto.
        * apply some_inj in H. apply pair_equal_spec in H. destruct H as [<- <-]. fields.
          constructor; fields; rewrite ?NE; auto; try discriminate; try congruence.
          exists b, O. split; [eapply c_close; eauto|]. split; [auto|]. split; [auto|]. do 2 (split; [auto|]).
          exists P, (O' ++ [m]). do 5 (split; [auto|]). split; [discriminate|]. intros _. left. split; [|left; discriminate].
          right. exists m. split; [split; auto|]. rewrite (Q1 Ec), <- app_assoc. auto.
      + (* KFailC *) destruct (c_loop l) eqn:El; [|discriminate].
        assert (Ec : c_conn l = true) by (destruct (c_conn l); auto; destruct (V3 eq_refl) as [_ [? _]]; congruence).
        assert (NC : c_main l <> Connecting) by (intros C; destruct (V4 C); congruence).
        assert (NE : c_eq l = []) by (apply V2; auto).
        destruct (fails (c_open l) (broken l) (dn l)) as [e|] eqn:Hf; [|discriminate].
        apply some_inj in H. apply pair_equal_spec in H. destruct H as [<- <-]. fields.
        constructor; fields; rewrite ?NE; auto; try discriminate; try congruence.
        exists b, O. split; [eapply c_close; eauto|]. split; [auto|]. split; [auto|]. do 2 (split; [auto|]).
        exists P, O'. do 5 (split; [auto|]). split; [discriminate|]. intros _. left. split; [auto|left; discriminate].
      + (* KLateC *) destruct (ch_wire (up l)) eqn:Ewl; [discriminate|]. destruct (broken l) eqn:Eb; [|discriminate]. destruct (c_conn l) eqn:Ec; [|discriminate]. cbn in H.
        apply some_inj in H. apply pair_equal_spec in H. destruct H as [<- <-]. fields.
        rewrite <- (app_nil_r ss). apply (live_move l); fields; rewrite ?Eb; auto; try congruence. intros. eapply c_close; eauto.
      + (* KSend *) destruct (s_open l) eqn:Es; [|discriminate]. apply some_inj in H. apply pair_equal_spec in H. destruct H as [<- <-]. fields.
        apply (live_move l); fields; rewrite ?Es; auto. intros. apply c_post. auto.
      + (* KClose *) destruct (s_in l) eqn:Es; [|discriminate]. apply some_inj in H. apply pair_equal_spec in H. destruct H as [<- <-]. fields.
        rewrite <- (app_nil_r ss). apply (live_move l); fields; auto; try congruence. intros. apply NO. eapply c_close; eauto.
      + (* KFlushS *) destruct (s_open l) eqn:Eo; cbn [negb] in H; [destruct ok|].
        * destruct (flush dumps true (dn l)) as [h|] eqn:Hf; [|discriminate]. apply some_inj in H. apply pair_equal_spec in H. destruct H as [<- <-]. fields.
          rewrite <- (app_nil_r ss). apply (live_move l); fields; rewrite ?Eo; auto.
          intros. apply NO. eapply c_flush; eauto.
        * destruct (broken l) eqn:Eb; [|discriminate]. destruct (flush dumps false (dn l)) as [h|] eqn:Hf; [|discriminate]. apply some_inj in H. apply pair_equal_spec in H. destruct H as [<- <-]. fields.
          rewrite <- (app_nil_r ss). apply (live_move l); fields; rewrite ?Eo, ?Eb; auto; try congruence.
          intros. apply NO. eapply c_drop; eauto.
        * destruct (flush dumps false (dn l)) as [h|] eqn:Hf; [|discriminate]. apply some_inj in H. apply pair_equal_spec in H. destruct H as [<- <-]. fields.
          rewrite <- (app_nil_r ss). apply (live_move l); fields; rewrite ?Eo; auto.
          intros. apply NO. eapply c_drop; eauto.
      + (* KArriveS *) destruct (arrive n (up l)) as [h|] eqn:Ha; [|discriminate]. apply some_inj in H. apply pair_equal_spec in H. destruct H as [<- <-]. fields.
        rewrite <- (app_nil_r ss). apply (live_move l); fields; auto. intros. eapply c_arrive; eauto.
      + (* KReadS *) destruct (s_loop l) eqn:El; [|discriminate]. assert (EX := V7 eq_refl). subst excs. assert (EO := O1 eq_refl). subst O.
        destruct (advance (s_open l) (up l)) as [[h [p|]]|] eqn:Ha; [| |discriminate].
        2:{ apply some_inj in H. apply pair_equal_spec in H. destruct H as [<- <-]. fields. rewrite <- (app_nil_r ss). apply (live_move l); fields; auto.
            intros P0 O0 C0. exact (c_advance _ _ _ _ _ _ _ C0 Ha). }
        destruct (c_advance _ _ _ _ _ _ _ Cu Ha) as [m [Fm [-> Cm]]]. destruct (c_in _ _ _ _ _ Cm) as [Im _].
        assert (NA : ~ In Ack P).
        { intros I. assert (X := P2 I). rewrite <- (app_nil_r puts) in X at 1. apply app_inv_head in X. discriminate. }
        destruct (loads (pk m)) as [x|] eqn:Lx.
        * assert (x = m) by (eapply load_eq; eauto). subst x. destruct m as [a| |].
          -- apply some_inj in H. apply pair_equal_spec in H. destruct H as [<- <-]. fields.
             constructor; fields; auto; try congruence.
             ++ intros m I. apply in_app_or in I. destruct I as [I|[<-|[]]]; auto.
             ++ exists b, (puts ++ [App a]). do 3 (split; [auto|]). split; [auto|]. split; [congruence|].
                exists P, O'. split; [auto|]. split; [auto|]. split; [intros; contradiction|]. split; [auto|]. split; [congruence|auto].
          -- destruct (s_open l) eqn:Eo; cbn [s_open] in H.
             ++ fields. rewrite ?Eo in H. apply some_inj in H. apply pair_equal_spec in H. destruct H as [<- <-]. fields.
                constructor; fields; auto; try discriminate.
                exists b, (puts ++ [Notify]). do 3 (split; [auto|]). split; [discriminate|]. split; [auto|].
                exists (P ++ [Ack]), O'. rewrite ?Eo. split; [apply c_post; auto|]. split; [rewrite filter_app; cbn; rewrite app_nil_r; auto|].
                split; [auto|]. split; [intros I; apply in_app_or in I; destruct I as [I|[I|[]]]; [auto|discriminate]|].
                split; [intros; apply in_or_app; right; left; auto|auto].
             ++ fields. rewrite ?Eo in H. apply some_inj in H. apply pair_equal_spec in H. destruct H as [<- <-]. fields.
                constructor; fields; auto; try discriminate.
                ** intros B. destruct (BO B). discriminate.
                ** exists b, (puts ++ [Notify]). do 3 (split; [auto|]). split; [discriminate|].
                   split; [intros _; right; left; split; [discriminate|auto]|].
                   exists P, O'. rewrite ?Eo. do 2 (split; [auto|]). split; [intros; contradiction|]. split; [auto|]. split; [discriminate|auto].
          -- exfalso. apply in_app_or in Im. destruct Im as [I|I].
             ++ apply in_map_iff in I. destruct I as [? [? _]]. discriminate.
             ++ destruct b; [destruct I as [I|[]]; discriminate|destruct I].
        * apply some_inj in H. apply pair_equal_spec in H. destruct H as [<- <-]. fields.
          constructor; fields; auto; try discriminate.
          -- intros B. destruct (V5 B) as [? [? [_ ?]]]. repeat split; auto. right. exists m. split; auto.
          -- exists b, (puts ++ [m]). do 3 (split; [auto|]). split; [discriminate|].
             split; [intros _; right; right; left; split; [discriminate|]; exists m; split; [split; auto|auto]|].
             exists P, O'. split; [auto|]. split; [auto|]. split; [intros; contradiction|]. split; [auto|]. split; [discriminate|auto].
      + (* KFailS *) destruct (s_loop l) eqn:El; [|discriminate]. assert (EX := V7 eq_refl). subst excs. assert (EO := O1 eq_refl). subst O.
        destruct (fails (s_open l) (broken l) (up l)) as [e|] eqn:Hf; [|discriminate].
        assert (BB : broken l = true).
        { destruct (broken l) eqn:Eb; auto. destruct (BO eq_refl) as [_ So]. rewrite So in Hf. unfold fails in Hf. destruct (ch_st (up l)); discriminate. }
        apply some_inj in H. apply pair_equal_spec in H. destruct H as [<- <-]. fields.
        constructor; fields; auto; try discriminate; try congruence.
        exists b, puts. do 3 (split; [auto|]). split; [discriminate|]. split; [intros _; left; split; [discriminate|auto]|].
        exists P, O'. split; [eapply c_close; eauto|]. do 3 (split; [auto|]). split; [discriminate|auto].
      + (* KLateS *) destruct (ch_wire (dn l)) eqn:Ewl; [discriminate|]. destruct (broken l) eqn:Eb; [|discriminate].
        apply some_inj in H. apply pair_equal_spec in H. destruct H as [<- <-]. fields.
        rewrite <- (app_nil_r ss). apply (live_move l); fields; rewrite ?Eb; auto; try congruence. intros. apply NO. eapply c_close; eauto.
      + (* KBreak *) destruct (c_conn l || s_loop l); [|discriminate].
        apply some_inj in H. apply pair_equal_spec in H. destruct H as [<- <-]. fields.
        rewrite <- (app_nil_r ss). apply (live_move l); fields; auto. discriminate.
  Qed.

  (* ---- the server's queues ---- *)
  Notation net := (net A).
  (* what get_message of the server returned and raised for connection c, what was sent on it *)
  Definition got_from (c : nat) (rs : list (sret A)) : list (nmsg A) :=
    flat_map (fun r => match r with SGot c' m => if Nat.eqb c' c then [m] else [] | _ => [] end) rs.
  Definition raised_for (c : nat) (rs : list (sret A)) : list nexn :=
    flat_map (fun r => match r with SRaised c' e => if Nat.eqb c' c then [e] else [] | _ => [] end) rs.
  Definition sent_to (c : nat) (rs : list (sret A)) : list A :=
    flat_map (fun r => match r with SSent c' a => if Nat.eqb c' c then [a] else [] | _ => [] end) rs.
  Definition of_conn {B} (c : nat) (q : list (nat * B)) : list B :=
    flat_map (fun x => if Nat.eqb (fst x) c then [snd x] else []) q.

  Definition NInv (s : net) : Prop := forall c,
    LInv (n_link s c) (got_from c (n_rets s) ++ of_conn c (n_mq s)) (raised_for c (n_rets s) ++ of_conn c (n_eq s))
         (sent_to c (n_rets s)).

  Lemma ninit_inv : NInv net_init.
  Proof. intros c. apply init_inv. Qed.

  Lemma got_app c a b : got_from c (a ++ b) = got_from c a ++ got_from c b.
  Proof. apply flat_map_app. Qed.
  Lemma raised_app c a b : raised_for c (a ++ b) = raised_for c a ++ raised_for c b.
  Proof. apply flat_map_app. Qed.
  Lemma sent_app c a b : sent_to c (a ++ b) = sent_to c a ++ sent_to c b.
  Proof. apply flat_map_app. Qed.
  Lemma of_app {B} c (a b : list (nat * B)) : of_conn c (a ++ b) = of_conn c a ++ of_conn c b.
  Proof. apply flat_map_app. Qed.

  (* what a list of notes does to the queues *)
  Lemma tell_all c ns : forall s, exists mq eq rs,
    fold_left (tell c) ns s = Net (n_link s) (n_mq s ++ mq) (n_eq s ++ eq) (n_rets s ++ rs) /\
    mq = map (pair c) (n_puts ns) /\ eq = map (pair c) (n_excs ns) /\ rs = map (SSent c) (n_sent ns).
  Proof.
    induction ns as [|x ns IH]; intros s.
    - exists [], [], []. cbn. rewrite !app_nil_r. destruct s; auto.
    - cbn [fold_left]. destruct (IH (tell c s x)) as [mq [eq [rs [-> [-> [-> ->]]]]]]. do 3 eexists. split; [|split; [|split]; reflexivity].
      destruct x; cbn; rewrite <- ?app_assoc; cbn; reflexivity.
  Qed.
  Lemma of_pairs {B} c c' (l : list B) : of_conn c (map (pair c') l) = if Nat.eqb c' c then l else [].
  Proof. induction l as [|x l IH]; cbn; [destruct (Nat.eqb c' c); auto|]. unfold of_conn in IH. rewrite IH. destruct (Nat.eqb c' c); auto. Qed.
  Lemma sent_sends c c' l : sent_to c (map (SSent c') l) = if Nat.eqb c' c then l else [].
  Proof. induction l as [|x l IH]; cbn; [destruct (Nat.eqb c' c); auto|]. unfold sent_to in IH. rewrite IH. destruct (Nat.eqb c' c); auto. Qed.
  Lemma got_sends c c' l : got_from c (map (SSent c') l) = [].
  Proof. induction l; cbn; auto. Qed.
  Lemma raised_sends c c' l : raised_for c (map (SSent c') l) = [].
  Proof. induction l; cbn; auto. Qed.

  Lemma nstep_inv x s s' : NInv s -> nstep dumps loads x s = Some s' -> NInv s'.
  Proof.
    intros V H c. destruct x as [c0 k|]; cbn [nstep] in H.
    - destruct (kstep dumps loads k (n_link s c0)) as [[l ns]|] eqn:Hk; [|discriminate]. apply some_inj in H.
      match type of H with fold_left _ _ ?s0 = _ => destruct (tell_all c0 ns s0) as [mq [eq [rs [E [-> [-> ->]]]]]] end.
      rewrite E in H. subst s'. cbn [n_link n_mq n_eq n_rets].
      rewrite got_app, raised_app, sent_app, !of_app, !of_pairs, sent_sends, got_sends, raised_sends, !app_nil_r.
      unfold upd. destruct (Nat.eqb c0 c) eqn:Ec.
      + apply Nat.eqb_eq in Ec. subst c0. rewrite !app_assoc. eapply step_inv; eauto.
      + rewrite !app_nil_r. apply V.
    - apply some_inj in H. subst s'. specialize (V c). destruct s as [lk mq eq rs]. cbn [n_link n_mq n_eq n_rets] in *.
      destruct eq as [|[c0 e] r]; [destruct mq as [|[c0 m] r]|]; cbn [n_link n_mq n_eq n_rets];
        rewrite got_app, raised_app, sent_app; cbn; rewrite ?app_nil_r; cbn in V; rewrite ?app_nil_r in V.
      + rewrite ?app_nil_r in *. auto.
      + rewrite <- app_assoc. exact V.
      + rewrite <- app_assoc. exact V.
  Qed.
  Lemma nrun_inv xs : forall s s', NInv s -> nrun dumps loads xs s = Some s' -> NInv s'.
  Proof.
    induction xs as [|x xs IH]; intros s s' V H; cbn in H; [apply some_inj in H; subst; auto|].
    destruct (nstep dumps loads x s) as [s1|] eqn:E; [|discriminate]. eapply IH; [|eauto]. eapply nstep_inv; eauto.
  Qed.
  Lemma nrun_app xs ys s : nrun dumps loads (xs ++ ys) s =
    match nrun dumps loads xs s with Some s1 => nrun dumps loads ys s1 | None => None end.
  Proof.
    revert s. induction xs as [|x xs IH]; intros s; cbn; auto. destruct (nstep dumps loads x s); auto.
  Qed.

  (* ---- measure of what is under way on a connection ---- *)
  Definition cost (m : nmsg A) : nat := 2 * (length (pk m) + 4) + 1.
  Definition costs (l : list (nmsg A)) : nat := fold_right (fun m n => cost m + n)%nat 0%nat l.
  Definition mu (h : chan A) : nat :=
    (costs (ch_cbs h) + 2 * length (ch_wire h) + length (ch_buf h) +
     match ch_st h with RSize => 0 | RGot _ => 2 | RBody _ => 1 end)%nat.
  Definition fresh (l : link A) : bool :=
    match c_main l with Connecting => negb (c_conn l) | _ => false end.
  Definition waits (l : link A) : bool := match c_main l with DiscWait => true | _ => false end.
  Definition work (l : link A) : nat :=
    (mu (up l) + mu (dn l) + (if s_loop l then cost Ack + 1 else 0) + (if c_conn l then 1 else 0) +
     (if c_conn l && negb (waits l) then cost Notify else 0) + (if fresh l then cost Ack + cost Notify + 2 else 0))%nat.
  (* the steps of the IO loops and of the network *)
  Definition moves (k : klabel A) : bool :=
    match k with
    | KFlushC _ | KArriveC _ | KReadC | KFailC | KFlushS _ | KArriveS _ | KReadS | KFailS => true
    | _ => false
    end.

  Lemma costs_app a b : costs (a ++ b) = (costs a + costs b)%nat.
  Proof. unfold costs. induction a as [|m a IH]; cbn [app fold_right]; auto. rewrite IH. lia. Qed.
  Lemma mu_post m h : mu (post m h) = (mu h + cost m)%nat.
  Proof. unfold mu, post. cbn [ch_cbs ch_wire ch_st ch_buf]. rewrite costs_app. cbn [costs fold_right]. lia. Qed.
  Lemma mu_flush ok h h' : flush dumps ok h = Some h' -> (mu h' < mu h)%nat.
  Proof.
    unfold flush, mu. destruct (ch_cbs h) as [|m r]; [discriminate|]. intros H. apply some_inj in H. subst h'.
    cbn [ch_cbs ch_wire ch_st ch_buf costs fold_right]. unfold cost at 2, pk. fold (costs r).
    destruct ok; [|lia]. destruct (dumps m) as [p|]; [|lia]. unfold write.
    destruct (frame p) as [b|] eqn:E; [|lia]. unfold frame in E. destruct (pack_I _) as [z|] eqn:Ez; cbn in E; [|discriminate].
    injection E as <-. unfold pack_I in Ez. destruct (_ && _); [|discriminate]. injection Ez as <-.
    rewrite !app_length. cbn [to_le length]. lia.
  Qed.
  Lemma mu_arrive n h h' : arrive n h = Some h' -> (mu h' < mu h)%nat.
  Proof.
    unfold arrive, mu. destruct (1 <=? n)%nat eqn:L1; [|discriminate]. destruct (n <=? _)%nat eqn:L2; [|discriminate]. cbn [andb].
    intros H. apply some_inj in H. subst h'. apply Nat.leb_le in L1, L2. cbn [ch_cbs ch_wire ch_st ch_buf].
    rewrite app_length, firstn_length, skipn_length. lia.
  Qed.
  Lemma mu_advance ro h h' r : advance ro h = Some (h', r) -> (mu h' < mu h)%nat.
  Proof.
    unfold advance, mu. destruct (ch_st h) as [|n|n].
    - destruct (4 <=? _)%nat eqn:L; [|discriminate]. intros H. apply some_inj in H. apply pair_equal_spec in H. destruct H as [<- <-].
      apply Nat.leb_le in L. cbn [ch_cbs ch_wire ch_st ch_buf]. rewrite skipn_length. lia.
    - destruct ro; [|discriminate]. intros H. apply some_inj in H. apply pair_equal_spec in H. destruct H as [<- <-]. cbn [ch_cbs ch_wire ch_st ch_buf]. lia.
    - destruct (n <=? _); [|discriminate]. intros H. apply some_inj in H. apply pair_equal_spec in H. destruct H as [<- <-].
      cbn [ch_cbs ch_wire ch_st ch_buf]. rewrite skipn_length. lia.
  Qed.

  Lemma step_work k l l' ns puts excs ss : LInv l puts excs ss -> kstep dumps loads k l = Some (l', ns) ->
    exists new, sents (c_rets l') = sents (c_rets l) ++ new /\
    (work l' + (if moves k then 1 else 0) <= work l + costs (map App new) + costs (map App (n_sent ns)))%nat.
  Proof.
    intros V H.
    destruct k as [ok|cl| | |ok|n| | | |a| |ok|n| | | |]; cbn [kstep moves] in *.
    - (* KConn *) destruct (c_main l) eqn:Em; try discriminate. destruct (c_conn l) eqn:Ec; [discriminate|]. destruct (c_eq l); [|discriminate].
      destruct ok; apply some_inj in H; injection H as <- <-; exists []; cbn [c_rets with_s with_c with_q]; rewrite app_nil_r; (split; [auto|]).
      + unfold work, fresh, waits. cbn [up dn c_main c_conn s_loop with_s with_c with_q costs map n_sent fold_right flat_map]. rewrite Em, Ec. cbn [andb negb].
        destruct (s_loop l); lia.
      + unfold work, fresh, waits. cbn [up dn c_main c_conn s_loop with_s with_c with_q costs map n_sent fold_right flat_map]. lia.
    - (* KCall *) destruct (c_main l) eqn:Em; try discriminate. apply some_inj in H. apply pair_equal_spec in H. destruct H as [<- <-].
      exists []. cbn [c_rets with_main]. rewrite app_nil_r. split; [auto|].
      unfold work, fresh, waits. cbn [up dn c_main c_conn s_loop with_main costs map n_sent fold_right flat_map]. rewrite Em.
      destruct cl; cbn [andb negb]; destruct (c_conn l), (s_loop l); cbn [andb negb]; lia.
    - (* KMain *) destruct (main_step l) as [l0|] eqn:Hm; [|discriminate]. apply some_inj in H. apply pair_equal_spec in H. destruct H as [<- <-].
      cbn [n_sent flat_map map costs fold_right]. unfold main_step in Hm.
      destruct (c_main l) eqn:Em; try discriminate Hm.
      + destruct (c_conn l) eqn:Ec; [|destruct (c_eq l); [discriminate|]]; apply some_inj in Hm; subst l0; exists [];
          cbn [c_rets with_main ret with_q with_c]; rewrite sents_app; cbn [sents flat_map]; rewrite !app_nil_r; (split; [auto|]);
          unfold work, fresh, waits; cbn [up dn c_main c_conn s_loop with_main ret with_q with_c costs map fold_right]; rewrite Em, Ec; cbn [andb negb];
          destruct (s_loop l); lia.
      + destruct (c_eq l); apply some_inj in Hm; subst l0; exists [];
          cbn [c_rets with_main ret with_q with_c]; rewrite ?sents_app; cbn [sents flat_map]; rewrite !app_nil_r; (split; [auto|]);
          unfold work, fresh, waits; cbn [up dn c_main c_conn s_loop with_main ret with_q with_c costs map fold_right]; rewrite Em; cbn [andb negb];
          destruct (c_conn l); cbn [andb]; destruct (s_loop l); lia.
      + destruct (c_conn l) eqn:Ec; apply some_inj in Hm; subst l0; exists [];
          cbn [c_rets with_main ret with_q with_c]; rewrite ?sents_app; cbn [sents flat_map]; rewrite !app_nil_r; (split; [auto|]);
          unfold work, fresh, waits; cbn [up dn c_main c_conn s_loop with_main ret with_q with_c costs map fold_right]; rewrite Em, Ec; cbn [andb negb];
          destruct (s_loop l); lia.
      + destruct (c_conn l) eqn:Ec; [destruct (c_open l)|]; apply some_inj in Hm; subst l0.
        * exists [a]. cbn [c_rets with_main ret with_q with_c with_up]; rewrite ?sents_app; cbn [sents flat_map app]. split; [auto|].
          unfold work, fresh, waits; cbn [up dn c_main c_conn s_loop with_main ret with_q with_c with_up costs map fold_right]; rewrite Em, Ec, mu_post; cbn [andb negb].
          destruct (s_loop l); lia.
        * exists []. cbn [c_rets with_main ret with_q with_c]; rewrite ?sents_app; cbn [sents flat_map]; rewrite !app_nil_r; (split; [auto|]);
          unfold work, fresh, waits; cbn [up dn c_main c_conn s_loop with_main ret with_q with_c costs map fold_right]; rewrite Em, Ec; cbn [andb negb];
          destruct (s_loop l); lia.
        * exists []. cbn [c_rets with_main ret with_q with_c]; rewrite ?sents_app; cbn [sents flat_map]; rewrite !app_nil_r; (split; [auto|]);
          unfold work, fresh, waits; cbn [up dn c_main c_conn s_loop with_main ret with_q with_c costs map fold_right]; rewrite Em, Ec; cbn [andb negb];
          destruct (s_loop l); lia.
      + destruct (c_eq l); apply some_inj in Hm; subst l0; exists [];
          cbn [c_rets with_main ret with_q with_c]; rewrite ?sents_app; cbn [sents flat_map]; rewrite !app_nil_r; (split; [auto|]);
          unfold work, fresh, waits; cbn [up dn c_main c_conn s_loop with_main ret with_q with_c costs map fold_right]; rewrite Em; cbn [andb negb];
          destruct (c_conn l); cbn [andb]; destruct (s_loop l); lia.
      + destruct (c_conn l) eqn:Ec; apply some_inj in Hm; subst l0; exists [];
          cbn [c_rets with_main ret with_q with_c]; rewrite ?sents_app; cbn [sents flat_map]; rewrite !app_nil_r; (split; [auto|]);
          unfold work, fresh, waits; cbn [up dn c_main c_conn s_loop with_main ret with_q with_c costs map fold_right]; rewrite Em, Ec; cbn [andb negb];
          destruct (s_loop l); lia.
      + destruct (c_mq l); [discriminate|]. apply some_inj in Hm; subst l0; exists [];
          cbn [c_rets with_main ret with_q with_c]; rewrite ?sents_app; cbn [sents flat_map]; rewrite !app_nil_r; (split; [auto|]);
          unfold work, fresh, waits; cbn [up dn c_main c_conn s_loop with_main ret with_q with_c costs map fold_right]; rewrite Em; cbn [andb negb];
          destruct (c_conn l); cbn [andb]; destruct (s_loop l); lia.
      + destruct (c_conn l) eqn:Ec; apply some_inj in Hm; subst l0; exists [];
          cbn [c_rets with_main ret with_q with_c]; rewrite ?sents_app; cbn [sents flat_map]; rewrite !app_nil_r; (split; [auto|]);
          unfold work, fresh, waits; cbn [up dn c_main c_conn s_loop with_main ret with_q with_c costs map fold_right]; rewrite Em, Ec; cbn [andb negb];
          destruct (s_loop l); lia.
      + destruct (c_conn l) eqn:Ec; [destruct (c_open l)|]; apply some_inj in Hm; subst l0; exists [];
          cbn [c_rets with_main ret with_q with_c with_up]; rewrite ?sents_app; cbn [sents flat_map]; rewrite !app_nil_r; (split; [auto|]);
          unfold work, fresh, waits; cbn [up dn c_main c_conn s_loop with_main ret with_q with_c with_up costs map fold_right]; rewrite ?mu_post, Em, Ec; cbn [andb negb];
          destruct (s_loop l); lia.
      + destruct (c_conn l) eqn:Ec; [discriminate|]. apply some_inj in Hm; subst l0; exists [];
          cbn [c_rets with_main ret with_q with_c]; rewrite ?sents_app; cbn [sents flat_map]; rewrite !app_nil_r; (split; [auto|]);
          unfold work, fresh, waits; cbn [up dn c_main c_conn s_loop with_main ret with_q with_c costs map fold_right]; rewrite Em, Ec; cbn [andb negb];
          destruct (s_loop l); lia.
    - (* KTimeout *) destruct (c_main l) eqn:Em; try discriminate. destruct (c_mq l); [|discriminate]. apply some_inj in H. apply pair_equal_spec in H. destruct H as [<- <-].
      exists []. cbn [c_rets ret]. rewrite sents_app. cbn [sents flat_map]. rewrite !app_nil_r. split; [auto|].
      unfold work, fresh, waits. cbn [up dn c_main c_conn s_loop ret costs map n_sent fold_right flat_map]. rewrite Em. cbn [andb negb].
      destruct (c_conn l), (s_loop l); cbn [andb negb]; lia.
    - (* KFlushC *) exists [].
      destruct (c_open l); cbn [negb] in H; [destruct ok; [|destruct (broken l); [|discriminate]]|];
        (match type of H with context [flush ?d ?o ?h] => destruct (flush d o h) as [h0|] eqn:Hf end; [|discriminate]);
        apply some_inj in H; apply pair_equal_spec in H; destruct H as [<- <-]; apply mu_flush in Hf;
        cbn [c_rets with_up with_c]; rewrite app_nil_r; (split; [auto|]);
        unfold work, fresh, waits; cbn [up dn c_main c_conn s_loop with_up with_c costs map n_sent fold_right flat_map]; lia.
    - (* KArriveC *) exists []. destruct (arrive n (dn l)) as [h|] eqn:Ha; [|discriminate]. apply mu_arrive in Ha.
      apply some_inj in H; apply pair_equal_spec in H; destruct H as [<- <-].
      cbn [c_rets with_dn with_c]; rewrite app_nil_r; (split; [auto|]);
        unfold work, fresh, waits; cbn [up dn c_main c_conn s_loop with_dn with_c costs map n_sent fold_right flat_map]; lia.
    - (* KReadC *) exists []. destruct (c_loop l) eqn:El; [|discriminate].
      assert (Ec : c_conn l = true).
      { destruct V as [[V _]|V]; [destruct V as [_ [_ [_ [_ [X _]]]]]; congruence|]. destruct (c_conn l) eqn:E; auto.
        destruct (v_gone _ _ _ _ V E) as [_ [X _]]. congruence. }
      assert (NC : c_main l <> Connecting).
      { destruct V as [[V _]|V]; [destruct V as [_ [_ [_ [_ [X _]]]]]; congruence|]. intros E. destruct (v_new _ _ _ _ V E) as [X _]. congruence. }
      destruct (advance (c_open l) (dn l)) as [[h [p|]]|] eqn:Ha; [| |discriminate]; apply mu_advance in Ha.
      + destruct (loads p) as [[a| |]|]; apply some_inj in H; apply pair_equal_spec in H; destruct H as [<- <-];
          cbn [c_rets with_dn with_c with_q break]; rewrite app_nil_r; (split; [auto|]);
          unfold work, fresh, waits; cbn [up dn c_main c_conn s_loop with_dn with_c with_q break costs map n_sent fold_right flat_map]; rewrite ?Ec; cbn [andb negb];
          destruct (c_main l); try congruence; cbn [andb negb]; lia.
      + apply some_inj in H; apply pair_equal_spec in H; destruct H as [<- <-];
          cbn [c_rets with_dn with_c with_q break]; rewrite app_nil_r; (split; [auto|]);
          unfold work, fresh, waits; cbn [up dn c_main c_conn s_loop with_dn with_c with_q break costs map n_sent fold_right flat_map]; lia.
    - (* KFailC *) exists []. destruct (c_loop l) eqn:El; [|discriminate].
      assert (Ec : c_conn l = true).
      { destruct V as [[V _]|V]; [destruct V as [_ [_ [_ [_ [X _]]]]]; congruence|]. destruct (c_conn l) eqn:E; auto.
        destruct (v_gone _ _ _ _ V E) as [_ [X _]]. congruence. }
      destruct (fails _ _ _); [|discriminate].
      assert (NC : c_main l <> Connecting).
      { destruct V as [[V _]|V]; [destruct V as [_ [_ [_ [_ [X _]]]]]; congruence|]. intros E. destruct (v_new _ _ _ _ V E) as [X _]. congruence. }
      apply some_inj in H; apply pair_equal_spec in H; destruct H as [<- <-];
        cbn [c_rets with_dn with_c with_q break]; rewrite app_nil_r; (split; [auto|]);
        unfold work, fresh, waits; cbn [up dn c_main c_conn s_loop with_dn with_c with_q break costs map n_sent fold_right flat_map]; rewrite ?Ec; cbn [andb negb];
        destruct (c_main l); try congruence; cbn [andb negb]; lia.
    - (* KLateC *) exists []. destruct (ch_wire (up l)) eqn:Ewl; [discriminate|]. destruct (_ && _); [|discriminate]. apply some_inj in H; apply pair_equal_spec in H; destruct H as [<- <-].
      cbn [c_rets with_c]; rewrite app_nil_r; (split; [auto|]). unfold work, fresh, waits; cbn [up dn c_main c_conn s_loop with_c costs map n_sent fold_right flat_map]. lia.
    - (* KSend *) exists []. destruct (s_open l); [|discriminate]. apply some_inj in H; apply pair_equal_spec in H; destruct H as [<- <-].
      cbn [c_rets with_dn]; rewrite app_nil_r; (split; [auto|]). unfold work, fresh, waits; cbn [up dn c_main c_conn s_loop with_dn costs map n_sent fold_right flat_map app]. rewrite mu_post. lia.
    - (* KClose *) exists []. destruct (s_in l); [|discriminate]. apply some_inj in H; apply pair_equal_spec in H; destruct H as [<- <-].
      cbn [c_rets with_s break]; rewrite app_nil_r; (split; [auto|]). unfold work, fresh, waits; cbn [up dn c_main c_conn s_loop with_s break costs map n_sent fold_right flat_map]. lia.
    - (* KFlushS *) exists [].
      destruct (s_open l); cbn [negb] in H; [destruct ok; [|destruct (broken l); [|discriminate]]|];
        (match type of H with context [flush ?d ?o ?h] => destruct (flush d o h) as [h0|] eqn:Hf end; [|discriminate]);
        apply some_inj in H; apply pair_equal_spec in H; destruct H as [<- <-]; apply mu_flush in Hf;
        cbn [c_rets with_dn with_s]; rewrite app_nil_r; (split; [auto|]);
        unfold work, fresh, waits; cbn [up dn c_main c_conn s_loop with_dn with_s costs map n_sent fold_right flat_map]; lia.
    - (* KArriveS *) exists []. destruct (arrive n (up l)) as [h|] eqn:Ha; [|discriminate]. apply mu_arrive in Ha.
      apply some_inj in H; apply pair_equal_spec in H; destruct H as [<- <-].
      cbn [c_rets with_up]; rewrite app_nil_r; (split; [auto|]);
        unfold work, fresh, waits; cbn [up dn c_main c_conn s_loop with_up costs map n_sent fold_right flat_map]; lia.
    - (* KReadS *) exists []. destruct (s_loop l) eqn:El; [|discriminate].
      destruct (advance (s_open l) (up l)) as [[h [p|]]|] eqn:Ha; [| |discriminate]; apply mu_advance in Ha.
      + destruct (loads p) as [[a| |]|]; cbn [s_open with_up dn] in H; [|destruct (s_open l)| |]; apply some_inj in H; apply pair_equal_spec in H; destruct H as [<- <-];
          cbn [c_rets with_dn with_s with_up]; rewrite app_nil_r; (split; [auto|]);
          unfold work, fresh, waits; cbn [up dn c_main c_conn s_loop with_dn with_s with_up costs map n_sent fold_right flat_map]; rewrite ?El, ?mu_post; lia.
      + apply some_inj in H; apply pair_equal_spec in H; destruct H as [<- <-];
          cbn [c_rets with_dn with_up]; rewrite app_nil_r; (split; [auto|]);
          unfold work, fresh, waits; cbn [up dn c_main c_conn s_loop with_dn with_up costs map n_sent fold_right flat_map]; lia.
    - (* KFailS *) exists []. destruct (s_loop l) eqn:El; [|discriminate]. destruct (fails _ _ _); [|discriminate].
      apply some_inj in H; apply pair_equal_spec in H; destruct H as [<- <-];
        cbn [c_rets with_s]; rewrite app_nil_r; (split; [auto|]);
        unfold work, fresh, waits; cbn [up dn c_main c_conn s_loop with_s costs map n_sent fold_right flat_map]; rewrite El; lia.
    - (* KLateS *) exists []. destruct (ch_wire (dn l)) eqn:Ewl; [discriminate|]. destruct (broken l); [|discriminate]. apply some_inj in H; apply pair_equal_spec in H; destruct H as [<- <-].
      cbn [c_rets with_s]; rewrite app_nil_r; (split; [auto|]). unfold work, fresh, waits; cbn [up dn c_main c_conn s_loop with_s costs map n_sent fold_right flat_map]. lia.
    - (* KBreak *) exists []. destruct (_ || _); [|discriminate]. apply some_inj in H; apply pair_equal_spec in H; destruct H as [<- <-].
      cbn [c_rets break]; rewrite app_nil_r; (split; [auto|]). unfold work, fresh, waits; cbn [up dn c_main c_conn s_loop break costs map n_sent fold_right flat_map]. lia.
  Qed.
End NetFacts.
