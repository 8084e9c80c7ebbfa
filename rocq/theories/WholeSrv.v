(* What one iteration of the server has its pools do. *)
From Coq Require Import Arith Lia.
From Verif Require Import ServerFacts ServerSteps.
From Verif Require Export SysFacts.
Open Scope Z_scope.

Definition fails (l : list act) : list (pyblock * nat) :=
  flat_map (fun a => match a with ANote (NFailure pb w) => [(pb, w)] | _ => [] end) (rev l).
Lemma fails_app l m : fails (l ++ m) = fails m ++ fails l.
Proof. unfold fails. rewrite rev_app_distr, flat_map_app. reflexivity. Qed.
Lemma fails_none l : (forall a, In a l -> forall pb w, a <> ANote (NFailure pb w)) -> fails l = [].
Proof.
  intros H. unfold fails. assert (H' : forall a, In a (rev l) -> forall pb w, a <> ANote (NFailure pb w)) by (intros a Ha; apply H, in_rev, Ha).
  induction (rev l) as [|a r IH]; cbn; auto. rewrite IH by (intros b Hb; apply H'; right; auto).
  destruct a as [| | |n| | | | | |]; auto. destruct n; auto. exfalso. eapply H'; [left; reflexivity|reflexivity].
Qed.
Lemma fails_aside l : Forall aside l -> fails l = [].
Proof. intros F. apply fails_none. intros a Ha pb w ->. rewrite Forall_forall in F. exact (F _ Ha). Qed.
Definition nofail (x y : server) : Prop := exists l, sv_tr y = l ++ sv_tr x /\ fails l = [].
Lemma nofail_refl x y : sv_tr y = sv_tr x -> nofail x y.
Proof. intros E. exists []. auto. Qed.
Lemma nofail_trans x y z : nofail x y -> nofail y z -> nofail x z.
Proof.
  intros [l [E F]] [m [E' F']]. exists (m ++ l). rewrite E', E, app_assoc, fails_app, F, F'. auto.
Qed.
Lemma nofail_besides x y : besides x y -> nofail x y.
Proof. intros B. destruct (be_tr _ _ B) as [l [E A]]. exists l. split; auto. apply fails_aside; auto. Qed.

Section Fails.
  Variables (up down : block -> list block).
  Variable maxr : nat -> Z.
  Variable fuel : nat.
  Variable init : nat -> res unit.
  Lemma rel_nofail i pb x y : sv_release up down maxr fuel init i pb x = Ok y -> nofail x y.
  Proof.
    unfold sv_release. destruct (release_block _ _ _ _ _ _ _) as [s1|]; [|discriminate]. cbn [bind]. intros E.
    destruct (recruit_spec init _ _ E) as [B _]. eapply nofail_trans; [|apply nofail_besides; exact B].
    eapply nofail_trans; [|apply nofail_besides; apply check_all_spec].
    eexists [_; _]. split; [reflexivity|reflexivity].
  Qed.
  Lemma safe_nofail i pb st x y : safe_release up down maxr fuel init i pb st x = Ok y -> nofail x y.
  Proof.
    unfold safe_release. destruct (is_valid_return _ _ _).
    - destruct (sv_release _ _ _ _ _ _ _ _) as [z|] eqn:E; [|discriminate]. cbn [bind].
      destruct (notify_block_returned _ _ _) as [b|]; [|discriminate]. cbn [bind]. intros H. injection H as <-.
      eapply nofail_trans; [eapply rel_nofail; eauto|]. apply nofail_refl. reflexivity.
    - intros H. injection H as <-. apply nofail_refl. reflexivity.
  Qed.
  Lemma calls_nofail t r sk : fails (calls t r sk) = [].
  Proof.
    apply fails_none. intros a Ha pb w ->. unfold calls in Ha. apply in_map_iff in Ha. destruct Ha as [e [E _]]. discriminate.
  Qed.
  Lemma acq_nofail i t st x y : handle_acquire up down maxr fuel init i t st x = Ok y -> nofail x y.
  Proof.
    unfold handle_acquire. destruct (acquire_block _ _ _ _ _ _ _) as [[[s1 r] sk]|] eqn:E; [|discriminate]. cbn [bind].
    pose proof (calls_nofail t r sk) as C. unfold calls in C. destruct r as [pb|].
    - destruct (notify_block_sent _ _ _ _) as [b|]; [|discriminate]. cbn [bind]. intros H. injection H as <-.
      exists ([ANote (NAcquire t (s_st s1 t)); ASend st pb] ++ map ACall (EvHand t pb :: rev (map EvSkip sk))). split; [reflexivity|]. rewrite fails_app, C. reflexivity.
    - destruct (negb _); [discriminate|]. destruct (_ =? 0).
      + intros H. destruct (recruit_spec init _ _ H) as [B _]. eapply nofail_trans; [|apply nofail_besides; exact B].
        exists ([AShutdown t st] ++ map ACall (EvNone t :: rev (map EvSkip sk))). split; [reflexivity|]. rewrite fails_app, C. reflexivity.
      + destruct (pput _ _ _) as [p|]; [|discriminate]. cbn [bind]. intros H. injection H as <-.
        exists ([ADelay t st] ++ map ACall (EvNone t :: rev (map EvSkip sk))). split; [reflexivity|]. rewrite fails_app, C. reflexivity.
  Qed.
  Definition reported (g : got) : list (pyblock * nat) :=
    match g with GotMessage _ (MBlockFailed pb w) => [(PB (pb_block pb) FAILED, w)] | _ => [] end.
  Lemma msg_fails i st m x y : handle_message up down maxr fuel init i st m x = Ok y ->
    exists l, sv_tr y = l ++ sv_tr x /\ fails l = reported (GotMessage st m).
  Proof.
    unfold handle_message. destruct m as [t|pb|pb w|e|]; try discriminate.
    - destruct (handle_acquire _ _ _ _ _ _ _ _ _) as [z|] eqn:E; [|discriminate]. cbn [bind]. intros H. injection H as <-.
      eapply nofail_trans; [eapply acq_nofail; eauto|]. apply nofail_besides, check_all_spec.
    - destruct (safe_release _ _ _ _ _ _ _ _ _) as [z|] eqn:E; [|discriminate]. cbn [bind]. intros H. injection H as <-.
      eapply nofail_trans; [eapply safe_nofail; exact E|]. apply nofail_besides, check_all_spec.
    - destruct (safe_release _ _ _ _ _ _ _ _ _) as [z|] eqn:E; [|discriminate]. cbn [bind]. intros H. injection H as <-.
      destruct (safe_nofail _ _ _ _ _ E) as [l [El Fl]].
      assert (B : nofail (add_tr z [ANote (NFailure (PB (pb_block pb) FAILED) w)]) (check_all (add_tr z [ANote (NFailure (PB (pb_block pb) FAILED) w)])))
        by (apply nofail_besides, check_all_spec).
      destruct B as [l2 [E2 F2]]. exists (l2 ++ [ANote (NFailure (PB (pb_block pb) FAILED) w)] ++ l).
      rewrite E2. cbn [add_tr sv_tr]. rewrite El, <- !app_assoc. split; auto. rewrite !fails_app, Fl, F2. reflexivity.
  Qed.
  Lemma msgs_fails i x y : handle_messages up down maxr fuel init i x = Ok y ->
    exists l, sv_tr y = l ++ sv_tr x /\ fails l = reported (i_get i).
  Proof.
    unfold handle_messages. destruct (i_get i) as [st m| | |e] eqn:G; try discriminate.
    - intros E. destruct (msg_fails _ _ _ _ _ E) as [l [El Fl]]. exists (l ++ [ARecv st m]). rewrite El, <- app_assoc, fails_app, Fl. auto.
    - destruct (pfirst (sv_pend x)) as [[[t st] p]|].
      + intros E. destruct (msg_fails _ _ _ _ _ E) as [l [El Fl]]. exists (l ++ [ARetry t st]). rewrite El, <- app_assoc, fails_app, Fl. auto.
      + intros H. injection H as <-. exists []. auto.
    - intros H. injection H as <-. exists []. auto.
  Qed.
  Lemma lost_nofail i x y : check_lost up down maxr fuel init i x = Ok y -> nofail x y.
  Proof.
    unfold check_lost. destruct (get_lost_blocks _ _ _ _) as [[bs b]|]; [|discriminate]. cbn [bind].
    assert (L : forall bs z, foldM (fun x pb => sv_release up down maxr fuel init i (PB (pb_block pb) FAILED) x) bs z = Ok y -> nofail z y).
    { induction bs0 as [|pb bs0 IH]; intros z; cbn [foldM].
      - intros H. injection H as <-. apply nofail_refl. reflexivity.
      - destruct (sv_release _ _ _ _ _ _ _ _) as [z1|] eqn:E; [|discriminate]. cbn [bind]. intros H.
        eapply nofail_trans; [eapply rel_nofail; exact E|apply IH; exact H]. }
    intros H. eapply nofail_trans; [|eapply L; exact H].
    eexists. split; [reflexivity|]. apply fails_none. intros a Ha pb w ->.
    pose proof (lost_notes i (sv_book x)) as F. rewrite Forall_forall in F. exact (F _ Ha).
  Qed.
  (* at most one report, the one in the message *)
  Lemma iter_fails i x y l : iteration up down maxr fuel init i x = Ok y -> sv_tr y = l ++ sv_tr x -> fails l = reported (i_get i).
  Proof.
    intros E El. destruct (iter_split up down maxr fuel init i x y E) as [a [b [Ea [Eb Ey]]]].
    destruct (msgs_fails _ _ _ Ea) as [l1 [L1 F1]].
    assert (N : nofail a y).
    { eapply nofail_trans; [eapply lost_nofail; exact Eb|]. subst y. destruct (i_tick i); [apply nofail_besides, check_all_spec|apply nofail_refl; reflexivity]. }
    destruct N as [l2 [L2 F2]]. assert (l = l2 ++ l1) by (apply (app_same _ _ (sv_tr x)); rewrite <- El, L2, L1, app_assoc; reflexivity).
    subst l. rewrite fails_app, F1, F2, app_nil_r. reflexivity.
  Qed.

  (* which tasks are started *)
  Definition recruited (l : list act) (t : nat) : Prop := exists ts, In (ARecruit ts) l /\ In t ts.
  Lemma norec l t : (forall a, In a l -> forall ts, a <> ARecruit ts) -> ~ recruited l t.
  Proof. intros H [ts [Hi _]]. eapply H; eauto. Qed.
  Lemma step_started x y : ustep up down maxr fuel init any_r any_a x y -> exists l, sv_tr y = l ++ sv_tr x /\
    forall t, In t (sv_started y) <-> In t (sv_started x) \/ recruited l t.
  Proof.
    assert (K : forall x y l, sv_tr y = l ++ sv_tr x -> sv_started y = sv_started x -> (forall a, In a l -> forall ts, a <> ARecruit ts) ->
      exists l, sv_tr y = l ++ sv_tr x /\ forall t, In t (sv_started y) <-> In t (sv_started x) \/ recruited l t).
    { intros x0 y0 l E S N. exists l. split; auto. intros t. rewrite S. pose proof (norec l t N). tauto. }
    assert (C : forall t r sk a, In a (calls t r sk) -> forall ts, a <> ARecruit ts).
    { intros t r sk a Ha ts ->. unfold calls in Ha. apply in_map_iff in Ha. destruct Ha as [e [E _]]. discriminate. }
    intros U. destruct U as [st m|t st p H|chk now t st s1 pb sk b H1 H2 H3 H4|chk t st s1 sk H1 H2 H3 H4 H5|chk t st s1 sk p H1 H2 H3 H4 H5 H6|pick pb s1 H1 H2|pb w| |y H|b H|l H].
    - eapply K; [reflexivity|reflexivity|]. intros a [<-|[]] ts; discriminate.
    - eapply K; [reflexivity|reflexivity|]. intros a [<-|[]] ts; discriminate.
    - eapply K; [reflexivity|reflexivity|]. intros a Ha ts. apply in_app_or in Ha. destruct Ha as [[<-|[<-|[]]]|Ha]; try discriminate. eapply C; eauto.
    - eapply K; [reflexivity|reflexivity|]. intros a [<-|Ha] ts; [discriminate|]. eapply C; eauto.
    - eapply K; [reflexivity|reflexivity|]. intros a [<-|Ha] ts; [discriminate|]. eapply C; eauto.
    - eapply K; [reflexivity|reflexivity|]. intros a [<-|[<-|[]]] ts; discriminate.
    - eapply K; [reflexivity|reflexivity|]. intros a [<-|[]] ts; discriminate.
    - destruct (check_all_spec x) as [_ [S [_ [_ [l [E F]]]]]]. eapply K; [exact E|exact S|]. intros a Ha ts ->.
      rewrite Forall_forall in F. destruct (F _ Ha) as [t [Q _]]. discriminate.
    - destruct (recruit_spec init _ _ H) as [_ [_ [_ [S [l [E F]]]]]]. exists (ARecruit (get_ready_tasks (sv_s x)) :: l). split; [exact E|].
      intros t. rewrite S. split; intros [Q|Q]; auto.
      + right. eexists. split; [left; reflexivity|auto].
      + destruct Q as [ts [[Q|Q] Ht]]; [injection Q as <-; auto|]. rewrite Forall_forall in F. destruct (F _ Q) as [u [[Q'|Q'] _]]; discriminate.
    - eapply (K _ _ []); [reflexivity|reflexivity|]. intros a [].
    - eapply K; [reflexivity|reflexivity|]. intros a Ha ts ->. rewrite Forall_forall in H. exact (H _ Ha).
  Qed.
  Lemma steps_recruited x y : steps up down maxr fuel init any_r any_a x y -> exists l, sv_tr y = l ++ sv_tr x /\
    forall t, In t (sv_started y) <-> In t (sv_started x) \/ recruited l t.
  Proof.
    intros S. induction S as [|y z S [l [E IH]] U]; [exists []; split; auto; intros t; split; auto; intros [H|[ts [[] _]]]; auto|].
    destruct (step_started _ _ U) as [m [E' H]]. exists (m ++ l). rewrite E', E, app_assoc. split; auto.
    intros t. rewrite H, IH. unfold recruited. split.
    - intros [[Q|[ts [Q1 Q2]]]|[ts [Q1 Q2]]]; auto; right; exists ts; split; auto; apply in_or_app; auto.
    - intros [Q|[ts [Q1 Q2]]]; auto. apply in_app_or in Q1. destruct Q1; [right; eauto|left; right; eauto].
  Qed.
  Lemma iter_recruited i x y l : iteration up down maxr fuel init i x = Ok y -> sv_tr y = l ++ sv_tr x ->
    forall t, In t (sv_started y) <-> In t (sv_started x) \/ recruited l t.
  Proof.
    intros E El. apply iteration_steps in E. destruct (steps_recruited _ _ E) as [m [Em H]].
    assert (l = m) by (apply (app_same _ _ (sv_tr x)); congruence). subst m. auto.
  Qed.
  Lemma init_recruited tasks s0 sv : server_init init tasks false s0 = Ok sv ->
    (forall t, In t (sv_started sv) <-> recruited (sv_tr sv) t) /\ fails (sv_tr sv) = [].
  Proof.
    unfold server_init. intros H. destruct (recruit_spec init _ _ H) as [B [_ [_ [S [l [E F]]]]]]. cbn in S. split.
    - intros t. rewrite S, E. cbn [sv_tr]. rewrite app_nil_r. split.
      + intros [[]|Q]. eexists. split; [left; reflexivity|auto].
      + intros [ts [[Q|Q] Ht]]; [injection Q as <-; auto|]. rewrite Forall_forall in F. destruct (F _ Q) as [u [[Q'|Q'] _]]; discriminate.
    - destruct (nofail_besides _ _ B) as [l' [E' F']]. cbn in E'. rewrite app_nil_r in E'. rewrite E'. exact F'.
  Qed.
End Fails.
