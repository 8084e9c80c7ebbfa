(* The server among its workers: it is a server with fair clients; what it is told and what it
   records. *)
From Coq Require Import Arith Lia Permutation.
From Verif Require Import VecFacts SchedProps SerialFacts PipeRun P_Conv ServerFacts ServerSteps P_Outcome SysMeasure.
From Verif Require Export SysFacts.
From Verif Require Client P_Notify.
Open Scope Z_scope.

(* the actions of the server besides taking messages; [R]: what may be released, [K]: skipped *)
Definition act_ok (R : pyblock -> Prop) (K : block -> Prop) (a : act) : Prop :=
  match a with
  | ARecv _ _ => False
  | ACall (EvRel pb) => R pb
  | ACall (EvSkip b) => K b
  | _ => True
  end.
Definition adds R K (x y : server) : Prop := exists l, sv_tr y = l ++ sv_tr x /\ Forall (act_ok R K) l.
Lemma adds_refl R K x y : sv_tr y = sv_tr x -> adds R K x y.
Proof. intros E. exists []. auto. Qed.
Lemma adds_trans R K x y z : adds R K x y -> adds R K y z -> adds R K x z.
Proof.
  intros [l [E F]] [m [E' F']]. exists (m ++ l). rewrite E', E, app_assoc. split; auto. apply Forall_app. auto.
Qed.
Lemma adds_besides R K x y : besides x y -> adds R K x y.
Proof.
  intros B. destruct (be_tr _ _ B) as [l [E A]]. exists l. split; auto. eapply Forall_impl; [|exact A].
  intros a. destruct a; cbn; tauto.
Qed.
Lemma adds_tr R K x l : Forall (act_ok R K) l -> adds R K x (add_tr x l).
Proof. exists l. auto. Qed.

Section Trace.
  Variables (up down : block -> list block).
  Variable maxr : nat -> Z.
  Variable fuel : nat.
  Variable init : nat -> res unit.
  Variables (R : pyblock -> Prop) (K : block -> Prop).
  Lemma rel_adds i pb x y : R pb -> sv_release up down maxr fuel init i pb x = Ok y -> adds R K x y.
  Proof.
    unfold sv_release. intros Hr. destruct (release_block _ _ _ _ _ _ _) as [s1|]; [|discriminate]. cbn [bind]. intros E.
    destruct (recruit_spec init _ _ E) as [B _]. eapply adds_trans; [|apply adds_besides; exact B].
    eapply adds_trans; [|apply adds_besides; apply check_all_spec].
    exists [ANote (NRelease (b_task (pb_block pb)) (s_st s1 (b_task (pb_block pb)))); ACall (EvRel pb)]. split; [reflexivity|].
    repeat constructor. exact Hr.
  Qed.
  Lemma safe_adds i pb st x y : R pb -> safe_release up down maxr fuel init i pb st x = Ok y -> adds R K x y.
  Proof.
    unfold safe_release. intros Hr. destruct (is_valid_return _ _ _).
    - destruct (sv_release _ _ _ _ _ _ _ _) as [z|] eqn:E; [|discriminate]. cbn [bind].
      destruct (notify_block_returned _ _ _) as [b|]; [|discriminate]. cbn [bind]. intros H. injection H as <-.
      eapply adds_trans; [eapply rel_adds; eauto|]. apply adds_refl. reflexivity.
    - intros H. injection H as <-. apply adds_refl. reflexivity.
  Qed.
  Lemma calls_adds i t s s1 r sk : acquire_block up down maxr fuel (i_chk i) s t = Ok (s1, r, sk) ->
    (forall k b, i_chk i k b = CheckTrue -> K b) -> Forall (act_ok R K) (calls t r sk).
  Proof.
    intros E Hk. unfold calls. cbn [map]. constructor; [destruct r; exact I|]. apply Forall_map, Forall_rev, Forall_map.
    apply Forall_forall. intros b Hb. cbn. destruct (In_nth_error _ _ Hb) as [k Ek].
    destruct (check_calls up down maxr fuel (i_chk i) fuel s t _ _ _ E) as [Hs _]. eapply Hk. eapply Hs. exact Ek.
  Qed.
  Lemma acq_adds i t st x y : (forall k b, i_chk i k b = CheckTrue -> K b) ->
    handle_acquire up down maxr fuel init i t st x = Ok y -> adds R K x y.
  Proof.
    unfold handle_acquire. intros Hk. destruct (acquire_block _ _ _ _ _ _ _) as [[[s1 r] sk]|] eqn:E; [|discriminate]. cbn [bind].
    pose proof (calls_adds _ _ _ _ _ _ E Hk) as C. unfold calls in C. destruct r as [pb|].
    - destruct (notify_block_sent _ _ _ _) as [b|]; [|discriminate]. cbn [bind]. intros H. injection H as <-.
      eexists ([ANote (NAcquire t (s_st s1 t)); ASend st pb] ++ _). split; [reflexivity|]. apply Forall_app. split; [repeat constructor|exact C].
    - destruct (negb _); [discriminate|]. destruct (_ =? 0).
      + intros H. destruct (recruit_spec init _ _ H) as [B _]. eapply adds_trans; [|apply adds_besides; exact B].
        eexists (AShutdown t st :: _). split; [reflexivity|]. constructor; [exact I|exact C].
      + destruct (pput _ _ _) as [p|]; [|discriminate]. cbn [bind]. intros H. injection H as <-.
        eexists (ADelay t st :: _). split; [reflexivity|]. constructor; [exact I|exact C].
  Qed.
  Lemma msg_adds i st m x y : (forall pb, told m pb -> R pb) -> (forall k b, i_chk i k b = CheckTrue -> K b) ->
    handle_message up down maxr fuel init i st m x = Ok y -> adds R K x y.
  Proof.
    unfold handle_message. intros Hr Hk. destruct m as [t|pb|pb w|e|]; try discriminate.
    - destruct (handle_acquire _ _ _ _ _ _ _ _ _) as [z|] eqn:E; [|discriminate]. cbn [bind]. intros H. injection H as <-.
      eapply adds_trans; [eapply acq_adds; eauto|]. apply adds_besides, check_all_spec.
    - destruct (safe_release _ _ _ _ _ _ _ _ _) as [z|] eqn:E; [|discriminate]. cbn [bind]. intros H. injection H as <-.
      eapply adds_trans; [eapply safe_adds; [|exact E]; apply Hr; reflexivity|]. apply adds_besides, check_all_spec.
    - destruct (safe_release _ _ _ _ _ _ _ _ _) as [z|] eqn:E; [|discriminate]. cbn [bind]. intros H. injection H as <-.
      eapply adds_trans; [eapply safe_adds; [|exact E]; apply Hr; reflexivity|].
      eapply adds_trans; [|apply adds_besides, check_all_spec]. apply adds_tr. repeat constructor.
  Qed.
  Definition recv (i : input) : list act := match i_get i with GotMessage st m => [ARecv st m] | _ => [] end.
  Lemma msgs_adds i x y : (forall st m pb, i_get i = GotMessage st m -> told m pb -> R pb) -> (forall k b, i_chk i k b = CheckTrue -> K b) ->
    handle_messages up down maxr fuel init i x = Ok y -> adds R K (add_tr x (recv i)) y.
  Proof.
    unfold handle_messages, recv. intros Hr Hk. destruct (i_get i) as [st m| | |e] eqn:G; try discriminate.
    - intros E. eapply msg_adds; eauto.
    - destruct (pfirst (sv_pend x)) as [[[t st] p]|].
      + intros E. eapply (adds_trans _ _ _ (add_tr (set_pend x p) [ARetry t st])); [exists [ARetry t st]; split; [reflexivity|repeat constructor]|].
        eapply msg_adds; eauto. intros pb [].
      + intros H. injection H as <-. apply adds_refl. reflexivity.
    - intros H. injection H as <-. apply adds_refl. reflexivity.
  Qed.
  Lemma lost_adds i x y : (forall b, R (PB b FAILED)) -> check_lost up down maxr fuel init i x = Ok y -> adds R K x y.
  Proof.
    intros Hr. unfold check_lost. destruct (get_lost_blocks _ _ _ _) as [[bs b]|]; [|discriminate]. cbn [bind].
    assert (L : forall bs z, foldM (fun x pb => sv_release up down maxr fuel init i (PB (pb_block pb) FAILED) x) bs z = Ok y -> adds R K z y).
    { induction bs0 as [|pb bs0 IH]; intros z; cbn [foldM].
      - intros H. injection H as <-. apply adds_refl. reflexivity.
      - destruct (sv_release _ _ _ _ _ _ _ _) as [z1|] eqn:E; [|discriminate]. cbn [bind]. intros H.
        eapply adds_trans; [eapply rel_adds; [|exact E]; apply Hr|apply IH; exact H]. }
    intros H. eapply adds_trans; [|eapply L; exact H].
    eexists. split; [reflexivity|]. eapply Forall_impl; [|apply (lost_notes i (sv_book x))]. intros a. destruct a; cbn; tauto.
  Qed.
End Trace.
Definition anyR : pyblock -> Prop := fun _ => True.
Definition anyK : block -> Prop := fun _ => True.
Lemma iter_adds up down maxr fuel init i x y : iteration up down maxr fuel init i x = Ok y -> adds anyR anyK (add_tr x (recv i)) y.
Proof.
  intros E. destruct (iter_split up down maxr fuel init i x y E) as [a [b [Ea [Eb Ey]]]].
  apply (msgs_adds up down maxr fuel init anyR anyK) in Ea; try (intros; exact I).
  apply (lost_adds up down maxr fuel init anyR anyK) in Eb; try (intros; exact I).
  eapply adds_trans; [exact Ea|]. eapply adds_trans; [exact Eb|]. subst y. destruct (i_tick i); [apply adds_besides, check_all_spec|apply adds_refl; reflexivity].
Qed.

(* one after the other: the moves of the server are a run of its event loop *)
Definition served (ms : list move) : list input := flat_map (fun m => match m with Serve i => [i] | _ => [] end) ms.
Section Loop.
  Variables (up down : block -> list block).
  Variable maxr : nat -> Z.
  Variable fuel : nat.
  Variable init : nat -> res unit.
  Lemma loop_snoc ins i : forall x y z, event_loop up down maxr fuel init ins x = Ok y -> sv_stop y = false ->
    iteration up down maxr fuel init i y = Ok z -> event_loop up down maxr fuel init (ins ++ [i]) x = Ok z.
  Proof.
    induction ins as [|j ins IH]; intros x y z; cbn [app event_loop].
    - intros H. assert (x = y) by (destruct (sv_stop x); injection H; auto). subst y. intros -> ->. cbn [bind]. destruct (sv_stop z); reflexivity.
    - destruct (sv_stop x) eqn:S.
      + intros H. injection H as <-. congruence.
      + destruct (iteration _ _ _ _ _ j x) as [w|]; [|discriminate]. cbn [bind]. apply IH.
  Qed.
  Lemma runs_loop y ms y' : runs up down maxr fuel init y ms y' -> event_loop up down maxr fuel init (served ms) (y_sv y) = Ok (y_sv y').
  Proof.
    intros R. induction R as [|ms y1 m y2 R IH S].
    - cbn. destruct (sv_stop (y_sv y)); reflexivity.
    - unfold served. rewrite flat_map_app. fold (served ms). cbn [flat_map]. rewrite app_nil_r.
      destruct S; rewrite ?app_nil_r; try exact IH. eapply loop_snoc; eauto.
  Qed.
End Loop.

Lemma split_after (l tr l2 l1 : list act) st m : Forall (act_ok anyR anyK) l -> l ++ tr = l2 ++ ARecv st m :: l1 ->
  exists l3, tr = l3 ++ ARecv st m :: l1.
Proof.
  revert l2. induction l as [|a l IH]; intros l2 F E; [eauto|]. inversion F; subst. destruct l2 as [|b l2].
  - injection E as -> _. exfalso. auto.
  - injection E as _ E. eapply IH; eauto.
Qed.
Lemma honest_more l tr : Forall (act_ok anyR anyK) l -> P_Notify.honest tr -> P_Notify.honest (l ++ tr).
Proof.
  intros F [H1 H2]. split; intros l2 st.
  - intros t l1 E. destruct (split_after _ _ _ _ _ _ F E) as [l3 ->]. eauto.
  - intros pb w l1 E. destruct (split_after _ _ _ _ _ _ F E) as [l3 ->]. eauto.
Qed.

Section Told.
  Variables (V : list block) (up down : block -> list block) (seeds : nat -> list block).
  Variable maxr : nat -> Z.
  Variable fuel : nat.
  Hypothesis GG : good_graph V up down seeds.
  Hypothesis EN : enough V fuel.
  Variable s0 : sched.
  Hypothesis FR : fresh V seeds s0.
  Variable tasks : list nat.
  Hypothesis known : forall t, In t tasks -> In t (s_order s0).
  Variable init : nat -> res unit.
  Hypothesis init_ok : forall t, init t = Ok tt.
  Local Notation Good := (Good V up down maxr fuel s0 tasks).
  Local Notation step := (step up down maxr fuel init).
  Local Notation runs := (runs up down maxr fuel init).
  Local Notation steps := (steps up down maxr fuel init (held_r) (known_a tasks)).

  Lemma input_good y i : Good y -> input_ok y i -> good_input V tasks i.
  Proof.
    intros [Y _] [H1 [H2 _]]. split; auto. destruct (i_get i) as [st m| | |e]; auto. destruct H2 as [Hst [r E]].
    pose proof (yi_out _ _ _ _ _ _ _ _ _ _ _ Y st m Hst) as M. rewrite E in M. specialize (M (or_introl eq_refl)).
    destruct m as [t|pb|pb w|e|]; cbn in *; try tauto. subst t. apply (yi_task _ _ _ _ _ _ _ _ _ _ _ Y). auto.
  Qed.
  Lemma runs_inputs y ms y' : Good y -> runs y ms y' -> Forall (good_input V tasks) (served ms).
  Proof.
    intros G R. induction R as [|ms y1 m y2 R IH S]; [constructor|]. unfold served. rewrite flat_map_app. apply Forall_app. split; [exact IH|].
    cbn [flat_map]. rewrite app_nil_r. destruct S; [constructor..|]. constructor; [|constructor].
    eapply input_good; [|eauto]. eapply runs_good; eauto.
  Qed.
  Definition noted (sv : server) : Prop := forall t, In t (sv_started sv) -> exists ts, In (ANote (NStart t ts)) (sv_tr sv).
  Lemma once_noted sv : once sv -> noted sv.
  Proof.
    intros O t Ht. destruct (O t) as [O1 _]. apply mem_nat in Ht. rewrite Ht in O1. cbn in O1.
    assert (P : (0 < times (is_start t) (sv_tr sv))%nat) by lia. apply times_pos in P. destruct P as [a [Ha E]].
    destruct a as [| | |n| | | | | |]; try discriminate. destruct n; try discriminate. cbn in E. apply Nat.eqb_eq in E. subst. eauto.
  Qed.
  Lemma step_honest y m y' : Good y -> noted (y_sv y) -> step y m y' -> P_Notify.honest (sv_tr (y_sv y)) -> P_Notify.honest (sv_tr (y_sv y')).
  Proof.
    intros [Y _] No S H. destruct S as [| | | | | | | |i sv l Sp Io Ei El]; auto. cbn [y_sv].
    destruct (iter_adds _ _ _ _ _ _ _ _ Ei) as [l1 [E1 F1]]. rewrite E1. apply honest_more; auto. cbn [add_tr sv_tr].
    unfold recv. destruct Io as [_ [G _]]. destruct (i_get i) as [st m| | |e]; auto. destruct G as [Hst [r E]].
    pose proof (yi_out _ _ _ _ _ _ _ _ _ _ _ Y st m Hst) as M. rewrite E in M. specialize (M (or_introl eq_refl)).
    destruct H as [H1 H2]. split.
    - intros l2 st1 t k Ek. destruct l2 as [|a l2]; cbn [app] in Ek.
      + injection Ek as <- -> <-. cbn in M. subst t. apply No. apply (yi_start _ _ _ _ _ _ _ _ _ _ _ Y); auto.
        intros U. pose proof (yi_talk _ _ _ _ _ _ _ _ _ _ _ Y st Hst) as T. cbv beta iota in T. unfold talk in T. rewrite U in T.
        destruct T as [T _]. congruence.
      + injection Ek as _ Ek. eauto.
    - intros l2 st1 pb w k Ek. destruct l2 as [|a l2]; cbn [app] in Ek.
      + injection Ek as <- -> <-. cbn in M. tauto.
      + injection Ek as _ Ek. eauto.
  Qed.
End Told.

(* the body of a block ends well, and what follows if it does so for the blocks that are not bad *)
Definition well (o : Client.outcome) : Prop :=
  match o with Client.Finished SUCCESS | Client.Finished PROCESSING => True | _ => False end.
Definition obeys (bad : block -> Prop) (y : sys) (m : move) : Prop :=
  match m with
  | Finish st o => forall pb, w_at (y_w y st) = Working pb -> well o /\ ~ bad (pb_block pb) \/ ~ well o /\ bad (pb_block pb)
  | Die _ _ => False
  | Serve i => forall k b, i_chk i k b = CheckTrue -> ~ bad b
  | _ => True
  end.
Definition rel_fits (bad : block -> Prop) (pb : pyblock) : Prop :=
  pb_status pb = SUCCESS /\ ~ bad (pb_block pb) \/ pb_status pb = FAILED /\ bad (pb_block pb).
Definition msg_fits bad (m : message) : Prop :=
  match m with MRelease pb => rel_fits bad pb | MBlockFailed pb _ => bad (pb_block pb) | _ => True end.
Definition accord (bad : block -> Prop) (h : history) : Prop :=
  forall e, In e h -> match e with EvRel pb => rel_fits bad pb | EvSkip b => ~ bad b | _ => True end.
Lemma told_fits bad m pb : told m pb -> msg_fits bad m -> rel_fits bad pb.
Proof. destruct m; cbn; try tauto; intros ->; auto. right. auto. Qed.
Lemma returned_fits bad st pb o : (forall s, o <> Client.Interrupted s) ->
  well o /\ ~ bad (pb_block pb) \/ ~ well o /\ bad (pb_block pb) -> forall m, In m (returned st pb o) -> msg_fits bad m.
Proof.
  intros N H m Hm. destruct o as [s|s|s]; [| |exfalso; eapply N; reflexivity].
  - destruct s; cbn in Hm, H; destruct Hm as [<-|[]]; unfold msg_fits, rel_fits; cbn; tauto.
  - cbn in Hm, H. destruct Hm as [<-|[<-|[]]]; unfold msg_fits, rel_fits; cbn; tauto.
Qed.
Lemma accord_agrees bad maxr h : accord bad h -> agrees bad maxr h.
Proof.
  intros A. split.
  - intros b [P _]. unfold n_failed in P.
    assert (X : exists pb, In (EvRel pb) h /\ pb_block pb = b /\ pb_status pb = FAILED).
    { clear A. induction h as [|e h IH]; cbn [count] in P; [lia|]. destruct e as [| | |pb];
        try (destruct (IH P) as [pb' [H1 H2]]; exists pb'; split; [right|]; auto; fail).
      unfold is_block in P at 1. destruct (block_dec (pb_block pb) b) as [E|]; cbn [andb] in P.
      - destruct (pb_status pb) eqn:S; cbn [status_eqb] in P;
          try (destruct (IH P) as [pb' [H1 H2]]; exists pb'; split; [right|]; auto; fail).
        exists pb. split; [left|]; auto.
      - destruct (IH P) as [pb' [H1 H2]]. exists pb'. split; [right|]; auto. }
    destruct X as [pb [H1 [<- H2]]]. apply A in H1. cbn in H1. unfold rel_fits in H1. rewrite H2 in H1. destruct H1 as [[H1 _]|[_ H1]]; [discriminate|auto].
  - intros b [H|H]; apply A in H; cbn in H; auto. destruct H as [[_ H]|[H _]]; [exact H|discriminate].
Qed.
Lemma adds_accord bad x y : adds (rel_fits bad) (fun b => ~ bad b) x y -> accord bad (hist (sv_tr x)) -> accord bad (hist (sv_tr y)).
Proof.
  intros [l [E F]] A e He. rewrite E in He. unfold hist in He. rewrite flat_map_app in He. apply in_app_or in He. destruct He as [He|He]; [|apply A; exact He].
  apply in_flat_map in He. destruct He as [a [Ha He]]. rewrite Forall_forall in F. specialize (F a Ha).
  destruct a as [| |e'| | | | | | |]; try (destruct He; fail). destruct He as [<-|[]]. destruct e'; cbn in *; auto.
Qed.

Section Fits.
  Variables (V : list block) (up down : block -> list block) (seeds : nat -> list block).
  Variable maxr : nat -> Z.
  Variable fuel : nat.
  Hypothesis GG : good_graph V up down seeds.
  Hypothesis EN : enough V fuel.
  Variable s0 : sched.
  Hypothesis FR : fresh V seeds s0.
  Variable tasks : list nat.
  Hypothesis known : forall t, In t tasks -> In t (s_order s0).
  Variable init : nat -> res unit.
  Hypothesis init_ok : forall t, init t = Ok tt.
  Local Notation Good := (Good V up down maxr fuel s0 tasks).
  Local Notation step := (step up down maxr fuel init).
  Variable bad : block -> Prop.
  Definition fits_w (w : worker) : Prop := w_at w <> Dead /\ w_at w <> Replaced /\ forall m, In m (w_out w) -> msg_fits bad m.
  Definition Fits (y : sys) : Prop := (forall st, In st (y_team y) -> fits_w (y_w y st)) /\ accord bad (hist (sv_tr (y_sv y))).
  Lemma put_fits y st w : Fits y -> fits_w w -> Fits (put y st w).
  Proof.
    intros [F A] H. split; auto. intros s Hs. cbn [put y_w]. destruct (Nat.eqb s st); auto.
  Qed.
  Lemma step_fits y m y' : Good y -> obeys bad y m -> step y m y' -> Fits y -> Fits y'.
  Proof.
    intros G O S F. pose proof F as [Fw Fa].
    destruct S as [st t o r Hst Ew Hs Fs|st t o r Hst Ew|st t o pb r Hst Ew|st t o r Hst Ew|st t o pb r out Hst Ew No|st t p o r n Hst Ew Rn Sd|st st' t o r Hst Ew Nt|st t Nt Ht|i sv l Sp Io Ei El].
    1-5: apply put_fits; auto; pose proof (Fw st Hst) as [_ [_ M]]; rewrite Ew in M; cbn in M;
         split; [discriminate|split; [discriminate|]]; cbn [w_out]; auto.
    - intros m Hm. apply in_app_or in Hm. destruct Hm as [Hm|[<-|[]]]; auto.
    - intros m Hm. apply in_app_or in Hm. destruct Hm as [Hm|Hm]; auto. cbn in O. rewrite Ew in O. specialize (O pb eq_refl).
      eapply returned_fits; eauto.
    - destruct O.
    - pose proof (Fw st Hst) as [D _]. rewrite Ew in D. destruct D. reflexivity.
    - split; auto. cbn [y_team y_w]. intros s [<-|Hs]; [rewrite Nat.eqb_refl; split; [discriminate|split; [discriminate|intros m []]]|].
      destruct (Nat.eqb_spec s st) as [->|]; [tauto|auto].
    - cbn in O. split; cbn [y_team y_w y_sv].
      + intros s Hs. pose proof (Fw s Hs) as [F1 [F2 F3]]. unfold fits_w. rewrite at_moved. split; auto. split; auto.
        intros m Hm. apply F3. unfold deliver in Hm. cbn [w_out] in Hm. unfold taken in Hm. destruct (i_get i); auto.
        destruct (Nat.eqb _ _); auto. cbn [w_out] in Hm. destruct (w_out (y_w y s)); [destruct Hm|right; exact Hm].
      + destruct G as [Y Gf]. destruct (iter_split up down maxr fuel init i _ _ Ei) as [a [b [Ea [Eb Ey]]]].
        assert (Io' : input_ok (Sys (y_sv y) (y_team y) (y_w y)) i) by (destruct y; exact Io).
        pose proof (msgs_hm V up down seeds maxr fuel GG EN s0 FR tasks known init init_ok _ _ _ _ _ Y Io' Ea) as Q.
        destruct (hm_yinv V up down seeds maxr fuel GG EN s0 FR tasks init init_ok _ _ _ _ _ Y Q) as [l1 [L1 [Y1 _]]].
        assert (L0 : lost_in i a = []).
        { unfold lost_in. destruct (filter _ _) as [|e q] eqn:Ef; auto. exfalso.
          assert (He : In e (e :: q)) by (left; auto). rewrite <- Ef in He. apply filter_In in He. destruct He as [He Hc].
          destruct Io as [_ [_ [Cl _]]]. destruct (Cl _ Hc) as [Hst Of].
          pose proof (yi_talk _ _ _ _ _ _ _ _ _ _ _ Y1 (lg_stream (snd e)) Hst) as T. cbv beta iota in T. unfold talk in T. rewrite at_moved in T.
          destruct (Fw _ Hst) as [F1 [F2 _]].
          destruct (w_at (y_w y (lg_stream (snd e)))); try (destruct Of; fail); try (exfalso; auto; fail).
          destruct T as [_ [_ [_ T]]]. apply (proj1 (free_iff _ _) T e He). reflexivity. }
        destruct (lost_more up down maxr fuel init i _ _ Eb) as [[l2 [L2 _]] _].
        destruct (lost_pot V up down seeds maxr fuel GG EN s0 FR tasks init init_ok i a b l2 (yi_sv _ _ _ _ _ _ _ _ _ _ _ Y1) Eb L2) as [_ [_ Z]].
        specialize (Z L0). subst b.
        assert (A1 : adds (rel_fits bad) (fun b => ~ bad b) (add_tr (y_sv y) (recv i)) a).
        { eapply msgs_adds; [| |exact Ea]; [|exact O]. intros st m pb Gm Tm. destruct Io as [_ [Gi _]]. rewrite Gm in Gi. destruct Gi as [Hst [r Er]].
          destruct (Fw st Hst) as [_ [_ F3]]. eapply told_fits; [exact Tm|]. apply F3. rewrite Er. left. reflexivity. }
        assert (A2 : adds (rel_fits bad) (fun b => ~ bad b) a sv).
        { subst sv. destruct (i_tick i); [apply adds_besides, check_all_spec|apply adds_refl; reflexivity]. }
        apply (adds_accord _ _ _ A2). apply (adds_accord _ _ _ A1). cbn [add_tr sv_tr]. unfold recv. destruct (i_get i); exact Fa.
  Qed.
End Fits.

(* the same when workers may die and blocks may fail for other reasons: bad blocks never end well *)
Definition sincere (bad : block -> Prop) (y : sys) (m : move) : Prop :=
  match m with
  | Finish st o => well o -> forall pb, w_at (y_w y st) = Working pb -> ~ bad (pb_block pb)
  | Serve i => forall k b, i_chk i k b = CheckTrue -> ~ bad b
  | _ => True
  end.
Definition rel_true (bad : block -> Prop) (pb : pyblock) : Prop := pb_status pb = SUCCESS -> ~ bad (pb_block pb).
Definition msg_true bad (m : message) : Prop := match m with MRelease pb => rel_true bad pb | _ => True end.
Definition truthful (bad : block -> Prop) (h : history) : Prop :=
  forall e, In e h -> match e with EvRel pb => rel_true bad pb | EvSkip b => ~ bad b | _ => True end.
Lemma told_true bad m pb : told m pb -> msg_true bad m -> rel_true bad pb.
Proof. destruct m; cbn; try tauto; intros ->; auto. intros _ E. discriminate. Qed.
Lemma returned_true bad st pb o : (forall s, o <> Client.Interrupted s) ->
  (well o -> ~ bad (pb_block pb)) -> forall m, In m (returned st pb o) -> msg_true bad m.
Proof.
  intros N H m Hm. destruct o as [s|s|s]; [| |exfalso; eapply N; reflexivity].
  - destruct s; cbn in Hm, H; destruct Hm as [<-|[]]; unfold msg_true, rel_true; cbn; auto; discriminate.
  - cbn in Hm, H. destruct Hm as [<-|[<-|[]]]; unfold msg_true, rel_true; cbn; auto; discriminate.
Qed.
Lemma truthful_succ bad h b : truthful bad h -> succeeded h b -> ~ bad b.
Proof. intros A [H|H]; apply A in H; cbn in H; auto. Qed.
Lemma adds_truthful bad x y : adds (rel_true bad) (fun b => ~ bad b) x y -> truthful bad (hist (sv_tr x)) -> truthful bad (hist (sv_tr y)).
Proof.
  intros [l [E F]] A e He. rewrite E in He. unfold hist in He. rewrite flat_map_app in He. apply in_app_or in He. destruct He as [He|He]; [|apply A; exact He].
  apply in_flat_map in He. destruct He as [a [Ha He]]. rewrite Forall_forall in F. specialize (F a Ha).
  destruct a as [| |e'| | | | | | |]; try (destruct He; fail). destruct He as [<-|[]]. destruct e'; cbn in *; auto.
Qed.
Section Sincere.
  Variables (up down : block -> list block).
  Variable maxr : nat -> Z.
  Variable fuel : nat.
  Variable init : nat -> res unit.
  Variable bad : block -> Prop.
  Definition Sincere (y : sys) : Prop :=
    (forall st, In st (y_team y) -> forall m, In m (w_out (y_w y st)) -> msg_true bad m) /\ truthful bad (hist (sv_tr (y_sv y))).
  Lemma step_sincere y m y' : sincere bad y m -> step up down maxr fuel init y m y' -> Sincere y -> Sincere y'.
  Proof.
    intros O S F. pose proof F as [Fw Fa].
    assert (P : forall st w, In st (y_team y) -> (forall m, In m (w_out w) -> msg_true bad m) -> Sincere (put y st w)).
    { intros st w Hst Hw. split; auto. intros s Hs. cbn [put y_w]. destruct (Nat.eqb s st); auto. apply Fw. exact Hs. }
    destruct S as [st t o r Hst Ew Hs Fs|st t o r Hst Ew|st t o pb r Hst Ew|st t o r Hst Ew|st t o pb r out Hst Ew No|st t p o r n Hst Ew Rn Sd|st st' t o r Hst Ew Nt|st t Nt Ht|i sv l Sp Io Ei El].
    1-6: apply P; auto; pose proof (Fw st Hst) as M; rewrite Ew in M; cbn in M; cbn [w_out]; auto.
    - intros m Hm. apply in_app_or in Hm. destruct Hm as [Hm|[<-|[]]]; auto.
    - intros m Hm. apply in_app_or in Hm. destruct Hm as [Hm|Hm]; auto. cbn in O. rewrite Ew in O.
      apply (returned_true bad st pb out No) with (m := m); auto.
    - intros m Hm. apply M. rewrite <- (firstn_skipn n o). apply in_or_app. auto.
    - split; auto. cbn [y_team y_w]. intros s [<-|Hs]; [rewrite Nat.eqb_refl; intros m []|].
      destruct (Nat.eqb s st'); [intros m []|]. destruct (Nat.eqb_spec s st) as [->|]; intros m Hm; [|apply (Fw s Hs); exact Hm].
      apply (Fw st Hst). rewrite Ew. exact Hm.
    - split; auto. cbn [y_team y_w]. intros s [<-|Hs]; [rewrite Nat.eqb_refl; intros m []|].
      destruct (Nat.eqb_spec s st) as [->|]; [intros m []|]. apply (Fw s Hs).
    - cbn in O. split; cbn [y_team y_w y_sv].
      + intros s Hs m Hm. apply (Fw s Hs). unfold deliver in Hm. cbn [w_out] in Hm. unfold taken in Hm. destruct (i_get i); auto.
        destruct (Nat.eqb _ _); auto. cbn [w_out] in Hm. destruct (w_out (y_w y s)); [destruct Hm|right; exact Hm].
      + destruct (iter_split up down maxr fuel init i _ _ Ei) as [a [b [Ea [Eb Ey]]]].
        apply (msgs_adds up down maxr fuel init (rel_true bad) (fun b => ~ bad b)) in Ea; [| |exact O].
        2:{ intros st m pb Gm Tm. destruct Io as [_ [Gi _]]. rewrite Gm in Gi. destruct Gi as [Hst [r Er]].
            eapply told_true; [exact Tm|]. apply (Fw st Hst). rewrite Er. left. reflexivity. }
        apply (lost_adds up down maxr fuel init (rel_true bad) (fun b => ~ bad b)) in Eb; [|intros c E; discriminate].
        assert (A2 : adds (rel_true bad) (fun b => ~ bad b) b sv).
        { subst sv. destruct (i_tick i); [apply adds_besides, check_all_spec|apply adds_refl; reflexivity]. }
        apply (adds_truthful _ _ _ A2), (adds_truthful _ _ _ Eb), (adds_truthful _ _ _ Ea).
        cbn [add_tr sv_tr]. unfold recv. destruct (i_get i); exact Fa.
  Qed.
End Sincere.
