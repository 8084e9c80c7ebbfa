(* One move of the whole: what is kept, and what it costs. *)
From Coq Require Import Arith Lia.
From Verif Require Import VecFacts SchedProps SerialFacts P_Conv ServerFacts ServerSteps PoolGrow SysTrace WholeSrv.
From Verif Require Export WholeSim.
From Verif Require Client Pool P_Pool.
Open Scope Z_scope.

(* the whole as a system of Sys.v *)
Definition Y (h : whole) : sys :=
  Sys (h_sv h) (rev (seq 0 (Pool.nxt (Pool.ps_sys (h_ps h))))) (abs_w (h_ps h) (h_w h)).
Lemma mirror_Y h : mirror (Y h) (h_sv h) (h_ps h) (h_w h).
Proof. constructor; auto. Qed.
(* the same but for workers that do not exist *)
Record alike (y y' : sys) : Prop := {
  al_s : sv_s (y_sv y') = sv_s (y_sv y);
  al_book : sv_book (y_sv y') = sv_book (y_sv y);
  al_started : sv_started (y_sv y') = sv_started (y_sv y);
  al_team : y_team y' = y_team y;
  al_w : forall st, In st (y_team y) -> y_w y' st = y_w y st
}.
Lemma alike_refl y : alike y y.
Proof. constructor; auto. Qed.
Lemma alike_trans y y1 y2 : alike y y1 -> alike y1 y2 -> alike y y2.
Proof.
  intros [A1 A2 A3 A4 A5] [B1 B2 B3 B4 B5]. constructor; try congruence. intros st H. rewrite B5, A5; auto. rewrite A4. auto.
Qed.
Lemma same_alike y y' : same y y' -> alike y y'.
Proof. intros [A1 [A2 [A3 [A4 A5]]]]. constructor; auto. Qed.
Lemma mirror_alike y h : mirror y (h_sv h) (h_ps h) (h_w h) -> alike y (Y h).
Proof.
  intros M. constructor; cbn [Y y_sv y_team y_w]; rewrite ?(mi_sv _ _ _ _ M); auto.
  - symmetry. apply M.
  - intros st H. apply (mi_in _ _ _ _ st M) in H. symmetry. apply M. auto.
Qed.
Lemma alike_move y y' st : alike y y' -> can_move y st -> can_move y' st.
Proof.
  intros [A1 A2 A3 A4 A5]. unfold can_move, has_block. rewrite A2, A3, A4. intros [H1 H2]. rewrite (A5 st H1). split; auto.
  destruct (w_at (y_w y st)); auto. destruct H2 as [H2 H3]. split; auto. intros s Hs. rewrite (A5 s Hs). apply H3. auto.
Qed.
Lemma alike_sym y y' : alike y y' -> alike y' y.
Proof. intros [A1 A2 A3 A4 A5]. constructor; auto. intros st H. symmetry. apply A5. rewrite <- A4. auto. Qed.

Section Step.
  Variables (V : list block) (up down : block -> list block) (seeds : nat -> list block).
  Variable maxr : nat -> Z.
  Variable fuel : nat.
  Hypothesis GG : good_graph V up down seeds.
  Hypothesis EN : enough V fuel.
  Variable s0 : sched.
  Hypothesis FR : fresh V seeds s0.
  Variable tasks : list nat.
  Hypothesis known : forall t, In t tasks -> In t (s_order s0).
  Variable init : nat -> res unit.
  Hypothesis init_ok : forall t, init t = Ok tt.
  Local Notation Good := (Good V up down maxr fuel s0 tasks).
  Local Notation Full := (Full V up down maxr fuel s0 tasks).
  Local Notation step := (step up down maxr fuel init).
  Local Notation runs := (runs up down maxr fuel init).
  Local Notation mu2 := (mu2 V maxr).
  Variable nw : nat -> Z.
  Hypothesis nw_ok : forall t, 0 <= nw t.
  Variable mbf : Z.
  Let keys := dedup Nat.eqb tasks.
  Hypothesis keys_nodup : NoDup keys.
  Local Notation HI := (HI nw keys).
  Local Notation hstep := (hstep up down maxr fuel init nw mbf).
  Local Notation hruns := (hruns up down maxr fuel init nw mbf).
  Local Notation tb ps := (Pool.tbl (Pool.ps_sys ps)).
  Local Notation nx ps := (Pool.nxt (Pool.ps_sys ps)).
  Local Notation spare := (spare tasks nw).

  Lemma good_ext y y' : y_sv y' = y_sv y -> alike y y' -> Good y -> Good y'.
  Proof.
    intros Es [A1 A2 A3 A4 A5] [G1 G2]. split; rewrite Es, A4.
    - eapply yinv_ext; eauto.
    - intros st Hst. rewrite A5 by auto. intros Rs. destruct (G2 st Hst Rs) as [F|[s [H1 [H2 H3]]]]; auto. right. exists s. rewrite A5 by auto. auto.
  Qed.
  Lemma mu2_ext y y' : y_sv y' = y_sv y -> alike y y' -> mu2 y' = mu2 y.
  Proof.
    intros Es [A1 A2 A3 A4 A5]. unfold mu2, mus, mu, deads. rewrite Es, A4. f_equal; [f_equal|]; apply sum_same; intros st H; rewrite A5; auto.
  Qed.
  Lemma full_ext y y' : y_sv y' = y_sv y -> alike y y' -> Full y -> Full y'.
  Proof.
    intros Es A [G [L [K R]]]. split; [eapply good_ext; eauto|]. split; [rewrite Es; auto|]. destruct A as [A1 A2 A3 A4 A5]. split.
    2:{ intros u st Ru. rewrite Es, A4. intros Q T. destruct (R u st Ru Q) as [s [S1 [S2 S3]]].
        - destruct T as [T|[e [T1 [T2 T3]]]]; [left; auto|right]. exists e. rewrite A5 in T3; [auto|].
          destruct G as [Y _]. apply (yi_book _ _ _ _ _ _ _ _ _ _ _ Y e T1).
        - exists s. rewrite A5 by auto. auto. }
    intros t Ht. rewrite Es, A4.
    destruct (K t Ht) as [[st [H1 [H2 H3]]]|[H|H]]; auto.
    - left. exists st. rewrite A5; auto.
    - right. right. intros st Hst. rewrite A5; auto.
  Qed.
  Definition mu3 (h : whole) : Z := mu2 (Y h) + 7 * spare (sv_started (h_sv h)).
  Definition HW (h : whole) : Prop := HI (sv_started (h_sv h)) (h_ps h) (h_w h).
  Lemma known_lt h st : HW h -> (Whole.known h st <-> (st < nx (h_ps h))%nat).
  Proof. intros H. apply (hi_known _ _ _ _ _ st H). Qed.
  Lemma in_Y h st : In st (y_team (Y h)) <-> (st < nx (h_ps h))%nat.
  Proof. apply (mi_in _ _ _ _ st (mirror_Y h)). Qed.
  Lemma alive_lt h st t : HW h -> proc h st = Some (t, Pool.Running) -> (st < nx (h_ps h))%nat.
  Proof. intros H E. apply (hi_known _ _ _ _ _ st H). unfold proc in E. congruence. Qed.
  Lemma Y_alive h st t : HW h -> proc h st = Some (t, Pool.Running) -> y_w (Y h) st = h_w h st.
  Proof. intros H E. cbn [Y y_w]. eapply abs_running; eauto. Qed.

  (* the move of Sys.v *)
  Definition image (m : hmove) : option move :=
    match m with
    | HConnect st => Some (Spawn st) | HAsk st => Some (Ask st) | HGet st => Some (Get st)
    | HFinish st o => Some (Finish st o) | HExit _ => None | HEnd st n _ => Some (Die st n) | HServe i _ => Some (Serve i)
    end.
  (* what is known about the end of a move *)
  Definition ends_in (h : whole) (m : hmove) (h' : whole) (y1 y' : sys) : Prop :=
    match m with
    | HEnd _ _ _ => mu3 h' <= mu3 h + 8
    | HExit _ => y' = Y h
    | HServe i _ => y_sv y1 = h_sv h' /\ ~ down_in (h_ps h') (h_w h') /\
        (mu3 h' + 1 <= mu3 h \/ mu3 h' <= mu3 h /\ ~ works (Y h) (Serve i) y1 /\ ~ down_in (h_ps h) (h_w h) /\ same (Y h) y')
    | _ => mu3 h' + 1 <= mu3 h
    end.
  Definition simulated (h : whole) (m : hmove) (h' : whole) : Prop :=
    HW h' /\ exists y1 ms y', match image m with Some m0 => step (Y h) m0 y1 | None => y1 = Y h end /\
      (runs y1 ms y' /\ Forall pool_move ms) /\ mirror y' (h_sv h') (h_ps h') (h_w h') /\ ends_in h m h' y1 y'.

  (* one worker moves *)
  Lemma put_sim h st t w mv m : HW h -> Good (Y h) -> proc h st = Some (t, Pool.Running) -> step (Y h) mv (put (Y h) st w) ->
    upsets mv = false -> works (Y h) mv (put (Y h) st w) ->
    w_task w = w_task (h_w h st) -> w_at w <> Dead -> w_at w <> Replaced -> (w_at (h_w h st) = Left -> w_at w = Left) ->
    (forall pb v, In (MBlockFailed pb v) (w_out w) -> v = st /\ b_task (pb_block pb) = w_task (h_w h st)) ->
    image m = Some mv -> (forall y1 y', mu3 (hput h st w) + 1 <= mu3 h -> ends_in h m (hput h st w) y1 y') -> simulated h m (hput h st w).
  Proof.
    intros H G E Sp Ups Wk Tk Nd Nr Lf Bf Im En. assert (M : mirror (put (Y h) st w) (h_sv (hput h st w)) (h_ps (hput h st w)) (h_w (hput h st w))).
    { cbn [hput h_sv h_ps h_w]. eapply mi_put; eauto; [apply mirror_Y|..].
      - cbn. rewrite Nat.eqb_refl. reflexivity.
      - intros s N. rewrite (proj2 (Nat.eqb_neq _ _) N). reflexivity. }
    split.
    - unfold HW. cbn [hput h_sv h_ps h_w]. eapply hi_moved; [exact H|]. intros j Hj. destruct (Nat.eqb_spec j st) as [->|N].
      + repeat split; auto; try congruence; try (intros; destruct (Bf pb w0); auto; fail).
        all: try (intros D; exfalso; destruct (hi_run _ _ _ _ _ H _ _ E) as [X _]; auto; fail).
      + repeat split; auto; try (eapply (hi_phase _ _ _ _ _ H); apply (hi_known _ _ _ _ _ j H); auto; fail);
          destruct (hi_bf _ _ _ _ _ H j pb w0) as [B1 [B2 B3]]; auto; apply (hi_known _ _ _ _ _ j H); auto.
    - exists (put (Y h) st w), [], (put (Y h) st w). rewrite Im. split; auto. split; [split; constructor|]. split; auto. apply En.
      destruct (step_mu2 V up down seeds maxr fuel GG EN s0 FR tasks known init init_ok _ _ _ G Sp Ups) as [_ Mu]. specialize (Mu (or_introl Wk)).
      unfold mu3. rewrite (mu2_ext (put (Y h) st w) (Y (hput h st w))); [|reflexivity|apply mirror_alike; exact M]. cbn [hput h_sv]. lia.
  Qed.

  Lemma gone_Y h s : HW h -> In s (y_team (Y h)) -> w_at (y_w (Y h) s) = Replaced -> gone h s.
  Proof.
    intros H Hs Rs. apply in_Y in Hs. assert (K : Whole.known h s) by (apply (hi_known _ _ _ _ _ s H); auto).
    cbn [Y y_w abs_w w_at] in Rs. pose proof (hi_phase _ _ _ _ _ H s K) as N. unfold abs_at in Rs.
    destruct (w_at (h_w h s)) eqn:A; try congruence. destruct (pooledb (h_ps h) s) eqn:P; [discriminate|]. apply pooledb_not in P. split; auto.
  Qed.
  Lemma Y_gone h s : HW h -> gone h s -> In s (y_team (Y h)) /\ w_at (y_w (Y h) s) = Replaced.
  Proof.
    intros H [K [D N]]. split; [apply in_Y, (hi_known _ _ _ _ _ s H), K|]. cbn. unfold abs_at. rewrite D. apply pooledb_not in N. rewrite N. reflexivity.
  Qed.

  Lemma serve_input h i cut : HW h -> hinput_ok h i -> prudent h (HServe i cut) -> input_ok (Y h) i.
  Proof.
    intros H [I1 [I2 I3]] P. split; auto. split; [|split].
    - destruct (i_get i) as [st m| | |e]; auto. destruct I2 as [K [r Er]]. split; [apply in_Y, (hi_known _ _ _ _ _ st H), K|]. exists r. exact Er.
    - intros st Hc. destruct (I3 st Hc) as [K O]. split; [apply in_Y, (hi_known _ _ _ _ _ st H), K|]. cbn. unfold abs_at.
      destruct (w_at (h_w h st)); auto. destruct (pooledb _ _); exact Logic.I.
    - intros st Hst Rs. apply (gone_Y h st H Hst) in Rs. destruct (P st Rs) as [C|[u [[K T] E]]]; auto. right. exists u.
      split; [apply in_Y, (hi_known _ _ _ _ _ u H), K|]. split; [exact E|]. cbn. destruct T as [T|[T Pu]]; rewrite T; cbn; auto.
      apply pooledb_iff in Pu. rewrite Pu. exact Logic.I.
  Qed.

  Lemma taken_in g st w x : In x (w_out (taken g st w)) -> In x (w_out w).
  Proof. unfold taken. destruct g; auto. destruct (Nat.eqb _ _); auto. cbn. destruct (w_out w); cbn; auto. Qed.
  Lemma serve_on h i cut sv l : HW h -> Good (Y h) -> prudent h (HServe i cut) -> sv_stop (h_sv h) = false -> hinput_ok h i ->
    iteration up down maxr fuel init i (h_sv h) = Ok sv -> sv_tr sv = l ++ sv_tr (h_sv h) ->
    exists ps f, on_all nw mbf cut (pool_acts l ++ [Pool.PHealth]) (h_ps h) (fun s => deliver s l (taken (i_get i) s (h_w h s))) = Ok (ps, f) /\
      simulated h (HServe i cut) (Whole sv ps f).
  Proof.
    intros H G P Sp Io Ei El.
    pose proof (serve_input h i cut H Io P) as Iy.
    assert (Sy := step_serve up down maxr fuel init (Y h) i sv l Sp Iy Ei El). set (y1 := Sys _ _ _) in Sy.
    set (f1 := fun s => deliver s l (taken (i_get i) s (h_w h s))) in *.
    assert (T1 : forall s, w_task (f1 s) = w_task (h_w h s)) by (intros s; apply task_moved).
    assert (A1 : forall s, w_at (f1 s) = w_at (h_w h s)) by (intros s; apply at_moved).
    assert (M1 : mirror y1 sv (h_ps h) f1).
    { constructor; auto. intros st Hst. cbn [y1 y_w Y]. unfold abs_w. rewrite A1. unfold f1, deliver, taken. cbn [w_task w_at w_out w_in].
      destruct (i_get i); auto. destruct (Nat.eqb _ _); reflexivity. }
    assert (G1 := step_good V up down seeds maxr fuel GG EN s0 FR tasks known init init_ok _ _ _ G Sy).
    assert (Hf : HI (sv_started (h_sv h)) (h_ps h) f1).
    { eapply hi_moved; [exact H|]. intros j Hj. rewrite T1, A1. repeat split; auto.
      1: apply (hi_phase _ _ _ _ _ H), (hi_known _ _ _ _ _ j H); auto.
      all: destruct (hi_bf _ _ _ _ _ H j pb w) as [B1 [B2 B3]]; auto; [apply (hi_known _ _ _ _ _ j H); auto|].
      all: cbn [f1 deliver w_out] in H0; eapply taken_in; eauto. }
    pose proof (iter_fails up down maxr fuel init i _ _ _ Ei El) as Fl.
    pose proof (iter_recruited up down maxr fuel init i _ _ _ Ei El) as Rc.
    assert (Rs : forall t, In t (sv_started (h_sv h) ++ erecs (pool_acts l)) <-> In t (sv_started sv)).
    { intros t. rewrite in_app_iff, acts_recs, Rc. tauto. }
    assert (Fo : efails (pool_acts l) = [] \/ exists t w, efails (pool_acts l) = [(t, w)] /\ ev_ok (Pool.PFailure t w) (h_ps h) f1 /\
      exists st pb, i_get i = GotMessage st (MBlockFailed pb w)).
    { rewrite acts_fails, Fl. destruct Io as [_ [Io _]]. destruct (i_get i) as [st m| | |e] eqn:Eg; auto. destruct m as [t|pb|pb w|e|]; auto. right.
      exists (b_task (pb_block pb)), w. split; [reflexivity|]. destruct Io as [K [r Er]].
      destruct (hi_bf _ _ _ _ _ H st pb w K) as [Ew [Et Nd]]; [rewrite Er; left; auto|]. subst w.
      assert (Lt : (st < nx (h_ps h))%nat) by (apply (hi_known _ _ _ _ _ st H); auto).
      pose proof (yi_talk _ _ _ _ _ _ _ _ _ _ _ (proj1 G) st (proj2 (in_Y h st) Lt)) as Tk. cbn iota in Tk.
      unfold talk in Tk. cbn [Y y_w abs_w w_at w_out w_in w_task] in Tk. rewrite Er in Tk.
      assert (Ph : w_at (h_w h st) <> Left /\ forall pb' v, ~ In (MBlockFailed pb' v) r).
      { unfold abs_at in Tk. destruct (w_at (h_w h st)) eqn:Pt.
        - destruct Tk as [Q _]. discriminate Q.
        - split; [discriminate|]. destruct Tk as [_ [_ O]]. cbn in O. destruct r as [|[| | | |] [|? ?]]; try tauto. intros pb' v [Q|[]]. discriminate Q.
        - split; [discriminate|]. destruct Tk as [[o [Eo' [_ [_ O]]]]|[[Q _]|[[Q _]|[pb' [Q _]]]]]; try discriminate Q.
          destruct o as [|a o]; cbn in Eo'; [discriminate Eo'|]. injection Eo' as <- ->. cbn in O. destruct o as [|[| | | |] [|? ?]]; try tauto.
          cbn. intros pb' v [Q|[Q|[]]]; discriminate Q.
        - destruct Tk as [Q _]. discriminate Q.
        - destruct Tk as [Q _]. discriminate Q.
        - tauto.
        - exfalso. apply (hi_phase _ _ _ _ _ H st K Pt). }
      destruct Ph as [Nl Nb]. split; [|exists st, pb; reflexivity]. split.
      - destruct (tb (h_ps h) st) as [[t s]|] eqn:Eb; [|unfold Whole.known, proc in K; congruence].
        assert (t = w_task (h_w h st)) by (symmetry; eapply (hi_task _ _ _ _ _ H); eauto). subst t. rewrite Et.
        destruct s as [|c]; auto. destruct (hi_exit _ _ _ _ _ H _ _ _ Eb) as [[X _]|[X _]]; congruence.
      - cbn [f1 deliver w_out]. unfold taken. rewrite Nat.eqb_refl. cbn [w_out]. rewrite Er. exact Nb. }
    rewrite on_all_app.
    destruct (evs_sim V up down seeds maxr fuel GG EN s0 FR tasks known init init_ok nw nw_ok mbf keys_nodup cut (pool_acts l) (sv_started (h_sv h)) (h_ps h) f1 y1 sv) as [ps2 [f2 [ms2 [y2 [E2 [H2 [R2 [M2 [G2 [Mu2 Q2]]]]]]]]]]; auto.
    { intros e He. eapply acts_plain; eauto. }
    { intros t Ht. apply Rs. auto. }
    { destruct Fo as [Fo|[t [w [Fo [Ok _]]]]]; eauto. }
    rewrite E2. cbn [on_all].
    assert (H2' : HI (sv_started sv) ps2 f2) by (eapply hi_ext; [exact H2|exact Rs|reflexivity..]).
    destruct (ev_sim V up down seeds maxr fuel GG EN s0 FR tasks known init init_ok nw nw_ok mbf keys_nodup Pool.PHealth cut (sv_started sv) ps2 f2 y2 sv) as [ps3 [ms3 [y3 [E3 [H3 [R3 [M3 [G3 [Mu3 [Q3 [D3 [X3 _]]]]]]]]]]]]; auto.
    { intros t Ht. auto. }
    { exact Logic.I. }
    rewrite E3. exists ps3, (sync cut ps2 ps3 f2). split; [reflexivity|]. set (h' := Whole sv ps3 (sync cut ps2 ps3 f2)).
    rewrite (spare_ext tasks nw _ _ Rs) in Mu2. cbn [more ev_cost] in Mu3.
    assert (E' : mu3 h' = mu2 y3 + 7 * spare (sv_started sv)).
    { unfold mu3. rewrite (mu2_ext y3 (Y h')); [reflexivity|symmetry; apply M3|apply (mirror_alike y3 h'); exact M3]. }
    split; [exact H3|]. exists y1, (ms2 ++ ms3), y3. split; [exact Sy|].
    split; [destruct R2 as [R2 F2], R3 as [R3 F3]; split; [eapply runs_app; eauto|apply Forall_app; auto]|]. split; [exact M3|].
    split; auto. split; [apply (D3 eq_refl)|].
    destruct (step_mu2 V up down seeds maxr fuel GG EN s0 FR tasks known init init_ok _ _ _ G Sy eq_refl) as [Mu1 Mw].
    destruct Fo as [Fo|[t [w [Fo [_ [st [pb Eg]]]]]]].
    - rewrite Fo in Mu2. cbn [length] in Mu2. unfold mu3 at 2 4. rewrite E'.
      destruct (Z.lt_ge_cases (mu2 y3 + 7 * spare (sv_started sv)) (mu2 (Y h) + 7 * spare (sv_started (h_sv h)))) as [Lt|Ge]; [left; lia|right].
      assert (Nw : ~ works (Y h) (Serve i) y1) by (intros W; specialize (Mw (or_introl W)); lia).
      assert (Sm : same (Y h) y1) by (apply (calm V up down seeds maxr fuel GG EN s0 FR tasks known init init_ok _ (Serve i)); auto).
      assert (Es : sv_started sv = sv_started (h_sv h)) by apply Sm.
      destruct Q2 as [-> Q2]; auto.
      { intros x Hx. rewrite <- Es. apply Rs, in_or_app. auto. }
      assert (Nd : ~ down_in ps2 f2) by (intros D; specialize (X3 eq_refl D); lia).
      split; [lia|]. split; auto. split.
      + intros [j [Pj Dj]]. apply Nd. exists j.
        assert (Lj : (j < nx (h_ps h))%nat).
        { destruct Pj as [u [p [Hp Hj]]]. apply in_map_iff in Hj. destruct Hj as [v [<- Hv]]. eapply hi_in_lt; eauto. }
        pose proof (mi_w _ _ _ _ M1 j Lj) as W1. pose proof (mi_team _ _ _ _ M1) as B1. rewrite (mi_team _ _ _ _ M2) in B1.
        apply (f_equal (@length nat)) in B1. rewrite !rev_length, !seq_length in B1.
        rewrite (mi_w _ _ _ _ M2 j) in W1 by lia. apply (f_equal w_at) in W1. cbn [abs_w w_at] in W1. rewrite (Q2 j Lj), A1, Dj in W1. cbn [abs_at] in W1.
        apply pooledb_iff in Pj. rewrite Pj in W1. rewrite (Q2 j Lj), A1. split; auto. apply pooledb_iff. destruct (pooledb ps2 j); auto. discriminate.
      + rewrite (Q3 Nd). exact Sm.
    - left. rewrite Fo in Mu2. cbn [length] in Mu2. rewrite E'. unfold mu3.
      destruct (step_mu V up down seeds maxr fuel GG EN s0 FR tasks known init init_ok _ _ _ G Sy) as [_ [_ M8]]. specialize (M8 i st pb w eq_refl Eg).
      assert (Dd : deads y1 = deads (Y h)).
      { unfold deads. cbn [y1 y_team y_w]. apply sum_same. intros s _. rewrite at_moved. reflexivity. }
      unfold mu2 in *. lia.
  Qed.
  Lemma serve_sim h i cut h' : HW h -> Good (Y h) -> hstep h (HServe i cut) h' -> prudent h (HServe i cut) -> simulated h (HServe i cut) h'.
  Proof.
    intros H G S P. inversion S as [| | | | | | |i' cut' sv l ps f Sp Io Ei El Eo]; subst i' cut' h'.
    destruct (serve_on h i cut sv l H G P Sp Io Ei El) as [ps' [f' [E X]]]. rewrite Eo in E. injection E as <- <-. exact X.
  Qed.
  (* nothing is raised *)
  Lemma serve_total h i cut : HW h -> Good (Y h) -> prudent h (HServe i cut) -> sv_stop (h_sv h) = false -> hinput_ok h i ->
    exists h', hstep h (HServe i cut) h'.
  Proof.
    intros H G P Sp Io. pose proof (serve_input h i cut H Io P) as Iy.
    pose proof (input_good V up down maxr fuel s0 tasks (Y h) i G Iy) as Gi.
    destruct (iteration_ok V up down seeds maxr fuel GG EN s0 FR tasks known init init_ok i (h_sv h)) as [sv [Ei _]]; auto; [apply G|].
    destruct (iter_adds up down maxr fuel init i _ _ Ei) as [l [El _]]. cbn [add_tr sv_tr] in El. rewrite app_assoc in El.
    destruct (serve_on h i cut sv _ H G P Sp Io Ei El) as [ps [f [E _]]]. exists (Whole sv ps f). econstructor; eauto.
  Qed.

  Lemma step_sim h m h' : HW h -> Good (Y h) -> hstep h m h' -> prudent h m -> simulated h m h'.
  Proof.
    intros H G S P. destruct S as [st t o r [u A] E|st t o r [u A] E|st t o pb r [u A] E|st t o r [u A] E|st t o pb r out [u A] E No|st [u A] E|st n c t p o r [u A] E C|i cut sv l ps f Sp Io Ei El Eo].
    8: eapply serve_sim; eauto; econstructor; eauto.
    1-5: pose proof (Y_alive h st u H A) as Ey; rewrite E in Ey; pose proof (proj2 (in_Y h st) (alive_lt h st u H A)) as Hst;
         assert (Tu : t = u) by (pose proof (hi_task _ _ _ _ _ H st u _ A) as X; rewrite E in X; exact X); subst u;
         assert (Bo : forall pb v, In (MBlockFailed pb v) o -> v = st /\ b_task (pb_block pb) = t)
           by (intros b v Hb; destruct (hi_bf _ _ _ _ _ H st b v) as [B1 [B2 _]]; [unfold proc in A; congruence|rewrite E; exact Hb|rewrite E in B2; auto]).
    - eapply (put_sim h st t _ (Spawn st)); eauto; try discriminate; try (rewrite E; auto; discriminate); try exact Logic.I.
      econstructor; eauto; [eapply hi_started; eauto|]. intros s Hs Ts Rs. cbn [prudent] in P. rewrite E in P. apply (P s); auto. apply (gone_Y h s H Hs Rs).
    - eapply (put_sim h st t _ (Ask st)); eauto; try discriminate; try (rewrite E; auto; discriminate); try exact Logic.I.
      + econstructor; eauto.
      + intros b v. cbn [w_out]. rewrite in_app_iff, E. intros [Hb|[Hb|[]]]; [auto|discriminate].
    - eapply (put_sim h st t _ (Get st)); eauto; try discriminate; try (rewrite E; auto; discriminate); try exact Logic.I.
      econstructor; eauto.
    - eapply (put_sim h st t _ (Get st)); eauto; try discriminate; try (rewrite E; auto; discriminate); try exact Logic.I.
      eapply step_leave; eauto.
    - eapply (put_sim h st t _ (Finish st out)); eauto; try discriminate; try (rewrite E; auto; discriminate); try exact Logic.I.
      + econstructor; eauto.
      + intros b v. cbn [w_out]. rewrite in_app_iff, E. cbn [w_task]. intros [Hb|Hb]; [auto|].
        assert (Bt : b_task (pb_block pb) = t).
        { pose proof (yi_talk _ _ _ _ _ _ _ _ _ _ _ (proj1 G) st Hst) as Tk. cbn iota in Tk. rewrite Ey in Tk. unfold talk in Tk. cbn in Tk.
          destruct Tk as [_ [_ [_ On]]]. destruct (only_in _ _ _ On) as [e [He [Oe Be]]].
          destruct (yi_book _ _ _ _ _ _ _ _ _ _ _ (proj1 G) e He) as [_ [Te _]]. rewrite Oe, Ey in Te. rewrite Be in Te. symmetry. exact Te. }
        destruct (returned_forms st pb out No) as [[s [Er _]]|Er]; rewrite Er in Hb.
        * destruct Hb as [Hb|[]]. discriminate.
        * destruct Hb as [Hb|[Hb|[]]]; [|discriminate]. injection Hb as <- <-. auto.
    - split.
      + unfold HW. cbn [h_sv h_ps h_w fst Pool.pstep]. unfold proc in A. rewrite A. apply hi_left; auto.
      + exists (Y h), [], (Y h). split; [reflexivity|]. split; [split; constructor|]. split; [|reflexivity]. unfold proc in A. cbn [h_sv h_ps h_w fst Pool.pstep]. rewrite A. constructor; auto.
    - destruct P as [Nc Nb]. assert (Tu : t = u) by (pose proof (hi_task _ _ _ _ _ H st u _ A) as X; rewrite E in X; exact X). subst u.
      pose proof (Y_alive h st t H A) as Ey. rewrite E in Ey. pose proof (proj2 (in_Y h st) (alive_lt h st t H A)) as Hst.
      assert (Rp : running p).
      { destruct (hi_run _ _ _ _ _ H _ _ A) as [Nd _]. pose proof (hi_phase _ _ _ _ _ H st) as Np. rewrite E in *. cbn in *.
        assert (p <> Replaced) by (apply Np; unfold proc in A; congruence). destruct p; cbn; auto; congruence. }
      split.
      + unfold HW. cbn [h_sv h_ps h_w fst Pool.pstep]. unfold proc in A. rewrite A.
        pose proof (hi_end nw keys _ _ _ st t c (firstn n o) (Pool.ps_fc (h_ps h)) H A Nc) as He. rewrite E in He, Nb. cbn [w_task w_out] in He, Nb. apply He. exact Nb.
      + set (w := Worker t Dead (firstn n o) []).
        assert (Sd : step (Y h) (Die st n) (put (Y h) st w)) by (eapply step_die; eauto; eapply hi_started; eauto).
        assert (M : mirror (put (Y h) st w) (h_sv h) (fst (Pool.pstep nw mbf (Pool.PExit st c) (h_ps h))) (fun s => if Nat.eqb s st then w else h_w h s)).
        { unfold proc in A. cbn [fst Pool.pstep]. rewrite A. constructor; auto.
          intros s Hs. cbn [put y_w Y]. unfold abs_w. destruct (Nat.eqb_spec s st) as [->|N].
          * cbn [w w_task w_at w_out w_in abs_at]. assert (Pk : pooledb (h_ps h) st = true) by (apply pooledb_iff; eapply run_pooled; eauto).
            unfold pooledb in *. cbn [Pool.ps_pools]. rewrite Pk. reflexivity.
          * reflexivity. }
        exists (put (Y h) st w), [], (put (Y h) st w). split; [exact Sd|]. split; [split; constructor|]. split; [exact M|]. cbn [ends_in].
        pose proof (die_mu2 V up down seeds maxr fuel GG EN s0 FR tasks known init init_ok _ _ _ _ G Sd) as Mu.
        match goal with |- mu3 ?x <= _ => pose proof (mu2_ext (put (Y h) st w) (Y x) eq_refl (mirror_alike (put (Y h) st w) x M)) as Me end.
        unfold mu3. rewrite Me. cbn [h_sv]. lia.
  Qed.
End Step.
