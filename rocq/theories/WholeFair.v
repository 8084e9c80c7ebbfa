(* Fair runs of the whole end. *)
From Coq Require Import Arith Lia.
From Verif Require Import VecFacts SchedProps SerialFacts P_Conv ServerFacts ServerSteps PoolGrow WholeSrv.
From Verif Require Export WholeStep.
From Verif Require Client Pool P_Pool.
Open Scope Z_scope.

(* a process can go on *)
Definition hcan_move (h : whole) (st : nat) : Prop :=
  alive h st /\
  match w_at (h_w h st) with
  | Unborn => forall s, gone h s -> w_task (h_w h s) = w_task (h_w h st) -> ~ has_block (h_sv h) s
  | Asking | Working _ => True
  | Waiting => w_in (h_w h st) <> []
  | Left | Dead | Replaced => False
  end.
Definition hacts (m : hmove) (st : nat) : Prop :=
  match m with
  | HConnect s | HAsk s | HGet s | HFinish s _ | HExit s | HEnd s _ _ => s = st
  | HServe _ _ => False
  end.
(* an iteration without a message, in which the connections of the dead are closed and the tasks
   are looked at *)
Definition hidle (h : whole) (i : input) : Prop :=
  i_get i = GotNothing /\ i_tick i = true /\
  forall st, known h st -> w_at (h_w h st) = Dead -> i_closed i st = true.
Definition hends (m : hmove) : Prop := match m with HEnd _ _ _ => True | _ => False end.

(* A run without end; [None]: for a moment nothing happens.  A process that can go on goes on; messages
   are taken; again and again there is an iteration without a message, unless messages keep coming;
   processes stop dying.  Nothing is assumed about the pools. *)
Record hfair up down maxr fuel init nw mbf (r : nat -> whole) (mv : nat -> option hmove) : Prop := {
  hf_step : forall n, match mv n with Some m => hstep up down maxr fuel init nw mbf (r n) m (r (S n)) | None => r (S n) = r n end;
  hf_prudent : forall n m, mv n = Some m -> prudent (r n) m;
  hf_move : forall n st, hcan_move (r n) st ->
    exists k, (n <= k)%nat /\ ((exists m, mv k = Some m /\ hacts m st) \/ ~ hcan_move (r k) st);
  hf_msg : forall n st, known (r n) st -> w_out (h_w (r n) st) <> [] ->
    exists k, (n <= k)%nat /\ ((exists i cut m, mv k = Some (HServe i cut) /\ i_get i = GotMessage st m) \/
      w_out (h_w (r k) st) = [] \/ sv_stop (h_sv (r k)) = true);
  hf_idle : forall n, exists k, (n <= k)%nat /\ ((exists i cut, mv k = Some (HServe i cut) /\ hidle (r k) i) \/
      (exists st, known (r k) st /\ w_out (h_w (r k) st) <> []) \/ sv_stop (h_sv (r k)) = true);
  hf_end : exists N, forall k m, (N <= k)%nat -> mv k = Some m -> ~ hends m
}.

Section Fair.
  Variables (V : list block) (up down : block -> list block) (seeds : nat -> list block).
  Variable maxr : nat -> Z.
  Variable fuel : nat.
  Hypothesis GG : good_graph V up down seeds.
  Hypothesis EN : enough V fuel.
  Variable s0 : sched.
  Hypothesis FR : fresh V seeds s0.
  Variable tasks : list nat.
  Hypothesis known_t : forall t, In t tasks -> In t (s_order s0).
  Variable init : nat -> res unit.
  Hypothesis init_ok : forall t, init t = Ok tt.
  Hypothesis AR : all_roots V up seeds.
  Hypothesis known_V : forall b, In b V -> In (b_task b) tasks.
  Hypothesis ups_first : forall b a, In b V -> In a (up b) ->
    b_task a = b_task b \/ (pos (dedup Nat.eqb tasks) (b_task a) < pos (dedup Nat.eqb tasks) (b_task b))%nat \/ root_task V up (b_task a).
  Local Notation Good := (Good V up down maxr fuel s0 tasks).
  Local Notation Full := (Full V up down maxr fuel s0 tasks).
  Local Notation step := (step up down maxr fuel init).
  Local Notation runs := (runs up down maxr fuel init).
  Local Notation fine := (fine V up maxr).
  Variable nw : nat -> Z.
  Hypothesis nw_pos : forall t, 1 <= nw t.
  Variable mbf : Z.
  Let keys := dedup Nat.eqb tasks.
  Local Notation HI := (HI nw keys).
  Local Notation HW := (HW tasks nw).
  Local Notation hstep := (hstep up down maxr fuel init nw mbf).
  Local Notation hruns := (hruns up down maxr fuel init nw mbf).
  Local Notation tb ps := (Pool.tbl (Pool.ps_sys ps)).
  Local Notation nx ps := (Pool.nxt (Pool.ps_sys ps)).
  Local Notation mu3 := (mu3 V maxr tasks nw).

  Lemma keys_nodup : NoDup keys.
  Proof. apply (NoDup_dedup _ (fun _ : nat => True)); auto. intros a b _ _. apply Nat.eqb_eq. Qed.
  Lemma nw_ok t : 0 <= nw t.
  Proof. specialize (nw_pos t). lia. Qed.

  Lemma runs_full y ms y' : Full y -> runs y ms y' -> fine (y_sv y') -> Full y'.
  Proof.
    intros F R. induction R as [|ms y1 m y2 R IH S]; auto. intros Fi.
    assert (E : exists l, sv_tr (y_sv y2) = l ++ sv_tr (y_sv y1)) by (destruct S; try (exists []; reflexivity); exists l; assumption).
    destruct E as [l E]. assert (F1 : Full y1) by (apply IH; eapply fine_back; eauto). clear F IH R. eapply step_full; eauto.
  Qed.
  (* one step *)
  Lemma hstep_kept h m h' : HW h -> Good (Y h) -> hstep h m h' -> prudent h m -> HW h' /\ Good (Y h').
  Proof.
    intros H G S P. destruct (step_sim V up down seeds maxr fuel GG EN s0 FR tasks known_t init init_ok nw nw_ok mbf keys_nodup _ _ _ H G S P)
      as [H' [y1 [ms [y' [I [[R _] [M _]]]]]]]. split; auto.
    assert (G1 : Good y1) by (destruct (image m); [eapply step_good; eauto|subst y1; auto]).
    eapply good_ext; [|apply mirror_alike; exact M|eapply runs_good; eauto]. symmetry. apply M.
  Qed.
  Lemma hstep_full h m h' : HW h -> Full (Y h) -> hstep h m h' -> prudent h m -> fine (h_sv h') -> Full (Y h').
  Proof.
    intros H F S P Fi. destruct (step_sim V up down seeds maxr fuel GG EN s0 FR tasks known_t init init_ok nw nw_ok mbf keys_nodup _ _ _ H (proj1 F) S P)
      as [H' [y1 [ms [y' [I [[R _] [M _]]]]]]].
    eapply full_ext; [|apply mirror_alike; exact M|]; [symmetry; apply M|]. rewrite <- (mi_sv _ _ _ _ M) in Fi.
    destruct (image m) as [m0|]; [|subst y1; eapply runs_full; eauto].
    eapply runs_full; [exact F| |exact Fi]. eapply runs_app; [apply runs_one; exact I|exact R].
  Qed.
  Lemma Y_manned h : HW h -> manned tasks (Y h).
  Proof.
    intros H t Ht Hs. assert (Hk : In t (dedup Nat.eqb tasks)) by (apply in_dedup_nat; auto). rewrite <- (hi_keys _ _ _ _ _ H) in Hk.
    apply in_map_iff in Hk. destruct Hk as [[u p] [Eu Hp]]. cbn in Eu. subst u.
    destruct (hi_size _ _ _ _ _ H t p Hp) as [[_ L]|[N _]]; [|exfalso; apply N, Hs].
    destruct p as [|w p]; [specialize (nw_pos t); cbn in L; lia|].
    destruct (hi_in _ _ _ _ _ H t (w :: p) w Hp (or_introl eq_refl)) as [s [Es _]]. exists (Pool.w_id w). split.
    - apply in_Y. apply (hi_known _ _ _ _ _ _ H). congruence.
    - cbn. eapply (hi_task _ _ _ _ _ H); eauto.
  Qed.
  (* who can move *)
  Lemma hcan_Y h st : HW h -> (hcan_move h st <-> can_move (Y h) st /\ w_at (y_w (Y h) st) <> Dead).
  Proof.
    intros H. unfold hcan_move, can_move. rewrite in_Y. split.
    - intros [[t A] C]. pose proof (Y_alive tasks nw h st t H A) as E. rewrite E.
      assert (Nd : w_at (h_w h st) <> Dead) by (destruct (hi_run _ _ _ _ _ H _ _ A); auto). split; auto.
      split; [eapply alive_lt; eauto|]. destruct (w_at (h_w h st)); auto. split.
      + rewrite (hi_task _ _ _ _ _ H st t _ A). eapply hi_started; eauto.
      + intros s Hs Ts Rs. apply C; auto. eapply gone_Y; eauto.
    - intros [[Lt C] Nd]. assert (A : alive h st).
      { apply (hi_known _ _ _ _ _ _ H) in Lt. destruct (tb (h_ps h) st) as [[t [|c]]|] eqn:E; [exists t; exact E| |congruence].
        exfalso. destruct (hi_exit _ _ _ _ _ H _ _ _ E) as [[X _]|[X _]].
        - cbn in Nd, C. rewrite X in Nd, C. cbn in Nd, C. destruct (pooledb _ _); auto.
        - cbn in C. rewrite X in C. exact C. }
      split; auto. destruct A as [t A]. rewrite (Y_alive tasks nw h st t H A) in C, Nd. destruct (w_at (h_w h st)); auto.
      intros s Gs Ts. destruct (Y_gone _ _ h s H Gs) as [Q1 Q2]. apply (proj2 C s Q1); auto.
  Qed.

  (* the beginning *)
  Lemma init_sim sv : server_init init tasks false s0 = Ok sv -> exists h ms y, whole_init init nw mbf tasks s0 = Ok h /\ h_sv h = sv /\ HW h /\
    runs (start_of sv []) ms y /\ (Forall pool_move ms /\ mu3 h <= 20 * hand_bound V maxr + Z.of_nat (length V) + 7 * spare tasks nw []) /\
    mirror y (h_sv h) (h_ps h) (h_w h).
  Proof.
    intros E. destruct (init_recruited init tasks s0 sv E) as [Rc Fl]. unfold whole_init. rewrite E. cbn [bind].
    set (ps0 := Pool.pools_init (dedup Nat.eqb tasks) (Pool.Sys (fun _ => None) 0)). set (f0 := fun _ : nat => Worker 0 Unborn [] []).
    assert (H0 : HI [] ps0 f0).
    { constructor; cbn [ps0 Pool.pools_init Pool.ps_sys Pool.ps_pools Pool.ps_err Pool.tbl Pool.nxt]; try discriminate; try congruence; auto.
      - intros j. split; auto. intros _. lia.
      - rewrite map_map. cbn. apply map_id.
      - intros t p Hp. right. split; auto. apply in_map_iff in Hp. destruct Hp as [u [Eu _]]. congruence.
      - intros t p Hp. apply in_map_iff in Hp. destruct Hp as [u [Eu _]]. injection Eu as _ <-. constructor.
      - intros t p w Hp Hw. apply in_map_iff in Hp. destruct Hp as [u [Eu _]]. injection Eu as _ <-. destruct Hw. }
    assert (M0 : mirror (start_of sv []) sv ps0 f0).
    { constructor; auto. intros st Hst. cbn in Hst. lia. }
    assert (G0 : Good (start_of sv [])) by (eapply start_good; eauto; intros t []).
    destruct (evs_sim V up down seeds maxr fuel GG EN s0 FR tasks known_t init init_ok nw nw_ok mbf keys_nodup (fun _ => 0%nat) (pool_acts (sv_tr sv)) [] ps0 f0 (start_of sv []) sv)
      as [ps [f [ms [y [Eo [H1 [[R1 P1] [M1 [_ [Mu _]]]]]]]]]]; auto.
    { intros e He. eapply acts_plain; eauto. }
    { intros t Ht. apply Rc, acts_recs, Ht. }
    { left. rewrite acts_fails, Fl. reflexivity. }
    assert (Rs : forall t, In t ([] ++ erecs (pool_acts (sv_tr sv))) <-> In t (sv_started sv)) by (intros t; cbn [app]; rewrite acts_recs, Rc; tauto).
    rewrite Eo. cbn [bind]. exists (Whole sv ps f), ms, y. split; auto. split; auto. split; [|split; [exact R1|split; [split; [exact P1|]|exact M1]]].
    - unfold WholeStep.HW. cbn [h_sv h_ps h_w]. eapply hi_ext; [exact H1|exact Rs|reflexivity..].
    - unfold WholeStep.mu3. cbn [h_sv]. rewrite (mu2_ext V maxr y (Y (Whole sv ps f)));
        [|symmetry; apply M1|apply (mirror_alike y (Whole sv ps f)); exact M1].
      rewrite acts_fails, Fl in Mu. cbn [length map] in Mu. rewrite <- (spare_ext tasks nw _ _ Rs).
      unfold mu2 in Mu at 2. rewrite (start_mu V maxr s0 tasks init sv [] E) in Mu. cbn [length] in Mu.
      replace (deads (start_of sv [])) with 0 in Mu by reflexivity. lia.
  Qed.
  Lemma init_good h : whole_init init nw mbf tasks s0 = Ok h -> exists sv, server_init init tasks false s0 = Ok sv /\ h_sv h = sv /\
    HW h /\ Good (Y h) /\ mu3 h <= 20 * hand_bound V maxr + Z.of_nat (length V) + 7 * spare tasks nw [] /\
    exists y ms, runs (start_of sv []) ms y /\ mirror y (h_sv h) (h_ps h) (h_w h).
  Proof.
    intros E. assert (Es : exists sv, server_init init tasks false s0 = Ok sv) by (unfold whole_init in E; destruct (server_init _ _ _ _) as [sv|]; [eauto|discriminate]).
    destruct Es as [sv Es]. destruct (init_sim sv Es) as [h' [ms [y [E' [Eh [H [R [[_ Mu] M]]]]]]]]. rewrite E in E'. injection E' as <-.
    assert (Ey : y_sv (Y h) = y_sv y) by (symmetry; apply M). assert (Al := mirror_alike y h M). exists sv. split; auto. split; auto. split; auto.
    split; [|split; eauto]. eapply good_ext; eauto. eapply runs_good; eauto. eapply start_good; eauto. intros t [].
  Qed.
  Lemma init_full h : whole_init init nw mbf tasks s0 = Ok h -> fine (h_sv h) -> Full (Y h).
  Proof.
    intros E Fi. destruct (init_good h E) as [sv [Es [Eh [_ [_ [_ [y [ms [R M]]]]]]]]].
    assert (Ey : y_sv (Y h) = y_sv y) by (symmetry; apply M).
    eapply full_ext; [exact Ey|apply mirror_alike; exact M|]. eapply runs_full; eauto; [eapply start_full; eauto; intros t []|]. rewrite <- Ey. exact Fi.
  Qed.

  Section Run.
    Variables (r : nat -> whole) (mv : nat -> option hmove).
    Hypothesis FA : hfair up down maxr fuel init nw mbf r mv.
    Hypothesis H0 : HW (r O).
    Hypothesis F0 : Full (Y (r O)).
    Hypothesis FN : forall n, fine (h_sv (r n)).
    Lemma both_at n : HW (r n) /\ Full (Y (r n)).
    Proof.
      induction n as [|n [IH1 IH2]]; auto. pose proof (hf_step _ _ _ _ _ _ _ _ _ FA n) as S. destruct (mv n) as [m|] eqn:E; [|rewrite S; auto].
      pose proof (hf_prudent _ _ _ _ _ _ _ _ _ FA n m E) as P. split; [eapply hstep_kept; eauto; apply IH2|eapply hstep_full; eauto].
    Qed.
    Section After.
      Variable N : nat.
      Hypothesis ND : forall k m, (N <= k)%nat -> mv k = Some m -> ~ hends m.
      (* each step: less is left, or nothing has changed *)
      Lemma less_or_alike k : (N <= k)%nat -> mu3 (r (S k)) < mu3 (r k) \/ mu3 (r (S k)) <= mu3 (r k) /\ alike (Y (r k)) (Y (r (S k))) /\
        (forall m st, mv k = Some m -> hacts m st -> exists s, m = HExit s) /\
        (forall i cut, mv k = Some (HServe i cut) -> exists y1, step (Y (r k)) (Serve i) y1 /\ y_sv y1 = h_sv (r (S k)) /\
           ~ works (Y (r k)) (Serve i) y1 /\ ~ down_in (h_ps (r k)) (h_w (r k))).
      Proof.
        intros L. pose proof (hf_step _ _ _ _ _ _ _ _ _ FA k) as S. destruct (mv k) as [m|] eqn:E.
        2:{ rewrite S. right. split; [lia|]. split; [apply alike_refl|]. split; intros; discriminate. }
        pose proof (ND k m L E) as Ne. destruct (both_at k) as [H F].
        destruct (step_sim V up down seeds maxr fuel GG EN s0 FR tasks known_t init init_ok nw nw_ok mbf keys_nodup _ _ _ H (proj1 F) S (hf_prudent _ _ _ _ _ _ _ _ _ FA k m E))
          as [H' [y1 [ms [y' [I [[R _] [M En]]]]]]].
        destruct m; cbn [ends_in hends] in *; try (left; lia); try tauto.
        - right. subst y'. assert (Ey : h_sv (r (Datatypes.S k)) = h_sv (r k)) by (symmetry; apply M).
          assert (A := mirror_alike _ _ M). split; [unfold WholeStep.mu3; rewrite (mu2_ext V maxr (Y (r k)) (Y (r (Datatypes.S k))) Ey A), Ey; lia|].
          split; auto. split; [intros m s Em _; injection Em as <-; eauto|intros; discriminate].
        - destruct En as [Ev [_ [En|[Le [Nw [Nd Sm]]]]]]; [left; lia|]. right. split; auto.
          split; [eapply alike_trans; [apply same_alike; exact Sm|apply mirror_alike; exact M]|]. split.
          + intros m s Em. injection Em as <-. intros [].
          + intros i' cut' Em. injection Em as <- <-. exists y1. auto.
      Qed.
      Lemma mu3_down n d : (N <= n)%nat -> mu3 (r (n + d)) <= mu3 (r n).
      Proof.
        intros H. induction d as [|d IH]; [rewrite Nat.add_0_r; lia|]. rewrite Nat.add_succ_r.
        destruct (less_or_alike (n + d)) as [Lt|[Le _]]; lia.
      Qed.
      Lemma still_or_drop n d : (N <= n)%nat -> (exists k, (n <= k)%nat /\ mu3 (r k) < mu3 (r n)) \/ alike (Y (r n)) (Y (r (n + d))).
      Proof.
        intros H. induction d as [|d IH]; [right; rewrite Nat.add_0_r; apply alike_refl|]. destruct IH as [IH|IH]; auto.
        rewrite Nat.add_succ_r. destruct (less_or_alike (n + d)) as [Lt|[_ [A _]]]; [lia| |].
        - left. exists (S (n + d)). split; [lia|]. pose proof (mu3_down n d H). lia.
        - right. eapply alike_trans; eauto.
      Qed.
      Lemma hcan_dec h st : HW h -> {hcan_move h st} + {~ hcan_move h st}.
      Proof.
        intros H. destruct (can_move_dec maxr fuel (Y h) st) as [C|C]; [|right; intros X; apply C; apply (hcan_Y h st H); auto].
        destruct (w_at (y_w (Y h) st)) eqn:E; try (left; apply (hcan_Y h st H); split; auto; rewrite E; discriminate).
        right. intros X. apply (hcan_Y h st H) in X. tauto.
      Qed.
      Lemma stop_or_drop n : (N <= n)%nat -> (exists k, (n <= k)%nat /\ mu3 (r k) < mu3 (r n)) \/ (exists k, sv_stop (h_sv (r k)) = true).
      Proof.
        intros H. destruct (both_at n) as [Hw Fu].
        destruct (Exists_dec (fun st => hcan_move (r n) st) (y_team (Y (r n))) (fun st => hcan_dec (r n) st Hw)) as [Ex|Nx].
        - apply Exists_exists in Ex. destruct Ex as [st [Hst C]].
          destruct (hf_move _ _ _ _ _ _ _ _ _ FA n st C) as [k [Hk K]]. replace k with (n + (k - n))%nat in K by lia.
          destruct (still_or_drop n (k - n) H) as [Dp|Sm]; [left; auto|]. left.
          assert (Ck : hcan_move (r (n + (k - n))) st).
          { apply (hcan_Y _ st (proj1 (both_at _))). apply (hcan_Y _ st Hw) in C. destruct C as [C1 C2]. split; [eapply alike_move; eauto|].
            rewrite (al_w _ _ Sm) by auto. auto. }
          destruct K as [[m [Em A]]|K]; [|tauto].
          destruct (less_or_alike (n + (k - n))) as [Lt|[_ [_ [X _]]]]; [lia| |].
          + exists (S (n + (k - n))). split; [lia|]. pose proof (mu3_down n (k - n) H). lia.
          + exfalso. destruct (X m st Em A) as [s ->]. cbn in A. subst s. pose proof (hf_step _ _ _ _ _ _ _ _ _ FA (n + (k - n))) as S. rewrite Em in S.
            inversion S as [| | | | |st' Al Le| |]; subst. destruct Ck as [_ Ck]. rewrite Le in Ck. exact Ck.
        - assert (Nm : forall st, ~ hcan_move (r n) st).
          { intros st C. apply Nx. apply Exists_exists. exists st. split; auto. apply (hcan_Y _ st Hw) in C. apply C. }
          destruct (Exists_dec (fun st => w_out (y_w (Y (r n)) st) <> []) (y_team (Y (r n)))
            (fun st => match w_out (y_w (Y (r n)) st) as l return {l <> []} + {~ l <> []} with
                       | [] => right (fun K => K eq_refl) | _ :: _ => left (fun E => eq_ind (@nil message) (fun l => match l with [] => True | _ => False end) I _ (eq_sym E)) end)) as [Eo|No].
          + apply Exists_exists in Eo. destruct Eo as [st [Hst Eo]].
            assert (Kn : known (r n) st) by (apply (hi_known _ _ _ _ _ _ Hw); apply in_Y; auto).
            destruct (hf_msg _ _ _ _ _ _ _ _ _ FA n st Kn Eo) as [k [Hk K]]. replace k with (n + (k - n))%nat in K by lia.
            destruct K as [[i [cut [m [Em A]]]]|[K|K]]; [| |right; eauto].
            * left. exists (S (n + (k - n))). split; [lia|]. pose proof (mu3_down n (k - n) H).
              destruct (less_or_alike (n + (k - n))) as [Lt|[_ [_ [_ X]]]]; [lia|lia|].
              exfalso. destruct (X i cut Em) as [y1 [_ [_ [Nw _]]]]. apply Nw. left. eauto.
            * destruct (still_or_drop n (k - n) H) as [Dp|Sm]; [left; auto|]. exfalso. apply Eo.
              change (w_out (y_w (Y (r (n + (k - n)))) st) = []) in K. rewrite (al_w _ _ Sm) in K by auto. exact K.
          + assert (Ne : forall st, In st (y_team (Y (r n))) -> w_out (y_w (Y (r n)) st) = []).
            { intros st Hst. destruct (w_out (y_w (Y (r n)) st)) eqn:E; auto. exfalso. apply No. apply Exists_exists. exists st. split; auto. rewrite E. discriminate. }
            destruct (hf_idle _ _ _ _ _ _ _ _ _ FA n) as [k [Hk K]]. replace k with (n + (k - n))%nat in K by lia.
            destruct (still_or_drop n (k - n) H) as [Dp|Sm]; [left; auto|]. set (k' := (n + (k - n))%nat) in *.
            destruct (both_at k') as [Hw' Fu'].
            destruct K as [[i [cut [Em A]]]|[[st [Kn K]]|K]]; [| |right; eauto].
            * destruct (less_or_alike k') as [Lt|[_ [_ [_ X]]]]; [lia| |].
              -- left. exists (S k'). split; [lia|]. pose proof (mu3_down n (k - n) H). fold k' in H1. lia.
              -- destruct (X i cut Em) as [y1 [S [Ev [Nw Nd]]]]. right. exists (Datatypes.S k'). rewrite <- Ev.
                 assert (Mn : forall st, ~ can_move (Y (r k')) st).
                 { intros st C. apply (Nm st). apply (hcan_Y _ st Hw). assert (Ht : In st (y_team (Y (r n)))) by (rewrite <- (al_team _ _ Sm); apply C).
                   split; [eapply alike_move; [apply alike_sym; exact Sm|exact C]|]. rewrite <- (al_w _ _ Sm) by auto. intros D. apply Nd.
                   exists st. cbn [Y y_w abs_w w_at] in D. unfold abs_at in D. destruct (w_at (h_w (r k') st)) eqn:Ew; try discriminate.
                   destruct (pooledb (h_ps (r k')) st) eqn:Pb; [|discriminate]. apply pooledb_iff in Pb. auto. }
                 destruct (no_deadlock V up down seeds maxr fuel GG EN s0 FR tasks known_t init init_ok AR known_V ups_first _ _ _ Fu' (Y_manned _ Hw') S) as [W|W]; auto.
                 ++ rewrite Ev. apply FN.
                 ++ destruct A as [A1 [A2 A3]]. split; auto. split; auto. intros st Ht Dt. apply in_Y in Ht. apply (hi_known _ _ _ _ _ _ Hw') in Ht. apply A3; auto.
                    cbn [Y y_w abs_w w_at] in Dt. unfold abs_at in Dt. destruct (w_at (h_w (r k') st)) eqn:Ew; destruct Dt; try discriminate; auto.
                    exfalso. apply (hi_phase _ _ _ _ _ Hw' st Ht Ew).
                 ++ intros st Ht. rewrite (al_team _ _ Sm) in Ht. rewrite (al_w _ _ Sm) by auto. auto.
            * exfalso. apply (hi_known _ _ _ _ _ _ Hw') in Kn. apply in_Y in Kn. apply K.
              rewrite (al_team _ _ Sm) in Kn. change (w_out (y_w (Y (r k')) st) = []). rewrite (al_w _ _ Sm) by auto. auto.
      Qed.
      Lemma mu3_nonneg h : Good (Y h) -> 0 <= mu3 h.
      Proof.
        intros G. unfold WholeStep.mu3. pose proof (mu2_nonneg V up down seeds maxr fuel GG EN s0 FR tasks _ G).
        pose proof (spare_nonneg tasks nw nw_ok (sv_started (h_sv h))). lia.
      Qed.
      Lemma ends : exists k, sv_stop (h_sv (r k)) = true.
      Proof.
        assert (G : forall z, 0 <= z -> forall n, (N <= n)%nat -> mu3 (r n) < z -> exists k, sv_stop (h_sv (r k)) = true).
        { intros z Hz. pattern z. apply Zlt_0_ind; auto. clear z Hz. intros z IH Hz n Hn L.
          destruct (stop_or_drop n Hn) as [[k [Hk D]]|K]; auto.
          pose proof (mu3_nonneg (r n) (proj1 (proj2 (both_at n)))). apply (IH (mu3 (r n))) with (n := k); auto; lia. }
        pose proof (mu3_nonneg (r N) (proj1 (proj2 (both_at N)))). apply (G (mu3 (r N) + 1)) with (n := N); lia.
      Qed.
    End After.
    Theorem whole_ends : exists k, sv_stop (h_sv (r k)) = true.
    Proof. destruct (hf_end _ _ _ _ _ _ _ _ _ FA) as [N ND]. eapply ends; eauto. Qed.
  End Run.
End Fair.
