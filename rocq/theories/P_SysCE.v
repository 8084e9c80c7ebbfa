(* C53 without the order of the tasks: the server waits for ever. *)
From Coq Require Import Arith Lia.
From Verif Require Import SchedProps SchedExec DGFacts2 PipeRun P_SchedCE P_Sched SerialFacts P_Conv P_Serial ServerFacts ServerSteps
  ServerIdle P_Server P_ServerCE P_Outcome P_Notify.
From Verif Require Client.
From Verif Require Import Conv Sys SysFacts SysMeasure SysLive SysFair SysTrace P_Sys P_SysEx.
Open Scope Z_scope.

Lemma settled_none up maxr t h b : settled up maxr (EvNone t :: h) b -> settled up maxr h b.
Proof.
  assert (P : forall a, perm_failed maxr (EvNone t :: h) a -> perm_failed maxr h a) by (intros a H; exact H).
  intros [[H|H]|[H|[a [H1 H2]]]].
  - left. left. destruct H as [H|H]; [discriminate|exact H].
  - left. right. destruct H as [H|H]; [discriminate|exact H].
  - right. left. auto.
  - right. right. exists a. auto.
Qed.
Lemma no_answer_replies s l : Forall no_answer l -> replies s l = [].
Proof.
  intros F. unfold replies. apply Forall_rev in F. induction F as [|a r H F IH]; auto. cbn [flat_map]. rewrite IH.
  destruct a; cbn in H; try reflexivity; contradiction.
Qed.

Section Trap.
  Variables (V : list block) (up down : block -> list block) (seeds : nat -> list block).
  Variable maxr : nat -> Z.
  Variable fuel : nat.
  Hypothesis GG : good_graph V up down seeds.
  Hypothesis EN : enough V fuel.
  Variable s0 : sched.
  Hypothesis FR : fresh V seeds s0.
  Variable tasks : list nat.
  Hypothesis known : forall t, In t tasks -> In t (s_order s0).
  Variable init : nat -> res unit.
  Hypothesis init_ok : forall t, init t = Ok tt.
  Local Notation Good := (Good V up down maxr fuel s0 tasks).
  Local Notation step := (step up down maxr fuel init).
  Local Notation runs := (runs up down maxr fuel init).
  Local Notation SInv := (SInv up down maxr fuel s0 tasks).
  Local Notation iteration := (iteration up down maxr fuel init).

  (* the first delayed request is for a task of which nothing is ready, though not all is done *)
  Definition jammed (x : server) : Prop :=
    sv_book x = [] /\ sv_stop x = false /\ all_done (sv_s x) = false /\
    exists p1 t q p2, sv_pend x = p1 ++ (t, q) :: p2 /\ ServerIdle.empty p1 /\ q <> [] /\
      readyl (sv_s x) t = [] /\ ts_pending (s_st (sv_s x) t) <> 0.
  Lemma jammed_iter i x : SInv [] x -> jammed x -> i_health i = Ok tt -> i_get i = GotNothing \/ i_get i = GotClosed ->
    exists y l, iteration i x = Ok y /\ jammed y /\ sv_s y = sv_s x /\ sv_tr y = l ++ sv_tr x /\ Forall no_answer l /\
      forall b, settled up maxr (hist (sv_tr y)) b -> settled up maxr (hist (sv_tr x)) b.
  Proof.
    intros I [Bk [Sx [AD [p1 [t [q [p2 [P [Em [Nq [NR NP]]]]]]]]]]] He Hg.
    assert (L : forall j z, sv_book z = [] -> check_lost up down maxr fuel init j z = Ok z).
    { intros j z Ez. unfold check_lost. rewrite Ez. cbn. destruct z; cbn in *. subst. reflexivity. }
    destruct Hg as [Hg|Hg].
    - set (j := Input GotNothing (fun _ => false) (i_now i) (i_tick i) (Ok tt) no_check (i_pick i)).
      assert (D : ServerIdle.idle j) by (constructor; try reflexivity; cbn; discriminate).
      destruct q as [|st q]; [congruence|].
      destruct (idle_none V up down seeds maxr fuel GG EN s0 FR tasks known init init_ok j x p1 t st q p2 I D P Em NR NP Sx AD)
        as [y [l [Ey [Iy [Sy [By [Py [Ky [Hy [Ty Fy]]]]]]]]]].
      exists y, l.
      assert (E : iteration i x = Ok y).
      { rewrite <- Ey. unfold Server.iteration. unfold handle_messages. rewrite Hg. change (i_get j) with GotNothing. cbv iota.
        rewrite P, pfirst_at by auto. unfold handle_message.
        assert (A : forall chk, acquire_block up down maxr fuel chk (sv_s x) t = Ok (sv_s x, None, [])).
        { intros chk. pose proof (sinv_hinv V up down seeds maxr fuel GG EN s0 FR tasks _ _ I) as HI.
          pose proof EN as EN'. unfold acquire_block, enough in *.
          destruct (next_spec V up down seeds maxr _ _ _ (sv_s x) t (hi_inv _ _ _ _ _ _ _ _ HI)) as [[_ E]|[q' [pb [_ [E _]]]]]; [|congruence].
          destruct fuel as [|f]; [lia|]. cbn [acquire_loop]. rewrite E. reflexivity. }
        assert (HA : handle_acquire up down maxr fuel init i t st (add_tr (set_pend x (p1 ++ (t, q) :: p2)) [ARetry t st]) =
                     handle_acquire up down maxr fuel init j t st (add_tr (set_pend x (p1 ++ (t, q) :: p2)) [ARetry t st])).
        { unfold handle_acquire. change (touch (sv_s (add_tr (set_pend x (p1 ++ (t, q) :: p2)) [ARetry t st])) t) with (touch (sv_s x) t).
          assert (Ht : In t tasks).
          { apply in_dedup_nat. rewrite <- (si_pend _ _ _ _ _ _ _ _ I), P, map_app. apply in_or_app. right. left. reflexivity. }
          rewrite (touch_known V up down seeds maxr fuel GG EN s0 FR tasks known x t I Ht). rewrite !A. reflexivity. }
        rewrite HA. destruct (handle_acquire _ _ _ _ _ j _ _ _) as [z|] eqn:EA; [|reflexivity]. cbn [bind].
        assert (Bz : sv_book (check_all z) = []).
        { destruct (check_all_spec z) as [[_ B2 _ _] _]. rewrite B2. unfold handle_acquire in EA.
          destruct (acquire_block _ _ _ _ _ _ _) as [[[s1 [pb|]] sk]|] eqn:EB; try discriminate; cbn [bind] in EA.
          - exfalso. cbn [add_tr set_pend sv_s] in EB.
            assert (Ht : In t tasks).
            { apply in_dedup_nat. rewrite <- (si_pend _ _ _ _ _ _ _ _ I), P, map_app. apply in_or_app. right. left. reflexivity. }
            rewrite (touch_known V up down seeds maxr fuel GG EN s0 FR tasks known x t I Ht) in EB. rewrite A in EB. discriminate.
          - destruct (negb _); [discriminate|]. destruct (_ =? 0).
            + destruct (recruit_spec init _ _ EA) as [[_ B3 _ _] _]. rewrite B3. exact Bk.
            + destruct (pput _ _ _); [|discriminate]. cbn [bind] in EA. injection EA as <-. exact Bk. }
        rewrite !L by exact Bz. cbn [bind]. rewrite He. reflexivity. }
      split; [exact E|]. split.
      { split; [congruence|]. split; [auto|]. split; [rewrite Sy; auto|]. exists p1, t, (q ++ [st]), p2. rewrite Sy. repeat (split; auto).
        destruct q; discriminate. }
      split; auto. split; auto. split; auto. intros b. rewrite Hy. apply settled_none.
    - assert (E : iteration i x = Ok (if i_tick i then check_all x else x)).
      { unfold Server.iteration, handle_messages. rewrite Hg. cbn [bind]. rewrite L by auto. cbn [bind]. rewrite He. reflexivity. }
      assert (B : besides x (if i_tick i then check_all x else x) /\ sv_stop (if i_tick i then check_all x else x) = false).
      { destruct (i_tick i); [split; [apply check_all_spec|apply check_stop; auto]|split; [apply besides_refl|auto]]. }
      destruct B as [B S']. pose proof (besides_hist _ _ B) as EH. destruct B as [B1 B2 B3 [l [B4 B5]]].
      exists (if i_tick i then check_all x else x), l. split; auto. split.
      { split; [congruence|]. split; auto. split; [rewrite B1; auto|]. exists p1, t, q, p2. rewrite B1, B3. repeat (split; auto). }
      split; auto. split; auto. split; [apply aside_no_answer; auto|]. intros b. rewrite EH. auto.
  Qed.

  (* all workers wait, or have left; the server has no answer for them *)
  Definition trapped (y : sys) : Prop :=
    Good y /\ jammed (y_sv y) /\
    forall st, In st (y_team y) -> w_out (y_w y st) = [] /\ (w_at (y_w y st) = Waiting /\ w_in (y_w y st) = [] \/ w_at (y_w y st) = Left).
  Lemma trapped_step y m y' : trapped y -> step y m y' -> upsets m = false ->
    trapped y' /\ sv_s (y_sv y') = sv_s (y_sv y) /\
    forall b, settled up maxr (hist (sv_tr (y_sv y'))) b -> settled up maxr (hist (sv_tr (y_sv y))) b.
  Proof.
    intros [G [J W]] S D. assert (G' : Good y') by (eapply step_good; eauto).
    destruct S as [st t o r Hst Ew Hs Fs|st t o r Hst Ew|st t o pb r Hst Ew|st t o r Hst Ew|st t o pb r out Hst Ew No|st t p o r n Hst Ew Rn Sd|st st' t o r Hst Ew Nt|st t Nt Ht|i sv l Sp Io Ei El];
      try discriminate; try (exfalso; destruct (W st Hst) as [_ [[W1 W2]|W1]]; rewrite Ew in W1; cbn in W1; try discriminate; rewrite Ew in W2; discriminate).
    - assert (Hg : i_get i = GotNothing \/ i_get i = GotClosed).
      { destruct Io as [_ [Gi _]]. destruct (i_get i) as [st m| | |e]; auto; [|contradiction].
        destruct Gi as [Hst [r Er]]. destruct (W st Hst) as [W1 _]. congruence. }
      destruct (jammed_iter i _ (yi_sv _ _ _ _ _ _ _ _ _ _ _ (proj1 G)) J (proj1 Io) Hg) as [z [l' [Ez [Jz [Sz [Tz [Fz Hz]]]]]]].
      rewrite Ei in Ez. injection Ez as <-. assert (l' = l) by (eapply app_inv_tail; rewrite <- El; symmetry; exact Tz). subst l'.
      split; [|split; [exact Sz|exact Hz]]. split; [exact G'|]. split; [exact Jz|]. cbn [y_team y_w]. intros st Hst.
      assert (Et : taken (i_get i) st (y_w y st) = y_w y st) by (destruct Hg as [-> | ->]; reflexivity).
      unfold deliver. rewrite Et, no_answer_replies, app_nil_r by auto. cbn [w_out w_at w_in]. auto.
  Qed.
  Lemma trapped_runs y ms y' : trapped y -> runs y ms y' -> (forall m, In m ms -> upsets m = false) ->
    trapped y' /\ sv_s (y_sv y') = sv_s (y_sv y) /\
    forall b, settled up maxr (hist (sv_tr (y_sv y'))) b -> settled up maxr (hist (sv_tr (y_sv y))) b.
  Proof.
    intros T R. induction R as [|ms y1 m y2 R IH S]; intros D; [auto|].
    destruct IH as [T1 [S1 H1]]; [intros m' Hm'; apply D, in_or_app; auto|].
    destruct (trapped_step _ _ _ T1 S) as [T2 [S2 H2]]; [apply D, in_or_app; right; left; reflexivity|].
    split; auto. split; [congruence|auto].
  Qed.
End Trap.

(* Three tasks in a row, listed downstream first, as run_blockwise lists them (convenience.py:26-36); one
   worker for each.  The worker of the third task asks when nothing is ready for it; its request
   stays the first of the delayed ones and is tried again and again, and the worker of the second task
   is never given the block that is ready.  *)
Definition fin st := DoFinish st (Client.Finished SUCCESS).
Definition trap_deeds : list deed :=
  [DoSpawn 2; DoAsk 2; DoTake 2; DoGet 2; fin 2; DoTake 2;
   DoSpawn 1; DoAsk 1; DoTake 1; DoGet 1; fin 1; DoTake 1;
   DoAsk 2; DoTake 2;
   DoSpawn 0; DoAsk 0; DoTake 0; DoGet 0; fin 0; DoTake 0; DoAsk 0; DoTake 0;
   DoAsk 1; DoTake 1;
   DoGet 2; fin 2; DoTake 2; DoAsk 2; DoTake 2; DoGet 2].
Definition scene (tasks : list task) fuel crew cs : res (dgraph * sched * sys * list (move * sys)) :=
  '(d, s0) <- sched_init tasks ;;
  x <- server_init no_init (map t_id tasks) false s0 ;;
  let y := start_of x crew in
  Ok (d, s0, y, play (dg_up idl idl d) (dg_down idl idl d) (dg_max_retries d) fuel cs y).
Lemma scene_ok tasks fuel cs crew d s0 y l : pipe_ok tasks -> edges_ok tasks -> scene tasks fuel crew cs = Ok (d, s0, y, l) ->
  enough_b d fuel = true -> (forall t, In t crew -> exists x, In x tasks /\ t_id x = t) ->
  staffed tasks idl idl d s0 fuel no_init crew y /\
  l = play (dg_up idl idl d) (dg_down idl idl d) (dg_max_retries d) fuel cs y.
Proof.
  intros PO EO. unfold scene. destruct (sched_init tasks) as [[d' s']|] eqn:E; [|discriminate]. cbn [bind].
  destruct (server_init _ _ _ _) as [x|] eqn:Ei; [|discriminate]. cbn [bind]. intros H En Cr. injection H as <- <- <- <-.
  split; auto. constructor; auto using idl_order.
  - apply (run_dual tasks idl idl d' s' fuel [] s'); auto. constructor; auto using idl_order. constructor.
  - eapply enough_b_ok; eauto.
  - exists x. auto.
Qed.
Definition trapped_b (z : sys) : bool :=
  match sv_book (y_sv z) with [] => true | _ => false end && stuck_b (y_sv z) &&
  forallb (fun st => match y_w z st with
                     | Worker _ Waiting [] [] | Worker _ Left [] _ => true
                     | _ => false end) (y_team z).
Lemma trapped_b_ok V up down maxr fuel s0 ids z : Good V up down maxr fuel s0 ids z -> trapped_b z = true -> trapped V up down maxr fuel s0 ids z.
Proof.
  intros G H. unfold trapped_b in H. apply andb_prop in H. destruct H as [H H3]. apply andb_prop in H. destruct H as [H1 H2].
  split; auto. split.
  - unfold stuck_b in H2. destruct (find _ _) as [[t q]|] eqn:Ef; [|discriminate].
    apply find_split in Ef. destruct Ef as [p1 [p2 [P [Q1 Q2]]]]. cbn [snd] in Q1.
    apply andb_prop in H2. destruct H2 as [H2 K4]. apply andb_prop in H2. destruct H2 as [H2 K3]. apply andb_prop in H2. destruct H2 as [K1 K2].
    apply Bool.negb_true_iff in K2, K3, K4. apply Z.eqb_neq in K2.
    split; [destruct (sv_book _); [reflexivity|discriminate]|]. split; auto. split; auto.
    exists p1, t, q, p2. split; auto. split; [intros u r Hr; apply Q2 in Hr; cbn in Hr; destruct r; [reflexivity|discriminate]|].
    split; [destruct q; discriminate|]. split; [destruct (readyl _ _); [reflexivity|discriminate]|exact K2].
  - intros st Hst. rewrite forallb_forall in H3. apply H3 in Hst. destruct (y_w z st) as [t [] [|] [|]]; try discriminate; cbn; auto.
Qed.

(* the run after that: iterations without a message, for ever *)
Section Wait.
  Variables (up down : block -> list block) (maxr : nat -> Z) (fuel : nat).
  Fixpoint waiting (z : sys) (n : nat) : sys :=
    match n with
    | O => z
    | S n => match serve_with up down maxr fuel GotNothing (waiting z n) with Some (_, y) => y | None => waiting z n end
    end.
  Definition then_wait (y : sys) (l : list (move * sys)) (n : nat) : sys :=
    if (n <? length l)%nat then nth n (y :: map snd l) y else waiting (last_of y l) (n - length l).
  Definition wait_moves (y : sys) (l : list (move * sys)) (n : nat) : option move :=
    if (n <? length l)%nat then nth_error (map fst l) n else Some (Serve (this_input (then_wait y l n) GotNothing)).
End Wait.
Lemma last_nth (y : sys) l z : nth (length l) (y :: map snd l) z = last_of y l.
Proof.
  unfold last_of. revert y. induction l as [|[m a] l IH]; intros y; [reflexivity|]. cbn [map snd length nth]. rewrite last_cons. apply IH.
Qed.
Lemma chain_nth up down maxr fuel z l : forall y, chain up down maxr fuel y l -> forall n, (n < length l)%nat ->
  exists m, nth_error (map fst l) n = Some m /\ step up down maxr fuel no_init (nth n (y :: map snd l) z) m (nth (S n) (y :: map snd l) z).
Proof.
  induction l as [|[m y'] l IH]; intros y C n Hn; [cbn in Hn; lia|]. inversion C as [|? ? ? S C']; subst. destruct n.
  - exists m. split; [reflexivity|]. exact S.
  - cbn in Hn. destruct (IH y' C' n) as [m' [E S']]; [lia|]. exists m'. split; [exact E|]. exact S'.
Qed.
Lemma step_team up down maxr fuel init y m y' : step up down maxr fuel init y m y' -> forall st, In st (y_team y) -> In st (y_team y').
Proof. intros S st H. destruct S; cbn; auto. Qed.
Lemma wait_fair V up down seeds maxr fuel s0 ids y l : good_graph V up down seeds -> enough V fuel -> fresh V seeds s0 ->
  (forall t, In t ids -> In t (s_order s0)) ->
  chain up down maxr fuel y l -> trapped V up down maxr fuel s0 ids (last_of y l) ->
  fair_run up down maxr fuel no_init (then_wait up down maxr fuel y l) (wait_moves up down maxr fuel y l) /\
  (forall n, trapped V up down maxr fuel s0 ids (waiting up down maxr fuel (last_of y l) n) /\
     forall b, settled up maxr (hist (sv_tr (y_sv (waiting up down maxr fuel (last_of y l) n)))) b -> settled up maxr (hist (sv_tr (y_sv (last_of y l)))) b).
Proof.
  intros GG EN FR Kn C T0.
  assert (IO : forall t, no_init t = Ok tt) by reflexivity.
  assert (ST : forall z, trapped V up down maxr fuel s0 ids z -> exists z', serve_with up down maxr fuel GotNothing z = Some (Serve (this_input z GotNothing), z')).
  { intros z [G [J W]]. unfold serve_with.
    destruct (jammed_iter V up down seeds maxr fuel GG EN s0 FR ids Kn no_init IO (this_input z GotNothing) _ (yi_sv _ _ _ _ _ _ _ _ _ _ _ (proj1 G)) J eq_refl (or_introl eq_refl))
      as [x [l' [Ex _]]]. destruct J as [_ [-> _]]. rewrite Ex. eauto. }
  assert (ST' : forall z m z', serve_with up down maxr fuel GotNothing z = Some (m, z') -> step up down maxr fuel no_init z m z').
  { intros z m z' H. eapply serve_step; [exact H|exact I]. }
  assert (TH : forall n, trapped V up down maxr fuel s0 ids (waiting up down maxr fuel (last_of y l) n) /\
     forall b, settled up maxr (hist (sv_tr (y_sv (waiting up down maxr fuel (last_of y l) n)))) b -> settled up maxr (hist (sv_tr (y_sv (last_of y l)))) b).
  { induction n as [|n [IH IHb]]; [split; auto|]. cbn [waiting]. destruct (ST _ IH) as [z' E]. rewrite E.
    apply ST' in E. destruct (trapped_step V up down seeds maxr fuel GG EN s0 FR ids Kn no_init IO _ _ _ IH E eq_refl) as [Q1 [_ Q2]]. split; auto. }
  assert (TW : forall n, trapped V up down maxr fuel s0 ids (waiting up down maxr fuel (last_of y l) n)) by (intros n; apply TH).
  assert (Late : forall n, (length l <= n)%nat -> then_wait up down maxr fuel y l n = waiting up down maxr fuel (last_of y l) (n - length l)).
  { intros n Hn. unfold then_wait. destruct (Nat.ltb_spec n (length l)); [lia|reflexivity]. }
  assert (Quiet : forall n st, In st (y_team (waiting up down maxr fuel (last_of y l) n)) -> w_out (y_w (waiting up down maxr fuel (last_of y l) n) st) = [] /\
     ~ can_move (waiting up down maxr fuel (last_of y l) n) st).
  { intros n st Hst. destruct (TW n) as [_ [_ W]]. destruct (W st Hst) as [W1 W2]. split; auto. intros [_ M].
    destruct W2 as [[W2 W3]|W2]; rewrite W2 in M; [apply M; exact W3|exact M]. }
  assert (FS : forall n, match wait_moves up down maxr fuel y l n with
    | Some m => step up down maxr fuel no_init (then_wait up down maxr fuel y l n) m (then_wait up down maxr fuel y l (Datatypes.S n))
    | None => then_wait up down maxr fuel y l (Datatypes.S n) = then_wait up down maxr fuel y l n end).
  { intros n. unfold wait_moves. destruct (Nat.ltb_spec n (length l)) as [L|L].
    - destruct (chain_nth _ _ _ _ y l y C n L) as [m [Em S]]. rewrite Em.
      replace (then_wait up down maxr fuel y l n) with (nth n (y :: map snd l) y) by (unfold then_wait; apply Nat.ltb_lt in L; rewrite L; reflexivity).
      replace (then_wait up down maxr fuel y l (Datatypes.S n)) with (nth (Datatypes.S n) (y :: map snd l) y); auto.
      unfold then_wait. destruct (Nat.ltb_spec (Datatypes.S n) (length l)); [reflexivity|].
      assert (E : Datatypes.S n = length l) by lia. rewrite E, last_nth, Nat.sub_diag. reflexivity.
    - rewrite !Late by lia. rewrite Nat.sub_succ_l by lia. cbn [waiting].
      destruct (ST _ (TW (n - length l)%nat)) as [z' E]. rewrite E. apply ST'. exact E. }
  assert (TM : forall n k st, In st (y_team (then_wait up down maxr fuel y l n)) -> In st (y_team (then_wait up down maxr fuel y l (k + n)))).
  { intros n k st H. induction k as [|k IH]; auto. cbn [Nat.add]. pose proof (FS (k + n)%nat) as S.
    destruct (wait_moves _ _ _ _ _ _ _) as [m|]; [|rewrite S; auto]. eapply step_team; eauto. }
  split; auto. constructor; [exact FS|..].
  - intros n st _. exists (max n (length l)). split; [lia|]. right. rewrite Late by lia.
    intros M. pose proof M as [Hst _]. apply (Quiet _ st Hst). exact M.
  - intros n st Hst _. exists (max n (length l)). split; [lia|]. right. left.
    apply (TM n (max n (length l) - n)%nat) in Hst. replace (max n (length l) - n + n)%nat with (max n (length l)) in Hst by lia.
    rewrite Late in Hst by lia. rewrite Late by lia. apply Quiet. exact Hst.
  - intros n. exists (max n (length l)). split; [lia|]. left. eexists. unfold wait_moves.
    destruct (Nat.ltb_spec (max n (length l)) (length l)); [lia|]. split; [reflexivity|]. split; [reflexivity|]. split; [reflexivity|].
    intros st Hst Ew. rewrite Late in Hst, Ew by lia. destruct (TW (max n (length l) - length l)%nat) as [_ [_ W]].
    destruct (W st Hst) as [_ [[W1 _]|W1]]; destruct Ew; congruence.
  - exists (length l). intros k m Hk. unfold wait_moves. destruct (Nat.ltb_spec k (length l)); [lia|]. intros X. injection X as <-. reflexivity.
Qed.

(* C53 without the order of the tasks is false: a fair run, without a death or an exception, in which the
   server never stops though a block can be processed; and whatever is tried (short of killing a worker or starting more),
   nothing changes any more. *)
Theorem C53_downstream_first_refuted : exists d s0 fuel crew r mv b N,
  let up := dg_up idl idl d in let down := dg_down idl idl d in let maxr := dg_max_retries d in
  collect_tasks 10 [ce_c3] = Ok ce_row /\
  staffed ce_row idl idl d s0 fuel no_init crew (r O) /\ no_lonely ce_row idl idl d /\ each_manned ce_row crew /\ few_upstream ce_row idl idl d /\
  fair_run up down maxr fuel no_init r mv /\ (forall n m, mv n = Some m -> upsets m = false) /\
  pipe_block ce_row b /\ ~ in_order ce_row /\
  (forall n, sv_stop (y_sv (r n)) = false /\ ~ settled up maxr (hist (sv_tr (y_sv (r n)))) b) /\
  (exists a, can_run ce_row up maxr (hist (sv_tr (y_sv (r N)))) 2 a) /\
  (forall ms y, runs up down maxr fuel no_init (r N) ms y -> (forall m, In m ms -> upsets m = false) ->
     sv_stop (y_sv y) = false /\ sv_s (y_sv y) = sv_s (y_sv (r N)) /\ ~ settled up maxr (hist (sv_tr (y_sv y))) b).
Proof.
  assert (Q : match scene ce_row 100 [3; 2; 1]%nat trap_deeds with
              | Ok (d, s0, y, l) => let z := last_of y l in let h := hist (sv_tr (y_sv z)) in
                  enough_b d 100 && trapped_b z &&
                  forallb (fun b => Nat.leb (length (dg_up idl idl d b)) 2) (pblocks d) &&
                  forallb (fun b => Nat.eqb (b_task b) 1 || match dg_up idl idl d b with [] => false | _ => true end) (pblocks d) &&
                  forallb (fun m => negb (upsets m)) (map fst l) &&
                  forallb (fun w => negb (sv_stop (y_sv w))) (y :: map snd l) &&
                  some_block (fun b => forallb (fun w => open_b d (hist (sv_tr (y_sv w))) b) (y :: map snd l)) d &&
                  some_block (P_ServerCE.can_b d h 2) d
              | Err _ => false end = true).
  { vm_compute. reflexivity. }
  destruct (scene ce_row 100 [3; 2; 1]%nat trap_deeds) as [[[[d s0] y] l]|] eqn:E; [|discriminate]. cbv zeta in Q.
  apply andb_prop in Q. destruct Q as [Q Q8]. apply andb_prop in Q. destruct Q as [Q Q7]. apply andb_prop in Q. destruct Q as [Q Q6].
  apply andb_prop in Q. destruct Q as [Q Q5]. apply andb_prop in Q. destruct Q as [Q Q4]. apply andb_prop in Q. destruct Q as [Q Q3].
  apply andb_prop in Q. destruct Q as [Q1 Q2].
  destruct (scene_ok _ _ _ _ _ _ _ _ ce_row_ok ce_row_edges E Q1) as [SF El].
  { intros t Ht. assert (X : In t (map t_id ce_row)) by (cbn in Ht |- *; tauto).
    apply in_map_iff in X. destruct X as [x [X1 X2]]. exists x. auto. }
  assert (C : chain (dg_up idl idl d) (dg_down idl idl d) (dg_max_retries d) 100 y l) by (rewrite El; apply play_chain).
  pose proof (f_in _ _ _ _ _ _ _ _ _ SF) as FI.
  pose proof (f_good _ _ _ _ _ _ _ _ _ SF) as GG. pose proof (f_enough _ _ _ _ _ _ _ _ _ SF) as EN.
  pose proof (f_fresh _ _ _ _ _ _ _ _ _ SF) as FR. pose proof (f_known _ _ _ _ _ _ _ _ _ SF) as Kn.
  pose proof (f_runs _ _ _ _ _ _ _ _ _ SF _ _ (chain_runs _ _ _ _ _ _ C)) as Gz.
  pose proof (trapped_b_ok _ _ _ _ _ _ _ _ Gz Q2) as T.
  destruct (wait_fair _ _ _ _ _ _ _ _ _ _ GG EN FR Kn C T) as [FA TH].
  set (r := then_wait (dg_up idl idl d) (dg_down idl idl d) (dg_max_retries d) 100 y l) in *.
  set (mv := wait_moves (dg_up idl idl d) (dg_down idl idl d) (dg_max_retries d) 100 y l) in *.
  assert (E0 : r O = y).
  { unfold r, then_wait. destruct (Nat.ltb_spec 0 (length l)); [reflexivity|]. destruct l; [reflexivity|]. cbn in H. lia. }
  assert (EN' : r (length l) = last_of y l).
  { unfold r, then_wait. rewrite Nat.ltb_irrefl, Nat.sub_diag. reflexivity. }
  apply existsb_exists in Q7. destruct Q7 as [b [Hb Q7]]. rewrite forallb_forall in Q7.
  apply existsb_exists in Q8. destruct Q8 as [a [Ha Q8]].
  assert (RN : forall n, (exists ms, runs (dg_up idl idl d) (dg_down idl idl d) (dg_max_retries d) 100 no_init y ms (r n))).
  { intros n. rewrite <- E0. apply (fair_prefix _ _ _ _ _ _ _ FA n). }
  assert (PR : forall n, pipe_run ce_row idl idl d s0 100 (hist (sv_tr (y_sv (r n)))) (sv_s (y_sv (r n)))).
  { intros n. destruct (RN n) as [ms R]. eapply a_pipe. eapply f_server; eauto. }
  assert (Early : forall n, (n < length l)%nat -> In (r n) (y :: map snd l)).
  { intros n L. unfold r, then_wait. apply Nat.ltb_lt in L as L'. rewrite L'. apply nth_In. cbn. rewrite map_length. lia. }
  assert (Nl : ~ settled (dg_up idl idl d) (dg_max_retries d) (hist (sv_tr (y_sv (last_of y l)))) b).
  { rewrite <- EN'. eapply open_b_ok; [apply PR|apply FI; exact Hb|]. apply Q7. rewrite EN'. rewrite <- (last_nth y l y). apply nth_In. cbn. rewrite map_length. lia. }
  exists d, s0, 100%nat, [3; 2; 1]%nat, r, mv, b, (length l). cbv zeta. rewrite E0, EN'.
  split; [reflexivity|]. split; [exact SF|]. split; [|split; [|split; [|split; [exact FA|split; [|split; [apply FI; exact Hb|split; [|split; [|split]]]]]]]].
  - intros t g c Ht Nt Et Gc Z. rewrite forallb_forall in Q4.
    assert (Hc : In c (pblocks d)) by (apply FI; exists t, g; auto).
    apply Q4 in Hc. rewrite Z in Hc. rewrite Bool.orb_false_r in Hc. apply Nat.eqb_eq in Hc.
    rewrite (gen_id ce_row ce_row_ok t g c Ht Et Gc) in Hc. clear - Hc Ht Nt. unfold ce_row in Ht. pipe_tac; cbn in Hc, Nt; try discriminate Hc; apply Nt; reflexivity.
  - intros x Hx. unfold ce_row in Hx. cbn in Hx. destruct Hx as [<-|[<-|[<-|[]]]]; cbn; auto.
  - intros c Hc. apply FI in Hc. rewrite forallb_forall in Q3. apply Q3 in Hc. apply Nat.leb_le in Hc. exact Hc.
  - intros n m. unfold mv, wait_moves. destruct (n <? length l)%nat; [|intros H; injection H as <-; reflexivity]. intros H. apply nth_error_In in H.
    rewrite forallb_forall in Q5. apply Q5 in H. apply Bool.negb_true_iff. exact H.
  - intros U. specialize (U [] ce_c3 [ce_c2; ce_c1] ce_c2 eq_refl (or_introl eq_refl)). destruct U as [[]|[_ U]]. discriminate U.
  - intros n. destruct (Nat.lt_ge_cases n (length l)) as [L|L].
    + specialize (Early n L). split.
      * rewrite forallb_forall in Q6. apply Q6 in Early. apply Bool.negb_true_iff. exact Early.
      * eapply open_b_ok; [apply PR|apply FI; exact Hb|]. apply Q7. exact Early.
    + replace (r n) with (waiting (dg_up idl idl d) (dg_down idl idl d) (dg_max_retries d) 100 (last_of y l) (n - length l)).
      * destruct (TH (n - length l)%nat) as [[_ [[_ [J _]] _]] Hs]. split; auto.
      * unfold r, then_wait. destruct (Nat.ltb_spec n (length l)); [lia|reflexivity].
  - exists a. eapply P_ServerCE.can_b_ok; eauto. rewrite <- EN'. apply PR.
  - intros ms z R D. destruct (trapped_runs _ _ _ _ _ _ GG EN _ FR _ Kn no_init (fun _ => eq_refl) _ _ _ T R D) as [[_ [[_ [J _]] _]] [Es Hs]].
    split; auto.
Qed.
Print Assumptions C53_downstream_first_refuted.
