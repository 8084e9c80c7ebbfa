(* Fair runs over the network: they are fair runs of Whole.v. *)
From Coq Require Import Arith Lia.
From Verif Require Import SchedProps SchedExec DGFacts2 PipeRun P_SchedCE P_Sched SerialFacts P_Conv P_Serial ServerFacts ServerSteps
  ServerIdle P_Server P_Server2 P_ServerCE P_Outcome P_Notify PoolAll P_PoolFail.
From Verif Require Client Pool P_Pool Net NetFacts P_Net WireNet P_Wire.
From Verif Require Import Sys SysFacts SysMeasure SysTrace WholeSrv WholeFair P_Whole WholeSim WholeAny WholeAll WholeRun Wire WireSim.
Open Scope Z_scope.
Local Notation link x st := (Net.n_link (x_net x) st).
Local Notation gots x st := (NetFacts.got_from st (Net.n_rets (x_net x))).
Local Notation outs x st := (NetFacts.sent_to st (Net.n_rets (x_net x))).

(* The moves that are not excluded, as in Whole.v: the loss of a worker with its block is noticed before another
   worker of its task connects, and its connection stays noticed; a process that has not been told to leave does not end with exit
   code 0, and one that dies leaves no report of a failed block behind; connecting succeeds; the spawn function does not raise. *)
Definition lost (x : wire) (st t : nat) : Prop := (exists c, xproc x st = Some (t, Pool.Exited c)) /\ ~ pooled (x_ps x) st.
Definition xprudent (x : wire) (m : xmove) : Prop :=
  match m with
  | XNet _ (Net.KConn ok) => ok = true
  | XMain st _ => x_pc x st = PNew -> forall s t p, xproc x st = Some (t, p) -> lost x s t -> ~ has_block (x_sv x) s
  | XEnd st c => (c = 0 /\ (x_pc x st = PBye \/ x_pc x st = PEnd)) \/
      (c <> 0 /\ forall pb w, ~ In (ToServer (MBlockFailed pb w)) (skipn (length (gots x st)) (NetFacts.sents (rets x st))))
  | XRaise _ _ => False
  | XServe i => forall s t, lost x s t -> i_closed i s = true \/
      exists u, (xproc x u = Some (t, Pool.Running) /\ x_pc x u = PNew) \/
                (exists c, xproc x u = Some (t, Pool.Exited c) /\ c <> 0 /\ pooled (x_ps x) u)
  | _ => True
  end.
Definition xalive (x : wire) (st : nat) : Prop := exists t, xproc x st = Some (t, Pool.Running).
(* the program of a worker can go on *)
Definition xready (x : wire) (st : nat) : Prop :=
  exists t, xproc x st = Some (t, Pool.Running) /\
  match x_pc x st with
  | PNew => Net.c_conn (link x st) = true /\ forall s, lost x s t -> ~ has_block (x_sv x) s
  | PSend _ _ | PWork _ => True
  | PWait => Net.c_main (link x st) = Net.Get2 -> Net.c_mq (link x st) <> []
  | PBye | PEnd => False
  end.
Definition xacts (m : xmove) (st : nat) : Prop :=
  match m with XCall s | XMain s _ | XBody s _ | XEnd s _ => s = st | _ => False end.
(* an iteration without a message, in which the connections of the dead are found closed and the tasks
   are looked at *)
Definition xidle (x : wire) (i : input) : Prop :=
  i_get i = GotNothing /\ i_tick i = true /\
  forall st t c, xproc x st = Some (t, Pool.Exited c) -> c <> 0 \/ ~ pooled (x_ps x) st -> i_closed i st = true.

Section Defs.
  Variables (up down : block -> list block) (maxr : nat -> Z) (fuel : nat) (init : nat -> res unit) (nw : nat -> Z) (mbf : Z).
  Variable dumps : Net.nmsg payload -> option Tcp.bytes.
  Variable loads : Tcp.bytes -> option (Net.nmsg payload).
  (* the network or an IO loop can do something for the connection of st *)
  Definition busy (x : wire) (st : nat) : Prop :=
    exists k y, NetFacts.moves k = true /\ Net.kstep dumps loads k (link x st) = Some y.
  (* A run without end; [None]: for a moment nothing happens.  [last st]: how many messages of the worker the server gets in all, if its
     process ever ends. *)
  Record xfair (last : nat -> option nat) (r : nat -> wire) (mv : nat -> option xmove) : Prop := {
    xf_step : forall n, match mv n with Some m => xstep up down maxr fuel init nw mbf dumps loads (r n) m (r (S n)) | None => r (S n) = r n end;
    xf_small : forall n, small dumps (r n);
    xf_prudent : forall n m, mv n = Some m -> xprudent (r n) m;
    xf_last : forall st, match last st with
      | Some l => (forall n, (length (gots (r n) st) <= l)%nat) /\ exists n, (l <= length (gots (r n) st))%nat
      | None => forall n t c, xproc (r n) st <> Some (t, Pool.Exited c)
      end;
    (* connecting does not take for ever *)
    xf_conn : forall n st, xalive (r n) st -> exists k, (n <= k)%nat /\ (Net.c_conn (link (r k) st) = true \/ x_pc (r k) st <> PNew \/ ~ xalive (r k) st);
    (* the IO loops and the network go on *)
    xf_io : forall n st, xalive (r n) st -> busy (r n) st -> exists k, (n <= k)%nat /\
      ((exists lab, mv k = Some (XNet st lab) /\ NetFacts.moves lab = true) \/ ~ busy (r k) st \/ ~ xalive (r k) st);
    (* the workers go on *)
    xf_main : forall n st, xready (r n) st -> exists k, (n <= k)%nat /\ ((exists m, mv k = Some m /\ xacts m st) \/ ~ xready (r k) st);
    (* the server goes on *)
    xf_send : forall n, x_todo (r n) <> [] -> exists k, (n <= k)%nat /\ mv k = Some XSend;
    xf_get : forall n, Net.n_mq (x_net (r n)) <> [] -> exists k, (n <= k)%nat /\
      ((exists i st m, mv k = Some (XServe i) /\ i_get i = GotMessage st m) \/ sv_stop (x_sv (r k)) = true);
    xf_idle : forall n, exists k, (n <= k)%nat /\ ((exists i, mv k = Some (XServe i) /\ xidle (r k) i) \/
      Net.n_mq (x_net (r k)) <> [] \/ sv_stop (x_sv (r k)) = true);
    (* processes stop dying *)
    xf_end : exists N, forall k st c, (N <= k)%nat -> mv k = Some (XEnd st c) -> c = 0
  }.

  (* the run of Whole.v *)
  Definition amv (last : nat -> option nat) (x x' : wire) (h : whole) (m : xmove) : option hmove :=
    match m with
    | XMain st _ => match x_pc x st, x_pc x' st with
                    | PNew, PSend _ _ => Some (HConnect st)
                    | PSend _ _, PWait => Some (HAsk st)
                    | PWait, PWork _ | PWait, PBye | PWait, PEnd => Some (HGet st)
                    | _, _ => None
                    end
    | XBody st o => Some (HFinish st (tame o))
    | XEnd st c => if (c =? 0) && match w_at (h_w h st) with Left => true | _ => false end then Some (HExit st) else Some (HEnd st (ends last x h st) c)
    | XServe i => Some (HServe i (cuts last x h i))
    | _ => None
    end.
  Definition hdo (h : whole) (m : hmove) : whole :=
    match m with
    | HConnect st => let w := h_w h st in hput h st (Worker (w_task w) Asking (w_out w) (w_in w))
    | HAsk st => let w := h_w h st in hput h st (Worker (w_task w) Waiting (w_out w ++ [MAcquire (w_task w)]) (w_in w))
    | HGet st => let w := h_w h st in match w_in w with
                 | Client.RSend pb :: q => hput h st (Worker (w_task w) (Working pb) (w_out w) q)
                 | Client.RShutdown :: q => hput h st (Worker (w_task w) Left (w_out w) q)
                 | _ => h end
    | HFinish st o => let w := h_w h st in match w_at w with
                 | Working pb => hput h st (Worker (w_task w) Asking (w_out w ++ returned st pb o) (w_in w))
                 | _ => h end
    | HExit st => Whole (h_sv h) (fst (Pool.pstep nw mbf (Pool.PExit st 0) (h_ps h))) (h_w h)
    | HEnd st n c => let w := h_w h st in
        Whole (h_sv h) (fst (Pool.pstep nw mbf (Pool.PExit st c) (h_ps h))) (fun s => if Nat.eqb s st then Worker (w_task w) Dead (firstn n (w_out w)) [] else h_w h s)
    | HServe i cut => match iteration up down maxr fuel init i (h_sv h) with
        | Ok sv =>
            let l := firstn (length (sv_tr sv) - length (sv_tr (h_sv h))) (sv_tr sv) in
            match on_all nw mbf cut (pool_acts l ++ [Pool.PHealth]) (h_ps h) (fun s => deliver s l (taken (i_get i) s (h_w h s))) with
            | Ok (ps, f) => Whole sv ps f
            | Err _ => h
            end
        | Err _ => h
        end
    end.
  Lemma hdo_ok h m h' : hstep up down maxr fuel init nw mbf h m h' -> hdo h m = h'.
  Proof.
    intros H. destruct H as [st t o q A E|st t o q A E|st t o pb q A E|st t o q A E|st t o pb q out A E N|st A E|st n c t p o q A E N|i cut sv l ps f Sp Io Ei El Eo];
      cbn [hdo]; rewrite ?E; cbn [w_task w_at w_out w_in]; auto.
    rewrite Ei, El, app_length, Nat.add_sub, firstn_app, Nat.sub_diag, firstn_all. cbn [firstn]. rewrite app_nil_r, Eo. reflexivity.
  Qed.
End Defs.

(* ---- the connections ---- *)
Section Links.
  Variable dumps : Net.nmsg payload -> option Tcp.bytes.
  Variable loads : Tcp.bytes -> option (Net.nmsg payload).
  Local Notation kstep := (Net.kstep dumps loads).
  Local Notation nstep := (Net.nstep dumps loads).
  Lemma io_dec l : P_Net.quiet dumps loads l \/ exists k y, NetFacts.moves k = true /\ kstep k l = Some y.
  Proof.
    assert (D : forall k, NetFacts.moves k = true -> kstep k l = None \/ exists k y, NetFacts.moves k = true /\ kstep k l = Some y).
    { intros k Hk. destruct (kstep k l) as [y|] eqn:E; eauto. }
    assert (Ar : forall n h, Net.arrive 1 h = @None (Net.chan payload) -> Net.arrive n h = None).
    { intros n h. unfold Net.arrive. destruct n as [|n]; [reflexivity|]. cbn. destruct (length (Net.ch_wire h)) as [|k]; [reflexivity|discriminate]. }
    destruct (D (Net.KFlushC true) eq_refl) as [F1|?]; [|auto]. destruct (D (Net.KFlushC false) eq_refl) as [F2|?]; [|auto].
    destruct (D (Net.KFlushS true) eq_refl) as [F3|?]; [|auto]. destruct (D (Net.KFlushS false) eq_refl) as [F4|?]; [|auto].
    destruct (D (Net.KArriveC 1) eq_refl) as [F5|?]; [|auto]. destruct (D (Net.KArriveS 1) eq_refl) as [F6|?]; [|auto].
    destruct (D Net.KReadC eq_refl) as [F7|?]; [|auto]. destruct (D Net.KReadS eq_refl) as [F8|?]; [|auto].
    destruct (D Net.KFailC eq_refl) as [F9|?]; [|auto]. destruct (D Net.KFailS eq_refl) as [F10|?]; [|auto].
    left. intros k Hk. destruct k as [ok|c| | |[]|n| | | |a| |[]|n| | | |]; try discriminate Hk; auto; cbn [Net.kstep] in *.
    - destruct (Net.arrive 1 (Net.dn l)) eqn:E; [discriminate|]. rewrite (Ar n _ E). reflexivity.
    - destruct (Net.arrive 1 (Net.up l)) eqn:E; [discriminate|]. rewrite (Ar n _ E). reflexivity.
  Qed.
  (* no attempt to connect fails *)
  Definition calm (l : Net.link payload) : Prop := Net.c_main l <> Net.Over /\ (Net.c_main l = Net.Connecting -> Net.c_eq l = [] /\ Net.c_loop l = false).
  Lemma calm_main l l' : calm l -> Net.main_step l = Some l' -> calm l'.
  Proof.
    intros [C1 C2] H. unfold Net.main_step in H. destruct (Net.c_main l) eqn:M; try discriminate H; try contradiction;
      repeat match type of H with context [match ?b with _ => _ end] => destruct b eqn:? end; try discriminate H;
      try (destruct (C2 eq_refl); congruence); apply some_inj in H; subst l'; split; cbn; discriminate.
  Qed.
  Lemma calm_step k l l' ns : calm l -> k <> Net.KConn false -> kstep k l = Some (l', ns) -> calm l'.
  Proof.
    intros C K H. pose proof C as [C1 C2]. destruct k as [ok|c| | |ok|n| | | |a| |ok|n| | | |]; cbn [Net.kstep] in H;
      try (destruct (Net.main_step l) eqn:M; [|discriminate]; apply some_inj in H; apply pair_equal_spec in H; destruct H as [<- _]; eapply calm_main; eauto);
      repeat match type of H with context [match ?b with _ => _ end] => destruct b eqn:? end; try discriminate H; try congruence;
      apply some_inj in H; apply pair_equal_spec in H; destruct H as [<- _]; split; cbn; auto; try congruence; intros Q; destruct (C2 Q); congruence.
  Qed.
End Links.

(* ---- the run of Whole.v ---- *)
Section Run.
  Variables (tasks : list task) (ord : list block -> list block) (ordt : list nat -> list nat) (d : dgraph) (s0 : sched) (fuel : nat).
  Variables (init : nat -> res unit) (nw : nat -> Z) (mbf : Z) (h0 : whole).
  Hypothesis CO : company tasks ord ordt d s0 fuel init nw mbf h0.
  Hypothesis ML : 0 <= mbf.
  Local Notation up := (dg_up ord ordt d).
  Local Notation down := (dg_down ord ordt d).
  Local Notation maxr := (dg_max_retries d).
  Local Notation ids := (map t_id tasks).
  Local Notation hstep := (hstep up down maxr fuel init nw mbf).
  Local Notation hdo := (hdo up down maxr fuel init nw mbf).
  Local Notation pruns := (pruns up down maxr fuel init nw mbf).
  Local Notation aruns := (aruns up down maxr fuel init nw mbf).
  Local Notation HW := (HW ids nw).
  Local Notation Good := (Good (pblocks d) up down maxr fuel s0 ids).
  Variable dumps : Net.nmsg payload -> option Tcp.bytes.
  Variable loads : Tcp.bytes -> option (Net.nmsg payload).
  Hypothesis L : P_Net.lossless dumps loads.
  Local Notation xstep := (xstep up down maxr fuel init nw mbf dumps loads).
  Local Notation nstep := (Net.nstep dumps loads).

  Lemma SE : setup tasks ord ordt d s0 fuel init nw mbf h0.
  Proof. destruct CO. constructor; auto. intros t. specialize (co_workers t). lia. Qed.
  Lemma pruns_aruns ms h : pruns h0 ms h -> aruns h0 (map AMove ms) h.
  Proof. intros R. induction R; cbn; [constructor|]. rewrite map_app. cbn. econstructor; eauto. constructor. auto. Qed.
  (* what a living worker and the server know of each other *)
  Lemma talk_h h st t : HW h -> Good (Y h) -> proc h st = Some (t, Pool.Running) -> talk (sv_pend (h_sv h)) (sv_book (h_sv h)) st (h_w h st).
  Proof.
    intros H [G _] A. pose proof (yi_talk _ _ _ _ _ _ _ _ _ _ _ G st) as T. cbv beta iota in T. rewrite (Y_alive ids nw h st t H A) in T. apply T.
    apply in_Y. eapply alive_lt; eauto.
  Qed.
  Section Fair.
    Variable last : nat -> option nat.
    Variable r : nat -> wire.
    Variable mv : nat -> option xmove.
    Hypothesis R0 : r O = wire_init h0.
    Hypothesis FA : xfair up down maxr fuel init nw mbf dumps loads last r mv.
    Local Notation Rel := (Rel dumps loads last).
    Local Notation next := (next ord ordt d fuel init nw mbf last).

    Fixpoint hrun (n : nat) : whole :=
      match n with
      | O => h0
      | S n => match mv n with
               | Some m => match amv last (r n) (r (S n)) (hrun n) m with Some a => hdo (hrun n) a | None => hrun n end
               | None => hrun n
               end
      end.
    Definition am (n : nat) : option hmove := match mv n with Some m => amv last (r n) (r (S n)) (hrun n) m | None => None end.

    Lemma resume_end rs : fold_left resume rs PEnd = PEnd.
    Proof. induction rs as [|a rs IH]; auto. cbn. destruct a as [| |[[q| |]|]| |]; auto. destruct q as [|q]; auto. destruct q; auto. Qed.
    Local Ltac nop H := first [discriminate H | destruct H as [H|[H _]]; discriminate H].
    Lemma next_is x m x' h h' : Rel x h -> Rel x' h' -> xstep x m x' -> xprudent x m -> next x m h h' ->
      match amv last x x' h m with Some a => hstep h a h' | None => h' = h end.
    Proof.
      intros R R' S P N.
      assert (M : forall st k, m = XMain st k -> at_ok (x_pc x st) (w_at (h_w h st)) (Net.c_main (link x st)) /\
        at_ok (x_pc x' st) (w_at (h_w h' st)) (Net.c_main (link x' st)) /\ (x_pc x st = PEnd -> x_pc x' st = PEnd)).
      { intros st k ->. inversion S; subst. split; [eapply l_at; eapply r_live; eauto|]. split; [eapply l_at; eapply (r_live _ _ _ _ _ R'); eauto|].
        intros Q. cbn. rewrite Nat.eqb_refl, Q. apply resume_end. }
      destruct N as [[-> Q]|[a [A T]]].
      - destruct m as [st k|st|st|st k|st o|st c|st e|i|]; cbn in Q |- *; try contradiction; auto.
        destruct (M _ _ eq_refl) as [M1 [M2 _]].
        destruct (x_pc x st), (x_pc x' st); cbn in M1, M2; auto; rewrite M1 in M2; nop M2.
      - destruct m as [st k|st|st|st k|st o|st c|st e|i|]; cbn in T; try contradiction.
        + destruct (M _ _ eq_refl) as [M1 [M2 M3]]. cbn [amv].
          assert (B : exists b, a = AMove b /\ hstep h b h') by (destruct T as [->|[->| ->]]; inversion A; subst; eauto). destruct B as [b [-> B]].
          assert (W : (b = HConnect st /\ w_at (h_w h st) = Unborn /\ w_at (h_w h' st) = Asking) \/ (b = HAsk st /\ w_at (h_w h st) = Asking /\ w_at (h_w h' st) = Waiting) \/
            (b = HGet st /\ w_at (h_w h st) = Waiting /\ (w_at (h_w h' st) = Left \/ exists pb, w_at (h_w h' st) = Working pb))).
          { destruct T as [T|[T|T]]; injection T as ->; inversion B; subst; cbn [hput h_w]; rewrite Nat.eqb_refl; cbn [w_at];
              match goal with E : h_w h st = _ |- _ => rewrite E; cbn [w_at] end; eauto 8. }
          destruct W as [[-> [W1 W2]]|[[-> [W1 W2]]|[-> [W1 W2]]]]; rewrite W1 in M1.
          * rewrite W2 in M2. destruct (x_pc x' st); cbn in M2; try (nop M2; fail). destruct (x_pc x st); cbn in M1; try (nop M1; fail); auto. discriminate (M3 eq_refl).
          * rewrite W2 in M2. destruct (x_pc x' st); cbn in M2; try (nop M2; fail). destruct (x_pc x st); cbn in M1; try (nop M1; fail); auto.
          * destruct (x_pc x st); cbn in M1; try (nop M1; fail).
            destruct W2 as [W2|[pb W2]]; rewrite W2 in M2; destruct (x_pc x' st); cbn in M2; try (nop M2; fail); auto.
        + subst a. inversion A; subst. auto.
        + cbn [amv]. destruct T as [[-> [El ->]]|[Ne ->]].
          * rewrite El. cbn. inversion A; subst. auto.
          * destruct (Z.eqb_spec c 0) as [->|Nc]; [|cbn; inversion A; subst; auto]. cbn. destruct Ne as [Ne|Ne]; [contradiction|].
            destruct (w_at (h_w h st)); try contradiction; inversion A; subst; auto.
        + subst a. inversion A; subst. auto.
    Qed.

    Lemma lost_gone x h s t : Rel x h -> HW h -> lost x s t -> gone h s /\ w_task (h_w h s) = t.
    Proof.
      intros R H [[c E] Np]. unfold xproc in E. rewrite <- (r_ps _ _ _ _ _ R) in E, Np. split; [|eapply (hi_task _ _ _ _ _ H); eauto].
      split; [unfold known, proc; congruence|]. split; auto. destruct (hi_exit _ _ _ _ _ H _ _ _ E) as [[X _]|[_ [X _]]]; [exact X|contradiction].
    Qed.
    Lemma gone_lost x h s : Rel x h -> HW h -> gone h s -> lost x s (w_task (h_w h s)).
    Proof.
      intros R H [K [D Np]]. unfold known, proc in K. destruct (Pool.tbl (Pool.ps_sys (h_ps h)) s) as [[t [|c]]|] eqn:E; [| |congruence].
      - destruct (hi_run _ _ _ _ _ H _ _ E). contradiction.
      - rewrite (hi_task _ _ _ _ _ H _ _ _ E). split; [exists c; unfold xproc; rewrite <- (r_ps _ _ _ _ _ R); exact E|rewrite <- (r_ps _ _ _ _ _ R); exact Np].
    Qed.
    Lemma prudent_h x m x' h a : Rel x h -> small dumps x -> HW h -> (forall st, calm (link x st)) -> xstep x m x' -> xprudent x m ->
      amv last x x' h m = Some a -> prudent h a.
    Proof.
      intros R Sm H C S P E. destruct m as [st k|st|st|st k|st o|st c|st e|i|]; cbn [amv] in E; try discriminate E.
      - destruct (x_pc x st) eqn:Ep; [|destruct (x_pc x' st); try discriminate E; injection E as <-; exact I|destruct (x_pc x' st); try discriminate E; injection E as <-; exact I| | |];
          destruct (x_pc x' st); try discriminate E. injection E as <-. cbn in P |- *. intros s Gs Ts.
        inversion S; subst. match goal with Ht : xproc x st = Some (?t, _) |- _ =>
          assert (Et : w_task (h_w h st) = t) by (unfold xproc in Ht; rewrite <- (r_ps _ _ _ _ _ R) in Ht; eapply (hi_task _ _ _ _ _ H); eauto);
          rewrite (r_sv _ _ _ _ _ R); apply (P Ep s t _ Ht) end. rewrite <- Et, <- Ts. apply gone_lost; auto.
      - injection E as <-. exact I.
      - assert (Rn : exists t, xproc x st = Some (t, Pool.Running)) by (inversion S; subst; eauto). destruct Rn as [t Ht].
        destruct P as [[-> Ep]|[Nc P]].
        + assert (El : w_at (h_w h st) = Left).
          { pose proof (l_at _ _ _ _ (r_live _ _ _ _ _ R _ _ Ht)) as La. destruct Ep as [Ep|Ep]; rewrite Ep in La; cbn in La; auto.
            destruct La as [|[_ La]]; auto. destruct (C st). contradiction. }
          rewrite El in E. cbn in E. injection E as <-. exact I.
        + rewrite (proj2 (Z.eqb_neq c 0) Nc) in E. cbn [andb] in E. injection E as <-. split; auto. intros pb w Hi.
          destruct (r_up _ _ _ _ _ R _ _ _ Ht) as [said [got [A [B Cc]]]]. destruct (said_prefix _ _ _ L _ _ _ _ _ R Sm A B) as [q [_ [Eq _]]].
          unfold ends in Hi. assert (Hq : In (MBlockFailed pb w) q).
          { rewrite <- (cut_unsent _ _ _ _ _ Cc Eq). destruct (last st) as [n|]; cbn [arriving] in Hi; auto.
            rewrite Nat.min_comm, <- firstn_firstn in Hi. revert Hi. clear. generalize (firstn (length (w_out (h_w h st)) - length (unsent (x_pc x st))) (w_out (h_w h st))). generalize (n - length (gots x st))%nat.
            intros k l. revert k. induction l as [|z l IH]; intros [|k] Hi; cbn in *; auto; try contradiction. destruct Hi; eauto. }
          apply (P pb w). rewrite A, B, map_length, Eq, map_app. rewrite skipn_app, skipn_all2 by (rewrite map_length; lia).
          rewrite map_length, Nat.sub_diag. cbn. apply in_map. exact Hq.
      - injection E as <-. cbn. intros s Gs. destruct (P s _ (gone_lost _ _ _ R H Gs)) as [Cl|[u [[Hu Pu]|[c [Hu [Nc Po]]]]]]; [auto|right; exists u|right; exists u];
          pose proof Hu as Hv; unfold xproc in Hv; rewrite <- (r_ps _ _ _ _ _ R) in Hv; (split; [split; [unfold known, proc; congruence|]|eapply (hi_task _ _ _ _ _ H); eauto]).
        + left. pose proof (l_at _ _ _ _ (r_live _ _ _ _ _ R _ _ Hu)) as La. rewrite Pu in La. exact La.
        + right. rewrite (r_ps _ _ _ _ _ R). split; auto. destruct (hi_exit _ _ _ _ _ H _ _ _ Hv) as [[X _]|[_ [_ X]]]; [exact X|contradiction].
    Qed.

    Lemma calm_x x m x' : (forall st, calm (link x st)) -> xstep x m x' -> xprudent x m -> forall st, calm (link x' st).
    Proof.
      intros C S P st.
      assert (N : forall s k n, k <> Net.KConn false -> nstep (Net.NLink s k) (x_net x) = Some n -> calm (Net.n_link n st)).
      { intros s k n Hk Hn. destruct (WireNet.nstep_link _ _ _ _ _ _ Hn) as [l [ns [Hl [El [Ne _]]]]].
        destruct (Nat.eq_dec st s) as [->|Ns]; [rewrite El; eapply calm_step; eauto|rewrite Ne; auto]. }
      destruct S; cbn [set_net set_pc set_ps x_net]; auto.
      - eapply N; [|eassumption]. intros ->. cbn in P. discriminate.
      - eapply N; [|eassumption]. discriminate.
      - eapply N; [|eassumption]. discriminate.
      - eapply N; [|eassumption]. destruct H0 as [-> | ->]; discriminate.
      - destruct (WireNet.no_get _ _ _ _ _ H1 H2) as [-> _]. auto.
      - destruct (nstep (Net.NLink st0 (Net.KSend (ToWorker r0))) (x_net x)) as [n|] eqn:E; auto. eapply N; [|exact E]. discriminate.
    Qed.

    Lemma wi n : within last (r n).
    Proof. intros st l E. pose proof (xf_last _ _ _ _ _ _ _ _ _ _ _ _ FA st) as X. rewrite E in X. apply X. Qed.
    (* the runs correspond *)
    Record K (n : nat) : Prop := {
      k_run : exists ms, pruns h0 ms (hrun n);
      k_rel : Rel (r n) (hrun n);
      k_calm : forall st, calm (link (r n) st)
    }.
    Lemma k_hw n : K n -> HW (hrun n) /\ Good (Y (hrun n)).
    Proof. intros [[ms R] _ _]. exact (w_kept _ _ _ _ _ _ _ _ _ _ CO _ _ R). Qed.
    Lemma k_step n : K n -> match am n with Some a => hstep (hrun n) a (hrun (S n)) /\ prudent (hrun n) a | None => hrun (S n) = hrun n end /\ K (S n).
    Proof.
      intros Kn. destruct (k_hw _ Kn) as [H G]. destruct Kn as [[ms Rn] Re C]. pose proof (xf_step _ _ _ _ _ _ _ _ _ _ _ _ FA n) as S. unfold am. cbn [hrun].
      destruct (mv n) as [m|] eqn:Em.
      2:{ split; auto. constructor; cbn [hrun]; rewrite ?Em, ?S; eauto. }
      pose proof (xf_prudent _ _ _ _ _ _ _ _ _ _ _ _ FA n m Em) as P.
      assert (Hu : hushed last (hrun n)).
      { intros st [t Al] El. right. pose proof (talk_h _ _ _ H G Al) as T. unfold talk in T. rewrite El in T. apply T. }
      destruct (sim_step _ _ _ _ _ _ _ _ _ dumps loads last L _ _ _ _ _ (ai_runs _ _ _ _ _ _ _ _ _ _ SE _ _ (pruns_aruns _ _ Rn)) Re
        (xf_small _ _ _ _ _ _ _ _ _ _ _ _ FA n) (wi (Datatypes.S n)) Hu S) as [h' [N R']].
      pose proof (next_is _ _ _ _ _ Re R' S P N) as Q. pose proof (calm_x _ _ _ C S P) as C'.
      destruct (amv last (r n) (r (Datatypes.S n)) (hrun n) m) as [a|] eqn:Ea.
      - pose proof (hdo_ok _ _ _ _ _ _ _ _ _ _ Q) as Ed. pose proof (prudent_h _ _ _ _ _ Re (xf_small _ _ _ _ _ _ _ _ _ _ _ _ FA n) H C S P Ea) as Pa.
        split; [rewrite Ed; auto|]. constructor; cbn [hrun]; rewrite ?Em, ?Ea, ?Ed; auto. eexists. eapply pruns_step; eauto.
      - subst h'. split; auto. constructor; cbn [hrun]; rewrite ?Em, ?Ea; eauto.
    Qed.
    Lemma k_all n : K n.
    Proof.
      induction n as [|n IH]; [|apply k_step; exact IH]. constructor; cbn [hrun].
      - exists []. constructor.
      - rewrite R0. exact (rel_init _ _ _ _ _ _ _ _ _ _ SE dumps loads last).
      - intros st. rewrite R0. cbn. split; [discriminate|auto].
    Qed.

    (* ---- fairness ---- *)
    Definition acts_at (st n : nat) : Prop := exists a, am n = Some a /\ hacts a st.
    Lemma acts_dec st n : acts_at st n \/ ~ acts_at st n.
    Proof.
      unfold acts_at. destruct (am n) as [a|]; [|right; intros [a [X _]]; discriminate].
      assert (D : hacts a st \/ ~ hacts a st) by (destruct a; cbn; auto; destruct (Nat.eq_dec st0 st); auto).
      destruct D as [D|D]; [eauto|]. right. intros [b [X Y]]. injection X as <-. contradiction.
    Qed.
    Lemma al_dec st n : xalive (r n) st \/ ~ xalive (r n) st.
    Proof. unfold xalive. destruct (xproc (r n) st) as [[t [|c]]|]; [eauto|right; intros [u X]; discriminate|right; intros [u X]; discriminate]. Qed.
    Lemma alive_x n st : alive (hrun n) st <-> xalive (r n) st.
    Proof. unfold alive, xalive, proc, xproc. rewrite (r_ps _ _ _ _ _ (k_rel _ (k_all n))). reflexivity. Qed.
    Lemma ai_n n : exists ms, AI tasks ord ordt d s0 fuel init nw mbf ms (hrun n).
    Proof. destruct (k_run _ (k_all n)) as [ms R]. eexists. exact (ai_runs _ _ _ _ _ _ _ _ _ _ SE _ _ (pruns_aruns _ _ R)). Qed.
    Lemma am_step n : match am n with Some a => hstep (hrun n) a (hrun (S n)) /\ prudent (hrun n) a | None => hrun (S n) = hrun n end.
    Proof. apply k_step, k_all. Qed.
    Lemma serve_h n i cut : am n = Some (HServe i cut) -> hinput_ok (hrun n) i /\ exists l, sv_tr (h_sv (hrun (S n))) = l ++ sv_tr (h_sv (hrun n)) /\
      (forall j t s, proc (hrun n) j = Some (t, s) -> proc (hrun (S n)) j = Some (t, s) \/ exists c, s = Pool.Running /\ proc (hrun (S n)) j = Some (t, Pool.Exited c)) /\
      forall j, h_w (hrun (S n)) j = sync cut (h_ps (hrun n)) (h_ps (hrun (S n))) (fun s => deliver s l (taken (i_get i) s (h_w (hrun n) s))) j.
    Proof.
      intros E. pose proof (am_step n) as X. rewrite E in X. destruct X as [X _]. destruct (ai_n n) as [ms A].
      revert X. generalize (hrun (S n)). intros h1 X. inversion X as [ | | | | | | |i' cut' sv l ps f Sp Io Ei El Eo]; subst. split; auto. exists l. split; [auto|].
      destruct (ai_events _ _ _ _ _ _ _ _ _ _ _ _ _ _ A Io Ei El) as [E1 [_ [_ E4]]]. destruct (ai_told _ _ _ _ _ _ _ _ _ _ _ A) as [es [T _]].
      unfold proc. cbn [h_ps h_w]. eapply on_all_sync; eauto.
    Qed.
    Lemma proc_keep n st t s : xproc (r n) st = Some (t, s) -> xproc (r (S n)) st = Some (t, s) \/ exists c, s = Pool.Running /\ xproc (r (S n)) st = Some (t, Pool.Exited c).
    Proof.
      unfold xproc. rewrite <- (r_ps _ _ _ _ _ (k_rel _ (k_all n))), <- (r_ps _ _ _ _ _ (k_rel _ (k_all (S n)))). intros E.
      pose proof (am_step n) as X. destruct (am n) as [a|] eqn:Ea; [|rewrite X; auto]. destruct X as [X _].
      destruct a as [u|u|u|u o|u|u k c|i cut]; [..|destruct (serve_h n i cut Ea) as [_ [l [_ [T _]]]]; apply (T _ _ _ E)]; revert X; generalize (hrun (S n)); intros h1 X.
      - inversion X; subst; auto.
      - inversion X; subst; auto.
      - inversion X; subst; auto.
      - inversion X; subst; auto.
      - inversion X as [ | | | | |? [t' Al] _| |]; subst. cbn [h_ps]. rewrite (exit_tbl _ _ _ _ _ _ Al).
        destruct (Nat.eqb_spec u st) as [->|]; auto. unfold proc in Al. rewrite E in Al. injection Al as -> ->. eauto.
      - inversion X as [ | | | | | |? ? ? ? ? ? ? [t' Al] _|]; subst. cbn [h_ps]. rewrite (exit_tbl _ _ _ _ _ _ Al).
        destruct (Nat.eqb_spec u st) as [->|]; auto. unfold proc in Al. rewrite E in Al. injection Al as -> ->. eauto.
    Qed.
    Lemma proc_later n st t s k : (n <= k)%nat -> xproc (r n) st = Some (t, s) -> exists s', xproc (r k) st = Some (t, s') /\ (s' = s \/ exists c, s' = Pool.Exited c).
    Proof.
      intros Le. induction Le as [|k Le IH]; [eauto|]. intros H. destruct (IH H) as [s1 [H1 D]]. destruct (proc_keep _ _ _ _ H1) as [H2|[c [_ H2]]]; eauto.
    Qed.
    Lemma dead_later n k st : (n <= k)%nat -> (exists t c, xproc (r n) st = Some (t, Pool.Exited c)) -> exists t c, xproc (r k) st = Some (t, Pool.Exited c).
    Proof. intros Le [t [c H]]. destruct (proc_later _ _ _ _ _ Le H) as [s [H1 [->|[c' ->]]]]; eauto. Qed.
    (* a worker that does nothing *)
    Lemma stay n st : xalive (r n) st -> xalive (r (S n)) st -> ~ acts_at st n ->
      w_at (h_w (hrun (S n)) st) = w_at (h_w (hrun n) st) /\ (exists a, w_in (h_w (hrun (S n)) st) = w_in (h_w (hrun n) st) ++ a) /\
      (w_out (h_w (hrun (S n)) st) = w_out (h_w (hrun n) st) \/ exists i cut m, am n = Some (HServe i cut) /\ i_get i = GotMessage st m).
    Proof.
      intros [t A] [t' A'] N. pose proof (am_step n) as X. destruct (am n) as [a|] eqn:Ea.
      2:{ rewrite X. split; auto. split; auto. exists []. rewrite app_nil_r. reflexivity. }
      destruct X as [X _].
      assert (Same : h_w (hrun (S n)) st = h_w (hrun n) st -> w_at (h_w (hrun (S n)) st) = w_at (h_w (hrun n) st) /\ (exists a, w_in (h_w (hrun (S n)) st) = w_in (h_w (hrun n) st) ++ a) /\
        (w_out (h_w (hrun (S n)) st) = w_out (h_w (hrun n) st) \/ exists i cut m, Some a = Some (HServe i cut) /\ i_get i = GotMessage st m)).
      { intros ->. split; auto. split; auto. exists []. rewrite app_nil_r. reflexivity. }
      assert (Ns : forall u, hacts a u -> st <> u) by (intros u Hu ->; apply N; exists a; auto).
      destruct a as [u|u|u|u o|u|u k c|i cut].
      - specialize (Ns u eq_refl). apply Same. revert X; generalize (hrun (S n)); intros h1 X. inversion X; subst; cbn [hput h_w]; destruct (Nat.eqb_spec st u); congruence.
      - specialize (Ns u eq_refl). apply Same. revert X; generalize (hrun (S n)); intros h1 X. inversion X; subst; cbn [hput h_w]; destruct (Nat.eqb_spec st u); congruence.
      - specialize (Ns u eq_refl). apply Same. revert X; generalize (hrun (S n)); intros h1 X. inversion X; subst; cbn [hput h_w]; destruct (Nat.eqb_spec st u); congruence.
      - specialize (Ns u eq_refl). apply Same. revert X; generalize (hrun (S n)); intros h1 X. inversion X; subst; cbn [hput h_w]; destruct (Nat.eqb_spec st u); congruence.
      - apply Same. revert X; generalize (hrun (S n)); intros h1 X. inversion X; subst; reflexivity.
      - specialize (Ns u eq_refl). apply Same. revert X; generalize (hrun (S n)); intros h1 X. inversion X; subst; cbn [h_w]; destruct (Nat.eqb_spec st u); congruence.
      - destruct (serve_h n i cut Ea) as [_ [l [_ [_ W]]]]. specialize (W st). unfold sync in W. unfold xproc in A, A'.
        rewrite <- (r_ps _ _ _ _ _ (k_rel _ (k_all n))) in A. rewrite <- (r_ps _ _ _ _ _ (k_rel _ (k_all (S n)))) in A'. rewrite A, A' in W. rewrite W. clear Same.
        unfold deliver, taken. destruct (i_get i) as [c m| | |e] eqn:G; [destruct (Nat.eqb_spec c st) as [->|]|..]; cbn [w_at w_in w_out]; split; eauto; split; eauto.
        right. exists i, cut, m. auto.
    Qed.
    Definition Live (st : nat) (p : phase) (n : nat) : Prop := xalive (r n) st /\ w_at (h_w (hrun n) st) = p.
    Definition moved (st n : nat) : Prop := acts_at st n \/ ~ xalive (r (S n)) st.
    Lemma live_step st p n : Live st p n -> moved st n \/ (Live st p (S n) /\ ~ acts_at st n).
    Proof.
      intros [A W]. unfold moved. destruct (acts_dec st n) as [X|X]; [auto|]. destruct (al_dec st (S n)) as [Y|Y]; [|auto].
      right. split; auto. split; auto. destruct (stay n st A Y X) as [E _]. congruence.
    Qed.
    (* where its program is *)
    Lemma live_pc st p n : Live st p n -> match p with
      | Unborn => x_pc (r n) st = PNew | Asking => exists l b, x_pc (r n) st = PSend l b | Waiting => x_pc (r n) st = PWait
      | Working pb => x_pc (r n) st = PWork pb | _ => True end.
    Proof.
      intros [[t A] W]. pose proof (l_at _ _ _ _ (r_live _ _ _ _ _ (k_rel _ (k_all n)) _ _ A)) as La. rewrite W in La. clear W. pose proof (proj1 (k_calm _ (k_all n) st)) as C.
      destruct (x_pc (r n) st); cbn in La; try (subst p; eauto; fail). destruct La as [La|[_ Q]]; [subst p; exact I|contradiction].
    Qed.

    Lemma walk (inv done : nat -> Prop) : (forall k, inv k -> done k \/ inv (S k)) ->
      forall n k, (n <= k)%nat -> inv n -> (exists j, (n <= j < k)%nat /\ done j) \/ inv k.
    Proof.
      intros St n k Le I. induction Le as [|k Le IH]; auto. destruct IH as [[j [Hj D]]|IH]; [left; exists j; split; [lia|auto]|].
      destruct (St k IH); auto. left. exists k. split; [lia|auto].
    Qed.
    Lemma eventually (inv done : nat -> Prop) (mu : nat -> nat) :
      (forall k, inv k -> done k \/ (inv (S k) /\ (mu (S k) <= mu k)%nat)) ->
      (forall k, inv k -> exists j, (k <= j)%nat /\ (inv j -> done j \/ (inv (S j) /\ (mu (S j) < mu j)%nat))) ->
      forall n, inv n -> exists k, (n <= k)%nat /\ done k.
    Proof.
      intros St Pr n. remember (mu n) as c eqn:Ec. revert n Ec. induction c as [c IH] using lt_wf_ind. intros n -> I.
      destruct (Pr n I) as [j [Le J]].
      destruct (walk (fun k => inv k /\ (mu k <= mu n)%nat) done) with (n := n) (k := j) as [[i [Hi D]]|[I' M]]; auto.
      - intros k [Ik Mk]. destruct (St k Ik) as [D|[I' M']]; auto. right. split; auto. lia.
      - exists i. split; [lia|auto].
      - destruct (J I') as [D|[I2 M2]]; [eauto|]. destruct (IH (mu (S j)) ltac:(lia) (S j) eq_refl I2) as [k [Hk D]]. exists k. split; [lia|auto].
    Qed.

    Lemma fine_n n st t : xproc (r n) st = Some (t, Pool.Running) -> (exists l b, x_pc (r n) st = PSend l b) \/ x_pc (r n) st = PWait \/ (exists pb, x_pc (r n) st = PWork pb) ->
      let l := link (r n) st in Net.broken l = false /\ Net.c_conn l = true /\ Net.c_open l = true /\ Net.c_eq l = [] /\ Net.s_open l = true.
    Proof.
      intros A P. pose proof (r_live _ _ _ _ _ (k_rel _ (k_all n)) _ _ A) as RL. cbv zeta.
      assert (M : Net.c_main (link (r n) st) <> Net.DiscWait /\ Net.c_main (link (r n) st) <> Net.Connecting /\ Net.c_main (link (r n) st) <> Net.Over /\ x_pc (r n) st <> PEnd).
      { pose proof (l_main _ _ _ _ RL) as M. destruct P as [[l [b P]]|[P|[pb P]]]; rewrite P in *; cbn in M.
        - destruct M as [M|[a [_ [M|[M|M]]]]]; rewrite M; repeat split; discriminate.
        - destruct M as [M|[M|[M|M]]]; rewrite M; repeat split; discriminate.
        - rewrite M. repeat split; discriminate. }
      destruct M as [M1 [M2 [M3 M4]]].
      assert (B : Net.broken (link (r n) st) = false) by (destruct (Net.broken (link (r n) st)) eqn:B; auto; destruct (l_fine _ _ _ _ RL B); contradiction).
      split; auto. destruct (linv _ _ _ L _ _ st (k_rel _ (k_all n))) as [puts [excs [ss V]]]. exact (WireNet.live_fine _ _ _ _ _ _ V B M2 M3).
    Qed.
    Lemma still x m x' st : xstep x m x' -> xprudent x m -> xalive x st -> ~ xacts m st ->
      Net.c_main (link x' st) = Net.c_main (link x st) /\ x_pc x' st = x_pc x st /\ rets x' st = rets x st.
    Proof.
      intros S P [t A] N. unfold rets.
      assert (O : forall s k n, (s = st -> io k = true \/ exists a, k = Net.KSend a) -> nstep (Net.NLink s k) (x_net x) = Some n ->
        Net.c_main (Net.n_link n st) = Net.c_main (link x st) /\ Net.c_rets (Net.n_link n st) = Net.c_rets (link x st)).
      { intros s k n Hk Hn. destruct (WireNet.nstep_link _ _ _ _ _ _ Hn) as [l [ns [Hl [El [Ne _]]]]].
        destruct (Nat.eq_dec st s) as [->|Ns]; [|rewrite Ne by auto; auto]. rewrite El. destruct (Hk eq_refl) as [Io|[a ->]].
        - destruct (WireNet.io_quiet _ _ _ _ _ _ Io Hl) as [Q1 [Q2 _]]. auto.
        - cbn [Net.kstep] in Hl. destruct (Net.s_open _); [|discriminate]. apply some_inj, pair_equal_spec in Hl. destruct Hl as [<- _]. auto. }
      destruct S; cbn [set_net set_pc set_ps x_net x_pc xacts] in *; auto.
      - destruct (O st0 k n) as [O1 O2]; auto.
      - destruct (O st0 Net.KBreak n) as [O1 O2]; auto. intros ->. unfold xproc in *. congruence.
      - destruct (O st0 (Net.KCall c) n) as [O1 O2]; auto; intros; contradiction.
      - destruct (O st0 k n) as [O1 O2]; auto; try (intros; contradiction). destruct (Nat.eqb_spec st st0) as [->|]; [contradiction|auto].
      - destruct (Nat.eqb_spec st st0) as [->|]; [contradiction|auto].
      - destruct (WireNet.no_get _ _ _ _ _ H1 H2) as [-> _]. auto.
      - destruct (nstep (Net.NLink st0 (Net.KSend (ToWorker r0))) (x_net x)) as [n|] eqn:E; auto. destruct (O _ _ _ (fun _ => or_intror (ex_intro _ _ eq_refl)) E) as [O1 O2]. auto.
    Qed.
    Definition stage (m : Net.cpc payload) : nat :=
      match m with Net.Idle => 3%nat | Net.Send0 _ | Net.Get0 => 2%nat | Net.Send1 _ | Net.Get1 => 1%nat | _ => 0%nat end.
    Definition ahead (st n : nat) : nat := (4 * length (unsent (x_pc (r n) st)) + stage (Net.c_main (link (r n) st)))%nat.
    Lemma mv_step n m : mv n = Some m -> xstep (r n) m (r (S n)) /\ xprudent (r n) m.
    Proof. intros E. pose proof (xf_step _ _ _ _ _ _ _ _ _ _ _ _ FA n) as S. rewrite E in S. split; auto. exact (xf_prudent _ _ _ _ _ _ _ _ _ _ _ _ FA n m E). Qed.
    Lemma acts_end n st c : mv n = Some (XEnd st c) -> acts_at st n.
    Proof. intros E. unfold acts_at, am. rewrite E. cbn [amv]. destruct (_ && _); eexists; split; reflexivity. Qed.
    Lemma acts_body n st o : mv n = Some (XBody st o) -> acts_at st n.
    Proof. intros E. unfold acts_at, am. rewrite E. cbn [amv]. eexists. split; reflexivity. Qed.
    Lemma xacts_dec m st : xacts m st \/ ~ xacts m st.
    Proof. destruct m; cbn; auto; destruct (Nat.eq_dec st0 st); auto. Qed.
    Lemma rest n st : xalive (r n) st -> (forall m, mv n = Some m -> ~ xacts m st) -> ahead st (S n) = ahead st n /\ x_pc (r (S n)) st = x_pc (r n) st /\ Net.c_main (link (r (S n)) st) = Net.c_main (link (r n) st).
    Proof.
      intros A N. unfold ahead. pose proof (xf_step _ _ _ _ _ _ _ _ _ _ _ _ FA n) as S. destruct (mv n) as [m|] eqn:E; [|rewrite S; auto].
      destruct (still _ _ _ st S (xf_prudent _ _ _ _ _ _ _ _ _ _ _ _ FA n m E) A (N m eq_refl)) as [-> [-> _]]. auto.
    Qed.
    (* the program goes on *)
    Lemma onward n st m p : p = Asking \/ (p = Waiting /\ Net.c_mq (link (r n) st) <> []) -> Live st p n -> Live st p (S n) -> ~ acts_at st n -> mv n = Some m -> xacts m st ->
      (ahead st (S n) < ahead st n)%nat.
    Proof.
      intros Hp L1 L2 Na Em Xa. pose proof (live_pc _ _ _ L1) as P1. pose proof (live_pc _ _ _ L2) as P2. destruct L1 as [[t A] W]. clear L2.
      assert (F : (exists l b, x_pc (r n) st = PSend l b) \/ x_pc (r n) st = PWait \/ (exists pb, x_pc (r n) st = PWork pb)).
      { destruct Hp as [->|[-> _]]; auto. }
      destruct (fine_n n st t A F) as [_ [F2 [F3 [F4 _]]]]. pose proof (l_main _ _ _ _ (r_live _ _ _ _ _ (k_rel _ (k_all n)) _ _ A)) as M. clear F.
      destruct (mv_step n m Em) as [S _]. unfold ahead. revert P2. generalize dependent (r (Datatypes.S n)). intros x' S P2.
      destruct S; cbn [xacts] in Xa; try contradiction; subst st0.
      - (* XCall *)
        cbn [set_net x_net x_pc] in *. destruct (WireNet.nstep_link _ _ _ _ _ _ H1) as [l [ns [Hl [-> _]]]]. cbn [Net.kstep] in Hl.
        destruct (Net.c_main (link (r n) st)); try discriminate. apply some_inj, pair_equal_spec in Hl. destruct Hl as [<- _].
        destruct Hp as [->|[-> _]].
        + destruct P1 as [q [b P1]]. rewrite P1 in *. destruct q; [destruct b|]; cbn in H0; try discriminate; injection H0 as <-; cbn; lia.
        + rewrite P1 in *. cbn in H0. injection H0 as <-. cbn. lia.
      - (* XMain *)
        cbn [set_net set_pc x_net x_pc] in *. rewrite Nat.eqb_refl in *. destruct (WireNet.nstep_link _ _ _ _ _ _ H1) as [l [ns [Hl [El _]]]]. rewrite El in *.
        assert (Hk : k = Net.KMain).
        { destruct H0 as [->| ->]; auto. exfalso. cbn [Net.kstep] in Hl. destruct (Net.c_main (link (r n) st)) eqn:Mn; try discriminate. destruct (Net.c_mq (link (r n) st)) eqn:Q; [|discriminate].
          destruct Hp as [->|[_ X]]; [|congruence]. destruct P1 as [q [b P1]]. rewrite P1 in M. cbn in M. destruct M as [M|[a [_ [M|[M|M]]]]]; discriminate. }
        subst k. cbn [Net.kstep] in Hl. destruct (Net.main_step (link (r n) st)) as [l0|] eqn:Ms; [|discriminate]. apply some_inj, pair_equal_spec in Hl. destruct Hl as [-> _].
        unfold Net.main_step in Ms. rewrite F2, F3, F4 in Ms. unfold rets in H2.
        destruct Hp as [->|[-> Q]].
        + destruct P1 as [q [b P1]]. rewrite P1 in *. cbn in M.
          assert (Re : forall a, request t (PSend q b) = Some (Net.CSend a) -> Net.c_main (link (r n) st) = Net.Send2 a -> (4 * length (unsent (fold_left resume rs (PSend q b))) + stage (Net.c_main l) < 4 * length q + 0)%nat).
          { intros a Ra Ma. rewrite Ma in Ms. apply some_inj in Ms. subst l. cbn in H2. apply app_inv_head in H2. subst rs. cbn [fold_left resume] in *. destruct q as [|x0 q].
            - cbn in P2. destruct P2 as [? [? P2]]. discriminate.
            - cbn. lia. }
          destruct M as [M|[a [Ra M]]]; [rewrite M in Ms; discriminate|]. destruct M as [M|[M|M]]; [..|rewrite M; cbn [stage]; eapply Re; eauto]; rewrite M in *; cbn [stage];
            apply some_inj in Ms; subst l; cbn in H2; rewrite <- (app_nil_r (Net.c_rets (link (r n) st))) in H2 at 1; apply app_inv_head in H2; subst rs; cbn; lia.
        + rewrite P1 in *. cbn in M. destruct M as [M|[M|[M|M]]]; rewrite M in *; try discriminate.
          1,2: apply some_inj in Ms; subst l; cbn in H2; rewrite <- (app_nil_r (Net.c_rets (link (r n) st))) in H2 at 1; apply app_inv_head in H2; subst rs; cbn; lia.
          exfalso. destruct (Net.c_mq (link (r n) st)) as [|m0 q]; [congruence|]. apply some_inj in Ms. subst l. cbn in H2. apply app_inv_head in H2. subst rs. cbn in P2.
          destruct m0 as [[m0|[]]| |]; discriminate.
      - exfalso. apply Na. eapply acts_body; eauto.
      - exfalso. apply Na. eapply acts_end; eauto.
    Qed.
    Lemma onward_all n st p : p = Asking \/ (p = Waiting /\ Net.c_mq (link (r n) st) <> []) -> Live st p n -> Live st p (S n) -> ~ acts_at st n -> (ahead st (S n) <= ahead st n)%nat.
    Proof.
      intros Hp L1 L2 Na. assert (D : (exists m, mv n = Some m /\ xacts m st) \/ forall m, mv n = Some m -> ~ xacts m st).
      { destruct (mv n) as [m|]; [|right; discriminate]. destruct (xacts_dec m st); [left; eauto|right; intros m' X; injection X as <-; auto]. }
      destruct D as [[m [Em Xa]]|N]; [apply Nat.lt_le_incl; eapply onward; eauto|]. destruct (rest n st (proj1 L1) N) as [-> _]. auto.
    Qed.
    Lemma asks n st : Live st Asking n -> exists k, (n <= k)%nat /\ (Live st Asking k /\ moved st k).
    Proof.
      apply (eventually (Live st Asking) (fun k => Live st Asking k /\ moved st k) (ahead st)).
      - intros k Lk. destruct (live_step _ _ _ Lk) as [X|[X Na]]; auto. right. split; auto. eapply onward_all; eauto.
      - intros k Lk. assert (Rd : forall j, Live st Asking j -> xready (r j) st).
        { intros j Lj. destruct (live_pc _ _ _ Lj) as [l [b P]]. destruct Lj as [[t A] _]. exists t. rewrite P. auto. }
        destruct (xf_main _ _ _ _ _ _ _ _ _ _ _ _ FA k st (Rd k Lk)) as [j [Le [[m [Em Xa]]|N]]]; exists j; split; auto; intros Lj.
        + destruct (live_step _ _ _ Lj) as [X|[X Na]]; auto. right. split; auto. eapply onward; eauto.
        + destruct (N (Rd j Lj)).
    Qed.
    Lemma works n st pb : Live st (Working pb) n -> exists k, (n <= k)%nat /\ moved st k.
    Proof.
      apply (eventually (Live st (Working pb)) (moved st) (fun _ => 0%nat)).
      - intros k Lk. destruct (live_step _ _ _ Lk) as [X|[X Na]]; auto.
      - intros k Lk. assert (Rd : forall j, Live st (Working pb) j -> xready (r j) st).
        { intros j Lj. pose proof (live_pc _ _ _ Lj) as P. destruct Lj as [[t A] _]. exists t. rewrite P. auto. }
        destruct (xf_main _ _ _ _ _ _ _ _ _ _ _ _ FA k st (Rd k Lk)) as [j [Le [[m [Em Xa]]|N]]]; exists j; split; auto; intros Lj; [|destruct (N (Rd j Lj))].
        left. left. pose proof (live_pc _ _ _ Lj) as P. cbn in P. destruct Lj as [[t A] _]. pose proof (l_main _ _ _ _ (r_live _ _ _ _ _ (k_rel _ (k_all j)) _ _ A)) as M. rewrite P in M. cbn in M.
        destruct (mv_step j m Em) as [S _]. destruct m as [s l|s|s|s l|s o|s c|s e|i|]; cbn in Xa; try contradiction; subst s; [| |eapply acts_body; eauto|eapply acts_end; eauto]; exfalso.
        + inversion S; subst. rewrite P in *. discriminate.
        + inversion S; subst. destruct (WireNet.nstep_link _ _ _ _ _ _ H4) as [l0 [ns [Hl _]]].
          destruct H3 as [->| ->]; cbn [Net.kstep] in Hl; unfold Net.main_step in Hl; rewrite M in Hl; discriminate.
    Qed.
    Lemma mq_kept n st : Live st Waiting n -> Live st Waiting (S n) -> exists q, Net.c_mq (link (r (S n)) st) = Net.c_mq (link (r n) st) ++ q.
    Proof.
      intros L1 L2. pose proof (live_pc _ _ _ L1) as P1. pose proof (live_pc _ _ _ L2) as P2. cbn in P1, P2. destruct L1 as [[t A] _]. clear L2.
      destruct (fine_n n st t A (or_intror (or_introl P1))) as [_ [F2 [F3 [F4 _]]]]. pose proof (l_main _ _ _ _ (r_live _ _ _ _ _ (k_rel _ (k_all n)) _ _ A)) as M. rewrite P1 in M. cbn in M.
      pose proof (xf_step _ _ _ _ _ _ _ _ _ _ _ _ FA n) as S. destruct (mv n) as [m|]; [|rewrite S; exists []; rewrite app_nil_r; auto].
      assert (O : forall s k x1, (s = st -> io k = true \/ (exists a, k = Net.KSend a) \/ (exists c, k = Net.KCall c) \/ (k = Net.KTimeout)) -> nstep (Net.NLink s k) (x_net (r n)) = Some x1 ->
        exists q, Net.c_mq (Net.n_link x1 st) = Net.c_mq (link (r n) st) ++ q).
      { intros s k x1 Hk Hn. destruct (WireNet.nstep_link _ _ _ _ _ _ Hn) as [l [ns [Hl [El [Ne _]]]]].
        destruct (Nat.eq_dec st s) as [->|Ns]; [|rewrite Ne by auto; exists []; rewrite app_nil_r; auto]. rewrite El. clear - Hk Hl. specialize (Hk eq_refl).
        assert (D : Net.c_mq l = Net.c_mq (link (r n) s) \/ exists m, Net.c_mq l = Net.c_mq (link (r n) s) ++ [m]).
        { destruct Hk as [Io|[[a ->]|[[a ->]| ->]]]; [destruct k as [ok|c| | |ok|j| | | |a| |ok|j| | | |]; try discriminate Io|..]; cbn [Net.kstep] in Hl;
            repeat match type of Hl with context [match ?b with _ => _ end] => destruct b eqn:? end; try discriminate Hl;
            apply some_inj, pair_equal_spec in Hl; destruct Hl as [<- _]; cbn; eauto. }
        destruct D as [->|[m ->]]; [exists []; rewrite app_nil_r; auto|eauto]. }
      assert (Z : exists q, Net.c_mq (link (r n) st) = Net.c_mq (link (r n) st) ++ q) by (exists []; rewrite app_nil_r; auto).
      revert P2. generalize dependent (r (Datatypes.S n)). intros x' S P2. destruct S; cbn [set_net set_pc set_ps x_net x_pc] in *; auto.
      - eapply O; [|eassumption]. auto.
      - eapply O; [|eassumption]. intros ->. congruence.
      - eapply O; [|eassumption]. eauto.
      - destruct (Nat.eq_dec st0 st) as [->|Ns]; [|eapply O; [|eassumption]; intros; contradiction]. rewrite Nat.eqb_refl in P2. destruct H0 as [->| ->]; [|eapply O; [|eassumption]; auto].
        destruct (WireNet.nstep_link _ _ _ _ _ _ H1) as [l [ns [Hl [El _]]]]. rewrite El in *. cbn [Net.kstep] in Hl.
        destruct (Net.main_step (link (r n) st)) as [l0|] eqn:Ms; [|discriminate]. apply some_inj, pair_equal_spec in Hl. destruct Hl as [-> _].
        unfold Net.main_step in Ms. rewrite F2, F3, F4 in Ms. unfold rets in H2. destruct M as [M|[M|[M|M]]]; rewrite M in *; try discriminate.
        1,2: apply some_inj in Ms; subst l; cbn; auto.
        exfalso. destruct (Net.c_mq (link (r n) st)) as [|m0 q]; [congruence|]. apply some_inj in Ms. subst l. cbn in H2. apply app_inv_head in H2. subst rs. rewrite P1 in P2. cbn in P2.
        destruct m0 as [[m0|[]]| |]; discriminate.
      - destruct (WireNet.no_get _ _ _ _ _ H1 H2) as [-> _]. auto.
      - destruct (nstep (Net.NLink st0 (Net.KSend (ToWorker r0))) (x_net (r n))) as [n1|] eqn:E; auto. eapply O; [|exact E]. eauto.
    Qed.
    Lemma mq_kept2 n st : Live st Waiting n -> Live st Waiting (S n) -> Net.c_mq (link (r n) st) <> [] -> Net.c_mq (link (r (S n)) st) <> [].
    Proof. intros A B Q. destruct (mq_kept _ _ A B) as [q ->]. destruct (Net.c_mq (link (r n) st)); [congruence|discriminate]. Qed.
    Lemma waits n st : Live st Waiting n -> Net.c_mq (link (r n) st) <> [] -> exists k, (n <= k)%nat /\ moved st k.
    Proof.
      intros Ln Qn. apply (eventually (fun k => Live st Waiting k /\ Net.c_mq (link (r k) st) <> []) (moved st) (ahead st)) with (n := n); auto.
      - intros k [Lk Q]. destruct (live_step _ _ _ Lk) as [X|[X Na]]; auto. right. split; [|eapply onward_all; eauto]. split; auto. eapply mq_kept2; eauto.
      - intros k [Lk Q]. assert (Rd : forall j, Live st Waiting j -> Net.c_mq (link (r j) st) <> [] -> xready (r j) st).
        { intros j Lj Qj. pose proof (live_pc _ _ _ Lj) as P. destruct Lj as [[t A] _]. exists t. rewrite P. auto. }
        destruct (xf_main _ _ _ _ _ _ _ _ _ _ _ _ FA k st (Rd k Lk Q)) as [j [Le [[m [Em Xa]]|N]]]; exists j; split; auto; intros [Lj Qj].
        + destruct (live_step _ _ _ Lj) as [X|[X Na]]; auto. right. split; [|eapply onward; eauto]. split; auto. eapply mq_kept2; eauto.
        + destruct (N (Rd j Lj Qj)).
    Qed.

    (* connecting *)
    Lemma conn_kept n st : Live st Unborn n -> Live st Unborn (S n) -> Net.c_conn (link (r n) st) = true ->
      Net.c_conn (link (r (S n)) st) = true /\ forall m, mv n = Some m -> ~ xacts m st.
    Proof.
      intros L1 L2 Cc. pose proof (live_pc _ _ _ L1) as P1. pose proof (live_pc _ _ _ L2) as P2. cbn in P1, P2. destruct L1 as [[t A] _]. destruct L2 as [[t2 A2] _].
      pose proof (l_main _ _ _ _ (r_live _ _ _ _ _ (k_rel _ (k_all n)) _ _ A)) as M. rewrite P1 in M. cbn in M. destruct (proj2 (k_calm _ (k_all n) st) M) as [Ce Cl].
      pose proof (xf_step _ _ _ _ _ _ _ _ _ _ _ _ FA n) as S. destruct (mv n) as [m|]; [|rewrite S; split; [auto|discriminate]].
      assert (O : forall s k x1, (s = st -> io k = true \/ (exists a, k = Net.KSend a)) -> nstep (Net.NLink s k) (x_net (r n)) = Some x1 -> Net.c_conn (Net.n_link x1 st) = true).
      { intros s k x1 Hk Hn. destruct (WireNet.nstep_link _ _ _ _ _ _ Hn) as [l [ns [Hl [El [Ne _]]]]].
        destruct (Nat.eq_dec st s) as [->|Ns]; [|rewrite Ne by auto; auto]. rewrite El. clear - Hk Hl Cc Cl. specialize (Hk eq_refl).
        destruct Hk as [Io|[a ->]]; [destruct k as [ok|c| | |ok|j| | | |a| |ok|j| | | |]; try discriminate Io|]; cbn [Net.kstep] in Hl; rewrite ?Cc, ?Cl in Hl;
            repeat match type of Hl with context [match ?b with _ => _ end] => destruct b eqn:? end; try discriminate Hl;
            apply some_inj, pair_equal_spec in Hl; destruct Hl as [<- _]; cbn; auto. }
      revert P2 A2. generalize dependent (r (Datatypes.S n)). intros x' S P2 A2. destruct S; cbn [set_net set_pc set_ps x_net x_pc] in *; (split; [|intros m Em; injection Em as <-; cbn; auto]); auto.
      - eapply O; [|eassumption]. auto.
      - eapply O; [|eassumption]. intros ->. congruence.
      - destruct (Nat.eq_dec st0 st) as [->|Ns]; [rewrite P1 in *; discriminate|]. eapply O; [|eassumption]. intros; contradiction.
      - intros ->. rewrite P1 in *. discriminate.
      - destruct (Nat.eq_dec st0 st) as [->|Ns]; [|eapply O; [|eassumption]; intros; contradiction]. exfalso. rewrite Nat.eqb_refl in P2.
        destruct (WireNet.nstep_link _ _ _ _ _ _ H1) as [l [ns [Hl [El _]]]]. rewrite El in *. destruct H0 as [->| ->]; cbn [Net.kstep] in Hl; [|rewrite M in Hl; discriminate].
        unfold Net.main_step in Hl. rewrite M, Cc in Hl. apply some_inj, pair_equal_spec in Hl. destruct Hl as [<- _]. unfold rets in H2. cbn in H2. apply app_inv_head in H2. subst rs.
        rewrite P1 in P2. discriminate.
      - intros ->. rewrite Nat.eqb_refl in P2.
        destruct (WireNet.nstep_link _ _ _ _ _ _ H1) as [l [ns [Hl [El _]]]]. rewrite El in *. destruct H0 as [->| ->]; cbn [Net.kstep] in Hl; [|rewrite M in Hl; discriminate].
        unfold Net.main_step in Hl. rewrite M, Cc in Hl. apply some_inj, pair_equal_spec in Hl. destruct Hl as [<- _]. unfold rets in H2. cbn in H2. apply app_inv_head in H2. subst rs.
        rewrite P1 in P2. discriminate.
      - intros ->. congruence.
      - intros ->. unfold xproc in A2. cbn [set_ps x_ps] in A2. rewrite (exit_tbl _ _ _ _ _ _ H), Nat.eqb_refl in A2. discriminate.
      - destruct (WireNet.no_get _ _ _ _ _ H1 H2) as [-> _]. auto.
      - destruct (nstep (Net.NLink st0 (Net.KSend (ToWorker r0))) (x_net (r n))) as [n1|] eqn:E; auto. eapply O; [|exact E]. eauto.
    Qed.
    Lemma can_ready n st : Live st Unborn n -> Net.c_conn (link (r n) st) = true -> hcan_move (hrun n) st -> xready (r n) st.
    Proof.
      intros Ln Cc [_ Cm]. pose proof (live_pc _ _ _ Ln) as P. destruct Ln as [[t A] W]. rewrite W in Cm. exists t. split; auto. cbn in P. rewrite P. split; auto.
      intros s Ls. destruct (k_hw _ (k_all n)) as [H _]. destruct (lost_gone _ _ _ _ (k_rel _ (k_all n)) H Ls) as [G T].
      rewrite <- (r_sv _ _ _ _ _ (k_rel _ (k_all n))). apply Cm; auto. rewrite T. symmetry.
      unfold xproc in A. rewrite <- (r_ps _ _ _ _ _ (k_rel _ (k_all n))) in A. eapply (hi_task _ _ _ _ _ H); eauto.
    Qed.
    Lemma ready_can n st : Live st Unborn n -> xready (r n) st -> hcan_move (hrun n) st.
    Proof.
      intros Ln [t [A X]]. pose proof (live_pc _ _ _ Ln) as P. cbn in P. rewrite P in X. destruct X as [Cc Q]. destruct Ln as [Al W]. split; [apply alive_x; auto|]. rewrite W.
      destruct (k_hw _ (k_all n)) as [H _]. intros s G E. rewrite (r_sv _ _ _ _ _ (k_rel _ (k_all n))). apply Q.
      unfold xproc in A. rewrite <- (r_ps _ _ _ _ _ (k_rel _ (k_all n))) in A. rewrite <- (hi_task _ _ _ _ _ H _ _ _ A), <- E. apply gone_lost; auto. apply k_rel, k_all.
    Qed.
    Lemma can_dec n st : hcan_move (hrun n) st \/ ~ hcan_move (hrun n) st.
    Proof. destruct (k_hw _ (k_all n)) as [H _]. destruct (hcan_dec maxr fuel ids nw _ st H); auto. Qed.
    Lemma connects n st : Live st Unborn n -> exists k, (n <= k)%nat /\ (moved st k \/ ~ hcan_move (hrun k) st).
    Proof.
      intros Ln. destruct (xf_conn _ _ _ _ _ _ _ _ _ _ _ _ FA n st (proj1 Ln)) as [k [Le C]].
      destruct (walk (Live st Unborn) (moved st)) with (n := n) (k := k) as [[j [Hj D]]|Lk]; auto.
      { intros j Lj. destruct (live_step _ _ _ Lj) as [X|[X _]]; auto. }
      { exists j. split; [lia|auto]. }
      destruct C as [C|[C|C]]; [|pose proof (live_pc _ _ _ Lk); contradiction|destruct Lk; contradiction].
      destruct (can_dec k st) as [Cm|Cm]; [|eauto].
      destruct (xf_main _ _ _ _ _ _ _ _ _ _ _ _ FA k st (can_ready _ _ Lk C Cm)) as [j [Lj D]].
      destruct (walk (fun j => Live st Unborn j /\ Net.c_conn (link (r j) st) = true) (moved st)) with (n := k) (k := j) as [[i [Hi D']]|[L2 C2]]; auto.
      { intros i [Li Ci]. destruct (live_step _ _ _ Li) as [X|[X _]]; auto. right. split; auto. eapply conn_kept; eauto. }
      { exists i. split; [lia|auto]. }
      exists j. split; [lia|]. destruct D as [[m [Em Xa]]|N].
      - left. destruct (live_step _ _ _ L2) as [X|[X _]]; auto. exfalso. eapply (proj2 (conn_kept _ _ L2 X C2)); eauto.
      - right. intros Cj. apply N. apply can_ready; auto.
    Qed.

    (* what is on its way *)
    Lemma up_len n st : Live st Waiting n -> (length (NetFacts.sents (rets (r n) st)) = length (gots (r n) st) + length (w_out (h_w (hrun n) st)))%nat.
    Proof.
      intros Ln. pose proof (live_pc _ _ _ Ln) as P. cbn in P. destruct Ln as [[t A] _]. destruct (r_up _ _ _ _ _ (k_rel _ (k_all n)) _ _ _ A) as [said [got [E1 [E2 E3]]]].
      rewrite P in E3. cbn in E3. rewrite app_nil_r in E3. rewrite E1, E2, !map_length, E3, app_length. reflexivity.
    Qed.
    Lemma down_len n st : Live st Waiting n -> (length (outs (r n) st) + length (NetFacts.of_conn st (x_todo (r n))) = length (NetFacts.gottens (rets (r n) st)) + length (w_in (h_w (hrun n) st)))%nat.
    Proof.
      intros Ln. pose proof (live_pc _ _ _ Ln) as P. cbn in P. destruct Ln as [[t A] _].
      destruct (l_down _ _ _ _ (r_live _ _ _ _ _ (k_rel _ (k_all n)) _ _ A)) as [gs [E1 E2]]; [rewrite P; discriminate|rewrite P; discriminate|].
      apply (f_equal (@length _)) in E2. rewrite app_length, !map_length, app_length in E2. rewrite E1, map_length. exact E2.
    Qed.
    Lemma in_len n st : Live st Waiting n -> (length (NetFacts.gottens (rets (r n) st)) + length (Net.c_mq (link (r n) st)) <= length (outs (r n) st))%nat.
    Proof.
      intros Ln. destruct (r_run _ _ _ _ _ (k_rel _ (k_all n))) as [xs H].
      destruct (WireNet.to_client _ _ L _ _ H st (proj2 (xf_small _ _ _ _ _ _ _ _ _ _ _ _ FA n st))) as [rest Q].
      apply (f_equal (@length _)) in Q. rewrite map_length, !app_length in Q. unfold rets. rewrite Q. lia.
    Qed.
    Lemma talk_n n st : Live st Waiting n -> (length (w_in (h_w (hrun n) st)) <= 1)%nat /\ (w_out (h_w (hrun n) st) <> [] -> w_in (h_w (hrun n) st) = []).
    Proof.
      intros [[t A] W]. destruct (k_hw _ (k_all n)) as [H G]. unfold xproc in A. rewrite <- (r_ps _ _ _ _ _ (k_rel _ (k_all n))) in A.
      pose proof (talk_h _ _ _ H G A) as T. unfold talk in T. rewrite W in T.
      destruct T as [[o [T1 [T2 _]]]|[[T1 [T2 _]]|[[T1 [T2 _]]|[pb [T1 [T2 _]]]]]]; rewrite T1, T2; cbn; split; auto; congruence.
    Qed.
    (* nothing can be done for a connection: all of it arrived *)
    Lemma all_there n st : Live st Waiting n -> ~ busy dumps loads (r n) st ->
      length (NetFacts.sents (rets (r n) st)) = (length (gots (r n) st) + length (NetFacts.of_conn st (Net.n_mq (x_net (r n)))))%nat /\
      length (outs (r n) st) = (length (NetFacts.gottens (rets (r n) st)) + length (Net.c_mq (link (r n) st)))%nat.
    Proof.
      intros Ln Nb. pose proof (live_pc _ _ _ Ln) as P. cbn in P. destruct Ln as [[t A] _].
      destruct (fine_n n st t A (or_intror (or_introl P))) as [F1 [F2 _]]. destruct (r_run _ _ _ _ _ (k_rel _ (k_all n))) as [xs H].
      assert (Qu : P_Net.quiet dumps loads (link (r n) st)) by (destruct (io_dec dumps loads (link (r n) st)) as [Q|Q]; [exact Q|contradiction]).
      destruct (P_Net.C55_nothing_lost _ _ L _ _ H st F1 F2 Qu) as [Q1 Q2].
      assert (Cl : Net.c_loop (link (r n) st) = true).
      { pose proof (l_main _ _ _ _ (r_live _ _ _ _ _ (k_rel _ (k_all n)) _ _ A)) as M. rewrite P in M. cbn in M.
        destruct (linv _ _ _ L _ _ st (k_rel _ (k_all n))) as [puts [excs [ss V]]]. destruct V as [[V _]|V].
        - destruct V as [_ [_ [_ [_ [_ [_ [_ [_ [_ [_ [[E _]|[E _]]]]]]]]]]]]; destruct M as [M|[M|[M|M]]]; congruence.
        - destruct (NetFacts.v_conn _ _ _ _ _ _ V F2) as [_ [X|X]]; auto. destruct M as [M|[M|[M|M]]]; congruence. }
      specialize (Q2 Cl). destruct (xf_small _ _ _ _ _ _ _ _ _ _ _ _ FA n st) as [S1 S2]. unfold rets in *.
      rewrite (WireNet.fits_all dumps _ S1) in Q1. rewrite (WireNet.fits_all dumps _ S2) in Q2.
      apply (f_equal (@length _)) in Q1, Q2. rewrite map_length, app_length in Q1, Q2. auto.
    Qed.

    Definition io_at (st n : nat) : bool := match mv n with Some (XNet s k) => Nat.eqb s st && NetFacts.moves k | _ => false end.
    Local Notation wrk st n := (NetFacts.work dumps (link (r n) st)).
    (* while a worker waits and nothing is sent to it, there is less and less to do for its connection *)
    Lemma work_down n st : Live st Waiting n -> Live st Waiting (S n) -> NetFacts.of_conn st (x_todo (r n)) = [] ->
      (wrk st (S n) + (if io_at st n then 1 else 0) <= wrk st n)%nat.
    Proof.
      intros L1 L2 To. pose proof (live_pc _ _ _ L1) as P1. cbn in P1. destruct L1 as [[t A] _]. destruct L2 as [[t2 A2] _].
      pose proof (l_main _ _ _ _ (r_live _ _ _ _ _ (k_rel _ (k_all n)) _ _ A)) as M. rewrite P1 in M. cbn in M.
      destruct (linv _ _ _ L _ _ st (k_rel _ (k_all n))) as [puts [excs [ss V]]].
      pose proof (xf_step _ _ _ _ _ _ _ _ _ _ _ _ FA n) as S. unfold io_at. destruct (mv n) as [m|]; [|rewrite S; lia].
      assert (W : forall k x1, (forall a, k <> Net.KSend a) -> nstep (Net.NLink st k) (x_net (r n)) = Some x1 ->
        (NetFacts.work dumps (Net.n_link x1 st) + (if NetFacts.moves k then 1 else 0) <= wrk st n)%nat).
      { intros k x1 Hk Hn. destruct (WireNet.nstep_link _ _ _ _ _ _ Hn) as [l [ns [Hl [El _]]]]. rewrite El.
        destruct (NetFacts.step_work _ _ _ _ _ _ _ _ _ V Hl) as [new [E1 E2]].
        assert (Z : NetFacts.sents (Net.c_rets l) = NetFacts.sents (Net.c_rets (link (r n) st)) /\ NetFacts.n_sent ns = []).
        { clear - Hk Hl M. destruct (io k) eqn:Io; [destruct (WireNet.io_quiet _ _ _ _ _ _ Io Hl) as [-> [_ ->]]; auto|].
          destruct k as [ok|c| | |ok|j| | | |a| |ok|j| | | |]; try discriminate Io; try (destruct (Hk a eq_refl)); cbn [Net.kstep] in Hl; unfold Net.main_step in Hl;
            destruct M as [M|[M|[M|M]]]; rewrite ?M in Hl; destruct (Net.c_mq (link (r n) st)); repeat match type of Hl with context [match ?b with _ => _ end] => destruct b eqn:? end; try discriminate Hl;
            apply some_inj, pair_equal_spec in Hl; destruct Hl as [<- <-]; cbn; unfold NetFacts.sents; rewrite ?flat_map_app; cbn; rewrite ?app_nil_r; auto. }
        destruct Z as [Z1 Z2]. rewrite Z1 in E1. rewrite <- (app_nil_r (NetFacts.sents (Net.c_rets (link (r n) st)))) in E1 at 1. apply app_inv_head in E1. subst new.
        rewrite Z2 in E2. cbn in E2. lia. }
      assert (Ot : forall s k x1, s <> st -> nstep (Net.NLink s k) (x_net (r n)) = Some x1 -> Net.n_link x1 st = link (r n) st).
      { intros s k x1 Ns Hn. destruct (WireNet.nstep_link _ _ _ _ _ _ Hn) as [l [ns [_ [_ [Ne _]]]]]. apply Ne. auto. }
      revert A2. generalize dependent (r (Datatypes.S n)). intros x' S A2. destruct S; cbn [set_net set_pc set_ps x_net x_pc] in *; try lia.
      - destruct (Nat.eqb_spec st0 st) as [->|Ns]; cbn [andb]; [|rewrite (Ot _ _ _ Ns H2); lia]. apply W; auto. intros a ->. discriminate.
      - rewrite (Ot st0 Net.KBreak n0); auto; [lia|]. intros ->. congruence.
      - destruct (Nat.eq_dec st0 st) as [->|Ns]; [|rewrite (Ot _ _ _ Ns H1); lia]. assert (Hk : forall a, Net.KCall c <> Net.KSend a) by discriminate. specialize (W _ _ Hk H1). lia.
      - destruct (Nat.eq_dec st0 st) as [->|Ns]; [|rewrite (Ot _ _ _ Ns H1); lia]. assert (Hk : forall a, k <> Net.KSend a) by (destruct H0 as [->| ->]; discriminate). specialize (W _ _ Hk H1). lia.
      - destruct (WireNet.no_get _ _ _ _ _ H1 H2) as [-> _]. lia.
      - destruct (nstep (Net.NLink st0 (Net.KSend (ToWorker r0))) (x_net (r n))) as [n1|] eqn:E; [|lia].
        destruct (Nat.eq_dec st0 st) as [->|Ns]; [|rewrite (Ot _ _ _ Ns E); lia]. exfalso. rewrite H in To. cbn in To. rewrite Nat.eqb_refl in To. discriminate.
    Qed.

    (* the answer gets through *)
    Lemma todo_next n st : Live st Waiting n -> Live st Waiting (S n) -> ~ acts_at st n -> w_in (h_w (hrun n) st) <> [] ->
      w_in (h_w (hrun (S n)) st) <> [] /\
      (NetFacts.of_conn st (x_todo (r n)) = [] -> NetFacts.of_conn st (x_todo (r (S n))) = []) /\
      (x_todo (r (S n)) = x_todo (r n) \/ (mv n = Some XSend /\ length (x_todo (r n)) = S (length (x_todo (r (S n))))) \/ x_todo (r n) = []).
    Proof.
      intros L1 L2 Na Wi. destruct (stay n st (proj1 L1) (proj1 L2) Na) as [_ [[q Ei] _]].
      assert (Wq : q = []).
      { destruct (talk_n _ _ L2) as [T _]. rewrite Ei, app_length in T. destruct (w_in (h_w (hrun n) st)); [congruence|]. cbn in T. destruct q; [reflexivity|cbn in T; lia]. }
      subst q. rewrite app_nil_r in Ei. split; [congruence|].
      pose proof (down_len _ _ L1) as D1. pose proof (down_len _ _ L2) as D2. rewrite Ei in D2.
      pose proof (xf_step _ _ _ _ _ _ _ _ _ _ _ _ FA n) as S. destruct (mv n) as [m|] eqn:Em; [|rewrite S; auto].
      revert D2. generalize dependent (r (Datatypes.S n)). intros x' S D2. destruct S; cbn [set_net set_pc set_ps x_net x_pc x_todo] in *; auto.
      - rewrite H in *. split; auto. intros _. apply length_zero_iff_nil. cbn in D1.
        destruct (WireNet.no_get _ _ _ _ _ H1 H2) as [El Q]. unfold rets in D2. cbn [x_net] in D2. rewrite El in D2.
        assert (Eo : NetFacts.sent_to st (Net.n_rets n0) = outs (r n) st).
        { rewrite H2. unfold NetFacts.sent_to. rewrite flat_map_app. destruct r0; cbn; try apply app_nil_r. destruct Q. }
        rewrite Eo in D2. unfold rets in D1. lia.
      - rewrite H. split; [|right; left; auto]. cbn. destruct (Nat.eqb st0 st); [discriminate|auto].
    Qed.
    Lemma sent n st : Live st Waiting n -> w_in (h_w (hrun n) st) <> [] -> exists k, (n <= k)%nat /\
      (moved st k \/ (Live st Waiting k /\ w_in (h_w (hrun k) st) <> [] /\ NetFacts.of_conn st (x_todo (r k)) = [])).
    Proof.
      intros Ln Wn.
      set (goal := fun k => moved st k \/ (Live st Waiting k /\ w_in (h_w (hrun k) st) <> [] /\ NetFacts.of_conn st (x_todo (r k)) = [])).
      assert (Dec : forall k, NetFacts.of_conn st (x_todo (r k)) = [] \/ NetFacts.of_conn st (x_todo (r k)) <> []).
      { intros k. destruct (NetFacts.of_conn st (x_todo (r k))); auto. right. discriminate. }
      apply (eventually (fun k => Live st Waiting k /\ w_in (h_w (hrun k) st) <> []) goal (fun k => length (x_todo (r k)))) with (n := n); auto; unfold goal.
      - intros k [Lk Wk]. destruct (Dec k) as [E|E]; [auto|]. destruct (live_step _ _ _ Lk) as [X|[X Na]]; [auto|].
        destruct (todo_next _ _ Lk X Na Wk) as [W2 [_ T]]. right. split; auto. destruct T as [->|[[_ T]|T]]; [auto|lia|]. rewrite T in E. destruct (E eq_refl).
      - intros k [Lk Wk]. destruct (Dec k) as [E|E]; [exists k; split; [lia|intros _; left; right; auto]|].
        assert (Nt : x_todo (r k) <> []) by (intros Z; rewrite Z in E; apply E; reflexivity).
        destruct (xf_send _ _ _ _ _ _ _ _ _ _ _ _ FA k Nt) as [j [Lj Em]]. exists j. split; auto. intros [L2 W2]. destruct (Dec j) as [E2|E2]; [auto|].
        destruct (live_step _ _ _ L2) as [X|[X Na]]; [auto|]. right. destruct (todo_next _ _ L2 X Na W2) as [W3 [_ T]]. split; auto.
        destruct (mv_step _ _ Em) as [S _]. inversion S as [| | | | | | | |st0 r0 todo Eq]; subst. rewrite Eq. cbn. lia.
    Qed.
    Lemma arrives n st : Live st Waiting n -> w_in (h_w (hrun n) st) <> [] -> NetFacts.of_conn st (x_todo (r n)) = [] -> exists k, (n <= k)%nat /\
      (moved st k \/ (Live st Waiting k /\ Net.c_mq (link (r k) st) <> [])).
    Proof.
      intros Ln Wn Tn.
      assert (Dec : forall k, Net.c_mq (link (r k) st) = [] \/ Net.c_mq (link (r k) st) <> []).
      { intros k. destruct (Net.c_mq (link (r k) st)); auto. right. discriminate. }
      apply (eventually (fun k => Live st Waiting k /\ w_in (h_w (hrun k) st) <> [] /\ NetFacts.of_conn st (x_todo (r k)) = [])
        (fun k => moved st k \/ (Live st Waiting k /\ Net.c_mq (link (r k) st) <> [])) (fun k => wrk st k)) with (n := n); auto.
      - intros k [Lk [Wk Tk]]. destruct (live_step _ _ _ Lk) as [X|[X Na]]; [auto|]. right. destruct (todo_next _ _ Lk X Na Wk) as [W2 [T2 _]].
        split; auto. pose proof (work_down _ _ Lk X Tk). lia.
      - assert (Bu : forall k, Live st Waiting k -> w_in (h_w (hrun k) st) <> [] -> NetFacts.of_conn st (x_todo (r k)) = [] -> Net.c_mq (link (r k) st) = [] -> busy dumps loads (r k) st).
        { intros k Lk Wk Tk Q. destruct (io_dec dumps loads (link (r k) st)) as [X|X]; [|exact X]. exfalso.
          assert (Nb : ~ busy dumps loads (r k) st) by (intros [c [y [B1 B2]]]; specialize (X c B1); unfold NetFacts.moves in *; congruence).
          destruct (all_there _ _ Lk Nb) as [_ E]. pose proof (down_len _ _ Lk) as D. rewrite Tk in D. rewrite Q in E. cbn in D, E.
          destruct (w_in (h_w (hrun k) st)); [congruence|cbn in D; lia]. }
        intros k [Lk [Wk Tk]]. destruct (Dec k) as [Q|Q]; [|exists k; split; [lia|intros _; left; right; auto]].
        destruct (xf_io _ _ _ _ _ _ _ _ _ _ _ _ FA k st (proj1 Lk) (Bu k Lk Wk Tk Q)) as [j [Lj D]]. exists j. split; auto. intros [L2 [W2 T2]].
        destruct (Dec j) as [Q2|Q2]; [|auto]. destruct D as [[lab [Em Mo]]|[Nb|Na]]; [|destruct (Nb (Bu j L2 W2 T2 Q2))|destruct (Na (proj1 L2))].
        destruct (live_step _ _ _ L2) as [X|[X Na]]; [auto|]. right. destruct (todo_next _ _ L2 X Na W2) as [W3 [T3 _]].
        split; auto. pose proof (work_down _ _ L2 X T2) as WD. unfold io_at in WD. rewrite Em, Nat.eqb_refl, Mo in WD. cbn in WD. lia.
    Qed.

    Lemma moved_can st k : moved st k -> acts_at st k \/ ~ hcan_move (hrun (S k)) st.
    Proof. intros [A|A]; auto. right. intros [Al _]. apply A, alive_x, Al. Qed.
    Lemma fair_move n st : hcan_move (hrun n) st -> exists k, (n <= k)%nat /\ ((exists m, am k = Some m /\ hacts m st) \/ ~ hcan_move (hrun k) st).
    Proof.
      intros C. assert (G : exists k, (n <= k)%nat /\ (moved st k \/ ~ hcan_move (hrun k) st)).
      { destruct C as [Al W]. apply alive_x in Al. destruct (w_at (h_w (hrun n) st)) eqn:E; try contradiction.
        - apply connects. split; auto.
        - destruct (asks n st) as [k [Le [_ M]]]; [split; auto|eauto].
        - destruct (sent n st) as [k [Le [M|[Lk [Wk Tk]]]]]; [split; auto|auto|eauto|].
          destruct (arrives k st Lk Wk Tk) as [j [Lj [M|[L2 Q]]]]; [exists j; split; [lia|auto]|].
          destruct (waits j st L2 Q) as [i [Li M]]. exists i. split; [lia|auto].
        - destruct (works n st pb) as [k [Le M]]; [split; auto|eauto]. }
      destruct G as [k [Le [M|N]]]; [|eauto]. destruct (moved_can _ _ M) as [A|A]; [eauto|]. exists (S k). split; [lia|auto].
    Qed.

    (* the messages of the dead *)
    Lemma gots_more n st : (length (gots (r n) st) <= length (gots (r (S n)) st))%nat.
    Proof.
      pose proof (xf_step _ _ _ _ _ _ _ _ _ _ _ _ FA n) as S. destruct (mv n) as [m|]; [|rewrite S; auto].
      assert (X : exists q, Net.n_rets (x_net (r (Datatypes.S n))) = Net.n_rets (x_net (r n)) ++ q).
      { assert (Z : exists q, Net.n_rets (x_net (r n)) = Net.n_rets (x_net (r n)) ++ q) by (exists []; rewrite app_nil_r; auto).
        assert (O : forall s k x1, nstep (Net.NLink s k) (x_net (r n)) = Some x1 -> exists q, Net.n_rets x1 = Net.n_rets (x_net (r n)) ++ q).
        { intros s k x1 Hn. destruct (WireNet.nstep_link _ _ _ _ _ _ Hn) as [l [ns [_ [_ [_ [_ E]]]]]]. eauto. }
        revert S. generalize (r (Datatypes.S n)). intros x' S. destruct S; cbn [set_net set_pc set_ps x_net]; eauto.
        destruct (nstep (Net.NLink st0 (Net.KSend (ToWorker r0))) (x_net (r n))) as [n1|] eqn:E; eauto. }
      destruct X as [q ->]. rewrite NetFacts.got_app, app_length. lia.
    Qed.
    Lemma gots_later n k st : (n <= k)%nat -> (length (gots (r n) st) <= length (gots (r k) st))%nat.
    Proof. intros Le. induction Le as [|k Le IH]; auto. pose proof (gots_more k st). lia. Qed.
    Lemma dead_out n st : (exists t c, xproc (r n) st = Some (t, Pool.Exited c)) -> exists k, (n <= k)%nat /\ w_out (h_w (hrun k) st) = [].
    Proof.
      intros D. pose proof (xf_last _ _ _ _ _ _ _ _ _ _ _ _ FA st) as X. destruct (last st) as [l|] eqn:El; [|destruct D as [t [c D]]; destruct (X _ _ _ D)].
      destruct X as [X1 [m X2]]. exists (Nat.max n m). split; [lia|]. destruct (dead_later n (Nat.max n m) st ltac:(lia) D) as [t [c D2]].
      destruct (r_up _ _ _ _ _ (k_rel _ (k_all (Nat.max n m))) _ _ _ D2) as [said [got [E1 [E2 E3]]]]. rewrite El in E3. cbn in E3.
      pose proof (gots_later m (Nat.max n m) st ltac:(lia)) as G. rewrite E2, map_length in G.
      apply (f_equal (@length _)) in E3. rewrite firstn_length, app_length in E3. apply length_zero_iff_nil. lia.
    Qed.
    (* the place of the first message of a worker *)
    Fixpoint place (st : nat) (q : list (nat * Net.nmsg payload)) : nat :=
      match q with [] => 0 | (s, _) :: q => if Nat.eqb s st then 0 else S (place st q) end.
    Lemma place_app st q q' : NetFacts.of_conn st q <> [] -> place st (q ++ q') = place st q.
    Proof.
      induction q as [|[s m] q IH]; cbn; [congruence|]. destruct (Nat.eqb s st); cbn; auto.
    Qed.
    Definition took (st n : nat) : Prop := exists i cut m, am n = Some (HServe i cut) /\ i_get i = GotMessage st m.
    Local Notation nmq n := (Net.n_mq (x_net (r n))).
    Lemma queue_next n st : NetFacts.of_conn st (nmq n) <> [] -> took st n \/
      (NetFacts.of_conn st (nmq (S n)) <> [] /\ (place st (nmq (S n)) <= place st (nmq n))%nat /\
       forall i s m, mv n = Some (XServe i) -> i_get i = GotMessage s m -> (place st (nmq (S n)) < place st (nmq n))%nat).
    Proof.
      intros Q. unfold took, am. pose proof (xf_step _ _ _ _ _ _ _ _ _ _ _ _ FA n) as S. destruct (mv n) as [m|]; [|rewrite S; right; split; auto; split; auto; discriminate].
      assert (O : forall s k x1, nstep (Net.NLink s k) (x_net (r n)) = Some x1 -> NetFacts.of_conn st (Net.n_mq x1) <> [] /\ (place st (Net.n_mq x1) <= place st (nmq n))%nat).
      { intros s k x1 Hn. destruct (WireNet.nstep_link _ _ _ _ _ _ Hn) as [l [ns [_ [_ [_ [-> _]]]]]]. rewrite place_app by auto. split; auto. rewrite NetFacts.of_app.
        destruct (NetFacts.of_conn st (nmq n)); [congruence|discriminate]. }
      revert S. generalize (r (Datatypes.S n)). intros x' S. destruct S; cbn [set_net set_pc set_ps x_net amv].
      - right. destruct (O _ _ _ H2). split; auto. split; auto. discriminate.
      - right. destruct (O _ _ _ H0). split; auto. split; auto. discriminate.
      - right. destruct (O _ _ _ H1). split; auto. split; auto. discriminate.
      - right. destruct (O _ _ _ H1). split; auto. split; auto. discriminate.
      - right. split; auto. split; auto. discriminate.
      - right. split; auto. split; auto. discriminate.
      - right. split; auto. split; auto. discriminate.
      - cbn [Net.nstep] in H1. apply some_inj in H1. destruct (Net.n_eq (x_net (r n))) as [|[c e] q] eqn:En; [destruct (nmq n) as [|[c m] q] eqn:Eq|].
        + destruct (Q eq_refl).
        + subst n0. cbn [Net.n_rets Net.n_mq] in *. apply app_inv_head in H2. injection H2 as <-. cbn [got_of] in H3. destruct m as [[m|a]| |]; try discriminate. injection H3 as H3.
          cbn in Q |- *. destruct (Nat.eqb_spec c st) as [->|Nc]; [left; eauto 6|]. right. split; auto.
        + subst n0. cbn [Net.n_rets Net.n_mq] in *. apply app_inv_head in H2. injection H2 as <-. right. split; auto. split; auto. intros i0 s m Ei Eg. injection Ei as ->. rewrite Eg in H3.
          cbn in H3. destruct e; discriminate.
      - right. destruct (nstep (Net.NLink st0 (Net.KSend (ToWorker r0))) (x_net (r n))) as [n1|] eqn:E; [destruct (O _ _ _ E)|]; split; auto; split; auto; discriminate.
    Qed.
    Definition Said (st n : nat) : Prop := Live st Waiting n /\ w_out (h_w (hrun n) st) <> [].
    Lemma said_next st n : Said st n -> moved st n \/ took st n \/ (Said st (S n) /\ Live st Waiting (S n)).
    Proof.
      intros [Ln Wn]. destruct (live_step _ _ _ Ln) as [X|[X Na]]; auto. destruct (stay n st (proj1 Ln) (proj1 X) Na) as [_ [_ [E|T]]]; auto.
      right. right. split; auto. split; auto. congruence.
    Qed.
    Lemma said_todo st n : Said st n -> NetFacts.of_conn st (x_todo (r n)) = [].
    Proof.
      intros [Ln Wn]. pose proof (down_len _ _ Ln) as D. pose proof (in_len _ _ Ln) as I. rewrite (proj2 (talk_n _ _ Ln) Wn) in D. cbn in D. apply length_zero_iff_nil. lia.
    Qed.
    Lemma posted n st : Said st n -> exists k, (n <= k)%nat /\ (Said st k /\ (moved st k \/ took st k \/ NetFacts.of_conn st (nmq k) <> [])).
    Proof.
      assert (Dec : forall k, NetFacts.of_conn st (nmq k) = [] \/ NetFacts.of_conn st (nmq k) <> []).
      { intros k. destruct (NetFacts.of_conn st (nmq k)); auto. right. discriminate. }
      apply (eventually (Said st) (fun k => Said st k /\ (moved st k \/ took st k \/ NetFacts.of_conn st (nmq k) <> [])) (fun k => wrk st k)).
      - intros k Sk. destruct (said_next _ _ Sk) as [X|[X|[X Y]]]; auto. right. split; auto. pose proof (work_down _ _ (proj1 Sk) Y (said_todo _ _ Sk)). lia.
      - assert (Bu : forall k, Said st k -> NetFacts.of_conn st (nmq k) = [] -> busy dumps loads (r k) st).
        { intros k [Lk Wk] Q. destruct (io_dec dumps loads (link (r k) st)) as [X|X]; [|exact X]. exfalso.
          assert (Nb : ~ busy dumps loads (r k) st) by (intros [c [y [B1 B2]]]; specialize (X c B1); unfold NetFacts.moves in *; congruence).
          destruct (all_there _ _ Lk Nb) as [E _]. pose proof (up_len _ _ Lk) as D. rewrite Q in E. cbn in E.
          destruct (w_out (h_w (hrun k) st)); [congruence|cbn in D; lia]. }
        intros k Sk. destruct (Dec k) as [Q|Q]; [|exists k; split; [lia|intros _; left; auto]].
        destruct (xf_io _ _ _ _ _ _ _ _ _ _ _ _ FA k st (proj1 (proj1 Sk)) (Bu k Sk Q)) as [j [Lj D]]. exists j. split; auto. intros S2.
        destruct (Dec j) as [Q2|Q2]; [|auto]. destruct D as [[lab [Em Mo]]|[Nb|Na]]; [|destruct (Nb (Bu j S2 Q2))|destruct (Na (proj1 (proj1 S2)))].
        destruct (said_next _ _ S2) as [X|[X|[X Y]]]; auto. right. split; auto.
        pose proof (work_down _ _ (proj1 S2) Y (said_todo _ _ S2)) as WD. unfold io_at in WD. rewrite Em, Nat.eqb_refl, Mo in WD. cbn in WD. lia.
    Qed.
    Lemma fetched n st : Said st n -> NetFacts.of_conn st (nmq n) <> [] -> exists k, (n <= k)%nat /\ (Said st k /\ (moved st k \/ took st k \/ sv_stop (x_sv (r k)) = true)).
    Proof.
      intros Sn Qn. apply (eventually (fun k => Said st k /\ NetFacts.of_conn st (nmq k) <> []) (fun k => Said st k /\ (moved st k \/ took st k \/ sv_stop (x_sv (r k)) = true)) (fun k => place st (nmq k))) with (n := n); auto.
      - intros k [Sk Qk]. destruct (said_next _ _ Sk) as [X|[X|[X _]]]; auto. destruct (queue_next _ _ Qk) as [T|[Q2 [P2 _]]]; auto.
      - intros k [Sk Qk]. assert (Ne : nmq k <> []) by (intros E; rewrite E in Qk; apply Qk; reflexivity).
        destruct (xf_get _ _ _ _ _ _ _ _ _ _ _ _ FA k Ne) as [j [Lj D]]. exists j. split; auto. intros [S2 Q2].
        destruct D as [[i [s [m [Em Eg]]]]|D]; [|auto]. destruct (said_next _ _ S2) as [X|[X|[X _]]]; auto. destruct (queue_next _ _ Q2) as [T|[Q3 [_ P3]]]; auto.
        right. split; auto. eapply P3; eauto.
    Qed.
    (* a worker that waits for the answer to its request only goes when its process ends *)
    Lemma said_moved n st : Said st n -> moved st n -> exists t c, xproc (r (S n)) st = Some (t, Pool.Exited c).
    Proof.
      intros [Ln Wn] M. pose proof Ln as [[t A] W]. destruct (proc_keep _ _ _ _ A) as [B|[c [_ B]]]; [|eauto]. exfalso.
      destruct M as [[a [Ea Ha]]|M]; [|apply M; exists t; exact B]. pose proof (proj2 (talk_n _ _ Ln) Wn) as Wi.
      pose proof (am_step n) as S. rewrite Ea in S. destruct S as [S _]. unfold xproc in B. rewrite <- (r_ps _ _ _ _ _ (k_rel _ (k_all (Datatypes.S n)))) in B.
      revert S B. generalize (hrun (Datatypes.S n)). intros h' S B. destruct S; cbn in Ha; try contradiction; subst st0; try (rewrite H0 in W, Wi; cbn [w_at w_in] in W, Wi; discriminate).
      - congruence.
      - cbn [h_ps] in B. destruct H as [t' H]. rewrite (exit_tbl _ _ _ _ _ _ H), Nat.eqb_refl in B. discriminate.
    Qed.
    Lemma fair_msg n st : known (hrun n) st -> w_out (h_w (hrun n) st) <> [] -> exists k, (n <= k)%nat /\
      (took st k \/ w_out (h_w (hrun k) st) = [] \/ sv_stop (h_sv (hrun k)) = true).
    Proof.
      intros Kn Wn.
      assert (Dead : forall m, (n <= m)%nat -> (exists t c, xproc (r m) st = Some (t, Pool.Exited c)) -> exists k, (n <= k)%nat /\ (took st k \/ w_out (h_w (hrun k) st) = [] \/ sv_stop (h_sv (hrun k)) = true)).
      { intros m Le D. destruct (dead_out _ _ D) as [k [Hk E]]. exists k. split; [lia|auto]. }
      assert (Wt : forall m, (n <= m)%nat -> Said st m -> exists k, (n <= k)%nat /\ (took st k \/ w_out (h_w (hrun k) st) = [] \/ sv_stop (h_sv (hrun k)) = true)).
      { intros m Le Sm. destruct (posted _ _ Sm) as [k [Hk [Sk [M|[T|Q]]]]].
        - apply (Dead (S k)); [lia|]. eapply said_moved; eauto.
        - exists k. split; [lia|auto].
        - destruct (fetched _ _ Sk Q) as [j [Hj [Sj [M|[T|P]]]]].
          + apply (Dead (S j)); [lia|]. eapply said_moved; eauto.
          + exists j. split; [lia|auto].
          + exists j. split; [lia|]. rewrite (r_sv _ _ _ _ _ (k_rel _ (k_all j))). auto. }
      unfold known, proc in Kn. rewrite (r_ps _ _ _ _ _ (k_rel _ (k_all n))) in Kn.
      destruct (xproc (r n) st) as [[t [|c]]|] eqn:A; [|apply (Dead n); eauto|contradiction].
      assert (Al : xalive (r n) st) by (exists t; auto). destruct (k_hw _ (k_all n)) as [H G].
      pose proof A as A'. unfold xproc in A'. rewrite <- (r_ps _ _ _ _ _ (k_rel _ (k_all n))) in A'. pose proof (talk_h _ _ _ H G A') as T. unfold talk in T.
      destruct (w_at (h_w (hrun n) st)) eqn:W; try (destruct T; congruence).
      - (* the request is still to be sent *)
        destruct (asks n st) as [k [Hk [Lk M]]]; [split; auto|]. destruct (al_dec st (S k)) as [A2|A2].
        2:{ apply (Dead (S k)); [lia|]. destruct Lk as [[t1 B] _]. destruct (proc_keep _ _ _ _ B) as [B2|[c [_ B2]]]; [|eauto]. destruct A2. exists t1. exact B2. }
        apply (Wt (S k)); [lia|]. destruct M as [[a [Ea Ha]]|M]; [|contradiction]. pose proof (proj2 Lk) as Wk. pose proof (proj2 (alive_x (S k) st) A2) as [t2 B].
        pose proof (am_step k) as Q. rewrite Ea in Q. destruct Q as [Q _]. cut (w_at (h_w (hrun (S k)) st) = Waiting /\ w_out (h_w (hrun (S k)) st) <> []).
        { intros [W1 W2]. split; auto. split; auto. }
        revert Q B. generalize (hrun (S k)). intros h' Q B. destruct Q; cbn in Ha; try contradiction; subst st0; try (rewrite H1 in Wk; cbn [w_at] in Wk; discriminate).
        + cbn [hput h_w]. rewrite Nat.eqb_refl. cbn. split; auto. destruct o; discriminate.
        + unfold proc in B. cbn [h_ps] in B. destruct H0 as [t' H0]. rewrite (exit_tbl _ _ _ _ _ _ H0), Nat.eqb_refl in B. discriminate.
      - apply (Wt n); auto. split; auto. split; auto.
      - destruct (hi_run _ _ _ _ _ H _ _ A'). contradiction.
      - destruct (hi_phase _ _ _ _ _ H st); [congruence|exact W].
    Qed.
    Lemma fair_idle n : exists k, (n <= k)%nat /\ ((exists i cut, am k = Some (HServe i cut) /\ hidle (hrun k) i) \/
      (exists st, known (hrun k) st /\ w_out (h_w (hrun k) st) <> []) \/ sv_stop (h_sv (hrun k)) = true).
    Proof.
      destruct (xf_idle _ _ _ _ _ _ _ _ _ _ _ _ FA n) as [k [Le [[i [Em [I1 [I2 I3]]]]|[Q|P]]]].
      - exists k. split; auto. left. exists i. unfold am. rewrite Em. cbn [amv]. eexists. split; [reflexivity|]. split; auto. split; auto. intros st Kn D.
        destruct (k_hw _ (k_all k)) as [H _]. unfold known, proc in Kn. destruct (Pool.tbl (Pool.ps_sys (h_ps (hrun k))) st) as [[t [|c]]|] eqn:E; [| |contradiction].
        + destruct (hi_run _ _ _ _ _ H _ _ E). contradiction.
        + destruct (hi_exit _ _ _ _ _ H _ _ _ E) as [[_ X]|[X _]]; [|congruence]. rewrite (r_ps _ _ _ _ _ (k_rel _ (k_all k))) in E, X. apply (I3 st t c E).
          destruct (Z.eq_dec c 0) as [->|Nc]; auto. right. intros Po. apply (X Po). reflexivity.
      - destruct (xf_get _ _ _ _ _ _ _ _ _ _ _ _ FA k Q) as [j [Lj [[i [st [m [Em Eg]]]]|P]]]; exists j; (split; [lia|]); right; [left|right; rewrite (r_sv _ _ _ _ _ (k_rel _ (k_all j))); auto].
        assert (Ea : am j = Some (HServe i (cuts last (r j) (hrun j) i))) by (unfold am; rewrite Em; reflexivity).
        destruct (serve_h _ _ _ Ea) as [[_ [Io _]] _]. rewrite Eg in Io. destruct Io as [Kn [q E]]. exists st. split; auto. rewrite E. discriminate.
      - exists k. split; auto. right. right. rewrite (r_sv _ _ _ _ _ (k_rel _ (k_all k))). auto.
    Qed.
    Lemma fair_end : exists N, forall k m, (N <= k)%nat -> am k = Some m -> ~ hends m.
    Proof.
      destruct (xf_end _ _ _ _ _ _ _ _ _ _ _ _ FA) as [N X]. exists N. intros k m Le Ea He. destruct m as [| | | | |st n c|]; try contradiction.
      pose proof (am_step k) as S. rewrite Ea in S. destruct S as [_ [P _]]. apply P. unfold am in Ea. destruct (mv k) as [m|] eqn:Em; [|discriminate].
      destruct m as [s l|s|s|s l|s o|s c'|s e|i|]; cbn [amv] in Ea; try discriminate Ea.
      - destruct (x_pc (r k) s), (x_pc (r (Datatypes.S k)) s); discriminate Ea.
      - destruct (_ && _); [discriminate|]. injection Ea as <- _ <-. eapply X; eauto.
    Qed.
    (* a fair run over the network is a fair run *)
    Lemma wire_fair : hfair up down maxr fuel init nw mbf hrun am.
    Proof.
      constructor.
      - intros n. pose proof (am_step n) as S. destruct (am n); [apply S|exact S].
      - intros n m E. pose proof (am_step n) as S. rewrite E in S. apply S.
      - exact fair_move.
      - intros n st Kn W. destruct (fair_msg _ _ Kn W) as [k [Le D]]. exists k. split; auto.
      - exact fair_idle.
      - exact fair_end.
    Qed.
    Lemma wire_sv n : h_sv (hrun n) = x_sv (r n).
    Proof. apply (r_sv _ _ _ _ _ (k_rel _ (k_all n))). Qed.
  End Fair.
End Run.
