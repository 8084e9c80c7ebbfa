(* Runs of server, pools and workers together, computed (for C60-C62). *)
From Coq Require Import Arith Lia.
From Verif Require Import SchedProps SchedExec DGFacts2 PipeRun P_SchedCE P_Sched SerialFacts P_Conv P_Serial ServerFacts ServerSteps
  ServerIdle P_Server P_ServerCE P_Outcome P_Notify P_SysEx.
From Verif Require Client Pool P_Pool.
From Verif Require Import Sys SysFacts SysMeasure SysLive SysFair SysTrace P_Sys WholeFair P_Whole.
Open Scope Z_scope.

(* the four parts of [prudent] (Whole.v) *)
Definition timely (h : whole) (m : hmove) : Prop :=
  match m with HConnect st => forall s, gone h s -> w_task (h_w h s) = w_task (h_w h st) -> ~ has_block (h_sv h) s | _ => True end.
Definition coded (m : hmove) : Prop := match m with HEnd _ _ c => c <> 0 | _ => True end.
Definition silent (h : whole) (m : hmove) : Prop :=
  match m with HEnd st n _ => forall pb w, ~ In (MBlockFailed pb w) (firstn n (w_out (h_w h st))) | _ => True end.
Definition watched (h : whole) (m : hmove) : Prop :=
  match m with
  | HServe i _ => forall s, gone h s -> i_closed i s = true \/ exists u, to_come h u /\ w_task (h_w h u) = w_task (h_w h s)
  | _ => True
  end.
Lemma prudent_parts h m : prudent h m <-> timely h m /\ coded m /\ silent h m /\ watched h m.
Proof. destruct m; cbn; tauto. Qed.

(* the same, computed; every process that was ever started has a number below [nxt] *)
Definition numbered (h : whole) : Prop := forall st, known h st -> (st < Pool.nxt (Pool.ps_sys (h_ps h)))%nat.
Definition everyone (h : whole) : list nat := seq 0 (Pool.nxt (Pool.ps_sys (h_ps h))).
Definition known_b (h : whole) (st : nat) : bool := match proc h st with Some _ => true | None => false end.
Definition alive_b (h : whole) (st : nat) : bool := match proc h st with Some (_, Pool.Running) => true | _ => false end.
Definition dead_b (p : phase) : bool := match p with Dead => true | _ => false end.
Definition unborn_b (p : phase) : bool := match p with Unborn => true | _ => false end.
Definition gone_b (h : whole) (st : nat) : bool := known_b h st && dead_b (w_at (h_w h st)) && negb (pooledb (h_ps h) st).
Definition to_come_b (h : whole) (st : nat) : bool :=
  known_b h st && (unborn_b (w_at (h_w h st)) || dead_b (w_at (h_w h st)) && pooledb (h_ps h) st).
Definition hholds_b (h : whole) (st : nat) : bool := existsb (fun e => Nat.eqb (lg_stream (snd e)) st) (sv_book (h_sv h)).
Definition same_task (h : whole) (s st : nat) : bool := Nat.eqb (w_task (h_w h s)) (w_task (h_w h st)).
Definition timely_b (h : whole) (m : hmove) : bool :=
  match m with HConnect st => forallb (fun s => negb (gone_b h s && same_task h s st && hholds_b h s)) (everyone h) | _ => true end.
Definition coded_b (m : hmove) : bool := match m with HEnd _ _ c => negb (c =? 0) | _ => true end.
Definition silent_b (h : whole) (m : hmove) : bool :=
  match m with
  | HEnd st n _ => forallb (fun x => match x with MBlockFailed _ _ => false | _ => true end) (firstn n (w_out (h_w h st)))
  | _ => true end.
Definition watched_b (h : whole) (m : hmove) : bool :=
  match m with
  | HServe i _ => forallb (fun s => negb (gone_b h s) || i_closed i s || existsb (fun u => to_come_b h u && same_task h u s) (everyone h)) (everyone h)
  | _ => true end.
Lemma known_b_true h st : known_b h st = true <-> known h st.
Proof. unfold known_b, known. destruct (proc h st); split; congruence. Qed.
Lemma alive_b_true h st : alive_b h st = true <-> alive h st.
Proof.
  unfold alive_b, alive. split.
  - destruct (proc h st) as [[t [|c]]|]; try discriminate. eauto.
  - intros [t ->]. reflexivity.
Qed.
Lemma alive_known h st : alive h st -> known h st.
Proof. intros [t E]. unfold known. congruence. Qed.
Lemma gone_b_true h st : gone_b h st = true <-> gone h st.
Proof.
  unfold gone_b, gone. rewrite !Bool.andb_true_iff, Bool.negb_true_iff, known_b_true, pooledb_not.
  destruct (w_at (h_w h st)); cbn; intuition congruence.
Qed.
Lemma to_come_b_true h st : to_come_b h st = true <-> to_come h st.
Proof.
  unfold to_come_b, to_come. rewrite Bool.andb_true_iff, Bool.orb_true_iff, Bool.andb_true_iff, known_b_true, pooledb_iff.
  destruct (w_at (h_w h st)); cbn; intuition congruence.
Qed.
Lemma hholds_b_true h st : hholds_b h st = true <-> has_block (h_sv h) st.
Proof.
  unfold hholds_b, has_block. rewrite existsb_exists. split; intros [e [He E]]; exists e; (split; [exact He|]).
  - apply Nat.eqb_eq. exact E.
  - apply Nat.eqb_eq. exact E.
Qed.
Lemma in_everyone h st : numbered h -> known h st -> In st (everyone h).
Proof. intros N K. apply N in K. unfold everyone. apply in_seq. lia. Qed.
Lemma timely_b_ok h m : numbered h -> timely_b h m = true -> timely h m.
Proof.
  intros N. destruct m as [st| | | | | |]; cbn; auto. rewrite forallb_forall. intros H s G T B.
  assert (X := H s (in_everyone h s N (proj1 G))). apply gone_b_true in G. apply hholds_b_true in B.
  unfold same_task in X. rewrite G, B, T, Nat.eqb_refl in X. discriminate X.
Qed.
Lemma timely_b_all h st : timely h (HConnect st) -> timely_b h (HConnect st) = true.
Proof.
  cbn. intros H. apply forallb_forall. intros s _. apply Bool.negb_true_iff. destruct (gone_b h s) eqn:G; auto. cbn [andb].
  unfold same_task. destruct (Nat.eqb_spec (w_task (h_w h s)) (w_task (h_w h st))) as [E|]; auto. cbn [andb].
  destruct (hholds_b h s) eqn:B; auto. exfalso. apply gone_b_true in G. apply hholds_b_true in B. exact (H s G E B).
Qed.
Lemma coded_b_ok m : coded_b m = true -> coded m.
Proof. destruct m; cbn; auto. intros H. apply Bool.negb_true_iff, Z.eqb_neq in H. exact H. Qed.
Lemma silent_b_ok h m : silent_b h m = true -> silent h m.
Proof. destruct m; cbn; auto. rewrite forallb_forall. intros H pb w I. apply H in I. discriminate I. Qed.
Lemma watched_b_ok h m : numbered h -> watched_b h m = true -> watched h m.
Proof.
  intros N. destruct m as [| | | | | |i cut]; cbn; auto. rewrite forallb_forall. intros H s G.
  assert (X := H s (in_everyone h s N (proj1 G))). apply gone_b_true in G. rewrite G in X. cbn [negb orb] in X.
  apply Bool.orb_prop in X. destruct X as [X|X]; [left; exact X|right]. apply existsb_exists in X. destruct X as [u [_ X]].
  apply andb_prop in X. destruct X as [X1 X2]. exists u. split; [apply to_come_b_true; exact X1|]. apply Nat.eqb_eq. exact X2.
Qed.
Definition prudent_b (h : whole) (m : hmove) : bool := timely_b h m && coded_b m && silent_b h m && watched_b h m.
Lemma prudent_b_ok h m : numbered h -> prudent_b h m = true -> prudent h m.
Proof.
  intros N H. unfold prudent_b in H. apply andb_prop in H. destruct H as [H H4]. apply andb_prop in H. destruct H as [H H3].
  apply andb_prop in H. destruct H as [H1 H2]. apply prudent_parts.
  auto using timely_b_ok, coded_b_ok, silent_b_ok, watched_b_ok.
Qed.

Inductive hdeed :=
| EConnect (st : nat) | EAsk (st : nat) | EGet (st : nat) | EFinish (st : nat) (o : Client.outcome) | EExit (st : nat) | EEnd (st n : nat) (c : Z)
| ETake (st : nat) (closed : list nat) | EIdle (closed : list nat).
Definition offline_b (p : phase) : bool := match p with Left | Dead | Replaced => true | _ => false end.
Section Play.
  Variables (up down : block -> list block) (maxr : nat -> Z) (fuel : nat) (nw : nat -> Z) (mbf : Z).
  Local Notation hstep := (hstep up down maxr fuel no_init nw mbf).
  Local Notation hruns := (hruns up down maxr fuel no_init nw mbf).
  Definition hserve_with (g : got) (closed : list nat) (cut : nat -> nat) (h : whole) : option (hmove * whole) :=
    let i := an_input g closed true no_check in
    if sv_stop (h_sv h) || negb (forallb (fun s => known_b h s && offline_b (w_at (h_w h s))) closed) then None
    else match iteration up down maxr fuel no_init i (h_sv h) with
         | Ok sv =>
             let l := firstn (length (sv_tr sv) - length (sv_tr (h_sv h))) (sv_tr sv) in
             match on_all nw mbf cut (pool_acts l ++ [Pool.PHealth]) (h_ps h) (fun s => deliver s l (taken (i_get i) s (h_w h s))) with
             | Ok (ps, f) => Some (HServe i cut, Whole sv ps f)
             | Err _ => None
             end
         | Err _ => None
         end.
  Variable cut : nat -> nat.
  Definition hperform (c : hdeed) (h : whole) : option (hmove * whole) :=
    match c with
    | EConnect st => if alive_b h st then
        match h_w h st with Worker t Unborn o r => Some (HConnect st, hput h st (Worker t Asking o r)) | _ => None end else None
    | EAsk st => if alive_b h st then
        match h_w h st with Worker t Asking o r => Some (HAsk st, hput h st (Worker t Waiting (o ++ [MAcquire t]) r)) | _ => None end else None
    | EGet st => if alive_b h st then
        match h_w h st with
        | Worker t Waiting o (Client.RSend pb :: r) => Some (HGet st, hput h st (Worker t (Working pb) o r))
        | Worker t Waiting o (Client.RShutdown :: r) => Some (HGet st, hput h st (Worker t Left o r))
        | _ => None end else None
    | EFinish st out => if alive_b h st then
        match out, h_w h st with
        | Client.Interrupted _, _ => None
        | _, Worker t (Working pb) o r => Some (HFinish st out, hput h st (Worker t Asking (o ++ returned st pb out) r))
        | _, _ => None end else None
    | EExit st => if alive_b h st then
        match w_at (h_w h st) with
        | Left => Some (HExit st, Whole (h_sv h) (fst (Pool.pstep nw mbf (Pool.PExit st 0) (h_ps h))) (h_w h))
        | _ => None end else None
    | EEnd st n c => if alive_b h st then
        match h_w h st with
        | Worker t (Unborn | Asking | Waiting | Working _) o _ =>
            Some (HEnd st n c, Whole (h_sv h) (fst (Pool.pstep nw mbf (Pool.PExit st c) (h_ps h)))
               (fun s => if Nat.eqb s st then Worker t Dead (firstn n o) [] else h_w h s))
        | _ => None
        end else None
    | ETake st closed => if known_b h st then
        match w_out (h_w h st) with m :: _ => hserve_with (GotMessage st m) closed cut h | [] => None end else None
    | EIdle closed => hserve_with GotNothing closed cut h
    end.
  Lemma hserve_step g closed c h m h' : hserve_with g closed c h = Some (m, h') ->
    match g with GotMessage st m => known h st /\ exists r, w_out (h_w h st) = m :: r | GotError _ => False | _ => True end ->
    hstep h m h' /\ m = HServe (an_input g closed true no_check) c.
  Proof.
    unfold hserve_with. intros H Hg. destruct (sv_stop (h_sv h)) eqn:Sp; [discriminate H|]. cbn [orb] in H.
    destruct (forallb _ closed) eqn:Cl; [|discriminate H]. cbn [negb] in H.
    destruct (iteration _ _ _ _ _ _ _) as [sv|] eqn:E; [|discriminate H].
    destruct (iter_adds _ _ _ _ _ _ _ _ E) as [l [L _]]. cbn [add_tr sv_tr] in L. rewrite app_assoc in L.
    replace (firstn (length (sv_tr sv) - length (sv_tr (h_sv h))) (sv_tr sv)) with (l ++ recv (an_input g closed true no_check)) in H.
    2: { rewrite L. rewrite app_length, Nat.add_sub, firstn_app, Nat.sub_diag, firstn_all. cbn [firstn]. rewrite app_nil_r. reflexivity. }
    destruct (on_all _ _ _ _ _ _) as [[ps f]|] eqn:Eo; [|discriminate H]. injection H as <- <-. split; [|reflexivity].
    eapply hs_serve; eauto. split; [reflexivity|]. split; [exact Hg|]. unfold an_input. cbn [i_closed]. intros st H. apply mem_nat in H.
    rewrite forallb_forall in Cl. apply Cl in H. apply andb_prop in H. destruct H as [H1 H2]. split; [apply known_b_true; exact H1|].
    destruct (w_at (h_w h st)); try discriminate H2; exact I.
  Qed.
  Lemma hperform_step c h m h' : hperform c h = Some (m, h') -> hstep h m h'.
  Proof.
    destruct c as [st|st|st|st out|st|st n c|st cl|cl]; cbn [hperform].
    1-6: destruct (alive_b h st) eqn:A; [|discriminate]; apply alive_b_true in A.
    - destruct (h_w h st) as [t [] o r] eqn:Ew; try discriminate. intros H. injection H as <- <-. apply hs_connect; auto.
    - destruct (h_w h st) as [t [] o r] eqn:Ew; try discriminate. intros H. injection H as <- <-. apply hs_ask; auto.
    - destruct (h_w h st) as [t [] o [|[pb| | |] r]] eqn:Ew; try discriminate; intros H; injection H as <- <-; [apply hs_block|apply hs_leave]; auto.
    - destruct out as [s|s|s]; try discriminate; destruct (h_w h st) as [t [] o r] eqn:Ew; try discriminate;
        intros H; injection H as <- <-; apply hs_finish; auto; discriminate.
    - destruct (w_at (h_w h st)) eqn:Ew; try discriminate. intros H. injection H as <- <-. apply hs_exit; auto.
    - destruct (h_w h st) as [t p o r] eqn:Ew. intros H.
      destruct p; try discriminate H; injection H as <- <-; eapply hs_end; eauto; right; discriminate.
    - destruct (known_b h st) eqn:A; [|discriminate]. apply known_b_true in A.
      destruct (w_out _) as [|a o] eqn:Eo; [discriminate|]. intros H. apply hserve_step in H; [apply H|]. split; eauto.
    - intros H. apply hserve_step in H; [apply H|exact I].
  Qed.
  Lemma hperform_chk c h i k h' : hperform c h = Some (HServe i k, h') -> i_chk i = no_check.
  Proof.
    intros H. destruct c as [st|st|st|st out|st|st n c|st cl|cl]; cbn [hperform] in H.
    1-6: destruct (alive_b h st); [|discriminate H].
    - destruct (h_w h st) as [t [] o r]; discriminate H.
    - destruct (h_w h st) as [t [] o r]; discriminate H.
    - destruct (h_w h st) as [t [] o [|[pb| | |] r]]; discriminate H.
    - destruct out; try discriminate H; destruct (h_w h st) as [t [] o r]; discriminate H.
    - destruct (w_at (h_w h st)); discriminate H.
    - destruct (h_w h st) as [t [] o r]; discriminate H.
    - destruct (known_b h st); [|discriminate H]. destruct (w_out _); [discriminate H|]. unfold hserve_with in H. destruct (_ || _); [discriminate H|].
      destruct (iteration _ _ _ _ _ _ _); [|discriminate H]. destruct (on_all _ _ _ _ _ _) as [[ps f]|]; [|discriminate H]. injection H as <- _ _. reflexivity.
    - unfold hserve_with in H. destruct (_ || _); [discriminate H|].
      destruct (iteration _ _ _ _ _ _ _); [|discriminate H]. destruct (on_all _ _ _ _ _ _) as [[ps f]|]; [|discriminate H]. injection H as <- _ _. reflexivity.
  Qed.

  Inductive hchain (h : whole) : list (hmove * whole) -> Prop :=
  | hchain_nil : hchain h []
  | hchain_cons m h' l : hstep h m h' -> hchain h' l -> hchain h ((m, h') :: l).
  (* deeds in order; all of them must be possible *)
  Fixpoint hplay (cs : list hdeed) (h : whole) : option (list (hmove * whole)) :=
    match cs with
    | [] => Some []
    | c :: r => match hperform c h with
                | Some (m, h') => match hplay r h' with Some l => Some ((m, h') :: l) | None => None end
                | None => None
                end
    end.
  (* who can move moves; if nobody can the server takes a message; if there is none it waits.
     [body]: what becomes of the work of a worker on a block, None: the process is killed *)
  Variable body : nat -> pyblock -> option Client.outcome.
  Definition hcan_b (h : whole) (st : nat) : bool :=
    alive_b h st &&
    match h_w h st with
    | Worker _ Unborn _ _ => timely_b h (HConnect st)
    | Worker _ (Asking | Working _) _ _ => true
    | Worker _ Waiting _ r => match r with [] => false | _ => true end
    | _ => false
    end.
  Definition left_b (h : whole) (st : nat) : bool := alive_b h st && match w_at (h_w h st) with Left => true | _ => false end.
  Definition hchoose (h : whole) : option hdeed :=
    let cl := filter (fun s => known_b h s && offline_b (w_at (h_w h s))) (everyone h) in
    match find (fun st => hcan_b h st || left_b h st) (rev (everyone h)) with
    | Some st => Some match w_at (h_w h st) with
                      | Unborn => EConnect st
                      | Asking => EAsk st
                      | Working pb => match body st pb with Some o => EFinish st o | None => EEnd st 0 (-9) end
                      | Left => EExit st
                      | _ => EGet st
                      end
    | None => if sv_stop (h_sv h) then None
              else Some match find (fun st => match w_out (h_w h st) with [] => false | _ => true end) (rev (everyone h)) with
                        | Some st => ETake st cl
                        | None => EIdle cl
                        end
    end.
  Fixpoint hauto (n : nat) (h : whole) : list (hmove * whole) :=
    match n with
    | O => []
    | S n => match hchoose h with
             | Some c => match hperform c h with Some (m, h') => (m, h') :: hauto n h' | None => [] end
             | None => []
             end
    end.
  Lemma hplay_chain cs : forall h l, hplay cs h = Some l -> hchain h l.
  Proof.
    induction cs as [|c r IH]; intros h l H; cbn [hplay] in H; [injection H as <-; constructor|].
    destruct (hperform c h) as [[m h']|] eqn:E; [|discriminate H]. destruct (hplay r h') as [l'|] eqn:El; [|discriminate H]. injection H as <-.
    constructor; auto. eapply hperform_step; eauto.
  Qed.
  Lemma hauto_chain n : forall h, hchain h (hauto n h).
  Proof.
    induction n as [|n IH]; intros h; cbn [hauto]; [constructor|]. destruct (hchoose h) as [c|]; [|constructor].
    destruct (hperform c h) as [[m h']|] eqn:E; [|constructor]. constructor; auto. eapply hperform_step; eauto.
  Qed.
  Lemma hauto_chk n : forall h i k h', In (HServe i k, h') (hauto n h) -> i_chk i = no_check.
  Proof.
    induction n as [|n IH]; intros h i k h'; cbn [hauto]; [intros []|]. destruct (hchoose h) as [c|]; [|intros []].
    destruct (hperform c h) as [[m z]|] eqn:E; [|intros []]. intros [H|H]; [|eauto]. injection H as -> ->. eapply hperform_chk; eauto.
  Qed.
  Definition hlast (h : whole) (l : list (hmove * whole)) : whole := last (map snd l) h.
  Lemma hlast_cons h m h' l : hlast h ((m, h') :: l) = hlast h' l.
  Proof. unfold hlast. cbn [map snd]. apply last_cons. Qed.
  Fixpoint hbefores (h : whole) (l : list (hmove * whole)) : list (whole * hmove) :=
    match l with [] => [] | (m, h') :: r => (h, m) :: hbefores h' r end.
  Lemma hruns_cons h m h1 ms h2 : hstep h m h1 -> hruns h1 ms h2 -> hruns h (m :: ms) h2.
  Proof.
    intros S Q. induction Q as [|ms z1 m1 z2 Q IH Sz]; [apply (hruns_step _ _ _ _ _ _ _ h [] h m h1); [constructor|exact S]|].
    change (m :: ms ++ [m1]) with ((m :: ms) ++ [m1]). eapply hruns_step; eauto.
  Qed.
  Lemma hchain_runs l : forall h, hchain h l -> hruns h (map fst l) (hlast h l).
  Proof.
    induction l as [|[m h'] l IH]; intros h C; [constructor|]. inversion C as [|? ? ? S C']; subst.
    cbn [map fst]. rewrite hlast_cons. eapply hruns_cons; eauto.
  Qed.
  Lemma hruns_app h ms h1 ms' h2 : hruns h ms h1 -> hruns h1 ms' h2 -> hruns h (ms ++ ms') h2.
  Proof. intros R Q. induction Q as [|ms' z1 m1 z2 Q IH Sz]; [rewrite app_nil_r; exact R|]. rewrite app_assoc. eapply hruns_step; eauto. Qed.

  Lemma hbefores_nth (z : whole) l : forall h n m, nth_error (map fst l) n = Some m -> In (nth n (h :: map snd l) z, m) (hbefores h l).
  Proof.
    induction l as [|[m' h'] l IH]; intros h n m H; [destruct n; discriminate H|]. destruct n; cbn in *.
    - injection H as ->. left. reflexivity.
    - right. apply IH. exact H.
  Qed.
  Lemma hchain_end h l : nth (length l) (h :: map snd l) (hlast h l) = hlast h l.
  Proof.
    unfold hlast. revert h. induction l as [|[m a] l IH]; intros h; [reflexivity|]. cbn [map snd length]. specialize (IH a). cbn [nth map] in *.
    rewrite last_cons. exact IH.
  Qed.
  (* every state of the chain is reached *)
  Lemma hchain_mid l : forall h, hchain h l -> forall h1 m, In (h1, m) (hbefores h l) -> exists ms, hruns h ms h1.
  Proof.
    induction l as [|[m0 h'] l IH]; intros h C h1 m H; [destruct H|]. inversion C as [|? ? ? S C']; subst. destruct H as [H|H].
    - injection H as <- _. exists []. constructor.
    - destruct (IH _ C' _ _ H) as [ms R]. exists (m0 :: ms). eapply hruns_cons; eauto.
  Qed.

  Section Numbered.
    Variables (tasks : list nat) (s0 : sched) (h0 : whole).
    Hypothesis nw_nn : forall t, 0 <= nw t.
    Hypothesis start : whole_init no_init nw mbf tasks s0 = Ok h0.
    Lemma runs_numbered ms h : hruns h0 ms h -> numbered h.
    Proof.
      intros R. destruct (whole_reached _ _ _ _ _ _ _ _ _ _ _ _ start R) as [k Re].
      pose proof (P_Pool.reached_GI nw nw_nn mbf _ _ (keys_nodup tasks) P_Pool.sys0_clean _ _ Re) as G.
      intros st K. destruct (Nat.lt_ge_cases st (Pool.nxt (Pool.ps_sys (h_ps h)))) as [L|L]; auto.
      exfalso. apply K. exact (P_Pool.gi_wf _ _ _ _ G st L).
    Qed.
    Lemma hcan_b_ok h st : hcan_move h st -> hcan_b h st = true.
    Proof.
      intros [A C]. unfold hcan_b. apply alive_b_true in A. rewrite A. cbn [andb].
      destruct (h_w h st) as [t p o r] eqn:Ew. cbn in C. destruct p; auto; try contradiction.
      - apply timely_b_all. cbn. rewrite Ew. exact C.
      - destruct r; auto.
    Qed.
    (* a run that has come to its end, and nothing happens any more *)
    Lemma hchain_fair l : hchain h0 l -> forallb (fun '(h, m) => prudent_b h m) (hbefores h0 l) = true ->
      sv_stop (h_sv (hlast h0 l)) = true -> existsb (hcan_b (hlast h0 l)) (everyone (hlast h0 l)) = false ->
      hfair up down maxr fuel no_init nw mbf (fun n => nth n (h0 :: map snd l) (hlast h0 l)) (fun n => nth_error (map fst l) n).
    Proof.
      intros C Pr St Nm. set (z := hlast h0 l) in *.
      assert (Nz : numbered z) by (eapply runs_numbered; apply hchain_runs; exact C).
      assert (Nc : forall st, ~ hcan_move z st).
      { intros st M. pose proof (hcan_b_ok _ _ M) as B. destruct M as [A _]. apply alive_known in A.
        assert (existsb (hcan_b z) (everyone z) = true) by (apply existsb_exists; exists st; split; auto using in_everyone). congruence. }
      assert (E : forall n, (length l <= n)%nat -> nth n (h0 :: map snd l) z = z).
      { intros n Hn. destruct (Nat.eq_dec n (length l)) as [->|]; [apply hchain_end|]. apply nth_overflow. cbn. rewrite map_length. lia. }
      split.
      - assert (G : forall h l w, hchain h l -> last (map snd l) h = w -> forall n, match nth_error (map fst l) n with
           | Some m => hstep (nth n (h :: map snd l) w) m (nth (S n) (h :: map snd l) w)
           | None => nth (S n) (h :: map snd l) w = nth n (h :: map snd l) w end).
        { clear. intros h l w C. revert w. induction C as [h|h m h' l S C IH]; intros w Hw n.
          - cbn in Hw. subst w. destruct n; cbn; [reflexivity|]. destruct n; reflexivity.
          - destruct n; [exact S|]. cbn [map fst snd nth_error nth]. apply IH. rewrite <- Hw. cbn [map snd]. symmetry. apply last_cons. }
        intros n. apply G; auto.
      - intros n m H. pose proof (hbefores_nth z l h0 n m H) as Hi. destruct (hchain_mid _ _ C _ _ Hi) as [ms R].
        rewrite forallb_forall in Pr. apply Pr in Hi. apply prudent_b_ok; [eapply runs_numbered; eauto|exact Hi].
      - intros n st _. exists (max n (length l)). split; [lia|]. right. rewrite E by lia. apply Nc.
      - intros n st _ _. exists (max n (length l)). split; [lia|]. right. right. rewrite E by lia. exact St.
      - intros n. exists (max n (length l)). split; [lia|]. right. right. rewrite E by lia. exact St.
      - exists (length l). intros k m Hk. assert (X : nth_error (map fst l) k = None) by (apply nth_error_None; rewrite map_length; lia).
        rewrite X. discriminate.
    Qed.
  End Numbered.
End Play.

Definition wstaff (tasks : list task) fuel nw mbf body n : res (dgraph * sched * whole * list (hmove * whole)) :=
  '(d, s0) <- sched_init tasks ;;
  h <- whole_init no_init nw mbf (map t_id tasks) s0 ;;
  Ok (d, s0, h, hauto (dg_up idl idl d) (dg_down idl idl d) (dg_max_retries d) fuel nw mbf (fun _ => 0%nat) body n h).
Lemma company_ok tasks fuel nw mbf d s0 h : pipe_ok tasks -> edges_ok tasks -> sched_init tasks = Ok (d, s0) ->
  enough_b d fuel = true -> (forall t, 1 <= nw t) -> whole_init no_init nw mbf (map t_id tasks) s0 = Ok h ->
  company tasks idl idl d s0 fuel no_init nw mbf h.
Proof.
  intros PO EO E En NW W. constructor; auto using idl_order.
  - apply (run_dual tasks idl idl d s0 fuel [] s0); auto. constructor; auto using idl_order. constructor.
  - eapply enough_b_ok; eauto.
Qed.
Lemma wstaff_ok tasks fuel nw mbf body n d s0 h l : pipe_ok tasks -> edges_ok tasks -> wstaff tasks fuel nw mbf body n = Ok (d, s0, h, l) ->
  enough_b d fuel = true -> (forall t, 1 <= nw t) ->
  company tasks idl idl d s0 fuel no_init nw mbf h /\
  l = hauto (dg_up idl idl d) (dg_down idl idl d) (dg_max_retries d) fuel nw mbf (fun _ => 0%nat) body n h.
Proof.
  intros PO EO. unfold wstaff. destruct (sched_init tasks) as [[d' s']|] eqn:E; [|discriminate]. cbn [bind].
  destruct (whole_init _ _ _ _ _) as [x|] eqn:Ei; [|discriminate]. cbn [bind]. intros H En NW. injection H as <- <- <- <-.
  split; auto. eapply company_ok; eauto.
Qed.

(* A run as in C60 and C61: three tasks in a row, the first listed second, two workers for the first, one for each of the others.
   Worker 1 is killed with its first block, and worker 2 started in its place.  The second block of the second
   task raises each time; after the fourth failure worker 3 is killed by its pool, and worker 5 started. *)
Definition wx_r (n : nat) (workers : Z) (ups : list task) : task := Task n (Roi [0] [2]) (Roi [0] [1]) (Roi [0] [1]) false Valid workers 3 ups.
Definition wx_row : list task := let a := wx_r 1 2 [] in let b := wx_r 2 1 [a] in let c := wx_r 3 1 [b] in [b; a; c].
Lemma wx_row_ok : pipe_ok wx_row.
Proof. unfold wx_row, wx_r. pipe_ok_tac. Qed.
Lemma wx_row_edges : edges_ok wx_row.
Proof.
  intros t u Ht Hu. unfold wx_row, wx_r in *. pipe_tac;
  (constructor; try discriminate;
   [intros i Hi; cbn in Hi; destruct i as [|i]; [reflexivity|lia]
   |intros [k [[L _] X]]; specialize (X O); cbn in *; lia..]).
Qed.
Lemma wx_row_order : in_order wx_row.
Proof.
  intros l1 t l2 u E Hu. unfold wx_row in E.
  destruct l1 as [|a l1]; [injection E as <- _; destruct Hu as [<-|[]]; right; split; [right; left|]; reflexivity|]. injection E as <- E.
  destruct l1 as [|b l1]; [injection E as <- _; destruct Hu|]. injection E as <- E.
  destruct l1 as [|c l1]; [injection E as <- _; destruct Hu as [<-|[]]; left; left; reflexivity|]. injection E as _ E.
  destruct l1; discriminate.
Qed.
Lemma wx_row_late : ~ upstream_first wx_row.
Proof. intros H. destruct (H [] _ _ _ eq_refl (or_introl eq_refl)). Qed.
Definition wx_nw (t : nat) : Z := if Nat.eqb t 1 then 2 else 1.
Definition wx_body (st : nat) (pb : pyblock) : option Client.outcome :=
  if Nat.eqb st 1 then None else if is_bad (pb_block pb) then Some (Client.Raised PROCESSING) else Some (Client.Finished SUCCESS).
Definition hsincere_b (h : whole) (m : hmove) : bool :=
  match m with
  | HFinish st o =>
      match o with
      | Client.Finished SUCCESS | Client.Finished PROCESSING =>
          match w_at (h_w h st) with Working pb => negb (is_bad (pb_block pb)) | _ => true end
      | _ => true
      end
  | _ => true
  end.
Definition exits (h : whole) (st t : nat) (c : Z) : bool :=
  match proc h st with Some (u, Pool.Exited k) => Nat.eqb u t && (k =? c) | _ => false end.
Lemma exits_ok h st t c : exits h st t c = true -> proc h st = Some (t, Pool.Exited c).
Proof.
  unfold exits. destruct (proc h st) as [[u [|k]]|]; try discriminate. intros H. apply andb_prop in H. destruct H as [H1 H2].
  apply Nat.eqb_eq in H1. apply Z.eqb_eq in H2. subst. reflexivity.
Qed.
Definition wx_checks (d : dgraph) (h : whole) (l : list (hmove * whole)) : bool :=
  let z := hlast h l in
  enough_b d 100 && sv_stop (h_sv z) && negb (existsb (hcan_b z) (everyone z)) &&
  forallb (fun '(h, m) => prudent_b h m) (hbefores h l) &&
  forallb (fun b => Nat.leb (length (dg_up idl idl d b)) 2) (pblocks d) &&
  forallb (fun b => Nat.eqb (b_task b) 1 || match dg_up idl idl d b with [] => false | _ => true end) (pblocks d) &&
  forallb (fun '(h, m) => hsincere_b h m) (hbefores h l) &&
  forallb (fun h => bounded_b (dg_max_retries d) (hist (sv_tr (h_sv h)))) (h :: map snd l) &&
  exits z 1 1 (-9) && exits z 3 2 (-15) && alive_b z 5 &&
  some_block (fun b => is_bad b && perm_b d (hist (sv_tr (h_sv z))) b) d.
Example whole_example : exists d s0 fuel r mv n b,
  let bad := fun b => is_bad b = true in
  company wx_row idl idl d s0 fuel no_init wx_nw 3 (r O) /\ no_lonely wx_row idl idl d /\ in_order wx_row /\ ~ upstream_first wx_row /\
  few_upstream wx_row idl idl d /\
  hfair (dg_up idl idl d) (dg_down idl idl d) (dg_max_retries d) fuel no_init wx_nw 3 r mv /\
  (forall n m, mv n = Some m -> hsincere bad (r n) m) /\
  (forall n b, ~ bad b -> n_failed (hist (sv_tr (h_sv (r n)))) b <= Z.max (dg_max_retries d (b_task b)) 0) /\
  (forall b, bad b \/ ~ bad b) /\
  sv_stop (h_sv (r n)) = true /\ proc (r n) 1 = Some (1%nat, Pool.Exited (-9)) /\ proc (r n) 3 = Some (2%nat, Pool.Exited (-15)) /\
  alive (r n) 5 /\ pipe_block wx_row b /\ bad b /\ perm_failed (dg_max_retries d) (hist (sv_tr (h_sv (r n)))) b.
Proof.
  assert (Q : match wstaff wx_row 100 wx_nw 3 wx_body 300 with Ok (d, s0, h, l) => wx_checks d h l | Err _ => false end = true)
    by (vm_compute; reflexivity).
  destruct (wstaff wx_row 100 wx_nw 3 wx_body 300) as [[[[d s0] h] l]|] eqn:E; [|discriminate Q]. unfold wx_checks in Q.
  apply andb_prop in Q. destruct Q as [Q Q12]. apply andb_prop in Q. destruct Q as [Q Q11]. apply andb_prop in Q. destruct Q as [Q Q10].
  apply andb_prop in Q. destruct Q as [Q Q9]. apply andb_prop in Q. destruct Q as [Q Q8]. apply andb_prop in Q. destruct Q as [Q Q7].
  apply andb_prop in Q. destruct Q as [Q Q6]. apply andb_prop in Q. destruct Q as [Q Q5]. apply andb_prop in Q. destruct Q as [Q Q4].
  apply andb_prop in Q. destruct Q as [Q Q3]. apply andb_prop in Q. destruct Q as [Q1 Q2]. apply Bool.negb_true_iff in Q3.
  assert (NW : forall t, 1 <= wx_nw t) by (intros t; unfold wx_nw; destruct (Nat.eqb t 1); lia).
  destruct (wstaff_ok _ _ _ _ _ _ _ _ _ _ wx_row_ok wx_row_edges E Q1 NW) as [CO El].
  assert (C : hchain (dg_up idl idl d) (dg_down idl idl d) (dg_max_retries d) 100 wx_nw 3 h l) by (rewrite El; apply hauto_chain).
  assert (NN : forall t, 0 <= wx_nw t) by (intros t; specialize (NW t); lia).
  pose proof (hchain_fair _ _ _ _ _ _ _ _ _ NN (co_start _ _ _ _ _ _ _ _ _ _ CO) l C Q4 Q2 Q3) as FA.
  pose proof (hchain_end h l) as Ez.
  apply existsb_exists in Q12. destruct Q12 as [b [Hb Q12]]. apply andb_prop in Q12. destruct Q12 as [Bb Pb]. rewrite perm_b_true in Pb.
  exists d, s0, 100%nat, (fun n => nth n (h :: map snd l) (hlast h l)), (fun n => nth_error (map fst l) n), (length l), b.
  cbv zeta. rewrite Ez. pose proof (f_in _ _ _ _ _ _ _ _ _ (w_staffed _ _ _ _ _ _ _ _ _ _ CO)) as FI.
  split; [exact CO|]. split; [|split; [exact wx_row_order|split; [exact wx_row_late|split; [|split; [exact FA|split; [|split; [|split]]]]]]].
  - intros t g c Ht Nt Et Gc Z. rewrite forallb_forall in Q6.
    assert (Hc : In c (pblocks d)) by (apply FI; exists t, g; auto).
    apply Q6 in Hc. rewrite Z in Hc. rewrite Bool.orb_false_r in Hc. apply Nat.eqb_eq in Hc.
    rewrite (gen_id wx_row wx_row_ok t g c Ht Et Gc) in Hc. clear - Hc Ht Nt. unfold wx_row, wx_r in Ht. pipe_tac; cbn in Hc, Nt; try discriminate Hc; apply Nt; reflexivity.
  - intros c Hc. apply FI in Hc. rewrite forallb_forall in Q5. apply Q5 in Hc. apply Nat.leb_le in Hc. exact Hc.
  - intros n m' H. pose proof (hbefores_nth (hlast h l) l h n m' H) as Hi. rewrite forallb_forall in Q7. apply Q7 in Hi. cbn beta iota in Hi.
    destruct m' as [| | |st o| | |i k]; try exact I.
    + intros W pb' Ew. unfold hsincere_b in Hi. rewrite Ew in Hi. destruct o as [[]| |]; try contradiction; apply Bool.negb_true_iff in Hi; congruence.
    + intros j c Hj. assert (X : i_chk i = no_check).
      { apply nth_error_In in H. apply in_map_iff in H. destruct H as [[m0 y0] [E0 H]]. cbn in E0. subst m0. rewrite El in H. eapply hauto_chk; eauto. }
      rewrite X in Hj. discriminate Hj.
  - intros n c Nc. apply bounded_b_ok; auto. rewrite forallb_forall in Q8. apply (Q8 (nth n (h :: map snd l) (hlast h l))).
    destruct (Nat.lt_ge_cases n (length (h :: map snd l))) as [L|L]; [apply nth_In; exact L|].
    rewrite nth_overflow by exact L. rewrite <- Ez. apply nth_In. cbn. rewrite map_length. lia.
  - intros c. destruct (is_bad c); [left|right]; congruence.
  - split; [exact Q2|]. split; [apply exits_ok; exact Q9|]. split; [apply exits_ok; exact Q10|]. split; [apply alive_b_true; exact Q11|].
    split; [apply FI; exact Hb|]. split; [exact Bb|exact Pb].
Qed.
Print Assumptions whole_example.
