(* Runs of the server together with its workers, computed (for C53, C54). *)
From Coq Require Import Arith Lia.
From Verif Require Import SchedProps SchedExec DGFacts2 PipeRun P_SchedCE P_Sched SerialFacts P_Conv P_Serial ServerFacts ServerSteps
  ServerIdle P_Server P_ServerCE P_Outcome P_Notify.
From Verif Require Client Conv.
From Verif Require Import Sys SysFacts SysMeasure SysLive SysFair SysTrace P_Sys.
Open Scope Z_scope.

Inductive deed :=
| DoSpawn (st : nat) | DoAsk (st : nat) | DoGet (st : nat) | DoFinish (st : nat) (o : Client.outcome) | DoDie (st n : nat)
| DoReplace (st st' : nat) | DoTake (st : nat) | DoIdle.
Definition gone (p : phase) : bool := match p with Left | Dead | Replaced => true | _ => false end.
(* all connections of workers that are gone are seen, all tasks are looked at *)
Definition this_input (y : sys) (g : got) : input :=
  an_input g (filter (fun st => gone (w_at (y_w y st))) (y_team y)) true no_check.
Definition holds_b (y : sys) (st : nat) : bool := existsb (fun e => Nat.eqb (lg_stream (snd e)) st) (sv_book (y_sv y)).
(* no worker of the task was lost with a block *)
Definition clear_b (y : sys) (t : nat) : bool :=
  forallb (fun s => negb (Nat.eqb (w_task (y_w y s)) t && match w_at (y_w y s) with Replaced => true | _ => false end && holds_b y s)) (y_team y).
Lemma last_cons {A} (l : list A) : forall a d, last (a :: l) d = last l a.
Proof. induction l as [|b l IH]; intros a d; [reflexivity|]. change (last (a :: b :: l) d) with (last (b :: l) d). rewrite !IH. reflexivity. Qed.
Section Play.
  Variables (up down : block -> list block) (maxr : nat -> Z) (fuel : nat).
  Definition serve_with (g : got) (y : sys) : option (move * sys) :=
    let i := this_input y g in
    if sv_stop (y_sv y) then None
    else match iteration up down maxr fuel no_init i (y_sv y) with
         | Ok sv =>
             let l := firstn (length (sv_tr sv) - length (sv_tr (y_sv y))) (sv_tr sv) in
             Some (Serve i, Sys sv (y_team y) (fun s => deliver s l (taken (i_get i) s (y_w y s))))
         | Err _ => None
         end.
  Definition perform (c : deed) (y : sys) : option (move * sys) :=
    match c with
    | DoSpawn st => if mem Nat.eqb st (y_team y) then
        match y_w y st with
        | Worker t Unborn o r => if mem Nat.eqb t (sv_started (y_sv y)) && clear_b y t then Some (Spawn st, put y st (Worker t Asking o r)) else None
        | _ => None end else None
    | DoAsk st => if mem Nat.eqb st (y_team y) then
        match y_w y st with
        | Worker t Asking o r => Some (Ask st, put y st (Worker t Waiting (o ++ [MAcquire t]) r))
        | _ => None end else None
    | DoGet st => if mem Nat.eqb st (y_team y) then
        match y_w y st with
        | Worker t Waiting o (Client.RSend pb :: r) => Some (Get st, put y st (Worker t (Working pb) o r))
        | Worker t Waiting o (Client.RShutdown :: r) => Some (Get st, put y st (Worker t Left o r))
        | _ => None end else None
    | DoFinish st out => if mem Nat.eqb st (y_team y) then
        match out, y_w y st with
        | Client.Interrupted _, _ => None
        | _, Worker t (Working pb) o r => Some (Finish st out, put y st (Worker t Asking (o ++ returned st pb out) r))
        | _, _ => None end else None
    | DoDie st n => if mem Nat.eqb st (y_team y) then
        match y_w y st with
        | Worker t (Unborn | Asking | Waiting | Working _) o r => if mem Nat.eqb t (sv_started (y_sv y)) then Some (Die st n, put y st (Worker t Dead (firstn n o) [])) else None
        | _ => None end else None
    | DoReplace st st' => if mem Nat.eqb st (y_team y) && negb (mem Nat.eqb st' (y_team y)) then
        match y_w y st with
        | Worker t Dead o r =>
            Some (Replace st st', Sys (y_sv y) (st' :: y_team y)
               (fun s => if Nat.eqb s st' then Worker t Unborn [] [] else if Nat.eqb s st then Worker t Replaced o r else y_w y s))
        | _ => None end else None
    | DoTake st => if mem Nat.eqb st (y_team y) then
        match w_out (y_w y st) with m :: _ => serve_with (GotMessage st m) y | [] => None end else None
    | DoIdle => serve_with GotNothing y
    end.
  Lemma mem_nat x l : mem Nat.eqb x l = true -> In x l.
  Proof. unfold mem. intros H. apply existsb_exists in H. destruct H as [z [Hz E]]. apply Nat.eqb_eq in E. subst. exact Hz. Qed.
  Lemma nmem_nat x l : mem Nat.eqb x l = false -> ~ In x l.
  Proof. unfold mem. intros H Hx. assert (existsb (Nat.eqb x) l = true); [|congruence]. apply existsb_exists. exists x. rewrite Nat.eqb_refl. auto. Qed.
  Lemma holds_b_false y st : holds_b y st = false -> ~ has_block (y_sv y) st.
  Proof.
    unfold holds_b. intros H [e [He E]]. assert (X : existsb (fun e => Nat.eqb (lg_stream (snd e)) st) (sv_book (y_sv y)) = true); [|congruence].
    apply existsb_exists. exists e. split; auto. apply Nat.eqb_eq. exact E.
  Qed.
  Lemma holds_b_true y st : holds_b y st = true -> has_block (y_sv y) st.
  Proof. unfold holds_b. intros H. apply existsb_exists in H. destruct H as [e [He E]]. apply Nat.eqb_eq in E. exists e. auto. Qed.
  Lemma clear_b_true y t : clear_b y t = true -> forall s, In s (y_team y) -> w_task (y_w y s) = t -> w_at (y_w y s) = Replaced -> ~ has_block (y_sv y) s.
  Proof.
    unfold clear_b. rewrite forallb_forall. intros H s Hs E1 E2. specialize (H s Hs). rewrite E1, E2, Nat.eqb_refl in H. apply holds_b_false.
    apply Bool.negb_true_iff in H. exact H.
  Qed.
  Lemma serve_step g y m y' : serve_with g y = Some (m, y') ->
    match g with GotMessage st m => In st (y_team y) /\ exists r, w_out (y_w y st) = m :: r | GotError _ => False | _ => True end ->
    step up down maxr fuel no_init y m y'.
  Proof.
    unfold serve_with. intros H Hg. destruct (sv_stop (y_sv y)) eqn:Sp; [discriminate|].
    destruct (iteration _ _ _ _ _ _ _) as [sv|] eqn:E; [|discriminate]. injection H as <- <-.
    destruct (iter_adds _ _ _ _ _ _ _ _ E) as [l [L _]]. cbn [add_tr sv_tr] in L. rewrite app_assoc in L.
    apply step_serve; auto.
    - split; [reflexivity|]. split; [exact Hg|]. unfold this_input, an_input. cbn [i_closed]. split.
      + intros st H. apply mem_nat in H. apply filter_In in H. destruct H as [H1 H2]. split; auto.
        destruct (w_at (y_w y st)); try discriminate; exact I.
      + intros st Hst Ew. left. unfold mem. apply existsb_exists. exists st. split; [|apply Nat.eqb_refl]. apply filter_In. split; auto. rewrite Ew. reflexivity.
    - rewrite L. rewrite app_length, Nat.add_sub, firstn_app, Nat.sub_diag, firstn_all. cbn [firstn]. rewrite app_nil_r. reflexivity.
  Qed.
  Lemma perform_step c y m y' : perform c y = Some (m, y') -> step up down maxr fuel no_init y m y'.
  Proof.
    destruct c as [st|st|st|st out|st n|st st'|st|]; cbn [perform].
    - destruct (mem _ _ _) eqn:Hm; [|discriminate]. destruct (y_w y st) as [t [] o r] eqn:Ew; try discriminate.
      destruct (mem _ t _) eqn:Hs; [|discriminate]. destruct (clear_b y t) eqn:Hc; [|discriminate]. cbn [andb].
      intros H. injection H as <- <-. apply step_spawn; auto using mem_nat. apply clear_b_true. exact Hc.
    - destruct (mem _ _ _) eqn:Hm; [|discriminate]. destruct (y_w y st) as [t [] o r] eqn:Ew; try discriminate.
      intros H. injection H as <- <-. apply step_ask; auto using mem_nat.
    - destruct (mem _ _ _) eqn:Hm; [|discriminate]. destruct (y_w y st) as [t [] o [|[pb| | |] r]] eqn:Ew; try discriminate;
        intros H; injection H as <- <-; [apply step_block|apply step_leave]; auto using mem_nat.
    - destruct (mem _ _ _) eqn:Hm; [|discriminate].
      destruct out as [s|s|s]; try discriminate; destruct (y_w y st) as [t [] o r] eqn:Ew; try discriminate;
        intros H; injection H as <- <-; apply step_finish; auto using mem_nat; discriminate.
    - destruct (mem _ _ _) eqn:Hm; [|discriminate]. destruct (y_w y st) as [t [] o r] eqn:Ew; try discriminate;
        (destruct (mem _ t _) eqn:Hs; [|discriminate]);
        intros H; injection H as <- <-; eapply step_die; eauto using mem_nat; exact I.
    - destruct (mem _ st _) eqn:Hm; [|discriminate]. destruct (mem _ st' _) eqn:Hm'; [discriminate|].
      cbn [negb andb]. destruct (y_w y st) as [t [] o r] eqn:Ew; try discriminate. intros H; injection H as <- <-.
      apply step_replace; auto using mem_nat, nmem_nat.
    - destruct (mem _ _ _) eqn:Hm; [|discriminate]. destruct (w_out _) as [|a o] eqn:Eo; [discriminate|]. intros H.
      eapply serve_step; eauto. split; [auto using mem_nat|eauto].
    - intros H. eapply serve_step; [exact H|exact I].
  Qed.
  Lemma perform_chk c y i y' : perform c y = Some (Serve i, y') -> i_chk i = no_check.
  Proof.
    destruct c as [st|st|st|st out|st n|st st'|st|]; cbn [perform].
    - destruct (mem _ _ _); [|discriminate]. destruct (y_w y st) as [t [] o r]; try discriminate. destruct (_ && _); discriminate.
    - destruct (mem _ _ _); [|discriminate]. destruct (y_w y st) as [t [] o r]; discriminate.
    - destruct (mem _ _ _); [|discriminate]. destruct (y_w y st) as [t [] o [|[pb| | |] r]]; discriminate.
    - destruct (mem _ _ _); [|discriminate]. destruct out; try discriminate; destruct (y_w y st) as [t [] o r]; discriminate.
    - destruct (mem _ _ _); [|discriminate]. destruct (y_w y st) as [t [] o r]; try discriminate; destruct (mem _ t _); discriminate.
    - destruct (_ && _); [|discriminate]. destruct (y_w y st) as [t [] o r]; discriminate.
    - destruct (mem _ _ _); [|discriminate]. destruct (w_out _); [discriminate|]. unfold serve_with. destruct (sv_stop _); [discriminate|].
      destruct (iteration _ _ _ _ _ _ _); [|discriminate]. intros H. injection H as <- _. reflexivity.
    - unfold serve_with. destruct (sv_stop _); [discriminate|].
      destruct (iteration _ _ _ _ _ _ _); [|discriminate]. intros H. injection H as <- _. reflexivity.
  Qed.

  Inductive chain (y : sys) : list (move * sys) -> Prop :=
  | chain_nil : chain y []
  | chain_cons m y' l : step up down maxr fuel no_init y m y' -> chain y' l -> chain y ((m, y') :: l).
  (* deeds in order, as long as they are possible *)
  Fixpoint play (cs : list deed) (y : sys) : list (move * sys) :=
    match cs with
    | [] => []
    | c :: r => match perform c y with Some (m, y') => (m, y') :: play r y' | None => [] end
    end.
  (* who can move moves; if nobody can the server takes a message; if there is none it waits.
     [body]: what becomes of the work of a worker on a block, None: it dies *)
  Variable body : nat -> pyblock -> option Client.outcome.
  Definition can_b (y : sys) (st : nat) : bool :=
    match y_w y st with
    | Worker t Unborn _ _ => mem Nat.eqb t (sv_started (y_sv y)) && clear_b y t
    | Worker _ (Asking | Working _ | Dead) _ _ => true
    | Worker _ Waiting _ r => match r with [] => false | _ => true end
    | Worker _ (Left | Replaced) _ _ => false
    end.
  Definition choose (y : sys) : option deed :=
    match find (can_b y) (rev (y_team y)) with
    | Some st => Some match w_at (y_w y st) with
                      | Unborn => DoSpawn st
                      | Asking => DoAsk st
                      | Working pb => match body st pb with Some o => DoFinish st o | None => DoDie st 0 end
                      | Dead => DoReplace st (length (y_team y))
                      | _ => DoGet st
                      end
    | None => if sv_stop (y_sv y) then None
              else Some match find (fun st => match w_out (y_w y st) with [] => false | _ => true end) (rev (y_team y)) with
                        | Some st => DoTake st
                        | None => DoIdle
                        end
    end.
  Fixpoint auto_play (n : nat) (y : sys) : list (move * sys) :=
    match n with
    | O => []
    | S n => match choose y with
             | Some c => match perform c y with Some (m, y') => (m, y') :: auto_play n y' | None => [] end
             | None => []
             end
    end.
  Lemma play_chain cs : forall y, chain y (play cs y).
  Proof.
    induction cs as [|c r IH]; intros y; cbn [play]; [constructor|].
    destruct (perform c y) as [[m y']|] eqn:E; [|constructor]. constructor; auto. eapply perform_step; eauto.
  Qed.
  Lemma auto_chain n : forall y, chain y (auto_play n y).
  Proof.
    induction n as [|n IH]; intros y; cbn [auto_play]; [constructor|]. destruct (choose y) as [c|]; [|constructor].
    destruct (perform c y) as [[m y']|] eqn:E; [|constructor]. constructor; auto. eapply perform_step; eauto.
  Qed.
  Lemma auto_chk n : forall y i y', In (Serve i, y') (auto_play n y) -> i_chk i = no_check.
  Proof.
    induction n as [|n IH]; intros y i y'; cbn [auto_play]; [intros []|]. destruct (choose y) as [c|]; [|intros []].
    destruct (perform c y) as [[m z]|] eqn:E; [|intros []]. intros [H|H]; [|eauto]. injection H as -> ->. eapply perform_chk; eauto.
  Qed.
  Definition last_of (y : sys) (l : list (move * sys)) : sys := last (map snd l) y.
  Lemma chain_runs l : forall y, chain y l -> runs up down maxr fuel no_init y (map fst l) (last_of y l).
  Proof.
    assert (T : forall m y y1 ms y2, step up down maxr fuel no_init y m y1 -> runs up down maxr fuel no_init y1 ms y2 ->
       runs up down maxr fuel no_init y (m :: ms) y2).
    { intros m y y1 ms y2 S Q. induction Q as [|ms z1 m1 z2 Q IH Sz]; [apply (runs_step _ _ _ _ _ y [] y m y1); [constructor|exact S]|].
      change (m :: ms ++ [m1]) with ((m :: ms) ++ [m1]). eapply runs_step; eauto. }
    induction l as [|[m y'] l IH]; intros y C; [constructor|]. inversion C as [|? ? ? S C']; subst.
    cbn [map fst]. eapply T; [exact S|]. assert (E : last_of y ((m, y') :: l) = last_of y' l).
    { unfold last_of. cbn [map snd]. apply last_cons. }
    rewrite E. apply IH. exact C'.
  Qed.
  Lemma can_b_ok y st : can_move y st -> can_b y st = true.
  Proof.
    intros [_ C]. unfold can_b. destruct (y_w y st) as [t p o r]. cbn in C. destruct p; auto; try contradiction.
    - destruct C as [C1 C2]. apply andb_true_intro. split; [unfold mem; apply existsb_exists; exists t; rewrite Nat.eqb_refl; auto|].
      unfold clear_b. apply forallb_forall. intros s Hs. apply Bool.negb_true_iff. destruct (Nat.eqb_spec (w_task (y_w y s)) t) as [E|]; auto.
      destruct (w_at (y_w y s)) eqn:Ea; auto. cbn [andb]. destruct (holds_b y s) eqn:Hb; auto. exfalso. apply (C2 s Hs E Ea). apply holds_b_true. exact Hb.
    - destruct r; auto.
  Qed.
  (* a run that has come to its end, and nothing happens any more *)
  Lemma chain_fair y l : chain y l -> sv_stop (y_sv (last_of y l)) = true -> existsb (can_b (last_of y l)) (y_team (last_of y l)) = false ->
    fair_run up down maxr fuel no_init (fun n => nth n (y :: map snd l) (last_of y l)) (fun n => nth_error (map fst l) n).
  Proof.
    intros C St Nm. set (z := last_of y l) in *.
    assert (Nc : forall st, ~ can_move z st).
    { intros st M. pose proof (can_b_ok _ _ M). destruct M as [Hst _].
      assert (existsb (can_b z) (y_team z) = true) by (apply existsb_exists; eauto). congruence. }
    assert (E : forall n, (length l <= n)%nat -> nth n (y :: map snd l) z = z).
    { intros n Hn. destruct (Nat.eq_dec n (length l)) as [->|].
      - subst z. unfold last_of. clear. revert y. induction l as [|[m a] l IH]; intros y; [reflexivity|].
        cbn [map snd length]. specialize (IH a). cbn [nth map] in *.
        rewrite last_cons. exact IH.
      - apply nth_overflow. cbn. rewrite map_length. lia. }
    split.
    - assert (G : forall y l w, chain y l -> last (map snd l) y = w -> forall n, match nth_error (map fst l) n with
         | Some m => step up down maxr fuel no_init (nth n (y :: map snd l) w) m (nth (S n) (y :: map snd l) w)
         | None => nth (S n) (y :: map snd l) w = nth n (y :: map snd l) w end).
      { clear. intros y l w C. revert w. induction C as [y|y m y' l S C IH]; intros w Hw n.
        - cbn in Hw. subst w. destruct n; cbn; [reflexivity|]. destruct n; reflexivity.
        - destruct n; [exact S|]. cbn [map fst snd nth_error nth]. apply IH. rewrite <- Hw. cbn [map snd]. symmetry. apply last_cons. }
      intros n. apply G; auto.
    - intros n st _. exists (max n (length l)). split; [lia|]. right. rewrite E by lia. apply Nc.
    - intros n st _ _. exists (max n (length l)). split; [lia|]. right. right. rewrite E by lia. exact St.
    - intros n. exists (max n (length l)). split; [lia|]. right. right. rewrite E by lia. exact St.
    - exists (length l). intros k m Hk. assert (X : nth_error (map fst l) k = None) by (apply nth_error_None; rewrite map_length; lia).
      rewrite X. discriminate.
  Qed.
End Play.

Definition staff (tasks : list task) fuel body crew n : res (dgraph * sched * sys * list (move * sys)) :=
  '(d, s0) <- sched_init tasks ;;
  x <- server_init no_init (map t_id tasks) false s0 ;;
  let y := start_of x crew in
  Ok (d, s0, y, auto_play (dg_up idl idl d) (dg_down idl idl d) (dg_max_retries d) fuel body n y).
Lemma staff_ok tasks fuel body crew n d s0 y l : pipe_ok tasks -> edges_ok tasks -> staff tasks fuel body crew n = Ok (d, s0, y, l) ->
  enough_b d fuel = true -> (forall t, In t crew -> exists x, In x tasks /\ t_id x = t) ->
  staffed tasks idl idl d s0 fuel no_init crew y /\
  l = auto_play (dg_up idl idl d) (dg_down idl idl d) (dg_max_retries d) fuel body n y.
Proof.
  intros PO EO. unfold staff. destruct (sched_init tasks) as [[d' s']|] eqn:E; [|discriminate]. cbn [bind].
  destruct (server_init _ _ _ _) as [x|] eqn:Ei; [|discriminate]. cbn [bind]. intros H En Cr. injection H as <- <- <- <-.
  split; auto. constructor; auto using idl_order.
  - apply (run_dual tasks idl idl d' s' fuel [] s'); auto. constructor; auto using idl_order. constructor.
  - eapply enough_b_ok; eauto.
  - exists x. auto.
Qed.

(* A run as in C53 and C54: three tasks in a row, four workers.  The second worker of the first task
   dies with its first block; the server notices it, another worker does the block, and a
   new one is started.  The second block of the second task raises each time.  *)
Definition is_bad (b : block) : bool := Nat.eqb (b_task b) 2 && (b_num b =? 1).
Definition ex_body (st : nat) (pb : pyblock) : option Client.outcome :=
  if Nat.eqb st 3 then None else if is_bad (pb_block pb) then Some (Client.Raised PROCESSING) else Some (Client.Finished SUCCESS).
Definition ex_crew := [1; 2; 3; 1]%nat.
(* the moves with the states before them *)
Fixpoint befores {A} (y : A) (l : list (move * A)) : list (A * move) :=
  match l with [] => [] | (m, y') :: r => (y, m) :: befores y' r end.
Definition sincere_b (y : sys) (m : move) : bool :=
  match m with
  | Finish st o =>
      match o with
      | Client.Finished SUCCESS | Client.Finished PROCESSING =>
          match w_at (y_w y st) with Working pb => negb (is_bad (pb_block pb)) | _ => true end
      | _ => true
      end
  | _ => true
  end.
Definition bounded_b (maxr : nat -> Z) (h : history) : bool :=
  forallb (fun e => match e with EvRel pb => is_bad (pb_block pb) || (n_failed h (pb_block pb) <=? Z.max (maxr (b_task (pb_block pb))) 0) | _ => true end) h.
Lemma bounded_b_ok maxr h b : bounded_b maxr h = true -> is_bad b <> true -> n_failed h b <= Z.max (maxr (b_task b)) 0.
Proof.
  intros H Nb. destruct (Z_le_gt_dec (n_failed h b) 0) as [L|G]; [lia|].
  assert (X : exists pb, In (EvRel pb) h /\ pb_block pb = b).
  { clear H. unfold n_failed in G. induction h as [|e h IH]; cbn [count] in G; [lia|]. destruct e as [| | |pb];
      try (destruct IH as [pb' [H1 H2]]; [lia|]; exists pb'; split; [right|]; auto; fail).
    unfold is_block in G at 1. destruct (block_dec (pb_block pb) b) as [E|]; [exists pb; split; [left|]; auto|].
    destruct IH as [pb' [H1 H2]]; [cbn in G; lia|]. exists pb'. split; [right|]; auto. }
  destruct X as [pb [Hp E]]. unfold bounded_b in H. rewrite forallb_forall in H. apply H in Hp. cbn beta iota in Hp. rewrite E in Hp.
  apply Bool.orb_prop in Hp. destruct Hp as [Hp|Hp]; [congruence|]. apply Z.leb_le in Hp. exact Hp.
Qed.
Lemma befores_nth (z : sys) l : forall y n m, nth_error (map fst l) n = Some m -> In (nth n (y :: map snd l) z, m) (befores y l).
Proof.
  induction l as [|[m' y'] l IH]; intros y n m H; [destruct n; discriminate|]. destruct n; cbn in *.
  - injection H as ->. left. reflexivity.
  - right. apply IH. exact H.
Qed.
Definition ex_checks (d : dgraph) (y : sys) (l : list (move * sys)) : bool :=
  let z := last_of y l in
  enough_b d 100 && sv_stop (y_sv z) && negb (existsb (can_b z) (y_team z)) &&
  forallb (fun b => Nat.leb (length (dg_up idl idl d b)) 2) (pblocks d) &&
  forallb (fun b => Nat.eqb (b_task b) 1 || match dg_up idl idl d b with [] => false | _ => true end) (pblocks d) &&
  forallb (fun '(y, m) => sincere_b y m) (befores y l) &&
  forallb (fun y => bounded_b (dg_max_retries d) (hist (sv_tr (y_sv y)))) (y :: map snd l) &&
  existsb (fun m => match m with Die 3%nat _ => true | _ => false end) (map fst l) &&
  existsb (fun m => match m with Replace 3%nat 4%nat => true | _ => false end) (map fst l) &&
  existsb (fun a => match a with ALost _ 3%nat => true | _ => false end) (sv_tr (y_sv z)) &&
  some_block (fun b => is_bad b && perm_b d (hist (sv_tr (y_sv z))) b) d.
Lemma ex_row_first : upstream_first ex_row.
Proof.
  intros l1 t l2 u E Hu. unfold ex_row in E.
  destruct l1 as [|a l1]; [injection E as <- _; destruct Hu|]. injection E as <- E.
  destruct l1 as [|b l1]; [injection E as <- _; destruct Hu as [<-|[]]; left; reflexivity|]. injection E as <- E.
  destruct l1 as [|c l1]; [injection E as <- _; destruct Hu as [<-|[]]; right; left; reflexivity|]. injection E as _ E.
  destruct l1; discriminate.
Qed.
Example system_example : exists d s0 fuel r mv n k pb b,
  let bad := fun b => is_bad b = true in
  staffed ex_row idl idl d s0 fuel no_init ex_crew (r O) /\ no_lonely ex_row idl idl d /\ in_order ex_row /\
  each_manned ex_row ex_crew /\ few_upstream ex_row idl idl d /\
  fair_run (dg_up idl idl d) (dg_down idl idl d) (dg_max_retries d) fuel no_init r mv /\
  (forall n m, mv n = Some m -> sincere bad (r n) m) /\
  (forall n b, ~ bad b -> n_failed (hist (sv_tr (y_sv (r n)))) b <= Z.max (dg_max_retries d (b_task b)) 0) /\
  (forall b, bad b \/ ~ bad b) /\
  mv k = Some (Die 3 0) /\ sv_stop (y_sv (r n)) = true /\ In 4%nat (y_team (r n)) /\ In (ALost pb 3) (sv_tr (y_sv (r n))) /\
  pipe_block ex_row b /\ bad b /\ perm_failed (dg_max_retries d) (hist (sv_tr (y_sv (r n)))) b.
Proof.
  assert (Q : match staff ex_row 100 ex_body ex_crew 300 with
              | Ok (d, s0, y, l) => ex_checks d y l && (existsb (fun m => match m with Die 3%nat 0%nat => true | _ => false end) (map fst l)) &&
                  existsb (Nat.eqb 4) (y_team (last_of y l))
              | Err _ => false end = true) by (vm_compute; reflexivity).
  destruct (staff ex_row 100 ex_body ex_crew 300) as [[[[d s0] y] l]|] eqn:E; [|discriminate].
  apply andb_prop in Q. destruct Q as [Q Q13]. apply andb_prop in Q. destruct Q as [Q Q12]. unfold ex_checks in Q.
  apply andb_prop in Q. destruct Q as [Q Q11]. apply andb_prop in Q. destruct Q as [Q Q10]. apply andb_prop in Q. destruct Q as [Q Q9].
  apply andb_prop in Q. destruct Q as [Q Q8]. apply andb_prop in Q. destruct Q as [Q Q7]. apply andb_prop in Q. destruct Q as [Q Q6].
  apply andb_prop in Q. destruct Q as [Q Q5]. apply andb_prop in Q. destruct Q as [Q Q4]. apply andb_prop in Q. destruct Q as [Q Q3].
  apply andb_prop in Q. destruct Q as [Q1 Q2]. apply Bool.negb_true_iff in Q3.
  destruct (staff_ok _ _ _ _ _ _ _ _ _ ex_row_ok ex_row_edges E Q1) as [SF El].
  { intros t Ht. assert (X : In t (map t_id ex_row)) by (cbn in Ht |- *; tauto).
    apply in_map_iff in X. destruct X as [x [X1 X2]]. exists x. auto. }
  assert (C : chain (dg_up idl idl d) (dg_down idl idl d) (dg_max_retries d) 100 y l) by (rewrite El; apply auto_chain).
  pose proof (chain_fair _ _ _ _ _ _ C Q2 Q3) as FA.
  assert (Ez : nth (length l) (y :: map snd l) (last_of y l) = last_of y l).
  { unfold last_of. clear. revert y. induction l as [|[m a] l IH]; intros y; [reflexivity|]. cbn [map snd length nth]. rewrite last_cons. apply IH. }
  apply existsb_exists in Q12. destruct Q12 as [m [Hm Q12]]. apply In_nth_error in Hm. destruct Hm as [k Hm].
  apply existsb_exists in Q10. destruct Q10 as [a [Ha Q10]]. destruct a as [| | | | | | | | |pb [|[|[|[|?]]]]]; try discriminate Q10.
  apply existsb_exists in Q11. destruct Q11 as [b [Hb Q11]]. apply andb_prop in Q11. destruct Q11 as [Bb Pb]. rewrite perm_b_true in Pb.
  exists d, s0, 100%nat, (fun n => nth n (y :: map snd l) (last_of y l)), (fun n => nth_error (map fst l) n), (length l), k, pb, b.
  cbv zeta. rewrite Ez.
  pose proof (f_in _ _ _ _ _ _ _ _ _ SF) as FI.
  split; [exact SF|]. split; [|split; [exact (first_in_order _ ex_row_first)|split; [|split; [|split; [exact FA|split; [|split; [|split]]]]]]].
  - intros t g c Ht Nt Et Gc Z. rewrite forallb_forall in Q5.
    assert (Hc : In c (pblocks d)) by (apply FI; exists t, g; auto).
    apply Q5 in Hc. rewrite Z in Hc. rewrite Bool.orb_false_r in Hc. apply Nat.eqb_eq in Hc.
    rewrite (gen_id ex_row ex_row_ok t g c Ht Et Gc) in Hc. clear - Hc Ht Nt. unfold ex_row, ex_r in Ht. pipe_tac; cbn in Hc, Nt; try discriminate Hc; apply Nt; reflexivity.
  - intros x Hx. unfold ex_row, ex_r in Hx. cbn in Hx. unfold ex_crew. destruct Hx as [<-|[<-|[<-|[]]]]; cbn; auto.
  - intros c Hc. apply FI in Hc. rewrite forallb_forall in Q4. apply Q4 in Hc. apply Nat.leb_le in Hc. exact Hc.
  - intros n m' H. pose proof (befores_nth (last_of y l) l y n m' H) as Hi. rewrite forallb_forall in Q6. apply Q6 in Hi. cbn beta iota in Hi.
    destruct m' as [| | |st o| | | |i]; try exact I.
    + intros W pb' Ew. unfold sincere_b in Hi. rewrite Ew in Hi. destruct o as [[]| |]; try contradiction; apply Bool.negb_true_iff in Hi; congruence.
    + intros j c Hj. assert (X : i_chk i = no_check).
      { apply nth_error_In in H. apply in_map_iff in H. destruct H as [[m0 y0] [E0 H]]. cbn in E0. subst m0. rewrite El in H. eapply auto_chk; eauto. }
      rewrite X in Hj. discriminate.
  - intros n c Nc. apply bounded_b_ok; auto. rewrite forallb_forall in Q7. apply (Q7 (nth n (y :: map snd l) (last_of y l))).
    destruct (Nat.lt_ge_cases n (length (y :: map snd l))) as [L|L]; [apply nth_In; exact L|].
    rewrite nth_overflow by exact L. rewrite <- Ez. apply nth_In. cbn. rewrite map_length. lia.
  - intros c. destruct (is_bad c); [left|right]; congruence.
  - split; [|split; [exact Q2|split; [|split; [exact Ha|split; [|split; [exact Bb|exact Pb]]]]]].
    + rewrite Hm. destruct m as [| | | |[|[|[|[|?]]]] [|?]| | |]; try discriminate Q12. reflexivity.
    + apply existsb_exists in Q13. destruct Q13 as [x [Hx Ex]]. apply Nat.eqb_eq in Ex. subst x. exact Hx.
    + apply FI. exact Hb.
Qed.
Print Assumptions system_example.
(* C53_two_levels: a task and one it requires, in the order in which run_blockwise puts them *)
Lemma two_levels_example : pipe_ok [ex_d] /\ (forall t u, In t [ex_d] -> In u (t_ups t) -> t_ups u = []) /\
  Conv.collect_tasks 9 [ex_d] = Ok [ex_d; ex_u] /\ in_order [ex_d; ex_u] /\ ~ upstream_first [ex_d; ex_u].
Proof.
  assert (T : forall t u, In t [ex_d] -> In u (t_ups t) -> t_ups u = []).
  { intros t u [<-|[]] [<-|[]]. reflexivity. }
  assert (C : Conv.collect_tasks 9 [ex_d] = Ok [ex_d; ex_u]) by reflexivity.
  split; [exact ex_d_ok|]. split; [exact T|]. split; [exact C|]. split; [exact (C53_two_levels _ _ _ ex_d_ok T C)|].
  intros H. destruct (H [] _ _ _ eq_refl (or_introl eq_refl)).
Qed.
Print Assumptions two_levels_example.
