(* More about the server: the scheduler's list of tasks, completion notes, idle iterations. *)
From Coq Require Import Lia Permutation.
From Verif Require Import VecFacts SchedProps SerialFacts Server ServerFacts ServerSteps.
Open Scope Z_scope.

Lemma update_order l : forall s, s_order (update_ready_queue s l) = s_order s.
Proof. unfold update_ready_queue. induction l as [|b l IH]; intros s; cbn [fold_left]; auto. rewrite IH. reflexivity. Qed.
Lemma release_order up down maxr fuel pick s pb s' : release_block up down maxr fuel pick s pb = Ok s' -> s_order s' = s_order s.
Proof.
  unfold release_block. destruct (remove_from_processing s (pb_block pb)) as [s1|] eqn:E; [|discriminate]. cbn [bind].
  assert (E1 : s_order s1 = s_order s).
  { unfold remove_from_processing in E. destruct (sremove _ _ _); [|discriminate]. cbn [bind] in E. injection E as <-. reflexivity. }
  destruct (pb_status pb); try discriminate.
  - destruct (mark_success _ _ _ _ _) as [[sf news]|]; [|discriminate]. cbn [bind]. intros H. injection H as <-.
    rewrite update_order. exact E1.
  - destruct (_ <=? _).
    + destruct (mark_failure _ _ _ _ _ _ _) as [[sf orph]|]; [|discriminate]. cbn [bind]. intros H. injection H as <-.
      set (s2 := upd_st _ _ _). assert (E2 : s_order s2 = s_order s) by exact E1. clearbody s2. clear -E2.
      revert s2 E2. induction orph as [|o l IH]; intros s2 E2; cbn [fold_left]; auto.
    + intros H. injection H as <-. exact E1.
Qed.
Lemma acquire_order up down maxr fuel0 chk fuel t : forall s s' r sk,
  acquire_loop up down maxr fuel0 chk fuel s t = Ok (s', r, sk) -> s_order s' = s_order s.
Proof.
  induction fuel as [|f IH]; intros s s' r sk; cbn [acquire_loop]; [discriminate|].
  destruct (get_next (s_q s t)) as [[q nb]|]; [|discriminate]. cbn [bind]. destruct nb as [pb|].
  - destruct (precheck _).
    + destruct (release_block _ _ _ _ _ _ _) as [s4|] eqn:E; [|discriminate]. cbn [bind].
      destruct (acquire_loop _ _ _ _ _ _ _ _) as [[[s5 r5] sk5]|] eqn:E5; [|discriminate]. cbn [bind]. intros H. injection H as <- _ _.
      rewrite (IH _ _ _ _ E5), (release_order _ _ _ _ _ _ _ _ E). reflexivity.
    + intros H. injection H as <- _ _. reflexivity.
  - intros H. injection H as <- _ _. reflexivity.
Qed.

(* the server stops only after it has told that each task is done *)
Section Noted.
  Variables (up down : block -> list block) (maxr : nat -> Z) (fuel : nat) (init : nat -> res unit).
  Variables (gr : server -> pyblock -> Prop) (ga : server -> nat -> Prop).
  Variable ts0 : list nat.
  Definition noted (x : server) : Prop :=
    (forall t, In t ts0 -> In t (s_order (sv_s x))) /\
    (sv_stop x = true -> forall t, In t ts0 -> In t (sv_finished x)) /\
    (forall t ts, In (ANote (NDone t ts)) (sv_tr x) -> ts_is_done ts = true).
  Lemma noted_more x y l : noted x -> sv_tr y = l ++ sv_tr x -> sv_finished y = sv_finished x -> sv_stop y = sv_stop x ->
    (forall t, In t (s_order (sv_s x)) -> In t (s_order (sv_s y))) ->
    (forall t ts, ~ In (ANote (NDone t ts)) l) -> noted y.
  Proof.
    intros [N1 [N2 N3]] E1 E2 E3 H1 H2. split; [auto|]. split; [rewrite E3, E2; auto|].
    intros t ts. rewrite E1. intros H. apply in_app_or in H. destruct H as [H|H]; [destruct (H2 _ _ H)|eauto].
  Qed.
  Lemma calls_notes t ts u r sk : ~ In (ANote (NDone t ts)) (calls u r sk).
  Proof. unfold calls. intros H. apply in_map_iff in H. destruct H as [e [E _]]. discriminate. Qed.
  Lemma touch_more s t u : In u (s_order s) -> In u (s_order (touch s t)).
  Proof. intros H. unfold touch. cbn [s_order]. apply in_sadd_nat. auto. Qed.
  Lemma step_noted x y : ustep up down maxr fuel init gr ga x y -> noted x -> noted y.
  Proof.
    intros U N.
    assert (TA : forall chk t s1 r sk, acquire_block up down maxr fuel chk (touch (sv_s x) t) t = Ok (s1, r, sk) ->
      forall u, In u (s_order (sv_s x)) -> In u (s_order s1)).
    { intros chk t s1 r sk E u H. rewrite (acquire_order _ _ _ _ _ _ _ _ _ _ _ E). apply touch_more; auto. }
    destruct U as [st m|t st p P|chk now t st s1 pb sk b A G E Nb|chk t st s1 sk A G E Er Ep|chk t st s1 sk p A G E Er Ep P|pick pb s1 G E|pb w| |y E|b S|l L].
    - eapply (noted_more _ _ [ARecv st m]); eauto; try reflexivity. intros t ts [H|[]]; discriminate.
    - eapply (noted_more _ _ [ARetry t st]); eauto; try reflexivity. intros u ts [H|[]]; discriminate.
    - eapply (noted_more _ _ ([ANote (NAcquire t (s_st s1 t)); ASend st pb] ++ calls t (Some pb) sk)); eauto; try reflexivity.
      intros u ts [H|[H|H]]; try discriminate. eapply calls_notes; eauto.
    - eapply (noted_more _ _ (AShutdown t st :: calls t None sk)); eauto; try reflexivity.
      intros u ts [H|H]; try discriminate. eapply calls_notes; eauto.
    - eapply (noted_more _ _ (ADelay t st :: calls t None sk)); eauto; try reflexivity.
      intros u ts [H|H]; try discriminate. eapply calls_notes; eauto.
    - eapply (noted_more _ _ [_; ACall (EvRel pb)]); [exact N|reflexivity|reflexivity|reflexivity| |].
      + cbn [add_tr set_s sv_s]. rewrite (release_order _ _ _ _ _ _ _ _ E). auto.
      + intros u ts [H|[H|[]]]; discriminate.
    - eapply (noted_more _ _ [_]); [exact N|reflexivity|reflexivity|reflexivity|auto|].
      intros u ts [H|[]]; discriminate.
    - destruct N as [N1 [N2 N3]]. destruct (check_all_spec x) as [[B1 _ _ _] [_ [Es [Ef [l [El Fl]]]]]].
      split; [rewrite B1; auto|]. split.
      + rewrite Es. intros H t Ht. apply Ef. apply Bool.orb_prop in H. destruct H as [H|H]; [left; auto|].
        right. unfold all_done in H. rewrite forallb_forall in H. auto.
      + intros t ts. rewrite El. intros H. apply in_app_or in H. destruct H as [H|H]; [|eauto].
        rewrite Forall_forall in Fl. destruct (Fl _ H) as [t' [E' [_ [D _]]]]. injection E' as -> ->. exact D.
    - destruct (recruit_spec init _ _ E) as [[B1 _ _ _] [E2 [E3 [_ [l [El Fl]]]]]].
      eapply (noted_more _ _ (ARecruit (get_ready_tasks (sv_s x)) :: l)); [exact N|exact El|exact E2|exact E3|rewrite B1; auto|].
      intros t ts [H|H]; [discriminate|]. rewrite Forall_forall in Fl. destruct (Fl _ H) as [t' [[E'|E'] _]]; discriminate.
    - eapply (noted_more _ _ []); [exact N|reflexivity|reflexivity|reflexivity|auto|]. intros t ts [].
    - eapply (noted_more _ _ l); [exact N|reflexivity|reflexivity|reflexivity|auto|].
      intros t ts H. rewrite Forall_forall in L. destruct (L _ H).
  Qed.
  Lemma steps_noted x y : steps up down maxr fuel init gr ga x y -> noted x -> noted y.
  Proof. intros S. induction S; auto. intros N. eapply step_noted; eauto. Qed.
End Noted.
Lemma idle_noted tasks s0 : noted (s_order s0) (idle_server tasks false s0).
Proof. split; [cbn; auto|]. split; [cbn; discriminate|]. intros t ts []. Qed.

(* an iteration in which no message arrives and no stream is closed *)
Record idle (i : input) : Prop := {
  id_get : i_get i = GotNothing;
  id_closed : forall st, i_closed i st = false;
  id_health : i_health i = Ok tt;
  id_chk : forall k b, i_chk i k b <> CheckTrue
}.
Definition empty (p : list (nat * list nat)) : Prop := forall t q, In (t, q) p -> q = [].
Lemma pfirst_at p1 t st q p2 : empty p1 -> pfirst (p1 ++ (t, st :: q) :: p2) = Some (t, st, p1 ++ (t, q) :: p2).
Proof.
  intros E. induction p1 as [|[u r] p1 IH]; cbn; auto. rewrite (E u r (or_introl eq_refl)).
  rewrite IH by (intros t' q' H; apply (E t'); right; auto). reflexivity.
Qed.

Section Idle.
  Variables (V : list block) (up down : block -> list block) (seeds : nat -> list block).
  Variable maxr : nat -> Z.
  Variable fuel : nat.
  Hypothesis GG : good_graph V up down seeds.
  Hypothesis EN : enough V fuel.
  Variable s0 : sched.
  Hypothesis FR : fresh V seeds s0.
  Variable tasks : list nat.
  Hypothesis known : forall t, In t tasks -> In t (s_order s0).
  Variable init : nat -> res unit.
  Hypothesis init_ok : forall t, init t = Ok tt.
  Local Notation SInv := (SInv up down maxr fuel s0 tasks).

  Lemma acquire_ready chk h s t : reach up down maxr fuel s0 h s -> (forall k b, chk k b <> CheckTrue) -> readyl s t <> [] ->
    exists s1 pb, acquire_block up down maxr fuel chk s t = Ok (s1, Some pb, []).
  Proof.
    intros R C N. pose proof (reach_HInv V up down seeds maxr fuel GG EN s0 FR h s R) as HI.
    unfold acquire_block. unfold enough in EN. destruct fuel as [|f]; [lia|]. cbn [acquire_loop].
    destruct (next_spec V up down seeds maxr _ _ _ s t (hi_inv _ _ _ _ _ _ _ _ HI)) as [[E _]|[q [pb [E _]]]]; [congruence|].
    rewrite E. cbn [bind]. specialize (C f (pb_block pb)). unfold precheck. destruct (chk f (pb_block pb)); [congruence| |]; eauto.
  Qed.

  (* after the message was handled, nothing else happens in an idle iteration *)
  Lemma idle_rest i x y : idle i -> SInv [] y -> handle_messages up down maxr fuel init i x = Ok y ->
    exists z, iteration up down maxr fuel init i x = Ok z /\ SInv [] z /\ besides y z /\ (z = y \/ z = check_all y).
  Proof.
    intros D I E. unfold iteration. rewrite E. cbn [bind].
    assert (L : check_lost up down maxr fuel init i y = Ok y).
    { assert (NC : forall b : book, filter (fun e => i_closed i (lg_stream (snd e))) b = []).
      { induction b as [|e b IH]; auto. cbn. rewrite (id_closed i D). auto. }
      assert (NF : forall b : book, filter (fun e => negb (i_closed i (lg_stream (snd e)))) b = b).
      { induction b as [|e b IH]; auto. cbn. rewrite (id_closed i D). cbn. f_equal. auto. }
      assert (NM : forall b : book, flat_map (fun e => if i_closed i (lg_stream (snd e)) then [ALost (lg_block (snd e)) (lg_stream (snd e))] else []) b = []).
      { induction b as [|e b IH]; auto. cbn. rewrite (id_closed i D). auto. }
      unfold check_lost. rewrite lost_none by (eapply (sinv_keys V); eauto). cbn [bind].
      rewrite NC, NF, NM. cbn [map foldM rev]. destruct y; reflexivity. }
    rewrite L. cbn [bind]. rewrite (id_health i D). cbn [bind].
    destruct (i_tick i).
    - exists (check_all y). destruct (check_all_spec y) as [B _]. split; auto. split; [eapply sinv_besides; eauto|]. auto.
    - exists y. split; auto. split; auto. split; auto. apply besides_refl.
  Qed.
  Lemma idle_step i x p1 t st q p2 : SInv [] x -> idle i -> sv_pend x = p1 ++ (t, st :: q) :: p2 -> empty p1 ->
    readyl (sv_s x) t <> [] ->
    exists y pb l, iteration up down maxr fuel init i x = Ok y /\ SInv [] y /\ sv_pend y = p1 ++ (t, q) :: p2 /\
      hist (sv_tr y) = EvHand t pb :: hist (sv_tr x) /\ sv_tr y = l ++ sv_tr x /\ In (ASend st pb) l.
  Proof.
    intros I D P Em NR.
    assert (Ht : In t tasks).
    { apply in_dedup_nat. rewrite <- (si_pend _ _ _ _ _ _ _ _ I), P, map_app. apply in_or_app. right. left. reflexivity. }
    set (x1 := add_tr (set_pend x (p1 ++ (t, q) :: p2)) [ARetry t st]).
    assert (I1 : SInv [] x1).
    { apply sinv_plain; [|repeat constructor]. apply sinv_set_pend; auto. rewrite P, !map_app. reflexivity. }
    destruct (handle_acquire_ok V up down seeds maxr fuel GG EN s0 FR tasks known init init_ok i t st x1 I1 Ht)
      as [y [s1 [r [sk [Ea [Eh [Iy [Sy Hr]]]]]]]].
    change (sv_s x1) with (sv_s x) in Ea.
    destruct (acquire_ready (i_chk i) _ _ t (si_reach _ _ _ _ _ _ _ _ I) (id_chk i D) NR) as [s1' [pb Ea']].
    rewrite Ea in Ea'. injection Ea' as <- -> ->. destruct Hr as [_ [_ [Py Ty]]].
    assert (EM : handle_messages up down maxr fuel init i x = Ok (check_all y)).
    { unfold handle_messages. rewrite (id_get i D), P, pfirst_at by auto. unfold handle_message. fold x1. rewrite Eh. reflexivity. }
    destruct (check_all_spec y) as [B _].
    destruct (idle_rest i x (check_all y) D (sinv_besides _ _ _ _ _ _ _ _ _ Iy B) EM) as [z [Ez [Iz [Bz _]]]].
    pose proof (besides_trans _ _ _ B Bz) as [_ _ B3 [l [B4 B5]]]. pose proof (besides_hist _ _ (besides_trans _ _ _ B Bz)) as EH.
    exists z, pb, (l ++ [ANote (NAcquire t (s_st s1 t)); ASend st pb] ++ map ACall (ServerFacts.calls t (Some pb) []) ++ [ARetry t st]).
    split; [exact Ez|]. split; [exact Iz|]. split; [rewrite B3, Py; reflexivity|]. split.
    - rewrite EH, Ty. reflexivity.
    - split.
      + rewrite B4, Ty. unfold x1. cbn [add_tr set_pend sv_tr]. rewrite <- !app_assoc. reflexivity.
      + apply in_or_app. right. right. left. reflexivity.
  Qed.

  (* b could be handed out *)
  Definition could_run (h : history) (t : nat) (b : block) : Prop :=
    In b V /\ b_task b = t /\ (forall a, In a (up b) -> succeeded h a) /\ ~ held h b /\ ~ succeeded h b /\ ~ perm_failed maxr h b.
  Hypothesis AR : all_roots V up seeds.

  Lemma idle_many q1 : forall ins x p1 t st q2 p2 rs, SInv [] x -> Forall idle ins -> length ins = S (length q1) ->
    sv_pend x = p1 ++ (t, q1 ++ st :: q2) :: p2 -> empty p1 ->
    NoDup rs -> (length q1 < length rs)%nat -> (forall b, In b rs -> could_run (hist (sv_tr x)) t b) ->
    exists y l, event_loop up down maxr fuel init ins x = Ok y /\ sv_tr y = l ++ sv_tr x /\
      (sv_stop y = true \/ exists pb, In (ASend st pb) l).
  Proof.
    induction q1 as [|a q1 IH]; intros ins x p1 t st q2 p2 rs I F Ln P Em Nd Lr C; destruct ins as [|i ins]; try discriminate;
      cbn [event_loop]; (destruct (sv_stop x) eqn:Sx; [exists x, []; auto|]); inversion F; subst; cbn [length app] in *;
      (assert (NR : readyl (sv_s x) t <> [] /\ exists r rs', rs = r :: rs');
       [destruct rs as [|r rs']; [cbn in Lr; lia|]; split; [|eauto]; intros E;
        assert (Hr : In r (readyl (sv_s x) t)) by
          (apply (ready_iff V up down seeds maxr fuel GG EN s0 FR _ _ (si_reach _ _ _ _ _ _ _ _ I) AR); apply (C r); left; auto);
        rewrite E in Hr; destruct Hr|]); destruct NR as [NR _].
    - destruct (idle_step i x p1 t st q2 p2 I) as [y [pb [l [Ey [Iy [Py [Hy [Ty Hl]]]]]]]]; auto.
      rewrite Ey. cbn [bind]. destruct ins as [|? ?]; [|discriminate]. cbn [event_loop].
      exists y, l. split; [destruct (sv_stop y); reflexivity|]. split; eauto.
    - destruct (idle_step i x p1 t a (q1 ++ st :: q2) p2 I) as [y [pb [l [Ey [Iy [Py [Hy [Ty Hl]]]]]]]]; auto.
      rewrite Ey. cbn [bind]. injection Ln as Ln.
      pose (rs1 := filter (fun b => negb (is_block b (pb_block pb))) rs).
      assert (Lr1 : (length q1 < length rs1)%nat).
      { assert (Le : (length rs <= S (length rs1))%nat); [|lia]. unfold rs1. clear -Nd.
        induction Nd as [|b rs Nb Nd IH]; cbn; [lia|]. destruct (is_block b (pb_block pb)) eqn:E; cbn; [|lia].
        apply is_block_eq in E. subst b.
        replace (filter (fun b => negb (is_block b (pb_block pb))) rs) with rs; [lia|]. clear IH.
        induction rs as [|c rs IHr]; auto. cbn. destruct (is_block c (pb_block pb)) eqn:Ec; cbn.
        - apply is_block_eq in Ec. exfalso. apply Nb. left; auto.
        - f_equal. apply IHr; [intros H; apply Nb; right; auto|]. inversion Nd; auto. }
      destruct (IH ins y p1 t st q2 p2 rs1 Iy) as [z [l' [Ez [Tz Hz]]]]; auto.
      + unfold rs1. apply NoDup_filter. exact Nd.
      + intros b Hb. unfold rs1 in Hb. apply filter_In in Hb. destruct Hb as [Hb Hn].
        destruct (C b Hb) as [C1 [C2 [C3 [C4 [C5 C6]]]]]. rewrite Hy.
        assert (Sc : forall c, succeeded (EvHand t pb :: hist (sv_tr x)) c <-> succeeded (hist (sv_tr x)) c).
        { intros c. unfold succeeded. cbn. intuition discriminate. }
        split; auto. split; auto. split; [intros c Hc; apply Sc; auto|]. split; [|split; [rewrite Sc; auto|exact C6]].
        rewrite held_hand by (eapply (counts_ok V); eauto). intros [H|H]; [auto|]. subst b.
        rewrite is_block_same in Hn. discriminate.
      + exists z, (l' ++ l). split; auto. split; [rewrite Tz, Ty, app_assoc; reflexivity|].
        destruct Hz as [Hz|[pb' Hz]]; auto. right. exists pb'. apply in_or_app. auto.
  Qed.
  (* The first queue that is not empty belongs to a task with nothing ready: its oldest request is
     put at the end of the queue again and nothing else happens. *)
  Definition no_answer (a : act) : Prop := match a with ASend _ _ | AShutdown _ _ => False | _ => True end.
  Lemma check_stop x : sv_stop x = false -> all_done (sv_s x) = false -> sv_stop (check_all x) = false.
  Proof. intros H A. destruct (check_all_spec x) as [_ [_ [E _]]]. rewrite E, H, A. reflexivity. Qed.
  Lemma aside_no_answer l : Forall aside l -> Forall no_answer l.
  Proof. apply Forall_impl. intros a. destruct a; cbn; tauto. Qed.
  Lemma pput_at p1 t st q p2 : ~ In t (map fst p1) -> pput t st (p1 ++ (t, q) :: p2) = Ok (p1 ++ (t, q ++ [st]) :: p2).
  Proof.
    induction p1 as [|[u r] p1 IH]; cbn.
    - rewrite Nat.eqb_refl. reflexivity.
    - intros N. destruct (Nat.eqb_spec t u) as [->|Nu]; [exfalso; auto|]. rewrite IH by tauto. reflexivity.
  Qed.
  Lemma nodup_dedup_nat l : NoDup (dedup Nat.eqb l).
  Proof. apply (NoDup_dedup _ (fun _ : nat => True)); auto. intros a b _ _. apply Nat.eqb_eq. Qed.
  Lemma idle_none i x p1 t st q p2 : SInv [] x -> idle i -> sv_pend x = p1 ++ (t, st :: q) :: p2 -> empty p1 ->
    readyl (sv_s x) t = [] -> ts_pending (s_st (sv_s x) t) <> 0 -> sv_stop x = false -> all_done (sv_s x) = false ->
    exists y l, iteration up down maxr fuel init i x = Ok y /\ SInv [] y /\ sv_s y = sv_s x /\ sv_book y = sv_book x /\
      sv_pend y = p1 ++ (t, q ++ [st]) :: p2 /\ sv_stop y = false /\ hist (sv_tr y) = EvNone t :: hist (sv_tr x) /\
      sv_tr y = l ++ sv_tr x /\ Forall no_answer l.
  Proof.
    intros I D P Em NR NP Sx AD.
    assert (Ht : In t tasks).
    { apply in_dedup_nat. rewrite <- (si_pend _ _ _ _ _ _ _ _ I), P, map_app. apply in_or_app. right. left. reflexivity. }
    assert (Np : ~ In t (map fst p1)).
    { pose proof (si_pend _ _ _ _ _ _ _ _ I) as K. pose proof (nodup_dedup_nat tasks) as N. rewrite <- K, P, map_app in N.
      cbn [map fst] in N. apply NoDup_remove_2 in N. intros H. apply N. apply in_or_app. auto. }
    set (x1 := add_tr (set_pend x (p1 ++ (t, q) :: p2)) [ARetry t st]).
    assert (I1 : SInv [] x1).
    { apply sinv_plain; [|repeat constructor]. apply sinv_set_pend; auto. rewrite P, !map_app. reflexivity. }
    destruct (handle_acquire_ok V up down seeds maxr fuel GG EN s0 FR tasks known init init_ok i t st x1 I1 Ht)
      as [y [s1 [r [sk [Ea [Eh [Iy [Sy Hr]]]]]]]].
    change (sv_s x1) with (sv_s x) in Ea.
    assert (Ea' : acquire_block up down maxr fuel (i_chk i) (sv_s x) t = Ok (sv_s x, None, [])).
    { pose proof (sinv_hinv V up down seeds maxr fuel GG EN s0 FR tasks _ _ I) as HI.
      pose proof EN as EN'. unfold acquire_block, enough in *. destruct (next_spec V up down seeds maxr _ _ _ (sv_s x) t (hi_inv _ _ _ _ _ _ _ _ HI))
        as [[_ E]|[q' [pb [_ [E _]]]]]; [|congruence].
      destruct fuel as [|f]; [lia|]. cbn [acquire_loop]. rewrite E. reflexivity. }
    rewrite Ea in Ea'. injection Ea' as -> -> ->. destruct Hr as [By [_ [[Z _]|[_ [Py Ty]]]]]; [congruence|].
    change (sv_pend x1) with (p1 ++ (t, q) :: p2) in Py. rewrite pput_at in Py by auto. injection Py as Py.
    assert (Sy0 : sv_stop y = false).
    { unfold handle_acquire in Eh. rewrite (touch_known V up down seeds maxr fuel GG EN s0 FR tasks known x1 t I1 Ht) in Eh.
      change (sv_s x1) with (sv_s x) in Eh. rewrite Ea in Eh. cbn [bind] in Eh.
      destruct (negb _); [discriminate|]. destruct (_ =? 0) eqn:Z0; [apply Z.eqb_eq in Z0; congruence|].
      destruct (pput _ _ _) as [p|]; [|discriminate]. cbn [bind] in Eh. injection Eh as <-. exact Sx. }
    assert (EM : handle_messages up down maxr fuel init i x = Ok (check_all y)).
    { unfold handle_messages. rewrite (id_get i D), P, pfirst_at by auto. unfold handle_message. fold x1. rewrite Eh. reflexivity. }
    destruct (check_all_spec y) as [B _].
    assert (S1 : sv_stop (check_all y) = false) by (apply check_stop; auto; rewrite Sy; auto).
    destruct (idle_rest i x (check_all y) D (sinv_besides _ _ _ _ _ _ _ _ _ Iy B) EM) as [z [Ez [Iz [Bz Wz]]]].
    assert (S2 : sv_stop z = false).
    { destruct Wz as [->| ->]; auto. apply check_stop; auto. destruct B as [B1 _ _ _]. rewrite B1, Sy. auto. }
    pose proof (besides_hist _ _ (besides_trans _ _ _ B Bz)) as EH.
    pose proof (besides_trans _ _ _ B Bz) as [B1 B2 B3 [l [B4 B5]]].
    exists z, (l ++ ADelay t st :: map ACall (ServerFacts.calls t None []) ++ [ARetry t st]).
    split; [exact Ez|]. split; [exact Iz|]. split; [rewrite B1, Sy; reflexivity|]. split; [rewrite B2, By; reflexivity|].
    split; [rewrite B3, <- Py; reflexivity|]. split; [exact S2|]. split; [rewrite EH, Ty; reflexivity|]. split.
    - rewrite B4, Ty. unfold x1. cbn [add_tr set_pend sv_tr]. rewrite <- !app_assoc. reflexivity.
    - apply Forall_app. split; [apply aside_no_answer; exact B5|]. repeat constructor.
  Qed.
  Lemma idle_forever ins : forall x p1 t q p2, SInv [] x -> Forall idle ins -> sv_pend x = p1 ++ (t, q) :: p2 -> empty p1 -> q <> [] ->
    readyl (sv_s x) t = [] -> ts_pending (s_st (sv_s x) t) <> 0 -> sv_stop x = false -> all_done (sv_s x) = false ->
    exists y l, event_loop up down maxr fuel init ins x = Ok y /\ sv_s y = sv_s x /\ sv_book y = sv_book x /\ sv_stop y = false /\
      (exists q', sv_pend y = p1 ++ (t, q') :: p2 /\ Permutation q q') /\
      sv_tr y = l ++ sv_tr x /\ Forall no_answer l.
  Proof.
    induction ins as [|i ins IH]; intros x p1 t q p2 I F P Em Nq NR NP Sx AD; cbn [event_loop]; rewrite Sx.
    - exists x, []. repeat (split; auto). exists q. split; auto.
    - inversion F; subst. destruct q as [|st q]; [congruence|].
      destruct (idle_none i x p1 t st q p2 I) as [y [l [Ey [Iy [Sy [By [Py [Ky [_ [Ty Fy]]]]]]]]]]; auto.
      rewrite Ey. cbn [bind].
      destruct (IH y p1 t (q ++ [st]) p2 Iy) as [z [l' [Ez [Sz [Bz [Kz [[q' [Pz Qz]] [Tz Fz]]]]]]]]; auto; rewrite ?Sy; auto.
      { destruct q; discriminate. }
      exists z, (l' ++ l). split; auto. split; [congruence|]. split; [congruence|]. split; auto. split.
      { exists q'. split; auto. eapply perm_trans; [|exact Qz]. apply Permutation_cons_append. }
      split; [rewrite Tz, Ty, app_assoc; reflexivity|]. apply Forall_app. auto.
  Qed.
End Idle.
