(* Nothing is forgotten: a task with something to do has been started, or waits for one before
   it; a task with something left has a worker; so the system never stands still. *)
From Coq Require Import Arith Lia Permutation.
From Verif Require Import VecFacts SchedProps SerialFacts P_Conv ServerFacts ServerSteps.
From Verif Require Export SysMeasure.
From Verif Require Client.
Open Scope Z_scope.

(* the place of a task among those given to the server *)
Fixpoint pos (l : list nat) (t : nat) : nat :=
  match l with [] => 0%nat | u :: r => if Nat.eqb u t then 0%nat else S (pos r t) end.
Lemma pos_inj l t u : In t l -> In u l -> pos l t = pos l u -> t = u.
Proof.
  induction l as [|a l IH]; [intros []|]. cbn. intros Ht Hu.
  destruct (Nat.eqb_spec a t) as [E|N]; destruct (Nat.eqb_spec a u) as [E'|N']; try congruence; try discriminate.
  intros E. injection E as E. apply IH; auto; tauto.
Qed.
Lemma pfirst_pos p t st p' u s : NoDup (map fst p) -> pfirst p = Some (t, st, p') -> qin p u s ->
  (pos (map fst p) t <= pos (map fst p) u)%nat.
Proof.
  revert p'. induction p as [|[v q] p IH]; cbn [pfirst map fst pos]; [discriminate|]. intros p' N E Q. inversion N as [|? ? N1 N2]; subst.
  destruct q as [|a q].
  - destruct (pfirst p) as [[[t1 st1] p1]|] eqn:P; [|discriminate]. injection E as <- <- <-.
    destruct Q as [q' [[E|H] Hs]]; [injection E as <- <-; destruct Hs|].
    destruct (Nat.eqb_spec v t1) as [->|N3]; [lia|]. destruct (Nat.eqb_spec v u) as [->|N4].
    { exfalso. apply N1. apply in_map_iff. exists (u, q'). auto. }
    apply le_n_S. eapply IH; eauto. exists q'. auto.
  - injection E as <- <- <-. rewrite Nat.eqb_refl. lia.
Qed.
Lemma pfirst_none p : pfirst p = None -> forall t st, ~ qin p t st.
Proof.
  induction p as [|[v q] p IH]; cbn [pfirst]; intros E t st [q' [H Hs]]; [destruct H|].
  destruct q as [|a q]; [|discriminate]. destruct (pfirst p) as [[[? ?] ?]|] eqn:P; [discriminate|].
  destruct H as [H|H]; [injection H as <- <-; destruct Hs|]. apply (IH eq_refl t st). exists q'. auto.
Qed.

(* a task none of whose blocks has a block of another task upstream *)
Definition root_task (V : list block) (up : block -> list block) (u : nat) : Prop :=
  forall b a, In b V -> b_task b = u -> In a (up b) -> b_task a = u.
Definition rootb (V : list block) (up : block -> list block) (u : nat) : bool :=
  forallb (fun b => negb (Nat.eqb (b_task b) u) || forallb (fun a => Nat.eqb (b_task a) u) (up b)) V.
Lemma rootb_iff V up u : rootb V up u = true <-> root_task V up u.
Proof.
  unfold rootb, root_task. rewrite forallb_forall. split; intros H b.
  - intros a Hb E Ha. specialize (H b Hb). rewrite E, Nat.eqb_refl in H. cbn in H. rewrite forallb_forall in H.
    apply Nat.eqb_eq. apply H. auto.
  - intros Hb. destruct (Nat.eqb_spec (b_task b) u) as [E|N]; auto. cbn. apply forallb_forall. intros a Ha. apply Nat.eqb_eq. eauto.
Qed.
(* the event is about the block *)
Definition about (e : event) (b : block) : Prop :=
  match e with EvSkip c => c = b | EvHand _ pb | EvRel pb => pb_block pb = b | EvNone _ => False end.
Lemma about_count p l b : (forall e, In e l -> ~ about e b) -> (forall e, p e = true -> about e b) -> count p l = 0.
Proof.
  intros N P. induction l as [|e l IH]; auto. cbn [count]. rewrite IH by (intros; apply N; right; auto).
  destruct (p e) eqn:E; auto. exfalso. apply (N e (or_introl eq_refl)). auto.
Qed.
Lemma is_block_true a b : is_block a b = true -> a = b.
Proof. unfold is_block. destruct (block_dec a b); auto. discriminate. Qed.
Lemma about_held l h b : (forall e, In e l -> ~ about e b) -> (held (l ++ h) b <-> held h b).
Proof.
  intros N. unfold held, n_released, n_handed. rewrite !count_app.
  rewrite !(about_count _ l b) by (auto; intros []; cbn; try discriminate; intros; apply is_block_true; auto). reflexivity.
Qed.
Lemma about_succeeded l h b : (forall e, In e l -> ~ about e b) -> succeeded (l ++ h) b -> succeeded h b.
Proof.
  intros N [H|H]; apply in_app_or in H; destruct H as [H|H]; [|left; auto| |right; auto]; exfalso; apply (N _ H); reflexivity.
Qed.

Section Live.
  Variables (V : list block) (up down : block -> list block) (seeds : nat -> list block).
  Variable maxr : nat -> Z.
  Variable fuel : nat.
  Hypothesis GG : good_graph V up down seeds.
  Hypothesis EN : enough V fuel.
  Variable s0 : sched.
  Hypothesis FR : fresh V seeds s0.
  Variable tasks : list nat.
  Hypothesis known : forall t, In t tasks -> In t (s_order s0).
  Variable init : nat -> res unit.
  Hypothesis init_ok : forall t, init t = Ok tt.
  Hypothesis AR : all_roots V up seeds.
  Hypothesis known_V : forall b, In b V -> In (b_task b) tasks.
  Local Notation SInv := (SInv up down maxr fuel s0 tasks).
  Local Notation reach := (reach up down maxr fuel s0).
  Local Notation YInv := (YInv V up down maxr fuel s0 tasks).
  Local Notation Good := (Good V up down maxr fuel s0 tasks).
  Local Notation acq := (acq up down maxr fuel).
  Local Notation hm := (hm up down maxr fuel s0 tasks init).
  Local Notation step := (step up down maxr fuel init).
  Local Notation settled := (settled up maxr).
  Local Notation root := (root_task V up).
  (* the tasks of the blocks upstream of a block come before its own, but for those that have
     nothing upstream *)
  Hypothesis ups_first : forall b a, In b V -> In a (up b) ->
    b_task a = b_task b \/ (pos (dedup Nat.eqb tasks) (b_task a) < pos (dedup Nat.eqb tasks) (b_task b))%nat \/ root (b_task a).
  Definition at_ (t : nat) : nat := if rootb V up t then 0%nat else S (pos (dedup Nat.eqb tasks) t).
  Lemma ups_at b a : In b V -> In a (up b) -> b_task a = b_task b \/ (at_ (b_task a) < at_ (b_task b))%nat.
  Proof.
    intros Hb Ha. destruct (Nat.eq_dec (b_task a) (b_task b)) as [E|N]; auto. right. unfold at_.
    destruct (rootb V up (b_task b)) eqn:Rb.
    { exfalso. apply N. apply (proj1 (rootb_iff _ _ _)) in Rb. apply (Rb b a); auto. }
    destruct (rootb V up (b_task a)) eqn:Ra; [lia|]. destruct (ups_first b a Hb Ha) as [E|[L|R]]; [congruence|lia|].
    apply (proj2 (rootb_iff _ _ _)) in R. congruence.
  Qed.
  Lemma at_pos t u : In t tasks -> In u tasks -> t <> u -> (pos (dedup Nat.eqb tasks) t <= pos (dedup Nat.eqb tasks) u)%nat ->
    (at_ t < at_ u)%nat \/ root u.
  Proof.
    intros Ht Hu N L. destruct (rootb V up u) eqn:Ru; [right; apply rootb_iff; auto|left]. unfold at_. rewrite Ru.
    assert (pos (dedup Nat.eqb tasks) t <> pos (dedup Nat.eqb tasks) u).
    { intros E. apply N. apply (pos_inj (dedup Nat.eqb tasks)); auto; apply in_dedup_nat; auto. }
    destruct (rootb V up t); lia.
  Qed.
  (* when the counts of orphans are right *)
  Definition fine (sv : server) : Prop := apart (fun b => In b V) up maxr (hist (sv_tr sv)).
  Lemma fine_back x y l : sv_tr y = l ++ sv_tr x -> fine y -> fine x.
  Proof. unfold fine. intros E F. rewrite E, hist_app in F. eapply apart_back; eauto. Qed.

  Lemma settled_dec h s b : reach h s -> apart (fun b => In b V) up maxr h -> In b V -> settled h b \/ ~ settled h b.
  Proof.
    intros R F Hb. destruct (settled_card V up down seeds maxr fuel GG EN s0 FR h s R F (b_task b)) as [l [_ [Hl _]]].
    destruct (in_dec block_dec b l) as [H|H]; rewrite Hl in H; [left; tauto|right; tauto].
  Qed.
  (* something is pending: a block that nobody has and that is not settled *)
  Lemma pending_some h s t : reach h s -> apart (fun b => In b V) up maxr h -> ts_ready (s_st s t) = 0 -> ts_pending (s_st s t) <> 0 ->
    exists b, In b V /\ b_task b = t /\ ~ settled h b.
  Proof.
    intros R F Er Ep. pose proof (pending_nonneg V up down seeds maxr fuel GG EN s0 FR h s R F t) as Nn.
    destruct (settled_card V up down seeds maxr fuel GG EN s0 FR h s R F t) as [ls [N1 [Hs E1]]].
    destruct (counters V up down seeds maxr fuel GG EN s0 FR h s R t) as [[lp [N2 [Hp E2]]] [_ [_ [_ [lt [N3 [Ht E3]]]]]]].
    destruct (Exists_dec (fun b => ~ In b ls) lt (fun b => match in_dec block_dec b ls with left H => right (fun K => K H) | right K => left K end)) as [H|H].
    - apply Exists_exists in H. destruct H as [b [Hb K]]. apply Ht in Hb. exists b. split; [tauto|]. split; [tauto|].
      intros S. apply K. apply Hs. tauto.
    - exfalso. assert (L : (length lt <= length ls)%nat).
      { apply NoDup_incl_length; auto. intros b Hb. destruct (in_dec block_dec b ls); auto. exfalso. apply H. apply Exists_exists. eauto. }
      unfold ts_pending in *. lia.
  Qed.
  Lemma settled_skips sk h b t r : ~ In b sk ->
    settled (match r with Some pb => EvHand t pb | None => EvNone t end :: rev (map EvSkip sk) ++ h) b -> settled h b.
  Proof.
    intros N. set (l := match r with Some pb => EvHand t pb | None => EvNone t end :: rev (map EvSkip sk)).
    change (match r with Some pb => EvHand t pb | None => EvNone t end :: rev (map EvSkip sk) ++ h) with (l ++ h).
    assert (P : forall c, perm_failed maxr (l ++ h) c -> perm_failed maxr h c).
    { intros c. unfold perm_failed. unfold n_failed. rewrite count_app. unfold l. cbn [count].
      rewrite count_rev_skip by reflexivity. destruct r; cbn; tauto. }
    intros [S|[S|[a [S A]]]].
    - left. destruct S as [S|S]; apply in_app_or in S; destruct S as [S|S]; [|left; auto| |right; auto]; exfalso.
      + unfold l in S. destruct S as [S|S]; [destruct r; discriminate|]. apply in_rev, in_map_iff in S.
        destruct S as [c [E Hc]]. injection E as ->. auto.
      + unfold l in S. destruct S as [S|S]; [destruct r; discriminate|]. apply in_rev, in_map_iff in S.
        destruct S as [c [E Hc]]. discriminate.
    - right. left. auto.
    - right. right. exists a. auto.
  Qed.

  (* L: what is ready *)
  Definition Lv (x : server) : Prop :=
    forall u, readyl (sv_s x) u <> [] ->
      In u (sv_started x) \/ (exists b, held (hist (sv_tr x)) b) \/
      (exists b, In b V /\ ~ settled (hist (sv_tr x)) b /\ (at_ (b_task b) < at_ u)%nat).
  Lemma started_Lv x : SInv [] x -> (forall u, In u (get_ready_tasks (sv_s x)) -> In u (sv_started x)) -> Lv x.
  Proof.
    intros Ix H u Hu. left. apply H. unfold get_ready_tasks. apply filter_In.
    destruct (readyl (sv_s x) u) as [|b r] eqn:E; [congruence|].
    assert (Hb : In b (readyl (sv_s x) u)) by (rewrite E; left; auto).
    pose proof (si_reach _ _ _ _ _ _ _ _ Ix) as R.
    apply (ready_iff V up down seeds maxr fuel GG EN s0 FR _ _ R AR) in Hb. destruct Hb as [Hb [<- _]].
    split.
    - rewrite (sinv_order V up down seeds maxr fuel GG EN s0 FR tasks [] x Ix). apply known. auto.
    - apply Z.ltb_lt. destruct (Z.lt_ge_cases 0 (ts_ready (s_st (sv_s x) (b_task b)))) as [L|L]; auto.
      apply (not_ready_empty V up down seeds maxr fuel GG EN s0 FR _ _ R) in L. congruence.
  Qed.
  Lemma same_Lv x y : sv_s y = sv_s x -> hist (sv_tr y) = hist (sv_tr x) -> (forall u, In u (sv_started x) -> In u (sv_started y)) -> Lv x -> Lv y.
  Proof. intros E1 E2 E3 L u. rewrite E1, E2. intros H. destruct (L u H) as [K|K]; auto. Qed.
  Lemma acq_Lv t st x y l : SInv [] x -> SInv [] y -> sv_tr y = l ++ sv_tr x -> fine y -> acq t st x y l -> Lv x -> Lv y.
  Proof.
    intros Ix Iy El F A L. destruct A as [chk pb sk now H1 H2 H3 H4|chk sk m H1 H2 H3 H4 H5 H6 H7|chk sk H1 H2 H3 H4 H5 H6].
    - intros u _. right. left. exists (pb_block pb). apply (si_held _ _ _ _ _ _ _ _ Iy). apply in_or_app. left. apply in_blocks.
      rewrite H2. eexists. split; [apply in_or_app; right; left; reflexivity|reflexivity].
    - apply started_Lv; auto. intros u Hu. apply H7. auto.
    - pose proof (si_reach _ _ _ _ _ _ _ _ Iy) as Ry. pose proof (si_reach _ _ _ _ _ _ _ _ Ix) as Rx.
      assert (Eh : hist (sv_tr y) = EvNone t :: rev (map EvSkip sk) ++ hist (sv_tr x)).
      { rewrite El. cbn [app]. change (hist (ADelay t st :: calls t None sk ++ sv_tr x)) with (hist (calls t None sk ++ sv_tr x)).
        apply (hist_call t None). }
      destruct (pending_some _ _ t Ry F H4 H5) as [c [Vc [Tc Uc]]].
      pose proof (skip_task V up down seeds maxr fuel GG EN s0 FR chk t _ _ _ _ _ Rx H1) as Sk.
      assert (Hx : forall b, held (hist (sv_tr x)) b <-> held (hist (sv_tr y)) b).
      { intros b. rewrite Eh. change (EvNone t :: rev (map EvSkip sk) ++ hist (sv_tr x)) with ((EvNone t :: rev (map EvSkip sk)) ++ hist (sv_tr x)).
        symmetry. apply held_quiet. intros e [<-|He]; [exact I|]. apply in_rev, in_map_iff in He. destruct He as [d [<- _]]. exact I. }
      intros u Hu. destruct (readyl (sv_s y) u) as [|b r] eqn:E; [congruence|].
      assert (Hb : In b (readyl (sv_s y) u)) by (rewrite E; left; auto). clear Hu E r.
      assert (Rt : readyl (sv_s y) t = []) by (apply (not_ready_empty V up down seeds maxr fuel GG EN s0 FR _ _ Ry); lia).
      destruct (in_dec block_dec b (readyl (sv_s x) u)) as [Hbx|Nbx].
      + destruct (L u) as [K|[[b' K]|[b' [K1 [K2 K3]]]]].
        * intros E. rewrite E in Hbx. destruct Hbx.
        * left. rewrite H6. auto.
        * right. left. exists b'. apply Hx. auto.
        * right. right. destruct (in_dec block_dec b' sk) as [Hs|Hs].
          -- exists c. repeat split; auto. rewrite Tc, <- (Sk b' Hs). auto.
          -- exists b'. repeat split; auto. rewrite Eh. intros S. apply K2. apply (settled_skips sk _ b' t None Hs S).
      + apply (ready_iff V up down seeds maxr fuel GG EN s0 FR _ _ Ry AR) in Hb. destruct Hb as [Vb [Tb [Ub [Nh [Ns Np]]]]].
        destruct (Exists_dec (fun a => In a sk) (up b) (fun a => in_dec block_dec a sk)) as [Ex|Nx].
        * apply Exists_exists in Ex. destruct Ex as [a [Ha Hs]]. right. right. exists c. repeat split; auto.
          rewrite Tc, <- (Sk a Hs), <- Tb. destruct (ups_at b a Vb Ha) as [Q|Q]; auto. exfalso.
          assert (Hb : In b (readyl (sv_s y) u)) by (apply (ready_iff V up down seeds maxr fuel GG EN s0 FR _ _ Ry AR); tauto).
          rewrite <- Tb, <- Q, (Sk a Hs), Rt in Hb. destruct Hb.
        * exfalso. apply Nbx. apply (ready_iff V up down seeds maxr fuel GG EN s0 FR _ _ Rx AR).
          repeat split; auto.
          -- intros a Ha. specialize (Ub a Ha). rewrite Eh in Ub. destruct Ub as [Q|Q]; destruct Q as [Q|Q]; try discriminate;
               apply in_app_or in Q; destruct Q as [Q|Q]; [|left; auto| |right; auto]; apply in_rev, in_map_iff in Q; destruct Q as [d [Q1 Q2]]; [|discriminate].
             injection Q1 as ->. exfalso. apply Nx. apply Exists_exists. eauto.
          -- rewrite Hx. auto.
          -- intros [Q|Q]; apply Ns; rewrite Eh; [left|right]; right; apply in_or_app; auto.
          -- intros Q. apply Np. rewrite Eh. change (EvNone t :: rev (map EvSkip sk) ++ hist (sv_tr x)) with ((EvNone t :: rev (map EvSkip sk)) ++ hist (sv_tr x)).
             apply perm_mono. auto.
  Qed.
  Lemma check_Lv x : Lv x -> Lv (check_all x).
  Proof.
    destruct (check_all_spec x) as [B [S _]]. apply same_Lv; [apply B|apply besides_hist; auto|rewrite S; auto].
  Qed.
  Lemma plain_Lv x l : Forall plain l -> Lv x -> Lv (add_tr x l).
  Proof. intros P. apply same_Lv; auto. cbn. rewrite hist_app, (hist_plain maxr fuel l P). reflexivity. Qed.
  Lemma hm_Lv i x a team f : YInv None x team f -> hm i x a team f -> fine a -> Lv x -> Lv a.
  Proof.
    intros Y Q F L. destruct (hm_yinv V up down seeds maxr fuel GG EN s0 FR tasks init init_ok _ _ _ _ _ Y Q) as [la [La [Ya _]]].
    destruct Q as [st t r a1 l Ei Hst Eo Q I1 L1 T1 Ea|st t p a1 l Ei P Q I1 L1 T1 Ea|st m r pb a1 n Ei Hst Eo Tm E Hn Ea|Ei Ea].
    - subst a. apply check_Lv. destruct (check_all_spec a1) as [B _]. destruct (be_tr _ _ B) as [lc [Ec _]].
      apply (acq_Lv t st (add_tr x [ARecv st (MAcquire t)]) a1 l); auto; [|eapply fine_back; eauto].
      apply sinv_plain; [apply Y|repeat constructor].
    - subst a. apply check_Lv. destruct (check_all_spec a1) as [B _]. destruct (be_tr _ _ B) as [lc [Ec _]].
      destruct (retry_yinv _ _ _ _ _ _ _ _ _ _ _ _ _ Y P) as [Y1 _].
      apply (acq_Lv t st (add_tr (set_pend x p) [ARetry t st]) a1 l); auto; [|eapply fine_back; eauto].
      apply sinv_plain; [apply Y1|repeat constructor].
    - subst a. apply check_Lv.
      assert (Pn : Forall plain n) by (destruct Hn as [->|[pb' [w ->]]]; repeat constructor). apply plain_Lv; auto.
      assert (Y1 : YInv None (add_tr x [ARecv st m]) team f) by (apply yinv_plain; auto; repeat constructor).
      assert (Mk : msg_ok V x (w_task (f st)) m) by (apply (yi_out _ _ _ _ _ _ _ _ _ _ _ Y); auto; rewrite Eo; left; auto).
      destruct (told_ok _ maxr fuel _ _ _ _ Tm Mk) as [Vb Sb].
      destruct (safe_release_ok V up down seeds maxr fuel GG EN s0 FR tasks init init_ok i pb st _ (yi_sv _ _ _ _ _ _ _ _ _ _ _ Y1) Vb Sb) as [y' [E' [I' _]]].
      rewrite E in E'. injection E' as <-.
      destruct (safe_more up down maxr fuel init _ _ _ _ _ E) as [_ [_ [_ [[D1 [D2 D3]]|D]]]].
      + apply (same_Lv x); auto; [rewrite D1; reflexivity|rewrite D3; auto].
      + apply started_Lv; auto.
    - subst a. auto.
  Qed.
  Lemma lost_Lv i x y : SInv [] x -> check_lost up down maxr fuel init i x = Ok y -> Lv x -> Lv y.
  Proof.
    intros Ix E L. destruct (lost_more up down maxr fuel init _ _ _ E) as [[l [El _]] _].
    destruct (check_lost_ok V up down seeds maxr fuel GG EN s0 FR tasks init init_ok i x Ix) as [y' [E' [I' _]]].
    rewrite E in E'. injection E' as <-.
    destruct (lost_pot V up down seeds maxr fuel GG EN s0 FR tasks init init_ok _ _ _ _ Ix E El) as [_ [_ Z0]].
    destruct (lost_in i x) as [|e r] eqn:L0; [rewrite (Z0 eq_refl); auto|].
    apply started_Lv; auto. destruct (lost_start V up down seeds maxr fuel GG EN s0 FR tasks init i x Ix) as [E2 _].
    rewrite E2, L0 in E. cbn [map] in E. set (bs := map _ r) in E. revert E. generalize (lg_block (snd e)) as pb.
    generalize (add_tr (set_book x (filter (fun e => negb (i_closed i (lg_stream (snd e)))) (sv_book x)))
      (rev (flat_map (fun e => if i_closed i (lg_stream (snd e)) then [ALost (lg_block (snd e)) (lg_stream (snd e))] else []) (sv_book x)))) as z.
    clear -bs. induction bs as [|pb' bs IH]; intros z pb; cbn [foldM].
    - destruct (sv_release _ _ _ _ _ _ _ _) as [w|] eqn:E; [|discriminate]. cbn [bind]. intros H. injection H as <-.
      destruct (rel_more up down maxr fuel init _ _ _ _ E) as [_ [S1 _]]. intros u Hu. apply S1. auto.
    - destruct (sv_release _ _ _ _ _ _ _ z) as [w|] eqn:E; [|discriminate]. cbn [bind]. intros H. eapply IH. cbn [foldM]. exact H.
  Qed.

  (* K: who is left *)
  Definition fit (w : worker) : Prop :=
    match w_at w with Left | Replaced => False | Waiting => ~ In Client.RShutdown (w_in w) | _ => True end.
  Definition Kv (x : server) (team : list nat) (f : nat -> worker) : Prop :=
    forall t, In t tasks -> (exists st, In st team /\ w_task (f st) = t /\ fit (f st)) \/
      (forall b, In b V -> b_task b = t -> settled (hist (sv_tr x)) b) \/
      (forall st, In st team -> w_task (f st) <> t).
  Lemma fit_deliver s l w : fit w -> ~ In Client.RShutdown (replies s l) -> fit (deliver s l w).
  Proof.
    unfold fit, deliver. cbn. destruct (w_at w); auto. intros H N K. apply in_app_or in K. tauto.
  Qed.
  Lemma fit_taken g s w : fit (taken g s w) <-> fit w.
  Proof. unfold fit, taken. destruct g; try tauto. destruct (Nat.eqb _ _); cbn; tauto. Qed.
  Lemma task_taken g s w : w_task (taken g s w) = w_task w.
  Proof. unfold taken. destruct g; auto. destruct (Nat.eqb _ _); reflexivity. Qed.
  Lemma Kv_more x y team f g : (exists l, sv_tr y = l ++ sv_tr x) ->
    (forall st, In st team -> w_task (g st) = w_task (f st) /\ (fit (f st) -> fit (g st))) -> Kv x team f -> Kv y team g.
  Proof.
    intros [l E] H K t Ht. destruct (K t Ht) as [[st [H1 [H2 H3]]]|[Q|Q]].
    - left. exists st. destruct (H st H1) as [H4 H5]. repeat split; auto. congruence.
    - right. left. intros b Vb Tb. rewrite E, hist_app. apply settled_mono. auto.
    - right. right. intros st Hst. destruct (H st Hst) as [-> _]. auto.
  Qed.
  Lemma acq_Kv t st x y l team f : YInv (Some st) x team f -> In st team -> w_task (f st) = t ->
    gone_free x team f -> SInv [] y -> sv_tr y = l ++ sv_tr x -> fine y -> acq t st x y l -> Kv x team f ->
    Kv y team (fun s => deliver s l (f s)).
  Proof.
    intros Y Hst Et Gf Iy El F A K.
    assert (R1 : forall s, s <> st -> replies s l = []) by (intros s N; eapply acq_replies; eauto).
    assert (Oth : forall s, s <> st -> fit (f s) -> fit (deliver s l (f s))).
    { intros s N H. apply fit_deliver; auto. rewrite R1 by auto. auto. }
    destruct A as [chk pb sk now H1 H2 H3 H4|chk sk m H1 H2 H3 H4 H5 H6 H7|chk sk H1 H2 H3 H4 H5 H6].
    - eapply Kv_more; [eexists; exact El| |exact K]. intros s Hs. split; [reflexivity|]. intros H. apply fit_deliver; auto.
      change ([ANote (NAcquire t (s_st (sv_s y) t)); ASend st pb] ++ calls t (Some pb) sk) with
        ([ANote (NAcquire t (s_st (sv_s y) t))] ++ [ASend st pb] ++ calls t (Some pb) sk).
      rewrite !replies_app, (replies_silent s (calls _ _ _)) by apply calls_silent. cbn. destruct (Nat.eqb _ _); cbn; [|tauto].
      intros [Q|[]]; discriminate.
    - intros u Hu. destruct (K u Hu) as [[s [S1 [S2 S3]]]|[Q|Q]].
      2: { right. left. intros b Vb Tb. rewrite El, hist_app. apply settled_mono. auto. }
      2: { right. right. exact Q. }
      destruct (Nat.eq_dec s st) as [->|N].
      2: { left. exists s. repeat split; auto. }
      pose proof (yi_talk _ _ _ _ _ _ _ _ _ _ _ Y st Hst) as T. cbv beta iota in T. rewrite Nat.eqb_refl in T. unfold heard in T.
      unfold fit in S3. destruct (w_at (f st)) eqn:Ea; try (exfalso; exact T); try (exfalso; exact S3).
      2: { left. exists st. repeat split; auto. unfold fit, deliver. cbn. rewrite Ea. exact I. }
      destruct T as [T1 [T2 [T3 T4]]]. rewrite Et in S2. subst u.
      pose proof (none_left V up down seeds maxr fuel GG EN s0 FR _ _ t (si_reach _ _ _ _ _ _ _ _ Iy) F H4 H5) as NL.
      assert (D : (forall b, In b V -> b_task b = t -> settled (hist (sv_tr y)) b) \/ (exists b, held (hist (sv_tr y)) b /\ b_task b = t)).
      { clear -NL. assert (D : forall l, (forall b, In b l -> In b V) ->
          (forall b, In b l -> b_task b = t -> settled (hist (sv_tr y)) b) \/ (exists b, held (hist (sv_tr y)) b /\ b_task b = t)).
        { induction l as [|b l IH]; intros Hl; [left; intros b []|].
          destruct IH as [IH|IH]; [intros c Hc; apply Hl; right; auto| |right; auto].
          destruct (Nat.eq_dec (b_task b) t) as [E|N].
          - destruct (NL b (Hl b (or_introl eq_refl)) E) as [H|H]; [right; eauto|]. left. intros c [<-|Hc]; auto.
          - left. intros c [<-|Hc] E; [congruence|]. auto. }
        apply D. auto. }
      destruct D as [D|[b [Hb Tb]]]; [right; left; exact D|]. left.
      apply (si_held _ _ _ _ _ _ _ _ Iy) in Hb. rewrite app_nil_r in Hb. apply in_blocks in Hb. destruct Hb as [e [He Eb]].
      rewrite H2 in He. destruct (yi_book _ _ _ _ _ _ _ _ _ _ _ Y e He) as [O1 [O2 O3]].
      assert (Ne : owner e <> st) by (intros E; apply (proj1 (free_iff _ _) T4 e He E)).
      assert (Nf : ~ free (sv_book x) (owner e)) by (intros Fr; apply (proj1 (free_iff _ _) Fr e He eq_refl)).
      assert (Ot : w_task (f (owner e)) = t) by (rewrite O2; unfold blk; rewrite Eb; exact Tb).
      assert (Rp : w_at (f (owner e)) = Replaced \/ w_at (f (owner e)) <> Replaced) by (destruct (w_at (f (owner e))); auto; right; discriminate).
      destruct Rp as [Rp|Rp].
      { destruct (Gf _ O1 Rp) as [Fr|[s [C1 [C2 C3]]]]; [tauto|]. exists s. split; auto. split; [cbn; congruence|].
        apply Oth; [|unfold fit; destruct (w_at (f s)); try exact I; destruct C3].
        intros ->. rewrite Ea in C3. exact C3. }
      exists (owner e). split; auto. split; [exact Ot|]. apply Oth; auto.
      pose proof (yi_talk _ _ _ _ _ _ _ _ _ _ _ Y (owner e) O1) as T. cbv beta iota in T. rewrite (proj2 (Nat.eqb_neq _ _)) in T by auto.
      unfold fit. unfold talk in T. destruct (w_at (f (owner e))) eqn:Eo; auto.
      + destruct T as [[o [_ [-> _]]]|[[_ [-> _]]|[[_ [_ [_ Q]]]|[pb [_ [-> _]]]]]]; cbn; auto. intros [Q|[]]; discriminate.
      + tauto.
    - eapply Kv_more; [eexists; exact El| |exact K]. intros s Hs. split; [reflexivity|]. intros H. apply fit_deliver; auto.
      rewrite (replies_silent s (ADelay t st :: calls t None sk)); auto. constructor; [exact I|apply calls_silent].
  Qed.
  Lemma hm_Kv i x a team f l : YInv None x team f -> gone_free x team f -> hm i x a team f -> sv_tr a = l ++ sv_tr x -> fine a ->
    Kv x team f -> Kv a team (fun s => deliver s l (taken (i_get i) s (f s))).
  Proof.
    intros Y Gf Q El F K.
    destruct Q as [st t r a1 l1 Ei Hst Eo Q I1 L1 T1 Ea|st t p a1 l1 Ei P Q I1 L1 T1 Ea|st m r pb a1 n Ei Hst Eo Tm E Hn Ea|Ei Ea].
    - subst a. rewrite Ei. destruct (check_all_spec a1) as [B _]. destruct (be_tr _ _ B) as [lc [Ec Ac]].
      assert (Y1 : YInv None (add_tr x [ARecv st (MAcquire t)]) team f) by (apply yinv_plain; auto; repeat constructor).
      destruct (ask_yinv _ _ _ _ _ _ _ _ _ _ _ _ _ Y1 Hst Eo) as [Y2 Et].
      assert (K2 : Kv a1 team (fun s => deliver s l1 (taken (GotMessage st (MAcquire t)) s (f s)))).
      { apply (acq_Kv t st (add_tr x [ARecv st (MAcquire t)])); auto.
        - rewrite task_taken. auto.
        - intros s Hs Ra. rewrite task_taken. assert (At : forall g q w, w_at (taken g q w) = w_at w) by (intros [] q w; cbn; auto; destruct (Nat.eqb _ _); reflexivity).
          rewrite At in Ra. destruct (Gf s Hs Ra) as [Fr|[s' Q']]; auto. right. exists s'. rewrite At, task_taken. exact Q'.
        - eapply fine_back; eauto.
        - eapply Kv_more; [exists [ARecv st (MAcquire t)]; reflexivity| |exact K]. intros s _. rewrite task_taken, fit_taken. auto. }
      assert (l = lc ++ l1 ++ [ARecv st (MAcquire t)]).
      { apply (app_same _ _ (sv_tr x)). rewrite <- El, Ec, L1, <- !app_assoc. reflexivity. }
      eapply Kv_more; [eexists; exact Ec| |exact K2]. intros s _. cbn beta. subst l. rewrite !deliver_app.
      rewrite (deliver_silent s [ARecv _ _]) by (repeat constructor). rewrite (deliver_silent s lc) by (apply aside_silent; auto). auto.
    - subst a. rewrite Ei. destruct (check_all_spec a1) as [B _]. destruct (be_tr _ _ B) as [lc [Ec Ac]].
      destruct (retry_yinv _ _ _ _ _ _ _ _ _ _ _ _ _ Y P) as [Y1 [Hst Et]].
      assert (Y2 : YInv (Some st) (add_tr (set_pend x p) [ARetry t st]) team f) by (apply yinv_plain; auto; repeat constructor).
      assert (K2 : Kv a1 team (fun s => deliver s l1 (f s))).
      { apply (acq_Kv t st (add_tr (set_pend x p) [ARetry t st])); auto.
        eapply fine_back; eauto. }
      assert (l = lc ++ l1 ++ [ARetry t st]).
      { apply (app_same _ _ (sv_tr x)). rewrite <- El, Ec, L1, <- !app_assoc. reflexivity. }
      eapply Kv_more; [eexists; exact Ec| |exact K2]. intros s _. cbn beta. subst l. rewrite !deliver_app.
      rewrite (deliver_silent s [ARetry _ _]) by (repeat constructor). rewrite (deliver_silent s lc) by (apply aside_silent; auto). auto.
    - subst a. rewrite Ei. destruct (safe_more up down maxr fuel init _ _ _ _ _ E) as [[l1 [L1 Sl]] _].
      assert (Sn : Forall silent n) by (destruct Hn as [->|[pb' [w ->]]]; repeat constructor).
      destruct (check_all_spec (add_tr a1 n)) as [B _]. destruct (be_tr _ _ B) as [lc [Ec Ac]].
      assert (l = lc ++ n ++ l1 ++ [ARecv st m]).
      { apply (app_same _ _ (sv_tr x)). rewrite <- El, Ec. cbn [add_tr sv_tr]. rewrite L1. cbn [add_tr sv_tr].
        rewrite <- !app_assoc. reflexivity. }
      eapply Kv_more; [eexists; exact El| |exact K]. intros s _. cbn beta. subst l. rewrite !deliver_app.
      rewrite (deliver_silent s [ARecv _ _]) by (repeat constructor).
      rewrite (deliver_silent s lc) by (apply aside_silent; auto). rewrite !deliver_silent by auto.
      rewrite task_taken, fit_taken. auto.
    - subst a. assert (l = []) by (apply (app_same _ _ (sv_tr x)); symmetry; exact El). subst l.
      eapply Kv_more; [exists []; reflexivity| |exact K]. intros s _. cbn beta. rewrite deliver_silent by constructor.
      rewrite task_taken, fit_taken. auto.
  Qed.

  (* R: of a task without others upstream, somebody who does not wait in its queue *)
  Definition busy (x : server) (team : list nat) (f : nat -> worker) (u : nat) : Prop :=
    exists s, In s team /\ w_task (f s) = u /\ fit (f s) /\ (w_at (f s) = Waiting -> waits (sv_pend x) s = 0%nat).
  Definition gone (p : phase) : Prop := match p with Dead | Replaced => True | _ => False end.
  Definition todo (x : server) (f : nat -> worker) (u : nat) : Prop :=
    readyl (sv_s x) u <> [] \/ exists e, In e (sv_book x) /\ b_task (blk e) = u /\ gone (w_at (f (owner e))).
  Definition Rv (x : server) (team : list nat) (f : nat -> worker) : Prop :=
    forall u st, root u -> qin (sv_pend x) u st -> todo x f u -> busy x team f u.
  Lemma ready_back l h s s' u b : reach h s -> reach (l ++ h) s' -> root u ->
    (forall e c, In e l -> about e c -> b_task c <> u) -> In b (readyl s' u) -> In b (readyl s u).
  Proof.
    intros R R' Ru N Hb. apply (ready_iff V up down seeds maxr fuel GG EN s0 FR _ _ R' AR) in Hb. destruct Hb as [Vb [Tb [Ub [Nh [Ns Np]]]]].
    assert (Nb : forall c, b_task c = u -> forall e, In e l -> ~ about e c) by (intros c Tc e He Ab; apply (N e c He Ab Tc)).
    apply (ready_iff V up down seeds maxr fuel GG EN s0 FR _ _ R AR). repeat split; auto.
    - intros a Ha. apply (about_succeeded l); auto. apply Nb. eapply Ru; eauto.
    - intros H. apply Nh. apply about_held; auto.
    - intros H. apply Ns. destruct H as [H|H]; [left|right]; apply in_or_app; auto.
    - intros H. apply Np. apply perm_mono. auto.
  Qed.
  Lemma ready_back' l h s s' u : reach h s -> reach (l ++ h) s' -> root u ->
    (forall e c, In e l -> about e c -> b_task c <> u) -> readyl s' u <> [] -> readyl s u <> [].
  Proof.
    intros R R' Ru N H. destruct (readyl s' u) as [|b r] eqn:E; [congruence|].
    assert (Hb : In b (readyl s' u)) by (rewrite E; left; auto).
    intros E2. apply (ready_back l h s s' u b R R' Ru N) in Hb. rewrite E2 in Hb. destruct Hb.
  Qed.
  Lemma hand_ready h s chk t s' pb sk : reach h s -> acquire_block up down maxr fuel chk s t = Ok (s', Some pb, sk) -> readyl s t <> [].
  Proof.
    intros R E0 E. unfold acquire_block in E0. destruct fuel as [|f]; [discriminate|]. cbn [acquire_loop] in E0.
    destruct (next_spec V up down seeds maxr _ _ _ s t (hi_inv _ _ _ _ _ _ _ _ (reach_HInv V up down seeds maxr _ GG EN s0 FR _ s R))) as [[_ N]|[q [pb' [N [Hr _]]]]].
    - rewrite N in E0. discriminate.
    - rewrite E in Hr. discriminate.
  Qed.
  Lemma gone_coming k x team f e : YInv k x team f -> gone_free x team f -> In e (sv_book x) -> gone (w_at (f (owner e))) ->
    exists s, In s team /\ w_task (f s) = b_task (blk e) /\ coming (w_at (f s)).
  Proof.
    intros Y Gf He Ge. destruct (yi_book _ _ _ _ _ _ _ _ _ _ _ Y e He) as [O1 [O2 O3]].
    destruct (w_at (f (owner e))) eqn:Ea; try (destruct Ge; fail).
    - exists (owner e). rewrite Ea. split; [auto|]. split; [auto|exact I].
    - destruct (Gf _ O1 Ea) as [Fr|[s [C1 [C2 C3]]]]; [exfalso; apply (proj1 (free_iff _ _) Fr e He eq_refl)|].
      exists s. split; auto. split; [congruence|auto].
  Qed.
  Lemma coming_busy x team f g u s : In s team -> w_task (f s) = u -> coming (w_at (f s)) ->
    w_task (g s) = w_task (f s) -> w_at (g s) = w_at (f s) -> busy x team g u.
  Proof.
    intros Hs Ts C E1 E2. exists s. split; auto. split; [congruence|]. unfold fit. rewrite E2.
    destruct (w_at (f s)); try (destruct C; fail); split; auto; discriminate.
  Qed.
  Lemma Rv_ext x y team f g : sv_s y = sv_s x -> sv_book y = sv_book x -> sv_pend y = sv_pend x ->
    (forall s, w_task (g s) = w_task (f s) /\ w_at (g s) = w_at (f s) /\ (fit (f s) -> fit (g s))) -> Rv x team f -> Rv y team g.
  Proof.
    intros E1 E2 E3 H R u st Ru Q T. rewrite E3 in Q. destruct (R u st Ru Q) as [s [S1 [S2 [S3 S4]]]].
    - unfold todo in *. rewrite E1, E2 in T. destruct T as [T|[e [T1 [T2 T3]]]]; auto. right. exists e. split; auto. split; auto.
      destruct (H (owner e)) as [_ [<- _]]. auto.
    - exists s. destruct (H s) as [H1 [H2 H3]]. split; auto. split; [congruence|]. split; auto. rewrite E3, H2. auto.
  Qed.
  Lemma acq_Rv t st x y l team f : YInv (Some st) x team f -> In st team -> w_task (f st) = t ->
    gone_free x team f -> SInv [] y -> sv_tr y = l ++ sv_tr x -> acq t st x y l -> Rv x team f ->
    Rv y team (fun s => deliver s l (f s)).
  Proof.
    intros Y Hst Et Gf Iy El A R u st0 Ru Q T.
    pose proof (yi_sv _ _ _ _ _ _ _ _ _ _ _ Y) as Ix. pose proof (si_reach _ _ _ _ _ _ _ _ Ix) as Rx. pose proof (si_reach _ _ _ _ _ _ _ _ Iy) as Ry.
    assert (R1 : forall s, s <> st -> replies s l = []) by (intros s N; eapply acq_replies; eauto).
    destruct (Nat.eq_dec u t) as [E|N].
    - subst u.
      assert (Gn : forall e, In e (sv_book x) -> b_task (blk e) = t -> gone (w_at (f (owner e))) -> busy y team (fun s => deliver s l (f s)) t).
      { intros e He Te Ge. destruct (gone_coming _ _ _ _ _ Y Gf He Ge) as [s [C1 [C2 C3]]].
        apply (coming_busy y team f _ t s); auto; congruence. }
      destruct A as [chk pb sk now H1 H2 H3 H4|chk sk m H1 H2 H3 H4 H5 H6 H7|chk sk H1 H2 H3 H4 H5 H6].
      + pose proof (hand_ready _ _ _ _ _ _ _ Rx H1) as Hr. rewrite H3 in Q.
        destruct (R t st0 Ru Q (or_introl Hr)) as [s [S1 [S2 [S3 S4]]]]. exists s. split; auto. split; auto. split; [|rewrite H3; exact S4].
        apply fit_deliver; auto.
        change ([ANote (NAcquire t (s_st (sv_s y) t)); ASend st pb] ++ calls t (Some pb) sk) with
          ([ANote (NAcquire t (s_st (sv_s y) t))] ++ [ASend st pb] ++ calls t (Some pb) sk).
        rewrite !replies_app, (replies_silent s (calls _ _ _)) by apply calls_silent. cbn. destruct (Nat.eqb _ _); cbn; [|tauto].
        intros [K|[]]; discriminate.
      + destruct T as [T|[e [T1 [T2 T3]]]].
        * exfalso. apply T. apply (not_ready_empty V up down seeds maxr fuel GG EN s0 FR _ _ Ry). lia.
        * rewrite H2 in T1. eauto.
      + destruct T as [T|[e [T1 [T2 T3]]]].
        * exfalso. apply T. apply (not_ready_empty V up down seeds maxr fuel GG EN s0 FR _ _ Ry). lia.
        * rewrite H2 in T1. eauto.
    - (* another task *)
      assert (Q' : qin (sv_pend x) u st0).
      { destruct A as [chk pb sk now H1 H2 H3 H4|chk sk m H1 H2 H3 H4 H5 H6 H7|chk sk H1 H2 H3 H4 H5 H6];
          [rewrite H3 in Q; auto|rewrite H3 in Q; auto|]. destruct (pput_qin _ _ _ _ H3) as [_ K]. apply K in Q. destruct Q as [Q|[Q _]]; tauto. }
      assert (W : forall s, s <> st -> waits (sv_pend y) s = waits (sv_pend x) s).
      { intros s Ns. destruct A as [chk pb sk now H1 H2 H3 H4|chk sk m H1 H2 H3 H4 H5 H6 H7|chk sk H1 H2 H3 H4 H5 H6]; rewrite ?H3; auto.
        destruct (pput_qin _ _ _ _ H3) as [P _]. unfold waits. rewrite (count_perm _ _ s P). cbn. destruct (Nat.eq_dec st s); [congruence|auto]. }
      assert (Bk : forall e, In e (sv_book y) -> b_task (blk e) = u -> In e (sv_book x)).
      { intros e He Te.
        destruct A as [chk pb sk now H1 H2 H3 H4|chk sk m H1 H2 H3 H4 H5 H6 H7|chk sk H1 H2 H3 H4 H5 H6]; rewrite H2 in He; auto.
        apply in_app_or in He. destruct He as [He|[<-|[]]]; auto. exfalso. apply N. rewrite <- Te. unfold blk. cbn.
        pose proof (reach_acquire _ _ _ _ _ _ _ _ _ _ _ _ Rx H1) as R2.
        apply (ok_at V up down seeds maxr fuel GG EN s0 FR _ _ R2 [] (EvHand t pb) _ eq_refl). }
      assert (Bq : readyl (sv_s y) u <> [] -> readyl (sv_s x) u <> []).
      { rewrite El, hist_app in Ry. apply (ready_back' (hist l) (hist (sv_tr x))); auto. intros e c He Ab Tc. apply N. rewrite <- Tc.
        assert (Hc : forall r sk chk s', acquire_block up down maxr fuel chk (sv_s x) t = Ok (s', r, sk) ->
          In e (hist (calls t r sk)) -> b_task c = t).
        { intros r sk chk s' Ha Hi. pose proof (hist_call t r sk []) as Eh. rewrite app_nil_r in Eh. rewrite Eh in Hi. clear Eh. cbn [hist flat_map] in Hi. rewrite app_nil_r in Hi.
          destruct Hi as [Hi|Hi].
          - destruct r as [pb|]; subst e; [|destruct Ab]. cbn in Ab. rewrite <- Ab.
            pose proof (reach_acquire _ _ _ _ _ _ _ _ _ _ _ _ Rx Ha) as R2.
            apply (ok_at V up down seeds maxr fuel GG EN s0 FR _ _ R2 [] (EvHand t pb) _ eq_refl).
          - apply in_rev, in_map_iff in Hi. destruct Hi as [d [<- Hd]]. cbn in Ab. subst d.
            apply (skip_task V up down seeds maxr fuel GG EN s0 FR chk t _ _ _ _ _ Rx Ha); auto. }
        destruct A as [chk pb sk now H1 H2 H3 H4|chk sk m H1 H2 H3 H4 H5 H6 H7|chk sk H1 H2 H3 H4 H5 H6]; rewrite ?hist_app in He.
        - eapply Hc; eauto.
        - apply in_app_or in He. destruct He as [He|He].
          + rewrite (hist_plain maxr fuel m) in He; [destruct He|]. eapply Forall_impl; [|exact H6]. intros []; cbn; tauto.
          + eapply Hc; eauto.
        - eapply Hc; eauto. }
      destruct (R u st0 Ru Q') as [s [S1 [S2 [S3 S4]]]].
      + destruct T as [T|[e [T1 [T2 T3]]]]; [left; auto|right; exists e; auto].
      + assert (Ns : s <> st) by (intros ->; congruence).
        exists s. split; auto. split; auto. split; [apply fit_deliver; auto; rewrite R1; auto|]. rewrite W; auto.
  Qed.
  Lemma hm_Rv i x a team f l : YInv None x team f -> gone_free x team f -> hm i x a team f -> sv_tr a = l ++ sv_tr x ->
    Rv x team f -> Rv a team (fun s => deliver s l (taken (i_get i) s (f s))).
  Proof.
    intros Y Gf Q El R.
    assert (At : forall g q w, w_at (taken g q w) = w_at w) by (intros [] q w; cbn; auto; destruct (Nat.eqb _ _); reflexivity).
    assert (Same : forall g q l1 w, Forall silent l1 -> w_task (deliver q l1 (taken g q w)) = w_task w /\ w_at (deliver q l1 (taken g q w)) = w_at w /\
      (fit w -> fit (deliver q l1 (taken g q w)))).
    { intros g q l1 w S. rewrite deliver_silent by auto. rewrite task_taken, At, fit_taken. auto. }
    destruct Q as [st t r a1 l1 Ei Hst Eo Q I1 L1 T1 Ea|st t p a1 l1 Ei P Q I1 L1 T1 Ea|st m r pb a1 n Ei Hst Eo Tm E Hn Ea|Ei Ea].
    - subst a. rewrite Ei. destruct (check_all_spec a1) as [B _]. destruct (be_tr _ _ B) as [lc [Ec Ac]].
      assert (Y1 : YInv None (add_tr x [ARecv st (MAcquire t)]) team f) by (apply yinv_plain; auto; repeat constructor).
      destruct (ask_yinv _ _ _ _ _ _ _ _ _ _ _ _ _ Y1 Hst Eo) as [Y2 Et].
      assert (K2 : Rv a1 team (fun s => deliver s l1 (taken (GotMessage st (MAcquire t)) s (f s)))).
      { apply (acq_Rv t st (add_tr x [ARecv st (MAcquire t)])); auto.
        - rewrite task_taken. auto.
        - intros s Hs Ra. rewrite task_taken. rewrite At in Ra. destruct (Gf s Hs Ra) as [Fr|[s' Q']]; auto. right. exists s'. rewrite At, task_taken. exact Q'.
        - eapply Rv_ext; [| | | |exact R]; try reflexivity. intros s. rewrite task_taken, At, fit_taken. auto. }
      assert (l = lc ++ l1 ++ [ARecv st (MAcquire t)]).
      { apply (app_same _ _ (sv_tr x)). rewrite <- El, Ec, L1, <- !app_assoc. reflexivity. }
      eapply Rv_ext; [apply B|apply B|apply B| |exact K2]. intros s. cbn beta. subst l. rewrite !deliver_app.
      rewrite (deliver_silent s [ARecv _ _]) by (repeat constructor). rewrite (deliver_silent s lc) by (apply aside_silent; auto). auto.
    - subst a. rewrite Ei. destruct (check_all_spec a1) as [B _]. destruct (be_tr _ _ B) as [lc [Ec Ac]].
      destruct (retry_yinv _ _ _ _ _ _ _ _ _ _ _ _ _ Y P) as [Y1 [Hst Et]].
      assert (Y2 : YInv (Some st) (add_tr (set_pend x p) [ARetry t st]) team f) by (apply yinv_plain; auto; repeat constructor).
      assert (K2 : Rv a1 team (fun s => deliver s l1 (f s))).
      { apply (acq_Rv t st (add_tr (set_pend x p) [ARetry t st])); auto.
        intros u s Ru Qu Tu. cbn [add_tr set_pend sv_pend] in Qu. destruct (pfirst_qin _ _ _ _ P) as [Pm [_ Q2]].
        destruct (R u s Ru (Q2 _ _ Qu) Tu) as [s' [S1 [S2 [S3 S4]]]]. exists s'. split; auto. split; auto. split; auto.
        intros Hw. specialize (S4 Hw). cbn [add_tr set_pend sv_pend]. unfold waits in *. rewrite (count_perm _ _ s' Pm) in S4. cbn in S4.
        destruct (Nat.eq_dec st s'); [discriminate|auto]. }
      assert (l = lc ++ l1 ++ [ARetry t st]).
      { apply (app_same _ _ (sv_tr x)). rewrite <- El, Ec, L1, <- !app_assoc. reflexivity. }
      eapply Rv_ext; [apply B|apply B|apply B| |exact K2]. intros s. cbn beta. subst l. rewrite !deliver_app.
      rewrite (deliver_silent s [ARetry _ _]) by (repeat constructor). rewrite (deliver_silent s lc) by (apply aside_silent; auto). auto.
    - subst a. rewrite Ei. destruct (safe_more up down maxr fuel init _ _ _ _ _ E) as [[l1 [L1 Sl]] _].
      assert (Sn : Forall silent n) by (destruct Hn as [->|[pb' [w ->]]]; repeat constructor).
      destruct (check_all_spec (add_tr a1 n)) as [B _]. destruct (be_tr _ _ B) as [lc [Ec Ac]].
      assert (Hl : l = lc ++ n ++ l1 ++ [ARecv st m]).
      { apply (app_same _ _ (sv_tr x)). rewrite <- El, Ec. cbn [add_tr sv_tr]. rewrite L1. cbn [add_tr sv_tr].
        rewrite <- !app_assoc. reflexivity. }
      assert (Sil : Forall silent l).
      { subst l. repeat (apply Forall_app; split); auto using aside_silent. repeat constructor. }
      cut (Rv a1 team f). { intros Ra. eapply Rv_ext; [apply B|apply B|apply B| |exact Ra]. intros s. apply Same. auto. }
      assert (Y1 : YInv None (add_tr x [ARecv st m]) team f) by (apply yinv_plain; auto; repeat constructor).
      assert (Mk : msg_ok V x (w_task (f st)) m) by (apply (yi_out _ _ _ _ _ _ _ _ _ _ _ Y); auto; rewrite Eo; left; auto).
      destruct (told_ok _ maxr fuel _ _ _ _ Tm Mk) as [Vb Sb]. pose proof (yi_sv _ _ _ _ _ _ _ _ _ _ _ Y1) as Ix1.
      destruct (safe_release_ok V up down seeds maxr fuel GG EN s0 FR tasks init init_ok i pb st _ Ix1 Vb Sb) as [y' [E' [I' [Hv Hn']]]].
      rewrite E in E'. injection E' as <-.
      destruct (is_valid_return pb st (sv_book (add_tr x [ARecv st m]))) eqn:Va; [|rewrite Hn' by auto; exact R].
      destruct (Hv eq_refl) as [Hb [Hp [lp [Hlp Pl]]]]. clear Hv Hn'.
      destruct (valid_block V up down seeds maxr fuel GG EN s0 FR tasks pb st [] _ Ix1 Vb Va) as [lg [Hlg [Elg [Es _]]]].
      assert (Hsub : forall e, In e (sv_book a1) -> In e (sv_book x)).
      { intros e He. rewrite Hb in He. apply in_bdel in He. tauto. }
      intros u s1 Ru Qu Tu. rewrite Hp in Qu. cbn [add_tr sv_pend] in Qu.
      assert (Old : todo x f u -> busy a1 team f u).
      { intros To. destruct (R u s1 Ru Qu To) as [s [S1 [S2 [S3 S4]]]]. exists s. rewrite Hp. cbn [add_tr sv_pend]. auto. }
      destruct Tu as [Tu|[e [T2 [T3 T4]]]]; [|apply Old; right; exists e; auto].
      destruct (Nat.eq_dec (b_task (pb_block pb)) u) as [Eu|Nu].
      + clear Old. destruct (yi_book _ _ _ _ _ _ _ _ _ _ _ Y _ Hlg) as [O1 [O2 O3]].
        assert (Ob : b_task (blk (bid (pb_block pb), lg)) = u) by (unfold blk; cbn; rewrite Elg; exact Eu).
        assert (Oo : owner (bid (pb_block pb), lg) = st) by exact Es. rewrite Ob, Oo in O2.
        pose proof (yi_talk _ _ _ _ _ _ _ _ _ _ _ Y st Hst) as T. cbv beta iota in T. unfold talk in T. rewrite Eo in T.
        assert (Gn : gone (w_at (f st)) -> busy a1 team f u).
        { intros Ge. rewrite <- Oo in Ge. destruct (gone_coming _ _ _ _ _ Y Gf Hlg Ge) as [s [C1 [C2 C3]]]. rewrite Ob in C2.
          apply (coming_busy a1 team f f u s); auto. }
        destruct (w_at (f st)) eqn:Ea; try (apply Gn; exact I); try (exfalso; destruct T as [T ?]; discriminate).
        * exists st. unfold fit. rewrite Ea. split; auto. split; auto. split; [exact I|discriminate].
        * exists st. unfold fit. rewrite Ea, Hp. cbn [add_tr sv_pend]. split; auto. split; auto.
          destruct T as [[o [_ [T1 [T2 _]]]]|[[T _]|[[T _]|[pb1 [T _]]]]]; try discriminate. rewrite T1. split; [intros []|auto].
      + apply Old. left. revert Tu. pose proof (si_reach _ _ _ _ _ _ _ _ I') as Ra. rewrite Hlp, hist_app, (hist_plain maxr fuel lp Pl) in Ra.
        cbn [app] in Ra. change (hist (ACall (EvRel pb) :: sv_tr (add_tr x [ARecv st m]))) with ([EvRel pb] ++ hist (sv_tr x)) in Ra.
        apply (ready_back' [EvRel pb] (hist (sv_tr x))); auto; [apply (si_reach _ _ _ _ _ _ _ _ (yi_sv _ _ _ _ _ _ _ _ _ _ _ Y))|].
        intros e c [<-|[]] Ab. cbn in Ab. congruence.
    - subst a. assert (l = []) by (apply (app_same _ _ (sv_tr x)); symmetry; exact El). subst l.
      eapply Rv_ext; [| | | |exact R]; auto.
  Qed.
  Lemma lost_Rv i x y team f : YInv None x team f -> (forall st, i_closed i st = true -> In st team -> offline (w_at (f st))) ->
    check_lost up down maxr fuel init i x = Ok y -> Rv x team f -> Rv y team f.
  Proof.
    intros Y Cl E R. pose proof (yi_sv _ _ _ _ _ _ _ _ _ _ _ Y) as Ix.
    destruct (check_lost_ok V up down seeds maxr fuel GG EN s0 FR tasks init init_ok i x Ix) as [y' [E' [I' [Hb [Hp [Hh _]]]]]].
    rewrite E in E'. injection E' as <-. intros u st Ru Q T. rewrite Hp in Q.
    destruct (R u st Ru Q) as [s [S1 [S2 [S3 S4]]]]; [|exists s; rewrite Hp; auto].
    destruct T as [T|[e [T1 [T2 T3]]]].
    - destruct (Exists_dec (fun e => b_task (blk e) = u) (lost_in i x) (fun e => Nat.eq_dec _ _)) as [Ex|Nx].
      + apply Exists_exists in Ex. destruct Ex as [e [He Te]]. apply filter_In in He. destruct He as [He Ce].
        right. exists e. split; auto. split; auto.
        destruct (yi_book _ _ _ _ _ _ _ _ _ _ _ Y e He) as [O1 [O2 O3]]. pose proof (Cl _ Ce O1) as Of. fold (owner e) in Of.
        pose proof (yi_talk _ _ _ _ _ _ _ _ _ _ _ Y _ O1) as Tk. cbv beta iota in Tk. unfold talk in Tk.
        destruct (w_at (f (owner e))) eqn:Ea; try (destruct Of; fail); try exact I.
        destruct Tk as [_ [_ [_ Fr]]]. exfalso. apply (proj1 (free_iff _ _) Fr e He eq_refl).
      + left. revert T. pose proof (si_reach _ _ _ _ _ _ _ _ I') as Ry. rewrite Hh in Ry.
        eapply ready_back'; eauto; [apply (si_reach _ _ _ _ _ _ _ _ Ix)|]. intros ev c He Ab Tc. apply in_rev, in_map_iff in He.
        destruct He as [e [<- He]]. cbn in Ab. apply Nx. apply Exists_exists. exists e. split; auto. unfold blk. rewrite Ab. exact Tc.
    - right. exists e. rewrite Hb in T1. apply filter_In in T1. split; [tauto|auto].
  Qed.

  Definition Full (y : sys) : Prop := Good y /\ Lv (y_sv y) /\ Kv (y_sv y) (y_team y) (y_w y) /\ Rv (y_sv y) (y_team y) (y_w y).
  Lemma put_full y st w : Full y -> Good (put y st w) -> In st (y_team y) -> w_task w = w_task (y_w y st) ->
    (fit (y_w y st) -> fit w) -> (w_at w = Waiting -> waits (sv_pend (y_sv y)) st = 0%nat) -> w_at w <> Replaced -> Full (put y st w).
  Proof.
    intros [G [L [K R]]] G' Hst Et Ft Fw Nr. split; auto. split; auto. cbn [put y_sv y_team]. split.
    - eapply Kv_more; [exists []; reflexivity| |exact K]. intros s Hs. destruct (Nat.eq_dec s st) as [->|N]; [rewrite put_at|rewrite put_other by auto]; auto.
    - intros u s Ru Q T. change (busy (y_sv y) (y_team y) (y_w (put y st w)) u). change (todo (y_sv y) (y_w (put y st w)) u) in T.
      assert (Old : todo (y_sv y) (y_w y) u -> busy (y_sv y) (y_team y) (y_w (put y st w)) u).
      { intros T'. destruct (R u s Ru Q T') as [s' [S1 [S2 [S3 S4]]]]. exists s'. destruct (Nat.eq_dec s' st) as [->|N].
        - rewrite put_at. split; auto. split; [congruence|]. auto.
        - rewrite put_other by auto. auto. }
      destruct T as [T|[e [T1 [T2 T3]]]]; [apply Old; left; auto|].
      destruct (Nat.eq_dec (owner e) st) as [Eo|N].
      + rewrite Eo, put_at in T3. destruct G as [Y _]. destruct (yi_book _ _ _ _ _ _ _ _ _ _ _ Y e T1) as [O1 [O2 _]].
        exists st. rewrite put_at. split; auto. split; [congruence|]. unfold fit. destruct (w_at w); try (destruct T3; fail); try congruence. split; [exact I|discriminate].
      + rewrite put_other in T3 by auto. apply Old. right. exists e. auto.
  Qed.
  Lemma step_full y m y' : Full y -> step y m y' -> fine (y_sv y') -> Full y'.
  Proof.
    intros Fu S F. pose proof Fu as [G [L [K R]]]. assert (G' : Good y') by (eapply step_good; eauto).
    pose proof G as [Y Gf]. pose proof (yi_talk _ _ _ _ _ _ _ _ _ _ _ Y) as T.
    destruct S as [st t o r Hst Ew Hs Fs|st t o r Hst Ew|st t o pb r Hst Ew|st t o r Hst Ew|st t o pb r out Hst Ew No|st t p o r n Hst Ew Rn Sd|st st' t o r Hst Ew Nt|st t Nt Ht|i sv l Sp Io Ei El].
    - apply put_full; auto; rewrite ?Ew; cbn; auto; discriminate.
    - specialize (T st Hst). cbn in T. rewrite Ew in T. destruct T as [E [E' _]]. cbn in E. subst r.
      apply put_full; auto; rewrite ?Ew; cbn; auto; discriminate.
    - apply put_full; auto; rewrite ?Ew; cbn; auto; discriminate.
    - apply put_full; auto; rewrite ?Ew; cbn; auto; discriminate.
    - apply put_full; auto; rewrite ?Ew; cbn; auto; discriminate.
    - apply put_full; auto; rewrite ?Ew; cbn; auto; discriminate.
    - split; auto. split; auto. cbn [y_sv y_team y_w]. split; [|
        intros u s Ru Q To; destruct (Nat.eq_dec u t) as [Eu|Nu]; [
          exists st'; cbn [y_sv y_team y_w]; rewrite Nat.eqb_refl; split; [left; auto|]; split; [auto|]; split; [exact I|discriminate]|]].
      2:{ destruct (R u s Ru Q) as [s1 [S1 [S2 [S3 S4]]]].
          - destruct To as [To|[e [T1 [T2 T3]]]]; [left; auto|right]. exists e. split; auto. split; auto.
            destruct (yi_book _ _ _ _ _ _ _ _ _ _ _ Y e T1) as [O1 [O2 O3]].
            destruct (Nat.eqb_spec (owner e) st') as [Es|]; [destruct T3|]. destruct (Nat.eqb_spec (owner e) st) as [Es|]; auto.
            rewrite Es, Ew. exact I.
          - assert (s1 <> st) by (intros ->; rewrite Ew in S2; cbn in S2; congruence).
            assert (s1 <> st') by (intros ->; tauto).
            exists s1. rewrite (proj2 (Nat.eqb_neq s1 st')), (proj2 (Nat.eqb_neq s1 st)) by auto. split; [right; auto|auto]. }
      intros u Hu. destruct (K u Hu) as [[s [S1 [S2 S3]]]|[Q|Q]]; [left|right; left; auto|right; right].
      2:{ intros s [<-|H]; [rewrite Nat.eqb_refl; cbn; intros ->; apply (Q st Hst); rewrite Ew; reflexivity|].
          destruct (Nat.eqb_spec s st') as [->|]; [tauto|]. destruct (Nat.eqb_spec s st) as [->|]; auto. specialize (Q st Hst). rewrite Ew in Q. exact Q. }
      destruct (Nat.eq_dec s st) as [->|N].
      + exists st'. rewrite Nat.eqb_refl. rewrite Ew in S2. split; [left; auto|]. split; auto. exact I.
      + exists s. split; [right; auto|]. destruct (Nat.eqb_spec s st') as [->|N']; [tauto|].
        rewrite (proj2 (Nat.eqb_neq _ _) N). auto.
    - split; auto. split; auto. cbn [y_sv y_team y_w]. split.
      2:{ intros u s Ru Q To. destruct (R u s Ru Q) as [s1 [S1 [S2 [S3 S4]]]].
          - destruct To as [To|[e [T1 [T2 T3]]]]; [left; auto|right]. exists e. split; auto. split; auto.
            destruct (Nat.eqb_spec (owner e) st) as [Es|]; [destruct T3|auto].
          - assert (s1 <> st) by (intros ->; tauto).
            exists s1. rewrite (proj2 (Nat.eqb_neq s1 st)) by auto. split; [right; auto|auto]. }
      intros u Hu. destruct (Nat.eq_dec t u) as [->|Nu].
      { left. exists st. rewrite Nat.eqb_refl. split; [left; auto|]. split; [reflexivity|exact I]. }
      destruct (K u Hu) as [[s [S1 [S2 S3]]]|[Q|Q]]; [left|right; left; auto|right; right].
      + exists s. split; [right; auto|]. destruct (Nat.eqb_spec s st) as [->|N']; [tauto|]. auto.
      + intros s [<-|H]; [rewrite Nat.eqb_refl; exact Nu|]. destruct (Nat.eqb_spec s st) as [->|]; [tauto|auto].
    - cbn [y_sv y_team y_w] in *. destruct y as [x team f]. cbn [y_sv y_team y_w] in *.
      destruct (iter_split _ _ _ _ _ _ _ _ Ei) as [a [b [Ea [Eb Ey]]]].
      pose proof (msgs_hm V up down seeds maxr fuel GG EN s0 FR tasks known init init_ok _ _ _ _ _ Y Io Ea) as Q.
      destruct (hm_yinv V up down seeds maxr fuel GG EN s0 FR tasks init init_ok _ _ _ _ _ Y Q) as [l1 [L1 [Y1 _]]].
      destruct (lost_more up down maxr fuel init _ _ _ Eb) as [[l2 [L2 S2]] _].
      assert (Y3 : exists l3, sv_tr sv = l3 ++ sv_tr b /\ Forall aside l3).
      { subst sv. destruct (i_tick i); [|exists []; auto]. destruct (check_all_spec b) as [B _]. exact (be_tr _ _ B). }
      destruct Y3 as [l3 [L3 S3]].
      assert (l = l3 ++ l2 ++ l1).
      { apply (app_same _ _ (sv_tr x)). rewrite <- El, L3, L2, L1, <- !app_assoc. reflexivity. }
      assert (Fb : fine b) by (eapply fine_back; eauto). assert (Fa : fine a) by (eapply fine_back; eauto).
      split; auto. split.
      + cbn [y_sv]. assert (Lb : Lv b) by (apply (lost_Lv i a b (yi_sv _ _ _ _ _ _ _ _ _ _ _ Y1) Eb); apply (hm_Lv i x a team f Y Q Fa L)).
        subst sv. destruct (i_tick i); auto. apply check_Lv. auto.
      + cbn [y_sv y_team y_w]. split; [eapply Kv_more; [|  |eapply (hm_Kv i x a team f l1); eauto]|].
        * exists (l3 ++ l2). rewrite L3, L2, app_assoc. reflexivity.
        * intros s _. subst l. rewrite !deliver_app. rewrite (deliver_silent s l3), (deliver_silent s l2); auto. apply aside_silent; auto.
        * pose proof (hm_Rv i x a team f l1 Y Gf Q L1 R) as Ra.
          assert (Rb : Rv b team (fun s => deliver s l1 (taken (i_get i) s (f s)))).
          { apply (lost_Rv i a b); auto. intros st Hc Hst. rewrite at_moved. destruct Io as [_ [_ [Io _]]]. apply (Io st Hc). }
          assert (Sv : sv_s sv = sv_s b /\ sv_book sv = sv_book b /\ sv_pend sv = sv_pend b).
          { subst sv. destruct (i_tick i); auto. destruct (check_all_spec b) as [B _]. split; [apply B|]. split; apply B. }
          destruct Sv as [E1 [E2 E3]]. eapply Rv_ext; [exact E1|exact E2|exact E3| |exact Rb].
          intros s. cbn beta. subst l. rewrite !deliver_app. rewrite (deliver_silent s l3), (deliver_silent s l2); auto. apply aside_silent; auto.
  Qed.
  Lemma start_full sv crew : server_init init tasks false s0 = Ok sv -> (forall t, In t crew -> In t tasks) ->
    Full (start_of sv crew).
  Proof.
    intros E Hc. assert (G : Good (start_of sv crew)) by (eapply start_good; eauto). split; auto. split.
    - cbn [start_of y_sv]. apply started_Lv; [apply G|]. unfold server_init in E. destruct (recruit_spec init _ _ E) as [B [_ [_ [S _]]]].
      intros u Hu. apply S. right. rewrite (be_s _ _ B) in Hu. exact Hu.
    - split; [|intros u st Ru [q [Q1 Q2]] _; exfalso; cbn [start_of y_sv] in Q1; unfold server_init in E; destruct (recruit_spec init _ _ E) as [[_ _ Bp _] _];
        rewrite Bp in Q1; cbn in Q1; apply in_map_iff in Q1; destruct Q1 as [v [E1 _]]; injection E1 as _ <-; destruct Q2].
      intros t Ht. destruct (in_dec Nat.eq_dec t crew) as [Hk|Hk].
      + left. apply (In_nth _ _ 0%nat) in Hk. destruct Hk as [k [Hl Ek]].
        exists k. cbn. split; [apply in_seq; lia|]. split; [auto|exact I].
      + right. right. cbn. intros st Hst E'. apply Hk. rewrite <- E'. apply nth_In. apply in_seq in Hst. lia.
  Qed.

  (* what a worker can do by itself, and the pool for one that died *)
  Definition can_move (y : sys) (st : nat) : Prop :=
    In st (y_team y) /\
    match w_at (y_w y st) with
    | Unborn => In (w_task (y_w y st)) (sv_started (y_sv y)) /\
        forall s, In s (y_team y) -> w_task (y_w y s) = w_task (y_w y st) -> w_at (y_w y s) = Replaced -> ~ has_block (y_sv y) s
    | Asking | Working _ | Dead => True
    | Waiting => w_in (y_w y st) <> []
    | Left | Replaced => False
    end.
  Definition acts (m : move) (st : nat) : Prop :=
    match m with
    | Spawn s | Ask s | Get s | Finish s _ | Die s _ | Replace s _ => s = st
    | Hire _ _ | Serve _ => False
    end.
  Lemma has_block_dec x st : {has_block x st} + {~ has_block x st}.
  Proof.
    destruct (mine (sv_book x) st) as [|e r] eqn:E.
    - right. apply free_has. exact E.
    - left. exists e. assert (H : In e (mine (sv_book x) st)) by (rewrite E; left; auto). apply filter_In in H.
      destruct H as [H1 H2]. apply Nat.eqb_eq in H2. auto.
  Qed.
  Lemma can_move_dec y st : {can_move y st} + {~ can_move y st}.
  Proof.
    unfold can_move. destruct (in_dec Nat.eq_dec st (y_team y)) as [H|H]; [|right; tauto].
    destruct (w_at (y_w y st)); try (left; tauto); try (right; tauto).
    - destruct (in_dec Nat.eq_dec (w_task (y_w y st)) (sv_started (y_sv y))) as [H1|H1]; [|right; tauto].
      destruct (Exists_dec (fun s => w_task (y_w y s) = w_task (y_w y st) /\ w_at (y_w y s) = Replaced /\ has_block (y_sv y) s) (y_team y)) as [H2|H2].
      { intros s. destruct (Nat.eq_dec (w_task (y_w y s)) (w_task (y_w y st))); [|right; tauto].
        destruct (has_block_dec (y_sv y) s); [|right; tauto]. destruct (w_at (y_w y s)); try (right; intros [_ [X _]]; discriminate). left. auto. }
      + right. intros [_ [_ H3]]. apply Exists_exists in H2. destruct H2 as [s [Hs [A1 [A2 A3]]]]. apply (H3 s); auto.
      + left. split; auto. split; auto. intros s Hs A1 A2 A3. apply H2. apply Exists_exists. exists s. auto.
    - destruct (w_in (y_w y st)); [right; tauto|left; split; auto; discriminate].
  Qed.
  Lemma can_step y st : Good y -> can_move y st -> exists m y', acts m st /\ upsets m = false /\ step y m y'.
  Proof.
    intros [Y Gf] [Hst C]. pose proof (yi_talk _ _ _ _ _ _ _ _ _ _ _ Y st Hst) as T. cbv beta iota in T.
    destruct (y_w y st) as [t p o r] eqn:Ew. cbn [w_at w_task w_in] in C. unfold talk in T. cbn [w_at w_in w_out w_task] in T.
    destruct p as [| | |pb| | |]; try (exfalso; exact C).
    - exists (Spawn st). eexists. split; [reflexivity|]. split; [reflexivity|]. destruct C as [C1 C2]. eapply step_spawn; eauto.
    - exists (Ask st). eexists. split; [reflexivity|]. split; [reflexivity|]. eapply step_ask; eauto.
    - exists (Get st).
      assert (R : r = [Client.RShutdown] \/ exists pb, r = [Client.RSend pb]).
      { destruct T as [[o' [_ [-> _]]]|[[_ [-> _]]|[[_ [-> _]]|[pb [_ [-> _]]]]]]; eauto; congruence. }
      destruct R as [->|[pb ->]]; eexists; (split; [reflexivity|]); (split; [reflexivity|]); [eapply step_leave|eapply step_block]; eauto.
    - exists (Finish st (Client.Finished SUCCESS)). eexists. split; [reflexivity|]. split; [reflexivity|].
      eapply step_finish; eauto. intros s. discriminate.
    - exists (Replace st (S (list_max (y_team y)))). eexists. split; [reflexivity|]. split; [reflexivity|]. eapply step_replace; eauto.
      intros H. pose proof (proj1 (list_max_le (y_team y) (list_max (y_team y))) (Nat.le_refl _)) as M. rewrite Forall_forall in M.
      apply M in H. lia.
  Qed.

  (* every move but a death, and an iteration in which nothing happens, uses something up *)
  Definition deads (y : sys) : Z := sum (fun st => match w_at (y_w y st) with Dead => 8 | _ => 0 end) (y_team y).
  Definition mu2 (y : sys) : Z := mus V maxr y + deads y.
  Lemma deads_nonneg y : 0 <= deads y.
  Proof. apply sum_nonneg. intros st. destruct (w_at _); lia. Qed.
  Lemma mu2_nonneg y : Good y -> 0 <= mu2 y.
  Proof.
    intros G. unfold mu2. pose proof (mus_nonneg V up down seeds maxr fuel GG EN s0 FR tasks y G). pose proof (deads_nonneg y). lia.
  Qed.
  Lemma put_deads y st w : Good y -> In st (y_team y) -> w_at w <> Dead -> deads (put y st w) <= deads y.
  Proof.
    intros [Y _] Hst N. unfold deads. cbn [put y_team y_w].
    pose (g := fun v : worker => match w_at v with Dead => 8 | _ => 0 end).
    assert (S := sum_one (fun s => g (y_w y s)) (fun s => g (if Nat.eqb s st then w else y_w y s)) (y_team y) st (yi_nodup _ _ _ _ _ _ _ _ _ _ _ Y) Hst).
    assert (S' : forall s, In s (y_team y) -> s <> st -> g (if Nat.eqb s st then w else y_w y s) = g (y_w y s)).
    { intros s _ Ns. rewrite (proj2 (Nat.eqb_neq _ _) Ns). reflexivity. }
    specialize (S S'). cbv beta in S. rewrite Nat.eqb_refl in S.
    assert (Gw : g w = 0) by (unfold g; destruct (w_at w); congruence).
    assert (Gy : 0 <= g (y_w y st)) by (unfold g; destruct (w_at (y_w y st)); lia).
    change (sum (fun s => g (if Nat.eqb s st then w else y_w y s)) (y_team y) <= sum (fun s => g (y_w y s)) (y_team y)). lia.
  Qed.
  Lemma step_mu2 y m y' : Good y -> step y m y' -> upsets m = false ->
    mu2 y' <= mu2 y /\ (works y m y' \/ replaces m = true -> mu2 y' + 1 <= mu2 y).
  Proof.
    intros G S D. pose proof (step_mu V up down seeds maxr fuel GG EN s0 FR tasks known init init_ok y m y' G S) as [M1 [M2 _]].
    assert (Q : deads y' + (if replaces m then 8 else 0) <= deads y).
    { clear M1 M2. destruct S as [st t o r Hst Ew Hs Fs|st t o r Hst Ew|st t o pb r Hst Ew|st t o r Hst Ew|st t o pb r out Hst Ew No|st t p o r n Hst Ew Rn Sd|st st' t o r Hst Ew Nt|st t Nt Ht|i sv l Sp Io Ei El];
        cbn [replaces] in *; try discriminate; rewrite ?Z.add_0_r; try (apply put_deads; auto; discriminate).
      - unfold deads. cbn [y_team y_w sum]. rewrite Nat.eqb_refl. cbn [w_at].
        pose (g := fun v : worker => match w_at v with Dead => 8 | _ => 0 end).
        assert (S := sum_one (fun s => g (y_w y s)) (fun s => g (if Nat.eqb s st' then Worker t Unborn [] [] else if Nat.eqb s st then Worker t Replaced o r else y_w y s)) (y_team y) st (yi_nodup _ _ _ _ _ _ _ _ _ _ _ (proj1 G)) Hst).
        match type of S with ?A -> _ => assert (S' : A) end.
        { intros s Hs Ns. destruct (Nat.eqb_spec s st') as [->|]; [tauto|]. rewrite (proj2 (Nat.eqb_neq _ _) Ns). reflexivity. }
        specialize (S S'). cbv beta in S. rewrite Nat.eqb_refl in S. destruct (Nat.eqb_spec st st') as [->|]; [tauto|].
        change (g (Worker t Replaced o r)) with 0 in S.
        assert (g (y_w y st) = 8) by (rewrite Ew; reflexivity).
        change (0 + sum (fun s => g (if Nat.eqb s st' then Worker t Unborn [] [] else if Nat.eqb s st then Worker t Replaced o r else y_w y s)) (y_team y) + 8 <= sum (fun s => g (y_w y s)) (y_team y)). lia.
      - unfold deads. cbn [y_team y_w].
        rewrite (sum_same (fun s => match w_at (y_w y s) with Dead => 8 | _ => 0 end)); [lia|]. intros s _. rewrite at_moved. reflexivity. }
    assert (Hs : starts m = replaces m) by (unfold starts; destruct m; auto; discriminate). rewrite Hs in M1.
    unfold mu2. split; [destruct (replaces m); lia|]. intros [W|W]; [specialize (M2 W)|rewrite W in *]; destruct (replaces m); lia.
  Qed.

  (* an iteration in which nothing happens *)
  Definition same (y y' : sys) : Prop :=
    sv_s (y_sv y') = sv_s (y_sv y) /\ sv_book (y_sv y') = sv_book (y_sv y) /\ sv_started (y_sv y') = sv_started (y_sv y) /\
    y_team y' = y_team y /\ forall st, y_w y' st = y_w y st.
  Lemma same_refl y : same y y.
  Proof. repeat split. Qed.
  Lemma same_trans y y1 y2 : same y y1 -> same y1 y2 -> same y y2.
  Proof. intros [A1 [A2 [A3 [A4 A5]]]] [B1 [B2 [B3 [B4 B5]]]]. repeat split; try congruence. Qed.
  Lemma same_move y y' st : same y y' -> can_move y st -> can_move y' st.
  Proof.
    intros [A1 [A2 [A3 [A4 A5]]]]. unfold can_move, has_block. rewrite A2, A3, A4, A5. intros [H1 H2]. split; auto.
    destruct (w_at (y_w y st)); auto. destruct H2 as [H2 H3]. split; auto. intros s. rewrite (A5 s). apply H3.
  Qed.
  Lemma move_same y y' st : same y y' -> can_move y' st -> can_move y st.
  Proof.
    intros [A1 [A2 [A3 [A4 A5]]]]. unfold can_move, has_block. rewrite A2, A3, A4, A5. intros [H1 H2]. split; auto.
    destruct (w_at (y_w y st)); auto. destruct H2 as [H2 H3]. split; auto. intros s. rewrite <- (A5 s). apply H3.
  Qed.
  (* the three outcomes of an iteration without a message *)
  Lemma quiet_serve i x team f sv l : YInv None x team f -> input_ok (Sys x team f) i -> (forall st m, i_get i <> GotMessage st m) ->
    iteration up down maxr fuel init i x = Ok sv -> sv_tr sv = l ++ sv_tr x ->
    existsb effect l = true \/
    (lost_in i x = [] /\ sv_s sv = sv_s x /\ sv_book sv = sv_book x /\ sv_started sv = sv_started x /\ (forall s, replies s l = []) /\
     (i_tick i = true -> all_done (sv_s x) = true -> sv_stop sv = true) /\
     (i_get i = GotNothing -> pfirst (sv_pend x) = None \/
        exists t st p, pfirst (sv_pend x) = Some (t, st, p) /\ readyl (sv_s x) t = [] /\ ts_ready (s_st (sv_s x) t) = 0 /\ ts_pending (s_st (sv_s x) t) <> 0)).
  Proof.
    intros Y Io Ng Ei El. destruct (existsb effect l) eqn:Ef; [left; auto|right].
    destruct (iter_split _ _ _ _ _ _ _ _ Ei) as [a [b [Ea [Eb Ey]]]].
    pose proof (msgs_hm V up down seeds maxr fuel GG EN s0 FR tasks known init init_ok _ _ _ _ _ Y Io Ea) as Q.
    destruct (hm_yinv V up down seeds maxr fuel GG EN s0 FR tasks init init_ok _ _ _ _ _ Y Q) as [l1 [L1 [Y1 _]]].
    destruct (lost_more up down maxr fuel init _ _ _ Eb) as [[l2 [L2 S2]] _].
    destruct (lost_pot V up down seeds maxr fuel GG EN s0 FR tasks init init_ok _ _ _ _ (yi_sv _ _ _ _ _ _ _ _ _ _ _ Y1) Eb L2) as [_ [P2 P3]].
    assert (Y3 : sv_s sv = sv_s b /\ sv_book sv = sv_book b /\ sv_started sv = sv_started b /\
      (i_tick i = true -> all_done (sv_s b) = true -> sv_stop sv = true) /\ exists l3, sv_tr sv = l3 ++ sv_tr b /\ Forall aside l3).
    { subst sv. destruct (i_tick i); [|repeat split; auto; [discriminate|exists []; auto]].
      destruct (check_all_spec b) as [B [S [T _]]]. split; [apply B|]. split; [apply B|]. split; [exact S|].
      split; [|exact (be_tr _ _ B)]. intros _ D. rewrite T, D. apply Bool.orb_true_r. }
    destruct Y3 as [E1 [E2 [E3 [E4 [l3 [L3 S3]]]]]].
    assert (l = l3 ++ l2 ++ l1).
    { apply (app_same _ _ (sv_tr x)). rewrite <- El, L3, L2, L1, <- !app_assoc. reflexivity. }
    subst l. rewrite !effect_app in Ef. apply Bool.orb_false_iff in Ef. destruct Ef as [_ Ef]. apply Bool.orb_false_iff in Ef. destruct Ef as [Ef2 Ef1].
    assert (La : lost_in i a = []).
    { destruct (lost_in i a) as [|e r]; auto. exfalso. assert (existsb effect l2 = true) by (apply P2; discriminate). congruence. }
    specialize (P3 La). subst b.
    assert (l2 = []) by (apply (app_same _ _ (sv_tr a)); symmetry; exact L2). subst l2. clear P2 S2 L2 Ef2.
    assert (Ra : forall s, replies s (l3 ++ [] ++ l1) = replies s l1).
    { intros s. change ([] ++ l1) with l1. rewrite replies_app. rewrite (replies_silent s l3), app_nil_r by (apply aside_silent; auto). reflexivity. }
    assert (Body : sv_s a = sv_s x /\ sv_book a = sv_book x /\ sv_started a = sv_started x /\ (forall s, replies s l1 = []) /\
     (i_get i = GotNothing -> pfirst (sv_pend x) = None \/
        exists t st p, pfirst (sv_pend x) = Some (t, st, p) /\ readyl (sv_s x) t = [] /\ ts_ready (s_st (sv_s x) t) = 0 /\ ts_pending (s_st (sv_s x) t) <> 0)).
    { clear E1 E2 E3 E4 L3 S3 Ra El Ei. destruct Q as [st t r a1 la Ei Hst Eo Q I1 La1 T1 Eaa|st t p a1 la Ei P Q I1 La1 T1 Eaa|st m r pb a1 n Ei Hst Eo Tm E Hn Eaa|Ei Eaa].
      - exfalso. eapply Ng; eauto.
      - subst a. destruct (check_all_spec a1) as [B [S _]]. destruct (be_tr _ _ B) as [lc [Ec Ac]].
        assert (l1 = lc ++ la ++ [ARetry t st]).
        { apply (app_same _ _ (sv_tr x)). rewrite <- L1, Ec, La1, <- !app_assoc. reflexivity. }
        subst l1. rewrite !effect_app in Ef1. apply Bool.orb_false_iff in Ef1. destruct Ef1 as [_ Ef1]. apply Bool.orb_false_iff in Ef1. destruct Ef1 as [Ef1 _].
        rewrite (be_s _ _ B), (be_book _ _ B), S.
        assert (Rl : forall s, replies s (lc ++ la ++ [ARetry t st]) = replies s la).
        { intros s. rewrite !replies_app. rewrite (replies_silent s lc), app_nil_r by (apply aside_silent; auto). reflexivity. }
        destruct (retry_yinv _ _ _ _ _ _ _ _ _ _ _ _ _ Y P) as [Yp _].
        destruct Q as [chk pb sk now H1 H2 H3 H4|chk sk m H1 H2 H3 H4 H5 H6 H7|chk sk H1 H2 H3 H4 H5 H6].
        + exfalso. rewrite effect_app in Ef1. cbn in Ef1. discriminate.
        + exfalso. rewrite effect_app in Ef1. cbn in Ef1. rewrite Bool.orb_true_r in Ef1. discriminate.
        + cbn [existsb effect orb] in Ef1. rewrite effect_calls in Ef1. destruct sk as [|c sk]; [|discriminate].
          pose proof (si_reach _ _ _ _ _ _ _ _ (yi_sv _ _ _ _ _ _ _ _ _ _ _ Y)) as Rx.
          destruct (none_empty V up down seeds maxr fuel GG EN s0 FR _ _ Rx t chk _ H1) as [Er Es]. cbn [add_tr set_pend sv_s] in Es.
          rewrite Es in *. split; auto. split; [exact H2|]. split; [exact H6|]. split.
          * intros s. rewrite Rl. apply replies_silent. constructor; [exact I|apply calls_silent].
          * intros _. right. exists t, st, p. auto.
      - exfalso. eapply Ng; eauto.
      - subst a. assert (l1 = []) by (apply (app_same _ _ (sv_tr x)); symmetry; exact L1). subst l1. repeat split; auto.
        intros H. left. destruct Ei as [Ei|[_ Ei]]; [congruence|auto]. }
    destruct Body as [B1 [B2 [B3 [B4 B5]]]].
    unfold lost_in in *. rewrite B2 in La. repeat split; auto; try congruence.
    - rewrite B1 in E4. exact E4.
  Qed.
  Lemma calm y m y' : Good y -> step y m y' -> upsets m = false -> replaces m = false -> ~ works y m y' -> same y y'.
  Proof.
    intros G S D Rp W. destruct S as [st t o r Hst Ew Hs Fs|st t o r Hst Ew|st t o pb r Hst Ew|st t o r Hst Ew|st t o pb r out Hst Ew No|st t p o r n Hst Ew Rn Sd|st st' t o r Hst Ew Nt|st t Nt Ht|i sv l Sp Io Ei El];
      try discriminate; try (exfalso; apply W; exact I).
    destruct y as [x team f]. cbn [y_sv y_team y_w] in *.
    assert (Ng : forall st m, i_get i <> GotMessage st m) by (intros st m E; apply W; left; eauto).
    destruct (quiet_serve i x team f sv l (proj1 G) Io Ng Ei El) as [E|[_ [E1 [E2 [E3 [E4 _]]]]]].
    - exfalso. apply W. right. exists l. auto.
    - repeat split; auto. intros st. cbn [y_w]. unfold deliver. rewrite E4, app_nil_r.
      assert (Et : taken (i_get i) st (f st) = f st) by (unfold taken; destruct (i_get i) as [s m| | |] eqn:Eg; auto; exfalso; eapply Ng; reflexivity).
      rewrite Et. destruct (f st). reflexivity.
  Qed.

  (* an iteration that gets no message, in which the connections of all workers that are gone
     are closed and all tasks are looked at *)
  Definition idle (y : sys) (i : input) : Prop :=
    i_get i = GotNothing /\ i_tick i = true /\
    forall st, In st (y_team y) -> w_at (y_w y st) = Dead \/ w_at (y_w y st) = Replaced -> i_closed i st = true.
  (* an unsettled block whose turn it is *)
  Lemma next_block h s b : reach h s -> apart (fun b => In b V) up maxr h -> In b V -> ~ settled h b ->
    exists c, In c V /\ ~ settled h c /\ (forall a, In a (up c) -> settled h a) /\
      (forall a, In a V -> (at_ (b_task a) < at_ (b_task c))%nat -> settled h a).
  Proof.
    intros R F. destruct (gg_acyclic _ _ _ _ GG) as [rank Hr].
    assert (D : forall l, (forall a, In a l -> In a V) -> (exists a, In a l /\ ~ settled h a) \/ (forall a, In a l -> settled h a)).
    { induction l as [|a l IH]; intros Hl; [right; intros a []|].
      destruct (settled_dec h s a R F (Hl a (or_introl eq_refl))) as [H|H]; [|left; exists a; split; auto; left; auto].
      destruct IH as [[c [H1 H2]]|IH]; [intros c Hc; apply Hl; right; auto|left; exists c; split; auto; right; auto|].
      right. intros c [<-|Hc]; auto. }
    remember (at_ (b_task b)) as p eqn:Ep. revert b Ep. induction p as [p IHp] using lt_wf_ind. intros b Ep.
    remember (rank b) as k eqn:Ek. revert b Ep Ek. induction k as [k IHk] using lt_wf_ind. intros b Ep Ek Vb Ub.
    destruct (D (filter (fun a => Nat.ltb (at_ (b_task a)) p) V)) as [[a [Ha Ua]]|Low].
    { intros a Ha. apply filter_In in Ha. tauto. }
    { apply filter_In in Ha. destruct Ha as [Va La]. apply Nat.ltb_lt in La. apply (IHp _ La a eq_refl Va Ua). }
    destruct (D (up b)) as [[a [Ha Ua]]|Ups].
    { intros a Ha. apply (gg_up _ _ _ _ GG a b Vb Ha). }
    { pose proof (gg_up _ _ _ _ GG a b Vb Ha) as Va. destruct (ups_at b a Vb Ha) as [E|L].
      - refine (IHk (rank a) _ a _ eq_refl Va Ua); [subst k; apply Hr; auto|rewrite E; exact Ep].
      - exfalso. apply Ua. apply Low. apply filter_In. split; auto. apply Nat.ltb_lt. lia. }
    exists b. repeat split; auto. intros a Va L. apply Low. apply filter_In. split; auto. apply Nat.ltb_lt. lia.
  Qed.
  Lemma ups_succeeded h s b : reach h s -> In b V -> ~ settled h b -> (forall a, In a (up b) -> settled h a) ->
    forall a, In a (up b) -> succeeded h a.
  Proof.
    intros R Vb U S a Ha. destruct (S a Ha) as [H|[H|[c [H1 H2]]]]; auto; exfalso; apply U; right; right.
    - exists a. split; auto. constructor. auto.
    - exists c. split; auto. eapply anc_more; eauto.
  Qed.
  Definition manned (y : sys) : Prop := forall t, In t tasks -> In t (sv_started (y_sv y)) -> exists st, In st (y_team y) /\ w_task (y_w y st) = t.
  Lemma no_deadlock y i y' : Full y -> manned y -> step y (Serve i) y' -> fine (y_sv y') -> idle y i -> (forall st, ~ can_move y st) ->
    (forall st, In st (y_team y) -> w_out (y_w y st) = []) -> works y (Serve i) y' \/ sv_stop (y_sv y') = true.
  Proof.
    intros [G [L [K Rr]]] Mn S F [Ig [It Ic]] Nm No. inversion S as [| | | | | | | |i' sv l Sp Io Ei El]; subst i' y'.
    destruct y as [x team f]. cbn [y_sv y_team y_w] in *. pose proof G as [Y Gf]. cbn [y_sv y_team y_w] in *.
    assert (Ng : forall st m, i_get i <> GotMessage st m) by (intros st m E; congruence).
    destruct (quiet_serve i x team f sv l Y Io Ng Ei El) as [E|[E0 [E1 [E2 [E3 [_ [E5 E6]]]]]]].
    { left. right. exists l. auto. }
    right. specialize (E6 Ig). pose proof (yi_sv _ _ _ _ _ _ _ _ _ _ _ Y) as Ix. pose proof (si_reach _ _ _ _ _ _ _ _ Ix) as R.
    assert (Fx : fine x) by (eapply fine_back; [exact El|exact F]).
    assert (Wk : forall st, In st team -> w_at (f st) = Waiting -> w_in (f st) = [] /\ waits (sv_pend x) st = 1%nat /\ free (sv_book x) st).
    { intros st Hst Ea. pose proof (yi_talk _ _ _ _ _ _ _ _ _ _ _ Y st Hst) as T. cbv beta iota in T. unfold talk in T. rewrite Ea in T.
      pose proof (No st Hst) as Eo. cbn in Eo.
      assert (Ei0 : w_in (f st) = []).
      { destruct (w_in (f st)) as [|r0 r1] eqn:Er; auto. exfalso. apply (Nm st). split; auto. cbn. rewrite Ea, Er. discriminate. }
      rewrite Eo, Ei0 in T. destruct T as [[o [Q _]]|[[_ [_ Q]]|[[_ [Q _]]|[pb [_ [Q _]]]]]]; try discriminate; auto.
      destruct o; discriminate. }
    (* nobody has a block *)
    assert (Bk : sv_book x = []).
    { destruct (sv_book x) as [|e r] eqn:Eb; auto. exfalso.
      assert (He : In e (sv_book x)) by (rewrite Eb; left; auto).
      destruct (yi_book _ _ _ _ _ _ _ _ _ _ _ Y e He) as [O1 [O2 O3]].
      assert (Nf : ~ free (sv_book x) (owner e)) by (intros Fr; apply (proj1 (free_iff _ _) Fr e He eq_refl)).
      assert (Nl : i_closed i (owner e) = false).
      { destruct (i_closed i (owner e)) eqn:Ec; auto. exfalso. assert (H : In e (lost_in i x)) by (apply filter_In; auto).
        rewrite E0 in H. destruct H. }
      pose proof (Nm (owner e)) as Nme. unfold can_move in Nme. cbn in Nme.
      pose proof (yi_talk _ _ _ _ _ _ _ _ _ _ _ Y (owner e) O1) as T. cbv beta iota in T. unfold talk in T.
      destruct (w_at (f (owner e))) eqn:Ea; try (apply O3; reflexivity); try (apply Nme; split; auto; exact I).
      - destruct (Wk _ O1 Ea) as [_ [_ Fr]]. rewrite <- Eb in Fr. auto.
      - tauto.
      - rewrite (Ic _ O1 (or_intror Ea)) in Nl. discriminate. }
    assert (Nh : forall b, ~ held (hist (sv_tr x)) b).
    { intros b H. apply (si_held _ _ _ _ _ _ _ _ Ix) in H. rewrite Bk in H. destruct H. }
    destruct (all_done (sv_s x)) eqn:Ed; [apply E5; auto|]. exfalso.
    (* a block that is not settled *)
    assert (Ex : exists b, In b V /\ ~ settled (hist (sv_tr x)) b).
    { destruct (Exists_dec (fun t => ts_is_done (s_st (sv_s x) t) = false) (s_order (sv_s x)) (fun t => Bool.bool_dec _ _)) as [H|H].
      - apply Exists_exists in H. destruct H as [t [_ Ht]].
        destruct (settled_card V up down seeds maxr fuel GG EN s0 FR _ _ R Fx t) as [ls [N1 [Hs C1]]].
        destruct (counters V up down seeds maxr fuel GG EN s0 FR _ _ R t) as [_ [_ [_ [_ [lt [N3 [Hl C3]]]]]]].
        destruct (Exists_dec (fun b => ~ In b ls) lt (fun b => match in_dec block_dec b ls with left H => right (fun K => K H) | right K => left K end)) as [Q|Q].
        + apply Exists_exists in Q. destruct Q as [b [Hb Q]]. apply Hl in Hb. exists b. split; [tauto|]. intros St. apply Q. apply Hs. tauto.
        + exfalso. assert (L1 : (length lt <= length ls)%nat).
          { apply NoDup_incl_length; auto. intros b Hb. destruct (in_dec block_dec b ls); auto. exfalso. apply Q. apply Exists_exists. eauto. }
          assert (L2 : (length ls <= length lt)%nat).
          { apply NoDup_incl_length; auto. intros b Hb. apply Hs in Hb. apply Hl. tauto. }
          unfold ts_is_done in Ht. apply Z.eqb_neq in Ht. lia.
      - exfalso. assert (all_done (sv_s x) = true); [|congruence]. unfold all_done. apply forallb_forall. intros t Ht.
        destruct (ts_is_done (s_st (sv_s x) t)) eqn:E; auto. exfalso. apply H. apply Exists_exists. eauto. }
    destruct Ex as [b0 [Vb0 Ub0]]. destruct (next_block _ _ b0 R Fx Vb0 Ub0) as [b [Vb [Ub [Su Low]]]].
    assert (Rb : In b (readyl (sv_s x) (b_task b))).
    { apply (ready_iff V up down seeds maxr fuel GG EN s0 FR _ _ R AR). repeat split; auto.
      - eapply ups_succeeded; eauto.
      - intros H. apply Ub. left. auto.
      - intros H. apply Ub. right. left. auto. }
    assert (Sb : In (b_task b) (sv_started x)).
    { destruct (L (b_task b)) as [H|[[c H]|[c [H1 [H2 H3]]]]]; auto.
      - intros E. rewrite E in Rb. destruct Rb.
      - exfalso. eapply Nh; eauto.
      - exfalso. apply H2. apply Low; auto. }
    destruct (K (b_task b) (known_V b Vb)) as [[st [Hst [Et Ft]]]|[Q|Q]]; [|apply Ub; apply Q; auto|].
    2:{ destruct (Mn (b_task b) (known_V b Vb) Sb) as [st [Hst Et]]. apply (Q st Hst Et). }
    pose proof (Nm st) as Nms. unfold can_move in Nms. cbn in Nms. unfold fit in Ft.
    destruct (w_at (f st)) eqn:Ea; try exact Ft; try (apply Nms; split; auto; exact I).
    - apply Nms. split; auto. rewrite Et. split; auto. intros s _ _ _ [e [He _]]. cbn in He. rewrite Bk in He. destruct He.
    - destruct (Wk st Hst Ea) as [_ [Wt _]].
      assert (Q : exists u, qin (sv_pend x) u st).
      { assert (H : In st (flat_map snd (sv_pend x))).
        { apply (count_occ_In Nat.eq_dec). unfold waits in Wt. rewrite Wt. lia. }
        apply in_flat_map in H. destruct H as [[u q] [H1 H2]]. exists u, q. auto. }
      destruct Q as [u Q]. destruct (yi_queue _ _ _ _ _ _ _ _ _ _ _ Y u st Q) as [_ [Eu _]]. rewrite Et in Eu. subst u.
      destruct E6 as [E6|[t [st' [p [E6 [Er [Ez Epd]]]]]]]; [apply (pfirst_none _ E6 _ _ Q)|].
      assert (Nd : NoDup (map fst (sv_pend x))).
      { rewrite (si_pend _ _ _ _ _ _ _ _ Ix). apply (NoDup_dedup _ (fun _ : nat => True)); auto. intros u1 u2 _ _. apply Nat.eqb_eq. }
      pose proof (pfirst_pos _ _ _ _ _ _ Nd E6 Q) as Lp. rewrite (si_pend _ _ _ _ _ _ _ _ Ix) in Lp.
      destruct (pfirst_qin _ _ _ _ E6) as [_ [Qt _]]. destruct (yi_queue _ _ _ _ _ _ _ _ _ _ _ Y t st' Qt) as [Hst' [Et' _]].
      assert (Tt : In t tasks) by (rewrite <- Et'; apply (yi_task _ _ _ _ _ _ _ _ _ _ _ Y); auto).
      destruct (pending_some _ _ t R Fx Ez Epd) as [c [Vc [Tc Uc]]].
      destruct (Nat.eq_dec t (b_task b)) as [->|Nt]; [rewrite Er in Rb; destruct Rb|].
      destruct (at_pos t (b_task b) Tt (known_V b Vb) Nt Lp) as [Lt|Rt]; [apply Uc; apply Low; auto; rewrite Tc; exact Lt|].
      assert (To : todo x f (b_task b)) by (left; intros E; rewrite E in Rb; destruct Rb).
      destruct (Rr _ _ Rt Q To) as [s1 [S1 [S2 [S3 S4]]]]. pose proof (Nm s1) as Nm1. unfold can_move in Nm1. cbn in Nm1. unfold fit in S3.
      destruct (w_at (f s1)) eqn:Ea1; try exact S3; try (apply Nm1; split; auto; exact I).
      * apply Nm1. split; auto. rewrite S2. split; auto. intros s _ _ _ [e [He _]]. cbn in He. rewrite Bk in He. destruct He.
      * destruct (Wk s1 S1 Ea1) as [_ [W1 _]]. rewrite S4 in W1 by auto. discriminate.
  Qed.
End Live.
