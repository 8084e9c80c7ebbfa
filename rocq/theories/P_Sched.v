(* The properties of the scheduler (C12-C25, C27) for pipelines of tasks.  [pipe_run tasks ord ordt
   d s0 fuel h s]: a scheduler for [tasks] was built (dependency graph d, state s0) and reached
   state s by the calls recorded in h.  P_SchedCE has the runs showing that the hypotheses
   [inverse] (C12), [no_lonely] (C19) and the bound on upstream blocks (C21) are needed. *)
From Coq Require Import Lia Permutation.
From Verif Require Import GraphProps SchedExec PipeRun P_SchedCE.
Open Scope Z_scope.

Section Sched.
  Variables (tasks : list task) (ord : list block -> list block) (ordt : list nat -> list nat).
  Variables (d : dgraph) (s0 : sched) (fuel : nat) (h : history) (s : sched).
  Hypothesis PR : pipe_run tasks ord ordt d s0 fuel h s.
  Notation Up := (dg_up ord ordt d).
  Notation Down := (dg_down ord ordt d).
  Notation maxr := (dg_max_retries d).
  Let RI := run_in tasks ord ordt d s0 fuel h s PR.
  Let RR := pr_reach _ _ _ _ _ _ _ _ PR.
  Let FR := run_fresh tasks ord ordt d s0 fuel h s PR.
  Let PO := pr_ok _ _ _ _ _ _ _ _ PR.
  Let HO := pr_ord _ _ _ _ _ _ _ _ PR.
  Let HOt := pr_ordt _ _ _ _ _ _ _ _ PR.
  Let DK := run_dk _ _ _ _ _ _ _ _ PR.
  Let RM := run_room _ _ _ _ _ _ _ _ PR.
  Let SG := run_safe _ _ _ _ _ _ _ _ PR.

  (* ---- for every pipeline ---- *)
  Lemma L13 t g u gu h2 e h1 a b p :
    in_pipe tasks t -> task_graph t = Ok g -> In u (t_ups t) -> task_graph u = Ok gu ->
    h = h2 ++ e :: h1 -> takes e b -> generated g b -> generated gu a ->
    pt_in p (b_write a) -> pt_in p (b_read b) -> in_total_write u p -> succeeded h1 a.
  Proof.
    intros Ht E Hu Eu Eh T Gb Ga P1 P2 P3.
    destruct (reach_past _ _ _ _ _ _ SG _ FR h s RR h2 e h1 b Eh T) as [_ [U _]].
    apply U. apply (up_direct tasks PO d DK ord ordt HO HOt t g b u gu a p); auto.
  Qed.
  Lemma L14 h2 e h1 b : h = h2 ++ e :: h1 -> takes e b ->
    pipe_block tasks b /\ forall a, In a (Up b) -> succeeded h1 a.
  Proof.
    intros Eh T.
    destruct (reach_past _ _ _ _ _ _ SG _ FR h s RR h2 e h1 b Eh T) as [V [U _]].
    split; auto. apply RI, V.
  Qed.

  (* ---- upstream and downstream inverse ---- *)
  Hypothesis IV : inverse tasks ord ordt d.

  (* a task that requires others does not run its blocks that depend on nothing *)
  Lemma L19 t g h2 e h1 b :
    in_pipe tasks t -> task_graph t = Ok g -> t_ups t <> [] -> generated g b -> Up b = [] ->
    h = h2 ++ e :: h1 -> ~ takes e b.
  Proof.
    intros Ht E Nu Gb Ub Eh T.
    destruct (reach_past _ _ _ _ _ _ SG _ FR h s RR h2 e h1 b Eh T) as [V [_ [[i Si]|[a [Va Da]]]]].
    - destruct (seeds_ok tasks PO d DK ord ordt HO HOt RM i b Si) as [_ [Tb _]].
      destruct (seeds_info tasks PO d DK RM i b Si) as [x [_ [_ [Hx [Ei [Ex _]]]]]].
      rewrite (gen_id tasks PO t g b Ht E Gb), <- Ei in Tb. apply (po_ids _ PO) in Tb; auto. subst x. auto.
    - apply (IV a b) in Da; [rewrite Ub in Da; destruct Da|apply RI; auto|apply RI; auto].
  Qed.

  Hypothesis FO : fuel_ok tasks fuel.
  Let GG := run_good _ _ _ _ _ _ _ _ PR IV.
  Let EN := run_enough _ _ _ _ _ _ _ _ PR FO.
  Let HI : HInv (pblocks d) Up Down (root_seeds d) maxr s0 h s :=
    reach_HInv _ Up Down _ maxr fuel GG EN s0 FR h s RR.
  Let II := hi_inv _ _ _ _ _ _ _ _ HI.

  Lemma anc_trans up (a b c : block) : ancestor up a b -> ancestor up b c -> ancestor up a c.
  Proof. intros A B. induction B; eapply anc_more; eauto. Qed.
  Lemma anc_succ a b : ancestor Up a b -> held h b \/ succeeded h b -> succeeded h a.
  Proof.
    intros A. induction A as [b Ha|b c A IH Hb]; intros [H|H].
    - apply (i_held _ _ _ _ _ _ _ _ _ II b H); auto.
    - apply (i_S _ _ _ _ _ _ _ _ _ II b H); auto.
    - apply IH. right. apply (i_held _ _ _ _ _ _ _ _ _ II c H); auto.
    - apply IH. right. apply (i_S _ _ _ _ _ _ _ _ _ II c H); auto.
  Qed.
  Lemma trans_anc t g a b : in_pipe tasks t -> task_graph t = Ok g -> generated g b ->
    depends_trans ord g b a -> ancestor Up a b.
  Proof.
    intros Ht E Gb D. induction D as [b a [u [Eu Hu]]|b c a [u [Eu Hu]] D IH];
      destruct (up_spec tasks PO d DK ord ordt HO HOt t g b Ht E Gb) as [us [Eu' [_ [_ H]]]];
      rewrite Eu in Eu'; injection Eu' as <-.
    - apply anc_one, H. auto.
    - assert (Gc : generated g c).
      { destruct (up_gen _ _ _ (pipe_built tasks PO t g Ht E) ord HO b Gb) as [u' [Eu' [_ Gu]]].
        rewrite Eu in Eu'. injection Eu' as <-. auto. }
      apply (anc_trans _ _ c); auto. apply anc_one, H. auto.
  Qed.
  Lemma L15 t g a b : in_pipe tasks t -> task_graph t = Ok g -> t_rwc t = true ->
    generated g a -> generated g b -> a <> b -> held h a -> held h b -> ~ overlap (b_write a) (b_read b).
  Proof.
    intros Ht E Rw Ga Gb N Ha Hb O.
    assert (X : forall x y, held h x -> held h y -> ~ ancestor Up x y).
    { intros x y Hx Hy A. apply anc_succ in A; auto. destruct (i_held _ _ _ _ _ _ _ _ _ II x Hx) as [_ [_ [NS _]]]. auto. }
    destruct (c08 _ t g (pipe_built tasks PO t g Ht E) ord HO a b Rw Ga Gb N O) as [D|D].
    - apply (X b a); auto. apply (trans_anc t g); auto.
    - apply (X a b); auto. apply (trans_anc t g); auto.
  Qed.

  Lemma L16a h3 h2 h1 t t' pb pb' : h = h3 ++ EvHand t' pb' :: h2 ++ EvHand t pb :: h1 ->
    pb_block pb' = pb_block pb -> In (EvRel (PB (pb_block pb) FAILED)) h2.
  Proof. apply (between _ Up Down _ maxr fuel GG EN s0 FR h s RR). Qed.
  Lemma L16b h2 e h1 b : h = h2 ++ e :: h1 -> takes e b -> ~ held h1 b /\ ~ succeeded h1 b.
  Proof.
    intros E T. pose proof (ok_at _ Up Down _ maxr fuel GG EN s0 FR h s RR h2 e h1 E) as O.
    destruct e; cbn in T, O; try tauto; subst; destruct O as [_ [_ [_ [O1 [_ O2]]]]]; auto.
  Qed.

  Lemma held_task b : held h b -> pipe_block tasks b /\ ~ succeeded h b.
  Proof. intros H. apply (i_held _ _ _ _ _ _ _ _ _ II) in H. split; [apply RI|]; tauto. Qed.

  Lemma to_pipe (P : block -> Prop) k i : card (fun b => In b (pblocks d) /\ b_task b = i /\ P b) k ->
    card (fun b => pipe_block tasks b /\ b_task b = i /\ P b) k.
  Proof. intros C. apply (card_ext _ _ _ C). intros b. rewrite RI. tauto. Qed.

  Lemma few_two : few_upstream tasks ord ordt d -> two_up (pblocks d) Up.
  Proof. intros F b Hb. apply F, RI, Hb. Qed.
  (* the conditions for the count of orphans to be right *)
  Lemma apart_low : apart_failures tasks ord ordt d h -> apart (fun b => In b (pblocks d)) Up maxr h.
  Proof. intros A x u a b w Hx. apply A, RI, Hx. Qed.
  Lemma few_apart : few_upstream tasks ord ordt d -> apart_failures tasks ord ordt d h.
  Proof.
    intros F x u a b w Hx Hu Su Fa Fb. apply (two_apart _ _ _ _ _ GG _ _ _ s (few_two F) II x u a b w); auto. apply RI, Hx.
  Qed.
  Lemma spread_apart (bad : block -> Prop) : (forall b, perm_failed maxr h b -> bad b) -> spread tasks ord ordt d bad -> apart_failures tasks ord ordt d h.
  Proof. intros P S x u a b w Hx Hu Su Fa Fb. apply S; auto. Qed.
End Sched.
Lemma one_apart tasks ord ordt d h : one_failure (dg_max_retries d) h -> apart_failures tasks ord ordt d h.
Proof. intros F x u a b w _ _ _ Fa Fb _ _ _ A. rewrite <- (F a b Fa Fb). exact A. Qed.
Lemma apart_prefix tasks ord ordt d l h : apart_failures tasks ord ordt d (l ++ h) -> apart_failures tasks ord ordt d h.
Proof.
  intros A x u a b w Hx Hu Su Fa Fb. apply (A x u a b w); auto; try (apply perm_app; auto).
  destruct Su; [left|right]; apply in_or_app; auto.
Qed.

Lemma inside_covered tasks : pipe_ok tasks -> inside_upstream tasks -> covered tasks.
Proof.
  intros PO IN t g b Ht Nu E Gb. destruct (IN t Ht Nu) as [u [Hu [Fu Sub]]].
  assert (Pu : in_pipe tasks u) by (apply (pipe_up _ t); auto).
  assert (exists gu, task_graph u = Ok gu) as [gu Eu].
  { destruct (geom_graph (tdims u) u (po_geom _ PO u Pu)) as [gu [Eu _]]. eauto. }
  pose proof (pipe_built tasks PO t g Ht E) as B. pose proof (pipe_built tasks PO u gu Pu Eu) as Bu.
  assert (exists p, pt_in p (b_write b) /\ in_total_write t p) as [p [P1 P2]].
  { destruct (c02_nonempty _ t g B b Gb) as [p Hp]. destruct (c05 _ t g B b Gb) as [k [CF [_ [_ [NS [SH _]]]]]].
    destruct (t_fit t) eqn:F.
    - exists p. split; auto. destruct NS as [_ Ew]; [discriminate|]. rewrite Ew in Hp. unfold cell_fits in CF.
      rewrite F in CF. apply CF. exact Hp.
    - destruct NS as [_ Ew]; [discriminate|]. exists (offset (cell t k)). rewrite Ew in Hp |- *. unfold cell_fits in CF.
      rewrite F in CF. split; [|apply CF]. destruct Hp as [L Hp]. split; auto. intros i Hi. specialize (Hp i). lia.
    - exists p. split; auto. destruct SH as [_ SH]; auto. apply SH; auto. }
  assert (P3 : pt_in p (b_read b)).
  { destruct (c05 _ t g B b Gb) as [k [_ [_ [_ [_ [_ CX]]]]]].
    destruct (gen_dims _ t g B b Gb) as [[D1 D2] [D3 D4]]. destruct P1 as [L P1]. split; [congruence|].
    intros i Hi. specialize (P1 i Hi). assert (Hi' : (i < tdims t)%nat) by congruence.
    destruct (CX i Hi') as [C1 C2]. pose proof (wi_c0 _ _ _ _ (po_geom _ PO t Ht) i Hi').
    pose proof (wi_c1 _ _ _ _ (po_geom _ PO t Ht) i Hi'). lia. }
  apply Sub in P2 as P4.
  assert (exists a, generated gu a /\ pt_in p (b_write a)) as [a [Ga Pa]].
  { destruct (t_fit u) eqn:F; [tauto| |].
    - apply (c02_overhang _ u gu Bu p F P4).
    - apply (c02_shrink _ u gu Bu p F). exact P4. }
  exists u, gu, a, p. auto 10.
Qed.

(* The hypotheses of the theorems below.  Tasks that require nothing satisfy [inverse] and
   [no_lonely]; there is always enough fuel. *)
Theorem independent_tasks_ok : forall tasks ord ordt d s0 fuel h s,
  pipe_run tasks ord ordt d s0 fuel h s -> (forall t, In t tasks -> t_ups t = []) ->
  inverse tasks ord ordt d /\ no_lonely tasks ord ordt d.
Proof.
  intros tasks ord ordt d s0 fuel h s R N. split.
  - apply (run_dual _ _ _ _ _ _ _ _ R), single_edges, N.
  - intros t g b [x [Hx Hr]] Nu. exfalso. apply Nu.
    assert (G : forall a b, requires a b -> t_ups a = [] -> t_ups b = []).
    { intros a c H. induction H as [|a c e H _ _]; auto. intros E. rewrite E in H. destruct H. }
    apply (G x t Hr (N x Hx)).
Qed.
Theorem fuel_suffices : forall tasks, pipe_ok tasks -> exists N, forall fuel, (N <= fuel)%nat -> fuel_ok tasks fuel.
Proof. exact fuel_exists. Qed.

(* C12, under conditions on the geometry of the two tasks: symmetric context; no block has the
   origin strictly inside (see C11); an overhanging last block does not reach where the other task
   does not look.  P_SchedCE: each condition is needed. *)
Theorem C12_inverse_partial : forall tasks ord ordt d, pipe_ok tasks -> edges_ok tasks ->
  is_order ord -> is_order ordt -> dgraph_init tasks = Ok d ->
  forall a b, pipe_block tasks a -> pipe_block tasks b ->
  exists dn up, dg_downstream ord ordt d a = Ok dn /\ dg_upstream ord ordt d b = Ok up /\
    NoDup dn /\ NoDup up /\ (In b dn <-> In a up).
Proof.
  intros tasks ord ordt d PO EO HO HOt E a b Ha Hb.
  destruct (dgraph_ok tasks PO) as [d' [E' DK]]. rewrite E in E'. injection E' as <-.
  pose proof (pipe_dual tasks PO d DK ord ordt HO HOt EO a b Ha Hb) as X.
  destruct Ha as [ta [ga [Hta [Ea Ga]]]], Hb as [tb [gb [Htb [Eb Gb]]]].
  destruct (down_spec tasks PO d DK ord ordt HO HOt ta ga a Hta Ea Ga) as [_ [_ [E1 [N1 _]]]].
  destruct (up_spec tasks PO d DK ord ordt HO HOt tb gb b Htb Eb Gb) as [_ [_ [E2 [N2 _]]]].
  exists (dg_down ord ordt d a), (dg_up ord ordt d b). auto.
Qed.
Print Assumptions C12_inverse_partial.

(* C13 *)
Theorem C13_reads_wait_for_writes : forall tasks ord ordt d s0 fuel h s,
  pipe_run tasks ord ordt d s0 fuel h s ->
  forall t g u gu h2 e h1 a b,
  in_pipe tasks t -> task_graph t = Ok g -> In u (t_ups t) -> task_graph u = Ok gu ->
  h = h2 ++ e :: h1 -> takes e b -> generated g b -> generated gu a ->
  (exists p, pt_in p (b_write a) /\ pt_in p (b_read b) /\ in_total_write u p) ->
  succeeded h1 a.
Proof.
  intros tasks ord ordt d s0 fuel h s R t g u gu h2 e h1 a b H1 H2 H3 H4 H5 H6 H7 H8 [p [H9 [H10 H11]]].
  eapply (L13 _ _ _ _ _ _ _ _ R); eauto.
Qed.
Print Assumptions C13_reads_wait_for_writes.

(* C14 *)
Theorem C14_dependencies_first : forall tasks ord ordt d s0 fuel h s,
  pipe_run tasks ord ordt d s0 fuel h s ->
  forall h2 e h1 b, h = h2 ++ e :: h1 -> takes e b ->
  exists up, dg_upstream ord ordt d b = Ok up /\ forall a, In a up -> succeeded h1 a.
Proof.
  intros tasks ord ordt d s0 fuel h s R h2 e h1 b E T.
  destruct (L14 _ _ _ _ _ _ _ _ R h2 e h1 b E T) as [[t [g [Ht [Eg Gb]]]] U].
  destruct (up_spec tasks (pr_ok _ _ _ _ _ _ _ _ R) d (run_dk _ _ _ _ _ _ _ _ R) ord ordt
    (pr_ord _ _ _ _ _ _ _ _ R) (pr_ordt _ _ _ _ _ _ _ _ R) t g b Ht Eg Gb) as [_ [_ [E2 _]]].
  eauto.
Qed.
Print Assumptions C14_dependencies_first.

(* C15.  For a single task, and for any pipeline with inverse dependencies. *)
Theorem C15_no_conflict_in_flight : forall t ord ordt d s0 fuel h s g,
  t_ups t = [] -> t_rwc t = true -> task_graph t = Ok g ->
  pipe_run [t] ord ordt d s0 fuel h s -> fuel_ok [t] fuel ->
  forall a b, a <> b -> held h a -> held h b -> ~ overlap (b_write a) (b_read b).
Proof.
  intros t ord ordt d s0 fuel h s g Nu Rw E R FO a b N Ha Hb.
  destruct (independent_tasks_ok _ _ _ _ _ _ _ _ R) as [IV _]; [intros x [<-|[]]; exact Nu|].
  assert (Pt : in_pipe [t] t) by (exists t; split; [left; auto|constructor]).
  assert (G : forall x, held h x -> generated g x).
  { intros x Hx. destruct (proj1 (held_task _ _ _ _ _ _ _ _ R IV FO x Hx)) as [t' [g' [Ht' [E' Gx]]]].
    destruct Ht' as [y [[<-|[]] Hr]]. apply requires_inv in Hr. destruct Hr as [<-|[u [Hu _]]].
    - congruence.
    - rewrite Nu in Hu. destruct Hu. }
  apply (L15 _ _ _ _ _ _ _ _ R IV FO t g a b); auto.
Qed.
Theorem C15_no_conflict_in_flight_pipeline : forall tasks ord ordt d s0 fuel h s,
  pipe_run tasks ord ordt d s0 fuel h s -> inverse tasks ord ordt d -> fuel_ok tasks fuel ->
  forall t g a b, in_pipe tasks t -> task_graph t = Ok g -> t_rwc t = true ->
  generated g a -> generated g b -> a <> b -> held h a -> held h b -> ~ overlap (b_write a) (b_read b).
Proof. intros tasks ord ordt d s0 fuel h s R IV FO t g a b. apply (L15 _ _ _ _ _ _ _ _ R IV FO). Qed.
Print Assumptions C15_no_conflict_in_flight.
Print Assumptions C15_no_conflict_in_flight_pipeline.

(* C16 *)
Theorem C16_between_hand_outs_partial : forall tasks ord ordt d s0 fuel h s,
  pipe_run tasks ord ordt d s0 fuel h s -> inverse tasks ord ordt d -> fuel_ok tasks fuel ->
  forall h3 h2 h1 t t' pb pb', h = h3 ++ EvHand t' pb' :: h2 ++ EvHand t pb :: h1 ->
  pb_block pb' = pb_block pb -> In (EvRel (PB (pb_block pb) FAILED)) h2.
Proof. intros tasks ord ordt d s0 fuel h s R IV FO. exact (L16a _ _ _ _ _ _ _ _ R IV FO). Qed.
Theorem C16_never_again_partial : forall tasks ord ordt d s0 fuel h s,
  pipe_run tasks ord ordt d s0 fuel h s -> inverse tasks ord ordt d -> fuel_ok tasks fuel ->
  forall h2 e h1 b, h = h2 ++ e :: h1 -> takes e b -> ~ held h1 b /\ ~ succeeded h1 b.
Proof. intros tasks ord ordt d s0 fuel h s R IV FO. exact (L16b _ _ _ _ _ _ _ _ R IV FO). Qed.
Print Assumptions C16_between_hand_outs_partial.
Print Assumptions C16_never_again_partial.

(* C17 (a negative max_retries acts as 0) *)
Theorem C17_hand_outs_bounded_partial : forall tasks ord ordt d s0 fuel h s,
  pipe_run tasks ord ordt d s0 fuel h s -> inverse tasks ord ordt d -> fuel_ok tasks fuel ->
  forall b, n_handed h b <= Z.max (dg_max_retries d (b_task b)) 0 + 1 /\
    (perm_failed (dg_max_retries d) h b <-> n_failed h b = Z.max (dg_max_retries d (b_task b)) 0 + 1) /\
    (perm_failed (dg_max_retries d) h b -> n_handed h b = Z.max (dg_max_retries d (b_task b)) 0 + 1).
Proof.
  intros tasks ord ordt d s0 fuel h s R IV FO b.
  pose proof (run_good _ _ _ _ _ _ _ _ R IV) as GG. pose proof (run_enough _ _ _ _ _ _ _ _ R FO) as EN.
  pose proof (run_fresh _ _ _ _ _ _ _ _ R) as FR. pose proof (pr_reach _ _ _ _ _ _ _ _ R) as RR.
  split; [eapply handed_bound; eauto|]. split; [eapply perm_exact; eauto|]. intros F. eapply perm_handed; eauto.
Qed.
Print Assumptions C17_hand_outs_bounded_partial.
(* a block whose retries are not used up is offered again *)
Theorem C17_offered_again_partial : forall tasks ord ordt d s0 fuel h s,
  pipe_run tasks ord ordt d s0 fuel h s -> inverse tasks ord ordt d -> no_lonely tasks ord ordt d -> fuel_ok tasks fuel ->
  forall b, 0 < n_failed h b <= dg_max_retries d (b_task b) -> ~ held h b -> ~ succeeded h b ->
  forall chk s', acquire_block (dg_up ord ordt d) (dg_down ord ordt d) (dg_max_retries d) fuel chk s (b_task b) <> Ok (s', None, []).
Proof.
  intros tasks ord ordt d s0 fuel h s R IV NL FO b Fb Hb Sb chk s' E.
  pose proof (run_good _ _ _ _ _ _ _ _ R IV) as GG. pose proof (run_enough _ _ _ _ _ _ _ _ R FO) as EN.
  pose proof (run_fresh _ _ _ _ _ _ _ _ R) as FR. pose proof (pr_reach _ _ _ _ _ _ _ _ R) as RR.
  destruct (none_empty _ _ _ _ _ _ GG EN _ FR h s RR _ _ _ E) as [Er _].
  assert (X : In b (readyl s (b_task b))); [|rewrite Er in X; destruct X].
  eapply failed_requeued; eauto; [apply (run_roots _ _ _ _ _ _ _ _ R NL)|lia|unfold perm_failed; lia].
Qed.
Print Assumptions C17_offered_again_partial.

(* C18 *)
Theorem C18_never_stuck_partial : forall tasks ord ordt d s0 fuel h s,
  pipe_run tasks ord ordt d s0 fuel h s -> inverse tasks ord ordt d -> no_lonely tasks ord ordt d -> fuel_ok tasks fuel ->
  forall ts h0, h = map EvNone ts ++ h0 -> (forall t, in_pipe tasks t -> In (t_id t) ts) ->
  (forall b, ~ held h b) ->
  forall b, pipe_block tasks b -> settled (dg_up ord ordt d) (dg_max_retries d) h b.
Proof.
  intros tasks ord ordt d s0 fuel h s R IV NL FO ts h0 Eh Ht NH b Hb.
  pose proof (run_good _ _ _ _ _ _ _ _ R IV) as GG. pose proof (run_enough _ _ _ _ _ _ _ _ R FO) as EN.
  pose proof (run_fresh _ _ _ _ _ _ _ _ R) as FR. pose proof (pr_reach _ _ _ _ _ _ _ _ R) as RR.
  refine (not_stuck _ _ _ _ _ _ GG EN _ FR h s RR (run_roots _ _ _ _ _ _ _ _ R NL) NH _ b _).
  2: { apply (run_in _ _ _ _ _ _ _ _ R), Hb. }
  intros i. destruct (readyl s i) as [|x l] eqn:Ei; auto.
  assert (Hx : In x (readyl s i)) by (rewrite Ei; left; auto).
  apply (ready_iff _ _ _ _ _ _ GG EN _ FR h s RR (run_roots _ _ _ _ _ _ _ _ R NL)) in Hx.
  destruct Hx as [Vx [Tx _]]. apply (run_in _ _ _ _ _ _ _ _ R) in Vx. destruct Vx as [t [g [Pt [E Gx]]]].
  rewrite (gen_id tasks (pr_ok _ _ _ _ _ _ _ _ R) t g x Pt E Gx) in Tx. subst i.
  rewrite <- Ei. eapply none_tail; eauto.
Qed.
Theorem C18_no_ready_task_partial : forall tasks ord ordt d s0 fuel h s,
  pipe_run tasks ord ordt d s0 fuel h s -> inverse tasks ord ordt d -> no_lonely tasks ord ordt d -> fuel_ok tasks fuel ->
  get_ready_tasks s = [] -> (forall b, ~ held h b) ->
  forall b, pipe_block tasks b -> settled (dg_up ord ordt d) (dg_max_retries d) h b.
Proof.
  intros tasks ord ordt d s0 fuel h s R IV NL FO Er NH b Hb.
  pose proof (run_good _ _ _ _ _ _ _ _ R IV) as GG. pose proof (run_enough _ _ _ _ _ _ _ _ R FO) as EN.
  pose proof (run_fresh _ _ _ _ _ _ _ _ R) as FR. pose proof (pr_reach _ _ _ _ _ _ _ _ R) as RR.
  refine (not_stuck _ _ _ _ _ _ GG EN _ FR h s RR (run_roots _ _ _ _ _ _ _ _ R NL) NH _ b _).
  2: { apply (run_in _ _ _ _ _ _ _ _ R), Hb. }
  intros i. destruct (readyl s i) as [|x l] eqn:Ei; auto.
  assert (Hx : In x (readyl s i)) by (rewrite Ei; left; auto).
  apply (ready_iff _ _ _ _ _ _ GG EN _ FR h s RR (run_roots _ _ _ _ _ _ _ _ R NL)) in Hx.
  destruct Hx as [Vx [Tx _]]. apply (run_in _ _ _ _ _ _ _ _ R) in Vx. destruct Vx as [t [g [Pt [E Gx]]]].
  rewrite (gen_id tasks (pr_ok _ _ _ _ _ _ _ _ R) t g x Pt E Gx) in Tx. subst i.
  assert (X : ~ In (t_id t) (get_ready_tasks s)) by (rewrite Er; auto).
  rewrite <- Ei. apply (not_ready_empty _ _ _ _ _ _ GG EN _ FR h s RR).
  destruct (Z.leb_spec (ts_ready (s_st s (t_id t))) 0) as [L|L]; auto. exfalso. apply X.
  unfold get_ready_tasks. apply filter_In. split; [|apply Z.ltb_lt; auto].
  pose proof (reach_HInv _ _ _ _ _ _ GG EN _ FR h s RR) as HI. rewrite (hi_order _ _ _ _ _ _ _ _ HI).
  destruct (pipe_fresh tasks d s0 (pr_ok _ _ _ _ _ _ _ _ R) (pr_init _ _ _ _ _ _ _ _ R)) as [_ [_ [_ [O _]]]].
  apply O. eauto.
Qed.
Print Assumptions C18_never_stuck_partial.
Print Assumptions C18_no_ready_task_partial.

(* C19.  A block of a task that requires others, but which itself depends on nothing, is never
   run; so the property needs [covered]. *)
Theorem C19_lonely_never_run : forall tasks ord ordt d s0 fuel h s,
  pipe_run tasks ord ordt d s0 fuel h s -> inverse tasks ord ordt d ->
  forall t g b, in_pipe tasks t -> task_graph t = Ok g -> t_ups t <> [] -> generated g b ->
  dg_up ord ordt d b = [] -> n_handed h b = 0 /\ ~ skipped h b.
Proof.
  intros tasks ord ordt d s0 fuel h s R IV t g b Ht E Nu Gb Ub.
  assert (X : forall e, In e h -> ~ takes e b).
  { intros e He. apply in_split in He. destruct He as [h2 [h1 Eh]].
    exact (L19 _ _ _ _ _ _ _ _ R IV t g h2 e h1 b Ht E Nu Gb Ub Eh). }
  split.
  - pose proof (count_nonneg (fun e => match e with EvHand _ pb => is_block (pb_block pb) b | _ => false end) h) as P.
    unfold n_handed. destruct (Z.eq_dec (count (fun e => match e with EvHand _ pb => is_block (pb_block pb) b | _ => false end) h) 0); auto.
    exfalso. destruct (count_pos (fun e => match e with EvHand _ pb => is_block (pb_block pb) b | _ => false end) h) as [e [He Pe]]; [lia|].
    apply (X e He). destruct e; try discriminate. apply is_block_eq in Pe. exact Pe.
  - intros Hs. exact (X _ Hs eq_refl).
Qed.
Theorem C19_covered_completes_partial : forall tasks ord ordt d s0 fuel h s,
  pipe_run tasks ord ordt d s0 fuel h s -> inverse tasks ord ordt d -> covered tasks -> fuel_ok tasks fuel ->
  get_ready_tasks s = [] -> (forall b, ~ held h b) -> (forall b, ~ perm_failed (dg_max_retries d) h b) ->
  forall b, pipe_block tasks b -> succeeded h b.
Proof.
  intros tasks ord ordt d s0 fuel h s R IV CV FO Er NH NF b Hb.
  assert (NL : no_lonely tasks ord ordt d).
  { apply (covered_lonely tasks (pr_ok _ _ _ _ _ _ _ _ R) d (run_dk _ _ _ _ _ _ _ _ R) ord ordt
      (pr_ord _ _ _ _ _ _ _ _ R) (pr_ordt _ _ _ _ _ _ _ _ R) CV). }
  destruct (C18_no_ready_task_partial _ _ _ _ _ _ _ _ R IV NL FO Er NH b Hb) as [S|[F|[a [F _]]]]; auto;
    exfalso; eapply NF; eauto.
Qed.
(* in terms of the geometry alone *)
Theorem C19_inside_upstream_completes_partial : forall tasks ord ordt d s0 fuel h s,
  pipe_run tasks ord ordt d s0 fuel h s -> edges_ok tasks -> inside_upstream tasks -> fuel_ok tasks fuel ->
  get_ready_tasks s = [] -> (forall b, ~ held h b) -> (forall b, ~ perm_failed (dg_max_retries d) h b) ->
  forall b, pipe_block tasks b -> succeeded h b.
Proof.
  intros tasks ord ordt d s0 fuel h s R EO IN. apply (C19_covered_completes_partial _ _ _ _ _ _ _ _ R).
  - apply (run_dual _ _ _ _ _ _ _ _ R EO).
  - apply inside_covered; auto. apply (pr_ok _ _ _ _ _ _ _ _ R).
Qed.
Print Assumptions C19_inside_upstream_completes_partial.
Print Assumptions C19_lonely_never_run.
Print Assumptions C19_covered_completes_partial.

(* C20 *)
Theorem C20_orphans_never_run_partial : forall tasks ord ordt d s0 fuel h s,
  pipe_run tasks ord ordt d s0 fuel h s -> inverse tasks ord ordt d -> fuel_ok tasks fuel ->
  forall b, orphan (dg_up ord ordt d) (dg_max_retries d) h b ->
  n_handed h b = 0 /\ ~ skipped h b /\ ~ succeeded h b /\ ~ perm_failed (dg_max_retries d) h b.
Proof.
  intros tasks ord ordt d s0 fuel h s R IV FO b O.
  pose proof (run_good _ _ _ _ _ _ _ _ R IV) as GG. pose proof (run_enough _ _ _ _ _ _ _ _ R FO) as EN.
  pose proof (run_fresh _ _ _ _ _ _ _ _ R) as FR. pose proof (pr_reach _ _ _ _ _ _ _ _ R) as RR.
  assert (X : forall e, In e h -> ~ takes e b).
  { intros e He T. apply in_split in He. destruct He as [h2 [h1 Eh]].
    pose proof (taken_norph _ _ _ _ _ _ GG EN _ FR h s RR _ _ _ Eh) as Z.
    destruct e; cbn in T; try tauto; subst; tauto. }
  split; [|split; [|split]].
  - pose proof (count_nonneg (fun e => match e with EvHand _ pb => is_block (pb_block pb) b | _ => false end) h) as P.
    unfold n_handed. destruct (Z.eq_dec (count (fun e => match e with EvHand _ pb => is_block (pb_block pb) b | _ => false end) h) 0); auto.
    exfalso. destruct (count_pos (fun e => match e with EvHand _ pb => is_block (pb_block pb) b | _ => false end) h) as [e [He Pe]]; [lia|].
    apply (X e He). destruct e; try discriminate. apply is_block_eq in Pe. exact Pe.
  - intros Hs. exact (X _ Hs eq_refl).
  - intros S. eapply succ_norph; eauto.
  - intros F. eapply failed_norph; eauto.
Qed.
(* the failure that uses up the retries: mark_failure reports only blocks that depend on it, all of
   them that were not orphans before, and the counters grow by the number reported; with at most
   two upstream blocks each, or at the first failure, no block is reported twice *)
Theorem C20_reported_orphans_partial : forall tasks ord ordt d s0 fuel h s,
  pipe_run tasks ord ordt d s0 fuel h s -> inverse tasks ord ordt d -> fuel_ok tasks fuel ->
  forall pick b s', held h b -> dg_max_retries d (b_task b) <= n_failed h b ->
  release_block (dg_up ord ordt d) (dg_down ord ordt d) (dg_max_retries d) fuel pick s (PB b FAILED) = Ok s' ->
  exists sf orph, mark_failure block_eqb (dg_up ord ordt d) (dg_down ord ordt d) pick fuel (s_surf s) b = Ok (sf, orph) /\
    NoDup orph /\
    (forall x, In x orph -> pipe_block tasks x /\ ancestor (dg_up ord ordt d) b x) /\
    (forall x, pipe_block tasks x -> ancestor (dg_up ord ordt d) b x ->
       orphan (dg_up ord ordt d) (dg_max_retries d) h x \/ In x orph) /\
    (apart_failures tasks ord ordt d (EvRel (PB b FAILED) :: h) ->
       forall x, In x orph -> ~ orphan (dg_up ord ordt d) (dg_max_retries d) h x) /\
    (forall t, ts_orphaned (s_st s' t) = ts_orphaned (s_st s t) +
       Z.of_nat (length (filter (fun x => Nat.eqb (b_task x) t) orph))).
Proof.
  intros tasks ord ordt d s0 fuel h s R IV FO pick b s' Hb Le E.
  pose proof (run_good _ _ _ _ _ _ _ _ R IV) as GG. pose proof (run_enough _ _ _ _ _ _ _ _ R FO) as EN.
  pose proof (run_fresh _ _ _ _ _ _ _ _ R) as FR. pose proof (pr_reach _ _ _ _ _ _ _ _ R) as RR.
  pose proof (run_in _ _ _ _ _ _ _ _ R) as RI.
  destruct (orphans_exact _ _ _ _ _ _ GG EN _ FR h s RR pick b s' Hb Le E) as [sf [orph [E1 [E2 [E3 [E4 [E5 E6]]]]]]].
  exists sf, orph. split; auto. split; auto. split; [|split; [|split; auto]].
  - intros x Hx. apply E3 in Hx. rewrite <- RI. tauto.
  - intros x Hx. apply RI in Hx. auto.
  - intros F. apply E5. intros x u a c w Hx. apply F, RI, Hx.
Qed.
Print Assumptions C20_orphans_never_run_partial.
Print Assumptions C20_reported_orphans_partial.

(* C21 *)
Theorem C21_orphans_counted_partial : forall tasks ord ordt d s0 fuel h s,
  pipe_run tasks ord ordt d s0 fuel h s -> inverse tasks ord ordt d -> fuel_ok tasks fuel ->
  apart_failures tasks ord ordt d h ->
  forall t, card (fun b => pipe_block tasks b /\ b_task b = t /\ orphan (dg_up ord ordt d) (dg_max_retries d) h b)
                 (ts_orphaned (s_st s t)).
Proof.
  intros tasks ord ordt d s0 fuel h s R IV FO F t.
  apply (to_pipe _ _ _ _ _ _ _ _ R). eapply orphan_count; eauto using run_good, run_enough, run_fresh, pr_reach.
  apply (apart_low _ _ _ _ _ _ _ _ R F).
Qed.
Theorem C21_never_too_few_partial : forall tasks ord ordt d s0 fuel h s,
  pipe_run tasks ord ordt d s0 fuel h s -> inverse tasks ord ordt d -> fuel_ok tasks fuel ->
  forall t, exists k,
    card (fun b => pipe_block tasks b /\ b_task b = t /\ orphan (dg_up ord ordt d) (dg_max_retries d) h b) k /\
    k <= ts_orphaned (s_st s t).
Proof.
  intros tasks ord ordt d s0 fuel h s R IV FO t.
  destruct (orphan_count_ge _ _ _ _ _ _ (run_good _ _ _ _ _ _ _ _ R IV) (run_enough _ _ _ _ _ _ _ _ R FO)
    _ (run_fresh _ _ _ _ _ _ _ _ R) h s (pr_reach _ _ _ _ _ _ _ _ R) t) as [k [C L]].
  exists k. split; auto. apply (to_pipe _ _ _ _ _ _ _ _ R). exact C.
Qed.
(* the bound holds for a task with context in one dimension only *)
Theorem C21_context_in_one_dimension : forall t ord ordt d s0 fuel h s j,
  t_ups t = [] -> pipe_run [t] ord ordt d s0 fuel h s ->
  (t_rwc t = true -> forall i, (i < tdims t)%nat -> i <> j -> ctx_lo t i = 0 /\ ctx_hi t i = 0) ->
  few_upstream [t] ord ordt d.
Proof.
  intros t ord ordt d s0 fuel h s j Nu R One b [t' [g [Ht' [E Gb]]]].
  assert (t' = t).
  { destruct Ht' as [y [[<-|[]] Hr]]. apply requires_inv in Hr. destruct Hr as [<-|[u [Hu _]]]; auto.
    rewrite Nu in Hu. destruct Hu. }
  subst t'. pose proof (pr_ok _ _ _ _ _ _ _ _ R) as PO.
  destruct (up_spec [t] PO d (run_dk _ _ _ _ _ _ _ _ R) ord ordt
    (pr_ord _ _ _ _ _ _ _ _ R) (pr_ordt _ _ _ _ _ _ _ _ R) t g b Ht' E Gb) as [us [Eu [_ [ND H]]]].
  pose proof (up_two _ t g (pipe_built [t] PO t g Ht' E) ord (pr_ord _ _ _ _ _ _ _ _ R) j One b us Gb Eu) as L.
  apply Nat.le_trans with (length us); auto. apply NoDup_incl_length; auto.
  intros a Ha. apply H in Ha. destruct Ha as [Ha|[u [gu [Hu _]]]]; auto. rewrite Nu in Hu. destruct Hu.
Qed.
Print Assumptions C21_orphans_counted_partial.
Print Assumptions C21_never_too_few_partial.
Print Assumptions C21_context_in_one_dimension.

(* C22 *)
Theorem C22_counters_partial : forall tasks ord ordt d s0 fuel h s,
  pipe_run tasks ord ordt d s0 fuel h s -> inverse tasks ord ordt d -> fuel_ok tasks fuel ->
  forall t,
    card (fun b => held h b /\ b_task b = t) (ts_processing (s_st s t)) /\
    card (fun b => succeeded h b /\ b_task b = t) (ts_completed (s_st s t)) /\
    card (fun b => perm_failed (dg_max_retries d) h b /\ b_task b = t) (ts_failed (s_st s t)) /\
    card (fun b => skipped h b /\ b_task b = t) (ts_skipped (s_st s t)) /\
    card (fun b => pipe_block tasks b /\ b_task b = t) (ts_total (s_st s t)).
Proof.
  intros tasks ord ordt d s0 fuel h s R IV FO t.
  destruct (counters _ _ _ _ _ _ (run_good _ _ _ _ _ _ _ _ R IV) (run_enough _ _ _ _ _ _ _ _ R FO)
    _ (run_fresh _ _ _ _ _ _ _ _ R) h s (pr_reach _ _ _ _ _ _ _ _ R) t) as [C1 [C2 [C3 [C4 C5]]]].
  repeat (split; [assumption|]). apply (card_ext _ _ _ C5). intros b. rewrite (run_in _ _ _ _ _ _ _ _ R). tauto.
Qed.
Theorem C22_ready_partial : forall tasks ord ordt d s0 fuel h s,
  pipe_run tasks ord ordt d s0 fuel h s -> inverse tasks ord ordt d -> no_lonely tasks ord ordt d -> fuel_ok tasks fuel ->
  forall t,
    card (fun b => pipe_block tasks b /\ b_task b = t /\
            (forall a, In a (dg_up ord ordt d b) -> succeeded h a) /\
            ~ held h b /\ ~ succeeded h b /\ ~ perm_failed (dg_max_retries d) h b) (ts_ready (s_st s t)).
Proof.
  intros tasks ord ordt d s0 fuel h s R IV NL FO t.
  apply (to_pipe _ _ _ _ _ _ _ _ R). apply (ready_count _ _ _ _ _ _ (run_good _ _ _ _ _ _ _ _ R IV) (run_enough _ _ _ _ _ _ _ _ R FO)
    _ (run_fresh _ _ _ _ _ _ _ _ R) h s (pr_reach _ _ _ _ _ _ _ _ R) (run_roots _ _ _ _ _ _ _ _ R NL)).
Qed.
(* single tasks need no hypothesis *)
Theorem C22_counters_single_task : forall t ord ordt d s0 fuel h s,
  t_ups t = [] -> pipe_run [t] ord ordt d s0 fuel h s -> fuel_ok [t] fuel ->
  card (fun b => pipe_block [t] b /\ (forall a, In a (dg_up ord ordt d b) -> succeeded h a) /\
            ~ held h b /\ ~ succeeded h b /\ ~ perm_failed (dg_max_retries d) h b) (ts_ready (s_st s (t_id t))) /\
  card (held h) (ts_processing (s_st s (t_id t))) /\
  card (succeeded h) (ts_completed (s_st s (t_id t))) /\
  card (perm_failed (dg_max_retries d) h) (ts_failed (s_st s (t_id t))) /\
  card (skipped h) (ts_skipped (s_st s (t_id t))) /\
  card (pipe_block [t]) (ts_total (s_st s (t_id t))).
Proof.
  intros t ord ordt d s0 fuel h s Nu R FO.
  destruct (independent_tasks_ok _ _ _ _ _ _ _ _ R) as [IV NL]; [intros x [<-|[]]; exact Nu|].
  pose proof (C22_ready_partial _ _ _ _ _ _ _ _ R IV NL FO (t_id t)) as C0.
  destruct (C22_counters_partial _ _ _ _ _ _ _ _ R IV FO (t_id t)) as [C1 [C2 [C3 [C4 C5]]]].
  assert (T : forall b, pipe_block [t] b -> b_task b = t_id t).
  { intros b [t' [g [Ht' [E Gb]]]].
    assert (t' = t).
    { destruct Ht' as [y [[<-|[]] Hr]]. apply requires_inv in Hr. destruct Hr as [<-|[u [Hu _]]]; auto.
      rewrite Nu in Hu. destruct Hu. }
    subst t'. apply (gen_id [t] (pr_ok _ _ _ _ _ _ _ _ R) t g b Ht' E Gb). }
  pose proof (reach_HInv _ _ _ _ _ _ (run_good _ _ _ _ _ _ _ _ R IV) (run_enough _ _ _ _ _ _ _ _ R FO)
    _ (run_fresh _ _ _ _ _ _ _ _ R) h s (pr_reach _ _ _ _ _ _ _ _ R)) as HI.
  pose proof (hi_inv _ _ _ _ _ _ _ _ HI) as II. pose proof (run_in _ _ _ _ _ _ _ _ R) as RI.
  split; [|split; [|split; [|split; [|split]]]].
  - apply (card_ext _ _ _ C0). intros b. split; [tauto|]. intros X. split; [tauto|]. split; [apply T; tauto|tauto].
  - apply (card_ext _ _ _ C1). intros b. split; [tauto|]. intros X. split; auto.
    apply T, RI. apply (i_held _ _ _ _ _ _ _ _ _ II b X).
  - apply (card_ext _ _ _ C2). intros b. split; [tauto|]. intros X. split; auto.
    apply T, RI. apply (i_S _ _ _ _ _ _ _ _ _ II b X).
  - apply (card_ext _ _ _ C3). intros b. split; [tauto|]. intros X. split; auto.
    apply T, RI. apply (i_F _ _ _ _ _ _ _ _ _ II b X).
  - apply (card_ext _ _ _ C4). intros b. split; [tauto|]. intros X. split; auto.
    apply T, RI. apply (i_S _ _ _ _ _ _ _ _ _ II b). left. exact X.
  - apply (card_ext _ _ _ C5). intros b. split; [tauto|auto].
Qed.
Print Assumptions C22_counters_partial.
Print Assumptions C22_ready_partial.
Print Assumptions C22_counters_single_task.

(* C23 *)
Theorem C23_done_partial : forall tasks ord ordt d s0 fuel h s,
  pipe_run tasks ord ordt d s0 fuel h s -> inverse tasks ord ordt d -> fuel_ok tasks fuel ->
  apart_failures tasks ord ordt d h ->
  forall t, (ts_is_done (s_st s t) = true <->
             forall b, pipe_block tasks b -> b_task b = t -> settled (dg_up ord ordt d) (dg_max_retries d) h b) /\
            0 <= ts_pending (s_st s t).
Proof.
  intros tasks ord ordt d s0 fuel h s R IV FO F t. pose proof (run_in _ _ _ _ _ _ _ _ R) as RI.
  pose proof (apart_low _ _ _ _ _ _ _ _ R F) as T.
  split.
  - rewrite (done_iff _ _ _ _ _ _ (run_good _ _ _ _ _ _ _ _ R IV) (run_enough _ _ _ _ _ _ _ _ R FO)
      _ (run_fresh _ _ _ _ _ _ _ _ R) h s (pr_reach _ _ _ _ _ _ _ _ R) T t).
    split; intros X b Hb; apply X; apply RI; auto.
  - apply (pending_nonneg _ _ _ _ _ _ (run_good _ _ _ _ _ _ _ _ R IV) (run_enough _ _ _ _ _ _ _ _ R FO)
      _ (run_fresh _ _ _ _ _ _ _ _ R) h s (pr_reach _ _ _ _ _ _ _ _ R) T t).
Qed.
Print Assumptions C23_done_partial.

(* C24 *)
Theorem C24_no_exception_partial : forall tasks ord ordt d s0 fuel h s,
  pipe_run tasks ord ordt d s0 fuel h s -> inverse tasks ord ordt d -> fuel_ok tasks fuel ->
  (forall t chk, exists s' r sk,
     acquire_block (dg_up ord ordt d) (dg_down ord ordt d) (dg_max_retries d) fuel chk s t = Ok (s', r, sk)) /\
  (forall pb pick, held h (pb_block pb) -> pb_status pb = SUCCESS \/ pb_status pb = FAILED -> exists s',
     release_block (dg_up ord ordt d) (dg_down ord ordt d) (dg_max_retries d) fuel pick s pb = Ok s') /\
  (forall b, pipe_block tasks b -> exists u w, dg_upstream ord ordt d b = Ok u /\ dg_downstream ord ordt d b = Ok w).
Proof.
  intros tasks ord ordt d s0 fuel h s R IV FO.
  pose proof (run_good _ _ _ _ _ _ _ _ R IV) as GG. pose proof (run_enough _ _ _ _ _ _ _ _ R FO) as EN.
  pose proof (run_fresh _ _ _ _ _ _ _ _ R) as FR. pose proof (pr_reach _ _ _ _ _ _ _ _ R) as RR.
  split; [|split].
  - intros t chk. eapply acquire_total; eauto.
  - intros pb pick Hp St. eapply release_total; eauto.
  - intros b [t [g [Ht [E Gb]]]]. pose proof (pr_ok _ _ _ _ _ _ _ _ R) as PO. pose proof (run_dk _ _ _ _ _ _ _ _ R) as DK.
    destruct (up_spec tasks PO d DK ord ordt (pr_ord _ _ _ _ _ _ _ _ R) (pr_ordt _ _ _ _ _ _ _ _ R) t g b Ht E Gb) as [_ [_ [E1 _]]].
    destruct (down_spec tasks PO d DK ord ordt (pr_ord _ _ _ _ _ _ _ _ R) (pr_ordt _ _ _ _ _ _ _ _ R) t g b Ht E Gb) as [_ [_ [E2 _]]].
    eauto.
Qed.
Print Assumptions C24_no_exception_partial.

(* C25.  [chk k b] is what check_function does when called on b with k attempts left in this call
   of acquire_block; it may be different every time. *)
Theorem C25_skip_iff_check_true : forall up down maxr fuel chk s t s' r sk,
  acquire_block up down maxr fuel chk s t = Ok (s', r, sk) ->
  (forall i b, nth_error sk i = Some b -> chk (fuel - 1 - i)%nat b = CheckTrue) /\
  (forall pb, r = Some pb -> chk (fuel - 1 - length sk)%nat (pb_block pb) <> CheckTrue).
Proof. intros up down maxr fuel chk s t s' r sk. apply check_calls. Qed.
Theorem C25_raising_check_is_false : forall up down maxr fuel chk s t,
  acquire_block up down maxr fuel chk s t =
  acquire_block up down maxr fuel (fun k b => match chk k b with CheckRaises => CheckFalse | c => c end) s t.
Proof. intros. apply check_raise. Qed.
(* skipping a block = handing it out and releasing it as a success, but for the counter of skipped
   blocks and the flag that the task has started *)
Theorem C25_skip_like_success : forall up down maxr fuel chk s t s' r sk,
  acquire_block up down maxr fuel chk s t = Ok (s', r, sk) ->
  exists s1 s2, worked up down maxr fuel t sk s s1 /\
    acquire_loop up down maxr fuel (fun _ _ => CheckFalse) 1 s1 t = Ok (s2, r, []) /\ alike s' s2.
Proof. intros up down maxr fuel chk s t s' r sk E. eapply skip_alike; eauto. apply alike_refl. Qed.
Print Assumptions C25_skip_iff_check_true.
Print Assumptions C25_raising_check_is_false.
Print Assumptions C25_skip_like_success.

(* C27: the first half.  A block leaves the surface only when everything downstream of it is
   settled; only blocks that succeeded are in it. *)
Theorem C27_surface_partial : forall tasks ord ordt d s0 fuel h s,
  pipe_run tasks ord ordt d s0 fuel h s -> inverse tasks ord ordt d -> fuel_ok tasks fuel ->
  (forall b, In b (surface (s_surf s)) -> pipe_block tasks b /\ succeeded h b) /\
  (forall a b, succeeded h a -> In b (dg_down ord ordt d a) ->
     ~ settled (dg_up ord ordt d) (dg_max_retries d) h b -> In a (surface (s_surf s))) /\
  (forall b, In b (boundary (s_surf s)) ->
     perm_failed (dg_max_retries d) h b \/ orphan (dg_up ord ordt d) (dg_max_retries d) h b).
Proof.
  intros tasks ord ordt d s0 fuel h s R IV FO.
  pose proof (run_good _ _ _ _ _ _ _ _ R IV) as GG. pose proof (run_enough _ _ _ _ _ _ _ _ R FO) as EN.
  pose proof (run_fresh _ _ _ _ _ _ _ _ R) as FR. pose proof (pr_reach _ _ _ _ _ _ _ _ R) as RR.
  split; [|split].
  - intros b Hb. destruct (surface_sound _ _ _ _ _ _ GG EN _ FR h s RR b Hb) as [V S]. split; auto.
    apply (run_in _ _ _ _ _ _ _ _ R), V.
  - intros a b S D N. apply (surface_complete _ _ _ _ _ _ GG EN _ FR h s RR a b S D N).
  - intros b Hb. apply (boundary_sound _ _ _ _ _ _ GG EN _ FR h s RR b Hb).
Qed.
Print Assumptions C27_surface_partial.

(* ---- examples ---- *)
(* Two tasks with the same blocks, context 1 on either side, 4 + 4 blocks, the last ones shrunk. *)
Definition ex_u : task := Task 1 (Roi [0] [9]) (Roi [0] [4]) (Roi [1] [2]) true Shrink 1 1 [].
Definition ex_d : task := Task 2 (Roi [0] [9]) (Roi [0] [4]) (Roi [1] [2]) false Shrink 1 0 [ex_u].
Lemma ex_d_ok : pipe_ok [ex_d].
Proof. pipe_ok_tac. Qed.
Lemma ex_d_edges : edges_ok [ex_d].
Proof.
  intros t u Ht Hu. pipe_tac.
  constructor; try discriminate.
  - intros i Hi. cbn in Hi. destruct i as [|i]; [reflexivity|lia].
  - intros [k [[L CF] X]]. specialize (X O). destruct CF as [_ CF]. specialize (CF O). cbn in *. lia.
  - intros [k [[L CF] X]]. specialize (X O). destruct CF as [_ CF]. specialize (CF O). cbn in *. lia.
Qed.
Lemma ex_d_inside : inside_upstream [ex_d].
Proof.
  intros t Ht Nu. pipe_tac; [|cbn in Nu; tauto]. exists ex_u. split; [left; auto|]. split; [discriminate|]. auto.
Qed.
Lemma fuel_of tasks d fuel : pipe_ok tasks -> dgraph_init tasks = Ok d -> enough (pblocks d) fuel -> fuel_ok tasks fuel.
Proof.
  intros PO E EN l N H. destruct (dgraph_ok tasks PO) as [d' [E' DK]]. rewrite E in E'. injection E' as <-.
  assert (length l <= length (pblocks d))%nat.
  { apply NoDup_incl_length; auto. intros b Hb. apply (in_pblocks tasks PO d DK). auto. }
  unfold enough in *. nia.
Qed.
(* Block 1 of ex_u fails, is retried and succeeds; block 3 fails twice, so block 2 of ex_u and blocks
   1, 2, 3 of ex_d are orphans; block 0 of ex_u is skipped; block 0 of ex_d is in flight. *)
Definition ex_check : nat -> block -> check_result := fun _ b => if b_num b =? 0 then CheckTrue else CheckRaises.
Definition ex_calls : list call :=
  acq 1 2 ++ rel 1 FAILED [1] ++ acq 1 1 ++ rel 1 SUCCESS [1] ++ rel 1 FAILED [3] ++
  [Acq 1 ex_check] ++ rel 1 FAILED [3] ++ acq 2 1.
Definition with_id (d : dgraph) (i : nat * Z) (P : block -> bool) : bool :=
  match find (fun b => bid_eqb i (bid b)) (pblocks d) with Some b => P b | None => false end.
Lemma with_id_ok d i P : with_id d i P = true -> exists b, In b (pblocks d) /\ bid b = i /\ P b = true.
Proof.
  unfold with_id. destruct (find _ _) as [b|] eqn:E; [|discriminate]. intros H. apply find_some in E.
  destruct E as [Hb Ei]. exists b. split; auto. split; auto. unfold bid_eqb in Ei. destruct i as [i1 i2].
  cbn in Ei. apply andb_prop in Ei. destruct Ei as [E1 E2]. apply Nat.eqb_eq in E1. apply Z.eqb_eq in E2.
  unfold bid. congruence.
Qed.
Example scheduler_example : exists d s0 h s a b c e f,
  pipe_run [ex_d] idl idl d s0 100 h s /\ fuel_ok [ex_d] 100 /\
  inverse [ex_d] idl idl d /\ no_lonely [ex_d] idl idl d /\ one_failure (dg_max_retries d) h /\
  bid a = (2%nat, 0) /\ held h a /\
  bid b = (1%nat, 3) /\ perm_failed (dg_max_retries d) h b /\ n_failed h b = 2 /\
  bid c = (2%nat, 1) /\ pipe_block [ex_d] c /\ orphan (dg_up idl idl d) (dg_max_retries d) h c /\
  bid e = (1%nat, 0) /\ skipped h e /\
  bid f = (1%nat, 1) /\ succeeded h f /\ n_failed h f = 1 /\ n_handed h f = 2 /\
  map (fun t => ts_orphaned (s_st s t)) [1; 2]%nat = [1; 3].
Proof.
  destruct (run_ce [ex_d] 100 ex_calls
    (fun d h s => Nat.leb (length (pblocks d) * (length (pblocks d) + 1) + length (pblocks d) + 1) 100 &&
      with_id d (2%nat, 0) (fun a => n_released h a <? n_handed h a) &&
      with_id d (1%nat, 3) (fun b => (n_failed h b =? 2) && perm_b d h b && Nat.eqb (length (filter (perm_b d h) (pblocks d))) 1 &&
        with_id d (2%nat, 1) (fun c => with_id d (1%nat, 2) (fun x => mem_b b (dg_up idl idl d x) && mem_b x (dg_up idl idl d c)))) &&
      with_id d (1%nat, 0) (fun e => existsb (fun ev => match ev with EvSkip x => mem_b e [x] | _ => false end) h) &&
      with_id d (1%nat, 1) (fun f => succ_b h f && (n_failed h f =? 1) && (n_handed h f =? 2)) &&
      (ts_orphaned (s_st s 1) =? 1) && (ts_orphaned (s_st s 2) =? 3)) ex_d_ok) as [d [s0 [h [s [R X]]]]].
  { vm_compute. reflexivity. }
  repeat match goal with H : _ && _ = true |- _ => apply andb_prop in H; destruct H end.
  match goal with H : with_id d (2%nat, 0) _ = true |- _ => apply with_id_ok in H; destruct H as [a [Va [Ea Pa]]] end.
  match goal with H : with_id d (1%nat, 3) _ = true |- _ => apply with_id_ok in H; destruct H as [b [Vb [Eb Pb]]] end.
  match goal with H : with_id d (1%nat, 0) _ = true |- _ => apply with_id_ok in H; destruct H as [e [Ve [Ee Pe]]] end.
  match goal with H : with_id d (1%nat, 1) _ = true |- _ => apply with_id_ok in H; destruct H as [f [Vf [Ef Pf]]] end.
  repeat match goal with H : _ && _ = true |- _ => apply andb_prop in H; destruct H end.
  match goal with H : with_id d (2%nat, 1) _ = true |- _ => apply with_id_ok in H; destruct H as [c [Vc [Ec Pc]]] end.
  apply with_id_ok in Pc. destruct Pc as [x [Vx [Ex Px]]]. apply andb_prop in Px. destruct Px as [Px1 Px2].
  apply mem_b_true in Px1, Px2.
  pose proof (run_in _ _ _ _ _ _ _ _ R) as RI.
  assert (FO : fuel_ok [ex_d] 100).
  { intros l N Hl. match goal with H : Nat.leb _ 100 = true |- _ => apply Nat.leb_le in H end.
    assert (length l <= length (pblocks d))%nat by (apply NoDup_incl_length; auto; intros y Hy; apply RI; auto).
    unfold enough. nia. }
  assert (IV : inverse [ex_d] idl idl d) by (apply (run_dual _ _ _ _ _ _ _ _ R ex_d_edges)).
  exists d, s0, h, s, a, b, c, e, f. split; auto. split; auto. split; auto. split.
  { apply (covered_lonely [ex_d] ex_d_ok d (run_dk _ _ _ _ _ _ _ _ R) idl idl idl_order idl_order).
    apply inside_covered; [apply ex_d_ok|apply ex_d_inside]. }
  repeat match goal with H : (_ =? _) = true |- _ => apply Z.eqb_eq in H end.
  split.
  { intros y z Fy Fz.
    assert (K : forall w, perm_failed (dg_max_retries d) h w -> In w (filter (perm_b d h) (pblocks d))).
    { intros w Fw. apply filter_In. split; [|apply perm_b_true; auto]. apply RI.
      destruct Fw as [Fw _]. apply count_pos in Fw. destruct Fw as [ev [Hev Pev]].
      destruct ev as [|?|?|pb]; try discriminate. apply andb_prop in Pev. destruct Pev as [Pev _]. apply is_block_eq in Pev.
      apply in_split in Hev. destruct Hev as [h2 [h1 Eh]].
      pose proof (ok_at _ _ _ _ _ _ (run_good _ _ _ _ _ _ _ _ R IV) (run_enough _ _ _ _ _ _ _ _ R FO) _ (run_fresh _ _ _ _ _ _ _ _ R)
        h s (pr_reach _ _ _ _ _ _ _ _ R) _ _ _ Eh) as [Hh _].
      unfold held in Hh. assert (P : 0 < n_handed h1 (pb_block pb)).
      { pose proof (count_nonneg (fun e => match e with EvRel pb0 => is_block (pb_block pb0) (pb_block pb) | _ => false end) h1).
        unfold n_released in Hh. lia. }
      apply count_pos in P. destruct P as [ev [Hev P]]. destruct ev as [|t' pb'|?|?]; try discriminate.
      apply is_block_eq in P. apply in_split in Hev. destruct Hev as [h4 [h3 Eh']].
      rewrite <- Pev, <- P. rewrite Eh' in Eh.
      refine (proj1 (L14 _ _ _ _ _ _ _ _ R (h2 ++ EvRel pb :: h4) (EvHand t' pb') h3 _ _ eq_refl)).
      rewrite Eh, <- app_assoc. reflexivity. }
    apply K in Fy, Fz. match goal with H : Nat.eqb _ 1 = true |- _ => apply Nat.eqb_eq in H; rename H into L1 end.
    destruct (filter (perm_b d h) (pblocks d)) as [|w [|? ?]]; try discriminate.
    destruct Fy as [<-|[]], Fz as [<-|[]]. reflexivity. }
  split; auto. split; [unfold held; apply Z.ltb_lt; auto|].
  split; auto. split; [apply perm_b_true; auto|]. split; auto.
  split; auto. split; [apply RI; auto|].
  split; [exists b; split; [apply perm_b_true; auto|apply anc_more with x; auto; apply anc_one; auto]|].
  split; auto. split.
  { apply existsb_exists in Pe. destruct Pe as [ev [Hev Pe]]. destruct ev as [y|?|?|?]; try discriminate.
    apply mem_b_true in Pe. destruct Pe as [->|[]]. exact Hev. }
  split; auto. split; [apply succ_b_true; auto|]. split; auto. split; auto. cbn [map]. congruence.
Qed.
Print Assumptions scheduler_example.
