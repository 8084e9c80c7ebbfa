(* The dependency graph of a pipeline, as the scheduler theorems need it. *)
From Coq Require Import Arith Lia Permutation.
From Verif Require Import VecFacts.
From Verif Require Export DGFacts.
Open Scope Z_scope.

(* all blocks of all tasks *)
Definition pblocks (d : dgraph) : list block :=
  flat_map (fun i => match d_graph d i with Some g => all_blocks g | None => [] end) (d_ids d).

Lemma NoDup_flat_map {A B} (f : A -> list B) l : NoDup l -> (forall x, In x l -> NoDup (f x)) ->
  (forall x y b, In x l -> In y l -> In b (f x) -> In b (f y) -> x = y) -> NoDup (flat_map f l).
Proof.
  induction l as [|x l IH]; intros N H D; cbn; [constructor|]. inversion N; subst.
  apply NoDup_app'.
  - apply H; left; auto.
  - apply IH; auto; intros; [apply H|eapply D]; eauto; right; auto.
  - intros b Hb Hb'. apply in_flat_map in Hb'. destruct Hb' as [y [Hy Hb']].
    assert (x = y) by (eapply D; eauto; [left|right]; auto). subst y. tauto.
Qed.

#[local] Opaque get_subgraph_blocks.
Section PG.
  Variable tasks : list task.
  Hypothesis PO : pipe_ok tasks.
  Variable d : dgraph.
  Hypothesis DK : dg_ok tasks d.

  Lemma pipe_built t g : in_pipe tasks t -> task_graph t = Ok g -> built (tdims t) t g.
  Proof. intros Ht E. apply graph_built; auto. apply (po_geom _ PO); auto. Qed.
  Lemma pipe_graph t g : in_pipe tasks t -> task_graph t = Ok g -> d_graph d (t_id t) = Some g.
  Proof. intros Ht E. destruct (dk_graph _ _ DK t Ht) as [g' [E1 E2]]. congruence. Qed.
  Lemma gen_id t g b : in_pipe tasks t -> task_graph t = Ok g -> generated g b -> b_task b = t_id t.
  Proof. intros Ht E Hb. eapply generated_task; eauto using pipe_built. Qed.
  Lemma gen_pipe t g b : in_pipe tasks t -> task_graph t = Ok g -> generated g b -> pipe_block tasks b.
  Proof. intros. exists t, g. auto. Qed.
  Lemma pipe_block_task b t g : pipe_block tasks b -> in_pipe tasks t -> task_graph t = Ok g ->
    b_task b = t_id t -> generated g b.
  Proof.
    intros [t' [g' [Ht' [E' Hb]]]] Ht E Eb. rewrite (gen_id t' g' b) in Eb by auto.
    apply (po_ids _ PO) in Eb; auto. subst t'. congruence.
  Qed.

  Lemma in_all g t b : in_pipe tasks t -> task_graph t = Ok g -> In b (all_blocks g) <-> generated g b.
  Proof.
    intros Ht E. pose proof (pipe_built t g Ht E) as Bu. rewrite (in_all_blocks _ g (bu_wf _ _ _ Bu)).
    symmetry. apply (generated_iff _ _ _ Bu).
  Qed.
  Lemma in_pblocks b : In b (pblocks d) <-> pipe_block tasks b.
  Proof.
    unfold pblocks. rewrite in_flat_map. split.
    - intros [i [Hi Hb]]. apply (dk_ids _ _ DK) in Hi. destruct Hi as [x [Hx <-]].
      destruct (dk_graph _ _ DK x Hx) as [g [E1 E2]]. rewrite E1 in Hb.
      exists x, g. split; auto. split; auto. eapply in_all; eauto.
    - intros [t [g [Ht [E Hb]]]]. exists (t_id t). split; [apply (dk_ids _ _ DK); eauto|].
      rewrite (pipe_graph t g) by auto. eapply in_all; eauto.
  Qed.
  Lemma nodup_pblocks : NoDup (pblocks d).
  Proof.
    apply NoDup_flat_map; [apply (dk_nodup _ _ DK)| |].
    - intros i Hi. apply (dk_ids _ _ DK) in Hi. destruct Hi as [x [Hx <-]].
      destruct (dk_graph _ _ DK x Hx) as [g [E1 E2]]. rewrite E1.
      eapply NoDup_all_blocks. apply (bu_wf _ _ _ (pipe_built x g Hx E2)).
    - intros i j b Hi Hj. apply (dk_ids _ _ DK) in Hi, Hj. destruct Hi as [x [Hx <-]], Hj as [y [Hy <-]].
      destruct (dk_graph _ _ DK x Hx) as [g [E1 E2]]. destruct (dk_graph _ _ DK y Hy) as [g' [E1' E2']].
      rewrite E1, E1'. rewrite (in_all g x), (in_all g' y) by auto. intros Hb Hb'.
      rewrite <- (gen_id x g b), <- (gen_id y g' b) by auto. reflexivity.
  Qed.
  Lemma pb_ids a b : pipe_block tasks a -> pipe_block tasks b -> bid a = bid b -> a = b.
  Proof.
    intros [t [g [Ht [E Ha]]]] Hb H. assert (Et : b_task b = t_id t).
    { unfold bid in H. rewrite <- (gen_id t g a) by auto. congruence. }
    eapply c04; eauto using pipe_built. eapply pipe_block_task; eauto.
  Qed.

  Lemma up_neq t u : in_pipe tasks t -> In u (t_ups t) -> t_id u <> t_id t.
  Proof.
    intros Ht Hu E. apply (po_ids _ PO) in E; auto; [|eapply pipe_up; eauto].
    subst u. apply tsize_up in Hu. lia.
  Qed.

  Variable ord : list block -> list block.
  Variable ordt : list nat -> list nat.
  Hypothesis Hord : is_order ord.
  Hypothesis Hordt : is_order ordt.
  Notation Up := (dg_up ord ordt d).
  Notation Down := (dg_down ord ordt d).

  Lemma collect us js (q : bgraph -> list block) t g : in_pipe tasks t -> task_graph t = Ok g ->
    NoDup us -> (forall a, In a us -> generated g a) ->
    NoDup js -> (forall j, In j js -> exists x, in_pipe tasks x /\ t_id x = j /\ t_id x <> t_id t) ->
    (forall x gx, in_pipe tasks x -> In (t_id x) js -> task_graph x = Ok gx ->
       NoDup (q gx) /\ forall a, In a (q gx) -> generated gx a) ->
    exists vs, mapM (fun j => g' <- get_graph d j ;; Ok (q g')) (ordt js) = Ok vs /\
      NoDup (sort_blocks (us ++ concat vs)) /\
      forall a, In a (sort_blocks (us ++ concat vs)) <->
        In a us \/ exists x gx, in_pipe tasks x /\ In (t_id x) js /\ task_graph x = Ok gx /\ In a (q gx).
  Proof.
    intros Ht Eg Nus Gus Njs Hjs Hq.
    set (f := fun j => match d_graph d j with Some g' => q g' | None => [] end).
    exists (map f (ordt js)).
    assert (IO : forall j, In j (ordt js) <-> In j js).
    { intros j. split; apply Permutation_in; [|apply Permutation_sym]; apply Hordt. }
    split.
    { apply mapM_get. intros j Hj. apply IO in Hj. destruct (Hjs j Hj) as [x [Hx [<- _]]].
      destruct (dk_graph _ _ DK x Hx) as [gx [E1 E2]]. unfold f, get_graph. rewrite E1. reflexivity. }
    rewrite <- flat_map_concat_map.
    assert (IF : forall a, In a (flat_map f (ordt js)) <->
       exists x gx, in_pipe tasks x /\ In (t_id x) js /\ task_graph x = Ok gx /\ In a (q gx)).
    { intros a. rewrite in_flat_map. split.
      - intros [j [Hj Ha]]. apply IO in Hj. destruct (Hjs j Hj) as [x [Hx [<- _]]].
        destruct (dk_graph _ _ DK x Hx) as [gx [E1 E2]]. unfold f in Ha. rewrite E1 in Ha. exists x, gx. auto.
      - intros [x [gx [Hx [Hj [E2 Ha]]]]]. exists (t_id x). split; [apply IO; auto|].
        unfold f. rewrite (pipe_graph x gx) by auto. auto. }
    assert (TF : forall j a, In j js -> In a (f j) -> b_task a = j).
    { intros j a Hj Ha. destruct (Hjs j Hj) as [x [Hx [<- _]]].
      destruct (dk_graph _ _ DK x Hx) as [gx [E1 E2]]. unfold f in Ha. rewrite E1 in Ha.
      apply (gen_id x gx); auto. eapply Hq; eauto. }
    split.
    - eapply Permutation_NoDup; [apply Permutation_sym, sort_perm|]. apply NoDup_app'; auto.
      + apply NoDup_flat_map.
        * eapply Permutation_NoDup; [apply Permutation_sym, Hordt|auto].
        * intros j Hj. apply IO in Hj. destruct (Hjs j Hj) as [x [Hx [<- _]]].
          destruct (dk_graph _ _ DK x Hx) as [gx [E1 E2]]. unfold f. rewrite E1. eapply Hq; eauto.
        * intros i j a Hi Hj Ha Ha'. apply IO in Hi, Hj. rewrite <- (TF i a), <- (TF j a) by auto. reflexivity.
      + intros a Ha Ha'. apply in_flat_map in Ha'. destruct Ha' as [j [Hj Ha']]. apply IO in Hj.
        apply TF in Ha'; auto. destruct (Hjs j Hj) as [x [Hx [E N]]].
        apply Gus in Ha. apply (gen_id t g) in Ha; auto. congruence.
    - intros a. rewrite <- IF, <- in_app_iff. split; apply Permutation_in; [|apply Permutation_sym]; apply sort_perm.
  Qed.

  Lemma read_ok t g b : in_pipe tasks t -> task_graph t = Ok g -> generated g b ->
    (roi_dims (tdims t) (b_read b) /\ forall i, (i < tdims t)%nat -> 0 <= (shape (b_read b))@i) /\
    (roi_dims (tdims t) (b_write b) /\ forall i, (i < tdims t)%nat -> 0 <= (shape (b_write b))@i).
  Proof.
    intros Ht E Hb. pose proof (pipe_built t g Ht E) as Bu. pose proof (bu_wf _ _ _ Bu) as wf.
    destruct (gen_dims _ _ _ Bu b Hb) as [D1 D2].
    repeat (split; auto); intros i Hi; destruct (gen_dim _ _ _ Bu b i Hb Hi) as [_ [_ [? [? ?]]]];
      pose proof (wg_c0 g _ wf i Hi); pose proof (wg_c1 g _ wf i Hi); lia.
  Qed.

  Lemma sub_ok t g b x gx rr : in_pipe tasks t -> task_graph t = Ok g -> generated g b ->
    in_pipe tasks x -> task_graph x = Ok gx -> tdims x = tdims t ->
    (NoDup (get_subgraph_blocks gx (b_read b) rr) /\
       forall a, In a (get_subgraph_blocks gx (b_read b) rr) -> generated gx a) /\
    (NoDup (get_subgraph_blocks gx (b_write b) rr) /\
       forall a, In a (get_subgraph_blocks gx (b_write b) rr) -> generated gx a).
  Proof.
    intros Ht E Hb Hx Ex D. destruct (read_ok t g b Ht E Hb) as [[D1 P1] [D2 P2]]. rewrite <- D in *.
    pose proof (pipe_built x gx Hx Ex) as Bu. split; apply (sub_gen _ _ _ Bu); auto.
  Qed.

  (* what upstream() and downstream() return *)
  Lemma up_spec t g b : in_pipe tasks t -> task_graph t = Ok g -> generated g b ->
    exists us, upstream ord g b = Ok us /\ dg_upstream ord ordt d b = Ok (Up b) /\ NoDup (Up b) /\
    forall a, In a (Up b) <-> In a us \/
      exists u gu, In u (t_ups t) /\ task_graph u = Ok gu /\ In a (get_subgraph_blocks gu (b_read b) false).
  Proof.
    intros Ht E Hb. pose proof (pipe_built t g Ht E) as Bu.
    destruct (up_gen _ _ _ Bu ord Hord b Hb) as [us [Eu [Nu Gu]]]. exists us. split; auto.
    destruct (dk_ups _ _ DK t Ht) as [Nd Id].
    destruct (collect us (d_ups d (t_id t)) (fun g' => get_subgraph_blocks g' (b_read b) false) t g Ht E Nu Gu Nd)
      as [vs [Ev [Nv Hv]]].
    { intros j Hj. apply Id in Hj. destruct Hj as [u [Hu <-]]. exists u. split; [eapply pipe_up; eauto|].
      split; auto. apply up_neq; auto. }
    { intros x gx Hx Hj Ex. apply Id in Hj. destruct Hj as [u [Hu Eux]].
      apply (po_ids _ PO) in Eux; auto; [|apply (pipe_up _ t); auto]. subst x.
      refine (proj1 (sub_ok t g b u gx false Ht E Hb _ Ex _)); [exact Hx|]. apply (po_dims _ PO); auto. }
    unfold dg_up, dg_upstream. rewrite (gen_id t g b) by auto. unfold get_graph at 1 3 5 7.
    rewrite (pipe_graph t g) by auto. cbn [bind]. rewrite Eu. cbn [bind]. rewrite Ev. cbn [bind or_nil].
    split; auto. split; auto. intros a. rewrite Hv. split; (intros [H|H]; [left; auto|right]).
    - destruct H as [x [gx [Hx [Hj [Ex Ha]]]]]. apply Id in Hj. destruct Hj as [u [Hu Eux]].
      apply (po_ids _ PO) in Eux; auto; [|apply (pipe_up _ t); auto]. subst x. exists u, gx. auto.
    - destruct H as [u [gu [Hu [Egu Ha]]]]. exists u, gu. split; [eapply pipe_up; eauto|].
      split; auto. apply Id. eauto.
  Qed.
  Lemma down_spec t g b : in_pipe tasks t -> task_graph t = Ok g -> generated g b ->
    exists ds, downstream ord g b = Ok ds /\ dg_downstream ord ordt d b = Ok (Down b) /\ NoDup (Down b) /\
    forall a, In a (Down b) <-> In a ds \/
      exists x gx, in_pipe tasks x /\ In t (t_ups x) /\ task_graph x = Ok gx /\
                   In a (get_subgraph_blocks gx (b_write b) true).
  Proof.
    intros Ht E Hb. pose proof (pipe_built t g Ht E) as Bu.
    destruct (down_gen _ _ _ Bu ord Hord b Hb) as [us [Eu [Nu Gu]]]. exists us. split; auto.
    destruct (dk_downs _ _ DK (t_id t)) as [Nd Id].
    assert (Id' : forall x, in_pipe tasks x -> In (t_id x) (d_downs d (t_id t)) <-> In t (t_ups x)).
    { intros x Hx. rewrite Id. split.
      - intros [y [u [Hy [Eyx [Hu Eu']]]]]. apply (po_ids _ PO) in Eyx; auto. subst y.
        apply (po_ids _ PO) in Eu'; auto; [|apply (pipe_up _ x); auto]. subst u. auto.
      - intros H. exists x, t. auto. }
    destruct (collect us (d_downs d (t_id t)) (fun g' => get_subgraph_blocks g' (b_write b) true) t g Ht E Nu Gu Nd)
      as [vs [Ev [Nv Hv]]].
    { intros j Hj. apply Id in Hj. destruct Hj as [x [u [Hx [<- [Hu Eu']]]]]. exists x. split; auto.
      split; auto. rewrite <- Eu'. intros E'. symmetry in E'. revert E'. apply up_neq; auto. }
    { intros x gx Hx Hj Ex. apply Id' in Hj; auto.
      refine (proj2 (sub_ok t g b x gx true Ht E Hb Hx Ex _)). symmetry. apply (po_dims _ PO); auto. }
    unfold dg_down, dg_downstream. rewrite (gen_id t g b) by auto. unfold get_graph at 1 3 5 7.
    rewrite (pipe_graph t g) by auto. cbn [bind]. rewrite Eu. cbn [bind]. rewrite Ev. cbn [bind or_nil].
    split; auto. split; auto. intros a. rewrite Hv. split; (intros [H|H]; [left; auto|right]).
    - destruct H as [x [gx [Hx [Hj [Ex Ha]]]]]. exists x, gx. split; auto. split; auto. apply Id'; auto.
    - destruct H as [x [gx [Hx [Hj [Ex Ha]]]]]. exists x, gx. split; auto. split; auto. apply Id'; auto.
  Qed.

  Lemma up_pipe a b : pipe_block tasks b -> In a (Up b) -> pipe_block tasks a.
  Proof.
    intros [t [g [Ht [E Hb]]]] Ha. destruct (up_spec t g b Ht E Hb) as [us [Eu [_ [_ H]]]].
    apply H in Ha. destruct Ha as [Ha|[u [gu [Hu [Egu Ha]]]]].
    - destruct (up_gen _ _ _ (pipe_built t g Ht E) ord Hord b Hb) as [us' [Eu' [_ G]]].
      rewrite Eu' in Eu. injection Eu as ->. eapply gen_pipe; eauto.
    - exists u, gu. split; [eapply pipe_up; eauto|]. split; auto.
      destruct (sub_ok t g b u gu false) as [[_ S] _]; auto; [eapply pipe_up; eauto|apply (po_dims _ PO); auto].
  Qed.
  Lemma down_pipe a b : pipe_block tasks b -> In a (Down b) -> pipe_block tasks a.
  Proof.
    intros [t [g [Ht [E Hb]]]] Ha. destruct (down_spec t g b Ht E Hb) as [us [Eu [_ [_ H]]]].
    apply H in Ha. destruct Ha as [Ha|[x [gx [Hx [Hj [Ex Ha]]]]]].
    - destruct (down_gen _ _ _ (pipe_built t g Ht E) ord Hord b Hb) as [us' [Eu' [_ G]]].
      rewrite Eu' in Eu. injection Eu as ->. eapply gen_pipe; eauto.
    - exists x, gx. split; auto. split; auto.
      destruct (sub_ok t g b x gx true) as [_ [_ S]]; auto. symmetry. apply (po_dims _ PO); auto.
  Qed.

  (* level 0 blocks are exactly those without upstream inside the task *)
  Lemma level0 t g b rs : in_pipe tasks t -> task_graph t = Ok g -> level_blocks g 0 = Ok rs ->
    In b rs -> generated g b /\ upstream ord g b = Ok [].
  Proof.
    intros Ht E Er Hb. split; [exists O, rs; auto|].
    pose proof (pipe_built t g Ht E) as Bu. pose proof (bu_wf _ _ _ Bu) as wf.
    destruct (nth_error (g_loffs g) 0) as [lo|] eqn:El; [|rewrite (level_blocks_err g 0 El) in Er; discriminate].
    rewrite (level_blocks_eq _ g wf 0 lo El) in Er. injection Er as <-.
    apply in_map_iff in Hb. destruct Hb as [k [<- Hk]].
    apply (in_lidx _ g wf) in Hk; [|eapply nth_error_In; eauto]. destruct Hk as [Gk Ek].
    destruct (upstream_spec _ g wf ord Hord k Gk) as [u [Eu [_ Hu]]]. rewrite Eu.
    destruct u as [|a u]; auto. exfalso. destruct (proj1 (Hu a) (or_introl eq_refl)) as [k' [[_ [_ L]] _]].
    rewrite (lvl_unique _ g wf k 0 Gk) in L; [discriminate|congruence].
  Qed.
  Lemma level0_inv t g b rs : in_pipe tasks t -> task_graph t = Ok g -> level_blocks g 0 = Ok rs ->
    generated g b -> upstream ord g b = Ok [] -> In b rs.
  Proof.
    intros Ht E Er Hb Eu. pose proof (pipe_built t g Ht E) as Bu. pose proof (bu_wf _ _ _ Bu) as wf.
    apply (generated_iff _ _ _ Bu) in Hb. destruct Hb as [k [Gk ->]].
    destruct (lvl g k) as [|q] eqn:L.
    - pose proof (lvl_nth _ g wf k Gk) as El. rewrite L in El.
      rewrite (level_blocks_eq _ g wf 0 _ El) in Er. injection Er as <-.
      apply in_map. apply (in_lidx _ g wf); auto. eapply nth_error_In; eauto.
    - destruct (has_upstream _ g wf k q Gk L) as [k' Hk'].
      destruct (upstream_spec _ g wf ord Hord k Gk) as [u [Eu' [_ Hu]]]. rewrite Eu' in Eu. injection Eu as ->.
      exfalso. apply (Hu (gblk g k')). eauto.
  Qed.

  Hypothesis RM : has_room tasks.

  Lemma seeds_info i b : In b (root_seeds d i) -> exists t g rs, in_pipe tasks t /\ t_id t = i /\ t_ups t = [] /\
    task_graph t = Ok g /\ level_blocks g 0 = Ok rs /\ rs = root_seeds d i.
  Proof.
    intros Hb. destruct (in_dec Nat.eq_dec i (root_tasks d)) as [Hi|Hi].
    2: { rewrite (no_root d i Hi) in Hb. destruct Hb. }
    destruct (root_graph tasks PO RM d DK i Hi) as [g [E1 [_ [_ E4]]]].
    apply (root_iff tasks d DK) in Hi. destruct Hi as [t [Ht [<- Eu]]].
    destruct (dk_graph _ _ DK t Ht) as [g' [E1' E2]]. rewrite E1' in E1. injection E1 as ->.
    exists t, g, (root_seeds d (t_id t)). auto 8.
  Qed.
  Lemma seeds_ok i b : In b (root_seeds d i) -> pipe_block tasks b /\ b_task b = i /\ Up b = [].
  Proof.
    intros Hb. destruct (seeds_info i b Hb) as [t [g [rs [Ht [<- [Eu [E [Er ->]]]]]]]].
    destruct (level0 t g b _ Ht E Er Hb) as [Gb Ub].
    split; [eapply gen_pipe; eauto|]. split; [eapply gen_id; eauto|].
    destruct (up_spec t g b Ht E Gb) as [us [Eus [_ [_ H]]]]. rewrite Ub in Eus. injection Eus as <-.
    destruct (Up b) as [|a l]; auto. destruct (proj1 (H a) (or_introl eq_refl)) as [[]|[u [gu [Hu _]]]].
    rewrite Eu in Hu. destruct Hu.
  Qed.

  Theorem pipe_safe : safe_graph (pblocks d) Up Down (root_seeds d).
  Proof.
    constructor.
    - intros a b. rewrite !in_pblocks. apply pb_ids.
    - intros a b. rewrite !in_pblocks. apply up_pipe.
    - intros a b. rewrite !in_pblocks. apply down_pipe.
    - intros i b Hb. rewrite in_pblocks. destruct (seeds_ok i b Hb) as [? [? ?]]. auto.
  Qed.

  (* direct dependencies between tasks, exactly (C13): the blocks whose output, inside the volume
     the task is to write, meets what b reads -- provided b reads something there *)
  Lemma up_direct t g b u gu a p : in_pipe tasks t -> task_graph t = Ok g -> generated g b ->
    In u (t_ups t) -> task_graph u = Ok gu -> generated gu a ->
    pt_in p (b_write a) -> pt_in p (b_read b) -> in_total_write u p -> In a (Up b).
  Proof.
    intros Ht E Hb Hu Egu Ga P1 P2 P3. destruct (up_spec t g b Ht E Hb) as [us [_ [_ [_ H]]]].
    apply H. right. exists u, gu. split; auto. split; auto.
    assert (Bu : built (tdims t) u gu).
    { rewrite <- (po_dims _ PO t u) by auto. apply pipe_built; auto. eapply pipe_up; eauto. }
    destruct (read_ok t g b Ht E Hb) as [[D S] _].
    apply (c10 _ _ _ Bu (b_read b) D S); eauto.
  Qed.

  (* C12, for edges of the proper kind *)
  Lemma pipe_dual (EO : edges_ok tasks) a b : pipe_block tasks a -> pipe_block tasks b -> (In b (Down a) <-> In a (Up b)).
  Proof.
    intros [ta [ga [Hta [Ea Ga]]]] [tb [gb [Htb [Eb Gb]]]].
    destruct (up_spec tb gb b Htb Eb Gb) as [us [Eus [_ [_ HU]]]].
    destruct (down_spec ta ga a Hta Ea Ga) as [ds [Eds [_ [_ HD]]]].
    rewrite HU, HD.
    assert (X : forall t g x y l, in_pipe tasks t -> task_graph t = Ok g -> generated g x ->
       upstream ord g x = Ok l -> In y l -> b_task y = t_id t).
    { intros t g x y l Ht E Hx El Hy. destruct (up_gen _ _ _ (pipe_built t g Ht E) ord Hord x Hx) as [l' [E1 [_ G]]].
      rewrite E1 in El. injection El as ->. eapply gen_id; eauto. }
    assert (Y : forall t g x y l, in_pipe tasks t -> task_graph t = Ok g -> generated g x ->
       downstream ord g x = Ok l -> In y l -> b_task y = t_id t).
    { intros t g x y l Ht E Hx El Hy. destruct (down_gen _ _ _ (pipe_built t g Ht E) ord Hord x Hx) as [l' [E1 [_ G]]].
      rewrite E1 in El. injection El as ->. eapply gen_id; eauto. }
    assert (S : forall t x u gx z (r : roi) (rr : bool), in_pipe tasks t -> in_pipe tasks x -> task_graph x = Ok gx ->
       tdims x = tdims t -> roi_dims (tdims t) r -> (forall i, (i < tdims t)%nat -> 0 <= (shape r)@i) ->
       In z (get_subgraph_blocks gx r rr) -> in_pipe tasks u -> b_task z = t_id u -> u = x).
    { intros t x u gx z r rr Ht Hx Ex Dx D P Hz Hu Ez. apply (po_ids _ PO); auto. rewrite <- Ez.
      apply (gen_id x gx); auto. rewrite <- Dx in D, P. destruct (sub_gen _ _ _ (pipe_built x gx Hx Ex) r rr D P); auto. }
    destruct (Nat.eq_dec (t_id ta) (t_id tb)) as [Et|Et].
    - apply (po_ids _ PO) in Et; auto. subst tb. rewrite Ea in Eb. injection Eb as <-.
      pose proof (c07_dual _ _ _ (pipe_built ta ga Hta Ea) ord Hord a b us ds Ga Gb Eds Eus) as C.
      split; (intros [H|H]; [left; tauto|exfalso]).
      + destruct H as [x [gx [Hx [Hj [Ex Hz]]]]]. destruct (read_ok ta ga a Hta Ea Ga) as [_ [D P]].
        assert (ta = x) by (eapply (S ta x ta); eauto; [symmetry; apply (po_dims _ PO); auto|eapply gen_id; eauto]).
        subst x. apply tsize_up in Hj. lia.
      + destruct H as [u [gu [Hu [Eu Hz]]]]. destruct (read_ok ta ga b Hta Ea Gb) as [[D P] _].
        assert (ta = u) by (eapply (S ta u ta); eauto; [eapply pipe_up; eauto|apply (po_dims _ PO); auto|eapply gen_id; eauto]).
        subst u. apply tsize_up in Hu. lia.
    - split; (intros [H|H]; [exfalso|right]).
      + apply (Y ta ga a b ds) in H; auto. rewrite (gen_id tb gb b) in H by auto. congruence.
      + destruct H as [x [gx [Hx [Hj [Ex Hz]]]]]. destruct (read_ok ta ga a Hta Ea Ga) as [_ [D P]].
        assert (tb = x) by (eapply (S ta x tb); eauto; [symmetry; apply (po_dims _ PO); auto|eapply gen_id; eauto]).
        subst x. rewrite Eb in Ex. injection Ex as <-. exists ta, ga. split; auto. split; auto.
        eapply (cross_dual (tdims tb) ta tb ga gb); eauto using pipe_built.
        * rewrite <- (po_dims _ PO tb ta) by auto. apply pipe_built; auto.
        * symmetry. apply (po_dims _ PO); auto.
      + apply (X tb gb b a us) in H; auto. rewrite (gen_id ta ga a) in H by auto. congruence.
      + destruct H as [u [gu [Hu [Eu Hz]]]]. destruct (read_ok tb gb b Htb Eb Gb) as [[D P] _].
        assert (ta = u) by (eapply (S tb u ta); eauto; [eapply pipe_up; eauto|apply (po_dims _ PO); auto|eapply gen_id; eauto]).
        subst u. rewrite Ea in Eu. injection Eu as <-. exists tb, gb. split; auto. split; auto. split; auto.
        eapply (cross_dual (tdims tb) ta tb ga gb); eauto using pipe_built.
        * rewrite <- (po_dims _ PO tb ta) by auto. apply pipe_built; auto.
        * symmetry. apply (po_dims _ PO); auto.
  Qed.

  (* acyclic: tasks by size of their dependency tree, then levels *)
  Definition prank (b : block) : nat :=
    match d_task d (b_task b), d_graph d (b_task b) with
    | Some t, Some g => tsize t * S (list_max (map (fun i => match d_graph d i with
                                                            | Some g => num_levels g | None => O end) (d_ids d)))
                        + match level_of g b with Ok l => l | Err _ => O end
    | _, _ => O
    end.
  Lemma prank_lt a b : pipe_block tasks b -> In a (Up b) -> (prank a < prank b)%nat.
  Proof.
    intros [t [g [Ht [E Hb]]]] Ha. destruct (up_spec t g b Ht E Hb) as [us [Eu [_ [_ H]]]].
    set (M := list_max (map (fun i => match d_graph d i with Some g => num_levels g | None => O end) (d_ids d))).
    assert (PR : forall t g b, in_pipe tasks t -> task_graph t = Ok g -> generated g b ->
       exists l, level_of g b = Ok l /\ (l < num_levels g)%nat /\ (num_levels g <= M)%nat /\
                 prank b = (tsize t * S M + l)%nat).
    { clear t g b Ht E Hb Ha us Eu H. intros t g b Ht E Hb.
      pose proof (pipe_built t g Ht E) as Bu. pose proof (bu_wf _ _ _ Bu) as wf.
      pose proof Hb as Hb'. apply (generated_iff _ _ _ Bu) in Hb'. destruct Hb' as [k [Gk ->]].
      exists (lvl g k). split; [apply (level_of_gblk _ g wf); auto|].
      split; [apply (lvl_lt _ g wf); auto|]. split.
      - assert (F := proj1 (list_max_le (map (fun i => match d_graph d i with Some g => num_levels g | None => O end) (d_ids d)) M) (le_n _)).
        rewrite Forall_forall in F. apply F. apply in_map_iff. exists (t_id t).
        rewrite (pipe_graph t g) by auto. split; auto. apply (dk_ids _ _ DK); eauto.
      - unfold prank. rewrite (gen_id t g) by auto. rewrite (dk_task _ _ DK) by auto.
        rewrite (pipe_graph t g) by auto. rewrite (level_of_gblk _ g wf) by auto. reflexivity. }
    destruct (PR t g b Ht E Hb) as [l [El [Ll [LM ->]]]].
    apply H in Ha. destruct Ha as [Ha|[u [gu [Hu [Egu Ha]]]]].
    - pose proof (pipe_built t g Ht E) as Bu. pose proof (bu_wf _ _ _ Bu) as wf.
      destruct (proj1 (generated_iff _ _ _ Bu b) Hb) as [k [Gk ->]].
      destruct (upstream_spec _ g wf ord Hord k Gk) as [us' [Eus [_ Hu]]]. rewrite Eus in Eu. injection Eu as ->.
      apply Hu in Ha. destruct Ha as [k' [[Gk' [_ L]] ->]].
      assert (Ga : generated g (gblk g k')) by (apply (generated_iff _ _ _ Bu); exists k'; auto).
      destruct (PR t g _ Ht E Ga) as [l' [El' [_ [_ ->]]]].
      rewrite (level_of_gblk _ g wf) in El, El' by auto. injection El as <-. injection El' as <-. lia.
    - assert (Pu : in_pipe tasks u) by (eapply pipe_up; eauto).
      assert (Ga : generated gu a).
      { destruct (sub_ok t g b u gu false) as [[_ S] _]; auto. apply (po_dims _ PO); auto. }
      destruct (PR u gu a Pu Egu Ga) as [l' [_ [Ll' [LM' ->]]]]. apply tsize_up in Hu. nia.
  Qed.

  Hypothesis DU : inverse tasks ord ordt d.
  Theorem pipe_good : good_graph (pblocks d) Up Down (root_seeds d).
  Proof.
    constructor.
    - apply nodup_pblocks.
    - intros a b. rewrite !in_pblocks. apply pb_ids.
    - intros a b. rewrite !in_pblocks. apply up_pipe.
    - intros a b. rewrite !in_pblocks. apply down_pipe.
    - intros a b. rewrite !in_pblocks. apply DU.
    - intros b. rewrite in_pblocks. intros [t [g [Ht [E Hb]]]].
      destruct (up_spec t g b Ht E Hb) as [us [_ [_ [N _]]]]. auto.
    - intros b. rewrite in_pblocks. intros [t [g [Ht [E Hb]]]].
      destruct (down_spec t g b Ht E Hb) as [us [_ [_ [N _]]]]. auto.
    - exists prank. intros a b. rewrite in_pblocks. apply prank_lt.
    - intros i b Hb. rewrite in_pblocks. apply seeds_ok; auto.
    - intros i. destruct (root_seeds d i) as [|b l] eqn:Es; [constructor|]. rewrite <- Es.
      destruct (seeds_info i b) as [t [g [rs [Ht [<- [Eu [E [Er Ers]]]]]]]]; [rewrite Es; left; auto|].
      rewrite <- Ers. pose proof (pipe_built t g Ht E) as Bu. pose proof (bu_wf _ _ _ Bu) as wf.
      pose proof (NoDup_all_blocks _ g wf) as N.
      destruct (level_list _ _ _ Bu) as [bss [Em Ec]]. rewrite <- Ec in N.
      destruct (num_levels g) as [|nl] eqn:NLv.
      + unfold num_levels in NLv. destruct (g_loffs g) eqn:El; [|discriminate].
        rewrite (level_blocks_err g 0) in Er by (rewrite El; reflexivity). discriminate.
      + cbn [seq mapM] in Em. rewrite Er in Em. cbn [bind] in Em.
        destruct (mapM (level_blocks g) (seq 1 nl)); [|discriminate]. cbn [bind] in Em. injection Em as <-.
        cbn [concat] in N. clear -N. induction rs as [|x rs IH]; [constructor|]. inversion N; subst. constructor; auto.
        rewrite in_app_iff in *. tauto.
  Qed.

  Lemma covered_lonely : covered tasks -> no_lonely tasks ord ordt d.
  Proof.
    intros CV t g b Ht Nu E Hb Eb. destruct (CV t g b Ht Nu E Hb) as [u' [gu [a [p [Hu' [Egu [Ga [P1 [P2 P3]]]]]]]]].
    assert (X : In a (Up b)) by (eapply up_direct; eauto). rewrite Eb in X. destruct X.
  Qed.
  Lemma pipe_roots : no_lonely tasks ord ordt d -> all_roots (pblocks d) Up (root_seeds d).
  Proof.
    intros CV b Hb Eb. apply in_pblocks in Hb. destruct Hb as [t [g [Ht [E Hb]]]].
    rewrite (gen_id t g b) by auto.
    destruct (up_spec t g b Ht E Hb) as [us [Eus [_ [_ H]]]]. rewrite Eb in H.
    destruct (t_ups t) as [|u us'] eqn:Eu.
    - assert (us = []) as -> by (destruct us as [|a us]; auto; destruct (proj2 (H a)); left; left; auto).
      assert (Hi : In (t_id t) (root_tasks d)) by (apply (root_iff tasks d DK); eauto).
      destruct (root_graph tasks PO RM d DK _ Hi) as [g' [E1 [_ [_ E4]]]].
      rewrite (pipe_graph t g) in E1 by auto. injection E1 as <-.
      eapply level0_inv; eauto.
    - exfalso. apply (CV t g b); auto. congruence.
  Qed.

  Lemma pipe_total i : card (fun b => In b (pblocks d) /\ b_task b = i) (nblocks d i).
  Proof.
    unfold nblocks. destruct (in_dec Nat.eq_dec i (d_ids d)) as [Hi|Hi].
    - apply (dk_ids _ _ DK) in Hi. destruct Hi as [t [Ht <-]].
      destruct (dk_graph _ _ DK t Ht) as [g [E1 E2]]. rewrite E1.
      destruct (c03 _ _ _ (pipe_built t g Ht E2)) as [bss [_ [En [N [Hin _]]]]]. rewrite En.
      exists (concat bss). split; auto. split; auto. intros b. rewrite Hin, in_pblocks. split.
      + intros Hb. split; [eapply gen_pipe; eauto|eapply gen_id; eauto].
      + intros [Hb Eb]. eapply pipe_block_task; eauto.
    - rewrite (dk_out _ _ DK) by auto. exists []. split; [constructor|]. split; auto.
      intros b. split; [intros []|]. intros [Hb Eb]. apply in_pblocks in Hb. destruct Hb as [t [g [Ht [E Hb]]]].
      rewrite (gen_id t g b) in Eb by auto. apply Hi. apply (dk_ids _ _ DK). eauto.
  Qed.
End PG.

(* everything the scheduler theorems need, for a pipeline *)
Theorem pipe_sched tasks : pipe_ok tasks -> has_room tasks -> exists d s0,
  sched_init tasks = Ok (d, s0) /\ dg_ok tasks d /\ fresh (pblocks d) (root_seeds d) s0 /\
  (forall i, In i (s_order s0) <-> exists t, in_pipe tasks t /\ t_id t = i) /\ NoDup (s_order s0).
Proof.
  intros PO RM. destruct (sched_init_ok tasks PO RM) as [d [s0 [E [DK [F1 [F2 [F3 [F4 F5]]]]]]]].
  exists d, s0. split; auto. split; auto. split; [|split; auto; intros i; rewrite F4; apply (dk_ids _ _ DK)].
  constructor; auto; intros; rewrite ?F2, ?F3; cbn; auto; try lia.
  apply (pipe_total tasks); auto.
Qed.

(* If the constructor of the scheduler does not raise there was room (C26). *)
Lemma init_has_room tasks d s0 : pipe_ok tasks -> sched_init tasks = Ok (d, s0) -> has_room tasks.
Proof.
  intros PO E t g Ht Eu Rw Eg.
  destruct (dgraph_ok tasks PO) as [d' [Ed DK]]. unfold sched_init in E. rewrite Ed in E. cbn [bind] in E.
  destruct (init_roots d' _) as [s1|] eqn:Er in E; [|discriminate]. clear E.
  assert (G : forall l s s', foldM (fun s t =>
           g <- get_graph d' t ;;
           n <- num_roots g ;;
           gen <- root_gen g ;;
           Ok (Sched (s_surf s) (upd (s_q s) t (pqueue_init n gen))
                     (upd (s_st s) t (ts_add_ready n (s_st s t)))
                     (sadd Nat.eqb t (s_order s)))) l s = Ok s' ->
     forall i, In i l -> exists g n, get_graph d' i = Ok g /\ num_roots g = Ok n).
  { induction l as [|j l IH]; intros s s' E i Hi; [destruct Hi|]. cbn [foldM] in E.
    destruct (get_graph d' j) as [gj|] eqn:E1; [|discriminate]. cbn [bind] in E.
    destruct (num_roots gj) as [nj|] eqn:E2; [|discriminate]. cbn [bind] in E.
    destruct (root_gen gj) as [rj|] eqn:E3; [|discriminate]. cbn [bind] in E.
    destruct Hi as [<-|Hi]; [exists gj, nj; auto|]. eapply IH; eauto. }
  destruct (G _ _ _ Er (t_id t)) as [g' [k [E1 E2]]].
  { apply (root_iff tasks d' DK). eauto. }
  unfold get_graph in E1. rewrite (pipe_graph tasks d' DK t g) in E1 by auto. injection E1 as <-.
  pose proof (pipe_built tasks PO t g Ht Eg) as Bu.
  destruct (all_blocks g) as [|b l] eqn:Ea.
  - exfalso. assert (N : forall b, ~ generated g b).
    { intros b Hb. apply (in_all tasks PO g t b) in Hb; auto. rewrite Ea in Hb. destruct Hb. }
    unfold num_roots, num_level_blocks in E2. rewrite (noroom_levels _ _ _ Bu N Rw) in E2. discriminate.
  - exists b. apply (in_all tasks PO g t b); auto. rewrite Ea. left; auto.
Qed.

Lemma pipe_fresh tasks d s0 : pipe_ok tasks -> sched_init tasks = Ok (d, s0) ->
  has_room tasks /\ dg_ok tasks d /\ fresh (pblocks d) (root_seeds d) s0 /\
  (forall i, In i (s_order s0) <-> exists t, in_pipe tasks t /\ t_id t = i) /\ NoDup (s_order s0).
Proof.
  intros PO E. pose proof (init_has_room _ _ _ PO E) as RM. split; auto.
  destruct (pipe_sched tasks PO RM) as [d' [s' [E' H]]]. rewrite E in E'. injection E' as <- <-. auto.
Qed.
