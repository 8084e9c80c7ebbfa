(* C99: what the bodies leave in the arrays does not depend on who ran when. *)
From Coq Require Import Lia Permutation.
From Verif Require Import SchedProps DGFacts2 PipeRun P_Sched.
From Verif Require Import Store StoreFacts.
Open Scope Z_scope.

Lemma mrun_succeeded V code m0 h m r b : @mrun V code m0 h m r -> (succeeded h b <-> ended h b).
Proof. intros _. reflexivity. Qed.

Section C99.
  Variables (tasks : list task) (ord : list block -> list block) (ordt : list nat -> list nat) (d : dgraph) (s0 : sched) (fuel : nat).
  Local Notation up := (dg_up ord ordt d).
  Local Notation pipe_run := (pipe_run tasks ord ordt d s0 fuel).
  Hypothesis IV : inverse tasks ord ordt d.
  Hypothesis FO : fuel_ok tasks fuel.
  Variable V : Type.
  Variable code : block -> prog V.
  Hypothesis KEEP : forall b, pipe_block tasks b -> keeps (may_read tasks b) (may_write b) (code b).
  Variable m0 : store V.

  Lemma same_task a b t g : pipe_block tasks a -> in_pipe tasks t -> task_graph t = Ok g -> pipe_ok tasks -> b_task a = t_id t -> b = a -> generated g b.
  Proof.
    intros [t' [g' [Ht' [Eg' Ga]]]] Ht Eg PO E ->. pose proof (gen_id tasks PO t' g' a Ht' Eg' Ga) as E'. assert (t' = t) by (apply (po_ids _ PO); auto; congruence). subst. congruence.
  Qed.
  Lemma cells_apart h s : pipe_run h s -> forall a b c, pipe_block tasks a -> pipe_block tasks b -> a <> b -> may_write a c -> may_write b c -> False.
  Proof.
    intros PR a b c Ha Hb N [T1 P1] [T2 P2]. pose proof (pr_ok _ _ _ _ _ _ _ _ PR) as PO. destruct Ha as [t [g [Ht [Eg Ga]]]]. pose proof (gen_id tasks PO t g a Ht Eg Ga) as E.
    assert (Gb : generated g b) by (eapply same_task; eauto; congruence). apply (c01 _ t g (pipe_built tasks PO t g Ht Eg) a b Ga Gb N). exists (snd c). auto.
  Qed.
  Lemma cells_ordered h s : pipe_run h s -> forall a b c, pipe_block tasks a -> pipe_block tasks b -> a <> b -> may_read tasks b c -> may_write a c -> ancestor up a b \/ ancestor up b a.
  Proof.
    intros PR a b c Ha Hb N [P1 [_ [t [Ht [Et H]]]]] [T2 P2]. pose proof (pr_ok _ _ _ _ _ _ _ _ PR) as PO.
    destruct Hb as [t' [g [Ht' [Eg Gb]]]]. pose proof (gen_id tasks PO t' g b Ht' Eg Gb) as E. assert (t' = t) by (apply (po_ids _ PO); auto; congruence). subst t'.
    destruct H as [[u [Hu [Eu Tw]]]|[[Ec Rw]|H]].
    - destruct Ha as [t' [ga [Ha [Ega Ga]]]]. pose proof (gen_id tasks PO t' ga a Ha Ega Ga) as Ea. assert (Pu : in_pipe tasks u) by (eapply pipe_up; eauto). assert (t' = u) by (apply (po_ids _ PO); auto; congruence). subst t'.
      left. apply anc_one. eapply (up_direct tasks PO d (run_dk _ _ _ _ _ _ _ _ PR) ord ordt (pr_ord _ _ _ _ _ _ _ _ PR) (pr_ordt _ _ _ _ _ _ _ _ PR) t g b u ga a (snd c)); eauto.
    - assert (Ga : generated g a) by (eapply same_task; eauto; congruence).
      destruct (c08 _ t g (pipe_built tasks PO t g Ht Eg) ord (pr_ord _ _ _ _ _ _ _ _ PR) a b Rw Ga Gb N) as [D|D].
      + exists (snd c). auto.
      + right. eapply (trans_anc _ _ _ _ _ _ _ _ PR); eauto.
      + left. eapply (trans_anc _ _ _ _ _ _ _ _ PR); eauto.
    - exfalso. destruct Ha as [t' [ga [Ha [Ega Ga]]]]. pose proof (gen_id tasks PO t' ga a Ha Ega Ga) as Ea. apply (H t' Ha). congruence.
  Qed.
  Lemma taken h s (m : store V) (r : block -> option (prog V)) : pipe_run h s -> mrun code m0 h m r -> forall h2 e b h1, h = h2 ++ e :: h1 -> takes e b ->
    pipe_block tasks b /\ (forall a, In a (up b) -> ended h1 a) /\ ~ ended h1 b /\ n_handed h1 b = n_released h1 b.
  Proof.
    intros PR Q h2 e b h1 E T. destruct (L14 _ _ _ _ _ _ _ _ PR _ _ _ _ E T) as [L1 L2]. destruct (L16b _ _ _ _ _ _ _ _ PR IV FO _ _ _ _ E T) as [L4 L3].
    split; [exact L1|]. split; [exact L2|]. split; [exact L3|]. assert (E' : h = (h2 ++ [e]) ++ h1) by (rewrite <- app_assoc; exact E).
    destruct (counts_app _ _ _ _ _ _ (run_good _ _ _ _ _ _ _ _ PR IV) (run_enough _ _ _ _ _ _ _ _ PR FO) _ (run_fresh _ _ _ _ _ _ _ _ PR) _ _ (pr_reach _ _ _ _ _ _ _ _ PR) _ _ E' b) as [K _]. unfold held in L4. lia.
  Qed.

  (* Whatever the interleaving: where no body left something that did not succeed, the arrays hold what the bodies that succeeded leave
     when they run one by one, in the order of their releases. *)
  Theorem C99_serial : forall h s m r, pipe_run h s -> mrun code m0 h m r ->
    forall c, (forall b, pipe_block tasks b -> may_write b c -> handed_out h b -> succeeded h b) -> m c = one_by_one code (finished h) m0 c.
  Proof.
    intros h s m r PR Q c H.
    assert (RW : forall b c, may_read tasks b c -> ~ may_write b c) by (intros b e [_ [N _]]; exact N).
    pose proof (minv_run V code m0 up (pipe_block tasks) (may_read tasks) may_write RW KEEP (cells_ordered h s PR) (cells_apart h s PR) h (taken h s m r PR Q) h m r Q [] eq_refl) as I.
    destruct (mi_cell _ _ _ _ _ _ _ _ I c) as [E|[b [H1 [H2 H3]]]]; [exact E|]. exfalso. apply H2. apply (mrun_succeeded _ _ _ _ _ _ _ Q).
    destruct (out_in _ _ _ (taken h s m r PR Q) [] h b eq_refl (or_introl H1)) as [Pb _]. apply H; auto. eapply trace_writes; [apply KEEP; exact Pb|exact H3].
  Qed.
  (* The order does not matter as long as every block comes after those it depends on. *)
  Theorem C99_any_order : forall h s m r, pipe_run h s -> mrun code m0 h m r ->
    forall l, NoDup l -> (forall b, In b l <-> succeeded h b) -> in_order up l -> forall c, one_by_one code (finished h) m0 c = one_by_one code l m0 c.
  Proof.
    intros h s m r PR Q l N Hl O c.
    assert (RW : forall b c, may_read tasks b c -> ~ may_write b c) by (intros b e [_ [X _]]; exact X).
    pose proof (minv_run V code m0 up (pipe_block tasks) (may_read tasks) may_write RW KEEP (cells_ordered h s PR) (cells_apart h s PR) h (taken h s m r PR Q) h m r Q [] eq_refl) as I.
    pose proof (mi_nodup _ _ _ _ _ _ _ _ I) as Nf.
    assert (Fin : forall b, In b (finished h) <-> succeeded h b) by (intros b; rewrite finished_in; symmetry; apply (mrun_succeeded _ _ _ _ _ _ _ Q)).
    assert (Of : in_order up (finished h)) by (eapply (finished_order V code m0 up (pipe_block tasks) (may_read tasks) may_write RW KEEP (cells_ordered h s PR) (cells_apart h s PR) h (taken h s m r PR Q)); exact Q).
    apply (seq_perm V code up (pipe_block tasks) (may_read tasks) may_write RW KEEP (cells_ordered h s PR) (cells_apart h s PR)); auto using order_sorted.
    - apply NoDup_Permutation; auto. intros b. rewrite Fin, Hl. tauto.
    - intros b Hb. apply finished_in in Hb. eapply (out_in _ _ _ (taken h s m r PR Q) [] h b eq_refl). apply (mi_ended _ _ _ _ _ _ _ _ I). exact Hb.
  Qed.
  (* Two runs in which the same blocks succeeded leave the same. *)
  Theorem C99_determined : forall h s m r h' s' m' r', pipe_run h s -> mrun code m0 h m r -> pipe_run h' s' -> mrun code m0 h' m' r' ->
    (forall b, succeeded h b <-> succeeded h' b) ->
    forall c, (forall b, pipe_block tasks b -> may_write b c -> handed_out h b \/ handed_out h' b -> succeeded h b) -> m c = m' c.
  Proof.
    intros h s m r h' s' m' r' PR Q PR' Q' Same c H. rewrite (C99_serial _ _ _ _ PR Q c) by auto.
    rewrite (C99_serial _ _ _ _ PR' Q' c) by (intros; apply Same; auto).
    assert (RW : forall b c, may_read tasks b c -> ~ may_write b c) by (intros b e [_ [X _]]; exact X).
    pose proof (minv_run V code m0 up (pipe_block tasks) (may_read tasks) may_write RW KEEP (cells_ordered h' s' PR') (cells_apart h' s' PR') h' (taken h' s' m' r' PR' Q') h' m' r' Q' [] eq_refl) as I.
    apply (C99_any_order _ _ _ _ PR Q).
    - exact (mi_nodup _ _ _ _ _ _ _ _ I).
    - intros b. rewrite finished_in, Same. symmetry. apply (mrun_succeeded _ _ _ _ _ _ _ Q').
    - eapply (finished_order V code m0 up (pipe_block tasks) (may_read tasks) may_write RW KEEP (cells_ordered h' s' PR') (cells_apart h' s' PR') h' (taken h' s' m' r' PR' Q')); exact Q'.
  Qed.
  (* If every block succeeded, all arrays are what any sequential order leaves that respects the dependencies. *)
  Theorem C99_complete : forall h s m r, pipe_run h s -> mrun code m0 h m r -> (forall b, pipe_block tasks b -> succeeded h b) ->
    forall l, NoDup l -> (forall b, In b l <-> pipe_block tasks b) -> in_order up l -> forall c, m c = one_by_one code l m0 c.
  Proof.
    intros h s m r PR Q A l N Hl O c. rewrite (C99_serial _ _ _ _ PR Q c) by auto. apply (C99_any_order _ _ _ _ PR Q); auto. intros b. rewrite Hl. split; [apply A|].
    intros H. apply (mrun_succeeded _ _ _ _ _ _ _ Q) in H.
    assert (RW : forall b c, may_read tasks b c -> ~ may_write b c) by (intros x e [_ [X _]]; exact X).
    pose proof (minv_run V code m0 up (pipe_block tasks) (may_read tasks) may_write RW KEEP (cells_ordered h s PR) (cells_apart h s PR) h (taken h s m r PR Q) h m r Q [] eq_refl) as I.
    eapply (out_in _ _ _ (taken h s m r PR Q) [] h b eq_refl). apply (mi_ended _ _ _ _ _ _ _ _ I). exact H.
  Qed.
End C99.
Print Assumptions C99_serial.
Print Assumptions C99_any_order.
Print Assumptions C99_determined.
Print Assumptions C99_complete.
