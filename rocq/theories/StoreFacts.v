(* Interleaved bodies against bodies one by one, for any rule who may read and write what. *)
From Coq Require Import Lia Permutation.
From Verif Require Export Store.
Open Scope Z_scope.

Section Traces.
  Variable V : Type.
  Local Notation prog := (prog V).
  Local Notation store := (store V).
  (* the writes of a body that reads from m *)
  Fixpoint trace (m : store) (p : prog) : list (cell * V) :=
    match p with Done => [] | Get c k => trace m (k (m c)) | Put c v k => (c, v) :: trace m k end.
  Definition wr (ws : list (cell * V)) (m : store) : store := fold_left (fun m cv => put m (fst cv) (snd cv)) ws m.
  Lemma wr_out ws : forall m c, ~ In c (map fst ws) -> wr ws m c = m c.
  Proof.
    induction ws as [|[a v] ws IH]; intros m c N; [reflexivity|]. unfold wr in *. cbn [fold_left fst snd]. rewrite IH; [|intros H; apply N; right; exact H].
    unfold put. destruct (cell_dec c a) as [->|]; [|reflexivity]. destruct N. left. reflexivity.
  Qed.
  Lemma wr_in ws : forall m m' c, In c (map fst ws) -> wr ws m c = wr ws m' c.
  Proof.
    induction ws as [|[a v] ws IH]; intros m m' c H; [destruct H|]. unfold wr in *. cbn [fold_left fst snd].
    destruct (in_dec cell_dec c (map fst ws)) as [I|I]; [apply IH; exact I|]. destruct H as [H|H]; [|contradiction]. cbn in H. subst a.
    pose proof (wr_out ws (put m c v) c I) as E1. pose proof (wr_out ws (put m' c v) c I) as E2. unfold wr in E1, E2. rewrite E1, E2. unfold put. destruct (cell_dec c c); congruence.
  Qed.
  Lemma wr_ext ws m m' c : m c = m' c -> wr ws m c = wr ws m' c.
  Proof. intros E. destruct (in_dec cell_dec c (map fst ws)) as [I|I]; [apply wr_in; exact I|]. rewrite !wr_out by exact I. exact E. Qed.
  Lemma wr_app ws c v m : wr (ws ++ [(c, v)]) m = put (wr ws m) c v.
  Proof. unfold wr. rewrite fold_left_app. reflexivity. Qed.
  Variables R W : cell -> Prop.
  Lemma trace_ext p : forall m m', keeps R W p -> (forall c, R c -> m c = m' c) -> trace m p = trace m' p.
  Proof.
    induction p as [|c k IH|c v k IH]; intros m m' K E; cbn [trace]; [reflexivity| |].
    - destruct K as [K1 K2]. rewrite (E c K1). apply IH; auto.
    - destruct K as [_ K]. f_equal. apply IH; auto.
  Qed.
  Lemma trace_writes p : forall m c, keeps R W p -> In c (map fst (trace m p)) -> W c.
  Proof.
    induction p as [|c k IH|c v k IH]; intros m a K I; cbn [trace] in I; [destruct I| |].
    - destruct K as [_ K]. eapply IH; eauto.
    - destruct K as [K1 K2]. destruct I as [<-|I]; [exact K1|eapply IH; eauto].
  Qed.
  Hypothesis RW : forall c, R c -> ~ W c.
  Lemma exec_trace p : forall m, keeps R W p -> forall c, exec p m c = wr (trace m p) m c.
  Proof.
    induction p as [|c k IH|c v k IH]; intros m K a; cbn [trace exec]; [reflexivity| |].
    - destruct K as [_ K]. apply IH. apply K.
    - destruct K as [K1 K2]. rewrite IH by exact K2. rewrite (trace_ext k (put m c v) m K2); [reflexivity|].
      intros e He. unfold put. destruct (cell_dec e c) as [->|]; [|reflexivity]. destruct (RW _ He K1).
  Qed.
  Lemma exec_out p (m : store) c : keeps R W p -> ~ W c -> exec p m c = m c.
  Proof. intros K N. rewrite exec_trace by exact K. apply wr_out. intros H. apply N. eapply trace_writes; eauto. Qed.
  Lemma exec_ext p (m m' : store) c : keeps R W p -> (forall c, R c -> m c = m' c) -> m c = m' c -> exec p m c = exec p m' c.
  Proof. intros K E Ec. rewrite !exec_trace by exact K. rewrite (trace_ext p m m' K E). apply wr_ext. exact Ec. Qed.
End Traces.

Section Abs.
  Variable V : Type.
  Variable code : block -> prog V.
  Variable m0 : store V.
  Variable up : block -> list block.
  Variable P : block -> Prop.
  Variables R W : block -> cell -> Prop.
  Hypothesis RW : forall b c, R b c -> ~ W b c.
  Hypothesis KEEP : forall b, P b -> keeps (R b) (W b) (code b).
  Hypothesis ORD : forall a b c, P a -> P b -> a <> b -> R b c -> W a c -> ancestor up a b \/ ancestor up b a.
  Hypothesis APART : forall a b c, P a -> P b -> a <> b -> W a c -> W b c -> False.
  Local Notation exec_b := (fun m b => exec (code b) m).
  Local Notation seq := (one_by_one code).

  (* ---- one by one, in any order ---- *)
  Lemma seq_ext l : (forall b, In b l -> P b) -> forall m m', (forall c, m c = m' c) -> forall c, seq l m c = seq l m' c.
  Proof.
    unfold one_by_one. induction l as [|b l IH]; intros Pl m m' E c; cbn [fold_left]; [apply E|]. apply IH; [intros a Ha; apply Pl; right; exact Ha|].
    intros e. assert (Pb : P b) by (apply Pl; left; reflexivity). eapply exec_ext; [apply RW|apply KEEP; exact Pb|intros; apply E|apply E].
  Qed.
  Lemma exec_comm a b m c : P a -> P b -> a <> b -> ~ ancestor up a b -> ~ ancestor up b a -> exec (code a) (exec (code b) m) c = exec (code b) (exec (code a) m) c.
  Proof.
    intros Pa Pb N N1 N2.
    assert (Ea : trace V (exec (code b) m) (code a) = trace V m (code a)).
    { apply (trace_ext V (R a) (W a)); auto. intros e He. apply (exec_out V (R b) (W b)); auto. intros Hw. destruct (ORD b a e Pb Pa (not_eq_sym N) He Hw); auto. }
    assert (Eb : trace V (exec (code a) m) (code b) = trace V m (code b)).
    { apply (trace_ext V (R b) (W b)); auto. intros e He. apply (exec_out V (R a) (W a)); auto. intros Hw. destruct (ORD a b e Pa Pb N He Hw); auto. }
    pose proof (exec_trace V (R a) (W a) (RW a) (code a)) as Xa. pose proof (exec_trace V (R b) (W b) (RW b) (code b)) as Xb.
    rewrite Xa, Xb by auto. rewrite Ea, Eb.
    destruct (in_dec cell_dec c (map fst (trace V m (code a)))) as [Ia|Ia]; destruct (in_dec cell_dec c (map fst (trace V m (code b)))) as [Ib|Ib].
    - destruct (APART a b c Pa Pb N); eapply trace_writes; eauto.
    - rewrite (wr_out V (trace V m (code b)) _ _ Ib). rewrite Xa by auto. apply wr_in. exact Ia.
    - rewrite (wr_out V (trace V m (code a)) _ _ Ia). rewrite Xb by auto. apply wr_in. exact Ib.
    - rewrite !wr_out by auto. rewrite Xa, Xb by auto. rewrite !wr_out by auto. reflexivity.
  Qed.
  Lemma order_anc l : in_order up l -> forall a b, ancestor up a b -> forall l1 l2, l = l1 ++ b :: l2 -> In a l1.
  Proof.
    intros O a b A. induction A as [b H|b c A IH H]; intros l1 l2 E; [eapply O; eauto|]. pose proof (O _ _ _ E _ H) as Hb. apply in_split in Hb. destruct Hb as [k1 [k2 ->]].
    rewrite <- app_assoc in E. cbn in E. apply in_or_app. left. eapply IH; eauto.
  Qed.
  (* weaker than in_order: of ancestors in the list *)
  Definition sorted (l : list block) : Prop := forall l1 b l2 a, l = l1 ++ b :: l2 -> In a l2 -> ~ ancestor up a b.
  Lemma order_sorted l : NoDup l -> in_order up l -> sorted l.
  Proof.
    intros N O l1 b l2 a E I A. pose proof (order_anc _ O _ _ A _ _ E) as H. subst l. apply in_split in I. destruct I as [x [y ->]].
    apply in_split in H. destruct H as [u [v ->]]. rewrite <- app_assoc in N. cbn in N. apply NoDup_remove_2 in N. apply N. apply in_or_app. right. apply in_or_app. right. right. apply in_or_app. right. left. reflexivity.
  Qed.
  Lemma seq_front a u : forall v m, P a -> (forall b, In b (u ++ v) -> P b) -> ~ In a u -> (forall b, In b u -> ~ ancestor up a b /\ ~ ancestor up b a) ->
    forall c, seq (u ++ a :: v) m c = seq (a :: u ++ v) m c.
  Proof.
    induction u as [|b u IH]; intros v m Pa Pl N I c; [reflexivity|]. change ((b :: u) ++ a :: v) with (b :: (u ++ a :: v)).
    assert (Pb : P b) by (apply Pl; left; reflexivity). assert (Pl' : forall x, In x (u ++ v) -> P x) by (intros x Hx; apply Pl; right; exact Hx).
    transitivity (seq (u ++ a :: v) (exec (code b) m) c); [reflexivity|]. rewrite IH; auto; [|intros H; apply N; right; exact H|intros x Hx; apply I; right; exact Hx].
    transitivity (seq (u ++ v) (exec (code a) (exec (code b) m)) c); [reflexivity|]. transitivity (seq (u ++ v) (exec (code b) (exec (code a) m)) c); [|reflexivity].
    apply seq_ext; auto. intros e. destruct (I b (or_introl eq_refl)). apply exec_comm; auto. intros ->. apply N. left. reflexivity.
  Qed.
  Lemma seq_perm l' : forall l m, Permutation l l' -> NoDup l -> (forall b, In b l -> P b) -> sorted l -> sorted l' -> forall c, seq l m c = seq l' m c.
  Proof.
    induction l' as [|a l' IH]; intros l m Pm N Pl S S' c.
    - apply Permutation_sym, Permutation_nil in Pm. subst. reflexivity.
    - assert (Ha : In a l) by (eapply Permutation_in; [apply Permutation_sym; exact Pm|left; reflexivity]). apply in_split in Ha. destruct Ha as [u [v ->]].
      pose proof (Permutation_cons_app_inv u v (Permutation_sym Pm)) as Pm'. pose proof (NoDup_remove_1 _ _ _ N) as N1. pose proof (NoDup_remove_2 _ _ _ N) as N2.
      assert (Pl' : forall b, In b (u ++ v) -> P b) by (intros b Hb; apply Pl; apply in_app_iff in Hb; apply in_or_app; destruct Hb; [left|right; right]; auto).
      rewrite seq_front; auto.
      + transitivity (seq (u ++ v) (exec (code a) m) c); [reflexivity|]. transitivity (seq l' (exec (code a) m) c); [|reflexivity].
        apply IH; auto using Permutation_sym.
        * intros l1 b l2 e E I. destruct (in_dec block_dec b u) as [Hu|Hu].
          -- apply in_split in Hu. destruct Hu as [u1 [u2 ->]]. rewrite <- app_assoc in E. cbn in E.
             assert (X : u1 = l1 /\ u2 ++ v = l2).
             { rewrite <- app_assoc in N1. cbn in N1. clear -E N1. revert l1 E N1. induction u1 as [|x u1 IH]; intros [|y l1] E N1; cbn in E; [injection E as E2; auto|injection E as E1 E2 ..].
               - subst y. cbn in N1. inversion N1; subst. destruct H1. rewrite E2. apply in_or_app. right. left. reflexivity.
               - subst x. cbn in N1. inversion N1; subst. destruct H1. apply in_or_app. right. left. reflexivity.
               - subst y. inversion N1; subst. destruct (IH _ E2 H2) as [-> ->]. auto. }
             destruct X as [<- <-]. apply (S u1 b (u2 ++ a :: v)); [rewrite <- app_assoc; reflexivity|]. apply in_app_iff in I. apply in_or_app. destruct I; [left|right; right]; auto.
          -- assert (X : exists k, l1 = u ++ k /\ v = k ++ b :: l2).
             { clear -E Hu. revert l1 E. induction u as [|x u IH]; intros l1 E; cbn in E; [exists l1; auto|]. destruct l1 as [|y l1]; cbn in E; injection E as E1 E2.
               - subst. destruct Hu. left. reflexivity.
               - subst y. destruct (IH (fun H => Hu (or_intror H)) _ E2) as [k [-> ->]]. exists k. auto. }
             destruct X as [k [-> ->]]. apply (S (u ++ a :: k) b l2); [rewrite <- app_assoc; reflexivity|exact I].
        * intros l1 b l2 e E I. apply (S' (a :: l1) b l2); [cbn; rewrite E; reflexivity|exact I].
      + apply Pl. apply in_or_app. right. left. reflexivity.
      + intros H. apply N2. apply in_or_app. left. exact H.
      + intros b Hb. split.
        * apply in_split in Hb. destruct Hb as [u1 [u2 ->]]. apply (S u1 b (u2 ++ a :: v)); [rewrite <- app_assoc; reflexivity|]. apply in_or_app. right. left. reflexivity.
        * apply (S' [] a l'); [reflexivity|]. apply (Permutation_in b) in Pm'; [exact Pm'|apply Permutation_refl |apply in_or_app; left; exact Hb] || (eapply Permutation_in; [apply Permutation_sym; exact Pm'|apply in_or_app; left; exact Hb]).
  Qed.

  (* ---- interleaved ---- *)
  Definition ended (h : history) (b : block) : Prop := In (EvSkip b) h \/ In (EvRel (PB b SUCCESS)) h.
  Definition out (h : history) (b : block) : Prop := handed_out h b \/ In (EvSkip b) h.
  Variable h : history.
  Hypothesis TAKE : forall h2 e b h1, h = h2 ++ e :: h1 -> takes e b -> P b /\ (forall a, In a (up b) -> ended h1 a) /\ ~ ended h1 b /\ n_handed h1 b = n_released h1 b.

  Lemma finished_cons e h1 : finished (e :: h1) = finished h1 ++ match e with EvSkip b | EvRel (PB b SUCCESS) => [b] | _ => [] end.
  Proof. unfold finished. cbn [rev]. rewrite flat_map_app. cbn [flat_map]. rewrite app_nil_r. reflexivity. Qed.
  Lemma finished_in h1 b : In b (finished h1) <-> ended h1 b.
  Proof.
    unfold finished, ended. rewrite in_flat_map. split.
    - intros [e [H I]]. apply in_rev in H. destruct e as [| | |[a []]]; cbn in I; try destruct I as [<-|[]]; try destruct I; auto.
    - intros [H|H]; [exists (EvSkip b)|exists (EvRel (PB b SUCCESS))]; (split; [apply -> in_rev; exact H|left; reflexivity]).
  Qed.
  Definition sigma (h1 : history) : store V := seq (finished h1) m0.
  Record minv (h1 : history) (m : store V) (r : block -> option (prog V)) : Prop := {
    mi_ended : forall b, ended h1 b -> out h1 b;
    mi_run : forall b p, r b = Some p -> handed_out h1 b /\ ~ ended h1 b;
    mi_held : forall b p, r b = Some p -> n_released h1 b < n_handed h1 b;
    mi_nodup : NoDup (finished h1);
    mi_body : forall b p, r b = Some p -> keeps (R b) (W b) p /\ exists ws, trace V (sigma h1) (code b) = ws ++ trace V (sigma h1) p /\
      forall c, In c (map fst ws) -> m c = wr V ws (sigma h1) c;
    mi_cell : forall c, m c = sigma h1 c \/ exists b, handed_out h1 b /\ ~ ended h1 b /\ In c (map fst (trace V (sigma h1) (code b)))
  }.
  Lemma ended_more h2 e h1 b : ended h1 b -> ended (h2 ++ e :: h1) b.
  Proof. intros [H|H]; [left|right]; apply in_or_app; right; right; exact H. Qed.
  Lemma out_in h2 h1 b : h = h2 ++ h1 -> out h1 b -> P b /\ (forall a, In a (up b) -> ended h1 a).
  Proof.
    intros E H. assert (G : exists x e y, h1 = x ++ e :: y /\ takes e b).
    { destruct H as [[t [s H]]|H]; apply in_split in H; destruct H as [x [y ->]]; exists x; eexists; exists y; (split; [reflexivity|]); reflexivity. }
    destruct G as [x [e [y [-> T]]]]. rewrite app_assoc in E. destruct (TAKE _ _ _ _ E T) as [H1 [H2 _]]. split; [exact H1|].
    intros a Ha. apply ended_more. apply H2. exact Ha.
  Qed.
  Lemma out_anc h2 h1 : h = h2 ++ h1 -> (forall b, ended h1 b -> out h1 b) -> forall a b, ancestor up a b -> out h1 b -> ended h1 a.
  Proof. intros E D a b A. induction A as [b H|b c A IH H]; intros Hb; [eapply out_in; eauto|]. apply IH, D. eapply out_in; eauto. Qed.
  Lemma counts_cons e h1 b : n_released (e :: h1) b < n_handed (e :: h1) b <->
    match e with EvRel pb => (if is_block (pb_block pb) b then 1 else 0) | _ => 0 end + n_released h1 b < match e with EvHand _ pb => (if is_block (pb_block pb) b then 1 else 0) | _ => 0 end + n_handed h1 b.
  Proof. unfold n_released, n_handed. cbn [count]. destruct e; reflexivity. Qed.
  Lemma anc_cases a b : ancestor up a b -> In a (up b) \/ exists x, ancestor up a x /\ In x (up b).
  Proof. intros [c H|c e A H]; eauto. Qed.
  Lemma body_at (r : block -> option (prog V)) b p a : body r b p a = if block_dec a b then p else r a.
  Proof. reflexivity. Qed.

  Lemma minv_run h1 m r : mrun code m0 h1 m r -> forall h2, h = h2 ++ h1 -> minv h1 m r.
  Proof.
    induction 1 as [|h1 m r t pb Q IH|h1 m r b Q IH Hs|h1 m r t Q IH|h1 m r b Q IH Hb|h1 m r b Q IH|h1 m r b c k Q IH Hb|h1 m r b c v k Q IH Hb]; intros h2 E.
    - constructor; try discriminate; [intros b [[]|[]]|constructor|intros c; left; reflexivity].
    - assert (E' : h = (h2 ++ [EvHand t pb]) ++ h1) by (rewrite <- app_assoc; exact E). destruct (IH _ E') as [I1 I2 I6 I3 I4 I5]. destruct (TAKE _ _ (pb_block pb) _ E eq_refl) as [T1 [T2 [T3 T4]]].
      assert (Fi : finished (EvHand t pb :: h1) = finished h1) by (rewrite finished_cons, app_nil_r; reflexivity).
      assert (Si : sigma (EvHand t pb :: h1) = sigma h1) by (unfold sigma; rewrite Fi; reflexivity).
      assert (En : forall b, ended (EvHand t pb :: h1) b <-> ended h1 b) by (intros b; rewrite <- !finished_in, Fi; tauto).
      assert (Ho : forall b, handed_out h1 b -> handed_out (EvHand t pb :: h1) b) by (intros b [x [s H]]; exists x, s; right; exact H).
      constructor; rewrite ?Fi, ?Si; auto.
      + intros b H. destruct (I1 b (proj1 (En b) H)) as [X|X]; [left; apply Ho; exact X|right; right; exact X].
      + intros b p H. rewrite body_at in H. rewrite En. destruct (block_dec b (pb_block pb)) as [->|]; [|destruct (I2 _ _ H); auto]. split; [|exact T3]. destruct pb as [b s]. exists t, s. left. reflexivity.
      + intros b p H. rewrite body_at in H. rewrite counts_cons. unfold is_block. destruct (block_dec b (pb_block pb)) as [->|N]; [destruct (block_dec (pb_block pb) (pb_block pb)); [lia|congruence]|]. destruct (block_dec (pb_block pb) b); [congruence|]. specialize (I6 _ _ H). lia.
      + intros b p H. rewrite body_at in H. destruct (block_dec b (pb_block pb)) as [->|]; [|apply I4; exact H]. injection H as <-. split; [apply KEEP; exact T1|]. exists []. split; [reflexivity|intros c []].
      + intros c. destruct (I5 c) as [H|[b [H1 [H2 H3]]]]; [left; exact H|]. right. exists b. rewrite En. auto.
    - assert (E' : h = (h2 ++ [EvSkip b]) ++ h1) by (rewrite <- app_assoc; exact E). destruct (IH _ E') as [I1 I2 I6 I3 I4 I5]. destruct (TAKE _ _ b _ E eq_refl) as [Pb [T2 [B2 B3]]]. assert (Hr : r b = None) by (destruct (r b) as [p|] eqn:Er; [pose proof (I6 _ _ Er); lia|reflexivity]).
      set (h1' := EvSkip b :: h1). assert (Fi : finished h1' = finished h1 ++ [b]) by (apply finished_cons).
      assert (Si : sigma h1' = exec (code b) (sigma h1)) by (unfold sigma; rewrite Fi; unfold one_by_one; rewrite fold_left_app; reflexivity).
      assert (En : forall a, ended h1' a <-> ended h1 a \/ a = b) by (intros a; rewrite <- !finished_in, Fi, in_app_iff; cbn; intuition).
      assert (Ho : forall a, handed_out h1 a <-> handed_out h1' a).
      { intros a. split; intros [x [s H]]; exists x, s; [right; exact H|]. destruct H as [H|H]; [discriminate H|exact H]. }
      assert (Ab : forall a, ancestor up a b -> ended h1 a).
      { intros a A. destruct (anc_cases a b A) as [H|[x [A' H]]]; [apply T2; exact H|]. apply (out_anc _ _ E' I1 _ _ A'), I1, T2. exact H. }
      assert (Ba : forall a, handed_out h1 a -> ~ ancestor up b a) by (intros a A1 A; apply B2; eapply (out_anc _ _ E' I1); eauto; left; exact A1).
      assert (St : forall a, handed_out h1 a -> ~ ended h1 a -> a <> b -> forall c, R a c -> sigma h1 c = exec (code b) (sigma h1) c).
      { intros a A1 A2 N c Hc. symmetry. apply (exec_out V (R b) (W b)); auto. intros Hw. destruct (out_in _ _ _ E' (or_introl A1)) as [Pa _].
        destruct (ORD b a c Pb Pa (not_eq_sym N) Hc Hw) as [A|A]; [apply (Ba a A1 A)|apply A2, Ab, A]. }
      (* what it would read is there *)
      assert (Rd : forall c, R b c -> m c = sigma h1 c).
      { intros c Rc. destruct (I5 c) as [H|[a [H1 [H2 H3]]]]; [exact H|]. exfalso. destruct (out_in _ _ _ E' (or_introl H1)) as [Pa _]. assert (Wc : W a c) by (eapply trace_writes; eauto).
        destruct (block_dec a b) as [->|N]; [destruct (RW _ _ Rc Wc)|]. destruct (ORD a b c Pa Pb N Rc Wc) as [A|A]; [apply H2, Ab, A|apply (Ba a H1 A)]. }
      constructor.
      + intros a H. apply En in H. destruct H as [H| ->]; [|right; left; reflexivity]. destruct (I1 _ H) as [X|X]; [left; apply Ho; exact X|right; right; exact X].
      + intros a p H. destruct (I2 _ _ H) as [H1 H2]. split; [apply Ho; exact H1|]. rewrite En. intros [X| ->]; [exact (H2 X)|congruence].
      + intros a p H. unfold h1'. rewrite counts_cons. specialize (I6 _ _ H). lia.
      + rewrite Fi. apply (Permutation_NoDup (Permutation_cons_append _ _)). constructor; [rewrite finished_in; exact B2|exact I3].
      + intros a p H. assert (N : a <> b) by (intros ->; congruence). destruct (I2 _ _ H) as [H1 H2]. destruct (I4 _ _ H) as [Kp [wa [Ta Ma]]]. destruct (out_in _ _ _ E' (or_introl H1)) as [Pa _].
        split; [exact Kp|]. exists wa. rewrite Si. rewrite <- (trace_ext V (R a) (W a) (code a) _ _ (KEEP a Pa) (St a H1 H2 N)), <- (trace_ext V (R a) (W a) p _ _ Kp (St a H1 H2 N)). split; [exact Ta|].
        intros c Hc. rewrite (Ma c Hc). apply wr_in. exact Hc.
      + intros c. rewrite Si. destruct (I5 c) as [H|[a [H1 [H2 H3]]]].
        * left. rewrite <- (Hs c). apply (exec_ext V (R b) (W b)); auto.
        * destruct (block_dec a b) as [->|N].
          -- left. rewrite <- (Hs c). rewrite !(exec_trace V (R b) (W b) (RW b)) by auto. rewrite (trace_ext V (R b) (W b) (code b) m (sigma h1) (KEEP b Pb) Rd). apply wr_in. exact H3.
          -- right. exists a. destruct (out_in _ _ _ E' (or_introl H1)) as [Pa _].
             split; [apply Ho; exact H1|]. split; [rewrite En; tauto|]. rewrite <- (trace_ext V (R a) (W a) (code a) _ _ (KEEP a Pa) (St a H1 H2 N)). exact H3.
    - assert (E' : h = (h2 ++ [EvNone t]) ++ h1) by (rewrite <- app_assoc; exact E). destruct (IH _ E') as [I1 I2 I6 I3 I4 I5].
      assert (Fi : finished (EvNone t :: h1) = finished h1) by (rewrite finished_cons, app_nil_r; reflexivity).
      assert (Si : sigma (EvNone t :: h1) = sigma h1) by (unfold sigma; rewrite Fi; reflexivity).
      assert (En : forall b, ended (EvNone t :: h1) b <-> ended h1 b) by (intros b; rewrite <- !finished_in, Fi; tauto).
      assert (Ho : forall b, handed_out h1 b -> handed_out (EvNone t :: h1) b) by (intros b [x [s H]]; exists x, s; right; exact H).
      constructor; rewrite ?Fi, ?Si; auto.
      + intros b H. destruct (I1 b (proj1 (En b) H)) as [X|X]; [left; apply Ho; exact X|right; right; exact X].
      + intros b p H. rewrite En. destruct (I2 _ _ H); auto.
      + intros c. destruct (I5 c) as [H|[b [H1 [H2 H3]]]]; [left; exact H|]. right. exists b. rewrite En. auto.
    - assert (E' : h = (h2 ++ [EvRel (PB b SUCCESS)]) ++ h1) by (rewrite <- app_assoc; exact E). destruct (IH _ E') as [I1 I2 I6 I3 I4 I5]. destruct (I2 _ _ Hb) as [B1 B2]. destruct (out_in _ _ _ E' (or_introl B1)) as [Pb _].
      set (h1' := EvRel (PB b SUCCESS) :: h1). assert (Fi : finished h1' = finished h1 ++ [b]) by (apply finished_cons).
      assert (Si : sigma h1' = exec (code b) (sigma h1)) by (unfold sigma; rewrite Fi; unfold one_by_one; rewrite fold_left_app; reflexivity).
      assert (En : forall a, ended h1' a <-> ended h1 a \/ a = b) by (intros a; rewrite <- !finished_in, Fi, in_app_iff; cbn; intuition).
      assert (Ho : forall a, handed_out h1 a <-> handed_out h1' a).
      { intros a. split; intros [x [s H]]; exists x, s; [right; exact H|]. destruct H as [H|H]; [discriminate H|exact H]. }
      (* what others read is not touched *)
      assert (St : forall a, handed_out h1 a -> ~ ended h1 a -> a <> b -> forall c, R a c -> sigma h1 c = exec (code b) (sigma h1) c).
      { intros a A1 A2 N c Hc. symmetry. apply (exec_out V (R b) (W b)); auto. intros Hw. destruct (out_in _ _ _ E' (or_introl A1)) as [Pa _].
        destruct (ORD b a c Pb Pa (not_eq_sym N) Hc Hw) as [A|A]; [apply B2|apply A2]; eapply (out_anc _ _ E' I1); eauto; left; auto. }
      destruct (I4 _ _ Hb) as [_ [ws [Tw Mw]]]. cbn [trace] in Tw. rewrite app_nil_r in Tw.
      pose proof (exec_trace V (R b) (W b) (RW b) (code b) (sigma h1) (KEEP b Pb)) as Ex. rewrite Tw in Ex.
      constructor.
      + intros a H. apply En in H. destruct H as [H| ->]; [|left; apply Ho; exact B1]. destruct (I1 _ H) as [X|X]; [left; apply Ho; exact X|right; right; exact X].
      + intros a p H. rewrite body_at in H. destruct (block_dec a b) as [->|N]; [discriminate H|]. destruct (I2 _ _ H) as [H1 H2]. split; [apply Ho; exact H1|]. rewrite En. tauto.
      + intros a p H. rewrite body_at in H. unfold h1'. rewrite counts_cons. cbn [pb_block]. unfold is_block. destruct (block_dec a b) as [->|N]; [discriminate H|]. destruct (block_dec b a); [congruence|]. specialize (I6 _ _ H). lia.
      + rewrite Fi. apply (Permutation_NoDup (Permutation_cons_append _ _)). constructor; [rewrite finished_in; exact B2|exact I3].
      + intros a p H. rewrite body_at in H. destruct (block_dec a b) as [->|N]; [discriminate H|]. destruct (I2 _ _ H) as [H1 H2]. destruct (I4 _ _ H) as [Kp [wa [Ta Ma]]]. destruct (out_in _ _ _ E' (or_introl H1)) as [Pa _].
        split; [exact Kp|]. exists wa. rewrite Si. rewrite <- (trace_ext V (R a) (W a) (code a) _ _ (KEEP a Pa) (St a H1 H2 N)), <- (trace_ext V (R a) (W a) p _ _ Kp (St a H1 H2 N)). split; [exact Ta|].
        intros c Hc. rewrite (Ma c Hc). apply wr_in. exact Hc.
      + intros c. rewrite Si. destruct (I5 c) as [H|[a [H1 [H2 H3]]]].
        * left. rewrite Ex. destruct (in_dec cell_dec c (map fst ws)) as [I|I]; [apply Mw; exact I|]. rewrite wr_out by exact I. exact H.
        * destruct (block_dec a b) as [->|N]; [left; rewrite Ex; apply Mw; rewrite <- Tw; exact H3|]. right. exists a. destruct (out_in _ _ _ E' (or_introl H1)) as [Pa _].
          split; [apply Ho; exact H1|]. split; [rewrite En; tauto|]. rewrite <- (trace_ext V (R a) (W a) (code a) _ _ (KEEP a Pa) (St a H1 H2 N)). exact H3.
    - assert (E' : h = (h2 ++ [EvRel (PB b FAILED)]) ++ h1) by (rewrite <- app_assoc; exact E). destruct (IH _ E') as [I1 I2 I6 I3 I4 I5]. set (h1' := EvRel (PB b FAILED) :: h1).
      assert (Fi : finished h1' = finished h1) by (unfold h1'; rewrite finished_cons, app_nil_r; reflexivity).
      assert (Si : sigma h1' = sigma h1) by (unfold sigma; rewrite Fi; reflexivity).
      assert (En : forall b, ended h1' b <-> ended h1 b) by (intros a; rewrite <- !finished_in, Fi; tauto).
      assert (Ho : forall b, handed_out h1 b -> handed_out h1' b) by (intros a [x [s H]]; exists x, s; right; exact H).
      constructor; rewrite ?Fi, ?Si; auto.
      + intros a H. destruct (I1 a (proj1 (En a) H)) as [X|X]; [left; apply Ho; exact X|right; right; exact X].
      + intros a p H. rewrite body_at in H. rewrite En. destruct (block_dec a b) as [->|]; [discriminate H|]. destruct (I2 _ _ H); auto.
      + intros a p H. rewrite body_at in H. unfold h1'. rewrite counts_cons. cbn [pb_block]. unfold is_block. destruct (block_dec a b) as [->|N]; [discriminate H|]. destruct (block_dec b a); [congruence|]. specialize (I6 _ _ H). lia.
      + intros a p H. rewrite body_at in H. destruct (block_dec a b) as [->|]; [discriminate H|]. apply I4. exact H.
      + intros c. destruct (I5 c) as [H|[a [H1 [H2 H3]]]]; [left; exact H|]. right. exists a. rewrite En. auto.
    - pose proof (IH _ E) as I0. destruct I0 as [I1 I2 I6 I3 I4 I5]. destruct (I2 _ _ Hb) as [B1 B2]. destruct (out_in _ _ _ E (or_introl B1)) as [Pb _]. destruct (I4 _ _ Hb) as [Kp [ws [Tw Mw]]]. destruct Kp as [Rc Kk].
      assert (Mc : m c = sigma h1 c).
      { destruct (I5 c) as [H|[a [H1 [H2 H3]]]]; [exact H|]. exfalso. destruct (out_in _ _ _ E (or_introl H1)) as [Pa _]. assert (Wc : W a c) by (eapply trace_writes; eauto).
        destruct (block_dec a b) as [->|N]; [destruct (RW _ _ Rc Wc)|]. destruct (ORD a b c Pa Pb N Rc Wc) as [A|A]; [apply H2|apply B2]; eapply (out_anc _ _ E I1); eauto; left; auto. }
      constructor; auto.
      + intros a p H. rewrite body_at in H. destruct (block_dec a b) as [->|]; [auto|]. apply (I2 _ _ H).
      + intros a p H. rewrite body_at in H. destruct (block_dec a b) as [->|]; [apply (I6 _ _ Hb)|]. apply (I6 _ _ H).
      + intros a p H. rewrite body_at in H. destruct (block_dec a b) as [->|]; [|apply I4; exact H]. injection H as <-. split; [apply Kk|]. exists ws. cbn [trace] in Tw. rewrite Mc. auto.
    - pose proof (IH _ E) as I0. destruct I0 as [I1 I2 I6 I3 I4 I5]. destruct (I2 _ _ Hb) as [B1 B2]. destruct (out_in _ _ _ E (or_introl B1)) as [Pb _]. destruct (I4 _ _ Hb) as [Kp [ws [Tw Mw]]]. destruct Kp as [Wc Kk]. cbn [trace] in Tw.
      constructor; auto.
      + intros a p H. rewrite body_at in H. destruct (block_dec a b) as [->|]; [auto|]. apply (I2 _ _ H).
      + intros a p H. rewrite body_at in H. destruct (block_dec a b) as [->|]; [apply (I6 _ _ Hb)|]. apply (I6 _ _ H).
      + intros a p H. rewrite body_at in H. destruct (block_dec a b) as [->|N].
        * injection H as <-. split; [exact Kk|]. exists (ws ++ [(c, v)]). split; [rewrite <- app_assoc; exact Tw|]. intros e He. rewrite wr_app. unfold put. destruct (cell_dec e c) as [->|Ne]; [reflexivity|].
          apply Mw. rewrite map_app in He. apply in_app_iff in He. destruct He as [He|[He|[]]]; [exact He|]. cbn in He. congruence.
        * destruct (I4 _ _ H) as [Kp [wa [Ta Ma]]]. destruct (I2 _ _ H) as [A1 _]. destruct (out_in _ _ _ E (or_introl A1)) as [Pa _]. split; [exact Kp|]. exists wa. split; [exact Ta|]. intros e He. unfold put.
          destruct (cell_dec e c) as [->|]; [|apply Ma; exact He]. exfalso. apply (APART a b c Pa Pb N); auto. apply (trace_writes V (R a) (W a) (code a) (sigma h1)); auto. rewrite Ta, map_app. apply in_or_app. left. exact He.
      + intros e. unfold put. destruct (cell_dec e c) as [->|]; [|apply I5]. right. exists b. split; [exact B1|]. split; [exact B2|]. rewrite Tw, map_app. apply in_or_app. right. left. reflexivity.
  Qed.
  Lemma finished_order m r : mrun code m0 h m r -> in_order up (finished h).
  Proof.
    intros Q. assert (G : forall h1 m r, mrun code m0 h1 m r -> forall h2, h = h2 ++ h1 -> in_order up (finished h1)).
    { clear m r Q. intros h1 m r Q0. induction Q0 as [|h1 m r t pb Q IH|h1 m r b Q IH Hs|h1 m r t Q IH|h1 m r b Q IH Hb|h1 m r b Q IH|h1 m r b c k Q IH Hb|h1 m r b c v k Q IH Hb]; intros h2 E; try (apply (IH _ E); fail).
      - intros [|] ? l2 X; discriminate X.
      - rewrite finished_cons, app_nil_r. apply (IH (h2 ++ [EvHand t pb])). rewrite <- app_assoc. exact E.
      - assert (E' : h = (h2 ++ [EvSkip b]) ++ h1) by (rewrite <- app_assoc; exact E). rewrite finished_cons. specialize (IH _ E').
        intros l1 x l2 X a Ha. destruct l2 as [|y l2] using rev_ind.
        + apply app_inj_tail in X. destruct X as [<- <-]. rewrite finished_in. eapply (TAKE _ _ b _ E eq_refl). exact Ha.
        + change (l1 ++ x :: l2 ++ [y]) with (l1 ++ (x :: l2) ++ [y]) in X. rewrite app_assoc in X. apply app_inj_tail in X. destruct X as [X _]. eapply IH; eauto.
      - rewrite finished_cons, app_nil_r. apply (IH (h2 ++ [EvNone t])). rewrite <- app_assoc. exact E.
      - assert (E' : h = (h2 ++ [EvRel (PB b SUCCESS)]) ++ h1) by (rewrite <- app_assoc; exact E). rewrite finished_cons. specialize (IH _ E').
        intros l1 x l2 X a Ha. destruct l2 as [|y l2] using rev_ind.
        + apply app_inj_tail in X. destruct X as [<- <-]. rewrite finished_in. pose proof (minv_run _ _ _ Q _ E') as I. destruct (mi_run _ _ _ I _ _ Hb) as [B1 _]. eapply out_in; eauto. left. exact B1.
        + change (l1 ++ x :: l2 ++ [y]) with (l1 ++ (x :: l2) ++ [y]) in X. rewrite app_assoc in X. apply app_inj_tail in X. destruct X as [X _]. eapply IH; eauto.
      - rewrite finished_cons, app_nil_r. apply (IH (h2 ++ [EvRel (PB b FAILED)])). rewrite <- app_assoc. exact E. }
    apply (G _ _ _ Q []). reflexivity.
  Qed.
End Abs.
