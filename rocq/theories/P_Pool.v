(* Worker pools (C44, C45) *)
From Coq Require Import Sorted.
From Verif Require Import Pool.
Open Scope Z_scope.

(* No process of an earlier run is left, and worker ids are handed out in increasing order. *)
Definition clean_start (s : sys) : Prop :=
  (forall i, (nxt s <= i)%nat -> tbl s i = None) /\ forall i t, tbl s i <> Some (t, Running).
(* the entry of a failure report that makes the pools restart a worker they do not have *)
Definition late (mbf : Z) (e : pevent) (x : pools) : Prop :=
  match e with
  | PFailure t wid => mbf < ps_fc x t wid + 1 /\ forall p, In (t, p) (ps_pools x) -> ~ In wid (map w_id p)
  | _ => False
  end.
(* The states of the pools, with the number of restarts of workers they did not have.
   TaskWorkerPools has one pool per task. *)
Inductive reached (nw : nat -> Z) (mbf : Z) (tasks : list nat) (s0 : sys) : Z -> pools -> Prop :=
| re_init : reached nw mbf tasks s0 0 (pools_init tasks s0)
| re_step k x e y ex : reached nw mbf tasks s0 k x -> pstep nw mbf e x = (y, ex) -> ~ late mbf e x ->
    reached nw mbf tasks s0 k y
| re_late k x e y ex : reached nw mbf tasks s0 k x -> pstep nw mbf e x = (y, ex) -> late mbf e x ->
    reached nw mbf tasks s0 (k + 1) y.

(* at most n processes of task t are running *)
Definition running_at_most (s : sys) (t : nat) (n : Z) : Prop :=
  forall l, NoDup l -> (forall i, In i l -> tbl s i = Some (t, Running)) -> Z.of_nat (length l) <= n.

(* ---- lemmas ---- *)
Record PI (s : sys) (t : nat) (p : pool) : Prop := {
  pi_sorted : StronglySorted lt (map w_id p);
  pi_lt : forall w, In w p -> (w_id w < nxt s)%nat;
  pi_run : forall i, tbl s i = Some (t, Running) -> In (Worker i true) p
}.
Definition wf_sys (s : sys) : Prop := forall i, (nxt s <= i)%nat -> tbl s i = None.
(* only processes of t change, and new ones may be started *)
Record frame (t : nat) (s s' : sys) : Prop := {
  fr_nxt : (nxt s <= nxt s')%nat;
  fr_tbl : forall i u, u <> t -> tbl s' i = Some (u, Running) -> tbl s i = Some (u, Running)
}.
Lemma frame_refl t s : frame t s s.
Proof. constructor; auto. Qed.
Lemma frame_trans t a b c : frame t a b -> frame t b c -> frame t a c.
Proof. intros [A1 A2] [B1 B2]. constructor; [lia|]. eauto. Qed.
Lemma frame_PI t u s s' p : u <> t -> frame t s s' -> PI s u p -> PI s' u p.
Proof.
  intros N F P. constructor; [apply P| |].
  - intros w Hw. pose proof (pi_lt _ _ _ P w Hw). pose proof (fr_nxt _ _ _ F). lia.
  - intros i Hi. apply (pi_run _ _ _ P). eapply fr_tbl; eauto.
Qed.

Lemma sorted_app (a b : list nat) : StronglySorted lt a -> StronglySorted lt b ->
  (forall x y, In x a -> In y b -> (x < y)%nat) -> StronglySorted lt (a ++ b).
Proof.
  induction a as [|x a IH]; intros A B C; cbn; auto. apply StronglySorted_inv in A. destruct A as [A1 A2].
  constructor; [apply IH; auto; intros; apply C; auto; right; auto|].
  apply Forall_app. split; auto. apply Forall_forall. intros y Hy. apply C; auto. left; auto.
Qed.
Lemma sorted_nodup (l : list nat) : StronglySorted lt l -> NoDup l.
Proof.
  induction 1 as [|x l S IH F]; constructor; auto. intros H. rewrite Forall_forall in F. apply F in H. lia.
Qed.
Lemma sorted_app_inv (a b : list nat) : StronglySorted lt (a ++ b) ->
  StronglySorted lt a /\ StronglySorted lt b /\ forall x y, In x a -> In y b -> (x < y)%nat.
Proof.
  induction a as [|x a IH]; cbn; intros S; [repeat split; auto; [constructor|intros ? ? []]|].
  apply StronglySorted_inv in S. destruct S as [S F]. destruct (IH S) as [A [B C]].
  rewrite Forall_forall in F. split; [constructor; auto; apply Forall_forall; intros; apply F, in_or_app; auto|].
  split; auto. intros u v [<-|Hu] Hv; auto. apply F, in_or_app. auto.
Qed.
Lemma sorted_filter (f : worker -> bool) p : StronglySorted lt (map w_id p) -> StronglySorted lt (map w_id (filter f p)).
Proof.
  induction p as [|w p IH]; cbn; intros S; auto. apply StronglySorted_inv in S. destruct S as [S F].
  destruct (f w); cbn; auto. constructor; auto. rewrite Forall_forall in *. intros x Hx. apply F.
  apply in_map_iff in Hx. destruct Hx as [v [<- Hv]]. apply filter_In in Hv. apply in_map, Hv.
Qed.

Lemma start_n_spec t n : forall s s' ws, start_n t n s = (s', ws) ->
  nxt s' = (nxt s + n)%nat /\ ws = map (fun i => Worker i true) (seq (nxt s) n) /\
  forall i, tbl s' i = if (nxt s <=? i)%nat && (i <? nxt s + n)%nat then Some (t, Running) else tbl s i.
Proof.
  induction n as [|n IH]; intros s s' ws; cbn [start_n].
  - intros E. injection E as <- <-. split; [lia|]. split; auto. intros i.
    destruct (nxt s <=? i)%nat eqn:A, (i <? nxt s + 0)%nat eqn:B; auto.
    apply Nat.leb_le in A. apply Nat.ltb_lt in B. lia.
  - cbn [new_worker]. destruct (start_n t n _) as [s2 ws2] eqn:E. intros X. injection X as <- <-.
    apply IH in E. cbn [nxt tbl set_proc] in E. destruct E as [E1 [E2 E3]]. split; [lia|].
    split; [rewrite E2; reflexivity|]. intros i. rewrite E3.
    destruct (Nat.eqb_spec (nxt s) i) as [<-|N].
    + replace (S (nxt s) <=? nxt s)%nat with false by (symmetry; apply Nat.leb_gt; lia). cbn [andb].
      replace (nxt s <=? nxt s)%nat with true by (symmetry; apply Nat.leb_le; lia).
      replace (nxt s <? nxt s + S n)%nat with true by (symmetry; apply Nat.ltb_lt; lia). reflexivity.
    + destruct (S (nxt s) <=? i)%nat eqn:A, (nxt s <=? i)%nat eqn:B, (i <? S (nxt s) + n)%nat eqn:C, (i <? nxt s + S n)%nat eqn:D;
        auto; exfalso; rewrite ?Nat.leb_le, ?Nat.leb_gt, ?Nat.ltb_lt, ?Nat.ltb_ge in *; lia.
Qed.

Lemma start_spec t n s p s' p' : wf_sys s -> PI s t p -> start_workers t n (s, p) = (s', p') ->
  p' = p ++ map (fun i => Worker i true) (seq (nxt s) (Z.to_nat n)) /\
  (forall i, In i (seq (nxt s) (Z.to_nat n)) -> tbl s' i = Some (t, Running)) /\
  wf_sys s' /\ PI s' t p' /\ frame t s s'.
Proof.
  intros W P. cbn [start_workers]. destruct (start_n t (Z.to_nat n) s) as [s1 ws] eqn:E. intros X. injection X as <- <-.
  apply start_n_spec in E. destruct E as [E1 [-> E3]]. set (m := Z.to_nat n) in *.
  split; auto. split; [intros i Hi; apply in_seq in Hi; rewrite E3|split; [|split]].
  - replace (nxt s <=? i)%nat with true by (symmetry; apply Nat.leb_le; lia).
    replace (i <? nxt s + m)%nat with true by (symmetry; apply Nat.ltb_lt; lia). reflexivity.
  - intros i Hi. rewrite E3. replace (i <? nxt s + m)%nat with false by (symmetry; apply Nat.ltb_ge; lia).
    rewrite andb_false_r. apply W. lia.
  - constructor.
    + rewrite map_app, map_map. cbn [w_id]. apply sorted_app; [apply P| |].
      * rewrite map_id. clear. generalize (nxt s). induction m as [|m IH]; intros a; cbn; constructor; auto.
        apply Forall_forall. intros x Hx. apply in_seq in Hx. lia.
      * intros x y Hx Hy. rewrite map_id in Hy. apply in_seq in Hy. apply in_map_iff in Hx. destruct Hx as [w [<- Hw]].
        apply P in Hw. lia.
    + intros w Hw. apply in_app_or in Hw. destruct Hw as [Hw|Hw]; [apply P in Hw; lia|].
      apply in_map_iff in Hw. destruct Hw as [i [<- Hi]]. apply in_seq in Hi. cbn. lia.
    + intros i. rewrite E3. intros Hi. apply in_or_app.
      destruct ((nxt s <=? i)%nat && (i <? nxt s + m)%nat) eqn:A; [|left; apply P; auto].
      right. apply andb_prop in A. destruct A as [A B]. apply Nat.leb_le in A. apply Nat.ltb_lt in B.
      apply (in_map (fun j => Worker j true)). apply in_seq. lia.
  - constructor; [lia|]. intros i u N. rewrite E3. destruct (_ && _); auto. congruence.
Qed.

(* terminating workers *)
Lemma stop_worker_tbl t s w i : tbl (stop_worker t s w) i = tbl s i \/
  (i = w_id w /\ tbl (stop_worker t s w) i = Some (t, Exited (-15))).
Proof.
  unfold stop_worker. destruct (w_proc w); auto. destruct (tbl s (w_id w)) as [[u [|c]]|]; auto; cbn [set_proc tbl];
    destruct (Nat.eqb_spec (w_id w) i) as [<-|N]; auto.
Qed.
Lemma stop_worker_nxt t s w : nxt (stop_worker t s w) = nxt s.
Proof. unfold stop_worker. destruct (w_proc w); auto. destruct (tbl s (w_id w)) as [[u [|c]]|]; auto. Qed.
Lemma stop_worker_dead t s w u : w_proc w = true -> tbl (stop_worker t s w) (w_id w) <> Some (u, Running).
Proof.
  intros P. unfold stop_worker. rewrite P. destruct (tbl s (w_id w)) as [[v [|c]]|] eqn:E; cbn [set_proc tbl];
    rewrite ?Nat.eqb_refl, ?E; discriminate.
Qed.

Definition keeps (ids : list nat) (w : worker) : bool := negb (existsb (Nat.eqb (w_id w)) ids).
Lemma keeps_false ids w : keeps ids w = false <-> In (w_id w) ids.
Proof.
  unfold keeps. rewrite negb_false_iff, existsb_exists. split; [intros [x [H E]]; apply Nat.eqb_eq in E; subst; auto|].
  intros H. exists (w_id w). split; auto. apply Nat.eqb_refl.
Qed.
Lemma keeps_true ids w : keeps ids w = true <-> ~ In (w_id w) ids.
Proof. rewrite <- keeps_false. destruct (keeps ids w); intuition discriminate. Qed.

Lemma stop_fold t l : forall s p s' p', fold_left (fun '(s, p) w => (stop_worker t s w, del_worker p (w_id w))) l (s, p) = (s', p') ->
  p' = filter (keeps (map w_id l)) p /\ nxt s' = nxt s /\
  (forall i, tbl s' i = tbl s i \/ In i (map w_id l) /\ tbl s' i = Some (t, Exited (-15))) /\
  (forall w u, In w l -> w_proc w = true -> tbl s' (w_id w) <> Some (u, Running)).
Proof.
  induction l as [|w l IH]; intros s p s' p'; cbn [fold_left].
  - intros E. injection E as <- <-. split; [|split; [auto|split; [auto|intros ? ? []]]].
    cbn. symmetry. clear. induction p as [|w p IH]; cbn; auto. rewrite IH. reflexivity.
  - intros E. apply IH in E. destruct E as [E1 [E2 [E3 E4]]]. rewrite stop_worker_nxt in E2. split; [|split; [auto|split]].
    + rewrite E1. unfold del_worker. clear. induction p as [|v p IH]; cbn [filter map]; auto.
      unfold keeps at 2. cbn [existsb]. destruct (Nat.eqb (w_id v) (w_id w)) eqn:Q; cbn [negb orb]; auto.
      cbn [filter]. unfold keeps at 1. destruct (existsb _ _); cbn [negb]; rewrite IH; reflexivity.
    + intros i. destruct (E3 i) as [A|[A B]].
      * rewrite A. destruct (stop_worker_tbl t s w i) as [C|[-> C]]; auto. right. split; auto. left; auto.
      * right. split; auto. right; auto.
    + intros v u [<-|Hv] Pv; [|eapply E4; eauto].
      destruct (E3 (w_id w)) as [A|[_ A]]; rewrite A; [apply stop_worker_dead; auto|discriminate].
Qed.

Lemma keeps_prefix p k : NoDup (map w_id p) -> filter (keeps (map w_id (skipn k p))) p = firstn k p.
Proof.
  revert k. induction p as [|w p IH]; intros k N; [destruct k; reflexivity|].
  cbn [map] in N. apply NoDup_cons_iff in N. destruct N as [N1 N2]. destruct k as [|k]; cbn [skipn firstn].
  - replace (filter _ _) with (filter (fun _ : worker => false) (w :: p)); [clear; induction (w :: p); auto|].
    apply filter_ext_in. intros v Hv. symmetry. apply keeps_false, in_map, Hv.
  - cbn [filter]. replace (keeps (map w_id (skipn k p)) w) with true; [rewrite IH; auto|].
    symmetry. apply keeps_true. intros H. apply N1. apply in_map_iff in H. destruct H as [v [E H]].
    apply in_map_iff. exists v. split; auto. rewrite <- (firstn_skipn k p). apply in_or_app; auto.
Qed.

(* a state in which some workers were terminated and dropped *)
Lemma drop_PI s s' t p ids : wf_sys s -> PI s t p -> nxt s' = nxt s ->
  (forall i, tbl s' i = tbl s i \/ In i ids /\ tbl s' i = Some (t, Exited (-15))) ->
  (forall w, In w p -> In (w_id w) ids -> tbl s' (w_id w) <> Some (t, Running)) -> incl ids (map w_id p) ->
  wf_sys s' /\ PI s' t (filter (keeps ids) p) /\ frame t s s'.
Proof.
  intros W P E1 E2 E3 E4. split; [|split].
  - intros i Hi. rewrite E1 in Hi. destruct (E2 i) as [->|[Hin _]]; auto.
    apply E4, in_map_iff in Hin. destruct Hin as [w [<- Hw]]. apply P in Hw. lia.
  - constructor.
    + apply sorted_filter, P.
    + intros w Hw. apply filter_In in Hw. rewrite E1. apply P, Hw.
    + intros i Hi. assert (Hr : In (Worker i true) p).
      { destruct (E2 i) as [A|[_ A]]; rewrite A in Hi; [apply P; auto|discriminate]. }
      apply filter_In. split; auto. apply keeps_true. intros H. exact (E3 _ Hr H Hi).
  - constructor; [lia|]. intros i u N Hi. destruct (E2 i) as [A|[_ A]]; rewrite A in Hi; congruence.
Qed.
Lemma unique_proc s t p w : PI s t p -> In w p -> w_proc w = false -> tbl s (w_id w) <> Some (t, Running).
Proof.
  intros P Hw Pw H. apply (pi_run _ _ _ P) in H. pose proof (sorted_nodup _ (pi_sorted _ _ _ P)) as N.
  assert (E : w = Worker (w_id w) true).
  { clear - N Hw H. induction p as [|v p IH]; [destruct Hw|]. cbn in N. apply NoDup_cons_iff in N. destruct N as [N1 N2].
    destruct Hw as [->|Hw], H as [H|H]; auto.
    - exfalso. apply N1. apply (in_map w_id) in H. auto.
    - exfalso. apply N1. rewrite H. cbn. apply in_map, Hw. }
  rewrite E in Pw. discriminate.
Qed.

Lemma stop_spec t n s p s' p' : wf_sys s -> PI s t p -> stop_workers t n (s, p) = (s', p') ->
  p' = firstn (length p - Z.to_nat n) p /\
  (forall w, In w (skipn (length p - Z.to_nat n) p) -> tbl s' (w_id w) <> Some (t, Running)) /\
  wf_sys s' /\ PI s' t p' /\ frame t s s'.
Proof.
  intros W P E. cbn [stop_workers] in E. set (k := (length p - Z.to_nat n)%nat) in *.
  apply stop_fold in E. destruct E as [E1 [E2 [E3 E4]]].
  pose proof (sorted_nodup _ (pi_sorted _ _ _ P)) as N.
  assert (X : forall w, In w (skipn k p) -> In w p).
  { intros w Hw. rewrite <- (firstn_skipn k p). apply in_or_app; auto. }
  assert (D : forall w, In w (skipn k p) -> tbl s' (w_id w) <> Some (t, Running)).
  { intros w Hw. destruct (w_proc w) eqn:Pw; [apply E4; auto|].
    pose proof (unique_proc _ _ _ _ P (X w Hw) Pw) as Z. destruct (E3 (w_id w)) as [A|[_ A]]; rewrite A; auto. discriminate. }
  destruct (drop_PI s s' t p (map w_id (skipn k p)) W P E2 E3) as [D1 [D2 D3]].
  - intros w Hw Hi. apply in_map_iff in Hi. destruct Hi as [v [Ev Hv]]. rewrite <- Ev. auto.
  - intros i Hi. apply in_map_iff in Hi. destruct Hi as [v [<- Hv]]. apply in_map. auto.
  - rewrite <- E1 in D2. rewrite E1, keeps_prefix by auto. rewrite E1, keeps_prefix in D2 by auto. auto.
Qed.

Lemma set_spec t n s p s' p' : wf_sys s -> PI s t p -> set_num_workers t n (s, p) = (s', p') ->
  let new := map (fun i => Worker i true) (seq (nxt s) (Z.to_nat n - length p)) in
  p' = firstn (Z.to_nat n) p ++ new /\ length p' = Z.to_nat n /\
  (forall w, In w new -> tbl s' (w_id w) = Some (t, Running)) /\
  (forall w, In w (skipn (Z.to_nat n) p) -> tbl s' (w_id w) <> Some (t, Running)) /\
  wf_sys s' /\ PI s' t p' /\ frame t s s'.
Proof.
  intros W P E new. unfold set_num_workers in E. cbn [snd] in E. set (L := length p) in *.
  destruct (0 <? n - Z.of_nat L) eqn:E1; [apply Z.ltb_lt in E1|apply Z.ltb_ge in E1; destruct (n - Z.of_nat L <? 0) eqn:E2;
    [apply Z.ltb_lt in E2|apply Z.ltb_ge in E2]].
  - apply start_spec in E; auto. replace (Z.to_nat (n - Z.of_nat L)) with (Z.to_nat n - L)%nat in E by lia.
    destruct E as [E [R [A [B C]]]]. fold new in E.
    assert (F : firstn (Z.to_nat n) p = p) by (apply firstn_all2; fold L; lia).
    rewrite F. split; auto. split; [rewrite E, app_length; unfold new; rewrite map_length, seq_length; fold L; lia|].
    split; [intros w Hw; apply in_map_iff in Hw; destruct Hw as [i [<- Hi]]; cbn; auto|]. split; auto.
    intros w Hw. rewrite skipn_all2 in Hw by (fold L; lia). destruct Hw.
  - apply stop_spec in E; auto. fold L in E. replace (L - Z.to_nat (- (n - Z.of_nat L)))%nat with (Z.to_nat n) in E by lia.
    destruct E as [E [R [A [B C]]]].
    assert (N0 : new = []) by (unfold new; replace (Z.to_nat n - L)%nat with O by lia; reflexivity).
    rewrite N0, app_nil_r. split; auto. split; [rewrite E, firstn_length; fold L; lia|]. split; [intros w []|]. auto.
  - injection E as <- <-.
    assert (N0 : new = []) by (unfold new; replace (Z.to_nat n - L)%nat with O by lia; reflexivity).
    rewrite N0, app_nil_r. rewrite firstn_all2 by (fold L; lia). split; auto. split; [fold L; lia|].
    split; [intros w []|]. split; [rewrite skipn_all2 by (fold L; lia); intros w []|]. auto using frame_refl.
Qed.

(* reaping *)
Lemma del_fold l : forall p, fold_left (fun p w => del_worker p (w_id w)) l p = filter (keeps (map w_id l)) p.
Proof.
  induction l as [|w l IH]; intros p; cbn [fold_left].
  - symmetry. clear. induction p as [|v p IH]; [reflexivity|]. change (v :: filter (keeps []) p = v :: p). f_equal. exact IH.
  - rewrite IH. unfold del_worker. clear. induction p as [|v p IH]; cbn [filter map]; auto.
    unfold keeps at 2. cbn [existsb]. destruct (Nat.eqb (w_id v) (w_id w)) eqn:Q; cbn [negb orb]; auto.
    cbn [filter]. unfold keeps at 1. destruct (existsb _ _); cbn [negb]; rewrite IH; reflexivity.
Qed.
Definition failed_worker (s : sys) (w : worker) : bool :=
  match exitcode s w with Some c => negb (c =? 0) | None => false end.
Definition noticed (s : sys) (w : worker) : worker :=
  match exitcode s w with Some _ => Worker (w_id w) false | None => w end.
Lemma noticed_id s w : w_id (noticed s w) = w_id w.
Proof. unfold noticed. destruct (exitcode s w); auto. Qed.
Lemma reap_eq s p : NoDup (map w_id p) -> reap_dead_workers (s, p) =
  (map (noticed s) (filter (fun w => negb (failed_worker s w)) p), Z.of_nat (length (filter (failed_worker s) p))).
Proof.
  intros N. unfold reap_dead_workers. fold (failed_worker s). fold (noticed s). rewrite del_fold. f_equal.
  assert (G : forall q, incl q p -> filter (keeps (map w_id (filter (failed_worker s) p))) (map (noticed s) q) =
              map (noticed s) (filter (fun w => negb (failed_worker s w)) q)).
  { induction q as [|w q IH]; intros I; cbn [map filter]; auto.
    replace (keeps (map w_id (filter (failed_worker s) p)) (noticed s w)) with (negb (failed_worker s w)).
    - rewrite IH by (intros x Hx; apply I; right; auto). destruct (failed_worker s w); reflexivity.
    - destruct (failed_worker s w) eqn:F; cbn [negb]; symmetry.
      + apply keeps_false. rewrite noticed_id. apply in_map, filter_In. split; auto. apply I. left; auto.
      + apply keeps_true. rewrite noticed_id. intros H. apply in_map_iff in H. destruct H as [v [Ev Hv]].
        apply filter_In in Hv. destruct Hv as [Hv Fv].
        assert (v = w); [|congruence].
        assert (Hw : In w p) by (apply I; left; auto). clear - N Ev Hv Hw.
        induction p as [|x p IH]; [destruct Hv|]. cbn in N. apply NoDup_cons_iff in N. destruct N as [N1 N2].
        destruct Hv as [->|Hv], Hw as [->|Hw]; auto; exfalso; apply N1; [rewrite Ev|rewrite <- Ev]; apply in_map; auto. }
  apply G, incl_refl.
Qed.
Lemma reap_PI s t p p' k : PI s t p -> reap_dead_workers (s, p) = (p', k) ->
  PI s t p' /\ Z.of_nat (length p') + k = Z.of_nat (length p) /\ 0 <= k.
Proof.
  intros P E. pose proof (sorted_nodup _ (pi_sorted _ _ _ P)) as N. rewrite reap_eq in E by auto. injection E as <- <-.
  assert (MI : forall q, map w_id (map (noticed s) q) = map w_id q).
  { intros q. rewrite map_map. apply map_ext. intros. apply noticed_id. }
  split; [|split; [|lia]].
  - constructor.
    + rewrite MI. apply sorted_filter, P.
    + intros w Hw. apply in_map_iff in Hw. destruct Hw as [v [<- Hv]]. rewrite noticed_id. apply filter_In in Hv. apply P, Hv.
    + intros i Hi. apply in_map_iff. exists (Worker i true).
      assert (X : exitcode s (Worker i true) = None) by (unfold exitcode; cbn; rewrite Hi; auto).
      split; [unfold noticed; rewrite X; auto|]. apply filter_In. split; [apply P; auto|].
      unfold failed_worker. rewrite X. reflexivity.
  - rewrite map_length. clear. induction p as [|w p IH]; cbn [filter]; auto. destruct (failed_worker s w); cbn [negb length]; lia.
Qed.

(* one worker is stopped and another one started *)
Lemma stop_one_spec t i s p s' p' : wf_sys s -> PI s t p -> pool_stop t (Some i) (s, p) = (s', p') ->
  p' = del_worker p i /\ wf_sys s' /\ PI s' t p' /\ frame t s s' /\
  (In i (map w_id p) -> S (length p') = length p) /\ (~ In i (map w_id p) -> p' = p).
Proof.
  intros W P E. cbn [pool_stop] in E. destruct (find _ p) as [w|] eqn:F.
  - injection E as <- <-. apply find_some in F. destruct F as [Hw Ei]. apply Nat.eqb_eq in Ei.
    pose proof (sorted_nodup _ (pi_sorted _ _ _ P)) as N.
    assert (Q : del_worker p i = filter (keeps [i]) p).
    { unfold del_worker. apply filter_ext. intros v. unfold keeps. cbn. rewrite orb_false_r. reflexivity. }
    destruct (drop_PI s (stop_worker t s w) t p [i] W P) as [D1 [D2 D3]].
    + apply stop_worker_nxt.
    + intros j. destruct (stop_worker_tbl t s w j) as [A|[-> A]]; auto. right. split; auto. left; auto.
    + intros v Hv [Hi|[]]. rewrite <- Hi, <- Ei. destruct (w_proc w) eqn:Pw; [apply stop_worker_dead; auto|].
      unfold stop_worker. rewrite Pw. apply (unique_proc s t p); auto.
    + intros j [<-|[]]. rewrite <- Ei. apply in_map, Hw.
    + rewrite Q. split; auto. split; auto. split; auto. split; auto. split.
      * intros _. rewrite <- Q. clear - N Hw Ei. unfold del_worker.
        induction p as [|v p IH]; [destruct Hw|]. cbn in N. apply NoDup_cons_iff in N. destruct N as [N1 N2]. cbn [filter].
        destruct Hw as [->|Hw].
        -- rewrite Ei, Nat.eqb_refl. cbn [negb length]. f_equal. clear IH N2.
           rewrite <- Ei. induction p as [|v p IH]; auto. cbn [filter]. destruct (Nat.eqb_spec (w_id v) (w_id w)) as [X|X].
           ++ exfalso. apply N1. left; auto.
           ++ cbn [negb length]. f_equal. apply IH. intros H. apply N1. right; auto.
        -- destruct (Nat.eqb_spec (w_id v) i) as [X|X]; cbn [negb length]; [|f_equal; apply IH; auto].
           exfalso. apply N1. rewrite X, <- Ei. apply in_map, Hw.
      * intros NI. exfalso. apply NI. rewrite <- Ei. apply in_map, Hw.
  - injection E as <- <-. assert (NI : ~ In i (map w_id p)).
    { intros H. apply in_map_iff in H. destruct H as [w [Ei Hw]]. apply (find_none _ _ F) in Hw.
      rewrite Ei, Nat.eqb_refl in Hw. discriminate. }
    assert (Q : del_worker p i = p).
    { unfold del_worker. clear - NI. induction p as [|v p IH]; auto. cbn [filter].
      destruct (Nat.eqb_spec (w_id v) i) as [X|X]; [exfalso; apply NI; left; auto|]. cbn [negb]. f_equal. apply IH.
      intros H. apply NI. right; auto. }
    split; [symmetry; auto|]. split; auto. split; auto. split; [apply frame_refl|]. split; [intros H; destruct (NI H)|auto].
Qed.

(* ---- one pool (C44) ---- *)
(* The states of a WorkerPool whose workers belong to task t, under any calls of its methods, deaths
   of processes, and activity of other pools. *)
Inductive pool_reached (t : nat) : sys -> pool -> Prop :=
| pr_new s : clean_start s -> pool_reached t s []
| pr_set s p n s' p' : pool_reached t s p -> set_num_workers t n (s, p) = (s', p') -> pool_reached t s' p'
| pr_inc s p n s' p' : pool_reached t s p -> inc_num_workers t n (s, p) = (s', p') -> pool_reached t s' p'
| pr_stop s p wid s' p' : pool_reached t s p -> pool_stop t wid (s, p) = (s', p') -> pool_reached t s' p'
| pr_reap s p p' k : pool_reached t s p -> reap_dead_workers (s, p) = (p', k) -> pool_reached t s p'
| pr_exit s p i u code : pool_reached t s p -> tbl s i = Some (u, Running) ->
    pool_reached t (set_proc s i u (Exited code)) p
| pr_other s p s' : pool_reached t s p -> (nxt s <= nxt s')%nat -> (forall i, (nxt s' <= i)%nat -> tbl s' i = None) ->
    (forall i st, tbl s' i = Some (t, st) <-> tbl s i = Some (t, st)) -> pool_reached t s' p.

Lemma exit_wf s i u code : tbl s i = Some (u, Running) -> wf_sys s -> wf_sys (set_proc s i u (Exited code)).
Proof.
  intros E W j Hj. cbn [set_proc tbl nxt] in *. destruct (Nat.eqb_spec i j) as [<-|N]; [rewrite W in E by auto; discriminate|auto].
Qed.
Lemma exit_PI s t p i u code : PI s t p -> PI (set_proc s i u (Exited code)) t p.
Proof.
  intros P. constructor; [apply P|apply (pi_lt _ _ _ P)|]. intros j Hj. cbn [set_proc tbl] in Hj.
  destruct (Nat.eqb i j); [discriminate|apply P; auto].
Qed.
Lemma pool_inv t s p : pool_reached t s p -> wf_sys s /\ PI s t p.
Proof.
  induction 1 as [s [C1 C2]|s p n s' p' R [W P] E|s p n s' p' R [W P] E|s p wid s' p' R [W P] E|s p p' k R [W P] E
                 |s p i u code R [W P] E|s p s' R [W P] L F O].
  - split; auto. constructor; [constructor|intros w []|intros i H; destruct (C2 _ _ H)].
  - apply set_spec in E; auto. tauto.
  - apply start_spec in E; auto. tauto.
  - destruct wid as [i|]; [apply stop_one_spec in E|cbn [pool_stop] in E; apply set_spec in E]; auto; tauto.
  - apply (reap_PI s t) in E; auto. tauto.
  - split; [apply exit_wf|apply exit_PI]; auto.
  - split; auto. constructor; [apply P|intros w Hw; apply P in Hw; lia|intros i H; apply O in H; apply P; auto].
Qed.

(* C44, set_num_workers: exactly n workers; those stopped are younger (have a higher id) than
   all that stay; those started are new and running; nobody is stopped without need. *)
Theorem C44_set_num_workers : forall t s p n s' p', pool_reached t s p -> 0 <= n ->
  set_num_workers t n (s, p) = (s', p') ->
  Z.of_nat (length p') = n /\
  (forall a b, In a p -> In a p' -> In b p -> ~ In b p' -> (w_id a < w_id b)%nat /\ tbl s' (w_id b) <> Some (t, Running)) /\
  (forall w, In w p' -> ~ In w p -> tbl s' (w_id w) = Some (t, Running) /\ (forall v, In v p -> (w_id v < w_id w)%nat)) /\
  (Z.of_nat (length p) <= n -> incl p p') /\ (n <= Z.of_nat (length p) -> incl p' p).
Proof.
  intros t s p n s' p' R N E. destruct (pool_inv _ _ _ R) as [W P]. destruct (set_spec _ _ _ _ _ _ W P E) as [E1 [E2 [E3 [E4 _]]]].
  set (new := map (fun i => Worker i true) (seq (nxt s) (Z.to_nat n - length p))) in *.
  assert (NW : forall w, In w new -> (nxt s <= w_id w)%nat).
  { intros w Hw. apply in_map_iff in Hw. destruct Hw as [i [<- Hi]]. apply in_seq in Hi. cbn. lia. }
  split; [lia|]. split; [|split; [|split]].
  - intros a b Ha Ha' Hb Nb. rewrite E1 in Ha', Nb.
    assert (Hs : In b (skipn (Z.to_nat n) p)).
    { rewrite <- (firstn_skipn (Z.to_nat n) p) in Hb. apply in_app_or in Hb. destruct Hb as [Hb|Hb]; auto.
      exfalso. apply Nb, in_or_app. auto. }
    split; [|apply E4; auto]. apply in_app_or in Ha'. destruct Ha' as [Ha'|Ha'].
    + pose proof (pi_sorted _ _ _ P) as S. rewrite <- (firstn_skipn (Z.to_nat n) p), map_app in S.
      apply sorted_app_inv in S. destruct S as [_ [_ S]]. apply S; apply in_map; auto.
    + apply NW in Ha'. apply P in Ha. lia.
  - intros w Hw Nw. rewrite E1 in Hw. apply in_app_or in Hw. destruct Hw as [Hw|Hw].
    + exfalso. apply Nw. rewrite <- (firstn_skipn (Z.to_nat n) p). apply in_or_app. auto.
    + split; auto. intros v Hv. apply NW in Hw. apply P in Hv. lia.
  - intros L w Hw. rewrite E1. apply in_or_app. left. rewrite firstn_all2 by lia. auto.
  - intros L w Hw. rewrite E1 in Hw. apply in_app_or in Hw. destruct Hw as [Hw|Hw].
    + rewrite <- (firstn_skipn (Z.to_nat n) p). apply in_or_app. auto.
    + unfold new in Hw. replace (Z.to_nat n - length p)%nat with O in Hw by lia. destruct Hw.
Qed.

(* the worker's process ended with an exit code other than 0 and this was not noticed before *)
Definition crashed (s : sys) (t : nat) (w : worker) : Prop :=
  w_proc w = true /\ exists u c, tbl s (w_id w) = Some (u, Exited c) /\ c <> 0.
Lemma crashed_iff s t w : failed_worker s w = true <-> crashed s t w.
Proof.
  unfold failed_worker, exitcode, crashed. destruct (w_proc w); [|split; [discriminate|intros [? _]; discriminate]].
  destruct (tbl s (w_id w)) as [[u [|c]]|].
  - split; [discriminate|intros [_ [v [c [H _]]]]; discriminate].
  - rewrite negb_true_iff, Z.eqb_neq. split; [eauto 6|]. intros [_ [v [c' [H N]]]]. injection H as _ <-. auto.
  - split; [discriminate|intros [_ [v [c [H _]]]]; discriminate].
Qed.
(* C44, dead workers: detecting and replacing them keeps the number of workers; exactly the
   crashed ones leave the pool, so those that exited normally keep their place. *)
Theorem C44_replace_dead : forall t s p p1 k s2 p2, pool_reached t s p ->
  reap_dead_workers (s, p) = (p1, k) -> inc_num_workers t k (s, p1) = (s2, p2) ->
  length p2 = length p /\
  (forall w, In w p -> (In (w_id w) (map w_id p2) <-> ~ crashed s t w)) /\
  (forall w, In w p2 -> ~ In (w_id w) (map w_id p) -> tbl s2 (w_id w) = Some (t, Running)).
Proof.
  intros t s p p1 k s2 p2 R E1 E2. destruct (pool_inv _ _ _ R) as [W P].
  destruct (reap_PI _ _ _ _ _ P E1) as [P1 [L K]].
  destruct (start_spec _ _ _ _ _ _ W P1 E2) as [F1 [F2 [W2 [P2 _]]]].
  pose proof (sorted_nodup _ (pi_sorted _ _ _ P)) as N. rewrite reap_eq in E1 by auto. injection E1 as Ep1 Ek.
  assert (I1 : map w_id p1 = map w_id (filter (fun w => negb (failed_worker s w)) p)).
  { rewrite <- Ep1, map_map. apply map_ext. intros. apply noticed_id. }
  split; [|split].
  - rewrite F1, app_length, map_length, seq_length. lia.
  - intros w Hw. rewrite F1, map_app, in_app_iff, map_map. cbn [w_id]. rewrite map_id, I1. split.
    + intros [H|H] C; [|apply in_seq in H; apply P in Hw; lia].
      apply crashed_iff in C. apply in_map_iff in H. destruct H as [v [Ev Hv]]. apply filter_In in Hv. destruct Hv as [Hv Fv].
      assert (X : keeps (map w_id (filter (failed_worker s) p)) v = true).
      { apply keeps_true. intros H. apply in_map_iff in H. destruct H as [z [Ez Hz]]. apply filter_In in Hz.
        assert (z = v); [|destruct Hz as [_ Fz]; subst z; rewrite Fz in Fv; discriminate].
        destruct Hz as [Hz _]. clear - N Ez Hz Hv. induction p as [|x p IH]; [destruct Hz|]. cbn in N. apply NoDup_cons_iff in N.
        destruct N as [N1 N2]. destruct Hz as [->|Hz], Hv as [->|Hv]; auto; exfalso; apply N1; [rewrite Ez|rewrite <- Ez]; apply in_map; auto. }
      apply keeps_true in X. apply X. rewrite Ev. apply in_map, filter_In. auto.
    + intros C. left. apply in_map, filter_In. split; auto. destruct (failed_worker s w) eqn:F; auto.
      exfalso. apply C, crashed_iff, F.
  - intros w Hw Nw. rewrite F1 in Hw. apply in_app_or in Hw. destruct Hw as [Hw|Hw].
    + exfalso. apply Nw. apply (in_map w_id) in Hw. rewrite I1 in Hw. apply in_map_iff in Hw. destruct Hw as [v [<- Hv]].
      apply filter_In in Hv. apply in_map, Hv.
    + apply in_map_iff in Hw. destruct Hw as [i [<- Hi]]. cbn. auto.
Qed.
Print Assumptions C44_set_num_workers.
Print Assumptions C44_replace_dead.

(* ---- all pools ---- *)
Record frames (T : list nat) (s s' : sys) : Prop := {
  fs_nxt : (nxt s <= nxt s')%nat;
  fs_tbl : forall i u, ~ In u T -> tbl s' i = Some (u, Running) -> tbl s i = Some (u, Running)
}.
Lemma frames_PI T u s s' p : ~ In u T -> frames T s s' -> PI s u p -> PI s' u p.
Proof.
  intros N F P. constructor; [apply P| |].
  - intros w Hw. pose proof (pi_lt _ _ _ P w Hw). pose proof (fs_nxt _ _ _ F). lia.
  - intros i Hi. apply (pi_run _ _ _ P). eapply fs_tbl; eauto.
Qed.
Lemma frames_cons t T s s1 s2 : frame t s s1 -> frames T s1 s2 -> frames (t :: T) s s2.
Proof.
  intros [A1 A2] [B1 B2]. constructor; [lia|]. intros i u N H. apply A2; [intros ->; apply N; left; auto|].
  apply B2; auto. intros H'. apply N. right; auto.
Qed.
Lemma frames_refl T s : frames T s s.
Proof. constructor; auto. Qed.

Definition kept_pools (Q : nat -> pool -> pool -> Prop) (s' : sys) (l l' : list (nat * pool)) : Prop :=
  map fst l' = map fst l /\ forall t p', In (t, p') l' -> PI s' t p' /\ exists p, In (t, p) l /\ Q t p p'.

Lemma each_ok (f : nat -> sys * pool -> sys * pool) (Q : nat -> pool -> pool -> Prop) :
  forall l s s' l',
  (forall t s p s' p', In (t, p) l -> wf_sys s -> PI s t p -> f t (s, p) = (s', p') ->
     wf_sys s' /\ PI s' t p' /\ frame t s s' /\ Q t p p') ->
  NoDup (map fst l) -> wf_sys s -> (forall t p, In (t, p) l -> PI s t p) -> each f s l = (s', l') ->
  wf_sys s' /\ frames (map fst l) s s' /\ kept_pools Q s' l l'.
Proof.
  induction l as [|[t p] l IH]; intros s s' l' HF ND W HP; cbn [each].
  - intros E. injection E as <- <-. split; auto. split; [apply frames_refl|]. split; auto. intros t p' [].
  - destruct (f t (s, p)) as [s1 p1] eqn:E1. destruct (each f s1 l) as [s2 r2] eqn:E2. intros E. injection E as <- <-.
    cbn [map fst] in ND. apply NoDup_cons_iff in ND. destruct ND as [N1 N2].
    destruct (HF t s p s1 p1) as [W1 [P1 [F1 Q1]]]; auto; [left; auto|apply HP; left; auto|].
    assert (HP1 : forall u q, In (u, q) l -> PI s1 u q).
    { intros u q Hq. apply (frame_PI t u s); auto; [|apply HP; right; auto].
      intros ->. apply N1. apply (in_map fst) in Hq. auto. }
    destruct (IH s1 s2 r2) as [W2 [F2 [K2 K3]]]; auto.
    { intros u s3 q s4 q' Hq. apply HF. right; auto. }
    split; auto. split; [eapply frames_cons; eauto|]. split; [cbn [map fst]; f_equal; auto|].
    intros u q [H|H].
    + injection H as <- <-. split; [apply (frames_PI (map fst l) t s1); auto|]. exists p. split; auto. left; auto.
    + destruct (K3 u q H) as [A [q0 [B C]]]. split; auto. exists q0. split; auto. right; auto.
Qed.
Lemma health_ok : forall l s err s' err' l' e,
  NoDup (map fst l) -> wf_sys s -> (forall t p, In (t, p) l -> PI s t p) -> health s err l = (s', err', l', e) ->
  wf_sys s' /\ frames (map fst l) s s' /\ kept_pools (fun t p p' => length p' = length p) s' l l'.
Proof.
  induction l as [|[t p] l IH]; intros s err s' err' l' e ND W HP; cbn [health].
  - intros E. injection E as <- <- <- <-. split; auto. split; [apply frames_refl|]. split; auto. intros t p' [].
  - destruct (err t) as [|x es].
    2: { intros E. injection E as <- <- <- <-. split; auto. split; [apply frames_refl|]. split; auto.
         intros u q Hq. split; [apply HP; auto|eauto]. }
    destruct (reap_dead_workers (s, p)) as [p1 k] eqn:Er.
    cbn [map fst] in ND. apply NoDup_cons_iff in ND. destruct ND as [N1 N2].
    destruct (reap_PI s t p p1 k (HP t p (or_introl eq_refl)) Er) as [P1 [L K]].
    destruct (if 0 <? k then inc_num_workers t k (s, p1) else (s, p1)) as [s2 p2] eqn:Ei.
    assert (X : wf_sys s2 /\ PI s2 t p2 /\ frame t s s2 /\ length p2 = length p).
    { destruct (0 <? k) eqn:Ek.
      - apply start_spec in Ei; auto. destruct Ei as [-> [_ [A [B C]]]]. repeat (split; auto).
        rewrite app_length, map_length, seq_length. lia.
      - apply Z.ltb_ge in Ek. injection Ei as <- <-. repeat (split; auto using frame_refl). lia. }
    destruct X as [W2 [P2 [F2 L2]]]. destruct (health s2 err l) as [[[s3 err3] r3] e3] eqn:Eh. intros E. injection E as <- <- <- <-.
    assert (HP2 : forall u q, In (u, q) l -> PI s2 u q).
    { intros u q Hq. apply (frame_PI t u s); auto; [|apply HP; right; auto].
      intros ->. apply N1. apply (in_map fst) in Hq. auto. }
    destruct (IH s2 err s3 err3 r3 e3 N2 W2 HP2 Eh) as [W3 [F3 [K2 K3]]].
    split; auto. split; [eapply frames_cons; eauto|]. split; [cbn [map fst]; f_equal; auto|].
    intros u q [H|H].
    + injection H as <- <-. split; [apply (frames_PI (map fst l) t s2); auto|]. exists p. split; auto. left; auto.
    + destruct (K3 u q H) as [A [q0 [B C]]]. split; auto. exists q0. split; auto. right; auto.
Qed.

Section Bound.
  Variable nw : nat -> Z.
  Hypothesis NN : forall t, 0 <= nw t.
  Variables (mbf : Z) (tasks : list nat) (s0 : sys).
  Hypothesis NT : NoDup tasks.
  Hypothesis CS : clean_start s0.

  Record GI (k : Z) (x : pools) : Prop := {
    gi_wf : wf_sys (ps_sys x);
    gi_keys : map fst (ps_pools x) = tasks;
    gi_pi : forall t p, In (t, p) (ps_pools x) -> PI (ps_sys x) t p;
    gi_len : forall t p, In (t, p) (ps_pools x) -> Z.of_nat (length p) <= nw t + k;
    gi_nn : 0 <= k;
    gi_all : forall i t, tbl (ps_sys x) i = Some (t, Running) -> In t tasks
  }.
  Lemma frames_all k x s' : GI k x -> frames (map fst (ps_pools x)) (ps_sys x) s' -> forall i t, tbl s' i = Some (t, Running) -> In t tasks.
  Proof.
    intros G F i t H. destruct (in_dec Nat.eq_dec t tasks) as [I|N]; auto.
    apply (gi_all _ _ G i). apply (fs_tbl _ _ _ F); auto. rewrite (gi_keys _ _ G). exact N.
  Qed.
  Lemma on_pools_GI f k k' x : GI k x -> 0 <= k' ->
    (forall t s p s' p', In (t, p) (ps_pools x) -> wf_sys s -> PI s t p -> f t (s, p) = (s', p') ->
      wf_sys s' /\ PI s' t p' /\ frame t s s' /\ (Z.of_nat (length p) <= nw t + k -> Z.of_nat (length p') <= nw t + k')) ->
    GI k' (on_pools f x).
  Proof.
    intros G Nk HF. unfold on_pools. destruct (each f (ps_sys x) (ps_pools x)) as [s' l'] eqn:E.
    destruct (each_ok f (fun t p p' => Z.of_nat (length p) <= nw t + k -> Z.of_nat (length p') <= nw t + k')
      (ps_pools x) (ps_sys x) s' l') as [W [FS [K1 K2]]]; auto.
    { rewrite (gi_keys _ _ G). auto. } { apply G. } { apply G. }
    constructor; cbn [ps_sys ps_pools]; auto.
    - rewrite K1. apply G.
    - intros t p Hp. apply K2 in Hp. tauto.
    - intros t p Hp. apply K2 in Hp. destruct Hp as [_ [q [Hq HQ]]]. apply HQ, (gi_len _ _ G), Hq.
    - exact (frames_all _ _ _ G FS).
  Qed.
  Lemma same_pools k x s e f : GI k x -> wf_sys s -> (forall t p, In (t, p) (ps_pools x) -> PI s t p) ->
    (forall i t, tbl s i = Some (t, Running) -> tbl (ps_sys x) i = Some (t, Running)) -> GI k (Pools s (ps_pools x) e f).
  Proof. intros G W P A. constructor; cbn; auto; try apply G. intros i t H. eapply (gi_all _ _ G); eauto. Qed.

  Lemma step_GI k x e y ex : GI k x -> pstep nw mbf e x = (y, ex) ->
    (~ late mbf e x -> GI k y) /\ GI (k + 1) y.
  Proof.
    intros G E. pose proof (gi_nn _ _ G) as Nk.
    assert (UP : forall z, GI k z -> GI (k + 1) z).
    { intros z [A B C D F H]. constructor; auto; [|lia]. intros t p Hp. specialize (D t p Hp). lia. }
    assert (M : GI k y -> (~ late mbf e x -> GI k y) /\ GI (k + 1) y) by auto.
    destruct e as [ts| | |t wid|wid code|t e]; cbn [pstep] in E.
    - injection E as <- <-. apply M. apply (on_pools_GI _ k); auto. intros t s p s' p' _ W P.
      destruct (mem Nat.eqb t ts); [|intros E; injection E as <- <-; auto using frame_refl].
      intros E. apply set_spec in E; auto. destruct E as [_ [L [_ [_ [A [B C]]]]]]. repeat (split; auto).
      intros _. specialize (NN t). lia.
    - injection E as <- <-. apply M. apply (on_pools_GI _ k); auto. intros t s p s' p' _ W P E.
      cbn [pool_stop] in E. apply set_spec in E; auto. destruct E as [_ [L [_ [_ [A [B C]]]]]]. repeat (split; auto).
      intros _. specialize (NN t). lia.
    - unfold check_worker_health in E. destruct (health _ _ _) as [[[s err] l] e] eqn:Eh. injection E as <- <-. apply M.
      apply health_ok in Eh; [|rewrite (gi_keys _ _ G); auto|apply G|apply G].
      destruct Eh as [W [FS [K1 K2]]]. constructor; cbn; auto.
      + rewrite K1. apply G.
      + intros t p Hp. apply K2 in Hp. tauto.
      + intros t p Hp. apply K2 in Hp. destruct Hp as [_ [q [Hq L]]]. rewrite L. apply (gi_len _ _ G), Hq.
      + exact (frames_all _ _ _ G FS).
    - unfold on_block_failure in E. destruct (mbf <? ps_fc x t wid + 1) eqn:B.
      2: { injection E as <- <-. apply M. apply same_pools; auto; apply G. }
      apply Z.ltb_lt in B. destruct (existsb _ _).
      2: { injection E as <- <-. apply M. apply same_pools; auto; apply G. }
      injection E as <- <-. set (y := Pools _ _ _ _).
      assert (Gy : GI k y) by (apply same_pools; auto; apply G).
      assert (X : forall k', k <= k' -> (forall p, In (t, p) (ps_pools x) -> In wid (map w_id p)) \/ k + 1 <= k' ->
        GI k' (on_pools (fun u sp => if Nat.eqb u t then inc_num_workers t 1 (pool_stop t (Some wid) sp) else sp) y)).
      { intros k' Lk HX. apply (on_pools_GI _ k k'); auto; [lia|]. intros u s p s' p' Hp W P. cbn [y ps_pools] in Hp.
        destruct (Nat.eqb_spec u t) as [->|N].
        2: { intros E. injection E as <- <-. repeat (split; auto using frame_refl). lia. }
        destruct (pool_stop t (Some wid) (s, p)) as [s1 p1] eqn:E1. intros E2.
        destruct (stop_one_spec _ _ _ _ _ _ W P E1) as [_ [W1 [P1 [F1 [L1 L2]]]]].
        destruct (start_spec _ _ _ _ _ _ W1 P1 E2) as [Ep [_ [W2 [P2 F2]]]].
        split; auto. split; auto. split; [eapply frame_trans; eauto|]. intros L.
        rewrite Ep, app_length, map_length, seq_length. change (Z.to_nat 1) with 1%nat.
        destruct (in_dec Nat.eq_dec wid (map w_id p)) as [I|I]; [specialize (L1 I); lia|].
        rewrite (L2 I). destruct HX as [HX|HX]; [destruct (I (HX p Hp))|lia]. }
      split; [|apply X; [lia|right; lia]]. intros NL. apply X; [lia|]. left. intros p Hp.
      destruct (in_dec Nat.eq_dec wid (map w_id p)) as [I|I]; auto. exfalso. apply NL. split; auto.
      intros q Hq. replace q with p; auto.
      assert (ND : NoDup (map fst (ps_pools x))) by (rewrite (gi_keys _ _ G); auto).
      clear - ND Hp Hq. induction (ps_pools x) as [|[u z] l IH]; [destruct Hp|].
      cbn in ND. apply NoDup_cons_iff in ND. destruct ND as [N1 N2].
      destruct Hp as [Hp|Hp], Hq as [Hq|Hq]; auto; try congruence.
      + injection Hp as -> ->. exfalso. apply N1. apply (in_map fst) in Hq. auto.
      + injection Hq as -> ->. exfalso. apply N1. apply (in_map fst) in Hp. auto.
    - injection E as <- <-. apply M. destruct (tbl (ps_sys x) wid) as [[u [|c]]|] eqn:Et.
      + apply same_pools; auto; [apply exit_wf; auto; apply G| |].
        * intros t p Hp. apply exit_PI, G, Hp.
        * intros i t. cbn. destruct (Nat.eqb wid i); [discriminate|auto].
      + apply same_pools; auto; apply G.
      + apply same_pools; auto; apply G.
    - injection E as <- <-. apply M. apply same_pools; auto; apply G.
  Qed.
  Lemma reached_GI k x : reached nw mbf tasks s0 k x -> GI k x.
  Proof.
    destruct CS as [C1 C2].
    induction 1 as [|k x e y ex R IH E L|k x e y ex R IH E L].
    - constructor; cbn; auto; try lia.
      + rewrite map_map. apply map_id.
      + intros t p H. apply in_map_iff in H. destruct H as [u [H _]]. injection H as -> <-.
        constructor; [constructor|intros w []|intros i H; destruct (C2 _ _ H)].
      + intros t p H. apply in_map_iff in H. destruct H as [u [H _]]. injection H as -> <-. specialize (NN t). cbn. lia.
      + intros i t H. destruct (C2 _ _ H).
    - eapply step_GI; eauto.
    - eapply step_GI; eauto.
  Qed.
  Lemma GI_running k x t p : GI k x -> In (t, p) (ps_pools x) -> running_at_most (ps_sys x) t (Z.of_nat (length p)).
  Proof.
    intros G Hp l N H. pose proof (gi_pi _ _ G t p Hp) as P.
    assert (I : incl l (map w_id p)).
    { intros i Hi. apply H, P in Hi. apply (in_map w_id) in Hi. auto. }
    pose proof (NoDup_incl_length N I) as L. rewrite map_length in L. lia.
  Qed.
End Bound.

(* C44 for all pools: after check_worker_health every task has as many workers as before. *)
Theorem C44_health_keeps_number : forall nw mbf tasks s0 k x y e, (forall t, 0 <= nw t) -> NoDup tasks -> clean_start s0 ->
  reached nw mbf tasks s0 k x -> check_worker_health x = (y, e) ->
  map fst (ps_pools y) = map fst (ps_pools x) /\
  forall t p', In (t, p') (ps_pools y) -> exists p, In (t, p) (ps_pools x) /\ length p' = length p.
Proof.
  intros nw mbf tasks s0 k x y e NN NT CS R E. pose proof (reached_GI nw NN mbf tasks s0 NT CS k x R) as G.
  unfold check_worker_health in E. destruct (health _ _ _) as [[[s err] l] e'] eqn:Eh. injection E as <- <-.
  apply health_ok in Eh; [|rewrite (gi_keys _ _ _ _ G); auto|apply G|apply G].
  destruct Eh as [_ [_ [K1 K2]]]. split; auto. intros t p' Hp. apply K2 in Hp. destruct Hp as [_ H]. exact H.
Qed.

(* C45: as long as no worker is restarted that is not in its pool, no task has more than num_workers
   workers, nor running processes. *)
Theorem C45_bound_partial : forall nw mbf tasks s0 x, (forall t, 0 <= nw t) -> NoDup tasks -> clean_start s0 ->
  reached nw mbf tasks s0 0 x -> forall t p, In (t, p) (ps_pools x) ->
  Z.of_nat (length p) <= nw t /\ running_at_most (ps_sys x) t (nw t).
Proof.
  intros nw mbf tasks s0 x NN NT CS R t p Hp. pose proof (reached_GI nw NN mbf tasks s0 NT CS 0 x R) as G.
  pose proof (gi_len _ _ _ _ G t p Hp) as L. split; [lia|]. intros l N H.
  pose proof (GI_running nw tasks 0 x t p G Hp l N H). lia.
Qed.
(* In general every such restart adds one worker at most, ... *)
Theorem C45_excess_partial : forall nw mbf tasks s0 k x, (forall t, 0 <= nw t) -> NoDup tasks -> clean_start s0 ->
  reached nw mbf tasks s0 k x -> forall t p, In (t, p) (ps_pools x) ->
  Z.of_nat (length p) <= nw t + k /\ running_at_most (ps_sys x) t (nw t + k).
Proof.
  intros nw mbf tasks s0 k x NN NT CS R t p Hp. pose proof (reached_GI nw NN mbf tasks s0 NT CS k x R) as G.
  pose proof (gi_len _ _ _ _ G t p Hp) as L. split; [lia|]. intros l N H.
  pose proof (GI_running nw tasks k x t p G Hp l N H). lia.
Qed.
(* ... until workers are recruited for the task again. *)
Theorem C45_recruit : forall nw mbf tasks s0 k x ts, (forall t, 0 <= nw t) -> NoDup tasks -> clean_start s0 ->
  reached nw mbf tasks s0 k x -> forall t p, In (t, p) (ps_pools (recruit_workers nw ts x)) -> In t ts ->
  Z.of_nat (length p) = nw t.
Proof.
  intros nw mbf tasks s0 k x ts NN NT CS R t p Hp Ht. pose proof (reached_GI nw NN mbf tasks s0 NT CS k x R) as G.
  unfold recruit_workers, on_pools in Hp. destruct (each _ _ _) as [s' l'] eqn:E. cbn [ps_pools] in Hp.
  destruct (each_ok (fun t sp => if mem Nat.eqb t ts then set_num_workers t (nw t) sp else sp)
    (fun t p p' => In t ts -> Z.of_nat (length p') = nw t) (ps_pools x) (ps_sys x) s' l') as [_ [_ [_ K]]]; auto.
  - intros u s q s1 q' _ W P. destruct (mem Nat.eqb u ts) eqn:M.
    + intros X. apply set_spec in X; auto. destruct X as [_ [L [_ [_ [A [B C]]]]]]. repeat (split; auto).
      intros _. rewrite L. specialize (NN u). lia.
    + intros X. injection X as <- <-. repeat (split; auto using frame_refl). intros I. exfalso.
      assert (mem Nat.eqb u ts = true); [|congruence]. apply existsb_exists. exists u. split; auto. apply Nat.eqb_refl.
  - rewrite (gi_keys _ _ _ _ G). auto.
  - apply G.
  - apply G.
  - apply K in Hp. destruct Hp as [_ [q [_ H]]]. auto.
Qed.
(* C62: after TaskWorkerPools.stop() no process runs any more and no pool has a worker, whatever
   happened before: deaths, restarts, exceptions from error queues or callbacks. *)
Theorem C62_stop : forall nw mbf tasks s0 k x, (forall t, 0 <= nw t) -> NoDup tasks -> clean_start s0 ->
  reached nw mbf tasks s0 k x ->
  (forall i t, tbl (ps_sys (pools_stop x)) i <> Some (t, Running)) /\
  ps_pools (pools_stop x) = map (fun t => (t, [])) tasks.
Proof.
  intros nw mbf tasks s0 k x NN NT CS R. pose proof (reached_GI nw NN mbf tasks s0 NT CS k x R) as G.
  unfold pools_stop, on_pools. destruct (each _ _ _) as [s' l'] eqn:E. cbn [ps_pools ps_sys].
  destruct (each_ok (fun t => pool_stop t None) (fun t p p' => p' = []) (ps_pools x) (ps_sys x) s' l') as [_ [FS [K1 K2]]]; auto.
  - intros t s p s1 p1 _ W P X. cbn [pool_stop] in X. apply set_spec in X; auto.
    destruct X as [_ [L [_ [_ [A [B C]]]]]]. repeat (split; auto). destruct p1; [reflexivity|discriminate].
  - rewrite (gi_keys _ _ _ _ G). auto.
  - apply G.
  - apply G.
  - rewrite (gi_keys _ _ _ _ G) in K1. split.
    + intros i t H. assert (I : In t tasks) by exact (frames_all nw tasks k x s' G FS i t H).
      rewrite <- K1 in I. apply in_map_iff in I. destruct I as [[u p] [Eu Hp]]. cbn in Eu. subst u.
      destruct (K2 _ _ Hp) as [P [q [_ ->]]]. destruct (pi_run _ _ _ P i H).
    + rewrite <- K1, map_map. rewrite <- (map_id l') at 1. apply map_ext_in. intros [t p] Hp.
      destruct (K2 _ _ Hp) as [_ [q [_ ->]]]. reflexivity.
Qed.
Print Assumptions C62_stop.
Print Assumptions C44_health_keeps_number.
Print Assumptions C45_bound_partial.
Print Assumptions C45_excess_partial.
Print Assumptions C45_recruit.

(* C45 fails: one worker; its fourth failure is reported after it crashed and was replaced. *)
Definition steps nw mbf (es : list pevent) (x : pools) : pools := fold_left (fun x e => fst (pstep nw mbf e x)) es x.
Lemma steps_reached nw mbf tasks s0 es : forall k x, reached nw mbf tasks s0 k x -> exists k', reached nw mbf tasks s0 k' (steps nw mbf es x).
Proof.
  induction es as [|e es IH]; intros k x R; cbn; [eauto|].
  destruct (pstep nw mbf e x) as [y ex] eqn:E. cbn [fst].
  assert (D : late mbf e x \/ ~ late mbf e x).
  { destruct e as [| | |t wid| |]; cbn [late]; auto. destruct (Z_lt_dec mbf (ps_fc x t wid + 1)) as [L|L]; [|right; tauto].
    destruct (existsb (fun tp => Nat.eqb (fst tp) t && existsb (Nat.eqb wid) (map w_id (snd tp))) (ps_pools x)) eqn:B.
    - right. intros [_ H]. apply existsb_exists in B. destruct B as [[u p] [Hp B]]. cbn in B. apply andb_prop in B.
      destruct B as [B1 B2]. apply Nat.eqb_eq in B1. subst u. apply (H p Hp). apply existsb_exists in B2.
      destruct B2 as [i [Hi B2]]. apply Nat.eqb_eq in B2. subst; auto.
    - left. split; auto. intros p Hp I. assert (X : existsb (fun tp => Nat.eqb (fst tp) t && existsb (Nat.eqb wid) (map w_id (snd tp))) (ps_pools x) = true); [|congruence].
      apply existsb_exists. exists (t, p). split; auto. cbn. rewrite Nat.eqb_refl. cbn. apply existsb_exists. exists wid.
      split; auto. apply Nat.eqb_refl. }
  destruct D as [D|D]; [apply (IH (k + 1))|apply (IH k)]; [eapply re_late|eapply re_step]; eauto.
Qed.
Definition sys0 : sys := Sys (fun _ => None) 0.
Lemma sys0_clean : clean_start sys0.
Proof. split; cbn; auto. discriminate. Qed.
Theorem C45_one_too_many_refuted : exists k x p,
  reached (fun _ => 1) 3 [7%nat] sys0 k x /\ In (7%nat, p) (ps_pools x) /\ length p = 2%nat /\
  tbl (ps_sys x) 1 = Some (7%nat, Running) /\ tbl (ps_sys x) 2 = Some (7%nat, Running).
Proof.
  set (es := [PRecruit [7%nat]; PFailure 7 0; PFailure 7 0; PFailure 7 0; PExit 0 1; PHealth; PFailure 7 0]).
  destruct (steps_reached (fun _ => 1) 3 [7%nat] sys0 es 0 _ (re_init _ _ _ _)) as [k R].
  exists k, (steps (fun _ => 1) 3 es (pools_init [7%nat] sys0)), [Worker 1 true; Worker 2 true]. split; auto.
  vm_compute. auto.
Qed.
(* a worker that fails too often is replaced: still one worker, a new one *)
Example restart_example :
  ps_pools (steps (fun _ => 2) 3 [PRecruit [7%nat]; PFailure 7 0; PFailure 7 0; PFailure 7 0; PFailure 7 0] (pools_init [7%nat; 8%nat] sys0))
  = [(7%nat, [Worker 1 true; Worker 2 true]); (8%nat, [])].
Proof. vm_compute. reflexivity. Qed.
(* of three workers one exits normally, one crashes: the crashed one is replaced *)
Example health_example :
  let x := steps (fun _ => 3) 3 [PRecruit [7%nat]; PExit 0 0; PExit 1 (-9); PHealth] (pools_init [7%nat] sys0) in
  ps_pools x = [(7%nat, [Worker 0 false; Worker 2 true; Worker 3 true])] /\
  ps_pools (fst (pstep (fun _ => 1) 3 (PRecruit [7%nat]) x)) = [(7%nat, [Worker 0 false])].
Proof. vm_compute. auto. Qed.
Print Assumptions C45_one_too_many_refuted.
