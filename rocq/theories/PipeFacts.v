(* What DependencyGraph.__init__ and Scheduler.__init__ build for a proper pipeline. *)
From Coq Require Import Arith Lia Permutation.
From Verif Require Import VecFacts.
From Verif Require Export PipeSpec GraphProps.
Open Scope Z_scope.

(* induction over the task tree *)
Section TaskInd.
  Variable P : task -> Prop.
  Hypothesis step : forall t, (forall u, In u (t_ups t) -> P u) -> P t.
  Fixpoint task_ind' (t : task) : P t :=
    step t (match t as t return forall u, In u (t_ups t) -> P u with
            | Task _ _ _ _ _ _ _ _ us =>
                (fix all (l : list task) : forall u, In u l -> P u :=
                   match l with
                   | [] => fun u H => match H with end
                   | x :: r => fun u H => match H with
                                          | or_introl E => eq_ind x P (task_ind' x) u E
                                          | or_intror H' => all r u H'
                                          end
                   end) us
            end).
End TaskInd.

Fixpoint tsize (t : task) : nat :=
  S ((fix sum (l : list task) := match l with [] => O | u :: r => (tsize u + sum r)%nat end) (t_ups t)).
Lemma tsize_up t u : In u (t_ups t) -> (tsize u < tsize t)%nat.
Proof.
  destruct t as [a b c d e f w r us]. cbn [t_ups tsize]. induction us as [|x us IH]; [intros []|].
  intros [->|H]; [lia|]. specialize (IH H). lia.
Qed.
Lemma requires_size t x : requires t x -> t = x \/ (tsize x < tsize t)%nat.
Proof.
  induction 1 as [t|t u x Hu H IH]; auto. right. apply tsize_up in Hu. destruct IH; [subst|]; lia.
Qed.
Lemma requires_trans a b c : requires a b -> requires b c -> requires a c.
Proof. induction 1; auto. intros H'. eapply req_up; eauto. Qed.
Lemma requires_inv t x : requires t x -> t = x \/ exists u, In u (t_ups t) /\ requires u x.
Proof. inversion 1; subst; eauto. Qed.

Lemma nat_eqb_ok : eqb_on Nat.eqb (fun _ => True).
Proof. intros a b _ _. apply Nat.eqb_eq. Qed.
Lemma mem_nat i l : mem Nat.eqb i l = true <-> In i l.
Proof. apply (mem_in Nat.eqb (fun _ => True) nat_eqb_ok); auto. Qed.
Lemma sadd_nat i l j : In j (sadd Nat.eqb i l) <-> j = i \/ In j l.
Proof. apply (in_sadd Nat.eqb (fun _ => True) nat_eqb_ok); auto. Qed.
Lemma NoDup_sadd_nat i l : NoDup l -> NoDup (sadd Nat.eqb i l).
Proof. apply (NoDup_sadd Nat.eqb (fun _ => True) nat_eqb_ok); auto. Qed.

Definition add_edge (t : task) (u : task) (d2 : dgraph) : dgraph :=
  DGraph (d_ids d2) (d_task d2)
         (upd (d_ups d2) (t_id t) (sadd Nat.eqb (t_id u) (d_ups d2 (t_id t))))
         (upd (d_downs d2) (t_id u) (sadd Nat.eqb (t_id t) (d_downs d2 (t_id u))))
         (d_graph d2).
Fixpoint add_loop (t : task) (us : list task) (d : dgraph) : dgraph :=
  match us with [] => d | u :: r => add_loop t r (add_edge t u (add_task u d)) end.
Definition add_node (t : task) (d : dgraph) : dgraph :=
  DGraph (d_ids d ++ [t_id t]) (upd (d_task d) (t_id t) (Some t))
         (upd (d_ups d) (t_id t) []) (upd (d_downs d) (t_id t) []) (d_graph d).
Lemma add_task_eq t d : add_task t d =
  if mem Nat.eqb (t_id t) (d_ids d) then d else add_loop t (t_ups t) (add_node t d).
Proof.
  destruct t as [i a b c e f w r us]. cbn [add_task t_id t_ups]. destruct (mem Nat.eqb i (d_ids d)); auto.
  set (t := Task i a b c e f w r us). change us with (t_ups t) at 1.
  assert (G : forall l d0, add_loop t l d0 = (fix loop (us0 : list task) (d1 : dgraph) {struct us0} : dgraph :=
    match us0 with
    | [] => d1
    | u :: r0 => loop r0 (add_edge t u (add_task u d1)) end) l d0).
  { induction l; intros; cbn; auto. }
  rewrite G. reflexivity.
Qed.

Section Add.
  Variable P : task -> Prop.
  Hypothesis P_ids : forall x y, P x -> P y -> t_id x = t_id y -> x = y.

  Record wfd (d : dgraph) : Prop := {
    w_nodup : NoDup (d_ids d);
    w_task : forall i, In i (d_ids d) -> exists x, P x /\ t_id x = i /\ d_task d i = Some x;
    w_no : forall i, ~ In i (d_ids d) -> d_downs d i = []
  }.
  (* [N x]: x is among the tasks added; [T], [us]: the edges of T to us are added as well *)
  Record ext (N : task -> Prop) (T : nat -> nat -> Prop) (d d' : dgraph) : Prop := {
    e_wfd : wfd d';
    e_ids : forall i, In i (d_ids d') <-> In i (d_ids d) \/ exists x, N x /\ t_id x = i;
    e_ups_old : forall i, In i (d_ids d) -> (forall j, In j (d_ups d' i) <-> In j (d_ups d i) \/ T i j) /\
                                            (NoDup (d_ups d i) -> NoDup (d_ups d' i));
    e_ups_new : forall x, N x -> ~ In (t_id x) (d_ids d) -> NoDup (d_ups d' (t_id x)) /\
                  forall j, In j (d_ups d' (t_id x)) <-> exists u, In u (t_ups x) /\ t_id u = j;
    e_downs : forall i j, In j (d_downs d' i) <-> In j (d_downs d i) \/ T j i \/
                 exists x u, N x /\ ~ In (t_id x) (d_ids d) /\ t_id x = j /\ In u (t_ups x) /\ t_id u = i;
    e_downs_nd : (forall i, NoDup (d_downs d i)) -> forall i, NoDup (d_downs d' i);
    e_task : forall i, In i (d_ids d) -> d_task d' i = d_task d i;
    e_graph : d_graph d' = d_graph d
  }.
  Definition closed (M : task -> Prop) (d : dgraph) : Prop :=
    forall y z, M y -> In (t_id y) (d_ids d) -> requires y z -> In (t_id z) (d_ids d).

  Definition none (i j : nat) : Prop := False.
  Lemma ext_refl (N : task -> Prop) d : wfd d -> (forall x, N x -> In (t_id x) (d_ids d)) -> ext N none d d.
  Proof.
    intros W H. constructor; auto.
    - intros i. split; auto. intros [?|[x [Nx <-]]]; auto.
    - intros i _. split; auto. intros j. unfold none. tauto.
    - intros x Nx Hn. exfalso. auto.
    - intros i j. unfold none. split; [auto|]. intros [?|[[]|[x [u [Nx [Hn _]]]]]]; auto. exfalso; auto.
  Qed.

  Lemma ext_trans N1 T1 N2 T2 d1 d2 d3 : ext N1 T1 d1 d2 -> ext N2 T2 d2 d3 ->
    (forall x y, N1 x -> N2 y -> t_id x = t_id y -> x = y) ->
    (forall i j, T2 i j -> In i (d_ids d1)) ->
    ext (fun x => N1 x \/ N2 x) (fun i j => T1 i j \/ T2 i j) d1 d3.
  Proof.
    intros [A1 A2 A3 A4 A5 A6 A7 A8] [B1 B2 B3 B4 B5 B6 B7 B8] X12 X2.
    constructor; auto.
    - intros i. rewrite B2, A2. split.
      + intros [[?|[x [? ?]]]|[x [? ?]]]; eauto.
      + intros [?|[x [[?|?] ?]]]; eauto.
    - intros i Hi. destruct (A3 i Hi) as [K1 K2]. destruct (B3 i) as [L1 L2]; [apply A2; auto|].
      split; auto. intros j. rewrite L1, K1. tauto.
    - intros x Nx Hn. destruct Nx as [Nx|Nx].
      + destruct (A4 x Nx Hn) as [K1 K2]. destruct (B3 (t_id x)) as [L1 L2]; [apply A2; eauto|].
        split; auto. intros j. rewrite L1, K2. split; auto. intros [?|Tj]; auto. exfalso. eauto.
      + destruct (in_dec Nat.eq_dec (t_id x) (d_ids d2)) as [Hi|Hi].
        * apply A2 in Hi. destruct Hi as [?|[y [Ny E]]]; [tauto|].
          assert (y = x) by (apply X12; auto). subst y.
          destruct (A4 x Ny Hn) as [K1 K2]. destruct (B3 (t_id x)) as [L1 L2]; [apply A2; eauto|].
          split; auto. intros j. rewrite L1, K2. split; auto. intros [?|Tj]; auto. exfalso. eauto.
        * apply B4; auto.
    - intros i j. rewrite B5, A5. split.
      + intros [[?|[?|[x [u [Nx [Hn [E1 [Hu E2]]]]]]]]|[?|[x [u [Nx [Hn [E1 [Hu E2]]]]]]]]; auto.
        * right. right. exists x, u. auto 10.
        * right. right. exists x, u. split; auto. split; auto. intros Hi. apply Hn, A2. auto.
      + intros [?|[[?|?]|[x [u [[Nx|Nx] [Hn [E1 [Hu E2]]]]]]]]; auto.
        * left. right. right. exists x, u. auto 10.
        * destruct (in_dec Nat.eq_dec (t_id x) (d_ids d2)) as [Hi|Hi].
          -- apply A2 in Hi. destruct Hi as [?|[y [Ny E]]]; [tauto|].
             assert (y = x) by (apply X12; auto). subst y.
             left. right. right. exists x, u. auto 10.
          -- right. right. exists x, u. auto 10.
    - intros i Hi. rewrite B7, A7; auto. apply A2; auto.
    - congruence.
  Qed.

  Lemma ext_iff N N' (T T' : nat -> nat -> Prop) d d' : (forall x, N x <-> N' x) -> (forall i j, T i j <-> T' i j) ->
    ext N T d d' -> ext N' T' d d'.
  Proof.
    intros EN ET [A1 A2 A3 A4 A5 A6 A7 A8]. constructor; auto.
    - intros i. rewrite A2. split; (intros [?|[x [? ?]]]; [auto|right; exists x; split; [apply EN|]; auto]).
    - intros i Hi. destruct (A3 i Hi) as [K1 K2]. split; auto. intros j. rewrite K1, ET. tauto.
    - intros x Nx. apply A4, EN, Nx.
    - intros i j. rewrite A5, ET. split; (intros [?|[?|[x [u [Nx H]]]]]; [auto|auto|]);
        right; right; exists x, u; (split; [apply EN|]; auto).
  Qed.

  Lemma add_edge_ext t u d : wfd d -> In (t_id t) (d_ids d) -> In (t_id u) (d_ids d) ->
    ext (fun _ => False) (fun i j => i = t_id t /\ j = t_id u) d (add_edge t u d).
  Proof.
    intros [W1 W2 W3] Ht Hu. constructor.
    - constructor; auto. intros i Hi. cbn. unfold upd. destruct (Nat.eqb_spec (t_id u) i); [subst; tauto|auto].
    - intros i. cbn. split; auto. intros [?|[x [[] _]]]; auto.
    - intros i Hi. cbn. unfold upd. destruct (Nat.eqb_spec (t_id t) i) as [<-|Ne].
      + split; [|apply NoDup_sadd_nat]. intros j. rewrite sadd_nat. intuition.
      + split; auto. intros j. split; auto. intros [?|[? _]]; [auto|congruence].
    - intros x [].
    - intros i j. cbn. unfold upd. destruct (Nat.eqb_spec (t_id u) i) as [<-|Ne].
      + rewrite sadd_nat. split.
        * intros [->|?]; auto.
        * intros [?|[[? _]|[x [u0 [[] _]]]]]; auto.
      + split; auto. intros [?|[[? ?]|[x [u0 [[] _]]]]]; auto. congruence.
    - intros H i. cbn. unfold upd. destruct (Nat.eqb_spec (t_id u) i) as [<-|Ne]; auto using NoDup_sadd_nat.
    - auto.
    - auto.
  Qed.

  Lemma add_node_wfd t d : P t -> wfd d -> ~ In (t_id t) (d_ids d) -> wfd (add_node t d).
  Proof.
    intros Pt [W1 W2 W3] Hn. constructor; cbn.
    - apply NoDup_app'; auto. constructor; auto; constructor. intros z Hz [<-|[]]; auto.
    - intros i Hi. apply in_app_iff in Hi. unfold upd. destruct (Nat.eqb_spec (t_id t) i) as [<-|Ne].
      + exists t. auto.
      + destruct Hi as [Hi|[Hi|[]]]; [auto|tauto].
    - intros i Hi. unfold upd. destruct (Nat.eqb_spec (t_id t) i) as [<-|Ne]; auto.
      apply W3. intros H. apply Hi, in_app_iff. auto.
  Qed.

  Lemma add_task_ext t : (forall x, requires t x -> P x) ->
    forall d, wfd d -> closed (requires t) d -> ext (requires t) none d (add_task t d).
  Proof.
    induction t as [t IH] using task_ind'. intros HP d W C. rewrite add_task_eq.
    destruct (mem Nat.eqb (t_id t) (d_ids d)) eqn:E.
    { apply mem_nat in E. apply ext_refl; auto. intros x Hx. apply (C t x); auto. constructor. }
    assert (Hn : ~ In (t_id t) (d_ids d)) by (rewrite <- mem_nat; congruence). clear E.
    assert (Pt : P t) by (apply HP; constructor).
    pose proof (add_node_wfd t d Pt W Hn) as W1.
    (* the loop *)
    assert (L : forall us d0, (forall u, In u us -> In u (t_ups t)) -> wfd d0 -> In (t_id t) (d_ids d0) ->
       closed (fun x => exists u, In u us /\ requires u x) d0 ->
       ext (fun x => exists u, In u us /\ requires u x)
           (fun i j => i = t_id t /\ exists u, In u us /\ t_id u = j) d0 (add_loop t us d0)).
    { induction us as [|u us IHus]; intros d0 Hus W0 H0 C0.
      - cbn. apply (ext_iff (fun _ => False) _ none).
        + intros x. split; [intros []|intros [u [[] _]]].
        + unfold none. intros i j. split; [intros []|intros [_ [u [[] _]]]].
        + apply ext_refl; auto. intros x [].
      - cbn [add_loop].
        assert (Hu : In u (t_ups t)) by (apply Hus; left; auto).
        assert (X1 : ext (requires u) none d0 (add_task u d0)).
        { apply IH; auto.
          - intros x Hx. apply HP. eapply req_up; eauto.
          - intros y z Hy. apply C0. exists u. split; [left|]; auto. }
        assert (X2 : ext (fun _ => False) (fun i j => i = t_id t /\ j = t_id u) (add_task u d0) (add_edge t u (add_task u d0))).
        { apply add_edge_ext.
          - apply X1.
          - apply (e_ids _ _ _ _ X1). auto.
          - apply (e_ids _ _ _ _ X1). right. exists u. split; auto. constructor. }
        pose proof (ext_trans _ _ _ _ _ _ _ X1 X2) as X12.
        assert (X12' := X12 ltac:(intros ? ? ? []) ltac:(intros i j [-> _]; auto)). clear X12.
        set (d2 := add_edge t u (add_task u d0)) in *.
        assert (X3 : ext (fun x => exists u, In u us /\ requires u x)
                         (fun i j => i = t_id t /\ exists u, In u us /\ t_id u = j) d2 (add_loop t us d2)).
        { apply IHus.
          - intros v Hv. apply Hus. right; auto.
          - apply X12'.
          - apply (e_ids _ _ _ _ X12'). auto.
          - intros y z [v [Hv Hy]] Hi Hz. apply (e_ids _ _ _ _ X12') in Hi. apply (e_ids _ _ _ _ X12').
            destruct Hi as [Hi|[x [[Hx|[]] Ex]]].
            + left. apply (C0 y z); auto. exists v. split; [right|]; auto.
            + right. assert (x = y).
              { apply P_ids; auto; apply HP; [eapply req_up|eapply (req_up t v)]; eauto. apply Hus. right; auto. }
              subst x. exists z. split; auto. left. eapply requires_trans; eauto. }
        pose proof (ext_trans _ _ _ _ _ _ _ X12' X3) as X.
        assert (X' := X ltac:(intros x y [Hx|[]] [v [Hv Hy]] Exy; apply P_ids; auto; apply HP;
           [eapply req_up|eapply (req_up t v)]; eauto; apply Hus; right; auto)
           ltac:(intros i j [-> _]; auto)). clear X.
        revert X'. apply ext_iff.
        + intros x. split.
          * intros [[Hx|[]]|[v [Hv Hx]]]; [exists u|exists v]; cbn; auto.
          * intros [v [[<-|Hv] Hx]]; auto. right. eauto.
        + unfold none. intros i j. split.
          * intros [[[]|[-> ->]]|[-> [v [Hv <-]]]]; (split; [auto|]); [exists u|exists v]; cbn; auto.
          * intros [-> [v [[<-|Hv] <-]]]; auto. right. eauto. }
    assert (Nt : forall u y, In u (t_ups t) -> requires u y -> t_id y <> t_id t).
    { intros u y Hu Hy Ey. assert (y = t) by (apply P_ids; auto; apply HP; eapply req_up; eauto). subst y.
      pose proof (tsize_up t u Hu). destruct (requires_size u t Hy) as [->|?]; lia. }
    assert (Ci : forall i, In i (d_ids (add_node t d)) <-> In i (d_ids d) \/ i = t_id t).
    { intros i. cbn. rewrite in_app_iff. cbn. intuition. }
    specialize (L (t_ups t) (add_node t d) (fun u H => H) W1 ltac:(apply Ci; auto)).
    assert (C1 : closed (fun x => exists u, In u (t_ups t) /\ requires u x) (add_node t d)).
    { intros y z [u [Hu Hy]] Hi Hz. apply Ci in Hi. apply Ci. destruct Hi as [Hi|Hi].
      - left. apply (C y z); auto. eapply req_up; eauto.
      - exfalso. eapply Nt; eauto. }
    specialize (L C1). destruct L as [A1 A2 A3 A4 A5 A6 A7 A8].
    constructor; auto.
    - intros i. rewrite A2, Ci. split.
      + intros [[?| ->]|[x [[u [Hu Hx]] <-]]]; auto.
        * right. exists t. split; auto. constructor.
        * right. exists x. split; auto. eapply req_up; eauto.
      + intros [?|[x [Hx <-]]]; auto. apply requires_inv in Hx. destruct Hx as [<-|[u [Hu Hx]]]; eauto 10.
    - intros i Hi. assert (Ne : i <> t_id t) by (intros ->; auto).
      destruct (A3 i) as [K1 K2]; [apply Ci; auto|]. cbn in K1, K2. rewrite upd_other in K1, K2 by auto.
      split; auto. intros j. rewrite K1. unfold none. intuition.
    - intros x Hx Hi. apply requires_inv in Hx. destruct Hx as [<-|[u [Hu Hx]]].
      + destruct (A3 (t_id t)) as [K1 K2]; [apply Ci; auto|]. cbn in K1, K2. rewrite upd_same in K1, K2.
        split; [apply K2; constructor|]. intros j. rewrite K1. cbn. intuition.
      + apply A4; [eauto|]. rewrite Ci. intros [?|E]; [auto|]. eapply Nt; eauto.
    - intros i j. rewrite A5. cbn. unfold upd, none.
      assert (Q : In j (if (t_id t =? i)%nat then [] else d_downs d i) <-> In j (d_downs d i)).
      { destruct (Nat.eqb_spec (t_id t) i) as [<-|Ne]; [|tauto]. rewrite (w_no _ W _ Hn). tauto. }
      rewrite Q. split.
      + intros [?|[[-> [u [Hu <-]]]|[x [u [[v [Hv Hx]] [Hi [E1 [Hu E2]]]]]]]]; auto.
        * right. right. exists t, u. split; [constructor|]. auto.
        * right. right. exists x, u. split; [eapply req_up; eauto|]. split; auto. intros H. apply Hi, in_app_iff. auto.
      + intros [?|[[]|[x [u [Hx [Hi [E1 [Hu E2]]]]]]]]; auto.
        apply requires_inv in Hx. destruct Hx as [<-|[v [Hv Hx]]].
        * right. left. split; auto. eauto.
        * right. right. exists x, u. split; [eauto|]. split; auto. rewrite in_app_iff. intros [?|[E|[]]]; auto.
          eapply Nt; eauto.
    - intros H i. apply A6. intros k. cbn. unfold upd. destruct (_ =? _)%nat; auto. constructor.
    - intros i Hi. rewrite A7 by (apply Ci; auto). cbn. apply upd_other. intros ->. auto.
  Qed.

  Lemma add_tasks_ext ts : (forall x, in_pipe ts x -> P x) ->
    forall d, wfd d -> closed P d -> ext (in_pipe ts) none d (fold_left (fun d t => add_task t d) ts d).
  Proof.
    induction ts as [|t ts IH]; intros HP d W C.
    - cbn. apply ext_refl; auto. intros x [t [[] _]].
    - cbn [fold_left].
      assert (Ht : forall x, requires t x -> P x).
      { intros x Hx. apply HP. exists t. cbn. auto. }
      assert (X1 : ext (requires t) none d (add_task t d)).
      { apply add_task_ext; auto. intros y z Hy. apply C. auto. }
      assert (X2 : ext (in_pipe ts) none (add_task t d) (fold_left (fun d t => add_task t d) ts (add_task t d))).
      { apply IH.
        - intros x [v [Hv Hx]]. apply HP. exists v. cbn. auto.
        - apply X1.
        - intros y z Py Hi Hz. apply (e_ids _ _ _ _ X1) in Hi. apply (e_ids _ _ _ _ X1).
          destruct Hi as [Hi|[x [Hx Ex]]]; [left; eapply C; eauto|].
          assert (x = y) by (apply P_ids; auto). subst x. right. exists z. split; auto. eapply requires_trans; eauto. }
      pose proof (ext_trans _ _ _ _ _ _ _ X1 X2) as X.
      assert (X' := X ltac:(intros x y Hx [v [Hv Hy]] Exy; apply P_ids; auto; apply HP; exists v; cbn; auto)
        ltac:(intros i j [])).
      revert X'. apply ext_iff; [|unfold none; tauto]. intros x. split.
      + intros [Hx|[v [Hv Hx]]]; [exists t|exists v]; cbn; auto.
      + intros [v [[<-|Hv] Hx]]; auto. right. exists v. auto.
  Qed.
End Add.

(* the dependency graph of a pipeline *)
Record dg_ok (tasks : list task) (d : dgraph) : Prop := {
  dk_nodup : NoDup (d_ids d);
  dk_ids : forall i, In i (d_ids d) <-> exists x, in_pipe tasks x /\ t_id x = i;
  dk_task : forall x, in_pipe tasks x -> d_task d (t_id x) = Some x;
  dk_ups : forall x, in_pipe tasks x -> NoDup (d_ups d (t_id x)) /\
             forall j, In j (d_ups d (t_id x)) <-> exists u, In u (t_ups x) /\ t_id u = j;
  dk_downs : forall i, NoDup (d_downs d i) /\
             forall j, In j (d_downs d i) <->
               exists x u, in_pipe tasks x /\ t_id x = j /\ In u (t_ups x) /\ t_id u = i;
  dk_graph : forall x, in_pipe tasks x -> exists g, d_graph d (t_id x) = Some g /\ task_graph x = Ok g;
  dk_out : forall i, ~ In i (d_ids d) -> d_graph d i = None
}.

Lemma pipe_up tasks x u : in_pipe tasks x -> In u (t_ups x) -> in_pipe tasks u.
Proof.
  intros [t [Ht Hx]] Hu. exists t. split; auto. eapply requires_trans; eauto. eapply req_up; eauto. constructor.
Qed.
Lemma pipe_req tasks x y : in_pipe tasks x -> requires x y -> in_pipe tasks y.
Proof. intros [t [Ht Hx]] Hy. exists t. split; auto. eapply requires_trans; eauto. Qed.

Lemma add_graphs_ok (ids : list nat) : forall d,
  (forall i, In i ids -> exists x, d_task d i = Some x /\ exists g, task_graph x = Ok g) -> NoDup ids ->
  exists d', add_graphs ids d = Ok d' /\ d_ids d' = d_ids d /\ d_task d' = d_task d /\
    d_ups d' = d_ups d /\ d_downs d' = d_downs d /\
    (forall i, ~ In i ids -> d_graph d' i = d_graph d i) /\
    (forall i x, In i ids -> d_task d i = Some x -> exists g, d_graph d' i = Some g /\ task_graph x = Ok g).
Proof.
  unfold add_graphs. induction ids as [|i ids IH]; intros d H ND.
  - exists d. cbn. repeat (split; [auto; tauto|]). intros i x [].
  - cbn [foldM]. destruct (H i (or_introl eq_refl)) as [x [Ex [g Eg]]]. rewrite Ex, Eg. cbn [bind].
    inversion ND; subst.
    destruct (IH (DGraph (d_ids d) (d_task d) (d_ups d) (d_downs d) (upd (d_graph d) i (Some g))))
      as [d' [E [K1 [K2 [K3 [K4 [K5 K6]]]]]]]; auto.
    { intros j Hj. cbn. apply H. right; auto. }
    cbn in K1, K2, K3, K4, K5, K6. exists d'. repeat (split; [auto; tauto|]). split.
    + intros j Hj. rewrite K5 by (intros ?; apply Hj; right; auto). apply upd_other. intros ->. apply Hj. left; auto.
    + intros j y [<-|Hj] Ey; [|apply K6; auto]. rewrite Ex in Ey. injection Ey as <-.
      exists g. split; auto. rewrite K5 by auto. apply upd_same.
Qed.

Lemma dgraph_ok tasks : pipe_ok tasks -> exists d, dgraph_init tasks = Ok d /\ dg_ok tasks d.
Proof.
  intros PO. unfold dgraph_init.
  assert (W : wfd (in_pipe tasks) dgraph_empty).
  { constructor; cbn; auto; [constructor|intros i []]. }
  assert (C : closed (in_pipe tasks) dgraph_empty) by (intros y z _ []).
  pose proof (add_tasks_ext (in_pipe tasks) (po_ids tasks PO) tasks (fun x H => H) dgraph_empty W C) as X.
  set (d0 := fold_left (fun d t => add_task t d) tasks dgraph_empty) in *.
  destruct X as [A1 A2 A3 A4 A5 A6 A7 A8].
  assert (I : forall i, In i (d_ids d0) <-> exists x, in_pipe tasks x /\ t_id x = i).
  { intros i. rewrite A2. cbn. intuition. }
  assert (T : forall x, in_pipe tasks x -> d_task d0 (t_id x) = Some x).
  { intros x Hx. destruct (w_task _ _ A1 (t_id x)) as [y [Py [E Ey]]]; [apply I; eauto|].
    rewrite Ey. f_equal. apply (po_ids tasks PO); auto. }
  destruct (add_graphs_ok (d_ids d0) d0) as [d' [E [K1 [K2 [K3 [K4 [K5 K6]]]]]]].
  - intros i Hi. apply I in Hi. destruct Hi as [x [Hx <-]]. exists x. split; auto.
    destruct (geom_graph _ x (po_geom tasks PO x Hx)) as [g [Eg _]]. eauto.
  - apply A1.
  - exists d'. split; auto. constructor.
    + rewrite K1. apply A1.
    + rewrite K1. auto.
    + rewrite K2. auto.
    + intros x Hx. rewrite K3. apply A4; auto.
    + intros i. rewrite K4. split; [apply A6; intros; constructor|]. intros j. rewrite A5. cbn. unfold none. split.
      * intros [[]|[[]|[x [u [Nx [_ H]]]]]]. exists x, u. tauto.
      * intros [x [u [Nx H]]]. right. right. exists x, u. intuition.
    + intros x Hx. apply K6; auto. apply I. eauto.
    + rewrite K1. intros i Hi. rewrite K5 by auto. rewrite A8. auto.
Qed.

(* what Scheduler.__init__ builds on top of it *)
Definition root_seeds (d : dgraph) (i : nat) : list block :=
  if mem Nat.eqb i (root_tasks d) then or_nil (g <- get_graph d i ;; root_gen g) else [].

(* every task with read-write conflicts that requires nothing has room for a block (C26) *)
Definition has_room (tasks : list task) : Prop :=
  forall t g, in_pipe tasks t -> t_ups t = [] -> t_rwc t = true -> task_graph t = Ok g ->
  exists b, generated g b.

Section Init.
  Variable tasks : list task.
  Hypothesis PO : pipe_ok tasks.
  Hypothesis RM : has_room tasks.
  Variable d : dgraph.
  Hypothesis DK : dg_ok tasks d.

  Lemma root_iff i : In i (root_tasks d) <-> exists t, in_pipe tasks t /\ t_id t = i /\ t_ups t = [].
  Proof.
    unfold root_tasks. rewrite filter_In, (dk_ids _ _ DK). split.
    - intros [[x [Hx <-]] E]. exists x. split; auto. split; auto.
      destruct (dk_ups _ _ DK x Hx) as [_ H]. destruct (d_ups d (t_id x)) as [|j l]; [|discriminate].
      destruct (t_ups x) as [|u us]; auto. destruct (proj2 (H (t_id u))). exists u. cbn. auto.
    - intros [t [Ht [<- E]]]. split; [eauto|].
      destruct (dk_ups _ _ DK t Ht) as [_ H]. destruct (d_ups d (t_id t)) as [|j l]; auto.
      destruct (proj1 (H j) (or_introl eq_refl)) as [u [Hu _]]. rewrite E in Hu. destruct Hu.
  Qed.
  Lemma root_nodup : NoDup (root_tasks d).
  Proof. apply NoDup_filter. apply (dk_nodup _ _ DK). Qed.

  Lemma root_graph i : In i (root_tasks d) -> exists g, d_graph d i = Some g /\
    root_gen g = Ok (root_seeds d i) /\ num_roots g = Ok (Z.of_nat (length (root_seeds d i))) /\
    level_blocks g 0 = Ok (root_seeds d i).
  Proof.
    intros Hi. apply root_iff in Hi as Hi'. destruct Hi' as [t [Ht [<- Eu]]].
    destruct (dk_graph _ _ DK t Ht) as [g [Eg Egt]]. exists g. split; auto.
    destruct (c03 _ t g (graph_built _ t g (po_geom _ PO t Ht) Egt)) as [bss [_ [_ [_ [_ H]]]]].
    destruct H as [rs [E1 [E2 E3]]].
    { destruct (t_rwc t) eqn:R; auto. right. apply (RM t g); auto. }
    unfold root_seeds. apply mem_nat in Hi. rewrite Hi. unfold get_graph. rewrite Eg. cbn [bind].
    rewrite E1. cbn [or_nil]. auto.
  Qed.
  Lemma no_root i : ~ In i (root_tasks d) -> root_seeds d i = [].
  Proof. intros H. unfold root_seeds. destruct (mem _ _ _) eqn:E; auto. apply mem_nat in E. tauto. Qed.

  Definition after_roots (s : sched) (done : nat -> Prop) : Prop :=
    s_surf s = surf_init /\
    forall i, (done i -> s_q s i = pqueue_init (Z.of_nat (length (root_seeds d i))) (root_seeds d i) /\
                         s_st s i = ts_add_ready (Z.of_nat (length (root_seeds d i))) tstate_init) /\
              (~ done i -> s_q s i = pqueue_init 0 [] /\ s_st s i = tstate_init).
  Lemma init_roots_ok s0 : after_roots s0 (fun _ => False) ->
    exists s, init_roots d s0 = Ok s /\ after_roots s (fun _ => True) /\
      (forall i, In i (s_order s) <-> In i (s_order s0) \/ In i (root_tasks d)) /\
      (NoDup (s_order s0) -> NoDup (s_order s)).
  Proof.
    intros A0. unfold init_roots.
    assert (G : forall l s1, NoDup l -> (forall i, In i l -> In i (root_tasks d)) ->
      after_roots s1 (fun i => In i (root_tasks d) /\ ~ In i l) ->
      exists s, foldM (fun s t => g <- get_graph d t ;; n <- num_roots g ;; gen <- root_gen g ;;
           Ok (Sched (s_surf s) (upd (s_q s) t (pqueue_init n gen))
                     (upd (s_st s) t (ts_add_ready n (s_st s t)))
                     (sadd Nat.eqb t (s_order s)))) l s1 = Ok s /\
        after_roots s (fun i => In i (root_tasks d)) /\
        (forall i, In i (s_order s) <-> In i (s_order s1) \/ In i l) /\
        (NoDup (s_order s1) -> NoDup (s_order s))).
    { induction l as [|t l IH]; intros s1 ND Hl A.
      - exists s1. cbn. split; auto. split; [|split; [tauto|auto]].
        destruct A as [A1 A2]. split; auto. intros i. specialize (A2 i). cbn in A2. tauto.
      - destruct (root_graph t) as [g [Eg [E1 [E2 _]]]]; [apply Hl; left; auto|].
        cbn [foldM]. unfold get_graph at 1. rewrite Eg. cbn [bind]. rewrite E2, E1. cbn [bind].
        inversion ND; subst. destruct A as [A1 A2].
        destruct (IH (Sched (s_surf s1) (upd (s_q s1) t (pqueue_init (Z.of_nat (length (root_seeds d t))) (root_seeds d t)))
                     (upd (s_st s1) t (ts_add_ready (Z.of_nat (length (root_seeds d t))) (s_st s1 t)))
                     (sadd Nat.eqb t (s_order s1)))) as [s [Es [As [Os Ns]]]]; auto.
        + intros i Hi. apply Hl. right; auto.
        + split; [exact A1|]. intros i. cbn [s_q s_st]. unfold upd. destruct (Nat.eqb_spec t i) as [<-|Ne].
          * split; [|intros H; exfalso; apply H; split; [apply Hl; left; auto|auto]]. intros _. split; auto.
            destruct (A2 t) as [_ H]. destruct H as [_ ->]; auto. intros [_ H]. apply H. left; auto.
          * destruct (A2 i) as [B1 B2]. split.
            -- intros [Hr Hn]. apply B1. split; auto. intros [?|?]; auto.
            -- intros H. apply B2. intros [Hr Hn]. apply H. split; auto. intros Hi. apply Hn. right; auto.
        + exists s. split; auto. split; auto. split.
          * intros i. rewrite Os. cbn. rewrite sadd_nat. intuition.
          * intros N. apply Ns. cbn. apply NoDup_sadd_nat; auto. }
    destruct (G (root_tasks d) s0 root_nodup (fun i H => H)) as [s [E [A [O N]]]].
    - destruct A0 as [A1 A2]. split; auto. intros i. destruct (A2 i) as [_ B]. split; [tauto|auto].
    - exists s. split; auto. split; auto. destruct A as [A1 A2]. split; auto. intros i. split; [|tauto]. intros _.
      destruct (in_dec Nat.eq_dec i (root_tasks d)) as [Hi|Hi]; [apply A2; auto|].
      rewrite (no_root i Hi). cbn. apply A2; auto.
  Qed.

  (* total counts *)
  Definition nblocks (i : nat) : Z :=
    match d_graph d i with Some g => match num_blocks g with Ok n => n | Err _ => 0 end | None => 0 end.
  Record iext (N : task -> Prop) (a a' : list nat * sched) : Prop := {
    ie_seen : forall i, In i (fst a') <-> In i (fst a) \/ exists x, N x /\ t_id x = i;
    ie_surf : s_surf (snd a') = s_surf (snd a);
    ie_q : s_q (snd a') = s_q (snd a);
    ie_old : forall i, In i (fst a) \/ ~ In i (fst a') -> s_st (snd a') i = s_st (snd a) i;
    ie_new : forall i, In i (fst a') -> ~ In i (fst a) ->
       s_st (snd a') i = ts_set_total (nblocks i) (s_st (snd a) i);
    ie_order : forall i, In i (s_order (snd a')) <-> In i (s_order (snd a)) \/ (In i (fst a') /\ ~ In i (fst a));
    ie_nodup : NoDup (s_order (snd a)) -> NoDup (s_order (snd a'))
  }.
  Lemma iext_refl (N : task -> Prop) a : (forall x, N x -> In (t_id x) (fst a)) -> iext N a a.
  Proof.
    intros H. constructor; auto.
    - intros i. split; auto. intros [?|[x [Nx <-]]]; auto.
    - tauto.
    - intros i. tauto.
  Qed.
  Lemma iext_trans N1 N2 a1 a2 a3 : iext N1 a1 a2 -> iext N2 a2 a3 -> iext (fun x => N1 x \/ N2 x) a1 a3.
  Proof.
    intros [A1 A2 A3 A4 A5 A6 A7] [B1 B2 B3 B4 B5 B6 B7].
    assert (S1 : forall i, In i (fst a1) -> In i (fst a2)) by (intros; apply A1; auto).
    assert (S2 : forall i, In i (fst a2) -> In i (fst a3)) by (intros; apply B1; auto).
    constructor; auto; try congruence.
    - intros i. rewrite B1, A1. split.
      + intros [[?|[x [? ?]]]|[x [? ?]]]; eauto.
      + intros [?|[x [[?|?] ?]]]; eauto.
    - intros i [Hi|Hi]; (rewrite B4, A4; auto).
    - intros i Hi Hn. destruct (in_dec Nat.eq_dec i (fst a2)) as [H2|H2].
      + rewrite B4, A5; auto.
      + rewrite B5, A4; auto.
    - intros i. rewrite B6, A6. destruct (in_dec Nat.eq_dec i (fst a2)); split; intuition.
  Qed.
  Lemma iext_iff (N N' : task -> Prop) a a' : (forall x, N x <-> N' x) -> iext N a a' -> iext N' a a'.
  Proof.
    intros E [A1 A2 A3 A4 A5 A6 A7]. constructor; auto. intros i. rewrite A1.
    split; (intros [?|[x [? ?]]]; [auto|right; exists x; split; [apply E|]; auto]).
  Qed.

  Fixpoint init_loop (us : list task) (acc : list nat * sched) : res (list nat * sched) :=
    match us with [] => Ok acc | u :: r => acc' <- init_task d u acc ;; init_loop r acc' end.
  Lemma init_task_eq t acc : init_task d t acc =
    (let '(seen, s) := acc in
     if mem Nat.eqb (t_id t) seen then Ok acc
     else
       g <- get_graph d (t_id t) ;;
       n <- num_blocks g ;;
       init_loop (t_ups t) (seen ++ [t_id t],
         Sched (s_surf s) (s_q s) (upd (s_st s) (t_id t) (ts_set_total n (s_st s (t_id t))))
               (sadd Nat.eqb (t_id t) (s_order s)))).
  Proof.
    destruct t, acc. reflexivity.
  Qed.

  Definition iclosed (M : task -> Prop) (seen : list nat) : Prop :=
    forall y z, M y -> In (t_id y) seen -> requires y z -> In (t_id z) seen.

  Lemma init_task_ext t : in_pipe tasks t -> forall a, iclosed (requires t) (fst a) ->
    exists a', init_task d t a = Ok a' /\ iext (requires t) a a'.
  Proof.
    induction t as [t IH] using task_ind'. intros Ht [seen s] C. cbn [fst] in C. rewrite init_task_eq.
    destruct (mem Nat.eqb (t_id t) seen) eqn:E.
    { apply mem_nat in E. exists (seen, s). split; auto. apply iext_refl. intros x Hx. cbn.
      apply (C t x); auto. constructor. }
    assert (Hn : ~ In (t_id t) seen) by (rewrite <- mem_nat; congruence). clear E.
    destruct (dk_graph _ _ DK t Ht) as [g [Eg Egt]]. unfold get_graph. rewrite Eg. cbn [bind].
    destruct (c03 _ t g (graph_built _ t g (po_geom _ PO t Ht) Egt)) as [bss [_ [En _]]]. rewrite En. cbn [bind].
    set (n := Z.of_nat (length (concat bss))) in *.
    assert (Nb : nblocks (t_id t) = n) by (unfold nblocks; rewrite Eg, En; auto).
    set (a1 := (seen ++ [t_id t], _)).
    assert (X0 : iext (fun x => x = t) (seen, s) a1).
    { constructor; cbn; auto.
      - intros i. rewrite in_app_iff. cbn. split; [intros [?|[?|[]]]; eauto|intros [?|[x [-> <-]]]; auto].
      - intros i Hi. apply upd_other. intros ->. rewrite in_app_iff in Hi. cbn in Hi. tauto.
      - intros i Hi Hni. rewrite in_app_iff in Hi. destruct Hi as [?|[<-|[]]]; [tauto|]. rewrite upd_same. congruence.
      - intros i. rewrite sadd_nat, in_app_iff. cbn. split.
        + intros [->|?]; auto.
        + intros [?|[[?|[?|[]]] Hni]]; auto; tauto.
      - intros N. apply NoDup_sadd_nat; auto. }
    assert (L : forall us a, (forall u, In u us -> In u (t_ups t)) ->
      iclosed (fun x => exists u, In u us /\ requires u x) (fst a) ->
      exists a', init_loop us a = Ok a' /\ iext (fun x => exists u, In u us /\ requires u x) a a').
    { induction us as [|u us IHus]; intros a Hus Ca.
      - exists a. split; auto. apply iext_refl. intros x [u [[] _]].
      - cbn [init_loop]. assert (Hu : In u (t_ups t)) by (apply Hus; left; auto).
        assert (Pu : in_pipe tasks u) by (eapply pipe_up; eauto).
        destruct (IH u Hu Pu a) as [a2 [E2 X2]].
        { intros y z Hy. apply Ca. exists u. cbn. auto. }
        rewrite E2. cbn [bind]. destruct (IHus a2) as [a3 [E3 X3]].
        { intros v Hv. apply Hus. right; auto. }
        { intros y z [v [Hv Hy]] Hi Hz. apply (ie_seen _ _ _ X2) in Hi. apply (ie_seen _ _ _ X2).
          destruct Hi as [Hi|[x [Hx Ex]]].
          - left. apply (Ca y z); auto. exists v. cbn. auto.
          - right. assert (x = y).
            { apply (po_ids _ PO); auto; [eapply pipe_req; eauto|].
              apply (pipe_req _ v); auto. apply (pipe_up _ t); auto. apply Hus. right; auto. }
            subst x. exists z. split; auto. eapply requires_trans; eauto. }
        exists a3. split; auto. pose proof (iext_trans _ _ _ _ _ X2 X3) as X. revert X. apply iext_iff.
        intros x. split.
        + intros [Hx|[v [Hv Hx]]]; [exists u|exists v]; cbn; auto.
        + intros [v [[<-|Hv] Hx]]; auto. right. eauto. }
    destruct (L (t_ups t) a1 (fun u H => H)) as [a2 [E2 X2]].
    { intros y z [u [Hu Hy]] Hi Hz. cbn in *. rewrite in_app_iff in *. destruct Hi as [Hi|[Ey|[]]].
      - left. apply (C y z); auto. eapply req_up; eauto.
      - exfalso. assert (y = t).
        { apply (po_ids _ PO); auto. eapply pipe_req; [|eauto]. eapply pipe_up; eauto. }
        subst y. pose proof (tsize_up t u Hu). destruct (requires_size u t Hy) as [->|?]; lia. }
    exists a2. split; auto. pose proof (iext_trans _ _ _ _ _ X0 X2) as X. revert X. apply iext_iff.
    intros x. split.
    - intros [->|[u [Hu Hx]]]; [constructor|]. eapply req_up; eauto.
    - intros Hx. apply requires_inv in Hx. destruct Hx as [<-|?]; auto.
  Qed.

  Lemma init_tasks_ext ts : (forall t, In t ts -> In t tasks) -> forall a, iclosed (in_pipe tasks) (fst a) ->
    exists a', foldM (fun acc t => init_task d t acc) ts a = Ok a' /\ iext (in_pipe ts) a a'.
  Proof.
    induction ts as [|t ts IH]; intros Hts a C.
    - exists a. split; auto. apply iext_refl. intros x [t [[] _]].
    - cbn [foldM]. assert (Ht : in_pipe tasks t) by (exists t; split; [apply Hts; left; auto|constructor]).
      destruct (init_task_ext t Ht a) as [a2 [E2 X2]].
      { intros y z Hy. apply C. eapply pipe_req; eauto. }
      rewrite E2. cbn [bind]. destruct (IH (fun v Hv => Hts v (or_intror Hv)) a2) as [a3 [E3 X3]].
      { intros y z Hy Hi Hz. apply (ie_seen _ _ _ X2) in Hi. apply (ie_seen _ _ _ X2).
        destruct Hi as [Hi|[x [Hx Ex]]]; [left; eapply C; eauto|]. right.
        assert (x = y). { apply (po_ids _ PO); auto. exact (pipe_req _ _ _ Ht Hx). }
        subst x. exists z. split; auto. eapply requires_trans; eauto. }
      exists a3. split; auto. pose proof (iext_trans _ _ _ _ _ X2 X3) as X. revert X. apply iext_iff.
      intros x. split.
      + intros [Hx|[v [Hv Hx]]]; [exists t|exists v]; cbn; auto.
      + intros [v [[<-|Hv] Hx]]; auto. right. exists v. auto.
  Qed.
End Init.

Lemma sched_init_ok tasks : pipe_ok tasks -> has_room tasks ->
  exists d s, sched_init tasks = Ok (d, s) /\ dg_ok tasks d /\
    s_surf s = surf_init /\
    (forall i, s_q s i = pqueue_init (Z.of_nat (length (root_seeds d i))) (root_seeds d i)) /\
    (forall i, s_st s i = ts_set_total (nblocks d i) (ts_add_ready (Z.of_nat (length (root_seeds d i))) tstate_init)) /\
    (forall i, In i (s_order s) <-> In i (d_ids d)) /\ NoDup (s_order s).
Proof.
  intros PO RM. destruct (dgraph_ok tasks PO) as [d [Ed DK]]. unfold sched_init. rewrite Ed. cbn [bind].
  destruct (init_roots_ok tasks PO RM d DK (Sched surf_init (fun _ => pqueue_init 0 []) (fun _ => tstate_init) []))
    as [s1 [E1 [[A1 A2] [O1 N1]]]].
  { split; [reflexivity|]. intros i. cbn. split; [tauto|auto]. }
  rewrite E1. cbn [bind].
  destruct (init_tasks_ext tasks PO d DK tasks (fun t H => H) ([], s1)) as [[seen s2] [E2 X]].
  { intros y z _ []. }
  rewrite E2. cbn [bind]. exists d, s2. split; auto. split; auto.
  destruct X as [B1 B2 B3 B4 B5 B6 B7]. cbn [fst snd] in *.
  assert (SI : forall i, In i seen <-> In i (d_ids d)).
  { intros i. rewrite B1, (dk_ids _ _ DK). cbn. intuition. }
  split; [congruence|]. split; [|split; [|split]].
  - intros i. rewrite B3. apply A2; auto.
  - intros i. destruct (A2 i) as [H _]. destruct H as [_ H]; auto. rewrite <- H.
    destruct (in_dec Nat.eq_dec i seen) as [Hi|Hi].
    + apply B5; auto.
    + rewrite B4 by auto. rewrite H. unfold nblocks. rewrite SI in Hi. rewrite (dk_out _ _ DK i Hi). reflexivity.
  - intros i. rewrite B6, O1, SI. cbn. unfold root_tasks. rewrite filter_In. tauto.
  - apply B7, N1. constructor.
Qed.
