(* C85: how long run_blockwise takes to collect the tasks (convenience.py:27-36).  The loop appends the upstream tasks of a
   task whether or not it has seen the task before, so it goes along every chain of requirements. *)
From Coq Require Import Lia PeanoNat.
From Verif Require Import VecFacts SchedExec PipeFacts PipeRun P_SchedCE P_Conv Conv.
Open Scope nat_scope.

(* A chain of requirements: the position of a task in the list given, of one of its upstream tasks among those, and so on. *)
Fixpoint is_chain (tasks : list task) (c : list nat) {struct c} : Prop :=
  match c with
  | [] => False
  | i :: r => exists t, nth_error tasks i = Some t /\ (r = [] \/ is_chain (t_ups t) r)
  end.
Definition later (c : list nat) : list nat := match c with [] => [] | i :: r => S i :: r end.
Lemma chain_cons t rest c : is_chain (t :: rest) c <->
  c = [0] \/ (exists r, c = 0 :: r /\ is_chain (t_ups t) r) \/ exists r, c = later r /\ is_chain rest r.
Proof.
  split.
  - destruct c as [|i r]; [intros []|]. intros [x [E H]]. destruct i as [|i].
    + cbn in E. injection E as <-. destruct H as [-> | H]; eauto.
    + right. right. exists (i :: r). split; [reflexivity|]. exists x. auto.
  - intros [-> | [[r [-> H]] | [r [-> H]]]].
    + exists t. auto.
    + exists t. auto.
    + destruct r as [|i r]; [destruct H|]. destruct H as [x [E H]]. exists x. auto.
Qed.
Lemma chains_listed N : forall tasks, tsum tasks <= N ->
  exists L, NoDup L /\ (forall c, In c L <-> is_chain tasks c) /\ length L = tsum tasks.
Proof.
  induction N as [|N IH]; intros [|t rest] H.
  1, 3: exists []; split; [apply NoDup_nil|]; split; [|reflexivity]; intros c; split; [intros []|];
        destruct c as [|[|i] r]; [intros [] | intros [x [E _]]; discriminate E | intros [x [E _]]; discriminate E].
  - cbn [tsum] in H. rewrite tsize_sum in H. lia.
  - cbn [tsum] in H |- *. rewrite tsize_sum in H |- *.
    destruct (IH (t_ups t)) as [U [NU [CU LU]]]; [lia|]. destruct (IH rest) as [R [NR [CR LR]]]; [lia|].
    exists ([0] :: map (cons 0) U ++ map later R). split; [|split].
    + constructor.
      * rewrite in_app_iff, !in_map_iff. intros [[r [E I]] | [r [E I]]].
        -- injection E as ->. apply CU in I. destruct I.
        -- destruct r; discriminate E.
      * apply NoDup_app'.
        -- apply FinFun.Injective_map_NoDup; auto. intros a b E. congruence.
        -- apply FinFun.Injective_map_NoDup; auto. intros [|a r] [|b r'] E; cbn in E; congruence.
        -- intros c I J. apply in_map_iff in I, J. destruct I as [a [<- _]], J as [[|b r] [E _]]; discriminate E.
    + intros c. rewrite chain_cons. cbn [In]. rewrite in_app_iff, !in_map_iff. split.
      * intros [<- | [[r [<- I]] | [r [<- I]]]]; auto; right; [left|right]; exists r; split; auto; [now apply CU | now apply CR].
      * intros [-> | [[r [-> I]] | [r [-> I]]]]; auto; right; [left|right]; exists r; split; auto; [now apply CU | now apply CR].
    + cbn [length]. rewrite app_length, !map_length. lia.
Qed.
Lemma collect_fuel n : forall tasks ids acc, collect n tasks ids acc = Err OutOfFuel <-> n <= tsum tasks.
Proof.
  induction n as [|n IH]; intros tasks ids acc; [split; intros; [lia|reflexivity]|].
  cbn [collect]. destruct tasks as [|t rest]; [cbn; split; [discriminate|lia]|].
  destruct (if negb _ then _ else _) as [i a]. rewrite IH, tsum_app. cbn [tsum]. rewrite tsize_sum. lia.
Qed.

(* C85: the loop is passed once for every chain of requirements, no less and no more (and once to see that nothing is left). *)
Theorem C85_passes : forall tasks, exists L, NoDup L /\ (forall c, In c L <-> is_chain tasks c) /\
  forall n, (exists l, collect_tasks n tasks = Ok l) <-> length L < n.
Proof.
  intros tasks. destruct (chains_listed (tsum tasks) tasks (le_n _)) as [L [N [C E]]]. exists L. split; [exact N|]. split; [exact C|].
  intros n. rewrite E. split.
  - intros [l Hl]. destruct (Nat.lt_ge_cases (tsum tasks) n) as [|G]; auto. apply (collect_fuel n tasks [] []) in G.
    unfold collect_tasks in Hl. congruence.
  - intros H. destruct (collect_spec n tasks [] []) as [l [Hl _]]; auto; [reflexivity|constructor|]. eauto.
Qed.

(* Each task of a layer requires both tasks of the layer below: 2 k + 1 tasks, 2^(k+1) - 1 passes. *)
Definition lt (i : nat) (us : list task) : task := Task i (Roi [0%Z] [10%Z]) (Roi [0%Z] [1%Z]) (Roi [0%Z] [1%Z]) false Valid 1 0 us.
Fixpoint layer (k : nat) : list task := match k with O => [] | S k => [lt (2 * k) (layer k); lt (2 * k + 1) (layer k)] end.
Definition tower (k : nat) : task := lt (2 * k) (layer k).
Lemma layer_sum k : tsum (layer k) + 2 = 2 * 2 ^ k.
Proof. induction k as [|k IH]; [reflexivity|]. cbn [layer tsum]. rewrite !tsize_sum. cbn [t_ups lt Nat.pow]. lia. Qed.
Lemma tower_parts k x : in_pipe (layer k) x -> exists j us, j < 2 * k /\ x = lt j us /\ us = layer (j / 2).
Proof.
  induction k as [|k IH]; intros [t [I R]]; [destruct I|].
  assert (D0 : 2 * k / 2 = k) by (rewrite Nat.mul_comm; apply Nat.div_mul; lia).
  assert (D1 : (2 * k + 1) / 2 = k) by (rewrite Nat.add_comm, Nat.mul_comm, Nat.div_add by lia; reflexivity).
  cbn [layer] in I. destruct I as [<- | [<- | []]]; apply requires_inv in R; destruct R as [E | [u [Hu R]]]; try subst x.
  - exists (2 * k), (layer k). rewrite D0. repeat split; lia.
  - destruct IH as [j [us [J [-> E]]]]; [exists u; auto|]. exists j, us. repeat split; auto; lia.
  - exists (2 * k + 1), (layer k). rewrite D1. repeat split; lia.
  - destruct IH as [j [us [J [-> E]]]]; [exists u; auto|]. exists j, us. repeat split; auto; lia.
Qed.
(* C85: the work is not bounded by a polynomial in the number of tasks *)
Theorem C85_exponential_refuted : forall k,
  (forall t, in_pipe [tower k] t -> t_id t <= 2 * k) /\
  (forall t u, in_pipe [tower k] t -> in_pipe [tower k] u -> t_id t = t_id u -> t = u) /\
  forall n, (exists l, collect_tasks n [tower k] = Ok l) <-> 2 * 2 ^ k <= n.
Proof.
  intros k.
  assert (P : forall t, in_pipe [tower k] t -> t = tower k \/ exists j, j < 2 * k /\ t = lt j (layer (j / 2))).
  { intros t [x [[<- | []] R]]. apply requires_inv in R. destruct R as [E | [u [Hu R]]]; auto. right.
    destruct (tower_parts k t) as [j [us [J [-> ->]]]]; [exists u; auto|]. eauto. }
  split; [|split].
  - intros t H. destruct (P t H) as [-> | [j [J ->]]]; cbn; lia.
  - intros t u H G E. destruct (P t H) as [-> | [j [J ->]]], (P u G) as [-> | [j' [J' ->]]]; auto; cbn in E; try lia. now subst.
  - intros n. assert (T : tsum [tower k] + 1 = 2 * 2 ^ k).
    { cbn [tsum]. unfold tower. rewrite tsize_sum. cbn [t_ups lt]. pose proof (layer_sum k). lia. }
    split.
    + intros [l Hl]. destruct (Nat.lt_ge_cases (tsum [tower k]) n) as [|G]; [lia|]. apply (collect_fuel n _ [] []) in G.
      unfold collect_tasks in Hl. congruence.
    + intros H. destruct (collect_spec n [tower k] [] []) as [l [Hl _]]; [lia|reflexivity|constructor|eauto].
Qed.
(* three layers: seven tasks are found in fifteen passes *)
Example C85_example : is_chain [tower 3] [0; 1; 0; 1] /\ ~ is_chain [tower 3] [0; 2] /\
  match collect_tasks 16 [tower 3] with Ok l => map t_id l = [6; 4; 5; 2; 3; 0; 1] | _ => False end /\
  collect_tasks 15 [tower 3] = Err OutOfFuel.
Proof.
  split; [|split; [|split; vm_compute; reflexivity]].
  - cbn. eexists. split; [reflexivity|right]. eexists. split; [reflexivity|right]. eexists. split; [reflexivity|right]. eexists. split; [reflexivity|]. auto.
  - cbn. intros [t [E [H|[u [F _]]]]]; [discriminate H|]. injection E as <-. discriminate F.
Qed.
Print Assumptions C85_passes.
Print Assumptions C85_exponential_refuted.
