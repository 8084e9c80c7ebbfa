(* Properties C01-C11 and C26: the blocks of one task. *)
From Verif Require Import SpecGeom GraphProps.
Open Scope Z_scope.

(* Geometries used as examples: 2D with a context of one voxel around 1x1 blocks
   (tests/test_scheduler.py:70); 2D with uneven sizes, asymmetric context, negative offset. *)
Definition ex_2d (f : fit) : task :=
  Task 1 (Roi [0; 0] [6; 6]) (Roi [0; 0] [3; 3]) (Roi [1; 1] [1; 1]) true f 1 2 [].
Definition ex_odd (rwc : bool) (f : fit) : task :=
  Task 2 (Roi [-5; 7] [11; 9]) (Roi [0; 0] [6; 4]) (Roi [2; 0] [3; 2]) rwc f 1 2 [].
Lemma ex_2d_ok f : geom_ok 2 (ex_2d f).
Proof.
  constructor; try (split; reflexivity); intros i Hi; destruct i as [|[|i]]; cbn; lia.
Qed.
Lemma ex_odd_ok rwc f : geom_ok 2 (ex_odd rwc f).
Proof.
  constructor; try (split; reflexivity); intros i Hi; destruct i as [|[|i]]; cbn; lia.
Qed.

(* The constructor succeeds on every proper geometry, so none of the theorems below is about
   a graph that does not exist. *)
Theorem graph_constructed : forall n t, geom_ok n t -> exists g, task_graph t = Ok g.
Proof. intros n t H. destruct (geom_graph n t H) as [g [E _]]. exists g. exact E. Qed.
Print Assumptions graph_constructed.
Example graph_constructed_ex : exists g, task_graph (ex_odd true Shrink) = Ok g.
Proof. exact (graph_constructed 2 _ (ex_odd_ok true Shrink)). Qed.

(* C01 *)
Theorem C01_write_rois_disjoint : forall n t g, geom_ok n t -> task_graph t = Ok g ->
  forall a b, generated g a -> generated g b -> a <> b -> ~ overlap (b_write a) (b_write b).
Proof. intros n t g H E. exact (c01 n t g (graph_built n t g H E)). Qed.
Print Assumptions C01_write_rois_disjoint.

(* the number of blocks of the examples: the theorems speak about something *)
Definition count_blocks (t : task) : res nat :=
  g <- task_graph t ;; bss <- mapM (level_blocks g) (seq 0 (num_levels g)) ;;
  Ok (length (concat bss)).
Example ex_counts :
  map (fun f => (count_blocks (ex_2d f), count_blocks (ex_odd true f), count_blocks (ex_odd false f)))
      [Valid; Overhang; Shrink] =
  [(Ok 16%nat, Ok 6%nat, Ok 6%nat); (Ok 16%nat, Ok 12%nat, Ok 12%nat);
   (Ok 16%nat, Ok 12%nat, Ok 12%nat)].
Proof. vm_compute. reflexivity. Qed.

(* C02 *)
Theorem C02_blocks_write_something : forall n t g, geom_ok n t -> task_graph t = Ok g ->
  forall b, generated g b -> exists p, pt_in p (b_write b).
Proof. intros n t g H E. exact (c02_nonempty n t g (graph_built n t g H E)). Qed.
Print Assumptions C02_blocks_write_something.

Theorem C02_valid_covers_whole_cells : forall n t g, geom_ok n t -> task_graph t = Ok g ->
  t_fit t = Valid -> forall p,
  (exists b, generated g b /\ pt_in p (b_write b)) <->
  (exists k, length k = n /\ pt_in p (cell t k) /\
             forall q, pt_in q (cell t k) -> in_total_write t q).
Proof. intros n t g H E F p. exact (c02_valid n t g (graph_built n t g H E) p F). Qed.
Print Assumptions C02_valid_covers_whole_cells.

Theorem C02_overhang_covers : forall n t g, geom_ok n t -> task_graph t = Ok g ->
  t_fit t = Overhang -> forall p, in_total_write t p ->
  exists b, generated g b /\ pt_in p (b_write b).
Proof. intros n t g H E F p. exact (c02_overhang n t g (graph_built n t g H E) p F). Qed.
Print Assumptions C02_overhang_covers.

(* together with C01: a partition *)
Theorem C02_shrink_partitions : forall n t g, geom_ok n t -> task_graph t = Ok g ->
  t_fit t = Shrink -> forall p,
  in_total_write t p <-> exists b, generated g b /\ pt_in p (b_write b).
Proof. intros n t g H E F p. exact (c02_shrink n t g (graph_built n t g H E) p F). Qed.
Print Assumptions C02_shrink_partitions.
Example C02_ex : in_total_write (ex_odd true Shrink) [4; 13].
Proof. split; [reflexivity|]. intros i Hi. destruct i as [|[|i]]; cbn in *; lia. Qed.

(* C03 *)
Theorem C03_counts_match : forall n t g, geom_ok n t -> task_graph t = Ok g ->
  exists bss, mapM (level_blocks g) (seq 0 (num_levels g)) = Ok bss /\
    num_blocks g = Ok (Z.of_nat (length (concat bss))) /\
    NoDup (concat bss) /\ (forall b, In b (concat bss) <-> generated g b) /\
    (t_rwc t = false \/ (exists b, generated g b) ->
       exists rs, root_gen g = Ok rs /\ num_roots g = Ok (Z.of_nat (length rs)) /\
         level_blocks g 0 = Ok rs).
Proof. intros n t g H E. exact (c03 n t g (graph_built n t g H E)). Qed.
Print Assumptions C03_counts_match.
Example C03_ex : (g <- task_graph (ex_odd true Overhang) ;; a <- num_blocks g ;; b <- num_roots g ;; Ok (a, b))
  = Ok (12, 2).
Proof. vm_compute. reflexivity. Qed.

(* Outside proper geometries the count can even be negative: without read_write_conflict a
   total ROI smaller than the context is accepted, and num_blocks is -1 with no block. *)
Definition ex_tiny : task := Task 1 (Roi [0] [1]) (Roi [0] [3]) (Roi [1] [1]) false Valid 1 2 [].
Theorem C03_total_smaller_than_context_refuted :
  (g <- task_graph ex_tiny ;; n <- num_blocks g ;; bs <- level_blocks g 0 ;; Ok (n, bs)) = Ok (-1, []).
Proof. vm_compute. reflexivity. Qed.
Print Assumptions C03_total_smaller_than_context_refuted.

(* C04 *)
Theorem C04_ids_unique_partial : forall n t g, geom_ok n t -> task_graph t = Ok g ->
  forall a b, generated g a -> generated g b -> bid a = bid b -> a = b.
Proof. intros n t g H E. exact (c04 n t g (graph_built n t g H E)). Qed.
Print Assumptions C04_ids_unique_partial.

Theorem C04_ids_unique_across_tasks_partial : forall n n' t t' g g',
  geom_ok n t -> geom_ok n' t' -> task_graph t = Ok g -> task_graph t' = Ok g' ->
  t_id t <> t_id t' ->
  forall a b, generated g a -> generated g' b -> bid a <> bid b.
Proof.
  intros n n' t t' g g' H H' E E' Hne a b Ha Hb Hab.
  apply Hne. rewrite <- (generated_task n t g (graph_built n t g H E) a Ha).
  rewrite <- (generated_task n' t' g' (graph_built n' t' g' H' E') b Hb).
  unfold bid in Hab. congruence.
Qed.
Print Assumptions C04_ids_unique_across_tasks_partial.

(* Missing: tasks without read_write_conflict may have a write ROI that starts before the read
   ROI; then two different blocks can get the same id. *)
Definition ex_before : task := Task 1 (Roi [0] [10]) (Roi [1] [1]) (Roi [0] [2]) false Valid 1 2 [].
Theorem C04_refuted : exists g a b, task_graph ex_before = Ok g /\ generated g a /\ generated g b /\
  bid a = bid b /\ a <> b /\ offset (b_write a) <> offset (b_write b).
Proof.
  destruct (task_graph ex_before) as [g|e] eqn:E; [|vm_compute in E; discriminate].
  vm_compute in E. injection E as <-.
  eexists. exists (Block 1 0 (Roi [0] [1]) (Roi [-1] [2]) (Roi [-1] [2])).
  exists (Block 1 0 (Roi [2] [1]) (Roi [1] [2]) (Roi [1] [2])).
  split; [reflexivity|].
  split; [exists O; eexists; split; [vm_compute; reflexivity|cbn; tauto]|].
  split; [exists O; eexists; split; [vm_compute; reflexivity|cbn; tauto]|].
  split; [reflexivity|]. split; cbn; discriminate.
Qed.
Print Assumptions C04_refuted.

(* C05 *)
Theorem C05_blocks_are_shifted_rois : forall n t g, geom_ok n t -> task_graph t = Ok g ->
  forall b, generated g b -> exists k, cell_fits t k /\
    (forall i, (i < n)%nat -> 0 <= k@i) /\ b_req b = cell t k /\
    (t_fit t <> Shrink -> b_read b = rshift (t_read t) (cell_shift t k) /\ b_write b = cell t k) /\
    (t_fit t = Shrink ->
       (forall p, pt_in p (b_read b) <->
          pt_in p (rshift (t_read t) (cell_shift t k)) /\ pt_in p (t_total t)) /\
       (forall p, pt_in p (b_write b) <-> pt_in p (cell t k) /\ in_total_write t p)) /\
    (forall i, (i < n)%nat ->
       (offset (b_write b))@i - (offset (b_read b))@i
       = (offset (t_write t))@i - (offset (t_read t))@i /\
       ((offset (b_read b))@i + (shape (b_read b))@i) - ((offset (b_write b))@i + (shape (b_write b))@i)
       = ((offset (t_read t))@i + (shape (t_read t))@i) - ((offset (t_write t))@i + (shape (t_write t))@i)).
Proof. intros n t g H E. exact (c05 n t g (graph_built n t g H E)). Qed.
Print Assumptions C05_blocks_are_shifted_rois.

Theorem C05_every_cell_has_a_block : forall n t g, geom_ok n t -> task_graph t = Ok g ->
  forall k, cell_fits t k -> exists b, generated g b /\ b_req b = cell t k.
Proof. intros n t g H E. exact (c05_all n t g (graph_built n t g H E)). Qed.
Print Assumptions C05_every_cell_has_a_block.
Example C05_ex : cell_fits (ex_odd true Shrink) [1; 3].
Proof.
  split; [reflexivity|]. split; [reflexivity|]. intros i Hi. destruct i as [|[|i]]; cbn in *; lia.
Qed.

(* C06 *)
Theorem C06_enumeration : forall n t g, geom_ok n t -> task_graph t = Ok g ->
  forall ord, is_order ord ->
  exists ps, enumerate_all_dependencies ord g = Ok ps /\
    NoDup (map fst ps) /\ (forall b, In b (map fst ps) <-> generated g b) /\
    forall j b u, nth_error ps j = Some (b, u) ->
      upstream ord g b = Ok u /\
      forall a, In a u -> exists i u', (i < j)%nat /\ nth_error ps i = Some (a, u').
Proof. intros n t g H E ord O. exact (c06 n t g (graph_built n t g H E) ord O). Qed.
Print Assumptions C06_enumeration.

(* C07 *)
Theorem C07_up_down_inverse : forall n t g, geom_ok n t -> task_graph t = Ok g ->
  forall ord, is_order ord -> forall a b, generated g a -> generated g b ->
  exists u d, upstream ord g b = Ok u /\ downstream ord g a = Ok d /\
    NoDup u /\ NoDup d /\ (forall x, In x u -> generated g x) /\ (forall x, In x d -> generated g x) /\
    (In b d <-> In a u).
Proof.
  intros n t g H E ord O a b Ha Hb. pose proof (graph_built n t g H E) as B.
  destruct (up_gen n t g B ord O b Hb) as [u [Eu [Nu Gu]]].
  destruct (down_gen n t g B ord O a Ha) as [d [Ed [Nd Gd]]].
  exists u, d. split; [exact Eu|]. split; [exact Ed|]. split; [exact Nu|]. split; [exact Nd|].
  split; [exact Gu|]. split; [exact Gd|].
  exact (c07_dual n t g B ord O a b u d Ha Hb Ed Eu).
Qed.
Print Assumptions C07_up_down_inverse.

(* C08 *)
Theorem C08_conflicts_are_ordered : forall n t g, geom_ok n t -> task_graph t = Ok g ->
  t_rwc t = true -> forall ord, is_order ord ->
  forall a b, generated g a -> generated g b -> a <> b -> overlap (b_write a) (b_read b) ->
  depends_trans ord g a b \/ depends_trans ord g b a.
Proof.
  intros n t g H E R ord O a b. exact (c08 n t g (graph_built n t g H E) ord O a b R).
Qed.
Print Assumptions C08_conflicts_are_ordered.

(* a pair of conflicting blocks three levels apart: neither is a direct dependency of the
   other *)
Example C08_ex : exists g a b, task_graph (ex_2d Valid) = Ok g /\ generated g a /\ generated g b /\
  a <> b /\ overlap (b_write a) (b_read b) /\
  (forall u, upstream (fun l => l) g a = Ok u -> ~ In b u) /\
  (forall u, upstream (fun l => l) g b = Ok u -> ~ In a u).
Proof.
  destruct (task_graph (ex_2d Valid)) as [g|e] eqn:E; [|vm_compute in E; discriminate].
  vm_compute in E. injection E as <-.
  eexists. exists (Block 1 12 (Roi [1; 1] [3; 3]) (Roi [2; 2] [1; 1]) (Roi [2; 2] [1; 1])).
  exists (Block 1 4 (Roi [0; 0] [3; 3]) (Roi [1; 1] [1; 1]) (Roi [1; 1] [1; 1])).
  split; [reflexivity|].
  split; [exists O; eexists; split; [vm_compute; reflexivity|cbn; tauto]|].
  split; [exists 3%nat; eexists; split; [vm_compute; reflexivity|cbn; tauto]|].
  split; [discriminate|]. split.
  - exists [2; 2]. split; (split; [reflexivity|]); intros i Hi; destruct i as [|[|i]]; cbn in *; lia.
  - split; intros u Hu; vm_compute in Hu; injection Hu as <-; cbn; intuition discriminate.
Qed.

(* C09 *)
Theorem C09_no_conflict_no_dependencies : forall n t g, geom_ok n t -> task_graph t = Ok g ->
  t_rwc t = false -> forall ord, is_order ord -> forall b, generated g b ->
  upstream ord g b = Ok [] /\ downstream ord g b = Ok [] /\
  exists rs, root_gen g = Ok rs /\ In b rs.
Proof.
  intros n t g H E R ord O b. exact (c09 n t g (graph_built n t g H E) ord O b R).
Qed.
Print Assumptions C09_no_conflict_no_dependencies.

(* C10 *)
Theorem C10_subgraph_exact : forall n t g, geom_ok n t -> task_graph t = Ok g ->
  forall sub, roi_dims n sub -> (forall i, (i < n)%nat -> 0 <= (shape sub)@i) ->
  (exists p, pt_in p sub /\ in_total_write t p) ->
  NoDup (get_subgraph_blocks g sub false) /\
  forall b, In b (get_subgraph_blocks g sub false) <->
    generated g b /\ exists p, pt_in p (b_write b) /\ pt_in p sub /\ in_total_write t p.
Proof. intros n t g H E. exact (c10 n t g (graph_built n t g H E)). Qed.
Print Assumptions C10_subgraph_exact.
Example C10_ex : (g <- task_graph (ex_odd true Shrink) ;;
   Ok (map b_write (get_subgraph_blocks g (Roi [-1; 12] [3; 2]) false)))
  = Ok [Roi [-3; 11] [3; 2]; Roi [-3; 13] [3; 1]; Roi [0; 11] [3; 2]; Roi [0; 13] [3; 1]].
Proof. vm_compute. reflexivity. Qed.

(* C11: false in general, and exactly when *)
Definition ex_origin : task := Task 1 (Roi [-1] [10]) (Roi [0] [2]) (Roi [0] [2]) true Valid 1 2 [].
Theorem C11_refuted : exists g, geom_ok 1 ex_origin /\ task_graph ex_origin = Ok g /\
  ~ (exists p, pt_in p (Roi [100] [1]) /\ in_total_write ex_origin p) /\
  map b_write (get_subgraph_blocks g (Roi [100] [1]) false) = [Roi [-1] [2]].
Proof.
  destruct (task_graph ex_origin) as [g|e] eqn:E; [|vm_compute in E; discriminate].
  exists g. split; [constructor; try (split; reflexivity); intros i Hi; destruct i as [|i]; cbn; lia|].
  split; [reflexivity|]. split.
  - intros [p [[L H1] [_ H2]]]. cbn in L. specialize (H1 O ltac:(lia)). specialize (H2 O ltac:(lia)).
    cbn in H1, H2. lia.
  - vm_compute in E. injection E as <-. vm_compute. reflexivity.
Qed.
Print Assumptions C11_refuted.

Theorem C11_query_outside_partial : forall n t g, geom_ok n t -> task_graph t = Ok g ->
  forall sub, roi_dims n sub -> (forall i, (i < n)%nat -> 0 <= (shape sub)@i) ->
  ~ (exists p, pt_in p sub /\ in_total_write t p) ->
  (get_subgraph_blocks g sub false = [] <->
   ~ exists k, cell_fits t k /\
       forall i, (i < n)%nat -> (offset (cell t k))@i < 0 < (offset (cell t k))@i + (shape (cell t k))@i).
Proof. intros n t g H E. exact (c11 n t g (graph_built n t g H E)). Qed.
Print Assumptions C11_query_outside_partial.

(* C26 *)
Definition ex_noroom (rwc : bool) : task :=
  Task 1 (Roi [0; 0] [7; 2]) (Roi [0; 0] [3; 3]) (Roi [1; 1] [1; 1]) rwc Valid 1 2 [].
Theorem C26_refuted : exists g, geom_ok 2 (ex_noroom true) /\ task_graph (ex_noroom true) = Ok g /\
  (forall b, ~ generated g b) /\ num_blocks g = Ok 0 /\ sched_init [ex_noroom true] = Err IndexError.
Proof.
  destruct (task_graph (ex_noroom true)) as [g|e] eqn:E; [|vm_compute in E; discriminate].
  exists g.
  split; [constructor; try (split; reflexivity); intros i Hi; destruct i as [|[|i]]; cbn; lia|].
  split; [reflexivity|]. split; [|split; [|vm_compute; reflexivity]].
  - vm_compute in E. injection E as <-. intros b [l [bs [Hl Hb]]].
    destruct l; vm_compute in Hl; discriminate.
  - vm_compute in E. injection E as <-. reflexivity.
Qed.
Print Assumptions C26_refuted.

(* it always raises for a root task with read_write_conflict ... *)
Theorem C26_conflict_task_raises_refuted : forall n t g, geom_ok n t -> task_graph t = Ok g ->
  (forall b, ~ generated g b) -> t_ups t = [] -> t_rwc t = true ->
  sched_init [t] = Err IndexError.
Proof. intros n t g H E N. exact (c26_bad n t g (graph_built n t g H E) N E). Qed.
Print Assumptions C26_conflict_task_raises_refuted.

(* ... and works without *)
Theorem C26_no_conflict_partial : forall n t g, geom_ok n t -> task_graph t = Ok g ->
  (forall b, ~ generated g b) -> t_ups t = [] -> t_rwc t = false ->
  exists d s, sched_init [t] = Ok (d, s) /\ ts_total (s_st s (t_id t)) = 0 /\
    ts_ready (s_st s (t_id t)) = 0 /\ get_ready_tasks s = [].
Proof. intros n t g H E N. exact (c26_good n t g (graph_built n t g H E) N E). Qed.
Print Assumptions C26_no_conflict_partial.
Example C26_ex : exists g, geom_ok 2 (ex_noroom false) /\ task_graph (ex_noroom false) = Ok g /\
  forall b, ~ generated g b.
Proof.
  destruct (task_graph (ex_noroom false)) as [g|e] eqn:E; [|vm_compute in E; discriminate].
  exists g.
  split; [constructor; try (split; reflexivity); intros i Hi; destruct i as [|[|i]]; cbn; lia|].
  split; [reflexivity|].
  vm_compute in E. injection E as <-. intros b [l [bs [Hl Hb]]].
  destruct l as [|[|l]]; vm_compute in Hl; try discriminate. injection Hl as <-. destruct Hb.
Qed.
