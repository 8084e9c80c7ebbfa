(* Proofs of the properties of one task's grid (statements in P_Graph.v). *)
From Coq Require Import Permutation FinFun.
From Verif Require Import VecFacts CantorFacts.
From Verif Require Export SpecGeom GridFacts GridFacts2 GridFacts3 SubFacts.
Open Scope Z_scope.

Lemma overlap_intersects n a b : roi_dims n a -> roi_dims n b ->
  (forall i, (i < n)%nat -> 0 <= (shape a)@i) -> (forall i, (i < n)%nat -> 0 <= (shape b)@i) ->
  (overlap a b <-> intersects a b = true).
Proof.
  intros Ha Hb Pa Pb. rewrite (intersects_spec n) by auto. split.
  - intros [p [[L1 H1] [L2 H2]]] i Hi. destruct Ha as [A _], Hb as [B _].
    specialize (H1 i ltac:(lia)). specialize (H2 i ltac:(lia)). lia.
  - intros H. exists (cmax (offset a) (offset b)).
    assert (L : length (cmax (offset a) (offset b)) = n) by auto with vec.
    split; (split; [rewrite L; destruct Ha, Hb; auto|]); intros i Hi; rewrite L in Hi;
      rewrite (cmax_nth n) by auto with vec; specialize (H i Hi); lia.
Qed.

Lemma pt_in_spec n p r : roi_dims n r -> (pt_in p r <->
  length p = n /\ forall i, (i < n)%nat -> (offset r)@i <= p@i < (offset r)@i + (shape r)@i).
Proof.
  intros [L _]. unfold pt_in. rewrite L. split; intros [-> H]; auto.
Qed.

Lemma map_seq_nth {A} (f : nat -> A) m i d : (i < m)%nat -> nth i (map f (seq 0 m)) d = f i.
Proof.
  intros Hi. rewrite (map_nth' _ _ _ 0%nat) by (rewrite seq_length; auto). rewrite seq_nth; auto.
Qed.

Lemma geom_graph n t : geom_ok n t ->
  exists g, task_graph t = Ok g /\ wf_graph g n /\ g_tid g = t_id t /\ g_bread g = t_read t /\
    g_bwrite g = t_write t /\ g_tread g = t_total t /\ g_rwc g = t_rwc t /\ g_fit g = t_fit t.
Proof. intros H. apply init_wf; auto. Qed.

(* what the theorems may use of a graph built for a task *)
Record built (n : nat) (t : task) (g : bgraph) : Prop := {
  bu_ok : geom_ok n t;
  bu_wf : wf_graph g n;
  bu_tid : g_tid g = t_id t;
  bu_br : g_bread g = t_read t;
  bu_bw : g_bwrite g = t_write t;
  bu_tr : g_tread g = t_total t;
  bu_rwc : g_rwc g = t_rwc t;
  bu_fit : g_fit g = t_fit t
}.

Lemma graph_built n t g : geom_ok n t -> task_graph t = Ok g -> built n t g.
Proof.
  intros H E. destruct (geom_graph n t H) as [g' [E' [A [B [C [D [F [G I]]]]]]]].
  rewrite E in E'. inversion E'; subst g'. split; auto.
Qed.

Section Built.
  Variables (n : nat) (t : task) (g : bgraph).
  Hypothesis bu : built n t g.
  Local Notation wf := (bu_wf n t g bu).
  Local Notation grid := (grid n g).
  Local Notation W := (W g).
  Local Notation E := (E g).

  Lemma wfh : wf_graph g n. Proof. apply bu. Qed.
  Lemma gl k : grid k -> length k = n. Proof. intros []; auto. Qed.
  Lemma bl1 : roi_dims n (t_read t). Proof. rewrite <- (bu_br n t g bu). apply wf. Qed.
  Lemma bl2 : roi_dims n (t_write t). Proof. rewrite <- (bu_bw n t g bu). apply wf. Qed.
  Lemma bl3 : roi_dims n (t_total t). Proof. rewrite <- (bu_tr n t g bu). apply wf. Qed.
  Hint Resolve wg_br wg_bw wg_tr wg_tw wg_c0l wg_c1l wg_rl wg_sl gl bl1 bl2 bl3 wfh : vec.

  Lemma generated_iff b : generated g b <-> is_gblk n g b.
  Proof.
    split.
    - intros [l [bs [Hl Hb]]]. destruct (nth_error (g_loffs g) l) as [lo|] eqn:El.
      + rewrite (level_blocks_eq n g wf l lo El) in Hl. inversion Hl; subst bs.
        apply in_map_iff in Hb. destruct Hb as [k [<- Hk]].
        apply (in_lidx n g wf) in Hk; [|eapply nth_error_In; eauto]. exists k. split; auto. apply Hk.
      + rewrite (level_blocks_err g l El) in Hl. discriminate.
    - intros [k [Hk ->]]. exists (lvl g k), (map (gblk g) (lidx g (levvec g k))).
      pose proof (lvl_nth n g wf k Hk) as El. split; [apply (level_blocks_eq n g wf); auto|].
      apply in_map. apply (in_lidx n g wf); auto. eapply nth_error_In; eauto.
  Qed.

  Lemma tw_spec p : in_total_write t p <-> pt_in p (g_twrite g).
  Proof.
    rewrite (pt_in_spec n) by (apply wf). unfold in_total_write.
    destruct bl3 as [L _]. rewrite L.
    assert (V : forall i, (i < n)%nat ->
       (offset (t_total t))@i + ((offset (t_write t))@i - (offset (t_read t))@i) = (offset (g_twrite g))@i /\
       (offset (t_total t))@i + (shape (t_total t))@i
           - ((offset (t_read t))@i + (shape (t_read t))@i
              - ((offset (t_write t))@i + (shape (t_write t))@i)) = (offset (g_twrite g))@i + (shape (g_twrite g))@i).
    { intros i Hi. rewrite (wg_tw0 g n wf) by auto. pose proof (wg_rs g n wf i Hi) as R.
      pose proof (wg_ts g n wf i Hi) as S. pose proof (wg_c0 g n wf i Hi) as C.
      unfold GridFacts.T0, GridFacts.E, GridFacts.W in *.
      rewrite (bu_tr n t g bu), (bu_br n t g bu), (bu_bw n t g bu) in *. lia. }
    split; intros [Lp H]; (split; [auto|]); intros i Hi.
    - specialize (H i ltac:(lia)). specialize (V i Hi). lia.
    - specialize (H i ltac:(lia)). specialize (V i ltac:(lia)). lia.
  Qed.

  Lemma cell_shift_len k : length (cell_shift t k) = n.
  Proof. unfold cell_shift. rewrite map_length, seq_length. apply bl3. Qed.
  Hint Resolve cell_shift_len : vec.

  Lemma cell_blk k : length k = n -> cell t k = b_write (blk g k).
  Proof.
    intros Lk. unfold cell, rshift. rewrite <- (bu_bw n t g bu). simpl. f_equal.
    apply (nth_ext0 _ _ n); auto 12 with vec. intros i Hi.
    rewrite (cadd_nth n) by auto 12 with vec.
    destruct (blk_write_nth n g wf k i Lk Hi) as [A _]. simpl in A. rewrite A.
    unfold cell_shift. destruct bl3 as [L _]. rewrite L, map_seq_nth by auto.
    destruct (wg_c0 g n wf i Hi) as [_ ->]. unfold GridFacts.T0, GridFacts.W.
    rewrite (bu_tr n t g bu), (bu_br n t g bu), (bu_bw n t g bu). lia.
  Qed.

  Lemma read_cell_blk k : length k = n -> rshift (t_read t) (cell_shift t k) = b_read (blk g k).
  Proof.
    intros Lk. unfold rshift. rewrite <- (bu_br n t g bu). simpl. f_equal.
    apply (nth_ext0 _ _ n); auto 12 with vec. intros i Hi.
    rewrite (cadd_nth n) by auto 12 with vec.
    destruct (blk_read_nth n g wf k i Lk Hi) as [A _]. simpl in A. rewrite A.
    unfold cell_shift. destruct bl3 as [L _]. rewrite L, map_seq_nth by auto.
    unfold GridFacts.T0, GridFacts.W.
    rewrite (bu_tr n t g bu), (bu_br n t g bu), (bu_bw n t g bu). lia.
  Qed.

  Lemma cell_nth k i : length k = n -> (i < n)%nat ->
    (offset (cell t k))@i = (offset (g_twrite g))@i + k@i * W i /\ (shape (cell t k))@i = W i.
  Proof.
    intros Lk Hi. rewrite cell_blk by auto. destruct (blk_write_nth n g wf k i Lk Hi) as [-> ->].
    rewrite (wg_tw0 g n wf) by auto. auto.
  Qed.
  Lemma cell_dims k : length k = n -> roi_dims n (cell t k).
  Proof. intros. rewrite cell_blk by auto. apply (blk_write_dims n g wf); auto. Qed.
  Hint Resolve cell_dims : vec.

  Lemma fits_grid k : cell_fits t k <-> grid k.
  Proof.
    unfold cell_fits. destruct bl3 as [L _]. rewrite L. rewrite <- (bu_fit n t g bu).
    assert (G : grid k <-> length k = n /\ forall i, (i < n)%nat -> 0 <= k@i < NB g i).
    { unfold GridFacts2.grid. tauto. }
    rewrite G. clear G.
    assert (O : length k = n -> (in_total_write t (offset (cell t k)) <->
              forall i, (i < n)%nat -> 0 <= k@i /\ k@i * W i < E i)).
    { intros Lk. rewrite tw_spec, (pt_in_spec n) by apply wf. split.
      - intros [_ H] i Hi. specialize (H i Hi). destruct (cell_nth k i Lk Hi) as [A _]. rewrite A in H.
        pose proof (wg_w g n wf i Hi). fold (E i) in H. nia.
      - intros H. split; [apply cell_dims; auto|]. intros i Hi. specialize (H i Hi).
        destruct (cell_nth k i Lk Hi) as [A _]. rewrite A.
        pose proof (wg_w g n wf i Hi). fold (E i). nia. }
    destruct (g_fit g) eqn:F; split; intros [Lk H]; (split; [auto|]).
    - intros i Hi. rewrite (NB_iff n g wf), F by auto.
      assert (H1 : pt_in (offset (cell t k)) (cell t k)).
      { apply (pt_in_spec n); auto with vec. split; [apply cell_dims; auto|]. intros j Hj.
        destruct (cell_nth k j Lk Hj) as [_ ->]. pose proof (wg_w g n wf j Hj). lia. }
      assert (H2 : pt_in (map (fun x => x - 1) (rend (cell t k))) (cell t k)).
      { assert (Lr : length (rend (cell t k)) = n) by auto with vec.
        apply (pt_in_spec n); auto with vec. split; [rewrite map_length; auto|]. intros j Hj.
        rewrite (map_nth' _ _ _ 0) by lia. rewrite (rend_nth n) by auto with vec.
        destruct (cell_nth k j Lk Hj) as [_ ->]. pose proof (wg_w g n wf j Hj). lia. }
      apply H in H1, H2. rewrite O in H1 by auto. apply tw_spec in H2. apply (pt_in_spec n) in H2; [|apply wf].
      destruct H2 as [_ H2]. specialize (H2 i Hi). specialize (H1 i Hi).
      assert (Lr : length (rend (cell t k)) = n) by auto with vec.
      rewrite (map_nth' _ _ _ 0) in H2 by lia. rewrite (rend_nth n) in H2 by auto with vec.
      destruct (cell_nth k i Lk Hi) as [A B]. rewrite A, B in H2. fold (E i) in H2. lia.
    - intros p Hp. apply tw_spec. apply (pt_in_spec n); [apply wf|].
      apply (pt_in_spec n) in Hp; auto with vec. destruct Hp as [Lp Hp]. split; auto. intros i Hi.
      specialize (Hp i Hi). destruct (cell_nth k i Lk Hi) as [A B]. rewrite A, B in Hp.
      specialize (H i Hi). destruct H as [H0 H]. apply (NB_iff n g wf) in H; auto. rewrite F in H.
      pose proof (wg_w g n wf i Hi). fold (E i). nia.
    - intros i Hi. rewrite (NB_iff n g wf), F by auto. apply O; auto.
    - apply O; auto. intros i Hi. specialize (H i Hi). destruct H as [H0 H]. split; auto.
      apply (NB_iff n g wf) in H; auto. rewrite F in H. auto.
    - intros i Hi. rewrite (NB_iff n g wf), F by auto. apply O; auto.
    - apply O; auto. intros i Hi. specialize (H i Hi). destruct H as [H0 H]. split; auto.
      apply (NB_iff n g wf) in H; auto. rewrite F in H. auto.
  Qed.

  (* pointwise content of a block's ROIs *)
  Lemma in_write p k : grid k -> (pt_in p (b_write (gblk g k)) <->
    length p = n /\ forall i, (i < n)%nat ->
      (offset (g_twrite g))@i + k@i * W i <= p@i < (offset (g_twrite g))@i + fitted_end g i (k@i * W i + W i)).
  Proof.
    intros Gk. destruct (gblk_dims n g wf k (gl k Gk)) as [_ D]. rewrite (pt_in_spec n) by auto.
    split; intros [Lp H]; (split; [auto|]); intros i Hi; specialize (H i Hi);
      destruct (gblk_write_nth n g wf k i Gk Hi) as [A B]; rewrite ?A, ?B in *;
      rewrite (wg_tw0 g n wf) in * by auto; lia.
  Qed.

  Lemma c01 a b : generated g a -> generated g b -> a <> b -> ~ overlap (b_write a) (b_write b).
  Proof.
    rewrite !generated_iff. intros [k [Gk ->]] [k' [Gk' ->]] Hne [p [Hp Hp']].
    apply in_write in Hp, Hp'; auto. destruct Hp as [Lp Hp], Hp' as [_ Hp'].
    apply Hne. f_equal. apply (nth_ext0 _ _ n); auto using gl. intros i Hi.
    specialize (Hp i Hi). specialize (Hp' i Hi).
    assert (F : forall x, fitted_end g i x <= x) by (intros; unfold fitted_end; destruct (g_fit g); lia).
    pose proof (F (k@i * W i + W i)). pose proof (F (k'@i * W i + W i)). pose proof (wg_w g n wf i Hi). nia.
  Qed.

  Lemma c02_nonempty b : generated g b -> exists p, pt_in p (b_write b).
  Proof.
    rewrite generated_iff. intros [k [Gk ->]]. exists (offset (b_write (gblk g k))).
    destruct (gblk_dims n g wf k (gl k Gk)) as [_ D]. apply (pt_in_spec n); auto.
    split; [apply D|]. intros i Hi. pose proof (gblk_write_pos n g wf k i Gk Hi). lia.
  Qed.

  (* a cell is exactly what its block writes, or its part inside the volume *)
  Lemma c02_cells p : (exists b, generated g b /\ pt_in p (b_write b)) <->
    (exists k, cell_fits t k /\ pt_in p (cell t k) /\ (t_fit t = Shrink -> in_total_write t p)).
  Proof.
    split.
    - intros [b [Hb Hp]]. apply generated_iff in Hb. destruct Hb as [k [Gk ->]].
      apply in_write in Hp; auto. destruct Hp as [Lp Hp].
      exists k. split; [apply fits_grid; auto|]. split.
      + apply (pt_in_spec n); [apply cell_dims; apply gl; auto|]. split; auto. intros i Hi. specialize (Hp i Hi).
        destruct (cell_nth k i (gl k Gk) Hi) as [-> ->].
        assert (F : forall x, fitted_end g i x <= x) by (intros; unfold fitted_end; destruct (g_fit g); lia).
        pose proof (F (k@i * W i + W i)). lia.
      + intros F. apply tw_spec. apply (pt_in_spec n); [apply wf|]. split; auto. intros i Hi.
        specialize (Hp i Hi). unfold fitted_end in Hp. rewrite (bu_fit n t g bu), F in Hp.
        pose proof (grid_lt_E n g wf k i Gk Hi). fold (E i). lia.
    - intros [k [Hk [Hp Hs]]]. apply fits_grid in Hk. exists (gblk g k).
      split; [apply generated_iff; exists k; auto|].
      apply in_write; auto. apply (pt_in_spec n) in Hp; [|apply cell_dims; apply gl; auto].
      destruct Hp as [Lp Hp]. split; auto. intros i Hi. specialize (Hp i Hi).
      destruct (cell_nth k i (gl k Hk) Hi) as [A B]. rewrite A, B in Hp.
      unfold fitted_end. rewrite (bu_fit n t g bu).
      destruct (t_fit t); try lia. specialize (Hs eq_refl). apply tw_spec in Hs.
      apply (pt_in_spec n) in Hs; [|apply wf]. destruct Hs as [_ Hs]. specialize (Hs i Hi). fold (E i) in Hs. lia.
  Qed.

  Lemma c02_cover p : t_fit t <> Valid -> in_total_write t p ->
    exists k, cell_fits t k /\ pt_in p (cell t k).
  Proof.
    intros F Hp. pose proof Hp as Hp0. apply tw_spec in Hp. apply (pt_in_spec n) in Hp; [|apply wf].
    destruct Hp as [Lp Hp].
    assert (H : forall i, (i < n)%nat -> exists k, 0 <= k < NB g i /\ k * W i <= p@i - (offset (g_twrite g))@i < k * W i + W i).
    { intros i Hi. exists ((p@i - (offset (g_twrite g))@i) / W i). specialize (Hp i Hi).
      pose proof (wg_w g n wf i Hi). fold (E i) in Hp.
      pose proof (Z.mod_pos_bound (p@i - (offset (g_twrite g))@i) (W i) ltac:(lia)).
      pose proof (Z.div_mod (p@i - (offset (g_twrite g))@i) (W i) ltac:(lia)).
      assert (0 <= (p@i - (offset (g_twrite g))@i) / W i) by (apply Z.div_pos; lia).
      split; [|lia]. split; auto. rewrite (NB_iff n g wf) by auto.
      rewrite (bu_fit n t g bu). destruct (t_fit t); try congruence; lia. }
    apply vec_choice in H. destruct H as [k [Lk Hk]].
    assert (Gk : grid k) by (split; auto; intros i Hi; apply Hk; auto).
    exists k. split; [apply fits_grid; auto|].
    apply (pt_in_spec n); [apply cell_dims; auto|]. split; auto. intros i Hi.
    destruct (cell_nth k i Lk Hi) as [-> ->]. destruct (Hk i Hi). lia.
  Qed.

  Lemma c02_valid p : t_fit t = Valid ->
    ((exists b, generated g b /\ pt_in p (b_write b)) <->
     (exists k, length k = n /\ pt_in p (cell t k) /\ forall q, pt_in q (cell t k) -> in_total_write t q)).
  Proof.
    intros F. rewrite c02_cells. unfold cell_fits. rewrite F. destruct bl3 as [L _]. rewrite L. split.
    - intros [k [[A B] [C _]]]. exists k. auto.
    - intros [k [A [B C]]]. exists k. split; auto.
  Qed.
  Lemma c02_overhang p : t_fit t = Overhang -> in_total_write t p ->
    exists b, generated g b /\ pt_in p (b_write b).
  Proof.
    intros F Hp. apply c02_cells. destruct (c02_cover p) as [k [A B]]; [congruence|auto|].
    exists k. split; [exact A|]. split; [exact B|]. intros F'. rewrite F in F'. discriminate F'.
  Qed.
  Lemma c02_shrink p : t_fit t = Shrink ->
    (in_total_write t p <-> exists b, generated g b /\ pt_in p (b_write b)).
  Proof.
    intros F. rewrite c02_cells. split.
    - intros Hp. destruct (c02_cover p) as [k [A B]]; [congruence|auto|]. exists k. auto.
    - intros [k [_ [_ H]]]. auto.
  Qed.

  Lemma level_list : exists bss, mapM (level_blocks g) (seq 0 (num_levels g)) = Ok bss /\
    concat bss = all_blocks g.
  Proof.
    unfold all_blocks, all_idx, num_levels.
    assert (G : forall (L : list coord) (s : nat),
      (forall j lo, nth_error L j = Some lo -> nth_error (g_loffs g) (s + j)%nat = Some lo) ->
      exists bss, mapM (level_blocks g) (seq s (length L)) = Ok bss /\
        concat bss = map (gblk g) (concat (map (lidx g) L))).
    { induction L as [|lo L IH]; intros s H; simpl.
      - exists []. auto.
      - rewrite (level_blocks_eq n g wf s lo) by (rewrite <- (H 0%nat lo eq_refl); f_equal; lia).
        destruct (IH (S s)) as [bss [E1 E2]].
        + intros j lo' Hj. rewrite <- (H (S j) lo' Hj). f_equal. lia.
        + cbn [bind]. rewrite E1. cbn [bind]. eexists. split; [reflexivity|]. simpl.
          rewrite E2, map_app. reflexivity. }
    apply (G (g_loffs g) 0%nat). auto.
  Qed.

  Lemma levels_pos : t_rwc t = false \/ (exists b, generated g b) ->
    exists lo, nth_error (g_loffs g) 0 = Some lo.
  Proof.
    intros H. assert (exists lo, In lo (g_loffs g)) as [lo Hlo].
    { destruct H as [H|[b H]].
      - assert (P : forall i, (i < n)%nat -> 0 < NL g i).
        { intros i Hi. unfold NL. rewrite (bu_rwc n t g bu), H. lia. }
        exists (repeat 0 n). apply (in_loffs n g wf); auto. split; [apply repeat_length|].
        intros i Hi. exists 0. split; [specialize (P i Hi); lia|].
        rewrite (nth_repeat 0). lia.
      - apply generated_iff in H. destruct H as [k [Gk _]]. exists (levvec g k).
        apply (levvec_in n g wf); auto. }
    destruct (g_loffs g) as [|x l]; [destruct Hlo|]. exists x. reflexivity.
  Qed.

  Lemma c03 : exists bss, mapM (level_blocks g) (seq 0 (num_levels g)) = Ok bss /\
    num_blocks g = Ok (Z.of_nat (length (concat bss))) /\
    NoDup (concat bss) /\ (forall b, In b (concat bss) <-> generated g b) /\
    (t_rwc t = false \/ (exists b, generated g b) ->
       exists rs, root_gen g = Ok rs /\ num_roots g = Ok (Z.of_nat (length rs)) /\
         level_blocks g 0 = Ok rs).
  Proof.
    destruct level_list as [bss [E1 E2]]. exists bss. split; auto. rewrite E2.
    split; [apply (num_blocks_eq n g wf)|]. split; [apply (NoDup_all_blocks n g wf)|].
    split; [intros b; rewrite (in_all_blocks n g wf); symmetry; apply generated_iff|].
    intros H. apply levels_pos in H. destruct H as [lo Hlo].
    exists (map (gblk g) (lidx g lo)). split; [apply (root_gen_eq n g wf); auto|].
    split; [|apply (level_blocks_eq n g wf); auto].
    unfold num_roots. rewrite (num_level_blocks_eq n g wf 0 lo Hlo), map_length. reflexivity.
  Qed.

  Lemma c04 a b : generated g a -> generated g b -> bid a = bid b -> a = b.
  Proof.
    rewrite !generated_iff. intros [k [Gk ->]] [k' [Gk' ->]] H. f_equal.
    apply (blk_num_inj n g wf); auto. unfold bid in H. congruence.
  Qed.

  Lemma generated_task b : generated g b -> b_task b = t_id t.
  Proof.
    rewrite generated_iff. intros [k [Gk ->]]. rewrite gblk_task. apply (bu_tid n t g bu).
  Qed.

  Lemma c05 b : generated g b -> exists k, cell_fits t k /\
    (forall i, (i < n)%nat -> 0 <= k@i) /\ b_req b = cell t k /\
    (t_fit t <> Shrink -> b_read b = rshift (t_read t) (cell_shift t k) /\ b_write b = cell t k) /\
    (t_fit t = Shrink ->
       (forall p, pt_in p (b_read b) <-> pt_in p (rshift (t_read t) (cell_shift t k)) /\ pt_in p (t_total t)) /\
       (forall p, pt_in p (b_write b) <-> pt_in p (cell t k) /\ in_total_write t p)) /\
    (forall i, (i < n)%nat ->
       (offset (b_write b))@i - (offset (b_read b))@i = (offset (t_write t))@i - (offset (t_read t))@i /\
       ((offset (b_read b))@i + (shape (b_read b))@i) - ((offset (b_write b))@i + (shape (b_write b))@i)
       = ((offset (t_read t))@i + (shape (t_read t))@i) - ((offset (t_write t))@i + (shape (t_write t))@i)).
  Proof.
    rewrite generated_iff. intros [k [Gk ->]]. exists k. assert (Lk := gl k Gk).
    split; [apply fits_grid; auto|]. split; [intros i Hi; apply Gk; auto|].
    split; [rewrite gblk_req; symmetry; apply cell_blk; auto|].
    split; [|split].
    - intros F. rewrite read_cell_blk, cell_blk by auto. unfold gblk, fit_block.
      rewrite (bu_fit n t g bu). destruct (t_fit t); auto. congruence.
    - intros F. split; intros p.
      + rewrite read_cell_blk by auto. destruct (gblk_dims n g wf k Lk) as [D _].
        rewrite <- (bu_tr n t g bu).
        rewrite !(pt_in_spec n) by (auto; try apply wf; apply (blk_read_dims n g wf); auto).
        split.
        * intros [Lp H].
          assert (Q : forall i, (i < n)%nat -> T0 g i + k@i * W i <= p@i < T0 g i + k@i * W i + C0 g i + (Z.min (E i) (k@i * W i + W i) - k@i * W i) + C1 g i).
          { intros i Hi. specialize (H i Hi). destruct (gblk_read_nth n g wf k i Gk Hi) as [A B]. rewrite A, B in H.
            unfold fitted_end in H. rewrite (bu_fit n t g bu), F in H. lia. }
          split; (split; [auto|]); intros i Hi; specialize (Q i Hi).
          -- destruct (blk_read_nth n g wf k i Lk Hi) as [-> ->]. lia.
          -- rewrite (wg_ts g n wf) by auto. fold (T0 g i). pose proof (grid_lt_E n g wf k i Gk Hi). lia.
        * intros [[Lp H1] [_ H2]]. split; auto. intros i Hi. specialize (H1 i Hi). specialize (H2 i Hi).
          destruct (gblk_read_nth n g wf k i Gk Hi) as [-> ->].
          destruct (blk_read_nth n g wf k i Lk Hi) as [A B]. rewrite A, B in H1.
          rewrite (wg_ts g n wf) in H2 by auto. fold (T0 g i) in H2.
          unfold fitted_end. rewrite (bu_fit n t g bu), F. lia.
      + rewrite tw_spec, in_write by auto.
        rewrite !(pt_in_spec n) by (try apply wf; apply cell_dims; auto).
        split.
        * intros [Lp H]. split; (split; [auto|]); intros i Hi; specialize (H i Hi);
            unfold fitted_end in H; rewrite (bu_fit n t g bu), F in H.
          -- destruct (cell_nth k i Lk Hi) as [-> ->]. lia.
          -- fold (E i). pose proof (grid_lt_E n g wf k i Gk Hi). lia.
        * intros [[Lp H1] [_ H2]]. split; auto. intros i Hi. specialize (H1 i Hi). specialize (H2 i Hi).
          destruct (cell_nth k i Lk Hi) as [A B]. rewrite A, B in H1. fold (E i) in H2.
          unfold fitted_end. rewrite (bu_fit n t g bu), F. lia.
    - intros i Hi. destruct (gblk_write_nth n g wf k i Gk Hi) as [-> ->].
      destruct (gblk_read_nth n g wf k i Gk Hi) as [-> ->].
      pose proof (wg_c0 g n wf i Hi) as C. pose proof (wg_rs g n wf i Hi) as R.
      unfold GridFacts.W in *. rewrite (bu_br n t g bu), (bu_bw n t g bu) in *. lia.
  Qed.

  (* conversely, every promised cell has its block *)
  Lemma c05_all k : cell_fits t k -> exists b, generated g b /\ b_req b = cell t k.
  Proof.
    intros Hk. apply fits_grid in Hk. exists (gblk g k). split; [apply generated_iff; exists k; auto|].
    rewrite gblk_req. symmetry. apply cell_blk. apply gl; auto.
  Qed.

  Section Ord.
    Variable ord : list block -> list block.
    Hypothesis Hord : is_order ord.

    Lemma up_gen b : generated g b -> exists u, upstream ord g b = Ok u /\ NoDup u /\
      forall a, In a u -> generated g a.
    Proof.
      rewrite generated_iff. intros [k [Gk ->]].
      destruct (upstream_spec n g wf ord Hord k Gk) as [u [Eu [Nu Hu]]]. exists u.
      split; auto. split; auto. intros a Ha. apply Hu in Ha. destruct Ha as [k' [[Gk' _] ->]].
      apply generated_iff. exists k'. auto.
    Qed.
    Lemma down_gen b : generated g b -> exists u, downstream ord g b = Ok u /\ NoDup u /\
      forall a, In a u -> generated g a.
    Proof.
      rewrite generated_iff. intros [k [Gk ->]].
      destruct (downstream_spec n g wf ord Hord k Gk) as [u [Eu [Nu Hu]]]. exists u.
      split; auto. split; auto. intros a Ha. apply Hu in Ha. destruct Ha as [k' [Gk' [_ ->]]].
      apply generated_iff. exists k'. auto.
    Qed.

    Lemma c07_dual a b u d : generated g a -> generated g b ->
      downstream ord g a = Ok d -> upstream ord g b = Ok u -> (In b d <-> In a u).
    Proof.
      rewrite !generated_iff. intros [k [Gk ->]] [k' [Gk' ->]] Ed Eu.
      destruct (upstream_spec n g wf ord Hord k' Gk') as [u' [Eu' [_ Hu]]].
      destruct (downstream_spec n g wf ord Hord k Gk) as [d' [Ed' [_ Hd]]].
      rewrite Ed' in Ed. inversion Ed; subst d'. rewrite Eu' in Eu. inversion Eu; subst u'.
      rewrite Hu, Hd. split.
      - intros [k2 [G2 [U E2]]]. exists k. split; auto. 
        apply (gblk_inj n g wf) in E2; auto. subst k2. auto.
      - intros [k2 [U E2]]. exists k'. split; auto. split; auto.
        apply (gblk_inj n g wf) in E2; auto; [subst k2; auto|]. apply U.
    Qed.

    Lemma path_depends k k' : grid k -> up_path n g k k' -> grid k' /\ depends_trans ord g (gblk g k) (gblk g k').
    Proof.
      intros Gk H. induction H as [k k' H|k k' k'' H H' IH].
      - split; [apply H|]. apply dt_one.
        destruct (upstream_spec n g wf ord Hord k Gk) as [u [Eu [_ Hu]]].
        exists u. split; auto. apply Hu. exists k'. auto.
      - destruct IH as [G'' IH]; [apply H|]. split; auto. apply dt_more with (gblk g k'); auto.
        destruct (upstream_spec n g wf ord Hord k Gk) as [u [Eu [_ Hu]]].
        exists u. split; auto. apply Hu. exists k'. auto.
    Qed.

    Lemma c08 a b : t_rwc t = true -> generated g a -> generated g b -> a <> b ->
      overlap (b_write a) (b_read b) -> depends_trans ord g a b \/ depends_trans ord g b a.
    Proof.
      rewrite !generated_iff. intros Hr [k [Gk ->]] [k' [Gk' ->]] Hne Ho.
      assert (I : intersects (b_write (gblk g k)) (b_read (gblk g k')) = true).
      { apply (overlap_intersects n); auto.
        - apply (gblk_dims n g wf); auto using gl.
        - apply (gblk_dims n g wf); auto using gl.
        - intros i Hi. pose proof (gblk_write_pos n g wf k i Gk Hi). lia.
        - intros i Hi. pose proof (gblk_write_pos n g wf k' i Gk' Hi) as P.
          destruct (gblk_write_nth n g wf k' i Gk' Hi) as [_ B].
          destruct (gblk_read_nth n g wf k' i Gk' Hi) as [_ B']. rewrite B'. rewrite B in P.
          pose proof (wg_c0 g n wf i Hi). pose proof (wg_c1 g n wf i Hi). lia. }
      apply (overlap_near n g wf) in I; auto; [|rewrite (bu_rwc n t g bu); auto].
      destruct (Nat.lt_trichotomy (lvl g k) (lvl g k')) as [Hl|[Hl|Hl]].
      - right. apply path_depends; auto.
        apply (near_path n g wf (lvl g k' - lvl g k - 1)); auto; [apply (near_sym n g); auto|lia].
      - exfalso. apply Hne. f_equal. apply (near_same_level n g wf); auto.
      - left. apply path_depends; auto.
        apply (near_path n g wf (lvl g k - lvl g k' - 1)); auto. lia.
    Qed.

    (* dependencies point to the level before *)
    Lemma depends_level k b : grid k -> depends ord g (gblk g k) b -> exists k', grid k' /\ b = gblk g k' /\ S (lvl g k') = lvl g k.
    Proof.
      intros Gk [u [Eu Hb]]. destruct (upstream_spec n g wf ord Hord k Gk) as [u' [Eu' [_ Hu]]].
      rewrite Eu' in Eu. inversion Eu; subst u'. apply Hu in Hb. destruct Hb as [k' [[A [B C]] ->]].
      exists k'. auto.
    Qed.

    Lemma c09 b : t_rwc t = false -> generated g b ->
      upstream ord g b = Ok [] /\ downstream ord g b = Ok [] /\
      exists rs, root_gen g = Ok rs /\ In b rs.
    Proof.
      intros Hr Hb. pose proof Hb as Hb'. rewrite generated_iff in Hb. destruct Hb as [k [Gk ->]].
      assert (Hr' : g_rwc g = false) by (rewrite (bu_rwc n t g bu); auto).
      assert (L0 := lvl_norwc n g wf k Hr' Gk).
      split; [|split].
      - destruct (upstream_spec n g wf ord Hord k Gk) as [u [Eu [_ Hu]]]. rewrite Eu.
        destruct u as [|a u]; auto. exfalso.
        destruct (proj1 (Hu a) (or_introl eq_refl)) as [k' [[_ [_ Hl]] _]]. lia.
      - destruct (downstream_spec n g wf ord Hord k Gk) as [u [Eu [_ Hu]]]. rewrite Eu.
        destruct u as [|a u]; auto. exfalso.
        destruct (proj1 (Hu a) (or_introl eq_refl)) as [k' [Gk' [[_ [_ Hl]] _]]].
        rewrite (lvl_norwc n g wf k' Hr' Gk') in Hl. lia.
      - destruct (levels_pos (or_introl Hr)) as [lo Hlo].
        exists (map (gblk g) (lidx g lo)). split; [apply (root_gen_eq n g wf); auto|].
        apply in_map. apply (in_lidx n g wf); [eapply nth_error_In; eauto|]. split; auto.
        pose proof (lvl_nth n g wf k Gk) as El. rewrite L0, Hlo in El. congruence.
    Qed.

    (* enumeration order *)
    Lemma lidx_levels (L : list coord) s k j : 
      (forall i lo, nth_error L i = Some lo -> nth_error (g_loffs g) (s + i)%nat = Some lo) ->
      nth_error (concat (map (lidx g) L)) j = Some k ->
      grid k /\ (s <= lvl g k)%nat /\
      forall k', grid k' -> (s <= lvl g k' < lvl g k)%nat ->
        exists i, (i < j)%nat /\ nth_error (concat (map (lidx g) L)) i = Some k'.
    Proof.
      revert s j. induction L as [|lo L IH]; intros s j H Hj; simpl in *.
      - destruct j; discriminate.
      - assert (Hs : nth_error (g_loffs g) s = Some lo) by (rewrite <- (H 0%nat lo eq_refl); f_equal; lia).
        assert (Hlo : In lo (g_loffs g)) by (eapply nth_error_In; eauto).
        destruct (Nat.lt_ge_cases j (length (lidx g lo))) as [Hlt|Hge].
        + rewrite nth_error_app1 in Hj by auto. apply nth_error_In in Hj.
          apply (in_lidx n g wf) in Hj; auto. destruct Hj as [Gk Ek]. split; auto.
          assert (lvl g k = s) by (apply (lvl_unique n g wf); auto; congruence).
          split; [lia|]. intros; lia.
        + rewrite nth_error_app2 in Hj by auto.
          destruct (IH (S s) (j - length (lidx g lo))%nat) as [Gk [Ls Hk]]; auto.
          { intros i lo' Hi. rewrite <- (H (S i) lo' Hi). f_equal. lia. }
          split; auto. split; [lia|]. intros k' Gk' Hl.
          destruct (Nat.eq_dec (lvl g k') s) as [Heq|Hne].
          * assert (Hin : In k' (lidx g lo)).
            { apply (in_lidx n g wf); auto. split; auto. pose proof (lvl_nth n g wf k' Gk') as El.
              rewrite Heq, Hs in El. congruence. }
            apply In_nth_error in Hin. destruct Hin as [i Hi]. exists i.
            assert (i < length (lidx g lo))%nat by (apply nth_error_Some; congruence).
            split; [lia|]. rewrite nth_error_app1; auto.
          * destruct (Hk k') as [i [Hi Hn]]; auto; [lia|]. exists (length (lidx g lo) + i)%nat.
            split; [lia|]. rewrite nth_error_app2 by lia. rewrite <- Hn. f_equal. lia.
    Qed.

    Lemma c06 : exists ps, enumerate_all_dependencies ord g = Ok ps /\
      NoDup (map fst ps) /\ (forall b, In b (map fst ps) <-> generated g b) /\
      forall j b u, nth_error ps j = Some (b, u) ->
        upstream ord g b = Ok u /\
        forall a, In a u -> exists i u', (i < j)%nat /\ nth_error ps i = Some (a, u').
    Proof.
      destruct (enumerate_eq n g wf ord Hord) as [ps [E1 [E2 E3]]]. exists ps. split; auto.
      rewrite E2. split; [apply (NoDup_all_blocks n g wf)|].
      split; [intros b; rewrite (in_all_blocks n g wf); symmetry; apply generated_iff|].
      intros j b u Hj. assert (Eu : upstream ord g b = Ok u) by (apply E3; eapply nth_error_In; eauto).
      split; auto. intros a Ha.
      assert (Hm : nth_error (map (gblk g) (all_idx g)) j = Some b).
      { fold (all_blocks g). rewrite <- E2. rewrite nth_error_map, Hj. reflexivity. }
      rewrite nth_error_map in Hm. destruct (nth_error (all_idx g) j) as [k|] eqn:Ek; [|discriminate].
      inversion Hm; subst b.
      destruct (lidx_levels (g_loffs g) 0 k j) as [Gk [_ Hk]]; auto.
      destruct (depends_level k a Gk) as [k' [Gk' [-> Hl]]]; [exists u; auto|].
      destruct (Hk k' Gk') as [i [Hi Hn]]; [lia|].
      assert (Hm' : nth_error (map fst ps) i = Some (gblk g k')).
      { rewrite E2. unfold all_blocks. rewrite nth_error_map. unfold all_idx. rewrite Hn. reflexivity. }
      rewrite nth_error_map in Hm'. destruct (nth_error ps i) as [[a u']|] eqn:Ei; [|discriminate].
      simpl in Hm'. inversion Hm'; subst a. exists i, u'. auto.
    Qed.
  End Ord.

  Lemma c10 sub : roi_dims n sub -> (forall i, (i < n)%nat -> 0 <= (shape sub)@i) ->
    (exists p, pt_in p sub /\ in_total_write t p) ->
    NoDup (get_subgraph_blocks g sub false) /\
    forall b, In b (get_subgraph_blocks g sub false) <->
      generated g b /\ exists p, pt_in p (b_write b) /\ pt_in p sub /\ in_total_write t p.
  Proof.
    intros Ds Ps [p0 [Hp0 Hp0']]. apply tw_spec in Hp0'.
    assert (I : intersects sub (g_twrite g) = true).
    { apply (overlap_intersects n); auto; try apply wf. exists p0. auto. }
    split; [apply (sub_spec n g wf); auto|]. intros b.
    rewrite (sub_write_gen n g wf) by auto. rewrite generated_iff.
    assert (PI : forall p, pt_in p (intersect sub (g_twrite g)) <-> pt_in p sub /\ in_total_write t p).
    { intros p. rewrite tw_spec. rewrite !(pt_in_spec n) by (auto; try apply wf; apply intersect_dims; auto; apply wf).
      split.
      - intros [Lp H]. split; (split; [auto|]); intros i Hi; specialize (H i Hi);
          destruct (intersect_nth n sub (g_twrite g) i Ds (wg_tw g n wf) I Hi) as [A B]; rewrite A, B in H; lia.
      - intros [[Lp H1] [_ H2]]. split; auto. intros i Hi. specialize (H1 i Hi). specialize (H2 i Hi).
        destruct (intersect_nth n sub (g_twrite g) i Ds (wg_tw g n wf) I Hi) as [A B]; rewrite A, B. lia. }
    assert (X : is_gblk n g b -> (intersects (b_write b) (intersect sub (g_twrite g)) = true <->
       exists p, pt_in p (b_write b) /\ pt_in p sub /\ in_total_write t p)).
    { intros [k [Gk ->]]. rewrite <- (overlap_intersects n).
      - unfold overlap. split; intros [p [A B]]; exists p; (split; [auto|]); apply PI; auto.
      - apply (gblk_dims n g wf); auto using gl.
      - apply intersect_dims; auto. apply wf.
      - intros i Hi. pose proof (gblk_write_pos n g wf k i Gk Hi). lia.
      - intros i Hi. destruct (intersect_nth n sub (g_twrite g) i Ds (wg_tw g n wf) I Hi) as [_ ->].
        rewrite (intersects_spec n) in I; auto; try apply wf. specialize (I i Hi). lia. }
    split; intros [A B]; (split; [auto|]); apply X; auto.
  Qed.

  Lemma c11 sub : roi_dims n sub -> (forall i, (i < n)%nat -> 0 <= (shape sub)@i) ->
    ~ (exists p, pt_in p sub /\ in_total_write t p) ->
    (get_subgraph_blocks g sub false = [] <->
     ~ exists k, cell_fits t k /\
        forall i, (i < n)%nat -> (offset (cell t k))@i < 0 < (offset (cell t k))@i + (shape (cell t k))@i).
  Proof.
    intros Ds Ps Hno.
    rewrite (sub_disjoint n g wf); auto.
    - unfold origin_free. split.
      + intros H [k [Hk Hk']]. apply fits_grid in Hk. apply (H (gblk g k)); [exists k; auto|].
        rewrite gblk_req, <- cell_blk by (apply gl; auto). auto.
      + intros H b [k [Gk ->]] Hk'. apply H. exists k. split; [apply fits_grid; auto|].
        rewrite gblk_req, <- cell_blk in Hk' by (apply gl; auto). auto.
    - simpl. destruct (intersects sub (g_twrite g)) eqn:I; auto. exfalso. apply Hno.
      apply (overlap_intersects n) in I; auto; try apply wf. destruct I as [p [A B]].
      exists p. split; auto. apply tw_spec. auto.
  Qed.
End Built.

Lemma upd_same {V} (f : nat -> V) k v : upd f k v k = v.
Proof. unfold upd. rewrite Nat.eqb_refl. reflexivity. Qed.
Lemma upd_other {V} (f : nat -> V) k v j : j <> k -> upd f k v j = f j.
Proof. intros H. unfold upd. destruct (Nat.eqb_spec k j); congruence. Qed.

(* Tasks without room for a block *)
Section NoRoom.
  Variables (n : nat) (t : task) (g : bgraph).
  Hypothesis bu : built n t g.
  Hypothesis none : forall b, ~ generated g b.

  Lemma noroom_levels : t_rwc t = true -> g_loffs g = [].
  Proof.
    intros Hr. destruct (g_loffs g) as [|lo l] eqn:El; auto. exfalso.
    pose proof (bu_wf n t g bu) as wf.
    assert (H : forall i, (i < n)%nat -> 0 < NL g i).
    { apply (loffs_NL n g wf lo). rewrite El. left; auto. }
    apply (none (gblk g (repeat 0 n))). apply (generated_iff n t g bu). exists (repeat 0 n).
    split; auto. split; [apply repeat_length|]. intros i Hi. rewrite (nth_repeat 0).
    specialize (H i Hi). unfold NL in H. rewrite (bu_rwc n t g bu), Hr in H. lia.
  Qed.

  Lemma single_init : task_graph t = Ok g -> t_ups t = [] ->
    sched_init [t] =
    (nr <- num_roots g ;; gen <- root_gen g ;; nb <- num_blocks g ;;
     Ok (DGraph [t_id t] (upd (fun _ => None) (t_id t) (Some t)) (upd (fun _ => []) (t_id t) [])
                (upd (fun _ => []) (t_id t) []) (upd (fun _ => None) (t_id t) (Some g)),
         Sched surf_init (upd (fun _ => pqueue_init 0 []) (t_id t) (pqueue_init nr gen))
               (upd (upd (fun _ => tstate_init) (t_id t) (ts_add_ready nr tstate_init)) (t_id t)
                    (ts_set_total nb (ts_add_ready nr tstate_init))) [t_id t])).
  Proof.
    intros Eg Hu. unfold sched_init, dgraph_init. cbn [fold_left].
    destruct t as [i tot rd wr rwc f wk rt ups]. cbn [t_ups t_id] in *. subst ups.
    cbn [add_task mem d_ids dgraph_empty t_id t_ups existsb app d_task d_ups d_downs d_graph].
    unfold add_graphs. cbn [foldM d_task d_ids]. rewrite upd_same, Eg.
    cbn [bind d_ids d_task d_ups d_downs d_graph].
    unfold init_roots, root_tasks. cbn [d_ids filter d_ups]. rewrite upd_same.
    cbn [foldM]. unfold get_graph. cbn [d_graph]. rewrite upd_same. cbn [bind].
    destruct (num_roots g) as [nr|e]; cbn [bind]; auto.
    destruct (root_gen g) as [gen|e]; cbn [bind]; auto.
    cbn [init_task mem existsb t_id t_ups]. unfold get_graph. cbn [d_graph s_st s_surf s_q s_order].
    rewrite upd_same. cbn [bind].
    destruct (num_blocks g) as [nb|e]; cbn [bind]; auto.
    unfold sadd. cbn [mem existsb app]. rewrite Nat.eqb_refl. cbn [orb].
    rewrite upd_same. reflexivity.
  Qed.

  Lemma c26_bad : task_graph t = Ok g -> t_ups t = [] -> t_rwc t = true ->
    sched_init [t] = Err IndexError.
  Proof.
    intros Eg Hu Hr. rewrite (single_init Eg Hu). unfold num_roots, num_level_blocks.
    rewrite (noroom_levels Hr). reflexivity.
  Qed.

  Lemma c26_good : task_graph t = Ok g -> t_ups t = [] -> t_rwc t = false ->
    exists d s, sched_init [t] = Ok (d, s) /\ ts_total (s_st s (t_id t)) = 0 /\
      ts_ready (s_st s (t_id t)) = 0 /\ get_ready_tasks s = [].
  Proof.
    intros Eg Hu Hr. rewrite (single_init Eg Hu).
    destruct (c03 n t g bu) as [bss [_ [Hnb [_ [Hb Hroot]]]]].
    destruct Hroot as [rs [E1 [E2 E3]]]; [auto|]. rewrite E1, E2, Hnb. cbn [bind].
    assert (Z1 : concat bss = []).
    { destruct (concat bss) as [|b l]; auto. exfalso. apply (none b). apply Hb. left; auto. }
    assert (Z2 : rs = []).
    { destruct rs as [|b l]; auto. exfalso. apply (none b). exists O, (b :: l). split; auto. left; auto. }
    rewrite Z1, Z2. cbn [length Z.of_nat]. eexists. eexists. split; [reflexivity|].
    cbn [s_st]. unfold upd. rewrite Nat.eqb_refl. split; auto. split; auto.
    unfold get_ready_tasks. cbn [s_order filter s_st]. unfold upd. rewrite Nat.eqb_refl. reflexivity.
  Qed.
End NoRoom.
