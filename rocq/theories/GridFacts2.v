(* Blocks, levels and intra-task dependencies in grid coordinates. *)
From Coq Require Import Permutation FinFun.
From Verif Require Import VecFacts CantorFacts.
From Verif Require Export BGraph GridFacts.
Open Scope Z_scope.

(* the block with grid index k, before and after fit_block *)
Definition blk (g : bgraph) (k : coord) : block :=
  mk_block (g_tread g)
    (Roi (cadd (offset (g_tread g)) (cmul k (shape (g_bwrite g)))) (shape (g_bread g)))
    (Roi (cadd (offset (g_twrite g)) (cmul k (shape (g_bwrite g)))) (shape (g_bwrite g)))
    (g_tid g).
Definition gblk (g : bgraph) (k : coord) : block := fit_block g (blk g k).

Lemma div_floor_iff e w k : 0 < w -> (k < e / w <-> k * w + w <= e).
Proof.
  intros Hw. split; intros H.
  - pose proof (Z.mul_div_le e w Hw). nia.
  - assert (k + 1 <= e / w); [|lia]. apply Z.div_le_lower_bound; lia.
Qed.
Lemma div_ceil_iff e w k : 0 < w -> (k < (e + w - 1) / w <-> k * w < e).
Proof. intros Hw. rewrite div_floor_iff by auto. lia. Qed.

Section Grid.
  Variables (n : nat) (g : bgraph).
  Hypothesis wf : wf_graph g n.

  Local Notation w := (shape (g_bwrite g)).
  Local Notation NB := (NB g).
  Local Notation NL := (NL g).
  Local Notation W := (W g).
  Local Notation E := (E g).
  Local Notation T0 := (T0 g).
  Local Notation C0 := (C0 g).
  Local Notation C1 := (C1 g).

  Definition grid (k : coord) : Prop :=
    length k = n /\ forall i, (i < n)%nat -> 0 <= k@i < NB i.

  Hint Resolve wg_br wg_bw wg_tr wg_tw wg_c0l wg_c1l wg_rl wg_sl : vec.

  Lemma grid_len k : grid k -> length k = n. Proof. intros []; auto. Qed.
  Hint Resolve grid_len : vec.

  Lemma NB_iff k i : (i < n)%nat ->
    (k < NB i <-> match g_fit g with Valid => k * W i + W i <= E i | _ => k * W i < E i end).
  Proof.
    intros Hi. pose proof (wg_w g n wf i Hi). unfold GridFacts.NB.
    destruct (g_fit g); [apply div_floor_iff|apply div_ceil_iff|apply div_ceil_iff]; auto.
  Qed.

  Lemma grid_lt_E k i : grid k -> (i < n)%nat -> 0 <= k@i * W i < E i.
  Proof.
    intros [_ H] Hi. specialize (H i Hi). pose proof (wg_w g n wf i Hi) as Hw.
    destruct H as [Hl H]. apply NB_iff in H; auto. destruct (g_fit g); nia.
  Qed.

  Lemma blk_read_dims k : length k = n -> roi_dims n (b_read (blk g k)).
  Proof. intros. simpl. auto 12 with vec. Qed.
  Lemma blk_write_dims k : length k = n -> roi_dims n (b_write (blk g k)).
  Proof. intros. simpl. auto 12 with vec. Qed.
  Hint Resolve blk_read_dims blk_write_dims : vec.

  Lemma blk_read_nth k i : length k = n -> (i < n)%nat ->
    (offset (b_read (blk g k)))@i = T0 i + k@i * W i /\
    (shape (b_read (blk g k)))@i = C0 i + W i + C1 i.
  Proof.
    intros Hk Hi. simpl. rewrite (cadd_nth n), (cmul_nth n) by auto 12 with vec.
    rewrite (wg_rs g n wf) by auto. auto.
  Qed.
  Lemma blk_write_nth k i : length k = n -> (i < n)%nat ->
    (offset (b_write (blk g k)))@i = T0 i + C0 i + k@i * W i /\
    (shape (b_write (blk g k)))@i = W i.
  Proof.
    intros Hk Hi. simpl. rewrite (cadd_nth n), (cmul_nth n) by auto 12 with vec.
    rewrite (wg_tw0 g n wf) by auto. auto.
  Qed.

  (* inclusion_criteria holds exactly on the grid *)
  Lemma inclusion_blk k : length k = n -> (inclusion g (blk g k) = true <-> grid k).
  Proof.
    intros Hk. unfold inclusion, shrink_possible.
    assert (Hb :
      contains_pt (g_twrite g) (rbegin (b_write (blk g k))) = true <->
      forall i, (i < n)%nat -> 0 <= k@i * W i < E i).
    { rewrite (contains_pt_spec n) by (unfold rbegin; auto 12 with vec).
      split; intros H i Hi; specialize (H i Hi); destruct (blk_write_nth k i Hk Hi) as [A _];
        unfold rbegin in *; rewrite A, (wg_tw0 g n wf) in * by auto;
        fold (E i) in *; lia. }
    assert (Hg : grid k <-> forall i, (i < n)%nat -> 0 <= k@i < NB i).
    { unfold grid. tauto. }
    rewrite Hg. clear Hg.
    destruct (g_fit g) eqn:F.
    - rewrite (contains_roi_spec n).
      + split; intros H i Hi; specialize (H i Hi);
        destruct (blk_write_nth k i Hk Hi) as [A B]; pose proof (wg_w g n wf i Hi);
        rewrite A, B, (wg_tw0 g n wf) in * by auto; fold (E i) in *;
        rewrite NB_iff, F in * by auto; nia.
      + auto 12 with vec.
      + auto 12 with vec.
      + intros i Hi. destruct (blk_write_nth k i Hk Hi) as [_ ->]. apply (wg_w g n wf i Hi).
    - rewrite Hb. split; intros H i Hi; specialize (H i Hi); pose proof (wg_w g n wf i Hi);
      rewrite NB_iff, F in * by auto; nia.
    - rewrite Hb. split; intros H i Hi; specialize (H i Hi); pose proof (wg_w g n wf i Hi);
      rewrite NB_iff, F in * by auto; nia.
  Qed.

  (* the fitted block's ROIs *)
  Lemma shrink_write_intersects k : grid k -> intersects (g_twrite g) (b_write (blk g k)) = true.
  Proof.
    intros Hg. assert (Hk := grid_len k Hg).
    apply (intersects_spec n); auto 12 with vec.
    - intros i Hi. apply (wg_e g n wf i Hi).
    - intros i Hi. destruct (blk_write_nth k i Hk Hi) as [_ ->]. pose proof (wg_w g n wf i Hi). lia.
    - intros i Hi. destruct (blk_write_nth k i Hk Hi) as [-> ->].
      pose proof (wg_w g n wf i Hi). pose proof (grid_lt_E k i Hg Hi).
      rewrite (wg_tw0 g n wf) by auto. fold (E i). lia.
  Qed.
  Lemma shrink_read_intersects k : grid k -> intersects (g_tread g) (b_read (blk g k)) = true.
  Proof.
    intros Hg. assert (Hk := grid_len k Hg).
    assert (forall i, (i < n)%nat -> 0 <= E i /\ 0 <= C0 i /\ 0 <= C1 i /\ 0 < W i).
    { intros i Hi. split; [apply (wg_e g n wf i Hi)|]. split; [apply (wg_c0 g n wf i Hi)|].
      split; [apply (wg_c1 g n wf i Hi)|apply (wg_w g n wf i Hi)]. }
    apply (intersects_spec n); auto 12 with vec.
    - intros i Hi. rewrite (wg_ts g n wf) by auto. specialize (H i Hi). lia.
    - intros i Hi. destruct (blk_read_nth k i Hk Hi) as [_ ->]. specialize (H i Hi). lia.
    - intros i Hi. destruct (blk_read_nth k i Hk Hi) as [-> ->].
      pose proof (grid_lt_E k i Hg Hi). specialize (H i Hi).
      rewrite (wg_ts g n wf) by auto. fold (T0 i). lia.
  Qed.

  Lemma gblk_dims k : length k = n -> roi_dims n (b_read (gblk g k)) /\ roi_dims n (b_write (gblk g k)).
  Proof.
    intros Hk. unfold gblk, fit_block. destruct (g_fit g); try (split; auto 12 with vec; fail).
    split; simpl; auto 12 with vec.
  Qed.

  Definition fitted_end (i : nat) (x : Z) : Z :=
    match g_fit g with Shrink => Z.min (E i) x | _ => x end.

  Lemma gblk_write_nth k i : grid k -> (i < n)%nat ->
    (offset (b_write (gblk g k)))@i = T0 i + C0 i + k@i * W i /\
    (shape (b_write (gblk g k)))@i = fitted_end i (k@i * W i + W i) - k@i * W i.
  Proof.
    intros Hg Hi. assert (Hk := grid_len k Hg). unfold gblk, fit_block, fitted_end.
    destruct (blk_write_nth k i Hk Hi) as [A B].
    pose proof (grid_lt_E k i Hg Hi). pose proof (wg_w g n wf i Hi).
    destruct (g_fit g); try (rewrite A, B; lia).
    cbn [shrink b_write].
    destruct (intersect_nth n (g_twrite g) (b_write (blk g k)) i) as [-> ->];
      auto using shrink_write_intersects with vec.
    rewrite A, B, (wg_tw0 g n wf) by auto. fold (E i). lia.
  Qed.
  Lemma gblk_read_nth k i : grid k -> (i < n)%nat ->
    (offset (b_read (gblk g k)))@i = T0 i + k@i * W i /\
    (shape (b_read (gblk g k)))@i = C0 i + (fitted_end i (k@i * W i + W i) - k@i * W i) + C1 i.
  Proof.
    intros Hg Hi. assert (Hk := grid_len k Hg). unfold gblk, fit_block, fitted_end.
    destruct (blk_read_nth k i Hk Hi) as [A B].
    pose proof (grid_lt_E k i Hg Hi). pose proof (wg_w g n wf i Hi).
    pose proof (wg_c0 g n wf i Hi). pose proof (wg_c1 g n wf i Hi).
    destruct (g_fit g); try (rewrite A, B; lia).
    cbn [shrink b_read].
    destruct (intersect_nth n (g_tread g) (b_read (blk g k)) i) as [-> ->];
      auto using shrink_read_intersects with vec.
    rewrite A, B, (wg_ts g n wf) by auto. fold (T0 i). lia.
  Qed.
  Lemma gblk_write_pos k i : grid k -> (i < n)%nat -> 0 < (shape (b_write (gblk g k)))@i.
  Proof.
    intros Hg Hi. destruct (gblk_write_nth k i Hg Hi) as [_ ->]. unfold fitted_end.
    pose proof (grid_lt_E k i Hg Hi). pose proof (wg_w g n wf i Hi). destruct (g_fit g); lia.
  Qed.

  Lemma gblk_task k : b_task (gblk g k) = g_tid g.
  Proof. unfold gblk, fit_block. destruct (g_fit g); reflexivity. Qed.
  Lemma gblk_num k : b_num (gblk g k) = b_num (blk g k).
  Proof. unfold gblk, fit_block. destruct (g_fit g); reflexivity. Qed.
  Lemma gblk_req k : b_req (gblk g k) = b_write (blk g k).
  Proof. unfold gblk, fit_block. destruct (g_fit g); reflexivity. Qed.

  (* fit_block is idempotent on the blocks of the grid (root_gen applies it twice) *)
  Lemma fit_gblk k : grid k -> fit_block g (gblk g k) = gblk g k.
  Proof.
    intros Hg. assert (Hk := grid_len k Hg). destruct (g_fit g) eqn:F;
      try (unfold fit_block at 1; rewrite F; reflexivity).
    assert (X : intersect (g_twrite g) (b_write (gblk g k)) = b_write (gblk g k)).
    { destruct (gblk_dims k Hk) as [_ D].
      assert (I : intersects (g_twrite g) (b_write (gblk g k)) = true).
      { apply (intersects_spec n); auto 12 with vec.
        - intros i Hi. apply (wg_e g n wf i Hi).
        - intros i Hi. pose proof (gblk_write_pos k i Hg Hi). lia.
        - intros i Hi. pose proof (gblk_write_pos k i Hg Hi).
          destruct (gblk_write_nth k i Hg Hi) as [A B]. rewrite A.
          pose proof (grid_lt_E k i Hg Hi). rewrite (wg_tw0 g n wf) by auto. fold (E i). lia. }
      apply (roi_ext n); auto 12 with vec; intros i Hi;
      destruct (intersect_nth n (g_twrite g) (b_write (gblk g k)) i) as [A1 A2]; auto 12 with vec;
      destruct (gblk_write_nth k i Hg Hi) as [A B]; rewrite ?A1, ?A2, ?A, ?B;
      pose proof (grid_lt_E k i Hg Hi); pose proof (wg_w g n wf i Hi);
      rewrite (wg_tw0 g n wf) by auto; fold (E i); unfold fitted_end; rewrite ?F; lia. }
    assert (Y : intersect (g_tread g) (b_read (gblk g k)) = b_read (gblk g k)).
    { destruct (gblk_dims k Hk) as [D _].
      assert (P : forall i, (i < n)%nat -> 0 <= C0 i /\ 0 <= C1 i).
      { intros i Hi. split; [apply (wg_c0 g n wf i Hi)|apply (wg_c1 g n wf i Hi)]. }
      assert (I : intersects (g_tread g) (b_read (gblk g k)) = true).
      { apply (intersects_spec n); auto 12 with vec.
        - intros i Hi. rewrite (wg_ts g n wf) by auto. pose proof (wg_e g n wf i Hi). specialize (P i Hi). lia.
        - intros i Hi. destruct (gblk_read_nth k i Hg Hi) as [_ ->]. unfold fitted_end. rewrite F.
          pose proof (grid_lt_E k i Hg Hi). pose proof (wg_w g n wf i Hi). specialize (P i Hi). lia.
        - intros i Hi. destruct (gblk_read_nth k i Hg Hi) as [-> ->]. unfold fitted_end. rewrite F.
          rewrite (wg_ts g n wf) by auto. fold (T0 i).
          pose proof (grid_lt_E k i Hg Hi). pose proof (wg_w g n wf i Hi). specialize (P i Hi). lia. }
      apply (roi_ext n); auto 12 with vec; intros i Hi;
      destruct (intersect_nth n (g_tread g) (b_read (gblk g k)) i) as [A1 A2]; auto 12 with vec;
      destruct (gblk_read_nth k i Hg Hi) as [A B]; rewrite ?A1, ?A2, ?A, ?B;
      pose proof (grid_lt_E k i Hg Hi); pose proof (wg_w g n wf i Hi); specialize (P i Hi);
      rewrite ?(wg_ts g n wf) by auto; fold (T0 i); unfold fitted_end; rewrite ?F; lia. }
    unfold fit_block at 1. rewrite F. unfold shrink. rewrite X, Y. now destruct (gblk g k).
  Qed.

  (* block ids *)
  Lemma blk_num_index k : grid k -> exists v, b_num (blk g k) = cantor_number v /\ length v = n /\
    forall i, (i < n)%nat -> v@i = C0 i / W i + k@i.
  Proof.
    intros Hg. assert (Hk := grid_len k Hg).
    exists (ctruediv (csub (offset (b_write (blk g k))) (offset (g_tread g))) w).
    split; [reflexivity|]. split; [auto 12 with vec|].
    intros i Hi. rewrite (ctruediv_nth n), (csub_nth n) by auto 12 with vec.
    destruct (blk_write_nth k i Hk Hi) as [-> _]. fold (T0 i). fold (W i).
    replace (T0 i + C0 i + k@i * W i - T0 i) with (C0 i + k@i * W i) by lia.
    pose proof (wg_w g n wf i Hi). pose proof (wg_c0 g n wf i Hi). pose proof (grid_lt_E k i Hg Hi).
    rewrite Z.quot_div_nonneg by lia. now rewrite Z.div_add by lia.
  Qed.

  Lemma blk_num_inj k k' : grid k -> grid k' -> b_num (gblk g k) = b_num (gblk g k') -> k = k'.
  Proof.
    intros Hg Hg' H. rewrite !gblk_num in H.
    destruct (blk_num_index k Hg) as [v [-> [Lv Nv]]] in H.
    destruct (blk_num_index k' Hg') as [v' [E' [Lv' Nv']]]. rewrite E' in H.
    assert (P : forall k v, grid k -> length v = n -> (forall i, (i < n)%nat -> v@i = C0 i / W i + k@i) ->
              Forall (Z.le 0) v).
    { clear - wf. intros k v Hg Lv Nv. apply Forall_forall. intros x Hx.
      destruct (In_nth _ _ 0 Hx) as [i [Hi Ei]]. rewrite <- Ei. rewrite Nv by lia.
      destruct Hg as [_ Hg]. specialize (Hg i ltac:(lia)).
      pose proof (wg_c0 g n wf i ltac:(lia)). pose proof (wg_w g n wf i ltac:(lia)).
      assert (0 <= C0 i / W i) by (apply Z.div_pos; lia). lia. }
    apply cantor_inj in H; [|congruence|apply (P k v); auto|apply (P k' v'); auto].
    apply (nth_ext0 _ _ n); auto 12 with vec.
    intros i Hi. specialize (Nv i Hi). specialize (Nv' i Hi). rewrite H in Nv. lia.
  Qed.

  Lemma gblk_inj k k' : grid k -> grid k' -> gblk g k = gblk g k' -> k = k'.
  Proof. intros Hg Hg' H. apply blk_num_inj; auto. congruence. Qed.

  Definition is_gblk (b : block) : Prop := exists k, grid k /\ b = gblk g k.

  Lemma gblk_eqb_on : eqb_on block_eqb is_gblk.
  Proof.
    intros x y [k [Hk ->]] [k' [Hk' ->]]. unfold block_eqb, bid_eqb, bid. simpl.
    rewrite andb_true_iff, Nat.eqb_eq, Z.eqb_eq. split.
    - intros [_ H]. apply blk_num_inj in H; auto. congruence.
    - intros H. rewrite H. auto.
  Qed.

  (* block_at: the generated blocks *)
  Lemma block_at_blk k : length k = n ->
    block_at g (cadd (cmul k w) (csub (rbegin (g_tread g)) (rbegin (g_bread g)))) = blk g k.
  Proof.
    intros Hk. unfold block_at, blk, rshift. 
    assert (L : length (cmul k w) = n) by auto 12 with vec.
    assert (A : cadd (offset (g_bread g)) (cadd (cmul k w) (csub (rbegin (g_tread g)) (rbegin (g_bread g))))
                = cadd (offset (g_tread g)) (cmul k w)).
    { apply (nth_ext0 _ _ n); unfold rbegin; auto 12 with vec. intros i Hi.
      rewrite !(cadd_nth n), (csub_nth n) by auto 12 with vec. lia. }
    assert (B : cadd (offset (g_bwrite g)) (cadd (cmul k w) (csub (rbegin (g_tread g)) (rbegin (g_bread g))))
                = cadd (offset (g_twrite g)) (cmul k w)).
    { apply (nth_ext0 _ _ n); unfold rbegin; auto 12 with vec. intros i Hi.
      rewrite !(cadd_nth n), (csub_nth n) by auto 12 with vec.
      rewrite (wg_tw0 g n wf) by auto. unfold GridFacts.T0. pose proof (wg_c0 g n wf i Hi). lia. }
    rewrite A, B. reflexivity.
  Qed.

  (* conflict_block: displaced blocks *)
  Lemma conflict_sub k c : grid k -> length c = n ->
    conflict_block g csub (gblk g k) (cmul c w) = blk g (csub k c).
  Proof.
    intros Hg Hc. assert (Hk := grid_len k Hg). unfold conflict_block, blk.
    destruct (gblk_dims k Hk) as [D1 D2].
    assert (A : csub (offset (b_read (gblk g k))) (cmul c w) = cadd (offset (g_tread g)) (cmul (csub k c) w)).
    { apply (nth_ext0 _ _ n); auto 12 with vec. intros i Hi.
      rewrite (csub_nth n), (cadd_nth n), !(cmul_nth n), (csub_nth n) by auto 12 with vec.
      destruct (gblk_read_nth k i Hg Hi) as [-> _]. unfold GridFacts.T0, GridFacts.W. lia. }
    assert (B : csub (offset (b_write (gblk g k))) (cmul c w) = cadd (offset (g_twrite g)) (cmul (csub k c) w)).
    { apply (nth_ext0 _ _ n); auto 12 with vec. intros i Hi.
      rewrite (csub_nth n), (cadd_nth n), !(cmul_nth n), (csub_nth n) by auto 12 with vec.
      destruct (gblk_write_nth k i Hg Hi) as [-> _]. rewrite (wg_tw0 g n wf) by auto.
      unfold GridFacts.T0, GridFacts.W. lia. }
    rewrite A, B. reflexivity.
  Qed.
  Lemma conflict_add k c : grid k -> length c = n ->
    conflict_block g cadd (gblk g k) (cmul c w) = blk g (cadd k c).
  Proof.
    intros Hg Hc. assert (Hk := grid_len k Hg). unfold conflict_block, blk.
    destruct (gblk_dims k Hk) as [D1 D2].
    assert (A : cadd (offset (b_read (gblk g k))) (cmul c w) = cadd (offset (g_tread g)) (cmul (cadd k c) w)).
    { apply (nth_ext0 _ _ n); auto 12 with vec. intros i Hi.
      rewrite !(cadd_nth n), !(cmul_nth n), (cadd_nth n) by auto 12 with vec.
      destruct (gblk_read_nth k i Hg Hi) as [-> _]. unfold GridFacts.T0, GridFacts.W. lia. }
    assert (B : cadd (offset (b_write (gblk g k))) (cmul c w) = cadd (offset (g_twrite g)) (cmul (cadd k c) w)).
    { apply (nth_ext0 _ _ n); auto 12 with vec. intros i Hi.
      rewrite !(cadd_nth n), !(cmul_nth n), (cadd_nth n) by auto 12 with vec.
      destruct (gblk_write_nth k i Hg Hi) as [-> _]. rewrite (wg_tw0 g n wf) by auto.
      unfold GridFacts.T0, GridFacts.W. lia. }
    rewrite A, B. reflexivity.
  Qed.

  (* levels *)
  Lemma NL_pos k i : grid k -> (i < n)%nat -> 0 < NL i /\ NL i <= NB i.
  Proof.
    intros [_ H] Hi. specialize (H i Hi). unfold GridFacts.NL.
    pose proof (wg_w g n wf i Hi). pose proof (wg_c0 g n wf i Hi). pose proof (wg_c1 g n wf i Hi).
    assert (0 <= (Z.max (C0 i) (C1 i) + W i - 1) / W i) by (apply Z.div_pos; lia).
    destruct (g_rwc g); lia.
  Qed.

  Definition levvec (k : coord) : coord := cmod (cmul k w) (g_stride g).

  Lemma levvec_len k : length k = n -> length (levvec k) = n.
  Proof. intros. unfold levvec. auto 12 with vec. Qed.
  Lemma levvec_nth k i : length k = n -> (i < n)%nat -> NL i <> 0 -> (levvec k)@i = (k@i mod NL i) * W i.
  Proof.
    intros Hk Hi Hn. unfold levvec. rewrite (cmod_nth n), (cmul_nth n) by auto 12 with vec.
    rewrite (wg_s g n wf) by auto. pose proof (wg_w g n wf i Hi). fold (W i).
    apply Z.mul_mod_distr_r; lia.
  Qed.

  Lemma in_loffs v : (forall i, (i < n)%nat -> 0 < NL i) ->
    In v (g_loffs g) <->
    length v = n /\ forall i, (i < n)%nat -> exists u, 0 <= u < NL i /\ v@i = u * W i.
  Proof.
    intros HN. rewrite (wg_lo g n wf). unfold compute_level_offsets. rewrite <- in_rev.
    rewrite (in_product 0).
    assert (L : length (map2 (fun e step : Z => py_range 0 e step) (g_stride g) w) = n)
      by (apply map2_length; auto 12 with vec).
    rewrite L.
    split; intros [Hl H]; split; auto; intros i Hi; specialize (H i Hi);
    rewrite (map2_nth _ _ _ i 0 0) in * by vl n; fold (W i) in *;
    rewrite (wg_s g n wf) in * by auto; pose proof (wg_w g n wf i Hi).
    - apply in_py_range in H; auto. destruct H as [u [Hu0 [-> Hu]]]. exists u. nia.
    - apply in_py_range; auto. destruct H as [u [Hu0 Hu]]. exists u. nia.
  Qed.

  Lemma levvec_in k : grid k -> In (levvec k) (g_loffs g).
  Proof.
    intros Hg. assert (Hk := grid_len k Hg). apply in_loffs.
    - intros i Hi. apply (NL_pos k); auto.
    - split; [apply levvec_len; auto|]. intros i Hi.
      destruct (NL_pos k i Hg Hi) as [Hn _]. exists (k@i mod NL i). split.
      + apply Z.mod_pos_bound; auto.
      + apply levvec_nth; auto. lia.
  Qed.

  Lemma NoDup_loffs : NoDup (g_loffs g).
  Proof.
    rewrite (wg_lo g n wf). unfold compute_level_offsets. apply NoDup_rev. apply NoDup_product.
    intros l Hl. destruct (In_nth _ _ [] Hl) as [i [Hi El]].
    assert (L : length (map2 (fun e step : Z => py_range 0 e step) (g_stride g) w) = n)
      by (apply map2_length; auto 12 with vec).
    rewrite L in Hi. rewrite (map2_nth _ _ _ i 0 0) in El by vl n. subst l.
    apply NoDup_py_range. apply (wg_w g n wf i Hi).
  Qed.

  Lemma find_index_spec x l j : 
    match find_index x l j with
    | Some i => (j <= i)%nat /\ nth_error l (i - j) = Some x
    | None => ~ In x l
    end.
  Proof.
    revert j; induction l as [|y l IH]; intros j; simpl; auto.
    destruct (coord_eqb x y) eqn:Exy.
    - apply coord_eqb_eq in Exy. subst. split; auto. now rewrite Nat.sub_diag.
    - specialize (IH (S j)). destruct (find_index x l (S j)) as [i|].
      + destruct IH as [H1 H2]. split; [lia|].
        replace (i - j)%nat with (S (i - S j)) by lia. exact H2.
      + intros [<-|H]; auto. assert (coord_eqb y y = true) by (apply coord_eqb_eq; auto). congruence.
  Qed.

  (* the level of the block with index k *)
  Definition lvl (k : coord) : nat :=
    match find_index (levvec k) (g_loffs g) 0 with Some i => i | None => O end.

  Lemma lvl_nth k : grid k -> nth_error (g_loffs g) (lvl k) = Some (levvec k).
  Proof.
    intros Hg. unfold lvl. pose proof (find_index_spec (levvec k) (g_loffs g) 0) as H.
    destruct (find_index (levvec k) (g_loffs g) 0) as [i|].
    - rewrite Nat.sub_0_r in H. apply H.
    - exfalso. apply H. apply levvec_in; auto.
  Qed.
  Lemma lvl_unique k l : grid k -> nth_error (g_loffs g) l = Some (levvec k) -> lvl k = l.
  Proof.
    intros Hg H. pose proof (lvl_nth k Hg) as H'.
    assert (L : (lvl k < length (g_loffs g))%nat) by (apply nth_error_Some; congruence).
    apply (proj1 (NoDup_nth_error _) NoDup_loffs); auto. congruence.
  Qed.
  Lemma lvl_lt k : grid k -> (lvl k < num_levels g)%nat.
  Proof. intros Hg. apply nth_error_Some. rewrite lvl_nth; auto. congruence. Qed.
  Lemma lvl_eq_levvec k k' : grid k -> grid k' -> (lvl k = lvl k' <-> levvec k = levvec k').
  Proof.
    intros Hg Hg'. split; intros H.
    - pose proof (lvl_nth k Hg) as A. pose proof (lvl_nth k' Hg') as B. rewrite H in A. congruence.
    - unfold lvl. now rewrite H.
  Qed.

  Lemma level_of_gblk k : grid k -> level_of g (gblk g k) = Ok (lvl k).
  Proof.
    intros Hg. assert (Hk := grid_len k Hg).
    unfold level_of. 
    assert (Eo : cmod (block_offset g (gblk g k)) (g_stride g) = levvec k).
    { unfold levvec, block_offset. f_equal. destruct (gblk_dims k Hk) as [D1 D2].
      apply (nth_ext0 _ _ n); auto 12 with vec. intros i Hi.
      rewrite (csub_nth n), (cmul_nth n) by auto 12 with vec.
      destruct (gblk_read_nth k i Hg Hi) as [-> _]. unfold GridFacts.T0, GridFacts.W. lia. }
    rewrite Eo. unfold lvl. pose proof (find_index_spec (levvec k) (g_loffs g) 0) as H.
    destruct (find_index (levvec k) (g_loffs g) 0) as [i|]; auto.
    exfalso. apply H. apply levvec_in; auto.
  Qed.

  (* level conflicts: the displacements to blocks of the previous level *)
  Lemma lconf_nth : forall l, (l < num_levels g)%nat -> exists cs,
    nth_error (g_lconf g) l = Some cs /\
    forall lo, nth_error (g_loffs g) l = Some lo ->
      match l with
      | O => cs = []
      | S p => forall po, nth_error (g_loffs g) p = Some po ->
          cs = (if g_rwc g then get_conflict_offsets lo po (g_stride g) else [])
      end.
  Proof.
    rewrite (wg_lc g n wf). unfold compute_level_conflicts, num_levels.
    generalize (g_loffs g) as offs. generalize (g_rwc g) as r. generalize (g_stride g) as st.
    intros st r offs.
    assert (G : forall offs prev l, (l < length offs)%nat -> exists cs,
      nth_error (level_conflicts_from r st prev offs) l = Some cs /\
      forall lo, nth_error offs l = Some lo ->
      match l with
      | O => cs = match prev with Some p => if r then get_conflict_offsets lo p st else [] | None => [] end
      | S p => forall po, nth_error offs p = Some po ->
          cs = (if r then get_conflict_offsets lo po st else [])
      end).
    { clear. induction offs as [|o offs IH]; intros prev l Hl; [simpl in Hl; lia|].
      destruct l as [|l].
      - simpl. eexists. split; [reflexivity|]. intros lo H. inversion H; subst. reflexivity.
      - simpl in Hl. destruct (IH (Some o) l ltac:(lia)) as [cs [H1 H2]].
        exists cs. split; [exact H1|]. intros lo Hlo po Hpo. specialize (H2 lo Hlo).
        destruct l as [|l].
        + simpl in Hpo. injection Hpo as <-. exact H2.
        + apply H2. exact Hpo. }
    intros l Hl. destruct (G offs None l Hl) as [cs [H1 H2]]. exists cs. split; auto.
  Qed.

  Lemma lconf_len : length (g_lconf g) = num_levels g.
  Proof.
    rewrite (wg_lc g n wf). unfold compute_level_conflicts, num_levels.
    generalize (@None coord). generalize (g_loffs g). induction l as [|x l IH]; intros o; simpl; auto.
  Qed.

  (* neighbours: closer than one level stride in every dimension *)
  Definition near (k k' : coord) : Prop := forall i, (i < n)%nat -> Z.abs (k'@i - k@i) < NL i.

  (* In grid coordinates, get_conflict_offsets yields exactly the displacements shorter than a
     level stride that lead from residue u to residue p. *)
  Lemma get_offsets_spec u p m x :
    0 < m -> 0 <= u < m -> 0 <= p < m -> 
    forall v, 0 < v ->
    In x (get_offsets (p * v - u * v) (m * v)) <->
    exists d, x = d * v /\ Z.abs d < m /\ (u + d) mod m = p.
  Proof.
    intros Hm Hu Hp v Hv. unfold get_offsets.
    assert (R : forall d, Z.abs d < m -> ((u + d) mod m = p <-> d = p - u \/ d = p - u + m \/ d = p - u - m)).
    { intros d Hd. split.
      - intros H. pose proof (Z.div_mod (u + d) m ltac:(lia)) as DM. rewrite H in DM.
        set (q := (u + d) / m) in *. assert (-2 < q < 2) by nia.
        assert (q = -1 \/ q = 0 \/ q = 1) as [->|[->| ->]] by lia; lia.
      - intros [->|[->| ->]].
        + replace (u + (p - u)) with p by lia. apply Z.mod_small; lia.
        + replace (u + (p - u + m)) with (p + 1 * m) by lia. rewrite Z.mod_add by lia. apply Z.mod_small; lia.
        + replace (u + (p - u - m)) with (p + (-1) * m) by lia. rewrite Z.mod_add by lia. apply Z.mod_small; lia. }
    destruct (p * v - u * v <? 0) eqn:L; [|destruct (p * v - u * v =? 0) eqn:Q].
    - assert (p < u) by nia. split.
      + intros [<-|[<-|[]]]; [exists (p - u)|exists (p - u + m)];
        (split; [ring|split; [lia|apply R; lia]]).
      + intros [d [-> [Hd H']]]. apply R in H'; auto. simpl. 
        destruct H' as [->|[->| ->]]; [left; ring|right; left; ring|lia].
    - assert (p = u) by nia. split.
      + intros [<-|[]]. exists 0. split; [lia|]. split; [lia|]. apply R; lia.
      + intros [d [-> [Hd H']]]. apply R in H'; auto. simpl. left.
        assert (d = 0) by lia. subst. lia.
    - assert (u < p) by nia. split.
      + intros [<-|[<-|[]]]; [exists (p - u - m)|exists (p - u)];
        (split; [ring|split; [lia|apply R; lia]]).
      + intros [d [-> [Hd H']]]. apply R in H'; auto. simpl. 
        destruct H' as [->|[->| ->]]; [right; left; ring|lia|left; ring].
  Qed.
End Grid.
