(* Intra-task dependencies, enumeration and block counts, in grid coordinates. *)
From Coq Require Import Permutation FinFun.
From Verif Require Import VecFacts CantorFacts.
From Verif Require Export BGraph GridFacts GridFacts2.
Open Scope Z_scope.

Lemma vec_choice (P : nat -> Z -> Prop) n :
  (forall i, (i < n)%nat -> exists z, P i z) ->
  exists v, length v = n /\ forall i, (i < n)%nat -> P i (v@i).
Proof.
  induction n as [|n IH]; intros H.
  - exists []. split; auto. intros; lia.
  - destruct IH as [v [Lv Hv]]; [intros; apply H; lia|].
    destruct (H n ltac:(lia)) as [z Hz]. exists (v ++ [z]). split.
    + rewrite app_length. simpl. lia.
    + intros i Hi. destruct (Nat.eq_dec i n) as [->|Hne].
      * rewrite app_nth2 by lia. rewrite Lv, Nat.sub_diag. exact Hz.
      * rewrite app_nth1 by lia. apply Hv. lia.
Qed.

(* one dimension of a dependency path *)
Lemma walk_step m N p y u pu :
  0 < m <= N -> 0 <= p < N -> 0 <= y < N -> Z.abs (y - p) < m ->
  u = p mod m -> 0 <= pu < m ->
  exists z, 0 <= z < N /\ z mod m = pu /\ Z.abs (z - p) < m /\ Z.abs (y - z) < m.
Proof.
  intros Hm Hp Hy Hd Hu Hpu.
  pose proof (Z.div_mod p m ltac:(lia)) as DM. pose proof (Z.mod_pos_bound p m ltac:(lia)).
  rewrite <- Hu in DM. assert (0 <= u < m) by lia. set (q := p / m) in *. clearbody q.
  assert (M : forall a, (m * a + pu) mod m = pu).
  { intros a. rewrite Z.add_comm, Z.mul_comm, Z.mod_add by lia. apply Z.mod_small; lia. }
  destruct (Z.eq_dec pu u) as [->|Hne].
  - exists p. split; [lia|]. split; [|lia]. rewrite DM. apply M.
  - (* q1: next point above with residue pu, q2 = q1 - m *)
    assert (exists a, let z := m * a + pu in p < z < p + m) as [a Ha].
    { destruct (Z_lt_le_dec u pu); [exists q|exists (q + 1)]; cbv zeta; lia. }
    cbv zeta in Ha.
    assert (M2 : (m * (a - 1) + pu) mod m = pu) by apply M.
    replace (m * (a - 1) + pu) with (m * a + pu - m) in M2 by lia.
    specialize (M a). set (z := m * a + pu) in *. clearbody z.
    destruct (Z_le_gt_dec p y).
    + destruct (Z_lt_le_dec z N); [exists z|exists (z - m)]; repeat split; auto; lia.
    + destruct (Z_le_gt_dec 0 (z - m)); [exists (z - m)|exists z]; repeat split; auto; lia.
Qed.

Section Grid.
  Variables (n : nat) (g : bgraph).
  Hypothesis wf : wf_graph g n.
  Variable ord : list block -> list block.
  Hypothesis ord_ok : forall l, Permutation (ord l) l.

  Local Notation w := (shape (g_bwrite g)).
  Local Notation NB := (NB g).
  Local Notation NL := (NL g).
  Local Notation W := (W g).
  Local Notation E := (E g).
  Local Notation T0 := (T0 g).
  Local Notation C0 := (C0 g).
  Local Notation C1 := (C1 g).
  Local Notation grid := (grid n g).
  Local Notation lvl := (lvl g).
  Local Notation levvec := (levvec g).
  Local Notation near := (near n g).

  Lemma grid_len' k : grid k -> length k = n. Proof. intros []; auto. Qed.
  Hint Resolve wg_br wg_bw wg_tr wg_tw wg_c0l wg_c1l wg_rl wg_sl grid_len' : vec.

  Lemma near_sym k k' : near k k' -> near k' k.
  Proof. intros H i Hi. specialize (H i Hi). lia. Qed.

  Lemma near_refl k : grid k -> near k k.
  Proof. intros H i Hi. pose proof (NL_pos n g wf k i H Hi). lia. Qed.

  Lemma near_same_level k k' : grid k -> grid k' -> near k k' -> lvl k = lvl k' -> k = k'.
  Proof.
    intros Hk Hk' Hn Hl. apply (lvl_eq_levvec n g wf) in Hl; auto.
    apply (nth_ext0 _ _ n); auto 12 with vec. intros i Hi. specialize (Hn i Hi).
    destruct (NL_pos n g wf k i Hk Hi) as [HN _].
    pose proof (levvec_nth n g wf k i (grid_len n g k Hk) Hi ltac:(lia)) as A.
    pose proof (levvec_nth n g wf k' i (grid_len n g k' Hk') Hi ltac:(lia)) as B.
    rewrite Hl in A. rewrite B in A. pose proof (wg_w g n wf i Hi).
    assert (M : k'@i mod NL i = k@i mod NL i) by nia.
    pose proof (Z.div_mod (k@i) (NL i) ltac:(lia)). pose proof (Z.div_mod (k'@i) (NL i) ltac:(lia)).
    rewrite M in *. set (a := k@i / NL i) in *. set (b := k'@i / NL i) in *.
    destruct (Z.lt_trichotomy a b) as [L|[L|L]]; [|congruence|]; exfalso; nia.
  Qed.

  Lemma lvl_norwc k : g_rwc g = false -> grid k -> lvl k = O.
  Proof.
    intros Hr Hk. assert (N1 : forall i, NL i = 1) by (intros; unfold GridFacts.NL; rewrite Hr; auto).
    destruct (lvl k) as [|p] eqn:El; auto. exfalso.
    pose proof (lvl_nth n g wf k Hk) as H. rewrite El in H.
    assert (Lp : (p < length (g_loffs g))%nat).
    { assert (S p < length (g_loffs g))%nat; [|lia]. apply nth_error_Some. congruence. }
    destruct (nth_error (g_loffs g) p) as [v|] eqn:Ev; [|apply nth_error_None in Ev; lia].
    assert (In v (g_loffs g)) by (eapply nth_error_In; eauto).
    apply (in_loffs n g wf) in H0; [|intros i Hi; rewrite N1; lia]. destruct H0 as [Lv Hv].
    assert (v = levvec k).
    { apply (nth_ext0 _ _ n); auto. { apply levvec_len; auto. apply grid_len in Hk; auto. }
      intros i Hi. destruct (Hv i Hi) as [u [Hu ->]].
      rewrite (levvec_nth n g wf) by (rewrite ?N1; auto 12 with vec; lia).
      rewrite N1 in *. rewrite Z.mod_1_r. f_equal. lia. }
    subst v. assert (S p = p); [|lia].
    apply (proj1 (NoDup_nth_error _) (NoDup_loffs n g wf)); [|congruence].
    apply nth_error_Some. congruence.
  Qed.

  (* conflict offsets between the level of k and an adjacent level *)
  Lemma in_conflict_offsets k lo po c :
    grid k -> In lo (g_loffs g) -> In po (g_loffs g) ->
    In c (get_conflict_offsets lo po (g_stride g)) <->
    exists d, length d = n /\ c = cmul d w /\
      forall i, (i < n)%nat -> Z.abs (d@i) < NL i /\ ((lo@i / W i + d@i) mod NL i) * W i = po@i.
  Proof.
    intros Hk Hlo Hpo.
    assert (HN : forall i, (i < n)%nat -> 0 < NL i) by (intros i Hi; apply (NL_pos n g wf k); auto).
    apply (in_loffs n g wf) in Hlo; auto. apply (in_loffs n g wf) in Hpo; auto.
    destruct Hlo as [Ll Hlo], Hpo as [Lp Hpo].
    unfold get_conflict_offsets. rewrite (in_product 0).
    rewrite (map2_length _ _ _ n) by auto 12 with vec.
    assert (Sp : forall i, (i < n)%nat -> forall x,
      In x (nth i (map2 get_offsets (csub po lo) (g_stride g)) []) <->
      exists d, x = d * W i /\ Z.abs d < NL i /\ ((lo@i / W i + d) mod NL i) * W i = po@i).
    { intros i Hi x. rewrite (map2_nth _ _ _ i 0 0) by vl n.
      rewrite (csub_nth n), (wg_s g n wf) by auto 12 with vec.
      destruct (Hlo i Hi) as [u [Hu ->]]. destruct (Hpo i Hi) as [p [Hp ->]].
      pose proof (wg_w g n wf i Hi). rewrite Z.div_mul by lia.
      rewrite (get_offsets_spec u p (NL i) x) by auto.
      split; intros [d [Hd1 [Hd2 Hd3]]]; exists d; split; auto; split; auto; nia. }
    split.
    - intros [Lc H].
      assert (H' : forall i, (i < n)%nat -> exists d, c@i = d * W i /\ Z.abs d < NL i /\
                 ((lo@i / W i + d) mod NL i) * W i = po@i) by (intros i Hi; apply Sp; auto).
      apply vec_choice in H'. destruct H' as [d [Ld Hd]]. exists d. split; auto. split.
      + apply (nth_ext0 _ _ n); auto 12 with vec. intros i Hi.
        rewrite (cmul_nth n) by auto 12 with vec. apply Hd; auto.
      + intros i Hi. destruct (Hd i Hi) as [_ ?]; auto.
    - intros [d [Ld [-> Hd]]]. split; [auto 12 with vec|]. intros i Hi. apply Sp; auto.
      exists (d@i). split; [apply (cmul_nth n); auto 12 with vec|]. apply Hd; auto.
  Qed.

  Lemma lev_div k i : grid k -> (i < n)%nat -> (levvec k)@i / W i = k@i mod NL i.
  Proof.
    intros Hk Hi. destruct (NL_pos n g wf k i Hk Hi). pose proof (wg_w g n wf i Hi).
    rewrite (levvec_nth n g wf) by (auto 12 with vec; lia). apply Z.div_mul. lia.
  Qed.

  Lemma conflict_blocks_spec op k cs :
    (forall b, In b (map (fit_block g) (filter (inclusion g) (map (conflict_block g op (gblk g k)) cs))) ->
               is_gblk n g b) ->
    let l := conflict_blocks ord g op (gblk g k) cs in
    NoDup l /\
    forall b, In b l <-> exists c, In c cs /\ inclusion g (conflict_block g op (gblk g k) c) = true /\
              b = fit_block g (conflict_block g op (gblk g k) c).
  Proof.
    intros HV l. unfold l, conflict_blocks.
    set (m := map (fit_block g) _) in *.
    pose proof (ord_ok (dedup block_eqb m)) as Hp. split.
    - apply (Permutation_NoDup (Permutation_sym Hp)).
      apply (NoDup_dedup block_eqb (is_gblk n g)); auto using (gblk_eqb_on n g wf).
    - intros b. split.
      + intros H. apply (Permutation_in _ Hp) in H.
        apply (proj1 (in_dedup block_eqb (is_gblk n g) (gblk_eqb_on n g wf) _ _ HV)) in H.
        unfold m in H. apply in_map_iff in H. destruct H as [x [<- Hx]].
        apply filter_In in Hx. destruct Hx as [Hx Hi]. apply in_map_iff in Hx.
        destruct Hx as [c [<- Hc]]. eauto.
      + intros [c [Hc [Hi ->]]]. apply (Permutation_in _ (Permutation_sym Hp)).
        apply (proj2 (in_dedup block_eqb (is_gblk n g) (gblk_eqb_on n g wf) _ _ HV)).
        unfold m. apply in_map. apply filter_In. split; auto. apply in_map; auto.
  Qed.

  Definition up_idx (k k' : coord) : Prop := grid k' /\ near k k' /\ S (lvl k') = lvl k.

  Lemma upstream_spec k : grid k ->
    exists l, upstream ord g (gblk g k) = Ok l /\ NoDup l /\
      forall b, In b l <-> exists k', up_idx k k' /\ b = gblk g k'.
  Proof.
    intros Hk. unfold upstream. rewrite (level_of_gblk n g wf) by auto. cbn [bind].
    pose proof (lvl_lt n g wf k Hk) as Hl.
    destruct (lconf_nth n g wf (lvl k) Hl) as [cs [Hcs Hc]].
    unfold py_nth. rewrite Hcs. cbn [bind].
    specialize (Hc _ (lvl_nth n g wf k Hk)).
    eexists. split; [reflexivity|].
    assert (HG : forall c, In c cs -> exists k', length k' = n /\
              conflict_block g cadd (gblk g k) c = blk g k' /\ near k k' /\
              (grid k' -> S (lvl k') = lvl k)).
    { intros c Hin. destruct (lvl k) as [|p] eqn:El; [subst cs; destruct Hin|].
      assert (Lp : (p < length (g_loffs g))%nat) by (unfold num_levels in Hl; lia).
      destruct (nth_error (g_loffs g) p) as [po|] eqn:Ep; [|apply nth_error_None in Ep; lia].
      specialize (Hc po eq_refl). destruct (g_rwc g); [|subst cs; destruct Hin]. subst cs.
      apply (in_conflict_offsets k) in Hin; auto;
        [|apply (levvec_in n g wf); auto|eapply nth_error_In; eauto].
      destruct Hin as [d [Ld [-> Hd]]].
      exists (cadd k d). split; [auto 12 with vec|]. split; [apply (conflict_add n g wf); auto|].
      split.
      - intros i Hi. rewrite (cadd_nth n) by auto 12 with vec. destruct (Hd i Hi). lia.
      - intros Hg'. f_equal. apply (lvl_unique n g wf); auto. rewrite Ep. f_equal.
        apply nth_error_In in Ep. apply (in_loffs n g wf) in Ep;
          [|intros i Hi; apply (NL_pos n g wf k); auto].
        apply (nth_ext0 _ _ n); [apply Ep|apply levvec_len; auto 12 with vec|]. intros i Hi.
        destruct (NL_pos n g wf k i Hk Hi).
        rewrite (levvec_nth n g wf) by (auto 12 with vec; lia).
        destruct (Hd i Hi) as [_ <-]. rewrite lev_div by auto.
        rewrite (cadd_nth n) by auto 12 with vec. now rewrite Zplus_mod_idemp_l. }
    assert (HV : forall b, In b (map (fit_block g) (filter (inclusion g) (map (conflict_block g cadd (gblk g k)) cs))) ->
               is_gblk n g b).
    { intros b Hb. apply in_map_iff in Hb. destruct Hb as [x [<- Hx]]. apply filter_In in Hx.
      destruct Hx as [Hx Hi]. apply in_map_iff in Hx. destruct Hx as [c [<- Hin]].
      destruct (HG c Hin) as [k' [Lk' [Ek' _]]]. rewrite Ek' in *. exists k'. split; auto.
      apply (inclusion_blk n g wf); auto. }
    destruct (conflict_blocks_spec cadd k cs HV) as [N1 N2]. split; auto.
    intros b. rewrite N2. split.
    - intros [c [Hin [Hi ->]]]. destruct (HG c Hin) as [k' [Lk' [Ek' [Hn Hs]]]]. rewrite Ek' in *.
      apply (inclusion_blk n g wf) in Hi; auto. exists k'. split; [split; auto|reflexivity].
    - intros [k' [[Hg' [Hn Hs]] ->]].
      destruct (lvl k) as [|p] eqn:El; [discriminate|]. injection Hs as Hs.
      pose proof (lvl_nth n g wf k' Hg') as Ep. rewrite Hs in Ep. specialize (Hc _ Ep).
      assert (Hr : g_rwc g = true).
      { destruct (g_rwc g) eqn:Hr; auto. rewrite (lvl_norwc k Hr Hk) in El. discriminate. }
      rewrite Hr in Hc. subst cs.
      assert (Hin : In (cmul (csub k' k) w) (get_conflict_offsets (levvec k) (levvec k') (g_stride g))).
      { apply (in_conflict_offsets k); auto using (levvec_in n g wf).
        exists (csub k' k). split; [auto 12 with vec|]. split; auto. intros i Hi.
        destruct (NL_pos n g wf k i Hk Hi).
        rewrite (csub_nth n) by auto 12 with vec. split; [apply Hn; auto|].
        rewrite lev_div by auto. rewrite (levvec_nth n g wf) by (auto 12 with vec; lia).
        rewrite Zplus_mod_idemp_l. do 2 f_equal. lia. }
      assert (Ek : conflict_block g cadd (gblk g k) (cmul (csub k' k) w) = blk g k').
      { rewrite (conflict_add n g wf) by auto 12 with vec. f_equal.
        apply (nth_ext0 _ _ n); auto 12 with vec. intros i Hi.
        rewrite (cadd_nth n), (csub_nth n) by auto 12 with vec. lia. }
      eexists. split; [exact Hin|]. rewrite Ek. split; [|reflexivity].
      apply (inclusion_blk n g wf); auto 12 with vec.
  Qed.

  Lemma downstream_spec k : grid k ->
    exists l, downstream ord g (gblk g k) = Ok l /\ NoDup l /\
      forall b, In b l <-> exists k', grid k' /\ up_idx k' k /\ b = gblk g k'.
  Proof.
    intros Hk. unfold downstream. rewrite (level_of_gblk n g wf) by auto. cbn [bind].
    pose proof (lvl_lt n g wf k Hk) as Hl.
    destruct (Nat.leb_spec (num_levels g) (S (lvl k))) as [El|El].
    { exists []. split; auto. split; [constructor|]. intros b. split; [intros []|].
      intros [k' [Hg' [[_ [_ Hs]] _]]]. pose proof (lvl_lt n g wf k' Hg'). lia. }
    assert (Hl' : (S (lvl k) < num_levels g)%nat) by exact El. clear El.
    destruct (lconf_nth n g wf (S (lvl k)) Hl') as [cs [Hcs Hc]].
    unfold py_nth. rewrite Hcs. cbn [bind].
    destruct (nth_error (g_loffs g) (S (lvl k))) as [lo|] eqn:Elo;
      [|apply nth_error_None in Elo; unfold num_levels in Hl'; lia].
    specialize (Hc lo eq_refl _ (lvl_nth n g wf k Hk)).
    eexists. split; [reflexivity|].
    assert (Hlo : In lo (g_loffs g)) by (eapply nth_error_In; eauto).
    assert (HN : forall i, (i < n)%nat -> 0 < NL i) by (intros i Hi; apply (NL_pos n g wf k); auto).
    pose proof Hlo as Hlo'. apply (in_loffs n g wf) in Hlo'; auto. destruct Hlo' as [Llo Nlo].
    assert (HG : forall c, In c cs -> exists k', length k' = n /\
              conflict_block g csub (gblk g k) c = blk g k' /\ near k' k /\
              (grid k' -> S (lvl k) = lvl k')).
    { intros c Hin. destruct (g_rwc g); [|subst cs; destruct Hin]. subst cs.
      apply (in_conflict_offsets k) in Hin; auto using (levvec_in n g wf).
      destruct Hin as [d [Ld [-> Hd]]].
      exists (csub k d). split; [auto 12 with vec|]. split; [apply (conflict_sub n g wf); auto|].
      split.
      - intros i Hi. rewrite (csub_nth n) by auto 12 with vec. destruct (Hd i Hi). lia.
      - intros Hg'. symmetry. apply (lvl_unique n g wf); auto. rewrite Elo. f_equal.
        apply (nth_ext0 _ _ n); [auto|apply levvec_len; auto 12 with vec|]. intros i Hi.
        pose proof (HN i Hi). pose proof (wg_w g n wf i Hi).
        rewrite (levvec_nth n g wf) by (auto 12 with vec; lia).
        destruct (Hd i Hi) as [_ Hd']. rewrite (levvec_nth n g wf) in Hd' by (auto 12 with vec; lia).
        rewrite (csub_nth n) by auto 12 with vec.
        destruct (Nlo i Hi) as [u [Hu Eu]]. rewrite Eu in *. rewrite Z.div_mul in Hd' by lia.
        assert (Em : (u + d@i) mod NL i = k@i mod NL i) by nia.
        rewrite Zminus_mod, <- Em, <- Zminus_mod. replace (u + d@i - d@i) with u by lia.
        rewrite Z.mod_small by lia. reflexivity. }
    assert (HV : forall b, In b (map (fit_block g) (filter (inclusion g) (map (conflict_block g csub (gblk g k)) cs))) ->
               is_gblk n g b).
    { intros b Hb. apply in_map_iff in Hb. destruct Hb as [x [<- Hx]]. apply filter_In in Hx.
      destruct Hx as [Hx Hi]. apply in_map_iff in Hx. destruct Hx as [c [<- Hin]].
      destruct (HG c Hin) as [k' [Lk' [Ek' _]]]. rewrite Ek' in *. exists k'. split; auto.
      apply (inclusion_blk n g wf); auto. }
    destruct (conflict_blocks_spec csub k cs HV) as [N1 N2]. split; auto.
    intros b. rewrite N2. split.
    - intros [c [Hin [Hi ->]]]. destruct (HG c Hin) as [k' [Lk' [Ek' [Hn Hs]]]]. rewrite Ek' in *.
      apply (inclusion_blk n g wf) in Hi; auto. exists k'. split; auto. split; [|reflexivity].
      split; auto.
    - intros [k' [Hg' [[_ [Hn Hs]] ->]]].
      pose proof (lvl_nth n g wf k' Hg') as Ep. rewrite <- Hs in Ep. rewrite Ep in Elo.
      injection Elo as <-.
      assert (Hr : g_rwc g = true).
      { destruct (g_rwc g) eqn:Hr; auto. rewrite (lvl_norwc k' Hr Hg') in Hs. discriminate. }
      rewrite Hr in Hc. subst cs.
      assert (Hin : In (cmul (csub k k') w) (get_conflict_offsets (levvec k') (levvec k) (g_stride g))).
      { apply (in_conflict_offsets k); auto using (levvec_in n g wf).
        exists (csub k k'). split; [auto 12 with vec|]. split; auto. intros i Hi.
        destruct (NL_pos n g wf k i Hk Hi).
        rewrite (csub_nth n) by auto 12 with vec. split; [apply Hn; auto|].
        rewrite lev_div by auto. rewrite (levvec_nth n g wf) by (auto 12 with vec; lia).
        rewrite Zplus_mod_idemp_l. do 2 f_equal. lia. }
      assert (Ek : conflict_block g csub (gblk g k) (cmul (csub k k') w) = blk g k').
      { rewrite (conflict_sub n g wf) by auto 12 with vec. f_equal.
        apply (nth_ext0 _ _ n); auto 12 with vec. intros i Hi.
        rewrite !(csub_nth n) by auto 12 with vec. lia. }
      eexists. split; [exact Hin|]. rewrite Ek. split; [|reflexivity].
      apply (inclusion_blk n g wf); auto 12 with vec.
  Qed.

  (* a step towards a near block of an earlier level *)
  Lemma near_step p y q : grid p -> grid y -> near p y -> lvl p = S q ->
    exists z, grid z /\ lvl z = q /\ near p z /\ near z y.
  Proof.
    intros Hp Hy Hn Hl.
    pose proof (lvl_lt n g wf p Hp) as Hlt. rewrite Hl in Hlt.
    destruct (nth_error (g_loffs g) q) as [po|] eqn:Ep;
      [|apply nth_error_None in Ep; unfold num_levels in Hlt; lia].
    assert (HN : forall i, (i < n)%nat -> 0 < NL i) by (intros i Hi; apply (NL_pos n g wf p); auto).
    pose proof Ep as Ep'. apply nth_error_In in Ep'. apply (in_loffs n g wf) in Ep'; auto.
    destruct Ep' as [Lpo Npo].
    assert (H : forall i, (i < n)%nat -> exists z, 0 <= z < NB i /\ (z mod NL i) * W i = po@i /\
              Z.abs (z - p@i) < NL i /\ Z.abs (y@i - z) < NL i).
    { intros i Hi. destruct (Npo i Hi) as [u [Hu ->]]. destruct (NL_pos n g wf p i Hp Hi).
      destruct (walk_step (NL i) (NB i) (p@i) (y@i) (p@i mod NL i) u ltac:(lia)
                 (proj2 Hp i Hi) (proj2 Hy i Hi) (Hn i Hi) eq_refl Hu) as [z [Z1 [Z2 Z3]]].
      exists z. rewrite Z2. auto. }
    apply vec_choice in H. destruct H as [z [Lz Hz]].
    assert (Gz : grid z) by (split; auto; intros i Hi; apply Hz; auto).
    exists z. split; auto. split.
    - apply (lvl_unique n g wf); auto. rewrite Ep. f_equal.
      apply (nth_ext0 _ _ n); auto; [apply levvec_len; auto|]. intros i Hi.
      specialize (HN i Hi). rewrite (levvec_nth n g wf) by (auto; lia).
      destruct (Hz i Hi) as [_ [<- _]]. reflexivity.
    - split; intros i Hi; apply Hz; auto.
  Qed.

  (* every block of a later level has a dependency in the level before *)
  Lemma has_upstream k q : grid k -> lvl k = S q -> exists k', up_idx k k'.
  Proof.
    intros Hk Hl. destruct (near_step k k q Hk Hk (near_refl k Hk) Hl) as [z [Gz [Lz [Nz _]]]].
    exists z. split; auto. split; auto. congruence.
  Qed.

  Inductive up_path : coord -> coord -> Prop :=
  | up_one k k' : up_idx k k' -> up_path k k'
  | up_more k k' k'' : up_idx k k' -> up_path k' k'' -> up_path k k''.

  Lemma near_path d : forall k y, grid k -> grid y -> near k y -> lvl k = (S d + lvl y)%nat -> up_path k y.
  Proof.
    induction d as [|d IH]; intros k y Hk Hy Hn Hl.
    - apply up_one. split; auto.
    - destruct (near_step k y (S d + lvl y) Hk Hy Hn Hl) as [z [Gz [Lz [Nz Nz']]]].
      apply up_more with z; [split; auto; split; auto; lia|]. apply IH; auto.
  Qed.

  (* write/read overlap of the ROIs implies nearness *)
  Lemma overlap_near k k' : g_rwc g = true -> grid k -> grid k' ->
    intersects (b_write (gblk g k)) (b_read (gblk g k')) = true -> near k k'.
  Proof.
    intros Hr Hk Hk' H i Hi.
    destruct (gblk_dims n g wf k (grid_len n g k Hk)) as [D1 D2].
    destruct (gblk_dims n g wf k' (grid_len n g k' Hk')) as [D1' D2'].
    rewrite (intersects_spec n) in H; auto.
    - specialize (H i Hi).
      destruct (gblk_write_nth n g wf k i Hk Hi) as [A B]. rewrite A, B in H.
      destruct (gblk_read_nth n g wf k' i Hk' Hi) as [A' B']. rewrite A', B' in H.
      pose proof (wg_w g n wf i Hi). pose proof (wg_c0 g n wf i Hi). pose proof (wg_c1 g n wf i Hi).
      assert (F : forall x, fitted_end g i x <= x) by (intros; unfold fitted_end; destruct (g_fit g); lia).
      pose proof (F (k@i * W i + W i)). pose proof (F (k'@i * W i + W i)).
      unfold GridFacts.NL. rewrite Hr.
      destruct Hk as [_ Hk], Hk' as [_ Hk']. specialize (Hk i Hi). specialize (Hk' i Hi).
      apply Z.min_glb_lt; [|lia].
      assert (Z.abs (k'@i - k@i) <= (Z.max (C0 i) (C1 i) + W i - 1) / W i); [|lia].
      apply Z.div_le_lower_bound; auto. nia.
    - intros j Hj. pose proof (gblk_write_pos n g wf k j Hk Hj). lia.
    - intros j Hj. destruct (gblk_read_nth n g wf k' j Hk' Hj) as [_ ->].
      pose proof (gblk_write_pos n g wf k' j Hk' Hj) as Hp.
      destruct (gblk_write_nth n g wf k' j Hk' Hj) as [_ B]. rewrite B in Hp.
      pose proof (wg_c0 g n wf j Hj). pose proof (wg_c1 g n wf j Hj). lia.
  Qed.

  (* the blocks of a level *)
  Definition lranges (lo : coord) : list (list Z) :=
    map4 (fun lo e s r => py_range lo (e + 1 - r) s) lo (shape (g_twrite g)) (g_stride g) (g_round g).
  Definition lidx (lo : coord) : list coord :=
    map (fun o => cfloordiv o w) (product (lranges lo)).

  Lemma loffs_NL v : In v (g_loffs g) -> forall i, (i < n)%nat -> 0 < NL i.
  Proof.
    intros Hv i Hi. rewrite (wg_lo g n wf) in Hv. unfold compute_level_offsets in Hv.
    apply in_rev in Hv. apply (in_product 0) in Hv. destruct Hv as [_ Hv].
    rewrite (map2_length _ _ _ n) in Hv by auto 12 with vec. specialize (Hv i Hi).
    rewrite (map2_nth _ _ _ i 0 0) in Hv by vl n.
    pose proof (wg_w g n wf i Hi). apply in_py_range in Hv; auto.
    destruct Hv as [u [Hu [Eu Hu']]]. rewrite (wg_s g n wf) in Hu' by auto. fold (W i) in *. nia.
  Qed.

  Lemma lranges_len lo : length lo = n -> length (lranges lo) = n.
  Proof. intros. apply map4_length; auto 12 with vec. Qed.
  Lemma lranges_nth lo i : length lo = n -> (i < n)%nat ->
    nth i (lranges lo) [] =
    py_range (lo@i) (E i + 1 - match g_fit g with Valid => W i | _ => 1 end) (NL i * W i).
  Proof.
    intros Hl Hi. unfold lranges. rewrite (map4_nth _ _ _ _ _ i 0 0 0 0) by vl n.
    rewrite (wg_s g n wf), (wg_r g n wf) by auto. reflexivity.
  Qed.

  Lemma range_idx lo i x u : (i < n)%nat -> 0 < NL i -> 0 <= u < NL i -> lo = u * W i ->
    In x (py_range lo (E i + 1 - match g_fit g with Valid => W i | _ => 1 end) (NL i * W i)) <->
    exists k, x = k * W i /\ 0 <= k < NB i /\ k mod NL i = u.
  Proof.
    intros Hi HN Hu ->. pose proof (wg_w g n wf i Hi).
    rewrite in_py_range by nia. split.
    - intros [j [Hj [-> Hx]]]. exists (u + j * NL i). split; [ring|]. split; [split; [nia|]|].
      + apply (NB_iff n g wf); auto. destruct (g_fit g); nia.
      + rewrite Z.mod_add by lia. apply Z.mod_small; lia.
    - intros [k [-> [Hk Hm]]]. exists (k / NL i).
      pose proof (Z.div_mod k (NL i) ltac:(lia)). split; [apply Z.div_pos; lia|].
      split; [nia|]. destruct Hk as [_ Hk]. apply (NB_iff n g wf) in Hk; auto.
      destruct (g_fit g); nia.
  Qed.

  Lemma in_lprod lo o : In lo (g_loffs g) ->
    In o (product (lranges lo)) <-> exists k, grid k /\ o = cmul k w /\ levvec k = lo.
  Proof.
    intros Hlo. pose proof (loffs_NL lo Hlo) as HN.
    apply (in_loffs n g wf) in Hlo; auto. destruct Hlo as [Llo Nlo].
    rewrite (in_product 0). rewrite lranges_len by auto. split.
    - intros [Lo H].
      assert (H' : forall i, (i < n)%nat -> exists k, o@i = k * W i /\ 0 <= k < NB i /\
                (k mod NL i) * W i = lo@i).
      { intros i Hi. specialize (H i Hi). rewrite lranges_nth in H by auto.
        destruct (Nlo i Hi) as [u [Hu Eu]]. apply (range_idx _ i _ u) in H; auto.
        destruct H as [k [-> [Hk <-]]]. exists k. auto. }
      apply vec_choice in H'. destruct H' as [k [Lk Hk]].
      assert (Gk : grid k) by (split; auto; intros i Hi; apply Hk; auto).
      exists k. split; auto. split.
      + apply (nth_ext0 _ _ n); auto 12 with vec. intros i Hi.
        rewrite (cmul_nth n) by auto 12 with vec. apply Hk; auto.
      + apply (nth_ext0 _ _ n); auto; [apply levvec_len; auto|]. intros i Hi.
        specialize (HN i Hi). rewrite (levvec_nth n g wf) by (auto; lia). apply Hk; auto.
    - intros [k [Gk [-> Ek]]]. split; [auto 12 with vec|]. intros i Hi.
      rewrite lranges_nth by auto. destruct (Nlo i Hi) as [u [Hu Eu]].
      apply (range_idx _ i _ u); auto. exists (k@i). split; [apply (cmul_nth n); auto 12 with vec|].
      split; [apply Gk; auto|]. specialize (HN i Hi).
      assert (Hk := levvec_nth n g wf k i (grid_len n g k Gk) Hi ltac:(lia)).
      rewrite Ek, Eu in Hk. pose proof (wg_w g n wf i Hi). nia.
  Qed.

  Lemma div_mul_w k : length k = n -> cfloordiv (cmul k w) w = k.
  Proof.
    intros Hk. apply (nth_ext0 _ _ n); auto 12 with vec. intros i Hi.
    rewrite (cfloordiv_nth n), (cmul_nth n) by auto 12 with vec.
    apply Z.div_mul. pose proof (wg_w g n wf i Hi). unfold GridFacts.W in *. lia.
  Qed.

  Lemma in_lidx lo k : In lo (g_loffs g) -> In k (lidx lo) <-> grid k /\ levvec k = lo.
  Proof.
    intros Hlo. unfold lidx. rewrite in_map_iff. split.
    - intros [o [<- Ho]]. apply in_lprod in Ho; auto. destruct Ho as [k' [Gk [-> Ek]]].
      rewrite div_mul_w by auto 12 with vec. auto.
    - intros [Gk Ek]. exists (cmul k w). split; [apply div_mul_w; auto 12 with vec|].
      apply in_lprod; auto. eauto.
  Qed.

  Lemma NoDup_lprod lo : In lo (g_loffs g) -> NoDup (product (lranges lo)).
  Proof.
    intros Hlo. pose proof (loffs_NL lo Hlo) as HN.
    apply (in_loffs n g wf) in Hlo; auto. destruct Hlo as [Llo Nlo].
    apply NoDup_product. intros l Hl. destruct (In_nth _ _ [] Hl) as [i [Hi <-]].
    rewrite lranges_len in Hi by auto. rewrite lranges_nth by auto. apply NoDup_py_range.
    pose proof (wg_w g n wf i Hi). specialize (HN i Hi). nia.
  Qed.

  Lemma NoDup_lidx lo : In lo (g_loffs g) -> NoDup (lidx lo).
  Proof.
    intros Hlo. pose proof (NoDup_lprod lo Hlo) as Hn. unfold lidx.
    assert (Hi : forall o, In o (product (lranges lo)) -> cmul (cfloordiv o w) w = o).
    { intros o Ho. apply in_lprod in Ho; auto. destruct Ho as [k [Gk [-> _]]].
      rewrite div_mul_w; auto 12 with vec. }
    induction Hn as [|o l Ho Hn IH]; simpl; constructor.
    - intros H. apply in_map_iff in H. destruct H as [o' [Eo Ho']]. apply Ho.
      rewrite <- (Hi o) by (left; auto). rewrite <- Eo. rewrite Hi by (right; auto). auto.
    - apply IH. intros; apply Hi; right; auto.
  Qed.

  Lemma level_blocks_eq l lo : nth_error (g_loffs g) l = Some lo ->
    level_blocks g l = Ok (map (gblk g) (lidx lo)).
  Proof.
    intros Hl. assert (Hlo : In lo (g_loffs g)) by (eapply nth_error_In; eauto).
    unfold level_blocks, level_block_offsets, py_nth. rewrite Hl. cbn [bind].
    fold (lranges lo). unfold lidx.
    rewrite map_map.
    erewrite mapM_ok with (g := fun o => gblk g (cfloordiv (csub o (csub (rbegin (g_tread g)) (rbegin (g_bread g)))) w)).
    - f_equal. rewrite map_map. apply map_ext_in. intros o Ho. f_equal. f_equal.
      apply in_lprod in Ho; auto. destruct Ho as [k [Gk [-> _]]].
      apply (nth_ext0 _ _ n); unfold rbegin; auto 12 with vec. intros i Hi.
      rewrite (csub_nth n), (cadd_nth n) by auto 12 with vec. lia.
    - intros o Ho. apply in_map_iff in Ho. destruct Ho as [o' [<- Ho]].
      apply in_lprod in Ho; auto. destruct Ho as [k [Gk [-> _]]].
      assert (Lk := grid_len n g k Gk).
      rewrite (block_at_blk n g wf) by auto.
      assert (Hi : inclusion g (blk g k) = true) by (apply (inclusion_blk n g wf); auto).
      rewrite Hi. f_equal. unfold gblk. do 2 f_equal. rewrite <- (div_mul_w k Lk) at 1. f_equal.
      apply (nth_ext0 _ _ n); unfold rbegin; auto 12 with vec. intros i Hii.
      rewrite (csub_nth n), (cadd_nth n) by auto 12 with vec. lia.
  Qed.

  Lemma level_blocks_err l : nth_error (g_loffs g) l = None -> level_blocks g l = Err IndexError.
  Proof.
    intros H. unfold level_blocks, level_block_offsets, py_nth. rewrite H. reflexivity.
  Qed.

  Lemma root_gen_eq lo : nth_error (g_loffs g) 0 = Some lo ->
    root_gen g = Ok (map (gblk g) (lidx lo)).
  Proof.
    intros H. unfold root_gen. rewrite (level_blocks_eq 0 lo H). cbn [bind]. f_equal.
    rewrite map_map. apply map_ext_in. intros k Hk.
    apply in_lidx in Hk; [|eapply nth_error_In; eauto]. apply (fit_gblk n g wf). apply Hk.
  Qed.

  (* block counts *)
  Lemma fold_mul_eq (zs : list Z) (ns : list nat) : map Z.to_nat zs = ns -> Forall (Z.le 0) zs ->
    forall a, fold_left Z.mul zs a = a * Z.of_nat (fold_right Nat.mul 1%nat ns).
  Proof.
    intros <- H. induction H as [|z zs Hz H IH]; intros a; simpl fold_left; simpl map; simpl fold_right.
    - lia.
    - rewrite IH. rewrite Nat2Z.inj_mul, Z2Nat.id by auto. ring.
  Qed.

  Lemma num_level_blocks_eq l lo : nth_error (g_loffs g) l = Some lo ->
    num_level_blocks g l = Ok (Z.of_nat (length (lidx lo))).
  Proof.
    intros Hl. assert (Hlo : In lo (g_loffs g)) by (eapply nth_error_In; eauto).
    pose proof (loffs_NL lo Hlo) as HN.
    apply (in_loffs n g wf) in Hlo; auto. destruct Hlo as [Llo Nlo].
    unfold num_level_blocks, py_nth. rewrite Hl. cbn [bind]. f_equal.
    unfold lidx. rewrite map_length, product_length.
    set (zs := map4 _ _ _ _ _).
    assert (Lz : length zs = n) by (apply map4_length; auto 12 with vec).
    assert (Vz : forall i, (i < n)%nat -> zs@i =
      (E i - lo@i + NL i * W i - match g_fit g with Valid => W i | _ => 1 end) / (NL i * W i)).
    { intros i Hi. unfold zs. rewrite (map4_nth _ _ _ _ _ i 0 0 0 0) by vl n.
      rewrite (wg_s g n wf), (wg_r g n wf) by auto. reflexivity. }
    rewrite (fold_mul_eq zs (map (@length Z) (lranges lo))); [lia| |].
    - apply (nth_ext _ _ 0%nat 0%nat); [rewrite !map_length, lranges_len by auto; auto|].
      intros i Hi. rewrite map_length, Lz in Hi. rewrite (map_nth' _ _ _ 0) by lia.
      rewrite (map_nth' _ _ _ []) by (rewrite lranges_len; auto).
      rewrite lranges_nth by auto. rewrite py_range_length, Vz by auto. do 2 f_equal. lia.
    - apply Forall_forall. intros z Hz. destruct (In_nth _ _ 0 Hz) as [i [Hi <-]].
      rewrite Lz in Hi. rewrite Vz by auto. destruct (Nlo i Hi) as [u [Hu ->]].
      pose proof (wg_w g n wf i Hi). pose proof (wg_e g n wf i Hi). specialize (HN i Hi).
      apply Z.div_pos; [|nia]. destruct (g_fit g); nia.
  Qed.

  (* all blocks, level by level *)
  Definition all_idx : list coord := concat (map lidx (g_loffs g)).
  Definition all_blocks : list block := map (gblk g) all_idx.

  Lemma in_all_idx k : In k all_idx <-> grid k.
  Proof.
    unfold all_idx. rewrite in_concat. split.
    - intros [l [Hl Hk]]. apply in_map_iff in Hl. destruct Hl as [lo [<- Hlo]].
      apply in_lidx in Hk; auto. apply Hk.
    - intros Hk. exists (lidx (levvec k)). split; [apply in_map; apply (levvec_in n g wf); auto|].
      apply in_lidx; auto using (levvec_in n g wf).
  Qed.

  Lemma NoDup_all_idx : NoDup all_idx.
  Proof.
    unfold all_idx. pose proof (NoDup_loffs n g wf) as Hn.
    assert (HnL : forall L, (forall lo, In lo L -> In lo (g_loffs g)) -> NoDup L ->
              NoDup (concat (map lidx L))).
    { induction L as [|lo L IH]; intros Hs HL; simpl; [constructor|]. inversion HL; subst.
      apply NoDup_app'.
      - apply NoDup_lidx. apply Hs. left; auto.
      - apply IH; auto. intros; apply Hs; right; auto.
      - intros k Hk Hk'. apply in_lidx in Hk; [|apply Hs; left; auto].
        apply in_concat in Hk'. destruct Hk' as [l [Hl Hk']]. apply in_map_iff in Hl.
        destruct Hl as [lo' [<- Hlo']]. apply in_lidx in Hk'; [|apply Hs; right; auto].
        destruct Hk as [_ <-], Hk' as [_ <-]. auto. }
    apply HnL; auto.
  Qed.

  Lemma in_all_blocks b : In b all_blocks <-> is_gblk n g b.
  Proof.
    unfold all_blocks, is_gblk. rewrite in_map_iff. split.
    - intros [k [<- Hk]]. exists k. split; auto. apply in_all_idx; auto.
    - intros [k [Hk ->]]. exists k. split; auto. apply in_all_idx; auto.
  Qed.

  Lemma NoDup_all_blocks : NoDup all_blocks.
  Proof.
    unfold all_blocks. pose proof NoDup_all_idx as Hn.
    assert (Hs : forall k, In k all_idx -> grid k) by (intros; apply in_all_idx; auto).
    induction Hn as [|k l Hk Hn IH]; simpl; constructor.
    - intros H. apply in_map_iff in H. destruct H as [k' [Ek Hk']]. apply Hk.
      assert (k' = k); [|congruence]. apply (gblk_inj n g wf); auto; apply Hs; [right|left]; auto.
    - apply IH. intros; apply Hs; right; auto.
  Qed.

  Lemma level_range : forall l, (l < num_levels g)%nat -> exists lo, nth_error (g_loffs g) l = Some lo.
  Proof.
    intros l Hl. destruct (nth_error (g_loffs g) l) eqn:El; eauto.
    apply nth_error_None in El. unfold num_levels in Hl. lia.
  Qed.

  Lemma num_blocks_eq : num_blocks g = Ok (Z.of_nat (length all_blocks)).
  Proof.
    unfold num_blocks, all_blocks, all_idx, num_levels. rewrite map_length.
    assert (G : forall (L : list coord) (s : nat) a,
      (forall j lo, nth_error L j = Some lo -> nth_error (g_loffs g) (s + j)%nat = Some lo) ->
      foldM (fun m level => k <- num_level_blocks g level ;; Ok (m + k)) (seq s (length L)) a
      = Ok (a + Z.of_nat (length (concat (map lidx L))))).
    { induction L as [|lo L IH]; intros s a H; simpl.
      - f_equal. lia.
      - rewrite (num_level_blocks_eq s lo) by (rewrite <- (H 0%nat lo eq_refl); f_equal; lia).
        cbn [bind]. rewrite IH.
        + f_equal. rewrite app_length. lia.
        + intros j lo' Hj. rewrite <- (H (S j) lo' Hj). f_equal. lia. }
    rewrite (G (g_loffs g) 0%nat 0) by auto. f_equal.
  Qed.

  Lemma enumerate_eq : exists ps, enumerate_all_dependencies ord g = Ok ps /\
    map fst ps = all_blocks /\
    forall b u, In (b, u) ps -> upstream ord g b = Ok u.
  Proof.
    unfold enumerate_all_dependencies, all_blocks, all_idx, num_levels.
    assert (G : forall (L : list coord) (s : nat) a,
      (forall j lo, nth_error L j = Some lo -> nth_error (g_loffs g) (s + j)%nat = Some lo) ->
      (forall b u, In (b, u) a -> upstream ord g b = Ok u) ->
      exists ps, foldM (fun acc level =>
             bs <- level_blocks g level ;;
             ps <- mapM (fun b => u <- upstream ord g b ;; Ok (b, u)) bs ;;
             Ok (acc ++ ps)) (seq s (length L)) a = Ok ps /\
        map fst ps = map fst a ++ map (gblk g) (concat (map lidx L)) /\
        forall b u, In (b, u) ps -> upstream ord g b = Ok u).
    { induction L as [|lo L IH]; intros s a H Ha; simpl.
      - exists a. rewrite app_nil_r. auto.
      - assert (Hs : nth_error (g_loffs g) s = Some lo) by (rewrite <- (H 0%nat lo eq_refl); f_equal; lia).
        assert (Hlo : In lo (g_loffs g)) by (eapply nth_error_In; eauto).
        rewrite (level_blocks_eq s lo) by auto. cbn [bind].
        set (f := fun b => (b, match upstream ord g b with Ok u => u | Err _ => [] end)).
        assert (Hu : forall b, In b (map (gblk g) (lidx lo)) -> exists u, upstream ord g b = Ok u).
        { intros b Hb. apply in_map_iff in Hb. destruct Hb as [k [<- Hk]].
          apply in_lidx in Hk; auto. destruct (upstream_spec k) as [u [Hu _]]; [apply Hk|]. eauto. }
        rewrite (mapM_ok _ f).
        2:{ intros b Hb. destruct (Hu b Hb) as [u Eu]. unfold f. rewrite Eu. reflexivity. }
        cbn [bind].
        destruct (IH (S s) (a ++ map f (map (gblk g) (lidx lo)))) as [ps [E1 [E2 E3]]].
        + intros j lo' Hj. rewrite <- (H (S j) lo' Hj). f_equal. lia.
        + intros b u Hb. apply in_app_iff in Hb. destruct Hb as [Hb|Hb]; auto.
          apply in_map_iff in Hb. destruct Hb as [b' [Eb Hb]]. unfold f in Eb.
          inversion Eb; subst. destruct (Hu b Hb) as [u Eu]. rewrite Eu. auto.
        + exists ps. split; auto. split; auto. rewrite E2. rewrite map_app. rewrite map_app.
          rewrite map_map. cbn [fst]. rewrite <- app_assoc. f_equal. f_equal.
          rewrite map_id. reflexivity. }
    destruct (G (g_loffs g) 0%nat []) as [ps [E1 [E2 E3]]]; auto.
    - intros b u [].
    - exists ps. auto.
  Qed.
End Grid.
