(* get_subgraph_blocks (dependency_graph.py:495-554). *)
From Coq Require Import Permutation FinFun.
From Verif Require Import VecFacts CantorFacts.
From Verif Require Export BGraph GridFacts GridFacts2 GridFacts3.
Open Scope Z_scope.

Section Sub.
  Variables (n : nat) (g : bgraph).
  Hypothesis wf : wf_graph g n.

  Local Notation w := (shape (g_bwrite g)).
  Local Notation NB := (NB g).
  Local Notation W := (W g).
  Local Notation E := (E g).
  Local Notation T0 := (T0 g).
  Local Notation C0 := (C0 g).
  Local Notation C1 := (C1 g).
  Local Notation grid := (grid n g).

  Lemma grid_len'' k : grid k -> length k = n. Proof. intros []; auto. Qed.
  Hint Resolve wg_br wg_bw wg_tr wg_tw wg_c0l wg_c1l wg_rl wg_sl grid_len'' : vec.

  Definition qroi (sub : roi) (rr : bool) : roi :=
    if rr then grow sub (fst (g_ctx g)) (snd (g_ctx g)) else sub.
  (* lower and upper end of the query, relative to the write volume *)
  Definition qlo (sub : roi) (rr : bool) (i : nat) : Z :=
    (offset (intersect (qroi sub rr) (g_twrite g)))@i - (offset (g_twrite g))@i.
  Definition qhi (sub : roi) (rr : bool) (i : nat) : Z :=
    qlo sub rr i + (shape (intersect (qroi sub rr) (g_twrite g)))@i.

  Lemma qroi_dims sub rr : roi_dims n sub -> roi_dims n (qroi sub rr).
  Proof. intros H. unfold qroi. destruct rr; auto 12 with vec. Qed.
  Hint Resolve qroi_dims : vec.

  Lemma inclusion_gblk k : length k = n ->
    (grid k -> inclusion g (gblk g k) = true) /\
    (inclusion g (gblk g k) = true -> grid k \/
       (forall i, (i < n)%nat -> 0 <= - (offset (g_twrite g))@i < E i) /\ g_fit g = Shrink).
  Proof.
    intros Lk. destruct (g_fit g) eqn:F.
    - assert (Eg : gblk g k = blk g k) by (unfold gblk, fit_block; rewrite F; auto).
      rewrite Eg, (inclusion_blk n g wf) by auto. tauto.
    - assert (Eg : gblk g k = blk g k) by (unfold gblk, fit_block; rewrite F; auto).
      rewrite Eg, (inclusion_blk n g wf) by auto. tauto.
    - split.
      + intros Gk. unfold inclusion, shrink_possible. rewrite F.
        destruct (gblk_dims n g wf k Lk) as [_ D].
        apply (contains_pt_spec n); [auto 12 with vec|apply D|].
        intros i Hi. unfold rbegin. destruct (gblk_write_nth n g wf k i Gk Hi) as [-> _].
        rewrite (wg_tw0 g n wf) by auto. fold (E i). pose proof (grid_lt_E n g wf k i Gk Hi). lia.
      + intros Hin. unfold gblk, fit_block in Hin. rewrite F in Hin.
        unfold inclusion, shrink_possible in Hin. rewrite F in Hin. cbn [shrink b_write] in Hin.
        assert (D : roi_dims n (b_write (blk g k))) by (apply (blk_write_dims n g wf); auto).
        rewrite (contains_pt_spec n) in Hin by (unfold rbegin; auto 12 with vec).
        unfold rbegin in Hin.
        destruct (intersects (g_twrite g) (b_write (blk g k))) eqn:I.
        * left. apply (inclusion_blk n g wf); auto. unfold inclusion, shrink_possible. rewrite F.
          apply (contains_pt_spec n); unfold rbegin; auto 12 with vec. intros i Hi.
          pose proof I as I'. rewrite (intersects_spec n) in I'; auto 12 with vec.
          2:{ intros j Hj. apply (wg_e g n wf j Hj). }
          2:{ intros j Hj. destruct (blk_write_nth n g wf k j Lk Hj) as [_ ->].
              pose proof (wg_w g n wf j Hj). lia. }
          specialize (I' i Hi). specialize (Hin i Hi).
          destruct (blk_write_nth n g wf k i Lk Hi) as [A B]. rewrite A, B in *.
          rewrite (wg_tw0 g n wf) in * by auto. fold (E i) in *. pose proof (wg_w g n wf i Hi).
          assert (0 <= k@i); [|nia]. nia.
        * right. split; auto. intros i Hi. specialize (Hin i Hi).
          destruct (intersect_empty_nth n _ _ i (wg_tw g n wf) I Hi) as [A _]. rewrite A in Hin.
          fold (E i) in Hin. lia.
  Qed.

  Lemma sub_spec sub rr : roi_dims n sub ->
    (forall i, (i < n)%nat -> 0 <= (shape (qroi sub rr))@i) ->
    NoDup (get_subgraph_blocks g sub rr) /\
    forall b, In b (get_subgraph_blocks g sub rr) <->
      exists k, grid k /\ b = gblk g k /\
        forall i, (i < n)%nat -> k@i * W i < qhi sub rr i /\ qlo sub rr i < k@i * W i + W i.
  Proof.
    intros Hs Ps. unfold get_subgraph_blocks. fold (qroi sub rr).
    set (s := intersect (qroi sub rr) (g_twrite g)).
    assert (Ds : roi_dims n s) by (unfold s; auto 12 with vec).
    set (lo := cfloordiv (csub (rbegin s) (offset (g_twrite g))) w).
    set (hi := cneg (cfloordiv (cneg (csub (rend s) (offset (g_twrite g)))) w)).
    assert (Llo : length lo = n) by (unfold lo, rbegin; auto 12 with vec).
    assert (Lhi : length hi = n) by (unfold hi; auto 12 with vec).
    assert (Rng : forall i k, (i < n)%nat ->
      (lo@i <= k < hi@i <-> k * W i < qhi sub rr i /\ qlo sub rr i < k * W i + W i)).
    { intros i k Hi. unfold lo, hi. pose proof (wg_w g n wf i Hi).
      rewrite (cneg_nth n), !(cfloordiv_nth n), (cneg_nth n), !(csub_nth n) by (unfold rbegin; auto 12 with vec).
      rewrite (rend_nth n) by auto. unfold rbegin. fold (W i).
      unfold qhi, qlo. fold s.
      set (b := (offset s)@i - (offset (g_twrite g))@i).
      replace ((offset s)@i + (shape s)@i - (offset (g_twrite g))@i) with (b + (shape s)@i) by (unfold b; lia).
      set (e := b + (shape s)@i).
      assert (A : b / W i <= k <-> b < k * W i + W i).
      { split; intros.
        - pose proof (Z.mod_pos_bound b (W i) ltac:(lia)). pose proof (Z.div_mod b (W i) ltac:(lia)). nia.
        - assert (b / W i < k + 1); [|lia]. apply Z.div_lt_upper_bound; lia. }
      assert (B : k < - (- e / W i) <-> k * W i < e).
      { split; intros.
        - pose proof (Z.mod_pos_bound (-e) (W i) ltac:(lia)). pose proof (Z.div_mod (-e) (W i) ltac:(lia)). nia.
        - assert (- e / W i < - k); [|lia]. apply Z.div_lt_upper_bound; nia. }
      lia. }
    set (ranges := map3 (fun lo e s0 : Z => py_range lo e s0) (cmul lo w) (cmul hi w) w).
    assert (Lr : length ranges = n) by (apply map3_length; auto 12 with vec).
    assert (Nr : forall i, (i < n)%nat -> nth i ranges [] = py_range (lo@i * W i) (hi@i * W i) (W i)).
    { intros i Hi. unfold ranges. rewrite (map3_nth _ _ _ _ i 0 0 0) by vl n.
      rewrite !(cmul_nth n) by auto 12 with vec. reflexivity. }
    assert (Pr : forall o, In o (product ranges) <->
       exists k, length k = n /\ o = cmul k w /\ forall i, (i < n)%nat -> lo@i <= k@i < hi@i).
    { intros o. rewrite (in_product 0), Lr. split.
      - intros [Lo H].
        assert (H' : forall i, (i < n)%nat -> exists k, o@i = k * W i /\ lo@i <= k < hi@i).
        { intros i Hi. specialize (H i Hi). rewrite Nr in H by auto. pose proof (wg_w g n wf i Hi).
          apply in_py_range in H; auto. destruct H as [j [Hj [Ej Hj']]]. exists (lo@i + j). nia. }
        apply vec_choice in H'. destruct H' as [k [Lk Hk]]. exists k. split; auto. split.
        + apply (nth_ext0 _ _ n); auto 12 with vec. intros i Hi.
          rewrite (cmul_nth n) by auto 12 with vec. apply Hk; auto.
        + intros i Hi. apply Hk; auto.
      - intros [k [Lk [-> Hk]]]. split; [auto 12 with vec|]. intros i Hi. rewrite Nr by auto.
        pose proof (wg_w g n wf i Hi). specialize (Hk i Hi). apply in_py_range; auto.
        rewrite (cmul_nth n) by auto 12 with vec. fold (W i). exists (k@i - lo@i). nia. }
    assert (Nd : NoDup (product ranges)).
    { apply NoDup_product. intros l Hl. destruct (In_nth _ _ [] Hl) as [i [Hi <-]].
      rewrite Lr in Hi. rewrite Nr by auto. apply NoDup_py_range. apply (wg_w g n wf i Hi). }
    set (mk := fun o => fit_block g (mk_block (g_tread g)
              (rshift_neg (rshift (g_bread g) o) (offset (g_bread g)))
              (rshift_neg (rshift (g_bwrite g) o) (offset (g_bread g))) (g_tid g))).
    assert (Hmk : forall k, length k = n -> mk (cadd (cmul k w) (offset (g_tread g))) = gblk g k).
    { intros k Lk. unfold mk, gblk, blk, rshift, rshift_neg. cbn [offset shape]. f_equal. f_equal.
      - f_equal. apply (nth_ext0 _ _ n); auto 12 with vec. intros i Hi.
        rewrite (csub_nth n), !(cadd_nth n) by auto 12 with vec. lia.
      - f_equal. apply (nth_ext0 _ _ n); auto 12 with vec. intros i Hi.
        rewrite (csub_nth n), !(cadd_nth n) by auto 12 with vec.
        rewrite (wg_tw0 g n wf) by auto. destruct (wg_c0 g n wf i Hi) as [_ ->].
        unfold GridFacts.T0. lia. }
    fold mk. rewrite map_map.
    assert (Hgrid : forall k, length k = n -> (forall i, (i < n)%nat -> lo@i <= k@i < hi@i) ->
              inclusion g (gblk g k) = true -> grid k).
    { intros k Lk Hk Hin. apply inclusion_gblk in Hin; auto. destruct Hin as [|[Ho F]]; auto.
      (* Shrink and the origin lies in the write volume *)
      split; auto. intros i Hi. specialize (Ho i Hi). pose proof (wg_w g n wf i Hi).
      specialize (Hk i Hi). apply (Rng i (k@i) Hi) in Hk. unfold qhi, qlo in Hk. fold s in Hk.
      rewrite (NB_iff n g wf), F by auto.
      destruct (intersects (qroi sub rr) (g_twrite g)) eqn:I.
      - destruct (intersect_nth n (qroi sub rr) (g_twrite g) i) as [A B]; auto 12 with vec.
        fold s in A, B. rewrite (intersects_spec n) in I; auto 12 with vec.
        2:{ intros j Hj. apply (wg_e g n wf j Hj). }
        specialize (I i Hi). rewrite A, B in Hk. fold (E i) in *. nia.
      - destruct (intersect_empty_nth n (qroi sub rr) (g_twrite g) i) as [A B]; auto 12 with vec.
        fold s in A, B. rewrite A, B in Hk. nia. }
    assert (Inj : forall o o', In o (product ranges) -> In o' (product ranges) ->
       inclusion g (mk (cadd o (offset (g_tread g)))) = true ->
       inclusion g (mk (cadd o' (offset (g_tread g)))) = true ->
       mk (cadd o (offset (g_tread g))) = mk (cadd o' (offset (g_tread g))) -> o = o').
    { intros o o' Ho Ho' I1 I2 Em. apply Pr in Ho, Ho'.
      destruct Ho as [k [Lk [-> Hk]]], Ho' as [k' [Lk' [-> Hk']]].
      rewrite (Hmk k) in * by auto. rewrite (Hmk k') in * by auto. f_equal.
      apply (gblk_inj n g wf); auto. }
    split.
    - clear Pr Nr Lr. induction Nd as [|o l Ho Nd IH]; simpl; [constructor|].
      destruct (inclusion g (mk (cadd o (offset (g_tread g))))) eqn:I1.
      + constructor.
        * intros Hin. apply filter_In in Hin. destruct Hin as [Hin _].
          apply in_map_iff in Hin. destruct Hin as [o' [Eo Ho']]. apply Ho.
          assert (o' = o); [|congruence]. apply Inj; [right; auto|left; auto| | |auto]; congruence.
        * apply IH. intros; apply Inj; auto; right; auto.
      + apply IH. intros; apply Inj; auto; right; auto.
    - intros b. rewrite filter_In, in_map_iff. split.
      + intros [[o [<- Ho]] Hin]. apply Pr in Ho. destruct Ho as [k [Lk [-> Hk]]].
        rewrite Hmk in * by auto. exists k. split; [auto|]. split; auto.
        intros i Hi. apply Rng; auto.
      + intros [k [Gk [-> Hk]]]. assert (Lk := grid_len'' k Gk). split.
        * exists (cmul k w). split; [apply Hmk; auto|]. apply Pr. exists k. split; auto. split; auto.
          intros i Hi. apply Rng; auto.
        * apply inclusion_gblk; auto.
  Qed.

  (* No block's grid cell has the origin strictly inside. *)
  Definition origin_free : Prop :=
    forall b, is_gblk n g b ->
      ~ (forall i, (i < n)%nat -> (offset (b_req b))@i < 0 < (offset (b_req b))@i + (shape (b_req b))@i).

  Lemma sub_disjoint sub rr : roi_dims n sub ->
    (forall i, (i < n)%nat -> 0 <= (shape (qroi sub rr))@i) ->
    intersects (qroi sub rr) (g_twrite g) = false ->
    (get_subgraph_blocks g sub rr = [] <-> origin_free).
  Proof.
    intros Hs Ps I. destruct (sub_spec sub rr Hs Ps) as [_ Hin].
    assert (Q : forall i, (i < n)%nat -> qlo sub rr i = - (offset (g_twrite g))@i /\
                                       qhi sub rr i = - (offset (g_twrite g))@i).
    { intros i Hi. unfold qhi, qlo.
      destruct (intersect_empty_nth n (qroi sub rr) (g_twrite g) i) as [A B]; auto 12 with vec.
      rewrite A, B. lia. }
    assert (R : forall k i, grid k -> (i < n)%nat ->
       ((offset (b_req (gblk g k)))@i < 0 < (offset (b_req (gblk g k)))@i + (shape (b_req (gblk g k)))@i
        <-> k@i * W i < qhi sub rr i /\ qlo sub rr i < k@i * W i + W i)).
    { intros k i Gk Hi. rewrite gblk_req. destruct (Q i Hi) as [-> ->].
      destruct (blk_write_nth n g wf k i (grid_len'' k Gk) Hi) as [-> ->].
      rewrite (wg_tw0 g n wf) by auto. lia. }
    split.
    - intros Hnil b [k [Gk ->]] H. rewrite Hnil in Hin. apply (Hin (gblk g k)). exists k.
      split; auto. split; auto. intros i Hi. apply R; auto.
    - intros Ho. destruct (get_subgraph_blocks g sub rr) as [|b l]; auto. exfalso.
      destruct (proj1 (Hin b) (or_introl eq_refl)) as [k [Gk [-> Hk]]].
      apply (Ho (gblk g k)); [exists k; auto|]. intros i Hi. apply R; auto.
  Qed.

  (* queries by write ROI *)
  Lemma sub_write_gen sub : roi_dims n sub -> (forall i, (i < n)%nat -> 0 <= (shape sub)@i) ->
    intersects sub (g_twrite g) = true ->
    forall b, In b (get_subgraph_blocks g sub false) <->
      is_gblk n g b /\ intersects (b_write b) (intersect sub (g_twrite g)) = true.
  Proof.
    intros Hs Ps I b. destruct (sub_spec sub false Hs Ps) as [_ ->]. unfold qhi, qlo, qroi.
    set (s := intersect sub (g_twrite g)).
    assert (Ds : roi_dims n s) by (unfold s; auto 12 with vec).
    pose proof I as I'. rewrite (intersects_spec n) in I'; auto 12 with vec;
      [|intros j Hj; apply (wg_e g n wf j Hj)].
    assert (V : forall i, (i < n)%nat -> (offset s)@i = Z.max ((offset sub)@i) ((offset (g_twrite g))@i) /\
       (shape s)@i = Z.min ((offset sub)@i + (shape sub)@i) ((offset (g_twrite g))@i + E i) -
                    Z.max ((offset sub)@i) ((offset (g_twrite g))@i)).
    { intros i Hi. apply (intersect_nth n); auto 12 with vec. }
    assert (X : forall k, grid k -> (intersects (b_write (gblk g k)) s = true <->
       forall i, (i < n)%nat -> k@i * W i < (offset s)@i - (offset (g_twrite g))@i + (shape s)@i /\
          (offset s)@i - (offset (g_twrite g))@i < k@i * W i + W i)).
    { intros k Gk. destruct (gblk_dims n g wf k (grid_len'' k Gk)) as [_ D].
      rewrite (intersects_spec n); auto.
      - split; intros H i Hi; specialize (H i Hi); specialize (I' i Hi); specialize (V i Hi);
          fold (E i) in *; destruct (gblk_write_nth n g wf k i Gk Hi) as [A B]; rewrite ?A, ?B in *;
          pose proof (gblk_write_pos n g wf k i Gk Hi) as P; rewrite B in P;
          rewrite (wg_tw0 g n wf) in * by auto; unfold fitted_end in *;
          destruct (g_fit g); nia.
      - intros i Hi. pose proof (gblk_write_pos n g wf k i Gk Hi). lia.
      - intros i Hi. specialize (I' i Hi). specialize (V i Hi). fold (E i) in *. lia. }
    split.
    - intros [k [Gk [-> Hk]]]. split; [exists k; auto|]. apply X; auto.
    - intros [[k [Gk ->]] H]. exists k. split; auto. split; auto. apply X; auto.
  Qed.

  (* blocks never write outside the volume unless they overhang *)
  Lemma write_inside k i : g_fit g <> Overhang -> grid k -> (i < n)%nat ->
    (offset (g_twrite g))@i <= (offset (b_write (gblk g k)))@i /\
    (offset (b_write (gblk g k)))@i + (shape (b_write (gblk g k)))@i
      <= (offset (g_twrite g))@i + E i.
  Proof.
    intros F Gk Hi. destruct (gblk_write_nth n g wf k i Gk Hi) as [-> ->].
    rewrite (wg_tw0 g n wf) by auto. pose proof (grid_lt_E n g wf k i Gk Hi).
    destruct Gk as [_ Gk]. destruct (Gk i Hi) as [_ G]. apply (NB_iff n g wf) in G; auto.
    unfold fitted_end. destruct (g_fit g); try congruence; lia.
  Qed.

  Lemma sub_write_exact sub : g_fit g <> Overhang -> origin_free ->
    roi_dims n sub -> (forall i, (i < n)%nat -> 0 <= (shape sub)@i) ->
    forall b, In b (get_subgraph_blocks g sub false) <->
      is_gblk n g b /\ intersects (b_write b) sub = true.
  Proof.
    intros F O Hs Ps b.
    destruct (intersects sub (g_twrite g)) eqn:I.
    - rewrite sub_write_gen by auto.
      assert (X : forall k, grid k -> (intersects (b_write (gblk g k)) (intersect sub (g_twrite g)) = true
                  <-> intersects (b_write (gblk g k)) sub = true)).
      { intros k Gk. destruct (gblk_dims n g wf k (grid_len'' k Gk)) as [_ D].
        pose proof I as I'. rewrite (intersects_spec n) in I'; auto 12 with vec;
          [|intros j Hj; apply (wg_e g n wf j Hj)].
        assert (V : forall i, (i < n)%nat -> (offset (intersect sub (g_twrite g)))@i = Z.max ((offset sub)@i) ((offset (g_twrite g))@i) /\
           (shape (intersect sub (g_twrite g)))@i = Z.min ((offset sub)@i + (shape sub)@i) ((offset (g_twrite g))@i + E i) -
                    Z.max ((offset sub)@i) ((offset (g_twrite g))@i)).
        { intros i Hi. apply (intersect_nth n); auto 12 with vec. }
        assert (P : forall i, (i < n)%nat -> 0 <= (shape (b_write (gblk g k)))@i).
        { intros i Hi. pose proof (gblk_write_pos n g wf k i Gk Hi). lia. }
        rewrite !(intersects_spec n); auto 12 with vec.
        - split; intros H i Hi; specialize (H i Hi); specialize (I' i Hi); specialize (V i Hi);
            fold (E i) in *; pose proof (write_inside k i F Gk Hi); lia.
        - intros i Hi. specialize (I' i Hi). specialize (V i Hi). fold (E i) in *. lia. }
      split; intros [[k [Gk ->]] H]; (split; [exists k; auto|apply X; auto]).
    - assert (N : get_subgraph_blocks g sub false = []) by (apply sub_disjoint; auto).
      rewrite N. split; [intros []|]. intros [[k [Gk ->]] H]. exfalso.
      assert (intersects sub (g_twrite g) = true); [|congruence].
      destruct (gblk_dims n g wf k (grid_len'' k Gk)) as [_ D].
      assert (P : forall i, (i < n)%nat -> 0 <= (shape (b_write (gblk g k)))@i).
      { intros i Hi. pose proof (gblk_write_pos n g wf k i Gk Hi). lia. }
      rewrite (intersects_spec n) in H; auto.
      apply (intersects_spec n); auto 12 with vec.
      + intros i Hi. apply (wg_e g n wf i Hi).
      + intros i Hi. specialize (H i Hi). pose proof (write_inside k i F Gk Hi).
        unfold GridFacts.E in *. lia.
  Qed.

  (* queries by read ROI *)
  Lemma sub_read_exact sub : g_fit g <> Overhang -> origin_free ->
    (forall i, (i < n)%nat -> C0 i = C1 i) ->
    roi_dims n sub -> (forall i, (i < n)%nat -> 0 < (shape sub)@i) ->
    forall b, In b (get_subgraph_blocks g sub true) <->
      is_gblk n g b /\ intersects (b_read b) sub = true.
  Proof.
    intros F O Sym Hs Ps b.
    assert (Gr : forall i, (i < n)%nat -> (offset (qroi sub true))@i = (offset sub)@i - C0 i /\
                                  (shape (qroi sub true))@i = (shape sub)@i + C0 i + C1 i).
    { intros i Hi. apply (grow_nth n); auto 12 with vec. }
    assert (Pq : forall i, (i < n)%nat -> 0 < (shape (qroi sub true))@i).
    { intros i Hi. destruct (Gr i Hi) as [_ ->]. specialize (Ps i Hi).
      pose proof (wg_c0 g n wf i Hi). pose proof (wg_c1 g n wf i Hi). lia. }
    assert (Pq' : forall i, (i < n)%nat -> 0 <= (shape (qroi sub true))@i).
    { intros i Hi. specialize (Pq i Hi). lia. }
    assert (RD : forall k, grid k -> (intersects (b_read (gblk g k)) sub = true <->
       forall i, (i < n)%nat -> (offset (b_write (gblk g k)))@i < (offset sub)@i + (shape sub)@i + C0 i /\
          (offset sub)@i - C1 i < (offset (b_write (gblk g k)))@i + (shape (b_write (gblk g k)))@i)).
    { intros k Gk. destruct (gblk_dims n g wf k (grid_len'' k Gk)) as [D D'].
      rewrite (intersects_spec n); auto.
      - split; intros H i Hi; specialize (H i Hi); specialize (Ps i Hi);
          pose proof (gblk_write_pos n g wf k i Gk Hi) as P;
          pose proof (wg_c0 g n wf i Hi); pose proof (wg_c1 g n wf i Hi);
          destruct (gblk_write_nth n g wf k i Gk Hi) as [A B];
          destruct (gblk_read_nth n g wf k i Gk Hi) as [A' B']; rewrite ?A, ?B, ?A', ?B' in *; lia.
      - intros i Hi. destruct (gblk_read_nth n g wf k i Gk Hi) as [_ ->].
        pose proof (gblk_write_pos n g wf k i Gk Hi) as P.
        destruct (gblk_write_nth n g wf k i Gk Hi) as [_ B]. rewrite B in P.
        pose proof (wg_c0 g n wf i Hi). pose proof (wg_c1 g n wf i Hi). lia.
      - intros i Hi. specialize (Ps i Hi). lia. }
    destruct (intersects (qroi sub true) (g_twrite g)) eqn:I.
    - destruct (sub_spec sub true Hs Pq') as [_ ->].
      pose proof I as I'. rewrite (intersects_spec n) in I'; auto 12 with vec;
        [|intros j Hj; apply (wg_e g n wf j Hj)].
      assert (V : forall i, (i < n)%nat ->
         (offset (intersect (qroi sub true) (g_twrite g)))@i = Z.max ((offset (qroi sub true))@i) ((offset (g_twrite g))@i) /\
         (shape (intersect (qroi sub true) (g_twrite g)))@i =
           Z.min ((offset (qroi sub true))@i + (shape (qroi sub true))@i) ((offset (g_twrite g))@i + E i) -
                    Z.max ((offset (qroi sub true))@i) ((offset (g_twrite g))@i)).
      { intros i Hi. apply (intersect_nth n); auto 12 with vec. }
      assert (X : forall k, grid k -> (intersects (b_read (gblk g k)) sub = true <->
        forall i, (i < n)%nat -> k@i * W i < qhi sub true i /\ qlo sub true i < k@i * W i + W i)).
      { intros k Gk. rewrite RD by auto. unfold qhi, qlo.
        split; intros H i Hi; specialize (H i Hi); specialize (V i Hi); specialize (Gr i Hi);
          specialize (I' i Hi); fold (E i) in *; specialize (Sym i Hi);
          pose proof (write_inside k i F Gk Hi);
          destruct (gblk_write_nth n g wf k i Gk Hi) as [A B]; rewrite ?A, ?B in *;
          pose proof (grid_lt_E n g wf k i Gk Hi); pose proof (wg_w g n wf i Hi); specialize (Ps i Hi);
          pose proof (wg_c0 g n wf i Hi); pose proof (wg_c1 g n wf i Hi);
          destruct V as [V1 V2]; rewrite V1, V2 in *; destruct Gr as [G1 G2]; rewrite G1, G2 in *;
          rewrite (wg_tw0 g n wf) in * by auto; unfold fitted_end in *; clear A B V1 V2 G1 G2;
          fold (W i) in *;
          set (kw := k@i * W i) in *; set (e := E i) in *; set (c := C0 i) in *; set (c' := C1 i) in *;
          set (t := T0 i) in *; set (wi := W i) in *; clearbody kw e c c' t wi;
          destruct (g_fit g); try congruence; lia. }
      split.
      + intros [k [Gk [-> Hk]]]. split; [exists k; auto|]. apply X; auto.
      + intros [[k [Gk ->]] H]. exists k. split; auto. split; auto. apply X; auto.
    - assert (N : get_subgraph_blocks g sub true = []) by (apply sub_disjoint; auto).
      rewrite N. split; [intros []|]. intros [[k [Gk ->]] H]. exfalso.
      assert (intersects (qroi sub true) (g_twrite g) = true); [|congruence].
      rewrite RD in H by auto.
      apply (intersects_spec n); auto 12 with vec.
      + intros i Hi. apply (wg_e g n wf i Hi).
      + intros i Hi. specialize (H i Hi). pose proof (write_inside k i F Gk Hi). specialize (Pq i Hi).
        specialize (Gr i Hi). specialize (Sym i Hi). pose proof (grid_lt_E n g wf k i Gk Hi).
        unfold GridFacts.E in *. lia.
  Qed.
End Sub.
