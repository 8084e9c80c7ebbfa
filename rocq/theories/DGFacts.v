(* upstream() and downstream() of the dependency graph of a pipeline. *)
From Coq Require Import Arith Lia Permutation.
From Verif Require Import VecFacts.
From Verif Require Export PipeFacts SafeFacts SchedProps.
Open Scope Z_scope.

Lemma insert_perm b l : Permutation (insert_block b l) (b :: l).
Proof.
  induction l as [|c l IH]; cbn; auto. destruct (_ <=? _); auto.
  rewrite IH. apply perm_swap.
Qed.
Lemma sort_perm l : Permutation (sort_blocks l) l.
Proof. induction l; cbn; auto. rewrite insert_perm. auto. Qed.

Lemma mapM_get (f : nat -> res (list block)) (g : nat -> list block) l :
  (forall i, In i l -> f i = Ok (g i)) -> mapM f l = Ok (map g l).
Proof.
  induction l as [|i l IH]; intros H; cbn; auto. rewrite H by (left; auto). cbn. rewrite IH by (intros; apply H; right; auto).
  reflexivity.
Qed.

(* geometry of the generated blocks of a built graph *)
Section Geo.
  Variables (n : nat) (t : task) (g : bgraph).
  Hypothesis bu : built n t g.
  Let wf : wf_graph g n := bu_wf n t g bu.

  Lemma gen_dims b : generated g b -> roi_dims n (b_read b) /\ roi_dims n (b_write b).
  Proof.
    rewrite (generated_iff n t g bu). intros [k [Gk ->]]. apply (gblk_dims n g wf). apply Gk.
  Qed.
  (* per dimension: the write ROI lies in the write volume except for overhang, the read ROI is
     the write ROI grown by the context *)
  Lemma gen_dim b i : generated g b -> (i < n)%nat ->
    (offset (g_twrite g))@i <= (offset (b_write b))@i < (offset (g_twrite g))@i + (shape (g_twrite g))@i /\
    (t_fit t <> Overhang ->
       (offset (b_write b))@i + (shape (b_write b))@i <= (offset (g_twrite g))@i + (shape (g_twrite g))@i) /\
    0 < (shape (b_write b))@i /\
    (offset (b_read b))@i = (offset (b_write b))@i - C0 g i /\
    (offset (b_read b))@i + (shape (b_read b))@i = (offset (b_write b))@i + (shape (b_write b))@i + C1 g i.
  Proof.
    rewrite (generated_iff n t g bu). intros [k [Gk ->]] Hi.
    pose proof (gblk_write_pos n g wf k i Gk Hi) as P.
    pose proof (wg_w g n wf i Hi). pose proof (grid_lt_E n g wf k i Gk Hi) as L. unfold GridFacts.E, GridFacts.W in *.
    destruct (gblk_write_nth n g wf k i Gk Hi) as [A B].
    destruct (gblk_read_nth n g wf k i Gk Hi) as [A' B'].
    pose proof (wg_tw0 g n wf i Hi). unfold GridFacts.T0, GridFacts.W in *.
    assert (0 <= k@i) by (apply Gk; auto).
    repeat split; try lia; try nia.
    intros F. rewrite <- (bu_fit n t g bu) in F.
    pose proof (write_inside n g wf k i F Gk Hi). unfold GridFacts.E in *. lia.
  Qed.

  (* query of the blocks writing to a region *)
  Lemma sub_gen sub rr : roi_dims n sub -> (forall i, (i < n)%nat -> 0 <= (shape sub)@i) ->
    NoDup (get_subgraph_blocks g sub rr) /\ forall b, In b (get_subgraph_blocks g sub rr) -> generated g b.
  Proof.
    intros Ds Ps. destruct (sub_spec n g wf sub rr Ds) as [N H].
    { intros i Hi. unfold qroi. destruct rr; auto.
      destruct (grow_nth n sub (fst (g_ctx g)) (snd (g_ctx g)) i) as [_ ->]; auto; try apply wf.
      pose proof (wg_c0 g n wf i Hi). pose proof (wg_c1 g n wf i Hi). specialize (Ps i Hi). unfold C0, C1 in *. lia. }
    split; auto. intros b Hb. apply H in Hb. destruct Hb as [k [Gk [-> _]]].
    apply (generated_iff n t g bu). exists k. auto.
  Qed.

  Lemma twd : roi_dims n (g_twrite g). Proof. apply wf. Qed.
  Lemma origin_ok : n = tdims t -> no_origin_cell t -> origin_free n g.
  Proof.
    intros En H b [k [Gk ->]] Hk'. apply H. exists k. split; [apply (fits_grid n t g bu); auto|].
    rewrite gblk_req, <- (cell_blk n t g bu) in Hk' by (apply Gk). rewrite <- En. auto.
  Qed.
  Lemma wr_hi_eq i : (i < n)%nat -> wr_hi t i = (offset (g_twrite g))@i + (shape (g_twrite g))@i.
  Proof.
    intros Hi. pose proof (wg_tw0 g n wf i Hi). pose proof (wg_ts g n wf i Hi). pose proof (wg_rs g n wf i Hi).
    pose proof (wg_c0 g n wf i Hi). unfold wr_hi, ctx_hi, GridFacts.T0, GridFacts.E, GridFacts.W in *.
    rewrite (bu_br n t g bu), (bu_bw n t g bu), (bu_tr n t g bu) in *. lia.
  Qed.
  Lemma ctx_lo_eq i : (i < n)%nat -> ctx_lo t i = C0 g i.
  Proof.
    intros Hi. pose proof (wg_c0 g n wf i Hi) as H. unfold ctx_lo.
    rewrite (bu_br n t g bu), (bu_bw n t g bu) in *. lia.
  Qed.
  Lemma ctx_hi_eq i : (i < n)%nat -> ctx_hi t i = C1 g i.
  Proof.
    intros Hi. pose proof (wg_c0 g n wf i Hi). pose proof (wg_rs g n wf i Hi). unfold ctx_hi, GridFacts.W in *.
    rewrite (bu_br n t g bu), (bu_bw n t g bu) in *. lia.
  Qed.

  (* the blocks found for a region, per dimension *)
  Definition meets3 (l h l' h' l'' h'' : Z) : Prop :=
    l < h' /\ l < h'' /\ l' < h /\ l' < h' /\ l' < h'' /\ l'' < h /\ l'' < h'.
  Lemma sub_dims sub : origin_free n g -> roi_dims n sub -> (forall i, (i < n)%nat -> 0 <= (shape sub)@i) ->
    forall b, In b (get_subgraph_blocks g sub false) <->
      generated g b /\ forall i, (i < n)%nat ->
        meets3 ((offset (b_write b))@i) ((offset (b_write b))@i + (shape (b_write b))@i)
                ((offset sub)@i) ((offset sub)@i + (shape sub)@i)
                ((offset (g_twrite g))@i) ((offset (g_twrite g))@i + (shape (g_twrite g))@i).
  Proof.
    intros O Ds Ps b. pose proof twd as Dt.
    assert (Pt : forall i, (i < n)%nat -> 0 <= (shape (g_twrite g))@i) by (intros i Hi; apply (wg_e g n wf i Hi)).
    destruct (intersects sub (g_twrite g)) eqn:I.
    - rewrite (sub_write_gen n g wf) by auto. rewrite (generated_iff n t g bu).
      rewrite (intersects_spec n) in I by auto.
      assert (X : is_gblk n g b -> (intersects (b_write b) (intersect sub (g_twrite g)) = true <->
         forall i, (i < n)%nat ->
        meets3 ((offset (b_write b))@i) ((offset (b_write b))@i + (shape (b_write b))@i)
                ((offset sub)@i) ((offset sub)@i + (shape sub)@i)
                ((offset (g_twrite g))@i) ((offset (g_twrite g))@i + (shape (g_twrite g))@i))).
      { intros Hb. apply (generated_iff n t g bu) in Hb. destruct (gen_dims b Hb) as [_ D].
        assert (N : forall i, (i < n)%nat ->
          (offset (intersect sub (g_twrite g)))@i = Z.max ((offset sub)@i) ((offset (g_twrite g))@i) /\
          (shape (intersect sub (g_twrite g)))@i =
            Z.min ((offset sub)@i + (shape sub)@i) ((offset (g_twrite g))@i + (shape (g_twrite g))@i)
            - Z.max ((offset sub)@i) ((offset (g_twrite g))@i)).
        { intros i Hi. apply (intersect_nth n); auto. apply (intersects_spec n); auto. }
        rewrite (intersects_spec n); auto.
        - unfold meets3. split; intros H i Hi; specialize (H i Hi); specialize (I i Hi);
            destruct (N i Hi) as [N1 N2]; rewrite ?N1, ?N2 in *;
            destruct (gen_dim b i Hb Hi) as [? [_ [? _]]]; lia.
        - apply intersect_dims; auto.
        - intros i Hi. destruct (gen_dim b i Hb Hi) as [? [_ [? _]]]; lia.
        - intros i Hi. destruct (N i Hi) as [_ ->]. specialize (I i Hi). lia. }
      split; intros [Hb H]; (split; [auto|apply X; auto]).
    - assert (N : get_subgraph_blocks g sub false = []) by (apply (sub_disjoint n g wf); auto).
      rewrite N. split; [intros []|]. intros [Hb H]. exfalso.
      assert (intersects sub (g_twrite g) = true); [|congruence].
      apply (intersects_spec n); auto. intros i Hi. specialize (H i Hi). unfold meets3 in H. destruct (gen_dim b i Hb Hi) as [? [_ [? _]]]. lia.
  Qed.
End Geo.

(* C12: the two queries are inverse to each other *)
Lemma cross_dual n u t gu gt a b : built n u gu -> built n t gt -> n = tdims t -> n = tdims u -> edge_ok u t ->
  generated gu a -> generated gt b ->
  (In b (get_subgraph_blocks gt (b_write a) true) <-> In a (get_subgraph_blocks gu (b_read b) false)).
Proof.
  intros Bu Bt Et Eu [E1 E2 E3 E4 E5] Ga Gb.
  destruct (gen_dims n u gu Bu a Ga) as [_ Da]. destruct (gen_dims n t gt Bt b Gb) as [Db Db'].
  pose proof (bu_wf n t gt Bt) as wf.
  change (get_subgraph_blocks gt (b_write a) true)
    with (get_subgraph_blocks gt (grow (b_write a) (fst (g_ctx gt)) (snd (g_ctx gt))) false).
  assert (G : forall i, (i < n)%nat ->
     (offset (grow (b_write a) (fst (g_ctx gt)) (snd (g_ctx gt))))@i = (offset (b_write a))@i - C0 gt i /\
     (shape (grow (b_write a) (fst (g_ctx gt)) (snd (g_ctx gt))))@i = (shape (b_write a))@i + C0 gt i + C1 gt i).
  { intros i Hi. apply (grow_nth n); auto; apply wf. }
  rewrite (sub_dims n t gt Bt); [|apply (origin_ok n t gt Bt); auto|apply grow_dims; auto; apply wf|].
  2: { intros i Hi. destruct (G i Hi) as [_ ->]. destruct (gen_dim n u gu Bu a i Ga Hi) as [_ [_ [? _]]].
       pose proof (wg_c0 gt n wf i Hi). pose proof (wg_c1 gt n wf i Hi). lia. }
  rewrite (sub_dims n u gu Bu); [|apply (origin_ok n u gu Bu); auto|auto|].
  2: { intros i Hi. destruct (gen_dim n t gt Bt b i Gb Hi) as [_ [_ [? [? ?]]]].
       pose proof (wg_c0 gt n wf i Hi). pose proof (wg_c1 gt n wf i Hi). lia. }
  assert (D : forall i, (i < n)%nat -> 
    (meets3 ((offset (b_write b))@i) ((offset (b_write b))@i + (shape (b_write b))@i)
       ((offset (b_write a))@i - C0 gt i) ((offset (b_write a))@i - C0 gt i + ((shape (b_write a))@i + C0 gt i + C1 gt i))
       ((offset (g_twrite gt))@i) ((offset (g_twrite gt))@i + (shape (g_twrite gt))@i) <->
     meets3 ((offset (b_write a))@i) ((offset (b_write a))@i + (shape (b_write a))@i)
       ((offset (b_read b))@i) ((offset (b_read b))@i + (shape (b_read b))@i)
       ((offset (g_twrite gu))@i) ((offset (g_twrite gu))@i + (shape (g_twrite gu))@i))).
  { intros i Hi. destruct (gen_dim n u gu Bu a i Ga Hi) as [A1 [A2 [A3 [A4 A5]]]].
    destruct (gen_dim n t gt Bt b i Gb Hi) as [B1 [B2 [B3 [B4 B5]]]].
    rewrite Et in Hi. specialize (E1 i Hi). rewrite <- Et in Hi.
    rewrite (ctx_lo_eq n t gt Bt), (ctx_hi_eq n t gt Bt) in E1 by auto.
    pose proof (wg_c0 gt n wf i Hi). pose proof (wg_c1 gt n wf i Hi).
    assert (D1 : t_fit u <> Overhang \/ (offset (g_twrite gt))@i + (shape (g_twrite gt))@i - C0 gt i <=
                                        (offset (g_twrite gu))@i + (shape (g_twrite gu))@i).
    { destruct (t_fit u); try (left; discriminate). right.
      rewrite <- (wr_hi_eq n t gt Bt), <- (wr_hi_eq n u gu Bu), <- (ctx_lo_eq n t gt Bt) by auto.
      apply E4; auto. congruence. }
    assert (D2 : t_fit t <> Overhang \/ (offset (g_twrite gu))@i + (shape (g_twrite gu))@i <=
                    (offset (g_twrite gt))@i + (shape (g_twrite gt))@i + C0 gt i).
    { destruct (t_fit t); try (left; discriminate). right.
      rewrite <- (wr_hi_eq n t gt Bt), <- (wr_hi_eq n u gu Bu), <- (ctx_lo_eq n t gt Bt) by auto.
      apply E5; auto. congruence. }
    unfold meets3.
    assert (A2' : t_fit u = Overhang \/ (offset (b_write a))@i + (shape (b_write a))@i <= (offset (g_twrite gu))@i + (shape (g_twrite gu))@i)
      by (destruct (t_fit u); auto; right; apply A2; discriminate).
    assert (B2' : t_fit t = Overhang \/ (offset (b_write b))@i + (shape (b_write b))@i <= (offset (g_twrite gt))@i + (shape (g_twrite gt))@i)
      by (destruct (t_fit t); auto; right; apply B2; discriminate).
    clear A2 B2. destruct A2', B2', D1, D2; try congruence; lia. }
  split; intros [_ H]; (split; [auto|]); intros i Hi; specialize (H i Hi); destruct (G i Hi) as [G1 G2];
    rewrite ?G1, ?G2 in *; apply D; auto.
Qed.
