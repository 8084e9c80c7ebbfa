(* The blocks of one task form a grid: facts about BGraph.v. *)
From Coq Require Import Permutation FinFun.
From Verif Require Import VecFacts CantorFacts.
From Verif Require Export BGraph.
Open Scope Z_scope.

Section Params.
  Variable g : bgraph.
  Definition W i := (shape (g_bwrite g))@i.
  Definition C0 i := (fst (g_ctx g))@i.
  Definition C1 i := (snd (g_ctx g))@i.
  Definition T0 i := (offset (g_tread g))@i.
  Definition E i := (shape (g_twrite g))@i.
  (* blocks per dimension *)
  Definition NB i := match g_fit g with Valid => E i / W i | _ => (E i + W i - 1) / W i end.
  (* levels per dimension *)
  Definition NL i :=
    if g_rwc g then Z.min ((Z.max (C0 i) (C1 i) + W i - 1) / W i + 1) (NB i) else 1.

  Record wf_graph (n : nat) : Prop := {
    wg_br : roi_dims n (g_bread g);
    wg_bw : roi_dims n (g_bwrite g);
    wg_tr : roi_dims n (g_tread g);
    wg_tw : roi_dims n (g_twrite g);
    wg_c0l : length (fst (g_ctx g)) = n;
    wg_c1l : length (snd (g_ctx g)) = n;
    wg_rl : length (g_round g) = n;
    wg_sl : length (g_stride g) = n;
    wg_w : forall i, (i < n)%nat -> 0 < W i;
    wg_c0 : forall i, (i < n)%nat -> 0 <= C0 i /\ C0 i = (offset (g_bwrite g))@i - (offset (g_bread g))@i;
    wg_c1 : forall i, (i < n)%nat -> 0 <= C1 i;
    wg_rs : forall i, (i < n)%nat -> (shape (g_bread g))@i = C0 i + W i + C1 i;
    wg_tw0 : forall i, (i < n)%nat -> (offset (g_twrite g))@i = T0 i + C0 i;
    wg_ts : forall i, (i < n)%nat -> (shape (g_tread g))@i = C0 i + E i + C1 i;
    wg_e : forall i, (i < n)%nat -> 0 <= E i;
    wg_r : forall i, (i < n)%nat ->
      (g_round g)@i = match g_fit g with Valid => W i | _ => 1 end;
    wg_s : forall i, (i < n)%nat -> (g_stride g)@i = NL i * W i;
    wg_lo : g_loffs g = compute_level_offsets (g_bwrite g) (g_stride g);
    wg_lc : g_lconf g = compute_level_conflicts (g_rwc g) (g_stride g) (g_loffs g)
  }.
End Params.

Ltac vl n :=
  match goal with
  | |- (_ < length ?v)%nat => let H := fresh in assert (H : length v = n) by auto 12 with vec; lia
  end.

Lemma stride_ok n bread bwrite twrite rwc f :
  roi_dims n bread -> roi_dims n bwrite -> roi_dims n twrite ->
  (forall i, (i < n)%nat -> 0 < (shape bwrite)@i) ->
  (forall i, (i < n)%nat -> (offset bread)@i <= (offset bwrite)@i) ->
  (forall i, (i < n)%nat ->
    (offset bwrite)@i + (shape bwrite)@i <= (offset bread)@i + (shape bread)@i) ->
  (forall i, (i < n)%nat -> 0 <= (shape twrite)@i) ->
  exists st, compute_level_stride bread bwrite twrite rwc f = Ok st /\ length st = n /\
    forall i, (i < n)%nat ->
      st@i = (if rwc then
        Z.min ((Z.max ((offset bwrite)@i - (offset bread)@i)
                ((offset bread)@i + (shape bread)@i - ((offset bwrite)@i + (shape bwrite)@i))
               + (shape bwrite)@i - 1) / (shape bwrite)@i + 1)
              (match f with Valid => (shape twrite)@i / (shape bwrite)@i
               | _ => ((shape twrite)@i + (shape bwrite)@i - 1) / (shape bwrite)@i end)
        else 1) * (shape bwrite)@i.
Proof.
  intros Hr Hw Ht Pw P0 P1 Pe. unfold compute_level_stride.
  destruct rwc; simpl negb.
  2:{ exists (shape bwrite). split; auto. split; [apply Hw|]. intros; lia. }
  cbv iota.
  assert (Hc : contains_roi bread bwrite = true).
  { apply (contains_roi_spec n); auto. }
  rewrite Hc. cbn [negb].
  eexists. split; [reflexivity|].
  assert (L1 : forall x y, length x = n -> length y = n ->
    length (map2 (fun l w : Z => ((l - 1) / w + 1) * w) x y) = n) by (intros; apply map2_length; auto).
  assert (L2 : length
     (if fit_eqb f Valid
      then csub (shape twrite) (cmod (shape twrite) (shape bwrite))
      else cadd (shape twrite) (cmod (cmod (cneg (shape twrite)) (shape bwrite)) (shape bwrite))) = n).
  { destruct (fit_eqb f Valid); auto 10 with vec. }
  split; [unfold rbegin; auto 12 with vec|].
  intros i Hi. specialize (Pw i Hi). specialize (P0 i Hi). specialize (P1 i Hi). specialize (Pe i Hi).
  rewrite (cmin_nth n) by (unfold rbegin; auto 12 with vec).
  rewrite (map2_nth _ _ _ i 0 0) by (unfold rbegin; vl n).
  rewrite (cadd_nth n), (cmax_nth n), !(csub_nth n) by (unfold rbegin; auto 12 with vec).
  rewrite !(rend_nth n) by auto. unfold rbegin.
  set (w := (shape bwrite)@i) in *. set (e := (shape twrite)@i) in *.
  set (m := Z.max _ _). 
  assert (Em : (if fit_eqb f Valid
      then csub (shape twrite) (cmod (shape twrite) (shape bwrite))
      else cadd (shape twrite) (cmod (cmod (cneg (shape twrite)) (shape bwrite)) (shape bwrite)))@i
     = (match f with Valid => e / w | _ => (e + w - 1) / w end) * w).
  { assert (G : (e + (- e mod w) mod w) = (e + w - 1) / w * w).
    { rewrite Z.mod_mod by lia.
      assert (Q : (e + w - 1) / w = (e + - e mod w) / w).
      { symmetry. pose proof (Z.mod_pos_bound (- e) w Pw).
        pose proof (Z.div_mod (- e) w ltac:(lia)).
        replace (e + - e mod w) with ((- (- e / w)) * w) by lia.
        rewrite Z.div_mul by lia.
        apply Z.div_unique with (r := w - 1 - (- e mod w)); lia. }
      rewrite Q. pose proof (Z.div_mod (- e) w ltac:(lia)).
      replace (e + - e mod w) with ((- (- e / w)) * w) by lia.
      rewrite Z.div_mul by lia. reflexivity. }
    destruct f; cbn [fit_eqb].
    - rewrite (csub_nth n), (cmod_nth n) by auto with vec. fold e w.
      pose proof (Z.div_mod e w ltac:(lia)). lia.
    - rewrite (cadd_nth n), !(cmod_nth n), (cneg_nth n) by auto with vec. exact G.
    - rewrite (cadd_nth n), !(cmod_nth n), (cneg_nth n) by auto with vec. exact G. }
  rewrite Em.
  rewrite <- Z.mul_min_distr_nonneg_r by lia. f_equal. 
Qed.

Lemma init_wf n tid bread bwrite tread rwc f :
  wf_inputs n bread bwrite tread ->
  exists g, bgraph_init tid bread bwrite rwc f (Some tread) None = Ok g /\
    wf_graph g n /\ g_tid g = tid /\ g_bread g = bread /\ g_bwrite g = bwrite /\
    g_tread g = tread /\ g_rwc g = rwc /\ g_fit g = f.
Proof.
  intros [Hr Hw Ht Pw P0 P1 Pe]. unfold bgraph_init, finish_graph.
  set (ctx := (csub (rbegin bwrite) (rbegin bread), csub (rend bread) (rend bwrite))).
  assert (L0 : length (fst ctx) = n) by (simpl; unfold rbegin; auto with vec).
  assert (L1 : length (snd ctx) = n) by (simpl; unfold rbegin; auto with vec).
  assert (V0 : forall i, (i < n)%nat -> (fst ctx)@i = (offset bwrite)@i - (offset bread)@i).
  { intros i Hi. simpl. unfold rbegin. apply (csub_nth n); auto with vec. }
  assert (V1 : forall i, (i < n)%nat -> (snd ctx)@i =
    (offset bread)@i + (shape bread)@i - ((offset bwrite)@i + (shape bwrite)@i)).
  { intros i Hi. simpl. rewrite (csub_nth n), !(rend_nth n) by auto with vec. lia. }
  set (tw := grow tread (cneg (fst ctx)) (cneg (snd ctx))).
  assert (Htw : roi_dims n tw) by (unfold tw; auto with vec).
  assert (Vt : forall i, (i < n)%nat -> (offset tw)@i = (offset tread)@i + (fst ctx)@i /\
    (shape tw)@i = (shape tread)@i - (fst ctx)@i - (snd ctx)@i).
  { intros i Hi. unfold tw. destruct (grow_nth n tread (cneg (fst ctx)) (cneg (snd ctx)) i) as [A B]; auto with vec.
    rewrite A, B, !(cneg_nth n) by auto. lia. }
  clearbody ctx.
  assert (Pt : forall i, (i < n)%nat -> 0 <= (shape tw)@i).
  { intros i Hi. destruct (Vt i Hi) as [_ ->]. rewrite V0, V1 by auto. specialize (Pe i Hi). lia. }
  destruct (stride_ok n bread bwrite tw rwc f) as [st [Es [Ls Vs]]]; auto.
  rewrite Es. cbn [bind]. eexists. split; [reflexivity|].
  split; [|cbn; auto 10].
  constructor; cbn [g_bread g_bwrite g_tread g_twrite g_ctx g_round g_stride g_fit g_rwc g_loffs g_lconf];
    unfold W, C0, C1, T0, E, NL, NB, C0, C1, E, W;
    cbn [g_bread g_bwrite g_tread g_twrite g_ctx g_round g_stride g_fit g_rwc g_loffs g_lconf]; auto.
  - destruct f; rewrite ?map_length; auto with vec.
  - intros i Hi. rewrite V0 by auto. specialize (P0 i Hi). lia.
  - intros i Hi. rewrite V1 by auto. specialize (P1 i Hi). lia.
  - intros i Hi. rewrite V0, V1 by auto. lia.
  - intros i Hi. apply Vt; auto.
  - intros i Hi. destruct (Vt i Hi) as [_ ->]. lia.
  - intros i Hi. destruct f; auto; rewrite (map_nth' _ _ _ 0); auto; destruct Hw; lia.
  - intros i Hi. rewrite Vs by auto. rewrite V0, V1 by auto. reflexivity.
Qed.
