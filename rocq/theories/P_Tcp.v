(* Framing of messages (C41, C42). *)
From Coq Require Import Lia.
From Verif Require Import Tcp.
Open Scope Z_scope.

Lemma to_le_length k n : length (to_le k n) = k.
Proof. revert n. induction k; cbn; auto. Qed.
Lemma of_to_le k : forall n, 0 <= n < 256 ^ Z.of_nat k -> of_le (to_le k n) = n.
Proof.
  induction k as [|k IH]; intros n H.
  - cbn in *. lia.
  - rewrite Nat2Z.inj_succ, Z.pow_succ_r in H by lia. cbn [to_le of_le]. rewrite IH.
    + pose proof (Z.div_mod n 256). lia.
    + split; [apply Z.div_pos; lia|]. apply Z.div_lt_upper_bound; lia.
Qed.
Lemma to_le_bytes k : forall n, Forall (fun x => 0 <= x < 256) (to_le k n).
Proof. induction k; intros n; cbn [to_le]; constructor; auto. apply Z.mod_pos_bound. lia. Qed.

Definition small (p : bytes) : Prop := Z.of_nat (length p) < 2 ^ 32.
Definition hdr (p : bytes) : bytes := to_le 4 (Z.of_nat (length p)).
Definition enc (ps : list bytes) : bytes := concat (map (fun p => hdr p ++ p) ps).

Lemma frame_small p : small p -> frame p = Ok (hdr p ++ p).
Proof.
  intros H. unfold frame, pack_I, small in *.
  replace ((0 <=? Z.of_nat (length p)) && (Z.of_nat (length p) <? 2 ^ 32)) with true; auto.
  symmetry. apply andb_true_intro. split; [apply Z.leb_le|apply Z.ltb_lt]; lia.
Qed.
Lemma hdr_size p : small p -> unpack_I (hdr p) = Z.of_nat (length p).
Proof. intros H. unfold unpack_I, hdr. apply of_to_le. unfold small in H. lia. Qed.
Lemma hdr_length p : length (hdr p) = 4%nat.
Proof. apply to_le_length. Qed.
Lemma write_all ps : Forall small ps -> forall w, fold_left write ps w = w ++ enc ps.
Proof.
  induction 1 as [|p ps H _ IH]; intros w; cbn [fold_left].
  - unfold enc. cbn. rewrite app_nil_r. auto.
  - rewrite IH. unfold write. rewrite frame_small by auto. unfold enc. cbn [map concat]. rewrite !app_assoc. auto.
Qed.

Lemma split_app {A} (a b c d : list A) : a ++ b = c ++ d -> (length c <= length a)%nat ->
  exists x, a = c ++ x /\ x ++ b = d.
Proof.
  revert c. induction a as [|x a IH]; intros [|y c] E L; cbn in *; try lia.
  - exists []. auto.
  - exists (x :: a). auto.
  - injection E as -> E. destruct (IH c E) as [z [-> Z]]; [lia|]. exists z. auto.
Qed.
Lemma firstn_all_app {A} (a b : list A) n : length a = n -> firstn n (a ++ b) = a.
Proof. intros <-. rewrite firstn_app, Nat.sub_diag, firstn_all. cbn. apply app_nil_r. Qed.
Lemma skipn_all_app {A} (a b : list A) n : length a = n -> skipn n (a ++ b) = b.
Proof. intros <-. rewrite skipn_app, Nat.sub_diag, skipn_all. reflexivity. Qed.

Lemma some_inj {A} (a b : A) : Some a = Some b -> a = b.
Proof. congruence. Qed.

Section R.
  Variable ps : list bytes.
  Hypothesis SM : Forall small ps.
  (* w has arrived; r is the reader's state *)
  Definition good (w : bytes) (r : reader) : Prop :=
    (exists rest, w ++ rest = enc ps) /\
    exists ps1 ps2, ps = ps1 ++ ps2 /\ rd_out r = ps1 /\
      match rd_size r with
      | None => w = enc ps1 ++ rd_buf r
      | Some n => exists p ps3, ps2 = p :: ps3 /\ n = Z.of_nat (length p) /\ w = enc ps1 ++ hdr p ++ rd_buf r
      end.
  Lemma enc_app a b : enc (a ++ b) = enc a ++ enc b.
  Proof. unfold enc. rewrite map_app, concat_app. auto. Qed.
  Lemma enc_cons p b : enc (p :: b) = hdr p ++ p ++ enc b.
  Proof. unfold enc. cbn [map concat]. rewrite app_assoc. auto. Qed.
  Lemma small_in p a b : ps = a ++ p :: b -> small p.
  Proof. intros E. rewrite E in SM. apply Forall_app in SM. destruct SM as [_ H]. inversion H; auto. Qed.

  (* one read: the invariant is kept *)
  Lemma step_good w r r' : good w r -> rd_step r = Some r' -> good w r'.
  Proof.
    intros [[rest P] [ps1 [ps2 [E [Eo D]]]]] S. unfold rd_step in S. split; [eauto|].
    destruct (rd_size r) as [n|] eqn:Er.
    - destruct D as [p [ps3 [E2 [En Ew]]]]. destruct (n <=? _) eqn:L; [|discriminate]. apply some_inj in S; subst r'.
      apply Z.leb_le in L. subst n ps2.
      assert (K : rd_buf r ++ rest = p ++ enc ps3).
      { rewrite Ew, E, enc_app, enc_cons, <- !app_assoc in P. do 2 apply app_inv_head in P. exact P. }
      destruct (split_app _ _ _ _ K) as [x [Ex _]]; [lia|].
      exists (ps1 ++ [p]), ps3. rewrite <- app_assoc. split; auto. cbn [rd_out rd_size rd_buf].
      rewrite Nat2Z.id, Ex, firstn_all_app, skipn_all_app by auto. split; [congruence|].
      rewrite Ew, Ex, enc_app, enc_cons. unfold enc at 3. cbn. rewrite app_nil_r, <- !app_assoc. auto.
    - destruct (4 <=? _)%nat eqn:L; [|discriminate]. apply some_inj in S; subst r'. apply Nat.leb_le in L.
      assert (K : rd_buf r ++ rest = enc ps2).
      { rewrite D, E, enc_app, <- app_assoc in P. apply app_inv_head in P. exact P. }
      destruct ps2 as [|p ps3].
      { apply app_eq_nil in K. destruct K as [K _]. rewrite K in L. cbn in L. lia. }
      rewrite enc_cons in K. destruct (split_app _ _ _ _ K) as [x [Ex _]]; [rewrite hdr_length; auto|].
      exists ps1, (p :: ps3). split; auto. cbn [rd_out rd_size rd_buf]. split; auto.
      exists p, ps3. split; auto. rewrite Ex, firstn_all_app, skipn_all_app by apply hdr_length.
      rewrite hdr_size by (eapply small_in; eauto). split; auto. rewrite D, Ex. auto.
  Qed.
  Definition todo (r : reader) : nat := (length (rd_buf r) + match rd_size r with None => 0 | Some _ => 1 end)%nat.
  Lemma step_todo r r' : rd_step r = Some r' -> (forall n, rd_size r = Some n -> 0 <= n) -> (todo r' < todo r)%nat.
  Proof.
    unfold rd_step, todo. intros S P. destruct (rd_size r) as [n|].
    - destruct (n <=? _) eqn:L; [|discriminate]. apply some_inj in S; subst r'. apply Z.leb_le in L. cbn [rd_size rd_buf].
      rewrite skipn_length. lia.
    - destruct (4 <=? _)%nat eqn:L; [|discriminate]. apply some_inj in S; subst r'. apply Nat.leb_le in L. cbn [rd_size rd_buf].
      rewrite skipn_length. lia.
  Qed.
  Lemma good_pos w r : good w r -> forall n, rd_size r = Some n -> 0 <= n.
  Proof. intros [_ [ps1 [ps2 [_ [_ D]]]]] n E. rewrite E in D. destruct D as [p [? [_ [-> _]]]]. lia. Qed.
  Lemma run_good f : forall w r, good w r -> (todo r < f)%nat -> good w (rd_run f r) /\ rd_step (rd_run f r) = None.
  Proof.
    induction f as [|f IH]; intros w r G L; [lia|]. cbn [rd_run]. destruct (rd_step r) as [r'|] eqn:S; auto.
    apply IH; [eapply step_good; eauto|]. pose proof (step_todo r r' S (good_pos w r G)). lia.
  Qed.
  Lemma feed_good w r c : good w r -> (exists rest, (w ++ c) ++ rest = enc ps) ->
    good (w ++ c) (rd_feed r c) /\ rd_step (rd_feed r c) = None.
  Proof.
    intros [_ [ps1 [ps2 [E [Eo D]]]]] P. unfold rd_feed. apply run_good.
    - split; auto. exists ps1, ps2. split; auto. cbn [rd_out rd_size rd_buf]. split; auto.
      destruct (rd_size r) as [n|].
      + destruct D as [p [ps3 [-> [-> ->]]]]. exists p, ps3. rewrite <- !app_assoc. auto.
      + rewrite D, <- app_assoc. auto.
    - unfold todo. cbn [rd_size rd_buf]. destruct (rd_size r); lia.
  Qed.
  Lemma feeds_good chunks : forall w r, good w r -> rd_step r = None -> (exists rest, (w ++ concat chunks) ++ rest = enc ps) ->
    good (w ++ concat chunks) (fold_left rd_feed chunks r) /\ rd_step (fold_left rd_feed chunks r) = None.
  Proof.
    induction chunks as [|c cs IH]; intros w r G S P; cbn [fold_left concat].
    - rewrite app_nil_r. auto.
    - cbn [concat] in P. rewrite app_assoc in P |- *.
      assert (P' : exists rest, (w ++ c) ++ rest = enc ps) by (destruct P as [x Hx]; exists (concat cs ++ x); rewrite <- Hx, !app_assoc; auto).
      destruct (feed_good w r c G P'). apply IH; auto.
  Qed.
  Lemma init_good : good [] rd_init /\ rd_step rd_init = None.
  Proof. split; auto. split; [exists (enc ps); auto|]. exists [], ps. cbn. auto. Qed.

  (* which messages were read: as many as are complete *)
  Lemma good_stuck w r : good w r -> rd_step r = None ->
    exists ps1 ps2, ps = ps1 ++ ps2 /\ rd_out r = ps1 /\ (length (enc ps1) <= length w)%nat /\
      match ps2 with
      | [] => rd_size r = None /\ rd_buf r = []
      | p :: _ => (length w < length (enc (ps1 ++ [p])))%nat
      end.
  Proof.
    intros [[rest P] [ps1 [ps2 [E [Eo D]]]]] S. exists ps1, ps2. split; auto. split; auto.
    unfold rd_step in S. destruct (rd_size r) as [n|] eqn:Er.
    - destruct D as [p [ps3 [-> [-> ->]]]]. destruct (_ <=? _) eqn:L; [discriminate|]. apply Z.leb_gt in L.
      rewrite !app_length. split; [lia|]. rewrite enc_app, enc_cons, !app_length. cbn. lia.
    - destruct (4 <=? _)%nat eqn:L; [discriminate|]. apply Nat.leb_gt in L. subst w. rewrite app_length. split; [lia|].
      destruct ps2 as [|p ps3].
      + rewrite E, app_nil_r in P. rewrite <- app_nil_r, <- app_assoc in P. apply app_inv_head in P.
        apply app_eq_nil in P. tauto.
      + rewrite enc_app, enc_cons, !app_length, hdr_length. lia.
  Qed.
End R.

(* The bytes on the stream after sending the pickled messages one after the other. *)
Definition sent (ps : list bytes) : bytes := fold_left write ps [].
(* the messages read after the chunks have arrived *)
Definition received (chunks : list bytes) : reader := fold_left rd_feed chunks rd_init.

Theorem C41_lossless : forall (msg : Type) (dumps : msg -> bytes) (loads : bytes -> res msg),
  (forall m, loads (dumps m) = Ok m) ->
  forall ms, (forall m, In m ms -> Z.of_nat (length (dumps m)) < 2 ^ 32) ->
  forall chunks, concat chunks = sent (map dumps ms) ->
  map loads (rd_out (received chunks)) = map Ok ms /\ rd_buf (received chunks) = [] /\ rd_size (received chunks) = None.
Proof.
  intros msg dumps loads LD ms SM chunks E. set (ps := map dumps ms).
  assert (SP : Forall small ps).
  { apply Forall_forall. intros p Hp. apply in_map_iff in Hp. destruct Hp as [m [<- Hm]]. apply SM, Hm. }
  unfold sent in E. fold ps in E. rewrite (write_all ps SP) in E. cbn in E.
  destruct (init_good ps) as [G S].
  destruct (feeds_good ps SP chunks [] rd_init G S) as [G1 S1]; [exists []; rewrite app_nil_r; exact E|].
  cbn [app] in G1. rewrite E in G1. fold (received chunks) in G1, S1.
  destruct (good_stuck ps _ _ G1 S1) as [ps1 [ps2 [Ep [Eo [_ D]]]]]. destruct ps2 as [|p ps3].
  - rewrite app_nil_r in Ep. rewrite Eo, <- Ep. destruct D as [-> ->]. split; auto.
    unfold ps. rewrite map_map. apply map_ext. auto.
  - exfalso. rewrite Ep in D. change (p :: ps3) with ([p] ++ ps3) in D. rewrite app_assoc, (enc_app (ps1 ++ [p])), app_length in D. lia.
Qed.
Theorem C41_prefix : forall (msg : Type) (dumps : msg -> bytes) (loads : bytes -> res msg),
  (forall m, loads (dumps m) = Ok m) ->
  forall ms, (forall m, In m ms -> Z.of_nat (length (dumps m)) < 2 ^ 32) ->
  forall chunks rest, concat chunks ++ rest = sent (map dumps ms) ->
  exists ms1 ms2, ms = ms1 ++ ms2 /\ map loads (rd_out (received chunks)) = map Ok ms1 /\
    (length (sent (map dumps ms1)) <= length (concat chunks))%nat /\
    forall m ms3, ms2 = m :: ms3 -> (length (concat chunks) < length (sent (map dumps (ms1 ++ [m]))))%nat.
Proof.
  intros msg dumps loads LD ms SM chunks rest E. set (ps := map dumps ms).
  assert (SP : forall l, incl l ms -> Forall small (map dumps l)).
  { intros l I. apply Forall_forall. intros p Hp. apply in_map_iff in Hp. destruct Hp as [m [<- Hm]]. apply SM, I, Hm. }
  assert (SE : forall l, incl l ms -> sent (map dumps l) = enc (map dumps l)).
  { intros l I. unfold sent. rewrite write_all by auto. reflexivity. }
  rewrite SE in E by apply incl_refl. fold ps in E.
  assert (SP' : Forall small ps) by (apply SP, incl_refl).
  destruct (init_good ps) as [G S].
  destruct (feeds_good ps SP' chunks [] rd_init G S) as [G1 S1]; [exists rest; exact E|].
  cbn [app] in G1. fold (received chunks) in G1, S1.
  destruct (good_stuck ps _ _ G1 S1) as [ps1 [ps2 [Ep [Eo [L D]]]]].
  unfold ps in Ep. apply map_eq_app in Ep. destruct Ep as [ms1 [ms2 [Em [E1 E2]]]].
  exists ms1, ms2. split; auto. split; [rewrite Eo, <- E1, map_map; apply map_ext; auto|].
  assert (I1 : incl ms1 ms) by (rewrite Em; apply incl_appl, incl_refl).
  split; [rewrite SE, E1 by auto; auto|].
  intros m ms3 ->. cbn [map] in E2. subst ps2. rewrite SE, map_app, E1; auto.
  rewrite Em. intros x Hx. apply in_app_or in Hx. apply in_or_app. destruct Hx as [Hx|[<-|[]]]; auto. right. left. auto.
Qed.
Print Assumptions C41_lossless.
Print Assumptions C41_prefix.

Example framing_example :
  received [[3; 0]; [0; 0; 7; 8]; [9; 0; 0; 0; 0; 1; 0; 0; 0]; [5; 2; 0; 0]] =
    Reader None [2; 0; 0] [[7; 8; 9]; []; [5]] /\
  sent [[7; 8; 9]; []; [5]] = [3; 0; 0; 0; 7; 8; 9; 0; 0; 0; 0; 1; 0; 0; 0; 5] /\
  to_le 4 1027 = [3; 4; 0; 0].
Proof. vm_compute. auto. Qed.

(* C42: struct.pack("I", ...) has four bytes; messages of 2^32 bytes and more are not sent at all
   (nothing is written, the exception is swallowed by the event loop). *)
Theorem C42_limit_partial : forall p, (Z.of_nat (length p) < 2 ^ 32 -> exists b, frame p = Ok b) /\
  (2 ^ 32 <= Z.of_nat (length p) -> frame p = Err StructError /\ forall s, write s p = s).
Proof.
  intros p. split; intros H.
  - rewrite frame_small by auto. eauto.
  - assert (E : frame p = Err StructError).
    { unfold frame, pack_I. replace (Z.of_nat (length p) <? 2 ^ 32) with false.
      - rewrite andb_false_r. reflexivity.
      - symmetry. apply Z.ltb_ge. auto. }
    split; auto. intros s. unfold write. rewrite E. auto.
Qed.
Theorem C42_message_size_refuted : exists p, Forall (fun x => 0 <= x < 256) p /\ Z.of_nat (length p) < 2 ^ 64 /\
  frame p = Err StructError /\ sent [p] = [].
Proof.
  remember (Z.to_nat (2 ^ 32)) as k eqn:Ek.
  assert (L : Z.of_nat (length (repeat 0 k)) = 2 ^ 32) by (rewrite repeat_length, Ek; apply Z2Nat.id; lia).
  exists (repeat 0 k). split.
  - apply Forall_forall. intros x Hx. apply repeat_spec in Hx. lia.
  - split; [rewrite L; reflexivity|].
    destruct (C42_limit_partial (repeat 0 k)) as [_ H]. destruct H as [H1 H2]; [rewrite L; reflexivity|].
    split; auto. apply H2.
Qed.
Print Assumptions C42_message_size_refuted.
