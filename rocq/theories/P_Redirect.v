(* Where the output of a worker goes (C83). *)
From Coq Require Import Lia String.
From Verif Require Import Redirect.
Open Scope nat_scope.

(* what an act writes to which descriptor *)
Definition piece (a : act) (p : py) : list (nat * data) :=
  match a with
  | Flush i n => [(fo_fd (obj p i), firstn n (fo_buf (obj p i)))]
  | Raw fd x => [(fd, x)]
  | _ => []
  end.
Fixpoint pieces (l : list act) (p : py) : list (nat * data) :=
  match l with
  | [] => []
  | a :: r => piece a p ++ match act_step a p with Fine p1 => pieces r p1 | Exc _ => [] end
  end.
Definition via (a b : nat) (l : list (nat * data)) : data :=
  concat (map snd (filter (fun x => Nat.eqb (fst x) a || Nat.eqb (fst x) b) l)).
(* what was printed to an object, and what was flushed of that *)
Definition printed (i : nat) (l : list act) : data := concat (map (fun a => match a with Print j x => if Nat.eqb i j then x else [] | _ => [] end) l).
Fixpoint flushed (i : nat) (l : list act) (p : py) : data :=
  match l with
  | [] => []
  | a :: r => (match a with Flush j n => if Nat.eqb i j then firstn n (fo_buf (obj p i)) else [] | _ => [] end) ++
              match act_step a p with Fine p1 => flushed i r p1 | Exc _ => [] end
  end.

Lemma nth_set_fd i v : forall l j, nth j (set_fd l i v) None = if Nat.eqb j i then v else nth j l None.
Proof.
  induction i as [|i IH]; intros [|x l] j; destruct j; cbn; auto; try (destruct j; reflexivity).
  rewrite IH. destruct (Nat.eqb j i); destruct j; auto.
Qed.
Lemma first_free_free l : nth (first_free l) l None = None.
Proof. induction l as [|[d|] l IH]; cbn; auto. Qed.
Lemma set_nth_length {A} i (v : A) : forall l, List.length (set_nth i v l) = List.length l.
Proof. induction i as [|i IH]; intros [|x l]; cbn; auto. Qed.
Lemma nth_error_set_nth {A} i (v : A) : forall l j, i < List.length l -> nth_error (set_nth i v l) j = if Nat.eqb j i then Some v else nth_error l j.
Proof. induction i as [|i IH]; intros [|x l] [|j] H; cbn in *; try lia; auto. apply IH. lia. Qed.
Lemma set_nth_over {A} i (v : A) : forall l, List.length l <= i -> set_nth i v l = l.
Proof. induction i as [|i IH]; intros [|x l] H; cbn in *; try lia; auto. rewrite IH by lia. auto. Qed.
Lemma nth_set_nth {A} i (v d : A) : forall l j, nth j (set_nth i v l) d = if Nat.eqb j i && (i <? List.length l) then v else nth j l d.
Proof.
  induction i as [|i IH]; intros [|x l] [|j]; cbn; auto. { rewrite Bool.andb_false_r. auto. } rewrite IH. auto.
Qed.
Lemma obj_with i o p j : i < List.length (p_objs p) -> obj (with_obj i o p) j = if Nat.eqb j i then o else obj p j.
Proof. intros H. unfold obj, with_obj. cbn. rewrite nth_set_nth. apply Nat.ltb_lt in H. rewrite H, Bool.andb_true_r. auto. Qed.
Lemma obj_with_other i o p j : j <> i -> obj (with_obj i o p) j = obj p j.
Proof. intros H. unfold obj, with_obj. cbn. rewrite nth_set_nth. apply Nat.eqb_neq in H. rewrite H. auto. Qed.
Lemma obj_open i p : fo_closed (obj p i) = false -> i < List.length (p_objs p).
Proof. intros H. destruct (Nat.lt_ge_cases i (List.length (p_objs p))) as [L|L]; auto. unfold obj in H. rewrite nth_overflow in H by auto. discriminate. Qed.

(* what write does *)
Lemma write_spec fd x s s' : os_write fd x s = Fine s' -> exists d e, lookup s fd = Some d /\ nth_error (descs s) d = Some e /\
  (forall fd', lookup s' fd' = lookup s fd') /\ List.length (descs s') = List.length (descs s) /\
  (forall k, k <> d -> nth_error (descs s') k = nth_error (descs s) k) /\
  (exists o, nth_error (descs s') d = Some (Desc (de_file e) o (de_app e)) /\
     forall c, files s (de_file e) = Some c -> de_app e = true \/ de_off e = List.length c ->
       files s' (de_file e) = Some (c ++ x) /\ (o = List.length (c ++ x))) /\
  (forall f, f <> de_file e -> files s' f = files s f).
Proof.
  unfold os_write. destruct (lookup s fd) as [d|] eqn:El; [|discriminate]. destruct (nth_error (descs s) d) as [e|] eqn:Ee; [|discriminate].
  intros E. injection E as <-. exists d, e. assert (Ld : d < List.length (descs s)) by (apply nth_error_Some; congruence).
  repeat split; auto; cbn.
  - apply set_nth_length.
  - intros k Nk. rewrite nth_error_set_nth by auto. apply Nat.eqb_neq in Nk. rewrite Nk. auto.
  - eexists. split; [rewrite nth_error_set_nth, Nat.eqb_refl by auto; reflexivity|]. intros c Ec Ho. rewrite Ec. unfold set_file. rewrite String.eqb_refl.
    assert (O : (if de_app e then List.length c else de_off e) = List.length c) by (destruct (de_app e); destruct Ho as [Ho|Ho]; auto; discriminate).
    rewrite O. unfold put. rewrite firstn_all, Nat.sub_diag, app_length. cbn [repeat List.app]. rewrite (@skipn_all2 _ (List.length c + List.length x) c) by lia. rewrite app_nil_r. auto.
  - intros f Nf. unfold set_file. apply String.eqb_neq in Nf. rewrite Nf. auto.
Qed.

(* the files of a process while it is redirected *)
Record led (out err : string) (d1 d2 f1 f2 : nat) (p : py) : Prop := {
  le_out : forall fd, lookup (p_os p) fd = Some d1 <-> fd = 1 \/ fd = f1;
  le_err : forall fd, lookup (p_os p) fd = Some d2 <-> fd = 2 \/ fd = f2;
  le_bound : forall fd d, lookup (p_os p) fd = Some d -> d < List.length (descs (p_os p));
  le_d1 : exists o a c, nth_error (descs (p_os p)) d1 = Some (Desc out o a) /\ files (p_os p) out = Some c /\ (a = true \/ o = List.length c);
  le_d2 : exists o a c, nth_error (descs (p_os p)) d2 = Some (Desc err o a) /\ files (p_os p) err = Some c /\ (a = true \/ o = List.length c);
  le_rest : forall d e, nth_error (descs (p_os p)) d = Some e -> d <> d1 -> d <> d2 -> de_file e <> out /\ de_file e <> err
}.
(* other files than the logs *)
Definition allowed (out err : string) (f1 f2 : nat) (a : act) : Prop :=
  match a with
  | Open f _ => f <> out /\ f <> err
  | Close fd => fd <> 1 /\ fd <> 2 /\ fd <> f1 /\ fd <> f2
  | _ => True
  end.

Lemma led_write out err d1 d2 f1 f2 p fd x s objs : out <> err -> d1 <> d2 -> led out err d1 d2 f1 f2 p -> os_write fd x (p_os p) = Fine s ->
  let p' := PyS s objs (p_out p) (p_err p) (p_out0 p) (p_err0 p) in
  led out err d1 d2 f1 f2 p' /\
  forall c1 c2, files (p_os p) out = Some c1 -> files (p_os p) err = Some c2 ->
    files s out = Some (c1 ++ via 1 f1 [(fd, x)]) /\ files s err = Some (c2 ++ via 2 f2 [(fd, x)]).
Proof.
  intros No Nd [LO LE LB L1 L2 LR] W p'. destruct (write_spec _ _ _ _ W) as [d [e [El [Ee [F1 [F2 [F3 [[o [F4 F5]] F6]]]]]]]].
  destruct L1 as [o1 [a1 [c1 [A1 [A2 A3]]]]]. destruct L2 as [o2 [a2 [c2 [B1 [B2 B3]]]]].
  assert (V1 : via 1 f1 [(fd, x)] = if Nat.eq_dec d d1 then x else []).
  { unfold via. cbn [filter fst]. destruct (Nat.eq_dec d d1) as [->|N].
    - apply LO in El. assert (T : (Nat.eqb fd 1 || Nat.eqb fd f1) = true) by (apply Bool.orb_true_iff; rewrite !Nat.eqb_eq; auto).
      rewrite T. cbn. apply app_nil_r.
    - assert (T : (Nat.eqb fd 1 || Nat.eqb fd f1) = false).
      { apply Bool.not_true_iff_false. rewrite Bool.orb_true_iff, !Nat.eqb_eq. intros T. apply LO in T. congruence. }
      rewrite T. auto. }
  assert (V2 : via 2 f2 [(fd, x)] = if Nat.eq_dec d d2 then x else []).
  { unfold via. cbn [filter fst]. destruct (Nat.eq_dec d d2) as [->|N].
    - apply LE in El. assert (T : (Nat.eqb fd 2 || Nat.eqb fd f2) = true) by (apply Bool.orb_true_iff; rewrite !Nat.eqb_eq; auto).
      rewrite T. cbn. apply app_nil_r.
    - assert (T : (Nat.eqb fd 2 || Nat.eqb fd f2) = false).
      { apply Bool.not_true_iff_false. rewrite Bool.orb_true_iff, !Nat.eqb_eq. intros T. apply LE in T. congruence. }
      rewrite T. auto. }
  rewrite V1, V2. destruct (Nat.eq_dec d d1) as [->|N1]; [|destruct (Nat.eq_dec d d2) as [->|N2]].
  - rewrite A1 in Ee. injection Ee as <-. cbn [de_file de_app de_off] in *. destruct (F5 _ A2 A3) as [G1 G2].
    destruct (Nat.eq_dec d1 d2) as [|_]; [congruence|]. split.
    + constructor; cbn [p_os p']; intros.
      * rewrite F1. apply LO.
      * rewrite F1. apply LE.
      * rewrite F2. rewrite F1 in H. eauto.
      * exists o, a1, (c1 ++ x). auto.
      * exists o2, a2, c2. rewrite F3 by auto. rewrite F6 by auto. auto.
      * rewrite F3 in H by auto. eauto.
    + intros c1' c2' E1 E2. rewrite A2 in E1. injection E1 as <-. split; auto. rewrite F6 by auto. rewrite app_nil_r. auto.
  - rewrite B1 in Ee. injection Ee as <-. cbn [de_file de_app de_off] in *. destruct (F5 _ B2 B3) as [G1 G2]. split.
    + constructor; cbn [p_os p']; intros.
      * rewrite F1. apply LO.
      * rewrite F1. apply LE.
      * rewrite F2. rewrite F1 in H. eauto.
      * exists o1, a1, c1. rewrite F3 by auto. rewrite F6 by auto. auto.
      * exists o, a2, (c2 ++ x). auto.
      * rewrite F3 in H by auto. eauto.
    + intros c1' c2' E1 E2. rewrite B2 in E2. injection E2 as <-. split; auto. rewrite F6 by auto. rewrite app_nil_r. auto.
  - destruct (LR _ _ Ee N1 N2) as [X1 X2]. split.
    + constructor; cbn [p_os p']; intros.
      * rewrite F1. apply LO.
      * rewrite F1. apply LE.
      * rewrite F2. rewrite F1 in H. eauto.
      * exists o1, a1, c1. rewrite F3 by auto. rewrite F6 by auto. auto.
      * exists o2, a2, c2. rewrite F3 by auto. rewrite F6 by auto. auto.
      * destruct (Nat.eq_dec d0 d) as [->|Nd0]; [|rewrite F3 in H by auto; eauto]. rewrite F4 in H. injection H as <-. cbn. auto.
    + intros c1' c2' E1 E2. rewrite !F6 by auto. rewrite !app_nil_r. auto.
Qed.
Lemma via_app a b l m : via a b (l ++ m) = via a b l ++ via a b m.
Proof. unfold via. rewrite filter_app, map_app, concat_app. auto. Qed.
Lemma led_step out err d1 d2 f1 f2 a p p' : out <> err -> d1 <> d2 -> led out err d1 d2 f1 f2 p -> allowed out err f1 f2 a -> act_step a p = Fine p' ->
  led out err d1 d2 f1 f2 p' /\
  forall c1 c2, files (p_os p) out = Some c1 -> files (p_os p) err = Some c2 ->
    files (p_os p') out = Some (c1 ++ via 1 f1 (piece a p)) /\ files (p_os p') err = Some (c2 ++ via 2 f2 (piece a p)).
Proof.
  intros No Nd L A E. pose proof L as L0. destruct L as [LO LE LB L1 L2 LR].
  assert (B1 : d1 < List.length (descs (p_os p))) by (apply (LB 1), LO; auto).
  assert (B2 : d2 < List.length (descs (p_os p))) by (apply (LB 2), LE; auto).
  destruct a as [i x|i n|fd x|f m|fd]; cbn [act_step allowed piece] in *.
  - destruct (fo_closed (obj p i)); [discriminate|]. injection E as <-. cbn. split; [constructor; auto|]. unfold via. cbn. intros c1 c2 -> ->. rewrite !app_nil_r. auto.
  - destruct (fo_closed (obj p i)); [discriminate|]. unfold flush in E. destruct (os_write _ _ _) as [s|] eqn:W; [|discriminate]. cbn [fbind] in E. injection E as <-.
    apply (led_write _ _ _ _ _ _ _ _ _ _ _ No Nd L0 W).
  - destruct (os_write _ _ _) as [s|] eqn:W; [|discriminate]. cbn [fbind] in E. injection E as <-. apply (led_write _ _ _ _ _ _ _ _ _ _ (p_objs p) No Nd L0 W).
  - injection E as <-. destruct A as [A1 A2]. cbn [os_open snd with_os p_os].
    assert (K : forall fd, lookup (OS (set_fd (fds (p_os p)) (first_free (fds (p_os p))) (Some (List.length (descs (p_os p))))) (descs (p_os p)) (files (p_os p))) fd =
      if Nat.eqb fd (first_free (fds (p_os p))) then Some (List.length (descs (p_os p))) else lookup (p_os p) fd) by (intros fd; unfold lookup; cbn; apply nth_set_fd).
    pose proof (first_free_free (fds (p_os p))) as FF. fold (lookup (p_os p) (first_free (fds (p_os p)))) in FF. set (ff := first_free (fds (p_os p))) in *.
    assert (Fo : ff <> 1 /\ ff <> f1). { split; intros X; assert (Y : lookup (p_os p) ff = Some d1) by (apply LO; auto); congruence. }
    assert (Fe : ff <> 2 /\ ff <> f2). { split; intros X; assert (Y : lookup (p_os p) ff = Some d2) by (apply LE; auto); congruence. }
    unfold lookup in K; cbn [fds] in K. split.
    + constructor; cbn [with_os p_os fds descs files]; unfold lookup; cbn [fds].
      * intros fd. rewrite K. destruct (Nat.eqb fd ff) eqn:X; [|apply LO]. apply Nat.eqb_eq in X. subst fd. split; [intros Y; injection Y as Y; lia|intros [Y|Y]; tauto].
      * intros fd. rewrite K. destruct (Nat.eqb fd ff) eqn:X; [|apply LE]. apply Nat.eqb_eq in X. subst fd. split; [intros Y; injection Y as Y; lia|intros [Y|Y]; tauto].
      * intros fd d. rewrite K, app_length. cbn. destruct (Nat.eqb fd ff); [intros Y; injection Y as <-; lia|]. intros Y. apply LB in Y. lia.
      * destruct L1 as [o [a [c [X [Y Z]]]]]. exists o, a, c. rewrite nth_error_app1 by auto. split; auto. split; auto. unfold set_file.
        destruct (String.eqb out f) eqn:Q; auto. apply String.eqb_eq in Q. congruence.
      * destruct L2 as [o [a [c [X [Y Z]]]]]. exists o, a, c. rewrite nth_error_app1 by auto. split; auto. split; auto. unfold set_file.
        destruct (String.eqb err f) eqn:Q; auto. apply String.eqb_eq in Q. congruence.
      * intros d e X. destruct (Nat.lt_ge_cases d (List.length (descs (p_os p)))) as [Ld|Ld]; [rewrite nth_error_app1 in X by auto; eauto|].
        rewrite nth_error_app2 in X by auto. destruct (d - _); [|destruct n; discriminate]. injection X as <-. cbn. auto.
    + intros c1 c2 E1 E2. unfold via. cbn. rewrite !app_nil_r. unfold set_file.
      assert (Q1 : String.eqb out f = false) by (apply String.eqb_neq; congruence). assert (Q2 : String.eqb err f = false) by (apply String.eqb_neq; congruence).
      rewrite Q1, Q2. auto.
  - unfold os_close in E. destruct (lookup (p_os p) fd) as [d|] eqn:El; [|discriminate]. cbn [fbind] in E. injection E as <-. destruct A as [A1 [A2 [A3 A4]]]. split.
    + constructor; cbn [p_os with_os fds descs files]; auto; unfold lookup; cbn [fds].
      * intros k. rewrite nth_set_fd. destruct (Nat.eqb k fd) eqn:X; [|apply LO]. apply Nat.eqb_eq in X. subst k. split; [discriminate|intros [Y|Y]; tauto].
      * intros k. rewrite nth_set_fd. destruct (Nat.eqb k fd) eqn:X; [|apply LE]. apply Nat.eqb_eq in X. subst k. split; [discriminate|intros [Y|Y]; tauto].
      * intros k q. rewrite nth_set_fd. destruct (Nat.eqb k fd); [discriminate|]. apply LB.
    + unfold via. cbn. intros c1 c2 -> ->. rewrite !app_nil_r. auto.
Qed.
Lemma led_run out err d1 d2 f1 f2 : out <> err -> d1 <> d2 -> forall l p p', led out err d1 d2 f1 f2 p -> Forall (allowed out err f1 f2) l -> act_run l p = Fine p' ->
  led out err d1 d2 f1 f2 p' /\
  forall c1 c2, files (p_os p) out = Some c1 -> files (p_os p) err = Some c2 ->
    files (p_os p') out = Some (c1 ++ via 1 f1 (pieces l p)) /\ files (p_os p') err = Some (c2 ++ via 2 f2 (pieces l p)).
Proof.
  intros No Nd l. induction l as [|a l IH]; intros p p' L A E; cbn [act_run pieces] in *.
  - injection E as <-. split; auto. unfold via. cbn. intros c1 c2 -> ->. rewrite !app_nil_r. auto.
  - destruct (act_step a p) as [p1|] eqn:E1; [|discriminate]. cbn [fbind] in E. inversion A; subst.
    destruct (led_step _ _ _ _ _ _ _ _ _ No Nd L H1 E1) as [L1 K1]. destruct (IH _ _ L1 H2 E) as [L2 K2]. split; auto.
    intros c1 c2 Q1 Q2. destruct (K1 _ _ Q1 Q2) as [R1 R2]. destruct (K2 _ _ R1 R2) as [R3 R4]. rewrite !via_app, !app_assoc. auto.
Qed.

(* _file_reopen *)
Lemma reopen_spec f m i p : fo_closed (obj p i) = false -> lookup (p_os p) (fo_fd (obj p i)) <> None ->
  let t := fo_fd (obj p i) in let D := List.length (descs (p_os p)) in
  exists ff s, lookup (p_os p) ff = None /\
    file_reopen f m (Some i) p = Fine (List.length (p_objs p), PyS s (p_objs p ++ [FObj ff [] false]) (p_out p) (p_err p) (p_out0 p) (p_err0 p)) /\
    (forall fd, lookup s fd = if Nat.eqb fd t || Nat.eqb fd ff then Some D else lookup (p_os p) fd) /\
    descs s = descs (p_os p) ++ [Desc f 0 match m with MA => true | MW => false end] /\
    (forall g, g <> f -> files s g = files (p_os p) g) /\
    files s f = Some (match m, files (p_os p) f with MA, Some c => c | _, _ => [] end).
Proof.
  intros Hc Hl t D. unfold file_reopen, os_open. rewrite Hc. fold t. pose proof (first_free_free (fds (p_os p))) as FF.
  fold (lookup (p_os p) (first_free (fds (p_os p)))) in FF. set (ff := first_free (fds (p_os p))) in *. fold D. fold t in Hl.
  assert (Nt : t <> ff) by (intros ->; auto).
  set (s1 := OS (set_fd (fds (p_os p)) ff (Some D)) _ _).
  assert (K1 : forall fd, lookup s1 fd = if Nat.eqb fd ff then Some D else lookup (p_os p) fd) by (intros fd; unfold lookup, s1; cbn [fds]; apply nth_set_fd).
  unfold os_close. rewrite K1. destruct (Nat.eqb t ff) eqn:X; [apply Nat.eqb_eq in X; congruence|]. destruct (lookup (p_os p) t) as [dt|]; [|congruence]. cbn [fbind].
  set (s2 := OS (set_fd (fds s1) t None) _ _).
  assert (K2 : forall fd, lookup s2 fd = if Nat.eqb fd t then None else lookup s1 fd) by (intros fd; unfold lookup, s2; cbn [fds]; apply nth_set_fd).
  unfold os_dup2. rewrite K2, K1, Nat.eqb_refl. rewrite Nat.eqb_sym, X. cbn [fbind].
  eexists ff, _. split; [exact FF|]. split; [reflexivity|]. split.
  - intros fd. unfold lookup; cbn [fds]. rewrite nth_set_fd. fold (lookup s2 fd). rewrite K2, K1.
    destruct (Nat.eqb fd t); cbn; auto.
  - unfold s2, s1. cbn. split; auto. unfold set_file. split; [|rewrite String.eqb_refl; auto].
    intros g Ng. apply String.eqb_neq in Ng. rewrite Ng. auto.
Qed.
Definition dropped (kept : nat -> bool) (p : py) (i : nat) : Prop :=
  fo_closed (obj p i) = false /\ kept i = false /\ p_out0 p <> Some i /\ p_err0 p <> Some i.
Lemma finalise_spec kept i q : let q' := finalise kept i q in
  p_out q' = p_out q /\ p_err q' = p_err q /\ p_out0 q' = p_out0 q /\ p_err0 q' = p_err0 q /\
  List.length (p_objs q') = List.length (p_objs q) /\ (forall j, j <> i -> obj q' j = obj q j) /\
  (q' = q \/ (dropped kept q i /\ i <> p_out q /\ i <> p_err q /\
     (forall fd, lookup (p_os q') fd = if Nat.eqb fd (fo_fd (obj q i)) then None else lookup (p_os q) fd) /\
     List.length (descs (p_os q')) = List.length (descs (p_os q)) /\
     (forall d, lookup (p_os q) (fo_fd (obj q i)) <> Some d -> nth_error (descs (p_os q')) d = nth_error (descs (p_os q)) d) /\
     (forall d e', nth_error (descs (p_os q')) d = Some e' -> exists e, nth_error (descs (p_os q)) d = Some e /\ de_file e = de_file e') /\
     (forall f, (forall d e, nth_error (descs (p_os q)) d = Some e -> lookup (p_os q) (fo_fd (obj q i)) = Some d -> de_file e <> f) ->
        files (p_os q') f = files (p_os q) f) /\
     (fo_buf (obj q i) = [] -> forall f, files (p_os q') f = files (p_os q) f))).
Proof.
  intros q'. unfold q', finalise. destruct (_ || fo_closed (obj q i)) eqn:E; [repeat split; auto|].
  repeat (apply Bool.orb_false_iff in E; destruct E as [E ?]). rename H into Hc, H0 into Hk, H1 into He, H2 into Ho, H3 into Hpe, E into Hpo.
  assert (DR : dropped kept q i).
  { split; auto. split; auto. split; intros X; [rewrite X in Ho|rewrite X in He]; rewrite Nat.eqb_refl in *; discriminate. }
  assert (Ni : i <> p_out q /\ i <> p_err q) by (rewrite <- !Nat.eqb_neq; auto). destruct Ni as [N1 N2].
  pose proof (obj_open _ _ Hc) as Li.
  assert (F : exists p1, match fo_buf (obj q i) with [] => q | b => match flush i (List.length b) q with Fine p1 => p1 | Exc _ => q end end = p1 /\
    p_out p1 = p_out q /\ p_err p1 = p_err q /\ p_out0 p1 = p_out0 q /\ p_err0 p1 = p_err0 q /\ List.length (p_objs p1) = List.length (p_objs q) /\
    (forall j, j <> i -> obj p1 j = obj q j) /\ fo_fd (obj p1 i) = fo_fd (obj q i) /\
    (forall fd, lookup (p_os p1) fd = lookup (p_os q) fd) /\ List.length (descs (p_os p1)) = List.length (descs (p_os q)) /\
    (forall d, lookup (p_os q) (fo_fd (obj q i)) <> Some d -> nth_error (descs (p_os p1)) d = nth_error (descs (p_os q)) d) /\
    (forall d e', nth_error (descs (p_os p1)) d = Some e' -> exists e, nth_error (descs (p_os q)) d = Some e /\ de_file e = de_file e') /\
    (forall f, (forall d e, nth_error (descs (p_os q)) d = Some e -> lookup (p_os q) (fo_fd (obj q i)) = Some d -> de_file e <> f) ->
        files (p_os p1) f = files (p_os q) f) /\
    (fo_buf (obj q i) = [] -> forall f, files (p_os p1) f = files (p_os q) f)).
  { assert (Q : forall q1, q1 = q -> exists p1, q1 = p1 /\
    p_out p1 = p_out q /\ p_err p1 = p_err q /\ p_out0 p1 = p_out0 q /\ p_err0 p1 = p_err0 q /\ List.length (p_objs p1) = List.length (p_objs q) /\
    (forall j, j <> i -> obj p1 j = obj q j) /\ fo_fd (obj p1 i) = fo_fd (obj q i) /\
    (forall fd, lookup (p_os p1) fd = lookup (p_os q) fd) /\ List.length (descs (p_os p1)) = List.length (descs (p_os q)) /\
    (forall d, lookup (p_os q) (fo_fd (obj q i)) <> Some d -> nth_error (descs (p_os p1)) d = nth_error (descs (p_os q)) d) /\
    (forall d e', nth_error (descs (p_os p1)) d = Some e' -> exists e, nth_error (descs (p_os q)) d = Some e /\ de_file e = de_file e') /\
    (forall f, (forall d e, nth_error (descs (p_os q)) d = Some e -> lookup (p_os q) (fo_fd (obj q i)) = Some d -> de_file e <> f) ->
        files (p_os p1) f = files (p_os q) f) /\
    (fo_buf (obj q i) = [] -> forall f, files (p_os p1) f = files (p_os q) f)).
    { intros q1 ->. exists q. repeat split; auto. intros d e' X. eauto. }
    destruct (fo_buf (obj q i)) as [|z b] eqn:Eb; [apply Q; auto|].
    destruct (flush i (List.length (z :: b)) q) as [p1|] eqn:Ef; [|apply Q; auto].
    unfold flush in Ef. destruct (os_write _ _ _) as [s|] eqn:W; [|discriminate]. cbn [fbind] in Ef. injection Ef as <-.
    destruct (write_spec _ _ _ _ W) as [d [e [El [Ee [F1 [F2 [F3 [[o [F4 _]] F6]]]]]]]].
    eexists. split; [reflexivity|]. cbn [with_obj with_os p_out p_err p_out0 p_err0 p_objs p_os]. rewrite set_nth_length.
    repeat split; auto.
    - intros j Nj. apply (obj_with_other i _ (with_os s q)); auto.
    - unfold obj. cbn [p_objs with_obj with_os]. rewrite nth_set_nth, Nat.eqb_refl. apply Nat.ltb_lt in Li. rewrite Li. cbn. reflexivity.
    - intros k Nk. apply F3. congruence.
    - intros k e' X. destruct (Nat.eq_dec k d) as [->|Nk]; [|rewrite F3 in X by auto; eauto]. rewrite F4 in X. injection X as <-. exists e. auto.
    - intros f Hf. apply F6. intros ->. apply (Hf _ _ Ee El). auto.
    - discriminate. }
  destruct F as [p1 [-> [A1 [A2 [A3 [A4 [A5 [A6 [A7 [A8 [A9 [A10 [A11 [A12 A13]]]]]]]]]]]]]].
  set (p2 := with_obj i _ p1).
  assert (G : exists s, (match os_close (fo_fd (obj p1 i)) (p_os p2) with Fine s => with_os s p2 | Exc _ => p2 end) = with_os s p2 /\
     (forall fd, lookup s fd = if Nat.eqb fd (fo_fd (obj q i)) then None else lookup (p_os q) fd) /\ descs s = descs (p_os p1) /\ files s = files (p_os p1)).
  { unfold os_close. change (p_os p2) with (p_os p1). rewrite A7, A8. destruct (lookup (p_os q) (fo_fd (obj q i))) as [d|] eqn:El.
    - eexists. split; [reflexivity|]. cbn. split; auto. intros fd. unfold lookup. cbn [fds]. rewrite nth_set_fd. destruct (Nat.eqb fd _); auto. fold (lookup (p_os p1) fd). rewrite A8. auto.
    - exists (p_os p1). split; [reflexivity|]. split; auto. intros fd. rewrite A8. destruct (Nat.eqb fd _) eqn:X; auto. apply Nat.eqb_eq in X. subst fd. auto. }
  destruct G as [s [-> [G1 [G2 G3]]]]. cbn [with_os p_out p_err p_out0 p_err0 p_objs p_os p2 with_obj]. rewrite set_nth_length.
  repeat (split; [congruence|]). split.
  { intros j Nj. rewrite <- (A6 j Nj). exact (obj_with_other i _ p1 j Nj). }
  right. rewrite G2, G3. auto 12.
Qed.

(* A process whose descriptors 1 and 2 are open and belong to sys.__stdout__ and sys.__stderr__; objects in sys.stdout and
   sys.stderr that will be closed, because nothing else refers to them, have descriptors of their own; the log files are not open. *)
Record standard (kept : nat -> bool) (out err : string) (p : py) : Prop := {
  sd_names : out <> err;
  sd_bound : forall fd d, lookup (p_os p) fd = Some d -> d < List.length (descs (p_os p));
  sd_out : exists i, p_out0 p = Some i /\ fo_closed (obj p i) = false /\ fo_fd (obj p i) = 1;
  sd_err : exists i, p_err0 p = Some i /\ fo_closed (obj p i) = false /\ fo_fd (obj p i) = 2;
  sd_open : lookup (p_os p) 1 <> None /\ lookup (p_os p) 2 <> None;
  sd_range : p_out p < List.length (p_objs p) /\ p_err p < List.length (p_objs p);
  sd_own : forall i, i = p_out p \/ i = p_err p -> dropped kept p i ->
    fo_fd (obj p i) <> 1 /\ fo_fd (obj p i) <> 2 /\ lookup (p_os p) (fo_fd (obj p i)) <> None;
  sd_two : p_out p <> p_err p -> dropped kept p (p_out p) -> dropped kept p (p_err p) -> fo_fd (obj p (p_out p)) <> fo_fd (obj p (p_err p));
  sd_files : forall d e, nth_error (descs (p_os p)) d = Some e -> de_file e <> out /\ de_file e <> err
}.
Definition start_of (m : mode) (c : option data) : data := match m, c with MA, Some c => c | _, _ => [] end.

Lemma obj_app p s l a b c e i : i < List.length (p_objs p) -> obj (PyS s (p_objs p ++ l) a b c e) i = obj p i.
Proof. intros H. unfold obj. cbn. apply app_nth1. auto. Qed.
Lemma obj_last p s o a b c e : obj (PyS s (p_objs p ++ [o]) a b c e) (List.length (p_objs p)) = o.
Proof. unfold obj. cbn. rewrite app_nth2 by lia. rewrite Nat.sub_diag. auto. Qed.

Lemma redirect_ok kept out err m p : standard kept out err p ->
  exists p' f1 f2 d1 d2, redirect kept (Some (out, err)) m p = Fine p' /\ d1 <> d2 /\ led out err d1 d2 f1 f2 p' /\
    obj p' (p_out p') = FObj f1 [] false /\ obj p' (p_err p') = FObj f2 [] false /\
    p_out0 p' = p_out0 p /\ p_err0 p' = p_err0 p /\
    (forall i, i < List.length (p_objs p) -> (~ dropped kept p i \/ i <> p_out p /\ i <> p_err p) -> obj p' i = obj p i) /\
    (forall fd d, fd <> 1 -> fd <> 2 -> lookup (p_os p) fd = Some d -> lookup (p_os p') fd = Some d \/
       exists i, (i = p_out p \/ i = p_err p) /\ dropped kept p i /\ fd = fo_fd (obj p i)) /\
    files (p_os p') out = Some (start_of m (files (p_os p) out)) /\ files (p_os p') err = Some (start_of m (files (p_os p) err)) /\
    (fo_buf (obj p (p_out p)) = [] -> fo_buf (obj p (p_err p)) = [] -> forall f, f <> out -> f <> err -> files (p_os p') f = files (p_os p) f).
Proof.
  intros [No SB [i1 [E1 [C1 T1]]] [i2 [E2 [C2 T2]]] [O1 O2] [R1 R2] Own Two SF].
  pose proof (obj_open _ _ C1) as L1. pose proof (obj_open _ _ C2) as L2.
  set (D := List.length (descs (p_os p))) in *.
  destruct (reopen_spec out m i1 p C1) as [f1 [s1 [F1 [Re1 [K1 [De1 [Fi1 Fo1]]]]]]]; [rewrite T1; auto|]. rewrite T1 in K1. fold D in K1.
  unfold redirect. rewrite E1, Re1. cbn [fbind p_os p_objs p_out p_err p_out0 p_err0].
  set (q1 := PyS s1 (p_objs p ++ [FObj f1 [] false]) (List.length (p_objs p)) (p_err p) (p_out0 p) (p_err0 p)).
  assert (Q1 : forall i, i < List.length (p_objs p) -> obj q1 i = obj p i) by (intros i Hi; apply obj_app; auto).
  assert (Dr1 : forall i, i < List.length (p_objs p) -> (dropped kept q1 i <-> dropped kept p i)).
  { intros i Hi. unfold dropped. rewrite Q1 by auto. reflexivity. }
  assert (NF1 : f1 <> 1 /\ f1 <> 2) by (split; intros ->; auto). destruct NF1 as [NF11 NF12].
  destruct (finalise_spec kept (p_out p) q1) as [Z1 [Z2 [Z3 [Z4 [Z5 [Z6 Z7]]]]]]. set (q2 := finalise kept (p_out p) q1) in *.
  assert (Lq : List.length (p_objs q1) = S (List.length (p_objs p))) by (unfold q1; cbn; rewrite app_length; cbn; lia).
  (* the state after the first half, one way or the other *)
  assert (M : (forall fd, fd <> 1 -> fd <> f1 -> lookup (p_os q2) fd = lookup (p_os p) fd \/ (dropped kept p (p_out p) /\ p_out p <> p_err p /\ fd = fo_fd (obj p (p_out p)) /\ lookup (p_os q2) fd = None)) /\
    lookup (p_os q2) 1 = Some D /\ lookup (p_os q2) f1 = Some D /\ List.length (descs (p_os q2)) = S D /\
    nth_error (descs (p_os q2)) D = Some (Desc out 0 match m with MA => true | MW => false end) /\
    (forall d e, nth_error (descs (p_os q2)) d = Some e -> d <> D -> de_file e <> out /\ de_file e <> err) /\
    (forall i, i < List.length (p_objs p) -> (~ dropped kept p i \/ i <> p_out p) -> obj q2 i = obj p i) /\
    files (p_os q2) out = Some (start_of m (files (p_os p) out)) /\ files (p_os q2) err = files (p_os p) err /\
    (fo_buf (obj p (p_out p)) = [] -> forall f, f <> out -> files (p_os q2) f = files (p_os p) f) /\
    (p_out p = p_err p -> q2 = q1)).
  { assert (LD : List.length (descs s1) = S D) by (rewrite De1, app_length; cbn; fold D; lia).
    assert (ND : nth_error (descs s1) D = Some (Desc out 0 match m with MA => true | MW => false end)) by (rewrite De1, nth_error_app2 by auto; fold D; rewrite Nat.sub_diag; auto).
    assert (NR : forall d e, nth_error (descs s1) d = Some e -> d <> D -> de_file e <> out /\ de_file e <> err).
    { intros d e X Nd. assert (d < S D) by (rewrite <- LD; apply nth_error_Some; congruence). rewrite De1, nth_error_app1 in X by (fold D; lia). eauto. }
    assert (S1 : lookup s1 1 = Some D) by (rewrite K1; reflexivity).
    assert (Sf : lookup s1 f1 = Some D) by (rewrite K1, Nat.eqb_refl, Bool.orb_true_r; auto).
    assert (So : forall fd, fd <> 1 -> fd <> f1 -> lookup s1 fd = lookup (p_os p) fd).
    { intros fd A B. rewrite K1. apply Nat.eqb_neq in A, B. rewrite A, B. auto. }
    destruct Z7 as [->|[DD [Y1 [Y2 [Y3 [Y4 [Y5 [Y6 [Y7 Y8]]]]]]]]].
    - change (p_os q1) with s1. repeat split; auto; eapply NR; eauto.
    - apply (Dr1 _ R1) in DD. change (p_err q1) with (p_err p) in Y2. change (p_os q1) with s1 in *. rewrite (Q1 _ R1) in *.
      destruct (Own _ (or_introl eq_refl) DD) as [W1 [W2 W3]].
      assert (Wf : fo_fd (obj p (p_out p)) <> f1) by (intros X; rewrite X in W3; auto).
      rewrite (So _ W1 Wf) in *.
      assert (Df : forall d, lookup (p_os p) (fo_fd (obj p (p_out p))) = Some d -> d <> D) by (intros d X; apply SB in X; fold D in X; lia).
      repeat split.
      + intros fd A B. rewrite Y3. destruct (Nat.eqb fd _) eqn:X; [right|left; auto]. apply Nat.eqb_eq in X. auto.
      + rewrite Y3. destruct (Nat.eqb 1 _) eqn:X; auto. apply Nat.eqb_eq in X. congruence.
      + rewrite Y3. destruct (Nat.eqb f1 _) eqn:X; auto. apply Nat.eqb_eq in X. congruence.
      + congruence.
      + rewrite Y5; auto. intros X. apply Df in X. congruence.
      + destruct (Y6 _ _ H) as [e0 [X <-]]. eapply NR; eauto.
      + destruct (Y6 _ _ H) as [e0 [X <-]]. eapply NR; eauto.
      + intros i Hi [Nd|Ni]; [|rewrite Z6; auto]. destruct (Nat.eq_dec i (p_out p)) as [->|Ni]; [contradiction|]. rewrite Z6; auto.
      + rewrite Y7; auto. intros d e X Y. apply (NR _ _ X). auto.
      + rewrite Y7; [auto|]. intros d e X Y. apply (NR _ _ X). auto.
      + intros B f Nf. rewrite Y8 by auto. auto.
      + intros X. congruence. }
  destruct M as [M1 [M2 [M3 [M4 [M5 [M6 [M7 [M8 [M9 [M10 M11]]]]]]]]]].
  assert (X2 : lookup (p_os q2) 2 = lookup (p_os p) 2).
  { destruct (M1 2 ltac:(lia) (not_eq_sym NF12)) as [X|[A [_ [B _]]]]; auto. destruct (Own _ (or_introl eq_refl) A) as [_ [W _]]. congruence. }
  assert (ND2 : ~ dropped kept p i2) by (intros [_ [_ [_ X]]]; congruence).
  rewrite Z4. change (p_err0 q1) with (p_err0 p). rewrite E2.
  pose proof (M7 i2 L2 (or_introl ND2)) as Oi2.
  destruct (reopen_spec err m i2 q2) as [f2 [s3 [F2 [Re2 [K2 [De2 [Fi2 Fo2]]]]]]]; [rewrite Oi2; auto|rewrite Oi2, T2, X2; auto|].
  rewrite Oi2, T2, M4 in K2. rewrite Re2. cbn [fbind p_os p_objs p_out p_err p_out0 p_err0].
  rewrite Z1, Z3, Z4, Z5, Lq. change (p_err0 q1) with (p_err0 p). change (p_out q1) with (List.length (p_objs p)). change (p_out0 q1) with (p_out0 p).
  set (q3 := PyS s3 (p_objs q2 ++ [FObj f2 [] false]) (List.length (p_objs p)) (S (List.length (p_objs p))) (p_out0 p) (p_err0 p)).
  assert (Lq2 : List.length (p_objs q2) = S (List.length (p_objs p))) by congruence.
  assert (Q3 : forall i, i < S (List.length (p_objs p)) -> obj q3 i = obj q2 i) by (intros i Hi; apply obj_app; lia).
  assert (Q3l : obj q3 (S (List.length (p_objs p))) = FObj f2 [] false) by (rewrite <- Lq2; apply obj_last).
  assert (Q3n : obj q3 (List.length (p_objs p)) = FObj f1 [] false).
  { rewrite Q3 by lia. rewrite Z6 by lia. apply obj_last. }
  assert (NF2 : f2 <> 1 /\ f2 <> f1 /\ f2 <> 2) by (repeat split; intros ->; congruence). destruct NF2 as [NF21 [NF23 NF22]].
  assert (LD3 : List.length (descs s3) = S (S D)) by (rewrite De2, app_length; cbn; lia).
  assert (Dl : nth_error (descs s3) D = Some (Desc out 0 match m with MA => true | MW => false end)) by (rewrite De2, nth_error_app1 by lia; auto).
  assert (Dl2 : nth_error (descs s3) (S D) = Some (Desc err 0 match m with MA => true | MW => false end)) by (rewrite De2, nth_error_app2 by lia; rewrite M4, Nat.sub_diag; auto).
  assert (Dr : forall d e, nth_error (descs s3) d = Some e -> d <> D -> d <> S D -> de_file e <> out /\ de_file e <> err).
  { intros d e X A B. assert (d < S (S D)) by (rewrite <- LD3; apply nth_error_Some; congruence). rewrite De2, nth_error_app1 in X by lia. eauto. }
  assert (Lk : forall fd, lookup s3 fd = if Nat.eqb fd 2 || Nat.eqb fd f2 then Some (S D) else lookup (p_os q2) fd) by exact K2.
  assert (B2 : forall fd d, fd <> 1 -> fd <> f1 -> lookup (p_os q2) fd = Some d -> lookup (p_os p) fd = Some d).
  { intros fd d A B X. destruct (M1 fd A B) as [Y|[_ [_ [_ Y]]]]; congruence. }
  assert (LL : led out err D (S D) f1 f2 q3).
  { constructor; cbn [p_os q3].
    - intros fd. rewrite Lk. destruct (Nat.eqb fd 2 || Nat.eqb fd f2) eqn:X.
      + apply Bool.orb_true_iff in X. rewrite !Nat.eqb_eq in X. split; [intros Y; injection Y as Y; lia|]. intros [-> | ->]; destruct X; congruence.
      + split; [|intros [-> | ->]; auto]. intros Y. destruct (Nat.eq_dec fd 1) as [|A]; auto. destruct (Nat.eq_dec fd f1) as [|B]; auto.
        apply B2 in Y; auto. apply SB in Y. fold D in Y. lia.
    - intros fd. rewrite Lk. destruct (Nat.eqb fd 2 || Nat.eqb fd f2) eqn:X.
      + apply Bool.orb_true_iff in X. rewrite !Nat.eqb_eq in X. tauto.
      + apply Bool.orb_false_iff in X. rewrite !Nat.eqb_neq in X. split; [|tauto]. intros Y. destruct (Nat.eq_dec fd 1) as [->|A]; [rewrite M2 in Y; injection Y as Y; lia|].
        destruct (Nat.eq_dec fd f1) as [->|B]; [rewrite M3 in Y; injection Y as Y; lia|]. apply B2 in Y; auto. apply SB in Y. fold D in Y. lia.
    - intros fd d. rewrite Lk, LD3. destruct (_ || _); [intros Y; injection Y as <-; lia|]. intros Y.
      destruct (Nat.eq_dec fd 1) as [->|A]; [rewrite M2 in Y; injection Y as <-; lia|]. destruct (Nat.eq_dec fd f1) as [->|B]; [rewrite M3 in Y; injection Y as <-; lia|].
      apply B2 in Y; auto. apply SB in Y. fold D in Y. lia.
    - do 3 eexists. split; [exact Dl|]. rewrite Fi2 by auto. split; [exact M8|]. unfold start_of. destruct m; auto.
    - do 3 eexists. split; [exact Dl2|]. rewrite Fo2. split; [reflexivity|]. destruct m; auto.
    - exact Dr. }
  destruct (finalise_spec kept (p_err p) q3) as [U1 [U2 [U3 [U4 [U5 [U6 U7]]]]]]. set (q4 := finalise kept (p_err p) q3) in *.
  exists q4, f1, f2, D, (S D). split; [reflexivity|]. split; [lia|]. rewrite U1, U2, U3, U4.
  cbn [p_out p_err q3]. rewrite !U6 by lia.
  assert (Oth : forall fd d, fd <> 1 -> fd <> 2 -> lookup (p_os p) fd = Some d -> lookup s3 fd = Some d \/
       exists i, (i = p_out p \/ i = p_err p) /\ dropped kept p i /\ fd = fo_fd (obj p i)).
  { intros fd d A B X. assert (N1 : fd <> f1) by (intros ->; congruence). destruct (M1 fd A N1) as [Y|[Y1 [_ [Y2 _]]]]; [|right; eauto].
    left. rewrite Lk. assert (N2 : fd <> f2) by (intros ->; congruence). apply Nat.eqb_neq in B, N2. rewrite B, N2. cbn. congruence. }
  assert (Fo : files s3 out = Some (start_of m (files (p_os p) out))) by (rewrite Fi2; auto).
  assert (Fe : files s3 err = Some (start_of m (files (p_os p) err))) by (rewrite Fo2, M9; auto).
  assert (Ff : fo_buf (obj p (p_out p)) = [] -> forall f, f <> out -> f <> err -> files s3 f = files (p_os p) f) by (intros H f A B; rewrite Fi2; auto).
  assert (Ob : forall i, i < List.length (p_objs p) -> (~ dropped kept p i \/ i <> p_out p) -> obj q3 i = obj p i) by (intros i Hi H; rewrite Q3 by lia; auto).
  destruct U7 as [->|[DD [Y1 [Y2 [Y3 [Y4 [Y5 [Y6 [Y7 Y8]]]]]]]]].
  - split; [exact LL|]. repeat (split; [assumption || reflexivity|]). split; [|split; [exact Oth|auto]].
    intros i Hi H. apply Ob; auto. tauto.
  - assert (OE : obj q3 (p_err p) = obj p (p_err p) /\ dropped kept p (p_err p)).
    { destruct (Nat.eq_dec (p_out p) (p_err p)) as [X|X].
      - assert (W : obj q3 (p_err p) = obj p (p_err p)) by (rewrite Q3 by lia; rewrite (M11 X); auto). split; auto. unfold dropped in *. rewrite W in DD. exact DD.
      - assert (W : obj q3 (p_err p) = obj p (p_err p)) by (apply Ob; auto). split; auto. unfold dropped in *. rewrite W in DD. exact DD. }
    destruct OE as [OE DE]. rewrite OE in *. destruct (Own _ (or_intror eq_refl) DE) as [W1 [W2 W3]].
    set (e := fo_fd (obj p (p_err p))) in *. change (p_os q3) with s3 in *.
    assert (Wf1 : e <> f1) by (intros X; rewrite X in W3; auto).
    assert (Le : lookup (p_os q2) e = lookup (p_os p) e).
    { destruct (M1 e W1 Wf1) as [X|[A [B [C _]]]]; auto. exfalso. apply (Two B A DE). auto. }
    assert (Wf2 : e <> f2) by (intros X; rewrite X in Le; rewrite F2 in Le; rewrite X in W3; congruence).
    assert (Le3 : lookup s3 e = lookup (p_os p) e).
    { rewrite Lk. pose proof W2 as A. pose proof Wf2 as B. apply Nat.eqb_neq in A, B. rewrite A, B. auto. }
    assert (Ld : forall d, lookup s3 e = Some d -> d < D) by (intros d X; rewrite Le3 in X; apply SB in X; auto).
    destruct LL as [LO LE LB LL1 LL2 LR]. change (p_os q3) with s3 in *.
    assert (FoE : forall f d x, nth_error (descs s3) d = Some x -> lookup s3 e = Some d -> f = out \/ f = err -> de_file x <> f).
    { intros f d x A B C. apply Ld in B. destruct (Dr d x A); [lia|lia|]. destruct C; congruence. }
    split; [|split; [exact Q3n|split; [exact Q3l|split; [exact E1|split; [exact E2|split; [|split; [|split; [|split]]]]]]]].
    + constructor.
      * intros fd. rewrite Y3. destruct (Nat.eqb fd e) eqn:X; [|apply LO]. apply Nat.eqb_eq in X. subst fd. split; [discriminate|]. intros [X|X]; congruence.
      * intros fd. rewrite Y3. destruct (Nat.eqb fd e) eqn:X; [|apply LE]. apply Nat.eqb_eq in X. subst fd. split; [discriminate|]. intros [X|X]; congruence.
      * intros fd d. rewrite Y3, Y4. destruct (Nat.eqb fd e); [discriminate|]. apply LB.
      * destruct LL1 as [o [a [c [A [B C]]]]]. exists o, a, c. rewrite Y5 by (intros X; apply Ld in X; lia). rewrite Y7 by (intros d x A' B'; eapply FoE; eauto). auto.
      * destruct LL2 as [o [a [c [A [B C]]]]]. exists o, a, c. rewrite Y5 by (intros X; apply Ld in X; lia). rewrite Y7 by (intros d x A' B'; eapply FoE; eauto). auto.
      * intros d x A B C. destruct (Y6 _ _ A) as [x0 [A0 <-]]. eauto.
    + intros i Hi H. assert (Ni : i <> p_err p) by (intros ->; tauto). rewrite U6 by auto. apply Ob; auto. tauto.
    + intros fd d A B X. destruct (Oth fd d A B X) as [Y|Y]; auto. rewrite Y3. destruct (Nat.eqb fd e) eqn:Z; auto. apply Nat.eqb_eq in Z. right. exists (p_err p). auto.
    + rewrite Y7 by (intros d x A' B'; eapply FoE; eauto). auto.
    + rewrite Y7 by (intros d x A' B'; eapply FoE; eauto). auto.
    + intros A B f No1 Ne1. rewrite Y8; auto.
Qed.

(* C83.  redirect_stdouterr raises nothing; sys.stdout and descriptor 1 lead to <basename>.out, sys.stderr and descriptor 2
   to <basename>.err, and whatever is done afterwards (with other files), the logs contain all that is written to the two and
   nothing else, in the order in which it was written.  Other descriptors, files and file objects stay as they were. *)
Theorem C83_redirected : forall kept out err m p, standard kept out err p ->
  exists p' f1 f2, redirect kept (Some (out, err)) m p = Fine p' /\
    obj p' (p_out p') = FObj f1 [] false /\ obj p' (p_err p') = FObj f2 [] false /\
    p_out0 p' = p_out0 p /\ p_err0 p' = p_err0 p /\
    (forall i, i < List.length (p_objs p) -> (~ dropped kept p i \/ i <> p_out p /\ i <> p_err p) -> obj p' i = obj p i) /\
    (forall fd d, fd <> 1 -> fd <> 2 -> lookup (p_os p) fd = Some d -> lookup (p_os p') fd = Some d \/
       exists i, (i = p_out p \/ i = p_err p) /\ dropped kept p i /\ fd = fo_fd (obj p i)) /\
    (fo_buf (obj p (p_out p)) = [] -> fo_buf (obj p (p_err p)) = [] -> forall f, f <> out -> f <> err -> files (p_os p') f = files (p_os p) f) /\
    forall l p'', Forall (allowed out err f1 f2) l -> act_run l p' = Fine p'' ->
      files (p_os p'') out = Some (start_of m (files (p_os p) out) ++ via 1 f1 (pieces l p')) /\
      files (p_os p'') err = Some (start_of m (files (p_os p) err) ++ via 2 f2 (pieces l p')).
Proof.
  intros kept out err m p S. destruct (redirect_ok kept out err m p S) as [p' [f1 [f2 [d1 [d2 [R [N [L [A1 [A2 [A3 [A4 [A5 [A6 [A7 [A8 A9]]]]]]]]]]]]]]]].
  exists p', f1, f2. repeat (split; [assumption|]). intros l p'' Al E. apply (led_run _ _ _ _ _ _ (sd_names _ _ _ _ S) N l p' p'' L Al E); auto.
Qed.
(* What is printed to a file object is written in this order, up to what is still in its buffer. *)
Theorem C83_flushed : forall l p p' i, act_run l p = Fine p' -> fo_buf (obj p i) ++ printed i l = flushed i l p ++ fo_buf (obj p' i).
Proof.
  induction l as [|a l IH]; intros p p' i E; cbn [act_run flushed] in *.
  - injection E as <-. unfold printed. cbn. apply app_nil_r.
  - destruct (act_step a p) as [p1|] eqn:E1; [|discriminate]. cbn [fbind] in E. specialize (IH _ _ i E).
    unfold printed in *. cbn [map concat]. destruct a as [j x|j n|fd x|f m|fd]; cbn [act_step] in E1.
    + destruct (fo_closed (obj p j)) eqn:C; [discriminate|]. injection E1 as <-. rewrite obj_with in IH by (apply obj_open; auto).
      destruct (Nat.eqb i j) eqn:X; [apply Nat.eqb_eq in X; subst j; cbn [fo_buf] in IH; rewrite <- app_assoc in IH|]; cbn [List.app]; exact IH.
    + destruct (fo_closed (obj p j)) eqn:C; [discriminate|]. unfold flush in E1. destruct (os_write _ _ _) as [s|]; [|discriminate]. cbn [fbind] in E1. injection E1 as <-.
      rewrite (obj_with j _ (with_os s p)) in IH by (apply obj_open; auto). cbn [List.app]. destruct (Nat.eqb i j) eqn:X; [|exact IH].
      apply Nat.eqb_eq in X; subst j. cbn [fo_buf] in IH. rewrite <- app_assoc, <- IH, app_assoc, firstn_skipn. auto.
    + destruct (os_write _ _ _) as [s|]; [|discriminate]. injection E1 as <-. exact IH.
    + injection E1 as <-. exact IH.
    + destruct (os_close _ _) as [s|]; [|discriminate]. injection E1 as <-. exact IH.
Qed.
Print Assumptions C83_redirected.
Print Assumptions C83_flushed.

(* A process with a terminal and a file of its own, open at descriptor 3 *)
Open Scope string_scope.
Definition ex_os : os := OS [Some 0; Some 0; Some 0; Some 1] [Desc "tty" 0 false; Desc "data" 0 false] (fun f => if String.eqb f "w.out" then Some [1%Z; 2%Z; 3%Z] else None).
Definition ex_py : py := PyS ex_os [FObj 1 [] false; FObj 2 [] false] 0 1 (Some 0) (Some 1).
Definition none_kept (i : nat) : bool := false.
Lemma ex_standard : standard none_kept "w.out" "w.err" ex_py.
Proof.
  constructor; cbn; try discriminate; auto.
  - intros [|[|[|[|[|fd]]]]] d H; cbn in H; try discriminate H; try (injection H as <-; lia).
  - exists 0. auto.
  - exists 1. auto.
  - split; discriminate.
  - intros i [-> | ->] [_ [_ [A B]]]; cbn in *; congruence.
  - intros [|[|[|d]]] e H; cbn in H; try discriminate H; injection H as <-; cbn; split; discriminate.
Qed.
(* it prints, a child process writes, a logging handler writes to the old sys.stderr *)
Definition ex_acts : list act := [Print 2 [10; 11; 12]%Z; Raw 1 [20]%Z; Flush 2 2; Print 1 [30]%Z; Flush 1 9; Raw 3 [40]%Z; Open "x" MW; Print 3 [31]%Z; Raw 1 [21]%Z; Flush 3 9; Close 6; Flush 2 9].
Example C83_example : match redirect none_kept (Some ("w.out", "w.err")) MW ex_py with
  | Fine p => match act_run ex_acts p with
              | Fine q => Forall (allowed "w.out" "w.err" 4 5) ex_acts /\
                          p_out p = 2 /\ p_err p = 3 /\ map (files (p_os q)) ["w.out"; "w.err"; "data"] = [Some [20; 10; 11; 21; 12]%Z; Some [30; 31]%Z; Some [40]%Z]
              | Exc _ => False end
  | Exc _ => False end.
Proof. vm_compute. repeat constructor; discriminate. Qed.

(* Descriptor 1 was closed: open returns 1, which is closed again before dup2. *)
Theorem C83_closed_refuted : exists p, p_out0 p = Some 0 /\ fo_closed (obj p 0) = false /\ lookup (p_os p) 1 = None /\
  redirect none_kept (Some ("w.out", "w.err")) MW p = Exc OSErr.
Proof. exists (with_os (OS [Some 0; None; Some 0] (descs ex_os) (files ex_os)) ex_py). vm_compute. auto. Qed.
(* sys.stdout = os.fdopen(1, "w"), done by the user before (for instance for line buffering): that object is closed, and with it
   descriptor 1, after descriptor 1 was redirected; open returns 1 for <basename>.err.  What child processes print to stdout
   goes to <basename>.err. *)
Definition ex_fdopen : py := PyS ex_os [FObj 1 [] false; FObj 2 [] false; FObj 1 [] false] 2 1 (Some 0) (Some 1).
Theorem C83_fdopen_refuted : exists p q, redirect none_kept (Some ("w.out", "w.err")) MW ex_fdopen = Fine p /\ p_out0 p = Some 0 /\
  act_run [Raw 1 [20]%Z] p = Fine q /\ files (p_os q) "w.out" = Some [] /\ files (p_os q) "w.err" = Some [20%Z].
Proof. eexists. eexists. split; [vm_compute; reflexivity|]. vm_compute. auto. Qed.
(* Redirected twice to the same files while something still refers to the first sys.stdout: both write from the beginning. *)
Theorem C83_twice_refuted : exists p q r, redirect none_kept (Some ("w.out", "w.err")) MW ex_py = Fine p /\
  redirect (Nat.eqb 2) (Some ("w.out", "w.err")) MW p = Fine q /\
  act_run [Print 2 [10; 11]%Z; Flush 2 2; Raw 1 [20]%Z] q = Fine r /\ files (p_os r) "w.out" = Some [20; 11]%Z.
Proof. do 3 eexists. split; [vm_compute; reflexivity|]. split; [vm_compute; reflexivity|]. split; [vm_compute; reflexivity|]. vm_compute. auto. Qed.
Print Assumptions C83_closed_refuted.
Print Assumptions C83_fdopen_refuted.
Print Assumptions C83_twice_refuted.
