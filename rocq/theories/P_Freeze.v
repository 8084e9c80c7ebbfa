(* Frozen blocks (C47) *)
From Verif Require Import Freeze.
Open Scope string_scope.

Section F.
  Variable value : Type.
  Variables vfalse vtrue : value.
  Variable truthy : value -> bool.
  Variable class_attrs : list string.
  Local Notation lookup := (lookup value).
  Local Notation getattr := (getattr value vfalse).
  Local Notation hasattr := (hasattr value vfalse class_attrs).
  Local Notation setattr := (setattr value vfalse truthy class_attrs).
  Local Notation assigns := (assigns value vfalse truthy class_attrs).
  Local Notation store := (store value).
  Local Notation isfrozen := (isfrozen value vfalse truthy).

  Lemma lookup_store k v k' o : lookup k' (store k v o) = if String.eqb k' k then Some v else lookup k' o.
  Proof.
    induction o as [|[j w] o IH]; cbn; [reflexivity|].
    destruct (String.eqb_spec k j) as [->|N]; cbn.
    - destruct (String.eqb k' j); reflexivity.
    - destruct (String.eqb_spec k' j) as [->|N'].
      + destruct (String.eqb_spec j k) as [->|]; [congruence|reflexivity].
      + apply IH.
  Qed.
  Lemma getattr_store k v k' o : getattr k' (store k v o) = if String.eqb k' k then Some v else getattr k' o.
  Proof. unfold Freeze.getattr. rewrite lookup_store. destruct (String.eqb k' k); reflexivity. Qed.
  Lemma hasattr_store k v k' o : hasattr k o = true -> hasattr k' (store k v o) = hasattr k' o.
  Proof.
    intros H. unfold Freeze.hasattr at 1. rewrite getattr_store. destruct (String.eqb_spec k' k) as [->|N]; [congruence|].
    unfold Freeze.hasattr. reflexivity.
  Qed.
  Lemma frozen_store k v o : k <> flag -> isfrozen (store k v o) = isfrozen o.
  Proof.
    intros N. unfold Freeze.isfrozen. rewrite getattr_store. destruct (String.eqb_spec flag k) as [E|E]; [congruence|reflexivity].
  Qed.

  Definition has_list (k : string) : bool :=
    existsb (String.eqb k) (block_attrs ++ [flag]) || existsb (String.eqb k) class_attrs.

  Hypothesis VF : truthy vfalse = false.
  Hypothesis VT : truthy vtrue = true.

  Lemma new_ok val : exists o, new_block value vfalse vtrue truthy class_attrs val = Ok o /\ isfrozen o = true /\
    (forall k, hasattr k o = has_list k) /\ (forall k, In k block_attrs -> getattr k o = Some (val k)).
  Proof.
    unfold new_block, block_attrs, freeze, Freeze.setattr, Freeze.isfrozen. cbn. repeat (rewrite VF; cbn).
    eexists. split; [reflexivity|].
    split; [unfold Freeze.isfrozen; cbn; auto|]. split.
    - intros k. unfold Freeze.hasattr, Freeze.getattr, has_list. cbn [Freeze.lookup existsb app block_attrs].
      repeat (match goal with |- context [String.eqb k ?x] => destruct (String.eqb k x) end; [reflexivity|]). reflexivity.
    - intros k H. cbn in H. repeat (destruct H as [<-|H]; [reflexivity|]). destruct H.
  Qed.

  Lemma frozen_assigns l : forall o, isfrozen o = true -> (forall k v, In (k, v) l -> k <> flag) ->
    isfrozen (assigns l o) = true /\ forall k, hasattr k (assigns l o) = hasattr k o.
  Proof.
    induction l as [|[k v] l IH]; intros o F N; cbn [Freeze.assigns fold_left]; [auto|].
    change (fold_left _ l ?x) with (assigns l x).
    assert (X : isfrozen (assign value vfalse truthy class_attrs o (k, v)) = true /\
                forall j, hasattr j (assign value vfalse truthy class_attrs o (k, v)) = hasattr j o).
    { unfold assign. cbn [fst snd]. unfold Freeze.setattr. rewrite F. cbn [andb]. destruct (hasattr k o) eqn:H; cbn [negb]; auto.
      split; [rewrite frozen_store; auto; eapply N; left; eauto|]. intros j. apply hasattr_store, H. }
    destruct X as [X1 X2]. destruct (IH (assign value vfalse truthy class_attrs o (k, v)) X1) as [Y1 Y2].
    { intros j w Hj. eapply N. right; eauto. }
    split; auto. intros j. rewrite Y2. apply X2.
  Qed.
End F.

(* C47: a block is constructed, then any attributes except the private flag are assigned (thaw is
   not called).  The next assignment raises TypeError if the name is not one of the block's
   attributes, and otherwise changes exactly that attribute; the names never change. *)
Theorem C47_frozen_partial : forall value vfalse vtrue truthy class_attrs val,
  truthy vfalse = false -> truthy vtrue = true ->
  exists o, new_block value vfalse vtrue truthy class_attrs val = Ok o /\
  (forall k, In k block_attrs -> getattr value vfalse k o = Some (val k)) /\
  forall l, (forall k v, In (k, v) l -> k <> flag) ->
  let b := assigns value vfalse truthy class_attrs l o in
  (forall k, hasattr value vfalse class_attrs k b = true <-> In k (block_attrs ++ [flag]) \/ In k class_attrs) /\
  forall k v,
    (~ In k (block_attrs ++ [flag]) -> ~ In k class_attrs -> setattr value vfalse truthy class_attrs k v b = Err TypeError) /\
    (In k (block_attrs ++ [flag]) \/ In k class_attrs -> exists b',
       setattr value vfalse truthy class_attrs k v b = Ok b' /\ getattr value vfalse k b' = Some v /\
       forall j, j <> k -> getattr value vfalse j b' = getattr value vfalse j b).
Proof.
  intros value vfalse vtrue truthy class_attrs val VF VT.
  destruct (new_ok value vfalse vtrue truthy class_attrs VF VT val) as [o [E [F [H G]]]]. exists o. split; auto. split; auto.
  intros l N b. destruct (frozen_assigns value vfalse truthy class_attrs l o F N) as [Fb Hb]. fold b in Fb, Hb.
  assert (X : forall k, hasattr value vfalse class_attrs k b = true <-> In k (block_attrs ++ [flag]) \/ In k class_attrs).
  { intros k. rewrite Hb, H. unfold has_list. rewrite orb_true_iff, !existsb_exists. split.
    - intros [[x [Hx Ex]]|[x [Hx Ex]]]; apply String.eqb_eq in Ex; subst x; auto.
    - intros [Hk|Hk]; [left|right]; exists k; split; auto; apply String.eqb_refl. }
  split; auto. intros k v. split.
  - intros N1 N2. unfold setattr. rewrite Fb. destruct (hasattr value vfalse class_attrs k b) eqn:K; auto.
    apply X in K. tauto.
  - intros K. apply X in K. unfold setattr. rewrite Fb, K. cbn. eexists. split; [reflexivity|].
    split; [rewrite getattr_store, String.eqb_refl; auto|]. intros j Nj. rewrite getattr_store.
    destruct (String.eqb_spec j k); [congruence|auto].
Qed.
(* The flag is itself an attribute a block has: assigning it False (as thaw does) makes any other
   assignment possible, so the claim fails for sequences that do so. *)
Theorem C47_thaw_refuted : exists o l, new_block bool false true (fun b => b) [] (fun _ => true) = Ok o /\
  let b := assigns bool false (fun b => b) [] l o in
  hasattr bool false [] "foo" o = false /\ hasattr bool false [] "foo" b = true.
Proof. eexists _, [(flag, false); ("foo", true)]. vm_compute. auto. Qed.
Example frozen_example : exists o, new_block nat 0 1 (fun n => negb (Nat.eqb n 0)) ["copy"; "freeze"; "thaw"] (fun _ => 7) = Ok o /\
  setattr nat 0 (fun n => negb (Nat.eqb n 0)) ["copy"; "freeze"; "thaw"] "statsu" 3 o = Err TypeError /\
  exists o', setattr nat 0 (fun n => negb (Nat.eqb n 0)) ["copy"; "freeze"; "thaw"] "status" 3 o = Ok o' /\
    getattr nat 0 "status" o' = Some 3 /\ getattr nat 0 "task_id" o' = Some 7.
Proof. eexists. split; [vm_compute; reflexivity|]. split; [vm_compute; reflexivity|]. eexists. vm_compute. auto. Qed.
Print Assumptions C47_frozen_partial.
Print Assumptions C47_thaw_refuted.

Open Scope list_scope.
(* Every sequence of assignments, those of the flag included: an assignment raises if and only if the flag was last given a
   true value (it is True after construction) and the name is not one of the block's; otherwise it changes exactly that
   attribute.  A name is one of the block's if the class or the constructor gave it, or if it was assigned while the flag was
   not true. *)
Definition last_flag {value} (l : list (string * value)) (v : value) : value :=
  fold_left (fun v kv => if String.eqb (fst kv) flag then snd kv else v) l v.
Theorem C47_any_assignments : forall value vfalse vtrue truthy class_attrs val,
  truthy vfalse = false -> truthy vtrue = true ->
  exists o, new_block value vfalse vtrue truthy class_attrs val = Ok o /\
  forall l, let b := assigns value vfalse truthy class_attrs l o in
  (forall k, hasattr value vfalse class_attrs k b = true <->
     In k (block_attrs ++ [flag]) \/ In k class_attrs \/ exists l1 v l2, l = l1 ++ (k, v) :: l2 /\ truthy (last_flag l1 vtrue) = false) /\
  forall k v,
    (setattr value vfalse truthy class_attrs k v b = Err TypeError <->
       truthy (last_flag l vtrue) = true /\ hasattr value vfalse class_attrs k b = false) /\
    (forall b', setattr value vfalse truthy class_attrs k v b = Ok b' -> getattr value vfalse k b' = Some v /\
       forall j, j <> k -> getattr value vfalse j b' = getattr value vfalse j b) /\
    (forall e, setattr value vfalse truthy class_attrs k v b = Err e -> e = TypeError).
Proof.
  intros value vfalse vtrue truthy class_attrs val VF VT.
  destruct (C47_frozen_partial value vfalse vtrue truthy class_attrs val VF VT) as [o [E [G H]]].
  destruct (new_ok value vfalse vtrue truthy class_attrs VF VT val) as [o' [E' [F _]]]. rewrite E in E'. injection E' as <-.
  destruct (H [] ltac:(intros ? ? [])) as [H0 _]. cbn [assigns fold_left] in H0. clear H.
  exists o. split; auto. intros l.
  assert (X : let b := assigns value vfalse truthy class_attrs l o in isfrozen value vfalse truthy b = truthy (last_flag l vtrue) /\
    forall k, hasattr value vfalse class_attrs k b = true <->
     In k (block_attrs ++ [flag]) \/ In k class_attrs \/ exists l1 v l2, l = l1 ++ (k, v) :: l2 /\ truthy (last_flag l1 vtrue) = false).
  { induction l as [|[k v] l IH] using rev_ind.
    - cbn. rewrite VT. split; auto. intros k. rewrite H0. split; [tauto|]. intros [K|[K|[l1 [v [l2 [K _]]]]]]; auto. destruct l1; discriminate.
    - cbv zeta. unfold assigns, last_flag in *. rewrite !fold_left_app. cbn [fold_left fst snd].
      destruct IH as [I1 I2]. set (b := fold_left (assign value vfalse truthy class_attrs) l o) in *.
      set (fl := fold_left (fun (v0 : value) (kv : string * value) => if String.eqb (fst kv) flag then snd kv else v0) l vtrue) in *.
      assert (Old : forall j, (exists l1 w l2, l = l1 ++ (j, w) :: l2 /\ truthy (last_flag l1 vtrue) = false) ->
        exists l1 w l2, l ++ [(k, v)] = l1 ++ (j, w) :: l2 /\ truthy (last_flag l1 vtrue) = false).
      { intros j [l1 [w [l2 [-> T]]]]. exists l1, w, (l2 ++ [(k, v)]). rewrite <- app_assoc. auto. }
      assert (New : forall j, (exists l1 w l2, l ++ [(k, v)] = l1 ++ (j, w) :: l2 /\ truthy (last_flag l1 vtrue) = false) ->
        (exists l1 w l2, l = l1 ++ (j, w) :: l2 /\ truthy (last_flag l1 vtrue) = false) \/ j = k /\ truthy fl = false).
      { intros j [l1 [w [l2 [D T]]]]. destruct l2 as [|x l2] using rev_ind.
        - apply app_inj_tail in D. destruct D as [-> D]. injection D as -> ->. right. auto.
        - rewrite app_comm_cons, app_assoc in D. apply app_inj_tail in D. destruct D as [-> _]. left. exists l1, w, l2. auto. }
      unfold assign, setattr. cbn [fst snd]. rewrite I1. destruct (truthy fl) eqn:T; cbn [andb].
      + destruct (hasattr value vfalse class_attrs k b) eqn:K; cbn [negb].
        * split; [|intros j; rewrite hasattr_store by auto; rewrite I2; specialize (Old j); specialize (New j); intuition congruence].
          unfold isfrozen. rewrite getattr_store. rewrite (String.eqb_sym k flag). destruct (String.eqb flag k); auto. unfold isfrozen in I1. rewrite I1. auto.
        * split; [|intros j; rewrite I2; specialize (Old j); specialize (New j); intuition congruence].
          destruct (String.eqb_spec k flag) as [->|]; [|rewrite I1; auto]. unfold hasattr, getattr in K. rewrite String.eqb_refl in K.
          destruct (lookup value flag b); discriminate.
      + split.
        * unfold isfrozen. rewrite getattr_store. rewrite (String.eqb_sym k flag). destruct (String.eqb flag k); auto. unfold isfrozen in I1. rewrite I1. auto.
        * intros j. unfold hasattr. rewrite getattr_store. destruct (String.eqb_spec j k) as [->|N].
          -- split; auto. intros _. right. right. exists l, v, []. auto.
          -- specialize (I2 j). unfold hasattr in I2. rewrite I2. specialize (Old j); specialize (New j); intuition congruence. }
  cbv zeta in *. destruct X as [X1 X2]. split; auto. intros k v. unfold setattr. rewrite X1.
  destruct (truthy (last_flag l vtrue)), (hasattr value vfalse class_attrs k (assigns value vfalse truthy class_attrs l o)); cbn;
    (split; [split; [intros D; try discriminate; auto|intros [? ?]; try discriminate; auto]|split; [intros b' D; try discriminate|intros e D; try discriminate; congruence]]);
    injection D as <-; (split; [rewrite getattr_store, String.eqb_refl; auto|]); intros j N; rewrite getattr_store; destruct (String.eqb_spec j k); congruence.
Qed.
Print Assumptions C47_any_assignments.
