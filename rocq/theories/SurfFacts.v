(* What mark_success and mark_failure do to a ready surface (Surface.v), for any graph given
   by up/down on a finite set of nodes. *)
From Coq Require Import Arith Lia Permutation.
From Verif Require Import VecFacts.
From Verif Require Export Surface.
Open Scope Z_scope.

Lemma mem_ext {A} (eqb : A -> A -> bool) x l l' : (forall y, In y l <-> In y l') ->
  mem eqb x l = mem eqb x l'.
Proof.
  intros H. unfold mem. apply eq_true_iff_eq. rewrite !existsb_exists.
  split; intros [y [Hy E]]; exists y; (split; [apply H; auto|auto]).
Qed.

Lemma filter_length_le' {A} (f : A -> bool) l : (length (filter f l) <= length l)%nat.
Proof. induction l; simpl; auto. destruct (f a); simpl; lia. Qed.

Section SurfFacts.
  Context {A : Type}.
  Variable eqb : A -> A -> bool.
  Variables up down : A -> list A.
  Variable Vl : list A.
  Local Notation Vp := (fun x => In x Vl).
  Local Notation "'V' x" := (In x Vl) (at level 10, x at level 9).
  Hypothesis eqb_ok : eqb_on eqb Vp.
  Hypothesis up_V : forall x y, V x -> In y (up x) -> V y.
  Hypothesis down_V : forall x y, V x -> In y (down x) -> V y.

  Definition subV (s : surf A) : Prop :=
    (forall x, In x (surface s) -> V x) /\ (forall x, In x (boundary s) -> V x).

  Lemma sv s x : subV s -> In x (surface s) \/ In x (boundary s) -> V x.
  Proof. intros [H1 H2] [H|H]; auto. Qed.
  Lemma in_surface_iff s x : subV s -> V x -> (in_surface eqb s x = true <-> In x (surface s)).
  Proof. intros [H _] Hx. apply (mem_in eqb Vp eqb_ok); auto. Qed.
  Lemma in_boundary_iff s x : subV s -> V x -> (in_boundary eqb s x = true <-> In x (boundary s)).
  Proof. intros [_ H] Hx. apply (mem_in eqb Vp eqb_ok); auto. Qed.
  Lemma in_surface_dec s x : subV s -> V x -> {In x (surface s)} + {~ In x (surface s)}.
  Proof.
    intros H Hx. destruct (in_surface eqb s x) eqn:E; [left|right].
    - apply in_surface_iff; auto.
    - intros H'. apply (in_surface_iff s x) in H'; auto. congruence.
  Qed.
  Lemma in_boundary_dec s x : subV s -> V x -> {In x (boundary s)} + {~ In x (boundary s)}.
  Proof.
    intros H Hx. destruct (in_boundary eqb s x) eqn:E; [left|right].
    - apply in_boundary_iff; auto.
    - intros H'. apply (in_boundary_iff s x) in H'; auto. congruence.
  Qed.

  (* __add_to_boundary *)
  Lemma add_to_boundary_spec s d s' a : subV s -> V d ->
    add_to_boundary eqb up s d = (s', a) ->
    (a = false /\ s' = s /\ (In d (boundary s) \/ forall u, In u (up d) -> ~ In u (boundary s))) \/
    (a = true /\ ~ In d (boundary s) /\ (exists u, In u (up d) /\ In u (boundary s)) /\
     surface s' = surface s /\ (forall x, In x (boundary s') <-> x = d \/ In x (boundary s))).
  Proof.
    intros Hs Hd E. unfold add_to_boundary in E.
    destruct (in_boundary eqb s d) eqn:B; cbn [negb andb] in E.
    - left. injection E as <- <-. split; auto. split; auto. left. apply in_boundary_iff; auto.
    - destruct (existsb (in_boundary eqb s) (up d)) eqn:X; injection E as <- <-.
      + right. split; auto. split; [intros H; apply (in_boundary_iff s d) in H; auto; congruence|].
        split.
        * apply existsb_exists in X. destruct X as [u [Hu X]]. exists u. split; auto.
          apply in_boundary_iff in X; eauto.
        * split; auto. intros x. cbn [boundary]. apply (in_sadd eqb Vp eqb_ok); auto. apply Hs.
      + left. split; auto. split; auto. right. intros u Hu H.
        assert (existsb (in_boundary eqb s) (up d) = true); [|congruence].
        apply existsb_exists. exists u. split; auto. apply in_boundary_iff; eauto.
  Qed.

  (* __remove_from_boundary *)
  Lemma remove_from_boundary_spec s x : subV s -> V x ->
    surface (remove_from_boundary eqb up s x) = surface s /\
    ((boundary (remove_from_boundary eqb up s x) = boundary s /\
      (~ In x (boundary s) \/ exists u, In u (up x) /\ In u (surface s))) \/
     (In x (boundary s) /\ (forall u, In u (up x) -> ~ In u (surface s)) /\
      forall y, In y (boundary (remove_from_boundary eqb up s x)) <-> In y (boundary s) /\ y <> x)).
  Proof.
    intros Hs Hx. unfold remove_from_boundary.
    destruct (in_boundary eqb s x) eqn:B; cbn [andb].
    - assert (Bx : In x (boundary s)) by (apply in_boundary_iff; auto).
      destruct (forallb (fun u => negb (in_surface eqb s u)) (up x)) eqn:F; cbn [surface boundary].
      + split; auto. right. split; auto. split.
        * intros u Hu Hsu. rewrite forallb_forall in F. specialize (F u Hu).
          apply negb_true_iff in F. apply (in_surface_iff s u) in Hsu; eauto. congruence.
        * intros y. apply (in_sdel eqb Vp eqb_ok); auto. apply Hs.
      + split; auto. left. split; auto. right.
        assert (X : existsb (in_surface eqb s) (up x) = true).
        { destruct (existsb (in_surface eqb s) (up x)) eqn:X; auto. exfalso.
          assert (forallb (fun u => negb (in_surface eqb s u)) (up x) = true); [|congruence].
          apply forallb_forall. intros u Hu. apply negb_true_iff.
          destruct (in_surface eqb s u) eqn:Y; auto. exfalso.
          assert (existsb (in_surface eqb s) (up x) = true); [|congruence].
          apply existsb_exists. eauto. }
        apply existsb_exists in X. destruct X as [u [Hu X]]. exists u. split; auto.
        apply in_surface_iff in X; eauto.
    - split; auto. left. split; auto. left. intros H. apply (in_boundary_iff s x) in H; auto. congruence.
  Qed.

  Definition disj (s : surf A) : Prop := forall x, In x (surface s) -> In x (boundary s) -> False.

  Lemma contained_zero s d : subV s -> disj s -> V d ->
    (0 <? Z.abs (contained eqb s d) = true <-> In d (surface s) \/ In d (boundary s)) /\
    (contained eqb s d <? 0 = true <-> In d (boundary s)).
  Proof.
    intros Hs Hd Vd. unfold contained. specialize (Hd d).
    pose proof (in_surface_iff s d Hs Vd) as I1. pose proof (in_boundary_iff s d Hs Vd) as I2.
    destruct (in_surface eqb s d), (in_boundary eqb s d); simpl; split; split; intros H;
      try discriminate; try tauto; try (destruct H; intuition discriminate).
  Qed.

  (* one turn of the loop over up_nodes *)
  Lemma retire_spec s u : subV s -> disj s -> In u (surface s) ->
    exists s', retire eqb up down s u = Ok s' /\ subV s' /\ disj s' /\
      (forall x, In x (boundary s') -> In x (boundary s)) /\
      ((s' = s /\ exists d, In d (down u) /\ ~ In d (surface s) /\ ~ In d (boundary s)) \/
       ((forall x, In x (surface s') <-> In x (surface s) /\ x <> u) /\
        (forall d, In d (down u) -> In d (surface s) \/ In d (boundary s)) /\
        (forall x, In x (boundary s) -> ~ In x (boundary s') ->
            In x (down u) /\ forall v, In v (up x) -> ~ In v (surface s')) /\
        (forall x, In x (boundary s') -> In x (down u) -> exists v, In v (up x) /\ In v (surface s')))).
  Proof.
    intros Hs Hd Hu. assert (Vu : V u) by (apply (sv _ _ Hs); auto). unfold retire.
    destruct (forallb _ (map (contained eqb s) (down u))) eqn:F.
    - assert (Hall : forall d, In d (down u) -> In d (surface s) \/ In d (boundary s)).
      { intros d Hdd. rewrite forallb_forall in F. apply contained_zero; eauto.
        apply F. apply in_map. auto. }
      unfold sremove.
      assert (M : mem eqb u (surface s) = true) by (apply in_surface_iff; auto).
      rewrite M. cbn [bind].
      set (s1 := Surf (sdel eqb u (surface s)) (boundary s)).
      assert (S1 : forall x, In x (surface s1) <-> In x (surface s) /\ x <> u).
      { intros x. apply (in_sdel eqb Vp eqb_ok); auto. apply Hs. }
      assert (subS1 : subV s1).
      { split; intros x H; [apply S1 in H; apply (sv _ _ Hs); tauto|apply (sv _ _ Hs); auto]. }
      set (f := fun (s' : surf A) (dc : A * Z) => if snd dc <? 0 then remove_from_boundary eqb up s' (fst dc) else s').
      assert (G : forall L s', (forall d, In d L -> In d (down u)) ->
         subV s' -> surface s' = surface s1 ->
         (forall x, In x (boundary s') -> In x (boundary s)) ->
         (forall x, In x (boundary s) -> ~ In x (boundary s') ->
            In x (down u) /\ forall v, In v (up x) -> ~ In v (surface s1)) ->
         let r := fold_left f (combine L (map (contained eqb s) L)) s' in
         subV r /\ surface r = surface s1 /\
         (forall x, In x (boundary r) -> In x (boundary s')) /\
         (forall x, In x (boundary s) -> ~ In x (boundary r) ->
            In x (down u) /\ forall v, In v (up x) -> ~ In v (surface s1)) /\
         (forall x, In x (boundary r) -> In x L -> exists v, In v (up x) /\ In v (surface s1))).
      { induction L as [|d L IH]; intros s' HL Hs' Es Hb Hr; simpl.
        - split; auto. split; auto. split; auto. split; auto. intros x _ [].
        - assert (Vd : V d) by (eapply down_V; eauto; apply HL; left; auto).
          unfold f at 2 4 6 8 10. cbn [snd fst].
          destruct (contained eqb s d <? 0) eqn:C.
          + destruct (remove_from_boundary_spec s' d Hs' Vd) as [R1 R2].
            set (s2 := remove_from_boundary eqb up s' d) in *.
            assert (B2 : forall x, In x (boundary s2) -> In x (boundary s')).
            { destruct R2 as [[R2 _]|[_ [_ R2]]]; intros x Hx; [rewrite <- R2; auto|apply R2 in Hx; tauto]. }
            destruct (IH s2) as [I1 [I2 [I3 [I4 I5]]]].
            * intros x Hx; apply HL; right; auto.
            * split; [rewrite R1; apply Hs'|]. intros x Hx. apply Hs'. auto.
            * congruence.
            * auto.
            * intros x Hx Hn. destruct R2 as [[R2 _]|[R2 [R3 R4]]].
              { apply Hr; auto. rewrite R2 in Hn. auto. }
              { destruct (in_boundary_dec s' x Hs') as [Hx'|Hx']; [apply (sv _ _ Hs); auto| |apply Hr; auto].
                assert (x = d) as ->.
                { destruct (eqb x d) eqn:Ex; [apply eqb_ok in Ex; auto; apply (sv _ _ Hs); auto|].
                  exfalso. apply Hn. apply R4. split; auto. intros ->.
                  assert (eqb d d = true) by (apply eqb_ok; auto). congruence. }
                split; [apply HL; left; auto|]. intros v Hv. rewrite <- Es. apply R3; auto. }
            * split; auto. split; auto. split; [auto|]. split; auto.
              intros x Hx [<-|HxL]; auto.
              assert (Hx2 : In d (boundary s2)) by auto.
              destruct R2 as [[R2 [R3|R3]]|[_ [_ R4]]].
              { exfalso. apply R3. auto. }
              { destruct R3 as [v [Hv Hv']]. exists v. rewrite Es in Hv'. auto. }
              { apply R4 in Hx2. tauto. }
          + destruct (IH s') as [I1 [I2 [I3 [I4 I5]]]]; auto.
            { intros x Hx; apply HL; right; auto. }
            split; auto. split; auto. split; auto. split; auto.
            intros x Hx [<-|HxL]; auto. exfalso.
            apply (proj2 (contained_zero s d Hs Hd Vd)) in Hb; auto. congruence. }
      destruct (G (down u) s1) as [G1 [G2 [G3 [G4 G5]]]]; auto.
      { intros x Hx Hn. exfalso. auto. }
      eexists. split; [reflexivity|]. fold f. split; auto. split.
      { intros x Hx Hb. rewrite G2 in Hx. apply S1 in Hx. apply (Hd x); [tauto|]. apply G3 in Hb. auto. }
      split; [auto|]. right. rewrite G2. auto.
    - exists s. split; auto. split; auto. split; auto. split; auto. left. split; auto.
      assert (X : existsb (fun x => negb (0 <? Z.abs x)) (map (contained eqb s) (down u)) = true).
      { destruct (existsb _ _) eqn:X; auto. exfalso.
        assert (forallb (fun x => 0 <? Z.abs x) (map (contained eqb s) (down u)) = true); [|congruence].
        apply forallb_forall. intros y Hy. destruct (0 <? Z.abs y) eqn:Y; auto. exfalso.
        assert (existsb (fun x => negb (0 <? Z.abs x)) (map (contained eqb s) (down u)) = true); [|congruence].
        apply existsb_exists. exists y. rewrite Y. auto. }
      apply existsb_exists in X. destruct X as [y [Hy X]]. apply in_map_iff in Hy.
      destruct Hy as [d [<- Hdd]]. exists d. split; auto.
      assert (Vd : V d) by eauto.
      assert (~ (In d (surface s) \/ In d (boundary s))); [|tauto].
      intros H. apply (proj1 (contained_zero s d Hs Hd Vd)) in H. rewrite H in X. discriminate.
  Qed.

  (* the whole loop over up_nodes *)
  Lemma retire_all us : forall s, subV s -> disj s -> NoDup us -> (forall u, In u us -> In u (surface s)) ->
    exists s', foldM (retire eqb up down) us s = Ok s' /\ subV s' /\ disj s' /\
      (forall x, In x (surface s') -> In x (surface s)) /\
      (forall x, In x (boundary s') -> In x (boundary s)) /\
      (forall x, In x (surface s) -> ~ In x (surface s') ->
         In x us /\ forall d, In d (down x) -> In d (surface s) \/ In d (boundary s)) /\
      (forall x, In x (boundary s) -> ~ In x (boundary s') ->
         exists u, In u us /\ In x (down u) /\ ~ In u (surface s') /\
           (forall v, In v (up x) -> ~ In v (surface s'))).
  Proof.
    induction us as [|u us IH]; intros s Hs Hd Hn Hu; simpl.
    - exists s. split; auto. split; auto. split; auto. split; auto. split; auto. split; intros x H1 H2; tauto.
    - inversion Hn; subst.
      destruct (retire_spec s u Hs Hd (Hu u (or_introl eq_refl))) as [s1 [E1 [Hs1 [Hd1 [Hb1 Hc]]]]].
      rewrite E1. cbn [bind].
      assert (Sx : forall x, In x (surface s1) -> In x (surface s)).
      { destruct Hc as [[-> _]|[Hc _]]; auto. intros x Hx. apply Hc in Hx. tauto. }
      destruct (IH s1 Hs1 Hd1 H2) as [s' [E2 [Hs' [Hd' [K1 [K2 [K3 K4]]]]]]].
      { intros v Hv. destruct Hc as [[-> _]|[Hc _]]; [apply Hu; right; auto|].
        apply Hc. split; [apply Hu; right; auto|]. intros ->. auto. }
      exists s'. split; auto. split; auto. split; auto. split; [auto|]. split; [auto|]. split.
      + intros x Hx Hx'. destruct (in_surface_dec s1 x Hs1) as [Y|Y]; [apply (sv _ _ Hs); auto| |].
        * destruct (K3 x Y Hx') as [J1 J2]. split; [right; auto|]. intros d Hdd.
          destruct (J2 d Hdd); auto.
        * destruct Hc as [[-> _]|[Hc [Hc2 _]]]; [tauto|].
          destruct (eqb x u) eqn:Ex.
          { assert (x = u) as -> by (apply eqb_ok; auto; apply (sv _ _ Hs); auto; left; apply Hu; left; auto).
            split; [left; auto|]. auto. }
          { exfalso. apply Y. apply Hc. split; auto. intros ->.
            assert (eqb u u = true) by (apply eqb_ok; auto; apply (sv _ _ Hs); auto). congruence. }
      + intros x Hx Hx'. destruct (in_boundary_dec s1 x Hs1) as [Y|Y]; [apply (sv _ _ Hs); auto| |].
        * destruct (K4 x Y Hx') as [v [J1 [J2 [J3 J4]]]]. exists v. split; [right; auto|]. auto.
        * destruct Hc as [[-> _]|[Hc [_ [Hc2 _]]]]; [tauto|].
          destruct (Hc2 x Hx Y) as [J1 J2]. exists u. split; [left; auto|]. split; auto.
          split; [intros H; apply K1 in H; apply Hc in H; tauto|].
          intros v Hv Hv'. apply (J2 v Hv). auto.
  Qed.

  (* S: nodes marked successful; B: failed nodes and everything downstream of them *)
  Variables S B : A -> Prop.
  Hypothesis SB : forall x, S x -> B x -> False.
  Hypothesis B_down : forall x d, V d -> In x (up d) -> B x -> B d.

  Definition inv (s : surf A) : Prop :=
    (forall x, In x (surface s) -> V x /\ S x) /\ (forall x, In x (boundary s) -> V x /\ B x).

  Lemma inv_subV s : inv s -> subV s.
  Proof. intros [H1 H2]. split; intros x Hx; [apply H1|apply H2]; auto. Qed.
  Lemma inv_disj s : inv s -> disj s.
  Proof. intros [H1 H2] x Hx Hy. apply H1 in Hx. apply H2 in Hy. apply (SB x); tauto. Qed.
  Local Hint Resolve inv_subV inv_disj : core.

  Lemma add_inv s d s' a : inv s -> V d -> add_to_boundary eqb up s d = (s', a) -> inv s'.
  Proof.
    intros Hi Hd E.
    destruct (add_to_boundary_spec s d s' a (inv_subV s Hi) Hd E) as [[_ [-> _]]|[_ [_ [[u [Hu Hub]] [Es Hb]]]]]; auto.
    split; [rewrite Es; apply Hi|]. intros x Hx. apply Hb in Hx. destruct Hx as [->|Hx]; [|apply Hi; auto].
    split; auto. eapply B_down; eauto. apply Hi; auto.
  Qed.

  (* the loop over downstream nodes in mark_success *)
  Lemma success_loop ds : forall s ready, inv s -> (forall d, In d ds -> V d) ->
    let r := fold_left (success_step eqb up) ds (s, ready) in
    inv (fst r) /\ surface (fst r) = surface s /\
    (forall x, In x (boundary s) -> In x (boundary (fst r))) /\
    (forall x, In x (boundary (fst r)) -> In x (boundary s) \/ In x ds) /\
    snd r = ready ++ filter (fun d => forallb (in_surface eqb s) (up d)) ds.
  Proof.
    induction ds as [|d ds IH]; intros s ready Hi HV.
    - simpl. split; auto. split; auto. split; auto. split; auto. rewrite app_nil_r. auto.
    - assert (Vd : V d) by (apply HV; left; auto).
      assert (HV' : forall x, In x ds -> V x) by (intros; apply HV; right; auto).
      cbn [fold_left filter]. cbv zeta.
      assert (X : success_step eqb up (s, ready) d =
        let '(s', added) := add_to_boundary eqb up s d in
        if added then (s', ready)
        else if forallb (in_surface eqb s') (up d) then (s', ready ++ [d]) else (s', ready)) by reflexivity.
      rewrite X. clear X.
      destruct (add_to_boundary eqb up s d) as [s1 a] eqn:Ea.
      pose proof (add_inv s d s1 a Hi Vd Ea) as Hi1.
      destruct (add_to_boundary_spec s d s1 a (inv_subV s Hi) Vd Ea)
        as [[-> [-> H]]|[-> [H1 [[u [Hu Hub]] [Es Hb]]]]].
      + destruct (forallb (in_surface eqb s) (up d)) eqn:F.
        * destruct (IH s (ready ++ [d])) as [I1 [I2 [I3 [I4 I5]]]]; auto.
          split; auto. split; auto. split; auto.
          split; [intros x Hx; destruct (I4 x Hx); simpl; auto|].
          rewrite I5, <- app_assoc. reflexivity.
        * destruct (IH s ready) as [I1 [I2 [I3 [I4 I5]]]]; auto.
          split; auto. split; auto. split; auto.
          split; [intros x Hx; destruct (I4 x Hx); simpl; auto|]. auto.
      + assert (F : forallb (in_surface eqb s) (up d) = false).
        { destruct (forallb (in_surface eqb s) (up d)) eqn:F; auto. exfalso.
          rewrite forallb_forall in F. apply F in Hu as Hu'. apply in_surface_iff in Hu'; eauto.
          apply (inv_disj s Hi u); auto. }
        rewrite F.
        destruct (IH s1 ready) as [I1 [I2 [I3 [I4 I5]]]]; auto.
        split; auto. split; [congruence|]. split; [intros x Hx; apply I3, Hb; auto|].
        split.
        * intros x Hx. destruct (I4 x Hx) as [J|J]; simpl; auto. apply Hb in J. destruct J; auto.
        * rewrite I5. f_equal. apply filter_ext. intros a. unfold in_surface. rewrite Es. auto.
  Qed.

  (* a node marked successful stays in the surface while something downstream of it is open *)
  Definition keep (s : surf A) : Prop :=
    forall y d, V y -> S y -> In d (down y) -> ~ S d -> ~ B d -> In y (surface s).

  Lemma retire_inv us s : inv s -> NoDup us -> (forall u, In u us -> In u (surface s)) ->
    exists s', foldM (retire eqb up down) us s = Ok s' /\ inv s' /\
      (keep s -> keep s') /\
      (forall x, In x (surface s') -> In x (surface s)) /\
      (forall x, In x (boundary s') -> In x (boundary s)) /\
      (forall x, In x (surface s) -> ~ In x us -> In x (surface s')) /\
      (forall x, In x (boundary s) -> ~ In x (boundary s') ->
         exists u, In u us /\ In x (down u)) /\
      (forall x, In x (boundary s) -> ~ In x (boundary s') ->
         forall v, In v (up x) -> ~ In v (surface s')).
  Proof.
    intros Hi Hn Hu.
    destruct (retire_all us s (inv_subV s Hi) (inv_disj s Hi) Hn Hu)
      as [s' [E [Hs' [Hd' [K1 [K2 [K3 K4]]]]]]].
    exists s'. split; auto. split.
    { split; intros x Hx; apply Hi; auto. }
    split.
    { intros K y d Vy Sy Hd NS NB. pose proof (K y d Vy Sy Hd NS NB) as Hy.
      destruct (in_surface_dec s' y Hs' Vy) as [?|N]; auto. exfalso.
      destruct (K3 y Hy N) as [_ J]. destruct (J d Hd) as [J'|J']; apply Hi in J'; tauto. }
    split; auto. split; auto. split.
    { intros x Hx Nx. assert (Vx : V x) by (apply (sv s); auto).
      destruct (in_surface_dec s' x Hs' Vx) as [?|N]; auto.
      exfalso. destruct (K3 x Hx N). tauto. }
    split; intros x Hx Nx; destruct (K4 x Hx Nx) as [u [J1 [J2 [J3 J4]]]]; eauto.
  Qed.

  Lemma mark_success_spec s n : V n -> S n -> NoDup (up n) ->
    ~ In n (up n) ->
    inv s -> (forall u, In u (up n) -> In u (surface s)) ->
    (forall y d, V y -> y <> n -> S y -> In d (down y) -> ~ S d -> ~ B d -> In y (surface s)) ->
    exists s', mark_success eqb up down s n
      = Ok (s', filter (fun d => forallb (fun u => mem eqb u (sadd eqb n (surface s))) (up d)) (down n)) /\
      inv s' /\ keep s' /\
      (forall x, In x (boundary s') -> In x (boundary s) \/ In x (down n)) /\
      (forall x, In x (boundary s) -> ~ In x (boundary s') ->
         exists u, In u (up n) /\ In x (down u)) /\
      (forall x, In x (boundary s) -> ~ In x (boundary s') ->
         forall v, In v (up x) -> ~ In v (surface s') \/ v = n).
  Proof.
    intros Vn Sn Nn Irr Hi Hu Hk. unfold mark_success.
    assert (F : forallb (in_surface eqb s) (up n) = true).
    { apply forallb_forall. intros u Hu'. apply in_surface_iff; eauto. }
    rewrite F. cbn [negb].
    set (s1 := Surf (sadd eqb n (surface s)) (boundary s)).
    assert (Hs1 : forall x, In x (surface s1) <-> x = n \/ In x (surface s)).
    { intros x. apply (in_sadd eqb Vp eqb_ok); auto. intros y Hy. apply Hi in Hy. tauto. }
    assert (Hi1 : inv s1).
    { split; [|apply Hi]. intros x Hx. apply Hs1 in Hx. destruct Hx as [->|Hx]; auto. apply Hi; auto. }
    destruct (success_loop (down n) s1 [] Hi1) as [I1 [I2 [I3 [I4 I5]]]]; [eauto|].
    destruct (fold_left (success_step eqb up) (down n) (s1, [])) as [s2 ready].
    cbn [fst snd app] in *. subst ready.
    destruct (retire_inv (up n) s2 I1 Nn) as [s3 [E [Hi3 [K [R1 [R2 [R3 [R4 R5]]]]]]]].
    { intros u Hu'. rewrite I2. apply Hs1. auto. }
    rewrite E. cbn [bind].
    assert (K2 : keep s2).
    { intros y d Vy Sy Hd NS NB. rewrite I2. apply Hs1.
      destruct (eqb y n) eqn:Ey; [left; apply eqb_ok; auto|right].
      apply (Hk y d); auto. intros ->. assert (eqb n n = true) by (apply eqb_ok; auto). congruence. }
    specialize (K K2).
    destruct (down n) as [|d0 ds] eqn:Dn.
    - unfold sremove.
      assert (N3 : In n (surface s3)).
      { apply R3; [rewrite I2; apply Hs1; auto|]. auto. }
      assert (M : mem eqb n (surface s3) = true).
      { apply (in_surface_iff s3 n); auto. }
      rewrite M. cbn [bind]. eexists. split; [reflexivity|].
      assert (Sd : forall x, In x (sdel eqb n (surface s3)) <-> In x (surface s3) /\ x <> n).
      { intros x. apply (in_sdel eqb Vp eqb_ok); auto. intros y Hy. apply Hi3 in Hy. tauto. }
      split; [|split; [|split; [|split]]]; cbn [surface boundary].
      + split; [|apply Hi3]. intros x Hx. apply Sd in Hx. apply Hi3. tauto.
      + intros y d Vy Sy Hd NS NB. cbn [surface]. apply Sd. split; [eapply K; eauto|].
        intros ->. rewrite Dn in Hd. destruct Hd.
      + intros x Hx. apply R2 in Hx. apply I4 in Hx. auto.
      + intros x Hx Nx. apply R4; auto.
      + intros x Hx Nx v Hv. left. cbn [surface]. intros Hv'. apply Sd in Hv'. apply (R5 x (I3 x Hx) Nx v Hv). tauto.
    - exists s3. split; auto. split; auto. split; auto. split; [|split].
      + intros x Hx. apply R2 in Hx. apply I4 in Hx. auto.
      + intros x Hx Nx. apply R4; auto.
      + intros x Hx Nx v Hv. left. apply (R5 x (I3 x Hx) Nx v Hv).
  Qed.

  (* downstream of n through nodes with property Q *)
  Inductive below (Q : A -> Prop) (n : A) : A -> Prop :=
  | below_one d : In d (down n) -> below Q n d
  | below_more a d : below Q n a -> Q a -> In d (down a) -> below Q n d.

  (* the while loop of mark_failure *)
  Section Loop.
    Variable pick : nat -> list A -> nat.
    Variable n : A.
    Variable b0 : list A.               (* the boundary before the loop, n included *)
    Hypothesis Vn : V n.
    Hypothesis nb0 : In n b0.
    Hypothesis dual : forall a b, V a -> V b -> (In b (down a) <-> In a (up b)).
    Hypothesis NVl : NoDup Vl.


    Definition loop_inv (s : surf A) (dn orph : list A) : Prop :=
      inv s /\ NoDup dn /\ NoDup orph /\
      (forall x, In x (boundary s) <-> In x b0 \/ In x orph) /\
      (forall x, In x orph -> ~ In x b0 /\ below (fun a => ~ In a b0) n x /\ V x) /\
      (forall d, In d dn -> V d /\ below (fun a => ~ In a b0) n d /\ exists u, In u (up d) /\ In u (boundary s)) /\
      (forall x d, x = n \/ In x orph -> In d (down x) -> In d (boundary s) \/ In d dn).

    Definition outside (s : surf A) : nat :=
      length (filter (fun x => negb (in_boundary eqb s x)) Vl).
    Definition fuel_need (s : surf A) (dn : list A) : nat :=
      outside s * (length Vl + 1) + length dn.

    Lemma outside_drop s s' d : subV s -> subV s' -> V d -> ~ In d (boundary s) ->
      (forall x, In x (boundary s') <-> x = d \/ In x (boundary s)) ->
      outside s = Datatypes.S (outside s').
    Proof.
      intros Hs Hs' Vd Nd Hb. unfold outside.
      assert (G : forall L, NoDup L -> (forall x, In x L -> V x) ->
        length (filter (fun x => negb (in_boundary eqb s x)) L) =
        (length (filter (fun x => negb (in_boundary eqb s' x)) L) + if mem eqb d L then 1 else 0)%nat).
      { induction L as [|x L IH]; intros HN HV; auto. inversion HN; subst.
        assert (Vx : V x) by (apply HV; left; auto).
        assert (HV' : forall x, In x L -> V x) by (intros; apply HV; right; auto).
        specialize (IH H2 HV'). cbn [filter mem existsb].
        change (existsb (eqb d) L) with (mem eqb d L).
        destruct (eqb d x) eqn:Ex.
        - apply eqb_ok in Ex; auto. subst x.
          assert (M : mem eqb d L = false) by (apply (mem_nin eqb Vp eqb_ok); auto).
          rewrite M in IH. 
          assert (E1 : in_boundary eqb s d = false).
          { destruct (in_boundary eqb s d) eqn:E; auto. apply in_boundary_iff in E; auto. tauto. }
          assert (E2 : in_boundary eqb s' d = true) by (apply in_boundary_iff; auto; apply Hb; auto).
          rewrite E1, E2. cbn [negb orb length]. lia.
        - assert (E : in_boundary eqb s' x = in_boundary eqb s x).
          { apply eq_true_iff_eq. rewrite !in_boundary_iff by auto. rewrite Hb. intuition. subst.
            assert (eqb d d = true) by (apply eqb_ok; auto). congruence. }
          rewrite E. cbn [orb]. destruct (in_boundary eqb s x); cbn [negb length]; lia. }
      rewrite (G Vl NVl) by auto.
      assert (M : mem eqb d Vl = true) by (apply (mem_in eqb Vp eqb_ok); auto).
      rewrite M. lia.
    Qed.

    Lemma sub_length (l : list A) : NoDup l -> (forall x, In x l -> V x) -> (length l <= length Vl)%nat.
    Proof. intros. apply NoDup_incl_length; auto. Qed.

    Lemma orphan_loop_spec fuel : forall s dn orph, loop_inv s dn orph ->
      (fuel_need s dn <= fuel)%nat ->
      exists s' orph', orphan_loop eqb up down pick fuel s dn orph = Ok (s', orph') /\
        loop_inv s' [] orph' /\ surface s' = surface s.
    Proof.
      induction fuel as [|f IH]; intros s dn orph L Hf.
      - unfold fuel_need in Hf. destruct dn; simpl in Hf; [|lia]. exists s, orph. simpl. auto.
      - cbn [orphan_loop]. unfold pop.
        destruct dn as [|d1 dn1].
        { destruct (pick f [] mod length (@nil A))%nat; simpl; exists s, orph; auto. }
        set (dn := d1 :: dn1) in *.
        destruct (nth_error dn (pick f dn mod length dn)) as [d|] eqn:Ed.
        2:{ exfalso. apply nth_error_None in Ed.
            pose proof (Nat.mod_upper_bound (pick f dn) (length dn)). cbn [length dn] in *. lia. }
        assert (Hdn : In d dn) by (eapply nth_error_In; eauto).
        clearbody dn. clear Ed d1 dn1.
        destruct L as [L1 [L2 [L3 [L4 [L5 [L6 L7]]]]]].
        destruct (L6 d Hdn) as [Vd [Bd Ud]].
        assert (dnV : forall x, In x dn -> V x) by (intros x Hx; apply L6; auto).
        set (rest := sdel eqb d dn).
        assert (Hrest : forall x, In x rest <-> In x dn /\ x <> d)
          by (intros x; apply (in_sdel eqb Vp eqb_ok); auto).
        assert (Nrest : NoDup rest) by (apply NoDup_sdel; auto).
        assert (Lrest : (length dn = Datatypes.S (length rest))%nat).
        { assert (P : length (d :: rest) = length dn); [|simpl in P; lia].
          apply Permutation_length. apply NoDup_Permutation; auto.
          - constructor; auto. rewrite Hrest. tauto.
          - intros x. cbn [In]. rewrite Hrest. split; [intros [<-|H]; tauto|].
            intros Hx. destruct (eqb d x) eqn:Ex; [left; apply eqb_ok; auto|right].
            split; auto. intros ->. assert (eqb d d = true) by (apply eqb_ok; auto). congruence. }
        destruct (add_to_boundary eqb up s d) as [s1 a] eqn:Ea.
        pose proof (add_inv s d s1 a L1 Vd Ea) as Hi1.
        destruct (add_to_boundary_spec s d s1 a (inv_subV s L1) Vd Ea)
          as [[-> [-> H]]|[-> [H1 [Hu' [Es Hb]]]]].
        + assert (db : In d (boundary s)).
          { destruct H; auto. destruct Ud as [u [U1 U2]]. exfalso. apply (H u); auto. }
          destruct (IH s rest orph) as [s' [o' [E1 [E2 E3]]]].
          * split; [|split; [|split; [|split; [|split; [|split]]]]]; auto.
            { intros x Hx. apply L6. apply Hrest in Hx. tauto. }
            { intros x e Hx He. destruct (L7 x e Hx He) as [?|J]; auto.
              destruct (in_boundary_dec s e (inv_subV s L1) (dnV e J)) as [?|N]; auto.
              right. apply Hrest. split; auto. intros ->. auto. }
          * unfold fuel_need in *. lia.
          * eauto.
        + assert (dO : ~ In d orph) by (intros Hx; apply H1, L4; auto).
          assert (ddV : forall x, In x (dedup eqb (down d)) -> V x).
          { intros x Hx. rewrite (in_dedup eqb Vp eqb_ok) in Hx; eauto. }
          assert (orV : forall x, In x orph -> V x) by (intros x Hx; apply L5; auto).
          set (new := sminus eqb (dedup eqb (down d)) orph).
          assert (Hnew : forall x, In x new <-> In x (down d) /\ ~ In x orph).
          { intros x. unfold new. rewrite (in_sminus eqb Vp eqb_ok); auto.
            rewrite (in_dedup eqb Vp eqb_ok); eauto. tauto. }
          assert (newV : forall x, In x new -> V x) by (intros x Hx; apply Hnew in Hx; destruct Hx; eauto).
          assert (restV : forall x, In x rest -> V x) by (intros x Hx; apply Hrest in Hx; destruct Hx; eauto).
          set (dn' := sunion eqb rest new).
          assert (Hdn' : forall x, In x dn' <-> In x rest \/ In x new)
            by (intros x; apply (in_sunion eqb Vp eqb_ok); auto).
          assert (Ndn' : NoDup dn') by (apply (NoDup_sunion eqb Vp eqb_ok); auto).
          set (orph' := sadd eqb d orph).
          assert (Horph' : forall x, In x orph' <-> x = d \/ In x orph)
            by (intros x; apply (in_sadd eqb Vp eqb_ok); auto).
          assert (Norph' : NoDup orph') by (apply (NoDup_sadd eqb Vp eqb_ok); auto).
          destruct (IH s1 dn' orph') as [s' [o' [E1 [E2 E3]]]].
          * split; [|split; [|split; [|split; [|split; [|split]]]]]; auto.
            { intros x. rewrite Hb, Horph', L4. tauto. }
            { intros x Hx. apply Horph' in Hx. destruct Hx as [->|Hx]; [|apply L5; auto].
              split; [intros Hx; apply H1, L4; auto|auto]. }
            { intros x Hx. apply Hdn' in Hx. destruct Hx as [Hx|Hx].
              - apply Hrest in Hx. destruct (L6 x) as [J1 [J2 [u [J3 J4]]]]; [tauto|].
                split; auto. split; auto. exists u. split; auto. apply Hb; auto.
              - apply Hnew in Hx. assert (Vx : V x) by (destruct Hx; eauto).
                split; auto. split; [eapply below_more; [exact Bd| |apply Hx]; intros Hd0; apply H1, L4; auto|].
                exists d. split; [apply dual; auto; tauto|apply Hb; auto]. }
            { intros x e Hx He. rewrite Hb, Hdn', Hrest, Hnew.
              assert (Ve : V e -> e = d \/ e <> d).
              { intros Ve. destruct (eqb e d) eqn:Ee; [left; apply eqb_ok; auto|right; intros ->].
                assert (eqb d d = true) by (apply eqb_ok; auto). congruence. }
              assert (Ve2 : V e -> In e (boundary s) \/ ~ In e (boundary s))
                by (intros Ve3; destruct (in_boundary_dec s e (inv_subV s L1) Ve3); auto).
              rewrite Horph' in Hx.
              assert (Hx' : x = d \/ (x = n \/ In x orph)) by tauto.
              destruct Hx' as [->|Hx'].
              - assert (Vx : V e) by eauto. specialize (Ve2 Vx).
                destruct Ve2 as [?|N]; [tauto|]. right. right. split; auto. intros Ho. apply N, L4. auto.
              - destruct (L7 x e Hx' He) as [?|J]; [tauto|].
                assert (Vx : V e) by eauto. specialize (Ve Vx). tauto. }
          * pose proof (outside_drop s s1 d (inv_subV s L1) (inv_subV s1 Hi1) Vd H1 Hb) as O.
            assert (length dn' <= length Vl)%nat.
            { apply sub_length; auto. intros x Hx. apply Hdn' in Hx. destruct Hx; auto. }
            unfold fuel_need in *. nia.
          * exists s', o'. split; auto. split; auto. congruence.
    Qed.
  End Loop.

  Lemma mark_failure_spec pick fuel s n : V n -> B n -> NoDup (up n) -> NoDup Vl ->
    (forall a b, V a -> V b -> (In b (down a) <-> In a (up b))) ->
    (length Vl * (length Vl + 1) + length Vl <= fuel)%nat ->
    inv s -> (forall u, In u (up n) -> In u (surface s)) -> keep s ->
    exists s' orph, mark_failure eqb up down pick fuel s n = Ok (s', orph) /\
      inv s' /\ keep s' /\ NoDup orph /\
      (forall x, In x orph -> V x /\ below (fun a => ~ In a (boundary s)) n x /\ ~ In x (boundary s) /\ x <> n) /\
      (forall x, In x (boundary s') -> x = n \/ In x (boundary s) \/ In x orph) /\
      (forall x, x = n \/ In x orph -> forall d, In d (down x) -> d = n \/ In d (boundary s) \/ In d orph) /\
      (forall x, x = n \/ In x (boundary s) \/ In x orph -> ~ In x (boundary s') ->
         (x = n /\ up n = []) \/
         (exists u, In u (up n) /\ In x (down u)) /\ forall v, In v (up x) -> ~ In v (surface s')).
  Proof.
    intros Vn Bn Nn NV dual Hf Hi Hu Hk. unfold mark_failure.
    assert (F : forallb (in_surface eqb s) (up n) = true).
    { apply forallb_forall. intros u Hu'. apply in_surface_iff; eauto. }
    rewrite F. cbn [negb].
    set (s1 := Surf (surface s) (sadd eqb n (boundary s))).
    assert (bV : forall x, In x (boundary s) -> V x) by (intros x Hx; apply Hi; auto).
    assert (Hb1 : forall x, In x (boundary s1) <-> x = n \/ In x (boundary s))
      by (intros x; apply (in_sadd eqb Vp eqb_ok); auto).
    assert (Hi1 : inv s1).
    { split; [apply Hi|]. intros x Hx. apply Hb1 in Hx. destruct Hx as [->|Hx]; auto. apply Hi; auto. }
    assert (dV : forall x, In x (down n) -> V x) by eauto.
    assert (Hdd : forall x, In x (dedup eqb (down n)) <-> In x (down n))
      by (intros x; apply (in_dedup eqb Vp eqb_ok); auto).
    destruct (orphan_loop_spec pick n (boundary s1) dual NV fuel s1 (dedup eqb (down n)) [])
      as [s2 [orph [E [L Es]]]].
    { split; [|split; [|split; [|split; [|split; [|split]]]]]; auto.
      - apply (NoDup_dedup eqb Vp eqb_ok); auto.
      - constructor.
      - intros x. simpl. tauto.
      - intros x [].
      - intros d Hd. apply Hdd in Hd. split; [auto|]. split; [constructor; auto|].
        exists n. split; [apply dual; auto|apply Hb1; auto].
      - intros x d [->|[]] Hd. right. apply Hdd. auto. }
    { assert (length (dedup eqb (down n)) <= length Vl)%nat.
      { apply sub_length; [apply (NoDup_dedup eqb Vp eqb_ok); auto|]. intros x Hx. apply dV, Hdd; auto. }
      assert (outside s1 <= length Vl)%nat.
      { unfold outside. apply filter_length_le'. }
      unfold fuel_need. nia. }
    rewrite E. cbn [bind].
    destruct L as [L1 [_ [L3 [L4 [L5 [_ L7]]]]]].
    assert (Bs2 : forall x, In x (boundary s2) <-> x = n \/ In x (boundary s) \/ In x orph).
    { intros x. rewrite L4, Hb1. tauto. }
    destruct (retire_inv (up n) s2 L1 Nn) as [s3 [E3 [Hi3 [K [R1 [R2 [R3 [R4 R5]]]]]]]].
    { intros u Hu'. rewrite Es. auto. }
    rewrite E3. cbn [bind].
    assert (K3 : keep s3).
    { apply K. intros y d Vy Sy Hd NS NB. rewrite Es. apply (Hk y d); auto. }
    assert (O1 : forall x, In x orph -> V x /\ below (fun a => ~ In a (boundary s)) n x /\ ~ In x (boundary s) /\ x <> n).
    { intros x Hx. destruct (L5 x Hx) as [J1 [J2 J3]]. rewrite Hb1 in J1. split; auto. split; [|tauto].
      clear -J2 Hb1. induction J2; [constructor; auto|]. eapply below_more; eauto.
      rewrite Hb1 in H. tauto. }
    assert (O2 : forall x, x = n \/ In x orph -> forall d, In d (down x) ->
       d = n \/ In d (boundary s) \/ In d orph).
    { intros x Hx d Hd. destruct (L7 x d Hx Hd) as [J|[]]. apply Bs2; auto. }
    destruct (up n) as [|u0 us] eqn:Un.
    - cbn [foldM] in E3. injection E3 as <-. unfold sremove.
      assert (M : mem eqb n (boundary s2) = true).
      { apply (in_boundary_iff s2 n); auto. apply Bs2; auto. }
      rewrite M. cbn [bind]. eexists _, orph. split; [reflexivity|].
      assert (Sd : forall x, In x (sdel eqb n (boundary s2)) <-> In x (boundary s2) /\ x <> n).
      { intros x. apply (in_sdel eqb Vp eqb_ok); auto. intros y Hy. apply L1 in Hy. tauto. }
      split; [|split; [|split; [|split; [|split; [|split]]]]]; auto; cbn [boundary].
      + split; [apply Hi3|]. intros x Hx. apply Sd in Hx. apply Hi3. tauto.
      + intros x Hx. apply Sd in Hx. apply Bs2. tauto.
      + intros x Hx Nx. left. split; auto.
        destruct (eqb x n) eqn:Ex.
        * apply eqb_ok; auto. apply Bs2 in Hx. apply L1 in Hx. tauto.
        * exfalso. apply Nx, Sd. split; [apply Bs2; auto|]. intros ->.
          assert (eqb n n = true) by (apply eqb_ok; auto). congruence.
    - exists s3, orph. split; auto.
      split; [|split; [|split; [|split; [|split; [|split]]]]]; auto.
      + intros x Hx. apply Bs2. auto.
      + intros x Hx Nx. right. apply Bs2 in Hx. split; [apply R4; auto|apply R5; auto].
  Qed.
End SurfFacts.
