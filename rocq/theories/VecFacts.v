(* Facts about the list functions of Py.v and the vectors of Geom.v, dimension by dimension. *)
From Coq Require Import FinFun.
From Verif Require Export Py Geom SpecGeom.
Open Scope Z_scope.


Lemma map2_length {A B C} (f : A -> B -> C) a b n :
  length a = n -> length b = n -> length (map2 f a b) = n.
Proof.
  revert b n; induction a as [|x a IH]; intros [|y b] n Ha Hb; simpl in *; try congruence.
  destruct n; [discriminate|]. f_equal. apply IH; congruence.
Qed.

Lemma map2_nth {A B C} (f : A -> B -> C) a b i da db dc :
  (i < length a)%nat -> (i < length b)%nat ->
  nth i (map2 f a b) dc = f (nth i a da) (nth i b db).
Proof.
  revert b i; induction a as [|x a IH]; intros [|y b] [|i] Ha Hb; simpl in *; try lia; auto.
  apply IH; lia.
Qed.

Lemma map_nth' {A B} (f : A -> B) l i da db :
  (i < length l)%nat -> nth i (map f l) db = f (nth i l da).
Proof.
  intros H. rewrite <- (map_nth f). apply nth_indep. now rewrite map_length.
Qed.

Lemma map3_length {A B C D} (f : A -> B -> C -> D) a b c n :
  length a = n -> length b = n -> length c = n -> length (map3 f a b c) = n.
Proof. intros. unfold map3. apply map2_length; auto using map2_length. Qed.

Lemma map4_length {A B C D E} (f : A -> B -> C -> D -> E) a b c d n :
  length a = n -> length b = n -> length c = n -> length d = n ->
  length (map4 f a b c d) = n.
Proof. intros. unfold map4. apply map2_length; auto using map3_length. Qed.

Lemma map3_nth {A B C D} (f : A -> B -> C -> D) a b c i da db dc dd :
  (i < length a)%nat -> (i < length b)%nat -> (i < length c)%nat ->
  nth i (map3 f a b c) dd = f (nth i a da) (nth i b db) (nth i c dc).
Proof.
  revert b c i; unfold map3;
  induction a as [|x a IH]; intros [|y b] [|z c] [|i] Ha Hb Hc; simpl in *; try lia; auto.
  apply IH; lia.
Qed.

Lemma map4_nth {A B C D E} (f : A -> B -> C -> D -> E) a b c d i da db dc dd de :
  (i < length a)%nat -> (i < length b)%nat -> (i < length c)%nat -> (i < length d)%nat ->
  nth i (map4 f a b c d) de = f (nth i a da) (nth i b db) (nth i c dc) (nth i d dd).
Proof.
  revert b c d i; unfold map4, map3;
  induction a as [|x a IH]; intros [|y b] [|z c] [|u d] [|i] Ha Hb Hc Hd; simpl in *;
    try lia; auto.
  apply IH; lia.
Qed.

Lemma nth_ext0 (a b : list Z) n :
  length a = n -> length b = n -> (forall i, (i < n)%nat -> a@i = b@i) -> a = b.
Proof.
  intros Ha Hb H. apply (nth_ext a b 0 0); [congruence|]. intros i Hi. apply H. lia.
Qed.

Lemma all_nth l : all l = true <-> forall i, (i < length l)%nat -> nth i l false = true.
Proof.
  unfold all. rewrite forallb_forall. split.
  - intros H i Hi. apply H. apply nth_In; auto.
  - intros H x Hx. destruct (In_nth _ _ false Hx) as [i [Hi E]]. rewrite <- E. auto.
Qed.

(* py_range *)
Lemma in_py_range lo hi step x :
  0 < step -> In x (py_range lo hi step) <-> exists k, 0 <= k /\ x = lo + k * step /\ x < hi.
Proof.
  intros Hs. unfold py_range. rewrite in_map_iff. split.
  - intros [k [<- Hk]]. apply in_seq in Hk. exists (Z.of_nat k). split; [lia|]. split; [lia|].
    assert (Z.of_nat k < (hi - lo + step - 1) / step) by lia.
    assert ((Z.of_nat k + 1) * step <= hi - lo + step - 1).
    { pose proof (Z.mul_div_le (hi - lo + step - 1) step Hs). nia. }
    nia.
  - intros [k [Hk [-> Hx]]]. exists (Z.to_nat k). split; [rewrite Z2Nat.id; lia|].
    apply in_seq. split; [lia|].
    assert (k < (hi - lo + step - 1) / step).
    { assert (k + 1 <= (hi - lo + step - 1) / step); [|lia].
      apply Z.div_le_lower_bound; nia. }
    lia.
Qed.

Lemma py_range_length lo hi step : 
  length (py_range lo hi step) = Z.to_nat ((hi - lo + step - 1) / step).
Proof. unfold py_range. now rewrite map_length, seq_length. Qed.

Lemma NoDup_py_range lo hi step : 0 < step -> NoDup (py_range lo hi step).
Proof.
  intros Hs. unfold py_range. apply FinFun.Injective_map_NoDup; [|apply seq_NoDup].
  intros a b E. nia.
Qed.

(* product *)
Lemma in_product {A} (d : A) ls x :
  In x (product ls) <->
  length x = length ls /\ forall i, (i < length ls)%nat -> In (nth i x d) (nth i ls []).
Proof.
  revert x; induction ls as [|l ls IH]; intros x; simpl.
  - split.
    + intros [<-|[]]. split; auto. intros; lia.
    + intros [H _]. destruct x; [auto|discriminate].
  - rewrite in_flat_map. split.
    + intros [y [Hy Hx]]. apply in_map_iff in Hx. destruct Hx as [z [<- Hz]].
      apply IH in Hz. destruct Hz as [Hl Hz]. split; [simpl; congruence|].
      intros [|i] Hi; simpl; auto. apply Hz. lia.
    + intros [Hl H]. destruct x as [|y z]; [discriminate|].
      exists y. split; [apply (H 0%nat); lia|]. apply in_map. apply IH.
      split; [simpl in Hl; congruence|]. intros i Hi. apply (H (S i)). lia.
Qed.

Lemma NoDup_app' {A} (a b : list A) :
  NoDup a -> NoDup b -> (forall z, In z a -> ~ In z b) -> NoDup (a ++ b).
Proof.
  induction a as [|z a IHa]; intros Ha Hb Hd; simpl; auto.
  inversion Ha; subst. constructor.
  - rewrite in_app_iff. intros [|]; [tauto|]. apply (Hd z); [left|]; auto.
  - apply IHa; auto. intros. apply Hd. right; auto.
Qed.

Lemma NoDup_product {A} (ls : list (list A)) :
  (forall l, In l ls -> NoDup l) -> NoDup (product ls).
Proof.
  induction ls as [|l ls IH]; intros H; simpl.
  - constructor; [intros []|constructor].
  - assert (Hl : NoDup l) by (apply H; left; auto).
    assert (Hp : NoDup (product ls)) by (apply IH; intros; apply H; right; auto).
    clear H IH. induction Hl as [|x l Hx Hl IH]; simpl; [constructor|].
    apply NoDup_app'.
    + apply FinFun.Injective_map_NoDup; auto. intros a b E. congruence.
    + exact IH.
    + intros z Hz Hz'. apply in_map_iff in Hz. destruct Hz as [a [<- Ha]].
      apply in_flat_map in Hz'. destruct Hz' as [y [Hy Hz']].
      apply in_map_iff in Hz'. destruct Hz' as [b [E _]]. inversion E; subst. auto.
Qed.

Lemma product_length {A} (ls : list (list A)) :
  length (product ls) = fold_right Nat.mul 1%nat (map (@length A) ls).
Proof.
  induction ls as [|l ls IH]; simpl; auto.
  rewrite <- IH. generalize (product ls). intros p. induction l as [|x l IHl]; simpl; auto.
  rewrite app_length, map_length. rewrite IHl. reflexivity.
Qed.

(* mapM, foldM *)
Lemma mapM_ok {A B} (f : A -> res B) (g : A -> B) l :
  (forall a, In a l -> f a = Ok (g a)) -> mapM f l = Ok (map g l).
Proof.
  induction l as [|a l IH]; intros H; simpl; auto.
  rewrite H by (left; auto). simpl. rewrite IH; [reflexivity|]. intros; apply H; right; auto.
Qed.

Lemma foldM_app {A S} (f : S -> A -> res S) l1 l2 s :
  foldM f (l1 ++ l2) s = bind (foldM f l1 s) (foldM f l2).
Proof.
  revert s; induction l1 as [|a l1 IH]; intros s; simpl; auto.
  destruct (f s a); simpl; auto.
Qed.

Lemma coord_eqb_eq a b : coord_eqb a b = true <-> a = b.
Proof.
  revert b; induction a as [|x a IH]; intros [|y b]; simpl; split; intros H; try discriminate; auto.
  - apply andb_true_iff in H. destruct H as [H1 H2]. apply Z.eqb_eq in H1. apply IH in H2. congruence.
  - inversion H; subst. rewrite Z.eqb_refl. apply IH. reflexivity.
Qed.

(* Roi predicates, dimension by dimension *)

Lemma rend_length n r : roi_dims n r -> length (rend r) = n.
Proof. intros [H1 H2]. unfold rend, cadd. apply map2_length; auto. Qed.

Lemma rend_nth n r i : roi_dims n r -> (i < n)%nat -> (rend r)@i = (offset r)@i + (shape r)@i.
Proof. intros [H1 H2] Hi. unfold rend, cadd. apply map2_nth; lia. Qed.

Lemma contains_pt_spec n r p :
  roi_dims n r -> length p = n ->
  contains_pt r p = true <->
  forall i, (i < n)%nat -> (offset r)@i <= p@i < (offset r)@i + (shape r)@i.
Proof.
  intros Hr Hp. unfold contains_pt. rewrite all_nth.
  rewrite (map3_length _ _ _ _ n); auto; [|apply Hr|apply rend_length; auto].
  assert (E : forall i, (i < n)%nat ->
     nth i (map3 (fun x b e => (b <=? x) && (x <? e)) p (rbegin r) (rend r)) false =
     (((offset r)@i <=? p@i) && (p@i <? (offset r)@i + (shape r)@i))).
  { intros i Hi. rewrite (map3_nth _ _ _ _ i 0 0 0).
    - rewrite (rend_nth n) by auto. reflexivity.
    - lia.
    - destruct Hr. unfold rbegin. lia.
    - rewrite (rend_length n) by auto. lia. }
  split; intros H i Hi; specialize (H i Hi); rewrite E in *; auto; lia.
Qed.

Lemma rempty_false n r :
  roi_dims n r -> rempty r = false <-> forall i, (i < n)%nat -> (shape r)@i <> 0.
Proof.
  intros [H1 H2]. unfold rempty. split.
  - intros H i Hi E. assert (existsb (Z.eqb 0) (shape r) = true); [|congruence].
    apply existsb_exists. exists ((shape r)@i). split; [apply nth_In; lia|]. lia.
  - intros H. destruct (existsb (Z.eqb 0) (shape r)) eqn:E; auto.
    apply existsb_exists in E. destruct E as [x [Hx E]].
    destruct (In_nth _ _ 0 Hx) as [i [Hi Ei]]. exfalso. apply (H i); lia.
Qed.

Lemma contains_roi_spec n r o :
  roi_dims n r -> roi_dims n o -> (forall i, (i < n)%nat -> 0 < (shape o)@i) ->
  contains_roi r o = true <->
  forall i, (i < n)%nat ->
    (offset r)@i <= (offset o)@i /\ (offset o)@i + (shape o)@i <= (offset r)@i + (shape r)@i.
Proof.
  intros Hr Ho Hp. unfold contains_roi.
  assert (E : rempty o = false) by (apply (rempty_false n); auto; intros i Hi; specialize (Hp i Hi); lia).
  rewrite E. rewrite andb_true_iff.
  rewrite (contains_pt_spec n) by (auto; apply Ho).
  rewrite (contains_pt_spec n); auto; [|rewrite map_length; apply rend_length; auto].
  split.
  - intros [H1 H2] i Hi. specialize (H1 i Hi). specialize (H2 i Hi). unfold rbegin in *.
    rewrite (map_nth' _ _ _ 0) in H2 by (rewrite (rend_length n); auto).
    rewrite (rend_nth n) in H2 by auto. lia.
  - intros H. split; intros i Hi; specialize (H i Hi); specialize (Hp i Hi); unfold rbegin.
    + lia.
    + rewrite (map_nth' _ _ _ 0) by (rewrite (rend_length n); auto).
      rewrite (rend_nth n) by auto. lia.
Qed.

(* For ROIs of non-negative shape: intersects iff they share a point. *)
Lemma intersects_spec n a b :
  roi_dims n a -> roi_dims n b ->
  (forall i, (i < n)%nat -> 0 <= (shape a)@i) -> (forall i, (i < n)%nat -> 0 <= (shape b)@i) ->
  intersects a b = true <->
  forall i, (i < n)%nat -> 0 < (shape a)@i /\ 0 < (shape b)@i /\
    (offset a)@i < (offset b)@i + (shape b)@i /\ (offset b)@i < (offset a)@i + (shape a)@i.
Proof.
  intros Ha Hb Pa Pb. unfold intersects.
  destruct (rempty a) eqn:Ea; [|destruct (rempty b) eqn:Eb]; cbn [orb].
  - split; [discriminate|]. intros H. 
    assert (rempty a = false); [|congruence].
    apply (rempty_false n); auto. intros i Hi. specialize (H i Hi). lia.
  - split; [discriminate|]. intros H. 
    assert (rempty b = false); [|congruence].
    apply (rempty_false n); auto. intros i Hi. specialize (H i Hi). lia.
  - rewrite (rempty_false n) in Ea, Eb by auto.
    set (l := map4 _ _ _ _ _).
    assert (Ll : length l = n).
    { apply map4_length; try apply rend_length; auto; try apply Ha; apply Hb. }
    assert (Ln : forall i, (i < n)%nat -> nth i l false =
        (((offset b)@i + (shape b)@i <=? (offset a)@i) || ((offset a)@i + (shape a)@i <=? (offset b)@i))).
    { intros i Hi. unfold l. rewrite (map4_nth _ _ _ _ _ i 0 0 0 0);
      rewrite ?(rend_length n) by auto; unfold rbegin; try (destruct Ha, Hb; lia).
      rewrite !(rend_nth n) by auto. reflexivity. }
    rewrite negb_true_iff. split.
    + intros H i Hi. specialize (Ea i Hi). specialize (Eb i Hi). specialize (Pa i Hi). specialize (Pb i Hi).
      split; [lia|]. split; [lia|].
      destruct (nth i l false) eqn:E.
      * assert (existsb (fun x => x) l = true); [|congruence].
        apply existsb_exists. exists true. split; auto. rewrite <- E. apply nth_In. lia.
      * rewrite Ln in E by auto. lia.
    + intros H. destruct (existsb (fun x => x) l) eqn:E; auto.
      apply existsb_exists in E. destruct E as [x [Hx ->]].
      destruct (In_nth _ _ false Hx) as [i [Hi Ei]]. rewrite Ln in Ei by lia.
      specialize (H i ltac:(lia)). lia.
Qed.

Lemma intersect_dims n a b : roi_dims n a -> roi_dims n b -> roi_dims n (intersect a b).
Proof.
  intros [A1 A2] [B1 B2]. unfold intersect, cmax, csub, cmin, rbegin, rend, cadd.
  destruct (intersects a b); split; simpl; rewrite ?map_length; auto;
    repeat apply map2_length; auto.
Qed.

Lemma intersect_nth n a b i :
  roi_dims n a -> roi_dims n b -> intersects a b = true -> (i < n)%nat ->
  (offset (intersect a b))@i = Z.max ((offset a)@i) ((offset b)@i) /\
  (shape (intersect a b))@i =
    Z.min ((offset a)@i + (shape a)@i) ((offset b)@i + (shape b)@i)
    - Z.max ((offset a)@i) ((offset b)@i).
Proof.
  intros Ha Hb H Hi. unfold intersect. rewrite H. simpl.
  pose proof (rend_length n a Ha). pose proof (rend_length n b Hb).
  destruct Ha as [A1 A2], Hb as [B1 B2].
  unfold rbegin, csub, cmin, cmax.
  rewrite !(map2_nth _ _ _ i 0 0) by (rewrite ?(map2_length _ _ _ n); lia || auto).
  rewrite !(rend_nth n) by (try split; auto). auto.
Qed.

Lemma intersect_empty_nth n a b i :
  roi_dims n a -> intersects a b = false -> (i < n)%nat ->
  (offset (intersect a b))@i = 0 /\ (shape (intersect a b))@i = 0.
Proof.
  intros [A1 A2] H Hi. unfold intersect. rewrite H. simpl.
  rewrite (map_nth' _ _ _ 0) by lia. auto.
Qed.

Lemma grow_dims n r a b :
  roi_dims n r -> length a = n -> length b = n -> roi_dims n (grow r a b).
Proof.
  intros [H1 H2] Ha Hb. unfold grow, rbegin, rend, csub, cadd. split; simpl;
  repeat apply map2_length; auto.
Qed.

Lemma grow_nth n r a b i :
  roi_dims n r -> length a = n -> length b = n -> (i < n)%nat ->
  (offset (grow r a b))@i = (offset r)@i - a@i /\
  (shape (grow r a b))@i = (shape r)@i + a@i + b@i.
Proof.
  intros Hr Ha Hb Hi. pose proof (rend_length n r Hr) as He.
  assert (E := rend_nth n r i Hr Hi). destruct Hr as [H1 H2].
  unfold grow, rbegin. simpl. unfold csub, cadd in *.
  rewrite !(map2_nth _ _ _ i 0 0) by (rewrite ?(map2_length _ _ _ n); lia || auto).
  rewrite E. lia.
Qed.

Lemma roi_ext n a b :
  roi_dims n a -> roi_dims n b ->
  (forall i, (i < n)%nat -> (offset a)@i = (offset b)@i) ->
  (forall i, (i < n)%nat -> (shape a)@i = (shape b)@i) -> a = b.
Proof.
  intros [A1 A2] [B1 B2] Ho Hs. destruct a as [ao as_], b as [bo bs]; simpl in *.
  f_equal; eapply nth_ext0; eauto.
Qed.

(* Elementwise operations *)
Section Elementwise.
  Variables (n : nat) (a b : coord) (i : nat).
  Hypotheses (Ha : length a = n) (Hb : length b = n) (Hi : (i < n)%nat).
  Lemma cadd_nth : (cadd a b)@i = a@i + b@i. Proof. apply map2_nth; lia. Qed.
  Lemma csub_nth : (csub a b)@i = a@i - b@i. Proof. apply map2_nth; lia. Qed.
  Lemma cmul_nth : (cmul a b)@i = a@i * b@i. Proof. apply map2_nth; lia. Qed.
  Lemma cmod_nth : (cmod a b)@i = a@i mod b@i. Proof. apply map2_nth; lia. Qed.
  Lemma cfloordiv_nth : (cfloordiv a b)@i = a@i / b@i. Proof. apply map2_nth; lia. Qed.
  Lemma ctruediv_nth : (ctruediv a b)@i = Z.quot (a@i) (b@i). Proof. apply map2_nth; lia. Qed.
  Lemma cmin_nth : (cmin a b)@i = Z.min (a@i) (b@i). Proof. apply map2_nth; lia. Qed.
  Lemma cmax_nth : (cmax a b)@i = Z.max (a@i) (b@i). Proof. apply map2_nth; lia. Qed.
End Elementwise.
Section Lengths.
  Variables (n : nat) (a b : coord).
  Hypotheses (Ha : length a = n) (Hb : length b = n).
  Lemma cadd_len : length (cadd a b) = n. Proof. apply map2_length; auto. Qed.
  Lemma csub_len : length (csub a b) = n. Proof. apply map2_length; auto. Qed.
  Lemma cmul_len : length (cmul a b) = n. Proof. apply map2_length; auto. Qed.
  Lemma cmod_len : length (cmod a b) = n. Proof. apply map2_length; auto. Qed.
  Lemma cfloordiv_len : length (cfloordiv a b) = n. Proof. apply map2_length; auto. Qed.
  Lemma ctruediv_len : length (ctruediv a b) = n. Proof. apply map2_length; auto. Qed.
  Lemma cmin_len : length (cmin a b) = n. Proof. apply map2_length; auto. Qed.
  Lemma cmax_len : length (cmax a b) = n. Proof. apply map2_length; auto. Qed.
End Lengths.
Lemma cneg_nth n a i : length a = n -> (i < n)%nat -> (cneg a)@i = - a@i.
Proof. intros. unfold cneg. apply map_nth'. lia. Qed.
Lemma cneg_len n a : length a = n -> length (cneg a) = n.
Proof. unfold cneg. now rewrite map_length. Qed.

Global Hint Resolve cadd_len csub_len cmul_len cmod_len cfloordiv_len ctruediv_len cmin_len
  cmax_len cneg_len rend_length intersect_dims grow_dims : vec.

Lemma roi_dims_off n r : roi_dims n r -> length (offset r) = n. Proof. intros []; auto. Qed.
Lemma roi_dims_shape n r : roi_dims n r -> length (shape r) = n. Proof. intros []; auto. Qed.
Lemma roi_dims_mk n o s : length o = n -> length s = n -> roi_dims n (Roi o s).
Proof. split; auto. Qed.
Global Hint Resolve roi_dims_off roi_dims_shape roi_dims_mk : vec.

(* lists as sets *)
Section SetFacts.
  Context {A : Type} (eqb : A -> A -> bool).
  (* [eqb] decides equality on the elements considered *)
  Definition eqb_on (P : A -> Prop) : Prop :=
    forall x y, P x -> P y -> (eqb x y = true <-> x = y).

  Variable P : A -> Prop.
  Hypothesis HP : eqb_on P.

  Lemma mem_in x l : P x -> (forall y, In y l -> P y) -> (mem eqb x l = true <-> In x l).
  Proof.
    intros Hx Hl. unfold mem. rewrite existsb_exists. split.
    - intros [y [Hy E]]. apply HP in E; auto. congruence.
    - intros H. exists x. split; auto. apply HP; auto.
  Qed.

  Lemma mem_nin x l : P x -> (forall y, In y l -> P y) -> (mem eqb x l = false <-> ~ In x l).
  Proof.
    intros Hx Hl. rewrite <- (mem_in x l Hx Hl). destruct (mem eqb x l); split; congruence || tauto.
  Qed.

  Lemma in_sadd x y l : P x -> (forall y, In y l -> P y) -> (In y (sadd eqb x l) <-> y = x \/ In y l).
  Proof.
    intros Hx Hl. unfold sadd. destruct (mem eqb x l) eqn:E.
    - apply mem_in in E; auto. split; auto. intros [->|]; auto.
    - rewrite in_app_iff. simpl. firstorder.
  Qed.

  Lemma NoDup_sadd x l : P x -> (forall y, In y l -> P y) -> NoDup l -> NoDup (sadd eqb x l).
  Proof.
    intros Hx Hl Hn. unfold sadd. destruct (mem eqb x l) eqn:E; auto.
    apply mem_nin in E; auto. apply NoDup_app'; auto.
    - constructor; [intros []|constructor].
    - intros z Hz [<-|[]]. auto.
  Qed.

  Lemma in_sdel x y l : P x -> (forall y, In y l -> P y) -> (In y (sdel eqb x l) <-> In y l /\ y <> x).
  Proof.
    intros Hx Hl. unfold sdel. rewrite filter_In. rewrite negb_true_iff. split.
    - intros [H E]. split; auto. intros ->. assert (eqb x x = true) by (apply HP; auto). congruence.
    - intros [H E]. split; auto. destruct (eqb x y) eqn:F; auto. apply HP in F; auto. congruence.
  Qed.

  Lemma NoDup_sdel x l : NoDup l -> NoDup (sdel eqb x l).
  Proof. apply NoDup_filter. Qed.

  Lemma dedup_acc_spec l : forall acc,
    (forall y, In y acc -> P y) -> (forall y, In y l -> P y) ->
    (forall y, In y (dedup_acc eqb acc l) <-> In y acc \/ In y l) /\
    (NoDup acc -> NoDup (dedup_acc eqb acc l)).
  Proof.
    induction l as [|x l IH]; intros acc Ha Hl; simpl; [firstorder|].
    assert (Hx : P x) by (apply Hl; left; auto).
    assert (Hs : forall y, In y (sadd eqb x acc) -> P y).
    { intros y Hy. apply in_sadd in Hy; auto. destruct Hy as [->|]; auto. }
    destruct (IH (sadd eqb x acc) Hs ltac:(intros; apply Hl; right; auto)) as [I1 I2].
    split.
    - intros y. rewrite I1, in_sadd; auto. intuition.
    - intros Hn. apply I2. apply NoDup_sadd; auto.
  Qed.

  Lemma in_dedup l y : (forall y, In y l -> P y) -> (In y (dedup eqb l) <-> In y l).
  Proof.
    intros Hl. unfold dedup. destruct (dedup_acc_spec l [] ltac:(intros ? []) Hl) as [I _].
    rewrite I. simpl. tauto.
  Qed.
  Lemma NoDup_dedup l : (forall y, In y l -> P y) -> NoDup (dedup eqb l).
  Proof.
    intros Hl. unfold dedup. destruct (dedup_acc_spec l [] ltac:(intros ? []) Hl) as [_ I].
    apply I. constructor.
  Qed.

  Lemma in_sminus y s t :
    (forall y, In y s -> P y) -> (forall y, In y t -> P y) ->
    (In y (sminus eqb s t) <-> In y s /\ ~ In y t).
  Proof.
    intros Hs Ht. unfold sminus. rewrite filter_In, negb_true_iff. split.
    - intros [H E]. split; auto. apply mem_nin in E; auto.
    - intros [H E]. split; auto. apply mem_nin; auto.
  Qed.
  Lemma NoDup_sminus s t : NoDup s -> NoDup (sminus eqb s t).
  Proof. apply NoDup_filter. Qed.

  Lemma in_sunion y s t :
    (forall y, In y s -> P y) -> (forall y, In y t -> P y) ->
    (In y (sunion eqb s t) <-> In y s \/ In y t).
  Proof. intros Hs Ht. unfold sunion. apply dedup_acc_spec; auto. Qed.
  Lemma NoDup_sunion s t :
    (forall y, In y s -> P y) -> (forall y, In y t -> P y) -> NoDup s -> NoDup (sunion eqb s t).
  Proof. intros Hs Ht. unfold sunion. apply dedup_acc_spec; auto. Qed.
End SetFacts.
