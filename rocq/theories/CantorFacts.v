(* cantor_number is injective on non-negative vectors of equal length. *)
From Verif Require Import Py Geom Cantor VecFacts.
Open Scope Z_scope.

(* the simplex volumes, by Pascal's rule *)
Fixpoint vol (d : nat) : nat -> Z :=
  match d with
  | O => fun _ => 1
  | S d' => fix volS (s : nat) : Z :=
      match s with O => 0 | S s' => volS s' + vol d' (S s') end
  end.

Lemma vol_SS d s : vol (S d) (S s) = vol (S d) s + vol d (S s).
Proof. reflexivity. Qed.
Lemma vol_S0 d : vol (S d) 0 = 0.
Proof. reflexivity. Qed.

Lemma rising_left e d : rising e (S d) = e * rising (e + 1) d.
Proof.
  induction d as [|d IH]; [cbn [rising]; change (Z.of_nat 0) with 0; ring|].
  change (rising e (S (S d))) with (rising e (S d) * (e + Z.of_nat (S d))).
  rewrite IH. change (rising (e + 1) (S d)) with (rising (e + 1) d * (e + 1 + Z.of_nat d)).
  replace (e + Z.of_nat (S d)) with (e + 1 + Z.of_nat d) by lia. ring.
Qed.

Lemma rising_vol d s : rising (Z.of_nat s) d = zfact d * vol d s.
Proof.
  revert s; induction d as [|d IHd]; intros s; [reflexivity|].
  induction s as [|s IHs].
  - rewrite rising_left, vol_S0. change (Z.of_nat 0) with 0. ring.
  - rewrite vol_SS.
    change (zfact (S d)) with (Z.of_nat (S d) * zfact d) in *.
    replace (Z.of_nat (S d) * zfact d * (vol (S d) s + vol d (S s)))
      with (Z.of_nat (S d) * zfact d * vol (S d) s + Z.of_nat (S d) * (zfact d * vol d (S s))) by ring.
    rewrite <- IHs, <- IHd.
    rewrite rising_left with (e := Z.of_nat s).
    replace (Z.of_nat s + 1) with (Z.of_nat (S s)) by lia.
    change (rising (Z.of_nat (S s)) (S d))
      with (rising (Z.of_nat (S s)) d * (Z.of_nat (S s) + Z.of_nat d)).
    replace (Z.of_nat (S d)) with (1 + Z.of_nat d) by lia.
    replace (Z.of_nat (S s)) with (1 + Z.of_nat s) by lia. ring.
Qed.

Lemma zfact_pos d : 0 < zfact d.
Proof. induction d as [|d IH]; [simpl; lia|]. change (0 < Z.of_nat (S d) * zfact d). nia. Qed.

Lemma pyramide_vol d s : pyramide_volume d (Z.of_nat s) = vol d s.
Proof.
  unfold pyramide_volume. rewrite rising_vol, Z.mul_comm.
  apply Z.div_mul. pose proof (zfact_pos d). lia.
Qed.

Lemma vol_nonneg d s : 0 <= vol d s.
Proof.
  revert s; induction d as [|d IHd]; intros s; [simpl; lia|].
  induction s as [|s IHs]; [rewrite vol_S0; lia|]. rewrite vol_SS. specialize (IHd (S s)). lia.
Qed.

Lemma vol_mono d s t : (s <= t)%nat -> vol d s <= vol d t.
Proof.
  intros H. induction H as [|t H IH]; [lia|].
  destruct d; [simpl in *; lia|]. rewrite vol_SS. pose proof (vol_nonneg d (S t)). lia.
Qed.

Lemma vol_1 s : vol 1 s = Z.of_nat s.
Proof. induction s as [|s IH]; [reflexivity|]. rewrite vol_SS, IH. simpl vol. lia. Qed.

Lemma zsum_nonneg l : Forall (Z.le 0) l -> 0 <= zsum l.
Proof. induction 1; unfold zsum in *; simpl; lia. Qed.

Lemma cantor_cons x r :
  Forall (Z.le 0) (x :: r) ->
  cantor_rev (x :: r) = vol (S (length r)) (Z.to_nat (zsum (x :: r))) + cantor_rev r.
Proof.
  intros H. pose proof (zsum_nonneg _ H). rewrite <- pyramide_vol. rewrite Z2Nat.id by lia.
  destruct r as [|y r]; [|reflexivity].
  cbn [cantor_rev length]. unfold pyramide_volume. change (zfact 1) with 1. rewrite Z.div_1_r.
  unfold zsum. cbn [rising fold_right]. change (Z.of_nat 0) with 0. lia.
Qed.

Lemma cantor_bounds l :
  Forall (Z.le 0) l ->
  0 <= cantor_rev l < vol (length l) (S (Z.to_nat (zsum l))).
Proof.
  induction l as [|x r IH]; intros H; [simpl; lia|].
  rewrite cantor_cons by auto. simpl length. rewrite vol_SS.
  inversion H as [|? ? Hx Hr]; subst. specialize (IH Hr).
  pose proof (zsum_nonneg _ Hr).
  assert (zsum (x :: r) = x + zsum r) by reflexivity.
  pose proof (vol_nonneg (S (length r)) (Z.to_nat (zsum (x :: r)))).
  assert (vol (length r) (S (Z.to_nat (zsum r))) <= vol (length r) (S (Z.to_nat (zsum (x :: r)))))
    by (apply vol_mono; lia).
  lia.
Qed.

Lemma cantor_rev_inj a b :
  length a = length b -> Forall (Z.le 0) a -> Forall (Z.le 0) b ->
  cantor_rev a = cantor_rev b -> a = b.
Proof.
  revert b; induction a as [|x a IH]; intros [|y b] Hl Ha Hb E; try discriminate; auto.
  simpl in Hl. injection Hl as Hl.
  inversion Ha as [|? ? Hx Ha']; subst. inversion Hb as [|? ? Hy Hb']; subst.
  pose proof (zsum_nonneg _ Ha) as Sa. pose proof (zsum_nonneg _ Hb) as Sb.
  assert (Hs : zsum (x :: a) = zsum (y :: b)).
  { pose proof (cantor_bounds _ Ha) as [_ Ba]. pose proof (cantor_bounds _ Hb) as [_ Bb].
    pose proof (cantor_bounds _ Ha') as [Ca _]. pose proof (cantor_bounds _ Hb') as [Cb _].
    rewrite (cantor_cons _ _ Ha) in *. rewrite (cantor_cons _ _ Hb) in *.
    simpl length in *. rewrite <- Hl in *.
    destruct (Z.lt_trichotomy (zsum (x :: a)) (zsum (y :: b))) as [L|[L|L]]; auto.
    - assert (vol (S (length a)) (S (Z.to_nat (zsum (x :: a))))
              <= vol (S (length a)) (Z.to_nat (zsum (y :: b)))) by (apply vol_mono; lia). lia.
    - assert (vol (S (length a)) (S (Z.to_nat (zsum (y :: b))))
              <= vol (S (length a)) (Z.to_nat (zsum (x :: a)))) by (apply vol_mono; lia). lia. }
  rewrite (cantor_cons _ _ Ha), (cantor_cons _ _ Hb), Hs, Hl in E.
  assert (Ea : a = b) by (apply IH; auto; lia). subst b. f_equal.
  unfold zsum in Hs. simpl in Hs. lia.
Qed.

Lemma cantor_inj a b :
  length a = length b -> Forall (Z.le 0) a -> Forall (Z.le 0) b ->
  cantor_number a = cantor_number b -> a = b.
Proof.
  intros Hl Ha Hb E. unfold cantor_number in E.
  apply cantor_rev_inj in E; rewrite ?rev_length; auto using Forall_rev.
  rewrite <- (rev_involutive a), E. apply rev_involutive.
Qed.
