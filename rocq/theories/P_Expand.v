(* Grid expansion (C46). *)
From Verif Require Import VecFacts Expand.
Open Scope Z_scope.

(* r consists of whole cells of the grid of boxes of the given shape, one of which is at [anchor] *)
Definition on_grid (n : nat) (anchor cell : coord) (r : roi) : Prop :=
  roi_dims n r /\ forall i, (i < n)%nat ->
    exists k m, (offset r)@i = anchor@i + k * cell@i /\ (shape r)@i = m * cell@i /\ 0 <= m.
(* per dimension the interval of r contains the interval of s (for nonempty boxes the same as
   containing all points, see contains_points) *)
Definition contains_box (n : nat) (r s : roi) : Prop :=
  forall i, (i < n)%nat -> (offset r)@i <= (offset s)@i /\
                            (offset s)@i + (shape s)@i <= (offset r)@i + (shape r)@i.
Definition smallest_on_grid (n : nat) (anchor cell : coord) (s r : roi) : Prop :=
  on_grid n anchor cell r /\ contains_box n r s /\
  forall q, on_grid n anchor cell q -> contains_box n q s -> contains_box n q r.

Lemma contains_points n r s : roi_dims n r -> roi_dims n s -> (forall i, (i < n)%nat -> 0 < (shape s)@i) ->
  (contains_box n r s <-> forall p, pt_in p s -> pt_in p r).
Proof.
  intros Dr Ds Pos. split.
  - intros C p [L H]. rewrite (roi_dims_off n s Ds) in L. split; [rewrite (roi_dims_off n r Dr); auto|].
    intros i Hi. specialize (H i Hi). rewrite L in Hi. specialize (C i Hi). lia.
  - intros H i Hi.
    assert (A : pt_in (offset s) s).
    { split; auto. intros j Hj. rewrite (roi_dims_off n s Ds) in Hj. specialize (Pos j Hj). lia. }
    set (last := map (fun j => (offset s)@j + (shape s)@j - 1) (seq 0 n)).
    assert (Ll : length last = n) by (unfold last; rewrite map_length, seq_length; auto).
    assert (Nl : forall j, (j < n)%nat -> last@j = (offset s)@j + (shape s)@j - 1).
    { intros j Hj. unfold last. rewrite (map_nth' _ _ _ O) by (rewrite seq_length; auto). rewrite seq_nth; auto. }
    assert (B : pt_in last s).
    { split; [rewrite Ll, (roi_dims_off n s Ds); auto|]. intros j Hj. rewrite Ll in Hj. rewrite Nl by auto.
      specialize (Pos j Hj). lia. }
    apply H in A. apply H in B. destruct A as [_ A], B as [_ B].
    specialize (A i). specialize (B i). rewrite Ll, Nl in B by auto. rewrite (roi_dims_off n s Ds) in A.
    specialize (A Hi). specialize (B Hi). lia.
Qed.

Lemma floor_le x w : 0 < w -> x / w * w <= x.
Proof. intros. pose proof (Z.mul_div_le x w). lia. Qed.
Lemma floor_max x w k : 0 < w -> k * w <= x -> k * w <= x / w * w.
Proof. intros H L. assert (k <= x / w) by (apply Z.div_le_lower_bound; lia). nia. Qed.
Lemma ceil_ge x w : 0 < w -> x <= - (- x / w) * w.
Proof. intros. pose proof (floor_le (- x) w). lia. Qed.
Lemma ceil_min x w k : 0 < w -> x <= k * w -> - (- x / w) * w <= k * w.
Proof. intros H L. pose proof (floor_max (- x) w (- k)). nia. Qed.
Lemma floor_ceil x y w : 0 < w -> x <= y -> x / w <= - (- y / w).
Proof.
  intros H L. pose proof (floor_le x w H). pose proof (ceil_ge y w H). nia.
Qed.

Ltac vec n := repeat first [rewrite (cadd_nth n) | rewrite (csub_nth n) | rewrite (cmul_nth n) | rewrite (cfloordiv_nth n)
  | rewrite (cneg_nth n)]; auto.
Ltac lens n := repeat first [apply (cadd_len n) | apply (csub_len n) | apply (cmul_len n) | apply (cfloordiv_len n)
  | apply (cneg_len n) | apply (rend_length n)]; auto using (roi_dims_off n), (roi_dims_shape n).

Lemma smallest_spec n (anchor cell : coord) (s r : roi) : roi_dims n s -> roi_dims n r ->
  (forall i, (i < n)%nat -> 0 < cell@i) -> (forall i, (i < n)%nat -> 0 <= (shape s)@i) ->
  (forall i, (i < n)%nat -> (offset r)@i = anchor@i + ((offset s)@i - anchor@i) / cell@i * cell@i) ->
  (forall i, (i < n)%nat -> (offset r)@i + (shape r)@i =
     anchor@i + - (- ((offset s)@i + (shape s)@i - anchor@i) / cell@i) * cell@i) ->
  smallest_on_grid n anchor cell s r.
Proof.
  intros Ds Dr Pos Nn Eo Ee. split; [|split].
  - split; auto. intros i Hi. specialize (Eo i Hi). specialize (Ee i Hi). specialize (Pos i Hi). specialize (Nn i Hi).
    exists (((offset s)@i - anchor@i) / cell@i),
      (- (- ((offset s)@i + (shape s)@i - anchor@i) / cell@i) - ((offset s)@i - anchor@i) / cell@i).
    split; auto. split; [lia|].
    pose proof (floor_ceil ((offset s)@i - anchor@i) ((offset s)@i + (shape s)@i - anchor@i) (cell@i) Pos). lia.
  - intros i Hi. specialize (Eo i Hi). specialize (Ee i Hi). specialize (Pos i Hi).
    pose proof (floor_le ((offset s)@i - anchor@i) (cell@i) Pos).
    pose proof (ceil_ge ((offset s)@i + (shape s)@i - anchor@i) (cell@i) Pos). lia.
  - intros q [Dq Q] C i Hi. specialize (Eo i Hi). specialize (Ee i Hi). specialize (Pos i Hi).
    destruct (Q i Hi) as [k [m [Q1 [Q2 _]]]]. specialize (C i Hi). destruct C as [C1 C2].
    assert (k * cell@i <= ((offset s)@i - anchor@i) / cell@i * cell@i) by (apply floor_max; lia).
    assert (- (- ((offset s)@i + (shape s)@i - anchor@i) / cell@i) * cell@i <= (k + m) * cell@i)
      by (apply ceil_min; lia).
    nia.
Qed.

Section E.
  Variables (n : nat) (sub total read write : roi).
  Hypothesis Ds : roi_dims n sub.
  Hypothesis Dt : roi_dims n total.
  Hypothesis Dr : roi_dims n read.
  Hypothesis Dw : roi_dims n write.
  Let off := csub (cadd (rbegin write) (rbegin total)) (rbegin read).
  Lemma off_len : length off = n.
  Proof. unfold off, rbegin. lens n. Qed.
  Lemma off_nth i : (i < n)%nat -> off@i = (offset write)@i + (offset total)@i - (offset read)@i.
  Proof. intros. unfold off, rbegin. vec n; lens n. Qed.
  Lemma expand_dims : roi_dims n (expand_roi_to_grid sub total read write).
  Proof. pose proof off_len. unfold expand_roi_to_grid. fold off. unfold rbegin. apply roi_dims_mk; lens n. Qed.
  Lemma expand_off i : (i < n)%nat -> (offset (expand_roi_to_grid sub total read write))@i =
    off@i + ((offset sub)@i - off@i) / (shape write)@i * (shape write)@i.
  Proof. intros Hi. pose proof off_len. unfold expand_roi_to_grid. fold off. cbn [offset]. unfold rbegin. vec n; lens n. lia. Qed.
  Lemma expand_end i : (i < n)%nat -> (offset (expand_roi_to_grid sub total read write))@i +
    (shape (expand_roi_to_grid sub total read write))@i =
    off@i + - (- ((offset sub)@i + (shape sub)@i - off@i) / (shape write)@i) * (shape write)@i.
  Proof.
    intros Hi. pose proof off_len. unfold expand_roi_to_grid. fold off. cbn [offset shape]. unfold rbegin.
    vec n; lens n. rewrite (rend_nth n) by auto. lia.
  Qed.
  Lemma request_is_grown : expand_request_roi_to_grid sub total read write =
    grow (expand_roi_to_grid sub total read write) (csub (rbegin write) (rbegin read)) (csub (rend read) (rend write)).
  Proof.
    pose proof off_len. pose proof expand_dims as De.
    assert (D1 : roi_dims n (expand_request_roi_to_grid sub total read write)).
    { unfold expand_request_roi_to_grid. fold off. unfold rbegin. apply roi_dims_mk; lens n. }
    apply (roi_ext n); auto; [apply grow_dims; auto; unfold rbegin; lens n| |].
    - intros i Hi. unfold expand_request_roi_to_grid, grow, rbegin. cbn [offset].
      change (csub (cadd (offset write) (offset total)) (offset read)) with off.
      rewrite (csub_nth n) with (a := offset (expand_roi_to_grid sub total read write)) by (auto; lens n).
      rewrite expand_off by auto. vec n; lens n. lia.
    - intros i Hi. unfold expand_request_roi_to_grid, grow, rbegin. cbn [shape].
      change (csub (cadd (offset write) (offset total)) (offset read)) with off.
      rewrite (csub_nth n) with (a := cadd (rend (expand_roi_to_grid sub total read write)) (csub (rend read) (rend write)))
        by (auto; lens n).
      rewrite (cadd_nth n) with (a := rend (expand_roi_to_grid sub total read write)) by (auto; lens n).
      rewrite (rend_nth n _ i De Hi), expand_end by auto.
      rewrite (csub_nth n) with (a := offset (expand_roi_to_grid sub total read write)) by (auto; lens n).
      rewrite expand_off by auto. vec n; lens n. rewrite !(rend_nth n) by auto. lia.
  Qed.
End E.

(* C46.  The first block's write ROI is write_roi shifted by total_roi.begin - read_roi.begin
   (C05).  Shapes of ROIs are not negative, the cell is not empty. *)
Theorem C46_expand_roi_to_grid : forall n sub total read write,
  roi_dims n sub -> roi_dims n total -> roi_dims n read -> roi_dims n write ->
  (forall i, (i < n)%nat -> 0 < (shape write)@i) -> (forall i, (i < n)%nat -> 0 <= (shape sub)@i) ->
  smallest_on_grid n (offset (rshift write (csub (offset total) (offset read)))) (shape write) sub
    (expand_roi_to_grid sub total read write).
Proof.
  intros n sub total read write Ds Dt Dr Dw Pos Nn.
  assert (Ea : forall i, (i < n)%nat -> (offset (rshift write (csub (offset total) (offset read))))@i =
     (csub (cadd (rbegin write) (rbegin total)) (rbegin read))@i).
  { intros i Hi. rewrite (off_nth n total read write) by auto. cbn [rshift offset]. vec n; lens n. lia. }
  apply smallest_spec; auto using expand_dims.
  - intros i Hi. rewrite Ea by auto. apply (expand_off n); auto.
  - intros i Hi. rewrite Ea by auto. apply (expand_end n); auto.
Qed.
Theorem C46_expand_write_roi_to_grid : forall n r write,
  roi_dims n r -> roi_dims n write ->
  (forall i, (i < n)%nat -> 0 < (shape write)@i) -> (forall i, (i < n)%nat -> 0 <= (shape r)@i) ->
  smallest_on_grid n (repeat 0 n) (shape write) r (expand_write_roi_to_grid r write).
Proof.
  intros n r write Dr Dw Pos Nn.
  assert (Z0 : forall i, (repeat 0 n)@i = 0).
  { intros i. destruct (nth_in_or_default i (repeat 0 n) 0) as [H|H]; auto. apply repeat_spec in H. auto. }
  apply smallest_spec; auto.
  - unfold expand_write_roi_to_grid, rbegin. apply roi_dims_mk; lens n.
  - intros i Hi. rewrite Z0. unfold expand_write_roi_to_grid, rbegin. cbn [offset].
    vec n; lens n. rewrite Z.sub_0_r. lia.
  - intros i Hi. rewrite Z0. unfold expand_write_roi_to_grid, rbegin. cbn [offset shape].
    vec n; lens n. rewrite (rend_nth n), Z.sub_0_r by auto. lia.
Qed.
(* the request ROI: that ROI, grown by the context of a block *)
Theorem C46_expand_request_roi_to_grid : forall n req total read write,
  roi_dims n req -> roi_dims n total -> roi_dims n read -> roi_dims n write ->
  let r := expand_roi_to_grid req total read write in
  let q := expand_request_roi_to_grid req total read write in
  roi_dims n q /\ forall i, (i < n)%nat ->
    (offset q)@i = (offset r)@i - ((offset write)@i - (offset read)@i) /\
    (offset q)@i + (shape q)@i = (offset r)@i + (shape r)@i +
      ((offset read)@i + (shape read)@i - ((offset write)@i + (shape write)@i)).
Proof.
  intros n req total read write Dq Dt Dr Dw r q.
  pose proof (expand_dims n req total read write Dq Dt Dr Dw) as De.
  unfold q. rewrite (request_is_grown n) by auto. fold r. fold r in De.
  split; [apply grow_dims; auto; unfold rbegin; lens n|].
  intros i Hi. unfold grow, rbegin. cbn [offset shape]. vec n; lens n. rewrite !(rend_nth n) by auto. lia.
Qed.
Print Assumptions C46_expand_roi_to_grid.
Print Assumptions C46_expand_write_roi_to_grid.
Print Assumptions C46_expand_request_roi_to_grid.

(* a box that is not aligned, on a grid with an offset *)
Example expand_example :
  expand_roi_to_grid (Roi [4; -3] [3; 1]) (Roi [0; 0] [20; 20]) (Roi [0; 0] [7; 6]) (Roi [1; 2] [5; 2]) = Roi [1; -4] [10; 2] /\
  expand_request_roi_to_grid (Roi [4; -3] [3; 1]) (Roi [0; 0] [20; 20]) (Roi [0; 0] [7; 6]) (Roi [1; 2] [5; 2])
    = Roi [0; -6] [12; 6] /\
  expand_write_roi_to_grid (Roi [4; -3] [3; 1]) (Roi [1; 2] [5; 2]) = Roi [0; -4] [10; 2].
Proof. vm_compute. auto. Qed.
