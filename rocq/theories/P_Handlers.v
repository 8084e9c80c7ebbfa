(* C84: what a CLMonitor does to logging (cl_monitor.py:8-26, 54-75).  The claims speak about what the handlers write
   ([call_handlers]) before and after any number of monitors. *)
From Verif Require Import Handlers.
From Coq Require Import Lia.
From Coq Require String.
Import ListNotations.
Open Scope Z_scope.

Section Claims.
  Context {R : Type} (u : user R) (levelno : R -> Z) (lim : nat).
  Definition on_tty (i : nat) : bool := match u_stream u i with Some _ => u_tty u i | None => false end.
  Fixpoint wrapped_times (n : nat) (h : handler) : handler := match n with O => h | S n => Wrapped (wrapped_times n h) end.
  (* the handlers after n monitors *)
  Definition after (n : nat) (is : list nat) : list handler :=
    map (fun i => if on_tty i then wrapped_times n (Plain i) else Plain i) is.

  Lemma wt_base n i : base (wrapped_times n (Plain i)) = i.
  Proof. induction n; simpl; auto. Qed.
  Lemma wt_depth n i : depth (wrapped_times n (Plain i)) = n.
  Proof. induction n; simpl; auto. Qed.
  Lemma wt_S n h : wrapped_times n (Wrapped h) = Wrapped (wrapped_times n h).
  Proof. induction n; simpl; congruence. Qed.

  Lemma wrap_after n is : (n <= lim)%nat -> wrap u lim (after n is) = inl (after (S n) is).
  Proof.
    intros H. induction is as [|i is IH]; [reflexivity|].
    change (after n (i :: is)) with ((if on_tty i then wrapped_times n (Plain i) else Plain i) :: after n is).
    simpl wrap. rewrite IH. unfold is_tty, attr. fold on_tty.
    destruct (on_tty i) eqn:E; cbn [after map]; rewrite ?E.
    - rewrite wt_depth, wt_base. destruct (Nat.leb_spec n lim); [|lia]. unfold on_tty in E. rewrite E. reflexivity.
    - simpl. unfold on_tty in E. rewrite E. reflexivity.
  Qed.
  Lemma monitors_after m : forall n is, (n + m <= S lim)%nat -> monitors u lim m (after n is) = inl (after (n + m) is).
  Proof.
    induction m as [|m IH]; intros n is H; simpl; [now rewrite Nat.add_0_r|].
    rewrite wrap_after by lia. rewrite IH by lia. f_equal. f_equal. lia.
  Qed.
  Lemma after_0 is : after 0 is = map Plain is.
  Proof. apply map_ext. intros i. simpl. now destruct (on_tty i). Qed.

  (* the user's handlers are those of the standard library, and the record can be formatted *)
  Definition ordinary (is : list nat) (r : R) : Prop :=
    forall i, In i is -> on_tty i = true -> u_term u i = newline /\ u_format u i r <> None.

  Lemma same_after n is r : (n <= lim)%nat -> ordinary is r ->
    call_handlers u levelno lim (after n is) r = call_handlers u levelno lim (after 0 is) r.
  Proof.
    intros H. induction is as [|i is IH]; intros O; [reflexivity|].
    assert (IH' := IH (fun j J => O j (or_intror J))).
    change (after n (i :: is)) with ((if on_tty i then wrapped_times n (Plain i) else Plain i) :: after n is).
    change (after 0 (i :: is)) with ((if on_tty i then Plain i else Plain i) :: after 0 is).
    simpl call_handlers. rewrite IH'. destruct (on_tty i) eqn:E; [|reflexivity].
    destruct (O i (or_introl eq_refl) E) as [T F].
    unfold attr. rewrite wt_depth, wt_base. simpl. destruct (Nat.leb_spec n lim); [|lia].
    destruct (u_level u i <=? levelno r); [|reflexivity].
    replace (handle u lim (wrapped_times n (Plain i)) r) with (handle u lim (Plain i) r); [reflexivity|].
    unfold handle, attr. rewrite wt_depth, wt_base. simpl. destruct (Nat.leb_spec n lim); [|lia].
    destruct (u_filter u i r); [|reflexivity].
    destruct n as [|n]; [reflexivity|]. simpl. unfold attr. rewrite wt_depth, wt_base.
    destruct (Nat.leb_spec n lim); [|lia].
    unfold on_tty in E. destruct (u_stream u i); [|discriminate].
    destruct (u_format u i r); [|congruence]. now rewrite T.
  Qed.

  (* C84: n monitors leave what is logged as it was: same texts, same order, each once, nothing raised *)
  Theorem C84_same_partial : forall n is r, (n <= lim)%nat -> ordinary is r ->
    exists hs, monitors u lim n (map Plain is) = inl hs /\ List.length hs = List.length is /\
      call_handlers u levelno lim hs r = call_handlers u levelno lim (map Plain is) r.
  Proof.
    intros n is r H O. exists (after n is). rewrite <- after_0. split; [|split].
    - rewrite (monitors_after n 0 is) by lia. reflexivity.
    - unfold after. now rewrite map_length.
    - now apply same_after.
  Qed.

  (* what handler i is expected to do with a record *)
  Definition expected (r : R) (i : nat) : list effect :=
    if (u_level u i <=? levelno r) && u_filter u i r then
      match u_stream u i, u_format u i r with
      | None, _ => [Passed i]
      | Some _, Some m => [Wrote i (String.append m (u_term u i))]
      | Some _, None => [Complained i]
      end
    else [].
  (* C84: every handler the record is meant for gets it once, in the order of the handlers, whatever the number of monitors *)
  Theorem C84_written_partial : forall n is r, (n <= lim)%nat -> ordinary is r ->
    exists hs, monitors u lim n (map Plain is) = inl hs /\
      call_handlers u levelno lim hs r = (flat_map (expected r) is, None).
  Proof.
    intros n is r H O. destruct (C84_same_partial n is r H O) as (hs & M & _ & C). exists hs. split; [exact M|]. rewrite C.
    clear - is. induction is as [|i is IH]; [reflexivity|]. cbn [map call_handlers flat_map]. rewrite IH.
    unfold expected at 2. unfold attr, handle, attr. cbn [depth base Nat.leb emit].
    destruct (u_level u i <=? levelno r); [|reflexivity]. simpl. destruct (u_filter u i r); [|reflexivity].
    destruct (u_stream u i); [|reflexivity]. now destruct (u_format u i r).
  Qed.

  (* C84: handlers that do not write to a terminal are left alone *)
  Theorem C84_others : forall n is k i hs, monitors u lim n (map Plain is) = inl hs ->
    nth_error is k = Some i -> on_tty i = false -> nth_error hs k = Some (Plain i).
  Proof.
    assert (W : forall k i hs hs', on_tty i = false -> wrap u lim hs = inl hs' -> nth_error hs k = Some (Plain i) ->
      nth_error hs' k = Some (Plain i)).
    { intros k i. induction k as [|k IH]; intros [|h hs] hs' E M N; try discriminate N; simpl in M;
        destruct (is_tty u lim h) as [t|] eqn:T; try discriminate M; destruct (wrap u lim hs) as [r|] eqn:Q; try discriminate M;
        injection M as <-; simpl in N |- *.
      - injection N as ->. unfold is_tty, attr in T. simpl in T. unfold on_tty in E. rewrite E in T. now injection T as <-.
      - now apply (IH hs). }
    intros n is k i hs M N E. assert (N' : nth_error (map Plain is) k = Some (Plain i)) by now apply map_nth_error.
    revert M N'. generalize (map Plain is) as l. induction n as [|n IH]; intros l M N'; simpl in M; [congruence|].
    destruct (wrap u lim l) as [l'|] eqn:Q; [|discriminate]. apply (IH l' M). now apply (W k i l l').
  Qed.

  (* C84: once python's limit is passed, logging raises, and so does the next monitor *)
  Theorem C84_limit_refuted : forall i r, on_tty i = true ->
    exists hs, monitors u lim (S lim) [Plain i] = inl hs /\
      call_handlers u levelno lim hs r = ([], Some RecursionErr) /\
      forall m, monitors u lim (S lim + S m) [Plain i] = inr RecursionErr.
  Proof.
    intros i r E. assert (D : forall A (f : nat -> A), attr lim (wrapped_times (S lim) (Plain i)) f = inr RecursionErr).
    { intros. unfold attr. rewrite wt_depth. destruct (Nat.leb_spec (S lim) lim); [lia|reflexivity]. }
    assert (A : after (S lim) [i] = [wrapped_times (S lim) (Plain i)]) by (unfold after; simpl map; now rewrite E).
    assert (B : forall a b hs, monitors u lim (a + b) hs = match monitors u lim a hs with inl h => monitors u lim b h | inr e => inr e end).
    { induction a; intros; simpl; [reflexivity|]. destruct (wrap u lim hs); auto. }
    exists (after (S lim) [i]).
    assert (M : monitors u lim (S lim) [Plain i] = inl (after (S lim) [i])).
    { change [Plain i] with (map Plain [i]). rewrite <- after_0. apply (monitors_after (S lim) 0). lia. }
    split; [exact M|]. split.
    - rewrite A. cbn [call_handlers]. now rewrite D.
    - intros m. rewrite B, M, A. cbn [monitors wrap]. unfold is_tty. now rewrite D.
  Qed.

  (* C84: a record that cannot be formatted: reported by logging without a monitor, raised in the caller with one, and then
     the handlers that follow do not get the record *)
  Theorem C84_format_refuted : forall i j r, on_tty i = true -> u_format u i r = None ->
    u_level u i <= levelno r -> u_filter u i r = true ->
    fst (call_handlers u levelno lim [Plain i; Plain j] r) = Complained i :: fst (call_handlers u levelno lim [Plain j] r) /\
    snd (call_handlers u levelno lim [Plain i; Plain j] r) = snd (call_handlers u levelno lim [Plain j] r) /\
    forall n, (S n <= lim)%nat -> exists hs, monitors u lim (S n) [Plain i; Plain j] = inl hs /\
      call_handlers u levelno lim hs r = ([], Some FormatErr).
  Proof.
    intros i j r E F L Fi.
    assert (Hi : call_handlers u levelno lim [Plain i; Plain j] r =
      (Complained i :: fst (call_handlers u levelno lim [Plain j] r), snd (call_handlers u levelno lim [Plain j] r))).
    { remember [Plain j] as tl. cbn [call_handlers]. unfold attr, handle, attr. simpl depth. simpl base. cbn [Nat.leb].
      apply Z.leb_le in L. rewrite L, Fi. simpl emit. unfold on_tty in E. destruct (u_stream u i); [|discriminate].
      rewrite F. destruct (call_handlers u levelno lim tl r). reflexivity. }
    rewrite Hi. split; [reflexivity|]. split; [reflexivity|]. intros n H.
    exists (after (S n) [i; j]). split.
    - change [Plain i; Plain j] with (map Plain [i; j]). rewrite <- after_0. apply (monitors_after (S n) 0). lia.
    - unfold after. cbn [map]. rewrite E. cbn [call_handlers]. unfold attr. rewrite wt_depth, wt_base.
      destruct (Nat.leb_spec (S n) lim); [|lia]. apply Z.leb_le in L. rewrite L.
      unfold handle, attr. rewrite wt_depth, wt_base. destruct (Nat.leb_spec (S n) lim); [|lia]. rewrite Fi.
      cbn [wrapped_times emit]. unfold attr. rewrite wt_depth, wt_base. destruct (Nat.leb_spec n lim); [|lia]. now rewrite F.
  Qed.

  (* C84: after a monitor the user's handler cannot be taken from the logger any more *)
  Theorem C84_remove_refuted : forall n i, on_tty i = true -> (S n <= S lim)%nat ->
    remove_handler (Plain i) [Plain i] = [] /\
    exists hs, monitors u lim (S n) [Plain i] = inl hs /\ remove_handler (Plain i) hs = hs /\ hs <> [].
  Proof.
    intros n i E H. split; [simpl; now rewrite Nat.eqb_refl|]. exists (after (S n) [i]). split.
    - change [Plain i] with (map Plain [i]). rewrite <- after_0. apply (monitors_after (S n) 0). lia.
    - unfold after. cbn [map]. rewrite E. split; [reflexivity|discriminate].
  Qed.
End Claims.

(* two handlers on terminals with different levels, a file and a handler without stream; three monitors *)
Definition ex_user : user (Z * bool) :=
  User (Z * bool) (fun i : nat => match i with O => 10 | 1%nat => 30 | _ => 0 end) (fun i _ => negb (Nat.eqb i 9))
    (fun i r => if snd r then Some (String.String (Ascii.ascii_of_nat (65 + i)) String.EmptyString) else None)
    (fun i => if Nat.eqb i 3 then None else Some i) (fun i => Nat.ltb i 2) (fun _ => newline).
Theorem C84_example : ordinary ex_user [0; 1; 2; 3]%nat (20, true) /\
  exists hs, monitors ex_user 5 3 (map Plain [0; 1; 2; 3]%nat) = inl hs /\
    hs = [Wrapped (Wrapped (Wrapped (Plain 0))); Wrapped (Wrapped (Wrapped (Plain 1))); Plain 2; Plain 3] /\
    call_handlers ex_user fst 5 hs (20, true) =
      ([Wrote 0 (String.append (String.String (Ascii.ascii_of_nat 65) String.EmptyString) newline);
        Wrote 2 (String.append (String.String (Ascii.ascii_of_nat 67) String.EmptyString) newline); Passed 3], None) /\
    on_tty ex_user 0 = true /\ u_format ex_user 0%nat (20, false) = None.
Proof.
  split; [intros i _ _; split; [reflexivity|discriminate]|]. eexists. split; [reflexivity|]. repeat split; reflexivity.
Qed.
Print Assumptions C84_same_partial. Print Assumptions C84_format_refuted. Print Assumptions C84_limit_refuted.
Print Assumptions C84_written_partial. Print Assumptions C84_others. Print Assumptions C84_remove_refuted. Print Assumptions C84_example.
