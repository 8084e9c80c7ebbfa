(* Running the model on concrete inputs: a list of calls yields a history and a state, and both
   are reachable.  Used for examples and counterexamples. *)
From Verif Require Export SchedSpec PipeSpec.
Open Scope Z_scope.

Inductive call :=
| Acq (t : nat) (chk : nat -> block -> check_result)
| Rel (i : nat * Z) (st : status) (pick : nat -> list block -> nat).

Definition no_check : nat -> block -> check_result := fun _ _ => CheckFalse.
Definition first : nat -> list block -> nat := fun _ _ => O.

Definition find_held (h : history) (i : nat * Z) : option block :=
  match find (fun e => match e with EvHand _ pb => bid_eqb i (bid (pb_block pb)) | _ => false end) h with
  | Some (EvHand _ pb) => if n_released h (pb_block pb) <? n_handed h (pb_block pb)
                          then Some (pb_block pb) else None
  | _ => None
  end.

Section Exec.
  Variables up down : block -> list block.
  Variable maxr : nat -> Z.
  Variable fuel : nat.

  Definition step (c : call) (x : history * sched) : res (history * sched) :=
    let '(h, s) := x in
    match c with
    | Acq t chk =>
        '(s', r, sk) <- acquire_block up down maxr fuel chk s t ;;
        Ok (match r with Some pb => EvHand t pb | None => EvNone t end :: rev (map EvSkip sk) ++ h, s')
    | Rel i st pick =>
        match find_held h i, st with
        | Some b, SUCCESS | Some b, FAILED =>
            s' <- release_block up down maxr fuel pick s (PB b st) ;; Ok (EvRel (PB b st) :: h, s')
        | _, _ => Err ValueError
        end
    end.
  Definition exec (cs : list call) (s0 : sched) : res (history * sched) := foldM (fun x c => step c x) cs ([], s0).

  Lemma find_held_ok h i b : find_held h i = Some b -> held h b.
  Proof.
    unfold find_held. destruct (find _ h) as [[| | |]|]; try discriminate.
    destruct (_ <? _) eqn:E; [|discriminate]. intros X. injection X as <-. apply Z.ltb_lt in E. exact E.
  Qed.
  Lemma exec_reach cs s0 h s : exec cs s0 = Ok (h, s) -> reach up down maxr fuel s0 h s.
  Proof.
    unfold exec. assert (G : forall cs h0 s1, reach up down maxr fuel s0 h0 s1 ->
      foldM (fun x c => step c x) cs (h0, s1) = Ok (h, s) -> reach up down maxr fuel s0 h s).
    { clear cs. induction cs as [|c cs IH]; intros h0 s1 R; cbn [foldM].
      - intros E. injection E as <- <-. auto.
      - destruct (step c (h0, s1)) as [[h1 s2]|] eqn:E; [|discriminate]. cbn [bind]. apply IH. clear IH.
        destruct c as [t chk|i st pick]; cbn [step] in E.
        + destruct (acquire_block up down maxr fuel chk s1 t) as [[[s' r] sk]|] eqn:Ea; [|discriminate].
          cbn [bind] in E. injection E as <- <-. eapply reach_acquire; eauto.
        + destruct (find_held h0 i) as [b|] eqn:Ef; [|discriminate]. apply find_held_ok in Ef.
          destruct st; try discriminate;
            destruct (release_block up down maxr fuel pick s1 _) as [s'|] eqn:Er; try discriminate;
            cbn [bind] in E; injection E as <- <-; eapply reach_release; eauto. }
    intros E. eapply G; eauto. constructor.
  Qed.
End Exec.
