(* Model of daisy/client.py (acquire_block, release_block), of the parts of
   daisy/tcp/tcp_client.py it uses, and of Task._process_blocks (task.py:183-189).
   The connection may be lost at any time; whether it is lost before a given action is an input.
   Messages are recorded when handed to the stream. *)
From Verif Require Export Block.
Open Scope Z_scope.

(* what leaves a with-statement *)
Inductive cexn := StreamClosed | NotConnected | BadMessage | BodyException | Interrupt.
(* client.py, messages/ *)
Inductive cmsg := CAcquire (t : nat) | CBlockFailed (pb : pyblock) | CRelease (pb : pyblock) | CDisconnect.

(* tcp_client.py: [Lost]: the receive loop put its exception into the queue and the stream is None
   (158-167); [Gone]: that exception was raised already (116-121), the stream is None *)
Inductive conn := Up | Lost | Gone.
Definition lose (drop : bool) (c : conn) : conn := if drop then match c with Up => Lost | c => c end else c.
(* tcp_client.py:76-91 (and 105-108): the connection after the call, the exception raised *)
Definition tcp_send (c : conn) : conn * option cexn :=
  match c with Up => (Up, None) | Lost => (Gone, Some StreamClosed) | Gone => (Gone, Some NotConnected) end.

(* what arrives while acquire_block waits; [RClosed]: the connection is lost *)
Inductive reply := RSend (pb : pyblock) | RShutdown | RClosed | ROther.
(* how the body of the with-statement ends, and the status it leaves in the block *)
Inductive outcome := Finished (s : status) | Raised (s : status) | Interrupted (s : status).
Definition out_status (o : outcome) : status :=
  match o with Finished s | Raised s | Interrupted s => s end.

(* when the connection gets lost: before acquire_block is entered, while the body runs, between
   the two messages of a failing block *)
Record drops := Drops { d_before : bool; d_body : bool; d_between : bool }.

Record cresult := CR {
  cr_sent : list cmsg;                      (* messages sent, in order *)
  cr_yield : option (option pyblock);       (* what the body got, if it was run *)
  cr_exn : option cexn;                     (* what leaves the with-statement *)
  cr_conn : conn
}.

(* the body raised and nothing in acquire_block catches it *)
Definition passed (o : outcome) : option cexn :=
  match o with Finished _ => None | Raised _ => Some BodyException | Interrupted _ => Some Interrupt end.

(* client.py:83-101, after the block was received *)
Definition run_block (pb : pyblock) (body : option pyblock -> outcome) (d : drops) (sent : list cmsg) : cresult :=
  let blk := pb_block pb in
  let pb1 := PB blk PROCESSING in                                               (* 85 *)
  let o := body (Some pb1) in                                                   (* 86 *)
  let c := lose (d_body d) Up in
  let '(st, sent, c, e) :=
    match o with
    | Finished s => (if status_eqb s PROCESSING then SUCCESS else s, sent, c, None)     (* 89-90 *)
    | Raised s =>                                                               (* 91-94 *)
        let '(c1, e) := tcp_send c in
        let sent1 := match e with None => sent ++ [CBlockFailed (PB blk FAILED)] | Some _ => sent end in
        (FAILED, sent1, lose (d_between d) c1, e)
    | Interrupted s => (s, sent, c, Some Interrupt)
    end in
  let st := if status_eqb st SUCCESS then st else FAILED in                     (* 99-100 *)
  let '(c2, e2) := tcp_send c in                                                (* 101 *)
  let sent2 := match e2 with None => sent ++ [CRelease (PB blk st)] | Some _ => sent end in
  CR sent2 (Some (Some pb1)) (match e2 with Some x => Some x | None => e end) c2.

(* client.py:69-107, as seen by the with-statement around it *)
Definition acquire_block (t : nat) (c : conn) (rep : reply) (body : option pyblock -> outcome) (d : drops) : cresult :=
  let '(c, e) := tcp_send (lose (d_before d) c) in                              (* 72 *)
  match e with
  | Some x => CR [] None (Some x) c
  | None =>
      let sent := [CAcquire t] in
      match rep with
      | RClosed => CR sent (Some None) (passed (body None)) Gone                (* 77-80 *)
      | RSend pb => run_block pb body d sent
      | RShutdown => CR (sent ++ [CDisconnect]) (Some None) (passed (body None)) Gone   (* 102-105 *)
      | ROther => CR sent None (Some BadMessage) c                              (* 107 *)
      end
  end.

(* task.py:183-189: the worker of a task with a function of one block; [process] is that function
   (its i-th call), [replies i], [drop i] the i-th answer and losses of the connection. *)
Fixpoint process_blocks (n : nat) (t : nat) (i : nat) (c : conn) (replies : nat -> reply) (process : nat -> pyblock -> outcome)
    (drop : nat -> drops) : list cmsg * option (option cexn) :=
  match n with
  | O => ([], None)                                                             (* still running *)
  | S n =>
      let body b := match b with Some pb => process i pb | None => Finished CREATED end in
      let r := acquire_block t c (replies i) body (drop i) in
      match cr_exn r, cr_yield r with
      | Some x, _ => (cr_sent r, Some (Some x))
      | None, Some (Some _) =>
          let '(l, e) := process_blocks n t (S i) (cr_conn r) replies process drop in (cr_sent r ++ l, e)
      | None, _ => (cr_sent r, Some None)                                       (* 187-188 *)
      end
  end.
