(* Model of the message framing in daisy/tcp/tcp_stream.py.
   Bytes are integers 0..255.  pickle.dumps/loads are parameters of the theorems.
   tornado's IOStream is modelled as: write() appends to the byte stream, read_bytes(n) waits
   until n bytes have arrived and takes exactly these.  Bytes arrive in chunks of any size. *)
From Verif Require Export Py.
Open Scope Z_scope.

Notation bytes := (list Z).

(* struct.pack("I", n): an unsigned 32 bit integer in native order, here little-endian;
   struct.error outside 0 <= n < 2^32.  struct.unpack("I", b)[0] *)
Fixpoint to_le (k : nat) (n : Z) : bytes :=
  match k with O => [] | S k => n mod 256 :: to_le k (n / 256) end.
Fixpoint of_le (b : bytes) : Z :=
  match b with [] => 0 | x :: r => x + 256 * of_le r end.
Definition pack_I (n : Z) : res bytes :=
  if (0 <=? n) && (n <? 2 ^ 32) then Ok (to_le 4 n) else Err StructError.
Definition unpack_I (b : bytes) : Z := of_le b.

(* tcp_stream.py:64-83: the bytes _send_message writes for a pickled message.  An exception in
   this coroutine is logged by the event loop and the message is dropped. *)
Definition frame (pickled : bytes) : res bytes :=
  size <- pack_I (Z.of_nat (length pickled)) ;;
  Ok (size ++ pickled).
Definition write (stream pickled : bytes) : bytes :=
  match frame pickled with Ok b => stream ++ b | Err _ => stream end.

(* tcp_stream.py:85-102: _get_message called again and again.  [rd_size]: None while waiting for
   the four bytes of the size, Some n while waiting for n bytes of the message. *)
Record reader := Reader { rd_size : option Z; rd_buf : bytes; rd_out : list bytes }.
Definition rd_init : reader := Reader None [] [].

(* one completed read_bytes, if there are enough bytes *)
Definition rd_step (r : reader) : option reader :=
  match rd_size r with
  | None => if (4 <=? length (rd_buf r))%nat                                    (* 90 *)
            then Some (Reader (Some (unpack_I (firstn 4 (rd_buf r)))) (skipn 4 (rd_buf r)) (rd_out r))
            else None
  | Some n => if n <=? Z.of_nat (length (rd_buf r))                             (* 94 *)
              then Some (Reader None (skipn (Z.to_nat n) (rd_buf r))
                                (rd_out r ++ [firstn (Z.to_nat n) (rd_buf r)]))
              else None
  end.
Fixpoint rd_run (fuel : nat) (r : reader) : reader :=
  match fuel with
  | O => r
  | S f => match rd_step r with Some r' => rd_run f r' | None => r end
  end.
(* more bytes arrive; two reads per message, each message has at least four bytes *)
Definition rd_feed (r : reader) (chunk : bytes) : reader :=
  let r := Reader (rd_size r) (rd_buf r ++ chunk) (rd_out r) in
  rd_run (length (rd_buf r) + 2) r.
