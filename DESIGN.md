# Formal model of funkelab/daisy in Rocq (Coq 8.16.1)

## Trusted base

* Coq's kernel (8.16.1) and the standard library. No other library is used, no axioms are
  added; `Print Assumptions` stands under every property theorem (expected: "Closed under the
  global context" everywhere; any exception is listed at the end of this file).
* The reading of the Python source: the theorems are about the model in `rocq/theories`, every
  definition of which cites the file and lines it models. Nothing here executes daisy.
* Third-party code, modelled from its documented behaviour (the sources are not in /repo):
  * `funlib.geometry.Coordinate/Roi` (`Geom.v`): elementwise integer arithmetic, `//` and `%` floor,
    `/` followed by the Coordinate constructor's `int()` (truncation), `Roi.contains`, `intersect`
    (an empty intersection is the empty ROI at the origin), `grow`, shift by `+`.
  * `funlib.math.cantor_number` (`Cantor.v`): the generalised Cantor (simplex) numbering,
    `cantor(x1..xd) = C(sum+d-1, d) + cantor(x1..x(d-1))`; it agrees with all block ids quoted
    in tests/test_scheduler.py.  Exact integers: float rounding above 2^53 is not modelled.
  * pickle, tornado, multiprocessing, queue.Queue: not modelled beyond "messages are delivered in
    order per stream, a stream may close at any time".
* Python ints are `Z`; numpy's int64 overflow in `np.prod` is not modelled.
* Iteration order of Python sets is an oracle (`ord`, `pick`), universally quantified.
* Loops `while` are recursion on fuel with a distinguished `Err OutOfFuel`; the theorems prove the
  fuel is never exhausted above an explicit bound.
* Exceptions are values (`res A := Ok a | Err exn`).

## What is modelled / not modelled

| file | model | not modelled |
|---|---|---|
| block.py | Block ids, ROIs, status, equality by id | timestamps |
| dependency_graph.py | all of BlockwiseDependencyGraph and DependencyGraph | the private dead method `__enumerate_all_dependencies` (never called; refers to attributes that do not exist), logging |
| ready_surface.py | all | |
| processing_queue.py, task_state.py, scheduler.py | all (the text of a task state: `StateText.v`) | logging |
| task.py | geometry, fit, retries, upstream tasks, num_workers, inspection of the process function's signature (`TaskFn.v`) | `timeout` (never read), dill |
| logging.py | directory and file names (`TaskFn.v`), opening the files and file descriptors (`Redirect.v`) | making the directories |
| serial_server.py | run_blockwise loop | the observers' bodies |
| server.py, block_bookkeeper.py | message handling, bookkeeping, event loop iteration | wall clock (a boolean input says whether the 1s tick elapsed, the time a block is sent is an input), sockets (`get_message` gives a message, nothing, or an exception; sending to a closed stream is ignored), closing of the streams after the loop |
| client.py | acquire_block/release_block protocol, the address connected to (`Setup.v`) | |
| context.py | all string handling | os.environ itself |
| tcp/tcp_stream.py, tcp_client.py, tcp_server.py, io_looper.py | framing; the threads at both ends of a connection, their queues, how a connection ends | sockets and tornado's IOStream (modelled as ordered bytes that arrive in any pieces, reads and writes that may fail once the connection is broken); which ports are free, what address is detected (inputs of `Setup.v`) |
| worker_pool.py, worker.py, task_worker_pools.py | the set of workers, counts, restarts | processes themselves (exit codes are inputs) |
| convenience.py | task closure, result value, one KeyboardInterrupt of the main thread | the thread pool itself, a second KeyboardInterrupt, one before the try statement |
| blocks.py | the three expand_* functions | SingleTaskDependencyGraph: its constructor always raises (calls the non-existing `compute_level_offset`) |
| freezable.py, server_observer.py, cl_monitor.py | all logic | terminal output |

## Layers

Model (executable, one definition per Python function):
1. `Py.v` exceptions, `map2`, `range`, `product`, Python sets as duplicate-free lists.
2. `Geom.v`, `Cantor.v`, `Block.v`, `BGraph.v` : the grid of one task.
3. `Surface.v`, `Sched.v` : ReadySurface and Scheduler over an arbitrary graph given by `up`/`down`
   (as in Python, where ReadySurface gets two functions).
4. `DGraph.v` : tasks and DependencyGraph; `Scheduler(tasks)` is the instance.
5. `Serial.v` : the serial server. `Server.v` : the server with its bookkeeper and its request queues;
   one `input` per iteration of the event loop (message, closed streams, tick, health check), a trace of
   everything it receives, sends, calls and notifies. `Client.v` : a worker's client; the server's replies, the user's
   body and the moments at which the connection is lost are inputs. `Tcp.v` : framing (`struct` "I" is
   4 bytes, little-endian). `Ctx.v` : the worker context as strings. `Expand.v` : blocks.py.
   `Conv.v` : convenience.py. `Pool.v` : workers and pools; exits of processes are inputs. `Freeze.v` :
   attribute assignment. `Monitor.v` : CLMonitor as a fold over notifications (tqdm: `update` adds to
   `n` unless closed).
   `Sys.v` : the server and its workers as one transition system; the streams between them are queues.
   `Whole.v` : the server, its pools and the workers as one transition system (Server.v, Pool.v and Sys.v put together).
   `WholeAny.v` : the same with spawn functions that raise and bodies that are interrupted.
   `Wire.v` : the same with the connections of `Net.v` (threads, queues, sockets, pickles) between the server and the workers.
   `WireTop.v` : a call of run_blockwise over them, from the collection of the tasks to its value or exception.
   `Top.v` : a call of run_blockwise with multiprocessing, from the task list to its value or exception.
   `Net.v` : TCPClient, TCPServer and the connections between them as a transition system; a label is one atomic piece
   of one thread.
   `StateText.v` : the text of a task state and the numbers behind the progress bar.
   `LogNames.v` : the lines of the summary that refer to log files.
   `Setup.v` : the address of a server and of its clients; the table of IO loops and its copies in forked processes.
   `Redirect.v` : redirect_stdouterr: descriptors, open files, python's file objects with their buffers.
   `Released.v` : the value of release_block.
   `Handlers.v` : the logging handlers a CLMonitor installs and the parts of logging that call them.
   `TaskFn.v` : signatures, check functions, bodies that assign attributes, log file names.
   `Sanity.v`, `Replay.v`, `Replay2.v` : the project's own tests run on the model (test_scheduler.py, test_dependency_graph.py, test_client.py,
   test_tcp.py, test_server.py with SerialServer, test_dead_workers.py:63-97); everything they assert holds of it. The tests that start worker
   processes are covered by C67_one_task (`P_One.v`) for all fair runs instead.

Vocabulary of the theorems, independent of the model's data structures: `SpecGeom.v` (points,
overlap, generated blocks), `SchedSpec.v` (histories of calls, in flight, settled, reachable
states, well-formed dependency graph), `PipeSpec.v` (pipelines of tasks, conditions on them).

Lemmas: `VecFacts CantorFacts GridFacts GridFacts2 GridFacts3 SubFacts GraphProps` (grid),
`SurfFacts SchedFacts SchedFacts2 SafeFacts SchedProps` (scheduler over any graph; `SafeFacts`
needs no duality of up and down), `PipeFacts DGFacts DGFacts2` (a pipeline's dependency graph is
well-formed), `SchedExec PipeRun` (runs of pipelines, computation of witnesses), `SerialFacts`, `ServerFacts`
(invariant of the server), `ServerSteps` (the server as a sequence of small steps), `ServerIdle` (what
it does when nothing arrives), `SysFacts` (invariant of server and workers), `SysMeasure` (measure of the work
left), `SysLive` (no deadlock), `SysFair` (fair runs end), `SysTrace` (the server among its workers is a server
with fair clients; what is released), `WholeInv WholeEv WholeSrv WholeGrow WholeSim WholeStep WholeFair` (every move of the
whole is one of `Sys.v`; fair runs), `PoolAll` (what each operation of the pools does to each process), `WholeAll WholeRun` (invariant of the whole whatever the
workers do), `TopInit` (init callbacks that raise), `WholeOwn` (who has a block has it alone, whatever the workers do), `TopFair` (an interrupted body as the end of the body and then of the process), `NetFacts` (invariant of a connection, measure of the bytes under way), `WireNet` (the connection of a worker whose process runs), `WireSim` (every run of `Wire.v` is one of `WholeAny.v`), `WireFair` (fair runs of `Wire.v`; they are fair runs of `Whole.v`), `WireAttr` (no AttributeError reaches the server's loop in runs of `Wire.v`), `WireLoss` (runs of `Wire.v` in which any connection may be lost at any moment).

Property theorems, with `Print Assumptions` and concrete cases: `P_Graph.v` (C01-C11, C26),
`P_SchedCE.v` (witness runs for the refutations), `P_Sched.v` (C12-C25, C27), `P_Serial.v` (C28, C29), `P_SerialAny.v` (C28 for all process functions), `P_Rerun.v` (C87, with the tutorial's loop),
`P_Server.v` (C30-C37), `P_Server2.v` (C50), `P_ServerCE.v` (witness runs of the server, C49), `P_Outcome.v` (C51), `P_Notify.v` (C52), `P_Sys.v` (C53, C54), `P_SysEx.v` (computed runs of server and workers), `P_SysCE.v` (C53 refuted for another order of tasks), `P_Whole.v` (C60-C62), `P_WholeEx.v` (computed run of the whole), `P_WholeCE.v` (C61 refuted without each condition), `P_PoolFail.v` (C63), `P_WholeAny.v` (C63-C65), `P_Top.v` (C66), `P_TopEx.v` (computed calls), `P_TopFair.v` (C67), `P_TopFairEx.v` (a computed fair run), `P_WholeOwn.v` (C68, C69), `P_WholeOwnEx.v` (a computed run, refutations), `P_Resume.v` (C70), `P_TaskFn.v` (C71, C72, C74), `P_Check.v` (C73), `P_Order.v` (C75), `P_Symbol.v` (C76), `P_Cause.v` (C77), `P_State.v` (C78), `P_LogNames.v` (C79), `P_Setup.v` (C80, C81), `P_Net.v` (C55-C58), `P_NetEx.v` (computed runs of connections, refutations, C59), `P_NetErr.v` (C82), `P_Redirect.v` (C83), `P_Handlers.v` (C84), `P_Paths.v` (C85), `P_Released.v` (C86), `P_Wire.v` (C88), `P_WireEx.v` (a computed run over the network), `P_WireFair.v` (C89), `P_WireFairEx.v` (a computed fair run over the network), `P_WireAttr.v` (C91, with a computed run), `P_WireTop.v` (C90), `P_WireTopEx.v` (computed calls over the network), `P_WireLoss.v` (C92), `P_WireOwn.v` (C93), `P_WireLossEx.v` (computed runs for both, C93 refuted for lost connections), `WireIntact.v`, `P_WireIntact.v`, `P_WireIntactEx.v` (C94), `WireTail.v`, `P_WireTail.v` (C95), `LossTop.v`, `P_LossTop.v`, `P_LossTopEx.v` (C96), `P_LossRuns.v`, `P_LossRunsEx.v` (C97), `P_LossOnce.v`, `P_LossOnceEx.v` (C98), `Store.v` (arrays and bodies), `StoreFacts.v`, `P_Store.v` (C99), `P_StoreEx.v` (computed runs for C99), `P_StoreSerial.v` (C100), `P_StoreSerialEx.v` (computed runs for C100), `P_StoreLate.v`, `P_StoreReach.v` (C101), `P_Gone.v` (C49 and C59, what holds), `P_Once.v` (C34), `P_One.v` (C67 for one task), `P_Good.v` (C67 if no block fails for good), `P_Client.v` (C38), `P_Tcp.v` (C41, C42), `P_Ctx.v` (C43), `P_Expand.v` (C46), `P_Conv.v` (C39, C40),
`P_Pool.v` (C44, C45), `P_Freeze.v` (C47), `P_Monitor.v` (C48).

## Per property: what is modelled and how it is proved

Geometry (C01-C12, C26, C46): pure functions on integer vectors; proofs pointwise per dimension.
* C01 disjointness, C02 coverage, C05 shape: membership in `product` of ranges characterised
  pointwise, then linear arithmetic. 
* C03 count: length of `product` = product of lengths; Python's range length formula.
* C04 ids: injectivity of the Cantor numbering on non-negative vectors, proved by induction on the
  dimension; refuted for tasks whose write ROI starts before the read ROI (allowed only without
  read_write_conflict), where int() truncation makes two indices equal.
* C06/C07: level offsets are distinct residues; conflict offsets are the difference of consecutive
  levels modulo the stride.
* C08: walk argument: from a block to any conflicting block of an earlier level there is a walk
  through intermediate levels that stays inside the grid (greedy choice per dimension).
* C10/C11: floor/ceil alignment. C11 is refuted when the origin lies in the volume off the grid
  (the empty intersection is placed at the origin).
* C12: proved for symmetric contexts and fits that stay inside the volume; refuted in general (the
  query is grown by the context on the wrong sides; overhang).
* C26: refuted by computation. C46: floor/ceil alignment, minimality.

Scheduler (C13-C25, C27): invariant over all operation sequences, stated on event traces (hand-out,
skip, release, none), for every graph satisfying a well-formedness predicate (up/down inverse,
acyclic, sources = seeds); then the concrete graphs are shown to satisfy it. C14/C13 need no
well-formedness. C19, C21, C23, C27 are refuted with concrete executions, and proved under extra
conditions (C21/C23: `apart_failures`, failures that orphan a block of which a direct upstream block
succeeded do so through the same direct upstream blocks; `C21_conditions` in P_Apart.v lists simple
sufficient conditions: at most two upstream blocks per block, e.g. every 1D task; at most one permanent
failure; no block that depends on two failed ones). The invariant behind it: an orphan leaves the
boundary only if one of its upstream blocks succeeded (`tight`).

C51: in a complete run a block's fate is decided by the set of bad blocks, by well-foundedness of the
dependencies; counters are cardinalities of the sets (C20).

Servers: C28/C29 the serial loop as fuelled recursion over oracles for the user functions;
C30-C37 a state machine whose inputs are messages, closed streams and ticks; C38 the generator
body as a function of the with-body's outcome.
Others: C39/C40 closure of a task tree; C41/C42 bytes as numbers below 256; C43 strings as lists of
characters; C44/C45 pools as ordered lists of workers; C47 attribute maps; C48 fold over notifications;
C52 the notifications in the traces of the servers, compared with the scheduler calls, and the fold over them.

C53/C54 server and workers: invariant relating each worker's phase, the messages under way, the queues and
the book (`YInv`); a measure that every step of work decreases; from it and the absence of deadlock the
end of fair runs. Simplifications of `Sys.v`: a worker is a process with one connection and one task; when it dies a
prefix of its messages under way arrives, its connection is seen closed at some later iteration; it is replaced
at any time, workers may be added at any time; a worker connects only after the blocks of replaced workers of its task were taken back, and once no
worker of its task is still to connect the connection of a replaced worker is seen closed; replies to dead workers are
dropped; workers interrupted by the user, or exiting with code 0 while holding a block, are left out; the
iteration of the server in which nothing arrived, gone connections are seen and tasks are looked at is assumed to recur;
deaths and additions of workers come to an end.
Tasks are to be listed after those they require, except for tasks that require none: these may come anywhere
(`in_order`). The reason is that a block of a task without requirements is ready from the start or made ready by blocks
of its own task, so an idle worker of its task, asking anew, gets it; a block of another task becomes ready during an
iteration that may already have answered the requests for it. The list made by `run_blockwise` is in order if the given one is closed
and in order (`C53_order_kept`), and whenever the required tasks require none (`C53_two_levels`); three levels
with the last task given alone hang (`C53_downstream_first_refuted`).

C60-C62 the whole: an invariant ties processes, pools and phases of workers (`HInv`); under it and `prudent` every
move corresponds to moves of `Sys.v`, whose theorems carry over. Simplifications of `Whole.v`: reaping, recruiting and killing
happen within the iteration of the server; a process that is killed is dead at once (worker.py:71-84 joins it); a
worker's exception in the error queue of its pool is left out (`i_health` is always fine); num_workers is a function
of the task. `prudent` excludes four things that do happen; `P_WholeCE.v` shows for each that the server can then hang.

C63-C65: an invariant of the whole (`AI`) that assumes nothing about the workers: the server has met fair clients only, every
running process is in a pool, the pools have been told what the trace says, the error queues hold what workers raised (at most 100
per task). The pools' part: which operation changes which process (`PoolAll.v`), reports counted per worker. `WholeAny.v` adds to `Whole.v`
the move of a worker whose spawn function raises (the exception is queued, exit code 0), and of one whose body is left by
KeyboardInterrupt or SystemExit (any exit code; the block is released with the status set so far). The exception that leaves the loop is the end of the run; the
clean-up after it is `pools_stop`.

C66/C67 a call of run_blockwise: `Top.v` adds to `WholeAny.v` the stop event set by the main thread, init callbacks that raise, and how the
call ends. The event is read at the head of the loop only, so setting it during an iteration is setting it after that iteration. C66 comes from C64
and C65 after replacing the callbacks by ones that do not raise: up to the exception both runs are the same (`TopInit.v`). C67 comes from C61: a run
with interrupted bodies is, at every second moment, a run without. Simplifications: max_block_failures is its
default 3; task ids are numbers; of an iteration that is left by an exception only what the pools were told is kept; the value of `TaskState.is_done`
for all tasks is `result`. An exception of the init callback at the first `_recruit_workers` is raised before the `try` statement: observers are not told of the exit. A Server object used a
second time processes nothing, since its stop event stays set (`C66_again_refuted`).

C68/C69 what processes do at the same time: an invariant (`Own`) ties the phase of every process to the entry of the bookkeeper and to what is
under way to it, whatever the workers do; with C15 and C13 about the history it gives C68 for the processes themselves. A process that makes no move of
its own stays in its phase (`step_rests`). The field `timeout` of a task is not in the model because no line of the code reads it.

C70 running again: a check function is described by the blocks it must and may recognise (`says`); what the runs of either server do with it is a
property of their histories (`respects`), and C70 is about histories of the scheduler that have it. The second run is assumed to build the same dependency
graph (same tasks). What a check function recognises (files on disk) is its own affair.

C71-C74 (`TaskFn.v`): a signature is what getfullargspec and Python's calling rules see of it; a block as an object (`Freeze.v`) is tied to the body of
`Client.acquire_block`, so that what is reported follows from the assignments of the body; paths are those of pathlib on Posix (root, components without empty
ones and "."). Symbolic links and ".." are not resolved.

C75 (`P_Order.v`): that a block is ready is said of the history of the run (upstream blocks returned successfully, block not held, not successful, retries left), not of the queues of the model; `goes` is the reflexive-transitive closure of requests and returns. `C75_in_time_partial` uses the ready counter, which C22 shows to be right.

C76 (`P_Symbol.v`): the symbols are kept apart from the bars (`marks` in `Monitor.v`; `C76_bars` ties the two). The state shown is the one passed with the
notification; that it is the one of the history at that moment is part of the proof.

C77 (`P_Cause.v`): `causes` says of one move that it is a cause for a failure of a block, `caused` counts moves of a run that are; the invariant is that the
failures of a block, plus one if its holder has already reported a failure, are at most the causes so far. It uses that a request is the last word of a worker,
also of a dead one, so that an old report never meets a new holding of the same block.

C78 (`P_State.v`, `StateText.v`): `waits` is stated over the history; the counts follow from those of C21 and C22 by taking the difference of finite sets.
Ints are printed with the standard library's decimal conversion.

C79 (`P_LogNames.v`, `LogNames.v`): pathlib's reading and printing of POSIX paths is modelled (`to_path`, `path_str`); `path_round` is that reading inverts printing
for all paths that reading or joining can produce. Nothing is said about the file system (links, `..`).

C80 (`P_Setup.v`, `Setup.v`): binding, detection and test connection are oracles. That tornado's TCPServer has no attribute `max_port_tries` is taken
from its documentation (its source is not here); C80_second_port_refuted depends on it, the other theorems do not.

C81 (`P_Setup.v`, `Setup.v`): a world is a list of processes, each with its copy of the table, and for each loop the process whose thread runs it. A process
can only be forked with an id no living process has. Processes are started by fork; started by spawn they begin with an empty table, as after Clear.

C55-C59 connections: per direction, what was sent = what was read ++ what is decoded from buffer and wire ++ what is
still to be written, for every chunking (`CInv`); the state of both ends is tied to it (`Live`); a measure of the
bytes under way bounds the steps of the IO loops. Simplifications of `Net.v`: pickle is a partial function in each direction; a
coroutine that fails with an exception other than the ones named is not modelled; the exception handler of `_receive`
and the clean-up after it are one step; a client connects once; messages larger than the socket
buffers are written in one step.

C88 (`P_Wire.v`): a simulation (`wire_runs`). The messages of `WholeAny.v` that a worker has sent are those its calls of send_message have posted and the
server has not yet taken; those sent to it are what its get_message has still to return. Threads, queues, bytes and chunks disappear in between. It needs that
pickles are lossless, that no message has 2^32 bytes or more (`small`), and of the runs of `Wire.v` that a connection is lost only when the process of
its worker has ended or says goodbye (with other losses: C55, C58, C68) and that the server's get_message raises StreamClosedError only (an AttributeError would end the loop,
C82; C88_gets shows that nothing else can come, C91 that it does not come either). Simplifications of `Wire.v`: the answers of an iteration are sent after its other effects, one by one and interleaved with
everything else; the process of a worker makes its calls in the order of `client.py`, with the body in between; the server closes no connection while its loop runs.

Workers say no goodbye when they end: `TCPClient.__del__` (tcp_client.py:39-41) would, but the coroutine _receive, suspended in the IO loop, refers to the client for as long as it is
connected, so `__del__` runs only when connected() is false, and then it does nothing.

C91 (`P_WireAttr.v`): an invariant of the runs of C88 (`WireAttr.v`, `a_runs`). The AttributeError of C82 needs that a write to a connection fails while handle_stream is about to read the
rest of a message of the same connection. The server writes to a worker only in answer to a request; the worker that waits for an answer has sent nothing since, and all it
sent before was taken by the server's loop before the answer was made. So while something of a worker is under way nothing is being written to it. This uses that an awaited write that fails has left
bytes behind that did not arrive (`KLateS`, `KLateC` of `Net.v`; tornado's IOStream.write resolves its future when all bytes are handed to the socket). The
witness of C82 is a client that leaves the protocol of `client.py`: it asks for a block and disconnects without waiting.

C89 (`P_WireFair.v`): from C61, by following the run of `Wire.v` step by step (`hrun`) and showing that it is fair (`wire_fair`): what a worker has to say is posted,
flushed, arrives, is read and put into the server's queue, and is taken from it. Fairness of a run over the network (`xfair`) says that each thread goes on: connecting ends, the IO
loops and the network move bytes while there are any, a worker's program makes its next call, the server sends its answers, takes messages while there are some, and
has an iteration without a message while there are none; that processes stop dying at last; and, as for C61 and for the reasons refuted there, which moves are not
made (`xprudent`). `last` says how many messages of a worker the server gets in all: `Whole.v` decides this when the process ends, `Wire.v` only later. It is
a function of the run, so it restricts nothing (the number of messages the server gets from a process that has ended is bounded).

C90 (`P_WireTop.v`): what C66 and C67 say of a call of run_blockwise, over the network: by the simulation of C88, with init callbacks that may raise (as in C66), and by C89. The model
has one more way for a call to end (`XBroke`): get_message raises something else than StreamClosedError; by C91 this does not happen (`C90_never_broke`). The conditions are those of
C66, C67, C88 and C89; `C90_all_well` has none on the graph, only on the tasks (`plain`). The stop event is read when the answers of the iteration have been sent.

C92 (`P_WireLoss.v`): the runs of `Wire.v` with one more move (`LBreak`): the network loses the connection of a worker, whether its process runs or not. The simulation of C88 does not go
through: a worker cut off lives on, and may send what nobody gets. An invariant (`LI` of `WireLoss.v`) says instead what the server gets: only messages that the worker sent, each about a block the server
had sent to it before; with it one iteration of the server is one of `WholeRun.v`, for a state in which the worker has just this message under way. No bound on the size of messages is needed.
The AttributeError of C82 is not excluded in these runs (`C92_gets`; C95): in `Net.v` all bytes of a write may arrive though the write is reported as failed, once the connection is lost. When the connection is lost
while the answer of the server to BlockFailed is sent, `client.py:93-101` tries to send once more, which raises again; `Wire.v` goes to the end of the process at once.

C93 (`P_WireOwn.v`): C68 and C69_waits_partial over the network, by the simulation of C88. `C93_connection_lost_refuted` is a run with one lost connection, computed down to the bytes: two processes
run the body of the same block, and the server stops while one of them still does.

C94 (`WireIntact.v`, `P_WireIntact.v`, `P_WireIntactEx.v`): what is left of C93 in the runs of C92. The invariant `KI` relates, for each process, what its program has sent and
received so far to the server's trace: `intact` says that the last block the server sent to a stream is in its book, or that the last question waits. It holds of every stream whose connection was
not lost and whose process was not seen dead; with the program order of the client the process then works on the block the book says (`at_work`). `C94_example`: one process works on
with a lost connection on a block another one is given, and has done, while two others work on blocks of the next task.

C95 (`WireTail.v`, `P_WireTail.v`): the runs of C92 in which a write of the server that was reported as failed after it had begun (`KLateS`) leaves a byte under way for ever (`truns`). This is what
tornado's IOStream.write does: the future is resolved once all bytes have been handed to the socket, so of one that fails some byte never left; tornado is not in /repo, so this is part of the trusted base
of C95. Invariant `TI`: if the server's stream is None while handle_stream still reads, the server owes the worker an answer that never comes; the worker's program then waits for it or has given up,
so nothing more of the worker is to be read, and the read that fails is the one at the beginning of a message. It rests on `Live` of `NetFacts.v` (a notify was sent only by disconnect).
`C95_all_arrive_refuted`: without the condition there is a run with an AttributeError. C95 covers workers that keep to `client.py`; for any client see C82.

C96 (`LossTop.v`, `P_LossTop.v`, `P_LossTopEx.v`): C90 for the runs of C92 (`run_lossy false`) and of C95 (`run_lossy true`). How a call ends is that of `WireTop.v` (`xended`), so a call may also end by an
exception of the connections (`XBroke`): an AttributeError of a connection that was lost (`C96_broke`), and none with the condition of C95 (`C96_never_broke`). `C96_example`: a call that returns True though a
connection was lost in the middle of an answer, while the process cut off still runs; one that a worker's exception ends; one that the main thread does. `C96_all_arrive_refuted`: without
the condition of C95 there is a call that ends by an AttributeError. That calls end is not claimed here: the server waits for no worker that is cut off, but nothing says that another one is free.

C97 (`P_LossRuns.v`, `P_LossRunsEx.v`): `begun b x ms y n` says that in the run ms from x to y of C92 the body for b was begun n times: counted are the moves after which the process that moves is in the body for b
and was not before, or with which a body ended (`begins`; `C97_who`: no other move begins one). Each of them takes a message of the server from the client's queue; these are among the messages sent (C55), those among the answers of the server
(`KI` of `WireIntact.v`), and each of these among the hand-outs of the scheduler, which C17 bounds.

C98 (`P_LossOnce.v`, `P_LossOnceEx.v`): `runs_of b ms y n` is `begun` of C97 for the moves of a call of C96, `unchecked b ms` says that in no iteration of the server check_function called b done. The moves determine
the run (`lstep_det`), so that n is a function of the call; the body of which C92 says that it ended (`C92_done_by`) therefore lies in the run that is counted.

C99 (`Store.v`, `StoreFacts.v`, `P_Store.v`, `P_StoreEx.v`): the arrays are not part of daisy; `Store.v` adds them beside a history of the scheduler. There is one array per task, written by the bodies of this task only, and any number of arrays that no task writes. A body is a program of single reads and writes (`prog`), and what it does next may depend on what it read. `may_write` and `may_read` are what task.py:19-41, 67-74 asks of it. A body never reads the cells it is to write, for a second attempt would then see what the first one left. `mrun` interleaves the bodies with the history: a body begins when its block is handed out, takes its steps at any later moment, has ended when the block is released as successful, and takes no further step once the block is released as failed. A block may be skipped when its body would change nothing (`mr_skip`), which is what check_function is for (task.py:43-56). So these are not covered: a process that is cut off and goes on writing while its block is given to another one (C93, C94 say when that can happen), and a check_function that is wrong. `one_by_one` runs bodies one after another; that is the specification. The proof rests on C01 (write ROIs of a task are disjoint), C08 (of two blocks of a task in conflict one is an ancestor of the other), C10 (the blocks of a required task that a block reads from are upstream of it), C14 (a block is handed out after its upstream blocks succeeded) and C16 (not again after it succeeded).

C100 (`P_StoreSerial.v`, `P_StoreSerialEx.v`): `alone` adds the arrays to a history of the serial server (serial_server.py:46-51): a body runs in one go before its block is released, all of it if the block succeeds, its first n steps for some n if it fails. C100_alone shows that this is one of the interleavings of C99, so that C99 applies. C100_exists: every history without skipped blocks has such a run. C100_serial compares the serial server with any run of the scheduler in which the same blocks succeeded, C100_call with a call of run_blockwise over the network (C90) that returns True without a permanently failed block. What is not modelled: when the single reads and writes of a worker process happen relative to its messages. `mrun` lets them happen at any moment between hand-out and release, and no later. A process that was given up (its connection closed) and yet writes on is outside (see C101); C97 says when bodies of one block overlap.

C101 (`P_StoreLate.v`, `P_StoreReach.v`): `zrun` is `mrun` with attempts that run on after their block was released as failed (block_bookkeeper.py:65-88, server.py:261-270). The result of C99 stays for runs in which no block is released as failed and is refuted for others: in C101_late_refuted the attempt that was given up ends after all blocks have succeeded, and leaves in its block a value computed from what its neighbours wrote later. C101_out_of_reach says what such attempts cannot spoil: the cells of blocks that neither were released as failed nor have an ancestor that was (`touched`). Its proof is a simulation: every run with late attempts has a run of `mrun` with the same history that agrees with it outside the write ROIs of touched blocks; there the bodies of touched blocks run in one go before their release. Hypothesis: no touched block is skipped, since check_function may be right about the one run and wrong about the other.

No property is left out as inexpressible; the runtime parts named above are inputs of the model.

C82 (`P_NetErr.v`): over the connections of `Net.v`. That the event loop ends with such an exception is why `hinput_ok` of `Whole.v` and `fair` of `P_Server.v`
exclude GotError: theorems about whole runs are about runs in which get_message raises nothing but StreamClosedError.

C83 (`P_Redirect.v`): descriptors, file descriptions (shared by dup2 and by forks), files and python's file objects with buffers; a file object is closed when the
last reference goes (`kept` says which are referenced elsewhere). Not modelled: threads, making the log directory, limits on descriptors, encodings.

C84 (`P_Handlers.v`): the root logger only. Not modelled: streams that fail, handlers with an emit of their own, what tqdm.write does to the bars.

## What the proofs found

Behaviour of the code, established by a `_refuted` theorem or a condition that a theorem cannot do without. Most are rare; none is repaired here.

* Ids: a write ROI that starts before the read ROI gives two blocks one id (C04).
* Scheduling: a block orphaned along two ways is counted twice, so a task can be done early and the symbol of its bar can hide a failure (C21, C76, C78); the number
  of pending blocks can be negative, which delays requests and is printed (C78).
* Running again: the serial server gives up when every root block is recognised by a check function (C70); a tuple of check functions is never called (C73).
* Process functions: class methods and functions with default arguments are refused, functions with only `self` or keyword-only arguments are taken though they
  cannot be called (C71); a worker that assigns `block.state`, as in the documentation, makes every block fail (C72).
* Logs: an absolute task id takes the log files out of the log directory (C74); without a log directory the summary refers to `None.err` (C79), and the worker's
  context carries the string "None"; if sys.stdout was replaced by os.fdopen(1), the standard output of child processes ends up in the .err file, and if descriptor 1
  is closed the worker fails with an OSError (C83).
* Logging: with a monitor, a log call that cannot be formatted raises in its caller instead of being reported; every run_blockwise on a terminal wraps the handlers
  once more, until a RecursionError after about 1000 runs; a wrapped handler cannot be removed (C84).
* Workers: a block finished well fails if its report arrives after the death of the worker is noticed (C77); a living worker whose connection broke goes on with
  a block another worker has been given, even when the server has stopped (C68, C93); an unpicklable exception of a worker is lost (C59); a task without workers waits forever (C61).
* Server: `self.max_port_tries` is never assigned, so a port that cannot be bound ends in an AttributeError, not in a second attempt (C80); an IPv6 host cannot
  be passed to workers (C80); every run_blockwise leaves one IO thread behind (C81); a reused process id can give an object a dead loop (C81).
* Server loop: a connection lost in the middle of a message can end the loop by an AttributeError (C82; not with workers that keep to `client.py`, C91), an exception that does not unpickle too (C59); new requests overtake delayed ones (C75); a request for an unknown task is answered by a shutdown request.
* run_blockwise follows every chain of requirements: pipelines in which many tasks share requirements over many levels take exponentially long to collect (C85).
* The tutorial's loop "run again until failed_count is 0" ends too early when a task requires another: as soon as all blocks of the
  first task are done, the serial server skips them, stops, and no block has failed (C87_chain_refuted).
* release_block does not return the tasks of orphans, nor that of the block, though their states change (C86; nothing in daisy reads the value).
* Task field `timeout` is never read (C69); nor is the parameter `count_all_orphans` of `mark_failure`.
