{"id": "C01", "title": "Write ROIs never overlap", "statement": "For any task, two different blocks that daisy generates for it never have overlapping write ROIs, whatever fit is used and whether or not read_write_conflict is set.", "quantifier": "every number of dimensions, every offset/size of the total, read and write ROI, every fit, both values of read_write_conflict, every pair of blocks", "why_tests_cant": "tests try a handful of 1D/2D ROIs; the claim is about all sizes, offsets and dimensions", "anchors": ["daisy/dependency_graph.py: BlockwiseDependencyGraph.level_blocks, _compute_level_block_offsets, compute_level_offsets, compute_level_stride"]}
{"id": "C02", "title": "Blocks cover exactly what fit promises", "statement": "With fit='valid' every block's write ROI lies inside the total write ROI and a point is written iff the whole grid cell holding it fits; with 'overhang' every point of the total write ROI is written by some block; with 'shrink' the write ROIs partition the total write ROI exactly.", "quantifier": "every task geometry in every dimension, every point of space", "why_tests_cant": "coverage has to hold for every point of every volume, tests only count blocks", "anchors": ["daisy/dependency_graph.py: BlockwiseDependencyGraph.level_blocks, inclusion_criteria, shrink"]}
{"id": "C03", "title": "num_blocks is the number of blocks", "statement": "The block count daisy computes without enumerating (num_blocks, num_roots, used as total_block_count and as the number of ready root blocks) equals the number of blocks actually generated, so the root generator never runs dry early or late.", "quantifier": "every task geometry, fit and conflict flag", "why_tests_cant": "the arithmetic count and the generator are separate code; agreement on samples says nothing about other roundings", "anchors": ["daisy/dependency_graph.py: num_blocks, _num_level_blocks, num_roots, root_gen", "daisy/processing_queue.py: ProcessingQueue.get_next"]}
{"id": "C04", "title": "Block ids are unique", "statement": "Within one task two blocks have the same block_id only if they are the same block; with the task id added, ids are unique across tasks. (Blocks are compared and hashed by id only, so everything in the scheduler relies on this.)", "quantifier": "every task geometry, every pair of blocks", "why_tests_cant": "a collision may only show up for rare index pairs; injectivity is over all pairs", "anchors": ["daisy/block.py: Block.__init__, __compute_block_id, __eq__, __hash__", "daisy/dependency_graph.py: level_blocks, upstream, downstream, get_subgraph_blocks"]}
{"id": "C05", "title": "Every block is the task's ROI pair, shifted", "statement": "Every generated block's read and write ROI are the task's block read/write ROI shifted by one common offset that moves the write ROI by a whole number of write shapes from the start of the total write ROI; with 'shrink' both are clipped to the total ROIs and the context (read minus write margin) on each side stays the task's.", "quantifier": "every task geometry and block", "why_tests_cant": "context preservation must hold at every boundary position", "anchors": ["daisy/dependency_graph.py: level_blocks, shrink, fit_block", "daisy/task.py: Task.__init__"]}
{"id": "C06", "title": "Enumeration is complete, duplicate-free and in dependency order", "statement": "enumerate_all_dependencies yields each grid block exactly once, never hits the 'Unreachable!' error, and yields every block after all the blocks it depends on.", "quantifier": "every task geometry", "why_tests_cant": "ordering must hold for every level structure in every dimension", "anchors": ["daisy/dependency_graph.py: enumerate_all_dependencies, level_blocks, upstream"]}
{"id": "C07", "title": "upstream and downstream are inverse relations inside a task", "statement": "For blocks a, b of one task: b is listed in downstream(a) iff a is listed in upstream(b), each list only contains real blocks of the task with their proper ROIs, and contains no duplicates.", "quantifier": "every task geometry, every pair of blocks", "why_tests_cant": "one test walks one 1D example; the scheduler relies on it for all pairs", "anchors": ["daisy/dependency_graph.py: upstream, downstream, _level, compute_level_conflicts, get_conflict_offsets"]}
{"id": "C08", "title": "Conflicting blocks are ordered by dependencies", "statement": "With read_write_conflict=True, if the write ROI of one block overlaps the read ROI of another block of the same task then one of them is a (transitive) upstream dependency of the other.", "quantifier": "every task geometry in every dimension, every pair of blocks", "why_tests_cant": "pairs several levels apart are ordered only through chains over intermediate levels; needs an argument over all chains", "anchors": ["daisy/dependency_graph.py: compute_level_stride, compute_level_offsets, get_conflict_offsets, upstream"]}
{"id": "C09", "title": "No conflicts requested, no dependencies", "statement": "With read_write_conflict=False no block has upstream or downstream blocks inside the task and all blocks of the task are roots, i.e. available immediately.", "quantifier": "every task geometry", "why_tests_cant": "universal over geometries", "anchors": ["daisy/dependency_graph.py: compute_level_stride, compute_level_conflicts, num_roots, root_gen"]}
{"id": "C10", "title": "A sub-ROI query returns exactly the blocks that touch it", "statement": "get_subgraph_blocks(roi) returns each block of the task whose write ROI overlaps roi inside the total write ROI, exactly once and nothing else, for every roi that meets the total write ROI.", "quantifier": "every task geometry, every query ROI", "why_tests_cant": "floor/ceil alignment must be right at every boundary position", "anchors": ["daisy/dependency_graph.py: get_subgraph_blocks"]}
{"id": "C11", "title": "Queries outside the volume return nothing", "statement": "get_subgraph_blocks(roi) returns no blocks when roi does not meet the total write ROI.", "quantifier": "every task geometry, every query ROI", "why_tests_cant": "depends on where the origin lies relative to the grid", "anchors": ["daisy/dependency_graph.py: get_subgraph_blocks"]}
{"id": "C12", "title": "Dependencies between tasks are inverse relations", "statement": "If task D requires task U then for a block a of U and b of D: b is in downstream(a) iff a is in upstream(b) (otherwise a finished block does not wake its dependents, or wakes them twice).", "quantifier": "every pair of task geometries, every context, every fit, every pair of blocks", "why_tests_cant": "tests only use symmetric contexts with fit='valid'", "anchors": ["daisy/dependency_graph.py: DependencyGraph.upstream, downstream, BlockwiseDependencyGraph.get_subgraph_blocks"]}
{"id": "C13", "title": "Reads wait for the upstream task's writes", "statement": "If task D requires task U, a block of D is only handed out after every block of U whose write ROI (inside U's total write ROI) overlaps its read ROI has succeeded.", "quantifier": "every pipeline of tasks, every sequence of acquire/release calls, every check function outcome", "why_tests_cant": "must hold for every interleaving", "anchors": ["daisy/scheduler.py: acquire_block, release_block", "daisy/ready_surface.py: mark_success", "daisy/dependency_graph.py: DependencyGraph.upstream"]}
{"id": "C14", "title": "A block is handed out only after all its dependencies succeeded", "statement": "Whenever acquire_block returns or skips a block, every block listed by upstream() for it has been released as successful or skipped before.", "quantifier": "every dependency graph, every sequence of acquire/release calls with any outcomes and retries", "why_tests_cant": "quantifies over all histories", "anchors": ["daisy/scheduler.py: acquire_block, release_block, __update_ready_queue", "daisy/ready_surface.py"]}
{"id": "C15", "title": "No two blocks in flight conflict", "statement": "With read_write_conflict=True, at any moment no two blocks of the task that have been handed out and not yet released have one's write ROI overlapping the other's read ROI.", "quantifier": "every task geometry, every history of acquire/release calls, failures and retries included", "why_tests_cant": "this is the central concurrency guarantee; schedules are unbounded", "anchors": ["daisy/scheduler.py", "daisy/ready_surface.py", "daisy/dependency_graph.py", "daisy/task.py: Task docstring read_write_conflict"]}
{"id": "C16", "title": "A block is never handed out twice at once nor again after success", "statement": "Between two hand-outs of the same block there is a failed release of it, and after a block succeeded or was skipped it is never handed out, checked or skipped again.", "quantifier": "every history", "why_tests_cant": "quantifies over all histories", "anchors": ["daisy/scheduler.py: acquire_block, release_block", "daisy/ready_surface.py: mark_success"]}
{"id": "C17", "title": "Retries are exactly bounded", "statement": "A block that keeps failing is handed out exactly max_retries+1 times and then counted as failed once; a block is permanently failed only after max_retries+1 failed releases.", "quantifier": "every max_retries, every history", "why_tests_cant": "must hold for any interleaving of other blocks", "anchors": ["daisy/scheduler.py: release_block", "daisy/processing_queue.py: block_retries"]}
{"id": "C18", "title": "The scheduler never gets stuck", "statement": "If no block is in flight and acquire_block returns None for every task, then every block of every task has succeeded, failed permanently, or depends on a permanently failed block.", "quantifier": "every history, every pipeline", "why_tests_cant": "deadlock freedom over all histories", "anchors": ["daisy/scheduler.py", "daisy/ready_surface.py", "daisy/dependency_graph.py"]}
{"id": "C19", "title": "A pipeline whose downstream volume exceeds the upstream's coverage still completes", "statement": "Blocks of a downstream task whose read ROI touches no block of the upstream task are still scheduled, so the pipeline completes.", "quantifier": "every pipeline geometry", "why_tests_cant": "depends on geometry corner cases", "anchors": ["daisy/scheduler.py: Scheduler.__init__", "daisy/dependency_graph.py: DependencyGraph.roots, root_tasks"]}
{"id": "C20", "title": "Orphans are exactly the dependents of failures and are never run", "statement": "When a block fails permanently, precisely the blocks that transitively depend on it become orphaned; they are never handed out; other blocks still run.", "quantifier": "every dependency graph, every history", "why_tests_cant": "quantifies over all graphs and failure orders", "anchors": ["daisy/ready_surface.py: mark_failure", "daisy/scheduler.py: release_block"]}
{"id": "C21", "title": "Each orphan is counted once", "statement": "orphaned_count of a task equals the number of its distinct blocks that depend on a permanently failed block.", "quantifier": "every task geometry, every history with any number of failures", "why_tests_cant": "double counting needs particular failure orders in >1 dimension", "anchors": ["daisy/ready_surface.py: mark_failure, __remove_from_boundary", "daisy/scheduler.py: release_block", "tests/test_scheduler.py: test_orphan_double_counting"]}
{"id": "C22", "title": "Task counters mean what they say", "statement": "At any time ready_count, processing_count, completed_count, failed_count, skipped_count of a task are the numbers of its blocks that are ready, in flight, succeeded (incl. skipped), permanently failed, skipped; total_block_count is its number of blocks.", "quantifier": "every history", "why_tests_cant": "counter drift appears only after long histories", "anchors": ["daisy/task_state.py: TaskState", "daisy/scheduler.py"]}
{"id": "C23", "title": "is_done means done", "statement": "is_done() of a task is true exactly when every block of the task succeeded, failed permanently or was orphaned; pending_count is never negative.", "quantifier": "every task geometry, every history", "why_tests_cant": "depends on failure orders", "anchors": ["daisy/task_state.py: is_done, pending_count", "daisy/ready_surface.py"]}
{"id": "C24", "title": "Scheduler calls do not raise", "statement": "For every history in which only blocks in flight are released, with status SUCCESS or FAILED, acquire_block and release_block raise no exception (no failed assertion, KeyError or StopIteration) and terminate.", "quantifier": "every history", "why_tests_cant": "assertion reachability is over all histories", "anchors": ["daisy/scheduler.py", "daisy/ready_surface.py", "daisy/processing_queue.py"]}
{"id": "C25", "title": "check_function semantics", "statement": "A block for which check_function returns True is never handed to a worker, counts as completed and skipped, and unblocks its dependents; a check_function that raises counts as False.", "quantifier": "every check function behaviour (also time-varying), every history", "why_tests_cant": "check outcomes are arbitrary per call", "anchors": ["daisy/scheduler.py: acquire_block, __precheck"]}
{"id": "C26", "title": "Constructing a scheduler for a task with no room for a block works", "statement": "A task whose total ROI is too small for any block yields a scheduler with zero blocks rather than an exception.", "quantifier": "every task geometry", "why_tests_cant": "corner-case geometry", "anchors": ["daisy/dependency_graph.py: compute_level_stride, compute_level_offsets, num_roots", "daisy/scheduler.py: __init__"]}
{"id": "C27", "title": "The ready surface keeps only what it needs", "statement": "As documented, a block is kept in the surface iff it succeeded and some dependent is not yet settled; in particular after everything is done nothing is kept.", "quantifier": "every history", "why_tests_cant": "quantifies over all histories", "anchors": ["daisy/ready_surface.py: class docstring, mark_success"]}
{"id": "C28", "title": "Serial execution processes everything", "statement": "run_blockwise(multiprocessing=False) terminates and when it returns every block of every task was processed, skipped, permanently failed or orphaned, each processed in dependency order.", "quantifier": "every pipeline, process function and check function", "why_tests_cant": "depends on the interplay of check functions and task chains", "anchors": ["daisy/serial_server.py: SerialServer.run_blockwise"]}
{"id": "C29", "title": "Serial retries can succeed", "statement": "In the serial server a block whose first attempt is marked FAILED and whose retry returns normally without touching the status is counted as completed (as it is with the multiprocessing server).", "quantifier": "every task with max_retries >= 1", "why_tests_cant": "status is carried over between attempts", "anchors": ["daisy/serial_server.py: run_blockwise", "daisy/client.py: acquire_block", "daisy/scheduler.py: __queue_ready_block"]}
{"id": "C30", "title": "A block has at most one owner", "statement": "The server records exactly the blocks that are in flight, each with the one stream it was sent to; its ownership assertions never fail, for any message sequence.", "quantifier": "every sequence of client messages, disconnects and timeouts", "why_tests_cant": "quantifies over all message interleavings", "anchors": ["daisy/block_bookkeeper.py", "daisy/server.py: _handle_acquire_block, _safe_release_block"]}
{"id": "C31", "title": "Stale, duplicate and foreign returns are ignored", "statement": "A ReleaseBlock or BlockFailed for a block not currently in flight on that stream does not change the scheduler or the bookkeeping.", "quantifier": "every server state, message and stream", "why_tests_cant": "race conditions", "anchors": ["daisy/server.py: _safe_release_block", "daisy/block_bookkeeper.py: is_valid_return"]}
{"id": "C32", "title": "Lost blocks are returned exactly once", "statement": "Every block in flight on a closed stream is released to the scheduler as failed exactly once, at the next check, and a later return of it is ignored; blocks on open streams are not touched.", "quantifier": "every server state and set of closed streams", "why_tests_cant": "crash points", "anchors": ["daisy/server.py: _check_for_lost_blocks", "daisy/block_bookkeeper.py: get_lost_blocks"]}
{"id": "C33", "title": "Losing a block never raises, with processing timeouts too", "statement": "get_lost_blocks returns each lost block once and raises nothing, for every processing_timeout.", "quantifier": "every bookkeeper state, timeout and clock", "why_tests_cant": "needs the coincidence of a closed stream and a timeout", "anchors": ["daisy/block_bookkeeper.py: get_lost_blocks"]}
{"id": "C34", "title": "A failing block costs one retry", "statement": "A worker whose process function raises reports the failure twice (BlockFailed, then ReleaseBlock); the scheduler counts one failed attempt, whatever other messages arrive in between.", "quantifier": "every interleaving of messages of other clients", "why_tests_cant": "message interleavings", "anchors": ["daisy/client.py: acquire_block", "daisy/server.py: _handle_client_exception, _handle_release_block"]}
{"id": "C35", "title": "The server stops only when all tasks are done", "statement": "The event loop stops on its own only in a state where every task is_done; each task's start and done notification (and init_callback_fn) happens at most once, start before any of its blocks is sent.", "quantifier": "every message sequence", "why_tests_cant": "quantifies over all histories", "anchors": ["daisy/server.py: _check_all_tasks_completed, _recruit_workers", "daisy/server_observer.py"]}
{"id": "C36", "title": "Workers are only shut down when no block can still become ready for them", "statement": "RequestShutdown is sent to a client only when every block of its task is in flight, succeeded, failed or orphaned.", "quantifier": "every message sequence", "why_tests_cant": "depends on counters over all histories", "anchors": ["daisy/server.py: _handle_acquire_block", "daisy/task_state.py: pending_count"]}
{"id": "C37", "title": "Delayed requests are eventually answered", "statement": "If a worker's request was delayed and later a block of its task is ready, then the server answers the request after finitely many idle iterations of its event loop.", "quantifier": "every pipeline and server state", "why_tests_cant": "starvation is a property of infinite runs", "anchors": ["daisy/server.py: _get_client_message, _handle_acquire_block"]}
{"id": "C38", "title": "Client block protocol", "statement": "For every block received, Client.acquire_block sends exactly one ReleaseBlock with status SUCCESS or FAILED; SUCCESS iff the body finished without an Exception and left the status PROCESSING or set it to SUCCESS; an Exception also sends BlockFailed before the release and is not propagated; on shutdown or a closed stream it yields None and sends no release.", "quantifier": "every behaviour of the user's with-body and every server reply", "why_tests_cant": "all exits of the with body, incl. BaseException", "anchors": ["daisy/client.py: acquire_block, release_block"]}
{"id": "C39", "title": "run_blockwise schedules the closure of the given tasks", "statement": "run_blockwise runs exactly the given tasks and all their transitive upstream tasks, each once.", "quantifier": "every finite task graph", "why_tests_cant": "graph shape is arbitrary", "anchors": ["daisy/convenience.py: run_blockwise"]}
{"id": "C40", "title": "run_blockwise's result tells whether all blocks succeeded", "statement": "run_blockwise returns True iff all blocks of all tasks were successfully run (its documented result).", "quantifier": "every run", "why_tests_cant": "depends on the outcome of the run", "anchors": ["daisy/convenience.py: run_blockwise, _run_blockwise"]}
{"id": "C41", "title": "Message framing is lossless", "statement": "Any sequence of messages written to a stream is read back as the same sequence, however the bytes are chunked; a partial prefix of the bytes yields a prefix of the messages.", "quantifier": "every message list with payloads below 2^32 bytes, every chunking", "why_tests_cant": "chunk boundaries are arbitrary", "anchors": ["daisy/tcp/tcp_stream.py: _send_message, _get_message"]}
{"id": "C42", "title": "Message size limit", "statement": "Messages up to the documented 2^64 bytes can be sent.", "quantifier": "every message size", "why_tests_cant": "too large to test", "anchors": ["daisy/tcp/tcp_stream.py: _send_message", "docs/source/release.rst: v1.1"]}
{"id": "C43", "title": "The worker context survives the environment variable", "statement": "Context.from_env applied to Context.to_env gives back the same variables and values (as strings), for every context daisy can build.", "quantifier": "every set of keys and values", "why_tests_cant": "arbitrary strings, including separators", "anchors": ["daisy/context.py: to_env, from_env, __setitem__, __init__"]}
{"id": "C44", "title": "Worker pool size", "statement": "After set_num_workers(n) the pool has exactly n workers, the youngest being stopped first; detecting dead workers and replacing them keeps the number of workers; workers that exited normally are not replaced.", "quantifier": "every sequence of pool operations and worker deaths", "why_tests_cant": "all histories", "anchors": ["daisy/worker_pool.py", "daisy/task_worker_pools.py: check_worker_health"]}
{"id": "C45", "title": "A task never has more than num_workers workers", "statement": "The number of workers of a task never exceeds its num_workers, also when failing workers are restarted.", "quantifier": "every history of failures, deaths and recruitments", "why_tests_cant": "needs a particular order of death and failure report", "anchors": ["daisy/task_worker_pools.py: on_block_failure, check_worker_health", "daisy/worker_pool.py: stop, inc_num_workers"]}
{"id": "C46", "title": "Grid expansion", "statement": "expand_roi_to_grid / expand_write_roi_to_grid return the smallest grid-aligned ROI containing the given ROI (grid anchored at the first block's write ROI, resp. at the origin); expand_request_roi_to_grid returns that ROI grown by the read context.", "quantifier": "every ROI and grid", "why_tests_cant": "rounding at every position", "anchors": ["daisy/blocks.py: expand_roi_to_grid, expand_write_roi_to_grid, expand_request_roi_to_grid"]}
{"id": "C47", "title": "Frozen blocks keep their attribute set", "statement": "Once constructed, assigning an attribute a Block does not have raises, and assigning an existing one changes only that attribute.", "quantifier": "every sequence of attribute assignments", "why_tests_cant": "all sequences", "anchors": ["daisy/freezable.py", "daisy/block.py: Block.__init__"]}
{"id": "C48", "title": "Progress report is consistent", "statement": "After every notification the progress bar of a task shows its completed_count, and the final summary lists exactly the failures reported for it.", "quantifier": "every sequence of notifications", "why_tests_cant": "all histories", "anchors": ["daisy/cl_monitor.py"]}
{"id": "C49", "title": "Requests of disconnected clients are dropped", "statement": "A delayed request whose stream has closed is not answered with a block; no attempt of a block is spent on a client that is known to be gone.", "quantifier": "every server state and set of closed streams", "why_tests_cant": "needs a disconnect while the request is delayed", "anchors": ["daisy/server.py: _get_client_message, _handle_acquire_block, _check_for_lost_blocks"]}
{"id": "C50", "title": "Every request is answered exactly once or waits", "statement": "At every iteration of the event loop the number of AcquireBlock messages received from a client equals the number of answers (SendBlock, RequestShutdown) sent to it plus the number of its requests in the queues; the blocks sent belong to the task asked for.", "quantifier": "every message sequence, scheduler state and pipeline", "why_tests_cant": "quantifies over all message interleavings", "anchors": ["daisy/server.py: _get_client_message, _handle_acquire_block"]}
{"id": "C51", "title": "The outcome does not depend on the order of execution", "statement": "If a run has settled every block, the blocks that succeeded are exactly those that are neither bad (fail whenever they are tried) nor depend on a bad block; the permanently failed ones are the bad blocks that do not depend on another bad block; the rest are orphans. Hence two complete runs with the same bad blocks, in whatever order blocks are handed out and returned and by whichever server, end with the same successes, failures, orphans and counters.", "quantifier": "every pipeline, set of bad blocks, iteration order of sets, interleaving of acquire and release, serial and distributed server", "why_tests_cant": "quantifies over pairs of executions", "anchors": ["daisy/scheduler.py: acquire_block, release_block", "daisy/ready_surface.py: mark_success, mark_failure", "daisy/serial_server.py: run_blockwise", "daisy/server.py: _event_loop"]}
{"id": "C52", "title": "What observers are told, and the progress monitor of a run", "statement": "The serial server and the server report exactly the acquisitions and releases that happen, in that order, with current counts; a task is reported started once, before anything else about it, and done at most once, after its last block; the server reports exactly the failures that clients reported, and the serial server reports its exit last. A progress monitor attached to a run never raises, ends with each task's bar at its completed_count, and lists the blocks that failed.", "quantifier": "every pipeline, user functions, message sequence, disconnects", "why_tests_cant": "quantifies over all runs of the servers", "anchors": ["daisy/serial_server.py: run_blockwise", "daisy/server.py: notify_*, _handle_client_message, _check_for_lost_blocks", "daisy/server_observer.py", "daisy/cl_monitor.py"]}
{"id": "C53", "title": "Server and workers together: bounded work, no deadlock, every fair run ends", "statement": "Let a server and its workers exchange messages over ordered connections; workers ask for a block, work on it, return it or report an exception, leave when told so, may die at any moment with messages under way and be replaced. Then the server meets every assumption made about its clients in C30-C37 and C52. The number of steps that are work (moves of workers; server iterations that take a message, send, skip, take back a block or dismiss a worker) is at most 20 per attempt at a block, 1 per block and 7 per worker. With tasks listed after those they require, except those that require none, and a worker for each, there is no deadlock, and every run in which workers move, messages are taken and idle iterations recur and workers stop dying comes to its end with every block settled. run_blockwise keeps that order if the tasks are given in it, and makes it if the required tasks require none.", "quantifier": "every pipeline, crew, interleaving of workers and server, set of deaths and message losses at a death", "why_tests_cant": "quantifies over all interleavings of a concurrent system and over infinite runs; deadlocks depend on timing", "anchors": ["daisy/server.py: run_blockwise, _event_loop", "daisy/client.py: acquire_block", "daisy/worker_pool.py: check_for_errors", "daisy/convenience.py: run_blockwise"]}
{"id": "C54", "title": "The result of a distributed run depends on the bad blocks only", "statement": "In a fair run of the server with its workers, if the blocks called bad never end well and the others fail, for whatever reason including deaths of workers, at most max_retries times, the run ends and then the blocks that succeeded, failed for good and were orphaned are exactly those determined by the bad blocks and the dependencies.", "quantifier": "every pipeline, crew, interleaving, death of workers, set of bad blocks", "why_tests_cant": "quantifies over all interleavings and failures; combines termination with the outcome", "anchors": ["daisy/server.py: run_blockwise", "daisy/scheduler.py: release_block", "daisy/client.py: acquire_block"]}
{"id": "C55", "title": "A connection delivers in order, unaltered, and completely unless it is lost", "statement": "Between TCPClient and TCPServer, in each direction and for each connection: what was received (returned by get_message or waiting in the queue) is at any time the beginning of what was sent (send_message returned), leaving out messages that cannot be pickled in less than 2^32 bytes. If the connection is neither lost nor closed and the IO loops have nothing left to do, everything has been received. If disconnect() returned and no exception was raised or is waiting, the server has received everything the client sent.", "quantifier": "every number of connections, interleaving of main threads and IO loops, chunking of the bytes, moment of a loss", "why_tests_cant": "quantifies over all interleavings of four threads and all chunkings", "anchors": ["daisy/tcp/tcp_client.py: send_message, get_message, disconnect, _receive", "daisy/tcp/tcp_server.py: get_message, handle_stream", "daisy/tcp/tcp_stream.py: send_message, _send_message, _get_message"]}
{"id": "C56", "title": "The server receives every queued message, and one exception per connection", "statement": "TCPServer.get_message raises at most one exception for each connection, and after it nothing more of that connection is queued. A message in the queue is returned after as many further calls as there are messages before it and connections, plus one.", "quantifier": "every run, any number of connections and losses", "why_tests_cant": "quantifies over all runs; exceptions of other connections overtake messages", "anchors": ["daisy/tcp/tcp_server.py: get_message, _check_for_errors, handle_stream"]}
{"id": "C57", "title": "disconnect() ends", "statement": "The IO loops of a connection make at most a number of steps given by the bytes of the messages sent over it and of the goodbye. A client waiting in TCPClient.disconnect() returns once the IO loops have nothing left to do, whether the server acknowledged or the connection was lost.", "quantifier": "every run, chunking and loss", "why_tests_cant": "quantifies over all interleavings; a hang depends on timing", "anchors": ["daisy/tcp/tcp_client.py: disconnect, _receive", "daisy/tcp/tcp_server.py: handle_stream"]}
{"id": "C58", "title": "What a client's calls raise", "statement": "While the connection is neither lost nor closed, no call of TCPClient raises (the constructor raises if the connection cannot be made). Once it is gone and no call is under way, send_message and get_message raise: first the exception that ended it, unless that was raised before, then NotConnected; disconnect() returns.", "quantifier": "every run and moment of a loss", "why_tests_cant": "depends on the moment at which the IO loop's thread comes between two lines of the main thread", "anchors": ["daisy/tcp/tcp_client.py: send_message, get_message, disconnect, _check_for_errors, connected", "daisy/client.py: acquire_block"]}
{"id": "C59", "title": "A failing block does not end the run, whatever its exception", "statement": "A block function that raises is reported by BlockFailed, counted, and the run goes on with the other blocks, for every exception object.", "quantifier": "every exception object raised by a block function", "why_tests_cant": "exceptions with custom constructors that pickle but cannot be unpickled are rarely used in tests", "anchors": ["daisy/client.py: acquire_block", "daisy/server.py: _get_client_message", "daisy/tcp/tcp_server.py: handle_stream"]}
{"id": "C60", "title": "Server, pools and workers together", "statement": "In a run of the server with its worker pools: between iterations every pool of a started task has exactly num_workers members and every other pool none; every running process is in a pool, so at most num_workers processes of a task run at once; after an iteration every member of a pool is running or has left after being told to; no iteration raises; the server only meets clients that behave as in C53; the work done is bounded by the blocks, their retries, num_workers and the number of crashes.", "quantifier": "every pipeline, num_workers >= 1, max_block_failures and run, with workers killed at any moment", "why_tests_cant": "depends on the interleaving of deaths, failure reports, recruiting and reaping", "anchors": ["daisy/server.py: _event_loop, _recruit_workers", "daisy/task_worker_pools.py", "daisy/worker_pool.py", "daisy/worker.py", "daisy/client.py"]}
{"id": "C61", "title": "A run with worker processes ends", "statement": "If every iteration and every process that can go on eventually does, and finitely many processes are killed, the server stops, with every block settled; a block fails for good only if it is bad.", "quantifier": "every pipeline, num_workers and run", "why_tests_cant": "a hang depends on the moment at which a process dies; unbounded runs", "anchors": ["daisy/server.py: _event_loop", "daisy/worker_pool.py: reap_dead_workers, set_num_workers", "daisy/task_worker_pools.py: on_block_failure, recruit_workers", "daisy/client.py: acquire_block"]}
{"id": "C62", "title": "No worker process outlives the run", "statement": "After TaskWorkerPools.stop() no worker process that was ever started is still running and every pool is empty.", "quantifier": "every run, also with late failure reports and abandoned workers", "why_tests_cant": "processes could be lost from a pool in rare interleavings", "anchors": ["daisy/task_worker_pools.py: stop", "daisy/worker_pool.py: stop", "daisy/worker.py: stop"]}
{"id": "C63", "title": "max_block_failures", "statement": "A worker process that is running has been reported at most max_block_failures times for a failed block. The report that exceeds the limit ends this process and starts another one of the same task; no pool is left short. A running worker is ended by nothing else but its own exit, the stop of the pools, a reduction of the number of workers, or that report.", "quantifier": "every sequence of reports, exits, recruitments and health checks; every run of server, pools and workers", "why_tests_cant": "counts depend on the interleaving of reports, replacements and exits over unbounded runs", "anchors": ["daisy/task_worker_pools.py: on_block_failure", "daisy/worker_pool.py: stop, set_num_workers", "daisy/server.py: _handle_release_block, _handle_client_exception"]}
{"id": "C64", "title": "Exceptions of workers reach the server", "statement": "An iteration of the server's loop is left by an exception exactly if a worker process has raised one before, and then by the first one of the first task (in the order of the pools) that has one. Without such an exception every iteration completes. However the loop is left, no process survives the stop of the pools.", "quantifier": "every pipeline and run, whatever the workers do", "why_tests_cant": "the exception is queued by another process at any moment, together with up to 100 others", "anchors": ["daisy/worker.py: _Worker__spawn_wrapper", "daisy/worker_pool.py: check_for_errors", "daisy/task_worker_pools.py: check_worker_health, stop", "daisy/server.py: run_blockwise"]}
{"id": "C65", "title": "Whatever the workers do, the server is safe", "statement": "Workers that die, exit, raise, are interrupted or are replaced at any moment, in any order, still make fair clients of the server, so its safety properties hold; a block counts as done only if a worker that was sent this block said so or a check function did; a server that has stopped has settled every block.", "quantifier": "every pipeline and run, no condition on the workers", "why_tests_cant": "interleavings of deaths, closings of connections and messages still under way", "anchors": ["daisy/server.py", "daisy/block_bookkeeper.py", "daisy/client.py: acquire_block, release_block", "daisy/worker.py", "daisy/worker_pool.py"]}
{"id": "C66", "title": "How a call of run_blockwise ends", "statement": "A call that returns a value returns True exactly if every block of the pipeline is settled; False only if the main thread was interrupted. After an interrupt the server does nothing more to the blocks and the call returns. A call raises only what a worker process or the init callback of a task of the pipeline raised. However it ends, no worker process is left and the pools are empty.", "quantifier": "every pipeline, every run of server, pools and workers, every moment of the interrupt, callbacks that raise or not", "why_tests_cant": "interrupt and exceptions may come at any moment of any run", "anchors": ["daisy/convenience.py: run_blockwise, _run_blockwise", "daisy/server.py: run_blockwise, _event_loop, _recruit_workers"]}
{"id": "C67", "title": "Every call of run_blockwise comes to an end", "statement": "Every fair run in which the main thread is not interrupted and no worker process raises returns True with every block settled, with workers killed, replaced and interrupted in the middle of a block; the outcome of every block is determined by the blocks whose body does not succeed. Once the main thread was interrupted or a worker process raised, the loop is over.", "quantifier": "every pipeline whose task list is in order, every fair infinite run", "why_tests_cant": "liveness over all interleavings", "anchors": ["daisy/convenience.py: run_blockwise", "daisy/server.py: _event_loop", "daisy/client.py: acquire_block", "daisy/worker_pool.py"]}
{"id": "C68", "title": "No two processes work on the same block or on conflicting blocks", "statement": "While a worker process runs the body of a block, no other process runs the body of this block, of a block that writes what it reads or reads what it writes (tasks with read_write_conflict), or of a block of an upstream task whose output it reads (these have all succeeded); the server knows that this process has the block, and it has not been done before.", "quantifier": "every pipeline and run of server, pools and workers: deaths, exceptions, interrupts, replacements at any moment; connections are seen closed only of processes that are gone", "why_tests_cant": "races between the death of a worker, the loss of its block being noticed and late messages", "anchors": ["daisy/server.py: _handle_acquire_block, _check_for_lost_blocks", "daisy/block_bookkeeper.py", "daisy/worker_pool.py", "daisy/client.py: acquire_block"]}
{"id": "C69", "title": "A block stays with the process that works on it, without time limit", "statement": "As long as the process that works on a block neither ends nor is killed, the block stays with it, whatever the server and the other processes do and however long it takes; the server does not stop meanwhile. The timeout of a task, documented as the time after which the worker is killed and the block retried, has no effect.", "quantifier": "every pipeline and run, every length of the run", "why_tests_cant": "absence of a bound", "anchors": ["daisy/task.py: Task.timeout", "daisy/block_bookkeeper.py: get_lost_blocks", "daisy/server.py: __init__"]}
{"id": "C70", "title": "Running a pipeline again continues where an earlier run stopped", "statement": "If the tasks of an earlier run, ended at any moment and in any way, are run again with check functions that recognise the blocks done before, no recognised block is handed to a worker; once the second run has settled everything, every block that succeeded before is skipped, and a block is left undone only because an ancestor not recognised failed for good in this run. Over any number of runs the body of a block ends well at most once, and exactly once if the last run settles without failures.", "quantifier": "every pipeline, every prefix of every first run, any number of runs, every check function that says True at least of the blocks done", "why_tests_cant": "the first run may stop at every moment and in every state", "anchors": ["daisy/scheduler.py: acquire_block, __precheck", "daisy/task.py: check_function", "daisy/convenience.py: run_blockwise", "daisy/serial_server.py: run_blockwise"]}
{"id": "C71", "title": "Process functions are called with what they take", "statement": "Task accepts a process function as one that spawns workers exactly if it can be called without arguments, as one that processes blocks exactly if it can be called with one, and otherwise raises ValueError; it is then called that way.", "quantifier": "every signature", "why_tests_cant": "all signatures", "anchors": ["daisy/task.py: Task.__init__", "daisy/worker.py: _spawn_wrapper", "daisy/serial_server.py: run_blockwise"]}
{"id": "C72", "title": "The status a body assigns to its block is what is reported", "statement": "A body that assigns only attributes a block has and ends without an exception has its block reported done if the last status assigned is SUCCESS or PROCESSING or none was, and failed otherwise; assigning any attribute a block does not have makes the block be reported failed whatever was assigned before, and the worker carries on.", "quantifier": "every sequence of assignments in a body", "why_tests_cant": "all sequences", "anchors": ["daisy/client.py: acquire_block", "daisy/freezable.py", "daisy/block.py"]}
{"id": "C73", "title": "Blocks are skipped by the check function of their task only", "statement": "A block is skipped only if its task has a check function that returned True for it when asked; a block for which it always returns True is never handed out; if a pair of functions is given, the first is asked before and the second after the block is run.", "quantifier": "every pipeline, run and check function", "why_tests_cant": "all runs", "anchors": ["daisy/scheduler.py: __precheck, acquire_block", "daisy/task.py: check_function"]}
{"id": "C74", "title": "Every worker writes to log files of its own", "statement": "The output of a worker goes to worker_<id>.out and .err in the directory of its task below the log directory, no two workers share a file, whatever the tasks and directories are called; without a log directory nothing is redirected.", "quantifier": "all directories, task ids and worker ids", "why_tests_cant": "all strings", "anchors": ["daisy/logging.py", "daisy/worker.py: _spawn_wrapper", "daisy/client.py: __init__"]}
{"id": "C75", "title": "Blocks of a task are handed out in the order they become ready", "statement": "A block that is ready is not overtaken by a block of its task that becomes ready later: it is handed out (or skipped) at the latest after as many other blocks of its task as were ready. A failed block is tried again only after every block of its task that was ready when it failed. The first blocks handed out of a task that requires no other are its blocks of level 0, in the order of their enumeration.", "quantifier": "every pipeline and every sequence of requests and returned blocks", "why_tests_cant": "all executions", "anchors": ["daisy/processing_queue.py: get_next", "daisy/scheduler.py: __queue_ready_block, acquire_block, release_block"]}
{"id": "C76", "title": "The symbol shown for a finished task is the right one", "statement": "The symbol a progress monitor shows behind a task's name means what it says: a tick, that every block of the task succeeded; a cross, that a block failed for good; the empty set, that a block was orphaned. When failures lie apart it is exactly the right one of the three, and when the server has stopped every task of which a block was handed out has one.", "quantifier": "every pipeline, server run and serial run", "why_tests_cant": "all executions", "anchors": ["daisy/cl_monitor.py: on_task_done, _update_state", "daisy/task_state.py: is_done", "daisy/server.py: _check_all_tasks_completed", "daisy/serial_server.py: run_blockwise"]}
{"id": "C77", "title": "Every failure of a block has its own cause", "statement": "Whatever the worker processes do, a block fails as often as something went wrong with it and not more often: each failure that the scheduler is told of has a cause of its own, namely that the body raised an exception, left the status FAILED or was interrupted in a process that had the block, or that the process to which the block was last sent had died when the server looked at its connection. So a block fails for good only if that happened once more often than the task's max_retries, and if nothing of that kind happens nothing fails.", "quantifier": "every pipeline and every run of server, pools and workers", "why_tests_cant": "all interleavings of messages, deaths and closed connections", "anchors": ["daisy/server.py: _handle_client_message, _safe_release_block, _check_for_lost_blocks", "daisy/block_bookkeeper.py", "daisy/client.py: acquire_block", "daisy/scheduler.py: release_block"]}
{"id": "C78", "title": "A task state says what is true of the task", "statement": "The started flag of a task state is set exactly when a block of the task has been handed out. pending_count is the number of blocks of the task of which some input is still missing and none has failed for good, and so the five numbers the progress bar shows (pending, processing, completed, failed, orphaned) together with the ready blocks are all blocks of the task, each counted once. The text printed for a task state determines the flag and all numbers.", "quantifier": "every pipeline, every sequence of hand-outs and releases; every pair of task states", "why_tests_cant": "the counts have to be right after every interleaving, and the text has to be unambiguous for all numbers", "anchors": ["daisy/task_state.py: pending_count, __str__", "daisy/scheduler.py: acquire_block", "daisy/cl_monitor.py: _update_state"]}
{"id": "C79", "title": "The summary names the log files the workers wrote", "statement": "For a failure reported by a worker the execution summary prints a line of the form <name>.err / .out such that <name>.err and <name>.out are exactly the two files to which that worker's output was redirected, whatever the log directory and the task id look like (relative, absolute, with dots or repeated slashes). Each of the first ten failures of a task has its line, and lines of different workers differ.", "quantifier": "every log directory and task id that can be passed to a worker, every worker, every list of failures", "why_tests_cant": "the two names are computed in different processes, from a path there and from strings read from the environment here", "anchors": ["daisy/cl_monitor.py: on_server_exit", "daisy/logging.py: get_worker_log_basename, redirect_stdouterr", "daisy/worker.py: _spawn_wrapper", "daisy/context.py"]}
{"id": "C80", "title": "A server's address is where it listens, and workers connect to it", "statement": "If a TCP server starts, its address has the port that was bound and a host that is the given one, or a detected address at which a test connection worked, or 127.0.0.1. If the first attempt to bind succeeds it starts. A client in a worker whose environment has the context the server's worker starter built connects to exactly this address.", "quantifier": "every host argument, every outcome of binding ports, detecting the address and testing it, every log directory, task id and worker", "why_tests_cant": "failing binds, machines without network and hosts of other forms are not reproduced by tests; the address passes through text in an environment variable", "anchors": ["daisy/tcp/tcp_server.py: TCPServer.__init__, _get_address, _validate_address", "daisy/client.py: Client.__init__", "daisy/context.py", "daisy/worker.py"]}
{"id": "C81", "title": "Objects of a process share one IO loop, which runs in that process", "statement": "The IO loop used by a server, client or stream runs in a thread of the process the object was made in, in spite of the loop table being copied by forks; two objects of a process use the same loop unless the table was cleared in between; a process starts at most one loop more than it clears the table. After a process cleared the table (as run_blockwise does first) this holds for it and for the processes it starts even when ids of ended processes are used again.", "quantifier": "every sequence of object creations, clearings, forks and exits, every assignment of process ids", "why_tests_cant": "which loop is found depends on process ids and on what was copied at a fork; reuse of process ids cannot be provoked", "anchors": ["daisy/tcp/io_looper.py", "daisy/convenience.py: run_blockwise"]}
{"id": "C82", "title": "What the server's get_message can raise", "statement": "For each connection the server's get_message raises at most one exception. It is StreamClosedError or AttributeError only if the connection is broken, and the exception of unpickling only if the client sent something that can be pickled but not unpickled. With objects that survive pickling only the first two remain. The event loop expects StreamClosedError only, so AttributeError must not occur.", "quantifier": "every sequence of sends, bytes, reads, failures and disconnects on any number of connections, every pickle", "why_tests_cant": "needs a connection lost between two reads of one message", "anchors": ["daisy/tcp/tcp_server.py: handle_stream", "daisy/tcp/internal_messages.py", "daisy/tcp/tcp_stream.py: _get_message", "daisy/server.py: _get_client_message"]}
{"id": "C83", "title": "Where a worker's output goes", "statement": "After redirect_stdouterr(basename) everything written to sys.stdout or to descriptor 1, by the worker or by processes it starts, is appended to <basename>.out in the order in which it is written, everything written to sys.stderr or descriptor 2 to <basename>.err, and nothing else is written to them. With mode w the files start empty, with mode a after what they held. Other files and descriptors stay as they were. What is printed to a file object reaches its file in this order, up to what is still in the buffer.", "quantifier": "every state of the descriptors and file objects of a process in which descriptors 1 and 2 are open and belong to sys.__stdout__ and sys.__stderr__, every sequence of prints, flushes, writes, opens and closes that follows", "why_tests_cant": "depends on buffers, on reused descriptor numbers and on when file objects are closed", "anchors": ["daisy/logging.py: redirect_stdouterr", "daisy/logging.py: _file_reopen", "daisy/worker.py: _spawn_wrapper"]}
{"id": "C84", "title": "Monitors do not change what is logged", "statement": "However many command line monitors are made in a process, a record logged to the root logger is written once by each handler whose level and filters it passes, in the order of the handlers, in the handler's format; handlers that do not write to a terminal stay as they are. Logging raises nothing it would not raise without monitors, and the user can remove their handlers.", "quantifier": "every list of handlers, every number of monitors, every record", "why_tests_cant": "needs a terminal, many runs in one process, records that cannot be formatted", "anchors": ["daisy/cl_monitor.py: TqdmLoggingHandler", "daisy/cl_monitor.py: CLMonitor._wrap_logging_handlers", "daisy/cl_monitor.py: CLMonitor._is_tty_stream_handler"]}
{"id": "C85", "title": "How long run_blockwise takes to collect the tasks", "statement": "The loop that collects the tasks and those they require is passed exactly once for every chain of requirements that starts at one of the tasks given, and ends.", "quantifier": "every list of tasks with any requirements", "why_tests_cant": "the number of passes is not visible, and grows with the shape of the pipeline", "anchors": ["daisy/convenience.py: run_blockwise"]}
{"id": "C86", "title": "What release_block returns", "statement": "The dict that Scheduler.release_block returns has as keys exactly the tasks of which a block can be handed out now and could not before, each once, and contains every task whose state the call changed.", "quantifier": "every pipeline, every sequence of scheduler calls, every block in flight released with SUCCESS or FAILED", "why_tests_cant": "which tasks wake up depends on the geometry of the blocks and on everything that happened before", "anchors": ["daisy/scheduler.py: Scheduler.release_block, Scheduler.__update_ready_queue"]}
{"id": "C87", "title": "Running the tasks again until no block fails", "statement": "The loop of the tutorial - run the tasks with the serial server and a check function that recognises the blocks done before, until the failed_count is 0 - ends with every block done, each process function having ended well exactly once per block over all runs; if a block that failed for good in k runs no longer fails, it ends after at most 1 + k * (number of blocks) runs.", "quantifier": "every pipeline, every behaviour of the process functions, every check function that recognises exactly the done blocks", "why_tests_cant": "the number of runs and which blocks fail in which run are unbounded", "anchors": ["examples/tutorial.py:146-163", "daisy/serial_server.py: SerialServer.run_blockwise", "daisy/scheduler.py: Scheduler.acquire_block"]}
{"id": "C88", "title": "Server, workers and connections together", "statement": "With the real connections between them - two threads per process, queues, frames cut into chunks, pickled messages, sockets lost with the processes - the server meets the same clients as without them: it receives what workers say in the order in which they say it; every answer reaches a living worker once and in order; no call of a living worker's TCPClient raises, except for a failure to connect; a block counts as done only if a worker that was sent it did it or a check function said so; when the server stops every block is settled; only an exception raised by a worker or an AttributeError of the connection layer leaves its loop; no process outlives it.", "quantifier": "every pipeline, every interleaving of all threads, every chunking of the byte streams, every death of workers at any moment, all lossless picklings", "why_tests_cant": "the interleavings of main threads, IO threads, network and deaths are unbounded", "anchors": ["daisy/server.py", "daisy/client.py", "daisy/tcp/", "daisy/task_worker_pools.py", "daisy/worker.py"]}
{"id": "C89", "title": "Runs over the network end", "statement": "With threads, queues, sockets and pickles between the server and its workers a run still comes to its end if every thread is given the chance to go on: the server's loop stops, and then every block has succeeded, failed for good, or depends on a block that failed for good; which of the three depends only on which blocks fail.", "quantifier": "every pipeline, every fair interleaving of main threads, IO loops, network and processes, every chunking of the byte streams, finitely many deaths of workers at any moment, all lossless picklings", "why_tests_cant": "the runs are infinite in number and unbounded in length; a message stuck between two threads in one interleaving would make the run hang", "anchors": ["daisy/server.py", "daisy/client.py", "daisy/tcp/", "daisy/task_worker_pools.py", "daisy/worker.py"]}
{"id": "C90", "title": "Calls of run_blockwise over the network", "statement": "A call of run_blockwise, with threads, queues, sockets and pickles between the server and its workers, returns True if and only if every block of the tasks and of those they require has succeeded, failed for good, or depends on a block that failed for good; it returns False only if it was interrupted, and raises only what a worker or an init callback raised; no lost connection makes it raise anything. However it ends no worker process is left. An interrupt or an exception of a worker ends it without a further iteration. If every thread goes on and no block fails more than max_retries times it ends, returns True, and every block of every task has succeeded.", "quantifier": "every list of tasks, every interleaving of main threads, IO loops, network, processes and interrupts, every chunking of the byte streams, all deaths and exceptions of workers, all init callbacks, all lossless picklings", "why_tests_cant": "the interleavings of a call are infinite in number; a test sees a few of them", "anchors": ["daisy/convenience.py:run_blockwise", "daisy/server.py:run_blockwise", "daisy/client.py", "daisy/tcp/", "daisy/task_worker_pools.py", "daisy/worker.py"]}
{"id": "C91", "title": "No lost connection ends the server's loop", "statement": "With workers that run daisy's client, no AttributeError (see C82) comes out of the server's get_message: whenever processes of workers end, and their connections with them, also in the middle of a message or while an answer is being written, the next call gives nothing, a message of a worker, or a StreamClosedError, and as long as no worker raises an exception and the server has not stopped it makes its next iteration.", "quantifier": "every pipeline, every interleaving of main threads, IO loops, network and processes, every chunking of the byte streams, all deaths of workers at any moment, all lossless picklings of messages below 2^32 bytes", "why_tests_cant": "it is a race between two coroutines on a connection that breaks; a test would have to break it between two reads", "anchors": ["daisy/tcp/tcp_stream.py", "daisy/tcp/tcp_server.py:handle_stream", "daisy/server.py:_event_loop", "daisy/client.py"]}
{"id": "C92", "title": "Lost connections do not mislead the server", "statement": "If the network may lose the connection of any worker at any moment, while its process runs or not, the server still gets from a worker only messages about blocks it had sent to this worker, so that all that is proved of the server with honest clients holds; a block counts as done only if a worker that had been sent the block ended its body and said so, or a check function said so; no worker reports more than max_block_failures failures and runs on; get_message gives nothing, a message, a StreamClosedError, or the AttributeError of C82 because of the lost connection; apart from the latter only an exception raised by a worker ends the loop, and it does at the next iteration; no process outlives the loop.", "quantifier": "every pipeline, every interleaving of main threads, IO loops, network and processes, every chunking of the byte streams, every loss of a connection and every death of a worker at any moment, all lossless picklings, messages of any size", "why_tests_cant": "a connection can be lost between any two bytes and any two statements of five threads; tests do not cut connections", "anchors": ["daisy/server.py", "daisy/client.py", "daisy/tcp/", "daisy/block_bookkeeper.py", "daisy/task_worker_pools.py", "daisy/worker.py"]}
{"id": "C93", "title": "Whose body runs when, over the network", "statement": "With threads, queues, sockets and pickles between the server and its workers no two processes run the body of the same block, nor of two blocks of a task with read_write_conflict one of which writes where the other reads; a body runs only when every block that writes what it reads has succeeded and none of these runs; the server knows of each process that runs a body, and does not stop while one runs. None of this holds if a connection is lost while the process of its worker lives on.", "quantifier": "every pipeline, every interleaving of main threads, IO loops, network and processes, every chunking of the byte streams, all deaths of workers at any moment, all lossless picklings", "why_tests_cant": "two bodies that overlap in time on the same data are a race; tests that see none do not show that there is none", "anchors": ["daisy/server.py", "daisy/client.py", "daisy/tcp/", "daisy/block_bookkeeper.py", "daisy/scheduler.py", "daisy/worker.py"]}
{"id": "C94", "title": "Workers whose connections hold keep out of each other's way", "statement": "If the network may lose the connection of any worker at any moment, then of the processes whose connections were not lost no two run the body of the same block, nor of two blocks of a task with read_write_conflict one of which writes where the other reads; the server knows of each of them which block it runs, and the block is not done; the server does not stop while one of them runs a body. Any body, also of a process whose connection was lost, runs only when every block that writes what it reads has succeeded, and none of these is then run by a process whose connection was not lost. A process that runs the body of a block that is done, or that the server has sent to another process since, has lost its connection.", "quantifier": "every pipeline, every interleaving of main threads, IO loops, network and processes, every chunking of the byte streams, every loss of a connection and every death of a worker at any moment, all lossless picklings, messages of any size", "why_tests_cant": "a lost connection at an unlucky moment and a race between the other workers are two rare events at once", "anchors": ["daisy/server.py", "daisy/client.py", "daisy/tcp/", "daisy/block_bookkeeper.py", "daisy/scheduler.py", "daisy/worker.py"]}
{"id": "C95", "title": "Lost connections put no AttributeError into the server's loop", "statement": "If the network may lose the connection of any worker at any moment, no AttributeError is ever put into the server's exception queue or comes out of its get_message, given that of a write that fails some byte never arrives: get_message gives nothing, a message of a worker, or StreamClosedError, and the loop makes its next iteration as long as it has not stopped and no worker raised an exception. Without the condition on failing writes there are runs with an AttributeError.", "quantifier": "every pipeline, every interleaving of main threads, IO loops, network and processes, every chunking of the byte streams, every loss of a connection and every death of a worker at any moment, all lossless picklings, messages of any size", "why_tests_cant": "the stream is set to None by a failing write while another coroutine is between the two reads of a message; the window is a few instructions wide and needs a connection that breaks in one direction only", "anchors": ["daisy/tcp/tcp_stream.py", "daisy/tcp/tcp_server.py", "daisy/tcp/tcp_client.py", "daisy/server.py", "daisy/client.py"]}
{"id": "C96", "title": "What a call returns or raises though connections are lost", "statement": "A call of run_blockwise with multiprocessing, while the network may lose the connection of any worker at any moment: it returns True if and only if every block of the pipeline has succeeded, failed for good or cannot run because a block it depends on failed, and False only if the main thread was interrupted. A block counts as done only if a worker said that it had done the body of this block, which it had been sent, or a check function said so. An exception is one that a worker or an init callback raised, or an AttributeError of a lost connection, which cannot come if of a write that fails some byte never arrives. However the call ends, no worker process is left, cut off or not. Once a worker has raised an exception or the main thread was interrupted the call ends without a further iteration; as long as neither is the case and blocks remain, the server's loop goes on or an init callback raises.", "quantifier": "every pipeline, every interleaving of the calling thread, main threads, IO loops, network and processes, every chunking of the byte streams, every loss of a connection, every death of a worker and every interrupt at any moment, all lossless picklings, messages of any size", "why_tests_cant": "the value of a call after losses at arbitrary moments depends on interleavings of several processes, two IO loops and the network; tests of run_blockwise run on one machine whose connections are not lost", "anchors": ["daisy/convenience.py", "daisy/server.py", "daisy/worker_pool.py", "daisy/client.py", "daisy/tcp/tcp_stream.py", "daisy/tcp/tcp_server.py"]}
{"id": "C97", "title": "How often a body is begun though connections are lost", "statement": "However connections are lost and workers die, all processes together begin the body of a block at most max_retries + 1 times (max_retries taken as 0 if negative), and at most once more than attempts at this block were counted as failed; every begun body answers one hand-out of the block by the scheduler. Only a process itself begins a body, by a message of the server that it takes. The bound is reached in a run in which two processes are in the body of the same block at once.", "quantifier": "every pipeline with inverse dependency tables, every interleaving of main threads, IO loops, network and processes, every chunking of the byte streams, every loss of a connection and every death of a worker at any moment, all lossless picklings, messages of any size", "why_tests_cant": "counts bodies over all processes of a run, including those the server no longer hears of; a message delivered twice, or a block sent once more than retries allow after a loss at a particular moment, is not seen in a run that succeeds", "anchors": ["daisy/client.py", "daisy/server.py", "daisy/scheduler.py", "daisy/block_bookkeeper.py", "daisy/tcp/tcp_stream.py"]}
{"id": "C98", "title": "Bodies are begun exactly once in a call that sees no failure", "statement": "However a call of run_blockwise with multiprocessing ends, and whatever connections were lost, the number of times the body of a block was begun is determined by the run, at most max_retries + 1 and at most once more than attempts at the block were counted as failed. A block that succeeded was begun at least once unless check_function called it done. If the call returns True, no attempt was counted as failed and check_function called no block done, then every block of the tasks and of those they require succeeded and its body was begun exactly once, by one process. Returning True with every block succeeded and no failing body is not enough for that: a process cut off in a body is followed by another one that begins it again.", "quantifier": "every list of tasks with inverse dependency tables, every interleaving of main thread, server, workers, IO loops and network, every chunking of the byte streams, every loss of a connection, death of a worker and interrupt at any moment, all lossless picklings", "why_tests_cant": "the count is over all processes of all runs; a block reported as done without its body being begun, or begun twice without a failure being counted, shows only in particular interleavings of losses and messages", "anchors": ["daisy/convenience.py", "daisy/server.py", "daisy/client.py", "daisy/scheduler.py", "daisy/block_bookkeeper.py", "daisy/tcp/tcp_stream.py"]}
{"id": "C99", "title": "What the blocks leave in the arrays does not depend on the interleaving", "statement": "Let every body read and write single cells: it writes the array of its task inside its write ROI, and reads inside its read ROI what a required task is to write, the array of its own task outside its write ROI if the task has read_write_conflict, and arrays that no task writes. However the reads and writes of bodies that run at the same time are interleaved with each other and with the calls of the scheduler, and wherever attempts that failed were left off, every cell written only by blocks that succeeded holds what the blocks that succeeded leave when run one after another in the order in which they succeeded. Blocks that check_function calls done count as succeeded, if it calls a block done only when its body would change nothing. Any other order in which each block comes after its upstream blocks leaves the same, so two runs in which the same blocks succeeded leave the same arrays, and a run in which all succeeded leaves what any sequential run does. Without read_write_conflict a task that reads its own array does not have this.", "quantifier": "every list of tasks with inverse dependency tables, every sequence of scheduler calls, every program of a body that keeps to its ROIs (also data dependent ones), every interleaving of single reads and writes, every initial contents, any type of values, any point at which a failed attempt stops", "why_tests_cant": "a wrong dependency shows only when two bodies touch the same cell at the wrong moment; tests see one interleaving of a few blocks and mostly do not look at the data", "anchors": ["daisy/scheduler.py", "daisy/dependency_graph.py", "daisy/task.py", "daisy/block.py"]}
{"id": "C100", "title": "The serial server and worker processes leave the same in the arrays", "statement": "Let bodies be as in C99. The serial server runs each body between hand-out and release with nothing else running; a body that fails may have done any part of its work. Its runs are interleavings in the sense of C99. If the same blocks succeed under the serial server and in any other run of the scheduler on the same tasks, every cell written only by blocks that succeeded or were never handed out is left the same. A call of run_blockwise with worker processes over the network that returns True, with no block permanently failed, leaves every cell as a run of the serial server does in which all blocks succeed, however bodies were interleaved and whatever messages, processes and attempts were lost on the way.", "quantifier": "every list of tasks with inverse dependency tables, every check_function and process function of the serial server, every order in which ready blocks are picked, every run of run_blockwise over the network, every program of a body that keeps to its ROIs, every interleaving, every initial contents", "why_tests_cant": "tests run small pipelines under each server and look at whether blocks were called, not at whether the data is the same for all schedules", "anchors": ["daisy/serial_server.py", "daisy/server.py", "daisy/scheduler.py", "daisy/convenience.py"]}
{"id": "C101", "title": "Attempts that run on after their block was given up", "statement": "A block whose connection was closed, or whose time is over, is released as failed and handed out again, while its process may run on. In a run in which no block is released as failed nothing is given up, so C99 applies: if all blocks succeed, the arrays are those of any sequential run. If blocks are released as failed, cells written only by blocks that succeeded, did not fail and come after none that failed are still as in a sequential run, whatever given up attempts do (blocks that failed or come after one that did must not be skipped). For other cells this is false: all blocks succeed, every body keeps to its ROIs and every attempt comes to its end, yet the arrays are those of no sequential run, because the attempt that was given up writes the block again after the blocks beside it have changed what it reads.", "quantifier": "every list of tasks with inverse dependency tables, every sequence of scheduler calls, every program of a body that keeps to its ROIs, every interleaving of bodies and of given up attempts", "why_tests_cant": "needs a process that outlives its connection or its timeout by the time it takes to process the neighbouring blocks", "anchors": ["daisy/block_bookkeeper.py", "daisy/server.py", "daisy/client.py"]}
