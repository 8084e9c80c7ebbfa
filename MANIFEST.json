{
 "claims": [
  {
   "property": "C01",
   "status": "proved",
   "theorems": [
    "C01_write_rois_disjoint"
   ],
   "note": "Geometry: geom_ok = equal dimensions, positive write shape, read ROI contains write ROI, total ROI not smaller than the context."
  },
  {
   "property": "C02",
   "status": "proved",
   "theorems": [
    "C02_blocks_write_something",
    "C02_valid_covers_whole_cells",
    "C02_overhang_covers",
    "C02_shrink_partitions"
   ],
   "note": "Geometry: geom_ok = equal dimensions, positive write shape, read ROI contains write ROI, total ROI not smaller than the context. Partition for shrink: together with C01."
  },
  {
   "property": "C03",
   "status": "proved",
   "theorems": [
    "C03_counts_match",
    "C03_total_smaller_than_context_refuted"
   ],
   "note": "Geometry: geom_ok = equal dimensions, positive write shape, read ROI contains write ROI, total ROI not smaller than the context. Outside geom_ok (total ROI smaller than the context, no conflicts) num_blocks is negative: witness theorem."
  },
  {
   "property": "C04",
   "status": "partial",
   "theorems": [
    "C04_ids_unique_partial",
    "C04_ids_unique_across_tasks_partial",
    "C04_refuted"
   ],
   "note": "REFUTED in full: without read_write_conflict a write ROI may start before the read ROI and then two blocks share an id (int() truncation). Proved for every geom_ok task (read ROI contains write ROI)."
  },
  {
   "property": "C05",
   "status": "proved",
   "theorems": [
    "C05_blocks_are_shifted_rois",
    "C05_every_cell_has_a_block"
   ],
   "note": "Geometry: geom_ok = equal dimensions, positive write shape, read ROI contains write ROI, total ROI not smaller than the context."
  },
  {
   "property": "C06",
   "status": "proved",
   "theorems": [
    "C06_enumeration"
   ],
   "note": "Geometry: geom_ok = equal dimensions, positive write shape, read ROI contains write ROI, total ROI not smaller than the context."
  },
  {
   "property": "C07",
   "status": "proved",
   "theorems": [
    "C07_up_down_inverse"
   ],
   "note": "Geometry: geom_ok = equal dimensions, positive write shape, read ROI contains write ROI, total ROI not smaller than the context."
  },
  {
   "property": "C08",
   "status": "proved",
   "theorems": [
    "C08_conflicts_are_ordered"
   ],
   "note": "Geometry: geom_ok = equal dimensions, positive write shape, read ROI contains write ROI, total ROI not smaller than the context."
  },
  {
   "property": "C09",
   "status": "proved",
   "theorems": [
    "C09_no_conflict_no_dependencies"
   ],
   "note": "Geometry: geom_ok = equal dimensions, positive write shape, read ROI contains write ROI, total ROI not smaller than the context."
  },
  {
   "property": "C10",
   "status": "proved",
   "theorems": [
    "C10_subgraph_exact"
   ],
   "note": "Geometry: geom_ok = equal dimensions, positive write shape, read ROI contains write ROI, total ROI not smaller than the context."
  },
  {
   "property": "C11",
   "status": "partial",
   "theorems": [
    "C11_query_outside_partial",
    "C11_refuted"
   ],
   "note": "REFUTED: the empty intersection is placed at the origin, so if the origin lies strictly inside a grid cell that cell's block is returned. The partial theorem shows this is the only failure (iff)."
  },
  {
   "property": "C26",
   "status": "partial",
   "theorems": [
    "C26_no_conflict_partial",
    "C26_refuted",
    "C26_conflict_task_raises_refuted"
   ],
   "note": "REFUTED: a root task with read_write_conflict and no room always raises IndexError; without read_write_conflict it works."
  },
  {
   "property": "C12",
   "status": "partial",
   "theorems": [
    "C12_inverse_partial",
    "C12_asymmetric_context_refuted",
    "C12_overhang_downstream_refuted",
    "C12_overhang_upstream_refuted",
    "C12_origin_refuted"
   ],
   "note": "REFUTED: fails for asymmetric context, for overhang tasks of different extent, and when a block has the origin strictly inside. Proved for all pipelines with edges_ok (none of these)."
  },
  {
   "property": "C13",
   "status": "proved",
   "theorems": [
    "C13_reads_wait_for_writes"
   ],
   "note": "pipe_run: any pipeline of geom_ok tasks with distinct ids, any order of sets and any calls. No condition on the edges."
  },
  {
   "property": "C14",
   "status": "proved",
   "theorems": [
    "C14_dependencies_first"
   ],
   "note": "pipe_run: any pipeline of geom_ok tasks with distinct ids, any order of sets and any calls. No condition on the edges."
  },
  {
   "property": "C15",
   "status": "partial",
   "theorems": [
    "C15_no_conflict_in_flight",
    "C15_no_conflict_in_flight_pipeline",
    "C15_pipeline_refuted"
   ],
   "note": "REFUTED where C12 fails. Proved for every single task, and inside every pipeline with inverse dependencies. Witness: in a pipeline whose dependencies are not inverse (C12) two conflicting blocks are in flight."
  },
  {
   "property": "C16",
   "status": "partial",
   "theorems": [
    "C16_between_hand_outs_partial",
    "C16_never_again_partial",
    "C16_handed_out_twice_refuted"
   ],
   "note": "REFUTED where C12 fails (block in flight three times at once). Hypotheses: inverse (= C12, proved for every edges_ok pipeline and every independent task), enough fuel (proved to exist: fuel_suffices). "
  },
  {
   "property": "C17",
   "status": "partial",
   "theorems": [
    "C17_hand_outs_bounded_partial",
    "C17_offered_again_partial",
    "C17_more_than_max_retries_refuted"
   ],
   "note": "REFUTED where C12 fails. Counted once: C22. Hypotheses: inverse (= C12, proved for every edges_ok pipeline and every independent task), enough fuel (proved to exist: fuel_suffices). "
  },
  {
   "property": "C18",
   "status": "partial",
   "theorems": [
    "C18_never_stuck_partial",
    "C18_no_ready_task_partial",
    "C18_stuck_refuted",
    "independent_tasks_ok",
    "fuel_suffices"
   ],
   "note": "REFUTED where C12 fails (stuck with no block of the second task run). Hypotheses: inverse (= C12, proved for every edges_ok pipeline and every independent task), enough fuel (proved to exist: fuel_suffices). and no_lonely (C19)."
  },
  {
   "property": "C19",
   "status": "partial",
   "theorems": [
    "C19_lonely_block_refuted",
    "C19_lonely_never_run",
    "C19_covered_completes_partial",
    "C19_inside_upstream_completes_partial"
   ],
   "note": "REFUTED: a block of a dependent task that depends on nothing is never run, in every such pipeline. Proved to complete if every block of a dependent task reads something a required task writes; geometric sufficient condition inside_upstream."
  },
  {
   "property": "C20",
   "status": "partial",
   "theorems": [
    "C20_orphans_never_run_partial",
    "C20_reported_orphans_partial",
    "C20_dependents_missed_refuted"
   ],
   "note": "REFUTED where C12 fails (dependents not marked). Hypotheses: inverse (= C12, proved for every edges_ok pipeline and every independent task), enough fuel (proved to exist: fuel_suffices). Other blocks still run: C18."
  },
  {
   "property": "C21",
   "status": "partial",
   "theorems": [
    "C21_orphans_counted_partial",
    "C21_never_too_few_partial",
    "C21_conditions",
    "C21_context_in_one_dimension",
    "C21_counted_twice_refuted"
   ],
   "note": "REFUTED for a single two-dimensional task: five counted, four distinct. Exact if the failures lie apart (apart_failures): those that orphan a block of which a direct upstream block succeeded do so through the same direct upstream blocks. So it is if no block has more than two upstream blocks (e.g. context in one dimension), if there was one failure, if no block depends on two failed ones, or if no orphan has a successful upstream block (C21_conditions). Never too few. Hypotheses: inverse (= C12, proved for every edges_ok pipeline and every independent task), enough fuel (proved to exist: fuel_suffices). "
  },
  {
   "property": "C22",
   "status": "partial",
   "theorems": [
    "C22_counters_partial",
    "C22_ready_partial",
    "C22_counters_single_task",
    "C22_ready_count_refuted"
   ],
   "note": "REFUTED where C12 fails. All counters proved for every single task without further hypotheses (C22_counters_single_task). Hypotheses: inverse (= C12, proved for every edges_ok pipeline and every independent task), enough fuel (proved to exist: fuel_suffices). "
  },
  {
   "property": "C23",
   "status": "partial",
   "theorems": [
    "C23_done_partial",
    "C23_negative_pending_refuted",
    "C23_done_too_early_refuted",
    "C23_never_done_refuted"
   ],
   "note": "REFUTED for a single task: is_done true with a block in flight; is_done false forever though everything is settled; pending_count -1. Proved under the conditions of C21."
  },
  {
   "property": "C24",
   "status": "partial",
   "theorems": [
    "C24_no_exception_partial",
    "C24_release_raises_refuted"
   ],
   "note": "REFUTED where C12 fails (KeyError). Terminates: fuel bound quadratic in the number of blocks. Hypotheses: inverse (= C12, proved for every edges_ok pipeline and every independent task), enough fuel (proved to exist: fuel_suffices). "
  },
  {
   "property": "C25",
   "status": "proved",
   "theorems": [
    "C25_skip_iff_check_true",
    "C25_raising_check_is_false",
    "C25_skip_like_success"
   ],
   "note": "For every dependency graph and every state. Never handed out later: C16_never_again_partial; counters: C22."
  },
  {
   "property": "C27",
   "status": "partial",
   "theorems": [
    "C27_surface_partial",
    "C27_surface_keeps_block_refuted"
   ],
   "note": "REFUTED: after all four blocks of a one-dimensional task succeeded one is still in the surface. Proved: only succeeded blocks are kept, and every one that still has an unsettled dependent."
  },
  {
   "property": "C28",
   "status": "partial",
   "theorems": [
    "C28_serial_partial",
    "C28_no_skips_partial",
    "C28_independent_tasks_partial",
    "C28_dependency_order",
    "C28_returned_partial",
    "C28_ends",
    "C28_all_skipped_refuted",
    "C28_stops_early_refuted",
    "C28_key_error_refuted"
   ],
   "note": "REFUTED: when all blocks of the ready tasks are skipped in one round the loop returns with the downstream tasks not run; over-counted orphans (C21) make it return early or raise KeyError. Proved: terminates and settles every block if nothing is skipped in the last round, or tasks are independent, where C12, no_lonely and C23's condition hold; C28_ends and C28_returned_partial: whatever the process functions do, the server ends, and the same is true whenever it returns. Process functions that raise end run_blockwise and are excluded. "
  },
  {
   "property": "C29",
   "status": "partial",
   "theorems": [
    "C29_explicit_success_partial",
    "C29_retry_fails_refuted"
   ],
   "note": "REFUTED: the retried block carries the status FAILED of the first attempt, which the serial server takes for a second failure. Proved: a retry that sets any other status is counted as completed."
  },
  {
   "property": "C38",
   "status": "partial",
   "theorems": [
    "C38_block_partial",
    "C38_no_block_partial",
    "C38_at_most_one_release",
    "C38_closed_before_refuted",
    "C38_lost_in_body_refuted",
    "C38_interrupt_refuted",
    "C38_worker_trace",
    "C38_worker"
   ],
   "note": "REFUTED: a stream that is closed while the body runs loses the release and raises out of the with statement; an interrupt (no Exception) after the body set SUCCESS is released as SUCCESS; a stream closed before the request raises instead of yielding None. Proved: the protocol in every other case, never two releases for one block, and the language of messages of a worker's whole run."
  },
  {
   "property": "C41",
   "status": "proved",
   "theorems": [
    "C41_lossless",
    "C41_prefix"
   ],
   "note": "Every list of messages below 2^32 bytes, every chunking."
  },
  {
   "property": "C42",
   "status": "partial",
   "theorems": [
    "C42_limit_partial",
    "C42_message_size_refuted"
   ],
   "note": "REFUTED: the size field is 4 bytes wide, struct.error from 2^32 bytes on although MAX_MESSAGE_SIZE documents 2^64. Proved: sendable iff below 2^32."
  },
  {
   "property": "C43",
   "status": "partial",
   "theorems": [
    "C43_round_trip_iff",
    "C43_worker_context",
    "C43_refuted",
    "C43_other_value_refuted"
   ],
   "note": "REFUTED: a key or value with ':' or '=' is lost, raises or gives other values. Proved: exact condition (iff) for the round trip, and that the contexts of workers satisfy it when host name, task id and log directory are free of both characters."
  },
  {
   "property": "C46",
   "status": "proved",
   "theorems": [
    "C46_expand_roi_to_grid",
    "C46_expand_write_roi_to_grid",
    "C46_expand_request_roi_to_grid"
   ],
   "note": "All ROIs, grids with positive block shapes."
  },
  {
   "property": "C39",
   "status": "proved",
   "theorems": [
    "C39_closure",
    "C39_same_ids",
    "C39_scheduled"
   ],
   "note": "Finite task trees (shared subtasks allowed) with distinct ids; with equal ids the first task met is kept (C39_same_ids)."
  },
  {
   "property": "C40",
   "status": "partial",
   "theorems": [
    "C40_true_iff_settled_partial",
    "C40_success_partial",
    "C40_true_after_failure_refuted",
    "C40_serial_always_true_refuted"
   ],
   "note": "REFUTED: with multiprocessing the result is True although a block failed; without, the dict of states is returned, which is true in every run. Proved: where is_done is right (C23), True iff every block succeeded, failed for good or was orphaned; True if all succeeded, with or without retries."
  },
  {
   "property": "C44",
   "status": "proved",
   "theorems": [
    "C44_set_num_workers",
    "C44_replace_dead",
    "C44_health_keeps_number"
   ],
   "note": "All sequences of pool operations and deaths; younger = higher worker id (ids are handed out in increasing order)."
  },
  {
   "property": "C45",
   "status": "partial",
   "theorems": [
    "C45_bound_partial",
    "C45_excess_partial",
    "C45_recruit",
    "C45_at_once_partial",
    "C45_one_too_many_refuted"
   ],
   "note": "REFUTED: if the last of max_block_failures+1 failures of a worker is handled after the worker crashed and was replaced, another worker is started. Proved: the bound (workers and running processes) if no worker outside its pool is restarted; in general one more per such restart, until workers are recruited again. C45_at_once_partial: in prudent runs (C60) no more than num_workers blocks of a task are processed at the same time."
  },
  {
   "property": "C47",
   "status": "partial",
   "theorems": [
    "C47_frozen_partial",
    "C47_any_assignments",
    "C47_thaw_refuted"
   ],
   "note": "C47_any_assignments describes every sequence of assignments exactly: an unknown name raises as long as the private flag was not last assigned a false value (as thaw() does). The claim as stated fails once that was done: C47_thaw_refuted."
  },
  {
   "property": "C48",
   "status": "partial",
   "theorems": [
    "C48_bar_partial",
    "C48_summary_partial",
    "C48_no_exception",
    "C48_skipped_block_refuted",
    "C48_after_done_refuted",
    "C48_more_than_100_refuted"
   ],
   "note": "REFUTED: blocks skipped without a hand-out are not notified, so the bar stays behind; a closed bar is not updated; more than 100 failures are only counted. Proved: the bar shows the count of the last acquire/release notification until the task is done; the summary has exactly the failures reported since the task's start, the first 100 listed."
  },
  {
   "property": "C30",
   "status": "partial",
   "theorems": [
    "C30_one_owner_partial",
    "C30_assertion_fails_refuted"
   ],
   "note": "REFUTED where C12 fails: the same block is handed out twice and the assertion in notify_block_sent fails. Proved otherwise. server_run_to: any pipeline with inverse dependencies (C12), any sequence of AcquireBlock for its tasks, ReleaseBlock / BlockFailed for its blocks (from any stream, any number of times), disconnects and idle periods; init callbacks and health checks that do not raise. "
  },
  {
   "property": "C31",
   "status": "proved",
   "theorems": [
    "C31_ignored",
    "C31_not_in_flight"
   ],
   "note": "For every server state, scheduler and message. BlockFailed still notifies the observers of a failure."
  },
  {
   "property": "C32",
   "status": "proved",
   "theorems": [
    "C32_lost_once"
   ],
   "note": "server_run_to: any pipeline with inverse dependencies (C12), any sequence of AcquireBlock for its tasks, ReleaseBlock / BlockFailed for its blocks (from any stream, any number of times), disconnects and idle periods; init callbacks and health checks that do not raise. "
  },
  {
   "property": "C33",
   "status": "partial",
   "theorems": [
    "C33_lost_partial",
    "C33_no_timeout",
    "C33_closed_and_old_refuted"
   ],
   "note": "REFUTED: a block that is both on a closed stream and older than the timeout is removed twice, KeyError. Exactly then: C33_lost_partial. The server itself uses no timeout (C33_no_timeout)."
  },
  {
   "property": "C34",
   "status": "proved",
   "theorems": [
    "C34_counts_one",
    "C34_one_request",
    "C34_one_attempt_partial",
    "C77_every_failure_has_a_cause"
   ],
   "note": "server_run_to: any pipeline with inverse dependencies (C12), any sequence of AcquireBlock for its tasks, ReleaseBlock / BlockFailed for its blocks (from any stream, any number of times), disconnects and idle periods; init callbacks and health checks that do not raise. C34_one_request: the condition of C34_counts_one that the client has no request open holds for every worker in every run of server and workers. C77_every_failure_has_a_cause: in such runs no body, and no death, counts twice."
  },
  {
   "property": "C35",
   "status": "partial",
   "theorems": [
    "C35_once",
    "C35_done_reported",
    "C35_stops_when_settled_partial",
    "C35_does_stop_partial",
    "C35_started_first_partial",
    "C35_stops_early_refuted",
    "C35_hangs_refuted",
    "C35_sent_before_start_refuted"
   ],
   "note": "Stops only if every task is_done and reported; start, done and init at most once. REFUTED: start before the first block is sent fails if a request for a task arrives that has not been started (its blocks became ready by a skip). is_done itself may be wrong (C23): server stops with a block in flight, or hangs for ever. Proved under the condition of C23. server_run_to: any pipeline with inverse dependencies (C12), any sequence of AcquireBlock for its tasks, ReleaseBlock / BlockFailed for its blocks (from any stream, any number of times), disconnects and idle periods; init callbacks and health checks that do not raise. "
  },
  {
   "property": "C36",
   "status": "partial",
   "theorems": [
    "C36_shutdown_partial",
    "C36_shutdown_early_refuted"
   ],
   "note": "REFUTED for a single two-dimensional task after two permanent failures (over-counted orphans, C21): shutdown while a block can still run. Proved under the condition of C21. server_run_to: any pipeline with inverse dependencies (C12), any sequence of AcquireBlock for its tasks, ReleaseBlock / BlockFailed for its blocks (from any stream, any number of times), disconnects and idle periods; init callbacks and health checks that do not raise. "
  },
  {
   "property": "C37",
   "status": "partial",
   "theorems": [
    "C37_first_queue_partial",
    "C37_starves",
    "C37_starved_refuted"
   ],
   "note": "REFUTED: requests of the first task in the order given block those of all later tasks; three tasks in a row deadlock with nothing in flight. In general (C37_starves): no request at all is answered while the first non-empty queue belongs to a task that cannot run. Proved for that first queue: the request at position n is answered within n+1 idle iterations."
  },
  {
   "property": "C49",
   "status": "partial",
   "theorems": [
    "C49_dead_client_refuted",
    "C49_bounded_partial"
   ],
   "note": "REFUTED: the block is handed to the closed stream, lost at once and counted as a failed attempt. C49_bounded_partial: the blocks sent to a client are never more than the requests it made before it was gone, and after each iteration that finds it gone it holds none."
  },
  {
   "property": "C50",
   "status": "proved",
   "theorems": [
    "C50_answered_once",
    "C50_answered_for_task_partial"
   ],
   "note": "C50_answered_once: for every scheduler, message sequence and callback. Per task: server_run_to: any pipeline with inverse dependencies (C12), any sequence of AcquireBlock for its tasks, ReleaseBlock / BlockFailed for its blocks (from any stream, any number of times), disconnects and idle periods; init callbacks and health checks that do not raise. "
  },
  {
   "property": "C51",
   "status": "partial",
   "theorems": [
    "C51_outcome_partial",
    "C51_order_irrelevant_partial",
    "C51_serial_partial",
    "C51_servers_agree_partial",
    "C51_orphan_count_refuted"
   ],
   "note": "Sets of blocks and the counters total, completed, failed: for every pipeline whose up- and downstream are inverse to each other. REFUTED for the counter orphaned (and with it is_done), which depends on the order where C21 fails; proved under the condition of C21. server_run_to: any pipeline with inverse dependencies (C12), any sequence of AcquireBlock for its tasks, ReleaseBlock / BlockFailed for its blocks (from any stream, any number of times), disconnects and idle periods; init callbacks and health checks that do not raise. "
  },
  {
   "property": "C52",
   "status": "partial",
   "theorems": [
    "C52_serial",
    "C52_serial_monitor",
    "C52_server",
    "C52_server_monitor_partial",
    "C52_exit",
    "C52_report_partial",
    "C52_serial_failures_not_listed_refuted",
    "C52_monitor_raises_refuted",
    "C52_lost_not_listed_refuted"
   ],
   "note": "What is reported: proved for both servers, any scheduler, messages and user functions. Monitor: proved for the serial server (bar if no block was skipped, C48) and for the server if clients ask for started tasks and report failures of blocks sent to them; the bar then under the condition of C23. REFUTED: the serial server never lists failed blocks, though it counts them; blocks lost with their client are not listed; a failure reported for a task not started makes the monitor raise KeyError in the server's event loop. server_run_to: any pipeline with inverse dependencies (C12), any sequence of AcquireBlock for its tasks, ReleaseBlock / BlockFailed for its blocks (from any stream, any number of times), disconnects and idle periods; init callbacks and health checks that do not raise. "
  },
  {
   "property": "C53",
   "status": "partial",
   "theorems": [
    "C53_server",
    "C53_bounded_work",
    "C53_no_deadlock_partial",
    "C53_ends_partial",
    "C53_order_kept",
    "C53_two_levels",
    "C53_downstream_first_refuted"
   ],
   "note": "Server's assumptions and bound on work: proved for every pipeline whose up- and downstream are inverse to each other, every crew and interleaving. No deadlock and termination: proved for tasks listed after those they require (tasks that require none may come anywhere) with a worker each, under the condition of C21 and for pipelines without lonely blocks (C19). run_blockwise makes such a list if the required tasks require none (C53_two_levels). REFUTED for three levels listed downstream first, the order in which run_blockwise puts a task and those it requires: a fair run without any failure in which the server waits for ever though a block is ready. Left out: interrupted workers, workers that exit with code 0 while they hold a block."
  },
  {
   "property": "C54",
   "status": "partial",
   "theorems": [
    "C54_result_partial",
    "C54_steady_partial"
   ],
   "note": "Under the conditions of C53_ends_partial. C54_steady_partial: without deaths and if the body of a block ends well exactly when the block is not bad, nothing is assumed about the number of failures."
  },
  {
   "property": "C55",
   "status": "partial",
   "theorems": [
    "C55_to_server",
    "C55_to_client",
    "C55_nothing_lost",
    "C55_goodbye",
    "C55_dropped_refuted",
    "C55_answer_lost_refuted"
   ],
   "note": "Proved for every pickle that loads, if at all, what was dumped; C55_nothing_lost if every pickle can be loaded. REFUTED beyond that: send_message returns for a message that cannot be pickled, which is dropped though the connection is fine; an answer that already is in the client's queue when the connection is lost is never returned."
  },
  {
   "property": "C56",
   "status": "proved",
   "theorems": [
    "C56_one_exception",
    "C56_served"
   ],
   "note": "Every pickle that loads, if at all, what was dumped."
  },
  {
   "property": "C57",
   "status": "partial",
   "theorems": [
    "C57_bounded",
    "C57_disconnect_ends",
    "C57_hangs_refuted"
   ],
   "note": "C57_disconnect_ends: if every pickle can be loaded. REFUTED otherwise: after one message the server cannot unpickle it has stopped reading, and disconnect() waits for ever."
  },
  {
   "property": "C58",
   "status": "partial",
   "theorems": [
    "C58_fine",
    "C58_gone",
    "C58_race_refuted"
   ],
   "note": "REFUTED while a call is under way at the moment of the loss: get_message (and with it acquire_block, which only handles StreamClosedError) raises NotConnected, send_message and disconnect() AttributeError."
  },
  {
   "property": "C59",
   "status": "partial",
   "theorems": [
    "C59_bad_exception_refuted",
    "C59_arrived_partial"
   ],
   "note": "C59_arrived_partial: a report that arrives is counted and announced, the other blocks stay where they are, and the loop goes on. For other reports REFUTED: an exception that pickles but does not unpickle makes the server's get_message raise, which ends the event loop while other blocks are being processed."
  },
  {
   "property": "C60",
   "status": "partial",
   "theorems": [
    "C60_pools_partial",
    "C60_replaced_partial",
    "C60_serves_partial",
    "C60_server_partial",
    "C60_bounded_work_partial"
   ],
   "note": "For runs meeting [prudent] (WholeStep.v): no worker connects while a dead worker of its task still holds a block, no process ends with exit code 0 before it was told to, or with its last failure report under way, a closed connection of a dead worker is seen closed unless a worker of its task is still to connect. Without it: C61_late_report_refuted."
  },
  {
   "property": "C61",
   "status": "partial",
   "theorems": [
    "C61_ends_partial",
    "C61_result_partial",
    "C61_exit_code_0_refuted",
    "C61_replaced_too_early_refuted",
    "C61_late_report_refuted",
    "C61_closed_late_refuted",
    "C61_no_workers_refuted",
    "C61_innocent_block_refuted"
   ],
   "note": "Proved for prudent runs (see C60), with the conditions of C53. REFUTED without each of the four parts of prudence, and for num_workers = 0: the server waits for ever though a block can run. The result is proved if innocent blocks do not fail more often than max_retries; REFUTED without: a request of a worker its pool has just killed costs a block an attempt."
  },
  {
   "property": "C62",
   "status": "proved",
   "theorems": [
    "C62_none_outlives",
    "C62_stop"
   ],
   "note": ""
  },
  {
   "property": "C63",
   "status": "proved",
   "theorems": [
    "C63_limit",
    "C63_replaced",
    "C63_only_then",
    "C63_whole"
   ],
   "note": "C63_limit, C63_replaced and C63_only_then for the pools alone, C63_whole for server, pools and workers together (WholeAny.v)."
  },
  {
   "property": "C64",
   "status": "proved",
   "theorems": [
    "C64_raises",
    "C64_only_workers",
    "C64_ends",
    "C64_goes_on",
    "C64_none_outlives"
   ],
   "note": "Exceptions are values of type exn; one that cannot be pickled is lost (the worker then exits with code 0, which the model allows), one whose pickle cannot be read back is left out (C59)."
  },
  {
   "property": "C65",
   "status": "partial",
   "theorems": [
    "C65_server",
    "C65_done_by",
    "C65_settled_partial"
   ],
   "note": "C65_server and C65_done_by hold without condition. That a server that stopped has settled every block is proved under the condition of C35 (failures apart, see C21); C35 is refuted without."
  },
  {
   "property": "C66",
   "status": "partial",
   "theorems": [
    "C66_value_partial",
    "C66_false_partial",
    "C66_interrupted",
    "C66_only_server_stops",
    "C66_raised",
    "C66_none_outlives",
    "C66_again_refuted"
   ],
   "note": "C66_interrupted, C66_raised and C66_none_outlives hold without condition on the graph. The two about the value need the condition of C35 (failures apart, see C21). C66_again_refuted: a Server object used a second time processes nothing."
  },
  {
   "property": "C67",
   "status": "partial",
   "theorems": [
    "C67_all_well",
    "C67_one_task",
    "C67_one_task_result",
    "C67_ends_partial",
    "C67_result_partial",
    "C67_over"
   ],
   "note": "C67_one_task and C67_one_task_result: for a single task without context in more than one dimension, no condition but prudent deaths and fairness. C67_over holds without condition. C67_all_well: any tasks that write where one they require does and are given in order (or one level deep), if no block fails more than max_retries times: the call returns True and every block has succeeded. The others under those of C61: tasks in order, no block of a task with requirements without upstream blocks, failures apart (C21), prudent deaths (each shown necessary, P_WholeCE.v)."
  },
  {
   "property": "C68",
   "status": "proved",
   "theorems": [
    "C68_one_process",
    "C68_known",
    "C68_no_conflict",
    "C68_inputs_written",
    "C68_connection_lost_refuted"
   ],
   "note": "As in C63-C65 nothing is assumed about the workers; a connection is seen closed only if the process at its other end is gone. C68_connection_lost_refuted: if the connection of a living process breaks, its block is given to another process while the first still works on it."
  },
  {
   "property": "C69",
   "status": "partial",
   "theorems": [
    "C69_kept",
    "C69_waits_partial",
    "C69_timeout_refuted"
   ],
   "note": "C69_kept holds without condition; that the server does not stop meanwhile under the condition of C35. C69_timeout_refuted: the documented timeout of a task is not honoured, runs of any number of iterations in which the server does nothing about a body that does not end."
  },
  {
   "property": "C70",
   "status": "partial",
   "theorems": [
    "C70_resume_partial",
    "C70_each_block_once_partial",
    "C70_serial",
    "C70_server",
    "C70_calls_partial",
    "C70_serial_stops_refuted"
   ],
   "note": "For both servers and for whole calls of run_blockwise (first call ended in any way). Conditions: inverse upstream/downstream relation (C09), and, that a call that returned True has settled everything, the condition of C23. C70_serial_stops_refuted: with multiprocessing=False the run hands out nothing and returns when the blocks of all tasks without upstream tasks are recognised, whatever is left of the other tasks."
  },
  {
   "property": "C71",
   "status": "partial",
   "theorems": [
    "C71_roles_partial",
    "C71_other_functions_refuted"
   ],
   "note": "For functions without defaults, *args and keyword-only arguments, where exactly the bound first argument of a method is called self. C71_other_functions_refuted: class methods and functions with optional arguments are refused, functions that cannot be called are accepted."
  },
  {
   "property": "C72",
   "status": "proved",
   "theorems": [
    "C72_body",
    "C72_documented_worker_refuted"
   ],
   "note": "C72_documented_worker_refuted: the example worker in the documentation of Client assigns block.state, which a block does not have; all its blocks are reported failed."
  },
  {
   "property": "C73",
   "status": "partial",
   "theorems": [
    "C73_serial",
    "C73_server",
    "C73_whole",
    "C73_pair_refuted"
   ],
   "note": "Proved for check functions. C73_pair_refuted: a pair of functions, which the documentation offers, is never called; no check is made after a block was run."
  },
  {
   "property": "C74",
   "status": "partial",
   "theorems": [
    "C74_log_files",
    "C74_absolute_task_refuted",
    "C74_no_directory_refuted"
   ],
   "note": "That no two workers share a file is proved without condition; the files lie below the log directory unless the task id is an absolute path. After set_log_basedir(None) nothing is redirected, but workers with a Client have the log directory 'None'."
  },
  {
   "property": "C75",
   "status": "partial",
   "theorems": [
    "C75_in_order_partial",
    "C75_in_time_partial",
    "C75_retry_last_partial",
    "C75_roots_first"
   ],
   "note": "The first three are for pipelines whose upstream and downstream tables are inverse and in which no block of a dependent task lacks upstream blocks. Ready means: not handed out, not failed for good, all upstream blocks successful."
  },
  {
   "property": "C76",
   "status": "partial",
   "theorems": [
    "C76_server_partial",
    "C76_server_end_partial",
    "C76_serial_partial",
    "C76_bars",
    "C76_failure_hidden_refuted"
   ],
   "note": "That each symbol means what it says needs inverse tables only; that it is the right one of the three needs failures that lie apart. C76_failure_hidden_refuted: otherwise an orphan may be counted twice, the task is reported done early, and the block that fails later does not show."
  },
  {
   "property": "C77",
   "status": "proved",
   "theorems": [
    "C77_every_failure_has_a_cause",
    "C77_failed_for_good",
    "C77_no_cause_no_failure",
    "C77_well_done_refuted"
   ],
   "note": "Nothing is assumed about the workers; a connection is seen closed only if the process at its other end is gone. C77_well_done_refuted: the converse is false, a block whose body ended well, and whose report the server received, fails for good if the process ended before the server took the report from its queue."
  },
  {
   "property": "C78",
   "status": "partial",
   "theorems": [
    "C78_started",
    "C78_text",
    "C78_pending_partial",
    "C78_postfix_partial",
    "C78_negative_refuted"
   ],
   "note": "The flag and the text need nothing. The counts need inverse dependency tables, no block without inputs that the root generator leaves out, and failures that lie apart; C78_negative_refuted: otherwise the bar shows -1 blocks that wait."
  },
  {
   "property": "C79",
   "status": "proved",
   "theorems": [
    "C79_names_the_logs",
    "C79_lines",
    "C79_no_directory_refuted"
   ],
   "note": "The directory, task id and host name must survive the environment variable (C43). LOG_BASEDIR of the server is taken to stay the same. C79_no_directory_refuted: without a log directory the output is not redirected and the summary refers to None.err."
  },
  {
   "property": "C80",
   "status": "proved",
   "theorems": [
    "C80_address",
    "C80_starts",
    "C80_second_port_refuted",
    "C80_workers_connect",
    "C80_ipv6_refuted"
   ],
   "note": "Whether a port can be bound, which address is detected and whether the test connection works are arbitrary. Host, log directory and task id must survive the environment variable (C43); C80_ipv6_refuted: an IPv6 host does not. C80_second_port_refuted: a second port is never tried and NoFreePort never raised, since self.max_port_tries is never assigned: the first OSError ends in an AttributeError."
  },
  {
   "property": "C81",
   "status": "proved",
   "theorems": [
    "C81_own_loop",
    "C81_one_loop",
    "C81_threads",
    "C81_after_clear",
    "C81_reused_pid_refuted"
   ],
   "note": "C81_own_loop needs that no process id is used twice; C81_after_clear does not, but speaks of a process that cleared the table and of its children. C81_reused_pid_refuted: otherwise an object can get the loop of a process that ended."
  },
  {
   "property": "C82",
   "status": "partial",
   "theorems": [
    "C82_reasons",
    "C82_lossless",
    "C82_race_refuted"
   ],
   "note": "The last sentence is REFUTED (C82_race_refuted): a connection lost after part of a message was read, with the server's answer failing before the read is resumed, gives an AttributeError, which ends the event loop while another client processes a block. The rest is proved."
  },
  {
   "property": "C83",
   "status": "proved",
   "theorems": [
    "C83_redirected",
    "C83_flushed",
    "C83_closed_refuted",
    "C83_fdopen_refuted",
    "C83_twice_refuted"
   ],
   "note": "Conditions (record standard): descriptors 1 and 2 are open and belong to sys.__stdout__ and sys.__stderr__, which are not closed; the log files are not open already; a replaced sys.stdout that is closed by the assignment owns another descriptor. One thread. The _refuted theorems show what happens without: an OSError, standard output in <basename>.err, output overwritten."
  },
  {
   "property": "C84",
   "status": "partial",
   "theorems": [
    "C84_same_partial",
    "C84_written_partial",
    "C84_others",
    "C84_limit_refuted",
    "C84_format_refuted",
    "C84_remove_refuted"
   ],
   "note": "The part on what is written needs as many monitors as python allows nested calls, formats that do not raise and the usual terminator. The last sentence is REFUTED: a record that cannot be formatted raises in the caller and the following handlers do not get it (C84_format_refuted); every monitor wraps again, so after about 1000 runs on a terminal logging and run_blockwise raise RecursionError (C84_limit_refuted); removeHandler no longer finds the handler (C84_remove_refuted)."
  },
  {
   "property": "C85",
   "status": "proved",
   "theorems": [
    "C85_passes",
    "C85_exponential_refuted"
   ],
   "note": "C85_exponential_refuted: a bound by the number of tasks and requirements does not hold. 2k+1 tasks in layers take 2^(k+1)-1 passes, since the upstream tasks of a task already seen are appended again. Requirements without cycles."
  },
  {
   "property": "C86",
   "status": "partial",
   "theorems": [
    "C86_keys",
    "C86_ready_partial",
    "C86_own_task_refuted",
    "C86_orphans_refuted"
   ],
   "note": "C86_keys needs no condition: the keys are the tasks whose ready_count grows. C86_ready_partial puts it in terms of the history, where the conditions of C22 hold (inverse tables, no block without inputs that the root generator leaves out). The last part is REFUTED: the task of the released block (C86_own_task_refuted) and the tasks of orphans (C86_orphans_refuted) are left out."
  },
  {
   "property": "C87",
   "status": "partial",
   "theorems": [
    "C87_done",
    "C87_ends_partial",
    "C87_chain_refuted"
   ],
   "note": "REFUTED for tasks that require others: once all blocks of the first task are done the next run stops at once and reports no failure, though a block of the second task was never done. Proved for tasks that require no other: C87_done (when the loop ends) and C87_ends_partial (that it ends, under the conditions of C28 on the dependencies inside a task, if the process functions do not raise)."
  },
  {
   "property": "C88",
   "status": "partial",
   "theorems": [
    "C88_server",
    "C88_failures",
    "C88_calls",
    "C88_answers",
    "C88_done_by",
    "C88_settled_partial",
    "C88_gets",
    "C88_only_workers",
    "C88_ends",
    "C88_goes_on",
    "C88_none_outlives"
   ],
   "note": "A connection is lost only when the process of its worker has ended or says goodbye; pickles are lossless and below 2^32 bytes. Inherits the conditions of C65: C88_settled_partial needs apart_failures."
  },
  {
   "property": "C89",
   "status": "partial",
   "theorems": [
    "C89_ends_partial",
    "C89_result_partial"
   ],
   "note": "Needs the conditions of C61 (no block without inputs that the root generator leaves out, order of the tasks, apart_failures; losses of workers noticed in time: each is refuted without in C61), and those of C88 (a connection is lost only with the process, lossless pickles below 2^32 bytes)."
  },
  {
   "property": "C90",
   "status": "partial",
   "theorems": [
    "C90_value_partial",
    "C90_false_partial",
    "C90_raised",
    "C90_never_broke",
    "C90_none_outlives",
    "C90_interrupted",
    "C90_over",
    "C90_only_server_stops",
    "C90_ends_partial",
    "C90_all_well"
   ],
   "note": "C90_value_partial, C90_false_partial and C90_ends_partial need apart_failures, the last one also the conditions of C61. All need those of C88 (a connection is lost only with the process, lossless pickles below 2^32 bytes)."
  },
  {
   "property": "C91",
   "status": "proved",
   "theorems": [
    "C91_never",
    "C91_none_waits",
    "C91_gets",
    "C91_goes_on"
   ],
   "note": "Under the conditions of C88: a connection is lost only when the process of its worker has ended or says goodbye; pickles are lossless and below 2^32 bytes. The theorems of C82 say what happens with other clients."
  },
  {
   "property": "C92",
   "status": "partial",
   "theorems": [
    "C92_server",
    "C92_failures",
    "C92_sent",
    "C92_done_by",
    "C92_settled_partial",
    "C92_gets",
    "C92_only_workers",
    "C92_ends",
    "C92_goes_on",
    "C92_none_outlives"
   ],
   "note": "C92_settled_partial needs apart_failures. C92_gets does not exclude the AttributeError of C82: it can come in these runs (C95_all_arrive_refuted), but not if failing writes leave bytes behind (C95) or connections are lost only with the process (C91). Pickles are lossless."
  },
  {
   "property": "C93",
   "status": "partial",
   "theorems": [
    "C93_one_process",
    "C93_known",
    "C93_no_conflict",
    "C93_inputs_written",
    "C93_waits_partial",
    "C93_connection_lost_refuted"
   ],
   "note": "C93_waits_partial needs apart_failures. All need the conditions of C88; C93_connection_lost_refuted shows that they fail if a connection is lost while the process lives."
  },
  {
   "property": "C94",
   "status": "partial",
   "theorems": [
    "C94_known",
    "C94_one_process",
    "C94_no_conflict",
    "C94_inputs_written",
    "C94_only_lost",
    "C94_waits_partial"
   ],
   "note": "C94_waits_partial needs apart_failures. Pickles are lossless. Nothing is said of two processes that both lost their connections, except that what they read was written (C93_connection_lost_refuted)."
  },
  {
   "property": "C95",
   "status": "partial",
   "theorems": [
    "C95_never",
    "C95_none_waits",
    "C95_gets",
    "C95_goes_on",
    "C95_all_arrive_refuted"
   ],
   "note": "Needs that of a write reported as failed after it began some byte never arrives (tornado, not in /repo); C95_all_arrive_refuted shows that this is needed. Pickles are lossless; workers keep to client.py."
  },
  {
   "property": "C96",
   "status": "partial",
   "theorems": [
    "C96_value_partial",
    "C96_false_partial",
    "C96_done_by",
    "C96_raised",
    "C96_broke",
    "C96_never_broke",
    "C96_none_outlives",
    "C96_over",
    "C96_goes_on",
    "C96_all_arrive_refuted"
   ],
   "note": "C96_value_partial and C96_false_partial need apart_failures (as C40, C90). C96_never_broke, C96_over and C96_goes_on need that of a write reported as failed after it began some byte never arrives (as C95; C96_all_arrive_refuted shows that C96_never_broke needs it). Termination is not claimed: a worker cut off may work on for ever. Pickles are lossless; workers keep to client.py."
  },
  {
   "property": "C97",
   "status": "proved",
   "theorems": [
    "C97_who",
    "C97_handed",
    "C97_bounded",
    "C97_again"
   ],
   "note": "Pipelines with inverse tables (C12), lossless pickles, workers that keep to client.py. C97_example reaches the bound."
  },
  {
   "property": "C98",
   "status": "proved",
   "theorems": [
    "C98_bounded",
    "C98_at_least_once",
    "C98_exactly_once",
    "C98_always_once_refuted"
   ],
   "note": "Tasks with inverse tables (C12), lossless pickles, workers that keep to client.py; no condition on failures beyond those in the statement. C98_always_once_refuted: the claim fails without the condition on counted failures. C98_example: a call in which a connection is lost and every body is begun once."
  },
  {
   "property": "C99",
   "status": "proved",
   "theorems": [
    "C99_serial",
    "C99_any_order",
    "C99_determined",
    "C99_complete",
    "C99_undeclared_refuted"
   ],
   "note": "Pipelines with inverse tables (C12); bodies are programs of single reads and writes that keep to may_read and may_write (Store.v), a failed attempt stops before it is released; check_function calls a block done only if its body would change nothing. C99_undeclared_refuted: false for a task that reads its own array without read_write_conflict. C99_example: interleaved bodies, one attempt that fails after a write, one block done before."
  },
  {
   "property": "C100",
   "status": "proved",
   "theorems": [
    "C100_alone",
    "C100_exists",
    "C100_serial",
    "C100_call"
   ],
   "note": "Bodies as in C99. C100_call takes the interleaving of the bodies of worker processes as in C99 (an attempt stops before its block is released as failed); it is not derived from the moves of the processes. Hypotheses of C90 for the call (messages small enough, lossless pickling). C100_example: the pipeline of C99_example under the serial server, with a failed attempt and a block done before. C100_call_example: a call in which a process ends with the block."
  },
  {
   "property": "C101",
   "status": "proved",
   "theorems": [
    "C101_includes",
    "C101_none_late",
    "C101_complete",
    "C101_out_of_reach",
    "C101_late_refuted"
   ],
   "note": "C101_complete: runs in which no block is released as failed. C101_out_of_reach: cells of blocks that neither failed nor come after one that failed; such blocks must not be skipped. C101_late_refuted: false for other cells (the pipeline of C99_example with one attempt given up). The interleaving of bodies is that of zrun, not derived from the moves of processes. C101_example, C101_out_of_reach_example: concrete runs."
  }
 ]
}