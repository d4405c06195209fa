{
 "claims": [
  {
   "property": "C01",
   "status": "proved",
   "theorems": [
    "C01_header_round_trip",
    "C01_message_round_trip",
    "C01_routereq_round_trip",
    "C01_routeres_round_trip"
   ],
   "note": "For all four message types; the hypotheses are an int64 timestamp and an encoded length below 2^63."
  },
  {
   "property": "C02",
   "status": "proved",
   "theorems": [
    "C02_header_size_exact",
    "C02_header_format",
    "C02_message_size_exact",
    "C02_message_format",
    "C02_routereq_size_exact",
    "C02_routereq_format",
    "C02_routeres_size_exact",
    "C02_routeres_format"
   ],
   "note": "Size, Marshal, MarshalTo and MarshalToSizedBuffer for all four types, into any buffer with room; the _format theorems also fix the bytes to the protobuf encoding rules."
  },
  {
   "property": "C03",
   "status": "proved",
   "theorems": [
    "C03_header_total",
    "C03_message_total",
    "C03_routereq_total",
    "C03_routeres_total"
   ],
   "note": "Neither Panic (index or slice out of range) nor Fuel is an outcome, for every byte string shorter than 2^63 and every receiver."
  },
  {
   "property": "C04",
   "status": "proved",
   "theorems": [
    "C04_header_unknown_ignored",
    "C04_header_unknown_inserted",
    "C04_message_unknown_ignored",
    "C04_message_unknown_inserted",
    "C04_routereq_unknown_ignored",
    "C04_routereq_unknown_inserted",
    "C04_routeres_unknown_ignored",
    "C04_routeres_unknown_inserted"
   ],
   "note": "Unknown fields at every nesting level, groups of arbitrary depth, non-canonical varints; both for encodings and for arbitrary decodable prefixes."
  },
  {
   "property": "C05",
   "status": "proved",
   "theorems": [
    "C05_header_merge",
    "C05_header_concat",
    "C05_message_merge",
    "C05_message_concat",
    "C05_routereq_merge",
    "C05_routereq_concat",
    "C05_routeres_merge",
    "C05_routeres_concat"
   ],
   "note": "Concatenation law for arbitrary decodable prefixes plus the merge law for encodings."
  },
  {
   "property": "C06",
   "status": "proved",
   "theorems": [
    "C06_routereq_truncated",
    "C06_routeres_truncated"
   ],
   "note": "Every non-empty strict prefix, any receiver."
  },
  {
   "property": "C07",
   "status": "proved",
   "theorems": [
    "C07_header_bad_tag",
    "C07_message_bad_tag",
    "C07_routereq_bad_tag",
    "C07_routeres_bad_tag"
   ],
   "note": "Also covers undefined wire types 6 and 7 and negative field numbers."
  },
  {
   "property": "C08",
   "status": "proved",
   "theorems": [
    "C08_popped_is_prefix",
    "C08_program_order",
    "C08_nothing_lost",
    "C08_pop_never_stuck"
   ],
   "note": "All interleavings of atomic steps, any number of producers; the order is that of the head swaps."
  },
  {
   "property": "C09",
   "status": "proved",
   "theorems": [
    "C09_no_lost_wakeup",
    "C09_token_at_rest",
    "C09_signal_arrives",
    "C09_pushes_can_finish"
   ],
   "note": "Invariant for a consumer that may also poll Pop; includes that started pushes can finish and then a token is present."
  },
  {
   "property": "C10",
   "status": "proved",
   "theorems": [
    "C10_count_and_empty_at_rest"
   ],
   "note": "Counter modelled as an unbounded integer (int32 in the code)."
  },
  {
   "property": "C11",
   "status": "partial",
   "theorems": [
    "C11_completed_push_visible_refuted",
    "C11_completed_push_visible_partial",
    "C11_exactly_partial"
   ],
   "note": "False: a producer between swap and store hides completed pushes (refuted by a witness schedule). Proved when no push is between its swap and its store, and exactly: Pop finds nothing when everything is popped or the oldest push left is between its swap and its store."
  },
  {
   "property": "C12",
   "status": "proved",
   "theorems": [
    "C12_order_and_no_loss",
    "C12_len"
   ],
   "note": "All interleavings of Put (two steps when its send fails), receive and Load."
  },
  {
   "property": "C13",
   "status": "proved",
   "theorems": [
    "C13_value_available",
    "C13_next_receive"
   ],
   "note": "Any number of consumers following the receive-then-Load protocol."
  },
  {
   "property": "C14",
   "status": "proved",
   "theorems": [
    "C14_first_complete_wins",
    "C14_callback_at_most_once",
    "C14_callback_registered",
    "C14_callback_gets_winner",
    "C14_callback_will_run"
   ],
   "note": "Any number of futures, callbacks and goroutines."
  },
  {
   "property": "C15",
   "status": "partial",
   "theorems": [
    "C15_chained_future_resolved_refuted",
    "C15_then_after_completion_is_dead",
    "C15_chained_future_resolved_partial",
    "C15_not_before_callback_returned",
    "C15_chain_progress_partial"
   ],
   "note": "False for Then on a completed future: the returned future is never resolved (refuted, with a general theorem that it stays pending). Proved for Then on a pending future. A callback that panics (process crash) is not modelled."
  },
  {
   "property": "C16",
   "status": "proved",
   "theorems": [
    "C16_nil_iff_all_ran",
    "C16_stops_at_first_failure"
   ],
   "note": "Handlers are arbitrary state transformers that return nil, return an error or panic."
  },
  {
   "property": "C17",
   "status": "proved",
   "theorems": [
    "C17_one_at_a_time"
   ],
   "note": "For every schedule of senders, forwarders, timers, re-entry pushes, loop, checkClose and Exit."
  },
  {
   "property": "C18",
   "status": "proved",
   "theorems": [
    "C18_handled_in_mailbox_order",
    "C18_accepted_is_in_mailbox",
    "C18_waiting_message_is_ready",
    "C18_loop_drains"
   ],
   "note": "Order, at-most-once, accepted implies in mailbox; plus the waiting message is selectable and the loop alone can finish everything once senders are quiet (fairness of Go's select is not modelled)."
  },
  {
   "property": "C19",
   "status": "proved",
   "theorems": [
    "C19_finished_released_once",
    "C19_wait_group_balance"
   ],
   "note": "taken = released ++ message in hand; counter = adds - releases >= 0 for every wait group."
  },
  {
   "property": "C20",
   "status": "proved",
   "theorems": [
    "C20_failures_are_noops"
   ],
   "note": "Every run is matched by a run in which all handlers exist and return nil, ending in the same state."
  },
  {
   "property": "C21",
   "status": "proved",
   "theorems": [
    "C21_closed_rejects",
    "C21_closed_moves_up",
    "C21_verdict"
   ],
   "note": "Proved for all states and later moments."
  },
  {
   "property": "C22",
   "status": "partial",
   "theorems": [
    "C22_exit_drains_refuted",
    "C22_late_sender_refuted",
    "C22_exit_returns_during_handler_refuted",
    "C22_exit_drains_partial"
   ],
   "note": "False as stated: three witnesses (queue gap hides an accepted message, late sender, handler still running when Exit returns). Partial: holds when no delivery overlaps closing, no forwarder starts later and the 10 s limit does not strike; even then one message may still be running when Exit returns."
  },
  {
   "property": "C23",
   "status": "partial",
   "theorems": [
    "C23_second_exit_panics",
    "C23_exit_idempotent_refuted",
    "C23_single_exit_partial"
   ],
   "note": "False: a second Exit always panics (close of closed channel). Partial: with at most one Exit nothing crashes."
  },
  {
   "property": "C24",
   "status": "proved",
   "theorems": [
    "C24_dispatch_first",
    "C24_accepted_iff_new",
    "C24_accepted_changes_one"
   ],
   "note": "For every sequence of OnEvent and Sub operations; acceptance, rejection without change, and dispatch by the first chain."
  },
  {
   "property": "C25",
   "status": "partial",
   "theorems": [
    "C25_actions_in_order",
    "C25_once",
    "C25_outcome",
    "C25_not_cancelled",
    "C25_continuations",
    "C25_same_value",
    "C25_action_completes",
    "C25_completes",
    "C25_continuation_once",
    "C25_continuation_runs",
    "C25_ctx_refuted"
   ],
   "note": "Completed at most once, outcome, one value for all continuations, completion after the action and from any reachable state: proved. False: the context error is not always seen when the context ends first (C25_ctx_refuted)."
  },
  {
   "property": "C26",
   "status": "partial",
   "theorems": [
    "C26_refuted",
    "C26_actions_partial"
   ],
   "note": "False: continuations run in goroutines of their own (C26_refuted). Re-entry actions do not overlap handlers (partial)."
  },
  {
   "property": "C27",
   "status": "partial",
   "theorems": [
    "C27_refuted",
    "C27_again_refuted",
    "C27_partial"
   ],
   "note": "False as stated: queued ticks fire after the cancellation, and a second cancellation of a timer first cancelled during its due time has no effect; proved bound on the firings after a cancellation."
  },
  {
   "property": "C28",
   "status": "partial",
   "theorems": [
    "C28_refuted",
    "C28_exit_refuted",
    "C28_partial",
    "C28_last"
   ],
   "note": "False: interval 0 panics in NewTicker in a goroutine nobody recovers; CancelTimer or Exit before the ticker exists dereferences nil. Proved for positive intervals and started timers."
  },
  {
   "property": "C29",
   "status": "proved",
   "theorems": [
    "C29_no_timer_after_close",
    "C29_not_early",
    "C29_silent_when_closing"
   ],
   "note": "Both halves proved: C29_not_early (timers not reset meanwhile) and silence while closing."
  },
  {
   "property": "C30",
   "status": "partial",
   "theorems": [
    "C30_origin_is_first_sender",
    "C30_latest_hop",
    "C30_latest_system",
    "C30_rest_unchanged",
    "C30_previous_actor_remote_refuted",
    "C30_latest_hop_remote_partial"
   ],
   "note": "Same node: full. Across nodes the receiving node overwrites PrevActorType (refuted); the rest is proved there as _partial."
  },
  {
   "property": "C31",
   "status": "proved",
   "theorems": [
    "C31_never_delivered",
    "C31_refused_at_once"
   ],
   "note": "For all schedules of calls: a message whose original sender is the target is refused at once and never enters the mailbox."
  },
  {
   "property": "C32",
   "status": "partial",
   "theorems": [
    "C32_plain_delivered",
    "C32_plain_forwarded",
    "C32_plain_local",
    "C32_local_first_delivered",
    "C32_local_first_forwarded",
    "C32_wildcard_delivered_partial",
    "C32_wildcard_forwarded",
    "C32_wildcard_type_refuted",
    "C32_plain_reaches",
    "C32_wildcard_reaches",
    "C32_local_first_reaches",
    "C32_local_first_elsewhere",
    "C32_once",
    "C32_error_returned_partial",
    "C32_remote_error_refuted"
   ],
   "note": "Plain ids and '~' proved. For '?' the id delivered to was listed under the type, but the actor may be of another type (refuted). Failures on the caller's node are errors; failures on another node come back as nil (refuted)."
  },
  {
   "property": "C33",
   "status": "proved",
   "theorems": [
    "C33_root_waits_for_tree",
    "C33_root_can_return",
    "C33_nested_call_does_not_block"
   ],
   "note": "Call tree: the root Call returns nil only after every message of its tree was handled (or its time limit); nested calls do not block their handler."
  },
  {
   "property": "C34",
   "status": "partial",
   "theorems": [
    "C34_failed_handler_reported_refuted",
    "C34_timeout_reported_refuted",
    "C34_refusal_reported_partial",
    "C34_nil_means_ended_partial"
   ],
   "note": "False: handler failure, time limit and remote routing failure all give nil (witnesses). Proved: refusals are reported; nil from a root call means the tree ended or the limit expired."
  },
  {
   "property": "C35",
   "status": "partial",
   "theorems": [
    "C35_one_actor_per_id_refuted",
    "C35_failed_register_leaves_nothing_refuted",
    "C35_one_actor_per_id_partial",
    "C35_failed_register_no_trace"
   ],
   "note": "False when two Register calls with one id overlap (witness: two live actors with one id); a store failure between pipelined commands leaves a record. Proved for all executions whose calls about one id do not overlap per node; for all interleavings a Register that errs without store failure executed no store command and started nothing."
  },
  {
   "property": "C36",
   "status": "partial",
   "theorems": [
    "C36_limit_refuted",
    "C36_limit_partial",
    "C36_running_limit_partial"
   ],
   "note": "False when registrations overlap (witness: two nodes, limit 1). Proved for all executions in which Register calls for the type do not overlap, both for listed and (ids owned by one node) for running actors."
  },
  {
   "property": "C37",
   "status": "partial",
   "theorems": [
    "C37_node_unique_refuted",
    "C37_node_unique_partial"
   ],
   "note": "False even sequentially without a global limit (NodeUnique is then never read). Proved when every registration carries a limit and registrations do not overlap per node."
  },
  {
   "property": "C38",
   "status": "proved",
   "theorems": [
    "C38_records_agree",
    "C38_orderly_is_execution",
    "C38_lookup_by_type"
   ],
   "note": "Proved for executions in which an id is held by one node at a time, operations on one id do not overlap, Clear does not overlap other operations of its node, and nothing crashes or fails; commands interleave freely otherwise."
  },
  {
   "property": "C39",
   "status": "partial",
   "theorems": [
    "C39_owner_restored_refuted",
    "C39_caller_charged",
    "C39_owner_charged_partial"
   ],
   "note": "False: Unregister charges the calling node, not the host (witness). Proved: exactly the caller's two counters change; hence the claim when the caller is the host."
  },
  {
   "property": "C40",
   "status": "partial",
   "theorems": [
    "C40_member_without_record_refuted",
    "C40_undercharged_refuted",
    "C40_register_cut_partial",
    "C40_unregister_cut_partial"
   ],
   "note": "Both halves false (witnesses). Proved: a cut Register leaves members with records and charges only after its fifth command; a cut Unregister never undercharges."
  },
  {
   "property": "C41",
   "status": "proved",
   "theorems": [
    "C41_lookup_by_id"
   ],
   "note": "Proved for all executions, including crashes and failures."
  },
  {
   "property": "C42",
   "status": "proved",
   "theorems": [
    "C42_wildcard_least_loaded",
    "C42_wildcard_error",
    "C42_wildcard_global"
   ],
   "note": "Proved for all store states and samples; global minimum for types with at most ten members."
  },
  {
   "property": "C43",
   "status": "partial",
   "theorems": [
    "C43_lightest_node_refuted",
    "C43_lightest_node_partial",
    "C43_node_registered"
   ],
   "note": "False: the two loops over the node map may run in different orders (witness). Proved for equal orders; the answer is always a registered node."
  },
  {
   "property": "C44",
   "status": "proved",
   "theorems": [
    "C44_clear_exact"
   ],
   "note": "Proved for a Clear running alone from any consistent state; overlapping operations of other nodes are covered by C38."
  },
  {
   "property": "C45",
   "status": "partial",
   "theorems": [
    "C45_refused_after_clear",
    "C45_reregister_refuted",
    "C45_reregister_partial"
   ],
   "note": "False in every execution: an id held before Clear is refused after it. Proved: ids not held are accepted."
  },
  {
   "property": "C46",
   "status": "proved",
   "theorems": [
    "C46_mutual_exclusion",
    "C46_foreign_unlock",
    "C46_unlock_releases"
   ],
   "note": "For all executions with late, lost and repeated requests and crashes; assumes the 16 random bytes drawn by different Lock calls differ."
  },
  {
   "property": "C47",
   "status": "proved",
   "theorems": [
    "C47_free_after_lease",
    "C47_bounded_attempts",
    "C47_never_stuck",
    "C47_result"
   ],
   "note": "Granted once all leases are over; at most 4 attempts and 12 steps; never stuck; finished means value or error."
  },
  {
   "property": "C48",
   "status": "partial",
   "theorems": [
    "C48_order",
    "C48_at_most_once",
    "C48_only_published_partial",
    "C48_placeholder_refuted",
    "C48_begin_refuted",
    "C48_handlers_refuted"
   ],
   "note": "Order for a consumer with one handler, and at most once over all consumers, hold for channels subscribed in the default mode. Missing: only published messages are delivered; false, because the placeholder of another node's newTopic can be delivered. With ReadModeBeginning a message can be delivered twice; with two handlers the order is lost."
  },
  {
   "property": "C49",
   "status": "partial",
   "theorems": [
    "C49_gone",
    "C49_lasting",
    "C49_fate_partial",
    "C49_delivered_partial",
    "C49_bounded_partial",
    "C49_deleted_forever",
    "C49_refuted"
   ],
   "note": "A message published after the subscription is handed out, or lost with a reply, or waits, or was deleted by another channel's handler; a running consumer delivers all that waits. The full claim is false: one channel's handler deletes the entry for all channels, and such a message never arrives."
  },
  {
   "property": "C50",
   "status": "partial",
   "theorems": [
    "C50_acknowledged",
    "C50_pending",
    "C50_lost_forever",
    "C50_refuted",
    "C50_unread_partial"
   ],
   "note": "False: what was read and not pushed is never delivered in any continuation. Proved: what was not yet read is delivered by a new consumer."
  },
  {
   "property": "C51",
   "status": "proved",
   "theorems": [
    "C51_same",
    "C51_once",
    "C51_own",
    "C51_returns",
    "C51_found"
   ],
   "note": ""
  },
  {
   "property": "C52",
   "status": "partial",
   "theorems": [
    "C52_field_matching_partial",
    "C52_stepped_wrap_refuted",
    "C52_huge_step_refuted",
    "C52_as_coded"
   ],
   "note": "All legal expressions except wrap-around ranges with a step other than 1, for which the code restarts the step at the smallest value (witness); C52_as_coded describes all of them."
  },
  {
   "property": "C53",
   "status": "partial",
   "theorems": [
    "C53_zero_step_refuted",
    "C53_negative_step_refuted",
    "C53_terminates_partial"
   ],
   "note": "False: '*/0' loops for ever, a negative step runs about 2^63/|step| rounds. Every other string ends within 60 rounds per loop."
  },
  {
   "property": "C54",
   "status": "partial",
   "theorems": [
    "C54_missing",
    "C54_type",
    "C54_document",
    "C54_read_back_partial",
    "C54_other_keys",
    "C54_other_fields",
    "C54_text",
    "C54_read_back_refuted"
   ],
   "note": "Read-back after any history proved for bool, UTF-8 strings, finite float64, nil, integers up to 2^53 of types other than int8/uint8, and slices and maps without integers. The rest is false: witnesses. Other keys and fields unaffected: proved in full."
  },
  {
   "property": "C55",
   "status": "proved",
   "theorems": [
    "C55_rejected_changes_nothing",
    "C55_unserialisable_reported"
   ],
   "note": ""
  },
  {
   "property": "C56",
   "status": "partial",
   "theorems": [
    "C56_copy_header_partial",
    "C56_timestamp_refuted"
   ],
   "note": "All fields but Timestamp, which is not copied (witness)."
  },
  {
   "property": "C57",
   "status": "partial",
   "theorems": [
    "C57_cap",
    "C57_slots",
    "C57_finishes",
    "C57_takes",
    "C57_call_wait_refuted"
   ],
   "note": "Proved for Call: cap, exact slot accounting, every call can finish and gives back its slot. Refuted for CallWait, the form used for all remote actor calls, which bypasses the cap."
  },
  {
   "property": "C58",
   "status": "partial",
   "theorems": [
    "C58_accounted_partial",
    "C58_close_drains_partial",
    "C58_sender_closed_once",
    "C58_close_returns",
    "C58_after_close_refuted",
    "C58_second_close_refuted"
   ],
   "note": "Accounting, order, draining by the closing Close, single transport close and termination of Close are proved; refuted: spans reported after Close are queued but never processed or counted, and a second Close returns at once."
  },
  {
   "property": "C59",
   "status": "partial",
   "theorems": [
    "C59_reaches_newest",
    "C59_increasing",
    "C59_visits_all_partial",
    "C59_skipped_refuted",
    "C59_strategy"
   ],
   "note": "The newest version is always reached and steps go up; every newer version is visited only when registered in ascending order (witness otherwise)."
  },
  {
   "property": "C60",
   "status": "proved",
   "theorems": [
    "C60_split",
    "C60_no_dot"
   ],
   "note": ""
  },
  {
   "property": "C61",
   "status": "partial",
   "theorems": [
    "C61_recovered_partial",
    "C61_equal_error_partial",
    "C61_equal",
    "C61_not_ok",
    "C61_new_panics",
    "C61_failure_not_ok_partial",
    "C61_wrapped_refuted",
    "C61_failure_as_ok_refuted"
   ],
   "note": "Codes wrapped by pkg/errors are recovered; fmt.Errorf %w loses them and an error with empty message is taken for OK (witnesses)."
  },
  {
   "property": "C62",
   "status": "partial",
   "theorems": [
    "C62_no_forgery",
    "C62_empty_id",
    "C62_round_trip_partial",
    "C62_not_utf8_refuted"
   ],
   "note": "Relative to abstract encodings and keyed hash. Any HMAC method is accepted, not only HS256. Round trip for valid UTF-8 ids; otherwise false (witness)."
  },
  {
   "property": "C63",
   "status": "partial",
   "theorems": [
    "C63_cluster_unique_refuted",
    "C63_register_never_refused",
    "C63_cluster_unique_partial"
   ],
   "note": "False (witness); in every state a node that does not itself hold the id registers it and takes over the record. Unique in the cluster only under the discipline owned_ids."
  },
  {
   "property": "C64",
   "status": "partial",
   "theorems": [
    "C64_sub_callback_sees_messages_refuted",
    "C64_sub_callback_partial"
   ],
   "note": "False: Sub registers the callback under the channel name, so it only ever sees events equal to the channel name, and an already registered name keeps its old chain while Sub reports success. Partial: it holds when the published event equals the channel name and the name was not registered before."
  },
  {
   "property": "C65",
   "status": "partial",
   "theorems": [
    "C65_one_handler_partial",
    "C65_stays_stopped_partial",
    "C65_loops",
    "C65_single_partial",
    "C65_panic_refuted",
    "C65_restart_refuted",
    "C65_due_refuted"
   ],
   "note": "Proved for tasks started and stopped only while idle and without panics; loops = starts + panics exactly; refuted after a panic, a restart while the handler runs, or a stop before the loop began."
  },
  {
   "property": "C66",
   "status": "partial",
   "theorems": [
    "C66_event_of_the_call_refuted",
    "C66_event_of_the_call_partial"
   ],
   "note": "False for a wrapper shared by two calls (witness); proved when each wrapper is in one call."
  },
  {
   "property": "C67",
   "status": "partial",
   "theorems": [
    "C67_self_exit_hangs",
    "C67_self_exit_refuted",
    "C67_exit_from_outside_partial"
   ],
   "note": "False for every reachable state: Exit from user code never returns, in any schedule. Proved: an outside Exit can always return."
  },
  {
   "property": "C68",
   "status": "partial",
   "theorems": [
    "C68_wrapper_reuse_refuted",
    "C68_single_use_no_crash_partial"
   ],
   "note": "False: after a refused call the left-over goroutine closes the new Done channel; early nil, then a double close crashes (witness). Proved for single use."
  },
  {
   "property": "C69",
   "status": "partial",
   "theorems": [
    "C69_refuted",
    "C69_known_partial",
    "C69_topic"
   ],
   "note": "False for a topic this process has not created. Proved for calls that start after some call has returned the topic."
  },
  {
   "property": "C70",
   "status": "partial",
   "theorems": [
    "C70_clear_repairs_refuted",
    "C70_clear_after_unregister_crash",
    "C70_clear_after_register_crash_partial"
   ],
   "note": "False for Register cut before its type counter is written (witness). Proved for every crash point of Unregister and for the other crash points of Register."
  },
  {
   "property": "C71",
   "status": "partial",
   "theorems": [
    "C71_foreign_unregister_harmless_refuted",
    "C71_running_actors_listed_partial"
   ],
   "note": "False (witness): the foreign Unregister deletes record and membership of the running actor. Under owned_ids every running actor stays listed."
  },
  {
   "property": "C72",
   "status": "partial",
   "theorems": [
    "C72_overlapping_unregister_safe_refuted",
    "C72_no_panic_partial"
   ],
   "note": "False (witness: the second Exit closes a closed channel). Proved: no panic when calls about one id do not overlap and constructors are set."
  },
  {
   "property": "C73",
   "status": "partial",
   "theorems": [
    "C73_grants_partial",
    "C73_exclusive_until_unlock_refuted",
    "C73_lease_from_return_refuted"
   ],
   "note": "False: the lease is 10 s and Clear does not watch it. What holds: a lock granted and not unlocked is granted to nobody for 10 s (C73_grants_partial); mutual exclusion within the lease is C46."
  },
  {
   "property": "C74",
   "status": "partial",
   "theorems": [
    "C74_late_enough_partial",
    "C74_lock_after_crash_refuted",
    "C74_live_key_refuses"
   ],
   "note": "False: the four attempts span 2.1 s, the lease of a crashed holder 10 s. What holds: a Lock that begins less than 2.1 s before the lease ends gets the lock at its fourth attempt if that request arrives and is answered."
  },
  {
   "property": "C75",
   "status": "partial",
   "theorems": [
    "C75_rejected_object_refuted",
    "C75_rejected_object_partial",
    "C75_accepted_object"
   ],
   "note": "False: nil bytes overwrite Custom. The error is reported and nothing else is touched."
  },
  {
   "property": "C76",
   "status": "partial",
   "theorems": [
    "C76_null_map_refuted",
    "C76_no_crash_partial",
    "C76_new_message_no_crash"
   ],
   "note": "False for the document null (assignment to a nil map). All other contents, and all write histories of a new message, proved."
  },
  {
   "property": "C77",
   "status": "partial",
   "theorems": [
    "C77_caller_header_refuted",
    "C77_caller_header_partial"
   ],
   "note": "False for WithResHeader, which keeps the pointer. Proved for all sequences without it and without WithReqHeader(nil)."
  },
  {
   "property": "C78",
   "status": "partial",
   "theorems": [
    "C78_kept_partial",
    "C78_lost_refuted",
    "C78_twice_listed_refuted"
   ],
   "note": "Proved when no two calls connect to one address at the same time; refuted otherwise and for duplicate addresses in the list."
  },
  {
   "property": "C79",
   "status": "partial",
   "theorems": [
    "C79_call_partial",
    "C79_call_wait_refuted"
   ],
   "note": "Proved for Call; CallWait passes a nil option on and panics."
  },
  {
   "property": "C80",
   "status": "partial",
   "theorems": [
    "C80_released_partial",
    "C80_dropped_refuted"
   ],
   "note": "Proved for queued spans; dropped spans leak a reference."
  },
  {
   "property": "C81",
   "status": "proved",
   "theorems": [
    "C81_gauge",
    "C81_gauge_error"
   ],
   "note": ""
  },
  {
   "property": "C82",
   "status": "partial",
   "theorems": [
    "C82_safe_partial",
    "C82_stop_refuted",
    "C82_no_service_refuted"
   ],
   "note": "Proved for tasks of a service once a loop has begun; refuted for a stop before that and for panics outside a service."
  },
  {
   "property": "C83",
   "status": "partial",
   "theorems": [
    "C83_refuted",
    "C83_partial"
   ],
   "note": "False after the first firing: nextTick is never updated by ticks. Proved for the first firing."
  },
  {
   "property": "C84",
   "status": "partial",
   "theorems": [
    "C84_refuted",
    "C84_waiting_refuted",
    "C84_ticking_partial",
    "C84_interval_partial"
   ],
   "note": "False for the current interval of a cancelled timer (returns true, does nothing) and before the ticker exists (nil dereference). Proved for a different interval."
  },
  {
   "property": "C85",
   "status": "partial",
   "theorems": [
    "C85_exactly_partial",
    "C85_crash_partial",
    "C85_refuted"
   ],
   "note": "False: a continuation's panic is not recovered (C85_refuted). Exactly the continuations that are running can take the process down, nothing else of a re-entrant call can."
  },
  {
   "property": "C86",
   "status": "partial",
   "theorems": [
    "C86_refuted",
    "C86_own_context_partial"
   ],
   "note": "False: the thirty second context is never used (C86_refuted); the caller's own context does end the wait (partial)."
  },
  {
   "property": "C87",
   "status": "partial",
   "theorems": [
    "C87_plain",
    "C87_wildcard_refuted",
    "C87_wildcard_partial"
   ],
   "note": "Proved for plain ids; refuted for '?': the receiving node chooses again."
  },
  {
   "property": "C88",
   "status": "partial",
   "theorems": [
    "C88_refuted",
    "C88_partial"
   ],
   "note": "Refuted: the record is written before the actor is in the map. Proved: records are removed only after the node was seen without the actor."
  },
  {
   "property": "C89",
   "status": "partial",
   "theorems": [
    "C89_refuted",
    "C89_partial"
   ],
   "note": "Refuted: stale record and a type unknown to the factory. Proved: no other crash."
  },
  {
   "property": "C90",
   "status": "partial",
   "theorems": [
    "C90_destroyed_partial",
    "C90_closed_receives_refuted",
    "C90_other_ended_refuted",
    "C90_known_stays",
    "C90_reader_known",
    "C90_destroys_empty"
   ],
   "note": "proved: a destroyed group hands out nothing, other consumers stay known to the group, a group is destroyed only if Close found it empty; refuted: a closed subscription goes on receiving, and Close can end a subscription made between its check and its removal"
  },
  {
   "property": "C91",
   "status": "partial",
   "theorems": [
    "C91_undisturbed_partial",
    "C91_refuted"
   ],
   "note": "False: Sub and Pub between the check and the removal. Proved for calls of Topic.Close with no command in between."
  },
  {
   "property": "C92",
   "status": "proved",
   "theorems": [
    "C92_register_success",
    "C92_registered_runs"
   ],
   "note": ""
  },
  {
   "property": "C93",
   "status": "partial",
   "theorems": [
    "C93_unregister_success",
    "C93_unregister_ends_refuted",
    "C93_unregister_ends_partial"
   ],
   "note": "The trace of a successful Unregister is proved for all interleavings; that no actor with the id runs on return is refuted after overlapping Register calls and proved when calls about one id on one node do not overlap."
  },
  {
   "property": "C94",
   "status": "proved",
   "theorems": [
    "C94_right_connection",
    "C94_configured"
   ],
   "note": ""
  },
  {
   "property": "C95",
   "status": "proved",
   "theorems": [
    "C95_reports_answer"
   ],
   "note": ""
  },
  {
   "property": "C96",
   "status": "proved",
   "theorems": [
    "C96_fires"
   ],
   "note": "stated for actors whose timer channel has positive capacity (as the code's 1024) and processes that have not crashed"
  },
  {
   "property": "C97",
   "status": "proved",
   "theorems": [
    "C97_runs"
   ],
   "note": "for processes that have not crashed"
  },
  {
   "property": "C98",
   "status": "proved",
   "theorems": [
    "C98_latest",
    "C98_beginning"
   ],
   "note": ""
  },
  {
   "property": "C99",
   "status": "partial",
   "theorems": [
    "C99_stored",
    "C99_empty",
    "C99_error_stored_refuted"
   ],
   "note": "C99_error_stored_refuted: a lost reply makes Pub return an error for a message that is published and delivered"
  },
  {
   "property": "C100",
   "status": "partial",
   "theorems": [
    "C100_as_coded",
    "C100_own_partial",
    "C100_refuted"
   ],
   "note": "False: the map of options is shared by all builders of a type (witness). Proved: GetOpt shows the last value set through any builder of the type; the claim when no other builder of the type sets options."
  },
  {
   "property": "C101",
   "status": "partial",
   "theorems": [
    "C101_refuted",
    "C101_cause_partial",
    "C101_ends"
   ],
   "note": "False: two builders of one type in two goroutines (witness). Proved: a crash needs WithOpt to overlap another call on a builder of the same type; calls end."
  },
  {
   "property": "C102",
   "status": "proved",
   "theorems": [
    "C102_getters",
    "C102_not_empty"
   ],
   "note": ""
  },
  {
   "property": "C103",
   "status": "partial",
   "theorems": [
    "C103_options_arrive",
    "C103_leftover_refuted"
   ],
   "note": "Set options arrive: proved. Unset ones show the values of earlier actors (refuted)."
  },
  {
   "property": "C104",
   "status": "proved",
   "theorems": [
    "C104_static"
   ],
   "note": ""
  },
  {
   "property": "C105",
   "status": "proved",
   "theorems": [
    "C105_reach",
    "C105_task",
    "C105_unstarted",
    "C105_stop"
   ],
   "note": ""
  },
  {
   "property": "C106",
   "status": "proved",
   "theorems": [
    "C106_all"
   ],
   "note": ""
  },
  {
   "property": "C107",
   "status": "partial",
   "theorems": [
    "C107_lost",
    "C107_removed_refuted",
    "C107_replaced_refuted",
    "C107_registered_partial"
   ],
   "note": "False for tasks removed or replaced while running: no later call reaches them and they run for ever (general theorem and witnesses). Proved: a registered task whose handler has begun is stopped by Stop."
  },
  {
   "property": "C108",
   "status": "partial",
   "theorems": [
    "C108_causes_partial",
    "C108_writers",
    "C108_dead",
    "C108_removed_refuted",
    "C108_overlap_refuted",
    "C108_interval_refuted",
    "C108_early_refuted"
   ],
   "note": "False (four witnesses). Proved: when changes of the map overlap no other call, the only causes left are a non-positive interval, a stop before the first run, and a panic in a task without a service."
  },
  {
   "property": "C109",
   "status": "proved",
   "theorems": [
    "C109_ends"
   ],
   "note": ""
  },
  {
   "property": "C110",
   "status": "partial",
   "theorems": [
    "C110_graceful_partial",
    "C110_removed",
    "C110_timeout",
    "C110_cleared",
    "C110_can_finish",
    "C110_late_refuted"
   ],
   "note": "Proved for actors registered when the shutdown begins; false for actors registered while it runs (witness)."
  },
  {
   "property": "C111",
   "status": "proved",
   "theorems": [
    "C111_requests_first"
   ],
   "note": ""
  },
  {
   "property": "C112",
   "status": "partial",
   "theorems": [
    "C112_returns_partial",
    "C112_limit_refuted"
   ],
   "note": "False: a request that is not answered blocks GracefulStop, which the limit does not cover (witness for every length of time). Proved: once requests are answered the shutdown can return within 30 seconds by its own steps."
  },
  {
   "property": "C113",
   "status": "proved",
   "theorems": [
    "C113_signals_ignored",
    "C113_signals_possible",
    "C113_once"
   ],
   "note": ""
  },
  {
   "property": "C114",
   "status": "proved",
   "theorems": [
    "C114_counter",
    "C114_zero"
   ],
   "note": ""
  },
  {
   "property": "C115",
   "status": "partial",
   "theorems": [
    "C115_calm_partial",
    "C115_overlap_cause",
    "C115_twice_cause",
    "C115_overlap_refuted",
    "C115_twice_refuted"
   ],
   "note": "False (two witnesses). Proved: a crash needs an overlapping Register or Unregister."
  },
  {
   "property": "C116",
   "status": "proved",
   "theorems": [
    "C116_finished_once",
    "C116_started_once",
    "C116_returned",
    "C116_served",
    "C116_can_return",
    "C116_has_span"
   ],
   "note": ""
  },
  {
   "property": "C117",
   "status": "partial",
   "theorems": [
    "C117_parent",
    "C117_first_partial",
    "C117_next",
    "C117_root",
    "C117_refuted"
   ],
   "note": "False for the second and later calls of a handler on one wrapper (witness); proved for the first, for fresh contexts, and as coded for later ones."
  },
  {
   "property": "C118",
   "status": "partial",
   "theorems": [
    "C118_parent_first",
    "C118_server",
    "C118_client_partial",
    "C118_handler_partial",
    "C118_whole_partial",
    "C118_carried_partial",
    "C118_refuted"
   ],
   "note": "False when two calls overlap in Begin on one wrapper (witness); proved otherwise. Acyclicity and the parent of request spans are proved without that condition."
  },
  {
   "property": "C119",
   "status": "partial",
   "theorems": [
    "C119_latest_partial",
    "C119_last",
    "C119_some",
    "C119_refuted"
   ],
   "note": "False when calls of WithValue overlap (witness); proved for calls that do not. With overlap the call that returned last is seen, and only values that were set are."
  },
  {
   "property": "C120",
   "status": "proved",
   "theorems": [
    "C120_own"
   ],
   "note": ""
  },
  {
   "property": "C121",
   "status": "partial",
   "theorems": [
    "C121_refuted",
    "C121_bound_partial"
   ],
   "note": "False: a look-up visits a layer for each call (witness for every number); the bound by the number of calls is proved."
  },
  {
   "property": "C122",
   "status": "partial",
   "theorems": [
    "C122_field",
    "C122_first_partial",
    "C122_process",
    "C122_tracer",
    "C122_earlier_refuted",
    "C122_addr_refuted",
    "C122_addr",
    "C122_connect_refuted"
   ],
   "note": "Proved for the first build of a process without WithAddr and WithConnectTimeOut; false otherwise (three witnesses); the exact result is proved as coded."
  },
  {
   "property": "C123",
   "status": "partial",
   "theorems": [
    "C123_url_partial",
    "C123_url_cause",
    "C123_refuted"
   ],
   "note": "Proved for a bad URL; false when the server does not answer (witness)."
  },
  {
   "property": "C124",
   "status": "partial",
   "theorems": [
    "C124_values_partial",
    "C124_exact",
    "C124_panic",
    "C124_refuted"
   ],
   "note": "Proved when no command failed; false otherwise (witness); the exact result and the panic are characterised."
  },
  {
   "property": "C125",
   "status": "proved",
   "theorems": [
    "C125_once",
    "C125_levels"
   ],
   "note": ""
  },
  {
   "property": "C126",
   "status": "partial",
   "theorems": [
    "C126_panics_partial",
    "C126_log",
    "C126_returns",
    "C126_refuted",
    "C126_system_refuted"
   ],
   "note": "Proved when panics are enabled; false otherwise and for SystemLog above error (witnesses)."
  },
  {
   "property": "C127",
   "status": "partial",
   "theorems": [
    "C127_options_partial",
    "C127_error",
    "C127_caller",
    "C127_refuted"
   ],
   "note": "Everything but the form of the caller is proved; that is false (witness), and what it is instead is proved."
  },
  {
   "property": "C128",
   "status": "partial",
   "theorems": [
    "C128_same_partial",
    "C128_refuted",
    "C128_confs"
   ],
   "note": "Proved without WithEncoderConf; false with a shared one (witness); C128_confs says which configurations change and how."
  },
  {
   "property": "C129",
   "status": "partial",
   "theorems": [
    "C129_outputs_partial",
    "C129_loud",
    "C129_refuted"
   ],
   "note": "Proved for all functions but WarnF and ErrorF; false for those (witnesses); their exact outputs are proved."
  },
  {
   "property": "C130",
   "status": "partial",
   "theorems": [
    "C130_exact",
    "C130_nokey",
    "C130_all_partial",
    "C130_refuted"
   ],
   "note": "Proved for distinct keys; false for repeated ones (witness); the exact result is proved."
  },
  {
   "property": "C131",
   "status": "proved",
   "theorems": [
    "C131_registered"
   ],
   "note": ""
  },
  {
   "property": "C132",
   "status": "proved",
   "theorems": [
    "C132_short",
    "C132_function"
   ],
   "note": ""
  },
  {
   "property": "C133",
   "status": "proved",
   "theorems": [
    "C133_recovers",
    "C133_node",
    "C133_error"
   ],
   "note": ""
  },
  {
   "property": "C134",
   "status": "partial",
   "theorems": [
    "C134_answer_partial",
    "C134_error_refuted",
    "C134_span"
   ],
   "note": "Malformed requests, the single call and the span are proved; an error of the call is answered as a success (witness)."
  },
  {
   "property": "C135",
   "status": "partial",
   "theorems": [
    "C135_order_partial",
    "C135_around",
    "C135_handler",
    "C135_stream_refuted"
   ],
   "note": "Proved for unary interceptors; stream interceptors never run (witness)."
  },
  {
   "property": "C136",
   "status": "proved",
   "theorems": [
    "C136_first",
    "C136_only_factories"
   ],
   "note": ""
  },
  {
   "property": "C137",
   "status": "partial",
   "theorems": [
    "C137_refuted",
    "C137_sent_partial",
    "C137_default"
   ],
   "note": "False (witness); when a span is sent is characterised exactly, and with the default rate all are."
  },
  {
   "property": "C138",
   "status": "partial",
   "theorems": [
    "C138_refuted",
    "C138_build_partial",
    "C138_crash_partial"
   ],
   "note": "False (witness); proved for rates within 0..1, and exactly when it panics or crashes."
  },
  {
   "property": "C139",
   "status": "partial",
   "theorems": [
    "C139_refuted",
    "C139_distinct_partial",
    "C139_exact_partial",
    "C139_later_partial"
   ],
   "note": "Proved for distinct addresses and names; false for repeated addresses (witness); exact result proved."
  },
  {
   "property": "C140",
   "status": "partial",
   "theorems": [
    "C140_refuted",
    "C140_once_partial",
    "C140_panics_partial",
    "C140_before"
   ],
   "note": "False (witness); proved that only the first Build acts and exactly when it panics."
  },
  {
   "property": "C141",
   "status": "partial",
   "theorems": [
    "C141_refuted",
    "C141_never_partial"
   ],
   "note": "False (witness); proved that no span is ever begun."
  },
  {
   "property": "C142",
   "status": "partial",
   "theorems": [
    "C142_refuted",
    "C142_save_partial",
    "C142_json_partial",
    "C142_longest_partial",
    "C142_other"
   ],
   "note": "Proved for SaveFile, and for WriteJSON exactly when the file was not longer; false otherwise (witness)."
  },
  {
   "property": "C143",
   "status": "proved",
   "theorems": [
    "C143_options",
    "C143_panics"
   ],
   "note": ""
  },
  {
   "property": "C144",
   "status": "partial",
   "theorems": [
    "C144_weight_refuted",
    "C144_init_refuted",
    "C144_effect_partial",
    "C144_assigned_partial"
   ],
   "note": "Proved for all options but the weight; false for that and for the options of Init (witnesses)."
  },
  {
   "property": "C145",
   "status": "partial",
   "theorems": [
    "C145_id_refuted",
    "C145_port_partial",
    "C145_again"
   ],
   "note": "Proved for ports; false for ids (witness)."
  },
  {
   "property": "C146",
   "status": "partial",
   "theorems": [
    "C146_nil_refuted",
    "C146_last_partial",
    "C146_never_nil_partial",
    "C146_new"
   ],
   "note": "Proved after the first build; before it the value is not nil (witness)."
  },
  {
   "property": "C147",
   "status": "proved",
   "theorems": [
    "C147_count",
    "C147_exact"
   ],
   "note": ""
  },
  {
   "property": "C148",
   "status": "proved",
   "theorems": [
    "C148_moment",
    "C148_blocks"
   ],
   "note": ""
  },
  {
   "property": "C149",
   "status": "proved",
   "theorems": [
    "C149_wakes"
   ],
   "note": ""
  },
  {
   "property": "C150",
   "status": "partial",
   "theorems": [
    "C150_refuted",
    "C150_rules_partial",
    "C150_wait_returns_partial"
   ],
   "note": "False: an Add between the last Done and the released waiter's last look makes Wait panic (witness). Proved while the counter leaves zero only when no Wait is under way."
  },
  {
   "property": "C151",
   "status": "partial",
   "theorems": [
    "C151_blocks_refuted",
    "C151_returns_refuted",
    "C151_rest_partial"
   ],
   "note": "False between the two halves of an Add or Done (two witnesses); proved at rest."
  },
  {
   "property": "C152",
   "status": "proved",
   "theorems": [
    "C152_order",
    "C152_around",
    "C152_errors",
    "C152_panics"
   ],
   "note": ""
  },
  {
   "property": "C153",
   "status": "partial",
   "theorems": [
    "C153_exactly",
    "C153_refuted",
    "C153_off_partial"
   ],
   "note": "False: nobody resets the flag (witness for every number of rounds). The exact condition for one round is proved, and that the function runs in every round while nobody sets the flag."
  },
  {
   "property": "C154",
   "status": "partial",
   "theorems": [
    "C154_alone_refuted",
    "C154_handler_refuted",
    "C154_exactly_partial",
    "C154_calm_partial"
   ],
   "note": "False for a task in no service and for a panicking exception handler (witnesses); the exact condition is proved."
  },
  {
   "property": "C155",
   "status": "proved",
   "theorems": [
    "C155_values"
   ],
   "note": ""
  },
  {
   "property": "C156",
   "status": "partial",
   "theorems": [
    "C156_interceptors_partial",
    "C156_seen",
    "C156_replaced_refuted",
    "C156_last"
   ],
   "note": "False if a dial option sets an interceptor (witness); proved otherwise, and that exactly the last such dial option runs."
  },
  {
   "property": "C157",
   "status": "partial",
   "theorems": [
    "C157_idle_refuted",
    "C157_effect_partial",
    "C157_build",
    "C157_zero"
   ],
   "note": "False for five of the nine options (universal statement); proved for the other four: for interceptors only adding a noting one to a client that has none, for dial options only credentials. Also exactly when a client cannot be built, and that with 0 slots no Call is ever sent."
  },
  {
   "property": "C158",
   "status": "partial",
   "theorems": [
    "C158_created_partial",
    "C158_source",
    "C158_system_refuted",
    "C158_exists_refuted"
   ],
   "note": "False for System.Sub and for a stream that exists (witnesses); proved for the first process to ask while there is no stream, and that every time to live comes from a direct creation."
  },
  {
   "property": "C159",
   "status": "partial",
   "theorems": [
    "C159_first_partial",
    "C159_later_refuted",
    "C159_gone"
   ],
   "note": "False for a later subscription to the same channel (witness) and after the stream was lost (C159_gone, for all histories); proved for the first subscription."
  },
  {
   "property": "C160",
   "status": "partial",
   "theorems": [
    "C160_idle_refuted"
   ],
   "note": "False: the option is stored and read nowhere. In the model this is by construction (no step reads it, as no line of the code does); the theorem shows that leaving callbacks out changes no history."
  },
  {
   "property": "C161",
   "status": "partial",
   "theorems": [
    "C161_cause_partial",
    "C161_turns",
    "C161_subscription_refuted",
    "C161_timer_refuted",
    "C161_outside_refuted"
   ],
   "note": "False (three witnesses: Sub in Init, a timer made in Init, a call from another goroutine); proved what every crash needs."
  },
  {
   "property": "C162",
   "status": "partial",
   "theorems": [
    "C162_cause_partial",
    "C162_init_refuted",
    "C162_exit_refuted"
   ],
   "note": "False (witnesses: a timer made in Init, Exit during the last handler); proved what every crash needs."
  },
  {
   "property": "C163",
   "status": "partial",
   "theorems": [
    "C163_cause_partial",
    "C163_register_refuted",
    "C163_actors_refuted"
   ],
   "note": "False (witnesses for Actors and for Register); proved what every crash needs."
  },
  {
   "property": "C164",
   "status": "proved",
   "theorems": [
    "C164_all",
    "C164_registered",
    "C164_only",
    "C164_once"
   ],
   "note": "For calls that return; C163 shows that the process may go down instead. The map semantics of Go (an entry there throughout is taken once) is part of the model."
  },
  {
   "property": "C165",
   "status": "proved",
   "theorems": [
    "C165_exact",
    "C165_registered",
    "C165_unknown",
    "C165_unregistered",
    "C165_answered"
   ],
   "note": "Look-ups by id; the search by type of Call (277-286) is in SysModel."
  },
  {
   "property": "C166",
   "status": "proved",
   "theorems": [
    "C166_same",
    "C166_some"
   ],
   "note": ""
  },
  {
   "property": "C167",
   "status": "partial",
   "theorems": [
    "C167_refuted",
    "C167_kept"
   ],
   "note": "False (witness); proved that Swap leaves both sides where they are."
  },
  {
   "property": "C168",
   "status": "proved",
   "theorems": [
    "C168_own",
    "C168_answered"
   ],
   "note": "Bodies; headers are in MsgModel."
  },
  {
   "property": "C169",
   "status": "partial",
   "theorems": [
    "C169_refuted",
    "C169_never"
   ],
   "note": "False (witness); proved that options never make a difference."
  },
  {
   "property": "C170",
   "status": "partial",
   "theorems": [
    "C170_refuted",
    "C170_both",
    "C170_value",
    "C170_refused",
    "C170_half",
    "C170_returns"
   ],
   "note": "False if a participant is closed; proved for calls none of whose messages was refused, and that refusals come from closed participants only."
  },
  {
   "property": "C171",
   "status": "proved",
   "theorems": [
    "C171_found",
    "C171_once"
   ],
   "note": ""
  },
  {
   "property": "C172",
   "status": "partial",
   "theorems": [
    "C172_refuted",
    "C172_found",
    "C172_restores",
    "C172_value"
   ],
   "note": "False for overlapping transactions; proved exactly what a cancel restores."
  },
  {
   "property": "C173",
   "status": "partial",
   "theorems": [
    "C173_three_partial",
    "C173_any_partial",
    "C173_large_refuted",
    "C173_object_refuted"
   ],
   "note": "False for numbers near 2^53 and for requests that carry an object; proved for the rest, any number of actors."
  },
  {
   "property": "C174",
   "status": "partial",
   "theorems": [
    "C174_response_partial",
    "C174_other_fields",
    "C174_request",
    "C174_refuted"
   ],
   "note": "False of the request and of earlier fields of the response; proved what each holds for every placement."
  },
  {
   "property": "C175",
   "status": "proved",
   "theorems": [
    "C175_body",
    "C175_id"
   ],
   "note": ""
  },
  {
   "property": "C176",
   "status": "partial",
   "theorems": [
    "C176_answer_partial",
    "C176_object_refuted"
   ],
   "note": "False for responses that carry an object; proved for the rest."
  },
  {
   "property": "C177",
   "status": "partial",
   "theorems": [
    "C177_value_partial",
    "C177_final_partial",
    "C177_failed_refuted",
    "C177_int32_refuted"
   ],
   "note": "False after a failed call, and when the sum does not fit an int32; proved when every call is answered, for all interleavings."
  },
  {
   "property": "C178",
   "status": "partial",
   "theorems": [
    "C178_progress_partial",
    "C178_bounded",
    "C178_once",
    "C178_order",
    "C178_context_refuted"
   ],
   "note": "False if a context ends: the process dies. Proved while none ends: progress, a bound on the steps, at most once, in order."
  },
  {
   "property": "C179",
   "status": "partial",
   "theorems": [
    "C179_orders_refuted",
    "C179_overlap_refuted",
    "C179_even_partial",
    "C179_nodes"
   ],
   "note": "False when the loops over the nodes have different orders, and when choices overlap with registrations; proved otherwise, for any number of nodes, types and actors."
  },
  {
   "property": "C180",
   "status": "proved",
   "theorems": [
    "C180_found",
    "C180_once",
    "C180_weight"
   ],
   "note": ""
  },
  {
   "property": "C181",
   "status": "partial",
   "theorems": [
    "C181_ring_refuted",
    "C181_cause_partial",
    "C181_outside_partial",
    "C181_forever_partial"
   ],
   "note": "False for rings of actors of every size; a ring of waits is proved to be the only reason for a call from a handler, or from outside, not to return."
  },
  {
   "property": "C182",
   "status": "proved",
   "theorems": [
    "C182_returns",
    "C182_bounded",
    "C182_gone",
    "C182_panic"
   ],
   "note": ""
  }
 ]
}