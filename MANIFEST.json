{
 "claims": [
  {
   "property": "C01",
   "status": "proved",
   "theorems": [
    "C01_request_roundtrip"
   ],
   "note": "Request frame round trip"
  },
  {
   "property": "C02",
   "status": "proved",
   "theorems": [
    "C02_chunking_invariance",
    "C02_session"
   ],
   "note": "Chunking invariance of the TCP frame stream"
  },
  {
   "property": "C03",
   "status": "proved",
   "theorems": [
    "C03_oversize_iff",
    "C03_oversize_stops"
   ],
   "note": "Oversized frames are rejected at the header, smaller ones never"
  },
  {
   "property": "C04",
   "status": "proved",
   "theorems": [
    "C04_truncated"
   ],
   "note": "A truncated frame never produces a request"
  },
  {
   "property": "C05",
   "status": "proved",
   "theorems": [
    "C05_sdk_session",
    "C05_sdk_prefix",
    "C05_unambiguous"
   ],
   "note": "Server output is decoded by the SDK to the same events"
  },
  {
   "property": "C06",
   "status": "proved",
   "theorems": [
    "C06_args_survive",
    "C06_end_to_end"
   ],
   "note": "Command arguments survive the wire"
  },
  {
   "property": "C07",
   "status": "proved",
   "theorems": [
    "C07_no_misparse",
    "C07_truncated",
    "C07_text"
   ],
   "note": "Malformed requests are answered, never mis-parsed"
  },
  {
   "property": "C08",
   "status": "proved",
   "theorems": [
    "C08_disjoint",
    "C08_owner_runs",
    "C08_unknown",
    "C08_sdk_opcodes"
   ],
   "note": "Every opcode reaches exactly one handler"
  },
  {
   "property": "C09",
   "status": "partial",
   "theorems": [
    "C09_consume",
    "C09_peek",
    "C09_fetch",
    "C09_join",
    "C09_publish",
    "C09_count",
    "C09_bool",
    "C09_push",
    "C09_empty_payload_poisons",
    "C09_empty_payload_refuted"
   ],
   "note": "All response kinds round trip for non-empty payloads; refuted for empty payloads (the SDK decoder throws on an empty buffer and loses the whole batch)."
  },
  {
   "property": "C10",
   "status": "partial",
   "theorems": [
    "C10_id_roundtrip",
    "C10_distinct",
    "C10_dashes",
    "C10_upper_case",
    "C10_non_hex",
    "C10_length_refuted"
   ],
   "note": "Round trip, distinctness, dash/case handling and refusal of non-hex text hold; refuted: text of the wrong length is not refused. Status is partial only because of that."
  },
  {
   "property": "C11",
   "status": "partial",
   "theorems": [
    "C11_unique",
    "C11_usable_partial",
    "C11_usable_iff",
    "C11_usable_refuted"
   ],
   "note": "Uniqueness holds for any 2^32-2 consecutive requests. Usability holds for the first 2^31-1 requests and is refuted at request 2^31 (the id becomes negative and the frame writer throws)."
  },
  {
   "property": "C12",
   "status": "partial",
   "theorems": [
    "C12_own_response_partial",
    "C12_one_per_id_partial",
    "C12_all_answered_partial",
    "C12_never_stuck_partial",
    "C12_client_view_partial",
    "C12_panic_refuted"
   ],
   "note": "Own id, own result, at most once, and answered-or-panicked at the end proved for every interleaving and every handler, down to the SDK's events. Refuted in general: a request whose handler panics (SET with a lifetime the clock cannot represent) is never answered."
  },
  {
   "property": "C13",
   "status": "proved",
   "theorems": [
    "C13_last_write",
    "C13_after_sweeps",
    "C13_sound"
   ],
   "note": "Exact for every history and clock reading not before the sweeper's; at the instant of expiry either answer is possible and the theorem says when."
  },
  {
   "property": "C14",
   "status": "partial",
   "theorems": [
    "C14_ttl_exact",
    "C14_expiry",
    "C14_never_after",
    "C14_huge_ttl_refuted"
   ],
   "note": "Exact life time proved; refuted for TTLs whose deadline is not representable (the request panics)."
  },
  {
   "property": "C15",
   "status": "partial",
   "theorems": [
    "C15_sweep_invisible_partial",
    "C15_boundary_refuted"
   ],
   "note": "Proved for all instants except the exact expiry instant, where it is refuted."
  },
  {
   "property": "C16",
   "status": "proved",
   "theorems": [
    "C16_keys_independent"
   ],
   "note": "Store keys are independent"
  },
  {
   "property": "C17",
   "status": "partial",
   "theorems": [
    "C17_sound",
    "C17_no_duplicates",
    "C17_pages_complete",
    "C17_short_page_refuted",
    "C17_reachable"
   ],
   "note": "Soundness, no duplicates and completeness of paging proved; refuted: a page may be short though live entries follow (expired entries are dropped after the page is cut)."
  },
  {
   "property": "C18",
   "status": "proved",
   "theorems": [
    "C18_mqtt_matching",
    "C18_any_pattern"
   ],
   "note": "Topic matching follows the MQTT rules"
  },
  {
   "property": "C19",
   "status": "proved",
   "theorems": [
    "C19_exactly_once",
    "C19_exactly_once_any_pattern",
    "C19_at_most_once_concurrent"
   ],
   "note": "Publish delivers exactly once to each matching connected client"
  },
  {
   "property": "C20",
   "status": "partial",
   "theorems": [
    "C20_unsubscribe_partial",
    "C20_disconnect",
    "C20_inner_hash_refuted"
   ],
   "note": "Proved for patterns in which '#' is only last; refuted for others: unsubscribing a/#/b ends the subscription a/#. Disconnect proved for all."
  },
  {
   "property": "C21",
   "status": "proved",
   "theorems": [
    "C21_retained_on_subscribe"
   ],
   "note": "Subscribing delivers the retained messages that match"
  },
  {
   "property": "C22",
   "status": "proved",
   "theorems": [
    "C22_last_value",
    "C22_cleared",
    "C22_others_untouched"
   ],
   "note": "Retained value is the last one published"
  },
  {
   "property": "C23",
   "status": "partial",
   "theorems": [
    "C23_restart_partial",
    "C23_expired_returns_refuted",
    "C23_slash_conflict_refuted"
   ],
   "note": "Proved for topics without leading slash, up to one second of rounding of the TTL; refuted: a message that expired while the server was down returns and never expires; refuted: /a and a retained together stop all saving."
  },
  {
   "property": "C24",
   "status": "partial",
   "theorems": [
    "C24_names_partial",
    "C24_shown_iff",
    "C24_leading_slash_refuted"
   ],
   "note": "Proved for retained topics not beginning with '/' (exact iff) and for live messages (C19); refuted for '/a'."
  },
  {
   "property": "C25",
   "status": "partial",
   "theorems": [
    "C25_order_partial",
    "C25_pipelined_refuted"
   ],
   "note": "Proved when the first publish completed before the second was sent; refuted for publishes pipelined on one connection (each request is its own task)."
  },
  {
   "property": "C26",
   "status": "proved",
   "theorems": [
    "C26_racing_subscribe"
   ],
   "note": "A subscriber racing with a retained publish never misses it"
  },
  {
   "property": "C27",
   "status": "partial",
   "theorems": [
    "C27_closed_gets_nothing",
    "C27_unregistered_gets_nothing",
    "C27_no_leftover_partial",
    "C27_leftover_refuted",
    "C27_leftover_stays_refuted"
   ],
   "note": "No delivery after close/unregistration proved for every interleaving; absence of leftovers proved if no subscribe was overtaken by the disconnect; refuted otherwise."
  },
  {
   "property": "C28",
   "status": "partial",
   "theorems": [
    "C28_dispatch",
    "C28_live_partial",
    "C28_slash_refuted"
   ],
   "note": "Dispatch = MQTT matching proved for all handler sets and topics, and composed with the server for live messages; refuted for retained topics with a leading slash (renamed by the server)."
  },
  {
   "property": "C29",
   "status": "proved",
   "theorems": [
    "C29_one_place"
   ],
   "note": "Every message is in exactly one place"
  },
  {
   "property": "C30",
   "status": "proved",
   "theorems": [
    "C30_dispatch_order",
    "C30_no_overtaking"
   ],
   "note": "Dispatch order is priority, then arrival"
  },
  {
   "property": "C31",
   "status": "partial",
   "theorems": [
    "C31_no_double_delivery",
    "C31_deadline_partial",
    "C31_huge_timeout_refuted"
   ],
   "note": "No double delivery proved in full up to the deadline; the deadline equals delivery time + timeout only if the sum fits in 64 bits (refuted for huge timeouts, the sum wraps and the message expires at once)."
  },
  {
   "property": "C32",
   "status": "proved",
   "theorems": [
    "C32_batches",
    "C32_batch_order"
   ],
   "note": "Batches are bounded, duplicate-free and maximal"
  },
  {
   "property": "C33",
   "status": "partial",
   "theorems": [
    "C33_retry_bound",
    "C33_dead_letter_cause_partial",
    "C33_zero_retries_refuted"
   ],
   "note": "Delivery bound and attempt count proved for every max_retries; cause of dead-lettering proved for max_retries >= 1 and refuted for 0 (nack of a never-delivered message dead-letters it)."
  },
  {
   "property": "C34",
   "status": "proved",
   "theorems": [
    "C34_timeouts_exact"
   ],
   "note": "Visibility timeout redelivers exactly the overdue messages"
  },
  {
   "property": "C35",
   "status": "proved",
   "theorems": [
    "C35_ack_permanent"
   ],
   "note": "Ack is permanent"
  },
  {
   "property": "C36",
   "status": "proved",
   "theorems": [
    "C36_nack"
   ],
   "note": "Nack returns the message to the back of its priority"
  },
  {
   "property": "C37",
   "status": "partial",
   "theorems": [
    "C37_stale_ack_refuted",
    "C37_settle_present_partial"
   ],
   "note": "Refuted: a stale delivery can be acknowledged after its timeout. Proved instead: success exactly for messages pending or in flight."
  },
  {
   "property": "C38",
   "status": "proved",
   "theorems": [
    "C38_dlq_pages",
    "C38_death_order",
    "C38_dlq_distinct"
   ],
   "note": "DLQ listing and pagination"
  },
  {
   "property": "C39",
   "status": "proved",
   "theorems": [
    "C39_move",
    "C39_delete",
    "C39_purge"
   ],
   "note": "DLQ move, delete and purge"
  },
  {
   "property": "C40",
   "status": "proved",
   "theorems": [
    "C40_stats",
    "C40_listing"
   ],
   "note": "Queue statistics tell the truth"
  },
  {
   "property": "C41",
   "status": "proved",
   "theorems": [
    "C41_queues_independent",
    "C41_create_idempotent",
    "C41_unknown_fails",
    "C41_exists",
    "C41_own_history",
    "C41_own_answers"
   ],
   "note": "Queues are independent; create is idempotent"
  },
  {
   "property": "C42",
   "status": "proved",
   "theorems": [
    "C42_restart_restores",
    "C42_serves_after_restart"
   ],
   "note": "Restart restores the queue"
  },
  {
   "property": "C43",
   "status": "proved",
   "theorems": [
    "C43_crash_loses_suffix",
    "C43_no_duplicates",
    "C43_flushed_ack_permanent"
   ],
   "note": "A crash loses only a suffix of operations"
  },
  {
   "property": "C44",
   "status": "partial",
   "theorems": [
    "C44_acked_returns_refuted",
    "C44_dead_letter_lost_refuted",
    "C44_no_overtaking_partial"
   ],
   "note": "Refuted twice (acknowledged message comes back; dead letter disappears) because storage operations are sent after the lock is released. Proved when no request touches a message that has an unsent operation."
  },
  {
   "property": "C45",
   "status": "proved",
   "theorems": [
    "C45_recovered_state",
    "C45_recovered_live"
   ],
   "note": "Recovered delivery state"
  },
  {
   "property": "C46",
   "status": "partial",
   "theorems": [
    "C46_order_refuted",
    "C46_order_partial"
   ],
   "note": "Refuted: two histories with the same database deliver in different orders. Proved for histories without returns to the queue, rows loaded in insertion order."
  },
  {
   "property": "C47",
   "status": "partial",
   "theorems": [
    "C47_name_refuted",
    "C47_name_collision_refuted",
    "C47_name_exact_partial"
   ],
   "note": "Refuted for names ending in .db; proved exact for all others (iff)."
  },
  {
   "property": "C48",
   "status": "proved",
   "theorems": [
    "C48_no_lost_wakeup",
    "C48_next_turn_answers"
   ],
   "note": "A waiting consumer is never left asleep"
  },
  {
   "property": "C49",
   "status": "proved",
   "theorems": [
    "C49_publish_answers",
    "C49_gapless",
    "C49_new_topic"
   ],
   "note": "Sequence numbers are gapless"
  },
  {
   "property": "C50",
   "status": "partial",
   "theorems": [
    "C50_memory_exact_partial",
    "C50_settled_exact_partial",
    "C50_gapless_partial",
    "C50_exact_refuted"
   ],
   "note": "Exact for everything in memory and for everything once flushed; gapless and right payloads always. Refuted in general: a read that begins on disk stops at what the files show and does not go on in memory."
  },
  {
   "property": "C51",
   "status": "proved",
   "theorems": [
    "C51_memory_bounded",
    "C51_evicts_only_persisted",
    "C51_memory_is_suffix",
    "C51_evicted_on_disk",
    "C51_nowhere_lost"
   ],
   "note": "Eviction never loses data"
  },
  {
   "property": "C52",
   "status": "proved",
   "theorems": [
    "C52_one_owner",
    "C52_no_repeat_in_answer"
   ],
   "note": "A message has at most one owner in a group"
  },
  {
   "property": "C53",
   "status": "proved",
   "theorems": [
    "C53_pending_bound",
    "C53_answer_bound"
   ],
   "note": "Back-pressure bound"
  },
  {
   "property": "C54",
   "status": "proved",
   "theorems": [
    "C54_zero",
    "C54_attempts_bounded",
    "C54_parked_after_last",
    "C54_parked_is_final"
   ],
   "note": "Delivery attempts are bounded"
  },
  {
   "property": "C55",
   "status": "proved",
   "theorems": [
    "C55_floor_settled",
    "C55_done_reason",
    "C55_floor_maximal",
    "C55_floor_monotone"
   ],
   "note": "The ack floor means 'everything up to here is settled'"
  },
  {
   "property": "C56",
   "status": "proved",
   "theorems": [
    "C56_never_lost",
    "C56_where_it_is",
    "C56_fetch_exact"
   ],
   "note": "A group loses no message"
  },
  {
   "property": "C57",
   "status": "proved",
   "theorems": [
    "C57_ack_request",
    "C57_ack_iff_owner"
   ],
   "note": "Only the owner with the current generation can ack"
  },
  {
   "property": "C58",
   "status": "partial",
   "theorems": [
    "C58_leave_request",
    "C58_leave_releases_partial",
    "C58_release_order_refuted"
   ],
   "note": "Everything but the order proved; refuted: released messages are queued in hash-map order, not in number order."
  },
  {
   "property": "C59",
   "status": "proved",
   "theorems": [
    "C59_exactly_overdue"
   ],
   "note": "Ack timeout redelivers exactly the overdue messages"
  },
  {
   "property": "C60",
   "status": "proved",
   "theorems": [
    "C60_leave_refused",
    "C60_fetch_refused",
    "C60_no_group",
    "C60_seek_request",
    "C60_seek_delivers",
    "C60_old_generation_refused",
    "C60_nonmember_refused"
   ],
   "note": "Seek repositions the group and fences old members"
  },
  {
   "property": "C61",
   "status": "proved",
   "theorems": [
    "C61_other_groups_untouched",
    "C61_log_untouched",
    "C61_own_history"
   ],
   "note": "Groups and topics are independent"
  },
  {
   "property": "C62",
   "status": "proved",
   "theorems": [
    "C62_round_trip",
    "C62_torn_tail",
    "C62_changed_not_returned",
    "C62_changed_skipped_by_read",
    "C62_always_checked"
   ],
   "note": "Log records round trip and torn tails are cut"
  },
  {
   "property": "C63",
   "status": "partial",
   "theorems": [
    "C63_round_trip_partial",
    "C63_long_id_refuted"
   ],
   "note": "Proved for ids shorter than 65536 bytes; refuted for longer ones (length field wraps; the groups written behind it are lost too)."
  },
  {
   "property": "C64",
   "status": "proved",
   "theorems": [
    "C64_partition"
   ],
   "note": "Segments partition the log"
  },
  {
   "property": "C65",
   "status": "proved",
   "theorems": [
    "C65_removes_prefix",
    "C65_size_shortest",
    "C65_head"
   ],
   "note": "Retention removes only old data, never the newest segment"
  },
  {
   "property": "C66",
   "status": "proved",
   "theorems": [
    "C66_cold_read_exact"
   ],
   "note": "Cold read returns the stored range"
  },
  {
   "property": "C67",
   "status": "proved",
   "theorems": [
    "C67_log_continues",
    "C67_groups_resume"
   ],
   "note": "Restart continues the topic where it stopped"
  },
  {
   "property": "C68",
   "status": "partial",
   "theorems": [
    "C68_settled_partial",
    "C68_floors_within_partial",
    "C68_skip_refuted"
   ],
   "note": "Proved when everything was on disk at the crash, and for lossy crashes when the saved floors lie within what is left. Refuted in general: floors are saved while the log is still in a write buffer."
  },
  {
   "property": "C69",
   "status": "partial",
   "theorems": [
    "C69_never_below_head",
    "C69_whole_records_partial",
    "C69_survives_partial",
    "C69_no_reuse_partial",
    "C69_reuse_refuted",
    "C69_lost_after_torn_refuted"
   ],
   "note": "Proved for crashes between records (any number of them) and, for number reuse, for torn records when the newest file holds one record. Refuted: empty newest file (numbers restart at the head); torn record not cut off (later appends unreadable)."
  },
  {
   "property": "C70",
   "status": "partial",
   "theorems": [
    "C70_ordered_partial",
    "C70_order_refuted",
    "C70_mark_refuted"
   ],
   "note": "Proved when publishers hand over in number order; refuted otherwise: the hand-over is outside the topic lock."
  },
  {
   "property": "C71",
   "status": "proved",
   "theorems": [
    "C71_no_lost_wakeup",
    "C71_published_returned",
    "C71_next_turn"
   ],
   "note": "A waiting fetch is never left asleep"
  },
  {
   "property": "C72",
   "status": "partial",
   "theorems": [
    "C72_progress_partial",
    "C72_cut_off_refuted"
   ],
   "note": "Proved for every state of a calm history (hand-over to storage in order, restarts only when all is on disk) in which no connection was cut off during a disk read since the last restart. Refuted in general: a cut-off disk read leaves the group's reading flag set, and then no fetch of any member hands out a message that is on disk only, until a seek, a head change that touches the group, or a restart."
  },
  {
   "property": "C73",
   "status": "partial",
   "theorems": [
    "C73_clean_end_partial",
    "C73_error_end_refuted",
    "C73_join_race_refuted"
   ],
   "note": "Proved for a close between frames with no request of the connection being executed at that moment. Refuted for an oversized header, a close inside a frame and a failed read or write (no clean-up runs at all), and for a join that is being executed when the connection ends (it joins after the clean-up)."
  },
  {
   "property": "C74",
   "status": "partial",
   "theorems": [
    "C74_topic_partial",
    "C74_topic_kept_partial",
    "C74_late_publish_refuted",
    "C74_create_refuted",
    "C74_config_refuted",
    "C74_groups_refuted",
    "C74_queue_partial",
    "C74_queue_kept_partial",
    "C74_queue_create_refuted",
    "C74_queue_deletes_refuted",
    "C74_queue_late_refuted"
   ],
   "note": "Topics: proved when no publish, group save or create of the name is under way as a delete begins or starts before it returns (deletes may overlap). Queues: proved with pushes and deletes overlapping freely, for the return of the last delete under way, when no create falls into a delete. Refuted outside: a publish half done when the topic is deleted brings it back at the restart; a create overlapping a delete shows the old messages and is lost (or loses its configuration) at the restart; group positions of the deleted topic are written into the new one; of two overlapping queue deletes one returns while the other's writer makes the file again, or removes the files of a queue created since."
  },
  {
   "property": "C75",
   "status": "partial",
   "theorems": [
    "C75_limit_partial",
    "C75_order_partial",
    "C75_exactly_once_partial",
    "C75_unstopped_partial",
    "C75_not_stuck_partial",
    "C75_limit_refuted",
    "C75_left_out_refuted"
   ],
   "note": "Limit, order, exactly-once and progress proved for every schedule in which sending an ack or nack does not throw. Refuted otherwise: the call rejects while handlers run on, the next batch exceeds the limit, and with limit 1 the rest of the batch is left out."
  },
  {
   "property": "C76",
   "status": "proved",
   "theorems": [
    "C76_reference_queue"
   ],
   "note": "Every queue request is answered as the reference queue would"
  },
  {
   "property": "C77",
   "status": "partial",
   "theorems": [
    "C77_deliveries_partial",
    "C77_every_run_partial",
    "C77_any_number_refuted",
    "C77_retry_limit_refuted",
    "C77_retry_limit_partial"
   ],
   "note": "Refuted: a start makes a message whose deadline has passed waiting without looking at its attempts (C77_retry_limit_refuted with one restart; C77_any_number_refuted: any number of deliveries with maxRetries 1, though everything was written before each crash). Proved: the count of attempts exceeds the limit by at most the number of restarts; all deliveries of a queue together are at most the limit for each push and move, plus one for each message in flight that had had all its deliveries at a restart with everything written, plus the limit for each message listed after a restart that lost writes. C77_every_run_partial: every run of the model has such an account."
  },
  {
   "property": "C78",
   "status": "partial",
   "theorems": [
    "C78_crash_snapshot_partial",
    "C78_slash_refuted"
   ],
   "note": "Proved for retained topics not beginning with '/', with the TTL rounding of C23. Without that condition it is false: C78_slash_refuted."
  },
  {
   "property": "C79",
   "status": "proved",
   "theorems": [
    "C79_huge_ttl_unanswered",
    "C79_huge_ttl_changes_nothing"
   ],
   "note": "A retained publish with an unrepresentable TTL changes nothing"
  },
  {
   "property": "C80",
   "status": "proved",
   "theorems": [
    "C80_sound",
    "C80_complete"
   ],
   "note": "An acknowledgement stands for a handler that succeeded"
  },
  {
   "property": "C81",
   "status": "partial",
   "theorems": [
    "C81_file_size_partial",
    "C81_files_full_partial",
    "C81_torn_refuted"
   ],
   "note": "Proved for every history in which publishers hand over in order and crashes leave whole records. Refuted after a crash inside a record: rotation may pick the name of an existing file, which then grows beyond the limit."
  },
  {
   "property": "C82",
   "status": "proved",
   "theorems": [
    "C82_order",
    "C82_none_lost",
    "C82_all_written",
    "C82_client",
    "C82_client_all"
   ],
   "note": "Pushed messages reach a connection in order, each once"
  },
  {
   "property": "C83",
   "status": "proved",
   "theorems": [
    "C83_linearizable",
    "C83_own_write",
    "C83_pipelined_any_order"
   ],
   "note": "Store requests over a connection are linearizable"
  },
  {
   "property": "C84",
   "status": "partial",
   "theorems": [
    "C84_at_most_once",
    "C84_truthful",
    "C84_own_id",
    "C84_settled_in_time_partial",
    "C84_all_settled_partial",
    "C84_loss_settles_partial",
    "C84_disconnect_hangs",
    "C84_disconnect_refuted"
   ],
   "note": "At most once, truthful and own id proved for every history (ids for the first 2^32-2 packets, after which they repeat, see C11). Settling in time proved for histories without disconnect() and with readable error responses. Refuted for disconnect(): requests open at that moment are never settled."
  },
  {
   "property": "C85",
   "status": "partial",
   "theorems": [
    "C85_final_partial",
    "C85_final_refuted"
   ],
   "note": "Proved when disconnect() is called while connected. Refuted while the reconnect loop sleeps: the client connects again and its requests are no longer timed out."
  },
  {
   "property": "C86",
   "status": "partial",
   "theorems": [
    "C86_hears_partial",
    "C86_empty_message_refuted"
   ],
   "note": "Proved for messages that are values as the SDK writes them (type byte; JSON text that parses). Refuted for a message without any byte, published by another client: the 'data' callback of every SDK subscriber throws, an uncaught exception."
  },
  {
   "property": "C87",
   "status": "proved",
   "theorems": [
    "C87_comes_back"
   ],
   "note": "The SDK client reconnects after every loss"
  },
  {
   "property": "C88",
   "status": "partial",
   "theorems": [
    "C88_stays_partial",
    "C88_delivered_partial",
    "C88_settled_once",
    "C88_resolves",
    "C88_settles",
    "C88_overlap_refuted"
   ],
   "note": "Proved when the earlier calls about the same pattern are settled and the broker has executed their UNSUBs when subscribe is called. Refuted for overlapping calls: a second unsubscribe still open when the topic is subscribed again ends the new subscription."
  },
  {
   "property": "C89",
   "status": "partial",
   "theorems": [
    "C89_silent",
    "C89_dropped_partial",
    "C89_restore_refuted",
    "C89_timeout_refuted"
   ],
   "note": "That the handler never runs again is proved for every history. That the broker has dropped the subscription is proved when it has executed the earlier SUBs of the pattern and the unsubscribe sent a request. Refuted otherwise: the restore of a reconnect may be executed after the UNSUB, and a subscribe that timed out at the client but was executed cannot be undone."
  },
  {
   "property": "C90",
   "status": "partial",
   "theorems": [
    "C90_identity",
    "C90_joins",
    "C90_ack",
    "C90_goes_on",
    "C90_admitted_partial",
    "C90_handed",
    "C90_shut_out_refuted"
   ],
   "note": "Identity, acknowledgements, re-joining and going on are proved for every history of the client. That the server accepts the identity is proved, with the server's model behind the client, for histories in which no connection is lost while callbacks run. Refuted otherwise: after a loss and return of the connection during a callback the old consumer id is kept, its FETCHes are answered with no messages rather than NOT_MEMBER (manager.rs:235-237), and no callback is ever started again while the connection holds and nobody seeks."
  },
  {
   "property": "C91",
   "status": "partial",
   "theorems": [
    "C91_silent",
    "C91_returned",
    "C91_resolves",
    "C91_leaves_partial",
    "C91_leave_refuted"
   ],
   "note": "Silence, completion and that stop() can return are proved for every history; so is that LEAVE is written when there is an identity and a connection. Refuted: a stop() while a JOIN is under way leaves a member behind that holds messages after stop() has returned."
  },
  {
   "property": "C92",
   "status": "partial",
   "theorems": [
    "C92_goes_on",
    "C92_never_stuck",
    "C92_silent",
    "C92_returned_partial",
    "C92_handed_back_partial",
    "C92_free_again",
    "C92_returned_refuted"
   ],
   "note": "Going on, silence after stop() and re-use are proved for every history. That callbacks have ended when stop() returns, and that messages passed over are handed back, is proved when no frame write throws; refuted otherwise (an ack that cannot be written makes stop() return while callbacks run)."
  },
  {
   "property": "C93",
   "status": "partial",
   "theorems": [
    "C93_single_partial",
    "C93_two_loops_refuted"
   ],
   "note": "Proved when subscribe() is not called while another call on the handle awaits its EXISTS request; refuted otherwise: both calls are accepted."
  },
  {
   "property": "C94",
   "status": "partial",
   "theorems": [
    "C94_no_loss",
    "C94_genuine",
    "C94_dead_cause_partial",
    "C94_dead_after_stop_refuted",
    "C94_poison_refuted"
   ],
   "note": "That no message is lost and that callbacks get only what was pushed is proved for every history. That dead letters had their callback run is refuted: messages that arrive after stop() are handed back, which counts as an attempt; and a payload that cannot be decoded makes the SDK drop its whole batch, whose messages then time out. Proved instead: the four causes a dead letter can have."
  },
  {
   "property": "C95",
   "status": "proved",
   "theorems": [
    "C95_at_most_once",
    "C95_done"
   ],
   "note": "A message handled in time is handled once"
  },
  {
   "property": "C96",
   "status": "partial",
   "theorems": [
    "C96_no_loss",
    "C96_kept",
    "C96_genuine",
    "C96_poison_refuted",
    "C96_crash_refuted"
   ],
   "note": "That no record is passed over, that it stays with the server until then, and that callbacks get only what was published is proved for every history in which restarts happen after everything is written (crashes before that: C96_crash_refuted, C68, C69). Refuted: for crashes that lose buffered records while the saved floors cover them (a record published afterwards gets a number below the floor and no callback); and that a record is given up only after its callback has been run (a neighbour in the batch that cannot be decoded makes the SDK drop the batch before any callback, and streams have no dead letters)."
  },
  {
   "property": "C97",
   "status": "partial",
   "theorems": [
    "C97_at_most",
    "C97_again_only",
    "C97_acked",
    "C97_stop_refuted"
   ],
   "note": "The bounds on the number of starts and that an accepted acknowledgement is final are proved for every history in which restarts happen after everything is written. Refuted: handled once if all goes well, because stop() sends LEAVE while callbacks are still running, which takes their records back."
  },
  {
   "property": "C98",
   "status": "partial",
   "theorems": [
    "C98_rows_partial",
    "C98_plain_partial",
    "C98_clients",
    "C98_same_name_refuted",
    "C98_hidden_refuted",
    "C98_wild_topic_refuted",
    "C98_literal_refuted"
   ],
   "note": "Proved for retained topics without a level + or # and names that do not begin with a slash (with leading slashes: one row per pattern, under the name without them). Refuted otherwise: /a and a are two rows of one name, a subscription to / is not shown, a retained topic + makes a second row +, and the literal topic C# is listed among the # wildcards."
  },
  {
   "property": "C99",
   "status": "partial",
   "theorems": [
    "C99_last",
    "C99_newest_partial",
    "C99_settled_partial",
    "C99_genuine",
    "C99_groups",
    "C99_newest_refuted",
    "C99_between_refuted"
   ],
   "note": "The newest number, the groups, and that the page is a gapless run of published records are proved for every history. That the page is exactly the newest records is proved when the topic was not restarted since its creation and the limit does not exceed what memory keeps, and, for every history and every from, once everything is written. Refuted otherwise: after a restart memory holds only the last file, the page starts on disk and does not go on in memory, so the newest record is missing; likewise when records are evicted while the page is made."
  },
  {
   "property": "C100",
   "status": "partial",
   "theorems": [
    "C100_json_values",
    "C100_json_distinct",
    "C100_kinds",
    "C100_nan_refuted",
    "C100_round_trip_partial",
    "C100_distinct_partial",
    "C100_strings",
    "C100_any_text",
    "C100_lone_refuted"
   ],
   "note": "Proved for Buffers, for strings without lone surrogates, and for every JSON value (stringify and parse are modelled): it comes back with undefined members left out and NaN, infinities and undefined elements as null, otherwise unchanged. The two theorems named partial hold for any pair of JSON functions. Refuted for NaN and for strings with lone surrogates: they arrive as U+FFFD, and two such store keys or topics become one. Proved for every string: it arrives as a string with its lone surrogates replaced."
  },
  {
   "property": "C101",
   "status": "partial",
   "theorems": [
    "C101_shown",
    "C101_distinct_partial",
    "C101_untyped",
    "C101_alike_refuted"
   ],
   "note": "What is shown is proved for every payload; that different Buffers, and different texts, are shown differently is proved. Refuted between the kinds: the Buffer 00 and the string 0x00 look the same."
  },
  {
   "property": "C102",
   "status": "partial",
   "theorems": [
    "C102_taken",
    "C102_refused",
    "C102_total",
    "C102_none",
    "C102_subscribe",
    "C102_infinity_refuted",
    "C102_wait_refuted",
    "C102_misspelt_refuted"
   ],
   "note": "Values in range, omitted values and refusals are proved for every options object whose names are text. Refuted: Infinity and NaN become null and then the default (waitMs: Infinity does not wait at all, ttl: Infinity is one hour); a misspelt option is ignored by every command but push."
  },
  {
   "property": "C103",
   "status": "partial",
   "theorems": [
    "C103_queue_kept",
    "C103_stream_kept",
    "C103_distinct",
    "C103_queue_torn",
    "C103_stream_torn",
    "C103_torn_refuted",
    "C103_moved_refuted"
   ],
   "note": "Proved for files written completely; of a file cut at any byte nothing is read, so that all settings are the defaults, never a mixture. Refuted: that the settings survive then (the defaults come in silently), and a stream stores the directory it was created in, so that after moving the data the server writes to the new place and recovers from the old one."
  },
  {
   "property": "C104",
   "status": "partial",
   "theorems": [
    "C104_taken",
    "C104_server_strict",
    "C104_brokers_silent_refuted"
   ],
   "note": "Proved for numbers and unset variables; other texts stop the server for its own settings. Refuted for the brokers' settings: other texts are silently the default."
  },
  {
   "property": "C105",
   "status": "proved",
   "theorems": [
    "C105_set_get",
    "C105_expires",
    "C105_del_get",
    "C105_other_set",
    "C105_other_keys"
   ],
   "note": "What one application stores, every application reads"
  },
  {
   "property": "C106",
   "status": "partial",
   "theorems": [
    "C106_live",
    "C106_handler_partial",
    "C106_retained",
    "C106_clear_refuted"
   ],
   "note": "Delivery, values and retention are proved end to end; the handler's call in the situation C88 covers (overlapping calls for one pattern excluded). Refuted: an SDK cannot clear a retained message, as every value it can publish has a payload that is not empty."
  },
  {
   "property": "C107",
   "status": "proved",
   "theorems": [
    "C107_no_loss",
    "C107_genuine",
    "C107_no_poison",
    "C107_dead_letters"
   ],
   "note": "What applications push is what the consumers' callbacks get"
  },
  {
   "property": "C108",
   "status": "proved",
   "theorems": [
    "C108_no_loss",
    "C108_genuine",
    "C108_no_poison"
   ],
   "note": "What applications publish to a stream is what the groups' callbacks get"
  },
  {
   "property": "C109",
   "status": "partial",
   "theorems": [
    "C109_rows",
    "C109_dead",
    "C109_text",
    "C109_json",
    "C109_json_part",
    "C109_buffer_refuted",
    "C109_quote_refuted",
    "C109_dead_search_refuted"
   ],
   "note": "Rows, total and paging are proved for every history and search; texts are found by exactly their parts, JSON values by exactly the parts of their JSON text (so by every part of a string in them without quotes, backslashes and control characters). Refuted: a Buffer is not found by the hexadecimal text the page shows, a part of a string with a quote in it is not found, and the search is ignored for dead letters."
  },
  {
   "property": "C110",
   "status": "proved",
   "theorems": [
    "C110_stored",
    "C110_no_loss",
    "C110_restarts",
    "C110_genuine",
    "C110_no_return"
   ],
   "note": "A message on disk reaches a callback whatever crashes"
  },
  {
   "property": "C111",
   "status": "partial",
   "theorems": [
    "C111_rows",
    "C111_page",
    "C111_search",
    "C111_total_partial",
    "C111_total_refuted",
    "C111_sweep_refuted"
   ],
   "note": "Rows, order-free paging, expiry times and search are proved for every history. Refuted: the total counts keys that the search does not find and keys expired but not swept (proved: an upper bound, exact with no search and nothing expired); and when the sweeper removes keys between two page requests, later keys move to earlier pages and a live key can be on none of the pages."
  },
  {
   "property": "C112",
   "status": "partial",
   "theorems": [
    "C112_queue",
    "C112_stream_partial",
    "C112_stream_whole_partial",
    "C112_stream_refuted"
   ],
   "note": "Queues: proved in full, for crashes of the process (a loss of power can lose the settings file, which is not synced). Streams: proved up to one exception, shown by refutation: the directory is made before the settings are written and removed file by file, so a crash in the middle leaves a stream without settings of its own. It has the defaults of whichever server runs, and creating it again is answered without effect. Without a crash inside a creation or deletion the full claim is proved for streams too."
  },
  {
   "property": "C113",
   "status": "proved",
   "theorems": [
    "C113_budget",
    "C113_whole_life",
    "C113_progress",
    "C113_drain",
    "C113_workers",
    "C113_workers_once"
   ],
   "note": "Within one run of the server (attempts of messages recovered after a crash: C110 and the persistence properties). C113_drain has one worker and its acks; C113_workers has any number, for continuations without new pushes, nacks and timeouts; the bound on deliveries holds for all interleavings."
  }
 ]
}