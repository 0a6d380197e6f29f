{
 "claims": [
  {
   "property": "C01",
   "status": "proved",
   "theorems": [
    "C01_primitive_round_trip",
    "C01_primitive_format"
   ],
   "note": ""
  },
  {
   "property": "C02",
   "status": "proved",
   "theorems": [
    "C02_varint_shape",
    "C02_one_byte",
    "C02_overlong_rejected"
   ],
   "note": ""
  },
  {
   "property": "C03",
   "status": "proved",
   "theorems": [
    "C03_composite_round_trip",
    "C03_schemas_agree",
    "C03_array_format"
   ],
   "note": ""
  },
  {
   "property": "C04",
   "status": "proved",
   "theorems": [
    "C04_truncated_rejected"
   ],
   "note": ""
  },
  {
   "property": "C05",
   "status": "proved",
   "theorems": [
    "C05_long_body",
    "C05_long_header"
   ],
   "note": ""
  },
  {
   "property": "C06",
   "status": "proved",
   "theorems": [
    "C06_null_array"
   ],
   "note": ""
  },
  {
   "property": "C07",
   "status": "proved",
   "theorems": [
    "C07_string_fits",
    "C07_string_corrupted",
    "C07_data_format",
    "C07_byte_slice_format"
   ],
   "note": ""
  },
  {
   "property": "C08",
   "status": "proved",
   "theorems": [
    "C08_tags_round_trip",
    "C08_tags_order"
   ],
   "note": ""
  },
  {
   "property": "C09",
   "status": "proved",
   "theorems": [
    "C09_requests_are_frames",
    "C09_chunking_irrelevant",
    "C09_complete_frame_taken_up",
    "C09_huge_frame_ends_process"
   ],
   "note": ""
  },
  {
   "property": "C10",
   "status": "proved",
   "theorems": [
    "C10_replies_in_order"
   ],
   "note": ""
  },
  {
   "property": "C11",
   "status": "proved",
   "theorems": [
    "C11_C24_unsendable_fetch_dies",
    "C11_malformed_not_answered",
    "C11_malformed_ends_process",
    "C11_unsupported_ends_process",
    "C11_well_formed_answered",
    "C11_sync_assignments_end_process"
   ],
   "note": ""
  },
  {
   "property": "C12",
   "status": "proved",
   "theorems": [
    "C12_versions_exact"
   ],
   "note": ""
  },
  {
   "property": "C13",
   "status": "proved",
   "theorems": [
    "C13_log_is_the_posts",
    "C13_append_only",
    "C13_call_effect",
    "C13_only_calls_post",
    "C13_call_returns"
   ],
   "note": ""
  },
  {
   "property": "C14",
   "status": "proved",
   "theorems": [
    "C14_created_stays",
    "C14_nothing_else_creates",
    "C14_nondestructive",
    "C14_create_call"
   ],
   "note": ""
  },
  {
   "property": "C15",
   "status": "proved",
   "theorems": [
    "C15_commit_is_max",
    "C15_at_least_committed",
    "C15_never_lower",
    "C15_only_supplied_values"
   ],
   "note": ""
  },
  {
   "property": "C16",
   "status": "proved",
   "theorems": [
    "C16_commit_reply"
   ],
   "note": ""
  },
  {
   "property": "C17",
   "status": "proved",
   "theorems": [
    "C17_sets_exactly_one",
    "C17_call",
    "C17_existing",
    "C17_C28_no_effect_no_change"
   ],
   "note": ""
  },
  {
   "property": "C18",
   "status": "proved",
   "theorems": [
    "C18_offset_fetch_reply"
   ],
   "note": ""
  },
  {
   "property": "C19",
   "status": "proved",
   "theorems": [
    "C19_C20_list_offsets_reply"
   ],
   "note": ""
  },
  {
   "property": "C20",
   "status": "proved",
   "theorems": [
    "C19_C20_list_offsets_reply",
    "C20_position_determined",
    "C20_first_at_or_after",
    "C20_first_at_or_after_unordered_refuted"
   ],
   "note": ""
  },
  {
   "property": "C21",
   "status": "proved",
   "theorems": [
    "C21_C22_fetch_reply"
   ],
   "note": ""
  },
  {
   "property": "C22",
   "status": "proved",
   "theorems": [
    "C21_C22_fetch_reply",
    "C22_huge_record_passes_limit"
   ],
   "note": ""
  },
  {
   "property": "C23",
   "status": "proved",
   "theorems": [
    "C23_C24_fetch_reply",
    "C23_fetch_answered",
    "C23_too_big_never_answered"
   ],
   "note": ""
  },
  {
   "property": "C24",
   "status": "proved",
   "theorems": [
    "C23_C24_fetch_reply",
    "C24_few_partitions",
    "C11_C24_unsendable_fetch_dies",
    "C24_negative_offset"
   ],
   "note": ""
  },
  {
   "property": "C25",
   "status": "proved",
   "theorems": [
    "C25_message_layout",
    "C25_corruption_detected"
   ],
   "note": ""
  },
  {
   "property": "C26",
   "status": "proved",
   "theorems": [
    "C26_metadata_reply"
   ],
   "note": ""
  },
  {
   "property": "C27",
   "status": "proved",
   "theorems": [
    "C27_join_reply",
    "C27_sync_reply",
    "C27_sync_as_leader_rejected"
   ],
   "note": ""
  },
  {
   "property": "C28",
   "status": "proved",
   "theorems": [
    "C17_C28_no_effect_no_change",
    "C28_reading_requests"
   ],
   "note": ""
  },
  {
   "property": "C29",
   "status": "proved",
   "theorems": [
    "C29_consumer_loop",
    "C29_after_reset"
   ],
   "note": ""
  },
  {
   "property": "C30",
   "status": "proved",
   "theorems": [
    "C30_headers_unseen",
    "C30_headers_not_delivered"
   ],
   "note": ""
  },
  {
   "property": "C31",
   "status": "proved",
   "theorems": [
    "C31_start_panics",
    "C31_start_returns",
    "C31_C32_up_alone",
    "C31_finish_panics",
    "C31_finish_returns",
    "C31_stop_once",
    "C31_stop_touches",
    "C31_before_start",
    "C31_before_start_returns",
    "C31_first_start",
    "C31_C32_wait_returns",
    "C31_restart_listens",
    "C31_no_crash",
    "C31_dies_other",
    "C31_restart_keeps_store"
   ],
   "note": ""
  },
  {
   "property": "C32",
   "status": "proved",
   "theorems": [
    "C31_C32_up_alone",
    "C31_C32_wait_returns",
    "C32_no_negative",
    "C32_released",
    "C32_counters"
   ],
   "note": ""
  },
  {
   "property": "C33",
   "status": "proved",
   "theorems": [
    "C33_stop_closes",
    "C33_comes_to_rest",
    "C33_bounded_work",
    "C33_rest_calls",
    "C33_rest_server",
    "C33_stop_wins",
    "C33_lost_stop"
   ],
   "note": ""
  },
  {
   "property": "C34",
   "status": "proved",
   "theorems": [
    "C34_table",
    "C34_exact_iff"
   ],
   "note": ""
  },
  {
   "property": "C35",
   "status": "proved",
   "theorems": [
    "C35_races_exactly",
    "C35_races_among_many"
   ],
   "note": ""
  },
  {
   "property": "C36",
   "status": "proved",
   "theorems": [
    "C36_shared_delivery",
    "C36_unmodified",
    "C36_modified_before",
    "C36_modified_between",
    "C36_crc_always_matches_refuted"
   ],
   "note": ""
  },
  {
   "property": "C37",
   "status": "proved",
   "theorems": [
    "C37_answered_before_close",
    "C37_no_new_reads",
    "C37_idle_connection_closes"
   ],
   "note": ""
  },
  {
   "property": "C38",
   "status": "proved",
   "theorems": [
    "C38_find_reply",
    "C38_heartbeat_reply",
    "C38_leave_reply"
   ],
   "note": ""
  },
  {
   "property": "C39",
   "status": "proved",
   "theorems": [
    "C39_keys_distinct",
    "C39_keys_parsed"
   ],
   "note": ""
  },
  {
   "property": "C40",
   "status": "proved",
   "theorems": [
    "C40_legacy_agrees",
    "C40_legacy_panics",
    "C40_legacy_tags",
    "C40_legacy_null_read",
    "C40_legacy_compact_read",
    "C40_legacy_tags_wire"
   ],
   "note": ""
  },
  {
   "property": "C41",
   "status": "proved",
   "theorems": [
    "C41_stop_panics",
    "C41_restart_panics"
   ],
   "note": ""
  },
  {
   "property": "C42",
   "status": "proved",
   "theorems": [
    "C42_sections_atomic",
    "C42_server_covers"
   ],
   "note": ""
  },
  {
   "property": "C43",
   "status": "proved",
   "theorems": [
    "C43_waits_for_mover",
    "C43_only_negative_fetch_dies",
    "C43_no_endless_run",
    "C43_rests_when_done"
   ],
   "note": ""
  },
  {
   "property": "C44",
   "status": "proved",
   "theorems": [
    "C44_bufio_exact",
    "C44_decoder_reader",
    "C44_writer_exact"
   ],
   "note": ""
  },
  {
   "property": "C45",
   "status": "proved",
   "theorems": [
    "C45_parts",
    "C45_same_lane",
    "C45_restart_possible",
    "C45_all_closed",
    "C45_answered_before_end",
    "C45_request_holds",
    "C45_too_big_blocks",
    "C45_drains"
   ],
   "note": ""
  },
  {
   "property": "C46",
   "status": "proved",
   "theorems": [
    "C46_refines",
    "C46_no_crash",
    "C46_rest",
    "C46_contains",
    "C46_overlap_refuted",
    "C46_dead_refuted"
   ],
   "note": ""
  },
  {
   "property": "C47",
   "status": "proved",
   "theorems": [
    "C47_server_run",
    "C47_after_return",
    "C47_after_flag",
    "C47_graceful",
    "C47_can_return",
    "C47_late_start_refuted",
    "C47_panic_refuted",
    "C47_torn_reply_refuted"
   ],
   "note": ""
  },
  {
   "property": "C48",
   "status": "proved",
   "theorems": [
    "C48_judged",
    "C48_read_error",
    "C48_tcp_panics",
    "C48_wrapped_reset",
    "C48_accept_error",
    "C48_send_error"
   ],
   "note": ""
  },
  {
   "property": "C49",
   "status": "proved",
   "theorems": [
    "C49_races",
    "C49_table",
    "C49_no_overlap",
    "C49_races_refuted",
    "C49_writes",
    "C49_reads"
   ],
   "note": ""
  },
  {
   "property": "C50",
   "status": "proved",
   "theorems": [
    "C50_by_time",
    "C50_earliest",
    "C50_latest",
    "C50_latest_one_moment_refuted",
    "C50_sync",
    "C50_sync_one_moment_refuted"
   ],
   "note": ""
  },
  {
   "property": "C51",
   "status": "proved",
   "theorems": [
    "C51_decoded",
    "C51_taken_up",
    "C51_any",
    "C51_metadata",
    "C51_offset_fetch"
   ],
   "note": ""
  },
  {
   "property": "C52",
   "status": "proved",
   "theorems": [
    "C52_at_least_once",
    "C52_once_refuted"
   ],
   "note": ""
  },
  {
   "property": "C53",
   "status": "proved",
   "theorems": [
    "C53_as_plain",
    "C53_commit",
    "C53_offset_fetch",
    "C53_list",
    "C53_fetch",
    "C53_metadata",
    "C53_find",
    "C53_join",
    "C53_heartbeat",
    "C53_leave",
    "C53_versions",
    "C53_sync"
   ],
   "note": ""
  },
  {
   "property": "C54",
   "status": "proved",
   "theorems": [
    "C54_unseen",
    "C54_independent"
   ],
   "note": ""
  },
  {
   "property": "C55",
   "status": "proved",
   "theorems": [
    "C55_list_in_turn",
    "C55_commit_in_turn",
    "C55_offset_fetch_in_turn",
    "C55_later_is_more",
    "C55_one_moment_refuted"
   ],
   "note": ""
  },
  {
   "property": "C56",
   "status": "proved",
   "theorems": [
    "C56_numbers_wrap",
    "C56_numbers_differ"
   ],
   "note": ""
  },
  {
   "property": "C57",
   "status": "proved",
   "theorems": [
    "C57_copied",
    "C57_undiscarded",
    "C57_tags_undiscarded",
    "C57_only_contents",
    "C57_requests",
    "C57_views_refuted",
    "C57_tags_refuted"
   ],
   "note": ""
  },
  {
   "property": "C58",
   "status": "proved",
   "theorems": [
    "C58_encoder_panics",
    "C58_decodable",
    "C58_undecodable",
    "C58_array_as_slice",
    "C58_compact_tag",
    "C58_compact_bytes",
    "C58_int_cut",
    "C58_pointers"
   ],
   "note": ""
  },
  {
   "property": "C59",
   "status": "proved",
   "theorems": [
    "C59_time_of_post",
    "C59_not_ahead",
    "C59_ask_future",
    "C59_order",
    "C59_in_time_order",
    "C59_ask",
    "C59_exact_iff_in_order",
    "C59_in_time_order_overlap_refuted",
    "C59_in_time_order_clock_back_refuted"
   ],
   "note": ""
  },
  {
   "property": "C60",
   "status": "proved",
   "theorems": [
    "C60_same_course",
    "C60_sums",
    "C60_blind",
    "C60_lengths_refuted"
   ],
   "note": ""
  },
  {
   "property": "C61",
   "status": "proved",
   "theorems": [
    "C61_no_race",
    "C61_writes",
    "C61_reads",
    "C61_complete",
    "C61_kept",
    "C61_same_reply",
    "C61_made",
    "C61_one_version",
    "C61_covered_iff",
    "C61_two_versions_refuted"
   ],
   "note": ""
  },
  {
   "property": "C62",
   "status": "proved",
   "theorems": [
    "C62_detects",
    "C62_misses"
   ],
   "note": ""
  },
  {
   "property": "C63",
   "status": "proved",
   "theorems": [
    "C63_unread",
    "C63_fetch_size"
   ],
   "note": ""
  },
  {
   "property": "C64",
   "status": "proved",
   "theorems": [
    "C64_timeouts_unnoticed"
   ],
   "note": ""
  },
  {
   "property": "C65",
   "status": "proved",
   "theorems": [
    "C65_snapshot",
    "C65_in_order",
    "C65_new_partition_refuted"
   ],
   "note": ""
  },
  {
   "property": "C66",
   "status": "proved",
   "theorems": [
    "C66_fetch",
    "C66_list_offsets",
    "C66_offset_fetch",
    "C66_not_back"
   ],
   "note": ""
  },
  {
   "property": "C67",
   "status": "proved",
   "theorems": [
    "C67_list_list",
    "C67_list_fetch",
    "C67_commit_offset_fetch",
    "C67_post_fetch",
    "C67_create_list",
    "C67_set_offset_fetch"
   ],
   "note": ""
  }
 ]
}