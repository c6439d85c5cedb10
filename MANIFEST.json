{
 "claims": [
  {
   "property": "C01",
   "status": "proved",
   "theorems": [
    "C01_struct_roundtrip"
   ],
   "note": "All schemas and values; size of the encoding below 2^64."
  },
  {
   "property": "C02",
   "status": "partial",
   "theorems": [
    "C02_optional_presence_refuted",
    "C02_optional_presence_partial",
    "C02_delivered_value_partial"
   ],
   "note": "Refuted for present-but-empty optionals (they arrive absent); exact characterisation proved."
  },
  {
   "property": "C03",
   "status": "partial",
   "theorems": [
    "C03_only_variants_encode",
    "C03_enum_decodable_refuted",
    "C03_enum_decodable_partial"
   ],
   "note": "Refuted for zero-length payloads; iff characterisation proved."
  },
  {
   "property": "C04",
   "status": "proved",
   "theorems": [
    "C04_field_map",
    "C04_field_order",
    "C04_unknown_fields",
    "C04_older_reader"
   ],
   "note": ""
  },
  {
   "property": "C05",
   "status": "proved",
   "theorems": [
    "C05_missing_field_no_value",
    "C05_missing_field_error",
    "C05_missing_field_kind"
   ],
   "note": "A missing field never yields a value, for arbitrary bytes; it is an error when no nested payload is truncated (otherwise C06 applies)."
  },
  {
   "property": "C06",
   "status": "partial",
   "theorems": [
    "C06_decode_no_panic_refuted",
    "C06_truncated_payload_panics_refuted",
    "C06_field_list_panics_iff_partial",
    "C06_decode_no_panic_partial"
   ],
   "note": "Refuted: payloads cut inside a field panic (exact criterion for the field list). No panic for payloads complete at every level."
  },
  {
   "property": "C07",
   "status": "proved",
   "theorems": [
    "C07_injective"
   ],
   "note": ""
  },
  {
   "property": "C08",
   "status": "proved",
   "theorems": [
    "C08_string_roundtrip",
    "C08_string_total",
    "C08_only_invalid_changes"
   ],
   "note": ""
  },
  {
   "property": "C09",
   "status": "proved",
   "theorems": [
    "C09_chunking_independence",
    "C09_queue_fifo",
    "C09_end_to_end"
   ],
   "note": "Also end to end with the codec."
  },
  {
   "property": "C10",
   "status": "partial",
   "theorems": [
    "C10_nothing_left_unread_refuted",
    "C10_nothing_left_unread_partial"
   ],
   "note": "Refuted after a bad packet; proved after every successful call."
  },
  {
   "property": "C11",
   "status": "proved",
   "theorems": [
    "C11_resync"
   ],
   "note": "One further call of chunk per bad packet is needed."
  },
  {
   "property": "C12",
   "status": "partial",
   "theorems": [
    "C12_no_panic_refuted",
    "C12_no_panic_partial",
    "C12_streams_partial"
   ],
   "note": "Refuted for announced lengths near 2^64; all causes of a panic characterised."
  },
  {
   "property": "C13",
   "status": "partial",
   "theorems": [
    "C13_rust_to_ts_refuted",
    "C13_high_ids_never_decode",
    "C13_byte_order_mark_refuted",
    "C13_rust_to_ts_partial",
    "C13_same_view_partial",
    "C13_end_to_end_partial"
   ],
   "note": "Refuted for field ids >= 256 (no bytes decode at all) and strings starting with U+FEFF; proved, also end to end through the reader, for supported schemas with ids < 256."
  },
  {
   "property": "C14",
   "status": "partial",
   "theorems": [
    "C14_ts_to_rust_partial",
    "C14_unset_enum_refuted",
    "C14_empty_payload_refuted",
    "C14_struct_array_variant_refuted"
   ],
   "note": "Both encoders produce identical bytes and Rust decodes them; refuted for unset enum fields, zero-length enum payloads, struct-array variants."
  },
  {
   "property": "C15",
   "status": "partial",
   "theorems": [
    "C15_progress_refuted",
    "C15_divergence_criterion",
    "C15_unknown_id_blocks_refuted",
    "C15_throw_blocks",
    "C15_progress_partial",
    "C15_deterministic"
   ],
   "note": "Refuted: a foreign signature loops forever (exact criterion), an unknown id blocks the reader forever. Proved for streams without either."
  },
  {
   "property": "C16",
   "status": "proved",
   "theorems": [
    "C16_parse_terminates"
   ],
   "note": "Every text; extra fuel never changes the outcome."
  },
  {
   "property": "C17",
   "status": "proved",
   "theorems": [
    "C17_ids_unique",
    "C17_ids_unique_with_services"
   ],
   "note": "Also after the service structs of the workflow are added."
  },
  {
   "property": "C18",
   "status": "proved",
   "theorems": [
    "C18_references_resolved",
    "C18_types_finite"
   ],
   "note": "Finiteness of codec types for protocols the renderer supports."
  },
  {
   "property": "C19",
   "status": "partial",
   "theorems": [
    "C19_duplicate_fields_partial",
    "C19_duplicate_entities_refuted",
    "C19_duplicate_variants_refuted"
   ],
   "note": "Proved for fields; refuted for entities of one scope and for enum variants."
  },
  {
   "property": "C20",
   "status": "partial",
   "theorems": [
    "C20_truncated_rejected_refuted",
    "C20_every_cut_accepted_refuted",
    "C20_word_at_end_rejected_partial"
   ],
   "note": "Refuted: unclosed entities are silently dropped, for every cut not inside a word; a text ending in a word is rejected."
  },
  {
   "property": "C21",
   "status": "partial",
   "theorems": [
    "C21_grammar_partial",
    "C21_unambiguous",
    "C21_print_parse",
    "C21_space_before_semicolon_refuted",
    "C21_enclosing_group_refuted",
    "C21_qualified_inside_group_refuted"
   ],
   "note": "Read back exactly for every well-scoped tree and every layout; refuted for a space before the ';' of a variant without type and for two kinds of references (simple name from a nested group, qualified name inside the group being read)."
  },
  {
   "property": "C22",
   "status": "proved",
   "theorems": [
    "C22_append_keeps_declarations",
    "C22_append_keeps_types",
    "C22_service_ids_refuted"
   ],
   "note": "Structs, enums, ids and codec types are unchanged; the ids of the service messages do move (refuted separately)."
  },
  {
   "property": "C23",
   "status": "partial",
   "theorems": [
    "C23_terminates_partial",
    "C23_terminates_refuted",
    "C23_every_last_word_loops_refuted"
   ],
   "note": "False as stated: a text whose last characters form a word is read forever (C23_terminates_refuted; C23_every_last_word_loops_refuted for a whole family). Proved for texts that end with white space or punctuation."
  },
  {
   "property": "C24",
   "status": "proved",
   "theorems": [
    "C24_references_exist",
    "C24_protocol_kept",
    "C24_complete"
   ],
   "note": ""
  },
  {
   "property": "C25",
   "status": "proved",
   "theorems": [
    "C25_unique",
    "C25_distinct_entities"
   ],
   "note": "Also: different references denote different entities."
  },
  {
   "property": "C26",
   "status": "partial",
   "theorems": [
    "C26_modules_distinct_partial",
    "C26_underscore_refuted",
    "C26_case_refuted",
    "C26_request_case_refuted",
    "C26_reserved_refuted",
    "C26_keyword_refuted"
   ],
   "note": "False as stated (C26_underscore_refuted, C26_case_refuted, C26_request_case_refuted, C26_reserved_refuted, C26_keyword_refuted). Proved for references that differ in more than case, have no underscores and are no keywords or reserved names."
  },
  {
   "property": "C27",
   "status": "partial",
   "theorems": [
    "C27_refuted",
    "C27_single_action_broadcasts_lost",
    "C27_broadcasts_sent_partial",
    "C27_only_declared_broadcasts"
   ],
   "note": "False as stated (C27_refuted, and C27_single_action_broadcasts_lost for every request with a single action): the generated module of such a request drops the broadcasts. Proved for requests with several actions."
  },
  {
   "property": "C28",
   "status": "proved",
   "theorems": [
    "C28_handlers_only_for_authenticated",
    "C28_handler_gets_its_message"
   ],
   "note": "Over all traces of the modelled listener, for an arbitrary protocol, server and user handlers. A key may also be set by the application."
  },
  {
   "property": "C29",
   "status": "proved",
   "theorems": [
    "C29_disconnect_at_most_once"
   ],
   "note": ""
  },
  {
   "property": "C30",
   "status": "partial",
   "theorems": [
    "C30_refuted",
    "C30_later_events_not_served_partial"
   ],
   "note": "False as stated (C30_refuted): the rest of the chunk during which the consumer was disconnected is still served. Proved for all later events."
  },
  {
   "property": "C31",
   "status": "proved",
   "theorems": [
    "C31_answers_addressed",
    "C31_requests_answered",
    "C31_in_arrival_order"
   ],
   "note": "A response is not sent when a message cannot be packed or the server refuses it; this is part of the statements."
  },
  {
   "property": "C32",
   "status": "proved",
   "theorems": [
    "C32_consumers_isolated"
   ],
   "note": ""
  },
  {
   "property": "C33",
   "status": "partial",
   "theorems": [
    "C33_refuted",
    "C33_segmentation_partial"
   ],
   "note": "False as stated (C33_refuted): self key, hashes and request in one chunk lead to a disconnect, in two chunks they are served. Proved from the moment the consumer has a key, for well-formed bytes, as long as it is not disconnected."
  },
  {
   "property": "C34",
   "status": "proved",
   "theorems": [
    "C34_events_paired",
    "C34_connect_runs",
    "C34_disconnect_runs",
    "C34_duplicate_replaces_nothing"
   ],
   "note": "A duplicate uuid replaces nothing, but it ends the listener (C47)."
  },
  {
   "property": "C35",
   "status": "proved",
   "theorems": [
    "C35_filters",
    "C35_handlers_see_connected"
   ],
   "note": ""
  },
  {
   "property": "C36",
   "status": "proved",
   "theorems": [
    "C36_response_carries_number",
    "C36_request_answered",
    "C36_at_most_once"
   ],
   "note": "Over all executions of the modelled connection: any schedule of its tasks, any bytes, any calls. The message may have been read before the request was handed to the transport."
  },
  {
   "property": "C37",
   "status": "proved",
   "theorems": [
    "C37_numbers",
    "C37_outstanding_distinct",
    "C37_reuse"
   ],
   "note": "Also: the same number is handed out again only after all 4294967284 others. What happens when the number is still in use is C57."
  },
  {
   "property": "C38",
   "status": "partial",
   "theorems": [
    "C38_why_requests_fail_partial",
    "C38_timeouts_alone_partial",
    "C38_late_response_refuted"
   ],
   "note": "False as stated (C38_late_response_refuted): a response that arrives after the timeout ends the task that keeps the requests, and the other requests fail. Proved: the complete list of what ends this task, and that timeouts alone do not."
  },
  {
   "property": "C39",
   "status": "partial",
   "theorems": [
    "C39_no_call_takes_a_broadcast_partial",
    "C39_broadcast_delivered_partial",
    "C39_broadcast_delivered_refuted"
   ],
   "note": "False as stated (C39_broadcast_delivered_refuted): a broadcast that arrives while the handshake waits for the answer to the self key is taken for this answer. Proved: no call of the application is ever answered by a broadcast, and a broadcast reaches its handler if no handshake waits."
  },
  {
   "property": "C40",
   "status": "proved",
   "theorems": [
    "C40_connected_after_handshake",
    "C40_uuid_from_handshake",
    "C40_calls_wait_refuted"
   ],
   "note": "The application's calls do not wait for the handshake: they are sent without a uuid (C40_calls_wait_refuted)."
  },
  {
   "property": "C41",
   "status": "partial",
   "theorems": [
    "C41_never_expelled",
    "C41_requests_served",
    "C41_all_handled",
    "C41_early_call_refuted",
    "C41_broadcast_refuted"
   ],
   "note": "proved for every interleaving and segmentation: the producer never reports a missing confirmation, key or hash of a consumer whose application waits for EConnected; it disconnects it only after a failed send or pack under a disconnecting strategy or for want of an assigned key; every message sent is handled once, in order; every request taken up is served at once. Missing: 'ends up served' is refuted (a broadcast during the handshake ends it), and the transport is assumed reliable"
  },
  {
   "property": "C42",
   "status": "partial",
   "theorems": [
    "C42_files_kept_partial",
    "C42_destination_kept_partial",
    "C42_help_refuted",
    "C42_help_diagram_refuted",
    "C42_help_replaced_refuted",
    "C42_value_refuted"
   ],
   "note": "Proved for all argument vectors in which no option stands in the place of a value, without --help and -o: an existing destination file stops the run, and no existing file outside the generated project is changed. With --help existing destinations are passed over or replaced, and a value called -o counts as permission: refuted."
  },
  {
   "property": "C43",
   "status": "partial",
   "theorems": [
    "C43_reported_stops",
    "C43_strays_reported_partial",
    "C43_only_strays_partial",
    "C43_swallowed_refuted",
    "C43_repeated_refuted",
    "C43_folder_refuted",
    "C43_folders_kept"
   ],
   "note": "Reporting always stops the run before a file is written; every stray argument is reported if no option stands in the place of a value, and nothing else is if every option is given once. Refuted without these conditions; destination folders are made first (refuted)."
  },
  {
   "property": "C44",
   "status": "partial",
   "theorems": [
    "C44_ts_roundtrip_partial",
    "C44_ts_roundtrip_refuted"
   ],
   "note": "Refuted for field ids >= 256; proved otherwise (zero-length optionals arrive absent)."
  },
  {
   "property": "C45",
   "status": "partial",
   "theorems": [
    "C45_protocol_end_to_end_partial",
    "C45_unsupported_primitive_refuted",
    "C45_shadowed_primitive_refuted"
   ],
   "note": "Proved for protocols the renderer supports; refuted for char/isize/usize and for entities named like a primitive."
  },
  {
   "property": "C46",
   "status": "proved",
   "theorems": [
    "C46_delivered_values_typed",
    "C46_delivered_message_declared",
    "C46_undeclared_rejected",
    "C46_undeclared_variant_rejected"
   ],
   "note": "For every schema and every byte sequence the value of a delivered message is of the declared type and holds no Defaults marker; undeclared ids and variants are errors."
  },
  {
   "property": "C47",
   "status": "partial",
   "theorems": [
    "C47_refuted",
    "C47_refuted_by_disconnect",
    "C47_reasons_to_end_partial"
   ],
   "note": "False as stated (C47_refuted, C47_refuted_by_disconnect). Proved: the complete list of what ends the listener."
  },
  {
   "property": "C48",
   "status": "proved",
   "theorems": [
    "C48_key_updates",
    "C48_assigned_updates"
   ],
   "note": ""
  },
  {
   "property": "C49",
   "status": "proved",
   "theorems": [
    "C49_handlers_only_for_assigned"
   ],
   "note": ""
  },
  {
   "property": "C50",
   "status": "proved",
   "theorems": [
    "C50_results_explained"
   ],
   "note": ""
  },
  {
   "property": "C51",
   "status": "proved",
   "theorems": [
    "C51_fate"
   ],
   "note": ""
  },
  {
   "property": "C52",
   "status": "proved",
   "theorems": [
    "C52_events_in_order",
    "C52_broadcasts_in_order"
   ],
   "note": ""
  },
  {
   "property": "C53",
   "status": "proved",
   "theorems": [
    "C53_over",
    "C53_calls_end"
   ],
   "note": ""
  },
  {
   "property": "C54",
   "status": "partial",
   "theorems": [
    "C54_can_stop_partial",
    "C54_can_stop_refuted"
   ],
   "note": "False as stated (C54_can_stop_refuted): an event handler that awaits shutdown() waits for the end of the connection, which waits for the handler. Proved for all other reachable states. That its own steps end it in every order is C106_must_stop."
  },
  {
   "property": "C55",
   "status": "partial",
   "theorems": [
    "C55_why_messages_fail_partial",
    "C55_nobody_abandons_partial",
    "C55_abandoning_refuted"
   ],
   "note": "False as stated (C55_abandoning_refuted): a call dropped while it waits for its number or the uuid ends the connection's tasks. Proved: what ends these tasks, and that without abandoned calls they end only for other reasons."
  },
  {
   "property": "C56",
   "status": "partial",
   "theorems": [
    "C56_no_reconnection",
    "C56_reconnects_refuted"
   ],
   "note": "False as stated (C56_reconnects_refuted): connections that end with an error of the transport or of the consumer itself are not renewed. Proved: no further connection after a confirmed shutdown or an error."
  },
  {
   "property": "C57",
   "status": "partial",
   "theorems": [
    "C57_numbering_partial",
    "C57_second_confirmation_refuted",
    "C57_wrap_around_refuted"
   ],
   "note": "False as stated (C57_second_confirmation_refuted, C57_wrap_around_refuted). Proved: these are the only two ways."
  },
  {
   "property": "C58",
   "status": "partial",
   "theorems": [
    "C58_read_in_order",
    "C58_all_read_partial",
    "C58_all_read_refuted"
   ],
   "note": "Order and exactness proved in full. That nothing is left unread is proved for readable packets; behind an unreadable packet it is false (C58_all_read_refuted)."
  },
  {
   "property": "C59",
   "status": "proved",
   "theorems": [
    "C59_lives"
   ],
   "note": ""
  },
  {
   "property": "C60",
   "status": "partial",
   "theorems": [
    "C60_documented_forms",
    "C60_broadcast_without_conclusion_refuted",
    "C60_root_request_refuted",
    "C60_underscore_refuted",
    "C60_stray_words_refuted",
    "C60_dropped_key_refuted"
   ],
   "note": "Proved for the forms of WfElab.wdecl. Documented or expected forms outside them that are rejected, and undocumented ones that are accepted, are the _refuted theorems."
  },
  {
   "property": "C61",
   "status": "partial",
   "theorems": [
    "C61_layout_irrelevant_partial",
    "C61_non_ascii_comment_refuted",
    "C61_non_ascii_comment_panics_refuted"
   ],
   "note": "Proved for ASCII comments that end with a line end. False for comments with non-ASCII characters (C61_non_ascii_comment_refuted, C61_non_ascii_comment_panics_refuted)."
  },
  {
   "property": "C62",
   "status": "partial",
   "theorems": [
    "C62_truncated_rejected_refuted",
    "C62_every_cut_accepted_refuted"
   ],
   "note": "False: C62_truncated_rejected_refuted, and C62_every_cut_accepted_refuted shows that every cut inside the last declaration is accepted."
  },
  {
   "property": "C63",
   "status": "partial",
   "theorems": [
    "C63_user_files_kept",
    "C63_nothing_else_touched",
    "C63_entity_mod_refuted",
    "C63_shared_destination_refuted"
   ],
   "note": "Proved when the two destinations are not nested in each other; C63_shared_destination_refuted shows why. An entity called Mod makes the generator write to events/mod.rs etc. (C63_entity_mod_refuted)."
  },
  {
   "property": "C64",
   "status": "partial",
   "theorems": [
    "C64_declared_modules_exist",
    "C64_implementations_declared",
    "C64_shared_destination_refuted"
   ],
   "note": "Proved when the destinations are not nested in each other; C64_shared_destination_refuted otherwise."
  },
  {
   "property": "C65",
   "status": "proved",
   "theorems": [
    "C65_idempotent",
    "C65_stale_files_irrelevant"
   ],
   "note": "C65_idempotent in full; independence of stale files for separate destinations."
  },
  {
   "property": "C66",
   "status": "partial",
   "theorems": [
    "C66_renderable_partial",
    "C66_no_actions_refuted",
    "C66_enum_key_refuted"
   ],
   "note": "Proved for workflows whose requests all have actions and whose keys are structs. False otherwise: C66_no_actions_refuted, C66_enum_key_refuted (part of the project is written before the failure)."
  },
  {
   "property": "C67",
   "status": "partial",
   "theorems": [
    "C67_conclusion_reported_partial",
    "C67_same_response_refuted",
    "C67_error_as_response_refuted"
   ],
   "note": "Proved for requests whose responses and error are pairwise different, for Rust clients. False otherwise: C67_same_response_refuted, C67_error_as_response_refuted."
  },
  {
   "property": "C68",
   "status": "partial",
   "theorems": [
    "C68_names_distinct_partial",
    "C68_shared_broadcast_refuted",
    "C68_plain_names_refuted",
    "C68_err_conclusion_refuted",
    "C68_same_conclusion_refuted",
    "C68_client_event_refuted"
   ],
   "note": "Proved under names_tidy. False in general: C68_*_refuted."
  },
  {
   "property": "C69",
   "status": "partial",
   "theorems": [
    "C69_manifest_kept",
    "C69_dependencies_added",
    "C69_shared_manifest_refuted"
   ],
   "note": "That nothing else changes is proved in full, whatever the outcome. The versions are those of one of the parts that share the manifest, not of each (C69_shared_manifest_refuted)."
  },
  {
   "property": "C70",
   "status": "partial",
   "theorems": [
    "C70_request_broadcasts_partial",
    "C70_event_broadcasts_partial",
    "C70_single_action_refuted"
   ],
   "note": "Proved for requests with several actions and for events, if their module is their own. False for requests with one action (C70_single_action_refuted)."
  },
  {
   "property": "C71",
   "status": "partial",
   "theorems": [
    "C71_success",
    "C71_diagram",
    "C71_exit_1",
    "C71_failure_code_refuted",
    "C71_missing_value_refuted",
    "C71_endless_refuted"
   ],
   "note": "Exit code 0 without a reported error means the sources were accepted and everything asked for is written; exit code 1 means no file changed. Converse refuted: failures end with code 0, options without value are passed over, runs may not end."
  },
  {
   "property": "C72",
   "status": "partial",
   "theorems": [
    "C72_diagram_partial",
    "C72_single_action_refuted",
    "C72_event_mark_refuted",
    "C72_no_actions_refuted"
   ],
   "note": "For every accepted workflow whose requests have actions: the arrows are exactly the declared messages, if requests with one action have no broadcasts; the messages of a request are in its group. Refuted: broadcasts of single actions, marks of event broadcasts, requests without actions."
  },
  {
   "property": "C73",
   "status": "proved",
   "theorems": [
    "C73_keys"
   ],
   "note": "For destinations not nested in each other."
  },
  {
   "property": "C74",
   "status": "partial",
   "theorems": [
    "C74_taken",
    "C74_request",
    "C74_beacon",
    "C74_control_refuted"
   ],
   "note": "proved for every interleaving and segmentation, also when numbers are used again: the message taken for the answer of a call is the one the producer sent for the message of that call, right after its handler had been called with it. Missing: the server's application may send messages with any number (Control::send); one with the number of a pending call is taken for its answer (C74_control_refuted)"
  },
  {
   "property": "C75",
   "status": "partial",
   "theorems": [
    "C75_no_call_left",
    "C75_beacon_refuted"
   ],
   "note": "proved for every interleaving and segmentation: at rest, with the consumer not ended, a producer that packs, sends and does not disconnect, handlers that take every beacon, and no message of the server's application with a number of a call, every call has returned or was dropped. Missing: a beacon whose handler fails is never confirmed and its call waits for ever (C75_beacon_refuted). That the system comes to rest is C106"
  },
  {
   "property": "C76",
   "status": "partial",
   "theorems": [
    "C76_later_calls_have_uuid_partial",
    "C76_uuid_lost_refuted"
   ],
   "note": "proved as long as the transport reports no disconnect; after such a report the uuid is forgotten and calls are sent without one, although no 'disconnected' event was reported (C76_uuid_lost_refuted)"
  },
  {
   "property": "C77",
   "status": "partial",
   "theorems": [
    "C77_reported_partial",
    "C77_one_error_refuted"
   ],
   "note": "proved: each task has ended once, no error is reported exactly if none failed, the reported error is one of theirs, and which one. The handler and the caller may be told different errors (C77_one_error_refuted)"
  },
  {
   "property": "C78",
   "status": "proved",
   "theorems": [
    "C78_numbers_are_counted",
    "C78_numbers_differ"
   ],
   "note": "the k-th number taken is k; a message that goes out has a number below 2^32"
  },
  {
   "property": "C79",
   "status": "proved",
   "theorems": [
    "C79_own_answer"
   ],
   "note": "for every end of a promise except failures before its message was sent and destroyed objects"
  },
  {
   "property": "C80",
   "status": "partial",
   "theorems": [
    "C80_answered_calls_end_partial",
    "C80_unanswered_calls_wait",
    "C80_calls_end_refuted"
   ],
   "note": "at rest every call whose number was read has ended (C80_answered_calls_end_partial), and nothing else ends a call (C80_unanswered_calls_wait); false for calls under way when the connection ends (C80_calls_end_refuted)"
  },
  {
   "property": "C81",
   "status": "partial",
   "theorems": [
    "C81_reusable_partial",
    "C81_failed_send_is_final",
    "C81_reusable_refuted"
   ],
   "note": "a call is turned away only if an earlier call with the object has not ended or could not be sent; false after a failed send (C81_reusable_refuted), for ever (C81_failed_send_is_final)"
  },
  {
   "property": "C82",
   "status": "partial",
   "theorems": [
    "C82_broadcasts_in_order",
    "C82_reads_what_came_partial",
    "C82_reads_what_came_refuted"
   ],
   "note": "broadcasts proved; reading proved for streams whose messages all decode, and nothing is lost otherwise unless the reader throws or runs for ever (C15); false at once behind an undecodable message (C82_reads_what_came_refuted)"
  },
  {
   "property": "C83",
   "status": "proved",
   "theorems": [
    "C83_ready_after_handshake",
    "C83_uuid_is_the_first"
   ],
   "note": ""
  },
  {
   "property": "C84",
   "status": "partial",
   "theorems": [
    "C84_can_send_partial",
    "C84_numbers_run_out_refuted"
   ],
   "note": "proved for the first 2^32 - 1 messages; false after that (C84_numbers_run_out_refuted)"
  },
  {
   "property": "C85",
   "status": "proved",
   "theorems": [
    "C85_handler_after_handshake"
   ],
   "note": ""
  },
  {
   "property": "C86",
   "status": "partial",
   "theorems": [
    "C86_strategy_has_no_effect",
    "C86_assigned_refuted"
   ],
   "note": "false (C86_assigned_refuted); what holds is that no strategy changes anything (C86_strategy_has_no_effect)"
  },
  {
   "property": "C87",
   "status": "proved",
   "theorems": [
    "C87_own_number",
    "C87_answered_once"
   ],
   "note": "C87_own_number, C87_answered_once; that a response is one of those declared for the request is left to the TypeScript types"
  },
  {
   "property": "C88",
   "status": "partial",
   "theorems": [
    "C88_asked_for_cause",
    "C88_compliant_client_stays",
    "C88_turned_away_refuted"
   ],
   "note": "causes and compliant clients proved; a client that was turned away may be asked again and even served (C88_turned_away_refuted)"
  },
  {
   "property": "C89",
   "status": "partial",
   "theorems": [
    "C89_reads_what_came_partial",
    "C89_reads_what_came_refuted"
   ],
   "note": "nothing is lost or reordered; nothing is left if every message can be decoded and is known; false behind an unknown message (C89_reads_what_came_refuted)"
  },
  {
   "property": "C90",
   "status": "proved",
   "theorems": [
    "C90_paired"
   ],
   "note": ""
  },
  {
   "property": "C91",
   "status": "partial",
   "theorems": [
    "C91_broadcasts_partial",
    "C91_events",
    "C91_single_action_refuted"
   ],
   "note": "proved for requests with several actions and for events; false for a single action (C91_single_action_refuted)"
  },
  {
   "property": "C92",
   "status": "partial",
   "theorems": [
    "C92_ended_handlers_partial",
    "C92_handlers_go_on",
    "C92_answered_refuted"
   ],
   "note": "a handler that has ended has failed or answered, and it waits only for the application and the transport; false if it fails (C92_answered_refuted)"
  },
  {
   "property": "C93",
   "status": "partial",
   "theorems": [
    "C93_discredited_partial",
    "C93_discredited_refuted"
   ],
   "note": "no later piece of data is looked at; false within the current piece (C93_discredited_refuted)"
  },
  {
   "property": "C94",
   "status": "partial",
   "theorems": [
    "C94_patient_client_stays_partial",
    "C94_early_call_refuted"
   ],
   "note": "proved if the client's application waits for ready and does not call assign; false for one that calls earlier (C94_early_call_refuted). Less than 2^64 bytes in each direction"
  },
  {
   "property": "C95",
   "status": "partial",
   "theorems": [
    "C95_own_answer_partial",
    "C95_ready_gives_own_uuid",
    "C95_same_number_refuted"
   ],
   "note": "proved unless the server's application sends a message of its own with the number of the call, then false (C95_same_number_refuted); a request is answered by what its own handler made. Less than 2^64 bytes in each direction"
  },
  {
   "property": "C96",
   "status": "partial",
   "theorems": [
    "C96_calls_end_partial",
    "C96_ready_partial",
    "C96_assign_refuted",
    "C96_failing_handler_refuted"
   ],
   "note": "proved if the application is patient, no handler fails, nothing is refused by the server's transport and no number is reused by the server's application; false with a failing handler (C96_failing_handler_refuted) and for assign after the handshake (C96_assign_refuted); that the system comes to rest is C105"
  },
  {
   "property": "C97",
   "status": "partial",
   "theorems": [
    "C97_never_connected",
    "C97_patient_is_silent",
    "C97_never_served_partial",
    "C97_connects_refuted"
   ],
   "note": "false (C97_connects_refuted), and proved to fail in every execution: the client is never connected (C97_never_connected), a patient one sends nothing (C97_patient_is_silent), an impatient one is never served and asked to leave (C97_never_served_partial, less than 2^64 bytes)"
  },
  {
   "property": "C98",
   "status": "partial",
   "theorems": [
    "C98_hasty_is_expelled",
    "C98_never_expelled_partial",
    "C98_requests_served_partial",
    "C98_all_handled_partial",
    "C98_race_refuted"
   ],
   "note": "false as stated: C98_race_refuted; bytes that reach the producer before its confirmation always cost the connection (C98_hasty_is_expelled). Proved where they come after it: never expelled, requests served, all messages handled, for a client whose application waits for ready and as long as less than 2^64 bytes have come"
  },
  {
   "property": "C99",
   "status": "partial",
   "theorems": [
    "C99_ready_means_accepted_partial",
    "C99_own_answer_partial"
   ],
   "note": "under the conditions of C98 and if the server's application does not use the number of the call for a message of its own; ready needs only that less than 2^64 bytes have come"
  },
  {
   "property": "C100",
   "status": "partial",
   "theorems": [
    "C100_answer_reported_partial",
    "C100_same_response_refuted",
    "C100_group_as_struct_refuted",
    "C100_inherited_name_refuted",
    "C100_shared_handler_refuted",
    "C100_err_handler_refuted"
   ],
   "note": "Proved for requests whose responses and error are pairwise different, if no two requests differ in case only, no group is called like a struct or enum beside it and nothing is called like a property that every object inherits. False otherwise: see the refutations."
  },
  {
   "property": "C101",
   "status": "partial",
   "theorems": [
    "C101_broadcast_emitted_partial",
    "C101_enum_broadcast_refuted",
    "C101_shared_subject_refuted"
   ],
   "note": "Proved for messages of structs. A broadcast that is an enum makes the client throw (C101_enum_broadcast_refuted); names that differ in the place of dots share a subject (C101_shared_subject_refuted)."
  },
  {
   "property": "C102",
   "status": "partial",
   "theorems": [
    "C102_handler_called_partial",
    "C102_handler_exported_partial",
    "C102_group_as_request_refuted",
    "C102_shared_handler_refuted",
    "C102_index_lost_refuted"
   ],
   "note": "Proved if no group is called like a struct or enum beside it, nothing is called __proto__, and (for the file of the handler) handler names are distinct and no reference is called Index. False otherwise: see the refutations. Decoded messages are taken to be objects."
  },
  {
   "property": "C103",
   "status": "partial",
   "theorems": [
    "C103_calls_end_partial",
    "C103_ready_partial",
    "C103_assign_refuted",
    "C103_beacon_refuted"
   ],
   "note": "proved if bytes of the client reach the server after its confirmation, the application of the client is patient, the server serves the client and its application does not use the number of the call; ready if all messages of the server's application carry the number 0 and the client's application does not call assign; false for assign after the handshake (C103_assign_refuted) and for a beacon that the server's application refuses (C103_beacon_refuted); that the system comes to rest is C104"
  },
  {
   "property": "C104",
   "status": "proved",
   "theorems": [
    "C104_no_endless",
    "C104_ends_at_rest",
    "C104_comes_to_rest",
    "C104_rest_is_end",
    "C104_calls_end_partial"
   ],
   "note": "steps of other consumers and messages of the server's application count as acts from outside; C104_calls_end_partial draws the conclusion for calls under the conditions of C103"
  },
  {
   "property": "C105",
   "status": "proved",
   "theorems": [
    "C105_no_endless",
    "C105_ends_at_rest",
    "C105_comes_to_rest",
    "C105_rest_is_end",
    "C105_calls_end_partial"
   ],
   "note": "bytes of other clients, events and what the server's application sends of its own accord count as acts from outside; C105_calls_end_partial draws the conclusion for calls under the conditions of C96"
  },
  {
   "property": "C106",
   "status": "proved",
   "theorems": [
    "C106_no_endless",
    "C106_ends",
    "C106_comes_to_rest",
    "C106_stops",
    "C106_rest_is_end",
    "C106_calls_end",
    "C106_consumer_no_endless",
    "C106_must_stop"
   ],
   "note": "bytes of other consumers, emitted events and what the server's application sends of its own accord count as acts from outside; handlers of the client are assumed to return. C106_calls_end draws the conclusion for calls under the conditions of C75; C106_must_stop strengthens C54 from 'can be stopped' to 'stops in every order of steps'"
  },
  {
   "property": "C107",
   "status": "partial",
   "theorems": [
    "C107_reported_partial",
    "C107_listener",
    "C107_stop_error_refuted",
    "C107_gave_up_refuted"
   ],
   "note": "holds unless the listener panics, the observer cannot be had (both reported as such), or the one who called shutdown(true) has given up waiting: then the shutdown handler is not called and the cause is lost (C107_gave_up_refuted). The error of the transport's shutdown() is never reported (C107_stop_error_refuted). C107_listener ties the events and acts of the listener to ProducerModel, so the claims about producers hold inside run. listen() and shutdown() of the transport are modelled as results"
  },
  {
   "property": "C108",
   "status": "partial",
   "theorems": [
    "C108_no_endless",
    "C108_asked",
    "C108_stops_partial",
    "C108_calls_end",
    "C108_shutdown_returns",
    "C108_comes_to_rest",
    "C108_own_call_refuted",
    "C108_second_call_refuted"
   ],
   "note": "the part about run returning fails exactly when a handler awaits a call of shutdown that cannot return (C108_own_call_refuted); handlers and the transport's shutdown() are assumed to return. The second of two waiting callers gets an error (C108_second_call_refuted)"
  }
 ]
}