{
 "claims": [
  {
   "property": "C01",
   "status": "proved",
   "theorems": [
    "C01_base64_round_trip",
    "C01_signed_char_refuted",
    "C01_long",
    "C01_long_refuted"
   ],
   "note": "Holds for unsigned char buffers with 4*size < 2^31. For signed char buffers (std::string satisfies the concept) it is refuted. The bound on the size is exact: from 2^29 bytes on 4*n overflows an int."
  },
  {
   "property": "C02",
   "status": "proved",
   "theorems": [
    "C02_base64_encode_is_rfc4648"
   ],
   "note": "Bit-string specification, shown to determine the text uniquely."
  },
  {
   "property": "C03",
   "status": "partial",
   "theorems": [
    "C03_accepts_exactly_wellformed_refuted",
    "C03_accepts_exactly_wellformed_partial",
    "C03_one_argument_decoder",
    "C03_canonical_text_only_refuted",
    "C03_long",
    "C03_long_refuted",
    "C03_rejected"
   ],
   "note": "Full iff is false: inputs with at most one non-'=' character are accepted by the two-argument form. Exact acceptance condition proved. Text of 2^31/3 characters or more overflows an int (exact bound)."
  },
  {
   "property": "C04",
   "status": "proved",
   "theorems": [
    "C04_failure_leaves_destination"
   ],
   "note": ""
  },
  {
   "property": "C05",
   "status": "partial",
   "theorems": [
    "C05_length_header_partial",
    "C05_length_header_refuted"
   ],
   "note": "Sender side proved for every n < 2^63; the reader's computation is proved for n < 65536 and shown undefined (int shift by >= 32) for every larger length."
  },
  {
   "property": "C06",
   "status": "partial",
   "theorems": [
    "C06_fragmentation_partial",
    "C06_fragmentation_refuted",
    "C06_short"
   ],
   "note": "Fails exactly for positive multiples of the frame size: no frame carries FIN."
  },
  {
   "property": "C07",
   "status": "partial",
   "theorems": [
    "C07_sender_to_reader_partial",
    "C07_sender_to_reader_refuted",
    "C07_exact",
    "C07_iff"
   ],
   "note": "Holds for every message list without lengths that are positive multiples of the frame size; such a message is merged with its successor. C07_exact gives what is read for every list of messages; it is the list exactly if there is no such length (C07_iff)."
  },
  {
   "property": "C08",
   "status": "partial",
   "theorems": [
    "C08_masked_frames_partial",
    "C08_masked_frames_refuted",
    "C08_exact",
    "C08_first_byte_refuted"
   ],
   "note": "Holds when only the first frame of a message is masked; masked continuation frames are corrupted. C08_exact gives what is read for any masks; of every message in two frames of which the second is masked the first byte is wrong unless the first byte of the key is 0."
  },
  {
   "property": "C09",
   "status": "partial",
   "theorems": [
    "C09_control_frames_partial",
    "C09_control_frames_refuted",
    "C09_exact",
    "C09_ping_message_refuted"
   ],
   "note": "Holds for control frames without payload; a payload is left in the stream and parsed as a frame header. C09_exact: a ping or pong is told and its payload is then read as frames; a frame inside of a ping is delivered as a message."
  },
  {
   "property": "C10",
   "status": "proved",
   "theorems": [
    "C10_stops_at_terminal_event"
   ],
   "note": ""
  },
  {
   "property": "C11",
   "status": "proved",
   "theorems": [
    "C11_causal"
   ],
   "note": ""
  },
  {
   "property": "C12",
   "status": "proved",
   "theorems": [
    "C12_fifo"
   ],
   "note": "What is on the wire is always a prefix of the frames of the accepted messages in order. With a write error the front message is sent again (example C12_error_resends)."
  },
  {
   "property": "C13",
   "status": "proved",
   "theorems": [
    "C13_nothing_after_close"
   ],
   "note": ""
  },
  {
   "property": "C14",
   "status": "proved",
   "theorems": [
    "C14_one_write_in_flight"
   ],
   "note": ""
  },
  {
   "property": "C15",
   "status": "partial",
   "theorems": [
    "C15_stopped_is_silent_partial",
    "C15_no_write_after_stop_refuted",
    "C15_exact"
   ],
   "note": "Handlers are silent after stop in every execution; no write begins if none is outstanding at stop. A write outstanding at stop that completes successfully lets the send loop begin another one. Exactly (C15_exact, no write errors): after stop a write begins when the one before it ends well and frames of accepted messages or a close are left to write."
  },
  {
   "property": "C16",
   "status": "partial",
   "theorems": [
    "C16_close_once_partial",
    "C16_close_once_refuted",
    "C16_exact"
   ],
   "note": "False: two and three calls are reachable. Proved: at most three; at most one if only the peer closes and no write fails, or if the peer does not close. C16_exact says for every execution and every next event whether the close is reported with it, by the calls and events so far: the peer's close after the application asked for one, the completed write of the close frame after the peer closed, and a data write failing with a reset after either, as long as stop was not called."
  },
  {
   "property": "C17",
   "status": "partial",
   "theorems": [
    "C17_no_pong_ever",
    "C17_ping_answered_refuted"
   ],
   "note": "False: it is proved that no execution writes a pong."
  },
  {
   "property": "C18",
   "status": "proved",
   "theorems": [
    "C18_nothing_stranded"
   ],
   "note": ""
  },
  {
   "property": "C19",
   "status": "partial",
   "theorems": [
    "C19_close_sent_partial",
    "C19_close_before_start_refuted",
    "C19_exact"
   ],
   "note": "False when no message was ever accepted and no close was requested after start. Exactly (C19_exact): at rest the close frame was written if and only if a close was asked for or received and a message was accepted, or a close was asked for after start, or the peer closed first; so a peer's close is not answered if one was asked for before start."
  },
  {
   "property": "C20",
   "status": "partial",
   "theorems": [
    "C20_auth_token",
    "C20_auth_token_partial",
    "C20_auth_token_refuted",
    "C20_in_bounds_refuted",
    "C20_returns",
    "C20_exact"
   ],
   "note": "The exact result is proved for every well-formed header: the first non-empty nbdl_auth value. An empty nbdl_auth cookie is skipped, and the end of the header is dereferenced whenever there is no non-empty one.  C20_exact gives the answer for any header string, well formed or not."
  },
  {
   "property": "C21",
   "status": "partial",
   "theorems": [
    "C21_session_cookie_partial",
    "C21_white_space",
    "C21_session_cookie_refuted",
    "C21_returns",
    "C21_exact"
   ],
   "note": "The raw value is found for every cookie list; surrounding double quotes are not removed.  C21_exact gives the answer for any header string, well formed or not."
  },
  {
   "property": "C22",
   "status": "partial",
   "theorems": [
    "C22_request_understood_partial",
    "C22_request_understood_refuted",
    "C22_exact"
   ],
   "note": "Proved for origins up to 247 and tokens up to 234 bytes; every longer token is rejected.  C22_exact: for an origin and a token without line feeds the request is understood exactly when the origin has at most 247 bytes, the token at most 234, and the token has no semicolon."
  },
  {
   "property": "C23",
   "status": "partial",
   "theorems": [
    "C23_headers_partial",
    "C23_any_reads",
    "C23_in_bounds_refuted",
    "C23_long_line_refuted",
    "C23_exact"
   ],
   "note": "Proved for header lines of at most 254 bytes with a colon and an ASCII name. A line without a colon that equals a known name is read past its end; longer lines fail the handshake.  C23_exact: the answer to any list of lines, well formed or not: the first line that is longer than 254 bytes (rejected) or harmful (undefined) decides, otherwise the key and the cookies are those of the last lines of these names."
  },
  {
   "property": "C24",
   "status": "proved",
   "theorems": [
    "C24_sha1",
    "C24_split_independent",
    "C24_padding"
   ],
   "note": ""
  },
  {
   "property": "C25",
   "status": "proved",
   "theorems": [
    "C25_accept_token",
    "C25_client_accepts",
    "C25_handshake",
    "C25_client_refuses"
   ],
   "note": ""
  },
  {
   "property": "C26",
   "status": "partial",
   "theorems": [
    "C26_digest",
    "C26_hash_respects_equality_partial",
    "C26_range",
    "C26_hash_respects_equality_refuted",
    "C26_equal"
   ],
   "note": "Proved given that std::hash respects == on the leaves, except for unordered containers, for which it is refuted (the hash depends on iteration order, == does not). Hashing an nbdl::variant does not compile when its empty alternative is filtered out."
  },
  {
   "property": "C27",
   "status": "proved",
   "theorems": [
    "C27_delta_exact",
    "C27_delta_whole"
   ],
   "note": ""
  },
  {
   "property": "C28",
   "status": "proved",
   "theorems": [
    "C28_apply_reports",
    "C28_store_reports"
   ],
   "note": ""
  },
  {
   "property": "C29",
   "status": "proved",
   "theorems": [
    "C29_deltas_compose",
    "C29_merge_assoc"
   ],
   "note": ""
  },
  {
   "property": "C30",
   "status": "proved",
   "theorems": [
    "C30_converges",
    "C30_local_visible",
    "C30_shown"
   ],
   "note": "For confirmations carrying the same change as the local update; C30_needs_same_change shows the result otherwise. C30_shown: the value at every moment, settled or not: all changes up to the last moment at which everything was settled, then every change but the confirmations of own ones."
  },
  {
   "property": "C31",
   "status": "partial",
   "theorems": [
    "C31_replace_partial",
    "C31_replace_refuted",
    "C31_exact",
    "C31_at_rest"
   ],
   "note": "False: the pending delta keeps confirmed changes from before the replacement and writes them back at the next flush. Proved when the replacement comes first or right after the confirmation that settled all local changes. C31_exact says exactly what becomes of a replacement made while no local change is outstanding: the changes confirmed since the store was last at rest are written over it again if a local change follows, and only then."
  },
  {
   "property": "C32",
   "status": "proved",
   "theorems": [
    "C32_map_store",
    "C32_reports_change"
   ],
   "note": ""
  },
  {
   "property": "C33",
   "status": "partial",
   "theorems": [
    "C33_reads_partial",
    "C33_never_forwarded",
    "C33_once_impossible",
    "C33_forwarded_refuted"
   ],
   "note": "False: the store inserts its placeholder before the context looks, so no read ever reaches a producer (proved for every sequence of calls), and no store for which asking twice is the same as asking once could give exactly one. Proved: pending paths send nothing, known ones are answered from the store."
  },
  {
   "property": "C34",
   "status": "proved",
   "theorems": [
    "C34_routing",
    "C34_create_routing",
    "C34_machine",
    "C34_match"
   ],
   "note": "C34_machine: the calls are those of the re-entrant machine of C96-C99 (LifeModel.v), a separate model of the same functions, for a whole life of a context whose producers answer at once.  C34_match: a match by an actor makes the calls of context_match and goes on with what it finds."
  },
  {
   "property": "C35",
   "status": "partial",
   "theorems": [
    "C35_reflects",
    "C35_table_partial",
    "C35_fresh_keys_refuted",
    "C35_exact",
    "C35_fresh_iff"
   ],
   "note": "False in general: the key counter is per message type, so creates with and without a private payload collide. Proved when each path type has one create message type and the key type does not run out.  C35_exact: for all requests, the n-th create of a C++ type gets the key n (modulo the size of the key type); the requests are executed as they should be if, and only if, these paths are different (C35_fresh_iff)."
  },
  {
   "property": "C36",
   "status": "partial",
   "theorems": [
    "C36_accessors",
    "C36_conversions",
    "C36_private_payload_refuted",
    "C36_holds"
   ],
   "note": "get_private_payload returns the uid; everything else proved."
  },
  {
   "property": "C37",
   "status": "proved",
   "theorems": [
    "C37_pipeline",
    "C37_exactly_once",
    "C37_sync",
    "C37_contracts_needed"
   ],
   "note": "For promises that use their resolver at most once, on one thread. C37_contracts_needed shows run_async and run_sync use freed storage when a promise breaks the contract."
  },
  {
   "property": "C38",
   "status": "proved",
   "theorems": [
    "C38_first_catch",
    "C38_unhandled",
    "C38_catches_bypassed",
    "C38_nesting_is_flat",
    "C38_inner_catch_separate_refuted"
   ],
   "note": "Finding: a catch inside a nested pipe also handles rejections of stages before that pipe."
  },
  {
   "property": "C39",
   "status": "proved",
   "theorems": [
    "C39_loop",
    "C39_call_stack_bounded_refuted"
   ],
   "note": "Finding: passes that resolve without a callback nest on the call stack without bound."
  },
  {
   "property": "C40",
   "status": "proved",
   "theorems": [
    "C40_first",
    "C40_always_one",
    "C40_answers"
   ],
   "note": "Run on the promise pipeline model.  An answer exists exactly when some predicate is the constant true."
  },
  {
   "property": "C41",
   "status": "partial",
   "theorems": [
    "C41_once",
    "C41_in_order",
    "C41_concat",
    "C41_agrees",
    "C41_path_promise",
    "C41_path_promise_rejects",
    "C41_references",
    "C41_extra_keys_ignored",
    "C41_two_steps_refuted",
    "C41_map_end_refuted",
    "C41_path_promise_passes",
    "C41_through"
   ],
   "note": "Proved wherever both sides compile. Findings: keys left over after a value that is no store are ignored, a variant swallows a key, and a path that ends at a std::unordered_map does not compile."
  },
  {
   "property": "C42",
   "status": "proved",
   "theorems": [
    "C42_match",
    "C42_total",
    "C42_match_when",
    "C42_round_trip",
    "C42_bad_id",
    "C42_read",
    "C42_equal",
    "C42_holder"
   ],
   "note": "A variant left valueless by an exception is not modelled."
  },
  {
   "property": "C43",
   "status": "partial",
   "theorems": [
    "C43_round_trip_partial",
    "C43_injective_partial",
    "C43_empty_container_refuted",
    "C43_nul_refuted",
    "C43_negative_enum_refuted",
    "C43_reused_object_refuted",
    "C43_names_refuted",
    "C43_exact",
    "C43_injective",
    "C43_written",
    "C43_injective_refuted"
   ],
   "note": "Round trip of Json::Value documents for values without empty containers, NUL characters in strings and negative enumerators; each of those is refuted. JsonCpp text parsing and printing are external. The conditions are exact (C43_exact): for a type with distinct member names no other value comes back as itself; different values are always written differently, and all are written unless a buffer has 2^29 bytes."
  },
  {
   "property": "C44",
   "status": "partial",
   "theorems": [
    "C44_read_partial",
    "C44_bufferless",
    "C44_unknown_variant",
    "C44_bad_base64_refuted",
    "C44_bad_base64_zeros_refuted",
    "C44_long",
    "C44_long_refuted"
   ],
   "note": "Complete for types without buffers. With buffers text that is not base64 is accepted silently (refuted). Never reads outside the document. Text for a buffer of 2^31/3 characters or more is undefined behaviour."
  },
  {
   "property": "C45",
   "status": "partial",
   "theorems": [
    "C45_length",
    "C45_chars",
    "C45_copy",
    "C45_to_string",
    "C45_make",
    "C45_equal_partial",
    "C45_equal_same_length",
    "C45_equal_refuted",
    "C45_equal_past_end_refuted",
    "C45_string_concat",
    "C45_join",
    "C45_string_concat_text",
    "C45_text",
    "C45_empty"
   ],
   "note": "Length, copy and to_string are proved; equal takes only an iterator, so it is a prefix test and reads past the end of shorter strings (refuted)."
  },
  {
   "property": "C46",
   "status": "proved",
   "theorems": [
    "C46_match",
    "C46_path",
    "C46_action",
    "C46_action_seen",
    "C46_plain",
    "C46_range",
    "C46_nested_range_refuted"
   ],
   "note": "Finding beyond the property: an action for the element of an outer range is taken by the innermost range."
  },
  {
   "property": "C47",
   "status": "partial",
   "theorems": [
    "C47_round_trip_iff",
    "C47_round_trip_refuted"
   ],
   "note": "False for zero and negative numbers and for strings that are empty or contain a slash; C47_round_trip_iff says exactly which values survive."
  },
  {
   "property": "C48",
   "status": "partial",
   "theorems": [
    "C48_accepts_exactly_partial",
    "C48_accepts_routes",
    "C48_sound_if_fits",
    "C48_rejects_large_numbers_refuted",
    "C48_in_bounds_refuted",
    "C48_modulo"
   ],
   "note": "Accepted strings are characterised exactly; numbers that overflow are accepted, and a route of ten or more members overruns an array.  C48_modulo: a number that is too large for its member is taken modulo 2^bits and accepted unless that is 0."
  },
  {
   "property": "C49",
   "status": "partial",
   "theorems": [
    "C49_tiles_partial",
    "C49_history_partial",
    "C49_out_of_range_ignored",
    "C49_tiles_refuted",
    "C49_corner",
    "C49_game_partial",
    "C49_lost"
   ],
   "note": "Fails in the lower left corner: the bound check for the cell below is off by one row (a tile of the initial game can be moved off the board; on 8x8 the array is read out of bounds). Proved for every other cell and for that one when it is next to the empty cell, and for histories.  C49_corner says exactly what happens in the remaining case, a tile in the lower left corner with no empty cell beside it: a read behind the board if it has 64 cells, else an exchange with the byte behind the visible cells if that is 0, else nothing.  In the game that is played every tile stays on the board exactly once as long as nobody moves the lower left tile (C49_game_partial), and C49_lost: the first move of that tile without an empty cell beside it loses it."
  },
  {
   "property": "C50",
   "status": "proved",
   "theorems": [
    "C50_stored",
    "C50_foreign_keys",
    "C50_insert_statement",
    "C50_no_columns_refuted",
    "C50_insert_text",
    "C50_update_text"
   ],
   "note": "For every evaluation order of the sibling inserts. Placeholder counting assumes names without double quotes. Finding beyond the property: an entity with containers only gives a row without columns, for which there is no statement."
  },
  {
   "property": "C51",
   "status": "partial",
   "theorems": [
    "C51_select_partial",
    "C51_update_partial",
    "C51_update_placeholders",
    "C51_select_placeholders",
    "C51_select_refuted",
    "C51_update_refuted"
   ],
   "note": "Holds for one key; for two or more keys the criteria are joined by commas, never by AND (refuted for every such list)."
  },
  {
   "property": "C52",
   "status": "proved",
   "theorems": [
    "C52_search",
    "C52_settings",
    "C52_tags"
   ],
   "note": "For every tree, predicate and summary function; the settings for trees whose maps have no repeated keys (others do not compile)."
  },
  {
   "property": "C53",
   "status": "partial",
   "theorems": [
    "C53_entries",
    "C53_listeners",
    "C53_each_once_partial",
    "C53_repeated_refuted",
    "C53_each_once_iff"
   ],
   "note": "Complete and in declaration order for every definition; \"each once\" needs that no access point names a path twice (refuted otherwise).  That condition is exact (C53_each_once_iff)."
  },
  {
   "property": "C54",
   "status": "proved",
   "theorems": [
    "C54_list",
    "C54_size",
    "C54_stateful",
    "C54_stateful_refuted"
   ],
   "note": "For references and stateless values, which is what params_view is documented to hold. Finding: a value with a state compiles and is silently replaced by T{}."
  },
  {
   "property": "C55",
   "status": "partial",
   "theorems": [
    "C55_one_reading",
    "C55_put_together",
    "C55_host_port_partial",
    "C55_protocol_refuted",
    "C55_service_refuted"
   ],
   "note": "Host and port are right for every address; the protocol is wrong for every address that has one (refuted for all of them), and is not used as the service name (refuted)."
  },
  {
   "property": "C56",
   "status": "proved",
   "theorems": [
    "C56_length",
    "C56_any_length",
    "C56_in_order",
    "C56_wire",
    "C56_round_trip",
    "C56_terminates",
    "C56_cut_off",
    "C56_cut_off_notices",
    "C56_long_message_refuted"
   ],
   "note": "For every interleaving of partial reads and writes and every point at which the connection ends. Longer messages lose the framing (witness). ext/asio_tcp.hpp does not compile as committed; its loops are the same."
  },
  {
   "property": "C57",
   "status": "partial",
   "theorems": [
    "C57_readable_partial",
    "C57_cases",
    "C57_twice_refuted"
   ],
   "note": "Exactly once for every text that can be read; every other text continues the pipeline twice, the catch block does not return (refuted for all of them)."
  },
  {
   "property": "C58",
   "status": "partial",
   "theorems": [
    "C58_plain",
    "C58_render_partial",
    "C58_several_nodes_refuted",
    "C58_no_nodes_refuted",
    "C58_other_alternative_refuted",
    "C58_siblings_refuted",
    "C58_attribute_undefined_refuted"
   ],
   "note": "Unconditional for trees of elements, texts, attributes, classes, listeners and file inputs (C58_plain). With matches, for_each and inner HTML for those specifications whose alternatives are single nodes and where whatever empties its element comes first (renders in UiSpec); outside of that the tree is wrong or the call throws (refuted)."
  },
  {
   "property": "C59",
   "status": "partial",
   "theorems": [
    "C59_enumeration_partial",
    "C59_compiles",
    "C59_both_refuted",
    "C59_producer",
    "C59_producer_found",
    "C59_producers",
    "C59_enumeration_exact"
   ],
   "note": "Enumeration is exact when no producer declares both an AccessPoint and AccessPoints; with both, the AccessPoint is silently dropped (refuted).  C59_enumeration_exact: for all definitions, of a node with both the AccessPoint and what is below it is left out, and nothing else."
  },
  {
   "property": "C60",
   "status": "partial",
   "theorems": [
    "C60_bounded_partial",
    "C60_negative",
    "C60_never_more",
    "C60_reuse_refuted",
    "C60_overflow_refuted",
    "C60_any_use",
    "C60_together"
   ],
   "note": "Proved for the first use of the promise and limits below INT_MAX. The counter is never reset, so a promise that rejected once does not retry when used again (refuted); with INT_MAX the counter overflows (refuted). For any use: the retries left are the limit minus all failures so far, so in all its uses together it makes that many."
  },
  {
   "property": "C61",
   "status": "partial",
   "theorems": [
    "C61_only_close_write_failure_partial",
    "C61_close_write_failure_refuted"
   ],
   "note": "False: the failure handler uses the loop object that was already deleted. Proved: that is the only way to undefined behaviour."
  },
  {
   "property": "C62",
   "status": "proved",
   "theorems": [
    "C62_joins",
    "C62_ordered",
    "C62_columns",
    "C62_distinct",
    "C62_placeholders",
    "C62_primary_key",
    "C62_flat_refuted",
    "C62_selectable",
    "C62_statement"
   ],
   "note": "Distinct aliases assume distinct member names without dots. Finding beyond the property: an entity without children cannot be selected, the joins of nothing do not compile."
  },
  {
   "property": "C63",
   "status": "proved",
   "theorems": [
    "C63_messages",
    "C63_distinct",
    "C63_compiles"
   ],
   "note": "make_create_path_t is not modelled."
  },
  {
   "property": "C64",
   "status": "partial",
   "theorems": [
    "C64_message",
    "C64_system",
    "C64_distinct",
    "C64_exact",
    "C64_empty_refuted",
    "C64_nul_refuted"
   ],
   "note": "For the values that JSON round trips (see C43) and given that JsonCpp parses what it printed to the same document. Exactly those messages arrive as themselves (C64_exact); distinctness holds for all messages."
  },
  {
   "property": "C65",
   "status": "partial",
   "theorems": [
    "C65_last_state_partial",
    "C65_same_node",
    "C65_destroyed",
    "C65_stops_resolving_refuted",
    "C65_starts_resolving_refuted",
    "C65_nested_match_refuted",
    "C65_stale_text_refuted",
    "C65_attribute_twice_refuted",
    "C65_each_sibling_refuted"
   ],
   "note": "For specifications whose alternatives are lasting nodes and whose matches always resolve (updatable, updates, resolves in UiSpec). A match that stops or starts to resolve, a match directly in a match, texts that stop resolving, attributes given twice and siblings of a for_each go wrong (refuted)."
  },
  {
   "property": "C66",
   "status": "partial",
   "theorems": [
    "C66_variables",
    "C66_no_leak",
    "C66_init_again",
    "C66_swap",
    "C66_vector_grows",
    "C66_drop_connection",
    "C66_uninitialised_refuted",
    "C66_self_move_refuted",
    "C66_init_exact"
   ],
   "note": "Proved for every program in which init is called first and no object is moved to itself; without init the first destructor throws, and a self-move loses the value (both refuted).  C66_init_exact: nothing throws if, and only if, init comes before everything but constructors of empty objects."
  },
  {
   "property": "C67",
   "status": "partial",
   "theorems": [
    "C67_told_partial",
    "C67_safe_iff",
    "C67_second_call_refuted",
    "C67_callbacks_freed_refuted",
    "C67_captures",
    "C67_c_function"
   ],
   "note": "Captures and values arrive as given. A second call of a callback uses freed memory when the pipeline completed in the first (exactly then, C67_safe_iff), and the callbacks are never released (refuted)."
  },
  {
   "property": "C68",
   "status": "partial",
   "theorems": [
    "C68_never_called_dead",
    "C68_exactly_the_listeners",
    "C68_looks_first_partial",
    "C68_use_after_own_drop_refuted",
    "C68_second_send_refuted",
    "C68_event_overwritten_refuted",
    "C68_sees_latest",
    "C68_exact"
   ],
   "note": "Never calling dead listeners holds for all handlers. Use of the event and the receiver is safe for handlers that look at the event only before they send their single message; others use freed memory or see another event (refuted).  C68_sees_latest and C68_exact hold for all handlers: who looks sees the event of its last call, and the use of something destroyed is exactly that of a handler which goes on when its own listener is gone."
  },
  {
   "property": "C69",
   "status": "partial",
   "theorems": [
    "C69_history_partial",
    "C69_space_refuted",
    "C69_question_mark_refuted",
    "C69_dots_refuted",
    "C69_empty_name_refuted",
    "C69_by_string_refuted",
    "C69_prefix_unchecked_refuted",
    "C69_short_address_refuted",
    "C69_shown",
    "C69_shown_iff",
    "C69_dots",
    "C69_nul",
    "C69_nul_refuted",
    "C69_dot_segments",
    "C69_other_site",
    "C69_query",
    "C69_characters",
    "C69_defined",
    "C69_ten_members_refuted"
   ],
   "note": "For routes whose strings have only characters that addresses keep and for navigation by route value. Characters that addresses encode, \".\" and \"..\", a nameless route with members, navigation by string and addresses outside of the prefix go wrong (refuted).  C69_defined: nothing undefined happens if no route has more than nine members; C69_ten_members_refuted: with ten members it does."
  },
  {
   "property": "C70",
   "status": "partial",
   "theorems": [
    "C70_translation_partial",
    "C70_string_refuted",
    "C70_overload_order_refuted",
    "C70_same_type_refuted",
    "C70_capture_refuted",
    "C70_const_refuted",
    "C70_undefined",
    "C70_else_if"
   ],
   "note": "Proved for all functions whose string literals need no escapes, whose overload without a type is last, whose types are distinct and without nbdl.const, in which made-up names are not names that the specification uses. Each of these conditions is needed (refuted)."
  },
  {
   "property": "C71",
   "status": "partial",
   "theorems": [
    "C71_complete",
    "C71_locations",
    "C71_outer_location",
    "C71_location_refuted"
   ],
   "note": "Text is complete, in order, and no location is made up. What is written last for an operation carries the location of the operation around it, because the location is restored before the buffer is flushed (refuted)."
  },
  {
   "property": "C72",
   "status": "partial",
   "theorems": [
    "C72_class_partial",
    "C72_forwarded",
    "C72_name_refuted",
    "C72_single_refuted",
    "C72_variant_refuted",
    "C72_no_members",
    "C72_context",
    "C72_context_op_refuted"
   ],
   "note": "Proved for definitions composed of keyed stores with an unqualified name. Qualified names are cut wrongly, a definition that is a single store loses its arguments, and variants are never translated (refuted). The `context` syntax (members with names) always gives a class with exactly these members. What is written for the MLIR operation nbdl.context takes the constructors of a class that is not its base (context_alias<I> and context_alias<I, false> are two types), so it can never compile; spec.sld does not make this operation."
  },
  {
   "property": "C73",
   "status": "partial",
   "theorems": [
    "C73_accepted_partial",
    "C73_meaning_partial",
    "C73_cpp_partial",
    "C73_follow_refuted",
    "C73_no_else_refuted",
    "C73_arguments_refuted"
   ],
   "note": "Proved for every body in which noop and match-if on a plain value come first, match-if has an else, and the function is called with at least one argument and no calls as arguments; outside of that the verifier rejects the function or an error is raised (refuted). Composed with C70 for the C++."
  },
  {
   "property": "C74",
   "status": "partial",
   "theorems": [
    "C74_round_trip_partial",
    "C74_documents",
    "C74_unambiguous",
    "C74_text",
    "C74_any_document",
    "C74_text_refuted",
    "C74_accepts_refuted",
    "C74_integers",
    "C74_names_refuted",
    "C74_nothing",
    "C74_length",
    "C74_exact",
    "C74_characters",
    "C74_like_array",
    "C74_well_formed",
    "C74_no_length"
   ],
   "note": "For ASCII text without NUL; for other text the round trip fails, exactly (C74_text is an equivalence for well-formed text). Reading is total for any JavaScript value, but accepts documents that stand for nothing (refuted).  C74_exact: for any text that is well-formed UTF-8 the value read is the one in which every UTF-16 code unit is cut to its low byte.  Containers read from values without a length are empty."
  },
  {
   "property": "C75",
   "status": "partial",
   "theorems": [
    "C75_to_browser_partial",
    "C75_from_browser_partial",
    "C75_empty_container_refuted",
    "C75_unsigned_refuted",
    "C75_text_refuted",
    "C75_to_browser_exact",
    "C75_from_browser_exact"
   ],
   "note": "To a browser: ASCII text and no empty containers, which are null and make the browser throw (refuted). From a browser: no unsigned numbers of 2^31 and more, which are written as negative numbers that the server refuses (refuted), no negative enumerators.  The conditions are exact (C75_to_browser_exact, C75_from_browser_exact): for well-formed UTF-8 text every other value makes the reader throw. Towards the server text may have any characters; towards a browser the value read is the one in which every UTF-16 code unit of the text has been cut to its low byte (Seen), which is the same value exactly if the text is ASCII."
  },
  {
   "property": "C76",
   "status": "partial",
   "theorems": [
    "C76_select_partial",
    "C76_statement",
    "C76_flat_refuted"
   ],
   "note": "For types with distinct column names and names without dots (identifiers). An entity with no entity below or with containers has no statement (C76_statement, C62_flat_refuted)."
  },
  {
   "property": "C77",
   "status": "partial",
   "theorems": [
    "C77_update",
    "C77_statement",
    "C77_key_name_refuted"
   ],
   "note": "The replacement is proved in full for entities of values (others are rejected, C77_statement). The static_assert on the key is a comma expression: the name of the key is not looked at (refuted)."
  },
  {
   "property": "C78",
   "status": "partial",
   "theorems": [
    "C78_told_partial",
    "C78_settles",
    "C78_once",
    "C78_messages_partial",
    "C78_lost_refuted",
    "C78_closed_refuted",
    "C78_destroyed_refuted",
    "C78_gone",
    "C78_exact",
    "C78_ends",
    "C78_two_reads_refuted"
   ],
   "note": "For reads that are started one after another and a state that is kept while it connects or reads. A message that comes between two reads is lost, a read that starts after the end of the socket is never told, and a state that is destroyed while it waits is called back (refuted).  C78_exact and C78_ends: for every endpoint, disciplined or not, what each promise is told, and that the behaviour is undefined exactly when an event finds the state gone or a later read started than the first that waits for it. Two reads at a time are therefore undefined at the next message (C78_two_reads_refuted)."
  },
  {
   "property": "C79",
   "status": "partial",
   "theorems": [
    "C79_json_partial",
    "C79_vector_empty_refuted",
    "C79_vector_outside_refuted",
    "C79_vector_sent_refuted",
    "C79_destroyed_refuted",
    "C79_early_refuted",
    "C79_exact",
    "C79_thrown",
    "C79_vector_outside_exact",
    "C79_reports",
    "C79_vector_capacity"
   ],
   "note": "Holds for JSON payloads, for an endpoint that outlives the connection and sends after it opens. Vectors of bytes come out empty, can be written past their end, and are sent with all of memory (refuted).  C79_exact: undefined behaviour comes exactly when an event other than an error follows the destruction of the endpoint. C79_thrown counts the exceptions. C79_vector_outside_exact: when exactly a text is written past a vector."
  },
  {
   "property": "C80",
   "status": "partial",
   "theorems": [
    "C80_broadcast_partial",
    "C80_same",
    "C80_understood",
    "C80_read_by_clients",
    "C80_crash",
    "C80_stays_up_refuted",
    "C80_closed_refuted",
    "C80_dropped",
    "C80_robust"
   ],
   "note": "The delivery is proved for as long as the server runs. It stops exactly if a client sends text that is no JSON or a document that the binder throws on (C80_crash); connections that were closed stay in the list for ever (refuted).  C80_dropped: what only costs a client its connection; C80_robust: whatever a client sends, there is no undefined behaviour."
  },
  {
   "property": "C81",
   "status": "partial",
   "theorems": [
    "C81_own_request_partial",
    "C81_served",
    "C81_independent_refuted",
    "C81_own_request_refuted",
    "C81_good_request_refuted",
    "C81_exact"
   ],
   "note": "Holds when each client sends one request, nothing behind it, and does not stop in the middle. The buffer is shared by all connections: what a client sends behind its request, or the piece of a request it left, is read as the beginning of the next client's request; while a client is silent no other is answered (refuted). The branch for requests that are no upgrade is never reached: accepting the WebSocket fails before it. C81_exact: for any clients at all, exactly which results the server can come to: the answers to the clients in the order of their arrival, each to the bytes which those before it left in the shared buffer followed by its own."
  },
  {
   "property": "C82",
   "status": "partial",
   "theorems": [
    "C82_params",
    "C82_path",
    "C82_in_store_partial",
    "C82_get",
    "C82_match_when",
    "C82_match",
    "C82_predicate",
    "C82_in_store_refuted",
    "C82_default_refuted",
    "C82_match_again_refuted",
    "C82_unresolved_refuted",
    "C82_match_if"
   ],
   "note": "The call, its values and their order are proved for all specifications. Keys at a location are those in the store except after a match_when, where they are looked up in the matched value (refuted); the path given to the function of the default alternative leads nowhere (refuted); a matched path cannot be matched again and a match whose path leads nowhere is undefined behaviour (refuted)."
  },
  {
   "property": "C83",
   "status": "partial",
   "theorems": [
    "C83_in_order_partial",
    "C83_told",
    "C83_delivered",
    "C83_settles",
    "C83_in_order_refuted",
    "C83_silent_after_stop_refuted",
    "C83_sent_before_close_refuted",
    "C83_in_order_exact"
   ],
   "note": "Order, the handshake, delivery of everything at rest and that rest is always reached are proved for every play, for messages that the sender ends (C07: a message whose length is a positive multiple of 125 is merged with the next, refuted here end to end). The handlers of the handshake are called after stop(), and messages that were queued when close() is called are lost (refuted). C83_in_order_exact, C83_delivered and C83_settles say for all messages what is given: what was sent, with each message that fills its last frame put before the next one."
  },
  {
   "property": "C84",
   "status": "partial",
   "theorems": [
    "C84_history",
    "C84_shows",
    "C84_agree_partial",
    "C84_requests",
    "C84_settles",
    "C84_healthy",
    "C84_replies",
    "C84_executed_partial",
    "C84_late_refuted",
    "C84_lost_refuted",
    "C84_garbage_refuted",
    "C84_ruined"
   ],
   "note": "Proved for every number of clients, every interleaving and every failure: each client was pushed a prefix of what was told since its registration, all of it when nothing is under way; its requests reach the server each once and in order; a client registered before anything was told agrees with the server at rest; with echo_producer that is the result of executing all requests in the order served; the network comes to rest by itself. Refuted: a client that comes later is never given what is already there, and its reads do not leave its context; a request made when the connection is gone is dropped silently and there is no reconnecting; one text on which the deserializer resolves twice (C57) brings the server to undefined behaviour. Assumed: the serializers are inverse (C64), full_duplex keeps the order of messages and copies them."
  },
  {
   "property": "C85",
   "status": "partial",
   "theorems": [
    "C85_text",
    "C85_alike",
    "C85_signature_partial",
    "C85_unique_refuted",
    "C85_exists_partial",
    "C85_entity_refuted",
    "C85_characters"
   ],
   "note": "Proved: the text that is signed is the same exactly for the same format and types that are bound alike; the signature is its SHA-1 digest; exactly the types without entities, enumerations and unknown classes have one. The model computes the four digests and the tags that the project's tests expect. Refuted: by counting, some types that are not alike share a signature; an entity has no signature (it is both a sequence and a map, which is ambiguous) though it is bound to JSON like the map with its members, which has one. Assumed: clang's text of __PRETTY_FUNCTION__; names of types of one word."
  },
  {
   "property": "C86",
   "status": "partial",
   "theorems": [
    "C86_read_partial",
    "C86_browser_partial",
    "C86_sizes_refuted",
    "C86_leaves",
    "C86_bound_as"
   ],
   "note": "Proved for types for which the same text is signed and whose buffers of fixed size have the same sizes, with the JSON binder and with the JavaScript binder on one side. Refuted: the sizes of buffers are not part of the signature; an identifier of 16 bytes is read into 20 bytes as zeros, without an exception. Sets and maps of the C++ library are not modelled.  C86_bound_as says of every type whether and as what the JSON binder binds it.  With the JavaScript binder the text may have any characters in the direction of the server."
  },
  {
   "property": "C87",
   "status": "proved",
   "theorems": [
    "C87_value",
    "C87_moment",
    "C87_notified",
    "C87_read",
    "C87_quiet",
    "C87_nothing",
    "C87_down",
    "C87_up",
    "C87_apply"
   ],
   "note": "Proved for every action of payloads on values (assignment or call) over the context of C34. Matching a null_store does not compile, so that reads of such path types are not part of it."
  },
  {
   "property": "C88",
   "status": "partial",
   "theorems": [
    "C88_assigned_partial",
    "C88_unanswered_partial",
    "C88_deleted_refuted",
    "C88_created_refuted",
    "C88_answered_refuted",
    "C88_keys_refuted",
    "C88_unnotified_refuted"
   ],
   "note": "Proved for the path of the last update when payloads are assigned. Refuted: creates, deletes and answers to reads are told to consumers but never reach the value, so that a variant which is unresolved at first stays so until an update; all keys of a path type share the value, so that an update of one path shows at another one, of which nobody is notified."
  },
  {
   "property": "C89",
   "status": "partial",
   "theorems": [
    "C89_handles",
    "C89_once",
    "C89_in_order_partial",
    "C89_done_partial",
    "C89_all_partial",
    "C89_cut_off",
    "C89_terminates",
    "C89_unknown_refuted",
    "C89_empty_refuted",
    "C89_long"
   ],
   "note": "Proved: for arbitrary texts the calls of the action and the settlement are those of the messages they stand for; for messages that JSON carries (C43), shorter than 4 GB, the action gets all up to the first of the type Terminate. Refuted: a text with a type id that the receiver does not know is passed over in silence; a message with an empty container (C43) makes the receiver reject while the connection is open. JsonCpp's text syntax is a parameter. A message whose buffer is written with 2^31/3 characters or more is undefined behaviour."
  },
  {
   "property": "C90",
   "status": "partial",
   "theorems": [
    "C90_once",
    "C90_lifetime",
    "C90_left",
    "C90_destroyed_partial",
    "C90_single_partial",
    "C90_order",
    "C90_defined_partial",
    "C90_destroyed_refuted",
    "C90_at_once_refuted",
    "C90_replaced_refuted",
    "C90_busy_refuted",
    "C90_unresolved",
    "C90_rejected",
    "C90_sync",
    "C90_leaked_refuted"
   ],
   "note": "Proved for all runs without undefined behaviour: an object is destroyed at most once and only with the pipeline, later stages first; those never destroyed are exactly those that another object of the same stage took the place of (nothing destroys the old one before the placement new of hold_lazy.hpp:62), which cannot happen if no stage is called twice. No undefined behaviour if each stage calls its resolver at most once and functions given to hold_lazy leave that to the object. Refuted: with run_async_loop every pass but the last leaks its object; a function that resolves at once has its object constructed in freed memory; an object that resolves again after it was replaced; in the repository's own test the object is destroyed while its member function runs. Also proved: no stage after one that never resolves is called, not even when its rejection is caught; a rejection that nothing catches leaves the pipeline and its objects undestroyed forever; with run_sync the pipeline lives exactly as long as the call."
  },
  {
   "property": "C91",
   "status": "partial",
   "theorems": [
    "C91_functions",
    "C91_again_partial",
    "C91_again_refuted"
   ],
   "note": "Proved: what the k-th run of a kept pipeline calls; the same each time without hold_lazy. Refuted: the function of hold_lazy is moved out of the caller's pipeline by the first run (hold_lazy.hpp:89-95 moves although it is not restricted to rvalues)."
  },
  {
   "property": "C92",
   "status": "partial",
   "theorems": [
    "C92_uids",
    "C92_prefix",
    "C92_foretold",
    "C92_seeds",
    "C92_twins",
    "C92_secret_refuted",
    "C92_apart_refuted",
    "C92_standard"
   ],
   "note": "Proved with the mt19937 of the standard: every identifier has 16 bytes; two seeds below 2^32 give sequences which differ among the first 156 identifiers. Refuted: 156 identifiers in a row determine all that follow (the tempering of the engine is inverted), so that they cannot serve as secrets; the engine is seeded with 32 bits, so that of more than 2^32 generators two are alike for ever."
  },
  {
   "property": "C93",
   "status": "partial",
   "theorems": [
    "C93_uid",
    "C93_byte",
    "C93_every",
    "C93_undefined",
    "C93_made_partial",
    "C93_made_refuted"
   ],
   "note": "Proved: what is made has 16 bytes, each byte is the expected one or the one above, every identifier can be made, and the exact condition for undefined behaviour. Refuted: emscripten_random() returns a float, so that a random number of at least 1 - 2^-25 becomes 1 and 256 is converted to uint8_t, which is undefined (uid.hpp:86)."
  },
  {
   "property": "C94",
   "status": "proved",
   "theorems": [
    "C94_root",
    "C94_prefix",
    "C94_rest",
    "C94_settles",
    "C94_at_once"
   ],
   "note": "For any number of clients and all interleavings, over links that keep the order and lose nothing, with a root that applies in the order of arrival and confirms to everyone; identifiers may even collide. The clients begin with the root's entity and there are only updates by deltas."
  },
  {
   "property": "C95",
   "status": "partial",
   "theorems": [
    "C95_kept_partial",
    "C95_shown_refuted",
    "C95_identifiers_refuted",
    "C95_exact"
   ],
   "note": "Proved: a member written by one client alone shows there at every moment what that client wrote last, if no identifier is used twice. Refuted: a change of another client that the root got first hides an unconfirmed own change, which comes back when it is confirmed (1, 2, 1; local_version.hpp:70-76 applies foreign changes over pending own ones), although the test is named for the opposite; two changes with the same identifier by one client are shown as 1, 2, 1, 2. C95_exact: what a client shows at every moment, whatever the identifiers were."
  },
  {
   "property": "C96",
   "status": "partial",
   "theorems": [
    "C96_names",
    "C96_order",
    "C96_argument",
    "C96_unknown_refuted",
    "C96_consumers_refuted"
   ],
   "note": "Proved for all definitions, arguments and re-entrant actors: names, order and arguments. Refuted: an argument with a name that no actor has is ignored (the static_assert in make_context.hpp:41-46 is switched off), and a Consumer beside Consumers is ignored (enumerate_consumers.hpp:40-54)."
  },
  {
   "property": "C97",
   "status": "partial",
   "theorems": [
    "C97_exact_partial",
    "C97_constructor_refuted",
    "C97_destructor_refuted",
    "C97_exact"
   ],
   "note": "Proved: with destructors that do not use the handle nothing is undefined if, and only if, no constructor uses it. Refuted in general: actors are constructed before the stores (context.hpp:112-113), so an actor that uses its handle in its constructor, as the renderer does (renderer.hpp:103-112), uses stores that are not constructed; and a destructor that uses it finds them destroyed. C97_exact says exactly when nothing is undefined, for arbitrary re-entrant actors: no constructor comes to use the handle, and no destructor with the members it then has."
  },
  {
   "property": "C98",
   "status": "partial",
   "theorems": [
    "C98_constructed",
    "C98_producers_partial",
    "C98_consumers_partial",
    "C98_producers_refuted",
    "C98_consumers_refuted"
   ],
   "note": "Proved: nothing is delivered before all actors and stores are constructed; and not before the initialisation of producers (all actors) if constructors and producer_init (and consumer_init) do not use the handle. Refuted: nav_route's producer_init applies a message (nav_route.hpp:148-156), so consumers and later producers which are consumers get it before they are initialised."
  },
  {
   "property": "C99",
   "status": "partial",
   "theorems": [
    "C99_all",
    "C99_order_partial",
    "C99_map_store",
    "C99_mirror_partial",
    "C99_order_refuted",
    "C99_mirror_refuted"
   ],
   "note": "Proved: whatever the actors do every consumer gets every message exactly once, and map stores have just what the messages said; the order is that of the stores if consumers apply no message inside of send_downstream_message or notify_state_change. Refuted without that: if a consumer corrects a value it is told, the consumers after it get the correction first and the old value last, and keep the old value."
  },
  {
   "property": "C100",
   "status": "partial",
   "theorems": [
    "C100_message_partial",
    "C100_empty_refuted",
    "C100_nul_refuted",
    "C100_typed",
    "C100_exact"
   ],
   "note": "Proved for every API whose messages have one type each and every message all of whose parts survive (exactly the values of C43), for any printer whose texts parse. Refuted: an update with an empty container makes the deserializer resolve twice, one with a string with a NUL arrives as another message. Messages with is_confirmed are left out: the reader does not compile for bool.  C100_exact: a message whose numbers stand for values, each for one, arrives as itself exactly if JSON carries all of its parts."
  },
  {
   "property": "C101",
   "status": "partial",
   "theorems": [
    "C101_history_partial",
    "C101_shows_partial",
    "C101_agree_partial",
    "C101_requests_partial",
    "C101_healthy_partial",
    "C101_executed_partial",
    "C101_crash_refuted",
    "C101_changed_refuted",
    "C101_settles"
   ],
   "note": "All of C84, with the real serializers in place of C84's assumption on them, for every execution in which the messages that were said are ones JSON carries. Refuted without that: a client whose application updates an entity to an empty container brings the server to undefined behaviour; one with a NUL in a string has something else done. It comes to rest whatever the messages (C101_settles), provided that the messages of the API for clients are downstream ones."
  },
  {
   "property": "C102",
   "status": "proved",
   "theorems": [
    "C102_compiles",
    "C102_nested",
    "C102_outline",
    "C102_determined",
    "C102_no_function"
   ],
   "note": "For every tree that compiles (exactly those whose views all have a type and a function). Beside it, a trap: a view without a function has its first child taken for it, silently."
  },
  {
   "property": "C103",
   "status": "proved",
   "theorems": [
    "C103_carried",
    "C103_arrives",
    "C103_only",
    "C103_grows",
    "C103_agree",
    "C103_settles",
    "C103_order_refuted",
    "C103_actions_refuted"
   ],
   "note": "For definitions in which no path has two access points. Beside it, what a reader of 'the same definition' might expect and is false: with the same access points, or the same actions, in another order, a message is read as another one (an update of another entity; a read as a delete), since only positions are sent."
  },
  {
   "property": "C104",
   "status": "partial",
   "theorems": [
    "C104_exact",
    "C104_program",
    "C104_members",
    "C104_copied",
    "C104_inherited_refuted",
    "C104_many_refuted"
   ],
   "note": "Everything but that declarations always compile. Exactly: a declaration compiles if it has 1 to 62 members, and several together if no member of the same declaring class is named twice; so two entities cannot both name a member they inherit from the same base."
  },
  {
   "property": "C105",
   "status": "partial",
   "theorems": [
    "C105_exact",
    "C105_get",
    "C105_with_map",
    "C105_any_order",
    "C105_unchecked_refuted"
   ],
   "note": "Proved for 1 to 63 names (exactly those that compile). Made without names the number of values is not checked, and a name may give nothing (does not compile where it is used)."
  },
  {
   "property": "C106",
   "status": "proved",
   "theorems": [
    "C106_composed",
    "C106_filters"
   ],
   "note": "In full, including when there are not as many states as collectors."
  },
  {
   "property": "C107",
   "status": "partial",
   "theorems": [
    "C107_told_partial",
    "C107_told_refuted",
    "C107_types_refuted",
    "C107_string",
    "C107_shown"
   ],
   "note": "Proved if no leaf has a comma, a closing bracket or an equals sign in its text (so for the messages of the example). Strings are written without quotes, so it is false of tuples of strings with commas, and values of different types may be printed alike."
  },
  {
   "property": "C108",
   "status": "partial",
   "theorems": [
    "C108_context",
    "C108_client",
    "C108_page_partial",
    "C108_settled_partial",
    "C108_read_refuted",
    "C108_definition_partial",
    "C108_browser",
    "C108_stale_refuted"
   ],
   "note": "Proved for specifications that can always be rendered (C65) and that look at payloads only; with a server for clients registered before anything was told, as C84. False of specifications that tell a path which is not resolved from one which is not there: a read changes that and nobody is notified. The renderer is taken to find empty stores when it is made (C97).  In browsers (C108_browser) the page shows what the understood messages say, which is what the server holds exactly when everything told is understood; a list that was emptied goes on being shown (C108_stale_refuted)."
  },
  {
   "property": "C109",
   "status": "partial",
   "theorems": [
    "C109_up",
    "C109_down",
    "C109_missed",
    "C109_crash",
    "C109_history",
    "C109_shows",
    "C109_agree_partial",
    "C109_requests",
    "C109_healthy_partial",
    "C109_settles",
    "C109_executed_partial",
    "C109_stale_refuted",
    "C109_crash_refuted",
    "C109_text_refuted"
   ],
   "note": "Which messages get through either way is exact (C109_up, C109_down), and what a browser is told is exactly the understood part of what was sent. That the stores agree, that the server stays up and that requests are executed needs the messages to be ones both sides write alike. Refuted without that: an update to an empty container is never seen in a browser, whose store stays stale; an unsigned value of 2^31 or more, or a negative enumerator, sent by a browser is undefined behaviour in the server. Any of the clients may be in a browser and the others programs of their own.  Text of other characters than ASCII reaches the server as it is but a browser as the low bytes of its UTF-16 code units (C109_text_refuted): the browser that asked for an accented letter then shows a byte that is not even well-formed UTF-8.  For text of any characters C109_down and C109_history say what is heard: the message of the same type whose text is seen as the low bytes (seen_as), which exists, is unique, and is the message itself for ASCII text."
  },
  {
   "property": "C110",
   "status": "partial",
   "theorems": [
    "C110_finite",
    "C110_attempts",
    "C110_printed_partial",
    "C110_served_partial",
    "C110_rest_partial",
    "C110_all",
    "C110_main",
    "C110_waits_refuted"
   ],
   "note": "For messages that JSON carries with texts below 4 GB and an action that does not throw (the hypotheses of C89). C110_main: for the messages of main.cpp the program prints them all and ends. Refuted: that the program always ends; when the client has used up its attempts, the server waits for a connection for ever."
  },
  {
   "property": "C111",
   "status": "partial",
   "theorems": [
    "C111_one_object",
    "C111_left",
    "C111_given",
    "C111_exact",
    "C111_freed_last",
    "C111_defined_partial",
    "C111_released",
    "C111_loop_keeps",
    "C111_twice_refuted",
    "C111_sync_refuted",
    "C111_passed",
    "C111_temporary"
   ],
   "note": "One object, what is left and what is given are proved for every run. That the value can always be used needs every stage to call its resolver at most once, and under run_sync to be done when it returns. Refuted: without that, the memory is used after it was freed (C111_twice_refuted, C111_sync_refuted); C111_exact says when."
  },
  {
   "property": "C112",
   "status": "partial",
   "theorems": [
    "C112_connect",
    "C112_once",
    "C112_reads",
    "C112_other_addresses_refuted",
    "C112_host_port_refuted",
    "C112_kept_refuted",
    "C112_sent",
    "C112_messages"
   ],
   "note": "Connecting and reading are proved for all results of the network. Only the first address of the host is tried (C112_other_addresses_refuted), the handshake names the host without its port (C112_host_port_refuted), and a message is given by reference to the one body, so who keeps the reference sees the last message (C112_kept_refuted). Asio and Beast are parameters.  C112_sent and C112_messages: what the other side wrote with write_message is read, and messages that JSON carries arrive as themselves."
  }
 ]
}