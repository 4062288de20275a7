{"id": "C01", "title": "Base64 round trip", "statement": "Decoding the text produced by base64-encoding a byte buffer succeeds and yields exactly the original bytes, both for the one-argument decoder and for a resizable output buffer.", "quantifier": "every byte sequence (any length for which the length arithmetic does not overflow int)", "why_tests_cant": "There are infinitely many buffers and three residue classes of padding; tests sample a handful of RFC vectors.", "anchors": ["include/nbdl/util/base64_encode.hpp: base64_encode_fn", "include/nbdl/util/base64_decode.hpp: base64_decode_fn"]}
{"id": "C02", "title": "Base64 encoder output is canonical RFC 4648 text", "statement": "The encoder's output has length 4*ceil(n/3), every character is either in the 64-character alphabet or a '=' in the last two positions, and its 6-bit digits are exactly the big-endian bit string of the input padded with zero bits.", "quantifier": "every byte sequence", "why_tests_cant": "The bit-level correspondence ranges over all inputs and all positions.", "anchors": ["include/nbdl/util/base64_encode.hpp: encode_fragment, encoding_length_padded, operator()"]}
{"id": "C03", "title": "Base64 decoder accepts exactly well-formed text", "statement": "The two-argument decoder reports success iff the input is well formed: length a multiple of 4, alphabet characters only, at most two '=' and only at the very end.", "quantifier": "every input string and every resizable output buffer", "why_tests_cant": "The space of malformed inputs cannot be enumerated; the interesting failures are corner shapes tests do not list.", "anchors": ["include/nbdl/util/base64_decode.hpp: validate, operator()(input, output)"]}
{"id": "C04", "title": "Base64 decode failure leaves the destination intact and yields no bytes", "statement": "When decoding is rejected by the fixed-size overload because the size differs, the destination bytes are unchanged; when rejected by the one-argument overload the result is the empty buffer.", "quantifier": "every input string, every fixed-size destination", "why_tests_cant": "Quantifies over all malformed inputs and all prior destination contents.", "anchors": ["include/nbdl/util/base64_decode.hpp: prepare_output_buffer, operator()"]}
{"id": "C05", "title": "WebSocket frame length header round trips", "statement": "The length header written for a frame is the minimal RFC 6455 form and the receiver's interpretation of that header is the same length.", "quantifier": "every frame length below 2^63", "why_tests_cant": "Boundaries at 125/126/65535/65536 and 64-bit values cannot be exhaustively tested.", "anchors": ["include/nbdl/websocket/detail/message_sender.hpp: encoded_length_buffer", "include/nbdl/websocket/detail/message_reader.hpp: read_extended_length, get_payload_length"]}
{"id": "C06", "title": "Outgoing message is fragmented into a well-formed frame sequence", "statement": "Sending a message writes frames whose payloads concatenate to the message, the first carrying the message opcode and the rest the continuation opcode, each at most 125 bytes, with FIN set on the last frame and on no other.", "quantifier": "every payload and every data opcode", "why_tests_cant": "Payload length is unbounded and the failure appears only at exact multiples of the fragment size.", "anchors": ["include/nbdl/websocket/detail/message_sender.hpp: send_message_impl, send_impl_fn"]}
{"id": "C07", "title": "Sender and reader deliver exactly the sent messages", "statement": "If one endpoint sends a list of messages and nothing else is on the stream, the peer's message handler is invoked with exactly that list in that order.", "quantifier": "every finite list of payloads and opcodes", "why_tests_cant": "Requires reasoning over all message lists and all fragment boundaries.", "anchors": ["include/nbdl/websocket/detail/message_sender.hpp: send_message_impl", "include/nbdl/websocket/detail/message_reader.hpp: keep_reading, read_payload"]}
{"id": "C08", "title": "Masked client frames are unmasked", "statement": "A message delivered from masked frames equals the original payload with each frame's key removed.", "quantifier": "every masking key, payload and fragmentation", "why_tests_cant": "Keys, lengths and fragmentations form an unbounded product space.", "anchors": ["include/nbdl/websocket/detail/message_reader.hpp: read_payload, read_masking_key"]}
{"id": "C09", "title": "Control frames do not disturb the data stream", "statement": "Inserting ping or pong frames between data frames changes neither the messages delivered nor their contents.", "quantifier": "every data stream, every placement of control frames and every control payload", "why_tests_cant": "Placement and payload of interleaved control frames are unbounded.", "anchors": ["include/nbdl/websocket/detail/message_reader.hpp: opcode_dispatch, keep_reading"]}
{"id": "C10", "title": "Reader stops at the first terminal event", "statement": "After a close frame, a reserved opcode, or a transport error the reader invokes no further handler, whatever bytes follow.", "quantifier": "every byte stream", "why_tests_cant": "Ranges over all garbage suffixes and all stream prefixes.", "anchors": ["include/nbdl/websocket/detail/message_reader.hpp: keep_reading, opcode_dispatch, read_close_payload"]}
{"id": "C11", "title": "Reader is causal", "statement": "The events raised after receiving a prefix of a byte stream are a prefix of the events raised after receiving any extension of it.", "quantifier": "every byte stream and every split point", "why_tests_cant": "All split points of all streams.", "anchors": ["include/nbdl/websocket/detail/message_reader.hpp: keep_reading"]}
{"id": "C12", "title": "Endpoint sends queued messages in FIFO order without loss or duplication", "statement": "In every execution without write errors the messages put on the wire are a prefix of the sequence accepted by send_message, in order, each once.", "quantifier": "every interleaving of send, start, close, stop, read events and write completions", "why_tests_cant": "Schedules of asynchronous completions are unbounded.", "anchors": ["include/nbdl/websocket/detail/endpoint_impl.hpp: send_message, start_send_queue"]}
{"id": "C13", "title": "Endpoint sends nothing after a close frame", "statement": "Once a close frame has been handed to the transport no data frame follows, and at most one close frame is written.", "quantifier": "every interleaving of endpoint calls and transport completions that has no failing close write", "why_tests_cant": "Depends on every schedule.", "anchors": ["include/nbdl/websocket/detail/endpoint_impl.hpp: start_send_queue, send_close"]}
{"id": "C14", "title": "Endpoint has at most one write in flight", "statement": "The endpoint never starts a transport write while a previous one is outstanding.", "quantifier": "every interleaving", "why_tests_cant": "A data race on the socket that only some schedules expose.", "anchors": ["include/nbdl/websocket/detail/endpoint_impl.hpp: start_send_queue, is_send_queue_running"]}
{"id": "C15", "title": "Stopped endpoint is silent", "statement": "After stop() returns no user handler is invoked and no new write begins.", "quantifier": "every interleaving, every moment at which stop is called", "why_tests_cant": "Every crash/stop point.", "anchors": ["include/nbdl/websocket/detail/endpoint_impl.hpp: stop, call_handler, start_send_queue"]}
{"id": "C16", "title": "Close event is reported at most once", "statement": "The user's close handler is invoked at most once per connection.", "quantifier": "every interleaving of local close, remote close and write completions", "why_tests_cant": "The duplicate only appears in one specific race between the close write completion and the peer's close.", "anchors": ["include/nbdl/websocket/detail/endpoint_impl.hpp: start_send_queue, make_reader_handler"]}
{"id": "C17", "title": "Every ping is answered with a pong", "statement": "If a ping is received while the connection is open and idle, a pong frame is eventually written.", "quantifier": "every execution", "why_tests_cant": "A liveness property over all schedules.", "anchors": ["include/nbdl/websocket/detail/endpoint_impl.hpp: control_frame::to_pong, make_reader_handler", "include/nbdl/websocket/detail/message_sender.hpp: send_pong"]}
{"id": "C18", "title": "No accepted message is stranded", "statement": "In a started, open, not stopped endpoint without errors, whenever no write is outstanding the send queue is empty.", "quantifier": "every interleaving", "why_tests_cant": "Lost wake-ups show up only in particular schedules.", "anchors": ["include/nbdl/websocket/detail/endpoint_impl.hpp: start_messaging, start_send_queue, send_message"]}
{"id": "C19", "title": "A close requested before start is eventually sent", "statement": "Calling send_close before messaging starts results in a close frame once messaging has started and the transport is idle.", "quantifier": "every interleaving", "why_tests_cant": "Lost wake-up for a particular call order.", "anchors": ["include/nbdl/websocket/detail/endpoint_impl.hpp: send_close, start_messaging"]}
{"id": "C20", "title": "Authentication token is extracted from the cookie header", "statement": "For a cookie header made of name=value pairs separated by '; ' the returned token is the value of the first nbdl_auth cookie and is empty when there is none, and no position outside the header is read.", "quantifier": "every list of cookies and every header string", "why_tests_cant": "All header strings, including truncated and adversarial ones.", "anchors": ["include/nbdl/websocket/detail/get_auth_token.hpp: get_auth_token, check_auth_cookie, take_cookie_value"]}
{"id": "C21", "title": "Session cookie is extracted from the cookie header", "statement": "For a cookie header made of name=value pairs the returned session id is the value of the NBDL_SESS cookie (without surrounding double quotes) wherever it appears, and empty when absent.", "quantifier": "every list of cookies", "why_tests_cant": "All cookie lists and positions.", "anchors": ["include/nbdl/app/detail/cookie_parser.hpp: get_session_cookie"]}
{"id": "C22", "title": "Handshake request is understood by the server", "statement": "The server's parse of the client's handshake request resolves with the client's key and cookie, so the token the server reports is the token the client was given.", "quantifier": "every origin and token over the allowed characters", "why_tests_cant": "All strings.", "anchors": ["include/nbdl/websocket/detail/send_handshake_request.hpp", "include/nbdl/websocket/detail/parse_handshake_request.hpp: parse_header, read_headers", "include/nbdl/websocket/detail/send_handshake_response.hpp", "include/nbdl/websocket/detail/get_auth_token.hpp"]}
{"id": "C23", "title": "Handshake header parsing is order and case insensitive and stays in bounds", "statement": "The recorded key and cookie depend only on the last occurrence of each header regardless of letter case, other headers are ignored, and no byte outside a header line is read.", "quantifier": "every list of header lines", "why_tests_cant": "All header lists.", "anchors": ["include/nbdl/websocket/detail/parse_handshake_request.hpp: parse_header, read_headers"]}
{"id": "C24", "title": "SHA-1 digest does not depend on how input is split", "statement": "Feeding a message to the hash in any number of chunks of any sizes gives the same digest as feeding it at once, and it equals FIPS 180-4 SHA-1 of the concatenation.", "quantifier": "every byte string shorter than 2^61 bytes and every partition into chunks", "why_tests_cant": "All partitions of all inputs, including block-boundary crossings.", "anchors": ["include/nbdl/detail/beast_sha1.hpp: init, update, finish"]}
{"id": "C25", "title": "Client accepts the server's handshake response", "statement": "The response the server generates for the client's handshake key is byte for byte the response the client expects.", "quantifier": "the fixed key; the general accept token for every key is base64(sha1(key ++ GUID))", "why_tests_cant": "End-to-end composition of hash, base64 and templates.", "anchors": ["include/nbdl/websocket/detail/send_handshake_response.hpp: generate_accept_token", "include/nbdl/websocket/detail/parse_handshake_response.hpp"]}
{"id": "C26", "title": "Hashing agrees with equality", "statement": "Keys that compare equal hash equally, for every bindable value (nested sequences, containers and variants).", "quantifier": "every pair of bindable values", "why_tests_cant": "All value shapes; a disagreement makes map entries unreachable.", "anchors": ["include/nbdl/binder/hash.hpp", "include/nbdl/detail/hash_combine.hpp", "include/nbdl/variant.hpp: equal_impl"]}
{"id": "C27", "title": "Delta captures exactly the difference", "statement": "Applying the delta made from a new and an old entity to the old entity yields the new entity, and the delta contains precisely the members that differ.", "quantifier": "every pair of entities of every arity", "why_tests_cant": "All entity pairs.", "anchors": ["include/nbdl/delta.hpp: make_delta, apply_delta"]}
{"id": "C28", "title": "Applying a delta reports change truthfully and is idempotent", "statement": "Applying a delta returns true iff the entity was changed by it, and applying it a second time changes nothing and returns false.", "quantifier": "every delta and entity", "why_tests_cant": "All pairs.", "anchors": ["include/nbdl/delta.hpp: apply_delta"]}
{"id": "C29", "title": "Deltas compose", "statement": "Merging a later delta into an earlier one and applying the result equals applying the two in order; merging is associative.", "quantifier": "every list of deltas and every entity", "why_tests_cant": "All delta sequences.", "anchors": ["include/nbdl/delta.hpp: apply_delta (delta to delta)"]}
{"id": "C30", "title": "Locally modified entity converges to the confirmed history", "statement": "When every local change has been confirmed, the local value equals the initial value with all confirmed changes applied in confirmation order, whatever the interleaving of local and confirmed changes.", "quantifier": "every interleaving of local changes, their confirmations, and foreign confirmed changes", "why_tests_cant": "Interleavings are unbounded.", "anchors": ["include/nbdl/local_version.hpp: apply_local_delta, apply_confirmed_delta, apply_message_impl"]}
{"id": "C31", "title": "Full-value writes are not reverted by earlier changes", "statement": "After a whole-value replacement arrives, later confirmations of changes issued before it do not bring back members from before the replacement.", "quantifier": "every interleaving of deltas, confirmations and replacements", "why_tests_cant": "Specific interleavings only.", "anchors": ["include/nbdl/local_version.hpp: apply_message_impl, apply_confirmed_delta"]}
{"id": "C32", "title": "Map store refines an abstract table", "statement": "After any history of messages, looking a path up in the map store gives: absent if never touched or deleted, pending if only requested, otherwise the latest accepted value; and the store reports change exactly for create, update, delete and first read responses.", "quantifier": "every history of messages over every set of paths", "why_tests_cant": "All histories.", "anchors": ["include/nbdl/map_store.hpp: handle_map_store_action", "include/nbdl/ext/std/unordered_map.hpp: match_impl"]}
{"id": "C33", "title": "A read of an unknown path reaches the producer exactly once", "statement": "The first upstream read of a path that is not in the store is forwarded to the producer, and repeated reads are not forwarded until it is answered.", "quantifier": "every history of messages and reads through a context", "why_tests_cant": "All histories; depends on the protocol between context and store.", "anchors": ["include/nbdl/context.hpp: push_message, match_impl", "include/nbdl/map_store.hpp"]}
{"id": "C34", "title": "Context routes each message to exactly the right actors, after the store", "statement": "A non-read upstream message is sent once to the producer of its path and to nobody else; a downstream message is sent once to every consumer in declaration order and to no producer; the store is updated before; and state consumers are notified of the message's path iff the store changed.", "quantifier": "every context shape, every history", "why_tests_cant": "All shapes and histories.", "anchors": ["include/nbdl/context.hpp: push_message, propagate_upstream, propagate_downstream, notify_state_consumers"]}
{"id": "C35", "title": "Echoing producer assigns fresh keys and reflects requests", "statement": "With the echoing producer every create is answered by a downstream create at a key never used before and all other requests are reflected with path and payload unchanged; the store then equals the abstract table obtained by executing the requests.", "quantifier": "every sequence of requests", "why_tests_cant": "All sequences.", "anchors": ["include/nbdl/echo_producer.hpp", "include/nbdl/message.hpp: to_downstream, to_downstream_with_key"]}
{"id": "C36", "title": "Message conversions preserve their contents", "statement": "Turning an upstream message into a downstream one keeps path, uid and payload, and every accessor returns the field given to the constructor.", "quantifier": "every message of every kind", "why_tests_cant": "All field values; accessor index mistakes are silent.", "anchors": ["include/nbdl/message.hpp"]}
{"id": "C37", "title": "A promise pipeline delivers exactly once", "statement": "Running a pipeline of plain functions and promises ends in exactly one of: the composed value, the first rejection not handled, or termination; no stage after the failing one runs and no stage runs twice.", "quantifier": "every pipeline and every behaviour of its stages", "why_tests_cant": "All pipelines and stage behaviours.", "anchors": ["include/nbdl/detail/promise_join.hpp", "include/nbdl/promise.hpp", "include/nbdl/pipe.hpp", "include/nbdl/run_async.hpp"]}
{"id": "C38", "title": "Catch handles only rejections, and the first matching catch wins", "statement": "A rejection value is given to the first later catch whose handler accepts it, then the pipeline stops; resolved values bypass catches unchanged; unmatched rejections propagate.", "quantifier": "every pipeline with any number of catches", "why_tests_cant": "All pipelines.", "anchors": ["include/nbdl/catch.hpp", "include/nbdl/detail/promise_join.hpp"]}
{"id": "C39", "title": "Asynchronous loop runs its body in order until terminated and releases its state once", "statement": "The loop restarts its body after each completed pass with no overlap, stops at the first rejection or termination, and then runs nothing more; its storage is released exactly once.", "quantifier": "every sequence of body outcomes", "why_tests_cant": "Unbounded iterations.", "anchors": ["include/nbdl/run_async_loop.hpp", "include/nbdl/run_async.hpp"]}
{"id": "C40", "title": "Predicate matching picks the first branch that holds", "statement": "match_if returns the index of the first predicate that accepts the value.", "quantifier": "every list of predicates and every value", "why_tests_cant": "All predicate lists.", "anchors": ["include/nbdl/detail/match_if.hpp"]}
{"id": "C41", "title": "Path lookup composes and agrees between match and get", "statement": "Matching along a path visits the keys in order, calls the continuation exactly once, and yields the same value as get along that path; looking up a concatenated path equals looking up in two steps.", "quantifier": "every store and every path", "why_tests_cant": "All stores and paths.", "anchors": ["include/nbdl/match_path.hpp", "include/nbdl/get_path.hpp", "include/nbdl/match.hpp", "include/nbdl/path_promise.hpp"]}
{"id": "C42", "title": "Variant matching is total, exclusive and stable", "statement": "Matching a variant calls exactly one handler with the held value and its type id; reading a variant back from its written id and value restores it; an invalid id leaves the variant unchanged.", "quantifier": "every variant type list and every value", "why_tests_cant": "All alternatives and ids.", "anchors": ["include/nbdl/variant.hpp: match_by_type, bind_variant_impl, equal_impl"]}
{"id": "C43", "title": "JSON serialisation round trips", "statement": "Reading back the JSON written for a bindable value of a given shape yields an equal value.", "quantifier": "every shape (integers, strings, buffers, sequences, containers, maps, variants) and every value of it", "why_tests_cant": "All nested shapes and values.", "anchors": ["include/nbdl/binder/jsoncpp.hpp"]}
{"id": "C44", "title": "Malformed JSON never yields a silently wrong value", "statement": "Reading JSON whose shape does not match the target shape throws, or (for an unknown variant id) leaves the variant unresolved; it never reads outside the document.", "quantifier": "every shape and every JSON document", "why_tests_cant": "All documents.", "anchors": ["include/nbdl/binder/jsoncpp.hpp: reader", "include/nbdl/variant.hpp: bind_variant_impl"]}
{"id": "C45", "title": "String concatenation views are faithful", "statement": "The length of a concatenation is the sum of the lengths, copying it yields the concatenated characters, and comparing it with a string is true iff the characters are the same.", "quantifier": "every nested concatenation and every string", "why_tests_cant": "All nestings; a prefix comparison bug is invisible on equal lengths.", "anchors": ["include/nbdl/detail/string_concat.hpp", "include/nbdl/detail/string_concat_view.hpp"]}
{"id": "C46", "title": "Composed stores route by key", "statement": "In a chain of composed stores a lookup for a key goes to the most recently composed store registered for that key and otherwise falls through to the base store unchanged.", "quantifier": "every chain and every key", "why_tests_cant": "All chains.", "anchors": ["include/nbdl/store_compose.hpp"]}
{"id": "C47", "title": "Routes round trip through their string form", "statement": "Parsing the string of a route value gives back that value.", "quantifier": "every route map and every value of its routes", "why_tests_cant": "All values; breaks for particular integers and strings.", "anchors": ["include/nbdl/webui/route_map.hpp: to_string, from_string"]}
{"id": "C48", "title": "Route parsing rejects everything that is not a route string", "statement": "A string that is not '/' name followed by the right number of valid parameters yields route-not-found.", "quantifier": "every string and route map", "why_tests_cant": "All strings.", "anchors": ["include/nbdl/webui/route_map.hpp: from_string, make_from_params, to_integral_param"]}
{"id": "C49", "title": "Tile game conserves tiles", "statement": "Every accepted move swaps the empty cell with an orthogonally adjacent cell of the board, so the multiset of tiles on the board never changes.", "quantifier": "every board, every board size and every sequence of moves", "why_tests_cant": "All boards and move sequences; the faulty case is one corner cell.", "anchors": ["example/tiles/game.hpp: get_tile_swap_index, apply_game_move"]}
{"id": "C50", "title": "SQL inserts are referentially ordered and parameter counts match", "statement": "Inserting an entity tree issues one insert per row; every foreign key used was returned by an earlier insert; each statement has as many placeholders as bound values.", "quantifier": "every entity tree", "why_tests_cant": "All nestings.", "anchors": ["include/nbdl/sql_db/insert.hpp", "include/nbdl/sql_db/statement/insert.hpp"]}
{"id": "C51", "title": "SQL criteria conjoin all keys", "statement": "The generated SELECT and UPDATE statements restrict rows by the conjunction of all given keys.", "quantifier": "every non-empty list of keys", "why_tests_cant": "Only multi-key calls differ.", "anchors": ["include/nbdl/sql_db/statement/select.hpp: criteria_list", "include/nbdl/sql_db/statement/update.hpp: column_value_list"]}
{"id": "C52", "title": "Tree search returns maximal matches with inherited settings", "statement": "Searching a definition tree returns, in depth-first order, exactly the outermost matching nodes, each with every setting taken from its nearest enclosing node that defines it.", "quantifier": "every tree and predicate", "why_tests_cant": "All trees.", "anchors": ["include/mpdef/find_in_tree.hpp", "include/mpdef/collect_settings.hpp"]}
{"id": "C53", "title": "Listener table groups every registration", "statement": "The listener table maps each listened path to all access points that listen to it, in declaration order, each once.", "quantifier": "every list of access points", "why_tests_cant": "All definitions.", "anchors": ["include/mpdef/group_by.hpp", "include/nbdl/def/builder/listener_lookup.hpp"]}
{"id": "C54", "title": "Parameter views behave like lists of references", "statement": "Appending and concatenating parameter views gives the same values, in order, as appending and concatenating plain lists.", "quantifier": "every sequence of appends and concatenations", "why_tests_cant": "All nestings; index offsets are only wrong for some shapes.", "anchors": ["include/nbdl/detail/params_view.hpp"]}
{"id": "C55", "title": "Client address splitting", "statement": "An address protocol://host:port is split into exactly its protocol, host and port; when the port is missing the protocol is used as the service name.", "quantifier": "every address", "why_tests_cant": "All strings.", "anchors": ["include/nbdl/app/client_connection.hpp: split_address"]}
{"id": "C56", "title": "Length-prefixed messages round trip", "statement": "Writing messages with the 4-byte length prefix and reading them back yields the same messages, for any list of messages.", "quantifier": "every list of messages each shorter than 2^32 bytes", "why_tests_cant": "Sign and shift errors appear only at large lengths.", "anchors": ["example/pipes/write_raw_message.hpp", "example/pipes/read_raw_message.hpp", "include/nbdl/ext/asio_tcp.hpp"]}
{"id": "C57", "title": "Deserialiser resolves exactly once", "statement": "For every received text the deserialiser continues its pipeline exactly once.", "quantifier": "every received text", "why_tests_cant": "Only malformed texts trigger the double continuation.", "anchors": ["include/nbdl/app/serializer.hpp: deserializer_fn"]}
{"id": "C58", "title": "Rendering a UI specification reproduces its element tree", "statement": "Executing the flattened begin/end actions of a UI specification builds exactly the element tree described and returns to the starting parent.", "quantifier": "every specification tree", "why_tests_cant": "All trees.", "anchors": ["include/nbdl/webui/detail/flatten_spec.hpp", "include/nbdl/webui/detail/dom_manips.hpp"]}
{"id": "C59", "title": "Access points are enumerated depth first and producers own their paths", "statement": "Enumeration lists exactly the access points that have actions or a store, parents before children in declaration order, and the producer lookup sends each enumerated path to the producer that declared it.", "quantifier": "every definition tree", "why_tests_cant": "All definitions.", "anchors": ["include/nbdl/def/builder/enumerate_access_points.hpp", "include/nbdl/def/builder/context_actors.hpp", "include/nbdl/def/builder/producer_map.hpp"]}
{"id": "C60", "title": "Connection attempts are bounded", "statement": "The connecting promise resolves at the first success, otherwise it rejects after exactly the configured number of retries.", "quantifier": "every sequence of connection results and every limit", "why_tests_cant": "All outcome sequences.", "anchors": ["example/pipes/connect.hpp: connect_fn"]}
{"id": "C61", "title": "Failing to write the close frame is reported", "statement": "When the transport fails while the close frame is written the endpoint reports it to the application and stays well defined.", "quantifier": "every execution", "why_tests_cant": "Needs the transport to fail at one particular moment.", "anchors": ["include/nbdl/websocket/detail/endpoint_impl.hpp: start_send_queue"]}
{"id": "C62", "title": "A SELECT joins every nested entity once, after its parent", "statement": "The columns and joins generated for a SELECT cover exactly the entity and the entities nested in it; each join has its own alias and refers to an alias introduced before it; the statement has as many placeholders as bound values.", "quantifier": "every entity type", "why_tests_cant": "All nestings of entity types.", "anchors": ["include/nbdl/sql_db/statement/detail/table_alias_list.hpp", "include/nbdl/sql_db/select.hpp", "include/nbdl/sql_db/statement/select.hpp"]}
{"id": "C63", "title": "The message types cover every declared action once", "statement": "For every access point and each action it declares there is exactly one upstream message type and its downstream message types (a read has a found and a not-found answer), in declaration order; with distinct paths and actions the types are pairwise distinct.", "quantifier": "every list of producers and access points", "why_tests_cant": "All definitions; the order is part of the wire format.", "anchors": ["include/nbdl/def/builder/entity_messages.hpp", "include/nbdl/def/builder/message_api.hpp"]}
{"id": "C64", "title": "A serialised message arrives as itself", "statement": "A message serialised by one side is continued with exactly once by the deserialiser of the other, as the same message type with the same value; a system message arrives as an error; different messages have different texts.", "quantifier": "every message API, message type and value", "why_tests_cant": "All types and values; type ids are positions in a computed list.", "anchors": ["include/nbdl/app/serializer.hpp", "include/nbdl/message_api.hpp", "include/nbdl/binder/jsoncpp.hpp"]}
{"id": "C65", "title": "The page follows the store", "statement": "After a specification is rendered and the store changes any number of times, the container shows what the specification stands for in the last state, with elements kept in place; nothing outside of what was rendered changes, and nothing changes any more after the renderer is destroyed.", "quantifier": "every specification, initial state, sequence of store changes and page", "why_tests_cant": "All specifications and all sequences of states, with matches that switch back and forth.", "anchors": ["include/nbdl/webui/renderer.hpp", "include/nbdl/webui/detail/dom_manips.hpp", "include/nbdl/ui_helper/match_branch.hpp"]}
{"id": "C66", "title": "JavaScript values held by C++ objects behave like variables", "statement": "Creating, copying, moving, assigning and destroying C++ objects that stand for JavaScript values gives each live object the value it should have; no value survives the objects that refer to it; growing a vector of them or dropping a connection keeps exactly the others.", "quantifier": "every sequence of object operations that C++ allows", "why_tests_cant": "The table is keyed by addresses that are used again; errors need particular sequences.", "anchors": ["include/nbdl/detail/js_val.hpp", "include/nbdl/js.hpp", "include/nbdl/app/server_js.hpp: drop_connection"]}
{"id": "C67", "title": "A promise made from a JavaScript routine settles once with what the routine passed", "statement": "The routine sees its captured arguments under the names given, in order; what it passes to resolve or reject is what the pipeline continues with; calling either again has no effect and the callbacks are released.", "quantifier": "every list of captures and every sequence of calls of the routine", "why_tests_cant": "All lists of captures; the second call comes at any later time.", "anchors": ["include/nbdl/js.hpp: NBDL_JS_PROMISE", "include/nbdl/detail/js_val.hpp"]}
{"id": "C68", "title": "Events reach exactly the listeners that are there", "statement": "A DOM event calls each listener that is registered for it then, in order of registration, with that event; the handler of a destroyed listener is never called; handlers use only what is alive, whatever their messages cause.", "quantifier": "every program of listening, dropping and firing, with handlers that do the same", "why_tests_cant": "Handlers that change the listeners during the dispatch.", "anchors": ["include/nbdl/webui/detail/dom_event_listener.hpp", "include/nbdl/webui/detail/event_receiver.hpp"]}
{"id": "C69", "title": "The store shows the route last navigated to", "statement": "After any sequence of navigations, back and forward, the navigation store has the route of the history entry that is shown, and the address of each entry is that of its route.", "quantifier": "every route map, prefix, starting address and sequence of actions", "why_tests_cant": "All sequences and all route values; the browser changes addresses on the way.", "anchors": ["include/nbdl/webui/nav_route.hpp", "include/nbdl/webui/route_map.hpp", "include/nbdl/webui/set_route.hpp"]}
{"id": "C70", "title": "Functions of the specification language and the C++ written for them do the same", "statement": "For every function that the verifier accepts, the translation writes a C++ function that, called with the same objects, calls the same functions with the same arguments in the same order, takes the same branches and overloads and propagates the same exceptions as the operations of the function.", "quantifier": "every function, every meaning of the names it uses, all arguments and states", "why_tests_cant": "All programs of a language and all meanings of the names they use cannot be run.", "anchors": ["tool/heavy_plugins/lib/Nbdl/NbdlTranslateCpp.cpp", "tool/heavy_plugins/include/nbdl_spec/Nbdl.td"]}
{"id": "C71", "title": "All text of a translation reaches the lexer, at the location of the operation it is for", "statement": "Everything written for an operation is given to the lexer once and in order, and each piece carries the source location of the innermost operation around it.", "quantifier": "every nesting of operations and pieces of text", "why_tests_cant": "Every shape of nesting; tests look at few positions.", "anchors": ["tool/heavy_plugins/lib/Nbdl/NbdlTranslateCpp.cpp"]}
{"id": "C72", "title": "The class written for a store definition", "statement": "For every definition the class has one member per composed store, with the name of its key, initialised from the given arguments in order, in which every argument is forwarded at its last use only, so that no argument is used after it was moved from.", "quantifier": "every store definition and every order in which C++ may evaluate arguments", "why_tests_cant": "All definitions and all evaluation orders; a compiler uses one.", "anchors": ["tool/heavy_plugins/lib/Nbdl/NbdlTranslateCpp.cpp", "include/nbdl/spec.sld"]}
{"id": "C73", "title": "The forms of a match-params-fn are run one after another", "statement": "For every body whose variables are in scope, the operations built for it pass the verifier and do what the forms say: arguments, keys and callees are evaluated from left to right, each form runs after the one before, a match runs the first clause for the type, and the C++ written for the operations does the same.", "quantifier": "every body, every meaning of names, all stores, functions and states", "why_tests_cant": "All nestings of forms, paths and clauses, and all meanings of names, cannot be run.", "anchors": ["include/nbdl/spec.sld", "tool/heavy_plugins/lib/Nbdl/Nbdl.cpp"]}
{"id": "C74", "title": "C++ values survive the way through JavaScript values", "statement": "A value that is bound to a JavaScript value and read from it again is the same, whatever the object held; the JavaScript value is the one that the representation prescribes and everything that stands for a value is read as it; reading any JavaScript value throws or yields a value of the type.", "quantifier": "every type, value, JavaScript value and object read into", "why_tests_cant": "All types and values; malformed values that real peers do not send.", "anchors": ["include/nbdl/binder/js.hpp"]}
{"id": "C75", "title": "Browsers and servers understand each other's documents", "statement": "A document written by a program with the JSON binder is read in a browser with the JavaScript binder as the same value, and the other way round.", "quantifier": "every type and value", "why_tests_cant": "Two independent implementations of one format, over all types and values.", "anchors": ["include/nbdl/binder/js.hpp", "include/nbdl/binder/jsoncpp.hpp"]}
{"id": "C76", "title": "A SELECT by key finds what an INSERT stored", "statement": "After an entity with entities below it was inserted, the SELECT statement that is generated for its type and bound to the key that the insert returned finds exactly one row, whose columns are the values of the entity and of all entities below, whatever else was inserted before and after.", "quantifier": "every entity, type, database contents and order of evaluation", "why_tests_cant": "The text of the joins has to agree with the columns that the inserts wrote, for every shape of entity.", "anchors": ["include/nbdl/sql_db/insert.hpp", "include/nbdl/sql_db/select.hpp", "include/nbdl/sql_db/statement/select.hpp", "include/nbdl/sql_db/statement/detail/table_alias_list.hpp"]}
{"id": "C77", "title": "An UPDATE by key replaces what an INSERT stored", "statement": "After an entity of values was inserted, the UPDATE statement that is generated for another entity of the type and bound to the key that the insert returned leaves the database as if that entity had been inserted instead; a call that does not specify the key by its name does not compile.", "quantifier": "every entity, type and database contents", "why_tests_cant": "The text of the statement has to agree with the columns that the insert wrote, for every type.", "anchors": ["include/nbdl/sql_db/insert.hpp", "include/nbdl/sql_db/update.hpp", "include/nbdl/sql_db/statement/update.hpp"]}
{"id": "C78", "title": "What happens to a WebSocket in the browser is told to the promises that wait for it", "statement": "The promise of a connection resolves when the socket opens and fails when it is closed or errors before; the n-th read that is started after that resolves with a message of the socket or fails when the socket ends; each promise is told exactly once, messages are told in the order of the socket and none is left out, and no callback is called after the state is destroyed.", "quantifier": "every order of events of the socket, of reads and of the destruction of the state", "why_tests_cant": "The orders in which events and reads may interleave are unbounded.", "anchors": ["include/nbdl/app/client_connection_js.hpp"]}
{"id": "C79", "title": "The endpoint in the browser hands over the messages of its socket", "statement": "The handlers of an endpoint in the browser are called for the events of the socket in order, with the payloads of the messages, and what is sent reaches the socket in order as it was.", "quantifier": "every payload, every sequence of events and sends", "why_tests_cant": "Payloads of any length and any sequence of events.", "anchors": ["include/nbdl/websocket_api/detail/endpoint_impl.hpp", "include/nbdl/websocket_api/detail/event_receiver.hpp", "include/nbdl/websocket_api/detail/convert_payload.hpp"]}
{"id": "C80", "title": "Every client of the server in JavaScript gets every message", "statement": "Each client gets exactly the messages that are sent downstream while it is connected, in order and each once, and the context is given the messages of the clients in order; whatever one client sends, the server keeps serving the others.", "quantifier": "every number of clients, sequence of connections, texts and messages", "why_tests_cant": "The state is the whole history of connections; clients are free to send any text.", "anchors": ["include/nbdl/app/server_js.hpp", "include/nbdl/app/serializer_js.hpp"]}
{"id": "C81", "title": "Each client that connects is answered for its own request", "statement": "Connections are answered in the order in which they arrived; one that is opened is opened with the request that its own client sent, and a client that sent a request is answered whatever other clients send or fail to send.", "quantifier": "every number of clients, every division of their bytes, every order of arrivals and reads", "why_tests_cant": "Clients may send any bytes, in any pieces, and stop anywhere.", "anchors": ["include/nbdl/ext/beast_ws.hpp", "include/nbdl/app/server.hpp"]}
{"id": "C82", "title": "Parameters of the user interface stand for what is at their paths", "statement": "A function that is matched with parameters is called exactly once, with the values that its parameters stand for, in order, when each of them leads to a value, and not at all otherwise; keys that are given by a location are those at that location in the store; get, match_when and match give paths that lead where they say.", "quantifier": "every nesting of paths, keys, applications and alternatives, every store", "why_tests_cant": "Specifications are types nested to any depth, and the stores they are matched with vary.", "anchors": ["include/nbdl/ui_spec.hpp", "include/nbdl/ui_helper.hpp", "include/nbdl/ui_helper/match_params_spec.hpp", "include/nbdl/ui_helper/match_path_spec.hpp", "include/nbdl/ui_helper/match_branch.hpp"]}
{"id": "C83", "title": "Two connected endpoints give their applications what the other one sent", "statement": "When a client endpoint and a server endpoint are connected, each application is given in order and unchanged a prefix of what the other one sent; the server is told the client's token; when nothing fails and nobody stops or closes, only finitely many things happen by themselves and after them everything that was sent was given, in both directions.", "quantifier": "every interleaving of calls, arrivals of bytes, completions and failures, every division of the streams, every number and length of messages", "why_tests_cant": "The interleavings of two endpoints and a stream in each direction are unboundedly many; deadlocks need particular ones.", "anchors": ["include/nbdl/websocket/server_endpoint.hpp", "include/nbdl/websocket/client_endpoint.hpp", "include/nbdl/websocket/detail/endpoint_impl.hpp"]}
{"id": "C84", "title": "Contexts connected to a server's context show what it shows", "statement": "When client contexts are connected to a context with nbdl::app::server, each client is pushed, each once and in order, the messages the server's context gave to its consumers since the connection was registered; the requests of each client reach the server's context each once and in order; when nothing is under way every connected client shows what the server shows and every request was handled; no text written to a connection can harm the server.", "quantifier": "every number of clients, every interleaving of requests, deliveries, connects and failures, every producer behind the server", "why_tests_cant": "The interleavings of several contexts and connections are unboundedly many; two contexts in a test with one connection see neither lateness nor loss.", "anchors": ["include/nbdl/app/server.hpp", "include/nbdl/app/client.hpp", "include/nbdl/app/server_connection.hpp", "include/nbdl/app/context_endpoint.hpp", "include/nbdl/context.hpp", "include/nbdl/echo_producer.hpp"]}
{"id": "C85", "title": "The signature of an interface stands for how its types are bound", "statement": "nbdl::api_signature gives two interfaces the same signature when their formats are the same and their types are bound alike (a vector and a list of the same elements, a pair and a tuple of the same members, byte buffers), and different signatures otherwise, as far as SHA-1 tells the texts apart; every type that can be bound has one.", "quantifier": "all formats and all types built from fundamental types, constants, strings, sequences, maps, variants, containers and buffers", "why_tests_cant": "A test compares a few digests; that no two of infinitely many types are mistaken for each other needs the text of a type to be unambiguous for all types.", "anchors": ["include/nbdl/api_signature.hpp", "include/nbdl/detail/bind_tag_of.hpp", "include/nbdl/detail/beast_sha1.hpp"]}
{"id": "C86", "title": "Programs whose interfaces have the same signature understand each other", "statement": "If two programs have types with the same signature, what one writes for a value with the JSON binder is read by the other (with the JSON binder or, in a browser, with the JavaScript binder) as the same value.", "quantifier": "all pairs of types with the same signature and all their values that the binders carry (C43, C75)", "why_tests_cant": "Which pairs of types share a signature cannot be enumerated; that they agree on every value is a statement about all shapes at once.", "anchors": ["include/nbdl/api_signature.hpp", "include/nbdl/detail/bind_tag_of.hpp", "include/nbdl/binder/jsoncpp.hpp", "include/nbdl/binder/js.hpp"]}
{"id": "C87", "title": "A value kept for a path type follows the updates that consumers are told", "statement": "In a context a path type may keep one value (nbdl::context_store) or nothing (nbdl::null_store). After any sequence of pushes and matches the value is what the downstream updates told to any one consumer make of the first value, in their order; it has an update already when a consumer is told of it; state consumers are notified of exactly the paths of these updates; reads of a resolved value are answered with it and never reach a producer. Where nothing is kept, messages go to producers and consumers unchanged and nobody is notified.", "quantifier": "all contexts (actors, producers, listeners), all actions of payloads on values, all sequences of calls, all consumers and path types", "why_tests_cant": "Tests push one update into one store outside of a context; the order of several messages, with producers that answer in between, is a property of all executions.", "anchors": ["include/nbdl/context_store.hpp", "include/nbdl/apply_action.hpp", "include/nbdl/null_store.hpp", "include/nbdl/context.hpp"]}
{"id": "C88", "title": "A value kept for a path type shows what consumers were told last", "statement": "After messages have been pushed, matching a path of a context with nbdl::context_store gives what the last message told about that path leaves there: the payload of a create, read or update, nothing after a delete.", "quantifier": "all sequences of messages, all paths", "why_tests_cant": "A test with one key and only updates sees no difference; it takes several keys or another kind of message.", "anchors": ["include/nbdl/context_store.hpp", "include/nbdl/apply_action.hpp"]}
{"id": "C89", "title": "Messages are handed over until the one that ends the exchange", "statement": "receive_messages_until calls its action for every message of a variant type that the other side writes with write_raw_message, once and in order, up to and including the first of a given type; then it closes the socket and resolves with it. It settles once; if a text cannot be read, the action throws or the connection ends, it rejects and calls the action no more.", "quantifier": "all message types and messages, all texts of other programs, all ways in which the bytes are cut up and delayed, all moments at which the connection ends", "why_tests_cant": "The example program sends five fixed messages through one process; how bytes are cut up, what foreign programs send and when a connection ends is not under the control of a test.", "anchors": ["example/pipes/receive_messages_until.hpp", "example/pipes/read_raw_message.hpp", "example/pipes/write_raw_message.hpp", "example/pipes/main.cpp", "include/nbdl/try.hpp", "include/nbdl/binder/jsoncpp.hpp"]}
{"id": "C90", "title": "Objects which a pipeline holds live as long as it", "statement": "An object that a function given to hold_lazy makes lives in the pipeline: it is destroyed once, with the pipeline and not before, after the objects of later stages (which may refer to it), and none is left when the pipeline is gone. No memory of the pipeline or of a held object is used after its end, and no held object is destroyed while one of its member functions is running.", "quantifier": "all pipelines with any number of stages that hold objects, all runners, all orders in which callbacks run, everything that functions and objects do with their resolvers", "why_tests_cant": "The only test has one held object in one pipeline which is run once; an object that is never destroyed or a write to freed memory does not fail it.", "anchors": ["include/nbdl/hold_lazy.hpp", "include/nbdl/fwd/detail/promise_join.hpp", "include/nbdl/detail/promise_join.hpp", "include/nbdl/run_async.hpp", "include/nbdl/run_async_loop.hpp", "include/nbdl/run_sync.hpp", "test/nbdl/core/hold_lazy.cpp"]}
{"id": "C91", "title": "A pipeline can be run again", "statement": "Running a pipeline that the caller keeps (run_sync takes an lvalue) leaves it as it was: each further run calls the same functions in the same order.", "quantifier": "all pipelines, nested or not, all numbers of runs", "why_tests_cant": "Tests run each pipeline once; what a function loses when it is moved from depends on what it has captured.", "anchors": ["include/nbdl/run_sync.hpp", "include/nbdl/hold_lazy.hpp", "include/nbdl/detail/promise_join.hpp", "include/nbdl/detail/wrap_promise.hpp"]}
{"id": "C92", "title": "Generators of identifiers", "statement": "A generator made by make_uid_generator gives 16-byte identifiers one after the other which nobody can compute from those already seen; generators made apart give different ones.", "quantifier": "all seeds that std::random_device can give, all numbers of identifiers, all positions in the sequence", "why_tests_cant": "A test looks at a few identifiers of one generator; that 156 of them determine all others, and how many generators there can be, cannot be seen from them.", "anchors": ["include/nbdl/uid.hpp"]}
{"id": "C93", "title": "Identifiers made in the browser", "statement": "In the browser each of the 16 bytes of an identifier is 256 times a random number from [0,1), rounded down; every identifier can come out and none needs a conversion that is undefined.", "quantifier": "all 16 random numbers that Math.random() can give", "why_tests_cant": "One in 2^25 random numbers is rounded up to 1 when it becomes a float; tests will not meet it.", "anchors": ["include/nbdl/uid.hpp"]}
{"id": "C94", "title": "Replicas agree", "statement": "Clients which hold an entity as a local_version show their own changes at once; when the root has answered everything with confirmed changes and all has arrived, every client shows what the root has, and a client without own changes under way shows a state that the root had.", "quantifier": "any number of clients, all changes, identifiers and interleavings of changes, deliveries and answers over links that keep the order", "why_tests_cant": "The test has one store and answers in order; the result depends on how changes of several clients and their confirmations interleave.", "anchors": ["include/nbdl/local_version.hpp", "include/nbdl/delta.hpp", "include/nbdl/apply_delta.hpp", "test/nbdl/core/local_version.cpp"]}
{"id": "C95", "title": "Own changes stay visible", "statement": "Once a client has applied a change of its own it shows it until a later change replaces it: changes are not reverted in any intermediate state while they are confirmed.", "quantifier": "any number of clients, all changes and interleavings", "why_tests_cant": "The test has a single writer with distinct identifiers; reverts need a second writer, or an identifier used twice, and the right interleaving.", "anchors": ["include/nbdl/local_version.hpp", "test/nbdl/core/local_version.cpp"]}
{"id": "C96", "title": "Actors are made from their own arguments", "statement": "make_context gives each actor the argument that has its name (or its type if it has no name), or none; the actors are constructed in the order of the definition, then the stores; then all producers and after them all consumers are initialised once, and everything is destroyed in the reverse order. Every argument is used and every declared actor exists.", "quantifier": "all context definitions, arguments, messages, and actors whose functions do anything with their handle", "why_tests_cant": "Tests make contexts with few actors and right names; wrong names and a Consumer beside Consumers are accepted silently.", "anchors": ["include/nbdl/make_context.hpp", "include/nbdl/context.hpp", "include/nbdl/def/builder/context.hpp", "include/nbdl/def/builder/enumerate_producers.hpp", "include/nbdl/def/builder/enumerate_consumers.hpp"]}
{"id": "C97", "title": "Stores exist whenever actors use them", "statement": "Whatever its actors do with their handles of the context, from their constructors to their destructors, a context never uses stores or actors which are not constructed yet or are destroyed.", "quantifier": "all contexts, actors and messages", "why_tests_cant": "Use of a member before its construction often works by chance, and needs an actor that uses its handle at that time.", "anchors": ["include/nbdl/context.hpp", "include/nbdl/actor_type.hpp", "include/nbdl/webui/renderer.hpp"]}
{"id": "C98", "title": "No message before initialisation", "statement": "No actor gets a message or is notified before producer_init or consumer_init was called for it, and for none before all actors are constructed.", "quantifier": "all contexts, actors and messages", "why_tests_cant": "The order only matters for actors that apply messages while they are initialised.", "anchors": ["include/nbdl/context.hpp", "include/nbdl/producer_init.hpp", "include/nbdl/consumer_init.hpp", "include/nbdl/webui/nav_route.hpp"]}
{"id": "C99", "title": "Consumers agree with the stores", "statement": "Every consumer gets every downstream message exactly once and in the order in which the stores had them; so a consumer that keeps what it is told agrees with the stores whenever nothing is under way.", "quantifier": "all contexts and messages, with actors that apply messages inside of any call", "why_tests_cant": "Nested messages need actors that apply messages in reaction to others; the tests' consumers only record.", "anchors": ["include/nbdl/context.hpp", "include/nbdl/map_store.hpp", "include/nbdl/apply_message.hpp"]}
{"id": "C100", "title": "Messages survive their JSON text", "statement": "Every message of a type of the API, written by nbdl::app's serializer and read by its deserializer, arrives as itself: same type, path, identifier and payload.", "quantifier": "all APIs, messages, paths (with and without keys, and create paths) and payloads", "why_tests_cant": "Messages with empty members, paths without keys and values at the limits of JSON are not in the tests.", "anchors": ["include/nbdl/message.hpp", "include/nbdl/fwd/message.hpp", "include/nbdl/bind_sequence.hpp", "include/nbdl/detail/filter_empties.hpp", "include/nbdl/app/serializer.hpp", "include/nbdl/binder/jsoncpp.hpp"]}
{"id": "C101", "title": "Contexts connected by JSON texts agree", "statement": "With nbdl::app's JSON serializers between a server's context and its clients' contexts, every client is told what the server's context was told, in order and once; requests reach the server in order and once; contexts at rest agree; and as long as only nbdl::app writes to the connections nothing is undefined and no connection ends but by a failure.", "quantifier": "any number of clients, all messages of the API and all interleavings, failures and injected texts", "why_tests_cant": "Needs several processes, and messages that JSON does not carry.", "anchors": ["include/nbdl/app/server.hpp", "include/nbdl/app/client.hpp", "include/nbdl/app/context_endpoint.hpp", "include/nbdl/app/serializer.hpp", "include/nbdl/message.hpp", "include/nbdl/context.hpp", "include/nbdl/binder/jsoncpp.hpp"]}
{"id": "C102", "title": "View trees become nested actions", "statement": "flatten_spec makes of a tree of UIKit views (each a type, a function that initialises it, and the views in it) a list of actions in which every view is begun once, in order, inside of its parent, and ended before its parent; two trees never give the same list.", "quantifier": "all trees of views and matches", "why_tests_cant": "Trees of any depth and width.", "anchors": ["include/nbdl/ui_view/detail/flatten_spec.hpp", "include/nbdl/ui_view/spec.hpp"]}
{"id": "C103", "title": "The messages of a definition between its programs", "statement": "Between a client and a server built from one definition, the messages that can be sent are exactly the requests for the declared actions of its access points and the answers to them, every one whose parts JSON carries arrives as itself, and nothing else is ever read from any text; access points added at the end leave old and new programs able to talk.", "quantifier": "all definitions, messages and texts", "why_tests_cant": "Every definition has its own pair of variants; texts are unbounded.", "anchors": ["include/nbdl/def/builder/entity_messages.hpp", "include/nbdl/def/builder/message_api.hpp", "include/nbdl/detail/make_create_path_type.hpp", "include/nbdl/app/serializer.hpp", "include/nbdl/message.hpp"]}
{"id": "C104", "title": "Entities have the members they are declared with", "statement": "The members of an entity are those named in NBDL_ENTITY, in that order: they can be read by name and by nothing else, are bound in order with their names, and assigning to them changes these and nothing else of the object; a declaration of members of the class always compiles.", "quantifier": "all classes, declarations, programs of several entities, objects and values", "why_tests_cant": "Macros of 63 versions each, and combinations of declarations of any number.", "anchors": ["include/nbdl/macros/NBDL_ENTITY.hpp", "include/nbdl/macros/NBDL_MEMBERS.hpp", "include/nbdl/macros/NBDL_MEMBER_NAMES.hpp", "include/nbdl/macros/VFUNC.hpp", "include/nbdl/fwd/entity_members.hpp", "include/nbdl/entity_members.hpp", "include/nbdl/bind_sequence.hpp", "include/nbdl/bind_map.hpp"]}
{"id": "C105", "title": "Metastructs give back what was put in", "statement": "The names of a metastruct give the values it was made with; made from named values it compiles exactly if each name is given once, and the order in which they are given does not matter.", "quantifier": "all metastructs, values and orders of them", "why_tests_cant": "There are n! orders of the names.", "anchors": ["include/mpdef/metastruct.hpp", "include/mpdef/MPDEF_METASTRUCT.hpp", "include/mpdef/MPDEF_VFUNC.hpp", "include/mpdef/details/_MPDEF_METASTRUCT_KEYS.hpp", "include/mpdef/map.hpp"]}
{"id": "C106", "title": "Composed collectors do not disturb each other", "statement": "Folding with compose_collectors gives for each collector what folding with it alone gives; with append_if each list gets exactly the elements its predicate holds of, in order.", "quantifier": "all collectors, predicates, lists and states", "why_tests_cant": "Lists and numbers of collectors of any size.", "anchors": ["include/mpdef/compose_collectors.hpp", "include/mpdef/append_if.hpp"]}
{"id": "C107", "title": "Printed messages can be told apart", "statement": "Two values of the same type, built of strings, numbers, tuples, maps, sets, pairs and optionals in any way, are printed by print_hana in the same way only if they are the same.", "quantifier": "all types and values, nested to any depth", "why_tests_cant": "Infinitely many types, nested to any depth.", "anchors": ["example/pipes/hana_printable.hpp", "example/pipes/main.cpp"]}
{"id": "C108", "title": "Pages show what the contexts hold", "statement": "The page kept by a webui renderer as an actor of a context shows its specification for what is in the context's stores after any messages and matches; with nbdl::app::client, once nothing is under way, for what is in the stores of the server's context.", "quantifier": "all specifications, documents, messages, numbers of clients, interleavings and failures of other connections", "why_tests_cant": "All interleavings of any number of clients, and all specifications.", "anchors": ["include/nbdl/webui/renderer.hpp", "include/nbdl/context.hpp", "include/nbdl/app/client.hpp", "include/nbdl/app/server.hpp", "include/nbdl/map_store.hpp"]}
{"id": "C109", "title": "Contexts in browsers follow the server", "statement": "Among the clients of an nbdl::app server, those that run in a browser, with the serializer of binder/js.hpp and client_connection_js, are told exactly the downstream messages without empty containers, in the order told, text that is not ASCII with each UTF-16 code unit cut to a byte; the other clients are told all messages; once nothing is under way the stores of a client are those of the server if all messages were such and of ASCII text; which messages the server understands, and which bring it to undefined behaviour, is decided by the values in them.", "quantifier": "all messages, numbers of browsers, interleavings, disconnections and failures", "why_tests_cant": "All interleavings of any number of browsers, and all messages.", "anchors": ["include/nbdl/app/serializer_js.hpp", "include/nbdl/app/client_connection_js.hpp", "include/nbdl/app/serializer.hpp", "include/nbdl/app/server.hpp", "include/nbdl/app/client.hpp", "include/nbdl/binder/js.hpp", "include/nbdl/binder/jsoncpp.hpp"]}
{"id": "C110", "title": "The example program prints what it sends and ends", "statement": "The program example/pipes, a server that accepts one connection and prints messages until the one of type terminate, and a client that connects with a bounded number of attempts and sends messages: only finitely much happens; what is printed are at every moment the first messages sent, in order, none behind the first terminate; without failures of the system and with no more refused attempts than allowed, every message is sent and printed and both sides end.", "quantifier": "all message types and values that JSON carries, all interleavings of both sides, sizes of the pieces the sockets pass on, refusals and failures", "why_tests_cant": "All interleavings of the two pipelines, all ways the bytes are cut, failures at any point.", "anchors": ["example/pipes/main.cpp", "example/pipes/accept.hpp", "example/pipes/connect.hpp", "example/pipes/receive_messages_until.hpp", "example/pipes/write_raw_message.hpp", "include/nbdl/run_async.hpp", "include/nbdl/pipe.hpp"]}
{"id": "C111", "title": "A value held in a pipeline is one object that every pass sees", "statement": "nbdl::hold(value) makes a stage that ignores what it is given and gives the stages behind it a reference to its value. Every function that is given the reference finds what the last function that was given it left there, in this pass or an earlier pass of a loop, or the value of the beginning; the stage directly behind is given exactly that reference. The value can be used as long as every stage calls its resolver at most once, and under run_sync as long as every stage is done when it returns; run_async frees it when no call is left, run_async_loop only on termination.", "quantifier": "all pipelines of held values, functions, taps, promises and handlers of rejections, all user code, all three ways to run a pipeline, all orders of callbacks", "why_tests_cant": "there are no tests for hold; the value persists across arbitrarily many passes and the hazards need particular stages", "anchors": ["include/nbdl/hold.hpp:19-37", "include/nbdl/tap.hpp:16-27", "include/nbdl/run_async.hpp:22-94", "include/nbdl/run_async_loop.hpp:22-60", "include/nbdl/run_sync.hpp:20-60"]}
{"id": "C112", "title": "A client connects once, to its address, and reads messages as they were sent", "statement": "A client opened with an address looks up the host and port of the address, connects to the first address found and asks for a WebSocket. It is told once how that ended: that it is connected exactly when all three steps succeeded, otherwise the first error, with nothing done behind it. Each read gives exactly the message that arrived, and nothing of what arrived before, also behind reads that failed.", "quantifier": "for all addresses, all results of the network in every step, and all sequences of messages and failed reads", "why_tests_cant": "The tests connect to a server on the same machine that always accepts; failures in the middle and data left by a failed read do not occur.", "anchors": ["include/nbdl/ext/beast_ws.hpp:99-162", "include/nbdl/app/client_connection.hpp:26-96"]}
