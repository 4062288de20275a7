# Formal model of nbdl in Rocq: design

Source under study: `/repo` (ricejasonf/nbdl, pinned).  It is read as text only; nothing is built or run.

## 1. Method

* `rocq/theories/*Model.v`  -- total, computable Gallina functions, one per C++ function, each with a
  comment `(* /repo/<file>:<lines> *)` and a note wherever the model simplifies.  No proofs of claims.
* `rocq/theories/*Spec.v` (or a `Spec` section at the top of the proof file) -- small, independent
  specification, written without the model's helpers.
* `rocq/theories/*Proofs.v` -- lemmas.
* `rocq/theories/*Props.v`  -- only final theorems (`Theorem Cnn_... . Proof. exact lemma. Qed.`), each
  followed by `Print Assumptions`, next to `Example`s that instantiate the hypotheses on concrete data.
* Names: `Cnn_...` full property; `Cnn_..._partial` the property holds only under an extra restriction
  (the full statement is kept as a comment or as a `Definition`); `Cnn_..._refuted` the full statement is false of the
  code, with a concrete witness.

C++ details that are modelled: fixed-width integers (as `Z`/`N` with explicit reduction), out-of-bounds access and
other undefined behaviour (as an explicit outcome, never a default value), exceptions (explicit outcome),
asynchronous completions (as separately scheduled events, so that every interleaving is an event list).

C++ details that are not modelled: template instantiation and overload resolution themselves (the model is of the
instantiated program, with type lists and type-level maps represented as ordinary lists), object lifetime except where a
property mentions it, memory allocation failure, and the third-party libraries (Boost.Asio, Boost.Hana, jsoncpp, MySQL);
their contracts as used by nbdl are modelled and listed in section 4.

"Proved" in MANIFEST.json means the statement of `properties.jsonl` holds of the model as it stands; "partial" means that either
it is false of the code (then there is a `_refuted` theorem with a witness, and what does hold is proved next to it, where
possible as an exact characterisation) or it is proved under the extra condition given in the note.

## 2. Plan per property

| id | what is modelled | how it is proved |
|----|------------------|------------------|
| C01 | `base64_encode`, `base64_decode` over bytes, int arithmetic of lengths | induction on 3-byte groups; bit arithmetic by `lia` with div/mod |
| C02 | same encoder | independent specification by big-endian number in base 64; induction on groups |
| C03 | `validate` + two-argument `operator()` | declarative `WellFormed`; expected to be refuted (empty target short-circuit) + partial iff |
| C04 | `prepare_output_buffer`, both overloads | case analysis |
| C05 | `encoded_length_buffer`, `get_payload_length` with C++ int promotion | arithmetic; 64-bit form is undefined behaviour in the reader: refuted + partial |
| C06 | `send_message_impl` as a fragmenting function | declarative frame sequence; refuted for multiples of 125, partial otherwise |
| C07 | sender bytes fed to reader | induction on messages and fragments with a stream invariant |
| C08 | `read_payload` incl. in-place unmasking | involution of xor for one frame; refuted for masked fragments |
| C09 | `opcode_dispatch` | commuting of control frames with the payload state; refuted for non-empty control payloads |
| C10, C11 | reader loop as a function from byte list to event list | induction on fuel = length of the input, fuel shown sufficient |
| C12-C19 | endpoint as a labelled transition system with explicit in-flight write | invariant over all event lists |
| C20 | `get_auth_token` with explicit out-of-bounds outcome | specification on cookie lists; induction |
| C21 | `get_session_cookie` | same |
| C22, C23 | `send_handshake_request`, `parse_header`, `read_headers` | string lemmas; fold over headers |
| C24 | `beast_sha1` init/update/finish | buffering invariant: state = fold of compression over whole blocks, independent FIPS padding |
| C25 | `generate_accept_token`, response template | computation on the fixed key plus C01/C24 composition |
| C26 | `hash_combine`, hash binder, variant equality | induction on value trees |
| C27-C29 | `make_delta`, `apply_delta`, delta merge on member lists | induction on members |
| C30, C31 | `local_version` message handling | simulation between (local, confirmed, pending) and history |
| C32 | `map_store` | refinement to a table over histories |
| C33-C35 | `context::push_message`, `match_impl`, echo producer | step semantics with an effect trace; invariants over histories |
| C36 | `message` records and accessors | per-kind case analysis against a field specification |
| C37-C39 | promise pipelines as continuation-passing trees with step-indexed outcomes | induction over pipelines |
| C40 | `match_if` | induction |
| C41 | `match_path`, `get_path` | induction on paths |
| C42 | `variant` | case analysis over type lists |
| C43, C44 | jsoncpp reader/writer over shapes | structural induction over shapes; refuted for empty containers |
| C45 | `string_concat`, `string_concat_view` | induction on concatenation trees; equality refuted |
| C46 | `store_compose` | induction on chain |
| C47, C48 | `route_map` with size_t arithmetic | string lemmas, decimal printing/parsing |
| C49 | tiles game with a 64-cell board | arithmetic on indices, permutation; refuted at bottom-left cell |
| C50, C51 | SQL insert/select/update generators | induction on entity trees; criteria refuted |
| C52, C53, C59 | `find_in_tree`, `collect_settings`, `group_by`, access point enumeration | tree induction |
| C54 | `params_view` append/concat | index arithmetic, induction |
| C55 | `split_address` | string lemmas; protocol refuted |
| C56 | raw framing | arithmetic and induction on message lists |
| C57 | deserialiser | counting continuations; refuted |
| C58 | `flatten_spec`, the actions of `dom_manips`, the document as a heap of nodes | induction on specifications with a frame: only the container changes and new nodes are added |
| C60 | connect loop | induction on outcomes |
| C61 | endpoint: lifetime of the loop object | invariant; refuted, the only way to undefined behaviour is characterised |
| C62 | `table_alias_list`: aliases, columns, joins of a select | induction on entity trees |
| C63 | entity messages of a definition, `message_api` | induction on action lists |
| C64 | `serialize`, `deserialize` on top of the JSON binder | composition with C43 |
| C65 | `renderer::update`, `update_branch`, `for_each`, `destroy` | ownership invariant: each part of the renderer owns its nodes, preserved by every update |
| C66, C67 | the table of JavaScript values keyed by addresses; the promise macros | refinement to variables; the call sequence of the routine |
| C68 | listeners of the document, dispatch of events, handlers as programs | labelled transition system with a stack of dispatches; invariants |
| C69 | `nav_route` with the session history and address resolution of the browser | refinement to a history of routes |
| C70 | `FuncWriter`: operations of a function to C++ text | semantics of both sides over an arbitrary meaning of names; the text is the spelling of a C++ program; simulation by induction on operations |
| C71 | the source locations of the writer | induction on nested writes |
| C72 | `StoreComposeWriter`, `DefineStoreWriter` | specification of the class; forwarding analysed over all evaluation orders |
| C73 | the forms of `match-params-fn` in continuation-passing style, `close-previous-scope` | direct semantics of forms; framing lemma (what is built does not depend on the block so far); Kripke-style induction over continuations; composed with C70 |
| C74, C75 | the JavaScript binder and, with C43 and C44, its agreement with the JSON binder | inductive relation `Doc` (which JavaScript values stand for a value); both binders against it; mutual induction |
| C76, C77 | the SELECT and UPDATE that belong to the inserts of C50 | texts as spellings of queries; queries run by nested loops over the rows of C50; induction on the tree of entities |
| C78 | the connection of a client in the browser | events of a socket, listeners and promises as transitions; invariant relating the run to a phase of the protocol |
| C79 | the endpoint in the browser | events of a socket; payloads as memory of a vector |
| C80 | the server in JavaScript | transitions with a list of connections; induction on the events; the binder of C74 |
| C81 | the accept loop of the native server | transitions with one shared buffer; an invariant over all that clients do; progress by construction of the server's steps |
| C82 | paths and parameters of the user interface | continuations refine a direct meaning; induction on specifications nested in lists |
| C83 | a client and a server endpoint with a stream between them | composition of the models of the endpoint, its reader and the handshake; invariant over all plays, decreasing measure, progress |
| C84 | a server context and any number of client contexts with connections between them | composition of the context model with queues of texts; one invariant over all runs for both directions and the tables; lexicographic measure |
| C85, C86 | `api_signature` over the types it is given, with SHA-1 (C24), JSON (C43) and the JavaScript binder (C75) | the text can be read back (induction over tags); relation `Alike` on types, without tags; counting for the refutation |
| C87, C88 | the context of C34 with stores that keep one value or nothing | a relation between what a store holds, what a consumer is told and what a state consumer is notified of, kept by every call |
| C89 | the connection of C56 with the JSON binder (C43, C44) on top, as the example program puts them together | every run is a run of the connection underneath; what was delivered determines the calls |
| C90, C91 | pipelines with stages that make objects, callbacks that belong to objects, construction in place | invariant: what the holders hold is what was made last at each stage; one token for pipelines that resolve once; joining of an lvalue by induction on nested tuples |
| C92, C93 | the engine mt19937 as a recurrence on words; rounding to a float | the tempering is linear over bits and inverted on a basis; the recurrence is run backwards; division with remainder |
| C94, C95 | transition system of clients, a root and links between them, over the local_version of C30 | each client follows a sequence of operations that the convergence of C30 applies to; per member invariant over what is on its way; a measure |
| C96-C99 | machine whose state is a list of things left to do, for calls that nest; actors are arbitrary programs | invariants over that list: what is still to come is the rest of a fixed sequence; pending messages are the difference of what was accepted and heard |
| C100, C101 | messages as values of the JSON binder; the net of C84 with these texts | composition of C43/C64; simulation by the net whose texts are the messages themselves, with hypotheses only on what was said |
| C102 | lists of actions of view trees | induction over trees; prefix-freeness |
| C103 | the message types of a definition as JSON texts | composition of C63 with C100 and C101; prefixes of variants |
| C104 | declarations of entities | the preprocessor as a function on lists of arguments; induction |
| C105 | metastructs | the same; lookups and permutations |
| C106 | composed collectors | induction over the list folded |
| C107 | what is printed of messages | induction over values, with what may come behind the text of one |
| C108 | pages of contexts | the stores noted last are those there are, as far as payloads go; then C65 and C84 |
| C109 | browsers as clients of a server | the net of C84 in which some clients have the serializer of a browser, some that of JsonCpp; a message a browser cannot read is skipped |
| C110 | the program example/pipes as a whole: two pipelines and the connection between them | every run is a run of C89 underneath, with what each side does next; a measure of what is left to do |
| C111 | values that a stage of a pipeline holds and gives on by reference | what is in a held value is the last entry of what functions left there; tasks carry references only to held values; at most one call in flight |
| C112 | a client connecting and reading | the completions allowed in each phase; an address behind a failed step is never asked for; the body is what arrived last, whatever the buffer held; what was written is what is read (composed with C100) |

## 3. Files

Each area has `XModel.v`, `XSpec.v`, `XProofs.v` and `XProps.v` (small areas have no separate Spec or Proofs).

| area | source | properties |
|------|--------|-----------|
| Base | bytes, `res` (a value or undefined behaviour) | |
| Base64 | `util/base64_encode.hpp`, `util/base64_decode.hpp` | C01-C04 |
| Ws | `websocket/detail/message_sender.hpp`, `message_reader.hpp` | C05-C11 |
| Endpoint | `websocket/detail/endpoint_impl.hpp`, `async_enqueue.hpp` | C12-C19, C61 |
| Handshake | `websocket/detail/get_auth_token.hpp`, `parse_handshake_request.hpp`, `expect_equal.hpp`, `send_handshake_request.hpp`, `parse_handshake_response.hpp`, `app/detail/cookie_parser.hpp` | C20-C23 |
| Sha | `detail/beast_sha1.hpp`, `websocket/detail/send_handshake_response.hpp` | C24, C25 |
| Hash | `binder/hash.hpp`, `detail/hash_combine.hpp`, comparison of variants and entities | C26 |
| Delta | `delta.hpp`, `make_delta.hpp`, `apply_delta.hpp`, `local_version.hpp` | C27-C31 |
| Store | `message.hpp`, `map_store.hpp`, `context.hpp`, `echo_producer.hpp` | C32-C36 |
| Promise | `promise.hpp`, `detail/promise_join.hpp`, `catch.hpp`, `tap.hpp`, `try.hpp`, `pipe.hpp`, `run_async.hpp`, `run_async_loop.hpp`, `run_sync.hpp` | C37-C40 |
| Match | `match.hpp`, `get.hpp`, `match_path.hpp`, `get_path.hpp`, `path_promise.hpp`, `store_compose.hpp`, `store_range.hpp`, `strong_alias.hpp`, `variant.hpp`, `variant_holder.hpp`, `detail/match_if.hpp` | C40-C42, C46 |
| Json | `binder/jsoncpp.hpp`, `bind_*.hpp` | C43, C44 |
| Concat | `detail/string_concat.hpp`, `string_concat_view.hpp`, `mpdef/string.hpp` | C45 |
| Route | `webui/route_map.hpp` | C47, C48 |
| Tiles | `example/tiles/game.hpp` | C49 |
| Sql | `sql_db/insert.hpp`, `statement/*.hpp`, `statement/detail/table_alias_list.hpp` | C50, C51, C62 |
| Def | `mpdef/*.hpp`, `def/builder/*.hpp` | C52, C53, C59, C63 |
| Params | `detail/params_view.hpp` | C54 |
| Frame | `example/pipes/read_raw_message.hpp`, `write_raw_message.hpp` | C56 |
| App | `app/client_connection.hpp`, `app/serializer.hpp`, `example/pipes/connect.hpp` | C55, C57, C60, C64 |
| Ui | `webui/renderer.hpp`, `webui/detail/flatten_spec.hpp`, `webui/detail/dom_manips.hpp`, `ui_helper*.hpp` | C58, C65 |
| Reg | `detail/js_val.hpp`, `js.hpp`, `app/server_js.hpp` (drop_connection) | C66, C67 |
| Ev | `webui/detail/dom_event_listener.hpp`, `webui/detail/event_receiver.hpp` | C68 |
| Nav | `webui/nav_route.hpp`, `webui/set_route.hpp` | C69 |
| Tr | `tool/heavy_plugins/lib/Nbdl/NbdlTranslateCpp.cpp` (FuncWriter), `Nbdl.td` | C70 |
| Loc | `NbdlTranslateCpp.cpp` (NbdlWriter) | C71 |
| Ds | `NbdlTranslateCpp.cpp` (stores), `spec.sld` (define-store, context) | C72 |
| Fe | `spec.sld` (match-params-fn, get, visit, match, match-if, noop), `Nbdl.cpp` (close-previous-scope) | C73 |
| Jsb | `binder/js.hpp` | C74, C75 |
| Sel | `sql_db/select.hpp`, `sql_db/update.hpp`, with the semantics of the statements of Sql | C76, C77 |
| Bcl | `app/client_connection_js.hpp` | C78 |
| Bws | `websocket_api/detail/endpoint_impl.hpp`, `event_receiver.hpp`, `convert_payload.hpp` | C79 |
| Srv | `app/server_js.hpp`, `app/serializer_js.hpp` with Jsb | C80 |
| Acc | `ext/beast_ws.hpp` (29-86), `app/server.hpp` (130-173); the HTTP parser of Beast is a parameter | C81 |
| Psp | `ui_spec.hpp`, `ui_helper.hpp` (parameters), `ui_helper/match_params_spec.hpp`, `match_path_spec.hpp`, `match_branch.hpp` with Match | C82 |
| Duo | `websocket/server_endpoint.hpp`, `websocket/client_endpoint.hpp` over Endpoint, Ws, Handshake, Sha | C83 |
| Net | `app/server.hpp`, `app/client.hpp`, `app/server_connection.hpp`, `app/context_endpoint.hpp` over Store | C84 |
| Sig | `api_signature.hpp`, `detail/bind_tag_of.hpp` over Sha and Json | C85, C86 |
| Cst | `context_store.hpp`, `apply_action.hpp`, `null_store.hpp` over Store | C87, C88 |
| Pip | `example/pipes/receive_messages_until.hpp`, `main.cpp` over Frame, Json and App | C89 |
| Hl | `hold_lazy.hpp` with the runners of promises; joining of lvalues | C90, C91 |
| Uid | `uid.hpp`: make_uid_generator in both versions, with `std::mt19937` | C92, C93 |
| Opt | several clients with `local_version.hpp` and a root that confirms (`message.hpp` to_downstream_confirmed); the root and the links are assumptions about the surroundings | C94, C95 |
| Life | `make_context.hpp`, `context.hpp` (constructors, destructor, init_actors, push_message with re-entrance), `def/builder/{context,enumerate_producers,enumerate_consumers}.hpp` (names), `{producer,consumer}_init.hpp` | C96-C99 |
| Wire | `message.hpp:742-770` (binding), `detail/filter_empties.hpp`, with JsonModel, AppModel and NetModel; keys, uids and entities are numbers that stand for values | C100, C101 |
| Vw | `ui_view/detail/flatten_spec.hpp` | C102 |
| Api | `def/builder/entity_messages.hpp`, `def/builder/message_api.hpp`, `detail/make_create_path_type.hpp` (as types with JSON) | C103 |
| Agr | the two models of `context.hpp`, in Store and in Life, agree | C34 |
| Mac | `macros/{VFUNC,NBDL_MEMBERS,NBDL_MEMBER_NAMES,NBDL_ENTITY}.hpp`, `entity_members.hpp`, `bind_sequence.hpp`, `bind_map.hpp` (entities); `mpdef/{MPDEF_VFUNC,MPDEF_METASTRUCT,metastruct,compose_collectors,append_if}.hpp` | C104-C106 |
| Prn | `example/pipes/hana_printable.hpp` | C107 |
| Pag | `webui/renderer.hpp` in `context.hpp`, over Store, Net and Ui | C108 |
| Brw | `app/serializer_js.hpp`, `app/client_connection_js.hpp` with the server of Net, over Jsb, Json and Wire | C109 |
| Exm | `example/pipes/main.cpp`, `accept.hpp`, `connect.hpp` with `run_async.hpp`, over Pip | C110 |
| Hv | `hold.hpp`, with `tap.hpp`, `promise.hpp`, `detail/wrap_promise.hpp`, `run_async.hpp`, `run_async_loop.hpp`, `run_sync.hpp`, `catch.hpp` | C111 |
| Bst | `ext/beast_ws.hpp` 99-173 (`connect`, `read_message`, `write_message`), `app/client_connection.hpp` 72-96; Asio and Beast are parameters: `async_resolve` gives an error or at least one address, `async_read` appends to the buffer, an `async_write` that succeeds carries its text as one message | C112 |

## 4. Trusted base

1. The kernel of Coq 8.16.1 (with its virtual machine, which `vm_compute` uses in examples, witnesses and byte-wise case sweeps).
2. `Print Assumptions` follows every theorem in the `*Props.v` files and prints "Closed under the global context" for all of
   them: no axiom is used, neither of our own nor of the standard library.  The seven constants
   `Coq.ssr.ssrunder.Under_rel.*` which a search over the loaded libraries lists are the parameters of a module type of the
   standard library that `lia` loads; no theorem depends on them.
3. That the model says what the code does.  Every definition cites the lines it models.  Each `*Model.v` starts with what it
   simplifies.
4. The contracts of what is outside of the model:
   * Asio: `async_write` writes all bytes or fails, `async_read` reads exactly the bytes asked for or fails, `read_until` gives a
     prefix ending in the delimiter or fails when the 256 bytes of the stream buffer are full; one operation of each kind is
     outstanding at a time; completion handlers run on one thread.
   * The C++ library: `std::unordered_map` with hash and equality that agree; `std::string`, `std::string_view`, `std::variant`
     as standardised; allocation does not fail.
   * Boost.Hana and mp11 compute on lists and maps as documented; `hana::unique` removes consecutive duplicates only.
   * JsonCpp 1.9: documents behave as documented (integral reals count as integral, `asInt` throws when out of range); parsing a
     printed document gives the document back.  The text layer itself is not modelled.
   * The DOM: `appendChild` and `replaceChild` of the DOM standard, including moving a node that is elsewhere and the exception
     when the old child is not one; setting `innerHTML`.
   * MySQL and SQL semantics are not modelled, only the statement texts, bound values and their order.  Identifiers are assumed to
     contain no double quotes.
   * User code given to promises uses its resolver at most once (C37_contracts_needed shows what happens otherwise).
   * full_duplex (not in the repository) keeps the order of messages and copies them (C84).
   * clang's `__PRETTY_FUNCTION__` (C85): as the project's own test digests need it; characters are escaped as in literals.

## 5. What is not modelled

* Template instantiation, overload resolution and concepts.  Where a program does not compile for some arguments, the model
  of the compile-time computation is `None` (Match, Sql, Def, Params).
* Object lifetimes, except: the endpoint's loop object (C61), the storage of promises (C37, C39), objects held by promises (C90), JavaScript values (C66),
  listeners (C68), the actors and stores of a context (C97).  In particular the views of
  `string_concat_view` and `params_view` are assumed to refer to living objects, and a valueless variant does not occur.
* Threads.  Everything asynchronous is a sequence of completions on one thread.
* Exceptions from allocation; sizes beyond what fits the address space.
* The actions of `ui_view` (`manips.hpp`, `renderer.hpp`): they do not compile (`[View alloc]` for `View = hana::type<UIView>`, `super_view` for
  `superview`, `make_renderer<RenderSpec>()` without its arguments; and the view that is made is in a variable that hides the member).
* These files have no model at all: `message_endpoint` of `ext/beast_ws.hpp` (it only names the two promises), `ext/asio_tcp.hpp` (does not compile as committed: it uses
  `self` and `stat` that are not declared), the macros not named in section 3, `spec.hpp`, and of the specification language
  the parts not named in section 3 (the module loader, the tool itself).  Further: `bind_variant` of `variant_holder.hpp` (does not compile: `std::variant_size` of a class that is no `std::variant`), `endpoint_handler.hpp`, `ext/std/tuple_like.hpp`, `scheme.hpp` and `scheme.scm` (deprecated),
  `webui/detail/node_renderer.hpp` (used nowhere), `detail/{make_array,common_type,default_constructible_lambda,normalize_path_type,concept_pred}.hpp`,
  `mpdef/{justify_type,show_if}.hpp`, the headers that only declare tags or forward to an implementation (`make_delta.hpp`,
  `make_store.hpp`, `apply_message.hpp` and the like), the metabench programs and the JavaScript of `tool/dom_test`.
* Of the pipes example: that the port cannot be listened to, that others connect to it, and what is printed besides the messages.  The four files
  `def/builder/entity_message_{uid,is_from_root,payload,private_payload}.hpp` are used nowhere.
* The endpoint's first handler of errors takes `boost::system::error_code` where a `std::error_code` is rejected; the model assumes a Boost that
  converts one to the other.
* The browser, except what C58, C65, C68, C69, C78, C79, C80 and C109 need of it: nodes and their attributes, listeners, the events of a WebSocket, the session history and the
  part of the URL standard that makes a path out of the string given to pushState (addresses in full of the own site left out).
* Observations on code outside of the properties: the handshake looks for a header named "cookies" where RFC 6455 clients send
  "Cookie"; bytes read past the end of the handshake are lost; `trim_double_quotes` is never called; the service name is empty
  when an address has no port; `bool`, `char` and `long` members do not compile when reading JSON; a sequence without members
  accepts any document; unknown keys of objects are ignored; `variant_holder`'s `bind_variant` does not compile; `downstream_read`
  looks for `is_confirmed` at index 3 of a tuple of three; the assertion of `close-previous-scope` that its block is that of the
  function does not hold for the second key of any path (Nbdl.cpp:178); `%build-match-params` uses the name before it checks that it is
  a symbol (Nbdl.cpp:65-76); the endpoint in the browser never sends the auth token that it is given and never uses its queue.

## 6. Findings

Statements that are false of the code, each with a machine-checked witness (`_refuted`):

* C01 (Base64 round trip): `C01_signed_char_refuted`, `C01_long_refuted`
  Holds for unsigned char buffers with 4*size < 2^31. For signed char buffers (std::string satisfies the concept) it is refuted. The bound on the size is exact: from 2^29 bytes on 4*n overflows an int.
* C03 (Base64 decoder accepts exactly well-formed text): `C03_accepts_exactly_wellformed_refuted`, `C03_canonical_text_only_refuted`, `C03_long_refuted`
  Full iff is false: inputs with at most one non-'=' character are accepted by the two-argument form. Exact acceptance condition proved. Text of 2^31/3 characters or more overflows an int (exact bound).
* C05 (WebSocket frame length header round trips): `C05_length_header_refuted`
  Sender side proved for every n < 2^63; the reader's computation is proved for n < 65536 and shown undefined (int shift by >= 32) for every larger length.
* C06 (Outgoing message is fragmented into a well-formed frame sequence): `C06_fragmentation_refuted`
  Fails exactly for positive multiples of the frame size: no frame carries FIN.
* C07 (Sender and reader deliver exactly the sent messages): `C07_sender_to_reader_refuted`
  Holds for every message list without lengths that are positive multiples of the frame size; such a message is merged with its successor. C07_exact gives what is read for every list of messages; it is the list exactly if there is no such length (C07_iff).
* C08 (Masked client frames are unmasked): `C08_masked_frames_refuted`, `C08_first_byte_refuted`
  Holds when only the first frame of a message is masked; masked continuation frames are corrupted. C08_exact gives what is read for any masks; of every message in two frames of which the second is masked the first byte is wrong unless the first byte of the key is 0.
* C09 (Control frames do not disturb the data stream): `C09_control_frames_refuted`, `C09_ping_message_refuted`
  Holds for control frames without payload; a payload is left in the stream and parsed as a frame header. C09_exact: a ping or pong is told and its payload is then read as frames; a frame inside of a ping is delivered as a message.
* C100 (Messages survive their JSON text): `C100_empty_refuted`, `C100_nul_refuted`
  Proved for every API whose messages have one type each and every message all of whose parts survive (exactly the values of C43), for any printer whose texts parse. Refuted: an update with an empty container makes the deserializer resolve twice, one with a string with a NUL arrives as another message. Messages with is_confirmed are left out: the reader does not compile for bool.  C100_exact: a message whose numbers stand for values, each for one, arrives as itself exactly if JSON carries all of its parts.
* C101 (Contexts connected by JSON texts agree): `C101_crash_refuted`, `C101_changed_refuted`
  All of C84, with the real serializers in place of C84's assumption on them, for every execution in which the messages that were said are ones JSON carries. Refuted without that: a client whose application updates an entity to an empty container brings the server to undefined behaviour; one with a NUL in a string has something else done. It comes to rest whatever the messages (C101_settles), provided that the messages of the API for clients are downstream ones.
* C103 (The messages of a definition between its programs): `C103_order_refuted`, `C103_actions_refuted`
  For definitions in which no path has two access points. Beside it, what a reader of 'the same definition' might expect and is false: with the same access points, or the same actions, in another order, a message is read as another one (an update of another entity; a read as a delete), since only positions are sent.
* C104 (Entities have the members they are declared with): `C104_inherited_refuted`, `C104_many_refuted`
  Everything but that declarations always compile. Exactly: a declaration compiles if it has 1 to 62 members, and several together if no member of the same declaring class is named twice; so two entities cannot both name a member they inherit from the same base.
* C105 (Metastructs give back what was put in): `C105_unchecked_refuted`
  Proved for 1 to 63 names (exactly those that compile). Made without names the number of values is not checked, and a name may give nothing (does not compile where it is used).
* C107 (Printed messages can be told apart): `C107_told_refuted`, `C107_types_refuted`
  Proved if no leaf has a comma, a closing bracket or an equals sign in its text (so for the messages of the example). Strings are written without quotes, so it is false of tuples of strings with commas, and values of different types may be printed alike.
* C108 (Pages show what the contexts hold): `C108_read_refuted`, `C108_stale_refuted`
  Proved for specifications that can always be rendered (C65) and that look at payloads only; with a server for clients registered before anything was told, as C84. False of specifications that tell a path which is not resolved from one which is not there: a read changes that and nobody is notified. The renderer is taken to find empty stores when it is made (C97).  In browsers (C108_browser) the page shows what the understood messages say, which is what the server holds exactly when everything told is understood; a list that was emptied goes on being shown (C108_stale_refuted).
* C109 (Contexts in browsers follow the server): `C109_stale_refuted`, `C109_crash_refuted`, `C109_text_refuted`
  Which messages get through either way is exact (C109_up, C109_down), and what a browser is told is exactly the understood part of what was sent. That the stores agree, that the server stays up and that requests are executed needs the messages to be ones both sides write alike. Refuted without that: an update to an empty container is never seen in a browser, whose store stays stale; an unsigned value of 2^31 or more, or a negative enumerator, sent by a browser is undefined behaviour in the server. Any of the clients may be in a browser and the others programs of their own.  Text of other characters than ASCII reaches the server as it is but a browser as the low bytes of its UTF-16 code units (C109_text_refuted): the browser that asked for an accented letter then shows a byte that is not even well-formed UTF-8.  For text of any characters C109_down and C109_history say what is heard: the message of the same type whose text is seen as the low bytes (seen_as), which exists, is unique, and is the message itself for ASCII text.
* C110 (The example program prints what it sends and ends): `C110_waits_refuted`
  For messages that JSON carries with texts below 4 GB and an action that does not throw (the hypotheses of C89). C110_main: for the messages of main.cpp the program prints them all and ends. Refuted: that the program always ends; when the client has used up its attempts, the server waits for a connection for ever.
* C111 (A value held in a pipeline is one object that every pass sees): `C111_twice_refuted`, `C111_sync_refuted`
  One object, what is left and what is given are proved for every run. That the value can always be used needs every stage to call its resolver at most once, and under run_sync to be done when it returns. Refuted: without that, the memory is used after it was freed (C111_twice_refuted, C111_sync_refuted); C111_exact says when.
* C112 (A client connects once, to its address, and reads messages as they were sent): `C112_other_addresses_refuted`, `C112_host_port_refuted`, `C112_kept_refuted`
  Connecting and reading are proved for all results of the network. Only the first address of the host is tried (C112_other_addresses_refuted), the handshake names the host without its port (C112_host_port_refuted), and a message is given by reference to the one body, so who keeps the reference sees the last message (C112_kept_refuted). Asio and Beast are parameters.  C112_sent and C112_messages: what the other side wrote with write_message is read, and messages that JSON carries arrive as themselves.
* C15 (Stopped endpoint is silent): `C15_no_write_after_stop_refuted`
  Handlers are silent after stop in every execution; no write begins if none is outstanding at stop. A write outstanding at stop that completes successfully lets the send loop begin another one. Exactly (C15_exact, no write errors): after stop a write begins when the one before it ends well and frames of accepted messages or a close are left to write.
* C16 (Close event is reported at most once): `C16_close_once_refuted`
  False: two and three calls are reachable. Proved: at most three; at most one if only the peer closes and no write fails, or if the peer does not close. C16_exact says for every execution and every next event whether the close is reported with it, by the calls and events so far: the peer's close after the application asked for one, the completed write of the close frame after the peer closed, and a data write failing with a reset after either, as long as stop was not called.
* C17 (Every ping is answered with a pong): `C17_ping_answered_refuted`
  False: it is proved that no execution writes a pong.
* C19 (A close requested before start is eventually sent): `C19_close_before_start_refuted`
  False when no message was ever accepted and no close was requested after start. Exactly (C19_exact): at rest the close frame was written if and only if a close was asked for or received and a message was accepted, or a close was asked for after start, or the peer closed first; so a peer's close is not answered if one was asked for before start.
* C20 (Authentication token is extracted from the cookie header): `C20_auth_token_refuted`, `C20_in_bounds_refuted`
  The exact result is proved for every well-formed header: the first non-empty nbdl_auth value. An empty nbdl_auth cookie is skipped, and the end of the header is dereferenced whenever there is no non-empty one.  C20_exact gives the answer for any header string, well formed or not.
* C21 (Session cookie is extracted from the cookie header): `C21_session_cookie_refuted`
  The raw value is found for every cookie list; surrounding double quotes are not removed.  C21_exact gives the answer for any header string, well formed or not.
* C22 (Handshake request is understood by the server): `C22_request_understood_refuted`
  Proved for origins up to 247 and tokens up to 234 bytes; every longer token is rejected.  C22_exact: for an origin and a token without line feeds the request is understood exactly when the origin has at most 247 bytes, the token at most 234, and the token has no semicolon.
* C23 (Handshake header parsing is order and case insensitive and stays in bounds): `C23_in_bounds_refuted`, `C23_long_line_refuted`
  Proved for header lines of at most 254 bytes with a colon and an ASCII name. A line without a colon that equals a known name is read past its end; longer lines fail the handshake.  C23_exact: the answer to any list of lines, well formed or not: the first line that is longer than 254 bytes (rejected) or harmful (undefined) decides, otherwise the key and the cookies are those of the last lines of these names.
* C26 (Hashing agrees with equality): `C26_hash_respects_equality_refuted`
  Proved given that std::hash respects == on the leaves, except for unordered containers, for which it is refuted (the hash depends on iteration order, == does not). Hashing an nbdl::variant does not compile when its empty alternative is filtered out.
* C31 (Full-value writes are not reverted by earlier changes): `C31_replace_refuted`
  False: the pending delta keeps confirmed changes from before the replacement and writes them back at the next flush. Proved when the replacement comes first or right after the confirmation that settled all local changes. C31_exact says exactly what becomes of a replacement made while no local change is outstanding: the changes confirmed since the store was last at rest are written over it again if a local change follows, and only then.
* C33 (A read of an unknown path reaches the producer exactly once): `C33_forwarded_refuted`
  False: the store inserts its placeholder before the context looks, so no read ever reaches a producer (proved for every sequence of calls), and no store for which asking twice is the same as asking once could give exactly one. Proved: pending paths send nothing, known ones are answered from the store.
* C35 (Echoing producer assigns fresh keys and reflects requests): `C35_fresh_keys_refuted`
  False in general: the key counter is per message type, so creates with and without a private payload collide. Proved when each path type has one create message type and the key type does not run out.  C35_exact: for all requests, the n-th create of a C++ type gets the key n (modulo the size of the key type); the requests are executed as they should be if, and only if, these paths are different (C35_fresh_iff).
* C36 (Message conversions preserve their contents): `C36_private_payload_refuted`
  get_private_payload returns the uid; everything else proved.
* C38 (Catch handles only rejections, and the first matching catch wins): `C38_inner_catch_separate_refuted`
  Finding: a catch inside a nested pipe also handles rejections of stages before that pipe.
* C39 (Asynchronous loop runs its body in order until terminated and releases its state once): `C39_call_stack_bounded_refuted`
  Finding: passes that resolve without a callback nest on the call stack without bound.
* C41 (Path lookup composes and agrees between match and get): `C41_two_steps_refuted`, `C41_map_end_refuted`
  Proved wherever both sides compile. Findings: keys left over after a value that is no store are ignored, a variant swallows a key, and a path that ends at a std::unordered_map does not compile.
* C43 (JSON serialisation round trips): `C43_empty_container_refuted`, `C43_nul_refuted`, `C43_negative_enum_refuted`, `C43_reused_object_refuted`, `C43_names_refuted`, `C43_injective_refuted`
  Round trip of Json::Value documents for values without empty containers, NUL characters in strings and negative enumerators; each of those is refuted. JsonCpp text parsing and printing are external. The conditions are exact (C43_exact): for a type with distinct member names no other value comes back as itself; different values are always written differently, and all are written unless a buffer has 2^29 bytes.
* C44 (Malformed JSON never yields a silently wrong value): `C44_bad_base64_refuted`, `C44_bad_base64_zeros_refuted`, `C44_long_refuted`
  Complete for types without buffers. With buffers text that is not base64 is accepted silently (refuted). Never reads outside the document. Text for a buffer of 2^31/3 characters or more is undefined behaviour.
* C45 (String concatenation views are faithful): `C45_equal_refuted`, `C45_equal_past_end_refuted`
  Length, copy and to_string are proved; equal takes only an iterator, so it is a prefix test and reads past the end of shorter strings (refuted).
* C46 (Composed stores route by key): `C46_nested_range_refuted`
  Finding beyond the property: an action for the element of an outer range is taken by the innermost range.
* C47 (Routes round trip through their string form): `C47_round_trip_refuted`
  False for zero and negative numbers and for strings that are empty or contain a slash; C47_round_trip_iff says exactly which values survive.
* C48 (Route parsing rejects everything that is not a route string): `C48_rejects_large_numbers_refuted`, `C48_in_bounds_refuted`
  Accepted strings are characterised exactly; numbers that overflow are accepted, and a route of ten or more members overruns an array.  C48_modulo: a number that is too large for its member is taken modulo 2^bits and accepted unless that is 0.
* C49 (Tile game conserves tiles): `C49_tiles_refuted`
  Fails in the lower left corner: the bound check for the cell below is off by one row (a tile of the initial game can be moved off the board; on 8x8 the array is read out of bounds). Proved for every other cell and for that one when it is next to the empty cell, and for histories.  C49_corner says exactly what happens in the remaining case, a tile in the lower left corner with no empty cell beside it: a read behind the board if it has 64 cells, else an exchange with the byte behind the visible cells if that is 0, else nothing.  In the game that is played every tile stays on the board exactly once as long as nobody moves the lower left tile (C49_game_partial), and C49_lost: the first move of that tile without an empty cell beside it loses it.
* C50 (SQL inserts are referentially ordered and parameter counts match): `C50_no_columns_refuted`
  For every evaluation order of the sibling inserts. Placeholder counting assumes names without double quotes. Finding beyond the property: an entity with containers only gives a row without columns, for which there is no statement.
* C51 (SQL criteria conjoin all keys): `C51_select_refuted`, `C51_update_refuted`
  Holds for one key; for two or more keys the criteria are joined by commas, never by AND (refuted for every such list).
* C53 (Listener table groups every registration): `C53_repeated_refuted`
  Complete and in declaration order for every definition; "each once" needs that no access point names a path twice (refuted otherwise).  That condition is exact (C53_each_once_iff).
* C54 (Parameter views behave like lists of references): `C54_stateful_refuted`
  For references and stateless values, which is what params_view is documented to hold. Finding: a value with a state compiles and is silently replaced by T{}.
* C55 (Client address splitting): `C55_protocol_refuted`, `C55_service_refuted`
  Host and port are right for every address; the protocol is wrong for every address that has one (refuted for all of them), and is not used as the service name (refuted).
* C56 (Length-prefixed messages round trip): `C56_long_message_refuted`
  For every interleaving of partial reads and writes and every point at which the connection ends. Longer messages lose the framing (witness). ext/asio_tcp.hpp does not compile as committed; its loops are the same.
* C57 (Deserialiser resolves exactly once): `C57_twice_refuted`
  Exactly once for every text that can be read; every other text continues the pipeline twice, the catch block does not return (refuted for all of them).
* C58 (Rendering a UI specification reproduces its element tree): `C58_several_nodes_refuted`, `C58_no_nodes_refuted`, `C58_other_alternative_refuted`, `C58_siblings_refuted`, `C58_attribute_undefined_refuted`
  Unconditional for trees of elements, texts, attributes, classes, listeners and file inputs (C58_plain). With matches, for_each and inner HTML for those specifications whose alternatives are single nodes and where whatever empties its element comes first (renders in UiSpec); outside of that the tree is wrong or the call throws (refuted).
* C59 (Access points are enumerated depth first and producers own their paths): `C59_both_refuted`
  Enumeration is exact when no producer declares both an AccessPoint and AccessPoints; with both, the AccessPoint is silently dropped (refuted).  C59_enumeration_exact: for all definitions, of a node with both the AccessPoint and what is below it is left out, and nothing else.
* C60 (Connection attempts are bounded): `C60_reuse_refuted`, `C60_overflow_refuted`
  Proved for the first use of the promise and limits below INT_MAX. The counter is never reset, so a promise that rejected once does not retry when used again (refuted); with INT_MAX the counter overflows (refuted). For any use: the retries left are the limit minus all failures so far, so in all its uses together it makes that many.
* C61 (Failing to write the close frame is reported): `C61_close_write_failure_refuted`
  False: the failure handler uses the loop object that was already deleted. Proved: that is the only way to undefined behaviour.
* C62 (A SELECT joins every nested entity once, after its parent): `C62_flat_refuted`
  Distinct aliases assume distinct member names without dots. Finding beyond the property: an entity without children cannot be selected, the joins of nothing do not compile.
* C64 (A serialised message arrives as itself): `C64_empty_refuted`, `C64_nul_refuted`
  For the values that JSON round trips (see C43) and given that JsonCpp parses what it printed to the same document. Exactly those messages arrive as themselves (C64_exact); distinctness holds for all messages.
* C65 (The page follows the store): `C65_stops_resolving_refuted`, `C65_starts_resolving_refuted`, `C65_nested_match_refuted`, `C65_stale_text_refuted`, `C65_attribute_twice_refuted`, `C65_each_sibling_refuted`
  For specifications whose alternatives are lasting nodes and whose matches always resolve (updatable, updates, resolves in UiSpec). A match that stops or starts to resolve, a match directly in a match, texts that stop resolving, attributes given twice and siblings of a for_each go wrong (refuted).
* C66 (JavaScript values held by C++ objects behave like variables): `C66_uninitialised_refuted`, `C66_self_move_refuted`
  Proved for every program in which init is called first and no object is moved to itself; without init the first destructor throws, and a self-move loses the value (both refuted).  C66_init_exact: nothing throws if, and only if, init comes before everything but constructors of empty objects.
* C67 (A promise made from a JavaScript routine settles once with what the routine passed): `C67_second_call_refuted`, `C67_callbacks_freed_refuted`
  Captures and values arrive as given. A second call of a callback uses freed memory when the pipeline completed in the first (exactly then, C67_safe_iff), and the callbacks are never released (refuted).
* C68 (Events reach exactly the listeners that are there): `C68_use_after_own_drop_refuted`, `C68_second_send_refuted`, `C68_event_overwritten_refuted`
  Never calling dead listeners holds for all handlers. Use of the event and the receiver is safe for handlers that look at the event only before they send their single message; others use freed memory or see another event (refuted).  C68_sees_latest and C68_exact hold for all handlers: who looks sees the event of its last call, and the use of something destroyed is exactly that of a handler which goes on when its own listener is gone.
* C69 (The store shows the route last navigated to): `C69_space_refuted`, `C69_question_mark_refuted`, `C69_dots_refuted`, `C69_empty_name_refuted`, `C69_by_string_refuted`, `C69_prefix_unchecked_refuted`, `C69_short_address_refuted`, `C69_nul_refuted`, `C69_ten_members_refuted`
  For routes whose strings have only characters that addresses keep and for navigation by route value. Characters that addresses encode, "." and "..", a nameless route with members, navigation by string and addresses outside of the prefix go wrong (refuted).  C69_defined: nothing undefined happens if no route has more than nine members; C69_ten_members_refuted: with ten members it does.
* C70 (Functions of the specification language and the C++ written for them do the same): `C70_string_refuted`, `C70_overload_order_refuted`, `C70_same_type_refuted`, `C70_capture_refuted`, `C70_const_refuted`
  Proved for all functions whose string literals need no escapes, whose overload without a type is last, whose types are distinct and without nbdl.const, in which made-up names are not names that the specification uses. Each of these conditions is needed (refuted).
* C71 (All text of a translation reaches the lexer, at the location of the operation it is for): `C71_location_refuted`
  Text is complete, in order, and no location is made up. What is written last for an operation carries the location of the operation around it, because the location is restored before the buffer is flushed (refuted).
* C72 (The class written for a store definition): `C72_name_refuted`, `C72_single_refuted`, `C72_variant_refuted`, `C72_context_op_refuted`
  Proved for definitions composed of keyed stores with an unqualified name. Qualified names are cut wrongly, a definition that is a single store loses its arguments, and variants are never translated (refuted). The `context` syntax (members with names) always gives a class with exactly these members. What is written for the MLIR operation nbdl.context takes the constructors of a class that is not its base (context_alias<I> and context_alias<I, false> are two types), so it can never compile; spec.sld does not make this operation.
* C73 (The forms of a match-params-fn are run one after another): `C73_follow_refuted`, `C73_no_else_refuted`, `C73_arguments_refuted`
  Proved for every body in which noop and match-if on a plain value come first, match-if has an else, and the function is called with at least one argument and no calls as arguments; outside of that the verifier rejects the function or an error is raised (refuted). Composed with C70 for the C++.
* C74 (C++ values survive the way through JavaScript values): `C74_text_refuted`, `C74_accepts_refuted`, `C74_names_refuted`
  For ASCII text without NUL; for other text the round trip fails, exactly (C74_text is an equivalence for well-formed text). Reading is total for any JavaScript value, but accepts documents that stand for nothing (refuted).  C74_exact: for any text that is well-formed UTF-8 the value read is the one in which every UTF-16 code unit is cut to its low byte.  Containers read from values without a length are empty.
* C75 (Browsers and servers understand each other's documents): `C75_empty_container_refuted`, `C75_unsigned_refuted`, `C75_text_refuted`
  To a browser: ASCII text and no empty containers, which are null and make the browser throw (refuted). From a browser: no unsigned numbers of 2^31 and more, which are written as negative numbers that the server refuses (refuted), no negative enumerators.  The conditions are exact (C75_to_browser_exact, C75_from_browser_exact): for well-formed UTF-8 text every other value makes the reader throw. Towards the server text may have any characters; towards a browser the value read is the one in which every UTF-16 code unit of the text has been cut to its low byte (Seen), which is the same value exactly if the text is ASCII.
* C76 (A SELECT by key finds what an INSERT stored): `C76_flat_refuted`
  For types with distinct column names and names without dots (identifiers). An entity with no entity below or with containers has no statement (C76_statement, C62_flat_refuted).
* C77 (An UPDATE by key replaces what an INSERT stored): `C77_key_name_refuted`
  The replacement is proved in full for entities of values (others are rejected, C77_statement). The static_assert on the key is a comma expression: the name of the key is not looked at (refuted).
* C78 (What happens to a WebSocket in the browser is told to the promises that wait for it): `C78_lost_refuted`, `C78_closed_refuted`, `C78_destroyed_refuted`, `C78_two_reads_refuted`
  For reads that are started one after another and a state that is kept while it connects or reads. A message that comes between two reads is lost, a read that starts after the end of the socket is never told, and a state that is destroyed while it waits is called back (refuted).  C78_exact and C78_ends: for every endpoint, disciplined or not, what each promise is told, and that the behaviour is undefined exactly when an event finds the state gone or a later read started than the first that waits for it. Two reads at a time are therefore undefined at the next message (C78_two_reads_refuted).
* C79 (The endpoint in the browser hands over the messages of its socket): `C79_vector_empty_refuted`, `C79_vector_outside_refuted`, `C79_vector_sent_refuted`, `C79_destroyed_refuted`, `C79_early_refuted`
  Holds for JSON payloads, for an endpoint that outlives the connection and sends after it opens. Vectors of bytes come out empty, can be written past their end, and are sent with all of memory (refuted).  C79_exact: undefined behaviour comes exactly when an event other than an error follows the destruction of the endpoint. C79_thrown counts the exceptions. C79_vector_outside_exact: when exactly a text is written past a vector.
* C80 (Every client of the server in JavaScript gets every message): `C80_stays_up_refuted`, `C80_closed_refuted`
  The delivery is proved for as long as the server runs. It stops exactly if a client sends text that is no JSON or a document that the binder throws on (C80_crash); connections that were closed stay in the list for ever (refuted).  C80_dropped: what only costs a client its connection; C80_robust: whatever a client sends, there is no undefined behaviour.
* C81 (Each client that connects is answered for its own request): `C81_independent_refuted`, `C81_own_request_refuted`, `C81_good_request_refuted`
  Holds when each client sends one request, nothing behind it, and does not stop in the middle. The buffer is shared by all connections: what a client sends behind its request, or the piece of a request it left, is read as the beginning of the next client's request; while a client is silent no other is answered (refuted). The branch for requests that are no upgrade is never reached: accepting the WebSocket fails before it. C81_exact: for any clients at all, exactly which results the server can come to: the answers to the clients in the order of their arrival, each to the bytes which those before it left in the shared buffer followed by its own.
* C82 (Parameters of the user interface stand for what is at their paths): `C82_in_store_refuted`, `C82_default_refuted`, `C82_match_again_refuted`, `C82_unresolved_refuted`
  The call, its values and their order are proved for all specifications. Keys at a location are those in the store except after a match_when, where they are looked up in the matched value (refuted); the path given to the function of the default alternative leads nowhere (refuted); a matched path cannot be matched again and a match whose path leads nowhere is undefined behaviour (refuted).
* C83 (Two connected endpoints give their applications what the other one sent): `C83_in_order_refuted`, `C83_silent_after_stop_refuted`, `C83_sent_before_close_refuted`
  Order, the handshake, delivery of everything at rest and that rest is always reached are proved for every play, for messages that the sender ends (C07: a message whose length is a positive multiple of 125 is merged with the next, refuted here end to end). The handlers of the handshake are called after stop(), and messages that were queued when close() is called are lost (refuted). C83_in_order_exact, C83_delivered and C83_settles say for all messages what is given: what was sent, with each message that fills its last frame put before the next one.
* C84 (Contexts connected to a server's context show what it shows): `C84_late_refuted`, `C84_lost_refuted`, `C84_garbage_refuted`
  Proved for every number of clients, every interleaving and every failure: each client was pushed a prefix of what was told since its registration, all of it when nothing is under way; its requests reach the server each once and in order; a client registered before anything was told agrees with the server at rest; with echo_producer that is the result of executing all requests in the order served; the network comes to rest by itself. Refuted: a client that comes later is never given what is already there, and its reads do not leave its context; a request made when the connection is gone is dropped silently and there is no reconnecting; one text on which the deserializer resolves twice (C57) brings the server to undefined behaviour. Assumed: the serializers are inverse (C64), full_duplex keeps the order of messages and copies them.
* C85 (The signature of an interface stands for how its types are bound): `C85_unique_refuted`, `C85_entity_refuted`
  Proved: the text that is signed is the same exactly for the same format and types that are bound alike; the signature is its SHA-1 digest; exactly the types without entities, enumerations and unknown classes have one. The model computes the four digests and the tags that the project's tests expect. Refuted: by counting, some types that are not alike share a signature; an entity has no signature (it is both a sequence and a map, which is ambiguous) though it is bound to JSON like the map with its members, which has one. Assumed: clang's text of __PRETTY_FUNCTION__; names of types of one word.
* C86 (Programs whose interfaces have the same signature understand each other): `C86_sizes_refuted`
  Proved for types for which the same text is signed and whose buffers of fixed size have the same sizes, with the JSON binder and with the JavaScript binder on one side. Refuted: the sizes of buffers are not part of the signature; an identifier of 16 bytes is read into 20 bytes as zeros, without an exception. Sets and maps of the C++ library are not modelled.  C86_bound_as says of every type whether and as what the JSON binder binds it.  With the JavaScript binder the text may have any characters in the direction of the server.
* C88 (A value kept for a path type shows what consumers were told last): `C88_deleted_refuted`, `C88_created_refuted`, `C88_answered_refuted`, `C88_keys_refuted`, `C88_unnotified_refuted`
  Proved for the path of the last update when payloads are assigned. Refuted: creates, deletes and answers to reads are told to consumers but never reach the value, so that a variant which is unresolved at first stays so until an update; all keys of a path type share the value, so that an update of one path shows at another one, of which nobody is notified.
* C89 (Messages are handed over until the one that ends the exchange): `C89_unknown_refuted`, `C89_empty_refuted`
  Proved: for arbitrary texts the calls of the action and the settlement are those of the messages they stand for; for messages that JSON carries (C43), shorter than 4 GB, the action gets all up to the first of the type Terminate. Refuted: a text with a type id that the receiver does not know is passed over in silence; a message with an empty container (C43) makes the receiver reject while the connection is open. JsonCpp's text syntax is a parameter. A message whose buffer is written with 2^31/3 characters or more is undefined behaviour.
* C90 (Objects which a pipeline holds live as long as it): `C90_destroyed_refuted`, `C90_at_once_refuted`, `C90_replaced_refuted`, `C90_busy_refuted`, `C90_leaked_refuted`
  Proved for all runs without undefined behaviour: an object is destroyed at most once and only with the pipeline, later stages first; those never destroyed are exactly those that another object of the same stage took the place of (nothing destroys the old one before the placement new of hold_lazy.hpp:62), which cannot happen if no stage is called twice. No undefined behaviour if each stage calls its resolver at most once and functions given to hold_lazy leave that to the object. Refuted: with run_async_loop every pass but the last leaks its object; a function that resolves at once has its object constructed in freed memory; an object that resolves again after it was replaced; in the repository's own test the object is destroyed while its member function runs. Also proved: no stage after one that never resolves is called, not even when its rejection is caught; a rejection that nothing catches leaves the pipeline and its objects undestroyed forever; with run_sync the pipeline lives exactly as long as the call.
* C91 (A pipeline can be run again): `C91_again_refuted`
  Proved: what the k-th run of a kept pipeline calls; the same each time without hold_lazy. Refuted: the function of hold_lazy is moved out of the caller's pipeline by the first run (hold_lazy.hpp:89-95 moves although it is not restricted to rvalues).
* C92 (Generators of identifiers): `C92_secret_refuted`, `C92_apart_refuted`
  Proved with the mt19937 of the standard: every identifier has 16 bytes; two seeds below 2^32 give sequences which differ among the first 156 identifiers. Refuted: 156 identifiers in a row determine all that follow (the tempering of the engine is inverted), so that they cannot serve as secrets; the engine is seeded with 32 bits, so that of more than 2^32 generators two are alike for ever.
* C93 (Identifiers made in the browser): `C93_made_refuted`
  Proved: what is made has 16 bytes, each byte is the expected one or the one above, every identifier can be made, and the exact condition for undefined behaviour. Refuted: emscripten_random() returns a float, so that a random number of at least 1 - 2^-25 becomes 1 and 256 is converted to uint8_t, which is undefined (uid.hpp:86).
* C95 (Own changes stay visible): `C95_shown_refuted`, `C95_identifiers_refuted`
  Proved: a member written by one client alone shows there at every moment what that client wrote last, if no identifier is used twice. Refuted: a change of another client that the root got first hides an unconfirmed own change, which comes back when it is confirmed (1, 2, 1; local_version.hpp:70-76 applies foreign changes over pending own ones), although the test is named for the opposite; two changes with the same identifier by one client are shown as 1, 2, 1, 2. C95_exact: what a client shows at every moment, whatever the identifiers were.
* C96 (Actors are made from their own arguments): `C96_unknown_refuted`, `C96_consumers_refuted`
  Proved for all definitions, arguments and re-entrant actors: names, order and arguments. Refuted: an argument with a name that no actor has is ignored (the static_assert in make_context.hpp:41-46 is switched off), and a Consumer beside Consumers is ignored (enumerate_consumers.hpp:40-54).
* C97 (Stores exist whenever actors use them): `C97_constructor_refuted`, `C97_destructor_refuted`
  Proved: with destructors that do not use the handle nothing is undefined if, and only if, no constructor uses it. Refuted in general: actors are constructed before the stores (context.hpp:112-113), so an actor that uses its handle in its constructor, as the renderer does (renderer.hpp:103-112), uses stores that are not constructed; and a destructor that uses it finds them destroyed. C97_exact says exactly when nothing is undefined, for arbitrary re-entrant actors: no constructor comes to use the handle, and no destructor with the members it then has.
* C98 (No message before initialisation): `C98_producers_refuted`, `C98_consumers_refuted`
  Proved: nothing is delivered before all actors and stores are constructed; and not before the initialisation of producers (all actors) if constructors and producer_init (and consumer_init) do not use the handle. Refuted: nav_route's producer_init applies a message (nav_route.hpp:148-156), so consumers and later producers which are consumers get it before they are initialised.
* C99 (Consumers agree with the stores): `C99_order_refuted`, `C99_mirror_refuted`
  Proved: whatever the actors do every consumer gets every message exactly once, and map stores have just what the messages said; the order is that of the stores if consumers apply no message inside of send_downstream_message or notify_state_change. Refuted without that: if a consumer corrects a value it is told, the consumers after it get the correction first and the old value last, and keep the old value.

Further findings that are theorems or examples without being the negation of a property: C12_error_resends (a failed write is
repeated), C17 (no execution writes a pong), C33 (no read reaches a producer), C37_contracts_needed, C50_no_columns.

## 7. Wrong programs

`seeded/LOG.jsonl` has one line per edit of a model definition that was tried in a scratch copy: the definition, the edit, the claim it
breaks and the theorems that no longer check.  Edits that are equivalent or repair a refuted property are marked so.  Where an
edit survived, the theorems tightened because of it are given.  Most edits were chosen by hand for the claim they break; a program made the
rest, at least one for every definition of every model, by exchanging operators, constants, constructors and arguments; of these
`theorems_failed` lists what depends on the first lemma that no longer checks.
