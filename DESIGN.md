# Formal model of clibri: design

clibri is a code generator.  From a protocol file it generates message codecs
(Rust, TypeScript), from a workflow file it generates a server runtime
("producer") and a client runtime ("consumer").  The model covers the generator
front end (both parsers), the generated codecs and the generated runtimes.

## Trusted base

* Coq 8.16.1 kernel.
* Axioms: every theorem in the `Prop*.v` files is followed by
  `Print Assumptions`; all print "Closed under the global context".  (Loading
  the standard library brings `Coq.ssr.ssrunder.Under_rel.*` into the
  environment; no theorem uses it.)
* The fidelity of the model to `/repo`, i.e. the definitions in the `*Model.v`
  files, each of which cites the lines it models.  Nothing in `/repo` was run.
* The conventions below.

### Conventions of the model

* A byte is `Byte.byte`; integers are `N`/`Z`, with wrap-around and truncation
  explicit wherever the code narrows.  `usize` is 64 bit.
* `Result` is `Ok | Err`; a Rust panic (slice out of range, `Buf::get_*` on a
  short cursor, capacity overflow) is a third outcome `Panic`.  `Storage` and
  `Vec` sizes computed from the wire that overflow `usize` panic in debug builds
  by arithmetic and in release builds by `vec![0; n]` with `n > isize::MAX`;
  the model uses `Panic` for both.
* Loops are structural recursion, or fuel with an explicit out-of-fuel result
  which is then proved unreachable.
* Error texts are not modelled, error kinds are.
* `process::exit` (macro `stop!`) is a distinguished error.
* Memory exhaustion, stack depth, and the tokio scheduler's fairness are not
  modelled.

## Files

| model | proofs | user-facing theorems | covers |
|---|---|---|---|
| `Bytes.v`, `Utf8.v` | | | little-endian integers, UTF-8, `String::from_utf8_lossy` |
| `WireModel.v` (spec words: `WireSpec.v`) | `WireProofs.v`, `WireTheorems.v` | `PropWire.v` | Rust codec: static runtime + code emitted by `protocol/render/rust/mod.rs` |
| `FrameModel.v` | `FrameProofs.v` | `PropFrame.v` | `protocol.packing.rs`, `protocol.buffer.rs` |
| `TsModel.v` | `TsProofs.v`, `TsReader.v` | `PropTs.v` | TypeScript codec and reader |
| `ProtoModel.v` | `ProtoProofs.v`, `ProtoInv.v`, `ProtoRun.v`, `ProtoTypes.v`, `ProtoService.v` | `PropProto.v` | protocol lexer, parser, store |
| `ProtoGrammar.v` (declaration trees, tokens, layouts) | `ProtoElab.v`, `ProtoTree.v`, `ProtoBuild.v`, `ProtoRebuild.v` | `PropGrammar.v` | parser against the grammar |
| `PropTyped.v` (on `WireModel.v`, `FrameModel.v`) | | `PropTyped.v` | what is delivered has the declared type |
| `ProducerModel.v` | `ProducerProofs.v`, `ProducerInv.v`, `ProducerFrame.v`, `ProducerSeg.v`, `ProducerMore.v`, `ProducerStop.v` | `PropProducer.v` | generated Rust producer: `workflow/render/producer/rust/` |
| `RunModel.v` (on the above) | `PropRun.v` | `PropRun.v` | `run` of the generated Rust producer, `Control::shutdown`, the shutdown emitter |
| `ConsumerModel.v` | `ConsumerProofs.v`, `ConsumerInv.v`, `ConsumerTrace.v`, `ConsumerTrace2.v`, `ConsumerGood.v`, `ConsumerSpec.v`, `ConsumerLive.v`, `ConsumerNamed.v` | `PropConsumer.v`, `PropConsumerEnds.v`, `PropConsumerLife.v` | generated Rust consumer: `workflow/render/consumer/rust/` |
| `SystemModel.v` (on the two above) | `SystemServer.v`, `SystemProofs.v`, `SystemAnswers.v`, `SystemLive.v`, `ConsumerRest.v` | `PropSystem.v`, `PropAnswers.v`, `PropRest.v`, `PropSystemEnd.v` | a producer and a consumer connected by a reliable transport |
| `TsClientModel.v` (reader: `TsModel.v`) | `TsClientProofs.v`, `TsClientTrace.v` | `PropTsClient.v` | generated TypeScript consumer: `workflow/render/consumer/typescript/` |
| `TsServerModel.v` (reader: `TsModel.v`) | `TsServerProofs.v`, `TsServerTrace.v` | `PropTsServer.v` | generated TypeScript producer: `workflow/render/producer/typescript/` |
| `TsSystemModel.v` (both TypeScript sides) | `TsSystemProofs.v`, `TsSystemOrder.v`, `TsSystemRest.v`, `ClientRest.v`, `TsServerRest.v` | `PropTsSystem.v`, `PropTsEnd.v` | a TypeScript producer with one of its TypeScript consumers |
| `MixModel.v` (TypeScript producer, Rust consumer) | `MixProofs.v` | `PropMix.v` | a TypeScript producer with one of its Rust consumers |
| `CrossModel.v` (Rust producer, TypeScript consumer) | `CrossProofs.v`, `CrossRest.v`, `ClientRest.v` | `PropCross.v`, `PropCrossRest.v`, `PropCrossEnd.v` | a Rust producer with one of its TypeScript consumers |
| `WfModel.v`, `WfGrammar.v` (tokens, layouts), `WfElab.v` (declarations, what they say) | `WfProofs.v`, `WfGrammar.v`, `WfElab.v`, `WfServed.v` | `PropWf.v` | workflow lexer, parser, store: `workflow/*.rs` |
| `RenderModel.v` | `RenderProofs.v` | `PropRender.v`, `PropNames.v`, `PropKeys.v` | which files the workflow renderers write and what is filled into them: `workflow/render/` |
| `TsNames.v` (objects, tests, `switch`; on `RenderModel.v`) | `TsNames.v` | `PropTsNames.v` | how generated TypeScript tells messages apart |
| `RenderModel.v` (last part) | | `PropPuml.v` | the diagram: `workflow/render/puml/` |
| `CliModel.v` | | `PropCli.v` | command line: `main.rs`, `ctrlargs.rs`, `arguments/`, `helpers/fs.rs` |

Each theorem of a `Prop*.v` file is named after its property, is followed by
`Print Assumptions`, and has an example beside it.

### How the runtimes are modelled

*Producer.*  The listener handles one server event at a time, so a run is a
function of the list of events.  The user's handlers, the server and the clock
are arbitrary functions on an arbitrary world (`env`); what a handler does on its
own account happens inside the world.  The trace lists what the generated code
sends, which handlers it calls with what, and what it stores.  Properties are
statements about all traces.

*`run` of the producer.*  `RunModel.v` puts that listener next to the two other
pieces of code `run` joins: the transport's `listen` and the wait for a shutdown
request.  Every piece of code between two `await`s is one transition.  The code for
one event of the listener is one transition after the event was taken; before it ends
its handlers may await a call of `Control::shutdown`, which is all a handler can wait
for in the model.  `listen` and `shutdown` of the transport are the results they
return.  Calls of `Control::shutdown` by the application are part of the state: sent,
waiting, answered, returned, or given up.

*Consumer.*  One connection runs several concurrent tasks.  Every piece of code
between two `await`s is one transition, and a label names the task that runs and
everything the code cannot influence (bytes, refusals of the transport, timeouts,
calls of the application, dropping them).  An execution is any list of labels
whose transitions are enabled; properties are statements about the traces and
states of all executions.  `ConsumerProofs.eff` is a loosened copy of the
transitions used only in proofs (`fire_effs` shows it covers the model).

*TypeScript consumer.*  JavaScript runs one piece of code at a time: a handler of
a transport event, a call of the application, a continuation of a promise.  Each
is one transition; the loop of `_onData` is one transition per message, because
broadcast handlers of the application may call the client inside it.
Continuations run in any order, which includes the order JavaScript uses; the
executions in refutations use that order.  A chunk on which the reader does not
return (C15) has no transition.

*TypeScript producer.*  The same, with one transition per message of the loop of
`_onClientReceived`, because code of the application and of the transport runs
inside it.  A handler is a promise with four stages: the function of the
application runs, the answer was handed to the transport, the broadcasts were, it
has ended.  What the functions of the application come to, and whether packing
and sending succeed, is arbitrary.

*Both TypeScript sides together.*  `TsSystemModel.v` runs the TypeScript producer
and one of its TypeScript consumers with two byte streams between them that the
transport may hold back and cut anywhere, but does not change or close.  It may
refuse whole messages of the producer.  The producer may have any other clients.
What the generated codecs do is a parameter (`codec`) with the hypothesis
`compatible`: each side decodes what the other encodes to a message of the same
kind.  Theorems say whether the consumer's application may do anything or is
`patient`: it calls after `ready` and does not call `assign` itself.

*A TypeScript producer with a Rust consumer.*  `MixModel.v` connects the producer of
`TsServerModel.v` with the consumer of `ConsumerModel.v` in the same way.  Messages
that the server's application sends of its own accord are messages of the workflow;
an application that sends the internal `ConnectConfirmationBeacon` itself is not
modelled.

*A Rust producer with a TypeScript consumer.*  `CrossModel.v` connects the producer of
`ProducerModel.v` with the consumer of `TsClientModel.v` in the same way.  The relation
of executions takes two conditions: what the consumer's application may do, and when the
producer may come upon bytes of the consumer.  The second is needed because the
consumer does not wait for the producer's confirmation.

*Both together.*  `SystemModel.v` lets a producer and one of its consumers run
concurrently, each as modelled above, with two byte streams between them.  A
message that a transport accepts is appended to the stream as a packet (any time
stamp); a chunk is any nonempty piece from the front of the stream.  `compatible`
says that both sides come from the same files: same signature and hashes, and each
decodes what the other encodes (for generated codecs this is C01-C09 and C14).
The transport loses, changes and reorders nothing and does not close; the
application of the consumer calls only after `EConnected` (`patient`).  Other
consumers, other events of the server, messages the server's application sends on
its own, failing sends and schedules are arbitrary.

*Generating projects.*  A renderer is a list of file operations on a file system
(a function from paths to contents), executed until one fails.  The content of a
generated file is the template it comes from together with what is filled into
its holes.  Every file of the four renderers (producer, consumer; Rust,
TypeScript) is in the model.

*Telling messages apart in TypeScript.*  A decoded message is an object with one
property per group on the way to the entity.  `TsNames.v` has such objects as
functions from property names to values, with what literals inherit from
`Object.prototype` (also through the key `__proto__`), and the three ways the
generated code looks at them: the client's chain of `!== undefined`, the server's
`_tryToGet`, the client's `switch` over `getId()`.  Functions have no properties of
their own, and `null` (the prototype of `Object.prototype`) is left out.  Whether
the TypeScript compiler accepts the text is not modelled; some of the witnesses of
refutations (names declared twice in one interface or object) would be reported by
its type check.

*Command line.*  A run maps the arguments and the disk to the new disk, the exit
code and what was reported.  Which path an argument stands for (`locate`) and
the text of a file (`content`) are arbitrary functions.  `PropCli.v` has its own
left-to-right reading of a command line (`strays`, `given`, `asked`), against
which the program's successive removal of options is compared.

### Not modelled

* Logging, error texts, the CLI's console output (which kinds of errors are
  reported is modelled; the help text is not).
* Producer: the order in which a `HashMap` of consumers is iterated (the model uses
  a list; no property depends on the order except through sets).  In `RunModel.v`:
  code of the application that goes on after `run` has panicked, and the order in
  which `join!` polls (any order is allowed).
* Consumer: the task that serves `getter` requests; `client.observer()` failing;
  suspension inside a channel's `send`; the `cancel` of l.247-263 is set in the
  step that takes the shutdown request.  Beacons have no timeout in the code
  and none in the model.
* The transports: `/repo` holds only empty submodules for them.  They are
  arbitrary in both runtimes.
* TypeScript producer: `ready`, `shutdown` and errors of the transport, which are
  only handed to the application; what the application sends and disconnects on its
  own; the contents of keys; functions of the application that throw instead of
  returning a promise.
* TypeScript consumer: the exception thrown for a broadcast that is an enum (C101)
  is not a transition of `TsClientModel.v`; its broadcasts are structs.
* TypeScript consumer: handlers attached to request objects, `destroy` of the
  consumer, the global registration; `request`, `getSequence` and the setter of
  `uuid` are taken to be used by generated code only.
* The text between the holes of the templates, code formatting of the generated
  text, symbolic links, failing directory operations and writes (except: a folder
  in the place of a file, a missing parent folder of a destination).

## Plan per property

| id | model | approach |
|---|---|---|
| C01 | WireModel: types as a mutual inductive, encode/decode by recursion on the type | mutual induction on types: decode (encode v) = Ok v under a side condition `canon v` |
| C02 | same | refutation witness (`Some ""`), exact characterisation of what is preserved |
| C03 | same | refutation witness (empty string variant), iff characterisation |
| C04 | same, decode factored through the field map | equality of lookup implies equality of decode; permutation/insert lemma |
| C05 | same | if lookup of a declared id fails then decode is `Err`, no panic, no value |
| C06 | same, `Panic` outcome | refutation witness (truncated payload); no panic when the payload is a well-formed field list recursively |
| C07 | same | corollary of C01 |
| C08 | Utf8 | lossy (utf8 cps) = utf8 cps, and lossy output always is utf8 of scalar values |
| C09 | FrameModel | invariant: buffer ++ remaining stream = suffix of packets |
| C10 | FrameModel | refuted for a bad packet followed by a good one; proved when all packets decode |
| C11 | FrameModel | reference one-pass parser; simulation over arbitrary chunkings |
| C12 | FrameModel | refutation witness (length 2^64-1); no panic below |
| C13 | TsModel + WireModel | refutation for field id >= 256; proof for ids < 256 |
| C14 | TsModel + WireModel | encoders byte-equal, then C01 |
| C15 | TsModel | refutation: foreign signature makes the step function not advance (orbit is constant); progress otherwise |
| C16 | ProtoModel, fuel | measure: position strictly grows except ... ; fuel `|text|`-bounded suffices |
| C17 | ProtoModel | invariant over store operations |
| C18 | ProtoModel | invariant over store operations; construction of finite `WireModel` types |
| C19 | ProtoModel | fields: invariant; entities: refutation witness |
| C20 | ProtoModel | refutation witness |
| C21 | ProtoModel | printer + parser simulation by induction on declaration trees |
| C22 | ProtoModel | monotonicity of the store |
| C23 | WfModel | refutation: a state that steps to itself; termination for texts that end with white space |
| C24 | WfModel | invariant |
| C25 | WfModel | invariant |
| C60 | WfGrammar, WfElab | simulation by induction on declarations, with an abstract "holder of a path" for the nine places where a path is collected |
| C61 | WfGrammar | outcome as a function of the tokens |
| C62 | WfElab | refutation: prefixes of declarations leave the store alone |
| C26, C68 | RenderModel | injectivity of module names without underscores; refutation witnesses |
| C63-C65, C69 | RenderModel | effect of an operation list on one path |
| C66 | RenderModel + WfModel | the parser's guarantees (C24) suffice for every renderer |
| C67, C70 | RenderModel | the operation that determines a file |
| C100-C102 | TsNames | reading the path of one entity in the object made for another gives nothing, if no path is a prefix of the other and no name is inherited; prefixes and names are controlled by a condition on the protocol (`clear`); refutation witnesses |
| C27 | request handler template | refutation for single-action requests; proof for several actions |
| C28-C35, C47-C49 | ProducerModel: run over server events, with handler, server and clock oracles | trace invariants by induction over event lists; refutations as concrete histories |
| C36-C40, C50-C59, C76, C77 | ConsumerModel: transition system over API requests, incoming bytes, timeouts, cancellation | inductive invariants relating state and trace; refutations as concrete executions |
| C78-C84 | TsClientModel | one invariant that ties the stage of every promise to the list of events about it; refutations as concrete executions |
| C85-C93 | TsServerModel | one invariant that ties the stage of every handler to the list of events about it, one that ties the flags of a client to the trace, one that ties its buffer to its data; refutations as concrete executions |
| C94-C96 | TsSystemModel | the bytes of each direction are the packets of what was sent (invariant of both sides); the order of the client's messages gives what the server reads; numbers identify calls; refutations as concrete executions |
| C97 | MixModel | nothing that the producer sends decodes to a confirmation; the consumer starts its handshake only on one (trace facts of C41) |
| C98 | CrossModel | the producer's table keeps the consumer; without a confirmation sent it is not marked as confirmed, so bytes that come earlier get it disconnected for ever; after the confirmation the invariant of C41 |
| C99 | CrossModel | what stands before a message of the producer (C74) and the unique numbers of the consumer (C78) give the call that an answer belongs to |
| C103 | CrossModel | at rest the producer has handled what the consumer has sent (C98) and answered it, the answer stands among the bytes the consumer has read, and a call that was answered ends (C80); for `ready` the order of the consumer's handshake as in C96 |
| C104 | CrossModel | a lexicographic measure that every step by the two alone lowers: calls of the consumer without their `_hash`, bytes towards the producer, confirmations in the channel, bytes towards the consumer, and what the consumer has to read and to resume; a step is possible unless nothing is left; the confirmation of the consumer stays in the channel until it is sent |
| C105 | TsSystemModel | the measure of C104 with, between the two streams, what the producer has to do: messages in the queues of its clients, whether its loop runs, and how far each handler has come |
| C106 | SystemModel | the measure of C104: messages the consumer may still send of its own accord (two for each confirmation in the channel or unread, what calls and the handshake still need), bytes up, confirmations, bytes down, messages in the buffer, and a weighted sum of what is in the consumer's channels and how far its activities have come; a consumer without a step waits, has ended, or is deadlocked as in C54 |
| C107 | RunModel | an invariant that reads each field of the state off the trace; the output that says `run` has returned is the last of its step, and after it only the application acts |
| C108 | RunModel | what asks a server to stop, read off the trace (`C108_asked`); a measure that every step without an outside act lowers; at rest each piece of code has ended in turn, or the listener's handler awaits a call |
| C41 | SystemModel | a program logic for what the producer does to one consumer; an invariant of the product: bytes under way, bytes buffered and messages handled make up the stream sent |
| C74 | SystemModel | counting: messages sent with a number, handled, answered, read and taken are each at least the next; when one is taken all are equal, so the last of each belong together |
| C75 | SystemModel | the counts of C74 again: at rest everything sent has been handled, answered and read; every message read with the number of a call is taken for its answer, since the call was registered before; so no number is still owned by a waiting call |
| C42, C43, C71 | CliModel | recursive form of the program's cleaners, compared with a left-to-right reading by induction over arguments; effect of each step on one file |
| C73 | RenderModel | the one operation that writes the file; a path found by the search names the struct |
| C72 | RenderModel | the lines of one request, event and beacon; the parser's guarantees (C24) |
| C44 | TsModel | refutation for field ids >= 256; proof otherwise |
| C45 | ProtoModel + WireModel + FrameModel | composition: text -> store -> codec types -> bytes -> values |
| C46 | WireModel + FrameModel | typing of decoded values for arbitrary bytes |

Properties that turn out to be false of the code are kept, with a
`..._refuted` theorem giving a concrete witness and a `..._partial` theorem for
the strongest part that holds.

## Findings

Each row is a `_refuted` theorem: a concrete input or execution, computed in the
model, that contradicts the property.

| theorem | what goes wrong |
|---|---|
| `C02_optional_presence_refuted` | a present but empty optional field arrives as absent |
| `C03_enum_decodable_refuted` | an enum variant with an empty payload cannot be decoded |
| `C06_decode_no_panic_refuted`, `C06_truncated_payload_panics_refuted` | a payload cut inside a field panics the receiver |
| `C10_nothing_left_unread_refuted` | a complete message behind an undecodable packet is not read until more bytes come |
| `C12_no_panic_refuted` | a header announcing a length near 2^64 panics |
| `C13_rust_to_ts_refuted`, `C44_ts_roundtrip_refuted` | TypeScript compares one byte of a 16-bit field id, so ids >= 256 are never found |
| `C13_byte_order_mark_refuted` | a string starting with U+FEFF loses it in TypeScript |
| `C14_unset_enum_refuted`, `C14_empty_payload_refuted`, `C14_struct_array_variant_refuted` | values TypeScript encodes and Rust rejects |
| `C15_progress_refuted`, `C15_unknown_id_blocks_refuted` | a foreign signature makes the TypeScript reader loop forever, an unknown id blocks it |
| `C19_duplicate_entities_refuted`, `C19_duplicate_variants_refuted` | duplicate names are accepted |
| `C20_truncated_rejected_refuted`, `C20_every_cut_accepted_refuted` | a truncated protocol file is accepted and the open declarations are dropped |
| `C21_space_before_semicolon_refuted`, `C21_enclosing_group_refuted`, `C21_qualified_inside_group_refuted` | texts of the documented grammar that are rejected or read differently |
| `C22_service_ids_refuted` | appending a declaration renumbers the service messages |
| `C27_refuted` | broadcasts of a request with a single action are never sent |
| `C30_refuted` | the rest of the chunk that caused a disconnect is still served |
| `C33_refuted` | self key, hashes and request in one chunk lead to a disconnect |
| `C45_unsupported_primitive_refuted`, `C45_shadowed_primitive_refuted` | accepted protocols whose code cannot work |
| `C47_refuted`, `C47_refuted_by_disconnect` | one consumer's failure ends the listener for all |
| `C38_late_response_refuted` | a response after its request timed out ends the connection for all requests |
| `C39_broadcast_delivered_refuted` | a broadcast during the handshake is taken for the answer to the self key |
| `C40_calls_wait_refuted` | calls before the end of the handshake are sent without a uuid |
| `C76_uuid_lost_refuted` | after the transport reported a disconnect the client sends its calls without a uuid, without any event |
| `C77_one_error_refuted` | the event handler is told of one error, the caller of `connect` of another |
| `C80_calls_end_refuted` | TypeScript: a call under way when the connection ends never ends, not even after reconnecting, and its object cannot be used again |
| `C81_reusable_refuted` | TypeScript: a request object whose message could not be packed or sent once refuses every later `send` |
| `C82_reads_what_came_refuted` | TypeScript: messages in one piece of data with an undecodable one stay in the queue until more data comes |
| `C84_numbers_run_out_refuted` | TypeScript: after 2^32 - 1 messages nothing can be sent any more (the counter does not wrap around) |
| `C86_assigned_refuted`, `C86_strategy_has_no_effect` | TypeScript server: `assigned()` tests the method `assign` instead of the field, so clients that were not assigned are always served and the identification strategy has no effect |
| `C88_turned_away_refuted` | TypeScript server: the rest of the piece of data of a client that was turned away is handled; the client is asked to leave again, or served |
| `C89_reads_what_came_refuted` | TypeScript server: messages behind an unknown one stay in the queue until more data comes |
| `C91_single_action_refuted` | TypeScript server: required broadcasts of a request with a single action are never sent (C27) |
| `C92_answered_refuted` | TypeScript server: a request whose handler fails gets no answer, not even the declared error |
| `C93_discredited_refuted` | TypeScript server: a client discredited in the middle of a piece of data is served to the end of it |
| `C94_early_call_refuted` | TypeScript client and server: `send` does not wait for `ready`; a call made before it makes the server ask the client to leave |
| `C95_same_number_refuted` | TypeScript client and server: a message that the server's application sends with a number of its own choice is taken for the answer to the call with that number |
| `C96_assign_refuted` | TypeScript client and server: `assign()` of the client after the handshake is never answered, its promise stays pending |
| `C96_failing_handler_refuted` | TypeScript client and server: if a handler fails the client's call stays pending; the client is not told |
| `C97_connects_refuted` | Rust client and TypeScript server: the client waits for `ConnectConfirmationBeacon`, which only a Rust server sends; the handshake never begins |
| `C98_race_refuted` | TypeScript client and Rust server: the client sends its self key as soon as it is connected; if the listener's `select!` takes it before the confirmation is sent, the client is disconnected although nobody did anything wrong |
| `C103_assign_refuted`, `C103_beacon_refuted` | TypeScript client and Rust server: `assign` after the handshake is never answered, and neither is a beacon that the server's application refuses |
| `C54_can_stop_refuted` | a handler awaiting `shutdown()` deadlocks with it |
| `C55_abandoning_refuted` | dropping the future of a call at the wrong moment ends the connection |
| `C56_reconnects_refuted` | connections that end with an error are not renewed |
| `C57_second_confirmation_refuted`, `C57_wrap_around_refuted` | a second confirmation, or one request pending while all numbers are used up, breaks the connection |
| `C58_all_read_refuted` | a broadcast in front of an unreadable packet is not handed out until more bytes come |
| `C23_terminates_refuted`, `C23_every_last_word_loops_refuted` | a workflow file that ends with a word (no final newline) makes the parser loop forever |
| `C60_broadcast_without_conclusion_refuted` | a single action without conclusion cannot have broadcasts |
| `C60_root_request_refuted`, `C60_underscore_refuted` | requests that are root structs, or start with a name with `_`, are rejected in some forms |
| `C60_stray_words_refuted`, `C60_dropped_key_refuted` | stray words in a request body are ignored; a key without `;` is silently dropped |
| `C61_non_ascii_comment_refuted`, `C61_non_ascii_comment_panics_refuted` | a non-ASCII character in a comment shifts the position: other text is read, or the program panics |
| `C62_truncated_rejected_refuted`, `C62_every_cut_accepted_refuted` | a truncated workflow is accepted, the open declaration is dropped |
| `C26_underscore_refuted`, `C26_case_refuted`, `C26_request_case_refuted` | `A.B_C` and `A.B.C`, or `A.Ping` and `A.PING`, get the same module; the second one's file replaces the first one's |
| `C26_reserved_refuted`, `C26_keyword_refuted` | an event called `Error` or a beacon called `Type` gives a module that cannot be compiled |
| `C63_entity_mod_refuted` | an entity called `Mod` gets the file `mod.rs`, which is then replaced |
| `C63_shared_destination_refuted`, `C64_shared_destination_refuted` | producer and consumer in one destination overwrite each other |
| `C66_no_actions_refuted`, `C66_enum_key_refuted` | accepted workflows for which generating stops half way |
| `C67_same_response_refuted`, `C67_error_as_response_refuted` | two conclusions with one response, or a response that is also the error: the client reports the first |
| `C100_same_response_refuted`, `C100_shared_handler_refuted`, `C100_err_handler_refuted` | TypeScript client: two conclusions with one response, conclusions that differ in case only, or one called `Err`: an answer is given to another one's handler |
| `C100_group_as_struct_refuted`, `C102_group_as_request_refuted` | a struct and a group with one name: a message of the group is taken for the struct, by the TypeScript client and the TypeScript server |
| `C100_inherited_name_refuted` | TypeScript client: an answer called `valueOf` (or another name every object has) is found in every message |
| `C101_enum_broadcast_refuted` | TypeScript client: a broadcast that is an enum makes `_onData` throw, since the decoded value is a plain object without `getId` |
| `C101_shared_subject_refuted`, `C102_shared_handler_refuted` | TypeScript: `A.R` next to `AR`: one subject for two broadcasts, one exported name for two handlers |
| `C102_index_lost_refuted` | TypeScript server: the handler of a request called `Index` is replaced by the index of the handlers |
| `C68_shared_broadcast_refuted`, `C68_plain_names_refuted` | a broadcast used in two conclusions, or `A.R` next to `AR`: two type aliases with one name |
| `C68_err_conclusion_refuted`, `C68_same_conclusion_refuted`, `C68_client_event_refuted` | conclusions called `Err` or used twice, a broadcast called `Error`: enum variants declared twice |
| `C69_shared_manifest_refuted` | client and server below one Cargo.toml: the client's dependencies get the server's older versions |
| `C70_single_action_refuted` | the handler of a request with one action has none of its broadcasts (see C27) |
| `C42_help_refuted`, `C42_help_diagram_refuted`, `C42_help_replaced_refuted` | with `--help` the error "file exists" is passed over and generating goes on, also over existing files |
| `C42_value_refuted` | a value `-o` (a file of that name) is taken for the overwrite option as well |
| `C43_swallowed_refuted` | an option in the place of a value hides the argument behind it |
| `C43_repeated_refuted` | an option given twice is reported as unknown |
| `C43_folder_refuted` | destination folders are made before unknown arguments are reported |
| `C71_failure_code_refuted` | a failed generation ends with exit code 0 |
| `C71_missing_value_refuted` | an option whose value is missing is passed over in silence |
| `C71_endless_refuted` | the program may run for ever (see C23) |
| `C72_single_action_refuted` | broadcasts of a request with one action are not in the diagram |
| `C72_event_mark_refuted` | required and optional broadcasts of events are drawn alike |
| `C72_no_actions_refuted` | an accepted workflow without a diagram (see C66) |
| `C107_stop_error_refuted` | Rust server: the error of the transport's `shutdown()` is lost; `run` returns `Ok` (`shutdown_res` is never read) |
| `C107_gave_up_refuted` | Rust server: if the caller of `shutdown(true)` has given up waiting, the shutdown handler is never called and a channel error hides the transport's error |
| `C108_own_call_refuted` | Rust server: a handler that awaits its own `shutdown(true)` keeps the server from stopping for ever |
| `C108_second_call_refuted` | Rust server: of two callers of `shutdown(true)` one gets an error although the server stops |
| `C41_early_call_refuted` | a request made before the consumer is told of the connection gets it expelled |
| `C41_broadcast_refuted` | a broadcast that arrives during the handshake ends it although both sides keep to the protocol |
| `C74_control_refuted` | a message the server's application sends with the number of a pending request is returned as its answer, though the request was never read |
| `C75_beacon_refuted` | a beacon whose handler fails on the server is never answered (the error of `BeaconConfirmation` is never used), and the client's call, which has no timeout, waits for ever |

## How to read seeded/LOG.jsonl

Each line is one wrong program: an edit of a definition, in a scratch copy.
`failed` lists where the build stopped first in each file.  Often this is a
supporting lemma, and then the theorems of the claims in
`not_rebuilt_because_of_failures` were not reached.  Such a line shows that the
proof as a whole rejects the edit.  It does not show that the statement of the
theorem alone would: a proof script can also fail because it depends on the text of
the definition.  Lines whose edit breaks no claim (fixes, for example) are no
evidence for the theorems; from line 308 on a `note` says so.

Where the note says "checked by itself" the statement was tested alone: in the
scratch copy the proofs that fail were admitted, so that the theorem was available
for the wrong program, and `False` was derived from it and a concrete execution.
