{"id": "C01", "title": "Struct messages survive encode/decode", "statement": "For every struct type a protocol can declare and every value of it that contains no present-but-empty optional, no enum value with an empty payload and no string longer than 4 GiB inside a string array, encoding succeeds and decoding the produced bytes yields exactly the same value.", "quantifier": "all protocol types (arbitrary nesting of structs, enums, arrays, optionals) and all values of them", "why_tests_cant": "the space of schemas and values is infinite and recursive; tests fix one schema", "anchors": ["cli/src/protocol/render/rust/static/protocol.encode.rs Encode/EncodeEnum impls", "cli/src/protocol/render/rust/static/protocol.decode.rs Decode/DecodeEnum impls", "cli/src/protocol/render/rust/static/protocol.storage.rs Storage::new", "cli/src/protocol/render/rust/mod.rs structs/enums"]}
{"id": "C02", "title": "Presence of optional fields is preserved", "statement": "For every optional field, a value that is present on the sending side is present on the receiving side and an absent one is absent.", "quantifier": "all optional field types and all values, including empty strings, empty arrays and structs without fields", "why_tests_cant": "the failing values are a measure-zero family (present but zero-length) that fixtures with typical data never hit", "anchors": ["cli/src/protocol/render/rust/static/protocol.encode.rs impl Encode for Option<T> l.377-387", "cli/src/protocol/render/rust/static/protocol.decode.rs impl Decode<Option<T>> l.640-658"]}
{"id": "C03", "title": "Every encodable enum value is decodable", "statement": "For every enum type and every variant value, if encoding succeeds then decoding the bytes succeeds and yields the same variant and payload.", "quantifier": "all enum declarations, all variants, all payloads including zero-length ones", "why_tests_cant": "quantifies over all declarations and payloads; the failing payloads have length zero", "anchors": ["cli/src/protocol/render/rust/mod.rs enums l.266-447 (extract: buf.len() <= U16_LEN)", "cli/src/protocol/render/rust/static/protocol.encode.rs"]}
{"id": "C04", "title": "Decoding depends only on the field map", "statement": "Decoding a struct gives the same result for any reordering of its serialized fields and with any extra serialized fields whose ids the struct does not declare.", "quantifier": "all struct types, all values, all permutations, all insertions of well-formed unknown fields", "why_tests_cant": "all permutations and all foreign fields cannot be enumerated", "anchors": ["cli/src/protocol/render/rust/static/protocol.storage.rs Storage::new/get", "cli/src/protocol/render/rust/mod.rs structs extract_from_storage"]}
{"id": "C05", "title": "A missing field is an error, never a default", "statement": "If the bytes of a struct do not contain one of its declared fields (optional or not), decoding never produces a value (in particular no default value is ever delivered), and it returns an error whenever the payload itself is not cut short.", "quantifier": "all struct types, all byte strings, every declared field", "why_tests_cant": "must hold for every schema position and every malformed payload", "anchors": ["cli/src/protocol/render/rust/static/protocol.decode.rs get_buf_from_source", "cli/src/protocol/render/rust/mod.rs structs, defaults()"]}
{"id": "C06", "title": "Decoding untrusted bytes never panics", "statement": "For every message type and every byte string, decoding returns a value or an error; it never aborts the process/task.", "quantifier": "all byte strings of any length and all types", "why_tests_cant": "fuzzing samples finitely many inputs; the claim is about all of them", "anchors": ["cli/src/protocol/render/rust/static/protocol.storage.rs Storage::id/body", "cli/src/protocol/render/rust/static/protocol.decode.rs Vec<T>"]}
{"id": "C07", "title": "Different values have different encodings", "statement": "Two different values of the same message type (within the supported value range of C01) never encode to the same bytes, so a receiver can never confuse them.", "quantifier": "all types and all pairs of values", "why_tests_cant": "quantifies over all pairs of values", "anchors": ["cli/src/protocol/render/rust/static/protocol.encode.rs", "cli/src/protocol/render/rust/mod.rs structs/enums"]}
{"id": "C08", "title": "Strings survive, and no byte string breaks string decoding", "statement": "Every valid UTF-8 string is delivered unchanged; every byte string whatsoever decodes to some valid UTF-8 string (invalid parts replaced by U+FFFD), never to an error or panic.", "quantifier": "all byte strings", "why_tests_cant": "infinitely many malformed UTF-8 sequences", "anchors": ["cli/src/protocol/render/rust/static/protocol.decode.rs impl Decode<String> l.295-303, Vec<String> l.558-589"]}
{"id": "C09", "title": "Message framing is independent of chunking", "statement": "If the byte stream is the concatenation of packed messages, then however it is cut into chunks, the receiver's queue yields exactly those messages, in order, each once, with the packed id, signature, sequence and timestamp, and the internal buffer ends empty.", "quantifier": "all lists of messages, all partitions of the stream into chunks (including empty chunks)", "why_tests_cant": "exponentially many ways to cut a stream; network decides", "anchors": ["cli/src/protocol/render/rust/static/protocol.buffer.rs Buffer::chunk/next/len/pending", "cli/src/protocol/render/rust/static/protocol.packing.rs pack_buffer, get_header_from_buffer, get_body_from_buffer"]}
{"id": "C10", "title": "No complete message is left unread", "statement": "After the receiver has been fed some bytes, the messages delivered so far are all complete packets received so far: the residual buffer never contains a whole packet.", "quantifier": "all byte streams (also ones with undecodable packets) and all chunkings", "why_tests_cant": "needs all interleavings of good and bad packets with chunk borders", "anchors": ["cli/src/protocol/render/rust/static/protocol.buffer.rs Buffer::chunk l.61-95"]}
{"id": "C11", "title": "An undecodable packet does not desynchronise the stream", "statement": "If a packet has a foreign signature, an unknown id or an undecodable body, exactly that packet is dropped and reported, and every later packet of the stream is still delivered in order once further data arrives.", "quantifier": "all streams made of good and bad packets, all chunkings", "why_tests_cant": "unbounded number of positions and kinds of bad packets", "anchors": ["cli/src/protocol/render/rust/static/protocol.buffer.rs get_message, chunk"]}
{"id": "C12", "title": "Feeding bytes to the receiver never panics", "statement": "For every byte sequence received from a peer the framing layer returns Ok or Err; it never panics.", "quantifier": "all byte sequences, including headers announcing lengths near 2^64", "why_tests_cant": "the failing lengths are the last 26 values of a 64-bit range", "anchors": ["cli/src/protocol/render/rust/static/protocol.packing.rs has_buffer_body l.100-102, get_body_from_buffer l.104-121"]}
{"id": "C13", "title": "Rust to TypeScript compatibility", "statement": "Whatever message the Rust side packs, the TypeScript side generated from the same protocol decodes to the same value.", "quantifier": "all protocols, all message values", "why_tests_cant": "cross-language property over all schemas and values; generated test data uses small protocols", "anchors": ["cli/src/protocol/render/typescript/static/protocol.convertor.storage.ts _getId", "cli/src/protocol/render/typescript/static/protocol.convertor.ts", "cli/src/protocol/render/typescript/mod.rs get_field_decode", "cli/src/protocol/render/rust/static/protocol.encode.rs"]}
{"id": "C14", "title": "TypeScript to Rust compatibility", "statement": "Whatever message the TypeScript side encodes, the Rust side generated from the same protocol decodes to the same value.", "quantifier": "all protocols, all message values", "why_tests_cant": "cross-language property over all schemas and values", "anchors": ["cli/src/protocol/render/typescript/static/protocol.convertor.ts getBuffer", "cli/src/protocol/render/typescript/mod.rs get_field_encode", "cli/src/protocol/render/rust/static/protocol.decode.rs"]}
{"id": "C15", "title": "TypeScript receiver always makes progress", "statement": "Feeding any bytes to the TypeScript receiver terminates and consumes every complete packet.", "quantifier": "all byte sequences", "why_tests_cant": "nontermination cannot be observed by a finite test and depends on hostile input", "anchors": ["cli/src/protocol/render/typescript/static/packing.ts BufferReaderMessages.chunk"]}
{"id": "C16", "title": "Protocol parsing always terminates", "statement": "For every text, parsing a protocol definition finishes with a store or a list of errors.", "quantifier": "all texts", "why_tests_cant": "no finite set of inputs shows termination on all inputs", "anchors": ["cli/src/protocol/parser.rs parse/next"]}
{"id": "C17", "title": "Entity and field ids are unique", "statement": "In every accepted protocol all structs, enums, groups and fields have pairwise different positive ids, so message and field dispatch by id is unambiguous.", "quantifier": "all accepted protocol texts", "why_tests_cant": "quantifies over all protocol texts", "anchors": ["cli/src/protocol/store.rs sequence, open_struct, open_enum, open_group, set_field_name", "cli/src/protocol/parser.rs"]}
{"id": "C18", "title": "Every reference of an accepted protocol is resolved and types are finite", "statement": "In every accepted protocol each field or enum variant of a non-primitive type refers to a struct or enum that exists and was completed earlier in the text; hence no type contains itself and every message type has finite values and a terminating codec.", "quantifier": "all accepted protocol texts", "why_tests_cant": "cyclic or dangling references can hide behind arbitrarily deep group nesting", "anchors": ["cli/src/protocol/store.rs set_field_name, set_enum_name, find_by_path, close", "cli/src/protocol/fields.rs accept_type", "cli/src/protocol/enums.rs accept_type"]}
{"id": "C19", "title": "Duplicate names are rejected", "statement": "A protocol declaring two fields of one struct, or two entities of one scope, with the same name is rejected.", "quantifier": "all protocol texts", "why_tests_cant": "quantifies over all texts", "anchors": ["cli/src/protocol/structs.rs add_field", "cli/src/protocol/store.rs close"]}
{"id": "C20", "title": "Truncated protocol files are rejected", "statement": "If the text ends while a group, struct or enum is still open, parsing reports an error.", "quantifier": "all texts and every truncation point", "why_tests_cant": "every prefix of every protocol is a crash/truncation point", "anchors": ["cli/src/protocol/parser.rs l.68-311 ENext::End"]}
{"id": "C21", "title": "Parsing follows the grammar", "statement": "Printing any well-formed list of declarations (structs, enums, nested groups) in the documented syntax with any white space between tokens and parsing it gives back exactly those declarations with their names, types, modifiers and nesting.", "quantifier": "all declaration trees, all white-space layouts", "why_tests_cant": "the grammar is recursive and white space is unbounded", "anchors": ["cli/src/protocol/parser.rs", "cli/src/protocol/store.rs"]}
{"id": "C22", "title": "Appending declarations keeps wire compatibility", "statement": "Appending further declarations to the end of an accepted protocol text leaves the ids, fields and types of all previously declared structs and enums unchanged.", "quantifier": "all accepted texts and all continuations", "why_tests_cant": "quantifies over all pairs of texts", "anchors": ["cli/src/protocol/store.rs sequence", "cli/src/protocol/parser.rs"]}
{"id": "C23", "title": "Workflow parsing always terminates", "statement": "For every text, parsing a workflow definition finishes with a store or errors.", "quantifier": "all texts", "why_tests_cant": "nontermination depends on the exact end of the file", "anchors": ["cli/src/workflow/parser.rs parse l.81-176, next l.192-286"]}
{"id": "C24", "title": "Accepted workflows refer only to existing protocol entities", "statement": "In every accepted workflow each request, response, error, broadcast, beacon and event reference names a struct or enum present in the protocol.", "quantifier": "all accepted workflow texts and all protocols", "why_tests_cant": "quantifies over all pairs of texts", "anchors": ["cli/src/workflow/request.rs close", "cli/src/workflow/event.rs close", "cli/src/workflow/beacon.rs close l.66-84", "cli/src/workflow/config.rs close"]}
{"id": "C25", "title": "Workflow declarations are unique and disjoint", "statement": "An accepted workflow has at most one config, no request, event or beacon is declared twice, and no beacon is also a request.", "quantifier": "all accepted workflow texts", "why_tests_cant": "quantifies over all texts", "anchors": ["cli/src/workflow/store.rs"]}
{"id": "C26", "title": "Generated handler modules do not collide", "statement": "Two different requests (or events, beacons) of an accepted workflow are rendered to different module names.", "quantifier": "all accepted workflows", "why_tests_cant": "needs all pairs of names", "anchors": ["cli/src/workflow/render/producer/rust/render_mod.rs l.1023-1228 to_lowercase().replace('.', '_')"]}
{"id": "C27", "title": "Declared broadcasts of a request are sent", "statement": "Whenever a request handler of a generated producer returns an action's response, every broadcast declared non-optional for this action is sent to the filtered consumers after the response.", "quantifier": "all request declarations, all handler outcomes", "why_tests_cant": "depends on the declaration; one configuration in the repo's tests has several actions", "anchors": ["cli/src/workflow/render/producer/rust/render_request_handler.rs MODULE_WITH_CONCLUSION/MODULE_NO_CONCLUSION"]}
{"id": "C28", "title": "No handler runs for an unauthenticated consumer", "statement": "A producer never calls a user request/beacon handler for a consumer that has not been confirmed, has not sent its self key, or has not had its protocol and workflow hashes accepted.", "quantifier": "all histories of server events, all byte contents and chunkings, all user handlers", "why_tests_cant": "must hold for every history of connects, data, disconnects and channel deliveries", "anchors": ["cli/src/workflow/render/producer/rust/render_mod.rs process_received_data l.378-651"]}
{"id": "C29", "title": "A producer asks for a disconnect of a consumer at most once", "statement": "During one connection, the producer sends at most one disconnect request per consumer to the server.", "quantifier": "all histories of events", "why_tests_cant": "needs all histories", "anchors": ["cli/src/workflow/render/producer/rust/render_mod.rs disconnect l.318-329"]}
{"id": "C30", "title": "A discredited consumer is not served", "statement": "After the producer has decided to disconnect a consumer, no further message of this consumer reaches a user handler or gets a response.", "quantifier": "all histories of events, all batches of messages", "why_tests_cant": "needs all batches and interleavings", "anchors": ["cli/src/workflow/render/producer/rust/render_mod.rs process_received_data loop"]}
{"id": "C31", "title": "Responses go to the requester with the request's sequence", "statement": "Every message a producer sends as an answer (self-key response, hash response, request response or error, beacon confirmation) is addressed to the consumer whose message is being handled and carries that message's sequence number; every served request gets exactly one answer, in arrival order.", "quantifier": "all histories of events", "why_tests_cant": "needs all histories", "anchors": ["cli/src/workflow/render/producer/rust/render_mod.rs", "cli/src/workflow/render/producer/rust/render_request_handler.rs", "cli/src/workflow/render/producer/rust/render_beacon_emitter.rs"]}
{"id": "C32", "title": "Consumers are isolated from each other", "statement": "Handling data of one consumer changes the connection state of no other consumer.", "quantifier": "all histories, all pairs of consumers", "why_tests_cant": "needs all histories", "anchors": ["cli/src/workflow/render/producer/rust/render_mod.rs listener l.653-838"]}
{"id": "C33", "title": "Producer behaviour is independent of network segmentation", "statement": "What a producer does for a consumer (responses, handler calls, disconnects) depends only on the sequence of messages sent by it, not on how they are grouped into received chunks.", "quantifier": "all message sequences and all segmentations", "why_tests_cant": "segmentation is decided by the network", "anchors": ["cli/src/workflow/render/producer/rust/render_mod.rs process_received_data l.378-651 (assigned/has_key snapshot)"]}
{"id": "C34", "title": "Connected/disconnected events are paired", "statement": "For every consumer the user's connected handler runs exactly once per accepted connection, before any request of it, and disconnected runs exactly once per ended connection; a duplicate connection with a uuid in use never replaces the existing one.", "quantifier": "all histories of server events", "why_tests_cant": "needs all histories", "anchors": ["cli/src/workflow/render/producer/rust/render_mod.rs add_connection l.238-278, remove_connection l.280-316"]}
{"id": "C35", "title": "Broadcast filters select exactly the intended consumers", "statement": "exclude/except/all/filter of the identification filter return exactly the connected consumers described by their arguments, each once.", "quantifier": "all consumer tables and arguments", "why_tests_cant": "quantifies over all tables", "anchors": ["cli/src/workflow/render/producer/rust/render_identification.rs Filter"]}
{"id": "C36", "title": "Responses are matched to the right request", "statement": "A consumer resolves a pending request only with an incoming message carrying that request's sequence number, and at most once.", "quantifier": "all interleavings of requests, incoming messages and timeouts", "why_tests_cant": "needs all interleavings of concurrent tasks", "anchors": ["cli/src/workflow/render/consumer/rust/render_consumer.rs client_api_task"]}
{"id": "C37", "title": "Outstanding requests never share a sequence number", "statement": "Sequence numbers handed out by the consumer are never 0 or 1 (used by the handshake) and no two outstanding requests share one.", "quantifier": "all histories, including more than 2^32 allocations", "why_tests_cant": "needs 2^32 steps to exercise the wrap-around", "anchors": ["cli/src/workflow/render/consumer/rust/render_consumer.rs Sequence"]}
{"id": "C38", "title": "A request timeout affects only that request", "statement": "If a request times out, the connection and all other requests go on; a response that arrives later is ignored.", "quantifier": "all interleavings of timeouts and late responses", "why_tests_cant": "timing dependent", "anchors": ["cli/src/workflow/render/consumer/rust/render_consumer.rs client_api_task AcceptIncome", "cli/src/workflow/render/consumer/rust/render_controller.rs"]}
{"id": "C39", "title": "Broadcasts are never taken for responses", "statement": "A broadcast (sequence 0) sent by the producer at any time is delivered to the broadcast handler of the consumer and never completes one of its requests.", "quantifier": "all interleavings of broadcasts with the handshake and requests", "why_tests_cant": "race between the handshake and broadcasts", "anchors": ["cli/src/workflow/render/consumer/rust/render_consumer.rs client_messages_task, auth"]}
{"id": "C40", "title": "Connected is reported only after a successful handshake", "statement": "The consumer reports 'connected' (and has a uuid) only after the producer answered its self-key request and accepted its protocol and workflow hashes.", "quantifier": "all histories of incoming bytes and task schedules", "why_tests_cant": "needs all schedules", "anchors": ["cli/src/workflow/render/consumer/rust/render_consumer.rs auth, client_messages_task"]}
{"id": "C41", "title": "A compliant consumer is never expelled", "statement": "A consumer that waits for the connect confirmation, then does self-key, waits, hash, waits, then sends requests of an identical protocol/workflow is never disconnected by the producer for lack of key, hash or confirmation, and ends up served, for every segmentation of the stream.", "quantifier": "all interleavings of both machines and all segmentations", "why_tests_cant": "needs all interleavings of two concurrent programs", "anchors": ["cli/src/workflow/render/producer/rust/render_mod.rs", "cli/src/workflow/render/consumer/rust/render_consumer.rs"]}
{"id": "C42", "title": "Existing destination files are not overwritten without permission", "statement": "Without the overwrite option no existing destination protocol file is deleted or replaced.", "quantifier": "all argument vectors and file system states", "why_tests_cant": "all argument orders and file system states", "anchors": ["cli/src/arguments/args_option_files.rs", "cli/src/ctrlargs.rs"]}
{"id": "C43", "title": "Unknown arguments are reported", "statement": "Every argument that is neither a known option nor the value of one is reported, and then nothing is generated.", "quantifier": "all argument vectors", "why_tests_cant": "unbounded argument vectors", "anchors": ["cli/src/ctrlargs.rs get_unknown_args"]}
{"id": "C44", "title": "TypeScript round trip", "statement": "Every message the TypeScript side encodes is decoded by the TypeScript side to the same value.", "quantifier": "all protocols, all message values", "why_tests_cant": "quantifies over all schemas and values", "anchors": ["cli/src/protocol/render/typescript/static/protocol.convertor.ts", "cli/src/protocol/render/typescript/static/protocol.convertor.storage.ts", "cli/src/protocol/render/typescript/mod.rs"]}
{"id": "C45", "title": "From protocol text to delivered values", "statement": "For every protocol text the parser accepts there is a generated codec, and every sequence of messages of the declared types reaches the other side with the same ids and values through any segmentation of the stream.", "quantifier": "all accepted protocol texts, all message sequences, all segmentations", "why_tests_cant": "quantifies over all protocols, messages and segmentations at once", "anchors": ["cli/src/protocol/parser.rs", "cli/src/protocol/store.rs", "cli/src/protocol/render/rust/mod.rs", "cli/src/protocol/render/rust/static/protocol.buffer.rs"]}
{"id": "C46", "title": "Delivered values have the declared type", "statement": "Whatever bytes arrive, a message that is delivered to the application has an id declared in the protocol, and its value is a value of the type declared for that id: no undeclared message, undeclared variant or value of another shape is ever delivered.", "quantifier": "all protocols, all byte sequences", "why_tests_cant": "quantifies over all schemas and all (also malicious) byte sequences", "anchors": ["cli/src/protocol/render/rust/static/protocol.decode.rs", "cli/src/protocol/render/rust/static/protocol.buffer.rs", "cli/src/protocol/render/rust/mod.rs"]}
{"id": "C47", "title": "A failure concerning one consumer does not end the producer", "statement": "No failure that concerns a single consumer (malformed data, refused hashes, a failing handler, a failing send or disconnect, a repeated uuid) ends the listener that serves all consumers.", "quantifier": "all histories of events, all answers of the transport server, all user handlers", "why_tests_cant": "quantifies over all failures of server and handlers at any point of any history", "anchors": ["cli/src/workflow/render/producer/rust/render_mod.rs"]}
{"id": "C48", "title": "Key updates keep what they do not mention", "statement": "An update of a consumer's key or assigned key without the overwrite flag replaces the given fields and keeps optional fields that are left out; with the flag it replaces the key; it changes nothing else about the consumer.", "quantifier": "all key declarations, all keys, all states", "why_tests_cant": "quantifies over all key layouts and all previous states", "anchors": ["cli/src/workflow/render/producer/rust/render_identification.rs", "cli/src/workflow/render/producer/rust/render_mod.rs"]}
{"id": "C49", "title": "Handlers run only for assigned consumers if the producer insists on it", "statement": "With a strategy other than ignoring or logging missing assigned keys, no request or beacon handler runs for a consumer to which the application has not assigned a key during the current connection.", "quantifier": "all histories of events, all byte contents and chunkings, all user handlers", "why_tests_cant": "quantifies over all histories; the check uses a snapshot taken before a batch of messages", "anchors": ["cli/src/workflow/render/producer/rust/render_mod.rs", "cli/src/workflow/render/producer/rust/render_identification.rs"]}
{"id": "C50", "title": "Every result of a call is explained", "statement": "A request or beacon returns a success only with the producer's answer to it; it returns an error only for the reason the error names (timeout, unexpected answer, refused beacon, packing failure, connection going down); shutdown is confirmed only when the connection has ended.", "quantifier": "all schedules, all incoming bytes, all calls", "why_tests_cant": "needs all interleavings of concurrent tasks", "anchors": ["cli/src/workflow/render/consumer/rust/render_controller.rs", "cli/src/workflow/render/consumer/rust/render_consumer.rs", "cli/src/workflow/render/consumer/rust/static/implementation/consumer/api.rs"]}
{"id": "C51", "title": "Every message received has exactly one fate", "statement": "Every message read by the consumer starts a handshake (the confirmation), or is handed to the request whose number it carries, or to the broadcast handler if it is a declared broadcast, or is reported as unknown: exactly one of these, before the next message is looked at.", "quantifier": "all schedules, all incoming bytes and chunkings", "why_tests_cant": "needs all interleavings of the message and request tasks", "anchors": ["cli/src/workflow/render/consumer/rust/render_consumer.rs client_messages_task"]}
{"id": "C52", "title": "Event handlers run in order, none is lost", "statement": "The consumer's event handlers are called one at a time, in the order of the events, none skipped or invented; broadcasts are handled in their order of arrival; when the connection is over all handlers have been called and the shutdown event was the last.", "quantifier": "all schedules, all incoming bytes", "why_tests_cant": "needs all interleavings", "anchors": ["cli/src/workflow/render/consumer/rust/render_consumer.rs consumer_emitter_task, listen"]}
{"id": "C53", "title": "Nothing happens after the end of a connection", "statement": "The end of a connection is reported once, as a shutdown only if shutdown was called; afterwards nothing is sent or received, no event is emitted, and every call still waiting returns in its next step.", "quantifier": "all schedules, all calls made before or after the end", "why_tests_cant": "needs all interleavings", "anchors": ["cli/src/workflow/render/consumer/rust/render_consumer.rs listen"]}
{"id": "C54", "title": "A connection can always be stopped", "statement": "After shutdown or a cancellation the tasks of the connection can always reach its end.", "quantifier": "all reachable states", "why_tests_cant": "a liveness property over all reachable states", "anchors": ["cli/src/workflow/render/consumer/rust/render_consumer.rs", "cli/src/workflow/render/consumer/rust/render_controller.rs"]}
{"id": "C55", "title": "Abandoning a call affects only this call", "statement": "If the application drops the future of a call, the connection and all other calls go on.", "quantifier": "all schedules, all points at which a call is dropped", "why_tests_cant": "depends on the await at which the future is dropped", "anchors": ["cli/src/workflow/render/consumer/rust/render_consumer.rs client_api_task", "cli/src/workflow/render/consumer/rust/render_controller.rs"]}
{"id": "C56", "title": "Broken connections are renewed, stopped ones are not", "statement": "With the reconnection strategy, a connection that broke is renewed if the reconnect handler agrees; after a confirmed shutdown there is no further connection.", "quantifier": "all sequences of connections, all schedules", "why_tests_cant": "needs all ways a connection can end", "anchors": ["cli/src/workflow/render/consumer/rust/render_consumer.rs connect l.117-170, listen"]}
{"id": "C57", "title": "A connection never breaks because of its own numbering", "statement": "The consumer never ends a connection because a sequence number is already in use.", "quantifier": "all histories, including more than 2^32 requests", "why_tests_cant": "needs 2^32 requests or a race of two handshakes", "anchors": ["cli/src/workflow/render/consumer/rust/render_consumer.rs client_api_task"]}
{"id": "C58", "title": "The consumer reads exactly the messages that were sent", "statement": "However the transport cuts the stream of packets into chunks and however the tasks interleave, the consumer takes the messages of the readable packets in their order, each once; when it waits for the transport it has taken all that were delivered completely.", "quantifier": "all packet lists, all chunkings, all schedules", "why_tests_cant": "infinitely many chunkings combined with interleavings", "anchors": ["cli/src/workflow/render/consumer/rust/render_consumer.rs client_messages_task", "cli/src/protocol/render/rust/static/protocol.buffer.rs"]}
{"id": "C59", "title": "A connection lives until somebody ends it", "statement": "A connection ends only because of the application (abandoning, cancelling, shutting down), a timeout, the transport, a failed or second handshake, exhausted numbers, or bytes that make the decoder panic; otherwise all its tasks keep running.", "quantifier": "all schedules, all incoming bytes", "why_tests_cant": "needs all interleavings and all ways a task can end", "anchors": ["cli/src/workflow/render/consumer/rust/render_consumer.rs listen"]}
{"id": "C60", "title": "The documented workflow forms are read back exactly", "statement": "A workflow made of the documented declarations (configuration, requests with or without actions, events, beacons), written with any white space and comments between the words, is accepted if its references exist and its declarations do not clash, and the store holds exactly what was declared: all names, conclusions, responses, broadcasts, optional marks, targets and keys, in order.", "quantifier": "all lists of declarations, all layouts, all protocols", "why_tests_cant": "infinitely many declarations and layouts", "anchors": ["cli/src/workflow/parser.rs", "cli/src/workflow/request.rs", "cli/src/workflow/event.rs", "cli/src/workflow/beacon.rs", "cli/src/workflow/config.rs"]}
{"id": "C61", "title": "Layout and comments do not change a workflow", "statement": "Two workflow texts that differ only in white space and comments have the same outcome.", "quantifier": "all texts", "why_tests_cant": "comments may hold any characters and stand between any two words", "anchors": ["cli/src/workflow/parser.rs next l.192-286, parse l.151"]}
{"id": "C62", "title": "Truncated workflow files are rejected", "statement": "If a workflow text ends inside a declaration, parsing reports an error.", "quantifier": "all workflows and every truncation point", "why_tests_cant": "every prefix of every workflow is a truncation point", "anchors": ["cli/src/workflow/parser.rs parse l.81-176 ENext::End"]}
{"id": "C63", "title": "Generating leaves the user's files alone", "statement": "Generating a project changes only files of the generated project and the nearest manifest; the files that the generator leaves to the user to fill in (events, responses, beacons, broadcasts, context) are never changed once they exist, whatever the outcome.", "quantifier": "all workflows, protocols, file systems and destinations", "why_tests_cant": "needs all names a workflow can give rise to", "anchors": ["cli/src/workflow/render/render.rs", "cli/src/workflow/render/producer/rust/render.rs", "cli/src/workflow/render/consumer/rust/render.rs", "cli/src/helpers/fs.rs"]}
{"id": "C64", "title": "Every declared module of a generated Rust project exists", "statement": "After a successful generation every mod.rs declares only modules whose file is there, and every request, event, beacon and broadcast has its module.", "quantifier": "all workflows and file systems", "why_tests_cant": "needs all workflows and all earlier contents of the destination", "anchors": ["cli/src/workflow/render/producer/rust/render.rs l.34-67", "cli/src/workflow/render/consumer/rust/render.rs l.54-75"]}
{"id": "C65", "title": "Generating again changes nothing", "statement": "Running the generator twice has the same result as running it once, and what is generated depends on the workflow and the protocol only, not on stale generated files.", "quantifier": "all workflows and file systems", "why_tests_cant": "needs all workflows and all earlier contents of the destination", "anchors": ["cli/src/workflow/render/render.rs", "cli/src/helpers/fs.rs"]}
{"id": "C66", "title": "An accepted workflow can be generated", "statement": "If the parser accepts a workflow and the destinations lie below a readable manifest, generating succeeds.", "quantifier": "all workflows and file systems", "why_tests_cant": "the parser and five renderers have to agree on every form of declaration", "anchors": ["cli/src/workflow/render/render.rs l.40-119", "cli/src/workflow/request.rs l.200-228"]}
{"id": "C67", "title": "The client reports the conclusion the server chose", "statement": "In a generated client the answer to a request is reported under the conclusion it was declared for, and an error as an error.", "quantifier": "all workflows, all requests and actions", "why_tests_cant": "depends on the order of the generated match arms for all sets of references", "anchors": ["cli/src/workflow/render/consumer/rust/render_controller.rs l.167-212"]}
{"id": "C68", "title": "Names declared in a generated file are distinct", "statement": "No generated Rust file declares the same module, type, variant or method twice in one scope.", "quantifier": "all workflows", "why_tests_cant": "needs all pairs of names", "anchors": ["cli/src/workflow/render/producer/rust/render_request_response.rs", "cli/src/workflow/render/consumer/rust/render_controller.rs", "cli/src/workflow/render/consumer/rust/render_consumer.rs l.56-61"]}
{"id": "C69", "title": "The user's manifest is extended, not replaced", "statement": "Cargo.toml and package.json keep everything but the dependencies the generated code needs, and these are there after a successful generation in the versions needed.", "quantifier": "all manifests, workflows and destinations", "why_tests_cant": "needs all manifests and nestings of destinations", "anchors": ["cli/src/workflow/render/producer/rust/render_cargo.rs", "cli/src/workflow/render/consumer/rust/render_cargo.rs", "cli/src/workflow/render/producer/typescript/render_package.rs"]}
{"id": "C70", "title": "The generated server sends every declared broadcast", "statement": "The generated handler of a request or event contains every conclusion and every broadcast declared for it, in order, with its optional mark.", "quantifier": "all workflows, requests and events", "why_tests_cant": "needs all workflows", "anchors": ["cli/src/workflow/render/producer/rust/render_request_handler.rs l.100-227", "cli/src/workflow/render/producer/rust/render_event_emitter.rs l.117-216"]}
{"id": "C71", "title": "A run that reports success has generated what was asked for", "statement": "The exit code of the command line tool tells whether it did what the arguments ask for: zero after everything asked for is written, non-zero otherwise.", "quantifier": "all argument vectors and file system states", "why_tests_cant": "needs all argument vectors, all contents of the files named by them and all file systems", "anchors": ["cli/src/main.rs", "cli/src/ctrlargs.rs", "cli/src/arguments/"]}
{"id": "C72", "title": "The diagram shows every message of the workflow", "statement": "The generated diagram has an arrow for every request, response, error, event, broadcast and beacon of the workflow, and no other; the arrows of a request are in its group.", "quantifier": "all workflows", "why_tests_cant": "needs all workflows", "anchors": ["cli/src/workflow/render/puml/render_request.rs", "cli/src/workflow/render/puml/render_event.rs", "cli/src/workflow/render/puml/render_beacon.rs"]}
{"id": "C73", "title": "The server merges both keys field by field", "statement": "After a successful generation the identification file of the server names both keys of the config and merges exactly the fields of the structs these keys denote, in order, each by its optional mark.", "quantifier": "all protocols, workflows, destinations and server languages", "why_tests_cant": "needs all protocols and references to keys inside groups", "anchors": ["cli/src/workflow/render/producer/rust/render_identification.rs l.178-247", "cli/src/workflow/render/producer/typescript/render_identification.rs l.113-160"]}
{"id": "C74", "title": "A call returns what the server made for that very call", "statement": "A request returns the answer that the handler of the server's application gave to it, a beacon returns after its handler has taken it: no answer is swapped between concurrent calls, invented, or left over from an earlier call with the same number.", "quantifier": "all interleavings of both runtimes, segmentations of the streams, numbers of calls and handlers", "why_tests_cant": "needs all interleavings, more than 2^32 calls and all answers of handlers", "anchors": ["cli/src/workflow/render/consumer/rust/render_consumer.rs", "cli/src/workflow/render/producer/rust/render_mod.rs", "cli/src/workflow/render/producer/rust/render_request_handler.rs"]}
{"id": "C75", "title": "No call is left waiting", "statement": "When a connected client and server have done everything they can do, every request and every beacon call of the client has returned, or its future has been dropped: there is no interleaving in which both sides wait for each other.", "quantifier": "all interleavings of both runtimes, segmentations of the streams, numbers of calls and handlers", "why_tests_cant": "needs all interleavings; a lost wake-up shows only in some of them, and a test cannot tell waiting for ever from waiting", "anchors": ["cli/src/workflow/render/consumer/rust/render_consumer.rs", "cli/src/workflow/render/consumer/rust/static/implementation/consumer/api.rs", "cli/src/workflow/render/producer/rust/render_mod.rs", "cli/src/workflow/render/producer/rust/render_beacon_emitter.rs"]}
{"id": "C76", "title": "Calls made after 'connected' carry the uuid", "statement": "Every message of a call that the application makes after 'connected' was reported is packed with the uuid of a completed handshake, so that the server knows who sends it.", "quantifier": "all schedules of the consumer's tasks, all bytes from the transport, all calls", "why_tests_cant": "needs all interleavings of calls, handshakes and events of the transport", "anchors": ["cli/src/workflow/render/consumer/rust/render_consumer.rs client_messages_task l.493-627", "cli/src/workflow/render/consumer/rust/render_request.rs", "cli/src/workflow/render/consumer/rust/render_beacons.rs"]}
{"id": "C77", "title": "The end of a connection is reported with its cause", "statement": "When a connection ends, the event handler and the caller of connect are told the same error, that of a task of the connection which failed; they are told of no error exactly if none failed.", "quantifier": "all schedules, all ways the three tasks of a connection can end", "why_tests_cant": "needs all interleavings and all combinations of failures", "anchors": ["cli/src/workflow/render/consumer/rust/render_consumer.rs listen l.330-372"]}
{"id": "C78", "title": "A TypeScript client never uses a number twice", "statement": "The messages a TypeScript client sends are numbered 1, 2, 3, ... over all connections, so that no answer can belong to two of them.", "quantifier": "all executions: calls, events of the transport, failing sends", "why_tests_cant": "needs all interleavings and arbitrarily many messages", "anchors": ["cli/src/workflow/render/consumer/typescript/render_consumer.rs"]}
{"id": "C79", "title": "A call of a TypeScript client ends with the response to its own message", "statement": "The promise of a request, a beacon or assign is settled once, by the message that carries the number of its own message, which came after that was sent, and in the way its declaration says; it is given one message only.", "quantifier": "all executions, all orders of answers, all pieces of data", "why_tests_cant": "needs all interleavings of concurrent calls and answers", "anchors": ["cli/src/workflow/render/consumer/typescript/render_consumer.rs", "cli/src/workflow/render/consumer/typescript/render_request.rs", "cli/src/workflow/render/consumer/typescript/render_beacon.rs"]}
{"id": "C80", "title": "Every call of a TypeScript client ends", "statement": "The promise of every call is settled when its answer has come or cannot come any more.", "quantifier": "all executions", "why_tests_cant": "a test cannot tell waiting for ever from waiting", "anchors": ["cli/src/workflow/render/consumer/typescript/render_consumer.rs", "cli/src/workflow/render/consumer/typescript/render_request.rs", "cli/src/workflow/render/consumer/typescript/render_beacon.rs"]}
{"id": "C81", "title": "A TypeScript request object can be sent again", "statement": "A request or beacon object that was not destroyed can be sent again as soon as its previous call has ended, whatever the outcome.", "quantifier": "all executions, all outcomes of packing and sending", "why_tests_cant": "needs all orders of calls, failures and answers", "anchors": ["cli/src/workflow/render/consumer/typescript/render_request.rs", "cli/src/workflow/render/consumer/typescript/render_beacon.rs"]}
{"id": "C82", "title": "A TypeScript client hands out every message in order", "statement": "Broadcasts are never taken for answers; the application is told of each one once and in order; however the data is cut, every message of the stream is read as soon as it is complete.", "quantifier": "all executions, all streams and segmentations", "why_tests_cant": "needs all segmentations and interleavings with calls", "anchors": ["cli/src/workflow/render/consumer/typescript/render_consumer.rs", "cli/src/protocol/render/typescript/static/packing.ts"]}
{"id": "C83", "title": "A TypeScript client is ready only after its handshake", "statement": "'ready' is emitted with a uuid only after a connection was made, the key was sent, the server answered it with that uuid, the hashes were sent and the server accepted them. The client keeps the first uuid it was given on a connection.", "quantifier": "all executions", "why_tests_cant": "needs all interleavings of connections, calls and messages", "anchors": ["cli/src/workflow/render/consumer/typescript/render_consumer.rs"]}
{"id": "C84", "title": "A TypeScript client can always send", "statement": "As long as the transport takes messages, a request object that is neither destroyed nor in use can be sent.", "quantifier": "all reachable states", "why_tests_cant": "shows only after 2^32 messages", "anchors": ["cli/src/workflow/render/consumer/typescript/render_consumer.rs", "cli/src/protocol/render/typescript/static/protocol.convertor.ts"]}
{"id": "C85", "title": "A TypeScript server serves only clients that completed the handshake", "statement": "A handler of the application is called for a message only right after that message was read, from a client that has sent the right hashes and has a key.", "quantifier": "all executions: clients, data, failures, calls of the application", "why_tests_cant": "needs all orders of messages of several clients and all segmentations", "anchors": ["cli/src/workflow/render/producer/typescript/render_mod.rs"]}
{"id": "C86", "title": "A TypeScript server enforces the identification strategy", "statement": "A client that the application has not assigned is served only if the strategy says that this is ignored or logged.", "quantifier": "all executions, all strategies", "why_tests_cant": "needs all orders of assign and messages; a test of one order with one strategy shows nothing", "anchors": ["cli/src/workflow/render/producer/typescript/render_identification.rs", "cli/src/workflow/render/producer/typescript/render_mod.rs"]}
{"id": "C87", "title": "A TypeScript server answers a message with its own number, once", "statement": "What is sent to a single client carries the number of a message of that client and is what that message asks for; a handler is called for one message and gives it at most one answer.", "quantifier": "all executions", "why_tests_cant": "needs all interleavings of handlers and messages", "anchors": ["cli/src/workflow/render/producer/typescript/render_mod.rs", "cli/src/workflow/render/producer/typescript/render_request_handler.rs", "cli/src/workflow/render/producer/typescript/render_beacon_emitter.rs"]}
{"id": "C88", "title": "A TypeScript server asks a client to leave only for cause", "statement": "disconnect is called for a client only because of its own data, its own handlers or the application's verdict; a client that keeps to the workflow is not asked to leave; one that was turned away is not served.", "quantifier": "all executions", "why_tests_cant": "needs all histories of several clients", "anchors": ["cli/src/workflow/render/producer/typescript/render_mod.rs"]}
{"id": "C89", "title": "A TypeScript server takes every message of a client in order", "statement": "However the data is cut, every complete message of a connection is taken once, in order, and before the server waits for more data.", "quantifier": "all executions, all streams and segmentations", "why_tests_cant": "needs all segmentations", "anchors": ["cli/src/workflow/render/producer/typescript/render_mod.rs", "cli/src/protocol/render/typescript/static/packing.ts"]}
{"id": "C90", "title": "A TypeScript server reports connections and disconnections in pairs", "statement": "The application is told of a new client with a new object only when the last one with that uuid is gone, and of a disconnection only after the connection of the same object.", "quantifier": "all executions", "why_tests_cant": "needs all orders of events of the transport", "anchors": ["cli/src/workflow/render/producer/typescript/render_mod.rs"]}
{"id": "C91", "title": "A TypeScript server sends the declared broadcasts", "statement": "The response of a request carries every required broadcast of its action and no other, each once; all of them are sent to everyone they are meant for before the handler has ended; an event that lacks a required broadcast is reported.", "quantifier": "all executions, all calls of the application on the response", "why_tests_cant": "needs all sequences of calls on the response object", "anchors": ["cli/src/workflow/render/producer/typescript/render_request_handler.rs", "cli/src/workflow/render/producer/typescript/render_event_emitter.rs", "cli/src/workflow/render/producer/typescript/render_request_handlers_mod.rs"]}
{"id": "C92", "title": "A TypeScript server answers every request and beacon", "statement": "Every handler that has ended has sent an answer.", "quantifier": "all executions, all failures of the application and of sending", "why_tests_cant": "needs all orders of failures", "anchors": ["cli/src/workflow/render/producer/typescript/render_request_handler.rs", "cli/src/workflow/render/producer/typescript/render_beacon_emitter.rs", "cli/src/workflow/render/producer/typescript/render_mod.rs"]}
{"id": "C93", "title": "A TypeScript server does not serve a discredited client", "statement": "After the application has discredited a client none of its messages is handled.", "quantifier": "all executions", "why_tests_cant": "needs all moments at which the application may call discredit", "anchors": ["cli/src/workflow/render/producer/typescript/render_identification.rs", "cli/src/workflow/render/producer/typescript/render_mod.rs"]}
{"id": "C94", "title": "A TypeScript client is not turned away by the server generated with it", "statement": "If no handler fails and the server's application does not discredit the client, the server never asks the client to leave, whatever the client's application calls and when.", "quantifier": "all executions of a server and one of its clients, any other clients, any delays and segmentation", "why_tests_cant": "the result depends on the order in which calls, the handshake and the transport interleave", "anchors": ["cli/src/workflow/render/consumer/typescript/render_consumer.rs", "cli/src/workflow/render/producer/typescript/render_mod.rs"]}
{"id": "C95", "title": "A call of a TypeScript client returns what the server made for it", "statement": "A call that does not fail before its message is sent returns what decodes from the answer to this very message; ready gives the uuid by which the server knows the client.", "quantifier": "all executions of a server and one of its clients, any number of calls under way", "why_tests_cant": "answers of concurrent calls can come in every order, mixed with broadcasts and messages of the application", "anchors": ["cli/src/workflow/render/consumer/typescript/render_consumer.rs", "cli/src/workflow/render/consumer/typescript/render_request.rs", "cli/src/workflow/render/producer/typescript/render_mod.rs", "cli/src/workflow/render/producer/typescript/render_request_handler.rs"]}
{"id": "C96", "title": "No call of a TypeScript client is left waiting", "statement": "When nothing is under way and neither side has anything left to do, every call whose message was sent has ended, and a connected client is ready.", "quantifier": "all executions of a server and one of its clients that have come to rest", "why_tests_cant": "needs all ways in which both sides can come to rest, with failures", "anchors": ["cli/src/workflow/render/consumer/typescript/render_consumer.rs", "cli/src/workflow/render/consumer/typescript/render_request.rs", "cli/src/workflow/render/producer/typescript/render_mod.rs", "cli/src/workflow/render/producer/typescript/render_request_handler.rs"]}
{"id": "C97", "title": "A Rust client becomes connected to a TypeScript server", "statement": "A Rust client and a TypeScript server generated from the same protocol and workflow complete the handshake, and the server serves the client.", "quantifier": "all executions of a TypeScript server and one of its Rust clients, any other clients, any delays and segmentation", "why_tests_cant": "that something never happens in any interleaving cannot be tested; a test that times out leaves open why", "anchors": ["cli/src/workflow/render/consumer/rust/render_consumer.rs", "cli/src/workflow/render/producer/typescript/render_mod.rs", "cli/src/workflow/render/producer/rust/render_mod.rs"]}
{"id": "C98", "title": "A TypeScript client is not turned away by a Rust server", "statement": "A TypeScript client and a Rust server generated from the same protocol and workflow complete the handshake; if nothing fails the server never disconnects the client for lack of confirmation, key or hash, and serves its requests.", "quantifier": "all executions of a Rust server and one of its TypeScript clients, any other clients, any delays and segmentation", "why_tests_cant": "the outcome depends on which of two ready channels the server takes first and on how the network delays the first message; tests on one machine see one order", "anchors": ["cli/src/workflow/render/consumer/typescript/render_consumer.rs", "cli/src/workflow/render/producer/rust/render_mod.rs"]}
{"id": "C99", "title": "A call of a TypeScript client returns what a Rust server made for it", "statement": "A call of a TypeScript client of a Rust server returns what decodes from the answer to its own message; ready gives the uuid by which the server knows the client.", "quantifier": "all executions of a Rust server and one of its TypeScript clients, any number of concurrent calls, any delays and segmentation", "why_tests_cant": "a swapped answer shows only in particular interleavings of calls, broadcasts and answers", "anchors": ["cli/src/workflow/render/consumer/typescript/render_consumer.rs", "cli/src/workflow/render/producer/rust/render_mod.rs"]}
{"id": "C100", "title": "A TypeScript client reports each answer under its own conclusion", "statement": "In a generated TypeScript client the answer to a request resolves the promise with what was decoded and calls the handler of the conclusion it was declared for, an error the handler of errors, and any other message rejects it.", "quantifier": "all accepted protocols and workflows, all requests in them, all received messages", "why_tests_cant": "the tests in the generated code read properties of nested objects; whether another message passes them depends on all names in the protocol", "anchors": ["cli/src/workflow/render/consumer/typescript/render_request.rs:258-350", "cli/src/protocol/render/typescript/mod.rs:1590-1682"]}
{"id": "C101", "title": "A TypeScript client announces a broadcast on its own subject", "statement": "A message for which no call is waiting is emitted on the subject of the broadcast it belongs to; if it is no broadcast nothing is emitted.", "quantifier": "all accepted protocols and workflows, all broadcasts in them, all received messages", "why_tests_cant": "depends on the numbering of all entities and on how each kind of entity is decoded", "anchors": ["cli/src/workflow/render/consumer/typescript/render_consumer.rs:263-271,395-416", "cli/src/protocol/render/typescript/mod.rs:1624-1682"]}
{"id": "C102", "title": "A TypeScript server calls the handler declared for the message", "statement": "The generated TypeScript server calls for a request or beacon of an accepted consumer the handler exported from the file made for it, with what was decoded, and no handler for any other message.", "quantifier": "all accepted protocols and workflows, all messages", "why_tests_cant": "whether a message passes the test for another one depends on all names in the protocol; handlers are found by names put together from references", "anchors": ["cli/src/workflow/render/producer/typescript/render_mod.rs:520-590", "cli/src/workflow/render/producer/typescript/render_request_handlers_mod.rs", "cli/src/workflow/render/producer/typescript/render_beacon_emitters_mod.rs"]}
{"id": "C103", "title": "No call of a TypeScript client is left waiting by a Rust server", "statement": "When a Rust server and one of its TypeScript clients have come to rest, every call of the client that was sent has ended, and a client that was connected is ready.", "quantifier": "all executions of a Rust server and one of its TypeScript clients that have come to rest, any number of concurrent calls, any delays and segmentation", "why_tests_cant": "a call that waits for ever shows only as nothing happening; the cause may lie in either program or in the order of messages", "anchors": ["cli/src/workflow/render/producer/rust/render_mod.rs", "cli/src/workflow/render/consumer/typescript/render_consumer.rs"]}
{"id": "C104", "title": "A Rust server and a TypeScript client left to themselves come to rest", "statement": "When nobody outside acts any more - no application, no further consumer and no failing connection - a Rust server and its TypeScript client exchange messages only for finitely many steps, and unless the server has stopped they end with nothing under way, nothing unread and the client's confirmation sent.", "quantifier": "all executions of a Rust server and one of its TypeScript clients in which the client was sent less than 2^64 bytes, all orders of the remaining steps, any segmentation", "why_tests_cant": "that an exchange ends is a statement about all continuations; a test can only wait for a time", "anchors": ["cli/src/workflow/render/producer/rust/render_mod.rs", "cli/src/workflow/render/consumer/typescript/render_consumer.rs"]}
{"id": "C105", "title": "A TypeScript server and a TypeScript client left to themselves come to rest", "statement": "When nobody outside acts any more a TypeScript server and its TypeScript client exchange messages only for finitely many steps, whatever the handlers of the server answer, and end with nothing under way, no message unhandled and no handler running.", "quantifier": "all executions of a TypeScript server with one of its TypeScript clients and any number of other clients in which less than 2^64 bytes were sent in each direction, all orders of the remaining steps and results of handlers, any segmentation", "why_tests_cant": "that an exchange ends is a statement about all continuations; a test can only wait for a time", "anchors": ["cli/src/workflow/render/producer/typescript/render_mod.rs:218-520", "cli/src/workflow/render/consumer/typescript/render_consumer.rs"]}
{"id": "C106", "title": "A Rust server and a Rust client left to themselves come to rest", "statement": "When nobody outside acts any more a Rust server and its Rust client exchange messages only for finitely many steps; then the server has taken everything from the connection, and the client has read everything and waits, or its connection has ended. A client whose connection has been ended by anybody always finishes, except while one of its handlers awaits its own shutdown.", "quantifier": "all executions of a Rust server and one of its Rust clients, all orders of the remaining steps, any segmentation, any failures of sending and packing", "why_tests_cant": "that an exchange ends is a statement about all continuations of five concurrent tasks; a test can only wait for a time", "anchors": ["cli/src/workflow/render/producer/rust/render_mod.rs:653-835", "cli/src/workflow/render/consumer/rust/render_consumer.rs:171-714"]}
{"id": "C107", "title": "The end of a Rust server is reported with its cause", "statement": "When run of a generated Rust server returns, the transport, the listener and the task that stops the transport have each ended once, the shutdown handler was called once after them, and the result is the error of the shutdown handler, else that of the transport, else that of the listener, else Ok.", "quantifier": "all executions of a server: all orders of the three concurrent pieces of code, all events, all results of transport and handlers, any number of concurrent calls of shutdown", "why_tests_cant": "which error is reported depends on the order in which three concurrent pieces of code end and on callers that give up", "anchors": ["cli/src/workflow/render/producer/rust/render_mod.rs:840-935", "cli/src/workflow/render/producer/rust/render_mod.rs:653-836"]}
{"id": "C108", "title": "A Rust server can always be stopped", "statement": "After Control::shutdown was called, or one piece of the server has ended, the server takes finitely many steps of its own and run returns; every call of shutdown then returns, and a call that waits returns Ok only after transport and listener have ended.", "quantifier": "all executions of a server in which shutdown was asked for, all orders of the remaining steps, any number of concurrent calls of shutdown", "why_tests_cant": "that a server stops in every order of steps is a statement about all continuations; a test can only wait for a time", "anchors": ["cli/src/workflow/render/producer/rust/render_mod.rs:182-201", "cli/src/workflow/render/producer/rust/render_mod.rs:840-935"]}
