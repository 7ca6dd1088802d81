{"id": "C01", "title": "Integers survive the wire", "statement": "WriteInt32/WriteInt16 append the big-endian two's-complement bytes of the number, and ReadInt32/ReadInt16 on a buffer starting with those bytes return exactly that number and leave exactly the bytes that followed; conversely every 4 (2) bytes decode to an in-range number that re-encodes to the same bytes.", "quantifier": "every int32/int16 value, every 4/2-byte string, every following buffer content", "why_tests_cant": "2^32 values times every continuation; sign and wrap boundaries are only sampled by tests", "anchors": ["pkg/pg/read_buffer.go:ReadInt32,ReadInt16", "pkg/pg/write_buffer.go:WriteInt32,WriteInt16"]}
{"id": "C02", "title": "Strings survive the wire", "statement": "For a string without NUL bytes, WriteString followed by ReadString returns the same string and leaves the remaining bytes; in general ReadString returns exactly the bytes before the first NUL and consumes them plus that NUL, and fails without consuming iff there is no NUL.", "quantifier": "every byte string and every buffer", "why_tests_cant": "unbounded lengths and contents", "anchors": ["pkg/pg/read_buffer.go:ReadString", "pkg/pg/write_buffer.go:WriteString"]}
{"id": "C03", "title": "Integer arrays survive the wire", "statement": "WriteInt32Array/WriteInt16Array followed by the matching ReadInt32Array/ReadInt16Array of the same length returns the same array and leaves the remaining bytes.", "quantifier": "every array of in-range integers of any length, every following buffer", "why_tests_cant": "unbounded array lengths", "anchors": ["pkg/pg/read_buffer.go:ReadInt32Array,ReadInt16Array", "pkg/pg/write_buffer.go:WriteInt32Array,WriteInt16Array"]}
{"id": "C04", "title": "A failed read consumes nothing", "statement": "Whenever a ReadBuffer method returns an error the buffer holds exactly the bytes it held before the call.", "quantifier": "every ReadBuffer method, argument and buffer content", "why_tests_cant": "all buffers/arguments", "anchors": ["pkg/pg/read_buffer.go"]}
{"id": "C05", "title": "A successful read consumes exactly a prefix", "statement": "Whenever a ReadBuffer method succeeds, the bytes consumed followed by the bytes left are exactly the bytes it held before, and the number consumed is the one the method documents (n, 1, 4, 2, string length+1, 4k, 2k).", "quantifier": "every ReadBuffer method, argument and buffer content", "why_tests_cant": "all buffers/arguments", "anchors": ["pkg/pg/read_buffer.go"]}
{"id": "C06", "title": "ReadBytes succeeds exactly on 0<=n<=Len", "statement": "ReadBytes(n) returns the first n bytes iff 0<=n<=Len, io.EOF iff n>Len; a negative n is never reported as an error: it crashes the caller. ReadInt32Array/ReadInt16Array behave accordingly for k (including 64-bit overflow of 4k/2k).", "quantifier": "every int argument and every buffer", "why_tests_cant": "the whole int range", "anchors": ["pkg/pg/read_buffer.go:ReadBytes,ReadInt32Array,ReadInt16Array"]}
{"id": "C07", "title": "WriteBuffer only appends", "statement": "Every WriteBuffer method leaves the bytes already in the buffer unchanged and appends exactly the encoding of its argument (lengths: n,1,4,2,len+1,4k,2k).", "quantifier": "every method, argument, and buffer content; every sequence of writes", "why_tests_cant": "all buffers and write sequences", "anchors": ["pkg/pg/write_buffer.go"]}
{"id": "C08", "title": "Frames survive the wire", "statement": "Reading a frame from a stream that starts with the bytes of NewStandardFrame(t,b) (NewStartupFrame(b)) returns that same frame, with type t and body b, and leaves the rest of the stream untouched, for every body whose length+4 fits an int32.", "quantifier": "every type byte, every body, every continuation of the stream", "why_tests_cant": "unbounded bodies and streams", "anchors": ["pkg/pg/standard_frame.go", "pkg/pg/startup_frame.go"]}
{"id": "C09", "title": "Frame reading does not depend on TCP segmentation", "statement": "ReadStandardFrame and ReadStartupFrame return the same frame (or error) and leave the same unread bytes for any way the network splits the same byte stream into reads.", "quantifier": "every byte stream and every segmentation of it, including empty reads", "why_tests_cant": "all segmentations", "anchors": ["pkg/pg/standard_frame.go:ReadStandardFrame", "pkg/pg/startup_frame.go:ReadStartupFrame"]}
{"id": "C10", "title": "Back-to-back frames never bleed into each other", "statement": "Reading frames one after the other from the concatenation of any list of encoded frames returns exactly that list, in order.", "quantifier": "every list of (type, body) pairs, any continuation", "why_tests_cant": "unbounded sequences", "anchors": ["pkg/pg/standard_frame.go", "pkg/pg/startup_frame.go"]}
{"id": "C11", "title": "A truncated stream never yields a frame", "statement": "If the stream ends before the announced frame is complete, frame reading returns an error and never a partial frame.", "quantifier": "every frame and every strict prefix of it", "why_tests_cant": "all truncation points", "anchors": ["pkg/pg/standard_frame.go:ReadStandardFrame", "pkg/pg/startup_frame.go:ReadStartupFrame"]}
{"id": "C12", "title": "Bad length fields are handled totally", "statement": "For every 32-bit length field L in a header: if L>=4 the frame has exactly L-4 body bytes; for -2^31+4<=L<4 the illegal length is NOT rejected (as one would expect; refuted) but yields an empty-body frame that still carries the bogus length; for L<-2^31+4 the body size wraps to L-4+2^32.", "quantifier": "every length field value and every stream", "why_tests_cant": "2^32 header values", "anchors": ["pkg/pg/standard_frame.go:ReadStandardFrame", "pkg/pg/startup_frame.go:ReadStartupFrame"]}
{"id": "C13", "title": "The length header always tells the truth", "statement": "The 4-byte length field written by NewStandardFrame/NewStartupFrame equals body length + 4. (True exactly when body length + 4 <= 2^31-1; beyond, it wraps.)", "quantifier": "every body length", "why_tests_cant": "multi-gigabyte bodies cannot be unit tested", "anchors": ["pkg/pg/standard_frame.go:NewStandardFrame", "pkg/pg/startup_frame.go:NewStartupFrame"]}
{"id": "C14", "title": "Every message type survives Frame then Parse", "statement": "For every message kind (startup, the 8 authentication requests, backend key data, command complete, data row, empty query, error, notice, negotiate protocol version, parameter status, password, query, ready for query, row description, terminate, generic), parsing the frame produced from a representable message returns an equal message.", "quantifier": "every representable message value of every kind", "why_tests_cant": "unbounded field lists and strings", "anchors": ["pkg/pg/*_message.go"]}
{"id": "C15", "title": "A message sent is the message received", "statement": "Sending any representable message and receiving on the other end returns the same message and leaves the following bytes for the next receive; a sequence of messages is received in the same order.", "quantifier": "every representable message / list of messages, any continuation", "why_tests_cant": "unbounded sequences and values", "anchors": ["pkg/pg/conn.go:RecvMessage,SendMessage"]}
{"id": "C16", "title": "NegotiateProtocolVersion cannot be received", "statement": "RecvMessage rejects every NegotiateProtocolVersion message with ErrMalformedMessage, because the dispatcher routes it to the notice parser, although its own parser accepts it. (The expected property, that it can be received, is refuted for every such message.)", "quantifier": "every NegotiateProtocolVersion message", "why_tests_cant": "the failure is for every message of this type", "anchors": ["pkg/pg/conn.go:RecvMessage", "pkg/pg/negotiate_protocol_version_message.go"]}
{"id": "C17", "title": "A parser accepts only its own frame type", "statement": "Every typed Parse*Message function returns ErrMalformedMessage, without looking at the body, on a frame whose type byte differs from its own (including startup frames).", "quantifier": "every parser, every frame of another type", "why_tests_cant": "all frames", "anchors": ["pkg/pg/*_message.go"]}
{"id": "C18", "title": "Forwarding never invents body bytes", "statement": "Whenever a frame parses to a message, the body of the re-serialised message is a prefix of the received body: the proxy may only drop trailing bytes, never alter, insert or reorder.", "quantifier": "every frame accepted by any parser (through RecvMessage or RecvStartupMessage)", "why_tests_cant": "all byte strings", "anchors": ["pkg/pg/conn.go:RecvMessage,RecvStartupMessage"]}
{"id": "C19", "title": "Protocol-conforming backend messages are forwarded byte for byte", "statement": "For every byte string that is a well-formed backend message of protocol 3.0 of a kind other than NegotiateProtocolVersion and unsupported authentication codes, receive-then-send reproduces exactly the same bytes.", "quantifier": "every well-formed backend message according to an independent grammar", "why_tests_cant": "infinite language", "anchors": ["pkg/pg/conn.go:RecvMessage,SendMessage"]}
{"id": "C20", "title": "Simple-query frontend messages are forwarded byte for byte", "statement": "For every well-formed Query, Password, Terminate, Parse, Bind, Close, Flush, CopyData, CopyDone, CopyFail and FunctionCall frontend message, receive-then-send reproduces exactly the same bytes.", "quantifier": "every well-formed frontend message of those kinds", "why_tests_cant": "infinite language", "anchors": ["pkg/pg/conn.go:RecvMessage,SendMessage"]}
{"id": "C21", "title": "Extended-query frontend messages are not forwarded byte for byte", "statement": "The expected property (Sync, Describe and Execute reach the database unchanged) is false because their type bytes collide with backend messages: every Sync is rejected; no Describe shorter than 80KB is received as a message, and one whose name holds bytes denoting an int32 below -1 crashes the proxy; every Execute with a row limit below 2^24 is forwarded truncated (row limit lost). Exactly: an Execute arrives unchanged only if it names a portal and the bytes of its row limit are c0 c1 00 00 with c0, c1 not 0; for all others it is proved which bytes are lost or that the message is refused. No Describe below 16 MB arrives unchanged.", "quantifier": "every Sync/Describe/Execute message", "why_tests_cant": "the failures hold for every message of these kinds", "anchors": ["pkg/pg/conn.go:RecvMessage", "pkg/pg/parameter_status_message.go", "pkg/pg/data_row_message.go", "pkg/pg/error_response_message.go"]}
{"id": "C22", "title": "Which authentication exchanges pass through", "statement": "Every authentication request with a code in {0,2,3,5,6,7,8,9} passes through byte for byte; every other code (SASL 10-12 and unknown ones) is rejected; a client response carried in a 'p' message is rejected when it contains no NUL and truncated after its first NUL otherwise. (The expected property, that all pass, is refuted.)", "quantifier": "every authentication code, every response body", "why_tests_cant": "all codes and bodies", "anchors": ["pkg/pg/authentication_request_message.go", "pkg/pg/password_message.go", "pkg/pg/conn.go"]}
{"id": "C23", "title": "Exactly which byte sequences crash message decoding", "statement": "RecvMessage crashes exactly when the stream starts with a complete frame that is a RowDescription with a negative field count, or a DataRow with a negative column count or that reaches a column size below -1; on every other input it returns a message or an error (or waits for more input). (The expected property, that no input crashes it, is refuted.)", "quantifier": "every byte stream", "why_tests_cant": "all byte strings; the exact crash set needs a proof", "anchors": ["pkg/pg/conn.go:RecvMessage", "pkg/pg/data_row_message.go", "pkg/pg/row_description_message.go", "pkg/pg/read_buffer.go:ReadBytes"]}
{"id": "C24", "title": "No byte sequence can crash startup decoding", "statement": "RecvStartupMessage returns a startup message or an error on every byte stream; it never crashes and always terminates.", "quantifier": "every byte stream", "why_tests_cant": "all byte strings", "anchors": ["pkg/pg/conn.go:RecvStartupMessage", "pkg/pg/startup_message.go:ParseStartupMessage"]}
{"id": "C25", "title": "NULL stays NULL, empty stays empty", "statement": "In a forwarded DataRow each column is NULL iff it was NULL in the received one (size -1), and an empty value stays a non-NULL empty value; the number and order of columns are unchanged.", "quantifier": "every accepted DataRow frame", "why_tests_cant": "all rows", "anchors": ["pkg/pg/data_row_message.go"]}
{"id": "C26", "title": "GetParameter returns the first occurrence", "statement": "GetParameter(name) returns the value of the first parameter with that name in the order received, and the empty string iff no parameter has that name or the first one has an empty value.", "quantifier": "every startup message and name", "why_tests_cant": "all lists incl. duplicates", "anchors": ["pkg/pg/startup_message.go:GetParameter"]}
{"id": "C27", "title": "Decoding yields no more than the frame justifies", "statement": "A message received by RecvMessage or RecvStartupMessage has content no larger than the frame body it came from, and never more list elements than that body has bytes; the NegotiateProtocolVersion parser, called directly, crashes on every negative option count.", "quantifier": "every frame", "why_tests_cant": "all frames", "anchors": ["pkg/pg/negotiate_protocol_version_message.go", "pkg/pg/data_row_message.go", "pkg/pg/row_description_message.go"]}
{"id": "C28", "title": "Database URL: defaults and overrides", "statement": "ParseDatabaseURI yields host/port/user/password/database equal to the URL's own component when present (query parameter first, then authority/path), otherwise localhost/5432/OS user/absent/the user; no other keys appear except query parameters and those.", "quantifier": "every parsed URL, with or without an OS user", "why_tests_cant": "all URL component combinations", "anchors": ["pkg/pg/dsn.go:ParseDatabaseURI,defaultConnectionSettings"]}
{"id": "C29", "title": "Only postgres URLs are accepted", "statement": "ParseDatabaseURI succeeds iff the URL parses and its scheme is exactly postgres or postgresql; it fails with the parser's error if the URL does not parse and with ErrInvalidURI if the scheme is another, and never otherwise.", "quantifier": "every URL", "why_tests_cant": "all schemes", "anchors": ["pkg/pg/dsn.go:ParseDatabaseURI"]}
{"id": "C30", "title": "Query parameter order is irrelevant", "statement": "The resulting settings do not depend on the (random) iteration order over query parameters, and for a repeated query parameter the first value wins.", "quantifier": "every query multimap and every iteration order", "why_tests_cant": "Go randomises map iteration; tests see one order", "anchors": ["pkg/pg/dsn.go:ParseDatabaseURI"]}
{"id": "C31", "title": "Database defaults to the connecting user unless the query names one", "statement": "When no database is given: without a user in the query string the database equals the user in the resulting settings (empty if there is none); with a user in the query string the settings carry that user but the database is still the authority or OS user (so the documented default is refuted there).", "quantifier": "every URL without a database", "why_tests_cant": "all URLs", "anchors": ["pkg/pg/dsn.go:ParseDatabaseURI"]}
{"id": "C32", "title": "Exactly one Fire wins", "statement": "Among any number of concurrent calls of Event.Fire, exactly one returns true once all complete; Fire never crashes (the done channel is closed once). Fire always comes back: while some call of Fire is in progress one of the calls can act, and each call takes at most eight actions of its own.", "quantifier": "any number of goroutines, every interleaving of their internal steps", "why_tests_cant": "interleavings", "anchors": ["pkg/server/event.go:Fire"]}
{"id": "C33", "title": "Once Fire returned, everybody sees it", "statement": "After any Fire call returned (true or false), HasFired returns true and Done is closed, forever; before any Fire call started HasFired is false and Done is open.", "quantifier": "every interleaving", "why_tests_cant": "interleavings", "anchors": ["pkg/server/event.go"]}
{"id": "C34", "title": "Get returns a fresh, real configuration", "statement": "If Get returns a configuration, it was delivered by the source and it is at least as new as the newest configuration installed when Get was called.", "quantifier": "every interleaving of Get, Subscribe, Unsubscribe, Close and source updates by any number of goroutines", "why_tests_cant": "interleavings and histories", "anchors": ["pkg/server/config_distributor.go:Get"]}
{"id": "C35", "title": "Get fails only after Close", "statement": "Get and Subscribe return ErrConfigDistributorClosed only if the distributor has been closed; a Get or Subscribe that starts after Close completed always returns it.", "quantifier": "every interleaving", "why_tests_cant": "interleavings", "anchors": ["pkg/server/config_distributor.go:Get,Subscribe,Close"]}
{"id": "C36", "title": "Subscribers get exactly the relevant updates in order", "statement": "The configurations sent to a subscribed channel are exactly: the current configuration at subscription time if relevant relative to none, then every later installed configuration for which (no checks were given or) some check of (old,new) is true, in installation order, each once, until unsubscribed.", "quantifier": "every interleaving, every set of checks, every update history", "why_tests_cant": "histories", "anchors": ["pkg/server/config_distributor.go:Subscribe,notifySubscribersLocked,shouldSendUpdatedConfig"]}
{"id": "C37", "title": "Installed configurations are the source's, in order", "statement": "The sequence of configurations installed is exactly the sequence received from the source, in order, none skipped; there is at most one monitoring goroutine.", "quantifier": "every interleaving", "why_tests_cant": "histories", "anchors": ["pkg/server/config_distributor.go:monitorConfig,Subscribe"]}
{"id": "C38", "title": "Get never deadlocks the distributor", "statement": "The distributor mutex is held forever exactly when its holder is going to send on the private channel of a waiting Get that is not (or no longer) receiving; in every other reachable state the holder can release it. Such a deadlock is reachable three ways: a configuration installed between Get's cache check and its Subscribe, Close racing a pending delivery, and a second configuration arriving before the Get unsubscribed. So the expectation that Get returns once a configuration or Close arrives is false.", "quantifier": "every interleaving", "why_tests_cant": "needs a specific schedule", "anchors": ["pkg/server/config_distributor.go:Get,waitForNextConfig,Subscribe"]}
{"id": "C39", "title": "Nothing is sent on a closed channel", "statement": "If clients close a channel only when it is not subscribed and never subscribe it again, no execution crashes; the only possible crash is a send on a channel its client closed. Server.Start does not keep this rule (it closes its subscribed channel on return), and the next relevant configuration then crashes the process.", "quantifier": "every interleaving", "why_tests_cant": "schedule + history", "anchors": ["pkg/server/config_distributor.go:notifySubscribersLocked", "pkg/server/server.go:Start"]}
{"id": "C40", "title": "The distributor lock is exclusive", "statement": "At no time are two goroutines inside the distributor's write-locked sections, or one inside a write-locked and another inside a read-locked section.", "quantifier": "every interleaving", "why_tests_cant": "interleavings", "anchors": ["pkg/server/config_distributor.go"]}
{"id": "C41", "title": "Closing the source closes the distributor", "statement": "If the monitor finds the source closed and the mutex free, its own next five steps fire the closed event, cancel all subscriptions and end it; the monitor never ends unless the distributor was closed. Close takes effect once: subscriptions are cancelled at most once in any execution, and a Close call made after one has completed returns at once, touching nothing. A Subscribe that passed its check before Close can still register afterwards.", "quantifier": "every interleaving", "why_tests_cant": "interleavings", "anchors": ["pkg/server/config_distributor.go:monitorConfig,Close"]}
{"id": "C42", "title": "SSL is always declined and negotiation continues", "statement": "For each SSLRequest received the proxy answers exactly one 'N' byte and waits for the next startup packet; nothing else is sent to the client before the database is connected.", "quantifier": "every client byte stream", "why_tests_cant": "unbounded request sequences", "anchors": ["pkg/server/session.go:negotiateSessionParams"]}
{"id": "C43", "title": "Startup negotiation is not bounded", "statement": "For every n there is an execution in which the client sends n SSLRequests, gets n refusals, and is then served normally. (The expectation that a client cannot keep the proxy in negotiation is false.)", "quantifier": "every n", "why_tests_cant": "no test can send unboundedly many", "anchors": ["pkg/server/session.go:negotiateSessionParams"]}
{"id": "C44", "title": "No database connection before the checks pass", "statement": "The proxy dials the database, and sends it bytes, only if a startup packet with protocol version 3.0 arrived whose first database parameter equals the configured database; the address dialled is the configured host and port and the bytes sent are the re-serialised startup packet.", "quantifier": "every client byte stream and every configuration", "why_tests_cant": "all streams", "anchors": ["pkg/server/session.go:negotiateSessionParams,establishDBConnection"]}
{"id": "C45", "title": "Only the first database parameter is checked", "statement": "A served client's startup packet has the configured database as its first database parameter; if it has only one, that one is the configured database. A later duplicate database parameter is not checked and is forwarded as is, and PostgreSQL uses the last one. (So the expectation that clients reach only the configured database is false.)", "quantifier": "every client startup packet", "why_tests_cant": "needs an adversarial packet", "anchors": ["pkg/server/session.go:negotiateSessionParams", "pkg/pg/startup_message.go:GetParameter"]}
{"id": "C46", "title": "A rejected client is told nothing", "statement": "If no database connection was made when Start returned, the client received at most one 'N' per SSLRequest and nothing else: in particular no error response when it asked for another database or protocol version. (So the expectation that a rejected client is told why is false.)", "quantifier": "every rejected startup packet", "why_tests_cant": "all packets", "anchors": ["pkg/server/session.go:negotiateSessionParams,Start", "README.md"]}
{"id": "C47", "title": "A session uses one configuration snapshot", "statement": "host, port and database used by a session all come from the same configuration, obtained at first use, whatever later configuration changes occur; a failure is reported and leaves the session unable to dial.", "quantifier": "every sequence of configuration updates between the calls", "why_tests_cant": "histories", "anchors": ["pkg/server/session.go:getDBConnnectionParam"]}
{"id": "C48", "title": "Client-to-database order and integrity", "statement": "At every moment the bytes written to the database are a byte prefix of: the startup packet followed by the re-serialisation of the messages the client sent, in the order sent: nothing lost in the middle, duplicated, reordered or mixed with the other direction.", "quantifier": "every interleaving of the session goroutines, every client/database byte stream, every write failure point, every Close time", "why_tests_cant": "interleavings × streams", "anchors": ["pkg/server/session.go:startClientInPump,startProcessing,startDBOutPump"]}
{"id": "C49", "title": "Database-to-client order and integrity", "statement": "At every moment the bytes written to the client are a byte prefix of: the SSL refusals followed by the re-serialisation of the messages the database sent, in order.", "quantifier": "every interleaving, stream, failure point and Close time", "why_tests_cant": "interleavings × streams", "anchors": ["pkg/server/session.go:startDBInPump,startProcessing,startClientOutPump"]}
{"id": "C50", "title": "Conforming traffic is forwarded verbatim", "statement": "If the traffic in a direction consists of protocol-conforming messages of supported kinds, the bytes forwarded in that direction are a literal prefix of the bytes received.", "quantifier": "every interleaving and every conforming stream", "why_tests_cant": "interleavings × streams", "anchors": ["pkg/server/session.go", "pkg/pg/conn.go"]}
{"id": "C51", "title": "Nothing gets stuck", "statement": "In a running session that was not closed and saw no error, whenever no internal step is possible every complete message received has been forwarded in full; and from every state the number of consecutive internal steps is bounded.", "quantifier": "every reachable state, every schedule", "why_tests_cant": "liveness over all schedules", "anchors": ["pkg/server/session.go:startProcessing"]}
{"id": "C52", "title": "At most 64 messages are buffered per channel", "statement": "Each of the four message channels holds at most 64 messages; in each direction at most 131 messages received have not yet been handed to the network.", "quantifier": "every interleaving", "why_tests_cant": "interleavings", "anchors": ["pkg/server/session.go:NewSession"]}
{"id": "C53", "title": "A client that does not read blocks its own messages", "statement": "If in a running session only writes to the client are possible, either everything the client sent was forwarded or the client channel is full (64 messages), one message is being written and one is held by the processing goroutine. In that state, which 66 unread messages produce, nothing the client sends reaches the database until it reads or the session is closed. (So the expectation that the directions do not block each other is false.)", "quantifier": "schedules", "why_tests_cant": "needs specific schedule", "anchors": ["pkg/server/session.go:startProcessing"]}
{"id": "C54", "title": "Hangups do not end Start", "statement": "Once the session goroutines run, Start does not return in any execution without an external Close call, even if both peers hang up; the connections stay open. (So the expectation that Start ends when a peer hangs up is false.)", "quantifier": "every execution without an external Close", "why_tests_cant": "a never-returning call for all schedules", "anchors": ["pkg/server/session.go:Start"]}
{"id": "C55", "title": "What can crash a session", "statement": "If url.Parse does not panic, a session crashes the process only by sending on a closed channel after a Close, or on one of the messages the decoder cannot survive (C23). Every Close that completes while an in-pump or the processing goroutine holds a message does crash. (So the expectation that Close may be called at any time is false.)", "quantifier": "every interleaving", "why_tests_cant": "schedule", "anchors": ["pkg/server/session.go:Close,startClientInPump,startDBInPump,startProcessing"]}
{"id": "C56", "title": "What Close releases", "statement": "When a Close has completed, the client connection and the four channels are closed, and so is the database connection unless it was established after Close began: Close during the dial leaks it, even past the return of Start.", "quantifier": "every interleaving", "why_tests_cant": "schedule", "anchors": ["pkg/server/session.go:Close,establishDBConnection"]}
{"id": "C57", "title": "Session.Close is idempotent", "statement": "Only the first of any number of concurrent Close calls closes the connections and channels, each at most once; later calls return nil and change nothing; Close calls never deadlock.", "quantifier": "any number of concurrent Close calls", "why_tests_cant": "interleavings", "anchors": ["pkg/server/session.go:Close", "pkg/server/event.go"]}
{"id": "C58", "title": "Start reports the first failure", "statement": "When Start returns from the running phase its result is the first non-nil error any session goroutine returned, in time order, and all five goroutines have finished; a Start on a closed session returns ErrSessionClosed without touching the network.", "quantifier": "every interleaving", "why_tests_cant": "interleavings", "anchors": ["pkg/server/session.go:Start"]}
{"id": "C59", "title": "Everything forwarded is logged", "statement": "The full frame of every message forwarded in either direction is written to the log, including the PasswordMessage. (So the expectation that credentials are not logged is false.)", "quantifier": "every password", "why_tests_cant": "all passwords", "anchors": ["pkg/server/session.go:startProcessing"]}
{"id": "C60", "title": "Server.Start runs once", "statement": "Among any number of Start calls at most one gets past the start check; a call that does not returns ErrServerAlreadyStarted or ErrServerClosed having done nothing, a call that does returns a non-nil error, and at most one Start call ever returns anything other than those two errors.", "quantifier": "any number of concurrent calls, any interleaving with Close", "why_tests_cant": "interleavings", "anchors": ["pkg/server/server.go:Start"]}
{"id": "C61", "title": "At most one listener is active", "statement": "Every listener ever installed is closed except possibly the current one; whenever the server lock is free the current listener is open; every listener is closed at most once, and an installed listener is closed exactly when the server closed it. No connection is accepted from a listener after it was closed.", "quantifier": "every interleaving of Serve, Close and accept loops", "why_tests_cant": "interleavings", "anchors": ["pkg/server/server.go:changeListener,Serve,Close"]}
{"id": "C62", "title": "The listener installed last wins", "statement": "The current listener is always the one installed last. That this is the listener of the newest configuration is refuted: the goroutines serving two configurations race, and the listener of the older one can replace (and close) that of the newer one for good.", "quantifier": "every interleaving", "why_tests_cant": "schedule", "anchors": ["pkg/server/server.go:Start,Serve,changeListener"]}
{"id": "C63", "title": "What Close closes and what it waits for", "statement": "When Close empties the session table every listener installed and every session registered so far has been closed, and none of them is in the table any more. After that, when the server can do nothing more by itself and Close still waits, each goroutine it waits for is accepting on a listener installed, or running a session registered, after that moment; if there is none Close goes on. The server alone can only ever take boundedly many actions. Both kinds of latecomer exist (refuted expectation): Close then waits until the watchdog crashes the process.", "quantifier": "every interleaving", "why_tests_cant": "schedule", "anchors": ["pkg/server/server.go:Close,changeListener,registerSession"]}
{"id": "C64", "title": "Close returned means goroutines are gone", "statement": "A Close call that did the closing returns only after a moment at which no goroutine created by the server was running. That none is created later is refuted: Start itself is not waited for, may take one more configuration after Close has returned, and leaves that listener open for good.", "quantifier": "every interleaving", "why_tests_cant": "interleavings", "anchors": ["pkg/server/server.go:Close,do"]}
{"id": "C65", "title": "The session table is exact", "statement": "The session table holds each session once; each entry belongs to exactly one ServeConn call between registration and removal; until Close empties it every such call has its entry; a finished ServeConn leaves no entry.", "quantifier": "every interleaving", "why_tests_cant": "interleavings", "anchors": ["pkg/server/server.go:registerSession,removeSession,ServeConn"]}
{"id": "C66", "title": "After Close began nothing new is accepted", "statement": "A Start, Serve or ServeConn call made after the shutdown event has fired returns ErrServerClosed, whatever happens around it; its listener is never installed and its connection never registered.", "quantifier": "every interleaving", "why_tests_cant": "interleavings", "anchors": ["pkg/server/server.go"]}
{"id": "C67", "title": "Server.Close is idempotent", "statement": "At most one Close call acts; a Close call returns nil having done nothing, or fires the shutdown, closes at most one listener, waits for the goroutines and returns the error of closing that listener; at most one call ever returns an error; once the event has fired a further Close returns nil at once and changes nothing.", "quantifier": "any number of calls", "why_tests_cant": "interleavings", "anchors": ["pkg/server/server.go:Close"]}
{"id": "C68", "title": "What becomes of a served connection", "statement": "When ServeConn has returned, its session is closed and the connection closed or being closed, or it returned ErrServerClosed without ever registering and the connection is still open. The expectation that every accepted connection is closed is refuted by the latter: a connection accepted just before Close is never closed.", "quantifier": "every interleaving", "why_tests_cant": "schedule", "anchors": ["pkg/server/server.go:ServeConn"]}
{"id": "C69", "title": "Exit code tells the outcome", "statement": "The command exits 0 iff help/version was requested (last occurrence of the two flags counts) or the server was run and returned no error, and 1 otherwise. The server is run, once and with the configuration just loaded, iff arguments parse, neither help nor version was requested, and the requested configuration file loads and can be watched. Each failure prints exactly one message naming the error of the step that failed; help/version touches nothing.", "quantifier": "every argument parse result, configuration outcome and server outcome", "why_tests_cant": "all combinations", "anchors": ["pkg/cli/cli.go:Run,prepareConfigChan"]}
{"id": "C70", "title": "The server sees the initial configuration first", "statement": "What the server has received, followed by what is in the channel or about to enter it, is always the configuration loaded at start-up followed by one per successful reload in order; unreadable versions are skipped; each read returns the file's contents at that moment; there is exactly one reload per write event; after a write event that follows the file's last change, the newest configuration handed over is the file's; and a write can always reach the server while the watcher lives. A change made between the initial load and the start of the watch is never noticed (expectation refuted).", "quantifier": "every sequence of file events and read results", "why_tests_cant": "histories", "anchors": ["pkg/cli/cli.go:prepareConfigChan", "pkg/cli/watch_server_config.go"]}
{"id": "C71", "title": "File events reach the right callback", "statement": "For every file-system event at most one callback runs: OnCreate if the create bit is set, else OnWrite if the write bit is set, else OnRemove if the remove bit is set, else none; unset callbacks are skipped. An event with both create and write therefore never triggers OnWrite.", "quantifier": "every event mask and every subset of callbacks", "why_tests_cant": "2^32 masks × histories", "anchors": ["pkg/cli/file_watcher.go:Watch"]}
{"id": "C72", "title": "Only plain write events reload the configuration", "statement": "Without an event whose write bit is set and create bit clear nothing is reloaded, whatever else happens to the file: the server sees only the initial configuration. Replacing the file (rename/remove + create, as editors do) therefore does not reload it (expectation refuted).", "quantifier": "every event sequence without write events", "why_tests_cant": "histories", "anchors": ["pkg/cli/file_watcher.go", "pkg/cli/watch_server_config.go"]}
{"id": "C73", "title": "StopWatch may be called exactly once, after Watch succeeded", "statement": "A StopWatch call crashes iff Watch has not yet created its channel or StopWatch was called before; the first one after a successful Watch never crashes. After it the watcher's own actions can always bring both goroutines to their end and close the fsnotify watcher, and once the handler noticed it nothing more is received or called; but callbacks may still run after StopWatch returned (expectation refuted).", "quantifier": "every call sequence", "why_tests_cant": "sequences", "anchors": ["pkg/cli/file_watcher.go:StopWatch"]}
{"id": "C74", "title": "The OID mapping is the rows delivered", "statement": "A mapping returned by OIDTableMapping holds exactly the rows delivered, the last row per OID winning; a failing query or row is reported with its error. The calls made are exactly: the query, Next and Scan for each row up to the first that cannot be scanned, a last Next if there is none, Close. A failure of the iteration itself is not reported: the partial mapping is returned as success (expectation refuted).", "quantifier": "every row sequence and failure point", "why_tests_cant": "all row sequences", "anchors": ["pkg/pgmeta/inspector.go:OIDTableMapping"]}
{"id": "C75", "title": "Inspect never leaks or returns a dead handle", "statement": "Inspect returns an inspector iff open and ping succeed; if ping fails the handle is closed; it makes no other call. Close closes the handle once and returns the outcome.", "quantifier": "every outcome of open and ping", "why_tests_cant": "combinations", "anchors": ["pkg/pgmeta/inspector.go:Inspect"]}
{"id": "C76", "title": "An event behaves like a three-state object", "statement": "Whatever the interleaving of the atomic accesses inside Fire (including sync.Once), an Event is always in one of three states (not fired, being fired by one goroutine, fired), moves only forward and only by that goroutine, HasFired/Done observations agree with that state, and a Fire call returns only in the last state.", "quantifier": "every interleaving, any number of goroutines", "why_tests_cant": "interleavings", "anchors": ["pkg/server/event.go"]}
{"id": "C77", "title": "Close reports the error of the last connection closed", "statement": "A non-nil result of Close is the error of closing the database connection if there was one, else of the client connection, and is returned by the first Close only. An error of closing the client connection is lost when a database connection exists.", "quantifier": "every interleaving, every close result", "why_tests_cant": "interleavings", "anchors": ["pkg/server/session.go:Close"]}
{"id": "C78", "title": "After Close, Start comes to an end", "statement": "After a completed Close, unless the database connection was established after it began, the session goroutines take only a bounded number of steps, and when they can take none the process has crashed or Start can return, with the first error. A connection established after Close can keep Start waiting as long as the database stays silent.", "quantifier": "every interleaving", "why_tests_cant": "liveness over all schedules", "anchors": ["pkg/server/session.go:Start,Close"]}
{"id": "C79", "title": "What Serve leaves behind", "statement": "Serve never returns nil; when it has returned, its listener was installed or it returned ErrServerClosed, and if an installed listener is still open it is still the current one. That a finished Serve leaves no open listener is refuted: after a permanent Accept error the listener stays open and current with nobody accepting.", "quantifier": "every interleaving", "why_tests_cant": "interleavings", "anchors": ["pkg/server/server.go:Serve"]}
{"id": "C80", "title": "An unusable address changes nothing", "statement": "If listening on the address of a new configuration fails, the server goes back to waiting with listener, sessions, lock, pending configurations and goroutines unchanged.", "quantifier": "every state", "why_tests_cant": "states", "anchors": ["pkg/server/server.go:Start"]}
{"id": "C81", "title": "The server lock is always released", "statement": "At most one goroutine is in a critical section of the server lock, its holder can always go on by itself, and when the server can do nothing more by itself the lock is free.", "quantifier": "every interleaving", "why_tests_cant": "interleavings", "anchors": ["pkg/server/server.go"]}
{"id": "C82", "title": "What Watch reports", "statement": "If no fsnotify error arrives before Watch returns, it returns the result of adding the path or the error of creating the fsnotify watcher; while the handler lives its result is that of adding the path. Watch always returns: from any point seven actions of the caller and the goroutine it started suffice, whatever fsnotify answers. An early fsnotify error breaks this both ways: success although the handler has already given up, failure although the path was added (refuted expectations). If adding the path fails both goroutines stay around until StopWatch or an fsnotify error. The error that ended the watch is never logged: the log line always prints nil. That line is written, once, exactly if the last of the result of adding the path and the fsnotify errors is an error.", "quantifier": "every interleaving, every fsnotify outcome", "why_tests_cant": "interleavings of three goroutines", "anchors": ["pkg/cli/file_watcher.go:Watch"]}
{"id": "C83", "title": "Run serves until the process ends", "statement": "In the whole program (file watcher, distributor, server, sessions) Run never returns: Start never returns, neither of Run's deferred Close calls is reached, and once it serves it serves from then on. It starts to serve only after the configuration file was read, its configuration handed to the distributor, and the file watcher reported success. The state of every component is one it can reach on its own, so everything proved of the components holds of them inside the program.", "quantifier": "every execution of the whole program", "why_tests_cant": "interleavings of all goroutines of the program", "anchors": ["pkg/server/run.go:Run", "pkg/cli/cli.go:Run"]}
{"id": "C84", "title": "A session never waits for a configuration", "statement": "Whenever a session is inside ConfigDistributor.Get a configuration is installed and Get is past no point where it would wait: Get's waiting subscription is never used. The only subscription ever made is the server's, so the deadlocks of Get (C38) cannot happen in the program, and every answer a session gets from Get is a configuration, never an error.", "quantifier": "every execution of the whole program", "why_tests_cant": "interleavings of all goroutines of the program", "anchors": ["pkg/server/run.go:Run", "pkg/server/config_distributor.go:Get"]}
{"id": "C85", "title": "What crashes the program", "statement": "Watcher, distributor and server never panic. Provided url.Parse does not panic, the program crashes only on a RowDescription or DataRow message with a negative count or column length (C23), sent by a client or a database; in particular there is never a send on a closed channel. Such a message of eleven bytes from one client ends the program and every other client's session (refuted expectation: sessions are isolated).", "quantifier": "every execution of the whole program, every byte sequence", "why_tests_cant": "interleavings and inputs", "anchors": ["pkg/server/run.go:Run", "pkg/cli/cli.go:Run"]}
{"id": "C86", "title": "The order in which configurations take effect", "statement": "Once Run serves, the distributor has installed the first configuration and every one reloaded since, in order, at most three being under way; the server has received, in order, exactly those whose listen address differs from the previous one's, at most two being under way; each received configuration is tried once, in order, and the addresses listened on are those where listening succeeded. Yet the newest address need not be the one in use when nothing is under way (refuted expectation: newest address wins).", "quantifier": "every execution of the whole program", "why_tests_cant": "interleavings, sequences of file changes", "anchors": ["pkg/server/run.go:Run", "pkg/cli/cli.go:Run"]}
{"id": "C88", "title": "Established sessions never end", "statement": "Once a session relays it does so for as long as the program runs: Start does not return, the session stays in the server's table and its connection open, also when client and database have both hung up (refuted expectation: hanging up frees the session).", "quantifier": "every execution of the whole program", "why_tests_cant": "unbounded executions", "anchors": ["pkg/server/run.go:Run", "pkg/server/session.go:Start"]}
{"id": "C89", "title": "Only configurations from the file are used", "statement": "Every address dialled is given by the database URL, and every address listened on is the listen address, of a configuration the configuration file has contained.", "quantifier": "every execution of the whole program, every sequence of file contents", "why_tests_cant": "interleavings, sequences of file changes", "anchors": ["pkg/server/run.go:Run", "pkg/cli/cli.go:Run"]}
{"id": "C90", "title": "New connections use new configurations", "statement": "A connection accepted after some moment is served with a configuration at least as new as the one installed at that moment. The address a client connected to and the database it is given need not be of the same configuration (refuted expectation: address and database match).", "quantifier": "every execution of the whole program", "why_tests_cant": "interleavings", "anchors": ["pkg/server/run.go:Run", "pkg/cli/cli.go:Run"]}
{"id": "C91", "title": "Decoding is exact", "statement": "RecvMessage, given the packet of a type byte and a body, yields a message iff the body is the protocol grammar's encoding of that message for that type, followed by nothing or, only for the kinds that tolerate trailing bytes, by ignored bytes; every other body is refused. The same holds for start-up packets (nothing or a NUL after the version when there are no parameters) and for NegotiateProtocolVersion through its own parser.", "quantifier": "every body, every type byte, every chunking of the stream", "why_tests_cant": "the set of malformed bodies is infinite", "anchors": ["pkg/pg/conn.go:RecvMessage,RecvStartupMessage", "pkg/pg/startup_message.go"]}
{"id": "C92", "title": "Start always ends in an error, and which", "statement": "Session.Start never returns nil (refuted expectation: a session ending in good order, both peers hanging up, returns nil). An in pump ends only with an error; the processing goroutine never reports one and ends only after Close; an out pump ends without error only after Close. An unsupported protocol version, or a database other than the configured one, ends Start with exactly its own error and nothing is dialled.", "quantifier": "every execution of the session", "why_tests_cant": "interleavings", "anchors": ["pkg/server/session.go:Start,negotiateSessionParams"]}
{"id": "C93", "title": "Configurations that arrive after Start is over", "statement": "The update channel is closed exactly when Start has been called and is over. Since Start does not unsubscribe, every later configuration change sent to it crashes the process (refuted expectation: a configuration change after Close does no harm).", "quantifier": "every interleaving", "why_tests_cant": "needs a configuration change after shutdown", "anchors": ["pkg/server/server.go:Start"]}
{"id": "C87", "title": "Every change of the file takes effect", "statement": "From every state the program's own actions for configurations - reading, handing on, installing, listening - are bounded in number, whatever the interleaving. They cannot end early: when none is left, either the file could not be read or watched at the start, or the server waits for the next configuration, the watcher for the next event (or has ended after an fsnotify error), no Get is open, every configuration read is installed, in order, and the server has received every change of the listen address. A configuration written into the file while the watcher lives is therefore the one installed when nothing is left to do, whatever else happens, unless the file changes again or fsnotify fails.", "quantifier": "every execution of the whole program, every state", "why_tests_cant": "liveness over all interleavings and all environment behaviours", "anchors": ["pkg/server/run.go:Run", "pkg/cli/cli.go:Run"]}
{"id": "C94", "title": "No accepted connection is lost", "statement": "In the whole program, for every connection Accept returned: either exactly one goroutine has it and ServeConn has not returned, or no goroutine has it, ServeConn returned exactly once, with the one result of session.Start, which is an error, the client's connection (and the database's, if there was one) is closed, and the session is out of the server's table. The accepted connections are all different and there are no others.", "quantifier": "every execution of the whole program, every number of connections", "why_tests_cant": "unboundedly many connections and interleavings", "anchors": ["pkg/server/server.go:Serve,ServeConn", "pkg/server/session.go:Start,Close", "pkg/server/run.go:Run"]}
{"id": "C95", "title": "What the connections wait for", "statement": "Left alone (no file changes, no new connections, no bytes, reads or hang-ups of peers, no result of net.Dial) the program performs only boundedly many actions. When it has nothing left to do, every accepted connection is over (as in C94) or its session is in the server's table and session.Start waits for: the rest of the client's startup packet, a peer's reading what is written to it, net.Dial, or it relays; and a relaying session has forwarded every complete message, unless a peer does not read or one of the session's goroutines ended. In particular no connection ever waits for a mutex, for the configuration, or for another connection.", "quantifier": "every reachable state of the whole program", "why_tests_cant": "deadlocks need all states of all components", "anchors": ["pkg/server/server.go", "pkg/server/session.go", "pkg/server/config_distributor.go", "pkg/cli/file_watcher.go", "pkg/server/run.go:Run"]}
{"id": "C96", "title": "Buffers in shared memory", "statement": "Although ReadBytes and the conversions between ReadBuffer, WriteBuffer and []byte share memory instead of copying, and append writes in place when the capacity allows, a program in which only WriteBuffer methods write, and no WriteBuffer is copied, behaves as if every variable held its own bytes: every result and every variable is what the byte-list semantics of C01-C07 says, for every growth policy of append. A write changes no byte of any slice outside the free capacity of the buffer written to. Both restrictions are needed: writing to two copies of one WriteBuffer with spare capacity makes the first show what was written to the second, and appending to bytes returned by ReadBytes overwrites the unread rest of the buffer.", "quantifier": "every program over any number of buffers, every memory layout and growth policy", "why_tests_cant": "aliasing bugs need the right capacities, which depend on the runtime", "anchors": ["pkg/pg/read_buffer.go", "pkg/pg/write_buffer.go"]}
{"id": "C97", "title": "DataRow values share the frame", "statement": "ParseDataRowMessage returns for every frame values that are windows into the frame (no copies), pairwise disjoint, holding what the byte-list model of the parser (C14, C25, C91) says. Overwriting a byte of a value in place changes that byte and no other value. Appending at most four bytes to a value, or more than the frame has room for, changes no value; anything in between overwrites the next value: after append(Values[k], a...) with 4 <= len(a) <= 4+len(Values[k+1]), Values[k+1] starts with a[4:].", "quantifier": "every frame, every memory layout, every value and appended bytes", "why_tests_cant": "tests compare values, not memory", "anchors": ["pkg/pg/data_row_message.go:ParseDataRowMessage", "pkg/pg/read_buffer.go", "pkg/pg/standard_frame.go:MessageBody"]}
{"id": "C98", "title": "The hex dump hides nothing", "statement": "ReadBuffer.Inspect and WriteBuffer.Inspect print the length in decimal and then the bytes in lines of 16, each with the offset in hexadecimal, two hexadecimal digits per byte (blank cells in the last line) and the printable characters between bars. The bytes can be read off the text (different buffers have different dumps), and whatever the buffer holds, the text consists of printable ASCII and line feeds only.", "quantifier": "every buffer", "why_tests_cant": "all byte strings", "anchors": ["pkg/pg/read_buffer.go:Inspect", "pkg/pg/write_buffer.go:Inspect"]}
{"id": "C99", "title": "Data races", "statement": "Server and ConfigDistributor have no data race, whatever goroutines call them and in whatever order. In a Session the only race is for dbConn: Start sets it after dialling while a Close called by another goroutine reads it. In the file watcher the only races are those of the event handler storing an error in watcherError while the goroutine that adds the path stores its result or Watch returns it, and of a StopWatch called before Watch has returned reading watchDone while it is created; after Watch has returned there are none. The program that the command line runs has no data race at all once it serves; before, only watcherError's. That the program is free of data races is refuted by that one. (A data race: two goroutines able to access the same variable next, one of them writing. The lists of accesses are proved complete for the models: an action that is not listed as writing a variable leaves it alone, one not listed as accessing it does the same whatever its value.)", "quantifier": "all executions of each component and of the whole program: any number of goroutines, any interleaving, any environment", "why_tests_cant": "The race detector reports only races of the executions it sees; these have windows of a few instructions, and their absence elsewhere is a statement about all interleavings.", "anchors": ["pkg/server/server.go:232-246", "pkg/server/server.go:275-285", "pkg/server/server.go:311-325", "pkg/server/config_distributor.go:75-79", "pkg/server/config_distributor.go:98-111", "pkg/server/config_distributor.go:190-197", "pkg/server/session.go:132", "pkg/server/session.go:218", "pkg/cli/file_watcher.go:62", "pkg/cli/file_watcher.go:100", "pkg/cli/file_watcher.go:113", "pkg/cli/file_watcher.go:132", "pkg/cli/file_watcher.go:137"]}
{"id": "C100", "title": "Which error a broken packet is refused with", "statement": "For every complete packet that is neither accepted (C91) nor crashes the proxy (C23), the error RecvMessage returns is determined by the first thing missing in the body: io.EOF where fixed-size data is cut short, the missing-terminator error for a string without NUL, ErrMalformedMessage for a Terminate or EmptyQueryResponse with a body and for every NegotiateProtocolVersion, the unsupported-authentication error for other authentication codes. The same for startup packets. The three fates exclude each other and exhaust all bodies. That io.EOF means that the peer hung up is refuted: a short BackendKeyData or an empty ReadyForQuery on an open connection is reported with it.", "quantifier": "every type byte, body, chunking and continuation of the stream", "why_tests_cant": "the ways of breaking a body are infinitely many, and nested in counted and terminated sequences", "anchors": ["pkg/pg/conn.go:RecvMessage,RecvStartupMessage", "pkg/pg/startup_message.go", "pkg/pg/read_buffer.go:33-45", "pkg/pg/read_buffer.go:83-102"]}
{"id": "C101", "title": "The program always gets back to accepting connections", "statement": "From every state of the running program its own actions suffice to bring it to rest. At rest, if net.Listen ever succeeded, the server's mutex is free, exactly one of its listeners is open and it is the server's current one; a goroutine waits in Accept on it, unless Serve of that listener has returned with an error. Whenever one does and the mutex is free, whatever other clients, databases and the file did before: the next client to connect is accepted and by seven actions of the program has a session in the table that waits for its startup packet, the goroutine is back in Accept and no other session is touched. That the open listener is always attended is refuted: after a permanent Accept error it is not.", "quantifier": "all executions of the whole program, any number of clients, any environment", "why_tests_cant": "that no client and no configuration change can block the others is a statement about every reachable state", "anchors": ["pkg/server/server.go:74-125", "pkg/server/server.go:129-172", "pkg/server/server.go:177-213", "pkg/server/server.go:264-326"]}
{"id": "C102", "title": "Silent clients stay", "statement": "A client that connects and does not complete a startup packet keeps its session, its place in the table, its connection and a goroutine of the program, all unchanged, whatever else happens and however long it takes, until it sends something or its connection ends; ServeConn does not return. That the number of such clients is limited is refuted: wherever a goroutine waits in Accept, for every k there is a continuation after which k more of them are in the table and the goroutine waits in Accept again.", "quantifier": "all executions of the whole program; all k", "why_tests_cant": "no timeout is a statement about arbitrarily long executions, no limit one about every number", "anchors": ["pkg/server/session.go:157-196", "pkg/server/server.go:177-213", "pkg/server/server.go:264-326"]}
{"id": "C103", "title": "Whom a mutex lets in first does not matter", "statement": "For every rule by which the mutexes of ConfigDistributor and Server choose whom to let in (depending on everything that happened so far; all that is asked is that a mutex nobody holds is given to one of those who want it): when nothing is left to do that the rule allows, nothing is left to do at all, and the program comes to rest by its own allowed actions from every state. So what C87, C95 and C101 say of the program at rest, with a mutex that may let in anybody, holds for Go's writer-preferring RWMutex, whose rule is one of them.", "quantifier": "all executions of the whole program, all rules of acquisition", "why_tests_cant": "a test sees the rule of one version of the runtime", "anchors": ["pkg/server/config_distributor.go:75-79", "pkg/server/config_distributor.go:98-111", "pkg/server/config_distributor.go:190-197", "pkg/server/server.go:232-246", "pkg/server/server.go:275-285", "pkg/server/server.go:311-325"]}
{"id": "C104", "title": "sync.WaitGroup and Close", "statement": "With the parts of WaitGroup.Wait, Add and Done as separate actions, the server does nothing that it does not do with an atomic Wait; the counter is never negative; a Wait is never left sleeping when no goroutine of the server is running. The runtime's misuse panics are located: Add panics only when Start, or a Serve called from outside, creates a goroutine at the moment the last one ends while Close waits; Wait panics only when, after Close had closed everything, a goroutine was created at a moment when none was running, which only Start or such a Serve does. It never happens if Start and those Serve calls are over before Close waits, nor in the program, which never calls Close. That the watchdog is Close's only panic is refuted: a Close that overlaps with Start's changing the listener can panic in both ways.", "quantifier": "all executions of the server: any number of goroutines, any interleaving, any environment", "why_tests_cant": "the windows are a few instructions wide", "anchors": ["pkg/server/server.go:215-262", "pkg/server/server.go:292-299", "pkg/server/server.go:74-125"]}
{"id": "C105", "title": "Sessions are isolated from each other", "statement": "In every execution of the program, the bytes written to a client are, in order, the answers to its SSL requests and the re-encoded messages decoded from the bytes its own database sent, and those written to a database come from its own client in the same way: no byte of one connection ever reaches another. Once a session relays, taking everything it and its peers do out of an execution leaves an execution that ends in the same state of everything else, and taking everything else out leaves what the session could have done alone; conversely, what both could do separately without a panic they can do together, in every order. Only a panic (C85) crosses the border.", "quantifier": "all executions of the whole program, any number of sessions, any environment", "why_tests_cant": "a statement about pairs of executions", "anchors": ["pkg/server/session.go", "pkg/server/server.go:177-213", "pkg/server/run.go:Run"]}
{"id": "C106", "title": "The log and the clients", "statement": "In every execution, when a session's Start has returned the log contains about it exactly: new connection, initializing, one refusal of encryption per SSL request, closing, closed - whatever Start returned; before that a part of this or, once the database is connected, one line per message passed on, whole and in order, never fewer than were handed to the other side. A session on its own, which anyone may close at any time, logs when Start returns its result if it relayed messages and no result otherwise, \"closed\" exactly then, \"closing\" once, and the error of every Close call but the deferred one. That the log tells why a client was refused, or whose the logged messages are, is refuted.", "quantifier": "all executions of the whole program, any number of clients, any environment; all executions of a session on its own", "why_tests_cant": "what is absent from a log, in every execution, cannot be sampled", "anchors": ["pkg/server/session.go:74-123", "pkg/server/session.go:157-196", "pkg/server/session.go:296-321", "pkg/server/server.go:177-213"]}
{"id": "C107", "title": "The log and the listeners", "statement": "The lines 'serving on' are, in order, the addresses of the configurations the server received, the lines 'can't listen on' are, in order, those for which net.Listen failed, and a listener is called ready at most once and only when it is in use. A server on its own, which anyone may start, close and make serve a listener, has logged every error a call of Serve returns, apart from that of a closed listener, and only those; it logs every temporary error of Accept, every error of closing a listener unless Close closed it, and that it is closing once, before any Close call returns. That 'serving on' means that the server serves there is refuted: it is written before net.Listen is called.", "quantifier": "all executions of the whole program, any environment; all executions of a server on its own, any callers", "why_tests_cant": "order and number over arbitrarily long executions", "anchors": ["pkg/server/server.go:99-125", "pkg/server/server.go:129-141"]}
{"id": "C108", "title": "The errors that are logged", "statement": "No line of the log tells how a session ended, why the watch of the configuration file ended or that the server is being closed; a failed reload of the file is logged exactly once. When the watch has ended, exactly one line, without the error, says so if adding the file or, after it, fsnotify had failed, and none otherwise.", "quantifier": "all executions of the whole program, any environment", "why_tests_cant": "what is absent from a log, in every execution, cannot be sampled", "anchors": ["pkg/server/session.go:102-108", "pkg/server/server.go:129-136", "pkg/server/server.go:218-246", "pkg/cli/file_watcher.go:120-126", "pkg/cli/watch_server_config.go:12-21"]}
{"id": "C109", "title": "Which connection strings are accepted", "statement": "With Go's url.Parse modelled down to the bytes: ParseDatabaseURI accepts a string exactly if it is a URI of a given grammar (scheme, user and password, host name or bracketed address with zone, port, path, query, fragment, escapes) whose scheme, in any mixture of capitals, is postgres or postgresql; the settings are exactly those that the components named by the grammar say; and no string makes it panic.", "quantifier": "all strings of bytes, all OS users, all iteration orders, toolchains before and since Go 1.17", "why_tests_cant": "the strings cannot be enumerated", "anchors": ["pkg/pg/dsn.go:15-61", "pkg/pg/dsn_test.go:19-44"]}
{"id": "C110", "title": "Every setting can be written in a URI", "statement": "Any user, password, non-empty database and list of parameters, of arbitrary bytes, can be given for any host name or bracketed address and any port by escaping every byte: ParseDatabaseURI reads back exactly these, the first value of a parameter winning over the rest, and the address a session dials is the host and port as they were written. That any database can be named by the path is refuted: one whose name begins with a slash cannot.", "quantifier": "all strings of bytes, all OS users, all iteration orders", "why_tests_cant": "the strings cannot be enumerated", "anchors": ["pkg/pg/dsn.go:15-61", "pkg/server/session.go:198-218"]}
{"id": "C111", "title": "Connection strings that are read otherwise than they look", "statement": "If the password contains an unescaped slash, question mark or hash sign, the string is refused, or its user name is taken for the host and the password up to that sign for the port, without a user. Refuted: that such a string is always refused (digits and a slash suffice); that a string without the two slashes is refused (it means the defaults: local host, OS user); that the host may be a socket directory, as in PostgreSQL's documentation.", "quantifier": "all such strings, all OS users, all iteration orders", "why_tests_cant": "the strings cannot be enumerated", "anchors": ["pkg/pg/dsn.go:12-54"]}
{"id": "C112", "title": "Whoever asks for the configured database is connected to it", "statement": "Wherever a goroutine waits in Accept, the mutexes are free and the current configuration's connection string is understood - in particular at rest -, and whatever the other clients, the databases and the file have done so far: a client that connects and sends a startup packet of version 3.0 for the database of the current configuration gets a session that dials the address of the current configuration, hands it the packet byte for byte and relays from then on, without a byte having been sent to the client. All it takes from outside is that net.Dial succeeds and the database takes the packet; no other session is touched, and the goroutine is back in Accept.", "quantifier": "all reachable states of the whole program, all configurations, all startup packets for the database", "why_tests_cant": "the states the program can be in when a client arrives cannot be enumerated", "anchors": ["pkg/server/server.go:264-326", "pkg/server/session.go:74-112", "pkg/server/session.go:150-228", "pkg/server/config_distributor.go:66-92"]}
{"id": "C113", "title": "Sessions nobody uses any more stay, without bound", "statement": "That the number of dead sessions is limited is refuted. From every state as in C112 and for every k there is a continuation in which nothing happens but that k clients come, are connected as in C112 and go away together with their databases, after which the program waits in Accept again and all k sessions are in the table; the program has read the end of both streams of each, their other goroutines have nothing to do, and however long the program runs then, whatever happens, none of these sessions ends, none leaves the table, no connection to one of these clients is closed and a goroutine of the program waits for each.", "quantifier": "all reachable states as in C112, all k, all continuations", "why_tests_cant": "no limit is a statement about every number, never about executions of every length", "anchors": ["pkg/server/session.go:74-112", "pkg/server/session.go:230-320", "pkg/server/server.go:177-213", "pkg/server/server.go:264-326"]}
{"id": "C114", "title": "Running queries cannot be cancelled", "statement": "That the CancelRequest with which a client wants its running query stopped reaches the database is refuted in every execution: if a connection's bytes begin with any number n of SSLRequests followed by a complete packet whose number is neither 196608 (version 3.0) nor that of SSLRequest - CancelRequest (80877102), GSSENCRequest (80877104), any other version - and whatever the packet carries, then no configuration is asked for, nothing is dialled, no byte reaches a database, and the client receives nothing but at most n bytes 'N'. In the whole program, once nothing is left to do, the connection is over: ServeConn returned once, with an error, both ends are closed and it is out of the table; unless the client does not take one of its refusals.", "quantifier": "all reachable states of a session and of the whole program, all n, all other numbers, all packet contents, all segmentations", "why_tests_cant": "the packets and the states in which they arrive cannot be enumerated; what must never happen is not observed by running", "anchors": ["pkg/server/session.go:74-112", "pkg/server/session.go:150-228", "pkg/pg/startup_message.go:27-69", "pkg/server/server.go:264-326"]}
{"id": "C115", "title": "Every message is delivered in the end", "statement": "In every infinite execution of the whole program in which the five goroutines of session c are scheduled fairly, its select statement does not neglect a ready case forever, and its peers keep reading: if the messages ms have completely arrived from one peer, then at some later moment all of them have been written to the other peer, first of all and in order, or the session has failed. This holds however much traffic there is in either direction meanwhile, and whatever clients, database, file and all other goroutines do. The session can only have failed because its own in pump could not receive a message from a peer or a write of its own to a peer failed; nothing another session or the server does ends it. The same holds for a session used on its own, except that there Close can also end it.", "quantifier": "all infinite executions of the program and of a session, all schedules that are fair to the session, all messages, both directions, all traffic", "why_tests_cant": "a liveness property: no finite run shows that something eventually happens under every fair schedule", "anchors": ["pkg/server/session.go:230-320", "pkg/pg/conn.go:29-88"]}
{"id": "C116", "title": "A change of the configuration takes effect, however busy the program is", "statement": "In every infinite execution of the whole program in which the event handler, the monitor and the goroutine running Start are scheduled fairly and RWMutex lets no new reader pass a waiting writer: once the server has been started, every configuration read so far is eventually installed, in the order of reading, every change of the listen address among them is eventually received by the server and passed to net.Listen, and where that succeeds the server listens there. A configuration written into the file while the watcher lives becomes the current one and stays it from then on, unless the file changes again, fsnotify fails, or the program panics. This holds whatever the clients, databases and sessions do meanwhile, however many of them there are and however often they call Get.", "quantifier": "all infinite executions of the program, all schedules fair to the three goroutines, all configurations, any number of sessions", "why_tests_cant": "a liveness property under unbounded interference: no finite run shows that a reload is never postponed forever by readers of the configuration", "anchors": ["pkg/server/config_distributor.go:93-215", "pkg/server/server.go:80-135", "pkg/cli/file_watcher.go:65-110"]}
{"id": "C117", "title": "Each connection is closed at most once, and ServeConn says why it ended", "statement": "However Start, Serve, ServeConn and Close are called and interleaved: the server closes each session at most once and each client connection at most once; it closes only connections of sessions it has closed and closes only sessions it has registered, and every connection it did not close is open. ServeConn returns ErrServerClosed without ever having registered the session, or ErrSessionClosed for a session that Close closed before its Start began, or exactly what the session's Start returned. The session table holds exactly the sessions registered and neither removed nor swept since. Every result answers one call or one background function.", "quantifier": "all interleavings of any number of calls and goroutines, all listeners, connections and session results", "why_tests_cant": "a double close or a lost result needs a particular interleaving of Close with a session that ends by itself", "anchors": ["pkg/server/server.go:174-262", "pkg/server/server.go:302-326"]}
{"id": "C118", "title": "Every client is attended to, however busy the program is", "statement": "In every infinite execution of the whole program in which no goroutine that is again and again able to act is passed over for ever, and sync.RWMutex lets a waiting writer go before new readers: every connection Accept returned comes to a point where it is over (ServeConn returned, connections closed, session forgotten) or its session.Start waits for a peer, for net.Dial or for the session's goroutines. A startup packet that came while session.Start waits for it is read and a client that hung up is let go; a session that asks for the configuration gets it and calls net.Dial or returns an error; a session.Start that is returning is followed by ServeConn's return with the same error. The only other outcome is a panic of the program.", "quantifier": "all infinite executions, finite or endless traffic, any number of clients, sessions and changes of the configuration", "why_tests_cant": "starvation behind a mutex under endless traffic cannot be shown absent by any finite run", "anchors": ["pkg/server/server.go:129-213", "pkg/server/server.go:302-326", "pkg/server/config_distributor.go:66-90", "pkg/server/session.go:74-115", "pkg/server/session.go:151-229", "pkg/server/session.go:323-345"]}
{"id": "C119", "title": "A client that has said what it wants is connected or turned away, however busy the program is", "statement": "In every infinite execution of the whole program that is fair as in C118 and in which neither a write of session.Start nor net.Dial hangs for ever for the connection in question: once the client of an accepted connection has sent any number of SSLRequests followed by another complete packet, or has closed or lost its connection, its session comes to be established, or ServeConn returns with everything closed, whatever the other clients, the databases and the configuration file do. If that packet is not a StartupMessage of protocol 3.0 (a CancelRequest, a GSSENCRequest, protocol 2), ServeConn returns. The only other outcome is a panic of the program.", "quantifier": "all infinite executions, any number of SSLRequests, any packet, any segmentation of the stream, any traffic of others", "why_tests_cant": "that a handshake ends under endless traffic of others cannot be shown by any finite run", "anchors": ["pkg/server/server.go:174-262", "pkg/server/config_distributor.go:55-131", "pkg/server/session.go:74-112", "pkg/server/session.go:153-228"]}
{"id": "C120", "title": "Whoever asks for the configured database is connected to it, however busy the program is", "statement": "In every infinite execution of the whole program that is fair as in C119: if the unread input of an accepted connection whose session.Start has not asked for the configuration yet begins with any number of SSLRequests and a StartupMessage of protocol 3.0 for database db (of any length, in any segmentation, with anything behind it), then its session comes to be established with exactly one net.Dial, to the address of the configuration the session was given, whatever the other clients, the databases and the configuration file do; provided that from then on no write and no net.Dial of that session fails, the client's connection is not reset, and the configuration the session gets names db in a connection string that is understood. The only other outcome is a panic of the program. (C112 says that there is such a continuation; this says that every fair one is.)", "quantifier": "all infinite executions, any number of SSLRequests, any StartupMessage and segmentation, any traffic of others", "why_tests_cant": "that every fair schedule connects the client is a statement about infinitely many infinite runs", "anchors": ["pkg/server/server.go:174-262", "pkg/server/config_distributor.go:55-131", "pkg/server/session.go:74-112", "pkg/server/session.go:153-228", "pkg/server/session.go:323-345"]}
{"id": "C121", "title": "Client and database get every byte of each other's messages in the end, even after one of them has hung up", "statement": "In every infinite execution of the whole program that is fair as in C120 and, for the session, as in C115: if a client asks for the configured database as in C120, and from then on no write and no net.Dial of its session fails and neither of its two connections is reset, then (a) whatever messages of the kinds C20 covers (queries, passwords that are text, Terminate and the others named there) the client has sent behind its StartupMessage, before or after it was connected, in the end the database has been handed exactly the StartupMessage followed by these messages, byte for byte; and (b) whatever messages of the kinds C19 covers the database has sent, in the end the client has been handed exactly one byte N for each SSLRequest followed by these messages, byte for byte. This holds also if the client or the database hangs up as soon as it has sent them, whatever the other clients and the configuration file do. The only other outcome is a panic of the program. (C115 says so for a session all of whose goroutines keep running; here the pumps that read may have returned.)", "quantifier": "all infinite executions, any number of messages in any segmentation in both directions, any moment of hanging up, any traffic of others", "why_tests_cant": "that every fair schedule hands over every byte is a statement about infinitely many infinite runs", "anchors": ["pkg/server/server.go:174-262", "pkg/server/session.go:74-150", "pkg/server/session.go:153-228", "pkg/server/session.go:233-318", "pkg/pg/conn.go:29-94"]}
{"id": "C122", "title": "What the configuration file says", "statement": "Let the configuration file consist of nothing but comments, keys, strings, booleans and decimal integers (or be anything that is not even that). readServerConfig accepts it exactly if it is a document of the grammar of SpecToml.v in which no key is set twice and listen and database-url (in capitals or not), if set, are set to strings. The configuration is then what the document says: each field is a value it is set to, with escapes resolved, or empty if it is not set; comments, unknown keys, blanks and the order of lines do not matter. If no field is set under two names, the file means the same whenever it is read. Every other such file, and one that cannot be read, is refused with an error. Every address and connection string that can be put between quotation marks can be configured as README.md shows. README.md calls both fields mandatory: a file without them is accepted, and the field is empty (expectation refuted); an empty connection string is refused by ParseDatabaseURI, so that no session gets a database. A file that sets a field under two names (listen, Listen) is read now this way, now that (expectation refuted).", "quantifier": "all file contents without tables, arrays, dates, floats, signed integers and multi-line strings; every iteration order of Go maps", "why_tests_cant": "the acceptance condition is an equivalence over all texts, and the result may depend on Go's random map order", "anchors": ["pkg/cli/read_server_config.go:12-29", "pkg/server/config.go", "README.md:56-81"]}
{"id": "C123", "title": "No half-written configuration file names a wrong address or database", "statement": "The file may be read when only a part of it has been written. If the finished file is accepted (without the constructs C122 leaves out, and with one meaning), then whatever beginning of it is read, the result is an error or a configuration each field of which is what the finished file says, or empty: a truncated address or connection string is never taken. That a half-written file is refused is not so: cut at the end of a line it is accepted without the fields that follow (expectation refuted).", "quantifier": "all file contents as in C122, every point at which they are cut, every map order", "why_tests_cant": "all prefixes of all files", "anchors": ["pkg/cli/read_server_config.go:12-29", "pkg/cli/watch_server_config.go:12-21"]}
{"id": "C124", "title": "From the text of the configuration file to the addresses in use", "statement": "Let the configuration file, whenever it is there, hold one of a set of texts as far as it has been written at that moment, each finished text being a document (C122) in which no field is set under two names. In every execution of the whole program every address dialled for a client is the host and port that the connection string of a finished text gives, by the grammar of connection strings (C109), and every address listened on is that of a finished text, or empty: nothing cut off is ever dialled or listened on. In infinite executions, fair as in C120, in which the file holds one and the same finished text: a client that asks for the database its connection string names is connected to the host and port it names, whatever the other clients and databases do; provided no write and no net.Dial of its session fails and its connection is not reset. A finished text written into the file while the watcher lives becomes and remains the configuration in force, unless the file changes again or fsnotify fails. The only other outcome is a panic of the program.", "quantifier": "all executions, all texts as in C122, every point at which a text is cut, every sequence of texts, every connection string", "why_tests_cant": "combines all texts, all moments of reading and all interleavings", "anchors": ["pkg/cli/read_server_config.go:12-29", "pkg/cli/watch_server_config.go:12-21", "pkg/server/server.go:84-140", "pkg/server/session.go:153-228", "pkg/server/session.go:320-345", "pkg/pg/dsn.go"]}
{"id": "C125", "title": "What the command line says", "statement": "A command line is a sequence of words: --help, --help-long, --help-man, --version, --verbose or -v, each with a --no- form except -v; a configuration file as --config=P, --config P, -c P or -cP (P a word that begins neither with - nor with @ where it stands alone; after -- and at the end it may be any word); short flags may be joined (-vcP); -- may end it. Each command line says one thing. One that is not of this form, or gives a flag twice, is turned down: an error is printed, nothing is read or served, exit code 1. If the last of its words on --help and --version says yes, nothing is done, exit code 0. Otherwise the file named is read, and no other, or, if none is named, gevulot.toml in the directory to which the word that started the program leads, up to its last slash, in a tree without symbolic links (the current directory if that word has no slash); the same file is watched, and the server runs with what was read if both succeed; debug output is on if and only if --verbose or -v was given. The spellings of --config come to the same. Refuted: the default file is not that of the current directory, as the README says, when the program is started by a path; --help-long and --help-man print help and then start the server; --no-version takes back a --help in front of it, so the order of different flags matters.", "quantifier": "all command lines without a word that begins with @ or contains completion-, all words that may have started the program, all results of reading, watching and serving", "why_tests_cant": "unboundedly many command lines; the unit tests mock the environment and try a handful", "anchors": ["pkg/cli/cli.go:52-89", "pkg/cli/cli.go:121-155", "README.md:15-32"]}
{"id": "C126", "title": "From command line and disk to the first configuration", "statement": "Let the command line (C125) ask for the server to be run with the file p, named there or found beside the program, and let reading a file give what TOML (C122) makes of its content. If p holds a document in which no field is set under two names and p can be watched, the server is run, once, with exactly the address and the connection string the document gives; the exit code is 0 if the server ends without an error and 1 otherwise. If p cannot be read, or its content is no document, sets a key twice or gives a field a value that is no string, the server is not run: one error is printed, exit code 1. If p holds such a document as far as it has been written when it is read, the program ends with exit code 1 or runs the server once, each of the two fields being that of the finished document or empty. No file other than p makes a difference. Refuted: an empty file starts the server although both fields are called mandatory.", "quantifier": "all command lines as in C125, all contents of all files as in C122, all results of watching and serving", "why_tests_cant": "combines all command lines with all texts", "anchors": ["pkg/cli/cli.go:52-155", "pkg/cli/read_server_config.go:12-29", "main.go:10-17", "README.md:15-84"]}
{"id": "C127", "title": "Starting alone and starting amid all goroutines is the same", "statement": "In every execution of the whole program (C83), for every command line that asks for the server to be run with a file p: take the results reading and watching p have had in that execution. With these results the program run on its own, from its command line (C125), does at least what the goroutine that called cli.Run has done so far, in the same order. If that goroutine serves by now, the configuration served on its own is the one sent first in the execution. If it has given up, it has done all it does apart from printing one error, and the exit code is 1.", "quantifier": "all executions of the whole program, all command lines as in C125, all results of the server", "why_tests_cant": "relates all interleavings of the program to a sequential run", "anchors": ["pkg/cli/cli.go:52-155", "pkg/cli/file_watcher.go:35-133", "main.go:10-17"]}
