#!/usr/bin/env python3
"""Writes /verif/properties.jsonl (one JSON object per line)."""
import json, os
P = []
def p(id, title, statement, quantifier, why, anchors):
    P.append(dict(id=id, title=title, statement=statement, quantifier=quantifier,
                  why_tests_cant=why, anchors=anchors))

RB="pkg/pg/read_buffer.go"; WB="pkg/pg/write_buffer.go"
SF="pkg/pg/standard_frame.go"; UF="pkg/pg/startup_frame.go"
CN="pkg/pg/conn.go"; SM="pkg/pg/startup_message.go"
SE="pkg/server/session.go"; SV="pkg/server/server.go"
CD="pkg/server/config_distributor.go"; EV="pkg/server/event.go"
FW="pkg/cli/file_watcher.go"; CL="pkg/cli/cli.go"

p("C01","Integers survive the wire","WriteInt32/WriteInt16 append the big-endian two's-complement bytes of the number, and ReadInt32/ReadInt16 on a buffer starting with those bytes return exactly that number and leave exactly the bytes that followed; conversely every 4 (2) bytes decode to an in-range number that re-encodes to the same bytes.","every int32/int16 value, every 4/2-byte string, every following buffer content","2^32 values times every continuation; sign and wrap boundaries are only sampled by tests",[RB+":ReadInt32,ReadInt16",WB+":WriteInt32,WriteInt16"])
p("C02","Strings survive the wire","For a string without NUL bytes, WriteString followed by ReadString returns the same string and leaves the remaining bytes; in general ReadString returns exactly the bytes before the first NUL and consumes them plus that NUL, and fails without consuming iff there is no NUL.","every byte string and every buffer","unbounded lengths and contents",[RB+":ReadString",WB+":WriteString"])
p("C03","Integer arrays survive the wire","WriteInt32Array/WriteInt16Array followed by the matching ReadInt32Array/ReadInt16Array of the same length returns the same array and leaves the remaining bytes.","every array of in-range integers of any length, every following buffer","unbounded array lengths",[RB+":ReadInt32Array,ReadInt16Array",WB+":WriteInt32Array,WriteInt16Array"])
p("C04","A failed read consumes nothing","Whenever a ReadBuffer method returns an error the buffer holds exactly the bytes it held before the call.","every ReadBuffer method, argument and buffer content","all buffers/arguments",[RB])
p("C05","A successful read consumes exactly a prefix","Whenever a ReadBuffer method succeeds, the bytes consumed followed by the bytes left are exactly the bytes it held before, and the number consumed is the one the method documents (n, 1, 4, 2, string length+1, 4k, 2k).","every ReadBuffer method, argument and buffer content","all buffers/arguments",[RB])
p("C06","ReadBytes succeeds exactly on 0<=n<=Len","ReadBytes(n) returns the first n bytes iff 0<=n<=Len, io.EOF iff n>Len; a negative n is never reported as an error: it crashes the caller. ReadInt32Array/ReadInt16Array behave accordingly for k (including 64-bit overflow of 4k/2k).","every int argument and every buffer","the whole int range",[RB+":ReadBytes,ReadInt32Array,ReadInt16Array"])
p("C07","WriteBuffer only appends","Every WriteBuffer method leaves the bytes already in the buffer unchanged and appends exactly the encoding of its argument (lengths: n,1,4,2,len+1,4k,2k).","every method, argument, and buffer content; every sequence of writes","all buffers and write sequences",[WB])
p("C08","Frames survive the wire","Reading a frame from a stream that starts with the bytes of NewStandardFrame(t,b) (NewStartupFrame(b)) returns that same frame, with type t and body b, and leaves the rest of the stream untouched, for every body whose length+4 fits an int32.","every type byte, every body, every continuation of the stream","unbounded bodies and streams",[SF,UF])
p("C09","Frame reading does not depend on TCP segmentation","ReadStandardFrame and ReadStartupFrame return the same frame (or error) and leave the same unread bytes for any way the network splits the same byte stream into reads.","every byte stream and every segmentation of it, including empty reads","all segmentations",[SF+":ReadStandardFrame",UF+":ReadStartupFrame"])
p("C10","Back-to-back frames never bleed into each other","Reading frames one after the other from the concatenation of any list of encoded frames returns exactly that list, in order.","every list of (type, body) pairs, any continuation","unbounded sequences",[SF,UF])
p("C11","A truncated stream never yields a frame","If the stream ends before the announced frame is complete, frame reading returns an error and never a partial frame.","every frame and every strict prefix of it","all truncation points",[SF+":ReadStandardFrame",UF+":ReadStartupFrame"])
p("C12","Bad length fields are handled totally","For every 32-bit length field L in a header: if L>=4 the frame has exactly L-4 body bytes; for -2^31+4<=L<4 the illegal length is NOT rejected (as one would expect; refuted) but yields an empty-body frame that still carries the bogus length; for L<-2^31+4 the body size wraps to L-4+2^32.","every length field value and every stream","2^32 header values",[SF+":ReadStandardFrame",UF+":ReadStartupFrame"])
p("C13","The length header always tells the truth","The 4-byte length field written by NewStandardFrame/NewStartupFrame equals body length + 4. (True exactly when body length + 4 <= 2^31-1; beyond, it wraps.)","every body length","multi-gigabyte bodies cannot be unit tested",[SF+":NewStandardFrame",UF+":NewStartupFrame"])
p("C14","Every message type survives Frame then Parse","For every message kind (startup, the 8 authentication requests, backend key data, command complete, data row, empty query, error, notice, negotiate protocol version, parameter status, password, query, ready for query, row description, terminate, generic), parsing the frame produced from a representable message returns an equal message.","every representable message value of every kind","unbounded field lists and strings",["pkg/pg/*_message.go"])
p("C15","A message sent is the message received","Sending any representable message and receiving on the other end returns the same message and leaves the following bytes for the next receive; a sequence of messages is received in the same order.","every representable message / list of messages, any continuation","unbounded sequences and values",[CN+":RecvMessage,SendMessage"])
p("C16","NegotiateProtocolVersion cannot be received","RecvMessage rejects every NegotiateProtocolVersion message with ErrMalformedMessage, because the dispatcher routes it to the notice parser, although its own parser accepts it. (The expected property, that it can be received, is refuted for every such message.)","every NegotiateProtocolVersion message","the failure is for every message of this type",[CN+":RecvMessage","pkg/pg/negotiate_protocol_version_message.go"])
p("C17","A parser accepts only its own frame type","Every typed Parse*Message function returns ErrMalformedMessage, without looking at the body, on a frame whose type byte differs from its own (including startup frames).","every parser, every frame of another type","all frames",["pkg/pg/*_message.go"])
p("C18","Forwarding never invents body bytes","Whenever a frame parses to a message, the body of the re-serialised message is a prefix of the received body: the proxy may only drop trailing bytes, never alter, insert or reorder.","every frame accepted by any parser (through RecvMessage or RecvStartupMessage)","all byte strings",[CN+":RecvMessage,RecvStartupMessage"])
p("C19","Protocol-conforming backend messages are forwarded byte for byte","For every byte string that is a well-formed backend message of protocol 3.0 of a kind other than NegotiateProtocolVersion and unsupported authentication codes, receive-then-send reproduces exactly the same bytes.","every well-formed backend message according to an independent grammar","infinite language",[CN+":RecvMessage,SendMessage"])
p("C20","Simple-query frontend messages are forwarded byte for byte","For every well-formed Query, Password, Terminate, Parse, Bind, Close, Flush, CopyData, CopyDone, CopyFail and FunctionCall frontend message, receive-then-send reproduces exactly the same bytes.","every well-formed frontend message of those kinds","infinite language",[CN+":RecvMessage,SendMessage"])
p("C21","Extended-query frontend messages are not forwarded byte for byte","The expected property (Sync, Describe and Execute reach the database unchanged) is false because their type bytes collide with backend messages: every Sync is rejected; no Describe shorter than 80KB is received as a message, and one whose name holds bytes denoting an int32 below -1 crashes the proxy; every Execute with a row limit below 2^24 is forwarded truncated (row limit lost). Exactly: an Execute arrives unchanged only if it names a portal and the bytes of its row limit are c0 c1 00 00 with c0, c1 not 0; for all others it is proved which bytes are lost or that the message is refused. No Describe below 16 MB arrives unchanged.","every Sync/Describe/Execute message","the failures hold for every message of these kinds",[CN+":RecvMessage","pkg/pg/parameter_status_message.go","pkg/pg/data_row_message.go","pkg/pg/error_response_message.go"])
p("C22","Which authentication exchanges pass through","Every authentication request with a code in {0,2,3,5,6,7,8,9} passes through byte for byte; every other code (SASL 10-12 and unknown ones) is rejected; a client response carried in a 'p' message is rejected when it contains no NUL and truncated after its first NUL otherwise. (The expected property, that all pass, is refuted.)","every authentication code, every response body","all codes and bodies",["pkg/pg/authentication_request_message.go","pkg/pg/password_message.go",CN])
p("C23","Exactly which byte sequences crash message decoding","RecvMessage crashes exactly when the stream starts with a complete frame that is a RowDescription with a negative field count, or a DataRow with a negative column count or that reaches a column size below -1; on every other input it returns a message or an error (or waits for more input). (The expected property, that no input crashes it, is refuted.)","every byte stream","all byte strings; the exact crash set needs a proof",[CN+":RecvMessage","pkg/pg/data_row_message.go","pkg/pg/row_description_message.go",RB+":ReadBytes"])
p("C24","No byte sequence can crash startup decoding","RecvStartupMessage returns a startup message or an error on every byte stream; it never crashes and always terminates.","every byte stream","all byte strings",[CN+":RecvStartupMessage",SM+":ParseStartupMessage"])
p("C25","NULL stays NULL, empty stays empty","In a forwarded DataRow each column is NULL iff it was NULL in the received one (size -1), and an empty value stays a non-NULL empty value; the number and order of columns are unchanged.","every accepted DataRow frame","all rows",["pkg/pg/data_row_message.go"])
p("C26","GetParameter returns the first occurrence","GetParameter(name) returns the value of the first parameter with that name in the order received, and the empty string iff no parameter has that name or the first one has an empty value.","every startup message and name","all lists incl. duplicates",[SM+":GetParameter"])
p("C27","Decoding yields no more than the frame justifies","A message received by RecvMessage or RecvStartupMessage has content no larger than the frame body it came from, and never more list elements than that body has bytes; the NegotiateProtocolVersion parser, called directly, crashes on every negative option count.","every frame","all frames",["pkg/pg/negotiate_protocol_version_message.go","pkg/pg/data_row_message.go","pkg/pg/row_description_message.go"])
p("C28","Database URL: defaults and overrides","ParseDatabaseURI yields host/port/user/password/database equal to the URL's own component when present (query parameter first, then authority/path), otherwise localhost/5432/OS user/absent/the user; no other keys appear except query parameters and those.","every parsed URL, with or without an OS user","all URL component combinations",["pkg/pg/dsn.go:ParseDatabaseURI,defaultConnectionSettings"])
p("C29","Only postgres URLs are accepted","ParseDatabaseURI succeeds iff the URL parses and its scheme is exactly postgres or postgresql; it fails with the parser's error if the URL does not parse and with ErrInvalidURI if the scheme is another, and never otherwise.","every URL","all schemes",["pkg/pg/dsn.go:ParseDatabaseURI"])
p("C30","Query parameter order is irrelevant","The resulting settings do not depend on the (random) iteration order over query parameters, and for a repeated query parameter the first value wins.","every query multimap and every iteration order","Go randomises map iteration; tests see one order",["pkg/pg/dsn.go:ParseDatabaseURI"])
p("C31","Database defaults to the connecting user unless the query names one","When no database is given: without a user in the query string the database equals the user in the resulting settings (empty if there is none); with a user in the query string the settings carry that user but the database is still the authority or OS user (so the documented default is refuted there).","every URL without a database","all URLs",["pkg/pg/dsn.go:ParseDatabaseURI"])
p("C32","Exactly one Fire wins","Among any number of concurrent calls of Event.Fire, exactly one returns true once all complete; Fire never crashes (the done channel is closed once). Fire always comes back: while some call of Fire is in progress one of the calls can act, and each call takes at most eight actions of its own.","any number of goroutines, every interleaving of their internal steps","interleavings",[EV+":Fire"])
p("C33","Once Fire returned, everybody sees it","After any Fire call returned (true or false), HasFired returns true and Done is closed, forever; before any Fire call started HasFired is false and Done is open.","every interleaving","interleavings",[EV])
p("C34","Get returns a fresh, real configuration","If Get returns a configuration, it was delivered by the source and it is at least as new as the newest configuration installed when Get was called.","every interleaving of Get, Subscribe, Unsubscribe, Close and source updates by any number of goroutines","interleavings and histories",[CD+":Get"])
p("C35","Get fails only after Close","Get and Subscribe return ErrConfigDistributorClosed only if the distributor has been closed; a Get or Subscribe that starts after Close completed always returns it.","every interleaving","interleavings",[CD+":Get,Subscribe,Close"])
p("C36","Subscribers get exactly the relevant updates in order","The configurations sent to a subscribed channel are exactly: the current configuration at subscription time if relevant relative to none, then every later installed configuration for which (no checks were given or) some check of (old,new) is true, in installation order, each once, until unsubscribed.","every interleaving, every set of checks, every update history","histories",[CD+":Subscribe,notifySubscribersLocked,shouldSendUpdatedConfig"])
p("C37","Installed configurations are the source's, in order","The sequence of configurations installed is exactly the sequence received from the source, in order, none skipped; there is at most one monitoring goroutine.","every interleaving","histories",[CD+":monitorConfig,Subscribe"])
p("C38","Get never deadlocks the distributor","The distributor mutex is held forever exactly when its holder is going to send on the private channel of a waiting Get that is not (or no longer) receiving; in every other reachable state the holder can release it. Such a deadlock is reachable three ways: a configuration installed between Get's cache check and its Subscribe, Close racing a pending delivery, and a second configuration arriving before the Get unsubscribed. So the expectation that Get returns once a configuration or Close arrives is false.","every interleaving","needs a specific schedule",[CD+":Get,waitForNextConfig,Subscribe"])
p("C39","Nothing is sent on a closed channel","If clients close a channel only when it is not subscribed and never subscribe it again, no execution crashes; the only possible crash is a send on a channel its client closed. Server.Start does not keep this rule (it closes its subscribed channel on return), and the next relevant configuration then crashes the process.","every interleaving","schedule + history",[CD+":notifySubscribersLocked",SV+":Start"])
p("C40","The distributor lock is exclusive","At no time are two goroutines inside the distributor's write-locked sections, or one inside a write-locked and another inside a read-locked section.","every interleaving","interleavings",[CD])
p("C41","Closing the source closes the distributor","If the monitor finds the source closed and the mutex free, its own next five steps fire the closed event, cancel all subscriptions and end it; the monitor never ends unless the distributor was closed. Close takes effect once: subscriptions are cancelled at most once in any execution, and a Close call made after one has completed returns at once, touching nothing. A Subscribe that passed its check before Close can still register afterwards.","every interleaving","interleavings",[CD+":monitorConfig,Close"])
p("C42","SSL is always declined and negotiation continues","For each SSLRequest received the proxy answers exactly one 'N' byte and waits for the next startup packet; nothing else is sent to the client before the database is connected.","every client byte stream","unbounded request sequences",[SE+":negotiateSessionParams"])
p("C43","Startup negotiation is not bounded","For every n there is an execution in which the client sends n SSLRequests, gets n refusals, and is then served normally. (The expectation that a client cannot keep the proxy in negotiation is false.)","every n","no test can send unboundedly many",[SE+":negotiateSessionParams"])
p("C44","No database connection before the checks pass","The proxy dials the database, and sends it bytes, only if a startup packet with protocol version 3.0 arrived whose first database parameter equals the configured database; the address dialled is the configured host and port and the bytes sent are the re-serialised startup packet.","every client byte stream and every configuration","all streams",[SE+":negotiateSessionParams,establishDBConnection"])
p("C45","Only the first database parameter is checked","A served client's startup packet has the configured database as its first database parameter; if it has only one, that one is the configured database. A later duplicate database parameter is not checked and is forwarded as is, and PostgreSQL uses the last one. (So the expectation that clients reach only the configured database is false.)","every client startup packet","needs an adversarial packet",[SE+":negotiateSessionParams",SM+":GetParameter"])
p("C46","A rejected client is told nothing","If no database connection was made when Start returned, the client received at most one 'N' per SSLRequest and nothing else: in particular no error response when it asked for another database or protocol version. (So the expectation that a rejected client is told why is false.)","every rejected startup packet","all packets",[SE+":negotiateSessionParams,Start","README.md"])
p("C47","A session uses one configuration snapshot","host, port and database used by a session all come from the same configuration, obtained at first use, whatever later configuration changes occur; a failure is reported and leaves the session unable to dial.","every sequence of configuration updates between the calls","histories",[SE+":getDBConnnectionParam"])
p("C48","Client-to-database order and integrity","At every moment the bytes written to the database are a byte prefix of: the startup packet followed by the re-serialisation of the messages the client sent, in the order sent: nothing lost in the middle, duplicated, reordered or mixed with the other direction.","every interleaving of the session goroutines, every client/database byte stream, every write failure point, every Close time","interleavings × streams",[SE+":startClientInPump,startProcessing,startDBOutPump"])
p("C49","Database-to-client order and integrity","At every moment the bytes written to the client are a byte prefix of: the SSL refusals followed by the re-serialisation of the messages the database sent, in order.","every interleaving, stream, failure point and Close time","interleavings × streams",[SE+":startDBInPump,startProcessing,startClientOutPump"])
p("C50","Conforming traffic is forwarded verbatim","If the traffic in a direction consists of protocol-conforming messages of supported kinds, the bytes forwarded in that direction are a literal prefix of the bytes received.","every interleaving and every conforming stream","interleavings × streams",[SE,CN])
p("C51","Nothing gets stuck","In a running session that was not closed and saw no error, whenever no internal step is possible every complete message received has been forwarded in full; and from every state the number of consecutive internal steps is bounded.","every reachable state, every schedule","liveness over all schedules",[SE+":startProcessing"])
p("C52","At most 64 messages are buffered per channel","Each of the four message channels holds at most 64 messages; in each direction at most 131 messages received have not yet been handed to the network.","every interleaving","interleavings",[SE+":NewSession"])
p("C53","A client that does not read blocks its own messages","If in a running session only writes to the client are possible, either everything the client sent was forwarded or the client channel is full (64 messages), one message is being written and one is held by the processing goroutine. In that state, which 66 unread messages produce, nothing the client sends reaches the database until it reads or the session is closed. (So the expectation that the directions do not block each other is false.)","schedules","needs specific schedule",[SE+":startProcessing"])
p("C54","Hangups do not end Start","Once the session goroutines run, Start does not return in any execution without an external Close call, even if both peers hang up; the connections stay open. (So the expectation that Start ends when a peer hangs up is false.)","every execution without an external Close","a never-returning call for all schedules",[SE+":Start"])
p("C55","What can crash a session","If url.Parse does not panic, a session crashes the process only by sending on a closed channel after a Close, or on one of the messages the decoder cannot survive (C23). Every Close that completes while an in-pump or the processing goroutine holds a message does crash. (So the expectation that Close may be called at any time is false.)","every interleaving","schedule",[SE+":Close,startClientInPump,startDBInPump,startProcessing"])
p("C56","What Close releases","When a Close has completed, the client connection and the four channels are closed, and so is the database connection unless it was established after Close began: Close during the dial leaks it, even past the return of Start.","every interleaving","schedule",[SE+":Close,establishDBConnection"])
p("C57","Session.Close is idempotent","Only the first of any number of concurrent Close calls closes the connections and channels, each at most once; later calls return nil and change nothing; Close calls never deadlock.","any number of concurrent Close calls","interleavings",[SE+":Close",EV])
p("C58","Start reports the first failure","When Start returns from the running phase its result is the first non-nil error any session goroutine returned, in time order, and all five goroutines have finished; a Start on a closed session returns ErrSessionClosed without touching the network.","every interleaving","interleavings",[SE+":Start"])
p("C59","Everything forwarded is logged","The full frame of every message forwarded in either direction is written to the log, including the PasswordMessage. (So the expectation that credentials are not logged is false.)","every password","all passwords",[SE+":startProcessing"])
p("C60","Server.Start runs once","Among any number of Start calls at most one gets past the start check; a call that does not returns ErrServerAlreadyStarted or ErrServerClosed having done nothing, a call that does returns a non-nil error, and at most one Start call ever returns anything other than those two errors.","any number of concurrent calls, any interleaving with Close","interleavings",[SV+":Start"])
p("C61","At most one listener is active","Every listener ever installed is closed except possibly the current one; whenever the server lock is free the current listener is open; every listener is closed at most once, and an installed listener is closed exactly when the server closed it. No connection is accepted from a listener after it was closed.","every interleaving of Serve, Close and accept loops","interleavings",[SV+":changeListener,Serve,Close"])
p("C62","The listener installed last wins","The current listener is always the one installed last. That this is the listener of the newest configuration is refuted: the goroutines serving two configurations race, and the listener of the older one can replace (and close) that of the newer one for good.","every interleaving","schedule",[SV+":Start,Serve,changeListener"])
p("C63","What Close closes and what it waits for","When Close empties the session table every listener installed and every session registered so far has been closed, and none of them is in the table any more. After that, when the server can do nothing more by itself and Close still waits, each goroutine it waits for is accepting on a listener installed, or running a session registered, after that moment; if there is none Close goes on. The server alone can only ever take boundedly many actions. Both kinds of latecomer exist (refuted expectation): Close then waits until the watchdog crashes the process.","every interleaving","schedule",[SV+":Close,changeListener,registerSession"])
p("C64","Close returned means goroutines are gone","A Close call that did the closing returns only after a moment at which no goroutine created by the server was running. That none is created later is refuted: Start itself is not waited for, may take one more configuration after Close has returned, and leaves that listener open for good.","every interleaving","interleavings",[SV+":Close,do"])
p("C65","The session table is exact","The session table holds each session once; each entry belongs to exactly one ServeConn call between registration and removal; until Close empties it every such call has its entry; a finished ServeConn leaves no entry.","every interleaving","interleavings",[SV+":registerSession,removeSession,ServeConn"])
p("C66","After Close began nothing new is accepted","A Start, Serve or ServeConn call made after the shutdown event has fired returns ErrServerClosed, whatever happens around it; its listener is never installed and its connection never registered.","every interleaving","interleavings",[SV])
p("C67","Server.Close is idempotent","At most one Close call acts; a Close call returns nil having done nothing, or fires the shutdown, closes at most one listener, waits for the goroutines and returns the error of closing that listener; at most one call ever returns an error; once the event has fired a further Close returns nil at once and changes nothing.","any number of calls","interleavings",[SV+":Close"])
p("C68","What becomes of a served connection","When ServeConn has returned, its session is closed and the connection closed or being closed, or it returned ErrServerClosed without ever registering and the connection is still open. The expectation that every accepted connection is closed is refuted by the latter: a connection accepted just before Close is never closed.","every interleaving","schedule",[SV+":ServeConn"])
p("C69","Exit code tells the outcome","The command exits 0 iff help/version was requested (last occurrence of the two flags counts) or the server was run and returned no error, and 1 otherwise. The server is run, once and with the configuration just loaded, iff arguments parse, neither help nor version was requested, and the requested configuration file loads and can be watched. Each failure prints exactly one message naming the error of the step that failed; help/version touches nothing.","every argument parse result, configuration outcome and server outcome","all combinations",[CL+":Run,prepareConfigChan"])
p("C70","The server sees the initial configuration first","What the server has received, followed by what is in the channel or about to enter it, is always the configuration loaded at start-up followed by one per successful reload in order; unreadable versions are skipped; each read returns the file's contents at that moment; there is exactly one reload per write event; after a write event that follows the file's last change, the newest configuration handed over is the file's; and a write can always reach the server while the watcher lives. A change made between the initial load and the start of the watch is never noticed (expectation refuted).","every sequence of file events and read results","histories",[CL+":prepareConfigChan","pkg/cli/watch_server_config.go"])
p("C71","File events reach the right callback","For every file-system event at most one callback runs: OnCreate if the create bit is set, else OnWrite if the write bit is set, else OnRemove if the remove bit is set, else none; unset callbacks are skipped. An event with both create and write therefore never triggers OnWrite.","every event mask and every subset of callbacks","2^32 masks × histories",[FW+":Watch"])
p("C72","Only plain write events reload the configuration","Without an event whose write bit is set and create bit clear nothing is reloaded, whatever else happens to the file: the server sees only the initial configuration. Replacing the file (rename/remove + create, as editors do) therefore does not reload it (expectation refuted).","every event sequence without write events","histories",[FW,"pkg/cli/watch_server_config.go"])
p("C73","StopWatch may be called exactly once, after Watch succeeded","A StopWatch call crashes iff Watch has not yet created its channel or StopWatch was called before; the first one after a successful Watch never crashes. After it the watcher's own actions can always bring both goroutines to their end and close the fsnotify watcher, and once the handler noticed it nothing more is received or called; but callbacks may still run after StopWatch returned (expectation refuted).","every call sequence","sequences",[FW+":StopWatch"])
p("C74","The OID mapping is the rows delivered","A mapping returned by OIDTableMapping holds exactly the rows delivered, the last row per OID winning; a failing query or row is reported with its error. The calls made are exactly: the query, Next and Scan for each row up to the first that cannot be scanned, a last Next if there is none, Close. A failure of the iteration itself is not reported: the partial mapping is returned as success (expectation refuted).","every row sequence and failure point","all row sequences",["pkg/pgmeta/inspector.go:OIDTableMapping"])
p("C75","Inspect never leaks or returns a dead handle","Inspect returns an inspector iff open and ping succeed; if ping fails the handle is closed; it makes no other call. Close closes the handle once and returns the outcome.","every outcome of open and ping","combinations",["pkg/pgmeta/inspector.go:Inspect"])

p("C76","An event behaves like a three-state object","Whatever the interleaving of the atomic accesses inside Fire (including sync.Once), an Event is always in one of three states (not fired, being fired by one goroutine, fired), moves only forward and only by that goroutine, HasFired/Done observations agree with that state, and a Fire call returns only in the last state.","every interleaving, any number of goroutines","interleavings",[EV])
p("C77","Close reports the error of the last connection closed","A non-nil result of Close is the error of closing the database connection if there was one, else of the client connection, and is returned by the first Close only. An error of closing the client connection is lost when a database connection exists.","every interleaving, every close result","interleavings",[SE+":Close"])
p("C78","After Close, Start comes to an end","After a completed Close, unless the database connection was established after it began, the session goroutines take only a bounded number of steps, and when they can take none the process has crashed or Start can return, with the first error. A connection established after Close can keep Start waiting as long as the database stays silent.","every interleaving","liveness over all schedules",[SE+":Start,Close"])
p("C79","What Serve leaves behind","Serve never returns nil; when it has returned, its listener was installed or it returned ErrServerClosed, and if an installed listener is still open it is still the current one. That a finished Serve leaves no open listener is refuted: after a permanent Accept error the listener stays open and current with nobody accepting.","every interleaving","interleavings",[SV+":Serve"])
p("C80","An unusable address changes nothing","If listening on the address of a new configuration fails, the server goes back to waiting with listener, sessions, lock, pending configurations and goroutines unchanged.","every state","states",[SV+":Start"])
p("C81","The server lock is always released","At most one goroutine is in a critical section of the server lock, its holder can always go on by itself, and when the server can do nothing more by itself the lock is free.","every interleaving","interleavings",[SV])
p("C82","What Watch reports","If no fsnotify error arrives before Watch returns, it returns the result of adding the path or the error of creating the fsnotify watcher; while the handler lives its result is that of adding the path. Watch always returns: from any point seven actions of the caller and the goroutine it started suffice, whatever fsnotify answers. An early fsnotify error breaks this both ways: success although the handler has already given up, failure although the path was added (refuted expectations). If adding the path fails both goroutines stay around until StopWatch or an fsnotify error. The error that ended the watch is never logged: the log line always prints nil. That line is written, once, exactly if the last of the result of adding the path and the fsnotify errors is an error.","every interleaving, every fsnotify outcome","interleavings of three goroutines",[FW+":Watch"])
p("C83","Run serves until the process ends","In the whole program (file watcher, distributor, server, sessions) Run never returns: Start never returns, neither of Run's deferred Close calls is reached, and once it serves it serves from then on. It starts to serve only after the configuration file was read, its configuration handed to the distributor, and the file watcher reported success. The state of every component is one it can reach on its own, so everything proved of the components holds of them inside the program.","every execution of the whole program","interleavings of all goroutines of the program",["pkg/server/run.go:Run","pkg/cli/cli.go:Run"])
p("C84","A session never waits for a configuration","Whenever a session is inside ConfigDistributor.Get a configuration is installed and Get is past no point where it would wait: Get's waiting subscription is never used. The only subscription ever made is the server's, so the deadlocks of Get (C38) cannot happen in the program, and every answer a session gets from Get is a configuration, never an error.","every execution of the whole program","interleavings of all goroutines of the program",["pkg/server/run.go:Run",CD+":Get"])
p("C85","What crashes the program","Watcher, distributor and server never panic. Provided url.Parse does not panic, the program crashes only on a RowDescription or DataRow message with a negative count or column length (C23), sent by a client or a database; in particular there is never a send on a closed channel. Such a message of eleven bytes from one client ends the program and every other client's session (refuted expectation: sessions are isolated).","every execution of the whole program, every byte sequence","interleavings and inputs",["pkg/server/run.go:Run","pkg/cli/cli.go:Run"])
p("C86","The order in which configurations take effect","Once Run serves, the distributor has installed the first configuration and every one reloaded since, in order, at most three being under way; the server has received, in order, exactly those whose listen address differs from the previous one's, at most two being under way; each received configuration is tried once, in order, and the addresses listened on are those where listening succeeded. Yet the newest address need not be the one in use when nothing is under way (refuted expectation: newest address wins).","every execution of the whole program","interleavings, sequences of file changes",["pkg/server/run.go:Run","pkg/cli/cli.go:Run"])
p("C88","Established sessions never end","Once a session relays it does so for as long as the program runs: Start does not return, the session stays in the server's table and its connection open, also when client and database have both hung up (refuted expectation: hanging up frees the session).","every execution of the whole program","unbounded executions",["pkg/server/run.go:Run","pkg/server/session.go:Start"])
p("C89","Only configurations from the file are used","Every address dialled is given by the database URL, and every address listened on is the listen address, of a configuration the configuration file has contained.","every execution of the whole program, every sequence of file contents","interleavings, sequences of file changes",["pkg/server/run.go:Run","pkg/cli/cli.go:Run"])
p("C90","New connections use new configurations","A connection accepted after some moment is served with a configuration at least as new as the one installed at that moment. The address a client connected to and the database it is given need not be of the same configuration (refuted expectation: address and database match).","every execution of the whole program","interleavings",["pkg/server/run.go:Run","pkg/cli/cli.go:Run"])
p("C91","Decoding is exact","RecvMessage, given the packet of a type byte and a body, yields a message iff the body is the protocol grammar's encoding of that message for that type, followed by nothing or, only for the kinds that tolerate trailing bytes, by ignored bytes; every other body is refused. The same holds for start-up packets (nothing or a NUL after the version when there are no parameters) and for NegotiateProtocolVersion through its own parser.","every body, every type byte, every chunking of the stream","the set of malformed bodies is infinite",[CN+":RecvMessage,RecvStartupMessage",SM])
p("C92","Start always ends in an error, and which","Session.Start never returns nil (refuted expectation: a session ending in good order, both peers hanging up, returns nil). An in pump ends only with an error; the processing goroutine never reports one and ends only after Close; an out pump ends without error only after Close. An unsupported protocol version, or a database other than the configured one, ends Start with exactly its own error and nothing is dialled.","every execution of the session","interleavings",[SE+":Start,negotiateSessionParams"])
p("C93","Configurations that arrive after Start is over","The update channel is closed exactly when Start has been called and is over. Since Start does not unsubscribe, every later configuration change sent to it crashes the process (refuted expectation: a configuration change after Close does no harm).","every interleaving","needs a configuration change after shutdown",[SV+":Start"])
p("C87","Every change of the file takes effect","From every state the program's own actions for configurations - reading, handing on, installing, listening - are bounded in number, whatever the interleaving. They cannot end early: when none is left, either the file could not be read or watched at the start, or the server waits for the next configuration, the watcher for the next event (or has ended after an fsnotify error), no Get is open, every configuration read is installed, in order, and the server has received every change of the listen address. A configuration written into the file while the watcher lives is therefore the one installed when nothing is left to do, whatever else happens, unless the file changes again or fsnotify fails.","every execution of the whole program, every state","liveness over all interleavings and all environment behaviours",["pkg/server/run.go:Run","pkg/cli/cli.go:Run"])
p("C94","No accepted connection is lost","In the whole program, for every connection Accept returned: either exactly one goroutine has it and ServeConn has not returned, or no goroutine has it, ServeConn returned exactly once, with the one result of session.Start, which is an error, the client's connection (and the database's, if there was one) is closed, and the session is out of the server's table. The accepted connections are all different and there are no others.","every execution of the whole program, every number of connections","unboundedly many connections and interleavings",[SV+":Serve,ServeConn",SE+":Start,Close","pkg/server/run.go:Run"])
p("C95","What the connections wait for","Left alone (no file changes, no new connections, no bytes, reads or hang-ups of peers, no result of net.Dial) the program performs only boundedly many actions. When it has nothing left to do, every accepted connection is over (as in C94) or its session is in the server's table and session.Start waits for: the rest of the client's startup packet, a peer's reading what is written to it, net.Dial, or it relays; and a relaying session has forwarded every complete message, unless a peer does not read or one of the session's goroutines ended. In particular no connection ever waits for a mutex, for the configuration, or for another connection.","every reachable state of the whole program","deadlocks need all states of all components",[SV,SE,CD,FW,"pkg/server/run.go:Run"])
p("C96","Buffers in shared memory","Although ReadBytes and the conversions between ReadBuffer, WriteBuffer and []byte share memory instead of copying, and append writes in place when the capacity allows, a program in which only WriteBuffer methods write, and no WriteBuffer is copied, behaves as if every variable held its own bytes: every result and every variable is what the byte-list semantics of C01-C07 says, for every growth policy of append. A write changes no byte of any slice outside the free capacity of the buffer written to. Both restrictions are needed: writing to two copies of one WriteBuffer with spare capacity makes the first show what was written to the second, and appending to bytes returned by ReadBytes overwrites the unread rest of the buffer.","every program over any number of buffers, every memory layout and growth policy","aliasing bugs need the right capacities, which depend on the runtime",[RB,WB])
p("C97","DataRow values share the frame","ParseDataRowMessage returns for every frame values that are windows into the frame (no copies), pairwise disjoint, holding what the byte-list model of the parser (C14, C25, C91) says. Overwriting a byte of a value in place changes that byte and no other value. Appending at most four bytes to a value, or more than the frame has room for, changes no value; anything in between overwrites the next value: after append(Values[k], a...) with 4 <= len(a) <= 4+len(Values[k+1]), Values[k+1] starts with a[4:].","every frame, every memory layout, every value and appended bytes","tests compare values, not memory",["pkg/pg/data_row_message.go:ParseDataRowMessage",RB,"pkg/pg/standard_frame.go:MessageBody"])
p("C98","The hex dump hides nothing","ReadBuffer.Inspect and WriteBuffer.Inspect print the length in decimal and then the bytes in lines of 16, each with the offset in hexadecimal, two hexadecimal digits per byte (blank cells in the last line) and the printable characters between bars. The bytes can be read off the text (different buffers have different dumps), and whatever the buffer holds, the text consists of printable ASCII and line feeds only.","every buffer","all byte strings",[RB+":Inspect",WB+":Inspect"])
p("C99","Data races",
  "Server and ConfigDistributor have no data race, whatever goroutines call them and in whatever order. In a Session the only race is for dbConn: Start sets it after dialling while a Close called by another goroutine reads it. In the file watcher the only races are those of the event handler storing an error in watcherError while the goroutine that adds the path stores its result or Watch returns it, and of a StopWatch called before Watch has returned reading watchDone while it is created; after Watch has returned there are none. The program that the command line runs has no data race at all once it serves; before, only watcherError's. That the program is free of data races is refuted by that one. (A data race: two goroutines able to access the same variable next, one of them writing. The lists of accesses are proved complete for the models: an action that is not listed as writing a variable leaves it alone, one not listed as accessing it does the same whatever its value.)",
  "all executions of each component and of the whole program: any number of goroutines, any interleaving, any environment",
  "The race detector reports only races of the executions it sees; these have windows of a few instructions, and their absence elsewhere is a statement about all interleavings.",
  [SV+":232-246",SV+":275-285",SV+":311-325",CD+":75-79",CD+":98-111",CD+":190-197",SE+":132",SE+":218",FW+":62",FW+":100",FW+":113",FW+":132",FW+":137"])
p("C100","Which error a broken packet is refused with",
  "For every complete packet that is neither accepted (C91) nor crashes the proxy (C23), the error RecvMessage returns is determined by the first thing missing in the body: io.EOF where fixed-size data is cut short, the missing-terminator error for a string without NUL, ErrMalformedMessage for a Terminate or EmptyQueryResponse with a body and for every NegotiateProtocolVersion, the unsupported-authentication error for other authentication codes. The same for startup packets. The three fates exclude each other and exhaust all bodies. That io.EOF means that the peer hung up is refuted: a short BackendKeyData or an empty ReadyForQuery on an open connection is reported with it.",
  "every type byte, body, chunking and continuation of the stream",
  "the ways of breaking a body are infinitely many, and nested in counted and terminated sequences",
  [CN+":RecvMessage,RecvStartupMessage",SM,RB+":33-45",RB+":83-102"])
p("C101","The program always gets back to accepting connections",
  "From every state of the running program its own actions suffice to bring it to rest. At rest, if net.Listen ever succeeded, the server's mutex is free, exactly one of its listeners is open and it is the server's current one; a goroutine waits in Accept on it, unless Serve of that listener has returned with an error. Whenever one does and the mutex is free, whatever other clients, databases and the file did before: the next client to connect is accepted and by seven actions of the program has a session in the table that waits for its startup packet, the goroutine is back in Accept and no other session is touched. That the open listener is always attended is refuted: after a permanent Accept error it is not.",
  "all executions of the whole program, any number of clients, any environment",
  "that no client and no configuration change can block the others is a statement about every reachable state",
  [SV+":74-125",SV+":129-172",SV+":177-213",SV+":264-326"])
p("C102","Silent clients stay",
  "A client that connects and does not complete a startup packet keeps its session, its place in the table, its connection and a goroutine of the program, all unchanged, whatever else happens and however long it takes, until it sends something or its connection ends; ServeConn does not return. That the number of such clients is limited is refuted: wherever a goroutine waits in Accept, for every k there is a continuation after which k more of them are in the table and the goroutine waits in Accept again.",
  "all executions of the whole program; all k",
  "no timeout is a statement about arbitrarily long executions, no limit one about every number",
  [SE+":157-196",SV+":177-213",SV+":264-326"])

p("C103","Whom a mutex lets in first does not matter",
  "For every rule by which the mutexes of ConfigDistributor and Server choose whom to let in (depending on everything that happened so far; all that is asked is that a mutex nobody holds is given to one of those who want it): when nothing is left to do that the rule allows, nothing is left to do at all, and the program comes to rest by its own allowed actions from every state. So what C87, C95 and C101 say of the program at rest, with a mutex that may let in anybody, holds for Go's writer-preferring RWMutex, whose rule is one of them.",
  "all executions of the whole program, all rules of acquisition",
  "a test sees the rule of one version of the runtime",
  [CD+":75-79",CD+":98-111",CD+":190-197",SV+":232-246",SV+":275-285",SV+":311-325"])

p("C104","sync.WaitGroup and Close",
  "With the parts of WaitGroup.Wait, Add and Done as separate actions, the server does nothing that it does not do with an atomic Wait; the counter is never negative; a Wait is never left sleeping when no goroutine of the server is running. The runtime's misuse panics are located: Add panics only when Start, or a Serve called from outside, creates a goroutine at the moment the last one ends while Close waits; Wait panics only when, after Close had closed everything, a goroutine was created at a moment when none was running, which only Start or such a Serve does. It never happens if Start and those Serve calls are over before Close waits, nor in the program, which never calls Close. That the watchdog is Close's only panic is refuted: a Close that overlaps with Start's changing the listener can panic in both ways.",
  "all executions of the server: any number of goroutines, any interleaving, any environment",
  "the windows are a few instructions wide",
  [SV+":215-262",SV+":292-299",SV+":74-125"])

p("C105","Sessions are isolated from each other",
  "In every execution of the program, the bytes written to a client are, in order, the answers to its SSL requests and the re-encoded messages decoded from the bytes its own database sent, and those written to a database come from its own client in the same way: no byte of one connection ever reaches another. Once a session relays, taking everything it and its peers do out of an execution leaves an execution that ends in the same state of everything else, and taking everything else out leaves what the session could have done alone; conversely, what both could do separately without a panic they can do together, in every order. Only a panic (C85) crosses the border.",
  "all executions of the whole program, any number of sessions, any environment",
  "a statement about pairs of executions",
  [SE,SV+":177-213","pkg/server/run.go:Run"])

p("C106","The log and the clients",
  "In every execution, when a session's Start has returned the log contains about it exactly: new connection, initializing, one refusal of encryption per SSL request, closing, closed - whatever Start returned; before that a part of this or, once the database is connected, one line per message passed on, whole and in order, never fewer than were handed to the other side. A session on its own, which anyone may close at any time, logs when Start returns its result if it relayed messages and no result otherwise, \"closed\" exactly then, \"closing\" once, and the error of every Close call but the deferred one. That the log tells why a client was refused, or whose the logged messages are, is refuted.",
  "all executions of the whole program, any number of clients, any environment; all executions of a session on its own",
  "what is absent from a log, in every execution, cannot be sampled",
  [SE+":74-123",SE+":157-196",SE+":296-321",SV+":177-213"])
p("C107","The log and the listeners",
  "The lines 'serving on' are, in order, the addresses of the configurations the server received, the lines 'can't listen on' are, in order, those for which net.Listen failed, and a listener is called ready at most once and only when it is in use. A server on its own, which anyone may start, close and make serve a listener, has logged every error a call of Serve returns, apart from that of a closed listener, and only those; it logs every temporary error of Accept, every error of closing a listener unless Close closed it, and that it is closing once, before any Close call returns. That 'serving on' means that the server serves there is refuted: it is written before net.Listen is called.",
  "all executions of the whole program, any environment; all executions of a server on its own, any callers",
  "order and number over arbitrarily long executions",
  [SV+":99-125",SV+":129-141"])
p("C108","The errors that are logged",
  "No line of the log tells how a session ended, why the watch of the configuration file ended or that the server is being closed; a failed reload of the file is logged exactly once. When the watch has ended, exactly one line, without the error, says so if adding the file or, after it, fsnotify had failed, and none otherwise.",
  "all executions of the whole program, any environment",
  "what is absent from a log, in every execution, cannot be sampled",
  [SE+":102-108",SV+":129-136",SV+":218-246",FW+":120-126","pkg/cli/watch_server_config.go:12-21"])

p("C109","Which connection strings are accepted",
  "With Go's url.Parse modelled down to the bytes: ParseDatabaseURI accepts a string exactly if it is a URI of a given grammar (scheme, user and password, host name or bracketed address with zone, port, path, query, fragment, escapes) whose scheme, in any mixture of capitals, is postgres or postgresql; the settings are exactly those that the components named by the grammar say; and no string makes it panic.",
  "all strings of bytes, all OS users, all iteration orders, toolchains before and since Go 1.17",
  "the strings cannot be enumerated",
  ["pkg/pg/dsn.go:15-61","pkg/pg/dsn_test.go:19-44"])
p("C110","Every setting can be written in a URI",
  "Any user, password, non-empty database and list of parameters, of arbitrary bytes, can be given for any host name or bracketed address and any port by escaping every byte: ParseDatabaseURI reads back exactly these, the first value of a parameter winning over the rest, and the address a session dials is the host and port as they were written. That any database can be named by the path is refuted: one whose name begins with a slash cannot.",
  "all strings of bytes, all OS users, all iteration orders",
  "the strings cannot be enumerated",
  ["pkg/pg/dsn.go:15-61",SE+":198-218"])
p("C111","Connection strings that are read otherwise than they look",
  "If the password contains an unescaped slash, question mark or hash sign, the string is refused, or its user name is taken for the host and the password up to that sign for the port, without a user. Refuted: that such a string is always refused (digits and a slash suffice); that a string without the two slashes is refused (it means the defaults: local host, OS user); that the host may be a socket directory, as in PostgreSQL's documentation.",
  "all such strings, all OS users, all iteration orders",
  "the strings cannot be enumerated",
  ["pkg/pg/dsn.go:12-54"])

p("C112","Whoever asks for the configured database is connected to it",
  "Wherever a goroutine waits in Accept, the mutexes are free and the current configuration's connection string is understood - in particular at rest -, and whatever the other clients, the databases and the file have done so far: a client that connects and sends a startup packet of version 3.0 for the database of the current configuration gets a session that dials the address of the current configuration, hands it the packet byte for byte and relays from then on, without a byte having been sent to the client. All it takes from outside is that net.Dial succeeds and the database takes the packet; no other session is touched, and the goroutine is back in Accept.",
  "all reachable states of the whole program, all configurations, all startup packets for the database",
  "the states the program can be in when a client arrives cannot be enumerated",
  [SV+":264-326",SE+":74-112",SE+":150-228",CD+":66-92"])
p("C113","Sessions nobody uses any more stay, without bound",
  "That the number of dead sessions is limited is refuted. From every state as in C112 and for every k there is a continuation in which nothing happens but that k clients come, are connected as in C112 and go away together with their databases, after which the program waits in Accept again and all k sessions are in the table; the program has read the end of both streams of each, their other goroutines have nothing to do, and however long the program runs then, whatever happens, none of these sessions ends, none leaves the table, no connection to one of these clients is closed and a goroutine of the program waits for each.",
  "all reachable states as in C112, all k, all continuations",
  "no limit is a statement about every number, never about executions of every length",
  [SE+":74-112",SE+":230-320",SV+":177-213",SV+":264-326"])

p("C114","Running queries cannot be cancelled",
  "That the CancelRequest with which a client wants its running query stopped reaches the database is refuted in every execution: if a connection's bytes begin with any number n of SSLRequests followed by a complete packet whose number is neither 196608 (version 3.0) nor that of SSLRequest - CancelRequest (80877102), GSSENCRequest (80877104), any other version - and whatever the packet carries, then no configuration is asked for, nothing is dialled, no byte reaches a database, and the client receives nothing but at most n bytes 'N'. In the whole program, once nothing is left to do, the connection is over: ServeConn returned once, with an error, both ends are closed and it is out of the table; unless the client does not take one of its refusals.",
  "all reachable states of a session and of the whole program, all n, all other numbers, all packet contents, all segmentations",
  "the packets and the states in which they arrive cannot be enumerated; what must never happen is not observed by running",
  [SE+":74-112",SE+":150-228",SM+":27-69",SV+":264-326"])

p("C115","Every message is delivered in the end",
  "In every infinite execution of the whole program in which the five goroutines of session c are scheduled fairly, its select statement does not neglect a ready case forever, and its peers keep reading: if the messages ms have completely arrived from one peer, then at some later moment all of them have been written to the other peer, first of all and in order, or the session has failed. This holds however much traffic there is in either direction meanwhile, and whatever clients, database, file and all other goroutines do. The session can only have failed because its own in pump could not receive a message from a peer or a write of its own to a peer failed; nothing another session or the server does ends it. The same holds for a session used on its own, except that there Close can also end it.",
  "all infinite executions of the program and of a session, all schedules that are fair to the session, all messages, both directions, all traffic",
  "a liveness property: no finite run shows that something eventually happens under every fair schedule",
  [SE+":230-320",CN+":29-88"])

p("C116","A change of the configuration takes effect, however busy the program is",
  "In every infinite execution of the whole program in which the event handler, the monitor and the goroutine running Start are scheduled fairly and RWMutex lets no new reader pass a waiting writer: once the server has been started, every configuration read so far is eventually installed, in the order of reading, every change of the listen address among them is eventually received by the server and passed to net.Listen, and where that succeeds the server listens there. A configuration written into the file while the watcher lives becomes the current one and stays it from then on, unless the file changes again, fsnotify fails, or the program panics. This holds whatever the clients, databases and sessions do meanwhile, however many of them there are and however often they call Get.",
  "all infinite executions of the program, all schedules fair to the three goroutines, all configurations, any number of sessions",
  "a liveness property under unbounded interference: no finite run shows that a reload is never postponed forever by readers of the configuration",
  [CD+":93-215",SV+":80-135",FW+":65-110"])

p("C117","Each connection is closed at most once, and ServeConn says why it ended",
  "However Start, Serve, ServeConn and Close are called and interleaved: the server closes each session at most once and each client connection at most once; it closes only connections of sessions it has closed and closes only sessions it has registered, and every connection it did not close is open. ServeConn returns ErrServerClosed without ever having registered the session, or ErrSessionClosed for a session that Close closed before its Start began, or exactly what the session's Start returned. The session table holds exactly the sessions registered and neither removed nor swept since. Every result answers one call or one background function.",
  "all interleavings of any number of calls and goroutines, all listeners, connections and session results",
  "a double close or a lost result needs a particular interleaving of Close with a session that ends by itself",
  [SV+":174-262",SV+":302-326"])

p("C118","Every client is attended to, however busy the program is",
  "In every infinite execution of the whole program in which no goroutine that is again and again able to act is passed over for ever, and sync.RWMutex lets a waiting writer go before new readers: every connection Accept returned comes to a point where it is over (ServeConn returned, connections closed, session forgotten) or its session.Start waits for a peer, for net.Dial or for the session's goroutines. A startup packet that came while session.Start waits for it is read and a client that hung up is let go; a session that asks for the configuration gets it and calls net.Dial or returns an error; a session.Start that is returning is followed by ServeConn's return with the same error. The only other outcome is a panic of the program.",
  "all infinite executions, finite or endless traffic, any number of clients, sessions and changes of the configuration",
  "starvation behind a mutex under endless traffic cannot be shown absent by any finite run",
  [SV+":129-213",SV+":302-326",CD+":66-90",SE+":74-115",SE+":151-229",SE+":323-345"])

p("C119","A client that has said what it wants is connected or turned away, however busy the program is",
  "In every infinite execution of the whole program that is fair as in C118 and in which neither a write of session.Start nor net.Dial hangs for ever for the connection in question: once the client of an accepted connection has sent any number of SSLRequests followed by another complete packet, or has closed or lost its connection, its session comes to be established, or ServeConn returns with everything closed, whatever the other clients, the databases and the configuration file do. If that packet is not a StartupMessage of protocol 3.0 (a CancelRequest, a GSSENCRequest, protocol 2), ServeConn returns. The only other outcome is a panic of the program.",
  "all infinite executions, any number of SSLRequests, any packet, any segmentation of the stream, any traffic of others",
  "that a handshake ends under endless traffic of others cannot be shown by any finite run",
  [SV+":174-262",CD+":55-131",SE+":74-112",SE+":153-228"])

p("C120","Whoever asks for the configured database is connected to it, however busy the program is",
  "In every infinite execution of the whole program that is fair as in C119: if the unread input of an accepted connection whose session.Start has not asked for the configuration yet begins with any number of SSLRequests and a StartupMessage of protocol 3.0 for database db (of any length, in any segmentation, with anything behind it), then its session comes to be established with exactly one net.Dial, to the address of the configuration the session was given, whatever the other clients, the databases and the configuration file do; provided that from then on no write and no net.Dial of that session fails, the client's connection is not reset, and the configuration the session gets names db in a connection string that is understood. The only other outcome is a panic of the program. (C112 says that there is such a continuation; this says that every fair one is.)",
  "all infinite executions, any number of SSLRequests, any StartupMessage and segmentation, any traffic of others",
  "that every fair schedule connects the client is a statement about infinitely many infinite runs",
  [SV+":174-262",CD+":55-131",SE+":74-112",SE+":153-228",SE+":323-345"])

p("C121","Client and database get every byte of each other's messages in the end, even after one of them has hung up",
  "In every infinite execution of the whole program that is fair as in C120 and, for the session, as in C115: if a client asks for the configured database as in C120, and from then on no write and no net.Dial of its session fails and neither of its two connections is reset, then (a) whatever messages of the kinds C20 covers (queries, passwords that are text, Terminate and the others named there) the client has sent behind its StartupMessage, before or after it was connected, in the end the database has been handed exactly the StartupMessage followed by these messages, byte for byte; and (b) whatever messages of the kinds C19 covers the database has sent, in the end the client has been handed exactly one byte N for each SSLRequest followed by these messages, byte for byte. This holds also if the client or the database hangs up as soon as it has sent them, whatever the other clients and the configuration file do. The only other outcome is a panic of the program. (C115 says so for a session all of whose goroutines keep running; here the pumps that read may have returned.)",
  "all infinite executions, any number of messages in any segmentation in both directions, any moment of hanging up, any traffic of others",
  "that every fair schedule hands over every byte is a statement about infinitely many infinite runs",
  [SV+":174-262",SE+":74-150",SE+":153-228",SE+":233-318",CN+":29-94"])

p("C122","What the configuration file says",
  "Let the configuration file consist of nothing but comments, keys, strings, booleans and decimal integers (or be anything that is not even that). readServerConfig accepts it exactly if it is a document of the grammar of SpecToml.v in which no key is set twice and listen and database-url (in capitals or not), if set, are set to strings. The configuration is then what the document says: each field is a value it is set to, with escapes resolved, or empty if it is not set; comments, unknown keys, blanks and the order of lines do not matter. If no field is set under two names, the file means the same whenever it is read. Every other such file, and one that cannot be read, is refused with an error. Every address and connection string that can be put between quotation marks can be configured as README.md shows. README.md calls both fields mandatory: a file without them is accepted, and the field is empty (expectation refuted); an empty connection string is refused by ParseDatabaseURI, so that no session gets a database. A file that sets a field under two names (listen, Listen) is read now this way, now that (expectation refuted).",
  "all file contents without tables, arrays, dates, floats, signed integers and multi-line strings; every iteration order of Go maps",
  "the acceptance condition is an equivalence over all texts, and the result may depend on Go's random map order",
  ["pkg/cli/read_server_config.go:12-29","pkg/server/config.go","README.md:56-81"])

p("C123","No half-written configuration file names a wrong address or database",
  "The file may be read when only a part of it has been written. If the finished file is accepted (without the constructs C122 leaves out, and with one meaning), then whatever beginning of it is read, the result is an error or a configuration each field of which is what the finished file says, or empty: a truncated address or connection string is never taken. That a half-written file is refused is not so: cut at the end of a line it is accepted without the fields that follow (expectation refuted).",
  "all file contents as in C122, every point at which they are cut, every map order",
  "all prefixes of all files",
  ["pkg/cli/read_server_config.go:12-29","pkg/cli/watch_server_config.go:12-21"])

p("C124","From the text of the configuration file to the addresses in use",
  "Let the configuration file, whenever it is there, hold one of a set of texts as far as it has been written at that moment, each finished text being a document (C122) in which no field is set under two names. In every execution of the whole program every address dialled for a client is the host and port that the connection string of a finished text gives, by the grammar of connection strings (C109), and every address listened on is that of a finished text, or empty: nothing cut off is ever dialled or listened on. In infinite executions, fair as in C120, in which the file holds one and the same finished text: a client that asks for the database its connection string names is connected to the host and port it names, whatever the other clients and databases do; provided no write and no net.Dial of its session fails and its connection is not reset. A finished text written into the file while the watcher lives becomes and remains the configuration in force, unless the file changes again or fsnotify fails. The only other outcome is a panic of the program.",
  "all executions, all texts as in C122, every point at which a text is cut, every sequence of texts, every connection string",
  "combines all texts, all moments of reading and all interleavings",
  ["pkg/cli/read_server_config.go:12-29","pkg/cli/watch_server_config.go:12-21",SV+":84-140",SE+":153-228",SE+":320-345","pkg/pg/dsn.go"])

p("C125","What the command line says",
  "A command line is a sequence of words: --help, --help-long, --help-man, --version, --verbose or -v, each with a --no- form except -v; a configuration file as --config=P, --config P, -c P or -cP (P a word that begins neither with - nor with @ where it stands alone; after -- and at the end it may be any word); short flags may be joined (-vcP); -- may end it. Each command line says one thing. One that is not of this form, or gives a flag twice, is turned down: an error is printed, nothing is read or served, exit code 1. If the last of its words on --help and --version says yes, nothing is done, exit code 0. Otherwise the file named is read, and no other, or, if none is named, gevulot.toml in the directory to which the word that started the program leads, up to its last slash, in a tree without symbolic links (the current directory if that word has no slash); the same file is watched, and the server runs with what was read if both succeed; debug output is on if and only if --verbose or -v was given. The spellings of --config come to the same. Refuted: the default file is not that of the current directory, as the README says, when the program is started by a path; --help-long and --help-man print help and then start the server; --no-version takes back a --help in front of it, so the order of different flags matters.",
  "all command lines without a word that begins with @ or contains completion-, all words that may have started the program, all results of reading, watching and serving",
  "unboundedly many command lines; the unit tests mock the environment and try a handful",
  [CL+":52-89",CL+":121-155","README.md:15-32"])

p("C126","From command line and disk to the first configuration",
  "Let the command line (C125) ask for the server to be run with the file p, named there or found beside the program, and let reading a file give what TOML (C122) makes of its content. If p holds a document in which no field is set under two names and p can be watched, the server is run, once, with exactly the address and the connection string the document gives; the exit code is 0 if the server ends without an error and 1 otherwise. If p cannot be read, or its content is no document, sets a key twice or gives a field a value that is no string, the server is not run: one error is printed, exit code 1. If p holds such a document as far as it has been written when it is read, the program ends with exit code 1 or runs the server once, each of the two fields being that of the finished document or empty. No file other than p makes a difference. Refuted: an empty file starts the server although both fields are called mandatory.",
  "all command lines as in C125, all contents of all files as in C122, all results of watching and serving",
  "combines all command lines with all texts",
  [CL+":52-155","pkg/cli/read_server_config.go:12-29","main.go:10-17","README.md:15-84"])

p("C127","Starting alone and starting amid all goroutines is the same",
  "In every execution of the whole program (C83), for every command line that asks for the server to be run with a file p: take the results reading and watching p have had in that execution. With these results the program run on its own, from its command line (C125), does at least what the goroutine that called cli.Run has done so far, in the same order. If that goroutine serves by now, the configuration served on its own is the one sent first in the execution. If it has given up, it has done all it does apart from printing one error, and the exit code is 1.",
  "all executions of the whole program, all command lines as in C125, all results of the server",
  "relates all interleavings of the program to a sequential run",
  [CL+":52-155","pkg/cli/file_watcher.go:35-133","main.go:10-17"])

with open(os.path.join(os.path.dirname(__file__),"..","properties.jsonl"),"w") as f:
    for o in P: f.write(json.dumps(o, ensure_ascii=False)+"\n")
print(len(P))
