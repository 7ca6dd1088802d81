# Design: a Rocq (Coq 8.16.1) model of hired/gevulot

Source of truth: `/repo` (Go, pinned commit), read as text. Properties: `properties.jsonl`
(C01..). Status per property: `MANIFEST.json`. Everything formal is in `rocq/theories`
(logical name `Verif`), standard library only.

## 1. Layout

| files | role |
|---|---|
| `GoBase.v` | Go values: bytes, fixed-width wrap-around, `res` = Ok / Err / Panic |
| `Buffers.v`, `Frames.v`, `Messages.v`, `Conn.v` | **model** of the codecs of `pkg/pg` (executable functions) |
| `Dsn.v`, `Config.v`, `Cli.v`, `Inspector.v` | **model** of the sequential rest: `pkg/pg/dsn.go`, `pkg/server/config.go`, `pkg/cli` (argument handling, exit code), `pkg/pgmeta` |
| `SpecRace.v`, `Race*.v` | what a data race is; the accesses to shared variables, with proofs |
| `Inspect.v` | **model** of the buffers' `Inspect`, including encoding/hex's `Dump` |
| `Slices.v` | **model** of the two buffers and of `ParseDataRowMessage` with Go's memory: slices sharing arrays, `append` in place |
| `NetUrl.v` | **model** of the standard library's `url.Parse` (Go 1.13, and since 1.17), as far as `dsn.go` looks at its result |
| `Toml.v` | **model** of `read_server_config.go` down to the text of the file: the lexer, parser and decoder of BurntSushi/toml v0.3.1, for comments, keys, strings, booleans and decimal integers |
| `Lts.v` | executions of labelled transition systems: `run`, `reachable`, induction |
| `Event.v`, `Distributor.v`, `Session.v`, `Server.v`, `FileWatcher.v` | **model** of the concurrent parts, one per Go file (`FileWatcher.v` also covers `watch_server_config.go` and `prepareConfigChan`): transition systems `step : state -> label -> option state` |
| `System.v` | **model** of `run.go` + `cli.go`: the four components and one session per accepted connection composed into the whole program |
| `Spec*.v` | small independent specifications: two's complement big-endian, the 3.0 message grammar, "what a subscriber may expect", ... They read inputs, outputs and histories and do not use the model's helpers |
| `*Proofs.v`, `*Facts.v`, `Distributor*.v`, `Session*.v`, `Server*.v`, `Watcher*.v`, `System*.v` (other than the models above) | lemmas: invariants, progress measures, consequences, concrete runs |
| `P_*.v` | the property theorems and nothing else: `Theorem Cnn_... Proof. exact lemma. Qed.`, `Print Assumptions`, and an `Example Cnn_instance` showing a concrete non-trivial case of the hypotheses |
| `Tests*.v` | the project's own tests replayed against the model: golden bytes of `pkg/pg/*_test.go`, `cli_test.go`; scenarios of `event_test.go`, `config_distributor_test.go`, `server_test.go`, `file_watcher_test.go`, `watch_server_config_test.go` as runs of the transition systems |

`tools/gen_properties.py`, `gen_manifest.py` and `notes.json` produce `properties.jsonl` and
`MANIFEST.json`. `seeded/LOG.jsonl` records the wrong models tried against the theorems.

## 2. Modelling conventions

* A Go function that mutates through a pointer returns the new value. A Go slice is a list; nil
  is distinguished from empty only where the code looks at it (DataRow values: `option (list byte)`).
  `Slices.v`/`P_Slices.v` justify lists for the two buffer types (see 3).
* Fallible results are `res A := Ok a | Err e | Panic p`; a run-time panic (negative slice bound,
  negative `make`, send on closed channel, close of closed channel) is an explicit outcome.
* Fixed-width arithmetic is written out (`wrap32`, `wrap16`, 64-bit `int`), everything else is `Z`/`nat`.
* Goroutines are program counters; each label runs one atomic action of one goroutine. A mutex is an
  explicit owner field; a channel is a capacity, a queue and a closed bit; `select` is several labels.
  An execution is a list of labels, so "for every schedule" is "for every list of labels", without
  any bound on its length or on the number of goroutines, connections, messages or reloads.
* Histories are ghost lists of observable events, newest first; most claims are about them.
* External calls (url.Parse, user.Current, kingpin, toml, fsnotify, database/sql, net.Dial/Listen/Accept,
  the network peers) are inputs of the model: the theorems quantify over every result they may give.
* "Always eventually" is stated without fairness assumptions (except in C115, C116, C118-C121 and C124), in three parts: a measure bounding the
  program's own actions, what a state in which nothing more can happen looks like, and (where true)
  that such a state is reached. Blocking is "no label of these goroutines is enabled in any
  continuation".
* Where the code does not do what its comments, its README or a reader would expect, the theorem
  `Cnn_..._refuted` proves the negation: for every input if possible, otherwise by a concrete
  reachable execution. The list is in section 5.

## 3. How each group is proved

* C01-C07 buffers: methods on `list byte` against `SpecWire.v` (a number is the sum of byte*256^i).
* C08-C13 frames: `io.CopyN` over a reader that is a list of chunks plus a final error; induction on
  chunks; the 32-bit wrap-around of the length field is explicit.
* C14-C27, C91 messages: every Parse/Frame pair; the grammar of protocol 3.0 (`SpecProtocol.v`);
  exact decoding (C91), exact crash set (C23).
* C28-C31 DSN: settings as a finite map; map iteration order is any permutation; the result of
  url.Parse is an input. C109-C111 put a model of url.Parse in its place: `SpecUri.v` is a grammar
  (strings put together from parts), shown equivalent to the parser.
* C122, C123 configuration file: `SpecToml.v` is a grammar of documents, shown equivalent to the
  lexer and parser (a byte-by-byte automaton); the decoder is given any iteration order of the map. C124 puts the
  file as text and the URI grammar in front of the whole program.
* `Kingpin.v` models the command line as words, up to the effects of cli.Run (C125); `SpecArgs.v` is a grammar of command lines. C126 adds
  the files on the disk as text, and C127 shows that `System.v` starts the program in the same way.
* C32, C33, C76 Event: down to the atomic accesses of sync.Once; C76 shows that the three-state
  object used by the other models is what callers can observe.
* C34-C41 ConfigDistributor; C42-C59, C77, C78, C92 Session; C60-C68, C79-C81, C93, C117 Server; C70-C73,
  C82 file watcher: invariants over histories, progress measures, concrete deadlocks and crashes.
* C69 command line, C74, C75 inspector: functions of the external results.
* C96, C97 memory: `Slices.v` repeats the buffers with a heap; a program over any number of buffers
  refines the byte-list model as long as every WriteBuffer stays in one variable and only buffers are
  written to. This is so in the whole code base: every `Frame()` builds its own WriteBuffer and no
  parsed value is written to.
* C104 wait group: `WaitGroup.v` puts the runtime's WaitGroup (counter, sleeping and woken waiters, its two panics)
  around `Server.v`.
* C99 data races: which action accesses which shared variable is listed with the Go lines in `Race*.v`; that
  the lists leave out no access of the models is itself proved.
* C98 `Inspect`: the state machine of hex.Dumper (the Go library's; its source is not in /repo) against the table
  format of `SpecInspect.v`.
* C83-C90, C94, C95, C101-C103, C105, C112-C116, C118-C121 whole program: `System.v` closes what the components left open (Subscribe, Get,
  the update channel, configChan, session Start/Close). `SystemProofs.v` shows that every component
  of a reachable system state is a reachable state of its own model (so all component theorems
  apply), `SystemQuiet.v` that every change of the file takes effect, `SystemServing.v` what becomes
  of every accepted connection, `SystemReady.v` that the program gets back to Accept whatever clients do.
  `IsolationProofs.v` compares executions with and without a session (C105).
* C106-C108 log: `Log.v` says which lines an action of the whole program writes.

## 4. Trusted base

* Coq's kernel (with its `vm_compute`), and the reading of the Go code: nothing is extracted or run.
* `Print Assumptions` reports "Closed under the global context" for every theorem in `P_*.v`: no
  axioms, neither of ours nor of the standard library. (`coqchk -o` lists, besides, the axioms of
  the library files loaded: `Coq.ssr.ssrunder.Under_rel.*`, loaded with the `lia`/ssreflect plugins
  of the standard library and used by no theorem.)
* No functors, module types, `Declare Module`, `Admitted`, `admit`, disabled checks or plugins.

**Modelled**, function by function (each definition cites its lines): everything in `pkg/pg`,
`pkg/pgmeta/inspector.go`, `pkg/server/*.go`, `pkg/cli/*.go` and `main.go`, except:

| not modelled | effect on the claims |
|---|---|
| how logrus renders a line, and the Debug lines | no claim about it; the Info and Error lines are modelled in Log.v (C106-C108) |
| texts kingpin prints for --help/--version | no claim |
| memory exhaustion; stack exhaustion by the recursion of session.go:172 (C43 shows the recursion is unbounded) | claims hold until the process is out of memory |
| the Go memory model: data races are given interleaving semantics; C99 lists all of them (`dbConn` in session.go, `watcherError` and `watchDone` in file_watcher.go) | a compiler may do worse in racy executions; the serving program has none |
| fairness of sync.RWMutex and of `select` | more schedules than Go has; claims hold for all of them. Only C115, C116, C118-C121 and C124 assume fairness, in hypotheses of the theorems that SpecLive.v, SpecReload.v, SpecAttend.v and SpecSettle.v define: a goroutine (of the session; of the watcher, the distributor and the server) that can go on does so, or comes to a point where it cannot; a ready case of the session's `select` is not neglected forever (C115, C121); RLock does not succeed while someone waits in Lock, as the documentation of sync.RWMutex says (C116, C118-C121); a goroutine of the server that can go on again and again does so, so that waiting for a mutex that is freed again and again ends (C118-C121; sync.Mutex's starvation mode provides this); a write of session.Start and net.Dial return in the end (C119-C121). For the mutexes C103 shows that the claims about the program at rest hold under every rule of admission, writer preference included |
| sync.WaitGroup's panic on misuse ("Add called concurrently with Wait") in Server.v | modelled on top of it in WaitGroup.v: C104 says exactly when it happens |
| real time: the watchdog (server.go:252) may fire as soon as Close waits | over-approximation |
| the internals of url.Parse | inputs, any result; in C109-C111 and C124 the model `NetUrl.v`, written from knowledge of Go's net/url, whose source is not in /repo |
| the internals of toml | inputs, any result; in C122-C124 and C126 the model `Toml.v`, written from knowledge of BurntSushi/toml v0.3.1, whose source is not in /repo. Tables, arrays, dates, floats, signed integers and multi-line strings are left out: there the model says `None`, and the theorems nothing |
| the internals of kingpin | inputs, any result; in C125 and C126 the model `Kingpin.v`, written from knowledge of kingpin v2.2.6, whose source is not in /repo, and of path/filepath on Unix. Files of arguments (@file) and the completion flags are left out: there the model says `None`, and the theorems nothing |
| the internals of user.Current, fsnotify, database/sql, net | inputs, any result |
| test hooks (`testHookServe`, `testHookServeConn`) | nil outside the tests |

Simplifications of granularity (one action where Go has several, when nobody can observe the
difference) are listed at the top of each model file.

## 5. Refuted expectations

Each is a theorem `..._refuted` about the unchanged code.

* Codec: illegal frame lengths are not rejected (C12); NegotiateProtocolVersion cannot be received
  (C16); Sync, Describe and Execute are not forwarded verbatim and Describe can crash the proxy
  (C21); copies of a WriteBuffer, bytes returned by ReadBytes and the values of a DataRow are not
  independent under append (C96, C97); a broken packet is reported as io.EOF (C100); a database whose name begins with a slash cannot be named by the path of a URI (C110); passwords with unescaped slashes, URIs without slashes and socket directories are misread or refused (C111); unsupported authentication codes, and SASL/GSS responses containing or lacking a NUL (C22).
* Distributor: Get, Close and updates can deadlock (C38); a send on Server.Start's closed channel
  (C39); a subscription can outlive Close (C41).
* Session: unbounded negotiation (C43); a second database parameter is smuggled through (C45); a
  rejected client is told nothing (C46); a client that does not read blocks its own messages (C53);
  a hangup does not end the session (C54); Close can crash pumps and processing (C55); a database
  connection dialled during Close leaks (C56) and hangs Start (C78); passwords are logged (C59);
  Close loses the client connection's error (C77); an orderly end is reported as an error (C92).
* Server: an older configuration can win (C62); late sessions and listeners survive Close until the
  watchdog panics (C63, C64); a connection nobody closes (C68); an unattended listener (C79); an
  update after Start ended (C93); the WaitGroup panics when Close overlaps with Start's changing the listener (C104).
* CLI: the default configuration file is not that of the current directory, --help-long and --help-man start the server, --no-version takes back --help (C125); the mandatory fields may be missing (C122, C126), and a field set under two names is read differently from time to time (C122); half-written files are accepted (C123); an early change is lost (C70); replacing the file does not reload (C72); a callback after
  StopWatch (C73); Watch may report success without watching, failure although watching, and logs
  the wrong variable (C82).
* Log: it tells neither why a client was refused nor whose a message is (C106); "serving on" precedes listening (C107).
* Inspector: an iteration failure is reported as success (C74).
* Data races: `dbConn`, `watcherError`, `watchDone` (C99).
* Whole program: one client's message stops it (C85); the older address can win (C86); the session
  of a client that hung up is never freed (C88); address and database of different configurations
  (C90); after a permanent Accept error the open listener has nobody to accept (C101); silent clients are neither
  dropped nor limited in number (C102); the sessions of clients that have hung up stay for ever, and nothing limits
  their number (C113). A client cannot cancel a running query: CancelRequest is refused like an unknown version (C114).

No property was judged inexpressible.
