{
 "C100": {
  "note": "The expectation that io.EOF means the end of the stream is refuted; everything else is proved for all bodies.",
  "status": "proved"
 },
 "C101": {
  "note": "The expectation that the open listener is always attended is refuted; everything else is proved for all executions.",
  "status": "proved"
 },
 "C102": {
  "note": "The expectation of a limit is refuted for every number; the rest is proved.",
  "status": "proved"
 },
 "C103": {
  "note": "An arbiter sees the whole past and the state, and may hold back anybody who is about to acquire a mutex, as long as an unheld mutex that somebody could acquire is given to one of them. Writer preference and reader preference (among any number of goroutines) are shown to be such arbiters.",
  "status": "proved"
 },
 "C104": {
  "note": "WaitGroup.v puts the runtime's WaitGroup (read from the documented algorithm of sync/waitgroup.go: counter, waiters, semaphore) around Server.v. C104_close_panics_only_by_watchdog_refuted gives two executions ending in the runtime's two panics.",
  "status": "proved"
 },
 "C105": {
  "note": "The first theorem ties the session histories of C48/C49 to the network actions of the whole execution (received). The others are statements about pairs of executions (noninterference) for sessions that have been established; before that a session also asks the distributor for its configuration.",
  "status": "proved"
 },
 "C106": {
  "note": "Log.v models every Info and Error line; Debug lines are left out (C69). C106_reason_logged_refuted and C106_sender_logged_refuted are two expectations that fail: the error of Start is dropped by server.go:170, and session.go does not print which session it is about. The line about a message is written in the same action as its receipt from the channel.",
  "status": "proved"
 },
 "C107": {
  "note": "C107_serving_serves_refuted is the expectation that fails: the line precedes net.Listen. The line 'ready' is written in the same action as the mutex is released; nothing is claimed about its order among other goroutines' lines.",
  "status": "proved"
 },
 "C108": {
  "note": "The list of what is never logged is SpecLog.impossible.",
  "status": "proved"
 },
 "C110": {
  "note": "C110_slash_refuted: the leading slashes of the path are all trimmed, escaped or not.",
  "status": "proved"
 },
 "C111": {
  "note": "The refuted expectations are proved for every such string, not by an example.",
  "status": "proved"
 },
 "C113": {
  "note": "Refutes, for every state and every k, the expectation that the sessions of clients that have hung up are disposed of (C88 for one session).",
  "status": "proved"
 },
 "C114": {
  "note": "Refutes, for every state, the expectation that query cancellation passes the proxy.",
  "status": "proved"
 },
 "C12": {
  "note": "The behaviour for every length field is proved; the user's expectation that an illegal length is rejected is refuted by C12_illegal_length_rejected_refuted.",
  "status": "proved"
 },
 "C122": {
  "note": "Toml.v models the part of BurntSushi/toml v0.3.1 that such files need (its source is not in /repo; written from knowledge of it). Tables, arrays, dates, floats, signed integers and multi-line strings are outside: the model answers None and the theorems say nothing. C122_mandatory_refuted and C122_names_refuted are the expectations that fail.",
  "status": "proved"
 },
 "C123": {
  "note": "C123_accepted_refuted is the expectation that fails.",
  "status": "proved"
 },
 "C124": {
  "note": "Puts Toml.v and NetUrl.v, models of libraries whose source is not in /repo, in front of System.v. Texts outside the model of TOML (C122) are excluded. C124_takes_effect and C124_connected are proved for every fair infinite execution.",
  "status": "proved"
 },
 "C125": {
  "note": "Kingpin.v models the part of kingpin v2.2.6 and of path/filepath (Unix) that parseArgs uses, written from knowledge of these libraries, whose source is not in /repo. Arguments from files (@file) and kingpin's completion flags are not modelled: C125_covered says which command lines are. C125_path gives the default path letter by letter for paths in their shortest form (SpecArgs.tidy), C125_default says where it leads for every path. C125_default_refuted, C125_help_long_refuted and C125_help_refuted prove that three expectations fail.",
  "status": "proved"
 },
 "C126": {
  "note": "Puts the models Kingpin.v and Toml.v together; what they leave out (C122, C125) is left out here. C126_empty_refuted proves that an expectation fails.",
  "status": "proved"
 },
 "C127": {
  "note": "Ties the models Cli.v and Kingpin.v to System.v. The end of the server is not compared: in no execution of System.v does runServer return (C83_run_never_returns).",
  "status": "proved"
 },
 "C16": {
  "note": "The statement is the proved negative fact; the expectation that NegotiateProtocolVersion can be received is refuted for every such packet.",
  "status": "proved"
 },
 "C21": {
  "note": "The statement is the proved negative fact; verbatim forwarding of Sync/Describe/Execute is refuted for every packet of the stated kinds. Describe packets of 80KB and more and Execute with a row limit of 2^24 or more are not covered.",
  "status": "proved"
 },
 "C22": {
  "note": "Exact: accepted codes are forwarded verbatim, all others rejected; 'p' bodies other than a C string are rejected or truncated.",
  "status": "proved"
 },
 "C23": {
  "note": "Exact crash set (iff); the expectation that nothing crashes is refuted by the example next to it.",
  "status": "proved"
 },
 "C38": {
  "note": "Exact characterisation of the deadlock states plus three schedules reaching them (the _refuted theorems).",
  "status": "proved"
 },
 "C39": {
  "note": "Safety under the client rule, the only possible crash, and the schedule by which Server.Start's use crashes (_refuted).",
  "status": "proved"
 },
 "C41": {
  "note": "The _refuted theorem shows that a subscription can outlive a completed Close.",
  "status": "proved"
 },
 "C43": {
  "note": "The statement is the proved negative fact (for every n).",
  "status": "proved"
 },
 "C45": {
  "note": "Exact check proved; the smuggled second parameter is the _refuted theorem.",
  "status": "proved"
 },
 "C46": {
  "note": "Proved for every execution; the _refuted theorem is a database mismatch answered with no bytes.",
  "status": "proved"
 },
 "C53": {
  "note": "Exact blocking condition, and the state in which the client is blocked (_refuted).",
  "status": "proved"
 },
 "C54": {
  "note": "Proved for every execution without an external Close; the _refuted theorem is the double hangup.",
  "status": "proved"
 },
 "C55": {
  "note": "Causes proved for every execution with a url.Parse that does not panic; two crashing schedules (_refuted).",
  "status": "proved"
 },
 "C56": {
  "note": "Released resources characterised; the leak schedule is the _refuted theorem.",
  "status": "proved"
 },
 "C59": {
  "note": "Proved for every message forwarded; concrete password in the _refuted theorem.",
  "status": "proved"
 },
 "C62": {
  "note": "Last-installed proved for every execution; the _refuted theorem is the schedule by which the older configuration wins.",
  "status": "proved"
 },
 "C63": {
  "note": "Proved for every execution, including the exact set of latecomers Close can wait for and a bound on the server's own actions; the two _refuted theorems are schedules ending in the watchdog's crash. A session told to close is assumed to end (C78 is the session's side).",
  "status": "proved"
 },
 "C64": {
  "note": "Proved for the goroutines the wait group counts; the _refuted theorem shows a goroutine and a listener created after Close returned.",
  "status": "proved"
 },
 "C68": {
  "note": "Exact alternatives proved; the _refuted theorem is a connection nobody closes.",
  "status": "proved"
 },
 "C70": {
  "note": "C70_early_change_refuted: a change between the initial load and watcher.Add is lost.",
  "status": "proved"
 },
 "C72": {
  "note": "C72_replacement_reloads_refuted shows the refuted expectation with a concrete execution.",
  "status": "proved"
 },
 "C73": {
  "note": "C73_no_callback_after_stop_refuted: select may prefer a file event over the closed channel.",
  "status": "proved"
 },
 "C74": {
  "note": "C74_iteration_failure_reported_refuted: rows.Err() is never consulted.",
  "status": "proved"
 },
 "C77": {
  "note": "Proved for every execution; the lost error is the _refuted theorem.",
  "status": "proved"
 },
 "C78": {
  "note": "Proved for every execution; the hanging schedule is the _refuted theorem.",
  "status": "proved"
 },
 "C79": {
  "note": "Proved; the _refuted theorem is the unattended listener.",
  "status": "proved"
 },
 "C82": {
  "note": "Refuted expectations: C82_success_means_watching_refuted, C82_failure_means_not_added_refuted, C82_error_logged_refuted (line 124 prints the wrong variable).",
  "status": "proved"
 },
 "C83": {
  "note": "Proved for every execution of the composition.",
  "status": "proved"
 },
 "C85": {
  "note": "Cause proved for every execution; the _refuted theorem is the concrete run in which one client's message stops the program.",
  "status": "proved"
 },
 "C86": {
  "note": "Order proved for every execution; the _refuted theorem is the run in which the older address wins although nothing is under way.",
  "status": "proved"
 },
 "C88": {
  "note": "Proved; the _refuted theorem is the dead session that is never freed.",
  "status": "proved"
 },
 "C90": {
  "note": "Freshness proved for every execution; the _refuted theorem is the run in which address and database belong to different configurations.",
  "status": "proved"
 },
 "C92": {
  "note": "Refuted expectation: C92_orderly_end_returns_nil_refuted holds for every execution.",
  "status": "proved"
 },
 "C93": {
  "note": "Refuted expectation: C93_update_after_close_refuted, for every state in which Start is over and was subscribed.",
  "status": "proved"
 },
 "C96": {
  "note": "Copies of a WriteBuffer and appends to bytes returned by ReadBytes: the expectation of independence is refuted by C96_copies_are_independent_refuted and C96_read_bytes_are_private_refuted.",
  "status": "proved"
 },
 "C97": {
  "note": "The expectation that the values of a row are independent under append is refuted by C97_values_are_independent_refuted.",
  "status": "proved"
 },
 "C99": {
  "note": "Expectation that neither a Session, nor the file watcher, nor the program has a data race refuted (C99_session_race_free_refuted, C99_watcher_race_free_refuted, C99_program_race_free_refuted); all their races are listed.",
  "status": "proved"
 }
}