# Formal model of bytedance/dddfirework in Rocq (Coq 8.16.1)

Every definition of a model file cites the Go lines it models and says where it simplifies.
Each area has four files: `XModel.v` (executable Gallina model, no proofs), `XSpec.v` (small
specification vocabulary, independent of the model's helpers where possible), `XProof.v`
(lemmas) and `XProps.v` (only the property theorems, each closed by `exact`, with `Print
Assumptions`, and `Example`s showing that the hypotheses are met by concrete states).

## Areas and plan

| area | Go code | model | properties |
|---|---|---|---|
| object graph and diff | snapshot.go, engine.go 59-120, 836-1014 | pointers are `nat`, the Go heap is a function `ptr -> ent`; recursion over the object graph uses fuel with an explicit out-of-fuel outcome (Go: stack overflow); slices that are mutated while ranged over (`handleEntityMove`) are modelled as backing array + length | C09-C18, C23, C24, C28-C30 |
| save pipeline | engine.go 154-276, 470-510, 769-834, 971-1305 | state-passing program over an arbitrary oracle: every call to locker, executor, bus, hook, id generator may succeed, fail or panic; the command body is an arbitrary interaction tree; effects are a trace of calls; database contents are computed from the trace by a separate specification (`DbSpec`) | C01-C04, C07, C08, C19-C22, C25-C27 |
| concurrent runs | engine.go 1208-1242 | N processes, one atomic step per lock call, any schedule | C05, C06 |
| database lock | lock/db/sql.go | any number of clients, one step per SQL statement, explicit clock, any schedule | C31-C35 |
| MySQL event bus | eventbus/mysql/*.go | tables are lists of rows; every SQL statement is a step where interleaving matters; the handler and the tx checker are oracles | C36-C48 |
| timer | d_timer/sql/*.go | job table, one step per scan / per locked job transaction, any number of instances | C49-C52 |
| memory bus, router | eventbus/mem, event.go, timer.go | channel as bounded queue with one consumer, dispatchers as processes; router as registration list | C53-C57 |
| MySQL executor | executor/mysql/*.go, engine.go 641-752 | Go values as an inductive type (scalars, opaque non-comparables, structs, pointers); tables as lists of rows; gorm statements by their documented meaning | C58-C62 |
| bus and runs together | eventbus/mysql + engine.go | BusWorld (all interleavings of polls, cleaners, dispatchers), BusTx (transactions of the bus), BusLock/BusPause (service table, pauses), BusLive (progress) | C36-C48, C69 |
| options, contexts, output, delete | engine.go, executor/tx.go, option code | slice growth as a parameter; contexts as key lists; statement effect = log | C65-C68, C72 |
| concurrent cleaning | eventbus/mysql/eventbus.go 669-743, 256-299 | CleanModel: every statement of cleanEvents and Dispatch a step, any number of processes, stops anywhere; row locks of SELECT FOR UPDATE outlive no statement (autocommit) | C82-C84 |
| interleaved event transactions | eventbus/mysql/eventbus.go 306-349, 635-666 | InterModel: every statement of DispatchBegin, Commit, Rollback a step, any number of publishers and checkers, stops anywhere; a checker's transaction: lock, snapshot, then its effects at once | C85, C86 |
| concurrent runs and data | engine.go 765-845, 1208-1300 | SerialModel: programs of queries and writes over an abstract row store, both isolation levels, failures and deaths anywhere | C87, C88 |
| leases under concurrent runs | engine.go 1205-1240; lock/db/sql.go 70-144; lock/redis/redis.go 32-49 | LeaseModel: SerialModel with a clock and a table of leases that are not renewed; failing, lost and missing lock calls | C95 |
| effects of event handlers | eventbus/mysql/eventbus.go 549-600; event.go 167-191; engine.go 528-547, 1244-1304 | EffectModel: BusWorld with, inside each handler call, the registered handlers one after the other, each an engine run that commits or not (all-or-nothing by C01) and answers nil, an error or a panic; the data are an arbitrary type with an arbitrary effect per handler | C96 |
| transactional events end to end | engine.go 1016-1050, 1244-1286; eventbus/mysql/eventbus.go 306-349, 635-667 | FlowModel: InterModel with, for each publisher, the run of the engine it belongs to (phase of runWithTransaction), the set of committed data transactions, commits without answer that turn out later, processes that die; FlowEngine: every run of EngineModel follows these phases | C97 |
| command steps | engine.go 769-803, 846-849 | EngineModel.run_command/command_main/cmd_load; CommandProps | C98 |
| loading | engine.go 198-230, 849-866 | EngineModel.repo_get/repo_custom_get/updateSnapshot; LoadingProps | C99 |
| runs on MySQL | engine.go 1208-1286, 1288-1320, executor/mysql/executor.go 77-138, 155-233 | MysqlRun (composition of EngineModel and TxModel); MysqlRunProof, MysqlRunProps | C100 |
| contexts of the MySQL bus | eventbus/mysql/eventbus.go 186-219, 228-253, 256-349 | BusCtx (over BusModel, BusTxSpec); BusCtxProof, BusCtxProps | C101 |
| shared lock keys | engine.go 754-757, 774-778, 1208-1242 | KeysModel: any number of runs over one slice, every read and write of an element (insertion sort, as Go sorts up to 12 keys) and every lock call a step; KeysProof, KeysProof2, KeysProps | C102 |
| a stage saved again | engine.go 470-483, 587-603, 754-763, 1164-1204, 1244-1305 | StageModel: what a Stage keeps between Saves (container, snapshots, actions, bus context, error of the shared result) around the run of EngineModel; histories of Saves (with options of their own), hooks and the caller's changes; StageProof, StageProof2, StageProof3 (the hooks), StageProof4 (Saves after a commit by Repository.Save), StageProps | C103 |
| background loops | eventbus/mysql/eventbus.go 217, 361-364, 603-633, 650-667, 745-777; d_timer/sql/timer.go 155-168 | LoopModel: ticks, rounds, results and panics as actions | C89, C90 |
| HTTP front | example/handler/util/http.go 28-64, example/handler/order.go, request.go | HttpModel: one request = action, body, generated ids, failure of the surroundings | C91, C92 |
| deployment | example/main.go 38-70 | DeployModel: tables created at start against the tables each request uses; a missing table is a failure of the surroundings of HttpModel | C93 |
| outer transaction | example/example_outer/outer_usage.go | calls of Handle as processes over the BusTx model; business transaction as a three-state record | C80, C81 |
| Redis lock | lock/redis/*.go | one server with one clock, redislock's documented commands, fresh tokens | C70 |
| cron tasks | engine.go, timer.go, event.go | registration of cron tasks on timer and router; the JSON round trip is a parameter | C71 |
| example application | example/biz/sale, example/infrastructure, example/common | order aggregate with int64 wrap-around, commands over three tables, queries, events; SaleEngine.v and SaleCreate.v derive the commands from the engine model | C73-C79 |

## Per property

* C01, C02, C03, C07, C08, C25, C27: invariants of the call trace of a run, by structural
  induction over the command body and compositional "emits" lemmas for the program; the database
  is a fold over the trace, crash points are prefixes of the trace.
* C04: shape of the trace of a run with lock keys, for all oracles, by induction over the key list.
* C05, C06: invariant induction over all schedules; C05 by the maximal-held-key argument.
* C09: composition of the characterisations of diff, move handling, action building and the
  database meaning of actions.
* C10, C15, C28: characterisation of the fuelled recursion by reachability.
* C11: the diff of a freshly snapshotted graph is empty.
* C12: exact condition under which move handling succeeds; expected to be false in full because
  the slice is compacted while it is ranged over -> `_refuted` plus the exact partial theorem.
* C13, C14, C16, C17, C18: induction over change lists; C14 has a counterexample when the subtree was
  detached before the delete.
* C19, C20: false in full (the root list snapshot is overwritten by later loads); `_refuted` with
  witnesses, positive theorems for bodies without such calls.
* C21: trace/state invariant. C22: false (container passed by value), `_refuted`.
* C23: invariant over all operation sequences. C24: permutation + sortedness for every map order.
* C26: false for normal events; `_refuted`, and the true part for transactional events.
* C29: function-level characterisation; C30 false in full.
* C31, C33, C34, C35: invariants over schedules / outcome lists. C32: false (the compare-and-set
  does not compare the timestamp), `_refuted` with schedule; true part: C31.
* C36, C38, C39, C40, C43, C47, C48: characterisations over arbitrary table contents.
* C37, C41, C44, C45: false in full; witnesses plus positive theorems (single poller; window).
  C45 with failing handlers (BusLive5, spec in BusLiveSpec2): a bound of the polls left (retries left of the pending
  records before the event) that decreases with every poll as long as polls are spaced by the strategy's longest pause.
* C42: immediate-predecessor theorem; whole-chain theorem when all of the sender's events are FIFO;
  the general statement is refuted.
* C46: sequential theorem for every crash point; duplicate storage under concurrent commit and
  timeout check refuted by a schedule.
* C49-C52: invariants over schedules; reuse of a finished one-shot key is refuted.
* C53: queue invariant over schedules; C54, C55 refuted for every capacity.
* C56, C57: induction over registration histories.
* C58: induction over values; false for embedded pointers; true otherwise. C59: true for models whose structs
  have no unexported non-comparable fields, refuted for time.Time with a location.
* C60-C62: table-level theorems.
* C63: refinement of the executor's statements to the meaning of actions, composed with C09.
* C64, C65: order of actions; C65 by the characterisation of the walk, C64 refuted and its exact condition.
* C66: statements of nested transactions by induction over the calls of executor/tx.go. C67: options by a slice model with
  capacity. C68: output through the body.
* C69: invariant over all interleavings of pollers and handlers with deaths; C72: histories of runs over the same
  entities (the events of an entity after its run).
* C70: invariant over all schedules of clients against one Redis server; expiry makes it lose the
  lock while the holder still works (stated as a theorem of its own).
* C71: induction over registration histories, composition with C49-C57.
* C73: invariant of the aggregate under every sequence of operations, for every rule engine.
* C80, C81: interleaving model of calls of Handle (outer_usage.go) over the bus model of C46; invariant over all reachable states; false parts as `_refuted`
* C82-C84: invariants over all interleavings (keys still to be inserted, ids cleaners hold, records cleaners may delete); an undisturbed cleaner is proved equal to `clean_events` of C47; false parts as `_refuted`, with the continuation universally quantified where something is lost for ever
* C85, C86: InterModel runs publishers and timeout checkers statement by statement in any order (actions are a list, no
  fairness); log of what was asked, stored, delivered; invariant over the log, the tables and the program counters, by
  induction on the action list; refutations by concrete runs.
* C87, C88: SerialModel: a run is Init, lock keys one by one, an adaptive program of queries and writes, commit or
  rollback, unlock; any interleaving. Invariant: the point a run has reached is the one it would have reached alone on the
  present committed database (others only change rows under other keys); so its commit is a serial step.
* C89, C90: LoopModel: Start, ticker loop, registration; invariant on the counts of begun and ended rounds; refutations.
* C74-C79: induction over request histories of the command handlers; false parts as `_refuted`
  (total after a later addition, items never shown, rows left after deletion, time bounds, paging).
* C91, C92: the HTTP front of the example (HttpModel over SaleModel; spec in HttpSpec): one request is a case analysis over action, decoded body and failure; histories by induction with the invariant that order ids are distinct. JSON decoding is any function from action and body to a payload; the page of GetOrderList is offset and limit together.
* C94: the objects after an arbitrary first run are related to those before (kinds, child lists, given ids kept) by an invariant over every call; the second run then must save exactly the parts of the original graph (C07/C16 applied to an empty snapshot). False for events: they stay on the objects.
* C95: simulation of LeaseModel by SerialModel: a run whose lease ran out before its transaction ended counts as dead there, so only runs that end in time reach the log. False in general: nobody renews the lease.
* C96: invariant linking each call in progress to the runs it made, proved for every class of histories; exactly-once by an invariant saying in which call all effects of an event lie, using C69 (one call at a time) and C41 (no call after a recorded success). Repeatable effects: the data depend only on the set of effects. False in general, with five counterexamples.
* C97: invariant linking each run's phase, its publisher in the bus, the log and the committed data (FlowProof.finv), then by induction over the history: who asked for a commit has committed data; who asked for a rollback has not and never will, given a checker that waits or runs that are in time. False in general, with a counterexample.
* C98: run_body of command_main is split at the binds (run_bind), break_or_error gives the outcome of the main function, flush_spec the state between Build and Act; clean_persist and a walk over entities without events for commands that change nothing (CommandProps).
* C99: inversion of Get and CustomGet down to one walk of updateSnapshot (update_spec), then induction over paths: an entity reachable after the load is in the loaded aggregate or was reachable before; two runs refute the rest (LoadingProps).
* C100: the trace of EngineModel.save becomes Begin, statements and an ending (run_micros, from tx_end); it is woven into a history of TxModel with anybody else's calls; invariant over the weave: only the run's context carries its transaction, which has exactly the accepted statements, and no other log or transaction has any of them (during), kept by foreign calls (during_foreign) and moved by the run's own (exec_own, commit_own, rollback_own). Assumed of others: contexts that exist, not the run's own (Go contexts are passed on only by the engine to the run's own calls), other statements.
* C101: per database the invariant of C46 (txinv, once) over all transactions begun in it, and every transaction in a context under key k is one of the database of k (cinv); contexts only grow; the value under the key of the bus in a nested context is that of the outer one (inside_key). A transaction of which something is stored gets nothing more (crun_frozen), which makes a Dispatch inside it fatal.
* C102: the run alone by induction over both loops (inner loop by rev induction over the sorted part) and the list of locks;
  shared ordered slice and mutual exclusion by invariants over all schedules; races refuted by schedules, with an invariant for `never again`.
* C103: without an error left a Save is EngineModel.save by extensionality; with one, every piece of the Save is shown calm (writes only in a transaction that is rolled back, no Commit); one record (one_save) of what a Save does to the trace, by induction over the history; between Saves no transaction is open, so the database is a function of the Saves.
* C93: false for the program as shipped (two tables are never created): invariant over all request sequences; with all tables the program equals HttpModel's.

## Not modelled

* Everywhere: logging, metrics, JSON encoding (a parameter where it matters), memory visibility, goroutine
  leaks, performance. gorm and SQL statements are taken at their documented meaning, autocommit unless in a
  transaction; xid and token generators give new values where said.
* Engine: entity fields as strings and child slices/pointers; reflection on unusual types (interface-typed
  slices, nil elements) only where a model comment says so. BuildEntity is one call in the engine model,
  its inside is BuildModel.v. A converter returning a nil model is not modelled.
  Slices of more than 12 lock keys are sorted by another algorithm of Go's library; KeysModel has insertion sort only.
* Database lock: one global clock; Redis: library semantics assumed, one server clock.
* Bus: one clock reading per poll; the gap between id allocation and visibility is ignored; the cleaner is one step in
  BusModel (statement by statement in CleanModel); negative intervals are left out; sequential runs in bus_run / tx_run
  (event transactions statement by statement in InterModel).
* Timer: the cron library is a parameter (its answer is later than the time asked), no datetime rounding;
  a panic of a handler ends the process.
* Diff: NaN, interfaces and functions; column naming of gorm assumed. Executor: binary collation,
  no soft delete, no autoUpdateTime, GetID equals the primary key.
* Example application: JSON text (bodies decode by an arbitrary function, HttpModel), HTTP headers, time columns; requests one after the other; new ids are part of the request.

## Trusted base

Coq's kernel (and `coqchk`); the reading of the Go code recorded in the comments; the meaning given
to the external components (SQL, Go maps and slices). No axioms are used: see the `Print
Assumptions` output under each property theorem ("Closed under the global context"). `vcheck` lists a few
axioms of Coq's ssreflect library (`ssrunder`) because those modules get loaded; no theorem uses them.
