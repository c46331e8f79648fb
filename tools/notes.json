{
 "C12": {
  "note": "False in full (two refutations: three children moved at once are refused; a child moved out of a parent removed in the same save is reported as new). Proved: exact acceptance condition for trees, and that an accepted move is exactly one update."
 },
 "C14": {
  "note": "False for children detached in memory before the save (refuted). Proved: everything reachable at save time from a deleted entity is deleted."
 },
 "C30": {
  "note": "False when GetChildren stops returning the key (refuted). Proved: while the key is returned the vanished child is deleted or moved."
 },
 "C07": {
  "note": "False in full: when Init returns ErrBreak the Result has Break and no Error, yet no post-save hook runs (refuted). Proved: the hooks run exactly once each, in order, after the end of transaction and unlock, whenever the run got past initialisation without Error."
 },
 "C26": {
  "note": "False for ordinary events: they are dispatched before the database commit (refuted). Proved for transactional events on a transactional bus."
 },
 "C19": {
  "note": "False in full: a later repo.Get (or Remove of an unloaded root) overwrites the remembered root list and the added root is never inserted (refuted). Proved: inserted if after the Add the body loads and removes nothing more."
 },
 "C20": {
  "note": "False in full: two unloaded roots removed by two separate Remove calls - only the second is deleted (refuted). Proved: deleted if it was loaded or unknown, nothing is loaded or removed afterwards and it is not attached elsewhere."
 },
 "C22": {
  "note": "False: RootContainer is passed to Act by value, its errors are lost and the run succeeds (refuted). Proved: a rejected call changes nothing, an accepted one exactly the root list."
 },
 "C32": {
  "note": "False in full: the take-over UPDATE compares only locker_id, so a client that read the row before a renewal can still take the lock although the holder renewed in time (C32_renewed_lock_refuted gives the schedule). Proved instead: exclusion with renewals when a margin is kept and Lock calls go from SELECT to UPDATE within that margin."
 },
 "C37": {
  "note": "Refuted: the INSERTs do not run inside the transaction Dispatch opens, so a crash or error between them leaves events without deliveries. Proved part: however it ends, nothing happened or all events are stored with complete deliveries for a prefix of the services."
 },
 "C39": {
  "note": "Proved for every schedule with atomic dispatches and no cleaning between the two queries of a scan, and for every quiet table; refuted with a cleaning run in between (C39_clean_race_refuted: wrong event handed over, another one lost)."
 },
 "C40": {
  "note": "The bound is proved (granted retries + 1, exact when failed) when polls of the service do not overlap. As documented it is refuted: the limit strategies grant one retry more than their limit, and with overlapping polls a failed delivery can be run again."
 },
 "C41": {
  "note": "Proved when the polls of a service do not overlap; refuted for overlapping polls (the status checked under the row lock is the stale one)."
 },
 "C42": {
  "note": "Proved for the direct predecessor in creation order, and for all earlier events of a sender that only sends FIFO events in creation order; refuted for senders mixing types, for equal creation times, and while a Dispatch is half done."
 },
 "C43": {
  "note": "Proved with atomic dispatches; a failed predecessor does not block (proved). Refuted while a Dispatch is half done (stored, not yet delivered)."
 },
 "C44": {
  "note": "Proved: batches of different senders are computed independently; an event without consumer dependencies is never held up. Refuted: enough failed records that are always re-scanned first fill the batch limit (starvation)."
 },
 "C45": {
  "note": "Proved for the sequential life of a service (polls, foreign steps, dispatches, no faults): a normal event is handled / a success is recorded within a bounded number of polls. Refuted when the event falls outside the scan window or has no sender record. C45_lax_progress_partial: an event (of any type but FIFO, no FIFO event before it) is handed over although handlers fail as they like, within (retries+1)*pending+1 polls, when LaxFIFO events have a sender and the polls are at least the strategy's longest pause apart (C45_pauses gives that bound for the shipped strategies)."
 },
 "C46": {
  "note": "Proved for operations one after the other, no cleaning: stored completely once or not at all, only if asked for, rollback and commit final, fault-free timeout check settles. Refuted in general: crash between storing and delivering loses the events for good; failed record deletion plus cleaning, and concurrent Commit and timeout check, store twice."
 },
 "C50": {
  "note": "Proved: existing jobs untouched in every interleaving, refused requests create nothing. Refuted details: the empty cron expression is accepted (server accepting zero dates); keys and Cancel are shared by all services."
 },
 "C51": {
  "note": "At most once (plus lost calls) and firing by a fault-free poll proved; refuted: the key of a fired one-shot job cannot be scheduled again (RunOnce reports success and does nothing)."
 },
 "C52": {
  "note": "Proved for expressions with a next activation (cron.Schedule.Next is a parameter assumed to return later times); refuted for an expression that never activates on a server accepting zero dates."
 },
 "C54": {
  "note": "False: a handler that dispatches more events than the capacity (or even one event while another goroutine fills the buffer) deadlocks the bus for ever, for every capacity. Proved instead: no deadlock while the events dispatched but not handed over never exceed the capacity."
 },
 "C55": {
  "note": "False: break leaves only the select, so cancellation has no effect on what is handed over and the idle goroutine spins. Proved instead: nothing is handed over before Start."
 },
 "C56": {
  "note": "Proved for handlers of the documented type; refuted for two handler types RegisterEventHandler accepts (an error type that cannot be nil; an own context type), for which every event panics."
 },
 "C57": {
  "note": "Proved for checkers returning TXStatus; refuted for checkers whose result type is only convertible to TXStatus, which are accepted at registration and panic at every check."
 },
 "C58": {
  "note": "Proved for structs whose anonymous fields are non-nil on both sides and not time.Time, with distinct Go field names; refuted: a set or cleared embedded pointer, an anonymous time.Time, and a field name shared by two embedded structs are missed."
 },
 "C59": {
  "note": "Proved for all column kinds except times, which are proved under equal zone pointers; refuted: a time that is equal as an instant but carries another location is always written."
 },
 "C61": {
  "note": "Proved for any executor and converters (non-overlapping arguments), and on MySQL for converters that ask by the parent column; refuted: non-zero root fields hide the row, a non-empty slice gets the rows appended, an all-zero query model loads the whole table."
 },
 "C62": {
  "note": "Proved through engine, MySQL statements and loader: any entity of the stored aggregate (root or deeper), with any number of child slices and pointer fields, loaded level by level; the order of the elements of a slice is that of the SELECT, which names none. Conditions: readiness of the save as in C09, parent id column as in C61."
 },
 "C63": {
  "note": "Refinement proved under one previous model per updated model (what the engine produces for loaded entities), equal column counts and unique keys; refuted for a nil previous model (nothing is written, success reported) and for missing previous models (Save re-inserts a deleted row)."
 },
 "C64": {
  "note": "Refuted in general: inserts precede deletes, so any save inserting a key still present fails on MySQL, and loses the row on an executor with overwriting inserts."
 },
 "C65": {
  "note": "Proved when, in that save, the child's table only receives entities created below created entities of the parent's table (or of the same table). Refuted without that proviso: all rows of a table go out in one statement placed at the table's first appearance, so a table shared by two levels, or fed by an existing parent, can be inserted before the parent's table. Example: recursive delete deletes parents first."
 },
 "C66": {
  "note": "Partial: statements reach the right database only if executors with equal keys are on the same database; the key is the creation second, and two executors created within one second share it, so a statement meant for one database is executed in the other's transaction (C66_same_second_refuted). A run nested in another run with its context is not rolled back with it (C66_nested_run_refuted). Proved: all-or-nothing and commit/rollback for every context returned by Begin, with no key hypothesis."
 },
 "C67": {
  "note": "Partial: the post-save hooks of overlapping runs can be mixed up. The stage copies the engine's slice header, so with spare capacity (Go: 3, 5, 6, 7 engine hooks) two runs append into the same array cell and the first one calls the second one's hook (C67_overlapping_runs_refuted). Proved for all other options without condition, and for hooks when the engine's slice is full or no sibling run got a hook meanwhile."
 },
 "C68": {
  "note": "Partial: proved for every run that neither failed nor broke off. A run that breaks off loses its output although its post-save hooks run (C68_break_loses_output_refuted), and Output does not stop the remaining methods as documented (C68_output_in_init_does_not_stop_refuted)."
 },
 "C69": {
  "note": "Per delivery record: proved for every schedule. Per event: proved when dispatches are atomic and no cleaning runs between the two queries of a scan; otherwise refuted (C69_clean_race_refuted, a consequence of C39_clean_race_refuted). Taking the event again after a death is proved for every event whose turn it is (FIFO and LaxFIFO included)."
 },
 "C70": {
  "note": "Over the documented behaviour of bsm/redislock v0.9.3 and one Redis server with one clock (no failover). Exclusion, release, expiry and retry are proved for every schedule; beyond the ttl there is no protection (C70_not_protected_beyond_ttl: nothing renews the key)."
 },
 "C71": {
  "note": "The calls and the refusal are proved for every program of registrations, with encoding/json on the two strings of TimerEvent assumed to give them back (valid UTF-8). Refuted: repeating a failed registration (the handler stays in the router, so the key is taken), a changed expression (the old timer is kept), an instance without the handler (takes the firing and reports success)."
 },
 "C72": {
  "note": "Refuted: events are never taken off the entity, so a second run on the same object (Create, then Delete) publishes them again. Proved: an event published by two runs sits on an object both runs had."
 },
 "C73": {
  "note": "Proved for every rule engine; the contents for the one in the source, which accepts every rule."
 },
 "C74": {
  "note": "Refuted: AddSaleItem and AddCoupon load only the order's own row, so the total they store is that of the new item or coupon alone (C74_total_is_that_of_the_latest_addition, for every history). Right as long as nothing is added after the creation (partial). Requests one after the other. C74_engine_does_this and C74_engine_creates: the run of each request on the engine model performs exactly these table operations and dispatches exactly these events."
 },
 "C75": {
  "note": "Stored rows: proved. Shown: refuted for the items - the query compares the item's own id with the order's, so no item is ever shown - and for the ids of coupons (row id instead of coupon id); user, total, rules and discounts proved."
 },
 "C76": {
  "note": "The order is gone and unreachable, others untouched (proved). Refuted: all item and coupon rows stay, and deleting a missing order reports success and raises OrderDeleted."
 },
 "C77": {
  "note": "Refuted for coupon events, whose type is that of item events: the item handler gets them, with an empty item id. Proved for the others, and for the sender."
 },
 "C78": {
  "note": "Proved for every history of requests executed one after the other."
 },
 "C79": {
  "note": "Refuted: every time bound fails (the column is created_at, the query says create_time), and without ORDER BY two pages can show the same order and miss another. Proved: without bounds and pages exactly the user's orders; a page holds at most Limit of them."
 },
 "C80": {
  "note": "Interleaving model of any number of Handle calls on top of the bus model of C46; 'stored' is stored in the event table, delivery records are covered where the events were not stored before the check (a Commit that dies between events and deliveries is C46_lost_after_crash_refuted)."
 },
 "C81": {
  "note": "Refuted three ways: the example's always-commit checker publishes a rolled back event; a checker that answers 'rollback' for a still open transaction loses a committed one; a COMMIT whose answer is lost makes Handle roll the event back. The correct pattern is C80."
 },
 "C82": {
  "note": "Proved for all interleavings of cleaners, publishers and handlers with stops anywhere, as long as handlers save only pending records; refuted when a slow handler overwrites a successful record (the DELETE does not look at the status)."
 },
 "C83": {
  "note": "Proved for all interleavings when publications happen inside transactions; refuted for a Dispatch on its own, including what the orphaned record does to later polls."
 },
 "C84": {
  "note": "Proved for all interleavings when no cleaner stops; refuted (for every continuation) when a cleaner stops between its two DELETEs and for events published before any service is registered."
 },
 "C85": {
  "note": "InterModel: statement-level interleaving; the checker's answers for its locked rows run as one step after its snapshot (their effects become visible together at COMMIT; a failed one is the IAbort step); locks: FOR UPDATE NOWAIT of the checker blocks the DELETEs of the publishers."
 },
 "C86": {
  "note": "exactly once is refuted by a run without any error (C86_exactly_once_refuted); rollback-means-not-stored is refuted; bounds proved."
 },
 "C87": {
  "note": "SerialModel: data accesses of concurrent runs; lock service assumed exclusive (C31, C70 prove it of the shipped lockers while leases are valid); a lease that expires under a living run is left out; queries are arbitrary functions of the database that depend only on covered rows (so no phantoms outside the cover)."
 },
 "C88": {
  "note": "refutations by concrete runs; positive part assumes that Init reads only rows nobody writes."
 },
 "C89": {
  "note": "LoopModel: one process; ticker channel of capacity one; robfig/cron v1 recovers panics of a job (library); the parts of a round are steps with any result. cancel and checker panic refuted."
 },
 "C90": {
  "note": "registration at creation may fail; the error on which the loop registers again is never produced by handleEvents."
 },
 "C91": {
  "note": "Proved for every decoder of bodies, id generator, coupon rule and failure: 200 means done exactly as asked, 404/400 iff unknown action/undecodable body, reads change nothing, a well-formed creation in fine weather is answered 200. Missing: 'not 200 means nothing stored' needs that COMMIT is answered (refuted otherwise); 'every request is answered' needs that the body has no null item or coupon (refuted: the handler panics)."
 },
 "C92": {
  "note": "Proved: an acknowledged order can be read until it is deleted, ids are not reused, other orders are untouched. Refuted: repeating a creation answered 500 can give two orders; the status of GetOrder/DeleteOrder does not tell a missing order (500 / 200)."
 },
 "C04": {
  "note": "C04_panicking_locker is the boundary of the claim: if Lock itself panics, the locks already taken are not released (the deferred release is registered after the loop)."
 },
 "C93": {
  "note": "Refuted: main.go leaves out the table of delivery records and the lock table, so no sequence of requests ever stores or changes an order (every command is answered 500). Proved: with all tables the program serves as C91/C92 say, and those two are the only missing ones."
 },
 "C94": {
  "note": "Refuted for events: an event raised by a hook of the failed run stays on the object and is published by the second one. Proved: everything about the rows and ids, after any outcome of the first run (hooks must leave child lists, types and given ids alone); and a run that got no further than locks or BEGIN leaves the objects untouched."
 },
 "C95": {
  "note": "Refuted: the engine never renews a lease (DBLock.Run, the only renewal, is not called by it), so for every ttl a run that takes longer than the ttl loses the update of another one although both report success. Proved: serializable for every history in which each transaction ends within the ttl of its keys; no two runs have a key that has run out for neither; a dead run's key is free after the ttl."
 },
 "C96": {
  "note": "False in general, so partial: the handlers of one event each commit on their own before the bus saves the result, so a failing second handler, a process that dies in between, a PostSave hook that panics, or two overlapping polls repeat effects, and an event given up leaves the effects of the handlers before the failing one (five refutations). Proved for every history: a recorded success means every handler ran in order and answered without error (C96_success_means_all_ran, C96_at_least_once), a failure stops the list (C96_failure_stops), effects are only those of registered handlers of dispatched events, and with effects that are idempotent and commute the data are as if each had happened once (C96_as_if_once, C96_all_settled_partial). Exactly once holds if polls do not overlap, nobody dies and failed calls leave nothing, in particular for a single handler (C96_at_most_once_partial, C96_single_handler_partial). _partial: only_what_was_asked and all_settled need dispatch in one piece and no cleaning inside a poll."
 },
 "C97": {
  "note": "Composition of the engine's run (every run of EngineModel makes its calls in the order FlowModel.next_phase allows: C97_engine_follows) with the event transactions of the bus (InterModel). Only-if holds for every history if the checker says commit only for committed data (C97_only_if_committed, C97_uncommitted_has_no_rows). If: refuted in general (C97_slow_run_lost_refuted: a run slower than its timeout, rolled back by a checker that looked before its commit, and a crash before the bus' commit: the events are lost for ever). It holds if the checker says rollback only for runs that are over (C97_committed_not_lost_partial), or if it looks at any one time since the check began and runs commit before the timeout (C97_in_time_not_lost_partial): the row is still pending or everything was stored and delivered; a pending row is settled by one undisturbed check (C97_pending_settles)."
 },
 "C98": {
  "note": "Init error: no call at all (C98_init_error). C98_steps gives the run of any command as Build, then taking over the roots, then Act, with the outcome of the first step that fails; C98_no_act_after_error: with a failing Build or a root without id Act has no influence on the run; C98_reading_writes_nothing: a Build that loads and an Act that only looks make no Exec, hook, NewID or dispatch call when nothing loaded is dirty or carries events."
 },
 "C99": {
  "note": "What a successful load does: C99_get_loads, C99_custom_get_loads. Refuted in general: a Get after a new child with a new grandchild was attached makes the grandchild look stored and it is never inserted (C99_unsaved_grandchild_lost_refuted); a CustomGet that fails at a later root leaves the earlier ones as new (C99_failed_custom_get_refuted). It holds if nothing unsaved was attached (C99_only_the_loaded_partial) and for a failed Get unless the converter refuses an entity (C99_failed_get_partial)."
 },
 "C100": {
  "note": "Proved for every history; Exec of one call may be any number of statements, refused at any of them. The exception for a lost COMMIT answer is needed (C100_lost_answer_must_be_excepted)."
 },
 "C101": {
  "note": "Proved for buses whose keys differ when their databases do, and as long as nobody calls Dispatch with a context that carries an event transaction of the bus. Refuted without: (1) Dispatch inside a transaction of its bus marks its event with the transaction, Commit then takes the transaction for stored, returns nil, and neither it nor any timeout check ever stores the transaction's events (proved for every such history); (2) two buses created in the same second share the context key, so one commits the other's transaction in its own database."
 },
 "C102": {
  "note": "Proved: a run alone with its slice locks exactly its keys in ascending order, or reports the repetition (and agrees with the engine model's on_lock); an ordered slice may be shared by any number of runs, without deadlock (C102_ordered_slice_no_deadlock_partial); mutual exclusion survives whatever the races do. Refuted (the slice is sorted in place, engine.go 1210): the caller's slice is reordered; with an unordered shared slice a run with distinct keys may be refused as repeated, a key may be lost from the slice for good, and two runs may deadlock."
 },
 "C103": {
  "note": "Proved over all histories of Saves of one stage: each Save is all or nothing of its own at every crash point, and one that reports success did exactly the writes it called for (C103_each_save_all_or_nothing_partial); after a refused Commit no later Save commits, changes the database or reports success (C103_dead_after_refused_commit: the error stays in the shared result, engine.go 1269); a result lists the actions of all Saves so far. Refuted: a second Save repeats the first one's inserts and publishes its events again (do takes no new snapshot); it fails with the first one's error although nothing fails; a failing Save makes the bus roll back the event transaction an earlier Save committed (eventCtx is kept); a creation cannot be repeated on the stage; the result of an earlier Save is changed by a later one. The options may differ from Save to Save; post-save hooks accumulate (C103_post_save_hooks_accumulate: a successful Save calls at its end every hook given so far, once, in order; a failed one none), so a second command run on the stage calls the first one's PostSave again (C103_post_save_of_earlier_command_refuted). If the main function ends with Repository.Save and the Save succeeds, any number of later idle Saves write nothing (C103_saved_by_the_repository_not_repeated), but the events are published again even then (C103_events_repeated_even_so_refuted) and, with event persistence, inserted again (C103_events_stored_again_refuted)."
 }
}