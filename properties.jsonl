{"id": "C01", "title": "A failed, broken or crashed run leaves the database as it was", "statement": "With transactions on (the default), if Engine.Run/Stage.Save returns a Result with Error or Break set, panics, or the process dies at any instant before the transaction commit succeeds, no write of that run is visible in the database afterwards; at every crash point the committed data is either exactly the data before the run or exactly the data after it.", "quantifier": "every command body, every sequence of success/failure/panic answers from locker, executor, hooks, id generator and event bus, and every crash point", "why_tests_cant": "the failing call can be any of unboundedly many, and a crash can fall between any two calls", "anchors": ["engine.go:Stage.Save", "engine.go:Stage.runWithTransaction", "engine.go:Stage.do", "engine.go:Stage.exec"]}
{"id": "C02", "title": "A successful run commits exactly the actions it reports", "statement": "With transactions on, if the run returns without Error and Break and no executor write was answered with an error, the committed database is the old database with Result.Actions (followed by nothing else) applied once each and in the reported order.", "quantifier": "every command body (including intermediate Save/Commit calls) and all environment answers", "why_tests_cant": "depends on the whole call history of a run of arbitrary length", "anchors": ["engine.go:Stage.exec", "engine.go:Stage.do", "engine.go:Stage.runWithTransaction"]}
{"id": "C03", "title": "Dry run writes and publishes nothing", "statement": "With WithDryRun no write reaches the executor and no event reaches the event bus, whatever the command does; Result.Actions stays empty.", "quantifier": "every command body and environment", "why_tests_cant": "a universally quantified negative", "anchors": ["engine.go:Stage.exec", "engine.go:Stage.dispatchEvents"]}
{"id": "C04", "title": "Locks bracket the transaction and are always released", "statement": "A run that asked for lock keys takes them in ascending order before opening the transaction, refuses repeated keys without taking any lock, runs nothing if one lock is refused, and on every return or panic path releases exactly the locks it took, each once, after the transaction has been committed or rolled back (provided the locker itself does not panic while a lock is being taken).", "quantifier": "every key list, every answer of the locker, every command body including ones that panic", "why_tests_cant": "every failure position times every number of keys", "anchors": ["engine.go:Stage.runOnLock", "engine.go:Stage.Save"]}
{"id": "C05", "title": "Concurrent runs never deadlock on their lock keys", "statement": "Any number of concurrent runs, each with any lock keys, never reach a state in which some runs wait for keys and none of the runs can proceed.", "quantifier": "every number of runs, every key set, every schedule", "why_tests_cant": "all interleavings", "anchors": ["engine.go:Stage.runOnLock"]}
{"id": "C06", "title": "Runs sharing a lock key do not overlap", "statement": "If the locker is mutually exclusive per key, then two concurrent runs with a common key are never both between having all their locks and releasing them.", "quantifier": "every number of runs, every key set, every schedule", "why_tests_cant": "all interleavings", "anchors": ["engine.go:Stage.runOnLock", "engine.go:Stage.Save"]}
{"id": "C07", "title": "Post-save hooks run exactly when the run did not fail, after commit and unlock", "statement": "Every registered post-save hook is called exactly once, in registration order, after the transaction ended and all locks were released, if and only if the Result carries no Error.", "quantifier": "every command body, hook list and environment", "why_tests_cant": "every path through the pipeline", "anchors": ["engine.go:Stage.Save"]}
{"id": "C08", "title": "ErrBreak stops silently, everything else is reported", "statement": "If the command body returns an error that wraps ErrBreak the Result has Break set and no Error and the transaction is rolled back; if it returns any other error the Result has that Error.", "quantifier": "every error value and every command body", "why_tests_cant": "error chains are unbounded", "anchors": ["engine.go:ResultErrOrBreak", "engine.go:Stage.do"]}
{"id": "C09", "title": "The database ends up equal to the in-memory aggregates", "statement": "If before the run every loaded entity has its row and the body marked every modified entity dirty, then applying the actions of a save makes the database hold exactly the current rows of all entities in the aggregates, removes the rows of the entities taken out, and leaves every other row as it was.", "quantifier": "every aggregate tree of any shape and depth, every combination of additions, removals, updates and moves", "why_tests_cant": "unbounded trees and combinations of changes", "anchors": ["snapshot.go:entityDiff", "engine.go:Stage.makeActions", "engine.go:Stage.persist"]}
{"id": "C10", "title": "Change detection is exact", "statement": "For every entity below the aggregate roots: it is reported as created iff it is now in a child list it was not in when loaded, as updated iff it stayed and is marked dirty, as deleted iff it was in a child list of a still present parent and is not any more; nothing else is reported.", "quantifier": "every acyclic aggregate graph and every snapshot", "why_tests_cant": "unbounded trees", "anchors": ["snapshot.go:entityDiff", "snapshot.go:simpleSet"]}
{"id": "C11", "title": "Unchanged aggregates cause no writes", "statement": "Saving again directly after a successful intermediate save calls no hook and executes no write.", "quantifier": "every aggregate graph", "why_tests_cant": "unbounded trees", "anchors": ["engine.go:Stage.commit", "engine.go:Stage.flush", "engine.go:Stage.unDirty"]}
{"id": "C12", "title": "Moving a child between parents is one update", "statement": "When children are taken out of one parent and put into another parent of the same save, each is written as one update with the new parent, not as an insert plus a delete, and the save does not fail.", "quantifier": "every number of moved children and every mix with other changes", "why_tests_cant": "the number of moved siblings is unbounded", "anchors": ["snapshot.go:handleEntityMove", "snapshot.go:entityChanged.Remove"]}
{"id": "C13", "title": "An entity attached in two places is refused", "statement": "If the same entity object is newly attached in two places, or removed in two places without a matching addition, the save fails and writes nothing.", "quantifier": "every aggregate graph", "why_tests_cant": "unbounded positions", "anchors": ["snapshot.go:handleEntityMove"]}
{"id": "C14", "title": "Recursive delete removes the whole subtree", "statement": "With WithRecursiveDelete, deleting an entity deletes the rows of all of its descendants at any depth.", "quantifier": "every subtree shape and depth", "why_tests_cant": "unbounded depth", "anchors": ["snapshot.go:recursiveDelete", "snapshot.go:walk"]}
{"id": "C15", "title": "Without recursive delete only the removed entities are deleted", "statement": "Without WithRecursiveDelete, every deleted row belongs to an entity that was itself taken out of a child list (or root list); rows of its descendants are not touched by that deletion.", "quantifier": "every subtree shape", "why_tests_cant": "unbounded trees", "anchors": ["engine.go:Stage.getEntityChanged", "snapshot.go:entityDiff"]}
{"id": "C16", "title": "Actions are homogeneous, complete and ordered insert, update, delete", "statement": "The executor receives one action per operation and model type, all inserts before all updates before all deletes and within an operation the tables in the order in which they first appear among the changed entities; each changed, registered entity contributes exactly one model to exactly one action of its operation, and in update actions the previous models line up one to one with the models.", "quantifier": "every list of changes", "why_tests_cant": "unbounded change lists", "anchors": ["engine.go:Stage.makeActions", "executor.go:Action"]}
{"id": "C17", "title": "Every inserted entity has an id, and no existing id is overwritten", "statement": "After the save, each newly created entity has a non-empty id, taken from the generator only if it had none; ids of entities that had one are never changed; all ids are assigned before the first model is built, so child models can refer to their parent's id.", "quantifier": "every change list and generator", "why_tests_cant": "unbounded lists", "anchors": ["engine.go:Stage.putNewID", "engine.go:Stage.persist"]}
{"id": "C18", "title": "Entity hooks bracket the writes", "statement": "Within one save every created/updated/deleted entity that defines the matching hook gets its Before hook exactly once before any write and its After hook exactly once after all writes, and a failing hook makes the save fail; a failing Before hook prevents every write.", "quantifier": "every change list and hook behaviour", "why_tests_cant": "unbounded lists and failure positions", "anchors": ["engine.go:execHook", "engine.go:Stage.persist"]}
{"id": "C19", "title": "An aggregate root added to the repository is inserted", "statement": "Every root passed to repo.Add without error is inserted when the run succeeds, whatever else the body does with the repository.", "quantifier": "every sequence of repository calls in the body", "why_tests_cant": "all call sequences", "anchors": ["engine.go:Repository.Add", "engine.go:Stage.updateSnapshot"]}
{"id": "C20", "title": "An aggregate root removed from the repository is deleted", "statement": "Every root passed to repo.Remove without error is deleted when the run succeeds, whatever else the body does with the repository.", "quantifier": "every sequence of repository calls in the body", "why_tests_cant": "all call sequences", "anchors": ["engine.go:Repository.Remove", "engine.go:Stage.updateSnapshot"]}
{"id": "C21", "title": "A rejected repository call fails the run", "statement": "If repo.Add or repo.Remove rejects an entity (already loaded, already added, not found), the run ends with an Error and nothing is committed, even if the body ignores it.", "quantifier": "every sequence of repository calls", "why_tests_cant": "all call sequences", "anchors": ["engine.go:Repository.getError", "engine.go:Stage.do"]}
{"id": "C22", "title": "A rejected container call in a command fails the run", "statement": "If container.Add or container.Remove inside ICommand.Act rejects an entity, the run ends with an Error.", "quantifier": "every Act body", "why_tests_cant": "all call sequences", "anchors": ["engine.go:Stage.runCommand", "engine.go:RootContainer"]}
{"id": "C23", "title": "The root container never holds a root twice", "statement": "Whatever sequence of Add and Remove is issued, the container holds each root at most once; Add of a present root and Remove of an absent one fail and change nothing; a removed root is remembered for event collection.", "quantifier": "every call sequence", "why_tests_cant": "all sequences", "anchors": ["engine.go:EntityContainer"]}
{"id": "C24", "title": "Every event is published exactly once, in creation order", "statement": "A run with events publishes each event attached to a live or deleted entity exactly once, ordered by creation time and then id, independent of map iteration order.", "quantifier": "every aggregate graph, event set and map iteration order", "why_tests_cant": "map order is random, sizes unbounded", "anchors": ["engine.go:Stage.collectEvents"]}
{"id": "C25", "title": "Transactional events are confirmed iff the database committed", "statement": "Transactional events are handed to a transactional bus before the database commit; the bus is told to commit only after the database commit succeeded, is told to roll back only when the database is rolled back, and is never told both.", "quantifier": "every body and environment", "why_tests_cant": "every failure position", "anchors": ["engine.go:Stage.dispatchEvents", "engine.go:Stage.runWithTransaction"]}
{"id": "C26", "title": "Events of a run that did not commit are not delivered", "statement": "If the database transaction of a run does not commit, none of the events of that run is delivered to a consumer.", "quantifier": "every body, send type and failure", "why_tests_cant": "every failure position", "anchors": ["engine.go:Stage.do", "eventbus/mysql/eventbus.go:EventBus.Dispatch"]}
{"id": "C27", "title": "Persisted events are committed with the data", "statement": "With WithEventPersist every published event is inserted in the same transaction as the business data, before publication; if the run fails neither is committed.", "quantifier": "every body and environment", "why_tests_cant": "every failure position", "anchors": ["engine.go:Stage.makeEventPersistAction", "engine.go:Stage.do"]}
{"id": "C28", "title": "Walking an aggregate terminates exactly for acyclic aggregates", "statement": "Every traversal of an aggregate terminates if the child relation from its root is acyclic, visits exactly the entities reachable through child fields, parents before children; on a cyclic aggregate it never terminates.", "quantifier": "every object graph", "why_tests_cant": "unbounded graphs, non-termination", "anchors": ["snapshot.go:walk", "snapshot.go:entityDiff"]}
{"id": "C29", "title": "Child discovery sees every exported entity field", "statement": "Without a custom GetChildren, every exported struct field holding an entity, a slice or a map of entities is a child list under the field name, present even when empty; unexported fields and the embedded base are never children. An entity with its own non-empty GetChildren has exactly the children it returns.", "quantifier": "every struct shape", "why_tests_cant": "all struct shapes", "anchors": ["snapshot.go:findChildren"]}
{"id": "C30", "title": "Children removed under a custom GetChildren are deleted", "statement": "If an entity defines GetChildren itself, a child that disappears from what it returns is deleted on save.", "quantifier": "every GetChildren implementation", "why_tests_cant": "all implementations", "anchors": ["snapshot.go:entityDiff", "snapshot.go:findChildren"]}
{"id": "C31", "title": "The database lock is exclusive while leases are valid", "statement": "With clients that only Lock and UnLock (as the engine does), two clients never both hold the same key with unexpired leases, whatever the interleaving of their SQL statements.", "quantifier": "every number of clients, every interleaving, every passage of time", "why_tests_cant": "all interleavings and delays", "anchors": ["lock/db/sql.go:DBLock.lock", "lock/db/sql.go:DBLock.UnLock"]}
{"id": "C32", "title": "A renewed database lock cannot be stolen", "statement": "With DBLock.Run, as long as every renewal happens before the lease expires no other client acquires the key.", "quantifier": "every interleaving", "why_tests_cant": "all interleavings and delays", "anchors": ["lock/db/sql.go:DBLock.Run", "lock/db/sql.go:DBLock.update"]}
{"id": "C33", "title": "UnLock releases only one's own lock", "statement": "UnLock deletes a lock row only if it still belongs to the caller's acquisition; after losing the lock to another client UnLock reports an error and leaves the other's lock in place.", "quantifier": "every history", "why_tests_cant": "all histories", "anchors": ["lock/db/sql.go:DBLock.UnLock"]}
{"id": "C34", "title": "A crashed holder's lock can be taken over after the ttl", "statement": "If a holder disappears, a single client's Lock on that key succeeds once the ttl has elapsed and is refused with ErrEntityLocked before.", "quantifier": "every state and time", "why_tests_cant": "all states", "anchors": ["lock/db/sql.go:DBLock.lock"]}
{"id": "C35", "title": "Lock retries only on contention and at most five times", "statement": "DBLock.Lock with retry tries at most five times, stops at the first success or at the first error other than ErrEntityLocked, and returns that outcome.", "quantifier": "every sequence of outcomes", "why_tests_cant": "all outcome sequences", "anchors": ["lock/db/sql.go:DBLock.Lock"]}
{"id": "C36", "title": "Dispatch reaches every registered service exactly once", "statement": "After Dispatch returns success, each dispatched event has exactly one stored record and exactly one pending delivery record per service registered at that time, and nothing else changed.", "quantifier": "every event list, service list and table state", "why_tests_cant": "unbounded tables", "anchors": ["eventbus/mysql/eventbus.go:EventBus.Dispatch"]}
{"id": "C37", "title": "Dispatch is atomic", "statement": "If Dispatch fails or the process crashes inside it, either all or none of its event and delivery records exist.", "quantifier": "every crash point", "why_tests_cant": "every crash point", "anchors": ["eventbus/mysql/eventbus.go:EventBus.Dispatch"]}
{"id": "C38", "title": "A poll selects the oldest due deliveries", "statement": "A poll hands over exactly the pending deliveries of its own service inside the scan window that are due, oldest event first, at most LimitPerRun of them; the offset optimisation never drops one.", "quantifier": "every table state", "why_tests_cant": "unbounded tables", "anchors": ["eventbus/mysql/eventbus.go:EventBus.getScanEvents"]}
{"id": "C39", "title": "Each delivery record is paired with its own event", "statement": "The handler is called with the event the delivery record refers to.", "quantifier": "every table state", "why_tests_cant": "unbounded tables", "anchors": ["eventbus/mysql/eventbus.go:EventBus.getScanEvents"]}
{"id": "C40", "title": "Retries are bounded by the strategy", "statement": "A permanently failing handler is called exactly (retry limit + 1) times for an event - the first call plus the configured number of retries - and then the delivery is marked failed and never run again.", "quantifier": "every limit, interval list and number of polls", "why_tests_cant": "unbounded limits and polls", "anchors": ["eventbus/mysql/eventbus.go:LimitRetry", "eventbus/mysql/eventbus.go:IntervalRetry", "eventbus/mysql/eventbus.go:CustomRetry", "eventbus/mysql/eventbus.go:EventBus.doRetryStrategy"]}
{"id": "C41", "title": "A delivered event is not delivered again", "statement": "Once the handler has succeeded for an event in a service and this was recorded, the handler is never called again for that event and service and the record stays successful.", "quantifier": "every number of pollers and every schedule", "why_tests_cant": "all interleavings of pollers", "anchors": ["eventbus/mysql/eventbus.go:EventBus.handleEvent"]}
{"id": "C42", "title": "FIFO events wait for their predecessors", "statement": "A FIFO event is handed to the handler only when every earlier event of the same sender (inside the scan window) has been processed successfully or expired.", "quantifier": "every history of dispatches, polls and failures", "why_tests_cant": "all histories", "anchors": ["eventbus/mysql/eventbus.go:EventBus.checkPrecedingEvent"]}
{"id": "C43", "title": "LaxFIFO events wait until their predecessor is settled", "statement": "A LaxFIFO event is handed to the handler only when the preceding event of the same sender is no longer pending; a failed predecessor does not block it.", "quantifier": "every history", "why_tests_cant": "all histories", "anchors": ["eventbus/mysql/eventbus.go:EventBus.checkPrecedingEvent"]}
{"id": "C44", "title": "One stuck event does not block the others", "statement": "The failure of one event never prevents later, unrelated events from being processed.", "quantifier": "every history and number of polls", "why_tests_cant": "unbounded polls (liveness)", "anchors": ["eventbus/mysql/eventbus.go:EventBus.dispatchEvents", "eventbus/mysql/eventbus.go:EventBus.getScanEvents"]}
{"id": "C45", "title": "Every dispatched event is eventually delivered", "statement": "Every dispatched event is handed to the handler of every registered service at least once if the service keeps polling.", "quantifier": "every history", "why_tests_cant": "liveness", "anchors": ["eventbus/mysql/eventbus.go:EventBus.handleEvents"]}
{"id": "C46", "title": "A transactional event is delivered iff its transaction committed, despite crashes", "statement": "Whatever the crash points and however often commit and the timeout check are repeated, the events of a transaction are stored at most once, and not at all if it was rolled back.", "quantifier": "every history of commit, rollback, timeout checks and crashes", "why_tests_cant": "all histories", "anchors": ["eventbus/mysql/eventbus.go:EventBus.Commit", "eventbus/mysql/eventbus.go:EventBus.Rollback", "eventbus/mysql/eventbus.go:EventBus.handleTransactions", "eventbus/mysql/eventbus.go:EventBus.checkTX"]}
{"id": "C47", "title": "Cleaning removes only finished records and unreferenced events", "statement": "Cleaning deletes exactly the successful delivery records of its own service older than the retention time, and an event only when no delivery record of any service refers to it; pending and failed deliveries and their events survive.", "quantifier": "every table state of any size", "why_tests_cant": "unbounded tables, batching", "anchors": ["eventbus/mysql/eventbus.go:EventBus.cleanEvents"]}
{"id": "C48", "title": "Services consume independently", "statement": "Polling and handling in one service never changes the delivery records of another service.", "quantifier": "every state and poll", "why_tests_cant": "all states", "anchors": ["eventbus/mysql/eventbus.go:EventBus.handleEvent", "eventbus/mysql/eventbus.go:EventBus.handleEvents"]}
{"id": "C49", "title": "A timer fires at most once per scheduled time across instances", "statement": "However many timer instances poll the same table, the handler is called at most once for each scheduled time of a job, provided saving the job succeeds.", "quantifier": "every number of instances, every interleaving", "why_tests_cant": "all interleavings", "anchors": ["d_timer/sql/timer.go:DBTimer.handleJobs"]}
{"id": "C50", "title": "Registering a timer never overwrites an existing one", "statement": "RunCron and RunOnce with a key that already exists for the service leave the existing job unchanged; RunOnce in the past and invalid cron expressions are refused and create nothing.", "quantifier": "every table state", "why_tests_cant": "all states", "anchors": ["d_timer/sql/timer.go:DBTimer.run", "d_timer/sql/timer.go:DBTimer.RunOnce"]}
{"id": "C51", "title": "A one-shot timer fires once and can be scheduled again", "statement": "A one-shot job fires exactly once when polled at or after its time; afterwards the same key can be scheduled again.", "quantifier": "every history", "why_tests_cant": "all histories", "anchors": ["d_timer/sql/model.go:TimerJob.Next", "d_timer/sql/timer.go:DBTimer.run"]}
{"id": "C52", "title": "A cron job always has a future next time and handler errors do not stop it", "statement": "After each firing a cron job is rescheduled strictly in the future, whether or not the handler failed; scheduled times only grow.", "quantifier": "every history", "why_tests_cant": "all histories", "anchors": ["d_timer/sql/model.go:TimerJob.Reset", "d_timer/sql/timer.go:DBTimer.handleJobs"]}
{"id": "C53", "title": "The memory bus delivers each event once, in dispatch order", "statement": "Events sent by one dispatcher are handed to the handler exactly once each and in order; at most `capacity` events are ever queued.", "quantifier": "every number of dispatchers and schedule", "why_tests_cant": "all interleavings", "anchors": ["eventbus/mem/eventbus.go:MemoryEventBus"]}
{"id": "C54", "title": "A handler of the memory bus may itself publish events", "statement": "An event handler running on the memory bus can dispatch further events without blocking the bus forever.", "quantifier": "every capacity, handler and schedule", "why_tests_cant": "all capacities and schedules", "anchors": ["eventbus/mem/eventbus.go:MemoryEventBus.Dispatch"]}
{"id": "C55", "title": "Cancelling the context stops the memory bus", "statement": "After the context given to Start is cancelled no further event is handed to the handler.", "quantifier": "every schedule", "why_tests_cant": "all schedules", "anchors": ["eventbus/mem/eventbus.go:MemoryEventBus.Start"]}
{"id": "C56", "title": "Event handlers run in registration order until the first failure", "statement": "For a received event exactly the handlers registered for its type are called, in registration order, each at most once, stopping at the first one that fails, whose error is returned.", "quantifier": "every registration history and handler behaviour", "why_tests_cant": "all histories", "anchors": ["event.go:onEvent", "event.go:RegisterEventHandler"]}
{"id": "C57", "title": "Unknown transactions are rolled back by default", "statement": "The transaction check answers with what the registered checker says; without a registered checker or with an undecodable payload it answers rollback; a second checker for a type is refused.", "quantifier": "every registration history", "why_tests_cant": "all histories", "anchors": ["event.go:onTXChecker", "event.go:RegisterEventTXChecker"]}
{"id": "C58", "title": "No changed column is missed by the model diff", "statement": "For an update, every column whose value differs between the current and the loaded model is in the set of written columns.", "quantifier": "every pair of model values of any nesting", "why_tests_cant": "unbounded nesting and values", "anchors": ["executor/mysql/diff.go:DiffModel"]}
{"id": "C59", "title": "Unchanged columns are not written", "statement": "Columns whose value is the same in the current and the loaded model are not written, so concurrent changes to them survive.", "quantifier": "every pair of model values", "why_tests_cant": "unbounded nesting and values", "anchors": ["executor/mysql/diff.go:DiffModel", "executor/mysql/executor.go:opMap"]}
{"id": "C60", "title": "Delete actions delete exactly the listed rows", "statement": "A delete action removes exactly the rows whose primary key is that of one of its models.", "quantifier": "every table and id list", "why_tests_cant": "unbounded tables", "anchors": ["executor/mysql/executor.go:opMap"]}
{"id": "C61", "title": "Loading builds exactly the stored aggregate", "statement": "repo.Get / builder.Build fails with not-found if the root has no row, fills the root from its row, and fills each requested child collection with exactly the rows belonging to that parent; a missing optional child becomes nil.", "quantifier": "every table content and id", "why_tests_cant": "unbounded tables", "anchors": ["engine.go:Stage.BuildEntity", "engine.go:Stage.buildEntity", "engine.go:Stage.buildEntitySliceByParent", "executor/mysql/executor.go:opMap"]}
{"id": "C62", "title": "Store then load returns the same aggregate", "statement": "If the converters are inverse to each other and children are stored with their parent's id, an aggregate written by one run and loaded level by level by a later run has the same field values and the same children (as sets for slices: the SELECT has no order).", "quantifier": "every aggregate", "why_tests_cant": "unbounded values", "anchors": ["engine.go:Engine.Create", "engine.go:Repository.Get"]}
{"id": "C63", "title": "The MySQL executor does to the tables what the actions say", "statement": "A successful insert, update or delete action changes exactly the rows of its models: an insert adds all of them or none, an update writes exactly the changed columns of the existing rows, a delete removes them; so a save that succeeds on MySQL leaves the tables in step with the aggregates.", "quantifier": "every table content, every sequence of actions the engine produces", "why_tests_cant": "unbounded tables and actions", "anchors": ["executor/mysql/executor.go:opMap", "engine.go:Stage.persist"]}
{"id": "C64", "title": "Replacing a child object by another with the same id keeps the row", "statement": "If a loaded child object is replaced in its parent by a new object carrying the same id, the save succeeds and the row holds the new object's fields.", "quantifier": "every aggregate and id", "why_tests_cant": "depends on the order of all actions", "anchors": ["engine.go:Stage.makeActions", "executor/mysql/executor.go:opMap"]}
{"id": "C65", "title": "Parents are inserted before their children", "statement": "In every save the row of a newly created parent is inserted before the rows of the children created below it, so that foreign keys hold at every statement.", "quantifier": "every aggregate tree and every combination of created entities", "why_tests_cant": "unbounded trees; depends on the order of all table groups", "anchors": ["snapshot.go:entityDiff", "engine.go:Stage.makeActions", "engine.go:Stage.exec"]}
{"id": "C66", "title": "Statements run in their own transaction and database, all or nothing", "statement": "With the MySQL executor, statements executed with the context that Begin returned go to the executor's own database and belong to that one transaction: either all of them take effect or none, a successful commit makes all of them visible, a rollback none of them, whatever other runs, executors and nested Begins happen in between. Executors created in different seconds never see each other's transaction in a shared context.", "quantifier": "every history of Begin/Exec/Commit/RollBack calls by any number of executors with any contexts (including contexts derived from one another) and any database errors", "why_tests_cant": "The number of interleavings of calls, nested contexts and executor creation times is unbounded; the same-second key collision only shows when two executors are created within one second and used with one context.", "anchors": ["executor/mysql/executor.go NewExecutor, Begin, Commit, RollBack, Exec, getDB"]}
{"id": "C67", "title": "Options given to one run affect only that run", "statement": "A run is governed by the options of its engine followed by the options passed to that run, the last of each kind winning (post-save hooks: all of them, engine's first): its transaction mode, dry run, recursive delete, lock, executor, bus, timer, id generator, logger and post-save hooks. Options passed to other runs, before, after or concurrently, have no effect on it, and the bus and timer it uses have the framework's handlers registered.", "quantifier": "every history of engine and run creation with any options, in any interleaving of runs, and every slice growth policy", "why_tests_cant": "The effect depends on the spare capacity of a shared Go slice and on the interleaving of runs; tests run one at a time.", "anchors": ["engine.go NewEngine, Engine.NewStage, Stage.WithOption, Option.ApplyToOptions, PostSaveOption"]}
{"id": "C68", "title": "A run returns the output its command set last", "statement": "When a run did not fail, Result.Output is the value the command passed to Output last, in Init, Build, Act or Main, whatever it did before and after; nothing else changes it. The documentation adds that after Output the remaining methods of the command are skipped.", "quantifier": "every command body, every configuration, every sequence of answers of lock, executor, bus and hooks", "why_tests_cant": "Which Output call is the last depends on the answers of all repository calls; tests try a few commands only.", "anchors": ["command.go Command.Output, StageAgent.Output", "engine.go Stage.setOutput, Stage.do, Stage.Save, ResultErrOrBreak"]}
{"id": "C69", "title": "One handler at a time works on an event, and a dead one does not block it", "statement": "However many processes run a service, at no time are two handler calls for the same event in progress in that service. When a process dies during a call, its hold on the event ends: the next poll that reaches the still pending event calls the handler again.", "quantifier": "every number of processes and pollers, every interleaving of scans, handler calls, crashes and lost saves", "why_tests_cant": "Needs two pollers holding the same event in the window between row lock, handler and commit; tests cannot enumerate the interleavings.", "anchors": ["eventbus/mysql/eventbus.go evt lock in handleEvent, dispatchEvents, handleEvents"]}
{"id": "C70", "title": "The Redis lock excludes others for its ttl and never longer", "statement": "While a process holds a key through the Redis locker and its ttl has not passed since it was obtained, no other process is given the key, and nothing another process does - also releasing a lock of its own on the same key that has expired - takes it away. A released key can be taken at once, and a key whose holder crashed, or whose request was answered too late, after the ttl. Lock gives up with ErrEntityLocked only after 31 attempts over at least three seconds. A run that outlasts the ttl is no longer protected.", "quantifier": "every number of processes, every interleaving of attempts, releases, crashes, lost and repeated requests, every ttl and every passage of time", "why_tests_cant": "Needs two processes racing around an expiry with lost answers; tests run one process against one server.", "anchors": ["lock/redis/redis.go RedisLock.Lock", "lock/redis/redis.go RedisLock.UnLock"]}
{"id": "C71", "title": "A registered cron task or command handler is called with its own key, and a taken key is refused", "statement": "When the timer fires for the key of a cron task registered successfully, exactly that task is called, once, with the key and the timer's expression; a task or event handler that is a command is built from the decoded event, run once, and the error of the run - and only that - is reported, so that a run stopped with ErrBreak counts as handled. Registering a cron task under a key that already has a handler panics and changes nothing. A successful registration leaves a timer with the key. A failed registration can be repeated; a changed expression takes effect; a firing is not used up by an instance that has not registered the task.", "quantifier": "every program of registrations, every content of the timer table, every key, expression and event, every behaviour of the registered functions", "why_tests_cant": "Depends on the order of registrations, on what an earlier program left in the table and on other instances; tests register once on an empty table.", "anchors": ["engine.go Engine.RegisterEventHandler", "engine.go Engine.RegisterCronTask", "engine.go Engine.RegisterCronTaskOfCommand", "timer.go onTimer", "timer.go noTimer", "d_timer/sql/timer.go RunCron"]}
{"id": "C72", "title": "An event is published by at most one run", "statement": "An event raised on an entity is published by the run that saves the entity and by no later run.", "quantifier": "every pair of successful runs of a process, on the same or different objects, with any changes in between", "why_tests_cant": "Needs two runs sharing an object; nothing in one run shows that its events will be published again.", "anchors": ["engine.go Stage.collectEvents", "domain.go BaseEntity.AddEvent", "domain.go BaseEntity.GetEvents"]}
{"id": "C73", "title": "The total of an order aggregate is its items less its coupons", "statement": "After NewOrder, and after every sequence of AddSaleItem, DeleteSaleItem, AddCoupon, DeleteCoupon and Update calls that all reported success, the order's TotalAmount is the sum of price times count of its items less the discounts of its coupons (in int64 arithmetic, exact if the sum fits), the items and coupons are those added and not removed, and every change of the total or the remark is marked Dirty.", "quantifier": "every order, every rule engine, every list of items and coupons, every sequence of operations, every price and count", "why_tests_cant": "Holds for all sequences and amounts including wrap-around; a test tries a few.", "anchors": ["example/biz/sale/domain/order.go Order.calPrice", "example/biz/sale/domain/order.go Order.AddSaleItem", "example/biz/sale/domain/order.go NewOrder"]}
{"id": "C74", "title": "The stored total of an order is the amount of its stored items and coupons", "statement": "After any history of requests to the example service, the total stored for an order is the sum of its stored items less its stored coupons.", "quantifier": "every history of create, add item, add coupon, update and delete requests, successful or not, every rule engine", "why_tests_cant": "Depends on the whole history of an order; a test of one command sees a right total.", "anchors": ["example/biz/sale/application/command/add_saleitem.go AddSaleItemCommand.Main", "example/biz/sale/application/command/add_coupon.go AddCouponCommand.Main", "example/biz/sale/domain/order.go Order.calPrice"]}
{"id": "C75", "title": "GetOrder shows the order with its items and coupons", "statement": "After any history the stored item and coupon rows of an order are exactly the items and coupons of the successful requests for it, and GetOrder shows the order's user and total, its items and its coupons with their ids; an order that is not stored is not shown.", "quantifier": "every history of requests with distinct generated ids, every order", "why_tests_cant": "A wrong filter of the query shows only when ids of different tables are compared over all histories.", "anchors": ["example/biz/sale/application/query/order.go GetOrder", "example/biz/sale/infrastructure/dal/order.go DAL.GetOrderSaleItems", "example/biz/sale/application/query/pack/saleitem.go MakeCoupon"]}
{"id": "C76", "title": "Deleting an order removes it and what belongs to it", "statement": "After a successful delete request the order is not shown and cannot be changed, none of its items and coupons remain stored, other orders are untouched, and deleting an order that does not exist is reported.", "quantifier": "every state of the tables, every history before and after", "why_tests_cant": "Leftover rows are invisible through the API and accumulate over the history.", "anchors": ["example/biz/sale/application/command/remove_order.go DeleteOrderCommand.Main", "engine.go Repository.Remove"]}
{"id": "C77", "title": "Each event of the sale domain reaches the handler of its own kind", "statement": "An event raised by a request reaches the handler registered for its kind, with its contents, and no other; events of different kinds have different types; all events of an order have the order as sender.", "quantifier": "every request, every event it raises", "why_tests_cant": "Handlers are chosen by type strings at run time; a test of one event kind does not see that another one arrives.", "anchors": ["example/common/domain_event/sale/order.go GetType", "example/event_handler/init.go Register"]}
{"id": "C78", "title": "An order keeps its user and the remark it was last given", "statement": "After any history the stored user of an order is the one it was created for and its stored remark is the one last set by a successful update - also the empty one - or \"-\" if none was.", "quantifier": "every history of requests, every remark", "why_tests_cant": "The converter treats insert and update differently; only histories mixing both show which value stays.", "anchors": ["example/biz/sale/infrastructure/init.go Init", "example/biz/sale/domain/order.go Order.Update"]}
{"id": "C79", "title": "The order list shows the matching orders, page by page", "statement": "GetOrderList shows exactly the orders of the given user created between the given times, and pages taken one after the other show each of them once.", "quantifier": "every content of the tables, every search, every order in which the server returns rows", "why_tests_cant": "Without ORDER BY the row order is the server's choice; a test sees one choice.", "anchors": ["example/biz/sale/infrastructure/dal/order.go DAL.GetOrderList", "example/handler/order.go SaleServiceImpl.GetOrderList"]}
{"id": "C80", "title": "An event published from inside an outer transaction is sent iff that transaction commits", "statement": "An application that calls DispatchBegin inside its own database transaction and then Commit or Rollback of the bus publishes its events only if the transaction was committed; and wherever it fails or its process dies, the next timeout check stores the events iff the transaction was committed - if the checker answers by the state of the transaction (unknown while it is open) and the answer to COMMIT arrives.", "quantifier": "every number of concurrent calls, every crash point and statement failure, every use of the bus by others, every truthful checker", "why_tests_cant": "Crash points between two databases statements and the order of checks and calls cannot be enumerated.", "anchors": ["example/example_outer/outer_usage.go Handle", "eventbus/mysql/eventbus.go EventBus.DispatchBegin Commit Rollback handleTransactions checkTX"]}
{"id": "C81", "title": "The shipped outer-transaction example publishes iff its transaction commits", "statement": "With the checker and the Handle function of the example, the event is published iff the business transaction was committed, whatever fails.", "quantifier": "every crash point, every answer of the checker that looks at the database, every outcome of COMMIT", "why_tests_cant": "A test runs one crash point at a time and cannot lose the answer of a COMMIT.", "anchors": ["example/example_outer/outer_usage.go Init Handle", "eventbus/mysql/eventbus.go EventBus.checkTX Commit Rollback"]}
{"id": "C82", "title": "Concurrent cleaning removes only finished deliveries", "statement": "Whatever publishers, handlers and cleaners of this and other services and instances do at the same time, and wherever any of them stops, a delivery record disappears only because a cleaner of its service removed it, after it was handled successfully and became older than the retention time.", "quantifier": "every interleaving of any number of cleaners, publishers, handlers, registrations and stops, every table content", "why_tests_cant": "The interleavings of the cleaner's separate statements with everybody else's cannot be enumerated.", "anchors": ["eventbus/mysql/eventbus.go EventBus.cleanEvents EventBus.Dispatch EventBus.handleEvent"]}
{"id": "C83", "title": "Concurrent cleaning never takes an event away from a service that still needs it", "statement": "At every moment every delivery record has its event row; an event row is removed only when no delivery record refers to it.", "quantifier": "every interleaving of any number of cleaners, publishers, handlers, registrations and stops, every table content", "why_tests_cant": "The interleavings of the cleaner's separate statements with those of publishers cannot be enumerated.", "anchors": ["eventbus/mysql/eventbus.go EventBus.cleanEvents EventBus.Dispatch EventBus.getScanEvents"]}
{"id": "C84", "title": "Cleaning leaves no event behind", "statement": "Once all services have handled and cleaned an event, its row is removed too: when no cleaner is under way, every stored event is referred to by a delivery record.", "quantifier": "every interleaving of any number of cleaners of several services and instances, every crash point of a cleaner", "why_tests_cant": "Several cleaners can each leave the last step to the other; all interleavings and crash points must be considered.", "anchors": ["eventbus/mysql/eventbus.go EventBus.cleanEvents", "eventbus/mysql/eventbus.go EventBus.Dispatch"]}
{"id": "C85", "title": "Interleaved event transactions: nothing stored unasked, nothing lost", "statement": "With any number of publishers and timeout checkers working on event transactions at the same time, their statements interleaved in any way and any of them stopping anywhere: events are stored only for transactions for which Commit was called and are the events given to DispatchBegin; a transaction row that is gone was rolled back on request or its events were stored and delivery records made for every service registered at DispatchBegin; a Commit that returned nil means that the events were stored; the event table holds for each transaction only complete copies of its events; every delivery record made is for such a complete copy.", "quantifier": "all interleavings of the statements of any number of publishers, checkers, ordinary dispatches, registrations and (for the first three) removals; all points at which each may stop; all events, services, timeouts and checker answers", "why_tests_cant": "a unit test runs one schedule; the claim is about all interleavings and all stopping points", "anchors": ["eventbus/mysql/eventbus.go: DispatchBegin, Commit, Rollback, Dispatch, handleTransactions, checkTX"]}
{"id": "C86", "title": "An event transaction's events are stored exactly once", "statement": "However publishers and timeout checkers interleave, the events of a committed event transaction are stored once, and those of a rolled back one never. (Proved: at most one copy per call of Commit, none without a call of Commit, no further copy once the row is gone and nobody is at work on it. Refuted: a publisher and a checker that commit at the same time both store the events; a Rollback that returns nil after the checker committed.)", "quantifier": "all interleavings of the statements of any number of publishers and checkers", "why_tests_cant": "the race needs a particular interleaving of statements of two processes; a bound on the number of copies needs all of them", "anchors": ["eventbus/mysql/eventbus.go: Commit, Rollback, handleTransactions, checkTX"]}
{"id": "C87", "title": "Concurrent runs that lock what they touch behave as if one after the other", "statement": "Any number of runs at the same time, their Init calls, lock calls, queries, statements, commits and unlocks interleaved in any way, any of them failing or dying anywhere, under read committed or repeatable read: if each run takes lock keys that cover the rows it reads and writes inside the transaction, the database at every moment is the result of executing the finished transactions alone, one after the other in the order in which they ended, each with the same result and output as it had; every run is there at most once, and runs that are not there have changed nothing.", "quantifier": "all sets of commands (any adaptive sequence of queries and writes), all key covers, all initial databases, all interleavings, failures and deaths, both isolation levels", "why_tests_cant": "serializability is a statement about all interleavings of all commands; a test exercises a few", "anchors": ["engine.go: runCommand, Run, runOnLock, runWithTransaction, Save", "executor/mysql/executor.go: Begin, Commit, RollBack"]}
{"id": "C88", "title": "No update is lost", "statement": "What a run computes its writes from is still what is in the database when it commits. (Proved: with keys as in C87 and an Init that reads only rows that no run writes, the runs are serial with every Init answered at its place. Refuted: two runs without a common key lose an update; and with a common key, a command that writes what its Init read loses an update, since Init runs before the locks are taken.)", "quantifier": "all sets of commands, initial databases and interleavings", "why_tests_cant": "lost updates need a particular interleaving; their absence is a claim about all", "anchors": ["engine.go: runCommand (Init before Lock), Run, runOnLock, runWithTransaction"]}
{"id": "C89", "title": "Start runs one background loop that goes on until its context is cancelled", "statement": "After Start a MySQL bus (likewise a timer) runs one loop: nothing before Start, a second Start does nothing, at most one round at a time; every round checks the timed-out transactions and then, if a handler is registered, polls for events; errors of either part and panics of event handlers do not stop it: the next tick begins the next round. It stops when the context given to Start is cancelled. (The last is refuted: the context is not looked at. A panic of the registered transaction checker, or of a timer handler, ends the process: refuted as well.)", "quantifier": "all sequences of ticks, results, panics, Start calls, cancellations, cleanings", "why_tests_cant": "a test sees a few rounds; the claim is about every sequence of results", "anchors": ["eventbus/mysql/eventbus.go: Start, handleEvents, handleTransactions", "d_timer/sql/timer.go: Start, handleJobs"]}
{"id": "C90", "title": "A running bus is registered as a receiver", "statement": "Every event dispatched by anybody after a bus of a service was created gets a delivery record for that service. (Proved if the registration at creation succeeded. Refuted otherwise: NewEventBus throws the error away, and the loop registers again only on an error that nothing returns, so the service is never registered and silently receives nothing.)", "quantifier": "all sequences of rounds with any results, dispatches and creations of other buses", "why_tests_cant": "the absence of a later registration is a claim about all continuations", "anchors": ["eventbus/mysql/eventbus.go: NewEventBus, initService, Start, ErrServiceNotCreate, listService, Dispatch"]}
{"id": "C91", "title": "The HTTP front answers what happened", "statement": "A request to the example's HTTP front that is answered 200 was carried out exactly as asked (the rows written are those of the request, the reads change nothing and show what is in the tables); any other answer means that nothing was stored; an unknown action is answered 404 and an undecodable body 400, and neither runs anything; every request gets an answer.", "quantifier": "every sequence of requests (actions, bodies, decoders of bodies, generated ids, coupon rules) and every failure of the database during each of them", "why_tests_cant": "the claim is about every mixture of bodies and failures, including a COMMIT whose answer is lost and null pointers inside a body; tests send a few well-formed bodies to a working database", "anchors": ["example/handler/util/http.go:Handler", "example/handler/order.go:SaleServiceImpl", "example/handler/request.go", "engine.go:runWithTransaction"]}
{"id": "C92", "title": "An acknowledged order stays and requests touch only the order they name", "statement": "After CreateOrder was answered with an id, GetOrder of that id shows that order and its user until somebody deletes it, whatever other requests come in between; two creations are never answered with the same id; a request changes no row of an order it does not name; a client may repeat a creation that was answered 500.", "quantifier": "every sequence of requests and failures, every order", "why_tests_cant": "needs all interleavings of requests for all orders and every point of failure", "anchors": ["example/handler/order.go:CreateOrder", "example/biz/sale/application/command/create_order.go", "example/handler/util/http.go:Handler"]}
{"id": "C93", "title": "The shipped program creates the tables it uses", "statement": "Started on a database without tables, the example program creates every table its requests use, so that a well-formed CreateOrder is answered with the id of a stored order.", "quantifier": "every sequence of requests, every content of the order tables, every other failure of the surroundings", "why_tests_cant": "must hold for every sequence of requests; the tests create the tables themselves", "anchors": ["example/main.go:initPO", "example/main.go:main", "eventbus/mysql/eventbus.go:Dispatch", "lock/db/sql.go:lock"]}
{"id": "C94", "title": "A failed creation can be repeated with the same objects", "statement": "If a command that adds new aggregates failed in any way and is run again with the same objects and reports success, then every entity of those aggregates was inserted by the second run, nothing else was written, ids given to objects by the failed run are the ids they are stored with, and the events published are those raised before the runs or by the second one.", "quantifier": "every object graph, every way and point of failure of the first run, every lock keys and options of the two runs", "why_tests_cant": "the failed run may stop after any external call, and what it left in the objects decides what the second run does", "anchors": ["engine.go:Engine.Create", "engine.go:Stage.Save", "engine.go:Stage.persist", "engine.go:Stage.putNewID", "engine.go:Stage.collectEvents"]}
{"id": "C95", "title": "With the shipped locks, runs that lock what they touch lose no update however long they take", "statement": "If every run takes the keys of the rows it reads and writes, with the database lock or the Redis lock of this repository, then the committed database is the result of the finished runs one after the other, whatever time each run takes and whichever lock calls fail, take effect without an answer, or are never made because the process died; and a key whose owner died becomes free after the ttl.", "quantifier": "every ttl, every set of runs, initial rows and leases, every interleaving of steps, passing time, failures and deaths", "why_tests_cant": "a lock is a lease that is not renewed by the engine: whether two runs overlap depends on the time each of them takes", "anchors": ["engine.go:Engine.Run", "lock/db/sql.go:DBLock.Lock", "lock/db/sql.go:DBLock.UnLock", "lock/db/sql.go:DBLock.Run", "lock/redis/redis.go:RedisLock.Lock", "lock/redis/redis.go:RedisLock.UnLock"]}
{"id": "C96", "title": "An event's handlers take effect exactly once in their data", "statement": "When the delivery of an event to a service is recorded as successful, every handler the service registered for the event's type has taken effect in its data exactly once; an event that is given up has left no effect.", "quantifier": "every number of processes and polls, every schedule, crash point, failure of handlers and every list of handlers", "why_tests_cant": "needs all interleavings, crashes between the handler's commit and the bus's, and all combinations of failing handlers", "anchors": ["eventbus/mysql/eventbus.go:EventBus.handleEvent", "event.go:onEvent", "engine.go:Engine.RegisterEventHandler", "engine.go:Stage.Save"]}
{"id": "C97", "title": "A run's transactional events are sent if and only if its data is committed", "statement": "With the MySQL event bus and a transaction checker, the events a run sends with type transaction reach every registered service if and only if the data transaction of the run is committed: also if the process dies anywhere, if the answer to the COMMIT is lost, if Commit of the bus fails half way, and while timeout checks run concurrently.", "quantifier": "every number of runs, checkers and services, every schedule of their statements, every crash point, every outcome of a commit without answer, every answer of the registered checker that is true at some time since the check began", "why_tests_cant": "needs all interleavings of runs, checkers and crashes, and commits that turn out later", "anchors": ["engine.go:runWithTransaction", "engine.go:Stage.dispatchEvents", "eventbus/mysql/eventbus.go:EventBus.DispatchBegin", "eventbus/mysql/eventbus.go:EventBus.Commit", "eventbus/mysql/eventbus.go:EventBus.Rollback", "eventbus/mysql/eventbus.go:EventBus.handleTransactions"]}
{"id": "C98", "title": "The steps of a command run in order and the first error ends it", "statement": "Running a command (Init, Build, Act) calls Init first; if Init fails nothing else happens: no lock, no transaction, no call. Otherwise Build runs under the locks on a fresh stage; if it fails, that error (or Break) is the result and Act is not called. If a root returned by Build has no id the run fails and Act is not called. Otherwise Act starts with exactly the roots Build returned as the aggregates, and its error is the result. A command that only loads and looks writes nothing, calls no hook and sends no event.", "quantifier": "every Init, Build and Act (any program over the API), every state of the entities, every answer of the surroundings", "why_tests_cant": "needs every program over the API, every entity graph and every failure of the surroundings", "anchors": ["engine.go:Stage.runCommand", "engine.go:Stage.flush", "command.go:ICommand"]}
{"id": "C99", "title": "Loading an aggregate does not change what is saved for the others", "statement": "repo.Get or repo.CustomGet that returns nil makes exactly the named aggregates part of the run, known as they were loaded; what the run already knows and what it will save for other aggregates stays the same. A load that fails leaves the run as it was.", "quantifier": "every state of the run, every entity graph, every set of roots, every effect of query and getter, every converter", "why_tests_cant": "needs every graph with unsaved changes at the moment of the load", "anchors": ["engine.go:Repository.Get", "engine.go:Repository.CustomGet", "engine.go:Stage.updateSnapshot"]}
{"id": "C100", "title": "On the MySQL executor a run is all or nothing among any other users of the databases", "statement": "With transactions on and a MySQL executor on a database, whatever others do meanwhile - other runs on the same executor or on executors with the same key, in nested or separate contexts, on any databases, beginning, executing, committing and rolling back as they like, as long as they do not use the run's own context: at every moment none of the run's statements has taken effect in any database, or all those that were accepted have, in the executor's database and nowhere else. When a run that reports success has made its last call they all have; a run that reports an error or Break, or dies before it calls Commit, leaves none - unless it reports an error because the answer of a COMMIT that took effect was lost.", "quantifier": "every run (behaviour, entities, options, answers of the surroundings), every split of its Execs into statements, every history of other calls mixed with its calls, every point of that history", "why_tests_cant": "needs every interleaving of the statements of several runs and every point in between", "anchors": ["engine.go:runWithTransaction", "engine.go:Stage.Run", "executor/mysql/executor.go:Executor.Begin", "executor/mysql/executor.go:Executor.Commit", "executor/mysql/executor.go:Executor.RollBack", "executor/mysql/executor.go:Executor.Exec"]}
{"id": "C101", "title": "The event transaction of a context belongs to the DispatchBegin that returned it", "statement": "Commit (Rollback) with a context that DispatchBegin returned - or with one made from it by DispatchBegin of other buses, or by one of the same bus that failed - is about exactly the events of that DispatchBegin, in the database of its bus: when Commit returns nil they are stored, once, with deliveries for every registered service, no other transaction's events are stored by it and no other database is touched, whatever other buses, databases, nested transactions, failed statements, polls and timeout checks there are. After a Rollback that returned nil before anything was stored, nothing of the transaction is ever stored unless somebody commits such a context again. With a context in which no DispatchBegin of the bus succeeded, Commit and Rollback return an error and do nothing. Buses made in different seconds do not see each other's transactions.", "quantifier": "every history of calls over any number of buses, databases and contexts, and every outcome of their statements", "why_tests_cant": "all histories of calls and nestings of contexts", "anchors": ["eventbus/mysql/eventbus.go:EventBus.ctxWithTX", "eventbus/mysql/eventbus.go:EventBus.getTX", "eventbus/mysql/eventbus.go:NewEventBus", "eventbus/mysql/eventbus.go:EventBus.Dispatch", "eventbus/mysql/eventbus.go:EventBus.DispatchBegin", "eventbus/mysql/eventbus.go:EventBus.Commit", "eventbus/mysql/eventbus.go:EventBus.Rollback"]}
{"id": "C102", "title": "The lock keys a run is given may be shared with other runs", "statement": "Each run locks exactly the keys it was given, each once, in ascending order, or - when a key is repeated - reports that and locks nothing, also when the same slice of keys is given to several runs at a time; the caller's slice is left as it was; two runs given the same slice are never in progress at the same time and do not deadlock.", "quantifier": "every slice of keys, any number of runs given the same slice, every interleaving of their accesses to it and of their lock calls, lock calls that fail", "why_tests_cant": "needs every interleaving of reads and writes of the slice", "anchors": ["engine.go:Stage.Lock", "engine.go:Stage.runOnLock", "engine.go:Stage.runCommand"]}
{"id": "C103", "title": "A stage can be saved again", "statement": "A Stage may be saved more than once: every Save is a run of its own, all or nothing, which writes and reports what changed since the last one, publishes its own events, ends only its own transactions, and fails only if something fails during it; the result of an earlier Save stays as it was returned.", "quantifier": "every sequence of Saves of one stage with any keys, any main functions, any changes to the entities between them, any answers of the database, locks and event bus, any crash point", "why_tests_cant": "needs histories of several Saves with a failure in any of them; tests save a stage once", "anchors": ["engine.go:Engine.NewStage", "engine.go:Stage.Main", "engine.go:Stage.Save", "engine.go:Stage.do", "engine.go:Stage.runWithTransaction"]}
