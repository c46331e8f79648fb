#!/usr/bin/env python3
# Regenerates /verif/properties.jsonl (kept as a script only so the list stays well-formed JSON).
import json, os
P = []
def p(i, title, statement, quantifier, why, anchors):
    P.append(dict(id=i, title=title, statement=statement, quantifier=quantifier, why_tests_cant=why, anchors=anchors))

# ---------------------------------------------------------------- the Save pipeline
p("C01", "A failed, broken or crashed run leaves the database as it was",
  "With transactions on (the default), if Engine.Run/Stage.Save returns a Result with Error or Break set, panics, or the process dies at any instant before the transaction commit succeeds, no write of that run is visible in the database afterwards; at every crash point the committed data is either exactly the data before the run or exactly the data after it.",
  "every command body, every sequence of success/failure/panic answers from locker, executor, hooks, id generator and event bus, and every crash point",
  "the failing call can be any of unboundedly many, and a crash can fall between any two calls",
  ["engine.go:Stage.Save", "engine.go:Stage.runWithTransaction", "engine.go:Stage.do", "engine.go:Stage.exec"])
p("C02", "A successful run commits exactly the actions it reports",
  "With transactions on, if the run returns without Error and Break and no executor write was answered with an error, the committed database is the old database with Result.Actions (followed by nothing else) applied once each and in the reported order.",
  "every command body (including intermediate Save/Commit calls) and all environment answers",
  "depends on the whole call history of a run of arbitrary length",
  ["engine.go:Stage.exec", "engine.go:Stage.do", "engine.go:Stage.runWithTransaction"])
p("C03", "Dry run writes and publishes nothing",
  "With WithDryRun no write reaches the executor and no event reaches the event bus, whatever the command does; Result.Actions stays empty.",
  "every command body and environment", "a universally quantified negative", ["engine.go:Stage.exec", "engine.go:Stage.dispatchEvents"])
p("C04", "Locks bracket the transaction and are always released",
  "A run that asked for lock keys takes them in ascending order before opening the transaction, refuses repeated keys without taking any lock, runs nothing if one lock is refused, and on every return or panic path releases exactly the locks it took, each once, after the transaction has been committed or rolled back (provided the locker itself does not panic while a lock is being taken).",
  "every key list, every answer of the locker, every command body including ones that panic",
  "every failure position times every number of keys", ["engine.go:Stage.runOnLock", "engine.go:Stage.Save"])
p("C05", "Concurrent runs never deadlock on their lock keys",
  "Any number of concurrent runs, each with any lock keys, never reach a state in which some runs wait for keys and none of the runs can proceed.",
  "every number of runs, every key set, every schedule", "all interleavings", ["engine.go:Stage.runOnLock"])
p("C06", "Runs sharing a lock key do not overlap",
  "If the locker is mutually exclusive per key, then two concurrent runs with a common key are never both between having all their locks and releasing them.",
  "every number of runs, every key set, every schedule", "all interleavings", ["engine.go:Stage.runOnLock", "engine.go:Stage.Save"])
p("C07", "Post-save hooks run exactly when the run did not fail, after commit and unlock",
  "Every registered post-save hook is called exactly once, in registration order, after the transaction ended and all locks were released, if and only if the Result carries no Error.",
  "every command body, hook list and environment", "every path through the pipeline", ["engine.go:Stage.Save"])
p("C08", "ErrBreak stops silently, everything else is reported",
  "If the command body returns an error that wraps ErrBreak the Result has Break set and no Error and the transaction is rolled back; if it returns any other error the Result has that Error.",
  "every error value and every command body", "error chains are unbounded", ["engine.go:ResultErrOrBreak", "engine.go:Stage.do"])
p("C09", "The database ends up equal to the in-memory aggregates",
  "If before the run every loaded entity has its row and the body marked every modified entity dirty, then applying the actions of a save makes the database hold exactly the current rows of all entities in the aggregates, removes the rows of the entities taken out, and leaves every other row as it was.",
  "every aggregate tree of any shape and depth, every combination of additions, removals, updates and moves",
  "unbounded trees and combinations of changes", ["snapshot.go:entityDiff", "engine.go:Stage.makeActions", "engine.go:Stage.persist"])
p("C10", "Change detection is exact",
  "For every entity below the aggregate roots: it is reported as created iff it is now in a child list it was not in when loaded, as updated iff it stayed and is marked dirty, as deleted iff it was in a child list of a still present parent and is not any more; nothing else is reported.",
  "every acyclic aggregate graph and every snapshot", "unbounded trees", ["snapshot.go:entityDiff", "snapshot.go:simpleSet"])
p("C11", "Unchanged aggregates cause no writes",
  "Saving again directly after a successful intermediate save calls no hook and executes no write.",
  "every aggregate graph", "unbounded trees", ["engine.go:Stage.commit", "engine.go:Stage.flush", "engine.go:Stage.unDirty"])
p("C12", "Moving a child between parents is one update",
  "When children are taken out of one parent and put into another parent of the same save, each is written as one update with the new parent, not as an insert plus a delete, and the save does not fail.",
  "every number of moved children and every mix with other changes", "the number of moved siblings is unbounded",
  ["snapshot.go:handleEntityMove", "snapshot.go:entityChanged.Remove"])
p("C13", "An entity attached in two places is refused",
  "If the same entity object is newly attached in two places, or removed in two places without a matching addition, the save fails and writes nothing.",
  "every aggregate graph", "unbounded positions", ["snapshot.go:handleEntityMove"])
p("C14", "Recursive delete removes the whole subtree",
  "With WithRecursiveDelete, deleting an entity deletes the rows of all of its descendants at any depth.",
  "every subtree shape and depth", "unbounded depth", ["snapshot.go:recursiveDelete", "snapshot.go:walk"])
p("C15", "Without recursive delete only the removed entities are deleted",
  "Without WithRecursiveDelete, every deleted row belongs to an entity that was itself taken out of a child list (or root list); rows of its descendants are not touched by that deletion.",
  "every subtree shape", "unbounded trees", ["engine.go:Stage.getEntityChanged", "snapshot.go:entityDiff"])
p("C16", "Actions are homogeneous, complete and ordered insert, update, delete",
  "The executor receives one action per operation and model type, all inserts before all updates before all deletes and within an operation the tables in the order in which they first appear among the changed entities; each changed, registered entity contributes exactly one model to exactly one action of its operation, and in update actions the previous models line up one to one with the models.",
  "every list of changes", "unbounded change lists", ["engine.go:Stage.makeActions", "executor.go:Action"])
p("C17", "Every inserted entity has an id, and no existing id is overwritten",
  "After the save, each newly created entity has a non-empty id, taken from the generator only if it had none; ids of entities that had one are never changed; all ids are assigned before the first model is built, so child models can refer to their parent's id.",
  "every change list and generator", "unbounded lists", ["engine.go:Stage.putNewID", "engine.go:Stage.persist"])
p("C18", "Entity hooks bracket the writes",
  "Within one save every created/updated/deleted entity that defines the matching hook gets its Before hook exactly once before any write and its After hook exactly once after all writes, and a failing hook makes the save fail; a failing Before hook prevents every write.",
  "every change list and hook behaviour", "unbounded lists and failure positions", ["engine.go:execHook", "engine.go:Stage.persist"])
p("C19", "An aggregate root added to the repository is inserted",
  "Every root passed to repo.Add without error is inserted when the run succeeds, whatever else the body does with the repository.",
  "every sequence of repository calls in the body", "all call sequences", ["engine.go:Repository.Add", "engine.go:Stage.updateSnapshot"])
p("C20", "An aggregate root removed from the repository is deleted",
  "Every root passed to repo.Remove without error is deleted when the run succeeds, whatever else the body does with the repository.",
  "every sequence of repository calls in the body", "all call sequences", ["engine.go:Repository.Remove", "engine.go:Stage.updateSnapshot"])
p("C21", "A rejected repository call fails the run",
  "If repo.Add or repo.Remove rejects an entity (already loaded, already added, not found), the run ends with an Error and nothing is committed, even if the body ignores it.",
  "every sequence of repository calls", "all call sequences", ["engine.go:Repository.getError", "engine.go:Stage.do"])
p("C22", "A rejected container call in a command fails the run",
  "If container.Add or container.Remove inside ICommand.Act rejects an entity, the run ends with an Error.",
  "every Act body", "all call sequences", ["engine.go:Stage.runCommand", "engine.go:RootContainer"])
p("C23", "The root container never holds a root twice",
  "Whatever sequence of Add and Remove is issued, the container holds each root at most once; Add of a present root and Remove of an absent one fail and change nothing; a removed root is remembered for event collection.",
  "every call sequence", "all sequences", ["engine.go:EntityContainer"])
p("C24", "Every event is published exactly once, in creation order",
  "A run with events publishes each event attached to a live or deleted entity exactly once, ordered by creation time and then id, independent of map iteration order.",
  "every aggregate graph, event set and map iteration order", "map order is random, sizes unbounded", ["engine.go:Stage.collectEvents"])
p("C25", "Transactional events are confirmed iff the database committed",
  "Transactional events are handed to a transactional bus before the database commit; the bus is told to commit only after the database commit succeeded, is told to roll back only when the database is rolled back, and is never told both.",
  "every body and environment", "every failure position", ["engine.go:Stage.dispatchEvents", "engine.go:Stage.runWithTransaction"])
p("C26", "Events of a run that did not commit are not delivered",
  "If the database transaction of a run does not commit, none of the events of that run is delivered to a consumer.",
  "every body, send type and failure", "every failure position", ["engine.go:Stage.do", "eventbus/mysql/eventbus.go:EventBus.Dispatch"])
p("C27", "Persisted events are committed with the data",
  "With WithEventPersist every published event is inserted in the same transaction as the business data, before publication; if the run fails neither is committed.",
  "every body and environment", "every failure position", ["engine.go:Stage.makeEventPersistAction", "engine.go:Stage.do"])
p("C28", "Walking an aggregate terminates exactly for acyclic aggregates",
  "Every traversal of an aggregate terminates if the child relation from its root is acyclic, visits exactly the entities reachable through child fields, parents before children; on a cyclic aggregate it never terminates.",
  "every object graph", "unbounded graphs, non-termination", ["snapshot.go:walk", "snapshot.go:entityDiff"])
p("C29", "Child discovery sees every exported entity field",
  "Without a custom GetChildren, every exported struct field holding an entity, a slice or a map of entities is a child list under the field name, present even when empty; unexported fields and the embedded base are never children. An entity with its own non-empty GetChildren has exactly the children it returns.",
  "every struct shape", "all struct shapes", ["snapshot.go:findChildren"])
p("C30", "Children removed under a custom GetChildren are deleted",
  "If an entity defines GetChildren itself, a child that disappears from what it returns is deleted on save.",
  "every GetChildren implementation", "all implementations", ["snapshot.go:entityDiff", "snapshot.go:findChildren"])
# ---------------------------------------------------------------- DB lock
p("C31", "The database lock is exclusive while leases are valid",
  "With clients that only Lock and UnLock (as the engine does), two clients never both hold the same key with unexpired leases, whatever the interleaving of their SQL statements.",
  "every number of clients, every interleaving, every passage of time", "all interleavings and delays", ["lock/db/sql.go:DBLock.lock", "lock/db/sql.go:DBLock.UnLock"])
p("C32", "A renewed database lock cannot be stolen",
  "With DBLock.Run, as long as every renewal happens before the lease expires no other client acquires the key.",
  "every interleaving", "all interleavings and delays", ["lock/db/sql.go:DBLock.Run", "lock/db/sql.go:DBLock.update"])
p("C33", "UnLock releases only one's own lock",
  "UnLock deletes a lock row only if it still belongs to the caller's acquisition; after losing the lock to another client UnLock reports an error and leaves the other's lock in place.",
  "every history", "all histories", ["lock/db/sql.go:DBLock.UnLock"])
p("C34", "A crashed holder's lock can be taken over after the ttl",
  "If a holder disappears, a single client's Lock on that key succeeds once the ttl has elapsed and is refused with ErrEntityLocked before.",
  "every state and time", "all states", ["lock/db/sql.go:DBLock.lock"])
p("C35", "Lock retries only on contention and at most five times",
  "DBLock.Lock with retry tries at most five times, stops at the first success or at the first error other than ErrEntityLocked, and returns that outcome.",
  "every sequence of outcomes", "all outcome sequences", ["lock/db/sql.go:DBLock.Lock"])
# ---------------------------------------------------------------- MySQL event bus
p("C36", "Dispatch reaches every registered service exactly once",
  "After Dispatch returns success, each dispatched event has exactly one stored record and exactly one pending delivery record per service registered at that time, and nothing else changed.",
  "every event list, service list and table state", "unbounded tables", ["eventbus/mysql/eventbus.go:EventBus.Dispatch"])
p("C37", "Dispatch is atomic",
  "If Dispatch fails or the process crashes inside it, either all or none of its event and delivery records exist.",
  "every crash point", "every crash point", ["eventbus/mysql/eventbus.go:EventBus.Dispatch"])
p("C38", "A poll selects the oldest due deliveries",
  "A poll hands over exactly the pending deliveries of its own service inside the scan window that are due, oldest event first, at most LimitPerRun of them; the offset optimisation never drops one.",
  "every table state", "unbounded tables", ["eventbus/mysql/eventbus.go:EventBus.getScanEvents"])
p("C39", "Each delivery record is paired with its own event",
  "The handler is called with the event the delivery record refers to.",
  "every table state", "unbounded tables", ["eventbus/mysql/eventbus.go:EventBus.getScanEvents"])
p("C40", "Retries are bounded by the strategy",
  "A permanently failing handler is called exactly (retry limit + 1) times for an event - the first call plus the configured number of retries - and then the delivery is marked failed and never run again.",
  "every limit, interval list and number of polls", "unbounded limits and polls", ["eventbus/mysql/eventbus.go:LimitRetry", "eventbus/mysql/eventbus.go:IntervalRetry", "eventbus/mysql/eventbus.go:CustomRetry", "eventbus/mysql/eventbus.go:EventBus.doRetryStrategy"])
p("C41", "A delivered event is not delivered again",
  "Once the handler has succeeded for an event in a service and this was recorded, the handler is never called again for that event and service and the record stays successful.",
  "every number of pollers and every schedule", "all interleavings of pollers", ["eventbus/mysql/eventbus.go:EventBus.handleEvent"])
p("C42", "FIFO events wait for their predecessors",
  "A FIFO event is handed to the handler only when every earlier event of the same sender (inside the scan window) has been processed successfully or expired.",
  "every history of dispatches, polls and failures", "all histories", ["eventbus/mysql/eventbus.go:EventBus.checkPrecedingEvent"])
p("C43", "LaxFIFO events wait until their predecessor is settled",
  "A LaxFIFO event is handed to the handler only when the preceding event of the same sender is no longer pending; a failed predecessor does not block it.",
  "every history", "all histories", ["eventbus/mysql/eventbus.go:EventBus.checkPrecedingEvent"])
p("C44", "One stuck event does not block the others",
  "The failure of one event never prevents later, unrelated events from being processed.",
  "every history and number of polls", "unbounded polls (liveness)", ["eventbus/mysql/eventbus.go:EventBus.dispatchEvents", "eventbus/mysql/eventbus.go:EventBus.getScanEvents"])
p("C45", "Every dispatched event is eventually delivered",
  "Every dispatched event is handed to the handler of every registered service at least once if the service keeps polling.",
  "every history", "liveness", ["eventbus/mysql/eventbus.go:EventBus.handleEvents"])
p("C46", "A transactional event is delivered iff its transaction committed, despite crashes",
  "Whatever the crash points and however often commit and the timeout check are repeated, the events of a transaction are stored at most once, and not at all if it was rolled back.",
  "every history of commit, rollback, timeout checks and crashes", "all histories", ["eventbus/mysql/eventbus.go:EventBus.Commit", "eventbus/mysql/eventbus.go:EventBus.Rollback", "eventbus/mysql/eventbus.go:EventBus.handleTransactions", "eventbus/mysql/eventbus.go:EventBus.checkTX"])
p("C47", "Cleaning removes only finished records and unreferenced events",
  "Cleaning deletes exactly the successful delivery records of its own service older than the retention time, and an event only when no delivery record of any service refers to it; pending and failed deliveries and their events survive.",
  "every table state of any size", "unbounded tables, batching", ["eventbus/mysql/eventbus.go:EventBus.cleanEvents"])
p("C48", "Services consume independently",
  "Polling and handling in one service never changes the delivery records of another service.",
  "every state and poll", "all states", ["eventbus/mysql/eventbus.go:EventBus.handleEvent", "eventbus/mysql/eventbus.go:EventBus.handleEvents"])
# ---------------------------------------------------------------- timer
p("C49", "A timer fires at most once per scheduled time across instances",
  "However many timer instances poll the same table, the handler is called at most once for each scheduled time of a job, provided saving the job succeeds.",
  "every number of instances, every interleaving", "all interleavings", ["d_timer/sql/timer.go:DBTimer.handleJobs"])
p("C50", "Registering a timer never overwrites an existing one",
  "RunCron and RunOnce with a key that already exists for the service leave the existing job unchanged; RunOnce in the past and invalid cron expressions are refused and create nothing.",
  "every table state", "all states", ["d_timer/sql/timer.go:DBTimer.run", "d_timer/sql/timer.go:DBTimer.RunOnce"])
p("C51", "A one-shot timer fires once and can be scheduled again",
  "A one-shot job fires exactly once when polled at or after its time; afterwards the same key can be scheduled again.",
  "every history", "all histories", ["d_timer/sql/model.go:TimerJob.Next", "d_timer/sql/timer.go:DBTimer.run"])
p("C52", "A cron job always has a future next time and handler errors do not stop it",
  "After each firing a cron job is rescheduled strictly in the future, whether or not the handler failed; scheduled times only grow.",
  "every history", "all histories", ["d_timer/sql/model.go:TimerJob.Reset", "d_timer/sql/timer.go:DBTimer.handleJobs"])
# ---------------------------------------------------------------- memory bus, router
p("C53", "The memory bus delivers each event once, in dispatch order",
  "Events sent by one dispatcher are handed to the handler exactly once each and in order; at most `capacity` events are ever queued.",
  "every number of dispatchers and schedule", "all interleavings", ["eventbus/mem/eventbus.go:MemoryEventBus"])
p("C54", "A handler of the memory bus may itself publish events",
  "An event handler running on the memory bus can dispatch further events without blocking the bus forever.",
  "every capacity, handler and schedule", "all capacities and schedules", ["eventbus/mem/eventbus.go:MemoryEventBus.Dispatch"])
p("C55", "Cancelling the context stops the memory bus",
  "After the context given to Start is cancelled no further event is handed to the handler.",
  "every schedule", "all schedules", ["eventbus/mem/eventbus.go:MemoryEventBus.Start"])
p("C56", "Event handlers run in registration order until the first failure",
  "For a received event exactly the handlers registered for its type are called, in registration order, each at most once, stopping at the first one that fails, whose error is returned.",
  "every registration history and handler behaviour", "all histories", ["event.go:onEvent", "event.go:RegisterEventHandler"])
p("C57", "Unknown transactions are rolled back by default",
  "The transaction check answers with what the registered checker says; without a registered checker or with an undecodable payload it answers rollback; a second checker for a type is refused.",
  "every registration history", "all histories", ["event.go:onTXChecker", "event.go:RegisterEventTXChecker"])
# ---------------------------------------------------------------- mysql executor
p("C58", "No changed column is missed by the model diff",
  "For an update, every column whose value differs between the current and the loaded model is in the set of written columns.",
  "every pair of model values of any nesting", "unbounded nesting and values", ["executor/mysql/diff.go:DiffModel"])
p("C59", "Unchanged columns are not written",
  "Columns whose value is the same in the current and the loaded model are not written, so concurrent changes to them survive.",
  "every pair of model values", "unbounded nesting and values", ["executor/mysql/diff.go:DiffModel", "executor/mysql/executor.go:opMap"])
p("C60", "Delete actions delete exactly the listed rows",
  "A delete action removes exactly the rows whose primary key is that of one of its models.",
  "every table and id list", "unbounded tables", ["executor/mysql/executor.go:opMap"])
p("C61", "Loading builds exactly the stored aggregate",
  "repo.Get / builder.Build fails with not-found if the root has no row, fills the root from its row, and fills each requested child collection with exactly the rows belonging to that parent; a missing optional child becomes nil.",
  "every table content and id", "unbounded tables", ["engine.go:Stage.BuildEntity", "engine.go:Stage.buildEntity", "engine.go:Stage.buildEntitySliceByParent", "executor/mysql/executor.go:opMap"])
p("C62", "Store then load returns the same aggregate",
  "If the converters are inverse to each other and children are stored with their parent's id, an aggregate written by one run and loaded level by level by a later run has the same field values and the same children (as sets for slices: the SELECT has no order).",
  "every aggregate", "unbounded values", ["engine.go:Engine.Create", "engine.go:Repository.Get"])
p("C63", "The MySQL executor does to the tables what the actions say",
  "A successful insert, update or delete action changes exactly the rows of its models: an insert adds all of them or none, an update writes exactly the changed columns of the existing rows, a delete removes them; so a save that succeeds on MySQL leaves the tables in step with the aggregates.",
  "every table content, every sequence of actions the engine produces", "unbounded tables and actions", ["executor/mysql/executor.go:opMap", "engine.go:Stage.persist"])
p("C64", "Replacing a child object by another with the same id keeps the row",
  "If a loaded child object is replaced in its parent by a new object carrying the same id, the save succeeds and the row holds the new object's fields.",
  "every aggregate and id", "depends on the order of all actions", ["engine.go:Stage.makeActions", "executor/mysql/executor.go:opMap"])
p("C65", "Parents are inserted before their children",
  "In every save the row of a newly created parent is inserted before the rows of the children created below it, so that foreign keys hold at every statement.",
  "every aggregate tree and every combination of created entities", "unbounded trees; depends on the order of all table groups", ["snapshot.go:entityDiff", "engine.go:Stage.makeActions", "engine.go:Stage.exec"])
p("C66","Statements run in their own transaction and database, all or nothing",
  "With the MySQL executor, statements executed with the context that Begin returned go to the executor's own database and belong to that one transaction: either all of them take effect or none, a successful commit makes all of them visible, a rollback none of them, whatever other runs, executors and nested Begins happen in between. Executors created in different seconds never see each other's transaction in a shared context.",
  "every history of Begin/Exec/Commit/RollBack calls by any number of executors with any contexts (including contexts derived from one another) and any database errors",
  "The number of interleavings of calls, nested contexts and executor creation times is unbounded; the same-second key collision only shows when two executors are created within one second and used with one context.",
  ["executor/mysql/executor.go NewExecutor, Begin, Commit, RollBack, Exec, getDB"])

p("C67","Options given to one run affect only that run",
  "A run is governed by the options of its engine followed by the options passed to that run, the last of each kind winning (post-save hooks: all of them, engine's first): its transaction mode, dry run, recursive delete, lock, executor, bus, timer, id generator, logger and post-save hooks. Options passed to other runs, before, after or concurrently, have no effect on it, and the bus and timer it uses have the framework's handlers registered.",
  "every history of engine and run creation with any options, in any interleaving of runs, and every slice growth policy",
  "The effect depends on the spare capacity of a shared Go slice and on the interleaving of runs; tests run one at a time.",
  ["engine.go NewEngine, Engine.NewStage, Stage.WithOption, Option.ApplyToOptions, PostSaveOption"])

p("C68","A run returns the output its command set last",
  "When a run did not fail, Result.Output is the value the command passed to Output last, in Init, Build, Act or Main, whatever it did before and after; nothing else changes it. The documentation adds that after Output the remaining methods of the command are skipped.",
  "every command body, every configuration, every sequence of answers of lock, executor, bus and hooks",
  "Which Output call is the last depends on the answers of all repository calls; tests try a few commands only.",
  ["command.go Command.Output, StageAgent.Output", "engine.go Stage.setOutput, Stage.do, Stage.Save, ResultErrOrBreak"])

p("C69","One handler at a time works on an event, and a dead one does not block it",
  "However many processes run a service, at no time are two handler calls for the same event in progress in that service. When a process dies during a call, its hold on the event ends: the next poll that reaches the still pending event calls the handler again.",
  "every number of processes and pollers, every interleaving of scans, handler calls, crashes and lost saves",
  "Needs two pollers holding the same event in the window between row lock, handler and commit; tests cannot enumerate the interleavings.",
  ["eventbus/mysql/eventbus.go evt lock in handleEvent, dispatchEvents, handleEvents"])

p("C70","The Redis lock excludes others for its ttl and never longer",
  "While a process holds a key through the Redis locker and its ttl has not passed since it was obtained, no other process is given the key, and nothing another process does - also releasing a lock of its own on the same key that has expired - takes it away. A released key can be taken at once, and a key whose holder crashed, or whose request was answered too late, after the ttl. Lock gives up with ErrEntityLocked only after 31 attempts over at least three seconds. A run that outlasts the ttl is no longer protected.",
  "every number of processes, every interleaving of attempts, releases, crashes, lost and repeated requests, every ttl and every passage of time",
  "Needs two processes racing around an expiry with lost answers; tests run one process against one server.",
  ["lock/redis/redis.go RedisLock.Lock","lock/redis/redis.go RedisLock.UnLock"])

p("C71","A registered cron task or command handler is called with its own key, and a taken key is refused",
  "When the timer fires for the key of a cron task registered successfully, exactly that task is called, once, with the key and the timer's expression; a task or event handler that is a command is built from the decoded event, run once, and the error of the run - and only that - is reported, so that a run stopped with ErrBreak counts as handled. Registering a cron task under a key that already has a handler panics and changes nothing. A successful registration leaves a timer with the key. A failed registration can be repeated; a changed expression takes effect; a firing is not used up by an instance that has not registered the task.",
  "every program of registrations, every content of the timer table, every key, expression and event, every behaviour of the registered functions",
  "Depends on the order of registrations, on what an earlier program left in the table and on other instances; tests register once on an empty table.",
  ["engine.go Engine.RegisterEventHandler","engine.go Engine.RegisterCronTask","engine.go Engine.RegisterCronTaskOfCommand","timer.go onTimer","timer.go noTimer","d_timer/sql/timer.go RunCron"])

p("C72","An event is published by at most one run",
  "An event raised on an entity is published by the run that saves the entity and by no later run.",
  "every pair of successful runs of a process, on the same or different objects, with any changes in between",
  "Needs two runs sharing an object; nothing in one run shows that its events will be published again.",
  ["engine.go Stage.collectEvents","domain.go BaseEntity.AddEvent","domain.go BaseEntity.GetEvents"])

p("C73","The total of an order aggregate is its items less its coupons",
  "After NewOrder, and after every sequence of AddSaleItem, DeleteSaleItem, AddCoupon, DeleteCoupon and Update calls that all reported success, the order's TotalAmount is the sum of price times count of its items less the discounts of its coupons (in int64 arithmetic, exact if the sum fits), the items and coupons are those added and not removed, and every change of the total or the remark is marked Dirty.",
  "every order, every rule engine, every list of items and coupons, every sequence of operations, every price and count",
  "Holds for all sequences and amounts including wrap-around; a test tries a few.",
  ["example/biz/sale/domain/order.go Order.calPrice","example/biz/sale/domain/order.go Order.AddSaleItem","example/biz/sale/domain/order.go NewOrder"])
p("C74","The stored total of an order is the amount of its stored items and coupons",
  "After any history of requests to the example service, the total stored for an order is the sum of its stored items less its stored coupons.",
  "every history of create, add item, add coupon, update and delete requests, successful or not, every rule engine",
  "Depends on the whole history of an order; a test of one command sees a right total.",
  ["example/biz/sale/application/command/add_saleitem.go AddSaleItemCommand.Main","example/biz/sale/application/command/add_coupon.go AddCouponCommand.Main","example/biz/sale/domain/order.go Order.calPrice"])
p("C75","GetOrder shows the order with its items and coupons",
  "After any history the stored item and coupon rows of an order are exactly the items and coupons of the successful requests for it, and GetOrder shows the order's user and total, its items and its coupons with their ids; an order that is not stored is not shown.",
  "every history of requests with distinct generated ids, every order",
  "A wrong filter of the query shows only when ids of different tables are compared over all histories.",
  ["example/biz/sale/application/query/order.go GetOrder","example/biz/sale/infrastructure/dal/order.go DAL.GetOrderSaleItems","example/biz/sale/application/query/pack/saleitem.go MakeCoupon"])
p("C76","Deleting an order removes it and what belongs to it",
  "After a successful delete request the order is not shown and cannot be changed, none of its items and coupons remain stored, other orders are untouched, and deleting an order that does not exist is reported.",
  "every state of the tables, every history before and after",
  "Leftover rows are invisible through the API and accumulate over the history.",
  ["example/biz/sale/application/command/remove_order.go DeleteOrderCommand.Main","engine.go Repository.Remove"])
p("C77","Each event of the sale domain reaches the handler of its own kind",
  "An event raised by a request reaches the handler registered for its kind, with its contents, and no other; events of different kinds have different types; all events of an order have the order as sender.",
  "every request, every event it raises",
  "Handlers are chosen by type strings at run time; a test of one event kind does not see that another one arrives.",
  ["example/common/domain_event/sale/order.go GetType","example/event_handler/init.go Register"])
p("C78","An order keeps its user and the remark it was last given",
  "After any history the stored user of an order is the one it was created for and its stored remark is the one last set by a successful update - also the empty one - or \"-\" if none was.",
  "every history of requests, every remark",
  "The converter treats insert and update differently; only histories mixing both show which value stays.",
  ["example/biz/sale/infrastructure/init.go Init","example/biz/sale/domain/order.go Order.Update"])
p("C79","The order list shows the matching orders, page by page",
  "GetOrderList shows exactly the orders of the given user created between the given times, and pages taken one after the other show each of them once.",
  "every content of the tables, every search, every order in which the server returns rows",
  "Without ORDER BY the row order is the server's choice; a test sees one choice.",
  ["example/biz/sale/infrastructure/dal/order.go DAL.GetOrderList","example/handler/order.go SaleServiceImpl.GetOrderList"])

p("C80","An event published from inside an outer transaction is sent iff that transaction commits",
  "An application that calls DispatchBegin inside its own database transaction and then Commit or Rollback of the bus publishes its events only if the transaction was committed; and wherever it fails or its process dies, the next timeout check stores the events iff the transaction was committed - if the checker answers by the state of the transaction (unknown while it is open) and the answer to COMMIT arrives.",
  "every number of concurrent calls, every crash point and statement failure, every use of the bus by others, every truthful checker",
  "Crash points between two databases statements and the order of checks and calls cannot be enumerated.",
  ["example/example_outer/outer_usage.go Handle","eventbus/mysql/eventbus.go EventBus.DispatchBegin Commit Rollback handleTransactions checkTX"])
p("C81","The shipped outer-transaction example publishes iff its transaction commits",
  "With the checker and the Handle function of the example, the event is published iff the business transaction was committed, whatever fails.",
  "every crash point, every answer of the checker that looks at the database, every outcome of COMMIT",
  "A test runs one crash point at a time and cannot lose the answer of a COMMIT.",
  ["example/example_outer/outer_usage.go Init Handle","eventbus/mysql/eventbus.go EventBus.checkTX Commit Rollback"])

p("C82","Concurrent cleaning removes only finished deliveries",
  "Whatever publishers, handlers and cleaners of this and other services and instances do at the same time, and wherever any of them stops, a delivery record disappears only because a cleaner of its service removed it, after it was handled successfully and became older than the retention time.",
  "every interleaving of any number of cleaners, publishers, handlers, registrations and stops, every table content",
  "The interleavings of the cleaner's separate statements with everybody else's cannot be enumerated.",
  ["eventbus/mysql/eventbus.go EventBus.cleanEvents EventBus.Dispatch EventBus.handleEvent"])
p("C83","Concurrent cleaning never takes an event away from a service that still needs it",
  "At every moment every delivery record has its event row; an event row is removed only when no delivery record refers to it.",
  "every interleaving of any number of cleaners, publishers, handlers, registrations and stops, every table content",
  "The interleavings of the cleaner's separate statements with those of publishers cannot be enumerated.",
  ["eventbus/mysql/eventbus.go EventBus.cleanEvents EventBus.Dispatch EventBus.getScanEvents"])
p("C84","Cleaning leaves no event behind",
  "Once all services have handled and cleaned an event, its row is removed too: when no cleaner is under way, every stored event is referred to by a delivery record.",
  "every interleaving of any number of cleaners of several services and instances, every crash point of a cleaner",
  "Several cleaners can each leave the last step to the other; all interleavings and crash points must be considered.",
  ["eventbus/mysql/eventbus.go EventBus.cleanEvents","eventbus/mysql/eventbus.go EventBus.Dispatch"])

p("C85","Interleaved event transactions: nothing stored unasked, nothing lost",
 "With any number of publishers and timeout checkers working on event transactions at the same time, their statements interleaved in any way and any of them stopping anywhere: events are stored only for transactions for which Commit was called and are the events given to DispatchBegin; a transaction row that is gone was rolled back on request or its events were stored and delivery records made for every service registered at DispatchBegin; a Commit that returned nil means that the events were stored; the event table holds for each transaction only complete copies of its events; every delivery record made is for such a complete copy.",
 "all interleavings of the statements of any number of publishers, checkers, ordinary dispatches, registrations and (for the first three) removals; all points at which each may stop; all events, services, timeouts and checker answers",
 "a unit test runs one schedule; the claim is about all interleavings and all stopping points",
 ["eventbus/mysql/eventbus.go: DispatchBegin, Commit, Rollback, Dispatch, handleTransactions, checkTX"])
p("C86","An event transaction's events are stored exactly once",
 "However publishers and timeout checkers interleave, the events of a committed event transaction are stored once, and those of a rolled back one never. (Proved: at most one copy per call of Commit, none without a call of Commit, no further copy once the row is gone and nobody is at work on it. Refuted: a publisher and a checker that commit at the same time both store the events; a Rollback that returns nil after the checker committed.)",
 "all interleavings of the statements of any number of publishers and checkers",
 "the race needs a particular interleaving of statements of two processes; a bound on the number of copies needs all of them",
 ["eventbus/mysql/eventbus.go: Commit, Rollback, handleTransactions, checkTX"])
p("C87","Concurrent runs that lock what they touch behave as if one after the other",
 "Any number of runs at the same time, their Init calls, lock calls, queries, statements, commits and unlocks interleaved in any way, any of them failing or dying anywhere, under read committed or repeatable read: if each run takes lock keys that cover the rows it reads and writes inside the transaction, the database at every moment is the result of executing the finished transactions alone, one after the other in the order in which they ended, each with the same result and output as it had; every run is there at most once, and runs that are not there have changed nothing.",
 "all sets of commands (any adaptive sequence of queries and writes), all key covers, all initial databases, all interleavings, failures and deaths, both isolation levels",
 "serializability is a statement about all interleavings of all commands; a test exercises a few",
 ["engine.go: runCommand, Run, runOnLock, runWithTransaction, Save","executor/mysql/executor.go: Begin, Commit, RollBack"])
p("C88","No update is lost",
 "What a run computes its writes from is still what is in the database when it commits. (Proved: with keys as in C87 and an Init that reads only rows that no run writes, the runs are serial with every Init answered at its place. Refuted: two runs without a common key lose an update; and with a common key, a command that writes what its Init read loses an update, since Init runs before the locks are taken.)",
 "all sets of commands, initial databases and interleavings",
 "lost updates need a particular interleaving; their absence is a claim about all",
 ["engine.go: runCommand (Init before Lock), Run, runOnLock, runWithTransaction"])
p("C89","Start runs one background loop that goes on until its context is cancelled",
 "After Start a MySQL bus (likewise a timer) runs one loop: nothing before Start, a second Start does nothing, at most one round at a time; every round checks the timed-out transactions and then, if a handler is registered, polls for events; errors of either part and panics of event handlers do not stop it: the next tick begins the next round. It stops when the context given to Start is cancelled. (The last is refuted: the context is not looked at. A panic of the registered transaction checker, or of a timer handler, ends the process: refuted as well.)",
 "all sequences of ticks, results, panics, Start calls, cancellations, cleanings",
 "a test sees a few rounds; the claim is about every sequence of results",
 ["eventbus/mysql/eventbus.go: Start, handleEvents, handleTransactions","d_timer/sql/timer.go: Start, handleJobs"])
p("C90","A running bus is registered as a receiver",
 "Every event dispatched by anybody after a bus of a service was created gets a delivery record for that service. (Proved if the registration at creation succeeded. Refuted otherwise: NewEventBus throws the error away, and the loop registers again only on an error that nothing returns, so the service is never registered and silently receives nothing.)",
 "all sequences of rounds with any results, dispatches and creations of other buses",
 "the absence of a later registration is a claim about all continuations",
 ["eventbus/mysql/eventbus.go: NewEventBus, initService, Start, ErrServiceNotCreate, listService, Dispatch"])
p("C91","The HTTP front answers what happened",
  "A request to the example's HTTP front that is answered 200 was carried out exactly as asked (the rows written are those of the request, the reads change nothing and show what is in the tables); any other answer means that nothing was stored; an unknown action is answered 404 and an undecodable body 400, and neither runs anything; every request gets an answer.",
  "every sequence of requests (actions, bodies, decoders of bodies, generated ids, coupon rules) and every failure of the database during each of them",
  "the claim is about every mixture of bodies and failures, including a COMMIT whose answer is lost and null pointers inside a body; tests send a few well-formed bodies to a working database",
  ["example/handler/util/http.go:Handler", "example/handler/order.go:SaleServiceImpl", "example/handler/request.go", "engine.go:runWithTransaction"])
p("C92","An acknowledged order stays and requests touch only the order they name",
  "After CreateOrder was answered with an id, GetOrder of that id shows that order and its user until somebody deletes it, whatever other requests come in between; two creations are never answered with the same id; a request changes no row of an order it does not name; a client may repeat a creation that was answered 500.",
  "every sequence of requests and failures, every order",
  "needs all interleavings of requests for all orders and every point of failure",
  ["example/handler/order.go:CreateOrder", "example/biz/sale/application/command/create_order.go", "example/handler/util/http.go:Handler"])
p("C93","The shipped program creates the tables it uses",
  "Started on a database without tables, the example program creates every table its requests use, so that a well-formed CreateOrder is answered with the id of a stored order.",
  "every sequence of requests, every content of the order tables, every other failure of the surroundings",
  "must hold for every sequence of requests; the tests create the tables themselves",
  ["example/main.go:initPO", "example/main.go:main", "eventbus/mysql/eventbus.go:Dispatch", "lock/db/sql.go:lock"])
p("C94","A failed creation can be repeated with the same objects",
  "If a command that adds new aggregates failed in any way and is run again with the same objects and reports success, then every entity of those aggregates was inserted by the second run, nothing else was written, ids given to objects by the failed run are the ids they are stored with, and the events published are those raised before the runs or by the second one.",
  "every object graph, every way and point of failure of the first run, every lock keys and options of the two runs",
  "the failed run may stop after any external call, and what it left in the objects decides what the second run does",
  ["engine.go:Engine.Create", "engine.go:Stage.Save", "engine.go:Stage.persist", "engine.go:Stage.putNewID", "engine.go:Stage.collectEvents"])

p("C95","With the shipped locks, runs that lock what they touch lose no update however long they take",
  "If every run takes the keys of the rows it reads and writes, with the database lock or the Redis lock of this repository, then the committed database is the result of the finished runs one after the other, whatever time each run takes and whichever lock calls fail, take effect without an answer, or are never made because the process died; and a key whose owner died becomes free after the ttl.",
  "every ttl, every set of runs, initial rows and leases, every interleaving of steps, passing time, failures and deaths",
  "a lock is a lease that is not renewed by the engine: whether two runs overlap depends on the time each of them takes",
  ["engine.go:Engine.Run", "lock/db/sql.go:DBLock.Lock", "lock/db/sql.go:DBLock.UnLock", "lock/db/sql.go:DBLock.Run", "lock/redis/redis.go:RedisLock.Lock", "lock/redis/redis.go:RedisLock.UnLock"])

p("C96", "An event's handlers take effect exactly once in their data",
  "When the delivery of an event to a service is recorded as successful, every handler the service registered for the event's type has taken effect in its data exactly once; an event that is given up has left no effect.",
  "every number of processes and polls, every schedule, crash point, failure of handlers and every list of handlers", "needs all interleavings, crashes between the handler's commit and the bus's, and all combinations of failing handlers",
  ["eventbus/mysql/eventbus.go:EventBus.handleEvent", "event.go:onEvent", "engine.go:Engine.RegisterEventHandler", "engine.go:Stage.Save"])
p("C97", "A run's transactional events are sent if and only if its data is committed",
  "With the MySQL event bus and a transaction checker, the events a run sends with type transaction reach every registered service if and only if the data transaction of the run is committed: also if the process dies anywhere, if the answer to the COMMIT is lost, if Commit of the bus fails half way, and while timeout checks run concurrently.",
  "every number of runs, checkers and services, every schedule of their statements, every crash point, every outcome of a commit without answer, every answer of the registered checker that is true at some time since the check began", "needs all interleavings of runs, checkers and crashes, and commits that turn out later",
  ["engine.go:runWithTransaction", "engine.go:Stage.dispatchEvents", "eventbus/mysql/eventbus.go:EventBus.DispatchBegin", "eventbus/mysql/eventbus.go:EventBus.Commit", "eventbus/mysql/eventbus.go:EventBus.Rollback", "eventbus/mysql/eventbus.go:EventBus.handleTransactions"])
p("C98", "The steps of a command run in order and the first error ends it",
  "Running a command (Init, Build, Act) calls Init first; if Init fails nothing else happens: no lock, no transaction, no call. Otherwise Build runs under the locks on a fresh stage; if it fails, that error (or Break) is the result and Act is not called. If a root returned by Build has no id the run fails and Act is not called. Otherwise Act starts with exactly the roots Build returned as the aggregates, and its error is the result. A command that only loads and looks writes nothing, calls no hook and sends no event.",
  "every Init, Build and Act (any program over the API), every state of the entities, every answer of the surroundings", "needs every program over the API, every entity graph and every failure of the surroundings",
  ["engine.go:Stage.runCommand", "engine.go:Stage.flush", "command.go:ICommand"])
p("C99", "Loading an aggregate does not change what is saved for the others",
  "repo.Get or repo.CustomGet that returns nil makes exactly the named aggregates part of the run, known as they were loaded; what the run already knows and what it will save for other aggregates stays the same. A load that fails leaves the run as it was.",
  "every state of the run, every entity graph, every set of roots, every effect of query and getter, every converter", "needs every graph with unsaved changes at the moment of the load",
  ["engine.go:Repository.Get", "engine.go:Repository.CustomGet", "engine.go:Stage.updateSnapshot"])
p("C100", "On the MySQL executor a run is all or nothing among any other users of the databases",
  "With transactions on and a MySQL executor on a database, whatever others do meanwhile - other runs on the same executor or on executors with the same key, in nested or separate contexts, on any databases, beginning, executing, committing and rolling back as they like, as long as they do not use the run's own context: at every moment none of the run's statements has taken effect in any database, or all those that were accepted have, in the executor's database and nowhere else. When a run that reports success has made its last call they all have; a run that reports an error or Break, or dies before it calls Commit, leaves none - unless it reports an error because the answer of a COMMIT that took effect was lost.",
  "every run (behaviour, entities, options, answers of the surroundings), every split of its Execs into statements, every history of other calls mixed with its calls, every point of that history", "needs every interleaving of the statements of several runs and every point in between",
  ["engine.go:runWithTransaction", "engine.go:Stage.Run", "executor/mysql/executor.go:Executor.Begin", "executor/mysql/executor.go:Executor.Commit", "executor/mysql/executor.go:Executor.RollBack", "executor/mysql/executor.go:Executor.Exec"])
p("C101", "The event transaction of a context belongs to the DispatchBegin that returned it",
  "Commit (Rollback) with a context that DispatchBegin returned - or with one made from it by DispatchBegin of other buses, or by one of the same bus that failed - is about exactly the events of that DispatchBegin, in the database of its bus: when Commit returns nil they are stored, once, with deliveries for every registered service, no other transaction's events are stored by it and no other database is touched, whatever other buses, databases, nested transactions, failed statements, polls and timeout checks there are. After a Rollback that returned nil before anything was stored, nothing of the transaction is ever stored unless somebody commits such a context again. With a context in which no DispatchBegin of the bus succeeded, Commit and Rollback return an error and do nothing. Buses made in different seconds do not see each other's transactions.",
  "every history of calls over any number of buses, databases and contexts, and every outcome of their statements", "all histories of calls and nestings of contexts",
  ["eventbus/mysql/eventbus.go:EventBus.ctxWithTX", "eventbus/mysql/eventbus.go:EventBus.getTX", "eventbus/mysql/eventbus.go:NewEventBus", "eventbus/mysql/eventbus.go:EventBus.Dispatch", "eventbus/mysql/eventbus.go:EventBus.DispatchBegin", "eventbus/mysql/eventbus.go:EventBus.Commit", "eventbus/mysql/eventbus.go:EventBus.Rollback"])
p("C102", "The lock keys a run is given may be shared with other runs",
  "Each run locks exactly the keys it was given, each once, in ascending order, or - when a key is repeated - reports that and locks nothing, also when the same slice of keys is given to several runs at a time; the caller's slice is left as it was; two runs given the same slice are never in progress at the same time and do not deadlock.",
  "every slice of keys, any number of runs given the same slice, every interleaving of their accesses to it and of their lock calls, lock calls that fail", "needs every interleaving of reads and writes of the slice",
  ["engine.go:Stage.Lock", "engine.go:Stage.runOnLock", "engine.go:Stage.runCommand"])
p("C103", "A stage can be saved again",
  "A Stage may be saved more than once: every Save is a run of its own, all or nothing, which writes and reports what changed since the last one, publishes its own events, ends only its own transactions, and fails only if something fails during it; the result of an earlier Save stays as it was returned.",
  "every sequence of Saves of one stage with any keys, any main functions, any changes to the entities between them, any answers of the database, locks and event bus, any crash point", "needs histories of several Saves with a failure in any of them; tests save a stage once",
  ["engine.go:Engine.NewStage", "engine.go:Stage.Main", "engine.go:Stage.Save", "engine.go:Stage.do", "engine.go:Stage.runWithTransaction"])
out = os.path.join(os.path.dirname(os.path.abspath(__file__)), "..", "properties.jsonl")
with open(out, "w") as f:
    for x in P: f.write(json.dumps(x, ensure_ascii=False) + "\n")
print(len(P))
