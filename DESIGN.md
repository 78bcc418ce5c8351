# Formal model of quick-cache in Rocq (Coq 8.16.1)

The properties are in `properties.jsonl` (C01 to C62). `MANIFEST.json` maps each to its theorems.
Sources are in `rocq/theories`. Build: `cd rocq && coq_makefile -f _CoqProject -o Makefile && make -j4`.

## 1. What a reader has to read

To believe a theorem, read the model, the specification vocabulary, and the statement. Nothing else.

| to read | contents |
|---|---|
| **Model** | |
| Base.v | results with explicit failure kinds (panic, UB, slab full, weight overflow, out of fuel) |
| Slab.v | `LinkedSlab` (linked_slab.rs), function by function |
| Table.v | everything the cache is generic over; the interface of `hashbrown::HashTable` |
| Shard.v | `CacheShard` (shard.rs), function by function |
| Unsync.v | `unsync::Cache`, its `Guard` and `RefMut`: one command per API call |
| Options.v | `OptionsBuilder`, `Options`, both `with_options`, `CacheShard::new`, the choice of a shard; f64 arithmetic is IEEE binary64 |
| Sync.v | `sync::Cache`, used by one thread at a time |
| Conc.v | `sync::Cache` and the placeholder protocol, used by any number of threads and futures at the same time |
| Watch.v | the calls of the sync cache that look at every shard in turn, interleaved with an execution of Conc.v |
| Crash.v | the functions of Shard.v and Unsync.v again, with every call of user code marked by the state a panic there leaves |
| Validate.v | the self-check `validate` of slab and shard |
| **Specification** | |
| Spec.v, ApiSpec.v, PropSpec.v | contents as a list of pairs, what each call may return and do to them, histories |
| SyncSpec.v | one shard of the sync cache: items, pending loads, what each critical section may do |
| ConcSpec.v, ConcPropSpec.v | executions, what a call may have done when it returns, who is in charge of a load, who waits |
| Mention.v | which keys a call offers to the cache, which calls empty it |
| Anew.v | a hash table whose order depends on nothing but the buckets it holds |
| Scan.v | building a working set, and a scan |
| Policy.v | the replacement policy, as a machine on lists |
| WatchSpec.v | which lookups are hits and misses, what a call contributes to the statistics |
| SyncCrash.v | the calls of the sync cache, one at a time, with every call of user code marked in the same way, and the locks of rw_lock.rs: which of them a panic poisons |
| SyncCrashSpec.v | which panics poison a lock, histories with panics, values left behind |
| CrashSpec.v | where a panic is harmless, what it may leave cached, what a broken cache is |
| **Statements** | |
| PropsSeqA.v, PropsSeqB.v | C01 to C26, C42 |
| PropsOptions.v | C27, C28, C30, C31 |
| PropsSync.v | C29 |
| PropsConcA.v, PropsConcB.v | C32 to C41 |
| PropsBuild.v, PropsBuildConc.v | C43, C44; the latter for threads and futures |
| PropsCrash.v | C45 |
| PropsSyncCrash.v | C54: panics in user code in the sync cache |
| PropsMention.v | C15 for keys that are new to the cache |
| PropsAnew.v | C19: a cleared cache answers like a new one |
| PropsScan.v | C48: a scan does not push out the working set |
| PolicyKeys.v, PolicyDet.v | the keys a history may store or remove; the machine is deterministic when they do not collide (C49, C61) |
| PropsPolicy.v | C49: the replacement policy is that of the machine on lists |
| PolicyShared.v | specification for C50: the same machine, shared by threads and futures |
| PropsShared.v | C50: the replacement policy of each shard in concurrent use |
| LoadSpec.v | vocabulary of C51: what the closures compute, what a call answers |
| PropsLoad.v | C51: get_or_insert_with and its async form in concurrent use |
| DefaultLife.v | the default lifecycles; what goes into and comes out of a shard |
| PropsDefault.v | C52: the default lifecycle, and where items go |
| Clone.v | `Clone` for the unsync cache: slots, slab, shard; caches obtained by calls and clones |
| PropsClone.v | C53: cloning a cache |
| Borrow.v | calls with a borrowed form of a key, of both caches, used by one thread at a time |
| BorrowSpec.v | forms that agree with the keys, what a call with a form does |
| PropsBorrow.v | C55: borrowed keys |
| Leak.v, LeakSpec.v | calls of the unsync cache whose `RefMut` is forgotten or whose draining iterator is not finished |
| PropsLeak.v | C56: forgotten references, unfinished iterators |
| ConcPanic.v | panics in user code in the steps of Conc.v: what unwinding leaves of the shard, the load and the agent |
| ConcPanicSpec.v | executions with panics, what a panic may do, poisoned locks in concurrent use |
| PropsConcPanic.v | C57: panics in user code in concurrent use |
| Work.v | the calls of user code of an API call that does not panic, and how many of them are for items an eviction looks at |
| PropsWork.v | C58: the work of evictions |
| ConcWork.v | the calls of user code in the critical sections of an execution, and how often calls use a shard |
| PropsConcWork.v | C59: the work of evictions in concurrent use |
| MapSpec.v, MapProofs.v | a plain map, what it means that everything stored has room, and the refinement (C60) |
| PropsMap.v | C60: a cache that is large enough is a map |
| Rehash.v, RehashProofs.v, DemoHash.v | the same cache with another hasher and table, the translation of calls and results, and the simulation (C61) |
| PropsHash.v | C61: the hasher does not matter |
| Listen.v, ListenProofs.v | the same cache with another lifecycle that puts the same values, the translation, and the simulation (C62) |
| ListenState.v | every function that passes a request state along gives the same cache and log for all request states, if before_evict puts the same values for all of them (C62_states) |
| ListenConcSpec.v, ListenConc.v | the same schedule with other request states; the simulation of Conc.v (C62_states_concurrent) |
| PropsListenConc.v | C62 for threads and tasks |
| SyncCount.v, SyncStats.v | C26 for the sync cache: specification of what a call counts, and its proof |
| PropsSyncStats.v | C26 for the sync cache used by one thread at a time |
| PropsListen.v | C62: an eviction listener only listens |
| PropsWatch.v | C46 |
| PropsValidate.v | C47 |

The statement files hold nothing but theorems. Beneath each is `Print Assumptions`, and beside each group an
`Example` in which a concrete case meets the hypotheses. All other files are proofs.

## 2. Trusted base

* Coq's kernel (8.16.1), including `vm_compute` for the concrete witnesses.
* std++ and Flocq are used as libraries; they add no axioms to the theorems below.
* `Print Assumptions` says "Closed under the global context" for every theorem of PropsSeqA.v, PropsSeqB.v, PropsConcA.v,
  PropsConcB.v, PropsBuild.v, PropsBuildConc.v, PropsCrash.v, PropsSyncCrash.v, PropsWatch.v, PropsMention.v, PropsAnew.v, PropsScan.v, PropsPolicy.v, PropsShared.v, PropsLoad.v, PropsDefault.v, PropsClone.v, PropsBorrow.v, PropsLeak.v, PropsConcPanic.v, PropsWork.v, PropsConcWork.v, PropsMap.v, PropsHash.v, PropsListen.v, PropsListenConc.v, PropsSyncStats.v and PropsValidate.v, and for all but one of PropsSync.v. The theorems of PropsOptions.v and `C29_constructed` speak about
  options, hence about f64 and the real numbers of the standard library. For them it lists
  `ClassicalDedekindReals.sig_forall_dec`, `FunctionalExtensionality.functional_extensionality_dep` and (all but one of them)
  `ClassicalDedekindReals.sig_not_dec`, `Classical_Prop.classic`.
  A tool that lists every constant without a body reached from the libraries also finds the opaque
  module fields of the standard library: `Coq.Reals.Rdefinitions.RbaseSymbolsImpl.*`,
  `Coq.Reals.Rdefinitions.RinvImpl.*`, `Coq.ssr.ssrunder.Under_rel.*`. They are all in Coq's standard library.
* No axioms, no functors, no module types, no admitted proofs of our own.
* That the model says what the code says. Each definition cites the lines it models.

## 3. How the code is modelled

* A `&mut self` method is a function that returns the new state. Panics, `unreachable!`, failing `debug_assert`s,
  indexing out of bounds and arithmetic underflow are `Fail Panic`; `unreachable_unchecked` and
  `assume_init` on a wrong value are `Fail UB`; the two documented aborts are `Fail SlabFull`
  (2^32 - 2 slots) and `Fail WeightOvf` (64-bit weights). The model takes the build as a parameter (`Build`, in
  Base.v): without debug assertions `assert` does nothing and arithmetic wraps around. Statements that do not name
  a build are about the debug build; C43 carries them over to the release build. Where the two take different locks
  (the assertion in `start_loading`) the concurrent model has both, selected by `dbg`.
* Loops carry fuel computed from the slab. Running out is `Fail NoFuel`. C12 proves that it never happens.
* User code (`Hash`, `Eq`, `Weighter`, `Lifecycle`, closures) enters as arbitrary pure functions in the record
  `Params`. `Lawful` asks that `Eq` is an equivalence, that equal keys hash alike, and that the hash table probes every
  bucket with the hash it looks for, and only buckets that exist.
  `Lifecycle::RequestState` is any type, threaded through the hooks; a log records the calls of the hooks.
* The hash table is a multiset of (hash, token) buckets. Which of several matching buckets is found, and in what order
  buckets are visited, is an arbitrary oracle that may depend on the history.
* Tokens (`NonZeroU32`) are zero-based. Identities of placeholders (`Arc::ptr_eq`) are numbers that are never used
  twice; `ptr_ids P = true` selects the sync cache, `false` the unsync cache, whose placeholders are all "the same".
* Concurrency: an agent is one API call, and lives on as the guard it returned. Each lock is taken in a step of its
  own. The lookup, the counter and the statistics of `get` are three steps under the read lock, so that gets
  race. Notification sets the flag, then unparks; `park` may wake up spuriously; time passes at any moment; a future may be
  polled with any waker, or dropped, at any moment. There is no bound on agents, shards, keys, or steps, and no fairness.

### Parts that are modelled

All of linked_slab.rs, shard.rs (except those below), unsync.rs, options.rs, sync.rs, sync_placeholder.rs: the functions a
user can reach through the public API and everything they call.

### Parts that are not

* `Debug` impls, `shim.rs`. The locks of `rw_lock.rs` are taken to be correct reader-writer locks, without upgrade; fairness is
  not modelled. Poisoning is modelled in SyncCrash.v, for calls one at a time, and in ConcPanicSpec.v, for shards, as far as
  the refuted claim of C57 needs it.
* Allocation and capacities of vectors. `reserve` only rehashes the table in the model.
* Memory orderings: atomics are sequentially consistent. The only atomics are the hotness counter, the statistics, and the notification
  flag of a parked thread.
* The `unsafe` lifetime extensions (unsync.rs:301, shard.rs:1083) and `MaybeUninit` are modelled by what they compute.
* Panics in user code (hooks, closures, `Eq`, `Hash`, and in the sync cache `Clone`) are modelled for the unsync cache (Crash.v)
  and for the sync cache used by one thread at a time, with the locks of `parking_lot` and of `std` (SyncCrash.v), and in
  concurrent use with the locks of `parking_lot` (ConcPanic.v; a loader that panics drops its guard, which is a drop like any other).
  Panics in the wakers of futures are not modelled. A panic during the unwinding of a
  panic aborts the process; such points are left out of the trace.
* Iterators that are held across calls cannot exist (they borrow the cache). A forgotten `RefMut` and an unfinished or forgotten
  `drain` are in Leak.v; a forgotten or dropped guard is in the main model.
* `Drop` of keys and values, allocation failure, 32-bit `usize`, NaN payloads.
* Borrowed forms of keys are modelled for calls one at a time (Borrow.v). In the concurrent and crash models a `&Q` is taken to hash and
  compare like the key (the `Equivalent` contract).
* In the concurrent model the lifecycle hooks, which run inside the critical sections, are not steps of their own. The statistics counters are unbounded numbers; those of the code wrap around at 2^64.

## 4. Per property

| id | about | proof |
|---|---|---|
| C01 to C03 | Unsync.v: the weight stays within the capacity; what `get_mut` may add; what brings it back | exit condition of the eviction loop, invariant, induction over histories |
| C04, C07, C21 | exact `len` and `weight`, unique keys, bounded ghosts | invariant of every reachable state |
| C05, C06 | a hit is the last write; no resurrection | every cached pair stems from the last effect on its key |
| C08 to C10, C13 to C15 | conservation through the hooks, pinned items, oversized items | every request is a replay of its hook log on the contents; for C15 also: the table holds only hashes of keys offered since the last clear (MentionProofs.v) |
| C11, C12 | no panic, no UB; termination | weakest preconditions that admit only the documented failures; fuel is enough |
| C16 to C20, C23 to C26 | replace, remove, retain, clear, drain, iter, statistics, loads | functional specification of each call; for C19 also: shifting statistics, table age and load identities commutes with every function (AnewProofs.v, AnewSync.v) |
| C22 | bounded storage | high-water mark; refuted for abandoned loads |
| C27, C28, C30, C31 | options, shard arithmetic, hot and ghost budgets | arithmetic on N and on IEEE binary64 (Flocq) |
| C29 | the sync cache, sequentially | product of shards, each a refinement of the specification |
| C32 to C36, C38 | guards, waiters, hand-offs, timeouts, cancelled futures | inductive invariant over all interleavings (Proto.v, ConcInv.v), then every event of the log is proper when it happens (ConcProper.v) |
| C37 | no deadlock | lock order; a measure that every step decreases (ConcLive.v) |
| C39 | linearizability | every step does nothing to a shard, or the one section it logs (ConcExact.v) |
| C40 | hotness counters | executions in which the counters change by themselves (ConcWild.v) |
| C41 | timeouts | clock in the model; invariant on start, timeout and deadline |
| C42 | begin_request and end_request | log of the hooks |
| C43 | debug and release builds | relational proof over every function: the release build follows the debug build until an assertion or overflow check fails; with C11 none does; BuildsConc.v: the same for the steps of Conc.v, which is written for both builds |
| C44 | no UB with lawless user code | every function on every state: each `unreachable_unchecked` is guarded by a lookup that just succeeded; BuildsConc.v: with threads and futures, the read lock keeps what a get found where it is, an invariant that needs no law |
| C45 | panics in user code | trace of the states at the calls of user code; erasing it gives back the model (CrashErase.v); the invariant holds at the harmless points (CrashProofs.v), a computed witness for each other one (CrashWit.v) |
| C46 | statistics and observers in concurrent use | every step counts what the section it completes found (ConcStats.v); counters only grow, so a total read shard by shard is bracketed (WatchProofs.v) |
| C47 | `validate` | follows from the representation invariant (ValidateProofs.v) |
| C48 | scan resistance | while the working set is built everything is hot; in the scan every cold item is new, unread and not pinned, so the eviction loop never reaches the hot ring (ScanProofs.v) |
| C49 | the replacement policy | a refinement: a relation between a shard and a state of the machine of Policy.v (each list of the machine is the ring of tokens read from its head), kept by the hands (PolicyProofs.v), by the pieces of the calls (PolicyOps.v) and by every call (PolicyStep.v); the machine is deterministic when the keys the history may store or remove (PolicyKeys.v) do not collide (PolicyDet.v) |
| C50 | the replacement policy in concurrent use | the relation of C49 between each shard and the machine of PolicyShared.v, kept by every step of every agent; the uses still to be counted are those of the agents that are between finding the item and counting; who waited is read off the log (PolicyConc.v) |
| C51 | get_or_insert_with in concurrent use | executions of Conc.v in which guards are used as sync.rs:373-433 does; from the life of each call (C33, C34) and an invariant that tells who gave up and why (ConcLoad.v) |
| C52 | the default lifecycle, and where items go | the default lifecycles as instances of the parameters; threading of the request state (C42); accounts of items by induction over the execution, each section as specified (C39) |
| C54 | panics in user code in the sync cache | as C45, shard by shard; the trace of a call is that of its locked sections, with the guard's drop run during unwinding; invariant: every shard whose lock is not poisoned satisfies the representation invariant and its pending loads are exactly values left behind (SyncCrashCalls.v, SyncCrashCache.v) |
| C53 | cloning a cache | the clone preserves the representation invariant, so calls on it meet the same specification; an exact clone differs from the original in no place a call looks at (the shift of C19) |
| C55 | borrowed keys | each function on a form is the function on an equivalent key, because every search compares with the form where the other compares with the key; a form without such a key finds nothing (BorrowProofs.v) |
| C56 | forgotten references | the write alone keeps the keys and the table, so lookups see it; `drain` empties the shard before it returns; the safety lemmas of C44 need no invariant (LeakProofs.v) |
| C57 | panics in concurrent use | the invariants of Conc.v are stated relative to what is known of the past (class Ledger in ConcInv.v): everything for C32 to C41, nothing for C57 but who ended in a panic; a harmless panic keeps them (ConcPanicProofs.v, cinv_torn, from the lemmas of C45 and C54 about one shard), and so does every step; the effect of one step is the same invariant with the log of one section |
| C58 | the work of evictions | amortized, on the traced program of Crash.v: the potential of a cached item that weighs something is its remembered uses (at most 2, and one more if it is cold and has more) plus the cost of evicting it; an item a hand looks at loses one use or its place, so the potential pays for the look; a call adds the potential of at most two items (WorkProofs.v). The converse for pinned items: a hand that gives up has been around its whole list (WorkLow.v), and by induction n inserts of pinned items cost about n²/2 looks (WorkPins.v) |
| C59 | the work of evictions in concurrent use | the potential of C58, summed over the shards, plus one for every reader that has found an item and not yet counted its use; every step of the concurrent model is shown to be paid for by the sections in the log. How often calls use a shard: a rank of program counters that every section lowers |
| C60 | a cache that is large enough is a map | refinement: a deterministic reference map, written without capacities or evictions, run beside the specified calls (C14: what fits is stored and evicts nothing) by induction over histories; for shards in concurrent use, over the linearized sections of C39, with the invariant that a key with a pending load is not cached and has one load; the corollary for few keys by counting the distinct keys of the map |
| C61 | the hasher does not matter | simulation between two copies of the policy machine of C49 whose ghosts are the hashes of the same keys under the two hashers, rule by rule, with the invariant that items, ghosts and loads have keys named by the history; C49 for the first hasher (the cache runs on the machine) and for the second (the machine leaves no choice) then carry it over to the caches; a concrete pair of histories refutes the claim for colliding hashers |
| C62 | an eviction listener only listens | simulation between two copies of the policy machine of C49 whose hook logs are the same and whose request states are unrelated, rule by rule, then C49 for both lifecycles; needs that the keys stored or removed do not collide, because only then does the machine determine the cache. For one lifecycle and other request states, a simulation of the model itself, function by function, without that condition (C62_states, C62_states_sync for the sync cache, and a step-by-step simulation of the concurrent model for C62_states_concurrent) |

No property was found to be inexpressible.

## 5. Claims that are false of the code

Proved false by a computed witness; the theorem's name ends in `_refuted`, and the true variant is proved beside it.

* C15: an item that is admitted by `insert` may be evicted by the same call (not if its key is new
  to the cache).
* C16: the same for `replace` that returns `Ok`.
* C22: an abandoned load leaks its slab slot.
* C26: a load of a key whose earlier load was abandoned counts as a hit, with nothing cached.
* C26: a load in the sync cache counts two misses, as the key is looked up twice.
* C28: `capacity()` may be less than what was asked for, when rounding up overflows.
* C31: with a hot allocation of 1.0 and a large capacity the hot budget exceeds the capacity.
* C32: two guards of one key, after a `remove` in between.
* C40: the hotness counter exceeds its maximum of 2 under racing gets.
* C41: a waiter can oversleep: it parks for the elapsed time instead of the remaining time.
* C45: a panic in user code at one of 13 places, for instance `on_evict` of a hot item, leaves a wrong `len`, a wrong `weight`, or a
  cache on which later calls panic.
* C46: `is_empty()` of the sync cache can return true, and `len()` 0, although the cache was never empty during the call.
* C54: after `begin_request` panicked in a guard's `insert`, `get` misses the key and `get_value_or_guard` returns its value.
* C56: after a forgotten `RefMut` through which the weight was changed, `weight` is wrong and a later `remove` panics (debug) or wraps
  around (release).
* C57: with the locks of `std`, a panic in another call on the same shard leaves the waiters of a load waiting for ever: the drop of the
  guard panics at the poisoned lock before it notifies them.
* C58: with pinned items no constant bounds the average work of evictions (any c up to 2^30 is exceeded by 2c + 22 inserts of pinned items into a cache for 5).
* C48: a scan pushes out the working set if its inserts are too heavy, if its items are read, or if its keys come back.

## 6. Tests of the theorems

`seeded/LOG.jsonl` has one line for each wrong program that was tried: the definition that was changed, the change, the claim it
breaks, the theorems that failed, and those that were tightened because they did not.

How to read it. `theorems_failed` lists only the proofs that the build reported as failing, with each file stopping at its first
error. For 261 of the 281 edits these are supporting lemmas and no property theorem is among them: the theorems of
`modules_no_longer_built` rest on those lemmas and could not be checked, but it was not established for each of them that its
statement is false of the edited program. A broken lemma proof is weaker evidence than a false theorem, because a proof can also
break on an edit that leaves the claim true (ob12 is such a case). For 115 edits `violated_when_executed` names claims that were also
seen to be false by running the edited model on sample histories. Two edits (ob03, ob10) were noticed by no theorem at first; theorems
were added, and they fail on the same edits run again (ob13, ob16). Earlier versions of the log filled `theorems_failed` with all
theorems of the property named in the claim, which overstated what had been observed.
