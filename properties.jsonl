{"id": "C01", "title": "weight() never exceeds capacity() (no pinning)", "statement": "With a lifecycle that pins nothing, and as long as in-place mutations (get_mut/peek_mut/get_mut_or_*) never raise an item's weight, weight() <= capacity() after every API call, provided the hot budget computed at construction is at most the capacity.", "quantifier": "every key type with a lawful Eq/Hash, every hasher (all collisions), every weighter, every lifecycle, every capacity, every finite history of API calls", "why_tests_cant": "The bound is a global invariant of a weighted clock with promotions, self-eviction, ghosts, zero weights and placeholders; a test visits a handful of histories and weight profiles.", "anchors": ["/repo/src/shard.rs: CacheShard::insert, insert_existing, replace_placeholder, advance_cold, advance_hot", "/repo/src/unsync.rs: Cache::weight, Cache::capacity"]}
{"id": "C02", "title": "Unpinned weight never exceeds capacity (with pinning)", "statement": "With arbitrary pinning, the summed weight of the resident items that are not pinned is <= capacity() after every API call, provided in-place mutations neither raise a weight nor unpin an item.", "quantifier": "every key type with a lawful Eq/Hash, every hasher (all collisions), every weighter, every lifecycle, every capacity, every finite history of API calls", "why_tests_cant": "Depends on the interplay of pin checks in two rings over every possible ring content.", "anchors": ["/repo/src/shard.rs: CacheShard::validate (accept_overweight=false), advance_cold, advance_hot"]}
{"id": "C03", "title": "The next admitted insert repairs an overshoot", "statement": "From any reachable state, even one pushed over capacity by in-place mutation or unpinning, once insert/replace returns having admitted its value (it was not refused for exceeding the hot budget), either weight() <= capacity() or every resident with non-zero weight (other than the value just written, if it did not itself fit) is pinned.", "quantifier": "every key type with a lawful Eq/Hash, every hasher (all collisions), every weighter, every lifecycle, every capacity, every finite history of API calls, including histories that over-fill the cache in place", "why_tests_cant": "Must hold from every over-full state, which tests do not enumerate.", "anchors": ["/repo/src/shard.rs: CacheShard::insert, insert_existing"]}
{"id": "C04", "title": "len(), weight() and is_empty() are exact", "statement": "After every history len() equals the number of pairs iter() yields, weight() equals the sum of the weighter over iter(), and is_empty() holds iff iter() yields nothing.", "quantifier": "every key type with a lawful Eq/Hash, every hasher (all collisions), every weighter, every lifecycle, every capacity, every finite history of API calls", "why_tests_cant": "Counters are updated incrementally in a dozen places; a missed update on one rare branch drifts silently.", "anchors": ["/repo/src/shard.rs: len, weight, iter, remove_internal, advance_cold, advance_hot, insert_existing, cold_change_weight", "/repo/src/unsync.rs: is_empty"]}
{"id": "C05", "title": "A hit returns the last value written", "statement": "If get/peek/iter yields value v for key k, then v is the value most recently written for k (insert, replace, guard insert, get_or_insert, or in-place mutation), as changed only by Lifecycle::before_evict calls, and no remove/clear/drain/false retain for k happened since. With the default before_evict v is exactly the last value written.", "quantifier": "every key type with a lawful Eq/Hash, every hasher (all collisions), every weighter, every lifecycle, every capacity, every finite history of API calls", "why_tests_cant": "A stale or foreign value could surface through token reuse, hash collision or a stale guard, which depends on the whole history.", "anchors": ["/repo/src/shard.rs: search, search_resident, get, peek, insert, replace_placeholder", "/repo/src/linked_slab.rs: insert, remove"]}
{"id": "C06", "title": "No resurrection", "statement": "After remove(k), clear(), drain(), or retain whose predicate rejects k's entry, k is absent and stays absent through every call that does not write k.", "quantifier": "every key type with a lawful Eq/Hash, every hasher (all collisions), every weighter, every lifecycle, every capacity, every finite history of API calls", "why_tests_cant": "Quantifies over all later histories.", "anchors": ["/repo/src/shard.rs: remove, remove_internal, retain, drain, clear"]}
{"id": "C07", "title": "Keys are unique and lookups agree with iteration", "statement": "iter() never yields two equivalent keys; (k,v) is yielded by iter() iff peek(k) = Some(v); contains_key, get, peek and get_mut all agree on presence.", "quantifier": "every key type with a lawful Eq/Hash, every hasher (all collisions), every weighter, every lifecycle, every capacity, every finite history of API calls", "why_tests_cant": "Uniqueness must survive every collision pattern and every slot reuse.", "anchors": ["/repo/src/shard.rs: search, search_resident, contains, get, peek, iter"]}
{"id": "C08", "title": "Eviction listener is complete and exact", "statement": "In every insert/replace/guard-insert request the multiset (residents before + offered value) equals (residents after + values passed to on_evict + value handed back in Err), where values differ only by before_evict: nothing is lost silently, nothing is reported twice, nothing is reported that was not displaced.", "quantifier": "every key type with a lawful Eq/Hash, every hasher (all collisions), every weighter, every lifecycle, every capacity, every finite history of API calls", "why_tests_cant": "A conservation law over every branch of the eviction loops; a lost report is invisible to point tests.", "anchors": ["/repo/src/shard.rs: insert, insert_existing, advance_cold, advance_hot, handle_insert_overweight, replace_placeholder"]}
{"id": "C09", "title": "Pinned and weightless items are never evicted", "statement": "No eviction (an on_evict other than for the key being written) ever concerns an item that is_pinned says is pinned or whose weight was zero before before_evict ran; such items stay resident until overwritten or removed.", "quantifier": "every key type with a lawful Eq/Hash, every hasher (all collisions), every weighter, every lifecycle, every capacity, every finite history of API calls", "why_tests_cant": "Must hold on every sweep over every mix of pinned, zero-weight and referenced items.", "anchors": ["/repo/src/shard.rs: advance_cold, advance_hot, cold_change_weight", "/repo/src/lib.rs: Lifecycle::is_pinned, Weighter::weight"]}
{"id": "C10", "title": "before_evict can save an item by zeroing its weight", "statement": "Each eviction is preceded by exactly one before_evict call on that item; if the weight is zero afterwards the (mutated) item stays resident and on_evict is not called, otherwise on_evict is called with the mutated value.", "quantifier": "every key type with a lawful Eq/Hash, every hasher (all collisions), every weighter, every lifecycle, every capacity, every finite history of API calls", "why_tests_cant": "Ordering and exactly-once discipline across nested loops.", "anchors": ["/repo/src/shard.rs: advance_cold, advance_hot", "/repo/src/lib.rs: Lifecycle::before_evict"]}
{"id": "C11", "title": "No panic and no undefined behaviour", "statement": "No API history reaches an unwrap on None, unreachable!, out-of-bounds index, failing debug_assert, arithmetic underflow, division fault or unreachable_unchecked; the only aborts are the documented ones: more than u32::MAX-1 slab slots, and summed weights that do not fit u64 (with the precise arithmetic condition).", "quantifier": "every key type with a lawful Eq/Hash, every hasher (all collisions), every weighter, every lifecycle, every capacity, every finite history of API calls", "why_tests_cant": "Absence of a panic over all histories is a universal claim; fuzzing samples it.", "anchors": ["/repo/src/shard.rs: all functions", "/repo/src/linked_slab.rs: insert, link, unlink, remove"]}
{"id": "C12", "title": "Every call terminates, with linear eviction sweeps", "statement": "Every call returns after a number of loop iterations bounded by an explicit function of the number of slots, whatever is pinned or referenced.", "quantifier": "every key type with a lawful Eq/Hash, every hasher (all collisions), every weighter, every lifecycle, every capacity, every finite history of API calls", "why_tests_cant": "Non-termination needs an adversarial mix of pins and reference counts; a hang is not observed by finite tests that pass.", "anchors": ["/repo/src/shard.rs: advance_cold, advance_hot, insert loops"]}
{"id": "C13", "title": "Over-budget values are refused without disturbing other keys", "statement": "insert(k,v) with weight above the hot budget (after before_evict) and not pinned leaves k absent, reports the old value (if any) and v through on_evict, and leaves every other resident key with the same value.", "quantifier": "every key type with a lawful Eq/Hash, every hasher (all collisions), every weighter, every lifecycle, every capacity, every finite history of API calls", "why_tests_cant": "Frame condition over the whole cache.", "anchors": ["/repo/src/shard.rs: handle_insert_overweight, handle_overweight_replace_placeholder"]}
{"id": "C14", "title": "No premature eviction", "statement": "An insert/replace/guard-insert that fits (weight() minus the replaced item's weight plus the new weight <= capacity()) evicts nothing: every other resident key keeps its value and the new value is resident.", "quantifier": "every key type with a lawful Eq/Hash, every hasher (all collisions), every weighter, every lifecycle, every capacity, every finite history of API calls", "why_tests_cant": "Universally quantified frame condition.", "anchors": ["/repo/src/shard.rs: insert, insert_existing, replace_placeholder"]}
{"id": "C15", "title": "Insert outcome is visible", "statement": "After insert(k,v) (weight admissible), either peek(k) yields the written value (as changed by before_evict) or the value written was passed to on_evict in that very request; an insert of a key such that no call offered a key with the same hash since the cache was created or last emptied always ends resident, however full the cache is. (The stronger 'insert of an admissible value always ends resident' is false of the code.)", "quantifier": "every key type with a lawful Eq/Hash, every hasher (all collisions), every weighter, every lifecycle, every capacity, every finite history of API calls", "why_tests_cant": "Self-eviction happens only for particular ring states.", "anchors": ["/repo/src/shard.rs: insert, insert_existing, advance_hot"]}
{"id": "C16", "title": "replace never creates an entry", "statement": "replace(k,v,soft) returns Ok only if k was resident; Err hands back the key and the (possibly before_evict-mutated) value; after Err k is not resident; no other key appears.", "quantifier": "every key type with a lawful Eq/Hash, every hasher (all collisions), every weighter, every lifecycle, every capacity, every finite history of API calls", "why_tests_cant": "All states incl. placeholders and ghosts for k.", "anchors": ["/repo/src/shard.rs: insert, insert_existing (InsertStrategy::Replace)", "/repo/src/unsync.rs: replace", "/repo/src/sync.rs: replace"]}
{"id": "C17", "title": "remove is exact", "statement": "remove(k) returns exactly the stored pair if k is resident and None otherwise, removes only k, and changes no other resident pair, their order-independent multiset, capacity or pending events.", "quantifier": "every key type with a lawful Eq/Hash, every hasher (all collisions), every weighter, every lifecycle, every capacity, every finite history of API calls", "why_tests_cant": "Frame condition, incl. hash collisions with ghosts of other keys.", "anchors": ["/repo/src/shard.rs: remove, remove_internal, search"]}
{"id": "C18", "title": "retain is an exact filter", "statement": "After retain(f) the resident pairs are exactly those for which f held, and no lifecycle hook is called.", "quantifier": "every key type with a lawful Eq/Hash, every hasher (all collisions), every weighter, every lifecycle, every capacity, every finite history of API calls, every predicate", "why_tests_cant": "All contents and predicates.", "anchors": ["/repo/src/shard.rs: retain"]}
{"id": "C19", "title": "clear/drain empty the cache and yield each pair once", "statement": "drain() yields every resident pair exactly once; afterwards (also after clear, or a dropped drain iterator) the cache is empty with weight 0, same capacity, and behaves like a newly built one.", "quantifier": "every key type with a lawful Eq/Hash, every hasher (all collisions), every weighter, every lifecycle, every capacity, every finite history of API calls", "why_tests_cant": "Behavioural equivalence with a new cache ranges over all future histories.", "anchors": ["/repo/src/shard.rs: drain, clear", "/repo/src/linked_slab.rs: drain"]}
{"id": "C20", "title": "Reads do not change contents; peeks change nothing", "statement": "peek, contains_key, iter, len, weight, capacity leave the entire cache state unchanged; get/get_mut change no pair, only hotness (capped at 2) and counters.", "quantifier": "every key type with a lawful Eq/Hash, every hasher (all collisions), every weighter, every lifecycle, every capacity, every finite history of API calls", "why_tests_cant": "State equality for all states.", "anchors": ["/repo/src/shard.rs: peek, contains, get, get_mut"]}
{"id": "C21", "title": "Ghost (non-resident) tracking is bounded", "statement": "The number of tracked non-resident keys never exceeds the ghost capacity fixed at construction.", "quantifier": "every key type with a lawful Eq/Hash, every hasher (all collisions), every weighter, every lifecycle, every capacity, every finite history of API calls", "why_tests_cant": "Global invariant.", "anchors": ["/repo/src/shard.rs: advance_cold, advance_ghost, validate"]}
{"id": "C22", "title": "Memory stays bounded", "statement": "With unit weights and no pinning, and a history without guards/get_or_insert, the number of slots ever allocated is at most capacity + ghost capacity. (The same claim including abandoned guards or failing get_or_insert closures is false of the code: each abandoned placeholder permanently occupies a slot.)", "quantifier": "every key type with a lawful Eq/Hash, every hasher (all collisions), every weighter, every lifecycle, every capacity, every finite history of API calls", "why_tests_cant": "A leak only shows as growth over unbounded histories.", "anchors": ["/repo/src/shard.rs: remove_placeholder, upsert_placeholder", "/repo/src/linked_slab.rs: insert"]}
{"id": "C23", "title": "get_or_insert_with (unsync)", "statement": "get_or_insert_with(k,f) calls f at most once and only if k is not resident; on a hit it returns the resident value and changes no content; on Ok(v) it returns Some of the value resident under k afterwards iff it was admitted; on Err no resident pair changes.", "quantifier": "every key type with a lawful Eq/Hash, every hasher (all collisions), every weighter, every lifecycle, every capacity, every finite history of API calls", "why_tests_cant": "All states incl. stale placeholders and self-eviction with token reuse.", "anchors": ["/repo/src/unsync.rs: get_or_insert_with, get_mut_or_insert_with", "/repo/src/shard.rs: upsert_placeholder, replace_placeholder, peek_token"]}
{"id": "C24", "title": "Guards (unsync)", "statement": "get_ref_or_guard/get_mut_or_guard yield a reference iff k is resident, never Ok(None); guard.insert(v) behaves as an insert of v for k and cannot fail; dropping the guard without inserting leaves contents unchanged and k absent.", "quantifier": "every key type with a lawful Eq/Hash, every hasher (all collisions), every weighter, every lifecycle, every capacity, every finite history of API calls", "why_tests_cant": "All states.", "anchors": ["/repo/src/unsync.rs: get_ref_or_guard, get_mut_or_guard, Guard::insert, Drop for Guard"]}
{"id": "C25", "title": "In-place mutation keeps accounting exact", "statement": "After a get_mut/peek_mut reference that changed the value is dropped, that key maps to the new value, every other pair is unchanged, weight() changes by exactly new-old weight, and items moved to/from zero weight become unevictable/evictable.", "quantifier": "every key type with a lawful Eq/Hash, every hasher (all collisions), every weighter, every lifecycle, every capacity, every finite history of API calls, every update function", "why_tests_cant": "All states and updates.", "anchors": ["/repo/src/shard.rs: RefMut::drop, cold_change_weight"]}
{"id": "C26", "title": "Hit/miss statistics", "statement": "get counts exactly one hit or one miss and says which correctly; unsync guard calls likewise except when a stale placeholder exists. In the sync cache used by one thread at a time hits() and misses() are exactly what the results of the calls tell: one per get, one hit for a load call that finds the value, two misses for one that starts a load. (The unrestricted claim 'each lookup counts once and a hit means the value was resident' is false of the code.)", "quantifier": "every key type with a lawful Eq/Hash, every hasher (all collisions), every weighter, every lifecycle, every capacity, every finite history of API calls", "why_tests_cant": "Counter exactness over all histories.", "anchors": ["/repo/src/shard.rs: record_hit!, record_miss!, upsert_placeholder", "/repo/src/sync.rs: get_value_or_guard"]}
{"id": "C27", "title": "Shard selection is total, stable and in bounds", "statement": "For every hash the selected shard index is within the shard array, depends only on the hash, and the number of shards is a power of two, at most the requested number rounded up, at least 1, and each shard's estimated items is >= 32 unless there is a single shard.", "quantifier": "every options value with shards <= 2^63, every hash", "why_tests_cant": "2^64 hashes and all option combinations.", "anchors": ["/repo/src/sync.rs: with_options, shard_for"]}
{"id": "C28", "title": "Total capacity tracks the requested capacity", "statement": "sync capacity() = shards * shard_capacity(); it is >= the requested weight_capacity and < requested + shards, unless requested + shards - 1 overflows u64. (Without the proviso the claim is false: Cache::new(usize::MAX).capacity() < usize::MAX.)", "quantifier": "every options value", "why_tests_cant": "Arithmetic over 64-bit space.", "anchors": ["/repo/src/sync.rs: with_options, capacity"]}
{"id": "C29", "title": "Sync cache = union of independent shards", "statement": "Each keyed call on the sync cache reads and writes only the shard of its key; len/weight/is_empty are the sums over shards, a key never resides in two shards, and C05-C09 hold for the whole cache; weight() <= capacity().", "quantifier": "every sequential history of the sync API, every number of shards", "why_tests_cant": "All histories and shard counts.", "anchors": ["/repo/src/sync.rs: Cache::*"]}
{"id": "C30", "title": "Options validation", "statement": "build() succeeds iff both weight_capacity and estimated_items_capacity were set; hot/ghost allocation setters accept exactly the doubles in [0,1] (NaN rejected); unset options take the defaults.", "quantifier": "every builder call sequence and every f64 bit pattern", "why_tests_cant": "2^64 bit patterns.", "anchors": ["/repo/src/options.rs: OptionsBuilder"]}
{"id": "C31", "title": "Hot budget never exceeds capacity", "statement": "For the default hot_allocation (0.97) and every u64 capacity the hot budget is <= capacity; for every allocation in [0,1] it is whenever capacity <= 2^53. (For allocation 1.0 and large capacities it is false by f64 rounding.) A cache is built with the requested weight capacity (each shard: its share), and the number of evicted keys it remembers is limited to the ghost allocation's portion of the expected items, up to rounding.", "quantifier": "every u64 capacity, every f64 in [0,1]", "why_tests_cant": "Floating-point rounding over the full 64-bit range.", "anchors": ["/repo/src/shard.rs: CacheShard::new", "/repo/src/options.rs: DEFAULT_HOT_ALLOCATION"]}
{"id": "C32", "title": "Single flight per placeholder", "statement": "At any moment at most one party may fill a given pending load: at most one live guard (or pending hand-off) per placeholder; and per key when no remove/clear/insert for that key intervenes. (With an intervening remove two guards for one key can be live: the unrestricted claim is false.)", "quantifier": "every number of threads and futures, every interleaving, every timeout and cancellation point", "why_tests_cant": "Interleavings are unbounded.", "anchors": ["/repo/src/sync_placeholder.rs: PlaceholderGuard::join, join_internal, drop_uninserted_slow, JoinFuture", "/repo/src/shard.rs: upsert_placeholder, remove_placeholder"]}
{"id": "C33", "title": "No lost wake-up", "statement": "Whenever some caller is waiting on a pending load, there is a live guard, or an already-notified waiter, responsible for that load; when it is dropped without a value exactly one waiter is given the guard, and when it inserts every waiter is released with the value. No reachable state has waiters and nobody left to release them.", "quantifier": "every interleaving, timeout, cancellation", "why_tests_cant": "Races between timeout, cancellation, hand-off.", "anchors": ["/repo/src/sync_placeholder.rs: drop_uninserted_slow, insert_with_lifecycle, join, drop_pending_waiter"]}
{"id": "C34", "title": "Waiters receive exactly the loader's value", "statement": "A caller that waited and got Value(v) got the v passed to insert by the guard it waited on; a caller that got a guard was the unique hand-off target.", "quantifier": "every interleaving", "why_tests_cant": "All schedules.", "anchors": ["/repo/src/sync_placeholder.rs: join_internal, insert_with_lifecycle"]}
{"id": "C35", "title": "Timeouts and cancellation do not lose hand-offs", "statement": "A caller returns Timeout only if it was never notified and after it left the waiters list; a cancelled future that had been notified passes the guard on; neither ever panics when removing itself from the waiters list.", "quantifier": "every interleaving", "why_tests_cant": "Race windows.", "anchors": ["/repo/src/sync_placeholder.rs: join (timeout branch), drop_pending_waiter"]}
{"id": "C36", "title": "Terminated placeholders are never joined", "statement": "No caller ever observes a terminated load (the two unreachable!() in join_internal are unreachable), and a terminated load is not reachable through the cache.", "quantifier": "every interleaving", "why_tests_cant": "All schedules.", "anchors": ["/repo/src/sync_placeholder.rs: join_internal, drop_uninserted_slow", "/repo/src/shard.rs: remove_placeholder"]}
{"id": "C37", "title": "No deadlock", "statement": "Locks are acquired in the order shard, placeholder state, task waiter; in every reachable state in which some party holds or wants a lock, some party can take a step.", "quantifier": "every interleaving, any number of parties", "why_tests_cant": "All schedules.", "anchors": ["/repo/src/sync_placeholder.rs: *", "/repo/src/rw_lock.rs: RwLock"]}
{"id": "C38", "title": "guard.insert reports displacement truthfully (sync)", "statement": "guard.insert(v) returns Err(v) iff the pending load had been removed or overwritten, and then the cache content is unchanged; a stale guard never writes into a slot reused by another key.", "quantifier": "every interleaving", "why_tests_cant": "ABA on slots needs long histories.", "anchors": ["/repo/src/shard.rs: replace_placeholder", "/repo/src/sync_placeholder.rs: insert_with_lifecycle"]}
{"id": "C39", "title": "Concurrent operations are linearizable per shard and keep every invariant", "statement": "Under any interleaving of gets, inserts, removals, guard operations, timeouts and cancellations the shard state satisfies all sequential invariants (C04, C07, C11, C21), and racing gets affect only hotness.", "quantifier": "every interleaving", "why_tests_cant": "All schedules.", "anchors": ["/repo/src/sync.rs: Cache::*", "/repo/src/sync_placeholder.rs: *"]}
{"id": "C40", "title": "Hotness counter overflow is harmless", "statement": "Concurrent gets may push the 16-bit reference counter past its cap or wrap it; no content, accounting or termination property depends on its value.", "quantifier": "every counter value", "why_tests_cant": "65536 wrap needs a precise race.", "anchors": ["/repo/src/shard.rs: get (fetch_add), advance_hot, advance_cold"]}
{"id": "C41", "title": "Timeout arithmetic", "statement": "get_value_or_guard with a timeout never returns Timeout before the timeout elapsed. (It does not sleep for the remaining time: it parks for the elapsed time, so it initially spins and may oversleep to less than twice the timeout.)", "quantifier": "every clock behaviour and timeout", "why_tests_cant": "Clock schedules.", "anchors": ["/repo/src/sync_placeholder.rs: join (park_timeout)"]}
{"id": "C42", "title": "Lifecycle request bracketing", "statement": "insert/replace/guard insert call begin_request once, end_request exactly once on success of the plain APIs and never on Err or for the *_with_lifecycle APIs, and the state passed to end_request is the one threaded through all hooks of that request.", "quantifier": "every key type with a lawful Eq/Hash, every hasher (all collisions), every weighter, every lifecycle, every capacity, every finite history of API calls", "why_tests_cant": "All branches.", "anchors": ["/repo/src/unsync.rs: insert, replace, Guard::insert_internal", "/repo/src/sync.rs: insert, replace", "/repo/src/lib.rs: Lifecycle::end_request"]}
{"id": "C43", "title": "Debug and release builds agree", "statement": "Every history of calls that the debug build completes, the release build completes with the same results, hook calls and final cache. No debug assertion can fail; the builds differ only when the sum of the weights overflows 64 bits. The same holds of every execution by many threads and futures.", "quantifier": "every key type with a lawful Eq/Hash, every hasher (all collisions), every weighter, every lifecycle, every capacity, every finite history of API calls, and every execution by threads and futures, both builds", "why_tests_cant": "Tests run one build; agreement is a statement about every history in both.", "anchors": ["/repo/src/shard.rs: every debug_assert and counter update", "/repo/src/linked_slab.rs: debug_asserts"]}
{"id": "C44", "title": "No undefined behaviour, whatever the user code does", "statement": "With Eq, Hash, Weighter and Lifecycle implementations that break their contract (inequivalent equality, equal keys with different hashes, any weights), and from any internal state whatsoever, no call reaches an unreachable_unchecked, also when any number of threads and futures call at the same time; and two of them never work on the same shard or load at the same time unless both only read.", "quantifier": "every user code given as functions, every state, every call, every schedule of threads and futures, both builds", "why_tests_cant": "Lawless user code and corrupted states cannot be enumerated.", "anchors": ["/repo/src/shard.rs: search_resident, RefMut::drop, advance_hot (unreachable_unchecked)"]}
{"id": "C45", "title": "Panics in user code", "statement": "When user code (Hash, Eq, ToOwned, Weighter, Lifecycle, the closures passed to retain and get_or_insert_with) panics inside a call of the unsync cache and the caller catches the panic, the cache stays consistent (exact len and weight, unique keys, lookups agree with iteration, every later call meets its specification) if the panic was in one of 16 listed places; what is cached then is what was cached before, or that partway through the evictions of the call. At each of the 13 other places (for example on_evict of a hot item, or the weigher called by remove) the panic can leave a wrong len or weight, or make later calls panic. No panic ever leads to undefined behaviour.", "quantifier": "every history of calls with any number of panics, every call, every place where user code runs", "why_tests_cant": "A panic can strike at every call of user code in every history.", "anchors": ["/repo/src/shard.rs: every call of weighter, lifecycle, hash_builder and key equality", "/repo/src/unsync.rs: all methods, Drop for Guard"]}
{"id": "C46", "title": "Statistics and whole-cache observers of the sync cache in concurrent use", "statement": "In every execution with any number of threads and futures, the hit and miss counters count exactly the lookups that found the key (or a load of it) and those that did not, up to lookups still in progress; once all calls have returned, the totals are the sum of a fixed contribution of each call, determined by what it returned. hits() and misses() called concurrently return a number between the totals at their call and at their return, and never go back. capacity() is constant; weight() never exceeds it when nothing is pinned. len(), weight() and is_empty() are exact when the others only read meanwhile; in general each shard contributes its contents at a moment of its own, and is_empty() can return true although the cache was never empty.", "quantifier": "every execution of any number of threads and futures, every interleaving of the observer with it", "why_tests_cant": "An observer visits the shards one after the other; what it can see depends on every interleaving.", "anchors": ["/repo/src/sync.rs: is_empty, len, weight, capacity, misses, hits", "/repo/src/shard.rs: hits, misses counters in get, upsert_placeholder"]}
{"id": "C47", "title": "The cache's own consistency check passes", "statement": "The self-check that the project's tests and fuzzers call (validate: free list and list neighbours are consistent, counts and weights per state agree with the entries, evicted keys within their bound, weight within capacity) succeeds after every history of calls of the unsync cache, and at every moment of every concurrent execution for every shard of the sync cache. With validate(false) it fails exactly when the items that are not pinned weigh more than the capacity, which only an in-place change can bring about.", "quantifier": "every history of calls; every concurrent execution and every moment of it", "why_tests_cant": "Fuzzing runs the check on the histories it generates; this is about all of them.", "anchors": ["/repo/src/linked_slab.rs: validate", "/repo/src/shard.rs: validate", "/repo/src/unsync.rs: validate", "/repo/src/sync.rs: validate"]}
{"id": "C48", "title": "Scan resistance", "statement": "A working set that fits into the hot budget (or, if it was loaded with get_or_insert_with, into the capacity) survives a scan of any length: after any number of inserts of new keys, each leaving room for the hot budget, or any number of loads of new keys of any weight, every item of the working set is still cached with its value. Reads of the working set, peeks, and removals of other keys may be mixed in. An insert that is too heavy, scanned items that are read, and scanned keys that come back can push items out.", "quantifier": "every key type with a lawful Eq/Hash, every hasher (all collisions), every weighter, every lifecycle, every capacity, every finite history of API calls that builds a working set, followed by every scan", "why_tests_cant": "A test scans a few keys of one size; the claim is about scans of every length, all weights and every interleaving with reads.", "anchors": ["/repo/src/shard.rs: insert, replace_placeholder, advance_cold, advance_hot", "/repo/src/unsync.rs: insert, get_or_insert_with"]}
{"id": "C49", "title": "The replacement policy", "statement": "What is evicted, when and in which order is exactly what a small machine on four lists says: a hot and a cold list, each with a hand at its front and new items at its back, the weightless items, and the hashes of the keys recently evicted from the cold list. New keys enter the hot list while it is within its budget and the cold list otherwise; remembered keys enter the hot list; the cold hand drops the first item that was not used since it was last passed and promotes a used one; the hot hand takes one use from each item it passes and drops the first that has none; pinned items are passed over; a use counts up to two. The results of every history, with the calls of the eviction hooks and their order, and the cached items are those of the machine; when the different keys that the history may store or remove have different hashes the machine allows nothing else.", "quantifier": "every key type with a lawful Eq/Hash, every hasher (all collisions), every weighter, every lifecycle, every capacity, every finite history of API calls", "why_tests_cant": "The victim of an eviction depends on the whole history; tests fix a few histories.", "anchors": ["/repo/src/shard.rs: insert, insert_existing, replace_placeholder, advance_cold, advance_hot, advance_ghost, get, get_mut, upsert_placeholder, remove_internal, retain, RefMut::drop", "/repo/src/linked_slab.rs: link, unlink"]}
{"id": "C50", "title": "The replacement policy in concurrent use", "statement": "In every execution of the sync cache with any number of threads and futures, each shard follows the machine of C49: its critical sections, in the order in which they happened, are steps of the machine with the results and evictions they had, and its cached items are those of the machine. Pending loads are told apart by identity: filling a load that was cancelled changes nothing, and giving a load up removes only that load. A loaded item starts with one use exactly when somebody waited for the load at the moment its value was provided. A get that finds an item used less than twice counts its use in a second step; other gets may find the item in between, and no other call can: so the only effect of concurrency on the policy is that simultaneous gets may count more than two uses (modulo 65536).", "quantifier": "every execution of any number of threads and futures, every interleaving, timeout and cancellation", "why_tests_cant": "Evictions depend on the whole history and on the interleaving.", "anchors": ["/repo/src/shard.rs: get, insert, replace_placeholder, upsert_placeholder, remove_placeholder, advance_hot, advance_cold", "/repo/src/sync_placeholder.rs: insert_with_lifecycle, drop_uninserted_slow", "/repo/src/sync.rs: all methods"]}
{"id": "C51", "title": "get_or_insert_with and get_or_insert_async in concurrent use", "statement": "In every execution with any number of threads and futures, a call of get_or_insert_with (or the async form) that returns Ok(v) either ran its own closure, once, and the closure computed v; or did not run it, and v was computed by the closure of another call for an equal key that had not returned when this one was made, or was the cached value, left by the last write to the key. A closure runs only if the value was not cached, and either no load of the key was pending or the closures of those who were in charge of it before failed (or their futures were dropped). Whoever waits for a load whose value is computed returns that value without running its closure. A call returns Err only if its own closure failed; it never times out. Two closures for one key run at the same time only if the key was removed or overwritten or the cache cleared since the load of one was started. Once no closure runs and every woken future was polled, every call returns.", "quantifier": "every execution of any number of threads and futures, every outcome of every closure, every cancellation point", "why_tests_cant": "Who computes and who waits depends on the interleaving.", "anchors": ["/repo/src/sync.rs: get_or_insert_with, get_or_insert_async, get_value_or_guard, get_value_or_guard_async", "/repo/src/sync_placeholder.rs: PlaceholderGuard::join, insert, drop, JoinFuture"]}
{"id": "C52", "title": "The default lifecycle, and where items go", "statement": "A cache built without a lifecycle pins nothing and changes no value, so weight() never exceeds capacity(), in concurrent use as well. A request of the sync cache that evicts items keeps the one evicted last: insert_with_lifecycle, replace_with_lifecycle and the guard's insert_with_lifecycle return it (None if nothing was evicted), the other forms drop it when the shard has been released. With this lifecycle, or any other that leaves values alone, at any time of any concurrent execution the items cached in a shard, those reported to on_evict and those handed back to callers are together no more than the items it was given, counted with multiplicity: no item is cached twice or comes out twice; and they are exactly these items if clear and retain were not called: none is lost.", "quantifier": "every lawful key type, hasher and weighter; every number of shards, capacity and hot budget; every number of threads and futures, all calls, all schedules; every moment of the execution", "why_tests_cant": "a test follows a few items through a few schedules; a duplicated or lost item needs a particular interleaving of loads, replacements and evictions", "anchors": ["src/sync.rs: DefaultLifecycle, insert_with_lifecycle, replace_with_lifecycle", "src/unsync.rs: DefaultLifecycle", "src/sync_placeholder.rs: PlaceholderGuard::insert_with_lifecycle", "src/lib.rs: Lifecycle", "src/shard.rs: insert, replace_placeholder, evict"]}
{"id": "C53", "title": "Cloning a cache", "statement": "A clone of the unsync cache holds the clones of the items of the original, in the same order, with the same len(), weight(), capacity() and statistics. If clones of keys are equal to them and clones of items weigh and pin the same, then however often a cache is cloned and whatever is called in between, every clone is a cache like any other: unique keys, exact lookups, len() and weight(), bounded ghosts, items that are not pinned within capacity(), every call does what it is specified to do, and none panics because the cache is a clone, an abandoned load in the original included. A clone whose keys and values are those of the original answers every later sequence of calls as the original would.", "quantifier": "every lawful key type, hasher, weighter and lifecycle; all clone functions for keys and values; every history of calls and clones; every order of the buckets in the clone of the hash table", "why_tests_cant": "A test clones a few caches; whether a clone repeats the original depends on every list, counter and slot having been copied, and shows only many calls later.", "anchors": ["/repo/src/unsync.rs: Cache", "/repo/src/shard.rs: CacheShard::clone, Resident::clone, Placeholder, Entry", "/repo/src/linked_slab.rs: LinkedSlab, Entry"]}
{"id": "C54", "title": "Panics in user code in the sync cache", "statement": "User code that panics inside a call of the sync cache (hash, equality, clone of a value, weigher, lifecycle hooks, a loader, the predicate of retain), with the panic caught by the caller, leaves the shards the call does not concern as they were. With the locks of parking_lot and a panic at a point that C45 calls harmless, the shard keeps the contents C45 allows, no lock is ever stuck, and all later calls do what C29 says. With the locks of std, a panic under the write lock of a shard poisons it, wherever it was: from then on every call that concerns that shard, and len(), weight() and the like, panic; every other panic poisons nothing; and the calls that meet no poisoned shard do what C29 says, whatever panicked before. A guard alive during the panic is dropped and its load given up, so that no later call waits for it. One exception, shown: when begin_request() panics in the insert of a guard, the value stays with the load: get() misses it, get_value_or_guard() and get_or_insert_with() return it, until the key is inserted or removed or the cache is cleared. No call has undefined behaviour.", "quantifier": "for every lawful instance and lock kind, every history of calls on any number of shards, any of which may have panicked at any of its calls of user code, and every further call", "why_tests_cant": "tests would have to throw a panic at every call of user code in every state of every shard, twice, for both kinds of lock", "anchors": ["src/sync.rs: all calls", "src/sync_placeholder.rs: PlaceholderGuard::join, insert, insert_with_lifecycle, drop", "src/rw_lock.rs: RwLock::read, write", "src/shard.rs: all functions that call user code"]}
{"id": "C55", "title": "Keys in borrowed form", "statement": "A call made with a borrowed form of a key (any type with Hash and Equivalent, and ToOwned where the call may load) that hashes like the key it is equivalent to is the same as the call with that key, for every call of the unsync and sync caches; a call that loads caches the key made from the form. A form that is equivalent to no cached key is not found and changes nothing. At most one cached key is equivalent to a form. The cache stays consistent when calls with keys and with forms are mixed.", "quantifier": "every lawful key type, every type of forms that agrees with it, every history of calls with keys and forms, sequential use", "why_tests_cant": "Tests use one key type and one form of it; Equivalent can be implemented for any pair of types.", "anchors": ["/repo/src/shard.rs: search, search_resident, contains, get, get_mut, peek, peek_mut, remove, upsert_placeholder", "/repo/src/unsync.rs: calls with Q: Equivalent<Key>", "/repo/src/sync.rs: calls with Q: Equivalent<Key>", "/repo/src/lib.rs: Equivalent"]}
{"id": "C56", "title": "Forgotten references and unfinished iterators", "statement": "A mutable reference handed out by the unsync cache that is forgotten (mem::forget) instead of dropped: the write made through it is kept and seen by every lookup, len() is exact, and weight() is what it was before the write; if the write did not change the weight, nothing differs from dropping it. A draining iterator that is dropped or forgotten after any number of items leaves an empty cache, as clear() does. clear() repairs a cache in which references were forgotten. Nothing of this leads to undefined behaviour. Without a clear(), weights do not stay exact after a forgotten change of weight: weight() is wrong, and a later remove panics in a debug build and wraps around in a release build.", "quantifier": "every history of calls, references forgotten at any point, any write through them, any number of items taken from the iterator, both builds", "why_tests_cant": "Safe code may forget any value at any point of any history.", "anchors": ["/repo/src/shard.rs: RefMut, Drop for RefMut, drain, clear", "/repo/src/unsync.rs: get_mut, peek_mut, get_mut_or_insert_with, get_mut_or_guard, drain, RefMut", "/repo/src/linked_slab.rs: drain"]}
{"id": "C57", "title": "Panics in user code in concurrent use", "statement": "In every execution of the sync cache with any number of threads and futures, with the locks of parking_lot and with user code that panics, any number of times, at points that C45 calls harmless: a panic ends its call (a guard that was inserting its value is dropped instead) and nobody else notices, neither the calls in progress nor the loads they started or wait for; it changes at most the shard it happened in, and there what C45 allows. All later calls do what they are specified to do and return what their critical sections returned; every shard keeps unique keys, exact len(), weight() and lookups; no call fails in a way it could not before; there is no deadlock; whoever waits for a load waits for a guard that somebody has, or gets the one value that was provided. With the locks of std this is false: a panic in some other call poisons the shard, the guard's drop panics before it notifies anybody, and the waiters wait for ever.", "quantifier": "every execution of any number of threads and futures, every interleaving, any number of panics at any harmless call of user code", "why_tests_cant": "A panic may strike at every call of user code in every interleaving; who is left waiting depends on both.", "anchors": ["/repo/src/sync.rs: all methods", "/repo/src/sync_placeholder.rs: PlaceholderGuard::join, insert_with_lifecycle, drop_uninserted_slow, JoinFuture", "/repo/src/rw_lock.rs: RwLock::read, write", "/repo/src/shard.rs: all functions that call user code"]}
{"id": "C58", "title": "The work of evictions", "statement": "While no item is pinned, making room costs a constant per call: over all the calls made on an unsync cache, of any kind and in any order, evictions look at no more than five cached items per call and call user code (pinning, weigher, hooks, hash of the evicted key) no more than fifteen times per call on average, whatever the number of cached items. A single call looks at no more than four times the number of cached items, and five. With pinned items there is no such bound: an insert that leaves the cache heavier than its capacity has looked at every cached item that weighs something, and the average over the calls may exceed any constant up to 2^30 (a cache has no more than 2^32 slots).", "quantifier": "every history of calls, every capacity, weigher and hooks, without pinned items; for the last sentence with any", "why_tests_cant": "The cost of a call depends on all the calls before it; a benchmark shows the histories it runs, not the worst one.", "anchors": ["/repo/src/shard.rs: advance_hot, advance_cold, insert, insert_existing, replace_placeholder, RefMut::drop", "/repo/src/unsync.rs: all methods"]}
{"id": "C59", "title": "The work of evictions in concurrent use", "statement": "While no item is pinned, in every execution of the sync cache by any number of threads and futures, evictions look at no more than five cached items for each time that a shard is used, and call user code for these items no more than fifteen times. A call uses a shard once, a call on all shards each of them once, and a call that loads a value no more than three times, so the work is bounded by the calls that were started, whatever the sizes of the shards and however the calls interleave. No single use of a shard looks at more than four times the items in it, and five, while it holds the lock.", "quantifier": "all parameters without pinning, numbers of shards, capacities, sets of calls and interleavings of their steps, with uses of items counted by several readers at the same time", "why_tests_cant": "a test measures some schedules of some workload; that readers who raise the count of one item at the same time, beyond its maximum, cannot make a later eviction walk longer than they paid for needs all schedules", "anchors": ["src/shard.rs: advance_cold, advance_hot, evict, insert, replace_placeholder, upsert_placeholder, get", "src/sync.rs: get, insert, replace, retain", "src/sync_placeholder.rs: join, insert"]}
{"id": "C60", "title": "A cache that is large enough is a map", "statement": "If everything that is stored has room (each value is admitted by the hot budget or pinned, and weighs, together with the items cached at that moment under other keys, no more than the capacity), the cache cannot be told from a plain map: every call of the unsync cache returns what it returns on a map, the cached pairs are those of the map, and the lifecycle hooks are called for nothing but the values that are overwritten. In concurrent use the steps that take effect on each shard of the sync cache, in their order, are those of a map with pending loads, with the results they had. In particular there is always room if no value weighs more than w, the budget is at least w, and the keys that are ever brought along (for a shard: its keys) are at most capacity / w.", "quantifier": "every lawful key type whose equal keys are the same, all weights, pinning, hooks, budgets, capacities, histories of calls and concurrent executions in which everything fits", "why_tests_cant": "Tests fill a cache below its capacity with a few keys in a fixed order; that nothing is ever lost before the capacity is reached must hold for every order of inserts, overwrites, loads and removals, however hits and ghosts have moved the items between the queues before", "anchors": ["src/shard.rs: CacheShard::insert, CacheShard::replace_placeholder, CacheShard::advance_cold, CacheShard::advance_hot", "src/unsync.rs: Cache", "src/sync.rs: Cache"]}
{"id": "C61", "title": "The hasher does not matter", "statement": "Two caches with the same limits, weigher and lifecycle, built with different hashers (and whatever order their hash tables probe, iterate and grow in), answer every history of calls alike: the same results, the same hook calls with the same evictions in the same order, the same cached items; only the order in which drain and iter return the items may differ. This holds when neither hasher gives the same hash to two different keys that the history may store or remove (other keys may collide); with collisions it is false, because a new key is then taken for an evicted one.", "quantifier": "every lawful key type, all pairs of hashers (without collisions among the keys stored or removed) and of hash tables, weights, pinning, hooks, budgets, ghost counts, capacities and histories of calls of the unsync cache", "why_tests_cant": "Tests run with one or two hashers; that no decision of the replacement policy depends on the value of a hash, or on the layout of the table that results from it, must hold for every pair of hashers and every history", "anchors": ["src/shard.rs: CacheShard::hash, CacheShard::search, CacheShard::search_resident, CacheShard::insert, CacheShard::advance_cold", "src/unsync.rs: Cache::with"]}
{"id": "C62", "title": "An eviction listener only listens", "statement": "Replacing the lifecycle of a cache by another whose before_evict puts the same values (for example attaching a listener that collects or counts evicted items to a cache that had none, or starting calls with other request states) changes nothing the callers can see: for histories whose stored or removed keys do not collide, every call returns the same result, makes the same hook calls with the same keys and values in the same order, calls the loader in the same cases, and the same items are cached. Only the request states differ. Within one lifecycle whose before_evict does not look at its request state, starting the calls with other request states leaves the very same cache even when keys collide, in the unsync cache and in the sync cache under every interleaving of threads and tasks, where also the same calls are blocked and the same calls panic.", "quantifier": "every lawful key type, all pairs of lifecycles with the same before_evict values and any types of request states, weights, pinning, budgets, ghost counts, capacities, and histories of calls of the unsync cache in which the different keys stored or removed have different hashes; for other request states, every history and every schedule", "why_tests_cant": "Tests use one or two listeners; that no decision of the cache depends on what the listener keeps in its request state must hold for every listener and every history", "anchors": ["src/lib.rs: Lifecycle", "src/shard.rs: CacheShard::insert, CacheShard::advance_cold, CacheShard::advance_hot, CacheShard::replace_placeholder", "src/unsync.rs: Cache::insert_with_lifecycle, Cache::replace_with_lifecycle", "src/sync.rs: Cache::insert_with_lifecycle, Cache::replace_with_lifecycle", "src/sync_placeholder.rs: PlaceholderGuard::insert_with_lifecycle"]}
