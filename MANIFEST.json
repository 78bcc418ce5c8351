{
 "claims": [
  {
   "property": "C01",
   "status": "proved",
   "theorems": [
    "C01_weight_within_capacity"
   ],
   "note": ""
  },
  {
   "property": "C02",
   "status": "proved",
   "theorems": [
    "C02_unpinned_weight_within_capacity"
   ],
   "note": ""
  },
  {
   "property": "C03",
   "status": "proved",
   "theorems": [
    "C03_insert_repairs_overshoot",
    "C03_replace_repairs_overshoot",
    "C03_guard_insert_repairs_overshoot"
   ],
   "note": "Overshoot is possible through in-place growth; the next admitted insert, replace or guard insert repairs it as far as pinned items allow."
  },
  {
   "property": "C04",
   "status": "proved",
   "theorems": [
    "C04_len_weight_exact"
   ],
   "note": ""
  },
  {
   "property": "C05",
   "status": "proved",
   "theorems": [
    "C05_hit_is_last_write",
    "C05_hit_is_last_write_default"
   ],
   "note": ""
  },
  {
   "property": "C06",
   "status": "proved",
   "theorems": [
    "C06_no_resurrection"
   ],
   "note": ""
  },
  {
   "property": "C07",
   "status": "proved",
   "theorems": [
    "C07_unique_keys",
    "C07_lookups_agree"
   ],
   "note": ""
  },
  {
   "property": "C08",
   "status": "proved",
   "theorems": [
    "C08_insert_conserves",
    "C08_replace_conserves",
    "C08_load_conserves",
    "C08_no_other_reports",
    "C08_insert_conserves_default"
   ],
   "note": ""
  },
  {
   "property": "C09",
   "status": "proved",
   "theorems": [
    "C09_pinned_and_weightless_stay",
    "C09_hooks_spare_pinned_and_weightless"
   ],
   "note": ""
  },
  {
   "property": "C10",
   "status": "proved",
   "theorems": [
    "C10_insert_hooks",
    "C10_load_hooks"
   ],
   "note": ""
  },
  {
   "property": "C11",
   "status": "proved",
   "theorems": [
    "C11_only_documented_aborts",
    "C11_short_histories_succeed",
    "C11_bounded_caches_never_abort"
   ],
   "note": "Whole unsync API. Failure only by slab exhaustion (2^32-2 slots) or 64-bit weight overflow, with exact conditions."
  },
  {
   "property": "C12",
   "status": "proved",
   "theorems": [
    "C12_calls_terminate",
    "C12_fuel_is_only_a_bound"
   ],
   "note": ""
  },
  {
   "property": "C13",
   "status": "proved",
   "theorems": [
    "C13_overweight_insert"
   ],
   "note": ""
  },
  {
   "property": "C14",
   "status": "proved",
   "theorems": [
    "C14_fitting_insert",
    "C14_fitting_replace",
    "C14_fitting_guard_insert"
   ],
   "note": ""
  },
  {
   "property": "C15",
   "status": "proved",
   "theorems": [
    "C15_new_key_is_cached",
    "C15_sync_new_key_is_cached",
    "C15_insert_outcome_visible",
    "C15_untracked_insert_is_cached",
    "C15_always_cached_refuted"
   ],
   "note": "The stronger claim (an admitted insert always ends cached) is false of the code: C15_always_cached_refuted. It holds for every key that is new to the cache: C15_new_key_is_cached, C15_sync_new_key_is_cached."
  },
  {
   "property": "C16",
   "status": "proved",
   "theorems": [
    "C16_replace_never_creates",
    "C16_replaced_is_cached_refuted"
   ],
   "note": "Ok does not imply the new value is still cached: C16_replaced_is_cached_refuted."
  },
  {
   "property": "C17",
   "status": "proved",
   "theorems": [
    "C17_remove_exact"
   ],
   "note": ""
  },
  {
   "property": "C18",
   "status": "proved",
   "theorems": [
    "C18_retain_exact"
   ],
   "note": ""
  },
  {
   "property": "C19",
   "status": "proved",
   "theorems": [
    "C19_like_new",
    "C19_sync_like_new",
    "C19_clear_and_drain"
   ],
   "note": "C19_like_new and C19_sync_like_new compare a cleared cache with a new one for all later histories. They assume that the hash table's probe order and growth depend only on the buckets it holds: which of two equal-hash ghosts is found first is otherwise free. C19_clear_and_drain needs no such assumption."
  },
  {
   "property": "C20",
   "status": "proved",
   "theorems": [
    "C20_peeks_change_nothing",
    "C20_get_changes_no_content"
   ],
   "note": ""
  },
  {
   "property": "C21",
   "status": "proved",
   "theorems": [
    "C21_ghosts_bounded"
   ],
   "note": ""
  },
  {
   "property": "C22",
   "status": "proved",
   "theorems": [
    "C22_storage_bounded",
    "C22_storage_with_loads",
    "C22_abandoned_loads_leak_refuted"
   ],
   "note": "Bound proved without loads and, with loads, up to one slot per abandoned load; the unconditional claim is false: C22_abandoned_loads_leak_refuted."
  },
  {
   "property": "C23",
   "status": "proved",
   "theorems": [
    "C23_get_or_insert_with"
   ],
   "note": ""
  },
  {
   "property": "C24",
   "status": "proved",
   "theorems": [
    "C24_guards"
   ],
   "note": ""
  },
  {
   "property": "C25",
   "status": "proved",
   "theorems": [
    "C25_mutation_exact"
   ],
   "note": ""
  },
  {
   "property": "C26",
   "status": "proved",
   "theorems": [
    "C26_get_counts",
    "C26_total_is_lookups",
    "C26_loads_count",
    "C26_loads_count_refuted",
    "C26_sync_statistics",
    "C26_sync_once_refuted"
   ],
   "note": "Without the proviso on stranded loads the claim is false: C26_loads_count_refuted. In the sync cache used by one thread at a time the counters are exact (C26_sync_statistics), but a load counts two misses: C26_sync_once_refuted."
  },
  {
   "property": "C27",
   "status": "proved",
   "theorems": [
    "C27_shard_count",
    "C27_too_many_shards",
    "C27_shard_selection"
   ],
   "note": ""
  },
  {
   "property": "C28",
   "status": "proved",
   "theorems": [
    "C28_capacity",
    "C28_capacity_refuted"
   ],
   "note": "When rounding up to a whole number per shard overflows, capacity() is less than asked for: C28_capacity_refuted."
  },
  {
   "property": "C29",
   "status": "proved",
   "theorems": [
    "C29_constructed",
    "C29_keyed_calls_are_local",
    "C29_shards_behave",
    "C29_len_weight_empty",
    "C29_key_in_one_shard",
    "C29_hit_is_last_write",
    "C29_loads_return_last_write",
    "C29_no_resurrection",
    "C29_lookups_agree",
    "C29_unique_keys",
    "C29_insert_conserves",
    "C29_replace_conserves",
    "C29_load_conserves",
    "C29_pinned_and_weightless_stay",
    "C29_hooks_spare_pinned_and_weightless",
    "C29_weight_within_capacity"
   ],
   "note": ""
  },
  {
   "property": "C30",
   "status": "proved",
   "theorems": [
    "C30_validation",
    "C30_build",
    "C30_defaults"
   ],
   "note": ""
  },
  {
   "property": "C31",
   "status": "proved",
   "theorems": [
    "C31_hot_budget",
    "C31_default_hot_budget",
    "C31_caches",
    "C31_small_caches",
    "C31_hot_budget_is_portion",
    "C31_built_as_asked",
    "C31_built_as_asked_sync",
    "C31_hot_budget_refuted"
   ],
   "note": "For an allocation of 1.0 and a capacity above 2^53 the budget can exceed the capacity: C31_hot_budget_refuted. C31_built_as_asked and C31_built_as_asked_sync: weight capacity and ghost allocation of a constructed cache."
  },
  {
   "property": "C32",
   "status": "proved",
   "theorems": [
    "C32_one_in_charge",
    "C32_one_live_guard",
    "C32_one_per_key",
    "C32_two_guards_refuted"
   ],
   "note": "The claim without a proviso is false: C32_two_guards_refuted."
  },
  {
   "property": "C33",
   "status": "proved",
   "theorems": [
    "C33_someone_responsible",
    "C33_queued_wait",
    "C33_no_stranded_waiter",
    "C33_runs_end",
    "C33_drop_gives_one",
    "C33_drop_ends_only_unwaited",
    "C33_insert_releases_all",
    "C33_value_reaches_all"
   ],
   "note": "No fairness is assumed: C33_no_stranded_waiter is about states in which no agent can move, C33_runs_end bounds the way there."
  },
  {
   "property": "C34",
   "status": "proved",
   "theorems": [
    "C34_value_is_the_inserted_one",
    "C34_guard_was_handed_over",
    "C34_outcome"
   ],
   "note": ""
  },
  {
   "property": "C35",
   "status": "proved",
   "theorems": [
    "C35_timeout_clean",
    "C35_cancel_passes_on",
    "C35_no_panic"
   ],
   "note": ""
  },
  {
   "property": "C36",
   "status": "proved",
   "theorems": [
    "C36_over_is_over",
    "C36_not_reachable",
    "C36_never_seen"
   ],
   "note": ""
  },
  {
   "property": "C37",
   "status": "proved",
   "theorems": [
    "C37_lock_order",
    "C37_exclusive",
    "C37_some_party_moves",
    "C37_locks_are_released"
   ],
   "note": ""
  },
  {
   "property": "C38",
   "status": "proved",
   "theorems": [
    "C38_insert_unless_cancelled",
    "C38_what_insert_returns",
    "C38_stale_changes_nothing",
    "C38_insert_once"
   ],
   "note": ""
  },
  {
   "property": "C39",
   "status": "proved",
   "theorems": [
    "C39_steps",
    "C39_linearizable",
    "C39_calls",
    "C39_invariants",
    "C39_weight_bound",
    "C39_key_in_one_shard",
    "C39_reads_see_last_write",
    "C39_cached_was_written",
    "C39_no_panic",
    "C39_gets_only_touch_counters"
   ],
   "note": "Atomics are sequentially consistent in the model. For len, weight, hits and misses across shards see C46."
  },
  {
   "property": "C40",
   "status": "proved",
   "theorems": [
    "C40_wild_counters_invariants",
    "C40_wild_counters_terminate",
    "C40_counters_are_invisible",
    "C40_covers_executions",
    "C40_counter_within_maximum_refuted"
   ],
   "note": "The counter does exceed its intended maximum: C40_counter_within_maximum_refuted."
  },
  {
   "property": "C41",
   "status": "proved",
   "theorems": [
    "C41_never_early",
    "C41_oversleeps_less_than_twice",
    "C41_expires",
    "C41_times_out",
    "C41_wakes_in_time_refuted"
   ],
   "note": "A waiter can oversleep: C41_wakes_in_time_refuted."
  },
  {
   "property": "C42",
   "status": "proved",
   "theorems": [
    "C42_insert_request",
    "C42_replace_request",
    "C42_load_request"
   ],
   "note": ""
  },
  {
   "property": "C43",
   "status": "proved",
   "theorems": [
    "C43_release_agrees",
    "C43_release_agrees_sync",
    "C43_differs_only_on_overflow",
    "C43_release_agrees_concurrent",
    "C43_differs_only_on_overflow_concurrent"
   ],
   "note": ""
  },
  {
   "property": "C44",
   "status": "proved",
   "theorems": [
    "C44_no_undefined_behaviour",
    "C44_no_undefined_behaviour_sync",
    "C44_no_undefined_behaviour_section",
    "C44_no_undefined_behaviour_concurrent",
    "C44_locks_exclude"
   ],
   "note": ""
  },
  {
   "property": "C45",
   "status": "proved",
   "theorems": [
    "C45_same_program",
    "C45_survives",
    "C45_contents",
    "C45_others",
    "C45_harmful_refuted",
    "C45_no_undefined_behaviour"
   ],
   "note": "Panics in Drop of keys and values are not covered. C45_harmful_refuted shows that the list of harmless places cannot be extended: a witness for each of the 13 other places."
  },
  {
   "property": "C46",
   "status": "proved",
   "theorems": [
    "C46_counters",
    "C46_every_call_counts",
    "C46_hits_between",
    "C46_misses_between",
    "C46_never_back",
    "C46_capacity",
    "C46_weight_bound",
    "C46_len_quiet",
    "C46_weight_quiet",
    "C46_is_empty_quiet",
    "C46_len_moments",
    "C46_snapshot_refuted"
   ],
   "note": "len(), weight() and is_empty() are not snapshots: C46_snapshot_refuted. Counters are unbounded numbers in the model; the atomics of the code wrap at 2^64."
  },
  {
   "property": "C47",
   "status": "proved",
   "theorems": [
    "C47_self_check",
    "C47_strict_check",
    "C47_strict_check_passes",
    "C47_concurrent"
   ],
   "note": "Provided the weights add up to less than 2^64 (otherwise the sums in validate overflow)."
  },
  {
   "property": "C48",
   "status": "proved",
   "theorems": [
    "C48_scan",
    "C48_other_scans_refuted"
   ],
   "note": "The conditions on the scan cannot be dropped: C48_other_scans_refuted. Stated for the unsync cache, of which each shard of the sync cache is an instance."
  },
  {
   "property": "C49",
   "status": "proved",
   "theorems": [
    "C49_policy",
    "C49_only"
   ],
   "note": "The machine is Policy.v. C49_only needs different hashes for the different keys the history may store or remove, because with equal hashes it depends on the hash table which of two remembered keys is taken. Stated for the unsync cache, of which each shard of the sync cache is an instance."
  },
  {
   "property": "C50",
   "status": "proved",
   "theorems": [
    "C50_shared_policy"
   ],
   "note": "For every shard, in every concurrent execution (Conc.v), by a simulation of every agent step: PolicyConc.v. The machine is PolicyShared.v, on top of Policy.v."
  },
  {
   "property": "C51",
   "status": "proved",
   "theorems": [
    "C51_answer",
    "C51_own",
    "C51_no_timeout",
    "C51_once",
    "C51_only_when_needed",
    "C51_one_at_a_time",
    "C51_coalesced",
    "C51_all_return"
   ],
   "note": "On top of Conc.v: the labels PutG and DropG are the closure returning and failing. What a closure computes is given by a function of the call, which may be any."
  },
  {
   "property": "C52",
   "status": "proved",
   "theorems": [
    "C52_last_evicted",
    "C52_within_capacity",
    "C52_within_capacity_unsync",
    "C52_no_item_twice",
    "C52_no_item_lost"
   ],
   "note": "The two default lifecycles are instances of the parameters of the model (DefaultLife.v). The accounts are stated shard by shard, over the sections of the log."
  },
  {
   "property": "C53",
   "status": "proved",
   "theorems": [
    "C53_clone_is_a_copy",
    "C53_clones_are_sound",
    "C53_calls_on_clones",
    "C53_clones_within_capacity",
    "C53_clones_answer_alike"
   ],
   "note": "The clone of the hash table may list its buckets in any order, except in C53_clones_answer_alike, where it is copied bucket by bucket as hashbrown does. The model is a value, so that clone and original share nothing is not stated; the unsync placeholder handle is plain data in the code."
  },
  {
   "property": "C54",
   "status": "proved",
   "theorems": [
    "C54_same_program",
    "C54_shards_sound",
    "C54_calls",
    "C54_poisoned",
    "C54_len_weight_empty",
    "C54_panic",
    "C54_left_behind_refuted",
    "C54_no_undefined_behaviour"
   ],
   "note": "One thread at a time; panics in concurrent use are C57. In the refuted variant get() and get_value_or_guard() disagree about a key after begin_request() panicked under a guard. A panic in the clone of the value inside the guard's insert aborts the process with the locks of std (the guard's drop meets the poisoned lock of the load), so it leaves no state to speak of."
  },
  {
   "property": "C55",
   "status": "proved",
   "theorems": [
    "C55_same_call",
    "C55_same_call_sync",
    "C55_lookups",
    "C55_consistent"
   ],
   "note": "Sequential caches only; the concurrent model takes keys."
  },
  {
   "property": "C56",
   "status": "proved",
   "theorems": [
    "C56_same_weight",
    "C56_write_kept",
    "C56_unfinished_drain",
    "C56_no_undefined_behaviour",
    "C56_clear_repairs",
    "C56_weight_exact_refuted"
   ],
   "note": "The unsync cache, the only one that hands out mutable references. C56_weight_exact_refuted shows what is false without a clear()."
  },
  {
   "property": "C57",
   "status": "proved",
   "theorems": [
    "C57_panic",
    "C57_steps",
    "C57_calls",
    "C57_sound",
    "C57_no_failure",
    "C57_no_deadlock",
    "C57_waiters",
    "C57_one_guard",
    "C57_values",
    "C57_std_waiters_refuted"
   ],
   "note": "With the locks of parking_lot; panics at harmless points. C57_std_waiters_refuted is the statement for the locks of std, which is false. A panic while a returned value is cloned, or in end_request, leaves what the step leaves, so it is not a separate case; begin_request in a guard's insert is the set F of C57_no_deadlock and C57_waiters. Panics in wakers are not modelled."
  },
  {
   "property": "C58",
   "status": "proved",
   "theorems": [
    "C58_same_program",
    "C58_amortized",
    "C58_user_code",
    "C58_one_call",
    "C58_too_heavy",
    "C58_pinned_refuted"
   ],
   "note": "The count is of the items the hands look at and of the user code called for them, in the traced program of Crash.v (C58_same_program). The walk of hashbrown over equal hashes, retain, and the moving of the hash table are not counted. C58_too_heavy and C58_pinned_refuted show that the bound needs that nothing is pinned; the refutation is for every constant up to 2^30."
  },
  {
   "property": "C59",
   "status": "proved",
   "theorems": [
    "C59_same_program",
    "C59_amortized",
    "C59_uses",
    "C59_calls",
    "C59_user_code",
    "C59_one_section"
   ],
   "note": "Counted as in C58, in the critical sections of the concurrent model, whose traced versions are those of C57 (C59_same_program). The hand-over of the shard lock and the walk over the notified waiters are not counted."
  },
  {
   "property": "C60",
   "status": "proved",
   "theorems": [
    "C60_map",
    "C60_few_keys",
    "C60_items",
    "C60_concurrent",
    "C60_concurrent_few_keys"
   ],
   "note": "The hypothesis that equal keys are the same only serves to state which of several equal keys is stored; the map keeps pairs in no particular order, and drain may list them in any. Calls that panic (on weights beyond 64 bits, see C11) are not part of a history."
  },
  {
   "property": "C61",
   "status": "proved",
   "theorems": [
    "C61_hasher",
    "C61_collisions_refuted"
   ],
   "note": "For hashers under which the keys the history may store or remove do not collide (other keys may), in the unsync cache. C61_collisions_refuted shows that the hypothesis is needed: a key that collides with an evicted one enters the hot list. The number of the shard a key belongs to in the sync cache does depend on the hasher, and is not part of this property."
  },
  {
   "property": "C62",
   "status": "proved",
   "theorems": [
    "C62_listener",
    "C62_states",
    "C62_states_sync",
    "C62_states_concurrent"
   ],
   "note": "C62_listener is for the unsync cache. Its proof goes through the machine of C49, which is deterministic only if the keys stored or removed do not collide; that condition is in the statement and in the theorem, and is not known to be needed. C09, C10 and C52 are about lifecycles that do change what is cached. C62_states needs neither that condition nor lawful keys, for one lifecycle and other request states (take request states that say which of two listeners they belong to, and it speaks of two listeners). C62_states_sync says the same of the sync cache used by one thread at a time. C62_states_concurrent says it of any number of threads and tasks in any interleaving, step by step."
  }
 ]
}