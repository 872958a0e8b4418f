{
 "claims": [
  {
   "property": "C01",
   "status": "proved",
   "theorems": [
    "C01_heap_Init"
   ],
   "note": "Any carrier, any strict weak order, any list."
  },
  {
   "property": "C02",
   "status": "proved",
   "theorems": [
    "C02_heap_history",
    "C02_heap_Push",
    "C02_heap_Pop",
    "C02_heap_history_remove_fix"
   ],
   "note": "Every history of pushes and pops from any heap, and every history that also removes at an index or replaces an element and fixes it."
  },
  {
   "property": "C03",
   "status": "proved",
   "theorems": [
    "C03_heap_Remove"
   ],
   "note": "Any index in range."
  },
  {
   "property": "C04",
   "status": "proved",
   "theorems": [
    "C04_heap_Fix"
   ],
   "note": "Any replacement value at any index in range."
  },
  {
   "property": "C05",
   "status": "proved",
   "theorems": [
    "C05_heap_sort",
    "C05_min_heap_ascending",
    "C05_max_heap_descending"
   ],
   "note": "Heap sort for every strict weak order; ascending and descending instances for the two heaps of the package."
  },
  {
   "property": "C06",
   "status": "proved",
   "theorems": [
    "C06_heap_Pop_empty_panics",
    "C06_heap_Remove_out_of_range_panics",
    "C06_heap_calls_total"
   ],
   "note": "Panics exactly as stated; valid calls are total for every comparison function, lawful or not."
  },
  {
   "property": "C07",
   "status": "proved",
   "theorems": [
    "C07_pqueue_history",
    "C07_pqueue_Pop_empty_panics"
   ],
   "note": "Every history of pushes and pops; priorities are unbounded integers."
  },
  {
   "property": "C08",
   "status": "partial",
   "theorems": [
    "C08_pqueue_ties_fifo_refuted"
   ],
   "note": "REFUTED: among equal priorities the order is not first-in first-out; witness for both queue kinds and all values."
  },
  {
   "property": "C09",
   "status": "proved",
   "theorems": [
    "C09_dllist_history",
    "C09_dllist_no_panic_and_ends"
   ],
   "note": "Over every history of all 32 calls on any number of lists with handles not invalidated by Clear/Sort; also every such call ends without panic."
  },
  {
   "property": "C10",
   "status": "proved",
   "theorems": [
    "C10_dllist_insert"
   ],
   "note": "All six insertion calls, any reached state, any position; foreign and loose marks change nothing."
  },
  {
   "property": "C11",
   "status": "proved",
   "theorems": [
    "C11_dllist_Remove"
   ],
   "note": "Includes repeated removal and removal through another list."
  },
  {
   "property": "C12",
   "status": "proved",
   "theorems": [
    "C12_dllist_moves"
   ],
   "note": "All four moves, every pair of positions, and all no-op cases."
  },
  {
   "property": "C13",
   "status": "proved",
   "theorems": [
    "C13_dllist_Swap"
   ],
   "note": "All relative positions and both argument orders in one theorem."
  },
  {
   "property": "C14",
   "status": "proved",
   "theorems": [
    "C14_dllist_copy"
   ],
   "note": "Includes o = l."
  },
  {
   "property": "C15",
   "status": "partial",
   "theorems": [
    "C15_PushBackListTo_refuted",
    "C15_self_refuted"
   ],
   "note": "REFUTED: PushBackListTo inserts the copies in reverse, and a list given itself is copied wrongly by both calls (unless the mark is its last element, for PushFrontListTo). The _exact theorems give the result of both calls in every case: for another list, and for the list itself. The theorems about what does hold are listed under C138."
  },
  {
   "property": "C16",
   "status": "proved",
   "theorems": [
    "C16_dllist_Sort"
   ],
   "note": "The recursive quicksort of the code proved stable for every strict weak order; recursion depth proved bounded."
  },
  {
   "property": "C17",
   "status": "partial",
   "theorems": [
    "C17_stale_Remove_refuted",
    "C17_stale_Sort_refuted"
   ],
   "note": "REFUTED: Clear and Sort leave old elements pointing at the list; Remove through one makes Len -1 (for every reached state and element). C17_dllist_other_handles_stay says which handles stay good. The theorems about what does hold are listed under C139."
  },
  {
   "property": "C18",
   "status": "proved",
   "theorems": [
    "C18_dllist_Range",
    "C18_dllist_Range_pure"
   ],
   "note": "For effectful callbacks that keep the sequence of the list, and for pure ones."
  },
  {
   "property": "C19",
   "status": "proved",
   "theorems": [
    "C19_dllist_zero"
   ],
   "note": "Zero value and New give indistinguishable states and the same answers to every call."
  },
  {
   "property": "C20",
   "status": "proved",
   "theorems": [
    "C20_ring_New",
    "C20_ring_Len_Do"
   ],
   "note": "For every heap reachable by any history of calls; fuel only has to exceed Len-1, so Len and Do terminate."
  },
  {
   "property": "C21",
   "status": "proved",
   "theorems": [
    "C21_ring_Move",
    "C21_ring_Next_Prev_inverse"
   ],
   "note": "Every reachable ring, every n; reading initialises a zero struct but changes no ring."
  },
  {
   "property": "C22",
   "status": "proved",
   "theorems": [
    "C22_ring_Link",
    "C22_ring_history",
    "C22_ring_total"
   ],
   "note": "Join, split and self-link as separate clauses of one theorem; the history theorem covers all calls and shows every element stays on exactly one ring; no call on existing elements panics or runs forever."
  },
  {
   "property": "C23",
   "status": "proved",
   "theorems": [
    "C23_ring_Unlink"
   ],
   "note": "Also the case n mod Len = 0, where nothing is removed and r.Next() is returned."
  },
  {
   "property": "C24",
   "status": "proved",
   "theorems": [
    "C24_lhashmap_history",
    "C24_lhashmap_no_panic_and_ends",
    "C24_lhashmap_Load_last"
   ],
   "note": "Every history, keys with any symmetric transitive == (NaN included); Load also characterised directly from the list of calls."
  },
  {
   "property": "C25",
   "status": "partial",
   "theorems": [
    "C25_lhashmap_Range_Load_refuted"
   ],
   "note": "REFUTED: in every reached state with two or more entries a callback that loads its key makes Range run forever (no amount of fuel suffices). C25_lhashmap_Range_exact: it ends and visits in order for every callback that keeps the order. The theorems about what does hold are listed under C140."
  },
  {
   "property": "C26",
   "status": "proved",
   "theorems": [
    "C26_set_algebra"
   ],
   "note": "Any operands (aliased, nil), any iteration order, keys with lawful ==."
  },
  {
   "property": "C27",
   "status": "proved",
   "theorems": [
    "C27_set_history"
   ],
   "note": "Every history of every call over any number of sets, including nil sets and panics."
  },
  {
   "property": "C28",
   "status": "proved",
   "theorems": [
    "C28_set_tests"
   ],
   "note": "IsSubSet and Equal exact; also gives the exact (inverted) meaning of IsSupperSet."
  },
  {
   "property": "C29",
   "status": "partial",
   "theorems": [
    "C29_set_IsSupperSet_refuted"
   ],
   "note": "REFUTED: IsSupperSet negates the subset test; the exact behaviour is in C28_set_tests."
  },
  {
   "property": "C30",
   "status": "partial",
   "theorems": [
    "C30_set_NaN_refuted"
   ],
   "note": "REFUTED for NaN with IEEE equality; proved for element types whose == is an equivalence. The theorems about what does hold are listed under C141."
  },
  {
   "property": "C31",
   "status": "proved",
   "theorems": [
    "C31_set_Clone_CopyFrom",
    "C31_set_unmentioned_set_unchanged"
   ],
   "note": "Clone/CopyFrom effects, and any set not mentioned by later calls keeps its members."
  },
  {
   "property": "C32",
   "status": "proved",
   "theorems": [
    "C32_genmap_history"
   ],
   "note": "Every history of every call over any number of maps, including nil maps and panics; arbitrary iteration order."
  },
  {
   "property": "C33",
   "status": "partial",
   "theorems": [
    "C33_genmap_LoadOrStore_refuted"
   ],
   "note": "REFUTED: on a miss LoadOrStore returns the zero value; the theorem for every miss is given too. The theorems about what does hold are listed under C142."
  },
  {
   "property": "C34",
   "status": "proved",
   "theorems": [
    "C34_genmap_LoadOrStoreFunc_hit",
    "C34_genmap_LoadOrStoreFunc_miss",
    "C34_genmap_LoadOrStoreFunc_panic"
   ],
   "note": "newFunc is an arbitrary computation that may itself use the maps."
  },
  {
   "property": "C35",
   "status": "proved",
   "theorems": [
    "C35_genmap_Clone_Map_From",
    "C35_genmap_unmentioned_map_unchanged"
   ],
   "note": "Clone is a fresh map; Map and From return the same reference; frame theorem over histories."
  },
  {
   "property": "C36",
   "status": "proved",
   "theorems": [
    "C36_genmap_Range",
    "C36_genmap_Keys_Values"
   ],
   "note": "Any callback; any iteration order. Callbacks that modify the map they range over are not modelled."
  },
  {
   "property": "C37",
   "status": "proved",
   "theorems": [
    "C37_call",
    "C37_call_panics",
    "C37_history"
   ],
   "note": "Single calls in every reachable state of any number of vectors, clones and handed-out slices; C37_history for whole runs interleaved with operations on other vectors. Any growth policy. Cut's returned slice is C38."
  },
  {
   "property": "C38",
   "status": "partial",
   "theorems": [
    "C38_Cut_returns_removed_refuted"
   ],
   "note": "REFUTED: Cut(1,3) of 1..6 returns 4,5: the slice returned aliases the array that append then overwrites. C38_Cut_exact and C38_Cut_element: what it returns in every case; right when j is the length. The theorems about what does hold are listed under C143."
  },
  {
   "property": "C39",
   "status": "proved",
   "theorems": [
    "C39_SplitOff"
   ],
   "note": "Any later operations that avoid the one vector, including writes through slices handed out by the other."
  },
  {
   "property": "C40",
   "status": "proved",
   "theorems": [
    "C40_Clone",
    "C40_CloneToSlice"
   ],
   "note": "Same for Clone; the slice of CloneToSlice is unaffected by anything but writes through itself."
  },
  {
   "property": "C41",
   "status": "partial",
   "theorems": [
    "C41_clone_comparator_refuted",
    "C41_clone_comparator_before"
   ],
   "note": "REFUTED: Clone and SplitOff store method values of the original. C41_clone_follows_*: the clone uses the original's current comparator until its own is set; C41_own_comparator_stays: afterwards it keeps it. The theorems about what does hold are listed under C144."
  },
  {
   "property": "C42",
   "status": "proved",
   "theorems": [
    "C42_BinarySearch",
    "C42_BinarySearch_found"
   ],
   "note": "Strict weak order and sorted by it; C42_BinarySearch_found needs the equality to be that of the order."
  },
  {
   "property": "C43",
   "status": "proved",
   "theorems": [
    "C43_Search",
    "C43_SearchFunc",
    "C43_SearchAll",
    "C43_SearchAllFunc",
    "C43_Contains",
    "C43_ContainsFunc"
   ],
   "note": "Any equality. SearchAll with fuel at least the length."
  },
  {
   "property": "C44",
   "status": "proved",
   "theorems": [
    "C44_Max",
    "C44_Min",
    "C44_Max_Min_empty",
    "C44_IsSorted",
    "C44_IsSorted_total",
    "C44_Compare",
    "C44_Compact"
   ],
   "note": "Max and Min for strict weak orders (Max also needs the equality to match); IsSorted, Compare and Compact for any comparators. Max and Min panic on an empty vector."
  },
  {
   "property": "C45",
   "status": "proved",
   "theorems": [
    "C45_out_of_range",
    "C45_empty",
    "C45_bad_range",
    "C45_good_range"
   ],
   "note": "Insert, Delete and Replace panic exactly out of range (C45_bad_range, C45_good_range). Less and Equal on indices panic out of range."
  },
  {
   "property": "C46",
   "status": "partial",
   "theorems": [
    "C46_GetNode_member_refuted"
   ],
   "note": "REFUTED: on a hash collision the key itself is returned, member or not; witness with the code's CRC-32: ring {plumless}, key buckeroo. C46_GetNode_result is the exact behaviour; C46_GetNode_member holds when the key's hash is no other node's virtual hash. The theorems about what does hold are listed under C145."
  },
  {
   "property": "C47",
   "status": "proved",
   "theorems": [
    "C47_GetNode_clockwise"
   ],
   "note": "For every hash function, sort, map order and slice growth; node types whose == is equality (not floats)."
  },
  {
   "property": "C48",
   "status": "partial",
   "theorems": [
    "C48_placement_refuted"
   ],
   "note": "REFUTED: virtual hashes of plumless and buckeroo coincide, so the insertion order decides. C48_placement_depends_on_members holds for collision-free node sets, whatever the two sorts and iteration orders. The theorems about what does hold are listed under C146."
  },
  {
   "property": "C49",
   "status": "partial",
   "theorems": [
    "C49_add_refuted"
   ],
   "note": "REFUTED: adding plumless moves buckeroo to itself. The two C49 theorems hold when virtual hashes of different nodes differ and the key collides with no other node. The theorems about what does hold are listed under C147."
  },
  {
   "property": "C50",
   "status": "proved",
   "theorems": [
    "C50_ring_contents",
    "C50_same_members",
    "C50_no_change"
   ],
   "note": "Any hash function; the vector's order is unique only for collision-free sets."
  },
  {
   "property": "C51",
   "status": "proved",
   "theorems": [
    "C51_member_maps_to_itself"
   ],
   "note": "Any hash function."
  },
  {
   "property": "C52",
   "status": "proved",
   "theorems": [
    "C52_BuildTree_BFS",
    "C52_BuildTree_nil",
    "C52_BuildTree_whole"
   ],
   "note": "Every slice, in every state of the other trees; fuel is any number above the length."
  },
  {
   "property": "C53",
   "status": "proved",
   "theorems": [
    "C53_DFS_preorder",
    "C53_BFS_levels",
    "C53_nil"
   ],
   "note": "Every whole tree and every subtree of it. nil: TraversalBFS gives nothing, TraversalDFS panics (C53_nil)."
  },
  {
   "property": "C54",
   "status": "proved",
   "theorems": [
    "C54_Layer",
    "C54_Layer_all",
    "C54_Layer_nil",
    "C54_MaxDepth"
   ],
   "note": "Depth is the row of the node; MaxDepth is the largest non-empty row of the subtree."
  },
  {
   "property": "C55",
   "status": "partial",
   "theorems": [
    "C55_set_refuted"
   ],
   "note": "REFUTED: attaching a node that is already a child of another node leaves both pointing at it, in every state. Proved: every history that attaches only nil or the root of another tree keeps all links matched, returns the detached subtree, whose root has no parent. The theorems about what does hold are listed under C148."
  },
  {
   "property": "C56",
   "status": "proved",
   "theorems": [
    "C56_IsLeft",
    "C56_IsRight",
    "C56_Sibling",
    "C56_Uncle",
    "C56_Grandparent",
    "C56_IsChildRelation",
    "C56_pair_relations",
    "C56_IsAncestorRelation",
    "C56_nil",
    "C56_Has"
   ],
   "note": "All relations on every whole tree, the other node arbitrary; nil arguments too."
  },
  {
   "property": "C57",
   "status": "partial",
   "theorems": [
    "C57_IsDescendantRelation_refuted"
   ],
   "note": "REFUTED: true of any two unrelated nodes; exact meaning is 'n is not in the subtree of the argument'. The theorems about what does hold are listed under C149."
  },
  {
   "property": "C58",
   "status": "partial",
   "theorems": [
    "C58_DrawTree_refuted"
   ],
   "note": "REFUTED: lines have 1, 2, 4, 6, 8 values, so a perfect tree of four levels is drawn on five lines. Exact output proved, and correct rows whenever row d has 2d nodes (last one possibly fewer). The theorems about what does hold are listed under C150."
  },
  {
   "property": "C59",
   "status": "proved",
   "theorems": [
    "C59_get_behaviour",
    "C59_get_wrapper",
    "C59_refresh_behaviour"
   ],
   "note": "Any clock: the cases are stated for readings between a and b, so that time passing during the call is covered."
  },
  {
   "property": "C60",
   "status": "proved",
   "theorems": [
    "C60_single_refresh",
    "C60_exclusive"
   ],
   "note": "Small-step machine of all loads, stores, lock operations and clock readings; OldVal is the value of the last successful refresh (a panicking one counts as recording the zero value, see C62)."
  },
  {
   "property": "C61",
   "status": "partial",
   "theorems": [
    "C61_values_partial",
    "C61_panic_refuted",
    "C61_huge_age_refuted"
   ],
   "note": "REFUTED: after a panicking refresh, or with maxAge beyond the time since 1970, Get returns a zero value no refresh produced. C61_values_partial proves the claim without panics and with ages below the clock."
  },
  {
   "property": "C62",
   "status": "partial",
   "theorems": [
    "C62_panic_refuted"
   ],
   "note": "REFUTED: the deferred closure records the zero value as a fresh success. C62_panic_behaviour gives the exact effect (the lock is released). The theorems about what does hold are listed under C151."
  },
  {
   "property": "C63",
   "status": "partial",
   "theorems": [
    "C63_raw_value_partial",
    "C63_raw_refuted"
   ],
   "note": "REFUTED for Raw with an errAge window (it shows the zero value); the OldVal part is proved in full. The theorems about what does hold are listed under C152."
  },
  {
   "property": "C64",
   "status": "partial",
   "theorems": [
    "C64_stale_error_refuted"
   ],
   "note": "REFUTED: the error pointer is never cleared, so Raw reports it again once the value has aged. C64_raw_behaviour gives the exact result. The theorems about what does hold are listed under C153."
  },
  {
   "property": "C65",
   "status": "partial",
   "theorems": [
    "C65_clear_forces_partial",
    "C65_lost_clear_refuted"
   ],
   "note": "REFUTED: a Clear during a refresh is lost. C65_clear_forces_partial proves the claim when no refresh is in flight at the Clear. The theorems about what does hold are listed under C154."
  },
  {
   "property": "C66",
   "status": "proved",
   "theorems": [
    "C66_no_stampede"
   ],
   "note": "A waiting Get that gets the lock and whose clock readings find the last success fresh returns it and starts no refresh."
  },
  {
   "property": "C67",
   "status": "proved",
   "theorems": [
    "C67_linearizable",
    "C67_final_map"
   ],
   "note": "Any number of goroutines, every interleaving of the single atomic operations; every call including Clear, Range and SlowLen takes effect inside its interval. Sequentially consistent memory is assumed."
  },
  {
   "property": "C68",
   "status": "proved",
   "theorems": [
    "C68_sequential"
   ],
   "note": "Calls that do not overlap, by any goroutines, with Len, SlowLen, Range and early stop."
  },
  {
   "property": "C69",
   "status": "partial",
   "theorems": [
    "C69_len_at_quiescence_refuted",
    "C69_len_at_quiescence_partial"
   ],
   "note": "REFUTED: a Store overlapping a Clear counts its key after the Clear has set the counter to 0, and Len stays 1 on an empty map. C69_len_at_quiescence_partial proves the claim when no other call overlaps a Clear. C195 bounds the error in all executions."
  },
  {
   "property": "C70",
   "status": "partial",
   "theorems": [
    "C70_len_nonnegative_refuted",
    "C70_len_off_partial"
   ],
   "note": "REFUTED: a Store that has not counted its key yet and a finished Delete make Len return -1. C70_len_off_partial: without calls overlapping a Clear, the counter is off by at most the number of calls in progress that may add or remove a key. C195 has the bound for all executions."
  },
  {
   "property": "C71",
   "status": "proved",
   "theorems": [
    "C71_range"
   ],
   "note": "Stated in the atomic object's run; SlowLen included."
  },
  {
   "property": "C72",
   "status": "proved",
   "theorems": [
    "C72_no_panic",
    "C72_no_deadlock",
    "C72_finishes"
   ],
   "note": "Panics only from reflect's Equal inside CompareAndSwap and CompareAndDelete; no deadlock; a call left alone ends, with a bound on its steps."
  },
  {
   "property": "C73",
   "status": "partial",
   "theorems": [
    "C73_LoadOrStore_partial",
    "C73_LoadOrStore_refuted"
   ],
   "note": "REFUTED for LoadOrStore: after its failed CompareAndDelete it returns the expired entry with loaded = true (C73_LoadOrStore_refuted). Proved for Load, LoadAndDelete and Range; C73_LoadOrStore_partial: an expired entry is returned only if somebody else removed or replaced it during the call. The theorems about what does hold are listed under C155."
  },
  {
   "property": "C74",
   "status": "proved",
   "theorems": [
    "C74_exactly_once",
    "C74_at_rest",
    "C74_only_deleted"
   ],
   "note": "deletedCallback is assumed to return; calls it makes are calls of other goroutines. An entry whose remover is still in its call may not have been handed over yet."
  },
  {
   "property": "C75",
   "status": "proved",
   "theorems": [
    "C75_trim"
   ],
   "note": "One clock reading per trim; entries replaced or removed by others meanwhile are exempt."
  },
  {
   "property": "C76",
   "status": "proved",
   "theorems": [
    "C76_new",
    "C76_boundary",
    "C76_stored",
    "C76_set",
    "C76_add"
   ],
   "note": "Unbounded integers: no overflow of time arithmetic. AddExpiration rounds its duration towards zero to milliseconds."
  },
  {
   "property": "C77",
   "status": "partial",
   "theorems": [
    "C77_sequential_partial",
    "C77_sequential_refuted"
   ],
   "note": "REFUTED: CompareAndDelete ignores expiration, so it succeeds on an expired entry that is still stored (C77_sequential_refuted). C77_sequential_partial: all results agree with a map with expirations except for that; trim included; assumes non-decreasing clock and no AddExpiration/SetExpiration."
  },
  {
   "property": "C78",
   "status": "proved",
   "theorems": [
    "C78_trimmed",
    "C78_not_trimmed"
   ],
   "note": "startOnce and the ticker (when a Range is called) are not modelled."
  },
  {
   "property": "C79",
   "status": "partial",
   "theorems": [
    "C79_lhashmap_Range_Remove_refuted"
   ],
   "note": "REFUTED: Range stops after the first entry when the callback removes it (in every reached non-empty state)."
  },
  {
   "property": "C80",
   "status": "proved",
   "theorems": [
    "C80_EqualVec",
    "C80_EqualSlice"
   ],
   "note": "Any equality."
  },
  {
   "property": "C81",
   "status": "proved",
   "theorems": [
    "C81_Sort",
    "C81_SortStable"
   ],
   "note": "The library sort is a parameter constrained by its documented contract (sorts, sorts_stably); an insertion sort meets it."
  },
  {
   "property": "C82",
   "status": "proved",
   "theorems": [
    "C82_Range"
   ],
   "note": "Callbacks that only accumulate."
  },
  {
   "property": "C83",
   "status": "proved",
   "theorems": [
    "C83_no_deadlock"
   ],
   "note": "User functions are assumed to return."
  },
  {
   "property": "C84",
   "status": "proved",
   "theorems": [
    "C84_calls"
   ],
   "note": "See answers in SyncCacheSpec.v."
  },
  {
   "property": "C85",
   "status": "proved",
   "theorems": [
    "C85_range"
   ],
   "note": "See swept in SyncCacheSpec.v."
  },
  {
   "property": "C86",
   "status": "proved",
   "theorems": [
    "C86_clear"
   ],
   "note": "Without callback Clear is rwmap's Clear; with one it ranges and deletes."
  },
  {
   "property": "C87",
   "status": "proved",
   "theorems": [
    "C87_synccache_no_deadlock"
   ],
   "note": "Goroutines inside a call, for any number of goroutines, any interleaving and any clock. User callbacks are assumed to return."
  },
  {
   "property": "C88",
   "status": "partial",
   "theorems": [
    "C88_race_refuted"
   ],
   "note": "REFUTED: Clear sets len with a plain store while other goroutines use it atomically without the mutex. C88_only_race_is_len proves that this is the only data race; C88_accesses that the list of accesses fits the steps of the model. The theorems about what does hold are listed under C156."
  },
  {
   "property": "C89",
   "status": "partial",
   "theorems": [
    "C89_race_refuted"
   ],
   "note": "REFUTED: Get reads last under the mutex without atomic while Clear stores it without the mutex. C89_only_race_is_last proves that this is the only data race; C89_accesses that the list of accesses fits the steps of the model. The theorems about what does hold are listed under C157."
  },
  {
   "property": "C90",
   "status": "proved",
   "theorems": [
    "C90_all_return",
    "C90_no_livelock"
   ],
   "note": "all_return says: nobody is in a call, or somebody can step and after every step it holds again. C90_no_livelock: no infinite sequence of steps without new calls."
  },
  {
   "property": "C91",
   "status": "partial",
   "theorems": [
    "C91_wait_free_refuted"
   ],
   "note": "REFUTED for Store: C91_wait_free_refuted gives for every n an execution in which a Store makes more than n steps while n Swaps of others return. C91_no_retries proves a bound of 7 steps for Load, Len and Clear. The theorems about what does hold are listed under C158."
  },
  {
   "property": "C92",
   "status": "proved",
   "theorems": [
    "C92_all_return",
    "C92_no_retries"
   ],
   "note": "C92_all_return as C90; C92_no_retries is the bound on the steps of one call."
  },
  {
   "property": "C93",
   "status": "proved",
   "theorems": [
    "C93_all_return"
   ],
   "note": "all_return as in C90, with changes of expirations allowed before every step."
  },
  {
   "property": "C94",
   "status": "proved",
   "theorems": [
    "C94_callbacks_may_use_the_map",
    "C94_no_lock_in_callback"
   ],
   "note": "return_meanwhile is all_return while the goroutines in a callback stay there; C94_no_lock_in_callback: nobody in a callback holds the mutex."
  },
  {
   "property": "C95",
   "status": "proved",
   "theorems": [
    "C95_callbacks_may_use_the_cache",
    "C95_no_lock_in_callback"
   ],
   "note": "return_meanwhile is all_return while the goroutines in a callback stay there; C95_no_lock_in_callback: nobody in a callback holds the mutex of the map."
  },
  {
   "property": "C96",
   "status": "partial",
   "theorems": [
    "C96_refresh_function_refuted"
   ],
   "note": "REFUTED for the refresh function: C96_refresh_function_refuted, a Refresh made while it runs does not return before it does; C96_waiting the same for every call that waits for the mutex. C96_meanwhile proves that everything else returns, in particular calls made by the clear function. The theorems about what does hold are listed under C159."
  },
  {
   "property": "C97",
   "status": "proved",
   "theorems": [
    "C97_range_produces"
   ],
   "note": "For an arbitrary set of calls the callback may make (so for all calls of set and genmap) and nested Ranges. The loop follows the Go specification: new entries may come or not."
  },
  {
   "property": "C98",
   "status": "proved",
   "theorems": [
    "C98_range_ends"
   ],
   "note": "Keys added during the loop may make it longer without bound as far as the language specification goes (ex_C98_unbounded)."
  },
  {
   "property": "C99",
   "status": "proved",
   "theorems": [
    "C99_delete_in_range",
    "C99_remove_in_range"
   ],
   "note": "genmap with Delete (compared with DeleteFunc) and set with Remove."
  },
  {
   "property": "C100",
   "status": "proved",
   "theorems": [
    "C100_snapshot"
   ],
   "note": "Both directions: justifies that GoMap.v and the loops of set and genmap built on it iterate over the entries present at the start."
  },
  {
   "property": "C101",
   "status": "proved",
   "theorems": [
    "C101_sequential",
    "C101_refresh_func",
    "C101_clear_func",
    "C101_clear_result"
   ],
   "note": "Calls one after the other with an arbitrary clock value each (calls during which the clock moves: C59, C64). The functions set last are used whatever other goroutines do in between other than setting others."
  },
  {
   "property": "C102",
   "status": "proved",
   "theorems": [
    "C102_Init",
    "C102_Push",
    "C102_Pop",
    "C102_Remove",
    "C102_Fix",
    "C102_sort",
    "C102_slice",
    "C102_items",
    "C102_item_update",
    "C102_item_out",
    "C102_item_update_out"
   ],
   "note": "The methods are arbitrary functions on an arbitrary state that meet the contract `implements`; an implementation may refuse elements to push (the items of the example must not be in the queue already)."
  },
  {
   "property": "C103",
   "status": "proved",
   "theorems": [
    "C103_Init",
    "C103_Push",
    "C103_Pop",
    "C103_Remove",
    "C103_Fix",
    "C103_sort",
    "C103_counting"
   ],
   "note": "Counted by an implementation that wraps any other one. No order is assumed except for sorting. The bounds of Push are reached (example)."
  },
  {
   "property": "C104",
   "status": "proved",
   "theorems": [
    "C104_sequential"
   ],
   "note": "Exact description of every call used sequentially, including all observations; the results with expired entries that C77 finds (CompareAndDelete of an expired entry) are part of it."
  },
  {
   "property": "C105",
   "status": "proved",
   "theorems": [
    "C105_detected",
    "C105_integers",
    "C105_floats",
    "C105_strings",
    "C105_unsupported"
   ],
   "note": "Proved for ints, uints, floats other than NaN, strings, and the panic for other types; pointers and NaN are a claim of their own. The comparators are shown to be those that the parameters of VecModel stand for."
  },
  {
   "property": "C106",
   "status": "proved",
   "theorems": [
    "C106_lhashmap_Range_exact",
    "C106_lhashmap_Range_no_panic",
    "C106_lhashmap_Range_in_order",
    "C106_lhashmap_Range_ends",
    "C106_lhashmap_Range_in_map",
    "C106_lhashmap_Range_untouched"
   ],
   "note": "Proved for all callbacks that only call methods of the map other than Clear: exact description by turns, no panic, order, termination, membership, completeness."
  },
  {
   "property": "C107",
   "status": "proved",
   "theorems": [
    "C107_dllist_Range_exact",
    "C107_element_Range_exact",
    "C107_dllist_Range_no_panic",
    "C107_dllist_Range_in_list",
    "C107_dllist_Range_in_order",
    "C107_dllist_Range_ends",
    "C107_dllist_Range_complete"
   ],
   "note": "Proved for all callbacks that use good handles and do not clear or sort the list under their element: exact description by turns, no panic, membership, order, termination, completeness."
  },
  {
   "property": "C108",
   "status": "proved",
   "theorems": [
    "C108_ring_Unlink_int64",
    "C108_ring_Unlink_largest"
   ],
   "note": "Exactly n mod Len elements are removed for every 64-bit n but math.MaxInt64; C108_ring_Unlink_largest says for which lengths that one is right."
  },
  {
   "property": "C109",
   "status": "proved",
   "theorems": [
    "C109_ring_Do_exact",
    "C109_ring_Do_no_panic",
    "C109_ring_Do_in_order",
    "C109_ring_Do_ends",
    "C109_ring_Do_complete",
    "C109_ring_Do_pure"
   ],
   "note": "Proved for all callbacks that call functions on existing elements: exact description by turns, no panic; order, termination and completeness if nothing gets between the current element and the start."
  },
  {
   "property": "C110",
   "status": "proved",
   "theorems": [
    "C110_vec_Range_exact",
    "C110_vec_Range_indices",
    "C110_vec_Range_no_panic",
    "C110_vec_Range_ends",
    "C110_vec_Range_complete",
    "C110_vec_Range_callbacks"
   ],
   "note": "Proved for all callbacks that make vectors, call methods of existing vectors and write through slices: exact description by turns in both directions, indices, no panic, termination within a bound on the length, completeness."
  },
  {
   "property": "C111",
   "status": "proved",
   "theorems": [
    "C111_refreshcache_int64",
    "C111_refreshcache_since_1970"
   ],
   "note": "Any clock range that contains 1970 and is shorter than 2^63 ns, in particular every clock from 1970 on that fits UnixNano; C111_example_beyond shows the machines differ beyond it. Hence the other refreshcache theorems hold with 64-bit integers."
  },
  {
   "property": "C112",
   "status": "proved",
   "theorems": [
    "C112_synccache_int64",
    "C112_synccache_no_AddExpiration"
   ],
   "note": "With at most 500000 AddExpirations and expirations set within 2^62 ms, wrap-around changes nothing, so the other synccache theorems hold with 64-bit integers."
  },
  {
   "property": "C113",
   "status": "proved",
   "theorems": [
    "C113_steps",
    "C113_sequential",
    "C113_copies"
   ],
   "note": "The steps are those of the machine of C67: a lookup in a Go map, clear(m.dirty) in Clear and waiting for the mutex count as part of one step, and Clear of a map of n entries therefore as constant."
  },
  {
   "property": "C114",
   "status": "proved",
   "theorems": [
    "C114_histories",
    "C114_reads",
    "C114_compares",
    "C114_range"
   ],
   "note": "The documentation (lines 28-35) also speaks of reads that observe a deletion; this claim is about reads that observe a value."
  },
  {
   "property": "C115",
   "status": "proved",
   "theorems": [
    "C115_Init",
    "C115_Push",
    "C115_Pop",
    "C115_Remove",
    "C115_Fix",
    "C115_pops",
    "C115_slice",
    "C115_coin"
   ],
   "note": "Len, Swap, Push and Pop of the implementation are as documented; fewer than 2^63 elements."
  },
  {
   "property": "C116",
   "status": "proved",
   "theorems": [
    "C116_order",
    "C116_min",
    "C116_max",
    "C116_min_sort",
    "C116_max_sort"
   ],
   "note": "Floats are spec_float of the standard library, of any precision."
  },
  {
   "property": "C117",
   "status": "partial",
   "theorems": [
    "C117_NaN_refuted"
   ],
   "note": "REFUTED for NaN (C117_NaN_refuted); C115 says what still holds, C116 what holds without NaN."
  },
  {
   "property": "C118",
   "status": "proved",
   "theorems": [
    "C118_one",
    "C118_trimmed",
    "C118_not_trimmed",
    "C118_once",
    "C118_apart",
    "C118_period",
    "C118_soon"
   ],
   "note": "The registry is an atomic set and Range the atomic object of RwMapSpec.v, which C67 shows rwmap to implement; sync.Once is modelled with its mutex and flag, the ticker with its buffered channel."
  },
  {
   "property": "C119",
   "status": "proved",
   "theorems": [
    "C119_trimTime"
   ],
   "note": "Of the machine of C118; trimTime does not occur elsewhere in the package."
  },
  {
   "property": "C120",
   "status": "proved",
   "theorems": [
    "C120_stuck",
    "C120_forever"
   ],
   "note": "The trim of a cache is a stay of any duration of the goroutine in it."
  },
  {
   "property": "C121",
   "status": "partial",
   "theorems": [
    "C121_trimTime_refuted"
   ],
   "note": "REFUTED (C121_trimTime_refuted)."
  },
  {
   "property": "C122",
   "status": "partial",
   "theorems": [
    "C122_close_refuted"
   ],
   "note": "REFUTED (C122_close_refuted); C118_not_trimmed says that no trim begins after Close has returned."
  },
  {
   "property": "C123",
   "status": "proved",
   "theorems": [
    "C123_refresh_functions",
    "C123_clear_functions",
    "C123_results"
   ],
   "note": "A function of the model is the Go function together with the context and arguments it is handed, so this is about the function, the context and the arguments."
  },
  {
   "property": "C124",
   "status": "partial",
   "theorems": [
    "C124_arguments_refuted"
   ],
   "note": "REFUTED (C124_arguments_refuted): one value is kept for all arguments; Get with the arguments 2 returns the value fetched with the arguments 1, with a nil error and without any call for the arguments 2."
  },
  {
   "property": "C125",
   "status": "proved",
   "theorems": [
    "C125_any",
    "C125_same"
   ],
   "note": "C125_same ties the Sort with a stateful function to the Sort of C09 and C16."
  },
  {
   "property": "C126",
   "status": "proved",
   "theorems": [
    "C126_comparisons",
    "C126_sorted"
   ],
   "note": "C126_comparisons gives the two bounds, C126_sorted the exact number on sorted lists."
  },
  {
   "property": "C127",
   "status": "partial",
   "theorems": [
    "C127_quasilinear_refuted"
   ],
   "note": "REFUTED (C127_quasilinear_refuted): for every c there is a sorted list on which Sort makes more than c n log2 n comparisons."
  },
  {
   "property": "C128",
   "status": "proved",
   "theorems": [
    "C128_Less",
    "C128_Equal",
    "C128_Cmp",
    "C128_IsEmpty"
   ],
   "note": "Less, Equal and the comparators by value, for valid indices; C45 has the other indices."
  },
  {
   "property": "C129",
   "status": "proved",
   "theorems": [
    "C129_relatives",
    "C129_children",
    "C129_parent"
   ],
   "note": "Complements C56: the methods that only say whether there is such a node."
  },
  {
   "property": "C130",
   "status": "proved",
   "theorems": [
    "C130_CopyFromRaw",
    "C130_CopyToRaw",
    "C130_nil"
   ],
   "note": "A plain map and a GenMap are the same reference in the model, as in Go after a conversion."
  },
  {
   "property": "C131",
   "status": "proved",
   "theorems": [
    "C131_Cap",
    "C131_call",
    "C131_copying",
    "C131_Clip"
   ],
   "note": "C131_call covers every call but the three that copy (C131_copying) and Clip (C131_Clip); the growth policy of append is arbitrary."
  },
  {
   "property": "C132",
   "status": "proved",
   "theorems": [
    "C132_Grow",
    "C132_pushes"
   ],
   "note": "C132_Grow gives the capacity, C132_pushes the pushes."
  },
  {
   "property": "C133",
   "status": "partial",
   "theorems": [
    "C133_Clear_refuted",
    "C133_never_shrinks"
   ],
   "note": "REFUTED: the comment says that Clear shrinks the capacity; C133_Clear_refuted shows that it never changes it, C133_never_shrinks that only Clip does."
  },
  {
   "property": "C134",
   "status": "proved",
   "theorems": [
    "C134_BinarySearch",
    "C134_Max",
    "C134_Min",
    "C134_Sort",
    "C134_SortStable"
   ],
   "note": "No assumption on the comparators but that they return."
  },
  {
   "property": "C135",
   "status": "proved",
   "theorems": [
    "C135_Max",
    "C135_Min",
    "C135_IsSorted",
    "C135_BinarySearch",
    "C135_Sort",
    "C135_SortStable",
    "C135_floats"
   ],
   "note": "C135_floats shows the hypotheses for floats other than NaN; isort_by_comparing those on the sorting function for insertion sort."
  },
  {
   "property": "C136",
   "status": "partial",
   "theorems": [
    "C136_Max_refuted",
    "C136_Min_first_refuted",
    "C136_Min_later"
   ],
   "note": "REFUTED for Max (C136_Max_refuted: a NaN makes Max forget all that came before) and for Min when NaN comes first (C136_Min_first_refuted); C136_Min_later says what Min does otherwise."
  },
  {
   "property": "C137",
   "status": "partial",
   "theorems": [
    "C137_Sort_refuted"
   ],
   "note": "REFUTED: the comparison answers 1 both for (x, NaN) and for (NaN, x), so the two slices are permuted alike."
  },
  {
   "property": "C138",
   "status": "proved",
   "theorems": [
    "C15_dllist_copy_to_exact",
    "C15_dllist_copy_to_self_exact"
   ],
   "note": "The exact behaviour behind the refuted C15."
  },
  {
   "property": "C139",
   "status": "proved",
   "theorems": [
    "C17_dllist_other_handles_stay"
   ],
   "note": "The positive side of C17."
  },
  {
   "property": "C140",
   "status": "proved",
   "theorems": [
    "C25_lhashmap_Range_exact"
   ],
   "note": "The positive side of C25; C106 has callbacks that change the map."
  },
  {
   "property": "C141",
   "status": "proved",
   "theorems": [
    "C30_set_lawful_elements"
   ],
   "note": "The positive side of C30."
  },
  {
   "property": "C142",
   "status": "proved",
   "theorems": [
    "C33_genmap_LoadOrStore_miss_returns_zero"
   ],
   "note": "The exact behaviour behind the refuted C33."
  },
  {
   "property": "C143",
   "status": "proved",
   "theorems": [
    "C38_Cut_exact",
    "C38_Cut_element",
    "C38_Cut_tail"
   ],
   "note": "The exact behaviour behind the refuted C38."
  },
  {
   "property": "C144",
   "status": "proved",
   "theorems": [
    "C41_clone_follows_less",
    "C41_clone_follows_equal",
    "C41_own_comparator_stays"
   ],
   "note": "The exact behaviour behind the refuted C41."
  },
  {
   "property": "C145",
   "status": "proved",
   "theorems": [
    "C46_GetNode_result",
    "C46_GetNode_member"
   ],
   "note": "The exact behaviour behind the refuted C46."
  },
  {
   "property": "C146",
   "status": "proved",
   "theorems": [
    "C48_placement_depends_on_members"
   ],
   "note": "The positive side of C48."
  },
  {
   "property": "C147",
   "status": "proved",
   "theorems": [
    "C49_add_moves_to_added",
    "C49_remove_moves_from_removed"
   ],
   "note": "The positive side of C49."
  },
  {
   "property": "C148",
   "status": "proved",
   "theorems": [
    "C55_history_consistent",
    "C55_step",
    "C55_old_child_is_root"
   ],
   "note": "The positive side of C55."
  },
  {
   "property": "C149",
   "status": "proved",
   "theorems": [
    "C57_IsDescendantRelation_exact"
   ],
   "note": "The exact behaviour behind the refuted C57."
  },
  {
   "property": "C150",
   "status": "proved",
   "theorems": [
    "C58_DrawTree_exact",
    "C58_DrawTree_rows"
   ],
   "note": "The exact behaviour behind the refuted C58."
  },
  {
   "property": "C151",
   "status": "proved",
   "theorems": [
    "C62_panic_behaviour"
   ],
   "note": "The exact behaviour behind the refuted C62."
  },
  {
   "property": "C152",
   "status": "proved",
   "theorems": [
    "C63_failures_keep_value",
    "C63_failure_behaviour"
   ],
   "note": "The positive side of C63."
  },
  {
   "property": "C153",
   "status": "proved",
   "theorems": [
    "C64_raw_behaviour"
   ],
   "note": "The exact behaviour behind the refuted C64."
  },
  {
   "property": "C154",
   "status": "proved",
   "theorems": [
    "C65_clear_behaviour"
   ],
   "note": "The positive side of C65."
  },
  {
   "property": "C155",
   "status": "proved",
   "theorems": [
    "C73_load",
    "C73_range"
   ],
   "note": "The positive side of C73."
  },
  {
   "property": "C156",
   "status": "proved",
   "theorems": [
    "C88_only_race_is_len",
    "C88_mutex_held",
    "C88_accesses"
   ],
   "note": "The positive side of C88."
  },
  {
   "property": "C157",
   "status": "proved",
   "theorems": [
    "C89_only_race_is_last",
    "C89_accesses"
   ],
   "note": "The positive side of C89."
  },
  {
   "property": "C158",
   "status": "proved",
   "theorems": [
    "C91_no_retries"
   ],
   "note": "The positive side of C91."
  },
  {
   "property": "C159",
   "status": "proved",
   "theorems": [
    "C96_meanwhile",
    "C96_waiting"
   ],
   "note": "The positive side of C96."
  },
  {
   "property": "C160",
   "status": "partial",
   "theorems": [
    "C105_NaN_refuted",
    "C105_pointer_to_number_refuted",
    "C105_pointer_to_string_refuted",
    "C105_pointer_to_number_Contains",
    "C105_pointer_to_string_Contains",
    "C105_pointer_to_string_Compact"
   ],
   "note": "REFUTED for pointers to numbers, pointers to strings and NaN, with what Contains and Compact then do. C105 and C134-C137 have the rest."
  },
  {
   "property": "C161",
   "status": "partial",
   "theorems": [
    "C106_lhashmap_Range_Clear_refuted"
   ],
   "note": "REFUTED for every map: all entries are given though the map is empty."
  },
  {
   "property": "C162",
   "status": "partial",
   "theorems": [
    "C107_dllist_Range_Remove_refuted",
    "C107_dllist_Range_Clear_refuted",
    "C107_dllist_Range_PushBack_endless"
   ],
   "note": "REFUTED in three ways, each for every list."
  },
  {
   "property": "C163",
   "status": "partial",
   "theorems": [
    "C108_ring_Unlink_overflow_refuted"
   ],
   "note": "REFUTED for every ring of three; C108 says for which lengths it is right."
  },
  {
   "property": "C164",
   "status": "partial",
   "theorems": [
    "C109_ring_Do_Unlink_refuted"
   ],
   "note": "REFUTED for every ring of two or more."
  },
  {
   "property": "C165",
   "status": "partial",
   "theorems": [
    "C110_vec_Range_Remove_refuted",
    "C110_vec_Range_Push_refuted"
   ],
   "note": "REFUTED in two ways, each for every vector."
  },
  {
   "property": "C166",
   "status": "partial",
   "theorems": [
    "C112_AddExpiration_overflow_refuted"
   ],
   "note": "REFUTED in every state by wrap-around."
  },
  {
   "property": "C167",
   "status": "proved",
   "theorems": [
    "C167_age"
   ],
   "note": "All executions of any number of goroutines, with refreshes that fail, panic or are cleared. The moment is a prefix x of the trace; covers x tr1 says that it contains every success recorded before the call."
  },
  {
   "property": "C168",
   "status": "proved",
   "theorems": [
    "C168_order"
   ],
   "note": "Both calls under the same assumption on their clock readings; v and v' are the values recorded in prefixes x and x ++ y of the one trace."
  },
  {
   "property": "C169",
   "status": "proved",
   "theorems": [
    "C169_BinarySearchFunc",
    "C169_BinarySearch"
   ],
   "note": "The positions are those where the search compared; nothing is assumed of the order of the elements. answer drops the world from a result."
  },
  {
   "property": "C170",
   "status": "proved",
   "theorems": [
    "C170_SearchFunc",
    "C170_ContainsFunc",
    "C170_EqualVecFunc_length",
    "C170_EqualVecFunc",
    "C170_CompareFunc",
    "C170_IsSortedFunc"
   ],
   "note": "r is what the function says at the deciding position: an answer or a panic."
  },
  {
   "property": "C171",
   "status": "partial",
   "theorems": [
    "C171_Pop_lets_go_refuted",
    "C171_Clear_lets_go_refuted"
   ],
   "note": "REFUTED for every vector with an element, not only a bad one: what Pop or Clear takes out stays in the array. C172 says what each method leaves there."
  },
  {
   "property": "C172",
   "status": "proved",
   "theorems": [
    "C172_Pop",
    "C172_Remove",
    "C172_Clear",
    "C172_Cut",
    "C172_Delete",
    "C172_Replace",
    "C172_Insert",
    "C172_Compact"
   ],
   "note": "held is the part of the array up to the capacity, behind what follows the elements. That Delete, Replace and Compact zero the freed cells is the documented behaviour of package slices since Go 1.22, which go.mod asks for. Clip is left out: it shortens the capacity, the array stays as it is."
  },
  {
   "property": "C173",
   "status": "partial",
   "theorems": [
    "C173_Pop_lets_go_refuted"
   ],
   "note": "REFUTED in every heap. C174 says what the cells behind the heap hold."
  },
  {
   "property": "C174",
   "status": "proved",
   "theorems": [
    "C174_contract",
    "C174_Init",
    "C174_Pop",
    "C174_Remove",
    "C174_Push",
    "C174_pops",
    "C174_sorts"
   ],
   "note": "C174_contract shows that the types with their arrays keep the contract of heap.Interface, so that C102 and C103 apply to them. The order is any strict weak order; int has 64 bits."
  },
  {
   "property": "C175",
   "status": "proved",
   "theorems": [
    "C175_equal",
    "C175_no_panic",
    "C175_panic",
    "C175_func_map_slice",
    "C175_incomparable"
   ],
   "note": "The model of reflect.Value.Equal follows its source in Go 1.22; the operator == is stated separately, as an inductive relation after the language specification. Types are told apart by a number per kind."
  },
  {
   "property": "C176",
   "status": "proved",
   "theorems": [
    "C176_rwmap_no_panic",
    "C176_rwmap_compares",
    "C176_rwmap_panics",
    "C176_synccache_no_panic",
    "C176_synccache_compares"
   ],
   "note": "Values are those of the modelled type t. The results for single calls of rwmap are about the plain map that C67 and C68 show it to be."
  },
  {
   "property": "C177",
   "status": "partial",
   "theorems": [
    "C177_race_refuted"
   ],
   "note": "REFUTED by a run with a Store about to count its key and a Clear about to reset len, without a deletedCallback."
  },
  {
   "property": "C178",
   "status": "proved",
   "theorems": [
    "C178_only_race_is_len",
    "C178_histories",
    "C178_entries",
    "C178_fields"
   ],
   "note": "C178_only_race_is_len is about accesses possible at the same moment; C178_entries is about the order of the memory model, in which only the observation of pointers of rwmap's entries orders goroutines, so a proof with fewer means than the code has."
  },
  {
   "property": "C179",
   "status": "proved",
   "theorems": [
    "C179_histories",
    "C179_values",
    "C179_errors",
    "C179_refreshes",
    "C179_clears"
   ],
   "note": "The mutex orders more, and the plain reads of the refresh function are left out, so the proof uses fewer means than the code has. Values are told apart by what they are, not by which refresh made them: two refreshes that return the same value are not distinguished."
  },
  {
   "property": "C180",
   "status": "proved",
   "theorems": [
    "C180_panic",
    "C180_same"
   ],
   "note": "The panic is recovered by the program, outside of Sort; the elements of the lists made inside Sort are garbage."
  },
  {
   "property": "C181",
   "status": "proved",
   "theorems": [
    "C181_Init",
    "C181_Push",
    "C181_Pop",
    "C181_Remove",
    "C181_Fix",
    "C181_slice",
    "C181_same"
   ],
   "note": "The heap order may be broken after a panic; Init restores it (C102)."
  },
  {
   "property": "C182",
   "status": "partial",
   "theorems": [
    "C182_any_number_of_times",
    "C182_bounded_refuted"
   ],
   "note": "REFUTED: C182_any_number_of_times gives the executions."
  },
  {
   "property": "C183",
   "status": "proved",
   "theorems": [
    "C183_once_per_expired_entry",
    "C183_at_most_once_per_entry"
   ],
   "note": "If no new calls are made all calls return (C93)."
  },
  {
   "property": "C184",
   "status": "proved",
   "theorems": [
    "C184_values_let_go",
    "C184_values_kept"
   ],
   "note": "C184_half_clear shows the exception. C185 is about the keys."
  },
  {
   "property": "C185",
   "status": "partial",
   "theorems": [
    "C185_keys_let_go_refuted"
   ],
   "note": "REFUTED. The keys go when the dirty map is made from the read map and then promoted."
  },
  {
   "property": "C186",
   "status": "partial",
   "theorems": [
    "C186_Range_of_one_moment_refuted",
    "C186_SlowLen_of_one_moment_refuted"
   ],
   "note": "REFUTED. What Range does give is C71; Len is C69 and C70."
  },
  {
   "property": "C187",
   "status": "proved",
   "theorems": [
    "C187_texts_differ",
    "C187_texts_of_ints_differ",
    "C187_32_bits"
   ],
   "note": "C187_negative: not so for negative indices, which do not occur."
  },
  {
   "property": "C188",
   "status": "proved",
   "theorems": [
    "C188_four_bytes",
    "C188_replicas"
   ],
   "note": "C188_eight_bytes: names that differ in eight bytes can collide."
  },
  {
   "property": "C189",
   "status": "proved",
   "theorems": [
    "C189_no_collisions",
    "C189_placement",
    "C189_member",
    "C189_add",
    "C189_remove"
   ],
   "note": "Discharges the condition of C48, C49, C146, C147 for such names."
  },
  {
   "property": "C190",
   "status": "proved",
   "theorems": [
    "C190_panic_as_false",
    "C190_linearizable",
    "C190_no_deadlock",
    "C190_mutex_free"
   ],
   "note": "The panicking machine of RwMapPanicSpec.v takes the steps of that of RwMapModel.v, with one more way for Range to end; C190_panic_as_false maps its executions to those of the original, so C67 and C72 apply."
  },
  {
   "property": "C191",
   "status": "proved",
   "theorems": [
    "C191_no_mutex",
    "C191_Range_no_mutex",
    "C191_Load_two_steps"
   ],
   "note": "Store, Swap and LoadOrStore of a key in the read map take the mutex if the entry is expunged; how often the others try again is C91."
  },
  {
   "property": "C192",
   "status": "proved",
   "theorems": [
    "C192_list_keeps_its_elements",
    "C192_removed_element_keeps_nothing"
   ],
   "note": "What values of type T point to is left out; handles are good as in C09."
  },
  {
   "property": "C193",
   "status": "proved",
   "theorems": [
    "C193_lhashmap_keeps_its_entries"
   ],
   "note": "Reachability through pointers is defined in DllistKeepSpec.v on the cells of the model, not by the proofs."
  },
  {
   "property": "C194",
   "status": "partial",
   "theorems": [
    "C194_cleared_element_keeps_list_refuted",
    "C194_later_elements_kept_refuted"
   ],
   "note": "REFUTED: Clear and Sort leave the pointers of the elements they take out as they are (shown for any list after Clear; two histories show later elements kept)."
  },
  {
   "property": "C195",
   "status": "proved",
   "theorems": [
    "C195_len_off_everywhere",
    "C195_len_at_rest"
   ],
   "note": "Removes the restriction of C69 and C70 that no call overlaps a Clear."
  },
  {
   "property": "C196",
   "status": "proved",
   "theorems": [
    "C196_let_go_after_two_promotions"
   ],
   "note": "The positive side of C185."
  },
  {
   "property": "C197",
   "status": "partial",
   "theorems": [
    "C197_bounded_memory_refuted"
   ],
   "note": "REFUTED: keys removed with CompareAndDelete stay in dirty, which is promoted only when the misses reach its size; storing and removing one key after another lets both grow at the same rate."
  },
  {
   "property": "C198",
   "status": "proved",
   "theorems": [
    "C198_Slice_is_SliceCut",
    "C198_write_through",
    "C198_seen_through",
    "C198_append_overwrites",
    "C198_Push_overwrites",
    "C198_growth_detaches"
   ],
   "note": "Slices handed out by the vector are handles into the same array of the model. append by the caller is modelled by the same go_append that Push of the model uses, with an arbitrary growth policy. The theorems about append and Set exclude the nil slice that SliceCut returns for a wrong range."
  },
  {
   "property": "C199",
   "status": "proved",
   "theorems": [
    "C199_half_compacted",
    "C199_returns",
    "C199_elements"
   ],
   "note": "VecPanicSpec.v has the two versions of the loop element by element; their effect on the array is that of writing the elements of the slice back, because they touch no others."
  },
  {
   "property": "C200",
   "status": "partial",
   "theorems": [
    "C200_repeat_refuted"
   ],
   "note": "REFUTED: the elements between the kept ones and the place of the panic are there twice, so compacting again does not remove them all."
  },
  {
   "property": "C201",
   "status": "proved",
   "theorems": [
    "C201_as_built_in_map"
   ],
   "note": "A second model of rwmap.go: one goroutine, but any ==. The concurrent model of C67 has keys whose == is equality."
  },
  {
   "property": "C202",
   "status": "proved",
   "theorems": [
    "C202_never_found",
    "C202_kept_until_Clear"
   ],
   "note": "Follows from C201's invariant; kept in RwMapAnySpec.v lists the pairs."
  },
  {
   "property": "C203",
   "status": "proved",
   "theorems": [
    "C203_quiet",
    "C203_returns",
    "C203_in_the_map",
    "C203_all_shown"
   ],
   "note": "The callback is a function from the pairs so far to the calls it makes next, so it may depend on all it has seen. A Range or SlowLen inside it is a call too; the callback of that inner Range only looks at its arguments. C203_quiet: with a callback that makes no calls this is the Range of RwMapAnyModel.v."
  },
  {
   "property": "C204",
   "status": "partial",
   "theorems": [
    "C204_in_the_map_refuted"
   ],
   "note": "REFUTED: Clear gives the map new tables and leaves the entries of the old ones as they are."
  },
  {
   "property": "C205",
   "status": "proved",
   "theorems": [
    "C205_effects",
    "C205_trim",
    "C205_clear"
   ],
   "note": "The clock is a function from entries to readings, because one call reads it at most once per entry. effect in SyncCacheAnySpec.v is the description. The callbacks do not use the cache here."
  },
  {
   "property": "C206",
   "status": "proved",
   "theorems": [
    "C206_kept",
    "C206_grows"
   ],
   "note": "trim, Clear and Range delete by key (CompareAndDelete), and NaN finds no key. C206_kept: a Range shows the pairs stored under such keys; C206_grows: the length of the map."
  },
  {
   "property": "C207",
   "status": "partial",
   "theorems": [
    "C207_clear_refuted",
    "C207_trim_refuted"
   ],
   "note": "REFUTED: trim and the Clear with a deletedCallback delete by key, and the key NaN finds nothing."
  },
  {
   "property": "C208",
   "status": "proved",
   "theorems": [
    "C208_effects",
    "C208_returns",
    "C208_LoadOrStore_returns"
   ],
   "note": "load_or_store, walk and replaced in SyncCacheStoreSpec.v are the description. The clock is read when an entry is made and when it is looked at; both readings are arbitrary. Of the pairs under keys that are not == to themselves it is not shown that a Range comes to all of them (without such a callback: C206)."
  },
  {
   "property": "C209",
   "status": "partial",
   "theorems": [
    "C209_forever_refuted"
   ],
   "note": "REFUTED: shown for every number of rounds (fuel), so LoadOrStore never returns."
  },
  {
   "property": "C210",
   "status": "proved",
   "theorems": [
    "C210_clear",
    "C210_trim"
   ],
   "note": "The loops go over a snapshot of the entries, and an entry of the snapshot that has not been come to yet has not been taken out, so it is visited, with what the callback stored there meanwhile."
  },
  {
   "property": "C211",
   "status": "proved",
   "theorems": [
    "C211_DeleteFunc",
    "C211_panics",
    "C211_again"
   ],
   "note": "As in GoMap.v the loop goes over the entries there at the start; DeleteFunc removes only the entry it is at, so this is what Go does."
  },
  {
   "property": "C212",
   "status": "proved",
   "theorems": [
    "C212_Range",
    "C212_LoadOrStoreFunc",
    "C212_nil",
    "C212_EqualFunc",
    "C212_no_panic"
   ],
   "note": "In Range the loop goes over the entries there at the start, also if the callback changes the map; see C97 for the loop of the language specification. set.Range is the instance where the values are empty structs."
  },
  {
   "property": "C213",
   "status": "proved",
   "theorems": [
    "C213_effects",
    "C213_no_panic"
   ],
   "note": "The panic is recovered by the caller of the call; in the background goroutine nothing recovers it (trim is modelled as a call). The deletedCallback does not call the cache."
  },
  {
   "property": "C214",
   "status": "proved",
   "theorems": [
    "C214_last",
    "C214_gone",
    "C214_kept",
    "C214_clear"
   ],
   "note": "Of one goroutine only; the deletedCallback does not call the cache."
  },
  {
   "property": "C215",
   "status": "proved",
   "theorems": [
    "C215_agree",
    "C215_answers",
    "C215_history",
    "C215_goes_on"
   ],
   "note": "Range, Slice and Sort are modelled by their first step, the read of l.len, which panics. The panic is recovered by the caller."
  },
  {
   "property": "C216",
   "status": "proved",
   "theorems": [
    "C216_agree",
    "C216_numbers",
    "C216_same_entries",
    "C216_produced",
    "C216_callback",
    "C216_odd_once",
    "C216_odd_all"
   ],
   "note": "CopyTo, CopyFrom, Clone, DeleteFunc and EqualFunc go over the entries there are when they start."
  },
  {
   "property": "C217",
   "status": "partial",
   "theorems": [
    "C217_forever_refuted"
   ],
   "note": "REFUTED: true of keys that are equal to themselves (C98); with a NaN key each store makes a further entry, which the loop may produce, so that it can make any number of turns."
  },
  {
   "property": "C218",
   "status": "proved",
   "theorems": [
    "C218_agree",
    "C218_answers"
   ],
   "note": "The callback of Range leaves the map alone; on the zero Lhashmap it is never called."
  },
  {
   "property": "C219",
   "status": "proved",
   "theorems": [
    "C219_Pop_Remove",
    "C219_Fix"
   ],
   "note": "Slice implementations; other implementations may do anything with a bad index."
  },
  {
   "property": "C220",
   "status": "proved",
   "theorems": [
    "C220_history",
    "C220_zero"
   ],
   "note": "Which of several pairs of equal priority comes first is not said (C08)."
  },
  {
   "property": "C221",
   "status": "proved",
   "theorems": [
    "C221_SortFunc",
    "C221_SortStableFunc",
    "C221_Sort",
    "C221_SortStable"
   ],
   "note": "C81 gives each method the sort it calls; here the model says which one that is."
  },
  {
   "property": "C222",
   "status": "partial",
   "theorems": [
    "C222_Sort_refuted"
   ],
   "note": "REFUTED: Sort uses slices.SortFunc, which promises no stability; with a library that keeps its promises and sorts the reversed slice, equal elements change places."
  },
  {
   "property": "C223",
   "status": "proved",
   "theorems": [
    "C223_agree",
    "C223_numbers",
    "C223_produced",
    "C223_callback",
    "C223_odd_once",
    "C223_odd_all"
   ],
   "note": "C216 for set.Set."
  },
  {
   "property": "C224",
   "status": "partial",
   "theorems": [
    "C224_forever_refuted"
   ],
   "note": "REFUTED: an element that is not equal to itself (NaN) is never contained, so Insert adds it again, and the new entry may be produced too: any number of turns is possible."
  },
  {
   "property": "C225",
   "status": "proved",
   "theorems": [
    "C225_other_calls",
    "C225_linearizable",
    "C225_mutex",
    "C225_no_deadlock"
   ],
   "note": "The first lookup, at lines 126, 215, 288, 351, 395 and 432, is the one that panics."
  },
  {
   "property": "C226",
   "status": "partial",
   "theorems": [
    "C226_call",
    "C226_Len_refuted"
   ],
   "note": "REFUTED: the deferred functions of Swap (345-349) and LoadOrStore (208-212) run with loaded still false and add 1, so Len counts a key that is not there; C226_call says exactly what each call does. Clear does not reset the counter of a map without entries (511-514)."
  },
  {
   "property": "C227",
   "status": "proved",
   "theorems": [
    "C227_len_at_rest"
   ],
   "note": "Clear is left out here because it sets the counter to 0, or leaves it if the map has no entries."
  }
 ]
}