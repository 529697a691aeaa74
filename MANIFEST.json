{
 "claims": [
  {
   "property": "C01",
   "status": "proved",
   "theorems": [
    "int_comparators_total_order",
    "string_comparators_total_order",
    "bool_comparator_total_order",
    "builtin_comparators_ok"
   ],
   "note": ""
  },
  {
   "property": "C02",
   "status": "proved",
   "theorems": [
    "float_comparators_total_order",
    "float_value_strictly_monotone"
   ],
   "note": ""
  },
  {
   "property": "C03",
   "status": "partial",
   "theorems": [
    "ordered_cmp_float_refuted",
    "ordered_cmp_float_partial"
   ],
   "note": "REFUTED with NaN (OrderedTypeCmp(NaN, x) = OrderedTypeCmp(x, NaN) = 1, also for x = NaN); proved for NaN-free floats."
  },
  {
   "property": "C04",
   "status": "partial",
   "theorems": [
    "complex128_total_order_partial",
    "complex128_order_transitive_partial",
    "complex64_total_order_refuted"
   ],
   "note": "Complex128 proved; Complex64Comparator REFUTED (line 283 compares real(a) with real(a))."
  },
  {
   "property": "C05",
   "status": "proved",
   "theorems": [
    "reverse_comparator"
   ],
   "note": ""
  },
  {
   "property": "C06",
   "status": "proved",
   "theorems": [
    "bitmap_is_set_of_positions",
    "bitmap_set_unset_one_position"
   ],
   "note": ""
  },
  {
   "property": "C07",
   "status": "partial",
   "theorems": [
    "bitmap_new_size_partial",
    "bitmap_new_size_refuted"
   ],
   "note": "REFUTED for n > 2^64-8 (size+7 wraps, Size is 0); proved for all n <= 2^64-8."
  },
  {
   "property": "C08",
   "status": "proved",
   "theorems": [
    "bitmap_resize_preserves",
    "bitmap_data_round_trip"
   ],
   "note": ""
  },
  {
   "property": "C09",
   "status": "partial",
   "theorems": [
    "bloom_no_false_negatives_partial",
    "bloom_no_false_negatives_refuted"
   ],
   "note": "Proved for 1 <= m <= 2^64-8 and k < 2^63, any digest function. REFUTED for m > 2^64-8 (bitmap wraps to size 0: Add is lost, Contains false) and m = 0 (Add panics)."
  },
  {
   "property": "C10",
   "status": "proved",
   "theorems": [
    "bloom_data_round_trip"
   ],
   "note": ""
  },
  {
   "property": "C11",
   "status": "partial",
   "theorems": [
    "gen_hash_ints_partial",
    "gen_hash_ints_distinct_refuted"
   ],
   "note": "REFUTED: value i+8 always equals value i (the inner data := shadows the outer); exactly n values is proved."
  },
  {
   "property": "C12",
   "status": "proved",
   "theorems": [
    "vector_is_sequence"
   ],
   "note": ""
  },
  {
   "property": "C13",
   "status": "proved",
   "theorems": [
    "vector_independence",
    "vector_copy",
    "vector_capacity"
   ],
   "note": ""
  },
  {
   "property": "C14",
   "status": "proved",
   "theorems": [
    "array_is_fixed_sequence",
    "array_size_constant"
   ],
   "note": ""
  },
  {
   "property": "C15",
   "status": "partial",
   "theorems": [
    "slice_wrapper_partial",
    "slice_wrapper_new_partial",
    "slice_last_refuted",
    "slice_equal_refuted"
   ],
   "note": "REFUTED for Last (position Len()) and for Equal (ignores the slice); Begin/End/SetValue proved."
  },
  {
   "property": "C16",
   "status": "proved",
   "theorems": [
    "random_access_iterators",
    "random_access_instances",
    "reachable_vectors_hold",
    "deque_iterators"
   ],
   "note": ""
  },
  {
   "property": "C17",
   "status": "proved",
   "theorems": [
    "deque_is_sequence",
    "deque_iterators",
    "shrink_bound_is_float_computation"
   ],
   "note": ""
  },
  {
   "property": "C18",
   "status": "proved",
   "theorems": [
    "deque_storage"
   ],
   "note": ""
  },
  {
   "property": "C19",
   "status": "proved",
   "theorems": [
    "queue_is_fifo",
    "queue_preserves_order",
    "queue_over_any_container",
    "deque_is_container",
    "list_is_container"
   ],
   "note": "Over the deque (default) and the list container, and over any container obeying the law."
  },
  {
   "property": "C20",
   "status": "proved",
   "theorems": [
    "stack_is_lifo",
    "stack_over_any_container",
    "deque_is_container",
    "list_is_container"
   ],
   "note": ""
  },
  {
   "property": "C21",
   "status": "proved",
   "theorems": [
    "bidlist_is_sequence"
   ],
   "note": ""
  },
  {
   "property": "C22",
   "status": "proved",
   "theorems": [
    "bidlist_foreign_nodes"
   ],
   "note": ""
  },
  {
   "property": "C23",
   "status": "partial",
   "theorems": [
    "bidlist_list_copy_partial",
    "bidlist_list_copy_refuted"
   ],
   "note": "REFUTED when the receiver is empty and the argument is not (nil dereference / cyclic walk); proved for the other cases, including l = other."
  },
  {
   "property": "C24",
   "status": "partial",
   "theorems": [
    "bidlist_move_after_partial",
    "bidlist_move_after_refuted"
   ],
   "note": "REFUTED for MoveAfter; see theorem statements. The proved part names exactly the cases where it is right."
  },
  {
   "property": "C25",
   "status": "partial",
   "theorems": [
    "bidlist_clear_partial",
    "bidlist_clear_refuted"
   ],
   "note": "REFUTED: after Clear the old nodes still name the list as their owner."
  },
  {
   "property": "C26",
   "status": "proved",
   "theorems": [
    "slist_is_sequence",
    "slist_move_to_front_guard"
   ],
   "note": ""
  },
  {
   "property": "C27",
   "status": "proved",
   "theorems": [
    "tree_contents",
    "tree_insert",
    "tree_delete",
    "tree_delete_nil",
    "tree_set_value",
    "tree_clear"
   ],
   "note": "Over every tree built by Insert/Delete/SetValue/Clear (inductive reach). Pointer-level model; each call returns normally (no nil dereference, fuel never runs out)."
  },
  {
   "property": "C28",
   "status": "proved",
   "theorems": [
    "tree_links",
    "tree_balanced",
    "tree_IsRbTree"
   ],
   "note": "Height stated as 2^height <= (Size+1)^2."
  },
  {
   "property": "C29",
   "status": "proved",
   "theorems": [
    "tree_FindNode",
    "tree_Find",
    "tree_FindLowerBoundNode",
    "tree_FindUpperBoundNode",
    "tree_findNode"
   ],
   "note": ""
  },
  {
   "property": "C30",
   "status": "proved",
   "theorems": [
    "tree_contents",
    "tree_backward",
    "tree_next_prev",
    "tree_iter_end",
    "tree_Traversal"
   ],
   "note": "Forward iteration is the definition of contents, whose existence tree_contents proves."
  },
  {
   "property": "C31",
   "status": "proved",
   "theorems": [
    "map_is_finite_map",
    "map_ascending",
    "map_get_last_write"
   ],
   "note": "Histories over Insert, Get, Erase, EraseIter, SetValue, iteration in both directions, bounds, Contains, Size, Clear, Traversal."
  },
  {
   "property": "C32",
   "status": "proved",
   "theorems": [
    "multimap_is_ordered_bag",
    "multimap_insertion_order"
   ],
   "note": ""
  },
  {
   "property": "C33",
   "status": "proved",
   "theorems": [
    "set_is_finite_set",
    "set_ascending",
    "set_contains_last_touch"
   ],
   "note": ""
  },
  {
   "property": "C34",
   "status": "proved",
   "theorems": [
    "set_union",
    "set_intersect",
    "set_diff",
    "reachable_sets"
   ],
   "note": "For all sets reachable by operations and by the set algebra itself."
  },
  {
   "property": "C35",
   "status": "proved",
   "theorems": [
    "multiset_is_bag",
    "multiset_sorted",
    "multiset_count"
   ],
   "note": ""
  },
  {
   "property": "C36",
   "status": "proved",
   "theorems": [
    "nodes_survive_insertions",
    "map_iterators_survive_insertions",
    "set_iterators_survive_insertions"
   ],
   "note": "MultiMap and MultiSet insertions are the tree's Insert, covered by nodes_survive_insertions. In Map an equal key overwrites the value (as stated)."
  },
  {
   "property": "C37",
   "status": "partial",
   "theorems": [
    "erase_breaks_other_iterators_refuted",
    "erase_breaks_iterators_in_every_tree_refuted",
    "delete_exactly_partial",
    "delete_keeps_others_partial"
   ],
   "note": "REFUTED as stated: deleting a node with two children copies its successor's pair into the deleted node and unlinks the successor's node, so an iterator on the successor leaves the tree. Proved: all iterators except those on the immediate successor keep their node and pair."
  },
  {
   "property": "C38",
   "status": "proved",
   "theorems": [
    "priority_queue_is_ordered_bag",
    "priority_queue_sorts"
   ],
   "note": ""
  },
  {
   "property": "C39",
   "status": "proved",
   "theorems": [
    "heap_init_establishes",
    "heap_remove_any",
    "heap_fix_after_change",
    "heap_push_pop"
   ],
   "note": ""
  },
  {
   "property": "C40",
   "status": "proved",
   "theorems": [
    "sort_sorts"
   ],
   "note": ""
  },
  {
   "property": "C41",
   "status": "partial",
   "theorems": [
    "stable_sorts_partial",
    "stable_empty_refuted"
   ],
   "note": "REFUTED on the empty range: Stable recurses forever (no fuel suffices). Proved for every non-empty range."
  },
  {
   "property": "C42",
   "status": "partial",
   "theorems": [
    "nth_element_partial",
    "nth_element_refuted",
    "nth_element_refuted_longer"
   ],
   "note": "REFUTED: two-element leaves are never ordered. Proved: permutation, frame, termination, and the element at n is off by at most one rank."
  },
  {
   "property": "C43",
   "status": "proved",
   "theorems": [
    "binary_search_finds",
    "lower_bound_finds",
    "upper_bound_finds"
   ],
   "note": ""
  },
  {
   "property": "C44",
   "status": "proved",
   "theorems": [
    "next_permutation_is_successor"
   ],
   "note": ""
  },
  {
   "property": "C45",
   "status": "partial",
   "theorems": [
    "reverse_reverses_partial",
    "reverse_empty_refuted",
    "swap_exchanges"
   ],
   "note": "REFUTED on every empty range: Reverse panics. Proved for every non-empty range; Swap proved."
  },
  {
   "property": "C46",
   "status": "proved",
   "theorems": [
    "count_counts",
    "count_if_counts",
    "find_first",
    "find_if_first",
    "max_element_first",
    "min_element_first",
    "quantifiers",
    "random_access_ranges"
   ],
   "note": ""
  },
  {
   "property": "C47",
   "status": "proved",
   "theorems": [
    "skiplist_is_finite_map",
    "skiplist_get_last_write"
   ],
   "note": "Pointer-level model; every random word and every maximum level from 1 to 64."
  },
  {
   "property": "C48",
   "status": "partial",
   "theorems": [
    "skiplist_random_level_partial",
    "skiplist_random_level_refuted",
    "skiplist_zero_levels_refuted"
   ],
   "note": "REFUTED: WithMaxLevel accepts every int; with 65 or more levels drawing a level never ends and with 0 levels Insert panics. Proved for 1 to 64, with the exact distribution of levels."
  },
  {
   "property": "C49",
   "status": "proved",
   "theorems": [
    "hamt_is_finite_map",
    "hamt_get_last_write",
    "hamt_fnv_is_finite_map",
    "hamt_heap_is_finite_map",
    "hamt_heap_same"
   ],
   "note": "For every function from byte strings to 64-bit words; FNV-1 is an instance (fnv1_64). hamt_heap_*: the same at the level of objects written in place (HamtHeapModel)."
  },
  {
   "property": "C50",
   "status": "proved",
   "theorems": [
    "hamt_is_finite_map",
    "hamt_fnv_is_finite_map"
   ],
   "note": "Keys, StringKeys and Traversal clauses of hm_answer."
  },
  {
   "property": "C51",
   "status": "partial",
   "theorems": [
    "hamt_traversal_stops_partial",
    "hamt_traversal_stops_refuted"
   ],
   "note": "REFUTED: a visitor answering false inside a nested node is called again (keys a, ! and ` under the real FNV-1). Proved when no two present keys have different hashes with equal low six bits."
  },
  {
   "property": "C52",
   "status": "proved",
   "theorems": [
    "hamt_is_finite_map",
    "eleven_levels_needed"
   ],
   "note": "Every operation of the model runs with 11 levels of recursion; the bound is tight."
  },
  {
   "property": "C53",
   "status": "proved",
   "theorems": [
    "ketama_get",
    "ketama_get_current",
    "ketama_negative_replicas"
   ],
   "note": "For replica counts >= 0; a negative count makes Add panic (ketama_negative_replicas), so no history with an Add exists then."
  },
  {
   "property": "C54",
   "status": "proved",
   "theorems": [
    "ketama_add_redirects_to_new",
    "ketama_remove_keeps_others"
   ],
   "note": ""
  },
  {
   "property": "C55",
   "status": "partial",
   "theorems": [
    "ketama_order_irrelevant_partial",
    "ketama_order_irrelevant_refuted"
   ],
   "note": "REFUTED when points of different nodes collide: the first owner keeps the point and removing it does not give the point to the other. Proved for histories whose nodes' points do not collide."
  },
  {
   "property": "C56",
   "status": "proved",
   "theorems": [
    "locked_linearizable",
    "guarded_linearizable",
    "bodies_exist",
    "map_linearizable",
    "map_readers_read",
    "multimap_linearizable",
    "multimap_readers_read",
    "set_linearizable",
    "set_readers_read",
    "multiset_linearizable",
    "multiset_readers_read",
    "queue_linearizable",
    "stack_linearizable",
    "deque_queue_linearizable",
    "list_queue_linearizable",
    "deque_stack_linearizable",
    "list_stack_linearizable",
    "queue_readers_read",
    "stack_readers_read",
    "priority_queue_linearizable",
    "priority_queue_readers_read",
    "hamt_linearizable",
    "hamt_readers_read",
    "skiplist_linearizable",
    "skiplist_readers_read",
    "bloom_linearizable",
    "bloom_readers_read"
   ],
   "note": "For every decomposition of the methods into memory steps that does, run alone, what the sequential model does and writes nothing under RLock. Iterators and the two-set operations are not single locked calls and are excluded, as in the statement."
  },
  {
   "property": "C57",
   "status": "partial",
   "theorems": [
    "ketama_concurrent_get_refuted",
    "ketama_get_partial",
    "ketama_sections_partial",
    "ketama_without_remove_partial",
    "sections_atomic",
    "ketama_get_alone",
    "ketama_readers_read"
   ],
   "note": "REFUTED: Get checks Empty() in one critical section and reads the ring in another; a Remove in between makes it panic (ketama_concurrent_get_refuted is such an execution). Proved: the critical sections take effect one by one, a Get that returns answers as at an instant of the call, and a panic happens only if the ring was emptied during the call; without Remove calls the object is linearizable and never panics."
  },
  {
   "property": "C58",
   "status": "partial",
   "theorems": [
    "set_combine_refuted",
    "set_combine_partial",
    "set_combine_readers_read",
    "combine_alone"
   ],
   "note": "REFUTED: Union, Intersect and Diff hold the receiver's lock only; an execution returns {1,2,3} although 1 was erased from other before 3 was inserted. Proved: as long as other is not updated the combinations are linearizable together with all other calls on the receiver."
  },
  {
   "property": "C59",
   "status": "proved",
   "theorems": [
    "pair_components"
   ],
   "note": ""
  },
  {
   "property": "C60",
   "status": "proved",
   "theorems": [
    "bloom_contains_exact"
   ],
   "note": ""
  },
  {
   "property": "C61",
   "status": "partial",
   "theorems": [
    "slist_insert_after_partial",
    "slist_foreign_mark_refuted"
   ],
   "note": "REFUTED: a mark of another list is accepted and both lists are corrupted; proved for marks of the list."
  },
  {
   "property": "C62",
   "status": "partial",
   "theorems": [
    "set_string_refuted",
    "set_string_partial",
    "multiset_string_refuted",
    "multiset_string_partial"
   ],
   "note": "REFUTED when the first element's text is empty (the separator test compares the text so far with an opening bracket); proved otherwise."
  },
  {
   "property": "C63",
   "status": "partial",
   "theorems": [
    "ketama_replicas_partial",
    "ketama_points_at_most_8",
    "ketama_replicas_above_8_ignored",
    "ketama_replicas_refuted"
   ],
   "note": "REFUTED: the digest has 8 words, so a node gets at most 8 points whatever the replica count and more than 8 replicas make no observable difference; up to 8 the count is exact unless points collide."
  },
  {
   "property": "C64",
   "status": "proved",
   "theorems": [
    "locked_race_free",
    "locked_no_deadlock",
    "locked_calls_end",
    "bodies_exist",
    "map_readers_read",
    "multimap_readers_read",
    "set_readers_read",
    "multiset_readers_read",
    "queue_readers_read",
    "stack_readers_read",
    "priority_queue_readers_read",
    "hamt_readers_read",
    "skiplist_readers_read",
    "bloom_readers_read"
   ],
   "note": "The three locked_ theorems hold for every object whose bodies are disciplined; the readers_read theorems show that of the containers. Visitors that call back into the container are excluded (bodies contain no lock commands)."
  },
  {
   "property": "C65",
   "status": "proved",
   "theorems": [
    "slist_iterators"
   ],
   "note": "For every history within the contract of C61 (marks belong to the list)."
  },
  {
   "property": "C66",
   "status": "partial",
   "theorems": [
    "deque_string_partial",
    "bidlist_string_partial",
    "slist_string_partial",
    "queue_stack_string_partial",
    "string_refuted"
   ],
   "note": "REFUTED when the first element's text is empty (its separator is lost, so different contents print alike); proved otherwise, with the exact text in all cases."
  },
  {
   "property": "C67",
   "status": "partial",
   "theorems": [
    "callbacks_partial",
    "callback_write_never_returns",
    "set_callbacks_partial",
    "visitor_deadlock_refuted"
   ],
   "note": "REFUTED: when another goroutine has asked for Lock, the visitor's RLock and the writer wait for each other for ever (visitor_deadlock_refuted is such an execution on a Set); a visitor that writes never returns at all. Proved: whatever returns is linearizable (the visitor's calls see the traversal's contents), nothing races, a deadlock always involves a waiting writer, and without calls of writing methods there is none."
  },
  {
   "property": "C68",
   "status": "partial",
   "theorems": [
    "iterators_partial",
    "iterator_race_refuted"
   ],
   "note": "REFUTED: iterator methods take no lock, so reading through one while the entry is erased is a data race, for every decomposition of the methods into memory steps. Proved: while no call updates the container, iterators and reading methods may be used from all goroutines; each call returns what it returns alone."
  },
  {
   "property": "C69",
   "status": "proved",
   "theorems": [
    "isrbtree_exact"
   ],
   "note": "IsRbTree does not check the key order or the links; the claim is about colours."
  },
  {
   "property": "C70",
   "status": "proved",
   "theorems": [
    "rb_log_time"
   ],
   "note": "Rounds of each loop; everything outside the loops is a fixed number of steps by inspection of RbCostModel.v. Map, MultiMap, Set and MultiSet call these operations a fixed number of times per method (except Count, range and set algebra operations)."
  },
  {
   "property": "C71",
   "status": "proved",
   "theorems": [
    "vector_data",
    "vector_data_shared",
    "vector_data_separate"
   ],
   "note": "What a client could do besides with a Go slice (re-slicing, append to it) is not modelled."
  },
  {
   "property": "C72",
   "status": "proved",
   "theorems": [
    "next_permutation_enumerates",
    "next_permutation_all"
   ],
   "note": ""
  },
  {
   "property": "C73",
   "status": "proved",
   "theorems": [
    "search_log_time"
   ],
   "note": "Element reads are counted by running the same model code on a container with a counter."
  },
  {
   "property": "C74",
   "status": "proved",
   "theorems": [
    "heap_push_cost",
    "heap_pop_cost",
    "heap_remove_cost",
    "heap_fix_cost",
    "heap_init_cost"
   ],
   "note": "Calls of Less are counted by running the generic code of heap.go (HeapGenModel.v) on a holder with a counter; gen_push ... gen_init show that the generic code on the plain holder is the code of HeapModel.v."
  },
  {
   "property": "C75",
   "status": "partial",
   "theorems": [
    "sort_n_log_n_refuted",
    "sort_equal_elements",
    "sort_cost_partial"
   ],
   "note": "REFUTED: the partition loop moves past equal elements on one side only, so n equal elements cost at least (n-3)^2/2 accesses; proved instead: never more than 8 n^2."
  },
  {
   "property": "C76",
   "status": "proved",
   "theorems": [
    "stable_cost"
   ],
   "note": "Element accesses are counted by running the same model code on a container with a counter; temporary storage is not counted. Empty ranges do not end (C41)."
  },
  {
   "property": "C77",
   "status": "partial",
   "theorems": [
    "sort_any_comparator",
    "nth_element_any_comparator",
    "stable_any_comparator",
    "binary_search_any_comparator",
    "lower_bound_any_comparator",
    "upper_bound_any_comparator",
    "next_permutation_any_partial",
    "next_permutation_any_refuted",
    "heap_any_comparator",
    "priority_queue_any_comparator",
    "ordered_cmp_float_flips"
   ],
   "note": "REFUTED for NextPermutation only: with a comparison function that calls x less than y and y not greater than x it runs out of the front of the range and panics. Proved for all the others without any assumption, and for NextPermutation when x < y implies y > x, which OrderedTypeCmp satisfies on floats even with NaNs."
  },
  {
   "property": "C78",
   "status": "proved",
   "theorems": [
    "tree_shape_any_comparator",
    "tree_insert_any_comparator",
    "tree_delete_any_comparator",
    "tree_searches_any_comparator",
    "map_any_comparator",
    "multimap_any_comparator",
    "set_any_comparator",
    "multiset_any_comparator",
    "set_algebra_any_comparator",
    "only_given_keys_compared",
    "nan_keys"
   ],
   "note": "The comparison function is a pure function of the two keys (it does not change its mind and does not panic); AnyCmpSpec.v lists what each operation may return."
  },
  {
   "property": "C79",
   "status": "partial",
   "theorems": [
    "inserted_float_found_refuted",
    "inserted_float_in_set_refuted",
    "inserted_float_in_skiplist_refuted",
    "float_containers_partial",
    "float_map_get_partial",
    "float_skiplist_partial"
   ],
   "note": "REFUTED: after inserting 5, NaN and 7 the NaN is the root and 5 is in its left subtree; every search compares with the NaN first and goes right, so Get(5) misses and Insert(5) makes a duplicate; in a Skiplist a NaN goes to the front and hides what is behind it. Proved instead: histories without NaN keys behave as the finite map (bag, set) they denote."
  },
  {
   "property": "C80",
   "status": "proved",
   "theorems": [
    "skiplist_any_comparator",
    "skiplist_only_given_keys_compared"
   ],
   "note": "The comparison function is a pure function of the two keys. The invariant is that of C47 for the function that finds everything ascending; a node met on one level is met again on the lower levels, so the remembered predecessors stay predecessors."
  },
  {
   "property": "C81",
   "status": "proved",
   "theorems": [
    "map_survives_panics",
    "multimap_survives_panics",
    "set_survives_panics",
    "multiset_survives_panics"
   ],
   "note": "The comparison function is any state-passing function into an answer or a panic; a panic ends the call and keeps the state reached. The locks are not in this model (C56, C64, C102: they are released by deferred calls). Union, Intersect and Diff are not among the operations: they only read their operands."
  },
  {
   "property": "C82",
   "status": "partial",
   "theorems": [
    "map_size_after_panic_refuted",
    "set_size_after_panic_refuted",
    "multimap_erase_half_done_refuted",
    "map_no_effect_partial",
    "multimap_no_effect_partial",
    "set_no_effect_partial",
    "multiset_no_effect_partial"
   ],
   "note": "REFUTED: Insert counts the new entry before it compares with the parent a second time, so a panic in that comparison leaves Size one too large; MultiMap.Erase and MultiSet.EraseAll erase one entry at a time. Proved instead: if it depends on the arguments only whether the comparison function panics, a panic has no effect, except that MultiMap.Erase and MultiSet.EraseAll may have removed the entries of a front part."
  },
  {
   "property": "C83",
   "status": "proved",
   "theorems": [
    "sort_survives_panic",
    "nth_element_survives_panic",
    "stable_survives_panic",
    "next_permutation_survives_panic"
   ],
   "note": "The comparison function is any state-passing function into an answer or a panic. NextPermutation is stated for functions that answer like one in which less and greater are opposite (without that it may panic on its own, C77), and Stable for non-empty ranges (C41)."
  },
  {
   "property": "C84",
   "status": "proved",
   "theorems": [
    "heap_survives_panic",
    "priority_queue_survives_panics"
   ],
   "note": "As C83. That Pop returns the element Top shows is in heap_survives_panic (the front element)."
  },
  {
   "property": "C85",
   "status": "partial",
   "theorems": [
    "priority_queue_after_panic_refuted",
    "priority_queue_until_panic_partial"
   ],
   "note": "REFUTED: Push appends the element before it compares, Pop swaps first and last before it compares, so after a recovered panic the element is in the queue (still in it) at the wrong place, and Top and Pop return 5 although 3 is in the queue. Proved instead: up to the first panic all calls answer as with a function that cannot panic; afterwards C84."
  },
  {
   "property": "C86",
   "status": "proved",
   "theorems": [
    "skiplist_survives_panics"
   ],
   "note": "Insert, Remove and Get compare before they change a link; only the scratch slice of findPrevNodes is written before, and it is rewritten by every later search."
  },
  {
   "property": "C87",
   "status": "partial",
   "theorems": [
    "hamt_aliased_keys_refuted",
    "hamt_aliased_keys_partial",
    "hamt_fnv_aliased_keys_partial"
   ],
   "note": "REFUTED: the trie stores the slice, not its bytes, next to the hash computed at insertion; after the caller overwrites the buffer the entry is found neither under the old nor under the new bytes and cannot be erased, while Keys lists the new bytes. Proved instead: as long as no byte of a slice passed to Insert is overwritten, all answers are those of the finite map (lookup buffers may be reused freely)."
  },
  {
   "property": "C88",
   "status": "proved",
   "theorems": [
    "options_build_as_asked",
    "negative_option_panics"
   ],
   "note": "Identities of mutexes, deques and lists are allocation numbers; a user's own container (WithContainer) is shared if passed twice, as asked."
  },
  {
   "property": "C89",
   "status": "partial",
   "theorems": [
    "bloom_error_rate_partial",
    "bloom_error_rate_refuted"
   ],
   "note": "REFUTED for k > 8 (for every k from 9 to 65536, with m = 2^32 and one value added): the hash generator repeats its 8 words (C11), so further hash functions add nothing and the rate stays above m^-8. Proved for k <= 8. The fraction 1/m is taken as ceil(2^64/m)/2^64, the largest share of words that fall on one position."
  },
  {
   "property": "C90",
   "status": "proved",
   "theorems": [
    "bitmap_sharing",
    "bitmap_data_shares",
    "bitmap_clear_detaches",
    "bitmap_resize_detaches"
   ],
   "note": "Literals shorter than 2^61 bytes; sharing within one goroutine (Bitmap has no lock)."
  },
  {
   "property": "C91",
   "status": "partial",
   "theorems": [
    "bloom_restored_slice_refuted",
    "bloom_restored_twice_refuted",
    "bloom_restored_partial"
   ],
   "note": "REFUTED: NewFromData keeps data[16:] as its bits, so overwriting the slice makes the filter deny added values, and two filters restored from one slice report each other's values; for every digest function. Proved instead: if a slice is not used again once it was given to NewFromData, every history answers as if bytes were copied (Data does copy)."
  },
  {
   "property": "C92",
   "status": "proved",
   "theorems": [
    "bidlist_iterators"
   ],
   "note": "Within the restrictions of C21; iterators at nodes dropped by Clear are C25."
  },
  {
   "property": "C93",
   "status": "partial",
   "theorems": [
    "hamt_keys_in_order",
    "hamt_history_independent_partial",
    "hamt_history_independent_refuted"
   ],
   "note": "REFUTED: two keys with the same FNV-1 hash exist (pigeonhole) and Keys lists them in reverse order of insertion. Proved: if no two present keys collide, both histories leave the identical trie, so every later call (interrupted traversals included) answers the same; and always, collisions or not, Keys is ordered by the base-64 digits of the hashes."
  },
  {
   "property": "C94",
   "status": "proved",
   "theorems": [
    "vector_iterators",
    "array_iterators",
    "deque_iterators_denote",
    "slice_iterators"
   ],
   "note": "For slice wrappers, Equal compares only positions and Last stands past the end (C15); Equal between iterators of different container types is not represented."
  },
  {
   "property": "C95",
   "status": "partial",
   "theorems": [
    "erase_backward_partial",
    "erase_search_partial",
    "erase_forward_refuted"
   ],
   "note": "REFUTED for the forward loop (next := it.Clone().Next(); EraseIter(it); it = next): Delete moves the successor's pair into the erased node and frees the successor's node, so the loop may leave an entry with size 0, lose an entry that was not picked, or panic. Proved for every reachable map, predicate and later history: the backward loop, and the forward loop that searches again with UpperBound."
  },
  {
   "property": "C96",
   "status": "proved",
   "theorems": [
    "map_iterators",
    "multimap_iterators",
    "rbtree_iterators",
    "set_iterators",
    "multiset_iterators",
    "map_iterators_insertions",
    "multimap_iterators_insertions",
    "rbtree_iterators_insertions",
    "set_iterators_insertions",
    "multiset_iterators_insertions"
   ],
   "note": "The specification leaves the choice which of two neighbouring nodes an erasure drops (it depends on the tree's shape; C37). Equal between iterator types is not represented."
  },
  {
   "property": "C97",
   "status": "partial",
   "theorems": [
    "estimate_partial",
    "estimates_half_refuted",
    "estimates_small_refuted"
   ],
   "note": "REFUTED: for n = 2, p = 1/2 the parameters are m = 3, k = 2 and at least 495 of the 729 combinations of positions are false positives; for n = 1, p = 2^-72 the rate is above 2^-57 because only 8 positions per value differ (C11, C89). Proved: m is the least number of bits with textbook rate at most p, k the best number of hash functions rounded up, both positive. float64 and math.Log are exact real arithmetic, so the theorems use the axioms of Coq's standard reals (listed in DESIGN.md). Behaviour for n = 0 or p >= 1 (conversions Go leaves unspecified) is not modelled."
  },
  {
   "property": "C98",
   "status": "proved",
   "theorems": [
    "deque_amortized",
    "deque_call_linear"
   ],
   "note": "DequeCostModel repeats the model of the end operations with a counter (proved to be the same runs); Insert, EraseAt, EraseRange and Clear are outside the statement; append is assumed to grow by a factor between 5/4 and 3 (plus 8)."
  },
  {
   "property": "C99",
   "status": "proved",
   "theorems": [
    "node_algorithms",
    "bidlist_iterators",
    "slist_iterators",
    "rbtree_value_iterators",
    "map_value_iterators",
    "multimap_value_iterators",
    "set_value_iterators",
    "multiset_value_iterators"
   ],
   "note": "The container theorems give the iterators of each container as a range in the sense of C46; node_algorithms turns C46 into positions. The algorithms take fuel at least the length of the range."
  },
  {
   "property": "C100",
   "status": "partial",
   "theorems": [
    "list_swap",
    "slist_swap",
    "map_swap",
    "multimap_swap",
    "list_reverse_partial",
    "map_reverse_partial",
    "multimap_reverse_partial",
    "list_reverse_end_refuted",
    "list_reverse_nothing_refuted",
    "map_reverse_end_refuted"
   ],
   "note": "REFUTED for Reverse up to the end of a list or map (always panics) and on empty ranges (panics, or reverses the whole list when the position is exactly the middle). Proved: Swap in full; Reverse when last is at an element after first."
  },
  {
   "property": "C101",
   "status": "proved",
   "theorems": [
    "skiplist_average_search",
    "skiplist_average_search_log",
    "skiplist_worst_search"
   ],
   "note": "Comparisons are counted by running the model of CrashSkipModel (the code with the calls of the comparison function spelt out) with a comparison function that keeps a tally; the same call without it is shown to do the same. The words are taken as uniform and independent 64-bit numbers, which math/rand only approximates."
  },
  {
   "property": "C102",
   "status": "proved",
   "theorems": [
    "map_linearizable_panics",
    "multimap_linearizable_panics",
    "set_linearizable_panics",
    "multiset_linearizable_panics",
    "map_linearizable_no_effect",
    "multimap_linearizable_no_effect",
    "set_linearizable_no_effect",
    "multiset_linearizable_no_effect",
    "skiplist_linearizable_panics",
    "priority_queue_linearizable_panics",
    "map_readers_read_panics",
    "multimap_readers_read_panics",
    "set_readers_read_panics",
    "multiset_readers_read_panics",
    "skiplist_readers_read_panics",
    "priority_queue_readers_read_panics",
    "x_bodies_exist",
    "locked_race_free",
    "locked_no_deadlock",
    "locked_calls_end"
   ],
   "note": "The comparison function's own state is per call (any pattern of panics within a call is covered); a state shared between calls would be the user's to synchronise."
  },
  {
   "property": "C103",
   "status": "proved",
   "theorems": [
    "ketama_equal_share",
    "ketama_average_share",
    "ketama_average_added",
    "ketama_average_removed"
   ],
   "note": "SHA-512 is replaced by digests drawn uniformly and independently for the nodes; the key's hash is arbitrary but fixed. The statements count draws, so no probability theory is needed."
  },
  {
   "property": "C104",
   "status": "proved",
   "theorems": [
    "walking_costs",
    "walking_back_costs",
    "traversal_linear",
    "traversal_stopped"
   ],
   "note": "One budget is handed through all loops (TreeWalkCostModel); map, multimap and set iterators and the Traversal methods of the containers do exactly these calls; the cost of the visitor itself is not counted."
  },
  {
   "property": "C105",
   "status": "partial",
   "theorems": [
    "nth_cost_partial",
    "nth_equal_elements",
    "nth_linear_refuted"
   ],
   "note": "REFUTED: as in Sort the partition loop moves past equal elements on one side only, so on n equal elements asking for the first costs at least (n-3)^2 accesses; proved instead: never more than 8 n^2."
  },
  {
   "property": "C106",
   "status": "proved",
   "theorems": [
    "next_permutation_loop_cost",
    "next_permutation_call_cost"
   ],
   "note": "Counts the container's At and Set calls. With elements that compare equal the average can be linear (n-1 equal elements and one greater have n arrangements), so the condition is needed."
  },
  {
   "property": "C107",
   "status": "partial",
   "theorems": [
    "tree_holds_contents",
    "hamt_holds_contents",
    "hamt_holds_each_once",
    "bidlist_holds_contents",
    "slist_holds_contents",
    "skiplist_holds_contents",
    "vector_holds_contents_refuted",
    "vector_holds_contents_partial",
    "deque_holds_contents_refuted",
    "deque_holds_contents_partial"
   ],
   "note": "REFUTED for vectors and deques: a popped element stays in the backing array or segment (the clearing lines in segment.go are commented out). Proved: red-black trees (hence maps and sets), both linked lists and the skip list, its cache of previous nodes included, reach exactly the nodes of their contents; a vector keeps Capacity values and after ShrinkToFit exactly its contents; a deque of n elements keeps at most 2n + 640. The heap-based priority queue keeps popped elements in the same way; its slice is modelled as a list, so this is not stated. Hamt: the pairs reachable from the root hold exactly the present keys with their present values (hamt_holds_contents), each key in one pair (hamt_holds_each_once)."
  },
  {
   "property": "C108",
   "status": "proved",
   "theorems": [
    "skiplist_average_space",
    "skiplist_average_space_linear"
   ],
   "note": "Counts the pointers in slots of the slices head.next, prevNodesCache and next of every element reachable from the list. The words are taken as uniform and independent 64-bit numbers, which math/rand only approximates."
  },
  {
   "property": "C109",
   "status": "proved",
   "theorems": [
    "sort_average_cost"
   ],
   "note": "The average is over the arrangements of distinct elements, each counted once; with many equal elements Sort is quadratic (sort_n_log_n_refuted, C75)."
  },
  {
   "property": "C110",
   "status": "proved",
   "theorems": [
    "nth_element_average_cost",
    "nth_element_cost"
   ],
   "note": "Only the number of accesses; what NthElement leaves behind is C42 (refuted). The average is over the arrangements of distinct elements, each counted once."
  },
  {
   "property": "C111",
   "status": "partial",
   "theorems": [
    "deque_insert_side_partial",
    "deque_erase_at_partial",
    "deque_erase_side_refuted"
   ],
   "note": "REFUTED for EraseAt: deque.go:222 compares the index of a segment with the number of elements (`seg < d.size-seg-1`), so the elements before the position are moved whatever the position; in every deque erasing position k writes at least k/128 segments (deque_erase_side_refuted), also when k is the last. Proved: the claim for Insert in every reachable deque, and the bound k/128 + 2 for EraseAt. The writes counted are those to segments of elements, not those to the array of segment pointers."
  },
  {
   "property": "C112",
   "status": "proved",
   "theorems": [
    "map_traversal_inserting",
    "set_traversal_inserting",
    "multimap_traversal_inserting",
    "multiset_traversal_inserting",
    "rbtree_traversal_inserting"
   ],
   "note": "Without WithGoroutineSafe; with it the Insert waits for the lock Traversal holds (C67). Erasing during a walk is C95 (refuted in part)."
  },
  {
   "property": "C113",
   "status": "partial",
   "theorems": [
    "skiplist_traversal_changing_partial",
    "skiplist_traversal_removing_partial",
    "slist_traversal_removing_partial",
    "bidlist_traversal_removing_refuted",
    "map_traversal_removing_refuted",
    "set_traversal_removing_refuted",
    "map_traversal_removing_partial",
    "map_traversal_removing_front_partial",
    "set_traversal_removing_partial",
    "set_traversal_removing_front_partial"
   ],
   "note": "REFUTED for Map and Set (hence MultiMap, MultiSet, RbTree: same loop): erasing the key handed over can skip the next key or hand over an earlier one again; REFUTED for bidlist.List: the traversal ends at the first node removed (proved for every list and choice: the visits are those up to the first removal). Proved for every Map and Set: the traversal ends without a panic, hands over only entries of the container, and exactly the entries handed over and picked are gone; and the full property when the entries removed are the smallest ones (in particular all of them). Proved for Skiplist (every visitor whose removal of the visited element is its last call, insertions included) and simplelist.List."
  },
  {
   "property": "C114",
   "status": "proved",
   "theorems": [
    "hamt_visitor_erases",
    "hamt_visitor_erases_handed",
    "hamt_heap_same"
   ],
   "note": "Termination of the recursion and of the loops included (fuel: 11 levels; the number of entries for a chain)."
  },
  {
   "property": "C115",
   "status": "partial",
   "theorems": [
    "hamt_visitor_erases_other_refuted",
    "hamt_visitor_erases_handed"
   ],
   "note": "REFUTED: erasing a key that is still to be visited can make Traversal panic (nil interface in the array being ranged over). Proved for every visitor that erases only keys that will not come any more: the one it is handed, those handed over before, keys that were not there at first."
  },
  {
   "property": "C116",
   "status": "proved",
   "theorems": [
    "hamt_visitor_overwrites"
   ],
   "note": "Insertions of keys that are not there are not covered by this property."
  },
  {
   "property": "C117",
   "status": "proved",
   "theorems": [
    "hamt_linear_space",
    "hamt_fnv_linear_space",
    "hamt_linear_space_attained"
   ],
   "note": "Objects and slots of the object-level model; the bytes of keys and values are the caller's."
  }
 ]
}