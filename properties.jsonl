{"id": "C01", "title": "Integer, bool and string comparators are total orders", "statement": "IntComparator, UintComparator, Int8..Uint64Comparator, UintptrComparator, BoolComparator, StringComparator and OrderedTypeCmp on integers and strings return only -1, 0 or 1; return 0 exactly when the arguments are equal; swapping the arguments flips the sign; and 'less' is transitive.", "quantifier": "all pairs and triples of values of each type (all integers, both booleans, all byte strings)", "why_tests_cant": "Transitivity and antisymmetry are universally quantified over pairs/triples of unbounded domains; tests sample a handful of values.", "anchors": ["utils/comparator/comparator.go:IntComparator", "utils/comparator/comparator.go:StringComparator", "utils/comparator/comparator.go:BoolComparator", "utils/comparator/comparator.go:OrderedTypeCmp"]}
{"id": "C02", "title": "Float comparators are total orders even with NaN", "statement": "Float32Comparator and Float64Comparator return 0 exactly for numerically equal floats or two NaNs, put NaN before every number, are antisymmetric and transitive, for every bit pattern including infinities, signed zeros, subnormals and every NaN payload.", "quantifier": "all triples of 32-bit / 64-bit IEEE bit patterns", "why_tests_cant": "2^192 triples of bit patterns cannot be enumerated.", "anchors": ["utils/comparator/comparator.go:Float32Comparator", "utils/comparator/comparator.go:Float64Comparator"]}
{"id": "C03", "title": "OrderedTypeCmp is a lawful comparator for floats", "statement": "OrderedTypeCmp used with float64 keys is a lawful three-way comparator (antisymmetric, 0 on identical arguments) so that containers ordered by it behave.", "quantifier": "all pairs of float bit patterns", "why_tests_cant": "A lawful-looking comparator that misbehaves only on NaN passes ordinary tests.", "anchors": ["utils/comparator/comparator.go:OrderedTypeCmp"]}
{"id": "C04", "title": "Complex comparators are total orders", "statement": "Complex64Comparator and Complex128Comparator order complex numbers without NaN parts lexicographically by real then imaginary part: antisymmetric, transitive, 0 exactly on equal values.", "quantifier": "all triples of complex numbers without NaN parts", "why_tests_cant": "A comparator wrong for a single pair pattern corrupts ordered containers only for particular key sets.", "anchors": ["utils/comparator/comparator.go:Complex64Comparator", "utils/comparator/comparator.go:Complex128Comparator"]}
{"id": "C05", "title": "Reverse flips a comparator", "statement": "For every lawful comparator cmp, comparator.Reverse(cmp) is again a lawful comparator and orders a before b exactly when cmp orders b before a; reversing twice is the identity on results.", "quantifier": "all lawful comparators with -1/0/1 results (the documented contract), all pairs of values", "why_tests_cant": "Quantifies over all comparator functions.", "anchors": ["utils/comparator/comparator.go:Reverse"]}
{"id": "C06", "title": "Bitmap behaves as a set of positions", "statement": "For every history of Set/Unset/IsSet/Clear/Resize, IsSet(p) answers true exactly when p is below Size and the last effective operation on p was Set; an operation on one position never changes the answer for another; out-of-range Set/Unset return false and change nothing.", "quantifier": "all bitmaps, all operation histories, all 64-bit positions", "why_tests_cant": "Cross-talk between bits depends on position and history; the space of histories is unbounded.", "anchors": ["ds/bitmap/bitmap.go:Set", "ds/bitmap/bitmap.go:Unset", "ds/bitmap/bitmap.go:IsSet", "ds/bitmap/bitmap.go:Clear", "ds/bitmap/bitmap.go:Resize"]}
{"id": "C07", "title": "Bitmap is at least as large as requested", "statement": "bitmap.New(n) gives a bitmap of Size the least multiple of 8 that is >= n, with all bits clear.", "quantifier": "all uint64 n", "why_tests_cant": "The failing sizes (wrap-around of n+7) lie at the end of the uint64 range, which no test allocates.", "anchors": ["ds/bitmap/bitmap.go:New", "ds/bitmap/bitmap.go:Resize"]}
{"id": "C08", "title": "Bitmap resize and export preserve bits", "statement": "Resize(n) keeps every bit below both the old and the new size, and all other bits read as unset; NewFromData(b.Data()) answers IsSet exactly like b for every position and has the same Size.", "quantifier": "all bitmaps reachable by any history, all new sizes, all positions", "why_tests_cant": "Off-by-one at byte boundaries shows only for particular size pairs.", "anchors": ["ds/bitmap/bitmap.go:Resize", "ds/bitmap/bitmap.go:NewFromData", "ds/bitmap/bitmap.go:Data"]}
{"id": "C09", "title": "Bloom filter has no false negatives", "statement": "After any history of Add calls, Contains(v) is true for every added v, whatever the other added values are and whatever the hash function returns.", "quantifier": "all m >= 1, all k, all histories of Add, all strings, all hash functions", "why_tests_cant": "A false negative would depend on hash collisions that tests cannot steer.", "anchors": ["ds/bloomfilter/bloom.go:Add", "ds/bloomfilter/bloom.go:Contains"]}
{"id": "C10", "title": "Bloom filter export/import round trip", "statement": "NewFromData(bf.Data()) answers Contains exactly like bf for every string, and continues to do so after the same further Adds.", "quantifier": "all filters reachable by any history, all strings", "why_tests_cant": "Little-endian header and byte payload must agree for all 64-bit m, k and all bit contents.", "anchors": ["ds/bloomfilter/bloom.go:Data", "ds/bloomfilter/bloom.go:NewFromData"]}
{"id": "C11", "title": "Bloom/ketama hash generator supplies n distinct hash functions", "statement": "GenHashInts(seed, n) returns exactly n values, and the values it returns are n different functions of the seed (so k or replicas larger than the digest still add information).", "quantifier": "all seeds, all n", "why_tests_cant": "Any test looking only at the length of the result passes while every block repeats the first one.", "anchors": ["algorithm/hash/hash.go:GenHashInts"]}
{"id": "C12", "title": "Vector behaves as a sequence", "statement": "For every history of PushBack/SetAt/InsertAt/EraseAt/EraseIndexRange/PopBack/Resize/Clear/Reserve/ShrinkToFit and the iterator forms Insert/Erase/EraseRange, the vector's contents are those of the mathematical sequence; out-of-range SetAt/InsertAt/Erase change nothing; At/Front/Back/PopBack panic exactly when out of range/empty.", "quantifier": "all vectors, all operation histories, all positions, all capacity-growth policies of the runtime", "why_tests_cant": "In-place shifting and reallocation interact differently for every length/capacity combination.", "anchors": ["ds/vector/vector.go:Vector"]}
{"id": "C13", "title": "Vector copies are independent and capacity bounds size", "statement": "A vector made by NewFromVector never shares storage with the original: no later operation on one changes the other; Capacity is always >= Size; Reserve(n) gives Capacity >= n; ShrinkToFit gives Capacity = Size; none of them change the contents.", "quantifier": "all worlds of vectors, all histories over several vectors, all growth policies", "why_tests_cant": "Aliasing bugs appear only when an append does not reallocate.", "anchors": ["ds/vector/vector.go:NewFromVector", "ds/vector/vector.go:Reserve", "ds/vector/vector.go:ShrinkToFit"]}
{"id": "C14", "title": "Array is a fixed-size sequence", "statement": "For every history of Set/Fill/SwapArray, array size never changes, contents follow the mathematical sequence, SwapArray exchanges contents exactly when the sizes agree and changes nothing otherwise, NewFromArray copies are independent, At panics exactly when out of range.", "quantifier": "all worlds of arrays and histories", "why_tests_cant": "Swap exchanges backing storage; aliasing across several swaps is a property of the whole history.", "anchors": ["ds/array/array.go:Array"]}
{"id": "C15", "title": "Slice wrapper iterators address the wrapped slice", "statement": "For every slice, Begin/First denotes element 0, Last denotes the last element, End the position after it; iterators of different slices are never Equal; a SetValue through an iterator is seen by the wrapped slice at exactly that position.", "quantifier": "all slices and positions", "why_tests_cant": "Statement about every slice and pair of iterators.", "anchors": ["ds/slice/slice_wrapper.go:Last", "ds/slice/iterator.go:Equal"]}
{"id": "C16", "title": "Random access iterators walk the whole container", "statement": "For array, vector, deque and slice iterators: starting at Begin and calling Next until Equal(End) visits every element exactly once in order and terminates; Next and Prev are inverse inside the range and saturate one past the ends; IteratorAt/Position/Clone agree; Value panics exactly when IsValid is false.", "quantifier": "all container sizes and positions", "why_tests_cant": "Termination and completeness quantify over all sizes.", "anchors": ["ds/vector/iterator.go", "ds/array/iterator.go", "ds/deque/iterator.go", "ds/slice/iterator.go", "utils/iterator/iterator.go"]}
{"id": "C17", "title": "Deque behaves as a sequence", "statement": "For every history of PushFront/PushBack/PopFront/PopBack/Insert/EraseAt/EraseRange/Set/Clear, the deque's Size, At, Front, Back and iteration are those of the mathematical sequence; Insert/Set/Erase out of range change nothing (Set reports an error); pops and reads on an empty deque panic and nothing else does.", "quantifier": "all histories of any length, all positions, all element values", "why_tests_cant": "Segment ring positions, pool reuse, expansion and shrinking give an unbounded internal state space behind each sequence; bugs need particular alignments of two nested rings.", "anchors": ["ds/deque/deque.go:Deque", "ds/deque/segment.go:Segment", "ds/deque/pool.go:Pool"]}
{"id": "C18", "title": "Deque storage stays proportional to its contents", "statement": "After every history the memory held by a deque is linear in its current Size: it uses at most Size/128 + 2 segments of 128 elements, keeps at most max(2, 2.4 * segments in use) segment slots, and pools at most segments-in-use + 1 spare segments - so a deque that was once large gives the memory back.", "quantifier": "all histories", "why_tests_cant": "Leaks show up only after long histories of growing and shrinking.", "anchors": ["ds/deque/deque.go:shrinkIfNeeded", "ds/deque/deque.go:putToPool", "ds/deque/deque.go:expand"]}
{"id": "C19", "title": "Queue is first-in first-out", "statement": "For every history of Push/Pop/Clear on a queue over the deque or the list container, Pop and Front return the oldest remaining element, Back the newest, Size counts the remaining elements; Pop/Front/Back panic exactly on the empty queue.", "quantifier": "all histories, both built-in containers", "why_tests_cant": "Unbounded histories over two different containers.", "anchors": ["ds/queue/queue.go:Queue", "ds/container/container.go:Container"]}
{"id": "C20", "title": "Stack is last-in first-out", "statement": "For every history of Push/Pop/Clear on a stack over the deque or the list container, Pop and Top return the newest remaining element; Size counts the remaining elements; Pop/Top panic exactly on the empty stack.", "quantifier": "all histories, both built-in containers", "why_tests_cant": "Unbounded histories over two different containers.", "anchors": ["ds/stack/stack.go:Stack"]}
{"id": "C21", "title": "Bidirectional list behaves as a sequence of nodes", "statement": "For every world of lists, PushFront/PushBack/PopFront/PopBack/InsertBefore/InsertAfter/Remove/MoveToFront/MoveToBack change the receiver's node sequence exactly as stated, keep the identity and value of every other node, leave every other list unchanged, and forward and backward walks visit the nodes in order and in reverse order.", "quantifier": "all worlds of lists, all histories, all nodes attached to or properly removed from a list", "why_tests_cant": "Pointer surgery on circular lists depends on adjacency of the nodes involved (neighbours, head, tail, singleton).", "anchors": ["ds/list/bidlist/list.go:List", "ds/list/bidlist/iterator.go"]}
{"id": "C22", "title": "Bidirectional list ignores foreign nodes", "statement": "InsertBefore/InsertAfter/Remove/MoveToFront/MoveToBack/MoveAfter given a node of another list, or a node already removed, leave all lists unchanged.", "quantifier": "all worlds of lists and nodes", "why_tests_cant": "Quantifies over all pairs of lists and nodes.", "anchors": ["ds/list/bidlist/list.go:InsertAfter", "ds/list/bidlist/list.go:Remove", "ds/list/bidlist/list.go:MoveAfter"]}
{"id": "C23", "title": "PushBackList/PushFrontList append and prepend a copy", "statement": "l.PushBackList(other) makes l the concatenation l ++ other and l.PushFrontList(other) makes l other ++ l, with fresh nodes, other unchanged; l and other may be the same list and either may be empty.", "quantifier": "all lists l and other, including l = other and empty lists", "why_tests_cant": "Needs every length combination including aliasing of receiver and argument.", "anchors": ["ds/list/bidlist/list.go:PushBackList", "ds/list/bidlist/list.go:PushFrontList"]}
{"id": "C24", "title": "MoveAfter places a node right after the mark", "statement": "l.MoveAfter(n, mark) with n != mark both in l moves n so that it is immediately after mark and the order of all other nodes is kept.", "quantifier": "all lists and all pairs of distinct nodes in them", "why_tests_cant": "Only one adjacency pattern (n at the head, mark at the tail) can be special; tests use inner nodes.", "anchors": ["ds/list/bidlist/list.go:MoveAfter", "ds/list/bidlist/list.go:moveToAfter"]}
{"id": "C25", "title": "Clearing a list detaches its nodes", "statement": "After l.Clear(), nodes obtained before are no longer nodes of l: passing them to InsertAfter/Remove does not modify l, and Len/Front stay consistent.", "quantifier": "all lists and previously obtained nodes", "why_tests_cant": "Needs a stale handle used across Clear.", "anchors": ["ds/list/bidlist/list.go:Clear", "ds/list/bidlist/list.go:Remove"]}
{"id": "C26", "title": "Singly linked list behaves as a sequence", "statement": "For every history in which the documented predecessor argument is right, PushFront/PushBack/InsertAfter/Remove/MoveToFront/MoveToBack change the node sequence exactly as stated; Len equals the number of nodes; FrontNode/BackNode/Traversal agree with the sequence.", "quantifier": "all histories, all node positions", "why_tests_cant": "Head/tail updates depend on where the node sits.", "anchors": ["ds/list/simplelist/simplelist.go:List"]}
{"id": "C27", "title": "Red-black tree is an ordered multimap", "statement": "For every history of Insert and Delete, the in-order contents are sorted by the comparator, Insert places a pair after all pairs with a key not greater, Delete removes exactly the node's pair and keeps the order of the rest, Size counts the pairs, and no operation dereferences nil or loops forever.", "quantifier": "all lawful comparators, all histories, all tree shapes", "why_tests_cant": "Rebalancing touches up to six nodes in dozens of configurations; tests sample random shapes with a few thousand keys.", "anchors": ["ds/rbtree/rbtree.go:Insert", "ds/rbtree/rbtree.go:Delete"]}
{"id": "C28", "title": "Red-black tree stays balanced", "statement": "After every history of Insert and Delete the root is black, no red node has a red child, every root-to-leaf path has the same number of black nodes, IsRbTree returns true, and the height is at most 2*log2(Size+1).", "quantifier": "all lawful comparators, all histories", "why_tests_cant": "A single mis-coloured configuration degrades balance without changing contents.", "anchors": ["ds/rbtree/rbtree.go:rbInsertFixup", "ds/rbtree/rbtree.go:rbDeleteFixup", "ds/rbtree/rbtree.go:IsRbTree"]}
{"id": "C29", "title": "Red-black tree searches return the first match", "statement": "FindNode/Find return the first pair in order whose key equals the argument (or nothing if none), FindLowerBoundNode the first pair with key not less, FindUpperBoundNode the first pair with key greater.", "quantifier": "all reachable trees, all keys, duplicates included", "why_tests_cant": "With duplicate keys the first one may be anywhere in the tree.", "anchors": ["ds/rbtree/rbtree.go:FindNode", "ds/rbtree/rbtree.go:FindLowerBoundNode", "ds/rbtree/rbtree.go:FindUpperBoundNode"]}
{"id": "C30", "title": "Tree iteration is complete and reversible", "statement": "From Begin, Next visits every pair exactly once in order and then becomes invalid; from Last, Prev visits them in reverse; Next and Prev are inverse inside the tree; Traversal calls the visitor on pairs in order until it returns false.", "quantifier": "all reachable trees, all nodes, all visitors", "why_tests_cant": "Successor search climbs parent pointers through every shape.", "anchors": ["ds/rbtree/node.go:Next", "ds/rbtree/node.go:Prev", "ds/rbtree/rbtree.go:Traversal", "ds/rbtree/iterator.go"]}
{"id": "C31", "title": "Map is a finite map with sorted iteration", "statement": "For every history of Insert/Erase/EraseIter/Clear, Get(k) returns the value of the last Insert of an equal key not erased since, or not-found; Contains agrees with Get; Size is the number of distinct keys; iteration yields each key once in ascending order; LowerBound/UpperBound/Find/First/Last return the right entry.", "quantifier": "all lawful comparators, all histories", "why_tests_cant": "Unbounded histories over tree shapes.", "anchors": ["ds/map/map.go:Map"]}
{"id": "C32", "title": "MultiMap keeps every pair in insertion order per key", "statement": "For every history, MultiMap contains exactly the inserted pairs whose key was not erased afterwards, in ascending key order and insertion order among equal keys; Get returns the oldest; Erase(k) removes all pairs with that key and terminates.", "quantifier": "all lawful comparators, all histories", "why_tests_cant": "Stability among equal keys must survive rotations.", "anchors": ["ds/map/multimap.go:MultiMap"]}
{"id": "C33", "title": "Set is a mathematical set", "statement": "For every history of Insert/Erase/Clear, Contains(x) holds exactly when an equal element was inserted and not erased since; Size is the cardinality; iteration is strictly ascending.", "quantifier": "all lawful comparators, all histories", "why_tests_cant": "Unbounded histories.", "anchors": ["ds/set/set.go:Set"]}
{"id": "C34", "title": "Set algebra", "statement": "Union, Intersect and Diff return new sets whose membership is the union, intersection and difference of the operands' memberships, strictly ordered, leaving the operands unchanged.", "quantifier": "all pairs of reachable sets with the same lawful comparator", "why_tests_cant": "Merge loops depend on the interleaving of the two element sequences.", "anchors": ["ds/set/set.go:Union", "ds/set/set.go:Intersect", "ds/set/set.go:Diff"]}
{"id": "C35", "title": "MultiSet counts occurrences", "statement": "For every history, Count(x) is the number of inserted minus erased elements equal to x; Erase removes one, EraseAll removes all; Size is the total; iteration is ascending.", "quantifier": "all lawful comparators, all histories", "why_tests_cant": "Unbounded histories with duplicates.", "anchors": ["ds/set/multiset.go:MultiSet"]}
{"id": "C36", "title": "Iterators survive insertions", "statement": "A map/set iterator keeps denoting the same key and value across any sequence of insertions.", "quantifier": "all reachable trees, all iterators, all insertion sequences", "why_tests_cant": "Needs every rebalancing path between obtaining and using the iterator.", "anchors": ["ds/rbtree/rbtree.go:Insert", "ds/map/iterator.go:MapIterator"]}
{"id": "C37", "title": "Erasing one element leaves iterators to other elements valid", "statement": "After Erase/EraseIter of one element, an iterator that denoted another element still denotes that element and can be advanced.", "quantifier": "all reachable trees, all pairs of distinct elements", "why_tests_cant": "Only fails when the erased node has two children and the other iterator is on its successor.", "anchors": ["ds/rbtree/rbtree.go:Delete", "ds/map/map.go:EraseIter"]}
{"id": "C38", "title": "Priority queue pops in order", "statement": "For every history of Push/Pop/Clear, Top and Pop return a least element (by the comparator) among those present, Pop removes exactly one occurrence, Size counts; Pop/Top panic exactly on the empty queue; popping everything yields a sorted permutation of what was pushed.", "quantifier": "all lawful comparators, all histories", "why_tests_cant": "Sift-up/down paths depend on all relative orders.", "anchors": ["ds/priorityqueue/priority_queue.go:PriorityQueue", "ds/heap/heap.go:Push", "ds/heap/heap.go:Pop"]}
{"id": "C39", "title": "Heap Init, Remove and Fix establish the heap order", "statement": "Init turns any slice into a heap that is a permutation of it; Remove(i) returns the element at i and leaves a heap of the rest; Fix(i) restores the heap after element i was changed arbitrarily; all terminate without out-of-range access for valid i.", "quantifier": "all slices, all valid indices, all lawful orders", "why_tests_cant": "Remove and Fix must choose between sifting down and up correctly in all cases.", "anchors": ["ds/heap/heap.go:Init", "ds/heap/heap.go:Remove", "ds/heap/heap.go:Fix"]}
{"id": "C40", "title": "Sort sorts any range", "statement": "Sort(first, last, cmp) terminates, permutes exactly the elements of [first,last) into ascending order and touches nothing outside, for every range including empty and singleton ones.", "quantifier": "all sequences, all sub-ranges, all lawful comparators", "why_tests_cant": "Quicksort partition bugs appear for particular patterns of equal and extreme keys.", "anchors": ["algorithm/sort/sort.go:Sort"]}
{"id": "C41", "title": "Stable sorts any range stably", "statement": "Stable(first, last, cmp) terminates for every range including the empty one, permutes [first,last) into ascending order keeping the relative order of equal elements, and touches nothing outside.", "quantifier": "all sequences, all sub-ranges (first <= last), all lawful comparators", "why_tests_cant": "Stability must hold for all patterns of equal keys; the empty range is one point of the domain.", "anchors": ["algorithm/sort/stable_sort.go:Stable"]}
{"id": "C42", "title": "NthElement puts the nth smallest element at position n", "statement": "NthElement(first, last, n, cmp) with 0 <= n < last-first permutes [first,last) so that the element at position n is the one a full sort would put there, with nothing greater before it and nothing smaller after it, and touches nothing outside.", "quantifier": "all sequences, ranges, n and lawful comparators", "why_tests_cant": "Two-element subranges only arise for particular inputs.", "anchors": ["algorithm/sort/nth_element.go:NthElement"]}
{"id": "C43", "title": "Binary search, lower bound and upper bound on sorted ranges", "statement": "On a range sorted by cmp, BinarySearch is true exactly when an equal element exists; LowerBound returns the first position with element not less than val, UpperBound the first with element greater (last if none).", "quantifier": "all sorted sequences, all sub-ranges, all values, all lawful comparators", "why_tests_cant": "Boundary behaviour for every length and position.", "anchors": ["algorithm/sort/search.go:BinarySearch", "algorithm/sort/search.go:LowerBound", "algorithm/sort/search.go:UpperBound"]}
{"id": "C44", "title": "NextPermutation is the lexicographic successor", "statement": "NextPermutation returns true and rearranges the range into the next lexicographically greater permutation (nothing strictly between), or returns false and leaves the range unchanged exactly when there is no greater permutation; nothing outside the range changes; duplicates allowed.", "quantifier": "all sequences, ranges, lawful comparators", "why_tests_cant": "Quantifies over all permutations in between.", "anchors": ["algorithm/sort/next_permutation.go:NextPermutation"]}
{"id": "C45", "title": "Reverse reverses any range", "statement": "Reverse(first, last) reverses [first,last) and touches nothing else, for every range including the empty one; Swap exchanges two elements.", "quantifier": "all sequences, all ranges", "why_tests_cant": "The empty range and both parities of length.", "anchors": ["algorithm/op.go:Reverse", "algorithm/op.go:Swap"]}
{"id": "C46", "title": "Non-mutating algorithms agree with their mathematical meaning", "statement": "For every iterator range, Count/CountIf count the elements equal/satisfying, Find/FindIf return the first such element or last, MaxElement/MinElement return the first largest/smallest element or last on an empty range, AnyOf/AllOf/NoneOf are the quantifiers; none changes the container.", "quantifier": "all finite iterator ranges over any iterator type honouring the iterator contract, all predicates, all lawful comparators", "why_tests_cant": "Quantifies over all sequences and predicates and over all iterator implementations.", "anchors": ["algorithm/const_op.go"]}
{"id": "C47", "title": "Skip list is a finite map with sorted traversal", "statement": "For every history of Insert/Remove and every outcome of the random level generator, Get returns the last inserted value of an equal key or not-found; Remove reports whether the key was present; Len counts the keys; Traversal and Keys are strictly ascending and complete; nothing panics.", "quantifier": "all lawful comparators, all histories, all random outcomes, all max levels from 1 to 64", "why_tests_cant": "Random towers make the pointer structure different on every run.", "anchors": ["ds/skiplist/skiplist.go:Skiplist"]}
{"id": "C48", "title": "Skip list random level is always usable", "statement": "Every level drawn when inserting lies between 1 and the configured maximum level, and drawing it terminates.", "quantifier": "all max levels WithMaxLevel accepts, all 64-bit random values", "why_tests_cant": "2^64 random values times all configurations.", "anchors": ["ds/skiplist/skiplist.go:randomLevel", "ds/skiplist/skiplist.go:WithMaxLevel"]}
{"id": "C49", "title": "Hamt is a finite map", "statement": "For every history of Insert/Erase, Get returns the value of the last Insert of the same key not erased since, Erase reports whether the key was present, for every pattern of hash collisions (even full 64-bit collisions).", "quantifier": "all histories, all keys, all 64-bit hash functions (the real FNV-1 among them)", "why_tests_cant": "Full hash collisions and deep prefix collisions cannot be produced by tests.", "anchors": ["ds/hamt/hamt.go:Insert", "ds/hamt/hamt.go:Get", "ds/hamt/hamt.go:Erase"]}
{"id": "C50", "title": "Hamt enumerates each key once", "statement": "Keys, StringKeys and Traversal enumerate exactly the present keys, each once, with the current value.", "quantifier": "all histories and hash functions", "why_tests_cant": "Node splitting and collapsing must neither lose nor duplicate entries for any hash pattern.", "anchors": ["ds/hamt/hamt.go:Keys", "ds/hamt/hamt.go:Traversal"]}
{"id": "C51", "title": "Hamt traversal stops when the visitor says so", "statement": "Traversal never calls the visitor again after it returned false.", "quantifier": "all hamts, all visitors", "why_tests_cant": "Fails only when the stopping entry lies in a nested node, i.e. for hash-prefix collisions.", "anchors": ["ds/hamt/hamt.go:traversal"]}
{"id": "C52", "title": "Hamt depth is bounded", "statement": "No operation recurses deeper than 11 levels, for every set of keys and every 64-bit hash function.", "quantifier": "all histories and hash functions", "why_tests_cant": "Depth depends on hash prefixes.", "anchors": ["ds/hamt/hamt.go:insert", "ds/hamt/hamt.go:pos"]}
{"id": "C53", "title": "Ketama maps a key to the clockwise owner", "statement": "After any history of Add/Remove, Get(key) fails exactly when the ring is empty, otherwise returns the node owning the first ring point at or clockwise after the key's hash, and that node was added and not removed since.", "quantifier": "all histories, all node and key strings, all hash functions, all replica counts", "why_tests_cant": "Ring layout depends on the hash function.", "anchors": ["ds/ketama/ketama.go:Get", "ds/ketama/ketama.go:Add"]}
{"id": "C54", "title": "Ketama disruption is minimal", "statement": "Adding a node only redirects keys to the new node; removing a node only redirects keys that were mapped to it.", "quantifier": "all rings, all nodes, all keys, all hash functions", "why_tests_cant": "Quantifies over all keys and ring layouts.", "anchors": ["ds/ketama/ketama.go:Add", "ds/ketama/ketama.go:Remove"]}
{"id": "C55", "title": "Ketama ring depends only on the set of nodes", "statement": "The mapping after any history of Add/Remove depends only on which nodes are currently added, not on the order of operations.", "quantifier": "all histories, all hash functions", "why_tests_cant": "Point collisions between nodes need particular hash values.", "anchors": ["ds/ketama/ketama.go:Add", "ds/ketama/ketama.go:Remove"]}
{"id": "C56", "title": "Goroutine-safe containers are linearizable", "statement": "With WithGoroutineSafe, every concurrent history of operations of Map, MultiMap, Set (except the two-set operations), MultiSet, Queue, Stack, PriorityQueue, Hamt, Skiplist and BloomFilter is equivalent to a sequential one that respects real-time order, whatever the interleaving of the operations' internal steps.", "quantifier": "all schedules of any number of goroutines, all histories, all decompositions of operations into steps", "why_tests_cant": "Schedules are unbounded; race tests only sample them.", "anchors": ["utils/sync/locker.go:Locker", "ds/map/map.go:WithGoroutineSafe", "ds/queue/queue.go:WithGoroutineSafe"]}
{"id": "C57", "title": "Goroutine-safe Ketama never panics", "statement": "With WithGoroutineSafe, concurrent Get/Add/Remove never panic, and Get answers as at some instant during the call.", "quantifier": "all schedules", "why_tests_cant": "Needs a Remove scheduled exactly between two critical sections of Get.", "anchors": ["ds/ketama/ketama.go:Get"]}
{"id": "C58", "title": "Goroutine-safe sets can be combined concurrently", "statement": "With WithGoroutineSafe on both sets, s.Union(other), s.Intersect(other) and s.Diff(other) running concurrently with updates of other return the result for some instant during the call.", "quantifier": "all schedules", "why_tests_cant": "Needs an update of the other set interleaved inside the merge loop.", "anchors": ["ds/set/set.go:Union", "ds/set/set.go:Intersect", "ds/set/set.go:Diff"]}
{"id": "C59", "title": "Pair keeps its components", "statement": "MakePair(a,b) has Front a and Back b; New(a,b) overwrites both; Equal is true exactly when both components are equal.", "quantifier": "all comparable values", "why_tests_cant": "Universally quantified; trivial but relied on.", "anchors": ["ds/pair/pair.go:Pair"]}
{"id": "C60", "title": "Bloom filter answers exactly by probed bits", "statement": "Contains(v) is true exactly when every position probed for v was probed by some added value: a positive answer is never produced out of thin air and a filter with no covering values answers false.", "quantifier": "all histories, all m from 1 to 2^64-8, all k below 2^63 (C09 covers the rest), all digest functions", "why_tests_cant": "Quantifies over all hash functions and all histories; tests sample a few strings.", "anchors": ["ds/bloomfilter/bloom.go:Contains", "ds/bloomfilter/bloom.go:Add"]}
{"id": "C61", "title": "Single linked list rejects foreign marks", "statement": "InsertAfter on the single linked list leaves the list unmodified when the mark node is not an element of it (as its documentation says).", "quantifier": "all worlds of lists, all nodes, all histories", "why_tests_cant": "Needs nodes of other lists or removed nodes after arbitrary histories.", "anchors": ["ds/list/simplelist/simplelist.go:InsertAfter"]}
{"id": "C62", "title": "Set and MultiSet String", "statement": "String() of a Set or MultiSet is the bracketed list of the elements' texts in ascending order, separated by single spaces.", "quantifier": "all reachable sets, all element types and renderings", "why_tests_cant": "Depends on the texts of the elements; only unusual first texts show the flaw.", "anchors": ["ds/set/set.go:String", "ds/set/multiset.go:String"]}
{"id": "C63", "title": "Ketama spreads every node over the configured number of points", "statement": "A node added to a Ketama created with WithReplicas(n) owns n points of the ring (unless points collide).", "quantifier": "all replica counts, all node names, all hash functions", "why_tests_cant": "The number of points can only be seen through the hash function; tests use few replicas.", "anchors": ["ds/ketama/ketama.go:Add", "ds/ketama/ketama.go:hash"]}
{"id": "C64", "title": "Goroutine-safe containers: no races, no deadlock, calls end", "statement": "With WithGoroutineSafe, however many goroutines call the methods of Map, MultiMap, Set (except the two-set operations), MultiSet, Queue, Stack, PriorityQueue, Hamt, Skiplist and BloomFilter: whenever two calls are about to access memory at the same time both only read; as long as a call has not returned some call can proceed; and if no new calls are made all pending ones return after finitely many steps, also when some of them panic.", "quantifier": "all schedules of any number of goroutines, all histories, all decompositions of operations into steps", "why_tests_cant": "Schedules are unbounded; a race detector only sees the schedules that happened.", "anchors": ["utils/sync/locker.go:Locker", "ds/map/map.go:WithGoroutineSafe", "ds/queue/queue.go:WithGoroutineSafe"]}
{"id": "C65", "title": "Singly linked list iterators", "statement": "An iterator obtained from a node of the singly linked list sees, with Value and Next, the values from that node to the end in order; SetValue through it changes that element and nothing else (in this or any other list); an iterator past the end is invalid, stays there on Next and ignores SetValue; Equal tells whether two iterators are at the same node.", "quantifier": "all histories of list operations, all lists and nodes, all values", "why_tests_cant": "Quantifies over all histories and all positions; a wrong link only shows on particular shapes.", "anchors": ["ds/list/simplelist/iterator.go:ListIterator", "ds/list/simplelist/simplelist.go:Node"]}
{"id": "C66", "title": "String of Deque, lists, Queue and Stack", "statement": "String() of a Deque, BidList, simple List, Queue or Stack is the texts of the elements in order, separated by single spaces, in square brackets.", "quantifier": "all histories, all element types and renderings", "why_tests_cant": "Depends on the texts of the elements; only unusual first texts show the flaw.", "anchors": ["ds/deque/deque.go:String", "ds/list/bidlist/list.go:String", "ds/list/simplelist/simplelist.go:String", "ds/queue/queue.go:String", "ds/stack/stack.go:String"]}
{"id": "C67", "title": "Visitors may call back into a goroutine-safe container", "statement": "While Traversal of a goroutine-safe container runs, its visitor may call the container's reading methods, whatever other goroutines do: the calls return, and they see the contents the traversal sees.", "quantifier": "all visitors, all schedules of any number of goroutines, all histories", "why_tests_cant": "Needs a writer to arrive between the two read locks of one goroutine; tests almost never hit that schedule.", "anchors": ["ds/set/set.go:Traversal", "ds/map/map.go:Traversal", "ds/hamt/hamt.go:Traversal", "ds/skiplist/skiplist.go:Traversal", "utils/sync/locker.go:Locker"]}
{"id": "C68", "title": "Iterators of goroutine-safe containers during updates", "statement": "Iterators of a goroutine-safe Map, MultiMap, Set or MultiSet may be read while other goroutines call methods of the container: accesses are synchronised (no data race).", "quantifier": "all schedules of any number of goroutines, all decompositions of the methods into memory steps", "why_tests_cant": "Absence of races is a statement about all schedules.", "anchors": ["ds/map/iterator.go:MapIterator", "ds/set/iterator.go:SetIterator", "ds/map/map.go:WithGoroutineSafe"]}
{"id": "C69", "title": "IsRbTree recognises exactly the red-black colourings", "statement": "On a tree built through the API whose nodes were then coloured in any way, IsRbTree returns, changes nothing, and answers true exactly when the root is not red, no red node has a red child and all ways from the root down pass the same number of black nodes.", "quantifier": "all histories, all colourings of the resulting tree", "why_tests_cant": "A check that forgets a case only fails on particular bad trees, which correct code never produces for a test to see.", "anchors": ["ds/rbtree/rbtree.go:IsRbTree", "ds/rbtree/rbtree.go:test"]}
{"id": "C70", "title": "Red-black tree operations take logarithmic time", "statement": "On a tree with n elements, every loop and recursion of Insert, Delete, Find, FindNode, FindLowerBoundNode, FindUpperBoundNode, First, Last, Next and Prev ends within 2*log2(n+1) + 1 rounds (whatever the history, also after arbitrarily many deletions).", "quantifier": "all histories of insertions and deletions, all keys, all n", "why_tests_cant": "A degenerate shape may need a particular long history; timing tests see averages.", "anchors": ["ds/rbtree/rbtree.go:Insert", "ds/rbtree/rbtree.go:Delete", "ds/rbtree/rbtree.go:FindLowerBoundNode", "ds/rbtree/node.go:Next", "ds/rbtree/node.go:Prev"]}
{"id": "C71", "title": "Vector.Data is the vector's own storage until the capacity changes", "statement": "Right after d := v.Data() the slice d has length Size and is the vector's elements: d[i] reads what At(i) reads and d[i] = x has exactly the effect of SetAt(i, x). This stays so for every index both reach, whatever calls follow on this or other vectors and whatever is written through slices, as long as v.Capacity() stays the same; once a call has changed it, for good, writing d changes no vector and no vector call changes what d reads.", "quantifier": "all histories of method calls on any number of vectors, of calls of Data and of reads and writes through the slices obtained; all growth policies of append", "why_tests_cant": "Sharing of storage shows only in particular interleavings of writes, growth and erasure; tests sample a few.", "anchors": ["ds/vector/vector.go:Data", "ds/vector/vector.go:Reserve", "ds/vector/vector.go:ShrinkToFit", "ds/vector/vector.go:EraseIndexRange", "ds/vector/vector.go:InsertAt"]}
{"id": "C72", "title": "NextPermutation enumerates all arrangements", "statement": "Starting from a sorted range and calling NextPermutation until it returns false goes through all arrangements of the range: the loop ends, every arrangement of the elements occurs exactly once (arrangements that differ only by equal elements count as one), the first is the sorted one, and nothing outside the range changes.", "quantifier": "all sorted ranges of all random access containers, all lawful comparators, duplicates included", "why_tests_cant": "The number of arrangements grows with the factorial; tests enumerate three elements.", "anchors": ["algorithm/sort/next_permutation.go:NextPermutation"]}
{"id": "C73", "title": "Binary searches look at logarithmically many elements", "statement": "BinarySearch on a range of n elements reads at most log2(n)+1 elements, LowerBound and UpperBound at most log2(n)+2, whatever the elements and the comparator are (sorted or not), and they end.", "quantifier": "all ranges of all random access containers, all values and all comparison functions", "why_tests_cant": "A bound on all inputs; tests measure none.", "anchors": ["algorithm/sort/search.go:BinarySearch", "algorithm/sort/search.go:LowerBound", "algorithm/sort/search.go:UpperBound"]}
{"id": "C74", "title": "Heap operations take logarithmic time, Init linear time", "statement": "On a heap of n elements Push makes at most log2(n+1) comparisons, Pop at most 2 log2(n), Remove(i) and Fix(i) at most 3 log2(n), and Init at most 2n, whatever the elements and the comparator are.", "quantifier": "all slices of elements, all indices in range, all comparison functions", "why_tests_cant": "The complexity promised in the comments of heap.go is a statement about all inputs.", "anchors": ["ds/heap/heap.go:Init", "ds/heap/heap.go:Push", "ds/heap/heap.go:Pop", "ds/heap/heap.go:Remove", "ds/heap/heap.go:Fix"]}
{"id": "C75", "title": "Sort takes time proportional to n log n", "statement": "Sort of a range of n elements reads and writes at most k n (log2(n)+1) elements, for some constant k and all inputs, in particular inputs with many equal elements.", "quantifier": "all ranges of all random access containers, all lawful comparators", "why_tests_cant": "A bound on all inputs; timing a few random inputs does not show the bad ones.", "anchors": ["algorithm/sort/sort.go:Sort", "algorithm/sort/sort.go:quickSort"]}
{"id": "C76", "title": "Stable takes time proportional to n log n", "statement": "Stable of a range of n > 0 elements reads and writes at most 8 n log2(n) elements of the container (log2 rounded up), for all inputs.", "quantifier": "all non-empty ranges of all random access containers, all lawful comparators", "why_tests_cant": "A bound on all inputs; tests measure none.", "anchors": ["algorithm/sort/stable_sort.go:Stable", "algorithm/sort/stable_sort.go:mergeSort", "algorithm/sort/stable_sort.go:merge"]}
{"id": "C77", "title": "Sorting, searching and heaps are safe with any comparison function", "statement": "With a comparison function that is no order at all (for instance OrderedTypeCmp on floats with NaNs) Sort, NthElement, Stable (of a non-empty range), NextPermutation, Init, Push, Pop, Remove and Fix still return and leave exactly the same elements (plus the pushed, minus the removed one), nothing outside the range changes, BinarySearch, LowerBound and UpperBound return and change nothing, and the bounds returned stand at a boundary inside the range.", "quantifier": "all ranges of all random access containers, all heaps, all comparison functions, all histories of a PriorityQueue", "why_tests_cant": "The elements that break an order (NaNs, inconsistent comparators) are exactly those tests leave out.", "anchors": ["algorithm/sort/sort.go:Sort", "algorithm/sort/nth_element.go:NthElement", "algorithm/sort/stable_sort.go:Stable", "algorithm/sort/next_permutation.go:NextPermutation", "algorithm/sort/search.go:LowerBound", "ds/heap/heap.go:Pop", "ds/priorityqueue/priority_queue.go:Pop", "utils/comparator/comparator.go:OrderedTypeCmp"]}
{"id": "C78", "title": "Ordered containers stay sound with any comparison function", "statement": "Map, MultiMap, Set, MultiSet and RbTree called with a comparison function that is no order at all never hang and panic only on reading or writing at an invalid iterator; Size is the number of entries iteration meets, every inserted entry is there until it is erased, Insert adds one entry (or, in Map and Set, overwrites or keeps one that compares equal), an erase removes only entries that compare equal (or the one at the iterator), a search may miss but what it returns compares as asked, iterating, counting and traversing are exact, the tree stays a red-black tree of logarithmic depth, Union, Intersect and Diff leave the operands alone and only drop (keep) elements that compare equal to one of the other set, and no key other than those passed in is ever compared.", "quantifier": "all comparison functions, all histories of the four containers and of the tree, all pairs of sets", "why_tests_cant": "Inconsistent comparators and NaN keys are not in the tests, and the number of ways in which a comparator can contradict itself is unbounded.", "anchors": ["ds/rbtree/rbtree.go:Insert", "ds/rbtree/rbtree.go:Delete", "ds/rbtree/rbtree.go:FindNode", "ds/map/map.go:Insert", "ds/map/multimap.go:Erase", "ds/set/set.go:Union", "ds/set/multiset.go:Count"]}
{"id": "C79", "title": "A float key that was inserted and not erased is found", "statement": "In a Map, Set or Skiplist (MultiMap, MultiSet) of floats with the default comparator OrderedTypeCmp, a non-NaN key that was inserted and not erased since is found by Get, Contains and Find, whatever other keys are in the container.", "quantifier": "all histories, all float keys", "why_tests_cant": "Whether a NaN that was rotated above a key hides it depends on the shape of the tree, so on the whole history.", "anchors": ["utils/comparator/comparator.go:OrderedTypeCmp", "ds/map/map.go:Get", "ds/set/set.go:Contains", "ds/rbtree/rbtree.go:FindNode"]}
{"id": "C80", "title": "Skiplist stays sound with any comparison function", "statement": "A Skiplist created with a maximum level from 1 to 64 and a comparison function that is no order at all never panics or hangs; Len is the number of pairs a Traversal visits and Keys lists, every pair is there until it is removed, Insert adds one pair or overwrites the value of one that compares equal, Remove removes at most one pair and only one that compares equal and reports whether it did, Get returns nothing or the value of a key that compares equal, and only keys passed in are ever compared.", "quantifier": "all comparison functions, all random level choices, all histories", "why_tests_cant": "A comparator can contradict itself in unboundedly many ways, and the predecessors on the upper levels are remembered from comparisons a lower level could contradict.", "anchors": ["ds/skiplist/skiplist.go:Insert", "ds/skiplist/skiplist.go:Remove", "ds/skiplist/skiplist.go:Get", "ds/skiplist/skiplist.go:findPrevNodes"]}
{"id": "C81", "title": "Ordered containers survive a comparison function that panics", "statement": "If the comparison function given to a Map, MultiMap, Set or MultiSet panics during a call and the caller recovers, the container stays usable: every later call returns or panics and answers as if the interrupted call had not changed an entry (a MultiMap.Erase or MultiSet.EraseAll may have erased some of the entries it was to erase); only Size may be too large, by at most one for each interrupted Insert since the last Clear.", "quantifier": "all histories of calls with recovered panics at any comparison, all comparison functions with a state of their own that answer according to a lawful order whenever they answer", "why_tests_cant": "The panic can happen at any comparison of any call in any state, and its damage may show many calls later.", "anchors": ["ds/rbtree/rbtree.go:Insert", "ds/rbtree/rbtree.go:FindNode", "ds/map/map.go:Insert", "ds/map/multimap.go:Erase", "ds/set/set.go:Insert", "ds/set/multiset.go:EraseAll"]}
{"id": "C82", "title": "A call interrupted by a panicking comparison function has no effect", "statement": "If the comparison function panics during a call on a Map, MultiMap, Set or MultiSet and the caller recovers, the container is as it was before the call.", "quantifier": "all histories of calls with recovered panics at any comparison, all comparison functions", "why_tests_cant": "The panic can happen at any comparison of any call in any state.", "anchors": ["ds/rbtree/rbtree.go:Insert", "ds/rbtree/rbtree.go:Size", "ds/map/multimap.go:Erase", "ds/set/multiset.go:EraseAll"]}
{"id": "C83", "title": "Sorting survives a comparison function that panics or contradicts itself", "statement": "If the comparison function given to Sort, NthElement or Stable (of a non-empty range) panics at some comparison, has a state or answers inconsistently from one call to the next, the call returns or ends in that panic, the range then holds the same elements in some order and the rest of the container is unchanged; a NextPermutation interrupted by a panic has changed nothing. If the call returns and the answers were those of a fixed function, the result is the one for that function.", "quantifier": "all random-access containers, all ranges, all comparison functions with a state of their own, all comparisons at which they may panic", "why_tests_cant": "The panic can happen at any of the comparisons of any input, and a partition loop relies on answers it got before.", "anchors": ["algorithm/sort/sort.go:Sort", "algorithm/sort/nth_element.go:NthElement", "algorithm/sort/stable_sort.go:Stable", "algorithm/sort/next_permutation.go:NextPermutation"]}
{"id": "C84", "title": "Priority queues lose nothing when the comparison function panics", "statement": "If the comparison function given to a PriorityQueue (or the Less of package heap) panics during a call, or contradicts itself, and the caller recovers, no element is lost or duplicated: an interrupted Push has added its element, an interrupted Pop, Remove, Fix or Init has removed none, Size, Empty and Clear are exact, and Pop and Top return an element of the queue (Pop the one Top shows) and panic on the empty queue only.", "quantifier": "all histories of calls with recovered panics at any comparison, all comparison functions with a state of their own", "why_tests_cant": "The panic can happen at any comparison of any call in any state.", "anchors": ["ds/heap/heap.go:Push", "ds/heap/heap.go:Pop", "ds/heap/heap.go:Remove", "ds/heap/heap.go:Fix", "ds/heap/heap.go:Init", "ds/priorityqueue/priority_queue.go:Pop"]}
{"id": "C85", "title": "A priority queue call interrupted by a panic has no effect", "statement": "If the comparison function panics during a Push or Pop of a PriorityQueue and the caller recovers, the queue is as it was before the call and later calls return the elements in order.", "quantifier": "all histories of calls with recovered panics at any comparison", "why_tests_cant": "The panic can happen at any comparison of any call in any state.", "anchors": ["ds/heap/heap.go:Push", "ds/heap/heap.go:Pop", "ds/priorityqueue/priority_queue.go:Push"]}
{"id": "C86", "title": "A Skiplist call interrupted by a panicking comparison function has no effect", "statement": "If the comparison function given to a Skiplist (maximum level from 1 to 64) panics during a call and the caller recovers, every later call answers as if the interrupted call had not been made, Len included.", "quantifier": "all histories of calls with recovered panics at any comparison, all random level choices, all comparison functions with a state of their own that answer according to a lawful order whenever they answer", "why_tests_cant": "The panic can happen at any comparison of any call in any state, and the predecessors an interrupted call has noted stay in the list's scratch memory.", "anchors": ["ds/skiplist/skiplist.go:Insert", "ds/skiplist/skiplist.go:Remove", "ds/skiplist/skiplist.go:Get", "ds/skiplist/skiplist.go:findPrevNodes"]}
{"id": "C87", "title": "A Hamt keeps the keys it was given when the caller reuses the key slice", "statement": "The entries of a Hamt belong to the bytes the key slice held when Insert was called, whatever the caller later writes into that slice.", "quantifier": "all histories of calls and of writes of the caller into its own arrays, all layouts of slices over arrays, overlapping ones included", "why_tests_cant": "Writes can be interleaved with the calls in any way; a test builds each key freshly.", "anchors": ["ds/hamt/hamt.go:Insert", "ds/hamt/hamt.go:Get", "ds/hamt/hamt.go:Erase", "ds/hamt/hamt.go:Keys"]}
{"id": "C88", "title": "Constructors build what their options ask for and share nothing", "statement": "Every constructor that takes options, given any list of them in any order with repetitions, makes an object that is goroutine-safe exactly if WithGoroutineSafe is among them, has the maximum level, replicas or capacity named last (else 10, 10, 0), and stands on the container named last (else a new deque); two objects never share a lock, deque or list made by a constructor, even if the same option value was passed to both. A negative maximum level or capacity panics.", "quantifier": "all sequences of constructor calls, all option lists", "why_tests_cant": "The lists of options are unbounded, and an option value reused for several objects could make them share state.", "anchors": ["ds/queue/queue.go:New", "ds/queue/queue.go:WithListContainer", "ds/stack/stack.go:New", "ds/skiplist/skiplist.go:New", "ds/skiplist/skiplist.go:WithMaxLevel", "ds/ketama/ketama.go:New", "ds/hamt/hamt.go:New", "ds/map/multimap.go:NewMultiMap", "ds/set/multiset.go:NewMultiSet", "ds/priorityqueue/priority_queue.go:New", "ds/bloomfilter/bloom.go:New", "ds/vector/vector.go:New"]}
{"id": "C89", "title": "Every hash function of a Bloom filter counts", "statement": "With n values added to a filter of m bits and k hash functions, whatever their digests, at most a fraction (n*k/m)^k of the possible digests of a value that was not added makes Contains report it.", "quantifier": "all m from 1 to 2^64-8, all k, all histories of calls, all digests of the added values, all values not added", "why_tests_cant": "The statement counts over all 2^512 digests.", "anchors": ["ds/bloomfilter/bloom.go:Add", "ds/bloomfilter/bloom.go:Contains", "algorithm/hash/hash.go:GenHashInts"]}
{"id": "C90", "title": "Bitmap.Data and NewFromData share storage until Resize or Clear", "statement": "A bitmap made by NewFromData from a slice, the slice, and the slice Data returns are views of one storage: a bit set or cleared through one is seen through all. A bitmap stops following the others exactly when it is cleared or resized to another size; it then holds the bits it had (within the new size), or none after Clear.", "quantifier": "all histories of bitmap calls and of client reads, writes and re-slicings of byte slices, all overlaps of slices", "why_tests_cant": "Any number of bitmaps and slices can overlap, and writes can be interleaved in any way.", "anchors": ["ds/bitmap/bitmap.go:NewFromData", "ds/bitmap/bitmap.go:Data", "ds/bitmap/bitmap.go:Set", "ds/bitmap/bitmap.go:Resize", "ds/bitmap/bitmap.go:Clear"]}
{"id": "C91", "title": "A restored Bloom filter does not depend on the slice it was restored from", "statement": "After f := NewFromData(data), writing into data or restoring another filter from data and adding to it changes no answer of f.", "quantifier": "all histories of filter calls and of client reads and writes of byte slices, all digest functions", "why_tests_cant": "Writes and calls can be interleaved in any way.", "anchors": ["ds/bloomfilter/bloom.go:NewFromData", "ds/bloomfilter/bloom.go:Data", "ds/bloomfilter/bloom.go:Add", "ds/bloomfilter/bloom.go:Contains"]}
{"id": "C92", "title": "Bidirectional list iterators stay at their node", "statement": "An iterator of a bidirectional list stays at its node whatever is done to the lists; Value and SetValue read and write that node; Next and Prev go to the neighbours the node has at that moment, in whichever list it is, and nowhere from the ends or from a removed node; an iterator that is nowhere is invalid, stays so and ignores SetValue; Equal tells whether two iterators are at the same node, Clone gives an independent one.", "quantifier": "all histories of list, node and iterator calls in which iterators at nodes dropped by Clear are not moved", "why_tests_cant": "Iterators are held across arbitrary changes of the lists.", "anchors": ["ds/list/bidlist/iterator.go:Next", "ds/list/bidlist/iterator.go:Prev", "ds/list/bidlist/iterator.go:SetValue", "ds/list/bidlist/iterator.go:Equal", "ds/list/bidlist/iterator.go:Clone"]}
{"id": "C93", "title": "Hamt enumeration order does not depend on the history", "statement": "Two Hamts that hold the same key/value pairs list them in the same order (Keys, Traversal, StringKeys), whatever the order of the insertions, overwrites and removals that led there; and the order is that of the base-64 digits of the keys' hashes, least significant first.", "quantifier": "all pairs of call histories ending with the same map, all keys", "why_tests_cant": "needs pairs of histories of any length compared with each other, and a collision of a 64-bit hash, which no test finds by chance", "anchors": ["ds/hamt/hamt.go: Keys, Traversal, StringKeys, Insert, Erase, BitmapNode.insert, BitmapNode.erase, BitmapNode.traversal"]}
{"id": "C94", "title": "Random access iterators denote positions whatever happens to the container", "statement": "An iterator of a Vector, Array, Deque or SliceWrapper that is kept while the containers go on being changed through any of their methods denotes, at every moment, the position it was last moved to: Value and SetValue read and write the element the container holds at that position at that moment, IsValid says whether there is one, Next stops at the end, Prev stops before the beginning, IteratorAt and Clone make independent iterators, and Equal compares places. A SliceWrapper sees every write made through a slice that shares its array, and a re-attached wrapper carries its iterators along.", "quantifier": "all histories of container, slice and iterator calls, any number of iterators, all element types", "why_tests_cant": "iterators are held across arbitrary changes of the containers, and sharing of arrays is only visible in interleavings of writes", "anchors": ["ds/vector/iterator.go", "ds/array/iterator.go", "ds/deque/iterator.go", "ds/slice/iterator.go", "ds/slice/slice_wrapper.go: Attach, At, Set"]}
{"id": "C95", "title": "Erasing entries of a Map while iterating over it", "statement": "A client can walk over a Map and erase the entries a predicate picks, keeping an iterator to the neighbouring entry over each EraseIter: the loop ends, and afterwards the map holds exactly the entries that were not picked and goes on behaving as the ordered finite map of them.", "quantifier": "all maps reachable by any history of calls, all predicates, all comparators that are total preorders, all later histories", "why_tests_cant": "which iterators survive an erasure depends on the shape of the tree, hence on the whole history; small tests hit the shapes where it works", "anchors": ["ds/map/map.go: EraseIter, UpperBound, Begin, Last", "ds/map/iterator.go: Next, Prev, Clone", "ds/rbtree/rbtree.go: Delete"]}
{"id": "C96", "title": "Iterators of ordered containers denote entries throughout a history", "statement": "Iterators of a Map, MultiMap, Set, MultiSet or RbTree that are kept while the container goes on being used denote entries: Find, LowerBound, UpperBound, Begin and Last give an iterator at the entry they name (or nowhere), Next and Prev move to the neighbours the entry has at that moment, Key, Value and SetValue read and write the entry as it is then, Equal compares entries, Clone gives an independent iterator. Insertions never disturb an iterator. Erasing an entry makes stale at most the iterators at it or, at the code's choice, at the entry right after it, in which case those at the erased entry move on to that one; Clear makes all stale. As long as no stale iterator is moved, read or erased through, every result is as stated and no call panics except reading or writing at no entry.", "quantifier": "all histories of container and iterator calls, any number of iterators, all comparators that are total preorders", "why_tests_cant": "iterators are held across arbitrary changes of a tree that is rotated and whose nodes are recycled by erasures", "anchors": ["ds/map/iterator.go", "ds/set/iterator.go", "ds/rbtree/iterator.go", "ds/rbtree/rbtree.go: Insert, Delete", "ds/map/map.go", "ds/map/multimap.go", "ds/set/set.go", "ds/set/multiset.go"]}
{"id": "C97", "title": "A filter made by NewWithEstimates keeps the error rate it was asked for", "statement": "For every expected number n > 0 of values and every rate 0 < p < 1: if n distinct values are added to NewWithEstimates(n, p), a value that was not added is reported by Contains for at most a fraction p of all combinations of digests of the n+1 values. (False: for n = 2 and p = 1/2 the filter gets 3 bits and 2 hash functions and the fraction is at least 0.67; for n = 1 and p = 2^-72 it is above 2^-57, as only the 8 words of one digest are used. True: m is the least number of bits for which the textbook rate 2^-(ln 2 m/n) is at most p, k is ln 2 m/n rounded up, both positive.)", "quantifier": "every expected count n and rate p, every set of n values and every queried value, every assignment of digests", "why_tests_cant": "the statement counts digests (256^64 per value) and holds for all real rates; a test sees one hash function and a few values", "anchors": ["ds/bloomfilter/bloom.go: NewWithEstimates, EstimateParameters, Add, Contains", "algorithm/hash/hash.go: GenHashInts"]}
{"id": "C98", "title": "Calls at the ends of a deque take amortized constant time", "statement": "Counting one unit for each call, each slot of a slice that is made and each slot copied, any history of PushFront, PushBack, PopFront, PopBack, Front, Back, At, Set, Size and Empty calls on a new deque does at most 200 units of work per call in total, whatever the order of pushes and pops at the two ends; and a single call does at most 320 + n units on a deque of n elements.", "quantifier": "every history of these calls, every element type, every growth rule of append that is geometric", "why_tests_cant": "amortized bounds quantify over every interleaving of grows and shrinks; a benchmark sees a few patterns and misses oscillation at a threshold", "anchors": ["ds/deque/deque.go: PushFront, PushBack, PopFront, PopBack, expand, shrinkIfNeeded, putToPool", "ds/deque/pool.go: get, put, shrinkToSize"]}
{"id": "C99", "title": "Search and counting algorithms work on list, map and set iterators", "statement": "The iterators a List, SimpleList, RbTree, Map, MultiMap, Set or MultiSet gives from its first element on, by Next, are one for each element and then the past-the-end iterator. Between the iterators at positions a <= b, Count and CountIf return the number of matching values (for maps: values, for sets: elements), Find and FindIf the iterator at the first match or the end of the range, MaxElement and MinElement the iterator at the first greatest or least value, AnyOf, AllOf and NoneOf whether some, all or no element satisfies the predicate; the container is left as it was.", "quantifier": "every history of calls that builds the container, every range of iterators in it, every comparator that is a total preorder, every predicate", "why_tests_cant": "the algorithms are written once against an interface; the linked iterators compare nodes and share one past-the-end value, which a test on slices does not exercise", "anchors": ["algorithm/const_op.go", "ds/list/bidlist/iterator.go", "ds/list/simplelist/iterator.go", "ds/map/iterator.go", "ds/set/iterator.go", "ds/rbtree/iterator.go"]}
{"id": "C100", "title": "Swap and Reverse rearrange the values of lists and maps", "statement": "Swap on two iterators of a List, SimpleList, Map or MultiMap exchanges the two values and nothing else; keys and nodes stay. Reverse(first, last) on a range of a List, Map or MultiMap reverses the order of the values in it. (False of Reverse: up to the end of the container it panics on the first swap, because the past-the-end iterator cannot go back; on an empty range at position a it panics, or reverses the whole list if a is exactly the middle. True: when first is before last and last is at an element, exactly the values from first up to, not including, last are reversed.)", "quantifier": "every history of calls that builds the container, every pair of positions, every values", "why_tests_cant": "the failure is in the choice of the range: ranges ending at an element work, ranges to the end never do", "anchors": ["algorithm/op.go: Swap, Reverse", "ds/list/bidlist/iterator.go: Prev, SetValue", "ds/map/iterator.go: Prev, SetValue"]}
{"id": "C101", "title": "A skip list search is logarithmic on average", "statement": "Whatever calls built the skip list (fixed before any random word is drawn), averaged over all sequences of words the generator can return, an Insert, Get or Remove of any key calls the comparison function at most 2 max + 2 + 2 n / 2^max times, where max is the maximum level and n the number of keys in the list that come before the key; with at most 2^max such keys that is at most 2 max + 4. The answers do not depend on the words. There is no such bound for every single sequence of words: for each history some words make Insert and Remove compare with all n keys.", "quantifier": "every maximum level from 1 to 64, every history of calls, every key, every strict weak order, all sequences of 64-bit words", "why_tests_cant": "an average over all random draws cannot be measured by running a few of them; one unlucky draw proves nothing either way", "anchors": ["ds/skiplist/skiplist.go: Insert, Get, Remove, findPrevNodes, randomLevel"]}
{"id": "C102", "title": "Goroutine-safe containers stay linearizable when the comparison function panics", "statement": "With WithGoroutineSafe, if the comparison function given to a Map, MultiMap, Set, MultiSet, Skiplist or PriorityQueue panics during some of the concurrent calls and the callers recover, the results of all calls are still those of some order of the calls that keeps the real-time order, in which an interrupted call changed no entry (an interrupted MultiMap.Erase or MultiSet.EraseAll may have erased some of its entries, an interrupted PriorityQueue.Push has added its element, and each interrupted Insert of a Map, MultiMap, Set or MultiSet may have made Size one larger until Clear, not if it depends on the arguments only whether the function panics). Methods under the read lock change nothing even when interrupted, so no call races with or blocks the others.", "quantifier": "all schedules of any number of goroutines, all histories, all decompositions of operations into steps, all comparisons at which a call may be interrupted", "why_tests_cant": "both the schedules and the comparisons at which a call may be cut short are unbounded", "anchors": ["ds/map/map.go: Insert, Get, Erase, Contains", "ds/map/multimap.go: Insert, Get, Erase, Contains", "ds/set/set.go: Insert, Erase, Contains", "ds/set/multiset.go: Insert, Erase, EraseAll, Count, Contains", "ds/skiplist/skiplist.go: Insert, Get, Remove", "ds/priorityqueue/priority_queue.go: Push, Pop", "utils/sync/locker.go"]}
{"id": "C103", "title": "Ketama spreads keys evenly over the nodes on average", "statement": "Take the digests of the nodes as 512-bit numbers drawn at random. After any history of Add and Remove calls, whatever the hash of the key, Get names each of the L current nodes for a fraction 1/L of all draws: exactly so if the draws in which two 64-bit words of the digests coincide are left out, and up to a relative error of 32 L N^2 / 2^64 otherwise, where N is the number of nodes ever mentioned. Adding a node to L others changes the answer for a fraction 1/(L+1) of the draws, removing one of L for a fraction 1/L, with the same error.", "quantifier": "every history, every key that is not a node name, every number of replicas from 1 on, all digests of the nodes", "why_tests_cant": "an average over all digests cannot be measured; a test sees one digest per name", "anchors": ["ds/ketama/ketama.go: Add, Remove, Get", "algorithm/hash/hash.go: GenHashInts"]}
{"id": "C104", "title": "Walking over an ordered container takes constant time per entry on average", "statement": "n calls of Next (or of Prev) in a row, starting at any entry of a container with s entries, go through at most 3n + 4 log2(s+1) + 2 loop rounds in total, although a single call may take 2 log2(s+1) + 1. A whole Traversal takes at most 4s + 2 rounds, and one whose visitor stops it after m calls at most 4m + 2 log2(s+1) + 3.", "quantifier": "every history of insertions, deletions and value changes, every starting entry, every n, every visitor", "why_tests_cant": "a bound for all trees and starting points; a test measures a few", "anchors": ["ds/rbtree/node.go: Next, Prev, successor, presuccessor", "ds/rbtree/rbtree.go: First, Traversal", "ds/map/iterator.go: Next, Prev", "ds/set/iterator.go: Next, Prev"]}
{"id": "C105", "title": "NthElement takes time proportional to the number of elements", "statement": "NthElement on a range of n elements reads and writes at most k n elements, for some constant k and all inputs, in particular inputs with many equal elements.", "quantifier": "all ranges of all random access containers, all positions, all lawful comparators", "why_tests_cant": "a bound for all inputs; a test measures a few", "anchors": ["algorithm/sort/nth_element.go: NthElement, nthElement", "algorithm/sort/sort.go: doPivot, swapValue"]}
{"id": "C106", "title": "Going through all arrangements with NextPermutation takes constant time per arrangement on average", "statement": "Starting from the sorted arrangement of n elements no two of which compare equal, the loop 'while NextPermutation(first, last)' visits n! arrangements and reads and writes at most 20 n! elements altogether, the last call (which returns false) included; a single call never makes more than 10 n accesses, whatever the range holds.", "quantifier": "all ranges of all random access containers holding distinct elements in order (for a single call: any elements), all lawful comparators", "why_tests_cant": "n! calls for every n; a test runs a few small n", "anchors": ["algorithm/sort/next_permutation.go: NextPermutation, reverse"]}
{"id": "C107", "title": "A container does not keep removed elements alive", "statement": "After any history, following the pointers held by a container leads only to elements it still contains: an element that was erased, popped, removed or cleared can be reclaimed by the garbage collector as soon as the caller drops it.", "quantifier": "all histories of calls on every container (trees and the maps and sets on them, the hash trie, both linked lists, skip list, vector, deque and the queues and stacks on them)", "why_tests_cant": "a leak shows in no result of any call; it must be excluded after every history", "anchors": ["ds/rbtree/rbtree.go: Delete, Clear", "ds/list/bidlist/list.go: Remove", "ds/list/simplelist/simplelist.go: Remove", "ds/hamt/hamt.go: Insert, Erase", "ds/skiplist/skiplist.go: Remove, Insert (prevNodesCache)", "ds/vector/vector.go: PopBack, EraseIndexRange, Clear, ShrinkToFit", "ds/deque/segment.go: popBack, popFront, eraseAt, clear"]}
{"id": "C108", "title": "A skip list takes linear space on average", "statement": "Whatever calls built the skip list (fixed before any random word is drawn), averaged over all sequences of words the generator can return, the list keeps at most 2 max + (2 - 2^(1-max)) n pointers alive, where max is the maximum level and n the number of keys in it; with no sequence of words does it keep fewer than 2 max + n or more than (n + 2) max.", "quantifier": "every maximum level from 1 to 64, every history of calls, every strict weak order, all sequences of 64-bit words", "why_tests_cant": "an average over all random choices and all histories; a test sees a few runs", "anchors": ["ds/skiplist/skiplist.go: Insert, Remove, randomLevel, New, Node, Element"]}
{"id": "C109", "title": "Sort takes n log n time on average", "statement": "Averaged over all n! orders in which n pairwise different elements can stand in the range, Sort reads and writes at most 60 n (log2 n + 1) elements, whatever the container and whatever stands around the range.", "quantifier": "every random access container obeying the container laws, every strict weak order, every n, every set of n pairwise different elements, all their n! arrangements", "why_tests_cant": "an average over n! arrangements for every n; a test sees a few arrangements of a few sizes. The worst case (C75) is quadratic, so only the average can justify a user's choice of Sort", "anchors": ["algorithm/sort/sort.go: Sort, quickSort, doPivot, partition, swapValue"]}
{"id": "C110", "title": "NthElement takes linear time on average", "statement": "Averaged over all n! orders in which n pairwise different elements can stand in the range, NthElement reads and writes at most 60 n elements, for every position asked for, whatever the container and whatever stands around the range; on no input, with equal elements or not, does it make more than 5 n (n + 1) reads and writes.", "quantifier": "every random access container obeying the container laws, every strict weak order, every n, every position, every set of n pairwise different elements and all their n! arrangements; for the worst case every input", "why_tests_cant": "an average over n! arrangements for every n; a test sees a few arrangements of a few sizes", "anchors": ["algorithm/sort/nth_element.go: NthElement, nthElement", "algorithm/sort/sort.go: doPivot, swapValue"]}
{"id": "C111", "title": "Insert and EraseAt of a deque move only the elements on the nearer side", "statement": "Inserting or erasing at position k of a deque of n elements moves only elements between the position and the nearer end: the call writes at most min(k, n-k)/128 + 3 of the segments of 128 elements the deque keeps its elements in.", "quantifier": "every history of calls on a deque, every position, every element", "why_tests_cant": "how much of the memory a call touches cannot be seen through the API, and the claim ranges over all histories, lengths and positions", "anchors": ["ds/deque/deque.go: Insert, moveFrontInsert, moveBackInsert, EraseAt", "ds/deque/segment.go: insert, eraseAt"]}
{"id": "C112", "title": "A visitor may insert into the container it is visiting", "statement": "While Traversal of a Map, MultiMap, Set, MultiSet or RbTree without goroutine safety runs, its visitor may call Insert on the same container. No call panics. A Map or Set hands over keys in strictly ascending order, each with the value it has at that moment: exactly the keys that were there at the start and those inserted while a smaller key was being visited. A MultiMap, MultiSet or RbTree hands over, in the container's order, every entry except those inserted under a key smaller than the one being visited. Afterwards the container behaves as after the same insertions made without a traversal, and the traversal ends when the visitor makes only finitely many insertions. The same holds up to the last visit if the visitor stops.", "quantifier": "every container reachable by any history of calls, every comparator that is a total preorder, every visitor with a state of its own", "why_tests_cant": "every tree shape, every visitor and every interleaving of rebalancing insertions with the walk; a test tries a few", "anchors": ["ds/rbtree/rbtree.go: Traversal, Insert", "ds/map/map.go: Traversal, Insert", "ds/map/multimap.go: Traversal, Insert", "ds/set/set.go: Traversal, Insert", "ds/set/multiset.go: Traversal, Insert"]}
{"id": "C113", "title": "A visitor may remove the element it is visiting", "statement": "While Traversal of a Map, Set, Skiplist, bidlist.List or simplelist.List without goroutine safety runs, its visitor may remove the element it was handed, as its last call before it returns. The traversal goes on with the rest: every element is handed over exactly once, in order, and afterwards the container holds exactly the elements the visitor did not remove.", "quantifier": "every container reachable by any history of calls, every comparator that is a total preorder, every choice of elements to remove", "why_tests_cant": "depends on the shape of the structure and on where in it the removed node was; a test tries a few shapes and choices", "anchors": ["ds/skiplist/skiplist.go: Traversal, Remove, Insert", "ds/list/bidlist/list.go: Traversal, Remove, Node.Next", "ds/list/simplelist/simplelist.go: Traversal, Remove", "ds/map/map.go: Traversal, Erase", "ds/set/set.go: Traversal, Erase", "ds/rbtree/rbtree.go: Traversal, Delete"]}
{"id": "C114", "title": "Hamt: a visitor may erase the entry it is handed", "statement": "While Traversal of a Hamt runs, its visitor may erase the key it was just handed. The Traversal returns without a panic; every entry the Hamt held when it began is handed over exactly once; afterwards every call on the Hamt answers as the map with exactly the erased entries gone.", "quantifier": "every Hamt reachable by any history of calls, every hash function into 64-bit words (collisions included), every choice of entries to erase", "why_tests_cant": "erasing rewrites arrays, unlinks pairs and collapses nested nodes under the running loops; whether they notice depends on hash prefixes and on the order in which entries come", "anchors": ["ds/hamt/hamt.go: Traversal, traversal, Erase, erase"]}
{"id": "C115", "title": "Hamt: a visitor may erase any key", "statement": "While Traversal of a Hamt runs, its visitor may erase any key: the Traversal does not panic.", "quantifier": "every Hamt reachable by any history of calls, every visitor that erases keys", "why_tests_cant": "fails only when the erased key sits alone in a slot of the array the loop is still going over, behind the current one", "anchors": ["ds/hamt/hamt.go: traversal, erase"]}
{"id": "C116", "title": "Hamt: a visitor may give present keys new values", "statement": "While Traversal of a Hamt runs, its visitor may Insert new values under any keys that are in the Hamt. The Traversal returns without a panic; every key is handed over exactly once, with the value it has at that moment; afterwards every call on the Hamt answers as the map with all these insertions made.", "quantifier": "every Hamt reachable by any history of calls, every hash function into 64-bit words (collisions included), every visitor that never stops and inserts only under present keys", "why_tests_cant": "the pairs are written to while the loops go over them; which value is handed over depends on the order of the entries, which depends on the hashes", "anchors": ["ds/hamt/hamt.go: Traversal, traversal, Insert, insert"]}
{"id": "C117", "title": "A Hamt takes space proportional to its entries", "statement": "Whatever was inserted and erased before, a Hamt with n entries keeps at most 12 n + 2 objects alive (nodes, their arrays, pairs of key and value), and its arrays have at most 6 n slots together. The bound on the objects is reached by a Hamt of two entries.", "quantifier": "all histories of calls on a Hamt, every hash function into 64-bit words", "why_tests_cant": "what erasing leaves behind depends on which keys shared digits of their hashes; no sample of histories covers it, and no result of a call shows it", "anchors": ["ds/hamt/hamt.go: Insert, Erase, insert, erase"]}
