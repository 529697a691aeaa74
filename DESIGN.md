# Formal model of liyue201/gostl in Rocq (Coq 8.16.1)

Everything lives in `rocq/theories` (logical name `Verif`).  For an area X there are up to four kinds of file:

* `XModel.v`  – executable Gallina definitions only, each citing the Go file and lines it models.
* `XSpec.v`   – the small independent specification (what a user would say the operations mean) and, where the
  property is about histories, the API as a type of operations with observable results.
* `XProofs.v`, `XOps.v`, … – lemmas.
* `XProps.v`  – the property theorems, each followed by `Print Assumptions`, and `Example`s showing that a concrete
  non-trivial case meets the hypotheses.

Shared: `Base.v` (results, the state-and-panic monad, the comparator contract), `History.v` (running a sequence of
operations; agreement with a specification), `Wp.v` (symbolic execution tactics), `ListLib.v`.

## Modelling conventions

* Go `int` is `Z` (or `nat` for lengths that are provably non-negative), unbounded, except where the property is about
  overflow (`bitmap`, `hash`, `hamt`, `skiplist.randomLevel`, `Reverse`, `ketama`), where the wrap `mod 2^64` is explicit.
* A Go panic (index out of range, nil dereference, explicit `panic`, division by zero) is the value `Panic` of the result
  type `res`; running out of loop/recursion fuel is the distinct value `Fuel`.  Theorems state that the outcome is `Ok` (or
  that it is `Panic`), so neither a panic nor a run-away loop can hide.  The state left behind by a panicking operation is not
  modelled (after `recover()` nothing is claimed).
* Pointer structures (`rbtree`, `bidlist`, `simplelist`, `skiplist`, deque segments) are modelled at pointer level: a heap
  of nodes with `option nat` links; a program is a function `heap -> res (result * heap)` that follows the Go statements one by one.
  Garbage collection is not modelled: removed nodes stay in the heap, so stale handles can be talked about.
* `hamt` nodes are uniquely owned and modelled by value (`HamtModel`); `HamtHeapModel` has the same code with nodes, arrays and pairs as objects in a heap, and `hamt_heap_same` proves that both give the same answers to every history.
* Slices (`vector`, `array`, `slice`, `heap`) are modelled with a store of backing arrays (aliasing visible); the capacity chosen
  by `append` when it reallocates is an arbitrary function (`grow`), quantified in each theorem.
* Comparators are arbitrary functions `T -> T -> Z` satisfying the documented contract (`CmpOK`: sign antisymmetry,
  transitivity; equality is `cmp = 0`, which need not be Leibniz equality).
* Hash functions are arbitrary functions (quantified in each theorem): SHA-512 is a parameter; FNV-1 64 is modelled and is an instance.
  Random bits are an argument of the operation that draws them, so theorems hold for every outcome.
* `fmt.Sprintf("%v", x)` is a parameter `show : T -> string`.
* Concurrency: a method is a tree of memory steps and lock commands; `sync.RWMutex` is modelled with announced writers; any number
  of calls interleave step by step.  The theorems about the containers hold for *every* decomposition of a method's body into memory
  steps that, run alone, does what the sequential model does (and writes nothing where the method takes only `RLock`).  Weak memory is
  not modelled; race freedom (C64) is what makes interleaving adequate under Go's memory model.

## The code as pinned does not compile

`utils/comparator/comparator.go` uses `math.IsNaN` (lines 203, 219) and imports nothing, so package `comparator` and
everything importing it is rejected by the Go compiler.  The model follows the evident meaning (`math.IsNaN`).

## Properties: what is modelled and how it is proved

A property that is false of the code is kept in the list as the user would state it; the refutation is proved
(`…_refuted`, with a concrete witness or execution of the model) together with the strongest positive theorem found
(`…_partial`), and the manifest entry has status `partial` and says what is missing.  All 68 properties are expressed in the model.

| id | files | method |
|----|-------|--------|
| C01 | `Comparator*`: integers `Z`, bool, byte strings with Go's lexicographic `<` | case analysis; lexicographic transitivity by induction |
| C02 | floats as bit patterns, parametric in exponent/mantissa widths; IEEE `==`, `<`, IsNaN on the patterns | order embedding of non-NaN patterns into `Z` |
| C03 | same floats, `OrderedTypeCmp` | refuted with a NaN witness; proved for NaN-free |
| C04 | complex = pair of floats | Complex128 proved for NaN-free parts; Complex64 refuted (line 283 compares `real(a)` to itself) |
| C05 | `Reverse` with Go's 64-bit negation | arithmetic |
| C06–C08 | `Bitmap*`: bytes (`N`), `uint64` arithmetic mod 2^64 | refinement to a set of positions; C07 refuted near 2^64 |
| C09–C11, C60 | `Bloom*`: digest parameter, GenHashInts loop, little-endian codec | refinement over histories; codec round trip; C11 refuted by periodicity, C09 for k or m extreme |
| C12–C13 | `GoSlice*`, `Vector*`: store of backing arrays | refinement to `list T`; separation invariant |
| C14 | `Array*` | same |
| C15–C16 | `Slice*`, `Iter*` | positions; laws of random access iterators; C15 refuted (`Last`, `Equal`) |
| C17–C18 | `Segment*`, `Deque*`: ring of 128-element rings with begin/end, pool | ring invariant, contents function, refinement step by step; `DequeFloat` for the float comparison in `shrinkIfNeeded` |
| C19–C20 | `Adapter*` over an abstract container; deque and bidlist instances | container laws, refinement |
| C21–C25 | `Bidlist*`: heap of nodes, several lists | circular-list representation; refinement to node sequences; refutations by execution |
| C26, C61, C65 | `Slist*`, `TextModel` (iterator) | singly linked representation |
| C27–C30, C36–C37 | `Rb*`: heap of nodes with parent pointers; Insert/Delete/fixups/rotations/searches/iterators as written | address-labelled trees and zippers; red-black invariants; in-order refinement |
| C31–C35, C62 | `Map*`, `Set*` on the tree | refinement to sorted lists |
| C38–C39 | `Heap*` (`container/heap` style code of ds/heap, priority queue) | sift proofs; permutation; heap order |
| C40–C46 | `Sort*`, `Stable*`, `Nth*`, `Perm*`, `Search*`, `Algo*`: positions of a random access container; abstract iterators for const_op | permutation + order invariants; lexicographic successor |
| C47–C48 | `Skip*`: heap of towers, random words as arguments | each level is a sublist of the key sequence |
| C49–C52 | `Hamt*`: bitmaps in `N` with explicit 64-bit wrap, popcount index | trie invariant on hash prefixes; refinement to a finite map |
| C53–C55, C63 | `Ketama*` over the map model, uint64 keys | ring = sorted points; arithmetic on successor |
| C56, C64 | `Conc{Model,Spec,Proofs,Props,Inst,Ro,Tables,Play,Demo}` | invariant: linearization at lock acquisition; progress; well-founded step order |
| C57 | `ConcKetama*`, `ConcSections` | sections take effect one by one; explicit panicking execution |
| C58 | `ConcSet*` | explicit non-linearizable execution; partial by read-only argument |
| C59 | `Pair*` | direct |
| C66 | `Text*` | fold over the contents; exact text in all cases |
| C67 | `ConcVisit*` | simulation erasing nested read locks; counting of read locks; explicit deadlock |
| C68 | `ConcIter*` | race from any changing method and any unlocked access; quiet executions |
| C69 | `RbCheckProps` | colour conditions on all paths of any repainting, against `isrb_ok` |
| C70 | `RbCost*` | the operations with a limit on loop rounds; two limits that suffice agree; height ≤ 2 log2(n+1) |
| C71 | `VectorData*` | vectors plus the slices handed out; two of them lie in one array iff the capacity has not changed |
| C72 | `PermAllProps` | C44 iterated; the number of greater arrangements decreases |
| C73 | `CountSpec`, `SearchCostProps` | the same code on a container that counts; halving |
| C74 | `HeapGenModel`, `HeapCostProps` | heap.go over any Interface, run on a counting holder; sum of log2(n/m) ≤ n |
| C75–C76 | `SortCost*` | the same code on a container that counts; C75 refuted on n equal elements, with a quadratic upper bound |
| C77 | `AnyCmpProps` | the loop invariants of Sort, NthElement, Stable, search and heap again, without any law of the comparator; NextPermutation refuted, with the one law it needs |
| C78 | `AnyCmpRbProps` | loose meaning of the operations on lists (`AnyCmpSpec`): a relation instead of a function; the shape invariant of the tree does not mention the order, so it is reused; searches and insertion redone without laws; agreement of two comparators on the keys used gives equal runs |
| C79 | `AnyCmpRbProps` | refuted by running the model with a NaN key; without NaN keys by agreement with Float64Comparator (C78) and C31–C35 |
| C80 | `AnyCmpSkipProps` | the links invariant of C47 without the order; the search lemma redone: a node with a height above the level cannot be jumped over on a lower level |
| C81 | `CrashModel`, `CrashProps` | the comparing code again with explicit calls of a stateful comparison function that may panic, related to the total code (`cr`: same result, or a panic in a described state); the size field off by d is a simulation (`CrashShift`) |
| C82 | `CrashProps` | counterexamples by computation; for panics that depend on the arguments, the second comparison with the parent repeats one that answered |
| C83 | `CrashAlgModel`, `CrashAlgProps` | Sort, NthElement, Stable, NextPermutation again with explicit calls of a stateful panicking comparison function; a two-postcondition logic (`xwp`: returns with Q or panics with P) with the rearrangement invariant; `CrashAlgSame` relates them to the code of `SortModel` |
| C84 | `CrashAlgModel`, `CrashAlgProps` | the same for package heap and PriorityQueue; histories against bags |
| C85 | `CrashAlgProps` | counterexample by computation; up to the first panic by simulation |
| C86 | `CrashSkipModel`, `CrashSkipProps` | the comparing code of Skiplist again; a panic changes the scratch slice only |
| C87 | `HamtAliasModel`, `HamtAliasSpec`, `HamtAliasProofs`, `HamtAliasProps` | the trie with slices as keys over the caller's memory; related to the by-value trie of C49 by a relation on entries; the claim is refuted |
| C88 | `OptionsModel`, `OptionsSpec`, `OptionsProps` | options as data with an apply function over an allocation counter; induction over the option list and the history |
| C89 | `BloomRateSpec`, `BloomRateProps` | the filter of C09; counting of digests by injections into products of word lists; the claim is refuted beyond 8 hash functions |
| C90 | `BitmapShareModel`, `BitmapShareSpec`, `BitmapShareProps` | bitmaps over slices of arrays in memory; refinement to windows over shared bit storages; storage ownership after Clear and Resize |
| C91 | `BloomShareModel`, `BloomShareSpec`, `BloomShareProps` | filters over slices of arrays; the claim is refuted; simulation by values when slices are handed over |
| C92 | `BidIterModel`, `BidIterSpec`, `BidIterProps` | iterators as objects beside the lists of C21; refinement to positions in node sequences |
| C93 | `HamtOrderSpec`, `HamtOrderProps` | refuted by pigeonhole on 9-byte keys; canonical form of the trie of C07 by induction on the levels |
| C94 | `RaIterModel`, `RaIterSpec`, `RaIterProps` | iterators as objects beside the container; generic simulation, four instances; slices as windows of shared arrays |
| C95 | `EraseIterModel`, `EraseIterSpec`, `EraseIterProps` | client loops; refuted for the forward loop by computation; induction on the entries with the effect of Delete on addresses |
| C96 | `TreeIterModel`, `TreeIterSpec`, `TreeIterProofs`, `TreeIterProps` | iterators as objects beside the tree; simulation against a sequence of numbered entries with a choice at each erasure; one law record, five instances |
| C97 | `EstimateModel`, `EstimateSpec`, `EstimateProofs`, `EstimateProps` | exact reals for float64; the refutations build explicit duplicate-free lists of digests and count them; bounds 2/3 < ln 2 < 1 |
| C98 | `DequeCostModel`, `DequeCostProofs`, `DequeCostProps` | the deque model with a cost counter, erasure lemma, potential function over (segments in use, slots, pool, pool capacity) |
| C99 | `NodeAlgoSpec`, `NodeAlgoProofs`, `NodeAlgoList`, `NodeAlgoSlist`, `NodeAlgoTree`, `NodeAlgoProps` | laws of iterators that stand at a node or nowhere; every container's iterators obey them along every history; ranges in the sense of C46 follow |
| C100 | `NodeAlgoModel`, the same | Swap and Reverse over the laws; induction on the middle part; the end and empty ranges are refuted |
| C101 | `SkipCostSpec`, `CrashSkipModel` with a tally as comparison function | tower heights after a history as a function of the words (`history_towers`: each key present has a word of its own); comparisons on the path bounded by the towers passed (`SkipCostPath`); sums over all word lists with an independence lemma (`SkipCostAvg`); how many words give which height, for the biased `word % total` (`SkipCostLevel`) |
| C102 | `ConcCrashSpec`; the models of C56 and C81 together | a call is an operation with a state for the comparison function to start in (so it may be interrupted anywhere); bodies that leave, on a panic, the memory the interrupted method leaves; `locked_linearizable` (C56) gives the order, the step lemmas of C81/C86/C84 the answers; readers shown to write nothing whether they return or panic (`*_readers_read_panics`), so `locked_race_free`, `locked_no_deadlock` and `locked_calls_end` (C64) apply; `ConcCrashProps` |
| C103 | `KetamaShareSpec`: digests as lists of 64-bit words, `total` (C101) over all of them | exchanging the digests of two nodes is a bijection of the draws that exchanges the two nodes' roles on the ring (`exchange_says`, from C55's `ring_exact`), so all shares are equal; drawing one word anew bounds the draws with equal words (`total_redraw`, `clash_rare`); with C54, the keys that move are those of the node added or removed; `KetamaShareProofs`, `KetamaShareProps` |
| C104 | `TreeWalkCostModel`: Next, Prev, First and Traversal with one budget for the rounds of all loops together | the rounds of Next at each node form a list defined by recursion on the tree (`costs`); sums over the whole list, over a prefix, a suffix and an interval are bounded by structural induction; Prev by the mirror image |
| C105 | the counted containers of C73-C76 (`CountSpec`) under `nth_element` | counted run simulates the plain run with an added cost (`sim_nth`), partition keeps at least one element out of the recursion; for equal elements the run is computed by induction |
| C106 | the counted containers of C73-C76 under `next_permutation` | one call costs at most 10 times the length of the longest descending end of the range (`sim_next_permutation`); summed over all n! arrangements these ends have fewer than 2 n! elements, because at most one arrangement of distinct elements is descending (`dsuf_total`, induction on n); the loop visits each arrangement once (C72) |
| C107 | `HeldSpec.v`: what the garbage collector reaches from a container, as inductive predicates over the pointers of the existing models | trees and lists: every pointer of a node of the shape (RbTree.rep, cyclic and straight segments) stays within it; Hamt (`HamtHeldProps.v`): every pointer of an object owned by the trie leads to another owned object (`held_owned`), and an owned pair holds an entry; skip list: additionally every cached previous node is still in the list, because Insert and Remove fill the whole cache with nodes before the key and keep exactly those nodes (`sk_Insert_pre`, `sk_Remove_pre`); false of vectors and deques: push, pop, and the value is still in the array |
| C108 | `SkipSpaceSpec.v`: the pointers of the head, of the cache and of every element reachable from the list (`sk_held` of C107) | the words that give a tower higher than h are at most 2^64 / 2^h: 2^64 = q (2^max - 1) + r with r <= q; the reachable elements are those of the bottom level (C107), each with a tower drawn from its own word (C101) |
| C109 | `SortModel.v` with a counting container (`CountSpec.v`); `SortAvgStep.v` describes one round of the modelled quickSort as a function on lists | a round commutes with every renaming of the elements on either side of its pivot, so both sides are uniformly distributed; each p is the pivot for at least 6 (n-3)! p (n-1-p) arrangements; Cauchy-Schwarz and induction on n |
| C110 | `SortModel.v` (`nth_element`) with a counting container (`CountSpec.v`); `NthAvgStep.v` gives the accesses of the modelled recursion as a function on lists | the left recursion keeps the pivot behind its range, so two classes of inputs occur: all arrangements, and all arrangements that end with the largest element; a round takes either class to one of the two on each side, uniformly; the pivot is distributed as the middle of three or the larger of two; induction on n for both classes at once |
| C111 | `DequeModel.v`: the deque with its memory of segments; `DequeSideSpec.v` says which segments a call wrote by comparing the memories before and after | a frame rule for partial correctness (`po`): each helper writes only the segments it is given; the shape of the segments (all interior ones full) bounds their number by the distance in elements. For EraseAt a lower bound: the walk to the front pops one element from every segment before the position, which moves the end of each |
| C112 | `VisitInsertModel.v`: the loop of Traversal over the tree of `RbModel.v` with a visitor that makes Insert calls between handing over and Next; `VisitInsertSpec.v` describes the list of visits | a node stays at its entry under insertions (rotations move nodes, not entries), so Next gives the entry after it in the contents at that moment; simulation by a walk over lists (by key, or by position when keys repeat), then induction on the walk |
| C113 | `VisitEraseModel.v`: the loop of Traversal with a visitor that makes arbitrary calls between handing over and Next, for the pointer-level models of the skip list, both lists and the tree; `VisitEraseSpec.v`: what is handed over and what is left, on lists | skip list: a removed element keeps its links and its level-0 successor is in the list (`sk_Remove_all`), insertions keep the visited element in place; induction on visits. simplelist: Remove(pre, n) does not write n.next. bidlist: a removed node has no owner, so Next gives nil: refuted. Map and Set: refuted by evaluation; what holds is proved from `RbFrame.v` (Delete leaves the node it unlinks alone, by a frame argument, so Next from it can be computed) by induction on (size, entries ahead) |
| C114 | `HamtVisitSpec.v` (what is handed over and what is left), `HamtHeapModel.v`: bitmap nodes, children arrays, kv nodes and pairs as objects in a heap, read and written as the Go code does; the loop of traversal goes over the array that children referred to when it began | `HamtHeapRep`: the heap represents a trie with disjoint objects; every operation on the heap is simulated by the one on the trie as a value (C49). For an erase of k (`h_erase_hit`): entries without k keep their objects and their slots in every array, also in arrays no longer in use; the pair of k and those after it are not written to. Hence what is still to be visited is where the loops look for it; induction over the loops |
| C115 | as C114 | refuted by evaluation in the heap model: erase sets the slot of the old array to nil before it makes the new one, and traversal calls Type() on it; what holds is C114 |
| C116 | `HamtHeapModel.v` as C114; `HamtVisitSpec.v`: `fed_now`, the visits of a list of keys, each with its value at that time | `HamtHeapOver`: such an Insert writes to the value of one pair (`h_insert_present`), so all objects keep their shape and the loops go where they went at first; the representation is determined by the heap (`rep_det`), hence the value read is that of the map |
| C117 | `HamtHeapModel.v` and `hamt_held` of C107; `cells` in `HamtSpaceProps.v` | every nested node of the trie holds two entries with different hashes (invariant of C49: a node left with a single chain is replaced by it), so by induction on the levels f below a node of n entries its subtree owns at most (f + 1) n objects and as many half slots; owned and reachable objects are the same; the bound is attained by two keys whose hashes differ in the last digit only, computed |

## What is not modelled

* `Vector.String`/`Array.String` (one `fmt.Sprintf` call), rounding of float64 in `EstimateParameters` of bloom.go (exact reals in `EstimateModel`;
  the other theorems hold for every m and k), `math.Ceil`/float division in deque's shrink bound is modelled exactly (`DequeFloat`).
* SHA-512 itself; seeding of `rand`; wall-clock time; memory exhaustion; garbage collection; goroutine creation.
* Examples, tests and README of the repository.
* Type parameters: an element type is an arbitrary Coq type; interface dispatch in adapters is an abstract record of operations.

## Trusted base

* Coq 8.16.1's kernel and `vm_compute` (used in examples and in some refutations).
* The reading of the Go code into the model (no Go code is run); every definition cites the lines it models.
* `Print Assumptions` reports "Closed under the global context" for every theorem named in `MANIFEST.json` except the three of C97: no axioms are used.
  The three theorems of C97 (`estimate_partial`, `estimates_half_refuted`, `estimates_small_refuted`) speak about real numbers and depend on the axioms
  with which Coq's standard library constructs them: `ClassicalDedekindReals.sig_not_dec`, `ClassicalDedekindReals.sig_forall_dec`,
  `FunctionalExtensionality.functional_extensionality_dep` and `Classical_Prop.classic`.
  (`vcheck` lists seven names under `Coq.ssr.ssrunder.Under_rel`; these are the opaque module fields that come with loading
  Coq's own ssreflect plugin, which std++ loads; no theorem here depends on them.)
* Libraries: the standard library and std++ (definitions and lemmas only, all checked by the kernel).

## Wrong programs

`seeded/LOG.jsonl` records edits of the model that imitate realistic bugs, each rebuilt in a scratch copy: which theorems failed and
which were tightened afterwards.
