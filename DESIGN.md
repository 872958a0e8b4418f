# Formal model of zijiren233/gencontainer in Rocq (Coq 8.16.1)

## Method

Each Go package is modelled function by function as executable Gallina in
`rocq/theories/<Pkg>Model.v`. The specification vocabulary used by the theorem
statements lives in `<Pkg>Spec.v` (small, independent of the model's helpers), the
proofs in `<Pkg>Proofs.v` and further `<Pkg>*.v` files, and the property theorems, each
with `Print Assumptions` beneath, in `<Pkg>Properties.v` together with concrete
non-vacuity examples. (pqueue has its theorems in `HeapProperties.v`.)

Modelling conventions:

* Go `int` is `Z` (or `nat` where a value can only be a length): unbounded, no wrap-around (except in C102, C103, C115-C117, C108, C111 and C112).
* A Go panic is the value `Panic`; a loop whose termination depends on pointers runs on
  fuel and yields `NoFuel` when exhausted. Theorems say `= Ok ...`, which excludes both.
* Pointers are identifiers into a heap (`gmap nat node`), nil is explicit.
* Go maps are association lists under the key's `==`, which need not be reflexive (NaN);
  iteration order is an arbitrary permutation, universally quantified.
* `maps.Clear` (golang.org/x/exp) is taken to be the builtin `clear`, which removes NaN keys as well; the library's
  source is not at hand. If it deleted key by key, such entries would stay after Clear. It makes no difference for keys
  that are equal to themselves, and what C216 and C223 say of odd keys is about loops without Clear.
* Slices are (array, offset, length, capacity) windows into a store of arrays, so that
  aliasing is visible; growth of capacity is an arbitrary policy, universally quantified.
* Goroutines are threads of a small-step machine whose steps are the atomic memory
  operations, lock operations and clock reads of the source; a schedule is an arbitrary
  list of steps.
* External code (`golang.org/x/exp/slices`, `maps`, `hash/crc32`, `fmt`, `time`, `reflect`)
  is modelled by its documented behaviour.

If a property a user would rely on is false of the faithful model, the theorem
`..._refuted` gives the witness and another theorem states what the code does instead.

## How each property is proved

| id | model | proof |
|----|-------|-------|
| C01-C06 | heap.go over a slice and an arbitrary `less` | heap-order invariant with one exempt index, induction on fuel; histories by induction |
| C07-C08 | pqueue over the heap model, items are pairs | instance of C02; ties refuted by a run, for both kinds of queue |
| C09-C14, C18, C19 | pointer heap of elements and list headers | representation predicate (circular chain, `Chain.v`), one refinement lemma per call, induction over histories |
| C15 | same | exact effect for a list inserted into another and into itself (walk that meets its own copies); order and self-insertion refuted |
| C16 | same | Sort equals a pure stable quicksort; sortedness and stability by induction |
| C17 | same | refuted in every reached state; which handles stay good is proved |
| C20-C23 | pointer heap of ring nodes | cyclic chain predicate |
| C24, C25, C79 | map of element pointers over the dllist model | refinement to a recency list; non-termination shown for every fuel |
| C26-C31 | store of Go maps, explicit references | membership characterisation for every iteration order |
| C32-C36 | same | refinement to a finite map |
| C37-C45, C80-C82 | slice store | refinement of slice contents over histories, frame lemmas for aliasing |
| C46-C51 | set and vec models, abstract hash, concrete CRC-32 for witnesses | sorted virtual nodes, successor characterisation |
| C52-C58 | pointer heap of tree nodes | representation predicate by inductive trees |
| C59-C66, C83 | thread machine, one step per memory, lock or clock operation | invariants over schedules; solo runs for behaviour of a single call |
| C67-C72 | thread machine, one step per atomic operation of rwmap.go | an invariant that carries a linearization, into which the moments of calls may be inserted in the past; from it results, Range and Len |
| C73-C77, C84-C86 | thread machine of synccache on top of the one of rwmap | every run has a history on an atomic map (C67); invariants of histories |
| C78 | the registry of caches: runs of rwmap in which Start stores, Close deletes and the ticker ranges, `SyncCacheRegistry.v` | from the histories of C67 and Range of C71 |
| C87 | the same machine as C73 | link between goroutines of the cache and of the map; progress of rwmap (C72) |
| C88, C89 | the machines of C67 and C59 | list of accesses per step, proved to fit the steps; the mutex invariant; witnesses of the two races |
| C90, C91, C94 | the machine of C67 | a measure in lexicographic order (progress of calls, rest of iterations, compare-and-swaps that will succeed); progress from C72; a starving Store by induction |
| C92, C96 | the machine of C59 | rank of every position; progress from C83; the mutex invariant |
| C101 | the machine of C59 | a record of six fields with the effect of every call, `RefreshCacheSeqSpec.v`; inversion of undisturbed calls; frame for the function pointers |
| C102, C103 | heap.go over an interface of arbitrary state transformers, `int` wraps at 64 bits; a wrapper counts calls of Less and Swap | the calls simulate those of C01-C05; cost by induction on the logarithm, Init by the sum of heights |
| C97-C100 | range loops of set and genmap as relations, callbacks as programs of calls, `GoMapIter.v` | keys to come and keys done as sets kept along the loop; claims on the states passed through |
| C93, C95 | the machine of C73 | a measure of six numbers, the first one counting the pointers in the map, which pays for the retries of LoadOrStore; progress from C87 |
| C105 | vec.go:37-98 over kinds of types, `VecAuto.v`; floats are `spec_float` of the standard library | case analysis; floats by a key in lexicographic order |
| C106 | lhashmap.go:68-74 with callbacks that call methods of the map, `LHashMapIterSpec.v`: the place of the loop as a position in the recency list | each call's writes to the cells; induction on the turns; Clear leaves the old elements linked (refuted) |
| C107 | dllist.go:236-243 and element.go:49-55 with callbacks that call methods | elements get into no list they were not made in (footprint of every call); induction on the turns; removal and Clear inside the loop (refuted) |
| C108 | ring.go:73-78 with wrap-around of `n + 1` | the specification of Move and Link at the wrapped number; divisibility of 2^64 (refuted for MaxInt64) |
| C109 | ring.go:91-98 with callbacks that call functions of ring | induction on the turns; what follows the current element after each turn; Unlink of the current element (refuted) |
| C110 | vec.go:236-242 with callbacks that make vectors, call methods and write through slices | one unfolding of the loop in reachable states; induction on the turns; removal (every other element) and appending inside the loop (refuted) |
| C111 | the machine of C59 with wrapping subtractions, `RefreshCache64Spec.v` | every stored or held time is 0 or a clock reading, so the machines agree step by step |
| C112 | the machine of C73 with wrapping additions and UnixMilli, `SyncCache64Spec.v` | bound on expirations after k additions, so the machines agree step by step; MaxInt64 plus a millisecond (refuted) |
| C113 | the machine of C67, `RwMapCostSpec.v` | potential: misses counted so far, or the size of the read map once there is no dirty map; a bound on the rest of each call |
| C114 | the machine of C67 with, for each goroutine and each entry, the calls that began before; `RwMapHbSpec.v` | invariant: a pointer in an entry comes from a call known to whoever reads it |
| C115-C117 | the functions of C102 with an interface whose Less may answer anything (`HeapAnySpec.v`); IEEE-754 floats as in C105 | induction over the calls, only permutations; floats without NaN through a total order that agrees with `<` on them; NaN by a computed run |
| C118-C122 | machine of the registry (an atomic set, by C67), startOnce, the ticker with its channel of capacity 1 and the trimming goroutine (`SyncCacheTrimModel.v`); a trim is a stay of any duration | invariant on startOnce and the calls in progress; runs split at the events of a pass; C121, C122 by computed runs |
| C123, C124 | the model of C59; a function of the model stands for the Go function with the context and the arguments of the call | invariant relating the program counter of a goroutine to its current call; C124 by a run |
| C125-C127 | dllist.go:255-289 with a comparison function that has a state (`DllistSortAnySpec.v`) | the proof of C16 with the state handed through; comparisons counted in the state; C127 by sorted lists of 2^m numbers |
| C128, C131-C133 | vec.go:110-170, 293-319 (`VecCapSpec.v`: capacity, whether the elements stay in their array, how many arrays are made) | C128 by computation; C131 by looking at what each call does to the slice header; C132, C133 from it |
| C134-C137 | vec.go:206-235, 400-495 with comparators that are no weak order (`VecAnySpec.v`: an order on the elements at hand; `by_comparing`: what a sorting function can know of the elements, assumed of slices.SortFunc and SortStableFunc in C135_Sort, C135_SortStable and C137 and shown of insertion sort) | C134 by the loop invariants; C135 by completing the order to the whole type; C136 by computation; C137 because the answers on [x; NaN] and [NaN; x] are the same |
| C138-C166 | no new definitions: what the code does where C15, C17, C25, C30, C33, C38, C41, C46, C48, C49, C55, C57, C58, C62-C65, C73, C88, C89, C91 and C96 are false of it (C138-C159), and the refuted parts of C105-C110 and C112 (C160-C166), as claims of their own. Their theorems keep the number of the claim they were found with | as there |
| C167, C168 | the same steps as C59-C66 (`RefreshCacheAgeSpec.v`: `covers`, `own_refresh`, `fresh_by`) | an index into the trace that says since when the stored value is the one recorded; it never goes back, and the goroutine that returns carries an index between the one at its invocation and the current one |
| C169, C170 | vec.go:172-220, 346-414 with comparison functions that may panic (`VecCostSpec.v`: `same_at`, two comparisons that say the same at some positions) | C169 by induction on the halvings, choosing the positions along the way; C170 by induction on the list |
| C171, C172 | vec.go:124-141, 167-170, 257-264, 340-342, 372-374 and Insert, Replace (`VecHeldSpec.v`: `held`, the cells of the array up to the capacity, `behind`, those behind the last element). C171 is refuted: Pop and Clear change no cell, so elements stay reachable | each method takes the cells apart at the new length; what is written lies before it |
| C173, C174 | minheap.go, maxheap.go, minqueue.go, maxqueue.go with the array behind the slice (`HeapArray.v`), under heap.go of `HeapIface.v`; `HeapArraySpec.v`: `holds`, elements and cells behind. C173 is refuted: Pop only shortens the slice | the types keep the contract of C102 for a representation that says that no cell is lost; counting then leaves one cell for the popped element |
| C175, C176 | rwmap.go:170, 183, 453 and synccache.go:140 with reflect.Value.Equal as its source has it (`ReflectEqual.v`) in place of the arbitrary function of `RwMapModel.v` and `SyncCacheModel.v`; `ReflectEqualSpec.v`: the operator == of the language specification as a relation | induction on values; C176 puts the result into C72, C67 and C84 |
| C177, C178 | synccache.go and item.go on top of the steps of rwmap (`SyncCacheModel.v`); `SyncCacheRaceSpec.v`: which NewEntry calls happen before the next step of a goroutine, given only what the pointers of the rwmap's entries order | the history of the map (C114) is followed; what a goroutine has in hand it knows the NewEntry of; assumed: an entry given to CompareAndDelete by the program has been passed to that goroutine in a way that orders the two; SetExpiration and AddExpiration belong to no goroutine of the model |
| C179 | refreshcache.go (`RefreshCacheModel.v`); `RefreshCacheHbSpec.v`: which calls and ends of refresh functions happen before the next step of a goroutine, given only what the atomic fields order | what a goroutine holds, or a field holds, was made by something in its past; every execution of the machine is one of a history |
| C180, C181 | dllist.go:255-289 with a comparison function that may panic (`DllistSortPanicSpec.v`); heap.go:13-78 with methods that may panic and leave a state (`HeapPanicSpec.v`) | in Sort all comparisons come before the list is cleared; the heap functions only swap; C180_same, C181_same: without panics these are the functions of C125 and C102 |
| C182, C183 | synccache.go:93-107, how often its loop is run (`SyncCacheRetrySpec.v`) | counted by the entries it makes, one each time around; C183 with any clock and any changes of expirations; C182's execution has a clock that never goes back |
| C184, C185, C186 | rwmap.go: what `read` and `dirty` refer to; Range and SlowLen beside other calls (`RwMapMemSpec.v`) | C184 speaks of the fields of the map, not of the variables of the calls under way; C186 gives one execution for each of the two methods |
| C187, C188, C189 | hashring.go:85-87 for strings and integers; GetNode, AddNodes, RemoveNodes with it (`HashRingCrcSpec.v`) | CRC-32 bit by bit and %v, %d of strings and integers are written down from their documentation (`crc32`, `label`; the check value of CRC-32 is tested in C187_ex); floats are not covered |
| C190, C191 | rwmap.go:474-505 with a callback that panics (`RwMapPanicSpec.v`); the machine of C67 | C190: the panic ends Range where the mutex is not held, which is what returning false does; C191: the places such a call can be at, none of which needs the mutex |
| C192, C193, C194 | dllist.go and element.go, lhashmap.go: the pointers between the structs (`DllistKeepSpec.v`) | C192, C193: what pointers lead to stays inside the list by the invariants of C09 and C24; the root of a zero value that is still unused has no pointers, by following every call; C194: Clear leaves the list field of the elements as it is |
| C195 | rwmap.go: lines 208-212, 282-286, 345-349, 426-430, 506-532, on the model of C67 | an invariant on top of that of C67: the counter plus what finished operations still have to add is the number of entries made since the last reset that hold a value, up to one for every call that was in progress at the reset and has had its effect; entries with a value that are not in the map are held by a deleting call |
| C196, C197 | rwmap.go: lines 423-461, 542-580, on the model of C67 | C196: from when the key is absent its entries hold no value, so dirtyLocked does not copy it and after one promotion it is not in [dirty], after two not in [read]. C197: the execution is given for every n, with the state after each round |
| C198 | vec.go: Slice, SliceCut, Push, Set, on the model of C37 | the slice and the vector are windows of one array of the model; writes through one read through the other, until Push moves the vector to a new array |
| C199, C200 | vec.go:340-342 with the loops of slices.CompactFunc of Go 1.22 and 1.23 (`VecPanicSpec.v`), on the model of C37 | C199: loop invariant: before turn k the array is what is kept of the first k elements, then the old elements; C200: a concrete panic and a second call |
| C201, C202 | rwmap.go:36-580 used by one goroutine, with any == of keys (`RwMapAnyModel.v`) | C201: an invariant (entries of [read] that are not expunged are in [dirty] under the same or a == key) and the table of values, call by call against the built-in map of `GoMap.v`; C202: what each call does to the pairs under such keys |
| C203, C204 | rwmap.go:474-505 with a callback that makes calls (`RwMapAnyRangeSpec.v`), on the model of C201 | C203: an entry of the snapshot stays in [read] or [dirty] under a == key, or is gone and never gets a value again; shown for every call but Clear; C204: a concrete callback |
| C205–C207 | synccache.go:36-165 and item.go used by one goroutine (`SyncCacheAnyModel.v`), on the rwmap model of C201 | a relation between the state of the cache and a content (map, odd pairs, entries), shown for every call; the loops of trim, Clear and Range by induction on the snapshot, whose entries only the loop itself takes out; C207: concrete histories |
| C208–C210 | synccache.go:36-165 with a deletedCallback that stores into the cache (`SyncCacheStoreModel.v`), on the rwmap model of C201 | the relation of C205; the Stores by induction on their list, the loop of LoadOrStore by induction on the rounds, with an inductive description of its result; the loops of Clear, Range and trim by induction on the snapshot, whose entries are tracked as in C203; C209: an expired entry under the key is found again after each round |
| C211, C212 | genmap.go:54-61, 72-80, 96-98, 125-127 and set.go:85-91 with callbacks that panic (`GenMapPanicModel.v`), which agree with `GenMapModel.v` where nothing panics | loop invariant of DeleteFunc: the map is what is kept of the entries asked about and those to come; the others by induction on the entries |
| C213, C214 | synccache.go:67-165 used by one goroutine, over `RwMapAnyModel.v`, with a deletedCallback that panics on some values and a callback of Range that panics (`SyncCachePanicModel.v`), which agrees with `SyncCacheAnyModel.v` where nothing panics | relation between the cache and its content as in C205; the loops of Clear, trim and Range by induction on the entries still to come; histories |
| C215 | dllist.go with a nil receiver (`DllistNilModel.v`), each function agreeing with that of `DllistModel.v` on other receivers (C215_agree) | every call evaluated up to its panic; the elements of lists keep their pointers, so that the invariant of C09 stays; histories with steps that change nothing |
| C216, C217 | genmap.go, all calls, on maps whose entries have numbers (`GenMapOddModel.v`), agreeing with `GenMapModel.v` without them (C216_agree); the loop is that of `GoMapIter.v` with the numbers for keys | the theorems of C97 for the numbers; an odd key is == to none, so only Clear removes its entry; for C217 the newest entry is always one that may come |
| C218 | lhashmap.go, all calls, with fields m and l that can be nil and structs as a panic leaves them (`LHashMapZeroModel.v`), agreeing with `LHashMapModel.v` where they are not (C218_agree) | the list methods are those of `DllistNilModel.v`; induction over the calls: the list stays nil and the table nil or empty |
| C219 | heap.go with 64-bit `int` and states after a panic (`HeapPanicSpec.v`) on slices | the first Less or Swap with the bad index panics before anything is written; up stops at once for -1 and 0, since (j-1)/2 = j |
| C220 | pqueue.go, all functions, with panics recovered and with a nil heap (`PQueueRecModel.v`), over `HeapPanicSpec.v` | induction over the calls with C102 for slices and C181_same; Pop of an empty queue panics in Swap, before anything is written |
| C221, C222 | vec.go lines 461-495 with both sorts of x/exp/slices at hand (`VecSortModel.v`) | as C81; for C222 a library that reverses the slice before it sorts |
| C223, C224 | set.go with numbered entries (`SetOddModel.v`), as C216, C217 for genmap | the calls agree with `SetModel.v` when the numbers are dropped (a simulation per call); the loop as C97 over the numbers; for C224 one odd element and a callback that inserts it again |
| C225, C226 | rwmap.go with calls whose key cannot be hashed (`RwMapHashModel.v`), their panics recovered; the other calls as in `RwMapModel.v` | a simulation that drops those calls and the calls of Len: no other step looks at the counter; for C226 the functions deferred at lines 208 and 345, which see `loaded` false |
| C227 | as C225; `failed_stores` of `RwMapHashSpec.v` counts the calls in the trace | the simulation of C225 keeps the difference of the two counters plus the calls that have still to count; C69 for the execution without them |
| C129 | tree.go:170-200 | from C56 |
| C130 | genmap.go:110-123 | from the proof of C32, the calls being those of CopyFrom and CopyTo |
| C104 | the machine of C73 | what remains of a call at each of its places, as a big-step relation that the steps of a lone goroutine preserve; then the relation is unfolded call by call |

## Trusted base

* The kernel of Coq 8.16.1 (`coqc`; `vm_compute` is used for concrete examples and for the
  CRC-32 witnesses), and the parsing and elaboration of the definitions and statements.
* No axioms. `Print Assumptions` answers "Closed under the global context" for every theorem
  named in `MANIFEST.json`; the command is beneath each theorem, so the answers are in the
  build log. The library is std++ (`stdpp`). Loading it loads ssreflect, whose module
  `Coq.ssr.ssrunder` contains seven parameters of an opaque module (`Under_rel.*`), listed by
  `vcheck`; no theorem here depends on them.
* That the models say what the Go code does. Every definition names the lines it stands for. The
  code was read, not run. What the models leave out or assume is listed now.

### Everywhere

* `int`, `int64`, `uint32` sums and lengths are unbounded, except CRC-32 and the hash values of
  hashring (32 bits) and the indices of C102, C103 and C115-C117, the argument of `Unlink` in C108, the times of C111 and C112 (64 bits). No allocation fails; the stack is unbounded.
* Type parameters are arbitrary types. `==` is an arbitrary Boolean function where the code can be
  used with floats (genmap, set, hashring, lhashmap, and rwmap and synccache used by one goroutine), equality elsewhere. Keys of an interface type
  that holds a value that cannot be hashed are left out, except for rwmap (C225, C226); the first lookup with one panics.
* Sequential packages (all but refreshcache*, rwmap, synccache) are used by one goroutine.
* The Go memory model is sequentially consistent for atomics and mutexes. The plain accesses to
  shared fields that the code makes are steps like atomic ones (refreshcache.go:108 and 111,
  rwmap.go:527); data races have no further effect in the models. C88 and C89 show that these are the
  only racing accesses.

### Modelled, by package

| package | modelled | left out or assumed |
|---------|----------|---------------------|
| heap | heap.go, minheap.go, maxheap.go, all functions, over slices (`HeapModel.v`) and over any implementation of `Interface` with 64-bit `int` (`HeapIface.v`), and with the array behind the slice (`HeapArray.v`); the queue of example_pq_test.go | implementations of `Interface` that break its contract |
| pqueue | all functions | nothing (the zero `PQueue` in `PQueueRecModel.v`) |
| dllist | dllist.go, element.go, all functions, with reentrant callbacks in Range | nothing (nil receivers in `DllistNilModel.v`) |
| ring | all functions; `Do` with a callback that changes no ring (RingModel.v) and with one that does (`RingIterSpec.v`); `Unlink` also with 64-bit `int` | - |
| lhashmap | all functions, with reentrant callbacks in Range | the capacity option is a hint without effect |
| set, genmap | all functions; iteration in any order; Range with a callback that changes the map it iterates over as the Go specification has it, `GoMapIter.v` (in `GoMap.v` iteration is over the entries present at the start; C100 shows that this is the same for callbacks that leave the map alone); callbacks that panic in `GenMapPanicModel.v`; keys that are not equal to themselves in `GenMapOddModel.v` and `SetOddModel.v` | none |
| vec | all functions, and the functions of x/exp/slices they call; CompactFunc with a panicking comparison in `VecPanicSpec.v` | sort algorithms are arbitrary functions with the documented result; the comparator reflection picks (vec.go:37-98) is a parameter, which `VecAuto.v` instantiates for every kind of type; `natural.Less` is an arbitrary function |
| hashring | all functions | the hash function and `fmt` formatting are parameters; CRC-32 of strings and integers, formatted by `%v-%d`, is defined for the witnesses and for C187-C189 |
| tree | tree.go, all functions; utils.Max | DrawTree's output is a list of values, tabs and newlines; `%v` of a value is opaque |
| refreshcache, refreshcache0, refreshcache1 | all functions; the three differ only in arguments passed through | contexts; calls made by user functions are calls of another goroutine (C96: those of a refresh function that need the mutex never return) |
| rwmap | all functions; panicking Range callbacks in `RwMapPanicSpec.v`; keys that cannot be hashed in `RwMapHashModel.v`; a second model for one goroutine and keys with any `==` (`RwMapAnyModel.v`), with Range callbacks that make calls (`RwMapAnyRangeSpec.v`) | in the concurrent model, calls made by a callback are calls of another goroutine |
| synccache | synccache.go, item.go, all functions; the registry; a second model for one goroutine and keys with any `==` (`SyncCacheAnyModel.v`), with a deletedCallback that stores into the cache (`SyncCacheStoreModel.v`), and with callbacks that panic (`SyncCachePanicModel.v`) | among several goroutines, what a goroutine does after its callback panicked (one that never returns from its callback takes no further step and, by C95, has no lock; what it does after recovering counts as another goroutine); calls made by callbacks are calls of another goroutine; the machine of C118-C122 is separate from that of the cache |
| rbtree, sllist, utils.NoCopy | nothing: constructors only, an empty package, an empty lock | - |
