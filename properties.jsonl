{"id": "C01", "title": "heap.Init builds a heap", "statement": "After heap.Init on any slice-backed heap whose Less is a strict weak order, no element is less than its parent, and the elements are exactly those that were there before.", "quantifier": "every slice and every strict weak order", "why_tests_cant": "a test fixes a handful of concrete inputs; the claim ranges over every size and content", "anchors": ["heap/heap.go:Init", "heap/heap.go:down"]}
{"id": "C02", "title": "heap Push/Pop is a priority queue over every history", "statement": "Starting from an empty (or Init-ed) heap, for every interleaving of Push and Pop each Pop returns an element such that nothing left in the heap is less than it, and the content is always exactly the pushed elements minus the popped ones.", "quantifier": "every sequence of Push and Pop calls, every strict weak order", "why_tests_cant": "a test fixes one finite call sequence; the claim ranges over every sequence of calls", "anchors": ["heap/heap.go:Push", "heap/heap.go:Pop", "heap/heap.go:up", "heap/heap.go:down"]}
{"id": "C03", "title": "heap.Remove removes exactly the indexed element", "statement": "On a valid heap, Remove(i) for 0<=i<Len returns the element at index i, removes only it and leaves a valid heap.", "quantifier": "every heap and every valid index", "why_tests_cant": "a test fixes a handful of concrete inputs; the claim ranges over every size and content", "anchors": ["heap/heap.go:Remove"]}
{"id": "C04", "title": "heap.Fix repairs after one element changed", "statement": "If one element of a valid heap is replaced by an arbitrary value and Fix is called with its index, the heap is valid again and holds the same elements.", "quantifier": "every heap, index and replacement value", "why_tests_cant": "a test fixes a handful of concrete inputs; the claim ranges over every size and content", "anchors": ["heap/heap.go:Fix"]}
{"id": "C05", "title": "heap sort", "statement": "Init followed by popping until empty yields the elements in order (ascending for MinHeap, descending for MaxHeap), a permutation of the input.", "quantifier": "every input slice", "why_tests_cant": "a test fixes a handful of concrete inputs; the claim ranges over every size and content", "anchors": ["heap/minheap.go", "heap/maxheap.go", "heap/heap.go"]}
{"id": "C06", "title": "heap calls outside the domain panic", "statement": "Pop on an empty heap and Remove with an index outside [0,Len) panic: they never return a made-up element. Every other call with a valid index terminates without panicking.", "quantifier": "every heap and index", "why_tests_cant": "a test fixes a handful of concrete inputs; the claim ranges over every size and content", "anchors": ["heap/heap.go:Pop", "heap/heap.go:Remove"]}
{"id": "C07", "title": "priority queues pop in priority order and keep pairs together", "statement": "For every interleaving of Push and Pop on a Min (Max) priority queue, Pop returns a (priority,value) pair that was pushed and not yet popped, whose priority is the smallest (largest) present; Len is pushes minus pops.", "quantifier": "every sequence of Push and Pop calls", "why_tests_cant": "a test fixes one finite call sequence; the claim ranges over every sequence of calls", "anchors": ["pqueue/pqueue.go", "pqueue/minqueue.go", "pqueue/maxqueue.go"]}
{"id": "C08", "title": "priority queue ties pop in insertion order", "statement": "Items pushed with equal priority come out in the order they were pushed.", "quantifier": "every sequence of pushes", "why_tests_cant": "a test fixes one finite call sequence; the claim ranges over every sequence of calls", "anchors": ["pqueue/pqueue.go:Push", "pqueue/pqueue.go:Pop"]}
{"id": "C09", "title": "dllist behaves as a sequence over every history", "statement": "For every sequence of list and element calls (using handles that were never invalidated by Clear or Sort), Len, Front, Back, Get(i), Next, Prev, Slice and Range all agree with one and the same sequence of elements, forwards and backwards.", "quantifier": "every call sequence over any number of lists", "why_tests_cant": "a test fixes one finite call sequence; the claim ranges over every sequence of calls", "anchors": ["dllist/dllist.go", "dllist/element.go"]}
{"id": "C10", "title": "dllist insertion places exactly one element", "statement": "PushFront, PushBack, InsertBefore, InsertAfter (list and element forms) add one element holding the given value at exactly the stated place and leave all other elements, their order and all other lists unchanged; with a mark of another list they return nil and change nothing.", "quantifier": "every list, mark and value", "why_tests_cant": "a test fixes a handful of concrete inputs; the claim ranges over every size and content", "anchors": ["dllist/dllist.go:insert", "dllist/dllist.go:InsertBefore", "dllist/element.go:InsertBefore"]}
{"id": "C11", "title": "dllist removal removes exactly one element and is idempotent", "statement": "Remove takes out exactly the given element, returns its value, and a second Remove (or Remove through a foreign list) changes nothing.", "quantifier": "every list and element", "why_tests_cant": "a test fixes a handful of concrete inputs; the claim ranges over every size and content", "anchors": ["dllist/dllist.go:Remove", "dllist/element.go:Remove"]}
{"id": "C12", "title": "dllist moves relocate exactly one element", "statement": "MoveToFront, MoveToBack, MoveBefore and MoveAfter move the element to the stated place, keeping the relative order of all others, and are no-ops for foreign elements and marks and for e==mark.", "quantifier": "every list, element and mark", "why_tests_cant": "a test fixes a handful of concrete inputs; the claim ranges over every size and content", "anchors": ["dllist/dllist.go:move"]}
{"id": "C13", "title": "dllist Swap exchanges exactly two elements", "statement": "Swap(a,b) exchanges the positions of a and b for every relative position (adjacent either way, apart, at the ends) and changes nothing else.", "quantifier": "every list and pair of its elements", "why_tests_cant": "a test fixes a handful of concrete inputs; the claim ranges over every size and content", "anchors": ["dllist/dllist.go:Swap"]}
{"id": "C14", "title": "dllist PushBackList and PushFrontList append a copy", "statement": "PushBackList(other) appends the values of other in order, PushFrontList prepends them in order, also when other is the list itself; other is unchanged.", "quantifier": "every pair of lists, including l==other", "why_tests_cant": "a test fixes a handful of concrete inputs; the claim ranges over every size and content", "anchors": ["dllist/dllist.go:PushBackList", "dllist/dllist.go:PushFrontList"]}
{"id": "C15", "title": "dllist PushBackListTo and PushFrontListTo insert a copy in order", "statement": "Both insert the values of other, in order, directly after mark, also when other is the list itself.", "quantifier": "every pair of lists and mark", "why_tests_cant": "a test fixes a handful of concrete inputs; the claim ranges over every size and content", "anchors": ["dllist/dllist.go:PushBackListTo", "dllist/dllist.go:PushFrontListTo"]}
{"id": "C16", "title": "dllist Sort is a stable sort", "statement": "For every strict weak order, Sort leaves the list holding the same values in non-decreasing order with equal values in their original relative order.", "quantifier": "every list and strict weak order", "why_tests_cant": "a test fixes a handful of concrete inputs; the claim ranges over every size and content", "anchors": ["dllist/dllist.go:Sort"]}
{"id": "C17", "title": "dllist handles of cleared lists are inert", "statement": "After Clear (or Sort), calls through handles obtained before it do not disturb the list.", "quantifier": "every list history", "why_tests_cant": "a test fixes one finite call sequence; the claim ranges over every sequence of calls", "anchors": ["dllist/dllist.go:Clear", "dllist/dllist.go:Remove"]}
{"id": "C18", "title": "dllist Range visits in order and stops on request", "statement": "Range calls f on each element exactly once from front to back until f returns false, and returns true iff f never returned false.", "quantifier": "every list and callback", "why_tests_cant": "a test fixes a handful of concrete inputs; the claim ranges over every size and content", "anchors": ["dllist/dllist.go:Range", "dllist/element.go:Range"]}
{"id": "C19", "title": "the zero Dllist is a usable empty list", "statement": "A zero-value Dllist answers every call as a list made by New.", "quantifier": "every first call", "why_tests_cant": "a test fixes one finite call sequence; the claim ranges over every sequence of calls", "anchors": ["dllist/dllist.go:lazyInit"]}
{"id": "C20", "title": "ring.New makes a ring of n", "statement": "New(n) returns nil for n<=0 and otherwise a ring with Len n on which Do visits every element exactly once, starting with the receiver, in next order.", "quantifier": "every n", "why_tests_cant": "a test fixes a handful of concrete inputs; the claim ranges over every size and content", "anchors": ["ring/ring.go:New", "ring/ring.go:Len", "ring/ring.go:Do"]}
{"id": "C21", "title": "ring Move is modular", "statement": "Move(n) goes n mod Len elements forward for every positive or negative n; Next and Prev are inverse.", "quantifier": "every ring and n", "why_tests_cant": "a test fixes a handful of concrete inputs; the claim ranges over every size and content", "anchors": ["ring/ring.go:Move", "ring/ring.go:Next", "ring/ring.go:Prev"]}
{"id": "C22", "title": "ring Link joins or splits", "statement": "Linking different rings yields one ring with the elements of s inserted after r; linking two elements of one ring removes the elements between them, which form a ring of their own. The original r.Next() is returned. No element is lost.", "quantifier": "every pair of ring elements", "why_tests_cant": "a test fixes a handful of concrete inputs; the claim ranges over every size and content", "anchors": ["ring/ring.go:Link"]}
{"id": "C23", "title": "ring Unlink removes n mod Len elements", "statement": "Unlink(n) removes the n mod Len elements after r and returns them as a ring; if n mod Len is 0 nothing is removed and r.Next() is returned; n<=0 does nothing and returns nil.", "quantifier": "every ring and n", "why_tests_cant": "a test fixes a handful of concrete inputs; the claim ranges over every size and content", "anchors": ["ring/ring.go:Unlink"]}
{"id": "C24", "title": "lhashmap is a map ordered by recency", "statement": "Over every history, Load returns the last stored and not removed value, Len counts the keys, and Range visits every key exactly once, most recently stored or loaded first.", "quantifier": "every sequence of Store, Load, Remove, Clear, Range, Len", "why_tests_cant": "a test fixes one finite call sequence; the claim ranges over every sequence of calls", "anchors": ["lhashmap/lhashmap.go"]}
{"id": "C25", "title": "lhashmap Range ends whatever the callback does", "statement": "Range with a callback that only calls Load terminates.", "quantifier": "every map and callback", "why_tests_cant": "a test fixes a handful of concrete inputs; the claim ranges over every size and content", "anchors": ["lhashmap/lhashmap.go:Range", "lhashmap/lhashmap.go:Load"]}
{"id": "C26", "title": "set algebra", "statement": "Union, Intersection, Difference and SymmetricDifference return sets with exactly the mathematically right members and leave their operands unchanged, also when operands alias.", "quantifier": "every pair (list) of sets, every map iteration order", "why_tests_cant": "a test fixes a handful of concrete inputs; the claim ranges over every size and content", "anchors": ["set/set.go:Union", "set/set.go:Intersection", "set/set.go:Difference", "set/set.go:SymmetricDifference"]}
{"id": "C27", "title": "set membership over every history", "statement": "Insert, Push, Remove, ContainAndRemove, Clear, CopyFrom, Contain, Len, IsEmpty, Slice behave as a mathematical set; Insert and Remove report whether the set changed.", "quantifier": "every call sequence", "why_tests_cant": "a test fixes one finite call sequence; the claim ranges over every sequence of calls", "anchors": ["set/set.go"]}
{"id": "C28", "title": "set subset and equality tests", "statement": "IsSubSet and Equal answer exactly subset and equality.", "quantifier": "every pair of sets, every iteration order", "why_tests_cant": "a test fixes a handful of concrete inputs; the claim ranges over every size and content", "anchors": ["set/set.go:IsSubSet", "set/set.go:Equal"]}
{"id": "C29", "title": "set superset test", "statement": "IsSupperSet(set) returns true iff every member of set is a member of the receiver (its doc comment).", "quantifier": "every pair of sets", "why_tests_cant": "a test fixes a handful of concrete inputs; the claim ranges over every size and content", "anchors": ["set/set.go:IsSupperSet"]}
{"id": "C30", "title": "set works for every element of its element type", "statement": "For every ordered element type, after Insert(v) Contain(v) holds and a second Insert(v) returns false.", "quantifier": "every element, including NaN of a float set", "why_tests_cant": "a test fixes a handful of concrete inputs; the claim ranges over every size and content", "anchors": ["set/set.go:Insert", "set/set.go:Contain"]}
{"id": "C31", "title": "set clones are independent", "statement": "Changing a Clone (or a set filled by CopyFrom) never changes the original, and vice versa.", "quantifier": "every set and later call sequence", "why_tests_cant": "a test fixes one finite call sequence; the claim ranges over every sequence of calls", "anchors": ["set/set.go:Clone", "set/set.go:CopyFrom"]}
{"id": "C32", "title": "genmap behaves as a finite map", "statement": "Store, Delete, Load, LoadAndDelete, LoadAndStore, LoadOrStoreFunc, Clear, DeleteFunc, CopyFrom/CopyTo, EqualFunc and Len behave as a finite map over every history.", "quantifier": "every call sequence", "why_tests_cant": "a test fixes one finite call sequence; the claim ranges over every sequence of calls", "anchors": ["genmap/genmap.go"]}
{"id": "C33", "title": "genmap LoadOrStore returns the value now in the map", "statement": "LoadOrStore returns the value the map holds for the key after the call, with loaded telling whether it was there before.", "quantifier": "every map, key and value", "why_tests_cant": "a test fixes a handful of concrete inputs; the claim ranges over every size and content", "anchors": ["genmap/genmap.go:LoadOrStore"]}
{"id": "C34", "title": "genmap LoadOrStoreFunc calls the constructor exactly on a miss", "statement": "newFunc is called once when the key is absent and never when it is present, and the result is what the map holds.", "quantifier": "every map and key", "why_tests_cant": "a test fixes a handful of concrete inputs; the claim ranges over every size and content", "anchors": ["genmap/genmap.go:LoadOrStoreFunc"]}
{"id": "C35", "title": "genmap aliasing", "statement": "Clone is independent of the original; Map and From share it.", "quantifier": "every map and later call sequence", "why_tests_cant": "a test fixes one finite call sequence; the claim ranges over every sequence of calls", "anchors": ["genmap/genmap.go:Clone", "genmap/genmap.go:Map", "genmap/genmap.go:From"]}
{"id": "C36", "title": "genmap iteration", "statement": "Range, Keys and Values give every entry exactly once in whatever order; Range stops at the first false and reports whether it finished.", "quantifier": "every map, callback and iteration order", "why_tests_cant": "a test fixes a handful of concrete inputs; the claim ranges over every size and content", "anchors": ["genmap/genmap.go:Range", "genmap/genmap.go:Keys", "genmap/genmap.go:Values"]}
{"id": "C37", "title": "vec behaves as a sequence", "statement": "Push, Pop, Remove, Set, Get, Swap, First, Last, Clear, Insert, Delete, Replace, Reverse, Cut (its effect on the receiver), Compact, Len behave as the corresponding sequence operations over every history, whatever the capacity growth policy.", "quantifier": "every call sequence and growth policy", "why_tests_cant": "a test fixes one finite call sequence; the claim ranges over every sequence of calls", "anchors": ["vec/vec.go"]}
{"id": "C38", "title": "vec Cut returns the removed elements", "statement": "Cut(i,j) returns the elements that were in [i,j).", "quantifier": "every vector and valid range", "why_tests_cant": "a test fixes a handful of concrete inputs; the claim ranges over every size and content", "anchors": ["vec/vec.go:Cut"]}
{"id": "C39", "title": "vec SplitOff halves are independent", "statement": "SplitOff(i) leaves [0,i) in the receiver and returns [i,len) in a vector; later writes to one never show in the other.", "quantifier": "every vector, index and later writes", "why_tests_cant": "a test fixes one finite call sequence; the claim ranges over every sequence of calls", "anchors": ["vec/vec.go:SplitOff"]}
{"id": "C40", "title": "vec clones are independent", "statement": "Clone and CloneToSlice copy the elements; later writes through either never show in the other.", "quantifier": "every vector and later writes", "why_tests_cant": "a test fixes one finite call sequence; the claim ranges over every sequence of calls", "anchors": ["vec/vec.go:Clone", "vec/vec.go:CloneToSlice"]}
{"id": "C41", "title": "vec clones keep their own comparators", "statement": "Changing the comparator of the original after Clone or SplitOff does not change how the clone compares.", "quantifier": "every vector and comparator", "why_tests_cant": "a test fixes one finite call sequence; the claim ranges over every sequence of calls", "anchors": ["vec/vec.go:Clone", "vec/vec.go:SplitOff", "vec/vec.go:SetCmpLess"]}
{"id": "C42", "title": "vec BinarySearch", "statement": "On a vector sorted by the comparator, BinarySearch returns the first position whose element is not less than the target, and found iff the element there equals it.", "quantifier": "every sorted vector and target", "why_tests_cant": "a test fixes a handful of concrete inputs; the claim ranges over every size and content", "anchors": ["vec/vec.go:BinarySearch"]}
{"id": "C43", "title": "vec linear searches", "statement": "Search returns the first matching index or -1, SearchAll all matching indices in order, Contains whether there is one.", "quantifier": "every vector and predicate", "why_tests_cant": "a test fixes a handful of concrete inputs; the claim ranges over every size and content", "anchors": ["vec/vec.go:Search", "vec/vec.go:SearchAll", "vec/vec.go:Contains"]}
{"id": "C44", "title": "vec order statistics", "statement": "Max and Min return an element of the vector that no element exceeds (is below), IsSorted tells exactly whether adjacent elements are in order, Compare is lexicographic, Compact drops exactly the adjacent duplicates.", "quantifier": "every vector and comparator", "why_tests_cant": "a test fixes a handful of concrete inputs; the claim ranges over every size and content", "anchors": ["vec/vec.go:Max", "vec/vec.go:Min", "vec/vec.go:IsSorted", "vec/vec.go:Compare", "vec/vec.go:Compact"]}
{"id": "C45", "title": "vec bounds behaviour", "statement": "Get, Set, Remove, Pop, Swap, First, Last, Cut, SliceCut and ConpareAndRemove with out-of-range indices change nothing and report failure; Insert, Delete and Replace panic exactly when out of range.", "quantifier": "every vector and index", "why_tests_cant": "a test fixes a handful of concrete inputs; the claim ranges over every size and content", "anchors": ["vec/vec.go"]}
{"id": "C46", "title": "hashring GetNode returns a member", "statement": "On a non-empty ring GetNode(key) returns one of the nodes that were added and not removed.", "quantifier": "every ring and key", "why_tests_cant": "a test fixes a handful of concrete inputs; the claim ranges over every size and content", "anchors": ["hashring/hashring.go:GetNode"]}
{"id": "C47", "title": "hashring GetNode is the clockwise successor", "statement": "For a key whose hash is no virtual node's hash, GetNode returns the owner of the virtual node with the smallest hash above it, or of the smallest hash overall.", "quantifier": "every ring and key, every hash function", "why_tests_cant": "a test fixes a handful of concrete inputs; the claim ranges over every size and content", "anchors": ["hashring/hashring.go:GetNode", "hashring/hashring.go:AddNodes"]}
{"id": "C48", "title": "hashring placement depends only on the node set", "statement": "Two rings with the same replicas and the same current nodes map every key alike, whatever sequence of AddNodes, RemoveNodes and ResetNodes led there.", "quantifier": "every pair of histories, every map iteration order, every unstable-sort outcome", "why_tests_cant": "a test fixes one finite call sequence; the claim ranges over every sequence of calls", "anchors": ["hashring/hashring.go:AddNodes", "hashring/hashring.go:RemoveNodes"]}
{"id": "C49", "title": "hashring moves only the keys it must", "statement": "Adding nodes moves a key only onto an added node; removing nodes moves only keys that were on a removed node.", "quantifier": "every ring, node set and key", "why_tests_cant": "a test fixes a handful of concrete inputs; the claim ranges over every size and content", "anchors": ["hashring/hashring.go:AddNodes", "hashring/hashring.go:RemoveNodes"]}
{"id": "C50", "title": "hashring bookkeeping", "statement": "The ring always holds exactly replicas virtual nodes per current node, sorted by hash; re-adding present nodes or removing absent ones leaves the same virtual nodes, and so does RemoveNodes after AddNodes of absent nodes (in the same order unless virtual hashes of different nodes collide). No call panics.", "quantifier": "every call sequence on nodes whose == is equality (not floats)", "why_tests_cant": "a test fixes one finite call sequence; the claim ranges over every sequence of calls", "anchors": ["hashring/hashring.go"]}
{"id": "C51", "title": "hashring maps a member key to itself", "statement": "GetNode(n) of a current node n (replicas >= 1) is n.", "quantifier": "every ring and member", "why_tests_cant": "a test fixes a handful of concrete inputs; the claim ranges over every size and content", "anchors": ["hashring/hashring.go:GetNode"]}
{"id": "C52", "title": "tree BuildTree and level order are inverse", "statement": "TraversalBFS of BuildTree(vals) has exactly the values vals in order; BuildTree(nil) is nil.", "quantifier": "every slice", "why_tests_cant": "a test fixes a handful of concrete inputs; the claim ranges over every size and content", "anchors": ["tree/tree.go:BuildTree", "tree/tree.go:TraversalBFS"]}
{"id": "C53", "title": "tree traversals", "statement": "On every tree TraversalDFS lists every node once in preorder, TraversalBFS lists every node once, level by level, left to right.", "quantifier": "every tree", "why_tests_cant": "a test fixes a handful of concrete inputs; the claim ranges over every size and content", "anchors": ["tree/tree.go:TraversalDFS", "tree/tree.go:TraversalBFS"]}
{"id": "C54", "title": "tree Layer and MaxDepth", "statement": "Layer is the distance to the root (-1 for nil), MaxDepth the height of the subtree.", "quantifier": "every tree and node", "why_tests_cant": "a test fixes a handful of concrete inputs; the claim ranges over every size and content", "anchors": ["tree/tree.go:Layer", "tree/tree.go:MaxDepth"]}
{"id": "C55", "title": "tree SetLeft and SetRight keep the tree consistent", "statement": "After SetLeft or SetRight, every node's Parent is the node it is a child of, and the returned old child is a root.", "quantifier": "every tree, node and new child", "why_tests_cant": "a test fixes one finite call sequence; the claim ranges over every sequence of calls", "anchors": ["tree/tree.go:SetLeft", "tree/tree.go:SetRight"]}
{"id": "C56", "title": "tree relations", "statement": "Sibling, Uncle, Grandparent, IsLeft, IsRight, IsChildRelation, IsAncestorRelation answer the genealogical relation on every consistent tree.", "quantifier": "every tree and pair of nodes", "why_tests_cant": "a test fixes a handful of concrete inputs; the claim ranges over every size and content", "anchors": ["tree/tree.go"]}
{"id": "C57", "title": "tree IsDescendantRelation", "statement": "n.IsDescendantRelation(m) is true only if m is in the subtree of n (or, read the other way, n in that of m).", "quantifier": "every tree and pair of nodes", "why_tests_cant": "a test fixes a handful of concrete inputs; the claim ranges over every size and content", "anchors": ["tree/tree.go:IsDescendantRelation"]}
{"id": "C58", "title": "tree DrawTree prints one row per level", "statement": "DrawTree prints the nodes of each level on a line of their own.", "quantifier": "every tree", "why_tests_cant": "a test fixes a handful of concrete inputs; the claim ranges over every size and content", "anchors": ["tree/tree.go:DrawTree"]}
{"id": "C59", "title": "refreshcache Get serves fresh data without refreshing", "statement": "Sequentially: Get returns the cached value without calling the refresh function iff the last success is younger than maxAge (maxAge<0: iff there was one); otherwise a cached error younger than errAge is returned, otherwise the function is called exactly once and its result returned and recorded.", "quantifier": "every history and clock", "why_tests_cant": "a test fixes one finite call sequence; the claim ranges over every sequence of calls", "anchors": ["refreshcache/refreshcache.go:Get", "refreshcache0/refreshcache0.go:Get", "refreshcache1/refreshcache1.go:Get"]}
{"id": "C60", "title": "refreshcache never runs two refreshes at once", "statement": "At every moment at most one refresh function is running, and every refresh starts by seeing the last recorded value as OldVal.", "quantifier": "every interleaving of any number of goroutines", "why_tests_cant": "tests sample a few goroutine schedules; the claim ranges over every interleaving", "anchors": ["refreshcache/refreshcache.go:Get", "refreshcache/refreshcache.go:Refresh"]}
{"id": "C61", "title": "refreshcache returns only values that a refresh produced", "statement": "Every value returned with a nil error by Get was returned by a successful refresh earlier.", "quantifier": "every interleaving and clock", "why_tests_cant": "tests sample a few goroutine schedules; the claim ranges over every interleaving", "anchors": ["refreshcache/refreshcache.go:Get"]}
{"id": "C62", "title": "refreshcache survives a panicking refresh function", "statement": "A refresh function that panics leaves the cache as it was.", "quantifier": "every history", "why_tests_cant": "a test fixes one finite call sequence; the claim ranges over every sequence of calls", "anchors": ["refreshcache/refreshcache.go:Get", "refreshcache/refreshcache.go:Refresh"]}
{"id": "C63", "title": "refreshcache keeps the last good value over failures", "statement": "A failing refresh never replaces the stored value: a later refresh still sees it as OldVal, and Raw still shows it.", "quantifier": "every history", "why_tests_cant": "a test fixes one finite call sequence; the claim ranges over every sequence of calls", "anchors": ["refreshcache/refreshcache.go:Get", "refreshcache/refreshcache.go:Raw"]}
{"id": "C64", "title": "refreshcache Raw reports the outcome of the last refresh", "statement": "After a successful refresh Raw reports no error until another refresh fails.", "quantifier": "every history and clock", "why_tests_cant": "a test fixes one finite call sequence; the claim ranges over every sequence of calls", "anchors": ["refreshcache/refreshcache.go:Raw"]}
{"id": "C65", "title": "refreshcache Clear forces a refresh", "statement": "After Clear returned, no Get returns a value whose refresh started before the Clear.", "quantifier": "every interleaving and clock", "why_tests_cant": "tests sample a few goroutine schedules; the claim ranges over every interleaving", "anchors": ["refreshcache/refreshcache.go:Clear"]}
{"id": "C66", "title": "refreshcache does not stampede", "statement": "When several Gets find the cache stale, once one refresh has succeeded the waiting ones return its value without refreshing, as long as it is fresh.", "quantifier": "every interleaving", "why_tests_cant": "tests sample a few goroutine schedules; the claim ranges over every interleaving", "anchors": ["refreshcache/refreshcache.go:Get"]}
{"id": "C67", "title": "rwmap is linearizable", "statement": "Every concurrent history of Load, Store, Swap, LoadOrStore, LoadAndDelete, Delete, CompareAndSwap, CompareAndDelete and Clear is equivalent to a sequential history of a plain map that respects real-time order.", "quantifier": "every number of goroutines, every program, every interleaving", "why_tests_cant": "tests sample a few goroutine schedules; the claim ranges over every interleaving", "anchors": ["rwmap/rwmap.go"]}
{"id": "C68", "title": "rwmap is a map when used sequentially", "statement": "For every sequence of calls by one goroutine the results, Len, SlowLen and Range are those of a plain map.", "quantifier": "every call sequence", "why_tests_cant": "a test fixes one finite call sequence; the claim ranges over every sequence of calls", "anchors": ["rwmap/rwmap.go"]}
{"id": "C69", "title": "rwmap Len at quiescence", "statement": "When no call is in progress, Len equals the number of keys in the map.", "quantifier": "every interleaving", "why_tests_cant": "tests sample a few goroutine schedules; the claim ranges over every interleaving", "anchors": ["rwmap/rwmap.go:Len", "rwmap/rwmap.go:Clear"]}
{"id": "C70", "title": "rwmap Len is never negative", "statement": "Len never returns a negative number.", "quantifier": "every interleaving", "why_tests_cant": "tests sample a few goroutine schedules; the claim ranges over every interleaving", "anchors": ["rwmap/rwmap.go:Len"]}
{"id": "C71", "title": "rwmap Range", "statement": "Range visits no key twice; every visited pair was in the map at some moment during the call; every key in the map throughout the call is visited (if f does not stop).", "quantifier": "every interleaving", "why_tests_cant": "tests sample a few goroutine schedules; the claim ranges over every interleaving", "anchors": ["rwmap/rwmap.go:Range"]}
{"id": "C72", "title": "rwmap never panics and never deadlocks", "statement": "No interleaving writes to a nil map or reaches a state in which a pending call cannot take a step while the lock is free, and every call run alone finishes.", "quantifier": "every interleaving", "why_tests_cant": "tests sample a few goroutine schedules; the claim ranges over every interleaving", "anchors": ["rwmap/rwmap.go:dirtyLocked", "rwmap/rwmap.go:missLocked"]}
{"id": "C73", "title": "synccache never returns an entry that had expired", "statement": "Load and Range give only entries that were not expired when checked; LoadOrStore never returns an expired entry.", "quantifier": "every interleaving and clock", "why_tests_cant": "tests sample a few goroutine schedules; the claim ranges over every interleaving", "anchors": ["synccache/synccache.go:Load", "synccache/synccache.go:Range", "synccache/synccache.go:LoadOrStore"]}
{"id": "C74", "title": "synccache deleted callback runs exactly once per deleted entry", "statement": "Every entry taken out by Delete, LoadAndDelete, CompareAndDelete, CompareValueAndDelete, Clear, expiry or trim has the callback called on its value exactly once; entries still in the cache or replaced by Store never.", "quantifier": "every interleaving", "why_tests_cant": "tests sample a few goroutine schedules; the claim ranges over every interleaving", "anchors": ["synccache/synccache.go"]}
{"id": "C75", "title": "synccache trims only expired entries", "statement": "A trim removes exactly the entries whose expiration lies before the trim's clock reading (unless replaced or removed meanwhile).", "quantifier": "every history and clock", "why_tests_cant": "a test fixes one finite call sequence; the claim ranges over every sequence of calls", "anchors": ["synccache/synccache.go:trim"]}
{"id": "C76", "title": "synccache expiry arithmetic", "statement": "An entry stored with duration d at time t is returned at time t' iff floor(t') <= floor(t+d) in milliseconds; AddExpiration and SetExpiration shift this boundary as documented by their names.", "quantifier": "every instant and duration", "why_tests_cant": "a test fixes a handful of concrete inputs; the claim ranges over every size and content", "anchors": ["synccache/item.go"]}
{"id": "C77", "title": "synccache sequential map semantics with expiry", "statement": "Sequentially the cache behaves as a map from which an entry vanishes at its expiration.", "quantifier": "every call sequence and clock", "why_tests_cant": "a test fixes one finite call sequence; the claim ranges over every sequence of calls", "anchors": ["synccache/synccache.go"]}
{"id": "C78", "title": "synccache registry", "statement": "Every started and not closed cache is trimmed on each tick, a closed one is not.", "quantifier": "every sequence of Start and Close", "why_tests_cant": "a test fixes one finite call sequence; the claim ranges over every sequence of calls", "anchors": ["synccache/synccache.go:Start", "synccache/synccache.go:Close"]}
{"id": "C79", "title": "lhashmap Range visits every key although the callback removes it", "statement": "Range with a callback that removes the key it is given and returns true visits every key that was in the map.", "quantifier": "every map and history", "why_tests_cant": "a test fixes one finite call sequence; the claim ranges over every sequence of calls", "anchors": ["lhashmap/lhashmap.go:Range", "lhashmap/lhashmap.go:Remove"]}
{"id": "C80", "title": "vec equality", "statement": "EqualVec and EqualSlice are true iff both sequences have the same length and equal elements position by position.", "quantifier": "every pair of vectors and comparator", "why_tests_cant": "a test fixes a handful of concrete inputs; the claim ranges over every size and content", "anchors": ["vec/vec.go:EqualVec", "vec/vec.go:EqualSlice"]}
{"id": "C81", "title": "vec sorting", "statement": "Given a correct library sort and a strict weak order, Sort leaves a sorted permutation, SortStable moreover keeps the order of equal elements; no other vector changes.", "quantifier": "every vector, comparator and library sort meeting its contract", "why_tests_cant": "a test fixes a handful of concrete inputs; the claim ranges over every size and content", "anchors": ["vec/vec.go:Sort", "vec/vec.go:SortStable"]}
{"id": "C82", "title": "vec Range", "statement": "Range calls the callback on the elements in order with their indices until it returns false.", "quantifier": "every vector and callback that does not change the vectors", "why_tests_cant": "a test fixes a handful of concrete inputs; the claim ranges over every size and content", "anchors": ["vec/vec.go:Range"]}
{"id": "C83", "title": "refreshcache never deadlocks", "statement": "In every reachable state a goroutine inside a call can take a step, unless it waits for the mutex in Get or Refresh, and then the holder of the mutex can (user functions are assumed to return and not to call Get or Refresh of the same cache).", "quantifier": "every interleaving and clock", "why_tests_cant": "tests sample a few goroutine schedules; the claim ranges over every interleaving", "anchors": ["refreshcache/refreshcache.go:Get", "refreshcache/refreshcache.go:Refresh"]}
{"id": "C84", "title": "synccache calls act on the map at a moment", "statement": "Every run has one history of a plain map in which each returned Store, Load, LoadOrStore, Delete, LoadAndDelete, CompareAndDelete and CompareValueAndDelete has the result its key's state warranted at moments during the call (found, absent, expired, removed by it, value equal or not).", "quantifier": "every interleaving and clock", "why_tests_cant": "tests sample a few goroutine schedules; the claim ranges over every interleaving", "anchors": ["synccache/synccache.go"]}
{"id": "C85", "title": "synccache Range", "statement": "Range calls f on no key twice, only with entries that were in the cache during the call and not expired when checked, takes out only expired entries, and (unless f stops it) calls f on every entry that stayed in the cache during the call.", "quantifier": "every interleaving, clock and f", "why_tests_cant": "tests sample a few goroutine schedules; the claim ranges over every interleaving", "anchors": ["synccache/synccache.go:Range"]}
{"id": "C86", "title": "synccache Clear", "statement": "No entry stays in the cache during all of a Clear; without a callback the cache is empty at one moment of it.", "quantifier": "every interleaving", "why_tests_cant": "tests sample a few goroutine schedules; the claim ranges over every interleaving", "anchors": ["synccache/synccache.go:Clear"]}
{"id": "C87", "title": "synccache never deadlocks", "statement": "In every reachable state a goroutine inside a call can take a step, unless another one holds the mutex of the underlying map, and then that one is inside a call and can take a step.", "quantifier": "every interleaving and clock", "why_tests_cant": "tests sample a few goroutine schedules; the claim ranges over every interleaving", "anchors": ["synccache/synccache.go", "rwmap/rwmap.go"]}
{"id": "C88", "title": "rwmap has no data race", "statement": "No two goroutines are ever about to access the same field, one of them writing and one of them without sync/atomic.", "quantifier": "every interleaving", "why_tests_cant": "the race detector sees only the schedules a test happens to run; the claim ranges over every interleaving", "anchors": ["rwmap/rwmap.go:Clear", "rwmap/rwmap.go:missLocked", "rwmap/rwmap.go:dirtyLocked"]}
{"id": "C89", "title": "refreshcache has no data race", "statement": "No two goroutines are ever about to access the same field, one of them writing and one of them without sync/atomic.", "quantifier": "every interleaving and clock", "why_tests_cant": "the race detector sees only the schedules a test happens to run; the claim ranges over every interleaving", "anchors": ["refreshcache/refreshcache.go:Get", "refreshcache/refreshcache.go:Clear", "refreshcache0/refreshcache0.go:Get", "refreshcache1/refreshcache1.go:Get"]}
{"id": "C90", "title": "rwmap: every call returns", "statement": "From every reachable state, if no new call is made and the callbacks of Range return, all calls in progress return after finitely many steps, whatever the schedule: no livelock of compare-and-swap loops, no endless iteration.", "quantifier": "every interleaving, every order of iteration", "why_tests_cant": "tests sample a few goroutine schedules; the claim ranges over every interleaving", "anchors": ["rwmap/rwmap.go"]}
{"id": "C91", "title": "rwmap calls finish in a bounded number of their own steps", "statement": "The number of steps a call makes (waiting for the mutex aside) has a bound that does not depend on what other goroutines do.", "quantifier": "every interleaving", "why_tests_cant": "tests sample a few goroutine schedules; the claim ranges over every interleaving", "anchors": ["rwmap/rwmap.go:Load", "rwmap/rwmap.go:Clear", "rwmap/rwmap.go:Store"]}
{"id": "C92", "title": "refreshcache: every call returns", "statement": "From every reachable state, if no new call is made and the user's functions return or panic, all calls in progress return; no call makes more than 19 steps of its own.", "quantifier": "every interleaving and clock", "why_tests_cant": "tests sample a few goroutine schedules; the claim ranges over every interleaving", "anchors": ["refreshcache/refreshcache.go"]}
{"id": "C93", "title": "synccache: every call returns", "statement": "From every reachable state, if no new call is made and the callbacks return, all calls in progress return after finitely many steps, whatever the schedule, the clock and the changes of expirations; in particular the loop of LoadOrStore ends.", "quantifier": "every interleaving and clock", "why_tests_cant": "tests sample a few goroutine schedules; the claim ranges over every interleaving", "anchors": ["synccache/synccache.go", "synccache/synccache.go:LoadOrStore", "rwmap/rwmap.go"]}
{"id": "C94", "title": "rwmap callbacks may use the map", "statement": "While some goroutines are in the callback of a Range and stay there, all other calls return or get to such a callback; so calls that a callback makes on the same map return.", "quantifier": "every interleaving", "why_tests_cant": "tests sample a few goroutine schedules; the claim ranges over every interleaving", "anchors": ["rwmap/rwmap.go:Range"]}
{"id": "C95", "title": "synccache callbacks may use the cache", "statement": "While some goroutines are in deletedCallback or in the f of a Range and stay there, all other calls return or get to such a callback; so calls that a callback makes on the same cache return.", "quantifier": "every interleaving and clock", "why_tests_cant": "tests sample a few goroutine schedules; the claim ranges over every interleaving", "anchors": ["synccache/synccache.go"]}
{"id": "C96", "title": "refreshcache functions may use the cache", "statement": "Calls of the cache that its refresh function or clear function makes return.", "quantifier": "every interleaving and clock", "why_tests_cant": "tests sample a few goroutine schedules; the claim ranges over every interleaving", "anchors": ["refreshcache/refreshcache.go:Get", "refreshcache/refreshcache.go:Refresh", "refreshcache/refreshcache.go:Clear"]}
{"id": "C97", "title": "set and genmap: Range with a callback that changes the map", "statement": "Whatever the callback of Range does to the maps (Range of the same map inside it included): what it gets is in the map at that moment with that value; it gets no key twice unless that key was absent in between; and unless it stops the loop it gets every key that is in the map all the time.", "quantifier": "every map, callback and order of iteration the language allows", "why_tests_cant": "a test fixes a handful of concrete inputs; the claim ranges over every size and content", "anchors": ["set/set.go:Range", "genmap/genmap.go:Range"]}
{"id": "C98", "title": "set and genmap: Range ends if the callback adds no keys", "statement": "A Range is never stuck, and if its callback adds no key to the map it has at most as many turns as the map had entries.", "quantifier": "every map, callback and order of iteration the language allows", "why_tests_cant": "a test fixes a handful of concrete inputs; the claim ranges over every size and content", "anchors": ["set/set.go:Range", "genmap/genmap.go:Range"]}
{"id": "C99", "title": "set and genmap: deleting the current entry inside Range", "statement": "A Range whose callback deletes the entry it is given under a condition is given every entry exactly once and leaves exactly the entries not meeting the condition, as DeleteFunc does.", "quantifier": "every map, condition and order of iteration", "why_tests_cant": "a test fixes a handful of concrete inputs; the claim ranges over every size and content", "anchors": ["genmap/genmap.go:Range", "genmap/genmap.go:Delete", "genmap/genmap.go:DeleteFunc", "set/set.go:Range", "set/set.go:Remove"]}
{"id": "C100", "title": "set and genmap: loops that leave the map alone", "statement": "A Range whose callback leaves the entries of the map as they are has exactly the results of a loop over the entries present at the start in some order.", "quantifier": "every map, callback and order of iteration", "why_tests_cant": "a test fixes a handful of concrete inputs; the claim ranges over every size and content", "anchors": ["genmap/genmap.go:Range", "set/set.go:Range"]}
{"id": "C101", "title": "refreshcache: what each call does", "statement": "Used by one call at a time, the cache behaves as a record of value, error, times of the last success and failure and the two functions: every call changes it, calls the user's functions and returns exactly as described (Get, Refresh, Raw, Clear, Last, LastErr, the setters); the functions set last are the ones used, also if other goroutines run in between; Clear returns what the clear function returned.", "quantifier": "every sequence of calls, clock and outcome of the user's functions", "why_tests_cant": "a test fixes one finite call sequence; the claim ranges over every sequence of calls", "anchors": ["refreshcache/refreshcache.go:SetRefreshFunc", "refreshcache/refreshcache.go:SetClearFunc", "refreshcache/refreshcache.go:Clear", "refreshcache/refreshcache.go:Last", "refreshcache/refreshcache.go:LastErr"]}
{"id": "C102", "title": "heap works for every implementation of its interface", "statement": "With any implementation whose Len, Less, Swap, Push and Pop do what heap.Interface says and a strict weak order, Init, Push, Pop, Remove and Fix (after any change of one element) call the methods only with valid indices and keep or establish heap order over the same elements, with 64-bit integers; the slice heaps and the indexed items of the example are such implementations, and updating an item of the example keeps its queue right.", "quantifier": "every implementation, state and number of elements an int can count", "why_tests_cant": "a test fixes a handful of concrete inputs; the claim ranges over every size and content", "anchors": ["heap/heap.go:Init", "heap/heap.go:Push", "heap/heap.go:Pop", "heap/heap.go:Remove", "heap/heap.go:Fix", "heap/heap.go:Interface", "heap/example_pq_test.go"]}
{"id": "C103", "title": "heap: the cost of the calls", "statement": "With n elements, Init makes at most 2n comparisons and n swaps, Push log2 of the new length of each, Pop and Remove 2 log2(n-1) comparisons and 1 + log2(n-1) swaps, Fix 2 log2 n and log2 n, whatever Less answers; sorting by Init and n Pops at most 2n + 2n log2 n comparisons.", "quantifier": "every implementation of the interface, state and answers of Less", "why_tests_cant": "a test measures some sizes and inputs; the bounds hold for all of them", "anchors": ["heap/heap.go:up", "heap/heap.go:down", "heap/heap.go:Init", "heap/heap.go:Push", "heap/heap.go:Pop", "heap/heap.go:Remove", "heap/heap.go:Fix"]}
{"id": "C104", "title": "synccache: what each call does", "statement": "Calls made one after the other, with SetExpiration and AddExpiration in between, behave exactly as described by a map from keys to entries and a table of values and expirations: for every call its readings of the clock, the entries it makes, the comparisons with expirations, the calls of deletedCallback and of f, its result, and the map and the table afterwards.", "quantifier": "every sequence of calls, clock and answers of f and of the comparison of values", "why_tests_cant": "a test fixes one finite call sequence; the claim ranges over every sequence of calls", "anchors": ["synccache/synccache.go", "synccache/item.go"]}
{"id": "C105", "title": "Vec picks a comparator that compares by value", "statement": "A vector without comparators of its own compares ints, uints, floats (except NaN) and strings by value: less is a strict weak order and equal is the equivalence of that order; for other types it panics.", "quantifier": "For every kind of element type and all values.", "why_tests_cant": "The existing tests use ints and a struct with explicit comparators; pointer elements, NaN and each of the kinds in the switch are never tried.", "anchors": ["vec/vec.go"]}
{"id": "C106", "title": "lhashmap: Range with a callback that changes the map", "statement": "Whatever methods of the map but Clear the callback of Range calls (nested Ranges included): Range does not panic unless the callback does, and every entry it gives is in the map at that moment; the place of the loop moves with the entry it stands at. If the callback never loads or stores the key it is given, it gets some of the entries there were at the start, each once and in order, and Range returns; an entry no call has to do with is given unless the loop is cut short.", "quantifier": "every map, callback and history", "why_tests_cant": "a test fixes a handful of concrete inputs; the claim ranges over every size and content", "anchors": ["lhashmap/lhashmap.go:Range", "lhashmap/lhashmap.go:Clear", "dllist/dllist.go:Clear", "dllist/element.go:Next"]}
{"id": "C107", "title": "dllist: Range with a callback that changes lists", "statement": "Whatever calls the callback of Range makes with good handles (nested Ranges included), Range does not panic unless the callback does, gives only elements that are in the list at that moment, goes on after each turn to the element that follows then, and returns true only if it gave all elements; if no turn puts anything behind its element the callback gets elements of the start, each once and in order, and Range returns.", "quantifier": "every list, callback and history", "why_tests_cant": "a test fixes a handful of concrete inputs; the claim ranges over every size and content", "anchors": ["dllist/dllist.go:Range", "dllist/element.go:Range", "dllist/element.go:Next", "dllist/dllist.go:Clear"]}
{"id": "C108", "title": "ring: Unlink with 64-bit numbers", "statement": "With 64-bit int, Unlink(n) on a ring of length L removes the n mod L elements after r, for every n > 0 but math.MaxInt64, and nothing for n <= 0; other rings are left alone. For math.MaxInt64 this is so exactly if L divides 2^64.", "quantifier": "every ring, history and 64-bit n", "why_tests_cant": "Unlink(math.MaxInt64) would take centuries to run; the tests use small n", "anchors": ["ring/ring.go:Unlink", "ring/ring.go:Move", "ring/ring.go:Link"]}
{"id": "C109", "title": "ring: Do with a callback that changes rings", "statement": "Whatever calls on existing elements the callback of Do makes, Do does not panic unless the callback does, and goes on after each turn to the element that follows the current one then, until that is r. If no turn takes its element out of the ring or puts anything between it and r, the callback gets elements of the start, each once and in order, and Do returns; an element that stays ahead gets its turn.", "quantifier": "every ring, callback and history", "why_tests_cant": "a test fixes a handful of concrete inputs; the claim ranges over every size and content", "anchors": ["ring/ring.go:Do", "ring/ring.go:Next", "ring/ring.go:Unlink"]}
{"id": "C110", "title": "vec: Range with a callback that changes vectors", "statement": "Whatever the callback of Range does to vectors (calls, new vectors, writes through slices), Range does not panic unless the callback does; turn k gets index k and the element that is there at that moment, and the loop ends when the callback says so or the vector has no element k; it has at most N turns if the callback keeps the vector within length N, and gives exactly the elements of the start if each turn leaves what comes after its index.", "quantifier": "every vector, callback and history", "why_tests_cant": "a test fixes a handful of concrete inputs; the claim ranges over every size and content", "anchors": ["vec/vec.go:Range", "vec/vec.go:Remove", "vec/vec.go:Push"]}
{"id": "C111", "title": "refreshcache: 64-bit times do not overflow", "statement": "As long as the readings of the clock and 1970 lie within 292 years of each other, the differences of times in Get and Raw do not overflow: the executions with 64-bit integers are exactly those with unbounded ones.", "quantifier": "every interleaving, clock within these limits, maxAge and errAge", "why_tests_cant": "no test can wait for an overflow or set the clock", "anchors": ["refreshcache/refreshcache.go:Get", "refreshcache/refreshcache.go:Raw"]}
{"id": "C112", "title": "synccache: 64-bit expirations do not overflow", "statement": "With clock readings from 1970 on that fit UnixNano, SetExpiration to times within 146 million years and at most half a million AddExpirations, of any durations, the executions with 64-bit integers are exactly those with unbounded ones.", "quantifier": "every interleaving, clock and sequence of changes of expirations", "why_tests_cant": "the tests use durations of seconds", "anchors": ["synccache/item.go:AddExpiration", "synccache/item.go:SetExpiration", "synccache/item.go:NewEntry", "synccache/item.go:IsExpired"]}
{"id": "C113", "title": "rwmap: amortised constant time", "statement": "In every execution, all steps of all goroutines together are at most 15 per call, plus 6 per entry of the maps that Range and SlowLen go through, plus 2 per compare-and-swap that fails because of another goroutine. So calls other than Range and SlowLen made one at a time take at most 15 steps on average, although a single Store may copy the whole map; dirtyLocked goes through at most as many entries, in all, as there are calls and entries ranged over.", "quantifier": "every execution of any number of goroutines", "why_tests_cant": "tests can measure times, not bound the number of steps for all histories and schedules", "anchors": ["rwmap/rwmap.go:missLocked", "rwmap/rwmap.go:dirtyLocked", "rwmap/rwmap.go:Range", "rwmap/rwmap.go:Swap"]}
{"id": "C114", "title": "rwmap: writes happen before the reads that observe them", "statement": "In the order of the Go memory model: when Load, Swap, LoadAndDelete or LoadOrStore returns a value it found, when CompareAndSwap or CompareAndDelete returns true, or when Range hands a pair to its callback, some call that stores this value (one equal to old, for the comparing calls) under this key began before. So what the storing goroutine wrote before the call is visible to the reading one. Atomic accesses to the pointers of entries are enough for this.", "quantifier": "every execution of any number of goroutines", "why_tests_cant": "tests run on hardware and schedules that hide missing synchronization", "anchors": ["rwmap/rwmap.go:RWMap", "rwmap/rwmap.go:load", "rwmap/rwmap.go:trySwap", "rwmap/rwmap.go:Swap", "rwmap/rwmap.go:Range"]}
{"id": "C115", "title": "heap: nothing is lost whatever Less answers", "statement": "With an implementation of Interface whose Len, Swap, Push and Pop do what their documentation says and whose Less returns anything - no order at all, a different answer each time - Init, Push, Pop, Remove and Fix with valid indices do not panic and end, and no element is lost, invented or duplicated: Pop returns the element at index 0 and Remove(i) the one at index i, and popping until empty returns every element exactly once.", "quantifier": "every implementation, state and sequence of answers of Less", "why_tests_cant": "a test fixes one comparison; nobody tests with inconsistent ones", "anchors": ["heap/heap.go:Init", "heap/heap.go:Push", "heap/heap.go:Pop", "heap/heap.go:Remove", "heap/heap.go:Fix", "heap/heap.go:up", "heap/heap.go:down"]}
{"id": "C116", "title": "heap: MinHeap and MaxHeap of floats", "statement": "The < of floats is a strict weak order on all floats but NaN (with -0 and 0 equal, and infinities at the ends); so MinHeap and MaxHeap of floats that are not NaN keep the contract of the interface, and popping until empty returns them in ascending (descending) order.", "quantifier": "every list of IEEE-754 floats without NaN", "why_tests_cant": "a test fixes a handful of concrete inputs; the claim ranges over every size and content", "anchors": ["heap/minheap.go", "heap/maxheap.go"]}
{"id": "C117", "title": "heap: MinHeap and MaxHeap with NaN", "statement": "MinHeap of any floats returns the floats in ascending order. (REFUTED: with 1, NaN, 0 Init leaves 1 at the root and 1 is popped before 0.)", "quantifier": "every list of IEEE-754 floats", "why_tests_cant": "a test fixes a handful of concrete inputs; the claim ranges over every size and content", "anchors": ["heap/minheap.go", "heap/heap.go:down"]}
{"id": "C118", "title": "synccache: one goroutine trims all started caches", "statement": "However many goroutines call NewSyncCache, Start and Close at the same time: exactly one trimming goroutine exists from the first return of Start or NewSyncCache on; on each tick it takes it makes one pass over the registry, which trims every cache started last and not closed meanwhile exactly once, and none closed last; passes do not overlap; from the first Start on there is at most one pass per 5 seconds, and a waiting goroutine can begin a pass within 5 seconds.", "quantifier": "every interleaving of any number of goroutines, every clock", "why_tests_cant": "tests sample a few goroutine schedules; the claim ranges over every interleaving", "anchors": ["synccache/synccache.go:runTrim", "synccache/synccache.go:Start", "synccache/synccache.go:Close", "synccache/synccache.go:NewSyncCache"]}
{"id": "C119", "title": "synccache: trimTime has no effect", "statement": "Changing the trimTime arguments of NewSyncCache changes nothing in any execution of the background trimming.", "quantifier": "every execution and every change of the trimTimes", "why_tests_cant": "a test compares a few durations", "anchors": ["synccache/synccache.go:NewSyncCache"]}
{"id": "C120", "title": "synccache: one callback can stop the trimming of all caches", "statement": "While the trimming goroutine is in the trim of one cache, for instance in a deletedCallback that does not return, no cache at all is trimmed and no pass begins, whatever other goroutines do; and the goroutine never ends, also when all caches are closed.", "quantifier": "every execution from such a state on", "why_tests_cant": "no test waits for what does not happen", "anchors": ["synccache/synccache.go:runTrim", "synccache/synccache.go:trim"]}
{"id": "C121", "title": "synccache: caches are trimmed every trimTime", "statement": "A cache made by NewSyncCache(trimTime) is trimmed every trimTime. (REFUTED: with a trimTime of one millisecond nothing is trimmed for 5 seconds.)", "quantifier": "every trimTime", "why_tests_cant": "the tests do not look at the background trimming", "anchors": ["synccache/synccache.go:NewSyncCache", "synccache/synccache.go:runTrim"]}
{"id": "C122", "title": "synccache: Close ends the trimming of the cache", "statement": "When Close has returned, the background goroutine is done with the cache: it does not call its deletedCallback any more. (REFUTED: a trim that is in progress goes on after Close has returned.)", "quantifier": "every execution", "why_tests_cant": "tests sample a few goroutine schedules; the claim ranges over every interleaving", "anchors": ["synccache/synccache.go:Close", "synccache/synccache.go:runTrim"]}
{"id": "C123", "title": "refreshcache: a call runs its own function", "statement": "Whatever other goroutines do, a refresh function runs only inside a call of Get or Refresh and is the function, with the context and the arguments, of that very call (for the calls of the wrapper: a function given to the constructor or to SetRefreshFunc); a clear function only inside Clear, in the same way; and every call returns a result of its own kind - only Get, Refresh and Clear can panic.", "quantifier": "every execution of any number of goroutines", "why_tests_cant": "tests sample a few goroutine schedules; the claim ranges over every interleaving", "anchors": ["refreshcache/refreshcache.go:Get", "refreshcache/refreshcache.go:Refresh", "refreshcache/refreshcache.go:Clear", "refreshcache/refreshcache.go:SetRefreshFunc", "refreshcache1/refreshcache1.go:Get"]}
{"id": "C124", "title": "refreshcache: the value belongs to the arguments", "statement": "A value returned by Get(ctx, args) without an error was produced by the refresh function for these args. (REFUTED: one value is kept for all arguments; after a Get with other arguments, Get returns the value fetched for those.)", "quantifier": "every execution", "why_tests_cant": "the tests call Get with one set of arguments", "anchors": ["refreshcache/refreshcache.go:Get", "refreshcache1/refreshcache1.go:Get"]}
{"id": "C125", "title": "dllist: Sort with any comparison function", "statement": "Whatever the comparison function answers - no order at all, a different answer each time - Sort ends without a panic, the list holds the same values as before, every other list is as it was, and all lists can be used as before.", "quantifier": "every reachable state and every function, also with a state of its own", "why_tests_cant": "a test fixes one comparison; nobody tests with inconsistent ones", "anchors": ["dllist/dllist.go:Sort"]}
{"id": "C126", "title": "dllist: the comparisons of Sort", "statement": "On a list of n elements Sort makes at least n-1 and at most n(n-1)/2 comparisons, whatever the answers; on a list that is sorted already it makes exactly n(n-1)/2.", "quantifier": "every reachable state and every comparison function", "why_tests_cant": "the tests sort a few short lists and count nothing", "anchors": ["dllist/dllist.go:Sort"]}
{"id": "C127", "title": "dllist: Sort is quasilinear", "statement": "There is a constant c such that Sort of n elements makes at most c n log n comparisons. (REFUTED: the pivot is the first element, so sorted lists take n(n-1)/2.)", "quantifier": "every list", "why_tests_cant": "the tests sort a few short lists and count nothing", "anchors": ["dllist/dllist.go:Sort"]}
{"id": "C128", "title": "vec: comparing by index", "statement": "For indices in range, Less(i, j) is the answer of the vector's comparator on the elements at i and j in that order, and Equal(i, j) that of its equality; CmpLess and CmpEqual are these functions; IsEmpty says whether there are no elements. None of them changes anything.", "quantifier": "every state, comparator and pair of indices", "why_tests_cant": "a test fixes a handful of concrete inputs; the claim ranges over every size and content", "anchors": ["vec/vec.go:Less", "vec/vec.go:Equal", "vec/vec.go:IsEmpty"]}
{"id": "C129", "title": "tree: the Has methods", "statement": "HasLeft, HasRight, HasChild, HasBothChild, HasParent, HasSibling, HasUncle, HasGrandparent and IsLeaf say whether the tree has such a relative of the node.", "quantifier": "every tree and every node of it", "why_tests_cant": "a test fixes a handful of concrete inputs; the claim ranges over every size and content", "anchors": ["tree/tree.go:HasSibling", "tree/tree.go:HasChild"]}
{"id": "C130", "title": "genmap: copying from and to plain maps", "statement": "CopyFromRaw and CopyToRaw put every entry of the source into the destination, over what was there, and change nothing else; source and destination may be the same map; copying into a nil map panics unless there is nothing to copy.", "quantifier": "every pair of maps, key equality and iteration order", "why_tests_cant": "a test fixes a handful of concrete inputs; the claim ranges over every size and content", "anchors": ["genmap/genmap.go:CopyFromRaw", "genmap/genmap.go:CopyToRaw"]}
{"id": "C131", "title": "vec: allocations", "statement": "In every reachable state a call makes a new array for the vector exactly when the room it asks for (the new length; for Grow(n) the length plus n) exceeds Cap, then exactly one, with at least that capacity; otherwise the elements stay in their array. Clone, CloneToSlice and SplitOff leave the vector in its array, and Clip makes Cap equal to Len without moving anything.", "quantifier": "every reachable state, call and growth policy", "why_tests_cant": "a test fixes one finite call sequence; the claim ranges over every sequence of calls", "anchors": ["vec/vec.go:Push", "vec/vec.go:Grow", "vec/vec.go:Clip", "vec/vec.go:Cap"]}
{"id": "C132", "title": "vec: Grow makes room", "statement": "After Grow(n), at least n elements can be pushed, in any number of calls, without another allocation (the comment at vec.go:309).", "quantifier": "every reachable state and growth policy, every split of the pushes", "why_tests_cant": "a test fixes one finite call sequence; the claim ranges over every sequence of calls", "anchors": ["vec/vec.go:Grow", "vec/vec.go:Push"]}
{"id": "C133", "title": "vec: Clear shrinks the capacity", "statement": "Clear shrinks the capacity by a quarter, or to a quarter (the comment at vec.go:166). (REFUTED: Clear leaves Cap as it is; no call but Clip ever makes Cap smaller.)", "quantifier": "every reachable state", "why_tests_cant": "the tests look at Len only", "anchors": ["vec/vec.go:Clear"]}
{"id": "C134", "title": "vec: any comparison function", "statement": "With any comparator and equality at all (no order, NaN, inconsistent with each other) BinarySearch ends with an index between 0 and the length, where the element before is less than the target and the element there is not, and found means that the equality holds there; Max and Min of a non-empty vector are elements of it; Sort and SortStable keep the elements and change no other vector.", "quantifier": "every vector, comparator, equality and target", "why_tests_cant": "a test fixes a handful of concrete inputs; the claim ranges over every size and content", "anchors": ["vec/vec.go:BinarySearchFunc", "vec/vec.go:MaxFunc", "vec/vec.go:MinFunc", "vec/vec.go:SortFunc"]}
{"id": "C135", "title": "vec: an order on the elements at hand is enough", "statement": "If the comparator is a strict weak order on the elements of the vector (and the target), as that of floats is without NaN, and the equality is the one of that order there, then Max, Min, IsSorted, BinarySearch, Sort and SortStable give the results they give for an order on the whole type.", "quantifier": "every vector, comparator and sorting function that learns of the elements by comparing those at different positions", "why_tests_cant": "a test fixes a handful of concrete inputs; the claim ranges over every size and content", "anchors": ["vec/vec.go:Max", "vec/vec.go:Min", "vec/vec.go:BinarySearch", "vec/vec.go:Sort"]}
{"id": "C136", "title": "vec: Max and Min of floats", "statement": "Max (Min) of a vector of floats is an element such that none is greater (less), even if NaNs are among them. (REFUTED for Max: of anything followed by NaN, x the maximum is x, so Max [5, NaN, 1] = 1. Min answers NaN if NaN is the first element and otherwise the least number.)", "quantifier": "every vector of floats with a NaN", "why_tests_cant": "the tests use no NaN", "anchors": ["vec/vec.go:MaxFunc", "vec/vec.go:MinFunc"]}
{"id": "C137", "title": "vec: Sort puts NaNs first", "statement": "When sorting floating-point numbers, NaNs are ordered before other values (the comment at vec.go:460). (REFUTED: with every sorting function that learns by comparing, one of [x, NaN] and [NaN, x] is left with NaN last.)", "quantifier": "every such sorting function and every x", "why_tests_cant": "the tests use no NaN", "anchors": ["vec/vec.go:Sort"]}
{"id": "C138", "title": "dllist: what the copies at a mark are", "statement": "PushFrontListTo(other, mark) puts a copy of other directly after mark in order, PushBackListTo one in reverse order; given the list itself both insert the values described by self_front and self_back. Nothing else changes.", "quantifier": "every reachable state, pair of lists and mark", "why_tests_cant": "a test fixes one finite call sequence; the claim ranges over every sequence of calls", "anchors": ["dllist/dllist.go:PushBackListTo", "dllist/dllist.go:PushFrontListTo"]}
{"id": "C139", "title": "dllist: other handles survive Clear and Sort", "statement": "Clear and Sort of a list leave the handles of elements that are not in it good, with their values.", "quantifier": "every reachable state, list and handle", "why_tests_cant": "a test fixes one finite call sequence; the claim ranges over every sequence of calls", "anchors": ["dllist/dllist.go:Clear", "dllist/dllist.go:Sort"]}
{"id": "C140", "title": "lhashmap: Range with callbacks that keep the order", "statement": "Range ends and visits each entry in order until told to stop, for every callback that leaves the entries and their order as they are.", "quantifier": "every reachable state and such callback", "why_tests_cant": "a test fixes one finite call sequence; the claim ranges over every sequence of calls", "anchors": ["lhashmap/lhashmap.go:Range"]}
{"id": "C141", "title": "set: elements with a lawful equality", "statement": "If == on the element type is an equivalence, then after Insert(v) Contain(v) holds and a second Insert(v) returns false.", "quantifier": "every reachable state, such type and value", "why_tests_cant": "a test fixes one finite call sequence; the claim ranges over every sequence of calls", "anchors": ["set/set.go:Insert", "set/set.go:Contain"]}
{"id": "C142", "title": "genmap: LoadOrStore of a missing key", "statement": "If the key is missing LoadOrStore stores the value and returns the zero value and false.", "quantifier": "every reachable state, key and value", "why_tests_cant": "a test fixes one finite call sequence; the claim ranges over every sequence of calls", "anchors": ["genmap/genmap.go:LoadOrStore"]}
{"id": "C143", "title": "vec: what Cut returns", "statement": "Cut(i,j) removes the elements in [i,j) and returns a slice of j-i elements of which the k-th is the old element j+k if there is one and the old element i+k otherwise; so it returns the removed elements when j is the length.", "quantifier": "every reachable state and range", "why_tests_cant": "a test fixes one finite call sequence; the claim ranges over every sequence of calls", "anchors": ["vec/vec.go:Cut"]}
{"id": "C144", "title": "vec: whose comparator a clone uses", "statement": "Until its own comparator is set, a vector made by Clone or SplitOff compares by the current comparator of the original; a comparator set on the vector itself stays whatever is done to other vectors.", "quantifier": "every reachable state and later history", "why_tests_cant": "a test fixes one finite call sequence; the claim ranges over every sequence of calls", "anchors": ["vec/vec.go:Clone", "vec/vec.go:SplitOff", "vec/vec.go:SetCmpLess"]}
{"id": "C145", "title": "hashring: what GetNode returns", "statement": "GetNode(key) is the owner of the first virtual node clockwise from the hash of the key, the key itself if a virtual node has just that hash, and the zero value if the ring is empty. So it is a member if the ring is not empty and the key's hash is no other node's virtual hash.", "quantifier": "every history of calls and every key", "why_tests_cant": "a test fixes one finite call sequence; the claim ranges over every sequence of calls", "anchors": ["hashring/hashring.go:GetNode"]}
{"id": "C146", "title": "hashring: placement without collisions", "statement": "Two rings with the same replicas and the same current nodes, whose virtual hashes differ, map every key alike, whatever calls led there.", "quantifier": "every pair of histories, iteration orders and sorting functions", "why_tests_cant": "a test fixes one finite call sequence; the claim ranges over every sequence of calls", "anchors": ["hashring/hashring.go:GetNode", "hashring/hashring.go:AddNodes"]}
{"id": "C147", "title": "hashring: keys that move, without collisions", "statement": "If the virtual hashes of the nodes differ and the key collides with none, adding nodes moves a key only onto an added node and removing nodes moves only keys that were on a removed node.", "quantifier": "every history of calls and every key", "why_tests_cant": "a test fixes one finite call sequence; the claim ranges over every sequence of calls", "anchors": ["hashring/hashring.go:AddNodes", "hashring/hashring.go:RemoveNodes"]}
{"id": "C148", "title": "tree: programs that attach roots", "statement": "If only nil and roots of other trees are attached, all parent and child links match after every call, every call does what it says, and the child that SetLeft or SetRight returns is a root.", "quantifier": "every such history", "why_tests_cant": "a test fixes one finite call sequence; the claim ranges over every sequence of calls", "anchors": ["tree/tree.go:SetLeft", "tree/tree.go:SetRight"]}
{"id": "C149", "title": "tree: what IsDescendantRelation says", "statement": "n.IsDescendantRelation(m) is true exactly if n is not in the subtree of m.", "quantifier": "every tree and pair of nodes", "why_tests_cant": "a test fixes a handful of concrete inputs; the claim ranges over every size and content", "anchors": ["tree/tree.go:IsDescendantRelation"]}
{"id": "C150", "title": "tree: what DrawTree prints", "statement": "DrawTree prints the values in level order, with line breaks after 1, 2, 4, 6, 8, ... values; this is one row per line whenever row d has 2d nodes (the last possibly fewer).", "quantifier": "every tree", "why_tests_cant": "a test fixes a handful of concrete inputs; the claim ranges over every size and content", "anchors": ["tree/tree.go:DrawTree"]}
{"id": "C151", "title": "refreshcache: what a panicking refresh does", "statement": "A refresh function that panics in Refresh or Get lets the panic go on, releases the lock and records the zero value as a success at the time of the panic.", "quantifier": "every state with the lock free", "why_tests_cant": "a test fixes one finite call sequence; the claim ranges over every sequence of calls", "anchors": ["refreshcache/refreshcache.go:Refresh"]}
{"id": "C152", "title": "refreshcache: failures keep the value for the next refresh", "statement": "A refresh that fails leaves the stored value, records the error and its time and forgets the time of the last success; if between two refreshes only failures happen, the second is given the same old value as the first.", "quantifier": "every execution", "why_tests_cant": "tests sample a few goroutine schedules; the claim ranges over every interleaving", "anchors": ["refreshcache/refreshcache.go:Refresh"]}
{"id": "C153", "title": "refreshcache: what Raw returns", "statement": "Raw returns the recorded value without an error while it is fresh; otherwise, within errAge of the last failure, the zero value and the last error; otherwise the recorded value and the last error there was.", "quantifier": "every execution and every call that runs alone", "why_tests_cant": "tests sample a few goroutine schedules; the claim ranges over every interleaving", "anchors": ["refreshcache/refreshcache.go:Raw"]}
{"id": "C154", "title": "refreshcache: what Clear does", "statement": "A Clear that runs alone only sets the time of the last success to zero; its clear function is given the stored value.", "quantifier": "every state", "why_tests_cant": "a test fixes one finite call sequence; the claim ranges over every sequence of calls", "anchors": ["refreshcache/refreshcache.go:Clear"]}
{"id": "C155", "title": "synccache: Load and Range give entries that had not expired", "statement": "An entry that Load or LoadAndDelete returns, or Range hands to its callback, had not expired when its expiration was compared with the clock, both read during the call.", "quantifier": "every execution", "why_tests_cant": "tests sample a few goroutine schedules; the claim ranges over every interleaving", "anchors": ["synccache/synccache.go:Load", "synccache/synccache.go:Range"]}
{"id": "C156", "title": "rwmap: the only data race", "statement": "The only data races are between Clear writing len without sync/atomic and other accesses to len; read is stored, and dirty and misses are touched, with the mutex held only.", "quantifier": "every execution", "why_tests_cant": "tests sample a few goroutine schedules; the claim ranges over every interleaving", "anchors": ["rwmap/rwmap.go:Clear"]}
{"id": "C157", "title": "refreshcache: the only data race", "statement": "The only data races are between Get reading last under the mutex without sync/atomic and Clear storing it without the mutex.", "quantifier": "every execution", "why_tests_cant": "tests sample a few goroutine schedules; the claim ranges over every interleaving", "anchors": ["refreshcache/refreshcache.go:Get", "refreshcache/refreshcache.go:Clear"]}
{"id": "C158", "title": "rwmap: Load, Len and Clear finish in 7 steps", "statement": "Load, Len and Clear make at most 7 steps of their own, waiting for the mutex aside, whatever the others do.", "quantifier": "every execution", "why_tests_cant": "tests sample a few goroutine schedules; the claim ranges over every interleaving", "anchors": ["rwmap/rwmap.go:Load", "rwmap/rwmap.go:Clear"]}
{"id": "C159", "title": "refreshcache: which calls return", "statement": "Whatever goroutines are in functions of the user and stay there, all other calls return, get to such a function, or wait for the mutex, and this only while it is held by a goroutine in the refresh function; as long as that one stays there, those who wait do.", "quantifier": "every execution", "why_tests_cant": "tests sample a few goroutine schedules; the claim ranges over every interleaving", "anchors": ["refreshcache/refreshcache.go:Get", "refreshcache/refreshcache.go:Refresh"]}
{"id": "C160", "title": "vec: the comparators of pointers and NaN", "statement": "A vector without comparators of its own compares pointers by what they point to, and its comparators are an order and its equality also with NaN. (REFUTED: with pointers to numbers every comparison panics, so Contains on a non-empty vector does; pointers to strings are all equal, nil included, so Contains finds any pointer in a non-empty vector and Compact leaves one element; with NaN there is no weak order.)", "quantifier": "every vector of pointers", "why_tests_cant": "the tests use ints", "anchors": ["vec/vec.go:CmpLess", "vec/vec.go:CmpEqual"]}
{"id": "C161", "title": "lhashmap: Range while the callback clears the map", "statement": "A Range whose callback calls Clear gives no entry after that. (REFUTED: it goes on through the entries the map had.)", "quantifier": "every map", "why_tests_cant": "no test clears inside Range", "anchors": ["lhashmap/lhashmap.go:Range", "lhashmap/lhashmap.go:Clear"]}
{"id": "C162", "title": "dllist: Range while the callback removes, clears or appends", "statement": "A Range whose callback removes its element gives all elements of the start; one whose callback clears the list gives no more; one whose callback appends each time ends. (REFUTED: removing ends the loop with the answer true, whatever is left; clearing gives all the elements there were; appending keeps the loop going for ever.)", "quantifier": "every list", "why_tests_cant": "no test changes the list inside Range", "anchors": ["dllist/dllist.go:Range"]}
{"id": "C163", "title": "ring: Unlink of math.MaxInt64", "statement": "Unlink(math.MaxInt64) on a ring of length L removes math.MaxInt64 mod L elements. (REFUTED: n+1 wraps around; on a ring of three none is removed instead of one.)", "quantifier": "every ring of three", "why_tests_cant": "the tests use small n", "anchors": ["ring/ring.go:Unlink"]}
{"id": "C164", "title": "ring: Do while the callback takes out its element", "statement": "Do ends although the callback takes out the element whose turn it is. (REFUTED: on every ring of two or more the loop goes on for ever.)", "quantifier": "every ring of two or more", "why_tests_cant": "the tests do not change the ring inside Do", "anchors": ["ring/ring.go:Do"]}
{"id": "C165", "title": "vec: Range while the callback removes or appends", "statement": "A Range whose callback removes its element gives every element; one whose callback appends each time ends. (REFUTED: the first gets every other element only, the second goes on for ever.)", "quantifier": "every vector", "why_tests_cant": "the tests do not change the vector inside Range", "anchors": ["vec/vec.go:Range"]}
{"id": "C166", "title": "synccache: AddExpiration at the end of time", "statement": "AddExpiration with a positive duration never makes an entry expire. (REFUTED: an entry whose expiration is set to time.UnixMilli(math.MaxInt64) and extended by a millisecond expires at once.)", "quantifier": "every state", "why_tests_cant": "the tests use small durations", "anchors": ["synccache/item.go:AddExpiration"]}
{"id": "C167", "title": "refreshcache: how old a returned value can be", "statement": "A value that Get or Refresh returns without an error is one the cache held at a moment not before any success recorded before the call; and either the refresh function returned it inside this very call, or a success was recorded by then that was less than maxAge old at a clock reading of the call (a success at all if maxAge is negative). Clock readings of the call are at least maxAge and errAge after 1970.", "quantifier": "every execution of any number of goroutines", "why_tests_cant": "the tests do not run refreshes, failures and Clears at the same time as Get, nor hold a goroutine up between its loads", "anchors": ["refreshcache/refreshcache.go:Get", "refreshcache/refreshcache.go:Refresh"]}
{"id": "C168", "title": "refreshcache: returned values never go back", "statement": "If a call of Get or Refresh returned v without an error before another call, of any goroutine, was made that returned v' without an error, then v' was the value of the cache at a moment not before the one at which v was.", "quantifier": "every execution of any number of goroutines", "why_tests_cant": "needs all interleavings of lock-free reads and refreshes", "anchors": ["refreshcache/refreshcache.go:Get", "refreshcache/refreshcache.go:Refresh"]}
{"id": "C169", "title": "vec: BinarySearch looks at few elements", "statement": "BinarySearch and BinarySearchFunc on n elements depend on what the comparison says of at most log2 n + 2 elements (of none if the vector is empty): with any other elements, or a comparison that panics, elsewhere the answer is the same. This holds of vectors that are not sorted too.", "quantifier": "every vector, every comparison function (also panicking ones)", "why_tests_cant": "the tests compare results, not what was looked at", "anchors": ["vec/vec.go:BinarySearch", "vec/vec.go:BinarySearchFunc"]}
{"id": "C170", "title": "vec: searches and comparisons stop where they can", "statement": "SearchFunc and ContainsFunc ask about no element behind the first match or panic, EqualVecFunc asks nothing of vectors of different lengths, EqualVecFunc and CompareFunc nothing behind the first pair that decides, IsSortedFunc about no pair before the last one that is out of order: the answer is the same even if the function would panic there.", "quantifier": "every vector, every function (also panicking ones)", "why_tests_cant": "the tests compare results only", "anchors": ["vec/vec.go:SearchFunc", "vec/vec.go:ContainsFunc", "vec/vec.go:EqualVecFunc", "vec/vec.go:CompareFunc", "vec/vec.go:IsSortedFunc"]}
{"id": "C171", "title": "vec: elements taken out are let go", "statement": "After Pop, Remove, Clear or Cut the array of the vector no longer holds the elements taken out. (REFUTED: Pop and Clear write to no cell; every element stays in the array behind the last one, so that what it points to is not freed.)", "quantifier": "every sequence of calls", "why_tests_cant": "the tests do not look behind the last element", "anchors": ["vec/vec.go:Pop", "vec/vec.go:Clear"]}
{"id": "C172", "title": "vec: what the array keeps behind the last element", "statement": "In the cells behind the last element Pop and Remove leave the old last element, Clear all elements, Cut(i, j) the last j-i ones, each before what was there already; Delete(i, j) and Compact leave zero values there, and Replace and Insert nothing but zero values and what was there already.", "quantifier": "every sequence of calls", "why_tests_cant": "the tests do not look behind the last element", "anchors": ["vec/vec.go:Pop", "vec/vec.go:Remove", "vec/vec.go:Clear", "vec/vec.go:Cut", "vec/vec.go:Delete", "vec/vec.go:Replace", "vec/vec.go:Insert", "vec/vec.go:CompactFunc"]}
{"id": "C173", "title": "heap, pqueue: Pop lets go of the element", "statement": "After heap.Pop on a MinHeap, a MaxHeap or a queue of pqueue the array of the heap no longer holds the element. (REFUTED: the element stays in the first cell behind the heap, in every heap, until a Push overwrites the cell.)", "quantifier": "every heap, every order", "why_tests_cant": "the tests do not look behind the heap", "anchors": ["heap/heap.go:Pop", "heap/minheap.go:Pop", "heap/maxheap.go:Pop", "pqueue/minqueue.go:Pop", "pqueue/maxqueue.go:Pop"]}
{"id": "C174", "title": "heap, pqueue: the array behind the heap", "statement": "Init leaves the cells behind the heap alone, Pop and Remove put the element they return before them, Push takes the first of them away (or makes a new array with zero values behind). So k Pops leave what they returned behind the heap, the last first, and Init and n Pops sort the array in place.", "quantifier": "every heap, every strict weak order, any growth of append", "why_tests_cant": "the tests do not look behind the heap", "anchors": ["heap/heap.go:Init", "heap/heap.go:Pop", "heap/heap.go:Remove", "heap/heap.go:Push", "heap/minheap.go:Pop", "heap/minheap.go:Push", "pqueue/minqueue.go:Pop"]}
{"id": "C175", "title": "rwmap, synccache: reflect's Equal is ==", "statement": "reflect.Value.Equal, with which CompareAndSwap, CompareAndDelete and CompareValueAndDelete compare values, says true exactly of values that are == (structs and arrays part by part, interfaces by dynamic type and value, NaN not equal to itself, 0 equal to -0). It never panics on a type without functions, maps, slices and interfaces inside; a panic comes from a part without ==; functions, maps and slices always panic.", "quantifier": "every type, all values of it, to any depth", "why_tests_cant": "the tests compare ints", "anchors": ["rwmap/rwmap.go:tryCompareAndSwap", "rwmap/rwmap.go:CompareAndDelete", "synccache/synccache.go:CompareValueAndDelete"]}
{"id": "C176", "title": "rwmap, synccache: comparing calls on every value type", "statement": "In no run does a call of a map or cache whose values are of a strictly comparable type panic; CompareAndSwap and CompareAndDelete then succeed exactly if the value == old. CompareValueAndDelete returns true only if the value of the entry it removed == its argument. With functions, maps or slices CompareAndSwap and CompareAndDelete panic whenever the key is there.", "quantifier": "every execution of any number of goroutines", "why_tests_cant": "the tests compare ints", "anchors": ["rwmap/rwmap.go:CompareAndSwap", "rwmap/rwmap.go:CompareAndDelete", "synccache/synccache.go:CompareValueAndDelete"]}
{"id": "C177", "title": "synccache has no data race", "statement": "Goroutines using one cache never access a field of it, of its map or of an entry without an order or synchronisation between them, one of them writing. (REFUTED: without a deletedCallback, Clear sets the len of the map plainly while Store, LoadOrStore and the deleting calls of other goroutines add to it atomically.)", "quantifier": "every execution of any number of goroutines", "why_tests_cant": "a race detector sees the executions it runs; the claim ranges over every interleaving", "anchors": ["synccache/synccache.go:Clear", "rwmap/rwmap.go:Clear"]}
{"id": "C178", "title": "synccache: the only data race", "statement": "Two goroutines about to make racing accesses to the fields of the map race on len, one of them is in Clear, and there is no deletedCallback. NewEntry happens before every other access to the fields of the entry, and before the entry is returned or handed to the f of Range, in the order of the Go memory model; the value of an entry never changes after that, and the expiration changes only by sync/atomic.", "quantifier": "every execution of any number of goroutines", "why_tests_cant": "a race detector sees the executions it runs; the claim ranges over every interleaving", "anchors": ["synccache/synccache.go:Load", "synccache/synccache.go:LoadOrStore", "synccache/synccache.go:Range", "synccache/synccache.go:trim", "synccache/item.go:NewEntry", "synccache/item.go:IsExpired"]}
{"id": "C179", "title": "refreshcache: refreshes happen before the calls that return what they made", "statement": "When Get, Refresh or Raw returns a value other than the zero value, or an error, the end of a refresh function that returned it happens before, in the order of the Go memory model. When a refresh or clear function starts, the call that handed it to the cache (or the constructor) happens before, and so does the end of the refresh that made the OldVal it gets.", "quantifier": "every execution of any number of goroutines", "why_tests_cant": "a race detector sees the executions it runs; the claim ranges over every interleaving", "anchors": ["refreshcache/refreshcache.go:Get", "refreshcache/refreshcache.go:Refresh", "refreshcache/refreshcache.go:Raw", "refreshcache/refreshcache.go:Clear"]}
{"id": "C180", "title": "dllist: Sort with a comparison that panics", "statement": "If the comparison function panics in a call made by Sort, wherever that is and whatever it answered before, every list including the one being sorted has the elements it had, in their order, and all lists can be used as before.", "quantifier": "all lists reached by any calls, all comparison functions with a state of their own that may answer anything and panic at any call", "why_tests_cant": "a test tries one function that panics at one place", "anchors": ["dllist/dllist.go:Sort", "dllist/element.go:Range"]}
{"id": "C181", "title": "heap: nothing is lost if Less panics", "statement": "If a Less of an implementation of Interface panics inside Init, Push, Pop, Remove or Fix, wherever that is and whatever it answered before, the heap has the elements it had before the call, and after Push also the new one; Pop and Remove have taken nothing out.", "quantifier": "all implementations whose Len, Swap, Push and Pop keep a list of elements; all answers and panics of Less; all lists of elements", "why_tests_cant": "a test tries one function that panics at one place", "anchors": ["heap/heap.go:Init", "heap/heap.go:Push", "heap/heap.go:Pop", "heap/heap.go:Remove", "heap/heap.go:Fix", "heap/heap.go:up", "heap/heap.go:down"]}
{"id": "C182", "title": "synccache: LoadOrStore goes around a bounded number of times", "statement": "There is a number such that no LoadOrStore goes around its loop more often than that. (REFUTED: for every n there is an execution, with a clock that never goes back and entries stored for a millisecond, in which one LoadOrStore goes around n times and has not returned, another goroutine storing an entry each time that has expired when it is found.)", "quantifier": "every execution of any number of goroutines", "why_tests_cant": "the loop runs longer the longer the other goroutine goes on; a test sees a few rounds", "anchors": ["synccache/synccache.go:LoadOrStore"]}
{"id": "C183", "title": "synccache: LoadOrStore goes around once per expired entry", "statement": "Each time LoadOrStore goes around its loop once more, it has found another entry expired, one that it did not make itself; so it goes around at most once more than there are entries that others made before or during the call, or that its goroutine made before.", "quantifier": "every execution of any number of goroutines, with any clock", "why_tests_cant": "tests sample a few goroutine schedules; the claim ranges over every interleaving", "anchors": ["synccache/synccache.go:LoadOrStore", "synccache/synccache.go:CompareAndDelete"]}
{"id": "C184", "title": "rwmap: values that were deleted or replaced are let go of", "statement": "The pointers to values that can be reached from the read map and the dirty map are those of the pairs in the map, and every pair in the map has one: a value that was deleted or replaced is not kept from the garbage collector, except by a Clear between emptying the read map and emptying the dirty map.", "quantifier": "every execution of any number of goroutines, at every moment", "why_tests_cant": "tests sample a few goroutine schedules; the claim ranges over every interleaving", "anchors": ["rwmap/rwmap.go:delete", "rwmap/rwmap.go:Clear", "rwmap/rwmap.go:dirtyLocked"]}
{"id": "C185", "title": "rwmap: keys that were deleted are let go of", "statement": "When no call is under way, the keys that can be reached from the map are those of the pairs in it. (REFUTED: after both its keys were deleted and further loads the map still has them in its read map.)", "quantifier": "every execution of any number of goroutines", "why_tests_cant": "what the map keeps is not visible in what its methods return", "anchors": ["rwmap/rwmap.go:Delete", "rwmap/rwmap.go:dirtyLocked"]}
{"id": "C186", "title": "rwmap: Range and SlowLen tell the map at one moment", "statement": "A Range that goes to the end hands out the pairs, and SlowLen returns the number of pairs, that were in the map at some moment of the call. (REFUTED: with another goroutine deleting one key and then storing another, Range hands out both and SlowLen returns 2, while at each moment of the call the map had at most one pair.)", "quantifier": "every execution of any number of goroutines", "why_tests_cant": "tests sample a few goroutine schedules; the claim ranges over every interleaving", "anchors": ["rwmap/rwmap.go:Range", "rwmap/rwmap.go:SlowLen"]}
{"id": "C187", "title": "hashring: the texts that are hashed are different", "statement": "For nodes that are strings or integers, the text that hashKey hashes determines the node and the index, so that two virtual nodes have the same hash only if CRC-32 gives it to two different texts; hashes are below 2^32.", "quantifier": "all strings, all integers, all indices from 0 up", "why_tests_cant": "a test fixes a handful of concrete inputs; the claim ranges over every size and content", "anchors": ["hashring/hashring.go:hashKey"]}
{"id": "C188", "title": "hashring: what CRC-32 keeps apart", "statement": "Two names that differ only in at most four neighbouring bytes have different hashes at each index; two replicas of a node whose indices have the same number of digits, at most four, have different hashes.", "quantifier": "all strings and indices", "why_tests_cant": "a test fixes a handful of concrete inputs; the claim ranges over every size and content", "anchors": ["hashring/hashring.go:hashKey"]}
{"id": "C189", "title": "hashring: names that differ in their last two bytes", "statement": "In a ring of at most ten replicas whose nodes are strings of the same length that differ only in their last two bytes (node00 to node99, say), no two virtual nodes have the same hash; where a key goes depends on the nodes alone; and a key of the same form goes to a node of the ring, is moved by adding nodes only onto an added node and by removing nodes only from a removed one.", "quantifier": "all prefixes, all such nodes, every sequence of calls, every iteration order of maps, every sorting function", "why_tests_cant": "a test fixes one finite call sequence; the claim ranges over every sequence of calls", "anchors": ["hashring/hashring.go:GetNode", "hashring/hashring.go:AddNodes", "hashring/hashring.go:RemoveNodes", "hashring/hashring.go:hashKey"]}
{"id": "C190", "title": "rwmap: a Range callback that panics", "statement": "A Range whose callback panics leaves the map and the other calls as one whose callback returns false at that pair: the map stays linearizable, no mutex stays locked, and nothing deadlocks.", "quantifier": "every execution of any number of goroutines, with any callbacks panicking", "why_tests_cant": "tests sample a few goroutine schedules; the claim ranges over every interleaving", "anchors": ["rwmap/rwmap.go:Range"]}
{"id": "C191", "title": "rwmap: which calls do without the mutex", "statement": "A Load, LoadAndDelete, Delete, CompareAndSwap or CompareAndDelete that finds its key in the read map, and a Range or SlowLen that finds the read map complete, can always go on, whoever has the mutex, and never take it; such a Load returns after two further steps of its own.", "quantifier": "every execution of any number of goroutines", "why_tests_cant": "tests sample a few goroutine schedules; the claim ranges over every interleaving", "anchors": ["rwmap/rwmap.go:Load", "rwmap/rwmap.go:LoadAndDelete", "rwmap/rwmap.go:CompareAndSwap", "rwmap/rwmap.go:CompareAndDelete", "rwmap/rwmap.go:Range"]}
{"id": "C192", "title": "dllist: a list keeps its elements and nothing else", "statement": "From a list, and from any element of it, pointers lead to the list, its root and its elements and to nothing else, so what was removed or cleared can be collected. From an element taken out with Remove they lead nowhere, and from no list to that element.", "quantifier": "every history of calls with good handles on any number of lists, zero values included", "why_tests_cant": "a test fixes one finite call sequence; the claim ranges over every sequence of calls", "anchors": ["dllist/dllist.go:remove", "dllist/dllist.go:Clear", "dllist/element.go:Remove"]}
{"id": "C193", "title": "lhashmap: a map keeps its entries and nothing else", "statement": "From a map pointers lead to one entry for each key, holding that key and its value, to as many list elements and the root, and to nothing else; the table holds the keys of the map and no others. So removed and cleared keys and values can be collected.", "quantifier": "every history of calls, every key type", "why_tests_cant": "a test fixes one finite call sequence; the claim ranges over every sequence of calls", "anchors": ["lhashmap/lhashmap.go:Remove", "lhashmap/lhashmap.go:Clear", "lhashmap/lhashmap.go:Store"]}
{"id": "C194", "title": "dllist: an element in no list keeps no list", "statement": "From an element that is in no list pointers lead to no list and no other element. (REFUTED: an element taken out by Clear or Sort still leads to the list and everything in it, also to what is pushed later.)", "quantifier": "every history of calls with good handles", "why_tests_cant": "a test fixes one finite call sequence; the claim ranges over every sequence of calls", "anchors": ["dllist/dllist.go:Clear", "dllist/dllist.go:Sort"]}
{"id": "C195", "title": "rwmap: how far Len can be off in any execution", "statement": "In every execution, calls overlapping a Clear included, the counter behind Len differs from the number of keys by at most the number of calls in progress that may add or remove a key, plus the number of such calls that were in progress when a Clear set the counter to 0 for the last time. So with no call in progress Len is off by at most the latter number, and it is right if that number is 0, whatever happened around earlier Clears. The only moment left out is the one inside Clear when the pairs are gone and the counter is not set yet. The bound is reached.", "quantifier": "every schedule of every finite set of calls by any number of goroutines", "why_tests_cant": "tests sample a few goroutine schedules; the claim ranges over every interleaving", "anchors": ["rwmap/rwmap.go:Clear", "rwmap/rwmap.go:Len", "rwmap/rwmap.go:Swap", "rwmap/rwmap.go:LoadAndDelete"]}
{"id": "C196", "title": "rwmap: a key that is not stored again is let go of after two promotions", "statement": "If at some moment a key is not in the map and no Store, Swap or LoadOrStore of it is in progress, and none is called later, then once dirty was promoted (or the map cleared) twice the key is in neither of the two Go maps, whatever else the goroutines do meanwhile, CompareAndSwap and reads of that key included. (Not while a Clear is between emptying read and emptying dirty.) One promotion is not enough.", "quantifier": "every schedule of every finite set of calls by any number of goroutines", "why_tests_cant": "tests sample a few goroutine schedules; the claim ranges over every interleaving", "anchors": ["rwmap/rwmap.go:missLocked", "rwmap/rwmap.go:dirtyLocked", "rwmap/rwmap.go:Range", "rwmap/rwmap.go:Clear"]}
{"id": "C197", "title": "rwmap: the memory used is bounded in terms of the number of keys", "statement": "The number of keys the map holds is bounded by a function of the largest number of keys that were in it at a time. (REFUTED: for every n there is an execution of one goroutine that stores a key, and then stores a key and removes it with CompareAndDelete, n times with different keys; at most two keys are in the map at any time, and at the end n + 1 keys are in dirty. CompareAndDelete leaves the key in dirty, and the miss it counts never catches up with the size of dirty.)", "quantifier": "every number n of keys", "why_tests_cant": "a test fixes one finite call sequence; the claim ranges over every sequence of calls", "anchors": ["rwmap/rwmap.go:CompareAndDelete", "rwmap/rwmap.go:missLocked"]}
{"id": "C198", "title": "vec: a slice from Slice or SliceCut shares the array of the vector until a Push needs more than the capacity", "statement": "Slice returns SliceCut of everything. For a slice s returned by SliceCut(i, j): writing s[k] sets element i+k of the vector and changes no other vector; Set of element i+k is seen as s[k]. append(s, vs...) overwrites elements j, j+1, ... of the vector with vs when j + len(vs) is at most the capacity of the vector (what goes past the length is not visible in the vector), and leaves the vector as it is otherwise. After append to the whole slice within the capacity, a Push of ys writes ys over the appended elements, so the caller's slice changes. A Push that needs more than the capacity ends the sharing: the slice keeps its elements, writes to it do not change the vector, and Set on the vector does not change it.", "quantifier": "For all element types, growth policies of the runtime, reachable states, ranges, indices and values.", "why_tests_cant": "a test fixes one finite call sequence; the claim ranges over every sequence of calls", "anchors": ["vec/vec.go:SliceCut", "vec/vec.go:Slice", "vec/vec.go:Push", "vec/vec.go:Set"]}
{"id": "C199", "title": "vec: what a CompactFunc whose comparison panics leaves behind", "statement": "If the first comparison that panics is that of elements p and p-1, then after recovering the panic the vector has its old length; its elements are the ones kept of the first p elements, followed, from that position on, by the elements that were there before. No other vector changes. No element is new, and each element that is gone was equal (through a chain of neighbours) to one that is still there. If no comparison panics, the vector is compacted. This holds for the loop of slices.CompactFunc of Go 1.22 and for that of Go 1.23.", "quantifier": "For all element types, comparisons, panic positions and reachable states.", "why_tests_cant": "a test fixes one finite call sequence; the claim ranges over every sequence of calls", "anchors": ["vec/vec.go:CompactFunc"]}
{"id": "C200", "title": "vec: a CompactFunc that panicked can be repeated", "statement": "If the comparison of CompactFunc panics, calling CompactFunc again with a comparison that agrees and does not panic gives what a single CompactFunc would have given. (REFUTED: [1 1 2 2 3 3 4] with a panic at the last comparison is left as [1 2 3 2 3 3 4], which compacts to [1 2 3 2 3 4] and not to [1 2 3 4].)", "quantifier": "For all comparisons that are equality where they do not panic, and all reachable states.", "why_tests_cant": "a test fixes one finite call sequence; the claim ranges over every sequence of calls", "anchors": ["vec/vec.go:CompactFunc"]}
{"id": "C201", "title": "rwmap: used by one goroutine it is a built-in map, for every key type", "statement": "A history of calls of one RWMap by one goroutine never panics and every call returns what it returns on a built-in map: also for keys that are not == to themselves (NaN) and keys that are == but not the same (0 and -0). Range shows pairs of a table that has the same lookups, the same pairs under keys that are not == to themselves, and the same length; no two keys it shows are ==.", "quantifier": "For all key types with a symmetric and transitive ==, all value types and comparisons of values, all iteration orders and all histories of calls of any length from the zero RWMap.", "why_tests_cant": "a test fixes one finite call sequence; the claim ranges over every sequence of calls", "anchors": ["rwmap/rwmap.go:Load", "rwmap/rwmap.go:Swap", "rwmap/rwmap.go:LoadOrStore", "rwmap/rwmap.go:LoadAndDelete", "rwmap/rwmap.go:CompareAndSwap", "rwmap/rwmap.go:CompareAndDelete", "rwmap/rwmap.go:Range", "rwmap/rwmap.go:Clear", "rwmap/rwmap.go:Len"]}
{"id": "C202", "title": "rwmap: keys that are not == to themselves stay until Clear", "statement": "Under a key that is not == to itself nothing is ever found, compared or deleted; each Swap and LoadOrStore under it adds a pair and one to Len. Range shows exactly the pairs stored under such keys since the last Clear, as often as they were stored.", "quantifier": "For all key types with a symmetric and transitive ==, all value types, all iteration orders and all histories of calls by one goroutine.", "why_tests_cant": "a test fixes one finite call sequence; the claim ranges over every sequence of calls", "anchors": ["rwmap/rwmap.go:Load", "rwmap/rwmap.go:Swap", "rwmap/rwmap.go:LoadOrStore", "rwmap/rwmap.go:LoadAndDelete", "rwmap/rwmap.go:Range", "rwmap/rwmap.go:Clear", "rwmap/rwmap.go:Len"]}
{"id": "C203", "title": "rwmap: Range with a callback that uses the map, by one goroutine", "statement": "Range with a callback that makes any calls on the same map returns. No two keys the callback gets are ==, even if it deletes and stores keys. As long as it has not called Clear, what it gets is in the map at that moment with that value. If it does not stop the Range, it gets every key that is in the map at the start and that it does not remove, Clear or delete. Calls after the Range behave as on a built-in map after the same calls.", "quantifier": "For all key types with a symmetric and transitive ==, all callbacks, all iteration orders and all histories of calls before.", "why_tests_cant": "a test fixes one finite call sequence; the claim ranges over every sequence of calls", "anchors": ["rwmap/rwmap.go:Range", "rwmap/rwmap.go:Clear", "rwmap/rwmap.go:LoadAndDelete", "rwmap/rwmap.go:Swap"]}
{"id": "C204", "title": "rwmap: what a Range callback gets is in the map, also after Clear", "statement": "What the callback of a Range gets is in the map at that moment with that value, also if the callback called Clear before, as it is for a built-in map. (REFUTED: with the pairs (1,1) and (2,2), a callback that calls Clear and Store(2,9) in its first turn gets (2,2) in its second turn, although Load(2) gives 9.)", "quantifier": "For all callbacks and histories of one goroutine.", "why_tests_cant": "a test fixes one finite call sequence; the claim ranges over every sequence of calls", "anchors": ["rwmap/rwmap.go:Range", "rwmap/rwmap.go:Clear"]}
{"id": "C205", "title": "synccache: what each call does, with keys of any equality", "statement": "Calls made one after the other behave as described by a map from keys to entries, a bag of pairs under keys that are not == to themselves, and a table of values and expirations: the results, the entries taken out, and what deletedCallback and the callback of Range get, in order. No call panics. After trim a key finds only entries that have not expired at the trim's reading of the clock; after Clear no key finds anything.", "quantifier": "For all key types with a symmetric and transitive ==, all readings of the clock, all iteration orders, with and without deletedCallback, and all histories of calls.", "why_tests_cant": "a test fixes one finite call sequence; the claim ranges over every sequence of calls", "anchors": ["synccache/synccache.go:Store", "synccache/synccache.go:Load", "synccache/synccache.go:LoadOrStore", "synccache/synccache.go:Delete", "synccache/synccache.go:LoadAndDelete", "synccache/synccache.go:CompareAndDelete", "synccache/synccache.go:CompareValueAndDelete", "synccache/synccache.go:Clear", "synccache/synccache.go:Range", "synccache/synccache.go:trim", "synccache/item.go"]}
{"id": "C206", "title": "synccache: entries under NaN are never taken out", "statement": "A pair stored under a key that is not == to itself stays in the map of the cache for ever: no call and no trim takes it out, however long ago it expired, except Clear of a cache without deletedCallback. So the map has at least as many entries as there were such Stores and LoadOrStores since then. A Range that finds nothing expired shows exactly these pairs, with their values, and the other ones.", "quantifier": "For all key types with a symmetric and transitive ==, all readings of the clock, all iteration orders and all histories of calls.", "why_tests_cant": "a test fixes one finite call sequence; the claim ranges over every sequence of calls", "anchors": ["synccache/synccache.go:trim", "synccache/synccache.go:Clear", "synccache/synccache.go:CompareAndDelete", "synccache/synccache.go:Range"]}
{"id": "C207", "title": "synccache: Clear empties the cache and trim takes out what has expired", "statement": "After Clear a Range shows nothing, and a trim takes out every entry that has expired. (REFUTED: with a deletedCallback, an entry stored under NaN is shown by a Range after Clear, which without a deletedCallback takes it out; and an entry stored under NaN for 5 seconds is still in the map after a trim 100 seconds later.)", "quantifier": "For all key types, with and without deletedCallback.", "why_tests_cant": "a test fixes one finite call sequence; the claim ranges over every sequence of calls", "anchors": ["synccache/synccache.go:Clear", "synccache/synccache.go:trim"]}
{"id": "C208", "title": "synccache: a deletedCallback that stores into the cache", "statement": "With a deletedCallback that makes any Store calls on the same cache (which ones may depend on the value it gets), each call does what it does otherwise and then, for each entry it takes out, what these Stores do: Load of an expired key answers (nil, false) also if the callback has stored the key again; LoadAndDelete answers the entry it took out; LoadOrStore takes out each expired entry it finds and looks again, so it answers the entry the callback stored under its key if that has not expired; Clear, Range and trim come to pairs that are in the cache at that time, no two with == keys, and to each key that finds an entry at the start. All calls other than LoadOrStore return, and LoadOrStore returns after at most two rounds if what the callback stores has not expired when it is looked at.", "quantifier": "For all key types with a symmetric and transitive ==, all such callbacks, all readings of the clock, all iteration orders and all histories of calls.", "why_tests_cant": "a test fixes one finite call sequence; the claim ranges over every sequence of calls", "anchors": ["synccache/synccache.go:Load", "synccache/synccache.go:LoadOrStore", "synccache/synccache.go:Delete", "synccache/synccache.go:LoadAndDelete", "synccache/synccache.go:CompareAndDelete", "synccache/synccache.go:CompareValueAndDelete", "synccache/synccache.go:Clear", "synccache/synccache.go:Range", "synccache/synccache.go:trim"]}
{"id": "C209", "title": "synccache: LoadOrStore returns if deletedCallback returns", "statement": "LoadOrStore of a cache used by one goroutine returns if its deletedCallback returns each time it is called. (REFUTED: if the callback stores an entry under the key again that has expired already, for instance with a negative expire, LoadOrStore takes it out, calls the callback, finds the next one, and so on for ever.)", "quantifier": "For all iteration orders and any number of rounds.", "why_tests_cant": "a test fixes one finite call sequence; the claim ranges over every sequence of calls", "anchors": ["synccache/synccache.go:LoadOrStore", "synccache/synccache.go:CompareAndDelete"]}
{"id": "C210", "title": "synccache: Clear and trim with a deletedCallback that stores into the cache", "statement": "Clear and trim return also if deletedCallback stores into the cache, under keys they have come to and under keys they have not. What a key finds after Clear was stored by the callback during the Clear; what it finds after trim was stored by the callback during the trim or had not expired at the trim's reading of the clock.", "quantifier": "For all key types with a symmetric and transitive ==, all such callbacks, all readings of the clock, all iteration orders and all histories of calls.", "why_tests_cant": "a test fixes one finite call sequence; the claim ranges over every sequence of calls", "anchors": ["synccache/synccache.go:Clear", "synccache/synccache.go:trim", "rwmap/rwmap.go:Range"]}
{"id": "C211", "title": "genmap: DeleteFunc with a function that panics", "statement": "DeleteFunc panics exactly if its function panics at some entry of the map. Then the entries asked about before and answered true are gone (a NaN key cannot be deleted and stays), all others are there unchanged, and no other map is touched. Calling DeleteFunc again with a function that gives the same answers and does not panic leaves what one call would have left.", "quantifier": "For all key types with a symmetric and transitive == (reflexive or not), all maps, all functions and all orders of iteration.", "why_tests_cant": "a test fixes a handful of concrete inputs; the claim ranges over every size and content", "anchors": ["genmap/genmap.go:DeleteFunc"]}
{"id": "C212", "title": "genmap, set: Range, LoadOrStoreFunc and EqualFunc with a callback that panics", "statement": "A Range whose callback panics leaves the maps as one whose callback returns false there. LoadOrStoreFunc does not call its function if the key is there, and stores nothing if the function panics; on a nil map it calls the function and then panics. EqualFunc changes nothing and panics only if the maps have the same size and the function panics at the two values of one key.", "quantifier": "For all key types with any ==, all maps, all callbacks (which may change the maps before they panic) and all orders of iteration.", "why_tests_cant": "a test fixes a handful of concrete inputs; the claim ranges over every size and content", "anchors": ["genmap/genmap.go:Range", "genmap/genmap.go:LoadOrStoreFunc", "genmap/genmap.go:EqualFunc", "set/set.go:Range"]}
{"id": "C213", "title": "synccache: a deletedCallback, or a callback of Range, that panics and is recovered from", "statement": "Every call does what SyncCachePanicSpec.v says, and the cache goes on working after a panic: an entry is out of the cache before the deletedCallback is called with its value, so that a panic leaves it out; LoadOrStore has then stored nothing; Clear, Range and the trim of the background goroutine end at the entry at which they panic. If the callback panics on no value, the calls are those of C205.", "quantifier": "For all key types with a symmetric and transitive == (reflexive or not), all values, all sets of values on which the deletedCallback panics, all callbacks of Range, all orders of iteration, all clocks and all histories of calls by one goroutine.", "why_tests_cant": "a test fixes one finite call sequence; the claim ranges over every sequence of calls", "anchors": ["synccache/synccache.go:Load", "synccache/synccache.go:LoadOrStore", "synccache/synccache.go:CompareAndDelete", "synccache/synccache.go:Clear", "synccache/synccache.go:Range", "synccache/synccache.go:trim"]}
{"id": "C214", "title": "synccache: what a panic of the deletedCallback leaves", "statement": "In a cache any calls (some of which may have panicked) have led to: a call that panics on a value reported it last, and reported no other value that panics; a key whose call panicked is not found afterwards; an entry that could be found before a call other than Store and changes of expirations, whether it panics or not, can be found after it unless the deletedCallback was called with its value; and after a Clear that returns no key is found.", "quantifier": "For all key types with a symmetric and transitive == (reflexive or not), all values, all sets of values on which the deletedCallback panics, all orders of iteration, all clocks and all histories of calls by one goroutine.", "why_tests_cant": "a test fixes one finite call sequence; the claim ranges over every sequence of calls", "anchors": ["synccache/synccache.go:Delete", "synccache/synccache.go:LoadAndDelete", "synccache/synccache.go:CompareValueAndDelete", "synccache/synccache.go:Clear"]}
{"id": "C215", "title": "dllist: calls on a nil list", "statement": "A call on a nil *Dllist either panics or returns at once, as a table in DllistNilSpec.v says: Remove, the inserts, the moves, Swap and PushListTo return without doing anything if an element they are given belongs to some list, Get of a negative index returns nil, Swap and the moves of an element relative to itself return, PushListTo of an empty list returns, and all else panics. No call on nil, whether it panics or not, changes a list, a value or what an element belongs to; InsertAfter may leave the next pointer of an element that is in no list set. Calls on other lists go on answering as C09 says.", "quantifier": "For all element types, all histories of calls with good handles mixed with recovered calls on nil, all arguments: nil or not, elements in some list or in none (pointing nowhere, as the library leaves them), other lists empty or not, nil or not.", "why_tests_cant": "a test fixes one finite call sequence; the claim ranges over every sequence of calls", "anchors": ["dllist/dllist.go:Remove", "dllist/dllist.go:InsertBefore", "dllist/dllist.go:MoveBefore", "dllist/dllist.go:PushBackListTo", "dllist/dllist.go:Swap", "dllist/dllist.go:Get"]}
{"id": "C216", "title": "genmap: Range over a map with keys like NaN, with a callback that changes it", "statement": "Each entry has an identity of its own, since keys cannot tell NaN entries apart: what Range produces is in the map at that moment, nothing is produced twice unless it was gone in between, and every entry that is there all the time is produced unless the callback stops the loop. An entry whose key is not equal to itself is produced exactly once, with the value it was created with, whatever calls other than Clear the callback makes on the map, and is still there afterwards.", "quantifier": "For all key types with any == (for the last sentence symmetric and transitive, reflexive or not), all values, all callbacks (also with Ranges of their own), all orders of iteration the language allows.", "why_tests_cant": "a test fixes one finite call sequence; the claim ranges over every sequence of calls", "anchors": ["genmap/genmap.go:Range", "genmap/genmap.go:Store", "genmap/genmap.go:Delete", "genmap/genmap.go:Clear"]}
{"id": "C217", "title": "genmap: Range with a callback that stores what it is given ends", "statement": "A Range whose callback stores the key and the value it is given makes no new entries and ends.", "quantifier": "For all maps, all keys and values, all orders of iteration the language allows.", "why_tests_cant": "a test fixes one finite call sequence; the claim ranges over every sequence of calls", "anchors": ["genmap/genmap.go:Range", "genmap/genmap.go:Store"]}
{"id": "C218", "title": "lhashmap: an Lhashmap that New did not make", "statement": "Its map and its list are nil. Load, Remove and Len answer as for an empty map, Store, Range and Clear panic; no list and no existing entry is changed, and after recovering it still behaves in the same way, also after the Clear that gave it a map. On an Lhashmap whose fields are not nil the same functions do what those of the main model do.", "quantifier": "For all key and value types with any ==, all sequences of calls with panics recovered, all worlds of other lists.", "why_tests_cant": "a test fixes one finite call sequence; the claim ranges over every sequence of calls", "anchors": ["lhashmap/lhashmap.go:Load", "lhashmap/lhashmap.go:Store", "lhashmap/lhashmap.go:Remove", "lhashmap/lhashmap.go:Range", "lhashmap/lhashmap.go:Clear"]}
{"id": "C219", "title": "heap: calls outside their domain leave the heap as it was", "statement": "On a MinHeap, a MaxHeap or a queue of pqueue, Pop of an empty heap and Remove with an index outside panic, and the heap is then as it was. Fix with an index outside panics, too, with the heap as it was, except that with -1, and with 0 on an empty heap, it returns and has done nothing.", "quantifier": "For all element types, any Less (also one that panics), all heaps shorter than 2^63, all 64-bit indices, with arithmetic that wraps around.", "why_tests_cant": "a test fixes a handful of concrete inputs; the claim ranges over every size and content", "anchors": ["heap/heap.go:Pop", "heap/heap.go:Remove", "heap/heap.go:Fix", "heap/heap.go:up", "heap/heap.go:down"]}
{"id": "C220", "title": "pqueue: Pops of an empty queue, and the zero PQueue", "statement": "In every sequence of Len, Push and Pop whose panics are recovered, exactly the Pops of an empty queue panic; the others return a pair that was pushed and not yet popped and whose priority nothing present beats, and Len is what is there: a Pop that panicked changes nothing. Every call on the zero PQueue, whose heap is a nil interface, panics.", "quantifier": "For all value types, min and max queues, all sequences of fewer than 2^63 calls, with 64-bit arithmetic.", "why_tests_cant": "a test fixes one finite call sequence; the claim ranges over every sequence of calls", "anchors": ["pqueue/pqueue.go:Pop", "pqueue/pqueue.go:Push", "pqueue/pqueue.go:Len", "pqueue/pqueue.go:PQueue"]}
{"id": "C221", "title": "vec: which sort the sorting methods use", "statement": "With a library whose SortFunc sorts and whose SortStableFunc sorts and keeps the order of equal elements, SortFunc, Sort, SortStableFunc and SortStable of a vector sort it and leave the other vectors alone, and the two stable ones also keep the order of equal elements.", "quantifier": "For all element types, all libraries with that contract, all reachable states, all strict weak orders with the matching equality.", "why_tests_cant": "a test fixes one finite call sequence; the claim ranges over every sequence of calls", "anchors": ["vec/vec.go:Sort", "vec/vec.go:SortFunc", "vec/vec.go:SortStable", "vec/vec.go:SortStableFunc"]}
{"id": "C222", "title": "vec: Sort keeps the order of equal elements", "statement": "Sort of a vector, too, keeps the order of equal elements, whatever library with that contract is used.", "quantifier": "For all element types, all libraries with that contract, all reachable states, all strict weak orders with the matching equality.", "why_tests_cant": "a test fixes one finite call sequence; the claim ranges over every sequence of calls", "anchors": ["vec/vec.go:Sort", "vec/vec.go:SortFunc"]}
{"id": "C223", "title": "set: Range with elements that are not equal to themselves", "statement": "With entries that are told apart even if their elements are not, the calls are those of the other model. Range with a callback that makes any calls of its own produces only entries that are in the set at that moment, none twice unless it was gone in between, and every entry that is there all the time unless the callback stops it. An element that is not equal to itself is produced exactly once per entry and stays, unless the callback clears the set.", "quantifier": "For all element types, any == (symmetric and transitive for the last part), all sets, all callbacks, all iteration orders.", "why_tests_cant": "a test fixes a handful of concrete inputs; the claim ranges over every size and content", "anchors": ["set/set.go:Range", "set/set.go:Remove", "set/set.go:Insert"]}
{"id": "C224", "title": "set: inserting what Range produces changes nothing", "statement": "A Range whose callback inserts the element it is given makes no more turns than the set had elements.", "quantifier": "For all element types, any ==, all sets.", "why_tests_cant": "a test fixes a handful of concrete inputs; the claim ranges over every size and content", "anchors": ["set/set.go:Range", "set/set.go:Insert"]}
{"id": "C225", "title": "rwmap: keys that cannot be hashed", "statement": "A call with a key that cannot be hashed panics before it takes the mutex. If the panics are recovered, the other calls, Len excepted, return what they could have returned without those calls, so they stay linearizable; the map holds the same pairs, the mutex is only held from inside other calls, and no goroutine is stuck.", "quantifier": "For all key and value types, all goroutines and schedules, any calls with and without such keys.", "why_tests_cant": "tests sample a few goroutine schedules; the claim ranges over every interleaving", "anchors": ["rwmap/rwmap.go:Load", "rwmap/rwmap.go:Swap", "rwmap/rwmap.go:LoadOrStore", "rwmap/rwmap.go:CompareAndDelete"]}
{"id": "C226", "title": "rwmap: Len after a call that panicked", "statement": "A Store, Swap or LoadOrStore that panics because its key cannot be hashed leaves Len as it was.", "quantifier": "For all states and all such calls.", "why_tests_cant": "a test fixes one finite call sequence; the claim ranges over every sequence of calls", "anchors": ["rwmap/rwmap.go:Len", "rwmap/rwmap.go:Swap", "rwmap/rwmap.go:LoadOrStore", "rwmap/rwmap.go:Clear"]}
{"id": "C227", "title": "rwmap: by how much Len is off after calls that panicked", "statement": "In an execution without Clear, whenever no call is under way, Len is the number of keys plus the number of Stores, Swaps and LoadOrStores that panicked because their key cannot be hashed.", "quantifier": "For all key and value types, all goroutines and schedules, any calls but Clear with and without such keys.", "why_tests_cant": "tests sample a few goroutine schedules; the claim ranges over every interleaving", "anchors": ["rwmap/rwmap.go:Len", "rwmap/rwmap.go:Swap", "rwmap/rwmap.go:LoadOrStore"]}
