{"id": "C01", "title": "GetItem returns the last vector added under that index", "statement": "After any sequence of accepted AddItem calls on a fresh index, GetItem(i) returns exactly the vector of the last AddItem with index i, whatever was added at other indices before or after and however often the backing memory was reallocated, as long as (maxIndex+1)*3/2*nodeSize fits the index type.", "quantifier": "every vector type, index width, vector length, allocation hint, and every finite AddItem history inside the capacity bound", "why_tests_cant": "depends on every interleaving of overwrites, gaps and reallocations; tests add a handful of items in order", "anchors": ["index/annoyindex.go:AddItem", "index/annoyindex.go:GetItem", "index/annoyindex.go:allocateSize", "index/memory/gc_index_build_allocator.go:Reallocate"]}
{"id": "C02", "title": "The capacity bound of C01 is real: beyond it AddItem silently overwrites other items", "statement": "Without the capacity bound C01 is false: there is an accepted AddItem at a large index, with no panic and no error, after which GetItem of a different, earlier item returns the new vector (the byte offset itemIndex*nodeSize wraps in the index type).", "quantifier": "existence of a history outside the capacity bound (counterexample for 32-bit indices)", "why_tests_cant": "a test would have to add an item at an index around 2^28; the failure is silent", "anchors": ["index/annoyindex.go:getNode", "distance/angular/distance.go:MapNodeToMemory", "index/annoyindex.go:allocateSize"]}
{"id": "C03", "title": "Unused slots read as the zero vector", "statement": "After any accepted AddItem history inside the capacity bound, GetItem of an index below the largest added one that was never added returns the all-zero-bytes vector: no residue of other items or of reallocations is visible.", "quantifier": "every AddItem history and every never-added index below the maximum", "why_tests_cant": "uninitialised-memory bugs show only under particular reallocation patterns", "anchors": ["index/annoyindex.go:AddItem", "index/annoyindex.go:allocateSize", "index/memory/gc_index_build_allocator.go:Reallocate"]}
{"id": "C04", "title": "AddItem rejects wrong lengths and loaded indexes, and nothing else", "statement": "Inside the capacity bound AddItem panics if and only if the index is loaded or the vector length differs from the index's vector length (compared in the index type); otherwise it succeeds. This holds for indexes whose node fits in 2^30 bytes; where a vector itself takes more than 2^30 bytes, every AddItem panics, because SetVector copies through an array of that size.", "quantifier": "every index state reachable by AddItem, every item index inside the bound and every vector", "why_tests_cant": "universal over states and lengths, including that no other panic or memory fault is possible", "anchors": ["index/annoyindex.go:AddItem"]}
{"id": "C05", "title": "Adding items after Build is not rejected and corrupts the forest", "statement": "A user relies on a built index staying intact. AddItem after Build is accepted without panic or error, and there is an index for which an item added after Build overwrites tree nodes so that a later exhaustive query no longer finds items it found before.", "quantifier": "existence of a history AddItem*, Build, AddItem, query", "why_tests_cant": "the existing tests never add after building; the corruption depends on node numbering", "anchors": ["index/annoyindex.go:AddItem", "index/annoyindex.go:Build", "index/annoyindex_search.go:GetNnsByVector"]}
{"id": "C06", "title": "Memory safety of a multi-worker Build", "statement": "While any number of workers build any number of trees under any schedule and with any random draws, no worker ever reads or writes outside the current node memory, dereferences nil, divides by zero, indexes a slice out of range or unlocks a mutex it does not hold, as long as node memory stays below the index type's address range.", "quantifier": "every interleaving of the workers' shared-memory and lock operations, every draw outcome, every index content", "why_tests_cant": "schedules and random draws cannot be enumerated by running; races fire rarely", "anchors": ["index/annoyindex.go:ThreadBuild", "index/annoyindex.go:makeTree", "index/annoyindex.go:allocateSize", "index/policy/index_policy_multi.go"]}
{"id": "C07", "title": "Build never alters the stored vectors", "statement": "GetItem(i) returns the same vector after Build as before it, for every item, both policies, every schedule and every random outcome.", "quantifier": "every item, every tree/worker count, every schedule", "why_tests_cant": "an overlapping write or a missed copy during reallocation would corrupt only some item under some schedule", "anchors": ["index/annoyindex.go:Build", "index/annoyindex.go:makeTree", "index/annoyindex.go:allocateSize", "distance/dotproduct/distance.go:PreProcess"]}
{"id": "C08", "title": "Every tree contains every item exactly once", "statement": "When the vector length in bytes-copied is at least the node header (vectorLength >= 3*sizeof(index)), after Build every root reaches, through split nodes and buckets, each added item exactly once and nothing else, for both policies and every schedule, if the index is larger than one bucket or has no holes. A small index with holes lists every added item too, but can list item 0 more than once.", "quantifier": "every set of items (holes included), every number of trees and workers, every schedule, every random outcome", "why_tests_cant": "a lost or duplicated item in one tree is masked by other trees in recall tests", "anchors": ["index/annoyindex.go:makeTree", "index/annoyindex.go:ThreadBuild", "utils/node.go:CopyNode"]}
{"id": "C09", "title": "For short vectors the trees lose items", "statement": "The length condition of C08 is real: for a vector length smaller than the node header there is an index with more items than fit in one bucket for which a query that inspects everything returns only some of the items, because split nodes are stored with CopyNode(.., vectorLength) which copies vectorLength bytes.", "quantifier": "existence (3-dimensional float32 vectors, 6 items)", "why_tests_cant": "the README example has 3-dimensional vectors but only 3 items, which fit in one bucket", "anchors": ["index/annoyindex.go:makeTree", "utils/node.go:CopyNode"]}
{"id": "C10", "title": "Build creates exactly the requested number of trees", "statement": "Build(T, _) with the single-worker policy and Build(T, W) with the multi-worker policy, T >= 0 and W >= 1, end with exactly T roots: the float division that spreads the trees over workers never loses or adds one and no worker's roots are lost in the concurrent append.", "quantifier": "every T and W below 2^52, every schedule", "why_tests_cant": "rounding of float64((T+w)/W) and lost updates can fail for particular T, W and schedules only", "anchors": ["index/policy/index_policy_multi.go:Build", "index/policy/index_policy_single.go:Build", "index/annoyindex.go:ThreadBuild"]}
{"id": "C11", "title": "Worker count 0 builds no tree at all, negative counts panic", "statement": "The API documents that numWorkers = 0 means one worker. With the multi-worker policy Build(T, 0) creates no tree whatever T is, so every query returns nothing; Build(T, W) with W < -1 panics.", "quantifier": "every T, every index", "why_tests_cant": "documented behaviour and code differ on a boundary value for all inputs", "anchors": ["index/policy/index_policy_multi.go:Build", "interfaces/index.go:AnnoyIndex.Build"]}
{"id": "C12", "title": "Automatic tree count reaches the documented size", "statement": "Build(-1, W) stops only once the forest has at least as many tree nodes as items, and at least one tree exists whenever there is at least one item and one worker.", "quantifier": "every index, every worker count, every schedule", "why_tests_cant": "the stop test reads a counter other workers change concurrently", "anchors": ["index/annoyindex.go:ThreadBuild", "index/policy/index_policy_multi.go:Build"]}
{"id": "C13", "title": "A second Build is rejected and changes nothing, even after Close", "statement": "Build panics on a loaded index and on a built index before touching anything. The built mark survives Close: after Build, Close, AddItem.. a new Build still panics, so an index object cannot be rebuilt.", "quantifier": "every index state", "why_tests_cant": "the rejection must hold in every reachable state and leave the index unchanged", "anchors": ["index/annoyindex.go:Build", "index/annoyindex.go:Close"]}
{"id": "C14", "title": "Per-worker seeding has no effect", "statement": "The comment in ThreadBuild promises a seed per worker. The trees a worker builds do not depend on its worker number: run alone from the same state, worker v and worker w build bit-identical memory and the same roots.", "quantifier": "every pair of worker numbers, every starting state", "why_tests_cant": "two runs with different worker numbers would have to be compared in all states", "anchors": ["index/annoyindex.go:ThreadBuild", "index/annoyindex.go:makeTree"]}
{"id": "C15", "title": "The stored split hyperplane can differ from the one items were partitioned by", "statement": "Queries rely on the split node's margin to find the side an item was put on. There is an index in which a stored split node evaluates an item's margin to a different side than the one the item is stored in, because only vectorLength bytes of the node are stored.", "quantifier": "existence", "why_tests_cant": "recall tests tolerate this; only a comparison of stored and used planes shows it", "anchors": ["index/annoyindex.go:makeTree", "utils/node.go:CopyNode", "distance/angular/distance.go:Margin"]}
{"id": "C17", "title": "A multi-worker Build cannot deadlock", "statement": "In every state reachable by any schedule of any number of workers, if some worker has not finished then some worker can take a step.", "quantifier": "every reachable state of every schedule", "why_tests_cant": "deadlocks depend on rare schedules (writer preference of RWMutex, nested nNodes/nodes locks)", "anchors": ["index/policy/index_policy_multi.go", "index/annoyindex.go:makeTree", "index/annoyindex.go:allocateSize"]}
{"id": "C18", "title": "No data race on node memory or node bookkeeping", "statement": "In every reachable state of a multi-worker Build no two workers are about to perform conflicting unsynchronised accesses to node memory, the node pointer, the node count, the capacity or the root list.", "quantifier": "every reachable state, every pair of workers", "why_tests_cant": "the race detector only sees executed schedules", "anchors": ["index/annoyindex.go:makeTree", "index/annoyindex.go:allocateSize", "index/annoyindex.go:ThreadBuild"]}
{"id": "C19", "title": "The shared random generator is raced on", "statement": "Workers draw random numbers from one shared generator with no mutual exclusion: there is a reachable state in which two workers are both about to draw.", "quantifier": "existence of a schedule", "why_tests_cant": "needs a particular schedule", "anchors": ["index/annoyindex.go:makeTree", "random/kiss32random.go:Next"]}
{"id": "C20", "title": "No two workers ever use the same node number", "statement": "Each node number above the items is claimed by at most one worker, once, under every schedule, and only its claimant writes to it during the build. In a built index no node above the items belongs to two trees.", "quantifier": "every schedule, every pair of claims", "why_tests_cant": "a lost increment happens only in particular interleavings", "anchors": ["index/annoyindex.go:makeTree"]}
{"id": "C22", "title": "Splitting always makes progress", "statement": "Every split that makeTree accepts has two non-empty sides, so recursion depth is below the number of items, and from any state some sequence of random sides ends the randomising loop.", "quantifier": "all side sizes below 2^52 in exact IEEE double arithmetic", "why_tests_cant": "the acceptance test is a float computation on sizes up to 2^52", "anchors": ["index/annoyindex.go:splitImbalance", "index/annoyindex.go:makeTree"]}
{"id": "C24", "title": "Query results are distinct, valid, sorted items", "statement": "Whenever a query returns, the ids are pairwise distinct, each is an added item, ids and distances have equal length at most numReturn, and results are ordered by distance (ties by id).", "quantifier": "every index built, every query vector, numReturn, inspect count and context", "why_tests_cant": "quantifies over all indexes, vectors and parameters", "anchors": ["index/annoyindex_search.go:GetNnsByVector", "sort/partial_sort.go:PartialSortSlice"]}
{"id": "C25", "title": "Returned distances belong to the returned ids", "statement": "The k-th returned distance is the normalised distance between the query vector and the stored vector of the k-th returned id.", "quantifier": "every query on every index", "why_tests_cant": "an off-by-one between the two result arrays or a stale context entry shows only for some inputs", "anchors": ["index/annoyindex_search.go:GetNnsByVector"]}
{"id": "C26", "title": "Nothing inspected and closer is left out", "statement": "The result is the exact top-numReturn of the inspected candidates: every inspected item that is not returned is not closer than any returned one, and exactly min(numReturn, number of distinct inspected items) are returned.", "quantifier": "every query on every index with comparable (non-NaN) distances", "why_tests_cant": "all candidate sets and sizes, including the size thresholds at which the sorting algorithm changes", "anchors": ["index/annoyindex_search.go:GetNnsByVector", "sort/partial_sort.go:PartialSortSlice"]}
{"id": "C27", "title": "Exhaustive inspection gives exact nearest neighbours", "statement": "If the inspect count is at least the total size of the forest, the query returns the exact k nearest items over all added items.", "quantifier": "every index satisfying C08, every query", "why_tests_cant": "ties the whole pipeline together for all inputs", "anchors": ["index/annoyindex_search.go:GetNnsByVector", "index/annoyindex.go:makeTree"]}
{"id": "C28", "title": "A query inspects at least as many candidates as asked for", "statement": "A query stops only when at least numNodesToInspect candidates were collected or every tree is exhausted. It stops at the first leaf that gives it enough: fewer than numNodesToInspect plus the capacity of a leaf are returned.", "quantifier": "every query", "why_tests_cant": "all trees and parameters", "anchors": ["index/annoyindex_search.go:GetNnsByVector"]}
{"id": "C29", "title": "-1 means numReturn times the number of trees", "statement": "GetNnsByVector(v, n, -1) equals GetNnsByVector(v, n, n*trees) for every index, vector and n except where n*trees is itself -1.", "quantifier": "every index, vector, numReturn", "why_tests_cant": "universal", "anchors": ["index/annoyindex_search.go:GetNnsByVector"]}
{"id": "C30", "title": "A context can be reused", "statement": "The result of a query depends on the context only through its size: whatever earlier queries left in it, results are the same as with a fresh context, and the context keeps its size (contexts shorter than 2^bits of the index type). The size only decides whether the query has room: with any context with which it returns the answer is the same, and with every larger one it returns.", "quantifier": "every context content, every query", "why_tests_cant": "all histories of earlier queries", "anchors": ["index/annoyindex_search.go:GetNnsByVector", "index/annoyindex_search.go:CreateContext"]}
{"id": "C31", "title": "When a query on its own context cannot run out of room, and when it can", "statement": "A query never panics when numNodesToInspect + maxDescendants - 1 does not exceed the context size; without this bound there is an index and a query with a fresh context of that index that panics with index out of range. The context a built index creates has room for all but one of the added items and, if any was added, for at least one entry; so a query with it never panics if numNodesToInspect + maxDescendants does not exceed the number of added items.", "quantifier": "every index and query inside the bound; existence outside it", "why_tests_cant": "the overflow needs many trees with single-item leaves", "anchors": ["index/annoyindex_search.go:GetNnsByVector", "index/annoyindex.go:Build"]}
{"id": "C32", "title": "Queries do not explore the most promising side first", "statement": "A user relies on the search visiting the query's own side of a hyperplane first. The priority queue is a min-heap, so it visits the other side first: there is an index with a query for a stored item, inspecting the documented default number of nodes, that does not return the item itself although it is at distance 0.", "quantifier": "existence", "why_tests_cant": "recall tests hide it", "anchors": ["index/annoyindex_search.go:GetNnsByVector", "sort/priority_queue.go"]}
{"id": "C33", "title": "Query vector length is not checked", "statement": "A query vector of the index's length never causes an out-of-bounds access; a longer vector overruns a heap buffer in every query, and a shorter one is read past its end whenever a split node is visited. Neither is rejected.", "quantifier": "every query vector; existence for the short case", "why_tests_cant": "memory faults are undefined behaviour, not test failures", "anchors": ["index/annoyindex_search.go:GetNnsByVector", "distance/angular/distance.go:Margin"]}
{"id": "C34", "title": "GetNnsByItem is GetNnsByVector of the stored vector", "statement": "For every item index in range GetNnsByItem(i, ..) returns what GetNnsByVector(GetItem(i), ..) returns.", "quantifier": "every index and item", "why_tests_cant": "universal", "anchors": ["index/annoyindex_search.go:GetNnsByItem"]}
{"id": "C35", "title": "Degenerate queries return empty results", "statement": "An inspect count <= 0 (other than -1), numReturn <= 0 with inspect count -1, or an index without trees gives an empty result and no panic. numReturn <= 0 with a positive inspect count gives an empty result whenever the query returns (the context can still overflow as in C31).", "quantifier": "every index, vector of correct length and context", "why_tests_cant": "universal", "anchors": ["index/annoyindex_search.go:GetNnsByVector"]}
{"id": "C36", "title": "GetDistance is symmetric", "statement": "For items with finite coordinates GetDistance(i,j) and GetDistance(j,i) are the same float, bit for bit.", "quantifier": "every pair of finite float32/float64 vectors of every length", "why_tests_cant": "IEEE rounding over all vectors", "anchors": ["index/annoyindex_search.go:GetDistance", "distance/angular/distance.go:Distance", "vector/dot.go"]}
{"id": "C37", "title": "GetDistance(i,i) is not always 0", "statement": "Users rely on an item being at distance 0 from itself. There are finite float32 vectors for which the angular GetDistance(i,i) is NaN, and others for which it is sqrt 2.", "quantifier": "existence", "why_tests_cant": "needs particular rounding / underflow", "anchors": ["distance/angular/distance.go:NormalizedDistance", "distance/angular/distance.go:Distance"]}
{"id": "C38", "title": "The dot-product index does not report inner products", "statement": "With the dot-product distance, GetDistance is not the inner product: it is invariant to the length of the vectors. There are vectors with inner product 2 for which it reports zero.", "quantifier": "existence", "why_tests_cant": "no dot-product test in the repository", "anchors": ["distance/dotproduct/distance.go:Distance", "distance/dotproduct/distance.go:NormalizedDistance"]}
{"id": "C39", "title": "The priority queue is a correct min-queue", "statement": "After any sequence of pushes and pops the queue holds exactly the multiset of pushed-and-not-popped elements, and Top/Pop yield an element no other is less than.", "quantifier": "every operation sequence over every strict weak order", "why_tests_cant": "all histories", "anchors": ["sort/priority_queue.go", "interfaces/sorter.go"]}
{"id": "C40", "title": "PartialSortSlice puts the smallest elements first, sorted", "statement": "PartialSortSlice(s, b, m, e) permutes s so that s[b:m] holds the m-b smallest of s[b:e] in order; positions outside [b,e) are unchanged except when 20 < e-b < 5000000, where the whole slice is sorted (then the claim holds for b = 0, e = len and fails in general).", "quantifier": "every slice, every 0 <= b < m <= e <= len, every strict weak order", "why_tests_cant": "three algorithms selected by size", "anchors": ["sort/partial_sort.go:PartialSortSlice"]}
{"id": "C41", "title": "PartialSortSlice2 puts the smallest elements first, sorted", "statement": "Same as C40 for PartialSortSlice2: s[b:m] holds the m-b smallest of s[b:e] in order, the rest is a permutation, positions outside [b,e) unchanged (whole slice sorted when len <= m-b).", "quantifier": "every slice and bounds", "why_tests_cant": "heap algorithm over all inputs", "anchors": ["sort/partial_sort.go:PartialSortSlice2"]}
{"id": "C42", "title": "SortPairs2 sorts", "statement": "SortPairs2 returns a sorted permutation of its input.", "quantifier": "every slice, every strict weak order", "why_tests_cant": "heap sort over all inputs", "anchors": ["sort/sort.go:SortPairs2"]}
{"id": "C43", "title": "Intersection computes the sorted multiset intersection and sorts its arguments in place", "statement": "Intersection(a, b) returns the sorted multiset intersection of a and b, and leaves both argument slices sorted (not unchanged).", "quantifier": "every pair of slices", "why_tests_cant": "all inputs", "anchors": ["utils/math.go:Intersection"]}
{"id": "C44", "title": "Random generators: range, reproducibility and reset", "statement": "NextIndex(n) is below n for n > 0 and panics for n = 0; every draw fits the index type; the draws are a function of the seed; CloneAndReset restarts the sequence of a generator made by the constructor from its beginning after any number of draws; the xorshift component never becomes 0.", "quantifier": "every seed, every number of draws, both widths", "why_tests_cant": "unbounded draw sequences", "anchors": ["random/kiss32random.go", "random/kiss64random.go"]}
{"id": "C45", "title": "SetSeed(0) followed by CloneAndReset gives a different sequence", "statement": "CloneAndReset is documented to return a clone reset to the original seed. After SetSeed(0) the clone does not reproduce the generator's own sequence. The constructors never start from 0: they use a fixed seed instead (123456789, or 1234567890987654321 with 64 bits), and it is from this one that a clone starts after SetSeed(0). With every other seed, SetSeed on a new generator gives the generator that the constructor makes for that seed, GetSeed returns the seed, and clones start from it.", "quantifier": "existence; every seed but 0, every generator state", "why_tests_cant": "boundary seed", "anchors": ["random/kiss32random.go:SetSeed", "random/kiss32random.go:CloneAndReset", "random/kiss64random.go:SetSeed", "random/kiss64random.go:NewKiss64Random"]}
{"id": "C46", "title": "Saving an unbuilt index is an error and touches no file", "statement": "Save on an index that was not built returns an error and leaves the file system and the index unchanged.", "quantifier": "every index state, file name", "why_tests_cant": "universal", "anchors": ["index/annoyindex_io.go:Save"]}
{"id": "C47", "title": "Save then Load preserves items and forest", "statement": "For a single-worker build of at least one tree over more item slots than fit a bucket, at least three of them added, with vectors of at least three index words of bytes: Save succeeds, touches no other file, and the index it leaves, as well as any index that later loads the file with either allocator, has the same item count, the same GetItem and GetDistance results, and the same trees (same items in the same order, in the same number of nodes) in reverse order.", "quantifier": "every such index, both file allocators", "why_tests_cant": "all indexes", "anchors": ["index/annoyindex_io.go:Save", "index/annoyindex_io.go:Load"]}
{"id": "C48", "title": "Exhaustive queries survive Save and Load", "statement": "For an index built by any number of workers, of at least one tree over more item slots than fit a bucket, an exhaustive query returns the same ids and distances before Save, after Save, and after any later Load of the file; they are the exact nearest neighbours.", "quantifier": "every such index and every query", "why_tests_cant": "all queries", "anchors": ["index/annoyindex_io.go:Save", "index/annoyindex_io.go:Load", "index/annoyindex_search.go:GetNnsByVector"]}
{"id": "C49", "title": "A saved one-item index cannot be loaded", "statement": "Build and Save of an index with a single item (one tree) make Load run its descending unsigned loop below zero and access memory outside the file.", "quantifier": "existence", "why_tests_cant": "boundary size; crash", "anchors": ["index/annoyindex_io.go:Load"]}
{"id": "C50", "title": "Small indexes lose items on reload", "statement": "For an index whose items fit one bucket, Save and Load can lose items: there is an index of 20 items built with one tree for which an exhaustive query returns all items before Save and fewer after Load.", "quantifier": "existence", "why_tests_cant": "tests use many trees or many items", "anchors": ["index/annoyindex_io.go:Load", "index/annoyindex.go:Build", "utils/node.go:CopyNode"]}
{"id": "C51", "title": "Load checks the file size but accepts truncated files", "statement": "Load returns an error when the size is not a multiple of the node size, for every file content; a file truncated at a node boundary is accepted without error although it is not what was saved.", "quantifier": "every file; existence for truncation", "why_tests_cant": "all files", "anchors": ["index/annoyindex_io.go:Load"]}
{"id": "C52", "title": "A failed Load leaves an empty closed index", "statement": "When Load returns an error the index has no items and no roots, queries return nothing, and it is not marked loaded.", "quantifier": "every error path, every prior state", "why_tests_cant": "all states and files", "anchors": ["index/annoyindex_io.go:Load", "index/annoyindex.go:Close"]}
{"id": "C53", "title": "Saving a memory-mapped index to its own file destroys it", "statement": "An index that was loaded with the mmap allocator and is saved under the same file name loses all data: Save truncates the file before reading from the mapping.", "quantifier": "every loaded mmap index", "why_tests_cant": "interaction of truncation and mapping", "anchors": ["index/annoyindex_io.go:Save", "index/memory/index_allocator_mmap.go"]}
{"id": "C54", "title": "Save is not atomic", "statement": "A crash during Save can leave the target file with any prefix of the new content, the old content being lost; only prefixes whose length is not a multiple of the node size are rejected by Load.", "quantifier": "every crash point", "why_tests_cant": "crash points cannot be enumerated by tests", "anchors": ["index/annoyindex_io.go:Save", "index/annoyindex_io.go:Load"]}
{"id": "C55", "title": "Close empties the index and is idempotent", "statement": "After Close the index has no items, nodes, roots or file memory; a second Close changes nothing; items added after Close read back as in C01 with no residue of earlier content.", "quantifier": "every state", "why_tests_cant": "all states", "anchors": ["index/annoyindex.go:Close"]}
{"id": "C56", "title": "Closing one handle removes another handle's registration", "statement": "The file allocators' Get finds the most recently opened, not closed handle of a file as long as handles of a file are not open twice; with two handles on one file, closing the first makes Get fail for the second that is still open.", "quantifier": "every sequence of opens and closes; existence for the second part", "why_tests_cant": "histories", "anchors": ["index/memory/index_allocator_mmap.go", "index/memory/index_allocator_gcmem.go"]}
{"id": "C57", "title": "Reallocate preserves contents and zero-fills", "statement": "Reallocate returns memory of at least the requested size whose first bytes equal the old memory and whose additional bytes are zero; it never shrinks.", "quantifier": "every sequence of sizes", "why_tests_cant": "all sequences", "anchors": ["index/memory/gc_index_build_allocator.go:Reallocate"]}
{"id": "C58", "title": "Builder defaults", "statement": "With any sequence of builder calls, unset options default to the single-worker policy, the mmap allocator and (32-bit indexes) the fixed-seed generator; later calls override earlier ones. With 64-bit indexes the default generator is nil and Build, Load and Close of the index panic.", "quantifier": "every call sequence", "why_tests_cant": "all sequences", "anchors": ["builder/index.go"]}
{"id": "C59", "title": "A loaded index is read-only", "statement": "After a successful Load, AddItem and Build panic until Close.", "quantifier": "every file, index", "why_tests_cant": "all states", "anchors": ["index/annoyindex.go:AddItem", "index/annoyindex.go:Build", "index/annoyindex_io.go:Load"]}
{"id": "C60", "title": "Memory layout independence: the order of additions and the allocation hint do not matter", "statement": "Two indexes holding the same items give the same Build result (node contents, roots, query answers) with the single-worker policy, whatever allocation hint was given and in whatever order, or how many times, items were added.", "quantifier": "every pair of histories with equal final items", "why_tests_cant": "all pairs of histories", "anchors": ["index/annoyindex.go:New", "index/annoyindex.go:AddItem", "index/annoyindex.go:Build"]}
{"id": "C61", "title": "Reloading a multi-worker index may repeat trees but never loses one", "statement": "For an index of more item slots than fit a bucket built by any number of workers, every tree found by Load is one of the built trees and there are between T and 2T of them. The count can change: there is a schedule of two workers building one tree each after which Save leaves an index with three trees.", "quantifier": "every schedule; existence for the change", "why_tests_cant": "all interleavings", "anchors": ["index/annoyindex_io.go:Load", "index/annoyindex.go:ThreadBuild"]}
{"id": "C62", "title": "Mapping a file and reading it into memory give the same index", "statement": "Loading a non-empty file with the memory-mapping allocator and with the copying allocator has the same outcome, and as long as the file keeps its contents every GetItem, GetDistance and query on the two loaded indexes has the same outcome. They differ on an empty file (an error against a panic) and once the file is modified (only the mapped index sees it).", "quantifier": "every file content, every index loaded into, every later call; existence for the differences", "why_tests_cant": "all files and all queries", "anchors": ["index/annoyindex_io.go:Load", "index/memory/index_allocator_mmap.go:Open", "index/memory/index_allocator_gcmem.go:Open"]}
{"id": "C63", "title": "Indexes made by one builder", "statement": "Two indexes obtained by calling Build twice on one builder share their build memory and are not independent: adding an item to the second can overwrite an item of the first, and closing the first can lose items of the second. If the first has been closed, or has been loaded from a file, before the second is first used, the second keeps all its items and the first keeps showing what it showed.", "quantifier": "existence for the interference; every history of additions, every file for the safe use", "why_tests_cant": "interaction of two objects over all histories", "anchors": ["builder/index.go:Build", "index/memory/gc_index_build_allocator.go:Reallocate", "index/annoyindex.go:AddItem", "index/annoyindex.go:Close"]}
{"id": "C64", "title": "GoRandom does not use the seed it is created with", "statement": "The numbers drawn from a GoRandom do not depend on the seed given to NewGoRandomWithSeed, only on the time of creation. After SetSeed(s) they are a function of s, but GetSeed still returns the seed given at creation. A clone draws what a newly created generator draws, whatever was set before.", "quantifier": "every seed, clock value, number of draws, every behaviour of math/rand", "why_tests_cant": "independence over all seeds and all generators", "anchors": ["random/gorand.go:NewGoRandomWithSeed", "random/gorand.go:SetSeed", "random/gorand.go:CloneAndReset"]}
{"id": "C65", "title": "Negative tree counts other than -1 are accepted", "statement": "With the single-worker policy, Build with a tree count below -1 does exactly what Build with 0 trees does: the index is built and has no tree. With the multi-worker policy and nw workers, a count of -nw does exactly what -1 (automatic) does, and every count from -nw to -2 puts the first workers in automatic mode and gives the others no tree.", "quantifier": "every index, count, worker count up to 2^52, schedule", "why_tests_cant": "floating-point division over all counts; all schedules", "anchors": ["index/annoyindex.go:Build", "index/annoyindex.go:ThreadBuild", "index/policy/index_policy_multi.go:Build"]}
{"id": "C66", "title": "More inspection never makes an answer worse", "statement": "On a built index, a query asking for at least as many results and inspecting at least as many candidates as another query with the same vector returns at least as many results, its k-th result is at least as near as the k-th of the other, and it keeps every result of the other that is among the exact nearest. The contexts used may differ.", "quantifier": "every build (any policy, schedule, draws), finite query vector, pair of limits", "why_tests_cant": "all pairs of queries on all forests", "anchors": ["index/annoyindex_search.go:GetNnsByVector"]}
{"id": "C67", "title": "A shorter answer is the beginning of a longer one", "statement": "On a built index, two queries with the same vector and the same number of candidates to inspect, one asking for n1 and the other for n2 >= n1 results: the first answer (ids and distances) is the first n1 entries of the second.", "quantifier": "every build, finite query vector, n1 <= n2", "why_tests_cant": "all pairs of queries on all forests", "anchors": ["index/annoyindex_search.go:GetNnsByVector"]}
{"id": "C68", "title": "Load depends on the bytes of the file only", "statement": "Loading the same non-empty contents from any path, with either allocator, into any index object (new, filled, built or loaded before) has the same outcome; on success the items, distances, context sizes and query answers are the same as long as the files keep their contents.", "quantifier": "every file content, pair of paths, allocators, prior index states", "why_tests_cant": "all prior states and all files", "anchors": ["index/annoyindex_io.go:Load", "index/annoyindex.go:Close"]}
{"id": "C69", "title": "Saving a loaded index copies its file", "statement": "Saving an index that was loaded from a file (smaller than the index type's range) into a different file writes exactly the bytes of the original, changes no other file, and the index answers as before. With the copying allocator this also holds for the same file.", "quantifier": "every accepted file, target path, allocator", "why_tests_cant": "all files", "anchors": ["index/annoyindex_io.go:Save", "index/annoyindex_io.go:Load"]}
{"id": "C70", "title": "Load guarantees that queries on the loaded file end", "statement": "Every query on a file accepted by Load ends without reading outside the file. Does not hold: links are not checked. If the roots lie in a set of split nodes closed under children, no query with a positive limit ends; there is an accepted 40-byte file on which every query runs forever, and one on which a query reads outside the file.", "quantifier": "every index with cyclic links; existence of the files", "why_tests_cant": "non-termination", "anchors": ["index/annoyindex_io.go:Load", "index/annoyindex_search.go:GetNnsByVector"]}
{"id": "C71", "title": "One worker of the multi-worker policy is the single-worker policy", "statement": "Build with the multi-worker policy and one worker can end with an index exactly when Build with the single-worker policy ends with that same index, for every tree count and item set.", "quantifier": "every history of additions, tree count >= -1, seed", "why_tests_cant": "all builds", "anchors": ["index/policy/index_policy_multi.go:Build", "index/policy/index_policy_single.go:Build", "index/annoyindex.go:ThreadBuild"]}
{"id": "C72", "title": "The components of the KISS generators", "statement": "Every number drawn is the sum of a linear congruential, a xorshift and a multiply-with-carry component, as in the KISS generators the code names. Holds for Kiss64Random: x' + 2^64 c' = (2^58+1) x + c after every number of draws, except in the states with c = 2^58 and x mod 64 = 63, where 2^64 is lost. Does not hold for Kiss32Random, on any seed: 698769069 is added to z instead of multiplied with it, so z + c is an arithmetic progression modulo 2^32 - 1, the same for all seeds.", "quantifier": "every seed, every number of draws", "why_tests_cant": "all states of the generator", "anchors": ["random/kiss32random.go:Next", "random/kiss64random.go:Next"]}
{"id": "C73", "title": "The low bits of Kiss32Random depend on the low bits of the seed only", "statement": "Two non-zero seeds that agree modulo 2^k make Kiss32Random draw numbers that agree modulo 2^k for ever, hence the same NextIndex(2^k) sequence. NextSide has only two sequences: all odd seeds give one, all even non-zero seeds give its exact opposite.", "quantifier": "every pair of seeds, width, number of draws", "why_tests_cant": "all pairs of seeds, unbounded sequences", "anchors": ["random/kiss32random.go:Next", "random/kiss32random.go:NextSide", "random/kiss32random.go:NextIndex"]}
{"id": "C74", "title": "GetDistance is the distance of the vectors that were added", "statement": "After any history of additions, and after Build with any policy and schedule, GetDistance(i, j) of two added items is the distance computed from the vectors last added under i and j (dot products in the index's float type, root or negation at the end) and nothing else: not from what Build stored, the order of additions, or earlier vectors.", "quantifier": "every history of additions, build, pair of items", "why_tests_cant": "all histories, builds and schedules", "anchors": ["index/annoyindex_search.go:GetDistance", "index/annoyindex.go:AddItem", "distance/angular/distance.go:Distance", "distance/dotproduct/distance.go:Distance"]}
{"id": "C75", "title": "Distances are accurate", "statement": "For two vectors of n components, n <= 2^20, components at most 2^20 in size and lengths at least 2^-20, the reported angular distance squared is within (10n+75)u of 2 - 2 cos of their exact angle, or it is NaN and 2 - 2 cos is at most (10n+75)u. The negated dot-product distance is within (10n+75)u of it. u is 2^-24 for float32 and 2^-53 for float64.", "quantifier": "every float32 and float64 vector in that range, every length", "why_tests_cant": "all float vectors, comparison with exact real arithmetic", "anchors": ["index/annoyindex_search.go:GetDistance", "distance/angular/distance.go:Distance", "distance/dotproduct/distance.go:Distance"]}
{"id": "C76", "title": "An exhaustive query ranks by exact angle up to rounding", "statement": "If the number of candidates to inspect is at least trees times items and all vectors are in the range of C75, then in the answer of a query no item is nearer (in exact arithmetic, 2 - 2 cos of the angle to the query vector) than one before it by more than twice the rounding error (10n+75)u, no item outside the answer is nearer than one inside by more than that, and every distance given is accurate as in C75.", "quantifier": "every build (policy, schedule, draws), query vector in range", "why_tests_cant": "all builds and vectors, comparison with exact real arithmetic", "anchors": ["index/annoyindex_search.go:GetNnsByVector"]}
{"id": "C77", "title": "The distance of an item to itself is exactly zero", "statement": "For every vector in the range of C75 GetDistance(i, i) is exactly +0 (angular) or -0 (dot product), in both float types. (Outside that range it is not: C37.)", "quantifier": "every float32 and float64 vector in that range", "why_tests_cant": "all float vectors", "anchors": ["index/annoyindex_search.go:GetDistance", "distance/angular/distance.go:Distance"]}
{"id": "C78", "title": "Reported distances of ordinary vectors are numbers", "statement": "The reported angular distance of two finite vectors of ordinary size is a number, and a query for the vector of an item puts that item first. Does not hold: for the float32 vectors (2/3, 1) and (2, 3) the computed 2 - 2 cos is negative and its root NaN; a query for (2, 3) returns the item (2/3, 1) with distance NaN before the item (2, 3). NaN is only reported for vectors whose exact 2 - 2 cos is at most (10n+75)u.", "quantifier": "existence of the vectors; every pair of vectors in range for the bound", "why_tests_cant": "rounding errors over all float vectors", "anchors": ["index/annoyindex_search.go:GetDistance", "index/annoyindex_search.go:GetNnsByVector", "distance/angular/distance.go:NormalizedDistance"]}
{"id": "C79", "title": "Build makes the vectors of a dot product index equally long", "statement": "With the dot product distance Build stores an extra component with every item. Let m be the length of the longest added vector. For every added vector in the range of C75 the vector extended by that component has length m: the square of the component plus the squared length of the vector is within (4n+40)u of m^2, relative to m^2.", "quantifier": "every history of additions, build (policy, schedule, draws), item", "why_tests_cant": "all histories and builds, comparison with exact real arithmetic", "anchors": ["distance/dotproduct/distance.go:PreProcess", "index/annoyindex.go:Build"]}
{"id": "C80", "title": "The functions of package vector are accurate", "statement": "Dot, GetNorm, EuclideanDistance and ManhattanDistance panic when vectorLength exceeds the length of a slice. Otherwise, for at most 2^20 components of size at most 2^20: Dot is within (2n+2)u|a||b| + 2^-126 of the inner product; the square of GetNorm is within (2n+9)u, relative, of the squared length (for lengths of at least 2^-20); EuclideanDistance is within (3n+6)u, relative, plus 2^-126 of the square of the Euclidean distance (not the distance), is symmetric and zero for equal slices; ManhattanDistance is symmetric and has relative error at most (2n+2)u.", "quantifier": "every float32 and float64 vector in that range, every vectorLength", "why_tests_cant": "all float vectors, comparison with exact real arithmetic", "anchors": ["vector/dot.go:Dot", "vector/get_norm.go:GetNorm", "vector/euclidean_distance.go:EuclideanDistance", "vector/manhattan_distance.go:ManhattanDistance", "vector/abs.go:Abs"]}
{"id": "C81", "title": "Round gives the nearest integer", "statement": "utils.Round(f) is the integer nearest to f. Does not hold: Round(0.49999999999999994) is 1 and Round(2^52+1) is 2^52+2. For every finite f below 2^52 - 1 in size the result is an integer at most 1 away, and it is the nearest integer (the larger of two) whenever f + 0.5 is representable.", "quantifier": "existence of the numbers; every float64 below 2^52 - 1 for the bound", "why_tests_cant": "all float64 values", "anchors": ["utils/math.go:Round"]}
{"id": "C82", "title": "Trees divide the items by planes", "statement": "After Build (header of three index words within vectorLength bytes), every split node below every root belongs to a plane through the origin whose normal is the difference of two running means (of at most 201 terms each) of vectors of items below the node, each scaled to length 1, the difference scaled to length 1 in the float type: all added items listed below its left child do not lie on the positive side of the plane and all below its right child do not lie on the negative side (items exactly on it, or a NaN, aside); or its normal is the zero vector and the items were divided at random. The node keeps exactly those components of the normal that lie, header included, within the first vectorLength bytes; the others read as 0. The dot factor of a split node is 0.", "quantifier": "every history of additions, tree count, policy, schedule, random outcome, split node", "why_tests_cant": "all histories, schedules and random outcomes; unbounded depth", "anchors": ["index/annoyindex.go:makeTree", "distance/angular/distance.go:CreateSplit", "distance/angular/distance.go:Side", "distance/dotproduct/distance.go:CreateSplit", "distance/dotproduct/distance.go:Side", "distance/angular/distance.go:Normalize"]}
{"id": "C83", "title": "No split is nearly one-sided and no tree is deep", "statement": "After Build with at least two added items, no split node of any tree has more than 99.2 % of its items on one side, so the number of split nodes on the way from a root to any node is at most 87 log2(n) + 86 for n items.", "quantifier": "every history of additions, tree count, policy, schedule, random outcome, path", "why_tests_cant": "all histories, schedules and random outcomes; unbounded depth", "anchors": ["index/annoyindex.go:makeTree", "index/annoyindex.go:splitImbalance"]}
{"id": "C84", "title": "Queries look at the forest in a fixed order", "statement": "A query keeps a bag of nodes with priorities, at first all roots with +infinity. It always takes the node with the least (priority, node number). If the node lists items they are noted and counted against the number of entries to inspect; if it is a split node its right child gets the lesser of the node's priority and the side value (inner product of query and stored plane), its left child the lesser of the priority and the negated side value. The query stops when the count is used up or no node is left, and answers with the nearest of the noted items. These rules determine which entries are noted and in what order. Hypothesis: no side value is NaN.", "quantifier": "every index state, forest, query vector, result count, inspect count", "why_tests_cant": "all forests and queries; unbounded number of steps", "anchors": ["index/annoyindex_search.go:GetNnsByVector", "distance/angular/distance.go:PQDistance", "distance/dotproduct/distance.go:PQDistance", "sort/priority_queue.go:Pop", "sort/priority_queue.go:Push"]}
{"id": "C85", "title": "Additional trees do not add candidates", "statement": "A query inspects every tree of the forest. Does not hold: if the tree with the least root number lists at least as many entries as the query inspects, and the side values are finite, the query looks at that tree only: its answer is an answer of the search of that tree alone, whatever the other trees are. (Roots wait with +infinity, which comes last.)", "quantifier": "every index state, forest, query vector, result count, inspect count", "why_tests_cant": "all forests and queries; unbounded number of steps", "anchors": ["index/annoyindex_search.go:GetNnsByVector", "distance/angular/distance.go:PQInitialValue", "distance/angular/distance.go:PQDistance"]}
{"id": "C86", "title": "Queries search the wrong side of a plane first", "statement": "A query looks at the items on its own side of a split plane before those on the other side. Does not hold: let the root with the least number be a split node and the query lie off its plane, with finite side values. If the child on the other side lists at least as many entries as the query inspects, every item returned is from that other side.", "quantifier": "every index state, forest, query vector, result count, inspect count", "why_tests_cant": "all forests and queries; unbounded number of steps", "anchors": ["index/annoyindex_search.go:GetNnsByVector", "distance/angular/distance.go:PQDistance", "sort/priority_queue.go:Pop"]}
{"id": "C87", "title": "Build stores planes of finite numbers", "statement": "If the added vectors have at most 2^20 components, all finite and at most 2^20 in size, then after Build (header of three index words within vectorLength bytes) every component of every plane stored in a split node is finite and at most 2 in size (also the one cut off in the middle), and the side value of every query vector of that range is finite, for float32 and float64. So queries on a built index never meet a NaN or infinite priority in a tree, and C84 to C86 hold for them without further assumption.", "quantifier": "every history of additions in range, tree count, policy, schedule, random outcome, split node, query vector", "why_tests_cant": "all histories, schedules, random outcomes and float vectors", "anchors": ["distance/two_means.go:TwoMeans", "distance/angular/distance.go:CreateSplit", "distance/dotproduct/distance.go:CreateSplit", "distance/angular/distance.go:Normalize", "distance/angular/distance.go:Margin", "index/annoyindex.go:makeTree", "utils/node.go:CopyNode"]}
{"id": "C88", "title": "Queries from several goroutines do not interfere", "statement": "Any number of goroutines may call GetNnsByVector, GetNnsByItem, GetDistance and GetItem on one index at the same time, each with a context of its own: however their accesses interleave, each call ends with the answer (or panic) it would have had alone, none ever waits, no two of them race, and every schedule ends. If two goroutines share a context this does not hold: a witness returns one goroutine the answer of the other.", "quantifier": "every index state, number and mixture of calls, contexts, interleaving of single accesses", "why_tests_cant": "all interleavings of all call mixtures", "anchors": ["index/annoyindex_search.go:GetNnsByVector", "index/annoyindex_search.go:GetNnsByItem", "index/annoyindex_search.go:GetDistance", "index/annoyindex_search.go:CreateContext", "index/annoyindex.go:GetItem", "interfaces/index.go"]}
{"id": "C89", "title": "The slice GetItem returns is a window into the index", "statement": "When GetItem returns, the elements are the item. After more AddItem calls the same slice shows the item as it was at the return of GetItem or after one of those additions, and the present item as long as the index still uses the same memory; it never shows anything else. Assigning to its elements right away changes that item and no other one; but, unlike AddItem of the same vector, it leaves the stored norm, so a later GetDistance can differ (witness).", "quantifier": "every history of additions within capacity, before and after GetItem, item, vector length, float type", "why_tests_cant": "unbounded histories; whether memory moves depends on the growth policy", "anchors": ["index/annoyindex.go:GetItem", "index/annoyindex.go:AddItem", "index/annoyindex.go:allocateSize", "distance/angular/node.go:GetVector", "index/memory/gc_index_build_allocator.go:Reallocate"]}
{"id": "C90", "title": "Inspecting as many entries as there are items gives the exact answer", "statement": "In a built index with at least one tree, for vectors of moderate size (at most 2^20 components of size at most 2^20) and distances that are numbers, a query whose numNodesToInspect is at least the number of items returns the exact nearest neighbours: a single tree is gone through completely. So the answer does not depend on the number of trees, workers, schedule, seed or context: two indexes with the same items answer alike. If there are more items than fit one leaf, the number of added items is enough, however many indices below the highest are unused. This is what the ground truth in cmd/precision rests on.", "quantifier": "every history of additions in range, tree count, policy, schedule, random outcome, query vector, result count, inspect count >= items", "why_tests_cant": "all histories, schedules, random outcomes and queries", "anchors": ["index/annoyindex_search.go:GetNnsByVector", "cmd/precision/main.go", "distance/angular/distance.go:PQDistance"]}
{"id": "C91", "title": "ContainsFirst and ContainsSecond find exactly the pairs that are there", "statement": "ContainsSecond(v) is true iff a pair with that second is in the slice. ContainsFirst(v) is true iff a pair is in the slice whose first equals v as a float; a value taken from the slice is found unless it is NaN, and NaN is never found.", "quantifier": "every slice of pairs and value, both float types", "why_tests_cant": "all slices and float values", "anchors": ["interfaces/sorter.go:ContainsFirst", "interfaces/sorter.go:ContainsSecond"]}
{"id": "C92", "title": "Save and Load change no answer", "statement": "An index built by one worker (more items than fit a bucket, at least three of them added, at least one tree, header of three index words within vectorLength bytes) answers every query, not only exhaustive ones, with the same ids and distances before Save, after Save and after any later Load of the file with either memory allocator, for vectors of moderate size (or whenever the side values are finite). The same holds for GetNnsByItem of every added item, for vectors of moderate size. With several workers this does not hold: a witness with two workers answers the same query differently after Save.", "quantifier": "every history of additions, tree count, policy, random outcome, allocator, file, query vector, result count, inspect count, context with room", "why_tests_cant": "all histories, random outcomes and queries; the loader finds the roots again by a scan, in another order and as copies", "anchors": ["index/annoyindex_io.go:Save", "index/annoyindex_io.go:Load", "index/annoyindex.go:Build", "index/annoyindex_search.go:GetNnsByVector", "index/annoyindex_search.go:GetNnsByItem", "utils/node.go:CopyNode"]}
{"id": "C93", "title": "The contexts an index creates are large enough", "statement": "Let all indices fit one leaf, or more items have been added than do. In a built index whose leaves have room for at least 125 items (float32 vectors of 123 or more components) no query with a context from CreateContext runs out of room, whatever numNodesToInspect is. For shorter vectors of moderate size none that inspects at most as many entries as items were added does; so inspecting exactly that many returns the exact nearest neighbours. (With unused indices between few items the context can be too small: C31.)", "quantifier": "every history of additions in range, tree count, policy, schedule, random outcome, query vector, result count", "why_tests_cant": "all histories, schedules, random outcomes and queries; the size is a sum over the nodes of all trees", "anchors": ["index/annoyindex_search.go:GetNnsByVector", "index/annoyindex_search.go:CreateContext", "index/annoyindex.go:Build"]}
{"id": "C94", "title": "After Save and Load, inspecting as many entries as items gives the exact answer", "statement": "Take an index built by any number of workers from vectors of moderate size, with more indices than fit one leaf and at least one tree. After Save, or after Save and a Load of the file with either allocator, a query that inspects at least as many entries as items were added returns the exact nearest neighbours, even where Load finds the trees in another order or one of them twice. If more items were added than fit one leaf, a query inspecting exactly that many on a context of the loaded index does return.", "quantifier": "every history of additions, tree count, policy, schedule, random outcome, file, allocator, query vector, result count", "why_tests_cant": "all histories, schedules, random outcomes and queries; which roots Load finds depends on the bytes of the file", "anchors": ["index/annoyindex_io.go:Save", "index/annoyindex_io.go:Load", "index/annoyindex_search.go:GetNnsByVector"]}
{"id": "C95", "title": "cmd/precision prints the mean fraction of true neighbours found", "statement": "On a saved or loaded index of the items 0..numItems-1 (more than fit one leaf; vectors of moderate size and length) every precision that cmd/precision prints is a number from 0 to 1, and within (n+3)/2^52 of the mean over its n rounds of the fraction of the true numReturn nearest neighbours that the query with that limit finds. The limits are the powers of ten up to numItems, and 500 if numItems is at least 100; round i asks for the item given by the i-th number of the Kiss32 generator. For a limit of at least numReturn with limit * trees >= numItems it is exactly 1, whatever the trees look like. For a limit below numReturn it is, up to the same error, at most limit/numReturn, however good the index. Its comparison of the stored vectors with the added ones succeeds exactly if every stored vector equals the added one and no component is NaN: one NaN makes it report a mismatch although nothing was lost.", "quantifier": "every history of additions, tree count, policy, schedule, random outcome, number of rounds and result count up to 2^53", "why_tests_cant": "all histories, schedules and random outcomes; all roundings of the sums", "anchors": ["cmd/precision/main.go", "utils/math.go:Intersection", "index/annoyindex_search.go:GetNnsByItem", "index/annoyindex_io.go:Save"]}
{"id": "C96", "title": "A query looks at few nodes, however many trees there are", "statement": "After Build with at least two added items (vectors of moderate size and length), a query that inspects L entries looks at no more than 2L + 87(log2(n) + 1) nodes for n items, whatever the number of trees, and its loop takes that many rounds. On a context of the index's own every query over at most as many entries as items were added returns within that bound. The same bound holds after Save and Load of an index of more items than fit one leaf.", "quantifier": "every history of additions, tree count, policy, schedule, random outcome, query vector, result count, inspect count, context", "why_tests_cant": "a bound on the worst case over all forests and queries; a benchmark sees single runs", "anchors": ["index/annoyindex_search.go:GetNnsByVector", "sort/priority_queue.go", "index/annoyindex.go:makeTree"]}
{"id": "C97", "title": "Angular distances behave like a metric", "statement": "For vectors in the range of C75 the angular distances that GetDistance and queries report, with NaN counted as 0, lie between 0 and 2, obey the triangle inequality d(x,z) <= d(x,y) + d(y,z), and do not change when a vector is multiplied by a positive number; each up to a small multiple of sqrt((10n+75)u) for n components and unit roundoff u. In a built angular index this holds for GetDistance between any three added items.", "quantifier": "all float32 and float64 vectors in range; every history of additions, tree count, policy, schedule, random outcome, items", "why_tests_cant": "all float vectors, comparison with exact real arithmetic", "anchors": ["index/annoyindex_search.go:GetDistance", "distance/angular/distance.go:Distance", "distance/angular/distance.go:NormalizedDistance"]}
{"id": "C98", "title": "The size of an index is linear in items times trees", "statement": "Build with T >= 0 trees over indices 0..n-1 leaves at least n + 2T and at most n + T(max(1,n)+1) nodes, whatever the number of workers and their schedule; with the automatic tree count at least 2n and at most n + 4wn nodes for w workers. A Save that succeeds in writing produces a file of exactly that many nodes.", "quantifier": "every history of additions, tree count, worker count, policy, schedule, random outcome", "why_tests_cant": "how many nodes a tree takes depends on random outcomes and schedules; unbounded item counts", "anchors": ["index/annoyindex.go:Build", "index/annoyindex.go:ThreadBuild", "index/annoyindex.go:makeTree", "index/annoyindex_io.go:Save"]}
{"id": "C99", "title": "The contexts of a saved or loaded index are large enough", "statement": "Take a built index with leaves for at least 125 items and more added items than that. After Save, and after any Load of the file with either allocator, if the index still has as many trees as were built (always so with one worker), no query on a context of its own runs out of room, whatever numNodesToInspect is, and cmd/precision reports its figures. With several workers this does not hold: Load can find one tree more, for which the context has no room; witnesses: a query for all items that returned before Save panics after it, and cmd/precision panics.", "quantifier": "every history of additions, tree count, policy, schedule, random outcome, file, allocator, query vector, result count, inspect count", "why_tests_cant": "all histories, schedules, random outcomes and queries; the number of trees that Load finds depends on the bytes of the file", "anchors": ["index/annoyindex_io.go:Save", "index/annoyindex_io.go:Load", "index/annoyindex_search.go:CreateContext", "index/annoyindex_search.go:GetNnsByVector", "cmd/precision/main.go"]}
{"id": "C100", "title": "No node of an index is wasted, and contexts have a known size", "statement": "After Build every node is an item, belongs to exactly one tree (is reached from exactly one root), or is one of the copies of the roots at the end, which agree with the roots in their first vectorLength bytes. A context therefore has a known size: with T trees over m added items, more than fit a leaf, at most (T+1)*m - 1 entries, and exactly that if leaves may have 125 items; with n item numbers that do fit a leaf, m + 2*T*n - 1. Consequence (a defect): whenever Save or Load finds more trees in the file than were built, every query on a context of the index that should inspect (T+1)*m entries fails, in particular every query for at least m neighbours with the default number to inspect.", "quantifier": "every history of additions, tree count, policy, schedule, random outcome, file, allocator, query vector and result count", "why_tests_cant": "all histories, schedules and random outcomes; that no node is left over, or reached twice, is not visible in any answer", "anchors": ["index/annoyindex.go:Build", "index/annoyindex.go:makeTree", "index/annoyindex.go:threadBuild", "index/annoyindex_search.go:CreateContext", "index/annoyindex_io.go:Load"]}
{"id": "C101", "title": "An item finds itself in an exhaustive query", "statement": "Take an index built by any number of workers from vectors in the range of C75, as built, saved or loaded, and GetNnsByItem(j, n) inspecting at least as many entries as items were added. The answer contains j, unless it consists of n other items that are all within rounding errors ((10d+75)u in 2-2cos for d components and unit roundoff u) of it. If n >= 1 and every other item is further away than that, j comes first, at distance exactly 0 (-0 for the dot product).", "quantifier": "every history of additions, tree count, policy, schedule, random outcome, file, allocator, item, result count", "why_tests_cant": "all histories, schedules and random outcomes; all roundings of the distances", "anchors": ["index/annoyindex_search.go:GetNnsByItem", "index/annoyindex_search.go:GetNnsByVector", "index/annoyindex_io.go:Load"]}
{"id": "C102", "title": "Items with equal vectors come in the order of their ids", "statement": "If two items were added with equal vectors (in the range of C75), then any exhaustive query whose answer has the one with the higher id has the other one before it, at the same distance; and GetNnsByItem gives the same answer for both, whatever is inspected. If all items have the same vector, the exhaustive query for n of any vector in range returns the n lowest ids in ascending order. This holds as built, and after Save and Load.", "quantifier": "every history of additions, tree count, policy, schedule, random outcome, file, allocator, query vector, result count", "why_tests_cant": "all histories, schedules and random outcomes; that ties never depend on the trees is not visible in single runs", "anchors": ["index/annoyindex_search.go:GetNnsByItem", "index/annoyindex_search.go:GetNnsByVector", "sort/partial_sort.go"]}
{"id": "C103", "title": "RoundPlus rounds to the given number of decimal places", "statement": "For places >= 0 and |f| * 10^places up to 2^49, utils.RoundPlus returns a finite number that is z / 10^places, correctly rounded, for an integer z within a half plus rounding errors of f * 10^places; the result is within half a unit of the last place kept, plus rounding errors, of f; and (up to 2^49-1) rounding the result again changes nothing. The power of ten is what math.Pow gives. Beyond the range this is lost: with 309 places or more every number becomes NaN, 0 included, and 10^300 at 10 places becomes +Inf.", "quantifier": "every finite float64 f and every finite float64 power between 1 and 2^100 with |f*power| below 2^49", "why_tests_cant": "all float64 values; comparison with exact real arithmetic", "anchors": ["utils/math.go:RoundPlus", "utils/math.go:Round"]}
{"id": "C104", "title": "The verbose listing shows the index as it is", "statement": "After Build (three indices fit into a vector) the listing that Save prints with verbose logging has one line for every node. The line of an added item shows the vector added last for it; an index never added is shown as an InternalNode without children. Every other node of a tree is shown as a SplitNode with the plane that queries use, or as an InternalNode with exactly the items of the leaf; only a leaf of one single item is shown like an item. This does not extend to the copies of the roots at the end: a copy of a root that lists items shows zeros for those beyond vectorLength bytes (witness).", "quantifier": "every history of additions, tree count, policy, schedule, random outcome, node", "why_tests_cant": "all histories, schedules and random outcomes", "anchors": ["utils/dump.go:DumpNode", "index/annoyindex_io.go:Save", "index/annoyindex.go:Build"]}
{"id": "C105", "title": "What a run of cmd/precision can show", "statement": "A run of cmd/precision over float32 vectors of length 12 to 2^20, of moderate size and length, with more items than fit one leaf and any number of trees: if it prints its figures, each is a number from 0 to 1 and, up to rounding, at most limit/10; for every limit of at least 10 with limit * trees >= numItems it is exactly 1, whatever the trees look like. If the number of items is a power of ten, it prints its figures only if Load found exactly the trees that were built. So the run without flags (1000 items, length 40, 80 trees) shows 1 for the limits 100, 500 and 1000 for every index that Build can produce, and about a tenth at most for the limit 1; only the figure for 10 says anything.", "quantifier": "every history of additions of the items, tree count, schedule, random outcome, number of rounds", "why_tests_cant": "all histories, schedules and random outcomes; that figures do not depend on the trees is not visible in single runs", "anchors": ["cmd/precision/main.go", "index/annoyindex_search.go:GetNnsByItem", "index/annoyindex_io.go:Save", "index/annoyindex_io.go:Load"]}
{"id": "C106", "title": "Small indexes are exact, as in the README", "statement": "If all item numbers of an index are below the number of items that fit one leaf, every GetNnsByVector that inspects anything (a positive numNodesToInspect, or -1 with a positive result count) gives exactly the nearest items, for vectors of any length, whatever Build did, unless a distance is NaN; and on a context of the index it always returns. After Save and after any Load of the file it still returns, and is still exact if there are two item numbers and two trees or more (with one tree items get lost, C50), although Load then finds twice as many trees or one less. So the example of README.md gives [2, 1, 0] with any number of processors up to 1024 and any schedule of the workers, and again after Save and Load, if the vector length is 3; with the length 1536 given there the first AddItem panics.", "quantifier": "every history of additions, vector length, tree count, policy, schedule, random outcome, file, allocator, query vector, result count, inspect count", "why_tests_cant": "all histories, schedules and random outcomes, every vector length; the README does not run as given", "anchors": ["README.md", "index/annoyindex_search.go:GetNnsByVector", "index/annoyindex_search.go:CreateContext", "index/annoyindex.go:makeTree", "index/annoyindex_io.go:Save", "index/annoyindex_io.go:Load"]}
{"id": "C107", "title": "Item numbers are not checked", "statement": "GetItem, GetDistance and GetNnsByItem do not check that a number is that of an item. After Build every number below the number of nodes passes for an item: GetItem returns a vector (made of the plane or the item list of an inner node), GetDistance a distance and GetNnsByItem neighbours, without a panic. Numbers also repeat: adding 2^32/4 (float32, uint32 indices; in general the range of the index type divided by the size of a component) to a number gives the same item. In a loaded index exactly the numbers below the number of nodes in the file can be read; the next ones (up to where the offset wraps) are read from memory outside the index.", "quantifier": "every index, number, history of additions, tree count, policy, schedule, random outcome, file and allocator", "why_tests_cant": "all numbers; reads outside the index need not be noticed", "anchors": ["index/annoyindex.go:GetItem", "index/annoyindex_search.go:GetDistance", "index/annoyindex_search.go:GetNnsByItem", "distance/angular/distance.go:MapNodeToMemory"]}
{"id": "C108", "title": "Some indexes cannot be saved", "statement": "Load stops looking for roots only at a node with another number of descendants, so a file whose nodes all have the same number makes it read before the beginning of the file (the loop counter is unsigned). Therefore Save, which ends with Load, always crashes for an index of exactly one item, for every vector length, tree count, policy and allocator (C49 is an instance), and for an index of two or more items without gaps that was built with 0 trees or, with the multi-worker policy, with 0 workers. The crash comes after the file has been written, and every later Load of the file crashes too.", "quantifier": "every vector and vector length, history of additions of item 0 only, tree count, policy, schedule, allocator; every history without gaps built with 0 trees or 0 workers; every file", "why_tests_cant": "all histories, schedules and tree counts; a crash ends the test run", "anchors": ["index/annoyindex_io.go:Save", "index/annoyindex_io.go:Load", "index/annoyindex.go:Build"]}
{"id": "C109", "title": "Powers of two in the lengths of vectors do not matter", "statement": "Distances are meant to depend on directions only. Multiplying the vectors of items (each by its own power of two) and the query by powers of two changes no result bit: GetDistance of any two items is the same float, and exhaustive queries return the same ids and the same distances, also when the two indexes were built separately with different tree counts and workers, and when they were saved and loaded. This holds for angular and for dot product indexes (whose reported distances are cosines too, see C38), for both float types, for vectors of at most 2^20 components that are 0 or between 2^-20 and 2^20 in size, with a length of at least 2^-20.", "quantifier": "every such history and query, every power of two that stays in that range, every tree count, policy and schedule", "why_tests_cant": "all float vectors and exponents; needs that no intermediate rounding differs", "anchors": ["index/annoyindex_search.go:GetDistance", "index/annoyindex_search.go:GetNnsByVector", "distance/angular/distance.go:Distance", "distance/dotproduct/distance.go:Distance"]}
{"id": "C110", "title": "What Load makes of any file of whole nodes", "statement": "The outcome of Load on any file of n >= 1 whole nodes (shorter than the range of the index type by at least one node) depends only on the descendant counts and first children in it, not on the allocator or on what the index held before. Take the run of nodes at the end of the file that have the same count as the last one. If the run is the whole file, Load reads outside the file; if it has two or more nodes and their count is 0, Load panics; every other file is accepted. Then the number of items is the count of the last node, the trees are the nodes of the run from the end on, without the first node of the run if it has two or more and this one has the same first child as the last node, and the room for query results is one less than the sum of 1 for each node below that number with count 1 and of the count of every other node whose count fits a leaf. So Load checks nothing else: neither that children exist, nor that the counts add up.", "quantifier": "every file contents, index type, vector length, allocator and previous state of the index", "why_tests_cant": "all file contents", "anchors": ["index/annoyindex_io.go:Load"]}
{"id": "C111", "title": "Mirrored and padded vectors have the same distances", "statement": "Change the sign of some coordinates in all vectors (the same ones everywhere), or insert zero coordinates at the same places everywhere, so that the vector length of the index grows. Then GetDistance of any two items is the same float as before, for all vectors, also with infinities and NaN; and for vectors in the range of C75 (up to 2^20 components after padding) exhaustive queries return the same ids and the same distances, also between indexes built separately with other trees and workers, and after Save and Load. An index of vectors that were padded with zeros, because they are too short for an index (C08, C09), gives the distances of the short vectors. Which NaN a result is, is not claimed.", "quantifier": "every history, query, choice of coordinates, tree count, policy, schedule, index type and float type", "why_tests_cant": "all float vectors; needs that no sum of products ever becomes -0", "anchors": ["index/annoyindex_search.go:GetDistance", "index/annoyindex_search.go:GetNnsByVector", "distance/angular/distance.go:Distance", "vector/dot.go"]}
