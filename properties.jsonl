{"id": "C01", "title": "Bit queries agree with their arithmetic meaning", "statement": "For every 32- and 64-bit value: is_pow2(v) is true exactly for 0 and the powers of two; bit_log2(v) is the integer floor of log2 for v>0; count_trailing_zeros / count_leading_zeros give the position of the lowest set bit / the distance of the highest set bit from the top (and the width for 0); ceil_pow2(v) is the least power of two >= v for 1 <= v <= 2^31 (2^63 for 64 bit); mod_pow2 / div_pow2_floor / div_pow2_ceil agree with mod / floor / ceiling division for every power-of-two divisor.", "quantifier": "all 32-bit and 64-bit unsigned values and all power-of-two divisors", "why_tests_cant": "2^64 inputs cannot be enumerated; the zero and top-bit boundary cases are where the shift-based code breaks", "anchors": ["src/clean-core/bits.hh: is_pow2, bit_log2, ceil_pow2, count_trailing_zeros, count_leading_zeros, mod_pow2, div_pow2_floor, div_pow2_ceil"]}
{"id": "C02", "title": "Single-bit manipulation changes exactly one bit", "statement": "set_bit / unset_bit / flip_bit on bit i of any unsigned value change bit i to 1 / 0 / its complement and leave every other bit unchanged, and has_bit reads exactly the bit these functions write; popcount counts the set bits.", "quantifier": "all unsigned values of each width and all in-range bit positions", "why_tests_cant": "quantifies over all values and positions", "anchors": ["src/clean-core/bits.hh: set_bit, unset_bit, flip_bit, has_bit, popcount"]}
{"id": "C03", "title": "Alignment helpers return the nearest aligned value", "statement": "For every power-of-two alignment a and value v: align_down(v,a) is the greatest multiple of a not above v; align_up(v,a) is the least multiple of a not below v whenever v+a-1 does not exceed the type; is_aligned(v,a) holds exactly for multiples; int_div_ceil and int_ceil_to_multiple agree with ceiling division / least upper multiple for every non-zero divisor when the sum does not wrap. When the sum wraps, align_up returns a value below v (so the no-wrap condition is exactly what callers must guarantee).", "quantifier": "all values, all power-of-two alignments, all divisors", "why_tests_cant": "boundary is at the top of the 64-bit range and depends on both arguments", "anchors": ["src/clean-core/utility.hh: align_up, align_down, align_up_masked, align_down_masked, is_aligned, int_div_ceil, int_ceil_to_multiple"]}
{"id": "C04", "title": "wrapped_increment / wrapped_decrement are inverse rotations of [0,max)", "statement": "For every max>0 and every pos<max, wrapped_increment(pos,max) and wrapped_decrement(pos,max) stay below max, are inverse to each other, and max increments return to the start.", "quantifier": "all max and pos", "why_tests_cant": "unbounded ranges", "anchors": ["src/clean-core/utility.hh: wrapped_increment, wrapped_decrement"]}
{"id": "C05", "title": "Base64 decoding inverts encoding", "statement": "For every byte sequence whose encoding is shorter than 2^31 characters, base64_decode(base64_encode(b)) returns exactly b.", "quantifier": "all byte sequences", "why_tests_cant": "the three length residues times all byte values cannot be enumerated", "anchors": ["src/clean-core/base64.cc: base64_encode, base64_decode"]}
{"id": "C06", "title": "Base64 encoding is RFC 4648", "statement": "For every byte sequence, base64_encode emits 4*ceil(n/3) characters: the 6-bit groups of the big-endian bit string (zero padded at the end) mapped through the standard alphabet, followed by 0, 1 or 2 equal signs.", "quantifier": "all byte sequences", "why_tests_cant": "conformance to the standard for all inputs; tests only sample vectors", "anchors": ["src/clean-core/base64.cc: base64_encode"]}
{"id": "C07", "title": "Base64 decoding is total and ignores everything from the first non-alphabet character", "statement": "For every character sequence (valid base64 or not) base64_decode terminates without indexing outside its input, its two small buffers or the alphabet; the result depends only on the longest prefix of alphabet characters, has floor(3k/4) bytes for a prefix of k characters, and equals the bytes of the concatenated 6-bit groups.", "quantifier": "all character sequences", "why_tests_cant": "malformed inputs of every shape", "anchors": ["src/clean-core/base64.cc: base64_decode"]}
{"id": "C08", "title": "SHA-1 digests conform to FIPS 180-4", "statement": "For every message of less than 2^61 bytes fed in any way, sha1_builder::finalize returns the 160-bit digest defined by FIPS 180-4 (padding, message schedule, 80 rounds).", "quantifier": "all messages and all contents", "why_tests_cant": "conformance for all lengths; the padding boundary cases (55,56,63,64 mod 64) and 64-bit length counter interplay are sparse", "anchors": ["src/clean-core/hash.sha1.cc: sha1_builder::add, sha1_builder::finalize, transform"]}
{"id": "C09", "title": "SHA-1 is independent of how the message is split over add() calls", "statement": "For every list of chunks, calling add on each chunk in order and then finalize yields the same digest as one add of the concatenation.", "quantifier": "all lists of byte chunks (all splits)", "why_tests_cant": "exponentially many splits of every message", "anchors": ["src/clean-core/hash.sha1.cc: sha1_builder::add"]}
{"id": "C10", "title": "sort returns the sorted permutation of its input and touches only the given range", "statement": "For every sequence, every range start/size inside it and every comparison that is a strict weak order, cc::sort terminates, all element accesses lie inside the given range, the range afterwards is a permutation of what it was, it is sorted (no later element is less than an earlier one), and the rest of the sequence is unchanged.", "quantifier": "all sequences of all lengths, all strict weak orders", "why_tests_cant": "all lengths and contents including the >128 ninther path and unguarded partition scans", "anchors": ["src/clean-core/sort.hh: sort, sort_ex, detail::sort_ex_impl, small_sort, partition_right"]}
{"id": "C11", "title": "quickselect puts the requested order statistic in place", "statement": "For every sequence and valid index k, after quickselect the element at k is the one a full sort would put there, nothing before k is greater, nothing after k is smaller, and the content is permuted only.", "quantifier": "all sequences, all k, all strict weak orders", "why_tests_cant": "all inputs", "anchors": ["src/clean-core/sort.hh: quickselect, quickselect_ex"]}
{"id": "C12", "title": "quickselect_range sorts exactly the requested rank window", "statement": "For every sequence and every window [idx, idx+count), quickselect_range leaves a permutation in which the elements at ranks in the window (clipped to the sequence) equal those of the fully sorted sequence.", "quantifier": "all sequences, all idx, all count (including count near SIZE_MAX)", "why_tests_cant": "windows near the top of the index type are never tested", "anchors": ["src/clean-core/sort.hh: quickselect_range, quickselect_range_ex, index_in_range, overlaps_range"]}
{"id": "C13", "title": "partition separates by the predicate", "statement": "For every sequence and predicate, partition returns the number of elements satisfying the predicate class it collects in front, the sequence is a permutation, and everything before (after) the returned position satisfies (does not satisfy) the predicate.", "quantifier": "all sequences and predicates", "why_tests_cant": "all inputs", "anchors": ["src/clean-core/sort.hh: partition, partition_ex"]}
{"id": "C14", "title": "is_sorted and is_strictly_sorted decide sortedness", "statement": "For every sequence and strict weak order, is_sorted returns true exactly when no later element is less than an earlier one; is_strictly_sorted exactly when every earlier element is less than every later one.", "quantifier": "all sequences", "why_tests_cant": "all inputs", "anchors": ["src/clean-core/sort.hh: is_sorted_ex, is_strictly_sorted_ex"]}
{"id": "C15", "title": "ringbuffer is a double-ended queue", "statement": "For every sequence of push_front/push_back/pop_front/pop_back/clear calls, copies and moves, size, empty, front, back and operator[] agree with an ideal unbounded deque, pops on an empty buffer are the only contract violations, and no element is lost or duplicated across growth and index wrap-around.", "quantifier": "all operation sequences of all lengths", "why_tests_cant": "wrap-around positions times growth points is unbounded", "anchors": ["src/clean-core/experimental/ringbuffer.hh: ringbuffer"]}
{"id": "C16", "title": "forward_list behaves as a sequence with front insertion", "statement": "For every history of emplace_front, pop_front, erase_after, clear, copy and move on a pool of lists, each list contents equal those of the ideal list, size counts its elements, every node is freed exactly once, and no freed node is accessed, except for copy- or move-assignment of a list to itself.", "quantifier": "all operation histories over any number of lists", "why_tests_cant": "unbounded histories and sharing patterns", "anchors": ["src/clean-core/forward_list.hh: forward_list"]}
{"id": "C17", "title": "Assigning a forward_list to itself keeps its contents", "statement": "For every list l, after l = l the contents of l are unchanged.", "quantifier": "all lists", "why_tests_cant": "aliasing of destination and source is a case tests omit", "anchors": ["src/clean-core/forward_list.hh: operator=(forward_list const&)"]}
{"id": "C18", "title": "set is a mathematical set under every operation history", "statement": "For every history of add, remove, clear, reserve(n>0) and copy, with any hash function and any equality that is an equivalence respected by the hash, contains/size/empty and the return values of add/remove agree with an ideal finite set.", "quantifier": "all operation histories, all hash functions consistent with equality", "why_tests_cant": "rehash points times collision patterns is unbounded", "anchors": ["src/clean-core/set.hh: set::add, remove, contains, clear, reserve, _reserve"]}
{"id": "C19", "title": "set iteration visits every element exactly once and equality is set equality", "statement": "For every reachable set, iteration terminates and yields each element exactly once; a == b is true exactly when they have the same elements, whatever their histories and capacities.", "quantifier": "all reachable sets", "why_tests_cant": "all bucket layouts", "anchors": ["src/clean-core/set.hh: iterator, operator=="]}
{"id": "C20", "title": "A moved-from set or map is a valid empty container", "statement": "After moving from a set or map (move construction or move assignment) the source reports size 0 and further lookups do not hit an assertion.", "quantifier": "all sets and maps", "why_tests_cant": "observing moved-from objects is never tested", "anchors": ["src/clean-core/set.hh: set(set&&)", "src/clean-core/map.hh: map(map&&)"]}
{"id": "C21", "title": "map is a finite partial function under every operation history", "statement": "For every history of operator[], add, remove_key, clear, reserve and copy, with any hash consistent with equality, contains_key/get/get_ptr/get_or/size and return values agree with an ideal finite map.", "quantifier": "all operation histories, all hashes", "why_tests_cant": "unbounded histories and collision patterns", "anchors": ["src/clean-core/map.hh: map"]}
{"id": "C22", "title": "map iteration and equality agree with the ideal map", "statement": "Iteration yields each key/value pair exactly once; a == b holds exactly when both maps have the same key/value pairs.", "quantifier": "all reachable maps", "why_tests_cant": "all bucket layouts", "anchors": ["src/clean-core/map.hh: entries, operator=="]}
{"id": "C23", "title": "References to map values survive insertions and rehashing", "statement": "A pointer obtained from operator[] or get_ptr keeps designating the value of its key through every later insertion, reserve and removal of other keys until that key is removed or the map is cleared or destroyed.", "quantifier": "all histories", "why_tests_cant": "dangling is only visible under particular growth points", "anchors": ["src/clean-core/map.hh: operator[], _reserve, remove_key"]}
{"id": "C24", "title": "disjoint_set maintains the equivalence closure of the merges", "statement": "For every size that fits the int element type and every sequence of operations: are_in_same_set(a,b) holds exactly when a and b are connected by the merges so far, get_representative terminates and returns the same representative for exactly the connected elements, size_of_set_by_element is the number of elements in the class, number_of_partitions is the number of classes, and merging returns true exactly when the two classes were different.", "quantifier": "all sizes below 2^31 and all operation sequences", "why_tests_cant": "path compression histories are unbounded", "anchors": ["src/clean-core/experimental/disjoint_set.hh: disjoint_set"]}
{"id": "C25", "title": "mpmc_queue never loses, duplicates or invents elements", "statement": "In every interleaving of the atomic steps of any number of enqueuing and dequeuing threads on a queue of power-of-two capacity, every value returned by a successful dequeue was enqueued, each successful enqueue is dequeued at most once, two threads never access the same cell payload at the same time, and the successful operations are linearizable to a bounded FIFO.", "quantifier": "all thread counts, capacities and interleavings", "why_tests_cant": "schedules cannot be enumerated", "anchors": ["src/clean-core/experimental/mpmc_queue.hh: mpmc_queue::enqueue, dequeue"]}
{"id": "C26", "title": "mpmc_queue reports full/empty only when justified", "statement": "If enqueue returns false then at some instant during the call the queue held capacity elements or unfinished operations; run without interference, enqueue fails exactly on a full queue and dequeue fails exactly on an empty one, and elements come out in FIFO order.", "quantifier": "all reachable states", "why_tests_cant": "all interleavings", "anchors": ["src/clean-core/experimental/mpmc_queue.hh: mpmc_queue::enqueue, dequeue"]}
{"id": "C27", "title": "vector refines an ideal sequence and manages element lifetimes exactly", "statement": "For every history of push_back, emplace_back (also with a reference to an own element), pop_back, insert/emplace_at, remove_*, resize, reserve, clear, copy and move, the vector contents equal the ideal sequence; every read/move/destroy hits a live element, every construct hits raw storage inside the allocation, and size <= capacity; at destruction every constructed element has been destroyed exactly once.", "quantifier": "all operation histories", "why_tests_cant": "aliasing times growth points is unbounded", "anchors": ["src/clean-core/detail/vector_base.hh: vector_base", "src/clean-core/vector.hh: vector"]}
{"id": "C28", "title": "vector range operations reject every out-of-range request", "statement": "remove_range(idx, cnt) and similar checked range operations never touch memory outside the elements: for every idx and cnt, either the contract check fires or idx+cnt (as integers) is at most size.", "quantifier": "all idx, cnt as 64-bit values", "why_tests_cant": "wrap-around values of the size type", "anchors": ["src/clean-core/detail/vector_base.hh: remove_range"]}
{"id": "C29", "title": "shrink_to_fit destroys every element it moves from", "statement": "shrink_to_fit keeps contents and leaves no constructed element behind in released storage.", "quantifier": "all vectors of non-trivially-copyable elements", "why_tests_cant": "leaks are invisible to value tests", "anchors": ["src/clean-core/detail/vector_base.hh: shrink_to_fit"]}
{"id": "C30", "title": "capped_vector refines a bounded sequence", "statement": "For every capacity and operation history, capped_vector contents equal the ideal sequence, contract violations happen exactly on overflow / underflow / bad index, and elements are destroyed exactly once.", "quantifier": "all capacities and histories", "why_tests_cant": "unbounded histories", "anchors": ["src/clean-core/capped_vector.hh: capped_vector"]}
{"id": "C31", "title": "sbo_string refines a character sequence and stays NUL terminated", "statement": "For every history of string operations (append, push_back, pop_back, resize, reserve, assign, replace, remove_prefix/suffix, shrink_to_fit, copy, move) contents equal the ideal character sequence and c_str() is NUL terminated at size().", "quantifier": "all histories", "why_tests_cant": "crossing the small/large representation boundary in arbitrary histories", "anchors": ["src/clean-core/sbo_string.hh: sbo_string"]}
{"id": "C32", "title": "sbo_string appends are alias safe", "statement": "For every string s and view v into s, s += v yields the old s followed by the old v, at every capacity.", "quantifier": "all strings and sub-views", "why_tests_cant": "depends on whether the append reallocates", "anchors": ["src/clean-core/sbo_string.hh: operator+="]}
{"id": "C33", "title": "A moved-from or self-moved sbo_string is usable", "statement": "After move construction or assignment the source string is a valid string; s = move(s) keeps the string valid.", "quantifier": "all strings", "why_tests_cant": "moved-from states untested", "anchors": ["src/clean-core/sbo_string.hh: sbo_string(sbo_string&&), operator=(sbo_string&&)"]}
{"id": "C34", "title": "String search finds the first / last / all occurrences", "statement": "For every haystack and needle, index_of is the least position at which the needle occurs (or -1 if none), last_index_of the greatest, contains/starts_with/ends_with agree with the mathematical definitions, and none of them reads outside the view.", "quantifier": "all strings and needles", "why_tests_cant": "all inputs", "anchors": ["src/clean-core/string_view.hh: index_of, last_index_of, contains, starts_with, ends_with"]}
{"id": "C35", "title": "Splitting and joining are inverse", "statement": "For every non-empty string and separator, split with empty parts kept yields one more piece than there are separators, no piece contains the separator, and joining the pieces with the separator restores the string; skipping empty parts yields exactly the non-empty pieces in order.", "quantifier": "all strings and separators", "why_tests_cant": "all inputs", "anchors": ["src/clean-core/string_view.hh: split"]}
{"id": "C36", "title": "subview_clamped never leaves the view", "statement": "For every offset and size argument, subview_clamped(offset,size) returns the part of the view that lies inside the requested window.", "quantifier": "all 64-bit offsets and sizes", "why_tests_cant": "wrap-around corner of the size type", "anchors": ["src/clean-core/string_view.hh: subview_clamped, subview"]}
{"id": "C37", "title": "Integer to_string / from_string round-trips", "statement": "For every value of every signed/unsigned 8..64-bit integer type, to_string yields its canonical decimal representation (within its stack buffer) and from_string of that text returns true and the same value.", "quantifier": "all values of all widths", "why_tests_cant": "2^64 values; extreme values", "anchors": ["src/clean-core/to_string.cc: to_string", "src/clean-core/from_string.cc: from_string"]}
{"id": "C38", "title": "from_string accepts only text that denotes a value of the target type", "statement": "If from_string(text, v) returns true then the whole text is a number within the range of the target type and v is that number.", "quantifier": "all texts, all integer target types", "why_tests_cant": "all strings", "anchors": ["src/clean-core/from_string.cc: from_string"]}
{"id": "C39", "title": "Integer format specifiers", "statement": "For every value and every specification made of fill/alignment/width/base the formatted text is the number in that base padded to the width; no stack buffer is over-run.", "quantifier": "all values and format specifications", "why_tests_cant": "product of values and specifications", "anchors": ["src/clean-core/to_string.cc: parse_args, unsigned_to_string_impl, int_to_string_impl"]}
{"id": "C40", "title": "strided and sliced spans stay inside their base range", "statement": "subspan / first / last / element access and iteration of strided_span yield exactly the selected elements in order and never address outside the base range when the contract checks pass.", "quantifier": "all lengths, strides and windows", "why_tests_cant": "all values of offset/size including wrap-around", "anchors": ["src/clean-core/span.hh: span::subspan", "src/clean-core/strided_span.hh: strided_span"]}
{"id": "C41", "title": "chunked_buffer keeps every element in order", "statement": "For every history of emplace_back/resize/clear, iteration over chunks yields all elements pushed, in order, and indices and addresses are stable.", "quantifier": "all histories and chunk capacities", "why_tests_cant": "exactly-full chunk boundary", "anchors": ["src/clean-core/experimental/chunked_buffer.hh: chunked_buffer"]}
{"id": "C42", "title": "flat_vector_of_vector is a sequence of sequences", "statement": "For every history, the container equals the ideal list of lists.", "quantifier": "all histories", "why_tests_cant": "unbounded histories", "anchors": ["src/clean-core/experimental/flat_vector_of_vector.hh"]}
{"id": "C43", "title": "linear_allocator returns disjoint aligned blocks inside its buffer", "statement": "For every buffer and allocation history (any sizes and power-of-two alignments whose end does not wrap) every returned block is aligned, lies inside the buffer and is disjoint from all others handed out since the last reset; get_allocation_size returns the requested size; realloc keeps the contents prefix.", "quantifier": "all buffers, histories, sizes and alignments", "why_tests_cant": "unbounded histories times alignment residues", "anchors": ["src/clean-core/allocators/linear_allocator.hh: linear_allocator"]}
{"id": "C44", "title": "stack_allocator free undoes the matching alloc", "statement": "For every allocation history, blocks are aligned, disjoint and inside the buffer; freeing the most recent allocation restores the allocator state exactly to the one before it; freeing anything else is detected.", "quantifier": "all LIFO histories", "why_tests_cant": "unbounded histories", "anchors": ["src/clean-core/allocators/stack_allocator.cc: stack_allocator"]}
{"id": "C45", "title": "align_up_with_header returns the tightest aligned address leaving room for the header", "statement": "For every head address, power-of-two alignment and header size without overflow, the result is aligned, at least head+header, and less than head+header+alignment.", "quantifier": "all addresses", "why_tests_cant": "64-bit addresses", "anchors": ["src/clean-core/native/memory.hh: align_up_with_header"]}
{"id": "C46", "title": "virtual_linear_allocator hands out only committed memory and succeeds whenever the reservation suffices", "statement": "Every returned block lies in committed pages, is disjoint from others, and a request fails only if it does not fit in the reserved range.", "quantifier": "all histories and chunk sizes", "why_tests_cant": "unbounded histories", "anchors": ["src/clean-core/allocators/virtual_linear_allocator.hh", "src/clean-core/native/memory.cc: grow_physical_memory"]}
{"id": "C47", "title": "atomic_linear_allocator blocks are disjoint under concurrency", "statement": "In every interleaving of alloc calls by any number of threads the returned blocks are pairwise disjoint, aligned and inside the buffer.", "quantifier": "all interleavings and sizes", "why_tests_cant": "schedules", "anchors": ["src/clean-core/allocators/atomic_linear_allocator.hh"]}
{"id": "C48", "title": "atomic_pool_allocator never hands out a live block (single thread)", "statement": "For every history of alloc/free by one thread, allocated blocks are disjoint, inside the buffer, never handed out twice while live, and alloc succeeds as long as fewer than the capacity are live.", "quantifier": "all histories", "why_tests_cant": "unbounded histories", "anchors": ["src/clean-core/allocators/atomic_pool_allocator.cc"]}
{"id": "C49", "title": "atomic_pool_allocator never hands out a live block (concurrent)", "statement": "In every interleaving of concurrent alloc and free no block is handed out to two owners at the same time.", "quantifier": "all interleavings", "why_tests_cant": "schedules (ABA)", "anchors": ["src/clean-core/allocators/atomic_pool_allocator.cc"]}
{"id": "C50", "title": "atomic_linked_pool hands out each node to one owner at a time", "statement": "In every interleaving of acquire and release the same node is never owned twice, and released nodes become available again.", "quantifier": "all interleavings", "why_tests_cant": "schedules; ABA protection by versioned index", "anchors": ["src/clean-core/atomic_linked_pool.hh: acquire, _release_node"]}
{"id": "C51", "title": "Stale atomic_linked_pool handles are detected", "statement": "A handle whose node has been released is never reported alive afterwards.", "quantifier": "all histories", "why_tests_cant": "needs thousands of reuse cycles of one slot", "anchors": ["src/clean-core/atomic_linked_pool.hh: is_alive, _release_node"]}
{"id": "C52", "title": "atomic_linked_pool initialisation stays inside its allocations", "statement": "initialize writes only inside the arrays it allocates, for every pool size.", "quantifier": "all pool sizes", "why_tests_cant": "heap overrun by one is silent", "anchors": ["src/clean-core/atomic_linked_pool.hh: initialize"]}
{"id": "C53", "title": "spin_lock provides mutual exclusion", "statement": "In every interleaving of lock/try_lock/unlock by any number of threads where unlock is only called by holders, at most one thread is between a successful lock/try_lock and its unlock; try_lock succeeds exactly if the lock was free at its exchange.", "quantifier": "all thread counts and schedules", "why_tests_cant": "schedules", "anchors": ["src/clean-core/spin_lock.hh: spin_lock"]}
{"id": "C54", "title": "optional tracks presence and lifetime exactly", "statement": "For every history of emplace, assignment (value, optional, nullopt), copy, move and reset, has_value/value agree with an ideal option and each contained object is destroyed exactly once; in particular assigning an optional to itself changes nothing.", "quantifier": "all histories including self-assignment", "why_tests_cant": "aliasing", "anchors": ["src/clean-core/optional.hh: optional"]}
{"id": "C55", "title": "variant always knows which alternative it holds", "statement": "After construction, assignment or emplace from a value of alternative type X, is<X>() is true and is<Y>() is false for every other type, and get<X>() returns the value.", "quantifier": "all alternative lists, all value categories, all histories", "why_tests_cant": "template instantiation space", "anchors": ["src/clean-core/variant.hh: variant"]}
{"id": "C56", "title": "result holds exactly one of value and error", "statement": "For every history of construction and assignment a result holds exactly one of value or error, is_value agrees, and every contained object is destroyed exactly once, including self assignment.", "quantifier": "all histories", "why_tests_cant": "aliasing", "anchors": ["src/clean-core/result.hh: result"]}
{"id": "C57", "title": "shared_ptr frees its object exactly when the last owner goes away", "statement": "For every history over any number of shared_ptrs and objects that may themselves contain shared_ptrs, an object is destroyed exactly once, at the moment the last pointer to it is dropped, and no operation touches a destroyed object.", "quantifier": "all ownership graphs and histories", "why_tests_cant": "ownership graphs", "anchors": ["src/clean-core/shared_ptr.hh: shared_ptr"]}
{"id": "C58", "title": "unique_ptr / poly_unique_ptr move assignment is safe on linked structures", "statement": "p = move(p->next) (dropping the head of a list) leaves p owning the old second node and frees the first exactly once.", "quantifier": "all owned structures", "why_tests_cant": "aliasing through ownership", "anchors": ["src/clean-core/unique_ptr.hh: operator=", "src/clean-core/poly_unique_ptr.hh: operator="]}
{"id": "C59", "title": "capped_box destroys its payload exactly once", "statement": "For every history of construct/move/assign, each payload object constructed in a capped_box (including moved-from ones) is destroyed exactly once and no destructor runs on raw storage.", "quantifier": "all histories", "why_tests_cant": "leaks", "anchors": ["src/clean-core/experimental/capped_box.hh"]}
{"id": "C60", "title": "bitset is an array of N booleans", "statement": "For every size N, set/unset/flip/[]/any/all/none/operators agree with an array of N booleans.", "quantifier": "all N and all bit patterns", "why_tests_cant": "template parameter space", "anchors": ["src/clean-core/bitset.hh: bitset"]}
{"id": "C61", "title": "flags is a set of enumerators", "statement": "For every enum value set representable in the storage type, flags operators are the set operations, and iteration yields each contained enumerator once in ascending order.", "quantifier": "all sets of enumerators, all storage widths", "why_tests_cant": "2^N sets", "anchors": ["src/clean-core/flags.hh: flags"]}
{"id": "C62", "title": "format emits literal text verbatim and substitutes placeholders in order", "statement": "For every format string built from literal text (with escaped braces), {} placeholders and matching argument count, the output is the literal text with the arguments text substituted in order.", "quantifier": "all literal texts and argument lists", "why_tests_cant": "all inputs", "anchors": ["src/clean-core/format.cc: impl_vformat_to"]}
{"id": "C63", "title": "format never reads outside the format string", "statement": "For every format string_view the formatter reads only characters of the view.", "quantifier": "all format strings", "why_tests_cant": "malformed inputs", "anchors": ["src/clean-core/format.cc: advance_printf_chars, impl_vformat_to"]}
{"id": "C64", "title": "Hash combination is well behaved", "statement": "hash_combine is injective in its last argument for fixed preceding arguments and in its first argument for fixed second (both are bijections of the 64-bit words); sequence hashes depend only on element hashes.", "quantifier": "all 64-bit words", "why_tests_cant": "2^128 pairs", "anchors": ["src/clean-core/hash_combine.hh: hash_combine"]}
{"id": "C65", "title": "TLSF size classes give good fit", "statement": "For every request size up to the maximum, every free block filed in any class at or above the class searched is at least as large as the request; each size maps to a class index inside the tables.", "quantifier": "all sizes", "why_tests_cant": "2^32 sizes", "anchors": ["src/clean-core/detail/lib/tlsf.cc: mapping_insert, mapping_search, search_suitable_block"]}
{"id": "C66", "title": "TLSF never hands out overlapping or foreign memory", "statement": "For every history of malloc/memalign/free on a pool, live allocations are disjoint, inside the pool and aligned, freed neighbours coalesce, and free restores all memory.", "quantifier": "all histories", "why_tests_cant": "unbounded histories", "anchors": ["src/clean-core/detail/lib/tlsf.cc: tlsf_malloc, tlsf_free, tlsf_memalign"]}
{"id": "C67", "title": "cc::alloc never hands out a live block twice", "statement": "For every history of pooled alloc/free of objects of any size, live objects never overlap.", "quantifier": "all histories and sizes", "why_tests_cant": "unbounded histories", "anchors": ["src/clean-core/allocate.hh: pool_block, pool_allocator"]}
{"id": "C68", "title": "radix_sort sorts", "statement": "For every array of 32-bit keys the radix sort yields the sorted permutation.", "quantifier": "all arrays", "why_tests_cant": "all inputs", "anchors": ["src/clean-core/atomic_linked_pool.cc: radix_sort"]}
{"id": "C69", "title": "string_stream refines a character sequence", "statement": "For every history of appends, reserve, clear, copy and move a string_stream equals the ideal concatenation and never writes outside its buffer.", "quantifier": "all histories", "why_tests_cant": "growth points", "anchors": ["src/clean-core/string_stream.hh: string_stream"]}
{"id": "C70", "title": "cascaded/lexicographic comparison of tuples is a strict weak order", "statement": "If each component comparison is a strict weak order then the lexicographic comparison used for tuples and pairs is one too, and total when the components are.", "quantifier": "all component orders", "why_tests_cant": "all orders", "anchors": ["src/clean-core/less.hh", "src/clean-core/tuple.hh"]}
{"id": "C71", "title": "Allocator arrays are padded and released consistently", "statement": "new_array returns storage for n elements aligned for T with the count recoverable, delete_array frees exactly the block that was allocated; the default realloc keeps the common prefix.", "quantifier": "all sizes", "why_tests_cant": "sizes near the top of the range", "anchors": ["src/clean-core/allocator.hh: new_array, delete_array", "src/clean-core/allocator.cc: realloc"]}
{"id": "C72", "title": "array<T,N>::empty reports emptiness", "statement": "array<T,N>::empty() is true exactly when N == 0.", "quantifier": "all N", "why_tests_cant": "template parameter space", "anchors": ["src/clean-core/array.hh: array::empty"]}
{"id": "C73", "title": "Adding an element of a set to the set itself is a no-op", "statement": "For every set and every reference r to one of its elements, add(r) returns false, leaves the set unchanged and reads only live elements.", "quantifier": "all sets and all of their elements", "why_tests_cant": "the load factor at which rehashing happens decides", "anchors": ["src/clean-core/set.hh: add, operator|="]}
{"id": "C74", "title": "Appending a range of a vector to itself appends the old elements", "statement": "For every vector v and every contiguous range r of its own elements, v.push_back_range(r) appends copies of the elements r held before the call and reads only live elements.", "quantifier": "all vectors, ranges and capacities", "why_tests_cant": "whether the append reallocates decides", "anchors": ["src/clean-core/detail/vector_base.hh: push_back_range, push_back_range_n"]}
{"id": "C75", "title": "subview and the other slicing functions select exactly the requested window", "statement": "subview(offset,size) either returns exactly that window or, when the window does not lie inside the view, reports a contract violation; subview(offset), remove_prefix/suffix, first and last return exactly the prefix/suffix they name.", "quantifier": "all views and all 64-bit offsets and sizes", "why_tests_cant": "wrap-around of offset+size", "anchors": ["src/clean-core/string_view.hh: subview, remove_prefix, remove_suffix, first, last"]}
{"id": "C76", "title": "Trimming removes exactly the maximal run at the ends", "statement": "trim_start removes the longest prefix whose characters all satisfy the predicate, trim_end the longest such suffix, trim both; the result is determined uniquely by this and lies inside the view.", "quantifier": "all views and predicates", "why_tests_cant": "all inputs and all predicates", "anchors": ["src/clean-core/string_view.hh: trim_start, trim_end, trim"]}
{"id": "C77", "title": "is_lexicographically_less_than is the lexicographic order and a strict total order", "statement": "The comparison returns true exactly if the first view precedes the second lexicographically (by char value), and is irreflexive, asymmetric, transitive and total on contents.", "quantifier": "all pairs and triples of views", "why_tests_cant": "order axioms quantify over triples of unbounded strings", "anchors": ["src/clean-core/string_view.hh: is_lexicographically_less_than"]}
{"id": "C78", "title": "ascii_lexicographical_less is the lexicographic order on ASCII strings", "statement": "For all ASCII strings ascii_lexicographical_less orders them lexicographically and agrees with is_lexicographically_less_than.", "quantifier": "all pairs of ASCII strings", "why_tests_cant": "embedded NUL characters", "anchors": ["src/clean-core/string_view.hh: ascii_lexicographical_less"]}
{"id": "C79", "title": "Replacing part of a string by its own characters", "statement": "For every string s and view v into s, s.replace(pos, count, v) and s.insert(pos, v) yield what they would yield with a copy of v.", "quantifier": "all strings, ranges and sub-views", "why_tests_cant": "whether the result is right depends on capacity and on the relative position of the view", "anchors": ["src/clean-core/sbo_string.hh: replace, insert"]}
{"id": "C80", "title": "sbo_string rejects out-of-range requests", "statement": "Indexing, front/back/pop_back, remove_prefix/suffix, replace, replaced and insert with a position or range outside of the string are rejected by a contract for all argument values.", "quantifier": "all strings and all 64-bit positions and counts", "why_tests_cant": "wrap-around of pos + count only for extreme values", "anchors": ["src/clean-core/sbo_string.hh: operator[], remove_prefix, replace, replaced, insert"]}
{"id": "C81", "title": "Format specifiers for text", "statement": "For every text and every format specification, the formatted text is the text cut to the precision and padded with the fill character to the width according to the alignment.", "quantifier": "all texts and specifications", "why_tests_cant": "product of texts, widths, precisions and alignments", "anchors": ["src/clean-core/to_string.cc: to_string(string_stream_ref, string_view, string_view)"]}
{"id": "C82", "title": "byte, bool and char conversions", "statement": "from_string(to_string(v)) is v for every std::byte, bool and char, and from_string accepts exactly two hexadecimal digits, \"true\"/\"false\", or one character.", "quantifier": "all values and all texts", "why_tests_cant": "the set of rejected texts is infinite", "anchors": ["src/clean-core/from_string.cc: from_string", "src/clean-core/to_string.cc: to_string"]}
{"id": "C83", "title": "string_view of a C string, and its elements", "statement": "A string_view made from a C string shows exactly the characters in front of the terminator; index, front and back give its elements and refuse positions outside.", "quantifier": "all memory contents and positions", "why_tests_cant": "all strings and positions", "anchors": ["src/clean-core/string_view.hh: string_view"]}
{"id": "C84", "title": "span copies and compares exactly its contents", "statement": "copy_from / copy_to between non-overlapping spans of equal size stores exactly the source contents in the target and changes nothing else, and refuses unequal sizes; fill_from writes as many elements as fit and returns the source size; equals_content is equality of the contents.", "quantifier": "all memories, spans and contents", "why_tests_cant": "any number of elements and positions", "anchors": ["src/clean-core/span.hh: copy_from, fill_from, equals_content"]}
{"id": "C85", "title": "clamped_span and wrapped_span map every index", "statement": "For every signed 64-bit index a non-empty clamped_span returns the element at the index clamped to the range, and a wrapped_span the element at the index modulo the size (floor modulus, -1 is the last); the empty span is refused.", "quantifier": "all indices, sizes, contents", "why_tests_cant": "2^64 indices times all sizes", "anchors": ["src/clean-core/experimental/clamped_span.hh: operator[]", "src/clean-core/experimental/wrapped_span.hh: operator[]"]}
{"id": "C86", "title": "reinterpreting a span keeps its bytes", "statement": "as_bytes and reinterpret_as<U> cover exactly the bytes of the span; reinterpret_as is refused exactly when sizeof(U) does not divide them, and reinterpreting back gives the original span.", "quantifier": "all sizes and element sizes", "why_tests_cant": "template parameter and size space", "anchors": ["src/clean-core/span.hh: as_bytes, reinterpret_as"]}
{"id": "C87", "title": "Destroying a chunked_buffer releases everything once", "statement": "The destructor frees every chunk exactly once and destroys every element exactly once.", "quantifier": "all histories of pushes and chunk size changes", "why_tests_cant": "leaks and double frees are invisible to value tests", "anchors": ["src/clean-core/experimental/chunked_buffer.hh: ~chunked_buffer"]}
{"id": "C88", "title": "array has value semantics", "statement": "For every history of constructions, copies, moves, assignments (also to itself), resizes, element accesses, comparisons and destructions of heap arrays, all results are those of ideal sequences, out of range accesses are refused, no destroyed element is read, and every block is released exactly once. Comparison and access of fixed-size arrays are those of the value sequence.", "quantifier": "all histories, element values and sizes", "why_tests_cant": "lifetimes and aliasing across arbitrary histories", "anchors": ["src/clean-core/array.hh: array<T, dynamic_size>", "src/clean-core/array.hh: operator==, operator!=, operator[]"]}
{"id": "C89", "title": "virtual_stack_allocator hands out committed disjoint memory and frees in stack order", "statement": "For every history of alloc, free of the most recent block, in-place realloc and writes into live blocks, all live blocks are aligned, pairwise disjoint, inside the reservation and committed; freeing the most recent block restores the allocator to its state before that block was allocated; freeing an older live block is detected as an error; is_latest_allocation is true for exactly the most recent block; an in-place realloc keeps the bytes; no call touches uncommitted memory.", "quantifier": "all histories, sizes below 2^60, all alignments and chunk sizes", "why_tests_cant": "unbounded histories; the free list is a chain of headers in the buffer next to client data", "anchors": ["src/clean-core/allocators/virtual_stack_allocator.cc: virtual_stack_allocator::alloc", "src/clean-core/allocators/virtual_stack_allocator.cc: virtual_stack_allocator::free", "src/clean-core/allocators/virtual_stack_allocator.hh"]}
{"id": "C90", "title": "atomic_pool_allocator rejects pointers that are not its blocks and initialises pools of every size", "statement": "free, get_node_offset_bytes and get_node_index reject every non-null pointer that is not the address of a block of the pool, and initialize finishes for every buffer that holds at least one block.", "quantifier": "all pointers, buffer sizes and block sizes", "why_tests_cant": "the accepted set is a range of addresses; large pools cannot be allocated in a test", "anchors": ["src/clean-core/allocators/atomic_pool_allocator.hh: free", "src/clean-core/allocators/atomic_pool_allocator.hh: get_node_offset_bytes", "src/clean-core/allocators/atomic_pool_allocator.cc: initialize"]}
{"id": "C91", "title": "Every format string means the concatenation of its pieces", "statement": "For every format string of the language (text, escapes, {} with number, name and specification, % conversions) and every formatter the output is the concatenation of the meanings of its pieces; a missing, unknown or unused argument is reported, and every other string is refused.", "quantifier": "all format strings, argument lists and formatters", "why_tests_cant": "unbounded language", "anchors": ["src/clean-core/format.cc: impl_vformat_to, advance_printf_chars", "src/clean-core/format.hh: format_to, format, formatf, formatp"]}
{"id": "C92", "title": "stringhash_n is the stringhash of the first n characters", "statement": "For every string and every n, stringhash_n(s, n) equals the stringhash of the first n characters (or of the whole string if it ends before) and reads only these characters.", "quantifier": "all strings and n", "why_tests_cant": "tests use terminated literals, where the read behind the range is harmless", "anchors": ["src/clean-core/stringhash.hh: stringhash, stringhash_n"]}
{"id": "C93", "title": "Small numbers spread over the buckets of a set", "statement": "In a set with a power of two of buckets, as add makes them, c consecutive integers, stored as integers or as floating point numbers, occupy c different buckets for c buckets.", "quantifier": "all capacities and integers", "why_tests_cant": "the result is right, only the time is quadratic", "anchors": ["src/clean-core/set.hh: _get_location, add", "src/clean-core/hash.hh: hash<double>"]}
{"id": "C94", "title": "The memory of cc::alloc is bounded by the objects alive", "statement": "For every history of cc::alloc and cc::free, on any threads, the memory held for a kind of object is at most the largest number of its objects that were alive at the same time, rounded up to whole blocks (per thread).", "quantifier": "all histories and interleavings", "why_tests_cant": "growth without bound needs unbounded histories", "anchors": ["src/clean-core/allocate.hh: pool_allocator, get_pool_allocator"]}
{"id": "C95", "title": "TLSF never changes bytes of live buffers", "statement": "A byte stored into a live buffer is read back after every history of malloc, memalign, free, realloc, add_pool and remove_pool that does not store to it again; realloc carries it along while its offset stays in range.", "quantifier": "all histories, all buffers, all offsets", "why_tests_cant": "unbounded histories and heap layouts", "anchors": ["src/clean-core/detail/lib/tlsf.cc: tlsf_malloc, tlsf_free, tlsf_realloc, block_split, block_absorb"]}
{"id": "C96", "title": "TLSF realloc keeps contents, fails without effect, and never fails to shrink", "statement": "realloc returns a buffer of the new size with the common prefix of the old contents, or null with the heap unchanged; it returns null only when growing; a new size of zero frees.", "quantifier": "all reachable heaps, all live buffers, all sizes", "why_tests_cant": "depends on the state of both neighbours, all sizes", "anchors": ["src/clean-core/detail/lib/tlsf.cc: tlsf_realloc, block_trim_used"]}
{"id": "C97", "title": "TLSF fragmentation is only caused by live buffers", "statement": "Whatever the history, a request succeeds if some pool has a stretch of bytes free of live buffers that is a thirty-second larger than the rounded request; after everything is freed each pool serves requests as if new, and a pool without live buffers can be removed.", "quantifier": "all histories, all sizes and alignments", "why_tests_cant": "missing coalescing only shows in particular orders of free", "anchors": ["src/clean-core/detail/lib/tlsf.cc: block_merge_prev, block_merge_next, block_locate_free"]}
{"id": "C98", "title": "tlsf_allocator serves its interface", "statement": "A tlsf_allocator on a buffer returns aligned disjoint memory or stops in an assertion when full; free accepts null; realloc respects the alignment; validate_heap holds in every reachable state; get_allocation_size covers the request; initialize asserts that the buffer is usable.", "quantifier": "all buffers, all histories", "why_tests_cant": "all buffer sizes and histories", "anchors": ["src/clean-core/allocators/tlsf_allocator.cc", "src/clean-core/allocators/tlsf_allocator.hh"]}
{"id": "C99", "title": "XXH32 computes the published hash, one-shot and in any chunks", "statement": "XXH32 of a buffer reads only that buffer and returns the hash of the published algorithm. A state that is reset and then fed any chunks, with digests at any time, returns the hash of the bytes so far; an update with a null pointer returns XXH_ERROR and changes nothing.", "quantifier": "all buffers, seeds and chunkings", "why_tests_cant": "all lengths, contents and ways to cut the input", "anchors": ["src/clean-core/detail/xxHash/xxhash.hh"]}
{"id": "C100", "title": "XXH64 computes the published hash, one-shot and in any chunks", "statement": "As C99 for XXH64.", "quantifier": "all buffers, seeds and chunkings", "why_tests_cant": "all lengths, contents and ways to cut the input", "anchors": ["src/clean-core/detail/xxHash/xxhash.hh"]}
{"id": "C101", "title": "Canonical hash representation is big endian and reversible", "statement": "canonicalFromHash writes the most significant byte first; hashFromCanonical is its inverse in both directions.", "quantifier": "all hash values and byte strings", "why_tests_cant": "all 2^64 values", "anchors": ["src/clean-core/detail/xxHash/xxhash.hh"]}
{"id": "C102", "title": "XXH3 and XXH128 compute one hash in all builds", "statement": "cc::make_hash_xxh3, XXH3_64bits and XXH3_128bits with or without seed or secret read only the given buffers, never abort, and return the reference hash. Vector or scalar code, 128-bit products or portable multiplication, and the pointer width make no difference. Seed 0 gives the unseeded hash.", "quantifier": "all buffers, seeds, secrets of at least 136 bytes and builds", "why_tests_cant": "all lengths and contents, and builds a test machine cannot run", "anchors": ["src/clean-core/hash.xxh3.cc", "src/clean-core/detail/xxHash/xxh3.hh:698"]}
{"id": "C103", "title": "XXH3 streaming equals the one-shot hash for any chunks", "statement": "A state reset plainly, with a seed or with a secret and then fed any chunks digests to the one-shot hash of the concatenation. Updates stay inside the state and the input. A null input and a short secret give XXH_ERROR.", "quantifier": "all ways to start, all chunkings, both widths", "why_tests_cant": "the digest is wrong only for some totals and some ways to cut them", "anchors": ["src/clean-core/detail/xxHash/xxh3.hh:1788", "src/clean-core/detail/xxHash/xxh3.hh:1855"]}
{"id": "C104", "title": "A copied XXH3 state is independent of its source", "statement": "After XXH3_copyState both states digest alike, and from then on no call on one of them, including freeing it, affects the digest of the other.", "quantifier": "all states and all later calls", "why_tests_cant": "a dangling pointer is usually invisible in a test", "anchors": ["src/clean-core/detail/xxHash/xxh3.hh:1707"]}
{"id": "C106", "title": "Comparison and canonical form of 128-bit hashes", "statement": "XXH128_isEqual is equality, XXH128_cmp is the order of the 128-bit values and of the canonical bytes, and the canonical form is 16 bytes, big endian and reversible.", "quantifier": "all pairs of hashes", "why_tests_cant": "all 2^256 pairs", "anchors": ["src/clean-core/detail/xxHash/xxh3.hh"]}
{"id": "C107", "title": "Aligned allocation of XXH3 states", "statement": "XXH_alignedMalloc returns an aligned pointer whose block, and the offset byte in front, lie inside the allocation; XXH_alignedFree recovers the allocation.", "quantifier": "all base addresses, sizes and alignments 8 to 128", "why_tests_cant": "all addresses malloc may return", "anchors": ["src/clean-core/detail/xxHash/xxh3.hh:1655", "src/clean-core/detail/xxHash/xxh3.hh:1687"]}
{"id": "C105", "title": "Short inputs and single changed words never collide", "statement": "XXH32 of two inputs of the same length that differ in one aligned word, or in one byte, differs. XXH64 has this property for changes behind the last whole stripe of 32 bytes. Different seeds give different hashes of a short input. XXH3 with 64 bits never collides on inputs of 1 to 3 bytes or of equal length 4 to 8; with 128 bits also on equal lengths up to 16.", "quantifier": "all inputs in the named classes and all seeds", "why_tests_cant": "absence of a collision among all pairs of up to 2^128 inputs", "anchors": ["src/clean-core/detail/xxHash/xxhash.hh", "src/clean-core/detail/xxHash/xxh3.hh"]}
{"id": "C108", "title": "alloc_array is a sequence bound to its allocator", "statement": "Any history of constructions, moves, resets, resizes, accesses, comparisons and destructions of alloc_arrays gives the results of ideal sequences; every block goes back exactly once to the allocator that made it, also after moves between arrays of different allocators.", "quantifier": "all histories, element types, sizes and allocators", "why_tests_cant": "unbounded histories mixing allocators", "anchors": ["src/clean-core/alloc_array.hh"]}
{"id": "C109", "title": "fwd_array constructs and destroys each element once", "statement": "Any history of constructions, moves, accesses and destructions of fwd_arrays gives the results of ideal sequences, all blocks are given back, and each constructed element is destroyed once.", "quantifier": "all histories, element types and sizes", "why_tests_cant": "unbounded histories; leaks are not observable in results", "anchors": ["src/clean-core/fwd_array.hh"]}
{"id": "C110", "title": "capped_array is a sequence of at most N elements", "statement": "Any history of constructions, copies, moves, emplacements, accesses and destructions of capped_arrays gives the results of ideal sequences of at most N elements, accesses only elements that exist, refuses larger sizes, and destroys each constructed element once.", "quantifier": "all histories, capacities and element types", "why_tests_cant": "unbounded histories and all capacities", "anchors": ["src/clean-core/capped_array.hh"]}
{"id": "C111", "title": "system_allocator serves its interface on any C runtime", "statement": "Any history of alloc, realloc, free, size queries and accesses gives the results of a store of byte blocks: blocks are aligned and disjoint, keep their bytes, and go back to the C runtime exactly once; without memory try_alloc and try_realloc return null and keep the old block, alloc and realloc abort.", "quantifier": "all histories, sizes, power-of-two alignments and answers of the C runtime", "why_tests_cant": "needs every placement and failure pattern of the C runtime", "anchors": ["src/clean-core/allocators/system_allocator.cc", "src/clean-core/allocators/system_allocator.hh"]}
{"id": "C112", "title": "unique_function owns its callable", "statement": "Any history of constructions, moves, calls and destructions runs exactly the callable a function owns, keeps callables of the program unchanged unless moved, refuses calls of functions that are not valid, and gives every block back once to its allocator; unique_functions are not copyable.", "quantifier": "all histories, callables with state, and allocators", "why_tests_cant": "unbounded histories; ownership errors are not visible in results", "anchors": ["src/clean-core/unique_function.hh"]}
{"id": "C113", "title": "Rounding up divides and multiples", "statement": "int_div_ceil(n, d) is the smallest q with n <= q d and refuses arguments that are not positive; int_ceil_to_multiple(v, d) is the smallest multiple of d that is at least v, whenever it is representable.", "quantifier": "all integer types and arguments", "why_tests_cant": "overflow depends on the type and on promotion; there are 2^128 pairs of arguments", "anchors": ["src/clean-core/utility.hh"]}
{"id": "C114", "title": "min, max and clamp", "statement": "min and max give the two arguments in order, clamp gives the point of the interval next to the value and refuses empty intervals.", "quantifier": "all strict weak orders and values", "why_tests_cant": "any comparison, also with equivalent values that differ", "anchors": ["src/clean-core/utility.hh"]}
{"id": "C115", "title": "Index ranges visit each index once", "statement": "Iterating a range visits begin, ..., end-1 in order; skip_first, skip_last and max keep what they promise; reversed visits the same values backwards; indices_of(n) visits 0, ..., n-1.", "quantifier": "all integer types and ranges", "why_tests_cant": "wrap around at the limits of the types", "anchors": ["src/clean-core/detail/srange.hh", "src/clean-core/indices_of.hh"]}
{"id": "C116", "title": "copy, fill and comparison of ranges", "statement": "copy refuses destinations that are too short and otherwise puts the elements of the source into the destination and changes nothing else; fill sets exactly the range, also to one of its own elements; are_ranges_equal compares sizes and elements without leaving the ranges.", "quantifier": "all arrays, ranges in them, overlapping or not, and element types", "why_tests_cant": "all overlaps and lengths", "anchors": ["src/clean-core/algorithms.hh", "src/clean-core/cursor.hh"]}
{"id": "C117", "title": "Comparison with any_of", "statement": "x == any_of(...) holds if and only if x equals one of the values, and != is its negation.", "quantifier": "all ranges, values and comparisons", "why_tests_cant": "arbitrary comparisons and lengths", "anchors": ["src/clean-core/any_of.hh"]}
{"id": "C118", "title": "Boxes hold one value", "statement": "box, poly_box, fwd_box and pimpl behave like variables that hold a value (with its dynamic type) or were moved from: assignments, moves, reads and comparisons give the values of such variables, access to moved-from boxes is refused, and every heap object is destroyed exactly once.", "quantifier": "all histories of operations on any number of boxes, all kinds of boxes, values and comparisons", "why_tests_cant": "unbounded histories; double deletes and leaks are not visible in results", "anchors": ["src/clean-core/experimental/box.hh", "src/clean-core/experimental/poly_box.hh", "src/clean-core/experimental/fwd_box.hh", "src/clean-core/experimental/pimpl.hh"]}
{"id": "C119", "title": "Error messages show every error", "statement": "The message repeats the lines of the string; every error is shown below exactly the line it begins in, its target is marked column by column, its text stands complete below the marker and begins under it, no marker or text covers another one, and there is nothing else except for connecting lines. Targets outside of the string are refused.", "quantifier": "all strings, lists of errors, texts and messages", "why_tests_cant": "layout of any number of overlapping errors", "anchors": ["src/clean-core/error_messages.cc", "src/clean-core/error_messages.hh"]}
{"id": "C120", "title": "Filewatches report changes of their files", "statement": "A valid filewatch has changed exactly if its file was written or created since it was made or last reset; moves carry this along and leave an invalid watch that never changes; resetting an invalid watch and watching in a directory that does not exist are refused. Monitors and flags are gone with the last watch. Of two watches of one path only the first is notified, and replacement by renaming is missed.", "quantifier": "all histories of watches and file events, all paths and directory structures", "why_tests_cant": "histories of any length with aliased directories and events at any point", "anchors": ["src/clean-core/experimental/filewatch.cc", "src/clean-core/experimental/filewatch.hh"]}
{"id": "C121", "title": "Temporary c strings", "statement": "A temporary c string of a view shows exactly the characters of the view (up to the first zero) to c string functions as long as it lives, whatever else is allocated or freed; with a buffer that is large enough nothing is allocated and nothing outside of the used part is written; otherwise the allocator is used, exactly one block is allocated and given back; a missing allocator is refused. print and println write the characters (and a newline) and leave the heap as it was.", "quantifier": "all views, buffers, heaps, allocators and activity on the heap in between", "why_tests_cant": "all sizes around the size of the buffer; null views; characters behind zeros; alignment of allocators", "anchors": ["src/clean-core/temp_cstr.hh", "src/clean-core/temp_cstr.cc", "src/clean-core/print.cc"]}
{"id": "C122", "title": "Vectors of trivially copyable elements over allocators", "statement": "Any history of constructions, copies, moves, growth, insertions, removals and accesses of any number of vectors of trivially copyable elements gives the results of ideal sequences with a capacity and an allocator each: growth by realloc or by allocating and copying keeps the elements, arguments that refer to own elements work for push_back, invalid indices and requests for too many elements are refused, moved-from vectors are empty and use the system allocator, each block is given back exactly once to the allocator it comes from.", "quantifier": "all histories, element types of up to 32 kB, allocators and numbers of vectors", "why_tests_cant": "all interleavings of growth, moves and removals; sizes near the limits; element sizes on both sides of the realloc limit", "anchors": ["src/clean-core/detail/vector_base.hh", "src/clean-core/alloc_vector.hh", "src/clean-core/vector.hh"]}
{"id": "C123", "title": "References to callables, streams and ranges", "statement": "Any history of creating, copying and assigning references to streams and ranges and writing or visiting through them behaves as if each reference had a fixed destination: all elements written arrive at the destination in order, whether the stream takes spans or elements and is called or shifted into; lambdas are called by reference, once per write or once per element; a range reference visits the current elements of its range in order; null function pointers and calls of unassigned references are refused; a default constructed stream reference drops what is written.", "quantifier": "all histories of any number of sinks, callables, references and ranges", "why_tests_cant": "all kinds of streams, all orders of creation, copying and death of the objects that references point to", "anchors": ["src/clean-core/function_ref.hh", "src/clean-core/stream_ref.hh", "src/clean-core/range_ref.hh"]}
{"id": "C124", "title": "Synchronized allocators are linearizable", "statement": "When any number of threads call a synchronized allocator in any interleaving, the calls take effect one after the other, each between its start and its end, with the results and final state that one thread would get making these calls in that order; a run fails only as one call made alone would fail, so there are no data races; a waiting call completes when nobody holds the lock; blocks handed out to different threads never overlap.", "quantifier": "all numbers of threads, all schedules, all sequences of calls of each thread", "why_tests_cant": "all interleavings of all threads", "anchors": ["src/clean-core/allocators/synced_tlsf_allocator.hh", "src/clean-core/allocators/synced_virtual_linear_allocator.hh", "src/clean-core/lock_guard.hh", "src/clean-core/spin_lock.hh"]}
{"id": "C125", "title": "Conversion of wide and narrow strings", "statement": "Converting a wide string to a narrow one stores the UTF-8 bytes of the longest prefix of characters that fits into the destination, followed by a terminator if there is room, changes nothing else in the destination and returns the number of bytes, or -1 at a code that is no character; converting back stores the characters of valid UTF-8 and refuses everything else; both directions are inverse to each other when the destinations are large enough; to_string of a wide string is its UTF-8 text; with a count of source characters exactly that many are read.", "quantifier": "all strings, all destinations, all counts", "why_tests_cant": "all code points in all combinations and all places where a destination can end", "anchors": ["src/clean-core/native/wchar_conversion.cc", "src/clean-core/native/wchar_conversion.hh", "src/clean-core/to_string.cc"]}
{"id": "C126", "title": "sbo_strings own their memory", "statement": "In every history over several strings - constructors, copies, moves, assignments, growth, shrinking, fill, clear, replacement, concatenation, and appending, replacing with or assigning views of the same or other strings - no freed memory is read, written or deleted, every heap block belongs to exactly one string, operations on one string leave the characters of all others alone, and destroying all strings frees every block; an operation that fails with bad_alloc leaves strings that can be destroyed.", "quantifier": "all histories, sizes and numbers of strings", "why_tests_cant": "ownership must hold in every interleaving of moves, copies and reallocations; allocation failures are not tested", "anchors": ["src/clean-core/sbo_string.hh: sbo_string"]}
{"id": "C127", "title": "Checks evaluate their condition once and continue only if it is true", "statement": "For every configuration of the switches, every thread and every check (CC_ASSERT, CC_ASSERT_MSG, CC_ASSERTF, CC_RUNTIME_ASSERT, CC_ASSERT_IN_BOUNDS, CC_ASSERT_IS_NULL, CC_ASSERT_NOT_NULL, CC_CONTRACT): a check that is on evaluates its condition exactly once; if it is true nothing else happens and the message is not evaluated; if it is false the message is evaluated and the handler that this thread set last (or the default handler, which prints expression, message, function, file and line to stderr) is called once with exactly this information, and the process dies unless the handler throws or exits. A check that is off evaluates nothing. CC_ASSUME(x) is undefined behavior only if x is false.", "quantifier": "all conditions and messages with side effects, all configurations, all handlers, all threads and orders of set_assertion_handler", "why_tests_cant": "a failing check ends the process, so tests see one configuration and one failing expression at a time; double evaluation and wrong precedence show only for arguments with effects or operators of lower precedence", "anchors": ["src/clean-core/assert.hh:32", "src/clean-core/assert.hh:43-85", "src/clean-core/assert.cc:72-141", "src/clean-core/assertf.hh:8-10", "src/clean-core/macros.hh:162", "src/clean-core/macros.hh:198"]}
{"id": "C128", "title": "Deferred code runs exactly once when its scope is left", "statement": "Code given to CC_DEFER runs exactly once when control leaves the enclosing scope in whatever way (end, return, exception), after everything behind it in the scope, the last deferral first, and sees the variables as they are then. Code given to CC_RETURN_DEFER runs exactly once at the end of the scope of the caller and sees the local variables as they were at the return. Deferred code that throws does not prevent other deferred code.", "quantifier": "all programs of nested scopes, branches, exceptions, deferrals and scoped functions", "why_tests_cant": "tests cover single scopes; order, exactly-once and capture matter for every nesting and every way out", "anchors": ["src/clean-core/defer.hh: CC_DEFER", "src/clean-core/defer.hh: CC_RETURN_DEFER", "src/clean-core/defer.hh: deferred"]}
{"id": "C129", "title": "Atomic operations lose nothing and feature tests tell the truth", "statement": "For every order in which the operations of several threads happen: additions to a counter are all in the final value and each returns the sum of those before it, up to 2^w increments return distinct values, a value that was swapped in is handed to exactly one later swap or is the final one, exactly one of several compare-and-swaps from the same value succeeds, and for each flag exactly one of the operations that set it is told that it was clear. test_cpu_support_popcount and test_cpu_support_lzcnt are true exactly if the processor has the feature. A Newton step squares the error of an inverse square root.", "quantifier": "all numbers of threads and orders, all values and widths, all processors", "why_tests_cant": "orders of threads cannot be enumerated by tests, and tests run on the processors at hand, which have the features", "anchors": ["src/clean-core/intrinsics.hh:21-162", "src/clean-core/intrinsics.hh:205-269"]}
{"id": "C130", "title": "Page operations touch the pages of their range and no others", "statement": "prefault_memory reads a byte of every page that has a byte of the range, reads nothing outside of the range, faults exactly if a byte of the range is inaccessible, and does nothing for an empty range. commit_physical_memory makes exactly the pages accessible that have a byte of the range, and decommit_physical_memory takes access from the bytes of the range and from no others; contents stay.", "quantifier": "all address spaces, ranges and contents", "why_tests_cant": "alignments and page sets cannot be enumerated, and a test does not notice that a neighbouring page lost its access until something reads it", "anchors": ["src/clean-core/native/memory.cc:68-86", "src/clean-core/native/memory.cc:88-130"]}
{"id": "C131", "title": "Arguments arrive as they were passed", "statement": "identity_function and projection_function return the chosen argument with its value category; invoke acts on the object that its first argument designates (itself, through a wrapper or a pointer) and passes the other arguments on unchanged; apply calls with all members of the tuple in order, giving away the members of an rvalue tuple; overloaded takes its functors over without copying those that can be moved.", "quantifier": "all argument lists, value categories, const qualifications, parameter kinds and tuples", "why_tests_cant": "a copy instead of a move is not visible in the result, and a call that does not compile cannot be a test", "anchors": ["src/clean-core/functors.hh:8-58", "src/clean-core/get.hh:11-28", "src/clean-core/apply.hh:13-24", "src/clean-core/invoke.hh:14-48", "src/clean-core/overloaded.hh:13-18"]}
{"id": "C132", "title": "Sorting costs what its documentation promises", "statement": "sort compares O(n log n) times in the worst case and O(n) times in the best, quickselect O(n) times; partition calls its predicate O(n) times and is_sorted compares O(n) times.", "quantifier": "all lists, strict weak orders and predicates", "why_tests_cant": "tests measure chosen sizes and inputs; a bound is about all of them, and the worst input has to be known", "anchors": ["src/clean-core/sort.hh:45-83", "src/clean-core/sort.hh:221-322", "src/clean-core/sort.hh:378-401"]}
{"id": "C133", "title": "Sorting several ranges at once keeps them synchronized", "statement": "sort_multi and sort_multi_by rearrange all given ranges by one permutation after which the keys are sorted, leave everything else alone and report ranges of different sizes; the descending variants sort in the opposite order.", "quantifier": "all ranges, key functions and strict weak orders", "why_tests_cant": "whether all ranges stay in step depends on every swap of every input", "anchors": ["src/clean-core/sort.hh:76-86", "src/clean-core/sort.hh:437-482"]}
{"id": "C134", "title": "Growing a container costs linear time in total", "statement": "Over any history of a vector, string, string_stream, set or map that never holds more than m elements, the elements taken along to new storage are at most a constant times m, and storage is replaced at most logarithmically often.", "quantifier": "all operation histories and bounds m", "why_tests_cant": "a bound over all histories; a test times a few sizes", "anchors": ["src/clean-core/detail/vector_base.hh:115-150", "src/clean-core/detail/vector_base.hh:246-276", "src/clean-core/sbo_string.hh:244-279", "src/clean-core/sbo_string.hh:666-701", "src/clean-core/sbo_string.hh:751-765", "src/clean-core/string_stream.hh:42-56", "src/clean-core/set.hh:67-81", "src/clean-core/set.hh:241-251", "src/clean-core/map.hh:111-127", "src/clean-core/map.hh:275-285"]}
{"id": "C135", "title": "mpmc_queue is correct with the memory orders it uses", "statement": "With the acquire, release and relaxed orders of the code, in every execution of the C++ release/acquire memory model no two payload accesses race, every execution is linearizable to a bounded FIFO, whatever happens before an enqueue happens before the return of the dequeue of that value, a call reports full or empty only if justified by the calls that have returned before it, and none of the four orders can be relaxed.", "quantifier": "all capacities, thread counts, schedules and all values that loads may return", "why_tests_cant": "x86 executes every load with acquire and every store with release, so wrong orders pass every test there", "anchors": ["src/clean-core/experimental/mpmc_queue.hh:44-71", "src/clean-core/experimental/mpmc_queue.hh:73-100"]}
{"id": "C136", "title": "atomic_linked_pool is free of data races with the memory orders it uses", "statement": "With the memory orders of the code, in every execution of the C++ release/acquire memory model no two accesses to an element or its generation by acquire, get, user code and release race, no slot is handed to two owners, an acquired element can be used and released by its owner, is_alive can be asked at any time, acquire reports a full pool only if it is full, and the orders that suffice are exactly characterized.", "quantifier": "all pool sizes, thread counts, schedules and all values that loads may return", "why_tests_cant": "x86 executes every load with acquire and every store with release, so wrong orders pass every test there", "anchors": ["src/clean-core/atomic_linked_pool.hh:98-140", "src/clean-core/atomic_linked_pool.hh:405-440"]}
{"id": "C137", "title": "atomic_linear_allocator is free of data races with the memory orders it uses", "statement": "If reset is called by a thread that is ordered after all calls and uses of the blocks, then with the acquire and release orders of the code no access of the allocator or of the owners of the blocks to the buffer is a data race, in any execution of the C++ release/acquire memory model, and neither order can be relaxed.", "quantifier": "all thread counts, sizes and schedules", "why_tests_cant": "x86 executes every load with acquire and every store with release, so wrong orders pass every test there", "anchors": ["src/clean-core/allocators/atomic_linear_allocator.hh:14-33", "src/clean-core/allocators/atomic_linear_allocator.hh:40-51"]}
{"id": "C138", "title": "Views of and copies from ranges see the elements of the range", "statement": "Whenever a span or strided_span of T is made from a range, or push_back_range of a vector of T is called with one, and the call compiles, element i is element i of the range, its T part or what it converts to; calls whose elements convert to T compile, and constructors that would not compile are not chosen.", "quantifier": "all element types, class hierarchies, kinds of ranges and contents", "why_tests_cant": "the space of element types and class layouts is unbounded; tests use the same element type on both sides", "anchors": ["src/clean-core/is_contiguous_range.hh:10-32", "src/clean-core/span.hh:32-41", "src/clean-core/strided_span.hh:29-42", "src/clean-core/detail/vector_base.hh:171-197"]}
{"id": "C139", "title": "Generic access to collections agrees with direct access", "statement": "collection_traits describes a type as an ordinary loop over it does (range, constness of the elements, size, fixed size); collection_begin and get compile for every type that is described as a range or indexed range, get(c, i) reads element i and changes nothing; collection_size is the number of elements; collection_add adds the value to every collection that has some way to add.", "quantifier": "all collections of the library and all user types, const and non-const, all contents and indices", "why_tests_cant": "the traits are templates over an unbounded set of types; the tests check flags of a dozen non-const types", "anchors": ["src/clean-core/collection_traits.hh:47-75", "src/clean-core/collection_traits.hh:144-182", "src/clean-core/collection_traits.hh:189-305", "src/clean-core/collection_traits.hh:308-366"]}
{"id": "C140", "title": "spin_lock uses exactly the memory orders that are needed", "statement": "Accesses to the protected data by the holders of the lock are free of data races in every execution exactly if the exchanges of lock and try_lock acquire and the store of unlock releases; the relaxed loads can return anything; mutual exclusion holds with every choice of orders.", "quantifier": "all choices of orders, thread counts and schedules", "why_tests_cant": "x86 executes every exchange with full ordering and every store with release, so wrong orders pass every test there", "anchors": ["src/clean-core/spin_lock.hh:16-40", "src/clean-core/spin_lock.hh:42-48", "src/clean-core/spin_lock.hh:50-54"]}
{"id": "C141", "title": "atomic_pool_allocator hands memory between threads without data races", "statement": "Threads alloc, use and free blocks; no access to the contents of a block or to its in-place next pointer races, no block has two owners, none is lost, and a thread that gets a block is ordered after everything done with it before. Proved if calls of alloc do not overlap; refuted for overlapping calls.", "quantifier": "all block lists, thread counts, schedules, choices of memory orders and values that loads may return", "why_tests_cant": "races need a thread to be stopped between its load of the head and its read of the next pointer; x86 hides wrong orders", "anchors": ["src/clean-core/allocators/atomic_pool_allocator.hh:15-37", "src/clean-core/allocators/atomic_pool_allocator.hh:39-63", "src/clean-core/allocators/atomic_pool_allocator.hh:85", "src/clean-core/allocators/atomic_pool_allocator.cc:5-31"]}
{"id": "C142", "title": "Filewatches are thread-safe, lose no changes and can be destroyed", "statement": "While the thread of a monitor handles events, making, clearing and destroying watches never races or touches a destroyed flag, waits for locks are bounded, the destructor of the last watch returns, and a watch that reports nothing when all events are handled belongs to a file that was not changed since it was loaded.", "quantifier": "all interleavings of the using thread, the monitor thread and the system, all queue capacities and numbers of files", "why_tests_cant": "needs changes at particular points between two operations, full kernel queues or deleted directories", "anchors": ["src/clean-core/experimental/filewatch.cc:63-77", "src/clean-core/experimental/filewatch.cc:142-242", "src/clean-core/experimental/filewatch.cc:283-323", "src/clean-core/experimental/filewatch.cc:344-418", "src/clean-core/experimental/filewatch.hh:16-25"]}
{"id": "C143", "title": "Linked pools construct, visit and destroy each node exactly when owned", "statement": "In one thread, acquire hands out a node that nobody owns and constructs it, is refused exactly when all nodes are owned, release and release_all destroy, iterate_allocated_nodes visits the nodes owned at its start once each in ascending order until the visitor returns false even while the visitor acquires nodes and releases visited ones, destroy destroys what is still owned and frees all memory, and a pool can be initialized again.", "quantifier": "all pool sizes, traits of the element type, histories and visitors that keep the documented rules", "why_tests_cant": "histories and visitors are unbounded; a node destroyed twice or a skipped node depends on the order of the free list", "anchors": ["src/clean-core/atomic_linked_pool.hh:31-93", "src/clean-core/atomic_linked_pool.hh:98-139", "src/clean-core/atomic_linked_pool.hh:184-269", "src/clean-core/atomic_linked_pool.hh:330-352", "src/clean-core/atomic_linked_pool.hh:407-459"]}
{"id": "C144", "title": "Keys that compare equal are the same key of sets and maps", "statement": "For all key types that cc::hash and cc::equal_to accept, keys that compare equal have equal hashes, so sets keep one of them, and contains, remove and operator[] with a key, also one of another type that compares with it, find exactly the elements equal to it.", "quantifier": "all key types built from the supported types, all keys, all sets and maps that histories of add and remove reach, all pairs of integer types", "why_tests_cant": "a hash that disagrees with the equality loses elements only for particular pairs of keys (signed zeros, NaN, texts at different addresses, values that conversions change)", "anchors": ["src/clean-core/hash.hh:13-137", "src/clean-core/equal_to.hh:8-26", "src/clean-core/set.hh:23-35", "src/clean-core/set.hh:83-122", "src/clean-core/set.hh:232-239", "src/clean-core/map.hh:110-127", "src/clean-core/string_view.hh:311-363", "src/clean-core/pair.hh:19-39", "src/clean-core/tuple.hh:78-136", "src/clean-core/optional.hh:306-383"]}
{"id": "C145", "title": "vector_ex is a sequence whatever its index type", "statement": "For every integer type as Traits::index_t, operator[], insert_range_at, remove_range, remove_at and remove_at_unordered act on the element with the given index and refuse negative and too large indices, and remove_first and remove_first_unordered remove the first element that satisfies the predicate.", "quantifier": "all integer index types, element types, histories, arguments and predicates", "why_tests_cant": "wrong elements are removed only from vectors with more elements than the index type has values; the index type is a parameter", "anchors": ["src/clean-core/vector_ex.hh:16-34", "src/clean-core/detail/vector_base.hh:61-111", "src/clean-core/detail/vector_base.hh:202-218", "src/clean-core/detail/vector_base.hh:348-373", "src/clean-core/detail/vector_base.hh:391-422"]}
{"id": "C146", "title": "poly_unique_ptr destroys every object once, as its own class", "statement": "Through conversions to base classes, assignments, release, get and reset with released or new pointers, an object is alive exactly as long as a poly_unique_ptr owns it or it has been released; a pointer owns exactly the object last given to it; and each destroyed object is destroyed exactly once, with the destructor of its own class.", "quantifier": "all class hierarchies and all histories of operations", "why_tests_cant": "leaks and double deletes depend on the history of transfers; deleting through a base without virtual destructor often appears to work", "anchors": ["src/clean-core/poly_unique_ptr.hh:28-89", "src/clean-core/poly_unique_ptr.hh:102-117", "src/clean-core/poly_unique_ptr.hh:125-131"]}
