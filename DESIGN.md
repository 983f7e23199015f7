# Formal model of clean-core: design

Subject: the C++ sources in `/repo/src/clean-core` (read as text, never built). The
model and the proofs are in Rocq/Coq 8.16.1 under `rocq/theories` (logical path `Verif`).
Build: `cd rocq && coq_makefile -f _CoqProject -o Makefile && make -j4`.

## Method

* Every component `X` has up to four files: `XModel.v` (executable Gallina transcription
  of the C++ functions, each definition citing file and lines), `XSpec.v` (small spec
  written without the model's helpers), `XProofs.v` (lemmas) and `XProps.v` (only the property
  theorems, `exact`ed from the lemmas, an `Example` that the hypotheses are met by a
  non-trivial case, and `Print Assumptions`).
* Machine words are `N` (or `Z` where signed arithmetic matters) with the wrap-around written
  explicitly (`mod 2^64`, `mod 2^32`).  Undefined behaviour and contract violations
  (`CC_CONTRACT` / `CC_ASSERT`) are distinct outcomes of an outcome type, never assumed away.
* Loops are `fix`points on a structural argument where there is one and otherwise carry explicit
  fuel with a distinct out-of-fuel outcome, which a theorem excludes.
* Element types are abstract (`Type` with the comparison/hash/equality passed as a
  parameter of each definition and the laws as explicit hypotheses of each theorem).
* Object lifetime (constructed / destroyed / raw storage) is modelled as cell states, where a
  property speaks about lifetime.
* Concurrency is modelled as interleaving of atomic steps (one step per atomic operation or
  per non-atomic access), any number of threads, any schedule.  The step semantics are sequentially
  consistent, except for mpmc_queue (MpmcWeakModel.v), atomic_linked_pool (LPoolWeakModel.v),
  atomic_pool_allocator (PoolWeakModel.v) and
  atomic_linear_allocator (ALinWeakModel.v), which are also modelled
  with the release/acquire memory of C++, and spin_lock (views in SpinModel.v and SpinWeakModel.v).
* Where a property is false of the code we prove a `..._refuted` theorem (a concrete
  witness), and prove the strongest true restriction, suffixed `_partial`.
  The property text stays as it is and the MANIFEST status is `partial`.

## Trusted base

* The Coq kernel (8.16.1) and its `vm_compute`.
* `Print Assumptions` of every property theorem (printed during the build, in the `*Props.v`
  files): all are "Closed under the global context" unless listed below.
* No file of this development uses an axiom.  A checker that lists the axioms of all loaded libraries finds those of Coq's own
  ssreflect library (`Coq.ssr.ssrunder.Under_rel.*`), loaded transitively by the standard library; no theorem depends on them.
* The faithfulness of the transcription (comments cite the lines).  In particular: 64-bit target
  (`size_t` = 64 bit), two's complement, contracts enabled (`CC_CONTRACT` aborts), allocation
  never fails unless modelled, constructors do not throw.

## What is modelled

| files in theories | source | not modelled / simplified |
|---|---|---|
| Bits | bits.hh, bit_cast-free parts of utility | compiler builtins by their definition |
| Base64, Sha1 | base64.cc, hash.sha1.cc | - |
| Sort | sort.hh | element moves as swaps of values |
| Ring | experimental/ringbuffer.hh | - |
| FList | forward_list.hh | node identity as heap index |
| Set, Map, Bucket | set.hh, map.hh | node addresses as ids |
| Hash | hash.hh, hash_combine.hh, stringhash.hh, hash of vector, array, sbo_string, optional | values as their bytes; floating point numbers as their bits; little endian; pointers, xxh3 left out |
| DSet | experimental/disjoint_set.hh | - |
| Mpmc | experimental/mpmc_queue.hh | sequentially consistent interleavings |
| Vec | vector.hh, detail/vector_base.hh | the realloc path for trivial types |
| Capped | capped_vector.hh | - |
| Str | string_view.hh, char_predicates.hh | 64-bit loop counters of views below 2^63 characters |
| Sbo | sbo_string.hh | a heap block belongs to its string by value, so leaks and double deletes are not represented (SHeap, C126, does that) |
| Num | to_string.cc, from_string.cc | snprintf, strtol, strtoul are modelled from the C standard (LP64, "C" locale); floating point, pointers, wide characters, and char / bool with an integer type letter are left out |
| Span | span.hh, strided_span.hh, experimental/clamped_span.hh, experimental/wrapped_span.hh | strided_span: machine addresses modulo 2^64, forming an address without reading it is no error (reversed() of an empty span forms one before its data); construction from containers |
| Chunk | experimental/chunked_buffer.hh, experimental/flat_vector_of_vector.hh | the cc::vector members as lists; signed index types; ranges that alias the own elements |
| Arr | array.hh | trivially copyable types take the same path with memcpy / memset; heap blocks by position, allocation succeeds; hash and make_array |
| Alloc | allocators/linear_allocator.hh, allocators/stack_allocator.cc, allocators/stack_allocator.hh, native/memory.hh align_up_with_header | addresses are 64-bit numbers, pointer arithmetic wraps; bytes of the buffer as a map, client writes stay in live blocks; float ratio left out |
| VAlloc | allocators/virtual_linear_allocator.hh/.cc, allocators/virtual_stack_allocator.hh/.cc, native/memory.cc (Linux branch) | one reservation as a range of 64-bit addresses, accessibility per 4096-byte page; Windows branch, destroy, and prefaulting left out; synced_virtual_linear_allocator is in SyncModel.v |
| ALin | allocators/atomic_linear_allocator.hh | any number of calls in flight; the fetch_add is one step, the private rest of a call another; 64-bit addresses |
| Pool | allocators/atomic_pool_allocator.hh/.cc | one thread: whole calls; many threads: every access to the head or to a block is a step, sequentially consistent, spurious CAS failures included; unaligned next pointers as byte accesses |
| LPool | atomic_linked_pool.hh (generation checks on) | every access to the head or to the free list is a step, sequentially consistent, spurious CAS failures included; -1 as None; element storage, constructors, iterate_allocated_nodes, release_all and unsafe_release_node left out |
| Spin | spin_lock.hh | every access to the flag is a step; acquire / release as views of the accesses to the protected data; relaxed loads return anything; pause instructions left out |
| Tagged | (shared) | one piece of raw storage in which objects of several types live; worlds of variables |
| Opt | optional.hh | variables that may alias; values of one type; hash left out |
| Res | result.hh | variables that may alias; value and error types share the value set |
| Vari | variant.hh | any list of alternatives, types as numbers; value categories of constructor arguments; comparisons and transform left out |
| CBox | experimental/capped_box.hh | payload types as numbers; base types with a destructor; payloads constructed from values from elsewhere |
| SPtr | shared_ptr.hh | value type consists of shared_ptr members only; addresses are creation numbers; unbounded call stack; no conversion to shared_ptr<T const> |
| UPtr | unique_ptr.hh, poly_unique_ptr.hh | both classes in one model; objects consist of pointers only; raw pointers (release, reset with an argument) not modelled |
| BSet | bitset.hh | N as a number; code that does not compile counts as undefined; LP64 with 32 bit int |
| Flag | flags.hh, detail/compact_size_t.hh | enumerators as non-negative numbers; order comparisons (by value) left out |
| Fmt | format.cc, format.hh | arguments as name and conversion function; text of error messages; fewer than 2^31 arguments |
| `string_stream.hh` | SStrModel.v | blocks of a heap are never reused; pointer differences on released blocks are not represented |
| `atomic_linked_pool.cc` radix_sort | RadixModel.v | the arrays do not overlap; size_t counters are naturals |
| `less.hh`, comparisons of `pair.hh`, `tuple.hh`, `optional.hh` | LessModel.v | both sides of a comparison have the same type; comparisons do not fail |
| `allocator.hh`, `allocator.cc` | AArrModel.v | the virtual alloc is any choice of address and does not fail; constructors do not throw; blocks are numbered, never reused |
| `allocate.hh` | PAllocModel.v | one step per call (thread_local pools share nothing); operator new[] as numbered arrays |
| `detail/lib/tlsf.cc` | TlsfModel.v | 64-bit target; memory as a partial map of 8-byte words, access outside is UB; control tables with bounds checks; assert enabled; builtins for ffs/fls as bit positions; printf dropped |
| `allocators/tlsf_allocator.hh/.cc` | TlsfAllocModel.v | thin layer over TlsfModel.v; `_tlsf == nullptr` as None; the synced variant is in SyncModel.v |
| `detail/xxHash/xxhash.hh` (XXH32, XXH64, streaming, canonical form) | XxhModel.v | buffers are lists of bytes, pointers are offsets, a read or write outside is UB; little endian target; pointers compare like offsets, so the `limit` pointers before a short buffer are not an error in the model; XXH_ASSERT off |
| `detail/xxHash/xxh3.hh` (XXH3 64 and 128 bits, one-shot, streaming, state objects, aligned allocation), `hash.xxh3.cc` | Xxh3Model.v | buffers as in XxhModel.v; the build is a parameter (vector or scalar, `__uint128_t` or not, pointer width, assertions); AVX512, AVX2 and SSE2 are one function on 128-bit parts; NEON and VSX are left out; prefetching has no effect; assertions on null pointers and on alignment are left out; uninitialised local arrays have arbitrary contents; a secret pointer is the default secret, a user buffer that is never written, or the member of a state object |
| OwnHeap | (theory) owners of heap blocks | - |
| AllocArr | alloc_array.hh | allocators as numbers, an allocation always succeeds; construction from other containers as from a list of values |
| FwdArr | fwd_array.hh | new T[n] always succeeds; constructor and destructor calls are counted |
| CapArr | capped_array.hh | class types; N > 0; constructor and destructor calls are counted; operator== and != are never deduced |
| SysAlloc | allocators/system_allocator.cc, .hh | the Windows build is left out; answers of the C runtime are an input |
| UFun | unique_function.hh | allocation succeeds; callables do not change the function they are called through |
| Ints | utility.hh (min, max, clamp, int_div_ceil, int_ceil_to_multiple), detail/srange.hh, indices_of.hh | two's complement types of 8 to 64 bits; int has 32 bits |
| Algo | algorithms.hh, cursor.hh, any_of.hh | ranges are subranges of one array; element operations are total |
| Box | experimental/box.hh, poly_box.hh, fwd_box.hh, pimpl.hh | allocation succeeds; boxed values own no boxes; a heap object carries its dynamic type |
| ErrMsg | error_messages.cc | sizes below 2^30; split gives the lines (see the string_view model) |
| Watch | experimental/filewatch.cc (unix) | one thread uses filewatches, events are handled between its operations; paths denote the same directories throughout; inotify limits are not reached |
| CStr | temp_cstr.hh/.cc, print.hh/.cc | over AArrModel.v; the view does not overlap the buffer; fputs and puts write the characters in front of the first zero |
| TVec | vector.hh, alloc_vector.hh, vector_ex.hh, detail/vector_base.hh, detail/container_impl_util.hh | trivially copyable elements (realloc, memcpy, memmove); several vectors and allocators; allocation and reallocation succeed; byte sizes wrap around; elements are values |
| FRef | function_ref.hh, stream_ref.hh, range_ref.hh | objects with lifetimes; callables append to sinks; a container that grows while it is visited is undefined behaviour; no dereferencing ranges, no custom invokers |
| Sync | allocators/synced_tlsf_allocator.hh, allocators/synced_virtual_linear_allocator.hh, lock_guard.hh over SpinModel.v | one read and one write of the protected fields per call, other threads run in between; unlocked calls are accesses that can race; happens-before by the views of SpinModel.v |
| WConv | native/wchar_conversion.cc (branch without Windows), to_string.cc:23-32 | wcsrtombs and mbsrtowcs from the C standard in a UTF-8 locale are part of the trusted base; wchar_t holds code points |
| SHeap | sbo_string.hh: all functions that allocate, delete, copy or move | a heap of blocks that are never reused; functions that neither allocate nor delete are those of SboModel.v on the bytes _data points to; a new block enters the heap with its bytes |
| Assert | assert.hh, assert.cc, assertf.hh, macros.hh (CC_UNUSED, CC_ASSUME) | macro arguments are syntax trees with their text; unix branches only; stderr text in one piece; formatted messages have one integer argument |
| Defer | defer.hh | statements over integer variables; objects of a scope are functions; exceptions carry no value and always unwind |
| Intrin | intrinsics.hh | the builtins are indivisible and totally ordered; a processor is a function from leaves to registers; floats are rationals without rounding; the MSVC branches and intrin_pause are not modelled |
| Page | native/memory.cc (prefault_memory; commit and decommit from VAlloc) | reads are a list of addresses; the pointer wraps modulo 2^64, where C++ leaves overflow undefined; hardware prefetching and the physical pages behind the mapping are not modelled |
| Call | functors.hh, forward.hh, get.hh, apply.hh, invoke.hh, overloaded.hh, get of tuple.hh | types are reduced to copyable and movable; overload resolution between several functors, conversions, noexcept and std::tuple (whose get is called with an lvalue as well) are not modelled |
| SortCost | sort.hh with the number of calls of compare and is_right and the depth of the recursion | swaps and other work are not counted |
| SortMulti | sort_multi, sort_multi_by, sort_descending and sort_by_descending of sort.hh | ranges are lists named by numbers; the key function gets one value of each range |
| Grow | what growing costs in vector, sbo_string, string_stream, set and map | the models of those containers; the cost of an operation that changes the capacity is the number of elements present before |
| MpmcWeak | experimental/mpmc_queue.hh under release/acquire memory | histories of every atomic, views of threads, races on payloads are UB; stores are not delayed (no promises) |
| LPoolWeak | atomic_linked_pool.hh under release/acquire memory | history of the head with views, vector clocks for elements and generations, races are UB; stores are not delayed (no promises); the accesses of a call are one step with its compare-exchange or check |
| ALinWeak | allocators/atomic_linear_allocator.hh under release/acquire memory | newest value of the offset with the view left with it, vector clocks per byte, races are UB; reset is the newest store because its caller is ordered after everything |
| Range | is_contiguous_range.hh, constructors of span.hh and strided_span.hh from ranges, push_back_range of detail/vector_base.hh | types are sizes and relations, what compiles is part of the model, elements are trivially copyable byte lists |
| Coll | collection_traits.hh | types are the expressions that are well-formed on them; what compiles is part of the model; capacities unlimited; reference-qualified members left out |
| SpinWeak | spin_lock.hh with the memory orders as parameters | as Spin; a relaxed exchange reads no view, a relaxed store stores none |
| PoolWeak | allocators/atomic_pool_allocator.hh under release/acquire memory | a block is one location whose contents are the next pointer; history of the head with views; failed compare-exchanges order nothing; sizes, alignments and pointer checks as in Pool |
| WatchThr | experimental/filewatch.cc with threads | one monitor; every access to shared state is a step; the queue of inotify merges equal neighbours, has a capacity and reports overflow; names are numbers |
| LNodes | atomic_linked_pool.hh 31-269, 330-352, 407-459 in one thread | nodes are indices; compare-exchange never fails; the allocator always has memory; the free list has `extra` accessible elements behind it |
| Keys | hash.hh, equal_to.hh, set.hh and map.hh lookups with other key types, equality of optional, pair, tuple and string_view | key types are carriers with equality and hash; views are an address with the text there; integer comparison with the usual arithmetic conversions; float lookups only for the int64 witness |
| IdxVec | vector_ex.hh, vector_base.hh 61-111, 202-218, 348-422: what the index type does | integer index types of 8 to 64 bits; operations of VecModel.v behind the conversions |
| Poly | poly_unique_ptr.hh 28-131: conversions, release, get, reset with an argument | classes are numbers; objects own no other objects; no pointer adjustment |

## Properties

| property | how it is modelled and proved (plan / state) |
|---|---|
| C01 | words as N, shift/mask code transcribed; ctz/clz by definition of the builtin they call; proofs by N.log2/N.pow lemmas |
| C02 | testbit extensionality on N |
| C03 | N arithmetic modulo 2^64; nearest-multiple spec by divisibility |
| C04 | N arithmetic; orbit by induction |
| C05 | list-of-bytes transcription of the two loops; round trip by induction in blocks of three |
| C06 | bit-string spec (RFC 4648) over list bool, independent of the code's shifts |
| C07 | decode transcribed with explicit 4-slot buffer state, accesses checked |
| C08 | FIPS 180-4 transcription over list of bits/bytes as spec; buffer state machine of add/finalize as model |
| C09 | invariant of the builder state over fold of add |
| C10 | in-place array model with checked accesses and fuel; strict weak order as hypotheses |
| C11 | same engine with selection of sub-range |
| C12 | same engine; index_in_range/overlaps_range with 64-bit wrap |
| C13 | loop transcription, checked accesses |
| C14 | loop transcription |
| C15 | array + begin/end/mask words; refinement to list via rotation |
| C16 | heap of nodes (next pointers, freed flag); refinement to lists for a pool of lists |
| C17 | same heap model, self-alias |
| C18 | buckets as lists of lists; refinement to a finite set; any hash |
| C19 | iterator state machine over bucket array |
| C20 | defaulted move on the member tuple |
| C21 | buckets; refinement to finite map |
| C22 | iterator state machine |
| C23 | node identities in buckets, preserved by rehash |
| C24 | parent array with checked accesses; fuel excluded by rank measure; equivalence closure spec |
| C25 | interleaving semantics with per-thread program counters; inductive invariant over tickets |
| C26 | same; sequential corollaries |
| C27 | storage cells (raw/constructed) with checked construct/destroy; refinement to list |
| C28 | word arithmetic of the contract expression |
| C29 | storage cells |
| C30 | storage cells, capped |
| C31 | two-representation state, byte storage with checked accesses |
| C32 | same model, aliasing by offset into own storage |
| C33 | same model, defaulted/self move |
| C34 | list transcription with checked reads |
| C35 | generator state machine of split |
| C36 | word arithmetic |
| C37 | digit loops / snprintf-strtol by their C standard definition |
| C38 | strtol model with range behaviour |
| C39 | buffer writes checked |
| C40 | index arithmetic |
| C41 | chunk list model |
| C42 | flat storage + start/size arrays |
| C43 | address arithmetic on N, history fold |
| C44 | address arithmetic, header stored in memory map |
| C45 | address arithmetic |
| C46 | address arithmetic with committed interval |
| C47 | interleaving of fetch_add |
| C48 | free-list in memory map |
| C49 | interleaving with explicit ABA schedule |
| C50 | interleaving, versioned head |
| C51 | generation arithmetic modulo 2^13 |
| C52 | checked writes |
| C53 | interleaving; invariant |
| C54 | storage cell |
| C55 | index computation over a type list; storage cell |
| C56 | storage cell |
| C57 | heap of counted objects with nested handles |
| C58 | heap of owned nodes |
| C59 | storage cell with destructor pointer |
| C60 | word array model |
| C61 | word model |
| C62 | parser state machine over list of characters against a language of pieces with a meaning; every accepted string is in the language |
| C63 | same, reads of the block around the view are checked; C strings have one more readable character |
| C64 | bijections of words: explicit inverse of the multiplier, composition; bytes and IEEE bit patterns |
| C65 | TlsfMapProps.v: class intervals over N with log2; bitmap search by bit specifications. |
| C66 | TlsfPhysProofs.v .. TlsfPoolProofs.v: invariant that ties the physical list of blocks of every pool to the free lists and bitmaps; each operation is shown to keep it; TlsfHistProofs.v lifts it to client histories (TlsfSpec.v). |
| C67 | PAllocProps.v: each pool refines a stack of slots; free slots and live objects together are a permutation of all slots of all arrays. |
| C68 | RadixProps.v: radix_sort yields the sorted permutation (each pass is a stable counting sort; digits are combined lexicographically). |
| C69 | SStrProps.v: simulation against lists of characters over a heap that detects out-of-bounds writes, double frees and leaks. |
| C70 | LessProps.v: heterogeneous tuples over any list of component types; lexicographic order by induction on the list. |
| C71 | AArrProps.v: byte-level heap with blocks, alignment and the objects alive; loops with the 32-bit counter of the code. |
| C72 | trivial constant |
| C73 | set model: the argument of add is a value or a reference to a stored element; rehashing frees the referenced node |
| C74 | vector model: the source range is read after reserve; dangling once the elements have moved |
| C75 | word arithmetic of the contract, list windows |
| C76 | loop transcription, unique characterisation of the result |
| C77 | loop transcription against an inductive definition of lexicographic order |
| C78 | strncmp by its C standard definition |
| C79 | SboModel: replace with a view of the own bytes (memcpy overlap is UB); counterexample, and the cases that work |
| C80 | SboModel: contracts of every operation; counterexample pos + count wraps |
| C81 | text_fmt on parsed arguments; padded field as an independent relation (NumSpec) |
| C82 | finite computation plus case analysis on texts |
| C83 | StrModel; terminator search by induction |
| C84 | SpanModel: loops over one allocation; splice on lists |
| C85 | SpanModel: index arithmetic in Z |
| C86 | SpanModel: size arithmetic in 64-bit words |
| C87 | ChunkModel: destructor; owned blocks are 0..n-1 |
| C88 | ArrModel: heap of cells with lifetimes, objects as owners; refinement to a store of sequences |
| C89 | State machine over addresses, header bytes and page accessibility; invariant over histories: the header chain describes the live blocks. |
| C90 | Characterise the accepted pointers exactly; loop model with the 32-bit counter and fuel. |
| C91 | language of pieces with a meaning; parser correct on it, and every accepted string is in it |
| C92 | byte array with checked reads |
| C93 | low bits of the combined hash depend on the low bits of the hash only |
| C94 | PAllocProps.v: when a new array is made all slots of the kind are alive (one pool); unbounded witness for two pools. PAllocThreadsProps.v: unbounded witness for threads that end. |
| C95 | TlsfProps.v: part of the history invariant; every operation leaves the payload of other used blocks alone. |
| C96 | TlsfRealProofs.v for the four paths of realloc, TlsfProps.v for histories. |
| C97 | TlsfProps.v: neighbouring free blocks are always merged, so a stretch without live buffers lies in one free block; the search finds it by C65. |
| C98 | TlsfAllocProps.v: each call of the interface is one client operation on a reachable heap. |
| C99 | XxhSpec.v restates the published algorithm as a fold over stripes. XxhProofs.v shows that every read is in bounds and that the state after any updates holds the fold over the full stripes and the rest. |
| C100 | As C99 with 64-bit words. |
| C101 | XxhProps.v: byte swapping reverses the base 256 digits. |
| C102 | Xxh3Spec.v gives the hash as sums over pieces and a fold over stripes. Xxh3Proofs.v and Xxh3ShortProofs.v show that each length class of the code computes it with all reads in bounds. |
| C103 | Xxh3StreamProofs.v: an invariant of the state over any updates says which bytes are consumed, which are in the buffer, and whether the last 64 bytes are still in the buffer. |
| C104 | Xxh3Props.v: executions over a list of state objects, with secret pointers into objects. |
| C106 | Xxh3Props.v: comparison of hashes is comparison of 128-bit numbers and of canonical bytes. |
| C107 | Xxh3Props.v: arithmetic on addresses. |
| C105 | XxhInjectProps.v: each step (odd multiplication, rotation, xor shift, xor with two rotations) is injective on words; a pass over stripes of which one differs keeps exactly one accumulator different. |
| C108 | AllocArrProps.v: history refinement to a store of sequences; the representation (OwnHeap.v) gives every live array its own block of its own allocator. |
| C109 | FwdArrProps.v: history refinement on the same representation, with an invariant on constructor and destructor counts. |
| C110 | CapArrProps.v: history refinement with inline storage; loops are described by the range of cells they replace. |
| C111 | SysAllocProps.v: history refinement to a store of byte blocks over any answers of the C runtime; the invariant ties each live chunk to one block of the C runtime and, in the fallback, to the header in front of it. |
| C112 | UFunProps.v: history refinement; every function owns a chain of heap blocks, the chains are disjoint and cover all live blocks. |
| C113 | IntsProps.v: integer arithmetic with promotion, wrapping of unsigned and undefined overflow of signed types, against the characterisation of rounded quotients and multiples. |
| C114 | IntsProps.v: case analysis for any strict weak order. |
| C115 | IntsProps.v: induction on the length of the range; reversed ranges wrap below the begin. |
| C116 | AlgoProps.v: cursors over one array, so ranges can overlap; loop invariants against list replacement. |
| C117 | AlgoProps.v: induction on the range. |
| C118 | BoxProps.v: history refinement over the owner heap theory, for all four kinds of boxes at once. |
| C119 | ErrMsgProps.v: invariant of the layout (rows and columns of markers and texts), drawing as a sequence of cell assignments where the last one wins. |
| C120 | WatchProps.v: simulation; the files of all monitors, taken together, are the files of the valid watches. |
| C121 | CStrProps.v: over the allocator heap of C71; reading c strings by induction on the characters. |
| C122 | TVecProps.v: simulation of a store of ideal sequences with capacities and allocators; blocks owned through OwnHeap.v; each operation keeps, replaces or gives back the block of its vector. |
| C123 | FRefProps.v: simulation by routes; a reference has a destination and the objects that must be alive; kinds of objects never change, so routes stay valid while objects change or die. |
| C124 | SyncProps.v: invariant that ties each thread to its place in the lock (SpinProofs.inv) and an order of effects that grows at the write of each call; the order is append-only, so every call that returned before another started stays before it. |
| C125 | WConvProps.v: UTF-8 as a relation between code points and bytes (groups of six bits, shortest form); encoder and decoder of the C library agree with it; the loops store the longest prefix that fits. |
| C126 | SHeapProps.v: strings with pointers into a heap of blocks; every function simulates its counterpart of SboModel.v and touches only the own block (local); a store invariant gives exclusive ownership; C31 gives the characters. |
| C127 | expressions with effects as syntax trees; the macros are functions from trees to trees; evaluation with handlers, throws and process death; condition evaluated once, message only on failure, continued only if true |
| C128 | a statement language with scopes, objects and exceptions; exec keeps the objects of a scope; proved equal to a continuation semantics in which CC_DEFER is try/finally; traces are well bracketed |
| C129 | atomic builtins as indivisible steps; executions are sequences of operations; sums, tickets, exchanged values and first setters follow by induction; cpuid through a processor given as a function; Newton step over the rationals by field |
| C130 | reads of prefault_memory as a list of addresses over the address space of VAllocModel; the loop by induction on pages; commit and decommit through their exact page sets |
| C131 | arguments as expressions with an object, a value category and const; parameter initialization decides between binding, copying, moving and not compiling; get and apply by induction on the members, compared with what the standard gives for a tuple that is used up |
| C132 | the sort model once more with a counter; erasing the counter gives SortModel; the partition step compares between n and n + 1 times, the rest by induction on the recursion |
| C133 | sort_ex over arbitrary get and swap closures; a simulation shows that it does to the ranges what the sort of SortModel does to the list of their indices |
| C134 | a potential argument over the traces of the existing models: one lemma for any container whose capacity at least doubles when it changes |
| C135 | a view-based release/acquire machine over the program points of MpmcModel.v; the invariant ties views to the newest entries of the histories where a thread is about to touch a payload |
| C136 | a view-based release/acquire machine over the program points of LPoolModel.v; the invariant says that the owner, the pending caller or the view left with the head (or with the free-list entry) is ordered after all accesses to a slot |
| C137 | a view-based release/acquire machine over ALinModel.v: the owner of a call is ordered after all accesses to its region, the view left with the offset after all accesses to the bytes above it |
| C138 | what the compiler accepts and the bytes that are read, for every relation between the element types; exact conditions for being right |
| C139 | a type is the set of expressions that are well-formed on it; what compiles is part of the model; flags and functions compared with what a loop over the collection does |
| C140 | the machine of C53 with the three orders as parameters; a two-thread execution that races for every order that is switched off |
| C141 | history of the head with views; the invariant splits blocks into free list, popped and owned ones and orders the owner of a block after all its accesses |
| C142 | interleaving machine with the queue of inotify; invariants for the lock and flags, for the stopping thread, and for pending changes; a counter of remaining steps of the thread |
| C143 | pool state with live cells, free list, calls and blocks; invariant that the free list and the owned nodes partition the pool; the sorted free list gives the ascending visits |
| C144 | KeysModel/Proofs/Props.v: a key type is a carrier with the equality and hash the code selects; equivalence and consistency by induction over the type; sets and maps reuse the C14/C15 models with the functors of the key type; lookups by other types compare with the operator== of the two types and hash the converted key |
| C145 | IdxVecModel/Props.v: arguments are integers converted to index_t and to size_t (conversions of KeysModel.v) in front of the operations of VecModel.v; one step refines the sequence indexed by integers, from the step lemma of C27 |
| C146 | PolyModel/Spec/Proofs/Props.v: pointers with static class, heap with dynamic class, log of destructors; refines a map from objects to the one place where they are |

## Where the code does not have the property

Each entry is backed by a `..._refuted` theorem with a concrete witness; the rest of the sentence says what is proved instead.

* **C07** The tail of the decoder reads characters of its local buffer that it never wrote when the text has 1 or 2 characters (indeterminate value), and a text of 2^32 characters decodes to nothing (int length). Proved for shorter texts with the unwritten bytes fixed.
* **C12** quickselect_range casts count to a signed type: count = SIZE_MAX sorts nothing, and idx > 0 with a huge count overflows (UB). Proved when idx + count does not overflow.
* **C17** Copy- or move-assigning a forward_list to itself empties it. Proved for all histories without self-assignment.
* **C20** A moved-from set or map keeps its size and a lookup in it violates a contract. Proved: the destination holds the old contents, clear() makes the source usable again, moving from an empty one is fine.
* **C28** remove_range checks start + count in size_t; the wrapped sum passes and elements out of range are touched (UB). Proved when the sum does not wrap.
* **C29** shrink_to_fit moves the elements but frees the old storage without destroying the moved-from elements. Proved: contents and capacity; exactly when nothing is left behind.
* **C30** Moving from a capped_vector sets the source size to 0 without destroying its moved-from elements. Proved for all histories without moves, and the destination of a move.
* **C31** remove_prefix and remove_suffix do not write a terminator, so c_str() is not terminated at size() afterwards. Proved for all histories: contents always equal the ideal characters, and the terminator is there unless one of these was the last to change the end.
* **C33** A moved-from long sbo_string has null data with its old size; self-move of a long string frees its characters and leaves a size above the capacity. Proved: short strings, and clear / assign / destroy of a moved-from string.
* **C36** subview_clamped(offset, size) with a wrapping sum skips the clamp and returns a view of 2^64 - 1 characters. Proved when the sum does not wrap.
* **C38** from_string goes through 64-bit strtol / strtoul: "4294967296" is the int 0, "-1" an unsigned, leading blanks are accepted; the string_view overloads stop at a NUL and after 255 characters. Proved: exactly what is accepted (and full for int64_t up to blanks); no number in range is rejected.
* **C39** Base 2 prints nothing for 0 and ignores the width; alignment is ignored; the sign precedes blank padding; "#x" over-reads its stack buffer for large values; the most negative int / long overflows. Proved: the field in all other cases, memory safety, and the grammar.
* **C40** subspan(offset, count) checks offset + count in size_t: subspan(1, SIZE_MAX) passes on every non-empty span and gives a span of 2^64 - 1 elements. Proved: every chain of slices whose sums do not wrap, and all element access and iteration.
* **C41** for_each_chunk skips the current chunk when it is exactly full: with chunk size c the last c elements are lost whenever the count is a multiple of c. A chunk size whose byte count wraps 64 bits allocates too little. Proved: chunks(), size and address stability for all other chunk sizes; exactly what for_each_chunk visits.
* **C42** With an index type narrower than size_t the start of a range is truncated: 256 elements and an 8-bit index make the first range empty. Proved while the number of elements fits the index type (always for the default).
* **C43** realloc ignores its alignment argument (the block stays where it is). Sizes near 2^64 wrap past the bounds check. get_allocation_size answers only for the most recent block. Proved: everything else for all histories.
* **C44** A stale pointer whose old header has not been overwritten is accepted by free and releases a different live block; alignments above 2^31 overflow the 32-bit padding field. Proved: blocks, exact restoration, detection of older live blocks and of an immediate double free.
* **C46** alloc rounds the whole request, not the missing part, up to chunks, so requests that fit in the reservation fail; sizes near 2^64 wrap past the check; decommit_physical_memory with a chunk size below the page size takes away pages of live blocks, and its return value is close to 2^64 when the reservation is not a multiple of the chunk size. Proved: every block is committed, disjoint and inside; a request succeeds exactly when its chunk-rounded size fits; no request faults.
* **C47** A size near 2^64 wraps the reserved amount to 0 and passes both checks; calls in flight that are about to fail can wrap the offset so that another thread gets a block that is already handed out; a request that does not fit writes its header behind the buffer before it is rejected. Proved: all interleavings in which the sum of the requests stays below 2^64.
* **C49** ABA: the compare-exchange of alloc succeeds after the head was taken and returned in between, and an owned block becomes the head of the free list. Two threads racing for the last block: the slower one reads through a null pointer. Proved: all interleavings in which allocs do not overlap each other, or do not overlap frees.
* **C50** The version counter of the free list head has 32 bits: a thread sleeping between its load and its compare-exchange while others change the head a multiple of 2^32 times hands out an owned slot. Proved: all interleavings in which no acquire sleeps through 2^32 changes.
* **C51** The 13-bit generation counter wraps: after 8192 releases of a slot an old handle is alive again. Proved: exactly when a stale handle is reported alive, and that it is detected while its slot has been released fewer than 8192 times.
* **C52** initialize allocates sizeof(int32_t) * (size - 1) bytes for the free list but writes size elements: a heap overrun for every pool size. Proved: with one more element all accesses are inside (the theorems for C50 and C51 assume that).
* **C54** Copy-assigning an optional to itself destroys the value and leaves it empty; emplace and assignment from a reference to the own value read the destroyed object. Proved: all histories without these.
* **C55** variant(T&&) computes the index from T instead of decay_t<T>: constructing from an lvalue stores the value but the tag of the last alternative, so is is wrong and the destructor destroys a wrong type. index_of_type returns the last index instead of -1 for types that are no alternative, so the static_asserts never fire and is<Y>() is true for such Y. More than 256 alternatives overflow the index byte. Assigning a variant (or the value it holds) to itself reads a destroyed object. transform and copies of non-const variants do not compile. Proved: all histories without these.
* **C56** Moving a result to itself destroys its content and then moves from the destroyed object. Proved: all histories without that.
* **C57** Both assignments drop the old object first and read the right hand side afterwards: if the right hand side is a member of an object that only the left hand side keeps alive (head = head->next, head = move(head->next)), it is used after its destruction. Proved: all histories without this, and that exactly the assignments excluded have undefined behaviour.
* **C58** Move assignment frees the old object first and reads the right hand side afterwards: p = move(p->next) reads and writes a pointer inside the freed head. Proved: this is undefined for every structure and every non-null p; all other histories are correct.
* **C59** The move constructor clears the destructor of the moved-from payload, which is then leaked. Move assignment takes over the destructor of the source without clearing it: from a moved-from box it later runs on raw storage, and with memcpy (trivially movable payloads) the payload is destroyed twice. Moving a box to itself moves from a destroyed payload. Proved: histories without these. get() does not compile.
* **C60** operator~ sets the unused bits (any, all, ==, >> are then wrong), 1 << idx is an int (undefined from index 32 on, index 31 touches all higher bits), all() and << do not compile for N >= 31. Proved: all programs without these, for N up to 64.
* **C61** 1 << e is an int: with 64 bit storage enumerators from 32 on are undefined, enumerator 31 sets all bits from 31 on, iteration over such values and to_string are undefined. Proved: storage up to 32 bits, and enumerators below 31 with 64 bits.
* **C63** The switch on the conversion letter reads *curr without comparing it with the end: format_to with the view "%5" reads behind the view, for every view that ends in an unfinished specification. Proved: these are the only ones, and C strings are safe.
* **C65** `tlsf_add_pool` lets a pool of exactly 2^32 bytes pass (`pool_bytes > block_size_max`), whose class index 25 is behind `sl_bitmap` and `blocks`: out-of-bounds write. Requests above 2^32 - 2^26 are always refused, even if a free block of that size exists.
* **C66** `tlsf_malloc` with a size above 2^64-8 wraps around in `align_up` and succeeds with a 24-byte block; `tlsf_memalign` with alignment 2^63 wraps around and returns an unaligned block.
* **C67** `cc::alloc<T>` with `sizeof(T) > 65536` computes a block size of 0 and always fails the contract of `pop`.
* **C69** `reserve(n)` computes `size() + n` without an overflow check, so a huge `n` wraps around and nothing is reserved; `ss = move(ss)` empties the stream and releases its block.
* **C70** `cascaded_less` decides with `!=` (the comment says `==`) whether to look at the next component; if `!=` is finer than `<`-equivalence the result is not a strict weak order, although every component is one. `cc::pair` and `cc::tuple` have no `operator<`.
* **C71** `new_array`: the loop counter `auto i = 0u` has 32 bits, with 2^32 or more elements the constructors never end; `sizeof(T) * num_elems + padding` is not checked for overflow (`new_array<uint64_t>(2^61)` returns a block of 8 bytes); the count is written through a `size_t*` into memory that is aligned for `T` only; `alloc_data_copy` of an empty span calls `memcpy` with a null pointer.
* **C72** array<T, N>::empty() returns N > 0, the opposite of emptiness for every N.
* **C73** set.add(reference to an own element) frees that element while rehashing, before using the reference. Proved: a no-op exactly if no rehash is needed.
* **C74** push_back_range of own elements reads freed storage if it grows. Proved: right exactly if it does not grow.
* **C75** subview accepts a wrapping offset + size. Proved when the sum does not wrap.
* **C78** ascii_lexicographical_less stops at an embedded NUL and then compares lengths only, so it is not a total order. Proved for NUL-free strings.
* **C79** In the in-place path replace / insert move the tail before reading the replacement: a view into the string is read after it changed, or memcpy overlaps. Proved: views before the replaced part, and all replacements that reallocate.
* **C80** replace and replaced check pos + count in size_t: "abc".replace(1, 2^64 - 1, "") becomes "aaaa". Proved when the sum does not wrap; all other operations.
* **C81** A precision that cuts the text drops the width. Proved in all other cases (texts below 2 GiB).
* **C87** The destructor frees the chunks without destroying the elements. Proved: every block is freed exactly once.
* **C88** resize(n, a[i]) destroys the elements before it copies the value; array(n) with n * sizeof(T) beyond 2^64 allocates too little. Proved: all other histories, including self-assignment and release of every block.
* **C90** free and get_node_offset_bytes accept the address behind the last block (`<=` instead of `<`): free then writes outside the buffer or makes an incomplete block available. The linking loop counts in 32 bits and never ends for more than 2^32 blocks. Proved: exactly these pointers are accepted.
* **C91** Argument numbers wrap: {18446744073709551616} prints argument 0. format_to<F>(string&, ...) drops F and uses the default formatter. The documented "{.2f} %6d" always fails an assertion (a colon is required). Proved: the meaning of every format string, and that no other strings are accepted.
* **C92** stringhash_n tests *s before n > 0 and so reads the character behind the n given ones: undefined for a range without terminator. stringhash_n(s, 0) is 0 but stringhash("") is not. Proved: all other cases.
* **C93** set takes the combined hash modulo the number of buckets. The low bits of the combined hash depend only on the low bits of the hash, which are 0 for doubles with small integer values: a set of the doubles 1 .. 2^20 - 1 is a single chain. Proved: integers spread perfectly. (map mixes the high bits in.)
* **C94** Objects allocated on one thread and freed on another are kept by the pool of the latter: memory grows without bound with a single object alive (the source has a TODO about work stealing). The pool of a thread that ends is lost, also when the thread freed all of its objects.
* **C96** `tlsf_realloc` of a live buffer to 2^32-7 bytes or more: `adjust_request_size` answers 0 for "too large", realloc reads this as "fits", trims the block to nothing, writes a header over the data and returns the pointer as success. The next malloc overlaps the buffer.
* **C98** `tlsf_allocator::realloc` ignores its alignment. `tlsf_allocator::initialize` only asserts that the buffer is larger than the tables; `tlsf_create_with_pool` ignores that `tlsf_add_pool` refused the rest, so every alloc fails. The class also declares `operator==(tlsf_allocator&&)` where move assignment was meant.
* **C102** With `DEBUGLEVEL >= 1`, `XXH3_len_4to8_64b` asserts `len < 8` (xxh3.hh:702) but is called for 4 to 8 bytes: every 8-byte input aborts (`C102_eight_bytes_assert_refuted`).
* **C103** `XXH3_update` consumes whole 256-byte blocks straight from the input and does not keep their last 64 bytes. `XXH3_digest_long` completes a final partial stripe from the buffer, which holds stale or uninitialised bytes. One update with 257 bytes gives another digest than `XXH3_64bits` (`C103_one_update_refuted`), so do updates with 256, 256 and 1 bytes (`C103_three_updates_refuted`).
* **C104** `XXH3_copyState` copies the `secret` pointer. After a reset with a seed it points into the source, so the copy dangles when the source is freed and changes when the source is reset (`C104_copy_refuted`).
* **C108** resize and reset of an alloc_array with one of its own elements read it after its storage was given back; byte counts wrap at 2^64; reset with a null allocator is refused only after the storage was given back; uninitialized storage of a class type is destroyed. Elements of defaulted arrays of trivial types have no value.
* **C109** The constructors of fwd_array from a list or a span construct over the elements that new T[n] made, which are never destroyed.
* **C110** Moving a capped_array leaves moved-from elements that are never destroyed, self move assignment empties the array, emplace reads an own element after its destruction, uninitialized storage of a class type is destroyed.
* **C111** system_realloc copies into the result of a failed allocation, so try_realloc of a live block without memory is undefined; the malloc fallback adds its header to the size without an overflow check.
* **C112** The constructor template of unique_function forwards the decayed type, so it moves from callables that are only named; it also accepts named unique_functions, which are moved into a second block, and empty ones, which give a valid function that refuses calls.
* **C113** int_ceil_to_multiple truncates: -20 is rounded to -10 for multiples of 10. Near the largest value it overflows although the result is representable: 4294967290 is rounded to 0 for multiples of 10 of 32 bit unsigned integers, 2147483640 is undefined behaviour for signed ones.
* **C115** Reversing a range that begins at the smallest value of int overflows, and so does iterating indices_of a negative number.
* **C116** copy to a destination that begins inside of the source repeats elements.
* **C118** poly_box deletes derived objects through classes without virtual destructor unchecked, and deletes its object before it constructs the new one, so assignment and emplace from the own contents read freed memory. The conversion to a reference of all boxes is not checked for moved-from boxes, unlike operator*.
* **C119** make_error_message_for_substrings fails a contract for targets that span several lines: in the second line the marker begins at a negative column.
* **C120** Of two filewatches with the same path only the older one is notified (the search stops at the first entry of that name); files replaced by renaming are never reported (IN_MOVED_TO is not requested).
* **C121** temp_cstr, and with it cc::print, of a default constructed string_view calls memcpy with nullptr; cc::print stops at the first zero in a view; the count of the array is written to memory requested with alignment 1.
* **C122** vector(size), vector::defaulted, vector::uninitialized and the same of alloc_vector do not check the size: size * sizeof(T) wraps around and elements outside of the block pass the index check. remove_range(1, SIZE_MAX) of a vector with spare capacity adds an element. v.push_back_range(v) reads freed memory when v grows.
* **C123** The default constructor of stream_ref stores the address of a temporary lambda: the first write to a default constructed stream_ref, documented to behave like /dev/null, calls a dead object.
* **C124** initialize of both synced allocators and get_backing of the virtual one access the backing allocator without the lock; synced_virtual_linear_allocator does not override get_allocation_size, so it answers false for blocks whose size the backing allocator knows.
* **C125** to_string(wchar_t const*) makes room for one byte per wide character, so text that is not ASCII is cut and padded with zero characters; widechar_to_char divides opt_num_src_chars by sizeof(wchar_t); char_to_widechar reads beyond opt_num_src_chars when characters have several bytes; a count of 0 reads until the terminator; an empty null span gets the count of a full conversion as result.
* **C126** sbo_string copy assignment and fill delete the old characters before allocating: if operator new throws, _data is left dangling and the destructor deletes it again; a short string keeps the size of the string it was assigned from.
* **C127** CC_ASSUME(i < n) with gcc expands to !i < n and is undefined behavior for every n > 1; CC_ASSERT_IN_BOUNDS(i++, 0, n) increments twice and fails for i = n - 1; a handler with a failing check recurses forever; the process dies of SIGTRAP, never of SIGABRT.
* **C128** deferred<F> is copyable (both copies run the code) and not nodiscard (an unnamed result runs it at once); its destructor is noexcept, so deferred code that throws terminates the program.
* **C129** test_cpuid_register computes (info[reg] >> bit) != 0: POPCNT is reported on every processor with any of the bits 23 to 31 set, for example in every virtual machine; the registers are read uninitialized when __get_cpuid does not know the leaf.
* **C130** decommit_physical_memory rounds outwards: a range that shares a page with live data takes that data away, and a range of size 0 that does not begin at a page boundary takes a whole page away. Contents survive decommit and commit, so nothing is given back (the TODO in the code suspects this).
* **C131** cc::get takes T&& v but passes v on by its name, and tuple::get has no && overload: apply(f, move(t)) copies the members instead of moving them, and does not compile if f takes T&& or a member can only be moved. overloaded copies each functor once more and rejects lambdas that captured a unique_ptr.
* **C132** sort documents O(n log n) comparisons in the worst case and O(n) in the best, quickselect O(n). partition_right puts elements equal to the pivot on its right, so n equal elements are split off one at a time: n (n - 1) / 2 comparisons and a recursion n - 15 deep, which exhausts the stack for large ranges. (A TODO beside the comment says that the guarantees are not implemented.)
* **C133** sort_multi with the same range twice (e.g. as key and as value) exchanges every pair twice: nothing moves, [2, 1] stays unsorted and 17 descending elements make the partition read out of range. No assertion excludes it.
* **C134** sbo_string::resize grows through reserve, which allocates exactly the requested size (sbo_string.hh:244-253): a string that is resized by one character at a time is reallocated and copied every time, quadratic in its size; vector::resize at least doubles.
* **C135** a queue that is observed without other synchronization may claim to be full (enqueue) or empty (dequeue) although operations that have already returned, in real time, made it otherwise: the sequence loads may return old values.
* **C136** is_alive reads the generation without synchronization while release increments it: asking whether a handle is still alive while another thread may release it is a data race. acquire may report a full pool from a stale load although all slots have been released.
* **C138** span<Base> and strided_span<Base> can be made from a container of Derived, and vector<Base>::push_back_range takes a non-const one as contiguous: elements after the first are read from the wrong addresses. is_contiguous_range<vector<Base>, Derived> is true, so span<Derived> is chosen in overload resolution and fails to compile.
* **C139** collection_begin, collection_end and get do not compile for const cc::array<T, N>, and its element_t is not const. A non-const map is an indexed range: cc::get(map, i) adds the key i.
* **C141** overlapping allocs of atomic_pool_allocator race: one reads the next pointer inside of a block that another thread already got and writes (atomic_pool_allocator.hh:29)
* **C142** destroying the last filewatch of a deleted directory never returns (filewatch.cc:165, 283-293); the documented use of filewatches (reload, then set_unchanged) loses changes made in between; an overflow of the inotify queue is ignored and loses changes
* **C143** acquire on a default-constructed, zero-sized or destroyed atomic_linked_pool follows a null or freed free list although is_full() is false (atomic_linked_pool.hh:98-113, 184, 442-457); after destruction of a full pool is_full() stays true
* **C144** cc::string_view has no cc::hash, so the default hash takes its pointer and size: equal texts at different addresses are different keys of a set or map of views (hash.hh:20-53, string_view.hh). NaN keys are added every time and never found or removed. Values of more than 8 bytes are read through uint64_t pointers that may be misaligned (hash.hh:38-42). A set of int64 does not find 16777217 by 16777216.0f although they compare equal. map::operator[] with a key of a wider type adds a new entry on every use when the conversion changes the value (map.hh:110-127).
* **C145** vector_ex::remove_first and remove_first_unordered pass a size_t to remove_at(index_t) (vector_base.hh:348-373): with an index_t of one byte and the first match at i >= 256 they report true but remove element i mod 256, the match stays. Indices that are no values of index_t wrap around without a contract violation (v[259] is v[3]).
* **C146** poly_unique_ptr<T> converts from poly_unique_ptr<U> for every base T of U (poly_unique_ptr.hh:52-66) and deletes through T* (46, 63, 71, 78), but nothing asks for a virtual destructor: without one, destroying, resetting or assigning the converted pointer is undefined.
