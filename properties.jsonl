{"id": "C01", "title": "Buddy pool never hands out overlapping memory", "statement": "Whatever sequence of allocation and release requests the pool has served, any two storages that are currently allocated occupy disjoint byte ranges, every one of them lies inside a segment the pool obtained from the backend, its range is at least as long as the request, and it is aligned (relative to its segment) to its own power-of-two size.", "quantifier": "all finite sequences of alloc/free requests with arbitrary sizes, all pool configurations whose first segment is exactly 2^max_order bytes and whose minimum order is at most 29 (for other accepted first-segment sizes the property is false of the code, see C01_non_power_of_two_segment_refuted)", "why_tests_cant": "overlap only shows after particular split/merge histories; the space of histories is unbounded", "anchors": ["mllm/engine/BuddyMemPool.cpp: allocBuddy, freeBuddy", "mllm/engine/BuddyMemPool.hpp: BuddyMemPool"]}
{"id": "C02", "title": "Buddy pool coalesces completely", "statement": "When every allocated storage has been released (in any order) each segment is again one single free block of its full size, its used counter is zero, and a request for the whole segment would succeed; at every moment free bytes plus allocated bytes of a segment equal its capacity.", "quantifier": "all alloc/free histories and all release orders", "why_tests_cant": "fragmentation bugs depend on the interleaving of releases; no finite set of orders is conclusive", "anchors": ["mllm/engine/BuddyMemPool.cpp: freeBuddy, allocBuddy"]}
{"id": "C03", "title": "Buddy pool allocation always terminates with a block", "statement": "For every request size the pool answers with a block (growing by a new segment if needed) or reports an error; it never recurses forever.", "quantifier": "all request sizes and all pool states", "why_tests_cant": "non-termination is not observable by a finite test", "anchors": ["mllm/engine/BuddyMemPool.cpp: allocBuddy, expandBuddySegment"]}
{"id": "C04", "title": "Object cache returns only idle blocks that are large enough", "statement": "A block served from the object cache is not in use by any other storage and is at least as large as the requested size; releasing then re-requesting keeps the number of blocks constant.", "quantifier": "all histories of allocations and releases mixing cached and uncached sizes", "why_tests_cant": "aliasing requires a specific history", "anchors": ["mllm/engine/BuddyMemPool.cpp: alloc, free, allocObjCache, freeObjCache, isInObjCache, updateCacheSizeList"]}
{"id": "C05", "title": "Prefix search reports only genuinely stored prefixes", "statement": "If a prefix search for a token sequence reports a matched length n, then the first n tokens of the query are a prefix of some sequence that was inserted before.", "quantifier": "all insertion histories and all queries", "why_tests_cant": "depends on the tree shape produced by arbitrary split histories", "anchors": ["mllm/engine/prefix_cache/RadixTree.cpp: RadixTree::search, insert, _split, _matchedLength"]}
{"id": "C06", "title": "Prefix search finds the longest stored prefix and its cache addresses", "statement": "For a query, the search reports the length of the longest prefix shared with any inserted sequence, and the K/V addresses it returns for the matched tokens are the addresses that were inserted for those tokens (by the first insertion that introduced that prefix).", "quantifier": "all insertion histories and all queries", "why_tests_cant": "needs a relation between the whole insertion history and the query", "anchors": ["mllm/engine/prefix_cache/RadixTree.cpp: RadixTree::search, insert, _split"]}
{"id": "C07", "title": "Virtual address fields round-trip", "statement": "Composing a cache address from a blob, page and lane number and extracting the three fields again returns the same numbers, and two different in-range triples give different addresses.", "quantifier": "all page/lane bit widths whose sum is below 32 and all in-range triples", "why_tests_cant": "2^32 addresses times all bit-width splits", "anchors": ["mllm/engine/prefix_cache/TLB.cpp: getBlobAddr, getPageAddr, getLaneAddr", "mllm/engine/prefix_cache/ZenFS.cpp: malloc"]}
{"id": "C08", "title": "Two live K/V cache lanes never share an address", "statement": "For every history of malloc and free calls on the cache file system, the addresses currently allocated are pairwise different, and an address released by free is the one that becomes available again.", "quantifier": "all malloc/free histories over any number of blobs", "why_tests_cant": "requires a history that frees from a page other than the first", "anchors": ["mllm/engine/prefix_cache/ZenFS.cpp: malloc, free, _findFreeAddrInBlob, _createBlobOnDisk, _createBlobOnAnonymousFile"]}
{"id": "C09", "title": "Cache lanes map to disjoint in-blob byte ranges", "statement": "The byte ranges accessed for two different addresses of one blob are disjoint and inside the mapped blob, and the prefetch and purge hints touch the same bytes as the access does.", "quantifier": "all addresses and all lane/page geometries", "why_tests_cant": "arithmetic over the whole address space", "anchors": ["mllm/engine/prefix_cache/ZenFS.cpp: access, hintsPrefetch, hintsPurge"]}
{"id": "C10", "title": "Address translation buffer behaves as a map", "statement": "After any sequence of insert/remove operations a lookup returns the pointer given by the oldest insertion of that address that has not been removed since, and lookups of other addresses are not affected.", "quantifier": "all operation sequences", "why_tests_cant": "map refinement over unbounded histories", "anchors": ["mllm/engine/prefix_cache/TLB.cpp: TLB::insert, lookup, remove", "mllm/engine/prefix_cache/Allocator.cpp: alloc, free"]}
{"id": "C11", "title": "Model file V2: what is saved is what is loaded", "statement": "Loading a file written by the V2 writer yields exactly the saved parameters: same names, element types, shapes and bytes.", "quantifier": "all parameter sets (names, shapes, types, contents)", "why_tests_cant": "unbounded contents; the boundary is in name length, rank and offset arithmetic", "anchors": ["mllm/core/ParameterFile.cpp: ParameterFileIOImpl<kV2>::read, write", "mllm/core/ParameterFile.hpp", "mllm/schema/ModelFileV2.hpp"]}
{"id": "C12", "title": "Model file V1: names, types and bytes survive a save/load", "statement": "Loading a file written by the V1 writer yields the saved names, element types and byte contents.", "quantifier": "all parameter sets", "why_tests_cant": "variable-length descriptors; the offset arithmetic must hold for every name length", "anchors": ["mllm/core/ParameterFile.cpp: ParameterFileIOImpl<kV1>::read, write", "mllm/schema/ModelFileV1.hpp"]}
{"id": "C13", "title": "Model file sections never overlap", "statement": "In every written model file each parameter's byte range lies inside the file, behind the header and descriptor table, and ranges of different parameters do not overlap.", "quantifier": "all parameter sets and sizes, both versions", "why_tests_cant": "depends on sums over arbitrary many sizes", "anchors": ["mllm/core/ParameterFile.cpp: write (V1, V2)"]}
{"id": "C14", "title": "Freshly created tensors use every element slot exactly once", "statement": "For a newly created tensor of any shape, mapping a multi-index to its element offset is a bijection between the in-range multi-indices and 0..numel-1, and the tensor reports itself contiguous.", "quantifier": "all shapes of any rank", "why_tests_cant": "unbounded ranks and extents", "anchors": ["mllm/core/TensorViewImpl.cpp: create, isContiguous, numel", "mllm/core/TensorStorage.cpp: create"]}
{"id": "C15", "title": "Slicing addresses exactly the selected elements", "statement": "For a slice with in-range bounds, element (i0,i1,..) of the sliced tensor is element (start0+i0,..) of the source, the sliced shape is end-start per dimension, and no access through the slice leaves the source's storage.", "quantifier": "all shapes, strides, slice specifications including negative indices", "why_tests_cant": "unbounded ranks, extents and nested slices", "anchors": ["mllm/core/aops/SliceOp.cpp: reshape", "mllm/core/SlicePrimitives.cpp"]}
{"id": "C16", "title": "View and reshape keep the number and order of elements", "statement": "A view/reshape that is accepted has the same number of elements as the source, and the i-th element in row-major order of the result is the i-th element in row-major order of the source; at most one -1 extent is inferred and only when it divides.", "quantifier": "all shapes and target shapes", "why_tests_cant": "unbounded ranks and extents", "anchors": ["mllm/core/aops/ViewOp.cpp: reshape", "mllm/core/aops/ReshapeOp.cpp: reshape"]}
{"id": "C17", "title": "Split and concat are inverse on shapes and partition the data", "statement": "Splitting a tensor along a dimension yields pieces whose extents along it sum to the original extent, which cover each index exactly once and in order; concatenating them gives back the original shape.", "quantifier": "all shapes, dimensions (also negative) and split specifications", "why_tests_cant": "unbounded extents and numbers of pieces", "anchors": ["mllm/core/aops/SplitOp.cpp: reshape", "mllm/core/aops/ConcatOp.cpp: reshape"]}
{"id": "C18", "title": "Transpose and permute move every element to its place", "statement": "The transposed/permuted tensor has at index (i_p0,..,i_pn) the element of the source at (i_0,..,i_n); permuting with a permutation and then with its inverse is the identity; transposing twice is the identity.", "quantifier": "all shapes and permutations", "why_tests_cant": "all permutations of all ranks", "anchors": ["mllm/core/aops/PermuteOp.cpp", "mllm/core/aops/TransposeOp.cpp"]}
{"id": "C19", "title": "Static KV cache holds exactly the appended history", "statement": "After any sequence of updates, the keys/values returned for a query head are the concatenation, in order, of everything appended so far for the matching kv head, nothing beyond the valid length is exposed, and updates beyond the capacity are rejected without touching memory outside the cache.", "quantifier": "all sequences of update lengths, head counts and head dimensions", "why_tests_cant": "unbounded sequences of updates; the failure is at the capacity boundary", "anchors": ["mllm/nn/lmcache/StaticCache.cpp: StaticCache::updateKVCache, SubStaticCache::updateKVCache"]}
{"id": "C20", "title": "Dynamic KV cache holds exactly the appended history", "statement": "After any sequence of updates, the keys/values returned are the concatenation in order of all appended ones, each kv head repeated for its group of query heads, and the reported sequence length is the sum of the appended lengths.", "quantifier": "all sequences of updates", "why_tests_cant": "unbounded histories", "anchors": ["mllm/nn/lmcache/DynamicCache.cpp: updateKVCache, getCurrentSeqCnt"]}
{"id": "C21", "title": "Special-token splitting loses no text", "statement": "Splitting a text on the registered special tokens yields non-empty pieces whose concatenation is the text.", "quantifier": "all texts and all sets of special tokens", "why_tests_cant": "unbounded texts; overlap between special tokens", "anchors": ["mllm/preprocessor/tokenizers/AutoTokenizer.cpp: Trie::split, Trie::add, _cut"]}
{"id": "C22", "title": "BPE merging preserves the text and merges to a fixed point", "statement": "The BPE pieces of a word concatenate to the word; on termination no adjacent pair of pieces has a merge rule; each round merges a pair of minimal rank among the present pairs.", "quantifier": "all words and all merge tables", "why_tests_cant": "unbounded words and arbitrary merge tables", "anchors": ["mllm/preprocessor/tokenizers/BPE.cpp: _bpe, _get_pairs"]}
{"id": "C23", "title": "UTF-8 conversion round-trips", "statement": "Converting any sequence of valid code points to UTF-8 and back gives the same sequence; decoding never reads past the end of the string.", "quantifier": "all sequences of code points up to U+10FFFF; all byte strings", "why_tests_cant": "unbounded strings", "anchors": ["mllm/preprocessor/tokenizers/Unicode.cpp: wideString2Utf8String, utf8string2WideString"]}
{"id": "C24", "title": "Byte-to-unicode table is a bijection on bytes", "statement": "Every byte value has an entry in the byte-level BPE table and two different bytes have different code points, so byte-level encoding of a string can always be inverted.", "quantifier": "all 256 bytes and all byte strings", "why_tests_cant": "the consequence ranges over all strings", "anchors": ["mllm/preprocessor/tokenizers/Unicode.cpp: makeBytes2UnicodeMap"]}
{"id": "C25", "title": "Symbolic expressions survive printing and parsing", "statement": "Printing a symbolic expression (with non-negative constants) and parsing the text gives an expression with the same value under every assignment.", "quantifier": "all expressions", "why_tests_cant": "infinitely many expressions", "anchors": ["mllm/compile/symbolic_expr/Parser.cpp: Lexer, Parser", "mllm/compile/symbolic_expr/AST.hpp: str, eval"]}
{"id": "C26", "title": "Symbolic parser respects operator precedence and left associativity", "statement": "The value of a parsed expression equals the value under the usual precedence (* and / before + and -) and left associativity for every operator chain.", "quantifier": "all operator chains", "why_tests_cant": "infinitely many chains", "anchors": ["mllm/compile/symbolic_expr/Parser.cpp: parseBinaryOpRHS, getTokPrecedence"]}
{"id": "C27", "title": "Parallel loop executes every index exactly once", "statement": "Running a task over start..end with a step executes the body exactly once for each start+k*step below end, whatever number of worker threads is active, and for no other index.", "quantifier": "all start/end/step/tile/thread counts", "why_tests_cant": "unbounded loop sizes and thread counts", "anchors": ["mllm/engine/HpcThreadPool.cpp: push, splitTask, threadPool lambda"]}
{"id": "C28", "title": "Request queue is FIFO and drains after shutdown", "statement": "Requests are handed to workers in submission order, each exactly once, none is lost, including those queued when shutdown was called.", "quantifier": "all interleavings of producers, consumers and shutdown", "why_tests_cant": "schedules are unbounded", "anchors": ["mllm/engine/service/Service.cpp: RequestPool"]}
{"id": "C29", "title": "Responses are delivered to their requester in order", "statement": "Each pop for a request id returns the responses pushed under this id in order, each once, never one of another id; a blocked reader is woken once a response for it is available.", "quantifier": "all interleavings of pushes and pops over ids", "why_tests_cant": "schedules are unbounded", "anchors": ["mllm/engine/service/Service.cpp: ResponsePool"]}
{"id": "C30", "title": "Generation stops at the length limit or the end token", "statement": "The number of generated tokens never exceeds the limit, no token is generated after the end token, and every earlier token is the sampler's choice on the model state reached so far.", "quantifier": "all models (logit functions), prompts, limits", "why_tests_cant": "arbitrary models", "anchors": ["mllm/models/ARGeneration.cpp: generate, streamGenerate, ARGenerationChatIterator"]}
{"id": "C31", "title": "Samplers return admissible token ids", "statement": "Greedy sampling returns the index of a maximal logit (the first one); top-k and top-p return an id among the k largest / the nucleus; categorical sampling returns an id below the vocabulary size.", "quantifier": "all logit vectors, k, p and random draws", "why_tests_cant": "real-valued inputs; the boundary cases have tiny probability", "anchors": ["mllm/models/ARGeneration.cpp: sampleGreedy, sampleTopK, sampleTopP, categoricalSample"]}
{"id": "C32", "title": "Sliding-window eviction keeps exactly the window", "statement": "After evicting a layer to a sliding window, the addresses of tokens outside the window are released exactly once and marked invalid, those inside the window are untouched, and evicting again changes nothing; over any history of promotions and evictions with distinct addresses no address is released twice and no released address is ever returned by a search.", "quantifier": "all histories of promotions and evictions, all layers and window sizes", "why_tests_cant": "unbounded tree paths and histories", "anchors": ["mllm/nn/lmcache/PrefixCache.cpp: evictSlidingWindowLayerOn, freeKey"]}
{"id": "C33", "title": "Recovering a cache file system preserves allocated lanes", "statement": "After re-opening a cache directory, every lane that was allocated when the file system was last written is still allocated: malloc does not hand it out again before it is freed.", "quantifier": "all malloc/free histories before the restart and all histories after it", "why_tests_cant": "the damage shows only when a later allocation reuses a lane still referenced by stored data", "anchors": ["mllm/engine/prefix_cache/ZenFS.cpp: recover, malloc"]}
{"id": "C34", "title": "Damaged model files are refused", "statement": "Loading a file that is not a complete model file (wrong magic number, truncated, offsets outside the file) ends with an error report; no byte outside the file is read and no parameter with other content is returned.", "quantifier": "all byte sequences, in particular all prefixes of a written file (crash points of the writer)", "why_tests_cant": "every crash point and corruption would have to be tried", "anchors": ["mllm/core/ParameterFile.cpp: read (V1, V2)", "mllm/core/MappedFile.cpp"]}
{"id": "C35", "title": "Every element type gets the storage its elements need", "statement": "For every element type with a declared element structure, the storage allocated for n elements is as large as n elements of that structure.", "quantifier": "all element types and element counts", "why_tests_cant": "silent under-allocation corrupts neighbouring memory only sometimes", "anchors": ["mllm/core/DataTypes.cpp: lanesOfType, bytesOfType", "mllm/core/DataTypes.hpp: MllmDataTypeInfo", "mllm/core/TensorStorage.cpp: TensorStorage::create"]}
{"id": "C36", "title": "The parameter store behaves as a map", "statement": "After a successful push the pushed tensor is what pull returns under that name and other names are unaffected; a second push under the same name is refused; remove makes a name absent and affects no other; the iteration order of the store does not matter.", "quantifier": "all stores, names and tensors", "why_tests_cant": "all histories", "anchors": ["mllm/core/ParameterFile.cpp: push, pull, has, remove", "mllm/utils/SymbolTable.hpp"]}
{"id": "C37", "title": "Copies are packed copies", "statement": "contiguous(), clone() and copy2() yield a tensor of the same shape whose elements, in row-major order, are those of the source, stored without gaps.", "quantifier": "all tensors: shapes, strides, offsets, shared storages", "why_tests_cant": "strides that trip a fast path are rare; any view can be copied", "anchors": ["mllm/backends/cpu/ops/ContiguousOp.cpp", "mllm/backends/cpu/ops/CloneOp.cpp", "mllm/backends/cpu/ops/CopyOp.cpp"]}
{"id": "C38", "title": "Stack and repeat place every element", "statement": "stack() of k tensors puts element idx of tensor j at idx with j inserted at the new dimension; repeat(n, dim) shows at coordinate c of that dimension the source's coordinate c / n.", "quantifier": "all shapes, layouts, dimensions (also negative), numbers of tensors and repetitions", "why_tests_cant": "unbounded shapes and counts", "anchors": ["mllm/core/aops/StackOp.cpp", "mllm/backends/cpu/ops/StackOp.cpp", "mllm/core/aops/RepeatOp.cpp", "mllm/backends/cpu/ops/RepeatOp.cpp"]}
{"id": "C39", "title": "Sub-caches append after their own rows and spare the parent's", "statement": "A sub-cache opened over rows start.. of a static cache with len rows shows those len rows followed by everything appended through it; the parent's rows below start+len are never changed, the rows above are replaced exactly by the appended ones; an append that does not fit is refused with nothing changed, and clear restores the len rows.", "quantifier": "all parent histories, start rows, lengths and sequences of appends and clears", "why_tests_cant": "two objects share one buffer; the claim is about every interleaving of appends and clears", "anchors": ["mllm/nn/lmcache/StaticCache.hpp: SubStaticCache", "mllm/nn/lmcache/StaticCache.cpp: SubStaticCache::updateKVCache"]}
{"id": "C40", "title": "Tokenizing text and mapping it back loses nothing", "statement": "For every UTF-8 text the pre-tokenizer's pieces make up the text, and the tokens, in order, stand for exactly the bytes of the text; if all tokens are in the vocabulary the ids decode to the same bytes.", "quantifier": "all texts, merge lists, vocabularies and special-token sets; all character classes with the space as white space", "why_tests_cant": "one character dropped by one rule for one input goes unnoticed in any sample of texts", "anchors": ["mllm/models/qwen3/tokenization_qwen3.hpp: qwen3TokenizerMatchPattern, qwen3Regex, _tokenize, tokenize, detokenize", "mllm/preprocessor/tokenizers/BPE.cpp: _lookup_vocab, _lookup_inverse_vocab"]}
{"id": "C41", "title": "The hand-written pre-tokenizer matches its documented pattern", "statement": "At every position the matcher consumes what the regular expression quoted above it would consume.", "quantifier": "all strings, all letter, digit and white-space classes", "why_tests_cant": "all strings; deviations only show in rare combinations of white space and case", "anchors": ["mllm/models/qwen3/tokenization_qwen3.hpp: qwen3TokenizerMatchPattern"]}
{"id": "C42", "title": "The symbolic parser returns for every source text", "statement": "Parsing any text ends, either with an expression for the whole text or with an error; no part of the text is dropped silently.", "quantifier": "all source texts", "why_tests_cant": "non-termination cannot be observed by a test; the texts are unbounded", "anchors": ["mllm/compile/symbolic_expr/Parser.cpp: parse, parseGroupedExpr, getNextToken, handleEOFState"]}
{"id": "C43", "title": "Symbolic evaluation depends on exactly the expression's variables", "statement": "The value of an expression is a function of the values of the variables that occur in it; isStatic holds exactly for expressions without variables, whose value is then the same for every dictionary; a variable missing from the dictionary is reported.", "quantifier": "all expressions and dictionaries", "why_tests_cant": "quantifies over all expression trees and all pairs of dictionaries", "anchors": ["mllm/compile/symbolic_expr/AST.hpp: eval, isStatic", "mllm/compile/symbolic_expr/Eval.cpp"]}
{"id": "C44", "title": "A parallel loop can always finish", "statement": "Whatever the workers are doing, while the pool is active a started loop can be completed by the pool's threads alone: no interleaving leads to a deadlock; putting the pool to rest does not leave a started loop hanging.", "quantifier": "all interleavings of all threads, all loops, all numbers of threads, all moments of idle and wakeup", "why_tests_cant": "deadlocks depend on the schedule", "anchors": ["mllm/engine/HpcThreadPool.cpp: push, splitTask, worker loop, idle"]}
{"id": "C45", "title": "A task slot has one holder", "statement": "In every history of acquiring and releasing slots no slot is held twice, every slot handed out is a valid index, and acquiring fails exactly when all slots are held.", "quantifier": "all histories of acquisitions and releases", "why_tests_cant": "histories are unbounded", "anchors": ["mllm/engine/HpcThreadPool.cpp: acquireTaskSlot, releaseTaskSlot"]}
{"id": "C46", "title": "An accepted request is answered by its session", "statement": "Every request accepted by sendRequest leads to the responses of the session it names, in order, ending with a finished one; registering a session does not change other sessions; a reader is told when the answer is over.", "quantifier": "all requests, all sets of registered sessions", "why_tests_cant": "the requests and sessions are unbounded and the failing ones crash the process or block a reader", "anchors": ["mllm/engine/service/Service.cpp: sendRequest, workerLoop, getResponse, SessionPool", "mllm/engine/service/Session.cpp: NoneSession::streamGenerate"]}
{"id": "C47", "title": "Element-wise arithmetic follows the broadcasting rule", "statement": "a + b, a - b, a * b and a / b of tensors whose shapes can be broadcast have the shape of the numpy rule, and every element is the operation applied to the elements of a and b that broadcasting puts there; shapes that cannot be broadcast are refused.", "quantifier": "all ranks, shapes, contents, element types and vector widths", "why_tests_cant": "the kernels branch on the relation between two shapes and on remainders of vector widths; there are infinitely many pairs of shapes", "anchors": ["mllm/core/aops/ElewiseOps.cpp: broadcastShapes, AddOp::reshape", "mllm/backends/cpu/ops/ElewiseOps.cpp: calculateBroadcastInfo, CPUAddOp::forward", "mllm/backends/cpu/kernels/common/elewise-inl.hpp: elementwise_impl"]}
{"id": "C48", "title": "Indexing selects the product of the positions", "statement": "Indexing a tensor with slices, lists of positions and tensors of positions returns a tensor whose element at (i, j, ...) is the element of the source at (i-th position of the first argument, j-th of the second, ...); a position outside its dimension is refused.", "quantifier": "all tensors and lists of index arguments", "why_tests_cant": "shapes, positions and combinations of argument kinds are unbounded", "anchors": ["mllm/core/aops/IndexOp.cpp: forward, reshape, calculateOutputShape"]}
{"id": "C49", "title": "Gather and embedding return the rows asked for", "statement": "gather along a dimension returns, for every index (negative ones counting from the end), the slice of the table with that index; an embedding returns for every token id the row of the table with that id; an index or id outside the table is refused.", "quantifier": "all tables, index tensors, dimensions and token ids", "why_tests_cant": "the indices come from the input and range over all integers", "anchors": ["mllm/core/aops/GatherOp.cpp: reshape", "mllm/backends/cpu/ops/GatherOp.cpp: forward", "mllm/core/aops/EmbeddingOp.cpp: reshape", "mllm/backends/cpu/ops/EmbeddingOp.cpp: forward"]}
{"id": "C50", "title": "Padding", "statement": "pad extends every dimension by the given amounts (listed from the last dimension); inside, elements are those of the source; outside, they are the constant, the reflection, the nearest element or the periodic continuation, depending on the mode; negative amounts crop.", "quantifier": "all tensors, modes and amounts", "why_tests_cant": "amounts may exceed the extent several times over; ranks are arbitrary", "anchors": ["mllm/core/aops/PadOp.cpp: reshape", "mllm/backends/cpu/ops/PadOp.cpp: reflect_index, replicate_index, circular_index, forward"]}
{"id": "C51", "title": "argsort and topk", "statement": "Along the chosen dimension argsort returns a permutation of the positions that puts the values in order; topk returns k different positions with their values, best first, such that no element left out is better than one returned; a k that is not between 1 and the extent is refused.", "quantifier": "all tensors, dimensions, k and orders", "why_tests_cant": "a statement about every lane of tensors of any shape, including ties", "anchors": ["mllm/core/aops/ArgsortOp.cpp: reshape", "mllm/backends/cpu/ops/ArgsortOp.cpp: argsort_impl", "mllm/core/aops/TopKOp.cpp: reshape", "mllm/backends/cpu/ops/TopKOp.cpp: topk_impl"]}
{"id": "C52", "title": "Causal masks", "statement": "The causal mask of attention scores leaves a score as it is if its key is visible to its query (with a sliding window: and at most window-1 keys back) and replaces all others by the mask value, when prefilling, when decoding and with keys from a cache.", "quantifier": "all batch sizes, head counts, numbers of queries and keys, windows, fp32 and fp16", "why_tests_cant": "row boundaries depend on four sizes and the window", "anchors": ["mllm/backends/cpu/ops/CausalMaskOp.cpp: forward"]}
{"id": "C53", "title": "Masked scatter", "statement": "maskedScatter replaces exactly the elements whose (broadcast) mask is non-zero, taking them from the source in order, and leaves all others unchanged.", "quantifier": "all tensors, masks and sources with compatible shapes", "why_tests_cant": "depends on the whole content of the mask", "anchors": ["mllm/backends/cpu/ops/MaskedScatterOp.cpp: calculateBroadcastShape, forward"]}
{"id": "C54", "title": "Sums", "statement": "sum along a dimension (kept or dropped) or over everything returns tensors of the documented shape whose elements are the sums of exactly the elements of the lane, each counted once.", "quantifier": "all tensors, dimensions and vector widths", "why_tests_cant": "the kernel is unrolled four times with two kinds of remainder; a lane may have any length and stride", "anchors": ["mllm/core/aops/ReduceOps.cpp: reshape", "mllm/backends/cpu/ops/ReduceOps.cpp: CPUReduceSumOp::forward", "mllm/backends/cpu/kernels/common/reduce-inl.hpp: reduce_impl"]}
{"id": "C55", "title": "Matrix products are row times column", "statement": "MatMul of contiguous fp32 operands [..., M, K] and [..., K, N] (or [..., N, K] with transpose_b) of equal batch shape returns a tensor [..., M, N] whose every element is the product-sum of the corresponding row and column of its batch, whatever the sizes, the kernel chosen for them, the register width and the number of threads; threads never write the same element; operands that do not fit are refused.", "quantifier": "for all shapes and batch shapes, all element values (any commutative monoid of sums), both storage orders, all register widths and thread counts", "why_tests_cant": "the sizes select between gemv, three tile shapes, packed tiles with recursive remainders and a vec_dot fallback; tests sample a few sizes with one thread count", "anchors": ["mllm/backends/cpu/ops/MatMulOp.cpp: CPUMatMulOp::forward", "mllm/core/aops/MatMulOp.cpp: reshape", "mllm/backends/cpu/kernels/x86/mllm_blas/mllm_blas_sgemm.cpp", "mllm/backends/cpu/kernels/arm/mllm_blas/mllm_blas_sgemm.cpp", "mllm/backends/cpu/kernels/common/llamafile/llamafile_sgemm.cpp: tinyBLAS::mnpack, gemm", "mllm/backends/cpu/kernels/common/ggml/matmul.cpp: mat_mul"]}
{"id": "C56", "title": "A linear layer computes x W^T + b", "statement": "Linear applied to a contiguous fp32 input [..., S, in_channels] returns [..., S, out_channels] with element (p, m, n) = sum over k of x(p, m, k) w(n, k), plus b(n) if there is a bias, for every batch shape and size.", "quantifier": "for all input shapes, channel counts, weights, biases, register widths and thread counts", "why_tests_cant": "bias handling and tiling differ between the packed product and the fallback, selected by divisibility of in_channels", "anchors": ["mllm/backends/cpu/ops/LinearOp.cpp: CPULinearOp::forward, reshape", "mllm/backends/cpu/kernels/common/ggml/matmul.cpp: mat_mul", "mllm/backends/cpu/kernels/common/llamafile/llamafile_sgemm.cpp"]}
{"id": "C57", "title": "Flash attention is causal softmax attention", "statement": "FlashAttention2 on contiguous fp32 queries [B, S_Q, H_Q, D] and keys/values [B, S_KV, H_KV, D] returns, for every query, the softmax-weighted average (scale 1/sqrt(D)) of the values of exactly the tokens up to its own position S_KV - S_Q + s, each query head using key head h / (H_Q/H_KV); the result does not depend on the order in which heads are processed or on the register width, and never on later tokens.", "quantifier": "for all batch sizes, sequence lengths, head counts (grouped heads included), head widths, real inputs, architectures and schedules of the heads", "why_tests_cant": "the online softmax rescales at every key; equality with the closed form is an induction over the keys, for all lengths and real inputs", "anchors": ["mllm/backends/cpu/kernels/common/fa2_1/fwd_bshd.hpp: fwd_bshd", "mllm/backends/cpu/kernels/common/fa2_1/impl-arm.hpp", "mllm/backends/cpu/kernels/common/fa2_1/impl-any-simd-inl.hpp", "mllm/backends/cpu/ops/FlashAttention2Op.cpp: forward", "mllm/core/aops/FlashAttention2Op.cpp: reshape"]}
{"id": "C58", "title": "Processing a prompt in pieces changes nothing", "statement": "Running attention for tokens t..t+n-1 with the keys and values of tokens 0..t+n-1 cached gives for these tokens exactly what running the whole prompt at once gives (n = 1: decoding).", "quantifier": "for all prompt lengths, split points, batch sizes, head counts and real inputs", "why_tests_cant": "relates two executions of different lengths for every split point", "anchors": ["mllm/backends/cpu/kernels/common/fa2_1/fwd_bshd.hpp: fwd_bshd", "mllm/backends/cpu/ops/FlashAttention2Op.cpp: forward"]}
{"id": "C59", "title": "Attention over tokens scattered in memory", "statement": "Radix attention, which gets one address per cached key and value, returns the same softmax attention as if the tokens were contiguous, wherever they are stored, also when keys and values have different widths.", "quantifier": "for all address lists, batch sizes, head counts, widths and real inputs, both architectures", "why_tests_cant": "quantifies over arbitrary memory layouts of the cache", "anchors": ["mllm/backends/cpu/kernels/common/radix_attn/fwd_bshd.hpp: fwd_bshd", "mllm/backends/cpu/kernels/common/radix_attn/arch.hpp", "mllm/backends/cpu/kernels/common/radix_attn_relax/radix_attn_relax_fwd_bshd.hpp", "mllm/backends/cpu/ops/RadixAttnOp.cpp: forward", "mllm/backends/cpu/ops/RadixAttnDiffDimOp.cpp: forward"]}
{"id": "C60", "title": "Sliding window attention with sinks", "statement": "With a window w every query attends to itself and the w-1 tokens before it and to nothing else, with the sink of its head added to the denominator only; prefill, decode and append agree on the window; sinks can be left out.", "quantifier": "for all windows, sequence lengths, batch sizes, head counts, widths, sinks and real inputs", "why_tests_cant": "window ends are computed by different formulas in prefill and decode and depend on four sizes", "anchors": ["mllm/backends/cpu/kernels/common/radix_swa_sink/radix_swa_sink_fwd_bshd.hpp: fwd_bshd_prefill, fwd_bshd_decode", "mllm/backends/cpu/kernels/common/fa2_1_swa_sink/fa2_swa_sink_fwd_bshd.hpp: fwd_bshd_swa_with_sink", "mllm/backends/cpu/ops/RadixAttnWithSinkAndSwaDiffDimOp.cpp: forward", "mllm/backends/cpu/ops/FlashAttn2WithSinkAndSwaOp.cpp: forward"]}
{"id": "C61", "title": "Softmax rows are probability distributions close to the softmax", "statement": "Softmax along the last axis of a contiguous fp32 tensor returns a tensor of the same shape whose rows are positive and add up to 1, approximate exp(x_i)/sum_j exp(x_j) within a stated bound (exactly for rows of at most 16 numbers), do not depend on the order in which rows are processed, and give equal inputs equal outputs; other axes work as well.", "quantifier": "for all shapes, axes, real inputs, architectures, register widths and schedules of the rows", "why_tests_cant": "the fast exponential and the split of a row into registers and remainder are only right up to an error that must be bounded for every real input and length", "anchors": ["mllm/backends/cpu/ops/SoftmaxOp.cpp: CPUSoftmaxOp::forward", "mllm/backends/cpu/kernels/x86/softmax.cpp: softmax_v1_fp32", "mllm/backends/cpu/kernels/arm/softmax.cpp: softmax_v1_fp32", "mllm/backends/cpu/kernels/x86/math.hpp: vexpq_fast_f32", "mllm/backends/cpu/kernels/arm/math.hpp: vexpq_fast_f32"]}
{"id": "C62", "title": "RMS norm divides by the root mean square", "statement": "RMSNorm returns for every row x_i / sqrt(mean(x^2) + eps) * w_i (w_i + 1 with the unit offset), into a fresh tensor or in place without touching other cells of the storage, for every shape and register width and any order of the rows.", "quantifier": "for all shapes, real inputs, weights, eps, architectures, register widths and schedules, fresh and in place", "why_tests_cant": "registers overlap (ARM) or need alignment (x86) depending on the row length; tests use a few multiples of the register width", "anchors": ["mllm/backends/cpu/ops/RMSNormOp.cpp: CPURMSNormOp::forward", "mllm/backends/cpu/kernels/x86/rmsnorm.cpp: rmsnorm_fp32", "mllm/backends/cpu/kernels/arm/rmsnorm.cpp: rmsnorm_fp32, rmsnorm_fp32_inplace", "mllm/backends/cpu/kernels/x86/math.hpp: vsquare_mean_fp32"]}
{"id": "C63", "title": "Layer norm gives blocks of mean 0 and variance 1", "statement": "LayerNorm over the normalized shape returns (x - mean) / sqrt(variance + eps) * weight + bias for every block, with or without weight and bias; a normalized shape that is not a suffix of the input's shape is refused.", "quantifier": "for all input shapes, normalized shapes, real inputs and parameters, architectures and schedules of the blocks", "why_tests_cant": "block boundaries come from products of dimensions; the statement relates every element to all elements of its block", "anchors": ["mllm/backends/cpu/ops/LayerNormOp.cpp: CPULayerNormOp::forward", "mllm/core/aops/LayerNormOp.cpp: reshape", "mllm/backends/cpu/kernels/arm/layernorm.cpp: layernorm_N_fp32"]}
{"id": "C64", "title": "Activation functions are accurate everywhere", "statement": "SiLU, sigmoid, ReLU and quick GELU return f(x) for every element within a stated error, for every real input, tensor size, split into blocks and schedule, fresh or in place.", "quantifier": "for all real inputs (not only those in the range of the fast exponential), shapes, reciprocal estimates of the processor, architectures and schedules", "why_tests_cant": "accuracy is a statement about every real number; blocks, registers and remainders use different formulas", "anchors": ["mllm/backends/cpu/ops/SiLUOp.cpp, SigmoidOp.cpp, ReLUOp.cpp, QuickGELUOp.cpp: forward", "mllm/backends/cpu/kernels/x86/silu.cpp: silu_fp32", "mllm/backends/cpu/kernels/common/sigmoid-inl.hpp: __sigmoid_fp32_vector", "mllm/backends/cpu/kernels/arm/math.hpp: vsigmoid_f32", "mllm/core/aops/SigmoidOp.cpp: setup"]}
{"id": "C65", "title": "Rotary position embedding turns each pair by position times frequency", "statement": "Applying rotary position embedding to an activation in BHSD or BSHD layout, with tables built from integer positions and frequencies, returns for each row the pairs (d, d + half) turned by the angle position times frequency of d, and the channels beyond the rotated ones unchanged; in place, the same numbers replace the input and nothing else in its storage changes. Consequently shifting all positions of a batch by one amount changes no inner product of a query row with a key row, lengths are preserved and position 0 is the identity. Tables must cover batch, tokens and pairs.", "quantifier": "All shapes, strided inputs with dense rows, both layouts, partial dimensions, positions, frequencies, shifts, both architectures", "why_tests_cant": "The indexing has to be right for every combination of layout, stride, partial dimension and register remainder, and invariance under shifts is a statement about all real inputs and all shifts.", "anchors": ["mllm/backends/cpu/ops/RoPEOp.cpp:RoPEOpImpl::forward", "mllm/core/aops/RoPEOp.cpp:RoPEOp::reshape", "mllm/models/qwen3/modeling_qwen3_service.hpp:makeRoPEInvFreq, makeRotaryPosEmbedding"]}
{"id": "C66", "title": "Block quantization loses a bounded amount", "statement": "Quantizing a row of floats and dequantizing it returns every number with an error of at most a fixed fraction of the greatest number in its block (Q8_0: 1/225 plus 2^-18 in blocks of 32; Q4_0: half a step of 1/8, one step for the far end; Q8_K: 1/256, 1/128 for the far end, in blocks of 256; int8 with a given scale: half a step), keeps zeros, and writes nothing outside the destination, whichever vector instructions the processor has.", "quantifier": "all real inputs in the range of the format, row lengths, offsets, implementations (portable, NEON, AVX2) and rounding results of binary32 and binary16 arithmetic", "why_tests_cant": "the bound must hold for every float; the implementations round in different orders and use different rounding modes", "anchors": ["mllm/backends/cpu/kernels/common/ggml/quantize/quantize_q8.cpp: quantize_row_q8_0, quantize_row_q8_0_reference, dequantize_row_q8_0, quantize_row_q8_K_reference, quantize_row_i8", "mllm/backends/cpu/kernels/common/ggml/quantize/quantize_q4.cpp: quantize_row_q4_0_reference, dequantize_row_q4_0", "mllm/backends/cpu/kernels/common/ggml/quantize/quantize.hpp: nearest_int"]}
{"id": "C67", "title": "Products of quantized rows are products of the decoded numbers", "statement": "The dot product of a Q8_0 or Q4_0 row with a Q8_0 row equals the inner product of the numbers the dequantizer returns for the two rows, for every instruction set (AVX2 maddubs, VNNI, ARM dot product, plain NEON) and every number of blocks; no saturation or overflow occurs.", "quantifier": "all stored blocks (all bytes and binary16 scales), row lengths, offsets and instruction sets", "why_tests_cant": "saturating 16-bit additions and the sign trick of the unsigned-times-signed instructions are wrong only for particular bytes", "anchors": ["mllm/backends/cpu/kernels/common/ggml/vec_dot.cpp: vec_dot_q4_0_q8_0, vec_dot_q8_0_q8_0", "mllm/backends/cpu/kernels/common/ggml/vec_dot.hpp: mul_sum_i8_pairs_float", "mllm/backends/cpu/kernels/common/llamafile/llamafile_sgemm.cpp: tinyBLAS_Q0_AVX, tinyBLAS_Q0_ARM"]}
{"id": "C68", "title": "A linear layer with a quantized weight computes with the decoded weight", "statement": "Linear with a Q8_0 or Q4_0 weight returns x' W^T + bias, where W is the decoded weight and x' differs from the input by at most the quantization error of its block; so the output is within sum |W| * error of the exact product, for every batch shape, number of threads and tile size. An embedding lookup in a Q4_0 table returns the decoded row of the token.", "quantifier": "all shapes with a multiple of 32 input channels, all inputs in range, weights, biases, numbers of threads, tilings and instruction sets", "why_tests_cant": "the input is quantized into a scratch tensor with its own offsets and the product is tiled over threads: indices must agree for every shape and thread count", "anchors": ["mllm/backends/cpu/ops/LinearOp.cpp: CPULinearOp::forward", "mllm/backends/cpu/kernels/common/ggml/matmul.cpp: mat_mul", "mllm/backends/cpu/kernels/common/llamafile/llamafile_sgemm.cpp: llamafile_sgemm", "mllm/backends/cpu/ops/EmbeddingOp.cpp: CPUEmbeddingOp::forward"]}
{"id": "C69", "title": "A compiled module computes what the module computes", "statement": "Tracing a module and compiling it (symbol extraction, elimination of debug comments, extraction of constants, lowering to the program dialect, numbering, symbol table) gives a program whose runs by the interpreter return, for every sequence of inputs and whatever the kernels do to the tensors and to the heap, exactly what the module's own forward passes return, and leave the heap in the same state; nested modules become jumps and returns that come back to the right place.", "quantifier": "all nested modules, layer names, kernels, storages, constants, options without the memory solver, sequences of runs", "why_tests_cant": "the interpreter keeps tensors by storage and operators by layer name: every module is a different program, and only aliasing of particular tensors shows the difference", "anchors": ["mllm/compile/ir/Trace.cpp: trace_", "mllm/compile/passes/ProgramLoweringPipeline.cpp", "mllm/compile/passes/FlattenTensorAndLinalgSymbol2ProgramSymbolPass.cpp", "mllm/compile/passes/ProgramIntrinsicIdIndexPass.cpp", "mllm/compile/jit/interpreter/IRInterpreter.cpp: loadAndLinkPrograms, run"]}
{"id": "C70", "title": "The memory solver frees tensors after their last use and changes no result", "statement": "With the eager memory solver the compiled module still returns what the module returns, and after a run no storage that was read is held unless an operator made a new tensor on it after the last read.", "quantifier": "all nested modules, kernels, storages, constants and sequences of runs", "why_tests_cant": "a free that is one operator too early is visible only for the tensor graph that reads the tensor later", "anchors": ["mllm/compile/passes/EagerMemorySolverPass.cpp: recursiveIndexTensorOp, recursiveInsertFreeTensorOp, run"]}
{"id": "C71", "title": "Every module call gets its own graph", "statement": "While a module is traced every call of a submodule gets a graph under a name of its own, so that calls of the same instance or of instances with equal names can be told apart in the compiled program.", "quantifier": "all call trees and instance names, any number of calls of one instance", "why_tests_cant": "names collide only from the third call of an instance on", "anchors": ["mllm/compile/ir/Node.cpp: IRContext::getUniqueModuleName", "mllm/nn/Module.cpp: Module::__trace"]}
{"id": "C72", "title": "Compiling a traced module is well-defined", "statement": "Every module that can be traced is compiled without undefined behaviour.", "quantifier": "all modules, names, parameters and options", "why_tests_cant": "an access to the first element of an empty list usually goes unnoticed", "anchors": ["mllm/compile/ir/Trace.cpp: trace_", "mllm/compile/passes/ProgramLoweringPipeline.cpp: GraphSubGraph2ProgramPattern::rewrite"]}
{"id": "C73", "title": "The memory of two tensors never overlaps and is not touched by anybody else", "statement": "Whatever sequence of tensors a program creates, allocates, writes and releases, two tensors that have memory share no byte, each one begins at the vector alignment and lies inside one block obtained from malloc behind the allocator's own header, and a byte of a tensor changes only when that byte of that tensor is written; allocating answers with memory unless malloc has none.", "quantifier": "all histories of creations, allocations, releases, writes of tensors of any size (no arithmetic overflow), all addresses malloc may choose, all pool configurations", "why_tests_cant": "overlap depends on the whole history of sizes and on the addresses malloc happens to return", "anchors": ["mllm/engine/MemoryManager.cpp: alloc, free", "mllm/engine/BuddyMemPool.cpp: BuddyMemPool::alloc, free, _expandBuddySegment", "mllm/backends/cpu/CPUAllocator.cpp: align_alloc, align_free, allocSize, alignSize", "mllm/core/TensorStorage.cpp"]}
{"id": "C74", "title": "Memory goes back to where it came from, once", "statement": "Releasing tensors never passes malloc a wrong or already freed pointer; at every moment the process holds exactly one block for every pool segment and one for every large tensor; when all tensors are gone and the manager is cleared nothing is left.", "quantifier": "all histories of creations, allocations, releases and writes, any contents written into tensors, all addresses malloc may choose", "why_tests_cant": "a wrong free shows only for the history, alignment and contents that make the header unreadable; a leak shows only at the end", "anchors": ["mllm/engine/MemoryManager.cpp: alloc, free, clearAll", "mllm/backends/cpu/CPUAllocator.cpp: align_alloc, align_free", "mllm/engine/BuddyMemPool.cpp: BuddyMemPool"]}
{"id": "C75", "title": "A tensor that never got memory can be dropped", "statement": "Creating a tensor and dropping it without allocating it, or after an allocation for which there was no memory, is harmless.", "quantifier": "all sizes and configurations", "why_tests_cant": "the failing case needs a tensor of 128 MB and reads in front of the null pointer", "anchors": ["mllm/core/TensorStorage.cpp: ~TensorStorage", "mllm/engine/MemoryManager.cpp: free, alloc", "mllm/backends/cpu/CPUAllocator.cpp: align_free"]}
{"id": "C76", "title": "Conv1D is the grouped, dilated, strided, padded convolution", "statement": "Applying a 1-D convolution layer (stride >= 1, groups dividing both channel counts) to a contiguous fp32 input at least as long as the dilated kernel gives a tensor [batch, out_channels, number of windows that fit in the padded input] whose element (b, c, o) is the sum over the input channels of c's group and the taps of window o of input times weight, positions in the padding counting as zero, plus the bias of channel c; the order in which parallel workers compute the elements does not matter. Inputs of another rank or channel count, and layers whose groups do not divide the channels, are refused.", "quantifier": "all inputs, weights, biases, options and orders of the parallel loop", "why_tests_cant": "Whether each tap hits the right channel of the right group with the right padding test must hold for all combinations of stride, padding, dilation and groups and all interleavings.", "anchors": ["mllm/core/aops/Conv1DOp.cpp: Conv1DOp::reshape", "mllm/backends/cpu/ops/Conv1DOp.cpp: CPUConv1DOp::forward"]}
{"id": "C77", "title": "Conv2D by im2col equals the direct convolution", "statement": "On ARM, loading a 2-D convolution layer and applying it to a contiguous fp32 input [batch, in, H, W] gives, for any number of threads, the tensor [batch, out, OH, OW] with the windows that fit, each element being the textbook zero-padded, strided, dilated convolution plus bias; no element is read or written outside its tensor and the column buffer reused between batches leaks nothing from one batch into the next. On other CPUs loading the layer stops the program.", "quantifier": "all inputs, weights, biases, options, batch sizes and thread counts", "why_tests_cant": "The im2col rearrangement, the blocked matrix product and the bias pass must agree for every shape, including vector remainders and padding larger than the image.", "anchors": ["mllm/core/aops/Conv2DOp.cpp: Conv2DOp::reshape", "mllm/backends/cpu/ops/Conv2DOp.cpp: CPUConv2DOp::load, CPUConv2DOp::forward", "mllm/backends/cpu/kernels/arm/conv2d.cpp: conv2d_fp32_im2col_input, conv2d_fp32_im2col_weight"]}
{"id": "C78", "title": "Conv3D equals the direct convolution", "statement": "A 3-D convolution layer applied to a contiguous fp32 input [batch, in, D, H, W] into which the kernel fits gives the tensor [batch, out, OD, OH, OW] of all windows, each element being the sum of input times weight over channels and taps, in that order, plus the bias; vectorised and scalar paths give the same value.", "quantifier": "all inputs, weights, biases, kernel sizes and strides", "why_tests_cant": "The vector path, its remainder and the strided path use different index arithmetic, which must coincide for all extents.", "anchors": ["mllm/core/aops/Conv3DOp.cpp: Conv3DOp::reshape", "mllm/backends/cpu/ops/Conv3DOp.cpp: CPUConv3DOp::forward", "mllm/backends/cpu/kernels/arm/conv3d.cpp: conv3d_fp32_baseline"]}
{"id": "C79", "title": "AvgPool1d averages its windows", "statement": "Average pooling of a contiguous fp32 input [batch, channels, length] gives the windows that fit (with ceil_mode, one more if elements remain), each output being the sum of the window's elements divided by their number, or by the kernel size if padding is counted; the order in which parallel workers compute the elements does not matter.", "quantifier": "all inputs, options and orders of the parallel loop", "why_tests_cant": "Edge windows at the padding and the last window under ceil_mode occur only for particular combinations of length, kernel, stride and padding.", "anchors": ["mllm/core/aops/AvgPool1dOp.cpp: AvgPool1dOp::reshape", "mllm/backends/cpu/ops/AvgPool1dOp.cpp: CPUAvgPool1dOp::forward"]}
{"id": "C80", "title": "Parameter names are dotted paths and do not clash", "statement": "A module's layers are named by the names on the path from the root module to the layer, joined by dots (items of a Sequential or ModuleList are called 0, 1, ...; empty names are left out), and the layer's tensors by that name followed by .weight or .bias. If siblings are registered under names of which none (followed by a dot) continues another - in particular under different names without dots - no two parameters of the module share a name.", "quantifier": "For every tree of modules, sequentials, module lists and layers of any depth and width, and every names.", "why_tests_cant": "A test builds one model; a clash depends on the whole set of names in an arbitrary tree.", "anchors": ["mllm/nn/Module.hpp: Module::reg, __reg_as_pointer, ModuleList, Sequential::add", "mllm/nn/AbstractNnNode.cpp: AbstractNnNode", "mllm/nn/Layer.cpp: LayerImpl"]}
{"id": "C81", "title": "load takes every parameter from the file and params() returns them", "statement": "Module::load succeeds exactly if the file has every parameter of every layer, with an element count that fits; a missing or unfitting parameter is never passed over. Afterwards params() contains exactly the module's parameters under their names with the tensors of the file (in the layer's shape), and loading what params() returned gives the same parameters again.", "quantifier": "For every module tree, every parameter file of a known version and every iteration order of the hash tables.", "why_tests_cant": "Whether something is silently skipped depends on the combination of layer kind, options, file version and file contents.", "anchors": ["mllm/nn/Module.cpp: ModuleImpl::load, ModuleImpl::params", "mllm/nn/Layer.cpp: LayerImpl::load", "mllm/core/ParameterFile.cpp: ParameterFile::push, pull", "mllm/core/aops/LayerNormOp.cpp: load, getParams", "mllm/core/aops/ParamOp.cpp: load", "mllm/backends/cpu/ops/LinearOp.cpp: CPULinearOp::load", "mllm/backends/cpu/ops/Conv2DOp.cpp: CPUConv2DOp::load"]}
{"id": "C82", "title": "The depth of a node is its distance from the root", "statement": "In a module printed by the user every layer and submodule is indented by the number of modules that contain it.", "quantifier": "For every module tree.", "why_tests_cant": "Depths are updated incrementally by nested constructors; a test prints one tree.", "anchors": ["mllm/nn/AbstractNnNode.cpp: regChildNode, depthIncrease", "mllm/nn/Module.hpp: Module::reg, Sequential::add"]}
{"id": "C83", "title": "Moving a module between devices keeps its parameters", "statement": "After to(device) every submodule and layer is on that device and the parameters have the values they had.", "quantifier": "For every module tree, history of moves and device.", "why_tests_cant": "Errors show only for a particular sequence of moves or layer kind.", "anchors": ["mllm/nn/Module.cpp: ModuleImpl::to", "mllm/nn/Layer.cpp: LayerImpl::to"]}
{"id": "C84", "title": "A Sequential applies its items in the order of add", "statement": "Calling a Sequential feeds its input through the items in the order in which they were added; each is applied once to the result of the previous one.", "quantifier": "For every number of items (also ten and more, whose numbers do not sort like their names) and every inputs.", "why_tests_cant": "Tests use short sequentials; the items are kept in a hash table by decimal name.", "anchors": ["mllm/nn/Module.hpp: Sequential::add, Sequential::forward"]}
{"id": "C85", "title": "UTF-8 is accepted exactly when it is valid", "statement": "Decoding a byte string into code points succeeds exactly for valid UTF-8 (shortest form, no surrogates, at most U+10FFFF) and gives the characters it encodes; every other byte string raises an exception. Encoding inverts decoding and refuses code points that are no characters.", "quantifier": "For every byte string and every sequence of code points.", "why_tests_cant": "There are unboundedly many malformed sequences (cut, overlong, surrogate, stray continuation bytes); a test tries a few.", "anchors": ["third_party/utfcpp/include/utfcpp/utf8/core.h: validate_next, append", "third_party/utfcpp/include/utfcpp/utf8/checked.h: next, append, utf8to32, utf32to8"]}
{"id": "C86", "title": "WordPiece cuts a word by greedy longest match", "statement": "The tokens of a word are its pieces, each the longest one in the vocabulary, all but the first marked with the continuation prefix; they make up the word and never cut a character. A word that cannot be cut, or is longer than the maximum number of characters, becomes the unknown token. In a tokenizer loaded from a vocabulary file the token on line n has id n and id n is that token.", "quantifier": "For every vocabulary and every word.", "why_tests_cant": "Which piece is longest depends on the whole vocabulary.", "anchors": ["mllm/preprocessor/tokenizers/WordPiece.cpp: wordpiece_tokenize, initFromVocabFile, token2id, id2token"]}
{"id": "C87", "title": "WordPiece splits text into special tokens and words", "statement": "Control characters vanish, white space separates, punctuation and (if asked) ideographs stand alone, letters are lowered if asked; special tokens in the text are found from the left and stay whole. The result depends on the set of special tokens only; invalid UTF-8 is refused; tokenization ends.", "quantifier": "For every text, every set of added tokens and every iteration order of the hash table.", "why_tests_cant": "The order of the hash table is not controlled by a test; overlapping tokens and characters are unbounded.", "anchors": ["mllm/preprocessor/tokenizers/WordPiece.cpp: basic_tokenize, clean_text, tokenize_chinese_chars, split_special_tokens, whitespace_tokenize, split_on_punctuation"]}
{"id": "C88", "title": "ChatTTS decodes what it encoded", "statement": "Decoding the ids of a text gives its words in order with one space between, when every word can be cut into vocabulary pieces. The inputs built for one or two sequences and their token types have equal length; types are 0 for the first sequence and its separators and 1 for the second.", "quantifier": "For every tokenizer, text and pair of sequences.", "why_tests_cant": "The join of pieces depends on all words and on the characters they start with.", "anchors": ["mllm/models/minicpm_o2_6/tokenization_chattts.cpp: encode, decode, build_inputs_with_special_tokens, create_token_type_ids_from_sequences"]}
{"id": "C89", "title": "MiniCPM4 detokenizes what it tokenized", "statement": "Tokenizing a text and joining the tokens again gives the text; so does encoding to ids and decoding when every token is in the vocabulary. The pieces of plain text are those of byte pair encoding over its characters.", "quantifier": "For every text, merge list and vocabulary.", "why_tests_cant": "The space mark is a three-byte sequence searched for in bytes; whether it can be confused depends on every text.", "anchors": ["mllm/models/minicpm4/tokenization_minicpm4.hpp: normalize, tokenize, encode, decode, detokenize", "mllm/preprocessor/tokenizers/BPEUTF8.cpp: _bpe, _lookup_vocab", "mllm/preprocessor/tokenizers/AutoTokenizer.cpp: TrieUTF8::split"]}
{"id": "C90", "title": "The prefix cache does not change replies", "statement": "A chat session answers every request with the tokens that generation over the whole prompt, without a cache, would produce, whatever earlier requests left in the cache; it answers every request.", "quantifier": "For every network, cache geometry, iteration order of the blob table, sequence of requests and sampling choice.", "why_tests_cant": "Whether a cached entry is reused depends on the whole history of requests; a test sees a few histories and one network.", "anchors": ["mllm/models/qwen3/modeling_qwen3_service.hpp: Qwen3Session::streamGenerate, Qwen3ForCausalLM::forward, Qwen3Attention::forward", "mllm/models/ARGeneration.cpp: streamGenerate", "mllm/engine/prefix_cache/Cache.cpp", "mllm/backends/cpu/ops/Scatter2ShardsOp.cpp"]}
{"id": "C91", "title": "A cache hit returns the K/V of the queried tokens", "statement": "Every address a session's cache returns for position i of a query is mapped, and holds the K and V bytes the network computes for token i of that query after its predecessors; the hit is the longest known prefix.", "quantifier": "For every history of requests and every query.", "why_tests_cant": "Later requests may overwrite or misfile lanes of earlier ones; the number of histories is unbounded.", "anchors": ["mllm/models/qwen3/modeling_qwen3_service.hpp: Qwen3Session::streamGenerate", "mllm/engine/prefix_cache/RadixTree.cpp", "mllm/engine/prefix_cache/Allocator.cpp"]}
{"id": "C92", "title": "A streamed reply ends with exactly one finished message", "statement": "Each reply is a sequence of texts followed by one empty message marked finished, with fewer than max_length texts and no end token among them.", "quantifier": "For every cache state, network, request and sampling choice.", "why_tests_cant": "The end depends on two configured end tokens and on the sampled tokens.", "anchors": ["mllm/models/qwen3/modeling_qwen3_service.hpp: Qwen3Session::streamGenerate", "mllm/models/ARGeneration.cpp: streamGenerate", "mllm/models/qwen3/configuration_qwen3.hpp: eos_token_id, end_of_text_token_id"]}
{"id": "C93", "title": "Cache lanes are used for new tokens only and are not leaked", "statement": "A request takes two lanes per layer for every prompt token that is not cached and every generated token but the last, and lanes no cached sequence refers to are returned.", "quantifier": "For every history of requests.", "why_tests_cant": "Leaks add up over histories far longer than a test runs.", "anchors": ["mllm/models/qwen3/modeling_qwen3_service.hpp: Qwen3Attention::forward, Qwen3Session::streamGenerate", "mllm/engine/prefix_cache/Cache.cpp: alloc, promote"]}
{"id": "C94", "title": "The ahead-of-time runner answers as generation without chunks and caches would", "statement": "For every network, geometry (layers, heads, head size, context length, chunk length), history of earlier calls and contents left in the mask and logits tensors: Runner::generate on a prompt that fits gives the callback exactly the greedy continuation computed token by token over the whole sequence: the first token after the prompt and up to seq_len more, ending with an end token or a full context. The answer does not depend on earlier calls.", "quantifier": "all networks, geometries, prompts, lengths, earlier calls and stale tensor contents", "why_tests_cant": "prompts of every length modulo the chunk size, two cache layouts and two mask forms interact; a device test checks a few prompts on one compiled model", "anchors": ["mllm/backends/qnn/aot_rt/QnnAOTRuntime.cpp: Runner::generate", "mllm/backends/qnn/aot_rt/PromptProcessor.cpp: prefill, prepare_io", "mllm/backends/qnn/aot_rt/TokenGenerator.cpp: generate", "mllm/backends/qnn/aot_rt/KVCacheManager.cpp"]}
{"id": "C95", "title": "The ahead-of-time runner stays inside its cache buffers", "statement": "No call of Runner::generate reads or writes outside of the K/V and mask buffers, whatever calls came before.", "quantifier": "all geometries, prompts, lengths and earlier calls", "why_tests_cant": "a write behind a device buffer depends on geometry and on when the context is full, and is silent on the device", "anchors": ["mllm/backends/qnn/aot_rt/KVCacheManager.cpp: initCache, updateCache", "mllm/backends/qnn/aot_rt/TokenGenerator.cpp: generate", "mllm/backends/qnn/aot_rt/QnnAOTRuntime.cpp: Runner::load"]}
{"id": "C96", "title": "Attention masks show exactly the tokens that precede", "statement": "After initAttentionMask for a tokens behind n, row s of the mask shows the n earlier tokens and new tokens 0..s and nothing else; updateAttentionMask adds exactly the tokens stored since; with a sliding window of w, exactly tokens less than w positions back are shown.", "quantifier": "all context lengths, chunk lengths, numbers of past and new tokens, windows and earlier mask contents", "why_tests_cant": "each is a statement about every row and column for every geometry", "anchors": ["mllm/backends/qnn/aot_rt/KVCacheManager.cpp: initAttentionMask, updateAttentionMask"]}
{"id": "C97", "title": "Rearranging the cache between prompt and decoding keeps every token", "statement": "rearrangeCache never leaves the buffers, and afterwards every token that fits into both arrangements has the K and V it had before, in every layer; going to decoding and back is the identity on them.", "quantifier": "all geometries, cache contents and directions", "why_tests_cant": "rows overlap while they are moved in place; a wrong direction corrupts only some geometries", "anchors": ["mllm/backends/qnn/aot_rt/KVCacheManager.cpp: rearrangeCache, rearrangeKey, rearrangeValue"]}
{"id": "C98", "title": "Storing new tokens writes their K and V to the next places and nothing else", "statement": "updateCache for n_update tokens behind n_past stores K and V of the j-th new (or j-th selected) token at place n_past + j in every layer, and changes no other token; a call for another arrangement than the current one is refused.", "quantifier": "all geometries, numbers of tokens, selections and cache contents", "why_tests_cant": "K and V have different layouts and loops; agreement is needed for every selection", "anchors": ["mllm/backends/qnn/aot_rt/KVCacheManager.cpp: updateCache, updateKey, updateValue"]}
{"id": "C99", "title": "The vision encoder knows where every patch of an image lies", "statement": "For every list of image grids made of whole merge blocks, the position ids handed to the vision encoder list, image after image and frame after frame, the (row, column) of every patch exactly once, in the order of the patches (merge blocks in row-major order, patches of a block in row-major order), and for one image the rotary angles of patch i are row * inv_freq followed by column * inv_freq of that patch, whatever the fresh tensors contained. Several images in one grid_thw abort.", "quantifier": "all merge sizes, grids (t, h, w), inverse frequencies, initial contents of the tensors", "why_tests_cant": "Grid sizes are unbounded and depend on the image; a wrong block order only shows for grids larger than one block.", "anchors": ["mllm/models/qwen2vl/modeling_qwen2vl.hpp: makeVisualRotaryPosEmbIds, makeVisualRotaryPosEmbFull, makeVisualRotaryPosEmb"]}
{"id": "C100", "title": "Positions of text, image and generated tokens", "statement": "In a prompt with one image, text before the image is numbered 0, 1, ...; the image token of merged cell (frame, row, column) gets start + frame, start + row, start + column on the three axes; the text behind continues above every position of the image; and each generated token gets the next number on all three axes, so that no generated token shares its position with an earlier token.", "quantifier": "all prompts, image grids, lengths of generation, initial contents of the tensors", "why_tests_cant": "The numbering depends on the largest of three sizes of the image and on lengths of text before and behind, over unbounded generations.", "anchors": ["mllm/models/qwen2vl/modeling_qwen2vl.hpp: getPositionIds, getPositionIdsPrefill"]}
{"id": "C101", "title": "The image's rows go where the message has the image", "statement": "Converting a message repeats the image token once per merged cell of the image at the place of the (first) image token and leaves all other tokens alone; the forward pass then replaces exactly the embeddings of these tokens by the visual embeddings in order; the row r carries the position of the block of patches 4r .. 4r+3 which the merger joins into row r.", "quantifier": "all token sequences, image grids, embeddings", "why_tests_cant": "Needs agreement between tokenizer, position numbering, patch order and merger for all sizes.", "anchors": ["mllm/models/qwen2vl/tokenization_qwen2vl.hpp: convertMessage", "mllm/models/qwen2vl/modeling_qwen2vl.hpp: forward, getPositionIdsPrefill, makeVisualRotaryPosEmbIds"]}
{"id": "C102", "title": "Window attention of Qwen2.5-VL sees exactly the own window, and order is restored", "statement": "For every grid, including sizes which are not multiples of the window, the window index lists every merged cell exactly once, the mask lets a patch see another exactly when both lie in the same window, and sorting the window index gives the permutation which puts the outputs back in the original order.", "quantifier": "all grids, window, merge and patch sizes, all row contents and row-wise functions, every result std::sort may give", "why_tests_cant": "A permutation and a quadratic mask of unbounded size, with padded borders.", "anchors": ["mllm/models/qwen2_5vl/modeling_qwen2_5vl.hpp: makeWindowIndex, Qwen2_5VisionTransformerPretrainedModel::forward"]}
{"id": "C103", "title": "Multimodal rotary embedding uses the right axis in every column", "statement": "With three sections which add up to half of the head size, column c of token s is the sine (cosine) of inv_freq[c mod half] times the token's position on the axis of the section c mod half lies in; so tokens with equal positions on the three axes (text) get the ordinary rotary embedding.", "quantifier": "all section sizes, numbers of tokens, positions, inverse frequencies, trigonometric functions", "why_tests_cant": "The sections, doubled and numbered modulo 3, must cover every column of every token.", "anchors": ["mllm/models/qwen2vl/modeling_qwen2vl.hpp: makeMultimodalPositionEmbedding"]}
{"id": "C104", "title": "the image preprocessor of Qwen2-VL puts every pixel of every channel into the patch it belongs to", "statement": "For every image whose sides are multiples of 28, the preprocessor's tensor has one row per 14 x 14 patch, the rows ordered by 2 x 2 block (block rows, block columns, then row and column inside the block), and in the row the value at channel c, frame f, pixel row y and pixel column x is the byte of the image at that pixel, rescaled, then with the channel's mean subtracted, then divided by its standard deviation; the single image fills both frames, and the grid returned is (1, rows of patches, columns of patches).", "quantifier": "every image size that is a multiple of 28 in both directions, every image content, every rescale factor, mean and deviation", "why_tests_cant": "It ranges over every image size and content; a test compares a few images against one reference output and cannot exclude a size or channel whose pixels are swapped.", "anchors": ["mllm/models/qwen2vl/image_preprocessor_qwen2vl.hpp: Qwen2VLImagePreprocessor::operator()", "mllm/preprocessor/visual/Image.cpp: Image::tensor"]}
{"id": "C105", "title": "the image size chosen for Qwen2-VL is a multiple of the block within the pixel limits", "statement": "For every image whose longer side is at most 200 times the shorter, the chosen height and width are positive multiples of 28 whose product lies within the minimum and maximum number of pixels; an image longer than 200 : 1 is refused; a size that rounds to multiples of 28 within the limits is only rounded.", "quantifier": "every height and width, every minimum and maximum number of pixels", "why_tests_cant": "It ranges over every pair of sides and limits, including those where the double-precision square root and the floor or ceiling round the other way; tests cover single sizes.", "anchors": ["mllm/models/qwen2vl/image_preprocessor_qwen2vl.hpp: smartResize"]}
{"id": "C106", "title": "blocks of the Ascend memory pool held at the same time never share memory", "statement": "Whatever sequence of allocations, frees and queries came before, two blocks that are held have address ranges of at least the requested sizes which do not overlap; every such range lies inside the pool at a 64-byte boundary; an id that is held is never given out again and its address does not move until it is freed. (Pools of a usual size: a multiple of 32 bytes at a 64-byte aligned address; otherwise refuted.)", "quantifier": "every sequence of calls, every request size up to 4 GiB - 64, every pool, every iteration order of the hash map of free blocks", "why_tests_cant": "Overlap depends on the whole history of frees and reuses; a test runs a few histories.", "anchors": ["mllm/backends/ascend/memory/AscendMemoryPool.cpp: allocateBlock, freeBlock, getBlockPtr"]}
{"id": "C107", "title": "freed memory of the Ascend pool is used again, the best-fitting block first", "statement": "A request is served by a smallest free block that is large enough whenever there is one, else by fresh memory, and is refused only when neither is possible, leaving the pool unchanged; a request no larger than a block just freed takes no fresh memory, and taking and giving back for ever never fails; a pool whose memory could not be obtained refuses everything.", "quantifier": "every history, request, iteration order of the free blocks, and every unbounded sequence of take-and-give-back rounds", "why_tests_cant": "A leak shows only after unbounded use; minimality ranges over all sets of free blocks.", "anchors": ["mllm/backends/ascend/memory/AscendMemoryPool.cpp: allocateBlock, freeBlock"]}
{"id": "C108", "title": "storages on the Ascend device keep their own memory until they are freed", "statement": "Through any sequence of allocations and frees of storages, the memory of live storages does not overlap, a storage is found again when freed, and a new storage gets an address no live storage has.", "quantifier": "every sequence of storage allocations and frees, every storage size up to 4 GiB - 64", "why_tests_cant": "Depends on the agreement of the allocator's address map and the pool's id maps over the whole history.", "anchors": ["mllm/backends/ascend/AscendAllocator.cpp: alloc, free", "mllm/backends/ascend/memory/AscendMemoryPool.cpp: allocateBlock, freeBlock, getBlockPtr"]}
{"id": "C109", "title": "the command-line tools get the parameters the command line says", "statement": "For every declaration of parameters and every sensible command line, each parameter reads the last value given under any of its names, the word at its place if it is positional, or its default; options about different parameters may be given in any order; unknown options, missing or unreadable values and missing required parameters end the program.", "quantifier": "all parameter declarations, all command lines (any number of words of any length)", "why_tests_cant": "Ranges over all declarations and lines; tests try a few lines.", "anchors": ["mllm/utils/Argparse.hpp: parse, get, splitFlags"]}
{"id": "C110", "title": "MiniCPM-o slices tile the image", "statement": "For every image, maximal number of slices and rounding behaviour, the image becomes one overview picture and, if it is large, columns times rows slices (at most the maximum): every picture is a positive multiple of the patch size on both sides, every pixel of the refined image is in exactly the slice of its row and column band, and the slices follow the overview row by row. The grid is one with the smallest error among all grids with about as many slices as the area asks for.", "quantifier": "all images, sizes, limits, patch sizes, resampling filters with the asked-for size, all outcomes of the float computations", "why_tests_cant": "Ranges over all image sizes and all rounding outcomes; the slices are located by nested loops over computed steps.", "anchors": ["mllm/models/minicpm_o2_6/image_preprocessor_minicpmo.hpp: slice_image, get_sliced_grid, find_best_resize, get_refine_size, split_to_patches, crop_image"]}
{"id": "C111", "title": "every normalised pixel of every picture arrives in the batch, the rest is zero", "statement": "For every list of pictures whose sides are multiples of the patch size, the batch tensor holds at [picture, channel, line of the patch, patch * size + column] the normalised byte of that pixel of that picture, zeros behind the patches of a smaller picture, and the target sizes are the numbers of patches per side.", "quantifier": "all pictures, patch sizes, normalisation constants and arithmetic", "why_tests_cant": "An index calculation over five nested loops and two copies for every size.", "anchors": ["mllm/models/minicpm_o2_6/image_preprocessor_minicpmo.hpp: process, normalize_tensor, reshape_by_patch", "mllm/models/minicpm_o2_6/tokenization_minicpmo.hpp: convertToTensors"]}
{"id": "C112", "title": "each picture's rows go into its own section of the prompt", "statement": "For every text around the image, vocabulary and grid, the token list has one section for the overview and one for every slice, in order, with exactly query_num slots each, lines of slices separated by a line feed; merging puts the rows of picture i into the slots of section i and leaves every other row alone.", "quantifier": "all texts without section marks before the image, grids, vocabularies, embeddings", "why_tests_cant": "Depends on the agreement of four functions (grid, placeholder text, bounds by counting marks, merge) over all grids.", "anchors": ["mllm/models/minicpm_o2_6/image_preprocessor_minicpmo.hpp: get_slice_image_placeholder, get_grid_placeholder, calc_bounds", "mllm/models/minicpm_o2_6/tokenization_minicpmo.hpp: convertMessage", "mllm/models/minicpm_o2_6/modeling_minicpmo.hpp: merge_vision_text_embeddings"]}
{"id": "C113", "title": "vision positions stay in the table and padding is never attended to", "statement": "For every picture size and every outcome of the float comparisons a patch's position id is inside the position table (and, with exact comparisons, the cell its centre band falls into); padded patches get id 0 and are masked in both directions, no mask exactly if nothing is padded; through any history of calls the resampler gives patch (y, x) the embedding of (y, x), zeros and a mask bit to padding.", "quantifier": "all numbers of patches, table sizes, comparison outcomes, histories of calls with growing and shrinking pictures", "why_tests_cant": "The resampler's table is rebuilt when a picture outgrows it: a property of histories.", "anchors": ["mllm/models/minicpm_o2_6/modeling_siglip.hpp: SiglipVisionEmbeddings::forward, SiglipVisionModel::forward", "mllm/models/minicpm_o2_6/modeling_resampler.hpp: get2DSinCosPosEmbed, Resampler::forward"]}
{"id": "C114", "title": "audio rows fill the audio slots", "statement": "For every recording the number of frames is its length over the hop, rounded up, in spite of float arithmetic; the prompt has one slot for four frames (at least one); merging puts audio row k into slot k of the section and changes nothing else; a recording of at most 30 s never has more slots than the encoder gives rows; the chunked prompt has the same number of slots in chunks no longer than asked for.", "quantifier": "all recording lengths up to 10485760 samples, all texts, vocabularies, embeddings", "why_tests_cant": "Rounding in binary32 and truncating divisions over all lengths.", "anchors": ["mllm/models/minicpm_o2_6/audio_preprocessor_minicpmo.hpp: getAudioPlaceholder, calcAudioBounds", "mllm/models/minicpm_o2_6/modeling_minicpmo.hpp: merge_audio_text_embeddings"]}
{"id": "C115", "title": "A mixture-of-experts layer gives every token the weighted sum of its own experts", "statement": "In the mixture-of-experts layers of Qwen3-MoE and Deepseek-OCR the output row of a token is the sum over its chosen experts of the gate's weight times that expert's answer to the token's own row, for every assignment of experts (some with no token, several tokens or all), whatever order argsort gives to equal ids; it does not depend on the other tokens of the batch. An expert id outside the list ends the program. Normalised gate weights are positive, keep their proportions and add up to one; shared experts add their answer to every row.", "quantifier": "all batches, numbers of experts and of experts per token, assignments, weights and orders of equal ids", "why_tests_cant": "The tests run no model with experts; the number of assignments of tokens to experts and of orders of std::sort for equal keys is astronomical.", "anchors": ["mllm/models/qwen3_moe/modeling_qwen3_moe_fa2.hpp: MoEGate::forward, Qwen3MoE::moeInfer", "mllm/models/deepseek_ocr/modeling_deepseek_ocr.hpp: DeepseekV2MoE::forward, moeInfer"]}
{"id": "C116", "title": "Dividing integer tensors gives C++'s quotient", "statement": "a / b of int8, int16 and int32 tensors gives at every position the quotient rounded towards zero, for all lengths, numbers of threads and splits into vector and scalar parts.", "quantifier": "all lengths, thread counts, orders of the chunks and pairs of integers", "why_tests_cant": "The vector code divides in binary32, so that whether a quotient is right depends on the operands; 2^64 pairs cannot be tried.", "anchors": ["mllm/backends/cpu/kernels/arm/elementwise.hpp: __ew_loop, ParallelElementwiseLoop", "mllm/backends/cpu/kernels/arm/primitives.hpp: __VectorDiv, __ScalarDiv"]}
{"id": "C117", "title": "Maxima and minima", "statement": "max and min along a dimension (kept or dropped) or over everything return tensors of the documented shape whose elements are values of the lane that no value of the lane exceeds (goes below).", "quantifier": "all tensors, dimensions, element types and lane lengths, on every host architecture", "why_tests_cant": "vector part unrolled four times, vector remainder, scalar remainder and strided lanes are different code; a lane may have any length", "anchors": ["mllm/backends/cpu/kernels/arm/reduce.hpp: Reduce::run", "mllm/backends/cpu/ops/ReduceOps.cpp: CPUReduceMaxOp::forward", "mllm/core/Tensor.cpp: Tensor::max"]}
{"id": "C118", "title": "Means", "statement": "mean along a dimension or over everything returns the sum of the lane divided by its length; of integer tensors, rounded towards zero.", "quantifier": "all tensors, dimensions, element types and lane lengths, on every host architecture", "why_tests_cant": "overflow of the sum and rounding of the quotient depend on all values of the lane", "anchors": ["mllm/backends/cpu/kernels/arm/reduce.cpp: reduce_mean_fp32, reduce_mean_int8", "mllm/backends/cpu/ops/ReduceOps.cpp: CPUMeanOp::forward", "mllm/core/Tensor.cpp: Tensor::mean"]}
{"id": "C119", "title": "Codec indices and codes are inverse", "statement": "With the finite scalar quantiser, indices 0..n-1 (n the product of the levels) number the choices of one level per dimension without gaps; indicesToCodes gives the evenly spaced codes of that choice, between -1 and 1, different for different indices; codesToIndices gives exactly the indices back; the implicit codebook lists the codes in order of index.", "quantifier": "all lists of levels, all lists of indices", "why_tests_cant": "the floats are rounded twice and then truncated: whether an index survives depends on every pair of level and digit, and tests use one list of levels", "anchors": ["mllm/models/minicpm_o2_6/modeling_vector_quantize.hpp:indicesToCodes", "mllm/models/minicpm_o2_6/modeling_vector_quantize.hpp:codesToIndices", "mllm/models/minicpm_o2_6/modeling_vector_quantize.hpp:create_basis_tensor"]}
{"id": "C120", "title": "Quantising gives the nearest code of the codebook", "statement": "quantize maps every component to the nearest of the level's values, and codesToIndices of the result is an index of the codebook whose codes are that result.", "quantifier": "all levels and all input values", "why_tests_cant": "the input is a real vector; rounding, clipping and normalising have to agree with the numbering at every boundary", "anchors": ["mllm/models/minicpm_o2_6/modeling_vector_quantize.hpp:quantize", "mllm/models/minicpm_o2_6/modeling_vector_quantize.hpp:bound"]}
{"id": "C121", "title": "Residual decoding", "statement": "getOutputFromIndices returns for every position the sum over the quantisers of the code of that quantiser's index times that quantiser's scale, quantisers marked -1 contributing nothing.", "quantifier": "all levels, scales, batches, positions, numbers of quantisers and indices", "why_tests_cant": "the flat offsets of four dimensions and the masking must be right for every index, including the first one", "anchors": ["mllm/models/minicpm_o2_6/modeling_vector_quantize.hpp:getCodesFromIndices", "mllm/models/minicpm_o2_6/modeling_vector_quantize.hpp:getOutputFromIndices"]}
{"id": "C122", "title": "The multimodal rotary operator turns every channel pair by the position on its own axis", "statement": "The multimodal rotary operator (Qwen2-VL language model), given the activation and the sine and cosine tables the model builds from three-axis positions, returns for every batch, head and token the row in which each pair (d, d + D/2) is turned by frequency(d) times the token's position on the axis (time, row, column) whose section contains d, in both layouts and for transposed views; consequently attention scores do not change when all positions of an axis are shifted by the same amount.", "quantifier": "all activations, layouts, table contents, positions, sections, frequencies, shifts", "why_tests_cant": "The operator loops over four axes with vector blocks and tails; a test fixes a few shapes, and relative-position invariance is a statement about all positions.", "anchors": ["mllm/backends/cpu/ops/MultimodalRoPEOp.cpp: Qwen2VLMultimodalRoPEOpImpl::forward, CPUMultimodalRoPEOp::forward", "mllm/core/aops/MultimodalRoPEOp.cpp: reshape", "mllm/models/qwen2vl/modeling_qwen2vl.hpp: makeMultimodalPositionEmbedding"]}
{"id": "C123", "title": "The vision encoder's rotary operator turns every patch by its row and column", "statement": "The vision rotary operator, given the activation [B, S, H, D] and the tables the model builds from the grid of patches, returns the rows in which the channel pairs of the s-th patch are turned by its row (first quarter of the frequencies) and its column (second quarter); scores between two patches depend only on how far apart they lie.", "quantifier": "all activations, grids made of whole blocks, frequencies, merge sizes", "why_tests_cant": "Position bookkeeping over all grids and raw pointer arithmetic over all shapes.", "anchors": ["mllm/backends/cpu/ops/VisionRoPEOp.cpp: Qwen2VLVisionRoPEOpImpl::forward, CPUVisionRoPEOp::forward", "mllm/models/qwen2vl/modeling_qwen2vl.hpp: makeVisualRotarySinCos, makeVisualRotaryPosEmb"]}
{"id": "C124", "title": "Nearest-neighbour resampling copies a closest element", "statement": "The interpolation operator in nearest mode returns, for every output element of a signal, image or volume, an input element that is closest, on every axis, to the position of the output element; asking for the same size returns the same image.", "quantifier": "all shapes of rank 3 to 5, contents, requested sizes or factors, both corner conventions", "why_tests_cant": "a property of every output size against every input size, with ties and borders", "anchors": ["mllm/backends/cpu/ops/InterpolateOp.cpp:nearest_interpolate_2d", "mllm/backends/cpu/ops/InterpolateOp.cpp:CPUInterpolateOp::forward", "mllm/core/aops/InterpolateOp.cpp:reshape"]}
{"id": "C125", "title": "Linear, bilinear and trilinear resampling evaluate the linear interpolant", "statement": "The interpolation operator in linear modes returns at every output element the piecewise linear interpolant of the input at that element's position: results stay between the smallest and the largest input, the same size returns the same image, aligned corners keep the corners, and a linear ramp is reproduced wherever the position lies inside the image.", "quantifier": "all shapes, contents, sizes or factors, corner conventions", "why_tests_cant": "real-valued positions over all pairs of sizes; borders are clamped separately on each axis", "anchors": ["mllm/backends/cpu/ops/InterpolateOp.cpp:linear_interpolate_1d", "mllm/backends/cpu/ops/InterpolateOp.cpp:bilinear_interpolate_2d", "mllm/backends/cpu/ops/InterpolateOp.cpp:trilinear_interpolate_3d"]}
{"id": "C126", "title": "Bicubic resampling evaluates a cubic curve through the elements", "statement": "The interpolation operator in bicubic mode evaluates at every output element the cubic curve through the elements whose slopes are half the differences of the neighbours, along rows and then along columns; constants and same-size requests are returned unchanged, ramps are reproduced away from the border.", "quantifier": "all image shapes, contents, sizes or factors, corner conventions", "why_tests_cant": "sixteen clamped neighbours for every output of every size", "anchors": ["mllm/backends/cpu/ops/InterpolateOp.cpp:bicubic_interpolate_2d", "mllm/backends/cpu/ops/InterpolateOp.cpp:cubic_interp1d"]}
{"id": "C127", "title": "Antialiasing smooths before shrinking", "statement": "With antialiasing, an image that shrinks is first averaged along rows and columns with positive Gaussian weights of deviation half the largest reduction and then resampled; one colour stays that colour and bilinear results stay between the smallest and the largest input.", "quantifier": "all image shapes, contents, sizes, corner conventions", "why_tests_cant": "kernel radius, weights and clamped borders depend on the ratio of the sizes", "anchors": ["mllm/backends/cpu/ops/InterpolateOp.cpp:gaussian_blur_nchw", "mllm/backends/cpu/ops/InterpolateOp.cpp:CPUInterpolateOp::forward"]}
{"id": "C128", "title": "A resampling request is served or refused", "statement": "A request whose mode does not fit the rank of the input, or whose sizes cover other than the spatial axes, is refused; nothing uninitialised is returned and nothing outside the output is written.", "quantifier": "all modes, shapes and requests", "why_tests_cant": "absence of undefined behaviour over all requests", "anchors": ["mllm/backends/cpu/ops/InterpolateOp.cpp:CPUInterpolateOp::forward", "mllm/core/aops/InterpolateOp.cpp:reshape"]}
{"id": "C129", "title": "The fast Fourier transforms compute the discrete Fourier transform", "statement": "For every size (a power of two or not) the forward transform used by STFT turns a real vector x into y with y(k) = sum_j x(j) e^(-2 pi i jk/n), and the inverse transform used by ISTFT turns y into (1/n) sum_k y(k) e^(2 pi i jk/n); nothing outside the vectors is touched.", "quantifier": "every size 1..2^30, every input vector", "why_tests_cant": "Bit reversal, butterflies and the chirp convolution must be right for every size; tests compare a few sizes numerically.", "anchors": ["mllm/backends/cpu/ops/STFTOp.cpp:fftRadix2,fftRadix2Complex,fftBluestein,fftBluesteinComplex,bitReverse,nextPowerOf2,is_power_of_2"]}
{"id": "C130", "title": "The inverse Fourier transform restores the signal", "statement": "Applying the inverse transform to the forward transform of a real vector gives the vector back, for every size; the first n/2+1 bins of a real signal determine the rest.", "quantifier": "every size 1..2^30, every real vector", "why_tests_cant": "An identity over all vectors and all sizes, through two different algorithms.", "anchors": ["mllm/backends/cpu/ops/STFTOp.cpp:fftRadix2,fftRadix2Complex,fftBluestein,fftBluesteinComplex"]}
{"id": "C131", "title": "STFT bins are the Fourier coefficients of the windowed frames", "statement": "For one signal, STFT returns n/2+1 bins for every frame that fits, and bin k of frame f is the DFT of the signal (extended by zeros or its mirror image if centred) from sample f*hop, times the window.", "quantifier": "every signal, window, transform size, hop, window length and padding mode", "why_tests_cant": "Ranges over all lengths, paddings and sizes; tests use batch 1 and power-of-two sizes.", "anchors": ["mllm/backends/cpu/ops/STFTOp.cpp:padSignal,CPUSTFTOp::forward", "mllm/core/aops/STFTOp.cpp:reshape"]}
{"id": "C132", "title": "ISTFT is the normalised overlap-add of the inverse transforms", "statement": "Every sample of the output is the sum, over the frames containing it, of the real inverse transform times the window, divided by the sum of the squared windows; batches do not mix; in 'same' mode (window - hop)/2 samples are trimmed.", "quantifier": "every spectrogram, batch size, window, hop and transform size", "why_tests_cant": "Overlap pattern depends on hop, window and frame count; must hold for all of them.", "anchors": ["mllm/backends/cpu/ops/STFTOp.cpp:CPUISTFTOp::forward", "mllm/core/aops/ISTFTOp.cpp:reshape"]}
{"id": "C133", "title": "ISTFT of STFT gives the signal back", "statement": "Analysing a signal and synthesising it again with the same options returns every sample that the windows cover.", "quantifier": "every signal, window, hop, transform size", "why_tests_cant": "An identity over all signals; tests allow a tolerance on one signal.", "anchors": ["mllm/backends/cpu/ops/STFTOp.cpp:CPUSTFTOp::forward,CPUISTFTOp::forward"]}
{"id": "C134", "title": "Low-bit packing of signed values loses nothing", "statement": "For every width of 1 to 8 bits and every supported buffer size (32, 64 or 128 values), packing a buffer of values that fit in the width writes exactly width*count/8 bytes at the destination and nothing else, and unpacking from any memory holding these bytes gives every value back; two different buffers never share packed bytes.", "quantifier": "every width 1..8, buffer size, memory, address and buffer of fitting values", "why_tests_cant": "2^(width*count) buffers per shape; each width has its own hand-written shift/mask sequence per size", "anchors": ["mllm/backends/cpu/kernels/arm/quantize/bitspack/bitspack.hpp: pack_buffer, unpack_buffer", "mllm/backends/cpu/kernels/arm/quantize/bitspack/ux.hpp: vec_pack_32_lowbit_values, vec_pack_64_lowbit_values, vec_pack_128_lowbit_values", "mllm/backends/cpu/kernels/arm/quantize/bitspack/u1.hpp", "mllm/backends/cpu/kernels/arm/quantize/bitspack/u3.hpp", "mllm/backends/cpu/kernels/arm/quantize/bitspack/u5.hpp", "mllm/backends/cpu/kernels/arm/quantize/bitspack/u7.hpp"]}
{"id": "C135", "title": "Low-bit packing of unsigned values and table indices loses nothing", "statement": "For every width of 1 to 8 bits and 32, 64 or 128 unsigned values, the packed bytes decode back to the values, also through the look-up-index decoders; with at most 4 bits the decoder with a table yields the table entry of each index.", "quantifier": "every width, memory, address, buffer of fitting values, table", "why_tests_cant": "same size of input space; the table variants share decoders with the plain ones", "anchors": ["mllm/backends/cpu/kernels/arm/quantize/bitspack/ux.hpp: vec_pack_128_uintx_values, vec_unpack_128_uintx_values, vec_unpack_128_lowbit_values_with_lut, vec_unpack_64_lut_indices", "mllm/backends/cpu/kernels/arm/quantize/bitspack/bitspack.hpp: pack_buffer_for_lut"]}
{"id": "C136", "title": "The interleaving of weight columns is the documented permutation and is undone", "statement": "For every nr, kr and sr with sr dividing kr, the packed order consists of sr sections, each holding kr/sr consecutive values of every column in turn; unpacking restores the original order, and both touch only the first nr*kr entries.", "quantifier": "every nr, kr, sr, array contents", "why_tests_cant": "unbounded shapes; a transposed index agrees on square cases", "anchors": ["mllm/backends/cpu/kernels/arm/quantize/bitspack/ux_packing.hpp: pack_values, unpack_values"]}
{"id": "C137", "title": "Packing then unpacking quantized weights restores weights, scales, zeros and bias", "statement": "For every supported tile shape, number of columns (also not a multiple of the tile), row length and group size, packing weights writes only within the advertised packed size, and unpacking from any memory with those bytes writes exactly the n*k weights, the scales, and when present the zeros and the bias, with their original values, and nothing outside these ranges.", "quantifier": "every width, tile shape, n, k, group size, contents, presence of zeros/bias, address, memory", "why_tests_cant": "four nested loops with a running pointer; padding columns and optional parts shift everything after them", "anchors": ["mllm/backends/cpu/kernels/arm/quantize/bitspack/bitspack.hpp: pack_weights, unpack_weights, unpack_weights_at_n_idx, packed_weights_size, packed_weights_size_per_n"]}
{"id": "C138", "title": "Packed weights carry the group sums, scales, zeros and bias where the kernels read them", "statement": "After packing, for every column and group the bytes following the group's values hold the column's scale, then the exact sum of the column's weights in that group, then its zero point if present; the bias follows the last group of the tile.", "quantifier": "every shape, column, group, contents", "why_tests_cant": "the sums are accumulated across chunks with a vector and a scalar part; a wrong one only degrades accuracy", "anchors": ["mllm/backends/cpu/kernels/arm/quantize/bitspack/bitspack.hpp: pack_weights_impl", "mllm/backends/cpu/kernels/arm/quantize/bitspack/bitspack.cpp: compute_sum"]}
{"id": "C139", "title": "Transposing on ARM moves every element to its place", "statement": "On the ARM backend, transposing two dimensions of a contiguous fp32, fp16 or int64 tensor returns a tensor whose shape has the two extents exchanged and whose element at every exchanged index is the input's element, for every rank, every extent (multiple of the register width or not) and negative dimension numbers; where both backends support the type the result equals the x86 result. Two cases break it: exchanging dimensions 1 and 2 of a rank-4 tensor with rows shorter than 16 bytes leaves the buffer, and exchanging dimensions 0 and 1 at rank 3 or more never writes the output.", "quantifier": "every tensor shape, element type, pair of dimensions and content", "why_tests_cant": "tests try a few aligned shapes; tails, short rows and odd ranks go through different loops", "anchors": ["mllm/backends/cpu/kernels/arm/transpose.cpp: transpose_hw_wh_fp32/fp16/int64, transpose_bshd_bhsd_*, transpose_last_dims_*", "mllm/backends/cpu/ops/TransposeOp.cpp: CPUTransposeOp::forward"]}
{"id": "C140", "title": "Permuting on ARM moves every element to its place", "statement": "On the ARM backend, permuting the axes of a contiguous tensor of any supported element type returns the tensor whose element at the rearranged index is the input's element, whichever of the vector and scalar paths is taken, and permuting back with the inverse permutation returns the original contents. A non-contiguous input is read as if it were contiguous.", "quantifier": "every shape, permutation, supported type and content", "why_tests_cant": "the row path, the 8/4/1 tail of fp16 and the generic path are chosen by the shape", "anchors": ["mllm/backends/cpu/kernels/arm/permute.cpp: permute_fp32, permute_fp16, permute_generic", "mllm/backends/cpu/ops/PermuteOp.cpp: CPUPermuteOp::forward"]}
{"id": "C141", "title": "A reference-counted handle never dangles", "statement": "Whatever operations any number of threads perform on IntrusivePtr handles (construction, copy, move, assignment, self-assignment, reset, swap, destruction), as long as no two of them race on the same handle: the object a handle points to exists, no object is touched after its deletion, and none is deleted twice.", "quantifier": "every number of handles and threads, every interleaving of every sequence of operations", "why_tests_cant": "A test runs a few schedules; the dangerous ones are those where the last release overlaps a copy, and there are unboundedly many histories.", "anchors": ["mllm/utils/IntrusivePtr.hpp:RefCountedBase", "mllm/utils/IntrusivePtr.hpp:IntrusivePtr"]}
{"id": "C142", "title": "use_count is the number of handles, and the last one deletes the object", "statement": "Whenever no operation is in progress, use_count() seen through any handle is the number of handles pointing to the object, every created object exists exactly as long as some handle points to it, and it has been deleted exactly once when none does. While operations are in progress the count is never below the number of handles. No operation ever waits for another thread.", "quantifier": "every reachable state, at rest and in flight", "why_tests_cant": "A leak or an early deletion appears only for particular histories and overlaps; tests check counts after a handful of straight-line sequences.", "anchors": ["mllm/utils/IntrusivePtr.hpp:IntrusivePtr", "mllm/utils/IntrusivePtr.hpp:make_intrusive"]}
{"id": "C143", "title": "Copy, move and self-assignment of handles", "statement": "Copy construction and copy assignment make the target point to the source's object and leave every other handle alone; move assignment makes the source null too; assigning a handle to itself keeps its object alive.", "quantifier": "every reachable state at rest, every pair of handles including equal ones, null or not", "why_tests_cant": "Aliasing of source and target, null handles and shared objects combine freely; tests pick a few pairs.", "anchors": ["mllm/utils/IntrusivePtr.hpp:operator="]}
{"id": "C144", "title": "zeros, ones and constant fills write every element and nothing else", "statement": "Filling a tensor of any number of elements with a constant, with any vector register width, makes exactly those elements that constant and changes nothing beyond them.", "quantifier": "all element counts, register widths, values and destination buffers", "why_tests_cant": "The vector loop and its partial last store interact with every count and width; tests use a few sizes on one machine.", "anchors": ["mllm/backends/cpu/kernels/common/fill-inl.hpp:fill_value_impl", "mllm/core/Tensor.cpp:Tensor::zeros", "mllm/core/Tensor.cpp:Tensor::ones"]}
{"id": "C145", "title": "arange", "statement": "Tensor::arange(start, end, step) is start, start + step, ... : every element is written, equals start + i*step, lies before end, and no value before end is missing.", "quantifier": "all starts, ends and nonzero steps of either sign, all register widths, float and integer types", "why_tests_cant": "Lengths depend on a quotient and on rounding; the failing cases are specific magnitudes and fractional steps.", "anchors": ["mllm/core/Tensor.cpp:Tensor::arange", "mllm/backends/cpu/kernels/common/fill-inl.hpp:fill_arange_impl"]}
{"id": "C146", "title": "random", "statement": "Tensor::random(shape, start, end) is determined by the seed: element i comes from the (i+2)-nd term of the congruential sequence, whatever the number of elements; all elements lie between start and end.", "quantifier": "all seeds, counts, intervals and register widths", "why_tests_cant": "Seeds and intervals are unbounded; the extreme terms of the sequence (2^31 - 1) occur for one seed in two thousand million.", "anchors": ["mllm/backends/cpu/kernels/common/fill-inl.hpp:fill_random_impl", "mllm/core/Tensor.cpp:Tensor::random"]}
{"id": "C147", "title": "Chunked generation delivers the whole answer in printable pieces", "statement": "Reading chunks from the chunk generator until one is marked finished gives at most max_new_tokens chunks whose texts, one after the other, are the text of the tokens the model answers with up to the first end token or the limit; no chunk before the last breaks off inside a character, only the last is marked finished, and its count is the number of tokens of the answer.", "quantifier": "every sequence of sampled tokens, every tokenizer, every limit and chunk size from 1", "why_tests_cant": "Characters can be split over tokens at any place, chunks can end at any token and the end token can come at any position in a chunk; tests see a few answers.", "anchors": ["mllm/models/minicpm_o2_6/llm_chunk_generation.hpp:ChunkGenerator::generate_next_chunk", "mllm/models/minicpm_o2_6/llm_chunk_generation.hpp:ChunkGenerator::check_incomplete_tokens", "mllm/models/minicpm_o2_6/llm_chunk_generation.hpp:ChunkGenerator::Iterator::advance"]}
{"id": "C148", "title": "The documented loop over a chunk generator prints the answer", "statement": "Going over a chunk generator with the range-for loop its documentation shows and printing every output's text prints the answer.", "quantifier": "every sequence of sampled tokens, every tokenizer, every limit and chunk size from 1", "why_tests_cant": "The loop's order of ending test and body matters for answers of every length; a printed prefix of an answer looks right.", "anchors": ["mllm/models/minicpm_o2_6/llm_chunk_generation.hpp:ChunkGenerator::Iterator", "mllm/models/minicpm_o2_6/llm_chunk_generation.hpp:ChunkGenerator::begin", "mllm/models/minicpm_o2_6/llm_chunk_generation.hpp:ChunkGenerator::end"]}
{"id": "C149", "title": "Joining two waveforms fades the one into the other without loss", "statement": "Overlap-adding two waveforms keeps the first one's samples before the overlap, fades from the first to the second over the overlap, starting at the one and ending at the other and never leaving their range, and hands back exactly the second one's samples after the overlap, in every row; the overlap is at most the wanted one and neither waveform's length.", "quantifier": "all waveforms of any lengths, any number of rows, every overlap", "why_tests_cant": "The indices depend on all lengths together; a test hears one pair of waveforms.", "anchors": ["mllm/models/minicpm_o2_6/streaming_generation.cpp:StreamingGenerator::linear_overlap_add"]}
{"id": "C150", "title": "The speech stream delivers the whole audio", "statement": "The waveforms of a speech stream's outputs, one after the other, are all the waveforms the speech model made, each faded into the next, with no sample left out or repeated, whether the outputs are taken by calls until one says finished or by the documented range-for loop.", "quantifier": "all streams: any number of waveforms of any lengths, any text", "why_tests_cant": "What is held back for mixing depends on all waveforms before; a missing end of a fraction of a second is not noticed.", "anchors": ["mllm/models/minicpm_o2_6/streaming_generation.cpp:StreamingGenerator::generate_next", "mllm/models/minicpm_o2_6/streaming_generation.hpp:StreamingGenerator::Iterator", "mllm/models/minicpm_o2_6/streaming_generation.cpp:StreamingGenerator::linear_overlap_add"]}
{"id": "C151", "title": "The speech stream delivers the text once and in order", "statement": "The texts of a stream's outputs are the texts of the chunks read so far in order, none twice and none left out; with enough outputs they are the whole answer, with or without audio; nothing after the end marker of the speech model is part of them.", "quantifier": "all streams: any tokens, tokenizer, end of the speech, audio on or off", "why_tests_cant": "How chunks of text and calls of the speech model interleave depends on both models.", "anchors": ["mllm/models/minicpm_o2_6/streaming_generation.cpp:StreamingGenerator::generate_next", "mllm/models/minicpm_o2_6/streaming_generation.hpp:StreamingGenerator::Iterator::advance"]}
{"id": "C152", "title": "Every token of the answer reaches the speech model", "statement": "However the answer's text arrives, when it is complete the speech model has been given the start and speaker marks, every one of the first 300 tokens of the text and the end-of-text mark, each at its own position; whatever has arrived, no audio token attends to a place that has not been filled.", "quantifier": "all growing texts of any length, any number of calls, any moment of completion", "why_tests_cant": "Windows of fixed size meet texts that arrive in pieces of any size; a missing token is heard as a swallowed syllable in some answers only.", "anchors": ["mllm/models/minicpm_o2_6/streaming_generation.cpp:StreamingGenerator::generate_next", "mllm/models/minicpm_o2_6/streaming_generation.cpp:StreamingGenerator::prepare_tts_text", "mllm/models/minicpm_o2_6/streaming_generation.cpp:StreamingGenerator::build_streaming_mask"]}
{"id": "C153", "title": "Streaming the audio codes loses and repeats nothing", "statement": "Call after call the speech model's code frames continue one speech: what goes to the vocoder, apart from the four frames every piece repeats, is every frame made so far once and in order, ends before the first frame containing the end code, contains no such frame, and stops only for the end code or at the stated limit; the speech model's cache holds all of it.", "quantifier": "all sampled codes, any number of codebooks, calls and frames, with and without force_no_stop", "why_tests_cant": "The end code can come in any codebook of any frame, also the first of a call; the limit is far beyond test lengths.", "anchors": ["mllm/models/minicpm_o2_6/modeling_chattts.hpp:ConditionalChatTTS::generate", "mllm/models/minicpm_o2_6/streaming_generation.cpp:StreamingGenerator::generate_next", "mllm/models/minicpm_o2_6/streaming_generation.hpp:StreamingGenerator::StreamingGenerator"]}
{"id": "C154", "title": "Sampling a code draws a token of positive probability", "statement": "Multinomial sampling returns, for every random number, an existing token whose interval of the cumulative distribution contains the number, so never one of probability zero.", "quantifier": "all score vectors of any length, all random numbers", "why_tests_cant": "Failures need a random number in an interval of rounding-error size or exactly on a boundary.", "anchors": ["mllm/models/minicpm_o2_6/modeling_chattts.hpp:ConditionalChatTTS::multinomialSample"]}
{"id": "C155", "title": "The top-k and top-p filters keep exactly the tokens they should", "statement": "Top-k keeps unchanged exactly the scores that fewer than k others exceed (k the wanted number, at least three, at most all) and removes the rest. Top-p keeps a set of scores none of which is exceeded by a removed one, whose probability exceeds top_p unless all are kept, and which would not with one token less unless three or fewer are kept; at least three are kept if there are three. Neither depends on how the sort orders equal scores beyond that.", "quantifier": "all score vectors of any length with ties and removed (minus infinity) entries, all k and top_p, every result a sort may give", "why_tests_cant": "Ties and boundaries of the running sum are hit by few score vectors; the order of equal scores differs between standard libraries.", "anchors": ["mllm/models/minicpm_o2_6/modeling_chattts.hpp:ConditionalChatTTS::applyTopKWarper", "mllm/models/minicpm_o2_6/modeling_chattts.hpp:ConditionalChatTTS::applyTopPWarper"]}
{"id": "C156", "title": "A crop is the box asked for, padded with zeros", "statement": "Cropping gives an image of the box's size: the image's pixels where the box covers the image, zeros elsewhere, whatever the box; nothing outside the new buffer is written. The centre crop takes the middle: what is left on opposite sides differs by at most one pixel, also for a box larger than the image.", "quantifier": "all images, all boxes inside, across and outside the image, all crop sizes", "why_tests_cant": "Boxes that stick out on one side of a non-square image are needed to see swapped width and height or a wrong stride.", "anchors": ["mllm/preprocessor/visual/Image.cpp:Image::crop", "mllm/preprocessor/visual/ImageTransform.cpp:CenterCrop::apply"]}
{"id": "C157", "title": "The tiles of a page cover it exactly once", "statement": "Dynamic preprocessing cuts the resized page into as many tiles as the grid has, each of the size asked for, every pixel of the page in exactly one tile, tiles in reading order.", "quantifier": "all tile sizes and grids, all images and resizing functions", "why_tests_cant": "A wrong stride or order shows only for grids that are not square; a lost row of pixels is hardly visible in the recognised text.", "anchors": ["mllm/models/deepseek_ocr/conversation_preprocess.hpp:dynamicPreprocess", "mllm/preprocessor/visual/Image.cpp:Image::crop"]}
{"id": "C158", "title": "Padding keeps the picture whole and in the middle", "statement": "Padding gives an image of the target size holding the resized picture in the middle (margins differ by at most one pixel), every other pixel in the given colour; the picture touches two sides, fits, and keeps its proportions to half a pixel unless a side would vanish; nothing outside the new buffer is written.", "quantifier": "all images, targets and colours, all resizing functions that give the size asked for", "why_tests_cant": "Margins are odd or even, on the sides or above, and one pixel sides need extreme proportions.", "anchors": ["mllm/preprocessor/visual/Image.cpp:Image::pad"]}
{"id": "C159", "title": "The page's features stand in the prompt in reading order", "statement": "The prompt of an OCR request has exactly as many image places as the page has feature rows; the rows are the lines of the tiles joined across tiles, each closed by a newline, then the small view of the page and the separator; they stand at the image's places in that order and the text keeps its embeddings.", "quantifier": "all page and tile sizes, grids, texts before and after the image, features and pixels", "why_tests_cant": "Numbers and places depend on grid and prompt together; misplaced features still give plausible text.", "anchors": ["mllm/models/deepseek_ocr/modeling_deepseek_ocr.hpp:DeepseekOCRModel::forward", "mllm/models/deepseek_ocr/modeling_deepseek_ocr.hpp:DeepseekOCRForCausalLM::infer", "mllm/backends/cpu/ops/MaskedScatterOp.cpp:CPUMaskedScatterOp::forward"]}
{"id": "C160", "title": "Splitting a string loses nothing and splits everywhere", "statement": "Split at a separator, the pieces joined by it are the string again; no piece contains the separator unless the allowed number of splits is used up, when the last may; there are never more pieces than allowed. Split at white space, the pieces are the words of the string, in order.", "quantifier": "all strings, separators of any length (also overlapping themselves), numbers of splits, white space tests", "why_tests_cant": "Separators that overlap themselves or stand at the ends, empty strings and exhausted split counts are corner cases of an unbounded set.", "anchors": ["mllm/utils/StringHelper.hpp:splitString"]}
{"id": "C161", "title": "A page is cut by the grid closest to its shape", "statement": "The grid chosen for a page has at least min_num and at most max_num tiles; no other such grid is closer to the page's proportions; among equally close ones, no larger one has less than twice the page's pixels, and the chosen one has, or is a smallest.", "quantifier": "all page sizes, tile sizes and limits, every order the sort may leave equal candidates in", "why_tests_cant": "Ties between grids occur for special proportions and depend on page area; the order of candidates with equally many tiles is the library's.", "anchors": ["mllm/models/deepseek_ocr/conversation_preprocess.hpp:findClosestAspectRatio", "mllm/models/deepseek_ocr/conversation_preprocess.hpp:dynamicPreprocess"]}
{"id": "C162", "title": "The network sees the picture's pixels, channel by channel", "statement": "Every value of the input tensor at channel, row and column is the picture's pixel there, scaled to the unit interval and normalized with that channel's mean and deviation, each exactly once. Resizing by the shorter side makes that side exactly the size asked for and keeps the proportions to half a pixel; an explicit size is height and width as asked for.", "quantifier": "all pictures, sizes, means and deviations, all resizing functions that give the size asked for", "why_tests_cant": "Square test pictures hide exchanged height and width; normalizing works in place over every element.", "anchors": ["mllm/preprocessor/visual/ImageTransform.cpp:Resize::apply", "mllm/preprocessor/visual/ImageTransform.cpp:ToTensor::apply", "mllm/preprocessor/visual/ImageTransform.cpp:Normalize::apply", "mllm/preprocessor/visual/ImageTransform.cpp:BasicImageTransform::operator()"]}
