# Formal model of UbiquitousLearning/mllm in Rocq (Coq 8.16.1)

## 1. Method

Every area of the code is written as small Gallina functions or transition systems over
`Z`/`nat`/`list` (`rocq/theories/*Model.v`), each definition citing the file and lines in `/repo` it
models. Undefined behaviour (`RUB`: out-of-bounds access, null dereference, read of memory never
written, bad iterator range), a failed assertion or exception (`RAbort`: `MLLM_RT_ASSERT`,
`MLLM_ERROR_EXIT`, `throw`) and non-termination (`RDiverge`, or "for every fuel") are *distinct
outcomes*, never normal-looking values.

Each area has four kinds of file:

* `XxxModel.v` – the code, function by function, with citations and simplifications;
* `XxxSpec.v` – a small vocabulary for the statements (what is a prefix, a partition, an element of a
  tensor, a history), independent of the algorithms in the model;
* `XxxProofs.v` and others – lemmas and invariants;
* `PropertiesXxx.v` – the theorems `Cnn_…`, `Print Assumptions` for each, and `Example`s showing that a
  concrete, non-trivial case meets the hypotheses.

Suffixes: `_refuted` = the unchanged code violates (this part of) the property, the theorem gives the
witness or the class of inputs on which it fails; `_partial` = only part of the property, what is
missing is said in the comment and in `MANIFEST.json`. A property of which some clause is refuted is
listed as "partial" in `MANIFEST.json`: the proved theorems then cover the class of inputs on which
the clause holds.

## 2. Trusted base

* Coq 8.16.1's kernel, including `vm_compute` (used in examples and finite sweeps).
* Axioms. Every theorem `C01_…` – `C56_…` (except `C54_arm_…`) and `C69_…` – `C104_…`, `C106_…` – `C113_…` and `C115_…` (except `C115_gate`, `C115_arm`) and `C116_loops`, `C119_numbering` print "Closed under the global context". The theorems about
  real numbers (`PropertiesAttn.v`, `PropertiesNum.v`, `PropertiesRope.v`, `PropertiesQuant.v`, C57–C68, `PropertiesVlSize.v`, C105, `C114_frames`, `C114_long_refuted`, `C115_gate`, `C115_arm`, the other theorems of C116, `PropertiesRed.v` (C117, C118, `C54_arm_…`), `PropertiesFsq.v` (C119–C121, except `C119_numbering`), `PropertiesMrope.v` (C122, C123), `PropertiesInterp.v` (C124–C128, except those printed closed), `PropertiesFft.v` (C129–C133), `PropertiesFill.v` (C144–C146), `PropertiesStream.v` (C149–C151), `C154_…` of `PropertiesCodes.v`, `PropertiesWarp.v` (C155)) use the standard library's `Reals` and rest on its axioms
  and on no others: `ClassicalDedekindReals.sig_forall_dec`, `ClassicalDedekindReals.sig_not_dec`,
  `FunctionalExtensionality.functional_extensionality_dep`, and (most of them, as printed at the end of each file)
  `Classical_Prop.classic`. Flocq is used for rounding to binary32 and binary16 (C66–C68) and binary64 (C105) and in C114–C121; it adds no axiom. No axiom of our own. (`vcheck` also lists seven
  `Coq.ssr.ssrunder` constants: opaque module parameters of the standard library's `ssreflect`, which
  gets loaded by the standard library's `Lia`/`ZifyBool`; no theorem depends on them.)
* No plugin, no functor, no module type, no kernel flag.
* The reading of the C++ by hand. The code is never run here. What is left out of the model is listed
  per area in section 4; those parts are trusted or out of scope.

## 3. Properties: what is modelled and how it is proved

| id | files | proof |
|----|-------|-------|
| C01 C02 C03 C04 | `Buddy*` | segments with per-order free lists, live blocks and object cache; invariant "each segment is partitioned into aligned blocks, buddies never both free" by induction over all histories of alloc/free; refutation for odd first segments and requests above 512 MB |
| C05 C06 | `Radix*` | compressed tree, insert/search/split as in the code; for histories that *part cleanly* (the token at which two sequences part does not reappear later in the stored one) the tree is shown to represent the set of stored sequences; refuted in general because the code compares a bag-like prefix |
| C07–C10, C33 | `Zen*` | bit fields on `Z`; blobs, pages, bitmaps, TLB; invariant over histories of malloc/free; witnesses |
| C11–C13, C34–C36 | `Param*`, `DTypeModel` | byte-level writer and both readers, round trip by induction on the parameter list; the store as association list |
| C14–C18, C37, C38 | `Tensor*` | shape/stride/offset lists, element-level memory, kernels as loops; induction on the rank with mixed-radix index arithmetic |
| C19, C20, C39 | `KV*` | cache memory as flat arrays, memcpy explicit; refinement to the list of appended tokens, over all histories |
| C21–C24, C40, C41 | `TokModel`, `TrieProofs`, `BpeProofs`, `Utf8Proofs`, `PretokProofs` | special-token trie (states, offsets), BPE loop, UTF-8 conversion, byte alphabet, Qwen pre-tokenizer |
| C25, C26, C42, C43 | `Sym*` | lexer, parser with fuel ("for all fuel ≥ n"), printer, evaluation; structural induction |
| C27, C44, C45 | `Pool*` | the pool as transition system of workers and callers (all interleavings); index partition of each tile; invariants over reachable states |
| C28, C29, C46 | `Service*` | request and response pools as monitors with any number of threads; invariants over traces, counting arguments for wake-ups |
| C30, C31 | `Gen*` | generation loops over an arbitrary forward function and sampler; samplers over an arbitrary weak order |
| C47–C54 | `Ops*` | CPU operators on the tensor model, kernels as loops over vector lanes and remainders; each result described element by element |
| C55, C56 | `Mat*` | matrix products: gemv, register tiles, recursive packing, vec_dot fallback, threads; buffers with exactly the written cells, partial sums as loop invariants |
| C57–C60 | `Attn*` | attention over `R`: online softmax with running maximum, rescaling, four primitives per architecture; invariant "accumulator / logsum = weighted average of the keys seen", reduced to the closed form with `exp`; C58 follows from C57 |
| C61–C64 | `Exp*`, `Num*` | softmax, RMS norm, layer norm, activations over `R`: the fast exponential with its clamp, range reduction and polynomial (error bound from a Taylor theorem proved by induction), row kernels with registers and remainders, operators with rows or blocks in any order; error bounds for quotients of approximations; overlapping writes |
| C65 | `Rope*` | rotary embedding: two passes over the rows, fresh or in place, on strided views; tables of sines and cosines; addition theorems give shift invariance |
| C66 C67 C68 | `Quant*` | quantizers with every float operation rounded (Flocq's FLT format, ties to even), error bounds by interval reasoning per element; integer products by lists of lanes with explicit saturation; decoding shown exact (8-bit times 11-bit), so row products are inner products of decoded numbers; the matrix product reuses the tiling theorem of C56 |
| C69 C70 C71 C72 | `Jit*` | tracer, passes and interpreter as functions; the traced graphs are a tree (relation `layout`, proved for every call tree), each pass is computed on that shape, the interpreter is run over located code by induction on the tree (jump, body, return), environments by storage are related to environments by tensor; the solver's counters are proved to be the remaining reads |
| C73 C74 C75 | `Mem*` (on top of `Buddy*`) | memory as a function from addresses to bytes (a pointer is eight bytes naming it), malloc and free as an environment with the usual contract, the allocator's hidden header read and written in that memory; one invariant (blocks held = segments + large tensors, headers intact, pool invariant of C01, tensors = live blocks) kept by every operation |
| C76 C77 C78 C79 | `Conv*` (on top of `Ops*`, `Mat*`) | the loops over tensors with storage; a parallel loop is a sequence of its iterations in an arbitrary order (any permutation), proved schedule-independent because iterations write different cells; im2col is shown to fill a matrix with the padded input, then C55's product theorem applies |
| C80 C81 C82 C83 C84 | `Nn*` | what constructors do as a declaration tree, interpreted by a model of reg / add / __reg_as_pointer building the node tree (names, depths, operators); load, params and to as recursive functions over it with abstract tensors; hash-table iteration is an arbitrary permutation; nested induction over declarations and nodes |
| C85 C86 C87 C88 C89 | `Wp*` | utfcpp's checked next/append over byte lists; WordPiece's passes as list functions with fuel for the loops, hash tables as association lists in arbitrary order; decode-in-loop replaced by decode-first (an exception discards the result); self-synchronisation of UTF-8 transports byte searches to characters; C21 and C22 reused for MiniCPM4 |
| C90 C91 C92 C93 | `Sess*` | the Qwen3 session's request loop over the radix tree (C05, C06), the lane allocator and its translation buffer (C08, C33) and byte memory, with the network as a parameter; reference: generation without a cache by recursion over layers; invariant over the history of requests: every cached column's lanes are mapped, disjoint, and hold the reference bytes |
| C94 C95 C96 C97 C98 | `Aot*` | the QNN ahead-of-time runner: buffers as lists with undefined accesses, the manager's two layouts, masks, chunked prefill and decode loops, the compiled graph as a causal network with attention over the columns its mask shows; reference: greedy generation over the whole sequence (the `hidden` of C90); invariant: the cache holds the reference K/V of the tokens so far in the current layout, the mask shows exactly them |
| C99 C100 C101 C102 C103 C104 C105 | `Vl*` | the vision pipeline of Qwen2-VL / Qwen2.5-VL: tensors as row-major lists whose loops of writes are collected as lists of (place, value); a loop whose writes agree with a target and reach every place gives the target whatever was there before; the orders are proved by division into blocks, the window index by a partition of the cells |
| C106 C107 C108 | `Asc*` | the Ascend memory pool as lists of used and free blocks with machine-width arithmetic; an invariant (blocks pairwise apart, inside the pool, sizes cover requests) kept by every call, for every iteration order of the hash map; `holds` is an inductive history of what the caller was given |
| C109 | `Arg*` | Argparse as functions on lists of words; a line is a list of items (flag with value, switch, word), the theorem relates the parser to the items for every declaration by induction over the line |
| C110 | `CpmSlice` | MiniCPM-o slicing with the float results left open (a record of functions); every size is a multiple by construction, the crop loops as writes, the grid by an argmin invariant of the fold |
| C111 | `CpmPix` | normalisation and patch reshaping as loops of writes on lists; composition gives the entry at every index |
| C112 | `CpmText` | the prompt as symbols, tokens as a list of sections; positions of the marks by induction over the sections; merge as writes to disjoint places |
| C113 | `CpmVis`, `CpmFloat` | buckets for arbitrary comparisons; masks; an invariant (table = table of its size) over histories of resampler calls |
| C114 | `CpmAudio*` | frames with Flocq's binary32 rounding; slots, bounds and merge as in C112 |
| C32 | `Evict*` | eviction on node paths; histories of promotions and evictions |
| C115 | `Moe*` | counting loop, argsort as any sorting permutation, one run of the sorted tokens per expert, indexed write; loop invariant over the experts: what is done is the prefix with smaller ids |
| C116 | `Div*` | ARM element-wise loops with unrolling, tail, chunks in any order; the float quotient with Flocq: relative error 2^-24 of a/b is below 1/b |
| C117, C118 | `Red*` | ARM reduction kernel generic in a commutative semigroup, invariant: the accumulator folds a prefix; maxima by total order, integer sums in Z/2^bits, quotient from C116 |
| C119 | FSQ levels, basis, indicesToCodes, codesToIndices, implicit codebook (FsqModel) with every float operation rounded to binary32 | mixed-radix numbering by induction on the levels; the rounded trip (d-h)/h*h+h for every level up to 25 by a sweep over Flocq's executable operations, tied to the rounding on reals by their correctness theorems (FsqRound); refuted at 26 levels |
| C120 | bound, round_ste, quantize (FsqModel) | clipping bounds by monotone rounding against representable bounds; rounding commutes with min/max (FsqQuant); membership in the codebook refuted |
| C121 | getCodebooks, getCodesFromIndices, getOutputFromIndices (FsqModel) | loop effects on flat buffers, rows written twice, codebook lookup by C119 (FsqResidual); refuted for index 0, several batches, fewer quantisers |
| C122 | MultimodalRoPEOp::forward, reshape (MropeModel) | rows of C65 with a batch axis of stride 0 put before the table; composed with C103's tables; angle-difference formula; refuted for odd sizes, x86, no sections |
| C123 | VisionRoPEOp::forward, makeVisualRotarySinCos (MropeModel) | pointer arithmetic equals row addresses of a dense tensor; composed with C99's angles; refuted for odd sizes, x86, wide tables, views |
| C124 | InterpolateOp reshape, forward, nearest kernel (InterpModel) | loops fill consecutive segments (`seg_loop`), rounding plus clamping is a closest element; refuted for a single output without aligned corners |
| C125 | linear, bilinear, trilinear kernels | clamped neighbours = values continued at the edges; result = nested `linear_at`; its bounds, nodes and ramps; position of same size/corners |
| C126 | bicubic kernel | Horner form = Hermite form; nodes, constants, ramps; refuted: stays within the inputs |
| C127 | gaussian_blur_nchw and the antialias switch | two passes as weighted averages with positive weights; refuted: an axis that keeps its size is left alone |
| C128 | forward's unsupported cases, reshape's size list | too many sizes abort; refuted by unwritten outputs, an overrun and a misread view |
| C129 | fftRadix2(Complex), fftBluestein(Complex), bitReverse with its table (FftModel) | complex ring, roots of unity; stage invariant over partial transforms indexed by reversed prefixes; circular convolution theorem for the chirps |
| C130 | both directions | orthogonality of the roots of unity; symmetry of real spectra |
| C131 | STFTOp::reshape, padSignal, CPUSTFTOp::forward | padded buffer = `extended`; each frame by C129; refuted for batches, short signals, default hop below 4 points |
| C132 | ISTFTOp::reshape, CPUISTFTOp::forward | invariants of overlap-add and envelope; refuted for odd/short windows in 'same' mode |
| C133 | composition | C131 + C132 + C130; refuted for center = true |
| C134 | u1–u7.hpp, ux.hpp, pack_buffer/unpack_buffer (BitsModel) | bit-by-bit equality of bytes (testbit), one lemma per width and size, dispatch on width |
| C135 | the unsigned and table variants | same lemmas; lane-wise maps |
| C136 | ux_packing.hpp | loop invariants on the set of written indices |
| C137 | pack_weights_impl (no table), unpack_weights | sequential-writer and -reader calculus over the running pointer |
| C138 | the same, compute_sum | part of the writer invariant |
| C139 | arm/transpose.cpp, ARM branch of TransposeOp.cpp (TrArmModel) | blocks by lanes, loop invariant `good` on written positions; wrap of `D - n` in size_t modelled |
| C140 | arm/permute.cpp, ARM branch of PermuteOp.cpp | row copies abstracted by a contract, generic path shared with C18 |
| C141 | mllm/utils/IntrusivePtr.hpp (IptrModel) | transition system over any number of handles and threads; invariant: counter = complete handles + temporaries in flight, and each live object is either referenced or has exactly one thread creating or deleting it |
| C142 | same | the invariant read at rest and in flight; rank on the threads' positions for termination |
| C143 | same | composition of one thread's transitions from a state at rest |
| C144 | common/fill-inl.hpp, x86 FillOp.cpp, Tensor::zeros/ones (FillModel) | invariant of the vector loop for any register width; tail store |
| C145 | fill_arange_impl, Tensor::arange | over a rounding operator: identity for the exact statements, binary32 for the refutation |
| C146 | fill_random_impl, Tensor::random | loop invariant on the generator's state; wrap of uint64 shown harmless modulo 2^31; monotone rounding for [0, 1] |
| C147, C148 | minicpm_o2_6/llm_chunk_generation.hpp (ChunkModel): generate_next_chunk, check_incomplete_tokens, Iterator | invariant: text so far + tokens held back + tokens to come = answer; induction over the chunks |
| C149 | StreamingGenerator::linear_overlap_add (StreamModel) | closed form of runs of writes, row by row |
| C150, C151 | StreamingGenerator::generate_next and Iterator (StreamModel) | invariants over the calls: audio out + held-back waveform = whole audio; text out = chunks read |
| C152 | text windows, prepare_tts_text, build_streaming_mask of StreamingGenerator, makeStreamingChunkMask (WindowModel) | invariant: the windows so far hold the text's tokens at their positions; a token keeps its position when the text grows |
| C153 | ConditionalChatTTS::generate and its use in generate_next (CodesModel) | loop = frames up to the ending one; induction over the calls with the pieces' repetitions |
| C154 | multinomialSample (CodesModel) | partial sums and the first one not below r |
| C155 | applyTopKWarper, applyTopPWarper of ConditionalChatTTS (WarpModel) | rank of the threshold in any list that meets the contract of the sort; the running sum and the first place above top_p |
| C156 | Image::crop, CenterCrop::apply (CropModel) | loops over pixels as steps that each write one pixel; the writing positions are injective |
| C157 | tiles of dynamicPreprocess (CropModel) | crop theorem at each tile; division with remainder gives the one tile and place |
| C158 | Image::pad (CropModel) | rounding lemmas for the size; the blit over the canvas by the same steps |
| C159 | prompt, features and scatter of DeepSeek-OCR (OcrModel) | lengths and places of concatenated rows; the places modulo the number of rows are a rotation |
| C160 | splitString (SplitModel) | induction over the string with first occurrences; words as an inductive relation |
| C161 | candidates and findClosestAspectRatio of dynamicPreprocess (GridModel) | invariant of the loop over any prefix of the sorted candidates; membership by arithmetic |
| C162 | Resize, ToTensor, Normalize, BasicImageTransform (TransModel) | rounding lemmas of C158; loops that write every place once, in place or from another buffer |

All properties are expressible in the model; none is marked "not applicable".

## 4. What is modelled, what is not

**Buddy pool** (`engine/BuddyMemPool.*`): `_alloc`, `_split`, `_free`, `_merge`, `_alloc_segment`, object cache.
Exact integers; `_log2_ceil` exact (the code uses a double, equal below 2^48); `offset` left out; one
operation at a time (mutex); the backend allocator returns an arbitrary fresh region.

**ZenFS / TLB** (`engine/prefix_cache/{TLB,ZenFS,Allocator}.cpp`): address fields, blob/page/lane bitmaps,
malloc, free, access, hint prefetch ranges, recovery of the metadata. mmap and the JSON format are not
modelled; hash-map iteration order is an argument.

**Radix tree and eviction** (`engine/prefix_cache/{RadixTree,Cache}.cpp`, `nn/lmcache/PrefixCache.cpp`): insert,
search, split, evict of sliding-window layers. Views are the lists they denote; the order of children
stands for hash order and is shown not to matter.

**Model files** (`core/ParameterFile.cpp`, `core/schema/*`, `core/DataTypes.*`): bytes of V1 and V2 files, both readers
(mmap and stream), the parameter store. File-system errors are not modelled.

**Tensors** (`core/Tensor*.cpp`, `core/aops/*`, `backends/cpu/ops`, `kernels/common/permute`, `x86/transpose`): element-level
memory, exact integers, x86 SSE paths, output buffers fresh. Dispatch, devices other than the CPU and
floating-point kernels are not modelled.

**KV caches** (`nn/lmcache/{StaticCache,DynamicCache}.*`): CPU layouts, copies per row. A tensor stored by
reference is a value.

**Tokenizers** (`preprocessor/tokenizers/{Unicode,AutoTokenizer,BPE}.cpp`, `models/qwen3/tokenization_qwen3.hpp`): character
classes (letter, digit, white space) are arbitrary predicates; hash maps are association lists with an
open iteration order; JSON loading not modelled.

**Symbolic expressions** (`compile/symbolic_expr/*`): ASCII; float arithmetic, `atof` and float printing arbitrary;
integer literals exact.

**Thread pool** (`engine/HpcThreadPool.*`): sequentially consistent interleavings; one caller per slot (a
second caller is a separate transition used in a refutation); "no deadlock" is possibility of
completion from every reachable state, not fairness. Destruction is not modelled. Remark outside the
model: the destructor joins its threads and hangs if a worker is still active and
`__threadPoolDestroy` was not called first.

**Service** (`engine/service/*`): one transition per critical section or notification, spurious wake-ups
included; payloads reduced to the members looked at.

**Generation** (`models/ARGeneration.*`): forward is an arbitrary function, random draws are arguments;
scaling and softmax arbitrary functions; timing left out.

**CPU operators** (`core/aops/{Elewise,Index,Gather,Embedding,Pad,CausalMask,MaskedScatter,Argsort,TopK,Reduce}*`, `backends/cpu/ops`,
`kernels/common/{elewise,reduce}-inl.hpp`): x86 build, vector width arbitrary, arithmetic on elements an arbitrary
function (sums: any commutative monoid, so no rounding); `std::sort` and `std::priority_queue` by their
contracts; parallel loops one iteration after the other. In-place variants, quantized embeddings and ARM
kernels are not modelled.

**Matrix products** (`core/aops/{MatMul,Linear}Op`, `backends/cpu/ops/{MatMul,Linear}Op`, `kernels/{x86,arm}/mllm_blas/mllm_blas_sgemm`,
`kernels/common/ggml/matmul`, `kernels/common/llamafile/llamafile_sgemm`): fp32 on AVX2, AVX-512 and NEON;
sums in any commutative monoid and a commutative product, so rounding and summation order are not modelled.
Quantized types (but see C66–C68), BLAS and transposed left operands are not modelled.

**Attention** (`kernels/common/{fa2_1,radix_attn,radix_attn_relax,radix_swa_sink,fa2_1_swa_sink}`, the five operators): the
loop of `fwd_bshd` once with its differing parts as parameters, primitives for ARM (blocks of 16/4/1), Highway
(any number of lanes) and the empty primary templates. Numbers are real: no rounding, no overflow, `exp2` exact. A
result that is not a number is a cell without value. Parallel heads run one after the other in an
arbitrary order. fp32 only.

**Normalisations and activations** (`ops/{Softmax,RMSNorm,LayerNorm,SiLU,Sigmoid,ReLU,QuickGELU}Op.cpp` and their kernels for ARM and
x86, `math.hpp` of both): real numbers, so no rounding, overflow or NaN; `log2(e)` exact and the other constants as
in the source; the reciprocal estimate of ARM is any function with 8 correct bits; fp32 only; rows and blocks in an arbitrary
order. GELU (tanh and erf versions), fp16 kernels and the `stride > 1` variants are not modelled.

**Rotary embedding** (`ops/RoPEOp.cpp`, `makeRoPEInvFreq`, `makeRotaryPosEmbedding` of `modeling_qwen3_service.hpp`): real numbers with
the sine and cosine of the standard library; the fp32 branches of both architectures; fp16 and the multimodal variants are not modelled.

**Quantization.** Modelled: the Q8_0 quantizer (portable, NEON, AVX2 with its packing and permutation), Q4_0, Q8_K, int8 with
a scale; the dequantizers; the row loops; integer products of AVX2, VNNI, VNNI-INT8, ARM dot product and plain NEON; the
kernels for one pair of rows and the tiled product (`llamafile_sgemm`, both packings); `ggml::mat_mul` with a Q8_0/Q4_0 weight and
the linear layer above it; the Q4_0 embedding. Not modelled: Q2_K–Q6_K, IQ formats, the interleaved `gemv/gemm_q4_0_*`
kernels, GPTQ-like repacking, float sums over blocks (real), fused multiply-add contraction, NaN and infinite inputs.

**Tracing and compiled programs.** Modelled: what `trace` records (operators, comments, nested module calls, names from
`getUniqueModuleName`), the passes of both pipelines that change the program (symbols, debug info, memory solver, constants,
linalg/tensor/cf/graph lowering, symbol table, numbering), loading and linking, and the interpreter's loop. Kernels are arbitrary
functions on handles and a heap. Not modelled: the IR's reference counts and pattern-matching framework, JSON, device dispatch
inside the interpreter, `mllm-compiler` text output, the QNN and AOT passes.

**Tensor memory** (`engine/MemoryManager.*`, `backends/cpu/CPUAllocator.cpp`, `core/TensorStorage.cpp`): create, alloc, free, clearAll,
`align_alloc/align_free` with their header, growth of the pool. malloc answers any address that overlaps nothing in use (another answer is
the environment's fault: `BackendOverlap`), or null. Not modelled: the lock (the manager is sequential here; the symbol table and
`_expandBuddySegment` are outside it in the code), devices other than the CPU, overflow of addresses and sizes.

**Convolutions and pooling (C76–C79).** Conv1D, Conv2D (im2col and the mllm matrix product, ARM), Conv3D (ARM), AvgPool1d; fp32,
integer extents exact (no `int` overflow, no rounding of the float quotient in `ceil`), `x += a * b` as an addition of a product
(fused or not). No algebraic laws for 1-D, 3-D and pooling; a commutative monoid for 2-D (the product kernels reorder sums). Weights and
bias are assumed to have the shapes the options declare: the code does not check them. Not modelled: BLAS, QNN layouts, quantised Conv2D.

**Modules and layers (C80–C84).** Registration (reg, ModuleList, Sequential), load, params, to, buffers; load and getParams of all
layer kinds with parameters on the CPU backend. Tensors, `view` and weight packing are abstract; nodes form a tree (reg always makes a
new object); iterating a hash table is an arbitrary permutation; the load functions of other backends are abstract, so of `to` an
accelerator only the refutation is proved. Buffers are modelled but nothing is proved of them. QNN and Ascend variants of Module::to and tracing are not modelled.

**Validated UTF-8, WordPiece, ChatTTS, MiniCPM4 (C85–C89).** Modelled: utf8::next, append, utf8to32 and utf32to8; all of
WordPiece's tokenization and loading from a vocabulary file; ChatTTS encode, decode, detokenize and the input builders; BPEUTF8's
_bpe and look-ups, TrieUTF8::split (as Trie::split over code points), MiniCPM4's normalize, tokenize, encode, decode. Not modelled:
JSON loading (the tables are parameters), strip_accents (the code returns its argument), the tensor that convertText fills,
MiniCPM4's message template.

**Chat sessions (`Sess*`).** Modelled: Qwen3Session::streamGenerate with findThinkStartToken, Qwen3ForCausalLM::forward,
the decoder loop and the cache part of Qwen3Attention::forward (lane allocation, physical addresses, Scatter2Shards for
[1,S,H,D] along dim 1, append to the address lists, the causal window of the radix attention kernel), the generation loop of
ARGeneration::streamGenerate, Cache::alloc/find/promote.  Parameters: embedding, K/V projections, attention and MLP, lm_head
and sampler (any functions).  Not modelled: chat template and tokenizer, JSON, timing, several sessions at once, the
probing variant of the service, blobs on disk, _initSlidingWindowAttention.

**QNN ahead-of-time runner (`Aot*`).** Modelled: KVCacheManager (all of it except position_offset of the sliding-window masks),
PromptProcessor::prefill and prepare_io, TokenGenerator::generate, Runner::load (buffer sizes) and Runner::generate,
sampleGreedy.  The compiled graph is a parameter: a causal network over K/V columns selected by the mask (any embedding,
projections, mixing and head); input and output layouts are the shapes the runner sets up.  Not modelled: the QNN runtime,
quantization of the cache entries (any integers), tokenizer and callback text, timing.

**Vision pipeline (`Vl*`).** Modelled: makeVisualRotaryPosEmbIds, -Full, makeVisualRotaryPosEmb, getPositionIds(Prefill),
makeMultimodalPositionEmbedding, the insertion of the visual embeddings (qwen2vl/modeling_qwen2vl.hpp), the expansion of the
image token in convertMessage (qwen2vl/tokenization_qwen2vl.hpp), makeWindowIndex, the mask and the two index reorderings of
the Qwen2.5-VL vision encoder. Sizes are naturals without int overflow; floats, sine and cosine are arbitrary functions;
std::sort is any result sorted by the comparison. Not modelled: the transformer blocks and the merger themselves (their
operations are C47 – C60, C76 – C84), tokenization of the text (C40, C41). The image preprocessor (C104, C105): Image::tensor
and operator() on the tensor model of C14 – C18 (repeat, view, permute, broadcast arithmetic over any element type), smartResize
on integers with int overflow as undefined behaviour and doubles as reals rounded to 53 bits (Flocq's FLT: no upper bound on exponents,
which is harmless for the sizes quantified over). The decoding and resampling of the image by stb is not modelled.

**Ascend memory pool (`Asc*`).** Modelled: the constructor, allocateBlock, freeBlock, getBlockPtr (AscendMemoryPool.cpp) and
alloc, free of AscendAllocator.cpp, with uint32/uint64/int64 wrap-around. Calls are atomic (block_mutex_ is held). Not modelled:
the statistics, the driver calls (aclrtMalloc gives any address or fails), destruction.

**Command line (`Arg*`).** Modelled: splitFlags, add, parse, get of Argparse.hpp for bool, string and int. Not modelled: help
texts, other value types.

MiniCPM-o input (`Cpm*`): image_preprocessor_minicpmo.hpp, the audio placeholder and bounds, convertMessage's image and audio
parts for one image and one recording, convertToTensors' batch, both merges, position ids and masks of the vision encoder, the
resampler's position table. Simplified: float results of the size computations are arbitrary; PNG writing and reading back gives
the same bytes; special tokens are symbols of the text (the trie of C40 finds them); one batch row. Not modelled: the mel
spectrogram, the Whisper encoder, attention itself (C57-C60), TTS parts, duplex streaming.

**Mixture of experts and integer division** (C115, C116). Modelled: `MoEGate::forward` (after softmax), `moeInfer` of Qwen3-MoE
and Deepseek-OCR with rows as elements, the shared experts; `__ew_loop`, `ParallelElementwiseLoop` and their array-scalar
variants, `__VectorDiv`/`__ScalarDiv` for int8/16/32. Not modelled: Highway's integer division on x86 (trusted to be exact), chunks running at
the same time (they write disjoint ranges), counts above 2^24 kept in floats.

**Reductions** (C117, C118, C54 on ARM). Modelled: `arm::Reduce::run` with its unrolled vector loop, vector tail, horizontal reduction and
scalar remainder, the 20 kernels of `reduce.cpp` over int8/int16/int32 (with wrap-around and, for int32, undefined overflow) and over
reals, and the forward functions of the four operators, including that x86 builds contain no kernel but the fp32 sum. Not modelled: NaN,
rounding of floating-point sums, `reduce_mul_*` (used by no operator; the horizontal products of int8, int16 and fp16 vectors in
`primitives.hpp` add or drop factors).

**Finite scalar quantisation** (FsqModel, FsqSpec): models/minicpm_o2_6/modeling_vector_quantize.hpp
21-55 and 142-322 (round_ste, levels and basis tensors, bound, quantize, scaleAndShift and its inverse,
index/code conversion, implicit codebook) and 546-667 (residual decoding). Floats are reals rounded to binary32
after each operation (no contraction into fused multiply-add); int32 arithmetic with overflow undefined. The
scales (`std::pow`) are a parameter. Not modelled: the `forward` functions (marked NOT VERIFIED in the source),
the projection layers, GroupedResidualFSQ's split and concat.

**Rotary operators of the vision-language models (C122, C123).** `MropeModel.v`: the fp32 loops of both operators on
ARM (blocks of 4 and tails) and the missing x86 code. Not modelled: fp16, rounding, `OpTypes::kSiLU` passed by
VisionRoPEOp's constructor.

**Resampling (C124–C128).** `InterpModel.v`: all fp32 kernels of `InterpolateOp.cpp`, the Gaussian smoothing, the switch of
`forward` and `reshape`, over real numbers: positions, weights and sums are exact, so nothing is said about rounding (a position
computed in float can fall on the other side of a tie or an integer). Not modelled: overflow of the `int` index products, fp16,
the unused `keep_aspect_ratio` option. `InterpSpec.v` says where an output element lies (`position`), which element is
`closest`, what the linear and the cubic interpolant are, and what the smoothing averages.

**Fourier transforms (C129–C133).** `FftModel.v`: all of `STFTOp.cpp` (radix-2 and Bluestein transforms, bit-reversal table,
padding, framing, overlap-add, "same" trimming) and both `reshape`s, over real numbers with exact cos/sin: no rounding, so
nothing is said about the growth of errors in the iterated twiddle factor. Complex tensors are tensors of pairs; the variant that
stores real and imaginary parts in a last dimension of 2, and the `normalized` option, are not modelled. `FftSpec.v` gives the
DFT, the extended signal, a frame's transform and the overlap-add in closed form.

**Low-bit packing (C134–C138).** `BitsModel.v`: every vector packing/unpacking routine of `arm/quantize/bitspack` lane by lane
(NEON registers are maps from lanes to bytes, memory is a byte map), the interleaving, `pack_weights`/`unpack_weights` and the
size functions. `assert`s are compiled out in release builds and appear as hypotheses; the variant of `pack_weights` with a
look-up table, and the activation side, are not modelled. fp32 scales and bias are opaque 32-bit patterns.

**ARM transpose and permute (C139–C140).** `TrArmModel.v`: the NEON transposes of fp32 (4x4), fp16 (4x8) and int64 (2x2) blocks lane
by lane, the leftover rows and columns, the BSHD/BHSD exchange with its size_t loop bound, the three permute kernels and the two
operators' dispatch. Elements are opaque values; memory, tensors and `permute_generic` are those of `TensorModel.v`.

**Reference-counted handles (C141–C143).** `IptrModel.v`: every constructor, assignment, reset, swap and the destructor of
`IntrusivePtr` as sequences of the actions other threads can observe (pointer store, `fetch_add`, `fetch_sub`, `delete`), interleaved
arbitrarily between threads. Atomics are sequentially consistent, counters exact integers; operations on the same handle do not race
(the language's rule, stated as guards). Not modelled: object constructors and destructors that themselves use handles.

**Filling tensors (C144–C146).** `FillModel.v`: the Highway fill kernels lane by lane for any register width, the allocation in
`Tensor::arange` and the generator. Numbers are reals, every operation followed by a rounding parameter (identity or `to_f32`).
Not modelled: the ARM fill kernels, float16, the Mersenne twister that makes the next seed.

**Chunked generation and the speech stream (C147–C151).** `ChunkModel.v`, `StreamModel.v`: the chunk generator with its iterator,
the text and audio bookkeeping of `StreamingGenerator::generate_next`, its iterator and `linear_overlap_add`. The language model,
the sampler, the speech model and the vocoder are arbitrary functions of the position or call number; samples are reals. Not
modelled: text windows, masks and caches given to the speech model, the samplers, saved hidden states.

**Text windows and audio codes (C152–C154).** `WindowModel.v`, `CodesModel.v`: which text tokens are prefilled at which positions,
the mask, the sampling loop of the speech model with its frames and slices, multinomial sampling. The network and the logits are
arbitrary functions; re-encoding the decorated text is taken to give the tokens between the special ones. Not modelled: positions' rotary embedding.

**Filters of the speech model's logits (C155).** `WarpModel.v`: one codebook's row of logits (reals or minus infinity), exact
exponentials and sums, any outcome of std::partial_sort / std::sort that meets their contracts. A row of nothing but minus infinity
gives NaN probabilities in the code; the model has zeros there and, as the code, keeps every place for top_p >= 0.

**Cropping, tiling, padding (C156–C158).** `CropModel.v`: the pixel loops over byte addresses of the buffers. The resizing of stb is an
arbitrary function giving the size asked for; the scale of `Image::pad` is an exact quotient (in the code a product with a rounded
double, then std::round); integers unbounded. Not modelled: files, thumbnails.

**One page in DeepSeek-OCR (C159).** `OcrModel.v`: image tokens and mask of the prompt, the layout of the features (newlines, tiles to
lines), the masked scatter row by row (element by element in `OpsModel.v`). The encoders are left out: they give as many rows as the
sizes, multiples of 64, say. One image.

**Splitting strings (C160).** `SplitModel.v`: both loops of `splitString` over lists of characters; the test for white space is arbitrary.

**The grid of a page (C161).** `GridModel.v`: candidates and the choice, with exact rational quotients (doubles in the code), for any
result of the sort by number of tiles.

**From picture to tensor (C162).** `TransModel.v`: shorter-side sizes with an exact quotient, Image::tensor, the permutation by index, the
division and the in-place normalization over an arbitrary type of values.

## 5. Findings (theorems ending in `_refuted`)

* Buddy: a first segment that is not a power of two breaks disjointness; requests above 512 MB never end;
  the object cache does not serve sizes that are not powers of two.
* Radix: a query that differs from the stored sequence can be reported as stored, with wrong addresses.
* ZenFS: free clears a bit in the wrong page, so a live lane can be handed out twice; prefetch hints miss
  beyond page 0; recovery marks everything free; TLB loses held lanes in the same histories.
* Model files: long names are cut, views are saved as their storage; V1 relies on tensor names; truncated
  files are accepted; five element types have no size.
* Tensors: out-of-range slices accepted; reshape output never written; concat of other types; transpose
  of dimensions 0,1; repeat and permute of non-contiguous inputs; clone of views; squares-of-strides layouts
  taken for contiguous.
* KV caches: over-capacity updates write outside the storage; uneven head counts; dynamic cache ignores strides.
* Tokenizers: overlapping special tokens are not isolated; decoding token by token breaks characters;
  upper-case contractions and white-space runs differ from the documented pattern.
* Symbolic: negative constants and exponent floats do not survive; `%` and long sums parse to unusual trees;
  an unclosed parenthesis loops forever; a missing variable is undefined behaviour.
* Pool: uneven step writes outside the index vector; two callers of one slot; deactivation while a loop starts
  hangs the caller.
* Service: stop drops queued requests; one condition variable with notify_one loses wake-ups between ids;
  shutdown hides unread responses; requests without a usable "model" are never answered.
* Generation: `Tensor::delete_` dereferences the handle it just reset; `generate` uses logits after the sampler
  freed them; categorical sampling can return the vocabulary size; k above the vocabulary is unchecked; NaN first.
* Operators: `+ - * /` read outside their operands for column plus row or a repeated left operand, and return
  unwritten memory for two repeated dimensions, integer repeats and fp16 on x86; index positions out of range and
  gather indices out of range leave memory unwritten; token ids are not checked; `topk` with k = 0 or too large;
  fp16 and windowed causal masks with cached keys; masked scatter does not consume its source in order (DeepSeek-OCR
  relies on it); rank-1 sum without keepdim.
* Matrix products: `matmul(a, b, transpose_b)` with at least 4 rows, several batches and K not a multiple of the
  register width uses only the first matrix of b; K = 0 leaves the result unwritten; batches of different shape but equal
  count are accepted; strides ignored; a linear layer with fewer than 4 input channels returns unwritten memory (x86).
* Attention: radix attention on x86 returns unwritten memory (its primitives are empty templates); more queries than
  keys give NaN rows; query heads not a multiple of key heads read out of bounds; strides of keys and values ignored; the
  prefill window is one token wider than the decode window, so decoding and prefill disagree; with several queries and
  a full window a query sees a later token; "append" writes nothing; sinks are documented optional but required.
* Normalisations and activations: softmax along any axis but the last stops the program; on x86 the fast exponential
  subtracts ln 2 correction twice (C1 is already ln 2), so numbers in registers and in the remainder of the same row differ
  by up to 2.9 %; RMS norm on x86 uses aligned loads on rows that need not be aligned; weights are not length-checked; layer
  norm, ReLU and quick GELU write nothing on x86; layer norm accepts a normalised shape that is no suffix of the input's; the
  vector sigmoid on x86 is constant below -11.5; an in-place sigmoid reallocates (and loses) its input.
* Rotary embedding: tables with fewer batches or tokens than the activation are read past their end; a `partial_dim` larger
  than the row is accepted and runs beyond it; the two-dimensional tables that `RoPEOp::reshape` documents abort.
* Quantization: the portable int8 quantizer uses index `k` instead of `i` (out of bounds, nothing quantized); the portable
  Q8_0 quantizer divides by a subnormal scale and converts an infinity to `int8_t`; blocks with a number of 8.3 million or more get an
  infinite scale; `_mm256_sign_epi8` cannot negate the byte -128, which Q8_0 never produces but a file may contain; the ARM
  dot kernels read one block too many for odd numbers of blocks; the int8 matrix-multiply kernel stores two floats through a
  pointer to one; an embedding row of a negative token stays unwritten. By reading only: `vec_dot_q8_0_q8_0` (7 parameters) is
  called through a pointer to a 4-parameter function type; the table of half-precision numbers is filled lazily by whichever
  thread comes first, without synchronisation; the interleaved path of `mat_mul` offsets the output by `seq_start * N` of the thread's own chunk.

* Compiled programs: tensors are kept under the uuid of their storage, so a view replaces its source and all parts of a split read
  as the last one; two layers with one name share the options of the last; tensors that are neither inputs, results nor constants
  (captured buffers, parameters) are empty; a constant that is returned unread is empty. The memory solver drops results that
  are read by another operator, results that are views, and constants (the second run reads nothing). The third call of a module
  instance gets the name of its second call and compiling aborts. `front()` of the always empty `deinit` region is read in every
  compilation. The device of a kernel launch is never set.

* Tensor memory: dropping a tensor of 128 MB or more that was never allocated, or whose allocation malloc refused (the result is
  not checked: `generalAlloc` tests `ptr`, not `*ptr`), makes `align_free` read in front of the null pointer. A second `alloc` of a large
  tensor loses the first block; of a small one it exits. By reading only: the pool's growth and the symbol table are used without the
  manager's lock.

* Convolutions: the number of outputs is computed with a truncating division, so an input shorter than the kernel by less than the
  stride gives one spurious output (`C76_short_input_refuted`); Conv3D then reads outside the input (`C78_short_input_refuted`). Conv3D on
  x86 returns memory that was never written (`C78_x86_refuted`); Conv2D exits on x86 at load. Strides of the input are ignored
  (`C76_noncontiguous_refuted`). AvgPool1d with `ceil_mode` can have a window without elements, reported as 0 (`C79_empty_window_refuted`).

* Modules: a LayerNorm without affine parameters lists a nil `.weight` in params() (`C81_layernorm_refuted`); a Linear with a quantised
  implementation never loads its bias, though params() lists it (`C81_linear_bias_refuted`); siblings with dots in their names can clash,
  then params() exits (`C81_collision_refuted`); a standalone Sequential counts depths one too many and late registration gives depth 1
  (`C82_*_refuted`); to(accelerator) followed by to(cpu) leaves operators and weights on the accelerator (`C83_back_refuted`). By reading
  only: to(accelerator) before load exits in the generic operators (their weight is pulled from an empty file); a file of unsupported
  version only prints a message and leaves every weight nil.
- C86: WordPiece's max_input_chars_per_word limits bytes: words of multi-byte characters become [UNK] early.
- C87: if one special token begins another, std::unordered_map's iteration order decides which is found; an empty special
  token makes split_special_tokens loop forever; special tokens containing ideographs, tabs or control characters are destroyed by
  cleaning before they are looked for.
- C88: create_token_type_ids_from_sequences with an empty second sequence is one shorter than build_inputs_with_special_tokens.
- C89: MiniCPM4 adds a space mark to every plain segment, so text behind a special token comes back with an extra space;
  U+2581 comes back as a space; characters outside the vocabulary all become id 0.
- C90: a prompt that is completely cached (e.g. the same question again when the answer began with the thinking token) leaves an
  empty sequence, and the last row of an empty tensor is read (undefined behaviour).
- C90: with exactly one uncached token, `seq_len == 1` is taken for the decode phase and the position is incremented although it
  was already right; the reply is wrong and the wrong K/V are cached.
- C90, C91: the false match of the radix tree (C05) makes a session answer from another conversation's K/V.
- C90, C92: `max_length` 0 caches the prompt with addresses 0 without computing it; the client gets no finished message.
- C92: `eos_token_id` (from the file) ends the message, `end_of_text_token_id` (built in) ends generation; when they differ, texts
  follow the finished message or none comes.
- C93: lanes of thinking tokens are dropped from the address lists without being freed.

- C94: `Runner::generate` accepts prompts longer than context_len - ar_len: updateKey then writes into the next row (the mask
  also marks the columns of the chunk itself as past) and the answer is wrong without any error; an empty prompt answers from
  the logits of the previous call; an end token directly after the prompt is passed on but does not stop decoding.
- C95: with ar_len < context_len the buffers have context_len - 1 places, but TokenGenerator::generate decodes while
  cur_pos < context_len and stores every token: at cur_pos = context_len - 1 it writes behind the buffer, for every network
  (`C95_full_context_refuted`).
- C96: initAttentionMask with a window subtracts n_past twice (harmless only for n_past = 0); the window never hides new tokens.
- C98: fewer selected tokens than n_update: K of token 0 is stored for the missing ones while V keeps old contents;
  n_update = 0: V stores every selected token (the break comes after the copy), K none.
- C99: makeVisualRotaryPosEmb compares the number of patches with the first row of grid_thw only: two images always abort;
  a grid with an incomplete block leaves the positions behind the last block at (0, 0).
- C100: decoding continues from the temporal axis: with no text behind the image the next token repeats positions of image rows.
- C101: convertMessage inserts at it + 1 without checking it: a vocabulary or template without the pad token is undefined.
- C103: the doubled sections are numbered modulo 3: with two sections the two halves of a row use different axes.
- C105: smartResize multiplies the rounded sides as ints: 46368 x 46368 overflows; a maximum below 156800 pixels is not kept
  (28 x 5488 with at most 784 pixels gives 28 x 392), because a side is never made shorter than one block.

* `C106_odd_pool_refuted`, `C106_big_refuted`: with a pool size that is no multiple of 32 a block reaches behind the end of the
  pool, remain_size_ becomes negative, is compared as unsigned, and every later request is granted; a request of 4 GiB - 1 gets
  32 bytes.
* `C107_fragments_refuted`: freed neighbours are never joined. `C108_large_refuted`: a storage of 4 GiB or more gets memory for
  its size modulo 2^32.
* `C109_garbage_refuted`, `C109_unchecked_refuted`: "12abc" is read as 12, extra words are ignored silently, an unset int or bool
  without a default is read uninitialised.

* `C112_marks_before_refuted`: calc_bounds pairs the i-th begin mark with the i-th end mark of the whole prompt; a begin mark in
  the text before the image gives every picture the wrong place.
* `C113_float_buckets_refuted`: boundaries and coordinates are products with a rounded step: 5/25 compares less than 14/70, so
  the patch row 5 of 25 gets bucket 13 instead of 14 (18 such cases for at most 70 rows).
* `C114_long_refuted`: the prompt has slots for the whole recording, the encoder sees 30 s: the slots behind 750 keep the
  embedding of the unknown token.
* Not modelled: a prompt in which the image tag occurs twice reads original_sizes[1] of a vector of one
  (tokenization_minicpmo.hpp:368-371).

* `C116_large_refuted`: on ARM int32 tensors are divided in binary32: 67108863 / 8 gives 8388608 in the vector part and 8388607 in
  the last `size mod 4` positions. `C116_overflow_refuted`: -128 / -1 in int8 is 127 or -128, depending on the position.

* `C117_x86_refuted`, `C117_x86_lanes_refuted`: on x86 hosts `max`, `min` and `mean` (and `sum` of anything but fp32) return memory nobody
  has written: the loops over lanes are empty after preprocessing and no error is reported.
* `C118_int8_overflow_refuted`: the mean of int8 values 100 and 100 is -28. `C118_int32_rounding_refuted`: the mean of the single int32
  value 67108863 is 67108864.

* C119: with 26 levels in a dimension `codesToIndices(indicesToCodes(6))` is 5: the float is 5.9999995 and is cut,
  not rounded. Up to 25 levels every index survives.
* C120: `quantize` divides by level/2.0 but `scaleAndShift` multiplies by the integer level/2, and `bound` shifts even
  levels by +0.5 instead of -0.5: with 5 levels the highest value becomes 0.8 with index 3 (code 0.5); with 4 levels a
  large value gets index 4 of a codebook of 4.
* C121: -1 (a dropped quantiser) is replaced by 0 and then every 0 is masked, so index 0, a valid code (-1 in every
  dimension), decodes to zeros. More than one batch of more than one position reads the scales out of bounds.
  Indices with fewer quantisers than the model are regrouped across positions before they are padded.

* MultimodalRoPE and VisionRoPE leave the last channel of every row uninitialised if the head size is odd
  (`C122_odd_refuted`, `C123_odd_refuted`) and compute nothing at all on x86 (`C122_x86_refuted`, `C123_x86_refuted`).
* VisionRoPE does not check strides or table widths: views and tables with D columns are misread
  (`C123_view_refuted`, `C123_wide_tables_refuted`).

* Interpolation to a single element without aligned corners takes the first element, not the middle (`C124_single_refuted`);
  bicubic results overshoot (`C126_bounds_refuted`); antialiasing blurs both axes by the larger reduction
  (`C127_other_axis_refuted`); a mode that does not fit the rank returns uninitialised memory (`C128_ranks_refuted`); a size
  list naming channels leaves channels unwritten or writes outside the output (`C128_channels_refuted`); views are misread
  (`C128_views_refuted`).

* STFT of a batch transforms the first signal for every row (`C131_rows_refuted`, `C131_batch_refuted`); mirror padding of a
  signal of at most n/2 samples reads outside it (`C131_short_signal_refuted`); the default hop with n < 4 divides by zero
  (`C131_default_hop_refuted`); ISTFT in "same" mode leaves the last sample unwritten when window and hop differ by an odd number
  (`C132_same_odd_refuted`) and aborts when the window is shorter than the transform (`C132_same_window_refuted`); with
  `center` ISTFT returns the padded signal from its start, shifted by n/2 (`C133_center_refuted`, `C133_center_witness`).

* `packed_weights_size` is computed from k/8, so for k not a multiple of 8 it is smaller than what `pack_weights` writes
  (`C137_odd_row_length_refuted`); the decoder with a table drops entries past 15 (`C135_table_of_more_than_16_refuted`, 5 bits or
  more); `pack_values` with sr not dividing kr loses values (`C136_uneven_sections_refuted`).

* ARM `transpose_bshd_bhsd_*` loop `for (d = 0; d <= D - 4; …)` with `size_t D`: for rows shorter than one register the bound wraps
  and the copy runs out of the buffer (`C139_short_rows_refuted`; x86 is not affected).

* `IntrusivePtr(IntrusivePtr<U>&& other) : ptr(other.get()) { other.reset(); }` releases the source's reference without taking one:
  the new handle dangles at once when the source was the only owner, and the object is deleted too early otherwise. The converting
  move assignment uses the same constructor (`C141_converting_move_refuted`).

* `Tensor::arange` allocates `(int)((end - start) / step)` elements: a last element on a partial step is missing (0.75 in
  arange(0, 1, 0.75), `C145_last_value_missing_refuted`).
* `fill_arange_impl` drops the last element when it rounds up to `end`; the tensor has already been allocated, so that element is
  never written (`C145_unwritten_element_refuted`: arange(2^26, 2^26 + 8, 1)).
* `fill_random` can return numbers beyond `end` in binary32 (`C146_beyond_end_f32_refuted`: 4 between -2^25 and 3).

* `for (auto& o : chunk_gen)`, as documented, starts with an output nothing has been generated into and ends before the body has
  seen the last chunk (`C148_documented_loop_late`, `C148_documented_loop_refuted`).
* `for (auto& o : streamer)`, as documented and used by examples/minicpm_o/main.cpp and demo_minicpmo_streaming.cpp, never sees the
  finished output, which carries the held-back end of the audio, all of it for a one-waveform answer; `if (output.finished)` in
  the loop is dead code (`C150_loop_misses_the_end`, `C150_loop_refuted`).
* With `generate_audio = false` no output has any text (`C151_no_text_without_audio`, `C151_text_only_refuted`).
* After `<|tts_eos|>` has been seen the flag is overwritten by the next chunk, whose text is output (`C151_marker_refuted`).
* The end token's own text (`<|im_end|>`) is part of the last chunk's text (C147: the answer includes the end token).

* The first call of a stream prefills ten text places but the chunk generator, with its fixed chunk size 5 and first chunk 3, has
  made at most eight tokens by then: padding is prefilled at the places of tokens 9 and 10, which never reach the speech model when
  every answer token is one speech token (`C152_tokens_missed_refuted`).
* The speech model's cache has 1024 places and audio starts at 302, but the stream stops only beyond 1024 frames: with
  `force_no_stop` the cache is always overrun (`C153_no_stop`, `C153_cache_full_refuted`).
* `multinomialSample` returns the vocabulary size, no token, when the random number exceeds a rounded total below 1
  (`C154_out_of_range`, `C154_always_a_token_refuted`).

* DeepSeek-OCR places feature row `(p + k) mod K` at the image's place k, p the image's position in the prompt and K the number of
  rows, because the masked scatter broadcasts its source: the page is rotated by one row or more unless K divides p
  (`C159_placed_partial`, `C159_order_refuted`).
* Whether a page has tiles is read off the sum of the tiles' normalized pixels: half black, half white tiles sum to zero, count as
  absent, and the prompt has more image places than there are rows (`C159_present_refuted`).

* `splitString` without a separator but with a number of splits keeps the rest's leading white space and puts out an empty rest, unlike
  the Python function it stands for (`C160_maxsplit_refuted`).

## 6. Tests of the theorems

`seeded/LOG.jsonl`: one line per wrong program tried against the theorems (edit of a model definition in a
scratch copy, rebuild). Every logged edit made at least one `Cnn_` theorem fail; where one survived, the
theorem was tightened (field `tightened`).
