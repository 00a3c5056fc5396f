# Formal model of pi-quant in Coq 8.16.1

`properties.jsonl` lists the properties, `MANIFEST.json` maps each one to exact theorem names, `rocq/theories/` holds the model and the
proofs, `seeded/` the tests of the theorems against wrong programs.

## 1. Approach

The model is executable Gallina.  It follows the C++ (and the Python package) function by function; every definition cites the lines it models.

* **Outcomes.** Every operation returns `Ok v | Abort | UB` (`Base.res`): `Abort` = `piquant_assert` / `panic`, `UB` = undefined
  behaviour (out-of-bounds access, misaligned streaming store, float->int conversion out of range, signed overflow, division by
  zero, null call).
* **Memory.** Input and output are byte lists (allocations); spans are prefixes of them. The address of the output buffer is a parameter
  (it drives alignment peeling).  `Arena.v` puts several calls into one memory.
* **Floats.** binary32/binary64 are Flocq's `Bits.binary32/64` (computable, bit exact, round to nearest even); `std::round` =
  `Bnearbyint mode_NA`, `std::trunc` = `mode_ZR`, `cvttps2dq` = truncation with the "integer indefinite" value, NEON `vcvta` = ties away
  with saturation.  bf16 values are 16-bit patterns.
* **Kernels are action lists.** A kernel call expands to a list of `action`s.  An action reads a slice of the input and a slice of the
  output and rewrites that slice of the output: one scalar loop iteration, or one vector-block iteration.  The loops are modelled as
  loops (start index, condition on the index, stride), so bounds and alignment peeling are those of the code.
* **Vector code** is modelled by list versions of the intrinsics (`Simd.v`) composed as in the source.
* **Threads.** A call is the list of the action lists of its jobs; an execution is *any* interleaving of them (`Base.interleave`,
  `Base.returns`).
* **Statements** use the specification files `Spec.v`, `ApiSpec.v`, `PathSpec.v`, `Bf16Spec.v`, `ConfigSpec.v`, `AnyInputSpec.v` (real-valued rounding,
  clamp, bits of a byte, spans; nothing in them comes from the kernels) and the API-level functions of the model.  The only numbers they
  share with the model are the bit widths and strides of the dtypes, which `C39_dtype_table` pins.
* **Negative results.** Where the English property is false of the code, a theorem `..._refuted` proves the counterexample (for all sizes
  where it is a family) and the positive theorem states the exact conditions.
* **Non-vacuity.** `Witnesses.v` to `Witnesses16.v` instantiate the theorems on concrete data (70 elements so that vector
  blocks, tails and several threads take part; any kernel set, 1 to 1000 threads), prove every hypothesis and keep a concrete
  consequence.

## 2. Files

| files | content |
|-------|---------|
| Base, Floats, Simd, Dtypes | outcomes, memory, loops, interleavings; floats; intrinsics; dtype table |
| QuantKernels, DequantKernels | kernels of `quantize.inl`, `dequantize.inl`, `kernels_specialized.inl`, `kernels.inl` (requant) for generic, SSE4.2, AVX2, AVX-512F, AVX-512-BF16, NEON |
| Context | dispatch tables, partition, argument checks, `quantize`, `dequantize`, `quantize_dequantize_fused` |
| MinMax | range scans, `compute_quant_config*`, block reduction |
| Contract, ContractFacts | the dequantization kernels with fused ReduceOp::add stores |
| Capi, CpuDetect, Python, Typed, Arena, Rng, Mt19937 | C API; CPUID tests and kernel-set choice; Python package; typed templates and `bfp16_t` equality; concurrent calls in one memory; threshold draw; `std::mt19937_64` and its 32-bit seeding |
| Spec, ApiSpec, PathSpec, Bf16Spec, ConfigSpec, AnyInputSpec | specification vocabulary |
| ExecFacts, Schedule, LoopFacts, *Facts, QuantLanes, Footprint, NoAbort, ScalarUB, DequantUB, Api | lemmas |
| Props* | the property theorems `Cnn_...` |
| Witnesses* | instances |

## 3. Properties: what is modelled and how it is proved

| id | modelled | proof |
|----|----------|-------|
| C01 | `context::quantize` with all kernels, 6 kernel sets | tiling theorem for action lists + per-block lemma + Flocq real-number lemma for trunc(y +- 0.5) |
| C02 | packing in all kernels | same theorem; byte = bits of codes, pad = 0 |
| C03 | bounds checked by `run_action`, alignment by the streaming-store check | every run is `Ok` on exactly sized buffers; frame theorem; `PropsAlign.v`: address of every streaming store from the exit of the alignment loop, and no vector iteration fails on any data |
| C04 | interleavings of jobs | disjoint actions commute, whatever they compute (`Schedule.v`); C01/C29 for the thread count; for all data: the outcome is a function of the per-element results of C36 (`PropsAnyThreads.v`) |
| C05 | output slices of the jobs | disjointness from the tiling |
| C06 | `partition_row` over Z, int64 overflow = UB | Z arithmetic, induction on the thread index; `part_balanced` bounds the size of each range |
| C07, C08, C09 | `context::dequantize` with all kernels; `C07_complete` for every scale and int64 zero point | tiling + per-element value; over-read and overwritten tail proved for all lengths; a scalar overflow anywhere makes the run UB in every schedule |
| C10 | vector and scalar paths | Flocq proof of the exact set of disagreement; position and thread-count dependence proved |
| C11, C12 | API | monotonicity of rounding, clamp; stochastic and all-data forms in `PropsAnyThreads.v`, `PropsAnyInput.v` |
| C13 | API | exact arithmetic with zeros; `C13_zero_any_data` from C36_complete (`PropsAnyThreads.v`) |
| C14 | API | C01/C29 + bits of packed codes + C07; `C14_any_data` from C36_complete (`PropsAnyThreads.v`) |
| C15, C16 | API | error analysis with Flocq relative-error lemmas; stochastic C15 in `PropsAnyThreads.v` |
| C17, C18 | `bfp16_t(float)`, `cvt_ps_to_bf16` as integer functions | integer proof against Flocq `round` in FLT(-133, 8) |
| C19 | API on bf16 vs f32 | corollary of C01; for all data (`PropsFusedAny.v`) by comparing the per-element results of C36_complete |
| C20 | `find_min_max_*` of all sets | fold invariants; which elements SSE4.2 scans; `MinMaxAny.v`: the loops as folds over pairs (minimum, maximum) for data of any content, NaN and infinities included |
| C21-C24 | `compute_quant_config*` in binary64 | Flocq; order of blocks irrelevant; `PropsConfigAny.v`: all data, by cases on the infinities reaching the formulas |
| C25-C27 | argument checks of C++ and C API with `size_t` wrap | case analysis |
| C28 | `requant_generic` | per-element value, compared with C01 + C07/C08; for all data (`PropsFusedAny.v`, C28_complete): per-element outcome, one undefined step makes every schedule undefined |
| C29, C31 | `quant_step_scalar_stochastic` | Flocq; `C29_neighbour`, `C31_any_data` in `PropsAnyThreads.v`; `C31_errors_do_not_average` in `PropsVariance.v` |
| C30 | the same, `uniform_real_distribution` draw from a 64-bit output, which call draws | counting over a grid; cut-off by monotonicity, error by Flocq relative-error lemma; mean square in `PropsVariance.v` from the cut-off |
| C32 | CPUID checks | boolean; refuted witness |
| C33 | dispatch tables | finite |
| C34, C36 | zero-point truncation, NaN/inf/huge values, unusable scales; `C36_complete` for every float, scale and int64 zero point | lane lemmas; a scalar UB anywhere makes the run UB in every schedule |
| C35 | zero threads | corollary of the scheduling model |
| C37 | `bfp16_t` operators + - * / | Flocq double rounding; IEEE special cases by Flocq's Bmult/Bdiv correctness theorems (PropsBf16Ops.v) |
| C38 | Python helpers, `torch.py` | finite + arithmetic + C27; complete outcome of every torch call (raise or exact library call) in `PropsPython2.v` |
| C39 | dtype table, `dtype_limits` | computation |
| C40 | loop combinator, range-scan loops | loops of the model equal the C loop relation without fuel; `PropsScanLoops.v` does the same for find_min_max |
| C41 | typed templates | reduction to C25, C01, C07 |
| C42 | `bfp16_t::operator==` | cases on Flocq floats |
| C43 | concurrent calls in one memory | projection of a joint run to runs of the single calls |
| C44 | rounds of concurrent calls | C43 + uniqueness of each call's result |
| C45 | the generator behind the thresholds | invertibility of the recurrence and of the tempering; a nonzero seeded word propagates; pigeonhole on the seeds; agreement with the standard's definition of the engine (`PropsMtStd.v`) |
| C46 | the ReduceOp::add stores as fused multiply-adds, separately switchable in vector and scalar loops (`Contract.v`) | equality of the action lists where nothing is fused; per-element value by the loop lemmas; Flocq error bound |
| C47 | nothing new; three runs of the same entry points | the result of each call as a list of packed bytes (C01/C02) or element slices (C07, C08, C28); splitting of `packed_byte`, `code_at`, `reaches` at a byte boundary; for data of any content from the complete outcomes C36_complete and C28_complete (PropsChunksAny.v) |
| C48 | nothing new | monotonicity of float rounding, sign of overflowed products; strictness by the relative error bound. bf16 (`PropsRankOrder.v`): on multiplying paths the stored value is RN16(RN32((code-zp)*scale)), monotone; strictness for uint2/uint4 by C07_bf16_accuracy; the uint8 collapse by computation |
| C49 | nothing new | oddness of both roundings and of RN32; exactness of scaling by 2^k outside the subnormal range |
| C50 | nothing new | uniqueness of the data range, C21 |
| C51 | `WeakMem.v`: workers with a FIFO store buffer (ordinary stores), unordered write-combining entries (streaming stores) and two ways to signal the end of a job | invariant of the machine (every buffered byte is final, unexecuted iterations still see the old output), termination measure, a lazy execution for the refutation |
| C52 | the same model (config from data, quantize, dequantize); `half_even` rounding as the reference | `PropsReadme.v`: C23's argument with zero at most half a step outside the range (`config_fits_near`); the tolerances by arithmetic on the C23 bound; refutations by computation on three-element tensors for every kernel set; ties by case analysis on the fractional part |
| C53 | `Naive.v`: the reference quantizer of test/naive.hpp (lambda Q, pairs, odd tail, xorshift128+ generator) | `PropsNaive.v`: both sides equal the packed list of documented codes; the generator's floats computed exactly; counterexamples for uint2 and bf16 stochastic |
| C54 | the same model as C23 | `PropsNaive.v`: C24 for the parameters, C14 for the codes, arithmetic on the clipped integer; `PropsConstant.v`: both outputs and both rounding modes |
| C55 | chains of the calls of C01/C08 on one output buffer (`chain`), each with its own schedule | `PropsAccumulate.v`: induction on the number of buffers; per addition the FLT relative error of Flocq, exactness by format arguments; `peer_step` composes quantize with dequantize(add), `C55_computed_parameters_fit` discharges its range hypothesis from C21; `PropsAccumulate16.v`: the same induction for a bf16 accumulator over the per-call bound of C56 |
| C56 | the calls of C01/C08/C28 with the parameters of C21; `test_value` is the tests' `result[i] - prev` in the element type (bf16: C37's subtraction) | `PropsTests.v`: one error lemma per storing path (`stored_f32_near`, `stored_bf16_near`, `stored_bf16_vec_near`), composed with `steps_near` and the range lemma `config_fits`; the tolerances of the three test files are constants in the theorems |
| C57 | `Python.v`: the three torch functions, the float -> double -> float trip of the scale (`f64_of_f32`, `f32_of_f64`), tensors whose storage may be longer than the packed codes | `PropsPython3.v`: the outcome theorems of C38, a frame lemma (a call that succeeds on the exact span does the same on a longer allocation), `quantize_near_rm`, `decode_near`, `steps_near`, `config_usable`; the refuted part lifts C09 |
| C58 | `PyViews.v`: views (shape, strides, offset, storage), `is_contiguous`, `.contiguous()`, the three torch functions on views | `PropsViews.v`: induction on the shape for the position of a multi-index in the gathered copy and in a dense view; then C38 and C57 |
| C59 | `Arena.v` with overlapping input and output (the steps of `Arena.v` re-read the memory, so overlap needs no new model) | `PropsInPlace.v`: a run in which no step stores into bytes a later step reads equals the run on a copy (induction on the trace); fused steps read exactly the bytes they write and are disjoint, quantize steps of one thread store at or below what they read; concrete schedules for the refutations. The kernels declare both pointers `PIQUANT_RESTRICT`, so a compiler may assume no overlap: the positive theorems are about the algorithm, not about what a compiler does with that promise |
| C60 | `PyLifetime.v`: a transition system of Context objects, references, the `get()` cache, finalizers and native contexts, any number of threads (`__init__.py:64-80`, capi.cpp:19-26) | `PropsLifetime.v`: invariants by induction on the history (an object once unreachable stays so; every context is in exactly one place); the contract of the native API is a predicate on histories that knows nothing of the Python state; refutations are explicit histories |
| C61 | dequantize_call, compute_quant_config_from_data, quantize_call composed (`trip`, `trips` in `PropsStable.v` only chain the three modelled calls) | `PropsStable.v`: the ends of the decoded range are RN32 of multiples of the scale, so step and zero point of the second configuration are the old ones up to relative 2^-22 (C21 formulas); induction on the number of trips; the end codes of real data by the same error analysis; the refutation is a computation. `PropsStable16.v`: trips through bf16 or f32 (`float_trip`) for uint2/uint4: bf16 decodings are within 1/256 of themselves (C07_bf16_accuracy, AVX-512 included), at most 15/256 of a step; uint8 through bf16 is refuted by computation |
| C62 | compute_quant_config_from_data, quantize_call, dequantize_call on two related buffers | `PropsUnits.v`: rounding to binary64/binary32 commutes with 2^k in the normal range and with negation, hence so do the C21 formulas; codes by C49; decoded products by the same lemmas; the refutation is a computation. `PropsUnitsBf16.v`: bf16 output; RN16 commutes with powers of two above 2^-126 and with negation (C07_dequantize_set_bf16, C17) |
| C63 | `Flush.v`: every kernel, the scan and the parameter computation again with flushing operations, a mode per worker (the text of the IEEE model with each operation replaced; C63_ieee_calls proves that in IEEE mode it is that model) | `FlushFacts*.v`: with scale in [2^-60, 2^126] every intermediate product is either 0, normal, or a denormal that rounds away; scan: minimum and maximum up to numbers below 2^-126 (`FlushScan.v`), which a binary64 difference of at least 2^-50 absorbs (`FlushConfig.v`); refutations are computations |
| C64 | `Diag.v`: printf conversions, snprintf into a bounded buffer, panic, the assertion texts and arguments of the four calls (C64_reports: they are the assertions of the modelled calls) | `PropsDiag.v`: snprintf lemmas on a written prefix; digits by induction; each message by symbolic execution of the literal format; the refutations by the same lemmas |
| C65 | `PropsOptimal.v`: `coded_within` (some codes and meanings represent a tensor within E), `achievable` (for every tensor with the range) | pigeonhole on 2^bits+1 floats spread over the range (rounded by RN32, so still separated); upper bound from C23; refutation from C23_zero_outside_refuted |
| C66 | `PropsReplicas.v`: `event` (Receive, Requantize), `uniform` (which machines may decode), `step` (one event on any CPU, threads, address, blocks), `run`, `allowed` | one event is deterministic: dequantized bytes do not depend on the kernel set (f32: `dequantize_f32`; bf16 without AVX-512: `dequantize_bf16`), parameters by C22, codes by C10; induction over the events; runs exist; AVX-512 bf16 refuted by C13's example |
| C67 | nothing new (`decodes_in_order`, `decodes_apart`, `resolution`, `representable` in `PropsRankOrder.v` name the conditions) | the codes are monotone functions of the data (C01/C29 codes), strictly if the scaled values differ by more than the rounding error; then C48; the AVX-512 refutation by computation |
| C68 | nothing new; `total`, `dot`, `square_distance`, `element_error` in `PropsAggregate.v` are the specification (exact real sums) | the element bounds of C16/C23 summed with the triangle inequality; the attained case by computing the code and the decoded value of 1/2 |
| C69 | `Link.v`: translation units with their compile flags and link order, symbols with internal linkage / shared inline copies / inline tables, arbitrary emitted code and call graphs, the linker's choice, call chains | first copy kept: by induction over the call chain, the running code's unit never comes after the starting unit, and flags grow along the order; then C32. Own kernels: invariant along the chain. Refutations by concrete object files (`PropsLink.v`) |
| C70 | nothing new; `hop`, `hop_step` (quantize, then dequantize(add) into the next worker's data), `ring_sum`, `ring_mass` in `PropsRing.v` are the specification | one hop is a one-peer all-reduce (C55); induction over the ring with the claimed error as the invariant (it bounds the running sum, hence the ranges needed); with computed parameters a linear recurrence with the closed form of the statement |
| C71 | nothing new; `nearest_multiple`, `times` in `PropsTranscode.v` are the specification | relative error of the product (dequantize) and of the scaled value (quantize) bounded; (code - zp)/m with m odd is at least 1/(2m) from any half, far more than the error, so the rounding is exact; then integer arithmetic |
| C72 | nothing new; `outside` (distance from an interval) in `PropsClip.v` is the specification | C16's argument with clamping: a scaled value beyond the end clamps to the end, and then the error is its distance from the end; relative errors of huge values are absorbed by the clamp; calibrated range inside the representable one up to 1/8192 step |
| C73 | nothing new; `block`, `not_constant` in `PropsBlocks.v` are the specification | the range of a block lies inside the tensor's range; subtraction, division and the conversion to float are monotone; then C23, C54 (constant) and C23's zero-outside theorem (far block) |
| C74 | nothing new; `operand`, `q_call`, `q_fits`, `q_computed`, `ztotal` in `PropsIntDot.v` are the specification | every code is within half a step (a step) of the scaled value (C01, C29, C23's range argument); sums by induction on n |
| C75 | `PropsFeedback.v`: `exchange` is the history of a sender with error feedback (its own f32 additions and subtractions, a quantize and a dequantize call per round, abort and undefined behaviour included); induction over the rounds with the residual's bound as invariant; each round by C72_clipped; with computed parameters C55_computed_parameters_fit and the bounds of the computed step (C21, C23) make the residual's bound a fixed point. `C75_without_feedback`: from C68_sum_error_attained |
| C76 | `PropsAccumOrder.v`: two accumulation histories (chains of dequantize(add) calls) over permutations of the same payloads; each history's bits are the left fold of f32 additions (C55), its error against the exact sum is bounded by `fsum_error`, and exact sums do not depend on the order (`rsum_perm`); `C76_exact_any_order`: C55_exact_sum for both orders; `C76_order_refuted`: a counterexample to bit equality |
| C77 | `PropsIndependent.v`: senders given by their codes for every generator output (`all_outputs`, C30); the mean over all combinations is an iterated mean (`mean_over_all`), linear, so the mean of the sum and its mean-square deviation follow by induction over the senders from the two-valued distribution of one element (C30_generator_share); `C77_equal_seeds_refuted` from C30_generator_variance, `C77_equal_seeds_always_off` from the two possible codes. `C77_received` (`PropsStochasticReduce.v`): for every combination of outputs the receiver's chain of dequantize(add) calls runs (C55), its f32 result is the ideal sum up to the C55 rounding bound, so the mean and mean-square error follow by monotonicity and linearity of the iterated mean. `C77_received_concentration` (`PropsStochasticReceivedTail.v`): the same per-combination bound (`received_close`) added to the exponential bound of C77_concentration. `C77_received_every_element`: the union over the elements. `C77_received_equal_seeds`: `received_close` with `C77_equal_seeds_always_off`. That generators of different contexts are independent and equidistributed is the reading of the statement (all combinations equally likely), not proved of `std::random_device` |
| C78 | `PropsStochasticRing.v`: a ring run is a tree (`ring_run`): at every node, i.e. for every history of generator outputs, a sender (C77 vocabulary) quantizes the running sum and the receiver's dequantize(add) gives the next one. One hop changes the exact partial sum by a quantity with mean at most B*2^-19 and mean square a quarter squared step plus f32 terms (C30 distribution, C55 error); induction over the hops for a running deviation from any reference value. `C77_rarely_far`, `C77_concentration`, `C77_average_concentration`, `C78_rarely_far`, `C78_concentration` (`PropsStochasticTail.v`): Chebyshev's inequality, and exponential tails from the moment generating function of the two-valued rounding (bounded by exp(t^2/2) with cosh x <= exp(x^2), proved by doubling), carried through the sum and through the ring by induction. `C78_tensor_error`, `C78_every_element`: sums over the elements of a tensor. Independence of the generators is the reading of the statement (all combinations equally likely) |

Nothing in the list is left unexpressed; no theorem is `_partial`.

## 4. Trusted base

* Coq 8.16.1's kernel (with `vm_compute` conversion).
* What `Print Assumptions` lists (run over all theorems of `MANIFEST.json`):
  * nothing ("Closed under the global context"): C06_partition, C06_overflow, C32_detection_total, C32_supported_but_bw, C32_supported,
    C32_avx512bw_refuted, C32_best_supported, C33_kernel_tables, C38_helpers, C38_stride_refuted, C38_piquant_to_torch_refuted,
    C38_default_threads, C38_output_fits, C39_quantized_limits, C39_dtype_table, C39_bytes_for, C39_code_positions, C39_enum_values,
    C45_outputs_64_bit, C45_never_constant, C45_uniform_seed_refuted, C45_standard_check_value, C45_matches_standard, C45_standard_unique,
    C58_positions, all C60 theorems, all C64 theorems except C64_reports, all C69 theorems, C73_block_sizes;
  * `ClassicalDedekindReals.sig_forall_dec` and `FunctionalExtensionality.functional_extensionality_dep`: C18_software_conversion_agrees;
  * `ClassicalDedekindReals.sig_forall_dec`, `ClassicalDedekindReals.sig_not_dec`, `Classical_Prop.classic`,
    `FunctionalExtensionality.functional_extensionality_dep`: all other theorems.
  All four are axioms of the Coq standard library (`Coq.Reals`); Flocq adds none.  This development adds none.
* The reading of the C++ and Python as Gallina.
* Assumptions built into the model:
  * the thread pool (`third_party/threadpool`, an empty submodule here) runs every scheduled job exactly once, in any interleaving, and
    `join` waits for them; `scheduleBlocks` cuts the range into consecutive blocks that cover it (the cut is a parameter of the theorems);
  * a data race is excluded by C05/C43 (no two jobs touch the same output byte), so byte-wise interleaving of whole iterations covers
    all executions of the C++ memory model; streaming stores are outside that model: all theorems but C51 take the bytes a job wrote to be
    visible after `join`, which by C51 needs a draining signal (locked instruction, mutex, sfence) for the uint8 vector kernels;
  * `std::uniform_real_distribution<float>` follows the standard's `generate_canonical` (`Rng.v`, with and without libstdc++'s cap); the
    thresholds of the other theorems are any float in [0, 1];
  * enum arguments of the C API are arbitrary 32-bit values;
  * Python (C60): `weakref.finalize` runs its callback at most once, when the object is unreachable or at exit; `lru_cache` holds no lock while it calls the function and
    keeps the first result; one thread at a time is inside `__init__` of a given object;
  * PyTorch: strided views of dense CPU storages (`PyViews.v`), `is_contiguous`, `contiguous`, `numel`, `data_ptr`, and storage of sub-byte dtypes with the innermost dimension rounded up to bytes.

## 5. Modelled and not modelled

Modelled: `CMakeLists.txt` (sources, order, instruction-set flags), `include/piquant.hpp` (dtype table, limits, `bfp16_t`, typed templates), `src/piquant.cpp` (CPUID tests, context, partition,
jobs, argument checks, `panic` and the diagnostics, quantization parameters, all public calls), `src/capi.cpp`, `src/kernels/quantize.inl`, `dequantize.inl`,
`kernels.inl`, `kernels_specialized.inl`, `python/src/piquant/{__init__,_bootstrap,torch}.py` (type tables, argument checks, sizes, lifetime of contexts).

Not modelled: pool internals (including the cast of the thread count to `int`), the store that signals the end of a job (C51 covers both kinds: one that drains the
write-combining buffers, one that does not), FP contraction outside `Contract.v` (C46 covers the ReduceOp::add stores, the only products of the kernels whose single use is an addition;
the other theorems are about kernels built without contraction, and by C46_set_unaffected they hold of contracted SET kernels too), non-default rounding modes and flushing of denormals outside `Flush.v` (C63), NaN payloads
produced by hardware arithmetic (Flocq's choice is used; statements about NaN results only say "NaN"; where a theorem says two buffers are equal byte for byte, e.g. C47, an element that
the call itself turned into a NaN may differ in sign and payload between x86 and ARM; C66 excludes NaNs by its conditions), the value returned by `std::random_device` (any 32-bit seed),
what a compiler may do with `restrict` when input and output of one call overlap (C59 treats overlap iteration by iteration), exceptions from allocation, `ctypes` marshalling, library
loading, benchmarks, the test programs (except the reference quantizer of test/naive.hpp, `Naive.v`, and the data ranges, parameters and tolerances of the acceptance checks, C56), build scripts.

## 6. Tests against wrong programs

`seeded/mutants.py` lists edits of the model, `seeded/mutate.py` applies one in a scratch copy, rebuilds everything that can be
rebuilt and records in `seeded/LOG.jsonl` which lemmas fail first and which property theorems are lost; for each
edit it names the claims that must not survive ("missing" = an expected failure that did not happen: the theorem is too weak).
`seeded/Golden.v.txt` runs the model on sample calls so that an edit that changes no observable result is recognised ("diff 0").
