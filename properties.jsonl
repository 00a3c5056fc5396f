{"id": "C01", "title": "quantize(nearest) computes the documented code for every element", "statement": "After quantize(in, dt_in, out, dt_out, scale, zp, nearest) returns, the code stored for element i is clamp(round_half_away(fl32(x_i * fl32(1/scale))) + zp, 0, 2^bits-1), on the generic, SSE4.2, AVX2, AVX-512, AVX-512-BF16 and NEON kernels alike, for f32 and bf16 inputs and uint8/uint4/uint2 outputs, as long as the scaled values are finite and below 2^30 in magnitude and not one of the two floats +-(0.5-2^-25), and the zero point is at most 2^22 in magnitude. A bound on the zero point is needed: with zero point -2^23 and y = 2^23+1 the x86 vector loops store 2 where scalar code stores the documented 1.", "quantifier": "every architecture, dtype pair, input buffer of any length, buffer address, scale, zero point in range, thread count and interleaving", "why_tests_cant": "2^32 float values times unbounded buffer lengths, alignments, thread counts and interleavings; the failing values are isolated floats", "anchors": ["src/kernels/quantize.inl: quantization step (nearest), quant_generic, quant_uint4, quant_uint2", "src/kernels/kernels_specialized.inl: quant_f32_to_uint8_nearest, quant_bf16_to_uint8_nearest, quant_f32_to_uint4_nearest, quant_bf16_to_uint4_nearest, quant_bf16_to_uint2_nearest", "src/piquant.cpp: context::quantize"]}
{"id": "C02", "title": "Packed layout and zero padding", "statement": "Element i of a uint4/uint2 output lives in byte i/k (k = 8/bits) at bit offset bits*(i mod k), elements do not disturb each other, and the unused high bits of the last byte are written as zero.", "quantifier": "every element count, dtype, architecture, thread count", "why_tests_cant": "all lengths modulo all block sizes, on all six kernel sets", "anchors": ["src/kernels/quantize.inl: quant_uint4, quant_uint2, quant_step_packed", "src/kernels/kernels_specialized.inl: quant_f32_to_uint4_nearest, quant_bf16_to_uint4_nearest, quant_bf16_to_uint2_nearest"]}
{"id": "C03", "title": "quantize stays inside its buffers and writes all of its output", "statement": "An accepted quantize call reads only bytes of the input span, writes only bytes of the output span, writes every byte of the output span, and never uses an aligned (streaming) store on a misaligned address.", "quantifier": "every architecture, dtype pair, length, output address, thread count and interleaving", "why_tests_cant": "out-of-bounds accesses need not crash; alignments and lengths are unbounded", "anchors": ["src/kernels/kernels_specialized.inl: all quant_* kernels", "src/kernels/quantize.inl", "src/piquant.cpp: job_entry, context::quantize", "src/piquant_internal.hpp: packed_numel"]}
{"id": "C04", "title": "Thread count and schedule do not change the result of quantize", "statement": "For a fixed threshold, the output buffer after quantize is the same for every number of worker threads and every interleaving of their memory operations. Stochastic mode: for all data, scales and zero points whatever, also across CPUs and output addresses (and a call is undefined for one thread count iff it is for all). Nearest mode: for a usable scale, moderate zero point and scaled values below 2^30 away from the two exceptional values of C10, also across CPUs; for all data whatsoever when the elements take the same kind of path in both calls. Schedules never matter, for any data, in quantize, dequantize and the fused call.", "quantifier": "every pair of thread counts, every interleaving, every input", "why_tests_cant": "the number of interleavings is astronomically large and the partition depends on numel*t/tc", "anchors": ["src/piquant.cpp: context::pimpl::operator(), job_entry"]}
{"id": "C05", "title": "Worker threads never touch the same output byte", "statement": "In quantize, dequantize and quantize_dequantize_fused, the sets of output bytes accessed by two different worker threads are disjoint, in particular no packed byte is shared by two threads, and no thread writes a byte of the input.", "quantifier": "every numel, thread count, dtype pair, architecture", "why_tests_cant": "races only show up under particular schedules", "anchors": ["src/piquant.cpp: job_entry/partition_row"]}
{"id": "C06", "title": "The partition tiles the element range", "statement": "The element ranges given to threads 0..tc-1 are consecutive, disjoint and cover 0..numel exactly, every range starts on a packed-byte boundary, every thread gets numel/tc elements (rounded down or up) give or take at most 3 (the elements of a packed byte less one), and no int64 overflow occurs when numel*tc < 2^63; from numel*tc = 2^63 on the last thread's range computation overflows.", "quantifier": "every numel >= 0, every thread count >= 1, every dtype pair and command", "why_tests_cant": "unbounded numel and thread counts", "anchors": ["src/piquant.cpp: job_entry/partition_row"]}
{"id": "C07", "title": "dequantize(set) computes (code - zp) * scale for every element", "statement": "After dequantize(..., set), f32 output element i is fl32(fl32(code_i - zp) * scale), bit for bit, for every quantized dtype, architecture and scale (NaN and infinities included). A bf16 output element is the bf16 rounding of that f32 product on kernel sets without AVX-512 (and for uint8 on AVX-512F with a finite scale); the AVX-512 vector loops for uint4/uint2 round fma(code, scale, -zp*scale) instead; in every case a bf16 result is within 2^-8 relative plus 2^-13 steps of (code - zp)*scale for scales in the stated range. Bytes outside the output elements are untouched. For every scale (zero, negative, infinite, NaN) and every int64 zero point the result is determined element by element: which elements take a vector path, which bits of the zero point are used, and when the scalar subtraction overflows, which is undefined behaviour; zero points away from the lower end of the integer type never overflow.", "quantifier": "every architecture, dtype pair, length, code content, scale, zero point in range, thread count and interleaving", "why_tests_cant": "unbounded lengths/alignments and 2^32 scales", "anchors": ["src/kernels/dequantize.inl: dequant_step, dequant_uint4, dequant_uint2, dequant_generic", "src/kernels/kernels_specialized.inl: dequant_uint8_to_f32, dequant_uint4_to_f32, dequant_uint8_to_bf16, dequant_uint4_to_bf16, dequant_uint2_to_bf16"]}
{"id": "C08", "title": "dequantize(add) accumulates into every element", "statement": "After dequantize(..., add), f32 output element i is fl32(old_i + fl32(fl32(code_i - zp)*scale)), except the last numel mod 4 elements of uint2->f32, which are overwritten as with set. A bf16 element on scalar paths is bf16(old + bf16(v)), on the AVX-512 vector loops bf16(fl32(v + old)), so equal inputs can give different results at different positions of one call on AVX-512.", "quantifier": "every architecture, dtype pair, length, old content", "why_tests_cant": "only particular residues of the length fail", "anchors": ["src/kernels/dequantize.inl: dequant_uint2 (tail)", "src/kernels/kernels_specialized.inl: dequant_* <reduce_op::add>"]}
{"id": "C09", "title": "dequantize stays inside its buffers", "statement": "An accepted dequantize call reads only the input span, accesses only the output span and writes all of it. False of the code for uint2->f32 when numel mod 4 == 0: one byte past the packed input is read.", "quantifier": "every architecture, dtype pair, length, thread count, interleaving", "why_tests_cant": "an out-of-bounds read of one byte rarely crashes", "anchors": ["src/kernels/dequantize.inl: dequant_uint2", "src/kernels/kernels_specialized.inl"]}
{"id": "C10", "title": "Vector and scalar code paths quantize alike", "statement": "For zero points of moderate size and scaled values y below 2^30, the code stored by any path of any kernel set is clamp(round_half_away(y)+zp), except exactly when an x86 vector iteration handles an element with y = +-(0.5-2^-25), which is rounded to +-1 instead of 0. The exception makes results depend on position, thread count and CPU.", "quantifier": "every input buffer, architecture, thread count, address and schedule; all scaled values below 2^30", "why_tests_cant": "two isolated values among 2^32, visible only at some positions", "anchors": ["src/kernels/kernels_specialized.inl: all x86 quantize loops vs. scalar tails"]}
{"id": "C11", "title": "quantize is monotone", "statement": "For a fixed positive scale, x_i <= x_j implies code_i <= code_j in the output of one nearest-mode call when both scaled values are below 2^31-2^22 in magnitude and either both elements are handled by the same kind of path or neither scaled value is +-(0.5-2^-25). False at and above 2^31 on x86 vector paths: huge positive values get code 0. Every stochastic-mode call that is defined is monotone in the same sense, for every threshold, without further conditions.", "quantifier": "all pairs of elements of all buffers, all positive scales, zero points, architectures, thread counts and schedules", "why_tests_cant": "all pairs of floats", "anchors": ["src/kernels/kernels_specialized.inl", "src/kernels/quantize.inl"]}
{"id": "C12", "title": "Codes are always in range and saturate at the ends", "statement": "Every stored code is within 0..2^bits-1 whatever the input (including NaN and infinities where the code has defined behaviour), values whose rounded scaled value is below -zp give 0, above max-zp give 2^bits-1. The bits behind the last code of the output are zero for all data. This holds for every scale, int64 zero point and threshold for which the call is defined.", "quantifier": "all inputs, scales, zero points, architectures", "why_tests_cant": "whole float range", "anchors": ["src/kernels/quantize.inl: quant_step_scalar_*", "src/kernels/kernels_specialized.inl"]}
{"id": "C13", "title": "Zero is represented exactly", "statement": "If 0 <= zp <= 2^bits-1 and the scale is usable then +-0 quantizes to zp (nearest and stochastic), whatever the other elements are as long as the call is defined, and code zp dequantizes to +0 for f32 on every architecture, and for bf16 except uint4/uint2 on the AVX-512 kernel sets, where the fused multiply-add with a rounded bias can give a nonzero value.", "quantifier": "every scale, zero point, architecture, dtype", "why_tests_cant": "depends on the rounding of zp*scale", "anchors": ["src/kernels/quantize.inl", "src/kernels/dequantize.inl", "src/kernels/kernels_specialized.inl: dequant_uint4_to_bf16, dequant_uint2_to_bf16"]}
{"id": "C14", "title": "Packed codes survive a store/load round trip", "statement": "The codes read by dequantize from a buffer written by quantize are exactly the codes that quantize computed for the same element index, for every length: dequantize(set) with any scale s2 and zero point z2 in range returns fl32((code_i - z2)*s2) for f32 (its bf16 rounding for bf16 output on kernel sets without AVX-512), where code_i is the code of C01 (nearest) or C29 (stochastic). For f32 output this holds for every quantize call that is defined, whatever its data, scale and zero point were.", "quantifier": "every input buffer, quantized dtype, float input and output dtype, pair of architectures, thread counts, schedules, both rounding modes", "why_tests_cant": "unbounded lengths", "anchors": ["src/kernels/quantize.inl", "src/kernels/dequantize.inl"]}
{"id": "C15", "title": "Quantization is idempotent on representable values", "statement": "For f32, quantize(dequantize(codes)) = codes with the same scale and zero point, on every pair of architectures, for every scale in the stated normal range. For bf16 the same holds for codes within 127 of the zero point (so always for uint4 and uint2); it is false for uint8 codes further away. Stochastic requantization of f32 moves no code by more than 1 and keeps every code when the scale is a power of two; it does not keep them in general (code 13, scale 0.1f, threshold 0 comes back as 14).", "quantifier": "every code, zero point in range, every scale in the stated range, every architecture", "why_tests_cant": "2^32 scales times all codes", "anchors": ["src/kernels/quantize.inl", "src/kernels/dequantize.inl", "src/kernels/kernels_specialized.inl"]}
{"id": "C16", "title": "Round-trip error is bounded by half a step (one step if stochastic)", "statement": "If x is in the range representable with (scale, zp), 0 <= zp <= 2^bits-1, then |dequantize(quantize(x)) - x| <= scale*(1/2 + 2^-13) for f32 data and nearest rounding on every path of every architecture (the exceptional values of C10 included); for zero points up to 2^19 the bound is scale*(1/2 + 2^-21*(|k|+1)) for an unclipped integer k. For every combination of f32/bf16 input and output and either rounding mode the error is at most scale*(c + 2^-12), c = 1/2 (nearest) or 1 (stochastic), plus (|x| + 2*scale)/256 when the output is bf16.", "quantifier": "all x, scales in range, zero points, float types, rounding modes, pairs of architectures, thread counts, schedules", "why_tests_cant": "real-number statement over all floats", "anchors": ["src/kernels/quantize.inl", "src/kernels/dequantize.inl", "src/kernels/kernels_specialized.inl"]}
{"id": "C17", "title": "f32 -> bf16 conversion is round-to-nearest-even", "statement": "Constructing bfp16_t from a float gives the nearest bf16 value, ties to even, overflow to infinity, keeps infinities and signed zeros, maps every NaN to a quiet NaN and is the identity on values that came from bf16.", "quantifier": "all 2^32 floats", "why_tests_cant": "2^32 values and a real-number notion of nearest", "anchors": ["include/piquant.hpp: bfp16_t(fp32_t), operator fp32_t"]}
{"id": "C18", "title": "The AVX-512 bf16 conversion agrees with the scalar one", "statement": "The software conversion used by the AVX-512F kernel set agrees with bfp16_t(float) for every non-NaN value. Some NaNs (patterns 0x7fff8000.. and 0xffff8000..) become tiny nonzero finite numbers. The hardware conversion of the AVX512-BF16 set agrees for everything but nonzero subnormals, which it flushes to zero.", "quantifier": "all 2^32 floats", "why_tests_cant": "a 1-in-2^32 disagreement", "anchors": ["src/kernels/kernels_specialized.inl: cvt_ps_to_bf16", "include/piquant.hpp: bfp16_t"]}
{"id": "C19", "title": "bf16 inputs behave like the same values widened to f32", "statement": "quantize of a bf16 buffer gives the same output bytes as quantize of the buffer of the same values converted to f32, for every architecture and output dtype (away from the exceptional values of C10). With stochastic rounding, and with nearest rounding when each element takes the same kind of path (vector or scalar) in both calls, this holds for all data, scales and zero points, undefined behaviour included; the exception is uint2 with nearest rounding, where the bf16 call (int32 arithmetic) can be undefined although the f32 call (int64) is not, e.g. for 2^32 with scale 1.", "quantifier": "every buffer, length, data (NaN and infinities included), scale, zero point, architecture", "why_tests_cant": "different kernels and block sizes are used for the two types", "anchors": ["src/kernels/kernels_specialized.inl", "src/kernels/quantize.inl"]}
{"id": "C20", "title": "The data range scan finds the true minimum and maximum", "statement": "The minimum and maximum found by the scan are the true minimum and maximum of the data, for every finite non-empty buffer on every kernel set except SSE4.2. On SSE4.2 they are the minimum and maximum of a subset: in the blocked part one f32 element of four (five bf16 elements of eight) is ignored. On data of any content the scan returns and stays inside the buffer; its two results are both NaN (only if the data has a NaN) or neither. With infinities but no NaN no element compares below the minimum or above the maximum (which are then elements, or FLT_MAX / -FLT_MAX). The scalar scans (generic set, bf16 on NEON) skip NaNs; in general the result with NaNs depends on the kernel set.", "quantifier": "every buffer of any length and content, every architecture", "why_tests_cant": "depends on the position of the extremum modulo the vector width", "anchors": ["src/kernels/kernels_specialized.inl: find_min_max_f32, find_min_max_bf16"]}
{"id": "C21", "title": "Computed parameters are sane", "statement": "For every non-empty finite buffer and every cut into non-empty blocks, compute_quant_config_from_data returns a finite scale >= 0 and a zero point in 0..2^bits-1, does not abort, and performs no undefined conversion; away from SSE4.2 the scale is fl32(fl64(fl64(max-min)/(2^bits-1))) and the zero point the rounded, clamped fl64(0-fl64(min/step)). The scale can be 0 for subnormal ranges. For data of any content, on every kernel set and every cut: the call returns a scale that is >= 0 (possibly +infinity) and a zero point in range, or it aborts (only if there is a NaN), or it has undefined behaviour (only if there is a -infinity). NaN-only data always abort. In NaN-free data away from SSE4.2 a -infinity always is undefined behaviour, and a +infinity without -infinity always gives scale +infinity and zero point 0.", "quantifier": "every non-empty buffer of any content, every dtype, every architecture, every split into blocks", "why_tests_cant": "all buffers", "anchors": ["src/piquant.cpp: compute_quant_config, compute_quant_config_from_data"]}
{"id": "C22", "title": "Computed parameters do not depend on threads", "statement": "compute_quant_config_from_data gives the same scale and zero point for every way the pool cuts NaN-free data (infinities included) into non-empty blocks and for every kernel set but SSE4.2. With the scalar scans (generic set, bf16 on NEON) the cut does not matter for data with NaNs either; with a vector scan a NaN makes it matter. On SSE4.2 the cut changes the result, and an empty block would contribute a spurious 0 to the range.", "quantifier": "every buffer and every cut into blocks", "why_tests_cant": "the cut is chosen by the thread pool", "anchors": ["src/piquant.cpp: compute_quant_config callback and reduction"]}
{"id": "C23", "title": "Computed parameters represent the data", "statement": "If the parameters are computed by a scan other than the SSE4.2 one and the data's range includes 0 (and its width is between 2^-118 and 2^100), quantizing f32 data with the computed scale and zero point and dequantizing gives an error of at most scale*(1/2+2^-12) for every element, and the scale is within 2^-23 relative of (max-min)/(2^bits-1); for all float types and both rounding modes (width at least 2^-112) the error is at most scale*(c+2^-11), c = 1/2 or 1, plus (|x|+2*scale)/256 for bf16 output. If all data are positive (negative) the zero point is clamped to 0 (2^bits-1) and every dequantized value lies in [0, max-min] ([-(max-min), 0]) up to rounding, however far away the data are. With the SSE4.2 scan the parameters need not represent the data: fifteen zeros and one 1000 give scale 1 and zero point 127, and 1000 comes back as 128.", "quantifier": "every finite buffer with min <= 0 <= max; for the refutations: every finite buffer without 0 in its range, every architecture", "why_tests_cant": "real-number statement over all buffers", "anchors": ["src/piquant.cpp: compute_quant_config"]}
{"id": "C24", "title": "Constant and empty data", "statement": "Constant finite non-empty data gives scale 1 and the midpoint zero point (127/7/1), whatever the constant; with empty data the call aborts if the pool makes no block and returns (1, midpoint) if it makes only empty blocks; a float target dtype aborts.", "quantifier": "every constant, every length, dtype", "why_tests_cant": "edge cases across all constants", "anchors": ["src/piquant.cpp: compute_quant_config"]}
{"id": "C25", "title": "Argument validation is complete", "statement": "quantize, dequantize and quantize_dequantize_fused abort before touching the output exactly when the dtypes are of the wrong kind or the buffer sizes do not match (packed size for sub-byte types); otherwise they do not abort.", "quantifier": "all combinations of dtypes and sizes", "why_tests_cant": "all sizes", "anchors": ["src/piquant.cpp: quantize, dequantize, quantize_dequantize_fused", "src/piquant_internal.hpp: packed_numel"]}
{"id": "C26", "title": "C API is safe for every dtype it accepts", "statement": "piquant_quantize/piquant_dequantize abort cleanly when both dtypes are quantized types and when numel*stride wraps around 2^64. False for the rest: a floating output dtype of piquant_quantize (or floating input dtype of piquant_dequantize) divides by zero before any check, and an out-of-range enum value indexes past the dtype table. A rounding mode or reduce op outside the enumeration is undefined behaviour on every call with at least one element, and harmless (output untouched) on no elements; a target dtype outside the enumeration makes the parameter computation undefined for all data.", "quantifier": "all enum values and sizes", "why_tests_cant": "requires looking at undefined behaviour", "anchors": ["src/capi.cpp: piquant_quantize, piquant_dequantize", "src/piquant_internal.hpp: packed_numel", "src/kernels/kernels.inl: dispatch_quantize, dispatch_dequantize"]}
{"id": "C27", "title": "C API computes the same as the C++ API", "statement": "For valid dtypes and numel (no size_t wrap) the C functions call the C++ ones with exactly the matching span sizes, so the size assertions always pass.", "quantifier": "all dtypes, all numel without wrap-around", "why_tests_cant": "all sizes", "anchors": ["src/capi.cpp"]}
{"id": "C28", "title": "quantize_dequantize_fused equals quantize then dequantize", "statement": "For f32 the fused call gives the same bytes as dequantize(set/add) after quantize with the same parameters (away from the values of C10, and with add on uint2 only for lengths divisible by 4). For bf16 it computes bf16(bf16(code-zp)*bf16(scale)) and equals the two calls when the scale is a bf16 value and the dequantizing context has no AVX-512; with another scale it differs. For every data, scale (zero, negative, infinite, NaN) and int64 zero point the fused call is undefined exactly if for some element the int64 conversion of the scaled value, the addition of the zero point or its subtraction from the code overflows or the scaled value is not finite; otherwise each element is the product (or the old element plus the product) of code minus zero point and scale. With stochastic rounding on f32 it is undefined exactly when the quantize call is.", "quantifier": "every buffer, data, scale, zero point, dtype, rounding mode, reduce op, architecture, thread count, threshold", "why_tests_cant": "real inputs only differ in last bits", "anchors": ["src/kernels/kernels.inl: requant_generic", "src/kernels/dequantize.inl: dequant_step", "include/piquant.hpp: bfp16_t::operator*"]}
{"id": "C29", "title": "Stochastic rounding only picks a neighbour", "statement": "In stochastic mode the stored code is clamp(t + zp) where t is the scaled value truncated, or the next integer away from zero; integers are always kept exactly.", "quantifier": "all inputs and all thresholds in [0,1]", "why_tests_cant": "all floats times all thresholds", "anchors": ["src/kernels/quantize.inl: quant_step_scalar_stochastic"]}
{"id": "C30", "title": "Stochastic rounding is unbiased", "statement": "Over the equidistributed thresholds k/2^24 the average rounded value equals the scaled value y exactly, for unclipped y that are multiples of 2^-24 (in particular every |y| >= 1/2), and the rounded magnitude is antitone in the threshold. Over all 2^64 outputs of the 64-bit generator the library draws the threshold from, an element rounds away from zero exactly for the outputs below one cut-off, whose share differs from the fractional part f of |y| by at most f*2^-24 + 2^-64; so the average rounded value is within that of y. Each stochastic call takes exactly one generator output, a nearest call none. The mean squared rounding error over all generator outputs is f*(1-f) up to the same tolerance: at most 1/4 (plus it), and never below the squared error of rounding to nearest.", "quantifier": "all scaled values, all thresholds, all 2^64 generator outputs, all histories of calls", "why_tests_cant": "a probability statement over 2^24 thresholds or 2^64 generator outputs for every float", "anchors": ["src/kernels/quantize.inl: quant_step_scalar_stochastic", "src/piquant.cpp: operator()"]}
{"id": "C31", "title": "One threshold per call", "statement": "All elements of one stochastic call are rounded with the same threshold, so equal inputs get equal codes within a call, for all data for which the call is defined, and the result is a function of the call's arguments and that one threshold. Consequently the rounding errors of equal elements of one call do not average out: the mean square of their average error is f*(1-f), however many elements there are.", "quantifier": "all buffers, thread counts and interleavings", "why_tests_cant": "needs every interleaving", "anchors": ["src/piquant.cpp: context::pimpl::operator()", "src/kernels/quantize.inl"]}
{"id": "C32", "title": "The selected kernel set is supported by the CPU", "statement": "The context only installs a kernel set whose instructions the CPU (and OS) supports. False: the AVX-512 check does not test AVX512BW, which that kernel set is compiled for and uses.", "quantifier": "every combination of CPUID feature bits", "why_tests_cant": "needs CPUs one does not have", "anchors": ["src/piquant.cpp: check_*_support, pimpl::pimpl"]}
{"id": "C33", "title": "Kernel tables are total on valid requests", "statement": "For every valid dtype pair, rounding mode and reduce op the dispatch tables hold the kernel for exactly that combination, and a null entry is never called.", "quantifier": "all enum combinations", "why_tests_cant": "finite, but the property is about which template instance sits in each slot", "anchors": ["src/kernels/kernels.inl: quant_functions, dequant_functions, requant_functions, dispatch_*"]}
{"id": "C34", "title": "The full int64 zero point is honoured", "statement": "quantize and dequantize use the zero point they are given. False for the specialised kernels: zero points are cut to 32 bits, so zp and zp + 2^32 give the same result, while generic kernels use all 64 bits.", "quantifier": "all zero points", "why_tests_cant": "zero points beyond 2^31 are not tested", "anchors": ["src/kernels/kernels_specialized.inl", "src/kernels/quantize.inl: quant_generic", "src/kernels/dequantize.inl: dequant_generic"]}
{"id": "C35", "title": "A context with zero threads does nothing", "statement": "With num_threads = 0 no job is scheduled: an accepted call leaves the output unchanged (documented so callers do not rely on it).", "quantifier": "all inputs", "why_tests_cant": "edge case of the scheduling bound", "anchors": ["src/piquant.cpp: operator()"]}
{"id": "C36", "title": "NaN, infinities and huge values", "statement": "With a usable scale, an element on a scalar path whose conversion is undefined (NaN, infinity, too large) makes the call undefined behaviour; otherwise every vector-path element gets a defined code: on x86 NaN, infinities and scaled values >= 2^31 in magnitude give 0 if zp >= 0 and 2^bits-1 if zp < 0; on NEON NaN gives clamp(zp), positive huge values give 255 if zp <= 0 but 0 if zp > 0 (int32 wrap), negative huge values 0 if zp >= 0 and 255 otherwise. Thus the result of quantizing NaN/inf depends on the element's position. Stochastic and fused calls have no vector path: they are defined exactly when every element's conversion is. A NaN scale, a zero scale or one whose reciprocal overflows makes every call with a scalar-path element undefined behaviour whatever the data; an infinite scale gives clamp(zp) for all finite data. If every element is on a vector path, such a scale is not undefined but gives codes that carry no information (all 0, or all maximum for negative zero points, on x86; only the sign on NEON). In general the outcome of every call with valid buffers is determined, element by element, by the IEEE product x*(1/scale) and the path that handles the element, for every float, scale and int64 zero point.", "quantifier": "all inputs (NaN, infinities and huge values included), every position, rounding mode and scale", "why_tests_cant": "undefined behaviour cannot be tested", "anchors": ["src/kernels/kernels_specialized.inl", "src/kernels/quantize.inl"]}
{"id": "C37", "title": "bf16 arithmetic operators round once; special values", "statement": "bfp16_t +,-,*,/ on finite operands return the correctly rounded (to nearest even, overflow to infinity) bf16 value of the exact result: the intermediate rounding to f32 never changes it, subnormal results included. A NaN operand gives a quiet NaN. Infinities, zeros and divisions by zero follow IEEE 754 (inf absorbs finite values; inf - inf, 0*inf, inf/inf and 0/0 are NaN; x/0 is a signed infinity), and every product or quotient that is not NaN carries the product of the signs.", "quantifier": "all pairs of bf16 values", "why_tests_cant": "2^32 pairs with a real-number notion of rounding", "anchors": ["include/piquant.hpp: bfp16_t operators"]}
{"id": "C38", "title": "Python helper facts match the library", "statement": "The Python DataType.bit_size/is_quantized/is_dequantized/values agree with the C++ dtype table; quantize_ptr/dequantize_ptr either raise or make the C++ call with exactly matching sizes; torch quantize/dequantize/compute_quant_params raise exactly when a dtype, mode or operation name, zero point or empty tensor is unsuitable and otherwise make exactly one library call whose spans fit the tensors' storage, so quantize (both rounding modes) and dequantize(set) (both output types) compute every element of the tensor. A wrong output dtype of torch dequantize is refused even under python -O. False or dangerous: DataType.stride (right only for uint8), piquant_to_torch_dtype (always raises), dequantize(add) adds to uninitialised memory, float16 tensors are scanned as f32 out of bounds, empty tensors are refused, and python -O removes the other checks.", "quantifier": "all dtypes and element counts", "why_tests_cant": "all shapes", "anchors": ["python/src/piquant/__init__.py", "python/src/piquant/torch.py"]}
{"id": "C39", "title": "Type table and limits", "statement": "Every dtype has the bit width, storage stride, kind flags and enum value of the header; n elements of a b-bit type occupy ceil(n*b/8) bytes; the dtype limits used for clamping are the smallest and largest value of each quantized dtype; the limits of bf16 are not (they convert the bit patterns as integers, so min > max).", "quantifier": "all dtypes, all element counts", "why_tests_cant": "constants no code path tests", "anchors": ["include/piquant.hpp: dtype_limits"]}
{"id": "C40", "title": "Every kernel loop terminates and makes progress", "statement": "Every vector loop and tail loop of every kernel terminates after finitely many steps for every length and address, with the index at exactly numel; the same holds of the vector and tail loops of the range scan behind compute_quant_config_from_data, for data of any content, NaN included.", "quantifier": "all lengths and addresses", "why_tests_cant": "unbounded lengths", "anchors": ["src/kernels/kernels_specialized.inl", "src/kernels/quantize.inl", "src/kernels/dequantize.inl", "src/kernels/kernels_specialized.inl: find_min_max_f32, find_min_max_bf16"]}
{"id": "C41", "title": "The typed templates agree with the byte API", "statement": "quantize_generic, dequantize_generic and quantize_dequantize_fused_generic accept every combination of the five element types at compile time (the requires clauses do not test kinds); at run time the call goes through exactly if the types have the right kinds and the spans match in packed bytes - one uint4_t object per two elements, one uint2_t object per four - and aborts otherwise, so a span of one uint4_t or uint2_t object per element aborts. A call that goes through gives the same result as the byte API on the same buffers.", "quantifier": "all element types, span lengths, contexts and parameters", "why_tests_cant": "all span lengths and type pairs", "anchors": ["include/piquant.hpp: quantize_generic, dequantize_generic, quantize_dequantize_fused_generic, dtype_traits"]}
{"id": "C42", "title": "bfp16_t equality is bit equality", "statement": "operator== of bfp16_t agrees with IEEE equality of the values except that +0 and -0 compare unequal and a NaN compares equal to itself.", "quantifier": "all pairs of bit patterns", "why_tests_cant": "2^32 pairs", "anchors": ["include/piquant.hpp: bfp16_t::operator==, operator!="]}
{"id": "C43", "title": "Concurrent calls do not disturb each other", "statement": "Any number of quantize, dequantize and fused calls in flight at the same time in one memory, from one or several contexts, whose output buffers are separate from each other and from all inputs, each produce exactly what they would produce alone, in every interleaving of all their worker threads, and change no byte outside their outputs.", "quantifier": "all sets of concurrent calls, all buffer placements, all interleavings", "why_tests_cant": "unboundedly many calls and interleavings", "anchors": ["include/piquant.hpp: context", "src/piquant.cpp: context::pimpl::operator(), job_entry"]}
{"id": "C44", "title": "A program of calls has one result", "statement": "A program that issues rounds of concurrent calls (each round after the previous one returned) on one memory has one final memory, whatever the schedules; in particular quantizing into a buffer and dequantizing from it afterwards gives (code - zero point) * scale of the documented code of each element.", "quantifier": "all programs, memories and schedules", "why_tests_cant": "unbounded histories and interleavings", "anchors": ["src/piquant.cpp: context::quantize, context::dequantize, context::quantize_dequantize_fused"]}
{"id": "C45", "title": "The random generator never gets stuck", "statement": "The generator that supplies the stochastic thresholds (one std::mt19937_64 per thread, seeded once with a 32-bit value) produces the sequence the C++ standard prescribes for mersenne_twister_engine with the parameters of mt19937_64, delivers 64-bit numbers, never delivers the same number 313 times in a row, and in any stretch of a thread's history with at least 312 stochastic calls at least one call gets a threshold above 0, for every seed, so stochastic rounding never degenerates into always rounding away from zero. Since the seed has 32 bits, the draws are not uniform over the 64-bit numbers: for every draw number some number is never delivered.", "quantifier": "all seeds, all histories of calls, all points of a history", "why_tests_cant": "the seed is taken from std::random_device, histories are unbounded", "anchors": ["src/piquant.cpp: context::pimpl::operator() (thread_local rd, rng, dist)"]}
{"id": "C46", "title": "Fused multiply-add contraction by the compiler", "statement": "The kernel files are compiled with FMA enabled and without -ffp-contract=off, so a compiler may evaluate old + (code - zero_point)*scale of dequantize(add) and of the fused call with one rounding instead of two, in the vector loops, in the scalar loops or in both. Whatever it does, dequantize(set) and fused(set) are unchanged in every bit; every element of dequantize(add) to f32 is one of the two roundings, chosen only by the loop that handles it; its error against old + (code - zero_point)*scale is at most 2^-24 of the sum plus 2^-23 of the product (plus 2^-148) as long as the magnitudes stay at most 2^126 and |zero_point| at most 2^23; nothing else changes (uint2 tail, bytes behind the elements). If scalar and vector loops are compiled alike the result does not depend on kernel set, thread count or schedule and the fused call equals quantize followed by dequantize. If only one of them is contracted the result of the same call depends on the number of threads.", "quantifier": "all four ways to compile the loops, all kernel sets, buffers, scales, zero points, thread counts, schedules", "why_tests_cant": "a test runs one binary of one compiler; the claim is about every binary the sources may become", "anchors": ["CMakeLists.txt: kernel compile flags", "src/kernels/kernels_specialized.inl: dequant_uint8_to_f32, dequant_uint8_to_bf16, dequant_uint4_to_f32", "src/kernels/dequantize.inl: dequant_generic", "src/kernels/kernels.inl: requant_generic"]}
{"id": "C47", "title": "Chunked processing equals one call", "statement": "Quantizing a tensor in two calls, cut where the packed format has a byte boundary, gives exactly the bytes of one call on the whole tensor, whatever kernel set, thread count, output address and schedule each of the three calls uses (stochastic rounding: for equal thresholds) - away from the exceptional values of C10; and for every data, scale and zero point whatsoever with stochastic rounding, or with nearest rounding if each element is handled by the same kind of loop in the chunk as in the whole call (the whole call is undefined exactly if one of the chunks is). Dequantizing in two calls gives exactly the bytes of one call for f32 (set and add, |zero_point| <= 2^30), and for bf16 without AVX-512 kernels (|zero_point| <= 2^22); the fused call on f32 or bf16 may be cut at any element, for every data, scale and zero point. With AVX-512 kernels dequantizing uint4 to bf16 in chunks is not bit-identical to one call.", "quantifier": "all tensors, cut points on a byte boundary, parameters, kernel sets, thread counts, addresses, schedules", "why_tests_cant": "relates three calls for every split point, size and thread count", "anchors": ["include/piquant.hpp: context::quantize, dequantize, quantize_dequantize_fused", "src/piquant.cpp: job_entry", "src/kernels/quantize.inl", "src/kernels/dequantize.inl"]}
{"id": "C48", "title": "dequantize keeps the order of the codes", "statement": "For a finite positive scale a larger code never dequantizes (set, f32) to a smaller float, even where results overflow to infinity, and equal codes give equal floats; for scales in the normal range a larger code gives a strictly larger float, so different codes stay distinguishable. A negative scale reverses the order. To bf16 (scale 2^-120..2^100, zero point in the code range): a larger code never gives a smaller value, a larger uint2 or uint4 code a strictly larger one; equal codes give equal values except for uint2 and uint4 on AVX-512. Different uint8 codes can give the same bf16 (254 and 255 with scale 1.0078125).", "quantifier": "all code buffers, scales, zero points, kernel sets, threads, schedules, pairs of elements", "why_tests_cant": "monotonicity over all pairs of codes, scales and zero points", "anchors": ["include/piquant.hpp: context::dequantize", "src/kernels/dequantize.inl: dequant_step"]}
{"id": "C49", "title": "quantize is symmetric in sign and in powers of two", "statement": "Negating every element and mirroring the zero point (largest code minus zero point) mirrors every code, for nearest and (with equal threshold) stochastic rounding; multiplying all elements and the scale by the same power of two leaves every code unchanged as long as neither scale exceeds 2^126 (both away from the exceptional values of C10).", "quantifier": "all buffers, scales, zero points, exponents, types, rounding modes, kernel sets, threads, schedules", "why_tests_cant": "relates two runs for every input", "anchors": ["include/piquant.hpp: context::quantize", "src/kernels/quantize.inl: quantization step (nearest), quant_step_scalar_stochastic"]}
{"id": "C50", "title": "Computed parameters depend only on the data range", "statement": "compute_quant_config_from_data gives bit-identical parameters for any two buffers with the same smallest and largest element: reordering, repeating or dropping inner elements, storing the same range as bf16 instead of f32, another CPU (SSE4.2 excepted) or another cut into blocks change nothing; data with a wider range never gets a smaller scale.", "quantifier": "all pairs of finite non-empty buffers, types, block cuts, CPUs other than SSE4.2", "why_tests_cant": "relates all pairs of data sets and schedules", "anchors": ["src/piquant.cpp: compute_quant_config", "src/kernels/kernels_specialized.inl: find_min_max_f32, find_min_max_bf16"]}
{"id": "C51", "title": "Output bytes are visible to the caller when a call returns", "statement": "When quantize, dequantize or the fused call returns, the caller finds the complete result in its output buffer, on x86 CPUs that buffer stores and let streaming stores overtake later stores: for dequantize, fused calls and quantize calls without streaming stores (packed outputs, stochastic rounding, portable and NEON kernels, bf16 input except on AVX2) whatever way the pool signals the end of a job; for the uint8 vector kernels, which use streaming stores and no sfence, exactly when the pool's signal drains the write-combining buffers. With a plain-store signal every byte not written by a vector iteration is final, every other byte is old or final, and there is an execution in which all of them are still old.", "quantifier": "all inputs, sizes, thread counts, addresses, CPU kernel sets, all interleavings of worker steps and all orders in which buffered stores become visible", "why_tests_cant": "the set of store-visibility orders of all workers is unbounded and hardware rarely shows the late ones", "anchors": ["src/kernels/kernels_specialized.inl: _mm_stream_si128/_mm256_stream_si256 (78-81, 123, 158, 268)", "src/piquant.cpp: context::pimpl::operator()"]}
{"id": "C52", "title": "The documented round-trip tolerance", "statement": "After compute params (by any range scan other than the SSE4.2 one, which C23 shows to be wrong) -> quantize (nearest) -> dequantize with data at least 2^-112 wide whose range contains zero or misses it by at most half a step: float32 output is within scale*0.5+1e-3 of the data for every range up to 6 wide and every quantized type (the tolerance of the README example and the torch tests); bfloat16 output is within scale*0.5+0.01 for data in [-1,1] and within scale*0.5+0.005 for data in [0,1] and uint4/uint8. The documented scale*0.5+1e-3 is NOT guaranteed for bfloat16 output: three bf16 values in [-1,1] (uint8) and in [0,1) (uint4) miss it on every CPU. Codes equal a round-half-to-even reference (torch.quantize_per_tensor's rounding) of the same scaled value except at exact ties, where they are at most one off (and can be one off).", "quantifier": "all data, sizes, quantized types, CPU kernel sets, thread counts, schedules, block splits of the range scan", "why_tests_cant": "the tests use random data; the data that miss the tolerance are rare and type-specific", "anchors": ["README.md 43-61", "python/tests/test_torch.py test_quantize_roundtrip", "src/piquant.cpp: context::compute_quant_config_from_data, quantize, dequantize"]}
{"id": "C53", "title": "quantize agrees with the project's reference quantizer", "statement": "For uint8 and uint4 and nearest rounding, quantize writes byte for byte what the reference quantize_naive of the test suite writes, for every f32 or bf16 input outside the exceptional values of C10, every kernel set, thread count and schedule. With stochastic rounding of f32 data (scaled values below 2^30) the codes differ by at most one, whatever random numbers the reference's generator draws (they always lie strictly between 0 and 1). Limits of the reference itself: for uint2 it stores outside its output (undefined behaviour from two elements on), and for bf16 data with stochastic rounding it can be two codes away because it multiplies in bf16.", "quantifier": "all inputs, lengths, scales, zero points, thread counts, schedules, kernel sets and generator states", "why_tests_cant": "the tests compare random data of one seed; agreement on every input and every packed tail is a universal statement", "anchors": ["test/naive.hpp: quantize_naive, pack_nibbles, xs128p_state", "test/quant.cpp", "src/piquant.cpp: context::quantize"]}
{"id": "C54", "title": "Round trip of constant data", "statement": "Data whose elements all equal c get scale 1 and zero point floor(max code/2); quantize and dequantize (f32 or bf16 output) then return the same integer everywhere: t clipped to [-zp, max code - zp], where t is c rounded half away from zero (nearest) or one of the two integers next to c, the same one for all elements (stochastic). Integers in that range come back exactly; with nearest rounding other values in that range come back within 1/2, and values outside it are clipped (arbitrarily far away).", "quantifier": "all constants below 2^30 in magnitude (except +-(0.5-2^-25) with nearest rounding), lengths, dtypes, rounding modes and thresholds, CPUs, thread counts, schedules, block splits", "why_tests_cant": "one test uses the constant 42 only", "anchors": ["src/piquant.cpp: compute_quant_config (r_max == r_min)", "test/quant.cpp: requantize_float_to_uint8_identity_data"]}
{"id": "C55", "title": "Accumulating many quantized buffers (quantized all-reduce)", "statement": "Adding k packed buffers one after the other into one f32 buffer with dequantize(add) - any mix of quantized dtypes, scales, zero points, CPUs and thread counts - leaves in every element the left-to-right f32 sum of the old value and the k dequantized values, bit for bit, and no other byte changes. That sum is within ((1+2^-24)^(k+1) - 1) times the sum of the magnitudes of the exact sum, and finite, as long as the magnitudes stay below 2^127. If the old value and the scales are integer multiples of one power of two and the integers add up to at most 2^24, nothing is rounded and the order of the buffers does not matter. If every peer quantized its own data (f32 or bf16, either rounding mode) with parameters that cover them - the library's own computed parameters do when the data straddle zero (SSE4.2 scan excepted, C23) - the result is within the sum of the peers' code errors (scale/2 or scale, plus 2^-12) plus that f32 term of the exact sum of the original values. (Last n mod 4 elements of a uint2 buffer excepted, C08.) With a bf16 accumulator the result is finite and within the sum over the peers of scale*(1/2 or 1, plus 2^-11) + (|x|+2*scale)/126 + 2^-126, plus ((1+1/250)^k - 1) times the sum of all magnitudes, of the exact sum, for every kernel set and mixture of paths, uint2 tails included, as long as the magnitudes stay below 2^118.", "quantifier": "all k, buffers, dtypes, scales, zero points, lengths, CPUs, thread counts, schedules of every call", "why_tests_cant": "no test accumulates more than once; the bound ranges over all numbers of peers and all floats", "anchors": ["src/piquant.cpp: dequantize, quantize", "src/kernels/dequantize.inl: dequant_generic (reduce_op::add)", "src/kernels/kernels_specialized.inl: dequant kernels, add branches"]}
{"id": "C56", "title": "End-to-end accuracy of the fused call and of accumulation; the project's own acceptance tests hold for all data", "statement": "(1) A value inside the representable range, passed through the fused quantize-dequantize call (set or add, f32 or bf16, nearest or stochastic), ends up within scale/2 (nearest) or one scale (stochastic), plus 2^-12 scale, plus a stated storage error (f32 set: 0; f32 add: 2^-23 of the magnitudes; bf16: 1/127 of the magnitude, add: 1/250 of the magnitudes more), of x (set) or old + x (add), and is finite. (2) The same for quantize followed by dequantize(add), with 1/256 for bf16 (last n mod 4 elements of uint2 to f32 excepted, C08). (3) Hence the checks of test/requant.cpp, test/dequant.cpp and test/quant_config.cpp - parameters computed from data in [-1, 1], result minus previous content compared with the input, tolerances 0.7/0.2/0.1 and 2.0/0.2/0.05, scale positive and finite, quantize succeeds - pass for every data set in [-1, 1] whose range contains zero and is at least 2^-112 wide, for every combination they instantiate, not only for the random draws (SSE4.2 scan excepted, C23), even with 0.01 less tolerance. The uint2 tolerance of test/dequant.cpp is so wide that the elements the code overwrites instead of adding to (C08) pass as well, so that test cannot see that defect.", "quantifier": "all data, lengths, scales, zero points, dtypes, modes, thresholds, previous contents, block splits, CPUs, thread counts, schedules", "why_tests_cant": "the tests draw 10 (100) random vectors of 5000 to 15000 values per combination, with 4 threads, on one CPU", "anchors": ["test/requant.cpp", "test/dequant.cpp", "test/quant_config.cpp", "src/kernels/kernels.inl: requant_generic", "src/kernels/dequantize.inl: dequant_generic", "include/piquant.hpp: bfp16_t operators"]}
{"id": "C57", "title": "The Python workflow compute_quant_params, quantize, dequantize reproduces the tensor", "statement": "For a float32 or bfloat16 tensor with finite values whose range contains zero, is at least 2^-112 and at most 2^100 wide: torch.compute_quant_params succeeds with a positive scale of at most (max-min)/(2^bits-1) (relative 1e-6) and a zero point that is a code; torch.quantize with these parameters (the scale passing through a Python float unchanged) succeeds for every quantized dtype and both rounding modes and gives a tensor of the same shape; torch.dequantize of that tensor with the same parameters to float32 or bfloat16 succeeds and every element is finite and within scale/2 (nearest) or one scale (stochastic) of the original, plus 2^-11 scale, plus for bfloat16 results 1/256 of (|x| + 2 scale). Exceptions: the SSE4.2 parameter scan (C23); and quint2x4 to float32, where a tensor whose last dimension is a multiple of 4 always makes the library read one byte past the tensor's storage (C09).", "quantifier": "all tensors, shapes, dtypes, rounding modes, thresholds, block splits, CPUs, thread counts, schedules; contents of the uninitialised output tensors", "why_tests_cant": "the Python tests use a handful of shapes and random normal data on one machine", "anchors": ["python/src/piquant/torch.py: compute_quant_params, quantize, dequantize", "python/src/piquant/__init__.py: Context", "src/piquant.cpp: compute_quant_config_from_data, quantize, dequantize"]}
{"id": "C58", "title": "Strided tensors are processed by their logical elements", "statement": "For every strided view of a float storage (transposes, slices with steps, offsets, broadcasts with stride 0): torch.compute_quant_params uses exactly the elements of the view (nothing else in the storage), torch.quantize puts the code of the element at every multi-index at the row-major position of that multi-index in the result, and the workflow of C57 reproduces each element there within the same error; torch.dequantize of a strided view of 8-bit codes likewise gives (code - zero point) * scale for the code at every multi-index. Distinct multi-indices have distinct positions and every position of the result is covered.", "quantifier": "all shapes, strides, offsets, storages, dtypes, modes, CPUs, thread counts, schedules", "why_tests_cant": "the Python tests use only contiguous tensors", "anchors": ["python/src/piquant/torch.py: compute_quant_params, quantize, dequantize (is_contiguous / contiguous)"]}
{"id": "C59", "title": "Which calls work when the output overlaps the input", "statement": "quantize_dequantize_fused may be called with its output buffer equal to its input buffer: for all data, parameters, modes, dtypes, thread counts and schedules it leaves what it would have produced from a separate copy of the input (set and add), and touches nothing else. On a context with one thread, quantize and quantize_dequantize_fused may be called with an output that starts at or anywhere below the start of the input. Nothing beyond that holds: in-place quantize with two threads gives schedule-dependent, wrong codes, in-place dequantize overwrites codes before it reads them, and an output above the input is wrong even with one thread. (At the level of loop iterations: the kernels declare their pointers restrict.)", "quantifier": "all data, scales, zero points, modes, dtypes, kernel sets, addresses, thread counts and schedules", "why_tests_cant": "the tests use separate buffers; a race shows only in some schedules", "anchors": ["src/kernels/kernels.inl: requant_generic", "src/kernels/quantize.inl: quant_generic", "src/piquant.cpp: job_entry, quantize, quantize_dequantize_fused"]}
{"id": "C60", "title": "Native contexts live exactly as long as they are used from Python", "statement": "In every history of any number of Python threads that create Context objects, call Context.get(), call methods, re-run __init__, copy and drop references, and whatever the garbage collector does: a native call is only made on a context that has been created and not destroyed, and a context is only destroyed when no call on it is in progress and its object can never be used again; each context is destroyed at most once, and exactly once when the exit handlers have finished, which they do. Context.get() returns one object for the whole program if no thread calls it while another still builds the context. Refuted: calls that run or start while the interpreter exits may use a destroyed context; overlapping first calls of get() make two contexts; an exception between creating the native context and registering its finalizer leaks it.", "quantifier": "all histories of all threads, garbage-collection points, exceptions and exit points", "why_tests_cant": "lifetimes depend on the schedule, the collector and the moment of exit", "anchors": ["python/src/piquant/__init__.py: Context.__init__, Context.get, quantize_ptr, dequantize_ptr, compute_quant_params_ptr_float32, compute_quant_params_ptr_bfloat16", "python/src/piquant/torch.py: default arguments ctx", "src/capi.cpp: piquant_context_create, piquant_context_destroy"]}
{"id": "C61", "title": "Repeated round trips do not degrade a tensor, unless zero falls between two codes", "statement": "Take a packed tensor in which the smallest and the largest code both occur (scale between 2^-110 and 2^90, zero point within the code range), dequantize it to f32, let compute_quant_config_from_data choose parameters for the result, and quantize the result (nearest) with them: the three calls complete, the zero point is unchanged, the scale is unchanged up to a relative 2^-22 and every code comes back. So up to 2^20 such trips, each on any CPU with any thread counts, leave zero point and codes as they were, and the scale within k*2^-21 of itself. A tensor made from f32 or bf16 data whose range includes 0 is of this kind, and therefore stable, if -lo*(2^bits-1)/(hi-lo) is not within 2^-12 of a half-integer. Refuted otherwise: {-1, 1} with uint4 shrinks to 0.933, 0.871 and 0.813 in three trips. For uint2 and uint4 the same holds when each trip may go through bf16 or f32: up to 1000 trips keep zero point and codes, and the scale within (199/200)^k .. (201/200)^k of itself. Refuted for uint8 through bf16: codes {0, 96, 255} become {0, 97, 255}.", "quantifier": "all packed buffers, scales, zero points, thread counts, block cuts, schedules, kernel sets and numbers of trips", "why_tests_cant": "the tests make one trip, with tolerances of half a step; a drift of the parameters accumulates only over many trips and depends on the data", "anchors": ["src/piquant.cpp: compute_quant_config, quantize, dequantize", "src/kernels/quantize.inl: quantization step (nearest)", "src/kernels/dequantize.inl: dequant_step"]}
{"id": "C62", "title": "The units and the sign convention of the data do not matter", "statement": "Multiplying every element by 2^k (f32 or bf16; both ranges between 2^-118 and 2^100 wide) multiplies the computed scale by 2^k exactly and leaves the computed zero point; quantizing with these parameters, nearest or stochastic, gives the same codes, and dequantizing to f32, or to bf16 (except uint4 and uint2 with AVX-512 kernels, and uint8 with AVX512-BF16 kernels), gives 2^k times the values, exactly. Negating every element of data whose range includes 0 leaves the computed scale and mirrors the zero point (largest code minus zero point), mirrors the codes and negates the dequantized values exactly, provided -lo*(2^bits-1)/(hi-lo) is not within 2^-12 of a half-integer. Refuted otherwise: {-3, 3} with uint4 decodes -3 as -3.2, but in the negated data 3 as 2.8. With AVX-512 kernels negation fails for bf16 output: codes 3 with zero point 3 and their mirror images, codes 12 with zero point 12, both decode to small negative numbers. (Codes: away from the exceptional values of C10.)", "quantifier": "all data, exponents, types, rounding modes, kernel sets other than SSE4.2 for the scan, block cuts, thread counts, schedules", "why_tests_cant": "the tests use one magnitude of data; exactness of a relation between two runs must hold for every input", "anchors": ["src/piquant.cpp: compute_quant_config, quantize, dequantize", "src/kernels/quantize.inl", "src/kernels/dequantize.inl"]}
{"id": "C63", "title": "Flush-to-zero mode of the host process does not change the results", "statement": "The library does not touch the denormal bits of the floating-point unit (x86 DAZ/FTZ, Arm FZ); a host process may set them, per thread. For every combination of modes of the calling thread and the workers: quantize, dequantize (SET) and the fused call (SET) with a scale between 2^-60 and 2^126 have exactly the same memory effects as in IEEE mode, for every input including denormals, infinities and NaN, every zero point and (stochastic) every threshold of at least 2^-64, i.e. every threshold the generator draws except 0; compute_quant_config_from_data returns the same scale and zero point if the data range is at least 2^-50 wide, or the data is constant and not denormal (SSE4.2 scan excepted). So for data with a range between 2^-50 and 2^127 the whole workflow is unaffected. Refuted otherwise: ADD onto a denormal accumulator, a denormal scale, the threshold 0, data that is entirely denormal.", "quantifier": "all inputs, types, sizes, addresses, thread counts, kernel sets, zero points, rounding modes, block cuts and assignments of floating-point modes to threads", "why_tests_cant": "the tests run in one mode; denormal inputs and every combination of per-thread modes cannot be enumerated", "anchors": ["src/piquant.cpp: context::context (pool threads), compute_quant_config, quantize, dequantize, quantize_dequantize_fused", "src/kernels/kernels_specialized.inl", "src/kernels/quantize.inl", "src/kernels/dequantize.inl", "src/kernels/kernels.inl"]}
{"id": "C64", "title": "What a rejected call prints is the right diagnosis", "statement": "A call with a wrong dtype or buffer size aborts after printing exactly one line, in red, of the form <file>:<line> Assertion failed: <condition> <- <message>. For every source path of at most 7000 characters and every size the line is complete (no truncation, no stray character) and tells the truth: quantize names the offending dtype or gives the number of bytes it needs, the number of elements, the dtype, its bit width and the number of bytes it got; dequantize gives the bytes needed, dtype, elements and bytes got for a wrong size; the fused call gives both sizes; compute_quant_config_from_data names the non-quantized target type. Numbers are printed in ordinary decimal up to 2^64-1. Not true, and proved so: dequantize with a wrong dtype names the other dtype; a text of 8188 characters or more makes panic write outside its 8192-byte buffer; by the letter of the C standard the wrong-size message of quantize is undefined (a size_t passed to %u; the message is right on LP64 ABIs), and so is the message for a missing kernel (a std::string_view passed to %s), which no public call reaches.", "quantifier": "all source paths up to 7000 characters, all dtypes, all input and output sizes a caller can pass", "why_tests_cant": "The text depends on unbounded sizes and on the path the library was built under; a test sees one message, and death tests usually do not compare the text.", "anchors": ["src/piquant.cpp:panic", "src/piquant_internal.hpp:piquant_assert", "src/piquant.cpp:context::quantize", "src/piquant.cpp:context::dequantize", "src/piquant.cpp:context::quantize_dequantize_fused", "src/piquant.cpp:compute_type_max", "src/kernels/kernels.inl:dispatch_quantize"]}
{"id": "C65", "title": "The computed parameters are near optimal, unless zero lies outside the data's range", "statement": "Take any scheme that represents f32 tensors by codes of the target type (2^bits codes, each with an arbitrary real meaning; codes and meanings may be chosen per tensor) and guarantees an error of at most E for every tensor with minimum lo and maximum hi. If lo <= 0 <= hi and the width is between 2^-118 and 2^100, then E is at least (hi-lo)/2^(bits+1) (less 2^-14 of it), that bound is attained by some scheme, and the error of compute_quant_config_from_data + quantize(nearest) + dequantize is at most 2^bits/(2^bits-1) * (1+2^-10) * E, i.e. 4/3 (uint2), 16/15 (uint4), 256/255 (uint8) of the best possible guarantee. Not true when zero is outside the range, and proved so: for every factor K, on every tensor whose minimum is at least (K+2) times the width of its range, every element that dequantize can return with the computed parameters, whatever the codes, is wrong by at least K times (hi-lo), which a one-code scheme guarantees.", "quantifier": "all f32 tensors, all coding schemes with the same number of codes, all factors K, CPUs (SSE4.2 parameter scan excepted, C23), block splits, thread counts, schedules", "why_tests_cant": "Optimality compares the library with every other coding scheme, not with a reference output.", "anchors": ["src/piquant.cpp:compute_quant_config", "src/piquant.cpp:context::compute_quant_config_from_data", "src/piquant.cpp:context::quantize", "src/piquant.cpp:context::dequantize"]}
{"id": "C66", "title": "Replicas of a tensor stay bit-identical across CPUs, except bf16 on unequal AVX-512 machines", "statement": "Peers that start from the same f32 tensor and apply the same sequence of events - dequantize a received message into it (set or add), or compute parameters for it, quantize it (nearest) and replace it by the dequantized codes - end with byte-for-byte the same tensor, and no call aborts or is undefined, whatever CPU, thread counts, output addresses, cuts into blocks, schedules and scratch contents each peer uses for each event (computing parameters on SSE4.2 excepted, C22). The same holds for bf16 tensors if no peer dequantizes on an AVX-512 CPU, or if all peers have the same kernel set and thread count. Conditions: messages have a supported zero point (|zp| <= 2^30, bf16 2^22) and a finite scale, and are added to finite tensors only; a requantized tensor is finite, its range includes 0 with width 2^-118..2^100, and no scaled element is the float next below one half (C10). With AVX-512 on some bf16 peers only, or with one thread on one and two on another AVX-512 peer, it is false, and proved so: one uint4 message of 128 codes makes one peer store -7.5e-9 where the other stores 0.", "quantifier": "all tensors, event sequences of any length, CPUs per event and peer, thread counts, addresses, block cuts, schedules", "why_tests_cant": "Parity between machines over a whole history depends on every kernel set, thread count and schedule; a test runs on one CPU.", "anchors": ["src/piquant.cpp:context::quantize", "src/piquant.cpp:context::dequantize", "src/piquant.cpp:context::compute_quant_config_from_data", "src/kernels/kernels_specialized.inl", "src/kernels/dequantize.inl", "src/kernels/quantize.inl"]}
{"id": "C67", "title": "A round trip keeps the ranking of the elements", "statement": "Quantize a tensor (nearest or stochastic, positive scale, zero point in the code range) and dequantize the result to f32 or bf16: an element that was not larger than another does not come back larger, so the place of the maximum (minimum) still holds a maximum (minimum) and a sorted tensor stays sorted. Two representable elements more than 1 + 2^-12 steps apart (2 + 2^-12 with stochastic rounding) come back different and in the same order - except through uint8 to bf16, where neighbouring codes can coincide. The order can be violated (by less than a step) only when uint2 or uint4 codes are decoded to bf16 on AVX-512: of 129 zeros with scale 0.1 and zero point 3 the last comes back as 0, the first 128 as a negative number. The fused f32 call keeps the ranking as well. Conditions on the data as in C01 (nearest: no scaled value +-(0.5-2^-25) on x86).", "quantifier": "all tensors, scales, zero points, quantized types, float types, rounding modes, thresholds, kernel sets, thread counts, schedules, pairs of elements", "why_tests_cant": "It relates every pair of elements, on every combination of vector and scalar paths in the two calls; a test compares a few pairs on one CPU", "anchors": ["src/piquant.cpp: context::quantize, context::dequantize, context::quantize_dequantize_fused", "src/kernels/quantize.inl: quant_generic", "src/kernels/dequantize.inl: dequant_generic", "src/kernels/kernels_specialized.inl"]}
{"id": "C68", "title": "Weighted sums, sums and squared distances survive a round trip up to the element error", "statement": "Quantize representable data (nearest or stochastic, positive scale, zero point in the code range), or any finite data with parameters computed from it, and dequantize the result. For every weight vector the weighted sum (dot product) of what comes back differs from that of the data by at most the sum of |weight| times the error of one element: half a step (nearest) or a step (stochastic), a margin of 2^-12 steps (2^-11 with computed parameters), and half a bf16 ulp if the output is bf16. So for f32 output a sum of n elements is off by at most n times the element error and the squared distance is at most n times its square. The factor n is real: errors of one sign do not cancel - n elements equal to 1/2, quantized with scale 1 and zero point 0, come back as n ones, whatever the CPU, types and threads, so the sum doubles.", "quantifier": "all tensors, weights, scales, zero points, quantized types, float types, rounding modes, thresholds, kernel sets, thread counts, schedules", "why_tests_cant": "a bound over all weight vectors and all data; tests compare elements of random data, where errors cancel", "anchors": ["src/piquant.cpp: context::quantize, context::dequantize, context::compute_quant_config_from_data", "src/kernels/quantize.inl", "src/kernels/dequantize.inl"]}
{"id": "C69", "title": "Kernel sets compiled for different CPUs share one binary without leaking into each other", "statement": "The library links kernel sets compiled for the baseline, SSE4.2, AVX2, AVX-512 and AVX-512-BF16 into one binary; inline functions from headers that several units use exist once, and the linker decides whose copy is kept. Whatever the compiler expands in place and whichever shared copies it emits: with the order of the project's sources and a linker that keeps the first copy, all code that runs inside the kernels of the selected set, on the CPU for which it was selected, and inside the API functions on any CPU, uses only instructions that CPU has, and every call has a target; the same holds for every order of object files in which the instruction sets grow. The kernels that run are those of the selected set whatever copies the linker keeps. False for a linker that keeps the last copy, for a static library (member order puts the generic unit after SSE4.2), and for code that runs at load time; and dispatching through the inline tables make_quant_row<...>::value at run time, instead of the per-unit arrays copied from them by the compiler, would run other sets' kernels.", "quantifier": "all CPUs (CPUID register contents), all outcomes of inlining (which unit emits which shared function, all call graphs), all call chains, all linkers (last part)", "why_tests_cant": "the failure depends on the compiler's inlining, the link order and a CPU older than the test machine", "anchors": ["CMakeLists.txt: QUANT_SOURCES, set_file_opts", "src/kernels/kernels.inl: impl_namespace, make_quant_row, quant_functions", "src/kernel_generic.cpp", "src/amd64/", "src/piquant.cpp: context::pimpl::pimpl"]}
{"id": "C70", "title": "Ring reduction: error of a running sum that is quantized at every hop", "statement": "The running sum travels round a ring of N+1 workers: the sender quantizes it (any quantized type, either rounding mode), the receiver adds the packed buffer to its own f32 data with dequantize(add) and becomes the next sender. If the parameters of each hop cover the values it quantizes, no call aborts or is undefined, every element stays finite, and the final element is within the sum over the hops of scale*(1/2 or 1, plus 2^-12), plus ((1+2^-24)^(2N) - 1) times the sum of all magnitudes, of the exact sum of all workers' elements. Ranges planned in advance suffice: hop k needs to cover only the sum of the magnitudes and errors added before it, times (1+2^-24)^(2k), in both directions. If instead every sender uses the parameters the library computes from its running sum (which straddles zero; CPU other than SSE4.2), then with all data at most M in magnitude the final sum is within M/c*((1+c)^(N+1) - 1) - (N+1)*M of the exact sum, where c = 1.001/(2^bits - 1) for nearest and twice that for stochastic rounding: the error grows with the square of the number of workers, about c*M*N(N+1)/2. Holds for every mixture of CPUs, thread counts, types and modes round the ring. (uint2 hops: number of elements a multiple of 4, C08.)", "quantifier": "all numbers of workers, tensors, lengths, types, parameters, rounding modes and random bits per hop, CPUs, thread counts, addresses, block cuts, schedules of every call", "why_tests_cant": "errors of hops accumulate over rings of any length and any data; a test sees one ring", "anchors": ["README.md: ring-reduction operations", "include/piquant.hpp: context::quantize, context::dequantize, reduce_op::add, context::compute_quant_config_from_data", "src/kernels/quantize.inl: quant_generic", "src/kernels/dequantize.inl: dequant_generic", "src/piquant.cpp: context::quantize, context::dequantize, compute_quant_config"]}
{"id": "C71", "title": "Converting a packed tensor to another type, scale or zero point", "statement": "Dequantize a packed tensor to f32 (set) and quantize the result with nearest rounding to the same or another quantized type, with another zero point and a scale m times the old one (m odd, 1..255, exact up to a relative 2^-23). Each new code is the integer nearest to (old code - old zero point)/m plus the new zero point, clamped to the new type's code range: the two calls have the effect of integer arithmetic on the codes, and no float rounding shows. Hence with the same scale only the zero point moves and codes saturate; widening (uint2 to uint4 or uint8, uint4 to uint8) keeps every code; narrowing over the same range (uint8 to uint4 with m = 17, uint8 to uint2 with m = 85, uint4 to uint2 with m = 5, zero point a multiple of m) gives the nearest code of the smaller type and nothing saturates. On every CPU pair, with any thread counts.", "quantifier": "all packed tensors, lengths, pairs of quantized types, scales, zero points (|old| <= 2^16, |new| <= 2^22), odd ratios, CPUs, thread counts, addresses, schedules of both calls", "why_tests_cant": "a tie or a rounding error of one product at one scale would move a code by one; the scales cannot be enumerated", "anchors": ["include/piquant.hpp: context::quantize, context::dequantize", "src/kernels/quantize.inl: quant_step_scalar_nearest, quant_generic", "src/kernels/dequantize.inl: dequant_step, dequant_generic", "src/kernels/kernels_specialized.inl"]}
{"id": "C72", "title": "Data outside the representable range are clipped; parameters calibrated on other data", "statement": "For a positive scale and a zero point in the code range, quantizing any finite data (whose scaled values stay below 2^30) and dequantizing gives, for each element, an error of at most the usual one (half a step for nearest, a step for stochastic rounding, a margin of 2^-11 steps, half a bf16 ulp for bf16 output) plus the distance of the element from the representable interval [(0 - zp - 1/2) scale, (2^bits - 1 - zp + 1/2) scale]: one outlier costs only its own distance, saturates on the right side and disturbs no other element. With parameters the library computed from calibration data of range [lo, hi] containing zero (CPU other than SSE4.2), used on any other tensor, the error is at most the usual one (margin 2^-10 steps) plus the distance of the element from [lo, hi].", "quantifier": "all tensors, lengths, scales, zero points, quantized types, float input and output types, calibration tensors and block cuts, rounding modes, thresholds, CPUs, thread counts, addresses, schedules", "why_tests_cant": "the tests only quantize data the parameters were computed from; saturation after rounding and after adding the zero point must be right for every outlier of every size", "anchors": ["include/piquant.hpp: context::quantize, context::dequantize, context::compute_quant_config_from_data", "src/kernels/quantize.inl: quant_generic, quant_step_scalar_nearest, quant_step_scalar_stochastic", "src/kernels/kernels_specialized.inl", "src/piquant.cpp: compute_quant_config"]}
{"id": "C73", "title": "Block-wise quantization: parameters computed per block", "statement": "Cut a tensor of finite f32 or bf16 values into blocks and quantize every block with the parameters computed from that block. The step of a block that is not constant is at most the step of the whole tensor, whatever the CPU (SSE4.2 excepted, C20), block cuts of the two scans and type. Hence if the values of a block straddle zero, its elements come back within the error bound of the whole tensor's parameters (C23). Packed blocks, all but the last of which fill whole bytes, take together exactly the bytes of the packed tensor. Not true, and proved so, of two kinds of blocks: a block whose elements all equal c with |c| < 1/2 comes back as zeros (constant data get scale 1), and in a positive block whose minimum is at least 3 times its width every element loses more than half of its value, whatever codes are stored.", "quantifier": "all tensors, block positions and lengths, float and quantized types, rounding modes, thresholds, CPUs, thread counts, scan cuts, schedules", "why_tests_cant": "a comparison between two sets of parameters over all tensors and all blocks in it; the tests compute parameters once per tensor", "anchors": ["include/piquant.hpp: context::compute_quant_config_from_data, context::quantize, context::dequantize", "src/piquant.cpp: compute_quant_config", "src/kernels/quantize.inl", "src/kernels/dequantize.inl"]}
{"id": "C74", "title": "Integer arithmetic on the stored codes: quantized sums and dot products", "statement": "Quantize two tensors of n elements (f32 or bf16, any quantized types, nearest or stochastic rounding, on any CPUs), each either with a positive scale, a zero point in the code range and data in the representable range, or with parameters the library computed from its data (range containing zero). Then scale1*scale2 times the integer sum of (code1-zp1)*(code2-zp2) differs from the real dot product of the data by at most the sum over i of |x_i|*e2 + |y_i|*e1 + e1*e2, where e = scale*(1/2 or 1, plus 2^-12); scale*(sum of codes - n*zp) differs from the sum of the data by at most n*e. The integer is at most n times the product of the largest codes in magnitude, so a signed 32-bit accumulator is enough for 33025 elements of uint8, and equals sum code1*code2 - zp2*sum code1 - zp1*sum code2 + n*zp1*zp2.", "quantifier": "all tensors, lengths, float and quantized types, scales, zero points, rounding modes, thresholds, CPUs, thread counts, addresses, scan cuts, schedules", "why_tests_cant": "a bound for all pairs of tensors; the repository has no test on the codes' arithmetic meaning beyond the round trip", "anchors": ["include/piquant.hpp: context::quantize, context::compute_quant_config_from_data", "src/kernels/quantize.inl", "src/kernels/kernels_specialized.inl", "src/piquant.cpp: compute_quant_config"]}
{"id": "C75", "title": "Error feedback: sending what was lost with the next message keeps the total error at one code error", "statement": "A sender transmits a tensor in every round (for example gradients): it adds the residual of the previous round to the new data (f32 addition), quantizes the sum, the receiver decodes it with dequantize(set), and the sender keeps the difference between the sum and the decoded tensor (f32 subtraction) as the next residual. If the data have magnitude at most M and every round's code error (half a step, or a step if stochastic, plus 1/1024 step) is at most E, with parameters whose range covers (1+2^-24)(M + (1+2^-24)E), then no call of any round fails, the residual stays at most (1+2^-24)E, and after any number T of rounds the total of the decoded tensors differs from the total of the data by at most the initial and the final residual plus f32 rounding T*2^-24*(M+3E): one code error in all, not one per round. With parameters computed by the library in every round from the sum (straddling zero) the same holds with E = c M/(1-c), where c < 1 bounds the rates 1/(2^bits-1) (nearest) or 2/(2^bits-1) (stochastic) times 1.0025. Without the feedback the errors can pile up: rounds that each send the value 1/2 with scale 1 and zero point 0 are half a step off per round.", "quantifier": "all numbers of rounds, tensors, thread counts, CPUs, quantized types, parameters and rounding modes per round", "why_tests_cant": "The claim is about histories of any length; drift shows only after many rounds, and every round may use another CPU, type and rounding mode.", "anchors": ["src/piquant.cpp: context::quantize, context::dequantize, context::compute_quant_config_from_data", "src/kernels/quantize.inl", "src/kernels/dequantize.inl", "README.md"]}
{"id": "C76", "title": "The order in which packed buffers are accumulated changes the result only by rounding", "statement": "Two receivers hold equal f32 tensors and add the same packed buffers (same bytes, type, scale and zero point) with dequantize(add), but in different orders, on different CPUs, with different thread counts. No call fails, and element by element the two results differ by at most 2((1+2^-24)^k - 1) times the sum of the absolute values of the old element and of the k decoded values. If the old value and all scales are integer multiples of one power of two and the absolute integers add up to at most 2^24, the results are equal whatever the order. In general the bits do depend on the order: buffers that decode to 2^24, 1 and -2^24 accumulate to 0 in that order, and to 1 if the last two are exchanged.", "quantifier": "all numbers of buffers, all permutations of them, all tensors, sizes, quantized types, scales, zero points, CPUs and thread counts", "why_tests_cant": "The number of orders grows factorially with the number of messages, and arrival order in an all-reduce is decided by the network.", "anchors": ["src/piquant.cpp: context::dequantize", "src/kernels/dequantize.inl", "README.md: line 29"]}
{"id": "C77", "title": "Stochastic messages of independent senders average out; with equal generator outputs they do not", "statement": "n senders quantize tensors with stochastic rounding, each with a generator of its own, and a receiver adds the decoded values of an element (unclipped at every sender). Over all (2^64)^n combinations of generator outputs the mean of the sum is the sum of the true values up to 2^-23 of the steps and 2^-22 of the magnitudes, and the mean-square deviation is at most a quarter of the sum of the squared steps: the variances add up, so the mean of n messages with steps at most S has mean-square deviation at most S^2/(4n), whatever CPUs, thread counts, types and parameters the senders use. If instead all generators give the same output (contexts with equal seeds), the mean of n equal messages keeps the mean-square error S^2 f(1-f) of a single message, however large n is, and is off by at least S*min(f,1-f) (less f32 terms) for every output. The f32 tensor the receiver really computes with dequantize(add) of the n buffers, from any starting value, never fails and has this mean up to the f32 rounding term ((1+2^-24)^(n+1)-1) times the sum of the magnitudes that can arise, and mean-square error at most (1+e) times the quarter sum plus (1+1/e) times the squared bias, for every e>0. Large errors are exponentially rare: the sum is d or more off its mean for at most 2*exp(-d^2/(2*sum of squared steps)) of all combinations, the average of n messages with steps at most S for at most 2*exp(-n*d^2/(2*S^2)), and for at most S^2/(4*n*d^2). The same exponential bound, with the bias added to d, holds for the f32 value the receiver really ends up with, compared with the exact sum of the true values. Any of the first k elements of the receiver's tensor is that far off for at most k times as many combinations. With equal generator outputs at n equal senders that value is off for every output, by n times S*min(f,1-f) less f32 terms and the receiver's rounding.", "quantifier": "all numbers of senders, tensors, types, scales, zero points, CPUs, thread counts per sender and output, all combinations of generator outputs", "why_tests_cant": "The claim is about the distribution over (2^64)^n combinations of generator outputs; samples can only estimate it.", "anchors": ["src/piquant.cpp: context constructor (seeding), quantize", "src/kernels/quantize.inl: stochastic step", "README.md"]}
{"id": "C78", "title": "A ring reduction with stochastic rounding is right on average, and the errors of its hops add up as variances", "statement": "The running sum of a tensor travels through m hops: a sender quantizes it with stochastic rounding (a generator of its own), the receiver adds the packed buffer to its own f32 tensor with dequantize(add) and sends the result on; senders may pick CPUs, thread counts, types, scales and zero points depending on what arrived. For an element that is never clipped, with running sums and own values at most B and steps at most S: over all (2^64)^m combinations of generator outputs the mean of the final f32 value is the exact sum up to m*B*2^-19, and the mean-square error is at most a quarter of the sum of the squared steps, plus m^2*2^-18*B*(S+2^-19*B) for f32 rounding. In the worst case (C70) the steps themselves add up. Large errors are exponentially rare: the final value is d + m*B*2^-19 or more off the exact sum for at most 2*exp(-d^2/(2*sum of squared steps)) of all combinations. Although the elements of a message share one generator output, this holds for whole tensors: the squared error of n elements is on average at most n times that of one, and the share of combinations for which any of them is off at most n times that of one.", "quantifier": "all numbers of hops, tensors, types, parameters, CPUs, thread counts and schedules per hop and per history, all combinations of generator outputs", "why_tests_cant": "The claim is about the distribution over (2^64)^m combinations of generator outputs, through a chain whose every message depends on the earlier outputs; samples can only estimate it.", "anchors": ["README.md: store modes, ring-reduction", "src/piquant.cpp: quantize, dequantize, context constructor (seeding)", "src/kernels/quantize.inl: stochastic step", "src/kernels/dequantize.inl: add"]}
