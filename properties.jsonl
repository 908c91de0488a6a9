{"id": "C01", "title": "HyperLogLogPlus::new accepts exactly precisions 4..=18", "statement": "HyperLogLogPlus::new(p, b) returns Ok exactly when 4 <= p <= 18 and Err(InvalidPrecision) for every other u8; it never panics, and a fresh sketch counts exactly 0.0.", "quantifier": "every u8 precision, every hash builder, every build configuration", "why_tests_cant": "needs all 256 precisions in every configuration, and exact equality of the float result for every accepted one", "anchors": ["src/hyperloglogplus.rs:HyperLogLogPlus::new", "src/hyperloglogplus.rs:MIN_PRECISION/MAX_PRECISION", "src/common.rs:register_count"]}
{"id": "C02", "title": "HyperLogLogPF::new accepts exactly precisions 4..=16", "statement": "HyperLogLogPF::new(p, b) returns Ok exactly when 4 <= p <= 16 and Err(InvalidPrecision) for every other u8; it never panics, and a fresh sketch counts exactly 0.0.", "quantifier": "every u8 precision, every hash builder, every build configuration", "why_tests_cant": "same as C01", "anchors": ["src/hyperloglog.rs:HyperLogLogPF::new"]}
{"id": "C03", "title": "No panic: HyperLogLogPlus", "statement": "On a 64-bit target no sequence of new/insert/insert_any/add/merge/count/clone/serialize+deserialize calls on HyperLogLogPlus sketches panics: no index out of bounds, no unwrap on None, no arithmetic or shift overflow, no unreachable!(). Hence debug and release builds agree.", "quantifier": "every history of API calls (including merges of sketches with their own histories), every hash function, every HashSet iteration order", "why_tests_cant": "the state space of histories is infinite and panics could depend on rare bit patterns of the hash", "anchors": ["src/hyperloglogplus.rs:insert_impl,merge,count,merge_sparse,sparse_to_normal,estimate_bias,threshold", "src/common.rs:set_greater,iter", "src/encoding.rs:DifIntVec::push,decode"]}
{"id": "C04", "title": "No panic: HyperLogLogPF", "statement": "On a 64-bit target no sequence of new/insert/insert_any/add/merge/count/clone/serialize+deserialize calls on HyperLogLogPF sketches panics.", "quantifier": "every history of API calls, every hash function", "why_tests_cant": "infinite histories", "anchors": ["src/hyperloglog.rs:insert_impl,merge,count", "src/common.rs:set_greater,iter"]}
{"id": "C05", "title": "count() does not depend on the pointer width", "statement": "A sketch fed the same values gives the same count() on 32-bit and 64-bit targets and does not panic on either. (Expected to fail at p >= 16: count*count is computed in usize.)", "quantifier": "every precision, every history, usize width 32 or 64, overflow checks on or off", "why_tests_cant": "tests run on a single 64-bit target", "anchors": ["src/common.rs:estimate_raw_plus (count * count)", "src/common.rs:estimate_raw"]}
{"id": "C06", "title": "Re-inserting a value is unobservable", "statement": "Inserting a value that (or whose hash) the sketch has already absorbed, directly or through a merge, changes no later count(): duplicates are counted once.", "quantifier": "every history, every value already absorbed, every continuation of the history, both sketch types", "why_tests_cant": "must hold at every point of every history, including around the hidden sparse-to-normal switch", "anchors": ["src/hyperloglogplus.rs:insert_impl", "src/hyperloglog.rs:insert_impl"]}
{"id": "C07", "title": "HyperLogLogPlus: count() is a function of the set of hashes", "statement": "Two HyperLogLogPlus sketches of the same precision whose histories absorbed the same set of 64-bit hashes return bit-identical count() values, whatever the order, the multiplicity, the grouping into merges, interleaved count() calls, serialization round trips, hash builders or HashSet iteration orders.", "quantifier": "every pair of histories with equal hash sets", "why_tests_cant": "the sparse-to-normal switch happens at history-dependent moments; only a proof that the encoded length is monotone shows the result cannot depend on it", "anchors": ["src/hyperloglogplus.rs:insert_impl,merge,merge_sparse,sparse_to_normal,count", "src/encoding.rs:VarIntVec::push"]}
{"id": "C08", "title": "HyperLogLogPF: count() is a function of the set of 32-bit hash suffixes", "statement": "Two HyperLogLogPF sketches of the same precision whose histories absorbed the same set of hashes modulo 2^32 return bit-identical count() values; the upper 32 bits of the hasher's output never matter.", "quantifier": "every pair of histories with equal sets of truncated hashes", "why_tests_cant": "infinite histories", "anchors": ["src/hyperloglog.rs:insert_impl,merge,count"]}
{"id": "C09", "title": "HyperLogLogPlus: merge is union", "statement": "After a.merge(&b) returns Ok, a behaves, for every later operation, exactly like a sketch of that precision that inserted everything a and b had absorbed: same count() bits, in all four sparse/normal combinations.", "quantifier": "every pair of histories of equal precision and every continuation", "why_tests_cant": "four representation combinations times infinite histories", "anchors": ["src/hyperloglogplus.rs:merge"]}
{"id": "C10", "title": "HyperLogLogPF: merge is union", "statement": "After a.merge(&b) returns Ok, a behaves exactly like a sketch that inserted everything a and b had absorbed.", "quantifier": "every pair of histories of equal precision", "why_tests_cant": "infinite histories", "anchors": ["src/hyperloglog.rs:merge"]}
{"id": "C11", "title": "merge is commutative, associative and idempotent up to count()", "statement": "count() after merging in any order or grouping, or merging the same sketch repeatedly or a clone of itself, is the same; merging an empty sketch is a no-op.", "quantifier": "every two or three histories of equal precision, both sketch types", "why_tests_cant": "algebraic laws over all states", "anchors": ["src/hyperloglogplus.rs:merge", "src/hyperloglog.rs:merge"]}
{"id": "C12", "title": "merge rejects exactly mismatched precisions and leaves self untouched", "statement": "merge returns Err(IncompatiblePrecision) iff the precisions differ, and in that case self is unchanged; the precision and the builder of self never change under any operation.", "quantifier": "every pair of sketches", "why_tests_cant": "all pairs of states", "anchors": ["src/hyperloglogplus.rs:merge", "src/hyperloglog.rs:merge"]}
{"id": "C13", "title": "count() is observationally pure", "statement": "Although count() takes &mut self and may reorganise or convert the representation, calling it any number of times at any moments changes no later result; calling it twice in a row returns the same bits.", "quantifier": "every history, every placement of extra count() calls", "why_tests_cant": "must hold around every representation switch", "anchors": ["src/hyperloglogplus.rs:count,merge_sparse"]}
{"id": "C14", "title": "Sparse encoding loses nothing the registers need", "statement": "For every 64-bit hash and precision, decoding the 32-bit sparse code of the hash gives exactly the register index and rank (leading zeros + 1) that normal-mode insertion computes from the full hash.", "quantifier": "every 64-bit hash, every precision 4..=18", "why_tests_cant": "2^64 hashes", "anchors": ["src/hyperloglogplus.rs:encode_hash,decode_hash,index", "src/common.rs:BitExtract"]}
{"id": "C15", "title": "When the sketch is sparse, and the one-way switch", "statement": "After count(), the sketch is in sparse representation iff the difference/varint encoding of the sorted distinct hash codes takes at most 4*2^p/5 bytes; a sketch that has become normal never becomes sparse again; merging anything into a normal sketch keeps it normal.", "quantifier": "every history", "why_tests_cant": "depends on the whole set inserted", "anchors": ["src/hyperloglogplus.rs:merge_sparse,merge,count"]}
{"id": "C16", "title": "Memory stays bounded", "statement": "After every public operation a sparse sketch holds at most 4*2^p/5 bytes of encoded codes and at most 4*2^p/500 pending codes, and a normal sketch holds exactly ceil(2^p/5) words and no sparse data.", "quantifier": "every history", "why_tests_cant": "needs every history; merge can add many codes in one call", "anchors": ["src/hyperloglogplus.rs:insert_impl,merge,merge_sparse", "src/common.rs:with_count"]}
{"id": "C17", "title": "HyperLogLogPF registers are the per-bucket maximum rank", "statement": "At every moment register i holds the maximum, over absorbed hashes whose top p of the low 32 bits equal i, of the position of the first 1-bit in the remaining bits (33-p if none), and 0 if there is no such hash.", "quantifier": "every history, every register index", "why_tests_cant": "infinite histories, 2^p registers packed 6 per word", "anchors": ["src/hyperloglog.rs:insert_impl,merge", "src/common.rs:set_greater,get,iter"]}
{"id": "C18", "title": "HyperLogLogPlus registers are the per-bucket maximum rank", "statement": "In normal representation register i holds the maximum, over all absorbed hashes (including those absorbed while sparse) whose top p bits equal i, of the position of the first 1-bit in the remaining 64-p bits (65-p if none), and 0 otherwise.", "quantifier": "every history, every register index", "why_tests_cant": "includes hashes that passed through the lossy 32-bit sparse code", "anchors": ["src/hyperloglogplus.rs:insert_impl,sparse_to_normal,merge", "src/common.rs:set_greater,get,iter"]}
{"id": "C19", "title": "The zero-register counter is exact", "statement": "The number of zero registers that count() uses for linear counting always equals the number of registers whose value is 0, and it never underflows.", "quantifier": "every history, both sketch types", "why_tests_cant": "incrementally maintained counter over infinite histories", "anchors": ["src/common.rs:set_greater,zeros"]}
{"id": "C20", "title": "Registers do not interfere", "statement": "Raising register i to v (v representable) sets register i to max(old, v), leaves every other register unchanged, never touches the two padding bits of a word, and iteration returns exactly the 2^p register values in order.", "quantifier": "every register file contents, index and value, for the 5-bit and the 6-bit packing", "why_tests_cant": "exhaustive over words and positions", "anchors": ["src/common.rs:registers_impls! set_greater,get,iter"]}
{"id": "C21", "title": "Varint encoding round-trips", "statement": "Any sequence of u32 values pushed to the varint vector is read back unchanged, and each value v takes exactly max(1, ceil(bits(v)/7)) bytes.", "quantifier": "every finite sequence of u32 values", "why_tests_cant": "2^32 values and arbitrary concatenations", "anchors": ["src/encoding.rs:VarIntVec::push,decode,VarIntVecIntoIter::next"]}
{"id": "C22", "title": "Difference encoding round-trips", "statement": "Any non-decreasing sequence of u32 values pushed to the difference vector is read back unchanged, its count is the number of values, and pushing a smaller value than the last is the only way to overflow.", "quantifier": "every finite non-decreasing sequence of u32 values", "why_tests_cant": "infinitely many sequences", "anchors": ["src/encoding.rs:DifIntVec::push,count,len,DifIntVecIntoIter::next"]}
{"id": "C23", "title": "Flushing pending codes yields the sorted union", "statement": "Flushing the pending set into the sparse list produces the strictly increasing list of exactly the codes in either, each once, whatever the HashSet iteration order, and the loop terminates.", "quantifier": "every strictly increasing sparse list, every pending set, every iteration order", "why_tests_cant": "infinite inputs; nondeterministic HashSet order", "anchors": ["src/hyperloglogplus.rs:merge_sparse"]}
{"id": "C24", "title": "Small cardinalities are counted exactly", "statement": "While a HyperLogLogPlus sketch is sparse and holds n <= 5790 distinct codes, count().trunc() == n (given an ln accurate to 2^-50 relative).", "quantifier": "every history whose sketch is sparse with n <= 5790 codes", "why_tests_cant": "needs every n and all precisions; depends on rounding in division, ln and product", "anchors": ["src/hyperloglogplus.rs:count", "src/common.rs:linear_count"]}
{"id": "C25", "title": "HyperLogLogPlus::count is finite and non-negative", "statement": "count() of a HyperLogLogPlus sketch is never NaN, never infinite and never negative.", "quantifier": "every history, precision 4..=18, every sufficiently accurate ln", "why_tests_cant": "every register contents; involves bias subtraction from the empirical tables", "anchors": ["src/hyperloglogplus.rs:count,estimate_bias", "src/constants.rs"]}
{"id": "C26", "title": "HyperLogLogPF::count is finite", "statement": "count() of a HyperLogLogPF sketch is never NaN or infinite. (Expected to fail: the large-range correction takes ln of a non-positive number when the raw estimate reaches 2^32.)", "quantifier": "every history", "why_tests_cant": "needs adversarial hash values that random tests never produce", "anchors": ["src/hyperloglog.rs:count"]}
{"id": "C27", "title": "count() never decreases when values are added", "statement": "Inserting a value never makes count() smaller. (Expected to fail at the sparse/normal switch and between linear counting and the raw estimate; true while the sketch stays sparse.)", "quantifier": "every history and value", "why_tests_cant": "needs special states to fail and every state to hold", "anchors": ["src/hyperloglogplus.rs:count", "src/hyperloglog.rs:count"]}
{"id": "C28", "title": "Bias interpolation is well defined", "statement": "For every precision and every raw estimate that count() can pass to it, estimate_bias reads only in-bounds table entries, never divides by zero, and its result lies between the biases of two adjacent table points that bracket the raw estimate, although two of the estimate tables are not sorted; this holds for any conforming slice::binary_search_by.", "quantifier": "every precision, every finite f64 raw estimate, every conforming binary search", "why_tests_cant": "2^64 floats; the binary search result is unspecified on unsorted input", "anchors": ["src/hyperloglogplus.rs:estimate_bias", "src/constants.rs:RAW_ESTIMATE_DATA,BIAS_DATA"]}
{"id": "C29", "title": "The const-loop feature does not change results", "statement": "count() returns the same bits with and without the const-loop feature, for both sketch types.", "quantifier": "every history", "why_tests_cant": "every register contents", "anchors": ["src/common.rs:RAW, estimate_raw_plus (both cfgs)"]}
{"id": "C30", "title": "Serialization round trip is unobservable", "statement": "Deserializing what serialize produced succeeds and gives a sketch that behaves like the original under every later operation, for both types, even though the pending HashSet is written and rebuilt in arbitrary orders.", "quantifier": "every history, every serialization point, every HashSet iteration order", "why_tests_cant": "infinite states", "anchors": ["src/hyperloglogplus.rs:derive(Serialize, Deserialize)", "src/hyperloglog.rs:derive", "src/encoding.rs:derive", "src/common.rs:derive"]}
{"id": "C31", "title": "Deserialized sketches are safe to use", "statement": "Any value that deserializes successfully can be counted without a panic. (Expected to fail: derive(Deserialize) checks no invariant.)", "quantifier": "every serialized value", "why_tests_cant": "adversarial inputs", "anchors": ["src/hyperloglogplus.rs:derive(Deserialize)", "src/hyperloglog.rs:derive(Deserialize)", "src/encoding.rs:decode"]}
{"id": "C32", "title": "Insertion entry points agree", "statement": "add, insert and insert_any of the same value produce the same sketch, and only the builder's 64-bit hash of the value matters.", "quantifier": "every sketch, every value", "why_tests_cant": "all states", "anchors": ["src/hyperloglogplus.rs:add,insert,insert_any", "src/hyperloglog.rs:add,insert,insert_any"]}
{"id": "C33", "title": "Merging sketches with different hashers or item types", "statement": "merge accepts another sketch with a different builder or item type; the result absorbs the other's hashes as they were computed by the other's builder, and later inserts use self's builder.", "quantifier": "every pair of builders and histories", "why_tests_cant": "all histories", "anchors": ["src/hyperloglogplus.rs:merge", "src/hyperloglog.rs:merge"]}
{"id": "C34", "title": "log(): special values and integer safety", "statement": "The no_std log returns -inf at +-0, NaN for negative or NaN input, +inf at +inf, exactly 0 at 1, and never overflows an integer, for every 64-bit pattern.", "quantifier": "every f64 bit pattern", "why_tests_cant": "2^64 inputs", "anchors": ["src/log.rs:log"]}
{"id": "C35", "title": "log(): accuracy", "statement": "For every positive finite f64 x (subnormals included) the no_std log(x) is finite and within a relative error of 2^-51 of the natural logarithm of x.", "quantifier": "every positive finite f64", "why_tests_cant": "2^63 inputs, real-number specification", "anchors": ["src/log.rs:log"]}
{"id": "C36", "title": "The raw estimate is computed accurately", "statement": "The float raw estimate equals alpha_m * m^2 / sum 2^-reg up to a relative error below 2^-32; for HyperLogLogPF the sum is exact, hence independent of register order.", "quantifier": "every register contents", "why_tests_cant": "every vector of registers; rounding analysis", "anchors": ["src/common.rs:estimate_raw_plus,alpha"]}
{"id": "C37", "title": "HyperLogLogPlus::count computes the published formula", "statement": "count() returns, up to a small stated relative error, 2^24*ln(2^24/(2^24-n)) when sparse with n codes; otherwise m*ln(m/V) if V != 0 and that does not exceed the threshold of the precision, and otherwise the raw estimate minus the interpolated bias if raw <= 5m, and the raw estimate above.", "quantifier": "every history", "why_tests_cant": "real-number specification over every state", "anchors": ["src/hyperloglogplus.rs:count,threshold", "src/common.rs:linear_count"]}
{"id": "C38", "title": "HyperLogLogPF::count computes the published formula", "statement": "count() returns, up to a small stated relative error, m*ln(m/V) if raw <= 2.5m and V != 0; otherwise raw if raw <= 2^32/30; otherwise -2^32 ln(1 - raw/2^32) when raw < 2^32.", "quantifier": "every history", "why_tests_cant": "real-number specification over every state", "anchors": ["src/hyperloglog.rs:count"]}
{"id": "C39", "title": "Sparse mode counts each 25-bit prefix once", "statement": "While sparse, the estimate depends only on how many distinct 25-bit hash prefixes were absorbed. (Expected to fail: codes carrying different ranks for one prefix are kept and counted separately.)", "quantifier": "every sparse history", "why_tests_cant": "needs colliding prefixes", "anchors": ["src/hyperloglogplus.rs:encode_hash,merge_sparse,count"]}
{"id": "C40", "title": "Sparse linear counting uses the 2^25 buckets of the sparse index", "statement": "While sparse, count() is linear counting over the 2^25 buckets addressed by the 25-bit sparse index. (Expected to fail: the code uses 2^24.)", "quantifier": "every sparse history", "why_tests_cant": "the difference shows only at large n and looks like estimation noise", "anchors": ["src/hyperloglogplus.rs:new (counts.1), count"]}
{"id": "C41", "title": "Index and rank of a uniform hash are uniform and geometric", "statement": "Among all 2^64 hashes, exactly 2^(64-p-k) fall in register i with rank k for 1 <= k <= 64-p, and exactly one with rank 65-p: the distribution the HyperLogLog analysis assumes (and the 32-bit analogue for HyperLogLogPF).", "quantifier": "every precision, register index and rank", "why_tests_cant": "2^64 hashes", "anchors": ["src/hyperloglogplus.rs:insert_impl", "src/hyperloglog.rs:insert_impl"]}
{"id": "C42", "title": "A flushed sketch is canonical", "statement": "After count(), two HyperLogLogPlus sketches with the same precision, builder and absorbed hash set are equal field by field, so they serialize to the same value.", "quantifier": "every pair of histories", "why_tests_cant": "infinite histories", "anchors": ["src/hyperloglogplus.rs:count,merge_sparse"]}
{"id": "C43", "title": "Estimates are within a 2^p-dependent range", "statement": "count() of a HyperLogLogPlus sketch is at most 2^65, and a sketch that absorbed at least one value never counts 0.", "quantifier": "every history", "why_tests_cant": "every state", "anchors": ["src/hyperloglogplus.rs:count"]}
{"id": "C44", "title": "Linear-counting thresholds are the published ones", "statement": "For every precision 4..=18 threshold(p) is the value published for HyperLogLog++ (Heule, Nunkesser, Hall 2013): 10, 20, 40, 80, 220, 400, 900, 1800, 3100, 6500, 11500, 20000, 50000, 120000, 350000. (Expected to fail at p = 5: the code has 10.)", "quantifier": "every precision 4..=18", "why_tests_cant": "The tests use one precision and check counts loosely; a wrong threshold only shifts the error in a narrow range of cardinalities at one precision.", "anchors": ["src/hyperloglogplus.rs:421-440"]}
{"id": "C45", "title": "Exact distribution of a register", "statement": "Over all assignments of W-bit hashes to n values (W = 32 for HyperLogLogPF, 64 for HyperLogLogPlus), exactly (2^W - 2^(W-p-k))^n of the 2^(Wn) assignments leave a given register at most k; so under uniform independent hashes P(M_i <= k) = (1 - 2^-(p+k))^n, for every register and every k <= W-p. Both sketches, however inserted, produce such register files.", "quantifier": "every precision, every register, every k, every number n of values, all 2^(Wn) hash assignments", "why_tests_cant": "the space of assignments is astronomically large; sampling only estimates it", "anchors": ["src/common.rs:hash/index", "src/hyperloglog.rs:insert_impl", "src/hyperloglogplus.rs:insert_impl/sparse_to_normal"]}
{"id": "C46", "title": "Expected number of empty registers", "statement": "Summed over all hash assignments of n values, the number of zero registers is 2^p (2^W - 2^(W-p))^n: the expectation m(1 - 1/m)^n that linear counting inverts.", "quantifier": "every precision, every n, all hash assignments", "why_tests_cant": "same as C45", "anchors": ["src/common.rs:zeros", "src/common.rs:linear_count"]}
{"id": "C47", "title": "Expected harmonic sum", "statement": "Summed over all hash assignments of n values, the harmonic sum of the registers scaled by 2^(W-p+1) is 2^p (2^(Wn) + sum_{k=0}^{W-p} 2^(W-p-k) (2^W - 2^(W-p-k))^n): the exact expectation of the indicator that the raw estimate inverts.", "quantifier": "every precision, every n, all hash assignments", "why_tests_cant": "same as C45", "anchors": ["src/common.rs:estimate_raw_plus", "src/common.rs:iter"]}
{"id": "C48", "title": "The number of codes decides the representation", "statement": "After count, a HyperLogLogPlus with n distinct sparse codes is sparse if 4n + 16 <= 4*2^p/5 and normal if n > 4*2^p/5; if sparse with n <= 5791 its count truncates to exactly n.", "quantifier": "every history, every precision, every set of hashes", "why_tests_cant": "the exact switch depends on the varint sizes of the gaps; only adversarial hashes reach the extremes", "anchors": ["src/hyperloglogplus.rs:merge_sparse", "src/hyperloglogplus.rs:count", "src/encoding.rs:VarIntVec"]}
{"id": "C49", "title": "estimate_raw agrees with estimate_raw_plus", "statement": "The unused default method estimate_raw returns the same float as estimate_raw_plus together with the number of zero registers, for every register file.", "quantifier": "every precision, every register list, every build", "why_tests_cant": "no test or caller uses the method", "anchors": ["src/common.rs:150-167", "src/common.rs:estimate_raw_plus"]}
{"id": "C50", "title": "Saturated sketches", "statement": "2^p values with suitable hashes saturate a sketch of precision p whatever else it absorbed. HyperLogLogPlus then returns a finite count between 2^64 and 2^65 (within 2^-33 of alpha*2^65), HyperLogLogPF returns NaN.", "quantifier": "every precision, every history containing such values", "why_tests_cant": "needs chosen hashes; no test has them", "anchors": ["src/hyperloglog.rs:count", "src/hyperloglogplus.rs:count", "src/common.rs:set_greater"]}
{"id": "C51", "title": "The space of sparse codes", "statement": "Exactly 2^39 hashes share a code without rank, 2^(39-r) a code of rank r (1 hash for r = 40); there are exactly 2^25 + 39*2^p codes; the number of codes summed over all assignments of n hashes is given in closed form; and while sparse the sketch stores exactly the distinct codes, in increasing order.", "quantifier": "every precision, every code, all 2^64 hashes, every history", "why_tests_cant": "2^64 hashes cannot be enumerated", "anchors": ["src/hyperloglogplus.rs:encode_hash", "src/hyperloglogplus.rs:decode_hash", "src/encoding.rs:DifIntVec"]}
{"id": "C52", "title": "Error messages", "statement": "The two errors display distinct texts; new reports only \"precision is out of bounds\", merge only \"precisions must be equal\". Under a format with fill, alignment, width and precision the text is cut to the precision and padded to the width, left-aligned by default; the texts of the two errors then coincide exactly if they are cut to nine characters or fewer. Debug writes the name of the variant under every format, and == is equality.", "quantifier": "every error value, every new and merge of both sketches, every format", "why_tests_cant": "no test formats the errors", "anchors": ["src/lib.rs:67-78", "src/hyperloglogplus.rs:new/merge", "src/hyperloglog.rs:new/merge"]}
{"id": "C53", "title": "Small counts are exact with high probability", "statement": "While 4n+16 bytes fit the sparse budget and n <= 5791, all but a fraction n^2/2^26 of the assignments of 64-bit hashes to n distinct values make HyperLogLogPlus count exactly n (fraction dropped), however the sketch was built.", "quantifier": "every precision, every n, all 2^(64n) hash assignments, every history absorbing these hashes", "why_tests_cant": "tests draw a handful of random hashes; a probability over all of them cannot be observed", "anchors": ["src/hyperloglogplus.rs:encode_hash", "src/hyperloglogplus.rs:count", "src/common.rs:linear_count"]}
{"id": "C54", "title": "Joint distribution of registers and standard error", "statement": "The number of hash assignments with registers i and j at most k and l is exactly (2^W - 2^(W-p-k) - 2^(W-p-l))^n. Hence over all assignments the harmonic sum has mean between 0.7190 m^2/(n(1+1/m)) and 0.7229 m^2/n and a relative variance of at most (2.0983(1+1/m)^2 - 1)/m; and the number of empty registers has the variance of the occupancy problem.", "quantifier": "every precision, every n from 4m to 2^(W-5), all hash assignments", "why_tests_cant": "a statement about an average over 2^(Wn) assignments", "anchors": ["src/common.rs:set_greater", "src/hyperloglogplus.rs:insert_impl", "src/hyperloglog.rs:insert_impl"]}
{"id": "C55", "title": "Accuracy for large cardinalities", "statement": "For all but about 1.1/(m t^2) of the hash assignments the count of n distinct values lies between 0.996 n/(1+t) and 1.004 n/(1-t): HyperLogLogPlus (p >= 10) from 5.5(1+t)m to 2^59 values, HyperLogLogPF (p >= 10) from 4m to (1-t)2^27 values; with explicit constants also for smaller p.", "quantifier": "every precision, every n in the range, every tolerance t, all hash assignments, every history", "why_tests_cant": "the tests check a few fixed streams", "anchors": ["src/hyperloglogplus.rs:count", "src/hyperloglog.rs:count", "src/common.rs:estimate_raw_plus"]}
{"id": "C56", "title": "Accuracy for small cardinalities", "statement": "Up to m values (HyperLogLogPF) and up to the linear-counting threshold (HyperLogLogPlus, sparse or not), for all but about 1.2/(m s^2) of the hash assignments the count lies between n(1-s) and n(1+1/m+1.16s) (for HyperLogLogPlus also n*2^24/(2^24-n), if larger, as upper bound), up to rounding.", "quantifier": "every precision, every n in the range, every tolerance s <= 1/10, all hash assignments, every history", "why_tests_cant": "the tests check a few fixed streams", "anchors": ["src/common.rs:linear_count", "src/hyperloglogplus.rs:count", "src/hyperloglog.rs:count"]}
{"id": "C57", "title": "Accuracy of HyperLogLogPF up to the range of its hash", "statement": "For every n up to 2^31 at least a tenth of the hash assignments gives a HyperLogLogPF count within 10% of n. (False: at precision 16 and n = 2^31, 92.7% of the assignments are counted at least 20% too high, since the large-range correction is added to a raw estimate that is already about n.)", "quantifier": "every n up to 2^31, all 2^(32n) hash assignments", "why_tests_cant": "no test inserts 2^27 values or more", "anchors": ["src/hyperloglog.rs:count"]}
{"id": "C58", "title": "Every entry of the bias tables is right", "statement": "Every pair (x, y) at the same index of the raw-estimate and bias tables of a precision p belongs to a cardinality n with |x - y - n| <= 0.001, and x agrees with the raw estimate alpha m^2/mu, where mu is the mean of the harmonic sum over all 2^(64n) lists of n hashes: within 0.3% for p >= 10, and within 0.5%, 0.8%, 1.8%, 2.8%, 4.8% and 8% for p = 9 down to 4. The cardinalities of a table begin at 1 and go up in steps of m/40, rounded either way and never less than 1, to between 4.9m and 5m, and |x - y - n| <= 10^-9.", "quantifier": "all entries of all 15 precisions, all hash assignments of n values", "why_tests_cant": "the tables are 6000 literals; no test relates them to the average over all hash assignments", "anchors": ["src/constants.rs:RAW_ESTIMATE_DATA", "src/constants.rs:BIAS_DATA"]}
{"id": "C59", "title": "Accuracy of HyperLogLogPlus at every cardinality", "statement": "For p >= 10, every n from 1 to 2^59 and every 0 < t <= 1/10, for all but a fraction 2.21/(m t^2) of the hash assignments every history absorbing these n hashes counts between n(0.985 - 1.75t) and n(1.015 + 1.75t), whichever of the sparse, linear-counting, bias-corrected and raw branches is taken.", "quantifier": "every precision 10..18, every n up to 2^59, every t, all hash assignments, every history, every map order", "why_tests_cant": "the tests check a few fixed streams", "anchors": ["src/hyperloglogplus.rs:count", "src/hyperloglogplus.rs:estimate_bias", "src/common.rs:estimate_raw_plus", "src/common.rs:linear_count", "src/constants.rs:THRESHOLDS"]}
{"id": "C60", "title": "Accuracy of HyperLogLogPF at every cardinality up to 2^27", "statement": "For p >= 10, every n from 1 to 0.9*2^27 and every 0 < t <= 1/10, for all but a fraction 2.65/(m t^2) of the hash assignments every history absorbing these n hashes counts between n(0.984 - 1.1t) and n(1.036 + 1.4t), in the linear-counting branch or not.", "quantifier": "every precision 10..16, every n in the range, every t, all hash assignments, every history", "why_tests_cant": "the tests check a few fixed streams", "anchors": ["src/hyperloglog.rs:count", "src/common.rs:linear_count", "src/common.rs:estimate_raw_plus"]}
{"id": "C61", "title": "The accuracy promised by the documentation", "statement": "Cardinalities well beyond 10^9 with a typical accuracy of 2% (src/lib.rs): from precision 14 on, HyperLogLogPlus counts every n from 1.5 million to 2^59 within 2% for at least 72% of the hash assignments; HyperLogLogPF does so from 300000 to 0.98*2^27 (and not at 2^31, see C57).", "quantifier": "every precision from 14 on, every n in the range, all hash assignments, every history", "why_tests_cant": "the tests check a few fixed streams", "anchors": ["src/lib.rs:1", "src/hyperloglogplus.rs:count", "src/hyperloglog.rs:count"]}
{"id": "C62", "title": "Few values are not overcounted, whatever their hashes", "statement": "For every hash function: if all absorbed hashes are among n hashes, with n at most m/4 (2m/5 for HyperLogLogPF), then count() is at most n(1 + n/m)(1 + 2^-28) and at least the number of different buckets hit times (1 - 2^-28), in every representation.", "quantifier": "every history, every hash function, every build, every precision", "why_tests_cant": "an adversary chooses the hashes; tests use well-behaved hash functions", "anchors": ["src/hyperloglogplus.rs:count", "src/hyperloglog.rs:count", "src/common.rs:linear_count"]}
{"id": "C63", "title": "Decoding any byte string", "statement": "Iterating over a VarIntVec or DifIntVec with any bytes ends; it panics exactly when the bytes are cut off inside a number or, with overflow checks, a number has more than five bytes or the running sum leaves 32 bits. Otherwise the items are the base-128 numbers modulo 2^32 (VarIntVec) and their running sums modulo 2^32 (DifIntVec); without overflow checks numbers of more than five bytes are read with shift amounts modulo 32.", "quantifier": "every byte string, every build", "why_tests_cant": "the buffer is attacker-controlled through Deserialize; tests only decode what push wrote", "anchors": ["src/encoding.rs:decode", "src/encoding.rs:VarIntVecIter::next", "src/encoding.rs:DifIntVecIter::next"]}
{"id": "C64", "title": "Insertions into a sparse sketch are buffered", "statement": "While a HyperLogLogPlus sketch is sparse, an insertion (or a merge of another sparse sketch) leaves the list of codes untouched and only adds to the pending set, unless the pending set then holds more than 1% of the byte limit; in that case the pending set is emptied. So a run of k insertions after a flush does not rewrite the list if 100k is at most the limit. Over any stream of insertions into any sketch, at most one insertion per (limit/100 + 1) rewrites the list (counting the codes pending at the start).", "quantifier": "every history, value and iteration order", "why_tests_cant": "the count is the same whenever the flush happens; only the cost changes", "anchors": ["src/hyperloglogplus.rs:insert_impl", "src/hyperloglogplus.rs:merge", "src/hyperloglogplus.rs:merge_sparse"]}
{"id": "C65", "title": "Large errors are exponentially rare", "statement": "With m = 2^p registers, p >= 10, and n >= m/2 distinct hash inputs, count() of HyperLogLogPlus is within n(1.5% + 1.75t) of n for all but a fraction 5 exp(-m t^2/4) of the hash assignments (t up to 0.1, n up to 2^59); HyperLogLogPF within -1.6% - 1.1t and +3.6% + 1.4t for all but 4 exp(-m t^2/10) (n up to 0.89 * 2^27). In the range of the raw estimate the same holds at every precision.", "quantifier": "every build, precision, n, t; all 2^(64n) (2^(32n)) lists of hashes, counted exactly; every history absorbing them", "why_tests_cant": "failures this rare never show up in a sample", "anchors": ["src/hyperloglogplus.rs:count", "src/hyperloglog.rs:count"]}
{"id": "C66", "title": "Mean and mean square error of the count", "statement": "With m = 2^p registers, 10 <= p <= 18, and 6.06 m <= n <= 2^59 distinct hash inputs: averaged over all hash assignments, HyperLogLogPlus::count() lies between n(0.9964 - 2 exp(-m/430)) and n(1.0034 + 1.23/m + 8 exp(-m/430)), and the mean square of its relative error is at most ((0.4% + 1.05/sqrt m)/(1-t))^2 + 13 exp(-m t^2/4.3) for every t up to 1/10. For HyperLogLogPF::count(), p <= 16 and 4 m <= n <= 0.95*2^27, with NaN taken as 0, the same holds with 4, 12 and 21 for 2, 8 and 13. With few values: for n <= m/2, 4 <= p <= 16, HyperLogLogPF's mean count lies between n and n(1 + 1.4/m) and its mean square relative error is at most 1.13/m; HyperLogLogPlus, p other than 5, has mean square error at most 1.13/m + 0.8/2^25 + (1.15n/2^25)^2 for n <= 0.45 m, without the first term while it is bound to be sparse. For 10 <= p <= 18 and every 0 < n <= 2^59, without a gap, HyperLogLogPlus has mean square relative error at most (1.5% + 2.61/sqrt m)^2 + 28 exp(-m/430); HyperLogLogPF, p <= 16 and every 0 < n <= 0.95*2^27, at most (3.6% + 2.28/sqrt m)^2 + 42 exp(-m/1000). The outliers are included: no hash assignment is left out.", "quantifier": "every build and accurate platform, precision, n, t; any program (order, duplicates, merges, serialization) chosen per list of hashes; exact averages over all 2^(64n) lists (2^(32n) for HyperLogLogPF)", "why_tests_cant": "an exact average over 2^(64n) assignments, including those where the count is wildly wrong, cannot be sampled", "anchors": ["src/hyperloglogplus.rs:count", "src/common.rs:estimate_raw_plus", "src/hyperloglog.rs:count"]}
{"id": "C67", "title": "The evaluation experiments record what a fresh sketch would count", "statement": "evaluation/src/main.rs: in mode \"hashes\" line i is (i, k) and in mode \"cardinalities\" a line is (n, k) with n the largest cardinality so far, where k is trunc(count()) as u64 of any sketch of that precision that absorbed exactly the first i (n) values - although one sketch is counted over and over while it is filled. NaN is recorded as 0. The runs stop with a panic exactly for precisions the sketch rejects. For all but a fraction n^2/2^26 of the files of n 64-bit hashes every line reads (i, i), while 4n+16 bytes fit the sparse budget and n <= 5791.", "quantifier": "every build, precision with 2p below the width of usize, list of hashes, sequence of random numbers, list of cardinalities, iteration orders", "why_tests_cant": "the experiments are what the crate's accuracy is tested with; whether interleaved counts influence them is a statement about all inputs", "anchors": ["evaluation/src/main.rs:run_impls", "evaluation/src/main.rs:PassThroughHasher"]}
{"id": "C68", "title": "Few values are counted exactly once per bucket; the examples of the documentation", "statement": "trunc(count()) of a HyperLogLogPF is the number of buckets its hashes fall into while that is at most 5, 7, 10, 15, 21, 31, 44, 63, 89, 127, 180, 255, 361 (precisions 4 to 16), and one too many at one bucket more; for all but n^2/2m of the assignments of 32-bit hashes that number is n. The same holds of a HyperLogLogPlus that has left the sparse representation; a sparse one counts its codes up to 5791 on targets of any width. The examples of the documentation (precision 16, two values, trunc() as u32 == 2) hold exactly when the two hashes have different sparse codes (HyperLogLogPlus), fall into different buckets (HyperLogLogPF): they fail for exactly (2^25-2^16)*2^78 + 2^16*((4^39-1)/3+1) of the 2^128 pairs of hashes, for exactly 2^48 of the 2^64 pairs of 32-bit hashes. On 32-bit targets with overflow checks the HyperLogLogPF example always panics.", "quantifier": "every build with an accurate ln, hash function, pair of values, iteration order; all programs building a sketch", "why_tests_cant": "the doc tests run with one random hasher at a time and pass with probability 1-2^-16; which hashes fail, and how many, needs all of them", "anchors": ["README.md:41", "src/hyperloglogplus.rs:35", "src/hyperloglog.rs:29", "src/hyperloglog.rs:count", "src/common.rs:linear_count"]}
{"id": "C69", "title": "Inserting into and merging sketches read from outside: exactly when they panic", "statement": "Deserialization accepts any precision below 256, any register counts, words, zero counter, pending codes and bytes. HyperLogLogPF::insert on such a sketch panics exactly when overflow checks are on and the precision is 0 or at least 32, or the selected register lies beyond the words, or overflow checks are on, the register is zero and the zero counter is 0; likewise HyperLogLogPlus::insert with registers (64 for 32). A sparse insert panics with overflow checks exactly when the precision is at least 25, or 100 times the pending set exceeds the limit and the flush fails: the bytes cannot be read, or the flushed codes exceed the limit and do not fit the registers or the zero counter. merge of two sketches with registers panics exactly when the other lists more registers than there are slots, or, with overflow checks, raises more zero registers than the zero counter says; otherwise each register is the larger one. merge involving sparse sketches: exactly when the bytes cannot be read, a code has no register, or the zero counter is exceeded. Without overflow checks, whatever the bytes, precision and register count: exactly when the bytes end inside a number or a code has no register among those set up; numbers longer than five bytes, sums over 2^32, shifts by 64 and more and register counts near the largest usize wrap around.", "quantifier": "all deserialized sketches (with overflow checks: pending sets smaller than a hundredth of the address space), values, builds, iteration orders, hash functions", "why_tests_cant": "the serde tests only round-trip sketches; the states a deserializer can produce are arbitrary 32-bit words, bytes and counters, and the panics depend on the profile", "anchors": ["src/hyperloglog.rs:insert", "src/hyperloglog.rs:merge", "src/hyperloglogplus.rs:insert", "src/hyperloglogplus.rs:merge", "src/hyperloglogplus.rs:merge_sparse", "src/common.rs:set_greater", "src/encoding.rs"]}
{"id": "C70", "title": "The machine operations the crate is read with are Rust's", "statement": "For all operands and widths: +, -, * give the exact result when it is representable; otherwise they panic with overflow checks and give the representable value congruent modulo 2^w without (also for the i32 exponent arithmetic of log.rs). << and >> move bits and drop those leaving the width; an amount of w or more panics with checks and is reduced modulo w without. `as`, ! and leading_zeros are what their bits say. Indexing gives the element or panics when out of bounds; sort gives the unique ascending permutation; HashSet::insert adds one element at most. f64 +, -, *, / and integer conversion round the exact result to nearest, ties to even, with the IEEE signs of zeros, infinities on overflow; comparisons compare the values and are false on NaN. Decimal literals, the tables of constants.rs and the constants of log.rs among them, are the written decimal rounded once.", "quantifier": "all operands, widths, builds", "why_tests_cant": "the crate only exercises operands inside its own ranges; a misread operation outside them would go unnoticed in the model and in tests alike", "anchors": ["src/log.rs:log", "src/common.rs:set_greater", "src/encoding.rs", "src/hyperloglogplus.rs:merge_sparse", "src/hyperloglogplus.rs:encode_hash"]}
{"id": "C71", "title": "Every program on targets of every width", "statement": "On targets of any pointer width from 32 bits on: a program over HyperLogLogPlus panics exactly if overflow checks are on and one of its calls of count leaves linear counting at a precision p with 2p at least the width; a program over HyperLogLogPF exactly if overflow checks are on and it calls count at such a precision. Release builds never panic. Every state reached has the sizes, registers and zero counter of C16 to C19 and, after a count, is sparse exactly if the codes fit (C15). Two programs that end with the same precision and set of hashes count alike: both panic or both return the same bits. Where no count overflows, the count has the same bits on every target, in debug and release.", "quantifier": "all histories, values, hash functions, iteration orders, builds, pointer widths from 32", "why_tests_cant": "tests run on 64-bit targets; the overflow needs a 32-bit target at precisions 16 to 18", "anchors": ["src/common.rs:estimate_raw_plus", "src/hyperloglogplus.rs:count", "src/hyperloglog.rs:count"]}
{"id": "C72", "title": "The files of the evaluation program", "statement": "From its arguments and the files on disk, the evaluation program leaves exactly the files it should, in every interleaving of its threads. Numbers are read exactly if they are digits, possibly after a plus sign, that fit the type, and shown as numerals; load gives the numbers on the lines of a file and panics on anything else; save writes what load reads back. gen writes one file of numerals per run; run writes one file of estimates per input file of hashes, or per run, with the lines the two experiments determine, and changes no other file; it ends after a bounded number of steps. A file that is missing or has a line that is no number of the type, a precision out of range, or a bad number of jobs makes it panic. The condition that inputs of run have different names is needed: of two inputs of the same name in different directories only one keeps its estimates.", "quantifier": "all arguments, file contents, directories, random numbers, iteration orders, builds, interleavings of the thread pool", "why_tests_cant": "the program has no tests; interleavings and file contents are unbounded", "anchors": ["evaluation/src/main.rs:load", "evaluation/src/main.rs:save", "evaluation/src/main.rs:generate", "evaluation/src/main.rs:run_impls", "evaluation/src/main.rs:main"]}
{"id": "C73", "title": "HyperLogLogPlus errs less than HyperLogLogPF at small cardinalities", "statement": "At the same precision, while the sparse list has room for four times the number of distinct values (up to about m/5 values), the mean square relative error of HyperLogLogPlus's count over all 64-bit hashes is at most a tenth of that of HyperLogLogPF's count over all 32-bit hashes. HyperLogLogPF's mean square relative error is at least 0.237(1-1/n)/m up to m/2 values. The variance of the number of registers that stay zero is exactly m((1-1/m)^n + (m-1)(1-2/m)^n - m(1-1/m)^(2n)).", "quantifier": "all precisions 4..16, all numbers of values in range, all programs that build the sketches, all builds with an accurate ln", "why_tests_cant": "averages over all hash assignments; evaluation/README.md claims it from 500 random runs", "anchors": ["evaluation/README.md", "src/hyperloglogplus.rs:count", "src/hyperloglog.rs:count"]}
{"id": "C74", "title": "exp.py: the cardinalities generated and the relative errors", "statement": "generate_cardinalities ends for every integer maximum, with the strictly increasing list of the integer parts of the binary64 powers of 1.007 up to the first one not below the maximum (OverflowError exactly when that one is 2^1024 or more); for maxima from 1 to 2^1023 it starts at 1, passes the maximum by at most 0.71%, and leaves no gap above 0.71% but for rounding to integers. The file prepare writes is one the evaluation program loads. calculate_statistics gives one row per line number, with the cardinality and, for each file long enough, |estimate - cardinality| / cardinality, rounded once for values up to 2^53. From prepare through the evaluation program to the statistics, the rows are the cardinalities generated, each with the errors of all runs.", "quantifier": "all integer maxima, all precisions, numbers of runs and threads, all interleavings, all draws, all disks and directories, all estimate files of any lengths", "why_tests_cant": "unbounded maxima and file lengths; rounding of a product at every step; all schedules of the evaluation program", "anchors": ["evaluation/exp.py:generate_cardinalities", "evaluation/exp.py:prepare", "evaluation/exp.py:calculate_statistics"]}
{"id": "C75", "title": "The arguments of the evaluation program", "statement": "The arguments that satisfy the rules declared in evaluation/src/main.rs are exactly: for gen all four, with size 32 or 64; for run a type hll or hllp, a precision, an output and, for mode hashes, one input file or more, for mode cardinalities a number of runs and a file. Accepted arguments never make the program panic for a missing one, and those of the other mode are ignored. A count or a number of runs that is not a decimal number below 2^usize makes the program panic without writing anything; so does mode cardinalities, given one run or more, with a precision outside the sketch's range or a file of cardinalities that is missing or malformed. With 0 runs nothing is written, and the precision only has to fit a byte. Without a subcommand, or with values the rules exclude, nothing happens.", "quantifier": "all argument texts, file systems, contents of the disk, draws, iteration orders and interleavings of jobs", "why_tests_cant": "the program has no tests; the arguments are arbitrary texts", "anchors": ["evaluation/src/main.rs:main", "evaluation/src/main.rs:generate", "evaluation/src/main.rs:run_impls"]}
{"id": "C76", "title": "The benchmarks", "statement": "The benchmarks of benchmarks/ never panic on targets whose usize is wide enough for the precision, and each of their iterations measures the same count, that of a sketch holding the drawn strings; two strings differ unless both numbers drawn are equal, and shuffling them changes nothing. In src, all assertions hold and: the register benchmarks read zeros, and write a value that does not fit (every register ends as 59 while the counter says that 800 of 1000 are zero); the varint benchmarks push and decode 1 and 5 bytes; the insert and count benchmarks without a hasher hit a single register of 65536, all values with the same rank; the one that counts a normal sketch counts an empty one; the one with a hasher always uses linear counting; merging keeps the 500 codes sparse; the four biases are the interpolated ones.", "quantifier": "all random strings, permutations, hash functions, iteration orders and numbers of iterations", "why_tests_cant": "benchmarks are never asserted on, and their inputs are random", "anchors": ["benchmarks/benches/hyperloglog.rs:bench_insert", "benchmarks/benches/hyperloglog.rs:bench_count", "src/common.rs:bench_registers_set", "src/hyperloglogplus.rs:bench_plus_merge_sparse"]}
{"id": "C77", "title": "Sketches as JSON text", "statement": "A sketch written with serde_json::to_string and read back with from_str, anywhere in a program, is the same sketch: every later count is what it would have been, and reading it with another hash builder changes nothing else. The text written is exactly the compact JSON object of the declared fields in declaration order. from_str accepts exactly the RFC 8259 texts whose one value has the shape of the type: white space and the order of fields do not matter, unknown fields are ignored, a repeated or missing field is refused (but a missing registers of a HyperLogLog++ makes it sparse), an array of the values in order is accepted. There are short texts that are accepted and on which count panics.", "quantifier": "all texts, programs, hash builders and their JSON forms, iteration orders and builds", "why_tests_cant": "the two tests write one sketch each and read back only what the library itself wrote", "anchors": ["src/hyperloglog.rs:test_serialization", "src/hyperloglogplus.rs:test_serialization", "src/hyperloglog.rs:HyperLogLogPF", "src/hyperloglogplus.rs:HyperLogLogPlus", "Cargo.toml:serde_json"]}
{"id": "C78", "title": "What the derived Debug shows", "statement": "The text of a sketch under every format string that asks for Debug ({:?}, {:#?}, {:x?}, {:#X?}, with a plus sign, zero padding, fill, alignment and width) is exactly one text, given field by field: every field in declaration order, every integer padded on its own, on one line or with one entry on each line and four spaces for each level. When no width is requested the text tells everything but the hash function: two sketches with the same text have the same precision, counts, registers, sparse list and pending codes, and count gives the same result. With a width this is false: {:1>10?} shows sketches with different pending codes alike. Sketches with the same estimate can have different texts: the order of insertion can be seen.", "quantifier": "all sketches, also ones read from outside, format options, iteration orders and texts that the hash builder and PhantomData write", "why_tests_cant": "no test formats a sketch; a test would compare a few texts, and cannot show that no two different sketches have the same text", "anchors": ["src/hyperloglog.rs:HyperLogLogPF", "src/hyperloglogplus.rs:HyperLogLogPlus", "src/encoding.rs:DifIntVec", "src/encoding.rs:VarIntVec", "src/common.rs:registers_impls"]}
{"id": "C79", "title": "The number of steps of a program", "statement": "Count as a step every call, every iteration of a loop of the library, every element that is collected, allocated, written or read, and every comparison of a sort. Every program on HyperLogLogPlus sketches takes at most 726 steps for each insertion, 10 times 2^precision for each new sketch, 26 times for each merge, 6 times for each count and twice for each round trip: the pending set and the change of representation are paid for by the insertions before. So n insertions into a new sketch are linear in n whatever the values are. An insertion into a sketch with registers is one step; any single insertion, count or merge is at most 17, 21 or 56 times 2^precision. A count of a sparse sketch reads its whole list each time: m counts with nothing pending take at least m times the length of the list. The steps of a program on HyperLogLogPF sketches are given exactly.", "quantifier": "all programs, precisions, hash functions, iteration orders of the pending set and builds with std", "why_tests_cant": "a test times a few programs; an amortised bound is about the worst sequence of calls, and no test covers the conversions at every precision", "anchors": ["src/hyperloglogplus.rs:insert_impl", "src/hyperloglogplus.rs:merge_sparse", "src/hyperloglogplus.rs:sparse_to_normal", "src/hyperloglogplus.rs:merge", "src/hyperloglogplus.rs:count", "src/encoding.rs:DifIntVec", "src/hyperloglog.rs:HyperLogLogPF"]}
{"id": "C80", "title": "Which hashes change a sketch, and inputs that defeat it", "statement": "In every reachable state a HyperLogLogPF is changed by exactly the hashes whose rank exceeds the register of their bucket, and the number of those hashes is the sum over the registers v of 2^(32-p-v); the same holds with 64 bits for a HyperLogLogPlus with registers. A sparse HyperLogLogPlus is left as it was, once counted, by exactly the hashes whose code it holds: 2^39 for every code without a rank, 2^(39-r) for one with rank r, 1 for rank 40. In real arithmetic the raw estimate is alpha m divided by the chance that a random hash changes the sketch, as long as no register is full. However many values are inserted, a HyperLogLogPF changes at most 2^p (33-p) times less the sum of its registers, and some stream reaches that; a HyperLogLogPlus counted after every insertion changes at most 2^p (65-p) times and once for each byte of the sparse limit. Two histories with the same largest rank in every bucket (HyperLogLogPF), or with the same codes (HyperLogLogPlus), are counted alike. Therefore any number of values in one bucket is counted as 1 by HyperLogLogPF and by HyperLogLogPlus once it has left the sparse representation, and any number of values with one code is counted as 1.", "quantifier": "all histories, precisions, hash builders, iteration orders and hashes", "why_tests_cant": "the sets of hashes have up to 2^64 elements; the inputs that defeat the sketch are a vanishing part of the random inputs a test draws", "anchors": ["src/hyperloglog.rs:insert_impl", "src/hyperloglogplus.rs:insert_impl", "src/hyperloglogplus.rs:encode_hash", "src/hyperloglogplus.rs:count", "src/hyperloglog.rs:count", "src/common.rs:set_greater"]}
{"id": "C81", "title": "A panic that is caught leaves a usable sketch", "statement": "If a call of insert, merge or count panics (in the user's Hash, Hasher or BuildHasher, by an overflow check, or on data decoded from an untrusted source) and the panic is caught, the receiver is in a known state. For any receiver: an insertion into a HyperLogLogPF and a count of it change nothing; a merge leaves the registers merged before the panic. No call on a HyperLogLogPlus touches builder, precision or sizes; an insertion changes nothing, or leaves the new code pending, or leaves the pending codes in a list that is too long; a count leaves the same, or the flushed sketch; a merge leaves the codes or registers it had read. For programs built from the public API in which every panic is caught: where only hashing panics the sketch equals that of the program without the failed calls; where count panics as well (targets too narrow for the square of the number of registers) the sketch is, for HyperLogLogPF, the one the program gives on any target, and for HyperLogLogPlus the one it gives there after a count.", "quantifier": "all receivers, arguments, builds and programs with any number of caught panics", "why_tests_cant": "a panic can occur at every write of a loop, and tests do not catch panics or run on narrow targets", "anchors": ["src/hyperloglog.rs:insert_impl", "src/hyperloglog.rs:merge", "src/hyperloglog.rs:count", "src/hyperloglogplus.rs:insert_impl", "src/hyperloglogplus.rs:merge", "src/hyperloglogplus.rs:count", "src/hyperloglogplus.rs:merge_sparse", "src/hyperloglogplus.rs:sparse_to_normal", "src/common.rs:set_greater"]}
{"id": "C82", "title": "Where the registers are does not matter", "statement": "The count of a HyperLogLogPF is determined, to the last bit, by how many registers hold each value, not by which ones; in the small range by how many hold 0. The same is true of a HyperLogLogPlus with registers if no rank is over 53-p, when the sum over the registers is exact; at p = 4 ranks of 54-p can make the order of the registers change the last bits, but above 5m the counts agree to one part in 2^31 whatever the ranks. In the range of linear counting only the number of empty registers matters; while the sketch is sparse only the number of codes, not even the precision. In particular flipping any of the index bits, the same in every hash, leaves the count as it is while both sketches are in the same representation.", "quantifier": "all pairs of histories over any item types, precisions, builds, iteration orders and masks", "why_tests_cant": "the registers can be permuted in (2^p)! ways, and rounding differences need ranks that random hashes reach with probability 2^-50", "anchors": ["src/common.rs:estimate_raw_plus", "src/common.rs:linear_count", "src/hyperloglog.rs:count", "src/hyperloglogplus.rs:count", "src/hyperloglogplus.rs:estimate_bias"]}
{"id": "C83", "title": "Inclusion and exclusion: the counts of two sketches and of their union", "statement": "While the union of two sketches is sparse with n codes, count(a) + count(b) - count(a union b) is the number of codes common to both up to n^2/2^25 (1 + n/2^23) + n/2^26; if they have none in common and neither is empty it is negative by at least |a||b|/2^25, so the count of a union exceeds the sum of the counts. In general the count of a merge is not bounded by the counts merged: sketches whose values fall into half of the buckets count at most 2.6m (HyperLogLogPF: 0.76m) whatever their hashes, but two of them can merge into one that counts 2^64 or more (HyperLogLogPF: NaN).", "quantifier": "all histories and precisions, every sufficiently accurate ln, all hash functions", "why_tests_cant": "the tests merge particular sketches and compare with a tolerance; the excess of the union is below it, and the growth needs chosen hashes", "anchors": ["src/hyperloglogplus.rs:merge,count", "src/hyperloglog.rs:merge,count", "src/common.rs:linear_count"]}
{"id": "C84", "title": "Which data is read as a sketch, and as which", "statement": "A value of the serde data model is read as a HyperLogLogPF exactly when it is a structure, by names in any order (each known name once, unknown ones ignored) or by positions, whose count is an integer within usize, whose precision is within u8, whose registers are a list of u32 words with two usize counts, and whose builder is read by its own Deserialize; the sketch is then made of exactly these, with nothing checked between them. Likewise for HyperLogLogPlus, with the triple of counts, the list of recent codes taken as a set, the byte-encoded codes, and registers that may be none, and may be absent if the data has names. Nothing else is accepted, and whatever fits is accepted.", "quantifier": "all values of the data model, all pointer widths, all builders", "why_tests_cant": "the tests only read back what the same library wrote", "anchors": ["src/hyperloglog.rs:derive(Deserialize)", "src/hyperloglogplus.rs:derive(Deserialize)", "src/common.rs:Registers", "src/encoding.rs:DifIntVec,VarIntVec"]}
{"id": "C85", "title": "How long and how deeply nested the texts of sketches are", "statement": "The JSON text of a HyperLogLogPF takes, beyond its hash builder, between 93 + 2w and 107 + 11w bytes, w = ceil(2^p/6) being the number of its words; that of a HyperLogLogPlus at most 163 + 4(4/5 2^p) + 11(4/500 2^p) while sparse and between 150 + 2w and 199 + 11w, w = ceil(2^p/5), with registers, whatever was inserted and merged and in whatever order the recent codes are visited. It is nested exactly three levels deep, or one more than the text of the builder.", "quantifier": "all histories, precisions, orders, builders and pointer widths", "why_tests_cant": "the tests look at two texts", "anchors": ["src/hyperloglog.rs:derive(Serialize)", "src/hyperloglogplus.rs:derive(Serialize)", "src/common.rs:Registers", "src/encoding.rs:DifIntVec"]}
{"id": "C86", "title": "How many values a sparse sketch holds", "statement": "The sparse list of a HyperLogLogPlus takes at least one byte for each distinct code, and at most 2 for each code without a rank, 4 for each with one, and 4144 more; so while that is within 4/5 2^p bytes the sketch is sparse when counted. The list of a merge is at most as long as the two lists together and at least as long as either: two sparse sketches whose lists together fit merge into a sparse one, and only sparse ones do. Of the hash assignments of n values a fraction of at most 2n/2^(25-p) / (4/5 2^p - 2n - 4144) leaves a sketch that is not sparse.", "quantifier": "all histories, precisions, orders; all lists of n 64-bit hashes", "why_tests_cant": "the tests fill one sketch with one sequence of values; the size depends on all the differences between sorted codes", "anchors": ["src/hyperloglogplus.rs:merge_sparse,encode_hash,merge", "src/encoding.rs:DifIntVec,VarIntVec"]}
{"id": "C87", "title": "The statistics that exp.py plots", "statement": "For every row of relative errors that exp.py computes from at most 2^50 files, in whatever order and grouping numpy adds, np.mean is finite and within n 2^-52 of the mean relative to it (and 2^-1075); np.median is the middle element, or the rounded half of the rounded sum of the two middle elements and between them, and the middle is unique; np.std is within (n+4) 2^-52 (deviation + 2 mean) + 2^-534 of the standard deviation.", "quantifier": "all samples of up to 2^50 finite non-negative values up to 2^400; all orders and nestings of the additions; all partitions", "why_tests_cant": "there are no tests of exp.py; the number of orders of addition is exponential", "anchors": ["evaluation/exp.py:calculate_statistics"]}
{"id": "C88", "title": "The commands that exp.py starts", "statement": "The evaluation program started by exp.py prepare or run gets exactly the numbers, directories and files that exp.py was given, and is refused exactly when a number is negative, a path starts with a hyphen, or there is no input file. Without --runs, or without --cardinalities, run in that mode fails; without --input the mode hashes reads the directory called None. The second experiment, by exp.py alone, gives statistics of the estimates of C67.", "quantifier": "all arguments as argparse leaves them (unbounded ints), all results of glob in the input directory, all file systems, builds and interleavings", "why_tests_cant": "there are no tests of exp.py or of the evaluation program", "anchors": ["evaluation/exp.py:prepare,run", "evaluation/src/main.rs:main"]}
{"id": "C89", "title": "The first experiment by exp.py alone", "statement": "exp.py prepare --type hashes, then run --mode hashes on the prepared directory, then the statistics: both commands succeed whatever the order in which the files are listed and the jobs run, nothing but the files of hashes and of estimates changes, and the table has a row for each of 1, ..., count, with the exact relative errors of the estimates of C67 after that many hashes.", "quantifier": "all counts up to 2^53, numbers of runs and jobs, random draws, orders of the files and of map iteration, file systems, builds; a directory that is not empty and does not start with a hyphen or end with a slash", "why_tests_cant": "there are no tests of exp.py or of the evaluation program", "anchors": ["evaluation/exp.py:prepare,run,calculate_statistics", "evaluation/src/main.rs:main"]}
{"id": "C90", "title": "What exp.py plots", "statement": "exp.py plot fails when no file has a line. Otherwise, if no estimate is 2^40 times too high, it draws a point for every line of the longest file: the mean and the median of the relative errors of that line, and a band from the mean less to the mean plus the standard deviation, which contains the mean. The marks of the y axis are the multiples of the step up to the sum of the highest mean and the highest standard deviation.", "quantifier": "all files of estimates of cardinalities up to 2^53, of any lengths; all types and modes; all orders of additions in numpy", "why_tests_cant": "there are no tests of exp.py; the plots are only looked at", "anchors": ["evaluation/exp.py:plot,calculate_statistics"]}
{"id": "C91", "title": "Where the experiments find no error", "statement": "HyperLogLogPlus counts hashes with different 25-bit prefixes exactly while there are at most 5791 of them and four bytes each fit the sparse list (always so from precision 15): the line of the evaluation program shows the true cardinality, and in exp.py's tables of both experiments every relative error of the row, their mean, their median and their standard deviation are 0. The next line, for 5792, always shows 5793.", "quantifier": "all precisions from 4 to 18 (from 15 for the line that is wrong), counts up to 2^53, numbers of runs up to 2^50, draws, orders, file systems, and builds whose logarithm is accurate; every row whose hashes have different prefixes in every run", "why_tests_cant": "the tests of the crate count a few fixed hashes; there are no tests of the evaluation program or of exp.py", "anchors": ["src/hyperloglogplus.rs:count", "evaluation/src/main.rs:main", "evaluation/exp.py:prepare,run,calculate_statistics,plot"]}
{"id": "C92", "title": "The experiments up to their plots", "statement": "exp.py prepare, run and plot, one after the other, for either experiment: whatever the order in which plot finds the files of estimates, it draws a point for each of 1, ..., count in the first experiment and for each of the generated cardinalities in the second, at the mean and the median of the relative errors of the estimates of that many hashes in all runs, with a band of one standard deviation. For HyperLogLogPF this holds whatever the hashes; for HyperLogLogPlus if no estimate is 2^40 times too high, which is so while there are at most a quarter as many hashes as registers.", "quantifier": "all counts from 1 to 2^53 and maximal cardinalities from 1 to 2^52, numbers of runs up to 2^50, jobs, draws, orders of the files, of map iteration and of numpy's additions, file systems, and builds (for HyperLogLogPF with an accurate logarithm that gives NaN for negative numbers)", "why_tests_cant": "there are no tests of exp.py; the plots are only looked at", "anchors": ["evaluation/exp.py:prepare,run,plot,calculate_statistics", "evaluation/src/main.rs:main"]}
{"id": "C93", "title": "The order in which exp.py finds the files", "statement": "exp.py plot does not depend on the order in which glob finds the files of estimates: the rows of statistics hold the same errors, and if the files agree about the cardinality of each line the possible plots are the same (numpy may round a sum differently in another order, so each set of possible results is compared). An empty file makes no difference. If the files disagree the x axis shows the cardinality of whichever file is found first.", "quantifier": "all numbers and lengths of files of estimates with cardinalities from 1 to 2^53 and 64-bit estimates, all orders of them, all orders of numpy's additions; for empty files all contents", "why_tests_cant": "there are no tests of exp.py, and one file system gives one order", "anchors": ["evaluation/exp.py:plot,calculate_statistics"]}
