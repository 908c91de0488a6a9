# Formal model of tabac/hyperloglog.rs in Rocq (Coq 8.16.1)

Build: `cd rocq && coq_makefile -f _CoqProject -o Makefile && make -j4` (a few minutes).

## Approach

* **Model** (`rocq/theories/Model*.v`): `/repo/src` transcribed function by function into computable
  Gallina in a panic monad.  Every index, `unwrap`, checked arithmetic operation, shift and
  `unreachable!()` is an explicit `Panic` outcome, or wraps when the build has overflow checks off.
  Machine words are `N` with explicit ranges.  `f64` is Flocq's IEEE-754 binary64 (single NaN, round to
  nearest even), so float results are exact bits.  Every definition cites file and lines.
* **Programs** (`ModelHistory.v`): a *history* is a tree of `new` / `insert` / `insert_any` / `add` /
  `merge` / `count` / serialize+deserialize calls; merged sketches have histories of their own, with
  their own item types and hash builders; using a history twice is `clone`.  The theorems quantify over
  all histories.
* **Specification** (`Spec*.v`): what the code should compute, without the model: bucket and rank of a
  hash, per-bucket maximum, strictly increasing list of codes, encoded size, real-valued estimates,
  numbers of hash assignments.  `SpecBuild.v` states what is assumed of a build.
* **Proofs** (`*Facts.v`, `*Inv.v`, `Log*.v`, `Claim*.v`, ...): invariants by induction over histories,
  refinement of packed registers and byte buffers to lists, rounding-error analysis.
* **Properties** (`Properties*.v`): nothing but the property theorems (`exact lemma`), each with
  `Print Assumptions`, and Examples showing that the hypotheses are met by non-trivial programs.
* `ModelTests.v` replays the unit tests of the crate on the model (a check of the transcription).

What the theorems quantify over (fields of `env`, and arguments):

* the hash function of every builder (`V -> u64`), for an arbitrary item type;
* the iteration order of `HashSet<u32>`: any permutation, chosen afresh at every use;
* `f64::ln` of the platform (std builds).  Where accuracy matters it is a hypothesis (`accurate`:
  relative error 2^-50 on [2^-100, 2^100]); `C35_ln_accurate` proves it of the crate's own `log`
  (src/log.rs), so it is satisfiable, and no_std builds need no assumption;
* `slice::binary_search_by`: any function meeting the bracketing contract `bsearch_spec`; both algorithms
  that std has shipped are modelled and proved to meet it on every slice, sorted or not (`BsFacts.v`);
* the pointer width (at least 32), overflow checks on/off, `const-loop` on/off, `std` on/off, and the
  initial value (+0.0 or -0.0) of `Iterator::sum::<f64>`.

## Trusted base

1. Coq's kernel (and `vm_compute`, which the kernel's conversion includes); `coqchk` re-checks the files.
2. Axioms, all from the standard library (`Print Assumptions` under every theorem):
   * none ("Closed under the global context"): C01_new, C02_new, C03_narrow, C12_merge_plus, C12_merge_pf,
     C12_fixed_pf, C14_code, C15_code_list, C20_*, C21_*, C22_*, C23_flush, C32_*, C39_codes, C39_prefixes,
     C41_*, C45_registers, C46_*, C47_harmonic, C51_plain, C51_ranked, C51_space, C51_expected, C52_*, C54_pair,
     C63_*, C67_hasher, C69_pf_insert, C69_plus_insert, C69_pf_merge, C69_plus_merge,
     C69_plus_merge_{sparse,codes,into}_unchecked, C69_code_wrapping, C69_bytes_wrapping,
     C69_plus_merge_codes_wrapping, C70_add to C70_set_insert, C70_compare_nan, C72_parse to
     C72_threads_no_file, C72_write, C75_gen_accepted, C75_run_accepted, and of C76 string, insert_pf, insert_plus,
     cases, registers_get, registers_set, varint_push, varint_decode, pf_insert, plus_insert_normal
     and merge_sparse, and of C77 all but plus, pf, builder_plus, builder_pf and hostile_witness,
     of C78 all but count_pf, count_plus, width_witness and order_witness, C30_positions_pf,
     C30_positions_plus, C81_{insert_pf,count_pf,merge_pf,insert_plus,merge_plus}, C82_moved, C82_flip_moves, C84_*, C85_depth_* and C86_bytes;
   * C28_between, C54_zeros, C73_zeros, C74_compare, C76_thresholds, C80_chance, C87_middle: `ClassicalDedekindReals.sig_forall_dec`,
     `FunctionalExtensionality.functional_extensionality_dep`;
   * every other theorem: those two, `ClassicalDedekindReals.sig_not_dec` and `Classical_Prop.classic`.
     They come with the real numbers, on which Flocq's binary64 operations are specified.
3. The transcription of `/repo/src` into `Model*.v`, and the statements themselves.  The machine operations in
   `ModelRust.v`, `ModelF64.v` and `ModelLog.i32` are proved to meet `SpecRust.v` (C70).  The transcription is
   tested by `ModelTests.v` and by seeded faults (`seeded/LOG.jsonl`: the edit, and the theorems that stop
   going through).

No axioms, functors, module types, admitted proofs or plugins of our own.  Flocq, Coquelicot and Interval
are used as libraries of definitions, lemmas and tactics.  `IntervalZ.v` is a small verified evaluator for
logarithm bounds (a reflexive checker with a soundness proof); `HarmonicNum.v`, `MeanTable.v`, `MeanRows.v`
and `BiasCheck.v` are the same for exponential sums, in fixed-point integers.

### What is modelled

| source | model |
|--------|-------|
| src/lib.rs: trait `HyperLogLog`, `HyperLogLogError`, its `Display` (with std's `Formatter::pad`), derived `Debug` and `PartialEq` | ModelCommon, ModelError, ModelFormat, ModelHistory |
| src/common.rs: registers (packing, `iter`, `set_greater`, `zeros`), `RawLUT`, all of `HyperLogLogCommon` | ModelRegisters, ModelCommon |
| src/encoding.rs: `VarIntVec`, `DifIntVec`, their iterators | ModelEncoding |
| src/constants.rs: threshold and bias tables, literal by literal | ModelConstants |
| src/log.rs | ModelLog |
| src/hyperloglog.rs | ModelPF |
| src/hyperloglogplus.rs | ModelPlus |
| derived `Serialize`/`Deserialize` and the custom modules, on the serde data model | ModelSerde |
| `#[cfg]` features, debug/release, pointer width | ModelEnv |
| evaluation/src/main.rs: the hasher and the two experiments | ModelEval |
| evaluation/src/main.rs: `load`, `save`, `generate`, `run_impls!`, `main` after clap; std's number parsing and display, lines, paths; the thread pool | ModelFiles |
| evaluation/exp.py: `generate_cardinalities`, the file written by `prepare`, the rows of `calculate_statistics` up to the relative errors; Python's int/float arithmetic and text functions as used | ModelExp |
| evaluation/exp.py:159-161: numpy's `mean`, `median`, `std` as relations: any order and nesting of the additions, any `partition` | ModelStats |
| evaluation/exp.py:12-62: the commands of `prepare` and `run`, and clap's reading of commands of that form | ModelCommand |
| evaluation/exp.py:65-128: the curves, the band, the marks and the limits of the y axis | ModelPlot |
| benchmarks/benches/hyperloglog.rs and the `benches` modules of src: what each iteration does and yields | ModelBench |
| `serde_json::to_string` and `from_str` as the tests use them (hyperloglog.rs:383-410, hyperloglogplus.rs:1151-1174), with the derived code driven by JSON | ModelJson |
| derived `Debug` of the sketches, the registers and the sparse list; std's `DebugStruct`, `DebugTuple`, `DebugList`, `DebugSet`, `PadAdapter`, `pad_integral`, hexadecimal | ModelDebug |
| the loops of insert, merge, count, new and serde once more, with a counter of steps | ModelCost |
| insert, merge and count once more, as sequences of writes: the receiver a caught panic leaves | ModelUnwind |

### What is not modelled

Allocation failure; time, other than as the number of steps of C79; the bytes of serde formats other than JSON; of JSON the limit of 127 nested arrays and objects (the crate's own part nests three deep, C85) and the check that strings are UTF-8 (`from_str` is given text); a formatter whose sink refuses the text; the
`PhantomData` fields; hashers (any function is allowed instead); threads in the library (the API has no shared state);
Of the benchmarks the time they measure and how often they iterate; of `evaluation/` how clap splits command lines other than those exp.py writes, I/O errors once a file is open, the random number generators and Windows paths.  Of exp.py: argparse, what `glob` finds, and matplotlib; of numpy only what ModelStats and ModelPlot say.  `Vec` capacities are modelled only where the code reads them.

## Per property

| id | what is modelled, how it is proved |
|----|------------------------------------|
| C01, C02 | `new` on every u8: case analysis; fresh count by evaluation of the float program for all builds.  C02 fails at p = 16 on 32-bit debug builds (`C02_fresh_refuted`) |
| C03, C04 | every function in the panic monad; invariant by induction over histories (`PlusInv`, `PFInv`); builds agree because no operation overflows |
| C05 | pointer width parameter; false for p >= 16 on 32 bits: `count * count` overflows (panic in debug, a count <= -10000 or NaN in release).  True for 2p < width and for every width while sparse |
| C06-C11, C13 | refinement: the state after a history is determined, up to pending codes, by the set of absorbed hashes; `count` is a function of that set |
| C12 | `merge`: direct |
| C14 | `encode_hash`/`decode_hash`: word lemmas |
| C15, C16, C42 | the sparse/normal switch: monotonicity of the encoded size in the set of codes (`MergeFacts`), invariant over histories |
| C17-C20 | packed registers refine a list of values (`RegFacts`, `AbsorbFacts`) |
| C21-C23 | varints, difference coding and the two-way merge loop: induction, termination included (`EncFacts`, `MergeFacts`) |
| C24, C25, C37, C38, C43 | binary64 error analysis against the real formulas of `SpecReal`/`SpecCount` |
| C26 | false: NaN as soon as the raw estimate reaches 2^32.  Exact characterisation `C26_finite_iff` |
| C27 | false: counts drop at the 5m cut, at the sparse/normal switch, and on unsorted estimate tables.  Monotone within each regime |
| C28 | binary search contract + tables: interpolation is between the neighbours, never divides by zero; p = 5 and p = 6 tables are not sorted, which is covered |
| C29 | `RawLUT`: all entries, lifted to all registers |
| C30, C31 | serde data model.  Round trip unobservable; arbitrary deserialized data can panic (`C31_*_refuted`), with the exact condition for HyperLogLogPF and for HyperLogLogPlus with registers.  Without registers the state is an arbitrary byte string (`DecodeState`): what a flush leaves of it, and when that or the conversion to registers panics.  Ranks over 63 are followed bit by bit into their register and the next one (`UntidyFacts`).  `StoredOps.count_stored` drops the assumptions on precision and register count with overflow checks, `FreeOps.count_any` those on precision, register count and bytes without.  `PositionsFacts`: formats without field names (`visit_seq`) |
| C32, C33 | entry points; merging across builders and item types |
| C34, C35 | src/log.rs: bit-level case analysis; polynomial and rounding error, for every positive float |
| C36 | raw estimate: summation error; exactness for HyperLogLogPF |
| C39, C40 | false: codes with different ranks for one 25-bit prefix are counted separately; 2^24 buckets are used where the index has 25 bits |
| C41, C45-C47, C51 | exact counting over all hashes, and over all lists of n hashes: combinatorics on `N` |
| C44 | false at p = 5 (10 instead of the published 20), with an observable difference |
| C48 | bounds on the encoded length by the number of codes |
| C49 | the unused `estimate_raw`: same float operations |
| C50 | saturated sketches: raw estimate of the maximal register file |
| C52 | `Display` without a format by cases; under any format against `SpecFormat` (cut, then padded), by arithmetic on lengths |
| C53 | distinct 25-bit prefixes give distinct codes, whose linear count truncates to n; collisions by counting (`AccSmall`) |
| C54 | joint law of two registers by exact counting; second moments by summing tails (`MomentFacts`, `HarmonicMean`, with the evaluator `HarmonicNum`) |
| C55-C57 | Chebyshev over all hash assignments (`ProbFacts`, `AccFacts`, `AccSmall`, `AccOver`) combined with the float error analysis of the branch taken.  C57 is false: the large-range correction of HyperLogLogPF overshoots |
| C58 | `MeanTable` bounds the mean harmonic sum at every cardinality by integer arithmetic on a grid; `EntryCheck` compares every table entry with it (a boolean check run by the kernel, and its soundness proof)  `TableGrid`: the grid of cardinalities, by whole-number arithmetic on the decimals, and the rounding of the literals |
| C59 | `MeanRows` tabulates the mean of the harmonic sum on a grid of n/m and checks how steeply it falls (`MeanSlope`); `BiasCheck` compares the interpolated tables with it row by row; `BiasSound` proves that interpolation stays within what is checked, `AccMid` and `AccRange` join the four branches |
| C60, C61 | the same for HyperLogLogPF, whose raw estimate is not corrected (`PFCheck`, `AccMidPF`); the documented 2% |
| C62 | pigeonhole on buckets and codes; bounds of the logarithm (`SandwichFacts`) |
| C63 | a byte string splits uniquely into numbers and an unfinished rest (`DecodeFacts`); induction on that |
| C64 | one step from the invariant of `PlusInv`: the state after an insertion or merge, up to the order of the pending set (`FlushFacts`); `C64_amortised` by induction over the stream with the size of the pending set as potential |
| C65 | the mean of a product of nonnegative functions of different registers, all increasing or all decreasing, is at most the product of the means (`NegFacts`), so the moment generating function of a sum over registers is at most a product (`ChernoffFacts`); Bernstein-type bounds for it (`TailFacts`, `TailLarge`); the number of empty registers by a step-by-step bound (`OccFacts`); joined in `TailSmall` and `TailMid` with the branches of C59 and C60 |
| C66 | `SpecMean.plus_program`: any way of building, for each list of hashes, a sketch that has absorbed it. Inside a window around its mean the count is the raw estimate, a reciprocal of the harmonic sum, so the mean and variance of the sum (C54) give the mean and spread of the count; outside it the tails of C65 outweigh the largest count possible, 2^65 (`RiskCore` for any estimate that follows the harmonic sum this way, `RiskFacts`). HyperLogLogPF likewise, with the large-range correction or NaN outside the window (`RiskPF`). Up to m/2 values linear counting is certain, and its logarithm is bounded to second order around the mean number of empty registers (`RiskLinear`); sparse counts differ from n by the hashes that share a 25-bit prefix, of which mean and variance are known. Between 0.45 m and 6.06 m the pointwise windows of C59 bound the error of HyperLogLogPlus by 1.5% plus a multiple of two deviations whose mean squares are known, or a tail event of C65 has happened; the bias is at least −m/50 there (`BiasLow`), so no correction can inflate the count (`RiskMid`). With the other ranges this bounds its mean square error at every cardinality. HyperLogLogPF between 0.5 m and 4 m likewise, its linear count capped by the logarithm of m unless very few registers are empty, which is a tail event of its own (`RiskMidPF`) |
| C67 | the loops keep the sketch the result of a history (inserts and counts), so C07 and C08 give each line (`EvalFacts`); exact lines by C53's count of shared prefixes |
| C68 | `SpecSmall.hit`, `exact_limit`; with d registers filled linear counting gives -m ln(1-d/m), bounded from both sides by four and five terms of the series (`SmallFacts.series_lower`, `series_upper`, by the mean value theorem); the zero counter gives d (C19); the numbers of failing pairs follow from the sums of C46 and C51 at n = 2 |
| C69 | `SpecStored`: registers as bit fields of words (`reg_at`), which codes raise a zero register (`zeros_taken`), when a flush fails.  `StoredFacts.set_greater_panics` gives the panic condition of one register write; the loops over registers and codes are followed by induction with the zero counter as the invariant (`raise_all`, `write_codes`), decoding by C63.  `StoredClaim` only adds what deserialization guarantees (precision below 256, words below 2^32, bytes).  Without overflow checks (`SpecFree`, `FreeFacts`, `FreeOps`) the codes read from the bytes need not be sorted; the flush is then a merge of a sorted list into an arbitrary one (`merged`), and a vector is described by its differences modulo 2^32 |
| C70 | `SpecRust`: results by range and congruence (`outcome`), bit by bit (`same_bits`, `shifted`), by IEEE rounding of the exact real result (`ieee`, with Flocq's `round`).  Integer operations by arithmetic on `Z` and `N.testbit`; floating point from Flocq's `B*_correct`, adding the signs of overflows and zeros.  Literals (`LiteralFacts`): a literal of the model is one correctly rounded division of exact numbers |
| C71 | `SpecWide`: where a count overflows.  The inductions of `PlusInv`/`PFInv` again, without `narrow`, with three outcomes per call of `count` (`WideFacts.run_plus_exact`, `run_pf_exact`); counts of flushed states by the uniqueness of codes and registers |
| C72 | `SpecFiles`: numerals, lines, paths, files of numbers.  Text by induction (`TextFacts`, `PathFacts`); the pool by a small-step semantics in which the jobs interleave in any order and files are created and written in pieces: an invariant on every status and the files written so far, and a measure (`PoolFacts`).  The experiments by C67/C68.  That every input gets its output is false when two inputs have the same name (`C72_same_name_refuted`) |
| C73 | from below: the variance of the number of empty registers exactly (C54's joint law), a chord under the square of ln gives the spread of linear counting, and its bias settles n = 1; against C66's upper bound for sparse sketches (`LowerFacts`) |
| C74 | `SpecExp`: the rounded powers of 1.007, the rows of the files, the error as a formula in reals.  The loop by induction on the exact value of the current term, which grows by at least 0.6%, so it ends (`ExpFacts`); reading back what the evaluation program prints (`ExpStats`); composed with C67 and C72 from `prepare` to the statistics (`ExpMain`) |
| C75 | `ModelArgs`: the rules declared to clap, on the values it hands out.  `FilesArgs` proves which arguments they admit, that the program then never lacks one, that a pool without jobs does nothing (`pool_nil`), and follows the unreadable arguments to the panic |
| C76 | `ModelBench`: `benchmarks/` and the four `benches` modules, with the number of iterations, the random numbers, the shuffle and the hash functions arbitrary.  `BenchFacts` reduces them to the invariants of C01-C13 (`iter_seen_inv`); a sketch that was forced into the normal representation is not one that histories reach, so it has its own invariant, `normal_ok`.  `BenchSparse` follows the 500 buffered codes, `BenchFloat` bounds the values |
| C77 | `ModelJson`: the compact writer, a recursive-descent reader, and the derived visitors on JSON values.  `SpecJson` states the RFC 8259 grammar as an inductive relation between values and texts, and the shape of the two types on it.  `JsonGrammar`: the reader decides the grammar, by mutual induction on derivations and on fuel; `JsonRead`: the visitors decide the shapes; `JsonFacts`: what is written is in the grammar; `JsonClaim`: a JSON round trip is the round trip of C30 on the serde data model, so the theorems about programs with round trips and about sketches from outside carry over |
| C78 | `ModelDebug`: the calls of the derived code as a tree, written by std's builders with the indenting adapter as a function on texts.  `SpecDebug` gives the texts as templates: one line, or a list of lines with their indentation; integers as numerals of a number with padding around or inside.  Each template is proved to be met by exactly the text written (for "#" by induction over the lines: indenting a text of lines indents each line).  That texts determine sketches: digits, signs and the mark are never followed by another such character, and rows of a list are deeper than the line that closes it.  Witnesses: a width that makes two sketches look alike; two orders of insertion that can be told apart. |
| C79 | `ModelCost`: the loops with a counter; erasing it gives back the functions.  `SpecCost`: the budget of a program, from its calls alone.  `CostFacts`: steps of each loop in terms of the bytes read and written; `CostState`: each call costs at most its budget plus the potential it releases, where a sketch stores 725 steps for each pending code and nine for each register while it is sparse; `CostClaim`: induction over programs.  HyperLogLogPF exactly |
| C80 | `SpecFresh`: the hashes that raise a register, how many they are, hashes per code. `FreshFacts`: a hash that raises nothing keeps the invariant of `PFInv` and `PlusInv`, which determine the state; sizes of disjoint unions over buckets and codes; the inputs that defeat the sketches from C68 and C24. `ChangeFacts`: the sum of the registers grows with every change, the number of codes while sparse |
| C81 | `ModelUnwind`: each method returns the receiver together with how it ends; erasing the receiver of a panic gives back the functions. `SpecUnwind`: a flush that stopped, codes read, the program without its failed calls. `UnwindFacts`: for any receiver, by following the writes; loops leave the state after a prefix. `UnwindClaim`: programs by induction with the invariants of `PFInv` and `PlusInv`, which determine the counted state |
| C82 | `SpecTally`: how often each value occurs among the registers. `TallyFacts`: partial sums are multiples of 2^-(53-p) below 2^p, so the float sum is exact and does not depend on the order; a witness where it does. Moving buckets permutes the list of registers; flipped index bits move buckets, and codes one to one |
| C83 | `SpecUnion`.  `UnionFacts`: linear counting is superadditive (`ln` of a product) and exceeds the number of buckets hit by n^2/2M (mean value theorem); the lengths of the code lists by counting occurrences.  Half-empty sketches from the published formulas (C37, C38) and the bounds on the bias tables, the merged ones from C50 |
| C84 | `SpecSerde`: what is read as what, as relations on the data model.  `SerdeSpec`: the model's readers decide them, in both directions; for the set of recent codes up to its order |
| C85 | `SizeFacts`: the texts of C77 with the number of digits of each numeral, bounded by the invariants behind C16, C17 and C18 |
| C86 | `GapFacts`: varint lengths are monotone, so the differences of a union cost at most those of both parts (induction on the least element); codes without a rank are below 2^26, so few of their differences take three bytes; Markov's inequality for the number of codes with a rank |
| C87 | `StatsFacts`: induction on the tree of additions (one relative rounding per addition; adding a zero is exact), then the roundings of the division, the differences, squares and square root, with an absolute term for underflow; the error of the mean enters the variance as its square.  `MedianFacts`: the middle elements, unique by counting |
| C88 | `CommandFacts`: the options are read one by one; a value with a hyphen leaves the option before it without a value.  `CommandPipeline`: C74 from exp.py's own arguments |
| C89 | `CommandFirst`: C88, `gen_ok` (C72) for the runs in order, the same files in the order of glob, C72 for the estimates, and C74 with the cardinalities 1, …, count |
| C90 | `ModelPlot`: the arrays that [plot] hands to matplotlib, Python's `max`, `np.arange`; `SpecPlot`: the decimals of the axes.  `PlotFacts`: the maximum by induction, the ceiling by Flocq's `Bnearbyint`, and C87 with bounds on the mean and the deviation so that `arange` does not overflow |
| C91 | `ExactFacts`: C24 (`small_exact`, `small_sharp`) with one sparse code per hash (`codes_prefixes`), the lines of C67 and the tables of C88 and C89; sums, means and deviations of zeros are zero in any order of additions |
| C92 | `SpecPoints`: the points expected.  `PlotFirst`: C88, C89 and C90 with the files in any order; HyperLogLogPF shows at most 2^40 by C26 (`pf_low`), HyperLogLogPlus at most twice the number of hashes by C62 (`plus_low`) |
| C93 | `OrderFacts`: induction over the rounds (`stats_perm`); sums, means, medians and deviations in any order of additions are the same for a permuted list; the cardinalities by C74 |

Statements that are false of the code keep their full statement in `properties.jsonl`; the refutation is a
theorem `..._refuted` with a witness, and what remains true is a theorem `..._partial` or an exact
characterisation.

## Findings

1. p = 5 uses threshold 10; the paper's value is 20 (`C44_refuted`).
2. 32-bit targets: `count * count` overflows for p >= 16 (C02, C05).
3. `HyperLogLogPF::count` is NaN once the raw estimate reaches 2^32 (`C26_finite_iff`, `C50_pf`).
4. Sparse counting uses 2^24 buckets although indexes have 25 bits; the overestimate is at least n^2/2^27
   (`C40_refuted`).
5. Codes of one prefix with different ranks are counted separately (`C39_refuted`).
6. `count` can drop when a value is added (C27).
7. Deserialized sketches can panic (C31), even if every field is in range: a code with a stored rank of 64 is
   written as 0 and decrements the zero counter each time it is absorbed (`C31_untidy_witness`).
8. `src/lib.rs:80` (`impl std::error::Error`) is not gated by the `std` feature, so the no_std build does not
   compile as it stands; the model's `feat_std = false` is the build without that line.
9. The estimate tables for p = 5 and 6 are not sorted; the binary search still gives a bracketing pair
   (`C28_between`).
10. `HyperLogLogPF::count` adds the 32-bit large-range correction to a raw estimate that does not need it:
   at p = 16 and 2^31 values, 92.7% of the hash assignments are counted at least 20% too high
   (`C57_refuted`, `C57_high`).
11. `HyperLogLogCommon::estimate_raw` (common.rs:150) is never called (C49 shows it is right).
12. `evaluation run --mode hashes` names its outputs by the last component of the inputs' paths: inputs of the same
   name overwrite each other's estimates, silently (`C72_same_name_refuted`).
13. Several benchmarks do not exercise what they are named for: without a hasher all values hit one register with one
   rank (`C76_pf_insert`, `C76_pf_count`, `C76_plus_insert_normal`), `bench_plus_count_normal` counts an empty sketch
   (`C76_plus_count_normal`), and `bench_registers_set` writes 123 into registers of 6 bits, which breaks the zero
   counter (`C76_registers_set`).
14. `from_str` accepts JSON texts of less than 200 characters on whose sketches `count` panics, and reads a
   HyperLogLog++ text without a field "registers" as a sparse sketch (`C77_hostile_witness`, `C77_registers`).
15. Values hashed to one bucket are counted one by one while HyperLogLogPlus is sparse; when it leaves the sparse
   representation the count falls to 1: at precision 4 from 12 to 1 with the 13th value (`C80_defeat_plus`,
   `C80_defeat_example`).
16. `exp.py run --mode cardinalities` without `--runs` passes the text "None" on, at which the program panics; `run --mode
   hashes` without `--input` looks for files in a directory called "None" (`C88_cards`, `C88_hashes`).
17. `exp.py plot` on a directory without estimates ends in a ValueError of `max` (`C90_plot`).
