# Formal model of Panacea in Rocq (Coq 8.16.1)

Properties: `properties.jsonl` (C01..). Status: `MANIFEST.json`. Seeded-bug log: `seeded/LOG.jsonl`.

## Approach

The Rust code is re-expressed function by function as small total Gallina functions
(`rocq/theories/M*.v`), each citing its source lines. Rust panics are data: every function that
can panic returns `res A = Ok a | Panic kind`. Integer overflow is explicit: operations that use
plain `+ - * <<` take a `mode` (`Checked` = overflow checks on, as in dev/test builds; `Wrapping` =
release). Words are `Z` in `[0,2^64)` with explicit `mod 2^64`. Sizes and indices are `nat`.
Randomness (masks, noise, shuffles) is an argument: theorems hold for all its values (noise below a
bound). The f64 FFT of concrete-core is an arbitrary function `fft : list (poly*poly) -> poly` about
which theorems assume only `fft_ok`: for operands of the sizes used, the result differs from
the exact sum of negacyclic products by at most `eps` per coefficient (any `eps`). C82 derives `fft_ok` from the
accuracy of the floating-point operations.

Property statements live in `P*.v` files, each closed by `exact lemma` and followed by
`Print Assumptions`; they use `Spec*.v`, short specifications independent of the model.

## Layers

| file | models |
|---|---|
| MBase | Rust results, panics, u64 arithmetic in both overflow modes |
| MCodec | src/codec.rs (and concrete's closest_representable / signed decomposition) |
| MUtils | src/utils.rs |
| MHash | src/naive_hash.rs |
| MTree | src/decision_tree.rs, plaintext part |
| MPoly | polynomials: concrete's wrapping add/sub/mul/monomial ops used by the crate |
| MRlwe, MLwe | src/rlwe.rs and src/rgsw.rs, src/lwe.rs and expand_slow |
| MEncTree | src/decision_tree.rs, encrypted part |
| MOram | src/oram.rs; the argument `pool` says whether the caller is a worker of a rayon pool |
| MSched | interleaving semantics of the rayon tasks of src/oram.rs: tasks assigned to workers in any way, any order of lock operations, loads, stores; RwLock with and without writer preference; any reduction tree |
| MCtx | src/context.rs: the random generators, as functions of the generator's word stream |
| MParams, MMain | src/params.rs, src/cli.rs, src/main.rs; the FFT of a parameter set is a function of its polynomial size, as in `Fft::new` |
| MSim | `simulate` of src/decision_tree.rs with its flag `parallel` |
| MCsv | src/utils.rs parse_csv (on records), src/macros.rs |
| MJson | JSON values, serde_json's compact printer, its reader of texts |
| MSerde, MShipped | derived Serialize/Deserialize of src/decision_tree.rs and src/params.rs (with serde_json's recursion limit); params.json byte for byte |
| MOut | src/main.rs: everything main and the drivers print (floats and durations as opaque texts) |
| MSeed | src/context.rs: seeds of the generators; src/decision_tree.rs: SimulationResult::new and the whole of simulate |
| MFft | the Fourier domain behind `fft`: conversion to f64, folding and twisting, products and sums of src/rlwe.rs:1076-1179 and 783-913, inverse, conversion to the torus; f64 operations are functions on the reals given as arguments |
| MShow, MCli | the Display texts; clap's rules and the program around main |
| MNoise | concrete-core's Gaussian sampler as a function of pairs of words |

Semantics used in proofs: the ring Z_{2^64}[X]/(X^n+1) as functions nat -> Z modulo 2^64 (`SpecRing.v`, `PolyRing.v`),
`phase` = body - mask*s, noise bounds `bd e B` (each coefficient congruent to some z with |z|<=B).

Files: `M*` model, `Spec*` specifications, `Pf*` proofs, `L*` lemmas in the form of the statements, `P[A-Z]*` the
theorems with `Print Assumptions` and instances, `Demo` the concrete parameters of the instances. Suffix
`_refuted`: the claim in the English property is false of the code, with a witness or a general counterexample.

## Plan per property

C01-C03 codec: arithmetic proofs with div/mod; f64 constants computed with the stdlib's SpecFloat.
C04-C06 utils: induction. C07-C10 hash: permutations/NoDup; greedy loop invariant; C10 refuted by a witness.
C11 substitution: linear extension from monomials. C12-C17 RLWE: ring identities + codec window.
C18-C28 RGSW / key switching / LWE: gadget decomposition lemma + noise bounds.
C29 noise report: exact max; ternary refuted by witness.
C30-C35 trees: structural induction. C36-C39: induction over trees with noise invariant.
C40-C48 ORAM: invariant "cell phase = delta*m + e, |e|<=E" preserved by queries; refinement to an array.
C49-C51, C53: programs over cells with locks; interleaving lemma for disjoint footprints; access traces.
C52, C54, C55: direct. C56: exact behaviour + refutation. C57-C59: lists and driver programs.
C60-C61: composition of C40-C51 over whole histories: setup + invariant + determinism of schedules.
C62: exact ranges of the generators, then instances of C12/C26/C59. C63, C64: rows of the gadget, conversion
(used inside C24/C28) as theorems of their own. C65: main's loop over parameter sets, composed of C57-C59.
C66: allocated and cleared ciphertexts. C67: one-element loops outside a rayon pool (MOram's `tid`, argument `pool`).
C68: SpecReject follows every held lock along every execution: a panic with a write guard held would poison the row
and is shown impossible; rejected calls (C54) leave memory and locks unchanged, so histories (of single and multi-queries, and of batches) may contain them.
C69: numeric instances at the default parameters: chains of selections by induction, trees from C36, ORAM from C43.
C70: reading of decimal numerals characterised by an independent `decimal` predicate; records by Forall2. C71: lists.
C72: SpecDriver replays main and the drivers with any execution of every server call; each step follows C49's determinism.
C73: SpecView records everything the server sees of a history; simulation of C53 carried over steps, shapes and masks of
queries from C52. C74: lock-free parallel map is deterministic; C39 gives the predictions.
C75: relational simulation of two server runs on messages of equal dimensions (PfTreeShape). C76: C39 on
the truncated tree, with the leaf-depth sum shown not to grow.
C77, C78: the reader of MJson accepts exactly the texts of the JSON grammar (SpecText), the derived deserialisers exactly
the values that describe a tree or a list (SpecJson); printing then reading is the identity. `dev` is the conversion of
number literals to f64 (any function).
C79: inversion of the drivers of SpecDriver (any schedule) and of simulate; no hypothesis on noise or FFT. C80: C02 and
inversion. C81: splitting the printed text at newlines and commas (SpecOut) gives back the cells that were joined.
C83: the same for the Display texts (MShow, SpecShow); decimals are unique.
C84: MCli models clap's documented rules as a scanner; it accepts exactly the lists spelled by SpecCli; composed with C78 and C81.
C85: MNoise models concrete-core's polar sampler on words; -ln s <= 127 ln 2 since s is at least 2^-127, and |u| <= sqrt s, give a bound of
13.5 standard deviations before rounding to a word.
C86: MShuffle models rand 0.8.5's shuffle (Fisher-Yates from the top, widening multiplication with rejection; as published, the
crate is not in the sandbox) on streams of 32-bit words. Counting: the accepted words for an index form an interval of length 2^leading_zeros; a permutation
has exactly one index sequence; the number of streams of m words for an index sequence depends on the bounds only (induction on m).
Symmetry: renaming cells or slots permutes the outcomes. Perfect words are assumed (ChaCha is not modelled).
C87: MLex is csv-core's automaton (as published); it computes the unique reading of the grammar of SpecLex (induction on the derivation, and
existence of a derivation by induction on the length); C70 does the rest. Which records are valid UTF-8 is a parameter, only known on ASCII.
C86_terminates: induction on the number of words; a rejected word leaves the bounds unchanged, at least half are accepted (PfShuffle3).

C88: by C86 all lists of distinct cells are equally likely for the slots of a request, so probabilities are ratios of numbers of lists (falling
factorials); an item is dropped iff all of its cells lie in rows of the mapping of the items before it (greedy placement, C47's lemmas).
C89: MBench models each benchmark as its preparation and an iterated step; steps that ignore their output give the same result each time
(`repeated_same`), the others need an invariant (`repeated_inv`): the output is k times the product.
C90: MFloat takes the conversion to f64 and the logarithm as functions on reals; log2 of an integer that is not a power of two is at least 2^-k away from the
integers around it, more than the rounding error up to 2^48; at 2^49 + 1 the correctly rounded logarithm is 49. `eval_truncated` (as C36, with any
number of output bits) gives the rest.
C91: MTests models the unit tests as programs that end normally or panic, with keys, messages and randomness as arguments; each is run symbolically
through the correctness theorems of the operations, and the bounds are evaluated at the default parameters. The two flaky ones: an exact criterion for the
noise test, a witness for the Fourier test. The tests of expansion, traversal, simulate and the ORAM are not covered: the worst-case bounds exceed the budget there.
C92: MIeee repeats MFft on Flocq's `binary_float 53 1024` (zeros, infinities, NaN, saturating casts). Every intermediate number is bounded by a power of
two: a stage of the transform multiplies the bound by four; while the exponent stays below 1024 each IEEE operation is the rounded real one, so both computations
give the same words.
C82: the exact transform is evaluation at the odd roots of unity (Parseval, convolution); errors propagate through
conversion, twist, transform (l2 norm), product (Cauchy-Schwarz), sums (l1), inverse and rounding to the torus. The radix-2
transform with any rounding is shown accurate by induction on the number of stages; underflow adds a fixed amount per coefficient (`padded`).
C93: composition, no new model: C84's reading of the arguments, C78's files, C65/C59's drivers, C81's table and C72's schedules give `C93_completes`; for the ring of C82, C92's IEEE
transform, C85's noise, C62's generators and C86's shuffle discharge every hypothesis in `C93_small_ring` (the noise budget is evaluated).
C94: `SpecTouch.v` counts the events of a course (SpecShape/SpecView). `PfTouch*.v`: a program's events are a function of the row lengths alone (`emits`), the workers' observations are a
permutation of their tasks' events (`observed_counts`), rows keep their lengths; then per operation, with C07/C08's bijection for the consistency loop; `C94_history` by induction on the history.
C95: MTests2 models the other unit tests the same way. `PfTests4-7.v` run them symbolically on top of C39 (private evaluation), C24/C28 (expansions), C43, C48 and C60 (histories); the batch test is decided both ways (`C95_oram_batch_test`), its failing hash functions are counted with C88. The worst-case noise of the default parameters exceeds the budget for dense keys, so the tests of expansion, evaluation and ORAM carry the budget as a hypothesis.

C96: MIeee2 repeats MIeee with the complex product as a parameter (separate operations, or fused multiply-add as in `num_complex`/vectorised code, in either order). `SpecFft2.machine_with` is the real machine
with any multiplication of bounded error and any tables within `w` of the roots of unity; PfFft7/8 redo C82's induction on the stages with these two errors, PfIeee2 shows the IEEE run equals the real one. `SpecTables.computed_tables` is the textbook computation
`sin_cos(k * (PI / n))` in doubles from any sin_cos accurate to 2^-52 (pi by Machin's formula); C96_computed bounds its error. The protocols follow as in C92 and C93.

C97: MAvg computes the reported figures on Flocq's binary64 (sum from 0, division by the number of answers asked for); log2 is an argument, specified in SpecAvg (accurate to 2^-52, minus infinity at 0, not crossing
powers of two; the correctly rounded one qualifies). PfAvg: induction over the sum with the partial sums between lo*j and hi*j, then one rounding of the quotient; comparisons by the gap 2^-43 between logarithms of integers
below 2^43. MOut/MCli pass the divisor to the printing function, so PAvg2 states the table of the whole program with real figures. Findings: NaN for zero queries, minus infinity for a noise-free answer, half the figure for a dropped item.
C98: MTests3 has the assertion of test_fourier_mul on Flocq's binary64 (conversion of the words, subtraction, absolute value, 1e-9 as the nearest double, product, comparison). PfTests8 bounds the conversion by 2048 and the bound by
18446744073.7 and .8; the test's loop is the one of C91 with the comparison as an argument. The test
multiplies a ternary polynomial taken as torus elements with a uniform one taken as integers, the opposite of the scheme's use; C96_either (PClose3) shows that the error bound of C96 holds whichever operand is small (in PfFft3 the padding for
underflow of the small operand is scaled by the size of the large one).

C99: the model carries the build mode (`mode`: Checked with overflow checks, Wrapping without) in every primitive that can overflow and in the context. SpecBuild puts one context, client or server in both modes and says when two outcomes agree (`agree`: the debug one is an overflow panic, or they are equal) and what a history of requests returns. PfBuild proves a logical relation through the `res` monad for codec, encryption, RGSW, trees; PfBuild2 through tasks and parallel loops (`psame`, `ssame`), client, server and drivers; PfBuild3 through the printed text. PBuild and PBuild2 (functions not reached from there) state it; PBuild3 does for histories of requests under any schedules of both servers (SpecBuild2, through C49); `C99_any_schedule` combines it with C72, `C99_same_refuted` gives cases where the builds differ. Not covered: the length check of `izip!`, a `debug_assert` whose difference between the builds is C71, and the deviations of dependencies' own debug assertions.

Every property is expressible in the model. Not expressible (and not claimed): cryptographic security
(indistinguishability), statistical noise distribution, timing, memory consumption.

## Trusted base

* Coq's kernel (8.16.1). `Print Assumptions` says "Closed under the global context" for every theorem `Cnn_*` except
  those of C82, C85, C90, C92, `C93_small_ring`, C96, C97 and C98: no axioms, not even of the standard library. The theorems `C82_*` (PFft.v), `C85_*` (PNoise.v), `C90_*` (PFloat.v), `C92_*` (PIeee.v), `C93_small_ring` (PWhole.v), `C96_*` (PClose.v, PClose2.v, PClose3.v), `C97_*` (PAvg.v, PAvg2.v; not `C97_none`), `C98_*` (PTests3.v) are about real numbers and use
  exactly the standard library's `ClassicalDedekindReals.sig_forall_dec`, `ClassicalDedekindReals.sig_not_dec`, for `C82_binary64`, some theorems of C85 and those of C90, C92, C93, C96, C97 and C98 `Classical_Prop.classic`, and
  `FunctionalExtensionality.functional_extensionality_dep`. (coqchk's summary of the loaded libraries lists seven
  `Coq.ssr.ssrunder.Under_rel.*` fields of a standard library functor; no theorem uses them.)
* The reading of the Rust code, and of the documented behaviour of what it calls, none of which is in the
  sandbox: concrete-core (polynomial arithmetic, encryption = mask*s + noise + message, decomposition, sample
  extraction, GGSW layout), bitvec, rayon, rand, serde, clap. Each model definition names what it assumes.
* Floating point: the codec constants of the ternary encoding are computed with the standard library's SpecFloat
  (IEEE binary64). The FFT is not modelled bit by bit but as any function within `eps` of the exact product; C82 shows
  this of every arithmetic with small relative errors above an underflow threshold, C92 that
  overflow, infinities and NaN do not occur. That f64 is such an arithmetic is proved of `SpecDouble.binary64`, Flocq's round-to-nearest-even to 53 digits
  with exponents from -1074 (Flocq is used for this, for C90 and for the IEEE numbers of C92; it adds no axioms); that the plans of concrete-fft
  (which picks a radix at run time) are as accurate as `accurate` asks is assumed, that a radix-2 plan is, is proved, also with inexact tables and fused multiply-add (C96).

### Modelled

All functions of src/codec.rs, utils.rs (parse_csv from the csv crate's records on), macros.rs, naive_hash.rs, decision_tree.rs (but file reading
and timing), rlwe.rs, rgsw.rs, lwe.rs, context.rs (the generators as functions of a word stream), oram.rs (with
threads and locks), params.rs, cli.rs (clap's documented rules: MCli), main.rs (the three drivers and main, without
timing; what is printed is in MOut), benches/my_benchmark.rs (but criterion), the unit tests of rlwe.rs, rgsw.rs, lwe.rs and
demultiplexing (MTests), and all others: codec, hashing, trees, JSON, expansion, private evaluation and the ORAM (MTests2).

### Not modelled

* Security, noise distributions (their bounds are: C85), timing, memory use. (`FftBufferPool::new(rayon::max_num_threads())` allocates one
  FFT buffer per possible thread, 65535 of them on 64-bit machines: seen, not stated as a theorem.)
* the commented-out cmux_with_buf2, Debug instances; in JSON texts: bytes that are not UTF-8, and serde_json's laxer treatment of lone surrogates in strings it skips.
* Overflow of `usize` products of dimensions (rows*cols, h_count*input_domain): vectors of those lengths exist.
* Lock poisoning: excluded by C68 (cells have the context's ring dimension, so copying a cell under the guard does not
  panic; the FFT buffer mutexes belong to one call and are dropped with it).
* `secure_seed = false` (fixed seed) only changes which random words are drawn (C80); all other theorems hold for all words.
* The accuracy of the library's `f64::log2` is assumed where C97 needs it (`accurate_log2`, `ordered_log2`); the digits with which a figure is printed are a function argument.
* izip! is modelled by itself (C71); inside MRlwe its uses are plain zips: lengths are equal there by construction.

### Hypotheses to know about

* Noise: theorems about decryption assume worst-case bounds (`2*(B + growth..) < 2^(64-k)`), parametric in the noise
  bound E (C85: at most 14 standard deviations), the key's l1 norm S and the FFT error eps. The bounds are worst case, not statistical: at the default
  parameters (n = 2048) the ORAM's bounds exceed the budget, so there the theorems state the noise propagation but not
  the final decryption; selection chains and trees do fit (C69), and so does the ORAM at n = 1024, modulus 2 (C69). Most
  instances use n = 4. `params_ok` itself holds at the default parameters. The whole tree protocol (C39) at the default
  context `simulate` uses fits only for little noise (C69_default_protocol: at most four ones in the key, noise at most
  1): comparing and expanding costs a worst-case factor of about 2^40 of the noise. With full keys and noise, only the
  evaluation from given decision bits (row noise up to 2^13) is covered.
* `fft_ok`, `fft_size`: the FFT's output has n coefficients, error at most eps on the operand sizes that occur. What double
  precision guarantees in the worst case (C82) is about 2^37 at the default parameters. C69_default_chain and
  C69_default_tree are parametric in eps and leave room for 110 steps then. C69_default_protocol and
  C69_production_oram need eps = 2^10, better than doubles guarantee in the worst case: for those they are statements about a
  more precise transform. C82_protocol and C82_oram are the same claims with double precision, in a ring of
  dimension 32 where the worst-case bounds fit.
* `spread pool len`: the caller is a pool worker or the loop does not have exactly one element (else C67).

## Findings

False claims about the code, each with a theorem:
C10 (mapping may fail to place an item although a matching exists), C14 (update_body_with_mul returns 0), C17 (not
for plaintext moduli other than 2), C23 (neg_gsw with negs_base != base), C29 (compute_noise_ternary), C36 (all-zero
labels), C45 (the same item twice in process_multi), C47 (repeated item in a batch write), C54 (widths), C55
(gen_*_query_one with several rows), C56 (decrypt_db), C59 (batch check, query_count >= item_count, cells not
divisible by 3), C63 (noise report of an encryption of 0), C65 (wrong parameter path), C67 (one-element loops outside
a pool; `--mode 1` with default options panics), C70 (parse_csv drops the first row of a headerless file),
C77 (trees deeper than 63 are written as JSON but cannot be read back), C80 (fixed seed: the first binary plaintext is
the secret key; the mask of the first ciphertext contains it), C81 (columns n and plaintext_modulus rounded down to powers of two), C84 (--secure-seed cannot be
switched off from the command line), C85 (noise above the eight standard deviations the noise test allows), C87 (a CSV quotation left open
swallows rows without an error), C88 (the batched mode halves the reported noise if an item is dropped), C89
(the benchmarks external_product, keyswitch gsw and less_eq feed their output back), C90 (a label 2^49 comes out as 0, the largest label of all panics or
gives no output), C91 (test_compute_noise fails for some draws; test_fourier_mul fails for an FFT that is off by one), C95 (test_oram_batch fails on correct code for about one hash function in 17000), C97 (zero queries end
with status 0 and NaN; one noise-free answer makes the reported figure minus infinity; a dropped batch item halves it), C98 (test_fourier_mul fails on a correct product whose coefficients are near the wrap-around), C99 (a noise of 2^63 is reported as 0 by a release build).

## Non-vacuity

Each P*.v file has Examples that meet the hypotheses of its theorems. PVac, PVac2 and PVac3 apply further theorems with many
hypotheses (C62, C69, C83, C85, C86, C88, C91, C92, C96, C97, C98) to concrete cases. PTests4 states what the assertions of the unit tests and the
cast of an f64 to a word decide.

## Seeded bugs

`seeded/LOG.jsonl`: one line per wrong program tried, with the theorems that stopped proving. The harness edits a copy
of the model, rebuilds everything that depends on it, admits each proof that fails, and reports all theorems that
depend on a failed proof.
