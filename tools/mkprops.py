#!/usr/bin/env python3
"""Regenerates /verif/properties.jsonl (one JSON object per property)."""
import json, os
P = []
def p(i, title, statement, quantifier, why, anchors):
    P.append(dict(id=i, title=title, statement=statement, quantifier=quantifier,
                  why_tests_cant=why, anchors=anchors))

p("C01","Codec decoding removes any error below the rounding threshold",
  "For every codec built by Codec::new(t) with t a power of two (2 <= t <= 2^63), every plaintext m < t and every error e with -delta/2 <= e < delta/2 (delta = 2^64/t), encode succeeds without overflow and decode(encode(m) + e mod 2^64) = m; at e = delta/2 it does not return m. The same holds coefficient by coefficient for poly_encode / poly_decode.",
  "all t, all m < t, all errors in the window, debug and release arithmetic",
  "The error window has up to 2^63 values per plaintext and 63 moduli; the tests sample two errors for two moduli.",
  ["src/codec.rs: Codec::new, encode, decode, poly_encode, poly_decode, largest_error, pt_modulus"])
p("C02","Codec rejects what it cannot represent",
  "Codec::new panics on every t that is not a power of two; encode panics exactly when x >= t and otherwise multiplies by delta with no wrap-around, and pt_modulus * delta = 2^64. t = 1 passes the power-of-two test but panics on the shift in checked builds, while in release builds it yields a codec whose decode does not return the only plaintext.",
  "all 64-bit t and x, both overflow modes",
  "The guard must be exact on all 2^64 inputs.",
  ["src/codec.rs: Codec::new, encode, pt_modulus, largest_error"])
p("C03","Ternary codec round trip under noise",
  "For x in {0, 1, -1 (u64::MAX)} and every error in the exact window given by the constants computed in f64 (at least |e| <= 3074457345618257920), ternary_decode(ternary_encode(x)+e) = x; every other input makes ternary_encode panic; ternary_decode is total.",
  "all ternary scalars, all errors in the window, all 64-bit words",
  "The thresholds come out of floating point constants; boundary behaviour over 2^64 inputs cannot be sampled.",
  ["src/codec.rs: ternary_encode, ternary_decode, poly_ternary_encode, poly_ternary_decode"])
p("C04","log2 is the exact floor logarithm",
  "For every 0 < x < 2^64, 2^log2(x) <= x < 2^(log2(x)+1); log2(0) panics in checked builds and wraps to usize::MAX in release builds.",
  "all usize values, both overflow modes", "All sizes, keys and shifts of the library derive from it.",
  ["src/utils.rs: log2"])
p("C05","transpose is exact matrix transposition",
  "For every non-empty rectangular matrix v, transpose(v)[j][i] = v[i][j], with swapped dimensions, and transposing twice is the identity when there is at least one column; it panics on an empty outer vector or if some row is shorter than the first, and drops surplus entries of longer rows.",
  "all matrices of all sizes and element types", "Unbounded shapes, including ragged ones.",
  ["src/utils.rs: transpose"])
p("C06","Lossy conversion of a plaintext is its low 64 bits",
  "pt_to_lossy_u64 returns the 64-bit word whose i-th bit is coefficient i (zero beyond the list), never overflows, ignores coefficients from 64 on, and panics exactly when one of the first 64 coefficients is not a bit.",
  "all plaintext lists of all lengths", "2^64 outcomes and unbounded lengths.",
  ["src/utils.rs: pt_to_lossy_u64"])
p("C07","The hash family is injective and in range",
  "For every hash built by NaiveHash::new, whatever the shuffle, (h,x) -> hash(h,x) is a bijection from h_count x input_domain onto 0..output_domain; checked_hash returns Some exactly on valid arguments and then agrees with hash; NaiveHash::new panics iff h_count = 0. The unchecked accessors alias: with h_count = 1, hash1(x) is hash0(x+1).",
  "all h_count, input_domain, all shuffles (permutations), all h, x",
  "The table is a random permutation; a test sees a handful of the (h*n)! tables.",
  ["src/naive_hash.rs: NaiveHash::new, hash, checked_hash, hash0, hash1, hash2, output_domain"])
p("C08","Hash positions tile the database exactly",
  "When rows*cols = h_count*input_domain, hash_to_tuple(h, x, cols) ranges over every cell (r,c) with r < rows, c < cols exactly once as (h,x) ranges over its domain, and r*cols + c = hash(h,x).",
  "all dimensions, shuffles, h, x", "Overlap of two items would corrupt data only for particular shuffles.",
  ["src/naive_hash.rs: hash_to_tuple", "src/oram.rs: gen_dummy_database, process_batch"])
p("C09","Batch mapping is sound, conflict free and greedy-maximal",
  "hash_to_mapping returns a map in which each row appears once, every entry r -> (c,i) has i in the requested list and (r,c) = hash_to_tuple(h,i) for some h; for duplicate-free requests every index is served at most once; the first index is always served; an index is missing only if every one of its rows is already taken by an earlier index.",
  "all hash tables, all index lists, all widths d > 0", "Depends on the collision pattern of a random table.",
  ["src/naive_hash.rs: hash_to_mapping"])
p("C10","A batch index that cannot be placed is reported",
  "Claimed by the code (panic 'all slots are taken'): if an index finds no free row, hash_to_mapping panics. Refuted: the check sits inside the loop and can never fire, the index is silently dropped from the query.",
  "all hash tables and index lists", "Needs a colliding table; with random tables a test almost never sees it and nothing signals it.",
  ["src/naive_hash.rs: hash_to_mapping"])
p("C11","eval_x_k is the substitution X -> X^k in Z_q[X]/(X^n+1)",
  "For odd k and n a power of two, eval_x_k(f,k) is f(X^k) reduced modulo X^n+1; it is a ring homomorphism (sums, negacyclic products, one), and substituting k then k' equals substituting k*k'; for even k, or if n is not a power of two, it panics.",
  "all n, all odd k, all coefficient vectors", "Signs and wrap-around must be right for all exponents.",
  ["src/utils.rs: eval_x_k, eval_x_k_in_memory"])
p("C12","RLWE encryption decrypts to the plaintext for every mask and bounded noise",
  "For every key, mask and noise with |noise| within the codec window, decrypt_decode_rlwe(encode_encrypt_rlwe(m)) = m; ternary variant likewise; decrypt_rlwe returns exactly message + noise.",
  "all keys, masks, plaintexts, noise polynomials below the bound", "Random masks and noise: tests sample one.",
  ["src/rlwe.rs: encode_encrypt_rlwe, decrypt_decode_rlwe, encrypt_rlwe, decrypt_rlwe, ternary_encrypt_rlwe, ternary_decrypt_rlwe, encrypt_constant_rlwe"])
p("C13","RLWE additions and subtractions are homomorphic and exact",
  "decrypt_rlwe of update_with_add / update_with_sub is the coefficientwise wrapping sum / difference of the decryptions; add followed by sub restores the ciphertext; clear and fill_with_copy give zero / the copied ciphertext; update_with_monomial_div divides the decryption by X^m.",
  "all keys and ciphertexts", "Must hold for all ring elements modulo 2^64.",
  ["src/rlwe.rs: update_with_add, update_with_sub, update_mask_with_add, update_body_with_add, clear, fill_with_copy, update_with_monomial_div"])
p("C14","In-place polynomial multiplication of mask and body",
  "update_mask_with_mul and update_body_with_mul replace the mask / body by its negacyclic product with the argument. Holds for the mask; refuted for the body: update_body_with_mul clears the body first and always leaves zero.",
  "all ciphertexts and polynomials", "No test calls these functions.",
  ["src/rlwe.rs: update_mask_with_mul, update_body_with_mul, naive_update_with_mul, naive_update_with_mul_acc"])
p("C15","less_eq_than decides m <= d on the exponent",
  "For a ciphertext whose phase is c*X^m + noise, after less_eq_than(d) with d < n the constant term of the phase is c*[m <= d] up to an error of at most (d+1)*noise + FFT error (after multiplication with the key's weight); it panics exactly if d >= n.",
  "all n, m < n, d < n, all ciphertexts and keys", "All pairs (m,d), all masks; test fixes m = n/2.",
  ["src/rlwe.rs: less_eq_than, update_body_with_mul_with_buf, update_mask_with_mul_with_buf, fourier_update_with_mul"])
p("C16","eq_to decides m = d on the exponent",
  "Same with the equality test: constant term becomes c*[m = d].",
  "all n, m, d, ciphertexts and keys", "All pairs (m,d).", ["src/rlwe.rs: eq_to"])
p("C17","Encrypted NOT flips the encrypted bit",
  "With plaintext modulus 2, not and not_in_place flip the constant coefficient and leave the others unchanged after decoding, exactly negating the noise; applying it twice restores the ciphertext; both variants agree.",
  "all ciphertexts, keys, noise below the bound", "All ciphertexts.", ["src/rlwe.rs: not, not_in_place"])
p("C18","External product multiplies plaintexts",
  "If an RGSW ciphertext encrypts the polynomial m with row noise <= E and an RLWE ciphertext has phase p, the external product has phase m*p + err with err bounded by 2*l*n*2^(B-1)*E + |m|_1*(1+|s|_1)*2^(63-B*l) + eps*(1+|s|_1), for every FFT whose error is at most eps, and it accumulates onto the output buffer.",
  "all keys, ciphertexts, decomposition parameters, FFT roundings within eps", "Worst case over ciphertexts and noise cannot be sampled.",
  ["src/rgsw.rs: external_product_with_buf, external_product_with_buf_glwe, external_product"])
p("C19","cmux selects the right ciphertext",
  "With an RGSW encryption of 0 / 1, cmux returns a ciphertext whose phase is that of ct0 / ct1 up to the external product error; hence decrypts to the same plaintext whenever the error stays in the window.",
  "all ciphertexts, keys, noise within bound", "As C18.", ["src/rgsw.rs: cmux, cmux_with_buf"])
p("C20","RLWE key switching preserves the phase",
  "A ciphertext under before_key switched with the key made by fill_with_keyswitch_key decrypts under after_key to the same phase up to the explicit bound; the Fourier variant, which consumes keys two at a time, meets the same bound for every (even or odd) level count.",
  "all keys, ciphertexts, level counts, noise within bound", "Odd/even level counts and all ciphertexts.",
  ["src/rlwe.rs: RLWEKeyswitchKey::fill_with_keyswitch_key, keyswitch_ciphertext, FourierRLWEKeyswitchKey::keyswitch_ciphertext, into_fourier"])
p("C21","Homomorphic substitution",
  "subs with a key made by fill_with_subs_keyswitch_key for odd k turns a ciphertext with phase p(X) into one with phase p(X^k) up to the key-switching bound; a key made by fill_with_keyswitch_key (subs_k = 0) makes subs panic.",
  "all odd k, keys, ciphertexts", "All k and ciphertexts.", ["src/rlwe.rs: subs, fill_with_subs_keyswitch_key"])
p("C22","trace1 isolates n times the constant term",
  "trace1 / trace1_fourier with keys from gen_all_subs_ksk(_fourier) turn phase sum a_i X^i into n*a_0 up to (n-1)*(keyswitch bound) - exactly all other coefficients of the message vanish; the map contains every key that is looked up.",
  "all n powers of two, all ciphertexts, keys", "All polynomials; the cancellation is algebraic.",
  ["src/rlwe.rs: trace1, trace1_fourier, gen_all_subs_ksk, gen_all_subs_ksk_fourier"])
p("C23","neg_gsw is an RGSW encryption of -s",
  "The ciphertext of Client::gen_neg_sk encrypts minus the secret key in the gadget of its own decomposition parameters. Holds when negs_base_log = base_log; refuted otherwise: encrypt_rgsw shifts by ctx.base_log whatever the ciphertext's own base is. For keys that are not binary it holds in release builds; debug builds panic on them.",
  "all keys, masks, noise, decomposition parameters", "The tests only use equal base logs; the CLI lets users choose them independently.",
  ["src/rlwe.rs: neg_gsw, encrypt_rgsw, encrypt_constant_rgsw"])
p("C24","expand / expand_fourier produce an RGSW encryption of the bit",
  "From RLWE ciphertexts with phases b/(n B^j) + (anything in the other coefficients), expand and expand_fourier return an RGSW encryption of b with explicit row-noise bound.",
  "all bits, random other coefficients, keys, noise", "All ciphertexts.",
  ["src/rlwe.rs: expand, expand_fourier, decomposed_rlwe_to_rgsw, make_decomposed_rlwe_ct"])
p("C25","A key switching key converted to RGSW switches keys",
  "from_keyswitch_key(ksk) used through keyswitch_ciphertext (external product) turns a ciphertext under before_key into one under after_key with the same phase up to the bound.",
  "all keys and ciphertexts", "As C20.", ["src/rgsw.rs: from_keyswitch_key, keyswitch_ciphertext, keyswitch_ciphertext_with_buf"])
p("C26","LWE encryption decrypts",
  "decode_decrypt_lwe(encode_encrypt_lwe(m)) = m for every mask and noise in the window; decrypt_lwe returns message + noise exactly.",
  "all keys, masks, messages, noise", "Random.", ["src/lwe.rs: encrypt_lwe, encode_encrypt_lwe, decrypt_lwe, decode_decrypt_lwe"])
p("C27","Sample extraction extracts exactly one coefficient",
  "The LWE ciphertext extracted at degree d decrypts under the LWE key (same coefficients as the RLWE key) to exactly coefficient d of the RLWE decryption.",
  "all d < n, keys, ciphertexts", "All coefficients and keys.", ["src/lwe.rs: fill_with_sample_extract, fill_with_const_sample_extract, to_rlwe_sk"])
p("C28","LWE to RLWE conversion and the slow expansion",
  "conv_lwe_to_rlwe yields a RLWE ciphertext whose phase is the constant polynomial (LWE phase) up to the explicit bound; expand_slow of ciphertexts with constant terms b/B^j is an RGSW encryption of b. make_decomposed_rlwe_ct2 makes such ciphertexts; with overflow checks it rejects all other arguments and all precisions above 64 bits; refuted: also in release builds, where it encrypts wrong multiples.",
  "all keys, ciphertexts, noise", "All ciphertexts.", ["src/lwe.rs: conv_lwe_to_rlwe, fill_with_keyswitching_key", "src/rlwe.rs: expand_slow, make_decomposed_rlwe_ct2"])
p("C29","Reported noise is the real noise",
  "compute_noise(_encoded) computes max |phase - encoded| over coefficients in centred representation (before the final log2), except that a difference of exactly -2^63 panics in checked and is ignored in release builds. compute_noise_ternary is refuted: it decodes instead of encoding the plaintext and so reports the phase itself.",
  "all ciphertexts, keys, plaintexts", "The error path depends on values a test does not produce.",
  ["src/rlwe.rs: compute_noise, compute_noise_encoded, compute_noise_ternary"])
p("C30","Node indices are unique, dense and in flattening order",
  "After fix_index the flattened tree has indices 0,1,..,m-1 in order where m = count_internal, fix_index returns m-1, nothing but the indices changes; flatten lists exactly the internal nodes in pre-order; on a leaf fix_index panics and flatten is empty.",
  "all trees (missing children included)", "Unbounded tree shapes.", ["src/decision_tree.rs: fix_index, flatten, flatten_tree"])
p("C31","Tree statistics",
  "count_internal equals the flattened length; count_leaf counts the leaves; a tree without missing children has count_leaf = count_internal + 1; count_depth is the longest root-leaf path; max_feature_index bounds every feature and is attained.",
  "all trees", "Unbounded tree shapes.", ["src/decision_tree.rs: count_leaf, count_internal, count_depth, max_feature_index"])
p("C32","Plain evaluation follows the decision path",
  "If all nodes are LEQ and all features in range, eval returns the label of the leaf reached by going left iff features[f] <= threshold, and 0 when the path meets a missing child; otherwise (some GT node or a feature out of range anywhere in the tree, even off the path) it panics.",
  "all trees, all feature vectors", "Unbounded trees; the code visits all nodes and multiplies by path indicators.",
  ["src/decision_tree.rs: eval, eval_node"])
p("C33","Truncation preserves predictions",
  "trunc_tree yields None iff every leaf label is 0, contains no zero leaf, is idempotent and, whenever the original evaluates, the truncated tree evaluates to the same label (0 for None).",
  "all trees and feature vectors", "Unbounded trees.", ["src/decision_tree.rs: trunc_tree"])
p("C34","Generated full trees",
  "new_with_depth(d) is the complete binary tree of depth d: 2^d leaves, 2^d - 1 internal nodes, depth d, exactly the leftmost leaf labelled 1, all others 0; the default tree has depth 1.",
  "all depths", "All d.", ["src/decision_tree.rs: new_with_depth, gen_full_tree, Default"])
p("C35","Encrypted tree construction matches ciphertexts to nodes",
  "EncNode::new pairs the i-th ciphertext with the i-th node of flatten, keeps the shape (missing children become leaves 0), consumes exactly count_internal ciphertexts and panics if there are fewer or the root is a leaf.",
  "all trees and ciphertext sequences", "Order of consumption over unbounded trees.",
  ["src/decision_tree.rs: EncNode::new, new_enc_node"])
p("C36","Encrypted tree evaluation returns the bits of the reached label",
  "If every node's RGSW ciphertext encrypts its decision bit, EncNode::eval returns one RLWE ciphertext per label bit whose phase is delta * bit of the label of the reached leaf up to the explicit bound (number of leaves times depth times external product error); decrypt_and_recompose returns the label.",
  "all trees, all bits, keys, noise", "Unbounded trees, noise.",
  ["src/decision_tree.rs: EncNode::eval, eval_enc_node, max_leaf, decrypt_and_recompose"])
p("C37","demux yields the scaled unit vector",
  "demux_with(b, bits) returns 2^len(bits) ciphertexts; the one at the index whose complemented bits (most significant first) are encrypted has phase of b, all others 0, up to len(bits) external product errors; it panics on an empty bit vector.",
  "all bit vectors of all lengths, keys, noise", "2^n outputs for all n.",
  ["src/decision_tree.rs: demux, demux_with, demux_rec"])
p("C38","Index decomposition addresses the intended slot",
  "bit_decomposed_rgsw(i, n) encrypts log2(n) complemented bits of i, most significant first, so that demux selects slot i for every i < n = 2^k, and i mod 2^log2(n) in general.",
  "all i, n", "All indices.", ["src/decision_tree.rs: bit_decomposed_rgsw"])
p("C39","Private decision tree evaluation agrees with plain evaluation",
  "The server computation of simulate (compare_expand, EncNode::new, eval) decrypts to model.eval(feature) for every tree with LEQ nodes, features and thresholds below n, when the explicit noise bound is below the window.",
  "all trees, features, keys, masks, noise within bound", "End-to-end over unbounded trees and random ciphertexts.",
  ["src/decision_tree.rs: simulate, compare_expand, encrypt_feature_vector, decrypt_and_recompose"])
p("C40","The generated database stores every item at all its positions",
  "setup_random_oram with rows*cols = input_domain*h_count returns item_count plaintexts and a rows x cols database in which every one of the h_count positions of item i decrypts to plaintext i, every cell belongs to exactly one item; it panics when the dimensions do not match.",
  "all dimensions, shuffles, keys, masks, noise", "More than 128 items take a different code path that tests ignore.",
  ["src/oram.rs: setup_random_oram, gen_dummy_database"])
p("C41","A single read returns the stored item and preserves the database",
  "With one row, for every index i, gen_read_query_one(i) processed by process_one returns a ciphertext decrypting to the item at hash position of i, and every cell decrypts as before (more than one decomposition level, or a call from a rayon worker: C67).",
  "all database sizes (powers of two), indices, contents, keys, noise within bound", "All indices and contents.",
  ["src/oram.rs: gen_read_query_one, process_one, process_one_mt, update_db_mt, rw"])
p("C42","A single write updates exactly one item",
  "After gen_write_query_one(i, alpha) and process_one, the cell of i decrypts to alpha, every other cell as before, and the response is the previous content (more than one decomposition level, or a call from a rayon worker: C67).",
  "all sizes, indices, contents, data", "All indices.", ["src/oram.rs: gen_write_query_one, process_one"])
p("C43","Any history of single queries behaves like an array",
  "For every finite sequence of reads and writes, each response decrypts to what a plain array would return at that point, as long as initial noise + T * (per-query growth) + response noise stays in the decoding window (T the number of queries) (more than one decomposition level, or calls from a rayon worker: C67).",
  "all histories of all lengths within the noise budget", "Unbounded histories.",
  ["src/oram.rs: Server::process_one, Client queries"])
p("C44","Parallel multi-queries on distinct items behave like the sequential array",
  "process_multi on queries for pairwise distinct items returns the items before the batch and applies all writes, leaving all other cells unchanged (a number of queries other than 1, or a call from a rayon worker: C67).",
  "all numbers of queries, index sets, read/write mixes", "All combinations.", ["src/oram.rs: process_multi"])
p("C45","Parallel multi-queries on the same item",
  "Claimed: process_multi is equivalent to processing the queries one after the other. Refuted: two reads of the same item overwrite it with 3 times its value.",
  "all query lists", "The test uses distinct indices only.", ["src/oram.rs: process_multi"])
p("C46","Batched reads return the requested items",
  "In process_batch, the response of row r decrypts to the content of the cell selected by the mapping for row r, hence to item i for every i in the mapping; cells keep their contents (more than one row and item, or a call from a rayon worker: C67).",
  "all dimensions, shuffles, index sets, keys, noise", "Depends on the table.", ["src/oram.rs: gen_read_query_batch, process_batch, process_one_st, update_db_st"])
p("C47","Batched writes keep all copies consistent",
  "If all positions of every item hold the same plaintext, then after process_batch of a write batch for distinct indices every mapped item has the new data at all of its positions and every other item is unchanged at all of its positions (more than one row and item, or a call from a rayon worker: C67).",
  "all dimensions, shuffles, index sets", "Consistency correction over random tables.",
  ["src/oram.rs: gen_write_query_batch, process_batch, correct_consistency"])
p("C48","Any history of batches behaves like an array",
  "For every sequence of read / write batches (distinct indices in each), responses and database follow the plain array in which only the mapped indices take effect, within the noise budget (more than one row and item, or calls from a rayon worker: C67).",
  "all histories within the noise budget", "Unbounded histories.", ["src/oram.rs: process_batch"])
p("C49","Database updates do not depend on thread scheduling and cannot deadlock",
  "For every interleaving of the lock acquisitions, reads, writes and releases of the parallel tasks of update_db_mt, process_multi's final loop, process_batch's update and consistency loops, the final database equals the sequential one; no interleaving gets stuck and all terminate.",
  "all schedules, all numbers of tasks", "Exponentially many interleavings.",
  ["src/oram.rs: update_db_mt, process_multi, process_batch, correct_consistency"])
p("C50","Parallel reductions do not depend on how rayon splits the work",
  "For every splitting tree, with the identity inserted anywhere, the reduce of ciphertexts (and of vectors of ciphertexts) equals the left-to-right sum.",
  "all reduction trees", "rayon chooses splits at run time.", ["src/oram.rs: process_one_mt, process_multi"])
p("C51","The single-threaded and multi-threaded query engines agree",
  "process_one_st and process_one_mt return equal responses and selection ciphertexts bit for bit, and update_db_st and update_db_mt the same database (where no parallel loop is rejected: C67).",
  "all queries, databases, keys", "All inputs.", ["src/oram.rs: process_one_mt, process_one_st, update_db_mt, update_db_st"])
p("C52","Queries have the same shape whatever is asked",
  "The number and dimensions of all ciphertexts in a query (and the number of queries in a batch) depend only on the public parameters, not on the index, the operation or the data.",
  "all indices, operations, data, randomness", "Must hold for all pairs of queries.",
  ["src/oram.rs: make_read_query, make_write_query, gen_read_query_batch, gen_write_query_batch"])
p("C53","The server's memory access pattern is independent of the query",
  "The sequence of database cells read and written by process_one, process_multi and process_batch depends only on public dimensions and the hash table, never on ciphertext contents.",
  "all pairs of queries with equal shape", "Two-run property.", ["src/oram.rs: process_one, process_multi, process_batch"])
p("C54","Unsupported widths are rejected, not mishandled",
  "Processing panics whenever the number of columns is not a power of two or is 1, and the assertion in process_batch rejects a wrong number of queries.",
  "all widths and queries", "All widths.", ["src/oram.rs: process_one_mt, process_one_st, process_batch", "src/decision_tree.rs: demux_rec"])
p("C55","Single-item queries in a batched database",
  "Claimed: gen_read_query_one(i) / gen_write_query_one(i) produce the query for item i. Holds for rows = 1 only; refuted for more rows: if i hashes to a row other than 0 the returned query reads cell 0 of row 0.",
  "all rows, cols, hash tables", "Only rows = 1 is tested.", ["src/oram.rs: gen_read_query_one, gen_write_query_one"])
p("C56","Decrypting the database for inspection",
  "decrypt_db returns, for every cell, the 64-bit packing of its plaintext when all plaintexts are binary. Refuted for the databases the crate itself generates with plaintext modulus > 2: it panics as soon as a coefficient is not a bit.",
  "all databases", "No test calls it.", ["src/oram.rs: decrypt_db"])
p("C57","Parameter lists expand to the exact cartesian product",
  "from_input_params_list yields, in order, for every list entry each ORAM parameter with each TFHE parameter exactly once; the length is the sum of products.",
  "all lists", "Unbounded.", ["src/params.rs: from_input_params_list"])
p("C58","Command line parameter selection",
  "If the parameter file opens, its content (or the library defaults when it does not parse) is used and all other options are ignored; if it does not open, exactly the command line values are used with iterations = 1 and the mode number selects single (0), multi (1) or batched (anything else).",
  "all command lines and files", "All combinations.", ["src/main.rs: main", "src/params.rs"])
p("C59","The benchmark drivers' self checks succeed",
  "single_query, multi_query and batch_query never fail their own assertions for power-of-two widths and noise within the budget, for every number of iterations; multi_query panics if query_count >= item_count and batch_query if rows*cols is not divisible by 3. The result check pts[indices[i]] of batch_query is only correct because indices = [0,1]: for other index lists it compares with the wrong item or panics. multi_query also panics for query_count = 1 and single_query for one decomposition level (C67).",
  "all iteration counts, dimensions, shuffles, randomness within budget", "Long runs.",
  ["src/main.rs: single_query, multi_query, batch_query"])
p("C60","Any history of single queries and multi-queries behaves like an array, whatever the schedules",
  "Starting from the database setup_random_oram builds, any finite sequence of process_one and process_multi calls, in any order and under any thread schedules, completes, answers like a plain array of the returned plaintexts serving all the requests one after the other, and leaves every item decrypting to the array's content, as long as the accumulated noise stays in the budget (no one-element parallel loop outside a rayon pool: C67).",
  "all mixed histories, schedules, randomness", "Unbounded histories and exponentially many schedules.",
  ["src/oram.rs: setup_random_oram, process_one, process_multi"])
p("C61","Any history of batches behaves like an array, whatever the schedules",
  "Starting from the database setup_random_oram builds, any finite sequence of batches without repeated items in a write, under any thread schedules, completes, answers like a plain array, and at the end all copies of every item decrypt to the array's content (no one-element parallel loop outside a rayon pool: C67).",
  "all batch histories, schedules, hash tables, randomness", "Unbounded histories and exponentially many schedules.",
  ["src/oram.rs: setup_random_oram, process_batch, gen_read_query_batch, gen_write_query_batch"])
p("C62","What the random generators return",
  "gen_pt returns exactly the plaintexts of the plaintext modulus, gen_binary_pt and the key generators exactly the binary polynomials, gen_ternary_ptxt exactly the polynomials over {-1,0,1}; all of them round-trip through the matching encryption; gen_demuxed_pt(i) is X^i or panics for i >= n; and the benchmark drivers fed only by those generators complete their own checks; every key, database and dummy data can be drawn.",
  "all random words, moduli, ring dimensions", "Tests see a few draws.",
  ["src/context.rs: gen_pt, gen_binary_pt, gen_ternary_ptxt, gen_demuxed_pt, gen_rlwe_sk, gen_lwe_sk", "src/main.rs"])
p("C63","Rows of an RGSW ciphertext and its noise report",
  "get_nth_row(2i) and get_nth_row(2i+1) encrypt -m*s and m scaled by the i-th gadget element, get_last_row the last level, other indices panic; encrypting a list of constants gives one such ciphertext per constant; compute_noise_rgsw1 reports for an encryption of 1 at most the noise. Refuted for encryptions of 0: there it reports at least the gadget element minus the noise.",
  "all ciphertexts, levels, noise", "All rows, all randomness.",
  ["src/rgsw.rs: get_nth_row, get_last_row, encrypt_constant_rgsw_vec", "src/rlwe.rs: compute_noise_rgsw1"])
p("C64","Converting scaled RLWE ciphertexts to RGSW",
  "Given one RLWE ciphertext of m per gadget level and an RGSW encryption of -s, the conversion yields an RGSW encryption of m with an explicit noise bound; too few inputs panic; surplus inputs are ignored.",
  "all inputs", "All inputs.", ["src/rlwe.rs: decomposed_rlwe_to_rgsw"])
p("C65","The program runs every selected parameter set once",
  "main runs the selected parameter sets in order, each once; it completes iff each one does and stops at the first panic; supported sets complete with one noise value per iteration; a dry run completes without touching a ciphertext. Claimed in a comment and refuted: a wrong parameter path gives the default parameters (the command line values are used).",
  "all parameter files, command lines, randomness within budget", "All lists.", ["src/main.rs: main", "src/params.rs"])
p("C66","Fresh and cleared ciphertexts encrypt zero",
  "A newly allocated or cleared RLWE, RGSW or LWE ciphertext is, under every key, an encryption of zero without noise, decodes to the zero plaintext, and is neutral for ciphertext addition.",
  "all keys, dimensions, previous contents", "All keys.", ["src/rlwe.rs: allocate, clear", "src/rgsw.rs: allocate", "src/lwe.rs: allocate, clear, fill_with_tensor"])
p("C67","Calls from outside a rayon pool",
  "Claimed: process_one, process_multi and process_batch can be called from any thread. Refuted for loops of a single element, which rayon runs on the calling thread where current_thread_index() is None: outside a pool, under every schedule, process_one panics with one decomposition level, process_multi with one query, process_batch with one row or one item; except in the last case the database is untouched. multi_query with query_count = 1 therefore always panics, and so does the program with --mode 1 and otherwise default options. From a pool worker the same calls are answered.",
  "all schedules, queries, databases, parameters", "No test makes a one-element call.", ["src/oram.rs: process_one_mt, process_multi, process_batch, correct_consistency", "src/main.rs: multi_query", "src/cli.rs: query_count"])
p("C68","A rejected call leaves the server as if it had not been made",
  "No call of process_one, process_multi or process_batch, however malformed and under every schedule, poisons a row lock or leaves one held: panics only happen while no guard for writing is held. Queries whose width does not fit the database, or batches with the wrong number of queries, panic under every schedule before anything is changed; so a history of single and multi-queries, or of batches, with such rejected calls (their panics caught) interspersed completes and answers like a plain array serving only the proper calls.",
  "all histories, malformed calls, schedules, panic points", "Panic points times schedules.",
  ["src/oram.rs: process_one, process_multi, process_batch, put_mt, Index/RwLock rows"])
p("C69","The shipped parameters leave room for long computations",
  "The default parameters make a valid context. With them, for every key, plaintexts, bits and randomness (noise below 2^12, FFT error below 2^20), a chain of up to 2^22 homomorphic selections, and every encrypted tree with fresh decision bits whose leaf depths sum up to at most 2^22, decrypts exactly; so does the whole private evaluation protocol for keys with at most four ones, noise at most 1 and leaf depths summing up to at most 8. With ring dimension 1024, 2 bits x 24 levels and modulus 2, up to 16 single queries on up to 8 cells are answered exactly, all worst cases counted.",
  "all keys, plaintexts, bits, randomness in range, chain lengths, trees", "Noise accumulates over millions of operations.",
  ["src/params.rs: TFHEParameters::default", "src/context.rs", "src/rgsw.rs: cmux, encrypt_constant_rgsw", "src/decision_tree.rs: eval", "src/oram.rs: process_one"])
p("C70","Reading feature tables",
  "parse_csv returns the table of numbers written in the file: every record after the first, in order, one number per field, and panics iff the file does not open, a record has a different number of fields than the first one or is not UTF-8, or a field is not an optional plus sign followed by decimal digits of a value below 2^64. Claimed by its use on headerless data and refuted: all records of the file are returned (the first one is always dropped as a header).",
  "all files, as lists of records", "All files.", ["src/utils.rs: parse_csv"])
p("C71","Zipping containers of different lengths",
  "izip! yields the items at the same position, all of them; in a debug build it panics unless all lengths (and size hints) agree, in a release build it silently stops at the shortest one.",
  "all lists, lengths, build profiles", "All lengths, both profiles.", ["src/macros.rs: izip, zip_checked, assert_same_len"])
p("C72","The program's outcome does not depend on thread scheduling",
  "For every parameter file, command line and randomness, and every schedule of every server operation inside the drivers: the program comes to an end, and its outcome (the reported noise values, or the fact that it panics) is the same for all schedules; supported parameter sets complete under every schedule.",
  "all parameter files, command lines, randomness, schedules", "Exponentially many schedules.",
  ["src/main.rs: main, single_query, multi_query, batch_query", "src/oram.rs: process_one, process_multi, process_batch"])
p("C73","The server's view of a whole history does not depend on what is asked",
  "Two histories of single queries, multi-queries and batches of the same kinds and counts, made with the same randomness, on databases of the same shape, give the server the same possible views: the sizes and random parts of all queries, every lock operation and cell access of every worker in every loop under every schedule, and whether it panics. Reads and writes, the items, their number in a batch, the data and the contents of the database do not show.",
  "all pairs of histories of equal kinds, all schedules, databases, randomness", "Two-run property over unbounded histories.",
  ["src/oram.rs: gen_read_query_one, gen_write_query_one, gen_read_query_batch, gen_write_query_batch, process_one, process_multi, process_batch"])
p("C74","Parallel evaluation of the clients changes nothing",
  "simulate with and without its parallel flag, under every number of threads and schedule, comes to an end with the same predictions, in the order of the clients (or panics both ways); so the parallel protocol predicts what the plaintext tree predicts.",
  "all trees, client lists, randomness, schedules", "Exponentially many schedules.",
  ["src/decision_tree.rs: simulate"])
p("C75","What the server of the tree protocol sees and returns does not depend on the features",
  "The sizes and the random parts of the message a client sends for a feature vector are determined by the tree, the parameters and the randomness, not by the features; the server's reply, one ciphertext per bit of the largest label, has the same dimensions for any two messages of equal dimensions (or both make it panic).",
  "all trees, feature vectors, messages, randomness", "Two-run property.",
  ["src/decision_tree.rs: encrypt_feature_vector, compare_expand, EncNode::new, EncNode::eval, simulate"])
p("C76","Truncating a tree is safe for the private protocol",
  "Evaluating trunc_tree(t) privately instead of t gives every client the prediction of t, under no more than t's own noise condition; the truncated tree has no more internal nodes, leaves or depth, and the same largest label, so the replies have the same size.",
  "all trees, features, randomness in range", "All trees and features.",
  ["src/decision_tree.rs: trunc_tree, simulate"])
p("C77","Trees as JSON",
  "A text is accepted as a Node exactly if it is JSON, its value describes the tree (an object keyed by the lower-case variant name; the fields of an inner node by name in any order, unknown ones ignored, a missing or null child meaning no child, or by position; labels and numbers as plain decimal words) and the tree has depth at most 63. to_string writes a JSON text describing the tree; it can be read back, and different trees are written differently. Claimed and refuted: every tree can be read back (no tree deeper than 63 can: serde_json's recursion limit).",
  "all texts, all trees of machine words", "All texts and all trees.", ["src/decision_tree.rs: Node, Internal, Op (Serialize, Deserialize), test_json"])
p("C78","Parameter files",
  "A text is accepted as a parameter list exactly if it is JSON and its value describes the list; main then runs every ORAM setting with every ciphertext setting of each pair, in order; every other file that opens silently means one run of the default setting. Written lists are read back. The shipped params.json describes seven settings with the default ciphertext parameters, and a dry run with it completes.",
  "all texts, lists, command lines", "All texts.", ["src/params.rs: TFHEParameters, ORAMParameters, InputParamsList", "src/main.rs: main", "params.json"])
p("C79","No wrong result is reported",
  "Whatever the noise, the FFT's errors, the key, the randomness and the schedules: a simulate call that ends normally returns, for every client and in their order, the prediction of the plaintext tree, which is what the client decrypts from the server's reply; single_query, multi_query and batch_query end normally only if in every iteration every checked reply decrypts to the item asked for, and the numbers they report are the noises of these replies. A reply is read as a number exactly if it consists of 1 to 64 ciphertexts that decrypt to bits; anything else is rejected.",
  "all trees, clients, parameters, keys, randomness, FFTs, schedules", "Must hold in particular where noise overflows, which no test can enumerate.",
  ["src/decision_tree.rs: simulate, decrypt_and_recompose", "src/main.rs: single_query, multi_query, batch_query"])
p("C80","A context has exactly the parameters it was made from",
  "Context::new succeeds exactly for the plaintext moduli 2, 4, .., 2^63 (1: C02) and gives every size, gadget parameter and the modulus its own value; the result of simulate reports the number of clients and the default parameters. Without secure_seed all generators start from the same seed; the claim that this only makes runs reproducible is refuted: the first binary plaintext drawn is then the secret key, and the mask of the first ciphertext, which is public, contains the secret key bit by bit, whatever is encrypted, so that the ciphertext can be read without the key.",
  "all parameters, generators, seeds", "All parameters; a relation between generators.",
  ["src/context.rs: Context::new", "src/params.rs: TFHEParameters::default", "src/decision_tree.rs: SimulationResult::new, simulate"])
p("C81","The printed table describes what was run",
  "What main prints on a run that ends normally is: the header; then, for every selected parameter set in order, one row with as many entries as the header, each parameter in the column of its name in decimal, dashes where a parameter does not exist, the measurements (dashes in a dry run); and one line for each further iteration with its number and noise; nothing else. A run that panics has printed the complete reports of all sets before, and of the iterations before within the set. Printing never changes how the run ends. Refuted: the columns n and plaintext_modulus show the number rounded down to a power of two; release builds report zero items as 2^18446744073709551615.",
  "all parameter files, command lines, randomness, ways of printing floats", "All parameter lists and outcomes.",
  ["src/main.rs: main, single_query, multi_query, batch_query"])
p("C82","Double precision is accurate enough for the Fourier multiplications",
  "Multiplying polynomials through the floating-point Fourier transform is correct up to an error bounded by the ring dimension, the number of products, the size of the integer operands, the unit roundoff and the underflow threshold, whatever the rounding of each operation, the accuracy of the twiddle tables and the order of the additions. Rounding to IEEE binary64 (Flocq's definition) has the roundoff 2^-53 and threshold 2^-1022. With these and a radix-2 transform: at the default parameters 110 selections in a row with fresh bits still decrypt correctly; in a ring of dimension 32 whole private evaluations and whole ORAM sessions are correct with no other assumption on the transform.",
  "all polynomials, roundings with relative error at most u above a threshold, tables and transforms of the stated accuracy, summation orders, ring dimensions; for the protocols all keys, plaintexts, trees, requests and noise in range",
  "Rounding errors depend on every input coefficient; tests with random polynomials see typical errors, not the worst case.",
  ["src/rlwe.rs: external_product, update_with_add, fourier_update_with_sub, KSKs, RGSWCiphertext"])
p("C83","The texts of a context and of a simulation result say what they are",
  "Formatting a Context or a SimulationResult gives a list of name=value entries in which every parameter (and the number of clients, the durations) stands under its own name in decimal; two contexts with the same text were made from the same parameters up to secure_seed, which is not shown.",
  "all parameters, reports, texts of the floating point numbers and durations", "All parameters; injectivity is about pairs of values.",
  ["src/context.rs: impl Display for Context", "src/decision_tree.rs: impl Display for SimulationResult"])
p("C84","The command line says what the program does",
  "The program accepts its arguments exactly if they write down, in any order and with attached or separate values, settings of known options, none twice, with values of the right kind; every option then has the value given to it or its default. Otherwise nothing is run: status 0 for a request for help after sensible settings, else status 2 with nothing on stdout. A parameter file that opens decides everything but --dryrun; a run with status 0 has printed the table (C81) of exactly the sets the file describes (or of the default set if it describes none), or without a file of the one set the options describe; status 101 exactly if the computation panics. Refuted: --secure-seed chooses the seeding - no command line turns it off, and --secure-seed=false is an error.",
  "all argument lists, files, parameter values, randomness", "All argument lists and file contents; composes parsing, selection and running.",
  ["src/cli.rs: Cli", "src/main.rs: main", "src/params.rs: ServerParams::from_input_params_list"])
p("C85","The noise of every encryption is bounded",
  "The noise drawn for an encryption is at most fourteen times the standard deviation in every coefficient, whatever words the random generator delivers and however its arithmetic rounds, and the sampler returns unless all further points miss the unit circle. So with the default parameters every encryption decrypts and 110 selections in a row stay correct with no assumption on the noise; the same for whole private evaluations and ORAM sessions in the ring of C82. Refuted: the noise stays below eight standard deviations, as the repository's noise test supposes.",
  "all word streams, roundings (with underflow, such as IEEE binary64) and logarithms with relative errors up to 2^-10, standard deviations, ring dimensions, keys, plaintexts",
  "Extreme noise has a probability far too small to be seen in a test.",
  ["src/context.rs: Context::new (std)", "src/rlwe.rs: encrypt_rlwe, encode_encrypt_rlwe, encrypt_constant_rgsw, test_compute_noise", "src/lwe.rs: encrypt_lwe"])
p("C86","The hash function a user gets is a uniformly random one",
  "NaiveHash::new never panics (with at least one hash function), whatever words the random generator delivers, and gives a bijection from copies of items to cells. Over all word streams of any given length, every such bijection comes out of equally many streams; so the cells where copies of any items lie are distributed like those of any other items, and all lists of distinct cells are equally likely. Every index of the shuffle comes from equally many words, and at least half of the words are not rejected; so the fraction of streams of m words that are too short for a table of N cells is at most 2^(N-1) (3/4)^m, and making the table ends with probability one.",
  "all numbers of hash functions and items (tables below 2^32 cells for the distribution, 2^64 for the rest), all word streams, all lists of slots and cells",
  "Exact uniformity is a statement about all streams; a test sees a few samples.",
  ["src/naive_hash.rs: NaiveHash::new, hash", "src/main.rs: batch_query"])
p("C87","CSV files are read as their text says",
  "parse_csv reads a file exactly if it can be opened and its text, split by the grammar of CSV (comma-separated fields, perhaps quoted with doubled quotes, rows ended by CR, LF or CRLF, blank lines skipped, a byte order mark ignored; every text has exactly one reading), has in every row after the first as many fields as the first, each the decimal form of a number below 2^64; it returns those numbers and panics otherwise. A table written one row per line under a header is read back. Refuted: a quotation that is never closed is noticed; the rows it swallows are silently lost.",
  "all texts (byte strings), tables, line endings", "All byte strings; quoting makes the meaning of a byte depend on everything before it.",
  ["src/utils.rs: parse_csv"])
p("C88","How likely a batch request loses an item",
  "Batch requests serve at most one item per row, so items can be dropped silently. With a freshly drawn hash function (all word streams equally likely) the first item is always served; the second is dropped with probability exactly (c-1)(c-2).../(N-1)(N-2)... with one factor per hash function, c the columns and N the cells; an item with t items before it with probability at most (t(c-1))(t(c-1)-1).../(N-t h)(N-t h-1)..., and the chance that any item of a request is dropped is at most the sum of these. With a single row all items but the first are always dropped. The tool's batched mode reports as many noises as items were served but divides by two always.",
  "all numbers of hash functions, items, rows and columns filling the table, all requests without repetition, all lengths of word streams; all runs",
  "An exact probability is a count over all word streams; a test sees one draw.",
  ["src/naive_hash.rs: hash_to_mapping, NaiveHash::new", "src/oram.rs: gen_read_query_batch, process_batch, test_oram_batch", "src/main.rs: batch_query"])
p("C89","The benchmarks measure what they name, however often they run",
  "For any number of iterations: enc leaves an encryption of its plaintext, dec returns it, cmux, keyswitch, keyswitch fourier, expand, expand fourier and trace1 fourier compute in every iteration the same ciphertext, which decrypts to what the operation promises, and none panics (in rings of dimension at least 4 for less_eq). Refuted for external_product, keyswitch gsw (the output is added up: after k iterations keyswitch gsw holds k times the messages modulo 3) and less_eq (compares its own previous result).",
  "all parameter sets within the bounds of params_ok, keys, plaintexts, randomness, FFTs of the given accuracy, numbers of iterations",
  "The number of iterations is chosen by the benchmark harness; nothing checks the outputs.",
  ["benches/my_benchmark.rs: enc_benchmark, dec_benchmark, external_product_benchmark, cmux_benchmark, keyswitch_benchmark, keyswitch_fourier_benchmark, keyswitch_gsw_benchmark, expand_benchmark, expand_fourier_benchmark, less_eq_benchmark, trace1_fourier_benchmark"])
p("C90","Encrypted evaluation returns enough bits for every label",
  "The number of result ciphertexts, computed in floating point as the logarithm of the largest label plus one rounded up, is the number of bits that label needs: for labels below 2^48 if the platform's logarithm is correctly rounded, below 2^44 if it is exact on powers of two and within a relative error of 2^-52. So encrypted evaluation decrypts to the label reached. Refuted for larger labels: if the largest label is 2^49 the result is the label reached modulo 2^49, so label 2^49 silently comes out as 0; for the largest usize a debug build panics and a release build returns no ciphertext.",
  "all encrypted trees of any shape, labels, keys, parameter sets, FFTs of the given accuracy, logarithms of the given accuracy",
  "The labels where rounding matters are a handful among 2^64, and the precision of log2 depends on the platform.",
  ["src/decision_tree.rs: EncNode::eval, max_leaf, decrypt_and_recompose"])
p("C91","The unit tests pass on correct code whatever the randomness",
  "The repository's unit tests of encryption, key switching, substitution, trace, RGSW, external product, selection, comparison, NOT, LWE, sample extraction, conversion and demultiplexing pass for every key, message and encryption randomness in range and every FFT of the accuracy C82 gives (the trace needs a more precise one). Refuted for two: the noise test passes exactly if the largest noise of the first ciphertext is below eight standard deviations and smaller than the largest sum of the two noises, which some draws violate; the Fourier multiplication test compares residues as integers, so an FFT off by one can fail it.",
  "all binary keys, messages, encryption randomness with noise at most 2^13 per coefficient, FFTs with error at most 2^38 (trace: 2^29), at the default parameters, debug and release builds",
  "A test run sees one draw; whether the test is flaky is a statement about all draws.",
  ["src/rlwe.rs: mod test", "src/rgsw.rs: mod test", "src/lwe.rs: mod test", "src/decision_tree.rs: mod test (test_demux, test_demux_long)"])
p("C92","Double precision never overflows in the Fourier multiplications",
  "Computed on IEEE 754 binary64 numbers with infinities and NaN, the Fourier multiplication never produces an infinity or a NaN, whatever the polynomials, and its result is the one of arithmetic on real numbers with rounding, where nothing overflows. So it is as accurate as C82 says: the same 110 selections in a row at the default parameters, and whole private evaluations and ORAM sessions in the ring of C82, are correct when run on IEEE numbers.",
  "all polynomials, sums of products of depth d in rings of dimension 2^(m+1) with 6 m + d <= 955, correctly rounded tables; for the protocols all keys, plaintexts, trees, requests and noise in range",
  "An overflow would depend on every coefficient; no test reaches extreme operands.",
  ["src/rlwe.rs: fourier_update_with_mul, fourier_update_with_mul_acc, external_product, KSKs", "src/num_types.rs: FourierPolynomial"])
p("C93","The whole program runs correctly, from its arguments to its table",
  "Started with a command line (or parameter file) that asks for supported parameter sets, the program ends with exit status 0 and has printed the complete table, one block per set, and every noise in it is below half the distance between two encoded values; no schedule of its parallel loops changes that. For the ring of C82 (dimension 32) with two, four or eight items or columns, in each of the three modes, nothing is left to assume: this holds for all random words for key, items, queries and hash function, all noise the generator can make, and the Fourier transform computed on IEEE numbers.",
  "all command lines, ways of writing them, parameter files, formats of the numbers, random words, noise draws, schedules, with and without overflow checks",
  "A test runs one command line with one randomness; the claim is about every run.",
  ["src/main.rs: main, single_query, multi_query, batch_query", "src/cli.rs: Cli", "src/params.rs: ServerParams", "src/oram.rs: setup_random_oram, process_one, process_multi, process_batch", "src/context.rs: Context::gen_*", "src/naive_hash.rs: NaiveHash::new"])
p("C94","A request touches every cell equally often, whatever it asks for",
  "process_one reads every cell of row 0 three times and writes it once, and touches no other row; process_multi with x queries reads each 2x+1 times and writes it once; process_batch reads the first copy of every item h_count+4 times, every other copy four times, and writes every cell twice. The counts do not depend on the query, on whether it reads or writes, on the contents, or on the schedule, at any point of a history.",
  "all queries, keys, contents, hash functions, dimensions, schedules, histories that mix the three calls",
  "A test sees one query and one schedule and does not count accesses; a skipped cell would reveal the item.",
  ["src/oram.rs: process_one, process_multi, process_batch, process_one_mt, process_one_st, update_db_mt, update_db_st, correct_consistency, rw"])
p("C95","The remaining unit tests pass on correct code, except the one for batches",
  "The unit tests of the codec, hashing, decision trees, JSON, bit order, polynomial substitution and shapes pass for every shuffle and in debug and release builds; those of both expansions, of private evaluation and of the ORAM (single, many, multi, repeated batches) pass for every key, message, hash function and randomness as long as the worst-case noise fits (for the slow expansion, at its own parameters, it always does). test_oram_batch is refuted: it passes exactly if not all four copies of item 2 lie in the row of the first copy of item 1, or the new data equals the old item; with a fresh hash function it therefore fails on correct code for 840 of 63*62*61*60 placements, about one run in 17000.",
  "all keys, items, data, dummies, encryption randomness, shuffles and FFTs whose worst-case noise fits; for the slow expansion all binary keys and noise up to 2^13 at the default parameters with dimension 256",
  "A test run sees one draw; whether the test itself is sound is a statement about all draws.",
  ["src/oram.rs: mod test", "src/codec.rs: mod test", "src/naive_hash.rs: mod test", "src/decision_tree.rs: mod test", "src/rlwe.rs: mod test (test_expand, test_expand_slow, test_eval_poly)", "src/rgsw.rs: test_rgsw_shape"])
p("C96","The Fourier multiplication tolerates inexact tables and fused multiply-add",
  "C92's results do not depend on correctly rounded tables or on one way to multiply complex numbers. With tables of roots of unity accurate to c units of 2^-53 (double tables computed in the textbook way from a sine and cosine accurate to 2^-52 have c = 17), and with complex multiplications using fused multiply-add in either operand order or none, the Fourier multiplication produces no infinity or NaN, is within a stated bound of the exact product, and 110, 94, 50 and 17 selections in a row (c = 1, 2, 8, 32) at the default parameters, whole private evaluations, ORAM sessions and whole program runs in the ring of C82 are correct.",
  "all polynomials, all tables within the given accuracy, all sine and cosine functions within theirs, all three ways to multiply, all groupings of the sums; for the protocols all keys, plaintexts, trees, requests and noise in range",
  "A test runs on one machine with one mathematical library and one instruction set; the accuracy is a claim about all of them.",
  ["src/rlwe.rs: fourier_update_with_mul, fourier_update_with_mul_acc, external_product, KSKs", "src/num_types.rs: FourierPolynomial", "src/main.rs: main"])
p("C97","The reported noise is the mean of the binary logarithms of the noises",
  "The noise figure of the driver and of compute_noise_rgsw1, an f64, is within (64 n + 194) units of 2^-53 of the mean of the base-2 logarithms of the n noises; it lies between exponents a and b if all noises lie between 2^a and 2^b; for one answer it is the logarithm itself, and for two it does not depend on their order. Comparing two figures, or a figure with an integer, compares the noises (below 2^43). In the printed table of every supported run each figure is minus infinity or between 0 and 63 minus the logarithm of the plaintext modulus. Refuted: a single noise-free answer makes the figure minus infinity; zero queries (--mode 1 --query-count 0) end with status 0 and NaN; a batch that drops its second item reports half the logarithm.",
  "all lists of noises up to 2^40 long, every log2 accurate to 2^-52 that does not cross powers of two (the correctly rounded one is), all supported parameter sets, keys, randomness",
  "The figure is what a user reads as the security margin; tests compare two figures of one draw and ignore rounding, zeros and the divisor.",
  ["src/rlwe.rs: compute_noise, compute_noise_encoded", "src/rgsw.rs: compute_noise_rgsw1", "src/main.rs: single_query, multi_query, batch_query"])
p("C98","The floating-point comparison of the Fourier test is sound up to its rounding",
  "In test_fourier_mul, the comparison of two words as f64 against 1e-9 times the largest word agrees with the comparison of the integers except within 4097 of the bound. Ten products precise to eps pass if 10 eps is below the tolerance and no coefficient of a partial sum is within 10 eps of the wrap; with the double-precision FFT (tables computed in the textbook way from a sine and cosine accurate to 2^-52, all three ways to multiply complex numbers) the test passes for ternary times arbitrary polynomials if no coefficient of a partial sum is within 2^34 + 2^30 of the wrap; a run that passes shows that each of its products is right up to twice the tolerance. Refuted: with products wrong by one unit and a sum that wraps, the test fails.",
  "all pairs of words, all polynomials, all multiplication routines with the stated precision, every ring dimension",
  "The unit test draws ten random pairs; it does not say what a pass means, nor when a correct FFT would fail it.",
  ["src/rlwe.rs: test_fourier_mul, fourier_update_with_mul_acc, naive_update_with_mul_acc"])
p("C99","A debug build and a release build behave the same unless the debug build reports an overflow",
  "For every computation of the library (codec, encryption, decryption, key and query generation, noise, the decision tree protocol, ORAM setup, any history of requests) and for the benchmark program: the build with overflow checks either panics with an arithmetic overflow, or gives exactly what the build without gives - the same value, the same panic, the same printed text and exit status. In the first case the program has printed a beginning of what the release build prints. If a debug run finishes under some schedule, every release run finishes under every schedule with the same figures; likewise a release server gives the answers, and ends with the database, of a debug server that processed the same requests under other schedules without a panic. The builds are not the same in general: a noise of 2^63 stops a debug build and is reported as 0 by a release build; a set without items ends the debug build with a panic and the release build with success.",
  "all inputs, parameters, keys, randomness, FFTs, queries (honest or not), histories, parameter files, command lines and schedules",
  "Unit tests run in one build mode on a few inputs; that the other mode does the same is a statement about every arithmetic operation on every input.",
  ["Cargo.toml: profiles", "src/codec.rs: Codec", "src/rlwe.rs: compute_noise, neg_gsw, encode_encrypt_rlwe", "src/utils.rs: log2, pt_to_lossy_u64", "src/oram.rs: process_one_mt, process_one_st, setup_random_oram", "src/main.rs: main"])
out = os.path.join(os.path.dirname(os.path.abspath(__file__)), "..", "properties.jsonl")
with open(out, "w") as f:
    for x in P: f.write(json.dumps(x) + "\n")
print(len(P))
