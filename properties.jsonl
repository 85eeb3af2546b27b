{"id": "C01", "title": "Codec decoding removes any error below the rounding threshold", "statement": "For every codec built by Codec::new(t) with t a power of two (2 <= t <= 2^63), every plaintext m < t and every error e with -delta/2 <= e < delta/2 (delta = 2^64/t), encode succeeds without overflow and decode(encode(m) + e mod 2^64) = m; at e = delta/2 it does not return m. The same holds coefficient by coefficient for poly_encode / poly_decode.", "quantifier": "all t, all m < t, all errors in the window, debug and release arithmetic", "why_tests_cant": "The error window has up to 2^63 values per plaintext and 63 moduli; the tests sample two errors for two moduli.", "anchors": ["src/codec.rs: Codec::new, encode, decode, poly_encode, poly_decode, largest_error, pt_modulus"]}
{"id": "C02", "title": "Codec rejects what it cannot represent", "statement": "Codec::new panics on every t that is not a power of two; encode panics exactly when x >= t and otherwise multiplies by delta with no wrap-around, and pt_modulus * delta = 2^64. t = 1 passes the power-of-two test but panics on the shift in checked builds, while in release builds it yields a codec whose decode does not return the only plaintext.", "quantifier": "all 64-bit t and x, both overflow modes", "why_tests_cant": "The guard must be exact on all 2^64 inputs.", "anchors": ["src/codec.rs: Codec::new, encode, pt_modulus, largest_error"]}
{"id": "C03", "title": "Ternary codec round trip under noise", "statement": "For x in {0, 1, -1 (u64::MAX)} and every error in the exact window given by the constants computed in f64 (at least |e| <= 3074457345618257920), ternary_decode(ternary_encode(x)+e) = x; every other input makes ternary_encode panic; ternary_decode is total.", "quantifier": "all ternary scalars, all errors in the window, all 64-bit words", "why_tests_cant": "The thresholds come out of floating point constants; boundary behaviour over 2^64 inputs cannot be sampled.", "anchors": ["src/codec.rs: ternary_encode, ternary_decode, poly_ternary_encode, poly_ternary_decode"]}
{"id": "C04", "title": "log2 is the exact floor logarithm", "statement": "For every 0 < x < 2^64, 2^log2(x) <= x < 2^(log2(x)+1); log2(0) panics in checked builds and wraps to usize::MAX in release builds.", "quantifier": "all usize values, both overflow modes", "why_tests_cant": "All sizes, keys and shifts of the library derive from it.", "anchors": ["src/utils.rs: log2"]}
{"id": "C05", "title": "transpose is exact matrix transposition", "statement": "For every non-empty rectangular matrix v, transpose(v)[j][i] = v[i][j], with swapped dimensions, and transposing twice is the identity when there is at least one column; it panics on an empty outer vector or if some row is shorter than the first, and drops surplus entries of longer rows.", "quantifier": "all matrices of all sizes and element types", "why_tests_cant": "Unbounded shapes, including ragged ones.", "anchors": ["src/utils.rs: transpose"]}
{"id": "C06", "title": "Lossy conversion of a plaintext is its low 64 bits", "statement": "pt_to_lossy_u64 returns the 64-bit word whose i-th bit is coefficient i (zero beyond the list), never overflows, ignores coefficients from 64 on, and panics exactly when one of the first 64 coefficients is not a bit.", "quantifier": "all plaintext lists of all lengths", "why_tests_cant": "2^64 outcomes and unbounded lengths.", "anchors": ["src/utils.rs: pt_to_lossy_u64"]}
{"id": "C07", "title": "The hash family is injective and in range", "statement": "For every hash built by NaiveHash::new, whatever the shuffle, (h,x) -> hash(h,x) is a bijection from h_count x input_domain onto 0..output_domain; checked_hash returns Some exactly on valid arguments and then agrees with hash; NaiveHash::new panics iff h_count = 0. The unchecked accessors alias: with h_count = 1, hash1(x) is hash0(x+1).", "quantifier": "all h_count, input_domain, all shuffles (permutations), all h, x", "why_tests_cant": "The table is a random permutation; a test sees a handful of the (h*n)! tables.", "anchors": ["src/naive_hash.rs: NaiveHash::new, hash, checked_hash, hash0, hash1, hash2, output_domain"]}
{"id": "C08", "title": "Hash positions tile the database exactly", "statement": "When rows*cols = h_count*input_domain, hash_to_tuple(h, x, cols) ranges over every cell (r,c) with r < rows, c < cols exactly once as (h,x) ranges over its domain, and r*cols + c = hash(h,x).", "quantifier": "all dimensions, shuffles, h, x", "why_tests_cant": "Overlap of two items would corrupt data only for particular shuffles.", "anchors": ["src/naive_hash.rs: hash_to_tuple", "src/oram.rs: gen_dummy_database, process_batch"]}
{"id": "C09", "title": "Batch mapping is sound, conflict free and greedy-maximal", "statement": "hash_to_mapping returns a map in which each row appears once, every entry r -> (c,i) has i in the requested list and (r,c) = hash_to_tuple(h,i) for some h; for duplicate-free requests every index is served at most once; the first index is always served; an index is missing only if every one of its rows is already taken by an earlier index.", "quantifier": "all hash tables, all index lists, all widths d > 0", "why_tests_cant": "Depends on the collision pattern of a random table.", "anchors": ["src/naive_hash.rs: hash_to_mapping"]}
{"id": "C10", "title": "A batch index that cannot be placed is reported", "statement": "Claimed by the code (panic 'all slots are taken'): if an index finds no free row, hash_to_mapping panics. Refuted: the check sits inside the loop and can never fire, the index is silently dropped from the query.", "quantifier": "all hash tables and index lists", "why_tests_cant": "Needs a colliding table; with random tables a test almost never sees it and nothing signals it.", "anchors": ["src/naive_hash.rs: hash_to_mapping"]}
{"id": "C11", "title": "eval_x_k is the substitution X -> X^k in Z_q[X]/(X^n+1)", "statement": "For odd k and n a power of two, eval_x_k(f,k) is f(X^k) reduced modulo X^n+1; it is a ring homomorphism (sums, negacyclic products, one), and substituting k then k' equals substituting k*k'; for even k, or if n is not a power of two, it panics.", "quantifier": "all n, all odd k, all coefficient vectors", "why_tests_cant": "Signs and wrap-around must be right for all exponents.", "anchors": ["src/utils.rs: eval_x_k, eval_x_k_in_memory"]}
{"id": "C12", "title": "RLWE encryption decrypts to the plaintext for every mask and bounded noise", "statement": "For every key, mask and noise with |noise| within the codec window, decrypt_decode_rlwe(encode_encrypt_rlwe(m)) = m; ternary variant likewise; decrypt_rlwe returns exactly message + noise.", "quantifier": "all keys, masks, plaintexts, noise polynomials below the bound", "why_tests_cant": "Random masks and noise: tests sample one.", "anchors": ["src/rlwe.rs: encode_encrypt_rlwe, decrypt_decode_rlwe, encrypt_rlwe, decrypt_rlwe, ternary_encrypt_rlwe, ternary_decrypt_rlwe, encrypt_constant_rlwe"]}
{"id": "C13", "title": "RLWE additions and subtractions are homomorphic and exact", "statement": "decrypt_rlwe of update_with_add / update_with_sub is the coefficientwise wrapping sum / difference of the decryptions; add followed by sub restores the ciphertext; clear and fill_with_copy give zero / the copied ciphertext; update_with_monomial_div divides the decryption by X^m.", "quantifier": "all keys and ciphertexts", "why_tests_cant": "Must hold for all ring elements modulo 2^64.", "anchors": ["src/rlwe.rs: update_with_add, update_with_sub, update_mask_with_add, update_body_with_add, clear, fill_with_copy, update_with_monomial_div"]}
{"id": "C14", "title": "In-place polynomial multiplication of mask and body", "statement": "update_mask_with_mul and update_body_with_mul replace the mask / body by its negacyclic product with the argument. Holds for the mask; refuted for the body: update_body_with_mul clears the body first and always leaves zero.", "quantifier": "all ciphertexts and polynomials", "why_tests_cant": "No test calls these functions.", "anchors": ["src/rlwe.rs: update_mask_with_mul, update_body_with_mul, naive_update_with_mul, naive_update_with_mul_acc"]}
{"id": "C15", "title": "less_eq_than decides m <= d on the exponent", "statement": "For a ciphertext whose phase is c*X^m + noise, after less_eq_than(d) with d < n the constant term of the phase is c*[m <= d] up to an error of at most (d+1)*noise + FFT error (after multiplication with the key's weight); it panics exactly if d >= n.", "quantifier": "all n, m < n, d < n, all ciphertexts and keys", "why_tests_cant": "All pairs (m,d), all masks; test fixes m = n/2.", "anchors": ["src/rlwe.rs: less_eq_than, update_body_with_mul_with_buf, update_mask_with_mul_with_buf, fourier_update_with_mul"]}
{"id": "C16", "title": "eq_to decides m = d on the exponent", "statement": "Same with the equality test: constant term becomes c*[m = d].", "quantifier": "all n, m, d, ciphertexts and keys", "why_tests_cant": "All pairs (m,d).", "anchors": ["src/rlwe.rs: eq_to"]}
{"id": "C17", "title": "Encrypted NOT flips the encrypted bit", "statement": "With plaintext modulus 2, not and not_in_place flip the constant coefficient and leave the others unchanged after decoding, exactly negating the noise; applying it twice restores the ciphertext; both variants agree.", "quantifier": "all ciphertexts, keys, noise below the bound", "why_tests_cant": "All ciphertexts.", "anchors": ["src/rlwe.rs: not, not_in_place"]}
{"id": "C18", "title": "External product multiplies plaintexts", "statement": "If an RGSW ciphertext encrypts the polynomial m with row noise <= E and an RLWE ciphertext has phase p, the external product has phase m*p + err with err bounded by 2*l*n*2^(B-1)*E + |m|_1*(1+|s|_1)*2^(63-B*l) + eps*(1+|s|_1), for every FFT whose error is at most eps, and it accumulates onto the output buffer.", "quantifier": "all keys, ciphertexts, decomposition parameters, FFT roundings within eps", "why_tests_cant": "Worst case over ciphertexts and noise cannot be sampled.", "anchors": ["src/rgsw.rs: external_product_with_buf, external_product_with_buf_glwe, external_product"]}
{"id": "C19", "title": "cmux selects the right ciphertext", "statement": "With an RGSW encryption of 0 / 1, cmux returns a ciphertext whose phase is that of ct0 / ct1 up to the external product error; hence decrypts to the same plaintext whenever the error stays in the window.", "quantifier": "all ciphertexts, keys, noise within bound", "why_tests_cant": "As C18.", "anchors": ["src/rgsw.rs: cmux, cmux_with_buf"]}
{"id": "C20", "title": "RLWE key switching preserves the phase", "statement": "A ciphertext under before_key switched with the key made by fill_with_keyswitch_key decrypts under after_key to the same phase up to the explicit bound; the Fourier variant, which consumes keys two at a time, meets the same bound for every (even or odd) level count.", "quantifier": "all keys, ciphertexts, level counts, noise within bound", "why_tests_cant": "Odd/even level counts and all ciphertexts.", "anchors": ["src/rlwe.rs: RLWEKeyswitchKey::fill_with_keyswitch_key, keyswitch_ciphertext, FourierRLWEKeyswitchKey::keyswitch_ciphertext, into_fourier"]}
{"id": "C21", "title": "Homomorphic substitution", "statement": "subs with a key made by fill_with_subs_keyswitch_key for odd k turns a ciphertext with phase p(X) into one with phase p(X^k) up to the key-switching bound; a key made by fill_with_keyswitch_key (subs_k = 0) makes subs panic.", "quantifier": "all odd k, keys, ciphertexts", "why_tests_cant": "All k and ciphertexts.", "anchors": ["src/rlwe.rs: subs, fill_with_subs_keyswitch_key"]}
{"id": "C22", "title": "trace1 isolates n times the constant term", "statement": "trace1 / trace1_fourier with keys from gen_all_subs_ksk(_fourier) turn phase sum a_i X^i into n*a_0 up to (n-1)*(keyswitch bound) - exactly all other coefficients of the message vanish; the map contains every key that is looked up.", "quantifier": "all n powers of two, all ciphertexts, keys", "why_tests_cant": "All polynomials; the cancellation is algebraic.", "anchors": ["src/rlwe.rs: trace1, trace1_fourier, gen_all_subs_ksk, gen_all_subs_ksk_fourier"]}
{"id": "C23", "title": "neg_gsw is an RGSW encryption of -s", "statement": "The ciphertext of Client::gen_neg_sk encrypts minus the secret key in the gadget of its own decomposition parameters. Holds when negs_base_log = base_log; refuted otherwise: encrypt_rgsw shifts by ctx.base_log whatever the ciphertext's own base is. For keys that are not binary it holds in release builds; debug builds panic on them.", "quantifier": "all keys, masks, noise, decomposition parameters", "why_tests_cant": "The tests only use equal base logs; the CLI lets users choose them independently.", "anchors": ["src/rlwe.rs: neg_gsw, encrypt_rgsw, encrypt_constant_rgsw"]}
{"id": "C24", "title": "expand / expand_fourier produce an RGSW encryption of the bit", "statement": "From RLWE ciphertexts with phases b/(n B^j) + (anything in the other coefficients), expand and expand_fourier return an RGSW encryption of b with explicit row-noise bound.", "quantifier": "all bits, random other coefficients, keys, noise", "why_tests_cant": "All ciphertexts.", "anchors": ["src/rlwe.rs: expand, expand_fourier, decomposed_rlwe_to_rgsw, make_decomposed_rlwe_ct"]}
{"id": "C25", "title": "A key switching key converted to RGSW switches keys", "statement": "from_keyswitch_key(ksk) used through keyswitch_ciphertext (external product) turns a ciphertext under before_key into one under after_key with the same phase up to the bound.", "quantifier": "all keys and ciphertexts", "why_tests_cant": "As C20.", "anchors": ["src/rgsw.rs: from_keyswitch_key, keyswitch_ciphertext, keyswitch_ciphertext_with_buf"]}
{"id": "C26", "title": "LWE encryption decrypts", "statement": "decode_decrypt_lwe(encode_encrypt_lwe(m)) = m for every mask and noise in the window; decrypt_lwe returns message + noise exactly.", "quantifier": "all keys, masks, messages, noise", "why_tests_cant": "Random.", "anchors": ["src/lwe.rs: encrypt_lwe, encode_encrypt_lwe, decrypt_lwe, decode_decrypt_lwe"]}
{"id": "C27", "title": "Sample extraction extracts exactly one coefficient", "statement": "The LWE ciphertext extracted at degree d decrypts under the LWE key (same coefficients as the RLWE key) to exactly coefficient d of the RLWE decryption.", "quantifier": "all d < n, keys, ciphertexts", "why_tests_cant": "All coefficients and keys.", "anchors": ["src/lwe.rs: fill_with_sample_extract, fill_with_const_sample_extract, to_rlwe_sk"]}
{"id": "C28", "title": "LWE to RLWE conversion and the slow expansion", "statement": "conv_lwe_to_rlwe yields a RLWE ciphertext whose phase is the constant polynomial (LWE phase) up to the explicit bound; expand_slow of ciphertexts with constant terms b/B^j is an RGSW encryption of b. make_decomposed_rlwe_ct2 makes such ciphertexts; with overflow checks it rejects all other arguments and all precisions above 64 bits; refuted: also in release builds, where it encrypts wrong multiples.", "quantifier": "all keys, ciphertexts, noise", "why_tests_cant": "All ciphertexts.", "anchors": ["src/lwe.rs: conv_lwe_to_rlwe, fill_with_keyswitching_key", "src/rlwe.rs: expand_slow, make_decomposed_rlwe_ct2"]}
{"id": "C29", "title": "Reported noise is the real noise", "statement": "compute_noise(_encoded) computes max |phase - encoded| over coefficients in centred representation (before the final log2), except that a difference of exactly -2^63 panics in checked and is ignored in release builds. compute_noise_ternary is refuted: it decodes instead of encoding the plaintext and so reports the phase itself.", "quantifier": "all ciphertexts, keys, plaintexts", "why_tests_cant": "The error path depends on values a test does not produce.", "anchors": ["src/rlwe.rs: compute_noise, compute_noise_encoded, compute_noise_ternary"]}
{"id": "C30", "title": "Node indices are unique, dense and in flattening order", "statement": "After fix_index the flattened tree has indices 0,1,..,m-1 in order where m = count_internal, fix_index returns m-1, nothing but the indices changes; flatten lists exactly the internal nodes in pre-order; on a leaf fix_index panics and flatten is empty.", "quantifier": "all trees (missing children included)", "why_tests_cant": "Unbounded tree shapes.", "anchors": ["src/decision_tree.rs: fix_index, flatten, flatten_tree"]}
{"id": "C31", "title": "Tree statistics", "statement": "count_internal equals the flattened length; count_leaf counts the leaves; a tree without missing children has count_leaf = count_internal + 1; count_depth is the longest root-leaf path; max_feature_index bounds every feature and is attained.", "quantifier": "all trees", "why_tests_cant": "Unbounded tree shapes.", "anchors": ["src/decision_tree.rs: count_leaf, count_internal, count_depth, max_feature_index"]}
{"id": "C32", "title": "Plain evaluation follows the decision path", "statement": "If all nodes are LEQ and all features in range, eval returns the label of the leaf reached by going left iff features[f] <= threshold, and 0 when the path meets a missing child; otherwise (some GT node or a feature out of range anywhere in the tree, even off the path) it panics.", "quantifier": "all trees, all feature vectors", "why_tests_cant": "Unbounded trees; the code visits all nodes and multiplies by path indicators.", "anchors": ["src/decision_tree.rs: eval, eval_node"]}
{"id": "C33", "title": "Truncation preserves predictions", "statement": "trunc_tree yields None iff every leaf label is 0, contains no zero leaf, is idempotent and, whenever the original evaluates, the truncated tree evaluates to the same label (0 for None).", "quantifier": "all trees and feature vectors", "why_tests_cant": "Unbounded trees.", "anchors": ["src/decision_tree.rs: trunc_tree"]}
{"id": "C34", "title": "Generated full trees", "statement": "new_with_depth(d) is the complete binary tree of depth d: 2^d leaves, 2^d - 1 internal nodes, depth d, exactly the leftmost leaf labelled 1, all others 0; the default tree has depth 1.", "quantifier": "all depths", "why_tests_cant": "All d.", "anchors": ["src/decision_tree.rs: new_with_depth, gen_full_tree, Default"]}
{"id": "C35", "title": "Encrypted tree construction matches ciphertexts to nodes", "statement": "EncNode::new pairs the i-th ciphertext with the i-th node of flatten, keeps the shape (missing children become leaves 0), consumes exactly count_internal ciphertexts and panics if there are fewer or the root is a leaf.", "quantifier": "all trees and ciphertext sequences", "why_tests_cant": "Order of consumption over unbounded trees.", "anchors": ["src/decision_tree.rs: EncNode::new, new_enc_node"]}
{"id": "C36", "title": "Encrypted tree evaluation returns the bits of the reached label", "statement": "If every node's RGSW ciphertext encrypts its decision bit, EncNode::eval returns one RLWE ciphertext per label bit whose phase is delta * bit of the label of the reached leaf up to the explicit bound (number of leaves times depth times external product error); decrypt_and_recompose returns the label.", "quantifier": "all trees, all bits, keys, noise", "why_tests_cant": "Unbounded trees, noise.", "anchors": ["src/decision_tree.rs: EncNode::eval, eval_enc_node, max_leaf, decrypt_and_recompose"]}
{"id": "C37", "title": "demux yields the scaled unit vector", "statement": "demux_with(b, bits) returns 2^len(bits) ciphertexts; the one at the index whose complemented bits (most significant first) are encrypted has phase of b, all others 0, up to len(bits) external product errors; it panics on an empty bit vector.", "quantifier": "all bit vectors of all lengths, keys, noise", "why_tests_cant": "2^n outputs for all n.", "anchors": ["src/decision_tree.rs: demux, demux_with, demux_rec"]}
{"id": "C38", "title": "Index decomposition addresses the intended slot", "statement": "bit_decomposed_rgsw(i, n) encrypts log2(n) complemented bits of i, most significant first, so that demux selects slot i for every i < n = 2^k, and i mod 2^log2(n) in general.", "quantifier": "all i, n", "why_tests_cant": "All indices.", "anchors": ["src/decision_tree.rs: bit_decomposed_rgsw"]}
{"id": "C39", "title": "Private decision tree evaluation agrees with plain evaluation", "statement": "The server computation of simulate (compare_expand, EncNode::new, eval) decrypts to model.eval(feature) for every tree with LEQ nodes, features and thresholds below n, when the explicit noise bound is below the window.", "quantifier": "all trees, features, keys, masks, noise within bound", "why_tests_cant": "End-to-end over unbounded trees and random ciphertexts.", "anchors": ["src/decision_tree.rs: simulate, compare_expand, encrypt_feature_vector, decrypt_and_recompose"]}
{"id": "C40", "title": "The generated database stores every item at all its positions", "statement": "setup_random_oram with rows*cols = input_domain*h_count returns item_count plaintexts and a rows x cols database in which every one of the h_count positions of item i decrypts to plaintext i, every cell belongs to exactly one item; it panics when the dimensions do not match.", "quantifier": "all dimensions, shuffles, keys, masks, noise", "why_tests_cant": "More than 128 items take a different code path that tests ignore.", "anchors": ["src/oram.rs: setup_random_oram, gen_dummy_database"]}
{"id": "C41", "title": "A single read returns the stored item and preserves the database", "statement": "With one row, for every index i, gen_read_query_one(i) processed by process_one returns a ciphertext decrypting to the item at hash position of i, and every cell decrypts as before (more than one decomposition level, or a call from a rayon worker: C67).", "quantifier": "all database sizes (powers of two), indices, contents, keys, noise within bound", "why_tests_cant": "All indices and contents.", "anchors": ["src/oram.rs: gen_read_query_one, process_one, process_one_mt, update_db_mt, rw"]}
{"id": "C42", "title": "A single write updates exactly one item", "statement": "After gen_write_query_one(i, alpha) and process_one, the cell of i decrypts to alpha, every other cell as before, and the response is the previous content (more than one decomposition level, or a call from a rayon worker: C67).", "quantifier": "all sizes, indices, contents, data", "why_tests_cant": "All indices.", "anchors": ["src/oram.rs: gen_write_query_one, process_one"]}
{"id": "C43", "title": "Any history of single queries behaves like an array", "statement": "For every finite sequence of reads and writes, each response decrypts to what a plain array would return at that point, as long as initial noise + T * (per-query growth) + response noise stays in the decoding window (T the number of queries) (more than one decomposition level, or calls from a rayon worker: C67).", "quantifier": "all histories of all lengths within the noise budget", "why_tests_cant": "Unbounded histories.", "anchors": ["src/oram.rs: Server::process_one, Client queries"]}
{"id": "C44", "title": "Parallel multi-queries on distinct items behave like the sequential array", "statement": "process_multi on queries for pairwise distinct items returns the items before the batch and applies all writes, leaving all other cells unchanged (a number of queries other than 1, or a call from a rayon worker: C67).", "quantifier": "all numbers of queries, index sets, read/write mixes", "why_tests_cant": "All combinations.", "anchors": ["src/oram.rs: process_multi"]}
{"id": "C45", "title": "Parallel multi-queries on the same item", "statement": "Claimed: process_multi is equivalent to processing the queries one after the other. Refuted: two reads of the same item overwrite it with 3 times its value.", "quantifier": "all query lists", "why_tests_cant": "The test uses distinct indices only.", "anchors": ["src/oram.rs: process_multi"]}
{"id": "C46", "title": "Batched reads return the requested items", "statement": "In process_batch, the response of row r decrypts to the content of the cell selected by the mapping for row r, hence to item i for every i in the mapping; cells keep their contents (more than one row and item, or a call from a rayon worker: C67).", "quantifier": "all dimensions, shuffles, index sets, keys, noise", "why_tests_cant": "Depends on the table.", "anchors": ["src/oram.rs: gen_read_query_batch, process_batch, process_one_st, update_db_st"]}
{"id": "C47", "title": "Batched writes keep all copies consistent", "statement": "If all positions of every item hold the same plaintext, then after process_batch of a write batch for distinct indices every mapped item has the new data at all of its positions and every other item is unchanged at all of its positions (more than one row and item, or a call from a rayon worker: C67).", "quantifier": "all dimensions, shuffles, index sets", "why_tests_cant": "Consistency correction over random tables.", "anchors": ["src/oram.rs: gen_write_query_batch, process_batch, correct_consistency"]}
{"id": "C48", "title": "Any history of batches behaves like an array", "statement": "For every sequence of read / write batches (distinct indices in each), responses and database follow the plain array in which only the mapped indices take effect, within the noise budget (more than one row and item, or calls from a rayon worker: C67).", "quantifier": "all histories within the noise budget", "why_tests_cant": "Unbounded histories.", "anchors": ["src/oram.rs: process_batch"]}
{"id": "C49", "title": "Database updates do not depend on thread scheduling and cannot deadlock", "statement": "For every interleaving of the lock acquisitions, reads, writes and releases of the parallel tasks of update_db_mt, process_multi's final loop, process_batch's update and consistency loops, the final database equals the sequential one; no interleaving gets stuck and all terminate.", "quantifier": "all schedules, all numbers of tasks", "why_tests_cant": "Exponentially many interleavings.", "anchors": ["src/oram.rs: update_db_mt, process_multi, process_batch, correct_consistency"]}
{"id": "C50", "title": "Parallel reductions do not depend on how rayon splits the work", "statement": "For every splitting tree, with the identity inserted anywhere, the reduce of ciphertexts (and of vectors of ciphertexts) equals the left-to-right sum.", "quantifier": "all reduction trees", "why_tests_cant": "rayon chooses splits at run time.", "anchors": ["src/oram.rs: process_one_mt, process_multi"]}
{"id": "C51", "title": "The single-threaded and multi-threaded query engines agree", "statement": "process_one_st and process_one_mt return equal responses and selection ciphertexts bit for bit, and update_db_st and update_db_mt the same database (where no parallel loop is rejected: C67).", "quantifier": "all queries, databases, keys", "why_tests_cant": "All inputs.", "anchors": ["src/oram.rs: process_one_mt, process_one_st, update_db_mt, update_db_st"]}
{"id": "C52", "title": "Queries have the same shape whatever is asked", "statement": "The number and dimensions of all ciphertexts in a query (and the number of queries in a batch) depend only on the public parameters, not on the index, the operation or the data.", "quantifier": "all indices, operations, data, randomness", "why_tests_cant": "Must hold for all pairs of queries.", "anchors": ["src/oram.rs: make_read_query, make_write_query, gen_read_query_batch, gen_write_query_batch"]}
{"id": "C53", "title": "The server's memory access pattern is independent of the query", "statement": "The sequence of database cells read and written by process_one, process_multi and process_batch depends only on public dimensions and the hash table, never on ciphertext contents.", "quantifier": "all pairs of queries with equal shape", "why_tests_cant": "Two-run property.", "anchors": ["src/oram.rs: process_one, process_multi, process_batch"]}
{"id": "C54", "title": "Unsupported widths are rejected, not mishandled", "statement": "Processing panics whenever the number of columns is not a power of two or is 1, and the assertion in process_batch rejects a wrong number of queries.", "quantifier": "all widths and queries", "why_tests_cant": "All widths.", "anchors": ["src/oram.rs: process_one_mt, process_one_st, process_batch", "src/decision_tree.rs: demux_rec"]}
{"id": "C55", "title": "Single-item queries in a batched database", "statement": "Claimed: gen_read_query_one(i) / gen_write_query_one(i) produce the query for item i. Holds for rows = 1 only; refuted for more rows: if i hashes to a row other than 0 the returned query reads cell 0 of row 0.", "quantifier": "all rows, cols, hash tables", "why_tests_cant": "Only rows = 1 is tested.", "anchors": ["src/oram.rs: gen_read_query_one, gen_write_query_one"]}
{"id": "C56", "title": "Decrypting the database for inspection", "statement": "decrypt_db returns, for every cell, the 64-bit packing of its plaintext when all plaintexts are binary. Refuted for the databases the crate itself generates with plaintext modulus > 2: it panics as soon as a coefficient is not a bit.", "quantifier": "all databases", "why_tests_cant": "No test calls it.", "anchors": ["src/oram.rs: decrypt_db"]}
{"id": "C57", "title": "Parameter lists expand to the exact cartesian product", "statement": "from_input_params_list yields, in order, for every list entry each ORAM parameter with each TFHE parameter exactly once; the length is the sum of products.", "quantifier": "all lists", "why_tests_cant": "Unbounded.", "anchors": ["src/params.rs: from_input_params_list"]}
{"id": "C58", "title": "Command line parameter selection", "statement": "If the parameter file opens, its content (or the library defaults when it does not parse) is used and all other options are ignored; if it does not open, exactly the command line values are used with iterations = 1 and the mode number selects single (0), multi (1) or batched (anything else).", "quantifier": "all command lines and files", "why_tests_cant": "All combinations.", "anchors": ["src/main.rs: main", "src/params.rs"]}
{"id": "C59", "title": "The benchmark drivers' self checks succeed", "statement": "single_query, multi_query and batch_query never fail their own assertions for power-of-two widths and noise within the budget, for every number of iterations; multi_query panics if query_count >= item_count and batch_query if rows*cols is not divisible by 3. The result check pts[indices[i]] of batch_query is only correct because indices = [0,1]: for other index lists it compares with the wrong item or panics. multi_query also panics for query_count = 1 and single_query for one decomposition level (C67).", "quantifier": "all iteration counts, dimensions, shuffles, randomness within budget", "why_tests_cant": "Long runs.", "anchors": ["src/main.rs: single_query, multi_query, batch_query"]}
{"id": "C60", "title": "Any history of single queries and multi-queries behaves like an array, whatever the schedules", "statement": "Starting from the database setup_random_oram builds, any finite sequence of process_one and process_multi calls, in any order and under any thread schedules, completes, answers like a plain array of the returned plaintexts serving all the requests one after the other, and leaves every item decrypting to the array's content, as long as the accumulated noise stays in the budget (no one-element parallel loop outside a rayon pool: C67).", "quantifier": "all mixed histories, schedules, randomness", "why_tests_cant": "Unbounded histories and exponentially many schedules.", "anchors": ["src/oram.rs: setup_random_oram, process_one, process_multi"]}
{"id": "C61", "title": "Any history of batches behaves like an array, whatever the schedules", "statement": "Starting from the database setup_random_oram builds, any finite sequence of batches without repeated items in a write, under any thread schedules, completes, answers like a plain array, and at the end all copies of every item decrypt to the array's content (no one-element parallel loop outside a rayon pool: C67).", "quantifier": "all batch histories, schedules, hash tables, randomness", "why_tests_cant": "Unbounded histories and exponentially many schedules.", "anchors": ["src/oram.rs: setup_random_oram, process_batch, gen_read_query_batch, gen_write_query_batch"]}
{"id": "C62", "title": "What the random generators return", "statement": "gen_pt returns exactly the plaintexts of the plaintext modulus, gen_binary_pt and the key generators exactly the binary polynomials, gen_ternary_ptxt exactly the polynomials over {-1,0,1}; all of them round-trip through the matching encryption; gen_demuxed_pt(i) is X^i or panics for i >= n; and the benchmark drivers fed only by those generators complete their own checks; every key, database and dummy data can be drawn.", "quantifier": "all random words, moduli, ring dimensions", "why_tests_cant": "Tests see a few draws.", "anchors": ["src/context.rs: gen_pt, gen_binary_pt, gen_ternary_ptxt, gen_demuxed_pt, gen_rlwe_sk, gen_lwe_sk", "src/main.rs"]}
{"id": "C63", "title": "Rows of an RGSW ciphertext and its noise report", "statement": "get_nth_row(2i) and get_nth_row(2i+1) encrypt -m*s and m scaled by the i-th gadget element, get_last_row the last level, other indices panic; encrypting a list of constants gives one such ciphertext per constant; compute_noise_rgsw1 reports for an encryption of 1 at most the noise. Refuted for encryptions of 0: there it reports at least the gadget element minus the noise.", "quantifier": "all ciphertexts, levels, noise", "why_tests_cant": "All rows, all randomness.", "anchors": ["src/rgsw.rs: get_nth_row, get_last_row, encrypt_constant_rgsw_vec", "src/rlwe.rs: compute_noise_rgsw1"]}
{"id": "C64", "title": "Converting scaled RLWE ciphertexts to RGSW", "statement": "Given one RLWE ciphertext of m per gadget level and an RGSW encryption of -s, the conversion yields an RGSW encryption of m with an explicit noise bound; too few inputs panic; surplus inputs are ignored.", "quantifier": "all inputs", "why_tests_cant": "All inputs.", "anchors": ["src/rlwe.rs: decomposed_rlwe_to_rgsw"]}
{"id": "C65", "title": "The program runs every selected parameter set once", "statement": "main runs the selected parameter sets in order, each once; it completes iff each one does and stops at the first panic; supported sets complete with one noise value per iteration; a dry run completes without touching a ciphertext. Claimed in a comment and refuted: a wrong parameter path gives the default parameters (the command line values are used).", "quantifier": "all parameter files, command lines, randomness within budget", "why_tests_cant": "All lists.", "anchors": ["src/main.rs: main", "src/params.rs"]}
{"id": "C66", "title": "Fresh and cleared ciphertexts encrypt zero", "statement": "A newly allocated or cleared RLWE, RGSW or LWE ciphertext is, under every key, an encryption of zero without noise, decodes to the zero plaintext, and is neutral for ciphertext addition.", "quantifier": "all keys, dimensions, previous contents", "why_tests_cant": "All keys.", "anchors": ["src/rlwe.rs: allocate, clear", "src/rgsw.rs: allocate", "src/lwe.rs: allocate, clear, fill_with_tensor"]}
{"id": "C67", "title": "Calls from outside a rayon pool", "statement": "Claimed: process_one, process_multi and process_batch can be called from any thread. Refuted for loops of a single element, which rayon runs on the calling thread where current_thread_index() is None: outside a pool, under every schedule, process_one panics with one decomposition level, process_multi with one query, process_batch with one row or one item; except in the last case the database is untouched. multi_query with query_count = 1 therefore always panics, and so does the program with --mode 1 and otherwise default options. From a pool worker the same calls are answered.", "quantifier": "all schedules, queries, databases, parameters", "why_tests_cant": "No test makes a one-element call.", "anchors": ["src/oram.rs: process_one_mt, process_multi, process_batch, correct_consistency", "src/main.rs: multi_query", "src/cli.rs: query_count"]}
{"id": "C68", "title": "A rejected call leaves the server as if it had not been made", "statement": "No call of process_one, process_multi or process_batch, however malformed and under every schedule, poisons a row lock or leaves one held: panics only happen while no guard for writing is held. Queries whose width does not fit the database, or batches with the wrong number of queries, panic under every schedule before anything is changed; so a history of single and multi-queries, or of batches, with such rejected calls (their panics caught) interspersed completes and answers like a plain array serving only the proper calls.", "quantifier": "all histories, malformed calls, schedules, panic points", "why_tests_cant": "Panic points times schedules.", "anchors": ["src/oram.rs: process_one, process_multi, process_batch, put_mt, Index/RwLock rows"]}
{"id": "C69", "title": "The shipped parameters leave room for long computations", "statement": "The default parameters make a valid context. With them, for every key, plaintexts, bits and randomness (noise below 2^12, FFT error below 2^20), a chain of up to 2^22 homomorphic selections, and every encrypted tree with fresh decision bits whose leaf depths sum up to at most 2^22, decrypts exactly; so does the whole private evaluation protocol for keys with at most four ones, noise at most 1 and leaf depths summing up to at most 8. With ring dimension 1024, 2 bits x 24 levels and modulus 2, up to 16 single queries on up to 8 cells are answered exactly, all worst cases counted.", "quantifier": "all keys, plaintexts, bits, randomness in range, chain lengths, trees", "why_tests_cant": "Noise accumulates over millions of operations.", "anchors": ["src/params.rs: TFHEParameters::default", "src/context.rs", "src/rgsw.rs: cmux, encrypt_constant_rgsw", "src/decision_tree.rs: eval", "src/oram.rs: process_one"]}
{"id": "C70", "title": "Reading feature tables", "statement": "parse_csv returns the table of numbers written in the file: every record after the first, in order, one number per field, and panics iff the file does not open, a record has a different number of fields than the first one or is not UTF-8, or a field is not an optional plus sign followed by decimal digits of a value below 2^64. Claimed by its use on headerless data and refuted: all records of the file are returned (the first one is always dropped as a header).", "quantifier": "all files, as lists of records", "why_tests_cant": "All files.", "anchors": ["src/utils.rs: parse_csv"]}
{"id": "C71", "title": "Zipping containers of different lengths", "statement": "izip! yields the items at the same position, all of them; in a debug build it panics unless all lengths (and size hints) agree, in a release build it silently stops at the shortest one.", "quantifier": "all lists, lengths, build profiles", "why_tests_cant": "All lengths, both profiles.", "anchors": ["src/macros.rs: izip, zip_checked, assert_same_len"]}
{"id": "C72", "title": "The program's outcome does not depend on thread scheduling", "statement": "For every parameter file, command line and randomness, and every schedule of every server operation inside the drivers: the program comes to an end, and its outcome (the reported noise values, or the fact that it panics) is the same for all schedules; supported parameter sets complete under every schedule.", "quantifier": "all parameter files, command lines, randomness, schedules", "why_tests_cant": "Exponentially many schedules.", "anchors": ["src/main.rs: main, single_query, multi_query, batch_query", "src/oram.rs: process_one, process_multi, process_batch"]}
{"id": "C73", "title": "The server's view of a whole history does not depend on what is asked", "statement": "Two histories of single queries, multi-queries and batches of the same kinds and counts, made with the same randomness, on databases of the same shape, give the server the same possible views: the sizes and random parts of all queries, every lock operation and cell access of every worker in every loop under every schedule, and whether it panics. Reads and writes, the items, their number in a batch, the data and the contents of the database do not show.", "quantifier": "all pairs of histories of equal kinds, all schedules, databases, randomness", "why_tests_cant": "Two-run property over unbounded histories.", "anchors": ["src/oram.rs: gen_read_query_one, gen_write_query_one, gen_read_query_batch, gen_write_query_batch, process_one, process_multi, process_batch"]}
{"id": "C74", "title": "Parallel evaluation of the clients changes nothing", "statement": "simulate with and without its parallel flag, under every number of threads and schedule, comes to an end with the same predictions, in the order of the clients (or panics both ways); so the parallel protocol predicts what the plaintext tree predicts.", "quantifier": "all trees, client lists, randomness, schedules", "why_tests_cant": "Exponentially many schedules.", "anchors": ["src/decision_tree.rs: simulate"]}
{"id": "C75", "title": "What the server of the tree protocol sees and returns does not depend on the features", "statement": "The sizes and the random parts of the message a client sends for a feature vector are determined by the tree, the parameters and the randomness, not by the features; the server's reply, one ciphertext per bit of the largest label, has the same dimensions for any two messages of equal dimensions (or both make it panic).", "quantifier": "all trees, feature vectors, messages, randomness", "why_tests_cant": "Two-run property.", "anchors": ["src/decision_tree.rs: encrypt_feature_vector, compare_expand, EncNode::new, EncNode::eval, simulate"]}
{"id": "C76", "title": "Truncating a tree is safe for the private protocol", "statement": "Evaluating trunc_tree(t) privately instead of t gives every client the prediction of t, under no more than t's own noise condition; the truncated tree has no more internal nodes, leaves or depth, and the same largest label, so the replies have the same size.", "quantifier": "all trees, features, randomness in range", "why_tests_cant": "All trees and features.", "anchors": ["src/decision_tree.rs: trunc_tree, simulate"]}
{"id": "C77", "title": "Trees as JSON", "statement": "A text is accepted as a Node exactly if it is JSON, its value describes the tree (an object keyed by the lower-case variant name; the fields of an inner node by name in any order, unknown ones ignored, a missing or null child meaning no child, or by position; labels and numbers as plain decimal words) and the tree has depth at most 63. to_string writes a JSON text describing the tree; it can be read back, and different trees are written differently. Claimed and refuted: every tree can be read back (no tree deeper than 63 can: serde_json's recursion limit).", "quantifier": "all texts, all trees of machine words", "why_tests_cant": "All texts and all trees.", "anchors": ["src/decision_tree.rs: Node, Internal, Op (Serialize, Deserialize), test_json"]}
{"id": "C78", "title": "Parameter files", "statement": "A text is accepted as a parameter list exactly if it is JSON and its value describes the list; main then runs every ORAM setting with every ciphertext setting of each pair, in order; every other file that opens silently means one run of the default setting. Written lists are read back. The shipped params.json describes seven settings with the default ciphertext parameters, and a dry run with it completes.", "quantifier": "all texts, lists, command lines", "why_tests_cant": "All texts.", "anchors": ["src/params.rs: TFHEParameters, ORAMParameters, InputParamsList", "src/main.rs: main", "params.json"]}
{"id": "C79", "title": "No wrong result is reported", "statement": "Whatever the noise, the FFT's errors, the key, the randomness and the schedules: a simulate call that ends normally returns, for every client and in their order, the prediction of the plaintext tree, which is what the client decrypts from the server's reply; single_query, multi_query and batch_query end normally only if in every iteration every checked reply decrypts to the item asked for, and the numbers they report are the noises of these replies. A reply is read as a number exactly if it consists of 1 to 64 ciphertexts that decrypt to bits; anything else is rejected.", "quantifier": "all trees, clients, parameters, keys, randomness, FFTs, schedules", "why_tests_cant": "Must hold in particular where noise overflows, which no test can enumerate.", "anchors": ["src/decision_tree.rs: simulate, decrypt_and_recompose", "src/main.rs: single_query, multi_query, batch_query"]}
{"id": "C80", "title": "A context has exactly the parameters it was made from", "statement": "Context::new succeeds exactly for the plaintext moduli 2, 4, .., 2^63 (1: C02) and gives every size, gadget parameter and the modulus its own value; the result of simulate reports the number of clients and the default parameters. Without secure_seed all generators start from the same seed; the claim that this only makes runs reproducible is refuted: the first binary plaintext drawn is then the secret key, and the mask of the first ciphertext, which is public, contains the secret key bit by bit, whatever is encrypted, so that the ciphertext can be read without the key.", "quantifier": "all parameters, generators, seeds", "why_tests_cant": "All parameters; a relation between generators.", "anchors": ["src/context.rs: Context::new", "src/params.rs: TFHEParameters::default", "src/decision_tree.rs: SimulationResult::new, simulate"]}
{"id": "C81", "title": "The printed table describes what was run", "statement": "What main prints on a run that ends normally is: the header; then, for every selected parameter set in order, one row with as many entries as the header, each parameter in the column of its name in decimal, dashes where a parameter does not exist, the measurements (dashes in a dry run); and one line for each further iteration with its number and noise; nothing else. A run that panics has printed the complete reports of all sets before, and of the iterations before within the set. Printing never changes how the run ends. Refuted: the columns n and plaintext_modulus show the number rounded down to a power of two; release builds report zero items as 2^18446744073709551615.", "quantifier": "all parameter files, command lines, randomness, ways of printing floats", "why_tests_cant": "All parameter lists and outcomes.", "anchors": ["src/main.rs: main, single_query, multi_query, batch_query"]}
{"id": "C82", "title": "Double precision is accurate enough for the Fourier multiplications", "statement": "Multiplying polynomials through the floating-point Fourier transform is correct up to an error bounded by the ring dimension, the number of products, the size of the integer operands, the unit roundoff and the underflow threshold, whatever the rounding of each operation, the accuracy of the twiddle tables and the order of the additions. Rounding to IEEE binary64 (Flocq's definition) has the roundoff 2^-53 and threshold 2^-1022. With these and a radix-2 transform: at the default parameters 110 selections in a row with fresh bits still decrypt correctly; in a ring of dimension 32 whole private evaluations and whole ORAM sessions are correct with no other assumption on the transform.", "quantifier": "all polynomials, roundings with relative error at most u above a threshold, tables and transforms of the stated accuracy, summation orders, ring dimensions; for the protocols all keys, plaintexts, trees, requests and noise in range", "why_tests_cant": "Rounding errors depend on every input coefficient; tests with random polynomials see typical errors, not the worst case.", "anchors": ["src/rlwe.rs: external_product, update_with_add, fourier_update_with_sub, KSKs, RGSWCiphertext"]}
{"id": "C83", "title": "The texts of a context and of a simulation result say what they are", "statement": "Formatting a Context or a SimulationResult gives a list of name=value entries in which every parameter (and the number of clients, the durations) stands under its own name in decimal; two contexts with the same text were made from the same parameters up to secure_seed, which is not shown.", "quantifier": "all parameters, reports, texts of the floating point numbers and durations", "why_tests_cant": "All parameters; injectivity is about pairs of values.", "anchors": ["src/context.rs: impl Display for Context", "src/decision_tree.rs: impl Display for SimulationResult"]}
{"id": "C84", "title": "The command line says what the program does", "statement": "The program accepts its arguments exactly if they write down, in any order and with attached or separate values, settings of known options, none twice, with values of the right kind; every option then has the value given to it or its default. Otherwise nothing is run: status 0 for a request for help after sensible settings, else status 2 with nothing on stdout. A parameter file that opens decides everything but --dryrun; a run with status 0 has printed the table (C81) of exactly the sets the file describes (or of the default set if it describes none), or without a file of the one set the options describe; status 101 exactly if the computation panics. Refuted: --secure-seed chooses the seeding - no command line turns it off, and --secure-seed=false is an error.", "quantifier": "all argument lists, files, parameter values, randomness", "why_tests_cant": "All argument lists and file contents; composes parsing, selection and running.", "anchors": ["src/cli.rs: Cli", "src/main.rs: main", "src/params.rs: ServerParams::from_input_params_list"]}
{"id": "C85", "title": "The noise of every encryption is bounded", "statement": "The noise drawn for an encryption is at most fourteen times the standard deviation in every coefficient, whatever words the random generator delivers and however its arithmetic rounds, and the sampler returns unless all further points miss the unit circle. So with the default parameters every encryption decrypts and 110 selections in a row stay correct with no assumption on the noise; the same for whole private evaluations and ORAM sessions in the ring of C82. Refuted: the noise stays below eight standard deviations, as the repository's noise test supposes.", "quantifier": "all word streams, roundings (with underflow, such as IEEE binary64) and logarithms with relative errors up to 2^-10, standard deviations, ring dimensions, keys, plaintexts", "why_tests_cant": "Extreme noise has a probability far too small to be seen in a test.", "anchors": ["src/context.rs: Context::new (std)", "src/rlwe.rs: encrypt_rlwe, encode_encrypt_rlwe, encrypt_constant_rgsw, test_compute_noise", "src/lwe.rs: encrypt_lwe"]}
{"id": "C86", "title": "The hash function a user gets is a uniformly random one", "statement": "NaiveHash::new never panics (with at least one hash function), whatever words the random generator delivers, and gives a bijection from copies of items to cells. Over all word streams of any given length, every such bijection comes out of equally many streams; so the cells where copies of any items lie are distributed like those of any other items, and all lists of distinct cells are equally likely. Every index of the shuffle comes from equally many words, and at least half of the words are not rejected; so the fraction of streams of m words that are too short for a table of N cells is at most 2^(N-1) (3/4)^m, and making the table ends with probability one.", "quantifier": "all numbers of hash functions and items (tables below 2^32 cells for the distribution, 2^64 for the rest), all word streams, all lists of slots and cells", "why_tests_cant": "Exact uniformity is a statement about all streams; a test sees a few samples.", "anchors": ["src/naive_hash.rs: NaiveHash::new, hash", "src/main.rs: batch_query"]}
{"id": "C87", "title": "CSV files are read as their text says", "statement": "parse_csv reads a file exactly if it can be opened and its text, split by the grammar of CSV (comma-separated fields, perhaps quoted with doubled quotes, rows ended by CR, LF or CRLF, blank lines skipped, a byte order mark ignored; every text has exactly one reading), has in every row after the first as many fields as the first, each the decimal form of a number below 2^64; it returns those numbers and panics otherwise. A table written one row per line under a header is read back. Refuted: a quotation that is never closed is noticed; the rows it swallows are silently lost.", "quantifier": "all texts (byte strings), tables, line endings", "why_tests_cant": "All byte strings; quoting makes the meaning of a byte depend on everything before it.", "anchors": ["src/utils.rs: parse_csv"]}
{"id": "C88", "title": "How likely a batch request loses an item", "statement": "Batch requests serve at most one item per row, so items can be dropped silently. With a freshly drawn hash function (all word streams equally likely) the first item is always served; the second is dropped with probability exactly (c-1)(c-2).../(N-1)(N-2)... with one factor per hash function, c the columns and N the cells; an item with t items before it with probability at most (t(c-1))(t(c-1)-1).../(N-t h)(N-t h-1)..., and the chance that any item of a request is dropped is at most the sum of these. With a single row all items but the first are always dropped. The tool's batched mode reports as many noises as items were served but divides by two always.", "quantifier": "all numbers of hash functions, items, rows and columns filling the table, all requests without repetition, all lengths of word streams; all runs", "why_tests_cant": "An exact probability is a count over all word streams; a test sees one draw.", "anchors": ["src/naive_hash.rs: hash_to_mapping, NaiveHash::new", "src/oram.rs: gen_read_query_batch, process_batch, test_oram_batch", "src/main.rs: batch_query"]}
{"id": "C89", "title": "The benchmarks measure what they name, however often they run", "statement": "For any number of iterations: enc leaves an encryption of its plaintext, dec returns it, cmux, keyswitch, keyswitch fourier, expand, expand fourier and trace1 fourier compute in every iteration the same ciphertext, which decrypts to what the operation promises, and none panics (in rings of dimension at least 4 for less_eq). Refuted for external_product, keyswitch gsw (the output is added up: after k iterations keyswitch gsw holds k times the messages modulo 3) and less_eq (compares its own previous result).", "quantifier": "all parameter sets within the bounds of params_ok, keys, plaintexts, randomness, FFTs of the given accuracy, numbers of iterations", "why_tests_cant": "The number of iterations is chosen by the benchmark harness; nothing checks the outputs.", "anchors": ["benches/my_benchmark.rs: enc_benchmark, dec_benchmark, external_product_benchmark, cmux_benchmark, keyswitch_benchmark, keyswitch_fourier_benchmark, keyswitch_gsw_benchmark, expand_benchmark, expand_fourier_benchmark, less_eq_benchmark, trace1_fourier_benchmark"]}
{"id": "C90", "title": "Encrypted evaluation returns enough bits for every label", "statement": "The number of result ciphertexts, computed in floating point as the logarithm of the largest label plus one rounded up, is the number of bits that label needs: for labels below 2^48 if the platform's logarithm is correctly rounded, below 2^44 if it is exact on powers of two and within a relative error of 2^-52. So encrypted evaluation decrypts to the label reached. Refuted for larger labels: if the largest label is 2^49 the result is the label reached modulo 2^49, so label 2^49 silently comes out as 0; for the largest usize a debug build panics and a release build returns no ciphertext.", "quantifier": "all encrypted trees of any shape, labels, keys, parameter sets, FFTs of the given accuracy, logarithms of the given accuracy", "why_tests_cant": "The labels where rounding matters are a handful among 2^64, and the precision of log2 depends on the platform.", "anchors": ["src/decision_tree.rs: EncNode::eval, max_leaf, decrypt_and_recompose"]}
{"id": "C91", "title": "The unit tests pass on correct code whatever the randomness", "statement": "The repository's unit tests of encryption, key switching, substitution, trace, RGSW, external product, selection, comparison, NOT, LWE, sample extraction, conversion and demultiplexing pass for every key, message and encryption randomness in range and every FFT of the accuracy C82 gives (the trace needs a more precise one). Refuted for two: the noise test passes exactly if the largest noise of the first ciphertext is below eight standard deviations and smaller than the largest sum of the two noises, which some draws violate; the Fourier multiplication test compares residues as integers, so an FFT off by one can fail it.", "quantifier": "all binary keys, messages, encryption randomness with noise at most 2^13 per coefficient, FFTs with error at most 2^38 (trace: 2^29), at the default parameters, debug and release builds", "why_tests_cant": "A test run sees one draw; whether the test is flaky is a statement about all draws.", "anchors": ["src/rlwe.rs: mod test", "src/rgsw.rs: mod test", "src/lwe.rs: mod test", "src/decision_tree.rs: mod test (test_demux, test_demux_long)"]}
{"id": "C92", "title": "Double precision never overflows in the Fourier multiplications", "statement": "Computed on IEEE 754 binary64 numbers with infinities and NaN, the Fourier multiplication never produces an infinity or a NaN, whatever the polynomials, and its result is the one of arithmetic on real numbers with rounding, where nothing overflows. So it is as accurate as C82 says: the same 110 selections in a row at the default parameters, and whole private evaluations and ORAM sessions in the ring of C82, are correct when run on IEEE numbers.", "quantifier": "all polynomials, sums of products of depth d in rings of dimension 2^(m+1) with 6 m + d <= 955, correctly rounded tables; for the protocols all keys, plaintexts, trees, requests and noise in range", "why_tests_cant": "An overflow would depend on every coefficient; no test reaches extreme operands.", "anchors": ["src/rlwe.rs: fourier_update_with_mul, fourier_update_with_mul_acc, external_product, KSKs", "src/num_types.rs: FourierPolynomial"]}
{"id": "C93", "title": "The whole program runs correctly, from its arguments to its table", "statement": "Started with a command line (or parameter file) that asks for supported parameter sets, the program ends with exit status 0 and has printed the complete table, one block per set, and every noise in it is below half the distance between two encoded values; no schedule of its parallel loops changes that. For the ring of C82 (dimension 32) with two, four or eight items or columns, in each of the three modes, nothing is left to assume: this holds for all random words for key, items, queries and hash function, all noise the generator can make, and the Fourier transform computed on IEEE numbers.", "quantifier": "all command lines, ways of writing them, parameter files, formats of the numbers, random words, noise draws, schedules, with and without overflow checks", "why_tests_cant": "A test runs one command line with one randomness; the claim is about every run.", "anchors": ["src/main.rs: main, single_query, multi_query, batch_query", "src/cli.rs: Cli", "src/params.rs: ServerParams", "src/oram.rs: setup_random_oram, process_one, process_multi, process_batch", "src/context.rs: Context::gen_*", "src/naive_hash.rs: NaiveHash::new"]}
{"id": "C94", "title": "A request touches every cell equally often, whatever it asks for", "statement": "process_one reads every cell of row 0 three times and writes it once, and touches no other row; process_multi with x queries reads each 2x+1 times and writes it once; process_batch reads the first copy of every item h_count+4 times, every other copy four times, and writes every cell twice. The counts do not depend on the query, on whether it reads or writes, on the contents, or on the schedule, at any point of a history.", "quantifier": "all queries, keys, contents, hash functions, dimensions, schedules, histories that mix the three calls", "why_tests_cant": "A test sees one query and one schedule and does not count accesses; a skipped cell would reveal the item.", "anchors": ["src/oram.rs: process_one, process_multi, process_batch, process_one_mt, process_one_st, update_db_mt, update_db_st, correct_consistency, rw"]}
{"id": "C95", "title": "The remaining unit tests pass on correct code, except the one for batches", "statement": "The unit tests of the codec, hashing, decision trees, JSON, bit order, polynomial substitution and shapes pass for every shuffle and in debug and release builds; those of both expansions, of private evaluation and of the ORAM (single, many, multi, repeated batches) pass for every key, message, hash function and randomness as long as the worst-case noise fits (for the slow expansion, at its own parameters, it always does). test_oram_batch is refuted: it passes exactly if not all four copies of item 2 lie in the row of the first copy of item 1, or the new data equals the old item; with a fresh hash function it therefore fails on correct code for 840 of 63*62*61*60 placements, about one run in 17000.", "quantifier": "all keys, items, data, dummies, encryption randomness, shuffles and FFTs whose worst-case noise fits; for the slow expansion all binary keys and noise up to 2^13 at the default parameters with dimension 256", "why_tests_cant": "A test run sees one draw; whether the test itself is sound is a statement about all draws.", "anchors": ["src/oram.rs: mod test", "src/codec.rs: mod test", "src/naive_hash.rs: mod test", "src/decision_tree.rs: mod test", "src/rlwe.rs: mod test (test_expand, test_expand_slow, test_eval_poly)", "src/rgsw.rs: test_rgsw_shape"]}
{"id": "C96", "title": "The Fourier multiplication tolerates inexact tables and fused multiply-add", "statement": "C92's results do not depend on correctly rounded tables or on one way to multiply complex numbers. With tables of roots of unity accurate to c units of 2^-53 (double tables computed in the textbook way from a sine and cosine accurate to 2^-52 have c = 17), and with complex multiplications using fused multiply-add in either operand order or none, the Fourier multiplication produces no infinity or NaN, is within a stated bound of the exact product, and 110, 94, 50 and 17 selections in a row (c = 1, 2, 8, 32) at the default parameters, whole private evaluations, ORAM sessions and whole program runs in the ring of C82 are correct.", "quantifier": "all polynomials, all tables within the given accuracy, all sine and cosine functions within theirs, all three ways to multiply, all groupings of the sums; for the protocols all keys, plaintexts, trees, requests and noise in range", "why_tests_cant": "A test runs on one machine with one mathematical library and one instruction set; the accuracy is a claim about all of them.", "anchors": ["src/rlwe.rs: fourier_update_with_mul, fourier_update_with_mul_acc, external_product, KSKs", "src/num_types.rs: FourierPolynomial", "src/main.rs: main"]}
{"id": "C97", "title": "The reported noise is the mean of the binary logarithms of the noises", "statement": "The noise figure of the driver and of compute_noise_rgsw1, an f64, is within (64 n + 194) units of 2^-53 of the mean of the base-2 logarithms of the n noises; it lies between exponents a and b if all noises lie between 2^a and 2^b; for one answer it is the logarithm itself, and for two it does not depend on their order. Comparing two figures, or a figure with an integer, compares the noises (below 2^43). In the printed table of every supported run each figure is minus infinity or between 0 and 63 minus the logarithm of the plaintext modulus. Refuted: a single noise-free answer makes the figure minus infinity; zero queries (--mode 1 --query-count 0) end with status 0 and NaN; a batch that drops its second item reports half the logarithm.", "quantifier": "all lists of noises up to 2^40 long, every log2 accurate to 2^-52 that does not cross powers of two (the correctly rounded one is), all supported parameter sets, keys, randomness", "why_tests_cant": "The figure is what a user reads as the security margin; tests compare two figures of one draw and ignore rounding, zeros and the divisor.", "anchors": ["src/rlwe.rs: compute_noise, compute_noise_encoded", "src/rgsw.rs: compute_noise_rgsw1", "src/main.rs: single_query, multi_query, batch_query"]}
{"id": "C98", "title": "The floating-point comparison of the Fourier test is sound up to its rounding", "statement": "In test_fourier_mul, the comparison of two words as f64 against 1e-9 times the largest word agrees with the comparison of the integers except within 4097 of the bound. Ten products precise to eps pass if 10 eps is below the tolerance and no coefficient of a partial sum is within 10 eps of the wrap; with the double-precision FFT (tables computed in the textbook way from a sine and cosine accurate to 2^-52, all three ways to multiply complex numbers) the test passes for ternary times arbitrary polynomials if no coefficient of a partial sum is within 2^34 + 2^30 of the wrap; a run that passes shows that each of its products is right up to twice the tolerance. Refuted: with products wrong by one unit and a sum that wraps, the test fails.", "quantifier": "all pairs of words, all polynomials, all multiplication routines with the stated precision, every ring dimension", "why_tests_cant": "The unit test draws ten random pairs; it does not say what a pass means, nor when a correct FFT would fail it.", "anchors": ["src/rlwe.rs: test_fourier_mul, fourier_update_with_mul_acc, naive_update_with_mul_acc"]}
{"id": "C99", "title": "A debug build and a release build behave the same unless the debug build reports an overflow", "statement": "For every computation of the library (codec, encryption, decryption, key and query generation, noise, the decision tree protocol, ORAM setup, any history of requests) and for the benchmark program: the build with overflow checks either panics with an arithmetic overflow, or gives exactly what the build without gives - the same value, the same panic, the same printed text and exit status. In the first case the program has printed a beginning of what the release build prints. If a debug run finishes under some schedule, every release run finishes under every schedule with the same figures; likewise a release server gives the answers, and ends with the database, of a debug server that processed the same requests under other schedules without a panic. The builds are not the same in general: a noise of 2^63 stops a debug build and is reported as 0 by a release build; a set without items ends the debug build with a panic and the release build with success.", "quantifier": "all inputs, parameters, keys, randomness, FFTs, queries (honest or not), histories, parameter files, command lines and schedules", "why_tests_cant": "Unit tests run in one build mode on a few inputs; that the other mode does the same is a statement about every arithmetic operation on every input.", "anchors": ["Cargo.toml: profiles", "src/codec.rs: Codec", "src/rlwe.rs: compute_noise, neg_gsw, encode_encrypt_rlwe", "src/utils.rs: log2, pt_to_lossy_u64", "src/oram.rs: process_one_mt, process_one_st, setup_random_oram", "src/main.rs: main"]}
