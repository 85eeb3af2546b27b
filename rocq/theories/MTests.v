(** * Model of the unit tests of the repository that use randomness (modules [test] of src/rlwe.rs, rgsw.rs, lwe.rs, decision_tree.rs).
    A test is a program that panics or returns.  Keys, plaintexts and encryption randomness are arguments; a context made with other fields
    ([Context { .. }]) is an argument as a whole.  The noise figures the tests print are left out. *)
From Verif Require Import MBase MUtils MCodec MPoly MRlwe MLwe MTree MEncTree MCtx MMain.
Local Open Scope Z_scope.

Definition assert_eq_z (x y : Z) : res unit := rassert (x =? y).
(** A [for] loop without a value. *)
Definition for_each (is : list nat) (body : nat -> res unit) : res unit := foldM (fun _ i => body i) is tt.

(** [test_binary_enc], src/rlwe.rs:1563-1575. *)
Definition test_binary_enc (cx : ctx) (sk ptxt_expected : poly) (d : draw) : res unit :=
  ct <- encode_encrypt_rlwe cx sk ptxt_expected d ;;
  ptxt_actual <- decrypt_decode_rlwe cx sk ct ;;
  assert_eq_pt ptxt_actual ptxt_expected.
(** [test_ternary_enc], src/rlwe.rs:1578-1590. *)
Definition test_ternary_enc (cx : ctx) (sk ptxt_expected : poly) (d : draw) : res unit :=
  ct <- ternary_encrypt_rlwe cx sk ptxt_expected d ;;
  assert_eq_pt (ternary_decrypt_rlwe (c_n cx) sk ct) ptxt_expected.
(** [test_keyswitching], src/rlwe.rs:1323-1365. *)
Definition test_keyswitching (fft : fftT) (cx : ctx) (sk_before sk_after messages : poly) (tk : tape) (d : draw) : res unit :=
  let ksk := fill_with_keyswitch_key (c_n cx) (c_ks_base cx) (c_ks_level cx) sk_before sk_after tk in
  ct_before <- ternary_encrypt_rlwe cx sk_before messages d ;;
  let dec_messages_1 := ternary_decrypt_rlwe (c_n cx) sk_before ct_before in
  ct_after <- keyswitch_ciphertext fft ksk ct_before ;;
  let dec_messages_2 := ternary_decrypt_rlwe (c_n cx) sk_after ct_after in
  assert_eq_pt dec_messages_1 dec_messages_2 ;;;
  assert_eq_pt dec_messages_1 messages.
(** [test_keyswitching_fourier], src/rlwe.rs:1368-1413. *)
Definition test_keyswitching_fourier (fft : fftT) (cx : ctx) (sk_before sk_after messages : poly) (tk : tape) (d : draw) : res unit :=
  let ksk := fill_with_keyswitch_key (c_n cx) (c_ks_base cx) (c_ks_level cx) sk_before sk_after tk in
  ct_before <- ternary_encrypt_rlwe cx sk_before messages d ;;
  let dec_messages_1 := ternary_decrypt_rlwe (c_n cx) sk_before ct_before in
  ct_after_fourier <- keyswitch_fourier ksk ct_before ;;
  let ct_after := frlwe_backward fft (c_n cx) ct_after_fourier in
  let dec_messages_2 := ternary_decrypt_rlwe (c_n cx) sk_after ct_after in
  assert_eq_pt dec_messages_1 dec_messages_2 ;;;
  assert_eq_pt dec_messages_1 messages.
(** [test_keyswitching] of src/rgsw.rs:350-393. *)
Definition test_keyswitching_gsw (fft : fftT) (cx : ctx) (sk_before sk_after messages : poly) (tk : tape) (d : draw) : res unit :=
  let ksk_slow := fill_with_keyswitch_key (c_n cx) (c_ks_base cx) (c_ks_level cx) sk_before sk_after tk in
  ksk <- from_keyswitch_key ksk_slow ;;
  ct_before <- ternary_encrypt_rlwe cx sk_before messages d ;;
  let dec_messages_1 := ternary_decrypt_rlwe (c_n cx) sk_before ct_before in
  let ct_after := rgsw_keyswitch_ciphertext fft ksk (rlwe_allocate (c_n cx)) ct_before in
  let dec_messages_2 := ternary_decrypt_rlwe (c_n cx) sk_after ct_after in
  assert_eq_pt dec_messages_1 dec_messages_2 ;;;
  assert_eq_pt dec_messages_1 messages.
(** [test_subs], src/rlwe.rs:1416-1451. *)
Definition test_subs (fft : fftT) (cx : ctx) (sk_after messages : poly) (tk : tape) (d : draw) : res unit :=
  let k := (c_n cx + 1)%nat in
  ksk <- fill_with_subs_keyswitch_key (c_n cx) (c_ks_base cx) (c_ks_level cx) sk_after k tk ;;
  ct_before <- ternary_encrypt_rlwe cx sk_after messages d ;;
  ct_after <- subs fft ksk ct_before ;;
  let decrypted := ternary_decrypt_rlwe (c_n cx) sk_after ct_after in
  expected <- eval_x_k messages k ;;
  assert_eq_pt decrypted expected.
(** [test_subs_fourier], src/rlwe.rs:1454-1492. *)
Definition test_subs_fourier (fft : fftT) (cx : ctx) (sk_after messages : poly) (tk : tape) (d : draw) : res unit :=
  let k := (c_n cx + 1)%nat in
  ksk <- fill_with_subs_keyswitch_key (c_n cx) (c_ks_base cx) (c_ks_level cx) sk_after k tk ;;
  ct_before <- ternary_encrypt_rlwe cx sk_after messages d ;;
  ct_after_fourier <- subs_fourier ksk ct_before ;;
  let decrypted := ternary_decrypt_rlwe (c_n cx) sk_after (frlwe_backward fft (c_n cx) ct_after_fourier) in
  expected <- eval_x_k messages k ;;
  assert_eq_pt decrypted expected.
(** [test_trace1], src/rlwe.rs:1513-1560. *)
Definition test_trace1 (fft : fftT) (cx : ctx) (sk orig_msg : poly) (tk : tape) (d : draw) : res unit :=
  encoded <- poly_encode (c_mode cx) (c_codec cx) orig_msg ;;
  let encoded_msg := map (fun coeff => coeff / Z.of_nat (c_n cx)) encoded in
  all_ksk <- gen_all_subs_ksk cx sk tk ;;
  let ct := encrypt_rlwe (c_n cx) sk encoded_msg d in
  out <- trace1 fft all_ksk ct ;;
  decrypted <- decrypt_decode_rlwe cx sk out ;;
  m0 <- index orig_msg 0 ;;
  expected <- set_index (poly_zero (c_n cx)) 0 m0 ;;
  assert_eq_pt decrypted expected.
(** [test_encrypt_rgsw], src/rlwe.rs:1593-1659. *)
Definition test_encrypt_rgsw (fft : fftT) (cx : ctx) (sk gsw_pt : poly) (tg : tape) (d : draw) : res unit :=
  one_pt <- gen_unit_pt cx ;;
  gsw_ct <- encrypt_rgsw cx sk (c_base cx) (c_level cx) gsw_pt tg ;;
  lwe_ct <- encode_encrypt_rlwe cx sk one_pt d ;;
  let prod_ct := external_product fft gsw_ct (rlwe_allocate (c_n cx)) lwe_ct in
  actual_pt <- decrypt_decode_rlwe cx sk prod_ct ;;
  assert_eq_pt actual_pt gsw_pt.
(** [test_negs], src/rlwe.rs:1661-1722.  [y * Scalar::MAX] overflows for a key coefficient above 1; [d] is drawn with the larger standard
    deviation of [ctx_noisy]. *)
Definition test_negs (fft : fftT) (cx : ctx) (sk : poly) (tn : tape) (d : draw) : res unit :=
  neg_sk <- mapM (fun y => umul (c_mode cx) y MAXW) sk ;;
  neg_gsw_sk <- neg_gsw cx sk tn ;;
  one_pt <- gen_unit_pt cx ;;
  ct_lwe <- ternary_encrypt_rlwe cx sk one_pt d ;;
  let ct_prod := external_product fft neg_gsw_sk (rlwe_allocate (c_n cx)) ct_lwe in
  assert_eq_pt (ternary_decrypt_rlwe (c_n cx) sk ct_prod) neg_sk.
(** [test_less_eq], src/rlwe.rs:1849-1889. *)
Definition test_less_eq (fft : fftT) (cx : ctx) (sk : poly) (t1 t2 : tape) : res unit :=
  let m := (c_n cx / 2)%nat in
  ptxt <- set_index (poly_zero (c_n cx)) m 1 ;;
  for_each (seq 1 (c_n cx - m - 1)) (fun i =>
    ct <- encode_encrypt_rlwe cx sk ptxt (t1 i) ;;
    ct' <- less_eq_than (c_n cx) fft ct (m + i) ;;
    out <- decrypt_decode_rlwe cx sk ct' ;;
    x <- index out 0 ;;
    assert_eq_z x 1) ;;;
  for_each (seq 1 (c_n cx - m - 1)) (fun i =>
    ct <- encode_encrypt_rlwe cx sk ptxt (t2 i) ;;
    ct' <- less_eq_than (c_n cx) fft ct (m - i) ;;
    out <- decrypt_decode_rlwe cx sk ct' ;;
    x <- index out 0 ;;
    assert_eq_z x 0).
(** [test_eq_to], src/rlwe.rs:1892-1920. *)
Definition test_eq_to (fft : fftT) (cx : ctx) (sk : poly) (t : tape) : res unit :=
  let m := (c_n cx / 2)%nat in
  ptxt <- set_index (poly_zero (c_n cx)) m 1 ;;
  for_each (seq 0 (c_n cx)) (fun i =>
    ct <- encode_encrypt_rlwe cx sk ptxt (t i) ;;
    ct' <- eq_to (c_n cx) fft ct i ;;
    out <- decrypt_decode_rlwe cx sk ct' ;;
    x <- index out 0 ;;
    assert_eq_z x (if (i =? m)%nat then 1 else 0)).
(** [test_compute_noise], src/rlwe.rs:1923-1956.  The noises are compared before the logarithm is taken, the bound
    [max_log_support] = 3 + 64 + log2 std being [2 ^ (67 + log_std)]. *)
Definition test_compute_noise (cx : ctx) (log_std : Z) (sk pt : poly) (d d_zero : draw) : res unit :=
  binary_msg <- poly_encode (c_mode cx) (c_codec cx) pt ;;
  let ct := encrypt_rlwe (c_n cx) sk binary_msg d in
  let ct_zero := encrypt_rlwe (c_n cx) sk (poly_zero (c_n cx)) d_zero in
  noise_0 <- compute_noise (c_mode cx) (c_n cx) sk ct binary_msg ;;
  rassert (noise_0 <? 2 ^ (67 + log_std)) ;;;
  noise_1 <- compute_noise (c_mode cx) (c_n cx) sk (rlwe_add ct ct_zero) binary_msg ;;
  rassert (noise_0 <? noise_1).
(** [test_not_in_place], src/rlwe.rs:1959-1982, and [test_not], 1985-2007; in both the modulus is 2. *)
Definition test_not_in_place (cx : ctx) (sk : poly) (d : draw) : res unit :=
  one <- gen_unit_pt cx ;;
  one_ct <- encode_encrypt_rlwe cx sk one d ;;
  let one_ct1 := rlwe_not_in_place one_ct in
  actual <- decrypt_decode_rlwe cx sk one_ct1 ;;
  assert_eq_pt (gen_zero_pt cx) actual ;;;
  let one_ct2 := rlwe_not_in_place one_ct1 in
  actual <- decrypt_decode_rlwe cx sk one_ct2 ;;
  assert_eq_pt one actual.
Definition test_not (cx : ctx) (sk : poly) (d : draw) : res unit :=
  one <- gen_unit_pt cx ;;
  one_ct <- encode_encrypt_rlwe cx sk one d ;;
  actual <- decrypt_decode_rlwe cx sk (rlwe_not (c_n cx) one_ct) ;;
  assert_eq_pt (gen_zero_pt cx) actual ;;;
  actual <- decrypt_decode_rlwe cx sk (rlwe_not (c_n cx) (rlwe_not (c_n cx) one_ct)) ;;
  assert_eq_pt one actual.
(** [test_fourier_mul], src/rlwe.rs:1822-1846, on the polynomials drawn.  [(actual as f64 - expected as f64).abs() < 1e-9 * Scalar::MAX as f64]:
    [close] is this comparison; here it compares the integers, 1e-9 times the largest word lying between the integers 18446744073 and 18446744074;
    [MTests3] has the comparison of the floats. *)
Definition test_fourier_mul_with (close : Z -> Z -> bool) (fft : fftT) (n : nat) (pairs : list (poly * poly)) : res unit :=
  st <- foldM (fun st ab =>
    let out_fourier := fourier_update_with_mul_acc fft (fst st) (fst ab) (snd ab) in
    let out_naive := naive_update_with_mul_acc n (snd st) (fst ab) (snd ab) in
    rassert (forallb (fun xy => close (fst xy) (snd xy)) (combine out_fourier out_naive)) ;;;
    Ok (out_fourier, out_naive)) pairs (poly_zero n, poly_zero n) ;;
  Ok tt.
Definition test_fourier_mul : fftT -> nat -> list (poly * poly) -> res unit := test_fourier_mul_with (fun x y => Z.abs (x - y) <? 18446744074).

(** [test_external_product], src/rgsw.rs:265-301. *)
Definition test_external_product (fft : fftT) (cx : ctx) (sk orig_pt : poly) (t0 t1 : tape) (d : draw) : res unit :=
  let rgsw_ct_0 := encrypt_constant_rgsw (c_n cx) sk (c_base cx) (c_level cx) 0 t0 in
  let rgsw_ct_1 := encrypt_constant_rgsw (c_n cx) sk (c_base cx) (c_level cx) 1 t1 in
  rlwe_ct <- encode_encrypt_rlwe cx sk orig_pt d ;;
  let out_0 := external_product fft rgsw_ct_0 (rlwe_allocate (c_n cx)) rlwe_ct in
  let out_1 := external_product fft rgsw_ct_1 (rlwe_allocate (c_n cx)) rlwe_ct in
  decrypted <- decrypt_decode_rlwe cx sk out_0 ;;
  assert_eq_pt decrypted (poly_zero (c_n cx)) ;;;
  decrypted <- decrypt_decode_rlwe cx sk out_1 ;;
  assert_eq_pt decrypted orig_pt.
(** [test_cmux], src/rgsw.rs:396-431. *)
Definition test_cmux (fft : fftT) (cx : ctx) (sk pt_0 pt_1 : poly) (d0 d1 : draw) (t0 t1 : tape) : res unit :=
  ct_0 <- ternary_encrypt_rlwe cx sk pt_0 d0 ;;
  ct_1 <- ternary_encrypt_rlwe cx sk pt_1 d1 ;;
  ct_result <- cmux fft (encrypt_constant_rgsw (c_n cx) sk (c_base cx) (c_level cx) 0 t0) ct_0 ct_1 ;;
  assert_eq_pt (ternary_decrypt_rlwe (c_n cx) sk ct_result) pt_0 ;;;
  ct_result <- cmux fft (encrypt_constant_rgsw (c_n cx) sk (c_base cx) (c_level cx) 1 t1) ct_0 ct_1 ;;
  assert_eq_pt (ternary_decrypt_rlwe (c_n cx) sk ct_result) pt_1.

(** [test_lwe], src/lwe.rs:246-259, and [test_lwe_fill], 261-276. *)
Definition test_lwe (cx : ctx) (sk : list Z) (pts : nat -> Z) (ds : nat -> ldraw) : res unit :=
  for_each (seq 0 10) (fun i =>
    ct <- encode_encrypt_lwe cx sk (pts i) (ds i) ;;
    actual <- decode_decrypt_lwe cx sk ct ;;
    assert_eq_z (pts i) actual).
Definition test_lwe_fill (cx : ctx) (sk : list Z) (expected : Z) (d : ldraw) : res unit :=
  ct <- encode_encrypt_lwe cx sk expected d ;;
  let ct2 := lwe_fill_with_tensor (lwe_allocate (lwe_size cx)) ct in
  actual <- decode_decrypt_lwe cx sk ct2 ;;
  assert_eq_z expected actual.
(** [test_lwe_to_rlwe], src/lwe.rs:278-304. *)
Definition test_lwe_to_rlwe (cx : ctx) (lwe_sk : list Z) (expected : Z) (d : ldraw) (t : tape) : res unit :=
  let rlwe_sk := to_rlwe_sk lwe_sk in
  lwe_ct <- encode_encrypt_lwe cx lwe_sk expected d ;;
  ksks <- fill_with_keyswitching_key cx lwe_sk t ;;
  let rlwe_ct := conv_lwe_to_rlwe cx ksks lwe_ct in
  actual <- decrypt_decode_rlwe cx rlwe_sk rlwe_ct ;;
  x <- index actual 0 ;;
  assert_eq_z x expected.
(** [test_sample_extract], src/lwe.rs:306-325. *)
Definition test_sample_extract (cx : ctx) (lwe_sk : list Z) (pt : poly) (d : draw) : res unit :=
  let rlwe_sk := to_rlwe_sk lwe_sk in
  rlwe_ct <- encode_encrypt_rlwe cx rlwe_sk pt d ;;
  lwe_ct <- const_sample_extract rlwe_ct ;;
  actual_pt <- decode_decrypt_lwe cx lwe_sk lwe_ct ;;
  x <- index pt 0 ;;
  assert_eq_z x actual_pt.

(** The two blocks of [test_demux], src/decision_tree.rs:938-1015, for the bit [b], and [test_demux_long], 1017-1057. *)
Definition test_demux_block (fft : fftT) (cx : ctx) (sk : poly) (b : bool) (t0 t1 : tape) : res unit :=
  let bit := if b then 1 else 0 in
  cts <- demux fft cx [encrypt_constant_rgsw (c_n cx) sk (c_base cx) (c_level cx) bit t0; encrypt_constant_rgsw (c_n cx) sk (c_base cx) (c_level cx) bit t1] ;;
  rassert (length cts =? 4)%nat ;;;
  c0 <- index cts 0 ;; c1 <- index cts 1 ;; c2 <- index cts 2 ;; c3 <- index cts 3 ;;
  pt0 <- decrypt_decode_rlwe cx sk c0 ;; pt1 <- decrypt_decode_rlwe cx sk c1 ;;
  pt2 <- decrypt_decode_rlwe cx sk c2 ;; pt3 <- decrypt_decode_rlwe cx sk c3 ;;
  let pt_zero := gen_zero_pt cx in
  pt_unit <- gen_unit_pt cx ;;
  assert_eq_pt pt0 (if b then pt_unit else pt_zero) ;;;
  assert_eq_pt pt1 pt_zero ;;;
  assert_eq_pt pt2 pt_zero ;;;
  assert_eq_pt pt3 (if b then pt_zero else pt_unit).
Definition test_demux (fft : fftT) (cx : ctx) (sk : poly) (t0 t1 t2 t3 : tape) : res unit :=
  test_demux_block fft cx sk true t0 t1 ;;; test_demux_block fft cx sk false t2 t3.
Definition test_demux_long (fft : fftT) (cx : ctx) (sk : poly) (t : nat -> tape) : res unit :=
  let depth := 4%nat in
  for_each (seq 0 (2 ^ depth)) (fun i =>
    bits <- bit_decomposed_rgsw cx sk i (2 ^ depth) (t i) ;;
    cts <- demux fft cx bits ;;
    rassert (length cts =? 2 ^ depth)%nat ;;;
    pt_unit <- gen_unit_pt cx ;;
    let pt_zero := gen_zero_pt cx in
    for_each (seq 0 (2 ^ depth)) (fun j =>
      c <- index cts j ;;
      pt <- decrypt_decode_rlwe cx sk c ;;
      assert_eq_pt pt (if (j =? i)%nat then pt_unit else pt_zero))).
