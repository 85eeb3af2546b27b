(** * Model of the benchmarks, benches/my_benchmark.rs.  A benchmark prepares its inputs and hands a closure to criterion, which calls it as
    often as it likes: [iterations] times here.  The value is what the output variable of the benchmark holds in the end.  Randomness is an
    argument, as everywhere: [pt] for what [gen_binary_pt] and [gen_ternary_ptxt] return, tapes for the encryptions.  All benchmarks make
    their context from the default parameters; [cx] is that context. *)
From Verif Require Import MBase MUtils MCodec MPoly MRlwe.
Local Open Scope Z_scope.

Definition repeated {A} (iterations : nat) (step : nat -> A -> res A) (init : A) : res A := foldM (fun a i => step i a) (seq 0 iterations) init.

(** [enc_benchmark], benches/my_benchmark.rs:229-241: a fresh encryption in every iteration. *)
Definition bench_enc (cx : ctx) (sk pt : poly) (t : tape) (iterations : nat) : res rlwe :=
  repeated iterations (fun i _ => encode_encrypt_rlwe cx sk pt (t i)) (rlwe_allocate (c_n cx)).
(** [dec_benchmark], 243-257. *)
Definition bench_dec (cx : ctx) (sk pt : poly) (d : draw) (iterations : nat) : res poly :=
  ct <- encode_encrypt_rlwe cx sk pt d ;;
  repeated iterations (fun _ _ => decrypt_decode_rlwe cx sk ct) (poly_zero (c_n cx)).
(** [external_product_benchmark], 212-227: the output is never cleared. *)
Definition bench_external_product (fft : fftT) (cx : ctx) (sk : poly) (tg : tape) (d0 : draw) (iterations : nat) : res rlwe :=
  let gsw_ct := encrypt_constant_rgsw (c_n cx) sk (c_base cx) (c_level cx) 1 tg in
  let rlwe_ct_0 := encrypt_constant_rlwe (c_n cx) sk 0 d0 in
  repeated iterations (fun _ out => Ok (external_product fft gsw_ct out rlwe_ct_0)) (rlwe_allocate (c_n cx)).
(** [cmux_benchmark], 193-210. *)
Definition bench_cmux (fft : fftT) (cx : ctx) (sk : poly) (tg : tape) (d0 d1 : draw) (iterations : nat) : res rlwe :=
  let gsw_ct := encrypt_constant_rgsw (c_n cx) sk (c_base cx) (c_level cx) 1 tg in
  let rlwe_ct_0 := encrypt_constant_rlwe (c_n cx) sk 0 d0 in
  let rlwe_ct_1 := encrypt_constant_rlwe (c_n cx) sk 1 d1 in
  repeated iterations (fun _ _ => cmux fft gsw_ct rlwe_ct_0 rlwe_ct_1) (rlwe_allocate (c_n cx)).
(** [keyswitch_benchmark], 167-191; [keyswitch_fourier_benchmark], 139-165; [keyswitch_gsw_benchmark], 111-137, whose output is never
    cleared. *)
Definition bench_keyswitch (fft : fftT) (cx : ctx) (sk_before sk_after messages : poly) (tk : tape) (d : draw) (iterations : nat) : res rlwe :=
  let ksk := fill_with_keyswitch_key (c_n cx) (c_base cx) (c_level cx) sk_before sk_after tk in
  ct_before <- ternary_encrypt_rlwe cx sk_before messages d ;;
  repeated iterations (fun _ _ => keyswitch_ciphertext fft ksk ct_before) (rlwe_allocate (c_n cx)).
Definition bench_keyswitch_fourier (cx : ctx) (sk_before sk_after messages : poly) (tk : tape) (d : draw) (iterations : nat) : res frlwe :=
  let ksk := fill_with_keyswitch_key (c_n cx) (c_base cx) (c_level cx) sk_before sk_after tk in
  ct_before <- ternary_encrypt_rlwe cx sk_before messages d ;;
  repeated iterations (fun _ _ => keyswitch_fourier ksk ct_before) {| f_mask := []; f_body := [] |}.
Definition bench_keyswitch_gsw (fft : fftT) (cx : ctx) (sk_before sk_after messages : poly) (tk : tape) (d : draw) (iterations : nat) : res rlwe :=
  let ksk := fill_with_keyswitch_key (c_n cx) (c_base cx) (c_level cx) sk_before sk_after tk in
  fast_ksk <- from_keyswitch_key ksk ;;
  ct_before <- ternary_encrypt_rlwe cx sk_before messages d ;;
  repeated iterations (fun _ after => Ok (rgsw_keyswitch_ciphertext fft fast_ksk after ct_before)) (rlwe_allocate (c_n cx)).
(** [expand_benchmark], 92-109, and [expand_fourier_benchmark], 72-90: what an iteration computes is dropped; [None] before the first.
    [test_pt] is encrypted and not used. *)
Definition bench_expand (fft : fftT) (cx : ctx) (sk test_pt : poly) (tern : nat -> poly) (tn tk tc : tape) (d : draw) (iterations : nat) : res (option rgsw) :=
  neg_sk_ct <- neg_gsw cx sk tn ;;
  ksks <- gen_all_subs_ksk cx sk tk ;;
  test_ct <- encode_encrypt_rlwe cx sk test_pt d ;;
  cs_one <- make_decomposed_rlwe_ct cx sk 1 tern tc ;;
  repeated iterations (fun _ _ => g <- expand fft cx ksks neg_sk_ct cs_one ;; Ok (Some g)) None.
Definition bench_expand_fourier (fft : fftT) (cx : ctx) (sk test_pt : poly) (tern : nat -> poly) (tn tk tc : tape) (d : draw) (iterations : nat) : res (option rgsw) :=
  neg_sk_ct <- neg_gsw cx sk tn ;;
  ksks <- gen_all_subs_ksk_fourier cx sk tk ;;
  test_ct <- encode_encrypt_rlwe cx sk test_pt d ;;
  cs_one <- make_decomposed_rlwe_ct cx sk 1 tern tc ;;
  repeated iterations (fun _ _ => g <- expand_fourier fft cx ksks neg_sk_ct cs_one ;; Ok (Some g)) None.
(** [less_eq_benchmark], 51-70: the ciphertext is compared in place. *)
Definition bench_less_eq (fft : fftT) (cx : ctx) (sk : poly) (d : draw) (iterations : nat) : res rlwe :=
  let m := (c_n cx / 2)%nat in
  ptxt <- set_index (poly_zero (c_n cx)) m 1 ;;
  ct <- encode_encrypt_rlwe cx sk ptxt d ;;
  repeated iterations (fun _ ct => less_eq_than (c_n cx) fft ct (m + 1)) ct.
(** [trace1_fourier_benchmark], 20-49: the coefficients of the encoded message are divided by n. *)
Definition bench_trace1_fourier (fft : fftT) (cx : ctx) (sk orig_msg : poly) (tk : tape) (d : draw) (iterations : nat) : res rlwe :=
  encoded <- poly_encode (c_mode cx) (c_codec cx) orig_msg ;;
  let encoded_msg := map (fun coeff => coeff / Z.of_nat (c_n cx)) encoded in
  let ct := encrypt_rlwe (c_n cx) sk encoded_msg d in
  all_ksk <- gen_all_subs_ksk_fourier cx sk tk ;;
  repeated iterations (fun _ _ => trace1_fourier fft all_ksk ct) (rlwe_allocate (c_n cx)).
