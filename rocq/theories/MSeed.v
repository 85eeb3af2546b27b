(** * Model of the seeding in [Context::new], src/context.rs:76-126, and of the result of [simulate],
    src/decision_tree.rs:574-611 and 686-693. *)
From Verif Require Import MBase MCodec MPoly MRlwe MHash MTree MEncTree MParams MOram MMain MCtx.
Local Open Scope Z_scope.

(** The seeds of [random_generator], [secret_generator] and [encryption_generator].  With [secure_seed] every
    generator gets a seed of its own from the operating system ([fresh]); otherwise all three are [Seed(0)]. *)
Record seeds := { sd_random : Z; sd_secret : Z; sd_encryption : Z }.
Definition context_seeds (p : tfhe_params) (fresh : seeds) : seeds :=
  if tp_secure_seed p then fresh else {| sd_random := 0; sd_secret := 0; sd_encryption := 0 |}.
(** [stream seed]: the words a generator with this seed yields.  [SecretRandomGenerator] of concrete-core is a
    wrapper around [RandomGenerator], so equal seeds give equal words. *)
Definition random_words (stream : Z -> words) (p : tfhe_params) (fresh : seeds) : words := stream (sd_random (context_seeds p fresh)).
Definition secret_words (stream : Z -> words) (p : tfhe_params) (fresh : seeds) : words := stream (sd_secret (context_seeds p fresh)).

(** The generators yield bytes.  concrete-core (as published; not in the sandbox): a uniform binary value is the lowest bit of one byte,
    a mask coefficient eight bytes, the lowest first; [EncryptionRandomGenerator] draws the masks of ciphertexts from a generator with
    the seed given (src/context.rs:96-99, 108-113, 118-121) and the noise from another one.  ([MCtx] speaks of words of which the binary
    values use the lowest bit: the bytes here are words, too.) *)
Definition encryption_bytes (stream : Z -> words) (p : tfhe_params) (fresh : seeds) : words := stream (sd_encryption (context_seeds p fresh)).
Definition word_of_bytes (b : words) (i : nat) : Z :=
  fold_right (fun k acc => b (8 * i + k)%nat + 2 ^ 8 * acc) 0 (seq 0 8).
Definition mask_of_bytes (n : nat) (b : words) : poly := map (word_of_bytes b) (seq 0 n).
(** The first ciphertext a context encrypts (any kind: they all begin with a mask), with the noise [e]. *)
Definition first_ciphertext (n : nat) (s pt : poly) (b : words) (e : poly) : rlwe :=
  encrypt_rlwe n s pt {| d_mask := mask_of_bytes n b; d_noise := e |}.

(** [SimulationResult], src/decision_tree.rs:574-611, without the durations; [SimulationResult::new] copies the
    parameters from the context. *)
Record simulation_result := {
  sr_input_count : nat; sr_predictions : list Z; sr_poly_size : nat; sr_base_log : nat; sr_level_count : nat;
  sr_ks_base_log : nat; sr_ks_level_count : nat; sr_negs_base_log : nat; sr_negs_level_count : nat }.
Definition simulation_result_new (input_count : nat) (predictions : list Z) (cx : ctx) : simulation_result :=
  {| sr_input_count := input_count; sr_predictions := predictions; sr_poly_size := c_n cx; sr_base_log := c_base cx; sr_level_count := c_level cx;
     sr_ks_base_log := c_ks_base cx; sr_ks_level_count := c_ks_level cx; sr_negs_base_log := c_negs_base cx; sr_negs_level_count := c_negs_level cx |}.
(** [simulate] as a whole: the context is made from the default parameters (line 646); the result reports the
    number of clients (686). *)
Definition simulate_default (fft : fftT) (md : mode) (s : poly) (model : node) (features : list (list nat)) (t : tape) : res simulation_result :=
  cx <- context_new md default_tfhe ;;
  predictions <- simulate fft cx s model features t ;;
  Ok (simulation_result_new (length features) predictions cx).
