(** * Property C80: a context has exactly the parameters it was asked for; seeds. *)
From Verif Require Import MBase MUtils MCodec MPoly MRlwe MHash MTree MEncTree MParams MOram MMain MCtx MSim MSeed SpecRing SpecLwe SpecTree PfCodec PfDet2 PfTree PfRlwe PfRlwe5 LRlwe PBasic PRun PSelf.
Local Open Scope Z_scope.

(** All sizes are machine words. *)
Definition sizes_ok (p : tfhe_params) : Prop :=
  0 <= tp_polynomial_size p /\ 0 <= tp_base_log p /\ 0 <= tp_level_count p /\ 0 <= tp_ks_base_log p /\ 0 <= tp_ks_level_count p /\
  0 <= tp_negs_base_log p /\ 0 <= tp_negs_level_count p /\ 0 <= tp_plaintext_modulus p < 2 ^ 64.

(** [Context::new] succeeds exactly for a plaintext modulus 2, 4, .., 2^63 (and 1 in release builds: C02); the
    context then has the sizes, gadget parameters and plaintext modulus of the parameters, each in its place. *)
Theorem C80_context : forall md p, sizes_ok p -> tp_plaintext_modulus p <> 1 ->
  ((exists cx, context_new md p = Ok cx) <-> exists k, 1 <= k <= 63 /\ tp_plaintext_modulus p = 2 ^ k) /\
  forall cx, context_new md p = Ok cx ->
    c_mode cx = md /\ Z.of_nat (c_n cx) = tp_polynomial_size p /\
    Z.of_nat (c_base cx) = tp_base_log p /\ Z.of_nat (c_level cx) = tp_level_count p /\
    Z.of_nat (c_ks_base cx) = tp_ks_base_log p /\ Z.of_nat (c_ks_level cx) = tp_ks_level_count p /\
    Z.of_nat (c_negs_base cx) = tp_negs_base_log p /\ Z.of_nat (c_negs_level cx) = tp_negs_level_count p /\
    pt_modulus md (c_codec cx) = Ok (tp_plaintext_modulus p).
Proof.
  intros md p (H1 & H2 & H3 & H4 & H5 & H6 & H7 & H8) Hn1.
  assert (forall cx, context_new md p = Ok cx -> exists k, 1 <= k <= 63 /\ tp_plaintext_modulus p = 2 ^ k) as Hk.
  { intros cx H. unfold context_new in H. apply bind_ok in H as (cd & Hc & _). destruct (C02_new_requires_power_of_two md _ H8) as [_ Hno].
    destruct (Z.eq_dec (2 ^ Z.log2 (tp_plaintext_modulus p)) (tp_plaintext_modulus p)) as [E|E].
    - assert (0 < tp_plaintext_modulus p) as Hpos by (destruct (Z.eq_dec (tp_plaintext_modulus p) 0) as [E0|]; [rewrite E0 in E; discriminate|lia]).
      assert (Z.log2 (tp_plaintext_modulus p) < 64) by (apply Z.log2_lt_pow2; lia).
      exists (Z.log2 (tp_plaintext_modulus p)). split; [|auto]. pose proof (Z.log2_nonneg (tp_plaintext_modulus p)).
      assert (Z.log2 (tp_plaintext_modulus p) <> 0) by (intros G; rewrite G in E; cbn in E; lia). lia.
    - rewrite Hno in Hc; [discriminate|]. intros (k & Hk0 & Hk). apply E. rewrite Hk, Z.log2_pow2 by lia. reflexivity. }
  split; [split|].
  - intros (cx & H). apply (Hk cx H).
  - intros (k & Hk1 & Ek). destruct (C02_new_requires_power_of_two md _ H8) as [Hyes _].
    destruct (Hyes ltac:(exists k; split; [lia|exact Ek]) Hn1) as (cd & Hc). unfold context_new. rewrite Hc. cbn [bind]. eauto.
  - intros cx H. destruct (Hk cx H) as (k & Hk1 & Ek). unfold context_new in H. apply bind_ok in H as (cd & Hc & H). injection H as <-.
    cbn [c_mode c_n c_base c_level c_ks_base c_ks_level c_negs_base c_negs_level c_codec].
    rewrite Ek in Hc |- *. destruct (C02_encode_range md k cd Hk1 Hc) as (Hm & _).
    repeat (split; [first [reflexivity | apply Z2Nat.id; assumption]|]). exact Hm.
Qed.
Print Assumptions C80_context.

(** Claimed by the name [secure_seed]: without it, runs are reproducible, nothing more.  In fact the plaintext
    generator and the key generator then yield the same words: the first binary plaintext drawn from a context is its
    secret key, whatever the generator. *)
Theorem C80_fixed_seed_refuted : forall stream p fresh cx, tp_secure_seed p = false ->
  fst (gen_binary_pt cx (random_words stream p fresh)) = fst (gen_rlwe_sk cx (secret_words stream p fresh)).
Proof. intros stream p fresh cx H. unfold random_words, secret_words, context_seeds. rewrite H. reflexivity. Qed.
Print Assumptions C80_fixed_seed_refuted.
(** Worse: the mask of the first ciphertext, which everybody sees, holds the secret key: bit [i] of the key is bit [8 (i mod 8)] of
    coefficient [i / 8] of the mask.  A run is reproducible, however: no generator depends on the fresh seeds. *)
Lemma byte_at (f : nat -> Z) m : (forall k, 0 <= f k < 2 ^ 8) -> forall j, (j < m)%nat -> forall a,
  (fold_right (fun k acc => f k + 2 ^ 8 * acc) 0 (seq a m) / 2 ^ Z.of_nat (8 * j)) mod 2 = f (a + j)%nat mod 2.
Proof.
  intros Hf. induction m as [|m IH]; intros j Hj a; [lia|]. cbn [seq fold_right]. set (acc := fold_right _ 0 (seq (S a) m)). destruct j as [|j].
  - rewrite Nat.mul_0_r, Nat.add_0_r. change (Z.of_nat 0) with 0. rewrite Z.pow_0_r, Z.div_1_r.
    replace (f a + 2 ^ 8 * acc) with (f a + (2 ^ 7 * acc) * 2) by lia. apply Z.mod_add. lia.
  - replace (Z.of_nat (8 * S j)) with (8 + Z.of_nat (8 * j)) by lia. rewrite Z.pow_add_r by lia. rewrite <- Z.div_div by (try apply Z.pow_pos_nonneg; lia).
    replace (f a + 2 ^ 8 * acc) with (acc * 2 ^ 8 + f a) by lia. rewrite Z.div_add_l by lia. rewrite (Z.div_small (f a)) by apply Hf. rewrite Z.add_0_r.
    unfold acc. rewrite (IH j ltac:(lia) (S a)). f_equal. f_equal. lia.
Qed.
Theorem C80_fixed_seed_mask_refuted : forall stream p fresh cx pt e i, tp_secure_seed p = false -> (forall seed k, 0 <= stream seed k < 2 ^ 8) -> (i < c_n cx)%nat ->
  let key := fst (gen_rlwe_sk cx (secret_words stream p fresh)) in
  let c := first_ciphertext (c_n cx) key pt (encryption_bytes stream p fresh) e in
  nth i key 0 = (nth (i / 8) (mask c) 0 / 2 ^ Z.of_nat (8 * (i mod 8))) mod 2.
Proof.
  intros stream p fresh cx pt e i H Hb Hi key c. unfold key, c, first_ciphertext, encrypt_rlwe, secret_words, encryption_bytes, context_seeds. rewrite H.
  cbn [d_mask mask sd_secret sd_encryption gen_rlwe_sk fst]. unfold mask_of_bytes, fill_random.
  assert (i / 8 < c_n cx)%nat as Hd by (apply Nat.div_lt_upper_bound; lia). pose proof (Nat.mod_upper_bound i 8 ltac:(lia)) as Hm.
  rewrite (nth_map_seq _ _ _ _ Hd). unfold word_of_bytes. rewrite (byte_at (fun k => stream 0 (8 * (i / 8) + k)%nat) 8 ltac:(intros k; apply Hb) (i mod 8) ltac:(lia) 0).
  rewrite (nth_map_seq _ _ _ _ Hi). cbn [Nat.add]. rewrite <- (Nat.div_mod i 8) by lia. reflexivity.
Qed.
Print Assumptions C80_fixed_seed_mask_refuted.
Lemma bytes_word (f : nat -> Z) m : (forall k, 0 <= f k < 2 ^ 8) -> forall a, 0 <= fold_right (fun k acc => f k + 2 ^ 8 * acc) 0 (seq a m) < 2 ^ (8 * Z.of_nat m).
Proof.
  intros Hf. induction m as [|m IH]; intros a; [cbn; lia|]. cbn [seq fold_right]. specialize (IH (S a)). specialize (Hf a).
  replace (8 * Z.of_nat (S m)) with (8 + 8 * Z.of_nat m) by lia. rewrite Z.pow_add_r by lia. lia.
Qed.
Lemma mask_wfp n b : (forall k, 0 <= b k < 2 ^ 8) -> wfp n (mask_of_bytes n b).
Proof.
  intros Hb. unfold mask_of_bytes. split; [rewrite map_length, seq_length; reflexivity|]. apply Forall_map, Forall_forall. intros i _.
  exact (bytes_word (fun k => b (8 * i + k)%nat) 8 ltac:(intros k; apply Hb) 0%nat).
Qed.
Lemma key_wfp cx w : wfp (c_n cx) (fst (gen_rlwe_sk cx w)).
Proof.
  cbn. unfold fill_random. split; [rewrite map_length, seq_length; reflexivity|]. apply Forall_map, Forall_forall. intros i _. unfold uniform_binary, is_word, q.
  pose proof (Z.mod_pos_bound (w i) 2 ltac:(lia)). lia.
Qed.
(** So whoever sees the first ciphertext and knows the ring dimension decrypts it, without the key. *)
Definition key_in_mask (n : nat) (c : rlwe) : poly := map (fun i => (nth (i / 8) (mask c) 0 / 2 ^ Z.of_nat (8 * (i mod 8))) mod 2) (seq 0 n).
Theorem C80_fixed_seed_readable_refuted : forall stream p fresh cx pt e, tp_secure_seed p = false -> (forall seed k, 0 <= stream seed k < 2 ^ 8) ->
  (0 < c_n cx)%nat -> wfp (c_n cx) pt -> wfp (c_n cx) e ->
  let c := first_ciphertext (c_n cx) (fst (gen_rlwe_sk cx (secret_words stream p fresh))) pt (encryption_bytes stream p fresh) e in
  decrypt_rlwe (c_n cx) (key_in_mask (c_n cx) c) c = poly_add pt e.
Proof.
  intros stream p fresh cx pt e H Hb Hn Hpt He. cbv zeta. set (key := fst (gen_rlwe_sk cx (secret_words stream p fresh))).
  set (c := first_ciphertext (c_n cx) key pt (encryption_bytes stream p fresh) e).
  assert (key_in_mask (c_n cx) c = key) as ->.
  { apply nth_ext with (d := 0) (d' := 0); unfold key_in_mask; rewrite map_length, seq_length.
    - unfold key. cbn. unfold fill_random. rewrite map_length, seq_length. reflexivity.
    - intros i Hi. rewrite (nth_map_seq _ _ _ _ Hi). cbn [Nat.add]. symmetry. exact (C80_fixed_seed_mask_refuted stream p fresh cx pt e i H Hb Hi). }
  unfold c, first_ciphertext. apply decrypt_encrypt; try assumption; cbn [d_mask d_noise]; try assumption; [apply key_wfp|apply mask_wfp, Hb].
Qed.
Print Assumptions C80_fixed_seed_readable_refuted.
Theorem C80_fixed_seed_reproducible : forall stream p fresh fresh', tp_secure_seed p = false ->
  random_words stream p fresh = random_words stream p fresh' /\ secret_words stream p fresh = secret_words stream p fresh' /\
  encryption_bytes stream p fresh = encryption_bytes stream p fresh'.
Proof. intros stream p fresh fresh' H. unfold random_words, secret_words, encryption_bytes, context_seeds. rewrite H. repeat split. Qed.
Print Assumptions C80_fixed_seed_reproducible.
(** With [secure_seed] the two generators are seeded by themselves: the same parameters can give a plaintext that
    differs from the key. *)
Theorem C80_secure_seed : forall p, tp_secure_seed p = true -> forall cx, (0 < c_n cx)%nat ->
  exists stream fresh, fst (gen_binary_pt cx (random_words stream p fresh)) <> fst (gen_rlwe_sk cx (secret_words stream p fresh)).
Proof.
  intros p H cx Hn. exists (fun seed _ => seed), {| sd_random := 0; sd_secret := 1; sd_encryption := 2 |}. unfold random_words, secret_words, context_seeds. rewrite H.
  cbn [sd_random sd_secret]. unfold gen_binary_pt, gen_rlwe_sk, fill_random, plaintext_count. cbn [fst]. destruct (c_n cx) as [|n]; [lia|]. cbn [seq map]. intros E. discriminate E.
Qed.
Print Assumptions C80_secure_seed.

(** A simulation that ends normally reports the number of clients, a prediction for each that is the prediction of
    the plaintext tree, and the default parameters: n = 2048, gadgets (5, 9), (5, 11) and (5, 11). *)
Theorem C80_simulation_report : forall fft md s model features t r, simulate_default fft md s model features t = Ok r ->
  sr_input_count r = length features /\ Forall2 (fun fs p => exists x, p = Z.of_nat x /\ predicts model fs x) features (sr_predictions r) /\
  sr_poly_size r = 2048%nat /\ sr_base_log r = 5%nat /\ sr_level_count r = 9%nat /\ sr_ks_base_log r = 5%nat /\ sr_ks_level_count r = 11%nat /\
  sr_negs_base_log r = 5%nat /\ sr_negs_level_count r = 11%nat.
Proof.
  intros fft md s model features t r H. unfold simulate_default in H. apply bind_ok in H as (cx & Ec & H). apply bind_ok in H as (ps & Ep & H). injection H as <-.
  unfold context_new in Ec. apply bind_ok in Ec as (cd & _ & Ec). injection Ec as <-.
  split; [reflexivity|]. split; [|repeat split; reflexivity]. cbn [sr_predictions simulation_result_new].
  apply (simulate_sound _ _ _ _ _ _ _ Ep).
Qed.
Print Assumptions C80_simulation_report.

(** [SimulationResult::new] with any context: the report shows the parameters the context was made from, each
    under its own name. *)
Theorem C80_report_fields : forall md p cx input_count predictions, sizes_ok p -> context_new md p = Ok cx ->
  let r := simulation_result_new input_count predictions cx in
  sr_input_count r = input_count /\ sr_predictions r = predictions /\ Z.of_nat (sr_poly_size r) = tp_polynomial_size p /\
  Z.of_nat (sr_base_log r) = tp_base_log p /\ Z.of_nat (sr_level_count r) = tp_level_count p /\
  Z.of_nat (sr_ks_base_log r) = tp_ks_base_log p /\ Z.of_nat (sr_ks_level_count r) = tp_ks_level_count p /\
  Z.of_nat (sr_negs_base_log r) = tp_negs_base_log p /\ Z.of_nat (sr_negs_level_count r) = tp_negs_level_count p.
Proof.
  intros md p cx ic ps (H1 & H2 & H3 & H4 & H5 & H6 & H7 & H8) H r. unfold context_new in H. apply bind_ok in H as (cd & _ & H). injection H as <-.
  split; [reflexivity|]. split; [reflexivity|]. repeat split; apply Z2Nat.id; assumption.
Qed.
Print Assumptions C80_report_fields.

Example C80_default : exists cx, context_new Checked default_tfhe = Ok cx /\ Z.of_nat (c_negs_level cx) = 11 /\ pt_modulus Checked (c_codec cx) = Ok 256.
Proof.
  destruct (C80_context Checked default_tfhe) as [[_ H] G].
  - repeat split; cbn; lia.
  - discriminate.
  - destruct H as (cx & H); [exists 8; split; [lia|reflexivity]|]. exists cx. split; [exact H|]. destruct (G cx H) as (_ & _ & _ & _ & _ & _ & _ & G1 & G2). split; [exact G1|exact G2].
Qed.
(** A fixed seed in a concrete ring: the key 0, 1, 0, 1 of a generator yielding 0, 3, 6, 9 .. is read off the first mask. *)
Example C80_leaks : let p := {| tp_standard_deviation := -55; tp_polynomial_size := 4; tp_base_log := 5; tp_level_count := 9; tp_ks_base_log := 5; tp_ks_level_count := 11;
    tp_negs_base_log := 5; tp_negs_level_count := 11; tp_plaintext_modulus := 256; tp_secure_seed := false |} in
  let stream := fun seed k => (seed + 3 * Z.of_nat k) mod 2 ^ 8 in let fresh := {| sd_random := 5; sd_secret := 6; sd_encryption := 7 |} in
  exists cx, context_new Checked p = Ok cx /\ fst (gen_rlwe_sk cx (secret_words stream p fresh)) = [0; 1; 0; 1] /\
  forall pt e i, (i < 4)%nat -> nth i [0; 1; 0; 1] 0 =
    (nth (i / 8) (mask (first_ciphertext 4 [0; 1; 0; 1] pt (encryption_bytes stream p fresh) e)) 0 / 2 ^ Z.of_nat (8 * (i mod 8))) mod 2.
Proof.
  intros p stream fresh. destruct (C80_context Checked p) as [[_ H] G]; [repeat split; cbn; lia|discriminate|].
  destruct H as (cx & H); [exists 8; split; [lia|reflexivity]|]. exists cx. split; [exact H|]. destruct (G cx H) as (_ & Hn & _). cbn in Hn. assert (c_n cx = 4%nat) as Ec by lia.
  assert (fst (gen_rlwe_sk cx (secret_words stream p fresh)) = [0; 1; 0; 1]) as K. { unfold gen_rlwe_sk, fill_random, plaintext_count. cbn [fst]. rewrite ?Ec. reflexivity. }
  split; [exact K|]. intros pt e i Hi.
  pose proof (C80_fixed_seed_mask_refuted stream p fresh cx pt e i eq_refl ltac:(intros; unfold stream; apply Z.mod_pos_bound; lia) ltac:(lia)) as L. cbv zeta in L. rewrite K, Ec in L. exact L.
Qed.
