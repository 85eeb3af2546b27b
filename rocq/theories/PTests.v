(** * Property C91: the repository's unit tests pass whatever the keys, messages and randomness -- except two that can fail on correct code. *)
From Verif Require Import MBase MUtils MCodec MPoly MRlwe MLwe MTree MEncTree MCtx MParams MOram MMain MTests.
From Verif Require Import SpecRing SpecLwe SpecEnc SpecOram.
From Verif Require Import PolyRing PfCodec PfPoly PfNear PfRlwe PfRlwe2 PfRlwe3 PfRlwe5 PfEnc PfEnc2 PfEnc3 PfEnc4 LRlwe LKeys LOram PRlwe PKeys PEnc PLwe PDefault PBench PfTests PfTests2 PfTests3.
Local Open Scope Z_scope.

(** The setting of the tests: the default parameters, an FFT with an error of at most 2^38 (C82 derives less than that for double precision), a
    binary key, encryption noise of at most 2^13 (C85: more than the generator returns for the default standard deviation). *)
Definition test_setting (md : mode) (cx : ctx) (fft : fftT) (s : poly) : Prop :=
  context_new md default_tfhe = Ok cx /\ (exists eps, fft_for cx fft eps /\ 0 <= eps <= 2 ^ 38) /\ binary_key 2048 s.
(** [Context { codec: Codec::new(2), ..Context::new(..) }] and [Context { poly_size: PolynomialSize(1024), ..Context::new(..) }]. *)
Definition with_codec (cx : ctx) (c : codec) : ctx :=
  {| c_mode := c_mode cx; c_n := c_n cx; c_base := c_base cx; c_level := c_level cx; c_ks_base := c_ks_base cx; c_ks_level := c_ks_level cx;
     c_negs_base := c_negs_base cx; c_negs_level := c_negs_level cx; c_codec := c |}.
Definition with_poly_size (cx : ctx) (n : nat) : ctx :=
  {| c_mode := c_mode cx; c_n := n; c_base := c_base cx; c_level := c_level cx; c_ks_base := c_ks_base cx; c_ks_level := c_ks_level cx;
     c_negs_base := c_negs_base cx; c_negs_level := c_negs_level cx; c_codec := c_codec cx |}.
(** Noise for the standard deviation 2^-37.5 of test_negs: 2^26.5 times 16 is less than 2^31. *)
Definition noisy_noise : Z := 2 ^ 31.

Lemma setting_facts md cx fft s : test_setting md cx fft s ->
  params_ok cx 11 8 /\ c_n cx = 2048%nat /\ c_base cx = 5%nat /\ c_level cx = 9%nat /\ c_ks_base cx = 5%nat /\ c_ks_level cx = 11%nat /\ c_negs_level cx = 11%nat /\
  exists eps, fft_for cx fft eps /\ 0 <= eps <= 274877906944.
Proof.
  intros (Hcx & Hf & _). destruct (default_fields md cx Hcx) as (Hp & En & Eb & El & Ekb & Ekl & _). split; [exact Hp|]. split; [exact En|]. split; [exact Eb|]. split; [exact El|].
  split; [exact Ekb|]. split; [exact Ekl|]. split; [|exact Hf].
  unfold context_new in Hcx. cbn [default_tfhe tp_plaintext_modulus] in Hcx. destruct (codec_new md (2 ^ 8)) as [c|]; [|discriminate]. injection Hcx as <-. reflexivity.
Qed.
Lemma key_l1 s : binary_key 2048 s -> l1 2048 (tof s) 2048.
Proof. intros H. exact (binary_key_l1 2048 s H). Qed.

(** C91.  Encryption and decryption. *)
Theorem C91_encryption_tests : forall md cx fft s pt ternary_pt d, test_setting md cx fft s ->
  plaintext 2048 8 pt -> ternary_plaintext 2048 ternary_pt -> draw_ok 2048 default_noise d ->
  test_binary_enc cx s pt d = Ok tt /\ test_ternary_enc cx s ternary_pt d = Ok tt.
Proof.
  intros md cx fft s pt tpt d Hset Hpt Htp Hd. destruct (setting_facts md cx fft s Hset) as (Hp & En & _). rewrite <- En in *.
  split; [eapply (test_binary_enc_ok cx 11 8 Hp); [exact Hpt|exact Hd|reflexivity]|eapply (test_ternary_enc_ok cx 11 8 Hp); [exact Htp|exact Hd|vm_compute; congruence]].
Qed.
Print Assumptions C91_encryption_tests.

(** Key switching and substitution. *)
Theorem C91_keyswitching_tests : forall md cx fft before after ms tk d, test_setting md cx fft before -> binary_key 2048 after ->
  ternary_plaintext 2048 ms -> tape_ok 2048 default_noise tk -> draw_ok 2048 default_noise d ->
  test_keyswitching fft cx before after ms tk d = Ok tt /\ test_keyswitching_fourier fft cx before after ms tk d = Ok tt /\
  test_keyswitching_gsw fft cx before after ms tk d = Ok tt /\
  test_subs fft cx before ms tk d = Ok tt /\ test_subs_fourier fft cx before ms tk d = Ok tt.
Proof.
  intros md cx fft sb sa ms tk d Hset Hsa Hm Ht Hd. destruct (setting_facts md cx fft sb Hset) as (Hp & En & Eb & El & Ekb & Ekl & Enl & eps & Hf & He). destruct Hset as (_ & _ & Hsb).
  pose proof (key_l1 sb Hsb) as Lb. pose proof (key_l1 sa Hsa) as La. rewrite <- En in Hsb, Hsa, Hm, Ht, Hd.
  assert (l1 (c_n cx) (tof sb) 2048) as Lb' by (rewrite En; exact Lb). assert (l1 (c_n cx) (tof sa) 2048) as La' by (rewrite En; exact La).
  assert (default_noise <= ternary_window) as HE by (vm_compute; congruence).
  destruct (test_keyswitching_ok cx 11 8 Hp fft eps sb sa ms tk d 2048 2048 default_noise Hf Hsb Lb' La' Hm Ht Hd HE) as [K1 K2].
  destruct (test_subs_ok cx 11 8 Hp fft eps sb ms tk d 2048 default_noise Hf Hsb Lb' Hm Ht Hd) as [S1 S2].
  assert (forall F, ks_bound (c_n cx) (c_ks_base cx) (c_ks_level cx) 2048 2048 default_noise F = 2953314304 + 2049 * F) as Hks by (intros F; rewrite En, Ekb, Ekl; unfold ks_bound; reflexivity).
  rewrite Hks in K1, K2, S1, S2. rewrite Ekl in K1, S1. change (Z.of_nat 11) with 11 in K1, S1. unfold ternary_window, default_noise in *. change (2 ^ 13) with 8192 in *.
  split; [apply K1; lia|]. split; [apply K2; lia|]. split; [|split; [apply S1; lia|apply S2; lia]].
  eapply (test_keyswitching_gsw_ok cx 11 8 Hp fft eps sb sa ms tk d 2048 2048 8192); auto; unfold ternary_window.
  - rewrite Ekb, Eb. reflexivity.
  - rewrite Ekl, El, Enl. lia.
  - rewrite En, Ekb, Ekl. change (Z.of_nat 11 * (2 * (Z.of_nat 2048 * 2 ^ (Z.of_nat 5 - 1) * 8192)) + (1 + 2048) * 2 ^ (63 - Z.of_nat (5 * 11))) with 5906104576. lia.
Qed.
Print Assumptions C91_keyswitching_tests.

(** The trace, with a more precise FFT: the bound grows with the ring dimension. *)
Theorem C91_trace_test : forall md cx fft eps s msg tk d, context_new md default_tfhe = Ok cx -> fft_for cx fft eps -> 0 <= eps <= 2 ^ 29 -> binary_key 2048 s ->
  plaintext 2048 8 msg -> tape_ok 2048 default_noise tk -> draw_ok 2048 default_noise d -> test_trace1 fft cx s msg tk d = Ok tt.
Proof.
  intros md cx fft eps s msg tk d Hcx Hf He Hs Hm Ht Hd. destruct (default_fields md cx Hcx) as (Hp & En & Eb & El & Ekb & Ekl & _). pose proof (key_l1 s Hs) as Ls. rewrite <- En in Hs, Hm, Ht, Hd.
  apply (test_trace1_ok cx 11 8 Hp fft eps s msg tk d 2048 default_noise); auto; [rewrite En; exact Ls|cbn; lia|].
  rewrite En, Ekb, Ekl. unfold ks_bound. change (2 ^ 29) with 536870912 in He. change (2 ^ (64 - 8)) with 72057594037927936. unfold default_noise.
  change (Z.of_nat 11 * (Z.of_nat 2048 * 2 ^ (Z.of_nat 5 - 1) * 2 ^ 13) + 2048 * 2 ^ (63 - Z.of_nat (5 * 11))) with 2953314304. change (Z.of_nat 2048) with 2048. change (2 ^ 13) with 8192. change (Z.of_nat 11) with 11. lia.
Qed.
Print Assumptions C91_trace_test.

(** RGSW encryption, the encryption of the negated key, external product and selection. *)
Theorem C91_rgsw_tests : forall md cx fft s gsw_pt pt pt0 pt1 t t0 t1 d d0 d1 dn, test_setting md cx fft s ->
  binary_key 2048 gsw_pt -> plaintext 2048 8 pt -> ternary_plaintext 2048 pt0 -> ternary_plaintext 2048 pt1 ->
  tape_ok 2048 default_noise t -> tape_ok 2048 default_noise t0 -> tape_ok 2048 default_noise t1 ->
  draw_ok 2048 default_noise d -> draw_ok 2048 default_noise d0 -> draw_ok 2048 default_noise d1 -> draw_ok 2048 noisy_noise dn ->
  test_encrypt_rgsw fft cx s gsw_pt t d = Ok tt /\ test_negs fft cx s t dn = Ok tt /\
  test_external_product fft cx s pt t0 t1 d = Ok tt /\ test_cmux fft cx s pt0 pt1 d0 d1 t0 t1 = Ok tt.
Proof.
  intros md cx fft s gp pt pt0 pt1 t t0 t1 d d0 d1 dn Hset Hg Hpt Hp0 Hp1 Ht Ht0 Ht1 Hd Hd0 Hd1 Hdn.
  destruct (setting_facts md cx fft s Hset) as (Hp & En & Eb & El & Ekb & Ekl & Enl & eps & Hf & He). destruct Hset as (_ & _ & Hs). pose proof (key_l1 s Hs) as Ls.
  rewrite <- En in Hs, Hg, Hpt, Hp0, Hp1, Ht, Ht0, Ht1, Hd, Hd0, Hd1, Hdn.
  assert (l1 (c_n cx) (tof s) 2048) as Ls' by (rewrite En; exact Ls).
  assert (forall l S M, ep_bound (c_n cx) (c_base cx) l S M default_noise eps = Z.of_nat l * 536870912 + M * ((1 + S) * 2 ^ (63 - Z.of_nat (5 * l))) + (1 + S) * eps) as Hep
    by (intros l S M; rewrite En, Eb; unfold ep_bound; reflexivity).
  change (2 ^ 38) with 274877906944 in He.
  split; [|split; [|split]].
  - apply (test_encrypt_rgsw_ok cx 11 8 Hp fft eps s gp t d 2048 default_noise); auto. rewrite Hep, El, En. unfold default_noise. change (2 ^ 13) with 8192. change (2 ^ (64 - 8)) with 72057594037927936.
    change (Z.of_nat 9 * 536870912 + Z.of_nat 2048 * ((1 + 2048) * 2 ^ (63 - Z.of_nat (5 * 9)))) with 1104880336896. change (Z.of_nat 2048) with 2048. lia.
  - apply (test_negs_ok cx 11 8 Hp fft eps s t dn 2048 default_noise noisy_noise); auto. rewrite Hep, Enl. unfold noisy_noise, ternary_window. change (2 ^ 31) with 2147483648.
    change (Z.of_nat 11 * 536870912 + 2048 * ((1 + 2048) * 2 ^ (63 - Z.of_nat (5 * 11)))) with 6979846144. lia.
  - apply (test_external_product_ok cx 11 8 Hp fft eps s pt t0 t1 d 2048 default_noise); auto. rewrite Hep, El. unfold default_noise. change (2 ^ 13) with 8192. change (2 ^ (64 - 8)) with 72057594037927936.
    change (Z.of_nat 9 * 536870912 + 1 * ((1 + 2048) * 2 ^ (63 - Z.of_nat (5 * 9)))) with 5368971264. lia.
  - apply (test_cmux_ok cx 11 8 Hp fft eps s pt0 pt1 d0 d1 t0 t1 2048 default_noise); auto. rewrite Hep, El. unfold default_noise, ternary_window. change (2 ^ 13) with 8192.
    change (Z.of_nat 9 * 536870912 + 1 * ((1 + 2048) * 2 ^ (63 - Z.of_nat (5 * 9)))) with 5368971264. lia.
Qed.
Print Assumptions C91_rgsw_tests.

(** Comparisons. *)
Theorem C91_comparison_tests : forall md cx fft s t1 t2, test_setting md cx fft s -> tape_ok 2048 default_noise t1 -> tape_ok 2048 default_noise t2 ->
  test_less_eq fft cx s t1 t2 = Ok tt /\ test_eq_to fft cx s t1 = Ok tt.
Proof.
  intros md cx fft s t1 t2 Hset H1 H2. destruct (setting_facts md cx fft s Hset) as (Hp & En & _ & _ & _ & _ & _ & eps & Hf & He). destruct Hset as (_ & _ & Hs). pose proof (key_l1 s Hs) as Ls.
  rewrite <- En in H1, H2. assert (l1 (c_n cx) (tof s) 2048) as Ls' by (rewrite En; exact Ls). change (2 ^ 38) with 274877906944 in He.
  split; [apply (test_less_eq_ok cx 11 8 Hp fft eps s t1 t2 2048 default_noise); auto|apply (test_eq_to_ok cx 11 8 Hp fft eps s t1 2048 default_noise); auto];
    unfold default_noise; change (2 ^ 13) with 8192; change (2 ^ (64 - 8)) with 72057594037927936; [rewrite En; change (Z.of_nat 2048) with 2048|]; lia.
Qed.
Print Assumptions C91_comparison_tests.

(** NOT, in a context with plaintext modulus 2. *)
Theorem C91_not_tests : forall md cx c s d, context_new md default_tfhe = Ok cx -> codec_new md 2 = Ok c -> draw_ok 2048 default_noise d ->
  test_not (with_codec cx c) s d = Ok tt /\ test_not_in_place (with_codec cx c) s d = Ok tt.
Proof.
  intros md cx c s d Hcx Hc Hd. destruct (default_fields md cx Hcx) as ((P1 & P2 & P3 & P4 & P5 & P6 & P7 & _ & _) & En & Eb & El & Ekb & Ekl & Em & _). rewrite <- En in Hd.
  assert (params_ok (with_codec cx c) 11 1) as Hp by (unfold params_ok, with_codec; cbn [c_n c_base c_level c_ks_base c_ks_level c_negs_base c_negs_level c_mode c_codec]; rewrite Em; repeat split; auto; try apply P4; try apply P5; try apply P6; lia).
  apply (test_not_ok (with_codec cx c) 11 1 Hp s d default_noise eq_refl Hd). reflexivity.
Qed.
Print Assumptions C91_not_tests.

(** LWE; the conversion to RLWE in ring dimension 1024. *)
Theorem C91_lwe_tests : forall md cx fft s pts ds x d pt dr s' x' d' t', test_setting md cx fft s ->
  (forall i, 0 <= pts i < 2 ^ 8) -> (forall i, lwe_draw_ok 2048 default_noise (ds i)) -> 0 <= x < 2 ^ 8 -> lwe_draw_ok 2048 default_noise d ->
  plaintext 2048 8 pt -> draw_ok 2048 default_noise dr ->
  binary_key 1024 s' -> 0 <= x' < 2 ^ 8 -> lwe_draw_ok 1024 default_noise d' -> tape_ok 1024 default_noise t' ->
  test_lwe cx s pts ds = Ok tt /\ test_lwe_fill cx s x d = Ok tt /\ test_sample_extract cx s pt dr = Ok tt /\
  test_lwe_to_rlwe (with_poly_size cx 1024) s' x' d' t' = Ok tt.
Proof.
  intros md cx fft s pts ds x d pt dr s' x' d' t' Hset Hpts Hds Hx Hd Hpt Hdr Hs' Hx' Hd' Ht'. destruct (setting_facts md cx fft s Hset) as (Hp & En & Eb & El & Ekb & Ekl & _). destruct Hset as (_ & _ & [Ls _]).
  pose proof Hp as (P1 & P2 & P3 & P4 & P5 & P6 & P7 & P8 & P9).
  assert (forall i, lwe_draw_ok (c_n cx) default_noise (ds i)) as Hds' by (intros i; rewrite En; apply Hds). rewrite <- En in Ls, Hd, Hpt, Hdr.
  split; [apply (test_lwe_ok cx 11 8 Hp s pts ds default_noise); auto; reflexivity|]. split; [apply (test_lwe_fill_ok cx 11 8 Hp s x d default_noise); auto; reflexivity|].
  split; [apply (test_sample_extract_ok cx 11 8 Hp s pt dr default_noise); auto; reflexivity|].
  assert (params_ok (with_poly_size cx 1024) 10 8) as Hp'.
  { unfold params_ok, with_poly_size. cbn [c_n c_base c_level c_ks_base c_ks_level c_negs_base c_negs_level c_mode c_codec]. repeat split; auto; try apply P4; try apply P5; try apply P6; lia. }
  apply (test_lwe_to_rlwe_ok (with_poly_size cx 1024) 10 8 Hp' s' x' d' t' default_noise); auto.
  cbn [with_poly_size c_n c_ks_base c_ks_level]. rewrite Ekb, Ekl. reflexivity.
Qed.
Print Assumptions C91_lwe_tests.

(** Demultiplexing. *)
Theorem C91_demux_tests : forall md cx fft s t0 t1 t2 t3 t, test_setting md cx fft s ->
  tape_ok 2048 default_noise t0 -> tape_ok 2048 default_noise t1 -> tape_ok 2048 default_noise t2 -> tape_ok 2048 default_noise t3 -> (forall i, tape_ok 2048 default_noise (t i)) ->
  test_demux fft cx s t0 t1 t2 t3 = Ok tt /\ test_demux_long fft cx s t = Ok tt.
Proof.
  intros md cx fft s t0 t1 t2 t3 t Hset H0 H1 H2 H3 Ht. pose proof Hset as (Hcx & _ & _). destruct (setting_facts md cx fft s Hset) as (Hp & En & Eb & El & _ & _ & _ & eps & Hf & He). destruct Hset as (_ & _ & Hs). pose proof (key_l1 s Hs) as Ls.
  pose proof (default_ep md cx Hcx eps) as Hep. change (2 ^ 38) with 274877906944 in He.
  rewrite <- En in Hs, H0, H1, H2, H3. assert (forall i, tape_ok (c_n cx) default_noise (t i)) as Ht' by (intros i; rewrite En; apply Ht).
  assert (l1 (c_n cx) (tof s) 2048) as Ls' by (rewrite En; exact Ls).
  split; [apply (test_demux_ok cx 11 8 Hp fft eps s 2048 default_noise Hf Hs Ls'); auto|apply (test_demux_long_ok cx 11 8 Hp fft eps s 2048 default_noise Hf Hs Ls'); auto];
    rewrite Hep; change (2 ^ (64 - 8)) with 72057594037927936; lia.
Qed.
Print Assumptions C91_demux_tests.

(** Measuring noise: test_compute_noise passes exactly when the largest noise of the first ciphertext is below 8 standard deviations (2^12) and
    smaller than the largest sum of the two noises.  Neither always holds. *)
Theorem C91_compute_noise_test : forall md cx s pt d d_zero v0 v1, context_new md default_tfhe = Ok cx -> plaintext 2048 8 pt ->
  draw_ok 2048 default_noise d -> draw_ok 2048 default_noise d_zero ->
  largest 2048 (tof (d_noise d)) v0 -> largest 2048 (padd (tof (d_noise d)) (tof (d_noise d_zero))) v1 ->
  (test_compute_noise cx (-55) s pt d d_zero = Ok tt <-> v0 < 2 ^ 12 /\ v0 < v1).
Proof.
  intros md cx s pt d dz v0 v1 Hcx Hpt Hd Hz L0 L1. destruct (default_fields md cx Hcx) as (Hp & En & _).
  assert (v0 <= 8192 /\ v1 <= 16384) as [B0 B1].
  { destruct L0 as [_ (i & Hi & <-)], L1 as [_ (j & Hj & <-)]. pose proof (proj2 (proj2 Hd)) as Bd. pose proof (proj2 (proj2 Hz)) as Bz. split; [exact (Bd i Hi)|].
    unfold padd. etransitivity; [apply nrm_add|]. specialize (Bd j Hj). specialize (Bz j Hj). unfold default_noise in *. change (2 ^ 13) with 8192 in *. lia. }
  rewrite <- En in *. change (2 ^ 12) with (2 ^ (67 + -55)). apply (test_compute_noise_iff cx 11 8 Hp s pt d dz default_noise (-55) v0 v1); auto; change (2 ^ 63) with 9223372036854775808; lia.
Qed.
Print Assumptions C91_compute_noise_test.

Lemma flat_largest n x v : (0 < n)%nat -> nrm x = v -> largest n (tof (repeat x n)) v.
Proof.
  intros Hn Hv. assert (forall i, (i < n)%nat -> tof (repeat x n) i = x) as Q.
  { intros i Hi. unfold tof. rewrite (nth_indep _ 0 x) by (rewrite repeat_length; exact Hi). apply nth_repeat. }
  split; [intros i Hi; rewrite Q by exact Hi; lia|]. exists 0%nat. split; [exact Hn|]. rewrite Q by exact Hn. exact Hv.
Qed.
Lemma largest_ext n f g v : (forall i, (i < n)%nat -> f i = g i) -> largest n g v -> largest n f v.
Proof. intros H [B (i & Hi & E)]. split; [intros j Hj; rewrite H by exact Hj; apply B, Hj|]. exists i. split; [exact Hi|]. rewrite H by exact Hi. exact E. Qed.
Theorem C91_compute_noise_refuted : forall md cx s, context_new md default_tfhe = Ok cx ->
  exists pt d d_zero, plaintext 2048 8 pt /\ draw_ok 2048 default_noise d /\ draw_ok 2048 default_noise d_zero /\ test_compute_noise cx (-55) s pt d d_zero <> Ok tt.
Proof.
  intros md cx s Hcx. exists (repeat 1 2048), (flat_draw 2048 5 1), (flat_draw 2048 7 0).
  assert (plaintext 2048 8 (repeat 1 2048)) as Hpt by (apply flat_plaintext; lia).
  assert (draw_ok 2048 default_noise (flat_draw 2048 5 1)) as H1 by (apply flat_draw_ok; [split; [lia|reflexivity]|split; [lia|reflexivity]|vm_compute; congruence]).
  assert (draw_ok 2048 default_noise (flat_draw 2048 7 0)) as H0 by (apply flat_draw_ok; [split; [lia|reflexivity]|split; [lia|reflexivity]|vm_compute; congruence]).
  split; [exact Hpt|]. split; [exact H1|]. split; [exact H0|]. intros H.
  assert (largest 2048 (tof (repeat 1 2048)) 1) as L1 by (apply flat_largest; [lia|reflexivity]).
  apply (C91_compute_noise_test md cx s _ _ _ 1 1 Hcx Hpt H1 H0) in H; [lia|exact L1|].
  eapply largest_ext; [|exact L1]. intros i Hi. unfold padd. cbn [d_noise flat_draw]. replace (tof (repeat 0 2048) i) with 0; [lia|]. unfold tof. symmetry. apply nth_repeat.
Qed.
Print Assumptions C91_compute_noise_refuted.

(** Fourier multiplication: test_fourier_mul passes if the products are precise to [eps] and no coefficient of a partial sum comes close to wrapping.
    The test compares residues without regard to the wrap, so it can fail for any [eps] above 0. *)
Theorem C91_fourier_mul_test : forall fft eps pairs, 0 <= eps -> length pairs = 10%nat ->
  Forall (fun ab => wfp 2048 (fst ab) /\ wfp 2048 (snd ab) /\ wfp 2048 (fft [ab]) /\ near 2048 (tof (fft [ab])) (pmul 2048 (tof (fst ab)) (tof (snd ab))) eps) pairs ->
  10 * eps < 18446744074 ->
  (forall j i, (1 <= j <= 10)%nat -> (i < 2048)%nat -> 10 * eps <= products 2048 (firstn j pairs) i mod 2 ^ 64 < 2 ^ 64 - 10 * eps) ->
  test_fourier_mul fft 2048 pairs = Ok tt.
Proof.
  intros fft eps pairs He Hl HF HB HW. apply (test_fourier_mul_ok 2048 fft eps pairs); auto; [lia|rewrite Hl; exact HB|]. rewrite Hl. exact HW.
Qed.
Print Assumptions C91_fourier_mul_test.

(** One less than the exact products. *)
Definition low_fft (n : nat) : fftT := fun ts => poly_sub (exact_fft n ts) (repeat 1 n).
Lemma low_fft_ok n : (0 < n)%nat -> forall D L, fft_ok n (low_fft n) D L 1.
Proof.
  intros Hn.
  assert (forall x, wfp n (exact_fft n x) -> wfp n (low_fft n x) /\ near n (tof (low_fft n x)) (tof (exact_fft n x)) 1) as Hlow.
  { intros x W. pose proof (wfp_len _ _ W) as L. assert (length (repeat 1 n) = n) as L1 by apply repeat_length. split; [apply wfp_sub; assumption|].
    eapply near_eq_l; [unfold low_fft; rewrite (tof_sub n) by assumption; reflexivity|]. intros i Hi. unfold psub.
    replace (tof (repeat 1 n) i) with 1 by (unfold tof; rewrite (nth_indep _ 0 1) by (rewrite repeat_length; exact Hi); rewrite nth_repeat; reflexivity).
    replace (tof (exact_fft n x) i - 1 - tof (exact_fft n x) i) with (-1) by lia. vm_compute. congruence. }
  intros D L ts H1 H2. destruct (exact_fft_ok n Hn D L ts H1 H2) as [W N]. destruct (Hlow ts W) as [W' N']. split; [exact W'|]. eapply near_trans'; [exact Hn|exact N'|exact N|]. lia.
Qed.
Lemma low_fails : forall close n, close (q - 1) 0 = false -> (0 < n)%nat -> exists fft pairs, (forall D L, fft_ok n fft D L 1) /\ length pairs = 10%nat /\
  Forall (fun ab => wfp n (fst ab) /\ wfp n (snd ab) /\ sbound 1 (fst ab) /\ wfp n (fft [ab]) /\ near n (tof (fft [ab])) (pmul n (tof (fst ab)) (tof (snd ab))) 1) pairs /\
  test_fourier_mul_with close fft n pairs = Panic PAssert.
Proof.
  intros close n Hclose Hn. exists (low_fft n), (repeat (poly_zero n, poly_zero n) 10).
  pose proof (low_fft_ok n Hn) as Hfft.
  assert (wfp n (poly_zero n)) as W0.
  { split; [apply repeat_length|]. apply Forall_forall. intros x Hx. apply repeat_spec in Hx. subst. split; [lia|reflexivity]. }
  assert (sbound 1 (poly_zero n)) as S0 by (apply Forall_forall; intros x Hx; apply repeat_spec in Hx; subst; vm_compute; split; congruence).
  split; [exact Hfft|]. split; [reflexivity|]. split.
  { apply Forall_forall. intros ab Hab. apply repeat_spec in Hab. subst ab. cbn [fst snd]. split; [exact W0|]. split; [exact W0|]. split; [exact S0|].
    destruct (Hfft 1 1%nat [(poly_zero n, poly_zero n)]) as [W N]; [cbn; lia|constructor; [auto|constructor]|]. split; [exact W|]. eapply near_eq_r; [|exact N].
    intros i _. unfold fexact. cbn. unfold padd, pzero. apply eq_eqm. lia. }
  unfold test_fourier_mul_with. change (repeat (poly_zero n, poly_zero n) 10) with ((poly_zero n, poly_zero n) :: repeat (poly_zero n, poly_zero n) 9). cbn [foldM fst snd].
  unfold fourier_update_with_mul_acc, naive_update_with_mul_acc, add_backward.
  set (f := poly_add (poly_zero n) (low_fft n [(poly_zero n, poly_zero n)])). set (g := poly_add (poly_zero n) (poly_mul n (poly_zero n) (poly_zero n))).
  match goal with |- context [combine ?F ?G] => change F with f; change G with g end.
  assert (nth 0 f 0 = q - 1 /\ nth 0 g 0 = 0 /\ length f = n /\ length g = n) as (F0 & G0 & Lf & Lg).
  { pose proof (wfp_mul n (poly_zero n) (poly_zero n)) as Wm. pose proof (wfp_len _ _ Wm) as Lm. assert (length (poly_zero n) = n) as Lz by apply repeat_length.
    destruct (Hfft 1 1%nat [(poly_zero n, poly_zero n)]) as [W _]; [cbn; lia|constructor; [auto|constructor]|]. pose proof (wfp_len _ _ W) as Ll.
    assert (wfp n f) as Wf by (apply wfp_add; assumption). assert (wfp n g) as Wg by (apply wfp_add; assumption).
    assert (peq n (tof (poly_mul n (poly_zero n) (poly_zero n))) pzero) as Pm.
    { rewrite (tof_mul n) by assumption. rewrite tof_zero. intros i _. apply eq_eqm. unfold pmul, pzero.
      assert (forall m (h : nat -> Z), (forall i, h i = 0) -> sumf m h = 0) as Z0 by (intros m h Hh; induction m; cbn; [reflexivity|rewrite IHm, Hh; reflexivity]). apply Z0. intros a. apply Z0. intros b. reflexivity. }
    split; [|split; [|split; [apply (wfp_len _ _ Wf)|apply (wfp_len _ _ Wg)]]].
    - apply eqm_word; [apply (wfp_word n f 0 Wf)|split; [vm_compute; congruence|reflexivity]|].
      assert (peq n (tof f) (psub pzero (fun _ => 1))) as Q; [|exact (Q 0%nat Hn)].
      unfold f. rewrite (tof_add n) by assumption. unfold low_fft. rewrite (tof_sub n); [|apply (wfp_len n), (exact_fft_ok n Hn 1 1 [(poly_zero n, poly_zero n)]); [cbn; lia|constructor; [auto|constructor]]|apply repeat_length].
      unfold exact_fft. cbn [fold_right fst snd]. rewrite (tof_add n) by assumption. rewrite Pm, tof_zero. intros i Hi. unfold padd, psub, pzero.
      replace (tof (repeat 1 n) i) with 1 by (unfold tof; rewrite (nth_indep _ 0 1) by (rewrite repeat_length; exact Hi); rewrite nth_repeat; reflexivity). reflexivity.
    - apply eqm_word; [apply (wfp_word n g 0 Wg)|split; [lia|reflexivity]|]. assert (peq n (tof g) pzero) as Q; [|exact (Q 0%nat Hn)].
      unfold g. rewrite (tof_add n) by assumption. rewrite Pm, tof_zero. intros i _. reflexivity. }
  assert (forallb (fun xy => close (fst xy) (snd xy)) (combine f g) = false) as ->; [|reflexivity].
  destruct f as [|x f']; [cbn in Lf; lia|]. destruct g as [|y g']; [cbn in Lg; lia|]. cbn [nth] in F0, G0. subst x y. cbn [combine forallb fst snd]. rewrite Hclose. reflexivity.
Qed.
Theorem C91_fourier_mul_refuted : forall n, (0 < n)%nat -> exists fft pairs, (forall D L, fft_ok n fft D L 1) /\ length pairs = 10%nat /\
  Forall (fun ab => wfp n (fst ab) /\ wfp n (snd ab) /\ sbound 1 (fst ab) /\ wfp n (fft [ab]) /\ near n (tof (fft [ab])) (pmul n (tof (fst ab)) (tof (snd ab))) 1) pairs /\
  test_fourier_mul fft n pairs = Panic PAssert.
Proof. intros n Hn. apply (low_fails _ n); [reflexivity|exact Hn]. Qed.
Print Assumptions C91_fourier_mul_refuted.

(** *** The hypotheses are satisfiable: the all-ones key, exact products for the FFT, noise of +-4000. *)
Lemma c91_setting md cx : context_new md default_tfhe = Ok cx -> test_setting md cx (exact_fft 2048) (repeat 1 2048).
Proof.
  intros H. destruct (default_fields md cx H) as (_ & En & _). split; [exact H|]. split; [|apply ones_binary]. exists (2 ^ 38). split; [|split; [vm_compute; congruence|lia]].
  unfold fft_for. rewrite En. apply exact_fft_error; [lia|vm_compute; congruence].
Qed.
Lemma ones_ternary n : ternary_plaintext n (repeat 1 n).
Proof. split; [apply repeat_length|]. apply Forall_forall. intros y Hy. apply repeat_spec in Hy. auto. Qed.
Definition c91_ldraw (n : nat) : ldraw := {| ld_mask := repeat 9 n; ld_noise := q - 4000 |}.
Lemma c91_ldraw_ok n : lwe_draw_ok n default_noise (c91_ldraw n).
Proof.
  split; [apply repeat_length|]. split; [apply Forall_forall; intros y Hy; apply repeat_spec in Hy; subst; split; [lia|reflexivity]|]. split; [split; [vm_compute; congruence|reflexivity]|vm_compute; congruence].
Qed.
Lemma flat_noisy n : draw_ok n noisy_noise (flat_draw n 5 (2 ^ 30)).
Proof. apply flat_draw_ok; [split; [lia|reflexivity]|split; [lia|reflexivity]|vm_compute; congruence]. Qed.
Example C91_nonvacuous : exists cx, context_new Checked default_tfhe = Ok cx /\
  let s := repeat 1 2048 in let m := repeat 1 2048 in let fft := exact_fft 2048 in let t := noisy 2048 in let d := noisy 2048 7 0%nat in
  test_binary_enc cx s m d = Ok tt /\ test_keyswitching fft cx s s m (t 1%nat) d = Ok tt /\ test_trace1 fft cx s m (t 1%nat) d = Ok tt /\
  test_negs fft cx s (t 1%nat) (flat_draw 2048 5 (2 ^ 30)) = Ok tt /\ test_less_eq fft cx s (t 1%nat) (t 2%nat) = Ok tt /\
  test_lwe_to_rlwe (with_poly_size cx 1024) (repeat 1 1024) 1 (c91_ldraw 1024) (noisy 1024 3) = Ok tt /\
  test_demux_long fft cx s t = Ok tt.
Proof.
  destruct (C69_default_context Checked) as (cx & E & _ & N). exists cx. split; [exact E|]. cbv zeta. pose proof (c91_setting Checked cx E) as Hset.
  assert (plaintext 2048 8 (repeat 1 2048)) as Hpt by (apply flat_plaintext; lia).
  split; [apply (C91_encryption_tests Checked cx (exact_fft 2048) _ _ (repeat 1 2048) _ Hset Hpt (ones_ternary _)), noisy_ok|].
  split; [apply (C91_keyswitching_tests Checked cx (exact_fft 2048) (repeat 1 2048) (repeat 1 2048)); [exact Hset|apply ones_binary|apply ones_ternary|apply noisy_ok|apply noisy_ok]|].
  split; [apply (C91_trace_test Checked cx (exact_fft 2048) 0); [exact E|unfold fft_for; rewrite N; apply exact_fft_error; lia|vm_compute; split; congruence|apply ones_binary|exact Hpt|apply noisy_ok|apply noisy_ok]|].
  split; [apply (C91_rgsw_tests Checked cx (exact_fft 2048) _ (repeat 1 2048) (repeat 1 2048) (repeat 1 2048) (repeat 1 2048) (noisy 2048 1) (noisy 2048 1) (noisy 2048 1) (noisy 2048 7 0%nat) (noisy 2048 7 0%nat) (noisy 2048 7 0%nat) _ Hset); first [apply ones_binary|exact Hpt|apply ones_ternary|apply noisy_ok|apply flat_noisy]|].
  split; [apply (C91_comparison_tests Checked cx (exact_fft 2048) _ _ _ Hset); apply noisy_ok|].
  split; [apply (C91_lwe_tests Checked cx (exact_fft 2048) _ (fun _ => 1) (fun _ => c91_ldraw 2048) 1 (c91_ldraw 2048) (repeat 1 2048) (noisy 2048 7 0%nat) _ _ _ _ Hset); first [apply ones_binary|exact Hpt|apply noisy_ok|intros; apply c91_ldraw_ok|intros; lia|apply c91_ldraw_ok|lia]|].
  apply (C91_demux_tests Checked cx (exact_fft 2048) _ (noisy 2048 1) (noisy 2048 1) (noisy 2048 1) (noisy 2048 1) _ Hset); intros; apply noisy_ok.
Qed.
