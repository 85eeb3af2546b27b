(** * Properties C11-C17: polynomial and RLWE operations.
    Vocabulary: SpecRing.v (the ring Z_q[X]/(X^n+1), [near], [l1]) and SpecLwe.v ([phase], [wfc], ..).
    [fft] is an arbitrary function satisfying [fft_ok]. *)
From Verif Require Import MBase MUtils MCodec MPoly MRlwe SpecLwe PfPoly PfNear PfRlwe PfRlwe5 LRlwe Demo.
Local Open Scope Z_scope.

(** C11.  eval_x_k computes p(X^k) modulo X^n+1. *)
Theorem C11_eval_is_substitution : forall m n k p, n = (2 ^ m)%nat -> wfp n p -> Nat.odd k = true ->
  exists p', eval_x_k p k = Ok p' /\ wfp n p' /\ peq n (tof p') (psubst n k (tof p)).
Proof. exact eval_x_k_ok. Qed.
Print Assumptions C11_eval_is_substitution.

Theorem C11_eval_homomorphism : forall m n k p r p' r', n = (2 ^ m)%nat -> Nat.odd k = true -> wfp n p -> wfp n r ->
  eval_x_k p k = Ok p' -> eval_x_k r k = Ok r' ->
  eval_x_k (poly_add p r) k = Ok (poly_add p' r') /\
  eval_x_k (poly_sub p r) k = Ok (poly_sub p' r') /\
  eval_x_k (poly_mul n p r) k = Ok (poly_mul n p' r') /\
  eval_x_k (poly_mono n 0 1) k = Ok (poly_mono n 0 1).
Proof. exact eval_hom_C11. Qed.
Print Assumptions C11_eval_homomorphism.

Theorem C11_eval_compose : forall m n k k' p p', n = (2 ^ m)%nat -> Nat.odd k = true -> Nat.odd k' = true -> wfp n p ->
  eval_x_k p k = Ok p' -> eval_x_k p' k' = eval_x_k p (k * k').
Proof. exact eval_comp_C11. Qed.
Print Assumptions C11_eval_compose.

Theorem C11_eval_panics : forall p k,
  (Nat.odd k = false -> eval_x_k p k = Panic PAssert) /\
  ((forall m, length p <> 2 ^ m)%nat -> eval_x_k p k = Panic PAssert).
Proof. intros p k. split; [apply eval_x_k_even|apply eval_x_k_not_pow2]. Qed.
Print Assumptions C11_eval_panics.

Example C11_nonvacuous : eval_x_k [1; 2; 3; 4] 3 = Ok [1; 4; wrap (-3); 2] /\ eval_x_k [1; 2; 3; 4] 2 = Panic PAssert /\
  (4 = 2 ^ 2)%nat /\ wfp 4 [1; 2; 3; 4].
Proof. conc. Qed.

(** C12.  Encryption round trips for every key, mask and admissible noise. *)
Theorem C12_encrypt_decrypt : forall cx k s pt d,
  (0 < c_n cx)%nat -> 1 <= k <= 63 -> codec_new (c_mode cx) (2 ^ k) = Ok (c_codec cx) ->
  wfp (c_n cx) s -> plaintext (c_n cx) k pt -> wfp (c_n cx) (d_mask d) -> wfp (c_n cx) (d_noise d) ->
  Forall (fun e => - 2 ^ (64 - k) <= 2 * to_signed e < 2 ^ (64 - k)) (d_noise d) ->
  exists ct, encode_encrypt_rlwe cx s pt d = Ok ct /\ decrypt_decode_rlwe cx s ct = Ok pt.
Proof. exact roundtrip_C12. Qed.
Print Assumptions C12_encrypt_decrypt.

Theorem C12_encrypt_rejects : forall cx k s pt d, 1 <= k <= 63 -> codec_new (c_mode cx) (2 ^ k) = Ok (c_codec cx) ->
  Forall (fun x => 0 <= x) pt -> Exists (fun x => 2 ^ k <= x) pt -> encode_encrypt_rlwe cx s pt d = Panic PExplicit.
Proof. exact encrypt_rejects_C12. Qed.
Print Assumptions C12_encrypt_rejects.

Theorem C12_ternary : forall cx s pt d,
  (0 < c_n cx)%nat -> wfp (c_n cx) s -> length pt = c_n cx -> Forall (fun x => x = 0 \/ x = 1 \/ x = 2 ^ 64 - 1) pt ->
  wfp (c_n cx) (d_mask d) -> wfp (c_n cx) (d_noise d) ->
  Forall (fun e => -3074457345618257920 <= to_signed e <= 3074457345618257920) (d_noise d) ->
  exists ct, ternary_encrypt_rlwe cx s pt d = Ok ct /\ ternary_decrypt_rlwe (c_n cx) s ct = pt.
Proof. exact ternary_C12. Qed.
Print Assumptions C12_ternary.

(** Without decoding: decryption is the plaintext plus the noise, coefficient by coefficient. *)
Theorem C12_decrypt_is_message_plus_noise : forall n, (0 < n)%nat -> forall s pt d,
  wfp n s -> wfp n pt -> wfp n (d_mask d) -> wfp n (d_noise d) ->
  decrypt_rlwe n s (encrypt_rlwe n s pt d) = poly_add pt (d_noise d).
Proof. exact decrypt_encrypt. Qed.
Print Assumptions C12_decrypt_is_message_plus_noise.

Theorem C12_constant : forall n s x d, (0 < n)%nat -> wfp n s -> is_word x -> wfp n (d_mask d) -> wfp n (d_noise d) ->
  decrypt_rlwe n s (encrypt_constant_rlwe n s x d) = poly_add (poly_mono n 0 x) (d_noise d).
Proof. exact decrypt_constant_C12. Qed.
Print Assumptions C12_constant.

Example C12_nonvacuous :
  (exists ct, encode_encrypt_rlwe demo_cx demo_s [1; 0; 1; 1] (demo_draw 2) = Ok ct /\
     mask ct = d_mask (demo_draw 2) /\ decrypt_decode_rlwe demo_cx demo_s ct = Ok [1; 0; 1; 1]) /\
  Forall (fun e => - 2 ^ 63 <= 2 * to_signed e < 2 ^ 63) (d_noise (demo_draw 2)) /\
  plaintext (c_n demo_cx) 1 [1; 0; 1; 1].
Proof. split; [eexists; split; [reflexivity|split; vm_compute; reflexivity]|]. conc. Qed.

(** C13.  Additions are homomorphic bit for bit. *)
Theorem C13_add_sub : forall n s c d, (0 < n)%nat -> wfc n c -> wfc n d ->
  decrypt_rlwe n s (rlwe_add c d) = poly_add (decrypt_rlwe n s c) (decrypt_rlwe n s d) /\
  decrypt_rlwe n s (rlwe_sub c d) = poly_sub (decrypt_rlwe n s c) (decrypt_rlwe n s d) /\
  rlwe_sub (rlwe_add c d) d = c /\ rlwe_add (rlwe_sub c d) d = c.
Proof. exact homomorphic_C13. Qed.
Print Assumptions C13_add_sub.

Theorem C13_clear_copy : forall n s c c0, (0 < n)%nat -> wfc n c ->
  decrypt_rlwe n s (rlwe_clear c) = repeat 0 n /\ rlwe_fill_with_copy c0 c = c.
Proof. exact clear_C13. Qed.
Print Assumptions C13_clear_copy.

(** Multiplying the result of the monomial division by X^m gives back the original phase. *)
Theorem C13_monomial_div : forall n, (0 < n)%nat -> forall s c m, wfc n c ->
  wfc n (rlwe_monomial_div c m) /\
  peq n (pmul n (mono n m) (phase n s (rlwe_monomial_div c m))) (phase n s c).
Proof. exact monomial_div_phase. Qed.
Print Assumptions C13_monomial_div.

Lemma demo_ct_wf pt i : length pt = 4%nat -> wfc 4 (demo_ct pt i).
Proof.
  intros L. destruct (demo_draw_wf i) as [Hm He]. split; [exact Hm|]. unfold demo_ct, encrypt_rlwe. cbn [body].
  apply wfp_add; [apply wfp_len, wfp_add; [apply He|apply wfp_len, wfp_mul]|rewrite map_length; exact L].
Qed.
Example C13_nonvacuous :
  wfc 4 (demo_ct [1; 0; 1; 0] 0) /\ wfc 4 (demo_ct [1; 1; 0; 0] 1) /\
  decrypt_decode_rlwe demo_cx demo_s (rlwe_add (demo_ct [1; 0; 1; 0] 0) (demo_ct [1; 1; 0; 0] 1)) = Ok [0; 1; 1; 0] /\
  decrypt_decode_rlwe demo_cx demo_s (rlwe_monomial_div (demo_ct [1; 0; 0; 0] 0) 1) = Ok [0; 0; 0; 1].
Proof. split; [apply demo_ct_wf; reflexivity|]. split; [apply demo_ct_wf; reflexivity|]. split; vm_compute; reflexivity. Qed.

(** C14.  The mask is multiplied in the ring; with the FFT variants mask and body up to the FFT error. *)
Theorem C14_mask_mul : forall n c p, (0 < n)%nat -> wfc n c -> wfp n p ->
  peq n (tof (mask (update_mask_with_mul n c p))) (pmul n (tof (mask c)) (tof p)) /\
  wfp n (mask (update_mask_with_mul n c p)) /\ body (update_mask_with_mul n c p) = body c.
Proof. exact mask_mul_C14. Qed.
Print Assumptions C14_mask_mul.

Theorem C14_mul_with_buf : forall n fft eps D c p, (0 < n)%nat -> fft_ok n fft D 1 eps -> wfc n c -> wfp n p -> sbound D p ->
  near n (tof (mask (update_mask_with_mul_with_buf fft c p))) (pmul n (tof (mask c)) (tof p)) eps /\
  body (update_mask_with_mul_with_buf fft c p) = body c /\
  near n (tof (body (update_body_with_mul_with_buf fft c p))) (pmul n (tof (body c)) (tof p)) eps /\
  mask (update_body_with_mul_with_buf fft c p) = mask c.
Proof. exact with_buf_C14. Qed.
Print Assumptions C14_mul_with_buf.

(** The body variant without buffer: what it really does, for every input. *)
Theorem C14_body_mul_always_zero : forall n c p, (0 < n)%nat -> length (body c) = n ->
  body (update_body_with_mul n c p) = repeat 0 n /\ mask (update_body_with_mul n c p) = mask c.
Proof. exact body_mul_C14. Qed.
Print Assumptions C14_body_mul_always_zero.

(** Hence the documented claim is false, for instance when multiplying by 1. *)
Theorem C14_body_mul_refuted : exists n c p, (0 < n)%nat /\ wfc n c /\ wfp n p /\
  ~ peq n (tof (body (update_body_with_mul n c p))) (pmul n (tof (body c)) (tof p)).
Proof.
  exists 2%nat, {| mask := [3; 4]; body := [5; 6] |}, [1; 0]. split; [lia|]. split; [conc|]. split; [conc|].
  intros H. specialize (H 0%nat ltac:(lia)). vm_compute in H. discriminate.
Qed.
Print Assumptions C14_body_mul_refuted.

Example C14_nonvacuous : mask (update_mask_with_mul 2 {| mask := [3; 4]; body := [5; 6] |} [1; 1]) = [wrap (-1); 7] /\
  update_body_with_mul_with_buf (exact_fft 2) {| mask := [3; 4]; body := [5; 6] |} [1; 1] = {| mask := [3; 4]; body := [wrap (-1); 11] |} /\
  fft_ok 2 (exact_fft 2) 1 1 0 /\ sbound 1 [1; 1].
Proof. split; [reflexivity|]. split; [reflexivity|]. split; [apply exact_fft_ok; lia|]. conc. Qed.

(** C15.  The constant term after less_eq_than(d) is a * [m <= d]. *)
Theorem C15_less_eq_than : forall n, (0 < n)%nat -> forall fft eps c s S N a m d,
  fft_ok n fft 1 1 eps -> wfc n c -> l1 n (tof s) S -> (m < n)%nat -> (d < n)%nat ->
  near n (phase n s c) (pmul n (pcst a) (mono n m)) N ->
  exists c', less_eq_than n fft c d = Ok c' /\ wfc n c' /\
    nrm (phase n s c' 0%nat - (if (m <=? d)%nat then a else 0)) <= (Z.of_nat d + 1) * N + (1 + S) * eps.
Proof. exact less_eq_than_ok. Qed.
Print Assumptions C15_less_eq_than.

(** C16.  The constant term after eq_to(d) is a * [m = d]. *)
Theorem C16_eq_to : forall n, (0 < n)%nat -> forall fft eps c s S N a m d,
  fft_ok n fft 1 1 eps -> wfc n c -> l1 n (tof s) S -> (m < n)%nat -> (d < n)%nat ->
  near n (phase n s c) (pmul n (pcst a) (mono n m)) N ->
  exists c', eq_to n fft c d = Ok c' /\ wfc n c' /\
    nrm (phase n s c' 0%nat - (if (m =? d)%nat then a else 0)) <= N + (1 + S) * eps.
Proof. exact eq_to_ok. Qed.
Print Assumptions C16_eq_to.

(** Thresholds that do not fit are rejected by both. *)
Theorem C15_threshold_rejected : forall n fft c d, (n <= d)%nat -> less_eq_than n fft c d = Panic PAssert.
Proof. intros n fft c d H. apply (compare_panics n fft c d H). Qed.
Print Assumptions C15_threshold_rejected.
Theorem C16_value_rejected : forall n fft c d, (n <= d)%nat -> eq_to n fft c d = Panic PAssert.
Proof. intros n fft c d H. apply (compare_panics n fft c d H). Qed.
Print Assumptions C16_value_rejected.

(** 2^60 * X^2 with noise 3, compared with every threshold. *)
Definition c15_ct : rlwe := encrypt_rlwe 4 demo_s [0; 0; 2 ^ 60; 0] (demo_draw 1).
Lemma c15_ct_wf : wfc 4 c15_ct.
Proof.
  destruct (demo_draw_wf 1) as [Hm He]. split; [exact Hm|]. apply wfp_add; [|reflexivity].
  apply wfp_len, wfp_add; [apply He|apply wfp_len, wfp_mul].
Qed.
Example C15_nonvacuous : wfc 4 c15_ct /\ near 4 (phase 4 demo_s c15_ct) (pmul 4 (pcst (2 ^ 60)) (mono 4 2)) 3 /\
  l1 4 (tof demo_s) 3 /\ fft_ok 4 (exact_fft 4) 1 1 0 /\
  map (fun d => match less_eq_than 4 (exact_fft 4) c15_ct d with Ok c => nth 0 (decrypt_rlwe 4 demo_s c) 0 | _ => -1 end)
    (seq 0 4) = [2; 2 ^ 64 - 1; 2 ^ 60 - 1; 2 ^ 60].
Proof.
  split; [apply c15_ct_wf|]. split; [intros [|[|[|[|k]]]] Hk; try lia; vm_compute; congruence|].
  split; [apply demo_l1|]. split; [apply demo_fft|]. vm_compute. reflexivity.
Qed.
Example C16_nonvacuous :
  map (fun d => match eq_to 4 (exact_fft 4) c15_ct d with Ok c => to_signed (nth 0 (decrypt_rlwe 4 demo_s c) 0) | _ => -1 end)
    (seq 0 4) = [2; -3; 2 ^ 60; 1].
Proof. vm_compute. reflexivity. Qed.

(** C17.  NOT on plaintext modulus 2. *)
Theorem C17_not : forall n s c, (0 < n)%nat -> wfc n c ->
  rlwe_not n c = rlwe_not_in_place c /\ rlwe_not_in_place (rlwe_not_in_place c) = c /\ rlwe_not n (rlwe_not n c) = c /\
  wfc n (rlwe_not n c) /\
  forall pt, length pt = n -> Forall (fun x => x = 0 \/ x = 1) pt -> forall B, near n (phase n s c) (scaled 1 pt) B ->
    near n (phase n s (rlwe_not n c)) (scaled 1 (upd pt 0 (1 - nth 0 pt 0))) B.
Proof. exact not_C17. Qed.
Print Assumptions C17_not.

Theorem C17_not_decrypts : forall cx s c pt B, (0 < c_n cx)%nat -> codec_new (c_mode cx) 2 = Ok (c_codec cx) ->
  wfc (c_n cx) c -> length pt = c_n cx -> Forall (fun x => x = 0 \/ x = 1) pt ->
  near (c_n cx) (phase (c_n cx) s c) (scaled 1 pt) B -> B < 2 ^ 62 ->
  decrypt_decode_rlwe cx s c = Ok pt /\
  decrypt_decode_rlwe cx s (rlwe_not (c_n cx) c) = Ok (upd pt 0 (1 - nth 0 pt 0)).
Proof. exact not_decode_C17. Qed.
Print Assumptions C17_not_decrypts.

(** The restriction to modulus 2 is needed: with modulus 4 NOT maps the bit 1 to 1. *)
Theorem C17_not_modulus_4 : exists cx s c, codec_new (c_mode cx) 4 = Ok (c_codec cx) /\ wfc (c_n cx) c /\ (0 < c_n cx)%nat /\
  decrypt_decode_rlwe cx s c = Ok [1; 0] /\ decrypt_decode_rlwe cx s (rlwe_not (c_n cx) c) = Ok [1; 0].
Proof.
  exists {| c_mode := Checked; c_n := 2; c_base := 5; c_level := 11; c_ks_base := 5; c_ks_level := 11;
     c_negs_base := 5; c_negs_level := 11; c_codec := {| cd_base_log := 2; cd_delta := 2 ^ 62 |} |}, [1; 0],
    {| mask := [3; 4]; body := [3 + 2 ^ 62; 4] |}.
  split; [reflexivity|]. split; [conc|]. split; [cbn; lia|]. split; vm_compute; reflexivity.
Qed.
Print Assumptions C17_not_modulus_4.

Example C17_nonvacuous : near 4 (phase 4 demo_s (demo_ct [1; 0; 1; 0] 3)) (scaled 1 [1; 0; 1; 0]) 3 /\
  decrypt_decode_rlwe demo_cx demo_s (rlwe_not 4 (demo_ct [1; 0; 1; 0] 3)) = Ok [0; 0; 1; 0].
Proof. split; [intros [|[|[|[|k]]]] Hk; try lia; vm_compute; congruence|vm_compute; reflexivity]. Qed.
