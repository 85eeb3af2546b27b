(** * Properties C18-C25 and C29: RGSW, key switching, substitution, trace, expansion, noise.
    Vocabulary: SpecRing.v and SpecLwe.v ([rgsw_encrypts], [ksk_switches], [ep_bound], ..). *)
From Verif Require Import MBase MUtils MCodec MPoly MRlwe SpecLwe PfCodec PfPoly PfNear PfRlwe PfRlwe2 PfRlwe3 PfRlwe5 LRlwe LKeys Demo.
Local Open Scope Z_scope.

(** C18.  External product. *)
Theorem C18_external_product : forall n fft eps g out d s m E S M,
  (0 < n)%nat -> fft_ok n fft (2 ^ (Z.of_nat (g_base g) - 1)) (2 * g_level g) eps ->
  rgsw_encrypts n s g m E -> wfc n out -> wfc n d -> l1 n (tof s) S -> l1 n m M ->
  wfc n (external_product fft g out d) /\
  near n (phase n s (external_product fft g out d)) (padd (phase n s out) (pmul n m (phase n s d)))
         (ep_bound n (g_base g) (g_level g) S M E eps).
Proof. exact external_C18. Qed.
Print Assumptions C18_external_product.

(** The RGSW encryptions of constants made by the library satisfy the hypothesis. *)
Theorem C18_encrypt_constant_rgsw : forall n, (0 < n)%nat -> forall s base level m t E,
  wfp n s -> decomp_ok base level -> tape_ok n E t ->
  rgsw_encrypts n s (encrypt_constant_rgsw n s base level m t) (pcst m) E.
Proof. exact encrypt_constant_rgsw_ok. Qed.
Print Assumptions C18_encrypt_constant_rgsw.

(** So do the RGSW encryptions of polynomials made by encrypt_rgsw, when the ciphertext has the
    context's base. *)
Theorem C18_encrypt_rgsw : forall n, (0 < n)%nat -> forall cx s level encoded t E,
  c_n cx = n -> wfp n s -> wfp n encoded -> decomp_ok (c_base cx) level -> tape_ok n E t ->
  exists g, encrypt_rgsw cx s (c_base cx) level encoded t = Ok g /\ rgsw_encrypts n s g (tof encoded) E.
Proof.
  intros n Hn cx s level encoded t E En Hs He Hd Ht.
  destruct (encrypt_rgsw_ok n Hn cx s (c_base cx) level encoded t E) as (g & Eg & Gb & Gl & Wg & Rg); auto;
    try (destruct Hd as (? & ? & ?); lia).
  exists g. split; [exact Eg|]. split; [exact Wg|]. rewrite Gb. exact Rg.
Qed.
Print Assumptions C18_encrypt_rgsw.

(** The sum of two RGSW ciphertexts with equal parameters encrypts the sum. *)
Theorem C18_rgsw_add : forall n, (0 < n)%nat -> forall s g g' m m' E E',
  rgsw_encrypts n s g m E -> rgsw_encrypts n s g' m' E' -> g_base g = g_base g' -> g_level g = g_level g' ->
  rgsw_encrypts n s (rgsw_add g g') (padd m m') (E + E').
Proof. exact rgsw_add_C18. Qed.
Print Assumptions C18_rgsw_add.

Definition demo_rgsw (m : Z) : rgsw := encrypt_constant_rgsw 4 demo_s 5 11 m demo_tape.
Lemma demo_rgsw_ok m : rgsw_encrypts 4 demo_s (demo_rgsw m) (pcst m) 3.
Proof. apply encrypt_constant_rgsw_ok; [lia|apply demo_s_wf|apply demo_decomp|apply demo_tape_ok]. Qed.
Example C18_nonvacuous :
  rgsw_encrypts 4 demo_s (demo_rgsw 1) (pcst 1) 3 /\ ep_bound 4 5 11 3 1 3 0 = 5248 /\
  decrypt_decode_rlwe demo_cx demo_s
    (external_product (exact_fft 4) (demo_rgsw 1) (rlwe_allocate 4) (demo_ct [1; 0; 1; 1] 7)) = Ok [1; 0; 1; 1] /\
  decrypt_decode_rlwe demo_cx demo_s
    (external_product (exact_fft 4) (demo_rgsw 0) (rlwe_allocate 4) (demo_ct [1; 0; 1; 1] 7)) = Ok [0; 0; 0; 0].
Proof. split; [apply demo_rgsw_ok|]. split; [reflexivity|]. split; vm_compute; reflexivity. Qed.

(** C19.  cmux. *)
Theorem C19_cmux_selects : forall n fft eps g ct0 ct1 s b E S,
  (0 < n)%nat -> fft_ok n fft (2 ^ (Z.of_nat (g_base g) - 1)) (2 * g_level g) eps ->
  rgsw_encrypts n s g (pcst b) E -> b = 0 \/ b = 1 -> wfc n ct0 -> wfc n ct1 -> l1 n (tof s) S ->
  exists c, cmux fft g ct0 ct1 = Ok c /\ wfc n c /\
    near n (phase n s c) (phase n s (if b =? 1 then ct1 else ct0)) (ep_bound n (g_base g) (g_level g) S 1 E eps).
Proof. exact cmux_C19. Qed.
Print Assumptions C19_cmux_selects.

Theorem C19_cmux_decrypts : forall cx fft eps g ct0 ct1 s b E S k pt B,
  (0 < c_n cx)%nat -> fft_ok (c_n cx) fft (2 ^ (Z.of_nat (g_base g) - 1)) (2 * g_level g) eps ->
  rgsw_encrypts (c_n cx) s g (pcst b) E -> b = 0 \/ b = 1 -> wfc (c_n cx) ct0 -> wfc (c_n cx) ct1 -> l1 (c_n cx) (tof s) S ->
  1 <= k <= 63 -> codec_new (c_mode cx) (2 ^ k) = Ok (c_codec cx) -> plaintext (c_n cx) k pt ->
  near (c_n cx) (phase (c_n cx) s (if b =? 1 then ct1 else ct0)) (scaled k pt) B ->
  2 * (B + ep_bound (c_n cx) (g_base g) (g_level g) S 1 E eps) < 2 ^ (64 - k) ->
  exists c, cmux fft g ct0 ct1 = Ok c /\ decrypt_decode_rlwe cx s c = Ok pt.
Proof. exact cmux_decode_C19. Qed.
Print Assumptions C19_cmux_decrypts.

Example C19_nonvacuous :
  near 4 (phase 4 demo_s (demo_ct [1; 0; 1; 0] 3)) (scaled 1 [1; 0; 1; 0]) 3 /\
  2 * (3 + ep_bound 4 5 11 3 1 3 0) < 2 ^ 63 /\
  (c <- cmux (exact_fft 4) (demo_rgsw 1) (demo_ct [0; 1; 1; 1] 2) (demo_ct [1; 0; 1; 0] 3) ;;
   decrypt_decode_rlwe demo_cx demo_s c) = Ok [1; 0; 1; 0] /\
  (c <- cmux (exact_fft 4) (demo_rgsw 0) (demo_ct [0; 1; 1; 1] 2) (demo_ct [1; 0; 1; 0] 3) ;;
   decrypt_decode_rlwe demo_cx demo_s c) = Ok [0; 1; 1; 1].
Proof.
  split; [intros [|[|[|[|k]]]] Hk; try lia; vm_compute; congruence|]. split; [reflexivity|].
  split; vm_compute; reflexivity.
Qed.

(** C20.  Key switching, plain and in the Fourier domain. *)
Theorem C20_keyswitch : forall n fft eps base level before after t E c Sb Sa,
  (0 < n)%nat -> wfp n before -> decomp_ok base level -> tape_ok n E t ->
  fft_ok n fft (2 ^ (Z.of_nat base - 1)) (level + 1) eps -> wfc n c -> l1 n (tof before) Sb -> l1 n (tof after) Sa ->
  let key := fill_with_keyswitch_key n base level before after t in
  (exists c', keyswitch_ciphertext fft key c = Ok c' /\ wfc n c' /\
     near n (phase n after c') (phase n before c) (ks_bound n base level Sb Sa E (Z.of_nat level * eps))) /\
  (exists f, keyswitch_fourier key c = Ok f /\ wfc n (frlwe_backward fft n f) /\
     near n (phase n after (frlwe_backward fft n f)) (phase n before c) (ks_bound n base level Sb Sa E eps)).
Proof. exact keyswitch_C20. Qed.
Print Assumptions C20_keyswitch.

Definition demo_after : poly := [0; 1; 1; 0].
Example C20_nonvacuous :
  wfp 4 demo_s /\ l1 4 (tof demo_after) 2 /\ ks_bound 4 5 11 3 2 3 0 = 2880 /\
  (c <- keyswitch_ciphertext (exact_fft 4) (fill_with_keyswitch_key 4 5 11 demo_s demo_after demo_tape) (demo_ct [1; 0; 1; 1] 5) ;;
   decrypt_decode_rlwe demo_cx demo_after c) = Ok [1; 0; 1; 1] /\
  (f <- keyswitch_fourier (fill_with_keyswitch_key 4 5 11 demo_s demo_after demo_tape) (demo_ct [1; 0; 1; 1] 5) ;;
   decrypt_decode_rlwe demo_cx demo_after (frlwe_backward (exact_fft 4) 4 f)) = Ok [1; 0; 1; 1].
Proof.
  split; [apply demo_s_wf|]. split; [vm_compute; congruence|]. split; [reflexivity|].
  split; vm_compute; reflexivity.
Qed.

(** C21.  Homomorphic substitution X -> X^k. *)
Theorem C21_subs : forall lg n fft eps base level s k t E c S,
  n = (2 ^ lg)%nat -> Nat.odd k = true -> wfp n s -> decomp_ok base level -> tape_ok n E t ->
  fft_ok n fft (2 ^ (Z.of_nat base - 1)) (level + 1) eps -> wfc n c -> l1 n (tof s) S ->
  exists key, fill_with_subs_keyswitch_key n base level s k t = Ok key /\
  (exists c', subs fft key c = Ok c' /\ wfc n c' /\
     near n (phase n s c') (psubst n k (phase n s c)) (ks_bound n base level S S E (Z.of_nat level * eps))) /\
  (exists f, subs_fourier key c = Ok f /\ wfc n (frlwe_backward fft n f) /\
     near n (phase n s (frlwe_backward fft n f)) (psubst n k (phase n s c)) (ks_bound n base level S S E eps)).
Proof. exact subs_C21. Qed.
Print Assumptions C21_subs.

Theorem C21_plain_key_rejected : forall fft n base level before after t c,
  subs fft (fill_with_keyswitch_key n base level before after t) c = Panic PAssert /\
  subs_fourier (fill_with_keyswitch_key n base level before after t) c = Panic PAssert.
Proof. exact subs_plain_panics. Qed.
Print Assumptions C21_plain_key_rejected.

Theorem C21_even_rejected : forall n base level s k t, Nat.odd k = false ->
  fill_with_subs_keyswitch_key n base level s k t = Panic PAssert.
Proof. exact fill_subs_even. Qed.
Print Assumptions C21_even_rejected.

Example C21_nonvacuous :
  (key <- fill_with_subs_keyswitch_key 4 5 11 demo_s 3 demo_tape ;;
   c <- subs (exact_fft 4) key (demo_ct [1; 1; 0; 0] 5) ;; decrypt_decode_rlwe demo_cx demo_s c) = Ok [1; 0; 0; 1].
Proof. vm_compute. reflexivity. Qed.

(** C22.  trace1: n times the constant term, everything else vanishes. *)
Theorem C22_trace1 : forall lg cx fft eps s t E c S,
  c_n cx = (2 ^ lg)%nat -> (1 <= lg)%nat -> wfp (c_n cx) s -> decomp_ok (c_ks_base cx) (c_ks_level cx) -> tape_ok (c_n cx) E t ->
  fft_ok (c_n cx) fft (2 ^ (Z.of_nat (c_ks_base cx) - 1)) (c_ks_level cx + 1) eps -> wfc (c_n cx) c -> l1 (c_n cx) (tof s) S ->
  exists m, gen_all_subs_ksk cx s t = Ok m /\ gen_all_subs_ksk_fourier cx s t = Ok m /\
  (exists c', trace1 fft m c = Ok c' /\ wfc (c_n cx) c' /\
     near (c_n cx) (phase (c_n cx) s c') (pcst (Z.of_nat (c_n cx) * phase (c_n cx) s c 0%nat))
       ((Z.of_nat (c_n cx) - 1) * ks_bound (c_n cx) (c_ks_base cx) (c_ks_level cx) S S E (Z.of_nat (c_ks_level cx) * eps))) /\
  (exists c', trace1_fourier fft m c = Ok c' /\ wfc (c_n cx) c' /\
     near (c_n cx) (phase (c_n cx) s c') (pcst (Z.of_nat (c_n cx) * phase (c_n cx) s c 0%nat))
       ((Z.of_nat (c_n cx) - 1) * ks_bound (c_n cx) (c_ks_base cx) (c_ks_level cx) S S E eps)).
Proof. exact trace_C22. Qed.
Print Assumptions C22_trace1.

(** phase (2^61, 2^63, 0, 2^63): only 4 * 2^61 remains. *)
Definition c22_ct : rlwe := encrypt_rlwe 4 demo_s [2 ^ 61; 2 ^ 63; 0; 2 ^ 63] (demo_draw 9).
Example C22_nonvacuous :
  (m <- gen_all_subs_ksk demo_cx demo_s demo_tape ;;
   c <- trace1 (exact_fft 4) m c22_ct ;; decrypt_decode_rlwe demo_cx demo_s c) = Ok [1; 0; 0; 0] /\
  (m <- gen_all_subs_ksk demo_cx demo_s demo_tape ;;
   c <- trace1_fourier (exact_fft 4) m c22_ct ;; decrypt_decode_rlwe demo_cx demo_s c) = Ok [1; 0; 0; 0].
Proof. split; vm_compute; reflexivity. Qed.

(** C23.  The encryption of minus the secret key; holds when both bases agree (library default). *)
Theorem C23_neg_gsw : forall n, (0 < n)%nat -> forall cx s t E,
  c_n cx = n -> binary_key n s -> c_negs_base cx = c_base cx -> decomp_ok (c_base cx) (c_negs_level cx) -> tape_ok n E t ->
  exists g, neg_gsw cx s t = Ok g /\ g_base g = c_base cx /\ g_level g = c_negs_level cx /\
    rgsw_encrypts n s g (popp (tof s)) E.
Proof. exact neg_gsw_encrypts. Qed.
Print Assumptions C23_neg_gsw.

(** In general the rows are those of the gadget of ctx.base_log, whatever negs_base_log is. *)
Theorem C23_neg_gsw_rows : forall n, (0 < n)%nat -> forall cx s t E,
  c_n cx = n -> binary_key n s -> decomp_ok (c_negs_base cx) (c_negs_level cx) -> tape_ok n E t ->
  (1 <= c_base cx)%nat -> (c_base cx * c_negs_level cx <= 64)%nat ->
  exists g, neg_gsw cx s t = Ok g /\ g_base g = c_negs_base cx /\ g_level g = c_negs_level cx /\ wfg n g /\
    rgsw_rows n s g (c_base cx) (popp (tof s)) E.
Proof. exact neg_gsw_ok. Qed.
Print Assumptions C23_neg_gsw_rows.

(** Hence with different bases the ciphertext does not encrypt -s, even without any noise and with an
    error allowance of 2^55. *)
Definition c23_cx : ctx :=
  {| c_mode := Checked; c_n := 2; c_base := 8; c_level := 7; c_ks_base := 8; c_ks_level := 7;
     c_negs_base := 4; c_negs_level := 1; c_codec := {| cd_base_log := 1; cd_delta := 2 ^ 63 |} |}.
Theorem C23_different_base_refuted : exists cx s t g,
  (0 < c_n cx)%nat /\ binary_key (c_n cx) s /\ tape_ok (c_n cx) 0 t /\ decomp_ok (c_base cx) (c_level cx) /\
  decomp_ok (c_negs_base cx) (c_negs_level cx) /\ neg_gsw cx s t = Ok g /\
  ~ rgsw_encrypts (c_n cx) s g (popp (tof s)) (2 ^ 55).
Proof.
  exists c23_cx, [1; 0], (fun _ => {| d_mask := [5; 7]; d_noise := [0; 0] |}). eexists.
  split; [cbn; lia|]. split; [split; [reflexivity|auto]|].
  split; [intros i; split; [conc|]; split; [conc|]; intros [|[|k]] Hk; cbn in Hk; try lia; vm_compute; congruence|].
  split; [repeat split; cbn; lia|]. split; [repeat split; cbn; lia|]. split; [reflexivity|].
  intros [_ H]. specialize (H 0%nat ltac:(cbn; lia)) as [_ H]. specialize (H 0%nat ltac:(cbn; lia)).
  vm_compute in H. apply H. reflexivity.
Qed.
Print Assumptions C23_different_base_refuted.

Example C23_nonvacuous : exists g, neg_gsw demo_cx demo_s demo_tape = Ok g /\ g_base g = 5%nat /\ g_level g = 11%nat /\
  c_negs_base demo_cx = c_base demo_cx.
Proof. eexists. split; [reflexivity|]. auto. Qed.

(** C24.  Expansion with keys generated by the library. *)
Theorem C24_expand : forall lg cx fft eps s tk tn Ek En b E cs,
  c_n cx = (2 ^ lg)%nat -> (1 <= lg)%nat -> binary_key (c_n cx) s ->
  decomp_ok (c_base cx) (c_level cx) -> (c_base cx * c_level cx + lg <= 64)%nat ->
  decomp_ok (c_ks_base cx) (c_ks_level cx) ->
  c_negs_base cx = c_base cx -> decomp_ok (c_base cx) (c_negs_level cx) ->
  tape_ok (c_n cx) Ek tk -> tape_ok (c_n cx) En tn ->
  fft_ok (c_n cx) fft (2 ^ (Z.of_nat (c_ks_base cx) - 1)) (c_ks_level cx + 1) eps ->
  fft_ok (c_n cx) fft (2 ^ (Z.of_nat (c_base cx) - 1)) (2 * c_negs_level cx) eps ->
  expand_inputs (c_n cx) lg cx s b E cs ->
  let N := Z.of_nat (c_n cx) in
  let n := c_n cx in
  exists ksks neg_s, gen_all_subs_ksk cx s tk = Ok ksks /\ neg_gsw cx s tn = Ok neg_s /\
  (exists g, expand fft cx ksks neg_s cs = Ok g /\ g_base g = c_base cx /\ g_level g = c_level cx /\
     rgsw_encrypts n s g (pcst b)
       (expand_bound n N E (ks_bound n (c_ks_base cx) (c_ks_level cx) N N Ek (Z.of_nat (c_ks_level cx) * eps))
                     (ep_bound n (c_base cx) (c_negs_level cx) N N En eps))) /\
  (exists g, expand_fourier fft cx ksks neg_s cs = Ok g /\ g_base g = c_base cx /\ g_level g = c_level cx /\
     rgsw_encrypts n s g (pcst b)
       (expand_bound n N E (ks_bound n (c_ks_base cx) (c_ks_level cx) N N Ek eps)
                     (ep_bound n (c_base cx) (c_negs_level cx) N N En eps))).
Proof. exact expand_C24. Qed.
Print Assumptions C24_expand.

(** make_decomposed_rlwe_ct produces such inputs, whatever the ternary filling of the other coefficients. *)
Theorem C24_inputs : forall lg cx s b tern t E,
  c_n cx = (2 ^ lg)%nat -> b = 0 \/ b = 1 -> (1 <= c_base cx)%nat -> (c_base cx * c_level cx + lg <= 64)%nat ->
  tape_ok (c_n cx) E t -> (forall i, length (tern i) = c_n cx) ->
  exists cs, make_decomposed_rlwe_ct cx s b tern t = Ok cs /\ expand_inputs (c_n cx) lg cx s b E cs.
Proof. exact make_decomposed_C24. Qed.
Print Assumptions C24_inputs.

(** It rejects anything but bits, and precisions that do not fit into 64 bits beside the factor n, in debug and release builds. *)
Theorem C24_inputs_rejected : forall lg cx s b tern t,
  c_n cx = (2 ^ lg)%nat -> (1 <= c_base cx)%nat -> (1 <= c_level cx)%nat ->
  (exists cs, make_decomposed_rlwe_ct cx s b tern t = Ok cs) <-> (b = 0 \/ b = 1) /\ (c_base cx * c_level cx + lg <= 64)%nat.
Proof.
  intros lg cx s b tern t Hn Hb Hl. unfold make_decomposed_rlwe_ct, make_decomposed_gen. rewrite Hn, Nat.log2_pow2 by lia. split.
  - intros (cs & H). destruct (Z.eqb_spec b 1) as [-> |N1]; [|destruct (Z.eqb_spec b 0) as [-> |N0]; [|discriminate]]; cbn [orb rassert bind] in H.
    1: split; [right; reflexivity|]. 2: split; [left; reflexivity|].
    all: destruct (mapM_nth _ _ _ (c_level cx - 1) (c_level cx - 1)%nat H) as (y & Ey & _);
      [rewrite (nth_error_nth' _ 0%nat) by (rewrite seq_length; lia); rewrite seq_nth by lia; reflexivity|]; cbv zeta in Ey;
      replace (c_level cx - 1 + 1)%nat with (c_level cx) in Ey by lia;
      (destruct (Nat.leb_spec (c_base cx * c_level cx + lg) 64) as [G|G]; [exact G|discriminate]).
  - intros [B W]. assert ((b =? 1) || (b =? 0) = true) as -> by (destruct B as [-> | ->]; reflexivity). cbn [rassert bind].
    eexists. apply (mapM_ok _ (fun i => encrypt_rlwe (2 ^ lg) s (upd (tern i) 0 (wrap (b * 2 ^ (64 - Z.of_nat (c_base cx * (i + 1)) - Z.of_nat lg)))) (t i))).
    intros i Hi. apply in_seq in Hi. cbv zeta.
    assert (c_base cx * (i + 1) + lg <= 64)%nat as G. { transitivity (c_base cx * c_level cx + lg)%nat; [|exact W]. apply Nat.add_le_mono_r, Nat.mul_le_mono_l. lia. }
    assert (1 <= c_base cx * (i + 1))%nat by nia.
    rewrite (proj2 (Nat.leb_le _ _) G). cbn [negb orb rassert bind]. rewrite usub_ok by lia. cbn [bind]. rewrite usub_ok by lia. cbn [bind]. rewrite ushl_ok by lia. reflexivity.
Qed.
Print Assumptions C24_inputs_rejected.

Theorem C24_empty_rejected : forall fft cx m g,
  expand fft cx m g [] = Panic PIndex /\ expand_fourier fft cx m g [] = Panic PIndex.
Proof. exact expand_empty. Qed.
Print Assumptions C24_empty_rejected.

(** The bit 1 expanded in the demo instance acts as 1 in an external product; the noise bound is far
    below the window. *)
Definition demo_cx24 : ctx :=
  {| c_mode := Checked; c_n := 4; c_base := 5; c_level := 3; c_ks_base := 5; c_ks_level := 11;
     c_negs_base := 5; c_negs_level := 11; c_codec := {| cd_base_log := 1; cd_delta := 2 ^ 63 |} |}.
Example C24_nonvacuous :
  expand_bound 4 4 3 (ks_bound 4 5 11 4 4 3 0) (ep_bound 4 5 11 4 4 3 0) < 2 ^ 17 /\
  ep_bound 4 5 3 4 1 (2 ^ 17) 0 < 2 ^ 52 /\
  (cs <- make_decomposed_rlwe_ct demo_cx24 demo_s 1 (fun _ => [0; 1; 2 ^ 64 - 1; 0]) demo_tape ;;
   ksks <- gen_all_subs_ksk demo_cx24 demo_s demo_tape ;; neg_s <- neg_gsw demo_cx24 demo_s demo_tape ;;
   g <- expand_fourier (exact_fft 4) demo_cx24 ksks neg_s cs ;;
   decrypt_decode_rlwe demo_cx24 demo_s (external_product (exact_fft 4) g (rlwe_allocate 4) (demo_ct [1; 0; 1; 1] 7))) = Ok [1; 0; 1; 1].
Proof. split; [reflexivity|]. split; [reflexivity|]. vm_compute. reflexivity. Qed.

(** C25.  A key switching key as an RGSW ciphertext. *)
Theorem C25_rgsw_keyswitch : forall n fft eps base level before after t E out c Sb Sa,
  (0 < n)%nat -> wfp n before -> decomp_ok base level -> tape_ok n E t ->
  fft_ok n fft (2 ^ (Z.of_nat base - 1)) (2 * level) eps -> wfc n out -> wfc n c -> l1 n (tof before) Sb -> l1 n (tof after) Sa ->
  exists g, from_keyswitch_key (fill_with_keyswitch_key n base level before after t) = Ok g /\
    wfc n (rgsw_keyswitch_ciphertext fft g out c) /\
    near n (phase n after (rgsw_keyswitch_ciphertext fft g out c)) (padd (phase n after out) (phase n before c))
      (Z.of_nat level * (2 * (Z.of_nat n * 2 ^ (Z.of_nat base - 1) * E))
       + (1 + Sb) * 2 ^ (63 - Z.of_nat (base * level)) + (1 + Sa) * eps).
Proof. exact rgsw_ks_C25. Qed.
Print Assumptions C25_rgsw_keyswitch.

Example C25_nonvacuous :
  (g <- from_keyswitch_key (fill_with_keyswitch_key 4 5 11 demo_s demo_after demo_tape) ;;
  decrypt_decode_rlwe demo_cx demo_after (rgsw_keyswitch_ciphertext (exact_fft 4) g (rlwe_allocate 4) (demo_ct [1; 0; 1; 1] 5))) = Ok [1; 0; 1; 1].
Proof. vm_compute. reflexivity. Qed.

(** C29.  Noise measurement. *)
Theorem C29_noise_is_max_distance : forall n, (0 < n)%nat -> forall md s c e, wfc n c -> wfp n e ->
  (md = Wrapping \/ forall k, (k < n)%nat -> nrm (phase n s c k - tof e k) < 2 ^ 63) ->
  exists v, compute_noise md n s c e = Ok v /\ 0 <= v /\
    (forall k, (k < n)%nat -> nrm (phase n s c k - tof e k) < 2 ^ 63 -> nrm (phase n s c k - tof e k) <= v) /\
    (v = 0 \/ exists k, (k < n)%nat /\ nrm (phase n s c k - tof e k) = v).
Proof. exact compute_noise_ok. Qed.
Print Assumptions C29_noise_is_max_distance.

Theorem C29_noise_encoded : forall cx s c k pt, (0 < c_n cx)%nat -> 1 <= k <= 63 -> codec_new (c_mode cx) (2 ^ k) = Ok (c_codec cx) ->
  wfc (c_n cx) c -> plaintext (c_n cx) k pt ->
  (c_mode cx = Wrapping \/ forall i, (i < c_n cx)%nat -> nrm (phase (c_n cx) s c i - scaled k pt i) < 2 ^ 63) ->
  exists v, compute_noise_encoded cx s c pt = Ok v /\ 0 <= v /\
    (forall i, (i < c_n cx)%nat -> nrm (phase (c_n cx) s c i - scaled k pt i) < 2 ^ 63 -> nrm (phase (c_n cx) s c i - scaled k pt i) <= v) /\
    (v = 0 \/ exists i, (i < c_n cx)%nat /\ nrm (phase (c_n cx) s c i - scaled k pt i) = v).
Proof. exact noise_encoded_C29. Qed.
Print Assumptions C29_noise_encoded.

(** A difference of exactly 2^63 panics when overflow checks are on. *)
Theorem C29_noise_overflow : forall n, (0 < n)%nat -> forall s c e, wfc n c -> wfp n e ->
  (exists k, (k < n)%nat /\ nrm (phase n s c k - tof e k) = 2 ^ 63) -> compute_noise Checked n s c e = Panic POverflow.
Proof. exact compute_noise_panic. Qed.
Print Assumptions C29_noise_overflow.

(** compute_noise_ternary compares with zero instead of the encoded plaintext, for every plaintext. *)
Theorem C29_ternary_reports_phase : forall n md s c pt, length pt = n ->
  Forall (fun x => x = 0 \/ x = 1 \/ x = 2 ^ 64 - 1) pt ->
  compute_noise_ternary md n s c pt = compute_noise md n s c (repeat 0 n).
Proof. exact noise_ternary_is_phase. Qed.
Print Assumptions C29_ternary_reports_phase.

(** So a noise-free encryption of 1 is reported to have a noise above 2^62. *)
Theorem C29_ternary_refuted : exists cx s pt d ct v, wfp (c_n cx) s /\ d_noise d = repeat 0 (c_n cx) /\
  Forall (fun x => x = 0 \/ x = 1 \/ x = 2 ^ 64 - 1) pt /\ ternary_encrypt_rlwe cx s pt d = Ok ct /\
  compute_noise_ternary (c_mode cx) (c_n cx) s ct pt = Ok v /\ 2 ^ 62 < v.
Proof.
  exists demo_cx, demo_s, [1; 0; 0; 0], {| d_mask := [3; 5; 7; 9]; d_noise := [0; 0; 0; 0] |}. do 2 eexists.
  split; [apply demo_s_wf|]. split; [reflexivity|]. split; [auto 10|]. split; [vm_compute; reflexivity|].
  split; [vm_compute; reflexivity|]. vm_compute. reflexivity.
Qed.
Print Assumptions C29_ternary_refuted.

Example C29_nonvacuous : compute_noise_encoded demo_cx demo_s (demo_ct [1; 0; 1; 1] 5) [1; 0; 1; 1] = Ok 3.
Proof. vm_compute. reflexivity. Qed.
