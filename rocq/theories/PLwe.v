(** * Properties C26-C28: LWE ciphertexts, sample extraction, conversion to RLWE. *)
From Verif Require Import MBase MUtils MCodec MPoly MRlwe MLwe SpecLwe PfCodec PfPoly PfNear PfRlwe PfRlwe3 PfRlwe5 PfLwe LRlwe LKeys Demo.
Local Open Scope Z_scope.

(** C26.  LWE round trip for every key, mask and admissible noise; decryption is message + noise. *)
Theorem C26_lwe_roundtrip : forall cx k s x d, 1 <= k <= 63 -> codec_new (c_mode cx) (2 ^ k) = Ok (c_codec cx) -> 0 <= x < 2 ^ k ->
  is_word (ld_noise d) -> - 2 ^ (64 - k) <= 2 * to_signed (ld_noise d) < 2 ^ (64 - k) ->
  exists c, encode_encrypt_lwe cx s x d = Ok c /\ decode_decrypt_lwe cx s c = Ok x.
Proof. exact lwe_roundtrip. Qed.
Print Assumptions C26_lwe_roundtrip.

Theorem C26_decrypt_is_message_plus_noise : forall s pt d, is_word pt ->
  decrypt_lwe s (encrypt_lwe s pt d) = (pt + ld_noise d) mod 2 ^ 64.
Proof. exact decrypt_encrypt_lwe. Qed.
Print Assumptions C26_decrypt_is_message_plus_noise.

Definition demo_ldraw : ldraw := {| ld_mask := [2 ^ 63 + 5; 17; 2 ^ 64 - 1; 3]; ld_noise := 2 ^ 64 - 9 |}.
Example C26_nonvacuous : (c <- encode_encrypt_lwe demo_cx demo_s 1 demo_ldraw ;; decode_decrypt_lwe demo_cx demo_s c) = Ok 1 /\
  decrypt_lwe demo_s (encrypt_lwe demo_s 1000 demo_ldraw) = 991.
Proof. split; vm_compute; reflexivity. Qed.

(** C27.  Sample extraction at degree d is exact; degrees that do not exist are rejected. *)
Theorem C27_sample_extraction : forall n, (0 < n)%nat -> forall c s d, wfc n c -> length s = n -> (d < n)%nat ->
  exists l, sample_extract c d = Ok l /\ length (l_mask l) = n /\ Forall is_word (l_mask l) /\ is_word (l_body l) /\
    decrypt_lwe s l = nth d (decrypt_rlwe n (to_rlwe_sk s) c) 0.
Proof. exact extract_ok. Qed.
Print Assumptions C27_sample_extraction.

Theorem C27_degree_rejected : forall c d, (length (body c) <= d)%nat -> sample_extract c d = Panic PIndex.
Proof. exact extract_panics. Qed.
Print Assumptions C27_degree_rejected.

Example C27_nonvacuous : wfc 4 (encrypt_rlwe 4 demo_s [10; 20; 30; 40] (demo_draw 3)) /\
  map (fun d => match sample_extract (encrypt_rlwe 4 demo_s [10; 20; 30; 40] (demo_draw 3)) d with Ok l => decrypt_lwe demo_s l | _ => 0 end)
      [0%nat; 1%nat; 2%nat; 3%nat] = [12; 17; 30; 41].
Proof. split; [eapply wfc_encrypt; [reflexivity|apply demo_draw_ok]|vm_compute; reflexivity]. Qed.

(** C28.  Conversion with the keys made by fill_with_keyswitching_key. *)
Theorem C28_conv_lwe_to_rlwe : forall cx s t E l, (0 < c_n cx)%nat -> binary_key (c_n cx) s ->
  decomp_ok (c_ks_base cx) (c_ks_level cx) -> tape_ok (c_n cx) E t ->
  length (l_mask l) = c_n cx -> Forall is_word (l_mask l) -> is_word (l_body l) ->
  exists ksks, fill_with_keyswitching_key cx s t = Ok ksks /\
    wfc (c_n cx) (conv_lwe_to_rlwe cx ksks l) /\
    near (c_n cx) (phase (c_n cx) (to_rlwe_sk s) (conv_lwe_to_rlwe cx ksks l)) (pcst (decrypt_lwe s l))
         (conv_bound (c_n cx) (c_ks_base cx) (c_ks_level cx) (Z.of_nat (c_n cx)) E).
Proof.
  intros cx s t E l Hn Hs Hd Ht L1 L2 L3.
  destruct (fill_conv_key_ok (c_n cx) Hn cx s t E eq_refl (binary_key_wf _ s Hs) Hd Ht) as (ks & Ek & Lk & HK).
  exists ks. split; [exact Ek|]. apply conv_ok; auto; [apply Hs|apply binary_key_l1; exact Hs].
Qed.
Print Assumptions C28_conv_lwe_to_rlwe.

Theorem C28_key_size_checked : forall cx s t, length s <> c_n cx -> fill_with_keyswitching_key cx s t = Panic PAssert.
Proof. intros cx s t H. unfold fill_with_keyswitching_key. destruct (Nat.eqb_spec (c_n cx) (length s)); [congruence|reflexivity]. Qed.
Print Assumptions C28_key_size_checked.

(** The slow expansion: inputs with constant terms b * 2^(64 - base*(i+1)), arbitrary other coefficients. *)
Theorem C28_expand_slow : forall cx fft eps s tk tn Ek En b E cs,
  (0 < c_n cx)%nat -> binary_key (c_n cx) s -> decomp_ok (c_base cx) (c_level cx) ->
  decomp_ok (c_ks_base cx) (c_ks_level cx) -> c_negs_base cx = c_base cx -> decomp_ok (c_base cx) (c_negs_level cx) ->
  tape_ok (c_n cx) Ek tk -> tape_ok (c_n cx) En tn ->
  fft_ok (c_n cx) fft (2 ^ (Z.of_nat (c_base cx) - 1)) (2 * c_negs_level cx) eps ->
  expand_inputs (c_n cx) 0 cx s b E cs ->
  let N := Z.of_nat (c_n cx) in
  let n := c_n cx in
  exists ksks neg_s, fill_with_keyswitching_key cx s tk = Ok ksks /\ neg_gsw cx s tn = Ok neg_s /\
  exists g, expand_slow fft cx ksks neg_s cs = Ok g /\ g_base g = c_base cx /\ g_level g = c_level cx /\
    rgsw_encrypts n s g (pcst b)
      ((1 + N) * (E + conv_bound n (c_ks_base cx) (c_ks_level cx) N Ek) + ep_bound n (c_base cx) (c_negs_level cx) N N En eps).
Proof.
  intros cx fft eps s tk tn Ek En b E cs Hn Hs Hd Hdk Hb Hdn Htk Htn Hf Hin N n.
  destruct (fill_conv_key_ok (c_n cx) Hn cx s tk Ek eq_refl (binary_key_wf _ s Hs) Hdk Htk) as (ks & Eks & Lk & HK).
  destruct (neg_gsw_encrypts (c_n cx) Hn cx s tn En eq_refl Hs Hb Hdn Htn) as (g & Eg & Gb & Gl & Rg).
  exists ks, g. split; [exact Eks|]. split; [exact Eg|].
  destruct (expand_slow_ok (c_n cx) Hn fft eps cx ks s cs g b E Ek En N) as (g' & E' & B' & L' & R'); auto.
  { apply Hs. } { rewrite Gb, Gl. exact Hf. } { apply binary_key_l1; exact Hs. }
  exists g'. rewrite Gb, Gl in R'. auto.
Qed.
Print Assumptions C28_expand_slow.

(** make_decomposed_rlwe_ct2 produces such inputs. *)
Theorem C28_expand_slow_inputs : forall cx s b tern t E,
  (0 < c_n cx)%nat -> b = 0 \/ b = 1 -> (1 <= c_base cx)%nat -> (c_base cx * c_level cx <= 64)%nat ->
  tape_ok (c_n cx) E t -> (forall i, length (tern i) = c_n cx) ->
  exists cs, make_decomposed_rlwe_ct2 cx s b tern t = Ok cs /\ expand_inputs (c_n cx) 0 cx s b E cs.
Proof. intros. apply make_decomposed_gen_ok; auto. lia. Qed.
Print Assumptions C28_expand_slow_inputs.

(** Unlike make_decomposed_rlwe_ct it relies on the overflow checks: with them it rejects anything but bits and precisions above 64 bits. *)
Theorem C28_inputs_rejected : forall cx s b tern t, c_mode cx = Checked -> (1 <= c_base cx)%nat -> (1 <= c_level cx)%nat ->
  (exists cs, make_decomposed_rlwe_ct2 cx s b tern t = Ok cs) <-> (b = 0 \/ b = 1) /\ (c_base cx * c_level cx <= 64)%nat.
Proof.
  intros cx s b tern t Hm Hb Hl. unfold make_decomposed_rlwe_ct2, make_decomposed_gen. rewrite Hm. split.
  - intros (cs & H). destruct (Z.eqb_spec b 1) as [-> |N1]; [|destruct (Z.eqb_spec b 0) as [-> |N0]; [|discriminate]]; cbn [orb rassert bind] in H.
    1: split; [right; reflexivity|]. 2: split; [left; reflexivity|].
    all: destruct (mapM_nth _ _ _ (c_level cx - 1) (c_level cx - 1)%nat H) as (y & Ey & _);
      [rewrite (nth_error_nth' _ 0%nat) by (rewrite seq_length; lia); rewrite seq_nth by lia; reflexivity|]; cbv zeta in Ey;
      replace (c_level cx - 1 + 1)%nat with (c_level cx) in Ey by lia; cbn [negb orb rassert bind] in Ey; unfold usub in Ey at 1;
      destruct (Z.leb_spec (Z.of_nat (c_base cx * c_level cx)) 64) as [G|G]; [lia|discriminate].
  - intros [B W]. assert ((b =? 1) || (b =? 0) = true) as -> by (destruct B as [-> | ->]; reflexivity). cbn [rassert bind].
    eexists. apply (mapM_ok _ (fun i => encrypt_rlwe (c_n cx) s (upd (tern i) 0 (wrap (b * 2 ^ (64 - Z.of_nat (c_base cx * (i + 1)) - Z.of_nat 0)))) (t i))).
    intros i Hi. apply in_seq in Hi. cbv zeta.
    assert (c_base cx * (i + 1) <= 64)%nat as G. { transitivity (c_base cx * c_level cx)%nat; [|exact W]. apply Nat.mul_le_mono_l. lia. }
    assert (1 <= c_base cx * (i + 1))%nat by nia.
    cbn [negb orb rassert bind]. rewrite usub_ok by lia. cbn [bind]. rewrite usub_ok by lia. cbn [bind]. rewrite ushl_ok by lia. reflexivity.
Qed.
Print Assumptions C28_inputs_rejected.
(** Refuted: the same in release builds, which encrypt the bit shifted by the wrong amount (here by 63 for the 13th of levels of 5 bits,
    which has the weight 2^-1). *)
Theorem C28_inputs_rejected_refuted : forall cx s b tern t, c_mode cx = Wrapping -> b = 0 \/ b = 1 -> exists cs, make_decomposed_rlwe_ct2 cx s b tern t = Ok cs /\
  (forall i, c_base cx = 5%nat -> (12 < c_level cx)%nat -> i = 12%nat -> nth i cs (rlwe_allocate 0) = encrypt_rlwe (c_n cx) s (upd (tern i) 0 (b * 2 ^ 63)) (t i)).
Proof.
  intros cx s b tern t Hm B. unfold make_decomposed_rlwe_ct2, make_decomposed_gen. rewrite Hm. assert ((b =? 1) || (b =? 0) = true) as -> by (destruct B as [-> | ->]; reflexivity). cbn [rassert bind].
  assert (forall a c, exists x, usub Wrapping a c = Ok x) as Hs by (intros a c; unfold usub, overflow; destruct (_ <=? _); eauto).
  assert (forall a c, exists x, ushl Wrapping a c = Ok x) as Hl by (intros a c; unfold ushl; destruct (_ <? _); eauto).
  set (f := fun i : nat => _). assert (forall i, exists y, f i = Ok y) as Hf.
  { intros i. unfold f. cbn [negb orb rassert bind]. destruct (Hs 64 (Z.of_nat (c_base cx * (i + 1)))) as (x & ->). cbn [bind].
    destruct (Hs x (Z.of_nat 0)) as (y & ->). cbn [bind]. destruct (Hl b y) as (z & ->). cbn [bind]. eauto. }
  assert (exists cs, mapM f (seq 0 (c_level cx)) = Ok cs) as (cs & E).
  { generalize (seq 0 (c_level cx)). intros l. induction l as [|i l (ys & IH)]; [exists []; reflexivity|]. destruct (Hf i) as (y & Ey). exists (y :: ys). cbn [mapM]. rewrite Ey. cbn [bind]. rewrite IH. reflexivity. }
  exists cs. split; [exact E|]. intros i Hb Hi ->. destruct (mapM_nth _ _ _ 12%nat 12%nat E) as (y & Ey & Hy).
  { rewrite (nth_error_nth' _ 0%nat) by (rewrite seq_length; lia). rewrite seq_nth by lia. reflexivity. }
  rewrite (nth_error_nth _ _ _ Hy). unfold f in Ey. rewrite Hb in Ey. change (usub Wrapping 64 (Z.of_nat (5 * (12 + 1)))) with (@Ok Z (2 ^ 64 - 1)) in Ey. cbn [negb orb rassert bind] in Ey.
  change (usub Wrapping (2 ^ 64 - 1) (Z.of_nat 0)) with (@Ok Z (2 ^ 64 - 1)) in Ey. cbn [bind] in Ey.
  destruct B as [-> | ->]; injection Ey as <-; reflexivity.
Qed.
Print Assumptions C28_inputs_rejected_refuted.
Theorem C28_expand_slow_rejects : forall fft cx ksks neg_s cs, length ksks <> c_n cx \/ length cs <> c_level cx ->
  expand_slow fft cx ksks neg_s cs = Panic PAssert.
Proof.
  intros fft cx ks g cs H. unfold expand_slow. destruct (Nat.eqb_spec (c_n cx) (length ks)); [|reflexivity].
  cbn [rassert bind]. destruct (Nat.eqb_spec (length cs) (c_level cx)); [|reflexivity]. destruct H; congruence.
Qed.
Print Assumptions C28_expand_slow_rejects.

Definition demo_cx28 : ctx :=
  {| c_mode := Checked; c_n := 4; c_base := 5; c_level := 3; c_ks_base := 5; c_ks_level := 11;
     c_negs_base := 5; c_negs_level := 11; c_codec := {| cd_base_log := 1; cd_delta := 2 ^ 63 |} |}.
Example C28_nonvacuous : conv_bound 4 5 11 4 3 = 3136 /\
  (ksks <- fill_with_keyswitching_key demo_cx28 demo_s demo_tape ;;
   l <- encode_encrypt_lwe demo_cx28 demo_s 1 demo_ldraw ;;
   decrypt_decode_rlwe demo_cx28 demo_s (conv_lwe_to_rlwe demo_cx28 ksks l)) = Ok [1; 0; 0; 0] /\
  (cs <- make_decomposed_rlwe_ct2 demo_cx28 demo_s 1 (fun _ => [0; 1; 2 ^ 64 - 1; 0]) demo_tape ;;
   ksks <- fill_with_keyswitching_key demo_cx28 demo_s demo_tape ;; neg_s <- neg_gsw demo_cx28 demo_s demo_tape ;;
   g <- expand_slow (exact_fft 4) demo_cx28 ksks neg_s cs ;;
   decrypt_decode_rlwe demo_cx28 demo_s (external_product (exact_fft 4) g (rlwe_allocate 4) (demo_ct [1; 0; 1; 1] 7))) = Ok [1; 0; 1; 1].
Proof. split; [reflexivity|]. split; vm_compute; reflexivity. Qed.
