(** * Lemmas in the form of the theorems of PRlwe.v and PKeys.v *)
From Coq Require Import Setoid Morphisms Ring.
From Verif Require Import MBase MUtils MCodec MPoly MRlwe SpecLwe PolyRing PfPoly PfDecomp PfNear PfCodec
  PfRlwe PfRlwe2 PfRlwe3 PfRlwe4 PfRlwe5.
Local Open Scope Z_scope.

Lemma pow2_pos m : (0 < 2 ^ m)%nat.
Proof. assert (2 ^ m <> 0)%nat by (apply Nat.pow_nonzero; lia). lia. Qed.

(** ** C11 *)
Lemma eval_hom_C11 m n k p r p' r' : n = (2 ^ m)%nat -> Nat.odd k = true -> wfp n p -> wfp n r ->
  eval_x_k p k = Ok p' -> eval_x_k r k = Ok r' ->
  eval_x_k (poly_add p r) k = Ok (poly_add p' r') /\
  eval_x_k (poly_sub p r) k = Ok (poly_sub p' r') /\
  eval_x_k (poly_mul n p r) k = Ok (poly_mul n p' r') /\
  eval_x_k (poly_mono n 0 1) k = Ok (poly_mono n 0 1).
Proof.
  intros Hm Hk Hp Hr Ep Er. assert (0 < n)%nat as Hn by (subst; apply pow2_pos).
  destruct (eval_x_k_ok m n k p Hm Hp Hk) as (p1 & E1 & W1 & Q1). rewrite Ep in E1. injection E1 as <-.
  destruct (eval_x_k_ok m n k r Hm Hr Hk) as (r1 & E2 & W2 & Q2). rewrite Er in E2. injection E2 as <-.
  assert (wfp n (poly_mono n 0 1)) as W1' by (apply wfp_mono; split; [lia|reflexivity]).
  repeat split.
  - destruct (eval_x_k_ok m n k (poly_add p r) Hm) as (x & Ex & Wx & Qx); [apply wfp_add; apply wfp_len; assumption|exact Hk|].
    rewrite Ex. f_equal. apply (tof_inj n); [exact Wx|apply wfp_add; apply wfp_len; assumption|].
    rewrite Qx, !(tof_add n) by (apply wfp_len; assumption). rewrite Q1, Q2. apply psubst_add.
  - destruct (eval_x_k_ok m n k (poly_sub p r) Hm) as (x & Ex & Wx & Qx); [apply wfp_sub; apply wfp_len; assumption|exact Hk|].
    rewrite Ex. f_equal. apply (tof_inj n); [exact Wx|apply wfp_sub; apply wfp_len; assumption|].
    rewrite Qx, !(tof_sub n) by (apply wfp_len; assumption). rewrite Q1, Q2. apply psubst_sub.
  - destruct (eval_x_k_ok m n k (poly_mul n p r) Hm) as (x & Ex & Wx & Qx); [apply wfp_mul|exact Hk|].
    rewrite Ex. f_equal. apply (tof_inj n); [exact Wx|apply wfp_mul|].
    rewrite Qx, !tof_mul. rewrite Q1, Q2. apply psubst_mul; assumption.
  - destruct (eval_x_k_ok m n k (poly_mono n 0 1) Hm) as (x & Ex & Wx & Qx); [exact W1'|exact Hk|].
    rewrite Ex. f_equal. apply (tof_inj n); [exact Wx|exact W1'|].
    rewrite Qx, !tof_pcst. apply psubst_pcst. exact Hn.
Qed.
Lemma eval_comp_C11 m n k k' p p' : n = (2 ^ m)%nat -> Nat.odd k = true -> Nat.odd k' = true -> wfp n p ->
  eval_x_k p k = Ok p' -> eval_x_k p' k' = eval_x_k p (k * k').
Proof.
  intros Hm Hk Hk' Hp Ep. assert (0 < n)%nat as Hn by (subst; apply pow2_pos).
  destruct (eval_x_k_ok m n k p Hm Hp Hk) as (p1 & E1 & W1 & Q1). rewrite Ep in E1. injection E1 as <-.
  destruct (eval_x_k_ok m n k' p' Hm W1 Hk') as (a & Ea & Wa & Qa).
  destruct (eval_x_k_ok m n (k * k') p Hm Hp) as (b & Eb & Wb & Qb).
  { rewrite Nat.odd_mul, Hk, Hk'. reflexivity. }
  rewrite Ea, Eb. f_equal. apply (tof_inj n); [assumption..|]. rewrite Qa, Qb, Q1. apply psubst_psubst; assumption.
Qed.

(** ** C12 *)
Lemma map2_combine_add a b : poly_add a b = map (fun '(y, e) => (y + e) mod q) (combine a b).
Proof. revert b; induction a as [|x a IH]; intros [|y b]; try reflexivity. cbn. f_equal. apply IH. Qed.
Lemma map2_signed a b : poly_add a b = map (fun '(y, e) => (y + e) mod q) (combine a (map to_signed b)).
Proof.
  revert b; induction a as [|x a IH]; intros [|y b]; try reflexivity. cbn. f_equal; [|apply IH].
  unfold wadd, wrap. change (eqm (x + y) (x + to_signed y)). rewrite to_signed_eqm. reflexivity.
Qed.
Lemma roundtrip_C12 cx k s pt d :
  (0 < c_n cx)%nat -> 1 <= k <= 63 -> codec_new (c_mode cx) (2 ^ k) = Ok (c_codec cx) ->
  wfp (c_n cx) s -> plaintext (c_n cx) k pt -> wfp (c_n cx) (d_mask d) -> wfp (c_n cx) (d_noise d) ->
  Forall (fun e => - 2 ^ (64 - k) <= 2 * to_signed e < 2 ^ (64 - k)) (d_noise d) ->
  exists ct, encode_encrypt_rlwe cx s pt d = Ok ct /\ decrypt_decode_rlwe cx s ct = Ok pt.
Proof.
  intros Hn Hk Hc Hs Hpt Hm He Hw. destruct (encode_scaled _ _ _ _ pt Hk Hc Hpt) as (e & Ee & We & _).
  unfold encode_encrypt_rlwe. rewrite Ee. cbn [bind]. eexists; split; [reflexivity|].
  unfold decrypt_decode_rlwe. rewrite decrypt_encrypt by assumption.
  rewrite map2_signed. rewrite (codec_new_inv _ _ _ Hk Hc) in *. destruct Hpt as [Lpt Fpt].
  assert (2 ^ (64 - k) = 2 * 2 ^ (63 - k)) as D by (replace (64 - k) with (1 + (63 - k)) by lia; rewrite pow2_split by lia; reflexivity).
  destruct (poly_roundtrip (c_mode cx) k pt (map to_signed (d_noise d)) Hk Fpt) as (ys & E1 & E2).
  { rewrite map_length, (wfp_len _ _ He). congruence. }
  { apply Forall_forall. intros z Hz. apply in_map_iff in Hz as (x & <- & Hx). rewrite Forall_forall in Hw. specialize (Hw x Hx). lia. }
  rewrite Ee in E1. injection E1 as <-. exact E2.
Qed.
Lemma encrypt_rejects_C12 cx k s pt d : 1 <= k <= 63 -> codec_new (c_mode cx) (2 ^ k) = Ok (c_codec cx) ->
  Forall (fun x => 0 <= x) pt -> Exists (fun x => 2 ^ k <= x) pt -> encode_encrypt_rlwe cx s pt d = Panic PExplicit.
Proof.
  intros Hk Hc Hp HE. unfold encode_encrypt_rlwe, poly_encode. rewrite (codec_new_inv _ _ _ Hk Hc).
  assert (forall pt, Forall (fun x => 0 <= x) pt -> Exists (fun x => 2 ^ k <= x) pt -> mapM (encode (c_mode cx) {| cd_base_log := k; cd_delta := 2 ^ (64 - k) |}) pt = Panic PExplicit) as G.
  { clear - Hk. intros pt Hp HE. induction Hp as [|x pt Hx Hp IH]; [inversion HE|]. cbn [mapM].
    destruct (Z.lt_ge_cases x (2 ^ k)) as [L|L].
    - rewrite encode_ok by lia. cbn [bind]. rewrite IH; [reflexivity|]. inversion HE; [lia|assumption].
    - rewrite encode_big by lia. reflexivity. }
  rewrite G by assumption. reflexivity.
Qed.
Lemma ternary_C12 cx s pt d :
  (0 < c_n cx)%nat -> wfp (c_n cx) s -> length pt = c_n cx -> Forall (fun x => x = 0 \/ x = 1 \/ x = 2 ^ 64 - 1) pt ->
  wfp (c_n cx) (d_mask d) -> wfp (c_n cx) (d_noise d) ->
  Forall (fun e => -3074457345618257920 <= to_signed e <= 3074457345618257920) (d_noise d) ->
  exists ct, ternary_encrypt_rlwe cx s pt d = Ok ct /\ ternary_decrypt_rlwe (c_n cx) s ct = pt.
Proof.
  intros Hn Hs Lpt Fpt Hm He Hw. unfold ternary_encrypt_rlwe.
  assert (poly_ternary_encode (c_mode cx) pt = Ok (map ternary_enc_val pt)) as Ee.
  { apply mapM_ok. intros x Hx. apply ternary_encode_ok. rewrite Forall_forall in Fpt. apply (Fpt x Hx). }
  rewrite Ee. cbn [bind]. eexists; split; [reflexivity|]. unfold ternary_decrypt_rlwe.
  assert (wfp (c_n cx) (map ternary_enc_val pt)) as We.
  { split; [rewrite map_length; exact Lpt|]. apply Forall_forall. intros y Hy. apply in_map_iff in Hy as (x & <- & Hx).
    rewrite Forall_forall in Fpt. destruct (Fpt x Hx) as [->|[->| ->]]; split; vm_compute; congruence. }
  rewrite decrypt_encrypt by assumption. rewrite map2_signed. unfold poly_ternary_decode.
  assert (length (d_noise d) = length pt) as L by (rewrite (wfp_len _ _ He); congruence).
  revert Hw L. generalize (d_noise d). clear - Fpt. induction Fpt as [|x pt Hx F IH]; intros [|e es] Hw L; cbn in L; try discriminate; [reflexivity|].
  inversion Hw; subst. cbn [map combine]. f_equal; [|apply IH; [assumption|lia]].
  apply ternary_roundtrip_sym; [exact Hx|assumption].
Qed.
Lemma decrypt_constant_C12 n s x d : (0 < n)%nat -> wfp n s -> is_word x -> wfp n (d_mask d) -> wfp n (d_noise d) ->
  decrypt_rlwe n s (encrypt_constant_rlwe n s x d) = poly_add (poly_mono n 0 x) (d_noise d).
Proof. intros. apply decrypt_encrypt; try assumption. apply wfp_mono. assumption. Qed.

(** ** C13 *)
Lemma homomorphic_C13 n s c d : (0 < n)%nat -> wfc n c -> wfc n d ->
  decrypt_rlwe n s (rlwe_add c d) = poly_add (decrypt_rlwe n s c) (decrypt_rlwe n s d) /\
  decrypt_rlwe n s (rlwe_sub c d) = poly_sub (decrypt_rlwe n s c) (decrypt_rlwe n s d) /\
  rlwe_sub (rlwe_add c d) d = c /\ rlwe_add (rlwe_sub c d) d = c.
Proof.
  intros Hn Hc Hd. destruct (add_sub_cancel n Hn c d Hc Hd). auto using decrypt_add, decrypt_sub.
Qed.
Lemma clear_C13 n s c c0 : (0 < n)%nat -> wfc n c ->
  decrypt_rlwe n s (rlwe_clear c) = repeat 0 n /\ rlwe_fill_with_copy c0 c = c.
Proof.
  intros Hn Hc. split; [|reflexivity]. unfold rlwe_clear. rewrite (wfc_mask n c Hc), (wfc_body n c Hc).
  change {| mask := poly_zero n; body := poly_zero n |} with (rlwe_allocate n).
  apply (tof_inj n); [apply decrypt_wf, wfc_allocate|apply wfp_zero|].
  rewrite (decrypt_phase n s _ (wfc_allocate n)), (phase_allocate n Hn). symmetry. apply tof_zero.
Qed.

(** ** C14 *)
Lemma mask_mul_C14 n c p : (0 < n)%nat -> wfc n c -> wfp n p ->
  peq n (tof (mask (update_mask_with_mul n c p))) (pmul n (tof (mask c)) (tof p)) /\
  wfp n (mask (update_mask_with_mul n c p)) /\ body (update_mask_with_mul n c p) = body c.
Proof.
  intros Hn Hc Hp. destruct (mask_mul_ok n Hn c p Hc Hp) as (E & Eb & Q). split; [exact Q|]. split; [rewrite E; apply wfp_mul|exact Eb].
Qed.
Lemma with_buf_C14 n fft eps D c p : (0 < n)%nat -> fft_ok n fft D 1 eps -> wfc n c -> wfp n p -> sbound D p ->
  near n (tof (mask (update_mask_with_mul_with_buf fft c p))) (pmul n (tof (mask c)) (tof p)) eps /\
  body (update_mask_with_mul_with_buf fft c p) = body c /\
  near n (tof (body (update_body_with_mul_with_buf fft c p))) (pmul n (tof (body c)) (tof p)) eps /\
  mask (update_body_with_mul_with_buf fft c p) = mask c.
Proof.
  intros Hn Hf Hc Hp Hb. split; [|split; [reflexivity|split; [|reflexivity]]]; cbn;
    apply (mul_with_buf_near n Hn fft eps D); auto; apply Hc.
Qed.
Lemma body_mul_C14 n c p : (0 < n)%nat -> length (body c) = n ->
  body (update_body_with_mul n c p) = repeat 0 n /\ mask (update_body_with_mul n c p) = mask c.
Proof. intros Hn Hc. split; [apply body_mul_zero; assumption|reflexivity]. Qed.

(** ** C17 *)
Lemma not_C17 n s c : (0 < n)%nat -> wfc n c ->
  rlwe_not n c = rlwe_not_in_place c /\ rlwe_not_in_place (rlwe_not_in_place c) = c /\ rlwe_not n (rlwe_not n c) = c /\
  wfc n (rlwe_not n c) /\
  forall pt, length pt = n -> Forall (fun x => x = 0 \/ x = 1) pt -> forall B, near n (phase n s c) (scaled 1 pt) B ->
    near n (phase n s (rlwe_not n c)) (scaled 1 (upd pt 0 (1 - nth 0 pt 0))) B.
Proof.
  intros Hn Hc. pose proof (wfc_not n c Hc) as Hw. pose proof (not_agree n c Hc) as Ea.
  split; [exact Ea|]. split; [apply (not_involutive n Hn); exact Hc|]. split.
  { rewrite Ea, (not_agree n _ Hw). apply (not_involutive n Hn); exact Hc. }
  rewrite Ea. split; [exact Hw|]. intros pt Lpt Fpt B HN.
  eapply near_eq_l; [apply not_phase; assumption|].
  apply (near_eq_r n (psub (pcst (2 ^ 63)) (scaled 1 pt))).
  - intros k Hk. unfold scaled, psub. rewrite nth_upd by lia. change (2 ^ (64 - 1)) with (2 ^ 63).
    destruct k; cbn [Nat.eqb pcst]; [apply eq_eqm; ring|]. apply eqm_alt. exists (nth (S k) pt 0).
    assert (q = 2 * 2 ^ 63) as -> by reflexivity. ring.
  - rewrite <- (Z.add_0_l B). apply near_sub; [exact Hn|apply near_refl; reflexivity|exact HN].
Qed.
Lemma not_decode_C17 cx s c pt B : (0 < c_n cx)%nat -> codec_new (c_mode cx) 2 = Ok (c_codec cx) ->
  wfc (c_n cx) c -> length pt = c_n cx -> Forall (fun x => x = 0 \/ x = 1) pt ->
  near (c_n cx) (phase (c_n cx) s c) (scaled 1 pt) B -> B < 2 ^ 62 ->
  decrypt_decode_rlwe cx s c = Ok pt /\
  decrypt_decode_rlwe cx s (rlwe_not (c_n cx) c) = Ok (upd pt 0 (1 - nth 0 pt 0)).
Proof.
  intros Hn Hcd Hc Lpt Fpt HN HB. change 2 with (2 ^ 1) in Hcd.
  destruct (not_C17 (c_n cx) s c Hn Hc) as (_ & _ & _ & Hw & H). specialize (H pt Lpt Fpt B HN).
  assert (forall l, Forall (fun x => x = 0 \/ x = 1) l -> Forall (fun x => 0 <= x < 2 ^ 1) l) as F01.
  { intros l. apply Forall_impl. intros x [->| ->]; vm_compute; split; congruence. }
  assert (2 * B < 2 ^ (64 - 1)) as HB' by (change (2 ^ (64 - 1)) with (2 * 2 ^ 62); lia).
  split.
  - eapply decrypt_decode_near; try eassumption; try reflexivity; [lia|split; auto].
  - eapply decrypt_decode_near; try eassumption; try reflexivity; [lia|]. split; [rewrite upd_length; exact Lpt|].
    apply F01. apply Forall_forall. intros x Hx. apply In_nth with (d := 0) in Hx as (j & Hj & <-). rewrite upd_length in Hj.
    rewrite nth_upd by lia. rewrite Forall_forall in Fpt.
    destruct (Nat.eqb_spec 0 j); [|apply Fpt, nth_In; exact Hj].
    destruct (Fpt (nth 0 pt 0)) as [->| ->]; [apply nth_In; lia|right; reflexivity|left; reflexivity].
Qed.

(** ** C18, C19 *)
Lemma external_C18 n fft eps g out d s m E S M :
  (0 < n)%nat -> fft_ok n fft (2 ^ (Z.of_nat (g_base g) - 1)) (2 * g_level g) eps ->
  rgsw_encrypts n s g m E -> wfc n out -> wfc n d -> l1 n (tof s) S -> l1 n m M ->
  wfc n (external_product fft g out d) /\
  near n (phase n s (external_product fft g out d)) (padd (phase n s out) (pmul n m (phase n s d)))
         (ep_bound n (g_base g) (g_level g) S M E eps).
Proof.
  intros Hn Hf Hg Ho Hd HS HM. split; [eapply wfc_external_product; try eassumption; apply Hg|].
  apply external_product_phase; assumption.
Qed.
Lemma l1_bit n b : (0 < n)%nat -> b = 0 \/ b = 1 -> l1 n (pcst b) 1.
Proof. intros Hn Hb. unfold l1. etransitivity; [apply (l1_pcst n Hn b)|]. destruct Hb as [->| ->]; vm_compute; congruence. Qed.
Lemma cmux_C19 n fft eps g ct0 ct1 s b E S :
  (0 < n)%nat -> fft_ok n fft (2 ^ (Z.of_nat (g_base g) - 1)) (2 * g_level g) eps ->
  rgsw_encrypts n s g (pcst b) E -> b = 0 \/ b = 1 -> wfc n ct0 -> wfc n ct1 -> l1 n (tof s) S ->
  exists c, cmux fft g ct0 ct1 = Ok c /\ wfc n c /\
    near n (phase n s c) (phase n s (if b =? 1 then ct1 else ct0)) (ep_bound n (g_base g) (g_level g) S 1 E eps).
Proof.
  intros Hn Hf Hg Hb H0 H1 HS.
  destruct (cmux_phase n Hn fft eps g ct0 ct1 s (pcst b) E S 1 Hf Hg H0 H1 HS (l1_bit n b Hn Hb)) as (c & Ec & Wc & Nc).
  exists c. split; [exact Ec|]. split; [exact Wc|]. eapply near_eq_r; [|exact Nc].
  intros k Hk. unfold padd. rewrite (pmul_pcst_exact n Hn) by exact Hk. unfold psub. apply eq_eqm.
  destruct Hb as [->| ->]; cbn [Z.eqb Pos.eqb]; ring.
Qed.
Lemma cmux_decode_C19 cx fft eps g ct0 ct1 s b E S k pt B :
  (0 < c_n cx)%nat -> fft_ok (c_n cx) fft (2 ^ (Z.of_nat (g_base g) - 1)) (2 * g_level g) eps ->
  rgsw_encrypts (c_n cx) s g (pcst b) E -> b = 0 \/ b = 1 -> wfc (c_n cx) ct0 -> wfc (c_n cx) ct1 -> l1 (c_n cx) (tof s) S ->
  1 <= k <= 63 -> codec_new (c_mode cx) (2 ^ k) = Ok (c_codec cx) -> plaintext (c_n cx) k pt ->
  near (c_n cx) (phase (c_n cx) s (if b =? 1 then ct1 else ct0)) (scaled k pt) B ->
  2 * (B + ep_bound (c_n cx) (g_base g) (g_level g) S 1 E eps) < 2 ^ (64 - k) ->
  exists c, cmux fft g ct0 ct1 = Ok c /\ decrypt_decode_rlwe cx s c = Ok pt.
Proof.
  intros Hn Hf Hg Hb H0 H1 HS Hk Hcd Hpt HN HB.
  destruct (cmux_C19 _ fft eps g ct0 ct1 s b E S Hn Hf Hg Hb H0 H1 HS) as (c & Ec & Wc & Nc).
  exists c. split; [exact Ec|]. eapply decrypt_decode_near; try eassumption; [reflexivity|].
  rewrite Z.add_comm. eapply near_trans; eassumption.
Qed.

(** ** C20 *)
Lemma keyswitch_C20 n fft eps base level before after t E c Sb Sa :
  (0 < n)%nat -> wfp n before -> decomp_ok base level -> tape_ok n E t ->
  fft_ok n fft (2 ^ (Z.of_nat base - 1)) (level + 1) eps -> wfc n c -> l1 n (tof before) Sb -> l1 n (tof after) Sa ->
  let key := fill_with_keyswitch_key n base level before after t in
  (exists c', keyswitch_ciphertext fft key c = Ok c' /\ wfc n c' /\
     near n (phase n after c') (phase n before c) (ks_bound n base level Sb Sa E (Z.of_nat level * eps))) /\
  (exists f, keyswitch_fourier key c = Ok f /\ wfc n (frlwe_backward fft n f) /\
     near n (phase n after (frlwe_backward fft n f)) (phase n before c) (ks_bound n base level Sb Sa E eps)).
Proof.
  intros Hn Hb Hd Ht Hf Hc HSb HSa key.
  assert (ksk_switches n (tof before) after key E) as HK by (apply fill_with_keyswitch_key_ok; assumption).
  split.
  - apply (keyswitch_ok n Hn fft eps (tof before) after key E c Sb Sa); try assumption.
    eapply fft_ok_weaken; [| |exact Hf]; [cbn; lia|lia].
  - destruct (keyswitch_fourier_ok n Hn fft eps (tof before) after key E c Sb Sa (rlwe_allocate n) Hf HK Hc HSb HSa (wfc_allocate n)) as (f & Ef & Wf & Nf).
    exists f. split; [exact Ef|]. split; [exact Wf|]. eapply near_eq_r; [|exact Nf].
    rewrite phase_phaseP. intros k Hk. unfold padd. rewrite (phase_allocate n Hn after k Hk). apply eq_eqm. unfold pzero. ring.
Qed.

(** ** C21 *)
Lemma subs_C21 lg n fft eps base level s k t E c S :
  n = (2 ^ lg)%nat -> Nat.odd k = true -> wfp n s -> decomp_ok base level -> tape_ok n E t ->
  fft_ok n fft (2 ^ (Z.of_nat base - 1)) (level + 1) eps -> wfc n c -> l1 n (tof s) S ->
  exists key, fill_with_subs_keyswitch_key n base level s k t = Ok key /\
  (exists c', subs fft key c = Ok c' /\ wfc n c' /\
     near n (phase n s c') (psubst n k (phase n s c)) (ks_bound n base level S S E (Z.of_nat level * eps))) /\
  (exists f, subs_fourier key c = Ok f /\ wfc n (frlwe_backward fft n f) /\
     near n (phase n s (frlwe_backward fft n f)) (psubst n k (phase n s c)) (ks_bound n base level S S E eps)).
Proof.
  intros Hlg Hk Hs Hd Ht Hf Hc HS. assert (0 < n)%nat as Hn by (subst; apply pow2_pos).
  destruct (fill_subs_ok n Hn lg Hlg base level s k t E Hs Hd Ht Hk) as (key & Ek & Es & Eb & El & HK).
  exists key. split; [exact Ek|]. rewrite <- Eb, <- El in Hf |- *. split.
  - eapply subs_ok; try eassumption. eapply fft_ok_weaken; [| |exact Hf]; lia.
  - destruct (subs_fourier_ok n Hn lg Hlg fft eps s key E c S k (rlwe_allocate n) Hf Hk Es HK Hc HS (wfc_allocate n)) as (f & Ef & Wf & Nf).
    exists f. split; [exact Ef|]. split; [exact Wf|]. eapply near_eq_r; [|exact Nf].
    intros j Hj. unfold padd. rewrite (phase_allocate n Hn s j Hj). apply eq_eqm. unfold pzero. ring.
Qed.
Lemma subs_plain_panics fft n base level before after t c :
  subs fft (fill_with_keyswitch_key n base level before after t) c = Panic PAssert /\
  subs_fourier (fill_with_keyswitch_key n base level before after t) c = Panic PAssert.
Proof. unfold subs, subs_fourier. cbn [k_subs fill_with_keyswitch_key]. rewrite eval_x_k_even by reflexivity. split; reflexivity. Qed.
Lemma fill_subs_even n base level s k t : Nat.odd k = false -> fill_with_subs_keyswitch_key n base level s k t = Panic PAssert.
Proof. intros H. unfold fill_with_subs_keyswitch_key. rewrite eval_x_k_even by exact H. reflexivity. Qed.

(** ** C22 *)
Lemma trace_C22 lg cx fft eps s t E c S :
  c_n cx = (2 ^ lg)%nat -> (1 <= lg)%nat -> wfp (c_n cx) s -> decomp_ok (c_ks_base cx) (c_ks_level cx) -> tape_ok (c_n cx) E t ->
  fft_ok (c_n cx) fft (2 ^ (Z.of_nat (c_ks_base cx) - 1)) (c_ks_level cx + 1) eps -> wfc (c_n cx) c -> l1 (c_n cx) (tof s) S ->
  exists m, gen_all_subs_ksk cx s t = Ok m /\ gen_all_subs_ksk_fourier cx s t = Ok m /\
  (exists c', trace1 fft m c = Ok c' /\ wfc (c_n cx) c' /\
     near (c_n cx) (phase (c_n cx) s c') (pcst (Z.of_nat (c_n cx) * phase (c_n cx) s c 0%nat))
       ((Z.of_nat (c_n cx) - 1) * ks_bound (c_n cx) (c_ks_base cx) (c_ks_level cx) S S E (Z.of_nat (c_ks_level cx) * eps))) /\
  (exists c', trace1_fourier fft m c = Ok c' /\ wfc (c_n cx) c' /\
     near (c_n cx) (phase (c_n cx) s c') (pcst (Z.of_nat (c_n cx) * phase (c_n cx) s c 0%nat))
       ((Z.of_nat (c_n cx) - 1) * ks_bound (c_n cx) (c_ks_base cx) (c_ks_level cx) S S E eps)).
Proof.
  intros Hlg Hlg1 Hs Hd Ht Hf Hc HS. assert (0 < c_n cx)%nat as Hn by (rewrite Hlg; apply pow2_pos).
  destruct (gen_all_subs_ksk_ok (c_n cx) Hn lg Hlg cx s t E eq_refl Hs Hd Ht) as (m & Em & Hm).
  exists m. split; [exact Em|]. split; [exact Em|]. split.
  - eapply trace1_ok; try eassumption. eapply fft_ok_weaken; [| |exact Hf]; lia.
  - eapply trace1_fourier_ok; eassumption.
Qed.

(** ** C25 *)
Lemma rgsw_ks_C25 n fft eps base level before after t E out c Sb Sa :
  (0 < n)%nat -> wfp n before -> decomp_ok base level -> tape_ok n E t ->
  fft_ok n fft (2 ^ (Z.of_nat base - 1)) (2 * level) eps -> wfc n out -> wfc n c -> l1 n (tof before) Sb -> l1 n (tof after) Sa ->
  exists g, from_keyswitch_key (fill_with_keyswitch_key n base level before after t) = Ok g /\
    wfc n (rgsw_keyswitch_ciphertext fft g out c) /\
    near n (phase n after (rgsw_keyswitch_ciphertext fft g out c)) (padd (phase n after out) (phase n before c))
      (Z.of_nat level * (2 * (Z.of_nat n * 2 ^ (Z.of_nat base - 1) * E))
       + (1 + Sb) * 2 ^ (63 - Z.of_nat (base * level)) + (1 + Sa) * eps).
Proof.
  intros Hn Hb Hd Ht Hf Ho Hc HSb HSa.
  destruct (from_keyswitch_key_ok n Hn (tof before) after (fill_with_keyswitch_key n base level before after t) E) as (g & Eg & Gb & Gl & Wg & Rg).
  { apply fill_with_keyswitch_key_ok; assumption. }
  cbn [fill_with_keyswitch_key k_base k_level] in Gb, Gl.
  exists g. split; [exact Eg|]. unfold rgsw_keyswitch_ciphertext. rewrite <- Gb, <- Gl in *.
  split; [eapply wfc_external_product; eassumption|].
  eapply near_eq_r; [|apply (external_product_general n Hn fft eps g out c after (tof before) (pcst 1) E Sa Sb 1); try assumption].
  - intros k Hk. unfold padd, psub, phase at 2, psub. rewrite (pmul_pcst_exact n Hn) by exact Hk.
    rewrite (pmul_comm n (tof (mask c)) (tof before) k Hk). apply eq_eqm. ring.
  - apply l1_bit; auto.
Qed.

(** ** C29 *)
Lemma noise_encoded_C29 cx s c k pt : (0 < c_n cx)%nat -> 1 <= k <= 63 -> codec_new (c_mode cx) (2 ^ k) = Ok (c_codec cx) ->
  wfc (c_n cx) c -> plaintext (c_n cx) k pt ->
  (c_mode cx = Wrapping \/ forall i, (i < c_n cx)%nat -> nrm (phase (c_n cx) s c i - scaled k pt i) < 2 ^ 63) ->
  exists v, compute_noise_encoded cx s c pt = Ok v /\ 0 <= v /\
    (forall i, (i < c_n cx)%nat -> nrm (phase (c_n cx) s c i - scaled k pt i) < 2 ^ 63 -> nrm (phase (c_n cx) s c i - scaled k pt i) <= v) /\
    (v = 0 \/ exists i, (i < c_n cx)%nat /\ nrm (phase (c_n cx) s c i - scaled k pt i) = v).
Proof.
  intros Hn Hk Hcd Hc Hpt H. unfold compute_noise_encoded.
  destruct (encode_scaled _ _ _ _ pt Hk Hcd Hpt) as (e & Ee & We & Qe). rewrite Ee. cbn [bind].
  destruct (compute_noise_ok (c_n cx) Hn (c_mode cx) s c e Hc We) as (v & Ev & V0 & V1 & V2).
  { destruct H as [?|H]; [auto|right]. intros i Hi. rewrite Qe. auto. }
  exists v. split; [exact Ev|]. split; [exact V0|]. split.
  - intros i Hi. rewrite <- Qe. auto.
  - destruct V2 as [?|(i & Hi & E)]; [auto|right]. exists i. rewrite <- Qe. auto.
Qed.
