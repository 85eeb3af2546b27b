(** * The unit tests pass: comparisons, NOT, external product, selection, LWE, demultiplexing. *)
From Verif Require Import MBase MUtils MCodec MPoly MRlwe MLwe MTree MEncTree MCtx MMain MTests.
From Verif Require Import SpecRing SpecLwe SpecEnc SpecOram.
From Verif Require Import PolyRing PfCodec PfPoly PfNear PfRlwe PfRlwe2 PfRlwe3 PfRlwe5 PfEnc PfEnc2 PfEnc3 PfEnc4 LRlwe LKeys LOram PRlwe PKeys PEnc PLwe PDefault PBench PfTests.
Local Open Scope Z_scope.

(** A draw of LWE encryption randomness with noise at most [E]. *)
Definition lwe_draw_ok (n : nat) (E : Z) (d : ldraw) : Prop :=
  length (ld_mask d) = n /\ Forall is_word (ld_mask d) /\ is_word (ld_noise d) /\ nrm (ld_noise d) <= E.

Section Tests.
Variables (cx : ctx) (lg : nat) (k : Z).
Hypothesis Hp : params_ok cx lg k.
Notation n := (c_n cx).

Lemma half_n : (0 < n / 2)%nat /\ (n / 2 + n / 2 = n)%nat.
Proof.
  destruct Hp as (En & Hlg & _). rewrite En. destruct lg as [|l]; [lia|]. replace (2 ^ Datatypes.S l)%nat with (2 ^ l * 2)%nat by (cbn [Nat.pow]; lia). rewrite Nat.div_mul by lia.
  pose proof (Nat.pow_nonzero 2 l). lia.
Qed.
Lemma near_monomial s E d m : (m < n)%nat -> draw_ok n E d ->
  exists ct, encode_encrypt_rlwe cx s (upd (poly_zero n) m 1) d = Ok ct /\ wfc n ct /\ near n (phase n s ct) (pmul n (pcst (2 ^ (64 - k))) (mono n m)) E.
Proof.
  intros Hm Hd. pose proof (params_n cx lg k Hp) as Hn.
  destruct (encode_fresh cx lg k Hp s E _ d (unit_plaintext cx lg k Hp m Hm) Hd) as (ct & Ec & Wc & Nc). exists ct. split; [exact Ec|]. split; [exact Wc|].
  eapply near_eq_r; [|exact Nc]. intros i Hi. rewrite (pmul_pcst_exact n Hn) by exact Hi. unfold scaled. rewrite nth_upd_zero by assumption.
  rewrite (mono_small n Hn) by lia. rewrite (Nat.eqb_sym i m). apply eq_eqm. destruct (m =? i)%nat; ring.
Qed.
Lemma test_less_eq_ok fft eps s t1 t2 S E : fft_for cx fft eps -> l1 n (tof s) S -> tape_ok n E t1 -> tape_ok n E t2 ->
  2 * (Z.of_nat n * E + (1 + S) * eps) < 2 ^ (64 - k) -> test_less_eq fft cx s t1 t2 = Ok tt.
Proof.
  intros Hf HS H1 H2 HB. pose proof (params_n cx lg k Hp) as Hn. destruct half_n as [Hm0 Hm2]. pose proof (two_k cx lg k Hp) as H2k.
  unfold test_less_eq. set (m := (n / 2)%nat) in *. rewrite set_zero_ok by lia. cbn [bind].
  assert (forall d j x, draw_ok n E d -> (j < n)%nat -> x = (if (m <=? j)%nat then 1 else 0) ->
    (ct <- encode_encrypt_rlwe cx s (upd (poly_zero n) m 1) d ;; ct' <- less_eq_than n fft ct j ;; out <- decrypt_decode_rlwe cx s ct' ;; y <- index out 0 ;; assert_eq_z y x) = Ok tt) as G.
  { intros d j x Hd Hj ->. destruct (near_monomial s E d m ltac:(lia) Hd) as (ct & -> & W & N). cbn [bind].
    destruct (less_eq_than_ok n Hn fft eps ct s S E (2 ^ (64 - k)) m j) as (c' & -> & W' & N'); try assumption; try lia; [apply (fft_one cx lg k Hp), Hf|]. cbn [bind].
    assert (0 <= E) as HE by (eapply near_nonneg; [exact Hn|exact N]).
    destruct (decode_constant cx lg k Hp s c' (if (m <=? j)%nat then 1 else 0) (Z.of_nat n * E + (1 + S) * eps)) as (out & -> & Eo).
    - exact W'.
    - destruct (m <=? j)%nat; lia.
    - transitivity ((Z.of_nat j + 1) * E + (1 + S) * eps); [|nia]. destruct (m <=? j)%nat; [rewrite Z.mul_1_l|rewrite Z.mul_0_l]; exact N'.
    - exact HB.
    - cbn [bind]. rewrite Eo. cbn [bind]. apply assert_eq_z_refl. }
  rewrite for_each_ok; [|intros i Hi; apply in_seq in Hi; apply G; [apply H1|lia|destruct (Nat.leb_spec m (m + i)); [reflexivity|lia]]]. cbn [bind].
  apply for_each_ok. intros i Hi. apply in_seq in Hi. apply G; [apply H2|lia|]. destruct (Nat.leb_spec m (m - i)); [lia|reflexivity].
Qed.
Lemma test_eq_to_ok fft eps s t S E : fft_for cx fft eps -> l1 n (tof s) S -> tape_ok n E t ->
  2 * (E + (1 + S) * eps) < 2 ^ (64 - k) -> test_eq_to fft cx s t = Ok tt.
Proof.
  intros Hf HS Ht HB. pose proof (params_n cx lg k Hp) as Hn. destruct half_n as [Hm0 Hm2]. pose proof (two_k cx lg k Hp) as H2k.
  unfold test_eq_to. set (m := (n / 2)%nat) in *. rewrite set_zero_ok by lia. cbn [bind]. apply for_each_ok. intros i Hi. apply in_seq in Hi.
  destruct (near_monomial s E (t i) m ltac:(lia) (Ht i)) as (ct & -> & W & N). cbn [bind].
  destruct (eq_to_ok n Hn fft eps ct s S E (2 ^ (64 - k)) m i) as (c' & -> & W' & N'); try assumption; try lia; [apply (fft_one cx lg k Hp), Hf|]. cbn [bind].
  destruct (decode_constant cx lg k Hp s c' (if (i =? m)%nat then 1 else 0) (E + (1 + S) * eps)) as (out & -> & Eo).
  - exact W'.
  - destruct (i =? m)%nat; lia.
  - rewrite (Nat.eqb_sym i m). destruct (m =? i)%nat; [rewrite Z.mul_1_l|rewrite Z.mul_0_l]; exact N'.
  - exact HB.
  - cbn [bind]. rewrite Eo. cbn [bind]. apply assert_eq_z_refl.
Qed.

(** ** NOT *)
Lemma test_not_ok s d E : k = 1 -> draw_ok n E d -> E < 2 ^ 62 -> test_not cx s d = Ok tt /\ test_not_in_place cx s d = Ok tt.
Proof.
  intros -> Hd HE. pose proof (params_n cx lg 1 Hp) as Hn. pose proof Hp as (_ & _ & _ & _ & _ & _ & _ & _ & Hcd).
  destruct (encode_fresh cx lg 1 Hp s E _ d (unit_plaintext cx lg 1 Hp 0 Hn) Hd) as (c & Ec & W & N).
  destruct (not_C17 n s c Hn W) as (Q1 & Q2 & Q3 & _).
  destruct (not_decode_C17 cx s c (upd (poly_zero n) 0 1) E Hn Hcd W (upd_zero_len _ _ _)) as [D1 D2]; auto; [apply upd_zero_all; auto|].
  assert (upd (upd (poly_zero n) 0 1) 0 (1 - nth 0 (upd (poly_zero n) 0 1) 0) = gen_zero_pt cx) as Z0.
  { unfold gen_zero_pt, plaintext_count, poly_zero. destruct n as [|j]; [lia|]. reflexivity. }
  rewrite Z0 in D2.
  split.
  - unfold test_not. rewrite (gen_unit_ok cx lg 1 Hp). cbn [bind]. rewrite Ec. cbn [bind]. rewrite D2. cbn [bind]. rewrite assert_eq_refl. cbn [bind]. rewrite Q3, D1. cbn [bind]. apply assert_eq_refl.
  - unfold test_not_in_place. rewrite (gen_unit_ok cx lg 1 Hp). cbn [bind]. rewrite Ec. cbn [bind]. cbv zeta. rewrite <- Q1 at 1. rewrite D2. cbn [bind]. rewrite assert_eq_refl. cbn [bind].
    rewrite Q2, D1. cbn [bind]. apply assert_eq_refl.
Qed.

(** ** External product and selection *)
Lemma test_external_product_ok fft eps s pt t0 t1 d S E :
  fft_for cx fft eps -> binary_key n s -> l1 n (tof s) S -> plaintext n k pt -> tape_ok n E t0 -> tape_ok n E t1 -> draw_ok n E d ->
  2 * (ep_bound n (c_base cx) (c_level cx) S 1 E eps + E) < 2 ^ (64 - k) -> test_external_product fft cx s pt t0 t1 d = Ok tt.
Proof.
  intros Hf Hs HS Hpt H0 H1 Hd HB. pose proof (params_n cx lg k Hp) as Hn. pose proof Hp as (_ & _ & _ & Hdec & _).
  destruct (encode_fresh cx lg k Hp s E pt d Hpt Hd) as (c & Ec & W & N).
  assert (0 <= E) as HE by (eapply near_nonneg; [exact Hn|exact N]).
  unfold test_external_product. cbv zeta. rewrite Ec. cbn [bind].
  assert (forall b t, b = 0 \/ b = 1 -> tape_ok n E t ->
     decrypt_decode_rlwe cx s (external_product fft (encrypt_constant_rgsw n s (c_base cx) (c_level cx) b t) (rlwe_allocate n) c) = Ok (if b =? 1 then pt else poly_zero n)) as G.
  { intros b t Hb Ht. set (g := encrypt_constant_rgsw n s (c_base cx) (c_level cx) b t).
    destruct (external_C18 n fft eps g (rlwe_allocate n) c s (pcst b) E S 1 Hn) as [Wo No]; auto.
    - apply (fft_base cx fft eps Hf).
    - apply encrypt_constant_rgsw_ok; auto. apply binary_key_wf, Hs.
    - apply wfc_allocate.
    - apply l1_bit; assumption.
    - eapply (holds_decrypts cx lg k s); [exact Hp| |exact HB]. split; [exact Wo|]. split; [destruct (b =? 1); [exact Hpt|apply (zero_plaintext cx lg k Hp)]|].
      cbn [g_base g_level g encrypt_constant_rgsw] in No. eapply near_trans; [exact Hn|exact No|]. eapply near_eq_l; [apply (phase_alloc_add cx lg k Hp)|]. eapply near_eq_l; [apply pmul_unit_bit, Hn|].
      destruct Hb as [-> | ->].
      + change (0 =? 1) with false. cbv iota. apply near_eq; [exact HE|]. intros i Hi. unfold scaled, poly_zero. rewrite nth_repeat. apply eq_eqm. lia.
      + change (1 =? 1) with true. cbv iota. eapply near_eq_l; [|exact N]. intros i _. apply eq_eqm. lia. }
  rewrite (G 0 t0) by auto. cbn [bind]. rewrite assert_eq_refl. cbn [bind]. rewrite (G 1 t1) by auto. cbn [bind]. apply assert_eq_refl.
Qed.
Lemma test_cmux_ok fft eps s pt0 pt1 d0 d1 t0 t1 S E :
  fft_for cx fft eps -> binary_key n s -> l1 n (tof s) S -> ternary_plaintext n pt0 -> ternary_plaintext n pt1 ->
  draw_ok n E d0 -> draw_ok n E d1 -> tape_ok n E t0 -> tape_ok n E t1 ->
  ep_bound n (c_base cx) (c_level cx) S 1 E eps + E <= ternary_window -> test_cmux fft cx s pt0 pt1 d0 d1 t0 t1 = Ok tt.
Proof.
  intros Hf Hs HS Hp0 Hp1 Hd0 Hd1 H0 H1 HB. pose proof (params_n cx lg k Hp) as Hn. pose proof Hp as (_ & _ & _ & Hdec & _).
  destruct (ternary_encrypt_near cx lg k Hp s pt0 d0 E Hp0 Hd0) as (c0 & E0 & W0 & N0). destruct (ternary_encrypt_near cx lg k Hp s pt1 d1 E Hp1 Hd1) as (c1 & E1 & W1 & N1).
  unfold test_cmux. rewrite E0. cbn [bind]. rewrite E1. cbn [bind].
  assert (forall b t, b = 0 \/ b = 1 -> tape_ok n E t -> exists c, cmux fft (encrypt_constant_rgsw n s (c_base cx) (c_level cx) b t) c0 c1 = Ok c /\
     ternary_decrypt_rlwe n s c = if b =? 1 then pt1 else pt0) as G.
  { intros b t Hb Ht. destruct (cmux_C19 n fft eps (encrypt_constant_rgsw n s (c_base cx) (c_level cx) b t) c0 c1 s b E S Hn) as (c & Ec & Wc & Nc); auto.
    - apply (fft_base cx fft eps Hf).
    - apply encrypt_constant_rgsw_ok; auto. apply binary_key_wf, Hs.
    - exists c. split; [exact Ec|]. cbn [g_base g_level encrypt_constant_rgsw] in Nc.
      destruct (b =? 1); (eapply (ternary_decrypt_near cx lg k Hp); [exact Wc|assumption| |exact HB]; eapply near_trans; [exact Hn|exact Nc|assumption]). }
  destruct (G 0 t0) as (c & -> & D0); auto. cbn [bind]. rewrite D0. change (0 =? 1) with false. cbv iota. rewrite assert_eq_refl. cbn [bind].
  destruct (G 1 t1) as (c' & -> & D1); auto. cbn [bind]. rewrite D1. apply assert_eq_refl.
Qed.

(** ** LWE *)
Lemma lwe_fresh s x d E : 0 <= x < 2 ^ k -> lwe_draw_ok n E d -> 2 * E < 2 ^ (64 - k) -> exists c, encode_encrypt_lwe cx s x d = Ok c /\ decode_decrypt_lwe cx s c = Ok x.
Proof.
  intros Hx (_ & _ & Hw & HE) HB. pose proof Hp as (_ & _ & _ & _ & _ & _ & _ & Hk & Hcd). apply (C26_lwe_roundtrip cx k s x d Hk Hcd Hx Hw).
  pose proof (nrm_to_signed _ Hw). lia.
Qed.
Lemma test_lwe_ok s pts ds E : (forall i, 0 <= pts i < 2 ^ k) -> (forall i, lwe_draw_ok n E (ds i)) -> 2 * E < 2 ^ (64 - k) -> test_lwe cx s pts ds = Ok tt.
Proof.
  intros Hpt Hd HE. apply for_each_ok. intros i _. destruct (lwe_fresh s (pts i) (ds i) E (Hpt i) (Hd i) HE) as (c & -> & D). cbn [bind]. rewrite D. cbn [bind]. apply assert_eq_z_refl.
Qed.
Lemma test_lwe_fill_ok s x d E : 0 <= x < 2 ^ k -> lwe_draw_ok n E d -> 2 * E < 2 ^ (64 - k) -> test_lwe_fill cx s x d = Ok tt.
Proof.
  intros Hx Hd HE. unfold test_lwe_fill. destruct (lwe_fresh s x d E Hx Hd HE) as (c & -> & D). cbn [bind]. unfold lwe_fill_with_tensor. cbv zeta. rewrite D. cbn [bind]. apply assert_eq_z_refl.
Qed.
Lemma test_lwe_to_rlwe_ok s x d t E : binary_key n s -> 0 <= x < 2 ^ k -> lwe_draw_ok n E d -> tape_ok n E t ->
  2 * (conv_bound n (c_ks_base cx) (c_ks_level cx) (Z.of_nat n) E + E) < 2 ^ (64 - k) -> test_lwe_to_rlwe cx s x d t = Ok tt.
Proof.
  intros Hs Hx (Lm & Fm & Hw & HE) Ht HB. pose proof (params_n cx lg k Hp) as Hn. pose proof Hp as (_ & _ & _ & _ & Hdk & _ & _ & Hk & Hcd).
  unfold test_lwe_to_rlwe, encode_encrypt_lwe. cbv zeta. rewrite (codec_new_inv _ _ _ Hk Hcd), encode_ok by assumption. cbn [bind].
  assert (is_word (x * 2 ^ (64 - k))) as Hxw.
  { unfold is_word. assert (0 < 2 ^ (64 - k)) by (apply Z.pow_pos_nonneg; lia). assert (2 ^ k * 2 ^ (64 - k) = q) by (rewrite <- Z.pow_add_r by lia; unfold q; f_equal; lia). nia. }
  set (l := encrypt_lwe s (x * 2 ^ (64 - k)) d).
  destruct (C28_conv_lwe_to_rlwe cx s t E l Hn Hs Hdk Ht) as (ksks & Ek & W & N); auto; [apply wrap_word|].
  rewrite Ek. cbn [bind].
  destruct (decode_constant cx lg k Hp (to_rlwe_sk s) (conv_lwe_to_rlwe cx ksks l) x (conv_bound n (c_ks_base cx) (c_ks_level cx) (Z.of_nat n) E + E)) as (out & Eo & I0); auto.
  - specialize (N 0%nat Hn). unfold psub, pcst in N. unfold l in N at 2. rewrite (C26_decrypt_is_message_plus_noise s _ d Hxw) in N.
    set (ph := phase n (to_rlwe_sk s) (conv_lwe_to_rlwe cx ksks l) 0%nat) in *.
    replace (ph - x * 2 ^ (64 - k)) with ((ph - (x * 2 ^ (64 - k) + ld_noise d) mod 2 ^ 64) + ((x * 2 ^ (64 - k) + ld_noise d) mod 2 ^ 64 - x * 2 ^ (64 - k))) by lia.
    etransitivity; [apply nrm_add|]. apply Z.add_le_mono; [exact N|]. etransitivity; [|exact HE]. unfold nrm. fold q. rewrite Zminus_mod_idemp_l.
    replace (x * 2 ^ (64 - k) + ld_noise d - x * 2 ^ (64 - k)) with (ld_noise d) by lia. lia.
  - rewrite Eo. cbn [bind]. rewrite I0. cbn [bind]. apply assert_eq_z_refl.
Qed.
Lemma test_sample_extract_ok s pt d E : length s = n -> plaintext n k pt -> draw_ok n E d -> 2 * E < 2 ^ (64 - k) -> test_sample_extract cx s pt d = Ok tt.
Proof.
  intros Ls Hpt Hd HE. pose proof (params_n cx lg k Hp) as Hn. destruct (encode_fresh cx lg k Hp (to_rlwe_sk s) E pt d Hpt Hd) as (c & Ec & W & N).
  pose proof (holds_decrypts cx lg k (to_rlwe_sk s) E c pt Hp (conj W (conj Hpt N)) HE) as D.
  destruct (C27_sample_extraction n Hn c s 0 W Ls Hn) as (l & El & _ & _ & _ & Dl).
  unfold test_sample_extract. cbv zeta. rewrite Ec. cbn [bind]. unfold const_sample_extract. rewrite El. cbn [bind].
  destruct (decode_constant cx lg k Hp (to_rlwe_sk s) c (nth 0 pt 0) E W) as (out & Eo & I0); auto.
  { destruct Hpt as [L F]. rewrite Forall_forall in F. apply F, nth_In. lia. }
  { apply (N 0%nat Hn). }
  rewrite D in Eo. injection Eo as <-. rewrite I0. unfold decode_decrypt_lwe. rewrite Dl.
  unfold decrypt_decode_rlwe, poly_decode in D. pose proof (decrypt_wf n (to_rlwe_sk s) c W) as Wd. revert D Wd. generalize (decrypt_rlwe n (to_rlwe_sk s) c). intros p D [Lp _].
  destruct p as [|y p]; [cbn in Lp; lia|]. cbn [mapM] in D. destruct (decode (c_mode cx) (c_codec cx) y) as [v|] eqn:Ev; cbn [bind] in D; [|discriminate].
  destruct (mapM _ p) as [vs|]; cbn [bind] in D; [|discriminate]. injection D as <-. cbn [nth]. rewrite Ev. cbn [bind]. unfold index in I0. cbn in I0. apply assert_eq_z_refl.
Qed.
End Tests.

Section Demux.
Variables (cx : ctx) (lg : nat) (k : Z).
Hypothesis Hp : params_ok cx lg k.
Notation n := (c_n cx).
Variables (fft : fftT) (eps : Z) (s : poly) (S E : Z).
Hypothesis Hf : fft_for cx fft eps.
Hypothesis Hs : binary_key (c_n cx) s.
Hypothesis HS : l1 (c_n cx) (tof s) S.
Notation ep := (ep_bound (c_n cx) (c_base cx) (c_level cx) S 1 E eps).

Lemma slot_decrypts c (b : bool) B : wfc n c -> near n (phase n s c) (if b then pcst (2 ^ (64 - k)) else pzero) B -> 2 * B < 2 ^ (64 - k) ->
  decrypt_decode_rlwe cx s c = Ok (if b then upd (poly_zero n) 0 1 else poly_zero n).
Proof.
  intros W N HB. pose proof (params_n cx lg k Hp) as Hn. eapply (holds_decrypts cx lg k); [exact Hp| |exact HB]. split; [exact W|].
  destruct b; (split; [first [apply (unit_plaintext cx lg k Hp); exact Hn | apply (zero_plaintext cx lg k Hp)]|]); (eapply near_eq_r; [|exact N]); [apply (scaled_unit cx lg k Hp)|apply scaled_zero].
Qed.
Lemma test_demux_block_ok b t0 t1 : tape_ok n E t0 -> tape_ok n E t1 -> 2 * (2 * ep) < 2 ^ (64 - k) -> test_demux_block fft cx s b t0 t1 = Ok tt.
Proof.
  intros H0 H1 HB. pose proof (params_n cx lg k Hp) as Hn. pose proof Hp as (_ & _ & _ & Hdec & _ & _ & _ & Hk & Hcd).
  unfold test_demux_block. cbv zeta.
  assert (forall t, tape_ok n E t -> const_ct n s (c_base cx) (c_level cx) E (b2z b) (encrypt_constant_rgsw n s (c_base cx) (c_level cx) (if b then 1 else 0) t)) as Hc.
  { intros t Ht. split; [|split; reflexivity]. change (if b then 1 else 0) with (b2z b). apply encrypt_constant_rgsw_ok; auto. apply binary_key_wf, Hs. }
  destruct (C37_demux_unit_vector cx fft eps (c_base cx) (c_level cx) s S E
     [encrypt_constant_rgsw n s (c_base cx) (c_level cx) (if b then 1 else 0) t0; encrypt_constant_rgsw n s (c_base cx) (c_level cx) (if b then 1 else 0) t1] [b; b] k Hn Hk Hcd (fft_base cx fft eps Hf) HS)
    as (outs & Ed & Lo & Ho); [constructor; [apply Hc, H0|constructor; [apply Hc, H1|constructor]]|discriminate|].
  cbn [length] in Lo, Ho. change (2 ^ 2)%nat with 4%nat in Lo. change (Z.of_nat 2) with 2 in Ho.
  assert (forall j, (j < 4)%nat -> exists c, index outs j = Ok c /\ decrypt_decode_rlwe cx s c = Ok (if (j =? msb_value (map negb [b; b]))%nat then upd (poly_zero n) 0 1 else poly_zero n)) as G.
  { intros j Hj. assert (nth_error outs j <> None) as Hne by (apply nth_error_Some; lia). destruct (nth_error outs j) as [c|] eqn:Ej; [|congruence].
    destruct (Ho j c Ej) as [Wc Nc]. exists c. split; [unfold index; rewrite Ej; reflexivity|]. eapply slot_decrypts; eassumption. }
  rewrite Ed. cbn [bind]. rewrite Lo. change (4 =? 4)%nat with true. cbn [rassert bind].
  destruct (G 0%nat ltac:(lia)) as (c0 & -> & D0). destruct (G 1%nat ltac:(lia)) as (c1 & -> & D1). destruct (G 2%nat ltac:(lia)) as (c2 & -> & D2). destruct (G 3%nat ltac:(lia)) as (c3 & -> & D3).
  cbn [bind]. rewrite D0. cbn [bind]. rewrite D1. cbn [bind]. rewrite D2. cbn [bind]. rewrite D3. cbn [bind]. rewrite (gen_unit_ok cx lg k Hp). cbn [bind].
  unfold gen_zero_pt, plaintext_count. destruct b; cbn; rewrite !assert_eq_refl; cbn [bind]; rewrite ?assert_eq_refl; reflexivity.
Qed.
Lemma test_demux_ok t0 t1 t2 t3 : tape_ok n E t0 -> tape_ok n E t1 -> tape_ok n E t2 -> tape_ok n E t3 -> 2 * (2 * ep) < 2 ^ (64 - k) -> test_demux fft cx s t0 t1 t2 t3 = Ok tt.
Proof. intros. unfold test_demux. rewrite test_demux_block_ok by assumption. cbn [bind]. apply test_demux_block_ok; assumption. Qed.
Lemma test_demux_long_ok t : (forall i, tape_ok n E (t i)) -> 2 * (4 * ep) < 2 ^ (64 - k) -> test_demux_long fft cx s t = Ok tt.
Proof.
  intros Ht HB. pose proof (params_n cx lg k Hp) as Hn. pose proof Hp as (_ & _ & _ & Hdec & _ & _ & _ & Hk & Hcd).
  destruct (trivial_one_ok cx k Hk Hcd Hn) as (one & E1 & W1 & P1). specialize (P1 s).
  unfold test_demux_long. cbv zeta. apply for_each_ok. intros i Hi. apply in_seq in Hi.
  destruct (C38_index_selects_slot cx fft eps s S E i 4 (t i) one Hn) as (gs & outs & Eg & _ & Ed & Lo & Ho); auto; try lia; [apply binary_key_wf, Hs|apply fft_base, Hf|].
  rewrite Eg. cbn [bind]. unfold demux. rewrite E1. cbn [bind]. rewrite Ed. cbn [bind]. rewrite Lo, Nat.eqb_refl. cbn [rassert bind]. rewrite (gen_unit_ok cx lg k Hp). cbn [bind].
  apply for_each_ok. intros j Hj. apply in_seq in Hj. assert (nth_error outs j <> None) as Hne by (apply nth_error_Some; lia). destruct (nth_error outs j) as [c|] eqn:Ej; [|congruence].
  destruct (Ho j c Ej) as [Wc Nc]. unfold index. rewrite Ej. cbn [bind].
  rewrite (slot_decrypts c (j =? i)%nat (4 * ep)); [cbn [bind]; unfold gen_zero_pt, plaintext_count; apply assert_eq_refl|exact Wc| |exact HB].
  destruct (j =? i)%nat; [|exact Nc]. eapply near_trans'; [exact Hn|exact Nc|exact P1|]. change (Z.of_nat 4) with 4. lia.
Qed.
End Demux.
