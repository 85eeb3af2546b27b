(** * Proofs about the other unit tests of MTests2: expansion, private evaluation, codec, hashing, trees. *)
From Coq Require Import Permutation String.
From Verif Require Import MBase MUtils MCodec MPoly MRlwe MLwe MHash MTree MEncTree MCtx MJson MSerde MSched MOram MMain MTests MTests2.
From Verif Require Import SpecRing SpecLwe SpecEnc SpecOram SpecTree.
From Verif Require Import PolyRing PfCodec PfPoly PfNear PfRlwe PfRlwe2 PfRlwe3 PfRlwe5 PfLwe PfEnc PfEnc2 PfEnc3 PfEnc4 PfHash LRlwe LKeys LOram PRlwe PKeys PEnc PLwe PDefault PBench PfTests PfTests2 PfTests4.
Local Open Scope Z_scope.
Local Open Scope list_scope.
Local Notation length := List.length.

Section Expand.
Variables (cx : ctx) (lg : nat) (k : Z).
Hypothesis Hp : params_ok cx lg k.
Notation n := (c_n cx).

(** An RGSW ciphertext of a bit, with row noise [R], times a ciphertext of [pt]. *)
Lemma bit_product fft eps s S R E g b pt c :
  fft_for cx fft eps -> l1 n (tof s) S -> b = 0 \/ b = 1 -> g_base g = c_base cx -> g_level g = c_level cx -> rgsw_encrypts n s g (pcst b) R ->
  plaintext n k pt -> wfc n c -> near n (phase n s c) (scaled k pt) E ->
  2 * (ep_bound n (c_base cx) (c_level cx) S 1 R eps + E) < 2 ^ (64 - k) ->
  decrypt_decode_rlwe cx s (external_product fft g (rlwe_allocate n) c) = Ok (if b =? 1 then pt else poly_zero n).
Proof.
  intros Hf HS Hb Gb Gl Rg Hpt W N HB. pose proof (params_n cx lg k Hp) as Hn.
  assert (0 <= E) as HE by (eapply near_nonneg; [exact Hn|exact N]).
  destruct (external_C18 n fft eps g (rlwe_allocate n) c s (pcst b) R S 1 Hn) as [Wo No]; auto.
  - rewrite Gb, Gl. apply (fft_base cx fft eps Hf).
  - apply wfc_allocate.
  - apply l1_bit; assumption.
  - eapply (holds_decrypts cx lg k s); [exact Hp| |exact HB]. split; [exact Wo|]. split; [destruct (b =? 1); [exact Hpt|apply (zero_plaintext cx lg k Hp)]|].
    rewrite Gb, Gl in No. eapply near_trans; [exact Hn|exact No|]. eapply near_eq_l; [apply (phase_alloc_add cx lg k Hp)|]. eapply near_eq_l; [apply pmul_unit_bit, Hn|].
    destruct Hb as [-> | ->].
    + change (0 =? 1) with false. cbv iota. apply near_eq; [exact HE|]. intros i Hi. unfold scaled, poly_zero. rewrite nth_repeat. apply eq_eqm. lia.
    + change (1 =? 1) with true. cbv iota. eapply near_eq_l; [|exact N]. intros i _. apply eq_eqm. lia.
Qed.

Definition expand_test_noise (S E eps : Z) : Z :=
  ep_bound n (c_base cx) (c_level cx) S 1
    (expand_bound n S E (ks_bound n (c_ks_base cx) (c_ks_level cx) S S E (Z.of_nat (c_ks_level cx) * eps)) (ep_bound n (c_base cx) (c_negs_level cx) S S E eps)) eps + E.

Lemma test_expand_ok fft eps s pt tn tk d tern1 tern0 t1 t0 S E :
  fft_for cx fft eps -> binary_key n s -> l1 n (tof s) S -> plaintext n k pt -> tape_ok n E tn -> tape_ok n E tk -> draw_ok n E d ->
  (forall i, length (tern1 i) = n) -> (forall i, length (tern0 i) = n) -> tape_ok n E t1 -> tape_ok n E t0 ->
  2 * expand_test_noise S E eps < 2 ^ (64 - k) -> test_expand fft cx s pt tn tk d tern1 tern0 t1 t0 = Ok tt.
Proof.
  intros Hf Hs HS Hpt Htn Htk Hd Hte1 Hte0 Ht1 Ht0 HB. pose proof (params_n cx lg k Hp) as Hn. pose proof Hp as (Hlg & Hlg1 & Hbl & Hdec & Hdk & Hdn & Hnb & Hk & Hc).
  pose proof (binary_key_wf _ s Hs) as Ws.
  destruct (gen_all_subs_ksk_ok n Hn lg Hlg cx s tk E eq_refl Ws Hdk Htk) as (m & Em & Hm).
  destruct (neg_gsw_encrypts n Hn cx s tn E eq_refl Hs Hnb Hdn Htn) as (g & Eg & Gb & Gl & Rg).
  destruct (encode_fresh cx lg k Hp s E pt d Hpt Hd) as (c & Ec & W & N).
  assert (forall b tern t, b = 0 \/ b = 1 -> (forall i, length (tern i) = n) -> tape_ok n E t ->
    expand_block fft cx s g m c b (if b =? 1 then pt else poly_zero n) tern t = Ok tt) as Hblock.
  { intros b tern t Hb Hte Ht. unfold expand_block.
    destruct (C24_inputs lg cx s b tern t E Hlg Hb ltac:(apply Hdec) Hbl Ht Hte) as (cs & Ecs & Hin). rewrite Ecs. cbn [bind].
    destruct (expand_ok n Hn lg Hlg fft eps cx m s cs g b E E E S) as (g' & Eg' & Gb' & Gl' & R'); try assumption; try reflexivity.
    { rewrite Gb, Gl. apply (fft_negs cx fft eps Hf). }
    { eapply fft_ok_weaken; [| |exact (fft_ks cx fft eps Hf)]; [apply Z.le_refl|lia]. }
    rewrite Eg'. cbn [bind]. rewrite Gb, Gl in R'. cbv zeta.
    rewrite (bit_product fft eps s S _ E g' b pt c Hf HS Hb Gb' Gl' R' Hpt W N HB). cbn [bind]. apply assert_eq_refl. }
  unfold test_expand. rewrite Eg. cbn [bind]. rewrite Em. cbn [bind]. rewrite Ec. cbn [bind].
  pose proof (Hblock 1 tern1 t1 ltac:(auto) Hte1 Ht1) as B1. change (1 =? 1) with true in B1. cbv iota in B1. rewrite B1. cbn [bind].
  pose proof (Hblock 0 tern0 t0 ltac:(auto) Hte0 Ht0) as B0. change (0 =? 1) with false in B0. exact B0.
Qed.

Definition expand_slow_test_noise (S E eps : Z) : Z :=
  ep_bound n (c_base cx) (c_level cx) S 1
    ((1 + S) * (E + conv_bound n (c_ks_base cx) (c_ks_level cx) S E) + ep_bound n (c_base cx) (c_negs_level cx) S S E eps) eps + E.

Lemma test_expand_slow_ok fft eps s tn tk d tern t S E :
  fft_for cx fft eps -> binary_key n s -> l1 n (tof s) S -> tape_ok n E tn -> tape_ok n E tk -> draw_ok n E d ->
  (forall i, length (tern i) = n) -> tape_ok n E t ->
  2 * expand_slow_test_noise S E eps < 2 ^ (64 - k) -> test_expand_slow fft cx s tn tk d tern t = Ok tt.
Proof.
  intros Hf Hs HS Htn Htk Hd Hte Ht HB. pose proof (params_n cx lg k Hp) as Hn. pose proof Hp as (Hlg & Hlg1 & Hbl & Hdec & Hdk & Hdn & Hnb & Hk & Hc).
  unfold test_expand_slow. change (to_rlwe_sk s) with s. cbv zeta.
  destruct (fill_conv_key_ok n Hn cx s tk E eq_refl (binary_key_wf _ s Hs) Hdk Htk) as (ks & Eks & Lk & HK).
  destruct (neg_gsw_encrypts n Hn cx s tn E eq_refl Hs Hnb Hdn Htn) as (g & Eg & Gb & Gl & Rg).
  rewrite Eg. cbn [bind]. rewrite Eks. cbn [bind]. rewrite (gen_unit_ok cx lg k Hp). cbn [bind].
  assert (plaintext n k (upd (poly_zero n) 0 1)) as Hpt by (apply (unit_plaintext cx lg k Hp); exact Hn).
  destruct (encode_fresh cx lg k Hp s E _ d Hpt Hd) as (c & Ec & W & N). rewrite Ec. cbn [bind].
  destruct (C28_expand_slow_inputs cx s 1 tern t E Hn ltac:(auto) ltac:(apply Hdec) ltac:(lia) Ht Hte) as (cs & Ecs & Hin). rewrite Ecs. cbn [bind].
  destruct (expand_slow_ok n Hn fft eps cx ks s cs g 1 E E E S) as (g' & E' & B' & L' & R'); auto.
  { apply Hs. } { rewrite Gb, Gl. apply (fft_negs cx fft eps Hf). }
  rewrite E'. cbn [bind]. rewrite Gb, Gl in R'.
  rewrite (bit_product fft eps s S _ E g' 1 _ c Hf HS ltac:(auto) B' L' R' Hpt W N HB). change (1 =? 1) with true. cbv iota. cbn [bind]. apply assert_eq_refl.
Qed.
End Expand.

(** ** Without cryptography *)
Lemma test_binary_encoder_ok md : test_binary_encoder md = Ok tt. Proof. destruct md; vm_compute; reflexivity. Qed.
Lemma test_generic_encoder_ok md : test_generic_encoder md = Ok tt. Proof. destruct md; vm_compute; reflexivity. Qed.
Lemma test_json_ok : test_json = Ok tt. Proof. vm_compute. reflexivity. Qed.
Lemma test_clear_node_ok : test_clear_node = Ok tt. Proof. reflexivity. Qed.
Lemma test_depth_ok : test_depth = Ok tt. Proof. reflexivity. Qed.
Lemma test_bitvec_ok : test_bitvec = Ok tt. Proof. vm_compute. reflexivity. Qed.
Lemma test_eval_poly_ok : test_eval_poly = Ok tt. Proof. vm_compute. reflexivity. Qed.

Section Hash.
Variable shuffle : list nat -> list nat.
Hypothesis Hperm : forall l, Permutation (shuffle l) l.
Lemma hash_range hc dom nh : nh_new shuffle hc dom = Ok nh -> forall h i, (h < hc)%nat -> (i < dom)%nat -> exists y, hash nh h i = Ok y /\ (y < hc * dom)%nat.
Proof.
  intros Hnew h i Hh Hi. destruct (tuple_range shuffle Hperm hc dom nh Hnew h i 1 (hc * dom) Hh Hi ltac:(lia)) as (y & r & c & Ey & _ & Hr & Hc & E). exists y. split; [exact Ey|]. lia.
Qed.
Lemma test_naive_hash_ok : test_naive_hash shuffle = Ok tt.
Proof.
  unfold test_naive_hash. destruct (nh_new shuffle 1 16) as [nh|] eqn:Hnew; [|discriminate]. cbn [bind].
  destruct (nh_fields shuffle 1 16 nh Hnew) as (_ & Hh & Hd & _).
  rewrite for_each_ok.
  2: { intros i Hi. apply in_seq in Hi. unfold hash0. destruct (hash_range 1 16 nh Hnew 0 i ltac:(lia) ltac:(lia)) as (y & -> & Hy). cbn [bind]. rewrite (proj2 (Nat.ltb_lt _ _)) by lia. reflexivity. }
  cbn [bind]. unfold checked_hash. rewrite Hh, Hd. cbn [Nat.leb orb bind assert_none].
  destruct (tuple_range shuffle Hperm 1 16 nh Hnew 0 8 8 2 ltac:(lia) ltac:(lia) eq_refl) as (y & r & c & Ey & -> & _ & _ & E). cbn [bind]. rewrite Ey. cbn [bind].
  unfold assert_eq_nat. rewrite (proj2 (Nat.eqb_eq _ _)) by lia. reflexivity.
Qed.
Lemma test_naive_hash_to_mapping_ok : test_naive_hash_to_mapping shuffle = Ok tt.
Proof.
  unfold test_naive_hash_to_mapping. destruct (nh_new shuffle 1 16) as [nh|] eqn:Hnew; [|discriminate]. cbn [bind].
  destruct (nh_fields shuffle 1 16 nh Hnew) as (_ & Hh & Hd & _).
  destruct (tuple_range shuffle Hperm 1 16 nh Hnew 0 0 8 2 ltac:(lia) ltac:(lia) eq_refl) as (y & r & c & Ey & Et & _ & _ & E).
  unfold hash_to_mapping. rewrite Hh. cbn [foldM seq place bind]. rewrite Et. cbn [bind hget app length]. rewrite assert_eq_nat_refl. cbn [bind hget]. rewrite Nat.eqb_refl. apply assert_eq_nat_refl.
Qed.
End Hash.

Lemma pairs_even {A} m : forall l : list A, length l = (2 * m)%nat -> pairs_of l = m.
Proof. induction m as [|m IH]; intros l L; [destruct l; [reflexivity|cbn in L; lia]|]. destruct l as [|x [|y l]]; cbn in L; try lia. cbn [pairs_of]. f_equal. apply IH. lia. Qed.
Lemma test_rgsw_shape_ok cx s t : test_rgsw_shape cx s t = Ok tt.
Proof.
  unfold test_rgsw_shape. cbv zeta. assert (length (g_rows (encrypt_constant_rgsw (c_n cx) s (c_base cx) (c_level cx) 1 t)) = (2 * c_level cx)%nat) as L.
  { unfold encrypt_constant_rgsw. cbn [g_rows]. rewrite map_length, seq_length. reflexivity. }
  rewrite (pairs_even (c_level cx)) by exact L. rewrite L, assert_eq_nat_refl. cbn [bind]. apply assert_eq_nat_refl.
Qed.
