(** * Property C95: the other unit tests of the repository pass whatever the keys, messages, hash functions and randomness, within their noise budget --
      except test_oram_batch, which fails on correct code for some hash functions. *)
From Coq Require Import Permutation.
From Verif Require Import MBase MUtils MCodec MPoly MRlwe MLwe MHash MTree MEncTree MCtx MParams MSched MOram MMain MTests MTests2.
From Verif Require Import SpecRing SpecLwe SpecEnc SpecOram SpecBatch SpecMixed.
From Verif Require SpecChance SpecShuffle PfShuffle2 PfChance2 PfChance3 PChance.
From Verif Require Import PolyRing PfCodec PfPoly PfNear PfRlwe PfRlwe2 PfRlwe3 PfRlwe5 PfHash PfEnc PfEnc2 PfEnc3 PfEnc4 LRlwe LKeys LOram PRlwe PKeys PEnc PDefault POram Demo PTests PfTests4 PfTests5 PfTests6 PfTests7.
Local Open Scope Z_scope.

(** Without cryptography: codec, trees, JSON, bits, substitution in polynomials, shapes; debug and release. *)
Theorem C95_plain_tests : forall md cx s t,
  test_binary_encoder md = Ok tt /\ test_generic_encoder md = Ok tt /\ test_json = Ok tt /\ test_clear_node = Ok tt /\ test_depth = Ok tt /\
  test_bitvec = Ok tt /\ test_eval_poly = Ok tt /\ test_rgsw_shape cx s t = Ok tt.
Proof.
  intros md cx s t. split; [apply test_binary_encoder_ok|]. split; [apply test_generic_encoder_ok|]. split; [apply test_json_ok|]. split; [apply test_clear_node_ok|].
  split; [apply test_depth_ok|]. split; [apply test_bitvec_ok|]. split; [apply test_eval_poly_ok|]. apply test_rgsw_shape_ok.
Qed.
Print Assumptions C95_plain_tests.

(** Whatever the shuffle. *)
Theorem C95_hash_tests : forall shuffle, (forall l, Permutation (shuffle l) l) ->
  test_naive_hash shuffle = Ok tt /\ test_naive_hash_to_mapping shuffle = Ok tt.
Proof. intros f Hf. split; [apply test_naive_hash_ok, Hf|apply test_naive_hash_to_mapping_ok, Hf]. Qed.
Print Assumptions C95_hash_tests.

(** Expansion: within the noise budget. *)
Theorem C95_expand_test : forall cx lg k fft eps s S E pt tn tk d tern1 tern0 t1 t0,
  setting cx lg k fft eps s S -> plaintext (c_n cx) k pt -> tape_ok (c_n cx) E tn -> tape_ok (c_n cx) E tk -> draw_ok (c_n cx) E d ->
  (forall i, length (tern1 i) = c_n cx) -> (forall i, length (tern0 i) = c_n cx) -> tape_ok (c_n cx) E t1 -> tape_ok (c_n cx) E t0 ->
  let ks := ks_bound (c_n cx) (c_ks_base cx) (c_ks_level cx) S S E (Z.of_nat (c_ks_level cx) * eps) in
  let negs := ep_bound (c_n cx) (c_base cx) (c_negs_level cx) S S E eps in
  2 * (ep_bound (c_n cx) (c_base cx) (c_level cx) S 1 (expand_bound (c_n cx) S E ks negs) eps + E) < 2 ^ (64 - k) ->
  test_expand fft cx s pt tn tk d tern1 tern0 t1 t0 = Ok tt.
Proof. intros cx lg k fft eps s S E pt tn tk d tern1 tern0 t1 t0 (Hp & Hf & Hs & HS) Hpt Hn Hk Hd T1 T0 H1 H0 ks negs HB. eapply (test_expand_ok cx lg k Hp); eassumption. Qed.
Print Assumptions C95_expand_test.

(** The slow expansion, at the parameters of the test (the default ones in the ring of dimension 256): for every key and noise at most 2^13. *)
Theorem C95_expand_slow_test : forall md cx fft eps s tn tk d tern t, context_new md default_tfhe = Ok cx ->
  fft_for (with_poly_size cx 256) fft eps -> 0 <= eps <= 2 ^ 29 -> binary_key 256 s ->
  tape_ok 256 default_noise tn -> tape_ok 256 default_noise tk -> draw_ok 256 default_noise d -> (forall i, length (tern i) = 256%nat) -> tape_ok 256 default_noise t ->
  test_expand_slow fft (with_poly_size cx 256) s tn tk d tern t = Ok tt.
Proof.
  intros md cx fft eps s tn tk d tern t Hcx Hf He Hs Htn Htk Hd Hte Ht.
  destruct (default_fields md cx Hcx) as (Hp & En & Eb & El & Ekb & Ekl & _). pose proof Hp as (P1 & P2 & P3 & P4 & P5 & P6 & P7 & P8 & P9).
  assert (c_negs_level cx = 11%nat) as Enl.
  { unfold context_new in Hcx. cbn [default_tfhe tp_plaintext_modulus] in Hcx. destruct (codec_new md (2 ^ 8)) as [c|]; [|discriminate]. injection Hcx as <-. reflexivity. }
  assert (params_ok (with_poly_size cx 256) 8 8) as Hp'.
  { unfold params_ok, with_poly_size. cbn [c_n c_base c_level c_ks_base c_ks_level c_negs_base c_negs_level c_mode c_codec]. repeat split; auto; try apply P4; try apply P5; try apply P6; lia. }
  eapply (test_expand_slow_ok (with_poly_size cx 256) 8 8 Hp' fft eps s tn tk d tern t 256 default_noise); cbn [with_poly_size c_n]; auto.
  - exact (binary_key_l1 256 s Hs).
  - unfold expand_slow_test_noise. cbn [with_poly_size c_n c_base c_level c_ks_base c_ks_level c_negs_level]. rewrite Eb, El, Ekb, Ekl, Enl.
    assert (forall E e, ep_bound 256 5 9 256 1 E e = 9 * (2 * (4096 * E)) + 1 * 67371008 + 257 * e) as X1 by (intros; unfold ep_bound; reflexivity).
    assert (forall E e, ep_bound 256 5 11 256 256 E e = 11 * (2 * (4096 * E)) + 256 * 65792 + 257 * e) as X2 by (intros; unfold ep_bound; reflexivity).
    assert (conv_bound 256 5 11 256 default_noise = 369164288) as X3 by reflexivity.
    rewrite X1, X2, X3. unfold default_noise. change (2 ^ 13) with 8192. change (2 ^ 29) with 536870912 in He. change (2 ^ (64 - 8)) with 72057594037927936. lia.
Qed.
Print Assumptions C95_expand_slow_test.

(** Private evaluation on the trees of the tests (sums of leaf depths 9 and 65): within the noise budget. *)
Theorem C95_traversal_tests : forall cx lg k fft eps s S E t,
  setting cx lg k fft eps s S -> (3 < c_n cx)%nat -> tape_ok (c_n cx) E t ->
  2 * (9 * ep_bound (c_n cx) (c_base cx) (c_level cx) S 1 (decision_noise cx S E eps) eps) < 2 ^ (64 - k) ->
  test_traversal_1 fft cx s t = Ok tt /\ test_traversal_2 fft cx s t = Ok tt.
Proof.
  intros cx lg k fft eps s S E t (Hp & Hf & Hs & HS) Hn Ht HB.
  split; [eapply (test_traversal_1_ok cx lg k fft eps S E Hp Hf)|eapply (test_traversal_2_ok cx lg k fft eps S E Hp Hf)]; eassumption.
Qed.
Print Assumptions C95_traversal_tests.
Theorem C95_traversal_long_test : forall cx lg k fft eps s1 s2 S E t1 t2,
  setting cx lg k fft eps s1 S -> setting cx lg k fft eps s2 S -> (11 < c_n cx)%nat -> tape_ok (c_n cx) E t1 -> tape_ok (c_n cx) E t2 ->
  2 * (65 * ep_bound (c_n cx) (c_base cx) (c_level cx) S 1 (decision_noise cx S E eps) eps) < 2 ^ (64 - k) ->
  test_traversal_long fft cx s1 s2 t1 t2 = Ok tt.
Proof.
  intros cx lg k fft eps s1 s2 S E t1 t2 (Hp & Hf & Hs1 & HS1) (_ & _ & Hs2 & HS2) Hn Ht1 Ht2 HB.
  eapply (test_traversal_long_ok cx lg k fft eps S E Hp Hf); eassumption.
Qed.
Print Assumptions C95_traversal_long_test.

(** The ORAM: one query at a time (16 and 2048 cells), and two at a time.  Whatever the shuffle. *)
Theorem C95_oram_tests : forall cx lg k fft eps s S E shuffle gp t0 dm t d,
  setting cx lg k fft eps s S -> (forall l, Permutation (shuffle l) l) -> (forall i, plaintext (c_n cx) k (gp i)) -> tape_ok (c_n cx) E t0 ->
  spread false (c_level cx) -> (forall j, plaintext (c_n cx) k (dm j 0%nat)) -> (forall j, tape_ok (c_n cx) E (t j)) -> plaintext (c_n cx) k d ->
  (2 * (E + 3 * growth cx 4 S E eps + answer_growth cx 4 S E eps) < 2 ^ (64 - k) -> test_oram fft cx shuffle s gp t0 dm t d = Ok tt) /\
  (2 * (E + 20 * growth cx 11 S E eps + answer_growth cx 11 S E eps) < 2 ^ (64 - k) -> test_oram_more fft cx shuffle s gp t0 dm t = Ok tt).
Proof.
  intros cx lg k fft eps s S E shuffle gp t0 dm t d Hset Hperm Hgp Ht0 Hsp Hdm Ht Hd.
  split; intros HB; [eapply test_oram_ok|eapply test_oram_more_ok]; eassumption.
Qed.
Print Assumptions C95_oram_tests.
Theorem C95_oram_multi_test : forall cx lg k fft eps s S E shuffle gp t0 dm t d,
  setting cx lg k fft eps s S -> (forall l, Permutation (shuffle l) l) -> (forall i, plaintext (c_n cx) k (gp i)) -> tape_ok (c_n cx) E t0 ->
  (forall j i, plaintext (c_n cx) k (dm j i 0%nat)) -> (forall j i, tape_ok (c_n cx) E (t j i)) -> plaintext (c_n cx) k d ->
  2 * (E + 3 * multi_growth cx 4 S E eps 2 + answer_growth cx 4 S E eps) < 2 ^ (64 - k) -> test_oram_multi fft cx shuffle s gp t0 dm t d = Ok tt.
Proof. intros cx lg k fft eps s S E shuffle gp t0 dm t d Hset Hperm Hgp Ht0 Hdm Ht Hd HB. eapply test_oram_multi_ok; eassumption. Qed.
Print Assumptions C95_oram_multi_test.
Theorem C95_oram_batch_more_test : forall cx lg k fft eps s S E shuffle gp t0 dm t,
  setting cx lg k fft eps s S -> (forall l, Permutation (shuffle l) l) -> (forall i, plaintext (c_n cx) k (gp i)) -> tape_ok (c_n cx) E t0 ->
  (forall j r, plaintext (c_n cx) k (dm j r)) -> (forall j, tape_ok (c_n cx) E (t j)) ->
  2 * (E + 20 * batch_growth cx 10 3 S E eps + answer_growth cx 10 S E eps) < 2 ^ (64 - k) -> test_oram_batch_more fft cx shuffle s gp t0 dm t = Ok tt.
Proof. intros cx lg k fft eps s S E shuffle gp t0 dm t Hset Hperm Hgp Ht0 Hdm Ht HB. eapply test_oram_batch_more_ok; eassumption. Qed.
Print Assumptions C95_oram_batch_more_test.

(** test_oram_batch writes items 1 and 2 in one batch (4 copies each, 8 rows of 8 cells) and asserts that both were written.  If all copies of item 2
    lie in the row of the first copy of item 1, the batch has no row left for item 2. *)
Definition crowded (nh : nhash) : Prop :=
  exists r, (exists c, hash_to_tuple nh 0 1 8 = Ok (r, c)) /\ forall h, (h < 4)%nat -> exists c, hash_to_tuple nh h 2 8 = Ok (r, c).

Lemma served_same nh is cols j : SpecBatch.served nh cols is j = SpecChance.served nh is cols j.
Proof. unfold SpecBatch.served, SpecChance.served, SpecBatch.placed. destruct (hash_to_mapping nh is cols); reflexivity. Qed.
Lemma crowded_dropped nh : hash_for nh 4 16 -> (SpecChance.dropped [1; 2]%nat 8 2 nh = true <-> crowded nh).
Proof.
  intros Hh. pose proof Hh as (f & Hf & Hn).
  assert (forall x, In x [1; 2]%nat -> (x < 16)%nat) as Hi by (intros x [<-|[<-|[]]]; lia). assert (NoDup [1; 2]%nat) as N by (repeat constructor; cbn; intuition lia).
  destruct (mapping_ok f Hf 4 16 nh Hn 8 [1%nat] ltac:(intros x [<-|[]]; lia) ltac:(lia)) as (m1 & Em & _).
  pose proof (PfChance3.mapping_one [nh] 4 16 8 8 ltac:(intros x [<-|[]]; exact Hh) eq_refl nh 1 m1 (or_introl eq_refl) ltac:(lia) Em) as E1.
  rewrite (PfChance2.dropped_rows 4 16 8 8 nh Hh eq_refl [1%nat] 2 [] m1 N Hi Em). rewrite E1.
  assert (forall h i, (h < 4)%nat -> (i < 16)%nat -> exists y, hash nh h i = Ok y /\ y = nth (4 * i + h) (nh_tables nh) 0%nat /\ hash_to_tuple nh h i 8 = Ok (y / 8, y mod 8)%nat) as Hv.
  { intros h i Hh4 Hi16. destruct (tuple_range f Hf 4 16 nh Hn h i 8 8 Hh4 Hi16 eq_refl) as (y & _ & _ & Ey & _). exists y. split; [exact Ey|]. split; [|unfold hash_to_tuple; rewrite Ey; reflexivity].
    unfold hash, index in Ey. destruct (nh_fields f 4 16 nh Hn) as (_ & Ehc & _). rewrite Ehc in Ey. destruct (nth_error _ _) as [z|] eqn:Ez; [|discriminate]. injection Ey as <-. symmetry. apply nth_error_nth, Ez. }
  unfold PfChance2.vals, PfChance2.item_slots, crowded. cbn [map seq hd fst snd]. unfold PfShuffle2.slot_pos. cbn [fst snd].
  destruct (Hv 0%nat 1%nat ltac:(lia) ltac:(lia)) as (y0 & _ & Y0 & T0). split.
  - intros H. exists (y0 / 8)%nat. split; [eexists; exact T0|]. intros h Hh4. destruct (Hv h 2%nat Hh4 ltac:(lia)) as (y & _ & Y & T). exists (y mod 8)%nat. rewrite T. f_equal. f_equal.
    specialize (H y). destruct H as [H|[]]; [|rewrite Y0; symmetry; exact H]. rewrite Y. destruct h as [|[|[|[|h]]]]; [left|right; left|right; right; left|right; right; right; left|lia]; reflexivity.
  - intros (r & (c0 & T0') & H) y Hy. assert (y0 / 8 = r)%nat as Er by congruence. left.
    assert (exists h, (h < 4)%nat /\ y = nth (4 * 2 + h) (nh_tables nh) 0%nat) as (h & Hh4 & ->).
    { destruct Hy as [<-|[<-|[<-|[<-|[]]]]]; [exists 0%nat|exists 1%nat|exists 2%nat|exists 3%nat]; (split; [lia|reflexivity]). }
    destruct (Hv h 2%nat Hh4 ltac:(lia)) as (y & _ & Y & T). destruct (H h Hh4) as (c & Hc). assert (y / 8 = r)%nat as Hr by congruence. rewrite <- Y, Hr, <- Er, Y0. reflexivity.
Qed.

Theorem C95_oram_batch_test : forall cx lg k fft eps s S E shuffle nh gp t0 dm t d,
  setting cx lg k fft eps s S -> (forall l, Permutation (shuffle l) l) -> nh_new shuffle 4 16 = Ok nh -> (forall i, plaintext (c_n cx) k (gp i)) -> tape_ok (c_n cx) E t0 ->
  (forall j r, plaintext (c_n cx) k (dm j r)) -> (forall j, tape_ok (c_n cx) E (t j)) -> plaintext (c_n cx) k d ->
  2 * (E + 3 * batch_growth cx 3 4 S E eps + answer_growth cx 3 S E eps) < 2 ^ (64 - k) ->
  (test_oram_batch fft cx shuffle s gp t0 dm t d = Ok tt <-> ~ crowded nh \/ gp 2%nat = d) /\
  (test_oram_batch fft cx shuffle s gp t0 dm t d = Panic PAssert <-> crowded nh /\ gp 2%nat <> d).
Proof.
  intros cx lg k fft eps s S E shuffle nh gp t0 dm t d Hset Hperm Hn Hgp Ht0 Hdm Ht Hd HB.
  assert (hash_for nh 4 16) as Hh by (exists shuffle; auto). pose proof (crowded_dropped nh Hh) as Hcr.
  unfold SpecChance.dropped in Hcr. rewrite <- served_same in Hcr.
  assert ({| nh_tables := shuffle (seq 0 (4 * 16)); nh_h_count := 4; nh_input_domain := 16 |} = nh) as Et by (unfold nh_new in Hn; cbn [Nat.ltb Nat.leb rassert bind] in Hn; injection Hn as <-; reflexivity).
  destruct (test_oram_batch_run cx lg k fft eps s S E Hset shuffle Hperm gp Hgp t0 Ht0 dm t d Hdm Ht Hd HB) as [R1 R2]. rewrite Et in R1, R2.
  set (sv := SpecBatch.served nh 8 [1; 2]%nat 2) in *. destruct (list_eq_dec Z.eq_dec (gp 2%nat) d) as [Eq|Ne].
  - rewrite R1 by auto. split; (split; [intros H; auto; discriminate|intros H; auto]). destruct H as [_ H]. contradiction.
  - destruct sv; cbn [negb] in Hcr.
    + rewrite R1 by auto. assert (~ crowded nh) as Nc by (intros C; apply Hcr in C; discriminate). split; (split; [intros H; auto; discriminate|intros H; auto]). destruct H; contradiction.
    + rewrite R2 by auto. assert (crowded nh) as C by (apply Hcr; reflexivity). split; (split; [intros H; auto; discriminate|intros H; auto]). destruct H; contradiction.
Qed.
Print Assumptions C95_oram_batch_test.

(** How often that happens: for 840 of the 63 * 62 * 61 * 60 placements (one run in about 17000), all word streams of the generator being equally likely. *)
Theorem C95_oram_batch_chance : forall m, exists crowded_b : nhash -> bool,
  (forall nh, In nh (SpecShuffle.outcomes 4 16 m) -> (crowded_b nh = true <-> crowded nh)) /\
  (length (filter crowded_b (SpecShuffle.outcomes 4 16 m)) * (63 * (62 * (61 * 60))) = length (SpecShuffle.outcomes 4 16 m) * (7 * (6 * (5 * 4))))%nat.
Proof.
  intros m. exists (SpecChance.dropped [1; 2]%nat 8 2). split; [|exact (proj1 PChance.C88_applies m)].
  intros nh H. apply crowded_dropped. exact (PfShuffle2.outcomes_hash 4 16 eq_refl m nh H).
Qed.
Print Assumptions C95_oram_batch_chance.

(** Exchange places 4 and 12 of a list: then the first copy of item 1 is in row 1, which holds all copies of item 2. *)
Definition swapping (l : list nat) : list nat :=
  match l with
  | a :: b :: c :: d :: e :: f :: g :: h :: i :: j :: k :: m :: n :: l' => a :: b :: c :: d :: n :: f :: g :: h :: i :: j :: k :: m :: e :: l'
  | _ => l
  end.
Lemma exchange (x y : nat) m l : Permutation (x :: m ++ y :: l) (y :: m ++ x :: l).
Proof.
  apply perm_trans with (x :: y :: m ++ l); [apply perm_skip, Permutation_sym, Permutation_middle|]. apply perm_trans with (y :: x :: m ++ l); [apply perm_swap|apply perm_skip, Permutation_middle].
Qed.
Lemma swapping_perm l : Permutation (swapping l) l.
Proof. do 13 (destruct l as [|? l]; [apply Permutation_refl|]). cbn [swapping]. do 4 apply perm_skip. apply (exchange _ _ [_; _; _; _; _; _; _]). Qed.

Lemma swapping_crowded : crowded {| nh_tables := swapping (seq 0 (4 * 16)); nh_h_count := 4; nh_input_domain := 16 |}.
Proof. exists 1%nat. split; [eexists; reflexivity|]. intros h Hh. destruct h as [|[|[|[|h]]]]; [eexists; reflexivity..|lia]. Qed.
Lemma default_batch_budget cx : c_n cx = 2048%nat -> c_base cx = 5%nat -> c_level cx = 9%nat -> c_negs_level cx = 11%nat ->
  2 * (1 + 3 * batch_growth cx 3 4 4 1 (2 ^ 10) + answer_growth cx 3 4 1 (2 ^ 10)) < 2 ^ (64 - 8).
Proof.
  intros En Eb El Enl. unfold batch_growth, growth, answer_growth, ep_sel, sel_noise, ep_fresh. rewrite En, Eb, El, Enl. clear.
  apply Z.ltb_lt. vm_compute. reflexivity.
Qed.
(** So the test is refuted as a test of the code: at the default parameters there is a hash function for which it fails, while it passes for another one,
    with the same key (of weight at most 4), items and randomness. *)
Theorem C95_oram_batch_refuted : forall md cx fft s gp t0 dm t d, context_new md default_tfhe = Ok cx -> fft_for cx fft (2 ^ 10) ->
  binary_key 2048 s -> l1 2048 (tof s) 4 -> (forall i, plaintext 2048 8 (gp i)) -> tape_ok 2048 1 t0 -> (forall j r, plaintext 2048 8 (dm j r)) ->
  (forall j, tape_ok 2048 1 (t j)) -> plaintext 2048 8 d -> gp 2%nat <> d ->
  (exists shuffle, (forall l, Permutation (shuffle l) l) /\ test_oram_batch fft cx shuffle s gp t0 dm t d = Panic PAssert) /\
  (exists shuffle, (forall l, Permutation (shuffle l) l) /\ test_oram_batch fft cx shuffle s gp t0 dm t d = Ok tt).
Proof.
  intros md cx fft s gp t0 dm t d Hcx Hf Hs HS Hgp Ht0 Hdm Ht Hd Hne. destruct (default_fields md cx Hcx) as (Hp & En & Eb & El & Ekb & Ekl & _).
  assert (c_negs_level cx = 11%nat) as Enl.
  { unfold context_new in Hcx. cbn [default_tfhe tp_plaintext_modulus] in Hcx. destruct (codec_new md (2 ^ 8)) as [c|]; [|discriminate]. injection Hcx as <-. reflexivity. }
  rewrite <- En in Hs, HS, Hgp, Ht0, Hdm, Ht, Hd.
  assert (setting cx 11 8 fft (2 ^ 10) s 4) as Hset by (split; [exact Hp|]; split; [exact Hf|]; split; assumption).
  assert (forall shuffle nh, (forall l, Permutation (shuffle l) l) -> nh_new shuffle 4 16 = Ok nh ->
    (test_oram_batch fft cx shuffle s gp t0 dm t d = Ok tt <-> ~ crowded nh \/ gp 2%nat = d) /\
    (test_oram_batch fft cx shuffle s gp t0 dm t d = Panic PAssert <-> crowded nh /\ gp 2%nat <> d)) as Hall.
  { intros shuffle nh Hperm Hnew.
    exact (C95_oram_batch_test cx 11 8 fft (2 ^ 10) s 4 1 shuffle nh gp t0 dm t d Hset Hperm Hnew Hgp Ht0 Hdm Ht Hd (default_batch_budget cx En Eb El Enl)). }
  split.
  - exists swapping. split; [exact swapping_perm|]. apply (proj2 (Hall swapping _ swapping_perm eq_refl)). split; [exact swapping_crowded|exact Hne].
  - exists (fun l => l). split; [intros; apply Permutation_refl|]. apply (proj1 (Hall (fun l => l) _ (@Permutation_refl nat) eq_refl)). left.
    intros (r & (c & H0) & H). destruct (H 0%nat ltac:(lia)) as (c' & H1). vm_compute in H0, H1. congruence.
Qed.
Print Assumptions C95_oram_batch_refuted.

(** *** The hypotheses are satisfiable: the ring of dimension 4 of the other demonstrations, and the default parameters with a key of weight 4. *)
Lemma demo_tern i : length ((fun _ : nat => [1; 0; 1; 1]) i) = 4%nat. Proof. reflexivity. Qed.
Example C95_nonvacuous : let fft := exact_fft 4 in let t := fun _ : nat => demo_tape in let gp := fun i => [Z.of_nat (i mod 2); 1; 0; 1] in let dm := fun _ : nat => gp in
  test_expand fft demo_cx demo_s (gp 1%nat) demo_tape demo_tape (demo_tape 0%nat) (fun _ => [1; 0; 1; 1]) (fun _ => [1; 0; 1; 1]) demo_tape demo_tape = Ok tt /\
  test_traversal_1 fft demo_cx demo_s demo_tape = Ok tt /\
  test_oram fft demo_cx (@rev nat) demo_s gp demo_tape dm t (gp 1%nat) = Ok tt /\
  test_oram_more fft demo_cx (@rev nat) demo_s gp demo_tape dm t = Ok tt /\
  test_oram_multi fft demo_cx (@rev nat) demo_s gp demo_tape (fun _ => dm) (fun _ => t) (gp 1%nat) = Ok tt /\
  test_oram_batch fft demo_cx swapping demo_s gp demo_tape dm t (gp 1%nat) = Panic PAssert /\
  test_oram_batch_more fft demo_cx (@rev nat) demo_s gp demo_tape dm t = Ok tt.
Proof.
  intros fft t gp dm. pose proof demo_setting as Hset. pose proof demo_tape_ok as Ht.
  assert (forall i, plaintext (c_n demo_cx) 1 (gp i)) as Hgp by exact demo_pt. assert (forall l : list nat, Permutation (rev l) l) as Hr by (intros l; apply Permutation_sym, Permutation_rev).
  split; [apply (C95_expand_test demo_cx 2 1 fft 0 demo_s 3 3); try exact Hset; try apply Hgp; try apply Ht; try exact demo_tern; apply Z.ltb_lt; vm_compute; reflexivity|].
  assert (2 * (9 * ep_bound (c_n demo_cx) (c_base demo_cx) (c_level demo_cx) 3 1 (decision_noise demo_cx 3 3 0) 0) < 2 ^ (64 - 1)) as HB by (apply Z.ltb_lt; vm_compute; reflexivity).
  split; [exact (proj1 (C95_traversal_tests demo_cx 2 1 fft 0 demo_s 3 3 demo_tape Hset (le_n 4) Ht HB))|].
  assert (spread false (c_level demo_cx)) as Hsp by (right; discriminate).
  assert (forall j : nat, tape_ok (c_n demo_cx) 3 (t j)) as Htj by (intros; exact Ht).
  assert (forall j : nat, plaintext (c_n demo_cx) 1 (dm j 0%nat)) as Hdm by (intros; apply Hgp).
  destruct (C95_oram_tests demo_cx 2 1 fft 0 demo_s 3 3 (@rev nat) gp demo_tape dm t (gp 1%nat) Hset Hr Hgp Ht Hsp Hdm Htj (Hgp 1%nat)) as [O1 O2].
  split; [apply O1; apply Z.ltb_lt; vm_compute; reflexivity|]. split; [apply O2; apply Z.ltb_lt; vm_compute; reflexivity|].
  split; [apply (C95_oram_multi_test demo_cx 2 1 fft 0 demo_s 3 3 (@rev nat) gp demo_tape (fun _ => dm) (fun _ => t) (gp 1%nat) Hset Hr Hgp Ht); [intros; apply Hgp|intros; exact Ht|apply Hgp|apply Z.ltb_lt; vm_compute; reflexivity]|].
  split.
  - assert (2 * (3 + 3 * batch_growth demo_cx 3 4 3 3 0 + answer_growth demo_cx 3 3 3 0) < 2 ^ (64 - 1)) as HBb by (apply Z.ltb_lt; vm_compute; reflexivity).
    apply (proj2 (C95_oram_batch_test demo_cx 2 1 fft 0 demo_s 3 3 swapping _ gp demo_tape dm t (gp 1%nat) Hset swapping_perm eq_refl Hgp Ht (fun _ => Hgp) Htj (Hgp 1%nat) HBb)).
    split; [exact swapping_crowded|discriminate].
  - apply (C95_oram_batch_more_test demo_cx 2 1 fft 0 demo_s 3 3 (@rev nat) gp demo_tape dm t Hset Hr Hgp Ht); [intros; apply Hgp|exact Htj|apply Z.ltb_lt; vm_compute; reflexivity].
Qed.

(** The long tree needs dimension 12 or more. *)
Definition ring16 : ctx := with_poly_size demo_cx 16.
Definition key16 : poly := repeat 1 2 ++ repeat 0 14.
Definition tape16 : tape := fun i => flat_draw 16 (Z.of_nat (i mod 1000)) (if Nat.even i then 3 else q - 3).
Lemma tape16_ok : tape_ok 16 3 tape16.
Proof.
  intros i. pose proof (Nat.mod_upper_bound i 1000 ltac:(lia)) as H. apply flat_draw_ok; [change q with (2 ^ 64); lia|destruct (Nat.even i); vm_compute; split; congruence|destruct (Nat.even i); vm_compute; congruence].
Qed.
Lemma ring16_setting : setting ring16 4 1 (exact_fft 16) 0 key16 2.
Proof.
  split; [repeat split; cbn; try lia|]. split; [unfold fft_for; cbn [ring16 with_poly_size c_n]; apply exact_fft_error; lia|].
  split; [|apply Z.leb_le; vm_compute; reflexivity].
  split; [reflexivity|]. unfold key16. apply Forall_app. split; apply Forall_forall; intros y Hy; apply repeat_spec in Hy; auto.
Qed.
Example C95_long_nonvacuous : test_traversal_long (exact_fft 16) ring16 key16 key16 tape16 tape16 = Ok tt.
Proof.
  apply (C95_traversal_long_test ring16 4 1 (exact_fft 16) 0 key16 key16 2 3); [exact ring16_setting|exact ring16_setting|cbn; lia|exact tape16_ok|exact tape16_ok|apply Z.ltb_lt; vm_compute; reflexivity].
Qed.

(** The slow expansion with the all-ones key and noise of +-4000; the batch test at the default parameters. *)
Example C95_default_nonvacuous : exists cx, context_new Checked default_tfhe = Ok cx /\
  test_expand_slow (exact_fft 256) (with_poly_size cx 256) (repeat 1 256) (noisy 256 1) (noisy 256 2) (noisy 256 3 0%nat) (fun _ => repeat 1 256) (noisy 256 4) = Ok tt /\
  let gp := fun i => repeat (Z.of_nat (i mod 2)) 2048 in
  exists shuffle, (forall l, Permutation (shuffle l) l) /\ test_oram_batch (exact_fft 2048) cx shuffle sparse_key gp quiet (fun _ => gp) (fun _ => quiet) (repeat 7 2048) = Panic PAssert.
Proof.
  destruct (C69_default_context Checked) as (cx & E & _ & N). exists cx. split; [exact E|]. split.
  - apply (C95_expand_slow_test Checked cx (exact_fft 256) 0); [exact E|unfold fft_for; cbn [with_poly_size c_n]; apply exact_fft_error; lia|lia|apply ones_binary|apply noisy_ok|apply noisy_ok|apply noisy_ok|intros; apply repeat_length|apply noisy_ok].
  - intros gp. assert (forall i, plaintext 2048 8 (gp i)) as Hgp by (intros i; pose proof (Nat.mod_upper_bound i 2 ltac:(lia)); apply flat_plaintext; lia).
    apply (C95_oram_batch_refuted Checked cx (exact_fft 2048) sparse_key gp quiet (fun _ => gp) (fun _ => quiet) (repeat 7 2048)); auto.
    + unfold fft_for. rewrite N. apply exact_fft_error; lia.
    + apply sparse_binary.
    + apply sparse_l1.
    + apply quiet_ok.
    + intros; apply quiet_ok.
    + apply flat_plaintext; lia.
    + intros H. apply (f_equal (fun l => nth 0 l 0)) in H. discriminate H.
Qed.
