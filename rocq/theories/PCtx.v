(** * Property C62: the generators of the context.
    A generator is a function of the words its random generator yields. *)
From Coq Require Import Permutation.
From Verif Require Import MBase MUtils MCodec MPoly MRlwe MLwe MHash MParams MSched MOram MMain MCtx.
From Verif Require Import SpecRing SpecLwe SpecEnc SpecOram SpecBatch PfNear PfUtils PfCodec LRlwe LOram Demo PBasic PRlwe PLwe PEnc POram PBatch PMain.
Local Open Scope Z_scope.

Lemma fill_length n f w : length (fill_random n f w) = n.
Proof. unfold fill_random. rewrite map_length, seq_length. reflexivity. Qed.
Lemma fill_nth n f w i d : (i < n)%nat -> nth i (fill_random n f w) d = f (w i).
Proof.
  intros Hi. unfold fill_random. rewrite nth_indep with (d' := f (w 0%nat)) by (rewrite map_length, seq_length; exact Hi).
  rewrite (map_nth (fun i => f (w i)) (seq 0 n) 0%nat i). rewrite seq_nth by exact Hi. reflexivity.
Qed.
Lemma fill_Forall n f w (Q : Z -> Prop) : (forall x, Q (f x)) -> Forall Q (fill_random n f w).
Proof. intros H. unfold fill_random. apply Forall_map. apply Forall_forall. auto. Qed.
(** Every list of values of [f] is drawn by some words. *)
Lemma fill_surj n f l (g : Z -> Z) : length l = n -> Forall (fun x => is_word (g x) /\ f (g x) = x) l ->
  exists w, (forall i, is_word (w i)) /\ fill_random n f w = l.
Proof.
  intros Hl HF. exists (fun i => if (i <? n)%nat then g (nth i l 0) else 0). split.
  - intros i. destruct (i <? n)%nat eqn:Hi; [|split; reflexivity || (cbn; lia)]. apply Nat.ltb_lt in Hi.
    rewrite Forall_forall in HF. apply HF. apply nth_In. lia.
  - apply nth_ext with (d := 0) (d' := 0); [rewrite fill_length; congruence|]. rewrite fill_length. intros i Hi.
    rewrite fill_nth by exact Hi. assert ((i <? n)%nat = true) as -> by (apply Nat.ltb_lt; exact Hi).
    rewrite Forall_forall in HF. apply HF. apply nth_In. lia.
Qed.
Lemma codec_bits md k c : 1 <= k <= 63 -> codec_new md (2 ^ k) = Ok c -> pt_modulus_bits c = k.
Proof. intros Hk Hc. rewrite (codec_new_ok md k Hk) in Hc. injection Hc as <-. reflexivity. Qed.

(** [gen_pt] yields plaintexts of the codec, and every plaintext can come out. *)
Theorem C62_gen_pt : forall cx k pt, 1 <= k <= 63 -> codec_new (c_mode cx) (2 ^ k) = Ok (c_codec cx) ->
  (plaintext (c_n cx) k pt <-> exists w, (forall i, is_word (w i)) /\ fst (gen_pt cx w) = pt).
Proof.
  intros cx k pt Hk Hc. pose proof (codec_bits _ _ _ Hk Hc) as Hb. pose proof (Z.pow_pos_nonneg 2 k ltac:(lia) ltac:(lia)).
  split.
  - intros [Hl HF]. cbn [gen_pt fst]. rewrite Hb. apply fill_surj with (g := fun x => x); [exact Hl|].
    apply Forall_impl with (2 := HF). intros x Hx. split; [|unfold uniform_n_lsb; apply Z.mod_small; exact Hx].
    pose proof (Z.pow_le_mono_r 2 k 64 ltac:(lia) ltac:(lia)). change q with (2 ^ 64). unfold is_word. change q with (2 ^ 64). lia.
  - intros (w & _ & <-). split; [apply fill_length|]. cbn [gen_pt fst]. rewrite Hb. apply fill_Forall. intros x. apply Z.mod_pos_bound. lia.
Qed.
Print Assumptions C62_gen_pt.

(** [gen_binary_pt], and the keys: exactly the binary polynomials; [gen_scalar_binary_pt]: exactly the bits. *)
Theorem C62_gen_binary : forall cx pt,
  (binary_key (c_n cx) pt <-> exists w, (forall i, is_word (w i)) /\ fst (gen_binary_pt cx w) = pt) /\
  (binary_key (c_n cx) pt <-> exists w, (forall i, is_word (w i)) /\ fst (gen_rlwe_sk cx w) = pt) /\
  (binary_key (c_n cx) pt <-> exists w, (forall i, is_word (w i)) /\ fst (gen_lwe_sk cx w) = pt) /\
  (forall x, x = 0 \/ x = 1 <-> exists w, (forall i, is_word (w i)) /\ fst (gen_scalar_binary_pt w) = x).
Proof.
  intros cx pt.
  assert (forall x, uniform_binary x = 0 \/ uniform_binary x = 1) as Hu by (intros x; unfold uniform_binary; pose proof (Z.mod_pos_bound x 2); lia).
  assert (binary_key (c_n cx) pt <-> exists w, (forall i, is_word (w i)) /\ fill_random (c_n cx) uniform_binary w = pt) as H.
  { split.
    - intros [Hl HF]. apply fill_surj with (g := fun x => x); [exact Hl|]. apply Forall_impl with (2 := HF).
      intros x [-> | ->]; split; try reflexivity; unfold is_word, q; cbn; lia.
    - intros (w & _ & <-). split; [apply fill_length|]. apply fill_Forall. exact Hu. }
  split; [exact H|]. split; [exact H|]. split; [exact H|]. intros x. split.
  - intros Hx. exists (fun _ => x). split; [intros i; unfold is_word, q; lia|]. destruct Hx as [-> | ->]; reflexivity.
  - intros (w & _ & <-). apply Hu.
Qed.
Print Assumptions C62_gen_binary.

Lemma ternary_range n w : Forall (fun x => x = 0 \/ x = 1 \/ x = 2 ^ 64 - 1) (fill_random n uniform_ternary w).
Proof.
  apply fill_Forall. intros x. unfold uniform_ternary.
  destruct (x mod 3 =? 0); [auto|]. destruct (x mod 3 =? 1); [auto|]. right. right. reflexivity.
Qed.
(** [gen_ternary_ptxt]: exactly the polynomials over 0, 1, -1. *)
Theorem C62_gen_ternary : forall cx pt,
  (length pt = c_n cx /\ Forall (fun x => x = 0 \/ x = 1 \/ x = 2 ^ 64 - 1) pt <->
   exists w, (forall i, is_word (w i)) /\ fst (gen_ternary_ptxt cx w) = pt).
Proof.
  intros cx pt. split.
  - intros [Hl HF]. cbn [gen_ternary_ptxt fst]. apply fill_surj with (g := fun x => if x =? 2 ^ 64 - 1 then 2 else x); [exact Hl|].
    apply Forall_impl with (2 := HF). intros x [-> | [-> | ->]]; split; try reflexivity; unfold is_word, q; cbn; lia.
  - intros (w & _ & <-). split; [apply fill_length|]. apply ternary_range.
Qed.
Print Assumptions C62_gen_ternary.

(** Successive draws are independent: a generator goes on behind the words it has used, so every combination
    of possible values comes out of some words, in any order of the kinds of draws. *)
Inductive kind := KPlaintext | KBinary | KTernary | KBit | KRlweKey | KLweKey.
Definition one_draw (cx : ctx) (d : kind) (w : words) : list Z * words :=
  match d with
  | KPlaintext => gen_pt cx w | KBinary => gen_binary_pt cx w | KTernary => gen_ternary_ptxt cx w
  | KBit => let '(x, w') := gen_scalar_binary_pt w in ([x], w') | KRlweKey => gen_rlwe_sk cx w | KLweKey => gen_lwe_sk cx w
  end.
Fixpoint draws (cx : ctx) (ds : list kind) (w : words) : list (list Z) :=
  match ds with [] => [] | d :: ds' => let '(v, w') := one_draw cx d w in v :: draws cx ds' w' end.
Definition possible (cx : ctx) (k : Z) (d : kind) (v : list Z) : Prop :=
  match d with
  | KPlaintext => plaintext (c_n cx) k v
  | KTernary => length v = c_n cx /\ Forall (fun x => x = 0 \/ x = 1 \/ x = 2 ^ 64 - 1) v
  | KBit => v = [0] \/ v = [1]
  | KBinary | KRlweKey | KLweKey => binary_key (c_n cx) v
  end.
Definition draw_size (cx : ctx) (d : kind) : nat := match d with KBit => 1%nat | _ => c_n cx end.
Definition draw_fun (k : Z) (d : kind) : Z -> Z := match d with KPlaintext => uniform_n_lsb k | KTernary => uniform_ternary | _ => uniform_binary end.
Lemma one_draw_fill cx k d w : pt_modulus_bits (c_codec cx) = k ->
  one_draw cx d w = (fill_random (draw_size cx d) (draw_fun k d) w, advance w (draw_size cx d)).
Proof. intros Hb. destruct d; cbn; unfold gen_pt, gen_binary_pt, gen_ternary_ptxt, gen_rlwe_sk, gen_lwe_sk; try rewrite Hb; reflexivity. Qed.
Lemma fill_ext (n : nat) (f : Z -> Z) (w w' : words) : (forall i, (i < n)%nat -> w i = w' i) -> fill_random n f w = fill_random n f w'.
Proof. intros H. unfold fill_random. apply map_ext_in. intros i Hi. apply in_seq in Hi. rewrite H by lia. reflexivity. Qed.
Lemma draws_ext cx k ds : pt_modulus_bits (c_codec cx) = k -> forall w w', (forall i, w i = w' i) -> draws cx ds w = draws cx ds w'.
Proof.
  intros Hb. induction ds as [|d ds IH]; intros w w' H; [reflexivity|]. cbn [draws]. rewrite !(one_draw_fill _ _ _ _ Hb). f_equal; [apply fill_ext; auto|].
  apply IH. intros i. apply H.
Qed.
Theorem C62_draws_independent : forall cx k ds vs, 1 <= k <= 63 -> codec_new (c_mode cx) (2 ^ k) = Ok (c_codec cx) ->
  (Forall2 (possible cx k) ds vs <-> exists w, (forall i, is_word (w i)) /\ draws cx ds w = vs).
Proof.
  intros cx k ds vs Hk Hc. pose proof (codec_bits _ _ _ Hk Hc) as Hb.
  assert (forall d v, possible cx k d v <-> exists w, (forall i, is_word (w i)) /\ fst (one_draw cx d w) = v) as H1.
  { intros d v. destruct d; cbn [possible one_draw].
    - apply C62_gen_pt; assumption.
    - exact (proj1 (C62_gen_binary cx v)).
    - exact (C62_gen_ternary cx v).
    - split.
      + intros Hv. destruct (proj1 (proj2 (proj2 (proj2 (C62_gen_binary cx v))) (nth 0 v 0))) as (w & Hw & E);
          [destruct Hv as [-> | ->]; cbn; auto|]. exists w. split; [exact Hw|]. cbn [gen_scalar_binary_pt fst] in *. rewrite E. destruct Hv as [-> | ->]; reflexivity.
      + intros (w & Hw & <-). cbn [gen_scalar_binary_pt fst].
        destruct (proj2 (proj2 (proj2 (proj2 (C62_gen_binary cx []))) (fst (gen_scalar_binary_pt w)))) as [E|E]; [exists w; auto| |]; cbn in E; rewrite E; auto.
    - exact (proj1 (proj2 (C62_gen_binary cx v))).
    - exact (proj1 (proj2 (proj2 (C62_gen_binary cx v)))). }
  revert vs. induction ds as [|d ds IH]; intros vs.
  - split; [intros H; inversion H; exists (fun _ => 0); split; [intros; unfold is_word, q; lia|reflexivity]|intros (w & _ & <-); constructor].
  - cbn [draws]. split.
    + intros H. inversion H as [|d0 v ds0 vs' Hv Hvs Ed Ev]. subst d0 ds0 vs. apply H1 in Hv as (w1 & Hw1 & E1). apply IH in Hvs as (w2 & Hw2 & E2).
      exists (fun i => if (i <? draw_size cx d)%nat then w1 i else w2 (i - draw_size cx d)%nat). split; [intros i; destruct (_ <? _)%nat; auto|].
      rewrite (one_draw_fill _ k) in * by exact Hb. cbn [fst] in E1. f_equal.
      * rewrite <- E1. apply fill_ext. intros i Hi. apply Nat.ltb_lt in Hi. rewrite Hi. reflexivity.
      * rewrite <- E2. apply (draws_ext cx k _ Hb). intros i. unfold advance.
        destruct (_ <? _)%nat eqn:Hi; [apply Nat.ltb_lt in Hi; lia|]. f_equal. lia.
    + intros (w & Hw & E). rewrite (one_draw_fill _ k) in E by exact Hb. subst vs. constructor.
      * apply H1. exists w. split; [exact Hw|]. rewrite (one_draw_fill _ k) by exact Hb. reflexivity.
      * apply IH. eexists. split; [|reflexivity]. intros i. apply Hw.
Qed.
Print Assumptions C62_draws_independent.

(** [gen_demuxed_pt i]: the monomial X^i; it panics exactly if [i] is not a coefficient.  [gen_unit_pt] is
    the case 0 and [gen_zero_pt] the zero polynomial. *)
Theorem C62_gen_fixed : forall cx i,
  ((i < c_n cx)%nat -> exists pt, gen_demuxed_pt cx i = Ok pt /\ length pt = c_n cx /\ forall j, nth j pt 0 = if (j =? i)%nat then 1 else 0) /\
  ((c_n cx <= i)%nat -> gen_demuxed_pt cx i = Panic PIndex) /\
  gen_unit_pt cx = gen_demuxed_pt cx 0 /\
  length (gen_zero_pt cx) = c_n cx /\ (forall j, nth j (gen_zero_pt cx) 0 = 0) /\ gen_scalar_unit_pt = 1 /\ gen_scalar_zero_pt = 0.
Proof.
  intros cx i. assert (forall m j, nth j (poly_zero m) 0 = 0) as Hz.
  { unfold poly_zero. induction m as [|m IH]; intros [|j]; try reflexivity. cbn. apply IH. }
  repeat split; try apply Hz.
  - intros Hi. unfold gen_demuxed_pt, set_index. unfold poly_zero at 1. rewrite repeat_length. unfold plaintext_count.
    assert ((i <? c_n cx)%nat = true) as -> by (apply Nat.ltb_lt; exact Hi). eexists. split; [reflexivity|].
    split; [rewrite upd_length; apply repeat_length|]. intros j. rewrite nth_upd by (unfold poly_zero; rewrite repeat_length; exact Hi).
    rewrite Hz. rewrite (Nat.eqb_sym j i). reflexivity.
  - intros Hi. unfold gen_demuxed_pt, set_index, poly_zero at 1. rewrite repeat_length. unfold plaintext_count.
    destruct (i <? c_n cx)%nat eqn:Hlt; [apply Nat.ltb_lt in Hlt; lia|reflexivity].
  - apply repeat_length.
Qed.
Print Assumptions C62_gen_fixed.

(** What the generators yield is what the encryption functions take: round trips without any assumption on
    key or plaintext; ternary plaintexts are accepted by the modular encoding only if no coefficient is -1. *)
Theorem C62_generated_roundtrip : forall cx k ws w d, (0 < c_n cx)%nat -> 1 <= k <= 63 -> codec_new (c_mode cx) (2 ^ k) = Ok (c_codec cx) ->
  wfp (c_n cx) (d_mask d) -> wfp (c_n cx) (d_noise d) ->
  Forall (fun e => - 2 ^ (64 - k) <= 2 * to_signed e < 2 ^ (64 - k) /\ -3074457345618257920 <= to_signed e <= 3074457345618257920) (d_noise d) ->
  let s := fst (gen_rlwe_sk cx ws) in
  (exists ct, encode_encrypt_rlwe cx s (fst (gen_pt cx w)) d = Ok ct /\ decrypt_decode_rlwe cx s ct = Ok (fst (gen_pt cx w))) /\
  (exists ct, encode_encrypt_rlwe cx s (fst (gen_binary_pt cx w)) d = Ok ct /\ decrypt_decode_rlwe cx s ct = Ok (fst (gen_binary_pt cx w)) /\
     exists x, pt_to_lossy_u64 (c_mode cx) (fst (gen_binary_pt cx w)) = Ok x) /\
  (exists ct, ternary_encrypt_rlwe cx s (fst (gen_ternary_ptxt cx w)) d = Ok ct /\ ternary_decrypt_rlwe (c_n cx) s ct = fst (gen_ternary_ptxt cx w)) /\
  (Exists (fun x => x = 2 ^ 64 - 1) (fst (gen_ternary_ptxt cx w)) -> encode_encrypt_rlwe cx s (fst (gen_ternary_ptxt cx w)) d = Panic PExplicit).
Proof.
  intros cx k ws w d Hn Hk Hc Hm He HF s.
  assert (forall v, Forall (fun x => x = 0 \/ x = 1) (fill_random (c_n cx) uniform_binary v)) as Hbin.
  { intros v. apply fill_Forall. intros x. unfold uniform_binary. pose proof (Z.mod_pos_bound x 2). lia. }
  assert (binary_key (c_n cx) s) as Hs by (split; [apply fill_length|apply Hbin]).
  pose proof (binary_key_wf _ _ Hs) as Hws.
  pose proof (Z.pow_pos_nonneg 2 k ltac:(lia) ltac:(lia)) as H2. pose proof (Z.pow_le_mono_r 2 1 k ltac:(lia) ltac:(lia)) as H2'.
  pose proof (Z.pow_le_mono_r 2 k 63 ltac:(lia) ltac:(lia)) as H63.
  assert (Forall (fun e => - 2 ^ (64 - k) <= 2 * to_signed e < 2 ^ (64 - k)) (d_noise d)) as HF1 by (apply Forall_impl with (2 := HF); tauto).
  assert (Forall (fun e => -3074457345618257920 <= to_signed e <= 3074457345618257920) (d_noise d)) as HF2 by (apply Forall_impl with (2 := HF); tauto).
  split; [|split; [|split]].
  - apply (C12_encrypt_decrypt cx k); try assumption. split; [apply fill_length|]. cbn [gen_pt fst]. rewrite (codec_bits _ _ _ Hk Hc).
    apply fill_Forall. intros x. apply Z.mod_pos_bound. lia.
  - destruct (C12_encrypt_decrypt cx k s (fst (gen_binary_pt cx w)) d) as (ct & E1 & E2); try assumption.
    { split; [apply fill_length|]. apply Forall_impl with (2 := Hbin w). intros x [-> | ->]; cbn in H2'; lia. }
    exists ct. split; [exact E1|]. split; [exact E2|].
    destruct (C06_lossy_is_low_bits (c_mode cx) (fst (gen_binary_pt cx w))) as (x & Ex & _); [|exists x; exact Ex].
    intros i _. destruct (le_lt_dec (c_n cx) i) as [Hi|Hi].
    + left. apply nth_overflow. cbn [gen_binary_pt fst]. rewrite fill_length. exact Hi.
    + pose proof (Hbin w) as Hb. rewrite Forall_forall in Hb. apply Hb. apply nth_In. cbn [gen_binary_pt fst]. rewrite fill_length. exact Hi.
  - apply (C12_ternary cx); try assumption; [apply fill_length|apply ternary_range].
  - intros Hex. apply (C12_encrypt_rejects cx k); try assumption.
    + apply Forall_impl with (2 := ternary_range (c_n cx) w). intros x [-> | [-> | ->]]; lia.
    + apply Exists_impl with (2 := Hex). intros x ->. lia.
Qed.
Print Assumptions C62_generated_roundtrip.
(** LWE. *)
Theorem C62_generated_lwe_roundtrip : forall cx k ws w d, 1 <= k <= 63 -> codec_new (c_mode cx) (2 ^ k) = Ok (c_codec cx) ->
  is_word (ld_noise d) -> - 2 ^ (64 - k) <= 2 * to_signed (ld_noise d) < 2 ^ (64 - k) ->
  let s := fst (gen_lwe_sk cx ws) in let x := fst (gen_scalar_binary_pt w) in
  exists c, encode_encrypt_lwe cx s x d = Ok c /\ decode_decrypt_lwe cx s c = Ok x.
Proof.
  intros cx k ws w d Hk Hc Hw He s x. apply (C26_lwe_roundtrip cx k); try assumption.
  pose proof (Z.pow_le_mono_r 2 1 k ltac:(lia) ltac:(lia)) as H2. unfold x, gen_scalar_binary_pt, uniform_binary, fst.
  pose proof (Z.mod_pos_bound (w 0%nat) 2). lia.
Qed.
Print Assumptions C62_generated_lwe_roundtrip.

(** The sizes a context reports fit: a buffer of [lwe_size] holds exactly the samples extracted from its ciphertexts,
    its mask as long as the generated keys. *)
Theorem C62_sizes : forall cx c d l w, (0 < c_n cx)%nat -> wfc (c_n cx) c -> sample_extract c d = Ok l ->
  length (l_mask (lwe_allocate (lwe_size cx))) = length (l_mask l) /\
  length (fst (gen_rlwe_sk cx w)) = length (l_mask l) /\ lwe_dim cx = length (l_mask l) /\ plaintext_count cx = length (body c).
Proof.
  intros cx c d l w Hn Hc H.
  assert (d < c_n cx)%nat as Hd.
  { destruct (le_lt_dec (c_n cx) d) as [G|G]; [|exact G]. rewrite C27_degree_rejected in H; [discriminate|]. destruct Hc as (_ & Lb & _). lia. }
  destruct (C27_sample_extraction (c_n cx) Hn c (repeat 0 (c_n cx)) d Hc ltac:(apply repeat_length) Hd) as (l' & E & L & _). rewrite H in E. injection E as <-.
  rewrite L. split; [cbn; rewrite repeat_length; unfold lwe_size; lia|]. split; [cbn; unfold fill_random; rewrite map_length, seq_length; reflexivity|].
  split; [reflexivity|]. destruct Hc as (_ & Lb & _). symmetry. exact Lb.
Qed.
Print Assumptions C62_sizes.

(** The drivers of src/main.rs with everything drawn by the generators: key, items and dummy data need no
    assumption any more; the key's weight is bounded by the ring dimension. *)
Lemma nth_draw_range (gen : words -> poly * words) (Q : poly -> Prop) : (forall w, Q (fst (gen w))) -> forall i w, Q (nth_draw gen w i).
Proof. intros H i. induction i as [|i IH]; intros w; [apply H|apply IH]. Qed.
Lemma drawn_good cx k E sh ws wr wq t0 t : 1 <= k <= 63 -> codec_new (c_mode cx) (2 ^ k) = Ok (c_codec cx) ->
  (forall l, Permutation (sh l) l) -> tape_ok (c_n cx) E t0 -> (forall j i, tape_ok (c_n cx) E (t j i)) ->
  good_coins cx k E (drawn_coins cx sh ws wr wq t0 t).
Proof.
  intros Hk Hc Hsh Ht0 Ht. pose proof (Z.pow_le_mono_r 2 1 k ltac:(lia) ltac:(lia)) as H2.
  split; [exact Hsh|]. split; [|split; [exact Ht0|split; [|exact Ht]]]; cbn.
  - intros i. apply (nth_draw_range (gen_pt cx) (plaintext (c_n cx) k)). intros w. split; [apply fill_length|]. cbn [gen_pt fst].
    rewrite (codec_bits _ _ _ Hk Hc). apply fill_Forall. intros x. apply Z.mod_pos_bound. lia.
  - intros j i r. apply (nth_draw_range (gen_binary_pt cx) (plaintext (c_n cx) k)). intros w. split; [apply fill_length|].
    apply fill_Forall. intros x. unfold uniform_binary. pose proof (Z.mod_pos_bound x 2). lia.
Qed.
Lemma drawn_setting cx lg k fft eps sh ws wr wq t0 t : params_ok cx lg k -> fft_for cx fft eps ->
  setting cx lg k fft eps (co_sk (drawn_coins cx sh ws wr wq t0 t)) (Z.of_nat (c_n cx)).
Proof.
  intros Hp Hf. split; [exact Hp|]. split; [exact Hf|].
  assert (binary_key (c_n cx) (fst (gen_rlwe_sk cx ws))) as H.
  { split; [apply fill_length|]. apply fill_Forall. intros x. unfold uniform_binary. pose proof (Z.mod_pos_bound x 2). lia. }
  split; [exact H|]. apply binary_key_l1. exact H.
Qed.
(** All randomness that [good_coins] admits can be drawn, with binary dummy data: no two queries have to share theirs. *)
Lemma nth_draw_at cx k d : pt_modulus_bits (c_codec cx) = k -> draw_size cx d = c_n cx -> forall r w,
  nth_draw (one_draw cx d) w r = fill_random (c_n cx) (draw_fun k d) (advance w (r * c_n cx)).
Proof.
  intros Hb Hd. induction r as [|r IH]; intros w; cbn [nth_draw]; rewrite (one_draw_fill _ k) by exact Hb; rewrite Hd; cbn [fst snd]; [apply fill_ext; reflexivity|].
  rewrite IH. apply fill_ext. intros i _. unfold advance. f_equal. lia.
Qed.
Lemma draw_sequence cx k d (v : nat -> poly) : pt_modulus_bits (c_codec cx) = k -> draw_size cx d = c_n cx ->
  (forall r, length (v r) = c_n cx /\ Forall (fun x => is_word x /\ draw_fun k d x = x) (v r)) ->
  exists w, (forall i, is_word (w i)) /\ forall r, nth_draw (one_draw cx d) w r = v r.
Proof.
  intros Hb Hd Hv. exists (fun i => nth (i mod c_n cx) (v (i / c_n cx)%nat) 0). split.
  - intros i. destruct (Hv (i / c_n cx)%nat) as [L F]. destruct (nth_in_or_default (i mod c_n cx) (v (i / c_n cx)%nat) 0) as [H|H]; [|rewrite H; unfold is_word, q; lia].
    rewrite Forall_forall in F. apply F. exact H.
  - intros r. rewrite (nth_draw_at cx k d Hb Hd). destruct (Hv r) as [L F]. apply nth_ext with (d := 0) (d' := 0); [rewrite fill_length; congruence|].
    rewrite fill_length. intros i Hi. rewrite fill_nth by exact Hi. unfold advance.
    rewrite Nat.add_comm, Nat.mod_add, Nat.mod_small by lia. rewrite Nat.div_add, Nat.div_small by lia. rewrite Forall_forall in F. apply F, nth_In. lia.
Qed.
Theorem C62_drawn_complete : forall cx k sh t0 t sk items dm, 1 <= k <= 63 -> codec_new (c_mode cx) (2 ^ k) = Ok (c_codec cx) ->
  binary_key (c_n cx) sk -> (forall i, plaintext (c_n cx) k (items i)) -> (forall j i r, binary_key (c_n cx) (dm j i r)) ->
  exists ws wr wq, (forall i, is_word (ws i)) /\ (forall i, is_word (wr i)) /\ (forall j i x, is_word (wq j i x)) /\
    let co := drawn_coins cx sh ws wr wq t0 t in co_sk co = sk /\ (forall i, co_items co i = items i) /\ forall j i r, co_dummy co j i r = dm j i r.
Proof.
  intros cx k sh t0 t sk items dm Hk Hc Hsk Hit Hdm. pose proof (codec_bits _ _ _ Hk Hc) as Hb.
  destruct (proj1 (proj1 (proj2 (C62_gen_binary cx sk))) Hsk) as (ws & Hws & Es).
  destruct (draw_sequence cx k KPlaintext items Hb eq_refl) as (wr & Hwr & Er).
  { intros r. destruct (Hit r) as [L F]. split; [exact L|]. apply Forall_impl with (2 := F). intros x Hx. split; [|cbn; apply Z.mod_small; exact Hx].
    pose proof (Z.pow_le_mono_r 2 k 64 ltac:(lia) ltac:(lia)). unfold is_word. change q with (2 ^ 64). lia. }
  set (st := fun j i x => nth (x mod c_n cx) (dm j i (x / c_n cx)%nat) 0).
  exists ws, wr, st. split; [exact Hws|]. split; [exact Hwr|].
  assert (forall j i, (forall x, is_word (st j i x)) /\ forall r, nth_draw (gen_binary_pt cx) (st j i) r = dm j i r) as H.
  { intros j i. assert (forall r, Forall (fun x => is_word x /\ uniform_binary x = x) (dm j i r)) as HF.
    { intros r. destruct (Hdm j i r) as [_ F]. apply Forall_impl with (2 := F). intros x [-> | ->]; split; try reflexivity; unfold is_word, q; lia. }
    split.
    - intros x. unfold st. destruct (nth_in_or_default (x mod c_n cx) (dm j i (x / c_n cx)%nat) 0) as [H|H]; [|rewrite H; unfold is_word, q; lia].
      specialize (HF (x / c_n cx)%nat). rewrite Forall_forall in HF. apply HF. exact H.
    - intros r. rewrite (nth_draw_at cx k KBinary Hb eq_refl r). destruct (Hdm j i r) as [L _]. apply nth_ext with (d := 0) (d' := 0); [rewrite fill_length; congruence|].
      rewrite fill_length. intros y Hy. rewrite fill_nth by exact Hy. unfold advance, st.
      rewrite Nat.add_comm, Nat.mod_add, Nat.mod_small by lia. rewrite Nat.div_add, Nat.div_small by lia.
      specialize (HF r). rewrite Forall_forall in HF. apply HF, nth_In. lia. }
  split; [intros j i; apply H|]. cbn. split; [exact Es|]. split; [exact Er|]. intros j i. apply H.
Qed.
Print Assumptions C62_drawn_complete.
Theorem C62_drawn_single_query : forall md p cx lg k fft eps E a iterations sh ws wr wq t0 t,
  context_new md p = Ok cx -> params_ok cx lg k -> c_level cx <> 1%nat -> fft_for cx fft eps -> (forall l, Permutation (sh l) l) ->
  tape_ok (c_n cx) E t0 -> (forall j i, tape_ok (c_n cx) E (t j i)) -> (1 <= a <= 63)%nat -> (0 < iterations)%nat ->
  2 * (E + Z.of_nat iterations * growth cx a (Z.of_nat (c_n cx)) E eps + answer_growth cx a (Z.of_nat (c_n cx)) E eps) < 2 ^ (64 - k) ->
  exists noises, single_query fft md (2 ^ a) iterations p false (drawn_coins cx sh ws wr wq t0 t) = Ok noises /\ length noises = iterations.
Proof.
  intros md p cx lg k fft eps E a it sh ws wr wq t0 t Ecx Hp Hlv Hf Hsh Ht0 Ht Ha Hi Hb.
  pose proof Hp as (_ & _ & _ & _ & _ & _ & _ & Hk & Hc).
  destruct (C59_single_query md p cx lg k fft eps (Z.of_nat (c_n cx)) E a it (drawn_coins cx sh ws wr wq t0 t)) as (ns & H & L & _);
    try assumption; [apply drawn_setting; assumption|apply drawn_good; assumption|]. exists ns. auto.
Qed.
Print Assumptions C62_drawn_single_query.
Theorem C62_drawn_multi_query : forall md p cx lg k fft eps E a query_count iterations sh ws wr wq t0 t,
  context_new md p = Ok cx -> params_ok cx lg k -> fft_for cx fft eps -> (forall l, Permutation (sh l) l) ->
  tape_ok (c_n cx) E t0 -> (forall j i, tape_ok (c_n cx) E (t j i)) -> (1 <= a <= 63)%nat -> (0 < iterations)%nat -> (query_count < 2 ^ a)%nat -> query_count <> 1%nat ->
  2 * (E + Z.of_nat iterations * multi_growth cx a (Z.of_nat (c_n cx)) E eps query_count + answer_growth cx a (Z.of_nat (c_n cx)) E eps) < 2 ^ (64 - k) ->
  exists noises, multi_query fft md (2 ^ a) query_count iterations p false (drawn_coins cx sh ws wr wq t0 t) = Ok noises /\ length noises = iterations.
Proof.
  intros md p cx lg k fft eps E a qc it sh ws wr wq t0 t Ecx Hp Hf Hsh Ht0 Ht Ha Hi Hq Hq1 Hb.
  pose proof Hp as (_ & _ & _ & _ & _ & _ & _ & Hk & Hc).
  destruct (C59_multi_query md p cx lg k fft eps (Z.of_nat (c_n cx)) E a qc it (drawn_coins cx sh ws wr wq t0 t)) as (ns & H & L & _);
    try assumption; [apply drawn_setting; assumption|apply drawn_good; assumption|]. exists ns. auto.
Qed.
Print Assumptions C62_drawn_multi_query.
Theorem C62_drawn_batch_query : forall md p cx lg k fft eps E a rows dom iterations sh ws wr wq t0 t,
  context_new md p = Ok cx -> params_ok cx lg k -> fft_for cx fft eps -> (forall l, Permutation (sh l) l) ->
  tape_ok (c_n cx) E t0 -> (forall j i, tape_ok (c_n cx) E (t j i)) -> (1 <= a <= 63)%nat -> (0 < iterations)%nat ->
  (2 <= dom)%nat -> (rows * 2 ^ a = 3 * dom)%nat -> Z.of_nat dom < 2 ^ 64 ->
  2 * (E + Z.of_nat iterations * batch_growth cx a 3 (Z.of_nat (c_n cx)) E eps + answer_growth cx a (Z.of_nat (c_n cx)) E eps) < 2 ^ (64 - k) ->
  exists noises, batch_query fft md rows (2 ^ a) iterations p false (drawn_coins cx sh ws wr wq t0 t) = Ok noises /\ length noises = iterations.
Proof.
  intros md p cx lg k fft eps E a rows dom it sh ws wr wq t0 t Ecx Hp Hf Hsh Ht0 Ht Ha Hi Hd Hdim Hq Hb.
  pose proof Hp as (_ & _ & _ & _ & _ & _ & _ & Hk & Hc).
  destruct (C59_batch_query md p cx lg k fft eps (Z.of_nat (c_n cx)) E a rows dom it (drawn_coins cx sh ws wr wq t0 t)) as (ns & H & L & _);
    try assumption; [apply drawn_setting; assumption|apply drawn_good; assumption|]. exists ns. auto.
Qed.
Print Assumptions C62_drawn_batch_query.

(** *** Non-trivial instances. *)
Definition demo_words : words := fun i => (Z.of_nat i * 6364136223846793005 + 1442695040888963407) mod 2 ^ 64.
Example C62_values :
  fst (gen_binary_pt demo_cx demo_words) = [1; 0; 1; 0] /\ fst (gen_rlwe_sk demo_cx (advance demo_words 1)) = [0; 1; 0; 1] /\
  snd (gen_binary_pt demo_cx demo_words) 0%nat = demo_words 4%nat /\
  gen_demuxed_pt demo_cx 2 = Ok [0; 0; 1; 0] /\ gen_demuxed_pt demo_cx 4 = Panic PIndex /\ gen_unit_pt demo_cx = Ok [1; 0; 0; 0] /\
  fst (gen_ternary_ptxt demo_cx (fun i => Z.of_nat i)) = [0; 1; MAXW; 0].
Proof. repeat split; reflexivity. Qed.
Example C62_draws_demo : exists w, (forall i, is_word (w i)) /\ draws demo_cx [KRlweKey; KBit; KPlaintext; KBinary] w = [[1; 0; 0; 1]; [1]; [1; 1; 0; 0]; [0; 0; 0; 1]].
Proof.
  apply (C62_draws_independent demo_cx 1); [lia|reflexivity|].
  repeat (apply Forall2_cons || apply Forall2_nil); cbn [possible]; unfold binary_key, plaintext; try (right; reflexivity);
    split; try reflexivity; repeat (apply Forall_cons || apply Forall_nil); try lia.
Qed.
Example C62_applies : forall ws wr wq, exists noises,
  single_query (exact_fft 4) Checked (2 ^ 2) 3 demo_tfhe false (drawn_coins demo_cx (@rev nat) ws wr wq demo_tape (fun _ _ => demo_tape)) = Ok noises /\ length noises = 3%nat.
Proof.
  intros ws wr wq. apply (C62_drawn_single_query Checked demo_tfhe demo_cx 2 1 (exact_fft 4) 0 3 2 3); try lia.
  - exact demo_context.
  - exact demo_params.
  - discriminate.
  - exact demo_fft_for.
  - exact rev_perm.
  - exact demo_tape_ok.
  - intros j i. exact demo_tape_ok.
  - vm_compute. reflexivity.
Qed.
Example C62_batch_applies : forall ws wr wq, exists noises,
  batch_query (exact_fft 4) Checked 3 (2 ^ 1) 3 demo_tfhe false (drawn_coins demo_cx demo_shuffle ws wr wq demo_tape (fun _ _ => demo_tape)) = Ok noises /\ length noises = 3%nat.
Proof.
  intros ws wr wq. apply (C62_drawn_batch_query Checked demo_tfhe demo_cx 2 1 (exact_fft 4) 0 3 1 3 2 3); try lia.
  - exact demo_context.
  - exact demo_params.
  - exact demo_fft_for.
  - exact demo_shuffle_perm.
  - exact demo_tape_ok.
  - intros j i. exact demo_tape_ok.
  - reflexivity.
  - vm_compute. reflexivity.
Qed.
