(** * Properties C36-C39: homomorphic tree evaluation and demultiplexing.
    [SpecEnc] holds the vocabulary; [predicts], [labels], .. are in [SpecTree], [near], [phase], .. in
    [SpecRing] and [SpecLwe]. *)
From Verif Require Import MBase MUtils MCodec MPoly MRlwe MTree MEncTree SpecLwe SpecTree SpecEnc LEnc PfEnc2 PfEnc3 PfEnc4 PfNear PfRlwe Demo.
Local Open Scope Z_scope.

(** C36.  If the ciphertexts of the encrypted tree encrypt the decisions of the tree's nodes, evaluation
    returns one ciphertext per bit of the largest label, encrypting the bits of the label reached, with
    noise at most (sum of the leaf depths) * (external product noise); recomposition returns the label. *)
Theorem C36_encrypted_evaluation : forall cx fft eps base level s S E fs t e cts k,
  (0 < c_n cx)%nat -> 1 <= k <= 63 -> codec_new (c_mode cx) (2 ^ k) = Ok (c_codec cx) ->
  fft_ok (c_n cx) fft (2 ^ (Z.of_nat base - 1)) (2 * level) eps -> l1 (c_n cx) (tof s) S ->
  enc_matches e t cts -> Forall2 (decision_ct (c_n cx) s base level E fs) cts (preorder t) ->
  Forall (fun x => Z.of_nat x < 2 ^ 48) (labels t) ->
  let B := Z.of_nat (list_sum (leaf_depths t)) * ep_bound (c_n cx) base level S 1 E eps in
  exists x outs, predicts t fs x /\ enc_eval fft cx e = Ok outs /\
    length outs = Nat.log2_up (list_max (labels t) + 1) /\ Forall (wfc (c_n cx)) outs /\ (x < 2 ^ length outs)%nat /\
    (forall i c, nth_error outs i = Some c ->
       near (c_n cx) (phase (c_n cx) s c) (pcst (b2z (Nat.testbit x i) * 2 ^ (64 - k))) B) /\
    (2 * B < 2 ^ (64 - k) -> (exists y, In y (labels t) /\ y <> 0%nat) -> decrypt_and_recompose cx s outs = Ok (Z.of_nat x)).
Proof. exact eval_C36. Qed.
Print Assumptions C36_encrypted_evaluation.

(** Exception: with all labels 0 there are no output bits, and recomposition panics instead of
    returning 0. *)
Theorem C36_all_zero_labels_refuted : forall cx fft s k t e cts,
  1 <= k <= 63 -> codec_new (c_mode cx) (2 ^ k) = Ok (c_codec cx) -> (0 < c_n cx)%nat ->
  enc_matches e t cts -> (forall y, In y (labels t) -> y = 0%nat) ->
  enc_eval fft cx e = Ok [] /\ decrypt_and_recompose cx s [] = Panic PExplicit.
Proof. exact all_zero_C36. Qed.
Print Assumptions C36_all_zero_labels_refuted.

(** C37.  Demultiplexing. *)
Theorem C37_demux_with : forall cx fft eps base level s S E gs xs b,
  (0 < c_n cx)%nat -> fft_ok (c_n cx) fft (2 ^ (Z.of_nat base - 1)) (2 * level) eps -> l1 (c_n cx) (tof s) S ->
  Forall2 (fun g x => const_ct (c_n cx) s base level E (b2z x) g) gs xs -> gs <> [] -> wfc (c_n cx) b ->
  exists outs, demux_with fft cx b gs = Ok outs /\ length outs = (2 ^ length gs)%nat /\
    forall j c, nth_error outs j = Some c -> wfc (c_n cx) c /\
      near (c_n cx) (phase (c_n cx) s c) (if (j =? msb_value (map negb xs))%nat then phase (c_n cx) s b else pzero)
           (Z.of_nat (length gs) * ep_bound (c_n cx) base level S 1 E eps).
Proof. exact demux_C37. Qed.
Print Assumptions C37_demux_with.

Theorem C37_demux_unit_vector : forall cx fft eps base level s S E gs xs k,
  (0 < c_n cx)%nat -> 1 <= k <= 63 -> codec_new (c_mode cx) (2 ^ k) = Ok (c_codec cx) ->
  fft_ok (c_n cx) fft (2 ^ (Z.of_nat base - 1)) (2 * level) eps -> l1 (c_n cx) (tof s) S ->
  Forall2 (fun g x => const_ct (c_n cx) s base level E (b2z x) g) gs xs -> gs <> [] ->
  exists outs, demux fft cx gs = Ok outs /\ length outs = (2 ^ length gs)%nat /\
    forall j c, nth_error outs j = Some c -> wfc (c_n cx) c /\
      near (c_n cx) (phase (c_n cx) s c) (if (j =? msb_value (map negb xs))%nat then pcst (2 ^ (64 - k)) else pzero)
           (Z.of_nat (length gs) * ep_bound (c_n cx) base level S 1 E eps).
Proof. exact demux_unit_C37. Qed.
Print Assumptions C37_demux_unit_vector.

Theorem C37_empty_panics : forall fft cx b, demux_with fft cx b [] = Panic PAssert.
Proof. exact demux_empty_C37. Qed.
Print Assumptions C37_empty_panics.

(** C38.  The decomposition of an index makes demux select the slot of that index. *)
Theorem C38_index_selects_slot : forall cx fft eps s S E i a t b,
  (0 < c_n cx)%nat -> (1 <= a <= 63)%nat -> (i < 2 ^ a)%nat -> wfp (c_n cx) s ->
  decomp_ok (c_base cx) (c_level cx) -> tape_ok (c_n cx) E t ->
  fft_ok (c_n cx) fft (2 ^ (Z.of_nat (c_base cx) - 1)) (2 * c_level cx) eps -> l1 (c_n cx) (tof s) S -> wfc (c_n cx) b ->
  exists gs outs, bit_decomposed_rgsw cx s i (2 ^ a) t = Ok gs /\ length gs = a /\ demux_with fft cx b gs = Ok outs /\
    length outs = (2 ^ a)%nat /\
    forall j c, nth_error outs j = Some c -> wfc (c_n cx) c /\
      near (c_n cx) (phase (c_n cx) s c) (if (j =? i)%nat then phase (c_n cx) s b else pzero)
           (Z.of_nat a * ep_bound (c_n cx) (c_base cx) (c_level cx) S 1 E eps).
Proof.
  intros cx fft eps s S E i a t b Hn Ha Hi Ws Hd Ht Hf HS Wb.
  destruct (select_C38 cx fft eps s S E i (2 ^ a) t b) as (gs & outs & H1 & H2 & H3 & H4 & H5); try assumption.
  { replace a with (Datatypes.S (a - 1)) by lia. rewrite Nat.pow_succ_r'. pose proof (Nat.pow_nonzero 2 (a - 1) ltac:(lia)). lia. }
  { rewrite Nat2Z.inj_pow. apply Z.pow_lt_mono_r; lia. }
  rewrite (pow2_mod_id a i Hi) in H5. rewrite Nat.log2_pow2 in * by lia. exists gs, outs. auto 10.
Qed.
Print Assumptions C38_index_selects_slot.

(** In general (any width m >= 2, any index): log2 m bits, slot i mod 2^(log2 m). *)
Theorem C38_index_wraps : forall cx fft eps s S E i m t b,
  (0 < c_n cx)%nat -> (2 <= m)%nat -> Z.of_nat m < 2 ^ 64 -> wfp (c_n cx) s -> decomp_ok (c_base cx) (c_level cx) -> tape_ok (c_n cx) E t ->
  fft_ok (c_n cx) fft (2 ^ (Z.of_nat (c_base cx) - 1)) (2 * c_level cx) eps -> l1 (c_n cx) (tof s) S -> wfc (c_n cx) b ->
  exists gs outs, bit_decomposed_rgsw cx s i m t = Ok gs /\ length gs = Nat.log2 m /\ demux_with fft cx b gs = Ok outs /\
    length outs = (2 ^ Nat.log2 m)%nat /\
    forall j c, nth_error outs j = Some c -> wfc (c_n cx) c /\
      near (c_n cx) (phase (c_n cx) s c) (if (j =? i mod 2 ^ Nat.log2 m)%nat then phase (c_n cx) s b else pzero)
           (Z.of_nat (Nat.log2 m) * ep_bound (c_n cx) (c_base cx) (c_level cx) S 1 E eps).
Proof. exact select_C38. Qed.
Print Assumptions C38_index_wraps.

Theorem C38_zero_width_panics : forall cx s i t, exists p, bit_decomposed_rgsw cx s i 0 t = Panic p.
Proof. exact ulog2_0_fails. Qed.
Print Assumptions C38_zero_width_panics.

(** C39.  The whole protocol: [simulate] terminates without a failed assertion and its predictions are
    the ones of the plaintext tree, for every tree, batch of feature vectors, key and randomness. *)
Theorem C39_private_evaluation : forall lg k cx fft eps s S E model features t,
  params_ok cx lg k -> fft_for cx fft eps -> binary_key (c_n cx) s -> l1 (c_n cx) (tof s) S -> tape_ok (c_n cx) E t ->
  (exists th f ix op l r, model = Internal th f ix op l r) ->
  (forall th f ix op l r, sub (Internal th f ix op l r) model -> (th < c_n cx)%nat) ->
  Forall (fun x => Z.of_nat x < 2 ^ 48) (labels model) -> (exists y, In y (labels model) /\ y <> 0%nat) ->
  Forall (fun fs => evaluable model fs /\ Forall (fun v => (v < c_n cx)%nat) fs) features ->
  2 * (Z.of_nat (list_sum (leaf_depths model)) *
       ep_bound (c_n cx) (c_base cx) (c_level cx) S 1 (decision_noise cx S E eps) eps) < 2 ^ (64 - k) ->
  exists preds, simulate fft cx s model features t = Ok preds /\
    Forall2 (fun fs p => exists x, predicts model fs x /\ p = Z.of_nat x) features preds.
Proof. exact simulate_C39. Qed.
Print Assumptions C39_private_evaluation.

(** Features that do not fit the ring are rejected. *)
Theorem C39_large_feature_panics : forall cx lg k, params_ok cx lg k -> forall s vs t,
  Exists (fun v => (c_n cx <= v)%nat) vs -> exists p, encrypt_feature_vector cx s vs t = Panic p.
Proof. exact feature_vector_rejects. Qed.
Print Assumptions C39_large_feature_panics.

(** ** A concrete tree: three comparisons, labels 5, 2, 0, a missing child, two feature vectors. *)
Definition c39_tree : node :=
  Internal 1 0 0 LEQ
    (Some (Internal 2 1 1 LEQ (Some (Leaf 5)) (Some (Leaf 2))))
    (Some (Internal 0 1 2 LEQ None (Some (Leaf 0)))).
Lemma demo_params : params_ok demo_cx 2 1.
Proof. repeat split; cbn; try lia. Qed.
Lemma demo_fft_for : fft_for demo_cx (exact_fft 4) 0.
Proof. apply demo_fft. Qed.
Lemma c39_evaluable v w : evaluable c39_tree [v; w].
Proof.
  intros th f ix op l r H. inversion H as [|? ? ? ? ? ? ? H1|? ? ? ? ? ? ? H1]; subst; [split; [reflexivity|cbn; lia]|..].
  - inversion H1 as [|? ? ? ? ? ? ? H2|? ? ? ? ? ? ? H2]; subst; [split; [reflexivity|cbn; lia]|inversion H2|inversion H2].
  - inversion H1 as [|? ? ? ? ? ? ? H2|? ? ? ? ? ? ? H2]; subst; [split; [reflexivity|cbn; lia]|inversion H2].
Qed.
Lemma c39_thresholds th f ix op l r : sub (Internal th f ix op l r) c39_tree -> (th < 4)%nat.
Proof.
  intros H. inversion H as [|? ? ? ? ? ? ? H1|? ? ? ? ? ? ? H1]; subst; [lia|..].
  - inversion H1 as [|? ? ? ? ? ? ? H2|? ? ? ? ? ? ? H2]; subst; [lia|inversion H2|inversion H2].
  - inversion H1 as [|? ? ? ? ? ? ? H2|? ? ? ? ? ? ? H2]; subst; [lia|inversion H2].
Qed.
Example C39_nonvacuous :
  simulate (exact_fft 4) demo_cx demo_s c39_tree [[1%nat; 2%nat]; [0%nat; 3%nat]; [2%nat; 0%nat]; [3%nat; 3%nat]] demo_tape = Ok [5; 2; 0; 0].
Proof.
  destruct (C39_private_evaluation 2 1 demo_cx (exact_fft 4) 0 demo_s 3 3 c39_tree [[1%nat; 2%nat]; [0%nat; 3%nat]; [2%nat; 0%nat]; [3%nat; 3%nat]] demo_tape) as (p & Ep & HF);
    [apply demo_params|apply demo_fft_for|apply demo_key|apply demo_l1|apply demo_tape_ok|repeat eexists|apply c39_thresholds| | | | |].
  - repeat constructor.
  - exists 5%nat. split; [cbn; auto|discriminate].
  - repeat (apply Forall_cons || apply Forall_nil); (split; [apply c39_evaluable|repeat (apply Forall_cons || apply Forall_nil); cbn; lia]).
  - vm_compute. reflexivity.
  - rewrite Ep. clear Ep. f_equal.
    repeat match goal with H : Forall2 _ _ _ |- _ => inversion H; clear H; subst end.
    repeat match goal with H : exists x, _ |- _ => destruct H as (? & ? & ->) end.
    repeat match goal with H : predicts _ _ _ |- _ => inversion H; clear H; subst; cbn in * end;
    repeat match goal with H : Some _ = Some _ |- _ => injection H as ?; subst end; try discriminate; try lia; reflexivity.
Qed.

(** C36: the hypotheses hold for ciphertexts of the decisions, here of features (1, 3). *)
Definition c36_ct (m : Z) : rgsw := encrypt_constant_rgsw 4 demo_s 5 11 m demo_tape.
Lemma c36_const m : const_ct 4 demo_s 5 11 3 m (c36_ct m).
Proof. split; [|split; reflexivity]. apply encrypt_constant_rgsw_ok; [lia|apply demo_s_wf|apply demo_decomp|apply demo_tape_ok]. Qed.
Definition c36_enc : enc_node rgsw :=
  EInternal (c36_ct 1)
    (Some (EInternal (c36_ct 0) (Some (ELeaf 5)) (Some (ELeaf 2))))
    (Some (EInternal (c36_ct 0) (Some (ELeaf 0)) (Some (ELeaf 0)))).
Example C36_nonvacuous :
  enc_matches c36_enc c39_tree [c36_ct 1; c36_ct 0; c36_ct 0] /\
  Forall2 (decision_ct 4 demo_s 5 11 3 [1%nat; 3%nat]) [c36_ct 1; c36_ct 0; c36_ct 0] (preorder c39_tree) /\
  (outs <- enc_eval (exact_fft 4) demo_cx c36_enc ;; decrypt_and_recompose demo_cx demo_s outs) = Ok 2.
Proof.
  split; [|split].
  - apply (EM_internal _ _ _ _ _ _ _ _ _ [c36_ct 0] [c36_ct 0]); apply EC_some.
    + apply (EM_internal _ _ _ _ _ _ _ _ _ [] []); apply EC_some, EM_leaf.
    + apply (EM_internal _ _ _ _ _ _ _ _ _ [] []); [apply EC_missing|apply EC_some, EM_leaf].
  - constructor; [|constructor; [|constructor; [|constructor]]]; (split; [reflexivity|]).
    + exists 1%nat. split; [reflexivity|]. apply c36_const.
    + exists 3%nat. split; [reflexivity|]. apply c36_const.
    + exists 3%nat. split; [reflexivity|]. apply c36_const.
  - vm_compute. reflexivity.
Qed.

(** C37, C38: the four slots for every index of a width-4 database. *)
Example C37_C38_nonvacuous :
  (forall i : nat, const_ct 4 demo_s 5 11 3 (b2z (Nat.testbit i 0)) (c36_ct (b2z (Nat.testbit i 0)))) /\
  mapM (fun i => gs <- bit_decomposed_rgsw demo_cx demo_s i 4 demo_tape ;;
                 outs <- demux (exact_fft 4) demo_cx gs ;;
                 mapM (fun c => pt <- decrypt_decode_rlwe demo_cx demo_s c ;; index pt 0) outs) [0; 1; 2; 3; 6]%nat
  = Ok [[1; 0; 0; 0]; [0; 1; 0; 0]; [0; 0; 1; 0]; [0; 0; 0; 1]; [0; 0; 1; 0]].
Proof. split; [intros i; apply c36_const|vm_compute; reflexivity]. Qed.
