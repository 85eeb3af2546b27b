(** * Property C90: the number of result bits of an encrypted tree, computed in floating point *)
From Coq Require Import Reals.
From Flocq Require Import Core.Raux.
From Verif Require Import MBase MUtils MCodec MPoly MRlwe MTree MEncTree MFloat SpecRing SpecLwe SpecTree SpecEnc SpecDouble SpecLog PolyRing PfPoly PfNear PfRlwe PfRlwe3 PfRlwe5 PfTree PfCodec PfEnc PfEnc2 PfTreeShape PfFloat.
From Verif Require Import PRlwe PKeys PEnc Demo PAnyTree.
Local Open Scope Z_scope.

(** With a correctly rounded logarithm, labels below 2^48 get as many bits as they need. *)
Theorem C90_bits_correctly_rounded : forall md m, Z.of_nat m < 2 ^ 48 -> label_bits md binary64 rounded_log2 m = Ok (Nat.log2_up (m + 1)).
Proof. exact rounded_bits. Qed.
Print Assumptions C90_bits_correctly_rounded.

(** With any logarithm that is exact on powers of two and has a relative error of at most 2^-52 (two half-ulps or one ulp), labels below 2^44. *)
Theorem C90_bits_accurate : forall md lg m,
  (forall i, (i <= 44)%nat -> lg (2 ^ i)%R = INR i) -> (forall s, (1 <= s <= 2 ^ 44)%R -> (Rabs (lg s - log2 s) <= / 2 ^ 52 * log2 s)%R) ->
  Z.of_nat m < 2 ^ 44 -> label_bits md binary64 lg m = Ok (Nat.log2_up (m + 1)).
Proof. intros md lg m. apply accurate_bits. exact binary64_int. Qed.
Print Assumptions C90_bits_accurate.

(** So the evaluation that computes its number of bits this way returns the label reached, for labels below 2^48. *)
Theorem C90_evaluation : forall cx fft eps base level s S E e t k,
  (0 < c_n cx)%nat -> 1 <= k <= 63 -> codec_new (c_mode cx) (2 ^ k) = Ok (c_codec cx) ->
  fft_ok (c_n cx) fft (2 ^ (Z.of_nat base - 1)) (2 * level) eps -> l1 (c_n cx) (tof s) S ->
  encrypts_tree (c_n cx) s base level E e t -> Forall (fun x => Z.of_nat x < 2 ^ 48) (tree_labels t) ->
  let B := Z.of_nat (list_sum (tree_depths t)) * ep_bound (c_n cx) base level S 1 E eps in
  exists outs, enc_eval_float binary64 rounded_log2 fft cx e = Ok outs /\ length outs = Nat.log2_up (list_max (tree_labels t) + 1) /\
    (forall i c, nth_error outs i = Some c ->
       near (c_n cx) (phase (c_n cx) s c) (pcst (b2z (Nat.testbit (reached t) i) * 2 ^ (64 - k))) B) /\
    (2 * B < 2 ^ (64 - k) -> (exists y, In y (tree_labels t) /\ y <> 0%nat) -> decrypt_and_recompose cx s outs = Ok (Z.of_nat (reached t))).
Proof.
  intros cx fft eps base level s S E e t k Hn Hk Hc Hf HS He Hlab B.
  destruct (C36_any_encrypted_tree cx fft eps base level s S E e t k Hn Hk Hc Hf HS He Hlab) as (outs & Ee & L & _ & _ & N & D).
  exists outs. split; [|auto]. rewrite <- Ee. unfold enc_eval_float, enc_eval, max_leaf_bits. rewrite C90_bits_correctly_rounded; [reflexivity|].
  rewrite C36_max_leaf, (encrypts_labels _ _ _ _ _ _ _ He). apply list_max_bound; [exact Hlab|reflexivity].
Qed.
Print Assumptions C90_evaluation.

(** ** Larger labels *)
Lemma eval_truncated cx fft eps base level s S E e t k len :
  (0 < c_n cx)%nat -> 1 <= k <= 63 -> codec_new (c_mode cx) (2 ^ k) = Ok (c_codec cx) ->
  fft_ok (c_n cx) fft (2 ^ (Z.of_nat base - 1)) (2 * level) eps -> l1 (c_n cx) (tof s) S ->
  encrypts_tree (c_n cx) s base level E e t -> (1 <= len <= 64)%nat ->
  let B := Z.of_nat (list_sum (tree_depths t)) * ep_bound (c_n cx) base level S 1 E eps in
  2 * B < 2 ^ (64 - k) ->
  exists c outs, trivial_one cx = Ok c /\ eval_enc_node fft (c_n cx) (repeat (rlwe_allocate (c_n cx)) len) e c = outs /\ length outs = len /\
    decrypt_and_recompose cx s outs = Ok (Z.of_nat (reached t) mod 2 ^ Z.of_nat len).
Proof.
  intros Hn Hk Hc Hf HS He Hlen B HB.
  pose proof (any_adds (c_n cx) Hn fft base level eps Hf s S E HS (2 ^ (64 - k)) t e He) as A.
  destruct (trivial_one_ok cx k Hk Hc Hn) as (c & Ec & Wc & Nc).
  set (out := repeat (rlwe_allocate (c_n cx)) len). set (x := reached t) in *.
  destruct (A out c true 0) as (L & W & N).
  { unfold out. rewrite repeat_length. lia. }
  { unfold out. apply Forall_forall. intros y Hy. apply repeat_spec in Hy. subst. apply wfc_allocate. }
  { exact Wc. }
  { cbn [b2z]. rewrite Z.mul_1_l. apply Nc. }
  assert (length (eval_enc_node fft (c_n cx) out e c) = len) as L' by (rewrite L; unfold out; apply repeat_length).
  exists c, (eval_enc_node fft (c_n cx) out e c). split; [exact Ec|]. split; [reflexivity|]. split; [exact L'|].
  assert (2 ^ len <> 0)%nat as Hz by (apply Nat.pow_nonzero; lia).
  replace (Z.of_nat x mod 2 ^ Z.of_nat len) with (Z.of_nat (x mod 2 ^ len)) by (rewrite Nat2Z.inj_mod, Nat2Z.inj_pow; reflexivity).
  apply (recompose cx s k _ (x mod 2 ^ len)%nat B); rewrite ?L'; try assumption; [apply Nat.mod_upper_bound; exact Hz|].
  intros i Hi. rewrite Nat.mod_pow2_bits_low by exact Hi.
  specialize (N i ltac:(unfold out; rewrite repeat_length; exact Hi)).
  unfold cost in N. rewrite Z.mul_0_r, Z.add_0_l in N. fold B in N. eapply near_eq_r; [|exact N].
  unfold out. rewrite nth_repeat_lt0 by exact Hi. cbn [andb].
  intros j Hj. unfold padd. pose proof (phase_allocate (c_n cx) Hn s j Hj) as Q0. unfold eqm in *. rewrite Zplus_mod, Q0, <- Zplus_mod. reflexivity.
Qed.

(** If the largest label is 2^49, the correctly rounded logarithm of 2^49 + 1 is 49, one bit too few: whatever the tree, the result is the label
    reached modulo 2^49, so that label 2^49 itself comes out as 0. *)
Theorem C90_large_label_refuted : forall cx fft eps base level s S E e t k,
  (0 < c_n cx)%nat -> 1 <= k <= 63 -> codec_new (c_mode cx) (2 ^ k) = Ok (c_codec cx) ->
  fft_ok (c_n cx) fft (2 ^ (Z.of_nat base - 1)) (2 * level) eps -> l1 (c_n cx) (tof s) S ->
  encrypts_tree (c_n cx) s base level E e t -> Z.of_nat (list_max (tree_labels t)) = 2 ^ 49 ->
  2 * (Z.of_nat (list_sum (tree_depths t)) * ep_bound (c_n cx) base level S 1 E eps) < 2 ^ (64 - k) ->
  exists outs, enc_eval_float binary64 rounded_log2 fft cx e = Ok outs /\ length outs = 49%nat /\
    decrypt_and_recompose cx s outs = Ok (Z.of_nat (reached t) mod 2 ^ 49) /\
    (Z.of_nat (reached t) = 2 ^ 49 -> decrypt_and_recompose cx s outs = Ok 0).
Proof.
  intros cx fft eps base level s S E e t k Hn Hk Hc Hf HS He Hm HB.
  destruct (eval_truncated cx fft eps base level s S E e t k 49 Hn Hk Hc Hf HS He ltac:(lia) HB) as (c & outs & Ec & Eo & L & D).
  exists outs. split; [|split; [exact L|split; [exact D|intros Hr; rewrite D, Hr; reflexivity]]].
  unfold enc_eval_float. rewrite C36_max_leaf, (encrypts_labels _ _ _ _ _ _ _ He), (rounded_wrong _ _ Hm). cbn [bind]. rewrite Ec. cbn [bind]. f_equal. exact Eo.
Qed.
Print Assumptions C90_large_label_refuted.

(** The largest label of all, usize::MAX: adding 1 overflows.  A debug build panics; in a release build the sum is 0, its logarithm minus
    infinity, and the result has no ciphertext at all. *)
Theorem C90_largest_label : forall rnd lg fft cx e, Z.of_nat (list_max (tree_labels e)) = 2 ^ 64 - 1 ->
  match c_mode cx with
  | Checked => enc_eval_float rnd lg fft cx e = Panic POverflow
  | Wrapping => forall c, trivial_one cx = Ok c -> enc_eval_float rnd lg fft cx e = Ok (eval_enc_node fft (c_n cx) [] e c) /\
      forall outs s, enc_eval_float rnd lg fft cx e = Ok outs -> outs = [] /\ decrypt_and_recompose cx s outs = Panic PExplicit
  end.
Proof.
  intros rnd lg fft cx e Hm. unfold enc_eval_float. rewrite C36_max_leaf. unfold label_bits, uadd. rewrite Hm.
  destruct (Z.ltb_spec (2 ^ 64 - 1 + 1) q) as [G|G]; [vm_compute in G; discriminate|].
  destruct (c_mode cx).
  - reflexivity.
  - intros c Hc. cbn [bind]. change (wrap (2 ^ 64 - 1 + 1)) with 0. cbn [Z.eqb bind repeat]. rewrite Hc. cbn [bind].
    split; [reflexivity|]. intros outs s Ho. injection Ho as <-.
    assert (eval_enc_node fft (c_n cx) [] e c = []) as ->; [|split; reflexivity].
    clear. revert c. induction e as [x|ct l r IHl IHr] using @enc_node_ind'; intros c; cbn [eval_enc_node].
    + destruct (bits64 x); reflexivity.
    + destruct l as [l|]; [rewrite (IHl l eq_refl)|]; (destruct r as [r|]; [apply (IHr r eq_refl)|reflexivity]).
Qed.
Print Assumptions C90_largest_label.

(** Cases that meet the hypotheses: a tree with labels 5 and 12; trees with label 2^49 and with the largest label. *)
Lemma demo_decision (b : bool) x y : encrypts_tree 4 demo_s 5 11 3 (EInternal (demo_rgsw (b2z b)) (Some (ELeaf x)) (Some (ELeaf y))) (EInternal b (Some (ELeaf x)) (Some (ELeaf y))).
Proof. constructor; [split; [apply demo_rgsw_ok|split; reflexivity]|constructor; constructor|constructor; constructor]. Qed.
Example C90_evaluation_applies : exists outs,
  enc_eval_float binary64 rounded_log2 (exact_fft 4) demo_cx (EInternal (demo_rgsw 0) (Some (ELeaf 5)) (Some (ELeaf 12))) = Ok outs /\ length outs = 4%nat /\ decrypt_and_recompose demo_cx demo_s outs = Ok 12.
Proof.
  destruct (C90_evaluation demo_cx (exact_fft 4) 0 5 11 demo_s 3 3 _ _ 1 ltac:(cbn; lia) ltac:(lia) eq_refl ltac:(apply exact_fft_ok; cbn; lia) demo_l1 (demo_decision false 5 12)) as (outs & Ee & L & _ & D).
  - repeat constructor.
  - exists outs. split; [exact Ee|]. split; [exact L|]. apply D; [reflexivity|]. exists 5%nat. split; [left; reflexivity|discriminate].
Qed.
Example C90_large_label_applies : forall b m, Z.of_nat m = 2 ^ 49 -> exists outs,
  enc_eval_float binary64 rounded_log2 (exact_fft 4) demo_cx (EInternal (demo_rgsw (b2z b)) (Some (ELeaf m)) (Some (ELeaf m))) = Ok outs /\ length outs = 49%nat /\ decrypt_and_recompose demo_cx demo_s outs = Ok 0.
Proof.
  intros b m Hm.
  destruct (C90_large_label_refuted demo_cx (exact_fft 4) 0 5 11 demo_s 3 3 _ _ 1 ltac:(cbn; lia) ltac:(lia) eq_refl ltac:(apply exact_fft_ok; cbn; lia) demo_l1 (demo_decision b m m)) as (outs & Ee & L & _ & D).
  - cbn [tree_labels app list_max fold_right]. rewrite Nat.max_0_r, Nat.max_id. exact Hm.
  - reflexivity.
  - exists outs. split; [exact Ee|]. split; [exact L|]. apply D. cbn [reached]. destruct b; exact Hm.
Qed.
Example C90_label_exists : exists m, Z.of_nat m = 2 ^ 49. Proof. exists (Z.to_nat (2 ^ 49)). rewrite Z2Nat.id; lia. Qed.
Example C90_largest_applies : forall rnd lg fft g m, Z.of_nat m = 2 ^ 64 - 1 ->
  enc_eval_float rnd lg fft demo_cx (EInternal g (Some (ELeaf m)) None) = Panic POverflow.
Proof.
  intros rnd lg fft g m Hm. apply (C90_largest_label rnd lg fft demo_cx (EInternal g (Some (ELeaf m)) None)).
  cbn [tree_labels app list_max fold_right]. rewrite Nat.max_0_r. exact Hm.
Qed.
(** A logarithm as C90_bits_accurate requires: the exact one. *)
Example C90_accurate_applies : label_bits Checked binary64 log2 1000 = Ok 10%nat.
Proof.
  rewrite C90_bits_accurate; [reflexivity|intros i _; apply log2_pow| |reflexivity].
  intros s [H _]. rewrite Rminus_diag_eq by reflexivity. rewrite Rabs_R0. apply Rmult_le_pos.
  - apply Rlt_le, Rinv_0_lt_compat, pow_lt. apply Rlt_0_2.
  - replace 0%R with (log2 (2 ^ 0)) by (rewrite log2_pow; reflexivity). apply log2_le; [apply pow_lt, Rlt_0_2|exact H].
Qed.
