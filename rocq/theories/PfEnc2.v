(** * Evaluation of the encrypted tree from the root, decryption of the label *)
From Coq Require Import Setoid Morphisms Ring.
From Verif Require Import MBase MUtils MCodec MPoly MRlwe MTree MEncTree SpecLwe SpecTree SpecEnc PolyRing PfPoly PfNear PfRlwe PfRlwe3 PfRlwe5 PfTree PfCodec LRlwe PfEnc.
Local Open Scope Z_scope.

Lemma upd_zero_mono n j x : (j < n)%nat -> upd (poly_zero n) j x = poly_mono n j x.
Proof.
  intros Hj. assert (length (poly_zero n) = n) as L by (unfold poly_zero; apply repeat_length).
  apply (nth_ext _ _ 0 0).
  - rewrite upd_length, L. unfold poly_mono. now rewrite map_length, seq_length.
  - intros i Hi. rewrite upd_length, L in Hi. rewrite nth_upd by lia.
    change (nth i (poly_mono n j x) 0) with (tof (poly_mono n j x) i). rewrite tof_mono_nth by exact Hi.
    rewrite Nat.eqb_sym. destruct (Nat.eqb_spec i j); [reflexivity|]. unfold poly_zero. apply nth_repeat.
Qed.

Section Tr.
Variable n : nat.
Hypothesis Hn : (0 < n)%nat.
Add Ring Pring : (P_ring n Hn) (setoid (peq_equiv n) (P_ext n)).

(** A ciphertext made by the server: mask 0, constant [x]. *)
Lemma trivial_ct x s : is_word x ->
  wfc n {| mask := poly_zero n; body := upd (poly_zero n) 0 x |} /\
  near n (phase n s {| mask := poly_zero n; body := upd (poly_zero n) 0 x |}) (pcst x) 0.
Proof.
  intros Hx. rewrite upd_zero_mono by exact Hn. split.
  - split; cbn [mask body]; [apply wfp_zero|apply wfp_mono, Hx].
  - apply near_refl. unfold phase. cbn [mask body]. rewrite tof_zero. rewrite tof_pcst. ring.
Qed.
End Tr.

Lemma pow_word k : 0 <= k < 64 -> is_word (2 ^ k).
Proof. intros H. split; [apply Z.pow_nonneg; lia|]. apply Z.pow_lt_mono_r; lia. Qed.

Lemma trivial_one_ok cx k : 1 <= k <= 63 -> codec_new (c_mode cx) (2 ^ k) = Ok (c_codec cx) -> (0 < c_n cx)%nat ->
  exists c, trivial_one cx = Ok c /\ wfc (c_n cx) c /\ forall s, near (c_n cx) (phase (c_n cx) s c) (pcst (2 ^ (64 - k))) 0.
Proof.
  intros Hk Hc Hn. unfold trivial_one. rewrite (codec_new_inv _ _ _ Hk Hc).
  assert (1 < 2 ^ k) as H1 by (apply Z.pow_gt_1; lia).
  rewrite (encode_ok (c_mode cx) k 1) by lia. cbn [bind]. rewrite Z.mul_1_l.
  eexists; split; [reflexivity|]. split.
  - apply (trivial_ct _ Hn _ []). apply pow_word; lia.
  - intros s. apply trivial_ct; [exact Hn|]. apply pow_word; lia.
Qed.

Lemma max_leaf_labels {C} t : forall (e : enc_node C) cts, enc_matches e t cts -> max_leaf e = list_max (labels t).
Proof.
  induction t as [x | th f ix op l r IHl IHr] using node_ind'; intros e cts H; inversion H; subst.
  - cbn. lia.
  - cbn [max_leaf labels]. rewrite list_max_app.
    match goal with H1 : enc_child el l cl, H2 : enc_child er r cr |- _ => inversion H1; inversion H2; subst end; cbn [max_leaf];
    repeat match goal with H0 : enc_matches ?e0 ?t0 ?c0, IH : forall n, Some ?t0 = Some n -> _ |- _ => rewrite (IH _ eq_refl _ _ H0); clear H0 end; try reflexivity; cbn [list_max fold_right]; lia.
Qed.

Lemma bits_value_testbit m : forall x a, bits_value (map (Nat.testbit x) (seq a m)) = Z.of_nat ((x / 2 ^ a) mod 2 ^ m).
Proof.
  induction m as [|m IH]; intros x a.
  - cbn [seq map bits_value]. rewrite Nat.pow_0_r, Nat.mod_1_r. reflexivity.
  - cbn [seq map bits_value]. rewrite IH. rewrite (Nat.pow_succ_r' 2 m).
    rewrite Nat.mod_mul_r by (try apply Nat.pow_nonzero; lia).
    assert ((x / 2 ^ a) mod 2 = Nat.b2n (Nat.testbit x a))%nat as -> by (symmetry; apply Nat.testbit_spec').
    rewrite Nat.div_div by (try apply Nat.pow_nonzero; lia).
    replace (2 ^ a * 2)%nat with (2 ^ Datatypes.S a)%nat by (rewrite Nat.pow_succ_r'; lia).
    rewrite Nat2Z.inj_add, Nat2Z.inj_mul. destruct (Nat.testbit x a); reflexivity.
Qed.

Lemma recompose cx s k outs x B : (0 < c_n cx)%nat -> 1 <= k <= 63 -> codec_new (c_mode cx) (2 ^ k) = Ok (c_codec cx) ->
  (1 <= length outs <= 64)%nat -> Forall (wfc (c_n cx)) outs -> (x < 2 ^ length outs)%nat -> 2 * B < 2 ^ (64 - k) ->
  (forall i, (i < length outs)%nat -> near (c_n cx) (phase (c_n cx) s (nth i outs nilc)) (pcst (b2z (Nat.testbit x i) * 2 ^ (64 - k))) B) ->
  decrypt_and_recompose cx s outs = Ok (Z.of_nat x).
Proof.
  intros Hn Hk Hc Hl Hw Hx HB HN. unfold decrypt_and_recompose.
  assert (1 < 2 ^ k) as H1 by (apply Z.pow_gt_1; lia).
  set (f := fun ct => _).
  assert (mapM f outs = Ok (map (Nat.testbit x) (seq 0 (length outs)))) as ->.
  { apply mapM_pointwise; [now rewrite map_length, seq_length|].
    intros i c Hi. assert (i < length outs)%nat as Hin by (apply nth_error_Some; congruence).
    exists (Nat.testbit x i). split; [rewrite nth_error_map, nth_error_nth' with (d := 0%nat) by (rewrite seq_length; exact Hin); rewrite seq_nth by exact Hin; reflexivity|].
    assert (c = nth i outs nilc) as -> by (symmetry; apply nth_error_nth; exact Hi).
    unfold f. set (pt := b2z (Nat.testbit x i) :: repeat 0 (c_n cx - 1)).
    rewrite (decrypt_decode_near (c_n cx) Hn cx s (nth i outs nilc) k pt B); auto.
    - cbn. destruct (Nat.testbit x i); reflexivity.
    - apply nth_wfc; assumption.
    - split; [unfold pt; cbn [length]; rewrite repeat_length; lia|]. constructor; [destruct (Nat.testbit x i); cbn; lia|].
      apply Forall_forall. intros y Hy. apply repeat_spec in Hy. subst. lia.
    - eapply near_eq_r; [|apply HN; exact Hin]. intros [|j] Hj; unfold scaled, pt, pcst; cbn [nth].
      + reflexivity.
      + rewrite nth_repeat. reflexivity. }
  cbn [bind]. rewrite map_length, seq_length.
  destruct (Nat.leb_spec 1 (length outs)); [|lia]. destruct (Nat.leb_spec (length outs) 64); [|lia]. cbn [andb].
  rewrite bits_value_testbit. rewrite Nat.pow_0_r, Nat.div_1_r, Nat.mod_small by exact Hx. reflexivity.
Qed.

Lemma list_max_in l x : In x l -> (x <= list_max l)%nat.
Proof. intros H. pose proof (proj1 (list_max_le l (list_max l)) (le_n _)) as F. rewrite Forall_forall in F. auto. Qed.

Lemma list_max_bound l b : Forall (fun x => Z.of_nat x < b) l -> 0 < b -> Z.of_nat (list_max l) < b.
Proof.
  induction l as [|x l IH]; intros H Hb; [exact Hb|]. apply Forall_cons_iff in H as [H1 H2]. cbn [list_max fold_right].
  fold (list_max l). specialize (IH H2 Hb). destruct (Nat.max_spec x (list_max l)) as [[_ ->]|[_ ->]]; assumption.
Qed.

Lemma nth_repeat_lt0 {A} (a d : A) m i : (i < m)%nat -> nth i (repeat a m) d = a.
Proof. intros H. rewrite (nth_indep _ d a) by (rewrite repeat_length; exact H). apply nth_repeat. Qed.

(** ** C36 *)
Lemma eval_C36 cx fft eps base level s S E fs t e cts k :
  (0 < c_n cx)%nat -> 1 <= k <= 63 -> codec_new (c_mode cx) (2 ^ k) = Ok (c_codec cx) ->
  fft_ok (c_n cx) fft (2 ^ (Z.of_nat base - 1)) (2 * level) eps -> l1 (c_n cx) (tof s) S ->
  enc_matches e t cts -> Forall2 (decision_ct (c_n cx) s base level E fs) cts (preorder t) ->
  Forall (fun x => Z.of_nat x < 2 ^ 48) (labels t) ->
  let B := Z.of_nat (list_sum (leaf_depths t)) * ep_bound (c_n cx) base level S 1 E eps in
  exists x outs, predicts t fs x /\ enc_eval fft cx e = Ok outs /\
    length outs = Nat.log2_up (list_max (labels t) + 1) /\ Forall (wfc (c_n cx)) outs /\ (x < 2 ^ length outs)%nat /\
    (forall i c, nth_error outs i = Some c ->
       near (c_n cx) (phase (c_n cx) s c) (pcst (b2z (Nat.testbit x i) * 2 ^ (64 - k))) B) /\
    (2 * B < 2 ^ (64 - k) -> (exists y, In y (labels t) /\ y <> 0%nat) -> decrypt_and_recompose cx s outs = Ok (Z.of_nat x)).
Proof.
  intros Hn Hk Hc Hf HS Hm Hd Hlab B.
  destruct (eval_enc_ok (c_n cx) Hn fft base level eps Hf s S E HS (2 ^ (64 - k)) fs t e cts Hm Hd) as (x & Px & A).
  destruct (trivial_one_ok cx k Hk Hc Hn) as (c & Ec & Wc & Nc).
  unfold enc_eval. rewrite Ec. cbn [bind]. unfold max_leaf_bits. rewrite (max_leaf_labels t e cts Hm).
  set (m := list_max (labels t)). set (len := Nat.log2_up (m + 1)).
  assert (Z.of_nat m < 2 ^ 48) as Hm48.
  { destruct (Nat.eq_dec m 0) as [->|Hm0]; [reflexivity|]. apply (list_max_bound (labels t)); [exact Hlab|reflexivity]. }
  assert (len <= 48)%nat as Hl48.
  { destruct (Nat.le_gt_cases len 48) as [H|H]; [exact H|exfalso].
    assert (1 < m + 1)%nat as Hm1 by (destruct (Nat.le_gt_cases (m + 1) 1) as [H'|H']; [unfold len in H; rewrite (proj2 (Nat.log2_up_null (m + 1)) H') in H; lia|exact H']).
    pose proof (Nat.log2_up_spec (m + 1) Hm1) as [H1 _]. fold len in H1.
    assert (2 ^ 48 <= 2 ^ (Z.of_nat len - 1)) as H2 by (apply Z.pow_le_mono_r; lia).
    apply inj_lt in H1. rewrite Nat2Z.inj_pow in H1. replace (Z.of_nat (Init.Nat.pred len)) with (Z.of_nat len - 1) in H1 by lia.
    change (Z.of_nat 2) with 2 in H1. lia. }
  assert (x <= m)%nat as Hxm.
  { destruct (predicts_label t fs x Px) as [H|H]; [apply list_max_in; exact H|lia]. }
  assert (x < 2 ^ len)%nat as Hx2.
  { destruct (Nat.le_gt_cases (m + 1) 1) as [H|H].
    - assert (x = 0)%nat as -> by lia. pose proof (Nat.pow_nonzero 2 len ltac:(lia)). lia.
    - pose proof (Nat.log2_up_spec (m + 1) H) as [_ H2]. fold len in H2. lia. }
  set (out := repeat (rlwe_allocate (c_n cx)) len).
  destruct (A out c true 0) as (L & W & N).
  { unfold out. rewrite repeat_length. lia. }
  { unfold out. apply Forall_forall. intros y Hy. apply repeat_spec in Hy. subst. apply wfc_allocate. }
  { exact Wc. }
  { cbn [b2z]. rewrite Z.mul_1_l. apply Nc. }
  assert (length (eval_enc_node fft (c_n cx) out e c) = len) as L' by (rewrite L; unfold out; apply repeat_length).
  assert (forall i, (i < len)%nat -> near (c_n cx) (phase (c_n cx) s (nth i (eval_enc_node fft (c_n cx) out e c) nilc))
            (pcst (b2z (Nat.testbit x i) * 2 ^ (64 - k))) B) as N'.
  { intros i Hi. specialize (N i ltac:(unfold out; rewrite repeat_length; exact Hi)).
    unfold cost in N. rewrite Z.mul_0_r, Z.add_0_l in N. fold B in N. eapply near_eq_r; [|exact N].
    unfold out. rewrite nth_repeat_lt0 by exact Hi. cbn [andb].
    rewrite (phase_allocate (c_n cx) Hn s). intros j _. unfold padd, pzero. apply eq_eqm. ring. }
  exists x, (eval_enc_node fft (c_n cx) out e c). split; [exact Px|]. split; [reflexivity|]. split; [exact L'|].
  split; [exact W|]. split; [rewrite L'; exact Hx2|]. split.
  - intros i c0 Hi. assert (i < len)%nat as Hin by (rewrite <- L'; apply nth_error_Some; congruence).
    rewrite <- (nth_error_nth _ _ nilc Hi). apply N'. exact Hin.
  - intros HB (y & Hy & Hy0). apply (recompose cx s k _ x B); auto.
    + rewrite L'. split; [|lia]. pose proof (list_max_in _ _ Hy) as Hym. fold m in Hym.
      assert (0 < Nat.log2_up (m + 1))%nat by (apply Nat.log2_up_pos; lia). unfold len. lia.
    + rewrite L'. exact Hx2.
    + rewrite L'. exact N'.
Qed.
