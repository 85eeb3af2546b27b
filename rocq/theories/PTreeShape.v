(** * Property C75: what the server of the tree protocol sees, and sends back, does not depend on the client's
    features. *)
From Verif Require Import MBase MUtils MCodec MPoly MRlwe MTree MEncTree MSim.
From Verif Require Import SpecRing SpecLwe SpecTree SpecEnc SpecShape.
From Verif Require Import PfTree PfPoly PfRlwe PfEnc2 PfEnc4 PfTrace1 PfTrace2 PfTreeShape PfQuery PfDet2 PSched PTree PEnc Demo.
Local Open Scope nat_scope.

(** A client's message: per feature, one ciphertext per decomposition level. *)
Theorem C75_message_shape : forall cx s vs t cts, length s = c_n cx -> draws_fit (c_n cx) t ->
  encrypt_feature_vector cx s vs t = Ok cts ->
  map (map ct_shape) cts = repeat (repeat (c_n cx, c_n cx) (c_level cx)) (length vs).
Proof.
  intros cx s vs t cts Hs Ht H. unfold encrypt_feature_vector in H. apply bind_ok in H as (logn & _ & H).
  destruct (mapM_ok_In _ (fun row => map ct_shape row = repeat (c_n cx, c_n cx) (c_level cx)) _ _ H) as [HF HL].
  - intros [i v] row _ E. destruct (mapM_ok_In _ (fun c => ct_shape c = (c_n cx, c_n cx)) _ _ E) as [HF HL].
    + intros level c _ Ec. unfold encrypt_feature_level, rassert in Ec. cbn [snd fst] in Ec. destruct (v <? c_n cx); [|discriminate]. cbn [bind] in Ec.
      apply bind_ok in Ec as (sh0 & _ & Ec). apply bind_ok in Ec as (sh & _ & Ec). apply bind_ok in Ec as (x & _ & Ec). injection Ec as <-.
      destruct (split_fit _ t i Ht level) as [L1 L2]. unfold ct_shape, encrypt_rlwe. cbn [mask body]. unfold poly_add. rewrite !map2_len, L1, L2, upd_length.
      unfold poly_mul, poly_zero. rewrite map_length, seq_length, repeat_length. f_equal. lia.
    + rewrite seq_length in HL. rewrite <- HL. clear - HF. induction HF; cbn; f_equal; assumption.
  - rewrite combine_length, seq_length, Nat.min_id in HL. rewrite <- HL. clear - HF. induction HF; cbn; f_equal; assumption.
Qed.
Print Assumptions C75_message_shape.

(** Its random parts: with the same randomness, any two feature vectors of the same length give the same masks. *)
Theorem C75_message_masks : forall cx s vs1 vs2 t cts1 cts2, length vs1 = length vs2 ->
  encrypt_feature_vector cx s vs1 t = Ok cts1 -> encrypt_feature_vector cx s vs2 t = Ok cts2 ->
  map (map mask) cts1 = map (map mask) cts2.
Proof.
  intros cx s vs1 vs2 t cts1 cts2 HL H1 H2.
  enough (forall vs cts, encrypt_feature_vector cx s vs t = Ok cts ->
     map (map mask) cts = map (fun i => map (fun level => d_mask (split t i level)) (seq 1 (c_level cx))) (seq 0 (length vs))) as HH
    by (rewrite (HH _ _ H1), (HH _ _ H2), HL; reflexivity).
  clear. intros vs cts H. unfold encrypt_feature_vector in H. apply bind_ok in H as (logn & _ & H).
  revert cts H. generalize (seq 1 (c_level cx)) as ls. intros ls. generalize 0 as a. induction vs as [|v vs IH]; intros a cts H; cbn [length seq combine mapM] in H; [injection H as <-; reflexivity|].
  apply bind_ok in H as (row & E & H). apply bind_ok in H as (rest & Er & H). injection H as <-. cbn [map length seq]. rewrite (IH (Datatypes.S a) rest Er). f_equal.
  clear - E. cbn [fst snd] in E. revert row E. induction ls as [|l ls IH]; intros row E; cbn [mapM] in E; [injection E as <-; reflexivity|].
  apply bind_ok in E as (c & Ec & E). apply bind_ok in E as (cs & Ecs & E). injection E as <-. cbn [map]. rewrite (IH cs Ecs). f_equal.
  unfold encrypt_feature_level, rassert in Ec. destruct (v <? c_n cx); [|discriminate]. cbn [bind] in Ec.
  apply bind_ok in Ec as (sh0 & _ & Ec). apply bind_ok in Ec as (sh & _ & Ec). apply bind_ok in Ec as (x & _ & Ec). injection Ec as <-. reflexivity.
Qed.
Print Assumptions C75_message_masks.

(** The server's reply to two messages of the same dimensions (honest or not): both times a panic, or both
    times a reply, of the same dimensions. *)
Theorem C75_reply_oblivious : forall fft cx model neg_s m cts1 cts2, fft_size cx fft ->
  map (map ct_shape) cts1 = map (map ct_shape) cts2 ->
  match server_f fft cx model neg_s m cts1, server_f fft cx model neg_s m cts2 with
  | Ok out1, Ok out2 => map ct_shape out1 = map ct_shape out2
  | Panic _, Panic _ => True
  | _, _ => False
  end.
Proof.
  intros fft cx model neg_s m cts1 cts2 Hf H.
  assert (Forall2 (Forall2 V) cts1 cts2) as HV.
  { revert cts2 H. induction cts1 as [|a cts1 IH]; intros [|b cts2] H; try discriminate; constructor; [|apply IH; injection H; auto].
    apply (f_equal (fun l => hd [] l)) in H. cbn in H. clear - H. revert b H. induction a as [|x a IH]; intros [|y b] H; try discriminate; constructor; [|apply IH; injection H; auto].
    unfold V. apply (f_equal (fun l => hd (0, 0) l)) in H. exact H. }
  pose proof (server_sim fft cx Hf model neg_s m cts1 cts2 HV) as HS.
  destruct (server_f fft cx model neg_s m cts1), (server_f fft cx model neg_s m cts2); cbn in HS; try contradiction; auto.
  clear - HS. induction HS as [|x y l l' Hxy HS IH]; cbn; [reflexivity|]. f_equal; [exact Hxy|exact IH].
Qed.
Print Assumptions C75_reply_oblivious.

(** The dimensions of a reply are those given by the public tree: one ciphertext per bit of the largest label. *)
Theorem C75_reply_shape : forall fft cx model neg_s m cts out, fft_size cx fft -> 0 < c_n cx ->
  server_f fft cx model neg_s m cts = Ok out ->
  map ct_shape out = repeat (c_n cx, c_n cx) (Nat.log2_up (list_max (labels model) + 1)).
Proof.
  intros fft cx model neg_s m cts out Hf Hn H. unfold server_f in H. apply bind_ok in H as (gs & Eg & H). apply bind_ok in H as ([e rest] & Ee & H).
  assert (max_leaf e = list_max (labels model)) as Hmax.
  { destruct model as [th f ix op l r|x]; [|destruct gs; discriminate].
    destruct (mapM_ok_In _ (fun _ => True) _ _ Eg) as [_ HL]; [auto|].
    destruct (C35_enc_tree_matches rgsw (Internal th f ix op l r) gs []) as (e' & E' & M); [repeat eexists|rewrite HL; symmetry; apply C31_counts|].
    rewrite app_nil_r in E'. rewrite E' in Ee. injection Ee as <- <-. eapply max_leaf_labels, M. }
  unfold enc_eval, max_leaf_bits in H. rewrite Hmax in H. apply bind_ok in H as (c & Ec & H). injection H as <-.
  assert (ct_shape c = (c_n cx, c_n cx)) as Hc.
  { unfold trivial_one in Ec. apply bind_ok in Ec as (x & _ & Ec). injection Ec as <-. unfold ct_shape. cbn. rewrite upd_length. unfold poly_zero. rewrite repeat_length. reflexivity. }
  set (k := Nat.log2_up _). clearbody k.
  assert (Forall2 V (repeat (rlwe_allocate (c_n cx)) k) (repeat (rlwe_allocate (c_n cx)) k)) as _ by (apply F2_refl; reflexivity).
  enough (forall out b, map ct_shape out = repeat (c_n cx, c_n cx) k -> ct_shape b = (c_n cx, c_n cx) ->
            map ct_shape (eval_enc_node fft (c_n cx) out e b) = repeat (c_n cx, c_n cx) k) as HH.
  { apply HH; [|exact Hc]. clear. induction k; cbn; f_equal; [|exact IHk]. unfold ct_shape, rlwe_allocate, poly_zero. cbn. rewrite !repeat_length. reflexivity. }
  clear - Hf. induction e as [x|ct l r IHl IHr] using @enc_node_ind'; intros out b Ho Hb; cbn [eval_enc_node].
  - generalize (bits64 x) as bits. intros bits. revert k out Ho. induction bits as [|bit bits IH]; intros k out Ho; cbn; [exact Ho|]. destruct out as [|c out]; [exact Ho|].
    destruct k as [|k]; [discriminate|]. cbn in Ho |- *. injection Ho as H1 H2 H3. f_equal; [|apply IH, H3]. destruct bit; [|unfold ct_shape; congruence].
    unfold ct_shape in *. injection Hb as B1 B2. cbn. unfold poly_add. rewrite !map2_len, H1, H2, B1, B2, !Nat.min_id. reflexivity.
  - assert (ct_shape (external_product fft ct (rlwe_allocate (c_n cx)) b) = (c_n cx, c_n cx)) as HL.
    { unfold ct_shape, external_product, add_backward, poly_add, rlwe_allocate, poly_zero. cbn. rewrite !map2_len, !Hf, !repeat_length, !Nat.min_id. reflexivity. }
    assert (ct_shape (rlwe_sub b (external_product fft ct (rlwe_allocate (c_n cx)) b)) = (c_n cx, c_n cx)) as HR.
    { revert HL Hb. generalize (external_product fft ct (rlwe_allocate (c_n cx)) b) as x. unfold ct_shape. intros x HL Hb. injection HL as L1 L2. injection Hb as B1 B2.
      cbn. unfold poly_sub. rewrite !map2_len, L1, L2, B1, B2, !Nat.min_id. reflexivity. }
    destruct l as [l|]; destruct r as [r|]; repeat first [apply (IHl _ eq_refl)|apply (IHr _ eq_refl)|assumption].
Qed.
Print Assumptions C75_reply_shape.

(** An instance: two clients of the tree of C39 with different predictions. *)
Lemma demo_fit i : draws_fit 4 (split demo_tape i).
Proof. intros j. split; reflexivity. Qed.
Lemma demo_client v w : v < 4 -> w < 4 -> exists neg_s m c o, neg_gsw demo_cx demo_s (split demo_tape 0) = Ok neg_s /\
  gen_all_subs_ksk demo_cx demo_s (split demo_tape 1) = Ok m /\ encrypt_feature_vector demo_cx demo_s [v; w] (split demo_tape 2) = Ok c /\
  server_f (exact_fft 4) demo_cx c39_tree neg_s m c = Ok o.
Proof.
  intros Hv Hw.
  destruct (C39_private_evaluation 2 1 demo_cx (exact_fft 4) 0 demo_s 3 3 c39_tree [[v; w]] demo_tape) as (p & Ep & _);
    [apply demo_params|apply demo_fft_for|apply demo_key|apply demo_l1|apply demo_tape_ok|repeat eexists|apply c39_thresholds| | | | |].
  - repeat constructor.
  - exists 5%nat. split; [cbn; auto|discriminate].
  - repeat (apply Forall_cons || apply Forall_nil); (split; [apply c39_evaluable|repeat (apply Forall_cons || apply Forall_nil); cbn; lia]).
  - vm_compute. reflexivity.
  - unfold simulate in Ep. apply bind_ok in Ep as (neg & E1 & Ep). apply bind_ok in Ep as (m & E2 & Ep). apply bind_ok in Ep as (cs & E3 & Ep). apply bind_ok in Ep as (os & E4 & _).
    cbn [length seq combine mapM fst snd Nat.add] in E3. apply bind_ok in E3 as (c & E3 & E3'). injection E3' as <-. cbn [mapM] in E4. apply bind_ok in E4 as (o & E4 & _).
    exists neg, m, c, o. auto.
Qed.
Example C75_applies : exists neg_s m c1 c2 o1 o2,
  encrypt_feature_vector demo_cx demo_s [1; 2] (split demo_tape 2) = Ok c1 /\ encrypt_feature_vector demo_cx demo_s [3; 0] (split demo_tape 2) = Ok c2 /\
  map (map ct_shape) c1 = map (map ct_shape) c2 /\ map (map mask) c1 = map (map mask) c2 /\
  server_f (exact_fft 4) demo_cx c39_tree neg_s m c1 = Ok o1 /\ server_f (exact_fft 4) demo_cx c39_tree neg_s m c2 = Ok o2 /\
  map ct_shape o1 = repeat (4, 4) 3 /\ map ct_shape o2 = repeat (4, 4) 3.
Proof.
  destruct (demo_client 1 2) as (neg & m & c1 & o1 & E1 & E2 & E3 & E4); [lia|lia|].
  destruct (demo_client 3 0) as (neg' & m' & c2 & o2 & E1' & E2' & E3' & E4'); [lia|lia|].
  rewrite E1 in E1'. injection E1' as <-. rewrite E2 in E2'. injection E2' as <-.
  exists neg, m, c1, c2, o1, o2. split; [exact E3|]. split; [exact E3'|].
  split; [rewrite (C75_message_shape demo_cx demo_s _ _ _ eq_refl (demo_fit 2) E3), (C75_message_shape demo_cx demo_s _ _ _ eq_refl (demo_fit 2) E3'); reflexivity|].
  split; [eapply C75_message_masks; [|exact E3|exact E3']; reflexivity|]. split; [exact E4|]. split; [exact E4'|].
  split; eapply (C75_reply_shape (exact_fft 4) demo_cx c39_tree); try eassumption; try exact exact_fft_size; cbn; lia.
Qed.
