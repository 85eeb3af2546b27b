(** * Shapes of queries *)
From Coq Require Import Lia.
From Verif Require Import MBase MUtils MCodec MPoly MRlwe MHash MEncTree MSched MOram SpecShape PfEnc3 PfDet2.
Local Open Scope nat_scope.

Lemma map2_len {A B C} (f : A -> B -> C) l1 l2 : length (map2 f l1 l2) = Nat.min (length l1) (length l2).
Proof. revert l2; induction l1; destruct l2; simpl; auto. Qed.

Section S.
Variables (cx : ctx) (s : poly).
Hypothesis Hs : length s = c_n cx.

Lemma enc_shape pt d : length pt = c_n cx -> length (d_mask d) = c_n cx -> length (d_noise d) = c_n cx ->
  ct_shape (encrypt_rlwe (c_n cx) s pt d) = (c_n cx, c_n cx).
Proof.
  intros Hp Hm Hn. unfold ct_shape, encrypt_rlwe; cbn [mask body]. f_equal; auto.
  unfold poly_add. rewrite !map2_len. unfold poly_mul. rewrite ?map_length, ?seq_length. lia.
Qed.

Lemma gsw_enc_shape m t : draws_fit (c_n cx) t ->
  gsw_shape (encrypt_constant_rgsw (c_n cx) s (c_base cx) (c_level cx) m t) = public_gsw cx.
Proof.
  intros Ht. unfold gsw_shape, public_gsw, encrypt_constant_rgsw; cbn [g_base g_level g_rows]. f_equal.
  rewrite map_map. rewrite <- (seq_length (2 * c_level cx) 0) at 2.
  generalize (seq 0 (2 * c_level cx)) as l. induction l; auto. cbn [map repeat length]. f_equal; auto.
  destruct (Ht a). destruct (Nat.even a); apply enc_shape; auto.
  - unfold mul_const. now rewrite map_length.
  - unfold poly_mono. now rewrite map_length, seq_length.
Qed.
Lemma split_fit t i : draws_fit (c_n cx) t -> draws_fit (c_n cx) (split t i).
Proof. intros H j; apply H. Qed.

Lemma bits_shape i cols t gs : 0 < cols -> (Z.of_nat cols < q)%Z -> draws_fit (c_n cx) t ->
  bit_decomposed_rgsw cx s i cols t = Ok gs -> map gsw_shape gs = repeat (public_gsw cx) (Nat.log2 cols).
Proof.
  intros Hc Hq Ht. unfold bit_decomposed_rgsw. rewrite ulog2_nat by auto. cbn [bind].
  destruct (Z.leb_spec (Z.of_nat (Nat.log2 cols)) 64); cbn [bind]; [|discriminate].
  intros HH. apply (f_equal (fun r => match r with Ok x => x | Panic _ => [] end)) in HH. subst gs.
  rewrite map_map.
  assert (Hl : length (rev (firstn (Z.to_nat (Z.of_nat (Nat.log2 cols))) (bits64 i))) = Nat.log2 cols).
  { rewrite rev_length, firstn_length, Nat2Z.id. unfold bits64. rewrite map_length, seq_length. lia. }
  revert Hl. generalize (rev (firstn (Z.to_nat (Z.of_nat (Nat.log2 cols))) (bits64 i))). intros bs Hl.
  rewrite <- Hl. clear Hl.
  assert (HG : forall k, map (fun x => gsw_shape (encrypt_constant_rgsw (c_n cx) s (c_base cx) (c_level cx)
      (if (snd x : bool) then 0%Z else 1%Z) (split t (fst x)))) (combine (seq k (length bs)) bs) = repeat (public_gsw cx) (length bs)).
  { induction bs; intros k; auto. cbn [length seq combine map repeat]. f_equal; auto.
    apply gsw_enc_shape. now apply split_fit. }
  apply HG.
Qed.
Lemma bits_masks i i' cols t gs gs' :
  bit_decomposed_rgsw cx s i cols t = Ok gs -> bit_decomposed_rgsw cx s i' cols t = Ok gs' ->
  map (fun g => map mask (g_rows g)) gs = map (fun g => map mask (g_rows g)) gs'.
Proof.
  unfold bit_decomposed_rgsw. destruct (ulog2 _ _) as [len|]; cbn [bind]; [|discriminate].
  destruct (len <=? 64)%Z; cbn [bind]; [|discriminate].
  intros H1 H2. injection H1 as <-. injection H2 as <-. rewrite !map_map.
  assert (Hl : forall j, length (rev (firstn (Z.to_nat len) (bits64 j))) = Nat.min (Z.to_nat len) 64).
  { intros j. rewrite rev_length, firstn_length. unfold bits64. now rewrite map_length, seq_length. }
  pose proof (Hl i) as H1. pose proof (Hl i') as H2. rewrite H1, H2. revert H1 H2.
  generalize (rev (firstn (Z.to_nat len) (bits64 i))). generalize (rev (firstn (Z.to_nat len) (bits64 i'))).
  generalize (Nat.min (Z.to_nat len) 64). clear. intros m b2 b1. generalize 0. revert b1 b2.
  induction m; intros [|x1 b1] [|x2 b2] k H1 H2; simpl in H1, H2; try discriminate; auto.
  cbn [seq combine map]. f_equal; [|apply IHm; lia].
  unfold encrypt_constant_rgsw; cbn [g_rows]. rewrite !map_map. apply map_ext. intros j.
  destruct (Nat.even j); reflexivity.
Qed.
End S.

Lemma encode_len cx s pt d c : length pt = c_n cx -> length s = c_n cx -> length (d_mask d) = c_n cx -> length (d_noise d) = c_n cx ->
  encode_encrypt_rlwe cx s pt d = Ok c -> ct_shape c = (c_n cx, c_n cx) /\ mask c = d_mask d.
Proof.
  intros Hp Hs Hm Hn. unfold encode_encrypt_rlwe. intros H. apply bind_ok in H as (e & He & H).
  apply (f_equal (fun r => match r with Ok x => x | Panic _ => c end)) in H. cbn in H. subst c.
  split; [|reflexivity]. apply enc_shape; auto. unfold poly_encode in He. now rewrite (mapM_length _ _ _ He).
Qed.
Lemma encode_mask cx s pt d c : encode_encrypt_rlwe cx s pt d = Ok c -> mask c = d_mask d.
Proof.
  unfold encode_encrypt_rlwe. intros H. apply bind_ok in H as (e & He & H).
  apply (f_equal (fun r => match r with Ok x => x | Panic _ => c end)) in H. cbn in H. subst c. reflexivity.
Qed.

Definition cl_fits (cl : client) : Prop :=
  length (cl_sk cl) = c_n (cl_cx cl) /\ 0 < cl_cols cl /\ (Z.of_nat (cl_cols cl) < q)%Z.

Lemma read_shape cl i dm t qy : cl_fits cl -> length dm = c_n (cl_cx cl) -> draws_fit (c_n (cl_cx cl)) t ->
  make_read_query cl i dm t = Ok qy -> query_shape qy = public_query (cl_cx cl) (cl_cols cl).
Proof.
  intros (Hs & Hc & Hq) Hd Ht H. unfold make_read_query in H.
  apply bind_ok in H as (a & Ha & H). apply bind_ok in H as (d & Hdd & H). injection H as <-.
  unfold query_shape, public_query; cbn [q_a q_op q_data]. f_equal; [f_equal|].
  - eapply bits_shape; [exact Hs|exact Hc|exact Hq| |exact Ha]. now apply split_fit.
  - apply gsw_enc_shape; auto. now apply split_fit.
  - unfold enc_data_rlwe in Hdd. apply encode_len in Hdd; auto; try apply Hdd; apply (split_fit (cl_cx cl) t 2 Ht).
Qed.
Lemma write_shape cl i dm t qy : cl_fits cl -> length dm = c_n (cl_cx cl) -> draws_fit (c_n (cl_cx cl)) t ->
  make_write_query cl i dm t = Ok qy -> query_shape qy = public_query (cl_cx cl) (cl_cols cl).
Proof.
  intros (Hs & Hc & Hq) Hd Ht H. unfold make_write_query in H.
  apply bind_ok in H as (a & Ha & H). apply bind_ok in H as (d & Hdd & H). injection H as <-.
  unfold query_shape, public_query; cbn [q_a q_op q_data]. f_equal; [f_equal|].
  - eapply bits_shape; [exact Hs|exact Hc|exact Hq| |exact Ha]. now apply split_fit.
  - apply gsw_enc_shape; auto. now apply split_fit.
  - unfold enc_data_rlwe in Hdd. apply encode_len in Hdd; auto; try apply Hdd; apply (split_fit (cl_cx cl) t 2 Ht).
Qed.

(** The queries any client call makes for row [r]. *)
Definition made (cl : client) (qy : query) (t : tape) : Prop :=
  exists i dm, make_read_query cl i dm t = Ok qy \/ make_write_query cl i dm t = Ok qy.
Lemma made_masks cl t q1 q2 : made cl q1 t -> made cl q2 t -> query_masks q1 = query_masks q2.
Proof.
  intros (i1 & d1 & H1) (i2 & d2 & H2).
  assert (HH : forall i d qy, make_read_query cl i d t = Ok qy \/ make_write_query cl i d t = Ok qy ->
     exists a dd o, bit_decomposed_rgsw (cl_cx cl) (cl_sk cl) i (cl_cols cl) (split t 0) = Ok a /\
       mask dd = d_mask (split t 2 0) /\ qy = {| q_a := a; q_op := gen_enc_op cl o (split t 1); q_data := dd |}).
  { intros i d qy [H|H]; unfold make_read_query, make_write_query in H;
    apply bind_ok in H as (a & Ha & H); apply bind_ok in H as (dd & Hdd & H); injection H as <-;
    apply encode_mask in Hdd; eauto 8. }
  apply HH in H1 as (a1 & e1 & o1 & Ha1 & He1 & ->). apply HH in H2 as (a2 & e2 & o2 & Ha2 & He2 & ->).
  unfold query_masks; cbn [q_a q_op q_data]. f_equal; [f_equal|congruence].
  - eapply bits_masks; eauto.
  - unfold gen_enc_op, encrypt_constant_rgsw; cbn [g_rows]. rewrite !map_map. apply map_ext. intros j.
    destruct (Nat.even j); reflexivity.
Qed.
