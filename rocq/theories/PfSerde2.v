(** * Parameter files. *)
From Coq Require Import String Ascii Lia.
From Verif Require Import MBase MCsv MTree MParams MJson MSerde PfJson PCsv SpecJson PfSerde.
Local Open Scope nat_scope.

Section PARAMS.
Variable dev : string -> option Z.
Definition dev_reads (v : json) (z : Z) : Prop := exists t, v = JNum t /\ dev t = Some z.
Lemma dec_dev_spec v z : dec_dev dev v = Some z <-> dev_reads v z.
Proof.
  unfold dec_dev, dev_reads. split; [destruct v; intros H; try discriminate; eauto|]. intros (t & -> & H). exact H.
Qed.

Ltac unbind H := lazymatch type of H with
  | obind _ _ = Some _ => let x := fresh "x" in let Hx := fresh "Hx" in apply obind_some in H as (x & Hx & H); unbind H
  | _ => idtac end.
Lemma tp_eta t : t = {| tp_standard_deviation := tp_standard_deviation t; tp_polynomial_size := tp_polynomial_size t; tp_base_log := tp_base_log t;
  tp_level_count := tp_level_count t; tp_ks_base_log := tp_ks_base_log t; tp_ks_level_count := tp_ks_level_count t; tp_negs_base_log := tp_negs_base_log t;
  tp_negs_level_count := tp_negs_level_count t; tp_plaintext_modulus := tp_plaintext_modulus t; tp_secure_seed := tp_secure_seed t |}.
Proof. destruct t; reflexivity. Qed.

Lemma dec_tfhe_spec d v t : dec_tfhe dev (S d) v = Some t <-> tfhe_is dev_reads v t.
Proof.
  split.
  - destruct v as [|b|tk|s|vs|fs]; try discriminate.
    + do 10 (destruct vs as [|? vs]; [discriminate|]). destruct vs; [|discriminate]. cbn [dec_tfhe enter obind]. intros H. unbind H. injection H as <-.
      apply dec_dev_spec in Hx. apply dec_word_spec in Hx0, Hx1, Hx2, Hx3, Hx4, Hx5, Hx6, Hx7. apply dec_bool_spec in Hx8. apply tfhe_placed; assumption.
    + cbn [dec_tfhe enter obind]. intros H. unbind H. injection H as <-.
      apply tfhe_named; cbn [tp_standard_deviation tp_polynomial_size tp_base_log tp_level_count tp_ks_base_log tp_ks_level_count tp_negs_base_log tp_negs_level_count tp_plaintext_modulus tp_secure_seed];
        first [apply (required_spec _ dev_reads _ _ _ (fun v => dec_dev_spec v _)); assumption
              |apply (required_spec _ word_is _ _ _ (fun v => dec_word_spec v _)); assumption
              |apply (required_spec _ bool_is _ _ _ (fun v => dec_bool_spec v _)); assumption].
  - intros H. destruct H as [fs t H0 H1 H2 H3 H4 H5 H6 H7 H8 H9|v0 v1 v2 v3 v4 v5 v6 v7 v8 v9 t H0 H1 H2 H3 H4 H5 H6 H7 H8 H9]; cbn [dec_tfhe enter obind].
    + apply (required_spec _ dev_reads _ _ _ (fun v => dec_dev_spec v _)) in H0.
      apply (required_spec _ word_is _ _ _ (fun v => dec_word_spec v _)) in H1. apply (required_spec _ word_is _ _ _ (fun v => dec_word_spec v _)) in H2.
      apply (required_spec _ word_is _ _ _ (fun v => dec_word_spec v _)) in H3. apply (required_spec _ word_is _ _ _ (fun v => dec_word_spec v _)) in H4.
      apply (required_spec _ word_is _ _ _ (fun v => dec_word_spec v _)) in H5. apply (required_spec _ word_is _ _ _ (fun v => dec_word_spec v _)) in H6.
      apply (required_spec _ word_is _ _ _ (fun v => dec_word_spec v _)) in H7. apply (required_spec _ word_is _ _ _ (fun v => dec_word_spec v _)) in H8.
      apply (required_spec _ bool_is _ _ _ (fun v => dec_bool_spec v _)) in H9.
      rewrite H0, H1, H2, H3, H4, H5, H6, H7, H8, H9. cbn [obind]. rewrite <- tp_eta. reflexivity.
    + apply dec_dev_spec in H0. apply dec_word_spec in H1, H2, H3, H4, H5, H6, H7, H8. apply dec_bool_spec in H9.
      rewrite H0, H1, H2, H3, H4, H5, H6, H7, H8, H9. cbn [obind]. rewrite <- tp_eta. reflexivity.
Qed.

Lemma dec_two_spec d k1 k2 v a b : dec_two (S d) k1 k2 v = Some (a, b) <-> words_are [k1; k2] v [a; b].
Proof.
  split.
  - destruct v as [|bb|tk|s|vs|fs]; try discriminate.
    + do 2 (destruct vs as [|? vs]; [discriminate|]). destruct vs; [|discriminate]. cbn [dec_two enter obind]. intros H. unbind H. injection H as <- <-.
      apply dec_word_spec in Hx, Hx0. apply words_placed; [reflexivity|]. repeat constructor; assumption.
    + cbn [dec_two enter obind]. intros H. unbind H. injection H as <- <-. apply words_named.
      repeat (apply Forall2_cons; [apply (required_spec _ word_is _ _ _ (fun v => dec_word_spec v _)); assumption|]). constructor.
  - intros H. inversion H as [ks fs zs HF|ks vs zs HL HF]; subst.
    + inversion HF as [|? ? ? ? H1 HF1]; subst. inversion HF1 as [|? ? ? ? H2 _]; subst.
      apply (required_spec _ word_is _ _ _ (fun v => dec_word_spec v _)) in H1, H2. cbn [dec_two enter obind]. rewrite H1, H2. reflexivity.
    + inversion HF as [|v1 ? ? ? H1 HF1]; subst. inversion HF1 as [|v2 ? ? ? H2 HF2]; subst. inversion HF2; subst.
      apply dec_word_spec in H1, H2. cbn [dec_two enter obind]. rewrite H1, H2. reflexivity.
Qed.
Lemma dec_three_spec d k1 k2 k3 v a b c : dec_three (S d) k1 k2 k3 v = Some (a, b, c) <-> words_are [k1; k2; k3] v [a; b; c].
Proof.
  split.
  - destruct v as [|bb|tk|s|vs|fs]; try discriminate.
    + do 3 (destruct vs as [|? vs]; [discriminate|]). destruct vs; [|discriminate]. cbn [dec_three enter obind]. intros H. unbind H. injection H as <- <- <-.
      apply dec_word_spec in Hx, Hx0, Hx1. apply words_placed; [reflexivity|]. repeat constructor; assumption.
    + cbn [dec_three enter obind]. intros H. unbind H. injection H as <- <- <-. apply words_named.
      repeat (apply Forall2_cons; [apply (required_spec _ word_is _ _ _ (fun v => dec_word_spec v _)); assumption|]). constructor.
  - intros H. inversion H as [ks fs zs HF|ks vs zs HL HF]; subst.
    + inversion HF as [|? ? ? ? H1 HF1]; subst. inversion HF1 as [|? ? ? ? H2 HF2]; subst. inversion HF2 as [|? ? ? ? H3 _]; subst.
      apply (required_spec _ word_is _ _ _ (fun v => dec_word_spec v _)) in H1, H2, H3. cbn [dec_three enter obind]. rewrite H1, H2, H3. reflexivity.
    + inversion HF as [|v1 ? ? ? H1 HF1]; subst. inversion HF1 as [|v2 ? ? ? H2 HF2]; subst. inversion HF2 as [|v3 ? ? ? H3 HF3]; subst. inversion HF3; subst.
      apply dec_word_spec in H1, H2, H3. cbn [dec_three enter obind]. rewrite H1, H2, H3. reflexivity.
Qed.

Lemma dec_oram_spec d v o : dec_oram (S (S d)) v = Some o <-> oram_is v o.
Proof.
  split.
  - destruct v as [|b|tk|s|vs|fs]; try discriminate. destruct fs as [|[k v] fs]; [discriminate|]. destruct fs; [|discriminate]. cbn [dec_oram enter obind].
    destruct (String.eqb_spec k "SingleQuery") as [->|]; [|destruct (String.eqb_spec k "MultiQuery") as [->|]; [|destruct (String.eqb_spec k "Batched") as [->|]; [|discriminate]]]; intros H.
    + apply obind_some in H as ([a b] & H & E). injection E as <-. apply oram_single. apply dec_two_spec in H. exact H.
    + apply obind_some in H as ([[a b] c] & H & E). injection E as <-. apply oram_multi. apply dec_three_spec in H. exact H.
    + apply obind_some in H as ([[a b] c] & H & E). injection E as <-. apply oram_batched. apply dec_three_spec in H. exact H.
  - intros H. destruct H as [v a b H|v a b c H|v a b c H]; cbn [dec_oram enter obind]; cbn [String.eqb Ascii.eqb Bool.eqb]; cbn iota.
    + rewrite (proj2 (dec_two_spec d _ _ _ _ _) H). reflexivity.
    + rewrite (proj2 (dec_three_spec d _ _ _ _ _ _ _) H). reflexivity.
    + rewrite (proj2 (dec_three_spec d _ _ _ _ _ _ _) H). reflexivity.
Qed.

Lemma all_spec {A} (dec : json -> option A) (is : json -> A -> Prop) : (forall v a, dec v = Some a <-> is v a) ->
  forall vs l, all (map dec vs) = Some l <-> Forall2 is vs l.
Proof.
  intros H. induction vs as [|v vs IH]; intros l; cbn [map all].
  - split; [intros E; injection E as <-; constructor|intros E; inversion E; reflexivity].
  - split.
    + intros E. apply obind_some in E as (a & Ha & E). apply obind_some in E as (r & Hr & E). injection E as <-. constructor; [apply H, Ha|apply IH, Hr].
    + intros E. inversion E as [|? a ? r Ha Hr]; subst. apply H in Ha. apply IH in Hr. rewrite Ha, Hr. reflexivity.
Qed.
Lemma dec_vec_spec {A} (dec : nat -> json -> option A) (is : json -> A -> Prop) d : (forall v a, dec d v = Some a <-> is v a) ->
  forall v l, dec_vec dec (S d) v = Some l <-> exists vs, v = JArr vs /\ Forall2 is vs l.
Proof.
  intros H v l. split.
  - destruct v as [|b|tk|s|vs|fs]; try discriminate. cbn [dec_vec enter obind]. intros E. exists vs. split; [reflexivity|]. apply (all_spec (dec d) is H), E.
  - intros (vs & -> & E). cbn [dec_vec enter obind]. apply (all_spec (dec d) is H), E.
Qed.
Lemma dec_pair_spec d v e : dec_pair dev (S (S (S (S d)))) v = Some e <-> pair_is dev_reads v e.
Proof.
  unfold pair_is. split.
  - destruct v as [|b|tk|s|vs|fs]; try discriminate. destruct vs as [|v1 [|v2 [|]]]; try discriminate. cbn [dec_pair enter obind]. intros H.
    apply obind_some in H as (os & H1 & H). apply obind_some in H as (ts & H2 & H). injection H as <-.
    apply (dec_vec_spec _ oram_is) in H1 as (o & -> & H1); [|intros; apply dec_oram_spec]. apply (dec_vec_spec _ (tfhe_is dev_reads)) in H2 as (t & -> & H2); [|intros; apply dec_tfhe_spec].
    exists o, t. auto.
  - intros (os & ts & -> & H1 & H2). cbn [dec_pair enter obind]. destruct e as [eo et]. cbn [fst snd] in *.
    assert (dec_vec dec_oram (S (S (S d))) (JArr os) = Some eo) as -> by (apply (dec_vec_spec _ oram_is); [intros; apply dec_oram_spec|eauto]).
    assert (dec_vec (dec_tfhe dev) (S (S (S d))) (JArr ts) = Some et) as -> by (apply (dec_vec_spec _ (tfhe_is dev_reads)); [intros; apply dec_tfhe_spec|eauto]).
    reflexivity.
Qed.
Theorem dec_input_spec v l : dec_input dev nesting_limit v = Some l <-> input_is dev_reads v l.
Proof. apply (dec_vec_spec (dec_pair dev) (pair_is dev_reads) 126). intros v' a. apply dec_pair_spec. Qed.

(** Writing. *)
Variable show : Z -> string.
Definition word_ok (z : Z) : Prop := (0 <= z < 2 ^ 64)%Z.
Definition tfhe_ok (t : tfhe_params) : Prop :=
  good_num (show (tp_standard_deviation t)) /\ dev (show (tp_standard_deviation t)) = Some (tp_standard_deviation t) /\
  word_ok (tp_polynomial_size t) /\ word_ok (tp_base_log t) /\ word_ok (tp_level_count t) /\ word_ok (tp_ks_base_log t) /\
  word_ok (tp_ks_level_count t) /\ word_ok (tp_negs_base_log t) /\ word_ok (tp_negs_level_count t) /\ word_ok (tp_plaintext_modulus t).
Definition oram_ok (o : oram_params) : Prop :=
  match o with SingleQuery a b => word_ok a /\ word_ok b | MultiQuery a b c | Batched a b c => word_ok a /\ word_ok b /\ word_ok c end.

Lemma word_enc z : word_ok z -> word_is (enc_word z) z /\ good (enc_word z).
Proof. intros H. apply canonical_word. exact H. Qed.
Lemma enc_tfhe_spec t : tfhe_ok t -> tfhe_is dev_reads (enc_tfhe show t) t /\ good (enc_tfhe show t).
Proof.
  intros (G0 & D0 & H1 & H2 & H3 & H4 & H5 & H6 & H7 & H8). apply word_enc in H1 as [H1 G1], H2 as [H2 G2], H3 as [H3 G3], H4 as [H4 G4], H5 as [H5 G5], H6 as [H6 G6], H7 as [H7 G7], H8 as [H8 G8].
  split.
  - unfold enc_tfhe. apply tfhe_named.
    + exists (JNum (show (tp_standard_deviation t))). split; [once_tac|]. exists (show (tp_standard_deviation t)). auto.
    + exists (enc_word (tp_polynomial_size t)). split; [once_tac|first [exact H1|exact H2|exact H3|exact H4|exact H5|exact H6|exact H7|exact H8]].
    + exists (enc_word (tp_base_log t)). split; [once_tac|first [exact H1|exact H2|exact H3|exact H4|exact H5|exact H6|exact H7|exact H8]].
    + exists (enc_word (tp_level_count t)). split; [once_tac|first [exact H1|exact H2|exact H3|exact H4|exact H5|exact H6|exact H7|exact H8]].
    + exists (enc_word (tp_ks_base_log t)). split; [once_tac|first [exact H1|exact H2|exact H3|exact H4|exact H5|exact H6|exact H7|exact H8]].
    + exists (enc_word (tp_ks_level_count t)). split; [once_tac|first [exact H1|exact H2|exact H3|exact H4|exact H5|exact H6|exact H7|exact H8]].
    + exists (enc_word (tp_negs_base_log t)). split; [once_tac|first [exact H1|exact H2|exact H3|exact H4|exact H5|exact H6|exact H7|exact H8]].
    + exists (enc_word (tp_negs_level_count t)). split; [once_tac|first [exact H1|exact H2|exact H3|exact H4|exact H5|exact H6|exact H7|exact H8]].
    + exists (enc_word (tp_plaintext_modulus t)). split; [once_tac|first [exact H1|exact H2|exact H3|exact H4|exact H5|exact H6|exact H7|exact H8]].
    + exists (JBool (tp_secure_seed t)). split; [once_tac|reflexivity].
  - apply good_obj. apply Forall_cons; [exact G0|]. apply Forall_cons; [exact G1|]. apply Forall_cons; [exact G2|]. apply Forall_cons; [exact G3|]. apply Forall_cons; [exact G4|].
    apply Forall_cons; [exact G5|]. apply Forall_cons; [exact G6|]. apply Forall_cons; [exact G7|]. apply Forall_cons; [exact G8|]. apply Forall_cons; [exact I|]. apply Forall_nil.
Qed.
Lemma enc_oram_spec o : oram_ok o -> oram_is (enc_oram o) o /\ good (enc_oram o).
Proof.
  destruct o as [a b|a b c|a b c]; cbn [oram_ok enc_oram].
  - intros [H1 H2]. apply word_enc in H1 as [H1 G1], H2 as [H2 G2]. split.
    + apply oram_single, words_named. apply Forall2_cons; [exists (enc_word a); split; [once_tac|exact H1]|]. apply Forall2_cons; [exists (enc_word b); split; [once_tac|exact H2]|]. constructor.
    + apply good_obj. apply Forall_cons; [|apply Forall_nil]. cbn [snd]. apply good_obj. apply Forall_cons; [exact G1|]. apply Forall_cons; [exact G2|]. try (apply Forall_cons; [exact G3|]). apply Forall_nil.
  - intros (H1 & H2 & H3). apply word_enc in H1 as [H1 G1], H2 as [H2 G2], H3 as [H3 G3]. split.
    + apply oram_multi, words_named. apply Forall2_cons; [exists (enc_word a); split; [once_tac|exact H1]|]. apply Forall2_cons; [exists (enc_word b); split; [once_tac|exact H2]|].
      apply Forall2_cons; [exists (enc_word c); split; [once_tac|exact H3]|]. constructor.
    + apply good_obj. apply Forall_cons; [|apply Forall_nil]. cbn [snd]. apply good_obj. apply Forall_cons; [exact G1|]. apply Forall_cons; [exact G2|]. try (apply Forall_cons; [exact G3|]). apply Forall_nil.
  - intros (H1 & H2 & H3). apply word_enc in H1 as [H1 G1], H2 as [H2 G2], H3 as [H3 G3]. split.
    + apply oram_batched, words_named. apply Forall2_cons; [exists (enc_word a); split; [once_tac|exact H1]|]. apply Forall2_cons; [exists (enc_word b); split; [once_tac|exact H2]|].
      apply Forall2_cons; [exists (enc_word c); split; [once_tac|exact H3]|]. constructor.
    + apply good_obj. apply Forall_cons; [|apply Forall_nil]. cbn [snd]. apply good_obj. apply Forall_cons; [exact G1|]. apply Forall_cons; [exact G2|]. try (apply Forall_cons; [exact G3|]). apply Forall_nil.
Qed.
Lemma map_enc {A} (enc : A -> json) (is : json -> A -> Prop) (ok : A -> Prop) : (forall a, ok a -> is (enc a) a /\ good (enc a)) ->
  forall l, Forall ok l -> Forall2 is (map enc l) l /\ Forall good (map enc l).
Proof.
  intros H l HF. induction HF as [|a l Ha _ IH]; [split; constructor|]. destruct (H a Ha), IH. split; constructor; assumption.
Qed.
Theorem enc_input_spec l : Forall (fun e => Forall oram_ok (fst e) /\ Forall tfhe_ok (snd e)) l ->
  input_is dev_reads (enc_input show l) l /\ good (enc_input show l).
Proof.
  intros HF. unfold enc_input.
  assert (forall e : list oram_params * list tfhe_params, Forall oram_ok (fst e) /\ Forall tfhe_ok (snd e) ->
    pair_is dev_reads (JArr [JArr (map enc_oram (fst e)); JArr (map (enc_tfhe show) (snd e))]) e /\ good (JArr [JArr (map enc_oram (fst e)); JArr (map (enc_tfhe show) (snd e))])) as He.
  { intros e [Ho Ht]. destruct (map_enc enc_oram oram_is oram_ok enc_oram_spec _ Ho) as [A1 B1]. destruct (map_enc (enc_tfhe show) (tfhe_is dev_reads) tfhe_ok enc_tfhe_spec _ Ht) as [A2 B2].
    split; [exists (map enc_oram (fst e)), (map (enc_tfhe show) (snd e)); auto|].
    apply good_arr. apply Forall_cons; [apply good_arr, B1|]. apply Forall_cons; [apply good_arr, B2|]. apply Forall_nil. }
  destruct (map_enc _ (pair_is dev_reads) _ He l HF) as [H1 H2].
  split; [eexists; split; [reflexivity|exact H1]|]. apply good_arr, H2.
Qed.
End PARAMS.
