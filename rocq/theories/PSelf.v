(** * Property C79: no wrong result is reported.
    [simulate] and the drivers of src/main.rs check what comes back from the server.  Nothing is assumed here
    about noise, the FFT, the key, the randomness or the schedules: whatever they are, a run that ends
    normally has decrypted the right results. *)
From Verif Require Import MBase MUtils MCodec MPoly MRlwe MHash MTree MEncTree MParams MSched MOram MMain MSim.
From Verif Require Import SpecRing SpecLwe SpecTree SpecEnc SpecConc SpecDriver SpecSelf.
From Verif Require Import PfTree PfSched3 PfDet2 LSched PTree PSim PMain PRun PDriver Demo PEnc.
Local Open Scope nat_scope.

Lemma bits_value_number bs : number_of bs (bits_value bs).
Proof.
  induction bs as [|b bs [H0 IH]]; cbn [bits_value].
  - split; [lia|]. intros [|i]; apply Z.bits_0.
  - split; [destruct b; lia|]. intros i. rewrite Z.add_comm. destruct i as [|i].
    + cbn [nth]. change (if b then 1%Z else 0%Z) with (Z.b2z b). apply Z.testbit_0_r.
    + cbn [nth]. rewrite Nat2Z.inj_succ. change (if b then 1%Z else 0%Z) with (Z.b2z b). rewrite Z.testbit_succ_r by lia. apply IH.
Qed.
Lemma number_inj bs v w : number_of bs v -> number_of bs w -> v = w.
Proof.
  intros [Hv Bv] [Hw Bw]. apply Z.bits_inj'. intros i Hi. rewrite <- (Z2Nat.id i) by exact Hi. rewrite Bv, Bw. reflexivity.
Qed.
Lemma mapM_Forall2 {A B} (f : A -> res B) l : forall r, mapM f l = Ok r <-> Forall2 (fun x y => f x = Ok y) l r.
Proof.
  induction l as [|x l IH]; intros r; cbn [mapM].
  - split; [intros H; injection H as <-; constructor|intros H; inversion H; reflexivity].
  - split.
    + intros H. apply bind_ok in H as (y & Ey & H). apply bind_ok in H as (ys & Es & H). injection H as <-. constructor; [exact Ey|]. apply IH, Es.
    + intros H. inversion H as [|? y ? ys Ey Es]; subst. rewrite Ey. cbn [bind]. apply IH in Es. rewrite Es. reflexivity.
Qed.
Lemma Forall2_imp {A B} (P Q : A -> B -> Prop) l r : (forall x y, P x y -> Q x y) -> Forall2 P l r -> Forall2 Q l r.
Proof. intros H. induction 1; constructor; auto. Qed.
Lemma Forall2_same_length {A B} (P : A -> B -> Prop) l r : Forall2 P l r -> length l = length r.
Proof. induction 1; cbn; congruence. Qed.

(** The client reads a reply as the number [v] exactly if it has between 1 and 64 ciphertexts, each decrypting
    to a bit, and [v] is the number with these bits; every other reply is rejected. *)
Theorem C79_recompose : forall cx s outs v,
  decrypt_and_recompose cx s outs = Ok v <->
  1 <= length outs <= 64 /\ exists bs, Forall2 (bit_of cx s) outs bs /\ number_of bs v.
Proof.
  intros cx s outs v. unfold decrypt_and_recompose. split.
  - intros H. apply bind_ok in H as (bs & Eb & H). apply mapM_Forall2 in Eb. pose proof (Forall2_same_length _ _ _ Eb) as L.
    destruct ((1 <=? length bs) && (length bs <=? 64)) eqn:Hl; [|discriminate]. injection H as <-.
    apply andb_prop in Hl as [H1 H2]. apply Nat.leb_le in H1. apply Nat.leb_le in H2. split; [lia|]. exists bs. split; [|apply bits_value_number].
    revert Eb. apply Forall2_imp. intros ct b H. apply bind_ok in H as (pt & Ep & H). exists pt. split; [exact Ep|].
    apply bind_ok in H as (x & Ex & H). unfold index in Ex. destruct (nth_error pt 0) as [x'|]; [|discriminate]. injection Ex as ->. f_equal.
    destruct (x =? 0)%Z eqn:E0; [injection H as <-; lia|]. destruct (x =? 1)%Z eqn:E1; [injection H as <-; lia|discriminate].
  - intros [Hl (bs & Hb & Hv)]. pose proof (Forall2_same_length _ _ _ Hb) as L.
    assert (mapM (fun ct => pt <- decrypt_decode_rlwe cx s ct ;; x <- index pt 0 ;;
      if (x =? 0)%Z then Ok false else if (x =? 1)%Z then Ok true else Panic PExplicit) outs = Ok bs) as ->.
    { apply mapM_Forall2. revert Hb. apply Forall2_imp. intros ct b (pt & -> & Hx). cbn [bind]. unfold index. rewrite Hx. cbn [bind]. destruct b; reflexivity. }
    cbn [bind]. rewrite <- L. replace (1 <=? length outs) with true by (symmetry; apply Nat.leb_le; lia).
    replace (length outs <=? 64) with true by (symmetry; apply Nat.leb_le; lia). cbn [andb]. f_equal. apply (number_inj bs); [apply bits_value_number|exact Hv].
Qed.
Print Assumptions C79_recompose.

Lemma simulate_trace fft cx s model features t ps : simulate fft cx s model features t = Ok ps ->
  exists neg ks cts outs,
    neg_gsw cx s (split t 0) = Ok neg /\ gen_all_subs_ksk cx s (split t 1) = Ok ks /\
    length cts = length features /\
    (forall i fs ct, nth_error features i = Some fs -> nth_error cts i = Some ct -> encrypt_feature_vector cx s fs (split t (2 + i)) = Ok ct) /\
    Forall2 (fun ct out => server_f fft cx model neg ks ct = Ok out) cts outs /\
    Forall2 (fun out p => decrypt_and_recompose cx s out = Ok p) outs ps /\
    Forall2 (fun fs p => exists x, p = Z.of_nat x /\ predicts model fs x) features ps.
Proof.
  intros E.
  unfold simulate in E. apply bind_ok in E as (neg & En & E). apply bind_ok in E as (ks & Ek & E). apply bind_ok in E as (cts & Ec & E).
  apply bind_ok in E as (outs & Eo & E). exists neg, ks, cts, outs. split; [exact En|]. split; [exact Ek|].
  apply mapM_pairs in Ec as [Lc Hc]. split; [exact Lc|]. split.
  { intros i fs ct Hf Hct. destruct (Hc i fs Hf) as (ct' & Hct' & E'). rewrite Hct in Hct'. injection Hct' as <-. exact E'. }
  apply mapM_Forall2 in Eo. split; [exact Eo|]. apply mapM_Forall2 in E. clear En Ek Hc.
  apply Forall2_same_length in Eo. rewrite Lc in Eo. clear Lc cts.
  revert outs ps Eo E. induction features as [|fs features IH]; intros outs ps L E.
  - destruct outs; [|discriminate]. inversion E; subst. split; constructor.
  - destruct outs as [|out outs]; [discriminate|]. inversion E as [|? p ? ps' Ep Es]; subst. cbn in L.
    destruct (IH outs ps' ltac:(lia) Es) as [H1 H2]. unfold check_prediction in Ep. cbn [fst snd] in Ep.
    apply bind_ok in Ep as (a & Ea & Ep). apply bind_ok in Ep as (x & Ex & Ep). apply bind_ok in Ep as (u & Eu & Ep). injection Ep as <-.
    unfold rassert in Eu. destruct (Z.of_nat x =? a)%Z eqn:Hx; [|discriminate]. apply Z.eqb_eq in Hx. subst a.
    split; constructor; try assumption. exists x. split; [reflexivity|]. apply eval_iff in Ex. apply Ex.
Qed.
Lemma simulate_sound fft cx s model features t ps : simulate fft cx s model features t = Ok ps ->
  Forall2 (fun fs p => exists x, p = Z.of_nat x /\ predicts model fs x) features ps.
Proof. intros H. destruct (simulate_trace _ _ _ _ _ _ _ H) as (? & ? & ? & ? & _ & _ & _ & _ & _ & _ & G). exact G. Qed.

(** A simulation that ends normally, parallel or not, has the prediction of the plaintext tree for every
    client, one for each and in their order, and this is what the clients read in the server's replies. *)
Theorem C79_simulate : forall parallel pref fft cx s model features t m m' preds,
  sexec pref (simulate_with parallel fft cx s model features t) m (Ok preds) m' ->
  exists neg ks cts outs,
    neg_gsw cx s (split t 0) = Ok neg /\ gen_all_subs_ksk cx s (split t 1) = Ok ks /\
    length cts = length features /\
    (forall i fs ct, nth_error features i = Some fs -> nth_error cts i = Some ct -> encrypt_feature_vector cx s fs (split t (2 + i)) = Ok ct) /\
    Forall2 (fun ct out => server_f fft cx model neg ks ct = Ok out) cts outs /\
    Forall2 (fun out p => decrypt_and_recompose cx s out = Ok p) outs preds /\
    Forall2 (fun fs p => exists x, p = Z.of_nat x /\ predicts model fs x) features preds.
Proof.
  intros parallel pref fft cx s model features t m m' preds H.
  pose proof (sexec_det pref _ _ _ _ (simulate_det parallel fft cx s model features t m) H) as Hd. rewrite simulate_run in Hd. clear H.
  destruct (simulate fft cx s model features t) as [ps|e] eqn:E; [|destruct Hd; discriminate]. destruct Hd as [Hd _]. injection Hd as ->. clear m'.
  apply simulate_trace, E.
Qed.
Print Assumptions C79_simulate.

(** ** The drivers *)
Lemma first_ok {A B} (x : res A) (k : A -> res B -> Prop) b : first_do x k (Ok b) -> exists a, x = Ok a /\ k a (Ok b).
Proof. destruct x as [a|e]; cbn; [intros H; exists a; auto|discriminate]. Qed.
Lemma rounds_replies {Q Y A} pref (ask : nat -> res Q) (prog : server -> Q -> sprog Y) (check : Y -> res A) js : forall sv out,
  rounds_exec (fun j sv => round_exec pref sv (ask j) (prog sv) check) js sv (Ok out) ->
  exists ys, replies pref ask prog js sv ys /\ Forall2 (fun y a => check y = Ok a) ys out.
Proof.
  induction js as [|j js IH]; intros sv out H; inversion H as [| | |? ? ? a sv1 out' H1 H2]; subst.
  - exists []. split; constructor.
  - inversion H1 as [| | |qy y sv2 a' Hg Hx Hc]; subst. destruct (IH _ _ H2) as (ys & Hr & Hf). exists (y :: ys). split; econstructor; eassumption.
Qed.
Lemma assert_pt x y u : assert_eq_pt x y = Ok u -> x = y.
Proof. unfold assert_eq_pt, poly_eqb. destruct (list_eq_dec Z.eq_dec x y); [auto|discriminate]. Qed.
Lemma index_nth {A} (l : list A) i x : index l i = Ok x -> nth_error l i = Some x.
Proof. unfold index. destruct (nth_error l i); [intros H; injection H as ->; reflexivity|discriminate]. Qed.
Lemma replies_length {Q Y} pref (ask : nat -> res Q) (prog : server -> Q -> sprog Y) js sv ys : replies pref ask prog js sv ys -> length ys = length js.
Proof. induction 1; cbn; congruence. Qed.

(** [single_query] ended normally: in every iteration the server's reply to the query for item 0 decrypts to
    item 0 of the list returned by the setup, and the reported number is the noise of that reply. *)
Theorem C79_single_query : forall pref fft md item_count iterations p co noises,
  single_query_exec pref fft md item_count iterations p false co (Ok noises) ->
  exists nh cx cl sv pts ys pt, nh_new (co_shuffle co) 1 item_count = Ok nh /\ context_new md p = Ok cx /\
    setup_random_oram 1 item_count nh cx (co_sk co) (co_items co) (co_setup co) = Ok (cl, sv, pts) /\ nth_error pts 0 = Some pt /\
    replies pref (fun j => gen_read_query_one cl 0 nh (co_dummy co j 0) (co_tape co j 0))
      (fun sv qy => process_one false fft (srv_cx sv) (srv_neg sv) qy) (seq 0 iterations) sv ys /\
    0 < iterations /\ length noises = iterations /\ Forall2 (measured (cl_cx cl) (cl_sk cl) pt) ys noises.
Proof.
  intros pref fft md m it p co noises H. unfold single_query_exec in H.
  apply first_ok in H as (u & Eu & H). unfold rassert in Eu. destruct (0 <? it) eqn:Hit; [|discriminate]. apply Nat.ltb_lt in Hit.
  apply first_ok in H as (l & _ & H). apply first_ok in H as (nh & En & H). apply first_ok in H as (cx & Ec & H).
  apply first_ok in H as ([[cl sv] pts] & Es & H). 
  apply (rounds_replies pref (fun j => gen_read_query_one cl 0 nh (co_dummy co j 0) (co_tape co j 0))
    (fun sv qy => process_one false fft (srv_cx sv) (srv_neg sv) qy)) in H as (ys & Hr & Hf).
  pose proof (replies_length _ _ _ _ _ _ Hr) as L. rewrite seq_length in L.
  assert (exists pt, nth_error pts 0 = Some pt) as (pt & Hpt).
  { destruct Hf as [|y v ys noises Hy _]; [cbn in L; lia|]. apply bind_ok in Hy as (pt & _ & Hy). apply bind_ok in Hy as (e & He & _). exists e. apply index_nth, He. }
  exists nh, cx, cl, sv, pts, ys, pt. repeat (split; [assumption|]). split; [rewrite <- L; symmetry; apply (Forall2_same_length _ _ _ Hf)|].
  revert Hf. apply Forall2_imp. intros y v Hy. apply bind_ok in Hy as (pt' & Ep & Hy). apply bind_ok in Hy as (e & He & Hy).
  apply bind_ok in Hy as (u' & Hu & Hy). apply assert_pt in Hu. apply index_nth in He. rewrite Hpt in He. injection He as <-. subst pt'. split; assumption.
Qed.
Print Assumptions C79_single_query.

(** [multi_query]: reply number [i] decrypts to item [i + 1]. *)
Theorem C79_multi_query : forall pref fft md item_count query_count iterations p co noises,
  multi_query_exec pref fft md item_count query_count iterations p false co (Ok noises) ->
  exists nh cx cl sv pts yss, nh_new (co_shuffle co) 1 item_count = Ok nh /\ context_new md p = Ok cx /\
    setup_random_oram 1 item_count nh cx (co_sk co) (co_items co) (co_setup co) = Ok (cl, sv, pts) /\ length pts = item_count /\
    replies pref (fun j => mapM (fun i => gen_read_query_one cl (i + 1) nh (co_dummy co j i) (co_tape co j i)) (seq 0 query_count))
      (fun sv qs => process_multi false fft (srv_cx sv) (srv_neg sv) qs) (seq 0 iterations) sv yss /\
    0 < iterations /\ length noises = iterations /\
    Forall2 (fun ys vs => length vs = query_count /\ forall i, i < query_count -> exists y v pt, nth_error ys i = Some y /\ nth_error vs i = Some v /\
      nth_error pts (i + 1) = Some pt /\ measured (cl_cx cl) (cl_sk cl) pt y v) yss noises.
Proof.
  intros pref fft md m qc it p co noises H. unfold multi_query_exec in H.
  apply first_ok in H as (u & Eu & H). unfold rassert in Eu. destruct (0 <? it) eqn:Hit; [|discriminate]. apply Nat.ltb_lt in Hit.
  apply first_ok in H as (l & _ & H). apply first_ok in H as (nh & En & H). apply first_ok in H as (cx & Ec & H).
  apply first_ok in H as ([[cl sv] pts] & Es & H). apply first_ok in H as (u' & Hu & H). unfold rassert in Hu.
  destruct (m =? length pts) eqn:Hm; [|discriminate]. apply Nat.eqb_eq in Hm.
  apply (rounds_replies pref (fun j => mapM (fun i => gen_read_query_one cl (i + 1) nh (co_dummy co j i) (co_tape co j i)) (seq 0 qc))
    (fun sv qs => process_multi false fft (srv_cx sv) (srv_neg sv) qs)) in H as (yss & Hr & Hf).
  pose proof (replies_length _ _ _ _ _ _ Hr) as L. rewrite seq_length in L.
  exists nh, cx, cl, sv, pts, yss. repeat (split; [assumption || (symmetry; assumption)|]).
  split; [rewrite <- L; symmetry; apply (Forall2_same_length _ _ _ Hf)|].
  revert Hf. apply Forall2_imp. intros ys vs Hy. apply mapM_Forall2 in Hy. split; [rewrite <- (Forall2_same_length _ _ _ Hy), seq_length; reflexivity|].
  intros i Hi. assert (exists v, nth_error vs i = Some v) as (v & Hv).
  { destruct (nth_error vs i) eqn:Ev; [eauto|]. apply nth_error_None in Ev. rewrite <- (Forall2_same_length _ _ _ Hy), seq_length in Ev. lia. }
  pose proof (proj2 (mapM_Forall2 _ _ _) Hy) as Hm'. assert (forall l r j w, Forall2 (fun x y => (fun i0 => y0 <- index ys i0 ;; pt <- decrypt_decode_rlwe (cl_cx cl) (cl_sk cl) y0 ;;
     noise <- compute_noise_encoded (cl_cx cl) (cl_sk cl) y0 pt ;; expected <- index pts (i0 + 1) ;; assert_eq_pt expected pt ;;; Ok noise) x = Ok y) (seq l j) r ->
     forall i, i < j -> nth_error r i = Some w -> (y0 <- index ys (l + i) ;; pt <- decrypt_decode_rlwe (cl_cx cl) (cl_sk cl) y0 ;;
     noise <- compute_noise_encoded (cl_cx cl) (cl_sk cl) y0 pt ;; expected <- index pts (l + i + 1) ;; assert_eq_pt expected pt ;;; Ok noise) = Ok w) as Gen.
  { clear. intros l r j w. revert l r. induction j as [|j IH]; intros l r H i Hi Hw; [lia|]. cbn [seq] in H. inversion H as [|? ? ? ? H1 H2]; subst.
    destruct i as [|i]; cbn [nth_error] in Hw; [injection Hw as <-; rewrite Nat.add_0_r; exact H1|].
    rewrite Nat.add_succ_r. apply (IH (S l) _ H2 i); [lia|exact Hw]. }
  pose proof (Gen 0 vs qc v Hy i Hi Hv) as E. cbn [Nat.add] in E.
  apply bind_ok in E as (y & Ey & E). apply bind_ok in E as (pt & Ep & E). apply bind_ok in E as (w & Ew & E). apply bind_ok in E as (e & Ee & E).
  apply bind_ok in E as (u2 & Eu2 & E). injection E as ->. apply assert_pt in Eu2. subst e. exists y, v, pt.
  split; [apply index_nth, Ey|]. split; [exact Hv|]. split; [apply index_nth, Ee|]. split; assumption.
Qed.
Print Assumptions C79_multi_query.

(** [batch_query]: for every row [r] the mapping serves item [i] in, the reply of that row decrypts to item [i]. *)
Theorem C79_batch_query : forall pref fft md rows cols iterations p co noises,
  batch_query_exec pref fft md rows cols iterations p false co (Ok noises) ->
  exists nh cx cl sv pts yss mapping, nh_new (co_shuffle co) 3 (rows * cols / 3) = Ok nh /\ context_new md p = Ok cx /\
    setup_random_oram rows cols nh cx (co_sk co) (co_items co) (co_setup co) = Ok (cl, sv, pts) /\
    hash_to_mapping nh [0; 1] cols = Ok mapping /\
    replies pref (fun j => gen_read_query_batch cl [0; 1] nh (co_dummy co j 0) (co_tape co j 0))
      (fun sv qs => process_batch false fft (srv_cx sv) (srv_neg sv) (srv_rows sv) qs nh) (seq 0 iterations) sv yss /\
    0 < iterations /\ length noises = iterations /\
    Forall2 (fun ys vs => Forall2 (fun e v => exists y pt, nth_error ys (fst e) = Some y /\ nth_error pts (snd (snd e)) = Some pt /\
      measured (cl_cx cl) (cl_sk cl) pt y v) mapping vs) yss noises.
Proof.
  intros pref fft md rows cols it p co noises H. unfold batch_query_exec in H.
  apply first_ok in H as (u & Eu & H). unfold rassert in Eu. destruct (0 <? it) eqn:Hit; [|discriminate]. apply Nat.ltb_lt in Hit.
  apply first_ok in H as (l & _ & H). apply first_ok in H as (nh & En & H). apply first_ok in H as (cx & Ec & H).
  apply first_ok in H as ([[cl sv] pts] & Es & H).
  apply (rounds_replies pref (fun j => gen_read_query_batch cl [0; 1] nh (co_dummy co j 0) (co_tape co j 0))
      (fun sv qs => process_batch false fft (srv_cx sv) (srv_neg sv) (srv_rows sv) qs nh)) in H as (yss & Hr & Hf).
  pose proof (replies_length _ _ _ _ _ _ Hr) as L. rewrite seq_length in L.
  assert (exists mp, hash_to_mapping nh [0; 1] cols = Ok mp) as (mp & Hmp).
  { destruct Hf as [|y v ys noises Hy _]; [cbn in L; lia|]. unfold batch_check in Hy. apply bind_ok in Hy as (mp & Hmp & _). eauto. }
  exists nh, cx, cl, sv, pts, yss, mp. repeat (split; [assumption|]). split; [rewrite <- L; symmetry; apply (Forall2_same_length _ _ _ Hf)|].
  revert Hf. apply Forall2_imp. intros ys vs Hy. unfold batch_check in Hy. rewrite Hmp in Hy. cbn [bind] in Hy. apply mapM_Forall2 in Hy.
  revert Hy. apply Forall2_imp. intros [r [c i]] v E. cbn [fst snd].
  apply bind_ok in E as (y & Ey & E). apply bind_ok in E as (pt & Ep & E). apply bind_ok in E as (ix & Ei & E). apply bind_ok in E as (e & Ee & E).
  apply bind_ok in E as (u2 & Eu2 & E). apply assert_pt in Eu2. subst e. apply index_nth in Ei. apply index_nth in Ey. apply index_nth in Ee.
  assert (ix = i) as -> by (destruct i as [|[|i]]; cbn in Ei; [congruence|congruence|destruct i; discriminate]).
  exists y, pt. repeat (split; [assumption|]). assumption.
Qed.
Print Assumptions C79_batch_query.

(** Cases: the runs of C59 end normally under some schedule; the simulation of C39 does; a reply that decrypts
    to a plaintext whose constant coefficient is not a bit is rejected. *)
Lemma exact_len ts : length (exact_fft 4 ts) = Z.to_nat (tp_polynomial_size demo_tfhe).
Proof.
  change (Z.to_nat (tp_polynomial_size demo_tfhe)) with 4. induction ts as [|[a b] ts IH]; [reflexivity|]. cbn [exact_fft fold_right fst snd].
  apply PfPoly.wfp_len, PfPoly.wfp_add; [apply PfPoly.wfp_len, PfPoly.wfp_mul|exact IH].
Qed.
Example C79_single_applies : forall pref, exists noises, single_query_exec pref (exact_fft 4) Checked (2 ^ 2) 3 demo_tfhe false (demo_coins (@rev nat)) (Ok noises).
Proof.
  intros pref. destruct C59_single_applies as (noises & E & _). exists noises.
  destruct (single_follows (exact_fft 4) Checked demo_tfhe exact_len pref (2 ^ 2) 3 false (demo_coins (@rev nat))) as [Hd (r & H)].
  specialize (Hd r H) as Hr. rewrite E in Hr. cbn in Hr. subst r. exact H.
Qed.
Example C79_multi_applies : forall pref, exists noises, multi_query_exec pref (exact_fft 4) Checked (2 ^ 2) 2 3 demo_tfhe false (demo_coins (@rev nat)) (Ok noises).
Proof.
  intros pref. destruct C59_multi_applies as (noises & E & _). exists noises.
  destruct (multi_follows (exact_fft 4) Checked demo_tfhe exact_len pref (2 ^ 2) 2 3 false (demo_coins (@rev nat))) as [Hd (r & H)].
  specialize (Hd r H) as Hr. rewrite E in Hr. cbn in Hr. subst r. exact H.
Qed.
Example C79_simulate_applies : exists m', sexec true (simulate_with true (exact_fft 4) demo_cx demo_s c39_tree [[1; 2]; [0; 3]; [2; 0]; [3; 3]] demo_tape) [] (Ok [5; 2; 0; 0]%Z) m'.
Proof.
  destruct (C74_same_outcome true true (exact_fft 4) demo_cx demo_s c39_tree [[1; 2]; [0; 3]; [2; 0]; [3; 3]] demo_tape []) as [(r & m' & H) _].
  rewrite (C74_applies true r m' H) in H. exists m'. exact H.
Qed.
Example C79_not_a_bit : forall cx s ct pt, decrypt_decode_rlwe cx s ct = Ok pt -> nth_error pt 0 = Some 2%Z -> forall v, decrypt_and_recompose cx s [ct] <> Ok v.
Proof.
  intros cx s ct pt Hd Hp v H. apply C79_recompose in H as (_ & bs & Hb & _). inversion Hb as [|? b ? ? (pt' & Hd' & Hp') _]; subst.
  rewrite Hd in Hd'. injection Hd' as <-. rewrite Hp in Hp'. destruct b; discriminate.
Qed.
