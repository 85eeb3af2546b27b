(** * Determinism of the server operations, II: several queries, batches *)
From Coq Require Import Permutation.
From Verif Require Import MBase MUtils MCodec MPoly MRlwe MHash MTree MEncTree MSched MOram.
From Verif Require Import SpecRing SpecLwe SpecOram PfPoly PfRlwe PfHash PfSched PfSched2 PfSched3 PfOram1 PfDet1 PfDet2.
Local Open Scope nat_scope.

Lemma run_shape_ok {A} (p : prog A) m a m' : run p m = (Ok a, m') -> shape m' = shape m.
Proof. intros H. pose proof (run_shape p m) as G. rewrite H in G. exact G. Qed.

Section Multi.
Variables (pool : bool) (fft : fftT) (cx : ctx) (neg_s : rgsw).
Notation n := (c_n cx).
Notation base := (c_base cx).
Notation level := (c_level cx).
Hypothesis Hfft : forall ts, length (fft ts) = n.

Lemma rw_val sh (Rd Wr : nat -> nat -> Prop) cols ql : (forall c, Rd 0 c) -> acc sh Rd Wr (vec (wfc n) cols) (rw_task fft cx cols ql).
Proof.
  intros HR. unfold rw_task. eapply acc_imp; [|apply (acc_pmapM sh Rd Wr (fun _ y => wfc n y))].
  - intros ys H. split; [rewrite <- (F2_len _ _ _ H); apply seq_length|]. clear - H. induction H; constructor; auto.
  - intros j _. eapply acc_bind; [apply acc_cell_buf, HR|]. intros v _. eapply acc_bind; [apply acc_lift|]. intros tmp _.
    eapply acc_bind; [apply acc_buf_only|]. intros _ _. eapply acc_bind; [apply acc_lift|]. intros l _. constructor.
    apply wfc_ep; [exact Hfft|apply wfc_allocate].
Qed.
Lemma merge_val sh a b j : acc sh (fun r c => r = 0 /\ c = j) (fun r c => r = 0 /\ c = j) (fun _ => True) (merge_task fft a b j).
Proof.
  unfold merge_task. eapply acc_bind; [apply acc_cell_buf; auto|]. intros v _. eapply acc_bind; [apply acc_lift|]. intros d _. apply acc_put. auto.
Qed.

Lemma process_multi_det qs m : sdet (process_multi pool fft cx neg_s qs) m.
Proof.
  unfold process_multi. apply sdet_bind; [apply sdet_row_len|]. intros cols m1 H. apply srun_row_len in H as [-> Hc].
  apply sdet_tid.
  { apply sdet_spar.
    - apply separable_ro. intros p Hp. apply in_map_iff in Hp as (l & <- & _).
      eapply acc_weaken; [| | |apply (one_st_val fft cx neg_s Hfft _ (fun _ _ => False))]; auto.
    - apply Forall_forall. intros p Hp. apply in_map_iff in Hp as (l & <- & _). apply disc_one_st. }
  intros yls m1 H. rewrite srun_spar in H.
  assert (shape m1 = shape m) as Hs1 by (eapply run_shape_ok; exact H).
  assert (Forall (vec (gsw n base level) cols) (map snd yls)) as Hls.
  { assert (Forall2 (fun (_ : query) yl => vec (gsw n base level) cols (snd yl)) qs yls) as HF.
    { eapply run_post; [|reflexivity|exact H]. apply (acc_pmapM (shape m) (row_only 0) (fun _ _ => False)).
      intros qy _. eapply acc_imp; [|apply (one_st_val fft cx neg_s Hfft)]. cbv beta. intros yl (_ & c' & Hc' & Hv).
      rewrite Hc in Hc'. injection Hc' as <-. exact Hv. }
    clear - HF. induction HF; cbn; constructor; auto. }
  clear H. cbv zeta. apply sdet_tid.
  { apply sdet_spar.
    - apply separable_ro. intros p Hp. apply in_map_iff in Hp as (l & <- & _). eapply acc_imp; [|apply rw_val]; auto.
    - apply Forall_forall. intros p Hp. apply in_map_iff in Hp as (l & <- & _). apply disc_rw. }
  intros tmps m2 H. rewrite srun_spar in H.
  assert (shape m2 = shape m1) as Hs2 by (eapply run_shape_ok; exact H).
  assert (Forall (vec (wfc n) cols) tmps) as Htm.
  { assert (Forall2 (fun (_ : query * list rgsw) => vec (wfc n) cols) (combine qs (map snd yls)) tmps) as HF.
    { eapply run_post; [|reflexivity|exact H]. apply (acc_pmapM (shape m1) (fun _ _ => True) (fun _ _ => False)).
      intros ql _. apply rw_val. auto. }
    clear - HF. induction HF; constructor; auto. }
  clear H. cbn [sreduce sbind sdet]. split.
  { intros t Ht. rewrite !(reduce_rlwe_vec n cols) by (rewrite ?items_left; assumption || reflexivity). reflexivity. }
  split.
  { intros t Ht. rewrite !(reduce_rgsw_vec n base level cols) by (rewrite ?items_left; assumption || reflexivity). reflexivity. }
  apply sdet_tid; [|intros; exact I]. apply sdet_spar.
  - exists (fun i r' c' => r' = 0 /\ c' = i), (fun i r' c' => r' = 0 /\ c' = i). split; [intros i r' c'; destruct (Nat.eq_dec r' 0), (Nat.eq_dec c' i); tauto|].
    split; [intros i j r' c' Hne [-> ->]; split; intros [_ H]; congruence|].
    intros i p Hi. rewrite nth_error_map in Hi. destruct (nth_error (seq 0 cols) i) as [j|] eqn:E; [|discriminate].
    injection Hi as <-. assert (j = i) as ->.
    { assert (i < cols) by (rewrite <- (seq_length cols 0); apply nth_error_Some; congruence).
      apply (nth_error_nth _ _ 0) in E. rewrite seq_nth in E by assumption. auto. }
    apply merge_val.
  - apply Forall_forall. intros p Hp. apply in_map_iff in Hp as (jl & <- & _). apply disc_merge.
Qed.

(** ** [process_batch] *)
Definition item_foot (nh : nhash) (cols i r c : nat) : Prop :=
  exists h, h < nh_h_count nh /\ hash_to_tuple nh h i cols = Ok (r, c).
Lemma item_foot_dec nh cols i r c : item_foot nh cols i r c \/ ~ item_foot nh cols i r c.
Proof.
  unfold item_foot. destruct (exists_lt_dec (fun h => hash_to_tuple nh h i cols = Ok (r, c)) (nh_h_count nh)) as [(h & H1 & H2)|H].
  - intros h. destruct (hash_to_tuple nh h i cols) as [[r' c']|]; [|right; discriminate].
    destruct (Nat.eq_dec r' r), (Nat.eq_dec c' c); [left; congruence|right; congruence|right; congruence|right; congruence].
  - left; eauto.
  - right. intros (h & H1 & H2). exact (H h H1 H2).
Qed.
Lemma masked_val sh Wr (Rd : nat -> nat -> Prop) ls fl pos cell : Rd (fst cell) (snd cell) -> acc sh Rd Wr (fun _ => True) (masked fft cx ls fl pos cell).
Proof.
  intros H. unfold masked. eapply acc_bind; [apply acc_cell_buf, H|]. intros v _. eapply acc_bind; [apply acc_lift|]. intros f _. cbv zeta.
  eapply acc_bind; [apply acc_buf_only|]. intros _ _. eapply acc_bind; [apply acc_lift|]. intros l _. constructor. exact I.
Qed.
Lemma consistency_val w sh cols nh ls fl i : nth_error sh 0 = Some cols ->
  acc sh (item_foot nh cols i) (item_foot nh cols i) (fun _ => True) (consistency_task w fft cx nh ls fl i).
Proof.
  intros Hc. unfold consistency_task.
  eapply acc_bind; [apply (acc_pmapM sh _ _ (fun h p => In h (seq 0 (nh_h_count nh)) /\ hash_to_tuple nh h i cols = Ok p))|].
  { intros h Hh. eapply acc_bind; [apply acc_row_len|]. cbv beta. intros c' Hc'. rewrite Hc in Hc'. injection Hc' as <-.
    eapply acc_imp; [|apply acc_lift]. auto. }
  cbv beta. intros ps Hps.
  assert (Forall (fun p => item_foot nh cols i (fst p) (snd p)) ps) as HF.
  { clear - Hps. induction Hps as [|h [r c] ? ? [Hh E] ? IH]; constructor; auto. exists h. apply in_seq in Hh. split; [lia|exact E]. }
  clear Hps. rewrite Forall_forall in HF.
  eapply acc_bind with (Q := fun _ => True).
  - destruct w; [|constructor]. unfold correct_consistency. eapply acc_bind; [apply acc_lift|]. cbv beta. intros first Ef. apply index_In in Ef.
    eapply acc_bind; [apply (acc_pmapM sh _ _ (fun _ _ => True)); intros p Hp; apply masked_val, HF, Ef|]. intros v1s _.
    eapply acc_bind; [apply acc_cell_only, HF, Ef|]. intros v _. cbv zeta. eapply acc_bind; [apply acc_lift|]. intros st _.
    eapply acc_bind; [apply (acc_pfoldM sh _ _ (fun _ => True)); [|exact I]|intros; constructor; exact I].
    intros s p Hp _. eapply acc_bind; [|intros; constructor; exact I]. apply masked_val, HF.
    rewrite <- (firstn_skipn 1 ps). apply in_or_app. right. exact Hp.
  - intros d _. eapply acc_bind; [apply (acc_pmapM sh _ _ (fun _ _ => True)); intros p Hp; apply acc_put, HF, Hp|intros; constructor; exact I].
Qed.

Lemma process_batch_det hc dom rows qs nh m : hash_for nh hc dom -> length m = rows ->
  sdet (process_batch pool fft cx neg_s rows qs nh) m.
Proof.
  intros (shuffle & Hperm & Hnew) Hrows. pose proof (nh_fields shuffle hc dom nh Hnew) as (Hhc & Ehc & Edom & Etab).
  unfold process_batch. apply sdet_bind; [apply sdet_lift|]. intros u m1 H. rewrite srun_lift in H. injection H as _ Hm. subst m1. clear u.
  apply sdet_tid.
  { apply sdet_spar.
    - apply separable_ro. intros p Hp. apply in_map_iff in Hp as (l & <- & _).
      eapply acc_weaken; [| | |apply (one_st_val fft cx neg_s Hfft _ (fun _ _ => False))]; auto.
    - apply Forall_forall. intros p Hp. apply in_map_iff in Hp as (l & <- & _). apply disc_one_st. }
  intros yls m1 H. rewrite srun_spar in H. assert (shape m1 = shape m) as Hs1 by (eapply run_shape_ok; exact H). clear H. cbv zeta.
  apply sdet_tid.
  { apply sdet_spar.
    - exists row_only, row_only. split; [intros i r' c'; unfold row_only; destruct (Nat.eq_dec r' i); tauto|].
      split; [unfold row_only; intros i j r' c' Hne ->; split; congruence|].
      intros i p Hi. rewrite nth_error_map in Hi. destruct (nth_error (combine (combine (map snd yls) qs) (seq 0 rows)) i) as [[lq r]|] eqn:E; [|discriminate].
      injection Hi as <-. assert (r = i) as ->; [|apply update_st_val].
      assert (forall {A} (l : list A) a k i x r, nth_error (combine l (seq a k)) i = Some (x, r) -> r = a + i) as G.
      { clear. induction l as [|y l IH]; intros a k i x r E; destruct k; cbn in E; try (destruct i; discriminate).
        destruct i; cbn in E; [injection E as _ <-; lia|]. apply IH in E. lia. }
      apply G in E. exact E.
    - apply Forall_forall. intros p Hp. apply in_map_iff in Hp as (l & <- & _). apply disc_update_st. }
  intros us m2 H. rewrite srun_spar in H. assert (shape m2 = shape m1) as Hs2 by (eapply run_shape_ok; exact H). clear H.
  apply sdet_bind; [apply sdet_row_len|]. intros cols m3 H. apply srun_row_len in H as [-> Hc].
  destruct (nh_h_count nh =? 0); [exact I|]. apply sdet_bind; [|intros; exact I]. apply sdet_spar.
  - exists (fun i => item_foot nh cols i), (fun i => item_foot nh cols i). split; [intros; apply item_foot_dec|]. split.
    + intros i j r c Hne (h & Hh & E). cut (~ item_foot nh cols j r c); [auto|]. intros (h' & Hh' & E'). apply Hne. rewrite Ehc in Hh, Hh'.
      assert (forall h x r c, h < hc -> hash_to_tuple nh h x cols = Ok (r, c) -> x < dom /\ 0 < cols) as G.
      { intros g x r0 c0 Hg Eg. split.
        - destruct (Nat.lt_ge_cases x dom) as [Hx|Hx]; [exact Hx|]. unfold hash_to_tuple in Eg.
          rewrite (hash_panics shuffle Hperm hc dom nh Hnew) in Eg by nia. discriminate.
        - unfold hash_to_tuple in Eg. destruct (hash nh g x); [|discriminate]. cbn in Eg. destruct (Nat.eqb_spec cols 0); [discriminate|lia]. }
      destruct (G _ _ _ _ Hh E) as [Hi Hcols]. destruct (G _ _ _ _ Hh' E') as [Hj _].
      apply (tuple_inj shuffle Hperm hc dom nh Hnew h i h' j cols r c); assumption.
    + intros i p Hi. rewrite nth_error_map in Hi. destruct (nth_error (seq 0 _) i) as [j|] eqn:E; [|discriminate].
      injection Hi as <-. assert (j = i) as ->; [|apply consistency_val, Hc].
      assert (i < rows * cols / nh_h_count nh) by (rewrite <- (seq_length (rows * cols / nh_h_count nh) 0); apply nth_error_Some; congruence).
      apply (nth_error_nth _ _ 0) in E. rewrite seq_nth in E by assumption. auto.
  - apply Forall_forall. intros p Hp. apply in_map_iff in Hp as (jl & <- & _). apply disc_consistency.
Qed.
End Multi.
