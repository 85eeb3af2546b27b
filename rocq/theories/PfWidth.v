(** * Unsupported widths: every engine panics before it touches the database *)
From Coq Require Import Permutation.
From Verif Require Import MBase MUtils MCodec MPoly MRlwe MHash MTree MEncTree MSched MOram.
From Verif Require Import SpecRing SpecLwe SpecOram SpecSched PfPoly PfRlwe PfSched PfSched2 PfSched3 PfOram1 PfDet1 PfDet2 PfDet3 LSched.
From Verif Require PfUtils.
Local Open Scope nat_scope.

Definition ro {A} (sh : list nat) (p : prog A) : Prop := acc sh (fun _ _ => True) (fun _ _ => False) (fun _ => True) p.
Lemma ro_next {A} sh (p : prog A) m p' m' : ro sh p -> shape m = sh -> next p m = Some (p', m') -> ro sh p' /\ m' = m.
Proof.
  intros H Hs Hn. inversion H; subst; cbn in Hn; try discriminate.
  - injection Hn as <- <-. auto.
  - injection Hn as <- <-. auto.
  - rewrite mlen_shape in Hn. destruct (nth_error (shape m) r) eqn:E; injection Hn as <- <-; split; auto; [now apply H0|constructor].
  - injection Hn as <- <-. destruct (mget m r c); split; auto; [apply H1|constructor].
  - contradiction.
Qed.
Lemma ro_steps {A} pref sh (ws : config A) m ws' m' : steps pref ws m ws' m' -> shape m = sh ->
  (forall w, In w ws -> ro sh (w_prog w)) -> m' = m.
Proof.
  intros H. revert sh. induction H as [|ws m ws1 m1 ws2 m2 H1 H2 IH]; intros sh Hs Hw; [reflexivity|].
  destruct H1 as [ws m i w p' m' Hi Hl Hn]. destruct (ro_next sh (w_prog w) m p' m') as [Hp ->]; auto.
  { apply Hw. eapply nth_error_In, Hi. }
  apply (IH sh Hs). intros w' Hin. apply In_nth_error in Hin as [j Hj]. rewrite nth_error_upd in Hj.
  destruct (Nat.eqb_spec i j) as [->|]; [|apply Hw; eapply nth_error_In, Hj].
  rewrite Hi in Hj. injection Hj as <-. exact Hp.
Qed.
Lemma ro_wprog {A} sh (qu : list (nat * prog A)) : (forall i p, In (i, p) qu -> ro sh p) -> ro sh (wprog qu).
Proof.
  induction qu as [|[i p] qu IH]; intros H; cbn [wprog]; [constructor; exact I|].
  unfold ro in *. eapply acc_bind; [apply (H i); left; reflexivity|]. intros a _.
  eapply acc_bind; [apply IH; intros j p' Hj; apply (H j); right; exact Hj|]. intros; constructor; exact I.
Qed.
Lemma ro_par {A} pref (tasks : list (prog A)) m o m' : par_exec pref tasks m o m' -> Forall (ro (shape m)) tasks -> m' = m.
Proof.
  intros H HF. rewrite Forall_forall in HF.
  assert (forall queues, Permutation (concat queues) (number tasks) -> forall w, In w (start queues) -> ro (shape m) (w_prog w)) as HW.
  { intros queues Hp w Hw. apply in_map_iff in Hw as (qu & <- & Hq). cbn. apply ro_wprog. intros i p Hi. apply HF.
    assert (In (i, p) (number tasks)) as Hin by (eapply Permutation_in; [exact Hp|]; apply in_concat; eauto).
    apply number_nth in Hin. eapply nth_error_In, Hin. }
  destruct H as [queues ws rss rs m' Hp Hst _ _|queues ws m' e w Hp Hst _ _ _]; eapply ro_steps; eauto.
Qed.
Fixpoint sro {A} (sh : list nat) (p : sprog A) : Prop :=
  match p with
  | SRet _ | SFail _ => True
  | SPar tasks k => Forall (ro sh) tasks /\ forall rs, sro sh (k rs)
  | SReduce _ k => forall t, sro sh (k t)
  end.
Lemma sro_exec {A} pref (p : sprog A) : forall m r m', sro (shape m) p -> sexec pref p m r m' -> m' = m.
Proof.
  induction p as [a|e|B tasks k IH|x k IH]; intros m r m' Hr Hx; cbn [sro sexec] in *.
  - apply Hx. - apply Hx.
  - destruct Hr as [Ht Hk]. destruct Hx as [(rs & m1 & H1 & H2)|(e & H1 & _)].
    + apply ro_par in H1; auto. subst m1. eapply IH; eauto.
    + eapply ro_par; eauto.
  - destruct Hx as (t & Ht & Hx). eapply IH; eauto.
Qed.
Lemma sexec_bind {A B} pref (p : sprog A) (f : A -> sprog B) : forall m r m', sexec pref (sbind p f) m r m' ->
  (exists e, r = Panic e /\ sexec pref p m (Panic e) m') \/ exists a m1, sexec pref p m (Ok a) m1 /\ sexec pref (f a) m1 r m'.
Proof.
  induction p as [a|e|C tasks k IH|x k IH]; intros m r m' H; cbn [sbind sexec] in *.
  - right. exists a, m. auto.
  - left. exists e. destruct H as [-> ->]. auto.
  - destruct H as [(rs & m1 & H1 & H2)|(e & H1 & ->)].
    + apply IH in H2 as [(e & -> & H2)|(a & m2 & H2 & H3)]; [left; exists e; split; auto; left; eauto|].
      right. exists a, m2. split; auto. left. eauto.
    + left. exists e. split; auto. right. eauto.
  - destruct H as (t & Ht & H). apply IH in H as [(e & -> & H)|(a & m1 & H1 & H2)].
    + left. exists e. split; auto. eauto.
    + right. exists a, m1. eauto.
Qed.
Lemma sro_bind {A B} sh (p : sprog A) (f : A -> sprog B) : sro sh p -> (forall a, sro sh (f a)) -> sro sh (sbind p f).
Proof.
  intros Hp Hf. induction p as [a|e|C tasks k IH|x k IH]; cbn [sbind sro] in *; auto.
  destruct Hp. split; auto.
Qed.
Lemma sro_lift {A} sh (x : res A) : sro sh (slift x).
Proof. destruct x; exact I. Qed.
Lemma sro_spar {A} sh (tasks : list (prog A)) : Forall (ro sh) tasks -> sro sh (spar tasks).
Proof. intros H. cbn. split; auto. Qed.
Lemma sro_row_len sh r : sro sh (sone (row_len r)).
Proof.
  cbn. split.
  - constructor; [|constructor]. apply (acc_imp sh _ _ (fun x => nth_error sh r = Some x)); [auto|apply acc_row_len].
  - intros [|? [|? ?]]; exact I.
Qed.

Lemma ro_tid {A B} sh w (f : A -> prog B) l : (forall x, In x l -> ro sh (f x)) -> Forall (ro sh) (map (tid w f) l).
Proof.
  intros H. apply Forall_forall. intros p Hp. apply in_map_iff in Hp as (x & <- & Hx). destruct w; [apply H, Hx|]. constructor.
Qed.
Section W.
Variables (pool : bool) (fft : fftT) (cx : ctx) (neg_s : rgsw).
Hypothesis Hfft : forall ts, length (fft ts) = c_n cx.
Notation n := (c_n cx).
Notation level := (c_level cx).

Definition fits (qy : query) (cols : nat) : Prop := q_a qy <> [] /\ cols = 2 ^ length (q_a qy).

Lemma levels_len sh Rd Wr qy : acc sh Rd Wr (Forall (fun tmp : list rlwe => length tmp = 2 ^ length (q_a qy) /\ q_a qy <> [])) (pmapM (level_task fft cx qy) (seq 1 level)).
Proof.
  eapply acc_imp; [|apply (acc_pmapM sh Rd Wr (fun _ (tmp : list rlwe) => length tmp = 2 ^ length (q_a qy) /\ q_a qy <> []))].
  - intros dres H. induction H; constructor; auto.
  - intros x _. eapply acc_imp; [|apply level_val; exact Hfft]. intros a (_ & H). exact H.
Qed.
Lemma one_st_width sh Rd Wr qy r : (forall c, Rd r c : Prop) -> acc sh Rd Wr
  (fun _ => exists cols, nth_error sh r = Some cols /\ fits qy cols) (process_one_st fft cx neg_s qy r).
Proof.
  intros HR. unfold process_one_st. eapply acc_bind; [apply levels_len|]. cbv beta. intros dres Hd.
  eapply acc_bind; [apply acc_row_len|]. cbv beta. intros cols Hc.
  eapply acc_bind; [apply acc_lift|]. cbv beta. intros dl Ht. eapply acc_bind; [apply acc_lift|]. cbv beta. intros u Hu.
  assert (length dl = cols) as Hdl. { unfold rassert in Hu. destruct (Nat.eqb_spec (length dl) cols); [auto|discriminate]. }
  assert (fits qy cols) as Hfit.
  { destruct dres as [|d0 dres]; [discriminate|]. rewrite Forall_forall in Hd. destruct (Hd d0 (or_introl eq_refl)) as [_ Hq].
    split; auto. destruct (PfUtils.transpose_spec (d0 :: dres) (length (d0 :: dres)) (2 ^ length (q_a qy))) as (w & Ew & Lw & _); auto.
    - cbn; lia. - intros x Hx. apply Hd, Hx. - rewrite Ew in Ht. injection Ht as ->. congruence. }
  eapply acc_imp; [|apply (acc_pfoldM_n sh Rd Wr (fun _ _ => True) _ (seq 0 cols) 0)].
  - eauto.
  - intros k [y ls] j Hj _. unfold select_step. eapply acc_bind; [apply acc_buf_only|]. intros _ _.
    eapply acc_bind; [apply acc_lift|]. cbv beta. intros l El.
    eapply acc_bind; [apply acc_cell_buf; auto|]. intros v _. constructor. exact I.
  - exact I.
Qed.
Lemma one_st_panics qy r m cols : nth_error (shape m) r = Some cols -> ~ fits qy cols ->
  exists e, run (process_one_st fft cx neg_s qy r) m = (Panic e, m).
Proof.
  intros Hc Hf. pose proof (one_st_width (shape m) (fun _ _ => True) (fun _ _ => False) qy r (fun _ => I)) as Ha.
  pose proof (ro_mem _ _ _ _ m Ha eq_refl) as Hm.
  destruct (run (process_one_st fft cx neg_s qy r) m) as [[x|e] m1] eqn:E; cbn in Hm; subst m1; [|eauto].
  destruct (run_post _ _ _ _ _ Ha m x m eq_refl E) as (cols' & H1 & H2). congruence.
Qed.
Lemma one_st_ro sh qy r : ro sh (process_one_st fft cx neg_s qy r).
Proof. eapply acc_imp; [|apply (one_st_width sh (fun _ _ => True)); intros; exact I]. auto. Qed.
Lemma one_mt_ro sh qy r : sro sh (process_one_mt pool fft cx neg_s qy r).
Proof.
  unfold process_one_mt. apply sro_bind; [apply sro_spar|].
  { apply ro_tid. intros l _. eapply acc_imp; [|apply level_val; exact Hfft]. auto. }
  intros dres. apply sro_bind; [apply sro_lift|]. intros dl. apply sro_bind; [apply sro_row_len|]. intros cols.
  apply sro_bind; [apply sro_lift|]. intros _. apply sro_bind; [apply sro_spar|intros; cbn; auto].
  apply ro_tid. intros j _.
  unfold select_task, ro. eapply acc_bind; [apply acc_buf_only|]. intros _ _. eapply acc_bind; [apply acc_lift|]. intros l _.
  eapply acc_bind; [apply acc_cell_buf; exact I|]. intros; constructor; exact I.
Qed.
Lemma pmapM_panics {A B} (f : A -> prog B) l m : (forall x, In x l -> snd (run (f x) m) = m) ->
  (exists x e, In x l /\ fst (run (f x) m) = Panic e) -> exists e, run (pmapM f l) m = (Panic e, m).
Proof.
  induction l as [|x l IH]; intros Hm (y & e & Hy & He); [destruct Hy|]. cbn [pmapM]. rewrite run_bind.
  pose proof (Hm x (or_introl eq_refl)) as Hx. destruct (run (f x) m) as [[a|e'] m1] eqn:E; cbn in Hx; subst m1; [|eauto].
  rewrite run_bind. destruct IH as (e2 & ->); eauto.
  - intros z Hz. apply Hm. right. exact Hz.
  - exists y, e. split; auto. destruct Hy as [<-|Hy]; auto. rewrite E in He. discriminate.
Qed.

Lemma one_bad pref qy m r m' cols : nth_error (shape m) 0 = Some cols -> ~ fits qy cols ->
  sexec pref (process_one pool fft cx neg_s qy) m r m' -> (exists e, r = Panic e) /\ m' = m.
Proof.
  intros Hc Hf Hx. apply sexec_bind in Hx as [(e & -> & Hx)|(a & m1 & Hx & _)].
  - split; [eauto|]. eapply sro_exec; [apply one_mt_ro|exact Hx].
  - exfalso. pose proof (sdet_deterministic _ _ (one_mt_det pool fft cx neg_s Hfft qy 0 m) pref _ _ Hx) as Hd.
    pose proof (engines_pool fft cx neg_s Hfft qy 0 m) as He.
    destruct (one_st_panics qy 0 m cols Hc Hf) as (e & Ep). rewrite Ep in He.
    destruct (one_mt_pool fft cx neg_s pool qy 0 m) as [Eq|(e' & Eq)].
    + rewrite Eq in Hd. destruct (srun (process_one_mt true fft cx neg_s qy 0) m) as [[x|e'] m2]; [exact He|]. destruct Hd; discriminate.
    + destruct (srun (process_one_mt pool fft cx neg_s qy 0) m) as [[x|e''] m2]; [discriminate|]. destruct Hd; discriminate.
Qed.
Lemma multi_bad pref qs m r m' cols : nth_error (shape m) 0 = Some cols -> (exists qy, In qy qs /\ ~ fits qy cols) ->
  sexec pref (process_multi pool fft cx neg_s qs) m r m' -> (exists e, r = Panic e) /\ m' = m.
Proof.
  intros Hc (qy & Hq & Hf) Hx. unfold process_multi in Hx.
  apply sexec_bind in Hx as [(e & -> & Hx)|(c & m1 & H1 & Hx)].
  { split; [eauto|]. eapply sro_exec; [apply sro_row_len|exact Hx]. }
  apply sro_exec in H1; [|apply sro_row_len]. subst m1.
  set (w := on_worker pool (length qs)) in *.
  assert (Forall (ro (shape m)) (map (tid w (fun qy => process_one_st fft cx neg_s qy 0)) qs)) as HR.
  { apply ro_tid. intros l _. apply one_st_ro. }
  apply sexec_bind in Hx as [(e & -> & Hx)|(yls & m1 & H1 & _)].
  { split; [eauto|]. eapply sro_exec; [|exact Hx]. apply sro_spar, HR. }
  exfalso. assert (sdet (spar (map (tid w (fun qy => process_one_st fft cx neg_s qy 0)) qs)) m) as Hd.
  { apply sdet_spar; [apply separable_ro; rewrite Forall_forall in HR; exact HR|].
    apply Forall_forall. intros p Hp. apply in_map_iff in Hp as (l & <- & _). destruct w; [apply disc_one_st|constructor]. }
  apply sdet_deterministic in Hd. specialize (Hd pref _ _ H1). rewrite srun_spar in Hd.
  destruct (pmapM_panics (tid w (fun qy => process_one_st fft cx neg_s qy 0)) qs m) as (e & Ep).
  - intros x _. destruct w; [|reflexivity]. eapply ro_mem; [apply one_st_ro|reflexivity].
  - destruct w; [|exists qy, PUnwrap; auto]. destruct (one_st_panics qy 0 m cols Hc Hf) as (e & Ep). exists qy, e. cbn [tid]. rewrite Ep. auto.
  - rewrite Ep in Hd. destruct Hd; discriminate.
Qed.
Lemma batch_bad pref rows qs nh m r m' i qy cols : nth_error qs i = Some qy -> i < rows -> nth_error (shape m) i = Some cols -> ~ fits qy cols ->
  sexec pref (process_batch pool fft cx neg_s rows qs nh) m r m' -> (exists e, r = Panic e) /\ m' = m.
Proof.
  intros Hq Hi Hc Hf Hx. unfold process_batch in Hx.
  apply sexec_bind in Hx as [(e & -> & Hx)|(c & m1 & H1 & Hx)].
  { split; [eauto|]. eapply sro_exec; [apply sro_lift|exact Hx]. }
  apply sro_exec in H1; [|apply sro_lift]. subst m1. clear c.
  set (f := fun qr : query * nat => process_one_st fft cx neg_s (fst qr) (snd qr)) in *.
  set (w := on_worker pool rows) in *.
  assert (Forall (ro (shape m)) (map (tid w f) (combine qs (seq 0 rows)))) as HR.
  { apply ro_tid. intros l _. apply one_st_ro. }
  apply sexec_bind in Hx as [(e & -> & Hx)|(yls & m1 & H1 & _)].
  { split; [eauto|]. eapply sro_exec; [|exact Hx]. apply sro_spar, HR. }
  exfalso. assert (sdet (spar (map (tid w f) (combine qs (seq 0 rows)))) m) as Hd.
  { apply sdet_spar; [apply separable_ro; rewrite Forall_forall in HR; exact HR|].
    apply Forall_forall. intros p Hp. apply in_map_iff in Hp as (l & <- & _). destruct w; [apply disc_one_st|constructor]. }
  apply sdet_deterministic in Hd. specialize (Hd pref _ _ H1). rewrite srun_spar in Hd.
  destruct (pmapM_panics (tid w f) (combine qs (seq 0 rows)) m) as (e & Ep).
  - intros x _. destruct w; [|reflexivity]. eapply ro_mem; [apply one_st_ro|reflexivity].
  - exists (qy, i). enough (In (qy, i) (combine qs (seq 0 rows))) as Hin.
    { destruct w; [|exists PUnwrap; auto]. destruct (one_st_panics qy i m cols Hc Hf) as (e & Ep). exists e. unfold f. cbn [tid fst snd]. rewrite Ep. split; auto. }
    apply (nth_error_In _ i). clear - Hq Hi.
    assert (forall k, nth_error qs i = Some qy -> i < rows -> nth_error (combine qs (seq k rows)) i = Some (qy, k + i)) as G.
    { clear Hq Hi. revert rows qs. induction i as [|i IH]; intros rows qs k H Hi; destruct qs, rows; cbn in *; try discriminate; try lia.
      - injection H as ->. now rewrite Nat.add_0_r.
      - rewrite (IH rows qs (S k)); auto; [|lia]. f_equal. f_equal. lia. }
    now apply (G 0).
  - rewrite Ep in Hd. destruct Hd; discriminate.
Qed.
End W.
