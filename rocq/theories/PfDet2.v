(** * Determinism of the server operations, I: one query *)
From Verif Require Import MBase MUtils MCodec MPoly MRlwe MHash MTree MEncTree MSched MOram.
From Verif Require Import SpecRing SpecLwe PfPoly PfRlwe PfSched PfSched2 PfSched3 PfOram1 PfDet1.
Local Open Scope nat_scope.

Lemma acc_imp {A} sh Rd Wr (Q Q' : A -> Prop) p : (forall a, Q a -> Q' a) -> acc sh Rd Wr Q p -> acc sh Rd Wr Q' p.
Proof. intros H. apply acc_weaken; auto. Qed.
Lemma separable_ro {A} sh (tasks : list (prog A)) :
  (forall p, In p tasks -> acc sh (fun _ _ => True) (fun _ _ => False) (fun _ => True) p) -> separable sh tasks.
Proof.
  intros H. exists (fun _ _ _ => True), (fun _ _ _ => False). split; [auto|]. split; [intros ? ? ? ? _ []|].
  intros i p Hi. apply H. eapply nth_error_In, Hi.
Qed.
Lemma separable_one {A} sh (p : prog A) : acc sh (fun _ _ => True) (fun _ _ => False) (fun _ => True) p -> separable sh [p].
Proof. intros H. apply separable_ro. intros q [<-|[]]. exact H. Qed.
Lemma ro_mem {A} sh Rd (Q : A -> Prop) p m : acc sh Rd (fun _ _ => False) Q p -> shape m = sh -> snd (run p m) = m.
Proof.
  intros H Hs. apply mem_ext; [apply run_shape|]. intros r c. eapply run_unchanged; [exact H|exact Hs|auto].
Qed.

Lemma sdet_bind {A B} (p : sprog A) (f : A -> sprog B) : forall m, sdet p m ->
  (forall a m', srun p m = (Ok a, m') -> sdet (f a) m') -> sdet (sbind p f) m.
Proof.
  induction p as [a|e|C tasks k IH|x k IH]; intros m Hd Hf; cbn [sbind sdet srun] in *.
  - apply Hf; reflexivity.
  - exact I.
  - destruct Hd as (Hs & Hl & Hk). split; [exact Hs|]. split; [exact Hl|].
    destruct (par_run tasks m) as [[rs|e] m1]; [|exact I]. apply IH; assumption.
  - destruct Hd as (He & Hk). split; [intros t Ht; f_equal; apply He, Ht|]. apply IH; assumption.
Qed.
Lemma sdet_lift {A} (x : res A) m : sdet (slift x) m.
Proof. destruct x; exact I. Qed.
Lemma sdet_spar {B} (tasks : list (prog B)) m : separable (shape m) tasks -> Forall (disc []) tasks -> sdet (spar tasks) m.
Proof. intros H1 H2. cbn. split; [exact H1|]. split; [exact H2|]. destruct (par_run tasks m) as [[|] ?]; exact I. Qed.
Lemma sdet_sone {B} (p : prog B) m : acc (shape m) (fun _ _ => True) (fun _ _ => False) (fun _ => True) p -> disc [] p -> sdet (sone p) m.
Proof.
  intros H1 H2. cbn [sone sdet]. split; [apply separable_one, H1|]. split; [constructor; [exact H2|constructor]|].
  destruct (par_run [p] m) as [[rs|] ?]; [|exact I]. destruct rs as [|? [|? ?]]; exact I.
Qed.
(** A loop whose tasks may find themselves outside the pool: as if they were inside. *)
Lemma par_run_fail {A B} (l : list A) m : l <> [] -> par_run (map (fun _ => @PFail B PUnwrap) l) m = (Panic PUnwrap, m).
Proof. destruct l; [contradiction|]. reflexivity. Qed.
Lemma sdet_tid {A B C} w (f : A -> prog B) l (k : list B -> sprog C) m :
  sdet (spar (map f l)) m -> (forall rs m', srun (spar (map f l)) m = (Ok rs, m') -> sdet (k rs) m') -> sdet (sbind (spar (map (tid w f) l)) k) m.
Proof.
  intros H1 H2. destruct w; [apply sdet_bind; assumption|]. destruct l as [|x l]; [apply (sdet_bind (spar (map f []))); assumption|].
  cbn [tid]. cbn [spar sbind sdet]. rewrite (par_run_fail (x :: l)) by discriminate. split; [|split; [|exact I]].
  - apply separable_ro. intros p Hp. apply in_map_iff in Hp as (? & <- & _). constructor.
  - apply Forall_forall. intros p Hp. apply in_map_iff in Hp as (? & <- & _). constructor.
Qed.
Lemma sdet_row_len r m : sdet (sone (row_len r)) m.
Proof. apply sdet_sone; [|apply disc_row_len]. eapply acc_imp; [|apply acc_row_len]. auto. Qed.
Lemma srun_row_len r m x m' : srun (sone (row_len r)) m = (Ok x, m') -> m' = m /\ nth_error (shape m) r = Some x.
Proof.
  rewrite srun_sone. cbn. rewrite mlen_shape. destruct (nth_error (shape m) r); intros H; [|discriminate].
  injection H as <- <-. auto.
Qed.

Lemma bind_ok {A B} (x : res A) (f : A -> res B) b : bind x f = Ok b -> exists a, x = Ok a /\ f a = Ok b.
Proof. destruct x as [a|]; [|discriminate]. cbn. eauto. Qed.
Lemma mapM_ok_In {A B} (f : A -> res B) (K : B -> Prop) : forall l ys, mapM f l = Ok ys ->
  (forall x y, In x l -> f x = Ok y -> K y) -> Forall K ys /\ length ys = length l.
Proof.
  induction l as [|x l IH]; intros ys H HK; cbn in H; [injection H as <-; split; [constructor|reflexivity]|].
  apply bind_ok in H as (y & Ey & H). apply bind_ok in H as (ys' & Es & H). injection H as <-.
  destruct (IH ys' Es) as [F L]; [intros; eapply HK; [right|]; eassumption|]. split; [|cbn; f_equal; exact L].
  constructor; [eapply HK; [left; reflexivity|exact Ey]|exact F].
Qed.
Lemma index_In {A} (l : list A) i x : index l i = Ok x -> In x l.
Proof. unfold index. destruct (nth_error l i) eqn:E; [|discriminate]. intros H; injection H as <-. eapply nth_error_In, E. Qed.
Lemma next_all_Forall {T} (K : T -> Prop) : forall v hs ts, next_all v = Ok (hs, ts) -> Forall (Forall K) v -> Forall K hs /\ Forall (Forall K) ts.
Proof.
  induction v as [|[|x r] v IH]; intros hs ts H F; cbn in H; [injection H as <- <-; split; constructor|discriminate|].
  apply bind_ok in H as ((hs', ts') & E & H). injection H as <- <-. inversion F as [|? ? Fr Fv]; subst. inversion Fr; subst.
  destruct (IH hs' ts' E Fv). split; constructor; assumption.
Qed.
Lemma transpose_Forall {T} (K : T -> Prop) v w : transpose v = Ok w -> Forall (Forall K) v -> Forall (Forall K) w.
Proof.
  destruct v as [|r0 v0] eqn:Ev; [discriminate|]. unfold transpose. rewrite <- Ev. generalize (length r0) as len. clear Ev.
  intros len H F. revert v w H F. induction len as [|len IH]; intros v w H F; cbn in H; [injection H as <-; constructor|].
  apply bind_ok in H as ((col, its) & E & H). apply bind_ok in H as (rest & E2 & H). injection H as <-.
  destruct (next_all_Forall K v col its E F). constructor; [assumption|]. eapply IH; eassumption.
Qed.

Lemma acc_pfoldM_n {A S} sh Rd Wr (Q : nat -> S -> Prop) (f : S -> A -> prog S) : forall l k s,
  (forall k s x, In x l -> Q k s -> acc sh Rd Wr (Q (Datatypes.S k)) (f s x)) -> Q k s -> acc sh Rd Wr (Q (k + length l)) (pfoldM f l s).
Proof.
  induction l as [|x l IH]; intros k s Hf Hs; cbn [pfoldM length]; [constructor; rewrite Nat.add_0_r; exact Hs|].
  eapply acc_bind; [apply Hf; [left; reflexivity|exact Hs]|]. cbv beta. intros s' Hs'. rewrite <- Nat.add_succ_comm.
  apply IH; [|exact Hs']. intros; apply Hf; [right; assumption|assumption].
Qed.
Lemma combine_seq_fst {A} (ls : list A) : forall k a i j b, nth_error (combine (seq a k) ls) i = Some (j, b) -> j = a + i.
Proof.
  induction ls as [|x ls IH]; intros k a i j b H; destruct k; cbn in H; try (destruct i; discriminate).
  destruct i; cbn in H; [injection H as <- _; lia|]. apply IH in H. lia.
Qed.
Lemma F2_len {A B} (R : A -> B -> Prop) l l' : Forall2 R l l' -> length l = length l'.
Proof. induction 1; cbn; congruence. Qed.
Section One.
Variables (pool : bool) (fft : fftT) (cx : ctx) (neg_s : rgsw).
Notation n := (c_n cx).
Notation base := (c_base cx).
Notation level := (c_level cx).
Hypothesis Hfft : forall ts, length (fft ts) = n.

Lemma to_rgsw_val d l : Forall (wfc n) d -> decomposed_rlwe_to_rgsw fft cx d neg_s = Ok l -> gsw n base level l.
Proof.
  intros Hd H. unfold decomposed_rlwe_to_rgsw in H. apply bind_ok in H as (rows & E & H). injection H as <-.
  destruct (mapM_ok_In _ (wfc n) _ _ E) as [F L].
  - intros i y _ Hy. apply bind_ok in Hy as (c & Ec & Hy). injection Hy as <-.
    destruct (Nat.even i); [apply wfc_ep; [exact Hfft|apply wfc_allocate]|]. rewrite Forall_forall in Hd. apply Hd. eapply index_In, Ec.
  - split; [reflexivity|]. split; [reflexivity|]. cbn. split; [rewrite L, seq_length; reflexivity|exact F].
Qed.
Lemma select_val sh Wr d r j : Forall (Forall (wfc n)) d ->
  acc sh (fun r' c' => r' = r /\ c' = j) Wr (fun yl => wfc n (fst yl) /\ gsw n base level (snd yl)) (select_task fft cx neg_s d r j).
Proof.
  intros Hd. unfold select_task. eapply acc_bind; [apply acc_buf_only|]. intros _ _.
  eapply acc_bind; [apply acc_lift|]. cbv beta. intros l Hl. apply bind_ok in Hl as (dj & Ed & Hl).
  eapply acc_bind; [apply acc_cell_buf; auto|]. intros v _. constructor. cbn. split; [apply wfc_ep; [exact Hfft|apply wfc_allocate]|].
  eapply to_rgsw_val; [|exact Hl]. rewrite Forall_forall in Hd. apply Hd. eapply index_In, Ed.
Qed.
Lemma levels_val sh Rd Wr qy : acc sh Rd Wr (fun dres => Forall (Forall (wfc n)) dres) (pmapM (level_task fft cx qy) (seq 1 level)).
Proof.
  eapply acc_imp; [|apply (acc_pmapM sh Rd Wr (fun _ tmp => Forall (wfc n) tmp))].
  - intros dres H. clear - H. induction H; constructor; auto.
  - intros x _. eapply acc_imp; [|apply level_val; exact Hfft]. intros a (H & _). exact H.
Qed.

Definition row_only (r : nat) : nat -> nat -> Prop := fun r' _ => r' = r.
(** [process_one_st]: reads only its row, returns one well-formed selection ciphertext per column. *)
Lemma one_st_val sh Wr qy r : acc sh (row_only r) Wr
  (fun yl => wfc n (fst yl) /\ exists cols, nth_error sh r = Some cols /\ vec (gsw n base level) cols (snd yl)) (process_one_st fft cx neg_s qy r).
Proof.
  unfold process_one_st. eapply acc_bind; [apply levels_val|]. cbv beta. intros dres Hd.
  eapply acc_bind; [apply acc_row_len|]. cbv beta. intros cols Hc.
  eapply acc_bind; [apply acc_lift|]. cbv beta. intros dl Ht. eapply acc_bind; [apply acc_lift|]. cbv beta. intros _ _.
  assert (Forall (Forall (wfc n)) dl) as Hdl by (eapply transpose_Forall; eassumption).
  eapply acc_imp; [|apply (acc_pfoldM_n sh _ Wr (fun k yl => wfc n (fst yl) /\ vec (gsw n base level) k (snd yl)) _ (seq 0 cols) 0)].
  - cbv beta. intros yl [H1 H2]. rewrite seq_length in H2. eauto.
  - intros k [y ls] j Hj [Hy [Hl HF]]. cbn [fst snd] in *. unfold select_step. eapply acc_bind; [apply acc_buf_only|]. intros _ _.
    eapply acc_bind; [apply acc_lift|]. cbv beta. intros l El. apply bind_ok in El as (dj & Ed & El).
    eapply acc_bind; [apply acc_cell_buf; reflexivity|]. intros v _. constructor. cbn [fst snd]. split; [apply wfc_ep; [exact Hfft|exact Hy]|].
    split; [rewrite app_length; cbn; lia|]. apply Forall_app. split; [exact HF|]. constructor; [|constructor].
    eapply to_rgsw_val; [|exact El]. rewrite Forall_forall in Hdl. apply Hdl. eapply index_In, Ed.
  - cbn. split; [apply wfc_allocate|]. split; [reflexivity|constructor].
Qed.

(** [update_task] touches one cell. *)
Lemma update_val sh qy r jl : acc sh (fun r' c' => r' = r /\ c' = fst jl) (fun r' c' => r' = r /\ c' = fst jl) (fun _ => True) (update_task fft cx qy r jl).
Proof.
  unfold update_task. eapply acc_bind; [apply acc_cell_buf; auto|]. intros v _. eapply acc_bind; [apply acc_lift|]. intros tmp _.
  eapply acc_bind; [apply acc_cell_buf; auto|]. intros v' _. eapply acc_bind; [apply acc_lift|]. intros d _. apply acc_put. auto.
Qed.
Lemma update_st_val sh qy r ls : acc sh (row_only r) (row_only r) (fun _ => True) (update_db_st fft cx qy r ls).
Proof.
  unfold update_db_st. eapply acc_bind; [apply acc_row_len|]. intros cols _.
  eapply acc_bind; [apply (acc_pmapM sh _ _ (fun _ _ => True))|intros; constructor; exact I].
  intros j _. eapply acc_bind; [apply acc_lift|]. intros l _. eapply acc_weaken; [| | |apply update_val]; auto; intros r' c' [H _]; exact H.
Qed.

(** ** [process_one] *)
Lemma one_mt_det qy r m : sdet (process_one_mt pool fft cx neg_s qy r) m.
Proof.
  unfold process_one_mt. apply sdet_tid.
  { apply sdet_spar.
    - apply separable_ro. intros p Hp. apply in_map_iff in Hp as (l & <- & _). eapply acc_imp; [|apply level_val; exact Hfft]. auto.
    - apply Forall_forall. intros p Hp. apply in_map_iff in Hp as (l & <- & _). apply disc_level. }
  intros dres m1 H. rewrite srun_spar in H.
  assert (shape m1 = shape m) as Hs1 by (pose proof (run_shape (pmapM (level_task fft cx qy) (seq 1 level)) m) as G; rewrite H in G; exact G).
  assert (Forall (Forall (wfc n)) dres) as Hd by (eapply run_post; [apply (levels_val (shape m) (fun _ _ => True) (fun _ _ => True))|reflexivity|exact H]).
  clear H. apply sdet_bind; [apply sdet_lift|]. intros dl m2 H. rewrite srun_lift in H. injection H as Ht Hm2. subst m2.
  assert (Forall (Forall (wfc n)) dl) as Hdl by (eapply transpose_Forall; eassumption).
  apply sdet_bind; [apply sdet_row_len|]. intros cols m2 H. apply srun_row_len in H as [-> Hc].
  apply sdet_bind; [apply sdet_lift|]. intros u m2 H. rewrite srun_lift in H. injection H as _ Hm2. subst m2.
  apply sdet_tid.
  { apply sdet_spar.
    - apply separable_ro. intros p Hp. apply in_map_iff in Hp as (j & <- & _). eapply acc_weaken; [| | |apply (select_val _ (fun _ _ => False)), Hdl]; auto.
    - apply Forall_forall. intros p Hp. apply in_map_iff in Hp as (j & <- & _). apply disc_select. }
  intros rs m2 H. rewrite srun_spar in H.
  assert (Forall2 (fun (_ : nat) yl => wfc n (fst yl) /\ gsw n base level (snd yl)) (seq 0 cols) rs) as Hr.
  { eapply run_post; [|reflexivity|exact H]. apply (acc_pmapM (shape m1) (fun _ _ => True) (fun _ _ => True)).
    intros j _. eapply acc_weaken; [| | |apply (select_val _ (fun _ _ => True)), Hdl]; auto. }
  cbn [sreduce sbind sdet]. split; [|exact I].
  assert (length (map fst rs) = cols) as L by (rewrite map_length, <- (F2_len _ _ _ Hr), seq_length; reflexivity).
  assert (Forall (wfc n) (map fst rs)) as HF.
  { clear - Hr. induction Hr as [|? ? ? ? [? _] ? IH]; cbn; constructor; auto. }
  intros t Hti. rewrite !(reduce_rlwe n) by (rewrite ?items_left; congruence || exact HF). reflexivity.
Qed.
Lemma update_mt_det qy r ls m : sdet (update_db_mt pool fft cx qy r ls) m.
Proof.
  unfold update_db_mt. apply sdet_bind; [apply sdet_row_len|]. intros cols m1 H. apply srun_row_len in H as [-> Hc].
  apply sdet_tid; [|intros; exact I]. apply sdet_spar.
  - exists (fun i r' c' => r' = r /\ c' = i), (fun i r' c' => r' = r /\ c' = i). split; [intros i r' c'; destruct (Nat.eq_dec r' r), (Nat.eq_dec c' i); tauto|].
    split; [intros i j r' c' Hne [-> ->]; split; intros [_ H]; congruence|].
    intros i p Hi. rewrite nth_error_map in Hi. destruct (nth_error (combine (seq 0 cols) ls) i) as [[j l]|] eqn:E; [|discriminate].
    injection Hi as <-. assert (j = i) as ->.
    { exact (combine_seq_fst ls cols 0 i j l E). }
    exact (update_val (shape m) qy r (i, l)).
  - apply Forall_forall. intros p Hp. apply in_map_iff in Hp as (jl & <- & _). apply disc_update.
Qed.
Lemma process_one_det qy m : sdet (process_one pool fft cx neg_s qy) m.
Proof.
  unfold process_one. apply sdet_bind; [apply one_mt_det|]. intros yls m1 _. apply sdet_bind; [apply update_mt_det|]. intros; exact I.
Qed.
End One.
