(** * From [sdet] to the statements of SpecSched; equality of the two query engines *)
From Coq Require Import Permutation.
From Verif Require Import MBase MUtils MCodec MPoly MRlwe MHash MTree MEncTree MSched MOram.
From Verif Require Import SpecRing SpecLwe SpecOram SpecSched PfPoly PfRlwe PfSched PfSched2 PfSched3 PfOram1 PfDet1 PfDet2 PfDet3.
Local Open Scope nat_scope.

Lemma sdet_deterministic {A} (p : sprog A) m : sdet p m -> deterministic p m.
Proof. intros H pref r m' Hx. exact (sexec_det pref p m r m' H Hx). Qed.

Lemma par_exec_total {A} pref (tasks : list (prog A)) m0 : separable (shape m0) tasks -> Forall (disc []) tasks ->
  exists o m', par_exec pref tasks m0 o m' /\ match par_run tasks m0 with (Ok rs, m1) => o = Ok rs /\ m' = m1 | (Panic _, _) => exists e, o = Panic e end.
Proof.
  intros Hsep Hdisc. destruct (par_run tasks m0) as [[rs|e0] m1] eqn:Hrun.
  { exists (Ok rs), m1. split; [|auto]. eapply par_exec_exists; eauto. }
  rewrite Forall_forall in Hdisc.
  destruct (can_finish pref (start [number tasks]) m0) as (ws & m' & Hst & Hfin).
  { apply linv_start. intros qu i p [<-|[]] Hi. apply Hdisc. apply number_nth in Hi. eapply nth_error_In; exact Hi. }
  assert (Permutation (concat [number tasks]) (number tasks)) as Hperm by (cbn; rewrite app_nil_r; reflexivity).
  pose proof Hsep as (Rd & Wr & dec & sep & Hacc).
  destruct (finished_state pref _ tasks m0 eq_refl Rd Wr dec sep Hacc _ Hperm ws m' Hst) as (Hlw & Hs & Hres & Hmem).
  destruct ws as [|w [|? ?]]; try discriminate Hlw.
  destruct (result (w_prog w)) as [r|] eqn:Er; [|exfalso; eapply Hfin; [left; reflexivity|exact Er]].
  pose proof (Hres 0 w (number tasks) r eq_refl eq_refl Er) as Hr.
  rewrite par_run_wprog in Hrun. destruct (run (wprog (number tasks)) m0) as [[rs2|e] m2] eqn:Ew; [discriminate|]. cbn in Hr. subst r.
  exists (Panic e), m'. split; [|eauto]. eapply (Par_panic pref tasks m0 [number tasks] [w] m' e w Hperm Hst Hfin); [left; reflexivity|].
  destruct (w_prog w); cbn in Er; try discriminate. injection Er as ->. reflexivity.
Qed.
Lemma sdet_realisable {A} (p : sprog A) : forall m, sdet p m -> realisable p m.
Proof.
  induction p as [a|e|B tasks k IH|x k IH]; intros m Hd pref; cbn [sdet sexec] in *.
  - eauto.
  - eauto.
  - destruct Hd as (Hs & Hl & Hk). destruct (par_exec_total pref tasks m Hs Hl) as (o & m' & Hx & Ho).
    destruct (par_run tasks m) as [[rs|e] m1].
    + destruct Ho as [-> ->]. destruct (IH rs m1 Hk pref) as (r & m2 & H). exists r, m2. left. eauto.
    + destruct Ho as [e' ->]. exists (Panic e'), m'. right. eauto.
  - destruct Hd as (He & Hk). destruct (IH _ m Hk pref) as (r & m2 & H). exists r, m2, (left_tree x). split; [apply items_left|exact H].
Qed.

Lemma acc_no_chain {B} (R : B -> B -> Prop) x : Acc R x -> forall c : nat -> B, c 0 = x -> ~ (forall k, R (c (S k)) (c k)).
Proof.
  induction 1 as [x _ IH]. intros c Hc Hall. apply (IH (c 1)) with (c := fun k => c (S k)).
  - subst x. apply Hall. - reflexivity. - intros k. apply Hall.
Qed.
Lemma loop_safe {B} pref (tasks : list (prog B)) m : Forall (disc []) tasks ->
  never_stuck pref tasks m /\ race_free pref tasks m /\ terminates pref tasks m.
Proof.
  intros Hd. rewrite Forall_forall in Hd.
  assert (forall queues ws m1, Permutation (concat queues) (number tasks) -> steps pref (start queues) m ws m1 -> linv ws) as HL.
  { intros queues ws m1 Hp Hst. eapply linv_steps; [exact Hst|]. apply linv_start. intros qu i p Hq Hi. apply Hd.
    assert (In (i, p) (number tasks)) as Hin by (eapply Permutation_in; [exact Hp|]; apply in_concat; eauto).
    apply number_nth in Hin. eapply nth_error_In, Hin. }
  split; [|split].
  - intros queues ws m1 Hp Hst. apply progress. eapply HL; eassumption.
  - intros queues ws m1 i j wi wj r Hp Hst Hne Hi Hj Hs Ht. exact (no_race ws i j wi wj r (HL _ _ _ Hp Hst) Hne Hi Hj Hs Ht).
  - intros queues c Hp Hc Hall. apply (acc_no_chain (step_rel pref) (start queues, m) (config_acc pref (start queues) m) c Hc). exact Hall.
Qed.
Lemma sdet_loops {A} pref (p : sprog A) : forall m, sdet p m -> all_loops pref p m.
Proof.
  induction p as [a|e|B tasks k IH|x k IH]; intros m Hd; cbn [sdet all_loops] in *; auto.
  - destruct Hd as (Hs & Hl & Hk). destruct (loop_safe pref tasks m Hl) as (H1 & H2 & H3). split; [exact H1|]. split; [exact H2|]. split; [exact H3|].
    intros rs m1 Hx. pose proof (par_exec_det pref _ tasks m _ _ eq_refl Hs Hx) as Hdet.
    destruct (par_run tasks m) as [[rs'|e] m'] eqn:E; [|destruct Hdet; discriminate]. destruct Hdet as [Er ->]. injection Er as ->. apply IH, Hk.
  - destruct Hd as (He & Hk). intros t Ht. rewrite (He t Ht). apply IH, Hk.
Qed.

(** ** The single-threaded and the multi-threaded engine *)
Lemma add_backward_acc fft n out f : length (fft f) = n -> add_backward fft out f = poly_add out (add_backward fft (poly_zero n) f).
Proof.
  intros H. unfold add_backward. revert n H. generalize (fft f) as g. intros g n <-. revert g. clear.
  induction out as [|x out IH]; intros [|y g]; cbn; try reflexivity. f_equal; [|apply IH].
  unfold wadd, wrap. rewrite Zplus_mod_idemp_r. reflexivity.
Qed.
Section St.
Variables (fft : fftT) (cx : ctx) (neg_s : rgsw).
Notation n := (c_n cx).
Hypothesis Hfft : forall ts, length (fft ts) = n.

Lemma ep_acc g out d : external_product fft g out d = rlwe_add out (external_product fft g (rlwe_allocate n) d).
Proof. unfold external_product, rlwe_add, update_body_with_add, update_mask_with_add; cbn. f_equal; apply add_backward_acc, Hfft. Qed.

Lemma step_task dl r y ls j m : run (select_step fft cx neg_s dl r (y, ls) j) m =
  match run (select_task fft cx neg_s dl r j) m with (Ok (e, l), m') => (Ok (rlwe_add y e, ls ++ [l]), m') | (Panic e, m') => (Panic e, m') end.
Proof.
  unfold select_step, select_task. rewrite !run_bind. destruct (run buf_only m) as [[[]|] m1]; [|reflexivity].
  rewrite !run_bind. destruct (run (plift _) m1) as [[l|] m2]; [|reflexivity]. rewrite !run_bind.
  destruct (run (cell_buf r j) m2) as [[v|] m3]; [|reflexivity]. cbn [run fst snd]. rewrite (ep_acc l y v). reflexivity.
Qed.
Lemma steps_tasks dl r m : forall js y ls, 
  run (pfoldM (select_step fft cx neg_s dl r) js (y, ls)) m =
  match run (pmapM (select_task fft cx neg_s dl r) js) m with
  | (Ok rs, m') => (Ok (fold_left rlwe_add (map fst rs) y, ls ++ map snd rs), m')
  | (Panic e, m') => (Panic e, m') end.
Proof.
  intros js. revert m. induction js as [|j js IH]; intros m y ls; cbn [pfoldM pmapM].
  { cbn. rewrite app_nil_r. reflexivity. }
  rewrite !run_bind, step_task. destruct (run (select_task fft cx neg_s dl r j) m) as [[[e l]|] m1]; [|reflexivity].
  rewrite IH, run_bind. destruct (run (pmapM _ js) m1) as [[rs|] m2]; [|reflexivity]. cbn. rewrite <- app_assoc. reflexivity.
Qed.

Lemma run_row_len_mem r m : snd (run (row_len r) m) = m.
Proof. cbn. destruct (mlen m r); reflexivity. Qed.
Lemma levels_mem qy m : snd (run (pmapM (level_task fft cx qy) (seq 1 (c_level cx))) m) = m.
Proof. eapply ro_mem; [apply (levels_val fft cx Hfft (shape m) (fun _ _ => True))|reflexivity]. Qed.
Lemma tid_true {A B} (f : A -> prog B) : tid true f = f.
Proof. reflexivity. Qed.
Lemma on_worker_cases pool len : on_worker pool len = true \/ (pool = false /\ len = 1%nat /\ on_worker pool len = false).
Proof. unfold on_worker. destruct pool; [auto|]. destruct (Nat.eqb_spec len 1); auto. Qed.
(** Outside the pool the operation either behaves as inside it or panics. *)
Lemma one_mt_pool pool qy r m :
  srun (process_one_mt pool fft cx neg_s qy r) m = srun (process_one_mt true fft cx neg_s qy r) m \/
  exists e, fst (srun (process_one_mt pool fft cx neg_s qy r) m) = Panic e.
Proof.
  unfold process_one_mt. destruct (on_worker_cases pool (c_level cx)) as [->|(_ & E & ->)].
  2:{ right. rewrite E, srun_bind, srun_spar. cbn. eauto. }
  change (on_worker true (c_level cx)) with true. rewrite !srun_bind, !srun_spar.
  destruct (run (pmapM (tid true (level_task fft cx qy)) (seq 1 (c_level cx))) m) as [[dres|e] m1]; [|left; reflexivity].
  rewrite !srun_bind, !srun_lift. destruct (transpose dres) as [dl|e]; [|left; reflexivity].
  rewrite !srun_bind, !srun_sone. destruct (run (row_len r) m1) as [[cols|e] m2]; [|left; reflexivity].
  rewrite !srun_bind, !srun_lift. destruct (rassert (length dl =? cols)) as [u|e]; [|left; reflexivity].
  destruct (on_worker_cases pool cols) as [->|(_ & E & ->)]; [left; reflexivity|].
  right. rewrite E, srun_bind, srun_spar. cbn. eauto.
Qed.
Lemma one_mt_spread pool qy r m : on_worker pool (c_level cx) = true -> (forall cols, mlen m r = Some cols -> on_worker pool cols = true) ->
  srun (process_one_mt pool fft cx neg_s qy r) m = srun (process_one_mt true fft cx neg_s qy r) m.
Proof.
  intros Hl Hc. unfold process_one_mt. rewrite Hl. change (on_worker true (c_level cx)) with true. rewrite !srun_bind, !srun_spar, !tid_true.
  pose proof (levels_mem qy m) as Hm. destruct (run (pmapM (level_task fft cx qy) (seq 1 (c_level cx))) m) as [[dres|e] m1]; [|reflexivity]. cbn [snd] in Hm. subst m1.
  rewrite !srun_bind, !srun_lift. destruct (transpose dres) as [dl|e]; [|reflexivity].
  rewrite !srun_bind, !srun_sone. destruct (mlen m r) as [cols|] eqn:Em.
  - rewrite (run_row_len r m cols Em), !srun_bind, !srun_lift. rewrite (Hc cols eq_refl). reflexivity.
  - cbn. rewrite Em. reflexivity.
Qed.
Lemma engines_pool qy r m : same_outcome (run (process_one_st fft cx neg_s qy r) m) (srun (process_one_mt true fft cx neg_s qy r) m).
Proof.
  unfold process_one_st, process_one_mt. change (on_worker true (c_level cx)) with true. rewrite tid_true. rewrite run_bind, srun_bind, srun_spar.
  pose proof (levels_mem qy m) as Hm. destruct (run (pmapM (level_task fft cx qy) (seq 1 (c_level cx))) m) as [[dres|e] m1]; [|exact I]. cbn [snd] in Hm. subst m1.
  rewrite run_bind, srun_bind, srun_lift. pose proof (run_row_len_mem r m) as Hm.
  destruct (transpose dres) as [dl|e] eqn:Et.
  2:{ destruct (run (row_len r) m) as [[cols|e'] m1]; [|exact I]. rewrite run_bind. exact I. }
  rewrite srun_bind, srun_sone. destruct (run (row_len r) m) as [[cols|e'] m1]; [|exact I]. cbn [snd] in Hm. subst m1.
  rewrite run_bind, run_plift, run_bind, run_plift, srun_bind, srun_lift. destruct (rassert (length dl =? cols)) as [u|]; [|exact I].
  change (on_worker true cols) with true. rewrite tid_true, srun_bind, srun_spar, steps_tasks. destruct (run (pmapM (select_task fft cx neg_s dl r) (seq 0 cols)) m) as [[rs|] m1] eqn:Er; [|exact I].
  rewrite srun_bind, srun_sreduce. cbn [srun same_outcome]. split; [|reflexivity]. cbn [app]. f_equal. symmetry. apply reduce_left_all.
  rewrite map_length. assert (Forall2 (fun (_ : nat) (_ : rlwe * rgsw) => True) (seq 0 cols) rs) as HF.
  { eapply run_post; [apply (acc_pmapM (shape m) (fun _ _ => True) (fun _ _ => True))|reflexivity|exact Er].
    intros j _. unfold select_task. eapply acc_bind; [apply acc_buf_only|]. intros _ _. eapply acc_bind; [apply acc_lift|]. intros l _.
    eapply acc_bind; [apply acc_cell_buf; exact I|]. intros v _. constructor; exact I. }
  apply F2_len in HF. rewrite seq_length in HF. exact HF.
Qed.
Lemma engines pool qy r m : on_worker pool (c_level cx) = true -> (forall cols, mlen m r = Some cols -> on_worker pool cols = true) ->
  same_outcome (run (process_one_st fft cx neg_s qy r) m) (srun (process_one_mt pool fft cx neg_s qy r) m).
Proof. intros Hl Hc. rewrite (one_mt_spread pool qy r m Hl Hc). apply engines_pool. Qed.

Lemma updates_same qy r ls : forall k a m, length ls = k ->
  run (pmapM (fun j => l <-- plift (index ls (j - a)) ;;; update_task fft cx qy r (j, l)) (seq a k)) m =
  run (pmapM (update_task fft cx qy r) (combine (seq a k) ls)) m.
Proof.
  induction ls as [|l ls IH]; intros k a m Hk; destruct k; try discriminate; cbn [seq combine pmapM]; [reflexivity|].
  rewrite !run_bind. rewrite Nat.sub_diag. cbn [index nth_error plift run].
  destruct (run (update_task fft cx qy r (a, l)) m) as [[u|e] m1]; [|reflexivity]. rewrite !run_bind.
  rewrite <- (IH k (S a)) by (cbn in Hk; lia).
  assert (forall js m, (forall j, In j js -> S a <= j) ->
    run (pmapM (fun j => l0 <-- plift (index (l :: ls) (j - a)) ;;; update_task fft cx qy r (j, l0)) js) m =
    run (pmapM (fun j => l0 <-- plift (index ls (j - S a)) ;;; update_task fft cx qy r (j, l0)) js) m) as G.
  { clear. induction js as [|j js IH]; intros m Hj; cbn [pmapM]; [reflexivity|].
    assert (index (l :: ls) (j - a) = index ls (j - S a)) as E.
    { specialize (Hj j (or_introl eq_refl)). replace (j - a) with (S (j - S a)) by lia. reflexivity. }
    rewrite !(run_bind (_ <-- _ ;;; _)), E. destruct (run _ m) as [[u|e] m1]; [|reflexivity]. rewrite !run_bind, IH by (intros; apply Hj; right; assumption). reflexivity. }
  rewrite G by (intros j Hj; apply in_seq in Hj; lia). reflexivity.
Qed.
Lemma updates_engines pool qy r ls m cols : mlen m r = Some cols -> length ls = cols -> on_worker pool cols = true ->
  run (update_db_st fft cx qy r ls) m = srun (update_db_mt pool fft cx qy r ls) m.
Proof.
  intros Hc Hl Hw. unfold update_db_st, update_db_mt. rewrite run_bind, srun_bind, srun_sone, (run_row_len r m cols Hc), Hw, tid_true.
  rewrite run_bind, srun_bind, srun_spar. rewrite <- (updates_same qy r ls cols 0 m Hl).
  assert (forall js m, run (pmapM (fun j => l <-- plift (index ls (j - 0)) ;;; update_task fft cx qy r (j, l)) js) m = run (pmapM (fun j => l <-- plift (index ls j) ;;; update_task fft cx qy r (j, l)) js) m) as G.
  { clear. induction js as [|j js IH]; intros m; cbn [pmapM]; [reflexivity|]. rewrite Nat.sub_0_r, !(run_bind (_ <-- _ ;;; _)). destruct (run _ m) as [[u|e] m1]; [|reflexivity]. rewrite !run_bind, IH. reflexivity. }
  rewrite G. destruct (run _ m) as [[us|e] m1]; reflexivity.
Qed.
End St.
