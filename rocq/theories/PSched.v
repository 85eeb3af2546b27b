(** * Properties C49-C51 and C53: schedules, reductions, engines, access patterns.
    [MSched] defines executions ([step], [par_exec], [sexec]); [SpecSched] says what deterministic, never
    stuck, race free and terminating mean; [SpecShape] holds the dimensions and observations; [SpecConc]
    sessions under arbitrary schedules. *)
From Coq Require Import Permutation.
From Verif Require Import MBase MUtils MCodec MPoly MRlwe MHash MTree MEncTree MSched MOram.
From Verif Require Import SpecRing SpecLwe SpecOram SpecBatch SpecSched SpecShape SpecConc.
From Verif Require Import PfPoly PfRlwe PfSched PfSched2 PfSched3 PfOram1 PfDet1 PfDet2 PfDet3 PfTrace1 PfTrace2 LSched Demo PEnc POram PBatch.
Local Open Scope nat_scope.

(** The FFT writes a polynomial of [n] coefficients. *)
Definition fft_size (cx : ctx) (fft : fftT) : Prop := forall ts, length (fft ts) = c_n cx.

(** C49.  Every interleaving gives the sequential result .. *)
Theorem C49_process_one_deterministic : forall pool fft cx neg_s qy m, fft_size cx fft ->
  deterministic (process_one pool fft cx neg_s qy) m /\ realisable (process_one pool fft cx neg_s qy) m.
Proof. intros pool fft cx neg_s qy m Hf. pose proof (process_one_det pool fft cx neg_s Hf qy m) as H. split; [apply sdet_deterministic, H|apply sdet_realisable, H]. Qed.
Print Assumptions C49_process_one_deterministic.

Theorem C49_process_multi_deterministic : forall pool fft cx neg_s qs m, fft_size cx fft ->
  deterministic (process_multi pool fft cx neg_s qs) m /\ realisable (process_multi pool fft cx neg_s qs) m.
Proof. intros pool fft cx neg_s qs m Hf. pose proof (process_multi_det pool fft cx neg_s Hf qs m) as H. split; [apply sdet_deterministic, H|apply sdet_realisable, H]. Qed.
Print Assumptions C49_process_multi_deterministic.

Theorem C49_process_batch_deterministic : forall pool fft cx neg_s qs nh hc dom m, fft_size cx fft -> hash_for nh hc dom ->
  deterministic (process_batch pool fft cx neg_s (length m) qs nh) m /\ realisable (process_batch pool fft cx neg_s (length m) qs nh) m.
Proof.
  intros pool fft cx neg_s qs nh hc dom m Hf Hh. pose proof (process_batch_det pool fft cx neg_s Hf hc dom (length m) qs nh m Hh eq_refl) as H.
  split; [apply sdet_deterministic, H|apply sdet_realisable, H].
Qed.
Print Assumptions C49_process_batch_deterministic.

(** .. none gets stuck, races or runs for ever, with or without writer preference .. *)
Theorem C49_process_one_no_deadlock : forall pool pref fft cx neg_s qy m, fft_size cx fft -> all_loops pref (process_one pool fft cx neg_s qy) m.
Proof. intros pool pref fft cx neg_s qy m Hf. apply sdet_loops, process_one_det, Hf. Qed.
Print Assumptions C49_process_one_no_deadlock.
Theorem C49_process_multi_no_deadlock : forall pool pref fft cx neg_s qs m, fft_size cx fft -> all_loops pref (process_multi pool fft cx neg_s qs) m.
Proof. intros pool pref fft cx neg_s qs m Hf. apply sdet_loops, process_multi_det, Hf. Qed.
Print Assumptions C49_process_multi_no_deadlock.
Theorem C49_process_batch_no_deadlock : forall pool pref fft cx neg_s qs nh hc dom m, fft_size cx fft -> hash_for nh hc dom ->
  all_loops pref (process_batch pool fft cx neg_s (length m) qs nh) m.
Proof. intros pool pref fft cx neg_s qs nh hc dom m Hf Hh. eapply sdet_loops, process_batch_det; [exact Hf|exact Hh|reflexivity]. Qed.
Print Assumptions C49_process_batch_no_deadlock.

(** .. so whole sessions do not depend on the schedules. *)
Theorem C49_session_any_schedule : forall pool pref fft cl nh dm t rqs j sv r, fft_size (srv_cx sv) fft ->
  session_exec pool pref fft cl nh dm t j sv rqs r ->
  match session pool fft cl nh dm t j sv rqs with Ok x => r = Ok x | Panic _ => exists e, r = Panic e end.
Proof.
  intros pool pref fft cl nh dm t rqs j sv r Hf H. revert Hf. induction H as [j sv|j sv rq rqs e E|j sv rq rqs qy e sv1 E (m & Hx & ->)|j sv rq rqs qy y sv1 r E (m & Hx & ->) Hs IH]; intros Hf; cbn [session]; rewrite ?E; cbn [bind].
  - reflexivity.
  - eauto.
  - unfold server_process_one, with_server. pose proof (proj1 (C49_process_one_deterministic pool fft (srv_cx sv) (srv_neg sv) qy (srv_data sv) Hf) _ _ _ Hx) as Hd.
    destruct (srun _ _) as [[y|e'] m1]; [destruct Hd; discriminate|]. cbn. eauto.
  - unfold server_process_one, with_server. pose proof (proj1 (C49_process_one_deterministic pool fft (srv_cx sv) (srv_neg sv) qy (srv_data sv) Hf) _ _ _ Hx) as Hd.
    destruct (srun _ _) as [[y'|e'] m1]; [|destruct Hd; discriminate]. destruct Hd as [Ey ->]. injection Ey as <-. cbn [bind].
    specialize (IH Hf). destruct (session pool fft cl nh dm t (S j) _ rqs) as [[ys sv2]|e2].
    + rewrite IH. reflexivity.
    + destruct IH as [e' ->]. cbn. eauto.
Qed.
Print Assumptions C49_session_any_schedule.

Theorem C49_batch_session_any_schedule : forall pool pref fft cl nh hc dom dm t brs j sv r, fft_size (srv_cx sv) fft -> hash_for nh hc dom ->
  batch_session_exec pool pref fft cl nh dm t j sv brs r ->
  match batch_session pool fft cl nh dm t j sv brs with Ok x => r = Ok x | Panic _ => exists e, r = Panic e end.
Proof.
  intros pool pref fft cl nh hc dom dm t brs j sv r Hf Hh H. revert Hf. induction H as [j sv|j sv rq rqs e E|j sv rq rqs qs e sv1 E (m & Hx & ->)|j sv rq rqs qs y sv1 r E (m & Hx & ->) Hs IH]; intros Hf; cbn [batch_session]; rewrite ?E; cbn [bind].
  - reflexivity.
  - eauto.
  - unfold server_process_batch, with_server. pose proof (proj1 (C49_process_batch_deterministic pool fft (srv_cx sv) (srv_neg sv) qs nh hc dom (srv_data sv) Hf Hh) _ _ _ Hx) as Hd.
    unfold srv_rows. destruct (srun _ _) as [[y|e'] m1]; [destruct Hd; discriminate|]. cbn. eauto.
  - unfold server_process_batch, with_server. pose proof (proj1 (C49_process_batch_deterministic pool fft (srv_cx sv) (srv_neg sv) qs nh hc dom (srv_data sv) Hf Hh) _ _ _ Hx) as Hd.
    unfold srv_rows in *. destruct (srun _ _) as [[y'|e'] m1]; [|destruct Hd; discriminate]. destruct Hd as [Ey ->]. injection Ey as <-. cbn [bind].
    specialize (IH Hf). destruct (batch_session pool fft cl nh dm t (S j) _ rqs) as [[ys sv2]|e2].
    + rewrite IH. reflexivity.
    + destruct IH as [e' ->]. cbn. eauto.
Qed.
Print Assumptions C49_batch_session_any_schedule.

(** C50.  Reductions: every splitting tree, identities inserted anywhere. *)
Theorem C50_reduce_ciphertexts : forall n t l, Forall (wfc n) l -> items t = length l ->
  fst (reduce rlwe_add (rlwe_allocate n) t l) = fold_left rlwe_add l (rlwe_allocate n).
Proof. exact reduce_rlwe. Qed.
Print Assumptions C50_reduce_ciphertexts.
Theorem C50_reduce_rows : forall n cols t l, Forall (fun v => length v = cols /\ Forall (wfc n) v) l -> items t = length l ->
  fst (reduce rlwe_vec_add (repeat (rlwe_allocate n) cols) t l) = fold_left rlwe_vec_add l (repeat (rlwe_allocate n) cols).
Proof. exact reduce_rlwe_vec. Qed.
Print Assumptions C50_reduce_rows.
Theorem C50_reduce_selections : forall n base level cols t l,
  Forall (fun v => length v = cols /\ Forall (fun g => g_base g = base /\ g_level g = level /\ length (g_rows g) = 2 * level /\ Forall (wfc n) (g_rows g)) v) l ->
  items t = length l ->
  fst (reduce rgsw_vec_add (repeat (rgsw_allocate n base level) cols) t l) = fold_left rgsw_vec_add l (repeat (rgsw_allocate n base level) cols).
Proof. exact reduce_rgsw_vec. Qed.
Print Assumptions C50_reduce_selections.

(** C51.  The two engines: same responses and selection ciphertexts, bit for bit; same database.  (Outside
    the pool, loops of one element panic in the multi-threaded engine: C67.) *)
Lemma spread_worker pool len : spread pool len -> on_worker pool len = true.
Proof. unfold on_worker. intros [->|H]; [reflexivity|]. destruct (Nat.eqb_spec len 1); [contradiction|]. apply orb_true_r. Qed.
Lemma row_worker pool (m : mem) r row : nth_error m r = Some row -> spread pool (length row) -> forall cols, mlen m r = Some cols -> on_worker pool cols = true.
Proof. unfold mlen. intros -> H cols [= <-]. apply spread_worker, H. Qed.
Theorem C51_query_engines_agree : forall pool fft cx neg_s qy r m row, fft_size cx fft -> nth_error m r = Some row ->
  spread pool (c_level cx) -> spread pool (length row) ->
  same_outcome (run (process_one_st fft cx neg_s qy r) m) (srun (process_one_mt pool fft cx neg_s qy r) m).
Proof. intros pool fft cx neg_s qy r m row Hf Hr Hl Hc. apply engines; [exact Hf|apply spread_worker, Hl|eapply row_worker; eassumption]. Qed.
Print Assumptions C51_query_engines_agree.
Theorem C51_update_engines_agree : forall pool fft cx qy r ls m row, nth_error m r = Some row -> length ls = length row -> spread pool (length row) ->
  run (update_db_st fft cx qy r ls) m = srun (update_db_mt pool fft cx qy r ls) m.
Proof. intros pool fft cx qy r ls m row Hr Hl Hw. apply (updates_engines fft cx pool qy r ls m (length row)); [|exact Hl|apply spread_worker, Hw]. unfold mlen. rewrite Hr. reflexivity. Qed.
Print Assumptions C51_update_engines_agree.
(** Together, for every schedule of the multi-threaded engine. *)
Theorem C51_any_schedule : forall pool pref fft cx neg_s qy r m row o m', fft_size cx fft -> nth_error m r = Some row ->
  spread pool (c_level cx) -> spread pool (length row) ->
  sexec pref (process_one_mt pool fft cx neg_s qy r) m o m' ->
  match run (process_one_st fft cx neg_s qy r) m with
  | (Ok x, m1) => o = Ok x /\ m' = m1 /\ m1 = m
  | (Panic _, _) => exists e, o = Panic e
  end.
Proof.
  intros pool pref fft cx neg_s qy r m row o m' Hf Hrow Hl Hc Hx. pose proof (sexec_det pref _ m o m' (one_mt_det pool fft cx neg_s Hf qy r m) Hx) as Hd.
  pose proof (engines fft cx neg_s Hf pool qy r m (spread_worker _ _ Hl) (row_worker pool m r row Hrow Hc)) as He.
  assert (snd (run (process_one_st fft cx neg_s qy r) m) = m) as Hm.
  { eapply ro_mem; [apply (one_st_val fft cx neg_s Hf)|reflexivity]. }
  destruct (run (process_one_st fft cx neg_s qy r) m) as [[x|e] m1], (srun _ m) as [[x'|e'] m2]; cbn in He; try contradiction; [|exact Hd].
  destruct He as [-> ->]. cbn in Hm. destruct Hd as [-> ->]. auto.
Qed.
Print Assumptions C51_any_schedule.

(** C53.  Access patterns.  Queries, database contents and keys may differ; only the dimensions agree.
    The deterministic run makes the same accesses .. *)
Theorem C53_process_one_trace : forall pool fft cx neg1 neg2 q1 q2 m1 m2, fft_size cx fft ->
  query_shape q1 = query_shape q2 -> db_shape m1 = db_shape m2 ->
  straces (process_one pool fft cx neg1 q1) m1 = straces (process_one pool fft cx neg2 q2) m2.
Proof. intros pool fft cx neg1 neg2 q1 q2 m1 m2 Hf Hq Hm. eapply ssim_traces; [apply process_one_sim; [exact Hf|apply query_shape_sim, Hq]|exact Hm]. Qed.
Print Assumptions C53_process_one_trace.
Lemma shapes_sim qs1 qs2 : map query_shape qs1 = map query_shape qs2 -> Forall2 qsim qs1 qs2.
Proof.
  revert qs2. induction qs1 as [|a qs1 IH]; intros [|b qs2] H; try discriminate; constructor.
  - apply query_shape_sim. exact (f_equal (hd (query_shape a)) H).
  - apply IH. exact (f_equal (@tl _) H).
Qed.
Theorem C53_process_multi_trace : forall pool fft cx neg1 neg2 qs1 qs2 m1 m2, fft_size cx fft ->
  map query_shape qs1 = map query_shape qs2 -> db_shape m1 = db_shape m2 ->
  straces (process_multi pool fft cx neg1 qs1) m1 = straces (process_multi pool fft cx neg2 qs2) m2.
Proof. intros pool fft cx neg1 neg2 qs1 qs2 m1 m2 Hf Hq Hm. eapply ssim_traces; [apply process_multi_sim; [exact Hf|apply shapes_sim, Hq]|exact Hm]. Qed.
Print Assumptions C53_process_multi_trace.
Theorem C53_process_batch_trace : forall pool fft cx neg1 neg2 qs1 qs2 nh m1 m2, fft_size cx fft ->
  map query_shape qs1 = map query_shape qs2 -> db_shape m1 = db_shape m2 ->
  straces (process_batch pool fft cx neg1 (length m1) qs1 nh) m1 = straces (process_batch pool fft cx neg2 (length m2) qs2 nh) m2.
Proof.
  intros pool fft cx neg1 neg2 qs1 qs2 nh m1 m2 Hf Hq Hm. assert (length m1 = length m2) as -> by (apply (f_equal (@length _)) in Hm; unfold db_shape in Hm; rewrite !map_length in Hm; exact Hm).
  eapply ssim_traces; [apply process_batch_sim; [exact Hf|apply shapes_sim, Hq]|exact Hm].
Qed.
Print Assumptions C53_process_batch_trace.

(** .. and so does every concurrent execution: whatever an observer of locks and memory accesses can see
    of one, it can see of the other, and every execution is such a course. *)
Theorem C53_process_one_any_schedule : forall pool pref fft cx neg1 neg2 q1 q2 m1 m2 c, fft_size cx fft ->
  query_shape q1 = query_shape q2 -> db_shape m1 = db_shape m2 ->
  (sobserved pref (process_one pool fft cx neg1 q1) m1 c <-> sobserved pref (process_one pool fft cx neg2 q2) m2 c).
Proof.
  intros pool pref fft cx neg1 neg2 q1 q2 m1 m2 c Hf Hq Hm. split; apply sobserved_sim with (R := V); try (symmetry in Hm; exact Hm); try exact Hm;
    apply process_one_sim; try exact Hf; apply query_shape_sim; congruence.
Qed.
Print Assumptions C53_process_one_any_schedule.
Theorem C53_process_multi_any_schedule : forall pool pref fft cx neg1 neg2 qs1 qs2 m1 m2 c, fft_size cx fft ->
  map query_shape qs1 = map query_shape qs2 -> db_shape m1 = db_shape m2 ->
  (sobserved pref (process_multi pool fft cx neg1 qs1) m1 c <-> sobserved pref (process_multi pool fft cx neg2 qs2) m2 c).
Proof.
  intros pool pref fft cx neg1 neg2 qs1 qs2 m1 m2 c Hf Hq Hm. split; apply sobserved_sim with (R := Forall2 V); try (symmetry in Hm; exact Hm); try exact Hm;
    apply process_multi_sim; try exact Hf; apply shapes_sim; congruence.
Qed.
Print Assumptions C53_process_multi_any_schedule.
Theorem C53_process_batch_any_schedule : forall pool pref fft cx neg1 neg2 qs1 qs2 nh m1 m2 c, fft_size cx fft ->
  map query_shape qs1 = map query_shape qs2 -> db_shape m1 = db_shape m2 ->
  (sobserved pref (process_batch pool fft cx neg1 (length m1) qs1 nh) m1 c <-> sobserved pref (process_batch pool fft cx neg2 (length m2) qs2 nh) m2 c).
Proof.
  intros pool pref fft cx neg1 neg2 qs1 qs2 nh m1 m2 c Hf Hq Hm. assert (length m1 = length m2) as -> by (apply (f_equal (@length _)) in Hm; unfold db_shape in Hm; rewrite !map_length in Hm; exact Hm).
  split; apply sobserved_sim with (R := Forall2 V); try (symmetry in Hm; exact Hm); try exact Hm; apply process_batch_sim; try exact Hf; apply shapes_sim; congruence.
Qed.
Print Assumptions C53_process_batch_any_schedule.
Theorem C53_every_execution_is_observed : forall A pref (p : sprog A) m r m', sexec pref p m r m' -> exists c, sobserved pref p m c.
Proof. intros A pref p m r m'. apply sexec_course. Qed.
Print Assumptions C53_every_execution_is_observed.

(** *** Non-vacuity *)
Lemma exact_fft_size : fft_size demo_cx (exact_fft 4).
Proof.
  intros ts. change (c_n demo_cx) with 4. induction ts as [|[a b] ts IH]; [reflexivity|]. cbn [exact_fft fold_right fst snd].
  apply wfp_len, wfp_add; [apply wfp_len, wfp_mul|exact IH].
Qed.
(** A tree for three items with two identities inserted, on ciphertexts over 4 coefficients. *)
Example C50_applies :
  let c := {| mask := [1; 2; 3; 2 ^ 64 - 1]%Z; body := [5; 6; 7; 8]%Z |} in
  fst (reduce rlwe_add (rlwe_allocate 4) (RNode (RNode RId RItem) (RNode (RNode RItem RId) RItem)) [c; c; c]) =
  {| mask := [3; 6; 9; 2 ^ 64 - 3]%Z; body := [15; 18; 21; 24]%Z |}.
Proof.
  cbv zeta. rewrite C50_reduce_ciphertexts; [reflexivity| |reflexivity].
  repeat (apply Forall_cons || apply Forall_nil); split; (split; [reflexivity|]); repeat (apply Forall_cons || apply Forall_nil); unfold is_word, q; lia.
Qed.
(** The session of [C43_applies], under any schedule. *)
Example C49_applies : exists cl sv pts,
  setup_random_oram 1 (2 ^ 2) demo_nh demo_cx demo_s (fun i => [Z.of_nat (i mod 2); 1; 0; 1]%Z) demo_tape = Ok (cl, sv, pts) /\
  forall pref r, session_exec false pref (exact_fft 4) cl demo_nh (fun _ _ => [0; 1; 1; 1]%Z) (fun _ => demo_tape) 0 sv [Read 1; Write 0 [1; 1; 1; 1]%Z; Read 0; Read 1] r ->
    exists ys sv', r = Ok (ys, sv') /\
    Forall2 (fun y pt => decrypt_decode_rlwe demo_cx demo_s y = Ok pt) ys
      (answers (fun i => nth i pts []) [Read 1; Write 0 [1; 1; 1; 1]%Z; Read 0; Read 1]).
Proof.
  destruct C43_applies as (cl & sv & pts & ys & sv' & E1 & E2 & HF). exists cl, sv, pts. split; [exact E1|]. intros pref r Hx.
  assert (srv_cx sv = demo_cx) as Hc.
  { clear - E1. unfold setup_random_oram in E1. destruct (rassert _); [|discriminate]. cbn [bind] in E1.
    destruct (gen_neg_sk _ _); [|discriminate]. cbn [bind] in E1. destruct (gen_dummy_database _ _ _ _) as [[? ?]|]; [|discriminate]. cbn [bind] in E1. injection E1 as _ <- _. reflexivity. }
  pose proof (C49_session_any_schedule false pref (exact_fft 4) cl demo_nh _ _ _ 0 sv r ltac:(rewrite Hc; exact exact_fft_size) Hx) as Hd.
  rewrite E2 in Hd. eauto.
Qed.
