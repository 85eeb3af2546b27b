(** * Property C72: the program gives the same result whatever the schedules.
    [SpecDriver] runs the drivers and [main] with every server operation under some schedule. *)
From Coq Require Import Permutation.
From Verif Require Import MBase MUtils MCodec MPoly MRlwe MHash MTree MEncTree MParams MSched MOram MMain.
From Verif Require Import SpecRing SpecLwe SpecOram SpecBatch SpecSched SpecShape SpecConc SpecDriver.
From Verif Require Import PfPoly PfNear PfEnc3 PfEnc4 PfUtils PfCodec PfDet2 PfMain Demo PEnc POram PBatch PSched PMain PRun.
Local Open Scope nat_scope.

(** [d] is the only outcome of [P], up to the kind of panic, and there is one. *)
Definition follows {A} (P : res A -> Prop) (d : res A) : Prop := (forall r, P r -> alike r d) /\ exists r, P r.

Lemma follows_refl {A} (d : res A) : follows (eq d) d.
Proof. split; [intros r <-; destruct d; cbn; eauto|eauto]. Qed.
Lemma follows_first {A B} (x : res A) (k : A -> res B -> Prop) (d : A -> res B) :
  (forall a, x = Ok a -> follows (k a) (d a)) -> follows (first_do x k) (bind x d).
Proof.
  intros H. destruct x as [a|e]; cbn [bind]; [exact (H a eq_refl)|]. unfold first_do. split; [intros r ->; cbn; eauto|eauto].
Qed.

Lemma follows_round {Q Y A} pref sv (gen : res Q) (prog : Q -> sprog Y) (check : Y -> res A) :
  (forall qy, gen = Ok qy -> deterministic (prog qy) (srv_data sv) /\ realisable (prog qy) (srv_data sv)) ->
  follows (round_exec pref sv gen prog check)
    (qy <- gen ;; ys <- with_server sv (prog qy) ;; a <- check (fst ys) ;; Ok (a, snd ys)).
Proof.
  intros H. split.
  - intros r Hr. destruct Hr as [e E|qy e sv1 E (m & Hx & ->)|qy y sv1 e E (m & Hx & ->) Ec|qy y sv1 a E (m & Hx & ->) Ec]; rewrite E; cbn [bind alike]; [eauto|..];
      pose proof (proj1 (H qy E) _ _ _ Hx) as Hd; unfold with_server; destruct (srun (prog qy) (srv_data sv)) as [[y'|e'] m1];
      try (destruct Hd; discriminate); cbn [bind alike fst snd]; eauto; destruct Hd as [Ey ->]; injection Ey as <-; rewrite Ec; cbn; eauto.
  - destruct gen as [qy|e] eqn:E; [|exists (Panic e); apply RE_ask; reflexivity]. destruct (proj2 (H qy eq_refl) pref) as ([y|e] & m & Hx).
    + destruct (check y) as [a|e] eqn:Ec.
      * eexists (Ok (a, _)). eapply RE_ok; [reflexivity|exists m; split; [exact Hx|reflexivity]|exact Ec].
      * exists (Panic e). eapply RE_check; [reflexivity|exists m; split; [exact Hx|reflexivity]|exact Ec].
    + exists (Panic e). eapply RE_panic; [reflexivity|exists m; split; [exact Hx|reflexivity]].
Qed.

Lemma follows_rounds {A} (f : nat -> server -> res (A * server) -> Prop) (g : nat -> server -> res (A * server)) (I : server -> Prop) :
  (forall j sv, I sv -> follows (f j sv) (g j sv) /\ forall a sv1, g j sv = Ok (a, sv1) -> I sv1) ->
  forall js sv, I sv -> follows (rounds_exec f js sv) (iterate g js sv).
Proof.
  intros H. induction js as [|j js IH]; intros sv Hi; cbn [iterate].
  - split; [intros r Hr; inversion Hr; reflexivity|exists (Ok []); constructor].
  - destruct (H j sv Hi) as [[Hu (r0 & Hr0)] Hinv]. split.
    + intros r Hr. inversion Hr as [|? ? ? e He|? ? ? a sv1 e Ha Hs|? ? ? a sv1 out Ha Hs]; subst.
      * apply Hu in He. destruct (g j sv) as [[a sv1]|e']; cbn [alike] in He; [discriminate|]. cbn. eauto.
      * apply Hu in Ha. destruct (g j sv) as [[a' sv1']|e']; cbn [alike] in Ha; [|destruct Ha; discriminate]. injection Ha as <- <-. cbn [bind].
        destruct (IH sv1 (Hinv _ _ eq_refl)) as [Hu1 _]. apply Hu1 in Hs. destruct (iterate g js sv1); cbn [alike] in Hs; [discriminate|]. cbn. eauto.
      * apply Hu in Ha. destruct (g j sv) as [[a' sv1']|e']; cbn [alike] in Ha; [|destruct Ha; discriminate]. injection Ha as <- <-. cbn [bind].
        destruct (IH sv1 (Hinv _ _ eq_refl)) as [Hu1 _]. apply Hu1 in Hs. destruct (iterate g js sv1); cbn [alike] in Hs; [|destruct Hs; discriminate]. injection Hs as <-. reflexivity.
    + destruct r0 as [[a sv1]|e]; [|exists (Panic e); apply RS_panic; exact Hr0]. pose proof (Hu _ Hr0) as Ha.
      destruct (g j sv) as [[a' sv1']|e']; cbn [alike] in Ha; [|destruct Ha; discriminate]. injection Ha as <- <-.
      destruct (IH sv1 (Hinv _ _ eq_refl)) as [_ ([out|e] & Ho)]; [exists (Ok (a :: out)); eapply RS_cons; eassumption|exists (Panic e); eapply RS_fail; eassumption].
Qed.

Lemma with_server_cx {A} sv (p : sprog A) y sv1 : with_server sv p = Ok (y, sv1) -> srv_cx sv1 = srv_cx sv.
Proof. unfold with_server. destruct (srun p (srv_data sv)) as [[a|e] m]; [|discriminate]. intros H. injection H as <- <-. reflexivity. Qed.
Lemma context_size md p cx : context_new md p = Ok cx -> c_n cx = Z.to_nat (tp_polynomial_size p).
Proof. unfold context_new. intros H. apply bind_ok in H as (cd & _ & H). injection H as <-. reflexivity. Qed.
Lemma setup_cx rows cols nh cx s gp t cl sv pts : setup_random_oram rows cols nh cx s gp t = Ok (cl, sv, pts) -> srv_cx sv = cx.
Proof.
  unfold setup_random_oram. intros H. apply bind_ok in H as (u & _ & H). apply bind_ok in H as (ngk & _ & H). apply bind_ok in H as ([pl da] & _ & H).
  injection H as _ <- _. reflexivity.
Qed.

Section One.
Context (fft : fftT) (md : mode) (p : tfhe_params) (Hfft : forall ts, length (fft ts) = Z.to_nat (tp_polynomial_size p)).

Lemma size_of cx : context_new md p = Ok cx -> fft_size cx fft.
Proof. intros H ts. rewrite (context_size _ _ _ H). apply Hfft. Qed.

Lemma single_follows pref items it dry co : follows (single_query_exec pref fft md items it p dry co) (single_query fft md items it p dry co).
Proof.
  unfold single_query_exec, single_query. apply follows_first. intros _ _. apply follows_first. intros _ _. destruct dry; [apply follows_refl|].
  apply follows_first. intros nh _. apply follows_first. intros cx Hcx. apply follows_first. intros [[cl sv] pts] Hsv.
  apply (follows_rounds _ _ (fun sv => fft_size (srv_cx sv) fft)); [|rewrite (setup_cx _ _ _ _ _ _ _ _ _ _ Hsv); apply size_of, Hcx].
  clear sv Hsv. intros j sv Hi. split.
  - unfold single_iter, server_process_one. cbv zeta.
    match goal with |- follows (round_exec ?pf ?s ?g ?pr ?ck) _ => pose proof (follows_round pf s g pr ck) as HR end.
    destruct HR as [HR1 HR2].
    { intros qy _. apply C49_process_one_deterministic. exact Hi. }
    split; [|exact HR2]. intros r Hr. specialize (HR1 r Hr).
    destruct (gen_read_query_one _ _ _ _ _) as [qy|e]; cbn [bind] in *; [|exact HR1].
    destruct (with_server _ _) as [[y sv1]|e]; cbn [bind fst snd] in *; [|exact HR1].
    destruct (decrypt_decode_rlwe _ _ _) as [pt|e]; cbn [bind] in *; [|exact HR1].
    destruct (index _ _) as [ex|e]; cbn [bind] in *; [|exact HR1].
    destruct (assert_eq_pt _ _) as [u|e]; cbn [bind] in *; [|exact HR1].
    destruct (compute_noise_encoded _ _ _ _) as [v|e]; cbn [bind] in *; exact HR1.
  - intros a sv1 H. unfold single_iter, server_process_one in H. cbv zeta in H. apply bind_ok in H as (qy & _ & H). apply bind_ok in H as ([y sv2] & Hw & H).
    repeat (apply bind_ok in H as (? & _ & H)). injection H as _ <-. rewrite (with_server_cx _ _ _ _ Hw). exact Hi.
Qed.
Lemma multi_follows pref items qc it dry co : follows (multi_query_exec pref fft md items qc it p dry co) (multi_query fft md items qc it p dry co).
Proof.
  unfold multi_query_exec, multi_query. apply follows_first. intros _ _. apply follows_first. intros _ _. destruct dry; [apply follows_refl|].
  apply follows_first. intros nh _. apply follows_first. intros cx Hcx. apply follows_first. intros [[cl sv] pts] Hsv. apply follows_first. intros _ _.
  apply (follows_rounds _ _ (fun sv => fft_size (srv_cx sv) fft)); [|rewrite (setup_cx _ _ _ _ _ _ _ _ _ _ Hsv); apply size_of, Hcx].
  clear sv Hsv. intros j sv Hi. split.
  - unfold multi_iter, server_process_multi. cbv zeta.
    match goal with |- follows (round_exec ?pf ?s ?g ?pr ?ck) _ => pose proof (follows_round pf s g pr ck) as HR end.
    destruct HR as [HR1 HR2].
    { intros qy _. apply C49_process_multi_deterministic. exact Hi. }
    split; [|exact HR2]. intros r Hr. specialize (HR1 r Hr).
    destruct (mapM _ (seq 0 qc)) as [qy|e]; cbn [bind] in *; [|exact HR1].
    destruct (with_server _ _) as [[y sv1]|e]; cbn [bind fst snd] in *; [|exact HR1]. exact HR1.
  - intros a sv1 H. unfold multi_iter, server_process_multi in H. apply bind_ok in H as (qy & _ & H). apply bind_ok in H as ([y sv2] & Hw & H).
    repeat (apply bind_ok in H as (? & _ & H)). injection H as _ <-. rewrite (with_server_cx _ _ _ _ Hw). exact Hi.
Qed.
Lemma batch_follows pref rows cols it dry co : (forall l, Permutation (co_shuffle co l) l) ->
  follows (batch_query_exec pref fft md rows cols it p dry co) (batch_query fft md rows cols it p dry co).
Proof.
  intros Hperm. unfold batch_query_exec, batch_query, batch_query_with. cbv zeta. apply follows_first. intros _ _. apply follows_first. intros _ _. destruct dry; [apply follows_refl|].
  apply follows_first. intros nh Hnh. apply follows_first. intros cx Hcx. apply follows_first. intros [[cl sv] pts] Hsv.
  assert (hash_for nh 3 (rows * cols / 3)) as Hh by (exists (co_shuffle co); split; assumption).
  apply (follows_rounds _ _ (fun sv => fft_size (srv_cx sv) fft)); [|rewrite (setup_cx _ _ _ _ _ _ _ _ _ _ Hsv); apply size_of, Hcx].
  clear sv Hsv. intros j sv Hi. split.
  - unfold batch_iter, server_process_batch.
    match goal with |- follows (round_exec ?pf ?s ?g ?pr ?ck) _ => pose proof (follows_round pf s g pr ck) as HR end.
    destruct HR as [HR1 HR2].
    { intros qy _. eapply C49_process_batch_deterministic; [exact Hi|exact Hh]. }
    split; [|exact HR2]. intros r Hr. specialize (HR1 r Hr).
    destruct (gen_read_query_batch _ _ _ _ _) as [qy|e]; cbn [bind] in *; [|exact HR1].
    destruct (with_server _ _) as [[y sv1]|e]; cbn [bind fst snd] in *; [|exact HR1]. exact HR1.
  - intros a sv1 H. unfold batch_iter, server_process_batch in H. apply bind_ok in H as (qy & _ & H). apply bind_ok in H as ([y sv2] & Hw & H).
    repeat (apply bind_ok in H as (? & _ & H)). injection H as _ <-. rewrite (with_server_cx _ _ _ _ Hw). exact Hi.
Qed.
End One.

Lemma run_follows pref fft md dry sp co : (forall ts, length (fft ts) = Z.to_nat (tp_polynomial_size (sp_tfhe sp))) -> (forall l, Permutation (co_shuffle co l) l) ->
  follows (run_params_exec pref fft md dry sp co) (run_params fft md dry sp co).
Proof.
  intros Hf Hperm. unfold run_params_exec, run_params. apply follows_first. intros _ _. destruct (sp_oram sp) as [items it|items qc it|rows cols it].
  - destruct (single_follows fft md (sp_tfhe sp) Hf pref (Z.to_nat items) (Z.to_nat it) dry co) as [H1 (r1 & H2)]. split; [|eauto].
    intros r (r2 & Hr & ->). apply H1 in Hr. destruct (single_query _ _ _ _ _ _ _); cbn [alike bind] in *; [rewrite Hr; reflexivity|]. destruct Hr as (e' & ->). cbn. eauto.
  - apply multi_follows, Hf.
  - apply batch_follows; assumption.
Qed.

Lemma sets_follow pref fft md dry co : forall sps i,
  (forall j sp, nth_error sps j = Some sp -> (forall ts, length (fft (tp_polynomial_size (sp_tfhe sp)) ts) = Z.to_nat (tp_polynomial_size (sp_tfhe sp))) /\ forall l, Permutation (co_shuffle (co (i + j)) l) l) ->
  follows (sets_exec pref fft md dry co i sps)
    (mapM (fun isp : nat * server_params => run_params (fft (tp_polynomial_size (sp_tfhe (snd isp)))) md dry (snd isp) (co (fst isp))) (combine (seq i (length sps)) sps)).
Proof.
  induction sps as [|sp sps IH]; intros i H0; cbn [length seq combine mapM].
  - split; [intros r Hr; inversion Hr; reflexivity|exists (Ok []); constructor].
  - destruct (H0 0 sp eq_refl) as [Hf Hperm]. rewrite Nat.add_0_r in Hperm.
    destruct (run_follows pref (fft (tp_polynomial_size (sp_tfhe sp))) md dry sp (co i) Hf Hperm) as [Hu (r0 & Hr0)]. cbn [fst snd].
    destruct (IH (S i)) as [Hus (rs & Hrs)].
    { intros j sp' Hj. specialize (H0 (S j) sp' Hj). rewrite <- Nat.add_succ_comm in H0. exact H0. }
    set (d1 := run_params _ _ _ _ _) in *. set (ds := mapM _ _) in *. split.
    + intros r Hr. inversion Hr as [|? ? ? e He|? ? ? out e Ho Hs|? ? ? out outs Ho Hs]; subst.
      * apply Hu in He. destruct d1; cbn [alike] in He; [discriminate|]. cbn. eauto.
      * apply Hu in Ho. apply Hus in Hs. destruct d1; cbn [alike] in Ho; [|destruct Ho; discriminate]. destruct ds; cbn [alike] in Hs; [discriminate|]. cbn. eauto.
      * apply Hu in Ho. apply Hus in Hs. destruct d1; cbn [alike] in Ho; [|destruct Ho; discriminate]. destruct ds; cbn [alike] in Hs; [|destruct Hs; discriminate]. cbn. congruence.
    + destruct r0 as [out|e]; [|exists (Panic e); apply SX_panic; exact Hr0].
      destruct rs as [outs|e]; [exists (Ok (out :: outs)); eapply SX_cons; eassumption|exists (Panic e); eapply SX_fail; eassumption].
Qed.

(** Whatever the schedules of its parallel loops, the program ends, and with the result of the sequential
    run: same printed values, or a panic if and only if that one panics. *)
Theorem C72_main_any_schedule : forall pref fft md f c co,
  (forall i sp, nth_error (select_params f c) i = Some sp ->
     (forall ts, length (fft (tp_polynomial_size (sp_tfhe sp)) ts) = Z.to_nat (tp_polynomial_size (sp_tfhe sp))) /\ forall l, Permutation (co_shuffle (co i) l) l) ->
  (exists r, main_exec pref fft md f c co r) /\
  forall r, main_exec pref fft md f c co r ->
    match main_run fft md f c co with Ok outs => r = Ok outs | Panic _ => exists e, r = Panic e end.
Proof. intros pref fft md f c co H. destruct (sets_follow pref fft md (cli_dryrun c) co (select_params f c) 0 H) as [H1 H2]. split; [exact H2|exact H1]. Qed.
Print Assumptions C72_main_any_schedule.

(** Supported parameter sets: the checks of the drivers succeed under every schedule. *)
Theorem C72_supported_any_schedule : forall pref fft md f c co, cli_dryrun c = false ->
  (forall i sp, nth_error (select_params f c) i = Some sp -> supported (fft (tp_polynomial_size (sp_tfhe sp))) md sp (co i)) ->
  (forall i sp, nth_error (select_params f c) i = Some sp -> forall ts, length (fft (tp_polynomial_size (sp_tfhe sp)) ts) = Z.to_nat (tp_polynomial_size (sp_tfhe sp))) ->
  forall r, main_exec pref fft md f c co r ->
    exists outs, r = Ok outs /\ length outs = length (select_params f c) /\
      forall i sp out, nth_error (select_params f c) i = Some sp -> nth_error outs i = Some out -> Z.of_nat (length out) = iterations_of sp.
Proof.
  intros pref fft md f c co Hd Hs Hf r Hr. destruct (C72_main_any_schedule pref fft md f c co) as [_ H].
  { intros i sp Hi. split; [exact (Hf i sp Hi)|]. destruct (Hs i sp Hi) as (cx & lg & k & eps & S0 & E & a & _ & _ & (Hperm & _) & _). exact Hperm. }
  specialize (H r Hr). destruct (C65_main_completes fft md f c co Hd Hs) as (outs & E & H1 & H2). rewrite E in H. exists outs. auto.
Qed.
Print Assumptions C72_supported_any_schedule.

(** *** An instance. *)
Example C72_applies : forall pref r, main_exec pref (fun n => exact_fft (Z.to_nat n)) Checked demo_file default_cli (fun _ => demo_coins (@rev nat)) r ->
  exists outs, r = Ok outs /\ length outs = 2.
Proof.
  intros pref r Hr. destruct C65_applies as (outs & E & L & _).
  destruct (C72_main_any_schedule pref (fun n => exact_fft (Z.to_nat n)) Checked demo_file default_cli (fun _ => demo_coins (@rev nat))) as [_ H].
  - intros i sp _. split; [|intros l; apply Permutation_sym, Permutation_rev].
    intros ts. induction ts as [|[a b] ts IH]; [apply repeat_length|]. cbn [exact_fft fold_right fst snd].
    apply PfPoly.wfp_len, PfPoly.wfp_add; [apply PfPoly.wfp_len, PfPoly.wfp_mul|exact IH].
  - specialize (H r Hr). rewrite E in H. exists outs. auto.
Qed.
