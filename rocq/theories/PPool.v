(** * Property C67: calls from outside a rayon pool.
    Every parallel loop of the server asks rayon for the number of the worker that runs it
    ([rayon::current_thread_index().unwrap()]).  rayon runs a loop of a single element on the thread that
    started it, and that thread has no number unless it belongs to a pool: the call panics.  The first
    argument [false] of the server programs says that the caller is not a worker of a pool, as in
    src/main.rs and the tests.  From inside a pool the same calls are answered (C42, C44, C48, C60 with
    [pool := true]). *)
From Coq Require Import Permutation.
From Verif Require Import MBase MUtils MCodec MPoly MRlwe MHash MTree MEncTree MParams MSched MOram MMain.
From Verif Require Import SpecRing SpecLwe SpecOram SpecBatch SpecSched SpecShape SpecConc.
From Verif Require Import PfSched PfSched2 PfSched3 PfOram1 PfDet1 PfDet2 PfDet3 PfWidth LSched Demo PEnc POram PBatch PSched PQuery PMain LOram PMulti.
Local Open Scope nat_scope.

(** A loop on the calling thread, outside the pool, with at least one element. *)
Lemma outside_loop {A B} pref (f : A -> prog B) l m r m' : l <> [] -> sexec pref (spar (map (tid false f) l)) m r m' -> (exists e, r = Panic e) /\ m' = m.
Proof.
  intros Hl Hx. assert (Forall (ro (shape m)) (map (tid false f) l)) as HR.
  { apply Forall_forall. intros p Hp. apply in_map_iff in Hp as (x & <- & _). constructor. }
  split; [|eapply sro_exec; [|exact Hx]; apply sro_spar, HR].
  assert (sdet (spar (map (tid false f) l)) m) as Hd.
  { apply sdet_spar; [apply separable_ro; rewrite Forall_forall in HR; exact HR|].
    apply Forall_forall. intros p Hp. apply in_map_iff in Hp as (x & <- & _). constructor. }
  pose proof (sdet_deterministic _ _ Hd _ _ _ Hx) as H. destruct l as [|x l]; [contradiction|]. exact H.
Qed.
Lemma on_worker_one : on_worker false 1 = false. Proof. reflexivity. Qed.

(** One decomposition level: [process_one] always panics and leaves the database alone. *)
Theorem C67_one_level : forall pref fft sv qy r sv', c_level (srv_cx sv) = 1 ->
  server_exec pref sv (process_one false fft (srv_cx sv) (srv_neg sv) qy) r sv' -> (exists e, r = Panic e) /\ sv' = sv.
Proof.
  intros pref fft [m ng cx] qy r sv' Hl (m' & Hx & ->). cbn [srv_cx srv_neg srv_data] in *.
  enough ((exists e, r = Panic e) /\ m' = m) as [H ->] by auto.
  unfold process_one, process_one_mt in Hx. rewrite Hl, on_worker_one in Hx.
  apply sexec_bind in Hx as [(e & -> & Hx)|(x & m1 & Hx & _)]; apply sexec_bind in Hx as [(e' & He & Hx)|(x' & m1' & Hx & _)];
    apply outside_loop in Hx; try discriminate; destruct Hx as [(e0 & H) ->]; try discriminate; eauto.
Qed.
Print Assumptions C67_one_level.

(** One query: [process_multi] always panics and leaves the database alone. *)
Theorem C67_one_query : forall pref fft sv qy r sv',
  server_exec pref sv (process_multi false fft (srv_cx sv) (srv_neg sv) [qy]) r sv' -> (exists e, r = Panic e) /\ sv' = sv.
Proof.
  intros pref fft [m ng cx] qy r sv' (m' & Hx & ->). cbn [srv_cx srv_neg srv_data] in *.
  enough ((exists e, r = Panic e) /\ m' = m) as [H ->] by auto.
  unfold process_multi in Hx. cbn [length] in Hx. rewrite on_worker_one in Hx.
  apply sexec_bind in Hx as [(e & -> & Hx)|(c & m1 & H1 & Hx)].
  { split; [eauto|]. eapply sro_exec; [apply sro_row_len|exact Hx]. }
  apply sro_exec in H1; [|apply sro_row_len]. subst m1.
  apply sexec_bind in Hx as [(e & -> & Hx)|(x & m1 & Hx & _)]; apply outside_loop in Hx; try discriminate; destruct Hx as [(e0 & H) ->]; try discriminate; eauto.
Qed.
Print Assumptions C67_one_query.

(** One row: [process_batch] always panics and leaves the database alone. *)
Theorem C67_one_row : forall pref fft sv qs nh r sv', srv_rows sv = 1 ->
  server_exec pref sv (process_batch false fft (srv_cx sv) (srv_neg sv) (srv_rows sv) qs nh) r sv' -> (exists e, r = Panic e) /\ sv' = sv.
Proof.
  intros pref fft [m ng cx] qs nh r sv' Hrow (m' & Hx & ->). rewrite Hrow in Hx. cbn [srv_cx srv_neg srv_data] in *.
  enough ((exists e, r = Panic e) /\ m' = m) as [H ->] by auto.
  unfold process_batch in Hx. rewrite on_worker_one in Hx.
  apply sexec_bind in Hx as [(e & -> & Hx)|(c & m1 & H1 & Hx)].
  { split; [eauto|]. eapply sro_exec; [apply sro_lift|exact Hx]. }
  assert (length qs = 1) as Hq.
  { unfold rassert in H1. destruct (Nat.eqb_spec (length qs) 1) as [E|E]; [exact E|]. cbn in H1. destruct H1; discriminate. }
  apply sro_exec in H1; [|apply sro_lift]. subst m1. destruct qs as [|qy [|? ?]]; try discriminate.
  apply sexec_bind in Hx as [(e & -> & Hx)|(x & m1 & Hx & _)]; apply outside_loop in Hx; try discriminate; destruct Hx as [(e0 & H) ->]; try discriminate; eauto.
Qed.
Print Assumptions C67_one_row.

(** One item: [process_batch] always panics, here after the rows have been updated. *)
Lemma one_item_fails fft cx ng qs nh m row a m' : nth_error m 0 = Some row -> nh_h_count nh <> 0 -> length m * length row / nh_h_count nh = 1 ->
  srun (process_batch false fft cx ng (length m) qs nh) m <> (Ok a, m').
Proof.
  intros Hrow Hh Hone H. unfold process_batch in H. cbv zeta in H. rewrite srun_bind in H.
  destruct (srun (slift _) m) as [[u|e] m0] eqn:E0; [|discriminate]. rewrite srun_lift in E0. injection E0 as _ <-.
  rewrite srun_bind in H. destruct (srun (spar _) m) as [[yls|e] m1] eqn:E1; [|discriminate].
  rewrite srun_bind in H. destruct (srun (spar _) m1) as [[u2|e] m2] eqn:E2; [|discriminate].
  rewrite srun_spar in E1. rewrite srun_spar in E2. assert (shape m1 = shape m) as S1 by (erewrite <- (run_shape _ m), E1; reflexivity). assert (shape m2 = shape m1) as S2 by (erewrite <- (run_shape _ m1), E2; reflexivity).
  rewrite srun_bind in H. destruct (srun (sone (row_len 0)) m2) as [[c|e] m3] eqn:E3; [|discriminate].
  apply srun_row_len in E3 as [-> Ec]. rewrite S2, S1 in Ec. unfold shape in Ec. rewrite nth_error_map, Hrow in Ec. injection Ec as <-.
  destruct (Nat.eqb_spec (nh_h_count nh) 0) as [E|_]; [contradiction|]. rewrite Hone, on_worker_one in H. cbn [seq] in H.
  rewrite srun_bind in H. destruct (srun (spar _) m2) as [[u3|e] m3] eqn:E3; [|discriminate].
  rewrite srun_spar in E3. cbn [pmapM] in E3. rewrite run_bind in E3.
  unfold consistency_task at 1 in E3. rewrite run_bind in E3. destruct (run (pmapM _ _) m2) as [[ps|e] m4]; discriminate.
Qed.
Theorem C67_one_item : forall pref fft sv qs nh hc dom row r sv', fft_size (srv_cx sv) fft -> hash_for nh hc dom ->
  nth_error (srv_data sv) 0 = Some row -> srv_rows sv * length row / hc = 1 ->
  server_exec pref sv (process_batch false fft (srv_cx sv) (srv_neg sv) (srv_rows sv) qs nh) r sv' -> exists e, r = Panic e.
Proof.
  intros pref fft sv qs nh hc dom row r sv' Hf Hh Hrow Hone (m' & Hx & ->).
  pose proof (proj1 (C49_process_batch_deterministic false fft (srv_cx sv) (srv_neg sv) qs nh hc dom (srv_data sv) Hf Hh) _ _ _ Hx) as Hd.
  destruct Hh as (sh & Hperm & Hnew). destruct (PfHash.nh_fields sh hc dom nh Hnew) as (H0 & Eh & _).
  destruct (srun _ _) as [[a|e] m1] eqn:E; [|exact Hd]. exfalso. revert E. apply (one_item_fails fft _ _ _ _ _ row); [exact Hrow|lia|].
  rewrite Eh. exact Hone.
Qed.
Print Assumptions C67_one_item.

(** So the driver [multi_query] with a single query panics in its first iteration, whatever the
    parameters, the randomness and the FFT .. *)
Theorem C67_multi_query_refuted : forall fft md items it p co, 0 < it -> exists e, multi_query fft md items 1 it p false co = Panic e.
Proof.
  intros fft md items it p co Hit. apply not_ok_panics. intros out H. unfold multi_query in H.
  apply bind_ok in H as (u & _ & H). apply bind_ok in H as (lg & _ & H). apply bind_ok in H as (nh & Hnew & H). apply bind_ok in H as (cx & _ & H).
  apply bind_ok in H as ([[cl sv] pts] & _ & H). apply bind_ok in H as (u2 & _ & H). revert H. apply iterate_first_bad; [exact Hit|].
  intros j r H. unfold multi_iter in H. apply bind_ok in H as (qs & Hq & H). apply bind_ok in H as ([ys sv1] & Hs & _).
  cbn [seq mapM] in Hq. apply bind_ok in Hq as (qy & _ & Hq). injection Hq as <-.
  unfold server_process_multi, with_server in Hs. destruct (srun _ _) as [[a|e] m1] eqn:E; [|discriminate]. clear - E.
  unfold process_multi in E. rewrite srun_bind in E. destruct (srun (sone (row_len 0)) _) as [[c|e] m0]; [|discriminate]. cbn [length] in E. rewrite on_worker_one in E.
  rewrite srun_bind, srun_spar in E. discriminate.
Qed.
Print Assumptions C67_multi_query_refuted.

(** .. and [single_query] with one decomposition level. *)
Theorem C67_single_query_one_level : forall fft md items it p co, 0 < it -> tp_level_count p = 1%Z -> exists e, single_query fft md items it p false co = Panic e.
Proof.
  intros fft md items it p co Hit Hl. apply not_ok_panics. intros out H. unfold single_query in H.
  apply bind_ok in H as (u & _ & H). apply bind_ok in H as (lg & _ & H). apply bind_ok in H as (nh & Hnew & H). apply bind_ok in H as (cx & Hcx & H).
  apply bind_ok in H as ([[cl sv] pts] & Hset & H). revert H. apply iterate_first_bad; [exact Hit|].
  intros j r H. unfold single_iter in H. apply bind_ok in H as (qy & Hq & H). apply bind_ok in H as ([ys sv1] & Hs & _).
  assert (c_level (srv_cx sv) = 1) as Hlv.
  { unfold setup_random_oram in Hset. apply bind_ok in Hset as (u3 & _ & Hset). apply bind_ok in Hset as (ngk & _ & Hset). apply bind_ok in Hset as ([pl da] & _ & Hset).
    injection Hset as _ <- _. cbn [srv_cx server_new]. unfold context_new in Hcx. apply bind_ok in Hcx as (cd & _ & Hcx). injection Hcx as <-. cbn. rewrite Hl. reflexivity. }
  unfold server_process_one, with_server in Hs. destruct (srun _ _) as [[a|e] m1] eqn:E; [|discriminate]. clear - E Hlv.
  unfold process_one, process_one_mt in E. rewrite Hlv, on_worker_one, srun_bind, srun_bind, srun_spar in E. discriminate.
Qed.
Print Assumptions C67_single_query_one_level.

(** The default command line with [--mode 1] asks for one query (src/cli.rs:35-40, src/main.rs:194-228). *)
Theorem C67_default_command_line_refuted : forall fft md co,
  exists e, main_run fft md NotOpened {| cli_mode := 1; cli_item_count := cli_item_count default_cli; cli_query_count := cli_query_count default_cli;
    cli_rows := cli_rows default_cli; cli_cols := cli_cols default_cli; cli_tfhe := cli_tfhe default_cli; cli_dryrun := cli_dryrun default_cli |} co = Panic e.
Proof.
  intros fft md co. apply not_ok_panics. intros outs H. unfold main_run in H. cbn [select_params cli_mode Z.eqb Pos.eqb length seq combine mapM fst snd] in H.
  apply bind_ok in H as (out & H & _). unfold run_params in H. cbn [sp_oram sp_tfhe] in H. apply bind_ok in H as (l & _ & H).
  destruct (C67_multi_query_refuted (fft 2048%Z) md (Z.to_nat (cli_item_count default_cli)) 1 (cli_tfhe default_cli) (co 0) ltac:(lia)) as (e & He).
  match type of H with ?x = _ => assert (x = multi_query (fft 2048%Z) md (Z.to_nat (cli_item_count default_cli)) 1 1 (cli_tfhe default_cli) false (co 0)) as E by reflexivity end.
  rewrite E, He in H. discriminate.
Qed.
Print Assumptions C67_default_command_line_refuted.

(** *** The hypotheses are met, and without the restriction the same calls are answered. *)
Example C67_inside_pool : exists cl sv pts qy ys sv',
  demo_sv0 = Ok (cl, sv, pts) /\ gen_read_query_one cl 1 demo_nh (fun _ => [0; 1; 1; 1]%Z) demo_tape = Ok qy /\
  server_process_multi true (exact_fft 4) sv [qy] = Ok (ys, sv') /\
  Forall2 (fun y pt => decrypt_decode_rlwe demo_cx demo_s y = Ok pt) ys [[1; 1; 0; 1]%Z] /\
  exists e, server_process_multi false (exact_fft 4) sv [qy] = Panic e.
Proof.
  destruct demo_setting as (Hp & Hf & Hs & HS). destruct demo_hash as (shuffle & Hperm & Hnew).
  destruct (setup_C40 demo_cx 2 1 Hp demo_s 3 Hs 1 (2 ^ 2) shuffle Hperm 2 2 demo_nh Hnew (fun i => [Z.of_nat (i mod 2); 1; 0; 1]%Z) demo_pt demo_tape demo_tape_ok eq_refl)
    as (sv & D & Eq & Hsv & Hdb & Hco).
  destruct (C44_multi_distinct true demo_cx 2 1 (exact_fft 4) 0 demo_s 3 3 2 demo_nh 2 2 sv 3 D (fun i => [Z.of_nat (i mod 2); 1; 0; 1]%Z) [Read 1]
     (fun _ _ => [0; 1; 1; 1]%Z) (fun _ => demo_tape)) as (qs & ys & sv' & E1 & E2 & E3 & _); try assumption.
  - exact demo_setting.
  - left; reflexivity.
  - lia.
  - exact demo_hash.
  - reflexivity.
  - intros i c Hi Ec. assert (hash_to_tuple demo_nh 0 i (2 ^ 2) = Ok (0, c)) as Et.
    { destruct i as [|[|i]]; [| |lia]; vm_compute in Ec; injection Ec as <-; reflexivity. }
    rewrite (Hco 0 i 0 c ltac:(lia) Hi Et). destruct i as [|[|i]]; [| |lia]; reflexivity.
  - repeat apply Forall_cons; try apply Forall_nil. split; cbn; [lia|exact I].
  - cbn. repeat constructor; cbn; intuition discriminate.
  - intros j. split; [reflexivity|]. repeat apply Forall_cons; try apply Forall_nil; lia.
  - intros j. exact demo_tape_ok.
  - vm_compute. reflexivity.
  - vm_compute. reflexivity.
  - cbn [ask_all ask] in E1. apply bind_ok in E1 as (qy & Eqy & E1). injection E1 as <-.
    exists (client_new 1 (2 ^ 2) demo_cx demo_s), sv, (map (fun i => [Z.of_nat ((i mod 128) mod 2); 1; 0; 1]%Z) (seq 0 2)), qy, ys, sv'.
    split; [exact Eq|]. split; [exact Eqy|]. split; [exact E2|]. split; [exact E3|]. apply not_ok_panics. intros v Hv.
    unfold server_process_multi, with_server in Hv. pose proof (proj2 (C49_process_multi_deterministic false (exact_fft 4) (srv_cx sv) (srv_neg sv) [qy] (srv_data sv)
      ltac:(destruct Hsv as (-> & _); exact exact_fft_size)) false) as (r & m & Hx).
    pose proof (proj1 (C49_process_multi_deterministic false (exact_fft 4) (srv_cx sv) (srv_neg sv) [qy] (srv_data sv) ltac:(destruct Hsv as (-> & _); exact exact_fft_size)) _ _ _ Hx) as Hd.
    destruct (C67_one_query false (exact_fft 4) sv qy r {| srv_data := m; srv_neg := srv_neg sv; srv_cx := srv_cx sv |}) as [(e & ->) _]; [exists m; auto|].
    destruct (srun _ _) as [[a|e'] m1]; [destruct Hd; discriminate|discriminate].
Qed.
(** The panicking executions exist. *)
Example C67_executions : forall pref fft sv qy, fft_size (srv_cx sv) fft ->
  exists r sv', server_exec pref sv (process_multi false fft (srv_cx sv) (srv_neg sv) [qy]) r sv'.
Proof.
  intros pref fft sv qy Hf. destruct (proj2 (C49_process_multi_deterministic false fft (srv_cx sv) (srv_neg sv) [qy] (srv_data sv) Hf) pref) as (r & m & Hx).
  exists r. eexists. exists m. split; [exact Hx|reflexivity].
Qed.
