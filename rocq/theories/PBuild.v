(** * Property C99: a debug build and a release build do the same unless the debug build reports an overflow.
    src/, Cargo.toml: overflow checks are on in debug builds and off in release builds.  Whatever the parameters, keys, randomness, queries,
    files and arguments: the program built with checks either stops with an arithmetic overflow, or behaves in every respect as the one
    built without. *)
From Coq Require Import String Ascii Lia.
From Verif Require Import MBase MUtils MCodec MPoly MRlwe MLwe MHash MTree MEncTree MParams MSched MOram MMain MJson MOut MCli.
From Verif Require Import SpecBuild PfBuild PfBuild2 PfBuild3.
From Coq Require Import Permutation.
From Verif Require Import SpecDriver.
From Verif Require Demo POram POut PMain PRun PDriver.
Local Open Scope Z_scope.

(** Codec, encryption, decryption, noise: for every input. *)
Theorem C99_primitives :
  (forall x, agree (ulog2 Checked x) (ulog2 Wrapping x)) /\
  (forall t, agree (codec_new Checked t) (codec_new Wrapping t)) /\
  (forall c x, agree (encode Checked c x) (encode Wrapping c x)) /\
  (forall c x, agree (decode Checked c x) (decode Wrapping c x)) /\
  (forall pt, agree (pt_to_lossy_u64 Checked pt) (pt_to_lossy_u64 Wrapping pt)) /\
  (forall cx s pt d, agree (encode_encrypt_rlwe (build Checked cx) s pt d) (encode_encrypt_rlwe (build Wrapping cx) s pt d)) /\
  (forall cx s c, agree (decrypt_decode_rlwe (build Checked cx) s c) (decrypt_decode_rlwe (build Wrapping cx) s c)) /\
  (forall n s c e, agree (compute_noise Checked n s c e) (compute_noise Wrapping n s c e)) /\
  (forall cx s b l e t, agree (encrypt_rgsw (build Checked cx) s b l e t) (encrypt_rgsw (build Wrapping cx) s b l e t)) /\
  (forall cx s t, agree (neg_gsw (build Checked cx) s t) (neg_gsw (build Wrapping cx) s t)) /\
  (forall cx s t, agree (gen_all_subs_ksk (build Checked cx) s t) (gen_all_subs_ksk (build Wrapping cx) s t)).
Proof.
  repeat split; intros; apply rel_agree; eauto with build.
Qed.
Print Assumptions C99_primitives.

(** A whole run of the decision tree protocol, client and server. *)
Theorem C99_tree : forall fft cx s model features t,
  agree (simulate fft (build Checked cx) s model features t) (simulate fft (build Wrapping cx) s model features t).
Proof. intros. apply rel_agree, simulate_rel. Qed.
Print Assumptions C99_tree.

(** Setting up the ORAM: the same client, server (every ciphertext) and plaintexts; and the queries of the client. *)
Lemma rel_setup x y : rel setups x y -> agree (setup_of x) (setup_of y).
Proof.
  intros [->|[([[a1 a2] a3] & [[b1 b2] b3] & -> & -> & (cl & E1 & E2) & (sv & E3 & E4) & E)|(e & -> & ->)]]; [left; reflexivity| |right; reflexivity].
  cbn [fst snd] in *. subst. right. reflexivity.
Qed.
Lemma rel_answer {A} (x y : res (A * server)) : rel pairs x y -> agree (answer_of x) (answer_of y).
Proof.
  intros [->|[([a1 a2] & [b1 b2] & -> & -> & E & (sv & E3 & E4))|(e & -> & ->)]]; [left; reflexivity| |right; reflexivity].
  cbn [fst snd] in *. subst. right. reflexivity.
Qed.
Theorem C99_setup : forall rows cols nh cx sk items t,
  agree (setup_of (setup_random_oram rows cols nh (build Checked cx) sk items t)) (setup_of (setup_random_oram rows cols nh (build Wrapping cx) sk items t)).
Proof. intros. apply rel_setup, setup_rel. Qed.
Print Assumptions C99_setup.
Theorem C99_queries : forall cl nh dm t,
  (forall i, agree (gen_read_query_one (client_in Checked cl) i nh dm t) (gen_read_query_one (client_in Wrapping cl) i nh dm t)) /\
  (forall i v, agree (gen_write_query_one (client_in Checked cl) i v nh dm t) (gen_write_query_one (client_in Wrapping cl) i v nh dm t)) /\
  (forall is, agree (gen_read_query_batch (client_in Checked cl) is nh dm t) (gen_read_query_batch (client_in Wrapping cl) is nh dm t)) /\
  (forall is v, agree (gen_write_query_batch (client_in Checked cl) is v nh dm t) (gen_write_query_batch (client_in Wrapping cl) is v nh dm t)).
Proof. intros cl nh dm t. repeat split; intros; apply rel_agree; eauto with build. Qed.
Print Assumptions C99_queries.

(** Any history of requests, honest or not, to one server: the same answers and the same final server. *)
Lemma ask_rel pool fft nh rq sv : rel pairs (ask pool fft nh rq (server_in Checked sv)) (ask pool fft nh rq (server_in Wrapping sv)).
Proof.
  destruct rq; cbn [ask]; [|apply server_multi_rel|apply server_batch_rel].
  apply (rel_bind pairs); [apply server_one_rel|]. intros [a s1] [b s2] [E H]. cbn [fst snd] in *. subst. apply rel_ok. split; [reflexivity|exact H].
Qed.
Lemma ask_all_rel pool fft nh rqs : forall a b, servers a b -> rel pairs (ask_all pool fft nh rqs a) (ask_all pool fft nh rqs b).
Proof.
  induction rqs as [|rq rqs IH]; intros a b Hs; cbn [ask_all]; [apply rel_ok; split; [reflexivity|exact Hs]|].
  destruct Hs as (sv & -> & ->). apply (rel_bind pairs); [apply ask_rel|]. intros [x s1] [y s2] [E H]. cbn [fst snd] in *. subst.
  apply (rel_bind pairs); [apply IH, H|]. intros [x1 s3] [y1 s4] [E H']. cbn [fst snd] in *. subst. apply rel_ok. split; [reflexivity|exact H'].
Qed.
Theorem C99_history : forall pool fft nh rqs sv,
  agree (answer_of (ask_all pool fft nh rqs (server_in Checked sv))) (answer_of (ask_all pool fft nh rqs (server_in Wrapping sv))).
Proof. intros. apply rel_answer, ask_all_rel. exists sv. split; reflexivity. Qed.
Print Assumptions C99_history.

(** The benchmark program: the figures it computes, and what it prints.  If the debug build stops with an overflow, it has printed a
    beginning of what the release build prints. *)
Theorem C99_main : forall fft f c co, agree (main_run fft Checked f c co) (main_run fft Wrapping f c co).
Proof. intros. apply rel_agree, main_rel. Qed.
Print Assumptions C99_main.
Theorem C99_output : forall show_dev show_noise fft f c co cl,
  let debug := main_out show_dev show_noise fft Checked f c co cl in
  let release := main_out show_dev show_noise fft Wrapping f c co cl in
  release = debug \/ (snd debug = Panic POverflow /\ exists more, fst release = fst debug +++ more).
Proof.
  intros. destruct (main_prel show_dev show_noise fft f c co cl) as [H|[E [(a & b & Ea & Eb & <-)|(e & Ea & Eb)]]]; [right; exact H| |];
    left; unfold debug, release; apply injective_projections; congruence.
Qed.
Print Assumptions C99_output.
(** Whatever the schedules of the two runs: if the debug build can finish, every run of the release build finishes with the same figures. *)
Theorem C99_any_schedule : forall pref pref' fft f c co debug release,
  (forall i sp, nth_error (select_params f c) i = Some sp ->
     (forall ts, List.length (fft (tp_polynomial_size (sp_tfhe sp)) ts) = Z.to_nat (tp_polynomial_size (sp_tfhe sp))) /\
     forall l, Permutation (co_shuffle (co i) l) l) ->
  main_exec pref fft Checked f c co (Ok debug) -> main_exec pref' fft Wrapping f c co release -> release = Ok debug.
Proof.
  intros pref pref' fft f c co debug release H Hd Hr.
  destruct (PDriver.C72_main_any_schedule pref fft Checked f c co H) as [_ D]. destruct (PDriver.C72_main_any_schedule pref' fft Wrapping f c co H) as [_ R].
  specialize (D _ Hd). specialize (R _ Hr). destruct (C99_main fft f c co) as [E|E]; rewrite E in *.
  - destruct D as (e & D). discriminate.
  - destruct (main_run fft Checked f c co); [congruence|]. destruct D as (e & D). discriminate.
Qed.
Print Assumptions C99_any_schedule.
(** From the command line: the exit status of a debug build that did not succeed like the release build is 101. *)
Theorem C99_program : forall f64 negative dev files about show_dev show_noise fft args co cl,
  let debug := program f64 negative dev files about show_dev show_noise fft Checked args co cl in
  let release := program f64 negative dev files about show_dev show_noise fft Wrapping args co cl in
  release = debug \/ (snd debug = 101 /\ exists more, fst release = fst debug +++ more).
Proof.
  intros. unfold debug, release, program. destruct (scan f64 negative [] args) as [seen| |]; [|left; reflexivity..]. cbv zeta.
  destruct (C99_output show_dev show_noise fft (params_at dev files (text_of seen "params" "")) (cli_of f64 seen) co cl) as [E|[E H]]; cbv zeta in E.
  - left. rewrite E. reflexivity.
  - right. rewrite E. split; [reflexivity|exact H].
Qed.
Print Assumptions C99_program.

(** Parameters for which the drivers are shown to complete (C65): no overflow occurs, the builds are the same. *)
Theorem C99_supported : forall show_dev show_noise fft f c co cl, cli_dryrun c = false ->
  (forall i sp, nth_error (select_params f c) i = Some sp -> PRun.supported (fft (tp_polynomial_size (sp_tfhe sp))) Checked sp (co i)) ->
  main_out show_dev show_noise fft Wrapping f c co cl = main_out show_dev show_noise fft Checked f c co cl /\
  snd (main_out show_dev show_noise fft Wrapping f c co cl) = Ok tt.
Proof.
  intros sd sn fft f c co cl Hd H. destruct (PRun.C65_main_completes fft Checked f c co Hd H) as (outs & E & _).
  pose proof (POut.C81_ends_alike sd sn fft Checked f c co cl) as S. rewrite E in S.
  destruct (C99_output sd sn fft f c co cl) as [Eq|[Ov _]]; cbv zeta in *; [|rewrite S in Ov; discriminate].
  rewrite Eq. split; [reflexivity|exact S].
Qed.
Print Assumptions C99_supported.

(** The builds do differ: the noise of a ciphertext can be 2^63, the largest there is, which a debug build reports as an overflow and a release build as 0;
    for a set without items the debug build stops after the header, the release build prints 2^(2^64-1) items and succeeds. *)
Theorem C99_same_refuted :
  (exists n s c e, compute_noise Checked n s c e = Panic POverflow /\ compute_noise Wrapping n s c e = Ok 0) /\
  (exists f c, forall show_dev show_noise fft co cl,
    snd (main_out show_dev show_noise fft Checked f c co cl) = Panic POverflow /\
    snd (main_out show_dev show_noise fft Wrapping f c co cl) = Ok tt).
Proof.
  split.
  - exists 1%nat, [0], {| mask := [0]; body := [2 ^ 63] |}, [0]. split; vm_compute; reflexivity.
  - exists (Opened (Some [([SingleQuery 0 1], [default_tfhe])])), POut.dry_cli. intros. split; reflexivity.
Qed.
Print Assumptions C99_same_refuted.

(** *** Instances: the debug build does succeed. *)
Example C99_main_applies : exists outs, List.length outs = 2%nat /\
  main_run (fun n => SpecLwe.exact_fft (Z.to_nat n)) Wrapping PRun.demo_file default_cli (fun _ => PMain.demo_coins (@rev nat)) = Ok outs.
Proof.
  destruct PRun.C65_applies as (outs & H & L & _). exists outs. split; [exact L|].
  destruct (C99_main (fun n => SpecLwe.exact_fft (Z.to_nat n)) PRun.demo_file default_cli (fun _ => PMain.demo_coins (@rev nat))) as [E|E]; rewrite H in E; [discriminate|exact E].
Qed.
Example C99_noise_applies : compute_noise Checked 1 [0] {| mask := [0]; body := [2 ^ 63 - 1] |} [0] = Ok (2 ^ 63 - 1) /\
  compute_noise Wrapping 1 [0] {| mask := [0]; body := [2 ^ 63 - 1] |} [0] = Ok (2 ^ 63 - 1).
Proof.
  assert (compute_noise Checked 1 [0] {| mask := [0]; body := [2 ^ 63 - 1] |} [0] = Ok (2 ^ 63 - 1)) as H by (vm_compute; reflexivity).
  split; [exact H|]. destruct C99_primitives as (_ & _ & _ & _ & _ & _ & _ & N & _).
  destruct (N 1%nat [0] {| mask := [0]; body := [2 ^ 63 - 1] |} [0]) as [E|E]; rewrite H in E; [discriminate|exact E].
Qed.
Example C99_schedule_applies : forall pref, exists debug, List.length debug = 2%nat /\
  forall release, main_exec pref (fun n => SpecLwe.exact_fft (Z.to_nat n)) Wrapping PRun.demo_file default_cli (fun _ => PMain.demo_coins (@rev nat)) release -> release = Ok debug.
Proof.
  intros pref.
  assert (forall (i : nat) sp, nth_error (select_params PRun.demo_file default_cli) i = Some sp ->
     (forall ts, List.length (SpecLwe.exact_fft (Z.to_nat (tp_polynomial_size (sp_tfhe sp))) ts) = Z.to_nat (tp_polynomial_size (sp_tfhe sp))) /\
     forall l, Permutation (co_shuffle (PMain.demo_coins (@rev nat)) l) l) as Hh.
  { intros i sp _. split; [|intros l; apply Permutation_sym, Permutation_rev].
    intros ts. induction ts as [|[a b] ts IH]; [apply repeat_length|]. cbn [SpecLwe.exact_fft fold_right fst snd].
    apply PfPoly.wfp_len, PfPoly.wfp_add; [apply PfPoly.wfp_len, PfPoly.wfp_mul|exact IH]. }
  destruct (PDriver.C72_main_any_schedule true (fun n => SpecLwe.exact_fft (Z.to_nat n)) Checked PRun.demo_file default_cli (fun _ => PMain.demo_coins (@rev nat)) Hh) as [(r & Hr) _].
  destruct (PDriver.C72_applies true r Hr) as (outs & -> & L).
  exists outs. split; [exact L|]. intros release. exact (C99_any_schedule true pref _ _ _ _ outs release Hh Hr).
Qed.
Example C99_supported_applies : forall cl,
  snd (main_out (fun _ => "-55"%string) (fun _ _ => "1.5"%string) (fun n => SpecLwe.exact_fft (Z.to_nat n)) Wrapping PRun.demo_file default_cli (fun _ => PMain.demo_coins (@rev nat)) cl) = Ok tt /\
  (forall i sp, nth_error (select_params PRun.demo_file default_cli) i = Some sp ->
     PRun.supported (SpecLwe.exact_fft (Z.to_nat (tp_polynomial_size (sp_tfhe sp)))) Checked sp (PMain.demo_coins (@rev nat))).
Proof.
  intros cl. assert (forall i sp, nth_error (select_params PRun.demo_file default_cli) i = Some sp ->
     PRun.supported (SpecLwe.exact_fft (Z.to_nat (tp_polynomial_size (sp_tfhe sp)))) Checked sp (PMain.demo_coins (@rev nat))) as H.
  { intros i sp Hi. destruct i as [|[|i]]; cbn in Hi; [| |destruct i; discriminate]; injection Hi as <-;
      (exists Demo.demo_cx, 2%nat, 1, 0, 3, 3, 2%nat; split; [exact PMain.demo_context|]; split; [exact POram.demo_setting|]; split; [apply PMain.demo_good; intros l; apply Permutation_sym, Permutation_rev|]; split; [lia|]; cbn [sp_oram]).
    - split; [reflexivity|]. split; [discriminate|]. split; [lia|]. vm_compute. reflexivity.
    - split; [reflexivity|]. split; [lia|]. split; [lia|]. split; [lia|]. vm_compute. reflexivity. }
  split; [|exact H]. exact (proj2 (C99_supported _ _ _ PRun.demo_file default_cli (fun _ => PMain.demo_coins (@rev nat)) cl eq_refl H)).
Qed.
