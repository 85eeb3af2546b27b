(** * Property C65: the program: [main] runs every selected parameter set once, in order. *)
From Coq Require Import Permutation.
From Verif Require Import MBase MUtils MCodec MPoly MRlwe MHash MTree MEncTree MParams MSched MOram MMain.
From Verif Require Import SpecRing SpecLwe SpecOram SpecBatch PfNear PfEnc3 PfEnc4 PfUtils PfCodec PfDet2 PfMain Demo PEnc POram PBatch PMain.
Local Open Scope Z_scope.

Lemma mapM_pairs {A B} (f : nat * A -> res B) l j : forall outs, mapM f (combine (seq j (length l)) l) = Ok outs ->
  length outs = length l /\ forall i x, nth_error l i = Some x -> exists out, nth_error outs i = Some out /\ f ((j + i)%nat, x) = Ok out.
Proof.
  revert j. induction l as [|x l IH]; intros j outs H; cbn [length seq combine mapM] in H.
  - injection H as <-. split; [reflexivity|]. intros [|i] y Hy; discriminate.
  - apply bind_ok in H as (o & Ho & H). apply bind_ok in H as (os & Hos & H). injection H as <-. destruct (IH (Datatypes.S j) os Hos) as [L H].
    split; [cbn; congruence|]. intros [|i] y Hy; cbn [nth_error] in *.
    + injection Hy as <-. exists o. rewrite Nat.add_0_r. auto.
    + destruct (H i y Hy) as (out & E1 & E2). exists out. split; [exact E1|]. replace (j + Datatypes.S i)%nat with (Datatypes.S j + i)%nat by lia. exact E2.
Qed.
Lemma mapM_pairs_ok {A B} (f : nat * A -> res B) (Q : nat -> A -> B -> Prop) l j :
  (forall i x, nth_error l i = Some x -> exists out, f ((j + i)%nat, x) = Ok out /\ Q (j + i)%nat x out) ->
  exists outs, mapM f (combine (seq j (length l)) l) = Ok outs /\ length outs = length l /\
    forall i x out, nth_error l i = Some x -> nth_error outs i = Some out -> Q (j + i)%nat x out.
Proof.
  revert j. induction l as [|x l IH]; intros j H; cbn [length seq combine mapM].
  - exists []. split; [reflexivity|]. split; [reflexivity|]. intros [|i] y out Hy; discriminate.
  - destruct (H 0%nat x eq_refl) as (o & Ho & Hq). rewrite Nat.add_0_r in Ho, Hq. rewrite Ho. cbn [bind].
    destruct (IH (Datatypes.S j)) as (os & Eos & L & Hall).
    { intros i y Hy. destruct (H (Datatypes.S i) y Hy) as (out & E1 & E2). exists out. replace (Datatypes.S j + i)%nat with (j + Datatypes.S i)%nat by lia. auto. }
    rewrite Eos. exists (o :: os). split; [reflexivity|]. split; [cbn; congruence|]. intros [|i] y out Hy Ho'; cbn [nth_error] in *.
    + injection Hy as <-. injection Ho' as <-. rewrite Nat.add_0_r. exact Hq.
    + replace (j + Datatypes.S i)%nat with (Datatypes.S j + i)%nat by lia. exact (Hall i y out Hy Ho').
Qed.

(** [main] succeeds exactly if every selected set does, and prints their results in the order of the list:
    none is skipped, repeated or reordered. *)
Theorem C65_runs_every_set_once : forall fft md f c co,
  (forall outs, main_run fft md f c co = Ok outs ->
     length outs = length (select_params f c) /\
     forall i sp, nth_error (select_params f c) i = Some sp ->
       exists out, nth_error outs i = Some out /\ run_params (fft (tp_polynomial_size (sp_tfhe sp))) md (cli_dryrun c) sp (co i) = Ok out) /\
  ((forall i sp, nth_error (select_params f c) i = Some sp -> exists out, run_params (fft (tp_polynomial_size (sp_tfhe sp))) md (cli_dryrun c) sp (co i) = Ok out) ->
   exists outs, main_run fft md f c co = Ok outs) /\
  ((exists i sp e, nth_error (select_params f c) i = Some sp /\ run_params (fft (tp_polynomial_size (sp_tfhe sp))) md (cli_dryrun c) sp (co i) = Panic e) ->
   exists e, main_run fft md f c co = Panic e).
Proof.
  intros fft md f c co. unfold main_run.
  assert (forall outs, mapM (fun isp : nat * server_params => run_params (fft (tp_polynomial_size (sp_tfhe (snd isp)))) md (cli_dryrun c) (snd isp) (co (fst isp)))
       (combine (seq 0 (length (select_params f c))) (select_params f c)) = Ok outs ->
     length outs = length (select_params f c) /\
     forall i sp, nth_error (select_params f c) i = Some sp ->
       exists out, nth_error outs i = Some out /\ run_params (fft (tp_polynomial_size (sp_tfhe sp))) md (cli_dryrun c) sp (co i) = Ok out) as H1.
  { intros outs H. apply mapM_pairs in H as [L H]. split; [exact L|]. intros i sp Hi. exact (H i sp Hi). }
  split; [exact H1|]. split.
  - intros H. destruct (mapM_pairs_ok (fun isp : nat * server_params => run_params (fft (tp_polynomial_size (sp_tfhe (snd isp)))) md (cli_dryrun c) (snd isp) (co (fst isp))) (fun _ _ _ => True) (select_params f c) 0) as (outs & Eo & _).
    { intros i sp Hi. destruct (H i sp Hi) as (out & Eo). exists out. split; [exact Eo|exact I]. }
    exists outs. exact Eo.
  - intros (i & sp & e & Hi & He). apply not_ok_panics. intros outs H. destruct (H1 outs H) as [_ H2]. destruct (H2 i sp Hi) as (out & _ & Eo). congruence.
Qed.
Print Assumptions C65_runs_every_set_once.

(** What it takes for a driver to pass its own checks (C59): dimensions of the right form, randomness within
    bounds, noise within the budget. *)
Definition supported (fft : fftT) (md : mode) (sp : server_params) (co : coins) : Prop :=
  exists cx lg k eps S E a, context_new md (sp_tfhe sp) = Ok cx /\ setting cx lg k fft eps (co_sk co) S /\ good_coins cx k E co /\ (1 <= a <= 63)%nat /\
  match sp_oram sp with
  | SingleQuery items iterations => items = 2 ^ Z.of_nat a /\ c_level cx <> 1%nat /\ 0 < iterations /\
      2 * (E + iterations * growth cx a S E eps + answer_growth cx a S E eps) < 2 ^ (64 - k)
  | MultiQuery items queries iterations => items = 2 ^ Z.of_nat a /\ 0 <= queries < items /\ queries <> 1 /\ 0 < iterations /\
      2 * (E + iterations * multi_growth cx a S E eps (Z.to_nat queries) + answer_growth cx a S E eps) < 2 ^ (64 - k)
  | Batched rows cols iterations => exists items, cols = 2 ^ Z.of_nat a /\ 2 <= items < 2 ^ 64 /\ rows * cols = 3 * items /\ 0 < iterations /\
      2 * (E + iterations * batch_growth cx a 3 S E eps + answer_growth cx a S E eps) < 2 ^ (64 - k)
  end.
(** The number of results of a set: one line per iteration. *)
Definition iterations_of (sp : server_params) : Z :=
  match sp_oram sp with SingleQuery _ it => it | MultiQuery _ _ it => it | Batched _ _ it => it end.

Lemma to_nat_pow a : Z.to_nat (2 ^ Z.of_nat a) = (2 ^ a)%nat.
Proof. rewrite <- (Nat2Z.id (2 ^ a)), Nat2Z.inj_pow. reflexivity. Qed.
Lemma modulus_log md p cx k : context_new md p = Ok cx -> 1 <= k <= 63 -> codec_new (c_mode cx) (2 ^ k) = Ok (c_codec cx) ->
  exists l, ulog2 md (tp_plaintext_modulus p) = Ok l.
Proof.
  intros H _ _. unfold context_new in H. apply bind_ok in H as (cd & Hc & _). unfold codec_new in Hc.
  destruct (negb (is_power_of_two (tp_plaintext_modulus p))); [discriminate|]. apply bind_ok in Hc as (l & Hl & _). exists l. exact Hl.
Qed.

Lemma supported_run fft md sp co : supported fft md sp co ->
  exists out, run_params fft md false sp co = Ok out /\ Z.of_nat (length out) = iterations_of sp.
Proof.
  intros (cx & lg & k & eps & S & E & a & Ecx & Hset & Hco & Ha & H). pose proof Hset as ((_ & _ & _ & _ & _ & _ & _ & Hk & Hc) & _).
  destruct (modulus_log _ _ _ _ Ecx Hk Hc) as (l & El). unfold run_params, iterations_of. rewrite El. cbn [bind].
  destruct (sp_oram sp) as [items it|items qc it|rows cols it].
  - destruct H as (-> & Hlv & Hit & Hb). rewrite to_nat_pow.
    destruct (C59_single_query md (sp_tfhe sp) cx lg k fft eps S E a (Z.to_nat it) co Ecx Hset Hlv Hco Ha ltac:(lia)) as (ns & En & L & _).
    { rewrite Z2Nat.id by lia. exact Hb. }
    rewrite En. cbn [bind]. eexists. split; [reflexivity|]. rewrite map_length, L. lia.
  - destruct H as (-> & Hq & Hq1 & Hit & Hb). rewrite to_nat_pow.
    destruct (C59_multi_query md (sp_tfhe sp) cx lg k fft eps S E a (Z.to_nat qc) (Z.to_nat it) co Ecx Hset Hco Ha ltac:(lia)) as (ns & En & L & _).
    { rewrite <- to_nat_pow. apply Z2Nat.inj_lt; lia. }
    { lia. }
    { rewrite Z2Nat.id by lia. exact Hb. }
    exists ns. split; [exact En|]. rewrite L. lia.
  - destruct H as (items & -> & Hi & Hdim & Hit & Hb). rewrite to_nat_pow.
    assert (0 <= rows) as Hr. { pose proof (Z.pow_pos_nonneg 2 (Z.of_nat a) ltac:(lia) ltac:(lia)). nia. }
    destruct (C59_batch_query md (sp_tfhe sp) cx lg k fft eps S E a (Z.to_nat rows) (Z.to_nat items) (Z.to_nat it) co Ecx Hset Hco Ha ltac:(lia) ltac:(lia)) as (ns & En & L & _).
    { apply Nat2Z.inj. rewrite !Nat2Z.inj_mul, Nat2Z.inj_pow, !Z2Nat.id by lia. exact Hdim. }
    { rewrite Z2Nat.id by lia. change q with (2 ^ 64). lia. }
    { rewrite Z2Nat.id by lia. exact Hb. }
    exists ns. split; [exact En|]. rewrite L. lia.
Qed.

(** The program completes for every list of supported parameter sets, with one line per iteration of each. *)
Theorem C65_main_completes : forall fft md f c co, cli_dryrun c = false ->
  (forall i sp, nth_error (select_params f c) i = Some sp -> supported (fft (tp_polynomial_size (sp_tfhe sp))) md sp (co i)) ->
  exists outs, main_run fft md f c co = Ok outs /\ length outs = length (select_params f c) /\
    forall i sp out, nth_error (select_params f c) i = Some sp -> nth_error outs i = Some out -> Z.of_nat (length out) = iterations_of sp.
Proof.
  intros fft md f c co Hd H. unfold main_run. rewrite Hd.
  apply (mapM_pairs_ok (fun isp : nat * server_params => run_params (fft (tp_polynomial_size (sp_tfhe (snd isp)))) md false (snd isp) (co (fst isp))) (fun _ sp out => Z.of_nat (length out) = iterations_of sp) (select_params f c) 0).
  intros i sp Hi. exact (supported_run _ _ _ _ (H i sp Hi)).
Qed.
Print Assumptions C65_main_completes.

(** A dry run touches no ciphertext: whatever the FFT, the randomness and the ciphertext parameters, it
    completes when the counts are positive words and the plaintext moduli are too. *)
Definition counts_ok (sp : server_params) : Prop :=
  0 < tp_plaintext_modulus (sp_tfhe sp) < 2 ^ 64 /\ 0 < iterations_of sp /\
  match sp_oram sp with
  | SingleQuery items _ | MultiQuery items _ _ => 0 < items < 2 ^ 64
  | Batched rows cols _ => 0 <= rows /\ 0 <= cols /\ 3 <= rows * cols < 2 ^ 64
  end.
Theorem C65_dry_run : forall fft md f c co, cli_dryrun c = true -> Forall counts_ok (select_params f c) ->
  exists outs, main_run fft md f c co = Ok outs /\ Forall (fun out => out = []) outs.
Proof.
  intros fft md f c co Hd HF. unfold main_run. rewrite Hd.
  destruct (mapM_pairs_ok (fun isp : nat * server_params => run_params (fft (tp_polynomial_size (sp_tfhe (snd isp)))) md true (snd isp) (co (fst isp))) (fun _ _ out => out = []) (select_params f c) 0) as (outs & Eo & L & H).
  - intros i sp Hi. cbn [fst snd]. rewrite Forall_forall in HF. destruct (HF sp (nth_error_In _ _ Hi)) as (Hm & Hit & Hc). exists []. split; [|reflexivity].
    unfold run_params. rewrite ulog2_pos by (change q with (2 ^ 64); lia). cbn [bind]. unfold iterations_of in Hit.
    destruct (sp_oram sp) as [items it|items qc it|rows cols it].
    + destruct (C59_dryrun (fft (tp_polynomial_size (sp_tfhe sp))) md (Z.to_nat items) 0 0 0 (Z.to_nat it) (sp_tfhe sp) (co (0 + i)%nat) ltac:(lia)) as [H _].
      destruct H as [-> _]; [|reflexivity]. rewrite Z2Nat.id by lia. change q with (2 ^ 64). lia.
    + destruct (C59_dryrun (fft (tp_polynomial_size (sp_tfhe sp))) md (Z.to_nat items) 0 0 (Z.to_nat qc) (Z.to_nat it) (sp_tfhe sp) (co (0 + i)%nat) ltac:(lia)) as [H _].
      destruct H as [_ ->]; [|reflexivity]. rewrite Z2Nat.id by lia. change q with (2 ^ 64). lia.
    + destruct (C59_dryrun (fft (tp_polynomial_size (sp_tfhe sp))) md 0 (Z.to_nat rows) (Z.to_nat cols) 0 (Z.to_nat it) (sp_tfhe sp) (co (0 + i)%nat) ltac:(lia)) as [_ H].
      apply H. assert (Z.of_nat (Z.to_nat rows * Z.to_nat cols) = rows * cols) as Em by (rewrite Nat2Z.inj_mul, !Z2Nat.id by lia; reflexivity).
      split; [lia|]. rewrite Nat2Z.inj_div, Em. change q with (2 ^ 64). apply Z.div_lt_upper_bound; lia.
  - exists outs. split; [exact Eo|]. apply Forall_forall. intros out Hin. apply In_nth_error in Hin as (i & Hi).
    destruct (nth_error (select_params f c) i) as [sp|] eqn:Es; [exact (H i sp out Es Hi)|].
    apply nth_error_None in Es. assert (nth_error outs i <> None) as Hne by congruence. apply nth_error_Some in Hne. lia.
Qed.
Print Assumptions C65_dry_run.

(** The comment in the program says that a parameter file that cannot be read (wrong path or format) means
    default parameters.  That is so for a wrong format, but a wrong path uses the command line instead. *)
Theorem C65_wrong_path_refuted : exists c, select_params NotOpened c <> select_params (Opened None) c /\
  select_params (Opened None) c = from_input_params_list default_input.
Proof. exists default_cli. split; [discriminate|reflexivity]. Qed.
Print Assumptions C65_wrong_path_refuted.

(** *** Instances. *)
Definition demo_file : params_file := Opened (Some [([SingleQuery 4 3; MultiQuery 4 2 3], [demo_tfhe])]).
Example C65_applies : exists outs, main_run (fun n => exact_fft (Z.to_nat n)) Checked demo_file default_cli (fun _ => demo_coins (@rev nat)) = Ok outs /\ length outs = 2%nat /\
  forall i sp out, nth_error (select_params demo_file default_cli) i = Some sp -> nth_error outs i = Some out -> Z.of_nat (length out) = iterations_of sp.
Proof.
  apply C65_main_completes; [reflexivity|]. intros i sp Hi.
  destruct i as [|[|i]]; cbn in Hi; [| |destruct i; discriminate]; injection Hi as <-;
    (exists demo_cx, 2%nat, 1, 0, 3, 3, 2%nat; split; [exact demo_context|]; split; [exact demo_setting|]; split; [exact (demo_good _ rev_perm)|]; split; [lia|]; cbn [sp_oram]).
  - split; [reflexivity|]. split; [discriminate|]. split; [lia|]. vm_compute. reflexivity.
  - split; [reflexivity|]. split; [lia|]. split; [lia|]. split; [lia|]. vm_compute. reflexivity.
Qed.
(** The default parameters meet the conditions of a dry run. *)
Example C65_dry_applies : forall fft md co, exists outs,
  main_run fft md (Opened None) {| cli_mode := 2; cli_item_count := 0; cli_query_count := 0; cli_rows := 0; cli_cols := 0; cli_tfhe := default_tfhe; cli_dryrun := true |} co = Ok outs /\
  Forall (fun out => out = []) outs.
Proof.
  intros fft md co. apply C65_dry_run; [reflexivity|]. apply Forall_cons; [|apply Forall_nil]. split; [cbn; lia|]. split; [cbn; lia|]. cbn. lia.
Qed.
