(** * Property C99, continued: builds and schedules. *)
From Verif Require Import MBase MPoly MRlwe MHash MSched MOram.
From Verif Require Import SpecLwe SpecOram SpecSched SpecConc PSched PfPoly Demo.
From Verif Require Import SpecBuild SpecBuild2 PfBuild PfBuild2 PBuild.
From Verif Require Import PBatch.
Local Open Scope nat_scope.

(** The sequential meaning of a request, read off [with_server]. *)
Lemma det_ask {A} sv (p : sprog A) pref r sv' : deterministic p (srv_data sv) -> server_exec pref sv p r sv' ->
  match with_server sv p with Ok (a, s) => r = Ok a /\ sv' = s | Panic _ => exists e, r = Panic e end.
Proof.
  intros D (m & E & ->). specialize (D pref r m E). unfold with_server. destruct (srun p (srv_data sv)) as [[a|e] m1]; [|exact D].
  destruct D as [-> ->]. split; reflexivity.
Qed.
Definition good_hash (nh : nhash) (rqs : list request) : Prop := (exists hc dom, hash_for nh hc dom) \/ forall qs, ~ In (AskBatch qs) rqs.
Lemma ask_follows pool pref fft nh rq sv r sv' : fft_size (srv_cx sv) fft -> good_hash nh [rq] -> ask_exec pool pref fft nh rq sv r sv' ->
  match ask pool fft nh rq sv with Ok (ys, s) => r = Ok ys /\ sv' = s | Panic _ => exists e, r = Panic e end.
Proof.
  intros Hf Hh H. destruct rq as [qy|qs|qs]; cbn [ask ask_exec] in *.
  - destruct H as (r1 & H & ->). apply det_ask in H; [|apply C49_process_one_deterministic, Hf]. unfold server_process_one.
    destruct (with_server _ _) as [[a s]|e]; cbn in *; [destruct H as [-> ->]; split; reflexivity|]. destruct H as (e1 & ->). exists e1. reflexivity.
  - apply det_ask in H; [|apply C49_process_multi_deterministic, Hf]. exact H.
  - destruct Hh as [(hc & dom & Hh)|Hh]; [|exfalso; apply (Hh qs); left; reflexivity].
    apply det_ask in H; [exact H|]. eapply C49_process_batch_deterministic; [exact Hf|exact Hh].
Qed.
Lemma ask_keeps pool fft nh rq sv ys s : ask pool fft nh rq sv = Ok (ys, s) -> srv_cx s = srv_cx sv.
Proof.
  assert (forall A (p : sprog A) a, with_server sv p = Ok (a, s) -> srv_cx s = srv_cx sv) as W.
  { intros A p a. unfold with_server. destruct (srun p (srv_data sv)) as [[x|e] m]; [|discriminate]. intros E. injection E as _ <-. reflexivity. }
  destruct rq; cbn [ask]; [|apply W|apply W]. unfold server_process_one. destruct (with_server sv _) as [[a s1]|e] eqn:E; [|discriminate].
  cbn. intros H. injection H as _ <-. exact (W _ _ _ E).
Qed.
Lemma history_follows pool pref fft nh rqs : forall sv r, fft_size (srv_cx sv) fft -> good_hash nh rqs -> history_exec pool pref fft nh rqs sv r ->
  match SpecBuild.ask_all pool fft nh rqs sv with Ok o => r = Ok o | Panic _ => exists e, r = Panic e end.
Proof.
  induction rqs as [|rq rqs IH]; intros sv r Hf Hh H.
  { inversion H. reflexivity. }
  assert (good_hash nh [rq] /\ good_hash nh rqs) as [G1 G2].
  { destruct Hh as [Hh|Hh]; [split; left; exact Hh|]. split; right; intros qs Hi; apply (Hh qs); [destruct Hi as [->|[]]; left; reflexivity|right; exact Hi]. }
  cbn [SpecBuild.ask_all]. inversion H as [|? ? ? e sv1 Ha|? ? ? ys sv1 r1 Ha Hr]; subst.
  - apply ask_follows in Ha; [|exact Hf|exact G1]. destruct (ask pool fft nh rq sv) as [[ys s]|e1]; [destruct Ha; discriminate|]. cbn. eauto.
  - apply ask_follows in Ha; [|exact Hf|exact G1]. destruct (ask pool fft nh rq sv) as [[ys' s]|e1] eqn:Ea; [|destruct Ha; discriminate].
    destruct Ha as [E ->]. injection E as ->. cbn [bind fst snd].
    assert (fft_size (srv_cx s) fft) as Hf1 by (rewrite (ask_keeps _ _ _ _ _ _ _ Ea); exact Hf).
    specialize (IH s r1 Hf1 G2 Hr). destruct (SpecBuild.ask_all pool fft nh rqs s) as [o|e1]; cbn [bind].
    + subst r1. reflexivity.
    + destruct IH as (e & ->). cbn. eauto.
Qed.

(** A debug server and a release server get the same history of requests, honest or not, and process it under any schedules.  If the
    debug server panics nowhere, the release server gives the same answers and holds the same database afterwards. *)
Theorem C99_history_any_schedule : forall pool pref pref' fft nh rqs sv answers debug r,
  fft_size (srv_cx sv) fft -> (exists hc dom, hash_for nh hc dom) \/ (forall qs, ~ In (AskBatch qs) rqs) ->
  history_exec pool pref fft nh rqs (server_in Checked sv) (Ok (answers, debug)) ->
  history_exec pool pref' fft nh rqs (server_in Wrapping sv) r ->
  exists release, r = Ok (answers, release) /\ srv_data release = srv_data debug.
Proof.
  intros pool pref pref' fft nh rqs sv answers debug r Hf Hh Hd Hr.
  apply history_follows in Hd; [|exact Hf|exact Hh]. apply history_follows in Hr; [|exact Hf|exact Hh].
  pose proof (ask_all_rel pool fft nh rqs (server_in Checked sv) (server_in Wrapping sv) (ex_intro _ sv (conj eq_refl eq_refl))) as
    [E|[([a1 s1] & [a2 s2] & E1 & E2 & E & (sv1 & E3 & E4))|(e & E1 & E2)]].
  - rewrite E in Hd. destruct Hd; discriminate.
  - rewrite E1 in Hd. rewrite E2 in Hr. cbn [fst snd] in *. injection Hd as <- <-. subst. eexists. split; reflexivity.
  - rewrite E1 in Hd. destruct Hd; discriminate.
Qed.
Print Assumptions C99_history_any_schedule.

(** An instance: two cells, a write with all randomness of [demo_tape], followed by the same request as a multi-query. *)
Definition small_cx : ctx :=
  {| c_mode := Checked; c_n := 4; c_base := 5; c_level := 2; c_ks_base := 5; c_ks_level := 2; c_negs_base := 5; c_negs_level := 2; c_codec := c_codec Demo.demo_cx |}.
Definition demo_one : query :=
  {| q_a := [encrypt_constant_rgsw 4 demo_s 5 2 1 demo_tape]; q_op := gen_enc_op (client_new 1 2 small_cx demo_s) WRITE demo_tape; q_data := encrypt_rlwe 4 demo_s [2 ^ 63; 0; 2 ^ 63; 2 ^ 63]%Z (demo_tape 3) |}.
Definition demo_cell : server :=
  server_new [[encrypt_rlwe 4 demo_s [0; 2 ^ 63; 0; 0]%Z (demo_tape 4); encrypt_rlwe 4 demo_s [2 ^ 63; 0; 0; 0]%Z (demo_tape 5)]] (match neg_gsw small_cx demo_s demo_tape with Ok g => g | Panic _ => rgsw_allocate 4 5 2 end) small_cx.
(** What the sequential server does happens under some schedule. *)
Lemma det_ask_ex {A} sv (p : sprog A) pref a s : deterministic p (srv_data sv) -> realisable p (srv_data sv) -> with_server sv p = Ok (a, s) -> server_exec pref sv p (Ok a) s.
Proof.
  intros D R E. destruct (R pref) as (r & m & H).
  pose proof (det_ask sv p pref r {| srv_data := m; srv_neg := srv_neg sv; srv_cx := srv_cx sv |} D (ex_intro _ m (conj H eq_refl))) as F.
  rewrite E in F. destruct F as [-> <-]. exists m. split; [exact H|reflexivity].
Qed.
Lemma history_realised pool pref fft nh rqs : forall sv o, fft_size (srv_cx sv) fft -> good_hash nh rqs ->
  SpecBuild.ask_all pool fft nh rqs sv = Ok o -> history_exec pool pref fft nh rqs sv (Ok o).
Proof.
  induction rqs as [|rq rqs IH]; intros sv o Hf Hh H.
  { cbn in H. injection H as <-. constructor. }
  assert (good_hash nh [rq] /\ good_hash nh rqs) as [G1 G2].
  { destruct Hh as [Hh|Hh]; [split; left; exact Hh|]. split; right; intros qs Hi; apply (Hh qs); [destruct Hi as [->|[]]; left; reflexivity|right; exact Hi]. }
  cbn [SpecBuild.ask_all] in H. destruct (ask pool fft nh rq sv) as [[ys s]|e] eqn:Ea; [|discriminate]. cbn [bind fst snd] in H.
  destruct (SpecBuild.ask_all pool fft nh rqs s) as [o1|e] eqn:Es; [|discriminate]. cbn in H. injection H as <-.
  assert (fft_size (srv_cx s) fft) as Hf1 by (rewrite (ask_keeps _ _ _ _ _ _ _ Ea); exact Hf).
  apply (HE_cons pool pref fft nh rq rqs sv ys s (Ok o1)); [|exact (IH s o1 Hf1 G2 Es)].
  destruct rq as [qy|qs|qs]; cbn [ask ask_exec] in *.
  - unfold server_process_one in Ea. destruct (with_server sv _) as [[a s1]|e] eqn:E; [|discriminate]. cbn in Ea. injection Ea as <- <-.
    exists (Ok a). split; [|reflexivity]. destruct (C49_process_one_deterministic pool fft (srv_cx sv) (srv_neg sv) qy (srv_data sv) Hf) as [D R]. exact (det_ask_ex _ _ _ _ _ D R E).
  - destruct (C49_process_multi_deterministic pool fft (srv_cx sv) (srv_neg sv) qs (srv_data sv) Hf) as [D R]. exact (det_ask_ex _ _ _ _ _ D R Ea).
  - destruct G1 as [(hc & dom & Hn)|G1]; [|exfalso; apply (G1 qs); left; reflexivity].
    destruct (C49_process_batch_deterministic pool fft (srv_cx sv) (srv_neg sv) qs nh hc dom (srv_data sv) Hf Hn) as [D R]. exact (det_ask_ex _ _ _ _ _ D R Ea).
Qed.
Lemma ask_all_length pool fft nh rqs : forall sv o, SpecBuild.ask_all pool fft nh rqs sv = Ok o -> List.length (fst o) = List.length rqs.
Proof.
  induction rqs as [|rq rqs IH]; intros sv o H; cbn [SpecBuild.ask_all] in H; [injection H as <-; reflexivity|].
  destruct (ask pool fft nh rq sv) as [[ys s]|e]; [|discriminate]. cbn [bind fst snd] in H.
  destruct (SpecBuild.ask_all pool fft nh rqs s) as [o1|e] eqn:Es; [|discriminate]. cbn in H. injection H as <-. cbn. f_equal. exact (IH s o1 Es).
Qed.
Lemma answered {A} (x : res A) : match x with Ok _ => true | Panic _ => false end = true -> exists a, x = Ok a.
Proof. destruct x as [a|e]; [exists a; reflexivity|discriminate]. Qed.
Lemma history_instance pool pref fft nh rqs sv : fft_size (srv_cx sv) fft -> good_hash nh rqs ->
  match SpecBuild.ask_all pool fft nh rqs (server_in Checked sv) with Ok _ => true | Panic _ => false end = true ->
  exists answers debug, List.length answers = List.length rqs /\ history_exec pool pref fft nh rqs (server_in Checked sv) (Ok (answers, debug)) /\
    forall pref' r, history_exec pool pref' fft nh rqs (server_in Wrapping sv) r -> exists release, r = Ok (answers, release) /\ srv_data release = srv_data debug.
Proof.
  intros Hf Hh H. destruct (answered _ H) as ([ys s] & E). exists ys, s. split; [exact (ask_all_length _ _ _ _ _ _ E)|].
  pose proof (history_realised pool pref fft nh rqs (server_in Checked sv) (ys, s) Hf Hh E) as Hd. split; [exact Hd|].
  intros pref' r Hr. exact (C99_history_any_schedule _ _ _ _ _ _ sv ys s r Hf Hh Hd Hr).
Qed.
Lemma demo_asked : match SpecBuild.ask_all true (exact_fft 4) demo_nh3 [AskOne demo_one; AskMulti [demo_one]] (server_in Checked demo_cell) with Ok _ => true | Panic _ => false end = true.
Proof. vm_compute. reflexivity. Qed.
Example C99_history_applies : forall pref, exists answers debug, List.length answers = 2%nat /\
  history_exec true pref (exact_fft 4) demo_nh3 [AskOne demo_one; AskMulti [demo_one]] (server_in Checked demo_cell) (Ok (answers, debug)) /\
  forall pref' r, history_exec true pref' (exact_fft 4) demo_nh3 [AskOne demo_one; AskMulti [demo_one]] (server_in Wrapping demo_cell) r ->
    exists release, r = Ok (answers, release) /\ srv_data release = srv_data debug.
Proof.
  intros pref. apply (history_instance true pref (exact_fft 4) demo_nh3 [AskOne demo_one; AskMulti [demo_one]] demo_cell); [|left; exists 3%nat, 2%nat; exact demo_hash3|exact demo_asked].
  intros ts. change (c_n (srv_cx demo_cell)) with 4%nat. induction ts as [|[a b] ts IH]; [apply repeat_length|]. cbn [exact_fft fold_right fst snd].
  apply wfp_len, wfp_add; [apply wfp_len, wfp_mul|exact IH].
Qed.
