(** * Mixed histories: proofs *)
From Coq Require Import Permutation.
From Verif Require Import MBase MUtils MCodec MPoly MRlwe MHash MTree MEncTree MSched MOram.
From Verif Require Import SpecRing SpecLwe SpecOram SpecBatch SpecSched SpecShape SpecConc SpecMixed.
From Verif Require Import PfPoly PfNear PfRlwe PfRlwe2 PfRlwe3 PfRlwe5 PfEnc PfEnc2 PfEnc3 PfOram2 PfOram3 PfOram6 PfOram7 PfSched PfSched2 PfSched3 PfOram1 PfOram4 PfOram5 PfDet1 PfDet2 PfDet3 LOram LMulti PfEnc4 LSched PSched PfMain.
Local Open Scope Z_scope.

(** Deterministic programs: the sequential run is one of the executions. *)
Lemma server_exec_det {A} pref sv (p : sprog A) r sv' : sdet p (srv_data sv) -> server_exec pref sv p r sv' ->
  match with_server sv p with Ok (x, sv1) => r = Ok x /\ sv' = sv1 | Panic _ => exists e, r = Panic e end.
Proof.
  intros Hd (m & Hx & ->). pose proof (sdet_deterministic _ _ Hd _ _ _ Hx) as H. unfold with_server.
  destruct (srun p (srv_data sv)) as [[x|e] m1]; [destruct H as [-> ->]; auto|exact H].
Qed.
Lemma server_exec_exists {A} pref sv (p : sprog A) x sv' : sdet p (srv_data sv) -> with_server sv p = Ok (x, sv') -> server_exec pref sv p (Ok x) sv'.
Proof.
  intros Hd. unfold with_server. destruct (srun p (srv_data sv)) as [[y|e] m1] eqn:Er; [|discriminate]. intros H; injection H as <- <-.
  exists m1. split; [|reflexivity]. apply sexec_exists; assumption.
Qed.
Lemma with_server_cx {A} sv (p : sprog A) x sv' : with_server sv p = Ok (x, sv') -> srv_cx sv' = srv_cx sv /\ srv_neg sv' = srv_neg sv.
Proof. unfold with_server. destruct (srun p (srv_data sv)) as [[y|e] m1]; [|discriminate]. intros H; injection H as <- <-. auto. Qed.

Lemma srun_bind_ret {A B} (p : sprog A) (f : A -> B) : forall m, srun (x <== p ;;; SRet (f x)) m = (let (r, m') := srun p m in (x <- r ;; Ok (f x), m')).
Proof.
  induction p as [x|e|C tasks kk IH|nn kk IH]; intros m; cbn [sbind srun]; try reflexivity.
  - destruct (par_run tasks m) as [[rs|e] m1]; [apply IH|reflexivity].
  - apply IH.
Qed.

Lemma step_det pool fft sv st qs : fft_size (srv_cx sv) fft -> sdet (step_prog pool fft sv st qs) (srv_data sv).
Proof.
  intros Hf. destruct st as [rq|rqs]; cbn [step_prog].
  - destruct qs as [|qy [|q2 qs]]; try exact I. apply sdet_bind; [apply process_one_det, Hf|]. intros; exact I.
  - apply process_multi_det, Hf.
Qed.

Lemma mixed_det pool pref fft cl nh dm t sts j sv r : fft_size (srv_cx sv) fft -> mixed_exec pool pref fft cl nh dm t j sv sts r ->
  match mixed_session pool fft cl nh dm t j sv sts with Ok x => r = Ok x | Panic _ => exists e, r = Panic e end.
Proof.
  intros Hf H. revert Hf. induction H as [j sv|j sv st sts e E|j sv st sts qs e sv1 E Hx|j sv st sts qs ys sv1 r E Hx Hs IH]; intros Hf; cbn [mixed_session]; rewrite ?E; cbn [bind].
  - reflexivity.
  - eauto.
  - pose proof (server_exec_det _ _ _ _ _ (step_det pool fft sv st qs Hf) Hx) as H. destruct (with_server sv _) as [[y sv2]|e2]; [destruct H; discriminate|]. cbn [bind]. eauto.
  - pose proof (server_exec_det _ _ _ _ _ (step_det pool fft sv st qs Hf) Hx) as H. destruct (with_server sv _) as [[y sv2]|e2] eqn:Ew; [|destruct H; discriminate].
    destruct H as [Ey ->]. injection Ey as ->. cbn [bind]. destruct (with_server_cx _ _ _ _ Ew) as [Ecx _].
    rewrite Ecx in IH. specialize (IH Hf). destruct (mixed_session pool fft cl nh dm t _ _ sts) as [[yss sv3]|e3].
    + rewrite IH. reflexivity.
    + destruct IH as [e' ->]. cbn. eauto.
Qed.
Lemma mixed_exists pool pref fft cl nh dm t sts : forall j sv x, fft_size (srv_cx sv) fft ->
  mixed_session pool fft cl nh dm t j sv sts = Ok x -> mixed_exec pool pref fft cl nh dm t j sv sts (Ok x).
Proof.
  induction sts as [|st sts IH]; intros j sv x Hf; cbn [mixed_session].
  - intros H; injection H as <-. constructor.
  - destruct (ask_step cl nh (dm j) (t j) st) as [qs|] eqn:Eq; [|discriminate]. cbn [bind].
    destruct (with_server sv (step_prog pool fft sv st qs)) as [[ys sv1]|] eqn:Ew; [|discriminate]. cbn [bind].
    destruct (mixed_session pool fft cl nh dm t (Datatypes.S j) sv1 sts) as [[yss sv2]|] eqn:Em; [|discriminate]. cbn [bind]. intros H; injection H as <-.
    change (Ok (ys :: yss, sv2)) with (yr <- Ok (yss, sv2) ;; Ok (ys :: fst yr, snd yr)).
    eapply ME_cons; [exact Eq|eapply server_exec_exists; [apply step_det, Hf|exact Ew]|].
    apply IH; [|exact Em]. rewrite (proj1 (with_server_cx _ _ _ _ Ew)). exact Hf.
Qed.
Lemma batch_exists pool pref fft cl nh hc dom dm t brs : hash_for nh hc dom -> forall j sv x, fft_size (srv_cx sv) fft ->
  batch_session pool fft cl nh dm t j sv brs = Ok x -> batch_session_exec pool pref fft cl nh dm t j sv brs (Ok x).
Proof.
  intros Hh. induction brs as [|br brs IH]; intros j sv x Hf; cbn [batch_session].
  - intros H; injection H as <-. constructor.
  - destruct (ask_batch cl nh br (dm j) (t j)) as [qs|] eqn:Eq; [|discriminate]. cbn [bind].
    destruct (server_process_batch pool fft sv qs nh) as [[ys sv1]|] eqn:Ew; [|discriminate]. cbn [bind]. unfold server_process_batch in Ew.
    destruct (batch_session pool fft cl nh dm t (Datatypes.S j) sv1 brs) as [[yss sv2]|] eqn:Em; [|discriminate]. cbn [bind]. intros H; injection H as <-.
    change (Ok (ys :: yss, sv2)) with (yr <- Ok (yss, sv2) ;; Ok (ys :: fst yr, snd yr)).
    eapply BE_cons; [exact Eq|eapply server_exec_exists; [|exact Ew]|].
    + eapply process_batch_det; [exact Hf|exact Hh|reflexivity].
    + apply IH; [|exact Em]. rewrite (proj1 (with_server_cx _ _ _ _ Ew)). exact Hf.
Qed.
Lemma session_exists pool pref fft cl nh dm t rqs : forall j sv x, fft_size (srv_cx sv) fft ->
  session pool fft cl nh dm t j sv rqs = Ok x -> session_exec pool pref fft cl nh dm t j sv rqs (Ok x).
Proof.
  induction rqs as [|rq rqs IH]; intros j sv x Hf; cbn [session].
  - intros H; injection H as <-. constructor.
  - destruct (ask cl nh rq (dm j) (t j)) as [qy|] eqn:Eq; [|discriminate]. cbn [bind].
    destruct (server_process_one pool fft sv qy) as [[y sv1]|] eqn:Ew; [|discriminate]. cbn [bind]. unfold server_process_one in Ew.
    destruct (session pool fft cl nh dm t (Datatypes.S j) sv1 rqs) as [[ys sv2]|] eqn:Em; [|discriminate]. cbn [bind]. intros H; injection H as <-.
    change (Ok (y :: ys, sv2)) with (yr <- Ok (ys, sv2) ;; Ok (y :: fst yr, snd yr)).
    eapply SE_cons; [exact Eq|eapply server_exec_exists; [|exact Ew]|].
    + apply process_one_det, Hf.
    + apply IH; [|exact Em]. rewrite (proj1 (with_server_cx _ _ _ _ Ew)). exact Hf.
Qed.

(** Requests of the plain array. *)
Lemma answers_app rqs1 : forall A rqs2, answers A (rqs1 ++ rqs2) = answers A rqs1 ++ answers (final A rqs1) rqs2.
Proof. induction rqs1 as [|rq rqs1 IH]; intros A rqs2; cbn [answers app final fold_left]; [reflexivity|]. f_equal. apply IH. Qed.
Lemma final_app A rqs1 rqs2 : final A (rqs1 ++ rqs2) = final (final A rqs1) rqs2.
Proof. unfold final. apply fold_left_app. Qed.

Section Mixed.
Variable cx : ctx.
Variables (lg : nat) (k : Z).
Hypothesis Hp : params_ok cx lg k.
Notation n := (c_n cx).
Variable fft : fftT.
Variable eps : Z.
Hypothesis Hf : fft_for cx fft eps.
Variable s : poly.
Hypothesis Hs : binary_key n s.
Variables S E : Z.
Hypothesis HS : l1 n (tof s) S.
Variable a : nat.
Hypothesis Ha : (1 <= a <= 63)%nat.
Notation cl := (client_new 1 (2 ^ a) cx s).
Variable shuffle : list nat -> list nat.
Hypothesis Hperm : forall l, Permutation (shuffle l) l.
Variables (hc dom : nat) (nh : nhash).
Hypothesis Hnew : nh_new shuffle hc dom = Ok nh.
Hypothesis Hdim : (hc * dom = 2 ^ a)%nat.
Notation G := (growth cx a S E eps).

Lemma step_nonneg sv st : server_for cx s E sv -> 0 <= step_growth cx a S E eps st.
Proof.
  intros Hsv. destruct st as [rq|rqs]; cbn [step_growth].
  - eapply growth_nonneg; eassumption.
  - destruct Hsv as (Ecx & Hneg & Hb & Hl). destruct Ha as [Ha1 _]. unfold multi_growth.
    pose proof (EPB_nonneg cx lg k Hp fft eps Hf s S E HS (srv_neg sv) Hneg Hb Hl a Ha1) as H1.
    pose proof (EPL_nonneg cx lg k Hp fft eps Hf s S E HS (srv_neg sv) Hneg Hb Hl a Ha1) as H2.
    pose proof (EL_nonneg cx lg k Hp fft eps Hf s S E HS (srv_neg sv) Hneg Hb Hl a Ha1) as H3.
    set (Q := length rqs).
    assert (0 <= ep_bound (c_n cx) (c_base cx) (c_level cx) S 1 (Z.of_nat Q * sel_noise cx a S E eps) eps) as H4.
    { eapply epb_nonneg; try eassumption; [lia|]. apply Z.mul_nonneg_nonneg; [lia|exact H3]. }
    assert (0 <= Z.of_nat Q * ep_sel cx a S E eps) by nia. lia.
Qed.

Lemma mixed_ok pool sts : Forall (mstep_spread pool cx) sts -> forall j sv B D A dm t,
  server_for cx s E sv -> db_holds cx s k B (srv_data sv) 1 (2 ^ a) D -> items_hold nh dom D A -> E <= B ->
  Forall (mstep_ok cx k dom) sts -> (forall j i, plaintext n k (dm j i 0%nat)) -> (forall j i, tape_ok n E (t j i)) ->
  2 * (B + mixed_growth cx a S E eps sts + answer_growth cx a S E eps) < 2 ^ (64 - k) ->
  exists yss sv' D', mixed_session pool fft cl nh dm t j sv sts = Ok (yss, sv') /\
    Forall2 (fun y pt => decrypt_decode_rlwe cx s y = Ok pt) (concat yss) (answers A (all_requests sts)) /\
    Forall2 (fun ys st => length ys = length (requests_of st)) yss sts /\
    server_for cx s E sv' /\ db_holds cx s k (B + mixed_growth cx a S E eps sts) (srv_data sv') 1 (2 ^ a) D' /\
    items_hold nh dom D' (final A (all_requests sts)).
Proof.
  induction sts as [|st sts IH]; intros Hsp j sv B D A dm t Hsv Hdb HA HE Hst Hdm Ht Hbud.
  - exists [], sv, D. cbn. rewrite Z.add_0_r. split; [reflexivity|]. split; [constructor|]. split; [constructor|]. split; [exact Hsv|]. split; assumption.
  - apply Forall_cons_iff in Hst as [[Hst1 Hnd] Hst2]. apply Forall_cons_iff in Hsp as [Hsp1 Hsp2]. specialize (IH Hsp2).
    pose proof (step_nonneg sv st Hsv) as HG.
    assert (forall l, 0 <= mixed_growth cx a S E eps l) as HGs.
    { intros l. unfold mixed_growth. induction l as [|st' l IHl]; cbn [map fold_right]; [lia|]. pose proof (step_nonneg sv st' Hsv). lia. }
    specialize (HGs sts).
    assert (mixed_growth cx a S E eps (st :: sts) = step_growth cx a S E eps st + mixed_growth cx a S E eps sts) as EG by reflexivity.
    rewrite EG in Hbud.
    assert (exists qs ys sv1 D1, ask_step cl nh (dm j) (t j) st = Ok qs /\ with_server sv (step_prog pool fft sv st qs) = Ok (ys, sv1) /\
       Forall2 (fun y pt => decrypt_decode_rlwe cx s y = Ok pt) ys (answers A (requests_of st)) /\ server_for cx s E sv1 /\
       db_holds cx s k (B + step_growth cx a S E eps st) (srv_data sv1) 1 (2 ^ a) D1 /\ items_hold nh dom D1 (final A (requests_of st))) as
       (qs & ys & sv1 & D1 & Eq & Ew & HF & Hsv1 & Hdb1 & HA1).
    { destruct st as [rq|rqs]; cbn [requests_of step_growth mstep_spread] in *.
      - apply Forall_cons_iff in Hst1 as [Hrq _].
        destruct (query_step cx lg k Hp fft eps Hf s (binary_key_wf _ _ Hs) S E HS a Ha shuffle Hperm hc dom nh Hnew Hdim pool Hsp1 sv B D rq (dm j 0%nat) (t j 0%nat) Hsv Hdb HE Hrq (Hdm j 0%nat) (Ht j 0%nat))
          as (c & qy & y & sv1 & Eh & Hc & Ea & E1 & Hy & Hsv1 & Hdb1).
        exists [qy], [y], sv1. eexists. unfold ask_step. cbn [requests_of ask_all]. rewrite Ea. cbn [bind].
        split; [reflexivity|]. split; [|split; [|split; [exact Hsv1|split; [exact Hdb1|]]]].
        + unfold with_server. cbn [step_prog]. rewrite srun_bind_ret. unfold server_process_one, with_server in E1.
          destruct (srun _ (srv_data sv)) as [[y'|] m1]; [|discriminate]. cbn [bind]. injection E1 as <- <-. reflexivity.
        + cbn [answers]. constructor; [|constructor]. rewrite <- (HA _ _ (proj1 Hrq) Eh). eapply holds_decrypts; [exact Hp|exact Hy|lia].
        + cbn [final fold_left]. eapply items_step; try eassumption. apply Hrq.
      - destruct (multi_C44 cx lg k Hp fft eps Hf s (binary_key_wf _ _ Hs) S E HS a Ha shuffle Hperm hc dom nh Hnew Hdim pool sv B D A rqs (dm j) (t j) Hsv Hdb HA HE Hst1 Hnd (Hdm j) (Ht j))
          as (qs & ys & sv1 & Eq & Er & Hys & Hsv1 & Hdb1 & HA1); [lia|exact Hsp1|].
        exists qs, ys, sv1. eexists. split; [exact Eq|]. split; [exact Er|]. split; [exact Hys|]. split; [exact Hsv1|]. split; [exact Hdb1|exact HA1]. }
    destruct (IH (Datatypes.S j) sv1 (B + step_growth cx a S E eps st) D1 (final A (requests_of st)) dm t Hsv1 Hdb1 HA1) as (yss & sv2 & D2 & E2 & HF2 & HL & Hsv2 & Hdb2 & HA2); try assumption; [lia|lia|].
    exists (ys :: yss), sv2, D2. cbn [mixed_session]. rewrite Eq. cbn [bind]. rewrite Ew. cbn [bind]. rewrite E2. cbn [bind]. split; [reflexivity|].
    change (all_requests (st :: sts)) with (requests_of st ++ all_requests sts). rewrite answers_app, final_app. cbn [concat]. split; [apply Forall2_app; assumption|].
    split; [constructor; [|exact HL]|].
    + clear - HF. assert (forall A rqs, length (answers A rqs) = length rqs) as L. { intros A0 rqs; revert A0; induction rqs as [|r rqs IHr]; intros; cbn; [reflexivity|]. rewrite IHr; reflexivity. }
      rewrite <- (L A). clear L. induction HF; cbn; congruence.
    + split; [exact Hsv2|]. split; [|exact HA2]. rewrite EG, Z.add_assoc. exact Hdb2.
Qed.
End Mixed.
