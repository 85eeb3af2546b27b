(** * Property C73: what the server sees of a history does not depend on what is asked.
    [SpecView] says what a history is, what is public about it and what the server sees of it. *)
From Coq Require Import Permutation.
From Verif Require Import MBase MUtils MCodec MPoly MRlwe MHash MTree MEncTree MSched MOram.
From Verif Require Import SpecRing SpecLwe SpecOram SpecBatch SpecSched SpecShape SpecConc SpecView.
From Verif Require Import PfPoly PfRlwe PfNear PfSched PfSched2 PfSched3 PfOram1 PfDet1 PfDet2 PfDet3 PfTrace1 PfTrace2 PfEnc4 PfHash PfOram4 LOram PfQuery LSched
  PfOram10 SpecReject PfReject Demo PEnc POram PBatch PSched PQuery.
Local Open Scope nat_scope.

(** The courses are the executions: recording what is seen neither adds nor loses any. *)
Theorem C73_courses_are_executions : forall A pref (p : sprog A) m r m', sexec pref p m r m' <-> exists c, scourse pref p m c r m'.
Proof.
  intros A pref p. induction p as [a|e|B tasks k IH|x k IH]; intros m r m'; cbn [sexec]; split.
  - intros H. exists CEnd. exact H.
  - intros [c H]. destruct c; cbn in H; try contradiction. exact H.
  - intros H. exists CEnd. exact H.
  - intros [c H]. destruct c; cbn in H; try contradiction. exact H.
  - intros [(rs & m1 & Hx & Hk)|(e & Hx & ->)].
    + inversion Hx as [queues ws rss rs' m1' Hp Hst Hr Hpr|]; subst. apply IH in Hk as [c Hc]. apply steps_observed in Hst as [obs Ho].
      exists (CLoop (map (map fst) queues) obs c). exists queues, ws, m1. split; [reflexivity|]. split; [exact Hp|]. split; [exact Ho|]. right. eauto 6.
    + inversion Hx as [|queues ws m1' e' w Hp Hst Hf Hw Ew]; subst. apply steps_observed in Hst as [obs Ho].
      exists (CLoop (map (map fst) queues) obs CEnd). exists queues, ws, m'. split; [reflexivity|]. split; [exact Hp|]. split; [exact Ho|]. left. exists w, e. auto 6.
  - intros [c H]. destruct c as [|qn obs rest|]; cbn in H; try contradiction. destruct H as (queues & ws & m1 & <- & Hp & Ho & Hr).
    assert (steps pref (start queues) m ws m1) as Hst by (apply steps_observed; eauto).
    destruct Hr as [(w & e & Hf & Hw & Ew & -> & -> & ->)|(rss & rs & Er & Hpr & Hk)].
    + right. exists e. split; [eapply Par_panic; eassumption|reflexivity].
    + left. exists rs, m1. split; [eapply Par_ok; eassumption|]. apply IH. eauto.
  - intros (t & Ht & Hk). apply IH in Hk as [c Hc]. exists (CRed t c). split; assumption.
  - intros [c H]. destruct c as [| |t rest]; cbn in H; try contradiction. destruct H as [Ht Hk]. exists t. split; [exact Ht|]. apply IH. eauto.
Qed.
Print Assumptions C73_courses_are_executions.

Lemma scourse_sim {A1 A2} (R : A1 -> A2 -> Prop) pref p p' : ssim R p p' -> forall m m' c r m2, msim m m' -> scourse pref p m c r m2 ->
  exists r' m2', scourse pref p' m' c r' m2' /\ rres R r r' /\ msim m2 m2'.
Proof.
  induction 1 as [a b H|e e'|B1 B2 Q ts ts' k k' Ht Hk IH|x k k' Hk IH]; intros m m' c r m2 Hm; cbn [scourse].
  - destruct c; try contradiction. intros [-> ->]. exists (Ok b), m'. auto.
  - destruct c; try contradiction. intros [-> ->]. exists (Panic e'), m'. cbn. auto.
  - destruct c as [|qn obs rest|]; try contradiction. intros (queues & ws & m1 & <- & Hp & Ho & Hr).
    destruct (queues_sim (psim Q) queues ts ts' Ht Hp) as (queues' & Hq & Hp' & Eq).
    destruct (observed_sim _ pref _ _ _ _ _ Ho _ m' (start_sim Q _ _ Hq) Hm) as (ws' & m1' & Ho' & Hw & Hm1).
    destruct Hr as [(w & e & Hf & Hin & Ew & -> & -> & ->)|(rss & rs & Ew & Hpr & Hrest)].
    + destruct (F2_In _ _ _ _ Hw Hin) as (w' & Hin' & Hs & _). rewrite Ew in Hs. inversion Hs as [|e0 e' E1 E2| | | | |]; subst.
      exists (Panic e'), m1'. split; [|split; [exact I|exact Hm1]]. exists queues', ws', m1'. split; [exact Eq|]. split; [exact Hp'|]. split; [exact Ho'|].
      left. exists w', e'. split; [|auto 6].
      intros w0 Hw0. destruct (F2_In _ _ _ _ (F2_flip _ _ _ Hw) Hw0) as (w1 & Hin1 & Hs1 & _). specialize (Hf w1 Hin1).
      inversion Hs1 as [a b Hab Ea Eb| | | | | |]; cbn; try discriminate; exfalso; apply Hf; match goal with H : _ = w_prog w1 |- _ => rewrite <- H; reflexivity end.
    + assert (exists rss', map (fun w => w_prog w) ws' = map PRet rss' /\ Forall2 (Forall2 (numbered Q)) rss rss') as (rss' & Ew' & Hrs).
      { clear - Ew Hw. revert rss Ew. induction Hw as [|w w' ws ws' [Hs _] Hw IH]; intros rss Ew; destruct rss as [|r rss]; try discriminate; [exists []; split; [reflexivity|constructor]|].
        cbn in Ew. injection Ew as E1 E2. destruct (IH rss E2) as (rss' & E' & HF). rewrite E1 in Hs. inversion Hs as [a b Hab Ea Eb| | | | | |]; subst.
        exists (b :: rss'). split; [cbn; rewrite E', Eb; reflexivity|constructor; assumption]. }
      destruct (Permutation_Forall2 Hpr (concat_F2 _ _ _ Hrs)) as (l2 & Hp2 & HF). apply F2_numbered_inv in HF as (rs' & -> & HFr).
      destruct (IH rs rs' HFr _ _ _ _ _ Hm1 Hrest) as (r' & m2' & Hc & Hr & Hm2). exists r', m2'. split; [|auto].
      exists queues', ws', m1'. split; [exact Eq|]. split; [exact Hp'|]. split; [exact Ho'|]. right. eauto.
  - destruct c as [| |t rest]; try contradiction. intros [E H]. destruct (IH t _ _ _ _ _ Hm H) as (r' & m2' & Hc & Hr & Hm2). exists r', m2'. split; [|auto]. split; assumption.
Qed.

Lemma hstep_prog_sim pool fft nh sv1 sv2 kd qs1 qs2 : fft_size (srv_cx sv1) fft -> srv_cx sv1 = srv_cx sv2 -> db_shape (srv_data sv1) = db_shape (srv_data sv2) ->
  map query_shape qs1 = map query_shape qs2 -> ssim (fun _ _ => True) (hstep_prog pool fft nh sv1 kd qs1) (hstep_prog pool fft nh sv2 kd qs2).
Proof.
  intros Hf Hcx Hm Hq. apply shapes_sim in Hq. assert (srv_rows sv1 = srv_rows sv2) as Hr by (apply (f_equal (@length _)) in Hm; unfold db_shape in Hm; rewrite !map_length in Hm; exact Hm).
  assert (forall A1 A2 (R : A1 -> A2 -> Prop) p p', ssim R p p' -> ssim (fun _ _ => True) p p') as Hany.
  { intros A1 A2 R p p' H. induction H; econstructor; eauto. }
  destruct kd as [|count|]; cbn [hstep_prog].
  - destruct Hq as [|q1 q2 ? ? Hq1 Hq]; [constructor|]. destruct Hq as [|? ? ? ? Hq2 Hq]; [|constructor].
    rewrite <- Hcx. eapply ssim_bind; [apply process_one_sim; [exact Hf|exact Hq1]|]. intros a b _. constructor. exact I.
  - rewrite <- Hcx. eapply Hany. apply process_multi_sim; [exact Hf|exact Hq].
  - rewrite <- Hcx, <- Hr. eapply Hany. apply process_batch_sim; [exact Hf|exact Hq].
Qed.

(** ** The queries of a step have public shapes, and masks that only depend on the randomness. *)
Definition queries_like (cl : client) (ts : list tape) (qs : list query) : Prop :=
  map query_shape qs = repeat (public_query (cl_cx cl) (cl_cols cl)) (length ts) /\ Forall2 (fun qy t => made cl qy t) qs ts.
Lemma like_same cl ts qs1 qs2 : queries_like cl ts qs1 -> queries_like cl ts qs2 -> map query_shape qs1 = map query_shape qs2 /\ map query_masks qs1 = map query_masks qs2.
Proof.
  intros [S1 M1] [S2 M2]. split; [congruence|]. clear S1 S2. revert qs2 M2. induction M1 as [|q1 t qs1 ts H1 M1 IH]; intros qs2 M2; inversion M2 as [|q2 ? qs2' ? H2 M2']; subst; [reflexivity|].
  cbn [map]. f_equal; [eapply made_masks; eassumption|apply IH; assumption].
Qed.
Lemma mapM_F2 {A B} (f : A -> res B) l : forall out, mapM f l = Ok out -> Forall2 (fun x y => f x = Ok y) l out.
Proof.
  induction l as [|x l IH]; intros out H; cbn [mapM] in H.
  - injection H as <-. constructor.
  - apply bind_ok in H as (y & Hy & H). apply bind_ok in H as (ys & Hys & H). injection H as <-. constructor; [exact Hy|apply IH; exact Hys].
Qed.

Section Client.
Context (cl : client) (nh : nhash) (Hs : length (cl_sk cl) = c_n (cl_cx cl)) (Hc : 0 < cl_cols cl) (Hq : (Z.of_nat (cl_cols cl) < q)%Z).

Lemma batch_like br dm t qs : (forall r, length (dm r) = c_n (cl_cx cl)) -> draws_fit (c_n (cl_cx cl)) t -> data_fits (c_n (cl_cx cl)) (HBatch br) ->
  ask_batch cl nh br dm t = Ok qs -> queries_like cl (map (split t) (seq 0 (cl_rows cl))) qs.
Proof.
  intros Hd Ht Hfit H. split.
  - rewrite map_length, seq_length. destruct br as [is|is data]; cbn [ask_batch data_fits] in *; [eapply C52_read_batch_shape|eapply C52_write_batch_shape]; eassumption.
  - destruct br as [is|is data]; cbn [ask_batch] in H; unfold gen_read_query_batch, gen_write_query_batch in H; apply bind_ok in H as (mp & _ & H); apply mapM_F2 in H;
      induction H as [|r qy l qs' E H IH]; cbn [map]; constructor; auto; destruct (hget mp r) as [rc|];
      first [exists (fst rc), (dm r); left; exact E|exists 0, (dm r); left; exact E|exists (fst rc), data; right; exact E].
Qed.
Lemma one_like rq dm t qy : (forall r, length (dm r) = c_n (cl_cx cl)) -> draws_fit (c_n (cl_cx cl)) t -> data_fits (c_n (cl_cx cl)) (HOne rq) ->
  ask cl nh rq dm t = Ok qy -> query_shape qy = public_query (cl_cx cl) (cl_cols cl) /\ made cl qy (split t 0).
Proof.
  intros Hd Ht Hfit H.
  assert (exists br qs, ask_batch cl nh br dm t = Ok qs /\ remove0 qs = Ok qy /\ data_fits (c_n (cl_cx cl)) (HBatch br)) as (br & qs & Hb & Hr & Hbf).
  { destruct rq as [i|i data]; cbn [ask data_fits] in *; unfold gen_read_query_one, gen_write_query_one in H; apply bind_ok in H as (qs & H1 & H2);
      [exists (BRead [i]), qs|exists (BWrite [i] data), qs]; auto. }
  destruct (batch_like br dm t qs Hd Ht Hbf Hb) as [HS HM]. destruct qs as [|q0 qs]; [discriminate Hr|]. cbn [remove0] in Hr. injection Hr as ->.
  destruct (cl_rows cl) as [|rows]; [discriminate HS|]. cbn [seq map length repeat] in HS, HM. inversion HM; subst. split; [|assumption].
  exact (f_equal (hd (query_shape qy)) HS).
Qed.
Lemma all_like rqs : forall dm t j qs, (forall i r, length (dm i r) = c_n (cl_cx cl)) -> (forall i, draws_fit (c_n (cl_cx cl)) (t i)) -> data_fits (c_n (cl_cx cl)) (HMany rqs) ->
  ask_all cl nh dm t j rqs = Ok qs -> queries_like cl (map (fun i => split (t i) 0) (seq j (length rqs))) qs.
Proof.
  induction rqs as [|rq rqs IH]; intros dm t j qs Hd Ht Hfit H; cbn [ask_all] in H.
  - injection H as <-. split; [reflexivity|constructor].
  - apply bind_ok in H as (qy & H1 & H). apply bind_ok in H as (qs' & H2 & H). injection H as <-. cbn [data_fits] in Hfit. inversion Hfit as [|? ? Hf1 Hf2]; subst.
    destruct (one_like rq (dm j) (t j) qy (Hd j) (Ht j) Hf1 H1) as [HS HM]. destruct (IH dm t (S j) qs' Hd Ht Hf2 H2) as [HS' HM'].
    split; [cbn [length seq map repeat]; f_equal; assumption|]. cbn [length seq map]. constructor; assumption.
Qed.
Definition step_tapes (t : nat -> tape) (kd : kind) : list tape :=
  match kd with
  | KOne => [split (t 0) 0]
  | KMany count => map (fun i => split (t i) 0) (seq 0 count)
  | KBatch => map (split (t 0)) (seq 0 (cl_rows cl))
  end.
Lemma hstep_like st dm t qs : (forall i r, length (dm i r) = c_n (cl_cx cl)) -> (forall i, draws_fit (c_n (cl_cx cl)) (t i)) -> data_fits (c_n (cl_cx cl)) st ->
  ask_hstep cl nh dm t st = Ok qs -> queries_like cl (step_tapes t (kind_of st)) qs.
Proof.
  intros Hd Ht Hfit H. destruct st as [rq|rqs|br]; cbn [ask_hstep kind_of step_tapes] in *.
  - apply bind_ok in H as (qy & H1 & H). injection H as <-. destruct (one_like rq (dm 0) (t 0) qy (Hd 0) (Ht 0) Hfit H1) as [HS HM].
    split; [cbn; f_equal; exact HS|constructor; [exact HM|constructor]].
  - apply all_like with (dm := dm); assumption.
  - eapply batch_like with (br := br) (dm := dm 0); auto.
Qed.
End Client.

Section Two.
Context (pool pref : bool) (fft : fftT) (cl : client) (nh : nhash) (dm1 dm2 : nat -> nat -> nat -> poly) (t : nat -> nat -> tape).
Context (Hs : length (cl_sk cl) = c_n (cl_cx cl)) (Hc : 0 < cl_cols cl) (Hq : (Z.of_nat (cl_cols cl) < q)%Z) (Hf : fft_size (cl_cx cl) fft).
Context (Hd1 : forall j i r, length (dm1 j i r) = c_n (cl_cx cl)) (Hd2 : forall j i r, length (dm2 j i r) = c_n (cl_cx cl)) (Ht : forall j i, draws_fit (c_n (cl_cx cl)) (t j i)).

Lemma history_same sts1 : forall sts2 j sv1 sv2 v, srv_cx sv1 = cl_cx cl -> srv_cx sv2 = cl_cx cl -> db_shape (srv_data sv1) = db_shape (srv_data sv2) ->
  map kind_of sts1 = map kind_of sts2 -> Forall (data_fits (c_n (cl_cx cl))) sts1 -> Forall (data_fits (c_n (cl_cx cl))) sts2 ->
  accepted cl nh dm1 t j sts1 -> accepted cl nh dm2 t j sts2 ->
  history_seen pool pref fft cl nh dm1 t j sv1 sts1 v -> history_seen pool pref fft cl nh dm2 t j sv2 sts2 v.
Proof.
  induction sts1 as [|st1 sts1 IH]; intros [|st2 sts2] j sv1 sv2 v C1 C2 Hm Hk F1 F2 A1 A2 H; try discriminate.
  - inversion H; subst. constructor.
  - cbn [map] in Hk. injection Hk as Hk1 Hk2. inversion F1 as [|? ? F1a F1b]; subst. inversion F2 as [|? ? F2a F2b]; subst.
    destruct (A1 0 st1 eq_refl) as (qs1 & E1). destruct (A2 0 st2 eq_refl) as (qs2 & E2). rewrite Nat.add_0_r in E1, E2.
    pose proof (hstep_like cl nh Hs Hc Hq st1 (dm1 j) (t j) qs1 (Hd1 j) (Ht j) F1a E1) as L1.
    pose proof (hstep_like cl nh Hs Hc Hq st2 (dm2 j) (t j) qs2 (Hd2 j) (Ht j) F2a E2) as L2. rewrite <- Hk1 in L2.
    destruct (like_same _ _ _ _ L1 L2) as [ES EM].
    assert (forall c b, see st1 qs1 c b = see st2 qs2 c b) as Esee by (intros c b; unfold see; rewrite Hk1, ES, EM; reflexivity).
    assert (ssim (fun _ _ => True) (hstep_prog pool fft nh sv1 (kind_of st1) qs1) (hstep_prog pool fft nh sv2 (kind_of st2) qs2)) as Hsim.
    { rewrite <- Hk1. apply hstep_prog_sim; [rewrite C1; exact Hf|congruence|exact Hm|exact ES]. }
    inversion H as [|? ? ? ? e E|? ? ? ? qs c e m E Hx|? ? ? ? qs c ys m v' E Hx Hrest]; subst; rewrite E1 in E; try discriminate E; injection E as <-.
    + destruct (scourse_sim _ pref _ _ Hsim _ (srv_data sv2) _ _ _ Hm Hx) as (r' & m2' & Hx' & Hr & Hm2). destruct r' as [y'|e']; [contradiction Hr|].
      rewrite Esee. eapply HS_panic; eassumption.
    + destruct (scourse_sim _ pref _ _ Hsim _ (srv_data sv2) _ _ _ Hm Hx) as (r' & m2' & Hx' & Hr & Hm2). destruct r' as [ys'|e']; [|contradiction Hr].
      rewrite Esee. eapply HS_step; [exact E2|exact Hx'|].
      eapply (IH sts2 (S j) {| srv_data := m; srv_neg := srv_neg sv1; srv_cx := srv_cx sv1 |}); try eassumption; cbn [srv_cx srv_data]; auto.
      * intros i st Hi. replace (S j + i) with (j + S i) by lia. apply A1. exact Hi.
      * intros i st Hi. replace (S j + i) with (j + S i) by lia. apply A2. exact Hi.
Qed.
End Two.

(** Two histories of the same public form, with the same randomness: whatever the server can see of one, step
    by step - the shapes and the random parts of the queries, every lock and memory access of every worker in
    every loop, whether it panics - it can see of the other.  The histories may differ in what they read and
    write, where, in the number of items of a batch and in the data; the databases may hold different things. *)
Theorem C73_history_oblivious : forall pool pref fft cl nh dm1 dm2 t j sv1 sv2 sts1 sts2 v,
  length (cl_sk cl) = c_n (cl_cx cl) -> 0 < cl_cols cl -> (Z.of_nat (cl_cols cl) < 2 ^ 64)%Z -> fft_size (cl_cx cl) fft ->
  (forall j i r, length (dm1 j i r) = c_n (cl_cx cl)) -> (forall j i r, length (dm2 j i r) = c_n (cl_cx cl)) -> (forall j i, draws_fit (c_n (cl_cx cl)) (t j i)) ->
  srv_cx sv1 = cl_cx cl -> srv_cx sv2 = cl_cx cl -> db_shape (srv_data sv1) = db_shape (srv_data sv2) ->
  map kind_of sts1 = map kind_of sts2 -> Forall (data_fits (c_n (cl_cx cl))) sts1 -> Forall (data_fits (c_n (cl_cx cl))) sts2 ->
  accepted cl nh dm1 t j sts1 -> accepted cl nh dm2 t j sts2 ->
  (history_seen pool pref fft cl nh dm1 t j sv1 sts1 v <-> history_seen pool pref fft cl nh dm2 t j sv2 sts2 v).
Proof.
  intros pool pref fft cl nh dm1 dm2 t j sv1 sv2 sts1 sts2 v Hs Hc Hq Hf Hd1 Hd2 Ht C1 C2 Hm Hk F1 F2 A1 A2.
  split; intros H; eapply history_same; try exact H; eauto.
Qed.
Print Assumptions C73_history_oblivious.

(** Something is seen of every history. *)
Theorem C73_something_is_seen : forall pool pref fft cl nh dm t sts j sv, exists v, history_seen pool pref fft cl nh dm t j sv sts v.
Proof.
  intros pool pref fft cl nh dm t sts. induction sts as [|st sts IH]; intros j sv; [exists []; constructor|].
  destruct (ask_hstep cl nh (dm j) (t j) st) as [qs|e] eqn:E; [|exists []; eapply HS_refused; exact E].
  assert (exists r m', sexec pref (hstep_prog pool fft nh sv (kind_of st) qs) (srv_data sv) r m') as (r & m' & Hx).
  { destruct (kind_of st) as [|c|]; cbn [hstep_prog].
    - destruct qs as [|qy [|q2 qs]]; [exists (Panic PExplicit), (srv_data sv); split; reflexivity| |exists (Panic PExplicit), (srv_data sv); split; reflexivity].
      apply (snp_realisable [] _ (snp_call [] pool fft sv (CallOne qy)) (srv_data sv) pref).
    - apply (snp_realisable [] _ (snp_call [] pool fft sv (CallMulti qs)) (srv_data sv) pref).
    - apply (snp_realisable [] _ (snp_call [] pool fft sv (CallBatch qs nh)) (srv_data sv) pref). }
  apply C73_courses_are_executions in Hx as (c & Hc). destruct r as [ys|e].
  - destruct (IH (S j) {| srv_data := m'; srv_neg := srv_neg sv; srv_cx := srv_cx sv |}) as (v & Hv).
    eexists. eapply HS_step; eassumption.
  - eexists. eapply HS_panic; eassumption.
Qed.
Print Assumptions C73_something_is_seen.

(** ** From a fresh setup: requests to existing items are accepted. *)
Section Setup.
Context (cx : ctx) (lg : nat) (k : Z) (fft : fftT) (eps : Z) (s : poly) (S E : Z) (a rows : nat) (nh : nhash) (hc dom : nat).
Context (Hset : setting cx lg k fft eps s S) (Ha : 1 <= a <= 63) (Hrows : 0 < rows) (Hh : hash_for nh hc dom) (Hdim : rows * 2 ^ a = hc * dom).

Lemma batch_accepted br dm t : brequest_ok cx k dom br -> (forall r, plaintext (c_n cx) k (dm r)) -> tape_ok (c_n cx) E t ->
  exists qs, ask_batch (client_new rows (2 ^ a) cx s) nh br dm t = Ok qs /\ length qs = rows.
Proof.
  intros Hb Hdm Ht. destruct Hset as (Hp & Hf & Hs & HS). destruct Hh as (shuffle & Hperm & Hnew).
  destruct (batch_queries cx lg k Hp s (binary_key_wf _ _ Hs) E a Ha rows Hrows shuffle Hperm hc dom nh Hnew Hdim br dm t Hb Hdm Ht) as (mp & qs & _ & _ & E1 & E2 & _). eauto.
Qed.
Lemma one_accepted rq dm t : request_ok cx k dom rq -> (forall r, plaintext (c_n cx) k (dm r)) -> tape_ok (c_n cx) E t ->
  exists qy, ask (client_new rows (2 ^ a) cx s) nh rq dm t = Ok qy.
Proof.
  intros [Hi Hd] Hdm Ht. destruct rq as [i|i data]; cbn [target ask] in *; unfold gen_read_query_one, gen_write_query_one.
  - destruct (batch_accepted (BRead [i]) dm t) as (qs & Eq & L); [split; [constructor; [exact Hi|constructor]|exact I]|exact Hdm|exact Ht|]. cbn [ask_batch] in Eq. rewrite Eq. cbn [bind].
    destruct qs as [|qy qs]; [cbn in L; lia|]. exists qy. reflexivity.
  - destruct (batch_accepted (BWrite [i] data) dm t) as (qs & Eq & L); [split; [constructor; [exact Hi|constructor]|exact Hd]|exact Hdm|exact Ht|]. cbn [ask_batch] in Eq. rewrite Eq. cbn [bind].
    destruct qs as [|qy qs]; [cbn in L; lia|]. exists qy. reflexivity.
Qed.
Lemma hstep_accepted st dm t : hstep_ok cx k dom st -> (forall i r, plaintext (c_n cx) k (dm i r)) -> (forall i, tape_ok (c_n cx) E (t i)) ->
  exists qs, ask_hstep (client_new rows (2 ^ a) cx s) nh dm t st = Ok qs.
Proof.
  intros Hst Hdm Ht. destruct st as [rq|rqs|br]; cbn [hstep_ok ask_hstep] in *.
  - destruct (one_accepted rq (dm 0) (t 0) Hst (Hdm 0) (Ht 0)) as (qy & ->). cbn. eauto.
  - enough (forall j, exists qs, ask_all (client_new rows (2 ^ a) cx s) nh dm t j rqs = Ok qs) as H by apply H.
    induction Hst as [|rq rqs Hrq _ IH]; intros j; cbn [ask_all]; [eauto|].
    destruct (one_accepted rq (dm j) (t j) Hrq (Hdm j) (Ht j)) as (qy & ->). cbn [bind]. destruct (IH (Datatypes.S j)) as (qs & ->). cbn. eauto.
  - destruct (batch_accepted br (dm 0) (t 0) Hst (Hdm 0) (Ht 0)) as (qs & -> & _). eauto.
Qed.
Lemma ok_fits st : hstep_ok cx k dom st -> data_fits (c_n cx) st.
Proof.
  destruct st as [rq|rqs|br]; cbn [hstep_ok data_fits].
  - intros [_ H]. destruct rq; [exact I|apply H].
  - apply Forall_impl. intros rq [_ H]. destruct rq; [exact I|apply H].
  - intros [_ H]. destruct br; [exact I|apply H].
Qed.
End Setup.
Lemma tape_fits n E t : tape_ok n E t -> draws_fit n t.
Proof. intros H i. destruct (H i) as ([L1 _] & [L2 _] & _). split; assumption. Qed.

(** Two users of the same deployment (same key, hash table and dimensions), with different items, make different
    requests of the same kinds: the server sees the same.  [hstep_ok]: existing items, proper data. *)
Theorem C73_setup_oblivious : forall pool pref cx lg k fft eps s S E a rows nh hc dom gp1 gp2 t01 t02 dm1 dm2 t sts1 sts2,
  setting cx lg k fft eps s S -> fft_size cx fft -> 1 <= a <= 63 -> 0 < rows -> hash_for nh hc dom -> rows * 2 ^ a = hc * dom ->
  (forall i, plaintext (c_n cx) k (gp1 i)) -> (forall i, plaintext (c_n cx) k (gp2 i)) -> tape_ok (c_n cx) E t01 -> tape_ok (c_n cx) E t02 ->
  (forall j i r, plaintext (c_n cx) k (dm1 j i r)) -> (forall j i r, plaintext (c_n cx) k (dm2 j i r)) -> (forall j i, tape_ok (c_n cx) E (t j i)) ->
  Forall (hstep_ok cx k dom) sts1 -> Forall (hstep_ok cx k dom) sts2 -> map kind_of sts1 = map kind_of sts2 ->
  exists cl sv1 sv2 pts1 pts2, setup_random_oram rows (2 ^ a) nh cx s gp1 t01 = Ok (cl, sv1, pts1) /\ setup_random_oram rows (2 ^ a) nh cx s gp2 t02 = Ok (cl, sv2, pts2) /\
    forall v, history_seen pool pref fft cl nh dm1 t 0 sv1 sts1 v <-> history_seen pool pref fft cl nh dm2 t 0 sv2 sts2 v.
Proof.
  intros pool pref cx lg k fft eps s S E a rows nh hc dom gp1 gp2 t01 t02 dm1 dm2 t sts1 sts2 Hset Hf Ha Hrows Hh Hdim Hg1 Hg2 T1 T2 Hd1 Hd2 Ht O1 O2 Hk.
  pose proof Hset as (Hp & Hff & Hs & HS). pose proof Hh as (shuffle & Hperm & Hnew).
  destruct (setup_C40 cx lg k Hp s E Hs rows (2 ^ a) shuffle Hperm hc dom nh Hnew gp1 Hg1 t01 T1 ltac:(lia)) as (sv1 & D1 & E1 & (C1 & _) & (L1 & R1 & B1) & _).
  destruct (setup_C40 cx lg k Hp s E Hs rows (2 ^ a) shuffle Hperm hc dom nh Hnew gp2 Hg2 t02 T2 ltac:(lia)) as (sv2 & D2 & E2 & (C2 & _) & (L2 & R2 & B2) & _).
  eexists (client_new rows (2 ^ a) cx s), sv1, sv2, _, _. split; [exact E1|]. split; [exact E2|]. intros v.
  assert (forall sv D, length (srv_data sv) = rows -> Forall (fun row => length row = 2 ^ a) (srv_data sv) ->
    (forall r c row v, nth_error (srv_data sv) r = Some row -> nth_error row c = Some v -> holds cx s k E v (D r c)) ->
    db_shape (srv_data sv) = repeat (repeat (c_n cx, c_n cx) (2 ^ a)) rows) as Hshape.
  { intros sv D L R B. unfold db_shape. rewrite <- L.
    assert (forall row, In row (srv_data sv) -> map ct_shape row = repeat (c_n cx, c_n cx) (2 ^ a)) as Hrow.
    { intros row Hin. rewrite Forall_forall in R. rewrite <- (R row Hin). apply In_nth_error in Hin as (r & Hr).
      assert (forall v, In v row -> ct_shape v = (c_n cx, c_n cx)) as Hv.
      { intros v0 Hv. apply In_nth_error in Hv as (c & Hc). destruct (B r c row v0 Hr Hc) as [[[W1 _] [W2 _]] _]. unfold ct_shape. congruence. }
      clear - Hv. induction row as [|x row IH]; [reflexivity|]. cbn [map length repeat]. f_equal; [apply Hv; left; reflexivity|apply IH; intros; apply Hv; right; assumption]. }
    clear - Hrow. induction (srv_data sv) as [|x l IH]; [reflexivity|]. cbn [map length repeat]. f_equal; [apply Hrow; left; reflexivity|apply IH; intros; apply Hrow; right; assumption]. }
  apply C73_history_oblivious; cbn [cl_sk cl_cx cl_cols client_new].
  - apply (binary_key_wf _ _ Hs).
  - pose proof (Nat.pow_nonzero 2 a ltac:(lia)). lia.
  - rewrite Nat2Z.inj_pow. apply Z.pow_lt_mono_r; lia.
  - exact Hf.
  - intros j i r. apply Hd1.
  - intros j i r. apply Hd2.
  - intros j i. eapply tape_fits, Ht.
  - exact C1.
  - exact C2.
  - rewrite (Hshape sv1 D1 L1 R1 B1), (Hshape sv2 D2 L2 R2 B2). reflexivity.
  - exact Hk.
  - eapply Forall_impl; [|exact O1]. intros st. apply ok_fits.
  - eapply Forall_impl; [|exact O2]. intros st. apply ok_fits.
  - intros i st Hi. eapply hstep_accepted; try eassumption; [|apply Hd1|apply Ht]. rewrite Forall_forall in O1. apply O1. eapply nth_error_In; exact Hi.
  - intros i st Hi. eapply hstep_accepted; try eassumption; [|apply Hd2|apply Ht]. rewrite Forall_forall in O2. apply O2. eapply nth_error_In; exact Hi.
Qed.
Print Assumptions C73_setup_oblivious.

(** *** An instance: reading both items in a batch, then writing one, against writing one, then reading it. *)
Example C73_applies : forall pref v, exists cl sv1 sv2 pts1 pts2,
  setup_random_oram 3 (2 ^ 1) demo_nh3 demo_cx demo_s (fun i => [Z.of_nat (i mod 2); 1; 0; 1]%Z) demo_tape = Ok (cl, sv1, pts1) /\
  setup_random_oram 3 (2 ^ 1) demo_nh3 demo_cx demo_s (fun _ => [1; 1; 1; 1]%Z) demo_tape = Ok (cl, sv2, pts2) /\
  (history_seen false pref (exact_fft 4) cl demo_nh3 (fun _ _ _ => [0; 1; 1; 1]%Z) (fun _ _ => demo_tape) 0 sv1 [HBatch (BRead [1; 0]); HBatch (BWrite [1] [1; 1; 0; 0]%Z)] v <->
   history_seen false pref (exact_fft 4) cl demo_nh3 (fun _ _ _ => [1; 0; 0; 0]%Z) (fun _ _ => demo_tape) 0 sv2 [HBatch (BWrite [0] [0; 1; 0; 0]%Z); HBatch (BRead [0])] v).
Proof.
  intros pref v.
  assert (forall d, length d = 4 -> Forall (fun x => 0 <= x < 2)%Z d -> plaintext (c_n demo_cx) 1 d) as Hpt by (intros d H1 H2; split; assumption).
  destruct (C73_setup_oblivious false pref demo_cx 2 1 (exact_fft 4) 0 demo_s 3 3 1 3 demo_nh3 3 2 (fun i => [Z.of_nat (i mod 2); 1; 0; 1]%Z) (fun _ => [1; 1; 1; 1]%Z) demo_tape demo_tape
    (fun _ _ _ => [0; 1; 1; 1]%Z) (fun _ _ _ => [1; 0; 0; 0]%Z) (fun _ _ => demo_tape) [HBatch (BRead [1; 0]); HBatch (BWrite [1] [1; 1; 0; 0]%Z)] [HBatch (BWrite [0] [0; 1; 0; 0]%Z); HBatch (BRead [0])])
    as (cl & sv1 & sv2 & pts1 & pts2 & E1 & E2 & H).
  - exact demo_setting.
  - exact exact_fft_size.
  - lia.
  - lia.
  - exact demo_hash3.
  - reflexivity.
  - exact demo_pt.
  - intros _. apply Hpt; [reflexivity|]. repeat apply Forall_cons; try apply Forall_nil; lia.
  - exact demo_tape_ok.
  - exact demo_tape_ok.
  - intros _ _ _. apply Hpt; [reflexivity|]. repeat apply Forall_cons; try apply Forall_nil; lia.
  - intros _ _ _. apply Hpt; [reflexivity|]. repeat apply Forall_cons; try apply Forall_nil; lia.
  - intros _ _. exact demo_tape_ok.
  - repeat apply Forall_cons; try apply Forall_nil; (split; [repeat apply Forall_cons; try apply Forall_nil; cbn; lia|]); [exact I|].
    apply Hpt; [reflexivity|]. repeat apply Forall_cons; try apply Forall_nil; lia.
  - repeat apply Forall_cons; try apply Forall_nil; (split; [repeat apply Forall_cons; try apply Forall_nil; cbn; lia|]); [|exact I].
    apply Hpt; [reflexivity|]. repeat apply Forall_cons; try apply Forall_nil; lia.
  - reflexivity.
  - exists cl, sv1, sv2, pts1, pts2. split; [exact E1|]. split; [exact E2|]. apply H.
Qed.
