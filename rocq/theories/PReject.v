(** * Property C68: a call that panics leaves the server usable, and its locks unpoisoned. *)
From Coq Require Import Permutation.
From Verif Require Import MBase MUtils MCodec MPoly MRlwe MHash MTree MEncTree MSched MOram.
From Verif Require Import SpecRing SpecLwe SpecOram SpecBatch SpecSched SpecConc SpecMixed SpecReject.
From Verif Require Import PfSched PfHash LOram PfReject Demo PEnc POram PMulti PBatch PSched PHist.
Local Open Scope Z_scope.

(** Whatever the queries, the hash and the database, whatever the schedule: no call poisons a row lock,
    and no lock is left held, even if the call panics. *)
Theorem C68_never_poisons : forall pool pref fft sv c, never_poisons pref (call_prog pool fft sv c) (srv_data sv).
Proof. intros. apply snp_never, snp_call. Qed.
Print Assumptions C68_never_poisons.
(** The notion is not empty: a store out of range under the write lock poisons it. *)
Example C68_poison_example : ~ never_poisons false (sone (put 0 1 (rlwe_allocate 4))) [[rlwe_allocate 4]].
Proof.
  intros [H _].
  specialize (H [[(0%nat, put 0 1 (rlwe_allocate 4))]]
    [{| w_prog := PStore 0 1 (rlwe_allocate 4) (PUnlock (LWrite 0) (PRet [(0%nat, tt)])); w_held := [LWrite 0] |}] [[rlwe_allocate 4]]).
  destruct H as [H _].
  - apply Permutation_refl.
  - eapply Steps_step; [|apply Steps_refl].
    refine (Step false (start [[(0%nat, put 0 1 (rlwe_allocate 4))]]) [[rlwe_allocate 4]] 0
      {| w_prog := wprog [(0%nat, put 0 1 (rlwe_allocate 4))]; w_held := [] |}
      (PStore 0 1 (rlwe_allocate 4) (PUnlock (LWrite 0) (PRet [(0%nat, tt)]))) [[rlwe_allocate 4]] eq_refl _ eq_refl).
    intros l k E. cbn in E. injection E as <- <-. intros w [<-|[]]. split; intros [].
  - apply (H 0%nat). eexists _, PIndex, _. split; [left; reflexivity|]. split; [reflexivity|left; reflexivity].
Qed.

(** A call that does not fit the database panics under every schedule and leaves the server as it was. *)
Theorem C68_rejected : forall pool pref fft sv c rows cols, fft_size (srv_cx sv) fft -> (0 < rows)%nat ->
  length (srv_data sv) = rows -> Forall (fun row => length row = cols) (srv_data sv) -> misfit rows cols c ->
  (exists r sv', server_exec pref sv (call_prog pool fft sv c) r sv') /\
  forall r sv', server_exec pref sv (call_prog pool fft sv c) r sv' -> (exists e, r = Panic e) /\ sv' = sv.
Proof.
  intros pool pref fft sv c rows cols Hf H0 Hl Hc Hm.
  assert (rect rows cols (srv_data sv)) as Hr.
  { unfold rect, shape. rewrite <- Hl. clear - Hc. induction Hc; cbn; congruence. }
  split; [|intros r sv'; apply (misfit_rejected _ _ _ _ _ _ _ _ _ Hf H0 Hr Hm)].
  destruct (snp_realisable [] _ (snp_call [] pool fft sv c) (srv_data sv) pref) as (r0 & m' & Hx).
  exists r0. eexists. exists m'. split; [exact Hx|reflexivity].
Qed.
Print Assumptions C68_rejected.

(** So a history in which such calls happen between the steps is, step by step, the history without them .. *)
Theorem C68_history_without : forall pool pref fft cl nh dm t rows cols j sv l r, fft_size (srv_cx sv) fft -> (0 < rows)%nat ->
  length (srv_data sv) = rows -> Forall (fun row => length row = cols) (srv_data sv) ->
  (forall c, In (Misfit c) l -> misfit rows cols c) ->
  attempts_exec pool pref fft cl nh dm t j sv l r <-> mixed_exec pool pref fft cl nh dm t j sv (proper l) r.
Proof.
  intros pool pref fft cl nh dm t rows cols j sv l r Hf H0 Hl Hc Hm. apply (attempts_ok pool pref fft cl nh dm t rows cols); auto.
  unfold rect, shape. rewrite <- Hl. clear - Hc. induction Hc; cbn; congruence.
Qed.
Print Assumptions C68_history_without.

(** .. and still answers like the plain array. *)
Theorem C68_setup_then_attempts : forall pool cx lg k fft eps s S E a nh hc dom gp t0 l dm t,
  setting cx lg k fft eps s S -> Forall (mstep_spread pool cx) (proper l) -> fft_size cx fft -> (1 <= a <= 63)%nat -> hash_for nh hc dom -> (hc * dom = 2 ^ a)%nat ->
  (forall i, plaintext (c_n cx) k (gp i)) -> tape_ok (c_n cx) E t0 ->
  Forall (mstep_ok cx k dom) (proper l) -> (forall c, In (Misfit c) l -> misfit 1 (2 ^ a) c) ->
  (forall j i, plaintext (c_n cx) k (dm j i 0%nat)) -> (forall j i, tape_ok (c_n cx) E (t j i)) ->
  2 * (E + mixed_growth cx a S E eps (proper l) + answer_growth cx a S E eps) < 2 ^ (64 - k) ->
  exists cl sv pts, setup_random_oram 1 (2 ^ a) nh cx s gp t0 = Ok (cl, sv, pts) /\
    forall pref,
      (exists r, attempts_exec pool pref fft cl nh dm t 0 sv l r) /\
      forall r, attempts_exec pool pref fft cl nh dm t 0 sv l r ->
      exists yss sv', r = Ok (yss, sv') /\
        Forall2 (fun y pt => decrypt_decode_rlwe cx s y = Ok pt) (concat yss) (answers (fun i => nth i pts []) (all_requests (proper l))) /\
        forall i, (i < dom)%nat -> exists c row v, hash nh 0 i = Ok c /\ nth_error (srv_data sv') 0 = Some row /\ nth_error row c = Some v /\
          decrypt_decode_rlwe cx s v = Ok (final (fun i => nth i pts []) (all_requests (proper l)) i).
Proof.
  intros pool cx lg k fft eps s S E a nh hc dom gp t0 l dm t Hset Hsp Hsz Ha Hh Hdim Hgp Ht0 Hst Hmis Hdm Ht Hbud.
  destruct (C60_setup_then_mixed pool cx lg k fft eps s S E a nh hc dom gp t0 (proper l) dm t) as (cl & sv & pts & Eq & H); try assumption.
  exists cl, sv, pts. split; [exact Eq|]. intros pref. specialize (H pref) as [Hex Hall].
  pose proof Hset as (Hp & Hf & Hs & HS). pose proof Hh as (shuffle & Hperm & Hnew).
  destruct (setup_C40 cx lg k Hp s E Hs 1 (2 ^ a) shuffle Hperm hc dom nh Hnew gp Hgp t0 Ht0 ltac:(lia)) as (sv1 & D & Eq1 & Hsv & (L1 & L2 & _) & _).
  rewrite Eq1 in Eq. injection Eq as <- <- <-.
  assert (forall r, attempts_exec pool pref fft (client_new 1 (2 ^ a) cx s) nh dm t 0 sv1 l r <-> mixed_exec pool pref fft (client_new 1 (2 ^ a) cx s) nh dm t 0 sv1 (proper l) r) as HX.
  { intros r. apply (C68_history_without pool pref fft _ nh dm t 1 (2 ^ a)); auto. rewrite (proj1 Hsv). exact Hsz. }
  split; [destruct Hex as (r & Hr); exists r; apply HX, Hr|]. intros r Hr. apply HX in Hr.
  destruct (Hall r Hr) as (yss & sv' & -> & H1 & _ & H2). exists yss, sv'. auto.
Qed.
Print Assumptions C68_setup_then_attempts.

(** The same for histories of batches. *)
Theorem C68_batches_without : forall pool pref fft cl nh dm t rows cols j sv l r, fft_size (srv_cx sv) fft -> (0 < rows)%nat ->
  length (srv_data sv) = rows -> Forall (fun row => length row = cols) (srv_data sv) ->
  (forall c, In (BMisfit c) l -> misfit rows cols c) ->
  battempts_exec pool pref fft cl nh dm t j sv l r <-> batch_session_exec pool pref fft cl nh dm t j sv (bproper l) r.
Proof.
  intros pool pref fft cl nh dm t rows cols j sv l r Hf H0 Hl Hc Hm. apply (battempts_ok pool pref fft cl nh dm t rows cols); auto.
  unfold rect, shape. rewrite <- Hl. clear - Hc. induction Hc; cbn; congruence.
Qed.
Print Assumptions C68_batches_without.
Theorem C68_setup_then_batch_attempts : forall pool cx lg k fft eps s S E a rows nh hc dom gp t0 l dm t,
  setting cx lg k fft eps s S -> spread pool rows -> spread pool dom -> fft_size cx fft -> (1 <= a <= 63)%nat -> hash_for nh hc dom -> (0 < rows)%nat -> (rows * 2 ^ a = hc * dom)%nat ->
  (forall i, plaintext (c_n cx) k (gp i)) -> tape_ok (c_n cx) E t0 ->
  Forall (brequest_ok cx k dom) (bproper l) -> (forall is data, In (BWrite is data) (bproper l) -> NoDup is) -> (forall c, In (BMisfit c) l -> misfit rows (2 ^ a) c) ->
  (forall j r, plaintext (c_n cx) k (dm j r)) -> (forall j, tape_ok (c_n cx) E (t j)) ->
  2 * (E + Z.of_nat (length (bproper l)) * batch_growth cx a hc S E eps + answer_growth cx a S E eps) < 2 ^ (64 - k) ->
  exists cl sv pts, setup_random_oram rows (2 ^ a) nh cx s gp t0 = Ok (cl, sv, pts) /\
    forall pref,
      (exists r, battempts_exec pool pref fft cl nh dm t 0 sv l r) /\
      forall r, battempts_exec pool pref fft cl nh dm t 0 sv l r ->
      exists yss sv', r = Ok (yss, sv') /\
        Forall2 (rows_answer cx s) yss (batch_answers nh (2 ^ a) (fun i => nth i pts []) (bproper l)) /\
        forall h i, (h < hc)%nat -> (i < dom)%nat ->
          exists r c row v, hash_to_tuple nh h i (2 ^ a) = Ok (r, c) /\ nth_error (srv_data sv') r = Some row /\ nth_error row c = Some v /\
            decrypt_decode_rlwe cx s v = Ok (batch_final nh (2 ^ a) (fun i => nth i pts []) (bproper l) i).
Proof.
  intros pool cx lg k fft eps s S E a rows nh hc dom gp t0 l dm t Hset Hpr Hpd Hsz Ha Hh Hr Hdim Hgp Ht0 Hbr Hd Hmis Hdm Ht Hbud.
  destruct (C61_setup_then_batches pool cx lg k fft eps s S E a rows nh hc dom gp t0 (bproper l) dm t) as (cl & sv & pts & Eq & H); try assumption.
  exists cl, sv, pts. split; [exact Eq|]. intros pref. specialize (H pref) as [Hex Hall].
  pose proof Hset as (Hp & Hf & Hs & HS). pose proof Hh as (shuffle & Hperm & Hnew).
  destruct (setup_C40 cx lg k Hp s E Hs rows (2 ^ a) shuffle Hperm hc dom nh Hnew gp Hgp t0 Ht0 ltac:(lia)) as (sv1 & D & Eq1 & Hsv & (L1 & L2 & _) & _).
  rewrite Eq1 in Eq. injection Eq as <- <- <-.
  assert (forall r, battempts_exec pool pref fft (client_new rows (2 ^ a) cx s) nh dm t 0 sv1 l r <-> batch_session_exec pool pref fft (client_new rows (2 ^ a) cx s) nh dm t 0 sv1 (bproper l) r) as HX.
  { intros r. apply (C68_batches_without pool pref fft _ nh dm t rows (2 ^ a)); auto. rewrite (proj1 Hsv). exact Hsz. }
  split; [destruct Hex as (r & Hr'); exists r; apply HX, Hr'|]. intros r Hr'. apply HX in Hr'.
  destruct (Hall r Hr') as (yss & sv' & -> & H1 & H2). exists yss, sv'. auto.
Qed.
Print Assumptions C68_setup_then_batch_attempts.

(** *** The hypotheses are satisfiable: an empty query, a batch on a database that is not batched. *)
Definition demo_bad : query := {| q_a := []; q_op := rgsw_allocate 4 5 11; q_data := rlwe_allocate 4 |}.
Definition demo_attempts : list attempt :=
  [Misfit (CallOne demo_bad); Proper (One (Write 0 [1; 1; 1; 1])); Misfit (CallBatch [] demo_nh); Proper (Many [Read 0; Write 1 [0; 0; 1; 0]]);
   Misfit (CallMulti [demo_bad; demo_bad]); Proper (One (Read 1))].
Lemma demo_misfit : forall c, In (Misfit c) demo_attempts -> misfit 1 (2 ^ 2) c.
Proof.
  intros c Hc. cbn [demo_attempts In] in Hc. destruct Hc as [Hc|[Hc|[Hc|[Hc|[Hc|[Hc|[]]]]]]]; try discriminate; injection Hc as <-.
  - intros (b & H1 & H2 & _). cbn in H2. lia.
  - left. discriminate.
  - exists demo_bad. split; [left; reflexivity|]. intros (b & H1 & H2 & _). cbn in H2. lia.
Qed.
Example C68_applies : exists cl sv pts,
  setup_random_oram 1 (2 ^ 2) demo_nh demo_cx demo_s (fun i => [Z.of_nat (i mod 2); 1; 0; 1]) demo_tape = Ok (cl, sv, pts) /\
  forall pref,
    (exists r, attempts_exec false pref (exact_fft 4) cl demo_nh (fun _ _ _ => [0; 1; 1; 1]) (fun _ _ => demo_tape) 0 sv demo_attempts r) /\
    forall r, attempts_exec false pref (exact_fft 4) cl demo_nh (fun _ _ _ => [0; 1; 1; 1]) (fun _ _ => demo_tape) 0 sv demo_attempts r ->
    exists yss sv', r = Ok (yss, sv') /\
      Forall2 (fun y pt => decrypt_decode_rlwe demo_cx demo_s y = Ok pt) (concat yss) (answers (fun i => nth i pts []) [Write 0 [1; 1; 1; 1]; Read 0; Write 1 [0; 0; 1; 0]; Read 1]).
Proof.
  destruct (C68_setup_then_attempts false demo_cx 2 1 (exact_fft 4) 0 demo_s 3 3 2 demo_nh 2 2 (fun i => [Z.of_nat (i mod 2); 1; 0; 1]) demo_tape demo_attempts
     (fun _ _ _ => [0; 1; 1; 1]) (fun _ _ => demo_tape)) as (cl & sv & pts & E1 & H).
  - exact demo_setting.
  - repeat (apply Forall_cons; [right; discriminate|]). apply Forall_nil.
  - exact exact_fft_size.
  - lia.
  - exact demo_hash.
  - reflexivity.
  - exact demo_pt.
  - exact demo_tape_ok.
  - assert (plaintext (c_n demo_cx) 1 [1; 1; 1; 1]) by (split; [reflexivity|repeat apply Forall_cons; try apply Forall_nil; lia]).
    assert (plaintext (c_n demo_cx) 1 [0; 0; 1; 0]) by (split; [reflexivity|repeat apply Forall_cons; try apply Forall_nil; lia]).
    repeat (apply Forall_cons; [split; [repeat apply Forall_cons; try apply Forall_nil; split; cbn; try lia; try exact I; assumption|cbn; repeat (apply NoDup_cons; [cbn; intuition discriminate|]); apply NoDup_nil]|]).
    apply Forall_nil.
  - exact demo_misfit.
  - intros j i. split; [reflexivity|]. repeat apply Forall_cons; try apply Forall_nil; lia.
  - intros j i. exact demo_tape_ok.
  - vm_compute. reflexivity.
  - exists cl, sv, pts. split; [exact E1|]. intros pref. destruct (H pref) as [Hex Hall]. split; [exact Hex|].
    intros r Hr. destruct (Hall r Hr) as (yss & sv' & E2 & E3 & _). eauto.
Qed.
Definition demo_battempts : list battempt :=
  [BMisfit (CallBatch [] demo_nh3); BProper (BWrite [1]%nat [1; 1; 0; 0]); BMisfit (CallOne demo_bad); BProper (BRead [1; 0]%nat)].
Example C68_batches_apply : exists cl sv pts,
  setup_random_oram 3 (2 ^ 1) demo_nh3 demo_cx demo_s (fun i => [Z.of_nat (i mod 2); 1; 0; 1]) demo_tape = Ok (cl, sv, pts) /\
  forall pref,
    (exists r, battempts_exec false pref (exact_fft 4) cl demo_nh3 (fun _ _ => [0; 1; 1; 1]) (fun _ => demo_tape) 0 sv demo_battempts r) /\
    forall r, battempts_exec false pref (exact_fft 4) cl demo_nh3 (fun _ _ => [0; 1; 1; 1]) (fun _ => demo_tape) 0 sv demo_battempts r ->
    exists yss sv', r = Ok (yss, sv') /\
      Forall2 (rows_answer demo_cx demo_s) yss (batch_answers demo_nh3 (2 ^ 1) (fun i => nth i pts []) [BWrite [1]%nat [1; 1; 0; 0]; BRead [1; 0]%nat]).
Proof.
  destruct (C68_setup_then_batch_attempts false demo_cx 2 1 (exact_fft 4) 0 demo_s 3 3 1 3 demo_nh3 3 2 (fun i => [Z.of_nat (i mod 2); 1; 0; 1]) demo_tape demo_battempts
     (fun _ _ => [0; 1; 1; 1]) (fun _ => demo_tape)) as (cl & sv & pts & E1 & H).
  - exact demo_setting.
  - right; discriminate.
  - right; discriminate.
  - exact exact_fft_size.
  - lia.
  - exact demo_hash3.
  - lia.
  - reflexivity.
  - exact demo_pt.
  - exact demo_tape_ok.
  - assert (plaintext (c_n demo_cx) 1 [1; 1; 0; 0]) by (split; [reflexivity|repeat apply Forall_cons; try apply Forall_nil; lia]).
    repeat (apply Forall_cons; [split; [repeat apply Forall_cons; try apply Forall_nil; cbn; lia|cbn; try exact I; assumption]|]). apply Forall_nil.
  - intros is data H. cbn in H. destruct H as [H|[H|[]]]; [|discriminate]. injection H as <- <-. repeat constructor. intros [].
  - intros c Hc. cbn [demo_battempts In] in Hc. destruct Hc as [Hc|[Hc|[Hc|[Hc|[]]]]]; try discriminate; injection Hc as <-.
    + left. discriminate.
    + intros (b & H1 & H2 & _). cbn in H2. lia.
  - intros j i. split; [reflexivity|]. repeat apply Forall_cons; try apply Forall_nil; lia.
  - intros j. exact demo_tape_ok.
  - vm_compute. reflexivity.
  - exists cl, sv, pts. split; [exact E1|]. intros pref. destruct (H pref) as [Hex Hall]. split; [exact Hex|].
    intros r Hr. destruct (Hall r Hr) as (yss & sv' & E2 & E3 & _). eauto.
Qed.
