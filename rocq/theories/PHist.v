(** * Properties C60 and C61: whole histories, under any schedules, behave like a plain array.
    [SpecMixed] defines histories that mix single queries and multi-queries; [SpecConc] defines sessions
    of batches under schedules. *)
From Coq Require Import Permutation.
From Verif Require Import MBase MUtils MCodec MPoly MRlwe MHash MTree MEncTree MSched MOram.
From Verif Require Import SpecRing SpecLwe SpecOram SpecBatch SpecSched SpecShape SpecConc SpecMixed.
From Verif Require Import PfNear LOram LBatch PfHash PfHist Demo PEnc POram PBatch PMulti PSched.
Local Open Scope Z_scope.

(** C60.  A history of single queries and multi-queries answers like a plain array that serves all the
    requests one after the other, and leaves the array's content in the database .. *)
Theorem C60_mixed_history : forall pool cx lg k fft eps s S E a nh hc dom sv B D A sts dm t,
  setting cx lg k fft eps s S -> Forall (mstep_spread pool cx) sts -> (1 <= a <= 63)%nat -> hash_for nh hc dom -> (hc * dom = 2 ^ a)%nat ->
  server_for cx s E sv -> db_holds cx s k B (srv_data sv) 1 (2 ^ a) D -> items_hold nh dom D A -> E <= B ->
  Forall (mstep_ok cx k dom) sts -> (forall j i, plaintext (c_n cx) k (dm j i 0%nat)) -> (forall j i, tape_ok (c_n cx) E (t j i)) ->
  2 * (B + mixed_growth cx a S E eps sts + answer_growth cx a S E eps) < 2 ^ (64 - k) ->
  exists yss sv' D', mixed_session pool fft (client_new 1 (2 ^ a) cx s) nh dm t 0 sv sts = Ok (yss, sv') /\
    Forall2 (fun y pt => decrypt_decode_rlwe cx s y = Ok pt) (concat yss) (answers A (all_requests sts)) /\
    Forall2 (fun ys st => length ys = length (requests_of st)) yss sts /\
    server_for cx s E sv' /\
    db_holds cx s k (B + mixed_growth cx a S E eps sts) (srv_data sv') 1 (2 ^ a) D' /\ items_hold nh dom D' (final A (all_requests sts)).
Proof.
  intros pool cx lg k fft eps s S E a nh hc dom sv B D A sts dm t (Hp & Hf & Hs & HS) Hsp Ha (shuffle & Hperm & Hnew) Hdim Hsv Hdb HA HE Hst Hdm Ht Hbud.
  exact (mixed_ok cx lg k Hp fft eps Hf s Hs S E HS a Ha shuffle Hperm hc dom nh Hnew Hdim pool sts Hsp 0%nat sv B D A dm t Hsv Hdb HA HE Hst Hdm Ht Hbud).
Qed.
Print Assumptions C60_mixed_history.

(** .. whatever the schedules of the steps: a complete execution exists, and all of them agree .. *)
Theorem C60_mixed_any_schedule : forall pool pref fft cl nh dm t sts j sv r, fft_size (srv_cx sv) fft ->
  (forall x, mixed_session pool fft cl nh dm t j sv sts = Ok x -> mixed_exec pool pref fft cl nh dm t j sv sts (Ok x)) /\
  (mixed_exec pool pref fft cl nh dm t j sv sts r ->
   match mixed_session pool fft cl nh dm t j sv sts with Ok x => r = Ok x | Panic _ => exists e, r = Panic e end).
Proof. intros pool pref fft cl nh dm t sts j sv r Hf. split; [intros x Hx; apply mixed_exists; assumption|intros Hx; eapply mixed_det; eassumption]. Qed.
Print Assumptions C60_mixed_any_schedule.

(** .. and from the database [setup_random_oram] builds: any such history, under any schedules, answers
    like the array of the plaintexts the setup returns, and at the end every item decrypts to the
    array's content. *)
Theorem C60_setup_then_mixed : forall pool cx lg k fft eps s S E a nh hc dom gp t0 sts dm t,
  setting cx lg k fft eps s S -> Forall (mstep_spread pool cx) sts -> fft_size cx fft -> (1 <= a <= 63)%nat -> hash_for nh hc dom -> (hc * dom = 2 ^ a)%nat ->
  (forall i, plaintext (c_n cx) k (gp i)) -> tape_ok (c_n cx) E t0 ->
  Forall (mstep_ok cx k dom) sts -> (forall j i, plaintext (c_n cx) k (dm j i 0%nat)) -> (forall j i, tape_ok (c_n cx) E (t j i)) ->
  2 * (E + mixed_growth cx a S E eps sts + answer_growth cx a S E eps) < 2 ^ (64 - k) ->
  exists cl sv pts, setup_random_oram 1 (2 ^ a) nh cx s gp t0 = Ok (cl, sv, pts) /\
    forall pref,
      (exists r, mixed_exec pool pref fft cl nh dm t 0 sv sts r) /\
      forall r, mixed_exec pool pref fft cl nh dm t 0 sv sts r ->
      exists yss sv', r = Ok (yss, sv') /\
        Forall2 (fun y pt => decrypt_decode_rlwe cx s y = Ok pt) (concat yss) (answers (fun i => nth i pts []) (all_requests sts)) /\
        Forall2 (fun ys st => length ys = length (requests_of st)) yss sts /\
        forall i, (i < dom)%nat -> exists c row v, hash nh 0 i = Ok c /\ nth_error (srv_data sv') 0 = Some row /\ nth_error row c = Some v /\
          decrypt_decode_rlwe cx s v = Ok (final (fun i => nth i pts []) (all_requests sts) i).
Proof.
  intros pool cx lg k fft eps s S E a nh hc dom gp t0 sts dm t Hset Hsp Hsz Ha Hh Hdim Hgp Ht0 Hst Hdm Ht Hbud.
  pose proof Hset as (Hp & Hf & Hs & HS). pose proof Hh as (shuffle & Hperm & Hnew).
  destruct (setup_C40 cx lg k Hp s E Hs 1 (2 ^ a) shuffle Hperm hc dom nh Hnew gp Hgp t0 Ht0 ltac:(lia)) as (sv & D & Eq & Hsv & Hdb & Hco).
  set (A := fun i => nth i (map (fun i => gp (i mod 128)%nat) (seq 0 dom)) []).
  assert (items_hold nh dom D A) as HA.
  { intros i c Hi Ec. destruct (nh_fields shuffle hc dom nh Hnew) as (H0 & Hhc & _). unfold A.
    rewrite nth_map_seq0 by exact Hi. pose proof (Nat.pow_nonzero 2 a ltac:(lia)).
    apply (Hco 0%nat i 0%nat c H0 Hi). destruct (tuple_range shuffle Hperm hc dom nh Hnew 0 i 1 (2 ^ a) H0 Hi) as (y & r & c' & Ey & Et & Hr & Hc & Hrc); [lia|].
    assert (r = 0)%nat as -> by lia. rewrite Ec in Ey. injection Ey as <-. cbn in Hrc. subst c'. exact Et. }
  destruct (C60_mixed_history pool cx lg k fft eps s S E a nh hc dom sv E D A sts dm t) as (yss & sv' & D' & Es & HF & HL & Hsv' & Hdb' & HA'); try assumption; [lia|].
  assert (fft_size (srv_cx sv) fft) as Hsz' by (rewrite (proj1 Hsv); exact Hsz).
  exists (client_new 1 (2 ^ a) cx s), sv, (map (fun i => gp (i mod 128)%nat) (seq 0 dom)). split; [exact Eq|]. intros pref.
  split; [eexists; apply mixed_exists; eassumption|]. intros r Hx. pose proof (mixed_det _ _ _ _ _ _ _ _ _ _ _ Hsz' Hx) as Hd. rewrite Es in Hd. subst r.
  exists yss, sv'. split; [reflexivity|]. split; [exact HF|]. split; [exact HL|]. intros i Hi.
  destruct (nh_fields shuffle hc dom nh Hnew) as (H0 & Hhc & _). destruct (hash_total shuffle Hperm hc dom nh Hnew 0 i H0 Hi) as (c & Ec & Hc).
  destruct Hdb' as (L1 & L2 & Hcell). destruct (nth_error (srv_data sv') 0) as [row|] eqn:Er; [|apply nth_error_None in Er; lia].
  assert (length row = (2 ^ a)%nat) as Lr by (rewrite Forall_forall in L2; apply L2; eapply nth_error_In; exact Er).
  destruct (nth_error row c) as [v|] eqn:Ev; [|apply nth_error_None in Ev; lia].
  exists c, row, v. split; [exact Ec|]. split; [reflexivity|]. split; [exact Ev|]. change (decrypt_decode_rlwe cx s v = Ok (final A (all_requests sts) i)). rewrite <- (HA' i c Hi Ec).
  pose proof (answer_nonneg cx lg k fft eps s S E a sv Hp Hf HS Ha Hsv).
  eapply holds_decrypts; [exact Hp|apply (Hcell _ _ _ _ Er Ev)|lia].
Qed.
Print Assumptions C60_setup_then_mixed.

(** C61.  Any history of batches on a freshly set up database, under any schedules: an execution exists,
    every one answers like the plain array, and at the end all copies of all items decrypt to its content. *)
Theorem C61_setup_then_batches : forall pool cx lg k fft eps s S E a rows nh hc dom gp t0 brs dm t,
  setting cx lg k fft eps s S -> spread pool rows -> spread pool dom -> fft_size cx fft -> (1 <= a <= 63)%nat -> hash_for nh hc dom -> (0 < rows)%nat -> (rows * 2 ^ a = hc * dom)%nat ->
  (forall i, plaintext (c_n cx) k (gp i)) -> tape_ok (c_n cx) E t0 ->
  Forall (brequest_ok cx k dom) brs -> (forall is data, In (BWrite is data) brs -> NoDup is) ->
  (forall j r, plaintext (c_n cx) k (dm j r)) -> (forall j, tape_ok (c_n cx) E (t j)) ->
  2 * (E + Z.of_nat (length brs) * batch_growth cx a hc S E eps + answer_growth cx a S E eps) < 2 ^ (64 - k) ->
  exists cl sv pts, setup_random_oram rows (2 ^ a) nh cx s gp t0 = Ok (cl, sv, pts) /\
    forall pref,
      (exists r, batch_session_exec pool pref fft cl nh dm t 0 sv brs r) /\
      forall r, batch_session_exec pool pref fft cl nh dm t 0 sv brs r ->
      exists yss sv', r = Ok (yss, sv') /\
        Forall2 (rows_answer cx s) yss (batch_answers nh (2 ^ a) (fun i => nth i pts []) brs) /\
        forall h i, (h < hc)%nat -> (i < dom)%nat ->
          exists r c row v, hash_to_tuple nh h i (2 ^ a) = Ok (r, c) /\ nth_error (srv_data sv') r = Some row /\ nth_error row c = Some v /\
            decrypt_decode_rlwe cx s v = Ok (batch_final nh (2 ^ a) (fun i => nth i pts []) brs i).
Proof.
  intros pool cx lg k fft eps s S E a rows nh hc dom gp t0 brs dm t Hset Hpr Hpd Hsz Ha Hh Hr Hdim Hgp Ht0 Hbr Hd Hdm Ht Hbud.
  pose proof Hset as (Hp & Hf & Hs & HS). pose proof Hh as (shuffle & Hperm & Hnew).
  destruct (setup_C40 cx lg k Hp s E Hs rows (2 ^ a) shuffle Hperm hc dom nh Hnew gp Hgp t0 Ht0 ltac:(lia)) as (sv & D & Eq & Hsv & Hdb & Hco).
  destruct (C48_batch_history pool cx lg k fft eps s S E a rows nh hc dom sv E D (fun i => nth i (map (fun i => gp (i mod 128)%nat) (seq 0 dom)) []) brs dm t)
    as (yss & sv' & D' & Es & HF & Hsv' & Hdb' & HA'); try assumption; [|lia|].
  { intros h i r c Hhh Hi Et. rewrite nth_map_seq0 by exact Hi. apply (Hco h i r c Hhh Hi Et). }
  assert (fft_size (srv_cx sv) fft) as Hsz' by (rewrite (proj1 Hsv); exact Hsz).
  exists (client_new rows (2 ^ a) cx s), sv, (map (fun i => gp (i mod 128)%nat) (seq 0 dom)). split; [exact Eq|]. intros pref.
  split; [eexists; eapply batch_exists; eassumption|]. intros r Hx. pose proof (C49_batch_session_any_schedule _ _ _ _ _ _ _ _ _ _ _ _ _ Hsz' Hh Hx) as Hd'. rewrite Es in Hd'. subst r.
  exists yss, sv'. split; [reflexivity|]. split; [exact HF|]. intros h i Hhh Hi.
  pose proof (Nat.pow_nonzero 2 a ltac:(lia)).
  destruct (tuple_range shuffle Hperm hc dom nh Hnew h i rows (2 ^ a) Hhh Hi) as (y & r & c & Ey & Et & Hrr & Hc & Hrc); [lia|].
  destruct Hdb' as (L1 & L2 & Hcell). destruct (nth_error (srv_data sv') r) as [row|] eqn:Er; [|apply nth_error_None in Er; lia].
  assert (length row = (2 ^ a)%nat) as Lr by (rewrite Forall_forall in L2; apply L2; eapply nth_error_In; exact Er).
  destruct (nth_error row c) as [v|] eqn:Ev; [|apply nth_error_None in Ev; lia].
  exists r, c, row, v. split; [exact Et|]. split; [exact Er|]. split; [exact Ev|].
  pose proof (HA' h i r c Hhh Hi Et) as EA. change (decrypt_decode_rlwe cx s v = Ok (batch_final nh (2 ^ a) (fun i => nth i (map (fun i => gp (i mod 128)%nat) (seq 0 dom)) []) brs i)).
  unfold poly in *. rewrite <- EA.
  pose proof (answer_nonneg cx lg k fft eps s S E a sv Hp Hf HS Ha Hsv).
  eapply holds_decrypts; [exact Hp|apply (Hcell _ _ _ _ Er Ev)|lia].
Qed.
Print Assumptions C61_setup_then_batches.

(** *** The hypotheses are satisfiable. *)
Definition demo_steps : list mstep :=
  [One (Write 0 [1; 1; 1; 1]); Many [Read 0; Write 1 [0; 0; 1; 0]]; One (Read 1); Many []; Many [Read 1; Read 0]].
Example C60_applies : exists cl sv pts,
  setup_random_oram 1 (2 ^ 2) demo_nh demo_cx demo_s (fun i => [Z.of_nat (i mod 2); 1; 0; 1]) demo_tape = Ok (cl, sv, pts) /\
  forall pref,
    (exists r, mixed_exec false pref (exact_fft 4) cl demo_nh (fun _ _ _ => [0; 1; 1; 1]) (fun _ _ => demo_tape) 0 sv demo_steps r) /\
    forall r, mixed_exec false pref (exact_fft 4) cl demo_nh (fun _ _ _ => [0; 1; 1; 1]) (fun _ _ => demo_tape) 0 sv demo_steps r ->
    exists yss sv', r = Ok (yss, sv') /\
      Forall2 (fun y pt => decrypt_decode_rlwe demo_cx demo_s y = Ok pt) (concat yss) (answers (fun i => nth i pts []) (all_requests demo_steps)).
Proof.
  destruct (C60_setup_then_mixed false demo_cx 2 1 (exact_fft 4) 0 demo_s 3 3 2 demo_nh 2 2 (fun i => [Z.of_nat (i mod 2); 1; 0; 1]) demo_tape demo_steps
     (fun _ _ _ => [0; 1; 1; 1]) (fun _ _ => demo_tape)) as (cl & sv & pts & E1 & H).
  - exact demo_setting.
  - repeat (apply Forall_cons; [right; discriminate|]). apply Forall_nil.
  - exact exact_fft_size.
  - lia.
  - exact demo_hash.
  - reflexivity.
  - exact demo_pt.
  - exact demo_tape_ok.
  - assert (plaintext (c_n demo_cx) 1 [1; 1; 1; 1]) by (split; [reflexivity|repeat apply Forall_cons; try apply Forall_nil; lia]).
    assert (plaintext (c_n demo_cx) 1 [0; 0; 1; 0]) by (split; [reflexivity|repeat apply Forall_cons; try apply Forall_nil; lia]).
    repeat (apply Forall_cons; [split; [repeat apply Forall_cons; try apply Forall_nil; split; cbn; try lia; try exact I; assumption|cbn; repeat (apply NoDup_cons; [cbn; intuition discriminate|]); apply NoDup_nil]|]).
    apply Forall_nil.
  - intros j i. split; [reflexivity|]. repeat apply Forall_cons; try apply Forall_nil; lia.
  - intros j i. exact demo_tape_ok.
  - vm_compute. reflexivity.
  - exists cl, sv, pts. split; [exact E1|]. intros pref. destruct (H pref) as [Hex Hall]. split; [exact Hex|].
    intros r Hr. destruct (Hall r Hr) as (yss & sv' & E2 & E3 & _). eauto.
Qed.
Example C61_applies : exists cl sv pts,
  setup_random_oram 3 (2 ^ 1) demo_nh3 demo_cx demo_s (fun i => [Z.of_nat (i mod 2); 1; 0; 1]) demo_tape = Ok (cl, sv, pts) /\
  forall pref,
    (exists r, batch_session_exec false pref (exact_fft 4) cl demo_nh3 (fun _ _ => [0; 1; 1; 1]) (fun _ => demo_tape) 0 sv [BWrite [1; 0]%nat [1; 1; 1; 1]; BRead [0; 1]%nat] r) /\
    forall r, batch_session_exec false pref (exact_fft 4) cl demo_nh3 (fun _ _ => [0; 1; 1; 1]) (fun _ => demo_tape) 0 sv [BWrite [1; 0]%nat [1; 1; 1; 1]; BRead [0; 1]%nat] r ->
    exists yss sv', r = Ok (yss, sv') /\
      Forall2 (rows_answer demo_cx demo_s) yss (batch_answers demo_nh3 (2 ^ 1) (fun i => nth i pts []) [BWrite [1; 0]%nat [1; 1; 1; 1]; BRead [0; 1]%nat]).
Proof.
  destruct (C61_setup_then_batches false demo_cx 2 1 (exact_fft 4) 0 demo_s 3 3 1 3 demo_nh3 3 2 (fun i => [Z.of_nat (i mod 2); 1; 0; 1]) demo_tape
     [BWrite [1; 0]%nat [1; 1; 1; 1]; BRead [0; 1]%nat] (fun _ _ => [0; 1; 1; 1]) (fun _ => demo_tape)) as (cl & sv & pts & E1 & H).
  - exact demo_setting.
  - right; discriminate.
  - right; discriminate.
  - exact exact_fft_size.
  - lia.
  - exact demo_hash3.
  - lia.
  - reflexivity.
  - exact demo_pt.
  - exact demo_tape_ok.
  - repeat apply Forall_cons; try apply Forall_nil; split; cbn [batch_items]; try exact I; repeat apply Forall_cons; try apply Forall_nil; try lia.
    split; [reflexivity|]. repeat apply Forall_cons; try apply Forall_nil; lia.
  - intros is data [Hi|[Hi|[]]]; try discriminate. injection Hi as <- <-. repeat constructor; cbn; intuition discriminate.
  - intros j r. split; [reflexivity|]. repeat apply Forall_cons; try apply Forall_nil; lia.
  - intros j. exact demo_tape_ok.
  - vm_compute. reflexivity.
  - exists cl, sv, pts. split; [exact E1|]. intros pref. destruct (H pref) as [Hex Hall]. split; [exact Hex|].
    intros r Hr. destruct (Hall r Hr) as (yss & sv' & E2 & E3 & _). eauto.
Qed.
