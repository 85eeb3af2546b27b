(** * Properties C44-C45: multi-queries. *)
From Coq Require Import Permutation.
From Verif Require Import MBase MUtils MCodec MPoly MRlwe MHash MTree MSched MOram SpecOram PfNear PfEnc4 PfHash PfSched PfOram4 PfOram7 LOram LMulti Demo PEnc POram.
Local Open Scope Z_scope.

(** C44.  Requests on pairwise distinct items: same answers and same final content as the plain array
    that serves them one after the other; all other cells are unchanged. *)
Theorem C44_multi_distinct : forall pool cx lg k fft eps s S E a nh hc dom sv B D A rqs dm t,
  setting cx lg k fft eps s S -> spread pool (length rqs) -> (1 <= a <= 63)%nat -> hash_for nh hc dom -> (hc * dom = 2 ^ a)%nat ->
  server_for cx s E sv -> db_holds cx s k B (srv_data sv) 1 (2 ^ a) D -> items_hold nh dom D A -> E <= B ->
  Forall (request_ok cx k dom) rqs -> NoDup (map target rqs) ->
  (forall j, plaintext (c_n cx) k (dm j 0%nat)) -> (forall j, tape_ok (c_n cx) E (t j)) ->
  2 * (B + answer_growth cx a S E eps) < 2 ^ (64 - k) ->
  2 * (B + multi_growth cx a S E eps (length rqs)) < 2 ^ (64 - k) ->
  exists qs ys sv', ask_all (client_new 1 (2 ^ a) cx s) nh dm t 0 rqs = Ok qs /\ server_process_multi pool fft sv qs = Ok (ys, sv') /\
    Forall2 (fun y pt => decrypt_decode_rlwe cx s y = Ok pt) ys (answers A rqs) /\
    server_for cx s E sv' /\
    db_holds cx s k (B + multi_growth cx a S E eps (length rqs)) (srv_data sv') 1 (2 ^ a) (db_final nh D rqs) /\
    (* item i decrypts to its final content *)
    (forall i c row v, (i < dom)%nat -> hash nh 0 i = Ok c -> nth_error (srv_data sv') 0 = Some row -> nth_error row c = Some v ->
       decrypt_decode_rlwe cx s v = Ok (final A rqs i)) /\
    (* a cell that no request addresses keeps its content *)
    (forall c row v, (forall rq, In rq rqs -> hash nh 0 (target rq) <> Ok c) -> nth_error (srv_data sv') 0 = Some row -> nth_error row c = Some v ->
       decrypt_decode_rlwe cx s v = Ok (D 0%nat c)).
Proof.
  intros pool cx lg k fft eps s S E a nh hc dom sv B D A rqs dm t (Hp & Hf & Hs & HS) Hpool Ha (shuffle & Hperm & Hnew) Hdim Hsv Hdb HA HE Hrq Hnd Hdm Ht Hb1 Hb2.
  destruct (multi_C44 cx lg k Hp fft eps Hf s (binary_key_wf _ _ Hs) S E HS a Ha shuffle Hperm hc dom nh Hnew Hdim pool sv B D A rqs dm t Hsv Hdb HA HE Hrq Hnd Hdm Ht Hb1 Hpool)
    as (qs & ys & sv' & Eq & Er & Hys & Hsv' & Hdb' & HA').
  exists qs, ys, sv'. repeat (split; [assumption|]). split.
  - intros i c row v Hi Ec E1 E2. rewrite <- (HA' i c Hi Ec). eapply db_decrypts; eassumption.
  - intros c row v Hno E1 E2. rewrite <- (db_final_other nh rqs D c Hno). eapply db_decrypts; eassumption.
Qed.
Print Assumptions C44_multi_distinct.

(** C45.  Requests on the same item.  What really happens, for every list of requests: every answer is
    the content before all of them, and a cell of content v hit by L requests that want w1 .. wL ends up
    with v + L * (w1 + .. + wL - v). *)
Theorem C45_multi_exact : forall pool cx lg k fft eps s S E a nh hc dom sv B D A rqs dm t,
  setting cx lg k fft eps s S -> spread pool (length rqs) -> (1 <= a <= 63)%nat -> hash_for nh hc dom -> (hc * dom = 2 ^ a)%nat ->
  server_for cx s E sv -> db_holds cx s k B (srv_data sv) 1 (2 ^ a) D -> items_hold nh dom D A -> E <= B ->
  Forall (request_ok cx k dom) rqs ->
  (forall j, plaintext (c_n cx) k (dm j 0%nat)) -> (forall j, tape_ok (c_n cx) E (t j)) ->
  2 * (B + answer_growth cx a S E eps) < 2 ^ (64 - k) ->
  exists qs ys sv', ask_all (client_new 1 (2 ^ a) cx s) nh dm t 0 rqs = Ok qs /\ server_process_multi pool fft sv qs = Ok (ys, sv') /\
    Forall2 (fun y rq => decrypt_decode_rlwe cx s y = Ok (A (target rq))) ys rqs /\
    forall i c, (i < dom)%nat -> hash nh 0 i = Ok c ->
      let here := filter (fun rq => (target rq =? i)%nat) rqs in
      2 * multi_noise cx a S E eps B (length rqs) (length here) < 2 ^ (64 - k) ->
      exists row v, nth_error (srv_data sv') 0 = Some row /\ nth_error row c = Some v /\
        decrypt_decode_rlwe cx s v = Ok (multi_result (c_n cx) k (A i) (map (wanted_by (A i)) here)).
Proof.
  intros pool cx lg k fft eps s S E a nh hc dom sv B D A rqs dm t (Hp & Hf & Hs & HS) Hpool Ha (shuffle & Hperm & Hnew) Hdim Hsv Hdb HA HE Hrq Hdm Ht Hb1.
  destruct (multi_any cx lg k Hp fft eps Hf s (binary_key_wf _ _ Hs) S E HS a Ha shuffle Hperm hc dom nh Hnew Hdim pool sv B D A rqs dm t Hsv Hdb HA HE Hrq Hdm Ht Hpool)
    as (qs & ys & sv' & Eq & Er & Hys & Hsv' & Hsh & Hit & _).
  exists qs, ys, sv'. split; [exact Eq|]. split; [exact Er|]. split.
  - clear - Hys Hb1 Hp. induction Hys as [|rq y rqs ys Hy Hys IH]; constructor; [|exact IH]. eapply holds_decrypts; eassumption.
  - intros i c Hi Ec here Hbud. destruct (Hit i c Hi Ec) as (v & Ev & Hv). unfold MSched.mget in Ev.
    destruct (nth_error (srv_data sv') 0) as [row|]; [|discriminate]. exists row, v. split; [reflexivity|]. split; [exact Ev|]. eapply holds_decrypts; eassumption.
Qed.
Print Assumptions C45_multi_exact.

(** The claim "as if processed one after the other" is false: two reads of the same item replace its
    content by 3 times itself (modulo the plaintext modulus), which differs as soon as 2 * x is not 0. *)
Theorem C45_two_reads_refuted : forall pool cx lg k fft eps s S E a nh hc dom sv B D A i dm t,
  setting cx lg k fft eps s S -> (1 <= a <= 63)%nat -> hash_for nh hc dom -> (hc * dom = 2 ^ a)%nat ->
  server_for cx s E sv -> db_holds cx s k B (srv_data sv) 1 (2 ^ a) D -> items_hold nh dom D A -> E <= B ->
  (i < dom)%nat -> (forall j, plaintext (c_n cx) k (dm j 0%nat)) -> (forall j, tape_ok (c_n cx) E (t j)) ->
  2 * (B + answer_growth cx a S E eps) < 2 ^ (64 - k) -> 2 * multi_noise cx a S E eps B 2 2 < 2 ^ (64 - k) ->
  exists c qs ys sv' row v, hash nh 0 i = Ok c /\
    ask_all (client_new 1 (2 ^ a) cx s) nh dm t 0 [Read i; Read i] = Ok qs /\ server_process_multi pool fft sv qs = Ok (ys, sv') /\
    nth_error (srv_data sv') 0 = Some row /\ nth_error row c = Some v /\
    decrypt_decode_rlwe cx s v = Ok (map (fun x => (3 * x) mod 2 ^ k) (A i)) /\
    ((exists x, In x (A i) /\ (2 * x) mod 2 ^ k <> 0) ->
     decrypt_decode_rlwe cx s v <> Ok (final A [Read i; Read i] i)).
Proof.
  intros pool cx lg k fft eps s S E a nh hc dom sv B D A i dm t Hset Ha Hh Hdim Hsv Hdb HA HE Hi Hdm Ht Hb1 Hb2.
  pose proof Hh as (shuffle & Hperm & Hnew). pose proof Hset as (Hp & _).
  destruct (nh_fields shuffle hc dom nh Hnew) as (H0 & _). destruct (hash_total shuffle Hperm hc dom nh Hnew 0 i H0 Hi) as (c & Ec & Hc).
  destruct (C45_multi_exact pool cx lg k fft eps s S E a nh hc dom sv B D A [Read i; Read i] dm t) as (qs & ys & sv' & Eq & Er & _ & Hit); try assumption.
  { right; discriminate. }
  { repeat constructor; assumption. }
  specialize (Hit i c Hi Ec). cbn [filter target] in Hit. rewrite Nat.eqb_refl in Hit. destruct (Hit Hb2) as (row & v & E1 & E2 & E3).
  assert (multi_result (c_n cx) k (A i) (map (wanted_by (A i)) [Read i; Read i]) = map (fun x => (3 * x) mod 2 ^ k) (A i)) as Em.
  { assert (length (A i) = c_n cx) as L.
    { rewrite <- (HA i c Hi Ec). destruct (db_cells _ _ _ _ _ _ _ _ Hdb) as [_ Hcells]. apply Hcells; lia. }
    unfold multi_result. apply (nth_ext _ _ 0 ((3 * 0) mod 2 ^ k)); [rewrite !map_length, seq_length; lia|].
    intros z Hz. rewrite map_length, seq_length in Hz. rewrite nth_map_seq0 by exact Hz. rewrite (map_nth (fun x => (3 * x) mod 2 ^ k)).
    cbn [map wanted_by length fold_right]. f_equal. change (Z.of_nat 2) with 2. ring. }
  rewrite Em in E3. exists c, qs, ys, sv', row, v. repeat (split; [assumption|]).
  intros (x & Hx & Hne). rewrite E3. cbn [final fold_left apply]. intros Habs. injection Habs as Habs.
  apply In_nth_error in Hx as (z & Hz). assert (nth_error (map (fun x => (3 * x) mod 2 ^ k) (A i)) z = Some x) as Hz' by (rewrite <- Hz; f_equal; exact Habs).
  rewrite nth_error_map, Hz in Hz'. cbn [option_map] in Hz'. assert ((3 * x) mod 2 ^ k = x) as Hx3 by (injection Hz'; intros Hx3; exact Hx3). apply Hne.
  pose proof Hp as (_ & _ & _ & _ & _ & _ & _ & Hk & _). assert (2 ^ k <> 0) as Hnz by (apply Z.pow_nonzero; lia).
  replace (2 * x) with (3 * x - x) by ring. rewrite Zminus_mod, Hx3. rewrite <- Hx3 at 2. rewrite Z.mod_mod by exact Hnz. rewrite Hx3, Z.sub_diag. apply Z.mod_0_l; exact Hnz.
Qed.
Print Assumptions C45_two_reads_refuted.

(** *** The hypotheses are satisfiable. *)
Definition demo_sv0 : res (client * server * list poly) :=
  setup_random_oram 1 (2 ^ 2) demo_nh demo_cx demo_s (fun i => [Z.of_nat (i mod 2); 1; 0; 1]) demo_tape.
Example C44_applies : exists cl sv pts qs ys sv',
  demo_sv0 = Ok (cl, sv, pts) /\
  ask_all cl demo_nh (fun _ _ => [0; 1; 1; 1]) (fun _ => demo_tape) 0 [Write 1 [1; 1; 1; 1]; Read 0] = Ok qs /\
  server_process_multi false (exact_fft 4) sv qs = Ok (ys, sv') /\
  Forall2 (fun y pt => decrypt_decode_rlwe demo_cx demo_s y = Ok pt) ys (answers (fun i => [Z.of_nat (i mod 2); 1; 0; 1]) [Write 1 [1; 1; 1; 1]; Read 0]).
Proof.
  destruct demo_setting as (Hp & Hf & Hs & HS). destruct demo_hash as (shuffle & Hperm & Hnew).
  destruct (setup_C40 demo_cx 2 1 Hp demo_s 3 Hs 1 (2 ^ 2) shuffle Hperm 2 2 demo_nh Hnew (fun i => [Z.of_nat (i mod 2); 1; 0; 1]) demo_pt demo_tape demo_tape_ok eq_refl)
    as (sv & D & Eq & Hsv & Hdb & Hco).
  destruct (C44_multi_distinct false demo_cx 2 1 (exact_fft 4) 0 demo_s 3 3 2 demo_nh 2 2 sv 3 D (fun i => [Z.of_nat (i mod 2); 1; 0; 1]) [Write 1 [1; 1; 1; 1]; Read 0]
     (fun _ _ => [0; 1; 1; 1]) (fun _ => demo_tape)) as (qs & ys & sv' & E1 & E2 & E3 & _); try assumption.
  - exact demo_setting.
  - right; discriminate.
  - lia.
  - exact demo_hash.
  - reflexivity.
  - intros i c Hi Ec. assert (hash_to_tuple demo_nh 0 i (2 ^ 2) = Ok (0%nat, c)) as Et.
    { destruct i as [|[|i]]; [| |lia]; vm_compute in Ec; injection Ec as <-; reflexivity. }
    rewrite (Hco 0%nat i 0%nat c ltac:(lia) Hi Et). destruct i as [|[|i]]; [| |lia]; reflexivity.
  - repeat apply Forall_cons; try apply Forall_nil; split; cbn; try lia; try exact I; split; try reflexivity; repeat apply Forall_cons; try apply Forall_nil; lia.
  - cbn. repeat constructor; cbn; intuition discriminate.
  - intros j. split; [reflexivity|]. repeat apply Forall_cons; try apply Forall_nil; lia.
  - intros j. exact demo_tape_ok.
  - vm_compute. reflexivity.
  - vm_compute. reflexivity.
  - exists (client_new 1 (2 ^ 2) demo_cx demo_s), sv, (map (fun i => [Z.of_nat ((i mod 128) mod 2); 1; 0; 1]) (seq 0 2)), qs, ys, sv'. auto.
Qed.
(** Modulus 4: two reads turn a stored 1 into 3. *)
Definition demo_cx2 : ctx :=
  {| c_mode := Checked; c_n := 4; c_base := 5; c_level := 11; c_ks_base := 5; c_ks_level := 11;
     c_negs_base := 5; c_negs_level := 11; c_codec := {| cd_base_log := 2; cd_delta := 2 ^ 62 |} |}.
Lemma demo_params2 : params_ok demo_cx2 2 2.
Proof. repeat split; cbn; try lia. Qed.
Example C45_applies : exists cl sv pts qs ys sv' row v,
  setup_random_oram 1 (2 ^ 2) demo_nh demo_cx2 demo_s (fun _ => [1; 0; 2; 3]) demo_tape = Ok (cl, sv, pts) /\
  ask_all cl demo_nh (fun _ _ => [0; 1; 1; 1]) (fun _ => demo_tape) 0 [Read 0; Read 0] = Ok qs /\
  server_process_multi false (exact_fft 4) sv qs = Ok (ys, sv') /\
  nth_error (srv_data sv') 0 = Some row /\ nth_error row 3 = Some v /\
  decrypt_decode_rlwe demo_cx2 demo_s v = Ok [3; 0; 2; 1].
Proof.
  destruct demo_hash as (shuffle & Hperm & Hnew).
  assert (forall i : nat, plaintext 4 2 [1; 0; 2; 3]) as Hpt by (intros _; split; [reflexivity|]; repeat apply Forall_cons; try apply Forall_nil; lia).
  destruct (setup_C40 demo_cx2 2 2 demo_params2 demo_s 3 demo_key 1 (2 ^ 2) shuffle Hperm 2 2 demo_nh Hnew (fun _ => [1; 0; 2; 3]) Hpt demo_tape demo_tape_ok eq_refl)
    as (sv & D & Eq & Hsv & Hdb & Hco).
  destruct (C45_two_reads_refuted false demo_cx2 2 2 (exact_fft 4) 0 demo_s 3 3 2 demo_nh 2 2 sv 3 D (fun i => [1; 0; 2; 3]) 0
     (fun _ _ => [0; 1; 1; 1]) (fun _ => demo_tape)) as (c & qs & ys & sv' & row & v & Ec & E1 & E2 & E3 & E4 & E5 & _); try assumption.
  - split; [exact demo_params2|]. split; [exact demo_fft_for|]. split; [exact demo_key|exact demo_l1].
  - lia.
  - exact demo_hash.
  - reflexivity.
  - intros i c Hi Ec. assert (hash_to_tuple demo_nh 0 i (2 ^ 2) = Ok (0%nat, c)) as Et.
    { destruct i as [|[|i]]; [| |lia]; vm_compute in Ec; injection Ec as <-; reflexivity. }
    exact (Hco 0%nat i 0%nat c ltac:(lia) Hi Et).
  - lia.
  - lia.
  - intros j. split; [reflexivity|]. repeat apply Forall_cons; try apply Forall_nil; lia.
  - intros j. exact demo_tape_ok.
  - vm_compute. reflexivity.
  - vm_compute. reflexivity.
  - vm_compute in Ec. injection Ec as <-.
    exists (client_new 1 (2 ^ 2) demo_cx2 demo_s), sv, (map (fun i => [1; 0; 2; 3]) (seq 0 2)), qs, ys, sv', row, v. auto 10.
Qed.
