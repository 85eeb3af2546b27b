(** * Properties C46-C48: batches.
    A database of [rows] rows and 2^a columns holds [hc] copies of every item, one per hash function
    ([copies_hold]).  [hash_to_mapping] gives each requested item at most one row (properties C33-C35);
    [SpecBatch] holds the plain array for batches. *)
From Coq Require Import Permutation.
From Verif Require Import MBase MUtils MCodec MPoly MRlwe MHash MTree MSched MOram SpecOram SpecBatch PfNear PfEnc4 PfHash PfSched PfOram4 PfOram10 LOram LBatch Demo PEnc POram PMulti.
Local Open Scope Z_scope.

(** C46.  A read batch, for any list of items: the row given to an item answers with the item's content,
    the other rows with their column 0; no cell changes its content. *)
Theorem C46_batch_read : forall pool cx lg k fft eps s S E a rows nh hc dom sv B D A is dm t,
  setting cx lg k fft eps s S -> spread pool rows -> spread pool dom -> (1 <= a <= 63)%nat -> hash_for nh hc dom -> (0 < rows)%nat -> (rows * 2 ^ a = hc * dom)%nat ->
  server_for cx s E sv -> db_holds cx s k B (srv_data sv) rows (2 ^ a) D -> copies_hold nh hc dom (2 ^ a) D A -> E <= B ->
  Forall (fun i => i < dom)%nat is -> (forall r, plaintext (c_n cx) k (dm r)) -> tape_ok (c_n cx) E t ->
  2 * (B + answer_growth cx a S E eps) < 2 ^ (64 - k) -> 2 * (B + batch_growth cx a hc S E eps) < 2 ^ (64 - k) ->
  exists mp qs ys sv', hash_to_mapping nh is (2 ^ a) = Ok mp /\
    gen_read_query_batch (client_new rows (2 ^ a) cx s) is nh dm t = Ok qs /\ server_process_batch pool fft sv qs nh = Ok (ys, sv') /\
    length ys = rows /\
    (forall r c i, In (r, (c, i)) mp -> exists y, nth_error ys r = Some y /\ decrypt_decode_rlwe cx s y = Ok (A i)) /\
    (forall r y, ~ In r (map fst mp) -> nth_error ys r = Some y -> decrypt_decode_rlwe cx s y = Ok (D r 0%nat)) /\
    server_for cx s E sv' /\ db_holds cx s k (B + batch_growth cx a hc S E eps) (srv_data sv') rows (2 ^ a) D /\
    (forall r c row v, nth_error (srv_data sv') r = Some row -> nth_error row c = Some v -> decrypt_decode_rlwe cx s v = Ok (D r c)).
Proof.
  intros pool cx lg k fft eps s S E a rows nh hc dom sv B D A is dm t (Hp & Hf & Hs & HS) Hpr Hpd Ha (shuffle & Hperm & Hnew) Hr Hdim Hsv Hdb HA HE His Hdm Ht Hb1 Hb2.
  assert (brequest_ok cx k dom (BRead is)) as Hbr by (split; [exact His|exact I]).
  destruct (batch_step cx lg k Hp fft eps Hf s (binary_key_wf _ _ Hs) S E HS a Ha rows Hr shuffle Hperm hc dom nh Hnew Hdim pool Hpr Hpd sv B D A (BRead is) dm t Hsv Hdb HA HE Hbr I Hdm Ht)
    as (mp & qs & ys & sv' & D' & Em & Hmi & Eq & Er & Ly & Hy & Hsv' & Hdb' & _ & ->).
  exists mp, qs, ys, sv'. split; [exact Em|]. split; [exact Eq|]. split; [exact Er|]. split; [exact Ly|]. split; [|split; [|split; [exact Hsv'|split; [exact Hdb'|]]]].
  - intros r c i Hin. apply (batch_rows cx lg k Hp eps s S E a Ha rows Hr shuffle Hperm hc dom nh Hnew Hdim sv B D A (BRead is) mp ys Hdb HA Hbr Em Hmi Ly Hy Hb1).
    unfold batch_answer, placed. cbn [batch_items] in *. rewrite Em. apply in_map_iff. exists (r, (c, i)). auto.
  - intros r y Hni Ey. specialize (Hy r y Ey). unfold bslot in Hy. destruct (hget mp r) as [v|] eqn:Eg.
    + exfalso. apply Hni. apply hget_Some_in in Eg. apply (in_map fst) in Eg. exact Eg.
    + eapply holds_decrypts; eassumption.
  - intros r c row v E1 E2. eapply db_decrypts; eassumption.
Qed.
Print Assumptions C46_batch_read.

(** C47.  A write batch on distinct items: every item that got a row has the new data in all its copies,
    every other item is unchanged in all its copies; the rows answer with the previous content. *)
Theorem C47_batch_write : forall pool cx lg k fft eps s S E a rows nh hc dom sv B D A is alpha dm t,
  setting cx lg k fft eps s S -> spread pool rows -> spread pool dom -> (1 <= a <= 63)%nat -> hash_for nh hc dom -> (0 < rows)%nat -> (rows * 2 ^ a = hc * dom)%nat ->
  server_for cx s E sv -> db_holds cx s k B (srv_data sv) rows (2 ^ a) D -> copies_hold nh hc dom (2 ^ a) D A -> E <= B ->
  Forall (fun i => i < dom)%nat is -> NoDup is -> plaintext (c_n cx) k alpha -> (forall r, plaintext (c_n cx) k (dm r)) -> tape_ok (c_n cx) E t ->
  2 * (B + answer_growth cx a S E eps) < 2 ^ (64 - k) -> 2 * (B + batch_growth cx a hc S E eps) < 2 ^ (64 - k) ->
  exists mp qs ys sv' D', hash_to_mapping nh is (2 ^ a) = Ok mp /\
    gen_write_query_batch (client_new rows (2 ^ a) cx s) is alpha nh dm t = Ok qs /\ server_process_batch pool fft sv qs nh = Ok (ys, sv') /\
    length ys = rows /\
    (forall r c i, In (r, (c, i)) mp -> exists y, nth_error ys r = Some y /\ decrypt_decode_rlwe cx s y = Ok (A i)) /\
    server_for cx s E sv' /\ db_holds cx s k (B + batch_growth cx a hc S E eps) (srv_data sv') rows (2 ^ a) D' /\
    (* every copy of every item *)
    forall h i, (h < hc)%nat -> (i < dom)%nat -> exists r c row v, hash_to_tuple nh h i (2 ^ a) = Ok (r, c) /\
      nth_error (srv_data sv') r = Some row /\ nth_error row c = Some v /\
      ((exists r' c', In (r', (c', i)) mp) -> D' r c = alpha /\ decrypt_decode_rlwe cx s v = Ok alpha) /\
      ((forall r' c', ~ In (r', (c', i)) mp) -> D' r c = A i /\ decrypt_decode_rlwe cx s v = Ok (A i)).
Proof.
  intros pool cx lg k fft eps s S E a rows nh hc dom sv B D A is alpha dm t (Hp & Hf & Hs & HS) Hpr Hpd Ha (shuffle & Hperm & Hnew) Hr Hdim Hsv Hdb HA HE His Hnd Hal Hdm Ht Hb1 Hb2.
  assert (brequest_ok cx k dom (BWrite is alpha)) as Hbr by (split; [exact His|exact Hal]).
  destruct (batch_step cx lg k Hp fft eps Hf s (binary_key_wf _ _ Hs) S E HS a Ha rows Hr shuffle Hperm hc dom nh Hnew Hdim pool Hpr Hpd sv B D A (BWrite is alpha) dm t Hsv Hdb HA HE Hbr Hnd Hdm Ht)
    as (mp & qs & ys & sv' & D' & Em & Hmi & Eq & Er & Ly & Hy & Hsv' & Hdb' & HA' & _).
  exists mp, qs, ys, sv', D'. split; [exact Em|]. split; [exact Eq|]. split; [exact Er|]. split; [exact Ly|]. split; [|split; [exact Hsv'|split; [exact Hdb'|]]].
  - intros r c i Hin. apply (batch_rows cx lg k Hp eps s S E a Ha rows Hr shuffle Hperm hc dom nh Hnew Hdim sv B D A (BWrite is alpha) mp ys Hdb HA Hbr Em Hmi Ly Hy Hb1).
    unfold batch_answer, placed. cbn [batch_items] in *. rewrite Em. apply in_map_iff. exists (r, (c, i)). auto.
  - intros h i Hh Hi. destruct (tuple_range shuffle Hperm hc dom nh Hnew h i rows (2 ^ a) Hh Hi Hdim) as (_ & r & c & _ & Et & Hrr & Hc & _).
    pose proof Hdb' as (Hlen & Hrl & _). rewrite Forall_forall in Hrl.
    destruct (nth_error (srv_data sv') r) as [row|] eqn:E1; [|apply nth_error_None in E1; lia].
    pose proof (Hrl row (nth_error_In _ _ E1)) as Hrow. destruct (nth_error row c) as [v|] eqn:E2; [|apply nth_error_None in E2; lia].
    exists r, c, row, v. split; [exact Et|]. split; [exact E1|]. split; [exact E2|].
    pose proof (db_decrypts cx lg k s _ _ _ _ _ Hp Hdb' Hb2 r c row v E1 E2) as Hdec. specialize (HA' h i r c Hh Hi Et). cbn [apply_batch] in HA'.
    unfold served, placed in HA'. cbn [batch_items] in Em. rewrite Em in HA'. split.
    + intros (r' & c' & Hin). assert (existsb (fun e => (snd (snd e) =? i)%nat) mp = true) as Ex.
      { apply existsb_exists. exists (r', (c', i)). split; [exact Hin|]. apply Nat.eqb_refl. }
      rewrite Ex in HA'. rewrite HA' in Hdec. auto.
    + intros Hno. assert (existsb (fun e => (snd (snd e) =? i)%nat) mp = false) as Ex.
      { apply not_true_iff_false. intros Hx. apply existsb_exists in Hx as ([r' [c' j]] & Hin & Ej). cbn [snd] in Ej. apply Nat.eqb_eq in Ej. subst j. exact (Hno r' c' Hin). }
      rewrite Ex in HA'. rewrite HA' in Hdec. auto.
Qed.
Print Assumptions C47_batch_write.

(** What any write batch does, repeated items included: if the first copy of item i was written, all its
    copies hold the data; otherwise they hold v + L * (data - v), where L copies were written. *)
Theorem C47_batch_write_exact : forall pool cx lg k fft eps s S E a rows nh hc dom sv B D A is alpha dm t,
  setting cx lg k fft eps s S -> spread pool rows -> spread pool dom -> (1 <= a <= 63)%nat -> hash_for nh hc dom -> (0 < rows)%nat -> (rows * 2 ^ a = hc * dom)%nat ->
  server_for cx s E sv -> db_holds cx s k B (srv_data sv) rows (2 ^ a) D -> copies_hold nh hc dom (2 ^ a) D A -> E <= B ->
  Forall (fun i => i < dom)%nat is -> plaintext (c_n cx) k alpha -> (forall r, plaintext (c_n cx) k (dm r)) -> tape_ok (c_n cx) E t ->
  exists qs ys sv', gen_write_query_batch (client_new rows (2 ^ a) cx s) is alpha nh dm t = Ok qs /\ server_process_batch pool fft sv qs nh = Ok (ys, sv') /\
    forall h i, (h < hc)%nat -> (i < dom)%nat ->
      let written h' := copy_written nh (2 ^ a) (BWrite is alpha) h' i in
      let L := length (filter written (seq 1 (hc - 1))) in
      2 * copies_noise cx a hc S E eps B L < 2 ^ (64 - k) ->
      exists r c row v, hash_to_tuple nh h i (2 ^ a) = Ok (r, c) /\ nth_error (srv_data sv') r = Some row /\ nth_error row c = Some v /\
        decrypt_decode_rlwe cx s v = Ok (batch_result (c_n cx) k (A i) alpha (written 0%nat) L).
Proof.
  intros pool cx lg k fft eps s S E a rows nh hc dom sv B D A is alpha dm t (Hp & Hf & Hs & HS) Hpr Hpd Ha (shuffle & Hperm & Hnew) Hr Hdim Hsv Hdb HA HE His Hal Hdm Ht.
  assert (brequest_ok cx k dom (BWrite is alpha)) as Hbr by (split; [exact His|exact Hal]).
  destruct (batch_any cx lg k Hp fft eps Hf s (binary_key_wf _ _ Hs) S E HS a Ha rows Hr shuffle Hperm hc dom nh Hnew Hdim pool sv B D A (BWrite is alpha) dm t Hsv Hdb HA HE Hbr Hdm Ht Hpr Hpd)
    as (mp & qs & ys & sv' & Em & Hmi & Eq & Er & Ly & Hy & Hsv' & Hsh & Hc).
  exists qs, ys, sv'. split; [exact Eq|]. split; [exact Er|]. intros h i Hh Hi written L HL.
  destruct (tuple_range shuffle Hperm hc dom nh Hnew h i rows (2 ^ a) Hh Hi Hdim) as (_ & r & c & _ & Et & _).
  destruct (Hc h i r c Hh Hi Et) as (v & Ev & Hv). unfold mget in Ev. destruct (nth_error (srv_data sv') r) as [row|] eqn:E1; [|discriminate].
  exists r, c, row, v. split; [exact Et|]. split; [exact E1|]. split; [exact Ev|]. eapply holds_decrypts; eassumption.
Qed.
Print Assumptions C47_batch_write_exact.

(** C48.  Any history of batches, from any database with consistent copies .. *)
Theorem C48_batch_history : forall pool cx lg k fft eps s S E a rows nh hc dom sv B D A brs dm t,
  setting cx lg k fft eps s S -> spread pool rows -> spread pool dom -> (1 <= a <= 63)%nat -> hash_for nh hc dom -> (0 < rows)%nat -> (rows * 2 ^ a = hc * dom)%nat ->
  server_for cx s E sv -> db_holds cx s k B (srv_data sv) rows (2 ^ a) D -> copies_hold nh hc dom (2 ^ a) D A -> E <= B ->
  Forall (brequest_ok cx k dom) brs -> (forall is data, In (BWrite is data) brs -> NoDup is) ->
  (forall j r, plaintext (c_n cx) k (dm j r)) -> (forall j, tape_ok (c_n cx) E (t j)) ->
  2 * (B + Z.of_nat (length brs) * batch_growth cx a hc S E eps + answer_growth cx a S E eps) < 2 ^ (64 - k) ->
  exists yss sv' D', batch_session pool fft (client_new rows (2 ^ a) cx s) nh dm t 0 sv brs = Ok (yss, sv') /\
    Forall2 (rows_answer cx s) yss (batch_answers nh (2 ^ a) A brs) /\
    server_for cx s E sv' /\
    db_holds cx s k (B + Z.of_nat (length brs) * batch_growth cx a hc S E eps) (srv_data sv') rows (2 ^ a) D' /\
    copies_hold nh hc dom (2 ^ a) D' (batch_final nh (2 ^ a) A brs).
Proof.
  intros pool cx lg k fft eps s S E a rows nh hc dom sv B D A brs dm t (Hp & Hf & Hs & HS) Hpr Hpd Ha (shuffle & Hperm & Hnew) Hr Hdim Hsv Hdb HA HE Hbr Hd Hdm Ht Hbud.
  apply (batch_session_ok cx lg k Hp fft eps Hf s (binary_key_wf _ _ Hs) S E HS a Ha rows Hr shuffle Hperm hc dom nh Hnew Hdim pool Hpr Hpd brs 0%nat sv B D A dm t); try assumption.
  apply Forall_forall. intros br Hin. destruct br as [is|is data]; cbn; [exact I|]. eapply Hd; exact Hin.
Qed.
Print Assumptions C48_batch_history.

(** .. in particular from the database [setup_random_oram] builds. *)
Theorem C48_setup_then_batches : forall pool cx lg k fft eps s S E a rows nh hc dom gp t0 brs dm t,
  setting cx lg k fft eps s S -> spread pool rows -> spread pool dom -> (1 <= a <= 63)%nat -> hash_for nh hc dom -> (0 < rows)%nat -> (rows * 2 ^ a = hc * dom)%nat ->
  (forall i, plaintext (c_n cx) k (gp i)) -> tape_ok (c_n cx) E t0 ->
  Forall (brequest_ok cx k dom) brs -> (forall is data, In (BWrite is data) brs -> NoDup is) ->
  (forall j r, plaintext (c_n cx) k (dm j r)) -> (forall j, tape_ok (c_n cx) E (t j)) ->
  2 * (E + Z.of_nat (length brs) * batch_growth cx a hc S E eps + answer_growth cx a S E eps) < 2 ^ (64 - k) ->
  exists cl sv pts yss sv', setup_random_oram rows (2 ^ a) nh cx s gp t0 = Ok (cl, sv, pts) /\
    batch_session pool fft cl nh dm t 0 sv brs = Ok (yss, sv') /\
    Forall2 (rows_answer cx s) yss (batch_answers nh (2 ^ a) (fun i => nth i pts []) brs).
Proof.
  intros pool cx lg k fft eps s S E a rows nh hc dom gp t0 brs dm t Hset Hpr Hpd Ha Hh Hr Hdim Hgp Ht0 Hbr Hd Hdm Ht Hbud.
  pose proof Hset as (Hp & Hf & Hs & HS). pose proof Hh as (shuffle & Hperm & Hnew).
  destruct (setup_C40 cx lg k Hp s E Hs rows (2 ^ a) shuffle Hperm hc dom nh Hnew gp Hgp t0 Ht0 ltac:(lia)) as (sv & D & Eq & Hsv & Hdb & Hco).
  destruct (C48_batch_history pool cx lg k fft eps s S E a rows nh hc dom sv E D (fun i => nth i (map (fun i => gp (i mod 128)%nat) (seq 0 dom)) []) brs dm t) as (ys & sv' & D' & Es & HF & _);
    try assumption; [|lia|].
  - intros h i r c Hhh Hi Et. rewrite nth_map_seq0 by exact Hi. apply (Hco h i r c Hhh Hi Et).
  - exists (client_new rows (2 ^ a) cx s), sv, (map (fun i => gp (i mod 128)%nat) (seq 0 dom)), ys, sv'. auto.
Qed.
Print Assumptions C48_setup_then_batches.

(** *** The hypotheses are satisfiable: ring dimension 4, 2 items, 3 hash functions, 3 rows of 2 columns. *)
Definition demo_shuffle (l : list nat) : list nat := if list_eq_dec Nat.eq_dec l [0; 1; 2; 3; 4; 5]%nat then [0; 2; 4; 1; 3; 5]%nat else l.
Lemma demo_shuffle_perm l : Permutation (demo_shuffle l) l.
Proof.
  unfold demo_shuffle. destruct (list_eq_dec Nat.eq_dec l [0; 1; 2; 3; 4; 5]%nat) as [->|]; [|apply Permutation_refl].
  apply NoDup_Permutation; [repeat constructor; cbn; intuition discriminate..|]. intros x. cbn. intuition.
Qed.
Definition demo_nh3 : nhash := match nh_new demo_shuffle 3 2 with Ok nh => nh | _ => {| nh_h_count := 0; nh_input_domain := 0; nh_tables := [] |} end.
Lemma demo_nh3_new : nh_new demo_shuffle 3 2 = Ok demo_nh3.
Proof. reflexivity. Qed.
Lemma demo_hash3 : hash_for demo_nh3 3 2.
Proof. exists demo_shuffle. split; [exact demo_shuffle_perm|exact demo_nh3_new]. Qed.
Example C48_applies : exists cl sv pts yss sv',
  setup_random_oram 3 (2 ^ 1) demo_nh3 demo_cx demo_s (fun i => [Z.of_nat (i mod 2); 1; 0; 1]) demo_tape = Ok (cl, sv, pts) /\
  batch_session false (exact_fft 4) cl demo_nh3 (fun _ _ => [0; 1; 1; 1]) (fun _ => demo_tape) 0 sv [BRead [1; 0]%nat; BWrite [1; 0]%nat [1; 1; 1; 1]; BRead [0; 0]%nat] = Ok (yss, sv') /\
  Forall2 (rows_answer demo_cx demo_s) yss
    [[(0%nat, [1; 1; 0; 1]); (1%nat, [0; 1; 0; 1])]; [(0%nat, [1; 1; 0; 1]); (1%nat, [0; 1; 0; 1])]; [(0%nat, [1; 1; 1; 1]); (1%nat, [1; 1; 1; 1])]].
Proof.
  destruct (C48_setup_then_batches false demo_cx 2 1 (exact_fft 4) 0 demo_s 3 3 1 3 demo_nh3 3 2 (fun i => [Z.of_nat (i mod 2); 1; 0; 1]) demo_tape
     [BRead [1; 0]%nat; BWrite [1; 0]%nat [1; 1; 1; 1]; BRead [0; 0]%nat] (fun _ _ => [0; 1; 1; 1]) (fun _ => demo_tape)) as (cl & sv & pts & yss & sv' & E1 & E2 & E3).
  - exact demo_setting.
  - right; discriminate.
  - right; discriminate.
  - lia.
  - exact demo_hash3.
  - lia.
  - reflexivity.
  - exact demo_pt.
  - exact demo_tape_ok.
  - repeat apply Forall_cons; try apply Forall_nil; split; cbn [batch_items]; try exact I; repeat apply Forall_cons; try apply Forall_nil; try lia.
    split; [reflexivity|]. repeat apply Forall_cons; try apply Forall_nil; lia.
  - intros is data [H|[H|[H|[]]]]; try discriminate. injection H as <- <-. repeat constructor; cbn; intuition discriminate.
  - intros j r. split; [reflexivity|]. repeat apply Forall_cons; try apply Forall_nil; lia.
  - intros j. exact demo_tape_ok.
  - vm_compute. reflexivity.
  - exists cl, sv, pts, yss, sv'. split; [exact E1|]. split; [exact E2|].
    destruct demo_setting as (Hp & Hf & Hs & HS). destruct demo_hash3 as (shuffle & Hperm & Hnew).
    destruct (setup_C40 demo_cx 2 1 Hp demo_s 3 Hs 3 (2 ^ 1) shuffle Hperm 3 2 demo_nh3 Hnew (fun i => [Z.of_nat (i mod 2); 1; 0; 1]) demo_pt demo_tape demo_tape_ok eq_refl)
      as (sv2 & D2 & Eq2 & _). rewrite E1 in Eq2. injection Eq2 as _ _ ->. exact E3.
Qed.

(** The property is false for repeated items: writing zeros to items 1, 0, 0 leaves 2 * 0 - v in item 0,
    neither the data nor the old content. *)
Theorem C47_repeated_item_refuted : exists cl sv pts qs ys sv' row v,
  setup_random_oram 3 (2 ^ 1) demo_nh3 demo_cx2 demo_s (fun _ => [1; 0; 2; 3]) demo_tape = Ok (cl, sv, pts) /\
  gen_write_query_batch cl [1; 0; 0]%nat [0; 0; 0; 0] demo_nh3 (fun _ => [0; 1; 1; 1]) demo_tape = Ok qs /\
  server_process_batch false (exact_fft 4) sv qs demo_nh3 = Ok (ys, sv') /\
  hash_to_tuple demo_nh3 0 0 (2 ^ 1) = Ok (0%nat, 0%nat) /\
  nth_error (srv_data sv') 0 = Some row /\ nth_error row 0 = Some v /\
  decrypt_decode_rlwe demo_cx2 demo_s v = Ok [3; 0; 2; 1].
Proof.
  assert (forall i : nat, plaintext 4 2 [1; 0; 2; 3]) as Hpt by (intros _; split; [reflexivity|]; repeat apply Forall_cons; try apply Forall_nil; lia).
  destruct (setup_C40 demo_cx2 2 2 demo_params2 demo_s 3 demo_key 3 (2 ^ 1) demo_shuffle demo_shuffle_perm 3 2 demo_nh3 demo_nh3_new (fun _ => [1; 0; 2; 3]) Hpt demo_tape demo_tape_ok eq_refl)
    as (sv & D & Eq & Hsv & Hdb & Hco).
  destruct (C47_batch_write_exact false demo_cx2 2 2 (exact_fft 4) 0 demo_s 3 3 1 3 demo_nh3 3 2 sv 3 D (fun i => [1; 0; 2; 3]) [1; 0; 0]%nat [0; 0; 0; 0]
     (fun _ => [0; 1; 1; 1]) demo_tape) as (qs & ys & sv' & E1 & E2 & E3); try assumption.
  - split; [exact demo_params2|]. split; [exact demo_fft_for|]. split; [exact demo_key|exact demo_l1].
  - right; discriminate.
  - right; discriminate.
  - lia.
  - exact demo_hash3.
  - lia.
  - reflexivity.
  - lia.
  - repeat apply Forall_cons; try apply Forall_nil; lia.
  - split; [reflexivity|]. repeat apply Forall_cons; try apply Forall_nil; lia.
  - intros j. split; [reflexivity|]. repeat apply Forall_cons; try apply Forall_nil; lia.
  - exact demo_tape_ok.
  - destruct (E3 0%nat 0%nat ltac:(lia) ltac:(lia)) as (r & c & row & v & F1 & F2 & F3 & F4); [vm_compute; reflexivity|].
    vm_compute in F1. injection F1 as <- <-.
    exists (client_new 3 (2 ^ 1) demo_cx2 demo_s), sv, (map (fun i => [1; 0; 2; 3]) (seq 0 2)), qs, ys, sv', row, v. auto 10.
Qed.
Print Assumptions C47_repeated_item_refuted.

Example C46_C47_apply : exists cl sv pts,
  setup_random_oram 3 (2 ^ 1) demo_nh3 demo_cx2 demo_s (fun _ => [1; 0; 2; 3]) demo_tape = Ok (cl, sv, pts) /\
  (exists qs ys sv' y, gen_read_query_batch cl [1; 0]%nat demo_nh3 (fun _ => [0; 1; 1; 1]) demo_tape = Ok qs /\
     server_process_batch false (exact_fft 4) sv qs demo_nh3 = Ok (ys, sv') /\ nth_error ys 1 = Some y /\ decrypt_decode_rlwe demo_cx2 demo_s y = Ok [1; 0; 2; 3]) /\
  (exists qs ys sv' row v, gen_write_query_batch cl [1; 0]%nat [0; 3; 1; 0] demo_nh3 (fun _ => [0; 1; 1; 1]) demo_tape = Ok qs /\
     server_process_batch false (exact_fft 4) sv qs demo_nh3 = Ok (ys, sv') /\ nth_error (srv_data sv') 2 = Some row /\ nth_error row 1 = Some v /\
     decrypt_decode_rlwe demo_cx2 demo_s v = Ok [0; 3; 1; 0]).
Proof.
  assert (forall i : nat, plaintext 4 2 [1; 0; 2; 3]) as Hpt by (intros _; split; [reflexivity|]; repeat apply Forall_cons; try apply Forall_nil; lia).
  assert (forall i : nat, plaintext 4 2 [0; 1; 1; 1]) as Hdm by (intros _; split; [reflexivity|]; repeat apply Forall_cons; try apply Forall_nil; lia).
  assert (setting demo_cx2 2 2 (exact_fft 4) 0 demo_s 3) as Hset by (split; [exact demo_params2|]; split; [exact demo_fft_for|]; split; [exact demo_key|exact demo_l1]).
  destruct (setup_C40 demo_cx2 2 2 demo_params2 demo_s 3 demo_key 3 (2 ^ 1) demo_shuffle demo_shuffle_perm 3 2 demo_nh3 demo_nh3_new (fun _ => [1; 0; 2; 3]) Hpt demo_tape demo_tape_ok eq_refl)
    as (sv & D & Eq & Hsv & Hdb & Hco).
  exists (client_new 3 (2 ^ 1) demo_cx2 demo_s), sv, (map (fun i => [1; 0; 2; 3]) (seq 0 2)). split; [exact Eq|].
  assert (2 * (3 + answer_growth demo_cx2 1 3 3 0) < 2 ^ (64 - 2)) as Hb1 by (vm_compute; reflexivity).
  assert (2 * (3 + batch_growth demo_cx2 1 3 3 3 0) < 2 ^ (64 - 2)) as Hb2 by (vm_compute; reflexivity).
  assert (Forall (fun i => i < 2)%nat [1; 0]%nat) as His by (repeat apply Forall_cons; try apply Forall_nil; lia). split.
  - destruct (C46_batch_read false demo_cx2 2 2 (exact_fft 4) 0 demo_s 3 3 1 3 demo_nh3 3 2 sv 3 D (fun i => [1; 0; 2; 3]) [1; 0]%nat (fun _ => [0; 1; 1; 1]) demo_tape
       Hset ltac:(right; discriminate) ltac:(right; discriminate) ltac:(lia) demo_hash3 ltac:(lia) eq_refl Hsv Hdb Hco ltac:(lia) His Hdm demo_tape_ok Hb1 Hb2) as (mp & qs & ys & sv' & Em & E1 & E2 & _ & E3 & _).
    assert (mp = [(0, (1, 1)); (1, (0, 0))]%nat) as -> by (vm_compute in Em; congruence).
    destruct (E3 1%nat 0%nat 0%nat) as (y & E4 & E5); [right; left; reflexivity|]. exists qs, ys, sv', y. auto.
  - destruct (C47_batch_write false demo_cx2 2 2 (exact_fft 4) 0 demo_s 3 3 1 3 demo_nh3 3 2 sv 3 D (fun i => [1; 0; 2; 3]) [1; 0]%nat [0; 3; 1; 0] (fun _ => [0; 1; 1; 1]) demo_tape
       Hset ltac:(right; discriminate) ltac:(right; discriminate) ltac:(lia) demo_hash3 ltac:(lia) eq_refl Hsv Hdb Hco ltac:(lia) His) as (mp & qs & ys & sv' & D' & Em & E1 & E2 & _ & _ & _ & _ & E3);
      [repeat constructor; cbn; intuition discriminate|split; [reflexivity|]; repeat apply Forall_cons; try apply Forall_nil; lia|exact Hdm|exact demo_tape_ok|exact Hb1|exact Hb2|].
    assert (mp = [(0, (1, 1)); (1, (0, 0))]%nat) as -> by (vm_compute in Em; congruence).
    destruct (E3 2%nat 1%nat ltac:(lia) ltac:(lia)) as (r & c & row & v & F1 & F2 & F3 & F4 & _). vm_compute in F1. injection F1 as <- <-.
    exists qs, ys, sv', row, v. repeat (split; [assumption|]). apply F4. exists 0%nat, 1%nat. left; reflexivity.
Qed.
