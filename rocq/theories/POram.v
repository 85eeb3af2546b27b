(** * Properties C40-C43: setup and single queries.
    [SpecOram] holds the vocabulary: [db_holds] (what a database contains, up to noise), the plain array
    ([apply], [answers], [final]), [session] and the noise budget. *)
From Coq Require Import Permutation.
From Verif Require Import MBase MUtils MCodec MPoly MRlwe MHash MTree MSched MOram SpecOram PfNear PfEnc4 PfHash PfOram4 LOram Demo PEnc.
Local Open Scope Z_scope.

(** C40.  Setup. *)
Theorem C40_setup : forall cx lg k s E rows cols nh hc dom gp t,
  params_ok cx lg k -> binary_key (c_n cx) s -> hash_for nh hc dom -> (forall i, plaintext (c_n cx) k (gp i)) -> tape_ok (c_n cx) E t ->
  2 * E < 2 ^ (64 - k) ->
  (rows * cols = dom * hc)%nat ->
  exists sv D pts, setup_random_oram rows cols nh cx s gp t = Ok (client_new rows cols cx s, sv, pts) /\
    length pts = dom /\ server_for cx s E sv /\ db_holds cx s k E (srv_data sv) rows cols D /\
    (* every copy of every item is in range and decrypts to the item *)
    (forall h i, (h < hc)%nat -> (i < dom)%nat -> exists r c row v pt, hash_to_tuple nh h i cols = Ok (r, c) /\
       nth_error (srv_data sv) r = Some row /\ nth_error row c = Some v /\ nth_error pts i = Some pt /\ D r c = pt /\
       decrypt_decode_rlwe cx s v = Ok pt) /\
    (* every cell is a copy of exactly one item *)
    (forall r c, (r < rows)%nat -> (c < cols)%nat -> exists! hi, (fst hi < hc)%nat /\ (snd hi < dom)%nat /\
       hash_to_tuple nh (fst hi) (snd hi) cols = Ok (r, c)).
Proof.
  intros cx lg k s E rows cols nh hc dom gp t Hp Hs (shuffle & Hperm & Hnew) Hgp Ht HE Hdim.
  destruct (setup_C40 cx lg k Hp s E Hs rows cols shuffle Hperm hc dom nh Hnew gp Hgp t Ht Hdim) as (sv & D & Eq & Hsv & Hdb & Hco).
  assert (rows * cols = hc * dom)%nat as Hdim' by lia.
  exists sv, D, (map (fun i => gp (i mod 128)%nat) (seq 0 dom)). split; [exact Eq|]. split; [rewrite map_length, seq_length; reflexivity|].
  split; [exact Hsv|]. split; [exact Hdb|]. split.
  - intros h i Hh Hi. destruct (tuple_range shuffle Hperm hc dom nh Hnew h i rows cols Hh Hi Hdim') as (y & r & c & _ & Et & Hr & Hc & _).
    pose proof Hdb as (Hlen & Hrows & Hcell). rewrite Forall_forall in Hrows.
    destruct (nth_error (srv_data sv) r) as [row|] eqn:Er; [|apply nth_error_None in Er; lia].
    pose proof (Hrows row (nth_error_In _ _ Er)) as Hrow. destruct (nth_error row c) as [v|] eqn:Ev; [|apply nth_error_None in Ev; lia].
    exists r, c, row, v, (D r c). repeat split; try assumption.
    + rewrite nth_error_map, (nth_error_nth' _ 0%nat) by (rewrite seq_length; exact Hi). rewrite seq_nth by exact Hi. cbn [option_map]. f_equal.
      symmetry. apply (Hco h i); assumption.
    + eapply db_decrypts; try eassumption.
  - intros r c Hr Hc. destruct (tuple_surj shuffle Hperm hc dom nh Hnew rows cols r c Hdim' Hr Hc) as (h & i & Hh & Hi & Et).
    exists (h, i). split; [auto|]. intros [h' i'] (Hh' & Hi' & Et'). cbn [fst snd] in *.
    destruct (tuple_inj shuffle Hperm hc dom nh Hnew h i h' i' cols r c Hh Hi Hh' Hi' ltac:(lia) Et Et') as [-> ->]. reflexivity.
Qed.
Print Assumptions C40_setup.

Theorem C40_dimension_mismatch_panics : forall cx s rows cols nh hc dom gp t,
  hash_for nh hc dom -> (rows * cols <> dom * hc)%nat -> setup_random_oram rows cols nh cx s gp t = Panic PAssert.
Proof. intros cx s rows cols nh hc dom gp t (shuffle & _ & Hnew). eapply setup_mismatch_C40; eassumption. Qed.
Print Assumptions C40_dimension_mismatch_panics.

(** C41.  A read. *)
Theorem C41_single_read : forall pool cx lg k fft eps s S E a nh hc dom sv B D i dm t,
  setting cx lg k fft eps s S -> spread pool (c_level cx) -> (1 <= a <= 63)%nat -> hash_for nh hc dom -> (hc * dom = 2 ^ a)%nat ->
  server_for cx s E sv -> db_holds cx s k B (srv_data sv) 1 (2 ^ a) D -> E <= B ->
  (i < dom)%nat -> plaintext (c_n cx) k (dm 0%nat) -> tape_ok (c_n cx) E t ->
  2 * (B + growth cx a S E eps + answer_growth cx a S E eps) < 2 ^ (64 - k) ->
  exists c qy y sv', hash nh 0 i = Ok c /\
    gen_read_query_one (client_new 1 (2 ^ a) cx s) i nh dm t = Ok qy /\ server_process_one pool fft sv qy = Ok (y, sv') /\
    decrypt_decode_rlwe cx s y = Ok (D 0%nat c) /\
    server_for cx s E sv' /\ db_holds cx s k (B + growth cx a S E eps) (srv_data sv') 1 (2 ^ a) D /\
    (forall c' row v, nth_error (srv_data sv') 0 = Some row -> nth_error row c' = Some v ->
       decrypt_decode_rlwe cx s v = Ok (D 0%nat c')).
Proof.
  intros pool cx lg k fft eps s S E a nh hc dom sv B D i dm t (Hp & Hf & Hs & HS) Hpool Ha (shuffle & Hperm & Hnew) Hdim Hsv Hdb HE Hi Hdm Ht Hbud.
  pose proof (params_n cx lg k Hp) as Hn.
  destruct (query_step cx lg k Hp fft eps Hf s (binary_key_wf _ _ Hs) S E HS a Ha shuffle Hperm hc dom nh Hnew Hdim pool Hpool sv B D (Read i) dm t Hsv Hdb HE (conj Hi I) Hdm Ht)
    as (c & qy & y & sv' & Eh & Hc & Eq & Er & Hy & Hsv' & Hdb').
  pose proof (growth_nonneg cx lg k Hp fft eps Hf s S E HS a Ha sv Hsv) as HG.
  assert (0 <= answer_growth cx a S E eps) as HA by (apply answer_nonneg with (lg := lg) (k := k) (fft := fft) (s := s) (sv := sv); assumption).
  exists c, qy, y, sv'. split; [exact Eh|]. split; [exact Eq|]. split; [exact Er|]. split; [|split; [exact Hsv'|split; [exact Hdb'|]]].
  - eapply holds_decrypts; try eassumption. lia.
  - intros c' row v H1 H2. eapply db_decrypts; try eassumption. lia.
Qed.
Print Assumptions C41_single_read.

(** C42.  A write. *)
Theorem C42_single_write : forall pool cx lg k fft eps s S E a nh hc dom sv B D i alpha dm t,
  setting cx lg k fft eps s S -> spread pool (c_level cx) -> (1 <= a <= 63)%nat -> hash_for nh hc dom -> (hc * dom = 2 ^ a)%nat ->
  server_for cx s E sv -> db_holds cx s k B (srv_data sv) 1 (2 ^ a) D -> E <= B ->
  (i < dom)%nat -> plaintext (c_n cx) k alpha -> plaintext (c_n cx) k (dm 0%nat) -> tape_ok (c_n cx) E t ->
  2 * (B + growth cx a S E eps + answer_growth cx a S E eps) < 2 ^ (64 - k) ->
  exists c qy y sv', hash nh 0 i = Ok c /\
    gen_write_query_one (client_new 1 (2 ^ a) cx s) i alpha nh dm t = Ok qy /\ server_process_one pool fft sv qy = Ok (y, sv') /\
    decrypt_decode_rlwe cx s y = Ok (D 0%nat c) /\
    server_for cx s E sv' /\ db_holds cx s k (B + growth cx a S E eps) (srv_data sv') 1 (2 ^ a) (put_cell D 0 c alpha) /\
    (forall c' row v, nth_error (srv_data sv') 0 = Some row -> nth_error row c' = Some v ->
       decrypt_decode_rlwe cx s v = Ok (if (c' =? c)%nat then alpha else D 0%nat c')).
Proof.
  intros pool cx lg k fft eps s S E a nh hc dom sv B D i alpha dm t (Hp & Hf & Hs & HS) Hpool Ha (shuffle & Hperm & Hnew) Hdim Hsv Hdb HE Hi Hal Hdm Ht Hbud.
  pose proof (params_n cx lg k Hp) as Hn.
  destruct (query_step cx lg k Hp fft eps Hf s (binary_key_wf _ _ Hs) S E HS a Ha shuffle Hperm hc dom nh Hnew Hdim pool Hpool sv B D (Write i alpha) dm t Hsv Hdb HE (conj Hi Hal) Hdm Ht)
    as (c & qy & y & sv' & Eh & Hc & Eq & Er & Hy & Hsv' & Hdb').
  pose proof (growth_nonneg cx lg k Hp fft eps Hf s S E HS a Ha sv Hsv) as HG.
  assert (0 <= answer_growth cx a S E eps) as HA by (apply answer_nonneg with (lg := lg) (k := k) (fft := fft) (s := s) (sv := sv); assumption).
  exists c, qy, y, sv'. split; [exact Eh|]. split; [exact Eq|]. split; [exact Er|]. split; [|split; [exact Hsv'|split; [exact Hdb'|]]].
  - eapply holds_decrypts; try eassumption. lia.
  - intros c' row v H1 H2. change (if (c' =? c)%nat then alpha else D 0%nat c') with (put_cell D 0 c alpha 0%nat c'). eapply db_decrypts; try eassumption. lia.
Qed.
Print Assumptions C42_single_write.

(** C43.  Any history, within the noise budget, answers like a plain array, from any database state .. *)
Theorem C43_history : forall pool cx lg k fft eps s S E a nh hc dom sv B D A rqs dm t,
  setting cx lg k fft eps s S -> spread pool (c_level cx) -> (1 <= a <= 63)%nat -> hash_for nh hc dom -> (hc * dom = 2 ^ a)%nat ->
  server_for cx s E sv -> db_holds cx s k B (srv_data sv) 1 (2 ^ a) D -> items_hold nh dom D A -> E <= B ->
  Forall (request_ok cx k dom) rqs -> (forall j, plaintext (c_n cx) k (dm j 0%nat)) -> (forall j, tape_ok (c_n cx) E (t j)) ->
  2 * (B + Z.of_nat (length rqs) * growth cx a S E eps + answer_growth cx a S E eps) < 2 ^ (64 - k) ->
  exists ys sv' D', session pool fft (client_new 1 (2 ^ a) cx s) nh dm t 0 sv rqs = Ok (ys, sv') /\
    Forall2 (fun y pt => decrypt_decode_rlwe cx s y = Ok pt) ys (answers A rqs) /\
    server_for cx s E sv' /\
    db_holds cx s k (B + Z.of_nat (length rqs) * growth cx a S E eps) (srv_data sv') 1 (2 ^ a) D' /\ items_hold nh dom D' (final A rqs).
Proof.
  intros pool cx lg k fft eps s S E a nh hc dom sv B D A rqs dm t (Hp & Hf & Hs & HS) Hpool Ha (shuffle & Hperm & Hnew) Hdim Hsv Hdb HA HE Hrq Hdm Ht Hbud.
  exact (session_ok cx lg k Hp fft eps Hf s (binary_key_wf _ _ Hs) S E HS a Ha shuffle Hperm hc dom nh Hnew Hdim pool Hpool rqs 0%nat sv B D A dm t Hsv Hdb HA HE Hrq Hdm Ht Hbud).
Qed.
Print Assumptions C43_history.

(** .. in particular from the database [setup_random_oram] builds. *)
Theorem C43_setup_then_history : forall pool cx lg k fft eps s S E a nh hc dom gp t0 rqs dm t,
  setting cx lg k fft eps s S -> spread pool (c_level cx) -> (1 <= a <= 63)%nat -> hash_for nh hc dom -> (hc * dom = 2 ^ a)%nat ->
  (forall i, plaintext (c_n cx) k (gp i)) -> tape_ok (c_n cx) E t0 ->
  Forall (request_ok cx k dom) rqs -> (forall j, plaintext (c_n cx) k (dm j 0%nat)) -> (forall j, tape_ok (c_n cx) E (t j)) ->
  2 * (E + Z.of_nat (length rqs) * growth cx a S E eps + answer_growth cx a S E eps) < 2 ^ (64 - k) ->
  exists cl sv pts ys sv', setup_random_oram 1 (2 ^ a) nh cx s gp t0 = Ok (cl, sv, pts) /\
    session pool fft cl nh dm t 0 sv rqs = Ok (ys, sv') /\
    Forall2 (fun y pt => decrypt_decode_rlwe cx s y = Ok pt) ys (answers (fun i => nth i pts []) rqs).
Proof.
  intros pool cx lg k fft eps s S E a nh hc dom gp t0 rqs dm t Hset Hpool Ha Hh Hdim Hgp Ht0 Hrq Hdm Ht Hbud.
  pose proof Hset as (Hp & Hf & Hs & HS). pose proof Hh as (shuffle & Hperm & Hnew).
  destruct (setup_C40 cx lg k Hp s E Hs 1 (2 ^ a) shuffle Hperm hc dom nh Hnew gp Hgp t0 Ht0 ltac:(lia)) as (sv & D & Eq & Hsv & Hdb & Hco).
  destruct (C43_history pool cx lg k fft eps s S E a nh hc dom sv E D (fun i => nth i (map (fun i => gp (i mod 128)%nat) (seq 0 dom)) []) rqs dm t) as (ys & sv' & D' & Es & HF & _);
    try assumption; [|lia|].
  - intros i c Hi Ec. destruct (nh_fields shuffle hc dom nh Hnew) as (H0 & Hhc & _).
    rewrite nth_map_seq0 by exact Hi. pose proof (Nat.pow_nonzero 2 a ltac:(lia)).
    apply (Hco 0%nat i 0%nat c H0 Hi). destruct (tuple_range shuffle Hperm hc dom nh Hnew 0 i 1 (2 ^ a) H0 Hi) as (y & r & c' & Ey & Et & Hr & Hc & Hrc); [lia|].
    assert (r = 0)%nat as -> by lia. rewrite Ec in Ey. injection Ey as <-. cbn in Hrc. subst c'. exact Et.
  - exists (client_new 1 (2 ^ a) cx s), sv, (map (fun i => gp (i mod 128)%nat) (seq 0 dom)), ys, sv'. auto.
Qed.
Print Assumptions C43_setup_then_history.

(** *** The hypotheses are satisfiable: ring dimension 4, 2 items, 2 hash functions, 4 columns. *)
Definition demo_nh : nhash := match nh_new (fun l => rev l) 2 2 with Ok nh => nh | _ => {| nh_h_count := 0; nh_input_domain := 0; nh_tables := [] |} end.
Lemma demo_hash : hash_for demo_nh 2 2.
Proof. exists (@rev nat). split; [intros l; symmetry; apply Permutation_rev|reflexivity]. Qed.
Lemma demo_setting : setting demo_cx 2 1 (exact_fft 4) 0 demo_s 3.
Proof. split; [exact demo_params|]. split; [exact demo_fft_for|]. split; [exact demo_key|exact demo_l1]. Qed.
Lemma demo_pt i : plaintext 4 1 [Z.of_nat (i mod 2); 1; 0; 1].
Proof.
  split; [reflexivity|]. pose proof (Nat.mod_upper_bound i 2 ltac:(lia)). repeat apply Forall_cons; try apply Forall_nil; try lia.
Qed.
Example C43_applies : exists cl sv pts ys sv',
  setup_random_oram 1 (2 ^ 2) demo_nh demo_cx demo_s (fun i => [Z.of_nat (i mod 2); 1; 0; 1]) demo_tape = Ok (cl, sv, pts) /\
  session false (exact_fft 4) cl demo_nh (fun _ _ => [0; 1; 1; 1]) (fun _ => demo_tape) 0 sv [Read 1; Write 0 [1; 1; 1; 1]; Read 0; Read 1] = Ok (ys, sv') /\
  Forall2 (fun y pt => decrypt_decode_rlwe demo_cx demo_s y = Ok pt) ys
    (answers (fun i => nth i pts []) [Read 1; Write 0 [1; 1; 1; 1]; Read 0; Read 1]).
Proof.
  apply (C43_setup_then_history false demo_cx 2 1 (exact_fft 4) 0 demo_s 3 3 2 demo_nh 2 2).
  - exact demo_setting.
  - right; discriminate.
  - lia.
  - exact demo_hash.
  - reflexivity.
  - exact demo_pt.
  - exact demo_tape_ok.
  - repeat apply Forall_cons; try apply Forall_nil; split; cbn; try lia; try exact I; split; try reflexivity; repeat apply Forall_cons; try apply Forall_nil; lia.
  - intros j. split; [reflexivity|]. repeat apply Forall_cons; try apply Forall_nil; lia.
  - intros j. exact demo_tape_ok.
  - vm_compute. reflexivity.
Qed.
