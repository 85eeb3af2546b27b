(** * Proofs about the ORAM unit tests of MTests2. *)
From Coq Require Import Permutation.
From Verif Require Import MBase MUtils MCodec MPoly MRlwe MLwe MHash MTree MEncTree MCtx MSched MOram MMain MTests MTests2.
From Verif Require Import SpecRing SpecLwe SpecEnc SpecOram SpecConc SpecBatch SpecMixed.
From Verif Require Import PfHash PfMain LOram POram PBatch PHist.
Local Open Scope Z_scope.

Lemma check_ct_ok cx s rows cols pt y : decrypt_decode_rlwe cx s y = Ok pt -> check_ct (client_new rows cols cx s) pt y = Ok tt.
Proof. intros E. unfold check_ct. cbn [cl_cx cl_sk client_new]. rewrite E. cbn [bind]. apply assert_eq_pt_refl. Qed.
Lemma assert_eq_pt_ne x y : x <> y -> assert_eq_pt x y = Panic PAssert.
Proof. intros H. unfold assert_eq_pt, poly_eqb. destruct (list_eq_dec Z.eq_dec x y); [contradiction|reflexivity]. Qed.
Lemma check_ct_ne cx s rows cols pt pt' y : decrypt_decode_rlwe cx s y = Ok pt' -> pt <> pt' -> check_ct (client_new rows cols cx s) pt y = Panic PAssert.
Proof. intros E H. unfold check_ct. cbn [cl_cx cl_sk client_new]. rewrite E. cbn [bind]. apply assert_eq_pt_ne. exact H. Qed.
Lemma foldM_unit {A} (f : A -> res unit) l : Forall (fun x => f x = Ok tt) l -> foldM (fun _ x => f x) l tt = Ok tt.
Proof. induction 1 as [|x l H _ IH]; [reflexivity|]. cbn [foldM]. rewrite H. exact IH. Qed.
Lemma assert_eq_nat_refl x : assert_eq_nat x x = Ok tt.
Proof. unfold assert_eq_nat. rewrite Nat.eqb_refl. reflexivity. Qed.

Section Oram.
Variable cx : ctx. Variable lg : nat. Variable k : Z.
Variable fft : fftT. Variable eps : Z. Variable s : poly. Variables S E : Z.
Hypothesis Hset : setting cx lg k fft eps s S.
Variable shuffle : list nat -> list nat.
Hypothesis Hperm : forall l, Permutation (shuffle l) l.
Variable gp : nat -> poly.
Hypothesis Hgp : forall i, plaintext (c_n cx) k (gp i).
Variable t0 : tape.
Hypothesis Ht0 : tape_ok (c_n cx) E t0.
Notation item := (fun i => gp (i mod 128)%nat).

Lemma one_row_setup a : (1 <= a <= 63)%nat -> exists nh sv D, nh_new shuffle 1 (2 ^ a) = Ok nh /\ hash_for nh 1 (2 ^ a) /\
  setup_random_oram 1 (2 ^ a) nh cx s gp t0 = Ok (client_new 1 (2 ^ a) cx s, sv, map item (seq 0 (2 ^ a))) /\
  server_for cx s E sv /\ db_holds cx s k E (srv_data sv) 1 (2 ^ a) D /\ items_hold nh (2 ^ a) D item.
Proof.
  intros Ha. pose proof Hset as (Hp & Hf & Hs & HS). unfold nh_new. cbn [Nat.ltb Nat.leb rassert bind]. eexists. 
  assert (nh_new shuffle 1 (2 ^ a) = Ok {| nh_tables := shuffle (seq 0 (1 * 2 ^ a)); nh_h_count := 1; nh_input_domain := 2 ^ a |}) as Hnew by reflexivity.
  destruct (setup_C40 cx lg k Hp s E Hs 1 (2 ^ a) shuffle Hperm 1 (2 ^ a) _ Hnew gp Hgp t0 Ht0 ltac:(lia)) as (sv & D & Eq & Hsv & Hdb & Hco).
  exists sv, D. split; [reflexivity|]. split; [exists shuffle; split; assumption|]. split; [exact Eq|]. split; [exact Hsv|]. split; [exact Hdb|].
  intros i c Hi Ec. apply (Hco 0%nat i 0%nat c ltac:(lia) Hi). pose proof (Nat.pow_nonzero 2 a ltac:(lia)).
  destruct (tuple_range shuffle Hperm 1 (2 ^ a) _ Hnew 0 i 1 (2 ^ a) ltac:(lia) Hi) as (y & r & c' & Ey & Et & Hr & Hc & Hrc); [lia|].
  assert (r = 0)%nat as -> by lia. rewrite Ec in Ey. injection Ey as <-. cbn in Hrc. subst c'. exact Et.
Qed.

Lemma index_items len i : (i < len)%nat -> index (map item (seq 0 len)) i = Ok (item i).
Proof. intros H. unfold index. rewrite nth_error_map, (nth_error_nth' _ 0%nat) by (rewrite seq_length; exact H). rewrite seq_nth by exact H. reflexivity. Qed.

Lemma test_oram_ok dm t d : spread false (c_level cx) -> (forall j, plaintext (c_n cx) k (dm j 0%nat)) -> (forall j, tape_ok (c_n cx) E (t j)) ->
  plaintext (c_n cx) k d -> 2 * (E + 3 * growth cx 4 S E eps + answer_growth cx 4 S E eps) < 2 ^ (64 - k) ->
  test_oram fft cx shuffle s gp t0 dm t d = Ok tt.
Proof.
  intros Hsp Hdm Ht Hd Hb. destruct (one_row_setup 4 ltac:(lia)) as (nh & sv & D & En & Hh & Es & Hsv & Hdb & HA).
  destruct (C43_history false cx lg k fft eps s S E 4 nh 1 (2 ^ 4) sv E D item [Read 1; Write 1 d; Read 1] dm t) as (ys & sv' & D' & Ess & HF & _);
    try assumption; [lia|reflexivity|lia| |].
  { assert (1 < 2 ^ 4)%nat as H1 by (cbn; lia). constructor; [exact (conj H1 I)|]. constructor; [exact (conj H1 Hd)|]. constructor; [exact (conj H1 I)|constructor]. }
  unfold test_oram. change 16%nat with (2 ^ 4)%nat. rewrite En. cbn [bind]. rewrite Es. cbn [bind]. rewrite map_length, seq_length, assert_eq_nat_refl. cbn [bind].
  cbn [session ask] in Ess.
  destruct (gen_read_query_one _ 1 nh (dm 0%nat) (t 0%nat)) as [q0|]; [|discriminate]. cbn [bind] in Ess |- *.
  destruct (server_process_one false fft sv q0) as [[y0 sv0]|]; [|discriminate]. cbn [bind] in Ess |- *.
  destruct (gen_write_query_one _ 1 d nh (dm 1%nat) (t 1%nat)) as [q1|]; [|discriminate]. cbn [bind] in Ess |- *.
  destruct (server_process_one false fft sv0 q1) as [[y1 sv1]|]; [|discriminate]. cbn [bind] in Ess |- *.
  destruct (gen_read_query_one _ 1 nh (dm 2%nat) (t 2%nat)) as [q2|]; [|discriminate]. cbn [bind] in Ess |- *.
  destruct (server_process_one false fft sv1 q2) as [[y2 sv2]|]; [|discriminate]. cbn [bind] in Ess |- *.
  injection Ess as <- <-. cbn [answers target apply Nat.eqb] in HF. inversion HF as [|? ? ? ? H0 HF1]; subst. inversion HF1 as [|? ? ? ? H1 HF2]; subst. inversion HF2 as [|? ? ? ? H2 HF3]; subst.
  rewrite index_items by (change (2 ^ 4)%nat with 16%nat; lia). cbn [bind]. rewrite (check_ct_ok _ _ _ _ _ _ H0). cbn [bind]. apply check_ct_ok. exact H2.
Qed.

Lemma more_loop_ok rows cols nh (pts : list poly) dm t (A : nat -> poly) : index pts 1 = Ok (A 1%nat) -> forall m j sv ys sv',
  session false fft (client_new rows cols cx s) nh dm t j sv (map (fun _ => Read 1) (seq j m)) = Ok (ys, sv') ->
  Forall2 (fun y pt => decrypt_decode_rlwe cx s y = Ok pt) ys (answers A (map (fun _ => Read 1) (seq j m))) ->
  more_loop fft (client_new rows cols cx s) nh pts dm t (seq j m) sv = Ok tt.
Proof.
  intros Ei. induction m as [|m IH]; intros j sv ys sv' Ess HF; [reflexivity|].
  cbn [seq map session ask answers target apply more_loop] in *.
  destruct (gen_read_query_one _ 1 nh (dm j) (t j)) as [q0|]; [|discriminate]. cbn [bind] in Ess |- *.
  destruct (server_process_one false fft sv q0) as [[y0 sv0]|]; [|discriminate]. cbn [bind] in Ess |- *.
  destruct (session _ _ _ _ _ _ _ _ _) as [[ys1 sv1]|] eqn:E1 in Ess; [|discriminate]. cbn [bind] in Ess. injection Ess as <- <-.
  inversion HF as [|? ? ? ? H0 HF1]; subst. rewrite Ei. cbn [bind]. rewrite (check_ct_ok _ _ _ _ _ _ H0). cbn [bind]. eapply IH; eassumption.
Qed.
Lemma test_oram_more_ok dm t : spread false (c_level cx) -> (forall j, plaintext (c_n cx) k (dm j 0%nat)) -> (forall j, tape_ok (c_n cx) E (t j)) ->
  2 * (E + 20 * growth cx 11 S E eps + answer_growth cx 11 S E eps) < 2 ^ (64 - k) ->
  test_oram_more fft cx shuffle s gp t0 dm t = Ok tt.
Proof.
  intros Hsp Hdm Ht Hb. destruct (one_row_setup 11 ltac:(lia)) as (nh & sv & D & En & Hh & Es & Hsv & Hdb & HA).
  pose proof (Nat.pow_gt_lin_r 2 11 ltac:(lia)) as Hbig.
  destruct (C43_history false cx lg k fft eps s S E 11 nh 1 (2 ^ 11) sv E D item (map (fun _ => Read 1) (seq 0 20)) dm t) as (ys & sv' & D' & Ess & HF & _);
    try assumption; [lia|lia|lia| |].
  { apply Forall_forall. intros rq Hin. apply in_map_iff in Hin as (j & <- & _). split; [cbn [target]; lia|exact I]. }
  unfold test_oram_more. rewrite En. cbn [bind]. rewrite Es. cbn [bind]. rewrite map_length, seq_length, assert_eq_nat_refl. cbn [bind].
  refine (more_loop_ok 1 (2 ^ 11) nh _ dm t item _ 20 0%nat sv ys sv' Ess HF). apply index_items. lia.
Qed.

Lemma test_oram_multi_ok dm t d : (forall j i, plaintext (c_n cx) k (dm j i 0%nat)) -> (forall j i, tape_ok (c_n cx) E (t j i)) ->
  plaintext (c_n cx) k d -> 2 * (E + 3 * multi_growth cx 4 S E eps 2 + answer_growth cx 4 S E eps) < 2 ^ (64 - k) ->
  test_oram_multi fft cx shuffle s gp t0 dm t d = Ok tt.
Proof.
  intros Hdm Ht Hd Hb. destruct (one_row_setup 4 ltac:(lia)) as (nh & sv & D & En & Hh & Es & Hsv & Hdb & HA).
  destruct (C60_mixed_history false cx lg k fft eps s S E 4 nh 1 (2 ^ 4) sv E D item [Many [Read 1; Read 2]; Many [Write 1 d; Write 2 d]; Many [Read 1; Read 2]] dm t)
    as (yss & sv' & D' & Ess & HF & HL & _); try assumption; [|lia|reflexivity|lia| | |].
  { assert (spread false 2) as S2 by (right; lia). constructor; [exact S2|]. constructor; [exact S2|]. constructor; [exact S2|constructor]. }
  { assert (1 < 2 ^ 4)%nat as H1 by (cbn; lia). assert (2 < 2 ^ 4)%nat as H2 by (cbn; lia).
    assert (NoDup [1; 2]%nat) as ND by (repeat constructor; cbn; intuition lia).
    assert (Forall (request_ok cx k (2 ^ 4)) [Read 1; Read 2]) as R by (constructor; [exact (conj H1 I)|]; constructor; [exact (conj H2 I)|constructor]).
    assert (Forall (request_ok cx k (2 ^ 4)) [Write 1 d; Write 2 d]) as W by (constructor; [exact (conj H1 Hd)|]; constructor; [exact (conj H2 Hd)|constructor]).
    constructor; [exact (conj R ND)|]. constructor; [exact (conj W ND)|]. constructor; [exact (conj R ND)|constructor]. }
  { unfold mixed_growth. cbn [map fold_right step_growth length]. lia. }
  unfold test_oram_multi. change 16%nat with (2 ^ 4)%nat. rewrite En. cbn [bind]. rewrite Es. cbn [bind]. rewrite map_length, seq_length, assert_eq_nat_refl. cbn [bind].
  cbn [mixed_session step_prog ask_step requests_of ask_all ask] in Ess.
  unfold ask_step in Ess. cbn [requests_of ask_all ask] in Ess.
  destruct (gen_read_query_one _ 1 nh (dm 0%nat 0%nat) (t 0%nat 0%nat)) as [q1|]; [|discriminate]. cbn [bind] in Ess |- *.
  destruct (gen_read_query_one _ 2 nh (dm 0%nat 1%nat) (t 0%nat 1%nat)) as [q2|]; [|discriminate]. cbn [bind] in Ess |- *.
  fold (server_process_multi false fft sv [q1; q2]) in Ess.
  destruct (server_process_multi false fft sv [q1; q2]) as [[ys0 sv0]|]; [|discriminate]. cbn [bind] in Ess |- *.
  destruct (gen_write_query_one _ 1 d nh (dm 1%nat 0%nat) (t 1%nat 0%nat)) as [w1|]; [|discriminate]. cbn [bind] in Ess |- *.
  destruct (gen_write_query_one _ 2 d nh (dm 1%nat 1%nat) (t 1%nat 1%nat)) as [w2|]; [|discriminate]. cbn [bind] in Ess |- *.
  fold (server_process_multi false fft sv0 [w1; w2]) in Ess.
  destruct (server_process_multi false fft sv0 [w1; w2]) as [[ys1 sv1]|]; [|discriminate]. cbn [bind] in Ess |- *.
  destruct (gen_read_query_one _ 1 nh (dm 2%nat 0%nat) (t 2%nat 0%nat)) as [r1|]; [|discriminate]. cbn [bind] in Ess |- *.
  destruct (gen_read_query_one _ 2 nh (dm 2%nat 1%nat) (t 2%nat 1%nat)) as [r2|]; [|discriminate]. cbn [bind] in Ess |- *.
  fold (server_process_multi false fft sv1 [r1; r2]) in Ess.
  destruct (server_process_multi false fft sv1 [r1; r2]) as [[ys2 sv2]|]; [|discriminate]. cbn [bind] in Ess |- *.
  injection Ess as <- <-. inversion HL as [|? ? ? ? L0 HL1]; subst. inversion HL1 as [|? ? ? ? L1 HL2]; subst. inversion HL2 as [|? ? ? ? L2 HL3]; subst.
  cbn [requests_of length] in L0, L1, L2.
  destruct ys0 as [|y0 [|y0' [|? ?]]]; try discriminate. destruct ys1 as [|y1 [|y1' [|? ?]]]; try discriminate. destruct ys2 as [|y2 [|y2' [|? ?]]]; try discriminate.
  unfold all_requests in HF. cbn [map concat app requests_of answers target apply Nat.eqb] in HF.
  repeat match goal with H : Forall2 _ (_ :: _) _ |- _ => inversion H; clear H; subst end.
  rewrite !index_items by (change (2 ^ 4)%nat with 16%nat; lia). cbn [index nth_error bind].
  repeat (rewrite (check_ct_ok cx s) by assumption; cbn [bind]). reflexivity.
Qed.
End Oram.
