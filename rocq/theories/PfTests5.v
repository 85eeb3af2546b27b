(** * Proofs about the batched ORAM unit tests of MTests2. *)
From Coq Require Import Permutation.
From Verif Require Import MBase MUtils MCodec MPoly MRlwe MLwe MHash MTree MEncTree MCtx MSched MOram MMain MTests MTests2.
From Verif Require Import SpecRing SpecLwe SpecEnc SpecOram SpecConc SpecBatch SpecMixed.
From Verif Require Import PfOram4 PfHash PfMain LOram LBatch POram PBatch PHist PfTests4.
Local Open Scope Z_scope.

Section Batch.
Variable cx : ctx. Variable lg : nat. Variable k : Z.
Variable fft : fftT. Variable eps : Z. Variable s : poly. Variables S E : Z.
Hypothesis Hset : setting cx lg k fft eps s S.
Variable shuffle : list nat -> list nat.
Hypothesis Hperm : forall l, Permutation (shuffle l) l.
Variable gp : nat -> poly.
Hypothesis Hgp : forall i, plaintext (c_n cx) k (gp i).
Variable t0 : tape.
Hypothesis Ht0 : tape_ok (c_n cx) E t0.
Notation item := (fun i => gp (i mod 128)%nat).
Notation table hc dom := {| nh_tables := shuffle (seq 0 (hc * dom)); nh_h_count := hc; nh_input_domain := dom |}.

Lemma rows_setup rows cols hc dom : (0 < hc)%nat -> (rows * cols = dom * hc)%nat ->
  exists sv D, nh_new shuffle hc dom = Ok (table hc dom) /\
  setup_random_oram rows cols (table hc dom) cx s gp t0 = Ok (client_new rows cols cx s, sv, map item (seq 0 dom)) /\
  server_for cx s E sv /\ db_holds cx s k E (srv_data sv) rows cols D /\ copies_hold (table hc dom) hc dom cols D item.
Proof.
  intros Hc Hdim. pose proof Hset as (Hp & Hf & Hs & HS).
  assert (nh_new shuffle hc dom = Ok (table hc dom)) as Hnew by (unfold nh_new; rewrite (proj2 (Nat.ltb_lt 0 hc) Hc); reflexivity).
  destruct (setup_C40 cx lg k Hp s E Hs rows cols shuffle Hperm hc dom _ Hnew gp Hgp t0 Ht0 Hdim) as (sv & D & Eq & Hsv & Hdb & Hco).
  exists sv, D. auto.
Qed.

(** The check of a read batch: the rows answer, and every member of [indices] is its own position. *)
Lemma check_rows_ok rows cols (nh : nhash) (pts : list poly) is mp ys (A : nat -> poly) : hash_to_mapping nh is cols = Ok mp ->
  rows_answer cx s ys (batch_answer nh cols A (BRead is)) -> (forall r c i, In (r, (c, i)) mp -> In i is) -> own_position is ->
  (forall i, In i is -> index pts i = Ok (A i)) ->
  check_rows (client_new rows cols cx s) pts is mp ys = Ok tt.
Proof.
  intros Em HF Hin Hown Hi. unfold check_rows. apply (foldM_unit (fun e : nat * (nat * nat) => let '(r, (_, i)) := e in _)).
  apply Forall_forall. intros [r [c i]] He. pose proof (Hin r c i He) as Hii.
  destruct (HF r (A i)) as (y & Ey & Ed).
  { unfold batch_answer, placed. cbn [batch_items]. rewrite Em. apply in_map_iff. exists (r, (c, i)). auto. }
  unfold index at 1. rewrite Ey. cbn [bind]. unfold index at 1. rewrite (Hown i Hii). cbn [bind]. rewrite (Hi i Hii). cbn [bind]. apply check_ct_ok. exact Ed.
Qed.

Lemma own01 : own_position [0; 1]%nat.
Proof. intros i [<-|[<-|[]]]; reflexivity. Qed.

Lemma mapping_members hc dom is cols mp : (0 < hc)%nat -> (forall i, In i is -> i < dom)%nat -> (0 < cols)%nat -> hash_to_mapping (table hc dom) is cols = Ok mp ->
  forall r c i, In (r, (c, i)) mp -> In i is.
Proof.
  intros Hc Hi Hd Em r c i Hin.
  assert (nh_new shuffle hc dom = Ok (table hc dom)) as Hnew by (unfold nh_new; rewrite (proj2 (Nat.ltb_lt 0 hc) Hc); reflexivity).
  destruct (mapping_ok shuffle Hperm hc dom _ Hnew cols is Hi Hd) as (m & Em' & Hm & _). rewrite Em in Em'. injection Em' as <-. exact (proj1 (proj2 Hm r c i Hin)).
Qed.

Lemma check_rows_with_ok rows cols (nh : nhash) is mp ys (d : poly) A : hash_to_mapping nh is cols = Ok mp ->
  rows_answer cx s ys (batch_answer nh cols A (BRead is)) -> (forall r c i, In (r, (c, i)) mp -> A i = d) ->
  check_rows_with (client_new rows cols cx s) d mp ys = Ok tt.
Proof.
  intros Em HF HA. unfold check_rows_with. apply (foldM_unit (fun e : nat * (nat * nat) => y <- index ys (fst e) ;; _)).
  apply Forall_forall. intros [r [c i]] He. destruct (HF r (A i)) as (y & Ey & Ed).
  { unfold batch_answer, placed. cbn [batch_items]. rewrite Em. apply in_map_iff. exists (r, (c, i)). auto. }
  cbn [fst]. unfold index. rewrite Ey. cbn [bind]. apply check_ct_ok. rewrite <- (HA r c i He). exact Ed.
Qed.

Definition consistent (cl : client) (nh : nhash) (sv : server) (cols hc : nat) (d : poly) (i : nat) : res unit :=
  for_each (seq 0 hc) (fun h =>
      ' (r, c) <- hash_to_tuple nh h i cols ;;
      row <- index (srv_data sv) r ;;
      y <- index row c ;;
      check_ct cl d y).

Lemma consistency rows cols hc dom B sv D (A : nat -> poly) d i : (0 < hc)%nat -> (rows * cols = hc * dom)%nat ->
  db_holds cx s k B (srv_data sv) rows cols D -> copies_hold (table hc dom) hc dom cols D A -> 2 * B < 2 ^ (64 - k) -> (i < dom)%nat ->
  (A i = d -> consistent (client_new rows cols cx s) (table hc dom) sv cols hc d i = Ok tt) /\
  (A i <> d -> consistent (client_new rows cols cx s) (table hc dom) sv cols hc d i = Panic PAssert).
Proof.
  intros Hc Hdim Hdb HA Hb Hi. pose proof Hset as (Hp & Hf & Hs & HS).
  assert (nh_new shuffle hc dom = Ok (table hc dom)) as Hnew by (unfold nh_new; rewrite (proj2 (Nat.ltb_lt 0 hc) Hc); reflexivity).
  assert (forall h, (h < hc)%nat -> exists r c row y, hash_to_tuple (table hc dom) h i cols = Ok (r, c) /\ index (srv_data sv) r = Ok row /\ index row c = Ok y /\ decrypt_decode_rlwe cx s y = Ok (A i)) as Hcell.
  { intros h Hh. destruct (tuple_range shuffle Hperm hc dom _ Hnew h i rows cols Hh Hi Hdim) as (v & r & c & _ & Et & Hr & Hcc & _).
    pose proof Hdb as (Hlen & Hrows & Hcells). rewrite Forall_forall in Hrows.
    destruct (nth_error (srv_data sv) r) as [row|] eqn:Er; [|apply nth_error_None in Er; lia].
    pose proof (Hrows row (nth_error_In _ _ Er)) as Hrow. destruct (nth_error row c) as [y|] eqn:Ey; [|apply nth_error_None in Ey; lia].
    exists r, c, row, y. split; [exact Et|]. unfold index. rewrite Er. split; [reflexivity|]. rewrite Ey. split; [reflexivity|].
    rewrite <- (HA h i r c Hh Hi Et). eapply db_decrypts; eassumption. }
  unfold consistent, for_each. split; intros Hd.
  - apply (foldM_unit (fun h => ' (r, c) <- hash_to_tuple (table hc dom) h i cols ;; _)). apply Forall_forall. intros h Hin. apply in_seq in Hin.
    destruct (Hcell h ltac:(lia)) as (r & c & row & y & -> & E1 & E2 & Ed). cbn [bind]. rewrite E1. cbn [bind]. rewrite E2. cbn [bind]. apply check_ct_ok. rewrite <- Hd. exact Ed.
  - destruct hc as [|hc']; [lia|]. cbn [seq foldM]. destruct (Hcell 0%nat ltac:(lia)) as (r & c & row & y & -> & E1 & E2 & Ed). cbn [bind]. rewrite E1. cbn [bind]. rewrite E2. cbn [bind].
    rewrite (check_ct_ne cx s rows cols d (A i) y Ed) by congruence. reflexivity.
Qed.

Lemma test_oram_batch_run dm t d : (forall j r, plaintext (c_n cx) k (dm j r)) -> (forall j, tape_ok (c_n cx) E (t j)) ->
  plaintext (c_n cx) k d -> 2 * (E + 3 * batch_growth cx 3 4 S E eps + answer_growth cx 3 S E eps) < 2 ^ (64 - k) ->
  (served (table 4 16) 8 [1; 2]%nat 2 = true \/ gp 2%nat = d -> test_oram_batch fft cx shuffle s gp t0 dm t d = Ok tt) /\
  (served (table 4 16) 8 [1; 2]%nat 2 = false -> gp 2%nat <> d -> test_oram_batch fft cx shuffle s gp t0 dm t d = Panic PAssert).
Proof.
  intros Hdm Ht Hd Hb. pose proof Hset as (Hp & Hf & Hs & HS). destruct (rows_setup 8 8 4 16 ltac:(lia) eq_refl) as (sv & D & Hnew & Es & Hsv & Hdb & HA).
  assert (hash_for (table 4 16) 4 16) as Hh by (exists shuffle; auto).
  assert (0 <= answer_growth cx 3 S E eps) as Han by (apply answer_nonneg with (lg := lg) (k := k) (fft := fft) (s := s) (sv := sv); try assumption; lia).
  assert (0 <= batch_growth cx 3 4 S E eps) as Hbg.
  { unfold batch_growth. pose proof (growth_nonneg cx lg k Hp fft eps Hf s S E HS 3 ltac:(lia) sv Hsv). lia. }
  assert (forall is, Forall (fun i => i < 16)%nat is -> forall i, In i is -> (i < 16)%nat) as Hmem by (intros is Hf' i Hi; rewrite Forall_forall in Hf'; auto).
  assert (Forall (fun i => i < 16)%nat [0; 1]%nat) as F01 by (repeat constructor; lia). assert (Forall (fun i => i < 16)%nat [1; 2]%nat) as F12 by (repeat constructor; lia).
  assert (NoDup [1; 2]%nat) as ND by (repeat constructor; cbn; intuition lia).
  pose proof (mapping_members 4 16 [0; 1]%nat 8) as Mm01. pose proof (mapping_members 4 16 [1; 2]%nat 8) as Mm12.
  pose proof (fun B sv D A d i => consistency 8 8 4 16 B sv D A d i ltac:(lia) eq_refl) as Hcons.
  destruct (mapping_ok shuffle Hperm 4 16 _ Hnew 8 [0; 1]%nat (Hmem _ F01) ltac:(lia)) as (m01 & E01 & _).
  destruct (mapping_ok shuffle Hperm 4 16 _ Hnew 8 [1; 2]%nat (Hmem _ F12) ltac:(lia)) as (m12 & E12 & _).
  destruct (mapping_first shuffle Hperm 4 16 _ Hnew 8 1 [2]%nat m12 (Hmem _ F12) ltac:(lia) E12) as (r1 & c1 & H1in).
  specialize (Mm01 m01 ltac:(lia) (Hmem _ F01) ltac:(lia) E01). specialize (Mm12 m12 ltac:(lia) (Hmem _ F12) ltac:(lia) E12).
  set (nh := table 4 16) in *. clearbody nh.
  assert (served nh 8 [1; 2]%nat 1 = true) as S1.
  { unfold served, placed. rewrite E12. apply existsb_exists. exists (r1, (c1, 1%nat)). auto. }
  destruct (C48_batch_history false cx lg k fft eps s S E 3 8 nh 4 16 sv E D item [BRead [0; 1]%nat; BWrite [1; 2]%nat d; BRead [1; 2]%nat] dm t) as (yss & sv' & D' & Ess & HF & Hsv' & Hdb' & HA');
    try assumption; [right; lia|right; lia|lia|lia|reflexivity|lia| | |].
  { constructor; [exact (conj F01 I)|]. constructor; [exact (conj F12 Hd)|]. constructor; [exact (conj F12 I)|constructor]. }
  { intros is data [H|[H|[H|[]]]]; try discriminate. injection H as <- <-. exact ND. }
  change (2 ^ 3)%nat with 8%nat in *. change (Z.of_nat (length [BRead [0; 1]%nat; BWrite [1; 2]%nat d; BRead [1; 2]%nat])) with 3 in Hdb'.
  set (T := test_oram_batch fft cx shuffle s gp t0 dm t d).
  assert (T = for_each [1; 2]%nat (consistent (client_new 8 8 cx s) nh sv' 8 4 d)) as ET.
  { unfold T, test_oram_batch. change (4 * 16 / 8)%nat with 8%nat. rewrite Hnew. cbn [bind]. rewrite Es. cbn [bind]. rewrite map_length, seq_length, assert_eq_nat_refl. cbn [bind].
    rewrite E01, E12. cbn [bind]. cbn [batch_session ask_batch] in Ess. set (A := item) in *.
    assert (forall i, In i [0; 1]%nat -> index (map A (seq 0 16)) i = Ok (A i)) as Hidx by (intros i Hi; apply index_items; apply (Hmem _ F01 i Hi)). clearbody A.
    destruct (gen_read_query_batch _ [0; 1]%nat nh (dm 0%nat) (t 0%nat)) as [q0|]; [|discriminate]. cbn [bind] in Ess |- *.
    destruct (server_process_batch false fft sv q0 nh) as [[y0 sv0]|]; [|discriminate]. cbn [bind] in Ess |- *.
    destruct (gen_write_query_batch _ [1; 2]%nat d nh (dm 1%nat) (t 1%nat)) as [q1|]; [|discriminate]. cbn [bind] in Ess |- *.
    destruct (server_process_batch false fft sv0 q1 nh) as [[y1 sv1]|]; [|discriminate]. cbn [bind] in Ess |- *.
    destruct (gen_read_query_batch _ [1; 2]%nat nh (dm 2%nat) (t 2%nat)) as [q2|]; [|discriminate]. cbn [bind] in Ess |- *.
    destruct (server_process_batch false fft sv1 q2 nh) as [[y2 sv2]|]; [|discriminate]. cbn [bind] in Ess |- *.
    injection Ess as <- <-. cbn [batch_answers] in HF. inversion HF as [|? ? ? ? R0 HF1]; subst. inversion HF1 as [|? ? ? ? R1 HF2]; subst. inversion HF2 as [|? ? ? ? R2 HF3]; subst.
    rewrite (check_rows_ok 8 8 nh (map A (seq 0 16)) [0; 1]%nat m01 y0 A E01 R0 Mm01 own01 Hidx). cbn [bind].
    rewrite (check_rows_with_ok 8 8 nh [1; 2]%nat m12 y2 d _ E12 R2).
    2: { intros r c i Hin. cbn [apply_batch]. assert (served nh 8 [1; 2]%nat i = true) as ->; [|reflexivity].
         unfold served, placed. rewrite E12. apply existsb_exists. exists (r, (c, i)). split; [exact Hin|]. apply Nat.eqb_refl. }
    reflexivity. }
  rewrite ET. cbn [for_each foldM]. unfold for_each. cbn [foldM]. cbn [batch_final fold_left apply_batch] in HA'. unfold batch_final in HA'. cbn [fold_left apply_batch] in HA'.
  pose proof (fun i => Hcons _ sv' D' _ d i Hdb' HA' ltac:(lia)) as Hc. cbv beta in Hc.
  destruct (Hc 1%nat ltac:(lia)) as [C1 _]. rewrite S1 in C1. rewrite (C1 eq_refl). cbn [bind foldM].
  destruct (Hc 2%nat ltac:(lia)) as [C2 C2']. change (2 mod 128)%nat with 2%nat in C2, C2'. split.
  - intros Hor. rewrite C2; [reflexivity|]. destruct (served nh 8 [1; 2]%nat 2) eqn:Es2; [reflexivity|]. destruct Hor as [Hx|Hx]; [discriminate|exact Hx].
  - intros Hf0 Hne. rewrite Hf0 in C2'. rewrite (C2' Hne). reflexivity.
Qed.

Lemma batch_more_loop_ok rows cols nh (pts : list poly) dm t mp (A : nat -> poly) : hash_to_mapping nh [0; 1]%nat cols = Ok mp -> (forall r c i, In (r, (c, i)) mp -> In i [0; 1]%nat) ->
  (forall i, In i [0; 1]%nat -> index pts i = Ok (A i)) -> forall m j sv yss sv',
  batch_session false fft (client_new rows cols cx s) nh dm t j sv (map (fun _ => BRead [0; 1]%nat) (seq j m)) = Ok (yss, sv') ->
  Forall2 (rows_answer cx s) yss (batch_answers nh cols A (map (fun _ => BRead [0; 1]%nat) (seq j m))) ->
  batch_more_loop fft (client_new rows cols cx s) nh pts cols dm t (seq j m) sv = Ok tt.
Proof.
  intros Em Hin Hi. induction m as [|m IH]; intros j sv yss sv' Ess HF; [reflexivity|].
  cbn [seq map batch_session ask_batch batch_answers apply_batch batch_more_loop] in *. rewrite Em. cbn [bind].
  destruct (gen_read_query_batch _ [0; 1]%nat nh (dm j) (t j)) as [q0|]; [|discriminate]. cbn [bind] in Ess |- *.
  destruct (server_process_batch false fft sv q0 nh) as [[y0 sv0]|]; [|discriminate]. cbn [bind] in Ess |- *.
  destruct (batch_session _ _ _ _ _ _ _ _ _) as [[ys1 sv1]|] eqn:E1 in Ess; [|discriminate]. cbn [bind] in Ess. injection Ess as <- <-.
  inversion HF as [|? ? ? ? R0 HF1]; subst. rewrite (check_rows_ok rows cols nh pts [0; 1]%nat mp y0 A Em R0 Hin own01 Hi). cbn [bind]. eapply IH; eassumption.
Qed.
Lemma test_oram_batch_more_ok dm t : (forall j r, plaintext (c_n cx) k (dm j r)) -> (forall j, tape_ok (c_n cx) E (t j)) ->
  2 * (E + 20 * batch_growth cx 10 3 S E eps + answer_growth cx 10 S E eps) < 2 ^ (64 - k) ->
  test_oram_batch_more fft cx shuffle s gp t0 dm t = Ok tt.
Proof.
  intros Hdm Ht Hb. pose proof (Nat.pow_gt_lin_r 2 10 ltac:(lia)) as Hbig. unfold test_oram_batch_more. replace (3 * 2 ^ 10 / 3)%nat with (2 ^ 10)%nat by (rewrite Nat.mul_comm, Nat.div_mul by lia; reflexivity).
  destruct (rows_setup 3 (2 ^ 10) 3 (2 ^ 10) ltac:(lia) ltac:(lia)) as (sv & D & Hnew & Es & Hsv & Hdb & HA).
  assert (hash_for (table 3 (2 ^ 10)) 3 (2 ^ 10)) as Hh by (exists shuffle; auto).
  assert (Forall (fun i => i < 2 ^ 10)%nat [0; 1]%nat) as F01 by (constructor; [lia|constructor; [lia|constructor]]).
  assert (forall i, In i [0; 1]%nat -> (i < 2 ^ 10)%nat) as Hmem by (intros i Hi; rewrite Forall_forall in F01; auto).
  destruct (mapping_ok shuffle Hperm 3 (2 ^ 10) _ Hnew (2 ^ 10) [0; 1]%nat Hmem ltac:(lia)) as (m01 & E01 & _).
  pose proof (mapping_members 3 (2 ^ 10) [0; 1]%nat (2 ^ 10) m01 ltac:(lia) Hmem ltac:(lia) E01) as Mm.
  destruct (C48_batch_history false cx lg k fft eps s S E 10 3 (table 3 (2 ^ 10)) 3 (2 ^ 10) sv E D item (map (fun _ => BRead [0; 1]%nat) (seq 0 20)) dm t) as (yss & sv' & D' & Ess & HF & _);
    try eassumption; [right; lia|right; lia|lia|lia|lia|lia| | |].
  { apply Forall_forall. intros br Hin. apply in_map_iff in Hin as (j & <- & _). exact (conj F01 I). }
  { intros is data Hin. apply in_map_iff in Hin as (j & H & _). discriminate. }
  rewrite Hnew. cbn [bind]. rewrite Es. cbn [bind]. rewrite map_length, seq_length, assert_eq_nat_refl. cbn [bind].
  refine (batch_more_loop_ok 3 (2 ^ 10) _ _ dm t m01 item E01 Mm _ 20 0%nat sv yss sv' Ess HF). intros i Hi. apply index_items. exact (Hmem i Hi).
Qed.
End Batch.
