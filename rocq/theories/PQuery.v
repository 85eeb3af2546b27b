(** * Properties C52, C54-C56: shapes of queries, unsupported widths, single-item queries in a batched
    database, decrypting the database. *)
From Coq Require Import Permutation.
From Verif Require Import MBase MUtils MCodec MPoly MRlwe MHash MTree MEncTree MSched MOram.
From Verif Require Import SpecRing SpecLwe SpecOram SpecBatch SpecSched SpecShape SpecConc.
From Verif Require Import PfPoly PfRlwe PfSched PfOram1 PfDet2 PfEnc4 PfHash PfOram4 LOram PfQuery PfWidth Demo PEnc POram PMulti PBatch PSched.
From Verif Require PfUtils PfNear.
Local Open Scope nat_scope.

(** ** C52.  The dimensions of a query say nothing about it.  [draws_fit]: the randomness has the right
    dimensions (no condition on its values); the same for the plaintexts. *)
Theorem C52_query_shape : forall cl i data t qy, length (cl_sk cl) = c_n (cl_cx cl) -> 0 < cl_cols cl -> (Z.of_nat (cl_cols cl) < q)%Z ->
  length data = c_n (cl_cx cl) -> draws_fit (c_n (cl_cx cl)) t ->
  make_read_query cl i data t = Ok qy \/ make_write_query cl i data t = Ok qy ->
  query_shape qy = public_query (cl_cx cl) (cl_cols cl).
Proof.
  intros cl i data t qy Hs Hc Hq Hd Ht [H|H]; [eapply read_shape|eapply write_shape]; try eassumption; repeat split; assumption.
Qed.
Print Assumptions C52_query_shape.

Theorem C52_read_batch_shape : forall cl indices nh dm t qs, length (cl_sk cl) = c_n (cl_cx cl) -> 0 < cl_cols cl -> (Z.of_nat (cl_cols cl) < q)%Z ->
  (forall r, length (dm r) = c_n (cl_cx cl)) -> draws_fit (c_n (cl_cx cl)) t ->
  gen_read_query_batch cl indices nh dm t = Ok qs ->
  map query_shape qs = repeat (public_query (cl_cx cl) (cl_cols cl)) (cl_rows cl).
Proof.
  intros cl indices nh dm t qs Hs Hc Hq Hd Ht H. unfold gen_read_query_batch in H. apply bind_ok in H as (m & _ & H).
  destruct (mapM_ok_In _ (fun qy => query_shape qy = public_query (cl_cx cl) (cl_cols cl)) _ _ H) as [HF HL].
  - intros r qy _ E. destruct (hget m r) as [c|];
      [eapply (C52_query_shape cl (fst c) (dm r) (split t r))|eapply (C52_query_shape cl 0 (dm r) (split t r))]; try eassumption; [apply Hd|apply split_fit, Ht|left; exact E|apply Hd|apply split_fit, Ht|left; exact E].
  - rewrite seq_length in HL. rewrite <- HL. clear - HF. induction HF; cbn [map repeat length]; f_equal; assumption.
Qed.
Print Assumptions C52_read_batch_shape.
Theorem C52_write_batch_shape : forall cl indices data nh dm t qs, length (cl_sk cl) = c_n (cl_cx cl) -> 0 < cl_cols cl -> (Z.of_nat (cl_cols cl) < q)%Z ->
  length data = c_n (cl_cx cl) -> (forall r, length (dm r) = c_n (cl_cx cl)) -> draws_fit (c_n (cl_cx cl)) t ->
  gen_write_query_batch cl indices data nh dm t = Ok qs ->
  map query_shape qs = repeat (public_query (cl_cx cl) (cl_cols cl)) (cl_rows cl).
Proof.
  intros cl indices data nh dm t qs Hs Hc Hq Hda Hd Ht H. unfold gen_write_query_batch in H. apply bind_ok in H as (m & _ & H).
  destruct (mapM_ok_In _ (fun qy => query_shape qy = public_query (cl_cx cl) (cl_cols cl)) _ _ H) as [HF HL].
  - intros r qy _ E. destruct (hget m r) as [c|].
    + eapply (C52_query_shape cl (fst c) data (split t r)); try eassumption; [apply split_fit, Ht|right; exact E].
    + eapply (C52_query_shape cl 0 (dm r) (split t r)); try eassumption; [apply Hd|apply split_fit, Ht|left; exact E].
  - rewrite seq_length in HL. rewrite <- HL. clear - HF. induction HF; cbn [map repeat length]; f_equal; assumption.
Qed.
Print Assumptions C52_write_batch_shape.

(** Moreover the masks of all ciphertexts of a query are the random draws: with the same randomness, a
    read and a write, of any cells, with any data, have the same masks (only the bodies differ). *)
Theorem C52_masks_independent : forall cl i1 i2 d1 d2 t q1 q2,
  make_read_query cl i1 d1 t = Ok q1 \/ make_write_query cl i1 d1 t = Ok q1 ->
  make_read_query cl i2 d2 t = Ok q2 \/ make_write_query cl i2 d2 t = Ok q2 ->
  query_masks q1 = query_masks q2.
Proof. intros cl i1 i2 d1 d2 t q1 q2 H1 H2. eapply made_masks; [exists i1, d1; exact H1|exists i2, d2; exact H2]. Qed.
Print Assumptions C52_masks_independent.

(** With C53: the server's accesses to memory and locks are the same for any two queries. *)
Theorem C52_C53_accesses_independent : forall pool pref fft cl neg_s i1 i2 d1 d2 t1 t2 q1 q2 m c, fft_size (cl_cx cl) fft ->
  length (cl_sk cl) = c_n (cl_cx cl) -> 0 < cl_cols cl -> (Z.of_nat (cl_cols cl) < q)%Z ->
  length d1 = c_n (cl_cx cl) -> length d2 = c_n (cl_cx cl) -> draws_fit (c_n (cl_cx cl)) t1 -> draws_fit (c_n (cl_cx cl)) t2 ->
  make_read_query cl i1 d1 t1 = Ok q1 -> make_write_query cl i2 d2 t2 = Ok q2 ->
  sobserved pref (process_one pool fft (cl_cx cl) neg_s q1) m c <-> sobserved pref (process_one pool fft (cl_cx cl) neg_s q2) m c.
Proof.
  intros pool pref fft cl neg_s i1 i2 d1 d2 t1 t2 q1 q2 m c Hf Hs Hc Hq L1 L2 T1 T2 E1 E2.
  apply C53_process_one_any_schedule; [exact Hf| |reflexivity].
  rewrite (C52_query_shape cl i1 d1 t1 q1), (C52_query_shape cl i2 d2 t2 q2); auto.
Qed.
Print Assumptions C52_C53_accesses_independent.

Example C52_applies : exists q1 q2, make_read_query (client_new 1 4 demo_cx demo_s) 3 [0; 1; 1; 0]%Z demo_tape = Ok q1 /\
  make_write_query (client_new 1 4 demo_cx demo_s) 0 [1; 1; 1; 0]%Z demo_tape = Ok q2 /\
  query_shape q1 = query_shape q2 /\ length (q_a q1) = 2 /\ query_masks q1 = query_masks q2.
Proof.
  destruct demo_setting as (Hp & _ & Hs & _).
  assert (forall d, length d = 4 -> Forall (fun x => 0 <= x < 2)%Z d -> plaintext (c_n demo_cx) 1 d) as Hpt by (intros d H1 H2; split; assumption).
  destruct (make_read_ok demo_cx 2 1 Hp demo_s (PfNear.binary_key_wf _ _ Hs) 3 2 ltac:(lia) (client_new 1 4 demo_cx demo_s) eq_refl eq_refl eq_refl 3 [0; 1; 1; 0]%Z demo_tape) as (q1 & E1 & _).
  { cbn; lia. } { apply Hpt; [reflexivity|]. repeat apply Forall_cons; try apply Forall_nil; lia. } { exact demo_tape_ok. }
  destruct (make_write_ok demo_cx 2 1 Hp demo_s (PfNear.binary_key_wf _ _ Hs) 3 2 ltac:(lia) (client_new 1 4 demo_cx demo_s) eq_refl eq_refl eq_refl 0 [1; 1; 1; 0]%Z demo_tape) as (q2 & E2 & _).
  { cbn; lia. } { apply Hpt; [reflexivity|]. repeat apply Forall_cons; try apply Forall_nil; lia. } { exact demo_tape_ok. }
  exists q1, q2. split; [exact E1|]. split; [exact E2|].
  assert (draws_fit 4 demo_tape) as Hfit by (intros i; split; reflexivity).
  assert (query_shape q1 = public_query demo_cx 4) as S1.
  { apply (C52_query_shape (client_new 1 4 demo_cx demo_s) 3 [0; 1; 1; 0]%Z demo_tape); [reflexivity|cbn; lia|reflexivity|reflexivity|exact Hfit|left; exact E1]. }
  split; [|split].
  - rewrite S1. symmetry. apply (C52_query_shape (client_new 1 4 demo_cx demo_s) 0 [1; 1; 1; 0]%Z demo_tape); [reflexivity|cbn; lia|reflexivity|reflexivity|exact Hfit|right; exact E2].
  - apply (f_equal (fun x => length (fst (fst x)))) in S1. cbn [query_shape fst] in S1. rewrite map_length in S1. rewrite S1. reflexivity.
  - eapply C52_masks_independent; [left; exact E1|right; exact E2].
Qed.

(** ** C54.  Widths.  A query is made for 2^a columns, a the number of its index bits; a >= 1. *)
Definition right_width (qy : query) (cols : nat) : Prop := exists a, 1 <= a /\ length (q_a qy) = a /\ cols = 2 ^ a.
Definition power_of_two (cols : nat) : Prop := exists a, 1 <= a /\ cols = 2 ^ a.
Lemma width_fits qy cols : fits qy cols -> right_width qy cols.
Proof. intros [H1 H2]. exists (length (q_a qy)). split; [destruct (q_a qy); [congruence|cbn; lia]|auto]. Qed.
Lemma shape_row (m : mem) r row : nth_error m r = Some row -> nth_error (shape m) r = Some (length row).
Proof. intros H. unfold shape. rewrite nth_error_map, H. reflexivity. Qed.

(** Every execution panics, with the database as it was. *)
Theorem C54_process_one_width : forall pool pref fft cx neg_s qy m row r m', fft_size cx fft ->
  nth_error m 0 = Some row -> ~ right_width qy (length row) ->
  sexec pref (process_one pool fft cx neg_s qy) m r m' -> (exists e, r = Panic e) /\ m' = m.
Proof.
  intros pool pref fft cx neg_s qy m row r m' Hf Hr Hw. apply (one_bad pool fft cx neg_s Hf pref qy m r m' (length row)); [apply shape_row, Hr|].
  intros H. apply Hw, width_fits, H.
Qed.
Print Assumptions C54_process_one_width.
Theorem C54_process_multi_width : forall pool pref fft cx neg_s qs m row r m', fft_size cx fft ->
  nth_error m 0 = Some row -> (exists qy, In qy qs /\ ~ right_width qy (length row)) ->
  sexec pref (process_multi pool fft cx neg_s qs) m r m' -> (exists e, r = Panic e) /\ m' = m.
Proof.
  intros pool pref fft cx neg_s qs m row r m' Hf Hr (qy & Hq & Hw). apply (multi_bad pool fft cx neg_s Hf pref qs m r m' (length row)); [apply shape_row, Hr|].
  exists qy. split; [exact Hq|]. intros H. apply Hw, width_fits, H.
Qed.
Print Assumptions C54_process_multi_width.
Theorem C54_process_batch_width : forall pool pref fft cx neg_s qs nh m i qy row r m', fft_size cx fft ->
  nth_error m i = Some row -> nth_error qs i = Some qy -> ~ right_width qy (length row) ->
  sexec pref (process_batch pool fft cx neg_s (length m) qs nh) m r m' -> (exists e, r = Panic e) /\ m' = m.
Proof.
  intros pool pref fft cx neg_s qs nh m i qy row r m' Hf Hr Hq Hw. apply (batch_bad pool fft cx neg_s Hf pref (length m) qs nh m r m' i qy (length row)); auto.
  - apply nth_error_Some. congruence. - apply shape_row, Hr. - intros H. apply Hw, width_fits, H.
Qed.
Print Assumptions C54_process_batch_width.
(** In particular when the width is 1 or not a power of two, whatever the query. *)
Theorem C54_not_a_power_of_two : forall qy cols, ~ power_of_two cols -> ~ right_width qy cols.
Proof. intros qy cols H (a & H1 & _ & H2). apply H. exists a. auto. Qed.
Print Assumptions C54_not_a_power_of_two.
(** A wrong number of queries. *)
Theorem C54_process_batch_count : forall pool pref fft cx neg_s qs nh m r m', length qs <> length m ->
  sexec pref (process_batch pool fft cx neg_s (length m) qs nh) m r m' -> r = Panic PAssert /\ m' = m.
Proof.
  intros pool pref fft cx neg_s qs nh m r m' Hl. unfold process_batch, rassert. destruct (Nat.eqb_spec (length qs) (length m)); [contradiction|].
  cbn. auto.
Qed.
Print Assumptions C54_process_batch_count.
(** The executions exist, so the panics do happen. *)
Theorem C54_panics : forall pool fft cx neg_s qy m row, fft_size cx fft -> nth_error m 0 = Some row -> ~ power_of_two (length row) ->
  (exists e, srun (process_one pool fft cx neg_s qy) m = (Panic e, snd (srun (process_one pool fft cx neg_s qy) m))) /\
  forall pref, exists e, sexec pref (process_one pool fft cx neg_s qy) m (Panic e) m.
Proof.
  intros pool fft cx neg_s qy m row Hf Hr Hw. destruct (C49_process_one_deterministic pool fft cx neg_s qy m Hf) as [Hd Hx].
  assert (forall pref, exists e, sexec pref (process_one pool fft cx neg_s qy) m (Panic e) m) as HP.
  { intros pref. destruct (Hx pref) as (r & m' & H). pose proof H as H2.
    apply (C54_process_one_width pool pref fft cx neg_s qy m row) in H2 as [[e ->] ->]; eauto. apply C54_not_a_power_of_two, Hw. }
  split; [|exact HP]. destruct (HP false) as (e & H). specialize (Hd _ _ _ H).
  destruct (srun _ m) as [[a|e'] m1]; [destruct Hd; discriminate|]. exists e'. reflexivity.
Qed.
Print Assumptions C54_panics.
Example C54_applies : ~ power_of_two 1 /\ ~ power_of_two 6 /\ power_of_two 8 /\
  forall pool qy pref, exists e, sexec pref (process_one pool (exact_fft 4) demo_cx (rgsw_allocate 4 5 11) qy) [repeat (rlwe_allocate 4) 6] (Panic e) [repeat (rlwe_allocate 4) 6].
Proof.
  assert (forall a, 1 <= a -> exists b, 2 ^ a = 2 * 2 ^ b) as H2 by (intros [|b] H; [lia|]; exists b; reflexivity).
  assert (~ power_of_two 6) as H6.
  { intros (a & H & E). destruct a as [|[|[|a]]]; cbn in E; lia. }
  split; [|split; [exact H6|split; [exists 3; split; [lia|reflexivity]|]]].
  - intros (a & H & E). destruct (H2 a H) as (b & Eb). lia.
  - intros pool qy. eapply C54_panics; [exact exact_fft_size|reflexivity|]. exact H6.
Qed.

(** ** C55.  [gen_read_query_one] / [gen_write_query_one].  With item [i] at (r, c) under hash 0, the query
    is the one for column [c] if r = 0, otherwise a read of column 0, without the item or the data. *)
Section One.
Variables (cl : client) (nh : nhash) (hc dom i : nat) (r c : nat).
Hypothesis Hh : hash_for nh hc dom.
Hypothesis Hi : i < dom.
Hypothesis Hc : 0 < cl_cols cl.
Hypothesis Hrc : hash_to_tuple nh 0 i (cl_cols cl) = Ok (r, c).
Lemma mapping_of_one : hash_to_mapping nh [i] (cl_cols cl) = Ok [(r, (c, i))].
Proof.
  destruct Hh as (shuffle & Hperm & Hnew). destruct (nh_fields shuffle hc dom nh Hnew) as (H0 & Hhc & _).
  unfold hash_to_mapping. cbn [foldM]. rewrite Hhc. destruct hc as [|h']; [lia|]. cbn [seq place]. rewrite Hrc. reflexivity.
Qed.
Lemma first_of_batch (f : nat -> res query) qy : 0 < cl_rows cl -> (x <- mapM f (seq 0 (cl_rows cl)) ;; remove0 x) = Ok qy -> f 0 = Ok qy.
Proof.
  intros Hr H. destruct (cl_rows cl) as [|rows]; [lia|]. cbn [seq mapM] in H. destruct (f 0) as [x|]; [|discriminate]. cbn [bind] in H.
  destruct (mapM f (seq 1 rows)); [|discriminate]. cbn in H. exact H.
Qed.
Lemma query_one_read dm t qy : 0 < cl_rows cl -> gen_read_query_one cl i nh dm t = Ok qy ->
  make_read_query cl (if r =? 0 then c else 0) (dm 0) (split t 0) = Ok qy.
Proof.
  intros Hr H. unfold gen_read_query_one, gen_read_query_batch in H. rewrite mapping_of_one in H. cbn [bind] in H.
  apply first_of_batch in H; [|exact Hr]. cbn [hget fst] in H. destruct (r =? 0); exact H.
Qed.
Lemma query_one_write data dm t qy : 0 < cl_rows cl -> gen_write_query_one cl i data nh dm t = Ok qy ->
  (if r =? 0 then make_write_query cl c data (split t 0) else make_read_query cl 0 (dm 0) (split t 0)) = Ok qy.
Proof.
  intros Hr H. unfold gen_write_query_one, gen_write_query_batch in H. rewrite mapping_of_one in H. cbn [bind] in H.
  apply first_of_batch in H; [|exact Hr]. cbn [hget fst] in H. destruct (r =? 0); exact H.
Qed.
End One.

(** Proved: one row. *)
Theorem C55_one_row : forall cl nh hc dom i dm data t, hash_for nh hc dom -> i < dom -> cl_rows cl = 1 -> cl_cols cl = hc * dom ->
  exists c, hash nh 0 i = Ok c /\ c < cl_cols cl /\
    gen_read_query_one cl i nh dm t = make_read_query cl c (dm 0) (split t 0) /\
    gen_write_query_one cl i data nh dm t = make_write_query cl c data (split t 0).
Proof.
  intros cl nh hc dom i dm data t Hh Hi Hr Hc. pose proof Hh as (shuffle & Hperm & Hnew). destruct (nh_fields shuffle hc dom nh Hnew) as (H0 & _).
  destruct (tuple_range shuffle Hperm hc dom nh Hnew 0 i 1 (cl_cols cl) H0 Hi) as (y & r & c & Ey & Et & Hrr & Hcc & Hrc); [lia|].
  assert (r = 0) as -> by lia. cbn in Hrc. subst y. exists c. split; [exact Ey|]. split; [exact Hcc|].
  pose proof (mapping_of_one cl nh hc dom i 0 c Hh Hi ltac:(lia) Et) as Em.
  unfold gen_read_query_one, gen_read_query_batch, gen_write_query_one, gen_write_query_batch. rewrite Hr, Em. cbn [bind seq mapM hget Nat.eqb fst].
  split; [destruct (make_read_query cl c (dm 0) (split t 0))|destruct (make_write_query cl c data (split t 0))]; reflexivity.
Qed.
Print Assumptions C55_one_row.
(** Exact behaviour for any number of rows. *)
Theorem C55_exact : forall cl nh hc dom i r c dm data t, hash_for nh hc dom -> i < dom -> 0 < cl_rows cl -> 0 < cl_cols cl ->
  hash_to_tuple nh 0 i (cl_cols cl) = Ok (r, c) ->
  (forall qy, gen_read_query_one cl i nh dm t = Ok qy -> make_read_query cl (if r =? 0 then c else 0) (dm 0) (split t 0) = Ok qy) /\
  (forall qy, gen_write_query_one cl i data nh dm t = Ok qy ->
     (if r =? 0 then make_write_query cl c data (split t 0) else make_read_query cl 0 (dm 0) (split t 0)) = Ok qy).
Proof. intros. split; intros; [eapply query_one_read|eapply query_one_write]; eassumption. Qed.
Print Assumptions C55_exact.
(** So an item in another row is neither read nor written: the query does not depend on it, nor on the
    data, and is the same for reads and writes. *)
Theorem C55_other_row_refuted : forall cl nh hc dom i i' r c r' c' dm data t qy qy',
  hash_for nh hc dom -> i < dom -> i' < dom -> 0 < cl_rows cl -> 0 < cl_cols cl ->
  hash_to_tuple nh 0 i (cl_cols cl) = Ok (r, c) -> r <> 0 -> hash_to_tuple nh 0 i' (cl_cols cl) = Ok (r', c') -> r' <> 0 ->
  gen_read_query_one cl i nh dm t = Ok qy -> gen_write_query_one cl i' data nh dm t = Ok qy' ->
  qy = qy' /\ make_read_query cl 0 (dm 0) (split t 0) = Ok qy.
Proof.
  intros cl nh hc dom i i' r c r' c' dm data t qy qy' Hh Hi Hi' Hr Hc E Hne E' Hne' H1 H2.
  apply (query_one_read cl nh hc dom i r c Hh Hi Hc E) in H1; [|exact Hr]. apply (query_one_write cl nh hc dom i' r' c' Hh Hi' Hc E') in H2; [|exact Hr].
  destruct (Nat.eqb_spec r 0); [contradiction|]. destruct (Nat.eqb_spec r' 0); [contradiction|]. rewrite H1 in H2. injection H2 as <-. auto.
Qed.
Print Assumptions C55_other_row_refuted.
(** A concrete instance: 3 rows, 2 columns, 2 items with 3 copies, the identity as shuffle. *)
Example C55_applies : exists nh cl, hash_for nh 3 2 /\ cl_rows cl = 3 /\ cl_cols cl = 2 /\ hash_to_tuple nh 0 1 2 = Ok (1, 1) /\
  exists qy, gen_write_query_one cl 1 [1; 1; 1; 1]%Z nh (fun _ => [0; 1; 0; 1]%Z) demo_tape = Ok qy /\
    make_read_query cl 0 [0; 1; 0; 1]%Z (split demo_tape 0) = Ok qy.
Proof.
  exists {| nh_tables := seq 0 6; nh_h_count := 3; nh_input_domain := 2 |}, (client_new 3 2 demo_cx demo_s).
  assert (hash_for {| nh_tables := seq 0 6; nh_h_count := 3; nh_input_domain := 2 |} 3 2) as Hh.
  { exists (fun l => l). split; [intros; apply Permutation_refl|reflexivity]. }
  split; [exact Hh|]. split; [reflexivity|]. split; [reflexivity|]. split; [reflexivity|].
  destruct demo_setting as (Hp & _ & Hs & _).
  assert (forall d, length d = 4 -> Forall (fun x => 0 <= x < 2)%Z d -> plaintext (c_n demo_cx) 1 d) as Hpt by (intros d H1 H2; split; assumption).
  assert (plaintext (c_n demo_cx) 1 [0; 1; 0; 1]%Z) as P1 by (apply Hpt; [reflexivity|]; repeat apply Forall_cons; try apply Forall_nil; lia).
  assert (plaintext (c_n demo_cx) 1 [1; 1; 1; 1]%Z) as P2 by (apply Hpt; [reflexivity|]; repeat apply Forall_cons; try apply Forall_nil; lia).
  set (cl := client_new 3 2 demo_cx demo_s). set (nh := {| nh_tables := seq 0 6; nh_h_count := 3; nh_input_domain := 2 |}) in *.
  assert (forall i d t, i < 2 -> plaintext (c_n demo_cx) 1 d -> tape_ok (c_n demo_cx) 3 t -> (exists qy, make_read_query cl i d t = Ok qy) /\ exists qy, make_write_query cl i d t = Ok qy) as HQ.
  { intros i d t H1 H2 H3. split.
    - destruct (make_read_ok demo_cx 2 1 Hp demo_s (PfNear.binary_key_wf _ _ Hs) 3 1 ltac:(lia) cl eq_refl eq_refl eq_refl i d t) as (qy & E & _); eauto.
    - destruct (make_write_ok demo_cx 2 1 Hp demo_s (PfNear.binary_key_wf _ _ Hs) 3 1 ltac:(lia) cl eq_refl eq_refl eq_refl i d t) as (qy & E & _); eauto. }
  assert (exists qy, gen_write_query_one cl 1 [1; 1; 1; 1]%Z nh (fun _ => [0; 1; 0; 1]%Z) demo_tape = Ok qy) as (qy & E).
  { unfold gen_write_query_one, gen_write_query_batch. rewrite (mapping_of_one cl nh 3 2 1 1 1 Hh) by (try reflexivity; cbn; lia).
    change (cl_rows cl) with 3. cbn [bind seq mapM hget Nat.eqb fst].
    destruct (HQ 0 [0; 1; 0; 1]%Z (split demo_tape 0)) as ((x0 & E0) & _); [lia|exact P1|intros j; apply demo_tape_ok|].
    destruct (HQ 1 [1; 1; 1; 1]%Z (split demo_tape 1)) as (_ & (x1 & E1)); [lia|exact P2|intros j; apply demo_tape_ok|].
    destruct (HQ 0 [0; 1; 0; 1]%Z (split demo_tape 2)) as ((x2 & E2) & _); [lia|exact P1|intros j; apply demo_tape_ok|].
    rewrite E0, E1, E2. cbn. eauto. }
  exists qy. split; [exact E|]. apply (C55_exact cl nh 3 2 1 1 1 (fun _ => [0; 1; 0; 1]%Z) [1; 1; 1; 1]%Z demo_tape Hh) in E; [exact E|..]; try reflexivity; cbn; lia.
Qed.

(** ** C56.  [decrypt_db]. *)
Section Db.
Variables (cx : ctx) (lg : nat) (k : Z) (s : poly) (B : Z) (sv : server) (rows cols : nat) (D : nat -> nat -> list Z).
Hypothesis Hp : params_ok cx lg k.
Hypothesis Hcx : srv_cx sv = cx.
Hypothesis Hdb : db_holds cx s k B (srv_data sv) rows cols D.
Hypothesis HB : (2 * B < 2 ^ (64 - k))%Z.
Lemma cell_decrypt r c row v : nth_error (srv_data sv) r = Some row -> nth_error row c = Some v ->
  (pt <- decrypt_decode_rlwe (srv_cx sv) s v ;; pt_to_lossy_u64 (c_mode (srv_cx sv)) pt) = pt_to_lossy_u64 (c_mode cx) (D r c).
Proof. intros Hr Hv. rewrite Hcx, (db_decrypts cx lg k s B _ rows cols D Hp Hdb HB r c row v Hr Hv). reflexivity. Qed.
End Db.
Lemma mapM_nth_all {A B} (f : A -> res B) (K : nat -> B -> Prop) l : (forall i x, nth_error l i = Some x -> exists y, f x = Ok y /\ K i y) ->
  exists ys, mapM f l = Ok ys /\ length ys = length l /\ forall i y, nth_error ys i = Some y -> K i y.
Proof.
  revert K. induction l as [|x l IH]; intros K H; cbn [mapM].
  - exists []. split; [reflexivity|]. split; [reflexivity|]. intros [|i] y E; discriminate.
  - destruct (H 0 x eq_refl) as (y & -> & Hy). destruct (IH (fun i => K (S i))) as (ys & -> & L & HK); [intros i z Hz; apply (H (S i)), Hz|].
    cbn [bind]. exists (y :: ys). split; [reflexivity|]. split; [cbn; congruence|]. intros [|i] z E; cbn in E; [injection E as <-; exact Hy|apply HK, E].
Qed.
Lemma mapM_panic {A B} (f : A -> res B) e l : (forall i x, nth_error l i = Some x -> (exists y, f x = Ok y) \/ f x = Panic e) ->
  (exists i x, nth_error l i = Some x /\ f x = Panic e) -> mapM f l = Panic e.
Proof.
  induction l as [|x l IH]; intros H (i & z & Hi & Hz); [destruct i; discriminate|]. cbn [mapM].
  destruct (f x) as [y|e'] eqn:Ex.
  - cbn [bind]. rewrite IH; [reflexivity|intros j w Hw; apply (H (S j)), Hw|]. destruct i as [|i]; [cbn in Hi; injection Hi as ->; congruence|]. exists i, z. auto.
  - destruct (H 0 x eq_refl) as [(y & Hy)|Hy]; cbn; congruence.
Qed.
(** Whether the first 64 coefficients of a plaintext are bits. *)
Definition bits64_ok (pt : list Z) : Prop := forall i, i < 64 -> nth i pt 0%Z = 0%Z \/ nth i pt 0%Z = 1%Z.

Theorem C56_binary : forall cx lg k s B sv rows cols D, params_ok cx lg k -> srv_cx sv = cx ->
  db_holds cx s k B (srv_data sv) rows cols D -> (2 * B < 2 ^ (64 - k))%Z ->
  (forall r c, r < rows -> c < cols -> bits64_ok (D r c)) ->
  exists out, decrypt_db sv s = Ok out /\ length out = rows /\ Forall (fun row => length row = cols) out /\
    forall r c row w, nth_error out r = Some row -> nth_error row c = Some w ->
      (0 <= w < 2 ^ 64)%Z /\ forall i, i < 64 -> Z.testbit w (Z.of_nat i) = (nth i (D r c) 0 =? 1)%Z.
Proof.
  intros cx lg k s B sv rows cols D Hp Hcx Hdb HB Hbits. pose proof Hdb as (Hlen & Hw & _). rewrite Forall_forall in Hw. unfold decrypt_db.
  set (cell := fun v => pt <- decrypt_decode_rlwe (srv_cx sv) s v ;; pt_to_lossy_u64 (c_mode (srv_cx sv)) pt).
  set (K := fun r (row : list Z) => length row = cols /\ forall c w, nth_error row c = Some w ->
      (0 <= w < 2 ^ 64)%Z /\ forall i, i < 64 -> Z.testbit w (Z.of_nat i) = (nth i (D r c) 0 =? 1)%Z).
  destruct (mapM_nth_all (mapM cell) K (srv_data sv)) as (out & E & L & HK).
  - intros r row Hr. pose proof (Hw row (nth_error_In _ _ Hr)) as Hc. assert (r < rows) as Hrr by (rewrite <- Hlen; apply nth_error_Some; congruence).
    destruct (mapM_nth_all cell (fun c w => (0 <= w < 2 ^ 64)%Z /\ forall i, i < 64 -> Z.testbit w (Z.of_nat i) = (nth i (D r c) 0 =? 1)%Z) row) as (ws & Ew & Lw & HKw).
    + intros c v Hv. unfold cell. rewrite (cell_decrypt cx lg k s B sv rows cols D Hp Hcx Hdb HB r c row v Hr Hv).
      assert (c < cols) as Hcc by (rewrite <- Hc; apply nth_error_Some; congruence).
      destruct (PfUtils.lossy_ok (c_mode cx) (D r c) (Hbits r c Hrr Hcc)) as (w & -> & H). eauto.
    + exists ws. split; [exact Ew|]. split; [congruence|exact HKw].
  - exists out. split; [exact E|]. split; [congruence|]. split.
    + apply Forall_forall. intros row Hin. apply In_nth_error in Hin as (r & Hr). apply (HK r row Hr).
    + intros r c row w Hr Hv. exact (proj2 (HK r row Hr) c w Hv).
Qed.
Print Assumptions C56_binary.

(** It panics as soon as one coefficient among the first 64 of some cell is not a bit. *)
Theorem C56_other_refuted : forall cx lg k s B sv rows cols D r0 c0 i0, params_ok cx lg k -> srv_cx sv = cx ->
  db_holds cx s k B (srv_data sv) rows cols D -> (2 * B < 2 ^ (64 - k))%Z ->
  r0 < rows -> c0 < cols -> i0 < 64 -> nth i0 (D r0 c0) 0%Z <> 0%Z -> nth i0 (D r0 c0) 0%Z <> 1%Z ->
  decrypt_db sv s = Panic PAssert.
Proof.
  intros cx lg k s B sv rows cols D r0 c0 i0 Hp Hcx Hdb HB Hr0 Hc0 Hi0 Hn0 Hn1. pose proof Hdb as (Hlen & Hw & _). rewrite Forall_forall in Hw. unfold decrypt_db.
  set (cell := fun v => pt <- decrypt_decode_rlwe (srv_cx sv) s v ;; pt_to_lossy_u64 (c_mode (srv_cx sv)) pt).
  assert (forall r c row v, nth_error (srv_data sv) r = Some row -> nth_error row c = Some v -> (exists w, cell v = Ok w) \/ cell v = Panic PAssert) as Hcell.
  { intros r c row v Hr Hv. unfold cell. rewrite (cell_decrypt cx lg k s B sv rows cols D Hp Hcx Hdb HB r c row v Hr Hv).
    destruct (Forall_dec (fun i => nth i (D r c) 0%Z = 0%Z \/ nth i (D r c) 0%Z = 1%Z)
       (fun i => match Z.eq_dec (nth i (D r c) 0%Z) 0, Z.eq_dec (nth i (D r c) 0%Z) 1 with left a, _ => left (or_introl a) | _, left b => left (or_intror b) | right a, right b => right (fun H => match H with or_introl x => a x | or_intror y => b y end) end) (seq 0 64)) as [HF|HF].
    - left. rewrite Forall_forall in HF. destruct (PfUtils.lossy_ok (c_mode cx) (D r c)) as (w & -> & _); [|eauto]. intros i Hi. apply HF. apply in_seq. lia.
    - right. apply Exists_Forall_neg in HF; [|intros i; destruct (Z.eq_dec (nth i (D r c) 0%Z) 0), (Z.eq_dec (nth i (D r c) 0%Z) 1); tauto].
      apply Exists_exists in HF as (i & Hi & HN). apply in_seq in Hi. apply (PfUtils.lossy_bad (c_mode cx) (D r c) i); [lia| |tauto|tauto].
      destruct (Nat.lt_ge_cases i (length (D r c))); [assumption|]. exfalso. apply HN. left. apply nth_overflow. assumption. }
  apply mapM_panic.
  - intros r row Hr. destruct (mapM cell row) as [ws|e] eqn:E; [eauto|]. right. f_equal.
    assert (forall l, (forall c v, nth_error l c = Some v -> (exists w, cell v = Ok w) \/ cell v = Panic PAssert) -> forall e, mapM cell l = Panic e -> e = PAssert) as G.
    { clear. induction l as [|x l IH]; intros H e E; cbn in E; [discriminate|]. destruct (H 0 x eq_refl) as [(w & Ex)|Ex]; rewrite Ex in E; cbn in E; [|congruence].
      destruct (mapM cell l) as [ws|e'] eqn:El; [discriminate|]. cbn in E. injection E as <-. apply IH; [|reflexivity]. intros c v Hv. apply (H (S c)), Hv. }
    eapply G; [|exact E]. intros c v Hv. eapply Hcell; eassumption.
  - destruct (nth_error (srv_data sv) r0) as [row|] eqn:Er; [|apply nth_error_None in Er; lia].
    pose proof (Hw row (nth_error_In _ _ Er)) as Hc. destruct (nth_error row c0) as [v|] eqn:Ev; [|apply nth_error_None in Ev; lia].
    exists r0, row. split; [exact Er|]. apply mapM_panic; [intros c v' Hv'; eapply Hcell; eassumption|]. exists c0, v. split; [exact Ev|].
    unfold cell. rewrite (cell_decrypt cx lg k s B sv rows cols D Hp Hcx Hdb HB r0 c0 row v Er Ev).
    apply (PfUtils.lossy_bad (c_mode cx) (D r0 c0) i0); auto. destruct (Nat.lt_ge_cases i0 (length (D r0 c0))); [assumption|].
    exfalso. apply Hn0. apply nth_overflow. assumption.
Qed.
Print Assumptions C56_other_refuted.
(** So it panics on a freshly set-up database unless all items are binary there. *)
Theorem C56_fresh_database_refuted : forall cx lg k s E rows cols nh hc dom gp t i j,
  params_ok cx lg k -> binary_key (c_n cx) s -> hash_for nh hc dom -> (forall i, plaintext (c_n cx) k (gp i)) -> tape_ok (c_n cx) E t ->
  (2 * E < 2 ^ (64 - k))%Z -> rows * cols = dom * hc -> i < dom -> j < 64 -> nth j (gp (i mod 128)) 0%Z <> 0%Z -> nth j (gp (i mod 128)) 0%Z <> 1%Z ->
  exists sv pts, setup_random_oram rows cols nh cx s gp t = Ok (client_new rows cols cx s, sv, pts) /\ decrypt_db sv s = Panic PAssert.
Proof.
  intros cx lg k s E rows cols nh hc dom gp t i j Hp Hs (shuffle & Hperm & Hnew) Hgp Ht HE Hdim Hi Hj H0 H1.
  destruct (setup_C40 cx lg k Hp s E Hs rows cols shuffle Hperm hc dom nh Hnew gp Hgp t Ht Hdim) as (sv & D & Eq & Hsv & Hdb & Hco).
  exists sv. eexists. split; [exact Eq|]. destruct (nh_fields shuffle hc dom nh Hnew) as (Hh0 & _).
  destruct (tuple_range shuffle Hperm hc dom nh Hnew 0 i rows cols Hh0 Hi) as (y & r & c & _ & Et & Hr & Hc & _); [lia|].
  pose proof (Hco 0 i r c Hh0 Hi Et) as Ed. cbv beta in Ed.
  eapply (C56_other_refuted cx lg k s E sv rows cols D r c j); try eassumption; [apply Hsv|rewrite Ed; exact H0|rewrite Ed; exact H1].
Qed.
Print Assumptions C56_fresh_database_refuted.
Example C56_applies : exists sv pts, setup_random_oram 3 2 demo_nh3 demo_cx2 demo_s (fun _ => [1; 0; 2; 3]%Z) demo_tape = Ok (client_new 3 2 demo_cx2 demo_s, sv, pts) /\
  decrypt_db sv demo_s = Panic PAssert.
Proof.
  eapply (C56_fresh_database_refuted demo_cx2 2 2 demo_s 3 3 2 demo_nh3 3 2 (fun _ => [1; 0; 2; 3]%Z) demo_tape 0 2); try lia.
  - exact demo_params2. - exact demo_key. - exact demo_hash3.
  - intros _; split; [reflexivity|]; repeat apply Forall_cons; try apply Forall_nil; lia.
  - exact demo_tape_ok. - cbn; lia. - cbn; lia.
Qed.
Example C56_binary_applies : exists sv pts out, setup_random_oram 3 2 demo_nh3 demo_cx demo_s (fun i => [Z.of_nat (i mod 2); 1; 0; 1]%Z) demo_tape = Ok (client_new 3 2 demo_cx demo_s, sv, pts) /\
  decrypt_db sv demo_s = Ok out /\ length out = 3.
Proof.
  destruct demo_setting as (Hp & _ & Hs & _). destruct demo_hash3 as (shuffle & Hperm & Hnew).
  destruct (setup_C40 demo_cx 2 1 Hp demo_s 3 Hs 3 2 shuffle Hperm 3 2 demo_nh3 Hnew (fun i => [Z.of_nat (i mod 2); 1; 0; 1]%Z) demo_pt demo_tape demo_tape_ok eq_refl) as (sv & D & Eq & Hsv & Hdb & Hco).
  destruct (C56_binary demo_cx 2 1 demo_s 3 sv 3 2 D Hp (proj1 Hsv) Hdb) as (out & E & L & _); [reflexivity| |eauto 8].
  intros r c Hr Hc i Hi. pose proof Hdb as (Hlen & Hw & Hcell). rewrite Forall_forall in Hw.
  destruct (nth_error (srv_data sv) r) as [row|] eqn:Er; [|apply nth_error_None in Er; lia].
  pose proof (Hw row (nth_error_In _ _ Er)) as Hcr. destruct (nth_error row c) as [v|] eqn:Ev; [|apply nth_error_None in Ev; lia].
  destruct (Hcell r c row v Er Ev) as (_ & (_ & HF) & _). rewrite Forall_forall in HF.
  destruct (Nat.lt_ge_cases i (length (D r c))) as [Hl|Hl]; [|left; apply nth_overflow; assumption].
  specialize (HF _ (nth_In _ 0%Z Hl)). cbn in HF. lia.
Qed.
