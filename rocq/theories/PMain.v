(** * Property C59: the benchmark drivers of src/main.rs.
    [coins] is the randomness of a run.  A driver that returns [Ok] passed all its assertions; it returns the
    measured noises, one list per iteration. *)
From Coq Require Import Permutation.
From Verif Require Import MBase MUtils MCodec MPoly MRlwe MHash MTree MEncTree MParams MSched MOram MMain SpecOram SpecBatch PfNear PfEnc3 PfEnc4 PfHash PfDet2 PfOram4
  LOram LBatch PfMain Demo PEnc POram PBatch PQuery.
Local Open Scope Z_scope.

(** The randomness of a run is within its bounds: shuffles permute, items and dummies are plaintexts, the
    encryption noise is at most [E]. *)
Definition good_coins (cx : ctx) (k E : Z) (co : coins) : Prop :=
  (forall l, Permutation (co_shuffle co l) l) /\ (forall i, plaintext (c_n cx) k (co_items co i)) /\ tape_ok (c_n cx) E (co_setup co) /\
  (forall j i r, plaintext (c_n cx) k (co_dummy co j i r)) /\ (forall j i, tape_ok (c_n cx) E (co_tape co j i)).

Lemma ulog2_pow md a : (a <= 63)%nat -> ulog2 md (Z.of_nat (2 ^ a)) = Ok (Z.of_nat a).
Proof.
  intros Ha. pose proof (Nat.pow_nonzero 2 a ltac:(lia)). rewrite ulog2_nat; [rewrite Nat.log2_pow2 by lia; reflexivity|lia|].
  rewrite Nat2Z.inj_pow. change q with (2 ^ 64). apply Z.pow_lt_mono_r; lia.
Qed.

(** Single queries: every iteration passes its check, and measures noise within the bound. *)
Theorem C59_single_query : forall md p cx lg k fft eps S E a iterations co,
  context_new md p = Ok cx -> setting cx lg k fft eps (co_sk co) S -> c_level cx <> 1%nat -> good_coins cx k E co -> (1 <= a <= 63)%nat -> (0 < iterations)%nat ->
  2 * (E + Z.of_nat iterations * growth cx a S E eps + answer_growth cx a S E eps) < 2 ^ (64 - k) ->
  exists noises, single_query fft md (2 ^ a) iterations p false co = Ok noises /\ length noises = iterations /\
    forall j v, nth_error noises j = Some v -> 0 <= v <= E + Z.of_nat j * growth cx a S E eps + answer_growth cx a S E eps.
Proof.
  intros md p cx lg k fft eps S E a iterations co Ecx Hset Hlv (Hperm & Hit & Hset0 & Hdm & Ht) Ha Hi Hb.
  pose proof Hset as (Hp & Hf & Hs & HS). unfold single_query.
  assert ((0 <? iterations)%nat = true) as -> by (apply Nat.ltb_lt; exact Hi). cbn [rassert bind]. rewrite ulog2_pow by lia. cbn [bind].
  destruct (nh_new (co_shuffle co) 1 (2 ^ a)) as [nh|] eqn:Hnew; [|discriminate]. cbn [bind]. rewrite Ecx. cbn [bind].
  destruct (setup_C40 cx lg k Hp (co_sk co) E Hs 1 (2 ^ a) (co_shuffle co) Hperm 1 (2 ^ a) nh Hnew (co_items co) Hit (co_setup co) Hset0 ltac:(lia))
    as (sv & D & -> & Hsv & Hdb & Hco). cbn [bind].
  pose proof (growth_nonneg cx lg k Hp fft eps Hf _ S E HS a Ha sv Hsv) as HG.
  pose proof (items_of_copies _ nh 1 (2 ^ a) (2 ^ a) D _ Hperm Hnew ltac:(lia) Hco) as HA.
  destruct (iterate_ok (single_iter fft (client_new 1 (2 ^ a) cx (co_sk co)) nh (map (fun i => co_items co (i mod 128)%nat) (seq 0 (2 ^ a))) co)
    (fun j sv => server_for cx (co_sk co) E sv /\ db_holds cx (co_sk co) k (E + Z.of_nat j * growth cx a S E eps) (srv_data sv) 1 (2 ^ a) D)
    (fun j v => 0 <= v <= E + Z.of_nat j * growth cx a S E eps + answer_growth cx a S E eps) iterations) with (m := iterations) (j := 0%nat) (sv := sv)
    as (out & -> & L & Hout).
  - intros j sv0 Hj [Hsv0 Hdb0].
    destruct (single_iter_ok cx lg k fft eps S E co Hset Hdm Ht a Ha (co_shuffle co) nh (2 ^ a) D _ j sv0 _ Hperm Hnew eq_refl Hsv0 Hdb0 HA) as (v & sv' & Ev & Hv & Hsv' & Hdb').
    + nia.
    + nia.
    + right. exact Hlv.
    + exists v, sv'. split; [exact Ev|]. split; [exact Hv|]. split; [exact Hsv'|].
      replace (E + Z.of_nat (Datatypes.S j) * growth cx a S E eps) with (E + Z.of_nat j * growth cx a S E eps + growth cx a S E eps) by lia. exact Hdb'.
  - lia.
  - split; [exact Hsv|]. change (Z.of_nat 0) with 0. replace (E + 0 * growth cx a S E eps) with E by lia. exact Hdb.
  - exists out. split; [reflexivity|]. split; [exact L|]. intros j v Hj. apply (Hout j v Hj).
Qed.
Print Assumptions C59_single_query.

(** Several queries at once: fewer than items. *)
Theorem C59_multi_query : forall md p cx lg k fft eps S E a query_count iterations co,
  context_new md p = Ok cx -> setting cx lg k fft eps (co_sk co) S -> good_coins cx k E co -> (1 <= a <= 63)%nat -> (0 < iterations)%nat ->
  (query_count < 2 ^ a)%nat -> query_count <> 1%nat ->
  2 * (E + Z.of_nat iterations * multi_growth cx a S E eps query_count + answer_growth cx a S E eps) < 2 ^ (64 - k) ->
  exists noises, multi_query fft md (2 ^ a) query_count iterations p false co = Ok noises /\ length noises = iterations /\
    forall j vs, nth_error noises j = Some vs -> length vs = query_count /\
      Forall (fun v => 0 <= v <= E + Z.of_nat j * multi_growth cx a S E eps query_count + answer_growth cx a S E eps) vs.
Proof.
  intros md p cx lg k fft eps S E a qc iterations co Ecx Hset (Hperm & Hit & Hset0 & Hdm & Ht) Ha Hi Hqc Hq1 Hb.
  pose proof Hset as (Hp & Hf & Hs & HS). unfold multi_query.
  assert ((0 <? iterations)%nat = true) as -> by (apply Nat.ltb_lt; exact Hi). cbn [rassert bind]. rewrite ulog2_pow by lia. cbn [bind].
  destruct (nh_new (co_shuffle co) 1 (2 ^ a)) as [nh|] eqn:Hnew; [|discriminate]. cbn [bind]. rewrite Ecx. cbn [bind].
  destruct (setup_C40 cx lg k Hp (co_sk co) E Hs 1 (2 ^ a) (co_shuffle co) Hperm 1 (2 ^ a) nh Hnew (co_items co) Hit (co_setup co) Hset0 ltac:(lia))
    as (sv & D & -> & Hsv & Hdb & Hco). cbn [bind]. rewrite map_length, seq_length, Nat.eqb_refl. cbn [rassert bind].
  pose proof (multi_growth_nonneg cx lg k fft eps S E co Hset Hdm Ht a Ha sv qc Hsv) as HG.
  pose proof (items_of_copies _ nh 1 (2 ^ a) (2 ^ a) D _ Hperm Hnew ltac:(lia) Hco) as HA.
  destruct (iterate_ok (multi_iter fft (client_new 1 (2 ^ a) cx (co_sk co)) nh (map (fun i => co_items co (i mod 128)%nat) (seq 0 (2 ^ a))) qc co)
    (fun j sv => server_for cx (co_sk co) E sv /\ db_holds cx (co_sk co) k (E + Z.of_nat j * multi_growth cx a S E eps qc) (srv_data sv) 1 (2 ^ a) D)
    (fun j vs => length vs = qc /\ Forall (fun v => 0 <= v <= E + Z.of_nat j * multi_growth cx a S E eps qc + answer_growth cx a S E eps) vs) iterations)
    with (m := iterations) (j := 0%nat) (sv := sv) as (out & -> & L & Hout).
  - intros j sv0 Hj [Hsv0 Hdb0].
    destruct (multi_iter_ok cx lg k fft eps S E co Hset Hdm Ht a Ha (co_shuffle co) nh (2 ^ a) D _ qc j sv0 _ Hperm Hnew eq_refl Hqc Hsv0 Hdb0 HA) as (v & sv' & Ev & Hv & Hsv' & Hdb').
    + nia.
    + nia.
    + right. exact Hq1.
    + exists v, sv'. split; [exact Ev|]. split; [exact Hv|]. split; [exact Hsv'|].
      replace (E + Z.of_nat (Datatypes.S j) * multi_growth cx a S E eps qc) with (E + Z.of_nat j * multi_growth cx a S E eps qc + multi_growth cx a S E eps qc) by lia. exact Hdb'.
  - lia.
  - split; [exact Hsv|]. change (Z.of_nat 0) with 0. replace (E + 0 * multi_growth cx a S E eps qc) with E by lia. exact Hdb.
  - exists out. split; [reflexivity|]. split; [exact L|]. intros j v Hj. apply (Hout j v Hj).
Qed.
Print Assumptions C59_multi_query.

(** Batches: rows * cols = 3 * items.  The driver asks for the items 0 and 1; more generally the check is
    right for every list in which each member is its own position. *)
Lemma pow2_not_3 a dom : (2 ^ a <> 3 * dom)%nat.
Proof.
  intros H. assert (2 ^ a mod 3 <> 0)%nat as Hm.
  { clear H. induction a as [|a IH]; [cbn; discriminate|]. rewrite Nat.pow_succ_r', Nat.mul_mod by lia.
    pose proof (Nat.mod_upper_bound (2 ^ a) 3 ltac:(lia)). destruct (2 ^ a mod 3)%nat as [|[|[|m]]]; [contradiction|cbn; discriminate|cbn; discriminate|lia]. }
  apply Hm. rewrite H, Nat.mul_comm. apply Nat.mod_mul. lia.
Qed.
Lemma batch_query_with_ok : forall is md p cx lg k fft eps S E a rows dom iterations co,
  own_position is -> Forall (fun i => i < dom)%nat is ->
  context_new md p = Ok cx -> setting cx lg k fft eps (co_sk co) S -> good_coins cx k E co -> (1 <= a <= 63)%nat -> (0 < iterations)%nat ->
  (0 < rows)%nat -> (rows * 2 ^ a = 3 * dom)%nat -> dom <> 1%nat -> Z.of_nat dom < q ->
  2 * (E + Z.of_nat iterations * batch_growth cx a 3 S E eps + answer_growth cx a S E eps) < 2 ^ (64 - k) ->
  exists nh noises, nh_new (co_shuffle co) 3 dom = Ok nh /\ batch_query_with is fft md rows (2 ^ a) iterations p false co = Ok noises /\ length noises = iterations /\
    forall j vs, nth_error noises j = Some vs -> length vs = length (placed nh (2 ^ a) is) /\
      Forall (fun v => 0 <= v <= E + Z.of_nat j * batch_growth cx a 3 S E eps + answer_growth cx a S E eps) vs.
Proof.
  intros is md p cx lg k fft eps S E a rows dom iterations co Hown His Ecx Hset (Hperm & Hit & Hset0 & Hdm & Ht) Ha Hi Hrows Hdim Hd1 Hq Hb.
  pose proof Hset as (Hp & Hf & Hs & HS). unfold batch_query_with. pose proof (Nat.pow_nonzero 2 a ltac:(lia)) as H2.
  assert (rows * 2 ^ a / 3 = dom)%nat as Hdiv by (rewrite Hdim, Nat.mul_comm, Nat.div_mul by lia; reflexivity).
  assert ((0 <? iterations)%nat = true) as -> by (apply Nat.ltb_lt; exact Hi). cbn [rassert bind]. rewrite Hdiv.
  rewrite ulog2_nat by (try exact Hq; nia). cbn [bind].
  destruct (nh_new (co_shuffle co) 3 dom) as [nh|] eqn:Hnew; [|discriminate]. cbn [bind]. rewrite Ecx. cbn [bind].
  destruct (setup_C40 cx lg k Hp (co_sk co) E Hs rows (2 ^ a) (co_shuffle co) Hperm 3 dom nh Hnew (co_items co) Hit (co_setup co) Hset0 ltac:(lia))
    as (sv & D & -> & Hsv & Hdb & Hco). cbn [bind].
  assert (0 <= batch_growth cx a 3 S E eps) as HG by (eapply batch_growth_nonneg; eassumption).
  destruct (iterate_ok (batch_iter fft (client_new rows (2 ^ a) cx (co_sk co)) nh (map (fun i => co_items co (i mod 128)%nat) (seq 0 dom)) is (2 ^ a) co)
    (fun j sv => server_for cx (co_sk co) E sv /\ db_holds cx (co_sk co) k (E + Z.of_nat j * batch_growth cx a 3 S E eps) (srv_data sv) rows (2 ^ a) D)
    (fun j vs => length vs = length (placed nh (2 ^ a) is) /\ Forall (fun v => 0 <= v <= E + Z.of_nat j * batch_growth cx a 3 S E eps + answer_growth cx a S E eps) vs) iterations)
    with (m := iterations) (j := 0%nat) (sv := sv) as (out & -> & L & Hout).
  - intros j sv0 Hj [Hsv0 Hdb0].
    destruct (batch_iter_ok cx lg k fft eps S E co Hset Hdm Ht a Ha (co_shuffle co) nh rows dom D _ is j sv0 _ Hperm Hnew Hdim Hrows His Hown Hsv0 Hdb0 Hco) as (v & sv' & Ev & Hv & Hsv' & Hdb').
    + nia.
    + nia.
    + right. intros ->. apply (pow2_not_3 a dom). lia.
    + right. exact Hd1.
    + exists v, sv'. split; [exact Ev|]. split; [exact Hv|]. split; [exact Hsv'|].
      replace (E + Z.of_nat (Datatypes.S j) * batch_growth cx a 3 S E eps) with (E + Z.of_nat j * batch_growth cx a 3 S E eps + batch_growth cx a 3 S E eps) by lia. exact Hdb'.
  - lia.
  - split; [exact Hsv|]. change (Z.of_nat 0) with 0. replace (E + 0 * batch_growth cx a 3 S E eps) with E by lia. exact Hdb.
  - exists nh, out. split; [reflexivity|]. split; [reflexivity|]. split; [exact L|]. intros j v Hj. apply (Hout j v Hj).
Qed.
Theorem C59_batch_query : forall md p cx lg k fft eps S E a rows dom iterations co,
  context_new md p = Ok cx -> setting cx lg k fft eps (co_sk co) S -> good_coins cx k E co -> (1 <= a <= 63)%nat -> (0 < iterations)%nat ->
  (2 <= dom)%nat -> (rows * 2 ^ a = 3 * dom)%nat -> Z.of_nat dom < q ->
  2 * (E + Z.of_nat iterations * batch_growth cx a 3 S E eps + answer_growth cx a S E eps) < 2 ^ (64 - k) ->
  exists noises, batch_query fft md rows (2 ^ a) iterations p false co = Ok noises /\ length noises = iterations /\
    forall j vs, nth_error noises j = Some vs -> (1 <= length vs <= 2)%nat /\
      Forall (fun v => 0 <= v <= E + Z.of_nat j * batch_growth cx a 3 S E eps + answer_growth cx a S E eps) vs.
Proof.
  intros md p cx lg k fft eps S E a rows dom iterations co Ecx Hset Hco Ha Hi Hd Hdim Hq Hb.
  assert (own_position [0; 1]%nat) as Hown by (intros i [<-|[<-|[]]]; reflexivity).
  assert (Forall (fun i => i < dom)%nat [0; 1]%nat) as His by (repeat constructor; lia).
  pose proof Hco as (Hperm & _). pose proof (Nat.pow_nonzero 2 a ltac:(lia)) as H2.
  destruct (batch_query_with_ok [0; 1]%nat md p cx lg k fft eps S E a rows dom iterations co Hown His Ecx Hset Hco Ha Hi ltac:(nia) Hdim ltac:(lia) Hq Hb)
    as (nh & noises & Hnew & Eq & L & Hout).
  exists noises. split; [exact Eq|]. split; [exact L|]. intros j vs Hj. destruct (Hout j vs Hj) as [Lv F]. split; [|exact F]. rewrite Lv. unfold placed.
  assert (forall i, In i [0; 1]%nat -> i < dom)%nat as His2 by (apply Forall_forall; exact His).
  destruct (mapping_ok (co_shuffle co) Hperm 3 dom nh Hnew (2 ^ a) [0; 1]%nat His2 ltac:(lia)) as (mp & Em & _ & Hl). rewrite Em. cbn [length] in Hl.
  split; [|exact Hl]. destruct mp as [|e mp]; [|cbn; lia]. exfalso.
  destruct (mapping_first (co_shuffle co) Hperm 3 dom nh Hnew (2 ^ a) 0 [1]%nat [] His2 ltac:(lia) Em) as (r & c & []).
Qed.
Print Assumptions C59_batch_query.

(** No panic hides behind "not Ok": [res] has only [Ok] and [Panic]. *)
Lemma not_ok_panics {A} (x : res A) : (forall v, x <> Ok v) -> exists e, x = Panic e.
Proof. destruct x as [v|e]; intros H; [exfalso; apply (H v); reflexivity|exists e; reflexivity]. Qed.
Lemma iterate_first_bad {A} (f : nat -> server -> res (A * server)) m sv : (0 < m)%nat -> (forall j r, f j sv <> Ok r) -> forall out, iterate f (seq 0 m) sv <> Ok out.
Proof.
  intros Hm Hf out. destruct m as [|m]; [lia|]. cbn [seq iterate]. intros H. apply bind_ok in H as (r & H & _). apply (Hf _ _ H).
Qed.

Lemma mapM_at {A B} (f : A -> res B) l r x : mapM f l = Ok r -> In x l -> exists y, f x = Ok y.
Proof. intros H Hin. apply In_nth_error in Hin as (i & Hi). destruct (mapM_nth f l r i x H Hi) as (y & Hy & _). exists y. exact Hy. Qed.

(** The drivers refuse to run no iterations .. *)
Theorem C59_no_iterations : forall fft md items rows cols qc p dryrun co,
  single_query fft md items 0 p dryrun co = Panic PAssert /\ multi_query fft md items qc 0 p dryrun co = Panic PAssert /\
  batch_query fft md rows cols 0 p dryrun co = Panic PAssert.
Proof. intros. repeat split. Qed.
Print Assumptions C59_no_iterations.

(** .. a dry run does nothing .. *)
Theorem C59_dryrun : forall fft md items rows cols qc it p co, (0 < it)%nat ->
  ((0 < items)%nat /\ Z.of_nat items < q -> single_query fft md items it p true co = Ok [] /\ multi_query fft md items qc it p true co = Ok []) /\
  ((3 <= rows * cols)%nat /\ Z.of_nat (rows * cols / 3) < q -> batch_query fft md rows cols it p true co = Ok []).
Proof.
  intros fft md items rows cols qc it p co Hit. assert ((0 <? it)%nat = true) as Ei by (apply Nat.ltb_lt; exact Hit).
  split; intros [H0 Hq]; unfold single_query, multi_query, batch_query, batch_query_with; rewrite Ei; cbn [rassert bind];
    (rewrite ulog2_nat; [cbn [bind]; auto| |exact Hq]); [exact H0|]. apply Nat.div_str_pos. lia.
Qed.
Print Assumptions C59_dryrun.

(** .. [multi_query] with as many queries as items asks for an item that does not exist and panics, whatever
    the parameters, key, randomness and FFT .. *)
Theorem C59_multi_query_too_many : forall fft md items qc it p co, (forall l, Permutation (co_shuffle co l) l) ->
  (0 < it)%nat -> (0 < items)%nat -> (items <= qc)%nat -> exists e, multi_query fft md items qc it p false co = Panic e.
Proof.
  intros fft md items qc it p co Hperm Hit H0 Hqc. apply not_ok_panics. intros out H. unfold multi_query in H.
  apply bind_ok in H as (u & _ & H). apply bind_ok in H as (lg & _ & H). apply bind_ok in H as (nh & Hnew & H). apply bind_ok in H as (cx & _ & H).
  apply bind_ok in H as ([[cl sv] pts] & _ & H). apply bind_ok in H as (u2 & _ & H). revert H. apply iterate_first_bad; [exact Hit|].
  intros j r H. unfold multi_iter in H. apply bind_ok in H as (qs & Hq & _).
  assert (In (items - 1)%nat (seq 0 qc)) as Hin by (apply in_seq; lia).
  destruct (mapM_at _ _ _ _ Hq Hin) as (qy & Hy). replace (items - 1 + 1)%nat with items in Hy by lia. unfold gen_read_query_one in Hy. apply bind_ok in Hy as (ql & Hy & _).
  unfold gen_read_query_batch in Hy. apply bind_ok in Hy as (mp & Hy & _). unfold hash_to_mapping in Hy. cbn [foldM] in Hy. apply bind_ok in Hy as (m & Hy & _).
  destruct (nh_fields _ _ _ _ Hnew) as (_ & Eh & _). rewrite Eh in Hy. cbn [seq place] in Hy. apply bind_ok in Hy as (rc & Hy & _).
  unfold hash_to_tuple in Hy. rewrite (hash_panics _ Hperm 1 items nh Hnew) in Hy by lia. discriminate.
Qed.
Print Assumptions C59_multi_query_too_many.

(** .. and [batch_query] whose number of cells is not divisible by 3 fails the dimension check of the setup. *)
Theorem C59_batch_query_not_divisible : forall is fft md rows cols it p co,
  (forall l, Permutation (co_shuffle co l) l) -> (0 < it)%nat -> (rows * cols mod 3 <> 0)%nat -> exists e, batch_query_with is fft md rows cols it p false co = Panic e.
Proof.
  intros is fft md rows cols it p co Hperm Hit Hmod. apply not_ok_panics. intros out H. unfold batch_query_with in H.
  apply bind_ok in H as (u & _ & H). apply bind_ok in H as (lg & _ & H). apply bind_ok in H as (nh & Hnew & H). apply bind_ok in H as (cx & _ & H).
  apply bind_ok in H as ([[cl sv] pts] & H & _).
  rewrite (C40_dimension_mismatch_panics cx (co_sk co) rows cols nh 3 (rows * cols / 3)) in H; [discriminate| |].
  - exists (co_shuffle co). auto.
  - intros E. apply Hmod. rewrite E. apply Nat.mod_mul. lia.
Qed.
Print Assumptions C59_batch_query_not_divisible.

(** The check of the batched driver looks the item up in the index list once too often
    (pts[indices[i]], where [i] is already the item).  It is right for the list [0; 1] the driver uses, but a
    batch asking for any single item other than item 0 would be rejected: always .. *)
Theorem C59_batch_check_refuted : forall i fft md rows cols it p co,
  (0 < it)%nat -> (0 < i)%nat -> exists e, batch_query_with [i] fft md rows cols it p false co = Panic e.
Proof.
  intros i fft md rows cols it p co Hit Hi. apply not_ok_panics. intros out H. unfold batch_query_with in H.
  apply bind_ok in H as (u & _ & H). apply bind_ok in H as (lg & _ & H). apply bind_ok in H as (nh & Hnew & H). apply bind_ok in H as (cx & _ & H).
  apply bind_ok in H as ([[cl sv] pts] & _ & H). revert H. apply iterate_first_bad; [exact Hit|].
  intros j r H. unfold batch_iter in H. apply bind_ok in H as (qs & _ & H). apply bind_ok in H as ([ys sv1] & _ & H). apply bind_ok in H as (ns & H & _).
  unfold batch_check in H. apply bind_ok in H as (mp & Em & H).
  unfold hash_to_mapping in Em. cbn [foldM] in Em. apply bind_ok in Em as (m & Em & Eq). injection Eq as ->.
  destruct (nh_fields _ _ _ _ Hnew) as (_ & Eh & _). rewrite Eh in Em. cbn [seq place] in Em. apply bind_ok in Em as ([r0 c0] & _ & Em). cbn [hget] in Em.
  injection Em as <-. cbn [app mapM] in H. apply bind_ok in H as (v & H & _). apply bind_ok in H as (y & _ & H). apply bind_ok in H as (pt & _ & H).
  apply bind_ok in H as (ix & H & _). unfold index in H. destruct i as [|i]; [lia|]. cbn [nth_error] in H. destruct i; discriminate.
Qed.
Print Assumptions C59_batch_check_refuted.

(** .. and a batch asking for the items 1 and 0, answered correctly, is compared with the wrong items. *)
Theorem C59_batch_check_order_refuted : forall cx s rows cols nh dom hc pts ys,
  hash_for nh hc dom -> (2 <= dom)%nat -> (0 < cols)%nat -> length pts = dom -> nth 0 pts [] <> nth 1 pts [] ->
  rows_answer cx s ys (batch_answer nh cols (fun i => nth i pts []) (BRead [1; 0]%nat)) ->
  exists e, batch_check (client_new rows cols cx s) nh pts [1; 0]%nat cols ys = Panic e.
Proof.
  intros cx s rows cols nh dom hc pts ys (shuffle & Hperm & Hnew) Hd Hc Hl Hne Hans. apply not_ok_panics. intros out H.
  unfold batch_check in H. apply bind_ok in H as (mp & Em & H).
  assert (forall i, In i [1; 0]%nat -> i < dom)%nat as His by (intros i [<-|[<-|[]]]; lia).
  destruct (mapping_first shuffle Hperm hc dom nh Hnew cols 1 [0]%nat mp His Hc Em) as (r & c & Hin).
  destruct (mapM_at _ _ _ _ H Hin) as (v & Hv). cbv beta iota in Hv.
  destruct (Hans r (nth 1 pts [])) as (y & Ey & Ed).
  { unfold batch_answer, placed. cbn [batch_items]. rewrite Em. apply in_map_iff. exists (r, (c, 1%nat)). auto. }
  unfold index at 1 in Hv. rewrite Ey in Hv. cbn [bind] in Hv. change (cl_cx (client_new rows cols cx s)) with cx in Hv. change (cl_sk (client_new rows cols cx s)) with s in Hv.
  rewrite Ed in Hv. cbn [bind index nth_error] in Hv. apply bind_ok in Hv as (ex & He & Hv). apply bind_ok in Hv as (u & Hu & _).
  unfold index in He. destruct pts as [|p0 pts]; [cbn in Hl; lia|]. cbn [nth_error] in He. injection He as <-. cbn [nth] in Hne.
  rewrite assert_eq_pt_neq in Hu by exact Hne. discriminate.
Qed.
Print Assumptions C59_batch_check_order_refuted.

(** *** The hypotheses are satisfiable: ring dimension 4; four items, three iterations. *)
Definition demo_tfhe : tfhe_params :=
  {| tp_standard_deviation := -55; tp_polynomial_size := 4; tp_base_log := 5; tp_level_count := 11; tp_ks_base_log := 5; tp_ks_level_count := 11;
     tp_negs_base_log := 5; tp_negs_level_count := 11; tp_plaintext_modulus := 2; tp_secure_seed := true |}.
Definition demo_coins (sh : list nat -> list nat) : coins :=
  {| co_shuffle := sh; co_sk := demo_s; co_items := fun i => [Z.of_nat (i mod 2); 1; 0; 1]; co_setup := demo_tape;
     co_dummy := fun _ i _ => [Z.of_nat (i mod 2); 1; 0; 1]; co_tape := fun _ _ => demo_tape |}.
Lemma demo_context : context_new Checked demo_tfhe = Ok demo_cx. Proof. reflexivity. Qed.
Lemma demo_good sh : (forall l, Permutation (sh l) l) -> good_coins demo_cx 1 3 (demo_coins sh).
Proof.
  intros H. split; [exact H|]. split; [exact demo_pt|]. split; [exact demo_tape_ok|]. split; [intros j i r; apply demo_pt|]. intros j i. exact demo_tape_ok.
Qed.
Lemma rev_perm l : Permutation (@rev nat l) l. Proof. symmetry. apply Permutation_rev. Qed.
Example C59_single_applies : exists noises, single_query (exact_fft 4) Checked (2 ^ 2) 3 demo_tfhe false (demo_coins (@rev nat)) = Ok noises /\ length noises = 3%nat.
Proof.
  destruct (C59_single_query Checked demo_tfhe demo_cx 2 1 (exact_fft 4) 0 3 3 2 3 (demo_coins (@rev nat)) demo_context demo_setting) as (ns & H & L & _);
    [discriminate|exact (demo_good _ rev_perm)|lia|lia|vm_compute; reflexivity|]. exists ns. auto.
Qed.
Example C59_multi_applies : exists noises, multi_query (exact_fft 4) Checked (2 ^ 2) 2 3 demo_tfhe false (demo_coins (@rev nat)) = Ok noises /\ length noises = 3%nat.
Proof.
  destruct (C59_multi_query Checked demo_tfhe demo_cx 2 1 (exact_fft 4) 0 3 3 2 2 3 (demo_coins (@rev nat)) demo_context demo_setting (demo_good _ rev_perm)) as (ns & H & L & _);
    [lia|lia|cbn; lia|discriminate|vm_compute; reflexivity|]. exists ns. auto.
Qed.
(** Three rows of two cells: two items, three copies each. *)
Example C59_batch_applies : exists noises, batch_query (exact_fft 4) Checked 3 (2 ^ 1) 3 demo_tfhe false (demo_coins demo_shuffle) = Ok noises /\ length noises = 3%nat.
Proof.
  destruct (C59_batch_query Checked demo_tfhe demo_cx 2 1 (exact_fft 4) 0 3 3 1 3 2 3 (demo_coins demo_shuffle) demo_context demo_setting (demo_good _ demo_shuffle_perm)) as (ns & H & L & _);
    [lia|lia|lia|reflexivity|vm_compute; reflexivity|vm_compute; reflexivity|]. exists ns. auto.
Qed.
(** The dimensions of the default parameters (src/params.rs) and the default command line (src/cli.rs) are of
    the required form. *)
Example C59_default_dimensions : (384 * 2 ^ 4 = 3 * 2048 /\ 96 * 2 ^ 6 = 3 * 2048)%nat.
Proof. split; vm_compute; reflexivity. Qed.
