(** * Batches, in the form used by the theorem files *)
From Coq Require Import Permutation.
From Verif Require Import MBase MUtils MCodec MPoly MRlwe MHash MTree MEncTree MSched MOram SpecOram SpecBatch PolyRing PfPoly PfNear PfRlwe PfRlwe2 PfRlwe3
  PfRlwe5 PfCodec LRlwe LKeys PfEnc PfEnc2 PfEnc3 PfEnc4 LEnc PfHash PfSched PfOram1 PfOram2 PfOram3 PfOram4 PfOram5 LOram PfOram8 PfOram9 PfOram10.
Local Open Scope Z_scope.

Lemma filter_unique (t : nat -> bool) l : NoDup l -> (forall x y, In x l -> In y l -> t x = true -> t y = true -> x = y) -> (length (filter t l) <= 1)%nat.
Proof.
  induction l as [|x l IH]; intros Hnd Hu; cbn [filter]; [cbn; lia|]. apply NoDup_cons_iff in Hnd as [Hni Hnd].
  assert (length (filter t l) <= 1)%nat as H by (apply IH; [exact Hnd|intros; apply Hu; try (right; assumption); assumption]).
  destruct (t x) eqn:Ex; [|exact H]. enough (filter t l = []) as -> by (cbn; lia).
  destruct (filter t l) as [|y l'] eqn:Ef; [reflexivity|]. assert (In y (filter t l)) as Hy by (rewrite Ef; left; reflexivity). apply filter_In in Hy as [Hy Ey].
  exfalso. apply Hni. rewrite (Hu x y); [exact Hy|left; reflexivity|right; exact Hy|exact Ex|exact Ey].
Qed.
Lemma filter_pos (t : nat -> bool) l : (0 < length (filter t l))%nat <-> exists x, In x l /\ t x = true.
Proof.
  split.
  - intros H. destruct (filter t l) as [|y l'] eqn:Ef; [cbn in H; lia|]. exists y. apply filter_In. rewrite Ef. left; reflexivity.
  - intros (x & Hx). apply filter_In in Hx. destruct (filter t l); [contradiction|cbn; lia].
Qed.

Section Ba.
Variable cx : ctx.
Variables (lg : nat) (k : Z).
Hypothesis Hp : params_ok cx lg k.
Notation n := (c_n cx).
Variable fft : fftT.
Variable eps : Z.
Hypothesis Hf : fft_for cx fft eps.
Variable s : poly.
Hypothesis Ws : wfp n s.
Variables S E : Z.
Hypothesis HS : l1 n (tof s) S.
Variable a : nat.
Hypothesis Ha : (1 <= a <= 63)%nat.
Notation G := (growth cx a S E eps).
Variable rows : nat.
Hypothesis Hrows : (0 < rows)%nat.
Notation cols := (2 ^ a)%nat.
Notation cl := (client_new rows cols cx s).
Variable shuffle : list nat -> list nat.
Hypothesis shuffle_perm : forall l, Permutation (shuffle l) l.
Variables (hc dom : nat) (nh : nhash).
Hypothesis Hnew : nh_new shuffle hc dom = Ok nh.
Hypothesis Hdim : (rows * cols = hc * dom)%nat.
Notation nwritten br i := (length (filter (fun h => copy_written nh cols br h i) (seq 1 (hc - 1)))).
Notation data_of br v := (match br with BRead _ => v | BWrite _ data => data end).

Lemma tuple_at h i : (h < hc)%nat -> (i < dom)%nat -> exists r c, hash_to_tuple nh h i cols = Ok (r, c) /\ (r < rows)%nat /\ (c < cols)%nat.
Proof. apply (tuple_in rows cols shuffle shuffle_perm hc dom nh Hnew Hdim). Qed.
Lemma written_placed is data h i r c : (h < hc)%nat -> (i < dom)%nat -> (forall j, In j is -> (j < dom)%nat) -> hash_to_tuple nh h i cols = Ok (r, c) ->
  (copy_written nh cols (BWrite is data) h i = true <-> In (r, (c, i)) (placed nh cols is)).
Proof.
  intros Hh Hi His Et. destruct (mapping_ok shuffle shuffle_perm hc dom nh Hnew cols is His (pow2_pos_nat a)) as (mp & Em & [Hnd Hm] & _).
  unfold copy_written, placed. rewrite Et, Em. split.
  - destruct (hget mp r) as [[c' j]|] eqn:Eg; [|discriminate]. intros Hc. apply Nat.eqb_eq in Hc. subst c'. apply hget_Some_in in Eg.
    destruct (Hm r c j Eg) as (Hj & h' & Hh' & Et').
    destruct (tuple_inj shuffle shuffle_perm hc dom nh Hnew h i h' j cols r c Hh Hi Hh' (His j Hj) (pow2_pos_nat a) Et Et') as [_ ->]. exact Eg.
  - intros Hin. apply hget_In in Hin; [|exact Hnd]. rewrite Hin. apply Nat.eqb_refl.
Qed.
Lemma served_iff is data i : (i < dom)%nat -> (forall j, In j is -> (j < dom)%nat) ->
  (served nh cols is i = true <-> exists h, (h < hc)%nat /\ copy_written nh cols (BWrite is data) h i = true).
Proof.
  intros Hi His. unfold served. rewrite existsb_exists. split.
  - intros ([r [c j]] & Hin & Ej). cbn [snd] in Ej. apply Nat.eqb_eq in Ej. subst j.
    destruct (mapping_ok shuffle shuffle_perm hc dom nh Hnew cols is His (pow2_pos_nat a)) as (mp & Em & [Hnd Hm] & _).
    pose proof Hin as Hin'. unfold placed in Hin'. rewrite Em in Hin'. destruct (Hm r c i Hin') as (_ & h & Hh & Et). exists h. split; [exact Hh|].
    apply (written_placed is data h i r c Hh Hi His Et). exact Hin.
  - intros (h & Hh & Hw). destruct (tuple_at h i Hh Hi) as (r & c & Et & _). apply (written_placed is data h i r c Hh Hi His Et) in Hw.
    exists (r, (c, i)). split; [exact Hw|]. cbn. apply Nat.eqb_refl.
Qed.
Lemma written_once is data i h h' : NoDup is -> (i < dom)%nat -> (forall j, In j is -> (j < dom)%nat) -> (h < hc)%nat -> (h' < hc)%nat ->
  copy_written nh cols (BWrite is data) h i = true -> copy_written nh cols (BWrite is data) h' i = true -> h = h'.
Proof.
  intros Hnd Hi His Hh Hh' H1 H2. destruct (tuple_at h i Hh Hi) as (r & c & Et & _). destruct (tuple_at h' i Hh' Hi) as (r' & c' & Et' & _).
  apply (written_placed is data h i r c Hh Hi His Et) in H1. apply (written_placed is data h' i r' c' Hh' Hi His Et') in H2.
  destruct (mapping_ok shuffle shuffle_perm hc dom nh Hnew cols is His (pow2_pos_nat a)) as (mp & Em & _).
  unfold placed in *. rewrite Em in *.
  destruct (mapping_once shuffle shuffle_perm hc dom nh Hnew cols is mp Hnd His (pow2_pos_nat a) Em r c r' c' i H1 H2) as [-> ->].
  apply (tuple_inj shuffle shuffle_perm hc dom nh Hnew h i h' i cols r' c' Hh Hi Hh' Hi (pow2_pos_nat a) Et Et').
Qed.

Definition distinct_writes (br : brequest) : Prop := match br with BRead _ => True | BWrite is _ => NoDup is end.
Lemma result_distinct br A i : brequest_ok cx k dom br -> distinct_writes br -> (i < dom)%nat -> plaintext n k (A i) ->
  batch_result n k (A i) (data_of br (A i)) (copy_written nh cols br 0 i) (nwritten br i) = apply_batch nh cols A br i /\ (nwritten br i <= 1)%nat.
Proof.
  intros [His Hdat] Hd Hi PA. rewrite Forall_forall in His. destruct (nh_fields shuffle hc dom nh Hnew) as (H0 & _).
  destruct br as [is|is data]; cbn [batch_items distinct_writes apply_batch] in *.
  - assert (filter (fun h => copy_written nh cols (BRead is) h i) (seq 1 (hc - 1)) = []) as ->.
    { clear. induction (seq 1 (hc - 1)) as [|h l IH]; [reflexivity|exact IH]. }
    cbn [length]. split; [|lia]. change (copy_written nh cols (BRead is) 0 i) with false. eapply batch_result_0; eassumption.
  - assert (nwritten (BWrite is data) i <= 1)%nat as Hle.
    { apply filter_unique; [apply seq_NoDup|]. intros x y Hx Hy. apply in_seq in Hx, Hy. apply (written_once is data i x y); try assumption; lia. }
    split; [|exact Hle]. destruct (copy_written nh cols (BWrite is data) 0 i) eqn:E0.
    + cbn [batch_result]. assert (served nh cols is i = true) as -> by (apply (served_iff is data i Hi His); exists 0%nat; auto). reflexivity.
    + destruct (served nh cols is i) eqn:Es.
      * apply (served_iff is data i Hi His) in Es as (h & Hh & Hw). assert (h <> 0%nat) as Hne by (intros ->; congruence).
        assert (nwritten (BWrite is data) i = 1)%nat as ->.
        { enough (0 < nwritten (BWrite is data) i)%nat by lia. apply filter_pos. exists h. split; [apply in_seq; lia|exact Hw]. }
        eapply batch_result_1; eassumption.
      * assert (nwritten (BWrite is data) i = 0)%nat as ->.
        { destruct (Nat.eq_dec (nwritten (BWrite is data) i) 0) as [Hz|Hz]; [exact Hz|]. exfalso.
          assert (0 < nwritten (BWrite is data) i)%nat as Hpos by lia. apply filter_pos in Hpos as (h & Hin & Hw). apply in_seq in Hin.
          assert (served nh cols is i = true) by (apply (served_iff is data i Hi His); exists h; split; [lia|exact Hw]). congruence. }
        eapply batch_result_0; eassumption.
Qed.
Lemma copies_noise_1 B L : (L <= 1)%nat -> copies_noise cx a hc S E eps B L = B + batch_growth cx a hc S E eps.
Proof.
  intros HL. destruct (nh_fields shuffle hc dom nh Hnew) as (H0 & _). unfold copies_noise, batch_growth.
  assert (Z.of_nat (hc - 1) = Z.of_nat hc - 1) as -> by lia.
  destruct L as [|[|L]]; [change (Z.abs (1 - Z.of_nat 0) + Z.of_nat 0) with 1|change (Z.abs (1 - Z.of_nat 1) + Z.of_nat 1) with 1|lia]; ring.
Qed.

(** The owner of a cell. *)
Definition owner (r c : nat) : nat :=
  match find (fun i => existsb (fun h => match hash_to_tuple nh h i cols with Ok (r', c') => ((r' =? r) && (c' =? c))%nat | Panic _ => false end) (seq 0 hc)) (seq 0 dom) with
  | Some i => i | None => 0%nat end.
Lemma owner_ok h i r c : (h < hc)%nat -> (i < dom)%nat -> hash_to_tuple nh h i cols = Ok (r, c) -> owner r c = i.
Proof.
  intros Hh Hi Et. unfold owner.
  destruct (find _ (seq 0 dom)) as [j|] eqn:Ef.
  - apply find_some in Ef as [Hj Ej]. apply in_seq in Hj. apply existsb_exists in Ej as (h' & Hh' & Ej). apply in_seq in Hh'.
    destruct (hash_to_tuple nh h' j cols) as [[r' c']|] eqn:Et'; [|discriminate]. apply andb_prop in Ej as [E1 E2]. apply Nat.eqb_eq in E1, E2. subst r' c'.
    symmetry. apply (tuple_inj shuffle shuffle_perm hc dom nh Hnew h i h' j cols r c); try assumption; try lia. apply pow2_pos_nat.
  - exfalso. pose proof (find_none _ _ Ef i) as Hno. cbv beta in Hno. assert (In i (seq 0 dom)) as Hin by (apply in_seq; lia). specialize (Hno Hin).
    rewrite <- not_true_iff_false, existsb_exists in Hno. apply Hno. exists h. split; [apply in_seq; lia|]. rewrite Et, !Nat.eqb_refl. reflexivity.
Qed.

(** A batch without repeated writes. *)
Lemma batch_step pool (Hpr : spread pool rows) (Hpd : spread pool dom) sv B D A br dm t :
  server_for cx s E sv -> db_holds cx s k B (srv_data sv) rows cols D -> copies_hold nh hc dom cols D A -> E <= B ->
  brequest_ok cx k dom br -> distinct_writes br -> (forall r, plaintext n k (dm r)) -> tape_ok n E t ->
  exists mp qs ys sv' D', hash_to_mapping nh (batch_items br) cols = Ok mp /\ minv hc nh cols (batch_items br) mp /\ ask_batch cl nh br dm t = Ok qs /\
    server_process_batch pool fft sv qs nh = Ok (ys, sv') /\ length ys = rows /\
    (forall r y, nth_error ys r = Some y -> holds cx s k (B + answer_growth cx a S E eps) y (D r (bslot mp r))) /\
    server_for cx s E sv' /\ db_holds cx s k (B + batch_growth cx a hc S E eps) (srv_data sv') rows cols D' /\
    copies_hold nh hc dom cols D' (apply_batch nh cols A br) /\ (match br with BRead _ => D' = D | BWrite _ _ => True end).
Proof.
  intros Hsv Hdb Hco HE Hbr Hd Hdm Ht.
  destruct (batch_any cx lg k Hp fft eps Hf s Ws S E HS a Ha rows Hrows shuffle shuffle_perm hc dom nh Hnew Hdim pool sv B D A br dm t Hsv Hdb Hco HE Hbr Hdm Ht Hpr Hpd)
    as (mp & qs & ys & sv' & Em & Hmi & Eq & Er & Ly & Hy & Hsv' & Hsh & Hc).
  assert (forall D', (forall h i r c, (h < hc)%nat -> (i < dom)%nat -> hash_to_tuple nh h i cols = Ok (r, c) -> D' r c = apply_batch nh cols A br i) ->
     db_holds cx s k (B + batch_growth cx a hc S E eps) (srv_data sv') rows cols D') as Gen.
  { intros D' HD'. apply db_of_cells; [rewrite Hsh; apply shape_repeat; apply Hdb|]. intros r c Hr Hcc.
    destruct (tuple_surj shuffle shuffle_perm hc dom nh Hnew rows cols r c Hdim Hr Hcc) as (h & i & Hh & Hi & Et).
    destruct (Hc h i r c Hh Hi Et) as (v & Ev & Wv & Pv & Nv).
    assert (plaintext n k (A i)) as PA by (rewrite <- (Hco h i r c Hh Hi Et); apply (db_cells _ _ _ _ _ _ _ _ Hdb); assumption).
    destruct (result_distinct br A i Hbr Hd Hi PA) as [ER HL]. rewrite ER in Pv, Nv. rewrite (copies_noise_1 B _ HL) in Nv.
    rewrite (HD' h i r c Hh Hi Et). split; [|exact Pv]. exists v. auto. }
  destruct br as [is|is data].
  - exists mp, qs, ys, sv', D. repeat (split; [assumption|]). split; [apply Gen; intros; apply (Hco h i); assumption|]. split; [exact Hco|reflexivity].
  - exists mp, qs, ys, sv', (fun r c => apply_batch nh cols A (BWrite is data) (owner r c)). repeat (split; [assumption|]).
    assert (forall h i r c, (h < hc)%nat -> (i < dom)%nat -> hash_to_tuple nh h i cols = Ok (r, c) ->
       apply_batch nh cols A (BWrite is data) (owner r c) = apply_batch nh cols A (BWrite is data) i) as HD' by (intros; erewrite owner_ok by eassumption; reflexivity).
    split; [apply Gen; exact HD'|]. split; [exact HD'|exact I].
Qed.
(** What the answering rows hold. *)
Lemma batch_rows sv B D A br mp ys : db_holds cx s k B (srv_data sv) rows cols D -> copies_hold nh hc dom cols D A -> brequest_ok cx k dom br ->
  hash_to_mapping nh (batch_items br) cols = Ok mp -> minv hc nh cols (batch_items br) mp -> length ys = rows ->
  (forall r y, nth_error ys r = Some y -> holds cx s k (B + answer_growth cx a S E eps) y (D r (bslot mp r))) ->
  2 * (B + answer_growth cx a S E eps) < 2 ^ (64 - k) -> rows_answer cx s ys (batch_answer nh cols A br).
Proof.
  intros Hdb Hco [His _] Em [Hnd Hm] Ly Hy Hb r pt Hin. rewrite Forall_forall in His. unfold batch_answer, placed in Hin. rewrite Em in Hin. apply in_map_iff in Hin as ([r' [c i]] & Eq & Hin).
  cbn [fst snd] in Eq. injection Eq as -> <-. destruct (Hm r c i Hin) as (Hi & h & Hh & Et).
  destruct (tuple_at h i Hh (His i Hi)) as (r2 & c2 & Et2 & Hr & Hc). rewrite Et in Et2. injection Et2 as <- <-.
  destruct (nth_error ys r) as [y|] eqn:Ey; [|apply nth_error_None in Ey; lia]. exists y. split; [reflexivity|].
  specialize (Hy r y Ey). unfold bslot in Hy. assert (hget mp r = Some (c, i)) as Eg by (apply hget_In; assumption). rewrite Eg in Hy. cbn [fst] in Hy.
  rewrite (Hco h i r c Hh (His i Hi) Et) in Hy. eapply holds_decrypts; eassumption.
Qed.
Lemma batch_growth_nonneg sv : server_for cx s E sv -> 0 <= batch_growth cx a hc S E eps.
Proof.
  intros Hsv. pose proof (growth_nonneg cx lg k Hp fft eps Hf s S E HS a Ha sv Hsv). destruct (nh_fields shuffle hc dom nh Hnew) as (H0 & _).
  unfold batch_growth. apply Z.mul_nonneg_nonneg; lia.
Qed.
Lemma batch_session_ok pool (Hpr : spread pool rows) (Hpd : spread pool dom) brs : forall j sv B D A dm t,
  server_for cx s E sv -> db_holds cx s k B (srv_data sv) rows cols D -> copies_hold nh hc dom cols D A -> E <= B ->
  Forall (brequest_ok cx k dom) brs -> Forall distinct_writes brs -> (forall i r, plaintext n k (dm i r)) -> (forall i, tape_ok n E (t i)) ->
  2 * (B + Z.of_nat (length brs) * batch_growth cx a hc S E eps + answer_growth cx a S E eps) < 2 ^ (64 - k) ->
  exists yss sv' D', batch_session pool fft cl nh dm t j sv brs = Ok (yss, sv') /\
    Forall2 (rows_answer cx s) yss (batch_answers nh cols A brs) /\
    server_for cx s E sv' /\ db_holds cx s k (B + Z.of_nat (length brs) * batch_growth cx a hc S E eps) (srv_data sv') rows cols D' /\
    copies_hold nh hc dom cols D' (batch_final nh cols A brs).
Proof.
  induction brs as [|br brs IH]; intros j sv B D A dm t Hsv Hdb HA HE Hbr Hd Hdm Ht Hbud; cbn [batch_session batch_answers length batch_final fold_left].
  - exists [], sv, D. replace (B + Z.of_nat 0 * batch_growth cx a hc S E eps) with B by lia. split; [reflexivity|]. split; [constructor|]. split; [exact Hsv|]. split; assumption.
  - apply Forall_cons_iff in Hbr as [Hbr1 Hbr2], Hd as [Hd1 Hd2].
    destruct (batch_step pool Hpr Hpd sv B D A br (dm j) (t j) Hsv Hdb HA HE Hbr1 Hd1 (Hdm j) (Ht j)) as (mp & qs & ys & sv1 & D1 & Em & Hmi & -> & E1 & Ly & Hy & Hsv1 & Hdb1 & HA1 & _).
    cbn [bind]. rewrite E1. cbn [bind]. pose proof (batch_growth_nonneg sv Hsv) as HG.
    cbn [length] in Hbud. rewrite Nat2Z.inj_succ in *. set (g := batch_growth cx a hc S E eps) in *.
    destruct (IH (Datatypes.S j) sv1 (B + g) D1 _ dm t Hsv1 Hdb1 HA1) as (yss & sv2 & D2 & E2 & HF & Hsv2 & Hdb2 & HA2); try assumption;
    [clear - HG HE; lia|clear - HG Hbud; nia|].
    rewrite E2. cbn [bind]. exists (ys :: yss), sv2, D2. split; [reflexivity|]. split; [constructor; [|exact HF]|].
    + apply (batch_rows sv B D A br mp ys Hdb HA Hbr1 Em Hmi Ly Hy). pose proof (Z.mul_nonneg_nonneg (Z.succ (Z.of_nat (length brs))) g ltac:(lia) HG). clear - H Hbud. lia.
    + split; [exact Hsv2|]. split; [|exact HA2]. replace (B + Z.succ (Z.of_nat (length brs)) * g) with (B + g + Z.of_nat (length brs) * g) by lia. exact Hdb2.
Qed.
End Ba.
