(** * Setup of the ORAM *)
From Coq Require Import Setoid Morphisms Ring Permutation.
From Verif Require Import MBase MUtils MCodec MPoly MRlwe MHash MTree MEncTree MSched MOram SpecOram PolyRing PfPoly PfNear PfRlwe PfRlwe2 PfRlwe3
  PfRlwe5 PfCodec LRlwe LKeys PfEnc PfEnc2 PfEnc3 PfEnc4 LEnc PfHash PfSched PfOram1 PfOram2 PfOram3 PfOram4.
Local Open Scope Z_scope.

Lemma foldM_inv {A St} (f : St -> A -> res St) (Q : nat -> St -> Prop) l : forall k st, Q k st ->
  (forall i st x, nth_error l i = Some x -> Q (k + i)%nat st -> exists st', f st x = Ok st' /\ Q (Datatypes.S (k + i)) st') ->
  exists st', foldM f l st = Ok st' /\ Q (k + length l)%nat st'.
Proof.
  induction l as [|x l IH]; intros k st Hs H; cbn [foldM length].
  - exists st. rewrite Nat.add_0_r. auto.
  - destruct (H 0%nat st x eq_refl) as (s1 & E1 & Q1); [rewrite Nat.add_0_r; exact Hs|]. rewrite Nat.add_0_r in Q1.
    rewrite E1. cbn [bind]. destruct (IH (Datatypes.S k) s1 Q1) as (s2 & E2 & Q2).
    { intros i s' y Hy Hq. destruct (H (Datatypes.S i) s' y Hy) as (s3 & E3 & Q3); [now rewrite Nat.add_succ_r|].
      exists s3. split; [exact E3|]. rewrite Nat.add_succ_r in Q3. exact Q3. }
    exists s2. split; [exact E2|]. rewrite Nat.add_succ_r. exact Q2.
Qed.
Lemma nth_error_seq a len i x : nth_error (seq a len) i = Some x -> x = (a + i)%nat /\ (i < len)%nat.
Proof.
  intros H. assert (i < len)%nat as Hi by (rewrite <- (seq_length len a); apply nth_error_Some; congruence).
  rewrite (nth_error_nth' _ 0%nat) in H by (rewrite seq_length; exact Hi). rewrite seq_nth in H by exact Hi. injection H as <-. auto.
Qed.

Section Setup.
Variable cx : ctx.
Variables (lg : nat) (k : Z).
Hypothesis Hp : params_ok cx lg k.
Notation n := (c_n cx).
Let Hn : (0 < n)%nat := params_n cx lg k Hp.
Variable s : poly.
Variable E : Z.
Variables (rows cols : nat).
Notation cl := (client_new rows cols cx s).
Variable shuffle : list nat -> list nat.
Hypothesis shuffle_perm : forall l, Permutation (shuffle l) l.
Variables (hc dom : nat) (nh : nhash).
Hypothesis Hnew : nh_new shuffle hc dom = Ok nh.
Hypothesis Hdim : (rows * cols = hc * dom)%nat.
Variable gp : nat -> poly.
Hypothesis Hgp : forall i, plaintext n k (gp i).
Notation item i := (gp (i mod UNIQUE_LIMIT)).
Notation cn m r c i := (cnear cx s m r c (scaled k (item i)) E).

Definition filled (dn : nat -> nat -> Prop) (m : mem) : Prop :=
  shape m = repeat cols rows /\
  forall h i r c, (h < hc)%nat -> (i < dom)%nat -> hash_to_tuple nh h i cols = Ok (r, c) -> dn h i -> cn m r c i.

Lemma shape_cell m r c : shape m = repeat cols rows -> (r < rows)%nat -> (c < cols)%nat -> exists v, mget m r c = Some v.
Proof.
  intros Hs Hr Hc. unfold mget.
  assert (nth_error (shape m) r = Some cols) as H.
  { rewrite Hs. rewrite (nth_error_nth' _ cols) by (rewrite repeat_length; exact Hr). f_equal. apply nth_repeat. }
  unfold shape in H. rewrite nth_error_map in H. destruct (nth_error m r) as [row|]; [|discriminate]. cbn in H. injection H as H.
  destruct (nth_error row c) as [v|] eqn:Ev; [eauto|]. apply nth_error_None in Ev. lia.
Qed.
Lemma fill_step (dn dn' : nat -> nat -> Prop) m h i r c v : filled dn m -> (h < hc)%nat -> (i < dom)%nat -> hash_to_tuple nh h i cols = Ok (r, c) ->
  (r < rows)%nat -> (c < cols)%nat -> wfc n v -> near n (phase n s v) (scaled k (item i)) E ->
  (forall h' i', dn' h' i' -> dn h' i' \/ (h' = h /\ i' = i)) ->
  filled dn' (mset m r c v).
Proof.
  intros [Hs Hd] Hh Hi Et Hr Hc Wv Nv Hdn. destruct (shape_cell m r c Hs Hr Hc) as (v0 & Ev0). split.
  - rewrite mset_shape. exact Hs.
  - intros h' i' r' c' Hh' Hi' Et' Hd'.
    destruct (Nat.eq_dec r r') as [<-|Hne]; [destruct (Nat.eq_dec c c') as [<-|Hne]|].
    + destruct (tuple_inj shuffle shuffle_perm hc dom nh Hnew h i h' i' cols r c Hh Hi Hh' Hi' ltac:(lia) Et Et') as [<- <-].
      exists v. rewrite mget_mset, !Nat.eqb_refl. cbn. rewrite Ev0. auto.
    + destruct (Hdn h' i' Hd') as [Hold|[-> ->]]; [|rewrite Et in Et'; congruence].
      destruct (Hd _ _ _ _ Hh' Hi' Et' Hold) as (w & Ew & Hw). exists w. rewrite mget_mset.
      apply Nat.eqb_neq in Hne. rewrite Hne, andb_false_r. auto.
    + destruct (Hdn h' i' Hd') as [Hold|[-> ->]]; [|rewrite Et in Et'; congruence].
      destruct (Hd _ _ _ _ Hh' Hi' Et' Hold) as (w & Ew & Hw). exists w. rewrite mget_mset.
      apply Nat.eqb_neq in Hne. rewrite Hne. auto.
Qed.
Lemma tuple_in h i : (h < hc)%nat -> (i < dom)%nat -> exists r c, hash_to_tuple nh h i cols = Ok (r, c) /\ (r < rows)%nat /\ (c < cols)%nat.
Proof. intros Hh Hi. destruct (tuple_range shuffle shuffle_perm hc dom nh Hnew h i rows cols Hh Hi Hdim) as (y & r & c & _ & Et & Hr & Hc & _). eauto. Qed.

Notation dn0 j := (fun h i => h = 0%nat /\ (i < j)%nat).

Lemma dummy_ok t : tape_ok n E t ->
  exists db, gen_dummy_database cl nh gp t = Ok (map (fun i => item i) (seq 0 dom), db) /\
    filled (fun _ _ => True) db.
Proof.
  intros Ht. pose proof Hp as (_ & _ & _ & _ & _ & _ & _ & Hk & Hc).
  destruct (nh_fields shuffle hc dom nh Hnew) as (H0 & Hh & Hdo & _). unfold gen_dummy_database. rewrite Hh.
  destruct (Nat.eqb_spec hc 0) as [?|_]; [lia|]. cbn [cl_rows cl_cols client_new cl_cx cl_sk]. rewrite Hdim, Nat.mul_comm, Nat.div_mul by lia.
  set (uc := if (dom <? UNIQUE_LIMIT)%nat then dom else UNIQUE_LIMIT).
  assert (uc <= dom)%nat as Huc by (unfold uc; destruct (Nat.ltb_spec dom UNIQUE_LIMIT); lia).
  assert (uc <= UNIQUE_LIMIT)%nat as Hul by (unfold uc; destruct (Nat.ltb_spec dom UNIQUE_LIMIT); lia).
  assert (uc < dom -> uc = UNIQUE_LIMIT)%nat as Hueq by (unfold uc; destruct (Nat.ltb_spec dom UNIQUE_LIMIT); lia).
  clearbody uc.
  (* first loop *)
  set (db0 := repeat (repeat (rlwe_allocate n) cols) rows).
  destruct (foldM_inv (dummy_unique cl nh gp t) (fun j m => filled (dn0 j) m) (seq 0 uc) 0 db0) as (db1 & E1 & F1).
  { split; [unfold shape, db0; clear; induction rows as [|x IH]; cbn; [reflexivity|rewrite repeat_length; f_equal; exact IH]|]. intros; lia. }
  { intros i m x Hx F. apply nth_error_seq in Hx as [-> Hi]. rewrite Nat.add_0_l in *. unfold dummy_unique.
    cbn [cl_rows cl_cols client_new cl_cx cl_sk].
    destruct (tuple_in 0 i H0 ltac:(lia)) as (r & c & Et & Hr & Hcc). rewrite Et. cbn [bind].
    assert (((r <? rows) && (c <? cols))%nat = true) as -> by (apply andb_true_intro; split; apply Nat.ltb_lt; assumption). cbn [rassert bind].
    destruct (shape_cell m r c (proj1 F) Hr Hcc) as (v0 & Ev0). unfold get_cell, set_cell. rewrite Ev0. cbn [bind].
    destruct (enc_data_ok cx lg k Hp s E cl eq_refl eq_refl (gp i) (t i) (Hgp i) (Ht i)) as (ct & Ect & Wct & Nct).
    unfold enc_data_rlwe in Ect. cbn [client_new cl_cx cl_sk] in Ect. rewrite Ect. cbn [bind].
    eexists; split; [reflexivity|]. eapply fill_step; try eassumption; [lia| |].
    - rewrite Nat.mod_small by lia. exact Nct.
    - intros h' i' [-> Hlt]. destruct (Nat.eq_dec i' i); [right; auto|left; split; [reflexivity|lia]]. }
  rewrite E1. cbn [bind]. rewrite seq_length, Nat.add_0_l in F1.
  (* second loop *)
  destruct (foldM_inv (dummy_rest cl nh (map gp (seq 0 uc)))
     (fun j (st : mem * list poly) => filled (dn0 (uc + j)%nat) (fst st) /\ snd st = map (fun i => item i) (seq uc j)) (seq uc (dom - uc)) 0 (db1, [])) as ([db2 rest] & E2 & F2 & R2).
  { rewrite Nat.add_0_r. split; [exact F1|reflexivity]. }
  { intros i [m rest] x Hx [F R]. apply nth_error_seq in Hx as [-> Hi]. rewrite Nat.add_0_l in *. cbn [fst snd] in *.
    assert (uc = UNIQUE_LIMIT)%nat as Hu by (apply Hueq; lia).
    assert ((uc + i) mod UNIQUE_LIMIT < uc)%nat as Hm by (rewrite Hu; apply Nat.mod_upper_bound; discriminate).
    unfold dummy_rest. cbn [cl_rows cl_cols client_new cl_cx cl_sk].
    set (o := ((uc + i) mod UNIQUE_LIMIT)%nat) in *.
    unfold index. rewrite nth_error_map, (nth_error_nth' _ 0%nat) by (rewrite seq_length; exact Hm). rewrite seq_nth by exact Hm. cbn [option_map bind].
    destruct (tuple_in 0 o H0 ltac:(lia)) as (r & c & Et & Hr & Hcc). rewrite Et. cbn [bind].
    destruct (tuple_in 0 (uc + i) H0 ltac:(lia)) as (r' & c' & Et' & Hr' & Hcc'). rewrite Et'. cbn [bind].
    destruct (proj2 F 0%nat o r c H0 ltac:(lia) Et) as (v & Ev & Wv & Nv); [split; [reflexivity|lia]|].
    unfold get_cell, set_cell. rewrite Ev. cbn [bind].
    destruct (shape_cell m r' c' (proj1 F) Hr' Hcc') as (v0 & Ev0). rewrite Ev0. cbn [bind].
    eexists; split; [reflexivity|]. cbn [fst snd]. split.
    - eapply fill_step; try eassumption; [lia| |].
      + eapply near_eq_r; [|exact Nv]. unfold o. rewrite Nat.mod_mod by discriminate. reflexivity.
      + intros h' i' [-> Hlt]. destruct (Nat.eq_dec i' (uc + i)); [right; auto|left; split; [reflexivity|lia]].
    - rewrite R, seq_S, map_app. reflexivity. }
  rewrite E2. cbn [bind]. rewrite seq_length, Nat.add_0_l in F2, R2. cbn [fst snd] in *.
  replace (uc + (dom - uc))%nat with dom in F2 by lia.
  (* third loop *)
  destruct (foldM_inv (dummy_copies cl nh) (fun j m => filled (fun h i => h = 0%nat \/ (i < j)%nat) m) (seq 0 dom) 0 db2) as (db3 & E3 & F3).
  { destruct F2 as [Hs F2]. split; [exact Hs|]. intros h i r c Hhh Hi Et [->|Hlt]; [|lia]. eapply F2; try eassumption. auto. }
  { intros i m x Hx F. apply nth_error_seq in Hx as [-> Hi]. rewrite Nat.add_0_l in *. unfold dummy_copies. rewrite Hh.
    destruct (foldM_inv (dummy_copy cl nh i) (fun j m => filled (fun h i' => h = 0%nat \/ (i' < i)%nat \/ (i' = i /\ (h <= j)%nat)) m) (seq 1 (hc - 1)) 0 m) as (m' & Em & Fm).
    - destruct F as [Hs F]. split; [exact Hs|]. intros h i' r c Hhh Hi' Et Hor. eapply F; try eassumption. lia.
    - intros j mm x Hx F'. apply nth_error_seq in Hx as [-> Hj]. rewrite Nat.add_0_l in *. unfold dummy_copy. cbn [cl_rows cl_cols client_new cl_cx cl_sk].
      destruct (tuple_in 0 i H0 Hi) as (r & c & Et & Hr & Hcc). rewrite Et. cbn [bind].
      destruct (tuple_in (1 + j) i ltac:(lia) Hi) as (r' & c' & Et' & Hr' & Hcc'). rewrite Et'. cbn [bind].
      assert (((r' <? rows) && (c' <? cols))%nat = true) as -> by (apply andb_true_intro; split; apply Nat.ltb_lt; assumption). cbn [rassert bind].
      destruct (proj2 F' 0%nat i r c H0 Hi Et (or_introl eq_refl)) as (v & Ev & Wv & Nv).
      unfold get_cell, set_cell. rewrite Ev. cbn [bind].
      destruct (shape_cell mm r' c' (proj1 F') Hr' Hcc') as (v0 & Ev0). rewrite Ev0. cbn [bind].
      eexists; split; [reflexivity|]. eapply (fill_step _ _ mm (1 + j)%nat i); try eassumption; [lia|].
      intros h' i' Hor. destruct (Nat.eq_dec i' i) as [->|]; [destruct (Nat.eq_dec h' (1 + j))|]; [right; auto|left; lia|left; lia].
    - exists m'. split; [exact Em|]. destruct Fm as [Hs Fm]. split; [exact Hs|]. rewrite seq_length, Nat.add_0_l in Fm.
      intros h i' r c Hhh Hi' Et Hor. eapply Fm; try eassumption. lia. }
  rewrite E3. cbn [bind]. rewrite seq_length, Nat.add_0_l in F3. exists db3. split.
  - f_equal. f_equal. rewrite R2. transitivity (map (fun i => item i) (seq 0 (uc + (dom - uc)))); [|f_equal; f_equal; lia].
    rewrite seq_app, map_app. f_equal. apply map_ext_in. intros i Hin. apply in_seq in Hin. rewrite Nat.mod_small by lia. reflexivity.
  - destruct F3 as [Hs F3]. split; [exact Hs|]. intros h i r c Hhh Hi Et _. eapply F3; try eassumption. lia.
Qed.
End Setup.
