(** * Multi-queries, in the form used by the theorem files *)
From Coq Require Import Setoid Morphisms Ring Permutation.
From Verif Require Import MBase MUtils MCodec MPoly MRlwe MHash MTree MEncTree MSched MOram SpecOram PolyRing PfPoly PfNear PfRlwe PfRlwe2 PfRlwe3
  PfRlwe5 PfCodec LRlwe LKeys PfEnc PfEnc2 PfEnc3 PfEnc4 LEnc PfHash PfSched PfOram1 PfOram2 PfOram3 PfOram4 PfOram5 LOram PfOram6 PfOram7.
Local Open Scope Z_scope.

Lemma apply_other A rq i : i <> target rq -> apply A rq i = A i.
Proof. destruct rq as [j|j d]; cbn; [reflexivity|]. intros H. apply Nat.eqb_neq in H. rewrite H. reflexivity. Qed.
Lemma answers_distinct rqs : forall A, NoDup (map target rqs) -> answers A rqs = map (fun rq => A (target rq)) rqs.
Proof.
  induction rqs as [|rq rqs IH]; intros A Hnd; cbn [answers map]; [reflexivity|]. apply NoDup_cons_iff in Hnd as [Hni Hnd]. f_equal.
  rewrite IH by exact Hnd. apply map_ext_in. intros r Hr. apply apply_other. intros E. apply Hni. rewrite <- E. apply in_map; exact Hr.
Qed.
Lemma final_other rqs : forall A i, ~ In i (map target rqs) -> final A rqs i = A i.
Proof.
  induction rqs as [|rq rqs IH]; intros A i Hni; cbn [final fold_left map In] in *; [reflexivity|]. fold (final (apply A rq) rqs).
  rewrite IH by tauto. apply apply_other. intros E; apply Hni; left; symmetry; exact E.
Qed.
Lemma filter_none rqs i : ~ In i (map target rqs) -> filter (fun rq => (target rq =? i)%nat) rqs = [].
Proof.
  induction rqs as [|rq rqs IH]; intros H; cbn [filter map In] in *; [reflexivity|]. destruct (Nat.eqb_spec (target rq) i); [exfalso; tauto|]. apply IH; tauto.
Qed.
Lemma filter_distinct rqs : forall A i, NoDup (map target rqs) ->
  (filter (fun rq => (target rq =? i)%nat) rqs = [] /\ final A rqs i = A i) \/
  (exists rq, filter (fun rq => (target rq =? i)%nat) rqs = [rq] /\ In rq rqs /\ final A rqs i = wanted_by (A i) rq).
Proof.
  induction rqs as [|rq rqs IH]; intros A i Hnd; cbn [filter map final fold_left]; [left; auto|]. fold (final (apply A rq) rqs).
  apply NoDup_cons_iff in Hnd as [Hni Hnd]. destruct (Nat.eqb_spec (target rq) i) as [E|NE].
  - right. exists rq. subst i. rewrite filter_none by exact Hni. split; [reflexivity|]. split; [left; reflexivity|].
    rewrite final_other by exact Hni. destruct rq as [j|j d]; cbn; [reflexivity|]. rewrite Nat.eqb_refl. reflexivity.
  - rewrite <- (apply_other A rq i) by congruence. destruct (IH (apply A rq) i Hnd) as [H|(r & H1 & H2 & H3)]; [left; exact H|].
    right. exists r. split; [exact H1|]. split; [right; exact H2|exact H3].
Qed.
Lemma multi_result_0 n k v : plaintext n k v -> multi_result n k v [] = v.
Proof.
  intros [L F]. unfold multi_result. apply (nth_ext _ _ 0 0); [rewrite map_length, seq_length; lia|]. intros i Hi. rewrite map_length, seq_length in Hi.
  rewrite nth_map_seq0 by exact Hi. cbn [length map fold_right]. replace (nth i v 0 + Z.of_nat 0 * (0 - nth i v 0)) with (nth i v 0) by (cbn [Z.of_nat]; ring).
  rewrite Forall_forall in F. apply Z.mod_small. apply F. apply nth_In. lia.
Qed.
Lemma multi_result_1 n k v w : plaintext n k w -> multi_result n k v [w] = w.
Proof.
  intros [L F]. unfold multi_result. apply (nth_ext _ _ 0 0); [rewrite map_length, seq_length; lia|]. intros i Hi. rewrite map_length, seq_length in Hi.
  rewrite nth_map_seq0 by exact Hi. cbn [length map fold_right]. replace (nth i v 0 + Z.of_nat 1 * (nth i w 0 + 0 - nth i v 0)) with (nth i w 0) by (cbn [Z.of_nat Pos.of_succ_nat]; ring).
  rewrite Forall_forall in F. apply Z.mod_small. apply F. apply nth_In. lia.
Qed.

Section Hist.
Variable cx : ctx.
Variables (lg : nat) (k : Z).
Hypothesis Hp : params_ok cx lg k.
Notation n := (c_n cx).
Variable fft : fftT.
Variable eps : Z.
Hypothesis Hf : fft_for cx fft eps.
Variable s : poly.
Hypothesis Ws : wfp n s.
Variables S E : Z.
Hypothesis HS : l1 n (tof s) S.
Variable a : nat.
Hypothesis Ha : (1 <= a <= 63)%nat.
Notation cl := (client_new 1 (2 ^ a) cx s).
Variable shuffle : list nat -> list nat.
Hypothesis shuffle_perm : forall l, Permutation (shuffle l) l.
Variables (hc dom : nat) (nh : nhash).
Hypothesis Hnew : nh_new shuffle hc dom = Ok nh.
Hypothesis Hdim : (hc * dom = 2 ^ a)%nat.

Lemma multi_noise_le sv B Q L : server_for cx s E sv -> 0 <= B -> (L <= 1)%nat -> multi_noise cx a S E eps B Q L <= B + multi_growth cx a S E eps Q.
Proof.
  intros (Ecx & Hneg & Hb & Hl) HB HL. destruct Ha as [Ha1 _]. unfold multi_noise, multi_growth.
  pose proof (EPB_nonneg cx lg k Hp fft eps Hf s S E HS (srv_neg sv) Hneg Hb Hl a Ha1) as H1.
  pose proof (EPL_nonneg cx lg k Hp fft eps Hf s S E HS (srv_neg sv) Hneg Hb Hl a Ha1) as H2.
  assert (0 <= Z.of_nat Q * ep_sel cx a S E eps) by nia.
  destruct L as [|[|L]]; [| |lia].
  - change (Z.of_nat 0) with 0.
    assert (ep_bound n (c_base cx) (c_level cx) S 0 (Z.of_nat Q * sel_noise cx a S E eps) eps <= ep_bound n (c_base cx) (c_level cx) S 1 (Z.of_nat Q * sel_noise cx a S E eps) eps).
    { unfold ep_bound. pose proof (l1_nonneg n _ _ HS). pose proof (Z.pow_nonneg 2 (63 - Z.of_nat (c_base cx * c_level cx)) ltac:(lia)). nia. }
    lia.
  - change (Z.of_nat 1) with 1. lia.
Qed.
Lemma items_final rqs : forall D A, items_hold nh dom D A -> Forall (request_ok cx k dom) rqs -> items_hold nh dom (db_final nh D rqs) (final A rqs).
Proof.
  induction rqs as [|rq rqs IH]; intros D A HA Hr; [exact HA|]. apply Forall_cons_iff in Hr as [[Htg Hd] Hr]. cbn [db_final final fold_left].
  destruct (nh_fields shuffle hc dom nh Hnew) as (H0 & _). destruct (hash_total shuffle shuffle_perm hc dom nh Hnew 0 (target rq) H0 Htg) as (c & Ec & _).
  pose proof (items_step shuffle shuffle_perm hc dom nh Hnew D A rq c HA Htg Ec) as HS1.
  destruct rq as [i|i d]; cbn [target] in *; [|rewrite Ec]; apply IH; assumption.
Qed.
Lemma db_final_other rqs : forall D c, (forall rq, In rq rqs -> hash nh 0 (target rq) <> Ok c) -> db_final nh D rqs 0%nat c = D 0%nat c.
Proof.
  induction rqs as [|rq rqs IH]; intros D c Hno; [reflexivity|]. cbn [db_final fold_left].
  fold (db_final nh (match rq with Read _ => D | Write i data => match hash nh 0 i with Ok c => put_cell D 0 c data | Panic _ => D end end) rqs).
  rewrite IH by (intros r Hr; apply Hno; right; exact Hr). destruct rq as [i|i d]; [reflexivity|].
  specialize (Hno (Write i d) (or_introl eq_refl)). cbn [target] in Hno. destruct (hash nh 0 i) as [c'|]; [|reflexivity].
  unfold put_cell. cbn [Nat.eqb andb]. destruct (Nat.eqb_spec c c') as [->|]; [contradiction|reflexivity].
Qed.

Lemma multi_C44 pool sv B D A rqs dm t :
  server_for cx s E sv -> db_holds cx s k B (srv_data sv) 1 (2 ^ a) D -> items_hold nh dom D A -> E <= B ->
  Forall (request_ok cx k dom) rqs -> NoDup (map target rqs) -> (forall i, plaintext n k (dm i 0%nat)) -> (forall i, tape_ok n E (t i)) ->
  2 * (B + answer_growth cx a S E eps) < 2 ^ (64 - k) -> spread pool (length rqs) ->
  exists qs ys sv', ask_all cl nh dm t 0 rqs = Ok qs /\ server_process_multi pool fft sv qs = Ok (ys, sv') /\
    Forall2 (fun y pt => decrypt_decode_rlwe cx s y = Ok pt) ys (answers A rqs) /\
    server_for cx s E sv' /\
    db_holds cx s k (B + multi_growth cx a S E eps (length rqs)) (srv_data sv') 1 (2 ^ a) (db_final nh D rqs) /\
    items_hold nh dom (db_final nh D rqs) (final A rqs).
Proof.
  intros Hsv Hdb HA HE Hrq Hnd Hdm Ht Hbud Hpool.
  destruct (multi_any cx lg k Hp fft eps Hf s Ws S E HS a Ha shuffle shuffle_perm hc dom nh Hnew Hdim pool sv B D A rqs dm t Hsv Hdb HA HE Hrq Hdm Ht Hpool)
    as (qs & ys & sv' & Eq & Er & Hys & Hsv' & Hsh & Hit & Hot).
  pose proof (params_n cx lg k Hp) as Hn.
  assert (0 <= B) as HB.
  { destruct (db_cells _ _ _ _ _ _ _ _ Hdb) as [_ Hcells]. destruct (Hcells 0%nat 0%nat) as [(v & _ & _ & N) _]; [lia|pose proof (Nat.pow_nonzero 2 a ltac:(lia)); lia|].
    eapply near_nonneg; [exact Hn|exact N]. }
  exists qs, ys, sv'. split; [exact Eq|]. split; [exact Er|]. split; [|split; [exact Hsv'|split; [|apply items_final; assumption]]].
  - rewrite answers_distinct by exact Hnd. clear - Hys Hbud Hp. induction Hys as [|rq y rqs ys Hy Hys IH]; cbn [map]; constructor; [|exact IH].
    eapply holds_decrypts; eassumption.
  - apply db_of_cells; [exact Hsh|]. intros r c Hr Hc. assert (r = 0)%nat as -> by lia.
    assert (exists v, mget (srv_data sv') 0 c = Some v /\ holds cx s k (B + multi_growth cx a S E eps (length rqs)) v (db_final nh D rqs 0%nat c)) as (v & Ev & Wv & Pv & Nv).
    { destruct (Exists_dec (fun rq => hash nh 0 (target rq) = Ok c) rqs) as [Hex|Hno].
      - intros rq. destruct (hash nh 0 (target rq)) as [c'|]; [|right; discriminate]. destruct (Nat.eq_dec c' c); [left|right]; congruence.
      - apply Exists_exists in Hex as (rq & Hin & Eh). rewrite Forall_forall in Hrq. pose proof (Hrq rq Hin) as [Htg _].
        destruct (Hit (target rq) c Htg Eh) as (v & Ev & Wv & Pv & Nv). exists v. split; [exact Ev|].
        assert (items_hold nh dom (db_final nh D rqs) (final A rqs)) as HI by (apply items_final; [assumption|apply Forall_forall; assumption]).
        rewrite (HI (target rq) c Htg Eh).
        assert (plaintext n k (A (target rq))) as HpA.
        { rewrite <- (HA _ _ Htg Eh). destruct (db_cells _ _ _ _ _ _ _ _ Hdb) as [_ Hcells]. apply Hcells; [lia|exact Hc]. }
        destruct (filter_distinct rqs A (target rq) Hnd) as [[Ef Efin]|(rq' & Ef & Hin' & Efin)]; rewrite Ef in Pv, Nv; rewrite Efin; cbn [map length] in *.
        + rewrite multi_result_0 in * by exact HpA. split; [exact Wv|]. split; [exact Pv|]. eapply near_weaken; [exact Nv|]. eapply multi_noise_le; try eassumption; lia.
        + assert (plaintext n k (wanted_by (A (target rq)) rq')) as Hw by (destruct rq' as [j|j d]; cbn [wanted_by]; [exact HpA|apply (Hrq (Write j d) Hin')]).
          rewrite multi_result_1 in * by exact Hw. split; [exact Wv|]. split; [exact Pv|]. eapply near_weaken; [exact Nv|]. eapply multi_noise_le; try eassumption; lia.
      - assert (forall rq, In rq rqs -> hash nh 0 (target rq) <> Ok c) as Hno' by (intros rq Hin Eh; apply Hno; apply Exists_exists; eauto).
        destruct (Hot c Hc Hno') as (v & Ev & Wv & Pv & Nv). exists v. split; [exact Ev|]. rewrite db_final_other by exact Hno'.
        split; [exact Wv|]. split; [exact Pv|]. eapply near_weaken; [exact Nv|]. eapply multi_noise_le; try eassumption; lia. }
    split; [exists v; auto|exact Pv].
Qed.
End Hist.
