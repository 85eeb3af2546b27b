(** * Multi-queries of a client *)
From Coq Require Import Setoid Morphisms Ring Permutation.
From Verif Require Import MBase MUtils MCodec MPoly MRlwe MHash MTree MEncTree MSched MOram SpecOram PolyRing PfPoly PfNear PfRlwe PfRlwe2 PfRlwe3
  PfRlwe5 PfCodec LRlwe LKeys PfEnc PfEnc2 PfEnc3 PfEnc4 LEnc PfHash PfSched PfOram1 PfOram2 PfOram3 PfOram4 PfOram5 LOram PfOram6.
Local Open Scope Z_scope.

Section Hist.
Variable cx : ctx.
Variables (lg : nat) (k : Z).
Hypothesis Hp : params_ok cx lg k.
Notation n := (c_n cx).
Let Hn : (0 < n)%nat := params_n cx lg k Hp.
Add Ring Pring : (P_ring n Hn) (setoid (peq_equiv n) (P_ext n)).
Variable fft : fftT.
Variable eps : Z.
Hypothesis Hf : fft_for cx fft eps.
Variable s : poly.
Hypothesis Ws : wfp n s.
Variables S E : Z.
Hypothesis HS : l1 n (tof s) S.
Variable a : nat.
Hypothesis Ha : (1 <= a <= 63)%nat.
Notation cl := (client_new 1 (2 ^ a) cx s).
Variable shuffle : list nat -> list nat.
Hypothesis shuffle_perm : forall l, Permutation (shuffle l) l.
Variables (hc dom : nat) (nh : nhash).
Hypothesis Hnew : nh_new shuffle hc dom = Ok nh.
Hypothesis Hdim : (hc * dom = 2 ^ a)%nat.

(** The queries. *)
Definition is_write (rq : request) : bool := match rq with Read _ => false | Write _ _ => true end.
Definition info_for (rq : request) (x : rinfo) : Prop :=
  hash nh 0 (target rq) = Ok (slot x) /\ snd (fst x) = is_write rq /\ match rq with Read _ => True | Write _ data => snd x = scaled k data end.
Lemma ask_all_ok dm t rqs : forall j, Forall (request_ok cx k dom) rqs -> (forall i, plaintext n k (dm i 0%nat)) -> (forall i, tape_ok n E (t i)) ->
  exists qs xs, ask_all cl nh dm t j rqs = Ok qs /\ Forall2 info_for rqs xs /\
    Forall2 (fun qy x => request_ct cx s E a E qy (slot x) (snd (fst x)) (snd x) /\ (slot x < 2 ^ a)%nat) qs xs.
Proof.
  induction rqs as [|rq rqs IH]; intros j Hrq Hdm Ht; cbn [ask_all].
  - exists [], []. repeat split; constructor.
  - apply Forall_cons_iff in Hrq as [Hrq1 Hrq2].
    destruct (ask_ok cx lg k Hp s Ws E a Ha cl eq_refl eq_refl eq_refl shuffle shuffle_perm hc dom nh Hnew eq_refl Hdim rq (dm j) (t j) Hrq1 (Hdm j) (Ht j))
      as (c & qy & d & Eh & Hc & Eq & Rq & Hd).
    rewrite Eq. cbn [bind]. destruct (IH (Datatypes.S j) Hrq2 Hdm Ht) as (qs & xs & Eqs & HI & HF). rewrite Eqs. cbn [bind].
    exists (qy :: qs), ((c, is_write rq, scaled k d) :: xs). split; [reflexivity|]. split; constructor; try assumption.
    + split; [exact Eh|]. split; [reflexivity|]. destruct rq; [exact I|]. subst d. reflexivity.
    + split; [|exact Hc]. destruct rq; exact Rq.
Qed.

(** The cell of an item: hits and sums. *)
Section Cell.
Variables (f : nat -> P) (i c : nat) (v : list Z).
Hypothesis Hi : (i < dom)%nat.
Hypothesis Hc : hash nh 0 i = Ok c.
Hypothesis Hv : f c = scaled k v.
Notation here rqs := (map (wanted_by v) (filter (fun rq => (target rq =? i)%nat) rqs)).
Lemma cell_hits rqs xs : Forall (request_ok cx k dom) rqs -> Forall2 info_for rqs xs ->
  hits c xs = length (here rqs) /\
  peq n (hitsum f c xs) (fun z => fold_right Z.add 0 (map (fun w => nth z w 0) (here rqs)) * 2 ^ (64 - k)).
Proof.
  intros Hr HI. induction HI as [|rq x rqs xs (Eh & Eo & Ed) HI IH]; cbn [filter map hitsum fold_right].
  - split; [reflexivity|]. intros z _. apply eq_eqm. reflexivity.
  - apply Forall_cons_iff in Hr as [[Ht _] Hr]. destruct (IH Hr) as [IH1 IH2]. rewrite hits_cons.
    assert ((slot x =? c)%nat = (target rq =? i)%nat) as Es.
    { destruct (nh_fields shuffle hc dom nh Hnew) as (H0 & _).
      destruct (Nat.eqb_spec (slot x) c) as [E0|N1], (Nat.eqb_spec (target rq) i) as [E1|N2]; try reflexivity; exfalso.
      - rewrite E0 in Eh. destruct (hash_inj shuffle shuffle_perm hc dom nh Hnew 0 (target rq) 0 i c H0 Ht H0 Hi Eh Hc) as [_ H]. contradiction.
      - rewrite E1, Hc in Eh. congruence. }
    rewrite Es. destruct (target rq =? i)%nat; cbn [map length fold_right].
    + split; [rewrite IH1; reflexivity|]. intros z Hz. unfold padd, wanted. rewrite (IH2 z Hz), Eo, Z.mul_add_distr_r.
      apply eq_eqm. f_equal. destruct rq as [|j data]; cbn [is_write wanted_by]; [rewrite Hv; reflexivity|rewrite Ed; reflexivity].
    + split; [exact IH1|]. intros z Hz. unfold padd, pzero. rewrite (IH2 z Hz). apply eq_eqm. lia.
Qed.
Lemma cell_merged rqs xs : plaintext n k v -> Forall (request_ok cx k dom) rqs -> Forall2 info_for rqs xs ->
  plaintext n k (multi_result n k v (here rqs)) /\
  peq n (merged cx f xs c) (scaled k (multi_result n k v (here rqs))).
Proof.
  intros Hpv Hr HI. pose proof Hp as (_ & _ & _ & _ & _ & _ & _ & Hk & _). split.
  - unfold multi_result. split; [rewrite map_length, seq_length; reflexivity|]. apply Forall_forall. intros x Hx. apply in_map_iff in Hx as (z & <- & _).
    apply Z.mod_pos_bound. apply Z.pow_pos_nonneg; lia.
  - destruct (cell_hits rqs xs Hr HI) as [H1 H2]. intros z Hz. unfold merged, padd. 
    rewrite (pmul_pcst n Hn _ _ z Hz). unfold psub. rewrite (H2 z Hz), H1, Hv. unfold scaled at 1 2 3, multi_result.
    rewrite nth_map_seq0 by exact Hz. set (L := Z.of_nat _). set (Sm := fold_right _ _ _).
    apply eqm_alt. exists ((nth z v 0 + L * (Sm - nth z v 0)) / 2 ^ k).
    set (X := nth z v 0 + L * (Sm - nth z v 0)). replace (nth z v 0 * 2 ^ (64 - k) + L * (Sm * 2 ^ (64 - k) - nth z v 0 * 2 ^ (64 - k))) with (X * 2 ^ (64 - k)) by (unfold X; ring).
    unfold q. replace (2 ^ 64) with (2 ^ k * 2 ^ (64 - k)) by (rewrite <- Z.pow_add_r by lia; f_equal; lia).
    rewrite (Z.div_mod X (2 ^ k)) at 1 by (apply Z.pow_nonzero; lia). ring.
Qed.
End Cell.

Lemma merged_unhit f c xs : (forall x, In x xs -> slot x <> c) -> hits c xs = 0%nat /\ peq n (merged cx f xs c) (f c).
Proof.
  intros H. assert (hits c xs = 0)%nat as H1.
  { induction xs as [|x xs IH]; [reflexivity|]. rewrite hits_cons, IH by (intros; apply H; right; assumption).
    destruct (Nat.eqb_spec (slot x) c) as [E1|]; [|reflexivity]. exfalso. exact (H x (or_introl eq_refl) E1). }
  split; [exact H1|]. unfold merged. rewrite H1. rewrite (pcst_0 n). ring.
Qed.

(** process_multi on any requests. *)
Lemma multi_any pool sv B D A rqs dm t :
  server_for cx s E sv -> db_holds cx s k B (srv_data sv) 1 (2 ^ a) D -> items_hold nh dom D A -> E <= B ->
  Forall (request_ok cx k dom) rqs -> (forall i, plaintext n k (dm i 0%nat)) -> (forall i, tape_ok n E (t i)) -> spread pool (length rqs) ->
  exists qs ys sv', ask_all cl nh dm t 0 rqs = Ok qs /\ server_process_multi pool fft sv qs = Ok (ys, sv') /\
    Forall2 (fun rq y => holds cx s k (B + answer_growth cx a S E eps) y (A (target rq))) rqs ys /\
    server_for cx s E sv' /\ shape (srv_data sv') = repeat (2 ^ a)%nat 1 /\
    (forall i c, (i < dom)%nat -> hash nh 0 i = Ok c -> exists v, mget (srv_data sv') 0 c = Some v /\
       holds cx s k (multi_noise cx a S E eps B (length rqs) (length (filter (fun rq => (target rq =? i)%nat) rqs))) v
         (multi_result n k (A i) (map (wanted_by (A i)) (filter (fun rq => (target rq =? i)%nat) rqs)))) /\
    (forall c, (c < 2 ^ a)%nat -> (forall rq, In rq rqs -> hash nh 0 (target rq) <> Ok c) -> exists v, mget (srv_data sv') 0 c = Some v /\
       holds cx s k (multi_noise cx a S E eps B (length rqs) 0) v (D 0%nat c)).
Proof.
  intros (Ecx & Hneg & Hb & Hl) Hdb HA HE Hrq Hdm Ht Hpool. destruct Ha as [Ha1 Ha2].
  destruct (ask_all_ok dm t rqs 0%nat Hrq Hdm Ht) as (qs & xs & Eqs & HI & HF).
  destruct (db_cells _ _ _ _ _ _ _ _ Hdb) as [Hlen Hcells].
  set (f := fun j => scaled k (D 0%nat j)).
  destruct (process_multi_ok cx lg k Hp fft eps Hf s S E HS (srv_neg sv) Hneg Hb Hl a Ha1 (srv_data sv) f B E
     (Hlen 0%nat ltac:(lia)) (fun j Hj => proj1 (Hcells 0%nat j ltac:(lia) Hj)) HE qs xs HF pool) as (ys & m' & Er & Hys & Hs & Hm & _).
  { rewrite (Forall2_len2 _ _ _ HF), <- (Forall2_len2 _ _ _ HI). exact Hpool. }
  exists qs, ys, {| srv_data := m'; srv_neg := srv_neg sv; srv_cx := srv_cx sv |}.
  split; [exact Eqs|]. split; [unfold server_process_multi, with_server; rewrite Ecx, Er; reflexivity|].
  assert (forall rq x, In rq rqs -> info_for rq x -> (slot x < 2 ^ a)%nat -> D 0%nat (slot x) = A (target rq)) as HDA.
  { intros rq x Hin (Eh & _) _. apply HA; [|exact Eh]. rewrite Forall_forall in Hrq. apply (Hrq rq Hin). }
  assert (forall i c, (i < dom)%nat -> hash nh 0 i = Ok c -> (c < 2 ^ a)%nat) as Hrange.
  { intros i c Hi Ec. destruct (nh_fields shuffle hc dom nh Hnew) as (H0 & _). destruct (hash_total shuffle shuffle_perm hc dom nh Hnew 0 i H0 Hi) as (y & Ey & Hy).
    rewrite Ec in Ey. injection Ey as <-. lia. }
  assert (length xs = length rqs) as Lx by (symmetry; eapply Forall2_len2; exact HI).
  split; [|split; [|split; [|split]]].
  - clear - HI Hys HA Hrq Hcells Hrange. revert ys Hys. induction HI as [|rq x rqs xs (Eh & Eo & Ed) HI IH]; intros ys Hys; inversion Hys as [|? y ? ys' [Wy Ny] Hys']; subst; constructor.
    + apply Forall_cons_iff in Hrq as [[Htg _] Hrq]. rewrite <- (HA _ _ Htg Eh). split; [exact Wy|]. split; [|exact Ny]. apply Hcells; [lia|]. eapply Hrange; [exact Htg|exact Eh].
    + apply Forall_cons_iff in Hrq as [_ Hrq]. apply IH; assumption.
  - split; [exact Ecx|]. split; [exact Hneg|]. split; assumption.
  - cbn [srv_data]. rewrite Hs. apply shape_repeat; apply Hdb.
  - intros i c Hi Ec. cbn [srv_data]. destruct (Hm c (Hrange i c Hi Ec)) as (v & Ev & Wv & Nv). exists v. split; [exact Ev|].
    assert (f c = scaled k (A i)) as Hfc by (unfold f; rewrite (HA i c Hi Ec); reflexivity).
    assert (plaintext n k (A i)) as HpA by (rewrite <- (HA i c Hi Ec); apply Hcells; [lia|eapply Hrange; eassumption]).
    destruct (cell_hits f i c (A i) Hi Ec Hfc rqs xs Hrq HI) as [Hh _]. rewrite map_length in Hh.
    destruct (cell_merged f i c (A i) Hi Ec Hfc rqs xs HpA Hrq HI) as [Hpl Hme].
    split; [exact Wv|]. split; [exact Hpl|]. unfold multi_noise. rewrite <- Hh, <- Lx. eapply near_eq_r; [symmetry; exact Hme|exact Nv].
  - intros c Hc Hno. cbn [srv_data]. destruct (Hm c Hc) as (v & Ev & Wv & Nv). exists v. split; [exact Ev|].
    destruct (merged_unhit f c xs) as [Hh Hme].
    { clear - HI Hno. induction HI as [|rq x rqs xs (Eh & _) HI IH]; intros x' Hin; [destruct Hin|]. destruct Hin as [<-|Hin].
      - intros Ec. rewrite Ec in Eh. exact (Hno rq (or_introl eq_refl) Eh).
      - apply IH; [intros; apply Hno; right; assumption|exact Hin]. }
    split; [exact Wv|]. split; [apply Hcells; [lia|exact Hc]|]. unfold merged_noise in Nv. rewrite Hh, Lx in Nv. eapply near_eq_r; [symmetry; exact Hme|exact Nv].
Qed.
End Hist.
