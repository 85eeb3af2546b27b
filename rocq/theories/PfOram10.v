(** * Batches: the client's queries and the server's answers *)
From Coq Require Import Setoid Morphisms Ring Permutation.
From Verif Require Import MBase MUtils MCodec MPoly MRlwe MHash MTree MEncTree MSched MOram SpecOram SpecBatch PolyRing PfPoly PfNear PfRlwe PfRlwe2 PfRlwe3
  PfRlwe5 PfCodec LRlwe LKeys PfEnc PfEnc2 PfEnc3 PfEnc4 LEnc PfHash PfSched PfOram1 PfOram2 PfOram3 PfOram4 PfOram5 LOram PfOram8 PfOram9.
Local Open Scope Z_scope.

Lemma batch_result_0 n k v data : plaintext n k v -> batch_result n k v data false 0 = v.
Proof.
  intros [L F]. unfold batch_result. apply (nth_ext _ _ 0 0); [rewrite map_length, seq_length; lia|]. intros i Hi. rewrite map_length, seq_length in Hi.
  rewrite nth_map_seq0 by exact Hi. replace (nth i v 0 + Z.of_nat 0 * (nth i data 0 - nth i v 0)) with (nth i v 0) by (cbn [Z.of_nat]; ring).
  rewrite Forall_forall in F. apply Z.mod_small. apply F. apply nth_In. lia.
Qed.
Lemma batch_result_1 n k v data : plaintext n k data -> batch_result n k v data false 1 = data.
Proof.
  intros [L F]. unfold batch_result. apply (nth_ext _ _ 0 0); [rewrite map_length, seq_length; lia|]. intros i Hi. rewrite map_length, seq_length in Hi.
  rewrite nth_map_seq0 by exact Hi. replace (nth i v 0 + Z.of_nat 1 * (nth i data 0 - nth i v 0)) with (nth i data 0) by (cbn [Z.of_nat Pos.of_succ_nat]; ring).
  rewrite Forall_forall in F. apply Z.mod_small. apply F. apply nth_In. lia.
Qed.

Section Ba.
Variable cx : ctx.
Variables (lg : nat) (k : Z).
Hypothesis Hp : params_ok cx lg k.
Notation n := (c_n cx).
Let Hn : (0 < n)%nat := params_n cx lg k Hp.
Add Ring Pring : (P_ring n Hn) (setoid (peq_equiv n) (P_ext n)).
Variable fft : fftT.
Variable eps : Z.
Hypothesis Hf : fft_for cx fft eps.
Variable s : poly.
Hypothesis Ws : wfp n s.
Variables S E : Z.
Hypothesis HS : l1 n (tof s) S.
Variable a : nat.
Hypothesis Ha : (1 <= a <= 63)%nat.
Notation G := (growth cx a S E eps).
Variable rows : nat.
Hypothesis Hrows : (0 < rows)%nat.
Notation cols := (2 ^ a)%nat.
Notation cl := (client_new rows cols cx s).
Variable shuffle : list nat -> list nat.
Hypothesis shuffle_perm : forall l, Permutation (shuffle l) l.
Variables (hc dom : nat) (nh : nhash).
Hypothesis Hnew : nh_new shuffle hc dom = Ok nh.
Hypothesis Hdim : (rows * cols = hc * dom)%nat.

(** The queries. *)
Definition bslot (mp : hmap) (r : nat) : nat := match hget mp r with Some c => fst c | None => 0%nat end.
Definition bop (br : brequest) (mp : hmap) (r : nat) : bool :=
  match br, hget mp r with BWrite _ _, Some _ => true | _, _ => false end.
Definition bdata (br : brequest) (mp : hmap) (dm : nat -> poly) (r : nat) : list Z :=
  match br, hget mp r with BWrite _ data, Some _ => data | _, _ => dm r end.

Lemma slot_lt is mp r : minv hc nh cols is mp -> (forall i, In i is -> (i < dom)%nat) -> (bslot mp r < cols)%nat.
Proof.
  intros [_ Hm] His. unfold bslot. destruct (hget mp r) as [[c i]|] eqn:Eg; [|cbn; apply pow2_pos_nat].
  apply hget_Some_in in Eg. destruct (Hm r c i Eg) as (Hi & h & Hh & Et). cbn [fst].
  destruct (tuple_range shuffle shuffle_perm hc dom nh Hnew h i rows cols Hh (His i Hi) Hdim) as (y & r' & c' & _ & Et' & _ & Hc & _). rewrite Et in Et'. injection Et' as -> ->. exact Hc.
Qed.
Lemma batch_queries br dm t : brequest_ok cx k dom br -> (forall r, plaintext n k (dm r)) -> tape_ok n E t ->
  exists mp qs, hash_to_mapping nh (batch_items br) cols = Ok mp /\ minv hc nh cols (batch_items br) mp /\ ask_batch cl nh br dm t = Ok qs /\ length qs = rows /\
    (forall r, (bslot mp r < cols)%nat) /\
    forall r qy, nth_error qs r = Some qy -> request_ct cx s E a E qy (bslot mp r) (bop br mp r) (scaled k (bdata br mp dm r)).
Proof.
  intros [His Hdat] Hdm Ht. rewrite Forall_forall in His.
  destruct (mapping_ok shuffle shuffle_perm hc dom nh Hnew cols (batch_items br) His (pow2_pos_nat a)) as (mp & Em & Hmi & _).
  exists mp.
  pose proof (fun r => slot_lt (batch_items br) mp r Hmi His) as Hlt.
  set (qd := {| q_a := []; q_op := {| g_rows := []; g_base := 0; g_level := 0 |}; q_data := {| mask := []; body := [] |} |} : query).
  assert (forall (g : nat -> res query), (forall r, (r < rows)%nat -> exists qy, g r = Ok qy /\ request_ct cx s E a E qy (bslot mp r) (bop br mp r) (scaled k (bdata br mp dm r))) ->
    exists qs, mapM g (seq 0 rows) = Ok qs /\ length qs = rows /\
      forall r qy, nth_error qs r = Some qy -> request_ct cx s E a E qy (bslot mp r) (bop br mp r) (scaled k (bdata br mp dm r))) as Gen.
  { intros g Hg. destruct (mapM_seq_ok g (fun r qy => request_ct cx s E a E qy (bslot mp r) (bop br mp r) (scaled k (bdata br mp dm r))) qd rows 0) as (qs & Eq & Lq & Hq).
    { intros r Hr. apply Hg. lia. }
    exists qs. split; [exact Eq|]. split; [exact Lq|]. intros r qy Er. assert (r < rows)%nat as Hr by (rewrite <- Lq; apply nth_error_Some; congruence).
    specialize (Hq r Hr). rewrite (nth_error_nth _ _ _ Er) in Hq. exact Hq. }
  destruct br as [is|is data]; cbn [ask_batch batch_items] in *.
  - unfold gen_read_query_batch. cbn [cl_cols client_new cl_rows]. rewrite Em. cbn [bind].
    match goal with |- context [mapM ?ff _] => destruct (Gen ff) as (qs & Eq & Lq & Hq) end.
    { intros r Hr. specialize (Hlt r). unfold bslot in *. cbn [bop bdata]. destruct (hget mp r) as [c|];
        apply (make_read_ok cx lg k Hp s Ws E a Ha cl eq_refl eq_refl eq_refl); try assumption; try apply Hdm; apply tape_split; exact Ht. }
    exists qs. auto 10.
  - unfold gen_write_query_batch. cbn [cl_cols client_new cl_rows]. rewrite Em. cbn [bind].
    match goal with |- context [mapM ?ff _] => destruct (Gen ff) as (qs & Eq & Lq & Hq) end.
    { intros r Hr. specialize (Hlt r). unfold bslot in *. cbn [bop bdata]. destruct (hget mp r) as [c|].
      - apply (make_write_ok cx lg k Hp s Ws E a Ha cl eq_refl eq_refl eq_refl); try assumption; apply tape_split; exact Ht.
      - apply (make_read_ok cx lg k Hp s Ws E a Ha cl eq_refl eq_refl eq_refl); try assumption; try apply Hdm; apply tape_split; exact Ht. }
    exists qs. auto 10.
Qed.

Notation data_of br v := (match br with BRead _ => v | BWrite _ data => data end).
Notation nwritten br i := (length (filter (fun h => copy_written nh cols br h i) (seq 1 (hc - 1)))).

Lemma hit_written br mp h i : (h < hc)%nat -> (i < dom)%nat -> hash_to_mapping nh (batch_items br) cols = Ok mp ->
  hit (bslot mp) (bop br mp) (posn a nh h i) = copy_written nh cols br h i.
Proof.
  intros Hh Hi Em. destruct (posn_ok a shuffle shuffle_perm hc dom nh Hnew rows Hdim h i Hh Hi) as (Et & _).
  unfold hit, copy_written, bslot, bop. rewrite Et. destruct (posn a nh h i) as [r c]. cbn [fst snd].
  destruct br as [is|is data]; [apply andb_false_r|]. unfold placed. cbn [batch_items] in Em. rewrite Em.
  destruct (hget mp r) as [[c' i']|]; cbn [fst]; [apply andb_true_r|apply andb_false_r].
Qed.
Lemma lsum_const (x : P) (y : nat -> P) (t : nat -> bool) l : (forall h, In h l -> t h = true -> peq n (y h) x) ->
  peq n (lsum (map (fun h => if t h then y h else pzero) l)) (pmul n (pcst (Z.of_nat (length (filter t l)))) x).
Proof.
  induction l as [|h l IH]; intros H; cbn [map lsum fold_right filter length].
  - rewrite (pcst_0 n). ring.
  - fold (lsum (map (fun h => if t h then y h else pzero) l)). rewrite IH by (intros; apply H; [right; assumption|assumption]).
    destruct (t h) eqn:Et; cbn [length]; [|ring]. rewrite (H h (or_introl eq_refl) Et).
    assert (peq n (pcst (Z.of_nat (Datatypes.S (length (filter t l))))) (padd (pcst 1) (pcst (Z.of_nat (length (filter t l)))))) as ->; [|ring].
    intros [|z] _; apply eq_eqm; unfold padd, pcst; clear; lia.
Qed.
Lemma scaled_result v data L : plaintext n k v -> plaintext n k data ->
  plaintext n k (batch_result n k v data false L) /\
  peq n (padd (scaled k v) (pmul n (pcst (Z.of_nat L)) (psub (scaled k data) (scaled k v)))) (scaled k (batch_result n k v data false L)).
Proof.
  intros Hv Hd. pose proof Hp as (_ & _ & _ & _ & _ & _ & _ & Hk & _). unfold batch_result. split.
  - split; [rewrite map_length, seq_length; reflexivity|]. apply Forall_forall. intros x Hx. apply in_map_iff in Hx as (z & <- & _).
    apply Z.mod_pos_bound. apply Z.pow_pos_nonneg; lia.
  - intros z Hz. unfold padd. rewrite (pmul_pcst n Hn _ _ z Hz). unfold psub, scaled.
    rewrite nth_map_seq0 by exact Hz. set (l := Z.of_nat L). 
    apply eqm_alt. set (X := nth z v 0 + l * (nth z data 0 - nth z v 0)). exists (X / 2 ^ k).
    replace (nth z v 0 * 2 ^ (64 - k) + l * (nth z data 0 * 2 ^ (64 - k) - nth z v 0 * 2 ^ (64 - k))) with (X * 2 ^ (64 - k)) by (unfold X; ring).
    unfold q. replace (2 ^ 64) with (2 ^ k * 2 ^ (64 - k)) by (rewrite <- Z.pow_add_r by lia; f_equal; lia).
    rewrite (Z.div_mod X (2 ^ k)) at 1 by (apply Z.pow_nonzero; lia). ring.
Qed.
(** Any batch. *)
Lemma batch_any pool sv B D A br dm t :
  server_for cx s E sv -> db_holds cx s k B (srv_data sv) rows cols D -> copies_hold nh hc dom cols D A -> E <= B ->
  brequest_ok cx k dom br -> (forall r, plaintext n k (dm r)) -> tape_ok n E t -> spread pool rows -> spread pool dom ->
  exists mp qs ys sv', hash_to_mapping nh (batch_items br) cols = Ok mp /\ minv hc nh cols (batch_items br) mp /\ ask_batch cl nh br dm t = Ok qs /\
    server_process_batch pool fft sv qs nh = Ok (ys, sv') /\ length ys = rows /\
    (forall r y, nth_error ys r = Some y -> holds cx s k (B + answer_growth cx a S E eps) y (D r (bslot mp r))) /\
    server_for cx s E sv' /\ shape (srv_data sv') = shape (srv_data sv) /\
    forall h i r c, (h < hc)%nat -> (i < dom)%nat -> hash_to_tuple nh h i cols = Ok (r, c) ->
      exists v, mget (srv_data sv') r c = Some v /\
        holds cx s k (copies_noise cx a hc S E eps B (nwritten br i)) v
          (batch_result n k (A i) (data_of br (A i)) (copy_written nh cols br 0 i) (nwritten br i)).
Proof.
  intros Hsv Hdb Hco HE Hbr Hdm Ht Hpr Hpd. pose proof Hsv as (Ecx & Hneg & Hb & Hl).
  destruct (batch_queries br dm t Hbr Hdm Ht) as (mp & qs & Em & Hmi & Eq & Lq & Hlt & Hq).
  destruct (db_cells _ _ _ _ _ _ _ _ Hdb) as [Hlen Hcells].
  assert (shape (srv_data sv) = repeat cols rows) as Hsh by (apply shape_repeat; apply Hdb).
  assert (length (srv_data sv) = rows) as Hr by apply Hdb.
  destruct (process_batch_ok cx lg k Hp fft eps Hf s S E HS (srv_neg sv) Hneg Hb Hl a (proj1 Ha) shuffle shuffle_perm hc dom nh Hnew rows Hdim Hrows
    (srv_data sv) (fun r c => scaled k (D r c)) B E Hsh (fun r c H1 H2 => proj1 (Hcells r c H1 H2)) HE qs (bslot mp) (bop br mp) (fun r => scaled k (bdata br mp dm r)) Lq Hq (fun r _ => Hlt r) pool Hpr Hpd)
    as (ys & m' & Er & Ly & Hy & Hs' & Hc').
  exists mp, qs, ys, {| srv_data := m'; srv_neg := srv_neg sv; srv_cx := srv_cx sv |}.
  split; [exact Em|]. split; [exact Hmi|]. split; [exact Eq|]. split; [|split; [exact Ly|split; [|split; [|split; [exact Hs'|]]]]].
  - unfold server_process_batch, with_server, srv_rows. rewrite Ecx, Hr, Er. reflexivity.
  - intros r y Ey. destruct (Hy r y Ey) as [Wy Ny]. split; [exact Wy|]. split; [|exact Ny].
    apply Hcells; [|apply Hlt]. rewrite <- Ly. apply nth_error_Some. congruence.
  - split; [exact Ecx|]. split; [exact Hneg|]. split; assumption.
  - intros h i r c Hh Hi Et. cbn [srv_data]. destruct (nh_fields shuffle hc dom nh Hnew) as (H0 & _).
    destruct (posn_ok a shuffle shuffle_perm hc dom nh Hnew rows Hdim h i Hh Hi) as (Et' & _).
    destruct (Hc' h i Hh Hi) as (v & Ev & Wv & Nv). rewrite Et in Et'. injection Et' as Ep. rewrite <- Ep in Ev. cbn [fst snd] in Ev.
    exists v. split; [exact Ev|]. split; [exact Wv|].
    destruct (posn_ok a shuffle shuffle_perm hc dom nh Hnew rows Hdim 0 i H0 Hi) as (Et0 & Hr0 & Hc0).
    assert (plaintext n k (A i)) as PA.
    { destruct (posn a nh 0 i) as [r0 c0]. rewrite <- (Hco 0%nat i r0 c0 H0 Hi Et0). apply Hcells; assumption. }
    assert (plaintext n k (data_of br (A i))) as PD by (destruct br as [is|is data]; [exact PA|apply Hbr]).
    assert (item_hits a hc nh (bslot mp) (bop br mp) i = nwritten br i) as Eh.
    { unfold item_hits. f_equal. apply filter_ext_in. intros h' Hin. apply in_seq in Hin. apply hit_written; [lia|exact Hi|exact Em]. }
    unfold item_noise in Nv. rewrite Eh in Nv. fold (copies_noise cx a hc S E eps B (nwritten br i)) in Nv.
    assert (peq n (item_val a hc nh (fun r c => scaled k (D r c)) (bslot mp) (bop br mp) (fun r => scaled k (bdata br mp dm r)) i)
       (padd (scaled k (if copy_written nh cols br 0 i then data_of br (A i) else A i))
          (pmul n (pcst (Z.of_nat (nwritten br i))) (psub (scaled k (data_of br (A i))) (scaled k (if copy_written nh cols br 0 i then data_of br (A i) else A i)))))) as EV.
    { set (uv := upd_val (fun r c => scaled k (D r c)) (bslot mp) (bop br mp) (fun r => scaled k (bdata br mp dm r))).
      assert (forall h', (h' < hc)%nat -> copy_written nh cols br h' i = true -> uv (posn a nh h' i) = scaled k (data_of br (A i))) as Hhit.
      { intros h' Hh' Hw. unfold uv, upd_val. rewrite (hit_written br mp h' i Hh' Hi Em), Hw. f_equal.
        rewrite <- (hit_written br mp h' i Hh' Hi Em) in Hw. unfold hit in Hw. apply andb_prop in Hw as [_ Hw]. unfold bop in Hw. unfold bdata.
        destruct br as [is|is data]; [discriminate|]. destruct (hget mp (fst (posn a nh h' i))); [reflexivity|discriminate]. }
      assert (uv (posn a nh 0 i) = scaled k (if copy_written nh cols br 0 i then data_of br (A i) else A i)) as E0.
      { destruct (copy_written nh cols br 0 i) eqn:Ew; [apply Hhit; assumption|]. unfold uv, upd_val. rewrite (hit_written br mp 0 i H0 Hi Em), Ew. f_equal.
        apply (Hco 0%nat i); try assumption. rewrite Et0. f_equal. apply surjective_pairing. }
      unfold item_val. fold uv. rewrite E0.
      rewrite (lsum_const (psub (scaled k (data_of br (A i))) (scaled k (if copy_written nh cols br 0 i then data_of br (A i) else A i)))
         (fun h => psub (uv (posn a nh h i)) (scaled k (if copy_written nh cols br 0 i then data_of br (A i) else A i)))
         (fun h => hit (bslot mp) (bop br mp) (posn a nh h i))).
      - fold (item_hits a hc nh (bslot mp) (bop br mp) i). rewrite Eh. reflexivity.
      - intros h' Hin Hw. apply in_seq in Hin. rewrite (hit_written br mp h' i ltac:(lia) Hi Em) in Hw. rewrite Hhit by (try exact Hw; lia). reflexivity. }
    destruct (copy_written nh cols br 0 i).
    + split; [exact PD|]. unfold batch_result. eapply near_eq_r; [|exact Nv]. rewrite EV. ring.
    + destruct (scaled_result (A i) (data_of br (A i)) (nwritten br i) PA PD) as [PR ER]. split; [exact PR|].
      eapply near_eq_r; [|exact Nv]. rewrite EV. symmetry. exact ER.
Qed.
End Ba.
