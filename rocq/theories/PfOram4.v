(** * Clients: queries; histories of single queries *)
From Coq Require Import Setoid Morphisms Ring Permutation.
From Verif Require Import MBase MUtils MCodec MPoly MRlwe MHash MTree MEncTree MSched MOram SpecOram PolyRing PfPoly PfNear PfRlwe PfRlwe2 PfRlwe3
  PfRlwe5 PfCodec LRlwe LKeys PfEnc PfEnc2 PfEnc3 PfEnc4 LEnc PfHash PfSched PfOram1 PfOram2 PfOram3.
Local Open Scope Z_scope.

Section Cl.
Variable cx : ctx.
Variables (lg : nat) (k : Z).
Hypothesis Hp : params_ok cx lg k.
Notation n := (c_n cx).
Let Hn : (0 < n)%nat := params_n cx lg k Hp.
Variable s : poly.
Hypothesis Ws : wfp n s.
Variable E : Z.
Variable a : nat.
Hypothesis Ha : (1 <= a <= 63)%nat.
Variable cl : client.
Hypothesis Hcx : cl_cx cl = cx.
Hypothesis Hsk : cl_sk cl = s.
Hypothesis Hcols : cl_cols cl = (2 ^ a)%nat.
Notation req := (request_ct cx s E a E).

Lemma pow2a_ge : (1 < 2 ^ a)%nat.
Proof. clear - Ha. pose proof (Nat.pow_le_mono_r 2 1 a ltac:(lia) ltac:(lia)) as H. cbn in H. lia. Qed.
Lemma pow2a_lt : Z.of_nat (2 ^ a) < q.
Proof. clear - Ha. rewrite Nat2Z.inj_pow. unfold q. apply Z.pow_lt_mono_r; lia. Qed.

Lemma enc_data_ok pt d : plaintext n k pt -> draw_ok n E d ->
  exists c, enc_data_rlwe cl pt d = Ok c /\ wfc n c /\ near n (phase n s c) (scaled k pt) E.
Proof.
  intros Hpt Hd. pose proof Hp as (_ & _ & _ & _ & _ & _ & _ & Hk & Hc).
  unfold enc_data_rlwe, encode_encrypt_rlwe. rewrite Hcx, Hsk.
  destruct (encode_scaled n _ _ _ pt Hk Hc Hpt) as (e & Ee & We & Te). rewrite Ee. cbn [bind].
  eexists; split; [reflexivity|]. split; [eapply wfc_encrypt; [apply We|exact Hd]|].
  eapply near_eq_r; [|apply near_encrypt; [exact Hn|apply We|exact Hd]]. intros i _. rewrite Te. reflexivity.
Qed.
Lemma enc_op_ok o t : tape_ok n E t -> const_ct n s (c_base cx) (c_level cx) E (match o with READ => 0 | WRITE => 1 end) (gen_enc_op cl o t).
Proof.
  intros Ht. pose proof Hp as (_ & _ & _ & Hd & _). unfold gen_enc_op. rewrite Hcx, Hsk. split; [|split; reflexivity].
  apply encrypt_constant_rgsw_ok; assumption.
Qed.
Lemma index_sel i t : (i < 2 ^ a)%nat -> tape_ok n E t ->
  exists gs xs, bit_decomposed_rgsw cx s i (2 ^ a) t = Ok gs /\
    Forall2 (fun g x => const_ct n s (c_base cx) (c_level cx) E (b2z x) g) gs xs /\ length gs = a /\ msb_value (map negb xs) = i.
Proof.
  intros Hi Ht. pose proof Hp as (_ & _ & _ & Hd & _). pose proof pow2a_ge. pose proof pow2a_lt.
  destruct (bit_decomposed_ok cx s i (2 ^ a) t E Hn ltac:(lia) H0 Ws Hd Ht) as (gs & xs & Eg & Lg & HF & Hv).
  rewrite pow2_mod_id in Hv by exact Hi. rewrite Nat.log2_pow2 in Lg by lia. exists gs, xs. auto.
Qed.
Lemma make_read_ok i dummy t : (i < 2 ^ a)%nat -> plaintext n k dummy -> tape_ok n E t ->
  exists qy, make_read_query cl i dummy t = Ok qy /\ req qy i false (scaled k dummy).
Proof.
  intros Hi Hd Ht. unfold make_read_query. rewrite Hcx, Hsk, Hcols.
  destruct (index_sel i (split t 0) Hi) as (gs & xs & -> & HF & HL & Hv); [apply tape_split; exact Ht|]. cbn [bind].
  destruct (enc_data_ok dummy (split t 2 0%nat) Hd) as (c & -> & Wc & Nc); [apply tape_split; exact Ht|]. cbn [bind].
  eexists; split; [reflexivity|]. split; [|split; [|split; assumption]].
  - exists xs. cbn [q_a]. auto.
  - cbn [q_op b2z]. apply (enc_op_ok READ). apply tape_split; exact Ht.
Qed.
Lemma make_write_ok i alpha t : (i < 2 ^ a)%nat -> plaintext n k alpha -> tape_ok n E t ->
  exists qy, make_write_query cl i alpha t = Ok qy /\ req qy i true (scaled k alpha).
Proof.
  intros Hi Hd Ht. unfold make_write_query. rewrite Hcx, Hsk, Hcols.
  destruct (index_sel i (split t 0) Hi) as (gs & xs & -> & HF & HL & Hv); [apply tape_split; exact Ht|]. cbn [bind].
  destruct (enc_data_ok alpha (split t 2 0%nat) Hd) as (c & -> & Wc & Nc); [apply tape_split; exact Ht|]. cbn [bind].
  eexists; split; [reflexivity|]. split; [|split; [|split; assumption]].
  - exists xs. cbn [q_a]. auto.
  - cbn [q_op b2z]. apply (enc_op_ok WRITE). apply tape_split; exact Ht.
Qed.

(** One row. *)
Variable shuffle : list nat -> list nat.
Hypothesis shuffle_perm : forall l, Permutation (shuffle l) l.
Variables (hc dom : nat) (nh : nhash).
Hypothesis Hnew : nh_new shuffle hc dom = Ok nh.

Lemma mapping_one i d : (i < dom)%nat -> (0 < d)%nat ->
  exists r c, hash_to_tuple nh 0 i d = Ok (r, c) /\ hash_to_mapping nh [i] d = Ok [(r, (c, i))].
Proof.
  intros Hi Hd. destruct (nh_fields shuffle hc dom nh Hnew) as (H0 & Hh & _).
  destruct (tuple_ok shuffle shuffle_perm hc dom nh Hnew 0 i d H0 Hi Hd) as (y & _ & Et & _).
  exists (y / d)%nat, (y mod d)%nat. split; [exact Et|]. unfold hash_to_mapping. cbn [foldM]. rewrite Hh.
  destruct hc as [|h']; [lia|]. cbn [seq place]. rewrite Et. reflexivity.
Qed.
Hypothesis Hrows : cl_rows cl = 1%nat.
Hypothesis Hdim : (hc * dom = 2 ^ a)%nat.
Lemma ask_ok rq dm t : request_ok cx k dom rq -> plaintext n k (dm 0%nat) -> tape_ok n E t ->
  exists c qy d, hash nh 0 (target rq) = Ok c /\ (c < 2 ^ a)%nat /\ ask cl nh rq dm t = Ok qy /\
    req qy c (match rq with Read _ => false | Write _ _ => true end) (scaled k d) /\
    match rq with Read _ => True | Write _ data => d = data end.
Proof.
  intros [Hi Hdat] Hdm Ht. pose proof pow2a_ge as Hpos.
  destruct (nh_fields shuffle hc dom nh Hnew) as (H0 & Hh & _).
  destruct (tuple_range shuffle shuffle_perm hc dom nh Hnew 0 (target rq) 1 (2 ^ a) H0 Hi) as (y & r & c & Ey & Et & Hr & Hc & Hrc); [lia|].
  assert (r = 0)%nat as -> by lia. cbn in Hrc. subst y.
  destruct (mapping_one (target rq) (2 ^ a) Hi ltac:(lia)) as (r' & c' & Et' & Em). rewrite Et in Et'. injection Et' as <- <-.
  destruct rq as [i|i data]; cbn [target ask] in *.
  - destruct (make_read_ok c (dm 0%nat) (split t 0) Hc Hdm) as (qy & Eq & Rq); [apply tape_split; exact Ht|].
    exists c, qy, (dm 0%nat). split; [exact Ey|]. split; [exact Hc|]. split; [|split; [exact Rq|exact I]].
    unfold gen_read_query_one, gen_read_query_batch. rewrite Hrows, Hcols, Em. cbn [bind seq mapM hget Nat.eqb fst]. rewrite Eq. reflexivity.
  - destruct (make_write_ok c data (split t 0) Hc Hdat) as (qy & Eq & Rq); [apply tape_split; exact Ht|].
    exists c, qy, data. split; [exact Ey|]. split; [exact Hc|]. split; [|split; [exact Rq|reflexivity]].
    unfold gen_write_query_one, gen_write_query_batch. rewrite Hrows, Hcols, Em. cbn [bind seq mapM hget Nat.eqb fst]. rewrite Eq. reflexivity.
Qed.
End Cl.

(** ** Databases *)
Lemma db_cells cx s k B m rows cols D : db_holds cx s k B m rows cols D ->
  (forall r, (r < rows)%nat -> mlen m r = Some cols) /\
  forall r c, (r < rows)%nat -> (c < cols)%nat -> cnear cx s m r c (scaled k (D r c)) B /\ plaintext (c_n cx) k (D r c).
Proof.
  intros (Hl & Hr & Hc). rewrite Forall_forall in Hr. split.
  - intros r Hlt. unfold mlen. destruct (nth_error m r) as [row|] eqn:Er; [|apply nth_error_None in Er; lia].
    cbn. f_equal. apply Hr. eapply nth_error_In; exact Er.
  - intros r c Hlt Hlc. destruct (nth_error m r) as [row|] eqn:Er; [|apply nth_error_None in Er; lia].
    pose proof (Hr row (nth_error_In _ _ Er)) as Hrow. destruct (nth_error row c) as [v|] eqn:Ev; [|apply nth_error_None in Ev; lia].
    destruct (Hc r c row v Er Ev) as (W & Pt & N). split; [|exact Pt]. exists v. unfold mget. rewrite Er. auto.
Qed.
Lemma db_of_cells cx s k B m rows cols D : shape m = repeat cols rows ->
  (forall r c, (r < rows)%nat -> (c < cols)%nat -> cnear cx s m r c (scaled k (D r c)) B /\ plaintext (c_n cx) k (D r c)) ->
  db_holds cx s k B m rows cols D.
Proof.
  intros Hs H. assert (length m = rows) as Hl by (rewrite <- (repeat_length cols rows), <- Hs; unfold shape; now rewrite map_length).
  assert (forall r row, nth_error m r = Some row -> length row = cols) as Hrow.
  { intros r row Er. assert (nth_error (shape m) r = Some (length row)) as E1 by (unfold shape; now rewrite nth_error_map, Er).
    rewrite Hs in E1. apply nth_error_In, repeat_spec in E1. exact E1. }
  split; [exact Hl|]. split.
  - apply Forall_forall. intros row Hin. apply In_nth_error in Hin as (r & Er). eapply Hrow; exact Er.
  - intros r c row v Er Ev. assert (r < rows)%nat by (rewrite <- Hl; apply nth_error_Some; congruence).
    assert (c < cols)%nat by (rewrite <- (Hrow r row Er); apply nth_error_Some; congruence).
    destruct (H r c) as [(v' & Ev' & W & N) Pt]; [assumption..|]. unfold mget in Ev'. rewrite Er, Ev in Ev'. injection Ev' as <-. split; [exact W|]. split; assumption.
Qed.
Lemma shape_repeat m rows cols : length m = rows -> Forall (fun row => length row = cols) m -> shape m = repeat cols rows.
Proof. intros <- H. unfold shape. induction H as [|x m Hx H IH]; cbn; [reflexivity|]. now rewrite Hx, IH. Qed.

(** ** C41-C43 *)
Section Hist.
Variable cx : ctx.
Variables (lg : nat) (k : Z).
Hypothesis Hp : params_ok cx lg k.
Notation n := (c_n cx).
Let Hn : (0 < n)%nat := params_n cx lg k Hp.
Variable fft : fftT.
Variable eps : Z.
Hypothesis Hf : fft_for cx fft eps.
Variable s : poly.
Hypothesis Ws : wfp n s.
Variables S E : Z.
Hypothesis HS : l1 n (tof s) S.
Variable a : nat.
Hypothesis Ha : (1 <= a <= 63)%nat.
Notation G := (growth cx a S E eps).
Notation cl := (client_new 1 (2 ^ a) cx s).
Variable shuffle : list nat -> list nat.
Hypothesis shuffle_perm : forall l, Permutation (shuffle l) l.
Variables (hc dom : nat) (nh : nhash).
Hypothesis Hnew : nh_new shuffle hc dom = Ok nh.
Hypothesis Hdim : (hc * dom = 2 ^ a)%nat.

Lemma query_step pool (Hpool : spread pool (c_level cx)) sv B D rq dm t :
  server_for cx s E sv -> db_holds cx s k B (srv_data sv) 1 (2 ^ a) D -> E <= B ->
  request_ok cx k dom rq -> plaintext n k (dm 0%nat) -> tape_ok n E t ->
  exists c qy y sv', hash nh 0 (target rq) = Ok c /\ (c < 2 ^ a)%nat /\ ask cl nh rq dm t = Ok qy /\ server_process_one pool fft sv qy = Ok (y, sv') /\
    holds cx s k (B + answer_growth cx a S E eps) y (D 0%nat c) /\
    server_for cx s E sv' /\
    db_holds cx s k (B + G) (srv_data sv') 1 (2 ^ a) (match rq with Read _ => D | Write _ data => put_cell D 0 c data end).
Proof.
  intros (Ecx & Hneg & Hb & Hl) Hdb HE Hrq Hdm Ht. destruct Ha as [Ha1 Ha2].
  destruct (ask_ok cx lg k Hp s Ws E a Ha cl eq_refl eq_refl eq_refl shuffle shuffle_perm hc dom nh Hnew eq_refl Hdim rq dm t Hrq Hdm Ht)
    as (c & qy & d & Eh & Hc & Eq & Rq & Hd).
  destruct (db_cells _ _ _ _ _ _ _ _ Hdb) as [Hlen Hcells].
  destruct (process_one_ok cx lg k Hp fft eps Hf s S E HS (srv_neg sv) Hneg Hb Hl a Ha1 pool (srv_data sv) (fun j => scaled k (D 0%nat j)) B E qy c _ (scaled k d)
     (Hlen 0%nat ltac:(lia)) (fun j Hj => proj1 (Hcells 0%nat j ltac:(lia) Hj)) Rq HE Hc Hpool) as (y & m' & Er & [Wy Ny] & Hs & Hcl & _).
  exists c, qy, y, {| srv_data := m'; srv_neg := srv_neg sv; srv_cx := srv_cx sv |}.
  split; [exact Eh|]. split; [exact Hc|]. split; [exact Eq|]. split; [|split; [|split]].
  - unfold server_process_one, with_server. rewrite Ecx, Er. reflexivity.
  - split; [exact Wy|]. split; [apply Hcells; [lia|exact Hc]|exact Ny].
  - split; [exact Ecx|]. split; [exact Hneg|]. split; assumption.
  - cbn [srv_data]. apply db_of_cells.
    + rewrite Hs. apply shape_repeat; apply Hdb.
    + intros r j Hr Hj. assert (r = 0)%nat as -> by lia. specialize (Hcl j Hj). destruct (Hcells 0%nat j ltac:(lia) Hj) as [_ Hpt].
      destruct rq as [i|i data].
      * rewrite andb_false_r in Hcl. split; assumption.
      * subst d. rewrite andb_true_r in Hcl. unfold put_cell. cbn [Nat.eqb andb]. destruct (j =? c)%nat; split; try assumption. apply Hrq.
Qed.

Lemma growth_nonneg sv : server_for cx s E sv -> 0 <= G.
Proof.
  clear - Hp Hf HS Ha. intros (Ecx & Hneg & Hb & Hl). destruct Ha as [Ha1 _]. unfold growth.
  pose proof (EPB_nonneg cx lg k Hp fft eps Hf s S E HS (srv_neg sv) Hneg Hb Hl a Ha1).
  pose proof (EPL_nonneg cx lg k Hp fft eps Hf s S E HS (srv_neg sv) Hneg Hb Hl a Ha1). lia.
Qed.
Lemma items_step D A rq c : items_hold nh dom D A -> (target rq < dom)%nat -> hash nh 0 (target rq) = Ok c ->
  items_hold nh dom (match rq with Read _ => D | Write _ data => put_cell D 0 c data end) (apply A rq).
Proof.
  intros HA Hi Hc. destruct rq as [i|i data]; [exact HA|]. cbn [target apply] in *. intros j c' Hj Hc'. unfold put_cell. cbn [Nat.eqb andb].
  destruct (nh_fields shuffle hc dom nh Hnew) as (H0 & _).
  destruct (Nat.eqb_spec c' c) as [->|Hne], (Nat.eqb_spec j i) as [->|Hji]; try reflexivity.
  - destruct (hash_inj shuffle shuffle_perm hc dom nh Hnew 0 j 0 i c H0 Hj H0 Hi Hc' Hc) as [_ ->]. contradiction.
  - congruence.
  - apply HA; assumption.
Qed.
Lemma session_ok pool (Hpool : spread pool (c_level cx)) rqs : forall j sv B D A dm t,
  server_for cx s E sv -> db_holds cx s k B (srv_data sv) 1 (2 ^ a) D -> items_hold nh dom D A -> E <= B ->
  Forall (request_ok cx k dom) rqs -> (forall i, plaintext n k (dm i 0%nat)) -> (forall i, tape_ok n E (t i)) ->
  2 * (B + Z.of_nat (length rqs) * G + answer_growth cx a S E eps) < 2 ^ (64 - k) ->
  exists ys sv' D', session pool fft cl nh dm t j sv rqs = Ok (ys, sv') /\
    Forall2 (fun y pt => decrypt_decode_rlwe cx s y = Ok pt) ys (answers A rqs) /\
    server_for cx s E sv' /\ db_holds cx s k (B + Z.of_nat (length rqs) * G) (srv_data sv') 1 (2 ^ a) D' /\
    items_hold nh dom D' (final A rqs).
Proof.
  induction rqs as [|rq rqs IH]; intros j sv B D A dm t Hsv Hdb HA HE Hrq Hdm Ht Hbud; cbn [session answers length final fold_left].
  - exists [], sv, D. replace (B + Z.of_nat 0 * G) with B by lia. split; [reflexivity|]. split; [constructor|]. split; [exact Hsv|]. split; assumption.
  - apply Forall_cons_iff in Hrq as [Hrq1 Hrq2].
    destruct (query_step pool Hpool sv B D rq (dm j) (t j) Hsv Hdb HE Hrq1 (Hdm j) (Ht j)) as (c & qy & y & sv1 & Eh & Hc & -> & E1 & Hy & Hsv1 & Hdb1).
    cbn [bind]. rewrite E1. cbn [bind]. pose proof (growth_nonneg sv Hsv) as HG.
    rewrite Nat2Z.inj_succ in *.
    destruct (IH (Datatypes.S j) sv1 (B + G) _ _ dm t Hsv1 Hdb1 (items_step D A rq c HA (proj1 Hrq1) Eh)) as (ys & sv2 & D2 & E2 & HF & Hsv2 & Hdb2 & HA2); try assumption;
    [clear - HG HE; lia|cbn [length] in Hbud; clear - HG Hbud; nia|].
    rewrite E2. cbn [bind]. exists (y :: ys), sv2, D2. split; [reflexivity|]. split; [constructor; [|exact HF]|].
    + destruct Hy as (Wy & Py & Ny). rewrite <- (HA _ _ (proj1 Hrq1) Eh).
      pose proof Hp as (_ & _ & _ & _ & _ & _ & _ & Hk & Hcd).
      eapply decrypt_decode_near; try eassumption; try reflexivity. nia.
    + split; [exact Hsv2|]. split; [|exact HA2]. replace (B + Z.succ (Z.of_nat (length rqs)) * G) with (B + G + Z.of_nat (length rqs) * G) by lia. exact Hdb2.
Qed.
End Hist.
