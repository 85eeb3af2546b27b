(** * The benchmark drivers: iterations, measured noise, one lemma per driver *)
From Coq Require Import Permutation.
From Verif Require Import MBase MUtils MCodec MPoly MRlwe MHash MTree MEncTree MParams MSched MOram MMain SpecOram SpecBatch PolyRing PfNear PfRlwe PfEnc3 PfEnc4 PfHash PfOram2 PfOram4 PfOram7 PfOram10 LRlwe LOram LMulti LBatch.
Local Open Scope Z_scope.

Lemma iterate_ok {A} (f : nat -> server -> res (A * server)) (Inv : nat -> server -> Prop) (R : nat -> A -> Prop) N :
  (forall j sv, (j < N)%nat -> Inv j sv -> exists a sv', f j sv = Ok (a, sv') /\ R j a /\ Inv (Datatypes.S j) sv') ->
  forall m j sv, (j + m = N)%nat -> Inv j sv ->
  exists out, iterate f (seq j m) sv = Ok out /\ length out = m /\ forall i a, nth_error out i = Some a -> R (j + i)%nat a.
Proof.
  intros Hf m. induction m as [|m IH]; intros j sv Hj HI; cbn [seq iterate].
  - exists []. split; [reflexivity|]. split; [reflexivity|]. intros i a H. destruct i; discriminate.
  - destruct (Hf j sv ltac:(lia) HI) as (a & sv' & -> & HR & HI'). cbn [bind].
    destruct (IH (Datatypes.S j) sv' ltac:(lia) HI') as (out & -> & L & Hout). cbn [bind].
    exists (a :: out). split; [reflexivity|]. split; [cbn; lia|]. intros [|i] b Hb; cbn in Hb.
    + injection Hb as <-. rewrite Nat.add_0_r. exact HR.
    + replace (j + Datatypes.S i)%nat with (Datatypes.S j + i)%nat by lia. apply Hout, Hb.
Qed.

Lemma poly_eqb_refl x : poly_eqb x x = true.
Proof. unfold poly_eqb. destruct (list_eq_dec Z.eq_dec x x); congruence. Qed.
Lemma assert_eq_pt_refl x : assert_eq_pt x x = Ok tt.
Proof. unfold assert_eq_pt. rewrite poly_eqb_refl. reflexivity. Qed.
Lemma assert_eq_pt_neq x y : x <> y -> assert_eq_pt x y = Panic PAssert.
Proof. intros H. unfold assert_eq_pt, poly_eqb. destruct (list_eq_dec Z.eq_dec x y); [contradiction|reflexivity]. Qed.

(** A ciphertext within the budget decrypts, and its measured noise is within its bound. *)
Lemma holds_measured cx lg k s B c pt : params_ok cx lg k -> holds cx s k B c pt -> 2 * B < 2 ^ (64 - k) ->
  decrypt_decode_rlwe cx s c = Ok pt /\ exists v, compute_noise_encoded cx s c pt = Ok v /\ 0 <= v <= B.
Proof.
  intros Hp Hh Hb. split; [eapply holds_decrypts; eassumption|]. pose proof (params_n cx lg k Hp) as Hn.
  destruct Hh as (Wc & Hpt & Hnear). pose proof Hp as (_ & _ & _ & _ & _ & _ & _ & Hk & Hcd).
  assert (2 ^ (64 - k) <= 2 ^ 63) as Hle by (apply Z.pow_le_mono_r; lia).
  assert (forall i, (i < c_n cx)%nat -> nrm (phase (c_n cx) s c i - scaled k pt i) <= B) as Hi by (intros i Hi; apply (Hnear i Hi)).
  destruct (noise_encoded_C29 cx s c k pt) as (v & Ev & V0 & _ & Vx); try assumption.
  - right. intros i Hi'. specialize (Hi i Hi'). lia.
  - exists v. split; [exact Ev|]. split; [exact V0|]. destruct Vx as [->|(i & Hi' & <-)]; [|apply Hi; exact Hi'].
    apply (near_nonneg (c_n cx) Hn (phase (c_n cx) s c) (scaled k pt) B); assumption.
Qed.

Lemma params_items {A} (f : nat -> A) dom i : (i < dom)%nat -> index (map f (seq 0 dom)) i = Ok (f i).
Proof.
  intros H. unfold index. rewrite nth_error_map, (nth_error_nth' _ 0%nat) by (rewrite seq_length; exact H). rewrite seq_nth by exact H. reflexivity.
Qed.

(** In a one-row database, hash number 0 of an item is the column of its copy 0. *)
Lemma items_of_copies shuffle nh hc dom cols D A : (forall l, Permutation (shuffle l) l) -> nh_new shuffle hc dom = Ok nh -> (hc * dom = cols)%nat ->
  copies_hold nh hc dom cols D A -> items_hold nh dom D A.
Proof.
  intros Hperm Hnew Hdim Hco i c Hi Ec. destruct (nh_fields shuffle hc dom nh Hnew) as (H0 & _). apply (Hco 0%nat i 0%nat c H0 Hi).
  destruct (tuple_range shuffle Hperm hc dom nh Hnew 0 i 1 cols H0 Hi) as (y & r & c' & Ey & Et & Hr & Hc & Hrc); [lia|].
  assert (r = 0)%nat as -> by lia. rewrite Ec in Ey. injection Ey as <-. cbn in Hrc. subst c'. exact Et.
Qed.

Section Drivers.
Variable cx : ctx.
Variables (lg : nat) (k : Z).
Variable fft : fftT.
Variable eps : Z.
Variables S E : Z.
Variable co : coins.
Hypothesis Hset : setting cx lg k fft eps (co_sk co) S.
Notation s := (co_sk co).
Notation n := (c_n cx).
Hypothesis Hdm : forall j i r, plaintext n k (co_dummy co j i r).
Hypothesis Ht : forall j i, tape_ok n E (co_tape co j i).
Variable a : nat.
Hypothesis Ha : (1 <= a <= 63)%nat.

Lemma single_iter_ok shuffle nh dom D f j sv B : (forall l, Permutation (shuffle l) l) -> nh_new shuffle 1 dom = Ok nh -> dom = (2 ^ a)%nat ->
  server_for cx s E sv -> db_holds cx s k B (srv_data sv) 1 (2 ^ a) D -> items_hold nh dom D f -> E <= B ->
  2 * (B + answer_growth cx a S E eps) < 2 ^ (64 - k) -> spread false (c_level cx) ->
  exists v sv', single_iter fft (client_new 1 (2 ^ a) cx s) nh (map f (seq 0 dom)) co j sv = Ok (v, sv') /\
    0 <= v <= B + answer_growth cx a S E eps /\ server_for cx s E sv' /\ db_holds cx s k (B + growth cx a S E eps) (srv_data sv') 1 (2 ^ a) D.
Proof.
  intros Hperm Hnew Hdom Hsv Hdb HA HE Hb Hpool. pose proof Hset as (Hp & Hf & Hs & HS).
  pose proof (Nat.pow_nonzero 2 a ltac:(lia)) as H2.
  assert (0 < dom)%nat as H0 by lia.
  destruct (query_step cx lg k Hp fft eps Hf s (binary_key_wf _ _ Hs) S E HS a Ha shuffle Hperm 1 dom nh Hnew ltac:(lia) false Hpool sv B D (Read 0)
     (co_dummy co j 0) (co_tape co j 0) Hsv Hdb HE (conj H0 I) (Hdm j 0 0)%nat (Ht j 0%nat)) as (c & qy & y & sv' & Eh & Hc & Eq & Er & Hy & Hsv' & Hdb').
  rewrite (HA 0%nat c H0 Eh) in Hy.
  destruct (holds_measured cx lg k s _ y _ Hp Hy Hb) as (Ed & v & Ev & Hv).
  exists v, sv'. split; [|auto]. unfold single_iter. cbn [ask] in Eq. rewrite Eq. cbn [bind]. rewrite Er. cbn [bind]. rewrite params_items by exact H0.
  change (cl_cx (client_new 1 (2 ^ a) cx s)) with cx. change (cl_sk (client_new 1 (2 ^ a) cx s)) with s. rewrite Ed. cbn [bind].
  rewrite assert_eq_pt_refl. cbn [bind]. rewrite Ev. reflexivity.
Qed.

(** The queries of [multi_query] are those of the requests [Read 1], .., [Read query_count]. *)
Lemma ask_all_reads cl nh dm t m : forall j, ask_all cl nh dm t j (map (fun i => Read (i + 1)) (seq j m)) =
  mapM (fun i => gen_read_query_one cl (i + 1) nh (dm i) (t i)) (seq j m).
Proof. induction m as [|m IH]; intros j; cbn [seq map ask_all mapM]; [reflexivity|]. cbn [ask]. rewrite IH. reflexivity. Qed.

Lemma final_reads qc D : final D (map (fun i => Read (i + 1)) qc) = D.
Proof. unfold final. induction qc as [|x qc IH]; [reflexivity|]. cbn [map fold_left apply]. exact IH. Qed.
Lemma db_final_reads nh qc D : db_final nh D (map (fun i => Read (i + 1)) qc) = D.
Proof. unfold db_final. induction qc as [|x qc IH]; [reflexivity|]. cbn [map fold_left]. exact IH. Qed.

Lemma multi_growth_nonneg sv Q : server_for cx s E sv -> 0 <= multi_growth cx a S E eps Q.
Proof.
  intros (Ecx & Hneg & Hb & Hl). pose proof Hset as (Hp & Hf & Hs & HS). destruct Ha as [Ha1 _]. unfold multi_growth.
  pose proof (EPB_nonneg cx lg k Hp fft eps Hf s S E HS (srv_neg sv) Hneg Hb Hl a Ha1) as H1.
  pose proof (EPL_nonneg cx lg k Hp fft eps Hf s S E HS (srv_neg sv) Hneg Hb Hl a Ha1) as H2.
  pose proof (EL_nonneg cx lg k Hp fft eps Hf s S E HS (srv_neg sv) Hneg Hb Hl a Ha1) as H3.
  assert (0 <= ep_bound (c_n cx) (c_base cx) (c_level cx) S 1 (Z.of_nat Q * sel_noise cx a S E eps) eps) as H4.
  { eapply epb_nonneg; try eassumption; [lia|]. apply Z.mul_nonneg_nonneg; [lia|exact H3]. }
  assert (0 <= Z.of_nat Q * ep_sel cx a S E eps) by nia. lia.
Qed.

Lemma multi_iter_ok shuffle nh dom D f qc j sv B : (forall l, Permutation (shuffle l) l) -> nh_new shuffle 1 dom = Ok nh -> dom = (2 ^ a)%nat ->
  (qc < dom)%nat -> server_for cx s E sv -> db_holds cx s k B (srv_data sv) 1 (2 ^ a) D -> items_hold nh dom D f -> E <= B ->
  2 * (B + answer_growth cx a S E eps) < 2 ^ (64 - k) -> spread false qc ->
  exists vs sv', multi_iter fft (client_new 1 (2 ^ a) cx s) nh (map f (seq 0 dom)) qc co j sv = Ok (vs, sv') /\
    (length vs = qc /\ Forall (fun v => 0 <= v <= B + answer_growth cx a S E eps) vs) /\
    server_for cx s E sv' /\ db_holds cx s k (B + multi_growth cx a S E eps qc) (srv_data sv') 1 (2 ^ a) D.
Proof.
  intros Hperm Hnew Hdom Hqc Hsv Hdb HA HE Hb Hpool. pose proof Hset as (Hp & Hf & Hs & HS).
  set (rqs := map (fun i => Read (i + 1)) (seq 0 qc)).
  assert (Forall (request_ok cx k dom) rqs) as Hrq.
  { apply Forall_forall. intros rq Hin. apply in_map_iff in Hin as (i & <- & Hin). apply in_seq in Hin. split; [cbn [target]; lia|exact I]. }
  assert (map target rqs = map (fun i => i + 1)%nat (seq 0 qc)) as Etg by (unfold rqs; rewrite map_map; reflexivity).
  assert (NoDup (map target rqs)) as Hnd.
  { rewrite Etg. apply FinFun.Injective_map_NoDup; [intros x y Hxy; lia|apply seq_NoDup]. }
  assert (length rqs = qc) as Lr by (unfold rqs; rewrite map_length, seq_length; reflexivity).
  assert (spread false (length rqs)) as Hpool' by (rewrite Lr; exact Hpool).
  destruct (multi_C44 cx lg k Hp fft eps Hf s (binary_key_wf _ _ Hs) S E HS a Ha shuffle Hperm 1 dom nh Hnew ltac:(lia) false sv B D f rqs (co_dummy co j) (co_tape co j)
     Hsv Hdb HA HE Hrq Hnd (fun i => Hdm j i 0%nat) (Ht j) Hb Hpool') as (qs & ys & sv' & Eq & Er & _ & Hsv' & Hdb' & _).
  destruct (multi_any cx lg k Hp fft eps Hf s (binary_key_wf _ _ Hs) S E HS a Ha shuffle Hperm 1 dom nh Hnew ltac:(lia) false sv B D f rqs (co_dummy co j) (co_tape co j)
     Hsv Hdb HA HE Hrq (fun i => Hdm j i 0%nat) (Ht j) Hpool') as (qs2 & ys2 & sv2 & Eq2 & Er2 & HF & _).
  rewrite Eq in Eq2. injection Eq2 as <-. rewrite Er in Er2. injection Er2 as <- <-.
  unfold rqs in Hdb'. rewrite db_final_reads in Hdb'. fold rqs in Hdb'. rewrite Lr in Hdb'.
  unfold multi_iter. unfold rqs in Eq. rewrite ask_all_reads in Eq. rewrite Eq. cbn [bind]. rewrite Er. cbn [bind].
  set (body := fun i => y <- index ys i ;; _).
  assert (forall i, In i (seq 0 qc) -> exists v, body i = Ok v /\ 0 <= v <= B + answer_growth cx a S E eps) as Hbody.
  { intros i Hi. apply in_seq in Hi. assert (i < length rqs)%nat as Hi' by lia.
    assert (exists y, nth_error ys i = Some y /\ holds cx s k (B + answer_growth cx a S E eps) y (f (i + 1)%nat)) as (y & Ey & Hy).
    { assert (nth_error rqs i = Some (Read (i + 1))) as Erq.
      { unfold rqs. rewrite nth_error_map, (nth_error_nth' _ 0%nat) by (rewrite seq_length; lia). rewrite seq_nth by lia. reflexivity. }
      clear - HF Erq. revert i Erq. generalize rqs as l, HF. intros l HF0 i. clear HF. intros Erq.
      change (f (i + 1)%nat) with (f (target (Read (i + 1)))). revert Erq. generalize (Read (i + 1)) as rq. intros rq Erq.
      revert i Erq. induction HF0 as [|x y l l' Hxy HF0 IH]; intros [|i] Erq; try discriminate.
      - cbn in Erq. injection Erq as ->. exists y. split; [reflexivity|exact Hxy].
      - apply (IH i Erq). }
    destruct (holds_measured cx lg k s _ y _ Hp Hy Hb) as (Ed & v & Ev & Hv). exists v. split; [|exact Hv].
    unfold body. unfold index at 1. rewrite Ey. cbn [bind].
    change (cl_cx (client_new 1 (2 ^ a) cx s)) with cx. change (cl_sk (client_new 1 (2 ^ a) cx s)) with s. rewrite Ed. cbn [bind]. rewrite Ev. cbn [bind].
    rewrite params_items by lia. cbn [bind]. rewrite assert_eq_pt_refl. reflexivity. }
  assert (forall l, (forall i, In i l -> exists v, body i = Ok v /\ 0 <= v <= B + answer_growth cx a S E eps) ->
    exists vs, mapM body l = Ok vs /\ length vs = length l /\ Forall (fun v => 0 <= v <= B + answer_growth cx a S E eps) vs) as HM.
  { induction l as [|i l IH]; intros Hl; cbn [mapM].
    - exists []. auto.
    - destruct (Hl i (or_introl eq_refl)) as (v & -> & Hv). cbn [bind]. destruct IH as (vs & -> & L & F); [intros; apply Hl; right; assumption|].
      cbn [bind]. exists (v :: vs). split; [reflexivity|]. split; [cbn; lia|]. constructor; assumption. }
  destruct (HM _ Hbody) as (vs & -> & L & F). cbn [bind]. rewrite seq_length in L.
  exists vs, sv'. auto.
Qed.

(** The check of [batch_query] is right for lists in which every member is its own position. *)
Definition own_position (is : list nat) : Prop := forall i, In i is -> nth_error is i = Some i.

Lemma batch_iter_ok shuffle nh rows dom D f is j sv B : (forall l, Permutation (shuffle l) l) -> nh_new shuffle 3 dom = Ok nh -> (rows * 2 ^ a = 3 * dom)%nat -> (0 < rows)%nat ->
  Forall (fun i => i < dom)%nat is -> own_position is ->
  server_for cx s E sv -> db_holds cx s k B (srv_data sv) rows (2 ^ a) D -> copies_hold nh 3 dom (2 ^ a) D f -> E <= B ->
  2 * (B + answer_growth cx a S E eps) < 2 ^ (64 - k) -> spread false rows -> spread false dom ->
  exists vs sv', batch_iter fft (client_new rows (2 ^ a) cx s) nh (map f (seq 0 dom)) is (2 ^ a) co j sv = Ok (vs, sv') /\
    (length vs = length (placed nh (2 ^ a) is) /\ Forall (fun v => 0 <= v <= B + answer_growth cx a S E eps) vs) /\
    server_for cx s E sv' /\ db_holds cx s k (B + batch_growth cx a 3 S E eps) (srv_data sv') rows (2 ^ a) D.
Proof.
  intros Hperm Hnew Hdim Hrows His Hown Hsv Hdb HA HE Hb Hpr Hpd. pose proof Hset as (Hp & Hf & Hs & HS).
  assert (brequest_ok cx k dom (BRead is)) as Hbr by (split; [exact His|exact I]).
  destruct (batch_step cx lg k Hp fft eps Hf s (binary_key_wf _ _ Hs) S E HS a Ha rows Hrows shuffle Hperm 3 dom nh Hnew Hdim false Hpr Hpd sv B D f (BRead is)
    (co_dummy co j 0) (co_tape co j 0) Hsv Hdb HA HE Hbr I (Hdm j 0)%nat (Ht j 0%nat))
    as (mp & qs & ys & sv' & D' & Em & Hmi & Eq & Er & Ly & Hy & Hsv' & Hdb' & _ & ->).
  cbn [batch_items ask_batch] in *. unfold batch_iter. rewrite Eq. cbn [bind]. rewrite Er. cbn [bind]. unfold batch_check. rewrite Em. cbn [bind].
  set (body := fun e : nat * (nat * nat) => _).
  assert (forall e, In e mp -> exists v, body e = Ok v /\ 0 <= v <= B + answer_growth cx a S E eps) as Hbody.
  { intros [r [c i]] Hin. destruct Hmi as [Hnd Hm]. destruct (Hm r c i Hin) as (Hi & h & Hh & Et). rewrite Forall_forall in His. pose proof (His i Hi) as Hid.
    destruct (tuple_range shuffle Hperm 3 dom nh Hnew h i rows (2 ^ a) Hh Hid Hdim) as (y0 & r2 & c2 & _ & Et2 & Hr & Hc & _). rewrite Et in Et2. injection Et2 as <- <-.
    destruct (nth_error ys r) as [y|] eqn:Ey; [|apply nth_error_None in Ey; lia].
    specialize (Hy r y Ey). unfold bslot in Hy. assert (hget mp r = Some (c, i)) as Eg by (apply hget_In; assumption). rewrite Eg in Hy. cbn [fst] in Hy.
    rewrite (HA h i r c Hh Hid Et) in Hy.
    destruct (holds_measured cx lg k s _ y _ Hp Hy Hb) as (Ed & v & Ev & Hv). exists v. split; [|exact Hv].
    unfold body. unfold index at 1. rewrite Ey. cbn [bind].
    change (cl_cx (client_new rows (2 ^ a) cx s)) with cx. change (cl_sk (client_new rows (2 ^ a) cx s)) with s. rewrite Ed. cbn [bind].
    unfold index at 1. rewrite (Hown i Hi). cbn [bind]. rewrite params_items by exact Hid. cbn [bind]. rewrite assert_eq_pt_refl. exact Ev. }
  assert (forall l, (forall i, In i l -> exists v, body i = Ok v /\ 0 <= v <= B + answer_growth cx a S E eps) ->
    exists vs, mapM body l = Ok vs /\ length vs = length l /\ Forall (fun v => 0 <= v <= B + answer_growth cx a S E eps) vs) as HM.
  { induction l as [|i l IH]; intros Hl; cbn [mapM].
    - exists []. auto.
    - destruct (Hl i (or_introl eq_refl)) as (v & -> & Hv). cbn [bind]. destruct IH as (vs & -> & L & F); [intros; apply Hl; right; assumption|].
      cbn [bind]. exists (v :: vs). split; [reflexivity|]. split; [cbn; lia|]. constructor; assumption. }
  destruct (HM _ Hbody) as (vs & -> & L & F). cbn [bind].
  exists vs, sv'. split; [reflexivity|]. split; [|auto]. split; [|exact F]. unfold placed. rewrite Em. exact L.
Qed.
End Drivers.
