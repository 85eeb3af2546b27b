(** * Statements about setup and single queries, in the form used by the theorem files *)
From Coq Require Import Setoid Morphisms Ring Permutation.
From Verif Require Import MBase MUtils MCodec MPoly MRlwe MHash MTree MEncTree MSched MOram SpecOram PolyRing PfPoly PfNear PfRlwe PfRlwe2 PfRlwe3
  PfRlwe5 PfCodec LRlwe LKeys PfEnc PfEnc2 PfEnc3 PfEnc4 LEnc PfHash PfSched PfOram1 PfOram2 PfOram3 PfOram4 PfOram5.
Local Open Scope Z_scope.

Lemma fin_choice {A} (R : nat -> A -> Prop) (a0 : A) N : (forall x, (x < N)%nat -> exists y, R x y) -> exists f, forall x, (x < N)%nat -> R x (f x).
Proof.
  induction N as [|N IH]; intros H; [exists (fun _ => a0); intros; lia|].
  destruct IH as (f & Hf); [intros; apply H; lia|]. destruct (H N ltac:(lia)) as (y & Hy).
  exists (fun x => if (x =? N)%nat then y else f x). intros x Hx. destruct (Nat.eqb_spec x N) as [->|]; [exact Hy|]. apply Hf. lia.
Qed.

Lemma cell_index cols r c : (c < cols)%nat -> ((r * cols + c) / cols = r /\ (r * cols + c) mod cols = c)%nat.
Proof.
  intros H. split; [symmetry; apply (Nat.div_unique _ _ _ c)|symmetry; apply (Nat.mod_unique _ _ r)]; lia.
Qed.

Section S40.
Variable cx : ctx.
Variables (lg : nat) (k : Z).
Hypothesis Hp : params_ok cx lg k.
Notation n := (c_n cx).
Variable s : poly.
Variable E : Z.
Hypothesis Hs : binary_key n s.
Variables (rows cols : nat).
Variable shuffle : list nat -> list nat.
Hypothesis shuffle_perm : forall l, Permutation (shuffle l) l.
Variables (hc dom : nat) (nh : nhash).
Hypothesis Hnew : nh_new shuffle hc dom = Ok nh.
Variable gp : nat -> poly.
Hypothesis Hgp : forall i, plaintext n k (gp i).
Variable t : tape.
Hypothesis Ht : tape_ok n E t.

Lemma setup_C40 : (rows * cols = dom * hc)%nat ->
  exists sv D, setup_random_oram rows cols nh cx s gp t = Ok (client_new rows cols cx s, sv, map (fun i => gp (i mod 128)%nat) (seq 0 dom)) /\
    server_for cx s E sv /\ db_holds cx s k E (srv_data sv) rows cols D /\
    copies_hold nh hc dom cols D (fun i => gp (i mod 128)%nat).
Proof.
  intros Hdim. pose proof (params_n cx lg k Hp) as Hn. pose proof Hp as (_ & _ & _ & _ & _ & Hdn & Hnb & Hk & Hc).
  destruct (nh_fields shuffle hc dom nh Hnew) as (H0 & Hh & Hdo & _).
  unfold setup_random_oram. rewrite Hdo, Hh, Hdim, Nat.eqb_refl. cbn [rassert bind].
  unfold gen_neg_sk. cbn [cl_cx cl_sk client_new].
  destruct (neg_gsw_encrypts n Hn cx s (split t 0) E eq_refl Hs Hnb Hdn) as (g & Eg & Gb & Gl & Ge); [apply tape_split; exact Ht|].
  rewrite Eg. cbn [bind].
  assert (rows * cols = hc * dom)%nat as Hdim' by lia.
  destruct (dummy_ok cx lg k Hp s E rows cols shuffle shuffle_perm hc dom nh Hnew Hdim' gp Hgp (split t 1)) as (db & Edb & F); [apply tape_split; exact Ht|].
  rewrite Edb. cbn [bind]. destruct F as [Hsh F].
  assert (forall y, (y < rows * cols)%nat -> exists pt, plaintext n k pt /\ cnear cx s db (y / cols) (y mod cols) (scaled k pt) E /\
            forall h i, (h < hc)%nat -> (i < dom)%nat -> hash_to_tuple nh h i cols = Ok ((y / cols)%nat, (y mod cols)%nat) -> pt = gp (i mod 128)%nat) as Hex.
  { intros y Hy. assert (0 < cols)%nat as Hc0 by lia.
    destruct (tuple_surj shuffle shuffle_perm hc dom nh Hnew rows cols (y / cols) (y mod cols) Hdim') as (h & i & Hlt & Hi & Et).
    - apply Nat.div_lt_upper_bound; lia.
    - apply Nat.mod_upper_bound; lia.
    - exists (gp (i mod 128)%nat). split; [apply Hgp|]. split; [exact (F h i _ _ Hlt Hi Et I)|].
      intros h' i' Hlt' Hi' Et'. destruct (tuple_inj shuffle shuffle_perm hc dom nh Hnew h i h' i' cols _ _ Hlt Hi Hlt' Hi' Hc0 Et Et') as [_ ->]. reflexivity. }
  apply (fin_choice _ (@nil Z)) in Hex as (f & Hf').
  exists (server_new db g cx), (fun r c => f (r * cols + c)%nat). split; [reflexivity|]. split; [|split].
  - unfold server_for. cbn [server_new srv_cx srv_neg]. auto.
  - apply db_of_cells; [exact Hsh|]. intros r c Hr Hcc. destruct (Hf' (r * cols + c)%nat) as (P1 & P2 & _); [nia|].
    destruct (cell_index cols r c Hcc) as [Q1 Q2]. rewrite Q1, Q2 in P2. split; assumption.
  - intros h i r c Hlt Hi Et. destruct (tuple_in rows cols shuffle shuffle_perm hc dom nh Hnew Hdim' h i Hlt Hi) as (r' & c' & Et' & Hr & Hcc).
    rewrite Et in Et'. injection Et' as <- <-. destruct (Hf' (r * cols + c)%nat) as (_ & _ & P3); [nia|]. apply (P3 h i Hlt Hi).
    destruct (cell_index cols r c Hcc) as [-> ->]. exact Et.
Qed.
Lemma setup_mismatch_C40 : (rows * cols <> dom * hc)%nat -> setup_random_oram rows cols nh cx s gp t = Panic PAssert.
Proof.
  intros Hne. destruct (nh_fields shuffle hc dom nh Hnew) as (H0 & Hh & Hdo & _). unfold setup_random_oram. rewrite Hdo, Hh.
  apply Nat.eqb_neq in Hne. rewrite Hne. reflexivity.
Qed.
End S40.

(** What a cell holds is what it decrypts to. *)
Lemma holds_decrypts cx lg k s B c pt : params_ok cx lg k -> holds cx s k B c pt -> 2 * B < 2 ^ (64 - k) -> decrypt_decode_rlwe cx s c = Ok pt.
Proof.
  intros Hp (W & Pt & N) HB. pose proof Hp as (_ & _ & _ & _ & _ & _ & _ & Hk & Hcd). pose proof (params_n cx lg k Hp) as Hn.
  eapply decrypt_decode_near; try eassumption; reflexivity.
Qed.
Lemma db_decrypts cx lg k s B db rows cols D : params_ok cx lg k -> db_holds cx s k B db rows cols D -> 2 * B < 2 ^ (64 - k) ->
  forall r c row v, nth_error db r = Some row -> nth_error row c = Some v -> decrypt_decode_rlwe cx s v = Ok (D r c).
Proof. intros Hp (_ & _ & H) HB r c row v Er Ev. eapply holds_decrypts; try eassumption. eapply H; eassumption. Qed.
Lemma answer_nonneg cx lg k fft eps s S E a sv : params_ok cx lg k -> fft_for cx fft eps -> l1 (c_n cx) (tof s) S -> (1 <= a <= 63)%nat ->
  server_for cx s E sv -> 0 <= answer_growth cx a S E eps.
Proof.
  intros Hp Hf HS Ha (Ecx & Hneg & Hb & Hl). destruct Ha as [Ha1 _]. unfold answer_growth.
  pose proof (EPL_nonneg cx lg k Hp fft eps Hf s S E HS (srv_neg sv) Hneg Hb Hl a Ha1). pose proof (Z.pow_pos_nonneg 2 (Z.of_nat a) ltac:(lia) ltac:(lia)). nia.
Qed.
Lemma nth_map_seq0 {A} (f : nat -> A) d i len : (i < len)%nat -> nth i (map f (seq 0 len)) d = f i.
Proof. intros H. rewrite (nth_indep _ d (f 0%nat)) by (rewrite map_length, seq_length; exact H). rewrite map_nth, seq_nth by exact H. reflexivity. Qed.
