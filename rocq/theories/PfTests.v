(** * The unit tests pass: lemmas per test, for any parameters with enough room. *)
From Verif Require Import MBase MUtils MCodec MPoly MRlwe MLwe MTree MEncTree MCtx MMain MTests.
From Verif Require Import SpecRing SpecLwe SpecEnc SpecOram.
From Verif Require Import PolyRing PfCodec PfPoly PfNear PfRlwe PfRlwe2 PfRlwe3 PfRlwe5 PfEnc PfEnc2 PfEnc3 PfEnc4 LRlwe LKeys LOram PRlwe PKeys PEnc PLwe PDefault PBench.
Local Open Scope Z_scope.

Lemma assert_eq_refl x : assert_eq_pt x x = Ok tt.
Proof. unfold assert_eq_pt, poly_eqb. destruct (list_eq_dec Z.eq_dec x x); [reflexivity|contradiction]. Qed.
Lemma assert_eq_z_refl x : assert_eq_z x x = Ok tt.
Proof. unfold assert_eq_z. rewrite Z.eqb_refl. reflexivity. Qed.
Lemma for_each_ok is body : (forall i, In i is -> body i = Ok tt) -> for_each is body = Ok tt.
Proof.
  unfold for_each. induction is as [|i is IH]; intros H; cbn [foldM]; [reflexivity|]. rewrite (H i) by (left; reflexivity). cbn [bind]. apply IH. intros j Hj. apply H. right. exact Hj.
Qed.
Lemma index_0 {A} (l : list A) d : (0 < length l)%nat -> index l 0 = Ok (nth 0 l d).
Proof. destruct l; cbn; [lia|reflexivity]. Qed.

(** The monomial with coefficient 1 at [m]. *)
Lemma set_zero_ok n m x : (m < n)%nat -> set_index (poly_zero n) m x = Ok (upd (poly_zero n) m x).
Proof. intros H. unfold set_index. unfold poly_zero at 1. rewrite repeat_length. destruct (Nat.ltb_spec m n); [reflexivity|lia]. Qed.
Lemma nth_upd_zero n m x i : (m < n)%nat -> (i < n)%nat -> nth i (upd (poly_zero n) m x) 0 = if (i =? m)%nat then x else 0.
Proof.
  intros Hm Hi. rewrite nth_upd by (unfold poly_zero; rewrite repeat_length; lia). rewrite Nat.eqb_sym. destruct (Nat.eqb_spec i m); [reflexivity|]. unfold poly_zero. apply nth_repeat.
Qed.
Lemma upd_zero_len n m x : length (upd (poly_zero n) m x) = n.
Proof. rewrite upd_length. apply repeat_length. Qed.
Lemma upd_zero_all n m x (Q : Z -> Prop) : (m < n)%nat -> Q 0 -> Q x -> Forall Q (upd (poly_zero n) m x).
Proof.
  intros Hm H0 Hx. apply Forall_forall. intros y Hy. apply (In_nth _ _ 0) in Hy as (i & Hi & <-). rewrite upd_zero_len in Hi. rewrite nth_upd_zero by assumption.
  destruct (i =? m)%nat; assumption.
Qed.

Section Tests.
Variables (cx : ctx) (lg : nat) (k : Z).
Hypothesis Hp : params_ok cx lg k.
Notation n := (c_n cx).

Lemma two_k : 1 < 2 ^ k.
Proof. destruct Hp as (_ & _ & _ & _ & _ & _ & _ & Hk & _). apply Z.pow_gt_1; lia. Qed.
Lemma unit_plaintext m : (m < n)%nat -> plaintext n k (upd (poly_zero n) m 1).
Proof. intros Hm. pose proof two_k. split; [apply upd_zero_len|]. apply upd_zero_all; [exact Hm|lia|lia]. Qed.
Lemma unit_ternary m : (m < n)%nat -> ternary_plaintext n (upd (poly_zero n) m 1).
Proof. intros Hm. split; [apply upd_zero_len|]. apply upd_zero_all; auto. Qed.
Lemma gen_unit_ok : gen_unit_pt cx = Ok (upd (poly_zero n) 0 1).
Proof. apply set_zero_ok. apply (params_n cx lg k Hp). Qed.
Lemma zero_plaintext : plaintext n k (poly_zero n).
Proof. pose proof two_k. split; [apply repeat_length|]. apply Forall_forall. intros x Hx. apply repeat_spec in Hx. subst. lia. Qed.
Lemma scaled_zero : peq n (scaled k (poly_zero n)) pzero.
Proof. intros i _. unfold scaled, poly_zero, pzero. rewrite nth_repeat. reflexivity. Qed.
Lemma scaled_unit : peq n (scaled k (upd (poly_zero n) 0 1)) (pcst (2 ^ (64 - k))).
Proof.
  pose proof (params_n cx lg k Hp) as Hn. intros i Hi. unfold scaled. rewrite nth_upd_zero by assumption. destruct i; cbn [Nat.eqb pcst]; apply eq_eqm; lia.
Qed.
Lemma binary_plaintext pt : binary_key n pt -> plaintext n k pt.
Proof. pose proof two_k. intros [L F]. split; [exact L|]. eapply Forall_impl; [|exact F]. cbv beta. intros a [-> | ->]; lia. Qed.
Lemma fft_base fft eps : fft_for cx fft eps -> fft_ok n fft (2 ^ (Z.of_nat (c_base cx) - 1)) (2 * c_level cx) eps.
Proof. intros Hf. eapply fft_sub; [exact Hf| |lia]. exists (c_base cx). split; [lia|reflexivity]. Qed.
Lemma fft_negs fft eps : fft_for cx fft eps -> fft_ok n fft (2 ^ (Z.of_nat (c_base cx) - 1)) (2 * c_negs_level cx) eps.
Proof. intros Hf. eapply fft_sub; [exact Hf| |lia]. exists (c_base cx). split; [lia|reflexivity]. Qed.
Lemma fft_ks fft eps : fft_for cx fft eps -> fft_ok n fft (2 ^ (Z.of_nat (c_ks_base cx) - 1)) (c_ks_level cx + 1) eps.
Proof. intros Hf. eapply fft_sub; [exact Hf| |lia]. exists (c_ks_base cx). split; [lia|reflexivity]. Qed.
Lemma fft_one fft eps : fft_for cx fft eps -> fft_ok n fft 1 1 eps.
Proof.
  intros Hf. destruct Hp as (_ & _ & _ & Hdec & _). eapply fft_ok_weaken; [| |exact Hf]; [|lia]. change 1 with (2 ^ 0). apply Z.pow_le_mono_r; [lia|]. destruct Hdec. lia.
Qed.

(** Decryption of a ciphertext known at one coefficient only. *)
Lemma decode_constant s c x B : wfc n c -> 0 <= x < 2 ^ k -> nrm (phase n s c 0%nat - x * 2 ^ (64 - k)) <= B -> 2 * B < 2 ^ (64 - k) ->
  exists out, decrypt_decode_rlwe cx s c = Ok out /\ index out 0 = Ok x.
Proof.
  intros W Hx HN HB. pose proof (params_n cx lg k Hp) as Hn. pose proof Hp as (_ & _ & _ & _ & _ & _ & _ & Hk & Hcd).
  pose proof (decrypt_wf n s c W) as Wd. pose proof (decrypt_phase n s c W 0%nat Hn) as Ph. unfold decrypt_decode_rlwe.
  rewrite (codec_new_inv _ k _ Hk Hcd). revert Wd Ph. generalize (decrypt_rlwe n s c). intros p Wd Ph.
  assert (poly_decode (c_mode cx) {| cd_base_log := k; cd_delta := 2 ^ (64 - k) |} p = Ok (map (fun x => ((x + 2 ^ (63 - k)) / 2 ^ (64 - k)) mod 2 ^ k) p)) as ->.
  { apply mapM_ok. intros y Hy. apply decode_ok; [exact Hk|]. destruct Wd as [_ F]. rewrite Forall_forall in F. apply F, Hy. }
  eexists. split; [reflexivity|]. rewrite (index_0 _ 0) by (rewrite map_length, (wfp_len _ _ Wd); exact Hn). f_equal.
  rewrite (nth_map_in _ _ _ 0) by (rewrite (wfp_len _ _ Wd); exact Hn). pose proof (wfp_word n p 0 Wd) as Hw.
  destruct (nrm_rep (phase n s c 0%nat - x * 2 ^ (64 - k))) as (z & Hz & Az). rewrite Az in HN.
  assert (2 ^ (64 - k) = 2 * 2 ^ (63 - k)) as D by (replace (64 - k) with (1 + (63 - k)) by lia; rewrite pow2_split by lia; reflexivity).
  pose proof (decode_window (c_mode cx) k x z (nth 0 p 0) Hk Hw) as G. rewrite decode_ok in G by assumption.
  rewrite (Z.mod_small x) in G by exact Hx. assert (Ok ((nth 0 p 0 + 2 ^ (63 - k)) / 2 ^ (64 - k) mod 2 ^ k) = Ok x) as G'; [|injection G'; auto].
  apply G; [|lia]. change (eqm (nth 0 p 0) (x * 2 ^ (64 - k) + z)). rewrite <- Hz. unfold tof in Ph. rewrite Ph. apply eq_eqm. ring.
Qed.

(** ** Encryption *)
Lemma test_binary_enc_ok s pt d E : plaintext n k pt -> draw_ok n E d -> 2 * E < 2 ^ (64 - k) -> test_binary_enc cx s pt d = Ok tt.
Proof.
  intros Hpt Hd HE. destruct (encode_fresh cx lg k Hp s E pt d Hpt Hd) as (c & Ec & W & N). unfold test_binary_enc. rewrite Ec. cbn [bind].
  rewrite (holds_decrypts cx lg k s E c pt Hp); [|split; [exact W|split; [exact Hpt|exact N]]|exact HE]. cbn [bind]. apply assert_eq_refl.
Qed.
Lemma test_ternary_enc_ok s pt d E : ternary_plaintext n pt -> draw_ok n E d -> E <= ternary_window -> test_ternary_enc cx s pt d = Ok tt.
Proof.
  intros Hpt Hd HE. destruct (ternary_encrypt_near cx lg k Hp s pt d E Hpt Hd) as (c & Ec & W & N). unfold test_ternary_enc. rewrite Ec. cbn [bind].
  rewrite (ternary_decrypt_near cx lg k Hp s c pt E W Hpt N HE). apply assert_eq_refl.
Qed.

(** ** Key switching *)
Lemma test_keyswitching_ok fft eps before after ms tk d Sb Sa E :
  fft_for cx fft eps -> binary_key n before -> l1 n (tof before) Sb -> l1 n (tof after) Sa -> ternary_plaintext n ms -> tape_ok n E tk -> draw_ok n E d -> E <= ternary_window ->
  (ks_bound n (c_ks_base cx) (c_ks_level cx) Sb Sa E (Z.of_nat (c_ks_level cx) * eps) + E <= ternary_window -> test_keyswitching fft cx before after ms tk d = Ok tt) /\
  (ks_bound n (c_ks_base cx) (c_ks_level cx) Sb Sa E eps + E <= ternary_window -> test_keyswitching_fourier fft cx before after ms tk d = Ok tt).
Proof.
  intros Hf Hs HSb HSa Hm Ht Hd HE. pose proof (params_n cx lg k Hp) as Hn. pose proof Hp as (_ & _ & _ & _ & Hdec & _).
  destruct (ternary_encrypt_near cx lg k Hp before ms d E Hm Hd) as (ct & Ect & Wct & Nct).
  pose proof (ternary_decrypt_near cx lg k Hp before ct ms E Wct Hm Nct HE) as D1.
  destruct (keyswitch_C20 n fft eps (c_ks_base cx) (c_ks_level cx) before after tk E ct Sb Sa Hn) as [(c & Ec & W & N) (f & Ef & Wf & Nf)]; auto.
  - apply binary_key_wf, Hs.
  - apply fft_ks, Hf.
  - split; intros HB.
    + unfold test_keyswitching. rewrite Ect. cbv zeta. cbn [bind]. rewrite Ec. cbn [bind]. rewrite D1.
      rewrite (ternary_decrypt_near cx lg k Hp after c ms _ W Hm (near_trans n Hn _ _ _ _ _ N Nct) HB), assert_eq_refl. reflexivity.
    + unfold test_keyswitching_fourier. rewrite Ect. cbv zeta. cbn [bind]. rewrite Ef. cbn [bind]. rewrite D1.
      rewrite (ternary_decrypt_near cx lg k Hp after _ ms _ Wf Hm (near_trans n Hn _ _ _ _ _ Nf Nct) HB), assert_eq_refl. reflexivity.
Qed.
Lemma test_keyswitching_gsw_ok fft eps before after ms tk d Sb Sa E :
  c_ks_base cx = c_base cx -> (c_ks_level cx <= Nat.max (c_level cx) (c_negs_level cx))%nat ->
  fft_for cx fft eps -> binary_key n before -> l1 n (tof before) Sb -> l1 n (tof after) Sa -> ternary_plaintext n ms -> tape_ok n E tk -> draw_ok n E d ->
  Z.of_nat (c_ks_level cx) * (2 * (Z.of_nat n * 2 ^ (Z.of_nat (c_ks_base cx) - 1) * E)) + (1 + Sb) * 2 ^ (63 - Z.of_nat (c_ks_base cx * c_ks_level cx)) + (1 + Sa) * eps + E <= ternary_window ->
  E <= ternary_window -> test_keyswitching_gsw fft cx before after ms tk d = Ok tt.
Proof.
  intros Hbb Hll Hf Hs HSb HSa Hm Ht Hd HB HE. pose proof (params_n cx lg k Hp) as Hn. pose proof Hp as (_ & _ & _ & _ & Hdec & _).
  destruct (ternary_encrypt_near cx lg k Hp before ms d E Hm Hd) as (ct & Ect & Wct & Nct).
  pose proof (ternary_decrypt_near cx lg k Hp before ct ms E Wct Hm Nct HE) as D1.
  assert (fft_ok n fft (2 ^ (Z.of_nat (c_ks_base cx) - 1)) (2 * c_ks_level cx) eps) as Hfe.
  { eapply fft_sub; [exact Hf| |lia]. exists (c_ks_base cx). split; [lia|reflexivity]. }
  destruct (rgsw_ks_C25 n fft eps (c_ks_base cx) (c_ks_level cx) before after tk E (rlwe_allocate n) ct Sb Sa Hn (binary_key_wf n before Hs) Hdec Ht Hfe (wfc_allocate _) Wct HSb HSa) as (g & Eg & W & N).
  unfold test_keyswitching_gsw. cbv zeta. rewrite Eg. cbn [bind]. rewrite Ect. cbn [bind]. rewrite D1.
  erewrite (ternary_decrypt_near cx lg k Hp after _ ms _ W Hm); [rewrite assert_eq_refl; reflexivity| |exact HB].
  eapply near_trans; [exact Hn|exact N|]. eapply near_eq_l; [|exact Nct]. intros i Hi. unfold padd. pose proof (phase_allocate n Hn after i Hi) as Q. rewrite Q. apply eq_eqm. unfold pzero. lia.
Qed.

(** ** Substitution.  The encoding of a symbol is a third of the circle times its value, up to 1024. *)
Definition third : Z := 6148914691236516864.
Lemma enc_third x : x = 0 \/ x = 1 \/ x = 2 ^ 64 - 1 -> nrm (ternary_enc_val x - third * x) <= 1024.
Proof. intros [-> | [-> | ->]]; vm_compute; congruence. Qed.
Lemma near_third pt : ternary_plaintext n pt -> near n (tof (map ternary_enc_val pt)) (fun i => third * tof pt i) 1024.
Proof.
  intros [L F] i Hi. unfold psub, tof. rewrite (nth_map_in _ _ _ 0) by (rewrite L; exact Hi). apply enc_third. rewrite Forall_forall in F. apply F, nth_In. rewrite L. exact Hi.
Qed.
Lemma ternary_small r : wfp n r -> bd n (tof r) 1 -> ternary_plaintext n r.
Proof.
  intros [L F] B. split; [exact L|]. apply Forall_forall. intros x Hx. rewrite Forall_forall in F. pose proof (F x Hx) as Hw.
  apply (In_nth _ _ 0) in Hx as (i & Hi & <-). rewrite L in Hi. specialize (B i Hi). unfold tof, nrm in B. unfold is_word in Hw. rewrite Z.mod_small in B by exact Hw.
  unfold q in *. change (2 ^ 64) with 18446744073709551616 in *. lia.
Qed.
Lemma ternary_bd pt : ternary_plaintext n pt -> wfp n pt /\ bd n (tof pt) 1.
Proof.
  intros [L F]. split.
  - split; [exact L|]. eapply Forall_impl; [|exact F]. cbv beta. intros a [-> | [-> | ->]]; unfold is_word; vm_compute; split; congruence.
  - intros i Hi. unfold tof. rewrite Forall_forall in F. assert (In (nth i pt 0) pt) as Hin by (apply nth_In; rewrite L; exact Hi). destruct (F _ Hin) as [-> | [-> | ->]]; vm_compute; congruence.
Qed.
Lemma eval_x_k_ternary kk pt : Nat.odd kk = true -> ternary_plaintext n pt ->
  exists r, eval_x_k pt kk = Ok r /\ ternary_plaintext n r /\ near n (psubst n kk (tof (map ternary_enc_val pt))) (tof (map ternary_enc_val r)) 2048.
Proof.
  intros Ho Hpt. pose proof (params_n cx lg k Hp) as Hn. pose proof Hp as (En & _). destruct (ternary_bd pt Hpt) as [Wp Bp].
  destruct (eval_x_k_ok lg n kk pt En Wp Ho) as (r & Er & Wr & Pr). exists r. split; [exact Er|].
  assert (ternary_plaintext n r) as Hr.
  { apply ternary_small; [exact Wr|]. apply near_0_bd; [exact Hn|]. eapply near_eq_l; [exact Pr|].
    eapply near_trans'; [exact Hn|apply (near_psubst n Hn lg En); [exact Ho|apply near_0_bd; [exact Hn|exact Bp]]|apply near_refl|].
    - intros i _. unfold psubst, pzero. apply eq_eqm. transitivity (sumf n (fun _ => 0)); [apply sumf_ext; intros; lia|]. generalize n. intros m. induction m; cbn; lia.
    - lia. }
  split; [exact Hr|]. eapply near_trans'; [exact Hn|apply (near_psubst n Hn lg En); [exact Ho|apply near_third, Hpt]| |].
  - apply near_sym; [exact Hn|]. eapply near_trans'; [exact Hn|apply near_third, Hr|apply near_refl|].
    + intros i Hi. pose proof (Pr i Hi) as Q. rewrite Q. unfold psubst. rewrite <- sumf_scal. apply eq_eqm. apply sumf_ext. intros j _. ring.
    + instantiate (1 := 1024). lia.
  - lia.
Qed.
Lemma odd_n1 : Nat.odd (n + 1) = true.
Proof.
  destruct Hp as (En & Hlg & _). rewrite En. destruct lg as [|l]; [lia|]. replace (2 ^ Datatypes.S l + 1)%nat with (1 + 2 * 2 ^ l)%nat by (cbn [Nat.pow]; lia). rewrite Nat.odd_add_mul_2. reflexivity.
Qed.
Lemma test_subs_ok fft eps s ms tk d S E :
  fft_for cx fft eps -> binary_key n s -> l1 n (tof s) S -> ternary_plaintext n ms -> tape_ok n E tk -> draw_ok n E d ->
  (ks_bound n (c_ks_base cx) (c_ks_level cx) S S E (Z.of_nat (c_ks_level cx) * eps) + E + 2048 <= ternary_window -> test_subs fft cx s ms tk d = Ok tt) /\
  (ks_bound n (c_ks_base cx) (c_ks_level cx) S S E eps + E + 2048 <= ternary_window -> test_subs_fourier fft cx s ms tk d = Ok tt).
Proof.
  intros Hf Hs HS Hm Ht Hd. pose proof (params_n cx lg k Hp) as Hn. pose proof Hp as (En & _ & _ & _ & Hdec & _).
  destruct (ternary_encrypt_near cx lg k Hp s ms d E Hm Hd) as (ct & Ect & Wct & Nct).
  destruct (subs_C21 lg n fft eps (c_ks_base cx) (c_ks_level cx) s (n + 1) tk E ct S En odd_n1 (binary_key_wf n s Hs) Hdec Ht (fft_ks fft eps Hf) Wct HS)
    as (key & Ek & (c & Ec & W & N) & (f & Ef & Wf & Nf)).
  destruct (eval_x_k_ternary (n + 1) ms odd_n1 Hm) as (r & Er & Hr & Nr).
  assert (near n (psubst n (n + 1) (phase n s ct)) (tof (map ternary_enc_val r)) (E + 2048)) as G.
  { eapply near_trans; [exact Hn|apply (near_psubst n Hn lg En); [exact odd_n1|exact Nct]|exact Nr]. }
  split; intros HB.
  - unfold test_subs. cbv zeta. rewrite Ek. cbn [bind]. rewrite Ect. cbn [bind]. rewrite Ec. cbn [bind]. rewrite Er. cbn [bind].
    rewrite (ternary_decrypt_near cx lg k Hp s c r _ W Hr (near_trans n Hn _ _ _ _ _ N G)) by lia. apply assert_eq_refl.
  - unfold test_subs_fourier. cbv zeta. rewrite Ek. cbn [bind]. rewrite Ect. cbn [bind]. rewrite Ef. cbn [bind]. rewrite Er. cbn [bind].
    rewrite (ternary_decrypt_near cx lg k Hp s _ r _ Wf Hr (near_trans n Hn _ _ _ _ _ Nf G)) by lia. apply assert_eq_refl.
Qed.

(** ** The trace *)
Lemma test_trace1_ok fft eps s msg tk d S E :
  fft_for cx fft eps -> binary_key n s -> l1 n (tof s) S -> plaintext n k msg -> tape_ok n E tk -> draw_ok n E d -> k + Z.of_nat lg <= 64 ->
  2 * ((Z.of_nat n - 1) * ks_bound n (c_ks_base cx) (c_ks_level cx) S S E (Z.of_nat (c_ks_level cx) * eps) + Z.of_nat n * E) < 2 ^ (64 - k) ->
  test_trace1 fft cx s msg tk d = Ok tt.
Proof.
  intros Hf Hs HS Hpt Htk Hd Hkl HB. pose proof (params_n cx lg k Hp) as Hn.
  pose proof Hp as (En & Hlg & Hw & Hdec & Hdk & Hdn & Hnb & Hk & Hcd).
  destruct (encode_scaled n _ _ _ msg Hk Hcd Hpt) as (e & Ee & We & Te).
  set (e' := map (fun coeff => coeff / Z.of_nat n) e).
  assert (length e' = n) as Le by (unfold e'; rewrite map_length; apply (wfp_len _ _ We)).
  destruct (trace_C22 lg cx fft eps s tk E (encrypt_rlwe n s e' d) S) as (m & Em & _ & (c & Ec & W & N) & _); auto.
  - apply binary_key_wf, Hs.
  - apply fft_ks, Hf.
  - eapply wfc_encrypt; eassumption.
  - unfold test_trace1. rewrite Ee. cbn [bind]. cbv zeta. rewrite Em. cbn [bind]. fold e'. rewrite Ec. cbn [bind].
    destruct Hpt as [Lpt Fpt]. assert (0 <= nth 0 msg 0 < 2 ^ k) as H0 by (rewrite Forall_forall in Fpt; apply Fpt, nth_In; lia).
    assert (decrypt_decode_rlwe cx s c = Ok (upd (poly_zero n) 0 (nth 0 msg 0))) as ->.
    { eapply holds_decrypts; [exact Hp| |exact HB]. split; [exact W|].
      assert (forall x, 0 <= x -> Z.of_nat n * (x * 2 ^ (64 - k) / Z.of_nat n) = x * 2 ^ (64 - k)) as Hx.
      { intros x _. rewrite En, Nat2Z.inj_pow. change (Z.of_nat 2) with 2. replace (64 - k) with (Z.of_nat lg + (64 - k - Z.of_nat lg)) by lia.
        rewrite Z.pow_add_r by lia. replace (x * (2 ^ Z.of_nat lg * 2 ^ (64 - k - Z.of_nat lg))) with (x * 2 ^ (64 - k - Z.of_nat lg) * 2 ^ Z.of_nat lg) by ring.
        rewrite Z.div_mul by (apply Z.pow_nonzero; lia). ring. }
      split; [split; [apply upd_zero_len|apply upd_zero_all; [exact Hn|lia|exact H0]]|].
      eapply near_trans; [exact Hn|exact N|]. intros i Hi. unfold psub, pcst, scaled. rewrite nth_upd_zero by assumption.
      destruct i as [|i].
      * cbn [Nat.eqb]. pose proof (near_encrypt n Hn s e' E d Le Hd 0%nat Hn) as Nr. unfold psub in Nr.
        assert (tof e' 0%nat = nth 0 msg 0 * 2 ^ (64 - k) / Z.of_nat n) as T0.
        { unfold tof, e'. rewrite (nth_map_in _ _ _ 0) by (rewrite (wfp_len _ _ We); exact Hn). specialize (Te 0%nat). unfold tof, scaled in Te. rewrite Te. reflexivity. }
        rewrite T0 in Nr. rewrite <- (Hx (nth 0 msg 0)) by lia. rewrite <- Z.mul_sub_distr_l.
        etransitivity; [apply nrm_mul|]. pose proof (nrm_abs (Z.of_nat n)). pose proof (nrm_nonneg (Z.of_nat n)).
        apply Z.mul_le_mono_nonneg; [assumption|lia|apply nrm_nonneg|exact Nr].
      * cbn [Nat.eqb]. replace (0 - 0 * 2 ^ (64 - k)) with 0 by lia. change (nrm 0) with 0.
        apply Z.mul_nonneg_nonneg; [lia|]. eapply near_nonneg; [exact Hn|]. apply (near_encrypt n Hn s e' E d Le Hd). }
    cbn [bind]. rewrite (index_0 msg 0) by lia. cbn [bind]. rewrite set_zero_ok by exact Hn. cbn [bind]. apply assert_eq_refl.
Qed.

(** ** RGSW encryption and external product *)
Lemma pmul_scaled pt : peq n (pmul n (tof pt) (pcst (2 ^ (64 - k)))) (scaled k pt).
Proof.
  pose proof (params_n cx lg k Hp) as Hn. intros i Hi. transitivity (pmul n (pcst (2 ^ (64 - k))) (tof pt) i); [apply (pmul_comm n); assumption|].
  rewrite (pmul_pcst_exact n Hn) by exact Hi. unfold tof, scaled. apply eq_eqm. ring.
Qed.
Lemma pmul_unit_bit b f : (0 < n)%nat -> peq n (pmul n (pcst b) f) (fun i => b * f i).
Proof. intros Hn i Hi. rewrite (pmul_pcst_exact n Hn) by exact Hi. reflexivity. Qed.
Lemma phase_alloc_add s f : peq n (padd (phase n s (rlwe_allocate n)) f) f.
Proof.
  pose proof (params_n cx lg k Hp) as Hn. intros i Hi. unfold padd. pose proof (phase_allocate n Hn s i Hi) as Q. rewrite Q. apply eq_eqm. unfold pzero. lia.
Qed.
Lemma test_encrypt_rgsw_ok fft eps s pt tg d S E :
  fft_for cx fft eps -> binary_key n s -> l1 n (tof s) S -> binary_key n pt -> tape_ok n E tg -> draw_ok n E d ->
  2 * (ep_bound n (c_base cx) (c_level cx) S (Z.of_nat n) E eps + Z.of_nat n * E) < 2 ^ (64 - k) ->
  test_encrypt_rgsw fft cx s pt tg d = Ok tt.
Proof.
  intros Hf Hs HS Hpt Ht Hd HB. pose proof (params_n cx lg k Hp) as Hn. pose proof Hp as (_ & _ & _ & Hdec & _).
  destruct (C18_encrypt_rgsw n Hn cx s (c_level cx) pt tg E eq_refl (binary_key_wf n s Hs) (binary_key_wf n pt Hpt) Hdec Ht) as (g & Eg & Hg).
  destruct (encode_fresh cx lg k Hp s E _ d (unit_plaintext 0 Hn) Hd) as (c & Ec & W & N).
  assert (g_base g = c_base cx /\ g_level g = c_level cx) as [Gb Gl].
  { destruct (encrypt_rgsw_ok n Hn cx s (c_base cx) (c_level cx) pt tg E) as (g' & Eg' & Gb & Gl & _ & _); auto; try (destruct Hdec as (? & ? & ?); lia); try apply binary_key_wf; auto.
    rewrite Eg in Eg'. injection Eg' as <-. split; assumption. }
  destruct (external_C18 n fft eps g (rlwe_allocate n) c s (tof pt) E S (Z.of_nat n) Hn) as [Wo No]; auto.
  - rewrite Gb, Gl. apply fft_base, Hf.
  - apply wfc_allocate.
  - apply binary_key_l1, Hpt.
  - rewrite Gb, Gl in No. unfold test_encrypt_rgsw. rewrite gen_unit_ok. cbn [bind]. rewrite Eg. cbn [bind]. rewrite Ec. cbn [bind]. cbv zeta.
    erewrite (holds_decrypts cx lg k s _ _ pt Hp); [cbn [bind]; apply assert_eq_refl| |exact HB].
    split; [exact Wo|]. split; [apply binary_plaintext, Hpt|]. eapply near_trans; [exact Hn|exact No|]. eapply near_eq_l; [apply phase_alloc_add|].
    eapply near_trans'; [exact Hn|apply near_mul_l1; [exact Hn|apply binary_key_l1, Hpt|exact N]|apply near_refl|].
    + rewrite scaled_unit. apply pmul_scaled.
    + lia.
Qed.
Lemma test_negs_ok fft eps s tn d S E En :
  fft_for cx fft eps -> binary_key n s -> l1 n (tof s) S -> tape_ok n E tn -> draw_ok n En d ->
  ep_bound n (c_base cx) (c_negs_level cx) S S E eps + S * (En + 1024) + 1024 <= ternary_window ->
  test_negs fft cx s tn d = Ok tt.
Proof.
  intros Hf Hs HS Ht Hd HB. pose proof (params_n cx lg k Hp) as Hn. pose proof Hp as (_ & _ & _ & _ & _ & Hdn & Hnb & _).
  destruct (C23_neg_gsw n Hn cx s tn E eq_refl Hs Hnb Hdn Ht) as (g & Eg & Gb & Gl & Hg).
  destruct (ternary_encrypt_near cx lg k Hp s _ d En (unit_ternary 0 Hn) Hd) as (c & Ec & W & N).
  destruct (external_C18 n fft eps g (rlwe_allocate n) c s (popp (tof s)) E S S Hn) as [Wo No]; auto.
  - rewrite Gb, Gl. apply fft_negs, Hf.
  - apply wfc_allocate.
  - apply l1_opp, HS.
  - rewrite Gb, Gl in No. unfold test_negs.
    assert (mapM (fun y => umul (c_mode cx) y MAXW) s = Ok (map (fun y => y * MAXW) s)) as ->.
    { apply mapM_ok. intros y Hy. destruct Hs as [_ Fs]. rewrite Forall_forall in Fs. apply umul_ok. destruct (Fs y Hy) as [-> | ->]; vm_compute; reflexivity. }
    cbn [bind]. rewrite Eg. cbn [bind]. rewrite gen_unit_ok. cbn [bind]. rewrite Ec. cbn [bind]. cbv zeta.
    assert (ternary_plaintext n (map (fun y => y * MAXW) s)) as Hneg.
    { destruct Hs as [Ls Fs]. split; [rewrite map_length; exact Ls|]. apply Forall_forall. intros y Hy. apply in_map_iff in Hy as (x & <- & Hx). rewrite Forall_forall in Fs.
      destruct (Fs x Hx) as [-> | ->]; vm_compute; auto. }
    erewrite (ternary_decrypt_near cx lg k Hp s _ _ _ Wo Hneg); [apply assert_eq_refl| |exact HB].
    rewrite <- Z.add_assoc. eapply near_trans; [exact Hn|exact No|]. eapply near_eq_l; [apply phase_alloc_add|].
    eapply near_trans; [exact Hn|apply near_mul_l1; [exact Hn|apply l1_opp, HS|eapply near_trans; [exact Hn|exact N|apply near_third, (unit_ternary 0 Hn)]]|].
    apply near_sym; [exact Hn|]. eapply near_trans'; [exact Hn|apply near_third, Hneg|apply near_refl|lia].
    intros i Hi. transitivity (pmul n (popp (tof s)) (pcst third) i).
    + transitivity (pmul n (pcst third) (popp (tof s)) i); [|apply (pmul_comm n); assumption]. rewrite (pmul_pcst_exact n Hn) by exact Hi. unfold popp, tof. rewrite (nth_map_in _ _ _ 0) by (destruct Hs as [-> _]; exact Hi).
      apply eqm_alt. exists (third * nth i s 0). unfold MAXW. ring.
    + symmetry. revert i Hi. change (peq n (pmul n (popp (tof s)) (fun i => third * tof (upd (poly_zero n) 0 1) i)) (pmul n (popp (tof s)) (pcst third))).
      assert (peq n (fun i => third * tof (upd (poly_zero n) 0 1) i) (pcst third)) as Q; [|rewrite Q; reflexivity].
      intros i Hi. unfold tof. rewrite nth_upd_zero by assumption. destruct i; cbn [Nat.eqb pcst]; apply eq_eqm; lia.
Qed.
End Tests.
