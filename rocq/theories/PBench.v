(** * Property C89: the benchmarks measure what they are named after, however often criterion runs them -- and three of them do not. *)
From Verif Require Import MBase MUtils MCodec MPoly MRlwe MBench.
From Verif Require Import SpecRing SpecLwe SpecEnc SpecOram.
From Verif Require Import PolyRing PfCodec PfPoly PfNear PfRlwe PfRlwe2 PfRlwe3 PfRlwe5 PfEnc PfEnc2 PfEnc3 PfEnc4 LRlwe LKeys LOram PRlwe PKeys PEnc PDefault PMulti Demo.
Local Open Scope Z_scope.

(** A ternary plaintext polynomial, and its encoding: the symbols lie a third of the circle apart. *)
Definition ternary_plaintext (n : nat) (pt : poly) : Prop := length pt = n /\ Forall (fun x => x = 0 \/ x = 1 \/ x = 2 ^ 64 - 1) pt.
(** The largest error the ternary decoding corrects for every symbol (C03). *)
Definition ternary_window : Z := 3074457345618257920.
(** [k] times a polynomial. *)
Definition times (k : nat) (f : P) : P := fun i => Z.of_nat k * f i.

(** ** Repetition *)
Lemma repeated_S {A} k (step : nat -> A -> res A) a : repeated (Datatypes.S k) step a = (b <- repeated k step a ;; step k b).
Proof.
  unfold repeated. rewrite seq_S. cbn [plus]. generalize (seq 0 k). intros l. revert a. induction l as [|i l IH]; intros a; cbn [app foldM bind].
  - destruct (step k a); reflexivity.
  - destruct (step i a); cbn [bind]; [apply IH|reflexivity].
Qed.
Lemma repeated_same {A} k (f : res A) a c : f = Ok c -> (0 < k)%nat -> repeated k (fun _ _ => f) a = Ok c.
Proof.
  intros Hf Hk. destruct k as [|k]; [lia|]. clear Hk. induction k as [|k IH]; rewrite repeated_S; [exact Hf|]. rewrite IH. exact Hf.
Qed.
Lemma repeated_inv {A} (I : nat -> A -> Prop) (step : nat -> A -> res A) a : I O a -> (forall k b, I k b -> exists b', step k b = Ok b' /\ I (Datatypes.S k) b') ->
  forall k, exists b, repeated k step a = Ok b /\ I k b.
Proof.
  intros H0 HS. induction k as [|k (b & E & H)]; [exists a; split; [reflexivity|exact H0]|].
  rewrite repeated_S, E. cbn [bind]. exact (HS k b H).
Qed.

Section Bench.
Variables (cx : ctx) (lg : nat) (k : Z).
Hypothesis Hp : params_ok cx lg k.
Notation n := (c_n cx).

Lemma fft_sub fft eps D L : fft_for cx fft eps -> (exists b, (b <= Nat.max (c_base cx) (c_ks_base cx))%nat /\ D = 2 ^ (Z.of_nat b - 1)) ->
  (L <= Nat.max (2 * c_level cx) (Nat.max (2 * c_negs_level cx) (c_ks_level cx + 1)))%nat -> fft_ok n fft D L eps.
Proof. intros Hf (b & Hb & ->) HL. eapply fft_ok_weaken; [| |exact Hf]; [apply pow_base_le; exact Hb|exact HL]. Qed.

(** ** Encryption and decryption *)
Lemma bench_enc_ok s pt t E iterations : plaintext n k pt -> tape_ok n E t -> (0 < iterations)%nat ->
  exists ct, bench_enc cx s pt t iterations = Ok ct /\ wfc n ct /\ near n (phase n s ct) (scaled k pt) E.
Proof.
  intros Hpt Ht Hi. destruct iterations as [|j]; [lia|]. unfold bench_enc. rewrite repeated_S.
  assert (forall j, exists ct, repeated j (fun i (_ : rlwe) => encode_encrypt_rlwe cx s pt (t i)) (rlwe_allocate n) = Ok ct) as G.
  { intros i. destruct (repeated_inv (fun _ _ => True) (fun i (_ : rlwe) => encode_encrypt_rlwe cx s pt (t i)) (rlwe_allocate n) I) with (k := i) as (b & Eb & _); [|eauto].
    intros k0 b _. destruct (encode_fresh cx lg k Hp s E pt (t k0) Hpt (Ht k0)) as (c & Ec & _). eauto. }
  destruct (G j) as (c0 & ->). cbn [bind]. apply (encode_fresh cx lg k Hp); auto.
Qed.

(** ** Ternary messages *)
Lemma ternary_encrypt_near s pt d E : ternary_plaintext n pt -> draw_ok n E d ->
  exists ct, ternary_encrypt_rlwe cx s pt d = Ok ct /\ wfc n ct /\ near n (phase n s ct) (tof (map ternary_enc_val pt)) E.
Proof.
  intros [Lpt Fpt] Hd. unfold ternary_encrypt_rlwe.
  assert (poly_ternary_encode (c_mode cx) pt = Ok (map ternary_enc_val pt)) as Ee.
  { apply mapM_ok. intros x Hx. apply ternary_encode_ok. rewrite Forall_forall in Fpt. apply (Fpt x Hx). }
  rewrite Ee. cbn [bind]. eexists; split; [reflexivity|]. pose proof (params_n cx lg k Hp) as Hn.
  split; [eapply wfc_encrypt; [rewrite map_length; exact Lpt|exact Hd]|apply near_encrypt; [exact Hn|rewrite map_length; exact Lpt|exact Hd]].
Qed.
Lemma ternary_decrypt_near s c pt B : wfc n c -> ternary_plaintext n pt -> near n (phase n s c) (tof (map ternary_enc_val pt)) B -> B <= ternary_window ->
  ternary_decrypt_rlwe n s c = pt.
Proof.
  intros Wc [Lpt Fpt] HN HB. pose proof (params_n cx lg k Hp) as Hn. pose proof (decrypt_wf n s c Wc) as Wd.
  pose proof (near_eq_l n _ _ _ _ (decrypt_phase n s c Wc) HN) as G. unfold ternary_decrypt_rlwe, poly_ternary_decode.
  revert Wd G. generalize (decrypt_rlwe n s c). intros p Wp G.
  apply (nth_ext _ _ 0 0); [rewrite map_length, (wfp_len _ _ Wp); symmetry; exact Lpt|].
  intros i Hi. rewrite map_length, (wfp_len _ _ Wp) in Hi.
  rewrite (nth_indep _ 0 (ternary_decode 0)) by (rewrite map_length, (wfp_len _ _ Wp); exact Hi). rewrite map_nth.
  specialize (G i Hi). unfold psub, tof in G. rewrite (nth_indep (map _ pt) 0 (ternary_enc_val 0)) in G by (rewrite map_length, Lpt; exact Hi). rewrite map_nth in G.
  assert (In (nth i pt 0) pt) as Hin by (apply nth_In; rewrite Lpt; exact Hi). rewrite Forall_forall in Fpt. specialize (Fpt _ Hin).
  assert (0 <= nth i p 0 < q) as Hw by (destruct Wp as [Lp Fp]; rewrite Forall_forall in Fp; apply Fp, nth_In; rewrite Lp; exact Hi).
  set (x := nth i pt 0) in *. set (w := nth i p 0) in *. clearbody x w. unfold nrm in G.
  assert (exists e, - 3074457345618257920 <= e <= 3074457345618257920 /\ w = (ternary_enc_val x + e) mod q) as (e & He & ->).
  { assert (0 < q) as Hq by (vm_compute; reflexivity). pose proof (Z.mod_pos_bound (w - ternary_enc_val x) q Hq) as Hm.
    pose proof (Z.div_mod (w - ternary_enc_val x) q ltac:(lia)) as Dm. unfold ternary_window in HB.
    destruct (Z.min_spec ((w - ternary_enc_val x) mod q) (q - (w - ternary_enc_val x) mod q)) as [[? Em]|[? Em]]; rewrite Em in G.
    - exists ((w - ternary_enc_val x) mod q). split; [lia|]. rewrite Zplus_mod_idemp_r. replace (ternary_enc_val x + (w - ternary_enc_val x)) with w by lia.
      symmetry. apply Z.mod_small. exact Hw.
    - exists ((w - ternary_enc_val x) mod q - q). split; [lia|]. replace (ternary_enc_val x + ((w - ternary_enc_val x) mod q - q)) with (w + (- 1 - (w - ternary_enc_val x) / q) * q) by lia.
      rewrite Z.mod_add by lia. symmetry. apply Z.mod_small. exact Hw. }
  apply ternary_roundtrip_sym; assumption.
Qed.
End Bench.

(** C89.  "enc": whatever the number of iterations, the ciphertext in the end decrypts to the plaintext. *)
Theorem C89_enc : forall cx lg k s pt t E iterations,
  params_ok cx lg k -> plaintext (c_n cx) k pt -> tape_ok (c_n cx) E t -> 2 * E < 2 ^ (64 - k) -> (0 < iterations)%nat ->
  exists ct, bench_enc cx s pt t iterations = Ok ct /\ decrypt_decode_rlwe cx s ct = Ok pt.
Proof.
  intros cx lg k s pt t E j Hp Hpt Ht HE Hj. destruct (bench_enc_ok cx lg k Hp s pt t E j Hpt Ht Hj) as (ct & Ec & W & N).
  exists ct. split; [exact Ec|]. apply (holds_decrypts cx lg k s E ct pt Hp); [|exact HE]. split; [exact W|]. split; [exact Hpt|exact N].
Qed.
Print Assumptions C89_enc.

(** "dec": the plaintext comes out. *)
Theorem C89_dec : forall cx lg k s pt d E iterations,
  params_ok cx lg k -> plaintext (c_n cx) k pt -> draw_ok (c_n cx) E d -> 2 * E < 2 ^ (64 - k) -> (0 < iterations)%nat ->
  bench_dec cx s pt d iterations = Ok pt.
Proof.
  intros cx lg k s pt d E j Hp Hpt Hd HE Hj. destruct (encode_fresh cx lg k Hp s E pt d Hpt Hd) as (c & Ec & W & N). unfold bench_dec. rewrite Ec. cbn [bind].
  apply repeated_same; [|exact Hj]. apply (holds_decrypts cx lg k s E c pt Hp); [|exact HE]. split; [exact W|]. split; [exact Hpt|exact N].
Qed.
Print Assumptions C89_dec.

(** "cmux": every iteration computes the same encryption of the second ciphertext's plaintext, 1. *)
Theorem C89_cmux : forall cx lg k fft eps s tg d0 d1 S E,
  params_ok cx lg k -> fft_for cx fft eps -> binary_key (c_n cx) s -> l1 (c_n cx) (tof s) S ->
  tape_ok (c_n cx) E tg -> draw_ok (c_n cx) E d0 -> draw_ok (c_n cx) E d1 ->
  exists c, (forall iterations, (0 < iterations)%nat -> bench_cmux fft cx s tg d0 d1 iterations = Ok c) /\ wfc (c_n cx) c /\
    near (c_n cx) (phase (c_n cx) s c) (pcst 1) (ep_bound (c_n cx) (c_base cx) (c_level cx) S 1 E eps + E).
Proof.
  intros cx lg k fft eps s tg d0 d1 S E Hp Hf Hs HS Ht H0 H1. pose proof (params_n cx lg k Hp) as Hn. pose proof Hp as (_ & _ & _ & Hd & _).
  assert (forall x, length (poly_mono (c_n cx) 0 x) = c_n cx) as Lm by (intros x; unfold poly_mono; rewrite map_length, seq_length; reflexivity).
  destruct (cmux_C19 (c_n cx) fft eps (encrypt_constant_rgsw (c_n cx) s (c_base cx) (c_level cx) 1 tg)
      (encrypt_constant_rlwe (c_n cx) s 0 d0) (encrypt_constant_rlwe (c_n cx) s 1 d1) s 1 E S Hn) as (c & Ec & W & N).
  - eapply fft_sub; [exact Hf| |cbn [g_level encrypt_constant_rgsw]; lia]. exists (c_base cx). split; [lia|reflexivity].
  - apply encrypt_constant_rgsw_ok; auto. apply binary_key_wf, Hs.
  - right. reflexivity.
  - eapply wfc_encrypt; [apply Lm|exact H0].
  - eapply wfc_encrypt; [apply Lm|exact H1].
  - exact HS.
  - exists c. split; [intros j Hj; apply repeated_same; assumption|]. split; [exact W|].
    eapply near_trans; [exact Hn|exact N|]. change (1 =? 1) with true. cbv iota. eapply near_eq_r; [|apply near_encrypt; [exact Hn|apply Lm|exact H1]].
    intros i Hi. unfold eqm. f_equal. unfold pcst, tof, poly_mono. rewrite nth_map_seq by exact Hi. destruct i; reflexivity.
Qed.
Print Assumptions C89_cmux.

(** "keyswitch" and "keyswitch fourier": every iteration computes the same ciphertext, and it decrypts to the messages under the new key. *)
Theorem C89_keyswitch : forall cx lg k fft eps before after messages tk d Sb Sa E,
  params_ok cx lg k -> fft_for cx fft eps -> binary_key (c_n cx) before -> l1 (c_n cx) (tof before) Sb -> l1 (c_n cx) (tof after) Sa ->
  ternary_plaintext (c_n cx) messages -> tape_ok (c_n cx) E tk -> draw_ok (c_n cx) E d ->
  ks_bound (c_n cx) (c_base cx) (c_level cx) Sb Sa E (Z.of_nat (c_level cx) * eps) + E <= ternary_window ->
  exists c, (forall iterations, (0 < iterations)%nat -> bench_keyswitch fft cx before after messages tk d iterations = Ok c) /\
    ternary_decrypt_rlwe (c_n cx) after c = messages.
Proof.
  intros cx lg k fft eps sb sa ms tk d Sb Sa E Hp Hf Hs HSb HSa Hm Ht Hd HB. pose proof (params_n cx lg k Hp) as Hn. pose proof Hp as (_ & _ & _ & Hdec & _).
  destruct (ternary_encrypt_near cx lg k Hp sb ms d E Hm Hd) as (ct & Ect & Wct & Nct).
  destruct (keyswitch_C20 (c_n cx) fft eps (c_base cx) (c_level cx) sb sa tk E ct Sb Sa Hn) as [(c & Ec & W & N) _]; auto.
  - apply binary_key_wf, Hs.
  - eapply fft_sub; [exact Hf| |destruct Hdec; lia]. exists (c_base cx). split; [lia|reflexivity].
  - exists c. split; [intros j Hj; unfold bench_keyswitch; rewrite Ect; cbn [bind]; apply repeated_same; assumption|].
    eapply ternary_decrypt_near; [exact Hp|exact W|exact Hm| |exact HB]. eapply near_trans; eassumption.
Qed.
Print Assumptions C89_keyswitch.

Theorem C89_keyswitch_fourier : forall cx lg k fft eps before after messages tk d Sb Sa E,
  params_ok cx lg k -> fft_for cx fft eps -> binary_key (c_n cx) before -> l1 (c_n cx) (tof before) Sb -> l1 (c_n cx) (tof after) Sa ->
  ternary_plaintext (c_n cx) messages -> tape_ok (c_n cx) E tk -> draw_ok (c_n cx) E d ->
  ks_bound (c_n cx) (c_base cx) (c_level cx) Sb Sa E eps + E <= ternary_window ->
  exists f, (forall iterations, (0 < iterations)%nat -> bench_keyswitch_fourier cx before after messages tk d iterations = Ok f) /\
    ternary_decrypt_rlwe (c_n cx) after (frlwe_backward fft (c_n cx) f) = messages.
Proof.
  intros cx lg k fft eps sb sa ms tk d Sb Sa E Hp Hf Hs HSb HSa Hm Ht Hd HB. pose proof (params_n cx lg k Hp) as Hn. pose proof Hp as (_ & _ & _ & Hdec & _).
  destruct (ternary_encrypt_near cx lg k Hp sb ms d E Hm Hd) as (ct & Ect & Wct & Nct).
  destruct (keyswitch_C20 (c_n cx) fft eps (c_base cx) (c_level cx) sb sa tk E ct Sb Sa Hn) as [_ (f & Ec & W & N)]; auto.
  - apply binary_key_wf, Hs.
  - eapply fft_sub; [exact Hf| |destruct Hdec; lia]. exists (c_base cx). split; [lia|reflexivity].
  - exists f. split; [intros j Hj; unfold bench_keyswitch_fourier; rewrite Ect; cbn [bind]; apply repeated_same; assumption|].
    eapply ternary_decrypt_near; [exact Hp|exact W|exact Hm| |exact HB]. eapply near_trans; eassumption.
Qed.
Print Assumptions C89_keyswitch_fourier.

(** "expand" and "expand fourier": every iteration computes the same RGSW encryption of 1. *)
Theorem C89_expand : forall cx lg k fft eps s test_pt tern tn tk tc d E,
  params_ok cx lg k -> fft_for cx fft eps -> binary_key (c_n cx) s -> plaintext (c_n cx) k test_pt -> (forall i, length (tern i) = c_n cx) ->
  tape_ok (c_n cx) E tn -> tape_ok (c_n cx) E tk -> tape_ok (c_n cx) E tc -> draw_ok (c_n cx) E d ->
  let N := Z.of_nat (c_n cx) in
  exists g, (forall iterations, (0 < iterations)%nat -> bench_expand fft cx s test_pt tern tn tk tc d iterations = Ok (Some g)) /\
    rgsw_encrypts (c_n cx) s g (pcst 1)
      (expand_bound (c_n cx) N E (ks_bound (c_n cx) (c_ks_base cx) (c_ks_level cx) N N E (Z.of_nat (c_ks_level cx) * eps))
                    (ep_bound (c_n cx) (c_base cx) (c_negs_level cx) N N E eps)).
Proof.
  intros cx lg k fft eps s tp tern tn tk tc d E Hp Hf Hs Hpt Hte Htn Htk Htc Hd N. pose proof (params_n cx lg k Hp) as Hn.
  pose proof Hp as (En & Hlg & Hw & Hdec & Hdk & Hdn & Hnb & Hk & Hcd).
  destruct (make_decomposed_C24 lg cx s 1 tern tc E) as (cs & Ecs & Hcs); auto; [destruct Hdec; lia|].
  destruct (encode_fresh cx lg k Hp s E tp d Hpt Hd) as (c & Ec & _).
  destruct (expand_C24 lg cx fft eps s tk tn E E 1 E cs) as (ksks & neg & Ek & Eg & (g & Ex & _ & _ & Hg) & _); auto.
  - eapply fft_sub; [exact Hf| |lia]. exists (c_ks_base cx). split; [lia|reflexivity].
  - eapply fft_sub; [exact Hf| |lia]. exists (c_base cx). split; [lia|reflexivity].
  - exists g. split; [|exact Hg]. intros j Hj. unfold bench_expand. rewrite Eg. cbn [bind]. rewrite Ek. cbn [bind]. rewrite Ec. cbn [bind]. rewrite Ecs. cbn [bind].
    apply repeated_same; [|exact Hj]. rewrite Ex. reflexivity.
Qed.
Print Assumptions C89_expand.

Theorem C89_expand_fourier : forall cx lg k fft eps s test_pt tern tn tk tc d E,
  params_ok cx lg k -> fft_for cx fft eps -> binary_key (c_n cx) s -> plaintext (c_n cx) k test_pt -> (forall i, length (tern i) = c_n cx) ->
  tape_ok (c_n cx) E tn -> tape_ok (c_n cx) E tk -> tape_ok (c_n cx) E tc -> draw_ok (c_n cx) E d ->
  let N := Z.of_nat (c_n cx) in
  exists g, (forall iterations, (0 < iterations)%nat -> bench_expand_fourier fft cx s test_pt tern tn tk tc d iterations = Ok (Some g)) /\
    rgsw_encrypts (c_n cx) s g (pcst 1)
      (expand_bound (c_n cx) N E (ks_bound (c_n cx) (c_ks_base cx) (c_ks_level cx) N N E eps)
                    (ep_bound (c_n cx) (c_base cx) (c_negs_level cx) N N E eps)).
Proof.
  intros cx lg k fft eps s tp tern tn tk tc d E Hp Hf Hs Hpt Hte Htn Htk Htc Hd N. pose proof (params_n cx lg k Hp) as Hn.
  pose proof Hp as (En & Hlg & Hw & Hdec & Hdk & Hdn & Hnb & Hk & Hcd).
  destruct (make_decomposed_C24 lg cx s 1 tern tc E) as (cs & Ecs & Hcs); auto; [destruct Hdec; lia|].
  destruct (encode_fresh cx lg k Hp s E tp d Hpt Hd) as (c & Ec & _).
  destruct (expand_C24 lg cx fft eps s tk tn E E 1 E cs) as (ksks & neg & Ek & Eg & _ & (g & Ex & _ & _ & Hg)); auto.
  - eapply fft_sub; [exact Hf| |lia]. exists (c_ks_base cx). split; [lia|reflexivity].
  - eapply fft_sub; [exact Hf| |lia]. exists (c_base cx). split; [lia|reflexivity].
  - exists g. split; [|exact Hg]. intros j Hj. unfold bench_expand_fourier. rewrite Eg. cbn [bind]. change (gen_all_subs_ksk_fourier cx s tk) with (gen_all_subs_ksk cx s tk).
    rewrite Ek. cbn [bind]. rewrite Ec. cbn [bind]. rewrite Ecs. cbn [bind].
    apply repeated_same; [|exact Hj]. rewrite Ex. reflexivity.
Qed.
Print Assumptions C89_expand_fourier.

(** "trace1 fourier": every iteration computes the same ciphertext; if modulus and dimension fit into 64 bits together, dividing the encoding by
    n is exact and the ciphertext decrypts to the constant term of the message. *)
Theorem C89_trace1_fourier : forall cx lg k fft eps s msg tk d S E,
  params_ok cx lg k -> fft_for cx fft eps -> binary_key (c_n cx) s -> l1 (c_n cx) (tof s) S -> plaintext (c_n cx) k msg ->
  tape_ok (c_n cx) E tk -> draw_ok (c_n cx) E d -> k + Z.of_nat lg <= 64 ->
  2 * ((Z.of_nat (c_n cx) - 1) * ks_bound (c_n cx) (c_ks_base cx) (c_ks_level cx) S S E eps + Z.of_nat (c_n cx) * E) < 2 ^ (64 - k) ->
  exists c, (forall iterations, (0 < iterations)%nat -> bench_trace1_fourier fft cx s msg tk d iterations = Ok c) /\
    decrypt_decode_rlwe cx s c = Ok (nth 0 msg 0 :: repeat 0 (c_n cx - 1)).
Proof.
  intros cx lg k fft eps s msg tk d S E Hp Hf Hs HS Hpt Htk Hd Hkl HB. pose proof (params_n cx lg k Hp) as Hn.
  pose proof Hp as (En & Hlg & Hw & Hdec & Hdk & Hdn & Hnb & Hk & Hcd).
  destruct (encode_scaled (c_n cx) _ _ _ msg Hk Hcd Hpt) as (e & Ee & We & Te).
  set (e' := map (fun coeff => coeff / Z.of_nat (c_n cx)) e).
  assert (length e' = c_n cx) as Le by (unfold e'; rewrite map_length; apply (wfp_len _ _ We)).
  destruct (trace_C22 lg cx fft eps s tk E (encrypt_rlwe (c_n cx) s e' d) S) as (m & _ & Em & _ & (c & Ec & W & N)); auto.
  - apply binary_key_wf, Hs.
  - eapply fft_sub; [exact Hf| |lia]. exists (c_ks_base cx). split; [lia|reflexivity].
  - eapply wfc_encrypt; eassumption.
  - exists c. split; [intros j Hj; unfold bench_trace1_fourier; rewrite Ee; cbn [bind]; fold e'; cbv zeta; rewrite Em; cbn [bind]; apply repeated_same; assumption|].
    eapply holds_decrypts; [exact Hp| |exact HB]. split; [exact W|].
    assert (forall x, 0 <= x -> Z.of_nat (c_n cx) * (x * 2 ^ (64 - k) / Z.of_nat (c_n cx)) = x * 2 ^ (64 - k)) as Hx.
    { intros x _. rewrite En, Nat2Z.inj_pow. change (Z.of_nat 2) with 2. replace (64 - k) with (Z.of_nat lg + (64 - k - Z.of_nat lg)) by lia.
      rewrite Z.pow_add_r by lia. replace (x * (2 ^ Z.of_nat lg * 2 ^ (64 - k - Z.of_nat lg))) with (x * 2 ^ (64 - k - Z.of_nat lg) * 2 ^ Z.of_nat lg) by ring.
      rewrite Z.div_mul by (apply Z.pow_nonzero; lia). ring. }
    destruct Hpt as [Lpt Fpt]. assert (0 <= nth 0 msg 0 < 2 ^ k) as H0 by (rewrite Forall_forall in Fpt; apply Fpt, nth_In; lia).
    split; [split|].
    + cbn [length]. rewrite repeat_length. lia.
    + constructor; [exact H0|]. apply Forall_forall. intros x Hin. apply repeat_spec in Hin. subst x. split; [lia|apply Z.pow_pos_nonneg; lia].
    + eapply near_trans; [exact Hn|exact N|]. intros i Hi. unfold psub, pcst, scaled.
      destruct i as [|i].
      * cbn [nth]. pose proof (near_encrypt (c_n cx) Hn s e' E d Le Hd 0%nat Hn) as Nr. unfold psub in Nr.
        assert (tof e' 0%nat = nth 0 msg 0 * 2 ^ (64 - k) / Z.of_nat (c_n cx)) as T0.
        { unfold tof, e'. rewrite (nth_map_in _ _ _ 0) by (rewrite (wfp_len _ _ We); exact Hn). specialize (Te 0%nat). unfold tof, scaled in Te. rewrite Te. reflexivity. }
        rewrite T0 in Nr. rewrite <- (Hx (nth 0 msg 0)) by lia. rewrite <- Z.mul_sub_distr_l.
        etransitivity; [apply nrm_mul|]. pose proof (nrm_abs (Z.of_nat (c_n cx))). pose proof (nrm_nonneg (Z.of_nat (c_n cx))).
        apply Z.mul_le_mono_nonneg; [assumption|lia|apply nrm_nonneg|exact Nr].
      * cbn [nth]. rewrite nth_repeat. replace (0 - 0 * 2 ^ (64 - k)) with 0 by lia. change (nrm 0) with 0.
        apply Z.mul_nonneg_nonneg; [lia|]. eapply near_nonneg; [exact Hn|]. apply (near_encrypt (c_n cx) Hn s e' E d Le Hd).
Qed.
Print Assumptions C89_trace1_fourier.

(** ** The benchmarks that feed their output back *)

(** The symbol of an integer modulo 3. *)
Definition ternary_of (z : Z) : Z := if z mod 3 =? 0 then 0 else if z mod 3 =? 1 then 1 else 2 ^ 64 - 1.
(** A symbol as an integer. *)
Definition ternary_value (x : Z) : Z := if x =? 2 ^ 64 - 1 then -1 else x.
Lemma ternary_of_enc z : ternary_enc_val (ternary_of z) = 6148914691236516864 * (z mod 3).
Proof.
  unfold ternary_of. pose proof (Z.mod_pos_bound z 3 ltac:(lia)) as H. revert H. generalize (z mod 3). intros r H.
  assert (r = 0 \/ r = 1 \/ r = 2) as [-> | [-> | ->]] by lia; reflexivity.
Qed.
Lemma ternary_scale j x : x = 0 \/ x = 1 \/ x = 2 ^ 64 - 1 ->
  nrm (Z.of_nat j * ternary_enc_val x - ternary_enc_val (ternary_of (Z.of_nat j * ternary_value x))) <= 1024 * Z.of_nat j.
Proof.
  intros Hx. rewrite ternary_of_enc.
  assert (exists v, 0 <= v <= 2 /\ ternary_enc_val x = 6148914691236516864 * v /\ (Z.of_nat j * ternary_value x) mod 3 = (Z.of_nat j * v) mod 3) as (v & Hv & -> & ->).
  { destruct Hx as [-> | [-> | ->]].
    - exists 0. split; [lia|]. split; reflexivity.
    - exists 1. split; [lia|]. split; reflexivity.
    - exists 2. split; [lia|]. split; [reflexivity|]. change (ternary_value (2 ^ 64 - 1)) with (-1).
      replace (Z.of_nat j * 2) with (Z.of_nat j * -1 + Z.of_nat j * 3) by lia. rewrite Z.mod_add by lia. reflexivity. }
  pose proof (Z.div_mod (Z.of_nat j * v) 3 ltac:(lia)) as D. pose proof (Z.mod_pos_bound (Z.of_nat j * v) 3 ltac:(lia)) as M.
  replace (Z.of_nat j * (6148914691236516864 * v)) with (6148914691236516864 * (Z.of_nat j * v)) by ring.
  revert D M. generalize (Z.of_nat j * v mod 3) (Z.of_nat j * v / 3). intros a b D M. rewrite D.
  etransitivity; [apply (nrm_le _ (- 1024 * b))|].
  - apply eqm_alt. exists b. change q with 18446744073709551616. ring.
  - nia.
Qed.
Lemma near_times n f g B j : near n f g B -> near n (times j f) (times j g) (Z.of_nat j * B).
Proof.
  intros H i Hi. unfold psub, times. rewrite <- Z.mul_sub_distr_l. etransitivity; [apply nrm_mul|]. pose proof (nrm_abs (Z.of_nat j)). pose proof (nrm_nonneg (Z.of_nat j)).
  apply Z.mul_le_mono_nonneg; [assumption|lia|apply nrm_nonneg|exact (H i Hi)].
Qed.

(** "keyswitch gsw" never clears its output: after [iterations] calls it holds [iterations] times the messages, modulo 3. *)
Theorem C89_keyswitch_gsw : forall cx lg k fft eps before after messages tk d Sb Sa E iterations,
  params_ok cx lg k -> fft_for cx fft eps -> binary_key (c_n cx) before -> l1 (c_n cx) (tof before) Sb -> l1 (c_n cx) (tof after) Sa ->
  ternary_plaintext (c_n cx) messages -> tape_ok (c_n cx) E tk -> draw_ok (c_n cx) E d ->
  let step := Z.of_nat (c_level cx) * (2 * (Z.of_nat (c_n cx) * 2 ^ (Z.of_nat (c_base cx) - 1) * E))
              + (1 + Sb) * 2 ^ (63 - Z.of_nat (c_base cx * c_level cx)) + (1 + Sa) * eps in
  Z.of_nat iterations * (step + E + 1024) <= ternary_window ->
  exists c, bench_keyswitch_gsw fft cx before after messages tk d iterations = Ok c /\ wfc (c_n cx) c /\
    ternary_decrypt_rlwe (c_n cx) after c = map (fun x => ternary_of (Z.of_nat iterations * ternary_value x)) messages.
Proof.
  intros cx lg k fft eps sb sa ms tk d Sb Sa E iterations Hp Hf Hs HSb HSa Hm Ht Hd step HB.
  pose proof (params_n cx lg k Hp) as Hn. pose proof Hp as (_ & _ & _ & Hdec & _).
  destruct (ternary_encrypt_near cx lg k Hp sb ms d E Hm Hd) as (ct & Ect & Wct & Nct).
  assert (fft_ok (c_n cx) fft (2 ^ (Z.of_nat (c_base cx) - 1)) (2 * c_level cx) eps) as Hfe.
  { eapply fft_sub; [exact Hf| |lia]. exists (c_base cx). split; [lia|reflexivity]. }
  assert (wfp (c_n cx) sb) as Ws by apply binary_key_wf, Hs.
  destruct (rgsw_ks_C25 (c_n cx) fft eps (c_base cx) (c_level cx) sb sa tk E (rlwe_allocate (c_n cx)) ct Sb Sa Hn Ws Hdec Ht Hfe (wfc_allocate _) Wct HSb HSa) as (g & Eg & _).
  unfold bench_keyswitch_gsw. rewrite Eg. cbn [bind]. rewrite Ect. cbn [bind].
  destruct (repeated_inv (fun j c => wfc (c_n cx) c /\ near (c_n cx) (phase (c_n cx) sa c) (times j (phase (c_n cx) sb ct)) (Z.of_nat j * step))
     (fun _ after0 => Ok (rgsw_keyswitch_ciphertext fft g after0 ct)) (rlwe_allocate (c_n cx))) with (k := iterations) as (c & Ec & Wc & Nc).
  { split; [apply wfc_allocate|]. apply near_refl. rewrite phase_allocate by exact Hn. intros i _. unfold times, pzero. apply eq_eqm. lia. }
  { intros j c [Wc Nc]. eexists. split; [reflexivity|].
    destruct (rgsw_ks_C25 (c_n cx) fft eps (c_base cx) (c_level cx) sb sa tk E c ct Sb Sa Hn Ws Hdec Ht Hfe Wc Wct HSb HSa) as (g' & Eg' & W' & N').
    rewrite Eg in Eg'. injection Eg' as <-. split; [exact W'|]. fold step in N'. eapply near_trans'; [exact Hn|exact N'| |].
    - eapply near_eq_r; [|apply near_add; [exact Hn|exact Nc|apply (near_refl (c_n cx) (phase (c_n cx) sb ct)); reflexivity]].
      intros i _. unfold times, padd. apply eq_eqm. lia.
    - lia. }
  exists c. split; [exact Ec|]. split; [exact Wc|].
  eapply ternary_decrypt_near; [exact Hp|exact Wc| | |exact HB].
  - destruct Hm as [Lm Fm]. split; [rewrite map_length; exact Lm|]. apply Forall_forall. intros y Hy. apply in_map_iff in Hy as (x & <- & _).
    unfold ternary_of. destruct (_ =? 0); [auto|]. destruct (_ =? 1); auto.
  - eapply near_trans'; [exact Hn|exact Nc|eapply near_trans; [exact Hn|apply near_times; exact Nct|]|].
    + instantiate (1 := 1024 * Z.of_nat iterations). intros i Hi. unfold psub, times, tof. destruct Hm as [Lm Fm].
      rewrite map_map. rewrite !(nth_map_in _ _ _ 0) by (rewrite Lm; exact Hi). apply ternary_scale. rewrite Forall_forall in Fm. apply Fm, nth_In. rewrite Lm. exact Hi.
    + lia.
Qed.
Print Assumptions C89_keyswitch_gsw.

(** So one call leaves an encryption of the messages, two of their negatives, three of zeroes: the benchmark does not repeat what it measures. *)
Theorem C89_keyswitch_gsw_refuted : exists cx lg k fft eps before after messages tk d E c1 c2 c3,
  params_ok cx lg k /\ fft_for cx fft eps /\ binary_key (c_n cx) before /\ binary_key (c_n cx) after /\
  ternary_plaintext (c_n cx) messages /\ tape_ok (c_n cx) E tk /\ draw_ok (c_n cx) E d /\
  bench_keyswitch_gsw fft cx before after messages tk d 1 = Ok c1 /\ ternary_decrypt_rlwe (c_n cx) after c1 = messages /\
  bench_keyswitch_gsw fft cx before after messages tk d 2 = Ok c2 /\ ternary_decrypt_rlwe (c_n cx) after c2 <> messages /\
  bench_keyswitch_gsw fft cx before after messages tk d 3 = Ok c3 /\ ternary_decrypt_rlwe (c_n cx) after c3 = repeat 0 (c_n cx).
Proof.
  exists demo_cx, 2%nat, 1, (exact_fft 4), 0, demo_s, demo_after, [1; 2 ^ 64 - 1; 0; 1], demo_tape, (demo_draw 5), 3.
  assert (l1 4 (tof demo_after) 2) as La by (vm_compute; congruence).
  assert (ternary_plaintext (c_n demo_cx) [1; 2 ^ 64 - 1; 0; 1]) as Hm by (split; [reflexivity|]; repeat constructor; auto).
  assert (forall j, (j <= 3)%nat -> exists c, bench_keyswitch_gsw (exact_fft 4) demo_cx demo_s demo_after [1; 2 ^ 64 - 1; 0; 1] demo_tape (demo_draw 5) j = Ok c /\
    wfc (c_n demo_cx) c /\ ternary_decrypt_rlwe (c_n demo_cx) demo_after c = map (fun x => ternary_of (Z.of_nat j * ternary_value x)) [1; 2 ^ 64 - 1; 0; 1]) as G.
  { intros j Hj. apply (C89_keyswitch_gsw demo_cx 2 1 (exact_fft 4) 0 demo_s demo_after [1; 2 ^ 64 - 1; 0; 1] demo_tape (demo_draw 5) 3 2 3);
      [exact demo_params|exact demo_fft_for|exact demo_key|exact demo_l1|exact La|exact Hm|exact demo_tape_ok|exact (demo_tape_ok 5%nat)|].
    transitivity (3 * (Z.of_nat 11 * (2 * (Z.of_nat 4 * 2 ^ (Z.of_nat 5 - 1) * 3)) + (1 + 3) * 2 ^ (63 - Z.of_nat (5 * 11)) + (1 + 2) * 0 + 3 + 1024)); [|vm_compute; congruence].
    apply Z.mul_le_mono_nonneg_r; [vm_compute; congruence|lia]. }
  destruct (G 1%nat) as (c1 & E1 & _ & D1); [lia|]. destruct (G 2%nat) as (c2 & E2 & _ & D2); [lia|]. destruct (G 3%nat) as (c3 & E3 & _ & D3); [lia|].
  exists c1, c2, c3. split; [exact demo_params|]. split; [exact demo_fft_for|]. split; [exact demo_key|].
  split; [split; [reflexivity|]; repeat (apply Forall_cons; [auto|]); apply Forall_nil|]. split; [exact Hm|]. split; [exact demo_tape_ok|]. split; [exact (demo_tape_ok 5%nat)|].
  split; [exact E1|]. split; [rewrite D1; reflexivity|]. split; [exact E2|]. split; [rewrite D2; vm_compute; discriminate|]. split; [exact E3|]. rewrite D3. reflexivity.
Qed.
Print Assumptions C89_keyswitch_gsw_refuted.

(** "external_product" does not clear its output either: it holds [iterations] times the product, mask and body; the plaintext being 0, only the
    noise grows with the number of iterations. *)
Theorem C89_external_product : forall cx lg k fft eps s tg d0 S E iterations,
  params_ok cx lg k -> fft_for cx fft eps -> binary_key (c_n cx) s -> l1 (c_n cx) (tof s) S -> tape_ok (c_n cx) E tg -> draw_ok (c_n cx) E d0 ->
  exists c1 c, bench_external_product fft cx s tg d0 1 = Ok c1 /\ bench_external_product fft cx s tg d0 iterations = Ok c /\ wfc (c_n cx) c /\
    peq (c_n cx) (tof (mask c)) (times iterations (tof (mask c1))) /\ peq (c_n cx) (tof (body c)) (times iterations (tof (body c1))) /\
    bd (c_n cx) (phase (c_n cx) s c1) (ep_bound (c_n cx) (c_base cx) (c_level cx) S 1 E eps + E) /\
    bd (c_n cx) (phase (c_n cx) s c) (Z.of_nat iterations * (ep_bound (c_n cx) (c_base cx) (c_level cx) S 1 E eps + E)).
Proof.
  intros cx lg k fft eps s tg d0 S E iterations Hp Hf Hs HS Ht H0. pose proof (params_n cx lg k Hp) as Hn. pose proof Hp as (_ & _ & _ & Hdec & _).
  unfold bench_external_product. cbv zeta.
  set (g := encrypt_constant_rgsw (c_n cx) s (c_base cx) (c_level cx) 1 tg). set (z := encrypt_constant_rlwe (c_n cx) s 0 d0).
  assert (length (poly_mono (c_n cx) 0 0) = c_n cx) as Lm by (unfold poly_mono; rewrite map_length, seq_length; reflexivity).
  assert (wfc (c_n cx) z) as Wz by (eapply wfc_encrypt; [exact Lm|exact H0]).
  assert (bd (c_n cx) (phase (c_n cx) s z) E) as Bz.
  { apply near_0_bd; [exact Hn|]. eapply near_eq_r; [|apply near_encrypt; [exact Hn|exact Lm|exact H0]].
    intros i Hi. unfold pzero, tof, poly_mono. rewrite nth_map_seq by exact Hi. destruct (i =? 0)%nat; reflexivity. }
  assert (rgsw_encrypts (c_n cx) s g (pcst 1) E) as Hg by (apply encrypt_constant_rgsw_ok; auto; apply binary_key_wf, Hs).
  assert (fft_ok (c_n cx) fft (2 ^ (Z.of_nat (g_base g) - 1)) (2 * g_level g) eps) as Hfe.
  { eapply fft_sub; [exact Hf| |cbn [g_level g encrypt_constant_rgsw]; lia]. exists (c_base cx). split; [lia|reflexivity]. }
  set (c1 := external_product fft g (rlwe_allocate (c_n cx)) z). exists c1.
  assert (forall out, wfc (c_n cx) out -> wfc (c_n cx) (external_product fft g out z) /\
     peq (c_n cx) (tof (mask (external_product fft g out z))) (padd (tof (mask out)) (tof (mask c1))) /\
     peq (c_n cx) (tof (body (external_product fft g out z))) (padd (tof (body out)) (tof (body c1)))) as Hstep.
  { intros out Wo.
    assert (forall part, (forall c, wfc (c_n cx) c -> wfp (c_n cx) (part c)) -> length (fft (ep_terms part g z)) = c_n cx) as Lf.
    { intros part Hpart. apply wfp_len. eapply fft_wf; [exact Hfe|rewrite (ep_terms_length (c_n cx) Hn); lia|]. apply ep_terms_wf; auto. apply Hg. }
    pose proof (Lf mask (fun c H => proj1 H)) as Lfm. pose proof (Lf body (fun c H => proj2 H)) as Lfb.
    split; [eapply wfc_external_product; try eassumption; apply Hg|]. cbn [external_product mask body c1 rlwe_allocate]. unfold add_backward.
    split; (rewrite !(tof_add (c_n cx)); [|first [apply wfp_len, Wo | apply repeat_length | assumption]..]); rewrite tof_zero; intros i _; unfold padd, pzero; apply eq_eqm; ring. }
  destruct (repeated_inv (fun j c => wfc (c_n cx) c /\ peq (c_n cx) (tof (mask c)) (times j (tof (mask c1))) /\ peq (c_n cx) (tof (body c)) (times j (tof (body c1))))
     (fun _ out => Ok (external_product fft g out z)) (rlwe_allocate (c_n cx))) with (k := iterations) as (c & Ec & Wc & Mc & Bc).
  { split; [apply wfc_allocate|]. split; intros i _; unfold times; cbn [rlwe_allocate mask body]; unfold tof, poly_zero; rewrite nth_repeat; apply eq_eqm; lia. }
  { intros j c (Wc & Mc & Bc). eexists. split; [reflexivity|]. destruct (Hstep c Wc) as (W' & M' & B'). split; [exact W'|].
    split; [rewrite M', Mc|rewrite B', Bc]; intros i _; unfold padd, times; apply eq_eqm; lia. }
  exists c. split; [reflexivity|]. split; [exact Ec|]. split; [exact Wc|]. split; [exact Mc|]. split; [exact Bc|].
  assert (bd (c_n cx) (phase (c_n cx) s c1) (ep_bound (c_n cx) (c_base cx) (c_level cx) S 1 E eps + E)) as B1.
  { destruct (external_C18 (c_n cx) fft eps g (rlwe_allocate (c_n cx)) z s (pcst 1) E S 1 Hn Hfe Hg (wfc_allocate _) Wz HS (l1_bit _ 1 Hn (or_intror eq_refl))) as [_ N].
    eapply near_bd; [exact Hn|exact N|]. intros i Hi.
    assert (eqm (padd (phase (c_n cx) s (rlwe_allocate (c_n cx))) (pmul (c_n cx) (pcst 1) (phase (c_n cx) s z)) i) (phase (c_n cx) s z i)) as Q.
    { unfold padd. pose proof (phase_allocate (c_n cx) Hn s i Hi) as Q0. rewrite (pmul_pcst_exact (c_n cx) Hn) by exact Hi. unfold eqm in *. rewrite Zplus_mod, Q0.
      rewrite <- Zplus_mod. unfold pzero. f_equal. lia. }
    unfold nrm. unfold eqm in Q. rewrite Q. apply (Bz i Hi). }
  split; [exact B1|].
  intros i Hi. assert (peq (c_n cx) (phase (c_n cx) s c) (times iterations (phase (c_n cx) s c1))) as Q.
  { unfold phase. rewrite Bc, Mc. intros i' Hi'. unfold times, psub.
    assert (pmul (c_n cx) (fun i => Z.of_nat iterations * tof (mask c1) i) (tof s) i' = Z.of_nat iterations * pmul (c_n cx) (tof (mask c1)) (tof s) i') as ->.
    { unfold pmul. rewrite <- sumf_scal. apply sumf_ext. intros a _. rewrite <- sumf_scal. apply sumf_ext. intros b _. ring. }
    apply eq_eqm. ring. }
  pose proof (Q i Hi) as Qi. unfold nrm. unfold eqm in Qi. rewrite Qi. fold (nrm (times iterations (phase (c_n cx) s c1) i)). unfold times.
  etransitivity; [apply nrm_mul|]. pose proof (nrm_abs (Z.of_nat iterations)). pose proof (nrm_nonneg (Z.of_nat iterations)).
  apply Z.mul_le_mono_nonneg; [assumption|lia|apply nrm_nonneg|exact (B1 i Hi)].
Qed.
Print Assumptions C89_external_product.

Theorem C89_external_product_refuted : exists cx lg k fft eps s tg d0 E c1 c2,
  params_ok cx lg k /\ fft_for cx fft eps /\ binary_key (c_n cx) s /\ tape_ok (c_n cx) E tg /\ draw_ok (c_n cx) E d0 /\
  bench_external_product fft cx s tg d0 1 = Ok c1 /\ bench_external_product fft cx s tg d0 2 = Ok c2 /\ mask c1 <> mask c2 /\ body c1 <> body c2.
Proof.
  exists demo_cx, 2%nat, 1, (exact_fft 4), 0, demo_s, demo_tape, (demo_draw 5), 3. do 2 eexists.
  split; [exact demo_params|]. split; [exact demo_fft_for|]. split; [exact demo_key|]. split; [exact demo_tape_ok|]. split; [exact (demo_tape_ok 5%nat)|].
  split; [vm_compute; reflexivity|]. split; [vm_compute; reflexivity|]. split; discriminate.
Qed.
Print Assumptions C89_external_product_refuted.

(** "less_eq" compares in place.  The first iteration turns the encryption of X^(n/2) into one whose constant coefficient encrypts
    [n/2 <= n/2 + 1], that is 1 ... *)
Theorem C89_less_eq_once : forall cx lg k fft eps s d S E,
  params_ok cx lg k -> (2 <= lg)%nat -> fft_for cx fft eps -> l1 (c_n cx) (tof s) S -> draw_ok (c_n cx) E d ->
  exists c, bench_less_eq fft cx s d 1 = Ok c /\ wfc (c_n cx) c /\
    nrm (phase (c_n cx) s c 0%nat - 2 ^ (64 - k)) <= (Z.of_nat (c_n cx / 2) + 2) * E + (1 + S) * eps.
Proof.
  intros cx lg k fft eps s d S E Hp Hlg2 Hf HS Hd. pose proof (params_n cx lg k Hp) as Hn.
  pose proof Hp as (En & Hlg & Hw & Hdec & Hdk & Hdn & Hnb & Hk & Hcd).
  assert (c_n cx / 2 + 1 < c_n cx)%nat as Hm.
  { destruct lg as [|[|lg]]; [lia|lia|]. rewrite En. replace (2 ^ Datatypes.S (Datatypes.S lg))%nat with ((2 * 2 ^ lg) * 2)%nat by (cbn [Nat.pow]; lia).
    rewrite Nat.div_mul by lia. pose proof (Nat.pow_nonzero 2 lg). lia. }
  unfold bench_less_eq. cbv zeta. set (m := (c_n cx / 2)%nat) in *.
  assert (set_index (poly_zero (c_n cx)) m 1 = Ok (upd (poly_zero (c_n cx)) m 1)) as Es.
  { unfold set_index. assert (length (poly_zero (c_n cx)) = c_n cx) as -> by apply repeat_length. destruct (Nat.ltb_spec m (c_n cx)); [reflexivity|lia]. }
  rewrite Es. cbn [bind].
  assert (0 < 2 ^ k) as Hk2 by (apply Z.pow_pos_nonneg; lia). assert (1 < 2 ^ k) as Hk3 by (apply Z.pow_gt_1; lia).
  assert (forall i, (i < c_n cx)%nat -> nth i (upd (poly_zero (c_n cx)) m 1) 0 = if (i =? m)%nat then 1 else 0) as Hnth.
  { intros i Hi. rewrite nth_upd by (unfold poly_zero; rewrite repeat_length; lia). rewrite Nat.eqb_sym. destruct (Nat.eqb_spec i m); [reflexivity|].
    unfold poly_zero. apply nth_repeat. }
  assert (plaintext (c_n cx) k (upd (poly_zero (c_n cx)) m 1)) as Hpt.
  { split; [rewrite upd_length; apply repeat_length|]. apply Forall_forall. intros x Hx. apply (In_nth _ _ 0) in Hx as (i & Hi & <-).
    rewrite upd_length in Hi. unfold poly_zero in Hi. rewrite repeat_length in Hi. rewrite Hnth by exact Hi. destruct (i =? m)%nat; lia. }
  destruct (encode_fresh cx lg k Hp s E _ d Hpt Hd) as (ct & Ec & Wc & Nc). rewrite Ec. cbn [bind].
  destruct (less_eq_than_ok (c_n cx) Hn fft eps ct s S E (2 ^ (64 - k)) m (m + 1)) as (c & El & W & N); try assumption; try lia.
  - eapply fft_ok_weaken; [| |exact Hf]; [|lia]. change 1 with (2 ^ 0). apply Z.pow_le_mono_r; [lia|]. destruct Hdec. lia.
  - eapply near_eq_r; [|exact Nc]. intros i Hi. rewrite (pmul_pcst_exact (c_n cx) Hn) by exact Hi. unfold scaled. rewrite Hnth by exact Hi.
    rewrite (mono_small (c_n cx) Hn) by lia. rewrite (Nat.eqb_sym i m). apply eq_eqm. destruct (m =? i)%nat; ring.
  - exists c. unfold repeated. cbn [seq foldM]. rewrite El. cbn [bind]. split; [reflexivity|]. split; [exact W|].
    destruct (Nat.leb_spec m (m + 1)); [|lia]. replace (Z.of_nat m + 2) with (Z.of_nat (m + 1) + 1) by lia. exact N.
Qed.
Print Assumptions C89_less_eq_once.

(** ... but the next one compares that result: the constant coefficient becomes 2 in this instance. *)
Theorem C89_less_eq_refuted : exists cx lg k fft eps s d E c1 c2 r1 r2,
  params_ok cx lg k /\ (2 <= lg)%nat /\ fft_for cx fft eps /\ binary_key (c_n cx) s /\ draw_ok (c_n cx) E d /\
  bench_less_eq fft cx s d 1 = Ok c1 /\ decrypt_decode_rlwe cx s c1 = Ok (1 :: r1) /\
  bench_less_eq fft cx s d 2 = Ok c2 /\ decrypt_decode_rlwe cx s c2 = Ok (2 :: r2).
Proof.
  exists demo_cx2, 2%nat, 2, (exact_fft 4), 0, demo_s, (demo_draw 5), 3. do 4 eexists.
  split; [exact demo_params2|]. split; [lia|]. split; [exact demo_fft_for|]. split; [exact demo_key|]. split; [exact (demo_tape_ok 5%nat)|].
  split; [vm_compute; reflexivity|]. split; [vm_compute; reflexivity|]. split; [vm_compute; reflexivity|]. vm_compute. reflexivity.
Qed.
Print Assumptions C89_less_eq_refuted.

Lemma encrypts_weaken n s g m E E' : E <= E' -> rgsw_encrypts n s g m E -> rgsw_encrypts n s g m E'.
Proof. intros HE [W H]. split; [exact W|]. intros i Hi. destruct (H i Hi) as [H0 H1]. split; intros j Hj; [specialize (H0 j Hj)|specialize (H1 j Hj)]; lia. Qed.
(** The hypotheses of the positive theorems hold in the demonstration instance. *)
Example C89_nonvacuous :
  (exists ct, bench_enc demo_cx demo_s [1; 0; 1; 1] demo_tape 1000 = Ok ct /\ decrypt_decode_rlwe demo_cx demo_s ct = Ok [1; 0; 1; 1]) /\
  bench_dec demo_cx demo_s [1; 0; 1; 1] (demo_draw 5) 1000 = Ok [1; 0; 1; 1] /\
  (exists c, (forall iterations, (0 < iterations)%nat -> bench_cmux (exact_fft 4) demo_cx demo_s demo_tape (demo_draw 5) (demo_draw 6) iterations = Ok c) /\
     wfc 4 c /\ near 4 (phase 4 demo_s c) (pcst 1) 5251) /\
  (exists c, (forall iterations, (0 < iterations)%nat -> bench_keyswitch (exact_fft 4) demo_cx demo_s demo_after [1; 2 ^ 64 - 1; 0; 1] demo_tape (demo_draw 5) iterations = Ok c) /\
     ternary_decrypt_rlwe 4 demo_after c = [1; 2 ^ 64 - 1; 0; 1]) /\
  (exists c, (forall iterations, (0 < iterations)%nat -> bench_trace1_fourier (exact_fft 4) demo_cx demo_s [1; 0; 1; 1] demo_tape (demo_draw 5) iterations = Ok c) /\
     decrypt_decode_rlwe demo_cx demo_s c = Ok [1; 0; 0; 0]) /\
  (exists g, (forall iterations, (0 < iterations)%nat ->
       bench_expand_fourier (exact_fft 4) demo_cx demo_s [1; 0; 1; 1] (fun _ => [0; 1; 2 ^ 64 - 1; 0]) demo_tape demo_tape demo_tape (demo_draw 5) iterations = Ok (Some g)) /\
     rgsw_encrypts 4 demo_s g (pcst 1) (2 ^ 17)).
Proof.
  assert (plaintext (c_n demo_cx) 1 [1; 0; 1; 1]) as Hpt by (split; [reflexivity|]; repeat apply Forall_cons; try apply Forall_nil; lia).
  assert (l1 4 (tof demo_after) 2) as La by (vm_compute; congruence).
  assert (ternary_plaintext (c_n demo_cx) [1; 2 ^ 64 - 1; 0; 1]) as Hm by (split; [reflexivity|]; repeat constructor; auto).
  split; [|split; [|split; [|split; [|split]]]].
  - apply (C89_enc demo_cx 2 1 demo_s [1; 0; 1; 1] demo_tape 3 _ demo_params Hpt demo_tape_ok); [reflexivity|].
    apply Nat.ltb_lt. vm_compute. reflexivity.
  - apply (C89_dec demo_cx 2 1 demo_s [1; 0; 1; 1] (demo_draw 5) 3 _ demo_params Hpt (demo_tape_ok 5%nat)); [reflexivity|].
    apply Nat.ltb_lt. vm_compute. reflexivity.
  - exact (C89_cmux demo_cx 2 1 (exact_fft 4) 0 demo_s demo_tape (demo_draw 5) (demo_draw 6) 3 3 demo_params demo_fft_for demo_key demo_l1 demo_tape_ok (demo_tape_ok 5%nat) (demo_tape_ok 6%nat)).
  - apply (C89_keyswitch demo_cx 2 1 (exact_fft 4) 0 demo_s demo_after _ demo_tape (demo_draw 5) 3 2 3 demo_params demo_fft_for demo_key demo_l1 La Hm demo_tape_ok (demo_tape_ok 5%nat)).
    vm_compute. congruence.
  - apply (C89_trace1_fourier demo_cx 2 1 (exact_fft 4) 0 demo_s [1; 0; 1; 1] demo_tape (demo_draw 5) 3 3 demo_params demo_fft_for demo_key demo_l1 Hpt demo_tape_ok (demo_tape_ok 5%nat)); [lia|].
    vm_compute. reflexivity.
  - destruct (C89_expand_fourier demo_cx 2 1 (exact_fft 4) 0 demo_s [1; 0; 1; 1] (fun _ => [0; 1; 2 ^ 64 - 1; 0]) demo_tape demo_tape demo_tape (demo_draw 5) 3
      demo_params demo_fft_for demo_key Hpt (fun _ => eq_refl) demo_tape_ok demo_tape_ok demo_tape_ok (demo_tape_ok 5%nat)) as (g & Eg & Hg).
    exists g. split; [exact Eg|]. revert Hg. apply encrypts_weaken. vm_compute. congruence.
Qed.
