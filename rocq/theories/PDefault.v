(** * Property C69: the shipped default parameters leave room for long computations; a production-size
    parameter set for the ORAM. *)
From Coq Require Import Permutation.
From Verif Require Import MBase MUtils MCodec MPoly MRlwe MHash MTree MEncTree MParams MSched MOram.
From Verif Require Import SpecRing SpecLwe SpecEnc SpecOram.
From Verif Require Import PfPoly PfNear PfRlwe PfRlwe2 PfRlwe5 PfEnc PfEnc2 PfEnc3 PfEnc4 PfOram4 LRlwe LOram PRlwe PKeys PEnc POram.
Local Open Scope Z_scope.

(** A chain of selections: starting from an encryption of [pt0], each step encrypts a bit and a new
    plaintext and keeps, homomorphically, the new plaintext if the bit is 1.  Step [j] takes its
    randomness from [t j]. *)
Fixpoint mux_chain (fft : fftT) (cx : ctx) (s : poly) (t : nat -> tape) (j : nat) (c : rlwe) (steps : list (bool * poly)) : res rlwe :=
  match steps with
  | [] => Ok c
  | (b, pt) :: steps' =>
      let g := encrypt_constant_rgsw (c_n cx) s (c_base cx) (c_level cx) (b2z b) (split (t j) 0) in
      d <- encode_encrypt_rlwe cx s pt (split (t j) 1 0%nat) ;;
      c' <- cmux fft g c d ;;
      mux_chain fft cx s t (Datatypes.S j) c' steps'
  end.
(** What the chain selects. *)
Definition chosen (pt0 : poly) (steps : list (bool * poly)) : poly :=
  fold_left (fun pt (bp : bool * poly) => if fst bp then snd bp else pt) steps pt0.

Section Chain.
Variables (cx : ctx) (lg : nat) (k : Z).
Hypothesis Hp : params_ok cx lg k.
Variables (fft : fftT) (eps : Z) (s : poly) (S E : Z).
Hypothesis Hf : fft_for cx fft eps.
Hypothesis Hs : binary_key (c_n cx) s.
Hypothesis HS : l1 (c_n cx) (tof s) S.
Hypothesis HE : 0 <= E.
Notation n := (c_n cx).
Notation ep := (ep_bound (c_n cx) (c_base cx) (c_level cx) S 1 E eps).
Lemma encode_fresh pt d : plaintext n k pt -> draw_ok n E d ->
  exists c, encode_encrypt_rlwe cx s pt d = Ok c /\ wfc n c /\ near n (phase n s c) (scaled k pt) E.
Proof.
  intros Hpt Hd. pose proof Hp as (_ & _ & _ & _ & _ & _ & _ & Hk & Hc). pose proof (params_n cx lg k Hp) as Hn. unfold encode_encrypt_rlwe.
  destruct (encode_scaled n _ _ _ pt Hk Hc Hpt) as (e & Ee & We & Te). rewrite Ee. cbn [bind].
  eexists; split; [reflexivity|]. split; [eapply wfc_encrypt; [apply We|exact Hd]|].
  eapply near_eq_r; [|apply near_encrypt; [exact Hn|apply We|exact Hd]]. intros i _. rewrite Te. reflexivity.
Qed.
Lemma chain_near : forall steps j c pt0 B t, wfc n c -> plaintext n k pt0 -> near n (phase n s c) (scaled k pt0) B -> E <= B ->
  Forall (fun bp => plaintext n k (snd bp)) steps -> (forall j, tape_ok n E (t j)) ->
  exists c', mux_chain fft cx s t j c steps = Ok c' /\ wfc n c' /\ plaintext n k (chosen pt0 steps) /\
    near n (phase n s c') (scaled k (chosen pt0 steps)) (B + Z.of_nat (length steps) * ep).
Proof.
  pose proof (params_n cx lg k Hp) as Hn. pose proof Hp as (_ & _ & _ & Hd & _).
  induction steps as [|[b pt] steps IH]; intros j c pt0 B t Wc P0 Nc HB Hst Ht; cbn [mux_chain].
  - exists c. split; [reflexivity|]. split; [exact Wc|]. split; [exact P0|]. eapply near_weaken; [exact Nc|]. cbn [length]. lia.
  - inversion Hst as [|? ? Hpt Hst']; subst. cbn [snd] in Hpt.
    destruct (encode_fresh pt (split (t j) 1 0%nat) Hpt (Ht j _)) as (d & Ed & Wd & Nd). rewrite Ed. cbn [bind].
    assert (fft_ok n fft (2 ^ (Z.of_nat (c_base cx) - 1)) (2 * c_level cx) eps) as Hfe.
    { eapply fft_ok_weaken; [| |exact Hf]; [apply pow_base_le; lia|lia]. }
    destruct (cmux_C19 n fft eps (encrypt_constant_rgsw n s (c_base cx) (c_level cx) (b2z b) (split (t j) 0)) c d s (b2z b) E S Hn)
      as (c1 & Ec & W1 & N1); auto.
    + apply encrypt_constant_rgsw_ok; auto. apply binary_key_wf, Hs. intros i. apply (Ht j).
    + destruct b; cbn; auto.
    + rewrite Ec. cbn [bind]. cbn [g_base g_level] in N1.
      change (near n (phase n s c1) (phase n s (if b2z b =? 1 then d else c)) ep) in N1.
      pose proof (near_nonneg n Hn _ _ _ N1) as Hep.
      assert (near n (phase n s c1) (scaled k (if b then pt else pt0)) (B + ep)) as N2.
      { destruct b; cbn in N1; eapply near_trans'; try exact N1; try exact Nd; try exact Nc; lia. }
      destruct (IH (Datatypes.S j) c1 (if b then pt else pt0) (B + ep) t) as (c' & E' & W' & P' & N'); auto; [destruct b; assumption|lia|].
      exists c'. split; [exact E'|]. split; [exact W'|]. split; [exact P'|].
      change (chosen pt0 ((b, pt) :: steps)) with (chosen (if b then pt else pt0) steps).
      eapply near_weaken; [exact N'|]. cbn [length]. lia.
Qed.
End Chain.

(** The noise of one encryption: 16 standard deviations of the default 2^-55 * 2^64 = 2^9, more than the generator ever returns (C85). *)
Definition default_noise : Z := 2 ^ 13.

Theorem C69_default_context : forall md, exists cx, context_new md default_tfhe = Ok cx /\ params_ok cx 11 8 /\ c_n cx = 2048%nat.
Proof.
  intros md. assert (exists c, codec_new md (2 ^ 8) = Ok c) as (c & Ec) by (destruct md; eexists; vm_compute; reflexivity).
  eexists. unfold context_new. cbn [default_tfhe tp_plaintext_modulus]. rewrite Ec. cbn [bind]. split; [reflexivity|]. split; [|reflexivity].
  unfold params_ok, decomp_ok. cbn [c_n c_base c_level c_ks_base c_ks_level c_negs_base c_negs_level c_mode c_codec tp_polynomial_size tp_base_log tp_level_count tp_ks_base_log tp_ks_level_count tp_negs_base_log tp_negs_level_count].
  change (Z.to_nat 5) with 5%nat. change (Z.to_nat 9) with 9%nat. change (Z.to_nat 11) with 11%nat. repeat split; auto; try lia; apply Nat.leb_le; reflexivity.
Qed.
Print Assumptions C69_default_context.

Section Default.
Variables (md : mode) (cx : ctx).
Hypothesis Hcx : context_new md default_tfhe = Ok cx.
Lemma default_fields : params_ok cx 11 8 /\ c_n cx = 2048%nat /\ c_base cx = 5%nat /\ c_level cx = 9%nat /\ c_ks_base cx = 5%nat /\ c_ks_level cx = 11%nat /\ c_mode cx = md /\ codec_new md (2 ^ 8) = Ok (c_codec cx).
Proof.
  destruct (C69_default_context md) as (cx' & E & H & N). rewrite Hcx in E. injection E as <-. split; [exact H|]. split; [exact N|].
  unfold context_new in Hcx. cbn [default_tfhe tp_plaintext_modulus] in Hcx. destruct (codec_new md (2 ^ 8)) as [c|] eqn:Ec; [|discriminate].
  injection Hcx as <-. cbn. repeat split; reflexivity.
Qed.
Lemma default_ep eps : ep_bound (c_n cx) (c_base cx) (c_level cx) 2048 1 default_noise eps = 5368971264 + 2049 * eps.
Proof. destruct default_fields as (_ & -> & -> & -> & _). unfold ep_bound. reflexivity. Qed.
End Default.

(** With the default parameters, whatever the key, plaintexts, bits and randomness: a chain of
    selections with freshly encrypted bits still decrypts to the selected plaintext, as long as the steps cost
    less than 2^56, each 2^34 and 4098 times the error of the FFT.  (63 steps for what double precision guarantees, see
    C82; millions for an error of 2^20.) *)
Theorem C69_default_chain : forall md cx fft eps s pt0 d steps t,
  context_new md default_tfhe = Ok cx -> fft_for cx fft eps -> binary_key 2048 s ->
  plaintext 2048 8 pt0 -> draw_ok 2048 default_noise d ->
  Forall (fun bp => plaintext 2048 8 (snd bp)) steps -> 0 <= eps -> Z.of_nat (length steps) * (2 ^ 34 + 4098 * eps) < 2 ^ 56 ->
  (forall j, tape_ok 2048 default_noise (t j)) ->
  exists c0 c, encode_encrypt_rlwe cx s pt0 d = Ok c0 /\ mux_chain fft cx s t 0 c0 steps = Ok c /\
    decrypt_decode_rlwe cx s c = Ok (chosen pt0 steps).
Proof.
  intros md cx fft eps s pt0 d steps t Hcx Hf Hs Hp0 Hd Hst He Hlen Ht.
  destruct (default_fields md cx Hcx) as (Hp & En & _). rewrite <- En in *.
  destruct (encode_fresh cx 11 8 Hp s default_noise pt0 d Hp0 Hd) as (c0 & E0 & W0 & N0).
  pose proof (binary_key_l1 _ s Hs) as HS. replace (Z.of_nat (c_n cx)) with 2048 in HS by (rewrite En; reflexivity).
  destruct (chain_near cx 11 8 Hp fft eps s 2048 default_noise Hf Hs HS steps 0 c0 pt0 default_noise t) as (c & E1 & W1 & P1 & N1); auto; [lia|].
  rewrite (default_ep md cx Hcx) in N1. exists c0, c. split; [exact E0|]. split; [exact E1|].
  apply (holds_decrypts cx 11 8 s (default_noise + Z.of_nat (length steps) * (5368971264 + 2049 * eps))); auto; [split; [exact W1|split; [exact P1|exact N1]]|].
  unfold default_noise. clear - Hlen He. change (2 ^ (64 - 8)) with 72057594037927936. change (2 ^ 34) with 17179869184 in Hlen. change (2 ^ 56) with 72057594037927936 in Hlen.
  change (2 ^ 13) with 8192. set (N := Z.of_nat (length steps)) in *. assert (0 <= N) by (unfold N; lia). destruct (Z.eq_dec N 0) as [E0|E0]; [rewrite E0; lia|]. nia.
Qed.
Print Assumptions C69_default_chain.

(** Encrypted trees with freshly encrypted decision bits: every tree whose leaf depths add up to as many
    steps. *)
Theorem C69_default_tree : forall md cx fft eps s fs tr e cts,
  context_new md default_tfhe = Ok cx -> fft_for cx fft eps -> binary_key 2048 s ->
  enc_matches e tr cts -> Forall2 (decision_ct 2048 s 5 9 default_noise fs) cts (preorder tr) ->
  Forall (fun x => Z.of_nat x < 2 ^ 48) (labels tr) -> (exists y, In y (labels tr) /\ y <> 0%nat) ->
  0 <= eps -> Z.of_nat (list_sum (leaf_depths tr)) * (2 ^ 34 + 4098 * eps) < 2 ^ 56 ->
  exists x outs, predicts tr fs x /\ enc_eval fft cx e = Ok outs /\ decrypt_and_recompose cx s outs = Ok (Z.of_nat x).
Proof.
  intros md cx fft eps s fs tr e cts Hcx Hf Hs He Hct Hlab Hnz Hpos Hdep.
  destruct (default_fields md cx Hcx) as (Hp & En & Eb & El & _ & _ & Em & Ec). rewrite <- En in *.
  pose proof (binary_key_l1 _ s Hs) as HS. replace (Z.of_nat (c_n cx)) with 2048 in HS by (rewrite En; reflexivity).
  destruct (C36_encrypted_evaluation cx fft eps 5 9 s 2048 default_noise fs tr e cts 8) as (x & outs & H1 & H2 & _ & _ & _ & _ & H3); auto; try lia.
  - replace 5%nat with (c_base cx) by exact Eb. replace 9%nat with (c_level cx) by exact El. eapply fft_ok_weaken; [| |exact Hf]; [apply pow_base_le; lia|lia].
  - exists x, outs. split; [exact H1|]. split; [exact H2|]. apply H3; [|exact Hnz].
    pose proof (default_ep md cx Hcx eps) as Hep. rewrite Eb, El in Hep. rewrite Hep. clear - Hdep Hpos.
    change (2 ^ (64 - 8)) with 72057594037927936. change (2 ^ 34) with 17179869184 in Hdep. change (2 ^ 56) with 72057594037927936 in Hdep.
    set (N := Z.of_nat (list_sum (leaf_depths tr))) in *. assert (0 <= N) by (unfold N; lia). nia.
Qed.
Print Assumptions C69_default_tree.

(** *** The hypotheses are satisfiable: the all-ones key, exact products for the FFT, constant noise of
    +-4000. *)
Definition flat_draw (n : nat) (x y : Z) : draw := {| d_mask := repeat x n; d_noise := repeat y n |}.
Lemma wfp_flat n x : 0 <= x < q -> wfp n (repeat x n).
Proof. intros H. split; [apply repeat_length|]. apply Forall_forall. intros y Hy. apply repeat_spec in Hy. subst. exact H. Qed.
Lemma flat_draw_ok n E x y : 0 <= x < q -> 0 <= y < q -> nrm y <= E -> draw_ok n E (flat_draw n x y).
Proof.
  intros Hx Hy HE. split; [apply wfp_flat, Hx|]. split; [apply wfp_flat, Hy|]. intros i Hi. cbn [d_noise flat_draw]. unfold tof.
  rewrite (nth_indep _ 0 y) by (rewrite repeat_length; exact Hi). rewrite nth_repeat. exact HE.
Qed.
Lemma ones_binary n : binary_key n (repeat 1 n).
Proof. split; [apply repeat_length|]. apply Forall_forall. intros y Hy. apply repeat_spec in Hy. auto. Qed.
Lemma flat_plaintext n k x : 0 <= x < 2 ^ k -> plaintext n k (repeat x n).
Proof. intros H. split; [apply repeat_length|]. apply Forall_forall. intros y Hy. apply repeat_spec in Hy. subst. exact H. Qed.
Lemma exact_fft_error n D L eps : (0 < n)%nat -> 0 <= eps -> fft_ok n (exact_fft n) D L eps.
Proof. intros Hn He ts H1 H2. destruct (exact_fft_ok n Hn D L ts H1 H2) as [H H']. split; [exact H|]. eapply near_weaken; [exact H'|exact He]. Qed.
Definition noisy (n j : nat) : tape := fun i => flat_draw n (Z.of_nat ((i + j) mod 1000)) (if Nat.even i then 4000 else q - 4000).
Lemma noisy_ok n j : tape_ok n default_noise (noisy n j).
Proof.
  intros i. pose proof (Nat.mod_upper_bound (i + j) 1000 ltac:(lia)) as H. apply flat_draw_ok.
  - change q with (2 ^ 64). lia.
  - destruct (Nat.even i); vm_compute; split; congruence.
  - destruct (Nat.even i); vm_compute; congruence.
Qed.

(** A million selections. *)
Example C69_chain_applies : exists cx c0 c, context_new Checked default_tfhe = Ok cx /\
  encode_encrypt_rlwe cx (repeat 1 2048) (repeat 200 2048) (noisy 2048 7 0%nat) = Ok c0 /\
  mux_chain (exact_fft 2048) cx (repeat 1 2048) (noisy 2048) 0 c0 (repeat (true, repeat 99 2048) (Z.to_nat 1000000)) = Ok c /\
  decrypt_decode_rlwe cx (repeat 1 2048) c = Ok (chosen (repeat 200 2048) (repeat (true, repeat 99 2048) (Z.to_nat 1000000))).
Proof.
  destruct (C69_default_context Checked) as (cx & E & _ & N). exists cx.
  destruct (C69_default_chain Checked cx (exact_fft 2048) (2 ^ 20) (repeat 1 2048) (repeat 200 2048) (noisy 2048 7 0%nat) (repeat (true, repeat 99 2048) (Z.to_nat 1000000)) (noisy 2048))
    as (c0 & c & H); [exact E| |apply ones_binary| |apply noisy_ok| |lia| | |exists c0, c; split; [exact E|exact H]].
  - unfold fft_for. rewrite N. apply exact_fft_error; lia.
  - apply flat_plaintext. lia.
  - apply Forall_forall. intros y Hy. apply repeat_spec in Hy. subst. apply flat_plaintext. lia.
  - rewrite repeat_length, Z2Nat.id by lia. reflexivity.
  - intros j. apply noisy_ok.
Qed.

(** *** The whole protocol at the context [simulate] uses.  Worst-case bounds cover it only for little noise:
    keys with at most four ones, noise of at most 1 and an FFT error of at most 2^10 leave room for every tree
    whose leaf depths add up to at most 8.  (The precision is beyond what double arithmetic guarantees, C82; a
    smaller ring where it suffices is in C82_protocol.  For full keys and noise the bounds exceed the budget: C36 and
    [C69_default_tree] then cover the evaluation from given decision bits, see DESIGN.md.) *)
Theorem C69_default_protocol : forall md cx fft s model features t,
  context_new md default_tfhe = Ok cx -> fft_for cx fft (2 ^ 10) -> binary_key 2048 s -> l1 2048 (tof s) 4 -> tape_ok 2048 1 t ->
  (exists th f ix op l r, model = Internal th f ix op l r) ->
  (forall th f ix op l r, sub (Internal th f ix op l r) model -> (th < 2048)%nat) ->
  Forall (fun x => Z.of_nat x < 2 ^ 48) (labels model) -> (exists y, In y (labels model) /\ y <> 0%nat) ->
  Forall (fun fs => evaluable model fs /\ Forall (fun v => (v < 2048)%nat) fs) features ->
  (list_sum (leaf_depths model) <= 8)%nat ->
  exists preds, simulate fft cx s model features t = Ok preds /\
    Forall2 (fun fs p => exists x, predicts model fs x /\ p = Z.of_nat x) features preds.
Proof.
  intros md cx fft s model features t Hcx Hf Hs HS Ht Hi Hth Hl Hnz Hfs Hd.
  destruct (default_fields md cx Hcx) as (Hp & En & Eb & El & Ekb & Ekl & _). rewrite <- En in *.
  apply (C39_private_evaluation 11 8 cx fft (2 ^ 10) s 4 1); auto.
  assert (ep_bound (c_n cx) (c_base cx) (c_level cx) 4 1 (decision_noise cx 4 1 (2 ^ 10)) (2 ^ 10) <= 2 ^ 52 - 1) as He.
  { unfold decision_noise. rewrite En, Eb, El, Ekb, Ekl. 
    replace (c_negs_level cx) with 11%nat by (unfold context_new in Hcx; destruct (codec_new md _); [|discriminate]; injection Hcx as <-; reflexivity).
    apply Z.leb_le. vm_compute. reflexivity. }
  change (2 ^ (64 - 8)) with (16 * 2 ^ 52). clear - Hd He. nia.
Qed.
Print Assumptions C69_default_protocol.

Definition sparse_key : poly := repeat 1 4 ++ repeat 0 2044.
Definition quiet : tape := fun i => flat_draw 2048 (Z.of_nat (i mod 1000)) (if Nat.even i then 1 else q - 1).
Lemma quiet_ok : tape_ok 2048 1 quiet.
Proof.
  intros i. pose proof (Nat.mod_upper_bound i 1000 ltac:(lia)) as H. apply flat_draw_ok.
  - change q with (2 ^ 64). lia.
  - destruct (Nat.even i); vm_compute; split; congruence.
  - destruct (Nat.even i); vm_compute; congruence.
Qed.
Lemma sparse_binary : binary_key 2048 sparse_key.
Proof.
  split; [unfold sparse_key; rewrite app_length, !repeat_length; reflexivity|]. unfold sparse_key. apply Forall_app. split;
    apply Forall_forall; intros y Hy; apply repeat_spec in Hy; auto.
Qed.
Lemma sparse_l1 : l1 2048 (tof sparse_key) 4.
Proof. unfold l1. apply Z.leb_le. vm_compute. reflexivity. Qed.
(** The tree of C39 (leaf depths 2, 2, 2) on features up to 2047. *)
Example C69_protocol_applies : exists cx preds, context_new Checked default_tfhe = Ok cx /\
  simulate (exact_fft 2048) cx sparse_key c39_tree [[1%nat; 2%nat]; [0%nat; 2047%nat]] quiet = Ok preds /\
  Forall2 (fun fs p => exists x, predicts c39_tree fs x /\ p = Z.of_nat x) [[1%nat; 2%nat]; [0%nat; 2047%nat]] preds.
Proof.
  destruct (C69_default_context Checked) as (cx & E & _ & N). exists cx.
  destruct (C69_default_protocol Checked cx (exact_fft 2048) sparse_key c39_tree [[1%nat; 2%nat]; [0%nat; 2047%nat]] quiet) as (preds & H);
    [exact E| |apply sparse_binary|apply sparse_l1|apply quiet_ok|repeat eexists| | | | | |exists preds; split; [exact E|exact H]].
  - unfold fft_for. rewrite N. apply exact_fft_error; [lia|lia].
  - intros th f ix op l r H. pose proof (c39_thresholds th f ix op l r H). lia.
  - repeat constructor.
  - exists 5%nat. split; [cbn; auto|discriminate].
  - repeat (apply Forall_cons || apply Forall_nil); (split; [apply c39_evaluable|]); repeat (apply Forall_cons || apply Forall_nil); apply Nat.ltb_lt; reflexivity.
  - cbn. lia.
Qed.

(** *** A production-size parameter set for the ORAM: ring dimension 1024, 2 bits x 24 levels, plaintext
    modulus 2.  With the worst-case noise of every step counted, up to 8 requests on a database of up to
    8 cells are answered exactly.  (The default parameters are beyond what worst-case bounds can show for
    the ORAM, and the FFT error of 2^10 is beyond what double arithmetic guarantees: see DESIGN.md, and C82_oram for a
    ring where it suffices.) *)
Definition oram_tfhe : tfhe_params :=
  {| tp_standard_deviation := -55; tp_polynomial_size := 1024; tp_base_log := 2; tp_level_count := 24;
     tp_ks_base_log := 2; tp_ks_level_count := 24; tp_negs_base_log := 2; tp_negs_level_count := 24;
     tp_plaintext_modulus := 2; tp_secure_seed := true |}.
Lemma oram_context md : exists cx, context_new md oram_tfhe = Ok cx /\ params_ok cx 10 1 /\ c_n cx = 1024%nat /\
  c_base cx = 2%nat /\ c_level cx = 24%nat /\ c_negs_level cx = 24%nat.
Proof.
  assert (exists c, codec_new md (2 ^ 1) = Ok c) as (c & Ec) by (destruct md; eexists; vm_compute; reflexivity).
  eexists. unfold context_new. cbn [oram_tfhe tp_plaintext_modulus]. change 2 with (2 ^ 1) at 1. rewrite Ec. cbn [bind]. split; [reflexivity|]. split; [|repeat split; reflexivity].
  unfold params_ok, decomp_ok. cbn [c_n c_base c_level c_ks_base c_ks_level c_negs_base c_negs_level c_mode c_codec tp_polynomial_size tp_base_log tp_level_count tp_ks_base_log tp_ks_level_count tp_negs_base_log tp_negs_level_count].
  repeat split; auto; try lia; apply Nat.leb_le; reflexivity.
Qed.
Theorem C69_production_oram : forall md cx pool fft s a nh hc dom gp t0 rqs dm t,
  context_new md oram_tfhe = Ok cx -> fft_for cx fft (2 ^ 10) -> binary_key 1024 s ->
  (1 <= a <= 3)%nat -> hash_for nh hc dom -> (hc * dom = 2 ^ a)%nat ->
  (forall i, plaintext 1024 1 (gp i)) -> tape_ok 1024 default_noise t0 ->
  Forall (request_ok cx 1 dom) rqs -> (forall j, plaintext 1024 1 (dm j 0%nat)) -> (forall j, tape_ok 1024 default_noise (t j)) ->
  (length rqs <= 8)%nat ->
  exists cl sv pts ys sv', setup_random_oram 1 (2 ^ a) nh cx s gp t0 = Ok (cl, sv, pts) /\
    session pool fft cl nh dm t 0 sv rqs = Ok (ys, sv') /\
    Forall2 (fun y pt => decrypt_decode_rlwe cx s y = Ok pt) ys (answers (fun i => nth i pts []) rqs).
Proof.
  intros md cx pool fft s a nh hc dom gp t0 rqs dm t Hcx Hf Hs Ha Hh Hdim Hgp Ht0 Hrq Hdm Ht Hlen.
  destruct (oram_context md) as (cx' & E & Hp & En & Eb & El & Eg). rewrite Hcx in E. injection E as <-.
  rewrite <- En in *. pose proof (binary_key_l1 _ s Hs) as HS. replace (Z.of_nat (c_n cx)) with 1024 in HS by (rewrite En; reflexivity).
  apply (C43_setup_then_history pool cx 10 1 fft (2 ^ 10) s 1024 default_noise a nh hc dom); auto.
  - split; [exact Hp|split; [exact Hf|split; [exact Hs|exact HS]]].
  - right. rewrite El. discriminate.
  - lia.
  - unfold growth, answer_growth, ep_sel, sel_noise, ep_fresh. rewrite En, Eb, El, Eg.
    assert (forall L : Z, L <= 8 -> forall g ag, 0 <= g -> 2 * (default_noise + 8 * g + ag) < 2 ^ (64 - 1) -> 2 * (default_noise + L * g + ag) < 2 ^ (64 - 1)) as Hm.
    { clear. intros L HL g ag Hg H. nia. }
    apply Hm; [lia| |]; assert (a = 1 \/ a = 2 \/ a = 3)%nat as Hc by lia; destruct Hc as [Hc | [Hc | Hc]]; rewrite Hc; vm_compute; congruence.
Qed.
Print Assumptions C69_production_oram.

(** Four items, two hash functions. *)
Example C69_oram_applies : exists cx nh cl sv pts ys sv', context_new Checked oram_tfhe = Ok cx /\
  nh_new (fun l => rev l) 2 4 = Ok nh /\
  setup_random_oram 1 (2 ^ 3) nh cx (repeat 1 1024) (fun i => repeat (Z.of_nat (i mod 2)) 1024) (noisy 1024 0) = Ok (cl, sv, pts) /\
  session true (exact_fft 1024) cl nh (fun _ _ => repeat 0 1024) (noisy 1024) 0 sv [Write 3 (repeat 1 1024); Read 3; Read 1] = Ok (ys, sv') /\
  Forall2 (fun y pt => decrypt_decode_rlwe cx (repeat 1 1024) y = Ok pt) ys
    (answers (fun i => nth i pts []) [Write 3 (repeat 1 1024); Read 3; Read 1]).
Proof.
  destruct (oram_context Checked) as (cx & E & _ & En & _). assert (exists nh, nh_new (fun l => rev l) 2 4 = Ok nh) as (nh & Enh) by (eexists; reflexivity).
  exists cx, nh.
  destruct (C69_production_oram Checked cx true (exact_fft 1024) (repeat 1 1024) 3 nh 2 4 (fun i => repeat (Z.of_nat (i mod 2)) 1024) (noisy 1024 0)
    [Write 3 (repeat 1 1024); Read 3; Read 1] (fun _ _ => repeat 0 1024) (noisy 1024)) as (cl & sv & pts & ys & sv' & H); [exact E| | | | | | | | | | | |exists cl, sv, pts, ys, sv'; auto].
  - unfold fft_for. rewrite En. apply exact_fft_error; lia.
  - apply ones_binary.
  - lia.
  - exists (@rev nat). split; [intros l; symmetry; apply Permutation_rev|exact Enh].
  - reflexivity.
  - intros i. apply flat_plaintext. pose proof (Nat.mod_upper_bound i 2 ltac:(lia)). lia.
  - apply noisy_ok.
  - repeat apply Forall_cons; try apply Forall_nil; split; cbn [target]; try lia; try exact I. rewrite En. apply flat_plaintext. lia.
  - intros j. apply flat_plaintext. lia.
  - intros j. apply noisy_ok.
  - cbn [length]. lia.
Qed.
