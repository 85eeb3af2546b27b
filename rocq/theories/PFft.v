(** * Property C82: what floating-point arithmetic guarantees for the Fourier multiplication, and for the whole
    protocols built on it.  These theorems speak about real numbers: they use the axioms of the standard
    library's reals (listed below each of them), and nothing else does. *)
From Coq Require Import Permutation Reals Lra.
From Verif Require Import MBase MUtils MCodec MPoly MRlwe MHash MTree MEncTree MParams MSched MOram MFft.
From Verif Require Import SpecRing SpecLwe SpecEnc SpecTree SpecOram SpecFft SpecDouble.
From Verif Require Import PfPoly PfNear PfRlwe PfRlwe2 PfRlwe5 PfEnc PfEnc2 PfEnc3 PfEnc4 PfOram4 PfFft4 PfFft5 PfFft6 PfDouble LRlwe LOram PRlwe PKeys PEnc POram PDefault.
Local Open Scope Z_scope.

(** Whatever the rounding, the tables, the transforms and the order of the additions: if they are
    accurate, the products computed in the Fourier domain are right up to [coefficient_error]. *)
Theorem C82_float_product : forall fl shape h D L u nu w phi t d eps,
  (0 < h)%nat -> (0 <= u)%R -> (0 <= nu)%R -> (0 <= w)%R -> (0 <= phi)%R -> (0 <= t)%R -> 1 <= D -> (0 < L)%nat -> accurate fl (2 * h) u nu w phi t ->
  (forall ts, (length ts <= L)%nat -> sums (2 * h) (shape ts) ts d) ->
  (coefficient_error (2 * h) D L u nu w phi t d <= IZR eps)%R ->
  fft_ok (2 * h) (float_fft fl shape (2 * h)) D L eps.
Proof. exact float_fft_ok. Qed.
Print Assumptions C82_float_product.

(** Ordinary arithmetic with the radix-2 transform is accurate, for every rounding, with underflow. *)
Theorem C82_machine : forall rnd u tau m, (0 <= u <= / 16)%R -> (0 <= tau)%R -> rounding rnd u tau -> (2 * 2 ^ m * tau <= 1)%R ->
  let v := (u * (1 + 2 * 2 ^ m * tau))%R in
  accurate (machine rnd) (2 * 2 ^ m) v (3 * v) v (((1 + v) * ((1 + 3 * v) * (1 + v))) ^ m - 1) (4 * 2 ^ m * tau).
Proof. exact machine_accurate. Qed.
Print Assumptions C82_machine.

(** Rounding to an f64 is such a rounding: Flocq's binary64, to nearest. *)
Theorem C82_binary64 : rounding binary64 (/ 2 ^ 53) (/ 2 ^ 1022).
Proof. exact binary64_rounding. Qed.
Print Assumptions C82_binary64.

(** Double precision. *)
Theorem C82_double : forall rnd shape m D L, rounding rnd (/ 2 ^ 53) (/ 2 ^ 1022) -> 1 <= D -> (0 < L)%nat -> (m <= 1000)%nat ->
  15 * Z.of_nat m + 19 + Z.of_nat L <= 2 ^ 48 ->
  (forall ts, (length ts <= L)%nat -> sums (2 * 2 ^ m) (shape ts) ts L) ->
  fft_ok (2 * 2 ^ m) (float_fft (machine rnd) shape (2 * 2 ^ m)) D L (double_error m D L).
Proof.
  intros rnd shape m D L Hr HD HL Hm HK Hs.
  assert (0 < / 2 ^ 53 <= / 16)%R as Hu.
  { split; [apply Rinv_0_lt_compat, pow_lt; lra|]. apply Rinv_le_contravar; [lra|]. replace 16%R with (2 ^ 4)%R by (cbn; ring). apply Rle_pow; [lra|lia]. }
  assert (0 < / 2 ^ 1022)%R as Ht by (apply Rinv_0_lt_compat, pow_lt; lra).
  assert (2 ^ m * / 2 ^ 1022 <= / 2 ^ 22)%R as Hs22.
  { apply Rmult_le_reg_r with (2 ^ 1022)%R; [apply pow_lt; lra|]. rewrite Rmult_assoc, Rinv_l, Rmult_1_r by (apply pow_nonzero; lra).
    replace 1022%nat with (22 + 1000)%nat by reflexivity. rewrite (pow_add 2 22 1000), <- Rmult_assoc, Rinv_l, Rmult_1_l by (apply pow_nonzero; lra). apply Rle_pow; [lra|exact Hm]. }
  assert (/ 2 ^ 22 <= / 4000)%R as H22 by (apply Rinv_le_contravar; cbn; lra).
  assert (0 < 2 ^ m * / 2 ^ 1022)%R as Hpos by (apply Rmult_lt_0_compat; [apply pow_lt; lra|exact Ht]).
  pose proof (C82_machine rnd (/ 2 ^ 53) (/ 2 ^ 1022) m ltac:(lra) ltac:(lra) Hr ltac:(lra)) as Hacc. cbv zeta in Hacc.
  assert (0 <= / 2 ^ 53 * (1 + 2 * 2 ^ m * / 2 ^ 1022) <= / 2 ^ 53 * (1001 / 1000))%R as Hv.
  { split; [apply Rmult_le_pos; lra|apply Rmult_le_compat_l; lra]. }
  revert Hacc Hv. generalize (/ 2 ^ 53 * (1 + 2 * 2 ^ m * / 2 ^ 1022))%R. intros v Hacc Hv.
  eapply C82_float_product; try exact Hacc; try exact Hs; try lra; try assumption.
  - apply Nat.neq_0_lt_0, Nat.pow_nonzero. lia.
  - assert (1 <= ((1 + v) * ((1 + 3 * v) * (1 + v))) ^ m)%R; [|lra]. apply pow_R1_Rle. assert (1 <= (1 + 3 * v) * (1 + v))%R by nra. nra.
  - apply double_bound; [lia|lia|lia|exact Hv|lra].
Qed.
Print Assumptions C82_double.
(** Adding one product after the other is such an order, so double precision really computes products. *)
Lemma one_by_one_ok n L ts : (length ts <= L)%nat -> sums n (one_by_one ts) ts L.
Proof. intros H. eapply sums_mono; [apply one_by_one_sums|exact H]. Qed.
Example C82_applies : fft_ok 1024 (float_fft (machine binary64) one_by_one 1024) 4 6 (double_error 9 4 6) /\ double_error 9 4 6 = 4529850626.
Proof.
  split; [|reflexivity]. change 1024%nat with (2 * 2 ^ 9)%nat. apply C82_double; [exact C82_binary64|lia|lia|lia|lia|intros ts; apply one_by_one_ok].
Qed.

(** *** The default parameters. *)
Definition default_double : Z := 158620190978.
Lemma default_double_ok : default_double = double_error 10 16 22 /\ default_double < 2 ^ 38.
Proof. split; reflexivity. Qed.
Theorem C82_default : forall md cx rnd shape, context_new md default_tfhe = Ok cx -> rounding rnd (/ 2 ^ 53) (/ 2 ^ 1022) ->
  (forall ts, (length ts <= 22)%nat -> sums 2048 (shape ts) ts 22) ->
  fft_for cx (float_fft (machine rnd) shape 2048) default_double.
Proof.
  intros md cx rnd shape Hcx Hr Hs. destruct (default_fields md cx Hcx) as (_ & En & Eb & El & Ekb & Ekl & _).
  unfold fft_for. rewrite En, Eb, El, Ekb, Ekl.
  replace (c_negs_level cx) with 11%nat by (unfold context_new in Hcx; destruct (codec_new md _); [|discriminate]; injection Hcx as <-; reflexivity).
  change 2048%nat with (2 * 2 ^ 10)%nat in *. change (Nat.max (2 * 9) (Nat.max (2 * 11) (11 + 1))) with 22%nat. change (2 ^ (Z.of_nat (Nat.max 5 5) - 1)) with 16.
  change default_double with (double_error 10 16 22). apply C82_double; [exact Hr|lia|lia|lia|lia|exact Hs].
Qed.
Print Assumptions C82_default.
(** Up to 110 selections in a row, with double precision and every rounding. *)
Theorem C82_default_chain : forall md cx rnd shape s pt0 d steps t,
  context_new md default_tfhe = Ok cx -> rounding rnd (/ 2 ^ 53) (/ 2 ^ 1022) -> (forall ts, (length ts <= 22)%nat -> sums 2048 (shape ts) ts 22) ->
  binary_key 2048 s -> plaintext 2048 8 pt0 -> draw_ok 2048 default_noise d ->
  Forall (fun bp => plaintext 2048 8 (snd bp)) steps -> (length steps <= 110)%nat ->
  (forall j, tape_ok 2048 default_noise (t j)) ->
  exists c0 c, encode_encrypt_rlwe cx s pt0 d = Ok c0 /\ mux_chain (float_fft (machine rnd) shape 2048) cx s t 0 c0 steps = Ok c /\
    decrypt_decode_rlwe cx s c = Ok (chosen pt0 steps).
Proof.
  intros md cx rnd shape s pt0 d steps t Hcx Hr Hsh Hs Hp Hd Hst Hlen Ht.
  apply (C69_default_chain md cx _ default_double); auto; [eapply C82_default; eassumption|unfold default_double; lia|].
  unfold default_double. change (2 ^ 34) with 17179869184. change (2 ^ 56) with 72057594037927936. lia.
Qed.
Print Assumptions C82_default_chain.

(** *** A ring small enough that double precision suffices for every step of the protocols, with no other
    assumption on the Fourier transform: ring dimension 32, 2 bits x 19 levels, plaintext modulus 2, all binary keys,
    the default noise. *)
Definition double_tfhe : tfhe_params :=
  {| tp_standard_deviation := -55; tp_polynomial_size := 32; tp_base_log := 2; tp_level_count := 19;
     tp_ks_base_log := 2; tp_ks_level_count := 19; tp_negs_base_log := 2; tp_negs_level_count := 19;
     tp_plaintext_modulus := 2; tp_secure_seed := true |}.
Definition small_double : Z := 327796994.
Lemma double_context md : exists cx, context_new md double_tfhe = Ok cx /\ params_ok cx 5 1 /\ c_n cx = 32%nat /\
  c_base cx = 2%nat /\ c_level cx = 19%nat /\ c_negs_level cx = 19%nat /\ c_ks_base cx = 2%nat /\ c_ks_level cx = 19%nat.
Proof.
  assert (exists c, codec_new md (2 ^ 1) = Ok c) as (c & Ec) by (destruct md; eexists; vm_compute; reflexivity).
  eexists. unfold context_new. cbn [double_tfhe tp_plaintext_modulus]. change 2 with (2 ^ 1) at 1. rewrite Ec. cbn [bind]. split; [reflexivity|]. split; [|repeat split; reflexivity].
  unfold params_ok, decomp_ok. cbn [c_n c_base c_level c_ks_base c_ks_level c_negs_base c_negs_level c_mode c_codec double_tfhe tp_polynomial_size tp_base_log tp_level_count tp_ks_base_log tp_ks_level_count tp_negs_base_log tp_negs_level_count].
  change (Z.to_nat 2) with 2%nat. change (Z.to_nat 19) with 19%nat. change (Z.to_nat 32) with 32%nat.
  repeat split; auto; try lia; apply Nat.leb_le; reflexivity.
Qed.
Lemma double_for md cx rnd shape : context_new md double_tfhe = Ok cx -> rounding rnd (/ 2 ^ 53) (/ 2 ^ 1022) ->
  (forall ts, (length ts <= 38)%nat -> sums 32 (shape ts) ts 38) -> fft_for cx (float_fft (machine rnd) shape 32) small_double.
Proof.
  intros Hcx Hr Hs. destruct (double_context md) as (cx' & E & _ & En & Eb & El & Eg & Ekb & Ekl). rewrite Hcx in E. injection E as <-.
  unfold fft_for. rewrite En, Eb, El, Ekb, Ekl, Eg. change 32%nat with (2 * 2 ^ 4)%nat in *.
  change (Nat.max (2 * 19) (Nat.max (2 * 19) (19 + 1))) with 38%nat. change (2 ^ (Z.of_nat (Nat.max 2 2) - 1)) with 2.
  change small_double with (double_error 4 2 38). apply C82_double; [exact Hr|lia|lia|lia|lia|exact Hs].
Qed.
(** Private evaluation, from the client's features to its predictions: every tree whose leaf depths add up to at
    most 64. *)
Theorem C82_protocol : forall md cx rnd shape s model features t,
  context_new md double_tfhe = Ok cx -> rounding rnd (/ 2 ^ 53) (/ 2 ^ 1022) -> (forall ts, (length ts <= 38)%nat -> sums 32 (shape ts) ts 38) ->
  binary_key 32 s -> tape_ok 32 default_noise t ->
  (exists th f ix op l r, model = Internal th f ix op l r) ->
  (forall th f ix op l r, sub (Internal th f ix op l r) model -> (th < 32)%nat) ->
  Forall (fun x => Z.of_nat x < 2 ^ 48) (labels model) -> (exists y, In y (labels model) /\ y <> 0%nat) ->
  Forall (fun fs => evaluable model fs /\ Forall (fun v => (v < 32)%nat) fs) features ->
  (list_sum (leaf_depths model) <= 64)%nat ->
  exists preds, simulate (float_fft (machine rnd) shape 32) cx s model features t = Ok preds /\
    Forall2 (fun fs p => exists x, predicts model fs x /\ p = Z.of_nat x) features preds.
Proof.
  intros md cx rnd shape s model features t Hcx Hr Hsh Hs Ht Hi Hth Hl Hnz Hfs Hd. pose proof (double_for md cx rnd shape Hcx Hr Hsh) as Hf.
  destruct (double_context md) as (cx' & E & Hp & En & Eb & El & Eg & Ekb & Ekl). rewrite Hcx in E. injection E as <-.
  pose proof (binary_key_l1 _ s Hs) as HS. change (Z.of_nat 32) with 32 in HS. rewrite <- En in Hs, HS, Ht, Hth, Hfs.
  apply (C39_private_evaluation 5 1 cx (float_fft (machine rnd) shape 32) small_double s 32 default_noise); auto.
  assert (ep_bound (c_n cx) (c_base cx) (c_level cx) 32 1 (decision_noise cx 32 default_noise small_double) small_double <= 2 ^ 56 - 1) as He.
  { unfold decision_noise. rewrite En, Eb, El, Ekb, Ekl, Eg. apply Z.leb_le. vm_compute. reflexivity. }
  change (2 ^ (64 - 1)) with (128 * 2 ^ 56). clear - Hd He. nia.
Qed.
Print Assumptions C82_protocol.
(** A whole session with an ORAM of up to 8 cells in one row: up to 1000 requests. *)
Theorem C82_oram : forall md cx pool rnd shape s a nh hc dom gp t0 rqs dm t,
  context_new md double_tfhe = Ok cx -> rounding rnd (/ 2 ^ 53) (/ 2 ^ 1022) -> (forall ts, (length ts <= 38)%nat -> sums 32 (shape ts) ts 38) ->
  binary_key 32 s -> (1 <= a <= 3)%nat -> hash_for nh hc dom -> (hc * dom = 2 ^ a)%nat ->
  (forall i, plaintext 32 1 (gp i)) -> tape_ok 32 default_noise t0 ->
  Forall (request_ok cx 1 dom) rqs -> (forall j, plaintext 32 1 (dm j 0%nat)) -> (forall j, tape_ok 32 default_noise (t j)) ->
  (length rqs <= 1000)%nat ->
  exists cl sv pts ys sv', setup_random_oram 1 (2 ^ a) nh cx s gp t0 = Ok (cl, sv, pts) /\
    session pool (float_fft (machine rnd) shape 32) cl nh dm t 0 sv rqs = Ok (ys, sv') /\
    Forall2 (fun y pt => decrypt_decode_rlwe cx s y = Ok pt) ys (answers (fun i => nth i pts []) rqs).
Proof.
  intros md cx pool rnd shape s a nh hc dom gp t0 rqs dm t Hcx Hr Hsh Hs Ha Hh Hdim Hgp Ht0 Hrq Hdm Ht Hlen. pose proof (double_for md cx rnd shape Hcx Hr Hsh) as Hf.
  destruct (double_context md) as (cx' & E & Hp & En & Eb & El & Eg & _). rewrite Hcx in E. injection E as <-.
  pose proof (binary_key_l1 _ s Hs) as HS. change (Z.of_nat 32) with 32 in HS. rewrite <- En in Hs, HS, Hgp, Ht0, Hdm, Ht.
  apply (C43_setup_then_history pool cx 5 1 (float_fft (machine rnd) shape 32) small_double s 32 default_noise a nh hc dom); auto.
  - split; [exact Hp|split; [exact Hf|split; [exact Hs|exact HS]]].
  - right. rewrite El. discriminate.
  - lia.
  - unfold growth, answer_growth, ep_sel, sel_noise, ep_fresh. rewrite En, Eb, El, Eg.
    assert (forall L : Z, L <= 1000 -> forall g ag, 0 <= g -> 2 * (default_noise + 1000 * g + ag) < 2 ^ (64 - 1) -> 2 * (default_noise + L * g + ag) < 2 ^ (64 - 1)) as Hm.
    { clear. intros L HL g ag Hg H. nia. }
    apply Hm; [lia| |]; assert (a = 1 \/ a = 2 \/ a = 3)%nat as Hc by lia; destruct Hc as [Hc | [Hc | Hc]]; rewrite Hc; vm_compute; congruence.
Qed.
Print Assumptions C82_oram.

(** *** The hypotheses are satisfiable: binary64, the all-ones key, noise of +-4000, the tree of C39. *)
Example C82_chain_applies : exists cx c0 c, context_new Checked default_tfhe = Ok cx /\
  encode_encrypt_rlwe cx (repeat 1 2048) (repeat 200 2048) (noisy 2048 7 0%nat) = Ok c0 /\
  mux_chain (float_fft (machine binary64) one_by_one 2048) cx (repeat 1 2048) (noisy 2048) 0 c0 (repeat (true, repeat 99 2048) 100) = Ok c /\
  decrypt_decode_rlwe cx (repeat 1 2048) c = Ok (chosen (repeat 200 2048) (repeat (true, repeat 99 2048) 100)).
Proof.
  destruct (C69_default_context Checked) as (cx & E & _). exists cx.
  destruct (C82_default_chain Checked cx binary64 one_by_one (repeat 1 2048) (repeat 200 2048) (noisy 2048 7 0%nat) (repeat (true, repeat 99 2048) 100) (noisy 2048))
    as (c0 & c & H); [exact E|exact C82_binary64|intros ts; apply one_by_one_ok|apply ones_binary| |apply noisy_ok| | | |exists c0, c; split; [exact E|exact H]].
  - apply flat_plaintext. lia.
  - apply Forall_forall. intros y Hy. apply repeat_spec in Hy. subst. apply flat_plaintext. lia.
  - rewrite repeat_length. lia.
  - intros j. apply noisy_ok.
Qed.
Example C82_protocol_applies : exists cx preds, context_new Checked double_tfhe = Ok cx /\
  simulate (float_fft (machine binary64) one_by_one 32) cx (repeat 1 32) c39_tree [[1%nat; 2%nat]; [0%nat; 31%nat]] (noisy 32 0) = Ok preds /\
  Forall2 (fun fs p => exists x, predicts c39_tree fs x /\ p = Z.of_nat x) [[1%nat; 2%nat]; [0%nat; 31%nat]] preds.
Proof.
  destruct (double_context Checked) as (cx & E & _). exists cx.
  destruct (C82_protocol Checked cx binary64 one_by_one (repeat 1 32) c39_tree [[1%nat; 2%nat]; [0%nat; 31%nat]] (noisy 32 0)) as (preds & H);
    [exact E|exact C82_binary64|intros ts; apply one_by_one_ok|apply ones_binary|apply noisy_ok|repeat eexists| | | | | |exists preds; split; [exact E|exact H]].
  - intros th f ix op l r H. pose proof (c39_thresholds th f ix op l r H). lia.
  - repeat constructor.
  - exists 5%nat. split; [cbn; auto|discriminate].
  - repeat (apply Forall_cons || apply Forall_nil); (split; [apply c39_evaluable|]); repeat (apply Forall_cons || apply Forall_nil); apply Nat.ltb_lt; reflexivity.
  - cbn. lia.
Qed.
Example C82_oram_applies : exists cx nh cl sv pts ys sv', context_new Checked double_tfhe = Ok cx /\
  nh_new (fun l => rev l) 2 4 = Ok nh /\
  setup_random_oram 1 (2 ^ 3) nh cx (repeat 1 32) (fun i => repeat (Z.of_nat (i mod 2)) 32) (noisy 32 0) = Ok (cl, sv, pts) /\
  session true (float_fft (machine binary64) one_by_one 32) cl nh (fun _ _ => repeat 0 32) (noisy 32) 0 sv [Write 3 (repeat 1 32); Read 3; Read 1] = Ok (ys, sv') /\
  Forall2 (fun y pt => decrypt_decode_rlwe cx (repeat 1 32) y = Ok pt) ys
    (answers (fun i => nth i pts []) [Write 3 (repeat 1 32); Read 3; Read 1]).
Proof.
  destruct (double_context Checked) as (cx & E & _ & En & _). assert (exists nh, nh_new (fun l => rev l) 2 4 = Ok nh) as (nh & Enh) by (eexists; reflexivity).
  exists cx, nh.
  destruct (C82_oram Checked cx true binary64 one_by_one (repeat 1 32) 3 nh 2 4 (fun i => repeat (Z.of_nat (i mod 2)) 32) (noisy 32 0)
    [Write 3 (repeat 1 32); Read 3; Read 1] (fun _ _ => repeat 0 32) (noisy 32)) as (cl & sv & pts & ys & sv' & H);
    [exact E|exact C82_binary64|intros ts; apply one_by_one_ok| | | | | | | | | | |exists cl, sv, pts, ys, sv'; auto].
  - apply ones_binary.
  - lia.
  - exists (@rev nat). split; [intros l; symmetry; apply Permutation_rev|exact Enh].
  - reflexivity.
  - intros i. apply flat_plaintext. pose proof (Nat.mod_upper_bound i 2 ltac:(lia)). lia.
  - apply noisy_ok.
  - repeat apply Forall_cons; try apply Forall_nil; split; cbn [target]; try lia; try exact I. rewrite En. apply flat_plaintext. lia.
  - intros j. apply flat_plaintext. lia.
  - intros j. apply noisy_ok.
  - cbn [length]. lia.
Qed.
