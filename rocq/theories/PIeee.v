(** * Property C92: on IEEE 754 numbers, with infinities and NaN, the Fourier multiplication never overflows. *)
From Coq Require Import Permutation Reals Lra.
From Flocq Require Import Core IEEE754.BinarySingleNaN.
From Verif Require Import MBase MUtils MCodec MPoly MRlwe MHash MTree MEncTree MParams MSched MOram MFft MIeee.
From Verif Require Import SpecRing SpecLwe SpecEnc SpecTree SpecOram SpecFft SpecDouble SpecIeee.
From Verif Require Import PfPoly PfNear PfRlwe PfRlwe2 PfRlwe5 PfEnc PfEnc2 PfEnc3 PfEnc4 PfOram4 PfFft4 PfFft5 PfFft6 PfDouble PfIeee LRlwe LOram PRlwe PKeys PEnc POram PDefault PFft.
Local Open Scope Z_scope.

(** C92.  With correctly rounded tables, in a ring of dimension 2^(m+1) and with sums of depth d, 6 m + d <= 955: whatever the polynomials, no
    coefficient of the result is an infinity or a NaN before it is converted to a word, and the result is the one of the arithmetic
    on real numbers (C82), where nothing overflows. *)
Theorem C92_no_overflow : forall T m shape ts, rounded_tables T (2 * 2 ^ m) ->
  Forall (fun ab => Forall is_word (fst ab) /\ Forall is_word (snd ab)) ts -> (6 * m + sum_depth (shape ts) <= 955)%nat ->
  (forall j, (j < 2 ^ m)%nat -> let z := c_inverse T (2 * 2 ^ m) (fun k => fst (c_accumulate T (2 * 2 ^ m) (shape ts) ts k)) j in is_finite (fst z) = true /\ is_finite (snd z) = true) /\
  ieee_fft T shape (2 * 2 ^ m) ts = float_fft real_machine shape (2 * 2 ^ m) ts.
Proof. intros T m shape ts HT Hts Hd. apply ieee_fft_real; [exact HT|exact Hts|lia]. Qed.
Print Assumptions C92_no_overflow.

(** So double precision is as accurate as C82 says. *)
Lemma real_machine_double shape m D L : 1 <= D -> (0 < L)%nat -> (m <= 1000)%nat -> 15 * Z.of_nat m + 19 + Z.of_nat L <= 2 ^ 48 ->
  (forall ts, (length ts <= L)%nat -> sums (2 * 2 ^ m) (shape ts) ts L) -> fft_ok (2 * 2 ^ m) (float_fft real_machine shape (2 * 2 ^ m)) D L (double_error m D L).
Proof.
  intros HD HL Hm HK Hs.
  assert (0 < / 2 ^ 53 <= / 16)%R as Hu.
  { split; [apply Rinv_0_lt_compat, pow_lt; lra|]. apply Rinv_le_contravar; [lra|]. replace 16%R with (2 ^ 4)%R by (cbn; ring). apply Rle_pow; [lra|lia]. }
  assert (0 < / 2 ^ 1022)%R as Ht by (apply Rinv_0_lt_compat, pow_lt; lra).
  assert (2 ^ m * / 2 ^ 1022 <= / 2 ^ 22)%R as Hs22.
  { apply Rmult_le_reg_r with (2 ^ 1022)%R; [apply pow_lt; lra|]. rewrite Rmult_assoc, Rinv_l, Rmult_1_r by (apply pow_nonzero; lra).
    replace 1022%nat with (22 + 1000)%nat by reflexivity. rewrite (pow_add 2 22 1000), <- Rmult_assoc, Rinv_l, Rmult_1_l by (apply pow_nonzero; lra). apply Rle_pow; [lra|exact Hm]. }
  assert (/ 2 ^ 22 <= / 4000)%R as H22 by (apply Rinv_le_contravar; cbn; lra).
  assert (0 < 2 ^ m * / 2 ^ 1022)%R as Hpos by (apply Rmult_lt_0_compat; [apply pow_lt; lra|exact Ht]).
  pose proof (C82_machine binary64 (/ 2 ^ 53) (/ 2 ^ 1022) m ltac:(lra) ltac:(lra) C82_binary64 ltac:(lra)) as Hacc. cbv zeta in Hacc.
  assert (0 <= / 2 ^ 53 * (1 + 2 * 2 ^ m * / 2 ^ 1022) <= / 2 ^ 53 * (1001 / 1000))%R as Hv.
  { split; [apply Rmult_le_pos; lra|apply Rmult_le_compat_l; lra]. }
  revert Hacc Hv. generalize (/ 2 ^ 53 * (1 + 2 * 2 ^ m * / 2 ^ 1022))%R. intros v Hacc Hv.
  eapply C82_float_product with (u := v) (nu := (3 * v)%R) (w := v) (phi := (((1 + v) * ((1 + 3 * v) * (1 + v))) ^ m - 1)%R) (t := (4 * 2 ^ m * / 2 ^ 1022)%R) (d := L); try exact Hs; try lra; try assumption.
  - apply Nat.neq_0_lt_0, Nat.pow_nonzero. lia.
  - assert (1 <= ((1 + v) * ((1 + 3 * v) * (1 + v))) ^ m)%R; [|lra]. apply pow_R1_Rle. assert (1 <= (1 + 3 * v) * (1 + v))%R by nra. nra.
  - destruct Hacc as (A1 & A2 & A3). split; [exact A1|]. split; [|exact A3]. intros x. cbn [real_machine fl_rint]. rewrite Rabs_minus_sym. apply Znearest_half.
  - apply double_bound; [lia|lia|lia|exact Hv|lra].
Qed.
Lemma sums_depth n t ts d : sums n t ts d -> (sum_depth t <= d)%nat.
Proof. induction 1; cbn [sum_depth]; lia. Qed.
Theorem C92_accurate : forall T shape m D L, rounded_tables T (2 * 2 ^ m) -> 1 <= D -> (0 < L)%nat -> (6 * m + L <= 955)%nat ->
  (forall ts, (length ts <= L)%nat -> sums (2 * 2 ^ m) (shape ts) ts L) ->
  fft_ok (2 * 2 ^ m) (ieee_fft T shape (2 * 2 ^ m)) D L (double_error m D L).
Proof.
  intros T shape m D L HT HD HL Hm Hs ts Hl Hts. destruct (C92_no_overflow T m shape ts HT) as [_ ->].
  - eapply Forall_impl; [|exact Hts]. intros [a b] (Wa & Wb & _). split; [apply Wa|apply Wb].
  - pose proof (sums_depth _ _ _ _ (Hs ts Hl)). lia.
  - apply real_machine_double; auto; lia.
Qed.
Print Assumptions C92_accurate.

(** *** Default parameters: the FFT every theorem about them asks for. *)
Theorem C92_default : forall md cx T shape, context_new md default_tfhe = Ok cx -> rounded_tables T 2048 ->
  (forall ts, (length ts <= 22)%nat -> sums 2048 (shape ts) ts 22) ->
  fft_for cx (ieee_fft T shape 2048) default_double.
Proof.
  intros md cx T shape Hcx HT Hs. destruct (default_fields md cx Hcx) as (_ & En & Eb & El & Ekb & Ekl & _).
  unfold fft_for. rewrite En, Eb, El, Ekb, Ekl.
  replace (c_negs_level cx) with 11%nat by (unfold context_new in Hcx; destruct (codec_new md _); [|discriminate]; injection Hcx as <-; reflexivity).
  change 2048%nat with (2 * 2 ^ 10)%nat in *. change (Nat.max (2 * 9) (Nat.max (2 * 11) (11 + 1))) with 22%nat. change (2 ^ (Z.of_nat (Nat.max 5 5) - 1)) with 16.
  change default_double with (double_error 10 16 22). apply C92_accurate; [exact HT|lia|lia|lia|exact Hs].
Qed.
Print Assumptions C92_default.
Theorem C92_default_chain : forall md cx T shape s pt0 d steps t,
  context_new md default_tfhe = Ok cx -> rounded_tables T 2048 -> (forall ts, (length ts <= 22)%nat -> sums 2048 (shape ts) ts 22) ->
  binary_key 2048 s -> plaintext 2048 8 pt0 -> draw_ok 2048 default_noise d ->
  Forall (fun bp => plaintext 2048 8 (snd bp)) steps -> (length steps <= 110)%nat ->
  (forall j, tape_ok 2048 default_noise (t j)) ->
  exists c0 c, encode_encrypt_rlwe cx s pt0 d = Ok c0 /\ mux_chain (ieee_fft T shape 2048) cx s t 0 c0 steps = Ok c /\
    decrypt_decode_rlwe cx s c = Ok (chosen pt0 steps).
Proof.
  intros md cx T shape s pt0 d steps t Hcx HT Hsh Hs Hp Hd Hst Hlen Ht.
  apply (C69_default_chain md cx _ default_double); auto; [eapply C92_default; eassumption|unfold default_double; lia|].
  unfold default_double. change (2 ^ 34) with 17179869184. change (2 ^ 56) with 72057594037927936. lia.
Qed.
Print Assumptions C92_default_chain.

(** *** The ring of dimension 32 of C82: whole evaluations and sessions. *)
Lemma ieee_small md cx T shape : context_new md double_tfhe = Ok cx -> rounded_tables T 32 ->
  (forall ts, (length ts <= 38)%nat -> sums 32 (shape ts) ts 38) -> fft_for cx (ieee_fft T shape 32) small_double.
Proof.
  intros Hcx HT Hs. destruct (double_context md) as (cx' & E & _ & En & Eb & El & Eg & Ekb & Ekl). rewrite Hcx in E. injection E as <-.
  unfold fft_for. rewrite En, Eb, El, Ekb, Ekl, Eg. change 32%nat with (2 * 2 ^ 4)%nat in *.
  change (Nat.max (2 * 19) (Nat.max (2 * 19) (19 + 1))) with 38%nat. change (2 ^ (Z.of_nat (Nat.max 2 2) - 1)) with 2.
  change small_double with (double_error 4 2 38). apply C92_accurate; [exact HT|lia|lia|lia|exact Hs].
Qed.
Theorem C92_protocol : forall md cx T shape s model features t,
  context_new md double_tfhe = Ok cx -> rounded_tables T 32 -> (forall ts, (length ts <= 38)%nat -> sums 32 (shape ts) ts 38) ->
  binary_key 32 s -> tape_ok 32 default_noise t ->
  (exists th f ix op l r, model = Internal th f ix op l r) ->
  (forall th f ix op l r, sub (Internal th f ix op l r) model -> (th < 32)%nat) ->
  Forall (fun x => Z.of_nat x < 2 ^ 48) (labels model) -> (exists y, In y (labels model) /\ y <> 0%nat) ->
  Forall (fun fs => evaluable model fs /\ Forall (fun v => (v < 32)%nat) fs) features ->
  (list_sum (leaf_depths model) <= 64)%nat ->
  exists preds, simulate (ieee_fft T shape 32) cx s model features t = Ok preds /\
    Forall2 (fun fs p => exists x, predicts model fs x /\ p = Z.of_nat x) features preds.
Proof.
  intros md cx T shape s model features t Hcx HT Hsh Hs Ht Hi Hth Hl Hnz Hfs Hd. pose proof (ieee_small md cx T shape Hcx HT Hsh) as Hf.
  destruct (double_context md) as (cx' & E & Hp & En & Eb & El & Eg & Ekb & Ekl). rewrite Hcx in E. injection E as <-.
  pose proof (binary_key_l1 _ s Hs) as HS. change (Z.of_nat 32) with 32 in HS. rewrite <- En in Hs, HS, Ht, Hth, Hfs.
  apply (C39_private_evaluation 5 1 cx (ieee_fft T shape 32) small_double s 32 default_noise); auto.
  assert (ep_bound (c_n cx) (c_base cx) (c_level cx) 32 1 (decision_noise cx 32 default_noise small_double) small_double <= 2 ^ 56 - 1) as He.
  { unfold decision_noise. rewrite En, Eb, El, Ekb, Ekl, Eg. apply Z.leb_le. vm_compute. reflexivity. }
  change (2 ^ (64 - 1)) with (128 * 2 ^ 56). clear - Hd He. nia.
Qed.
Print Assumptions C92_protocol.
Theorem C92_oram : forall md cx pool T shape s a nh hc dom gp t0 rqs dm t,
  context_new md double_tfhe = Ok cx -> rounded_tables T 32 -> (forall ts, (length ts <= 38)%nat -> sums 32 (shape ts) ts 38) ->
  binary_key 32 s -> (1 <= a <= 3)%nat -> hash_for nh hc dom -> (hc * dom = 2 ^ a)%nat ->
  (forall i, plaintext 32 1 (gp i)) -> tape_ok 32 default_noise t0 ->
  Forall (request_ok cx 1 dom) rqs -> (forall j, plaintext 32 1 (dm j 0%nat)) -> (forall j, tape_ok 32 default_noise (t j)) ->
  (length rqs <= 1000)%nat ->
  exists cl sv pts ys sv', setup_random_oram 1 (2 ^ a) nh cx s gp t0 = Ok (cl, sv, pts) /\
    session pool (ieee_fft T shape 32) cl nh dm t 0 sv rqs = Ok (ys, sv') /\
    Forall2 (fun y pt => decrypt_decode_rlwe cx s y = Ok pt) ys (answers (fun i => nth i pts []) rqs).
Proof.
  intros md cx pool T shape s a nh hc dom gp t0 rqs dm t Hcx HT Hsh Hs Ha Hh Hdim Hgp Ht0 Hrq Hdm Ht Hlen. pose proof (ieee_small md cx T shape Hcx HT Hsh) as Hf.
  destruct (double_context md) as (cx' & E & Hp & En & Eb & El & Eg & _). rewrite Hcx in E. injection E as <-.
  pose proof (binary_key_l1 _ s Hs) as HS. change (Z.of_nat 32) with 32 in HS. rewrite <- En in Hs, HS, Hgp, Ht0, Hdm, Ht.
  apply (C43_setup_then_history pool cx 5 1 (ieee_fft T shape 32) small_double s 32 default_noise a nh hc dom); auto.
  - split; [exact Hp|split; [exact Hf|split; [exact Hs|exact HS]]].
  - right. rewrite El. discriminate.
  - lia.
  - unfold growth, answer_growth, ep_sel, sel_noise, ep_fresh. rewrite En, Eb, El, Eg.
    assert (forall L : Z, L <= 1000 -> forall g ag, 0 <= g -> 2 * (default_noise + 1000 * g + ag) < 2 ^ (64 - 1) -> 2 * (default_noise + L * g + ag) < 2 ^ (64 - 1)) as Hm.
    { clear. intros L HL g ag Hg H. nia. }
    apply Hm; [lia| |]; assert (a = 1 \/ a = 2 \/ a = 3)%nat as Hc by lia; destruct Hc as [Hc | [Hc | Hc]]; rewrite Hc; vm_compute; congruence.
Qed.
Print Assumptions C92_oram.

(** *** Correctly rounded tables exist. *)
Definition to_f64 (x : R) : f64 :=
  binary_normalize 53 1024 _ _ mode_NE (Ztrunc (scaled_mantissa Flocq.Core.Zaux.radix2 (FLT_exp (-1074) 53) (binary64 x))) (cexp Flocq.Core.Zaux.radix2 (FLT_exp (-1074) 53) (binary64 x)) false.
Lemma to_f64_number x : (Rabs x <= 1)%R -> number (to_f64 x) (binary64 x).
Proof.
  intros H. assert (generic_format Flocq.Core.Zaux.radix2 (FLT_exp (-1074) 53) (binary64 x)) as G by (apply generic_format_round; [apply FLT_exp_valid; reflexivity|typeclasses eauto]).
  assert (Rabs (binary64 x) <= bpow Flocq.Core.Zaux.radix2 0)%R as B by (apply binary64_le; [lia|exact H]).
  pose proof G as G'. unfold generic_format in G'. unfold to_f64. 
  destruct (normalize_rep (Ztrunc (scaled_mantissa Flocq.Core.Zaux.radix2 (FLT_exp (-1074) 53) (binary64 x))) (cexp Flocq.Core.Zaux.radix2 (FLT_exp (-1074) 53) (binary64 x)) 0) as [[F E] _]; [lia|rewrite <- G'; exact B|].
  split; [exact F|]. rewrite E, <- G'. apply round_generic; [typeclasses eauto|exact G].
Qed.
Definition to_c64 (z : cplx) : c64 := (to_f64 (fst z), to_f64 (snd z)).
Definition ideal_tables : tables := {|
  t_twist n j := to_c64 (cis (PI * INR j / INR n)%R); t_untwist n j := to_c64 (Cmul ((/ INR (n / 2))%R, 0%R) (cis (- (PI * INR j / INR n))%R));
  t_forward h r := to_c64 (cis (- (2 * PI * INR r / INR (2 * h)))%R); t_backward h r := to_c64 (cis (2 * PI * INR r / INR (2 * h))%R) |}.
Lemma ideal_rounded n : (2 <= n)%nat -> rounded_tables ideal_tables n.
Proof.
  intros Hn. assert (forall t, rounds (to_c64 (cis t)) (cis t)) as Hc.
  { intros t. split; apply to_f64_number, Rabs_le; [apply COS_bound|apply SIN_bound]. }
  split; [intros j _; apply Hc|]. split; [|split; intros h r _; apply Hc]. intros j _. cbn [ideal_tables t_untwist].
  assert (0 < / INR (n / 2) <= 1)%R as Hi.
  { assert (1 <= n / 2)%nat as H2 by (apply Nat.div_le_lower_bound; lia). apply le_INR in H2. cbn [INR] in H2. split; [apply Rinv_0_lt_compat; lra|]. rewrite <- Rinv_1. apply Rinv_le_contravar; lra. }
  assert (forall c, (-1 <= c <= 1)%R -> (Rabs (/ INR (n / 2) * c) <= 1)%R) as Hb.
  { intros c Hc'. rewrite Rabs_mult, (Rabs_pos_eq (/ INR (n / 2))) by lra. assert (Rabs c <= 1)%R by (apply Rabs_le; lra). pose proof (Rabs_pos c). nra. }
  split; apply to_f64_number; cbn [fst snd Cmul cis]; rewrite Rmult_0_l; [rewrite Rminus_0_r|rewrite Rplus_0_r]; apply Hb; [apply COS_bound|apply SIN_bound].
Qed.
Example C92_applies : fft_ok 1024 (ieee_fft ideal_tables one_by_one 1024) 4 6 4529850626 /\
  exists cx preds, context_new Checked double_tfhe = Ok cx /\
  simulate (ieee_fft ideal_tables one_by_one 32) cx (repeat 1 32) c39_tree [[1%nat; 2%nat]; [0%nat; 31%nat]] (noisy 32 0) = Ok preds /\
  Forall2 (fun fs p => exists x, predicts c39_tree fs x /\ p = Z.of_nat x) [[1%nat; 2%nat]; [0%nat; 31%nat]] preds.
Proof.
  split; [change 1024%nat with (2 * 2 ^ 9)%nat; change 4529850626 with (double_error 9 4 6); apply C92_accurate; [apply ideal_rounded; apply Nat.leb_le; reflexivity|lia|lia|lia|intros ts; apply one_by_one_ok]|].
  destruct (double_context Checked) as (cx & E & _). exists cx.
  destruct (C92_protocol Checked cx ideal_tables one_by_one (repeat 1 32) c39_tree [[1%nat; 2%nat]; [0%nat; 31%nat]] (noisy 32 0)) as (preds & H);
    [exact E|apply ideal_rounded; lia|intros ts; apply one_by_one_ok|apply ones_binary|apply noisy_ok|repeat eexists| | | | | |exists preds; split; [exact E|exact H]].
  - intros th f ix op l r H. pose proof (c39_thresholds th f ix op l r H). lia.
  - repeat constructor.
  - exists 5%nat. split; [cbn; auto|discriminate].
  - repeat (apply Forall_cons || apply Forall_nil); (split; [apply c39_evaluable|]); repeat (apply Forall_cons || apply Forall_nil); apply Nat.ltb_lt; reflexivity.
  - cbn. lia.
Qed.
(** The model computes: in the ring of dimension 2 the only factor is 1, and (2^62 + 3 X) (2 - X) = 2^63 + 3 + (6 - 2^62) X up to rounding. *)
Definition unit_tables : tables := let one := (f_pow2 0, f_zero) in {| t_twist _ _ := one; t_untwist _ _ := one; t_forward _ _ := one; t_backward _ _ := one |}.
Example C92_computes : ieee_fft unit_tables one_by_one 2 [([2 ^ 62; 3], [2; 2 ^ 64 - 1])] = [2 ^ 63; 2 ^ 64 - 2 ^ 62] /\
  ieee_fft unit_tables one_by_one 2 [([2 ^ 20; 3], [2; 2 ^ 64 - 1])] = [2 ^ 21 + 3; 2 ^ 64 - 2 ^ 20 + 6] /\ rounded_tables unit_tables 2.
Proof.
  split; [vm_compute; reflexivity|]. split; [vm_compute; reflexivity|].
  assert (forall z : cplx, z = (1%R, 0%R) -> rounds (f_pow2 0, f_zero) z) as H1.
  { intros z ->. destruct (f_pow2_rep 0 ltac:(lia)) as [[F E] _]. assert (generic_format Flocq.Core.Zaux.radix2 (FLT_exp (-1074) 53) (bpow Flocq.Core.Zaux.radix2 0)) as G by (apply format_pow; lia).
    split; cbn [fst snd]; split; [exact F| |reflexivity|]; unfold binary64; [rewrite E; symmetry; apply (round_generic _ _ _ _ G)|cbn; symmetry; apply round_0; typeclasses eauto]. }
  assert (cis 0 = (1%R, 0%R)) as C by (unfold cis; rewrite cos_0, sin_0; reflexivity).
  assert (forall j : nat, (j < 1)%nat -> INR j = 0%R) as J by (intros j Hj; replace j with 0%nat by lia; reflexivity).
  split; [|split; [|split]].
  - intros j Hj. change (2 / 2)%nat with 1%nat in Hj. apply H1. rewrite (J j Hj). replace (PI * 0 / INR 2)%R with 0%R by (unfold Rdiv; ring). exact C.
  - intros j Hj. change (2 / 2)%nat with 1%nat in *. apply H1. rewrite (J j Hj). replace (- (PI * 0 / INR 2))%R with 0%R by (unfold Rdiv; ring). rewrite C. unfold Cmul. cbn [fst snd INR]. f_equal; field.
  - intros h r Hr. assert (h = 1%nat) as -> by lia. apply H1. rewrite (J r (proj1 Hr)). replace (- (2 * PI * 0 / INR (2 * 1)))%R with 0%R by (unfold Rdiv; ring). exact C.
  - intros h r Hr. assert (h = 1%nat) as -> by lia. apply H1. rewrite (J r (proj1 Hr)). replace (2 * PI * 0 / INR (2 * 1))%R with 0%R by (unfold Rdiv; ring). exact C.
Qed.
