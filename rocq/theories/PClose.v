(** * Property C96: the Fourier multiplication is as accurate when its tables are only close to the roots of unity, and with fused multiply-add. *)
From Coq Require Import Permutation Reals Lra.
From Flocq Require Import Core IEEE754.BinarySingleNaN.
From Verif Require Import MBase MUtils MCodec MPoly MRlwe MHash MTree MEncTree MParams MSched MOram MFft MIeee MIeee2.
From Verif Require Import SpecRing SpecLwe SpecEnc SpecTree SpecOram SpecFft SpecFft2 SpecDouble SpecIeee SpecIeee2 SpecTables.
From Verif Require Import PfPoly PfNear PfRlwe PfRlwe2 PfRlwe5 PfEnc PfEnc2 PfEnc3 PfEnc4 PfOram4 PfFft1 PfFft3 PfFft4 PfFft5 PfFft6 PfFft7 PfFft8 PfDouble PfIeee PfIeee2 PfTables LRlwe LOram PRlwe PKeys PEnc POram PDefault PFft PIeee.
Local Open Scope Z_scope.

(** C96.  Arithmetic on reals: rounding with a relative error of at most u (underflow below tau), a complex multiplication within 3 u, tables
    within w >= u of the factors.  All operations of the Fourier domain are accurate, and each of the m stages of a transform
    multiplies the error by (1 + u) (1 + 3u) (1 + w). *)
Theorem C96_machine : forall rnd u tau m mul twist untwist fwd bwd w, (0 <= u <= / 16)%R -> (0 <= tau)%R -> rounding rnd u tau ->
  (forall x y, Cabs (Csub (mul x y) (Cmul x y)) <= 3 * u * (Cabs x * Cabs y + 2 * tau))%R ->
  close_to_roots twist untwist fwd bwd (2 * 2 ^ m) w -> (u <= w <= / 8)%R ->
  accurate (machine_with rnd mul twist untwist fwd bwd) (2 * 2 ^ m) u (3 * u) w (((1 + u) * ((1 + 3 * u) * (1 + w))) ^ m - 1) (4 * 2 ^ m * tau).
Proof. exact machine_with_accurate. Qed.
Print Assumptions C96_machine.
(** Multiplying with or without fused multiply-add is such a multiplication. *)
Theorem C96_multiplication : forall rnd u tau kd x y, (0 <= u <= / 16)%R -> (0 <= tau)%R -> rounding rnd u tau ->
  (Cabs (Csub (rmul_of rnd kd x y) (Cmul x y)) <= 3 * u * (Cabs x * Cabs y + 2 * tau))%R.
Proof.
  intros rnd u tau kd [a b] [c d] Hu Htau Hr.
  assert (forall p r, Rabs (rnd (p - rnd r) - (p - r)) <= u * (2 + u) * (Rabs p + Rabs r + 2 * tau) /\ Rabs (rnd (rnd p + r) - (p + r)) <= u * (2 + u) * (Rabs p + Rabs r + 2 * tau) /\
    Rabs (rnd (rnd p - r) - (p - r)) <= u * (2 + u) * (Rabs p + Rabs r + 2 * tau))%R as K.
  { intros p r. split; [|split].
    - pose proof (rnd_err rnd u tau Hu Htau Hr r) as H1. pose proof (rnd_err rnd u tau Hu Htau Hr (p - rnd r)) as H2. pose proof (Rabs_pos p) as Ps. pose proof (Rabs_pos r) as Pt.
      assert (Rabs (p - rnd r) <= Rabs p + (1 + u) * Rabs r + u * tau)%R as H3.
      { replace (p - rnd r)%R with (p + - r + - (rnd r - r))%R by ring. eapply Rle_trans; [apply Rabs_triang|]. rewrite Rabs_Ropp. pose proof (Rabs_triang p (- r)). rewrite Rabs_Ropp in H. lra. }
      replace (rnd (p - rnd r) - (p - r))%R with ((rnd (p - rnd r) - (p - rnd r)) + - (rnd r - r))%R by ring. eapply Rle_trans; [apply Rabs_triang|]. rewrite Rabs_Ropp.
      assert (u * (Rabs (p - rnd r) + tau) <= u * (Rabs p + (1 + u) * Rabs r + u * tau + tau))%R by (apply Rmult_le_compat_l; lra).
      assert (0 <= u * tau)%R by (apply Rmult_le_pos; lra). assert (0 <= u * Rabs p)%R by (apply Rmult_le_pos; lra). assert (0 <= u * Rabs r)%R by (apply Rmult_le_pos; lra).
      assert (0 <= u * (u * tau))%R by (apply Rmult_le_pos; lra). assert (0 <= u * (u * Rabs p))%R by (apply Rmult_le_pos; lra). lra.
    - pose proof (fused_part rnd u tau Hu Htau Hr r p) as H. rewrite (Rplus_comm r (rnd p)), (Rplus_comm r p), (Rplus_comm (Rabs r)) in H. exact H.
    - pose proof (fused_part rnd u tau Hu Htau Hr (- r) p) as H. rewrite Rabs_Ropp in H. replace (rnd p - r)%R with (- r + rnd p)%R by ring. replace (p - r)%R with (- r + p)%R by ring. lra. }
  unfold rmul_of. destruct kd.
  - exact (rmul_err rnd u tau Hu Htau Hr (a, b) (c, d)).
  - apply parts_err; [exact Hu|exact Htau|apply K|]. cbn [fst snd]. apply fused_part; assumption.
  - apply parts_err; [exact Hu|exact Htau|apply K|]. cbn [fst snd]. apply K.
Qed.
Print Assumptions C96_multiplication.

(** IEEE 754 numbers: no overflow, whatever the polynomials. *)
Theorem C96_no_overflow : forall kd T m w shape ts, close_tables T (2 * 2 ^ m) w -> (w <= 1)%R ->
  Forall (fun ab => Forall is_word (fst ab) /\ Forall is_word (snd ab)) ts -> (9 * m + sum_depth (shape ts) <= 952)%nat ->
  (forall j, (j < 2 ^ m)%nat -> let z := k_inverse kd T (2 * 2 ^ m) (fun k => fst (k_accumulate kd T (2 * 2 ^ m) (shape ts) ts k)) j in is_finite (fst z) = true /\ is_finite (snd z) = true) /\
  ieee_fft_of kd T shape (2 * 2 ^ m) ts = float_fft (valued_machine kd T) shape (2 * 2 ^ m) ts.
Proof. intros kd T m w shape ts HT Hw Hts Hd. apply (ieee_fft_real kd T m w HT Hw); [exact Hts|lia]. Qed.
Print Assumptions C96_no_overflow.

Lemma valued_double kd T shape m D L c : close_tables T (2 * 2 ^ m) (INR c * / 2 ^ 53) -> (1 <= c)%nat -> 1 <= D -> (0 < L)%nat -> (m <= 1000)%nat ->
  (12 + 3 * Z.of_nat c) * Z.of_nat m + 16 + 3 * Z.of_nat c + Z.of_nat L <= 2 ^ 48 ->
  (forall ts, (length ts <= L)%nat -> sums (2 * 2 ^ m) (shape ts) ts L) -> fft_ok (2 * 2 ^ m) (float_fft (valued_machine kd T) shape (2 * 2 ^ m)) D L (table_error m D L c).
Proof.
  intros HT Hc HD HL Hm HK Hs.
  assert (0 < / 2 ^ 53 <= / 16)%R as Hu.
  { split; [apply Rinv_0_lt_compat, pow_lt; lra|]. apply Rinv_le_contravar; [lra|]. replace 16%R with (2 ^ 4)%R by (cbn; ring). apply Rle_pow; [lra|lia]. }
  assert (0 < / 2 ^ 1022)%R as Ht by (apply Rinv_0_lt_compat, pow_lt; lra).
  assert (2 ^ m * / 2 ^ 1022 <= / 2 ^ 22)%R as Hs22.
  { apply Rmult_le_reg_r with (2 ^ 1022)%R; [apply pow_lt; lra|]. rewrite Rmult_assoc, Rinv_l, Rmult_1_r by (apply pow_nonzero; lra).
    replace 1022%nat with (22 + 1000)%nat by reflexivity. rewrite (pow_add 2 22 1000), <- Rmult_assoc, Rinv_l, Rmult_1_l by (apply pow_nonzero; lra). apply Rle_pow; [lra|exact Hm]. }
  assert (/ 2 ^ 22 <= / 4000)%R as H22 by (apply Rinv_le_contravar; cbn; lra).
  assert (0 < 2 ^ m * / 2 ^ 1022)%R as Hpos by (apply Rmult_lt_0_compat; [apply pow_lt; lra|exact Ht]).
  assert (1 <= INR c)%R as Hc1 by (apply (le_INR 1), Hc).
  assert (INR c * / 2 ^ 53 <= / 8)%R as Hc8.
  { assert (INR c <= 2 ^ 48)%R as HK2.
    { rewrite INR_IZR_INZ. replace (2 ^ 48)%R with (IZR (2 ^ 48)) by (rewrite (pow_IZR 2 48); reflexivity). apply IZR_le. nia. }
    apply Rle_trans with (2 ^ 48 * / 2 ^ 53)%R; [apply Rmult_le_compat_r; lra|]. replace (2 ^ 53)%R with (32 * 2 ^ 48)%R by (cbn; ring).
    rewrite Rinv_mult. replace (2 ^ 48 * (/ 32 * / 2 ^ 48))%R with (/ 32)%R by (field; apply pow_nonzero; lra). lra. }
  assert (close_to_roots (fun n j => value (t_twist T n j)) (fun n j => value (t_untwist T n j)) (fun h r => value (t_forward T h r)) (fun h r => value (t_backward T h r)) (2 * 2 ^ m) (INR c * / 2 ^ 53)) as HC.
  { destruct HT as (A1 & A2 & A3 & A4). split; [intros j Hj; apply A1, Hj|]. split; [intros j Hj; apply A2, Hj|]. split; [intros i r Hr; apply A3, Hr|intros i r Hr; apply A4, Hr]. }
  assert (/ 2 ^ 53 <= INR c * / 2 ^ 53)%R as Hcu. { replace (/ 2 ^ 53)%R with (1 * / 2 ^ 53)%R at 1 by ring. apply Rmult_le_compat_r; lra. }
  pose proof (C96_machine binary64 (/ 2 ^ 53) (/ 2 ^ 1022) m (rmul_of binary64 kd) _ _ _ _ (INR c * / 2 ^ 53) ltac:(lra) ltac:(lra) C82_binary64
    (fun x y => C96_multiplication binary64 (/ 2 ^ 53) (/ 2 ^ 1022) kd x y ltac:(lra) ltac:(lra) C82_binary64) HC ltac:(lra)) as Hacc.
  assert (0 <= / 2 ^ 53 <= / 2 ^ 53 * (1001 / 1000))%R as Hv by lra.
  assert (0 <= INR c * / 2 ^ 53)%R as Hcu0 by lra.
  set (v := (/ 2 ^ 53)%R) in *.
  eapply C82_float_product; try exact Hacc; try exact Hs; try lra; try assumption.
  - apply Nat.neq_0_lt_0, Nat.pow_nonzero. lia.
  - assert (1 <= ((1 + v) * ((1 + 3 * v) * (1 + INR c * v))) ^ m)%R; [|lra]. apply pow_R1_Rle. assert (1 <= (1 + 3 * v) * (1 + INR c * v))%R by nra. nra.
  - apply table_bound; [exact Hc|lia|lia|lia|exact Hv|lra].
Qed.
(** Tables accurate to c units of 2^-53: in a ring of dimension 2^(m+1), every sum of at most L products with integer operands up to D is
    right up to [table_error m D L c] units of 2^-64 per coefficient. *)
Theorem C96_accurate : forall kd T shape m D L c, close_tables T (2 * 2 ^ m) (INR c * / 2 ^ 53) -> (1 <= c)%nat -> Z.of_nat c <= 2 ^ 35 -> 1 <= D -> (0 < L)%nat -> (9 * m + L <= 952)%nat ->
  (forall ts, (length ts <= L)%nat -> sums (2 * 2 ^ m) (shape ts) ts L) ->
  fft_ok (2 * 2 ^ m) (ieee_fft_of kd T shape (2 * 2 ^ m)) D L (table_error m D L c).
Proof.
  intros kd T shape m D L c HT Hc Hc2 HD HL Hm Hs ts Hl Hts.
  assert (INR c * / 2 ^ 53 <= 1)%R as Hw.
  { assert (INR c <= 2 ^ 53)%R as HK2.
    { rewrite INR_IZR_INZ. replace (2 ^ 53)%R with (IZR (2 ^ 53)) by (rewrite (pow_IZR 2 53); reflexivity). apply IZR_le. lia. }
    apply Rmult_le_reg_r with (2 ^ 53)%R; [apply pow_lt; lra|]. rewrite Rmult_assoc, Rinv_l by (apply pow_nonzero; lra). lra. }
  destruct (C96_no_overflow kd T m _ shape ts HT Hw) as [_ ->].
  - eapply Forall_impl; [|exact Hts]. intros [a b] (Wa & Wb & _). split; [apply Wa|apply Wb].
  - pose proof (sums_depth _ _ _ _ (Hs ts Hl)). lia.
  - apply valued_double; auto; [lia|]. assert (Z.of_nat m <= 105) by lia. nia.
Qed.
Print Assumptions C96_accurate.

(** *** Default parameters. *)
Theorem C96_default : forall md cx kd T shape c, context_new md default_tfhe = Ok cx -> close_tables T 2048 (INR c * / 2 ^ 53) -> (1 <= c)%nat -> Z.of_nat c <= 2 ^ 35 ->
  (forall ts, (length ts <= 22)%nat -> sums 2048 (shape ts) ts 22) ->
  fft_for cx (ieee_fft_of kd T shape 2048) (table_error 10 16 22 c).
Proof.
  intros md cx kd T shape c Hcx HT Hc Hc2 Hs. destruct (default_fields md cx Hcx) as (_ & En & Eb & El & Ekb & Ekl & _).
  unfold fft_for. rewrite En, Eb, El, Ekb, Ekl.
  replace (c_negs_level cx) with 11%nat by (unfold context_new in Hcx; destruct (codec_new md _); [|discriminate]; injection Hcx as <-; reflexivity).
  change 2048%nat with (2 * 2 ^ 10)%nat in *. change (Nat.max (2 * 9) (Nat.max (2 * 11) (11 + 1))) with 22%nat. change (2 ^ (Z.of_nat (Nat.max 5 5) - 1)) with 16.
  apply C96_accurate; [exact HT|exact Hc|exact Hc2|lia|lia|lia|exact Hs].
Qed.
Print Assumptions C96_default.
(** Selections in a row: 110 for c = 1, 94 for c = 2, 50 for c = 8, 17 for c = 32. *)
Definition selections (c : nat) : Z := (2 ^ 56 - 1) / (2 ^ 34 + 4098 * table_error 10 16 22 c).
Theorem C96_default_chain : forall md cx kd T shape c s pt0 d steps t,
  context_new md default_tfhe = Ok cx -> close_tables T 2048 (INR c * / 2 ^ 53) -> (1 <= c)%nat -> Z.of_nat c <= 2 ^ 35 -> (forall ts, (length ts <= 22)%nat -> sums 2048 (shape ts) ts 22) ->
  binary_key 2048 s -> plaintext 2048 8 pt0 -> draw_ok 2048 default_noise d ->
  Forall (fun bp => plaintext 2048 8 (snd bp)) steps -> Z.of_nat (length steps) <= selections c ->
  (forall j, tape_ok 2048 default_noise (t j)) ->
  exists c0 ct, encode_encrypt_rlwe cx s pt0 d = Ok c0 /\ mux_chain (ieee_fft_of kd T shape 2048) cx s t 0 c0 steps = Ok ct /\
    decrypt_decode_rlwe cx s ct = Ok (chosen pt0 steps).
Proof.
  intros md cx kd T shape c s pt0 d steps t Hcx HT Hc Hc2 Hsh Hs Hp Hd Hst Hlen Ht.
  assert (0 <= table_error 10 16 22 c) as He by (unfold table_error; lia).
  apply (C69_default_chain md cx _ (table_error 10 16 22 c)); auto; [eapply C96_default; eassumption|].
  unfold selections in Hlen. set (e := table_error 10 16 22 c) in *. clearbody e. change (2 ^ 34) with 17179869184 in *. change (2 ^ 56) with 72057594037927936 in *.
  pose proof (Z.mul_div_le (72057594037927936 - 1) (17179869184 + 4098 * e) ltac:(lia)). nia.
Qed.
Print Assumptions C96_default_chain.
Lemma selections_count : selections 1 = 110 /\ selections 2 = 94 /\ selections 8 = 50 /\ selections 32 = 17.
Proof. repeat split; reflexivity. Qed.

(** *** The ring of dimension 32 of C82: whole evaluations and sessions, with tables accurate to 32 units of 2^-53. *)
Definition small_table : Z := 1630570754.
Lemma close_small md cx kd T shape : context_new md double_tfhe = Ok cx -> close_tables T 32 (INR 32 * / 2 ^ 53) ->
  (forall ts, (length ts <= 38)%nat -> sums 32 (shape ts) ts 38) -> fft_for cx (ieee_fft_of kd T shape 32) small_table.
Proof.
  intros Hcx HT Hs. destruct (double_context md) as (cx' & E & _ & En & Eb & El & Eg & Ekb & Ekl). rewrite Hcx in E. injection E as <-.
  unfold fft_for. rewrite En, Eb, El, Ekb, Ekl, Eg. change (ieee_fft_of kd T shape 32) with (ieee_fft_of kd T shape (2 * 2 ^ 4)). change (sums 32) with (sums (2 * 2 ^ 4)) in Hs. change (close_tables T (2 * 2 ^ 4) (INR 32 * / 2 ^ 53)) in HT. change (fft_ok 32) with (fft_ok (2 * 2 ^ 4)).
  change (Nat.max (2 * 19) (Nat.max (2 * 19) (19 + 1))) with 38%nat. change (2 ^ (Z.of_nat (Nat.max 2 2) - 1)) with 2.
  change small_table with (table_error 4 2 38 32). apply C96_accurate; [exact HT|lia|lia|lia|lia|lia|exact Hs].
Qed.
Theorem C96_protocol : forall md cx kd T shape s model features t,
  context_new md double_tfhe = Ok cx -> close_tables T 32 (INR 32 * / 2 ^ 53) -> (forall ts, (length ts <= 38)%nat -> sums 32 (shape ts) ts 38) ->
  binary_key 32 s -> tape_ok 32 default_noise t ->
  (exists th f ix op l r, model = Internal th f ix op l r) ->
  (forall th f ix op l r, sub (Internal th f ix op l r) model -> (th < 32)%nat) ->
  Forall (fun x => Z.of_nat x < 2 ^ 48) (labels model) -> (exists y, In y (labels model) /\ y <> 0%nat) ->
  Forall (fun fs => evaluable model fs /\ Forall (fun v => (v < 32)%nat) fs) features ->
  (list_sum (leaf_depths model) <= 16)%nat ->
  exists preds, simulate (ieee_fft_of kd T shape 32) cx s model features t = Ok preds /\
    Forall2 (fun fs p => exists x, predicts model fs x /\ p = Z.of_nat x) features preds.
Proof.
  intros md cx kd T shape s model features t Hcx HT Hsh Hs Ht Hi Hth Hl Hnz Hfs Hd. pose proof (close_small md cx kd T shape Hcx HT Hsh) as Hf.
  destruct (double_context md) as (cx' & E & Hp & En & Eb & El & Eg & Ekb & Ekl). rewrite Hcx in E. injection E as <-.
  pose proof (binary_key_l1 _ s Hs) as HS. change (Z.of_nat 32) with 32 in HS. rewrite <- En in Hs, HS, Ht, Hth, Hfs.
  apply (C39_private_evaluation 5 1 cx (ieee_fft_of kd T shape 32) small_table s 32 default_noise); auto.
  assert (ep_bound (c_n cx) (c_base cx) (c_level cx) 32 1 (decision_noise cx 32 default_noise small_table) small_table <= 2 ^ 58 - 1) as He.
  { unfold decision_noise. rewrite En, Eb, El, Ekb, Ekl, Eg. apply Z.leb_le. vm_compute. reflexivity. }
  change (2 ^ (64 - 1)) with (32 * 2 ^ 58). clear - Hd He. nia.
Qed.
Print Assumptions C96_protocol.
Theorem C96_oram : forall md cx pool kd T shape s a nh hc dom gp t0 rqs dm t,
  context_new md double_tfhe = Ok cx -> close_tables T 32 (INR 32 * / 2 ^ 53) -> (forall ts, (length ts <= 38)%nat -> sums 32 (shape ts) ts 38) ->
  binary_key 32 s -> (1 <= a <= 3)%nat -> hash_for nh hc dom -> (hc * dom = 2 ^ a)%nat ->
  (forall i, plaintext 32 1 (gp i)) -> tape_ok 32 default_noise t0 ->
  Forall (request_ok cx 1 dom) rqs -> (forall j, plaintext 32 1 (dm j 0%nat)) -> (forall j, tape_ok 32 default_noise (t j)) ->
  (length rqs <= 200)%nat ->
  exists cl sv pts ys sv', setup_random_oram 1 (2 ^ a) nh cx s gp t0 = Ok (cl, sv, pts) /\
    session pool (ieee_fft_of kd T shape 32) cl nh dm t 0 sv rqs = Ok (ys, sv') /\
    Forall2 (fun y pt => decrypt_decode_rlwe cx s y = Ok pt) ys (answers (fun i => nth i pts []) rqs).
Proof.
  intros md cx pool kd T shape s a nh hc dom gp t0 rqs dm t Hcx HT Hsh Hs Ha Hh Hdim Hgp Ht0 Hrq Hdm Ht Hlen. pose proof (close_small md cx kd T shape Hcx HT Hsh) as Hf.
  destruct (double_context md) as (cx' & E & Hp & En & Eb & El & Eg & _). rewrite Hcx in E. injection E as <-.
  pose proof (binary_key_l1 _ s Hs) as HS. change (Z.of_nat 32) with 32 in HS. rewrite <- En in Hs, HS, Hgp, Ht0, Hdm, Ht.
  apply (C43_setup_then_history pool cx 5 1 (ieee_fft_of kd T shape 32) small_table s 32 default_noise a nh hc dom); auto.
  - split; [exact Hp|split; [exact Hf|split; [exact Hs|exact HS]]].
  - right. rewrite El. discriminate.
  - lia.
  - unfold growth, answer_growth, ep_sel, sel_noise, ep_fresh. rewrite En, Eb, El, Eg.
    assert (forall L : Z, L <= 200 -> forall g ag, 0 <= g -> 2 * (default_noise + 200 * g + ag) < 2 ^ (64 - 1) -> 2 * (default_noise + L * g + ag) < 2 ^ (64 - 1)) as Hm.
    { clear. intros L HL g ag Hg H. nia. }
    apply Hm; [lia| |]; assert (a = 1 \/ a = 2 \/ a = 3)%nat as Hc by lia; destruct Hc as [Hc | [Hc | Hc]]; rewrite Hc; vm_compute; congruence.
Qed.
Print Assumptions C96_oram.

(** *** C92 is the case of separate products and correctly rounded tables, which are accurate to 2 units of 2^-53. *)
Theorem C96_plain : forall T shape n ts, ieee_fft_of Separate T shape n ts = ieee_fft T shape n ts.
Proof.
  intros T shape n ts. assert (forall w m x k, k_radix2 Separate w m x k = c_radix2 w m x k) as Hr.
  { intros w. induction m as [|m IH]; intros x k; [reflexivity|]. cbn [k_radix2 c_radix2]. cbv zeta. rewrite !IH. unfold c_mul_of, c_mul. destruct (w _ _), (c_radix2 w m (fun j => x (2 * j + 1)%nat) _). reflexivity. }
  assert (forall x y, c_mul_of Separate x y = c_mul x y) as Hm by (intros [a b] [c d]; reflexivity).
  assert (forall conv p k, k_forward Separate T n conv p k = c_forward T n conv p k) as Hf.
  { intros conv p k. unfold k_forward, c_forward. rewrite Hr. assert (forall w m x y k, (forall j, x j = y j) -> c_radix2 w m x k = c_radix2 w m y k) as He.
    { intros w. induction m as [|m IH]; intros x y k' H; [apply H|]. cbn [c_radix2]. cbv zeta. rewrite (IH (fun j => x (2 * j)%nat) (fun j => y (2 * j)%nat)), (IH (fun j => x (2 * j + 1)%nat) (fun j => y (2 * j + 1)%nat)) by (intros; apply H). reflexivity. }
    apply He. intros j. apply Hm. }
  assert (forall t ts k, k_accumulate Separate T n t ts k = c_accumulate T n t ts k) as Ha.
  { induction t as [| | |l IHl r IHr]; intros ts' k; destruct ts' as [|[a b] ts']; cbn [k_accumulate c_accumulate]; rewrite ?Hm, ?Hf, ?IHl; try reflexivity;
      destruct (c_accumulate T n l _ k) as [x ts1]; rewrite ?IHr; reflexivity. }
  unfold ieee_fft_of, ieee_fft, k_backward, c_backward, k_inverse, c_inverse.
  assert (forall w m x y k, (forall j, x j = y j) -> c_radix2 w m x k = c_radix2 w m y k) as He.
  { intros w. induction m as [|m IH]; intros x y k' H; [apply H|]. cbn [c_radix2]. cbv zeta. rewrite (IH (fun j => x (2 * j)%nat) (fun j => y (2 * j)%nat)), (IH (fun j => x (2 * j + 1)%nat) (fun j => y (2 * j + 1)%nat)) by (intros; apply H). reflexivity. }
  f_equal; apply map_ext; intros j; rewrite Hm, Hr; do 3 f_equal; apply He; intros k; rewrite Ha; reflexivity.
Qed.
Print Assumptions C96_plain.
Theorem C96_rounded : forall T m, (m <= 1000)%nat -> rounded_tables T (2 * 2 ^ m) -> close_tables T (2 * 2 ^ m) (INR 2 * / 2 ^ 53).
Proof.
  intros T m Hm (T1 & T2 & T3 & T4).
  assert (0 < / 2 ^ 53 <= / 16)%R as Hu.
  { split; [apply Rinv_0_lt_compat, pow_lt; lra|]. apply Rinv_le_contravar; [lra|]. replace 16%R with (2 ^ 4)%R by (cbn; ring). apply Rle_pow; [lra|lia]. }
  assert (0 < / 2 ^ 1022)%R as Ht by (apply Rinv_0_lt_compat, pow_lt; lra).
  assert (2 ^ m * / 2 ^ 1022 <= / 2 ^ 22)%R as Hs22.
  { apply Rmult_le_reg_r with (2 ^ 1022)%R; [apply pow_lt; lra|]. rewrite Rmult_assoc, Rinv_l, Rmult_1_r by (apply pow_nonzero; lra).
    replace 1022%nat with (22 + 1000)%nat by reflexivity. rewrite (pow_add 2 22 1000), <- Rmult_assoc, Rinv_l, Rmult_1_l by (apply pow_nonzero; lra). apply Rle_pow; [lra|exact Hm]. }
  assert (/ 2 ^ 22 <= / 4000)%R as H22 by (apply Rinv_le_contravar; cbn; lra).
  assert (2 ^ m = INR (2 ^ m))%R as Eh by (rewrite pow_INR; reflexivity). assert (1 <= INR (2 ^ m))%R as H1 by (apply (le_INR 1), Nat.neq_0_lt_0, Nat.pow_nonzero; lia). rewrite Eh in Hs22.
  assert (/ 2 ^ 1022 <= / 4000)%R as Ht2 by nra. change (INR 2) with 2%R.
  set (u := (/ 2 ^ 53)%R) in *. set (tau := (/ 2 ^ 1022)%R) in *. set (h := (2 ^ m)%nat) in *.
  assert (forall z c, rounds z c -> finite z /\ (Cabs (Csub (value z) c) <= u * (Cabs c + 2 * tau))%R) as K.
  { intros z c [[F1 E1] [F2 E2]]. split; [split; assumption|]. unfold value. rewrite E1, E2. apply (rpair_err binary64 u tau ltac:(lra) ltac:(lra) C82_binary64). }
  assert (forall z t, rounds z (cis t) -> finite z /\ (Cabs (Csub (value z) (cis t)) <= 2 * u)%R) as Kc.
  { intros z t H. apply K in H. destruct H as [F H]. split; [exact F|]. rewrite Cabs_cis in H. nra. }
  assert (2 * h / 2 = h)%nat as Hd by (rewrite Nat.mul_comm; apply Nat.div_mul; lia). unfold close_tables. rewrite Hd in *.
  split; [intros j Hj; apply Kc, T1, Hj|]. split; [|split; intros i r Hr; apply Kc; [apply T3|apply T4]; exact Hr].
  intros j Hj. destruct (K _ _ (T2 j Hj)) as [F H]. split; [exact F|]. eapply Rle_trans; [exact H|]. rewrite Cabs_mul, Cabs_cis. change (/ INR h, 0)%R with (RC (/ INR h)).
  rewrite Cabs_RC, Rabs_pos_eq by (left; apply Rinv_0_lt_compat; lra). 
  assert (2 * tau <= / INR h)%R as K2. { apply Rmult_le_reg_l with (INR h); [lra|]. rewrite Rinv_r by lra. lra. }
  unfold Rdiv. assert (u * (/ INR h * 1 + 2 * tau) <= u * (/ INR h + / INR h))%R by (apply Rmult_le_compat_l; lra). lra.
Qed.
Print Assumptions C96_rounded.
Lemma close_mono T n w w' : close_tables T n w -> (w <= w')%R -> close_tables T n w'.
Proof.
  intros (T1 & T2 & T3 & T4) H. split; [|split; [|split]].
  - intros j Hj. destruct (T1 j Hj) as [F K]. split; [exact F|lra].
  - intros j Hj. destruct (T2 j Hj) as [F K]. split; [exact F|]. eapply Rle_trans; [exact K|]. unfold Rdiv. apply Rmult_le_compat_r; [|exact H].
    assert (0 < n / 2)%nat as Hp by lia. apply lt_0_INR in Hp. left. apply Rinv_0_lt_compat, Hp.
  - intros i r Hr. destruct (T3 i r Hr) as [F K]. split; [exact F|lra].
  - intros i r Hr. destruct (T4 i r Hr) as [F K]. split; [exact F|lra].
Qed.

(** *** Tables computed the ordinary way -- the angle by one division and one multiplication, its sine and cosine by a library with an error
    of at most 2^-52 -- are accurate to 17 units of 2^-53. *)
Theorem C96_computed : forall sc m, good_sin_cos sc -> (m <= 99)%nat -> close_tables (computed_tables sc) (2 * 2 ^ m) (INR 17 * / 2 ^ 53).
Proof.
  intros sc m Hsc Hm. assert (2 * 2 ^ m / 2 = 2 ^ m)%nat as Hd by (rewrite Nat.mul_comm; apply Nat.div_mul; lia).
  assert (INR 17 = 17%R) as E17 by (cbn; lra). rewrite E17. pose proof u_pos as Hu.
  assert (forall i r, (r < 2 ^ i < 2 * 2 ^ m)%nat -> (i <= 100)%nat) as Hi.
  { intros i r [_ H]. change (2 * 2 ^ m)%nat with (2 ^ S m)%nat in H. destruct (Nat.le_gt_cases i 100) as [K|K]; [exact K|]. pose proof (Nat.pow_le_mono_r 2 (S m) i ltac:(lia) ltac:(lia)). lia. }
  assert (forall j, (j < 2 ^ m)%nat -> finite (sc (angle (2 * 2 ^ m) j)) /\ (Cabs (Csub (value (sc (angle (2 * 2 ^ m) j))) (cis (PI * INR j / INR (2 * 2 ^ m)))) <= 13 * / 2 ^ 53)%R) as Ht.
  { intros j Hj. change (2 * 2 ^ m)%nat with (2 ^ S m)%nat. apply entry_ok; [exact Hsc|lia|cbn [Nat.pow]; lia]. }
  assert (forall i r, (PI * INR r / INR (2 ^ i) = 2 * PI * INR r / INR (2 * 2 ^ i))%R) as Ea.
  { intros i r. rewrite mult_INR. change (INR 2) with 2%R. field. apply not_0_INR, Nat.pow_nonzero. lia. }
  assert (forall i r, (r < 2 ^ i < 2 * 2 ^ m)%nat -> finite (sc (angle (2 ^ i) r)) /\ (Cabs (Csub (value (sc (angle (2 ^ i) r))) (cis (2 * PI * INR r / INR (2 * 2 ^ i)))) <= 13 * / 2 ^ 53)%R) as Hr.
  { intros i r H. rewrite <- Ea. apply entry_ok; [exact Hsc|eapply Hi; exact H|lia]. }
  unfold close_tables. rewrite Hd. cbn [computed_tables t_twist t_untwist t_forward t_backward]. rewrite Hd.
  split; [|split; [|split]].
  - intros j Hj. destruct (Ht j Hj) as [F H]. split; [exact F|]. lra.
  - intros j Hj. destruct (Ht j Hj) as [F H]. apply scale_close; [lia|apply conj_finite, F|apply conj_close, H|apply Cabs_cis].
  - intros i r H. destruct (Hr i r H) as [F K]. split; [apply conj_finite, F|]. apply conj_close in K. lra.
  - intros i r H. destruct (Hr i r H) as [F K]. split; [exact F|]. lra.
Qed.
Print Assumptions C96_computed.

(** *** The hypotheses are satisfiable: a sine and cosine correctly rounded, every way to multiply, the tree of C39. *)
Definition rounded_sin_cos (x : f64) : c64 := to_c64 (cis (B2R x)).
Lemma rounded_sin_cos_ok : good_sin_cos rounded_sin_cos.
Proof.
  intros x _ _. pose proof (to_f64_number (cos (B2R x)) ltac:(apply Rabs_le, COS_bound)) as [F1 E1]. pose proof (to_f64_number (sin (B2R x)) ltac:(apply Rabs_le, SIN_bound)) as [F2 E2].
  assert (/ 2 ^ 52 = 2 * / 2 ^ 53)%R as E52 by (replace (2 ^ 53)%R with (2 * 2 ^ 52)%R by (cbn; ring); field; apply pow_nonzero; lra).
  assert (forall y, (-1 <= y <= 1)%R -> (Rabs (binary64 y - y) <= / 2 ^ 52)%R) as K.
  { intros y Hy. eapply Rle_trans; [apply (rnd_abs y 1); [apply Rabs_le; exact Hy|pose proof (tau_small 0 ltac:(lia)) as H; exact H]|]. pose proof u_pos. lra. }
  split; [split; assumption|]. cbn [rounded_sin_cos to_c64 cis fst snd] in *. unfold rounded_sin_cos, to_c64, cis. cbn [fst snd]. rewrite E1, E2. split; apply K; [apply COS_bound|apply SIN_bound].
Qed.
Example C96_applies : forall kd, fft_ok 1024 (ieee_fft_of kd (computed_tables rounded_sin_cos) one_by_one 1024) 4 6 18119395586 /\
  exists cx preds, context_new Checked double_tfhe = Ok cx /\
  simulate (ieee_fft_of kd (computed_tables rounded_sin_cos) one_by_one 32) cx (repeat 1 32) c39_tree [[1%nat; 2%nat]; [0%nat; 31%nat]] (noisy 32 0) = Ok preds /\
  Forall2 (fun fs p => exists x, predicts c39_tree fs x /\ p = Z.of_nat x) [[1%nat; 2%nat]; [0%nat; 31%nat]] preds.
Proof.
  intros kd. split.
  - change 1024%nat with (2 * 2 ^ 9)%nat. change 18119395586 with (table_error 9 4 6 17). apply C96_accurate; [apply C96_computed; [apply rounded_sin_cos_ok|lia]|lia|lia|lia|lia|lia|intros ts; apply one_by_one_ok].
  - destruct (double_context Checked) as (cx & E & _). exists cx.
    destruct (C96_protocol Checked cx kd (computed_tables rounded_sin_cos) one_by_one (repeat 1 32) c39_tree [[1%nat; 2%nat]; [0%nat; 31%nat]] (noisy 32 0)) as (preds & H);
      [exact E| |intros ts; apply one_by_one_ok|apply ones_binary|apply noisy_ok|repeat eexists| | | | | |exists preds; split; [exact E|exact H]].
    + apply (close_mono _ _ (INR 17 * / 2 ^ 53)); [exact (C96_computed rounded_sin_cos 4 rounded_sin_cos_ok ltac:(lia))|]. apply Rmult_le_compat_r; [pose proof u_pos; lra|apply le_INR; lia].
    + intros th f ix op l r H. pose proof (c39_thresholds th f ix op l r H). lia.
    + repeat constructor.
    + exists 5%nat. split; [cbn; auto|discriminate].
    + repeat (apply Forall_cons || apply Forall_nil); (split; [apply c39_evaluable|]); repeat (apply Forall_cons || apply Forall_nil); apply Nat.ltb_lt; reflexivity.
    + cbn. lia.
Qed.
