(** * C85: the noise of every encryption is bounded. *)
From Coq Require Import Reals Lra Lia.
From Verif Require Import MBase MUtils MCodec MPoly MRlwe MFft MNoise MHash MTree MParams MEncTree MOram MMain MSim SpecRing SpecLwe SpecEnc SpecTree SpecOram SpecFft SpecNoise PolyRing PfNoise
  LRlwe LOram PEnc PDefault SpecDouble PfDouble PFft.
Local Open Scope Z_scope.

(** The polar method on 64-bit words cannot return more than fourteen standard deviations: for every stream of
    words and every arithmetic with relative errors up to 2^-10, with underflow. *)
Theorem C85_bounded : forall fl lnf std n e E, noise_arithmetic fl lnf ->
  (0 <= std)%R -> (14 * std <= / 4)%R -> (14 * (std * 2 ^ 64) + / 2 <= IZR E)%R ->
  generated fl lnf std n e -> wfp n e /\ bd n (tof e) E.
Proof. intros fl lnf std n e E H H1 H2 H3. apply generated_ok; assumption. Qed.
Print Assumptions C85_bounded.
(** So tapes that come from the generator are the tapes the other theorems speak of. *)
Theorem C85_tape : forall fl lnf std n t E, noise_arithmetic fl lnf ->
  (0 <= std)%R -> (14 * std <= / 4)%R -> (14 * (std * 2 ^ 64) + / 2 <= IZR E)%R ->
  sampled fl lnf std n t -> tape_ok n E t.
Proof. intros fl lnf std n t E H H1 H2 H3 Ht i. destruct (Ht i) as [Hm Hg]. split; [exact Hm|]. eapply C85_bounded; eassumption. Qed.
Print Assumptions C85_tape.

(** The generator returns, unless all pairs of words from some point on lie outside the unit circle or in its
    centre. *)
Theorem C85_returns : forall fl lnf std n w, (forall i, 0 <= fst (w i) < q /\ 0 <= snd (w i) < q) ->
  (forall i, exists j, (i <= j)%nat /\ gauss fl lnf std (w j) <> None) -> exists e, generated fl lnf std n e.
Proof.
  intros fl lnf std n w Hw H. destruct (fill_returns fl lnf std n w H) as (fuel & l & w' & E). exists l, fuel, w, w'. split; [exact Hw|exact E].
Qed.
Print Assumptions C85_returns.
Theorem C85_accepts : forall lnf std ws, let x w := (IZR (to_signed w) / 2 ^ 63)%R in
  gauss (machine (fun r => r)) lnf std ws <> None <-> (0 < x (fst ws) * x (fst ws) + x (snd ws) * x (snd ws) < 1)%R.
Proof.
  intros lnf std [a b] x. unfold gauss, unit_part, machine. cbn [fl_round fst snd]. change (IZR (to_signed a) * / 2 ^ 63)%R with (x a). change (IZR (to_signed b) * / 2 ^ 63)%R with (x b).
  destruct (Rlt_dec 0 _) as [H0|H0]; [destruct (Rlt_dec _ 1) as [H1|H1]|]; split; intros H; try lra; try (exfalso; apply H; reflexivity); discriminate.
Qed.
Print Assumptions C85_accepts.

(** The test of the noise (src/rlwe.rs:1942-1950) takes eight standard deviations for the support of the noise.  Refuted:
    for every such arithmetic the generator can return more. *)
Theorem C85_support_refuted : forall fl lnf std n, noise_arithmetic fl lnf ->
  (14 * std <= / 4)%R -> (/ 2 ^ 64 <= std)%R -> (0 < n)%nat ->
  exists e, generated fl lnf std n e /\ (8 * (std * 2 ^ 64) < IZR (nrm (nth 0 e 0%Z)))%R.
Proof.
  intros fl lnf std n Ha H1 H2 Hn. assert (0 < / 2 ^ 64)%R as Hp by (apply Rinv_0_lt_compat, pow_lt; lra).
  destruct (tail_word fl lnf Ha std H1 H2) as (a & b & E & Hb).
  destruct (fill_returns fl lnf std n (fun _ => (1, 0))) as (fuel & l & w' & El).
  { intros i. exists i. split; [lia|]. unfold accepted. rewrite E. discriminate. }
  exists l. split; [exists fuel, (fun _ => (1, 0)), w'; split; [intros i; cbn; split; lia|exact El]|].
  assert (fuel <> 0)%nat as Hf by (intros ->; destruct n as [|[|n]]; [lia|discriminate El|discriminate El]). destruct fuel as [|fuel]; [contradiction|].
  destruct n as [|[|n]]; [lia| |]; cbn [fill_noise gauss_pair] in El; rewrite E in El.
  - injection El as <- _. exact Hb.
  - destruct (fill_noise fl lnf std (S fuel) n _) as [[l' w2]|]; [|discriminate]. injection El as <- _. exact Hb.
Qed.
Print Assumptions C85_support_refuted.

(** *** The default standard deviation 2^-55: nothing is left to assume about the noise. *)
Lemma default_std : (0 <= / 2 ^ 55)%R /\ (14 * / 2 ^ 55 <= / 4)%R /\ (14 * (/ 2 ^ 55 * 2 ^ 64) + / 2 <= IZR default_noise)%R.
Proof.
  assert (0 < / 2 ^ 55)%R as Hp by (apply Rinv_0_lt_compat, pow_lt; lra). split; [lra|]. split.
  - replace (2 ^ 55)%R with (64 * 2 ^ 49)%R by (cbn; ring). assert (1 <= 2 ^ 49)%R as H by (apply pow_R1_Rle; lra).
    rewrite Rinv_mult. assert (/ 2 ^ 49 <= 1)%R as H' by (rewrite <- Rinv_1; apply Rinv_le_contravar; lra). lra.
  - replace (/ 2 ^ 55 * 2 ^ 64)%R with 512%R; [|replace (2 ^ 64)%R with (2 ^ 55 * 512)%R by (cbn; ring); field; apply pow_nonzero; lra]. unfold default_noise. change (2 ^ 13) with 8192. lra.
Qed.
Lemma sampled_default fl lnf n t : noise_arithmetic fl lnf -> sampled fl lnf (/ 2 ^ 55) n t -> tape_ok n default_noise t.
Proof. intros Ha Ht. destruct default_std as (H1 & H2 & H3). exact (C85_tape fl lnf _ n t default_noise Ha H1 H2 H3 Ht). Qed.

(** What is encrypted with the default parameters is decrypted, always. *)
Theorem C85_default_round_trip : forall fl lnf md cx s pt t i, context_new md default_tfhe = Ok cx -> noise_arithmetic fl lnf ->
  binary_key 2048 s -> plaintext 2048 8 pt -> sampled fl lnf (/ 2 ^ 55) 2048 t ->
  exists c, encode_encrypt_rlwe cx s pt (t i) = Ok c /\ decrypt_decode_rlwe cx s c = Ok pt.
Proof.
  intros fl lnf md cx s pt t i Hcx Ha Hs Hp Ht. apply (sampled_default fl lnf 2048 t Ha) in Ht.
  destruct (default_fields md cx Hcx) as (Hpar & En & _). rewrite <- En in *.
  destruct (encode_fresh cx 11 8 Hpar s default_noise pt (t i) Hp (Ht i)) as (c & E & W & N). exists c. split; [exact E|].
  apply (holds_decrypts cx 11 8 s default_noise); auto; [split; [exact W|split; [exact Hp|exact N]]|]. unfold default_noise. reflexivity.
Qed.
Print Assumptions C85_default_round_trip.
(** A chain of selections with the default parameters: no assumption on the noise or on the Fourier transform is
    left, only the accuracy of the arithmetic. *)
Theorem C85_default_chain : forall md cx rnd lnf shape s pt0 t0 steps t,
  context_new md default_tfhe = Ok cx -> rounding rnd (/ 2 ^ 53) (/ 2 ^ 1022) -> noise_arithmetic (machine rnd) lnf ->
  (forall ts, (length ts <= 22)%nat -> sums 2048 (shape ts) ts 22) ->
  binary_key 2048 s -> plaintext 2048 8 pt0 -> sampled (machine rnd) lnf (/ 2 ^ 55) 2048 t0 ->
  Forall (fun bp => plaintext 2048 8 (snd bp)) steps -> (length steps <= 110)%nat ->
  (forall j, sampled (machine rnd) lnf (/ 2 ^ 55) 2048 (t j)) ->
  exists c0 c, encode_encrypt_rlwe cx s pt0 (t0 0%nat) = Ok c0 /\ mux_chain (float_fft (machine rnd) shape 2048) cx s t 0 c0 steps = Ok c /\
    decrypt_decode_rlwe cx s c = Ok (chosen pt0 steps).
Proof.
  intros md cx rnd lnf shape s pt0 t0 steps t Hcx Hr Ha Hsh Hs Hp Ht0 Hst Hlen Ht.
  apply (C82_default_chain md); auto; [apply (sampled_default _ _ _ _ Ha Ht0)|]. intros j. apply (sampled_default _ _ _ _ Ha (Ht j)).
Qed.
Print Assumptions C85_default_chain.
(** The private tree evaluation and the ORAM on the ring of C82, in the same way. *)
Theorem C85_protocol : forall md cx rnd lnf shape s model features t,
  context_new md double_tfhe = Ok cx -> rounding rnd (/ 2 ^ 53) (/ 2 ^ 1022) -> noise_arithmetic (machine rnd) lnf ->
  (forall ts, (length ts <= 38)%nat -> sums 32 (shape ts) ts 38) ->
  binary_key 32 s -> sampled (machine rnd) lnf (/ 2 ^ 55) 32 t ->
  (exists th f ix op l r, model = Internal th f ix op l r) ->
  (forall th f ix op l r, sub (Internal th f ix op l r) model -> (th < 32)%nat) ->
  Forall (fun x => Z.of_nat x < 2 ^ 48) (labels model) -> (exists y, In y (labels model) /\ y <> 0%nat) ->
  Forall (fun fs => evaluable model fs /\ Forall (fun v => (v < 32)%nat) fs) features ->
  (list_sum (leaf_depths model) <= 64)%nat ->
  exists preds, simulate (float_fft (machine rnd) shape 32) cx s model features t = Ok preds /\
    Forall2 (fun fs p => exists x, predicts model fs x /\ p = Z.of_nat x) features preds.
Proof. intros md cx rnd lnf shape s model features t Hcx Hr Ha Hsh Hs Ht. apply (C82_protocol md); auto. apply (sampled_default _ _ _ _ Ha Ht). Qed.
Print Assumptions C85_protocol.
Theorem C85_oram : forall md cx pool rnd lnf shape s a nh hc dom gp t0 rqs dm t,
  context_new md double_tfhe = Ok cx -> rounding rnd (/ 2 ^ 53) (/ 2 ^ 1022) -> noise_arithmetic (machine rnd) lnf ->
  (forall ts, (length ts <= 38)%nat -> sums 32 (shape ts) ts 38) ->
  binary_key 32 s -> (1 <= a <= 3)%nat -> hash_for nh hc dom -> (hc * dom = 2 ^ a)%nat ->
  (forall i, plaintext 32 1 (gp i)) -> sampled (machine rnd) lnf (/ 2 ^ 55) 32 t0 ->
  Forall (request_ok cx 1 dom) rqs -> (forall j, plaintext 32 1 (dm j 0%nat)) -> (forall j, sampled (machine rnd) lnf (/ 2 ^ 55) 32 (t j)) ->
  (length rqs <= 1000)%nat ->
  exists cl sv pts ys sv', setup_random_oram 1 (2 ^ a) nh cx s gp t0 = Ok (cl, sv, pts) /\
    session pool (float_fft (machine rnd) shape 32) cl nh dm t 0 sv rqs = Ok (ys, sv') /\
    Forall2 (fun y pt => decrypt_decode_rlwe cx s y = Ok pt) ys (answers (fun i => nth i pts []) rqs).
Proof.
  intros md cx pool rnd lnf shape s a nh hc dom gp t0 rqs dm t Hcx Hr Ha Hsh Hs H1 H2 H3 H4 Ht0 H5 H6 Ht. apply (C82_oram md cx pool rnd shape s a nh hc dom); auto.
  - apply (sampled_default _ _ _ _ Ha Ht0).
  - intros j. apply (sampled_default _ _ _ _ Ha (Ht j)).
Qed.
Print Assumptions C85_oram.

(** Cases: IEEE binary64 with a lossy logarithm; a tape from the generator. *)
Definition lossy_ln (x : R) : R := ((1 + / 2 ^ 52) * ln x)%R.
Lemma double_noise : noise_arithmetic (machine binary64) lossy_ln.
Proof.
  split; [|split; [|split]].
  - split; [apply binary64_rounding|]. intros x. eapply Rle_trans; [apply binary64_rounding|]. apply Rmult_le_compat_r; [eapply Rle_trans; [apply Rabs_pos|apply Rmax_l]|].
    apply Rinv_le_contravar; [apply pow_lt; lra|]. apply Rle_pow; [lra|lia].
  - intros x Hx. exact (binary64_sign x Hx).
  - intros x. cbn [machine fl_rint]. destruct (base_Int_part (x + / 2)) as [B1 B2]. apply Rabs_le. lra.
  - intros x _. unfold lossy_ln. replace ((1 + / 2 ^ 52) * ln x - ln x)%R with (/ 2 ^ 52 * ln x)%R by ring. rewrite Rabs_mult, Rabs_pos_eq by (left; apply Rinv_0_lt_compat, pow_lt; lra).
    apply Rmult_le_compat_r; [apply Rabs_pos|]. apply Rinv_le_contravar; [apply pow_lt; lra|]. apply Rle_pow; [lra|lia].
Qed.
Lemma some_tape n : exists t, sampled (machine binary64) lossy_ln (/ 2 ^ 55) n t.
Proof.
  destruct (Nat.eq_dec n 0) as [->|Hn].
  - exists (fun _ => {| d_mask := []; d_noise := [] |}). intros i. split; [split; [reflexivity|constructor]|]. exists 0%nat, (fun _ => (0, 0)), (fun _ => (0, 0)). split; [intros j; cbn; split; unfold q; lia|reflexivity].
  - destruct (C85_support_refuted (machine binary64) lossy_ln (/ 2 ^ 55) n double_noise) as (e & He & _).
    + apply default_std.
    + apply Rinv_le_contravar; [apply pow_lt; lra|]. apply Rle_pow; [lra|lia].
    + lia.
    + exists (fun _ => {| d_mask := repeat 1 n; d_noise := e |}). intros i. split; [|exact He]. split; [apply repeat_length|]. apply Forall_forall. intros y Hy. apply repeat_spec in Hy. subst. split; reflexivity || (cbn; lia).
Qed.
Example C85_applies : exists cx t c0 c, context_new Checked default_tfhe = Ok cx /\ sampled (machine binary64) lossy_ln (/ 2 ^ 55) 2048 t /\
  encode_encrypt_rlwe cx (repeat 1 2048) (repeat 200 2048) (t 0%nat) = Ok c0 /\
  mux_chain (float_fft (machine binary64) one_by_one 2048) cx (repeat 1 2048) (fun _ => t) 0 c0 (repeat (true, repeat 99 2048) 100) = Ok c /\
  decrypt_decode_rlwe cx (repeat 1 2048) c = Ok (chosen (repeat 200 2048) (repeat (true, repeat 99 2048) 100)).
Proof.
  destruct (C69_default_context Checked) as (cx & E & _). destruct (some_tape 2048) as (t & Ht).
  destruct (C85_default_chain Checked cx binary64 lossy_ln one_by_one (repeat 1 2048) (repeat 200 2048) t (repeat (true, repeat 99 2048) 100) (fun _ => t))
    as (c0 & c & H); [exact E|exact binary64_rounding|exact double_noise|intros ts; apply one_by_one_ok|apply ones_binary| |exact Ht| | |intros _; exact Ht|exists cx, t, c0, c; split; [exact E|split; [exact Ht|exact H]]].
  - apply flat_plaintext. lia.
  - apply Forall_forall. intros y Hy. apply repeat_spec in Hy. subst. apply flat_plaintext. lia.
  - rewrite repeat_length. lia.
Qed.
