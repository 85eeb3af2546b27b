(** * The logarithm of the number of labels, computed with rounding *)
From Coq Require Import Reals ZArith Lra Lia.
From Flocq Require Import Core.Zaux Core.Raux Core.Defs Core.Generic_fmt Core.Ulp Core.FLX Core.FLT Core.Round_NE Relative.
From Verif Require Import MBase MFloat SpecFft SpecDouble SpecLog PfDouble PfCodec.
Local Open Scope R_scope.

Lemma ln2_pos : 0 < ln 2. Proof. pose proof ln_lt_2. lra. Qed.
Lemma log2_pow k : log2 (2 ^ k) = INR k.
Proof. unfold log2. rewrite ln_pow by lra. field. pose proof ln2_pos. lra. Qed.
Lemma log2_le x y : 0 < x -> x <= y -> log2 x <= log2 y.
Proof.
  intros Hx H. unfold log2, Rdiv. apply Rmult_le_compat_r; [apply Rlt_le, Rinv_0_lt_compat, ln2_pos|].
  destruct (Rle_lt_or_eq_dec _ _ H) as [L| ->]; [apply Rlt_le, ln_increasing; assumption|lra].
Qed.
Lemma log2_mult x y : 0 < x -> 0 < y -> log2 (x * y) = log2 x + log2 y.
Proof. intros Hx Hy. unfold log2. rewrite ln_mult by assumption. field. pose proof ln2_pos. lra. Qed.
(** log2 (1 + 2^-k) >= 2^-k *)
Lemma log2_above k : / 2 ^ k <= log2 (1 + / 2 ^ k).
Proof.
  assert (0 < 2 ^ k) as P by (apply pow_lt; lra). assert (0 < / 2 ^ k) as P' by (apply Rinv_0_lt_compat, P).
  assert (INR (2 ^ k) = 2 ^ k) as EI by (rewrite pow_INR; reflexivity).
  assert (2 <= (1 + / 2 ^ k) ^ (2 ^ k)) as B.
  { pose proof (poly (2 ^ k) (/ 2 ^ k) P') as Q. rewrite EI in Q. rewrite Rinv_r in Q by lra. lra. }
  apply (log2_le 2) in B; [|lra]. unfold log2 in B at 2. rewrite ln_pow in B by lra. rewrite EI in B.
  replace (log2 2) with 1 in B by (unfold log2; field; pose proof ln2_pos; lra).
  fold (log2 (1 + / 2 ^ k)) in B. unfold log2. apply Rmult_le_reg_l with (2 ^ k); [exact P|]. rewrite Rinv_r by lra.
  replace (2 ^ k * (ln (1 + / 2 ^ k) / ln 2)) with (2 ^ k * ln (1 + / 2 ^ k) / ln 2) by (unfold Rdiv; ring). exact B.
Qed.
(** log2 (1 - 2^-k) <= - 2^-k *)
Lemma log2_below k : (0 < k)%nat -> log2 (1 - / 2 ^ k) <= - / 2 ^ k.
Proof.
  intros Hk. assert (1 < 2 ^ k) as P by (apply Rlt_pow_R1; [lra|exact Hk]). assert (0 < / 2 ^ k) as P' by (apply Rinv_0_lt_compat; lra).
  assert (/ 2 ^ k < 1) as P1 by (rewrite <- Rinv_1; apply Rinv_lt_contravar; lra).
  pose proof (log2_above k) as A.
  assert ((1 - / 2 ^ k) * (1 + / 2 ^ k) <= 1) as M by nra.
  apply log2_le in M; [|apply Rmult_lt_0_compat; lra]. rewrite log2_mult in M by lra. replace (log2 1) with 0 in M by (unfold log2; rewrite ln_1; unfold Rdiv; ring). lra.
Qed.
(** log2 (1 + y) < 2 y *)
Lemma log2_small y : 0 < y -> 0 <= log2 (1 + y) < 2 * y.
Proof.
  intros Hy. pose proof ln2_pos as L. pose proof ln_lt_2 as L2. assert (0 < ln (1 + y)) as P by (rewrite <- ln_1; apply ln_increasing; lra).
  assert (ln (1 + y) < y) as H by (rewrite <- (ln_exp y) at 2; apply ln_increasing; [lra|apply exp_ineq1; lra]).
  unfold log2. split.
  - apply Rmult_le_pos; [lra|apply Rlt_le, Rinv_0_lt_compat, L].
  - apply Rmult_lt_reg_r with (ln 2); [exact L|]. unfold Rdiv. rewrite Rmult_assoc, Rinv_l by lra. nra.
Qed.

(** ** Integers between powers of two *)
Lemma INR_pow2 k : INR (2 ^ k) = 2 ^ k. Proof. rewrite pow_INR. reflexivity. Qed.
Lemma int_above k s : (2 ^ k + 1 <= s)%nat -> INR k + / 2 ^ k <= log2 (INR s).
Proof.
  intros H. assert (0 < 2 ^ k) as P by (apply pow_lt; lra). apply le_INR in H. rewrite plus_INR, INR_pow2 in H. cbn [INR] in H.
  apply Rle_trans with (log2 (2 ^ k * (1 + / 2 ^ k))).
  - rewrite log2_mult; [|exact P|assert (0 < / 2 ^ k) by (apply Rinv_0_lt_compat, P); lra]. rewrite log2_pow. pose proof (log2_above k). lra.
  - apply log2_le; [apply Rmult_lt_0_compat; [exact P|assert (0 < / 2 ^ k) by (apply Rinv_0_lt_compat, P); lra]|]. rewrite Rmult_plus_distr_l, Rinv_r by lra. lra.
Qed.
Lemma int_below k s : (0 < k)%nat -> (0 < s)%nat -> (s + 1 <= 2 ^ k)%nat -> log2 (INR s) <= INR k - / 2 ^ k.
Proof.
  intros Hk Hs H. assert (1 < 2 ^ k) as P by (apply Rlt_pow_R1; [lra|exact Hk]). apply le_INR in H. rewrite plus_INR, INR_pow2 in H. cbn [INR] in H.
  assert (0 < INR s) as Ps by (apply lt_0_INR, Hs). assert (/ 2 ^ k < 1) as P1 by (rewrite <- Rinv_1; apply Rinv_lt_contravar; lra).
  apply Rle_trans with (log2 (2 ^ k * (1 - / 2 ^ k))).
  - apply log2_le; [exact Ps|]. rewrite Rmult_minus_distr_l, Rinv_r by lra. lra.
  - rewrite log2_mult by lra. rewrite log2_pow. pose proof (log2_below k Hk). lra.
Qed.
Lemma log2_nonneg s : (0 < s)%nat -> 0 <= log2 (INR s).
Proof. intros H. replace 0 with (log2 1) by (unfold log2; rewrite ln_1; unfold Rdiv; ring). apply log2_le; [lra|]. apply (le_INR 1). lia. Qed.

(** What the logarithm of an integer has to satisfy for its ceiling to be right. *)
Lemma ceil_bits (lg : R -> R) (s j : nat) : (1 <= s)%nat -> (s <= 2 ^ j)%nat -> (forall i, (i <= j)%nat -> lg (2 ^ i) = INR i) ->
  (forall k, (k < j)%nat -> (2 ^ k < s < 2 ^ (k + 1))%nat -> INR k < lg (INR s) <= INR (k + 1)) -> Zceil (lg (INR s)) = Z.of_nat (Nat.log2_up s).
Proof.
  intros H1 Hj Hpow Hmid. destruct (Nat.eq_dec s (2 ^ Nat.log2_up s)) as [E|NE].
  - assert (Nat.log2_up s <= j)%nat as Hl by (apply Nat.log2_up_le_pow2; lia).
    rewrite E at 1. rewrite INR_pow2, Hpow by exact Hl. rewrite INR_IZR_INZ. apply Zceil_IZR.
  - assert (1 < s)%nat as H2 by (destruct (Nat.eq_dec s 1) as [-> |]; [exfalso; apply NE; reflexivity|lia]).
    pose proof (Nat.log2_up_spec s H2) as [L U]. pose proof (Nat.log2_up_pos s H2) as Lp.
    assert (Nat.log2_up s <= j)%nat as Hl by (apply Nat.log2_up_le_pow2; lia).
    destruct (Nat.log2_up s) as [|k] eqn:Ek; [lia|]. cbn [Nat.pred] in L.
    destruct (Hmid k) as [A B]; [lia|split; [exact L|replace (k + 1)%nat with (S k) by lia; lia]|].
    apply Zceil_imp. rewrite !INR_IZR_INZ in *. replace (Z.of_nat (S k) - 1)%Z with (Z.of_nat k) by lia. replace (Z.of_nat (S k)) with (Z.of_nat (k + 1)) by lia. split; assumption.
Qed.

(** ** Agreement *)
Lemma label_bits_eq md rnd lg m : (Z.of_nat m + 1 < 2 ^ 53)%Z -> (forall z, (0 <= z < 2 ^ 53)%Z -> rnd (IZR z) = IZR z) ->
  label_bits md rnd lg m = Ok (Z.to_nat (Zceil (lg (INR (m + 1))))).
Proof.
  intros Hm Hr. unfold label_bits, uadd. destruct (Z.ltb_spec (Z.of_nat m + 1) q) as [G|G]; [|change q with (2 ^ 64)%Z in G; lia]. cbn [bind].
  destruct (Z.eqb_spec (Z.of_nat m + 1) 0); [lia|]. rewrite Hr by lia. replace (INR (m + 1)) with (IZR (Z.of_nat m + 1)) by (rewrite INR_IZR_INZ; f_equal; lia). reflexivity.
Qed.
Lemma pow_mono_R i j : (i <= j)%nat -> 2 ^ i <= 2 ^ j. Proof. intros H. apply Rle_pow; [lra|exact H]. Qed.
Lemma inv_pow_mono i j : (i <= j)%nat -> / 2 ^ j <= / 2 ^ i.
Proof. intros H. apply Rinv_le_contravar; [apply pow_lt; lra|apply pow_mono_R, H]. Qed.
Lemma nat_pow_bound m j : (Z.of_nat m < 2 ^ Z.of_nat j)%Z -> (m + 1 <= 2 ^ j)%nat.
Proof. intros H. apply Nat2Z.inj_le. rewrite Nat2Z.inj_pow. change (Z.of_nat 2) with 2%Z. lia. Qed.

Lemma inv_split a b : / 2 ^ (a + b) * 2 ^ b = / 2 ^ a.
Proof. rewrite pow_add, Rinv_mult, Rmult_assoc, Rinv_l by (apply pow_nonzero; lra). apply Rmult_1_r. Qed.
Lemma accurate_bits md rnd lg m : (forall z, (0 <= z < 2 ^ 53)%Z -> rnd (IZR z) = IZR z) ->
  (forall i, (i <= 44)%nat -> lg (2 ^ i) = INR i) -> (forall s, 1 <= s <= 2 ^ 44 -> Rabs (lg s - log2 s) <= / 2 ^ 52 * log2 s) ->
  (Z.of_nat m < 2 ^ 44)%Z -> label_bits md rnd lg m = Ok (Nat.log2_up (m + 1)).
Proof.
  intros Hr Hp He Hm. rewrite label_bits_eq; [|lia|exact Hr]. rewrite (ceil_bits lg (m + 1) 44); [rewrite Nat2Z.id; reflexivity|lia|apply (nat_pow_bound m 44); exact Hm|exact Hp|].
  intros k Hk [L U]. assert (1 <= INR (m + 1) <= 2 ^ 44) as Hs.
  { split; [apply (le_INR 1); lia|]. rewrite <- INR_pow2. apply le_INR. apply (nat_pow_bound m 44). exact Hm. }
  pose proof (int_above k (m + 1) ltac:(lia)) as A. pose proof (int_below (k + 1) (m + 1) ltac:(lia) ltac:(lia) ltac:(lia)) as B.
  specialize (He _ Hs). apply Rabs_le_inv in He.
  assert (log2 (INR (m + 1)) <= 2 ^ 6) as C.
  { eapply Rle_trans; [exact B|]. assert (0 < / 2 ^ (k + 1)) by (apply Rinv_0_lt_compat, pow_lt; lra). assert (INR (k + 1) <= INR 44) by (apply le_INR; lia).
    assert (INR 44 <= 2 ^ 6) by (rewrite <- INR_pow2; apply le_INR; cbn; lia). lra. }
  assert (/ 2 ^ 52 * log2 (INR (m + 1)) <= / 2 ^ 46) as D.
  { replace (/ 2 ^ 46) with (/ 2 ^ 52 * 2 ^ 6); [apply Rmult_le_compat_l; [apply Rlt_le, Rinv_0_lt_compat, pow_lt; lra|exact C]|exact (inv_split 46 6)]. }
  pose proof (inv_pow_mono k 44 ltac:(lia)) as I1. pose proof (inv_pow_mono (k + 1) 44 ltac:(lia)) as I2.
  assert (/ 2 ^ 46 < / 2 ^ 44) as I3 by (apply Rinv_lt_contravar; [apply Rmult_lt_0_compat; apply pow_lt; lra|apply Rlt_pow; [lra|lia]]).
  revert D I1 I2 I3 A B He. generalize (/ 2 ^ 52 * log2 (INR (m + 1))) (/ 2 ^ 46) (/ 2 ^ 44) (/ 2 ^ k) (/ 2 ^ (k + 1)) (INR k) (INR (k + 1)) (log2 (INR (m + 1))) (lg (INR (m + 1))).
  intros. lra.
Qed.

Lemma binary64_int z : (0 <= z < 2 ^ 53)%Z -> binary64 (IZR z) = IZR z.
Proof.
  intros H. unfold binary64. apply round_generic; [apply valid_rnd_N|]. apply generic_format_FLT.
  exists (Defs.Float Flocq.Core.Zaux.radix2 z 0); cbn [Fnum Fexp].
  - unfold F2R. cbn [Fnum Fexp bpow]. ring.
  - change (Zpower Flocq.Core.Zaux.radix2 53) with (2 ^ 53)%Z. rewrite Z.abs_eq; lia.
  - lia.
Qed.
Lemma binary64_le x y : x <= y -> binary64 x <= binary64 y.
Proof. intros H. unfold binary64. apply round_le; [apply FLT_exp_valid; reflexivity|apply valid_rnd_N|exact H]. Qed.

Lemma rounded_bits md m : (Z.of_nat m < 2 ^ 48)%Z -> label_bits md binary64 rounded_log2 m = Ok (Nat.log2_up (m + 1)).
Proof.
  intros Hm. rewrite label_bits_eq; [|lia|exact binary64_int].
  assert (forall i, (i <= 48)%nat -> binary64 (INR i) = INR i) as HI by (intros i Hi; rewrite INR_IZR_INZ; apply binary64_int; lia).
  rewrite (ceil_bits rounded_log2 (m + 1) 48); [rewrite Nat2Z.id; reflexivity|lia|apply (nat_pow_bound m 48); exact Hm| |].
  { intros i Hi. unfold rounded_log2. rewrite log2_pow. apply HI, Hi. }
  intros k Hk [L U]. unfold rounded_log2.
  pose proof (int_above k (m + 1) ltac:(lia)) as A. pose proof (int_below (k + 1) (m + 1) ltac:(lia) ltac:(lia) ltac:(lia)) as B.
  assert (0 < / 2 ^ (k + 1)) as P1 by (apply Rinv_0_lt_compat, pow_lt; lra).
  split.
  - destruct binary64_rounding as [_ Hr]. specialize (Hr (log2 (INR (m + 1)))). pose proof (log2_nonneg (m + 1) ltac:(lia)) as Pn. rewrite (Rabs_pos_eq _ Pn) in Hr.
    assert (Rmax (log2 (INR (m + 1))) (/ 2 ^ 1022) <= INR 48) as C.
    { apply Rmax_lub.
      - assert (INR (k + 1) <= INR 48) by (apply le_INR; lia). lra.
      - apply Rle_trans with (INR 1); [|apply le_INR; lia]. cbn [INR]. rewrite <- Rinv_1. apply Rinv_le_contravar; [lra|]. apply pow_R1_Rle. lra. }
    assert (/ 2 ^ 53 * Rmax (log2 (INR (m + 1))) (/ 2 ^ 1022) < / 2 ^ 47) as D.
    { apply Rle_lt_trans with (/ 2 ^ 53 * INR 48); [apply Rmult_le_compat_l; [apply Rlt_le, Rinv_0_lt_compat, pow_lt; lra|exact C]|].
      replace (/ 2 ^ 47) with (/ 2 ^ 53 * 2 ^ 6). { apply Rmult_lt_compat_l; [apply Rinv_0_lt_compat, pow_lt; lra|]. rewrite <- INR_pow2. apply lt_INR. cbn. lia. }
      exact (inv_split 47 6). }
    apply Rabs_le_inv in Hr. pose proof (inv_pow_mono k 47 ltac:(lia)) as I1.
    revert D I1 A Hr. generalize (/ 2 ^ 53 * Rmax (log2 (INR (m + 1))) (/ 2 ^ 1022)) (/ 2 ^ 47) (/ 2 ^ k) (INR k) (log2 (INR (m + 1))) (binary64 (log2 (INR (m + 1)))). intros. lra.
  - rewrite <- (HI (k + 1)%nat) by lia. apply binary64_le. lra.
Qed.

(** At 2^49 + 1 the correctly rounded logarithm is 49. *)
Lemma rounded_wrong md m : Z.of_nat m = (2 ^ 49)%Z -> label_bits md binary64 rounded_log2 m = Ok 49%nat.
Proof.
  intros Hm. rewrite label_bits_eq; [|lia|exact binary64_int]. unfold rounded_log2.
  assert (INR (m + 1) = 2 ^ 49 * (1 + / 2 ^ 49)) as EI.
  { rewrite Rmult_plus_distr_l, Rinv_r by (apply pow_nonzero; lra). rewrite Rmult_1_r, INR_IZR_INZ. replace (Z.of_nat (m + 1)) with (2 ^ 49 + 1)%Z by lia. rewrite plus_IZR. replace (IZR (2 ^ 49)) with (2 ^ 49) by (rewrite pow_IZR; reflexivity). reflexivity. }
  assert (0 < / 2 ^ 49) as P by (apply Rinv_0_lt_compat, pow_lt; lra).
  rewrite EI, log2_mult by (try apply pow_lt; lra). rewrite log2_pow. pose proof (log2_small (/ 2 ^ 49) P) as [S0 S1].
  assert (binary64 (INR 49 + log2 (1 + / 2 ^ 49)) = IZR 49) as ->; [|rewrite Zceil_IZR; reflexivity].
  rewrite INR_IZR_INZ. change (Z.of_nat 49) with 49%Z. set (y := log2 (1 + / 2 ^ 49)) in *.
  assert (2 * / 2 ^ 49 = / 2 ^ 48) as E48.
  { replace (2 ^ 49) with (2 * 2 ^ 48) by reflexivity. rewrite Rinv_mult. rewrite <- Rmult_assoc, Rinv_r by lra. apply Rmult_1_l. }
  rewrite E48 in S1. clear EI P E48. clearbody y.
  assert (cexp Flocq.Core.Zaux.radix2 (FLT_exp (-1074) 53) (IZR 49 + y) = (-47)%Z) as Ec.
  { unfold cexp. rewrite (mag_unique Flocq.Core.Zaux.radix2 (IZR 49 + y) 6); [reflexivity|]. rewrite Rabs_pos_eq by lra. cbn [bpow Z.sub Z.add Z.opp Z.pos_sub Pos.pred_double].
    assert (/ 2 ^ 48 < 1) by (rewrite <- Rinv_1; apply Rinv_lt_contravar; [rewrite Rmult_1_l; apply pow_lt; lra|apply Rlt_pow_R1; [lra|lia]]).
    change (Z.pow_pos Flocq.Core.Zaux.radix2 6) with 64%Z. change (6 - 1)%Z with 5%Z. cbn [bpow]. change (Z.pow_pos Flocq.Core.Zaux.radix2 5) with 32%Z. lra. }
  unfold binary64, round, scaled_mantissa. rewrite Ec. unfold F2R. cbn [Fnum Fexp Z.opp].
  assert (bpow Flocq.Core.Zaux.radix2 47 = 2 ^ 47) as E47 by (cbn [bpow]; change (Z.pow_pos Flocq.Core.Zaux.radix2 47) with (2 ^ 47)%Z; rewrite pow_IZR; reflexivity).
  assert (bpow Flocq.Core.Zaux.radix2 (-47) = / 2 ^ 47) as E47' by (change (Zneg 47) with (Z.opp 47); rewrite bpow_opp, E47; reflexivity).
  rewrite E47, E47'.
  assert (ZnearestE ((IZR 49 + y) * 2 ^ 47) = (49 * 2 ^ 47)%Z) as ->.
  { apply Znearest_imp. assert (0 < 2 ^ 47) as P47 by (apply pow_lt; lra). rewrite mult_IZR. replace (IZR (2 ^ 47)) with (2 ^ 47) by (rewrite pow_IZR; reflexivity).
    replace ((IZR 49 + y) * 2 ^ 47 - IZR 49 * 2 ^ 47) with (y * 2 ^ 47) by ring. rewrite Rabs_pos_eq by (apply Rmult_le_pos; lra).
    apply Rlt_le_trans with (/ 2 ^ 48 * 2 ^ 47); [apply Rmult_lt_compat_r; assumption|]. replace (2 ^ 48) with (2 * 2 ^ 47) by reflexivity. rewrite Rinv_mult, Rmult_assoc, Rinv_l by lra. lra. }
  rewrite mult_IZR. replace (IZR (2 ^ 47)) with (2 ^ 47) by (rewrite pow_IZR; reflexivity). rewrite Rmult_assoc, Rinv_r by (apply pow_nonzero; lra). ring.
Qed.
