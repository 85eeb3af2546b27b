(** Rounding to binary64 has the error that C82 assumes. *)
From Coq Require Import Reals ZArith Lra Lia.
From Flocq Require Import Core.Zaux Core.Raux Core.Generic_fmt Core.FLX Core.FLT Core.Round_NE Relative.
From Verif Require Import SpecFft SpecDouble.
Local Open Scope R_scope.

Lemma bpow_inv k : bpow Flocq.Core.Zaux.radix2 (- Z.of_nat k) = / 2 ^ k.
Proof. rewrite bpow_opp. f_equal. rewrite <- (IZR_Zpower Flocq.Core.Zaux.radix2) by lia. rewrite pow_IZR. reflexivity. Qed.
Lemma binary64_rounding : rounding binary64 (/ 2 ^ 53) (/ 2 ^ 1022).
Proof.
  split; [apply round_0; typeclasses eauto|]. intros x.
  destruct (error_N_FLT Flocq.Core.Zaux.radix2 (-1074) 53 ltac:(lia) (fun z => negb (Z.even z)) x) as (eps & eta & H1 & H2 & H3 & H4).
  unfold binary64. fold (ZnearestE) in H4. rewrite H4.
  change (bpow Flocq.Core.Zaux.radix2 (- (53) + 1)) with (bpow Flocq.Core.Zaux.radix2 (- Z.of_nat 52)) in H1. rewrite bpow_inv in H1.
  change (bpow Flocq.Core.Zaux.radix2 (-1074)) with (bpow Flocq.Core.Zaux.radix2 (- Z.of_nat 1074)) in H2. rewrite bpow_inv in H2.
  assert (/ 2 * / 2 ^ 52 = / 2 ^ 53) as E1 by (rewrite <- Rinv_mult; f_equal; change (2 ^ 53) with (2 * 2 ^ 52); reflexivity). rewrite E1 in H1.
  assert (/ 2 * / 2 ^ 1074 = / 2 ^ 53 * / 2 ^ 1022) as E2.
  { rewrite <- !Rinv_mult. f_equal. replace (2 * 2 ^ 1074) with (2 ^ (1 + 1074)) by (rewrite pow_add; f_equal; apply pow_1).
    rewrite <- pow_add. reflexivity. } rewrite E2 in H2.
  assert (0 < / 2 ^ 53) as P1 by (apply Rinv_0_lt_compat, pow_lt; lra). assert (0 < / 2 ^ 1022) as P2 by (apply Rinv_0_lt_compat, pow_lt; lra).
  clear E1 E2. revert H1 H2 P1 P2. generalize (/ 2 ^ 53) (/ 2 ^ 1022). intros u t H1 H2 P1 P2.
  replace (x * (1 + eps) + eta - x) with (x * eps + eta) by ring.
  pose proof (Rmax_l (Rabs x) t) as M1. pose proof (Rmax_r (Rabs x) t) as M2.
  apply Rmult_integral in H3. destruct H3 as [-> | ->].
  - rewrite Rmult_0_r, Rplus_0_l. eapply Rle_trans; [exact H2|]. apply Rmult_le_compat_l; lra.
  - rewrite Rplus_0_r, Rabs_mult, Rmult_comm. apply Rmult_le_compat; [apply Rabs_pos|apply Rabs_pos|exact H1|exact M1].
Qed.
Lemma binary64_sign x : 0 <= x -> 0 <= binary64 x.
Proof.
  intros H. rewrite <- (round_0 Flocq.Core.Zaux.radix2 (FLT_exp (-1074) 53) ZnearestE). unfold binary64.
  assert (FLX.Prec_gt_0 53) as P by (unfold FLX.Prec_gt_0; lia). apply round_le; [typeclasses eauto|typeclasses eauto|exact H].
Qed.
