(** Numbers: the error bound for double precision. *)
From Coq Require Import Reals Lra Lia.
From Verif Require Import MBase MPoly MFft SpecRing SpecLwe SpecFft PfFft1 PfFft2 PfFft3 PfFft4 PfFft5.
Local Open Scope R_scope.

Lemma pow_small x m : 0 <= x -> INR m * x <= / 20 -> (1 + x) ^ m <= 1 + 35 / 32 * (INR m * x).
Proof.
  intros Hx. induction m as [|m IH]; intros H; [cbn; lra|]. rewrite S_INR in *. cbn [pow].
  assert (0 <= INR m) by apply pos_INR. assert (INR m * x <= / 20) as H2 by nra. specialize (IH H2).
  apply Rle_trans with ((1 + x) * (1 + 35 / 32 * (INR m * x))); [apply Rmult_le_compat_l; lra|].
  assert (x * (INR m * x) <= x * / 20) by (apply Rmult_le_compat_l; assumption). lra.
Qed.
Lemma pow3 u : 0 <= u -> 1 + 3 * u <= (1 + u) ^ 3. Proof. intros. cbn [pow]. nra. Qed.
Lemma product_error_pow u m d : 0 <= u ->
  product_error u (3 * u) u (((1 + u) * ((1 + 3 * u) * (1 + u))) ^ m - 1) d <= (1 + u) ^ (15 * m + 19 + d) - 1.
Proof.
  intros Hu. unfold product_error. set (g := (1 + u) * ((1 + 3 * u) * (1 + u))). replace (1 + (g ^ m - 1)) with (g ^ m) by ring.
  assert (0 <= 1 + 3 * u /\ 0 <= 1 + u) as [P3 P1] by lra. pose proof (pow3 u Hu) as H3.
  assert (0 <= g <= (1 + u) ^ 5) as [Hg0 Hg].
  { unfold g. split; [repeat apply Rmult_le_pos; assumption|]. replace ((1 + u) ^ 5) with ((1 + u) * ((1 + u) ^ 3 * (1 + u))) by (cbn [pow]; ring).
    apply Rmult_le_compat_l; [exact P1|]. apply Rmult_le_compat_r; assumption. }
  assert ((g ^ m) ^ 3 <= (1 + u) ^ (15 * m)) as H1.
  { rewrite <- pow_mult. replace (15 * m)%nat with (5 * (m * 3))%nat by lia. rewrite (pow_mult (1 + u) 5). apply pow_incr. split; assumption. }
  assert ((1 + 3 * u) ^ 4 <= (1 + u) ^ 12) as H2.
  { replace 12%nat with (3 * 4)%nat by reflexivity. rewrite (pow_mult (1 + u) 3). apply pow_incr. split; assumption. }
  replace (15 * m + 19 + d)%nat with (15 * m + (4 + d) + (12 + 3))%nat by lia. rewrite !(pow_add _ (15 * m + (4 + d))), (pow_add _ (15 * m)), (pow_add _ 12).
  assert (forall k, 0 <= (1 + u) ^ k) as HP by (intros; apply pow_le; lra).
  assert (0 <= (g ^ m) ^ 3 /\ 0 <= (1 + 3 * u) ^ 4) as [G1 G2] by (split; [apply pow_le, pow_le; exact Hg0|apply pow_le; exact P3]).
  assert ((g ^ m) ^ 3 * (1 + u) ^ (4 + d) * ((1 + 3 * u) ^ 4 * (1 + u) ^ 3) <= (1 + u) ^ (15 * m) * (1 + u) ^ (4 + d) * ((1 + u) ^ 12 * (1 + u) ^ 3)); [|lra].
  apply Rmult_le_compat; [apply Rmult_le_pos; auto|apply Rmult_le_pos; auto| |]; apply Rmult_le_compat_r; auto.
Qed.
Lemma double_bound m D L d u t : (0 <= D)%Z -> (d <= L)%nat -> (15 * Z.of_nat m + 19 + Z.of_nat L <= 2 ^ 48)%Z ->
  0 <= u <= / 2 ^ 53 * (1001 / 1000) -> 0 <= t <= / 1000 ->
  coefficient_error (2 * 2 ^ m) D L u (3 * u) u (((1 + u) * ((1 + 3 * u) * (1 + u))) ^ m - 1) t d
  <= IZR (double_error m D L).
Proof.
  intros HD Hd HK [Hu0 Hu1] Ht. assert (0 < / 2 ^ 53) as Hu53 by (apply Rinv_0_lt_compat, pow_lt; lra).
  assert (2 ^ 63 * u <= 1024 * (1001 / 1000)) as E10.
  { apply (Rmult_le_compat_l (2 ^ 63)) in Hu1; [|apply pow_le; lra]. replace (2 ^ 63) with (1024 * 2 ^ 53) in Hu1 at 2 by (cbn; ring).
    replace (1024 * 2 ^ 53 * (/ 2 ^ 53 * (1001 / 1000))) with (1024 * (1001 / 1000)) in Hu1 by (field; apply pow_nonzero; lra). exact Hu1. }
  assert (0 <= 2 ^ 63 * u) as E10' by (apply Rmult_le_pos; [apply pow_le; lra|exact Hu0]).
  pose proof (product_error_pow u m d Hu0) as H1.
  assert ((1 + u) ^ (15 * m + 19 + d) <= (1 + u) ^ (15 * m + 19 + L)) as H2 by (apply Rle_pow; [lra|lia]).
  set (K := (15 * m + 19 + L)%nat) in *.
  assert (INR K <= 2 ^ 48) as HK2.
  { rewrite INR_IZR_INZ. replace (2 ^ 48) with (IZR (2 ^ 48)) by (rewrite (pow_IZR 2 48); reflexivity). apply IZR_le. unfold K. lia. }
  assert (INR K * u <= / 20) as HKu.
  { apply Rle_trans with (2 ^ 48 * (/ 2 ^ 53 * (1001 / 1000))); [apply Rmult_le_compat; [apply pos_INR|exact Hu0|exact HK2|exact Hu1]|]. replace (2 ^ 53) with (32 * 2 ^ 48) by (cbn; ring).
    rewrite Rinv_mult. replace (2 ^ 48 * (/ 32 * / 2 ^ 48 * (1001 / 1000))) with (/ 32 * (1001 / 1000)) by (field; apply pow_nonzero; lra). lra. }
  pose proof (pow_small u K Hu0 HKu) as H3.
  assert (product_error u (3 * u) u (((1 + u) * ((1 + 3 * u) * (1 + u))) ^ m - 1) d <= 35 / 32 * (INR K * u)) as H4 by lra.
  pose proof (pow_small u 2 Hu0 ltac:(cbn [INR]; unfold K in HKu; assert (INR 2 <= INR (15 * m + 19 + L)) as H5 by (apply le_INR; lia); cbn [INR] in H5; nra)) as H6. change (INR 2) with 2 in H6.
  unfold coefficient_error. set (X := INR L * INR (2 * 2 ^ m) * IZR D). assert (0 <= X) as HX.
  { unfold X. apply Rmult_le_pos; [apply Rmult_le_pos; apply pos_INR|apply IZR_le; exact HD]. }
  assert (IZR (double_error m D L) = 1152 * (X * INR K) + 2306) as ->.
  { unfold double_error. rewrite plus_IZR. f_equal. rewrite mult_IZR. f_equal. unfold X. rewrite !mult_IZR, <- !INR_IZR_INZ. f_equal; [f_equal; f_equal|].
    - rewrite INR_IZR_INZ. f_equal. rewrite Nat2Z.inj_mul, Nat2Z.inj_pow. change (Z.of_nat 2) with 2%Z. rewrite Z.pow_add_r by lia. lia.
    - unfold K. rewrite INR_IZR_INZ. f_equal. lia. }
  assert (0 <= X * INR K) as HXK by (apply Rmult_le_pos; [exact HX|apply pos_INR]).
  assert (2 ^ 63 * X * product_error u (3 * u) u (((1 + u) * ((1 + 3 * u) * (1 + u))) ^ m - 1) d <= 1122 * (X * INR K)) as H7.
  { apply Rle_trans with (2 ^ 63 * X * (35 / 32 * (INR K * u))).
    - apply Rmult_le_compat_l; [apply Rmult_le_pos; [apply pow_le; lra|exact HX]|exact H4].
    - replace (2 ^ 63 * X * (35 / 32 * (INR K * u))) with ((2 ^ 63 * u) * (35 / 32 * (X * INR K))) by ring.
      apply Rle_trans with (1024 * (1001 / 1000) * (35 / 32 * (X * INR K))); [apply Rmult_le_compat_r; lra|lra]. }
  assert (2 ^ 63 * ((1 + u) ^ 2 - 1) <= 2243) as H8.
  { apply Rle_trans with (2 ^ 63 * (35 / 32 * (2 * u))); [apply Rmult_le_compat_l; [apply pow_le; lra|lra]|]. replace (2 ^ 63 * (35 / 32 * (2 * u))) with ((2 ^ 63 * u) * (35 / 16)) by field. lra. }
  assert (1 <= (1 + 4 * t) ^ 2 <= 1009 / 1000) as H9 by (cbn [pow]; nra).
  apply Rle_trans with ((1 + 4 * t) ^ 2 * (1122 * (X * INR K) + 2243) + 3 / 2); [apply Rplus_le_compat_r, Rmult_le_compat_l; lra|].
  apply Rle_trans with (1009 / 1000 * (1122 * (X * INR K) + 2243) + 3 / 2); [apply Rplus_le_compat_r, Rmult_le_compat_r; lra|]. lra.
Qed.
