(** * C96, continued: the Fourier multiplication is as accurate when the first operand is the small one. *)
From Coq Require Import Reals Lra.
From Flocq Require Import Core IEEE754.BinarySingleNaN.
From Verif Require Import MBase MPoly MRlwe MFft MIeee MIeee2.
From Verif Require Import SpecRing SpecLwe SpecFft SpecFft2 SpecDouble SpecIeee SpecIeee2 SpecTables SpecEither.
From Verif Require Import PfNear PfFft1 PfFft3 PfFft4 PfFft5 PfFft6 PfFft7 PfFft8 PfDouble PfIeee PfIeee2 PfTables PFft PIeee PClose.
Local Open Scope Z_scope.

Lemma valued_either kd T shape m D L c : close_tables T (2 * 2 ^ m) (INR c * / 2 ^ 53) -> (1 <= c)%nat -> 1 <= D -> (0 < L)%nat -> (m <= 936)%nat ->
  (12 + 3 * Z.of_nat c) * Z.of_nat m + 16 + 3 * Z.of_nat c + Z.of_nat L <= 2 ^ 48 ->
  (forall ts, (length ts <= L)%nat -> sums (2 * 2 ^ m) (shape ts) ts L) -> either_fft_ok (2 * 2 ^ m) (float_fft (valued_machine kd T) shape (2 * 2 ^ m)) D L (table_error m D L c).
Proof.
  intros HT Hc HD HL Hm HK Hs ts Hl Hts.
  assert (0 < / 2 ^ 53 <= / 16)%R as Hu.
  { split; [apply Rinv_0_lt_compat, pow_lt; lra|]. apply Rinv_le_contravar; [lra|]. replace 16%R with (2 ^ 4)%R by (cbn; ring). apply Rle_pow; [lra|lia]. }
  assert (0 < / 2 ^ 1022)%R as Ht by (apply Rinv_0_lt_compat, pow_lt; lra).
  assert (2 ^ m * / 2 ^ 1022 <= / 2 ^ 86)%R as Hs86.
  { apply Rmult_le_reg_r with (2 ^ 1022)%R; [apply pow_lt; lra|]. rewrite Rmult_assoc, Rinv_l, Rmult_1_r by (apply pow_nonzero; lra).
    replace 1022%nat with (86 + 936)%nat by reflexivity. rewrite (pow_add 2 86 936), <- Rmult_assoc, Rinv_l, Rmult_1_l by (apply pow_nonzero; lra). apply Rle_pow; [lra|exact Hm]. }
  assert (2 ^ 64 * (4 * 2 ^ m * / 2 ^ 1022) <= / 2 ^ 20)%R as Hs22.
  { replace (2 ^ 64 * (4 * 2 ^ m * / 2 ^ 1022))%R with (2 ^ 66 * (2 ^ m * / 2 ^ 1022))%R by (replace (2 ^ 66)%R with (4 * 2 ^ 64)%R by (cbn; ring); ring).
    apply Rle_trans with (2 ^ 66 * / 2 ^ 86)%R; [apply Rmult_le_compat_l; [apply pow_le; lra|exact Hs86]|]. right. replace 86%nat with (66 + 20)%nat by reflexivity. rewrite (pow_add 2 66 20), Rinv_mult. field. }
  assert (1 <= 2 ^ 64)%R as H64 by (apply pow_R1_Rle; lra).
  assert (/ 2 ^ 20 <= / 1000)%R as H22 by (apply Rinv_le_contravar; cbn; lra).
  assert (0 < 2 ^ m * / 2 ^ 1022)%R as Hpos by (apply Rmult_lt_0_compat; [apply pow_lt; lra|exact Ht]).
  assert (1 <= INR c)%R as Hc1 by (apply (le_INR 1), Hc).
  assert (INR c * / 2 ^ 53 <= / 8)%R as Hc8.
  { assert (INR c <= 2 ^ 48)%R as HK2.
    { rewrite INR_IZR_INZ. replace (2 ^ 48)%R with (IZR (2 ^ 48)) by (rewrite (pow_IZR 2 48); reflexivity). apply IZR_le. nia. }
    apply Rle_trans with (2 ^ 48 * / 2 ^ 53)%R; [apply Rmult_le_compat_r; lra|]. replace (2 ^ 53)%R with (32 * 2 ^ 48)%R by (cbn; ring).
    rewrite Rinv_mult. replace (2 ^ 48 * (/ 32 * / 2 ^ 48))%R with (/ 32)%R by (field; apply pow_nonzero; lra). lra. }
  assert (close_to_roots (fun n j => value (t_twist T n j)) (fun n j => value (t_untwist T n j)) (fun h r => value (t_forward T h r)) (fun h r => value (t_backward T h r)) (2 * 2 ^ m) (INR c * / 2 ^ 53)) as HC.
  { destruct HT as (A1 & A2 & A3 & A4). split; [intros j Hj; apply A1, Hj|]. split; [intros j Hj; apply A2, Hj|]. split; [intros i r Hr; apply A3, Hr|intros i r Hr; apply A4, Hr]. }
  assert (/ 2 ^ 53 <= INR c * / 2 ^ 53)%R as Hcu. { replace (/ 2 ^ 53)%R with (1 * / 2 ^ 53)%R at 1 by ring. apply Rmult_le_compat_r; lra. }
  pose proof (C96_machine binary64 (/ 2 ^ 53) (/ 2 ^ 1022) m (rmul_of binary64 kd) _ _ _ _ (INR c * / 2 ^ 53) ltac:(lra) ltac:(lra) C82_binary64
    (fun x y => C96_multiplication binary64 (/ 2 ^ 53) (/ 2 ^ 1022) kd x y ltac:(lra) ltac:(lra) C82_binary64) HC ltac:(lra)) as Hacc.
  assert (0 <= / 2 ^ 53 <= / 2 ^ 53 * (1001 / 1000))%R as Hv by lra.
  assert (0 <= INR c * / 2 ^ 53)%R as Hcu0 by lra.
  set (v := (/ 2 ^ 53)%R) in *. assert (0 < 4 * 2 ^ m * / 2 ^ 1022)%R as Ht4 by lra. set (t := (4 * 2 ^ m * / 2 ^ 1022)%R) in *.
  assert (t <= 2 ^ 64 * t)%R as HtT by nra. clear Hs86 Hpos Ht.
  apply (float_fft_either _ shape (2 ^ m) D L v (3 * v)%R (INR c * v)%R (((1 + v) * ((1 + 3 * v) * (1 + INR c * v))) ^ m - 1) t (2 ^ 64 * t)%R L (table_error m D L c)); try exact Hacc; try exact Hs; try lra; try assumption.
  - apply Nat.neq_0_lt_0, Nat.pow_nonzero. lia.
  - assert (1 <= ((1 + v) * ((1 + 3 * v) * (1 + INR c * v))) ^ m)%R; [|lra]. apply pow_R1_Rle. assert (1 <= (1 + 3 * v) * (1 + INR c * v))%R by nra. nra.
  - apply table_bound; [exact Hc|lia|lia|lia|exact Hv|lra].
  - eapply Forall_impl; [|exact Hts]. intros ab (Wa & Wb & [Sa|Sb]); (split; [exact Wa|split; [exact Wb|]]); [right; split; [exact Sa|lra]|left; exact Sb].
Qed.
(** Whichever operand of each product is the small one, the one taken as integers or the one taken as fractions of 2^64: the same bound holds. *)
Theorem C96_either : forall kd T shape m D L c, close_tables T (2 * 2 ^ m) (INR c * / 2 ^ 53) -> (1 <= c)%nat -> Z.of_nat c <= 2 ^ 35 -> 1 <= D -> (0 < L)%nat -> (9 * m + L <= 952)%nat ->
  (forall ts, (length ts <= L)%nat -> sums (2 * 2 ^ m) (shape ts) ts L) ->
  either_fft_ok (2 * 2 ^ m) (ieee_fft_of kd T shape (2 * 2 ^ m)) D L (table_error m D L c).
Proof.
  intros kd T shape m D L c HT Hc Hc2 HD HL Hm Hs ts Hl Hts.
  assert (INR c * / 2 ^ 53 <= 1)%R as Hw.
  { assert (INR c <= 2 ^ 53)%R as HK2.
    { rewrite INR_IZR_INZ. replace (2 ^ 53)%R with (IZR (2 ^ 53)) by (rewrite (pow_IZR 2 53); reflexivity). apply IZR_le. lia. }
    apply Rmult_le_reg_r with (2 ^ 53)%R; [apply pow_lt; lra|]. rewrite Rmult_assoc, Rinv_l by (apply pow_nonzero; lra). lra. }
  destruct (C96_no_overflow kd T m _ shape ts HT Hw) as [_ ->].
  - eapply Forall_impl; [|exact Hts]. intros [a b] (Wa & Wb & _). split; [apply Wa|apply Wb].
  - pose proof (sums_depth _ _ _ _ (Hs ts Hl)). lia.
  - apply valued_either; auto; [lia|]. assert (Z.of_nat m <= 105) by lia. nia.
Qed.
Print Assumptions C96_either.
(** The tables the FFT library computes, from a sine and cosine accurate to 2^-52. *)
Theorem C96_either_computed : forall kd sc m D L, good_sin_cos sc -> 1 <= D -> (0 < L)%nat -> (m <= 99)%nat -> (9 * m + L <= 952)%nat ->
  either_fft_ok (2 * 2 ^ m) (ieee_fft_of kd (computed_tables sc) one_by_one (2 * 2 ^ m)) D L (table_error m D L 17).
Proof.
  intros kd sc m D L Hsc HD HL Hm9 Hm. apply C96_either; [apply C96_computed; [exact Hsc|lia]|lia|lia|exact HD|exact HL|exact Hm|intros ts; apply one_by_one_ok].
Qed.
Print Assumptions C96_either_computed.
Example C96_either_applies : forall kd, either_fft_ok 2048 (ieee_fft_of kd (computed_tables rounded_sin_cos) one_by_one 2048) 1 1 1646790914.
Proof. intros kd. change 1646790914 with (table_error 10 1 1 17). change 2048%nat with (2 * 2 ^ 10)%nat. apply C96_either_computed; [apply rounded_sin_cos_ok|lia|lia|lia|lia]. Qed.
