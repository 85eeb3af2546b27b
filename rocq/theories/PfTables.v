(** * Tables computed with a library's sine and cosine are close to the roots of unity. *)
From Coq Require Import Reals ZArith Lra Lia Machin QArith Qpower Qreals.
From Flocq Require Import Core IEEE754.BinarySingleNaN.
From Verif Require Import MBase MPoly MFft MIeee MIeee2 SpecFft SpecFft2 SpecDouble SpecIeee SpecIeee2 SpecTables PfFft1 PfFft3 PfFft5 PfDouble PfIeee PfIeee2.
Local Open Scope R_scope.

(** ** Pi to 50 bits *)
Definition qpow (x : Q) (n : nat) : Q := Qpower x (Z.of_nat n).
Definition qterm (n : nat) : Q := Qred ((if Nat.even n then 1 else -(1)) * ((2 * (qpow (1 # 3) (2 * n + 1)) + qpow (1 # 7) (2 * n + 1)) / inject_Z (Z.of_nat (2 * n + 1))))%Q.
Fixpoint qsum (n : nat) : Q := match n with O => qterm 0 | S n' => Qred (qsum n' + qterm n) end.
Lemma qpow_ok x n : ~ (x == 0)%Q -> Q2R (qpow x n) = (Q2R x) ^ n.
Proof.
  intros Hx. unfold qpow. induction n as [|n IH]; [cbn; unfold Q2R; cbn; lra|].
  rewrite Nat2Z.inj_succ, <- Z.add_1_r. rewrite (Qeq_eqR _ _ (Qpower_plus x (Z.of_nat n) 1 Hx)), Q2R_mult, IH. cbn [pow]. change (Qpower x 1) with x. ring.
Qed.
Lemma qterm_ok n : Q2R (qterm n) = tg_alt PI_2_3_7_tg n.
Proof.
  unfold qterm, tg_alt, PI_2_3_7_tg, Ratan_seq. rewrite (Qeq_eqR _ _ (Qred_correct _)).
  assert (Q2R (if Nat.even n then 1 else - (1))%Q = (-1) ^ n) as E1.
  { induction n as [|n IH]; [cbn; unfold Q2R; cbn; lra|]. rewrite Nat.even_succ, <- Nat.negb_even. cbn [pow]. rewrite <- IH. destruct (Nat.even n); cbn [negb]; unfold Q2R; cbn; lra. }
  assert (~ (inject_Z (Z.of_nat (2 * n + 1)) == 0)%Q) as Hnz by (unfold Qeq, inject_Z; cbn [Qnum Qden]; lia).
  assert (Q2R (inject_Z (Z.of_nat (2 * n + 1))) = INR (2 * n + 1)) as E2 by (rewrite INR_IZR_INZ; unfold Q2R, inject_Z; cbn [Qnum Qden]; field).
  rewrite Q2R_mult, E1. f_equal. rewrite Q2R_div by exact Hnz. rewrite E2, Q2R_plus, Q2R_mult, !qpow_ok by (unfold Qeq; cbn; lia).
  assert (Q2R (1 # 3) = / 3) as -> by (unfold Q2R; cbn; lra). assert (Q2R (1 # 7) = / 7) as -> by (unfold Q2R; cbn; lra). assert (Q2R 2 = 2) as -> by (unfold Q2R; cbn; lra).
  assert (INR (2 * n + 1) <> 0) as Hi by (apply not_0_INR; lia). field. exact Hi.
Qed.
Lemma qsum_ok n : Q2R (qsum n) = sum_f_R0 (tg_alt PI_2_3_7_tg) n.
Proof.
  induction n as [|n IH]; [apply qterm_ok|]. cbn [qsum sum_f_R0]. rewrite (Qeq_eqR _ _ (Qred_correct _)), Q2R_plus, IH, qterm_ok. reflexivity.
Qed.
Definition pi_value : R := 884279719003555 / 2 ^ 48.
Lemma pi_close : Rabs (pi_value - PI) <= / 2 ^ 52.
Proof.
  pose proof (PI_2_3_7_ineq 8) as [H1 H2]. rewrite <- qsum_ok in H1, H2.
  assert (Qle (884279719003555 * 16 - 1 # 2 ^ 54) (qsum (S (2 * 8))))%Q as K1 by (apply Qle_bool_iff; vm_compute; reflexivity).
  assert (Qle (qsum (2 * 8)) (884279719003555 * 16 + 1 # 2 ^ 54))%Q as K2 by (apply Qle_bool_iff; vm_compute; reflexivity).
  apply Qle_Rle in K1, K2. unfold pi_value. generalize dependent (Q2R (qsum (S (2 * 8)))). generalize dependent (Q2R (qsum (2 * 8))). intros b H2 K2 a H1 K1.
  unfold Q2R in K1, K2. cbn [Qnum Qden] in K1, K2. rewrite minus_IZR in K1. rewrite plus_IZR in K2. rewrite !mult_IZR in K1, K2.
  assert (IZR (Z.pos (2 ^ 54)) = 64 * 2 ^ 48) as E by (rewrite pow_IZR, <- mult_IZR; reflexivity). rewrite E in K1, K2. clear E.
  assert (/ 2 ^ 52 = 4 * / (64 * 2 ^ 48)) as -> by (replace (2 ^ 52) with (16 * 2 ^ 48) by (cbn; ring); field; apply pow_nonzero; lra).
  assert (0 < 2 ^ 48) as P by (apply pow_lt; lra). generalize dependent (2 ^ 48). intros X K1 K2 P.
  assert (884279719003555 / X = 4 * (884279719003555 * 16 * / (64 * X))) as -> by (field; lra). apply Rabs_le. lra.
Qed.

(** ** The unit circle is Lipschitz *)
Lemma cis_lipschitz a b : Cabs (Csub (cis a) (cis b)) <= Rabs (a - b).
Proof.
  apply abs_le_sqr; [apply Cabs_pos|apply Rabs_pos|]. rewrite Cabs_sqr. unfold Csub, cis. cbn [fst snd].
  pose proof (Rsqr_abs (a - b)) as E. unfold Rsqr in E. rewrite <- E. clear E.
  replace ((cos a - cos b) * (cos a - cos b) + (sin a - sin b) * (sin a - sin b)) with (2 - 2 * cos (a - b)).
  - set (x := (a - b) / 2). replace (a - b) with (2 * x) by (unfold x; field). rewrite cos_2a_sin.
    assert (sin x * sin x <= x * x) as H.
    { assert (forall y, 0 <= y -> sin y * sin y <= y * y) as K.
      { intros y Hy. destruct (Rle_lt_dec 1 y) as [H1|H1]; [pose proof (SIN_bound y); nra|]. destruct Hy as [Hy | <-]; [|rewrite sin_0; lra].
        pose proof (sin_lt_x y Hy). pose proof PI2_1. pose proof (sin_ge_0 y ltac:(lra) ltac:(lra)). nra. }
      destruct (Rle_lt_dec 0 x) as [H|H]; [apply K, H|]. pose proof (K (- x) ltac:(lra)) as H2. rewrite sin_neg in H2. lra. }
    lra.
  - rewrite cos_minus. pose proof (sin2_cos2 a) as H1. pose proof (sin2_cos2 b) as H2. unfold Rsqr in *. lra.
Qed.
Lemma sampled_close z a t d e : Rabs (a - t) <= d -> Rabs (fst (value z) - cos a) <= e -> Rabs (snd (value z) - sin a) <= e -> Cabs (Csub (value z) (cis t)) <= d + 2 * e.
Proof.
  intros H H1 H2. eapply Rle_trans; [apply (Cabs_sub_tri _ (cis a))|]. pose proof (cis_lipschitz a t) as K.
  assert (Cabs (Csub (value z) (cis a)) <= 2 * e) as K2; [|lra].
  pose proof (Rabs_pos (fst (value z) - cos a)). apply abs_le_sqr; [apply Cabs_pos|lra|]. rewrite Cabs_sqr. unfold Csub, cis. cbn [fst snd].
  set (p := fst (value z) - cos a) in *. set (s := snd (value z) - sin a) in *.
  assert (forall y, Rabs y <= e -> y * y <= e * e) as Q. { intros y Hy. pose proof (Rsqr_abs y) as E. unfold Rsqr in E. rewrite E. pose proof (Rabs_pos y). apply Rmult_le_compat; lra. }
  pose proof (Q _ H1). pose proof (Q _ H2). nra.
Qed.

(** ** Numbers *)
Notation u := (/ 2 ^ 53).
Lemma u_pos : 0 < u <= / 1000.
Proof. split; [apply Rinv_0_lt_compat, pow_lt; lra|]. apply Rinv_le_contravar; [lra|]. cbn. lra. Qed.
Lemma tau_small e : (-1022 <= e)%Z -> / 2 ^ 1022 <= bp e.
Proof. intros H. rewrite <- bpow_inv. apply bpow_le. lia. Qed.
Lemma rnd_rel x : (x = 0 \/ / 2 ^ 1022 <= Rabs x) -> Rabs (binary64 x - x) <= u * Rabs x.
Proof.
  destruct binary64_rounding as [H0 H]. intros [-> | Hx]; [rewrite H0, Rminus_0_r, Rabs_R0; lra|]. specialize (H x). rewrite Rmax_left in H by exact Hx. exact H.
Qed.
Lemma rnd_abs x B : Rabs x <= B -> / 2 ^ 1022 <= B -> Rabs (binary64 x - x) <= u * B.
Proof. intros H1 H2. destruct binary64_rounding as [_ H]. eapply Rle_trans; [apply H|]. apply Rmult_le_compat_l; [pose proof u_pos; lra|]. apply Rmax_lub; assumption. Qed.
Lemma f_pi_rep : rep f_pi pi_value 2.
Proof.
  assert (F2R (Float Flocq.Core.Zaux.radix2 884279719003555 (-48)) = pi_value) as E.
  { unfold F2R, pi_value. cbn [Fnum Fexp]. change (-48)%Z with (- Z.of_nat 48)%Z. rewrite bpow_inv. reflexivity. }
  assert (binary64 pi_value = pi_value) as G.
  { apply round_generic; [typeclasses eauto|]. rewrite <- E. apply generic_format_F2R. intros _. unfold cexp, FLT_exp. rewrite (mag_unique Flocq.Core.Zaux.radix2 _ 2); [lia|].
    rewrite E. unfold pi_value. change (bp (2 - 1)) with 2. change (bp 2) with 4. assert (2 ^ 48 = 281474976710656) as -> by (rewrite pow_IZR; reflexivity). rewrite Rabs_pos_eq; lra. }
  rewrite <- G at 1. rewrite <- E. apply normalize_rep; [lia|]. rewrite E. unfold pi_value. change (bp 2) with 4. assert (2 ^ 48 = 281474976710656) as -> by (rewrite pow_IZR; reflexivity). rewrite Rabs_pos_eq; lra.
Qed.
Lemma f_pow_int k : (k <= 100)%nat -> number (f_of_int (Z.of_nat (2 ^ k))) (bp (Z.of_nat k)).
Proof.
  intros Hk. assert (IZR (Z.of_nat (2 ^ k)) = bp (Z.of_nat k)) as E.
  { rewrite <- (IZR_Zpower Flocq.Core.Zaux.radix2) by lia. f_equal. rewrite Nat2Z.inj_pow. reflexivity. }
  assert (binary64 (bp (Z.of_nat k)) = bp (Z.of_nat k)) as R by (apply round_generic; [typeclasses eauto|apply format_pow; lia]).
  destruct (f_of_int_rep (Z.of_nat (2 ^ k)) (Z.of_nat k)) as [H _]; [lia| |rewrite E, R in H; exact H]. rewrite Nat2Z.inj_pow. change (Z.of_nat 2) with 2%Z. rewrite Z.abs_eq; [lia|apply Z.pow_nonneg; lia].
Qed.
Lemma f_div_rep x r k e : rep x r e -> (k <= 100)%nat -> (-900 <= e <= 900)%Z -> rep (f_div x (f_of_int (Z.of_nat (2 ^ k)))) (binary64 (r * bp (- Z.of_nat k))) (e - Z.of_nat k).
Proof.
  intros [[Fx <-] Bx] Hk He. destruct (f_pow_int k Hk) as [Fy Ey]. set (y := f_of_int _) in *.
  assert (0 < bp (Z.of_nat k)) as Pk by apply bpow_gt_0.
  pose proof (Bdiv_correct 53 1024 _ _ mode_NE x y ltac:(rewrite Ey; lra)) as H. rewrite Ey in H. unfold Rdiv in H. rewrite <- bpow_opp in H.
  assert (Rabs (B2R x * bp (- Z.of_nat k)) <= bp (e - Z.of_nat k)) as B.
  { rewrite Rabs_mult, (Rabs_pos_eq (bp _)) by apply bpow_ge_0. unfold Zminus. rewrite bpow_plus. apply Rmult_le_compat_r; [apply bpow_ge_0|exact Bx]. }
  rewrite (no_overflow _ (e - Z.of_nat k)) in H by (try exact B; lia). destruct H as (H1 & H2 & _). rewrite Fx in H2. split; [split; [exact H2|exact H1]|]. apply binary64_le; [lia|exact B].
Qed.
Lemma pi_bounds : 314 / 100 <= pi_value <= 315 / 100.
Proof. unfold pi_value. assert (2 ^ 48 = 281474976710656) as -> by (rewrite pow_IZR; reflexivity). lra. Qed.
(** Dividing by a power of two is exact. *)
Lemma pi_scaled k : (k <= 100)%nat -> binary64 (pi_value * bp (- Z.of_nat k)) = pi_value * bp (- Z.of_nat k).
Proof.
  intros Hk. assert (F2R (Float Flocq.Core.Zaux.radix2 884279719003555 (-48 - Z.of_nat k)) = pi_value * bp (- Z.of_nat k)) as <-.
  { unfold F2R, pi_value. cbn [Fnum Fexp]. unfold Zminus. rewrite bpow_plus. change (-48)%Z with (- Z.of_nat 48)%Z. rewrite (bpow_inv 48). unfold Rdiv. ring. }
  apply round_generic; [typeclasses eauto|]. apply generic_format_FLT. exists (Float Flocq.Core.Zaux.radix2 884279719003555 (-48 - Z.of_nat k)); [reflexivity|cbn; lia|cbn [Fexp]; lia].
Qed.
Lemma angle_ok k j : (k <= 100)%nat -> (j < 2 ^ k)%nat -> exists a, rep (angle (2 ^ k) j) a 2 /\ Rabs (a - PI * INR j / INR (2 ^ k)) <= 9 * u /\ Rabs a <= 4.
Proof.
  intros Hk Hj. pose proof u_pos as Hu. pose proof pi_bounds as Hp. pose proof pi_close as Hpc.
  assert (/ 2 ^ 52 = 2 * u) as E52 by (replace (2 ^ 53) with (2 * 2 ^ 52) by (cbn; ring); field; apply pow_nonzero; lra). rewrite E52 in Hpc. clear E52.
  set (w := bp (- Z.of_nat k)). assert (0 < w) as Hw by apply bpow_gt_0.
  assert (/ INR (2 ^ k) = w) as Ew.
  { unfold w. rewrite bpow_inv. f_equal. rewrite pow_INR. reflexivity. }
  assert (INR j * w <= 1) as Hjw. { rewrite <- Ew. assert (0 < INR (2 ^ k)) as K by (apply lt_0_INR; lia). apply Rmult_le_reg_r with (INR (2 ^ k)); [exact K|]. rewrite Rmult_assoc, Rinv_l, Rmult_1_r, Rmult_1_l by lra. apply le_INR. lia. }
  assert (rep (f_of_int (Z.of_nat j)) (binary64 (IZR (Z.of_nat j))) (Z.of_nat k)) as Rj.
  { apply f_of_int_rep; [lia|]. rewrite Z.abs_eq by lia. change 2%Z with (Z.of_nat 2). rewrite <- Nat2Z.inj_pow. lia. }
  pose proof (f_div_rep f_pi pi_value k 2 f_pi_rep Hk ltac:(lia)) as Rd. fold w in Rd.
  pose proof (f_mul_rep _ _ _ _ (Z.of_nat k) (2 - Z.of_nat k) ltac:(lia) Rj Rd) as Ra. replace (Z.of_nat k + (2 - Z.of_nat k))%Z with 2%Z in Ra by lia. fold (angle (2 ^ k) j) in Ra.
  rewrite <- INR_IZR_INZ in Ra. exists (binary64 (binary64 (INR j) * binary64 (pi_value * w))). split; [exact Ra|].
  assert (0 <= INR j) as Pj by apply pos_INR.
  assert (Rabs (binary64 (INR j) - INR j) <= u * INR j) as E1.
  { pose proof (rnd_rel (INR j)) as H. rewrite (Rabs_pos_eq (INR j)) in H by exact Pj. apply H. destruct (Nat.eq_dec j 0) as [-> | Hn]; [left; reflexivity|right].
    assert (1 <= INR j) as H1 by (apply (le_INR 1); lia). pose proof (tau_small 0 ltac:(lia)) as H2. change (bp 0) with 1 in H2. lra. }
  assert (binary64 (pi_value * w) = pi_value * w) as E2 by (apply pi_scaled, Hk).
  set (jj := binary64 (INR j)) in *. set (qq := binary64 (pi_value * w)) in *. set (P := pi_value * w) in *.
  assert (0 <= INR j * P <= 315 / 100) as HjP. { unfold P. split; [apply Rmult_le_pos; [exact Pj|apply Rmult_le_pos; lra]|]. replace (INR j * (pi_value * w)) with (pi_value * (INR j * w)) by ring. assert (0 <= INR j * w) by (apply Rmult_le_pos; lra). nra. }
  set (X := INR j * P) in *.
  assert (Rabs (jj * qq - X) <= u * X) as E3.
  { assert (0 <= P) as PP by (unfold P; apply Rmult_le_pos; lra). rewrite E2. replace (jj * P - X) with ((jj - INR j) * P) by (unfold X; ring).
    rewrite Rabs_mult, (Rabs_pos_eq P) by exact PP. replace (u * X) with ((u * INR j) * P) by (unfold X; ring). apply Rmult_le_compat_r; assumption. }
  assert (u * X <= u * (315 / 100)) as UX by (apply Rmult_le_compat_l; lra).
  assert (Rabs (jj * qq) <= 316 / 100) as B. { replace (jj * qq) with (X + (jj * qq - X)) by ring. eapply Rle_trans; [apply Rabs_triang|]. rewrite (Rabs_pos_eq X) by lra. lra. }
  assert (Rabs (binary64 (jj * qq) - jj * qq) <= 316 / 100 * u) as E4. { rewrite (Rmult_comm (316 / 100)). apply rnd_abs; [exact B|]. pose proof (tau_small 0 ltac:(lia)) as H2. change (bp 0) with 1 in H2. lra. }
  assert (Rabs (X - PI * INR j / INR (2 ^ k)) <= 2 * u) as E5.
  { unfold Rdiv. rewrite Ew. replace (X - PI * INR j * w) with ((pi_value - PI) * (INR j * w)) by (unfold X, P; ring). rewrite Rabs_mult, (Rabs_pos_eq (INR j * w)) by (apply Rmult_le_pos; lra).
    assert (0 <= INR j * w) by (apply Rmult_le_pos; lra). pose proof (Rabs_pos (pi_value - PI)). nra. }
  set (a := binary64 (jj * qq)) in *. split.
  - replace (a - PI * INR j / INR (2 ^ k)) with ((a - jj * qq) + (jj * qq - X) + (X - PI * INR j / INR (2 ^ k))) by ring.
    eapply Rle_trans; [apply Rabs_triang|]. eapply Rle_trans; [apply Rplus_le_compat_r, Rabs_triang|]. lra.
  - replace a with (jj * qq + (a - jj * qq)) by ring. eapply Rle_trans; [apply Rabs_triang|]. lra.
Qed.

(** ** The tables *)
Section Tables.
Variable sc : f64 -> c64.
Hypothesis Hsc : good_sin_cos sc.
Lemma entry_ok k j : (k <= 100)%nat -> (j < 2 ^ k)%nat -> finite (sc (angle (2 ^ k) j)) /\ Cabs (Csub (value (sc (angle (2 ^ k) j))) (cis (PI * INR j / INR (2 ^ k)))) <= 13 * u.
Proof.
  intros Hk Hj. destruct (angle_ok k j Hk Hj) as (a & [[F E] _] & Hd & Ha). rewrite <- E in Ha, Hd. destruct (Hsc _ F Ha) as (Fz & H1 & H2). split; [exact Fz|].
  assert (/ 2 ^ 52 = 2 * u) as E52 by (replace (2 ^ 53) with (2 * 2 ^ 52) by (cbn; ring); field; apply pow_nonzero; lra). rewrite E52 in *.
  replace (13 * u) with (9 * u + 2 * (2 * u)) by ring. eapply sampled_close; [exact Hd|exact H1|exact H2].
Qed.
Lemma conj_finite z : finite z -> finite (c_conj z).
Proof. intros [A B]. split; cbn [c_conj fst snd]; [exact A|rewrite is_finite_Bopp; exact B]. Qed.
Lemma conj_close z t e : Cabs (Csub (value z) (cis t)) <= e -> Cabs (Csub (value (c_conj z)) (cis (- t))) <= e.
Proof.
  intros H. eapply Rle_trans; [|exact H]. right. unfold Cabs. f_equal. unfold value, c_conj, Csub, cis. cbn [fst snd]. rewrite B2R_Bopp, cos_neg, sin_neg. ring.
Qed.
Lemma scale_close k z c : (k <= 100)%nat -> finite z -> Cabs (Csub (value z) c) <= 13 * u -> Cabs c = 1 ->
  finite (c_scale (2 ^ k) z) /\ Cabs (Csub (value (c_scale (2 ^ k) z)) (Cmul (/ INR (2 ^ k), 0) c)) <= 17 * u / INR (2 ^ k).
Proof.
  intros Hk [F1 F2] H Hc. pose proof u_pos as Hu. set (w := bp (- Z.of_nat k)). assert (0 < w) as Hw by apply bpow_gt_0.
  assert (/ INR (2 ^ k) = w) as Ew by (unfold w; rewrite bpow_inv; f_equal; rewrite pow_INR; reflexivity). unfold Rdiv. rewrite Ew.
  assert (rep (f_of_int 1) 1 0) as R1.
  { destruct (f_pow_int 0 ltac:(lia)) as [A B]. cbn [Nat.pow Z.of_nat] in A, B. change (bp (Z.of_nat 0)) with 1 in B. split; [split; [exact A|exact B]|]. change (bp 0) with 1. rewrite Rabs_R1. lra. }
  pose proof (f_div_rep _ _ k 0 R1 Hk ltac:(lia)) as Rs. rewrite Rmult_1_l in Rs.
  assert (binary64 (bp (- Z.of_nat k)) = w) as Gw by (apply round_generic; [typeclasses eauto|apply format_pow; lia]). rewrite Gw in Rs.
  pose proof (Cabs_near _ _ _ H) as HN. rewrite Hc in HN.
  assert (Rabs (B2R (fst z)) <= 2 /\ Rabs (B2R (snd z)) <= 2) as [B1 B2].
  { split; [eapply Rle_trans; [apply (fst_le_Cabs (value z))|]; lra|eapply Rle_trans; [apply (snd_le_Cabs (value z))|]; lra]. }
  assert (rep (fst z) (B2R (fst z)) 1 /\ rep (snd z) (B2R (snd z)) 1) as [Z1 Z2] by (split; (split; [split; [assumption|reflexivity]|change (bp 1) with 2; assumption])).
  pose proof (f_mul_rep _ _ _ _ 1 (0 - Z.of_nat k) ltac:(lia) Z1 Rs) as [[G1 V1] _]. pose proof (f_mul_rep _ _ _ _ 1 (0 - Z.of_nat k) ltac:(lia) Z2 Rs) as [[G2 V2] _].
  split; [split; assumption|].
  assert (value (c_scale (2 ^ k) z) = (binary64 (B2R (fst z) * w), binary64 (B2R (snd z) * w))) as -> by (unfold value, c_scale; cbv zeta; cbn [fst snd]; rewrite V1, V2; reflexivity).
  assert (forall x, Rabs x <= 2 -> Rabs (binary64 (x * w) - x * w) <= 2 * (u * w)) as K.
  { intros x Hx. replace (2 * (u * w)) with (u * (2 * w)) by ring. apply rnd_abs.
    - rewrite Rabs_mult, (Rabs_pos_eq w) by lra. apply Rmult_le_compat_r; lra.
    - pose proof (tau_small (- Z.of_nat k) ltac:(lia)) as H2. fold w in H2. lra. }
  eapply Rle_trans; [apply (Cabs_sub_tri _ (Cmul (w, 0) (value z)))|].
  assert (Cabs (Csub (Cmul (w, 0) (value z)) (Cmul (w, 0) c)) <= 13 * u * w) as A1.
  { replace (Csub (Cmul (w, 0) (value z)) (Cmul (w, 0) c)) with (Cmul (RC w) (Csub (value z) c)) by (apply Ceq; unfold Cmul, Csub, RC; cbn [fst snd]; ring).
    rewrite Cabs_mul, Cabs_RC, (Rabs_pos_eq w) by lra. rewrite Rmult_comm. apply Rmult_le_compat_r; lra. }
  assert (Cabs (Csub (binary64 (B2R (fst z) * w), binary64 (B2R (snd z) * w)) (Cmul (w, 0) (value z))) <= 4 * (u * w)) as A2; [|lra].
  assert (0 < u * w) as Puw by (apply Rmult_lt_0_compat; lra).
  apply abs_le_sqr; [apply Cabs_pos|lra|]. rewrite Cabs_sqr. unfold Csub, Cmul, value. cbn [fst snd].
  pose proof (K _ B1) as K1. pose proof (K _ B2) as K2. replace (w * B2R (fst z) - 0 * B2R (snd z)) with (B2R (fst z) * w) by ring. replace (w * B2R (snd z) + 0 * B2R (fst z)) with (B2R (snd z) * w) by ring.
  set (p := _ - B2R (fst z) * w) in *. set (s := _ - B2R (snd z) * w) in *. set (e := u * w) in *.
  assert (forall y, Rabs y <= 2 * e -> y * y <= (2 * e) * (2 * e)) as Q. { intros y Hy. pose proof (Rsqr_abs y) as E. unfold Rsqr in E. rewrite E. pose proof (Rabs_pos y). apply Rmult_le_compat; lra. }
  pose proof (Q _ K1). pose proof (Q _ K2). nra.
Qed.
End Tables.
