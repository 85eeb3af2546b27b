(** * Averages of logarithms in floating point. *)
From Coq Require Import Reals ZArith List Lra Lia.
From Flocq Require Import Core IEEE754.BinarySingleNaN.
From Verif Require Import MBase MPoly MRlwe MFft MIeee MAvg SpecFft SpecDouble SpecIeee SpecLog SpecAvg PfDouble PfIeee PfTables PfFloat.
Import ListNotations.
Local Open Scope R_scope.

Lemma binary64_mono x y : x <= y -> binary64 x <= binary64 y.
Proof. intros H. apply round_le; [apply valid64|typeclasses eauto|exact H]. Qed.
Lemma int_between r a b : (0 <= a)%Z -> (b < 2 ^ 53)%Z -> (a < 2 ^ 53)%Z -> (0 <= b)%Z -> IZR a <= r <= IZR b -> IZR a <= binary64 r <= IZR b.
Proof. intros. rewrite <- (binary64_int a), <- (binary64_int b) by lia. split; apply binary64_mono; lra. Qed.
Lemma binary64_pow i : (i <= 1000)%nat -> binary64 (2 ^ i) = 2 ^ i.
Proof. intros H. assert (2 ^ i = bp (Z.of_nat i)) as -> by (rewrite bpow_powerRZ, <- pow_powerRZ; reflexivity). apply round_generic; [typeclasses eauto|apply format_pow; lia]. Qed.
Lemma log2_1 : log2 1 = 0.
Proof. unfold log2. rewrite ln_1. unfold Rdiv. ring. Qed.

(** ** The logarithm of a noise *)
Lemma int_f e : (1 <= e <= 2 ^ 63)%Z -> is_finite (f_of_int e) = true /\ B2R (f_of_int e) = binary64 (IZR e) /\ 1 <= B2R (f_of_int e) <= 2 ^ 63 /\
  Rabs (B2R (f_of_int e) - IZR e) <= u * IZR e.
Proof.
  intros H. destruct (f_of_int_rep e 63) as [[F E] _]; [lia|lia|]. assert (1 <= IZR e) as H1 by (apply IZR_le; lia). assert (IZR e <= 2 ^ 63) as H2 by (rewrite pow_IZR; apply IZR_le; lia).
  split; [exact F|]. split; [exact E|]. rewrite E. split.
  - split; [change 1 with (IZR 1); rewrite <- (binary64_int 1) by lia; apply binary64_mono; exact H1|]. rewrite <- (binary64_pow 63) by lia. apply binary64_mono, H2.
  - rewrite <- (Rabs_pos_eq (IZR e)) at 3 by lra. apply rnd_rel. right. rewrite Rabs_pos_eq by lra. pose proof (tau_small 0 ltac:(lia)) as T. cbn in T. lra.
Qed.
Lemma log2_err x y : 0 < x -> Rabs (y - x) <= u * x -> Rabs (log2 y - log2 x) <= 4 * u.
Proof.
  intros Hx H. pose proof u_pos as Hu. assert (exists d, y = x * (1 + d)) as (d & ->) by (exists ((y - x) / x); field; lra).
  assert (Rabs d <= u) as Hd.
  { replace (x * (1 + d) - x) with (d * x) in H by ring. rewrite Rabs_mult, (Rabs_pos_eq x) in H by lra. apply Rmult_le_reg_r with x; [exact Hx|exact H]. }
  apply Rabs_le_inv in Hd. rewrite log2_mult by lra. replace (log2 x + log2 (1 + d) - log2 x) with (log2 (1 + d)) by ring.
  destruct (Rtotal_order d 0) as [L|[->|G]].
  - assert (1 <= (1 + d) * (1 + 2 * - d)) as M by nra. apply (log2_le 1) in M; [|lra]. rewrite log2_mult, log2_1 in M by lra. pose proof (log2_small (2 * - d) ltac:(lra)) as K.
    assert (log2 (1 + d) <= 0) as N by (rewrite <- log2_1; apply log2_le; lra). rewrite Rabs_left1 by exact N. lra.
  - rewrite Rplus_0_r, log2_1, Rabs_R0. lra.
  - pose proof (log2_small d G). rewrite Rabs_pos_eq by lra. lra.
Qed.
Lemma int_log e : (1 <= e <= 2 ^ 63)%Z -> 0 <= log2 (B2R (f_of_int e)) <= 63 /\ Rabs (log2 (B2R (f_of_int e)) - log2 (IZR e)) <= 4 * u.
Proof.
  intros H. destruct (int_f e H) as (_ & _ & B & D). split; [|apply log2_err; [apply IZR_lt; lia|exact D]].
  rewrite <- log2_1. replace 63 with (INR 63) by (cbn; lra). rewrite <- (log2_pow 63). split; apply log2_le; lra.
Qed.
Lemma noise_log_ok lg e : accurate_log2 lg -> (1 <= e <= 2 ^ 63)%Z ->
  is_finite (noise_log lg e) = true /\ 0 <= B2R (noise_log lg e) <= 64 /\ Rabs (B2R (noise_log lg e) - log2 (IZR e)) <= 130 * u.
Proof.
  intros [_ A] H. destruct (int_f e H) as (F & _ & B & _). destruct (int_log e H) as (L & D). destruct (A _ F (proj1 B)) as (F' & E). fold (noise_log lg e) in F', E. pose proof u_pos as Hu.
  assert (/ 2 ^ 52 = 2 * u) as E2 by (replace (2 ^ 53) with (2 * 2 ^ 52) by (cbn; lra); field; apply pow_nonzero; lra). rewrite E2 in E.
  set (l := log2 (B2R (f_of_int e))) in *. set (x := B2R (noise_log lg e)) in *. apply Rabs_le_inv in E, D. split; [exact F'|]. split; [|apply Rabs_le]; nra.
Qed.

(** ** Sums *)
Definition fsum (lg : f64 -> f64) (es : list Z) (t : f64) : f64 := fold_left (fun avg e => f_add avg (noise_log lg e)) es t.
Lemma add_ok t x lo hi j : is_finite t = true -> is_finite x = true -> (0 <= lo)%Z -> (lo <= hi <= 64)%Z -> (0 <= j < 2 ^ 40)%Z ->
  IZR (lo * j) <= B2R t <= IZR (hi * j) -> IZR lo <= B2R x <= IZR hi ->
  is_finite (f_add t x) = true /\ IZR (lo * (j + 1)) <= B2R (f_add t x) <= IZR (hi * (j + 1)) /\ Rabs (B2R (f_add t x) - (B2R t + B2R x)) <= u * IZR (64 * (j + 1)).
Proof.
  intros Ft Fx Hlo Hhi Hj Ht Hx. assert (lo * (j + 1) = lo * j + lo)%Z as El by ring. assert (hi * (j + 1) = hi * j + hi)%Z as Eh by ring.
  assert (IZR (lo * (j + 1)) <= B2R t + B2R x <= IZR (hi * (j + 1))) as B by (rewrite El, Eh, !plus_IZR; lra).
  assert (forall z, (0 <= z <= 2 ^ 46)%Z -> Rabs (IZR z) <= bp 46) as Z46.
  { intros z Hz. rewrite <- abs_IZR, <- (IZR_Zpower Flocq.Core.Zaux.radix2) by lia. apply IZR_le. change (Zaux.radix2 ^ 46)%Z with (2 ^ 46)%Z. lia. }
  assert (0 <= IZR (lo * j)) as P0 by (apply IZR_le; nia). assert (0 <= IZR lo) as P1 by (apply IZR_le; lia). assert (IZR hi <= IZR (2 ^ 46)) as P2 by (apply IZR_le; lia).
  assert (IZR (hi * j) <= IZR (2 ^ 46)) as P3 by (apply IZR_le; nia). assert (IZR (2 ^ 46) = bp 46) as E46 by (rewrite <- (IZR_Zpower Flocq.Core.Zaux.radix2) by lia; reflexivity).
  destruct (f_add_rep t x (B2R t) (B2R x) 46) as [[F E] _]; [lia|split; [split; [exact Ft|reflexivity]|rewrite Rabs_pos_eq; lra]|split; [split; [exact Fx|reflexivity]|rewrite Rabs_pos_eq; lra]|].
  split; [exact F|]. rewrite E. split; [apply int_between; try exact B; nia|].
  apply rnd_abs; [|pose proof (tau_small 0 ltac:(lia)) as T; cbn in T; eapply Rle_trans; [exact T|]; apply IZR_le; lia].
  rewrite Rabs_pos_eq by lra. eapply Rle_trans; [apply B|]. apply IZR_le. nia.
Qed.
Lemma fsum_ok lg lo hi es : (0 <= lo)%Z -> (lo <= hi <= 64)%Z -> Forall (fun e => is_finite (noise_log lg e) = true /\ IZR lo <= B2R (noise_log lg e) <= IZR hi) es ->
  forall t j, is_finite t = true -> IZR (lo * j) <= B2R t <= IZR (hi * j) -> (0 <= j)%Z -> (j + Z.of_nat (length es) <= 2 ^ 40)%Z ->
  is_finite (fsum lg es t) = true /\ IZR (lo * (j + Z.of_nat (length es))) <= B2R (fsum lg es t) <= IZR (hi * (j + Z.of_nat (length es))) /\
  Rabs (B2R (fsum lg es t) - (B2R t + fold_right Rplus 0 (map (fun e => B2R (noise_log lg e)) es))) <= INR (length es) * (u * IZR (64 * (j + Z.of_nat (length es)))).
Proof.
  intros Hlo Hhi. pose proof u_pos as Hu. induction 1 as [|e es [Fe Be] HF IH]; intros t j Ft Bt Hj Hl.
  - cbn [length fsum fold_left map fold_right]. rewrite Z.add_0_r. split; [exact Ft|]. split; [exact Bt|]. change (INR 0) with 0. rewrite Rplus_0_r, Rminus_diag_eq, Rabs_R0 by reflexivity. lra.
  - cbn [length] in Hl |- *. rewrite Nat2Z.inj_succ in *. destruct (add_ok t (noise_log lg e) lo hi j Ft Fe Hlo Hhi ltac:(lia) Bt Be) as (F1 & B1 & D1).
    destruct (IH _ (j + 1)%Z F1 B1 ltac:(lia) ltac:(lia)) as (F2 & B2 & D2). replace (j + Z.succ (Z.of_nat (length es)))%Z with (j + 1 + Z.of_nat (length es))%Z by lia.
    cbn [fsum fold_left map fold_right]. fold (fsum lg es (f_add t (noise_log lg e))). split; [exact F2|]. split; [exact B2|].
    set (r := fold_right Rplus 0 _) in *. set (y := B2R (fsum _ _ _)) in *. set (z := B2R (f_add _ _)) in *.
    replace (y - (B2R t + (B2R (noise_log lg e) + r))) with ((y - (z + r)) + (z - (B2R t + B2R (noise_log lg e)))) by ring. eapply Rle_trans; [apply Rabs_triang|].
    rewrite S_INR. assert (u * IZR (64 * (j + 1)) <= u * IZR (64 * (j + 1 + Z.of_nat (length es)))) as M by (apply Rmult_le_compat_l; [lra|apply IZR_le; lia]). lra.
Qed.

(** ** The quotient *)
Lemma count_f k : (0 < k)%nat -> (Z.of_nat k <= 2 ^ 40)%Z -> number (f_of_int (Z.of_nat k)) (INR k).
Proof. intros H0 H. destruct (f_of_int_rep (Z.of_nat k) 63) as [[F E] _]; [lia|lia|]. split; [exact F|]. rewrite E, binary64_int, INR_IZR_INZ by lia. reflexivity. Qed.
Lemma quot_ok x k lo hi : is_finite x = true -> (0 < k)%nat -> (Z.of_nat k <= 2 ^ 40)%Z -> (0 <= lo)%Z -> (lo <= hi <= 64)%Z -> IZR (lo * Z.of_nat k) <= B2R x <= IZR (hi * Z.of_nat k) ->
  let y := f_quot x (f_of_int (Z.of_nat k)) in is_finite y = true /\ IZR lo <= B2R y <= IZR hi /\ Rabs (B2R y - B2R x / INR k) <= 64 * u.
Proof.
  intros Fx Hk0 Hk Hlo Hhi B. cbv zeta. destruct (count_f k Hk0 Hk) as [Fk Ek]. assert (0 < INR k) as Pk by (apply lt_0_INR; lia). rewrite !mult_IZR, <- !INR_IZR_INZ in B.
  assert (IZR lo <= B2R x / INR k <= IZR hi) as D.
  { split; apply Rmult_le_reg_r with (INR k); try exact Pk; unfold Rdiv; rewrite Rmult_assoc, Rinv_l, Rmult_1_r by lra; lra. }
  assert (0 <= IZR lo) as P1 by (apply IZR_le; lia). assert (IZR hi <= 64) as P2 by (apply IZR_le; lia).
  assert (Rabs (B2R x / INR k) <= 64) as A by (rewrite Rabs_pos_eq; lra).
  pose proof (Bdiv_correct 53 1024 _ _ mode_NE x (f_of_int (Z.of_nat k)) ltac:(rewrite Ek; lra)) as H. rewrite Ek in H.
  rewrite (no_overflow _ 6) in H by (try lia; exact A). destruct H as (H1 & H2 & _). fold (f_quot x (f_of_int (Z.of_nat k))) in H1, H2. change (B2R (f_quot x (f_of_int (Z.of_nat k))) = binary64 (B2R x / INR k)) in H1.
  split; [rewrite H2; exact Fx|]. rewrite H1. split; [apply int_between; try exact D; lia|]. rewrite (Rmult_comm 64). apply rnd_abs; [exact A|]. pose proof (tau_small 0 ltac:(lia)) as T. cbn in T. lra.
Qed.

(** ** Averages *)
Lemma zero_between lo hi : IZR (lo * 0) <= B2R f_zero <= IZR (hi * 0).
Proof. rewrite !Z.mul_0_r. cbn. lra. Qed.
Lemma sum_logs lg es : accurate_log2 lg -> Forall (fun e => 1 <= e <= 2 ^ 63)%Z es ->
  Rabs (fold_right Rplus 0 (map (fun e => B2R (noise_log lg e)) es) - fold_right Rplus 0 (map (fun e => log2 (IZR e)) es)) <= INR (length es) * (130 * u).
Proof.
  intros A. induction 1 as [|e es He HF IH]; cbn [map fold_right length]; [rewrite Rminus_diag_eq, Rabs_R0 by reflexivity; change (INR 0) with 0; lra|].
  destruct (noise_log_ok lg e A He) as (_ & _ & D). set (a := fold_right Rplus 0 (map (fun e => B2R _) es)) in *. set (b := fold_right Rplus 0 (map (fun e => log2 _) es)) in *. rewrite S_INR.
  replace (B2R (noise_log lg e) + a - (log2 (IZR e) + b)) with ((B2R (noise_log lg e) - log2 (IZR e)) + (a - b)) by ring. eapply Rle_trans; [apply Rabs_triang|]. lra.
Qed.
Lemma average_over_mean lg d es : accurate_log2 lg -> es <> [] -> (length es <= d)%nat -> (Z.of_nat d <= 2 ^ 40)%Z -> Forall (fun e => 1 <= e <= 2 ^ 63)%Z es ->
  is_finite (average_over lg d es) = true /\
  Rabs (B2R (average_over lg d es) - fold_right Rplus 0 (map (fun e => log2 (IZR e)) es) / INR d) <= (64 * INR (length es) + 194) * u.
Proof.
  intros A Hne Hd Hl HF. assert (0 < length es)%nat as H0 by (destruct es; [contradiction|cbn; lia]). pose proof u_pos as Hu.
  assert (Forall (fun e => is_finite (noise_log lg e) = true /\ IZR 0 <= B2R (noise_log lg e) <= IZR 64) es) as HF'.
  { eapply Forall_impl; [|exact HF]. intros e He. destruct (noise_log_ok lg e A He) as (F & B & _). split; [exact F|exact B]. }
  destruct (fsum_ok lg 0 64 es ltac:(lia) ltac:(lia) HF' f_zero 0%Z eq_refl (zero_between 0 64) ltac:(lia) ltac:(lia)) as (F & B & D). rewrite Z.add_0_l in *.
  assert (IZR (0 * Z.of_nat d) <= B2R (fsum lg es f_zero) <= IZR (64 * Z.of_nat d)) as B'.
  { split; [rewrite Z.mul_0_l in B |- *; apply B|]. apply Rle_trans with (1 := proj2 B). apply IZR_le. lia. }
  destruct (quot_ok _ d 0 64 F ltac:(lia) Hl ltac:(lia) ltac:(lia) B') as (F2 & _ & D2). split; [exact F2|].
  unfold average_over. fold (fsum lg es f_zero). set (s := B2R (fsum lg es f_zero)) in *. set (y := B2R (f_quot _ _)) in *.
  pose proof (sum_logs lg es A HF) as D3. set (a := fold_right Rplus 0 (map (fun e => B2R _) es)) in *. set (b := fold_right Rplus 0 (map (fun e => log2 _) es)) in *.
  cbn [B2R f_zero] in D. rewrite Rplus_0_l in D. rewrite mult_IZR, <- INR_IZR_INZ in D. assert (0 < INR (length es)) as Pk by (apply lt_0_INR, H0).
  assert (INR (length es) <= INR d) as Pd by (apply le_INR, Hd). set (k := INR (length es)) in *. set (m := INR d) in *.
  assert (Rabs (s - b) <= k * (130 * u) + k * (u * (64 * k))) as D4.
  { replace (s - b) with ((s - a) + (a - b)) by ring. eapply Rle_trans; [apply Rabs_triang|]. lra. }
  assert (Rabs (s / m - b / m) <= 130 * u + u * (64 * k)) as D5.
  { replace (s / m - b / m) with ((s - b) * / m) by (field; lra). rewrite Rabs_mult, (Rabs_pos_eq (/ m)) by (apply Rlt_le, Rinv_0_lt_compat; lra).
    apply Rmult_le_reg_r with m; [lra|]. rewrite Rmult_assoc, Rinv_l, Rmult_1_r by lra. eapply Rle_trans; [exact D4|].
    replace (k * (130 * u) + k * (u * (64 * k))) with ((130 * u + u * (64 * k)) * k) by ring. apply Rmult_le_compat_l; [|exact Pd]. assert (0 <= u * (64 * k)) by (apply Rmult_le_pos; lra). lra. }
  replace (y - b / m) with ((y - s / m) + (s / m - b / m)) by ring. eapply Rle_trans; [apply Rabs_triang|]. lra.
Qed.
Lemma average_mean lg es : accurate_log2 lg -> es <> [] -> (Z.of_nat (length es) <= 2 ^ 40)%Z -> Forall (fun e => 1 <= e <= 2 ^ 63)%Z es ->
  is_finite (average lg es) = true /\ Rabs (B2R (average lg es) - mean_log2 es) <= (64 * INR (length es) + 194) * u.
Proof. intros A Hne Hl HF. exact (average_over_mean lg (length es) es A Hne (Nat.le_refl _) Hl HF). Qed.
Lemma between_log lg a b e : accurate_log2 lg -> ordered_log2 lg -> (b <= 63)%nat -> (2 ^ Z.of_nat a <= e <= 2 ^ Z.of_nat b)%Z ->
  is_finite (noise_log lg e) = true /\ IZR (Z.of_nat a) <= B2R (noise_log lg e) <= IZR (Z.of_nat b).
Proof.
  intros A O Hb He. assert (1 <= e <= 2 ^ 63)%Z as H1.
  { split; [apply Z.le_trans with (2 ^ Z.of_nat a)%Z; [apply (Z.pow_le_mono_r 2 0); lia|lia]|]. apply Z.le_trans with (2 ^ Z.of_nat b)%Z; [lia|]. apply Z.pow_le_mono_r; lia. }
  assert (a <= 63)%nat as Ha.
  { destruct (Nat.le_gt_cases a 63) as [L|G]; [exact L|]. exfalso. assert (2 ^ 64 <= 2 ^ Z.of_nat a)%Z by (apply Z.pow_le_mono_r; lia). lia. }
  destruct (noise_log_ok lg e A H1) as (F & _ & _). split; [exact F|]. destruct (int_f e H1) as (Fe & Ee & Be & _).
  rewrite <- !INR_IZR_INZ. unfold noise_log.
  assert (forall i, (i <= 63)%nat -> IZR (2 ^ Z.of_nat i) = 2 ^ i) as Hp by (intros i _; rewrite pow_IZR; reflexivity).
  split; [apply (O _ a Ha Fe (proj1 Be))|apply (O _ b Hb Fe (proj1 Be))]; rewrite Ee; [rewrite <- (binary64_pow a) by lia|rewrite <- (binary64_pow b) by lia]; apply binary64_mono; rewrite <- Hp by lia; apply IZR_le; lia.
Qed.
Lemma average_between lg es a b : accurate_log2 lg -> ordered_log2 lg -> es <> [] -> (Z.of_nat (length es) <= 2 ^ 40)%Z -> (b <= 63)%nat ->
  Forall (fun e => 2 ^ Z.of_nat a <= e <= 2 ^ Z.of_nat b)%Z es -> is_finite (average lg es) = true /\ INR a <= B2R (average lg es) <= INR b.
Proof.
  intros A O Hne Hl Hb HF. assert (0 < length es)%nat as H0 by (destruct es; [contradiction|cbn; lia]).
  assert (a <= b)%nat as Hab.
  { destruct es as [|e es]; [contradiction|]. apply Forall_inv in HF. destruct (Nat.le_gt_cases a b) as [L|G]; [exact L|]. exfalso. assert (2 ^ Z.of_nat b < 2 ^ Z.of_nat a)%Z by (apply Z.pow_lt_mono_r; lia). lia. }
  assert (Forall (fun e => is_finite (noise_log lg e) = true /\ IZR (Z.of_nat a) <= B2R (noise_log lg e) <= IZR (Z.of_nat b)) es) as HF'.
  { eapply Forall_impl; [|exact HF]. intros e He. apply between_log; assumption. }
  destruct (fsum_ok lg (Z.of_nat a) (Z.of_nat b) es ltac:(lia) ltac:(lia) HF' f_zero 0%Z eq_refl (zero_between _ _) ltac:(lia) ltac:(lia)) as (F & B & _). rewrite Z.add_0_l in *.
  destruct (quot_ok _ (length es) (Z.of_nat a) (Z.of_nat b) F H0 Hl ltac:(lia) ltac:(lia) B) as (F2 & B2 & _). rewrite !INR_IZR_INZ. split; [exact F2|exact B2].
Qed.

(** ** No noise at all *)
Notation neg_inf := (B754_infinity true : f64).
Lemma zero_log lg : accurate_log2 lg -> noise_log lg 0 = neg_inf.
Proof. intros [H _]. exact H. Qed.
Lemma add_inf_l x : is_finite x = true \/ x = neg_inf -> f_add neg_inf x = neg_inf.
Proof. intros [F| ->]; [|reflexivity]. destruct x; try discriminate F; reflexivity. Qed.
Lemma add_inf_r t : is_finite t = true -> f_add t neg_inf = neg_inf.
Proof. intros F. destruct t; try discriminate F; reflexivity. Qed.
Lemma fsum_inf lg es : accurate_log2 lg -> Forall (fun e => 0 <= e <= 2 ^ 63)%Z es -> fsum lg es neg_inf = neg_inf.
Proof.
  intros A. induction 1 as [|e es He HF IH]; [reflexivity|]. cbn [fsum fold_left]. rewrite add_inf_l; [exact IH|].
  destruct (Z.eq_dec e 0) as [->|N]; [right; apply zero_log, A|left; apply (noise_log_ok lg e A); lia].
Qed.
Lemma fsum_zero lg es : accurate_log2 lg -> Forall (fun e => 0 <= e <= 2 ^ 63)%Z es -> In 0%Z es ->
  forall t j, is_finite t = true -> IZR (0 * j) <= B2R t <= IZR (64 * j) -> (0 <= j)%Z -> (j + Z.of_nat (length es) <= 2 ^ 40)%Z -> fsum lg es t = neg_inf.
Proof.
  intros A. induction 1 as [|e es He HF IH]; intros Hin t j Ft Bt Hj Hl; [destruct Hin|]. cbn [fsum fold_left]. cbn [length] in Hl.
  destruct (Z.eq_dec e 0) as [->|N].
  - rewrite zero_log, add_inf_r by assumption. apply fsum_inf; assumption.
  - destruct Hin as [->|Hin]; [contradiction N; reflexivity|]. destruct (noise_log_ok lg e A ltac:(lia)) as (Fe & Be & _).
    destruct (add_ok t (noise_log lg e) 0 64 j Ft Fe ltac:(lia) ltac:(lia) ltac:(lia) Bt Be) as (F1 & B1 & _). apply (IH Hin _ (j + 1)%Z); try assumption; lia.
Qed.
Lemma average_over_zero lg d es : accurate_log2 lg -> Forall (fun e => 0 <= e <= 2 ^ 63)%Z es -> In 0%Z es -> (length es <= d)%nat -> (Z.of_nat d <= 2 ^ 40)%Z -> average_over lg d es = neg_inf.
Proof.
  intros A HF Hin Hd Hl. unfold average_over. fold (fsum lg es f_zero). rewrite (fsum_zero lg es A HF Hin f_zero 0%Z eq_refl (zero_between 0 64)) by lia.
  assert (0 < length es)%nat as H0 by (destruct es; [destruct Hin|cbn; lia]). destruct (count_f d ltac:(lia) Hl) as [F E]. assert (0 < INR d) as Pk by (apply lt_0_INR; lia).
  assert (Bsign (f_of_int (Z.of_nat d)) = false) as Sg.
  { destruct (f_of_int (Z.of_nat d)) as [s|s| |s m e Hb]; try discriminate F; [cbn in E; lra|]. cbn in E |- *. destruct s; [|reflexivity]. exfalso.
    assert (F2R (Float Zaux.radix2 (Z.neg m) e) < 0) by (apply F2R_lt_0; reflexivity). cbn [cond_Zopp Z.opp] in E. lra. }
  unfold f_quot. destruct (f_of_int (Z.of_nat d)) as [s|s| |s m e Hb]; try discriminate F; cbn in Sg; subst s; reflexivity.
Qed.
Lemma average_zero lg es : accurate_log2 lg -> Forall (fun e => 0 <= e <= 2 ^ 63)%Z es -> In 0%Z es -> (Z.of_nat (length es) <= 2 ^ 40)%Z -> average lg es = neg_inf.
Proof. intros A HF Hin Hl. apply average_over_zero; auto. Qed.
(** Fewer answers than are divided by. *)
Lemma average_over_range lg d es b : accurate_log2 lg -> ordered_log2 lg -> es <> [] -> (length es <= d)%nat -> (Z.of_nat d <= 2 ^ 40)%Z -> (b <= 63)%nat ->
  Forall (fun e => 1 <= e <= 2 ^ Z.of_nat b)%Z es -> is_finite (average_over lg d es) = true /\ 0 <= B2R (average_over lg d es) <= INR b.
Proof.
  intros A O Hne Hd Hl Hb HF. assert (0 < length es)%nat as H0 by (destruct es; [contradiction|cbn; lia]).
  assert (Forall (fun e => is_finite (noise_log lg e) = true /\ IZR 0 <= B2R (noise_log lg e) <= IZR (Z.of_nat b)) es) as HF'.
  { eapply Forall_impl; [|exact HF]. intros e He. apply (between_log lg 0 b); assumption. }
  destruct (fsum_ok lg 0 (Z.of_nat b) es ltac:(lia) ltac:(lia) HF' f_zero 0%Z eq_refl (zero_between _ _) ltac:(lia) ltac:(lia)) as (F & B & _). rewrite Z.add_0_l in *.
  assert (IZR (0 * Z.of_nat d) <= B2R (fsum lg es f_zero) <= IZR (Z.of_nat b * Z.of_nat d)) as B'.
  { split; [rewrite Z.mul_0_l in B |- *; apply B|]. apply Rle_trans with (1 := proj2 B). apply IZR_le. nia. }
  destruct (quot_ok _ d 0 (Z.of_nat b) F ltac:(lia) Hl ltac:(lia) ltac:(lia) B') as (F2 & B2 & _). rewrite !INR_IZR_INZ. split; [exact F2|exact B2].
Qed.

(** ** Comparisons *)
Lemma exact_f e : (1 <= e <= 2 ^ 43)%Z -> is_finite (f_of_int e) = true /\ B2R (f_of_int e) = IZR e.
Proof. intros H. destruct (int_f e ltac:(lia)) as (F & E & _). split; [exact F|]. rewrite E. apply binary64_int. lia. Qed.
Lemma log_43 lg e : accurate_log2 lg -> (1 <= e <= 2 ^ 43)%Z -> Rabs (B2R (noise_log lg e) - log2 (IZR e)) <= 43 * / 2 ^ 52.
Proof.
  intros [_ A] H. destruct (exact_f e H) as [F E]. assert (1 <= IZR e) as H1 by (apply IZR_le; lia). destruct (A _ F) as [_ D]; [rewrite E; exact H1|]. rewrite E in D. fold (noise_log lg e) in D.
  assert (log2 (IZR e) <= 43) as L.
  { replace 43 with (INR 43) by (cbn; lra). rewrite <- (log2_pow 43). apply log2_le; [lra|]. rewrite pow_IZR. apply IZR_le. lia. }
  assert (0 < / 2 ^ 52) by (apply Rinv_0_lt_compat, pow_lt; lra). nra.
Qed.
Lemma log_gap e1 e2 : (1 <= e1 < e2)%Z -> (e2 <= 2 ^ 43)%Z -> log2 (IZR e1) + / 2 ^ 43 <= log2 (IZR e2).
Proof.
  intros H1 H2. assert (1 <= IZR e1) as P1 by (apply IZR_le; lia). assert (IZR e1 + 1 <= IZR e2) as P2 by (rewrite <- plus_IZR; apply IZR_le; lia).
  assert (IZR e1 <= 2 ^ 43) as P3 by (rewrite pow_IZR; apply IZR_le; lia). assert (0 < / 2 ^ 43) as P4 by (apply Rinv_0_lt_compat, pow_lt; lra).
  apply Rle_trans with (log2 (IZR e1 * (1 + / 2 ^ 43))).
  - rewrite log2_mult by lra. pose proof (log2_above 43). lra.
  - apply log2_le; [nra|]. assert (IZR e1 * / 2 ^ 43 <= 1); [|lra]. apply Rmult_le_reg_r with (2 ^ 43); [apply pow_lt; lra|]. rewrite Rmult_assoc, Rinv_l by (apply pow_nonzero; lra). lra.
Qed.
Lemma gap_enough : 2 * (43 * / 2 ^ 52) < / 2 ^ 43.
Proof. replace (2 ^ 52) with (512 * 2 ^ 43) by (cbn; lra). rewrite Rinv_mult. assert (0 < / 2 ^ 43) by (apply Rinv_0_lt_compat, pow_lt; lra). lra. Qed.
Lemma log_lt lg e1 e2 : accurate_log2 lg -> (1 <= e1 < e2)%Z -> (e2 <= 2 ^ 43)%Z -> B2R (noise_log lg e1) < B2R (noise_log lg e2).
Proof.
  intros A H1 H2. pose proof (log_gap e1 e2 H1 H2). pose proof gap_enough. pose proof (log_43 lg e1 A ltac:(lia)) as D1. pose proof (log_43 lg e2 A ltac:(lia)) as D2.
  apply Rabs_le_inv in D1, D2. lra.
Qed.
Lemma less_correct x y : is_finite x = true -> is_finite y = true -> f_less x y = Rlt_bool (B2R x) (B2R y).
Proof. intros. apply Bltb_correct; assumption. Qed.
Lemma inf_less x : is_finite x = true -> f_less neg_inf x = true.
Proof. destruct x; try discriminate; reflexivity. Qed.
Lemma less_inf x : is_finite x = true -> f_less x neg_inf = false.
Proof. destruct x; try discriminate; reflexivity. Qed.
Lemma compare_noise lg e1 e2 : accurate_log2 lg -> (0 <= e1 <= 2 ^ 43)%Z -> (0 <= e2 <= 2 ^ 43)%Z -> f_less (noise_log lg e1) (noise_log lg e2) = (e1 <? e2)%Z.
Proof.
  intros A H1 H2. destruct (Z.eq_dec e1 0) as [->|N1], (Z.eq_dec e2 0) as [->|N2]; rewrite ?(zero_log lg A).
  - reflexivity.
  - rewrite inf_less by (apply (noise_log_ok lg e2 A); lia). symmetry. apply Z.ltb_lt. lia.
  - rewrite less_inf by (apply (noise_log_ok lg e1 A); lia). symmetry. apply Z.ltb_ge. lia.
  - rewrite less_correct by (apply noise_log_ok; [exact A|lia]). destruct (Z.ltb_spec e1 e2) as [L|G].
    + apply Rlt_bool_true, log_lt; [exact A|lia|lia].
    + apply Rlt_bool_false. destruct (Z.eq_dec e1 e2) as [->|N]; [lra|]. apply Rlt_le, log_lt; [exact A|lia|lia].
Qed.
Lemma compare_bound lg e b : accurate_log2 lg -> ordered_log2 lg -> (0 <= e < 2 ^ 63)%Z -> (1 <= b <= 43)%nat -> f_less (noise_log lg e) (f_of_int (Z.of_nat b)) = (e <? 2 ^ Z.of_nat b)%Z.
Proof.
  intros A O He Hb. destruct (count_f b ltac:(lia) ltac:(lia)) as [Fb Eb]. assert (2 ^ Z.of_nat b <= 2 ^ 43)%Z as Pb by (apply Z.pow_le_mono_r; lia).
  assert (2 ^ 1 <= 2 ^ Z.of_nat b)%Z as Pb1 by (apply Z.pow_le_mono_r; lia).
  destruct (Z.eq_dec e 0) as [->|N]; [rewrite (zero_log lg A), inf_less by exact Fb; symmetry; apply Z.ltb_lt; lia|].
  destruct (noise_log_ok lg e A ltac:(lia)) as (F & _ & _). rewrite less_correct, Eb by assumption. destruct (Z.ltb_spec e (2 ^ Z.of_nat b)) as [L|G].
  - apply Rlt_bool_true. pose proof (log_43 lg e A ltac:(lia)) as D. apply Rabs_le_inv in D. pose proof (log_gap e (2 ^ Z.of_nat b) ltac:(lia) Pb) as Gp. pose proof gap_enough.
    assert (IZR (2 ^ Z.of_nat b) = 2 ^ b) as E by (rewrite pow_IZR; reflexivity). rewrite E, log2_pow in Gp. lra.
  - apply Rlt_bool_false. rewrite INR_IZR_INZ. apply (between_log lg b 63 e A O); [lia|]. change (Z.of_nat 63) with 63%Z. lia.
Qed.

(** ** The correctly rounded logarithm *)
Lemma above_one (x : f64) : is_finite x = true -> 1 <= B2R x -> B2R x = 1 \/ 1 + / 2 ^ 52 <= B2R x.
Proof.
  intros F H. destruct (Rle_lt_or_eq_dec _ _ H) as [L|E]; [right|left; symmetry; exact E].
  assert (generic_format Zaux.radix2 (FLT_exp (-1074) 53) (bp 0)) as G1 by (apply format_pow; lia).
  assert (generic_format Zaux.radix2 (FLT_exp (-1074) 53) (B2R x)) as G2 by apply (generic_format_B2R 53 1024).
  pose proof (succ_le_lt Zaux.radix2 (FLT_exp (-1074) 53) (bp 0) (B2R x) G1 G2 L) as K. rewrite succ_eq_pos in K by apply bpow_ge_0. rewrite ulp_bpow in K.
  change (FLT_exp (-1074) 53 (0 + 1)) with (- Z.of_nat 52)%Z in K. rewrite bpow_inv in K. exact K.
Qed.
Lemma rounding_accurate lg : rounding_log2 lg -> accurate_log2 lg.
Proof.
  intros [H0 H]. split; [exact H0|]. intros x F H1. destruct (H x F H1) as [F' E]. split; [exact F'|]. rewrite E. unfold rounded_log2.
  assert (0 <= log2 (B2R x)) as P by (rewrite <- log2_1; apply log2_le; lra). pose proof u_pos as Hu.
  assert (log2 (B2R x) = 0 \/ / 2 ^ 1022 <= Rabs (log2 (B2R x))) as C.
  { destruct (above_one x F H1) as [->|G]; [left; apply log2_1|right]. rewrite Rabs_pos_eq by exact P. apply Rle_trans with (/ 2 ^ 52); [apply Rinv_le_contravar; [apply pow_lt; lra|apply Rle_pow; [lra|lia]]|].
    eapply Rle_trans; [apply (log2_above 52)|]. apply log2_le; [|exact G]. assert (0 < / 2 ^ 52) by (apply Rinv_0_lt_compat, pow_lt; lra). lra. }
  apply rnd_rel in C. rewrite (Rabs_pos_eq (log2 (B2R x))) in C by exact P. eapply Rle_trans; [exact C|]. apply Rmult_le_compat_r; [exact P|]. apply Rinv_le_contravar; [apply pow_lt; lra|apply Rle_pow; [lra|lia]].
Qed.
Lemma rounding_ordered lg : rounding_log2 lg -> ordered_log2 lg.
Proof.
  intros [_ H] x i Hi F H1. destruct (H x F H1) as [_ E]. rewrite E. unfold rounded_log2. rewrite INR_IZR_INZ, <- (binary64_int (Z.of_nat i)) by lia. rewrite <- INR_IZR_INZ, <- (log2_pow i).
  split; intros K; apply binary64_mono, log2_le; try lra. apply pow_lt. lra.
Qed.
Definition ideal_log2 (x : f64) : f64 := match x with B754_zero _ => neg_inf | _ => 
  binary_normalize 53 1024 _ _ mode_NE (Ztrunc (scaled_mantissa Zaux.radix2 (FLT_exp (-1074) 53) (rounded_log2 (B2R x)))) (cexp Zaux.radix2 (FLT_exp (-1074) 53) (rounded_log2 (B2R x))) false end.
Lemma ideal_log2_ok : rounding_log2 ideal_log2.
Proof.
  split; [reflexivity|]. intros x F H1.
  assert (number (binary_normalize 53 1024 _ _ mode_NE (Ztrunc (scaled_mantissa Zaux.radix2 (FLT_exp (-1074) 53) (rounded_log2 (B2R x)))) (cexp Zaux.radix2 (FLT_exp (-1074) 53) (rounded_log2 (B2R x))) false) (rounded_log2 (B2R x))) as K.
  { assert (generic_format Zaux.radix2 (FLT_exp (-1074) 53) (rounded_log2 (B2R x))) as G by (apply generic_format_round; [apply valid64|typeclasses eauto]).
    assert (Rabs (rounded_log2 (B2R x)) <= bp 10) as B.
    { unfold rounded_log2. apply PfIeee.binary64_le; [lia|]. assert (0 <= log2 (B2R x)) as P by (rewrite <- log2_1; apply log2_le; lra). rewrite Rabs_pos_eq by exact P.
      apply Rle_trans with (log2 (2 ^ 1024)); [|rewrite log2_pow, INR_IZR_INZ; apply IZR_le; cbn; lia]. apply log2_le; [lra|].
      pose proof (abs_B2R_lt_emax 53 1024 x) as M. rewrite Rabs_pos_eq in M by lra. replace (2 ^ 1024) with (bp 1024); [lra|]. change 1024%Z with (Z.of_nat 1024). rewrite bpow_powerRZ, <- pow_powerRZ. reflexivity. }
    pose proof G as G'. unfold generic_format in G'. set (r := rounded_log2 (B2R x)) in *. destruct (normalize_rep (Ztrunc (scaled_mantissa Zaux.radix2 (FLT_exp (-1074) 53) r)) (cexp Zaux.radix2 (FLT_exp (-1074) 53) r) 10) as [[F' E] _]; [lia|rewrite <- G'; exact B|].
    split; [exact F'|]. rewrite E, <- G'. apply round_generic; [typeclasses eauto|exact G]. }
  destruct x; try discriminate F; try exact K. cbn in H1. lra.
Qed.
