(** * Property C97: the reported noise is the mean of the binary logarithms of the noises, computed in double precision. *)
From Coq Require Import Reals ZArith List Permutation Lra Lia.
From Flocq Require Import IEEE754.BinarySingleNaN.
From Verif Require Import MBase MPoly MRlwe MFft MIeee MAvg SpecRing SpecLwe SpecFft SpecDouble SpecIeee SpecLog SpecAvg PfDouble PfIeee PfTables PfFloat PfAvg PRgsw.
Import ListNotations.
Local Open Scope R_scope.

(** The reported figure is the mean of the logarithms of the noises, up to the rounding of the additions: 64 units of 2^-53 for each noise. *)
Theorem C97_mean : forall lg es, accurate_log2 lg -> es <> [] -> (Z.of_nat (length es) <= 2 ^ 40)%Z -> Forall (fun e => 1 <= e <= 2 ^ 63)%Z es ->
  is_finite (average lg es) = true /\ Rabs (B2R (average lg es) - mean_log2 es) <= (64 * INR (length es) + 194) * / 2 ^ 53.
Proof. exact average_mean. Qed.
Print Assumptions C97_mean.

(** If all noises lie between two powers of two, so does the figure lie between the exponents: no rounding error shows. *)
Theorem C97_between_powers : forall lg es (a b : nat), accurate_log2 lg -> ordered_log2 lg -> es <> [] -> (Z.of_nat (length es) <= 2 ^ 40)%Z -> (b <= 63)%nat ->
  Forall (fun e => 2 ^ Z.of_nat a <= e <= 2 ^ Z.of_nat b)%Z es -> is_finite (average lg es) = true /\ INR a <= B2R (average lg es) <= INR b.
Proof. exact average_between. Qed.
Print Assumptions C97_between_powers.
(** In particular the figure of equal powers of two is the exponent. *)
Theorem C97_power : forall lg (a n : nat), accurate_log2 lg -> ordered_log2 lg -> (0 < n)%nat -> (Z.of_nat n <= 2 ^ 40)%Z -> (a <= 63)%nat ->
  is_finite (average lg (repeat (2 ^ Z.of_nat a)%Z n)) = true /\ B2R (average lg (repeat (2 ^ Z.of_nat a)%Z n)) = INR a.
Proof.
  intros lg a n A O Hn Hl Ha. destruct (average_between lg (repeat (2 ^ Z.of_nat a)%Z n) a a A O) as [F B].
  - destruct n; [lia|discriminate].
  - rewrite repeat_length. exact Hl.
  - exact Ha.
  - apply Forall_forall. intros e He. apply repeat_spec in He. subst e. lia.
  - split; [exact F|lra].
Qed.
Print Assumptions C97_power.

(** One answer without noise makes the figure minus infinity, whatever the noise of the others. *)
Theorem C97_zero : forall lg es, accurate_log2 lg -> Forall (fun e => 0 <= e <= 2 ^ 63)%Z es -> In 0%Z es -> (Z.of_nat (length es) <= 2 ^ 40)%Z ->
  average lg es = B754_infinity true.
Proof. exact average_zero. Qed.
Print Assumptions C97_zero.
(** The figure of no answers is not a number. *)
Theorem C97_none : forall lg, average lg [] = B754_nan.
Proof. reflexivity. Qed.
Print Assumptions C97_none.

(** Dividing by more than the number of answers: the figure is too small by that factor. *)
Theorem C97_over : forall lg d es, accurate_log2 lg -> es <> [] -> (length es <= d)%nat -> (Z.of_nat d <= 2 ^ 40)%Z -> Forall (fun e => 1 <= e <= 2 ^ 63)%Z es ->
  is_finite (average_over lg d es) = true /\
  Rabs (B2R (average_over lg d es) - mean_log2 es * (INR (length es) / INR d)) <= (64 * INR (length es) + 194) * / 2 ^ 53.
Proof.
  intros lg d es A Hne Hd Hl HF. destruct (average_over_mean lg d es A Hne Hd Hl HF) as [F E]. split; [exact F|]. unfold mean_log2.
  assert (0 < INR (length es)) as P1 by (apply lt_0_INR; destruct es; [contradiction|cbn; lia]). assert (INR (length es) <= INR d) as P2 by (apply le_INR, Hd).
  replace (fold_right Rplus 0 (map (fun e => log2 (IZR e)) es) / INR (length es) * (INR (length es) / INR d)) with (fold_right Rplus 0 (map (fun e => log2 (IZR e)) es) / INR d); [exact E|].
  field. lra.
Qed.
Print Assumptions C97_over.

(** A single answer: the figure is the logarithm itself, bit by bit. *)
Lemma add_zero (x : f64) : is_finite_strict x = true -> f_add f_zero x = x.
Proof. destruct x; try discriminate. reflexivity. Qed.
Lemma strict_of (x : f64) : is_finite x = true -> 0 < B2R x -> is_finite_strict x = true.
Proof. destruct x; try discriminate; [|reflexivity]. cbn. intros _ H. lra. Qed.
Lemma quot_one (x : f64) : is_finite x = true -> 0 < B2R x <= 64 -> f_quot x (f_of_int 1) = x.
Proof.
  intros F B. destruct (quot_ok x 1 0 64 F ltac:(lia) ltac:(lia) ltac:(lia) ltac:(lia)) as (F2 & _ & _).
  { split; [change (IZR (0 * Z.of_nat 1)) with 0; lra|change (IZR (64 * Z.of_nat 1)) with 64; lra]. }
  change (Z.of_nat 1) with 1%Z in F2. destruct (count_f 1 ltac:(lia) ltac:(lia)) as [F1 E1]. change (Z.of_nat 1) with 1%Z in F1, E1. change (INR 1) with 1 in E1.
  assert (B2R (f_quot x (f_of_int 1)) = B2R x) as E.
  { pose proof (Bdiv_correct 53 1024 eq_refl eq_refl mode_NE x (f_of_int 1)) as C. rewrite E1 in C. specialize (C ltac:(lra)).
    replace (B2R x / 1) with (B2R x) in C by field. rewrite Generic_fmt.round_generic in C; [|typeclasses eauto|apply generic_format_B2R].
    rewrite Raux.Rlt_bool_true in C; [apply C|]. apply abs_B2R_lt_emax. }
  apply B2R_inj; [apply strict_of; [exact F2|rewrite E; lra]|apply strict_of; [exact F|lra]|exact E].
Qed.
Theorem C97_single : forall lg e, accurate_log2 lg -> ordered_log2 lg -> (e = 0 \/ 2 <= e <= 2 ^ 63)%Z -> average lg [e] = lg (f_of_int e).
Proof.
  intros lg e A O [->|He]; unfold average, average_over; cbn [length fold_left]; change (Z.of_nat 1) with 1%Z.
  - fold (noise_log lg 0). rewrite zero_log by exact A. reflexivity.
  - destruct (between_log lg 1 63 e A O ltac:(lia) ltac:(cbn; lia)) as (F & B). cbn in B. fold (noise_log lg e).
    rewrite add_zero by (apply strict_of; [exact F|lra]). apply quot_one; [exact F|lra].
Qed.
Print Assumptions C97_single.

(** Two answers, in either order (a batch is checked in the order of a hash map): the same figure, bit by bit, whatever the logarithm. *)
Lemma plus_comm (x y : f64) : f_add x y = f_add y x.
Proof.
  destruct x as [sx|sx| |sx mx ex Hx], y as [sy|sy| |sy my ey Hy]; try reflexivity; try (destruct sx, sy; reflexivity).
  unfold f_add, Bplus. rewrite (Z.min_comm ey ex). f_equal. unfold Fplus_naive. apply Z.add_comm.
Qed.
Lemma plus_zero_twice (x y : f64) : f_add (f_add f_zero x) y = f_add (f_add f_zero y) x.
Proof.
  destruct x as [sx|sx| |sx mx ex Hx], y as [sy|sy| |sy my ey Hy]; try reflexivity; try (destruct sx, sy; reflexivity); try (destruct sx; reflexivity); try (destruct sy; reflexivity).
  apply plus_comm.
Qed.
Theorem C97_order : forall lg d es es', Permutation es es' -> (length es <= 2)%nat -> average_over lg d es = average_over lg d es'.
Proof.
  intros lg d es es' P L. destruct es as [|a [|b [|c es]]].
  - apply Permutation_nil in P. subst. reflexivity.
  - apply Permutation_length_1_inv in P. subst. reflexivity.
  - apply Permutation_length_2_inv in P. destruct P as [-> | ->]; [reflexivity|]. unfold average_over. cbn [fold_left]. rewrite plus_zero_twice. reflexivity.
  - cbn in L. lia.
Qed.
Print Assumptions C97_order.

(** Comparing the logarithms compares the noises (the unit test of [compute_noise] does), below 2^43. *)
Theorem C97_less : forall lg e1 e2, accurate_log2 lg -> (0 <= e1 <= 2 ^ 43)%Z -> (0 <= e2 <= 2 ^ 43)%Z ->
  (f_less (lg (f_of_int e1)) (lg (f_of_int e2)) = true <-> e1 < e2)%Z.
Proof. intros lg e1 e2 A H1 H2. rewrite <- Z.ltb_lt. fold (noise_log lg e1) (noise_log lg e2). rewrite (compare_noise lg e1 e2 A H1 H2). reflexivity. Qed.
Print Assumptions C97_less.
Theorem C97_below : forall lg e (b : nat), accurate_log2 lg -> ordered_log2 lg -> (0 <= e < 2 ^ 63)%Z -> (1 <= b <= 43)%nat ->
  (f_less (lg (f_of_int e)) (f_of_int (Z.of_nat b)) = true <-> e < 2 ^ Z.of_nat b)%Z.
Proof. intros lg e b A O He Hb. rewrite <- Z.ltb_lt. fold (noise_log lg e). rewrite (compare_bound lg e b A O He Hb). reflexivity. Qed.
Print Assumptions C97_below.

(** The correctly rounded logarithm is a logarithm as needed here, and there is one. *)
Theorem C97_rounded : (forall lg, rounding_log2 lg -> accurate_log2 lg /\ ordered_log2 lg) /\ exists lg, rounding_log2 lg.
Proof. split; [intros lg H; split; [apply rounding_accurate, H|apply rounding_ordered, H]|]. exists ideal_log2. exact ideal_log2_ok. Qed.
Print Assumptions C97_rounded.

(** [compute_noise_rgsw1] of an encryption of 1 with noise at most [E]: minus infinity, or the mean of the logarithms of [level_count] noises between 1 and [E]. *)
Theorem C97_rgsw : forall lg cx s g E, accurate_log2 lg -> (0 < c_n cx)%nat -> rgsw_encrypts (c_n cx) s g (pcst 1) E ->
  g_base g = c_base cx -> g_level g = c_level cx -> (E < 2 ^ 63)%Z -> (0 < c_level cx <= 64)%nat ->
  exists x es, compute_noise_rgsw1 lg cx s g = Ok x /\ compute_noise_rgsw1_levels cx s g = Ok es /\ length es = c_level cx /\ Forall (fun e => 0 <= e <= E)%Z es /\
    (In 0%Z es -> x = B754_infinity true) /\
    (~ In 0%Z es -> is_finite x = true /\ Rabs (B2R x - mean_log2 es) <= 4290 * / 2 ^ 53).
Proof.
  intros lg cx s g E A Hn Hg Hb Hl HE Hlev. destruct (C63_noise_report cx s g E Hn Hg Hb Hl HE) as (es & Ees & L & HF).
  exists (average lg es), es. split; [unfold compute_noise_rgsw1; rewrite Ees; cbn [bind]; unfold average; rewrite L; reflexivity|]. split; [exact Ees|]. split; [exact L|]. split; [exact HF|].
  assert (Forall (fun e => 0 <= e <= 2 ^ 63)%Z es) as HF2. { eapply Forall_impl; [|exact HF]. intros e He. cbv beta in He |- *. lia. }
  split.
  - intros Hin. apply average_zero; [exact A|exact HF2|exact Hin|lia].
  - intros Hnin. assert (Forall (fun e => 1 <= e <= 2 ^ 63)%Z es) as HF3.
    { apply Forall_forall. intros e He. rewrite Forall_forall in HF2. specialize (HF2 e He). assert (e <> 0)%Z by (intros ->; contradiction). lia. }
    destruct (average_mean lg es A) as [F D]; [destruct es; [cbn in L; lia|discriminate]|lia|exact HF3|]. split; [exact F|].
    eapply Rle_trans; [exact D|]. apply Rmult_le_compat_r; [apply Rlt_le, u_pos|]. rewrite L. assert (INR (c_level cx) <= INR 64) as K by (apply le_INR; lia). rewrite (INR_IZR_INZ 64) in K. change (IZR (Z.of_nat 64)) with 64 in K. lra.
Qed.
Print Assumptions C97_rgsw.

(** *** Instances, with the correctly rounded logarithm. *)
Example C97_mean_applies : let es := [3; 1000; 123456789]%Z in
  is_finite (average ideal_log2 es) = true /\ Rabs (B2R (average ideal_log2 es) - mean_log2 es) <= (64 * INR 3 + 194) * / 2 ^ 53 /\ 1 <= B2R (average ideal_log2 es) <= 27.
Proof.
  intros es. destruct (proj1 C97_rounded ideal_log2 ideal_log2_ok) as [A O].
  destruct (C97_mean ideal_log2 es A) as [F D]; [discriminate|cbn; lia|repeat constructor; lia|].
  destruct (C97_between_powers ideal_log2 es 1 27 A O) as [_ B]; [discriminate|cbn; lia|lia|repeat constructor; cbn; lia|].
  split; [exact F|]. split; [exact D|]. cbn in B. lra.
Qed.
Example C97_zero_applies : average ideal_log2 [1000; 0; 5]%Z = B754_infinity true.
Proof. apply C97_zero; [apply C97_rounded, ideal_log2_ok|repeat constructor; lia|cbn; auto|cbn; lia]. Qed.
Example C97_half_applies : is_finite (average_over ideal_log2 2 [1048576]%Z) = true /\ Rabs (B2R (average_over ideal_log2 2 [1048576]%Z) - 10) <= 258 * / 2 ^ 53.
Proof.
  destruct (C97_over ideal_log2 2 [1048576]%Z (proj1 (proj1 C97_rounded ideal_log2 ideal_log2_ok))) as [F D]; [discriminate|cbn; lia|cbn; lia|repeat constructor; lia|].
  split; [exact F|]. unfold mean_log2 in D. cbn [map fold_right length] in D. replace (IZR 1048576) with (2 ^ 20) in D by (rewrite pow_IZR; reflexivity). rewrite log2_pow in D.
  replace ((INR 20 + 0) / INR 1 * (INR 1 / INR 2)) with 10 in D by (rewrite !INR_IZR_INZ; cbn [Z.of_nat Pos.of_succ_nat Pos.succ]; field). rewrite (INR_IZR_INZ 1) in D. change (IZR (Z.of_nat 1)) with 1 in D.
  replace (64 * 1 + 194) with 258 in D by ring. exact D.
Qed.
Example C97_less_applies : f_less (ideal_log2 (f_of_int (2 ^ 43 - 1))) (ideal_log2 (f_of_int (2 ^ 43))) = true /\ f_less (ideal_log2 (f_of_int 8)) (f_of_int (Z.of_nat 3)) = false.
Proof.
  destruct (proj1 C97_rounded ideal_log2 ideal_log2_ok) as [A O]. split.
  - apply (C97_less ideal_log2 (2 ^ 43 - 1) (2 ^ 43) A); lia.
  - destruct (f_less _ _) eqn:E; [|reflexivity]. apply (C97_below ideal_log2 8 3 A O ltac:(lia) ltac:(lia)) in E. cbn in E. lia.
Qed.
