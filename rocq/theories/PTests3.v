(** * C98: the unit test of Fourier multiplication, in floating point. *)
From Coq Require Import Reals ZArith List Lia Lra.
From Flocq Require Import IEEE754.BinarySingleNaN.
From Verif Require Import MBase MPoly MRlwe MFft MIeee MIeee2 MAvg MTests MTests3 SpecRing SpecLwe SpecFft SpecFft2 SpecDouble SpecIeee SpecIeee2 SpecTables SpecEither PolyRing PfNear PfTests3 PfTests8 PTests PFft PClose PClose3.
Import ListNotations.
Local Open Scope Z_scope.

(** *** The comparison of the doubles agrees with the comparison of the integers, except within 4097 of 1e-9 times the largest word. *)
Theorem C98_compare : forall x y, 0 <= x < 2 ^ 64 -> 0 <= y < 2 ^ 64 ->
  (Z.abs (x - y) <= 18446744073 - 4097 -> close_f64 x y = true) /\ (18446744074 + 4097 <= Z.abs (x - y) -> close_f64 x y = false).
Proof. intros x y Hx Hy. split; intros H; [apply close_near|apply close_far]; assumption. Qed.
Print Assumptions C98_compare.

(** *** Products precise to [eps], no coefficient of a partial sum within ten times [eps] of the wrap: the test passes. *)
Theorem C98_precise : forall fft eps pairs, 0 <= eps -> length pairs = 10%nat ->
  Forall (fun ab => wfp 2048 (fst ab) /\ wfp 2048 (snd ab) /\ wfp 2048 (fft [ab]) /\ near 2048 (tof (fft [ab])) (pmul 2048 (tof (fst ab)) (tof (snd ab))) eps) pairs ->
  10 * eps <= 18446744073 - 4097 ->
  (forall j i, (1 <= j <= 10)%nat -> (i < 2048)%nat -> 10 * eps <= products 2048 (firstn j pairs) i mod 2 ^ 64 < 2 ^ 64 - 10 * eps) ->
  test_fourier_mul_f64 fft 2048 pairs = Ok tt.
Proof.
  intros fft eps pairs He Hl HF HB HW. apply (test_fourier_mul_with_ok close_f64 (18446744073 - 4097) 2048 fft eps pairs); auto; [|lia|rewrite Hl; exact HB|rewrite Hl; exact HW].
  intros x y Hx Hy H. apply close_near; assumption.
Qed.
Print Assumptions C98_precise.

(** *** A run that passes has shown that each of its products is right up to twice the tolerance. *)
Theorem C98_shows : forall fft n pairs, (0 < n)%nat -> Forall (fun ab => wfp n (fst ab) /\ wfp n (snd ab) /\ wfp n (fft [ab])) pairs ->
  test_fourier_mul_f64 fft n pairs = Ok tt ->
  Forall (fun ab => near n (tof (fft [ab])) (pmul n (tof (fst ab)) (tof (snd ab))) 36893496340) pairs.
Proof.
  intros fft n pairs Hn HF H. change 36893496340 with (2 * 18446748170). apply (test_fourier_mul_with_means close_f64 18446748170 n fft pairs Hn); [lia| |exact HF|exact H].
  intros x y Hx Hy E. destruct (Z.le_gt_cases (Z.abs (x - y)) 18446748170) as [K|K]; [exact K|]. rewrite (close_far x y Hx Hy ltac:(lia)) in E. discriminate E.
Qed.
Print Assumptions C98_shows.

Lemma one_product kd T shape m n c a b : n = (2 * 2 ^ m)%nat -> close_tables T n (INR c * / 2 ^ 53) -> (1 <= c)%nat -> Z.of_nat c <= 2 ^ 35 -> (9 * m + 1 <= 952)%nat ->
  (forall ts, (length ts <= 1)%nat -> sums n (shape ts) ts 1) -> wfp n a -> wfp n b -> sbound 1 a ->
  wfp n (ieee_fft_of kd T shape n [(a, b)]) /\ near n (tof (ieee_fft_of kd T shape n [(a, b)])) (pmul n (tof a) (tof b)) (table_error m 1 1 c).
Proof.
  intros -> HT Hc Hc2 Hm Hs Wa Wb Sa. destruct (C96_either kd T shape m 1 1 c HT Hc Hc2 ltac:(lia) ltac:(lia) Hm Hs [(a, b)] ltac:(cbn; lia)) as [W N].
  - constructor; [|constructor]. cbn [fst snd]. split; [exact Wa|]. split; [exact Wb|]. left. exact Sa.
  - split; [exact W|]. eapply near_eq_r; [|exact N]. intros i _. unfold fexact. cbn [fold_right fst snd]. unfold padd, pzero. apply eq_eqm. ring.
Qed.
(** *** With the double-precision FFT: ternary polynomials times arbitrary ones, tables accurate to c <= 18 units of 2^-53. *)
Theorem C98_fft : forall kd T shape c pairs, close_tables T 2048 (INR c * / 2 ^ 53) -> (1 <= c <= 18)%nat ->
  (forall ts, (length ts <= 1)%nat -> sums 2048 (shape ts) ts 1) -> length pairs = 10%nat ->
  Forall (fun ab => wfp 2048 (fst ab) /\ sbound 1 (fst ab) /\ wfp 2048 (snd ab)) pairs ->
  (forall j i, (1 <= j <= 10)%nat -> (i < 2048)%nat -> 2 ^ 34 + 2 ^ 30 <= products 2048 (firstn j pairs) i mod 2 ^ 64 < 2 ^ 64 - (2 ^ 34 + 2 ^ 30)) ->
  test_fourier_mul_f64 (ieee_fft_of kd T shape 2048) 2048 pairs = Ok tt.
Proof.
  intros kd T shape c pairs HT Hc Hs Hl HF HW. apply (C98_precise _ (table_error 10 1 1 c)); [unfold table_error; lia|exact Hl| |unfold table_error; lia|].
  - eapply Forall_impl; [|exact HF]. intros [a b] (Wa & Sa & Wb). cbn [fst snd] in *. split; [exact Wa|]. split; [exact Wb|].
    apply (one_product kd T shape 10 2048 c a b); [reflexivity|exact HT|lia|lia|lia|exact Hs|exact Wa|exact Wb|exact Sa].
  - intros j i Hj Hi. specialize (HW j i Hj Hi). unfold table_error. lia.
Qed.
Print Assumptions C98_fft.
(** The tables the FFT library computes, from a sine and cosine accurate to 2^-52. *)
Theorem C98_computed : forall kd sc pairs, good_sin_cos sc -> length pairs = 10%nat ->
  Forall (fun ab => wfp 2048 (fst ab) /\ sbound 1 (fst ab) /\ wfp 2048 (snd ab)) pairs ->
  (forall j i, (1 <= j <= 10)%nat -> (i < 2048)%nat -> 2 ^ 34 + 2 ^ 30 <= products 2048 (firstn j pairs) i mod 2 ^ 64 < 2 ^ 64 - (2 ^ 34 + 2 ^ 30)) ->
  test_fourier_mul_f64 (ieee_fft_of kd (computed_tables sc) one_by_one 2048) 2048 pairs = Ok tt.
Proof.
  intros kd sc pairs Hsc Hl HF HW. apply (C98_fft kd _ _ 17 pairs); try assumption; [change 2048%nat with (2 * 2 ^ 10)%nat; apply C96_computed; [exact Hsc|lia]|lia|intros ts; apply one_by_one_ok].
Qed.
Print Assumptions C98_computed.

(** *** Without the condition on the wrap the test fails, for products wrong by a single unit. *)
Theorem C98_wrap_refuted : forall n, (0 < n)%nat -> exists fft pairs, (forall D L, fft_ok n fft D L 1) /\ length pairs = 10%nat /\
  Forall (fun ab => wfp n (fst ab) /\ wfp n (snd ab) /\ sbound 1 (fst ab) /\ wfp n (fft [ab]) /\ near n (tof (fft [ab])) (pmul n (tof (fst ab)) (tof (snd ab))) 1) pairs /\
  test_fourier_mul_f64 fft n pairs = Panic PAssert.
Proof.
  intros n Hn. apply (low_fails close_f64 n); [|exact Hn]. apply close_far; unfold is_word, q; lia.
Qed.
Print Assumptions C98_wrap_refuted.

(** *** The hypotheses are satisfiable: ten times the polynomial 1 times the polynomial whose coefficients are all 2^58. *)
Definition one_poly (n : nat) : poly := 1 :: repeat 0 (n - 1).
Definition flat_pairs (n : nat) : list (poly * poly) := repeat (one_poly n, repeat (2 ^ 58) n) 10.
Lemma one_poly_ok n : (0 < n)%nat -> wfp n (one_poly n) /\ sbound 1 (one_poly n) /\ peq n (tof (one_poly n)) (pcst 1).
Proof.
  intros Hn. unfold one_poly. split; [split; [cbn [length]; rewrite repeat_length; lia|]|split].
  - constructor; [split; [lia|reflexivity]|]. apply Forall_forall. intros x Hx. apply repeat_spec in Hx. subst. split; [lia|reflexivity].
  - constructor; [vm_compute; split; congruence|]. apply Forall_forall. intros x Hx. apply repeat_spec in Hx. subst. vm_compute. split; congruence.
  - intros i Hi. apply eq_eqm. destruct i as [|i]; [reflexivity|]. unfold tof. cbn [nth]. rewrite nth_repeat. reflexivity.
Qed.
Lemma firstn_repeat (A : Type) (x : A) : forall m j, (j <= m)%nat -> firstn j (repeat x m) = repeat x j.
Proof. induction m as [|m IH]; intros [|j] H; try reflexivity; [lia|]. cbn [repeat firstn]. f_equal. apply IH. lia. Qed.
Lemma flat_products n j i : (j <= 10)%nat -> (i < n)%nat -> products n (firstn j (flat_pairs n)) i mod 2 ^ 64 = Z.of_nat j * 2 ^ 58.
Proof.
  intros Hj Hi. unfold flat_pairs. rewrite firstn_repeat by exact Hj.
  assert (peq n (pmul n (tof (one_poly n)) (tof (repeat (2 ^ 58) n))) (tof (repeat (2 ^ 58) n))) as Q.
  { pose proof (proj2 (proj2 (one_poly_ok n ltac:(lia)))) as Q1. rewrite Q1. rewrite pmul_pcst by lia. intros k _. apply eq_eqm. ring. }
  assert (tof (repeat (2 ^ 58) n) i = 2 ^ 58) as V. { unfold tof. rewrite (nth_indep _ 0 (2 ^ 58)) by (rewrite repeat_length; exact Hi). apply nth_repeat. }
  set (b := repeat (2 ^ 58) n) in *. set (a := one_poly n) in *. clearbody a b.
  assert (eqm (products n (repeat (a, b) j) i) (Z.of_nat j * 2 ^ 58)) as E.
  { clear Hj. induction j as [|j IH]; [reflexivity|]. replace (repeat (a, b) (S j)) with (repeat (a, b) j ++ [(a, b)]) by (symmetry; apply repeat_cons).
    rewrite products_snoc. unfold padd at 1. cbn [fst snd]. rewrite IH. rewrite (Q i Hi), V. apply eq_eqm. lia. }
  unfold eqm, q in E. rewrite E. apply Z.mod_small. lia.
Qed.
Lemma flat_ok n : (0 < n)%nat -> wfp n (one_poly n) /\ sbound 1 (one_poly n) /\ wfp n (repeat (2 ^ 58) n) /\ sbound (2 ^ 63) (repeat (2 ^ 58) n).
Proof.
  intros Hn. destruct (one_poly_ok n Hn) as (W & B & _). split; [exact W|]. split; [exact B|]. split.
  - split; [apply repeat_length|]. apply Forall_forall. intros x Hx. apply repeat_spec in Hx. subst. split; [lia|reflexivity].
  - apply Forall_forall. intros x Hx. apply repeat_spec in Hx. subst. vm_compute. split; congruence.
Qed.
Lemma low_precise n a b : (0 < n)%nat -> wfp n a -> wfp n b -> sbound (2 ^ 63) b -> wfp n (low_fft n [(a, b)]) /\ near n (tof (low_fft n [(a, b)])) (pmul n (tof a) (tof b)) 1.
Proof.
  intros Hn Wa Wb Sb. destruct (low_fft_ok n Hn (2 ^ 63) 1%nat [(a, b)]) as [W1 N1]; [cbn; lia|constructor; [auto|constructor]|].
  split; [exact W1|]. eapply near_eq_r; [|exact N1]. intros i _. unfold fexact. cbn [fold_right fst snd]. unfold padd, pzero. apply eq_eqm. lia.
Qed.
Example C98_applies : test_fourier_mul_f64 (low_fft 2048) 2048 (flat_pairs 2048) = Ok tt.
Proof.
  pose proof (flat_ok 2048 ltac:(lia)) as (W & B & Wb & Sb).
  apply (C98_precise _ 1); [lia|unfold flat_pairs; apply repeat_length| |lia|].
  - apply Forall_forall. intros ab Hab. unfold flat_pairs in Hab. apply repeat_spec in Hab. subst ab. cbn [fst snd]. split; [exact W|]. split; [exact Wb|].
    apply low_precise; [lia|exact W|exact Wb|exact Sb].
  - intros j i Hj Hi. rewrite flat_products by lia. lia.
Qed.
(** The test passes on these pairs with the double-precision FFT. *)
Example C98_computed_applies : forall kd, test_fourier_mul_f64 (ieee_fft_of kd (computed_tables rounded_sin_cos) one_by_one 2048) 2048 (flat_pairs 2048) = Ok tt.
Proof.
  intros kd. pose proof (flat_ok 2048 ltac:(lia)) as (W & B & Wb & Sb). apply C98_computed; [apply rounded_sin_cos_ok|unfold flat_pairs; apply repeat_length| |].
  - apply Forall_forall. intros ab Hab. unfold flat_pairs in Hab. apply repeat_spec in Hab. subst ab. cbn [fst snd]. split; [exact W|]. split; [exact B|exact Wb].
  - intros j i Hj Hi. rewrite flat_products by lia. lia.
Qed.
