(** The exact transform: evaluation at the roots of X^n+1, inverse, Parseval, products. *)
From Coq Require Import Reals Lra Lia.
From Verif Require Import MBase MPoly MFft SpecRing SpecLwe SpecFft PfFft1.
Local Open Scope R_scope.
Add Ring C_ring2 : C_ring.

Lemma geometric w m : Cmul (Csub w C1) (sumC m (fun k => Cpow w k)) = Csub (Cpow w m) C1.
Proof. induction m as [|m IH]; cbn [sumC Cpow]; [ring|]. replace (Cmul (Csub w C1) (Cadd (sumC m (fun k => Cpow w k)) (Cpow w m))) with (Cadd (Cmul (Csub w C1) (sumC m (fun k => Cpow w k))) (Cmul (Csub w C1) (Cpow w m))) by ring. rewrite IH. ring. Qed.
Lemma Cabs_eq0 z : Cabs z = 0 -> z = C0.
Proof. intros H. pose proof (Cabs_sqr z) as E. rewrite H in E. apply Ceq; cbn; nra. Qed.
Lemma Cmul_integral x y : Cmul x y = C0 -> x = C0 \/ y = C0.
Proof.
  intros H. assert (Cabs x * Cabs y = 0) as E by (rewrite <- Cabs_mul, H; apply Cabs_0).
  apply Rmult_integral in E. destruct E as [E|E]; [left|right]; apply Cabs_eq0; exact E.
Qed.

Section H.
Variable h : nat.
Hypothesis Hh : (0 < h)%nat.
Lemma INR_h : 0 < INR h. Proof. apply lt_0_INR. exact Hh. Qed.

Lemma cis_angle_not_1 (d : nat) : (0 < d < h)%nat -> cis (2 * PI * INR d / INR h) <> C1.
Proof.
  intros Hd E. pose proof INR_h as H0. assert (0 < INR d) by (apply lt_0_INR; lia). assert (INR d < INR h) by (apply lt_INR; lia).
  pose proof PI_RGT_0 as HP.
  set (x := PI * INR d / INR h). assert (0 < x < PI) as Hx.
  { unfold x. split; [apply Rdiv_lt_0_compat; nra|]. apply Rmult_lt_reg_r with (INR h); [exact H0|]. unfold Rdiv. rewrite Rmult_assoc, Rinv_l by lra. nra. }
  replace (2 * PI * INR d / INR h) with (2 * x) in E by (unfold x; field; lra).
  apply (f_equal fst) in E. cbn in E. rewrite cos_2a_sin in E. pose proof (sin_gt_0 x (proj1 Hx) (proj2 Hx)). nra.
Qed.
Lemma orth i j : (i < h)%nat -> (j < h)%nat ->
  sumC h (fun k => Cmul (cis (2 * PI * INR (j * k) / INR h)) (cis (- (2 * PI * INR (i * k) / INR h)))) = if (i =? j)%nat then RC (INR h) else C0.
Proof.
  intros Hi Hj. pose proof INR_h as H0.
  set (t := 2 * PI * (INR j - INR i) / INR h).
  rewrite (sumC_ext _ _ (fun k => Cpow (cis t) k)).
  2:{ intros k _. rewrite <- cis_add, Cpow_cis. f_equal. unfold t. rewrite !mult_INR. field. lra. }
  destruct (i =? j)%nat eqn:E.
  - apply Nat.eqb_eq in E. subst j. assert (t = 0) as -> by (unfold t, Rdiv; ring).
    rewrite (sumC_ext _ _ (fun _ => RC 1)). 2:{ intros k _. rewrite Cpow_cis, Rmult_0_r, cis_0. reflexivity. }
    rewrite sumC_RC, sumR_const, Rmult_1_r. reflexivity.
  - apply Nat.eqb_neq in E. pose proof (geometric (cis t) h) as G.
    assert (Cpow (cis t) h = C1) as P1.
    { rewrite Cpow_cis. replace (INR h * t) with (2 * PI * INR j + - (2 * PI * INR i)) by (unfold t; field; lra).
      rewrite cis_add, cis_neg, !cis_2PI. apply Ceq; unfold Cmul, Cconj, C1; cbn; ring. }
    rewrite P1 in G. replace (Csub C1 C1) with C0 in G by ring. apply Cmul_integral in G. destruct G as [G|G]; [exfalso|exact G].
    assert (cis t = C1) as Et by (replace (cis t) with (Cadd (Csub (cis t) C1) C1) by ring; rewrite G; ring).
    destruct (Nat.lt_ge_cases i j) as [L|L].
    + apply (cis_angle_not_1 (j - i)); [lia|]. rewrite minus_INR by lia. exact Et.
    + apply (cis_angle_not_1 (i - j)); [lia|]. rewrite minus_INR by lia.
      replace (2 * PI * (INR i - INR j) / INR h) with (- t) by (unfold t; field; lra). rewrite cis_neg, Et. apply Ceq; cbn; ring.
Qed.

Lemma idft_dft x j : (j < h)%nat -> idft h (dft h x) j = Cmul (RC (INR h)) (x j).
Proof.
  intros Hj. unfold idft, dft.
  rewrite (sumC_ext _ _ (fun k => sumC h (fun i => Cmul (x i) (Cmul (cis (2 * PI * INR (j * k) / INR h)) (cis (- (2 * PI * INR (i * k) / INR h))))))).
  2:{ intros k _. rewrite <- sumC_scal_r. apply sumC_ext. intros i _. ring. }
  rewrite sumC_swap. rewrite (sumC_ext _ _ (fun i => Cmul (x i) (if (i =? j)%nat then RC (INR h) else C0))).
  2:{ intros i Hi. rewrite sumC_scal, orth by assumption. reflexivity. }
  rewrite (sumC_one h _ j Hj). 2:{ intros i _ Hn. apply Nat.eqb_neq in Hn. rewrite Hn. ring. } rewrite Nat.eqb_refl. ring.
Qed.
Lemma parseval x : norm2 h (dft h x) = sqrt (INR h) * norm2 h x.
Proof.
  pose proof INR_h as H0. unfold norm2. rewrite <- sqrt_mult_alt by lra. f_equal.
  assert (RC (sumR h (fun k => Cabs (dft h x k) * Cabs (dft h x k))) = RC (INR h * sumR h (fun j => Cabs (x j) * Cabs (x j)))) as E.
  { rewrite <- sumC_RC. rewrite (sumC_ext _ _ (fun k => sumC h (fun i => sumC h (fun j => Cmul (Cmul (x i) (Cconj (x j)))
      (Cmul (cis (2 * PI * INR (j * k) / INR h)) (cis (- (2 * PI * INR (i * k) / INR h)))))))).
    2:{ intros k _. rewrite <- Cmul_conj. unfold dft. rewrite sumC_conj, <- sumC_scal_r. apply sumC_ext. intros i _. rewrite <- sumC_scal. apply sumC_ext. intros j _.
        rewrite Cconj_mul, <- (cis_neg (- _)), Ropp_involutive. ring. }
    rewrite sumC_swap. rewrite (sumC_ext _ _ (fun i => RC (INR h * (Cabs (x i) * Cabs (x i))))).
    2:{ intros i Hi. rewrite sumC_swap. rewrite (sumC_ext _ _ (fun j => Cmul (Cmul (x i) (Cconj (x j))) (if (i =? j)%nat then RC (INR h) else C0))).
        2:{ intros j Hj. rewrite sumC_scal, orth by assumption. reflexivity. }
        rewrite (sumC_one h _ i Hi). 2:{ intros j _ Hn. destruct (Nat.eqb_spec i j); [congruence|]. ring. }
        rewrite Nat.eqb_refl, Cmul_conj. apply Ceq; unfold RC, Cmul; cbn; ring. }
    rewrite sumC_RC, sumR_scal. reflexivity. }
  apply (f_equal fst) in E. exact E.
Qed.
Lemma dft_sub x y k : dft h (fun j => Csub (x j) (y j)) k = Csub (dft h x k) (dft h y k).
Proof. unfold dft. rewrite <- sumC_sub. apply sumC_ext. intros. ring. Qed.
Lemma idft_sub x y k : idft h (fun j => Csub (x j) (y j)) k = Csub (idft h x k) (idft h y k).
Proof. unfold idft. rewrite <- sumC_sub. apply sumC_ext. intros. ring. Qed.
Lemma idft_bound v j : Cabs (idft h v j) <= sumR h (fun k => Cabs (v k)).
Proof. unfold idft. eapply Rle_trans; [apply Cabs_sum|]. right. apply sumR_ext. intros k _. rewrite Cabs_mul, Cabs_cis, Rmult_1_r. reflexivity. Qed.

(** ** The transform of a real polynomial of [n = 2 h] coefficients *)
Let n := (2 * h)%nat.
Definition folded (a : nat -> R) (j : nat) : cplx := (a j, a (j + h)%nat).
Definition twisted (a : nat -> R) (j : nat) : cplx := Cmul (folded a j) (cis (PI * INR j / INR (2 * h))).
Definition FT (a : nat -> R) : nat -> cplx := dft h (twisted a).
Definition zeta (k : nat) : cplx := cis (PI / INR n - 2 * PI * INR k / INR h).
Lemma INR_n : INR n = 2 * INR h. Proof. unfold n. rewrite mult_INR. cbn. ring. Qed.
Lemma zeta_h k : Cpow (zeta k) h = (0, 1).
Proof.
  pose proof INR_h. unfold zeta. rewrite Cpow_cis. rewrite INR_n.
  replace (INR h * (PI / (2 * INR h) - 2 * PI * INR k / INR h)) with (PI / 2 + - (2 * PI * INR k)) by (field; lra).
  rewrite cis_add, cis_neg, cis_2PI. unfold cis. rewrite cos_PI2, sin_PI2. apply Ceq; unfold Cmul, Cconj, C1; cbn; ring.
Qed.
Lemma zeta_n k : Cpow (zeta k) n = Copp C1.
Proof. unfold n. replace (2 * h)%nat with (h + h)%nat by lia. rewrite Cpow_add, zeta_h. apply Ceq; unfold Cmul, Copp, C1; cbn; ring. Qed.
Lemma FT_eval a k : FT a k = sumC n (fun j => Cmul (RC (a j)) (Cpow (zeta k) j)).
Proof.
  pose proof INR_h. unfold n. replace (2 * h)%nat with (h + h)%nat by lia. rewrite sumC_split, <- sumC_plus. unfold FT, dft. apply sumC_ext. intros j Hj.
  rewrite Cpow_add, zeta_h. unfold twisted, folded.
  assert (Cmul (cis (PI * INR j / INR (2 * h))) (cis (- (2 * PI * INR (j * k) / INR h))) = Cpow (zeta k) j) as E.
  { unfold zeta. fold n. rewrite <- cis_add, Cpow_cis. f_equal. rewrite INR_n, mult_INR. field. lra. }
  replace (Cmul (Cmul (a j, a (j + h)%nat) (cis (PI * INR j / INR (2 * h)))) (cis (- (2 * PI * INR (j * k) / INR h))))
    with (Cmul (a j, a (j + h)%nat) (Cpow (zeta k) j)) by (rewrite <- E; ring).
  replace (h + j)%nat with (j + h)%nat by lia.
  apply Ceq; unfold Cmul, Cadd, RC; cbn; ring.
Qed.
(** Untwisting the inverse transform gives back the coefficients. *)
Lemma untwist a j : (j < h)%nat -> Cmul (idft h (FT a) j) (Cmul (/ INR h, 0) (cis (- (PI * INR j / INR n)))) = folded a j.
Proof.
  intros Hj. pose proof INR_h. unfold FT. rewrite idft_dft by exact Hj. unfold twisted.
  replace (Cmul (Cmul (RC (INR h)) (Cmul (folded a j) (cis (PI * INR j / INR (2 * h))))) (Cmul (/ INR h, 0) (cis (- (PI * INR j / INR n)))))
    with (Cmul (Cmul (RC (INR h)) (/ INR h, 0)) (Cmul (folded a j) (Cmul (cis (PI * INR j / INR n)) (cis (- (PI * INR j / INR n)))))) by (fold n; ring).
  rewrite <- cis_add, Rplus_opp_r, cis_0. replace (Cmul (RC (INR h)) (/ INR h, 0)) with C1; [ring|].
  apply Ceq; unfold Cmul, RC, C1; cbn; field; lra.
Qed.
Lemma norm_folded a : norm2 h (folded a) = sqrt (sumR n (fun i => a i * a i)).
Proof.
  unfold norm2. f_equal. unfold n. replace (2 * h)%nat with (h + h)%nat by lia. rewrite sumR_split, <- sumR_plus. apply sumR_ext. intros i _.
  rewrite Cabs_sqr. unfold folded. cbn. replace (h + i)%nat with (i + h)%nat by lia. reflexivity.
Qed.
Lemma norm_twisted a : norm2 h (twisted a) = norm2 h (folded a).
Proof. unfold norm2. f_equal. apply sumR_ext. intros i _. unfold twisted. rewrite Cabs_mul, Cabs_cis. ring. Qed.
Lemma norm_bound a A : 0 <= A -> (forall i, (i < n)%nat -> Rabs (a i) <= A) -> norm2 h (folded a) <= A * sqrt (INR n).
Proof.
  intros HA H. rewrite norm_folded. replace (A * sqrt (INR n)) with (sqrt (A * A * INR n)).
  2:{ rewrite sqrt_mult_alt by nra. rewrite sqrt_square by exact HA. reflexivity. }
  apply sqrt_le_1_alt. rewrite Rmult_comm, <- sumR_const. apply sumR_le. intros i Hi. specialize (H i Hi).
  pose proof (Rsqr_abs (a i)) as E. unfold Rsqr in E. rewrite E. pose proof (Rabs_pos (a i)). nra.
Qed.
Lemma norm_FT a : norm2 h (FT a) = sqrt (INR h) * norm2 h (folded a).
Proof. unfold FT. rewrite parseval, norm_twisted. reflexivity. Qed.

(** ** Products *)
Lemma sg_pow z t : Cpow z n = Copp C1 -> Cpow z (n * t) = RC (IZR (sg t)).
Proof.
  intros Hz. induction t as [|t IH]; [rewrite Nat.mul_0_r; reflexivity|]. rewrite Nat.mul_succ_r, Cpow_add, IH, Hz.
  unfold sg. rewrite Nat.even_succ, <- Nat.negb_even. destruct (Nat.even t); cbn; apply Ceq; unfold Cmul, Copp, C1, RC; cbn; ring.
Qed.
Lemma mono_eval z m : Cpow z n = Copp C1 -> sumC n (fun k => Cmul (RC (IZR (mono n m k))) (Cpow z k)) = Cpow z m.
Proof.
  intros Hz. assert (n <> 0)%nat as Hn by (unfold n; lia). rewrite (sumC_one n _ (m mod n)).
  - unfold mono. rewrite Nat.eqb_refl. rewrite <- (sg_pow z _ Hz), <- Cpow_add. f_equal. symmetry. apply Nat.div_mod. exact Hn.
  - apply Nat.mod_upper_bound. exact Hn.
  - intros j _ Hj. unfold mono. destruct (Nat.eqb_spec (m mod n) j); [congruence|]. change (RC (IZR 0)) with C0. ring.
Qed.
Lemma IZR_sumf m f : IZR (sumf m f) = sumR m (fun i => IZR (f i)).
Proof. induction m as [|m IH]; cbn; [reflexivity|]. rewrite plus_IZR, IH. reflexivity. Qed.
Lemma pmul_eval z f g : Cpow z n = Copp C1 ->
  sumC n (fun k => Cmul (RC (IZR (pmul n f g k))) (Cpow z k)) =
  Cmul (sumC n (fun i => Cmul (RC (IZR (f i))) (Cpow z i))) (sumC n (fun j => Cmul (RC (IZR (g j))) (Cpow z j))).
Proof.
  intros Hz.
  rewrite (sumC_ext _ _ (fun k => sumC n (fun i => sumC n (fun j => Cmul (Cmul (RC (IZR (f i))) (RC (IZR (g j)))) (Cmul (RC (IZR (mono n (i + j) k))) (Cpow z k)))))).
  2:{ intros k _. unfold pmul. rewrite IZR_sumf, <- sumC_RC, <- sumC_scal_r. apply sumC_ext. intros i _. rewrite IZR_sumf, <- sumC_RC, <- sumC_scal_r. apply sumC_ext. intros j _.
      rewrite !mult_IZR. apply Ceq; unfold Cmul, RC; cbn; ring. }
  rewrite sumC_swap, <- sumC_scal_r. apply sumC_ext. intros i _. rewrite sumC_swap, <- sumC_scal. apply sumC_ext. intros j _.
  rewrite sumC_scal, mono_eval, Cpow_add by exact Hz. ring.
Qed.
Lemma FT_pmul f g k : FT (fun i => IZR (pmul n f g i)) k = Cmul (FT (fun i => IZR (f i)) k) (FT (fun i => IZR (g i)) k).
Proof. rewrite !FT_eval. apply pmul_eval, zeta_n. Qed.
Lemma FT_ext a b k : (forall i, (i < n)%nat -> a i = b i) -> FT a k = FT b k.
Proof. intros H. rewrite !FT_eval. apply sumC_ext. intros i Hi. rewrite H by exact Hi. reflexivity. Qed.
Lemma FT_add a b k : FT (fun i => a i + b i) k = Cadd (FT a k) (FT b k).
Proof. rewrite !FT_eval, <- sumC_plus. apply sumC_ext. intros i _. apply Ceq; unfold Cmul, Cadd, RC; cbn; ring. Qed.
Lemma FT_scal c a k : FT (fun i => c * a i) k = Cmul (RC c) (FT a k).
Proof. rewrite !FT_eval, <- sumC_scal. apply sumC_ext. intros i _. apply Ceq; unfold Cmul, RC; cbn; ring. Qed.
Lemma FT_one k : FT (fun i => if (i =? 0)%nat then 1 else 0) k = C1.
Proof.
  rewrite FT_eval, (sumC_one n _ 0%nat); [cbn; apply Ceq; unfold Cmul, RC, C1; cbn; ring|unfold n; lia|].
  intros j _ Hj. apply Nat.eqb_neq in Hj. rewrite Hj. change (RC 0) with C0. ring.
Qed.
Lemma FT_0 k : FT (fun _ => 0) k = C0.
Proof. rewrite FT_eval, (sumC_ext _ _ (fun _ => C0)); [apply sumC_0|]. intros. change (RC 0) with C0. ring. Qed.
End H.
