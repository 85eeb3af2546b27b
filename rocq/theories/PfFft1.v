(** Complex numbers, finite sums and norms. *)
From Coq Require Import Reals Lra Lia.
From Verif Require Import MBase MPoly MFft SpecRing SpecLwe SpecFft.
Local Open Scope R_scope.

Definition C1 : cplx := (1, 0).
Definition Copp (x : cplx) : cplx := (- fst x, - snd x).
Definition Cconj (x : cplx) : cplx := (fst x, - snd x).
Definition RC (x : R) : cplx := (x, 0).

Lemma Ceq (x y : cplx) : fst x = fst y -> snd x = snd y -> x = y.
Proof. destruct x, y. cbn. intros -> ->. reflexivity. Qed.
Lemma C_ring : ring_theory C0 C1 Cadd Cmul Csub Copp (@eq cplx).
Proof.
  constructor; intros; apply Ceq; unfold C0, C1, Cadd, Cmul, Csub, Copp; cbn; ring.
Qed.
Add Ring C_ring : C_ring.

Lemma Csub_opp x y : Csub x y = Cadd x (Copp y). Proof. ring. Qed.
Lemma Cabs_pos z : 0 <= Cabs z. Proof. apply sqrt_pos. Qed.
Lemma Cabs_sqr z : Cabs z * Cabs z = fst z * fst z + snd z * snd z.
Proof. apply sqrt_sqrt. nra. Qed.
Lemma abs_le_sqr x y : 0 <= x -> 0 <= y -> x * x <= y * y -> x <= y.
Proof. intros. nra. Qed.
Lemma abs_eq_sqr x y : 0 <= x -> 0 <= y -> x * x = y * y -> x = y.
Proof. intros Hx Hy H. apply Rle_antisym; apply abs_le_sqr; lra. Qed.
Lemma Cabs_mul x y : Cabs (Cmul x y) = Cabs x * Cabs y.
Proof.
  apply abs_eq_sqr; [apply Cabs_pos|apply Rmult_le_pos; apply Cabs_pos|].
  replace (Cabs x * Cabs y * (Cabs x * Cabs y)) with ((Cabs x * Cabs x) * (Cabs y * Cabs y)) by ring.
  rewrite !Cabs_sqr. unfold Cmul. cbn. ring.
Qed.
Lemma Cabs_0 : Cabs C0 = 0. Proof. unfold Cabs, C0. cbn. rewrite Rmult_0_l, Rplus_0_l. apply sqrt_0. Qed.
Lemma Cabs_opp x : Cabs (Copp x) = Cabs x.
Proof. unfold Cabs, Copp. cbn. f_equal. ring. Qed.
Lemma Cabs_RC x : Cabs (RC x) = Rabs x.
Proof. unfold Cabs, RC. cbn. rewrite Rmult_0_l, Rplus_0_r. apply sqrt_Rsqr_abs. Qed.
Lemma Cabs_tri x y : Cabs (Cadd x y) <= Cabs x + Cabs y.
Proof.
  apply abs_le_sqr; [apply Cabs_pos|pose proof (Cabs_pos x); pose proof (Cabs_pos y); lra|].
  rewrite Cabs_sqr. replace ((Cabs x + Cabs y) * (Cabs x + Cabs y)) with (Cabs x * Cabs x + Cabs y * Cabs y + 2 * (Cabs x * Cabs y)) by ring.
  rewrite !Cabs_sqr.
  assert (fst x * fst y + snd x * snd y <= Cabs x * Cabs y) as H.
  { destruct (Rle_dec 0 (fst x * fst y + snd x * snd y)) as [Hp|Hn].
    - apply abs_le_sqr; [exact Hp|apply Rmult_le_pos; apply Cabs_pos|].
      replace (Cabs x * Cabs y * (Cabs x * Cabs y)) with ((Cabs x * Cabs x) * (Cabs y * Cabs y)) by ring. rewrite !Cabs_sqr.
      assert (0 <= (fst x * snd y - snd x * fst y) * (fst x * snd y - snd x * fst y)) by (apply Rle_0_sqr). lra.
    - assert (0 <= Cabs x * Cabs y) by (apply Rmult_le_pos; apply Cabs_pos). lra. }
  unfold Cadd. cbn. lra.
Qed.
Lemma Cabs_tri_sub x y : Cabs (Csub x y) <= Cabs x + Cabs y.
Proof. rewrite Csub_opp, <- (Cabs_opp y). apply Cabs_tri. Qed.
Lemma Cabs_near x y e : Cabs (Csub x y) <= e -> Cabs x <= Cabs y + e.
Proof. intros H. replace x with (Cadd y (Csub x y)) by ring. pose proof (Cabs_tri y (Csub x y)). lra. Qed.
Lemma Cabs_sub_tri x y z : Cabs (Csub x z) <= Cabs (Csub x y) + Cabs (Csub y z).
Proof. replace (Csub x z) with (Cadd (Csub x y) (Csub y z)) by ring. apply Cabs_tri. Qed.
Lemma fst_le_Cabs z : Rabs (fst z) <= Cabs z.
Proof. apply abs_le_sqr; [apply Rabs_pos|apply Cabs_pos|]. rewrite Cabs_sqr. pose proof (Rsqr_abs (fst z)) as H. unfold Rsqr in H. rewrite <- H. nra. Qed.
Lemma snd_le_Cabs z : Rabs (snd z) <= Cabs z.
Proof. apply abs_le_sqr; [apply Rabs_pos|apply Cabs_pos|]. rewrite Cabs_sqr. pose proof (Rsqr_abs (snd z)) as H. unfold Rsqr in H. rewrite <- H. nra. Qed.
Lemma Cmul_conj z : Cmul z (Cconj z) = RC (Cabs z * Cabs z).
Proof. rewrite Cabs_sqr. unfold Cmul, Cconj, RC. apply Ceq; cbn; ring. Qed.
Lemma Cconj_mul x y : Cconj (Cmul x y) = Cmul (Cconj x) (Cconj y).
Proof. apply Ceq; unfold Cconj, Cmul; cbn; ring. Qed.
Lemma Cconj_add x y : Cconj (Cadd x y) = Cadd (Cconj x) (Cconj y).
Proof. apply Ceq; unfold Cconj, Cadd; cbn; ring. Qed.

(** ** The exponential *)
Lemma cis_add s t : cis (s + t) = Cmul (cis s) (cis t).
Proof. unfold cis, Cmul. cbn. rewrite cos_plus, sin_plus. apply Ceq; cbn; ring. Qed.
Lemma cis_0 : cis 0 = C1. Proof. unfold cis. rewrite cos_0, sin_0. reflexivity. Qed.
Lemma cis_neg t : cis (- t) = Cconj (cis t).
Proof. unfold cis, Cconj. cbn. rewrite cos_neg, sin_neg. reflexivity. Qed.
Lemma Cabs_cis t : Cabs (cis t) = 1.
Proof. unfold Cabs, cis. cbn. pose proof (sin2_cos2 t) as H. unfold Rsqr in H. replace (cos t * cos t + sin t * sin t) with 1 by lra. apply sqrt_1. Qed.
Fixpoint Cpow (z : cplx) (m : nat) : cplx := match m with O => C1 | S m' => Cmul (Cpow z m') z end.
Lemma Cpow_add z a b : Cpow z (a + b) = Cmul (Cpow z a) (Cpow z b).
Proof. induction b as [|b IH]; [rewrite Nat.add_0_r; cbn; ring|]. rewrite Nat.add_succ_r. cbn. rewrite IH. ring. Qed.
Lemma Cpow_cis t m : Cpow (cis t) m = cis (INR m * t).
Proof.
  induction m as [|m IH]; [cbn; rewrite Rmult_0_l, cis_0; reflexivity|]. cbn [Cpow]. rewrite IH, <- cis_add, S_INR. f_equal. ring.
Qed.
Lemma cis_2PI m : cis (2 * PI * INR m) = C1.
Proof.
  induction m as [|m IH]; [cbn; rewrite Rmult_0_r, cis_0; reflexivity|].
  rewrite S_INR, Rmult_plus_distr_l, Rmult_1_r, cis_add, IH. unfold cis. rewrite cos_2PI, sin_2PI. unfold Cmul, C1. apply Ceq; cbn; ring.
Qed.

(** ** Sums *)
Lemma sumR_ext m f g : (forall i, (i < m)%nat -> f i = g i) -> sumR m f = sumR m g.
Proof. induction m as [|m IH]; cbn; intros H; [reflexivity|]. rewrite IH, H; auto. Qed.
Lemma sumR_le m f g : (forall i, (i < m)%nat -> f i <= g i) -> sumR m f <= sumR m g.
Proof. induction m as [|m IH]; cbn; intros H; [lra|]. apply Rplus_le_compat; auto. Qed.
Lemma sumR_pos m f : (forall i, (i < m)%nat -> 0 <= f i) -> 0 <= sumR m f.
Proof. induction m as [|m IH]; cbn; intros H; [lra|]. apply Rplus_le_le_0_compat; auto. Qed.
Lemma sumR_plus m f g : sumR m (fun i => f i + g i) = sumR m f + sumR m g.
Proof. induction m as [|m IH]; cbn; [lra|]. rewrite IH. ring. Qed.
Lemma sumR_scal m c f : sumR m (fun i => c * f i) = c * sumR m f.
Proof. induction m as [|m IH]; cbn; [lra|]. rewrite IH. ring. Qed.
Lemma sumR_const m c : sumR m (fun _ => c) = INR m * c.
Proof. induction m as [|m IH]; [cbn; lra|]. cbn [sumR]. rewrite IH, S_INR. ring. Qed.
Lemma sumR_split a b f : sumR (a + b) f = sumR a f + sumR b (fun i => f (a + i)%nat).
Proof. induction b as [|b IH]; [rewrite Nat.add_0_r; cbn; ring|]. rewrite Nat.add_succ_r. cbn [sumR]. rewrite IH. ring. Qed.
Lemma sumC_ext m f g : (forall i, (i < m)%nat -> f i = g i) -> sumC m f = sumC m g.
Proof. induction m as [|m IH]; cbn; intros H; [reflexivity|]. rewrite IH, H; auto. Qed.
Lemma sumC_plus m f g : sumC m (fun i => Cadd (f i) (g i)) = Cadd (sumC m f) (sumC m g).
Proof. induction m as [|m IH]; cbn; [ring|]. rewrite IH. ring. Qed.
Lemma sumC_sub m f g : sumC m (fun i => Csub (f i) (g i)) = Csub (sumC m f) (sumC m g).
Proof. induction m as [|m IH]; cbn; [ring|]. rewrite IH. ring. Qed.
Lemma sumC_scal m c f : sumC m (fun i => Cmul c (f i)) = Cmul c (sumC m f).
Proof. induction m as [|m IH]; cbn; [ring|]. rewrite IH. ring. Qed.
Lemma sumC_scal_r m c f : sumC m (fun i => Cmul (f i) c) = Cmul (sumC m f) c.
Proof. induction m as [|m IH]; cbn; [ring|]. rewrite IH. ring. Qed.
Lemma sumC_0 m : sumC m (fun _ => C0) = C0.
Proof. induction m as [|m IH]; cbn; [reflexivity|]. rewrite IH. ring. Qed.
Lemma sumC_swap a b f : sumC a (fun i => sumC b (fun j => f i j)) = sumC b (fun j => sumC a (fun i => f i j)).
Proof. induction a as [|a IH]; cbn; [symmetry; apply sumC_0|]. rewrite IH, sumC_plus. reflexivity. Qed.
Lemma sumC_split a b f : sumC (a + b) f = Cadd (sumC a f) (sumC b (fun i => f (a + i)%nat)).
Proof. induction b as [|b IH]; [rewrite Nat.add_0_r; cbn; ring|]. rewrite Nat.add_succ_r. cbn [sumC]. rewrite IH. ring. Qed.
Lemma sumC_one m f i : (i < m)%nat -> (forall j, (j < m)%nat -> j <> i -> f j = C0) -> sumC m f = f i.
Proof.
  induction m as [|m IH]; intros Hi H; [lia|]. cbn. destruct (Nat.eq_dec i m) as [->|Hn].
  - rewrite (sumC_ext m f (fun _ => C0)), sumC_0; [ring|]. intros j Hj. apply H; lia.
  - rewrite IH, (H m) by (auto; lia). ring.
Qed.
Lemma sumC_conj m f : Cconj (sumC m f) = sumC m (fun i => Cconj (f i)).
Proof. induction m as [|m IH]; cbn; [apply Ceq; cbn; ring|]. rewrite <- IH, Cconj_add. reflexivity. Qed.
Lemma sumC_RC m f : sumC m (fun i => RC (f i)) = RC (sumR m f).
Proof. induction m as [|m IH]; cbn; [reflexivity|]. rewrite IH. unfold RC, Cadd. apply Ceq; cbn; ring. Qed.
Lemma Cabs_sum m f : Cabs (sumC m f) <= sumR m (fun i => Cabs (f i)).
Proof. induction m as [|m IH]; cbn; [rewrite Cabs_0; lra|]. pose proof (Cabs_tri (sumC m f) (f m)). lra. Qed.
Lemma sumC_fst m f : fst (sumC m f) = sumR m (fun i => fst (f i)).
Proof. induction m as [|m IH]; cbn; [reflexivity|]. rewrite IH. reflexivity. Qed.

(** ** Norms *)
Definition sq (m : nat) (f : nat -> R) : R := sumR m (fun i => f i * f i).
Lemma sq_pos m f : 0 <= sq m f. Proof. apply sumR_pos. intros. nra. Qed.
(** Cauchy-Schwarz. *)
Lemma cs m f g : sumR m (fun i => f i * g i) * sumR m (fun i => f i * g i) <= sq m f * sq m g.
Proof.
  unfold sq. induction m as [|m IH]; cbn; [lra|].
  pose proof (sq_pos m f) as Hf. pose proof (sq_pos m g) as Hg. unfold sq in Hf, Hg.
  set (s := sumR m (fun i => f i * g i)) in *. set (a := sumR m (fun i => f i * f i)) in *. set (b := sumR m (fun i => g i * g i)) in *.
  set (x := f m). set (y := g m).
  assert (2 * (s * (x * y)) <= a * (y * y) + b * (x * x)) as H.
  { (* s^2 <= ab, so 2 s x y <= 2 sqrt(a y^2) sqrt(b x^2) *)
    set (P := a * (y * y)). set (Q := b * (x * x)).
    assert (0 <= P /\ 0 <= Q) as [HP HQ] by (split; apply Rmult_le_pos; nra).
    assert ((s * (x * y)) * (s * (x * y)) <= P * Q) as HS.
    { unfold P, Q. replace (s * (x * y) * (s * (x * y))) with ((s * s) * ((x * y) * (x * y))) by ring.
      replace (a * (y * y) * (b * (x * x))) with ((a * b) * ((x * y) * (x * y))) by ring. apply Rmult_le_compat_r; [nra|exact IH]. }
    destruct (Rle_dec (s * (x * y)) 0) as [Hn|Hn]; [lra|].
    assert (2 * (s * (x * y)) * (2 * (s * (x * y))) <= (P + Q) * (P + Q)) as H4. { assert (0 <= (P - Q) * (P - Q)) by apply Rle_0_sqr. nra. }
    apply abs_le_sqr; lra. }
  replace ((s + x * y) * (s + x * y)) with (s * s + 2 * (s * (x * y)) + (x * y) * (x * y)) by ring.
  replace ((a + x * x) * (b + y * y)) with (a * b + (a * (y * y) + b * (x * x)) + (x * y) * (x * y)) by ring. lra.
Qed.
Lemma norm2_pos m x : 0 <= norm2 m x. Proof. apply sqrt_pos. Qed.
Lemma norm2_sqr m x : norm2 m x * norm2 m x = sumR m (fun j => Cabs (x j) * Cabs (x j)).
Proof. apply sqrt_sqrt. apply sumR_pos. intros. pose proof (Cabs_pos (x i)). nra. Qed.
Lemma sum_norms m x y : sumR m (fun j => Cabs (x j) * Cabs (y j)) <= norm2 m x * norm2 m y.
Proof.
  apply abs_le_sqr; [apply sumR_pos; intros; apply Rmult_le_pos; apply Cabs_pos|apply Rmult_le_pos; apply norm2_pos|].
  replace (norm2 m x * norm2 m y * (norm2 m x * norm2 m y)) with ((norm2 m x * norm2 m x) * (norm2 m y * norm2 m y)) by ring.
  rewrite !norm2_sqr. apply (cs m (fun j => Cabs (x j)) (fun j => Cabs (y j))).
Qed.
Lemma norm2_le m x y : (forall j, (j < m)%nat -> Cabs (x j) <= Cabs (y j)) -> norm2 m x <= norm2 m y.
Proof.
  intros H. apply sqrt_le_1_alt. apply sumR_le. intros i Hi. pose proof (Cabs_pos (x i)). specialize (H i Hi). nra.
Qed.
Lemma norm2_scale m c x y : 0 <= c -> (forall j, (j < m)%nat -> Cabs (x j) <= c * Cabs (y j)) -> norm2 m x <= c * norm2 m y.
Proof.
  intros Hc H. apply abs_le_sqr; [apply norm2_pos|apply Rmult_le_pos; [exact Hc|apply norm2_pos]|].
  replace (c * norm2 m y * (c * norm2 m y)) with ((c * c) * (norm2 m y * norm2 m y)) by ring. rewrite !norm2_sqr, <- sumR_scal.
  apply sumR_le. intros i Hi. specialize (H i Hi). pose proof (Cabs_pos (x i)). pose proof (Cabs_pos (y i)).
  replace (c * c * (Cabs (y i) * Cabs (y i))) with ((c * Cabs (y i)) * (c * Cabs (y i))) by ring. nra.
Qed.
Lemma norm2_tri m x y : norm2 m (fun j => Cadd (x j) (y j)) <= norm2 m x + norm2 m y.
Proof.
  pose proof (norm2_pos m x) as Hx. pose proof (norm2_pos m y) as Hy.
  apply abs_le_sqr; [apply norm2_pos|lra|]. rewrite norm2_sqr.
  replace ((norm2 m x + norm2 m y) * (norm2 m x + norm2 m y)) with (norm2 m x * norm2 m x + (norm2 m y * norm2 m y + 2 * (norm2 m x * norm2 m y))) by ring.
  rewrite !norm2_sqr. pose proof (sum_norms m x y) as H.
  apply Rle_trans with (sumR m (fun j => Cabs (x j) * Cabs (x j) + (Cabs (y j) * Cabs (y j) + 2 * (Cabs (x j) * Cabs (y j))))).
  - apply sumR_le. intros i Hi. pose proof (Cabs_tri (x i) (y i)). pose proof (Cabs_pos (Cadd (x i) (y i))). nra.
  - rewrite !sumR_plus, sumR_scal. lra.
Qed.
Lemma norm2_near m x y e : norm2 m (fun j => Csub (x j) (y j)) <= e -> norm2 m x <= norm2 m y + e.
Proof.
  intros H. eapply Rle_trans; [|eapply Rplus_le_compat_l; exact H].
  eapply Rle_trans; [|apply (norm2_tri m y (fun j => Csub (x j) (y j)))]. apply norm2_le. intros j _. right. f_equal. ring.
Qed.
Lemma norm2_sum m x : sumR m (fun j => Cabs (x j)) <= sqrt (INR m) * norm2 m x.
Proof.
  pose proof (sum_norms m (fun _ => C1) x) as H. 
  assert (norm2 m (fun _ => C1) = sqrt (INR m)) as E.
  { unfold norm2. f_equal. rewrite sumR_const. replace (Cabs C1) with 1; [ring|]. change C1 with (RC 1). rewrite Cabs_RC, Rabs_R1. reflexivity. }
  rewrite E in H. eapply Rle_trans; [|exact H]. apply sumR_le. intros i _. change C1 with (RC 1). rewrite Cabs_RC, Rabs_R1. lra.
Qed.
