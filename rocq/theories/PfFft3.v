(** Rounding errors of the transform of a sum of products. *)
From Coq Require Import Reals Lra Lia.
From Verif Require Import MBase MPoly MFft SpecRing SpecLwe SpecFft PfFft1 PfFft2.
Local Open Scope R_scope.
Add Ring C_ring3 : C_ring.

(** A product of two approximations. *)
Lemma mul_err (m : cplx -> cplx -> cplx) nu t x y x' y' e f : 0 <= nu ->
  (forall a b, Cabs (Csub (m a b) (Cmul a b)) <= nu * (Cabs a * Cabs b + t)) ->
  Cabs (Csub x' x) <= e -> Cabs (Csub y' y) <= f ->
  Cabs (Csub (m x' y') (Cmul x y)) <= (1 + nu) * ((Cabs x + e) * (Cabs y + f)) - Cabs x * Cabs y + nu * t.
Proof.
  intros Hn Hm Hx Hy. specialize (Hm x' y').
  assert (Cabs (Csub (Cmul x' y') (Cmul x y)) <= Cabs x * f + e * Cabs y + e * f) as H.
  { replace (Csub (Cmul x' y') (Cmul x y)) with (Cadd (Cmul x (Csub y' y)) (Cadd (Cmul (Csub x' x) y) (Cmul (Csub x' x) (Csub y' y)))) by ring.
    eapply Rle_trans; [apply Cabs_tri|]. eapply Rle_trans; [apply Rplus_le_compat_l, Cabs_tri|]. rewrite !Cabs_mul.
    pose proof (Cabs_pos x). pose proof (Cabs_pos y). pose proof (Cabs_pos (Csub x' x)). pose proof (Cabs_pos (Csub y' y)).
    assert (Cabs x * Cabs (Csub y' y) <= Cabs x * f) by (apply Rmult_le_compat_l; lra).
    assert (Cabs (Csub x' x) * Cabs y <= e * Cabs y) by (apply Rmult_le_compat_r; lra).
    assert (Cabs (Csub x' x) * Cabs (Csub y' y) <= e * f) by (apply Rmult_le_compat; lra). lra. }
  apply Cabs_near in Hx. apply Cabs_near in Hy. pose proof (Cabs_sub_tri (m x' y') (Cmul x' y') (Cmul x y)) as T.
  assert (Cabs x' * Cabs y' <= (Cabs x + e) * (Cabs y + f)) as HP by (apply Rmult_le_compat; auto using Cabs_pos).
  assert (nu * (Cabs x' * Cabs y' + t) <= nu * ((Cabs x + e) * (Cabs y + f) + t)) by (apply Rmult_le_compat_l; lra).
  eapply Rle_trans; [exact T|]. eapply Rle_trans; [apply Rplus_le_compat; [eapply Rle_trans; [exact Hm|eassumption]|exact H]|]. lra.
Qed.
(** Padding. *)
Lemma Cabs_padded t x j : 0 <= t -> Cabs (padded t x j) = Cabs (x j) + t.
Proof. intros Ht. unfold padded. change (Cabs (x j) + t, 0) with (RC (Cabs (x j) + t)). rewrite Cabs_RC. apply Rabs_pos_eq. pose proof (Cabs_pos (x j)). lra. Qed.
Lemma norm_padded_le m t t' x y : 0 <= t <= t' -> (forall j, (j < m)%nat -> Cabs (x j) <= Cabs (y j)) -> norm2 m (padded t x) <= norm2 m (padded t' y).
Proof. intros Ht H. apply norm2_le. intros j Hj. rewrite !Cabs_padded by lra. specialize (H j Hj). lra. Qed.
Lemma norm_const m c : 0 <= c -> norm2 m (fun _ => RC c) = sqrt (INR m) * c.
Proof.
  intros Hc. unfold norm2. rewrite (sumR_ext _ _ (fun _ => c * c)) by (intros; rewrite Cabs_RC, Rabs_pos_eq by exact Hc; reflexivity).
  rewrite sumR_const, sqrt_mult_alt by apply pos_INR. f_equal. apply sqrt_square, Hc.
Qed.
Lemma norm_padded_ub m t x : 0 <= t -> norm2 m (padded t x) <= norm2 m x + sqrt (INR m) * t.
Proof.
  intros Ht. apply Rle_trans with (norm2 m (fun j => Cadd (RC (Cabs (x j))) (RC t))).
  - apply norm2_le. intros j _. rewrite Cabs_padded by exact Ht. right. replace (Cadd (RC (Cabs (x j))) (RC t)) with (RC (Cabs (x j) + t)) by (apply Ceq; unfold RC, Cadd; cbn [fst snd]; ring).
    rewrite Cabs_RC, Rabs_pos_eq; [reflexivity|]. pose proof (Cabs_pos (x j)). lra.
  - eapply Rle_trans; [apply norm2_tri|]. rewrite norm_const by exact Ht. apply Rplus_le_compat_r. apply norm2_le. intros j _. rewrite Cabs_RC, Rabs_pos_eq by apply Cabs_pos. lra.
Qed.
Lemma norm_padded_tri m t x y d : 0 <= t -> norm2 m (fun j => Csub (x j) (y j)) <= d -> norm2 m (padded t x) <= norm2 m (padded t y) + d.
Proof.
  intros Ht H. apply Rle_trans with (norm2 m (fun j => Cadd (padded t y j) (RC (Cabs (Csub (x j) (y j)))))).
  - apply norm2_le. intros j _. rewrite Cabs_padded by exact Ht. unfold padded.
    replace (Cadd (Cabs (y j) + t, 0) (RC (Cabs (Csub (x j) (y j))))) with (RC (Cabs (y j) + t + Cabs (Csub (x j) (y j)))) by (apply Ceq; unfold RC, Cadd; cbn [fst snd]; ring).
    pose proof (Cabs_pos (y j)). pose proof (Cabs_pos (Csub (x j) (y j))). rewrite Cabs_RC, Rabs_pos_eq by lra. pose proof (Cabs_near _ _ _ (Rle_refl (Cabs (Csub (x j) (y j))))). lra.
  - eapply Rle_trans; [apply norm2_tri|]. apply Rplus_le_compat_l. eapply Rle_trans; [|exact H]. apply norm2_le. intros j _. rewrite Cabs_RC, Rabs_pos_eq by apply Cabs_pos. lra.
Qed.
Lemma norm_padded_lb m t x : (0 < m)%nat -> 0 <= t -> norm2 m x + t <= norm2 m (padded t x).
Proof.
  intros Hm Ht. apply abs_le_sqr; [pose proof (norm2_pos m x); lra|apply norm2_pos|].
  rewrite norm2_sqr. replace ((norm2 m x + t) * (norm2 m x + t)) with (norm2 m x * norm2 m x + (2 * t * norm2 m x + t * t)) by ring. rewrite norm2_sqr.
  rewrite (sumR_ext _ (fun j => Cabs (padded t x j) * Cabs (padded t x j)) (fun j => Cabs (x j) * Cabs (x j) + (2 * t * Cabs (x j) + t * t))) by (intros; rewrite Cabs_padded by exact Ht; ring).
  rewrite !sumR_plus, sumR_scal, sumR_const. apply Rplus_le_compat_l.
  assert (1 <= INR m) as H1 by (change 1 with (INR 1); apply le_INR; lia).
  assert (t * t <= INR m * (t * t)) by nra.
  assert (norm2 m x <= sumR m (fun j => Cabs (x j))) as H2.
  { clear. apply abs_le_sqr; [apply norm2_pos|apply sumR_pos; intros; apply Cabs_pos|]. rewrite norm2_sqr. induction m as [|m IH]; [cbn; lra|]. cbn [sumR].
    assert (0 <= sumR m (fun j => Cabs (x j))) by (apply sumR_pos; intros; apply Cabs_pos). pose proof (Cabs_pos (x m)). nra. }
  assert (2 * t * norm2 m x <= 2 * t * sumR m (fun j => Cabs (x j))) by (apply Rmult_le_compat_l; lra). lra.
Qed.

Section E.
Variables (fl : float_ops) (h : nat) (u nu w phi t : R).
Hypothesis Hh : (0 < h)%nat.
Let n := (2 * h)%nat.
Hypothesis (Hu : 0 <= u) (Hnu : 0 <= nu) (Hw : 0 <= w) (Hphi : 0 <= phi) (Hpad : 0 <= t).
Hypothesis Hacc : accurate fl n u nu w phi t.

Lemma n_div : (n / 2)%nat = h. Proof. unfold n. rewrite Nat.mul_comm. apply Nat.div_mul. lia. Qed.
Lemma a_round x : Rabs (fl_round fl x - x) <= u * (Rabs x + t). Proof. apply Hacc. Qed.
Lemma a_rint x : Rabs (IZR (fl_rint fl x) - x) <= / 2. Proof. apply Hacc. Qed.
Lemma a_mul x y : Cabs (Csub (fl_mul fl x y) (Cmul x y)) <= nu * (Cabs x * Cabs y + t). Proof. apply Hacc. Qed.
Lemma a_add x y : Cabs (Csub (fl_add fl x y) (Cadd x y)) <= u * (Cabs (Cadd x y) + t). Proof. apply Hacc. Qed.
Lemma a_zero : fl_add fl C0 C0 = C0. Proof. apply Hacc. Qed.
Lemma a_twist j : (j < h)%nat -> Cabs (Csub (fl_twist fl n j) (cis (PI * INR j / INR n))) <= w.
Proof. rewrite <- n_div at 1. apply Hacc. Qed.
Lemma a_untwist j : (j < h)%nat -> Cabs (Csub (fl_untwist fl n j) (Cmul (/ INR h, 0) (cis (- (PI * INR j / INR n))))) <= w / INR h.
Proof. destruct Hacc as (_ & _ & _ & _ & _ & _ & H & _). rewrite n_div in H. apply H. Qed.
Lemma a_forward x : norm2 h (fun k => Csub (fl_forward fl h x k) (dft h x k)) <= phi * (sqrt (INR h) * norm2 h (padded t x)).
Proof. destruct Hacc as (_ & _ & _ & _ & _ & _ & _ & H & _). rewrite n_div in H. apply H. Qed.
Lemma a_backward x j : (j < h)%nat -> Cabs (Csub (fl_backward fl h x j) (idft h x j)) <= phi * sumR h (fun k => Cabs (x k) + t).
Proof. destruct Hacc as (_ & _ & _ & _ & _ & _ & _ & _ & H). rewrite n_div in H. apply H. Qed.

(** ** Conversion *)
Definition torus_of (x : Z) : R := IZR (to_signed x) * / 2 ^ 64.
Definition integer_of (x : Z) : R := IZR (to_signed x).
Let rho := (1 + u) ^ 2 - 1.
Lemma rho_pos : 0 <= rho. Proof. unfold rho. cbn. nra. Qed.
Lemma conv_integer_err x : Rabs (conv_integer fl x - integer_of x) <= rho * (Rabs (integer_of x) + t).
Proof.
  unfold conv_integer, integer_of. eapply Rle_trans; [apply a_round|]. apply Rmult_le_compat_r; [pose proof (Rabs_pos (IZR (to_signed x))); lra|]. unfold rho. cbn. nra.
Qed.
(** Two roundings with a scaling in between. *)
Lemma round2 x c b : 0 <= c <= b -> 1 <= b -> Rabs (fl_round fl (fl_round fl x * c) - x * c) <= rho * (Rabs (x * c) + b * t).
Proof.
  intros Hc Hb. pose proof (a_round (fl_round fl x * c)) as H1. pose proof (a_round x) as H2.
  assert (c * t <= b * t) as Hct by (apply Rmult_le_compat_r; lra). assert (t <= b * t) as Hbt by nra.
  assert (Rabs (fl_round fl x * c - x * c) <= u * (Rabs (x * c) + b * t)) as H3.
  { replace (fl_round fl x * c - x * c) with ((fl_round fl x - x) * c) by ring. rewrite !Rabs_mult, (Rabs_pos_eq c) by lra.
    apply Rle_trans with (u * (Rabs x + t) * c); [apply Rmult_le_compat_r; lra|]. replace (u * (Rabs x + t) * c) with (u * (Rabs x * c + c * t)) by ring.
    apply Rmult_le_compat_l; lra. }
  assert (Rabs (fl_round fl x * c) <= Rabs (x * c) + u * (Rabs (x * c) + b * t)) as H4.
  { replace (fl_round fl x * c) with (x * c + (fl_round fl x * c - x * c)) by ring. eapply Rle_trans; [apply Rabs_triang|]. lra. }
  replace (fl_round fl (fl_round fl x * c) - x * c) with ((fl_round fl (fl_round fl x * c) - fl_round fl x * c) + (fl_round fl x * c - x * c)) by ring.
  eapply Rle_trans; [apply Rabs_triang|]. pose proof (Rabs_pos (x * c)).
  assert (u * (Rabs (fl_round fl x * c) + t) <= u * (Rabs (x * c) + u * (Rabs (x * c) + b * t) + b * t)) by (apply Rmult_le_compat_l; lra).
  unfold rho. cbn. lra.
Qed.
Lemma conv_torus_err x : Rabs (conv_torus fl x - torus_of x) <= rho * (Rabs (torus_of x) + t).
Proof.
  replace t with (1 * t) by ring. apply (round2 _ (/ 2 ^ 64) 1); [|lra]. split; [left; apply Rinv_0_lt_compat, pow_lt; lra|].
  rewrite <- Rinv_1. apply Rinv_le_contravar; [lra|]. apply pow_R1_Rle. lra.
Qed.

(** ** Twist and transform *)
Lemma pair_err (x y x' y' r : R) : 0 <= r -> Rabs (x' - x) <= r * (Rabs x + t) -> Rabs (y' - y) <= r * (Rabs y + t) -> Cabs (Csub (x', y') (x, y)) <= r * (Cabs (x, y) + 2 * t).
Proof.
  intros Hr Hx Hy. apply Rle_trans with (Cabs (RC (r * (Rabs x + t))) * 0 + Cabs (Cadd (r * Rabs x, r * Rabs y) (r * t, r * t))).
  - rewrite Rmult_0_r, Rplus_0_l. unfold Cabs at 1 2. apply sqrt_le_1_alt. unfold Csub, Cadd. cbn [fst snd].
    assert (forall a b, Rabs a <= b -> a * a <= b * b) as K.
    { intros a b H. pose proof (Rsqr_abs a) as E1. unfold Rsqr in E1. rewrite E1. pose proof (Rabs_pos a). apply Rmult_le_compat; lra. }
    pose proof (K _ _ Hx). pose proof (K _ _ Hy). lra.
  - rewrite Rmult_0_r, Rplus_0_l. eapply Rle_trans; [apply Cabs_tri|].
    assert (forall a b, Cabs (r * Rabs a, r * Rabs b) = r * Cabs (a, b)) as E.
    { intros a b. replace (r * Rabs a, r * Rabs b) with (Cmul (RC r) (Rabs a, Rabs b)) by (apply Ceq; unfold Cmul, RC; cbn [fst snd]; ring).
      rewrite Cabs_mul, Cabs_RC, Rabs_pos_eq by exact Hr. f_equal. unfold Cabs. cbn [fst snd]. pose proof (Rsqr_abs a) as E1. pose proof (Rsqr_abs b) as E2. unfold Rsqr in *. rewrite <- E1, <- E2. reflexivity. }
    rewrite E. assert (Cabs (r * t, r * t) <= r * (2 * t)) as H; [|lra].
    apply abs_le_sqr; [apply Cabs_pos|apply Rmult_le_pos; lra|]. rewrite Cabs_sqr. cbn [fst snd]. assert (0 <= (r * t) * (r * t)) by nra. lra.
Qed.
Let theta := (1 + rho) * ((1 + nu) * (1 + w)) - 1.
Lemma theta_pos : 0 <= theta.
Proof. unfold theta. pose proof rho_pos. assert (1 <= (1 + nu) * (1 + w)) by nra. nra. Qed.
Lemma twist_err conv exact p j : (forall x, Rabs (conv x - exact x) <= rho * (Rabs (exact x) + t)) -> (j < h)%nat ->
  Cabs (Csub (fold_twist fl n conv p j) (twisted h (fun i => exact (nth i p 0%Z)) j)) <= theta * (Cabs (twisted h (fun i => exact (nth i p 0%Z)) j) + 2 * t).
Proof.
  intros Hc Hj. pose proof rho_pos as Hr. unfold fold_twist, twisted, folded. rewrite n_div. fold n. set (x := (exact (nth j p 0%Z), exact (nth (j + h) p 0%Z))).
  assert (Cabs (Csub (conv (nth j p 0%Z), conv (nth (j + h) p 0%Z)) x) <= rho * (Cabs x + 2 * t)) as Hx by (apply pair_err; [exact Hr|apply Hc|apply Hc]).
  eapply Rle_trans; [apply (mul_err (fl_mul fl) nu t _ _ _ _ _ _ Hnu a_mul Hx (a_twist j Hj))|].
  rewrite Cabs_mul, Cabs_cis, !Rmult_1_r. unfold theta. pose proof (Cabs_pos x).
  assert (nu <= (1 + nu) * (1 + w) - 1) as H1 by nra. assert (nu * t <= 2 * (((1 + nu) * (1 + w) - 1) * t)) as H2 by nra. lra.
Qed.
Let sigma := (1 + phi) * (1 + theta) - 1.
Lemma sigma_pos : 0 <= sigma. Proof. unfold sigma. pose proof theta_pos. nra. Qed.
Definition pnorm (a : nat -> R) : R := norm2 h (padded (2 * t) (folded h a)).
Lemma forward_err conv exact p : (forall x, Rabs (conv x - exact x) <= rho * (Rabs (exact x) + t)) ->
  norm2 h (fun k => Csub (fl_forward fl (n / 2) (fold_twist fl n conv p) k) (FT h (fun i => exact (nth i p 0%Z)) k)) <=
  sigma * (sqrt (INR h) * pnorm (fun i => exact (nth i p 0%Z))).
Proof.
  intros Hc. rewrite n_div. set (x' := fold_twist fl n conv p). set (a := fun i => exact (nth i p 0%Z)). unfold FT.
  pose proof theta_pos as Ht. pose proof (sqrt_pos (INR h)) as Hs.
  assert (forall j, Cabs (twisted h a j) = Cabs (folded h a j)) as Etw by (intros j; unfold twisted; rewrite Cabs_mul, Cabs_cis; ring).
  assert (norm2 h (fun j => Csub (x' j) (twisted h a j)) <= theta * pnorm a) as H1.
  { apply norm2_scale; [exact Ht|]. intros j Hj. rewrite Cabs_padded, <- Etw by lra. apply twist_err; assumption. }
  pose proof (norm_padded_tri h t x' (twisted h a) _ Hpad H1) as H2.
  assert (norm2 h (padded t (twisted h a)) <= pnorm a) as H2' by (apply norm_padded_le; [lra|intros j _; rewrite Etw; lra]).
  pose proof (a_forward x') as H3.
  pose proof (parseval h Hh (fun j => Csub (x' j) (twisted h a j))) as H4.
  apply Rle_trans with (norm2 h (fun k => Cadd (Csub (fl_forward fl h x' k) (dft h x' k)) (dft h (fun j => Csub (x' j) (twisted h a j)) k))).
  { apply norm2_le. intros k _. right. f_equal. rewrite dft_sub. ring. }
  eapply Rle_trans; [apply norm2_tri|]. rewrite H4.
  assert (phi * (sqrt (INR h) * norm2 h (padded t x')) <= phi * (sqrt (INR h) * (pnorm a + theta * pnorm a))).
  { apply Rmult_le_compat_l; [exact Hphi|]. apply Rmult_le_compat_l; lra. }
  assert (sqrt (INR h) * norm2 h (fun j => Csub (x' j) (twisted h a j)) <= sqrt (INR h) * (theta * pnorm a)) by (apply Rmult_le_compat_l; assumption).
  unfold sigma. lra.
Qed.

(** ** Products and sums.  [M] bounds the product of the padded norms of the operands, [M0] that of the norms. *)
Variables (D : Z) (T : R).
Hypothesis HD : (1 <= D)%Z.
Hypothesis HT : t <= T.
Let M0 := INR n * / 2 * IZR D.
Let M := (1 + 4 * T) ^ 2 * M0.
Let tau := (1 + nu) * ((1 + sigma) * (1 + sigma)) - 1.
(** One of the operands is small; if it is the first one, the padding has to make up for the size of the second. *)
Definition operand_ok (ab : poly * poly) : Prop := wfp n (fst ab) /\ wfp n (snd ab) /\ (sbound D (snd ab) \/ sbound D (fst ab) /\ 2 ^ 64 * t <= T).
Definition ta (p : poly) (i : nat) : R := torus_of (nth i p 0%Z).
Definition ia (p : poly) (i : nat) : R := integer_of (nth i p 0%Z).
Lemma IZR_D : 1 <= IZR D. Proof. apply IZR_le in HD. exact HD. Qed.
Lemma signed_range x : is_word x -> (- 2 ^ 63 <= to_signed x < 2 ^ 63)%Z.
Proof. unfold is_word, to_signed, q. destruct (x <? 2 ^ 63)%Z eqn:E; [apply Z.ltb_lt in E|apply Z.ltb_ge in E]; lia. Qed.
Lemma ta_bound p i : wfp n p -> Rabs (ta p i) <= / 2.
Proof.
  intros [_ Hw2]. unfold ta, torus_of. assert (is_word (nth i p 0%Z)) as Hx.
  { destruct (Nat.lt_ge_cases i (length p)) as [L|L]; [apply (proj1 (Forall_forall _ _) Hw2), nth_In, L|rewrite nth_overflow by exact L; split; reflexivity || discriminate]. }
  apply signed_range in Hx. set (y := to_signed _) in *.
  assert (Rabs (IZR y) <= 2 ^ 63) as Hy.
  { apply Rabs_le. destruct Hx as [H1 H2]. apply IZR_le in H1. apply IZR_lt in H2. 
    assert (IZR (2 ^ 63) = 2 ^ 63) as E by (rewrite (pow_IZR 2 63); reflexivity). rewrite opp_IZR in H1. rewrite E in *. lra. }
  rewrite Rabs_mult, (Rabs_pos_eq (/ 2 ^ 64)) by (left; apply Rinv_0_lt_compat, pow_lt; lra).
  apply Rmult_le_reg_r with (2 ^ 64); [apply pow_lt; lra|]. rewrite Rmult_assoc, Rinv_l by (apply pow_nonzero; lra).
  replace (/ 2 * 2 ^ 64) with (2 ^ 63) by (cbn; field). lra.
Qed.
Lemma ia_bound p i : sbound D p -> Rabs (ia p i) <= IZR D.
Proof.
  intros Hb. unfold ia, integer_of. assert (- D <= to_signed (nth i p 0%Z) <= D)%Z as Hx.
  { destruct (Nat.lt_ge_cases i (length p)) as [L|L]; [apply (proj1 (Forall_forall _ _) Hb), nth_In, L|rewrite nth_overflow by exact L]. cbn. lia. }
  apply Rabs_le. destruct Hx as [H1 H2]. apply IZR_le in H1. apply IZR_le in H2. rewrite opp_IZR in H1. lra.
Qed.
Lemma M0_ge : 1 <= M0.
Proof.
  pose proof IZR_D. assert (2 <= INR n) as Hn by (change 2 with (INR 2); apply le_INR; unfold n; lia). unfold M0. assert (1 <= INR n * / 2) by lra.
  rewrite <- (Rmult_1_r 1). apply Rmult_le_compat; lra.
Qed.
Lemma M_ge : M0 + t <= M.
Proof. unfold M. pose proof M0_ge. assert (1 + 8 * T <= (1 + 4 * T) ^ 2) by (cbn; nra). assert ((1 + 8 * T) * M0 <= (1 + 4 * T) ^ 2 * M0) by (apply Rmult_le_compat_r; lra). nra. Qed.
Lemma ia_word p i : wfp n p -> Rabs (ia p i) <= 2 ^ 63.
Proof.
  intros Hp. pose proof (ta_bound p i Hp) as H. unfold ta, torus_of in H. unfold ia, integer_of. rewrite Rabs_mult, (Rabs_pos_eq (/ 2 ^ 64)) in H by (left; apply Rinv_0_lt_compat, pow_lt; lra).
  assert (0 < 2 ^ 64) as P by (apply pow_lt; lra). apply (Rmult_le_compat_r (2 ^ 64)) in H; [|lra]. rewrite Rmult_assoc, Rinv_l, Rmult_1_r in H by lra. replace (2 ^ 63) with (/ 2 * 2 ^ 64) by (cbn; field). exact H.
Qed.
Lemma ta_small p i : sbound D p -> Rabs (ta p i) <= IZR D * / 2 ^ 64.
Proof.
  intros Hp. pose proof (ia_bound p i Hp) as H. unfold ia, integer_of in H. unfold ta, torus_of. assert (0 < / 2 ^ 64) as P by (apply Rinv_0_lt_compat, pow_lt; lra).
  rewrite Rabs_mult, (Rabs_pos_eq (/ 2 ^ 64)) by lra. apply Rmult_le_compat_r; lra.
Qed.
Lemma pnorm_any a X : 0 <= X -> (forall i, Rabs (a i) <= X) -> pnorm a <= (X + 2 * t) * sqrt (INR n).
Proof.
  intros HX Ha. unfold pnorm. eapply Rle_trans; [apply norm_padded_ub; lra|].
  pose proof (norm_bound h Hh a X ltac:(lra) (fun i _ => Ha i)) as H1. fold n in H1.
  assert (sqrt (INR h) <= sqrt (INR n)) as H2 by (apply sqrt_le_1_alt, le_INR; unfold n; lia).
  assert (sqrt (INR h) * (2 * t) <= sqrt (INR n) * (2 * t)) by (apply Rmult_le_compat_r; lra). lra.
Qed.
Lemma pnorm_bound a X : / 2 <= X -> (forall i, Rabs (a i) <= X) -> pnorm a <= (1 + 4 * t) * (X * sqrt (INR n)).
Proof.
  intros HX Ha. unfold pnorm. eapply Rle_trans; [apply norm_padded_ub; lra|].
  pose proof (norm_bound h Hh a X ltac:(lra) (fun i _ => Ha i)) as H1. fold n in H1.
  assert (sqrt (INR h) <= sqrt (INR n)) as H2 by (apply sqrt_le_1_alt, le_INR; unfold n; lia). pose proof (sqrt_pos (INR n)) as H3. pose proof (sqrt_pos (INR h)) as H4.
  assert (sqrt (INR h) * (2 * t) <= sqrt (INR n) * (2 * t)) by (apply Rmult_le_compat_r; lra).
  assert (2 * t <= 4 * t * X) as H5 by nra. assert (sqrt (INR n) * (2 * t) <= sqrt (INR n) * (4 * t * X)) by (apply Rmult_le_compat_l; assumption). lra.
Qed.
Lemma pnorm_pos a : 0 <= pnorm a. Proof. apply norm2_pos. Qed.
Lemma norms_bound ab : operand_ok ab -> norm2 h (folded h (ta (fst ab))) * norm2 h (folded h (ia (snd ab))) <= M0.
Proof.
  intros (Ha & Hb & [Hs|[Hs _]]); pose proof IZR_D as H0.
  2:{ assert (0 < / 2 ^ 64) as P by (apply Rinv_0_lt_compat, pow_lt; lra).
    assert (0 <= IZR D * / 2 ^ 64) as PD by (apply Rmult_le_pos; lra). assert (0 <= 2 ^ 63) as P63 by (apply pow_le; lra).
    pose proof (norm_bound h Hh (ta (fst ab)) (IZR D * / 2 ^ 64) PD (fun i _ => ta_small _ i Hs)) as H1.
    pose proof (norm_bound h Hh (ia (snd ab)) (2 ^ 63) P63 (fun i _ => ia_word _ i Hb)) as H2.
    fold n in H1, H2. eapply Rle_trans; [apply Rmult_le_compat; [apply norm2_pos|apply norm2_pos|exact H1|exact H2]|].
    right. unfold M0. replace (INR n) with (sqrt (INR n) * sqrt (INR n)) at 3 by (apply sqrt_sqrt, pos_INR). replace (2 ^ 64) with (2 * 2 ^ 63) by (cbn; ring). field. }
  pose proof (norm_bound h Hh (ta (fst ab)) (/ 2) ltac:(lra) (fun i _ => ta_bound _ i Ha)) as H1.
  pose proof (norm_bound h Hh (ia (snd ab)) (IZR D) ltac:(lra) (fun i _ => ia_bound _ i Hs)) as H2.
  fold n in H1, H2. eapply Rle_trans; [apply Rmult_le_compat; [apply norm2_pos|apply norm2_pos|exact H1|exact H2]|].
  right. unfold M0. replace (INR n) with (sqrt (INR n) * sqrt (INR n)) at 3 by (apply sqrt_sqrt, pos_INR). ring.
Qed.
Lemma pnorms_bound ab : operand_ok ab -> pnorm (ta (fst ab)) * pnorm (ia (snd ab)) <= M.
Proof.
  intros (Ha & Hb & Hs). pose proof IZR_D as H0. assert (INR n = sqrt (INR n) * sqrt (INR n)) as En by (symmetry; apply sqrt_sqrt, pos_INR).
  destruct Hs as [Hs|[Hs HtT]].
  - pose proof (pnorm_bound (ta (fst ab)) (/ 2) ltac:(lra) (fun i => ta_bound _ i Ha)) as H1.
    pose proof (pnorm_bound (ia (snd ab)) (IZR D) ltac:(lra) (fun i => ia_bound _ i Hs)) as H2.
    eapply Rle_trans; [apply Rmult_le_compat; [apply pnorm_pos|apply pnorm_pos|exact H1|exact H2]|].
    apply Rle_trans with ((1 + 4 * t) ^ 2 * M0).
    + right. unfold M0. rewrite En at 3. cbn [pow]. ring.
    + unfold M. pose proof M0_ge. apply Rmult_le_compat_r; [lra|]. cbn [pow]. nra.
  - assert (0 < / 2 ^ 64) as P by (apply Rinv_0_lt_compat, pow_lt; lra).
    assert (0 <= IZR D * / 2 ^ 64) as PD by (apply Rmult_le_pos; lra). assert (0 <= 2 ^ 63) as P63 by (apply pow_le; lra).
    pose proof (pnorm_any (ta (fst ab)) (IZR D * / 2 ^ 64) PD (fun i => ta_small _ i Hs)) as H1.
    pose proof (pnorm_any (ia (snd ab)) (2 ^ 63) P63 (fun i => ia_word _ i Hb)) as H2.
    eapply Rle_trans; [apply Rmult_le_compat; [apply pnorm_pos|apply pnorm_pos|exact H1|exact H2]|].
    replace ((IZR D * / 2 ^ 64 + 2 * t) * sqrt (INR n) * ((2 ^ 63 + 2 * t) * sqrt (INR n))) with (INR n * ((IZR D * / 2 ^ 64 + 2 * t) * (2 ^ 63 + 2 * t))) by (rewrite En at 1; ring).
    unfold M, M0. replace ((1 + 4 * T) ^ 2 * (INR n * / 2 * IZR D)) with (INR n * (/ 2 * IZR D * (1 + 4 * T) ^ 2)) by ring. apply Rmult_le_compat_l; [apply pos_INR|].
    assert (/ 2 ^ 64 * 2 ^ 63 = / 2) as E1 by (cbn; field). assert (2 ^ 64 = 2 * 2 ^ 63) as E2 by (cbn; ring).
    assert (/ 2 ^ 64 <= 1) as P1. { rewrite <- Rinv_1. apply Rinv_le_contravar; [lra|]. apply pow_R1_Rle. lra. }
    replace ((IZR D * / 2 ^ 64 + 2 * t) * (2 ^ 63 + 2 * t)) with (IZR D * (/ 2 ^ 64 * 2 ^ 63) + IZR D * / 2 ^ 64 * (2 * t) + 2 ^ 64 * t + 4 * (t * t)) by (rewrite E2; ring).
    rewrite E1. set (d := IZR D) in *. set (e := / 2 ^ 64) in *.
    assert (d * e * (2 * t) <= d * (2 * T)) as K1. { rewrite Rmult_assoc. apply Rmult_le_compat_l; [lra|]. nra. }
    assert (T <= d * T) as K2 by nra. assert (t * t <= T * T) as K3 by nra. assert (T * T <= d * (T * T)) as K4 by nra. cbn [pow]. nra.
Qed.
Lemma norm_bound1 ab : operand_ok ab -> pnorm (ta (fst ab)) <= M.
Proof.
  intros (Ha & Hb & Hs). pose proof IZR_D as H0.
  pose proof (pnorm_bound (ta (fst ab)) (/ 2) ltac:(lra) (fun i => ta_bound _ i Ha)) as H1.
  assert (1 <= INR n) as Hn by (change 1 with (INR 1); apply le_INR; unfold n; lia).
  assert (sqrt (INR n) <= INR n) as H2. { rewrite <- (sqrt_square (INR n)) at 2 by lra. apply sqrt_le_1_alt. nra. }
  assert (/ 2 * sqrt (INR n) <= M0) as H3. { unfold M0. assert (INR n <= INR n * IZR D) by (rewrite <- (Rmult_1_r (INR n)) at 1; apply Rmult_le_compat_l; lra). lra. }
  assert ((1 + 4 * t) * (/ 2 * sqrt (INR n)) <= (1 + 4 * T) * M0) as H4 by (apply Rmult_le_compat; pose proof (sqrt_pos (INR n)); lra).
  unfold M. pose proof M0_ge. assert (1 + 4 * T <= (1 + 4 * T) ^ 2) as H5 by (cbn; nra). assert ((1 + 4 * T) * M0 <= (1 + 4 * T) ^ 2 * M0) by (apply Rmult_le_compat_r; lra). lra.
Qed.
Lemma sh2 : sqrt (INR h) * sqrt (INR h) = INR h. Proof. apply sqrt_sqrt, pos_INR. Qed.

(** The exact value of a product, and of a sum of products, in the Fourier domain. *)
Definition FV (ts : fourier) (k : nat) : cplx := fold_right (fun ab acc => Cadd (Cmul (FT h (ta (fst ab)) k) (FT h (ia (snd ab)) k)) acc) C0 ts.
Lemma FV_app ts us k : FV (ts ++ us) k = Cadd (FV ts k) (FV us k).
Proof. unfold FV. induction ts as [|ab ts IH]; cbn [app fold_right]; [ring|]. rewrite IH. ring. Qed.
Lemma product_size ab : operand_ok ab -> sumR h (fun k => Cabs (Cmul (FT h (ta (fst ab)) k) (FT h (ia (snd ab)) k))) <= INR h * M0.
Proof.
  intros H. apply Rle_trans with (norm2 h (FT h (ta (fst ab))) * norm2 h (FT h (ia (snd ab)))).
  - eapply Rle_trans; [|apply sum_norms]. right. apply sumR_ext. intros k _. apply Cabs_mul.
  - rewrite !(norm_FT h Hh). replace (sqrt (INR h) * norm2 h (folded h (ta (fst ab))) * (sqrt (INR h) * norm2 h (folded h (ia (snd ab)))))
      with ((sqrt (INR h) * sqrt (INR h)) * (norm2 h (folded h (ta (fst ab))) * norm2 h (folded h (ia (snd ab))))) by ring.
    rewrite sh2. apply Rmult_le_compat_l; [apply pos_INR|]. apply norms_bound, H.
Qed.
Lemma FV_size ts : Forall operand_ok ts -> sumR h (fun k => Cabs (FV ts k)) <= INR (length ts) * (INR h * M0).
Proof.
  induction 1 as [|ab ts H _ IH].
  - cbn [FV fold_right length]. rewrite (sumR_ext _ _ (fun _ => 0)) by (intros; apply Cabs_0). rewrite sumR_const. cbn. lra.
  - cbn [length]. rewrite S_INR. pose proof (product_size ab H) as P.
    apply Rle_trans with (sumR h (fun k => Cabs (Cmul (FT h (ta (fst ab)) k) (FT h (ia (snd ab)) k)) + Cabs (FV ts k))); [apply sumR_le; intros k _; apply Cabs_tri|].
    rewrite sumR_plus. lra.
Qed.
Lemma M_pos : 0 <= M.
Proof. pose proof M0_ge. pose proof M_ge. lra. Qed.
Lemma product_err ab : operand_ok ab ->
  sumR h (fun k => Cabs (Csub (fl_mul fl (forward_as_torus fl n (fst ab) k) (forward_as_integer fl n (snd ab) k)) (Cmul (FT h (ta (fst ab)) k) (FT h (ia (snd ab)) k)))) <= (INR h * M) * tau.
Proof.
  intros H. set (X k := FT h (ta (fst ab)) k). set (Y k := FT h (ia (snd ab)) k).
  set (e k := Cabs (Csub (forward_as_torus fl n (fst ab) k) (X k))). set (f k := Cabs (Csub (forward_as_integer fl n (snd ab) k) (Y k))).
  assert (forall x : R, 0 <= x -> Cabs (RC x) = x) as CR by (intros x Hx; rewrite Cabs_RC; apply Rabs_pos_eq, Hx).
  assert (forall k, 0 <= e k /\ 0 <= f k) as Hef by (intros k; split; apply Cabs_pos).
  pose proof (forward_err (conv_torus fl) torus_of (fst ab) conv_torus_err) as HX.
  pose proof (forward_err (conv_integer fl) integer_of (snd ab) conv_integer_err) as HY.
  fold (forward_as_torus fl n (fst ab)) in HX. fold (forward_as_integer fl n (snd ab)) in HY.
  change (fun i => torus_of (nth i (fst ab) 0%Z)) with (ta (fst ab)) in HX. change (fun i => integer_of (nth i (snd ab) 0%Z)) with (ia (snd ab)) in HY.
  set (A := pnorm (ta (fst ab))) in *. set (B := pnorm (ia (snd ab))) in *.
  assert (forall a, norm2 h (folded h a) <= pnorm a) as HPN by (intros a; apply norm2_le; intros j _; rewrite Cabs_padded by lra; lra).
  pose proof (sqrt_pos (INR h)) as P3.
  assert (norm2 h X <= sqrt (INR h) * A) as NX by (unfold X; rewrite (norm_FT h Hh); apply Rmult_le_compat_l; [exact P3|apply HPN]). assert (norm2 h Y <= sqrt (INR h) * B) as NY by (unfold Y; rewrite (norm_FT h Hh); apply Rmult_le_compat_l; [exact P3|apply HPN]).
  pose proof (pnorms_bound ab H) as HM. fold A B in HM.
  assert (forall r, 0 <= r -> r * (INR h * (A * B)) <= r * (INR h * M)) as HR by (intros r Hr; apply Rmult_le_compat_l; [exact Hr|]; apply Rmult_le_compat_l; [apply pos_INR|exact HM]).
  set (dx k := Csub (forward_as_torus fl n (fst ab) k) (X k)) in *. set (dy k := Csub (forward_as_integer fl n (snd ab) k) (Y k)) in *.
  change (norm2 h dx <= sigma * (sqrt (INR h) * A)) in HX. change (norm2 h dy <= sigma * (sqrt (INR h) * B)) in HY.
  (* nu |x y| + (1 + nu) (|x| f + e |y| + e f) *)
  apply Rle_trans with (sumR h (fun k => nu * (Cabs (X k) * Cabs (Y k) + t) + (1 + nu) * (Cabs (X k) * Cabs (dy k) + (Cabs (dx k) * Cabs (Y k) + Cabs (dx k) * Cabs (dy k))))).
  { apply sumR_le. intros k _. eapply Rle_trans; [apply (mul_err (fl_mul fl) nu t (X k) (Y k) _ _ (Cabs (dx k)) (Cabs (dy k)) Hnu a_mul); right; reflexivity|]. right. ring. }
  rewrite sumR_plus, !sumR_scal, !sumR_plus, sumR_const.
  pose proof (product_size ab H) as S1. rewrite (sumR_ext _ _ (fun k => Cabs (X k) * Cabs (Y k))) in S1 by (intros k _; apply Cabs_mul).
  pose proof (sum_norms h X dy) as S2. pose proof (sum_norms h dx Y) as S3. pose proof (sum_norms h dx dy) as S4.
  pose proof (norm2_pos h dx) as P1. pose proof (norm2_pos h dy) as P2. pose proof (norm2_pos h X) as P1'. pose proof (norm2_pos h Y) as P2'.
  assert (0 <= A /\ 0 <= B) as [P4 P5] by (split; apply norm2_pos). pose proof sigma_pos as P6.
  assert (norm2 h X * norm2 h dy <= sigma * (INR h * (A * B))) as S2'.
  { eapply Rle_trans; [apply Rmult_le_compat; [exact P1'|exact P2|exact NX|exact HY]|]. right. generalize sh2. generalize (sqrt (INR h)). intros r <-. ring. }
  assert (norm2 h dx * norm2 h Y <= sigma * (INR h * (A * B))) as S3'.
  { eapply Rle_trans; [apply Rmult_le_compat; [exact P1|exact P2'|exact HX|exact NY]|]. right. generalize sh2. generalize (sqrt (INR h)). intros r <-. ring. }
  assert (norm2 h dx * norm2 h dy <= (sigma * sigma) * (INR h * (A * B))) as S4'.
  { eapply Rle_trans; [apply Rmult_le_compat; [exact P1|exact P2|exact HX|exact HY]|]. right. generalize sh2. generalize (sqrt (INR h)). intros r <-. ring. }
  pose proof (HR ((1 + nu) * (sigma + (sigma + sigma * sigma))) ltac:(apply Rmult_le_pos; nra)) as R2.
  assert (INR h * M0 + INR h * t <= INR h * M) as R1 by (rewrite <- Rmult_plus_distr_l; apply Rmult_le_compat_l; [apply pos_INR|apply M_ge]).
  apply Rle_trans with (nu * (INR h * M) + (1 + nu) * (sigma * (INR h * (A * B)) + (sigma * (INR h * (A * B)) + (sigma * sigma) * (INR h * (A * B))))).
  - apply Rplus_le_compat; [apply Rmult_le_compat_l; lra|]. apply Rmult_le_compat_l; lra.
  - unfold tau. lra.
Qed.
Lemma tau_sigma : sigma <= tau.
Proof. unfold tau. pose proof sigma_pos. assert (1 + sigma <= (1 + sigma) * (1 + sigma)) by nra. nra. Qed.
Lemma FT_unit k : FT h (ia (poly_mono n 0 1)) k = C1.
Proof.
  rewrite <- (FT_one h Hh k). apply FT_ext. 1: exact Hh. intros i Hi. unfold ia, integer_of, poly_mono.
  rewrite (nth_indep _ 0%Z (if (0 =? 0)%nat then 0%Z else 0%Z)) by (rewrite map_length, seq_length; exact Hi).
  rewrite (nth_indep _ _ (if (n =? 0)%nat then 1%Z else 0%Z)) by (rewrite map_length, seq_length; exact Hi).
  rewrite (map_nth (fun k => if (k =? 0)%nat then 1%Z else 0%Z) (seq 0 n) n i), seq_nth by exact Hi. cbn [Nat.add]. destruct (i =? 0)%nat; reflexivity.
Qed.
Lemma copy_err a : operand_ok (torus_term n a) -> sumR h (fun k => Cabs (Csub (forward_as_torus fl n a k) (FV [torus_term n a] k))) <= (INR h * M) * tau.
Proof.
  intros H. pose proof (forward_err (conv_torus fl) torus_of a conv_torus_err) as HX. fold (forward_as_torus fl n a) in HX.
  change (fun i => torus_of (nth i a 0%Z)) with (ta a) in HX. pose proof (norm_bound1 _ H) as HM. cbn [fst torus_term] in HM.
  rewrite (sumR_ext _ _ (fun k => Cabs (Csub (forward_as_torus fl n a k) (FT h (ta a) k)))).
  2:{ intros k _. unfold FV. cbn [fold_right torus_term fst snd]. rewrite FT_unit. f_equal. ring. }
  eapply Rle_trans; [apply (norm2_sum h (fun k => Csub (forward_as_torus fl n a k) (FT h (ta a) k)))|].
  pose proof (sqrt_pos (INR h)) as P3. eapply Rle_trans; [apply Rmult_le_compat_l; [exact P3|exact HX]|].
  replace (sqrt (INR h) * (sigma * (sqrt (INR h) * pnorm (ta a)))) with (INR h * pnorm (ta a) * sigma) by (generalize sh2; generalize (sqrt (INR h)); intros r <-; ring).
  apply Rmult_le_compat; [apply Rmult_le_pos; [apply pos_INR|apply pnorm_pos]|apply sigma_pos| |apply tau_sigma].
  apply Rmult_le_compat_l; [apply pos_INR|exact HM].
Qed.

Let g (d : nat) := (1 + u) ^ d * (1 + tau).
Lemma g_pos d : 1 <= g d.
Proof.
  unfold g. assert (1 <= (1 + u) ^ d) by (apply pow_R1_Rle; lra). pose proof tau_sigma. pose proof sigma_pos. nra.
Qed.
Lemma g_mono d e : (d <= e)%nat -> g d <= g e.
Proof.
  intros H. unfold g. apply Rmult_le_compat_r; [pose proof tau_sigma; pose proof sigma_pos; lra|]. apply Rle_pow; [lra|exact H].
Qed.
Lemma hM_pos : 0 <= INR h * M. Proof. apply Rmult_le_pos; [apply pos_INR|apply M_pos]. Qed.
Lemma sum_zero m (f : nat -> R) : (forall i, (i < m)%nat -> 0 <= f i) -> sumR m f <= 0 -> forall i, (i < m)%nat -> f i = 0.
Proof.
  induction m as [|m IH]; intros H S i Hi; [lia|]. cbn [sumR] in S. assert (0 <= sumR m f) by (apply sumR_pos; intros; apply H; lia). pose proof (H m ltac:(lia)).
  destruct (Nat.eq_dec i m) as [-> |N]; [lra|]. apply IH; [intros; apply H; lia|lra|lia].
Qed.
Lemma add_step ts1 ts2 (x y : nat -> cplx) d : Forall operand_ok ts1 -> Forall operand_ok ts2 -> (0 < length (ts1 ++ ts2))%nat ->
  sumR h (fun k => Cabs (Csub (x k) (FV ts1 k))) <= INR (length ts1) * (INR h * M) * (g d - 1) ->
  sumR h (fun k => Cabs (Csub (y k) (FV ts2 k))) <= INR (length ts2) * (INR h * M) * (g d - 1) ->
  sumR h (fun k => Cabs (Csub (fl_add fl (x k) (y k)) (FV (ts1 ++ ts2) k))) <= INR (length (ts1 ++ ts2)) * (INR h * M) * (g (S d) - 1).
Proof.
  intros Hok1 Hok2 Hlen L2 R2. pose proof (FV_size _ Hok1) as F1. pose proof (FV_size _ Hok2) as F2.
  apply Rle_trans with (sumR h (fun k => u * (Cabs (FV ts1 k) + Cabs (FV ts2 k) + t) + (1 + u) * (Cabs (Csub (x k) (FV ts1 k)) + Cabs (Csub (y k) (FV ts2 k))))).
  { apply sumR_le. intros k _. rewrite FV_app. eapply Rle_trans; [apply (Cabs_sub_tri _ (Cadd (x k) (y k)))|].
    pose proof (a_add (x k) (y k)) as A1.
    replace (Csub (Cadd (x k) (y k)) (Cadd (FV ts1 k) (FV ts2 k))) with (Cadd (Csub (x k) (FV ts1 k)) (Csub (y k) (FV ts2 k))) by ring.
    pose proof (Cabs_tri (Csub (x k) (FV ts1 k)) (Csub (y k) (FV ts2 k))) as A2. pose proof (Cabs_tri (x k) (y k)) as A3.
    pose proof (Cabs_near (x k) (FV ts1 k) _ (Rle_refl _)) as A4. pose proof (Cabs_near (y k) (FV ts2 k) _ (Rle_refl _)) as A5.
    assert (u * (Cabs (Cadd (x k) (y k)) + t) <= u * (Cabs (FV ts1 k) + Cabs (Csub (x k) (FV ts1 k)) + (Cabs (FV ts2 k) + Cabs (Csub (y k) (FV ts2 k))) + t)) by (apply Rmult_le_compat_l; lra).
    lra. }
  rewrite sumR_plus, !sumR_scal, !sumR_plus, sumR_const. rewrite app_length in *. rewrite plus_INR.
  assert (g (S d) = (1 + u) * g d) as -> by (unfold g; cbn; ring).
  set (B1 := INR (length ts1) * (INR h * M)) in *. set (B2 := INR (length ts2) * (INR h * M)) in *.
  assert (INR (length ts1) * (INR h * M0) + INR (length ts2) * (INR h * M0) + INR h * t <= B1 + B2) as F.
  { assert (1 <= INR (length ts1) + INR (length ts2)) as Hl by (rewrite <- plus_INR; change 1 with (INR 1); apply le_INR; lia).
    unfold B1, B2. rewrite <- !Rmult_plus_distr_r. set (l := INR (length ts1) + INR (length ts2)) in *.
    assert (l * (INR h * (M0 + t)) <= l * (INR h * M)) as K1 by (apply Rmult_le_compat_l; [lra|]; apply Rmult_le_compat_l; [apply pos_INR|apply M_ge]).
    assert (0 <= INR h * t) as K2 by (apply Rmult_le_pos; [apply pos_INR|exact Hpad]). assert (INR h * t <= l * (INR h * t)) by nra. lra. }
  replace ((INR (length ts1) + INR (length ts2)) * (INR h * M)) with (B1 + B2) by (unfold B1, B2; ring).
  assert (forall a b c, 0 <= c -> a <= b -> c * a <= c * b) as K by (intros; apply Rmult_le_compat_l; assumption).
  pose proof (K _ (B1 + B2) u Hu (Rle_trans _ _ _ (Rplus_le_compat_r (INR h * t) _ _ (Rplus_le_compat _ _ _ _ F1 F2)) F)) as K1. pose proof (K _ _ (1 + u) ltac:(lra) (Rplus_le_compat _ _ _ _ L2 R2)) as K2.
  eapply Rle_trans; [apply Rplus_le_compat; [exact K1|exact K2]|]. right. ring.
Qed.
Lemma accumulate_err tr ts d : sums n tr ts d -> Forall operand_ok ts -> forall rest,
  (forall k, snd (accumulate fl n tr (ts ++ rest) k) = rest) /\
  sumR h (fun k => Cabs (Csub (fst (accumulate fl n tr (ts ++ rest) k)) (FV ts k))) <= INR (length ts) * (INR h * M) * (g d - 1).
Proof.
  pose proof hM_pos as HP.
  assert (forall d, 1 + tau <= g d) as Hg by (intros d0; apply Rle_trans with (g 0); [unfold g; cbn; lra|apply g_mono; lia]).
  induction 1 as [d|ab d|a d|l r ts1 ts2 d Hl IHl Hr IHr]; intros Hok rest.
  - cbn [accumulate app length]. split; [reflexivity|]. rewrite (sumR_ext _ _ (fun _ => 0)); [rewrite sumR_const; cbn; lra|].
    intros k _. unfold FV. cbn [fold_right fst]. replace (Csub C0 C0) with C0 by ring. apply Cabs_0.
  - apply Forall_inv in Hok. destruct ab as [a b]. cbn [accumulate app length]. split; [reflexivity|]. cbn [fst]. pose proof (product_err _ Hok) as P. cbn [fst snd] in P.
    rewrite (sumR_ext _ _ (fun k => Cabs (Csub (fl_mul fl (forward_as_torus fl n a k) (forward_as_integer fl n b k)) (Cmul (FT h (ta a) k) (FT h (ia b) k))))).
    2:{ intros k _. unfold FV. cbn [fold_right fst snd]. f_equal. ring. }
    eapply Rle_trans; [exact P|]. cbn [INR]. rewrite Rmult_1_l. apply Rmult_le_compat_l; [exact HP|]. specialize (Hg d). lra.
  - apply Forall_inv in Hok. cbn [accumulate app length torus_term]. split; [reflexivity|]. cbn [fst]. eapply Rle_trans; [apply copy_err, Hok|].
    cbn [INR]. rewrite Rmult_1_l. apply Rmult_le_compat_l; [exact HP|]. specialize (Hg d). lra.
  - apply Forall_app in Hok. destruct Hok as [Hok1 Hok2]. destruct (IHl Hok1 (ts2 ++ rest)) as [L1 L2]. destruct (IHr Hok2 rest) as [R1 R2].
    cbn [accumulate]. rewrite <- app_assoc.
    assert (forall k, accumulate fl n (SSum l r) (ts1 ++ ts2 ++ rest) k = (fl_add fl (fst (accumulate fl n l (ts1 ++ ts2 ++ rest) k)) (fst (accumulate fl n r (ts2 ++ rest) k)), rest)) as E.
    { intros k. cbn [accumulate]. specialize (L1 k). specialize (R1 k). destruct (accumulate fl n l (ts1 ++ ts2 ++ rest) k) as [x t1]. cbn in L1. subst t1.
      destruct (accumulate fl n r (ts2 ++ rest) k) as [y t2]. cbn in R1. subst t2. reflexivity. }
    split; [intros k; specialize (E k); cbn [accumulate] in E; rewrite E; reflexivity|].
    set (x k := fst (accumulate fl n l (ts1 ++ ts2 ++ rest) k)) in *. set (y k := fst (accumulate fl n r (ts2 ++ rest) k)) in *.
    rewrite (sumR_ext _ _ (fun k => Cabs (Csub (fl_add fl (x k) (y k)) (FV (ts1 ++ ts2) k)))).
    2:{ intros k _. specialize (E k). cbn [accumulate] in E. rewrite E. reflexivity. }
    destruct ts1 as [|ab1 ts1'].
    { destruct ts2 as [|ab2 ts2'].
      - rewrite (sumR_ext _ _ (fun _ => 0)); [rewrite sumR_const; cbn; lra|]. intros k Hk. cbn [app FV fold_right length] in *.
        assert (forall z, sumR h (fun k => Cabs (Csub (z k) C0)) <= INR 0 * (INR h * M) * (g d - 1) -> z k = C0) as Z0.
        { intros z Hz. change (INR 0) with 0 in Hz. rewrite !Rmult_0_l in Hz. pose proof (sum_zero _ _ (fun i _ => Cabs_pos (Csub (z i) C0)) Hz k Hk) as E0.
          apply Cabs_eq0 in E0. replace (z k) with (Cadd (Csub (z k) C0) C0) by ring. rewrite E0. ring. }
        rewrite (Z0 x L2), (Z0 y R2), a_zero. replace (Csub C0 C0) with C0 by ring. apply Cabs_0.
      - apply add_step; try assumption. cbn; lia. }
    apply add_step; try assumption. cbn; lia.
Qed.
End E.
