(** Ordinary floating-point arithmetic and the radix-2 transform are accurate. *)
From Coq Require Import Reals Lra Lia.
From Verif Require Import MBase MPoly MFft SpecRing SpecLwe SpecFft PfFft1 PfFft2 PfFft3.
Local Open Scope R_scope.
Add Ring C_ring5 : C_ring.

(** ** The transform with either sign, split into even and odd positions *)
Definition gdft (s : R) (h : nat) (x : nat -> cplx) (k : nat) : cplx := sumC h (fun j => Cmul (x j) (cis (s * (2 * PI * INR (j * k) / INR h)))).
Lemma gdft_dft h x k : gdft (-1) h x k = dft h x k.
Proof. unfold gdft, dft. apply sumC_ext. intros j _. f_equal. f_equal. lra. Qed.
Lemma gdft_idft h x k : gdft 1 h x k = idft h x k.
Proof. unfold gdft, idft. apply sumC_ext. intros j _. f_equal. f_equal. rewrite Nat.mul_comm. lra. Qed.
Lemma sumC_eo h f : sumC (2 * h) f = Cadd (sumC h (fun j => f (2 * j)%nat)) (sumC h (fun j => f (2 * j + 1)%nat)).
Proof.
  induction h as [|h IH]; [change (2 * 0)%nat with 0%nat; cbn [sumC]; ring|]. replace (2 * S h)%nat with (S (S (2 * h))) by lia. cbn [sumC]. rewrite IH.
  replace (2 * h + 1)%nat with (S (2 * h)) by lia. ring.
Qed.
Lemma sumR_eo h f : sumR (2 * h) f = sumR h (fun j => f (2 * j)%nat) + sumR h (fun j => f (2 * j + 1)%nat).
Proof.
  induction h as [|h IH]; [change (2 * 0)%nat with 0%nat; cbn [sumR]; ring|]. replace (2 * S h)%nat with (S (S (2 * h))) by lia. cbn [sumR]. rewrite IH.
  replace (2 * h + 1)%nat with (S (2 * h)) by lia. ring.
Qed.
Definition unit_sign (s : R) : Prop := s = 1 \/ s = -1.
Lemma cis_period s m : unit_sign s -> cis (s * (2 * PI * INR m)) = C1.
Proof.
  intros [-> | ->]; [rewrite Rmult_1_l; apply cis_2PI|]. replace (-1 * (2 * PI * INR m)) with (- (2 * PI * INR m)) by ring.
  rewrite cis_neg, cis_2PI. apply Ceq; cbn; ring.
Qed.
Lemma cis_half s : unit_sign s -> cis (s * PI) = Copp C1.
Proof.
  intros [-> | ->]; [rewrite Rmult_1_l|replace (-1 * PI) with (- PI) by ring; rewrite cis_neg]; unfold cis; rewrite cos_PI, sin_PI; apply Ceq; cbn; ring.
Qed.
Lemma gdft_split s h x k : (0 < h)%nat ->
  gdft s (2 * h) x k = Cadd (gdft s h (fun j => x (2 * j)%nat) k) (Cmul (cis (s * (2 * PI * INR k / INR (2 * h)))) (gdft s h (fun j => x (2 * j + 1)%nat) k)).
Proof.
  intros Hh. apply lt_0_INR in Hh. unfold gdft. rewrite sumC_eo, <- sumC_scal. f_equal; apply sumC_ext; intros j _.
  - do 2 f_equal. rewrite !mult_INR. change (INR 2) with 2. field. lra.
  - replace (cis (s * (2 * PI * INR ((2 * j + 1) * k) / INR (2 * h)))) with (Cmul (cis (s * (2 * PI * INR k / INR (2 * h)))) (cis (s * (2 * PI * INR (j * k) / INR h)))); [ring|].
    rewrite <- cis_add. f_equal. rewrite !mult_INR, plus_INR, !mult_INR. change (INR 2) with 2. change (INR 1) with 1. field. lra.
Qed.
Lemma gdft_period s h x k : unit_sign s -> (0 < h)%nat -> gdft s h x (k + h) = gdft s h x k.
Proof.
  intros Hs Hh. apply lt_0_INR in Hh. apply sumC_ext. intros j _. f_equal.
  replace (s * (2 * PI * INR (j * (k + h)) / INR h)) with (s * (2 * PI * INR (j * k) / INR h) + s * (2 * PI * INR j)) by (rewrite !mult_INR, plus_INR; field; lra).
  rewrite cis_add, cis_period by exact Hs. ring.
Qed.
Lemma gdft_high s h x k : unit_sign s -> (0 < h)%nat ->
  gdft s (2 * h) x (k + h) = Csub (gdft s h (fun j => x (2 * j)%nat) k) (Cmul (cis (s * (2 * PI * INR k / INR (2 * h)))) (gdft s h (fun j => x (2 * j + 1)%nat) k)).
Proof.
  intros Hs Hh. rewrite gdft_split, !gdft_period by assumption. apply lt_0_INR in Hh.
  replace (s * (2 * PI * INR (k + h) / INR (2 * h))) with (s * (2 * PI * INR k / INR (2 * h)) + s * PI) by (rewrite !mult_INR, plus_INR; change (INR 2) with 2; field; lra).
  rewrite cis_add, cis_half by exact Hs. ring.
Qed.

(** ** Norms of halves *)
Definition join (h : nat) (a b : nat -> cplx) (k : nat) : cplx := if (k <? h)%nat then a k else b (k - h)%nat.
Lemma norm_join h a b : norm2 (2 * h) (join h a b) * norm2 (2 * h) (join h a b) = norm2 h a * norm2 h a + norm2 h b * norm2 h b.
Proof.
  rewrite !norm2_sqr. replace (2 * h)%nat with (h + h)%nat by lia. rewrite sumR_split. f_equal; apply sumR_ext; intros i Hi; unfold join.
  - assert (i <? h = true)%nat as -> by (apply Nat.ltb_lt; lia). reflexivity.
  - assert (h + i <? h = false)%nat as -> by (apply Nat.ltb_ge; lia). replace (h + i - h)%nat with i by lia. reflexivity.
Qed.
Lemma norm_eo h x : norm2 (2 * h) x * norm2 (2 * h) x =
  norm2 h (fun j => x (2 * j)%nat) * norm2 h (fun j => x (2 * j)%nat) + norm2 h (fun j => x (2 * j + 1)%nat) * norm2 h (fun j => x (2 * j + 1)%nat).
Proof. rewrite !norm2_sqr, sumR_eo. reflexivity. Qed.
Lemma parallelogram h a b : norm2 (2 * h) (join h (fun k => Cadd (a k) (b k)) (fun k => Csub (a k) (b k))) = sqrt 2 * norm2 (2 * h) (join h a b).
Proof.
  apply abs_eq_sqr; [apply norm2_pos|apply Rmult_le_pos; [apply sqrt_pos|apply norm2_pos]|].
  replace (sqrt 2 * norm2 (2 * h) (join h a b) * (sqrt 2 * norm2 (2 * h) (join h a b))) with ((sqrt 2 * sqrt 2) * (norm2 (2 * h) (join h a b) * norm2 (2 * h) (join h a b))) by ring.
  rewrite sqrt_sqrt by lra. rewrite !norm_join, !norm2_sqr, <- !sumR_plus, <- sumR_scal. apply sumR_ext. intros i _. rewrite !Cabs_sqr. unfold Cadd, Csub. cbn [fst snd]. ring.
Qed.
Lemma join_le h a b p q r : 0 <= r -> norm2 h a <= r * p -> norm2 h b <= r * q -> 0 <= p -> 0 <= q -> norm2 (2 * h) (join h a b) <= r * sqrt (p * p + q * q).
Proof.
  intros Hr Ha Hb Hp Hq. apply abs_le_sqr; [apply norm2_pos|apply Rmult_le_pos; [exact Hr|apply sqrt_pos]|].
  replace (r * sqrt (p * p + q * q) * (r * sqrt (p * p + q * q))) with ((r * r) * (sqrt (p * p + q * q) * sqrt (p * p + q * q))) by ring.
  rewrite sqrt_sqrt by nra. rewrite norm_join. pose proof (norm2_pos h a). pose proof (norm2_pos h b).
  assert (norm2 h a * norm2 h a <= (r * p) * (r * p)) by (apply Rmult_le_compat; assumption).
  assert (norm2 h b * norm2 h b <= (r * q) * (r * q)) by (apply Rmult_le_compat; assumption). lra.
Qed.

(** ** Rounded operations *)
Section Rnd.
Variables (rnd : R -> R) (u tau : R).
Hypothesis Hu : 0 <= u <= / 16.
Hypothesis Htau : 0 <= tau.
Hypothesis Hr : rounding rnd u tau.
Lemma rnd_err x : Rabs (rnd x - x) <= u * (Rabs x + tau).
Proof.
  eapply Rle_trans; [apply Hr|]. apply Rmult_le_compat_l; [apply Hu|]. pose proof (Rabs_pos x). apply Rmax_lub; lra.
Qed.
Lemma rpair_err z : Cabs (Csub (rpair rnd z) z) <= u * (Cabs z + 2 * tau).
Proof. destruct z as [x y]. apply pair_err; [exact Htau|apply Hu|apply rnd_err|apply rnd_err]. Qed.
Lemma sqrt2_bound : sqrt 2 * (2 + u) <= 3.
Proof.
  assert (sqrt 2 <= 1415 / 1000) as H. { rewrite <- (sqrt_square (1415 / 1000)) by lra. apply sqrt_le_1_alt. lra. } pose proof (sqrt_pos 2). nra.
Qed.
Lemma part_err s t : Rabs (rnd (rnd s + rnd t) - (s + t)) <= u * (2 + u) * (Rabs s + Rabs t + 2 * tau) /\ Rabs (rnd (rnd s - rnd t) - (s - t)) <= u * (2 + u) * (Rabs s + Rabs t + 2 * tau).
Proof.
  pose proof (rnd_err s) as H1. pose proof (rnd_err t) as H2. set (W := Rabs s + Rabs t + 2 * tau).
  assert (forall x y, Rabs y <= Rabs s + Rabs t -> Rabs (x - y) <= u * W -> Rabs (rnd x - y) <= u * (2 + u) * W) as K.
  { intros x y Hy H. pose proof (rnd_err x) as H3. replace (rnd x - y) with ((rnd x - x) + (x - y)) by ring.
    eapply Rle_trans; [apply Rabs_triang|]. assert (Rabs x <= Rabs y + u * W) as H4. { replace x with (y + (x - y)) at 1 by ring. eapply Rle_trans; [apply Rabs_triang|]. lra. }
    assert (u * (Rabs x + tau) <= u * (W + u * W)) by (apply Rmult_le_compat_l; [apply Hu|unfold W in *; lra]). lra. }
  split; apply K.
  - apply Rabs_triang.
  - replace (rnd s + rnd t - (s + t)) with ((rnd s - s) + (rnd t - t)) by ring. eapply Rle_trans; [apply Rabs_triang|]. unfold W. lra.
  - unfold Rminus. eapply Rle_trans; [apply Rabs_triang|]. rewrite Rabs_Ropp. lra.
  - replace (rnd s - rnd t - (s - t)) with ((rnd s - s) + - (rnd t - t)) by ring. eapply Rle_trans; [apply Rabs_triang|]. rewrite Rabs_Ropp. unfold W. lra.
Qed.
Lemma rmul_err x y : Cabs (Csub (rmul rnd x y) (Cmul x y)) <= 3 * u * (Cabs x * Cabs y + 2 * tau).
Proof.
  destruct x as [a b], y as [c d]. pose proof (proj2 (part_err (a * c) (b * d))) as H1. pose proof (proj1 (part_err (a * d) (b * c))) as H2.
  set (X := Cabs (a, b)). set (Y := Cabs (c, d)). assert (0 <= X * Y) as HXY by (apply Rmult_le_pos; apply Cabs_pos).
  assert (forall p q r s, Rabs p * Rabs q + Rabs r * Rabs s <= Cabs (p, r) * Cabs (q, s)) as CSq.
  { intros p q r s. apply abs_le_sqr; [pose proof (Rabs_pos p); pose proof (Rabs_pos q); pose proof (Rabs_pos r); pose proof (Rabs_pos s); nra|apply Rmult_le_pos; apply Cabs_pos|].
    replace (Cabs (p, r) * Cabs (q, s) * (Cabs (p, r) * Cabs (q, s))) with ((Cabs (p, r) * Cabs (p, r)) * (Cabs (q, s) * Cabs (q, s))) by ring. rewrite !Cabs_sqr. cbn [fst snd].
    pose proof (Rsqr_abs p) as E1. pose proof (Rsqr_abs q) as E2. pose proof (Rsqr_abs r) as E3. pose proof (Rsqr_abs s) as E4. unfold Rsqr in *. rewrite E1, E2, E3, E4.
    pose proof (Rle_0_sqr (Rabs p * Rabs s - Rabs r * Rabs q)) as H. unfold Rsqr in H. lra. }
  assert (Rabs (a * c) + Rabs (b * d) <= X * Y) as S1 by (rewrite !Rabs_mult; apply CSq).
  assert (Rabs (a * d) + Rabs (b * c) <= X * Y) as S2.
  { rewrite !Rabs_mult. eapply Rle_trans; [apply CSq|]. right. unfold X, Y. f_equal. unfold Cabs. cbn [fst snd]. f_equal. ring. }
  set (e := u * (2 + u)) in *. assert (0 <= e) as He by (unfold e; nra).
  assert (Rabs (rnd (rnd (a * c) - rnd (b * d)) - (a * c - b * d)) <= e * (X * Y + 2 * tau)) as K1 by (eapply Rle_trans; [exact H1|]; apply Rmult_le_compat_l; lra).
  assert (Rabs (rnd (rnd (a * d) + rnd (b * c)) - (a * d + b * c)) <= e * (X * Y + 2 * tau)) as K2 by (eapply Rle_trans; [exact H2|]; apply Rmult_le_compat_l; lra).
  assert (0 <= X * Y + 2 * tau) as HXY2 by lra.
  apply Rle_trans with (sqrt 2 * (e * (X * Y + 2 * tau))).
  - apply abs_le_sqr; [apply Cabs_pos|apply Rmult_le_pos; [apply sqrt_pos|apply Rmult_le_pos; assumption]|].
    replace (sqrt 2 * (e * (X * Y + 2 * tau)) * (sqrt 2 * (e * (X * Y + 2 * tau)))) with ((sqrt 2 * sqrt 2) * ((e * (X * Y + 2 * tau)) * (e * (X * Y + 2 * tau)))) by ring. rewrite sqrt_sqrt by lra. rewrite Cabs_sqr.
    unfold rmul, Cmul, Csub. cbn [fst snd]. set (v1 := _ - (a * c - b * d)) in *. set (v2 := _ - (a * d + b * c)) in *.
    pose proof (Rsqr_abs v1) as E1. pose proof (Rsqr_abs v2) as E2. unfold Rsqr in E1, E2. rewrite E1, E2.
    pose proof (Rabs_pos v1). pose proof (Rabs_pos v2). assert (Rabs v1 * Rabs v1 <= (e * (X * Y + 2 * tau)) * (e * (X * Y + 2 * tau))) by (apply Rmult_le_compat; assumption).
    assert (Rabs v2 * Rabs v2 <= (e * (X * Y + 2 * tau)) * (e * (X * Y + 2 * tau))) by (apply Rmult_le_compat; assumption). lra.
  - replace (sqrt 2 * (e * (X * Y + 2 * tau))) with ((sqrt 2 * (2 + u)) * (u * (X * Y + 2 * tau))) by (unfold e; ring). replace (3 * u * (X * Y + 2 * tau)) with (3 * (u * (X * Y + 2 * tau))) by ring.
    apply Rmult_le_compat_r; [apply Rmult_le_pos; [apply Hu|exact HXY2]|]. apply sqrt2_bound.
Qed.
(** The accuracy of one stage, and of all. *)
Variable v : R.
Hypothesis Hv : u * (1 + 2 * tau) <= v <= / 8.
Lemma u_le_v : 0 <= u <= v. Proof. destruct Hu, Hv. split; [lra|]. assert (0 <= u * tau) by (apply Rmult_le_pos; lra). lra. Qed.
Let g := (1 + v) * ((1 + 3 * v) * (1 + v)).
Lemma g_ge : 1 + 5 * v <= g. Proof. unfold g. pose proof u_le_v. nra. Qed.
Lemma twiddle_err s r h o o' e : Cabs (Csub o' o) <= e ->
  Cabs (Csub (rmul rnd (rpair rnd (cis (s * (2 * PI * INR r / INR (2 * h))))) o') (Cmul (cis (s * (2 * PI * INR r / INR (2 * h)))) o)) <=
  ((1 + 3 * v) * (1 + v) - 1) * Cabs o + (1 + 3 * v) * (1 + v) * e + 6 * v * tau.
Proof.
  intros Ho. set (c := cis _). pose proof (rpair_err c) as Hc. assert (Cabs c = 1) as E by apply Cabs_cis. rewrite E in Hc. pose proof u_le_v as Huv.
  assert (Cabs (Csub (rpair rnd c) c) <= v) as Hc2 by lra.
  eapply Rle_trans; [apply (mul_err (rmul rnd) (3 * u) (2 * tau) c o _ _ _ _ ltac:(lra) rmul_err Hc2 Ho)|]. rewrite E.
  assert (0 <= Cabs o + e) as Hoe by (pose proof (Cabs_pos o); pose proof (Cabs_pos (Csub o' o)); lra).
  assert ((1 + 3 * u) * ((1 + v) * (Cabs o + e)) <= (1 + 3 * v) * ((1 + v) * (Cabs o + e))) by (apply Rmult_le_compat_r; [apply Rmult_le_pos; lra|lra]).
  assert (u * tau <= v * tau) by (apply Rmult_le_compat_r; lra). lra.
Qed.
Definition pad_at (m : nat) : R := INR m * (4 * tau).
Lemma pad_at_S m : pad_at (S m) = pad_at m + 4 * tau. Proof. unfold pad_at. rewrite S_INR. ring. Qed.
Lemma pad_at_pos m : 0 <= pad_at m. Proof. unfold pad_at. apply Rmult_le_pos; [apply pos_INR|lra]. Qed.
Lemma radix2_sup s m : unit_sign s -> forall x k, (k < 2 ^ m)%nat ->
  Cabs (Csub (radix2 rnd s m x k) (gdft s (2 ^ m) x k)) <= (g ^ m - 1) * sumR (2 ^ m) (fun j => Cabs (x j) + pad_at m).
Proof.
  intros Hs. pose proof g_ge as Hg. pose proof u_le_v as Huv. induction m as [|m IH]; intros x k Hk.
  - change (2 ^ 0)%nat with 1%nat in *. assert (k = 0)%nat as -> by lia. cbn [radix2]. unfold gdft. cbn [sumC].
    replace (Csub (x 0%nat) (Cadd C0 (Cmul (x 0%nat) (cis (s * (2 * PI * INR (0 * 0) / INR 1)))))) with C0; [rewrite Cabs_0; cbn; lra|].
    replace (s * (2 * PI * INR (0 * 0) / INR 1)) with 0 by (cbn; field). rewrite cis_0. ring.
  - cbn [radix2]. set (h := (2 ^ m)%nat) in *. assert (0 < h)%nat as Hh by (apply Nat.neq_0_lt_0, Nat.pow_nonzero; lia).
    change (2 ^ S m)%nat with (2 * h)%nat in *. set (r := (k mod h)%nat). assert (r < h)%nat as Hrh by (apply Nat.mod_upper_bound; lia).
    set (xe := fun j => x (2 * j)%nat). set (xo := fun j => x (2 * j + 1)%nat). specialize (IH) as IH0.
    pose proof (IH xe r Hrh) as He. pose proof (IH xo r Hrh) as Ho. clear IH IH0.
    rewrite sumR_eo. pose proof (pad_at_pos m) as Hpm. pose proof (lt_0_INR h Hh) as Hh0. assert (1 <= INR h) as Hh1 by (change 1 with (INR 1); apply le_INR; exact Hh).
    set (A := sumR h (fun j => Cabs (xe j) + pad_at m)) in *. set (B := sumR h (fun j => Cabs (xo j) + pad_at m)) in *.
    assert (forall y : nat -> cplx, sumR h (fun j => Cabs (y j) + pad_at (S m)) = sumR h (fun j => Cabs (y j) + pad_at m) + INR h * (4 * tau)) as ES.
    { intros y. rewrite <- sumR_const, <- sumR_plus. apply sumR_ext. intros i _. rewrite pad_at_S. ring. }
    change (sumR h (fun j => Cabs (x (2 * j)%nat) + pad_at (S m))) with (sumR h (fun j => Cabs (xe j) + pad_at (S m))).
    change (sumR h (fun j => Cabs (x (2 * j + 1)%nat) + pad_at (S m))) with (sumR h (fun j => Cabs (xo j) + pad_at (S m))). rewrite !ES. fold A B.
    assert (forall y, Cabs (gdft s h y r) <= sumR h (fun j => Cabs (y j))) as Hsz.
    { intros y. unfold gdft. eapply Rle_trans; [apply Cabs_sum|]. right. apply sumR_ext. intros i _. rewrite Cabs_mul, Cabs_cis, Rmult_1_r. reflexivity. }
    assert (forall y : nat -> cplx, sumR h (fun j => Cabs (y j)) <= sumR h (fun j => Cabs (y j) + pad_at m)) as Hle by (intros y; apply sumR_le; intros; lra).
    pose proof (Rle_trans _ _ _ (Hsz xe) (Hle xe)) as Ze. pose proof (Rle_trans _ _ _ (Hsz xo) (Hle xo)) as Zo. fold A in Ze. fold B in Zo. clear Hsz Hle.
    set (E := gdft s h xe r) in *. set (O := gdft s h xo r) in *. set (e' := radix2 rnd s m xe r) in *. set (o' := radix2 rnd s m xo r) in *.
    pose proof (twiddle_err s r h O o' _ Ho) as Ht. set (p' := rmul rnd _ o') in *. set (P := Cmul _ O) in *.
    set (G := g ^ m) in *. assert (1 <= G) as HG by (apply pow_R1_Rle; lra).
    assert (Cabs P = Cabs O) as EP by (unfold P; rewrite Cabs_mul, Cabs_cis; ring).
    set (t := (1 + 3 * v) * (1 + v)) in *. assert (1 <= t) as Htt by (unfold t; nra).
    assert (0 <= A /\ 0 <= B) as [HA HB] by (split; apply sumR_pos; intros; match goal with |- 0 <= Cabs ?z + _ => pose proof (Cabs_pos z) end; lra).
    assert (Cabs (Csub p' P) <= (t * G - 1) * B + 6 * v * tau) as Hp.
    { eapply Rle_trans; [exact Ht|]. assert ((t - 1) * Cabs O <= (t - 1) * B) by (apply Rmult_le_compat_l; lra). lra. }
    assert (forall y z, Cabs (Csub y z) <= (t * G - 1) * (A + B) + 6 * v * tau -> Cabs z <= A + B -> Cabs (Csub (rpair rnd y) z) <= (g ^ S m - 1) * (A + INR h * (4 * tau) + (B + INR h * (4 * tau)))) as Kr.
    { intros y z H1 H2. eapply Rle_trans; [apply (Cabs_sub_tri _ y)|]. pose proof (rpair_err y) as H3. pose proof (Cabs_near _ _ _ H1) as H4.
      pose proof (Cabs_pos y) as H5. assert (u * (Cabs y + 2 * tau) <= v * (Cabs y + 2 * tau)) by (apply Rmult_le_compat_r; lra).
      assert (v * (Cabs y + 2 * tau) <= v * (A + B + ((t * G - 1) * (A + B) + 6 * v * tau) + 2 * tau)) by (apply Rmult_le_compat_l; lra).
      change (g ^ S m) with (g * G). assert (5 * v <= g * G - 1) as HgG by nra.
      assert (8 * tau <= INR h * (4 * tau) + INR h * (4 * tau)) as Hht by nra.
      assert (5 * v * (8 * tau) <= (g * G - 1) * (INR h * (4 * tau) + INR h * (4 * tau))) as Hslack by (apply Rmult_le_compat; lra).
      assert (v * (v * tau) <= v * tau) as Hvv by (apply Rmult_le_compat_l; [lra|]; nra). assert (0 <= v * tau) by (apply Rmult_le_pos; lra).
      replace ((g * G - 1) * (A + INR h * (4 * tau) + (B + INR h * (4 * tau)))) with ((g * G - 1) * (A + B) + (g * G - 1) * (INR h * (4 * tau) + INR h * (4 * tau))) by ring.
      replace ((g * G - 1) * (A + B)) with (v * (t * G * (A + B)) + (t * G - 1) * (A + B)) by (unfold g, t; ring). lra. }
    assert (G <= t * G) as HtG by nra.
    assert ((G - 1) * A <= (t * G - 1) * A) as HA2 by (apply Rmult_le_compat_r; lra).
    destruct (k <? h)%nat eqn:Ek; [apply Nat.ltb_lt in Ek|apply Nat.ltb_ge in Ek].
    + assert (r = k) as Erk by (apply Nat.mod_small, Ek).
      assert (gdft s (2 * h) x k = Cadd E P) as -> by (rewrite gdft_split by exact Hh; unfold E, P, O; rewrite Erk; reflexivity).
      apply Kr.
      * replace (Csub (Cadd e' p') (Cadd E P)) with (Cadd (Csub e' E) (Csub p' P)) by ring. eapply Rle_trans; [apply Cabs_tri|]. lra.
      * eapply Rle_trans; [apply Cabs_tri|]. lra.
    + assert (r = k - h)%nat as Erk. { unfold r. replace k with ((k - h) + 1 * h)%nat at 1 by lia. rewrite Nat.mod_add by lia. apply Nat.mod_small. lia. }
      assert (gdft s (2 * h) x k = Csub E P) as ->.
      { replace k with (r + h)%nat at 1 by lia. rewrite gdft_high by assumption. reflexivity. }
      apply Kr.
      * replace (Csub (Csub e' p') (Csub E P)) with (Csub (Csub e' E) (Csub p' P)) by ring. eapply Rle_trans; [apply Cabs_tri_sub|]. lra.
      * eapply Rle_trans; [apply Cabs_tri_sub|]. lra.
Qed.
Lemma gdft_norm s h x : unit_sign s -> (0 < h)%nat -> norm2 h (gdft s h x) = sqrt (INR h) * norm2 h x.
Proof.
  intros [-> | ->] Hh.
  - assert (forall z, Cabs (Cconj z) = Cabs z) as Ec by (intros z; unfold Cabs, Cconj; cbn [fst snd]; f_equal; ring).
    assert (norm2 h x = norm2 h (fun j => Cconj (x j))) as -> by (unfold norm2; f_equal; apply sumR_ext; intros i _; rewrite Ec; reflexivity).
    rewrite <- (parseval h Hh). unfold norm2. f_equal. apply sumR_ext. intros k _. rewrite gdft_idft.
    replace (Cabs (idft h x k)) with (Cabs (dft h (fun j => Cconj (x j)) k)); [reflexivity|]. rewrite <- Ec. f_equal. unfold dft, idft. rewrite sumC_conj. apply sumC_ext. intros j _.
    rewrite Cconj_mul, <- cis_neg, Ropp_involutive, (Nat.mul_comm k j). f_equal. apply Ceq; unfold Cconj; cbn [fst snd]; ring.
  - rewrite <- (parseval h Hh). unfold norm2. f_equal. apply sumR_ext. intros k _. rewrite gdft_dft. reflexivity.
Qed.
Lemma radix2_l2 s m : unit_sign s -> forall x,
  norm2 (2 ^ m) (fun k => Csub (radix2 rnd s m x k) (gdft s (2 ^ m) x k)) <= (g ^ m - 1) * (sqrt (INR (2 ^ m)) * norm2 (2 ^ m) (padded (pad_at m) x)).
Proof.
  intros Hs. pose proof g_ge as Hg. pose proof u_le_v as Huv. induction m as [|m IH]; intros x.
  - change (2 ^ 0)%nat with 1%nat. change (g ^ 0) with 1. replace ((1 - 1) * (sqrt (INR 1) * norm2 1 (padded (pad_at 0) x))) with 0 by ring.
    unfold norm2. cbn [sumR radix2]. unfold gdft. cbn [sumC].
    replace (Csub (x 0%nat) (Cadd C0 (Cmul (x 0%nat) (cis (s * (2 * PI * INR (0 * 0) / INR 1)))))) with C0.
    + rewrite Cabs_0. replace (0 + 0 * 0) with 0 by ring. rewrite sqrt_0. lra.
    + replace (s * (2 * PI * INR (0 * 0) / INR 1)) with 0 by (cbn; field). rewrite cis_0. ring.
  - set (h := (2 ^ m)%nat) in *. assert (0 < h)%nat as Hh by (apply Nat.neq_0_lt_0, Nat.pow_nonzero; lia). change (2 ^ S m)%nat with (2 * h)%nat in *.
    set (xe := fun j => x (2 * j)%nat). set (xo := fun j => x (2 * j + 1)%nat).
    pose proof (IH xe) as He. pose proof (IH xo) as Ho. clear IH.
    set (W r := cis (s * (2 * PI * INR r / INR (2 * h)))).
    set (E := gdft s h xe) in *. set (O := gdft s h xo) in *. set (e' := radix2 rnd s m xe) in *. set (o' := radix2 rnd s m xo) in *.
    set (P r := Cmul (W r) (O r)). set (p' r := rmul rnd (rpair rnd (W r)) (o' r)).
    set (G := g ^ m) in *. assert (1 <= G) as HG by (apply pow_R1_Rle; lra).
    set (t := (1 + 3 * v) * (1 + v)) in *. assert (1 + 4 * v <= t) as Htt by (unfold t; nra). pose proof (pad_at_pos m) as Hpm.
    set (c := sqrt (INR h)) in *. assert (0 <= c) as Hc by apply sqrt_pos.
    set (ne := norm2 h (padded (pad_at m) xe)) in *. set (no := norm2 h (padded (pad_at m) xo)) in *. assert (0 <= ne /\ 0 <= no) as [Hne Hno] by (split; apply norm2_pos).
    set (t1 := pad_at m + 2 * tau). set (ne1 := norm2 h (padded t1 xe)). set (no1 := norm2 h (padded t1 xo)).
    assert (forall k y ta tb, (0 < k)%nat -> 0 <= ta -> 0 <= tb -> norm2 k (padded ta y) + tb <= norm2 k (padded (ta + tb) y)) as Hinc.
    { intros k y ta tb Hk Hta Htb. eapply Rle_trans; [apply (norm_padded_lb k tb (padded ta y) Hk Htb)|]. apply norm2_le. intros j _. rewrite !Cabs_padded by lra. lra. }
    assert (ne + 2 * tau <= ne1 /\ no + 2 * tau <= no1) as [Hne1 Hno1] by (split; apply Hinc; (exact Hh || lra)).
    assert (norm2 h E <= c * ne) as NE by (unfold E; rewrite gdft_norm by assumption; apply Rmult_le_compat_l; [exact Hc|]; apply norm2_le; intros j _; rewrite Cabs_padded by lra; lra).
    assert (norm2 h O <= c * no) as NO by (unfold O; rewrite gdft_norm by assumption; apply Rmult_le_compat_l; [exact Hc|]; apply norm2_le; intros j _; rewrite Cabs_padded by lra; lra).
    assert (norm2 h P <= c * no) as NP.
    { eapply Rle_trans; [|exact NO]. right. unfold norm2. f_equal. apply sumR_ext. intros i _. unfold P, W. rewrite Cabs_mul, Cabs_cis, Rmult_1_l. reflexivity. }
    assert (4 * v <= t * G - 1) as HtG4 by nra.
    assert (norm2 h (fun r => Csub (p' r) (P r)) <= (t * G - 1) * (c * no1)) as HP.
    { apply Rle_trans with (norm2 h (fun r => Cadd (Cadd (Cmul (RC (t - 1)) (RC (Cabs (O r)))) (Cmul (RC t) (RC (Cabs (Csub (o' r) (O r)))))) (RC (6 * v * tau)))).
      - apply norm2_le. intros r _. pose proof (twiddle_err s r h (O r) (o' r) _ (Rle_refl _)) as Ht. fold (W r) in Ht. fold (P r) in Ht. fold (p' r) in Ht.
        eapply Rle_trans; [exact Ht|]. fold t. right.
        replace (Cadd (Cadd (Cmul (RC (t - 1)) (RC (Cabs (O r)))) (Cmul (RC t) (RC (Cabs (Csub (o' r) (O r)))))) (RC (6 * v * tau)))
          with (RC ((t - 1) * Cabs (O r) + t * Cabs (Csub (o' r) (O r)) + 6 * v * tau)) by (apply Ceq; unfold RC, Cadd, Cmul; cbn [fst snd]; ring).
        rewrite Cabs_RC, Rabs_pos_eq; [reflexivity|]. pose proof (Cabs_pos (O r)). pose proof (Cabs_pos (Csub (o' r) (O r))).
        apply Rplus_le_le_0_compat; [apply Rplus_le_le_0_compat|]; try (apply Rmult_le_pos; lra). 
      - eapply Rle_trans; [apply norm2_tri|]. eapply Rle_trans; [apply Rplus_le_compat_r, norm2_tri|].
        assert (0 <= v * tau) as Hvt by (apply Rmult_le_pos; lra). rewrite norm_const by lra. fold c.
        assert (norm2 h (fun j => Cmul (RC (t - 1)) (RC (Cabs (O j)))) <= (t - 1) * norm2 h O) as K1.
        { apply norm2_scale; [lra|]. intros j _. rewrite Cabs_mul, !Cabs_RC, (Rabs_pos_eq (t - 1)), (Rabs_pos_eq (Cabs _)) by (apply Cabs_pos || lra). lra. }
        assert (norm2 h (fun j => Cmul (RC t) (RC (Cabs (Csub (o' j) (O j))))) <= t * norm2 h (fun j => Csub (o' j) (O j))) as K2.
        { apply norm2_scale; [lra|]. intros j _. rewrite Cabs_mul, !Cabs_RC, (Rabs_pos_eq t), (Rabs_pos_eq (Cabs _)) by (apply Cabs_pos || lra). lra. }
        assert ((t - 1) * norm2 h O <= (t - 1) * (c * no)) as K1' by (apply Rmult_le_compat_l; [lra|exact NO]).
        assert (t * norm2 h (fun j => Csub (o' j) (O j)) <= t * ((G - 1) * (c * no))) by (apply Rmult_le_compat_l; [lra|exact Ho]).
        assert ((t * G - 1) * (c * (no + 2 * tau)) <= (t * G - 1) * (c * no1)) by (apply Rmult_le_compat_l; [lra|]; apply Rmult_le_compat_l; lra).
        assert (4 * v * (c * (2 * tau)) <= (t * G - 1) * (c * (2 * tau))) as K5 by (apply Rmult_le_compat_r; [apply Rmult_le_pos; lra|exact HtG4]).
        assert (0 <= c * (v * tau)) by (apply Rmult_le_pos; lra). lra. }
    assert (norm2 h (fun r => Csub (e' r) (E r)) <= (t * G - 1) * (c * ne1)) as HE2.
    { eapply Rle_trans; [exact He|]. apply Rmult_le_compat; [lra|apply Rmult_le_pos; assumption|nra|apply Rmult_le_compat_l; lra]. }
    set (nx := norm2 (2 * h) (padded t1 x)). assert (sqrt (ne1 * ne1 + no1 * no1) = nx) as Enx.
    { unfold ne1, no1, xe, xo. unfold nx. rewrite <- (sqrt_square (norm2 (2 * h) (padded t1 x))) by apply norm2_pos. rewrite norm_eo. reflexivity. }
    assert (0 <= t * G - 1) as HtG by lra. assert (0 <= ne1 /\ 0 <= no1) as [Pne1 Pno1] by lra.
    assert (norm2 (2 * h) (join h (fun r => Csub (e' r) (E r)) (fun r => Csub (p' r) (P r))) <= (t * G - 1) * c * nx) as HJ.
    { rewrite <- Enx. apply join_le; try assumption; [apply Rmult_le_pos; assumption|lra|lra]. }
    assert (c * ne <= c * ne1 /\ c * no <= c * no1) as [Cne Cno] by (split; apply Rmult_le_compat_l; lra).
    assert (norm2 (2 * h) (join h e' p') <= t * G * c * nx) as HJ2.
    { rewrite <- Enx. apply join_le; try assumption; [apply Rmult_le_pos; [nra|assumption]| |].
      - eapply Rle_trans; [apply (norm2_near _ _ _ _ HE2)|]. lra.
      - eapply Rle_trans; [apply (norm2_near _ _ _ _ HP)|]. lra. }
    assert (sqrt (INR (2 * h)) = sqrt 2 * c) as ES by (unfold c; rewrite mult_INR; apply sqrt_mult_alt; cbn; lra).
    set (J1 := join h (fun r => Cadd (e' r) (p' r)) (fun r => Csub (e' r) (p' r))).
    set (J2 := join h (fun r => Cadd (Csub (e' r) (E r)) (Csub (p' r) (P r))) (fun r => Csub (Csub (e' r) (E r)) (Csub (p' r) (P r)))).
    assert (norm2 (2 * h) J1 = sqrt 2 * norm2 (2 * h) (join h e' p')) as N1 by apply parallelogram.
    assert (norm2 (2 * h) J2 = sqrt 2 * norm2 (2 * h) (join h (fun r => Csub (e' r) (E r)) (fun r => Csub (p' r) (P r)))) as N2
      by apply (parallelogram h (fun r => Csub (e' r) (E r)) (fun r => Csub (p' r) (P r))).
    assert (0 <= v * tau) as Hvt by (apply Rmult_le_pos; lra).
    apply Rle_trans with (norm2 (2 * h) (fun k => Cadd (Cadd (RC (v * Cabs (J1 k))) (RC (Cabs (J2 k)))) (RC (2 * (v * tau))))).
    + apply norm2_le. intros k Hk.
      replace (Cadd (Cadd (RC (v * Cabs (J1 k))) (RC (Cabs (J2 k)))) (RC (2 * (v * tau)))) with (RC (v * Cabs (J1 k) + Cabs (J2 k) + 2 * (v * tau))) by (apply Ceq; unfold RC, Cadd; cbn [fst snd]; ring).
      assert (0 <= v * Cabs (J1 k) + Cabs (J2 k)) as Hpos by (apply Rplus_le_le_0_compat; [apply Rmult_le_pos; [lra|]|]; apply Cabs_pos).
      rewrite Cabs_RC, Rabs_pos_eq by lra. clear Hpos.
      assert (forall y z w, Csub y z = w -> Cabs (Csub (rpair rnd y) z) <= v * Cabs y + Cabs w + 2 * (v * tau)) as K.
      { intros y z w <-. eapply Rle_trans; [apply (Cabs_sub_tri _ y)|]. pose proof (rpair_err y). pose proof (Cabs_pos y).
        assert (u * (Cabs y + 2 * tau) <= v * (Cabs y + 2 * tau)) by (apply Rmult_le_compat_r; lra). lra. }
      cbn [radix2]. fold h. set (r := (k mod h)%nat). fold xe xo. fold e' o'. fold (W r). fold (p' r).
      unfold J1, J2, join. destruct (k <? h)%nat eqn:Ek; [apply Nat.ltb_lt in Ek|apply Nat.ltb_ge in Ek].
      * assert (r = k) as Erk by (apply Nat.mod_small, Ek). rewrite Erk.
        assert (gdft s (2 * h) x k = Cadd (E k) (P k)) as -> by (rewrite gdft_split by exact Hh; reflexivity). apply K. ring.
      * assert (r = k - h)%nat as Erk. { unfold r. replace k with ((k - h) + 1 * h)%nat at 1 by lia. rewrite Nat.mod_add by lia. apply Nat.mod_small. lia. }
        assert (gdft s (2 * h) x k = Csub (E r) (P r)) as ->. { replace k with (r + h)%nat at 1 by lia. rewrite gdft_high by assumption. reflexivity. }
        rewrite <- Erk. apply K. ring.
    + eapply Rle_trans; [apply norm2_tri|]. eapply Rle_trans; [apply Rplus_le_compat_r, norm2_tri|]. rewrite norm_const by lra.
      assert (norm2 (2 * h) (fun k => RC (v * Cabs (J1 k))) <= v * norm2 (2 * h) J1) as K1.
      { apply norm2_scale; [lra|]. intros j _. rewrite Cabs_RC, Rabs_pos_eq by (apply Rmult_le_pos; [lra|apply Cabs_pos]). lra. }
      assert (norm2 (2 * h) (fun k => RC (Cabs (J2 k))) <= norm2 (2 * h) J2) as K2.
      { apply norm2_le. intros j _. rewrite Cabs_RC, Rabs_pos_eq by apply Cabs_pos. lra. }
      rewrite N1 in K1. rewrite N2 in K2. rewrite ES. change (g ^ S m) with (g * G).
      pose proof (sqrt_pos 2) as Hs2.
      assert (v * (sqrt 2 * norm2 (2 * h) (join h e' p')) <= v * (sqrt 2 * (t * G * c * nx))) as K3 by (apply Rmult_le_compat_l; [lra|]; apply Rmult_le_compat_l; assumption).
      assert (sqrt 2 * norm2 (2 * h) (join h (fun r => Csub (e' r) (E r)) (fun r => Csub (p' r) (P r))) <= sqrt 2 * ((t * G - 1) * c * nx)) as K4 by (apply Rmult_le_compat_l; assumption).
      assert (nx + 2 * tau <= norm2 (2 * h) (padded (pad_at (S m)) x)) as K5.
      { rewrite pad_at_S. replace (pad_at m + 4 * tau) with (t1 + 2 * tau) by (unfold t1; ring). apply Hinc; unfold t1; (lia || lra). }
      assert (v <= g * G - 1) as K6 by nra.
      assert (sqrt 2 * c * ((g * G - 1) * (nx + 2 * tau)) <= sqrt 2 * c * ((g * G - 1) * norm2 (2 * h) (padded (pad_at (S m)) x))) as K7.
      { apply Rmult_le_compat_l; [apply Rmult_le_pos; assumption|]. apply Rmult_le_compat_l; lra. }
      assert (sqrt 2 * c * (v * (2 * tau)) <= sqrt 2 * c * ((g * G - 1) * (2 * tau))) as K8.
      { apply Rmult_le_compat_l; [apply Rmult_le_pos; assumption|]. apply Rmult_le_compat_r; lra. }
      assert (g = (1 + v) * t) as Egt by (unfold g, t; ring). rewrite Egt in *. lra.
Qed.

End Rnd.
Lemma machine_accurate rnd u tau m : 0 <= u <= / 16 -> 0 <= tau -> rounding rnd u tau -> 2 * 2 ^ m * tau <= 1 ->
  let v := u * (1 + 2 * 2 ^ m * tau) in
  accurate (machine rnd) (2 * 2 ^ m) v (3 * v) v (((1 + v) * ((1 + 3 * v) * (1 + v))) ^ m - 1) (4 * 2 ^ m * tau).
Proof.
  intros Hu Htau Hr Hsm v. set (h := (2 ^ m)%nat). assert (0 < h)%nat as Hh by (apply Nat.neq_0_lt_0, Nat.pow_nonzero; lia). pose proof (lt_0_INR h Hh) as H0.
  assert (2 ^ m = INR h) as Eh by (unfold h; rewrite pow_INR; reflexivity).
  assert (1 <= INR h) as H1 by (change 1 with (INR 1); apply le_INR; exact Hh). assert (v = u * (1 + 2 * INR h * tau)) as Ev by (unfold v; rewrite Eh; reflexivity). rewrite Eh in Hsm |- *. clearbody v.
  assert (tau <= INR h * tau) as Hht by nra.
  assert (u * (1 + 2 * tau) <= v <= / 8) as Hv. { rewrite Ev. split; [apply Rmult_le_compat_l; lra|]. nra. }
  assert (u <= v) as Huv. { rewrite Ev. nra. }
  assert (2 * h / 2 = h)%nat as Hd by exact (n_div h Hh). unfold accurate. rewrite Hd. cbn [machine fl_round fl_rint fl_mul fl_add fl_twist fl_untwist fl_forward fl_backward].
  assert (Nat.log2 h = m) as -> by (apply Nat.log2_pow2; lia). rewrite Hd.
  assert (forall a b, 0 <= a -> 0 <= b -> b <= 4 * INR h * tau -> u * (a + b) <= v * (a + 4 * INR h * tau)) as Up.
  { intros a b Ha Hb Hb2. apply Rmult_le_compat; lra. }
  assert (pad_at tau m <= 4 * INR h * tau) as Hpm.
  { unfold pad_at. assert (INR m <= INR h) as K by (apply le_INR, Nat.lt_le_incl; unfold h; apply Nat.pow_gt_lin_r; lia). assert (INR m * tau <= INR h * tau) by (apply Rmult_le_compat_r; lra). lra. }
  pose proof (pad_at_pos tau Htau m) as Hpp.
  assert (1 <= ((1 + v) * ((1 + 3 * v) * (1 + v))) ^ m) as Hg by (apply pow_R1_Rle; pose proof (g_ge u tau Hu Htau v Hv); lra).
  split; [intros x; eapply Rle_trans; [apply (rnd_err rnd u tau Hu Htau Hr)|]; apply Up; [apply Rabs_pos|lra|lra]|].
  split; [intros x; destruct (base_Int_part (x + / 2)); apply Rabs_le; lra|].
  split. { intros x y. eapply Rle_trans; [apply (rmul_err rnd u tau Hu Htau Hr)|]. assert (0 <= Cabs x * Cabs y) as K by (apply Rmult_le_pos; apply Cabs_pos). pose proof (Up _ (2 * tau) K ltac:(lra) ltac:(lra)). lra. }
  split. { intros x y. eapply Rle_trans; [apply (rpair_err rnd u tau Hu Htau Hr)|]. apply Up; [apply Cabs_pos|lra|lra]. }
  split. { unfold rpair, Cadd, C0. cbn [fst snd]. rewrite Rplus_0_r, (proj1 Hr). reflexivity. }
  split; [intros j _; pose proof (rpair_err rnd u tau Hu Htau Hr (cis (PI * INR j / INR (2 * h)))) as H; rewrite Cabs_cis in H; lra|].
  split.
  { intros j _. pose proof (rpair_err rnd u tau Hu Htau Hr (Cmul (/ INR h, 0) (cis (- (PI * INR j / INR (2 * h)))))) as H. rewrite Cabs_mul, Cabs_cis in H. change (/ INR h, 0) with (RC (/ INR h)) in *.
    rewrite Cabs_RC, Rabs_pos_eq in H by (left; apply Rinv_0_lt_compat, H0). eapply Rle_trans; [exact H|]. right. rewrite Ev. field. lra. }
  split.
  - intros x. apply Rle_trans with ((((1 + v) * ((1 + 3 * v) * (1 + v))) ^ m - 1) * (sqrt (INR h) * norm2 h (padded (pad_at tau m) x))).
    + eapply Rle_trans; [|apply (radix2_l2 rnd u tau Hu Htau Hr v Hv (-1) m ltac:(right; reflexivity) x)]. apply norm2_le. intros k _. right. rewrite gdft_dft. reflexivity.
    + apply Rmult_le_compat_l; [lra|]. apply Rmult_le_compat_l; [apply sqrt_pos|]. apply norm_padded_le; [lra|intros; lra].
  - intros x j Hj. rewrite <- gdft_idft. eapply Rle_trans; [apply (radix2_sup rnd u tau Hu Htau Hr v Hv); [left; reflexivity|exact Hj]|].
    apply Rmult_le_compat_l; [lra|]. apply sumR_le. intros; lra.
Qed.

(** ** Shapes *)
Lemma sums_mono n t ts d : sums n t ts d -> forall d', (d <= d')%nat -> sums n t ts d'.
Proof.
  induction 1 as [d|ab d|a d|l r ts1 ts2 d Hl IHl Hr IHr]; intros d' H; try (constructor; fail).
  destruct d' as [|d']; [lia|]. constructor; [apply IHl|apply IHr]; lia.
Qed.
Lemma one_by_one_sums n ts : sums n (one_by_one ts) ts (length ts).
Proof.
  unfold one_by_one. assert (forall us acc ts0 d, sums n acc ts0 d -> sums n (fold_left (fun acc _ => SSum acc SProduct) us acc) (ts0 ++ us) (d + length us)) as K.
  { induction us as [|[a b] us IH]; intros acc ts0 d H; cbn [fold_left length].
    - rewrite app_nil_r, Nat.add_0_r. exact H.
    - replace (ts0 ++ (a, b) :: us) with ((ts0 ++ [(a, b)]) ++ us) by (rewrite <- app_assoc; reflexivity).
      replace (d + S (length us))%nat with (S d + length us)%nat by lia. apply IH. constructor; [exact H|constructor]. }
  apply (K ts SZero [] 0%nat). constructor.
Qed.
