(** The noise generator: every value is bounded. *)
From Coq Require Import Reals Lra Lia Psatz.
From Verif Require Import MBase MPoly MRlwe MFft MNoise SpecRing SpecLwe SpecFft SpecNoise PolyRing PfFft1 PfFft4.
Local Open Scope R_scope.

Definition e10 : R := / 1024.
Lemma e10_eq : / 2 ^ 10 = e10. Proof. unfold e10. f_equal. cbn. ring. Qed.

Lemma exp_pow x n : exp x ^ n = exp (INR n * x).
Proof.
  induction n as [|n IH]; [cbn; rewrite Rmult_0_l, exp_0; reflexivity|].
  rewrite S_INR. change (exp x ^ S n) with (exp x * exp x ^ n). rewrite IH, <- exp_plus. f_equal. ring.
Qed.
Lemma sq_ge a x b : 0 <= a -> a <= x -> b <= a * a -> b <= x * x.
Proof. intros. nra. Qed.
Lemma ln2_le : ln 2 <= 7 / 10.
Proof.
  assert (2 <= exp (7 / 10)) as H.
  { replace (7 / 10) with (INR 64 * (7 / 640)) by (cbn; lra). rewrite <- exp_pow.
    set (x := exp (7 / 640)). assert (647 / 640 <= x) as H0 by (unfold x; pose proof (exp_ineq1_le (7 / 640)); lra).
    replace (x ^ 64) with (let x2 := x * x in let x4 := x2 * x2 in let x8 := x4 * x4 in let x16 := x8 * x8 in let x32 := x16 * x16 in x32 * x32) by (cbn; ring).
    cbv zeta.
    assert (102199 / 100000 <= x * x) as H1 by (eapply sq_ge; [|exact H0|]; lra).
    assert (104446 / 100000 <= x * x * (x * x)) as H2 by (eapply sq_ge; [|exact H1|]; lra).
    assert (109089 / 100000 <= x * x * (x * x) * (x * x * (x * x))) as H3 by (eapply sq_ge; [|exact H2|]; lra).
    generalize dependent (x * x * (x * x) * (x * x * (x * x))). intros y H3.
    assert (119 / 100 <= y * y) as H4 by (eapply sq_ge; [|exact H3|]; lra).
    assert (1416 / 1000 <= y * y * (y * y)) as H5 by (eapply sq_ge; [|exact H4|]; lra).
    eapply sq_ge; [|exact H5|]; lra. }
  rewrite <- (ln_exp (7 / 10)). destruct H as [H|H]; [left; apply ln_increasing; lra|rewrite <- H; lra].
Qed.
Lemma ln2_ge : / 2 <= ln 2.
Proof.
  assert (exp (/ 2) <= 2) as H.
  { assert (exp (/ 2) * exp (/ 2) <= 3) as H.
    { rewrite <- exp_plus. replace (/ 2 + / 2) with 1 by lra. apply exp_le_3. }
    pose proof (exp_pos (/ 2)). nra. }
  rewrite <- (ln_exp (/ 2)). destruct H as [H|H]; [left; apply ln_increasing; [apply exp_pos|exact H]|rewrite H; lra].
Qed.
Lemma ln_pow2 n : ln (/ 2 ^ n) = - (INR n * ln 2).
Proof. rewrite ln_Rinv by (apply pow_lt; lra). f_equal. rewrite <- Rpower_pow by lra. unfold Rpower. apply ln_exp. Qed.

Section Sampler.
Variables (fl : float_ops) (lnf : R -> R).
Hypothesis Hops : noise_arithmetic fl lnf.
Notation rnd := (fl_round fl).
Notation e := e10.
Definition tau : R := / 2 ^ 1022.
Lemma tau_small : 0 < tau <= / 2 ^ 200.
Proof. unfold tau. split; [apply Rinv_0_lt_compat, pow_lt; lra|]. apply Rinv_le_contravar; [apply pow_lt; lra|]. apply Rle_pow; [lra|lia]. Qed.
Lemma small200 k : (k <= 200)%nat -> / 2 ^ 200 <= / 2 ^ k.
Proof. intros H. apply Rinv_le_contravar; [apply pow_lt; lra|]. apply Rle_pow; [lra|exact H]. Qed.
Lemma tau_le k : (k <= 200)%nat -> tau <= / 2 ^ k.
Proof. intros H. eapply Rle_trans; [apply tau_small|apply small200; exact H]. Qed.
Lemma n_round x : Rabs (rnd x - x) <= e * Rmax (Rabs x) tau.
Proof. destruct Hops as (H & _). rewrite <- e10_eq. apply H. Qed.
Lemma rnd_0 : rnd 0 = 0.
Proof. destruct Hops as ((H & _) & _). exact H. Qed.
Lemma n_rel x : x = 0 \/ tau <= Rabs x -> Rabs (rnd x - x) <= e * Rabs x.
Proof.
  intros [-> | H]; [rewrite rnd_0, Rminus_0_r, Rabs_R0; lra|]. pose proof (n_round x) as K. rewrite Rmax_left in K by exact H. exact K.
Qed.
Lemma n_ln x : 0 < x -> Rabs (lnf x - ln x) <= e * Rabs (ln x).
Proof. destruct Hops as (_ & _ & _ & H). rewrite <- e10_eq. apply H. Qed.
Lemma n_rint x : Rabs (IZR (fl_rint fl x) - x) <= / 2.
Proof. apply Hops. Qed.
Lemma rnd_pos x : x = 0 \/ tau <= x -> (1 - e) * x <= rnd x <= (1 + e) * x.
Proof.
  intros H. pose proof tau_small as T. assert (0 <= x) as H0 by lra. pose proof (n_rel x) as K. rewrite (Rabs_pos_eq x H0) in K. specialize (K H).
  unfold Rabs in K; destruct (Rcase_abs _) in K; lra.
Qed.
Lemma rnd_abs x : x = 0 \/ tau <= Rabs x -> (1 - e) * Rabs x <= Rabs (rnd x) <= (1 + e) * Rabs x.
Proof.
  intros H. pose proof (n_rel x H) as K. pose proof (Rabs_triang (rnd x - x) x) as T1. replace (rnd x - x + x) with (rnd x) in T1 by ring.
  pose proof (Rabs_triang (x - rnd x) (rnd x)) as T2. replace (x - rnd x + rnd x) with x in T2 by ring.
  rewrite (Rabs_minus_sym x (rnd x)) in T2. split; lra.
Qed.
Lemma abs_up x : Rabs (rnd x) <= (1 + e) * Rabs x + tau.
Proof.
  pose proof tau_small as T. pose proof (Rabs_pos x) as P. assert (0 < e < 1) as He by (unfold e; lra).
  destruct (Rle_dec tau (Rabs x)) as [H|H]; [destruct (rnd_abs x (or_intror H)); lra|].
  pose proof (n_round x) as K. rewrite Rmax_right in K by lra. pose proof (Rabs_triang (rnd x - x) x) as T1. replace (rnd x - x + x) with (rnd x) in T1 by ring.
  assert (e * tau <= tau) by nra. assert (0 <= e * Rabs x) by nra. lra.
Qed.
Lemma pos_up x : 0 <= x -> 0 <= rnd x <= (1 + e) * x + tau.
Proof.
  intros H. destruct Hops as (_ & Hp & _). specialize (Hp x H). split; [exact Hp|]. pose proof (abs_up x) as K. rewrite !Rabs_pos_eq in K by assumption. exact K.
Qed.

Lemma unit_part_ge w : to_signed w <> 0%Z -> (1 - e) * (1 - e) * / 2 ^ 63 <= Rabs (unit_part fl w).
Proof.
  intros H. unfold unit_part. set (x := IZR (to_signed w)). assert (1 <= Rabs x) as Hx.
  { unfold x. rewrite <- abs_IZR. apply IZR_le. lia. }
  pose proof (tau_le 0 ltac:(lia)) as T0. change (2 ^ 0) with 1 in T0. rewrite Rinv_1 in T0. pose proof (tau_le 64 ltac:(lia)) as T64.
  replace (/ 2 ^ 64) with (/ 2 * / 2 ^ 63) in T64 by (rewrite <- Rinv_mult; f_equal; cbn; ring).
  destruct (rnd_abs x) as [H1 _]; [lra|]. pose proof (rnd_abs (rnd x * / 2 ^ 63)) as H2. rewrite Rabs_mult in H2.
  assert (0 < / 2 ^ 63) as Hp by (apply Rinv_0_lt_compat, pow_lt; lra). rewrite (Rabs_pos_eq (/ 2 ^ 63)) in H2 by lra.
  set (p := / 2 ^ 63) in *. assert (0 < 1 - e) as He by (unfold e; lra). assert ((1 - e) * 1 <= Rabs (rnd x)) as H3.
  { eapply Rle_trans; [apply Rmult_le_compat_l; [lra|exact Hx]|exact H1]. }
  destruct H2 as [H2 _]. { right. eapply Rle_trans; [exact T64|]. apply Rmult_le_compat_r; [lra|]. unfold e10 in H3. lra. }
  eapply Rle_trans; [|exact H2]. rewrite Rmult_assoc. apply Rmult_le_compat_l; [lra|]. apply Rmult_le_compat_r; lra.
Qed.
Lemma unit_part_0 w : to_signed w = 0%Z -> unit_part fl w = 0.
Proof. intros H. unfold unit_part. rewrite H, rnd_0, Rmult_0_l. apply rnd_0. Qed.
Lemma unit_sq w : unit_part fl w * unit_part fl w = 0 \/ 2 * tau <= unit_part fl w * unit_part fl w.
Proof.
  destruct (Z.eq_dec (to_signed w) 0) as [E|E]; [left; rewrite (unit_part_0 w E); ring|right].
  pose proof (unit_part_ge w E) as H. set (u := unit_part fl w) in *.
  replace (u * u) with (Rabs u * Rabs u) by (rewrite <- Rabs_mult, Rabs_pos_eq; [reflexivity|nra]).
  assert (0 < / 2 ^ 63) as Hp by (apply Rinv_0_lt_compat, pow_lt; lra).
  assert (/ 2 * / 2 ^ 63 <= Rabs u) as K by (set (p := / 2 ^ 63) in *; clearbody p; unfold e10 in H; lra).
  eapply Rle_trans with ((/ 2 * / 2 ^ 63) * (/ 2 * / 2 ^ 63)); [|apply Rmult_le_compat; lra].
  pose proof (tau_le 129 ltac:(lia)) as T. replace (/ 2 ^ 129) with (/ 2 * ((/ 2 * / 2 ^ 63) * (/ 2 * / 2 ^ 63))) in T by (rewrite <- !Rinv_mult; f_equal; cbn; ring). lra.
Qed.

(** [s] dominates the squares of both coordinates. *)
Lemma s_ge u v : (u * u = 0 \/ 2 * tau <= u * u) -> (v * v = 0 \/ 2 * tau <= v * v) ->
  (1 - e) * (1 - e) * (u * u) <= rnd (rnd (u * u) + rnd (v * v)) /\
  (1 - e) * (1 - e) * (v * v) <= rnd (rnd (u * u) + rnd (v * v)).
Proof.
  intros Hu Hv. pose proof tau_small as T.
  destruct (rnd_pos (u * u)) as [U _]; [lra|]. destruct (rnd_pos (v * v)) as [V _]; [lra|]. assert (0 < 1 - e) as He by (unfold e; lra).
  assert (0 <= (1 - e) * (u * u)) by (apply Rmult_le_pos; lra). assert (0 <= (1 - e) * (v * v)) by (apply Rmult_le_pos; lra).
  destruct (rnd_pos (rnd (u * u) + rnd (v * v))) as [S _].
  { destruct Hu as [Hu|Hu]; [destruct Hv as [Hv|Hv]; [left; rewrite Hu, Hv, !rnd_0; lra|]|]; right; unfold e10 in *; lra. }
  split; eapply Rle_trans; try exact S; rewrite Rmult_assoc; (apply Rmult_le_compat_l; [lra|]); lra.
Qed.
Lemma e6 : / 2 <= (1 - e) * (1 - e) * ((1 - e) * (1 - e) * ((1 - e) * (1 - e))).
Proof. unfold e. lra. Qed.
Lemma s_floor wu wv : let u := unit_part fl wu in let v := unit_part fl wv in
  0 < rnd (rnd (u * u) + rnd (v * v)) -> / 2 ^ 127 <= rnd (rnd (u * u) + rnd (v * v)).
Proof.
  intros u v Hs. pose proof (s_ge u v (unit_sq wu) (unit_sq wv)) as [S1 S2].
  assert (forall x, (1 - e) * (1 - e) * / 2 ^ 63 <= Rabs x -> / 2 ^ 127 <= (1 - e) * (1 - e) * (x * x)) as K.
  { intros x Hx. assert (x * x = Rabs x * Rabs x) as -> by (rewrite <- Rabs_mult, Rabs_pos_eq; [reflexivity|nra]).
    assert (/ 2 ^ 127 = / 2 ^ 63 * / 2 ^ 63 * / 2) as ->.
    { rewrite <- !Rinv_mult. f_equal. cbn. ring. }
    set (p := / 2 ^ 63) in *. assert (0 < p) as Hp by (unfold p; apply Rinv_0_lt_compat, pow_lt; lra).
    set (c := (1 - e) * (1 - e)) in *. assert (0 < c) as Hc by (unfold c, e; lra).
    assert ((c * p) * (c * p) <= Rabs x * Rabs x) as Hq by (apply Rmult_le_compat; try assumption; apply Rmult_le_pos; lra).
    assert (c * ((c * p) * (c * p)) <= c * (Rabs x * Rabs x)) as Hr by (apply Rmult_le_compat_l; [lra|exact Hq]).
    eapply Rle_trans; [|exact Hr]. replace (c * (c * p * (c * p))) with (c * (c * c) * (p * p)) by ring.
    assert (/ 2 <= c * (c * c)) as H6 by exact e6. rewrite Rmult_comm. apply Rmult_le_compat_r; [nra|exact H6]. }
  destruct (Z.eq_dec (to_signed wu) 0) as [E1|E1].
  - destruct (Z.eq_dec (to_signed wv) 0) as [E2|E2].
    + exfalso. unfold u, v in Hs. rewrite (unit_part_0 _ E1), (unit_part_0 _ E2), Rmult_0_l, rnd_0, Rplus_0_l, rnd_0 in Hs. lra.
    + eapply Rle_trans; [apply K, unit_part_ge, E2|exact S2].
  - eapply Rle_trans; [apply K, unit_part_ge, E1|exact S1].
Qed.

Lemma cst_bound s X std c : / 2 ^ 127 <= s -> s < 1 -> 0 <= std <= 1 ->
  X = rnd (rnd (- 2 * lnf s) / s) -> c = rnd (std * rnd (sqrt X)) ->
  forall u, (1 - e) * (1 - e) * (u * u) <= s -> Rabs (rnd (rnd (u * c) + 0)) <= 27 / 2 * std + 8 * tau.
Proof.
  intros Hs Hs1 [Hstd Hstd1] EX Ec u Hu. pose proof tau_small as [T0 _]. pose proof (tau_le 20 ltac:(lia)) as T1.
  assert (tau <= / 1000) as T2 by (eapply Rle_trans; [exact T1|]; apply Rinv_le_contravar; [lra|]; replace (2 ^ 20) with 1048576 by (cbn; lra); lra). clear T1.
  assert (0 < / 2 ^ 127) as Hp by (apply Rinv_0_lt_compat, pow_lt; lra). assert (0 < s) as Hs0 by lra.
  set (L := - ln s). assert (0 < L) as HL0 by (unfold L; pose proof (ln_increasing s 1 Hs0 Hs1); rewrite ln_1 in *; lra).
  assert (L <= 889 / 10) as HL.
  { assert (ln (/ 2 ^ 127) <= ln s) as H by (destruct Hs as [Hs | <-]; [left; apply ln_increasing; assumption|lra]).
    rewrite ln_pow2 in H. replace (INR 127) with 127 in H by (rewrite INR_IZR_INZ; reflexivity). pose proof ln2_le. unfold L. lra. }
  pose proof (n_ln s Hs0) as H1. rewrite (Rabs_left1 (ln s)) in H1 by (unfold L in HL0; lra). fold L in H1.
  assert (0 <= - 2 * lnf s <= 2 * ((1 + e) * L)) as [H2 H3].
  { assert (e < 1) as He by (unfold e; lra). assert (e * L <= L) by nra. unfold Rabs in H1. destruct (Rcase_abs (lnf s - ln s)) in H1; unfold L in *; split; lra. }
  destruct (pos_up _ H2) as [Hy H4]. assert (0 < / s) as His by (apply Rinv_0_lt_compat; exact Hs0).
  assert (0 < e < 1) as He by (unfold e; lra).
  set (y := rnd (- 2 * lnf s)) in *.
  assert (y <= 2 * ((1 + e) * (1 + e) * L) + tau) as Hy2 by (eapply Rle_trans; [exact H4|]; assert ((1 + e) * (- 2 * lnf s) <= (1 + e) * (2 * ((1 + e) * L))) by (apply Rmult_le_compat_l; lra); lra).
  assert (0 <= y / s) as Hys by (apply Rmult_le_pos; lra). destruct (pos_up _ Hys) as [HX X2]. rewrite <- EX in HX, X2.
  (* X s is bounded *)
  assert (X * s <= 2 * ((1 + e) * (1 + e) * (1 + e) * L) + 4 * tau) as HXs.
  { assert (X * s <= ((1 + e) * (y / s) + tau) * s) as H by (apply Rmult_le_compat_r; lra). replace (((1 + e) * (y / s) + tau) * s) with ((1 + e) * y + tau * s) in H by (field; lra).
    assert ((1 + e) * y <= (1 + e) * (2 * ((1 + e) * (1 + e) * L) + tau)) as H5 by (apply Rmult_le_compat_l; lra).
    assert (tau * s <= tau * 1) as H6 by (apply Rmult_le_compat_l; lra). unfold e10 in *. lra. }
  pose proof (sqrt_pos X) as HqX. destruct (pos_up _ HqX) as [Hr0 R2].
  assert (0 <= std * rnd (sqrt X)) as Hc0 by (apply Rmult_le_pos; assumption). destruct (pos_up _ Hc0) as [Hc C2]. rewrite <- Ec in Hc, C2.
  assert (c <= (1 + e) * (1 + e) * (std * sqrt X) + 5 / 2 * tau) as Hcb.
  { eapply Rle_trans; [exact C2|]. assert (std * rnd (sqrt X) <= std * ((1 + e) * sqrt X + tau)) as H5 by (apply Rmult_le_compat_l; assumption).
    assert (std * tau <= 1 * tau) as H6 by (apply Rmult_le_compat_r; lra).
    replace (std * ((1 + e) * sqrt X + tau)) with ((1 + e) * (std * sqrt X) + std * tau) in H5 by ring.
    assert ((1 + e) * (std * rnd (sqrt X)) <= (1 + e) * ((1 + e) * (std * sqrt X) + 1 * tau)) as H7 by (apply Rmult_le_compat_l; lra). unfold e10 in *. lra. }
  rewrite Rplus_0_r. pose proof (abs_up (rnd (u * c))) as O1. pose proof (abs_up (u * c)) as O2.
  rewrite Rabs_mult, (Rabs_pos_eq c Hc) in O2. pose proof (Rabs_pos u) as Hau.
  assert (Rabs u <= 102 / 100) as Hu1.
  { apply abs_le_sqr; [exact Hau|lra|]. replace (Rabs u * Rabs u) with (u * u) by (rewrite <- Rabs_mult, (Rabs_pos_eq (u * u)) by nra; reflexivity).
    generalize dependent (u * u). clear - Hs1. intros uu Hu. unfold e10 in Hu. lra. }
  assert (Rabs (rnd (rnd (u * c))) <= (1 + e) * (1 + e) * (Rabs u * c) + 5 / 2 * tau) as O3.
  { eapply Rle_trans; [exact O1|]. assert ((1 + e) * Rabs (rnd (u * c)) <= (1 + e) * ((1 + e) * (Rabs u * c) + tau)) as H5 by (apply Rmult_le_compat_l; lra).
    unfold e10 in *. lra. }
  assert (Rabs u * c <= (1 + e) * (1 + e) * (std * (Rabs u * sqrt X)) + 3 * tau) as O4.
  { eapply Rle_trans; [apply Rmult_le_compat_l; [exact Hau|exact Hcb]|].
    assert (Rabs u * tau <= 102 / 100 * tau) as H5 by (apply Rmult_le_compat_r; lra). lra. }
  assert (0 <= Rabs u * sqrt X) as O5 by (apply Rmult_le_pos; assumption).
  (* the square of |u| sqrt X *)
  set (z := Rabs u * sqrt X) in *.
  assert ((1 - e) * (1 - e) * (z * z) <= 2 * ((1 + e) * (1 + e) * (1 + e) * L) + 4 * tau) as Hz.
  { replace (z * z) with (u * u * X).
    - eapply Rle_trans; [|exact HXs]. rewrite <- Rmult_assoc, (Rmult_comm X s). apply Rmult_le_compat_r; assumption.
    - unfold z. replace (Rabs u * sqrt X * (Rabs u * sqrt X)) with (Rabs u * Rabs u * (sqrt X * sqrt X)) by ring. rewrite sqrt_sqrt by exact HX.
      rewrite <- Rabs_mult, (Rabs_pos_eq (u * u)) by nra. reflexivity. }
  set (g := (1 + e) * (1 + e) * ((1 + e) * (1 + e))) in *.
  assert (Rabs (rnd (rnd (u * c))) <= g * (std * z) + 8 * tau) as O6.
  { eapply Rle_trans; [exact O3|]. assert ((1 + e) * (1 + e) * (Rabs u * c) <= (1 + e) * (1 + e) * ((1 + e) * (1 + e) * (std * z) + 3 * tau)) as H5 by (apply Rmult_le_compat_l; [apply Rmult_le_pos; lra|exact O4]).
    unfold g. clear - H5 T0. unfold e10 in *. lra. }
  eapply Rle_trans; [exact O6|]. apply Rplus_le_compat_r. assert (g * z <= 27 / 2) as O7.
  { assert (0 <= g) as Hg by (unfold g, e10; lra). assert (0 <= g * z) as Hgz by (apply Rmult_le_pos; assumption).
    apply abs_le_sqr; [exact Hgz|lra|]. assert (z * z <= 179) as Hzz.
    { generalize dependent (z * z). clear - HL T2. clearbody L. intros zz Hz. unfold e10 in Hz. lra. }
    assert (g * g <= 101 / 100) as Hgg by (unfold g, e10; lra). replace (g * z * (g * z)) with (g * g * (z * z)) by ring.
    assert (0 <= z * z) by nra. assert (g * g * (z * z) <= 101 / 100 * (179)) by (apply Rmult_le_compat; try assumption; nra). lra. }
  replace (g * (std * z)) with (g * z * std) by ring. apply Rmult_le_compat_r; assumption.
Qed.

Lemma gauss_bound std ws a b : 0 <= std <= 1 -> gauss fl lnf std ws = Some (a, b) -> Rabs a <= 27 / 2 * std + 8 * tau /\ Rabs b <= 27 / 2 * std + 8 * tau.
Proof.
  intros Hstd H. unfold gauss in H. destruct ws as [wu wv]. cbn [fst snd] in H.
  pose proof (s_floor wu wv) as Hf. cbv zeta in Hf, H. pose proof (s_ge (unit_part fl wu) (unit_part fl wv) (unit_sq wu) (unit_sq wv)) as [S1 S2].
  set (u := unit_part fl wu) in *. set (v := unit_part fl wv) in *. set (s := rnd (rnd (u * u) + rnd (v * v))) in *.
  destruct (Rlt_dec 0 s) as [H0|]; [|discriminate]. destruct (Rlt_dec s 1) as [H1|]; [|discriminate].
  apply (f_equal (fun o => match o with Some x => x | None => (a, b) end)) in H. cbv beta iota in H. apply pair_equal_spec in H. destruct H as [<- <-].
  split; (eapply cst_bound; [exact (Hf H0)|exact H1|exact Hstd|reflexivity|reflexivity|assumption]).
Qed.

(** Conversion to a word. *)
Lemma from_torus_rep x B : Rabs x <= B + 8 * tau -> 0 <= B <= / 4 - / 256 -> exists k, from_torus fl x = wrap k /\ (Z.abs k < 2 ^ 63 - 1)%Z /\
  (tau <= Rabs x -> (1 - e) * (1 - e) * (Rabs x * 2 ^ 64) - / 2 <= Rabs (IZR k)) /\ Rabs (IZR k) <= (1 + e) * (1 + e) * (B * 2 ^ 64) + / 2 + / 1000.
Proof.
  intros Hx HB. unfold from_torus. pose proof tau_small as [T0 _]. pose proof (tau_le 80 ltac:(lia)) as T80. pose proof two64_pos as H64.
  assert (tau * 2 ^ 64 <= / 16384) as T1.
  { eapply Rle_trans; [apply Rmult_le_compat_r; [lra|exact T80]|]. assert (/ 2 ^ 80 * 2 ^ 64 = / 65536) as ->; [|lra].
    replace (2 ^ 80) with (65536 * 2 ^ 64) by (cbn; ring). rewrite Rinv_mult, Rmult_assoc, Rinv_l by lra. lra. }
  assert (tau <= / 16384) as T2. { pose proof (tau_le 14 ltac:(lia)) as H. replace (2 ^ 14) with 16384 in H by (cbn; lra). exact H. }
  assert (fl_rint fl x = 0%Z) as E0.
  { pose proof (n_rint x) as H. assert (Rabs (IZR (fl_rint fl x)) < 1) as K.
    { pose proof (Rabs_triang (IZR (fl_rint fl x) - x) x) as T. replace (IZR (fl_rint fl x) - x + x) with (IZR (fl_rint fl x)) in T by ring. lra. }
    rewrite <- abs_IZR in K. apply lt_IZR in K. lia. }
  rewrite E0. rewrite Rminus_0_r. set (y := rnd x). set (z := rnd (y * 2 ^ 64)). set (k := fl_rint fl z).
  pose proof (abs_up x) as Hy. fold y in Hy. pose proof (abs_up (y * 2 ^ 64)) as Hz. fold z in Hz.
  rewrite Rabs_mult, (Rabs_pos_eq (2 ^ 64)) in Hz by lra. pose proof (n_rint z) as Hk. fold k in Hk.
  assert (0 < e < 1) as He by (unfold e; lra).
  assert (Rabs z <= (1 + e) * (1 + e) * (B * 2 ^ 64) + / 1000) as Hzb.
  { eapply Rle_trans; [exact Hz|]. assert (Rabs y <= (1 + e) * B + 10 * tau) as H1.
    { assert ((1 + e) * Rabs x <= (1 + e) * (B + 8 * tau)) by (apply Rmult_le_compat_l; lra). unfold e10 in *. lra. }
    assert (Rabs y * 2 ^ 64 <= ((1 + e) * B + 10 * tau) * 2 ^ 64) as H2 by (apply Rmult_le_compat_r; lra).
    replace (((1 + e) * B + 10 * tau) * 2 ^ 64) with ((1 + e) * (B * 2 ^ 64) + 10 * (tau * 2 ^ 64)) in H2 by ring.
    assert ((1 + e) * (Rabs y * 2 ^ 64) <= (1 + e) * ((1 + e) * (B * 2 ^ 64) + 10 * / 16384)) as H3 by (apply Rmult_le_compat_l; lra). 
    generalize dependent (B * 2 ^ 64). generalize dependent (Rabs y * 2 ^ 64). clear - T2 T0. intros a _ b H2 H3. unfold e10 in *. lra. }
  assert (tau <= Rabs x -> (1 - e) * (1 - e) * (Rabs x * 2 ^ 64) <= Rabs z) as Hzl.
  { intros Hl. destruct (rnd_abs x (or_intror Hl)) as [Hy' _]. fold y in Hy'. destruct (rnd_abs (y * 2 ^ 64)) as [Hz' _].
    - right. rewrite Rabs_mult, (Rabs_pos_eq (2 ^ 64)) by lra. assert (64 <= 2 ^ 64) as Hbig by (replace 64 with (2 ^ 6) by (cbn; ring); apply Rle_pow; [lra|lia]).
      assert (/ 2 * tau <= Rabs y) as H1 by (unfold e10 in *; lra). assert (/ 2 * tau * 64 <= Rabs y * 2 ^ 64) by (apply Rmult_le_compat; lra). lra.
    - fold z in Hz'. rewrite Rabs_mult, (Rabs_pos_eq (2 ^ 64)) in Hz' by lra.
      eapply Rle_trans; [|exact Hz']. rewrite Rmult_assoc. apply Rmult_le_compat_l; [lra|]. rewrite <- Rmult_assoc. apply Rmult_le_compat_r; [lra|exact Hy']. }
  assert (Rabs (IZR k) <= (1 + e) * (1 + e) * (B * 2 ^ 64) + / 2 + / 1000) as Hkb.
  { pose proof (Rabs_triang (IZR k - z) z) as T. replace (IZR k - z + z) with (IZR k) in T by ring. lra. }
  assert (Rabs z - / 2 <= Rabs (IZR k)) as Hkl.
  { pose proof (Rabs_triang (z - IZR k) (IZR k)) as T. replace (z - IZR k + IZR k) with z in T by ring. rewrite (Rabs_minus_sym z) in T. lra. }
  assert (Rabs (IZR k) < IZR (2 ^ 63 - 1)) as Hks.
  { eapply Rle_lt_trans; [exact Hkb|]. replace (IZR (2 ^ 63 - 1)) with (2 ^ 64 / 2 - 1).
    - assert (B * 2 ^ 64 <= / 4 * 2 ^ 64) as HB' by (apply Rmult_le_compat_r; lra).
      assert (0 <= (1 + e) * (1 + e)) as Hg0 by (unfold e10; lra). assert ((1 + e) * (1 + e) * (B * 2 ^ 64) <= 5 / 4 * (/ 4 * 2 ^ 64)) as H.
      { assert ((1 + e) * (1 + e) <= 5 / 4) as Hg by (unfold e10; lra). assert (0 <= B * 2 ^ 64) as Hp by (apply Rmult_le_pos; lra).
        apply Rmult_le_compat; lra. }
      assert (64 <= 2 ^ 64) as Hbig by (replace 64 with (2 ^ 6) by (cbn; ring); apply Rle_pow; [lra|lia]). lra.
    - change (2 ^ 63 - 1)%Z with (2 ^ Z.of_nat 63 - 1)%Z. rewrite minus_IZR, <- (pow_IZR 2 63). replace (2 ^ 64) with (2 * 2 ^ 63) by (cbn; ring). generalize (2 ^ 63). intros p. lra. }
  rewrite <- abs_IZR in Hks. apply lt_IZR in Hks. assert (saturate k = k) as Es by (unfold saturate; lia). rewrite Es.
  exists k. split; [reflexivity|]. split; [exact Hks|]. split; [|exact Hkb]. intros Hl. specialize (Hzl Hl). lra.
Qed.
Lemma from_torus_small x B : Rabs x <= B + 8 * tau -> 0 <= B <= / 4 - / 256 -> (IZR (nrm (from_torus fl x)) <= (1 + e) * (1 + e) * (B * 2 ^ 64) + / 2 + / 1000)%R.
Proof.
  intros Hx HB. destruct (from_torus_rep x B Hx HB) as (k & -> & _ & _ & Hkb).
  eapply Rle_trans; [|exact Hkb]. rewrite <- abs_IZR. apply IZR_le. apply nrm_le. exact (wrap_eqm k).
Qed.
Lemma nrm_small k : (Z.abs k < 2 ^ 63)%Z -> nrm (wrap k) = Z.abs k.
Proof.
  intros H. rewrite (wrap_eqm k). unfold nrm. change q with (2 ^ 64)%Z.
  destruct (Z.leb_spec 0 k) as [Hp|Hn]; [rewrite Z.mod_small by lia; lia|].
  replace k with (k + 2 ^ 64 + (-1) * 2 ^ 64)%Z at 1 by ring. replace k with (k + 2 ^ 64 + (-1) * 2 ^ 64)%Z at 2 by ring. rewrite Z_mod_plus_full, Z.mod_small by lia. lia.
Qed.

(** *** How large the noise can get: the pair of words (1, 0). *)
Lemma tail std : / 2 ^ 64 <= std -> exists a b, gauss fl lnf std (1%Z, 0%Z) = Some (a, b) /\ 10 * std <= Rabs a.
Proof.
  intros Hstd'. pose proof tau_small as [T0 _]. assert (0 < std) as Hstd0 by (eapply Rlt_le_trans; [|exact Hstd']; apply Rinv_0_lt_compat, pow_lt; lra).
  assert (0 <= std) as Hstd by lra. unfold gauss. cbn [fst snd]. rewrite (unit_part_0 0%Z eq_refl), Rmult_0_l, rnd_0, Rplus_0_r.
  set (u := unit_part fl 1%Z). assert (0 < e < 1) as He by (unfold e; lra).
  assert (0 < / 2 ^ 63) as Hp by (apply Rinv_0_lt_compat, pow_lt; lra).
  assert ((1 - e) * (1 - e) * / 2 ^ 63 <= u <= (1 + e) * (1 + e) * / 2 ^ 63) as [Ul Uu].
  { unfold u, unit_part. change (IZR (to_signed 1)) with 1. destruct (rnd_pos 1) as [A1 A2]; [pose proof (tau_le 0 ltac:(lia)) as T; change (2 ^ 0) with 1 in T; rewrite Rinv_1 in T; lra|].
    destruct (rnd_pos (rnd 1 * / 2 ^ 63)) as [A4 A5].
    { right. pose proof (tau_le 64 ltac:(lia)) as T. replace (/ 2 ^ 64) with (/ 2 * / 2 ^ 63) in T by (rewrite <- Rinv_mult; f_equal; cbn; ring).
      eapply Rle_trans; [exact T|]. apply Rmult_le_compat_r; [lra|]. unfold e10 in A1. lra. }
    split; [eapply Rle_trans; [|exact A4]|eapply Rle_trans; [exact A5|]]; rewrite Rmult_assoc; (apply Rmult_le_compat_l; [lra|]); apply Rmult_le_compat_r; lra. }
  set (p := / 2 ^ 63) in *.
  assert (0 < u) as Hu by (assert (0 < (1 - e) * (1 - e) * p) by (apply Rmult_lt_0_compat; [apply Rmult_lt_0_compat; lra|exact Hp]); lra).
  assert (2 * tau <= u * u) as Huu by (pose proof (unit_sq 1%Z) as H; fold u in H; nra). destruct (rnd_pos (u * u)) as [B1 B2]; [lra|].
  destruct (rnd_pos (rnd (u * u))) as [B4 B5]; [right; unfold e10 in B1; lra|]. set (s := rnd (rnd (u * u))) in *.
  assert ((1 - e) * (1 - e) * (u * u) <= s <= (1 + e) * (1 + e) * (u * u)) as [S1 S2].
  { split; [eapply Rle_trans; [|exact B4]|eapply Rle_trans; [exact B5|]]; rewrite Rmult_assoc; (apply Rmult_le_compat_l; [lra|assumption]). }
  assert (0 < s) as Hs0.
  { eapply Rlt_le_trans; [|exact S1]. apply Rmult_lt_0_compat; [apply Rmult_lt_0_compat; lra|]. apply Rmult_lt_0_compat; exact Hu. }
  assert (s <= / 2 ^ 125) as Hs.
  { assert (/ 2 ^ 125 = 2 * (p * p)) as ->.
    { unfold p. replace (2 ^ 63) with (2 * 2 ^ 62) by (cbn; ring). replace (2 ^ 125) with (2 * (2 ^ 62 * 2 ^ 62)) by (cbn; ring).
      assert (2 ^ 62 <> 0) by (apply pow_nonzero; lra). field; assumption. }
    set (g := (1 + e) * (1 + e)) in *. assert (u * u <= (g * p) * (g * p)) as H by (apply Rmult_le_compat; lra).
    assert (0 <= g) as Hg by (unfold g, e10; lra). assert (g * (u * u) <= g * ((g * p) * (g * p))) as H' by (apply Rmult_le_compat_l; assumption).
    replace (g * (g * p * (g * p))) with (g * (g * g) * (p * p)) in H' by ring. assert (g * (g * g) <= 2) as Hg3 by (unfold g, e10; lra).
    assert (g * (g * g) * (p * p) <= 2 * (p * p)) by (apply Rmult_le_compat_r; [nra|exact Hg3]). lra. }
  assert (s < 1) as Hs1.
  { eapply Rle_lt_trans; [exact Hs|]. rewrite <- Rinv_1. apply Rinv_lt_contravar; [rewrite Rmult_1_l; apply pow_lt; lra|]. apply (Rlt_pow_R1 2 125); [lra|lia]. }
  destruct (Rlt_dec 0 s) as [_|N]; [|contradiction]. destruct (Rlt_dec s 1) as [_|N]; [|contradiction].
  eexists. eexists. split; [reflexivity|].
  set (L := - ln s). assert (125 / 2 <= L) as HL.
  { assert (ln s <= ln (/ 2 ^ 125)) as H by (destruct Hs as [Hs | ->]; [left; apply ln_increasing; assumption|lra]).
    rewrite ln_pow2 in H. replace (INR 125) with 125 in H by (rewrite INR_IZR_INZ; reflexivity). pose proof ln2_ge. unfold L. lra. }
  pose proof (n_ln s Hs0) as H1. rewrite (Rabs_left1 (ln s)) in H1 by (unfold L in HL; lra). fold L in H1.
  assert (2 * ((1 - e) * L) <= - 2 * lnf s) as H2.
  { unfold Rabs in H1. destruct (Rcase_abs (lnf s - ln s)) in H1; unfold L in *; lra. }
  assert (0 < (1 - e) * L) as H0 by (apply Rmult_lt_0_compat; lra).
  set (l2 := - 2 * lnf s) in *. assert (tau <= 1) as T1 by (pose proof (tau_le 0 ltac:(lia)) as T; change (2 ^ 0) with 1 in T; rewrite Rinv_1 in T; lra).
  destruct (rnd_pos l2) as [D1 _]; [right; unfold e10 in H2; lra|]. set (y := rnd l2) in *.
  assert ((1 - e) * (2 * ((1 - e) * L)) <= y) as D2 by (eapply Rle_trans; [apply Rmult_le_compat_l; [lra|exact H2]|exact D1]).
  assert (0 < y) as Hy by (assert (0 < (1 - e) * (2 * ((1 - e) * L))) by (apply Rmult_lt_0_compat; lra); lra).
  assert (0 < / s) as His by (apply Rinv_0_lt_compat; exact Hs0). assert (0 <= y / s) as Hys by (apply Rmult_le_pos; lra).
  destruct (rnd_pos (y / s)) as [X1 _].
  { right. assert (1 <= / s) as H by (rewrite <- Rinv_1; apply Rinv_le_contravar; lra). assert (1 <= y) as H' by (clearbody L; unfold e10 in D2; lra).
    assert (1 * 1 <= y * / s) by (apply Rmult_le_compat; lra). unfold Rdiv. lra. }
  set (X := rnd (y / s)) in *. assert (0 <= X) as HX by (assert (0 <= (1 - e) * (y / s)) by (apply Rmult_le_pos; lra); lra).
  assert (120 <= X * s) as HXs.
  { assert ((1 - e) * (y / s) * s <= X * s) as H by (apply Rmult_le_compat_r; lra). replace ((1 - e) * (y / s) * s) with ((1 - e) * y) in H by (field; lra).
    assert ((1 - e) * ((1 - e) * (2 * ((1 - e) * L))) <= (1 - e) * y) as H' by (apply Rmult_le_compat_l; lra).
    clearbody L. unfold e10 in *. lra. }
  pose proof (sqrt_pos X) as HqX. assert (1 <= sqrt X) as HqX1.
  { rewrite <- sqrt_1. apply sqrt_le_1_alt. assert (X * s <= X * 1) by (apply Rmult_le_compat_l; lra). lra. }
  destruct (rnd_pos (sqrt X)) as [R1 _]; [lra|].
  assert (/ 2 <= rnd (sqrt X)) as Hr0 by (unfold e10 in R1; lra).
  assert (/ 2 ^ 65 <= std * rnd (sqrt X)) as Hc0.
  { replace (/ 2 ^ 65) with (/ 2 ^ 64 * / 2) by (rewrite <- Rinv_mult; f_equal; cbn; ring). apply Rmult_le_compat; try assumption; [|lra]. left. apply Rinv_0_lt_compat, pow_lt. lra. }
  pose proof (tau_le 65 ltac:(lia)) as T65. destruct (rnd_pos (std * rnd (sqrt X))) as [C1 _]; [lra|]. set (c := rnd (std * rnd (sqrt X))) in *.
  assert ((1 - e) * (1 - e) * (std * sqrt X) <= c) as Hcb.
  { eapply Rle_trans; [|exact C1]. rewrite Rmult_assoc. apply Rmult_le_compat_l; [lra|]. replace ((1 - e) * (std * sqrt X)) with (std * ((1 - e) * sqrt X)) by ring.
    apply Rmult_le_compat_l; assumption. }
  assert (0 <= c) as Hc by (assert (0 <= (1 - e) * (1 - e) * (std * sqrt X)) by (apply Rmult_le_pos; apply Rmult_le_pos; lra); lra).
  assert (0 <= u * c) as Huc by (apply Rmult_le_pos; lra).
  assert (2 * tau <= u * c) as Huc2.
  { assert (/ 2 ^ 66 <= c) as Hc66 by (replace (/ 2 ^ 66) with (/ 2 * / 2 ^ 65) by (rewrite <- Rinv_mult; f_equal; cbn; ring); unfold e10 in C1; lra).
    assert (/ 2 ^ 64 <= u) as Hu64 by (replace (/ 2 ^ 64) with (/ 2 * p) by (unfold p; rewrite <- Rinv_mult; f_equal; cbn; ring); unfold e10 in Ul; lra).
    assert (/ 2 ^ 64 * / 2 ^ 66 <= u * c) as K by (apply Rmult_le_compat; try assumption; left; apply Rinv_0_lt_compat, pow_lt; lra).
    pose proof (tau_le 131 ltac:(lia)) as T. replace (/ 2 ^ 131) with (/ 2 * (/ 2 ^ 64 * / 2 ^ 66)) in T by (rewrite <- !Rinv_mult; f_equal; cbn; ring). lra. }
  rewrite Rplus_0_r. destruct (rnd_abs (u * c)) as [O2 _]; [right; rewrite (Rabs_pos_eq (u * c) Huc); lra|].
  rewrite (Rabs_pos_eq (u * c) Huc) in O2. destruct (rnd_abs (rnd (u * c))) as [O1 _]; [right; unfold e10 in O2; lra|].
  eapply Rle_trans; [|exact O1]. assert ((1 - e) * ((1 - e) * (u * c)) <= (1 - e) * Rabs (rnd (u * c))) as O3 by (apply Rmult_le_compat_l; lra).
  eapply Rle_trans; [|exact O3]. assert (u * ((1 - e) * (1 - e) * (std * sqrt X)) <= u * c) as O4 by (apply Rmult_le_compat_l; lra).
  set (z := u * sqrt X). assert (0 <= z) as Hz0 by (apply Rmult_le_pos; lra).
  assert (21 / 2 <= z) as Hz.
  { apply abs_le_sqr; [lra|exact Hz0|]. replace (z * z) with (u * u * X) by (unfold z; replace (u * sqrt X * (u * sqrt X)) with (u * u * (sqrt X * sqrt X)) by ring; rewrite sqrt_sqrt by exact HX; reflexivity).
    assert (X * s <= X * ((1 + e) * (1 + e) * (u * u))) as H by (apply Rmult_le_compat_l; assumption).
    replace (X * ((1 + e) * (1 + e) * (u * u))) with ((1 + e) * (1 + e) * (u * u * X)) in H by ring. generalize dependent (u * u * X). intros t H. unfold e10 in H. lra. }
  replace (u * ((1 - e) * (1 - e) * (std * sqrt X))) with ((1 - e) * (1 - e) * (std * z)) in O4 by (unfold z; ring).
  assert ((1 - e) * ((1 - e) * ((1 - e) * (1 - e) * (std * z))) <= (1 - e) * ((1 - e) * (u * c))) as O5 by (do 2 (apply Rmult_le_compat_l; [lra|]); exact O4).
  eapply Rle_trans; [|exact O5]. assert (std * (21 / 2) <= std * z) as O6 by (apply Rmult_le_compat_l; assumption). assert (0 <= std * z) by (apply Rmult_le_pos; assumption).
  generalize dependent (std * z). intros t _ _ O6 Ht. unfold e10. lra.
Qed.
Lemma tail_word std : 14 * std <= / 4 -> / 2 ^ 64 <= std ->
  exists a b, gauss fl lnf std (1%Z, 0%Z) = Some (a, b) /\ 8 * (std * 2 ^ 64) < IZR (nrm (from_torus fl a)).
Proof.
  intros Hsm Hlarge. destruct (tail std Hlarge) as (a & b & E & Ha). exists a, b. split; [exact E|].
  assert (0 < / 2 ^ 64) as Hp by (apply Rinv_0_lt_compat, pow_lt; lra).
  destruct (gauss_bound std _ a b ltac:(lra) E) as [Hb _]. destruct (from_torus_rep a _ Hb ltac:(lra)) as (k & -> & Hk & Hkl & _).
  pose proof (tau_le 64 ltac:(lia)) as T64. specialize (Hkl ltac:(lra)).
  rewrite nrm_small by lia. rewrite abs_IZR. eapply Rlt_le_trans; [|exact Hkl]. pose proof two64_pos as H64.
  assert (1 <= std * 2 ^ 64) as H1. { replace 1 with (/ 2 ^ 64 * 2 ^ 64) by (field; lra). apply Rmult_le_compat_r; lra. }
  assert (10 * (std * 2 ^ 64) <= Rabs a * 2 ^ 64) as H2 by (rewrite <- Rmult_assoc; apply Rmult_le_compat_r; lra).
  generalize dependent (Rabs a * 2 ^ 64). generalize dependent (std * 2 ^ 64). intros p H1 r _ H2. unfold e10. lra.
Qed.
End Sampler.

Section Fill.
Variables (fl : float_ops) (lnf : R -> R).
Hypothesis Hops : noise_arithmetic fl lnf.
Variables (std : R) (E : Z).
Hypothesis (Hstd : 0 <= std) (Hsmall : 14 * std <= / 4) (HE : 14 * (std * 2 ^ 64) + / 2 <= IZR E).

Lemma value_ok x : Rabs x <= 27 / 2 * std + 8 * tau -> is_word (from_torus fl x) /\ (nrm (from_torus fl x) <= E)%Z.
Proof.
  intros H. split; [apply wrap_word|]. pose proof HE as HE'. pose proof (from_torus_small fl lnf Hops x (27 / 2 * std) H ltac:(lra)) as K.
  pose proof two64_pos as H64. assert (0 <= std * 2 ^ 64) as Hp by (apply Rmult_le_pos; lra).
  replace (27 / 2 * std * 2 ^ 64) with (27 / 2 * (std * 2 ^ 64)) in K by ring. revert HE' Hp K. generalize (std * 2 ^ 64). intros p HE' Hp K.
  destruct (Rle_dec (/ 100) p) as [Hl|Hl].
  - apply le_IZR. eapply Rle_trans; [exact K|]. unfold e10. lra.
  - assert (IZR (nrm (from_torus fl x)) < 1) as K1 by (unfold e10 in K; lra). apply lt_IZR in K1.
    assert (0 < IZR E) as K2 by lra. apply lt_IZR in K2. lia.
Qed.
Lemma pair_ok fuel : forall w a b w', gauss_pair fl lnf std fuel w = Some ((a, b), w') ->
  (is_word a /\ (nrm a <= E)%Z) /\ (is_word b /\ (nrm b <= E)%Z).
Proof.
  induction fuel as [|fuel IH]; cbn [gauss_pair]; intros w a b w' H; [discriminate|].
  destruct (gauss fl lnf std (w 0%nat)) as [[x y]|] eqn:Eg; [|exact (IH _ _ _ _ H)].
  destruct (gauss_bound fl lnf Hops std _ x y ltac:(lra) Eg) as [Hx Hy]. injection H as <- <- _. split; apply value_ok; assumption.
Qed.
Lemma fill_ok fuel : forall n w l w', fill_noise fl lnf std fuel n w = Some (l, w') ->
  length l = n /\ Forall (fun a => is_word a /\ (nrm a <= E)%Z) l.
Proof.
  assert (forall m n w l w', (n <= m)%nat -> fill_noise fl lnf std fuel n w = Some (l, w') -> length l = n /\ Forall (fun a => is_word a /\ (nrm a <= E)%Z) l) as K.
  { induction m as [|m IH]; intros n w l w' Hn H.
    - assert (n = 0)%nat as -> by lia. injection H as <- _. split; [reflexivity|constructor].
    - destruct n as [|[|n]]; cbn [fill_noise] in H.
      + injection H as <- _. split; [reflexivity|constructor].
      + destruct (gauss_pair fl lnf std fuel w) as [[[a b] w1]|] eqn:Ep; [|discriminate]. injection H as <- _. split; [reflexivity|]. constructor; [apply (pair_ok fuel w a b w1 Ep)|constructor].
      + destruct (gauss_pair fl lnf std fuel w) as [[[a b] w1]|] eqn:Ep; [|discriminate].
        destruct (fill_noise fl lnf std fuel n w1) as [[l' w2]|] eqn:Ef; [|discriminate]. injection H as <- _.
        destruct (IH n w1 l' w2 ltac:(lia) Ef) as [L F]. destruct (pair_ok fuel w a b w1 Ep) as [Ha Hb].
        split; [cbn; lia|]. constructor; [exact Ha|constructor; [exact Hb|exact F]]. }
  intros n w l w' H. exact (K n n w l w' (le_n n) H).
Qed.
Lemma generated_ok n e : generated fl lnf std n e -> wfp n e /\ bd n (tof e) E.
Proof.
  intros (fuel & w & w' & _ & H). destruct (fill_ok fuel n w e w' H) as [L F]. split.
  - split; [exact L|]. eapply Forall_impl; [|exact F]. intros a Ha. apply Ha.
  - intros k Hk. unfold tof. rewrite Forall_forall in F. apply (F (nth k e 0%Z)). apply nth_In. lia.
Qed.
End Fill.

(** The loop ends as soon as a pair is accepted. *)
Section Ends.
Variables (fl : float_ops) (lnf : R -> R) (std : R).
Definition accepted (ws : Z * Z) : Prop := gauss fl lnf std ws <> None.
Lemma pair_returns j : forall w, accepted (w j) -> exists r k, (k <= j)%nat /\ forall fuel, (j < fuel)%nat -> gauss_pair fl lnf std fuel w = Some (r, fun i => w (S k + i)%nat).
Proof.
  induction j as [|j IH]; intros w H.
  - unfold accepted in H. destruct (gauss fl lnf std (w 0%nat)) as [[a b]|] eqn:Eg; [|contradiction].
    exists (from_torus fl a, from_torus fl b), 0%nat. split; [lia|]. intros [|fuel] Hf; [lia|]. cbn [gauss_pair]. rewrite Eg. reflexivity.
  - destruct (gauss fl lnf std (w 0%nat)) as [[a b]|] eqn:Eg.
    + exists (from_torus fl a, from_torus fl b), 0%nat. split; [lia|]. intros [|fuel] Hf; [lia|]. cbn [gauss_pair]. rewrite Eg. reflexivity.
    + destruct (IH (fun i => w (S i)) H) as (r & k & Hk & Hr). exists r, (S k). split; [lia|]. intros [|fuel] Hf; [lia|]. cbn [gauss_pair]. rewrite Eg. rewrite Hr by lia. reflexivity.
Qed.
Lemma pair_mono fuel : forall fuel' w r, gauss_pair fl lnf std fuel w = Some r -> (fuel <= fuel')%nat -> gauss_pair fl lnf std fuel' w = Some r.
Proof.
  induction fuel as [|fuel IH]; intros fuel' w r H Hf; [discriminate|]. destruct fuel' as [|fuel']; [lia|]. cbn [gauss_pair] in *.
  destruct (gauss fl lnf std (w 0%nat)) as [[a b]|]; [exact H|]. apply (IH _ _ _ H). lia.
Qed.
Lemma fill_mono n : forall fuel fuel' w r, fill_noise fl lnf std fuel n w = Some r -> (fuel <= fuel')%nat -> fill_noise fl lnf std fuel' n w = Some r.
Proof.
  assert (forall m n, (n <= m)%nat -> forall fuel fuel' w r, fill_noise fl lnf std fuel n w = Some r -> (fuel <= fuel')%nat -> fill_noise fl lnf std fuel' n w = Some r) as K.
  { induction m as [|m IH]; intros n' Hn fuel fuel' w r H Hf.
    - assert (n' = 0)%nat as -> by lia. exact H.
    - destruct n' as [|[|n']]; cbn [fill_noise] in *; [exact H| |];
        (destruct (gauss_pair fl lnf std fuel w) as [[[a b] w1]|] eqn:Ep; [|discriminate]; rewrite (pair_mono _ _ _ _ Ep Hf)); [exact H|].
      destruct (fill_noise fl lnf std fuel n' w1) as [[l' w2]|] eqn:Ef; [|discriminate]. rewrite (IH n' ltac:(lia) _ _ _ _ Ef Hf). exact H. }
  exact (K n n (le_n n)).
Qed.
Lemma fill_returns n : forall w, (forall i, exists j, (i <= j)%nat /\ accepted (w j)) -> exists fuel l w', fill_noise fl lnf std fuel n w = Some (l, w').
Proof.
  assert (forall m n, (n <= m)%nat -> forall w, (forall i, exists j, (i <= j)%nat /\ accepted (w j)) -> exists fuel l w', fill_noise fl lnf std fuel n w = Some (l, w')) as K.
  { induction m as [|m IH]; intros n' Hn w H.
    - assert (n' = 0)%nat as -> by lia. exists 0%nat, [], w. reflexivity.
    - destruct (H 0%nat) as (j & _ & Hj). destruct (pair_returns j w Hj) as ([a b] & k & _ & Hr). specialize (Hr (S j) (le_n _)).
      destruct n' as [|[|n']].
      + exists 0%nat, [], w. reflexivity.
      + exists (S j). eexists. eexists. cbn [fill_noise]. rewrite Hr. reflexivity.
      + destruct (IH n' ltac:(lia) (fun i => w (S k + i)%nat)) as (fuel & l & w' & Hl).
        { intros i. destruct (H (S k + i)%nat) as (j' & Hj' & Ha). exists (j' - S k)%nat. split; [lia|]. replace (S k + (j' - S k))%nat with j' by lia. exact Ha. }
        exists (Nat.max (S j) fuel), (a :: b :: l), w'. cbn [fill_noise]. rewrite (pair_mono _ _ _ _ Hr (Nat.le_max_l _ _)), (fill_mono _ _ _ _ _ Hl (Nat.le_max_r _ _)). reflexivity. }
  exact (K n n (le_n n)).
Qed.
End Ends.
