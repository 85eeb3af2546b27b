(** From the Fourier domain back to words. *)
From Coq Require Import Reals Lra Lia.
From Verif Require Import MBase MPoly MFft SpecRing SpecLwe PolyRing PfDecomp SpecFft PfFft1 PfFft2 PfFft3.
Local Open Scope R_scope.
Add Ring C_ring4 : C_ring.

(** The sum of products of the signed representatives: an integer polynomial. *)
Definition sp (p : poly) : P := fun i => to_signed (nth i p 0%Z).
Definition sexact (n : nat) (ts : fourier) : P := fold_right (fun ab acc => padd (pmul n (sp (fst ab)) (sp (snd ab))) acc) pzero ts.
Lemma sexact_fexact n ts : (0 < n)%nat -> peq n (sexact n ts) (fexact n ts).
Proof.
  intros Hn. unfold sexact, fexact. induction ts as [|ab ts IH]; cbn [fold_right]; [reflexivity|]. apply padd_proper; [|exact IH].
  assert (forall p, peq n (sp p) (tof p)) as E by (intros p k _; apply to_signed_eqm). rewrite (E (fst ab)), (E (snd ab)). reflexivity.
Qed.
Lemma two64_pos : 0 < 2 ^ 64. Proof. apply pow_lt. lra. Qed.
Lemma IZR_q : IZR q = 2 ^ 64. Proof. unfold q. rewrite (pow_IZR 2 64). reflexivity. Qed.
Lemma IZR_63 : IZR (2 ^ 63) = 2 ^ 63. Proof. rewrite (pow_IZR 2 63). reflexivity. Qed.
Lemma FT_sexact h ts k : (0 < h)%nat -> FT h (fun i => IZR (sexact (2 * h) ts i) * / 2 ^ 64) k = FV h ts k.
Proof.
  intros Hh. induction ts as [|[a b] ts IH].
  - unfold FV. cbn [fold_right]. rewrite <- (FT_0 h Hh k). apply FT_ext; [exact Hh|]. intros i _. unfold sexact, pzero. cbn [fold_right]. ring.
  - unfold FV in *. cbn [fold_right fst snd]. rewrite <- IH.
    assert (FT h (ta a) k = Cmul (RC (/ 2 ^ 64)) (FT h (fun i => IZR (sp a i)) k)) as Ea.
    { rewrite <- (FT_scal h Hh). apply FT_ext; [exact Hh|]. intros i _. unfold ta, torus_of, sp. ring. }
    assert (FT h (ia b) k = FT h (fun i => IZR (sp b i)) k) as Eb by (apply FT_ext; [exact Hh|reflexivity]). rewrite Ea, Eb.
    replace (Cmul (Cmul (RC (/ 2 ^ 64)) (FT h (fun i => IZR (sp a i)) k)) (FT h (fun i => IZR (sp b i)) k))
      with (Cmul (RC (/ 2 ^ 64)) (Cmul (FT h (fun i => IZR (sp a i)) k) (FT h (fun i => IZR (sp b i)) k))) by ring.
    rewrite <- (FT_pmul h Hh), <- (FT_scal h Hh), <- (FT_add h Hh). apply FT_ext; [exact Hh|]. intros i _.
    unfold sexact. cbn [fold_right fst snd]. unfold padd at 1. rewrite plus_IZR. ring.
Qed.

Section B.
Variables (fl : float_ops) (h : nat) (u nu w phi t : R) (D : Z) (T : R).
Hypothesis Hh : (0 < h)%nat.
Let n := (2 * h)%nat.
Hypothesis (Hu : 0 <= u) (Hnu : 0 <= nu) (Hw : 0 <= w) (Hphi : 0 <= phi) (Hpad : 0 <= t).
Hypothesis Hacc : accurate fl n u nu w phi t.
Hypothesis HD : (1 <= D)%Z.
Hypothesis HT : t <= T.

Lemma saturate_word x : is_word (wrap (saturate x)). Proof. apply wrap_word. Qed.
Lemma from_torus_err (x : R) : exists r : Z, (exists v : Z, from_torus fl x = wrap v /\
  Rabs (IZR (v + r * q) - x * 2 ^ 64) <= (1 + 4 * t) ^ 2 * (2 ^ 63 * ((1 + u) ^ 2 - 1)) + 3 / 2).
Proof.
  pose proof two64_pos as H64. pose proof (a_round fl h u nu w phi t Hacc) as Hr. pose proof (a_rint fl h u nu w phi t Hacc) as Hi.
  unfold from_torus. set (r := fl_rint fl x). set (f := x - IZR r). set (v := fl_rint fl (fl_round fl (fl_round fl f * 2 ^ 64))).
  exists r, (saturate v). split; [reflexivity|].
  pose proof (Hi x) as H1. fold r in H1. assert (Rabs f <= / 2) as Hf by (unfold f; rewrite <- Rabs_Ropp; replace (- (x - IZR r)) with (IZR r - x) by ring; exact H1).
  pose proof (round2 fl h u nu w phi t Hu Hpad Hacc f (2 ^ 64) (2 ^ 64) ltac:(lra) ltac:(apply pow_R1_Rle; lra)) as H2.
  set (e := (1 + u) ^ 2 - 1) in *. assert (0 <= e) as He by (unfold e; cbn; nra).
  assert (Rabs (f * 2 ^ 64) <= 2 ^ 63) as H3.
  { rewrite Rabs_mult, (Rabs_pos_eq (2 ^ 64)) by lra. replace (2 ^ 63) with (/ 2 * 2 ^ 64) by (cbn; field). apply Rmult_le_compat_r; lra. }
  pose proof (Hi (fl_round fl (fl_round fl f * 2 ^ 64))) as H4. fold v in H4.
  assert (e * (Rabs (f * 2 ^ 64) + 2 ^ 64 * t) <= (1 + 4 * t) ^ 2 * (2 ^ 63 * e)) as H5.
  { apply Rle_trans with (e * (2 ^ 63 * (1 + 2 * t))); [apply Rmult_le_compat_l; [exact He|]; replace (2 ^ 64) with (2 * 2 ^ 63) in * by (cbn; ring); lra|].
    replace (e * (2 ^ 63 * (1 + 2 * t))) with ((1 + 2 * t) * (2 ^ 63 * e)) by ring. apply Rmult_le_compat_r; [apply Rmult_le_pos; [left; apply pow_lt; lra|exact He]|]. cbn [pow]. nra. }
  set (W := (1 + 4 * t) ^ 2 * (2 ^ 63 * e)) in *.
  assert (Rabs (IZR v - f * 2 ^ 64) <= W + / 2) as H6.
  { replace (IZR v - f * 2 ^ 64) with ((IZR v - fl_round fl (fl_round fl f * 2 ^ 64)) + (fl_round fl (fl_round fl f * 2 ^ 64) - f * 2 ^ 64)) by ring.
    eapply Rle_trans; [apply Rabs_triang|]. lra. }
  replace (IZR (saturate v + r * q) - x * 2 ^ 64) with (IZR (saturate v) - f * 2 ^ 64) by (rewrite plus_IZR, mult_IZR, IZR_q; unfold f; ring).
  assert (0 <= W) as H7 by (unfold W; apply Rmult_le_pos; [apply pow_le; lra|apply Rmult_le_pos; [left; apply pow_lt; lra|exact He]]).
  apply Rabs_def2_le in H3 || (pose proof (Rle_abs (f * 2 ^ 64)); pose proof (Rle_abs (- (f * 2 ^ 64))) as H8; rewrite Rabs_Ropp in H8).
  pose proof (Rle_abs (IZR v - f * 2 ^ 64)) as H9. pose proof (Rle_abs (- (IZR v - f * 2 ^ 64))) as H10. rewrite Rabs_Ropp in H10.
  assert (IZR (2 ^ 63 - 1) = 2 ^ 63 - 1) as E1 by (rewrite minus_IZR, IZR_63; reflexivity).
  assert (IZR (- 2 ^ 63) = - 2 ^ 63) as E2 by (rewrite opp_IZR, IZR_63; reflexivity).
  apply Rabs_le. unfold saturate. destruct (Z.lt_ge_cases (2 ^ 63 - 1) v) as [L|L].
  - rewrite Z.min_l, Z.max_r by lia. rewrite E1. assert (2 ^ 63 <= v)%Z as L' by lia. apply IZR_le in L'. rewrite IZR_63 in L'. lra.
  - rewrite Z.min_r by lia. destruct (Z.lt_ge_cases v (- 2 ^ 63)) as [L2|L2].
    + rewrite Z.max_l by lia. rewrite E2. apply IZR_lt in L2. rewrite E2 in L2. lra.
    + rewrite Z.max_r by lia. lra.
Qed.

Let Gamma d := product_error u nu w phi d.
Lemma Gamma_eq d : 1 + Gamma d = (1 + nu) * (1 + w) * ((1 + phi) * ((1 + u) ^ d * (1 + ((1 + nu) *
   ((1 + ((1 + phi) * (1 + ((1 + ((1 + u) ^ 2 - 1)) * ((1 + nu) * (1 + w)) - 1)) - 1)) *
    (1 + ((1 + phi) * (1 + ((1 + ((1 + u) ^ 2 - 1)) * ((1 + nu) * (1 + w)) - 1)) - 1))) - 1)))).
Proof. unfold Gamma, product_error. rewrite pow_add. cbn [pow]. ring. Qed.

Lemma backward_err tr ts d j L : sums n tr ts d -> Forall (operand_ok h t D T) ts -> (j < h)%nat -> (length ts <= L)%nat -> (0 < L)%nat ->
  Cabs (Csub (fl_mul fl (fl_backward fl (n / 2) (fun k => fst (accumulate fl n tr ts k)) j) (fl_untwist fl n j))
             (folded h (fun i => IZR (sexact n ts i) * / 2 ^ 64) j))
  <= INR L * ((1 + 4 * T) ^ 2 * (INR n * / 2 * IZR D)) * Gamma d.
Proof.
  intros Ht Hok Hj HL HL0. pose proof (lt_0_INR h Hh) as H0.
  destruct (accumulate_err fl h u nu w phi t Hh Hu Hnu Hw Hphi Hpad Hacc D T HD HT tr ts d Ht Hok []) as [_ HA]. fold n in HA.
  pose proof (FV_size h t Hh D T HD ts Hok) as HF. fold n in HF. rewrite app_nil_r in HA. assert (n / 2 = h)%nat as Hd by exact (n_div h Hh). rewrite Hd.
  pose proof (M_ge h t Hh Hpad D T HD HT) as HMt. pose proof (M0_ge h Hh D HD) as HM1. fold n in HMt, HM1.
  set (v := fun k => fst (accumulate fl n tr ts k)) in *. set (M0 := INR n * / 2 * IZR D) in *. set (M := (1 + 4 * T) ^ 2 * M0) in *.
  assert (INR (length ts) <= INR L /\ 1 <= INR L) as [HLi HL1] by (split; [apply le_INR, HL|change 1 with (INR 1); apply le_INR; lia]).
  assert (0 <= INR h * M0 /\ 0 <= INR h * M) as [P0 P1] by (split; apply Rmult_le_pos; lra).
  set (B0 := INR L * (INR h * M0)). set (B := INR L * (INR h * M)) in *.
  assert (B0 + INR h * t <= B) as HB0.
  { unfold B0, B. assert (INR L * (INR h * (M0 + t)) <= INR L * (INR h * M)) by (apply Rmult_le_compat_l; [lra|]; apply Rmult_le_compat_l; lra).
    assert (0 <= INR h * t) as K2 by (apply Rmult_le_pos; lra). assert (INR h * t <= INR L * (INR h * t)) by nra. lra. }
  set (G := (1 + u) ^ d * _) in HA.
  assert (1 <= G) as HG by exact (g_pos u nu w phi Hu Hnu Hw Hphi d).
  assert (sumR h (fun k => Cabs (FV h ts k)) <= B0) as HF0. { eapply Rle_trans; [exact HF|]. unfold B0. apply Rmult_le_compat_r; assumption. }
  assert (sumR h (fun k => Cabs (Csub (v k) (FV h ts k))) <= B * (G - 1)) as HAB.
  { eapply Rle_trans; [exact HA|]. unfold B. apply Rmult_le_compat_r; [lra|]. apply Rmult_le_compat_r; [exact P1|exact HLi]. }
  assert (sumR h (fun k => Cabs (v k) + t) <= B * G) as HV.
  { apply Rle_trans with (sumR h (fun k => (Cabs (FV h ts k) + t) + Cabs (Csub (v k) (FV h ts k)))).
    - apply sumR_le. intros k _. pose proof (Cabs_near (v k) (FV h ts k) _ (Rle_refl _)). lra.
    - rewrite !sumR_plus, sumR_const. lra. }
  assert (Cabs (idft h (FV h ts) j) <= B0) as HI by (eapply Rle_trans; [apply idft_bound|exact HF0]).
  assert (Cabs (Csub (fl_backward fl h v j) (idft h (FV h ts) j)) <= (1 + phi) * (B * G) - B) as HBk.
  { eapply Rle_trans; [apply (Cabs_sub_tri _ (idft h v j))|].
    pose proof (a_backward fl h u nu w phi t Hh Hacc v j Hj) as A1. rewrite <- idft_sub.
    pose proof (idft_bound h (fun k => Csub (v k) (FV h ts k)) j) as A2.
    assert (phi * sumR h (fun k => Cabs (v k) + t) <= phi * (B * G)) by (apply Rmult_le_compat_l; assumption). lra. }
  assert (idft h (FV h ts) j = idft h (FT h (fun i => IZR (sexact n ts i) * / 2 ^ 64)) j) as EI.
  { unfold idft. apply sumC_ext. intros k _. rewrite <- (FT_sexact h ts k Hh). reflexivity. }
  rewrite <- (untwist h Hh _ j Hj), <- EI. fold n. set (z := idft h (FV h ts) j) in *. set (wj := Cmul (/ INR h, 0) (cis (- (PI * INR j / INR n)))).
  assert (Cabs wj = / INR h) as Ew.
  { unfold wj. rewrite Cabs_mul, Cabs_cis, Rmult_1_r. change (/ INR h, 0) with (RC (/ INR h)). rewrite Cabs_RC. apply Rabs_pos_eq. left. apply Rinv_0_lt_compat, H0. }
  eapply Rle_trans; [apply (mul_err (fl_mul fl) nu t z wj _ _ _ _ Hnu (a_mul fl h u nu w phi t Hacc) HBk (a_untwist fl h u nu w phi t Hh Hacc j Hj))|].
  rewrite Ew. pose proof (Cabs_pos z) as Hz.
  assert (0 < / INR h) as Hinv by (apply Rinv_0_lt_compat, H0).
  (* the bound grows with |z| <= B - h t *)
  assert (nu <= (1 + nu) * (1 + w) - 1) as Hnw by nra.
  set (K := (1 + phi) * (B * G) - B) in *.
  apply Rle_trans with ((1 + nu) * ((B + K) * (/ INR h + w / INR h)) - B * / INR h).
  { assert (INR h * t * / INR h * nu <= (B - Cabs z) * / INR h * ((1 + nu) * (1 + w) - 1)) as Hx.
    { apply Rmult_le_compat; [apply Rmult_le_pos; [apply Rmult_le_pos|]; lra|exact Hnu| |exact Hnw]. apply Rmult_le_compat_r; lra. }
    replace (INR h * t * / INR h * nu) with (nu * t) in Hx by (field; lra).
    unfold Rdiv. lra. }
  right. replace (B + K) with ((1 + phi) * (B * G)) by (unfold K; ring).
  assert (Gamma d = (1 + nu) * (1 + w) * ((1 + phi) * G) - 1) as -> by (pose proof (Gamma_eq d) as E; unfold G; lra).
  unfold B. field. lra.
Qed.

Lemma coefficient L d (y : R) (X : Z) eps :
  Rabs (y - IZR X * / 2 ^ 64) <= INR L * ((1 + 4 * T) ^ 2 * (INR n * / 2 * IZR D)) * Gamma d ->
  coefficient_error n D L u nu w phi T d <= IZR eps -> (nrm (from_torus fl y - X) <= eps)%Z.
Proof.
  intros Hy He. destruct (from_torus_err y) as (r & v & -> & Hv). pose proof two64_pos as H64.
  assert ((1 + 4 * t) ^ 2 * (2 ^ 63 * ((1 + u) ^ 2 - 1)) <= (1 + 4 * T) ^ 2 * (2 ^ 63 * ((1 + u) ^ 2 - 1))) as HTT.
  { apply Rmult_le_compat_r; [apply Rmult_le_pos; [apply pow_le; lra|cbn [pow]; nra]|]. cbn [pow]. nra. }
  assert (Rabs (IZR (v + r * q - X)) <= IZR eps) as H.
  { replace (IZR (v + r * q - X)) with ((IZR (v + r * q) - y * 2 ^ 64) + (y - IZR X * / 2 ^ 64) * 2 ^ 64) by (rewrite minus_IZR; field; lra).
    eapply Rle_trans; [apply Rabs_triang|]. rewrite (Rabs_mult (y - _)), (Rabs_pos_eq (2 ^ 64)) by lra.
    apply (Rmult_le_compat_r (2 ^ 64)) in Hy; [|lra]. unfold coefficient_error in He. fold (Gamma d) in He.
    replace (INR L * ((1 + 4 * T) ^ 2 * (INR n * / 2 * IZR D)) * Gamma d * 2 ^ 64) with ((1 + 4 * T) ^ 2 * (2 ^ 63 * (INR L * INR n * IZR D) * Gamma d)) in Hy by (cbn; field).
    lra. }
  rewrite <- abs_IZR in H. apply le_IZR in H. eapply Z.le_trans; [|exact H]. apply nrm_le. unfold wrap. apply eqm_alt.
  exists (- (v / q) - r)%Z. pose proof (Z.div_mod v q ltac:(unfold q; lia)). lia.
Qed.
End B.

Theorem float_fft_either fl shape h D L u nu w phi t T d eps :
  (0 < h)%nat -> 0 <= u -> 0 <= nu -> 0 <= w -> 0 <= phi -> 0 <= t -> t <= T -> (1 <= D)%Z -> (0 < L)%nat -> accurate fl (2 * h) u nu w phi t ->
  (forall ts, (length ts <= L)%nat -> sums (2 * h) (shape ts) ts d) ->
  coefficient_error (2 * h) D L u nu w phi T d <= IZR eps ->
  forall ts, (length ts <= L)%nat -> Forall (operand_ok h t D T) ts -> wfp (2 * h) (float_fft fl shape (2 * h) ts) /\ near (2 * h) (tof (float_fft fl shape (2 * h) ts)) (fexact (2 * h) ts) eps.
Proof.
  intros Hh Hu Hnu Hw Hphi Hpad HT HD HL0 Hacc Hshape He ts HL Hok2. set (n := (2 * h)%nat) in *.
  assert (n / 2 = h)%nat as Hd by exact (n_div h Hh).
  specialize (Hshape ts HL).
  unfold float_fft, backward_as_torus. rewrite Hd. set (v := fun k => fst (accumulate fl n (shape ts) ts k)).
  set (y := fun j => fl_mul fl (fl_backward fl h v j) (fl_untwist fl n j)).
  split.
  - split; [rewrite app_length, !map_length, !seq_length; unfold n; lia|]. apply Forall_app. split; apply Forall_map, Forall_forall; intros x _; apply wrap_word.
  - assert (forall k, (k < n)%nat -> (nrm (tof (map (fun j => from_torus fl (fst (y j))) (seq 0 h) ++ map (fun j => from_torus fl (snd (y j))) (seq 0 h)) k - sexact n ts k) <= eps)%Z) as K.
    { intros k Hk. unfold tof.
      assert (exists j, (j < h)%nat /\ ((k = j /\ nth k (map (fun j => from_torus fl (fst (y j))) (seq 0 h) ++ map (fun j => from_torus fl (snd (y j))) (seq 0 h)) 0%Z = from_torus fl (fst (y j))) \/
        (k = j + h /\ nth k (map (fun j => from_torus fl (fst (y j))) (seq 0 h) ++ map (fun j => from_torus fl (snd (y j))) (seq 0 h)) 0%Z = from_torus fl (snd (y j))))%nat) as (j & Hj & Hcase).
      { destruct (Nat.lt_ge_cases k h) as [L1|L1].
        - exists k. split; [exact L1|]. left. split; [reflexivity|]. rewrite app_nth1 by (rewrite map_length, seq_length; exact L1).
          rewrite (nth_indep _ _ (from_torus fl (fst (y 0%nat)))) by (rewrite map_length, seq_length; exact L1). rewrite (map_nth (fun j => from_torus fl (fst (y j)))), seq_nth by exact L1. reflexivity.
        - exists (k - h)%nat. assert (k - h < h)%nat as L2 by (unfold n in Hk; lia). split; [exact L2|]. right. split; [lia|].
          rewrite app_nth2 by (rewrite map_length, seq_length; exact L1). rewrite map_length, seq_length.
          rewrite (nth_indep _ _ (from_torus fl (snd (y 0%nat)))) by (rewrite map_length, seq_length; exact L2). rewrite (map_nth (fun j => from_torus fl (snd (y j)))), seq_nth by exact L2. reflexivity. }
      pose proof (backward_err fl h u nu w phi t D T Hh Hu Hnu Hw Hphi Hpad Hacc HD HT (shape ts) ts d j L Hshape Hok2 Hj HL HL0) as HB. fold n in HB. rewrite Hd in HB. fold v in HB. fold (y j) in HB.
      destruct Hcase as [[-> ->]|[-> ->]]; apply (coefficient fl h u nu w phi t D T Hh Hu Hpad Hacc HT L d); try exact He.
      - eapply Rle_trans; [|exact HB]. eapply Rle_trans; [|apply fst_le_Cabs]. right. reflexivity.
      - eapply Rle_trans; [|exact HB]. eapply Rle_trans; [|apply snd_le_Cabs]. right. reflexivity. }
    intros k Hk. unfold psub. pose proof (sexact_fexact n ts ltac:(unfold n; lia) k Hk) as E. rewrite <- E. apply K, Hk.
Qed.

Theorem float_fft_ok fl shape h D L u nu w phi t d eps :
  (0 < h)%nat -> 0 <= u -> 0 <= nu -> 0 <= w -> 0 <= phi -> 0 <= t -> (1 <= D)%Z -> (0 < L)%nat -> accurate fl (2 * h) u nu w phi t ->
  (forall ts, (length ts <= L)%nat -> sums (2 * h) (shape ts) ts d) ->
  coefficient_error (2 * h) D L u nu w phi t d <= IZR eps ->
  fft_ok (2 * h) (float_fft fl shape (2 * h)) D L eps.
Proof.
  intros Hh Hu Hnu Hw Hphi Hpad HD HL0 Hacc Hshape He ts HL Hok.
  apply (float_fft_either fl shape h D L u nu w phi t t d eps); try assumption; [lra|]. eapply Forall_impl; [|exact Hok]. intros ab (Wa & Wb & Sb). split; [exact Wa|]. split; [exact Wb|]. left. exact Sb.
Qed.
