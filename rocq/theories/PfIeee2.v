(** * IEEE arithmetic without overflow, with close tables and fused multiply-add, is arithmetic on reals with rounding. *)
From Coq Require Import Reals ZArith Lra Lia.
From Flocq Require Import Core IEEE754.BinarySingleNaN.
From Verif Require Import MBase MPoly MFft MIeee MIeee2 SpecFft SpecFft2 SpecDouble SpecIeee SpecIeee2 PfFft1 PfFft3 PfFft5 PfFft7 PfIeee.
Local Open Scope R_scope.

Lemma f_fma_rep x y z r s t e e' : (-1074 <= e + e' <= 1022)%Z -> rep x r e -> rep y s e' -> rep z t (e + e') -> rep (f_fma x y z) (binary64 (r * s + t)) (e + e' + 1).
Proof.
  intros He [[Fx <-] Bx] [[Fy <-] By] [[Fz <-] Bz].
  assert (Rabs (B2R x * B2R y) <= bp (e + e')) as B1 by (rewrite Rabs_mult, bpow_plus; apply Rmult_le_compat; auto using Rabs_pos).
  pose proof (bp_add_le _ _ _ B1 Bz) as B. pose proof (Bfma_correct 53 1024 _ _ mode_NE x y z Fx Fy Fz) as H. cbv zeta in H.
  rewrite (no_overflow _ (e + e' + 1)) in H by (try exact B; lia). destruct H as (H1 & H2 & _). split; [split; [exact H2|exact H1]|]. apply binary64_le; [lia|exact B].
Qed.
Lemma f_opp_rep x r e : rep x r e -> rep (Bopp x) (- r) e.
Proof. intros [[F E] B]. split; [split; [rewrite is_finite_Bopp; exact F|rewrite B2R_Bopp, E; reflexivity]|rewrite Rabs_Ropp; exact B]. Qed.
Lemma c_mul_of_rep kd x y r s e e' : (0 <= e + e' <= 1022)%Z -> crep x r e -> crep y s e' -> crep (c_mul_of kd x y) (rmul_of binary64 kd r s) (e + e' + 1).
Proof.
  intros He [A1 A2] [B1 B2]. destruct x as [xa xb], y as [ya yb], r as [ra rb], s as [sa sb]. cbn [fst snd] in *. unfold c_mul_of, rmul_of. destruct kd.
  - split; cbn [fst snd]; [apply f_sub_rep|apply f_add_rep]; try lia; apply f_mul_rep; auto; lia.
  - split; cbn [fst snd]; [unfold Rminus|]; apply f_fma_rep; auto; try lia; [apply f_opp_rep|]; apply f_mul_rep; auto; lia.
  - split; cbn [fst snd].
    + replace (binary64 (ra * sa) - rb * sb) with (- rb * sb + binary64 (ra * sa)) by ring. apply f_fma_rep; auto; try lia; [apply f_opp_rep; assumption|]. apply f_mul_rep; auto; lia.
    + replace (binary64 (ra * sb) + rb * sa) with (rb * sa + binary64 (ra * sb)) by ring. apply f_fma_rep; auto; try lia. apply f_mul_rep; auto; lia.
Qed.
Lemma close_rep z c w : finite z -> Cabs (Csub (value z) c) <= w -> Cabs c <= 1 -> w <= 1 -> crep z (value z) 1.
Proof.
  intros [F1 F2] H Hc Hw. pose proof (Cabs_near _ _ _ H) as HN.
  assert (Rabs (fst (value z)) <= 2 /\ Rabs (snd (value z)) <= 2) as [B1 B2] by (split; [eapply Rle_trans; [apply fst_le_Cabs|]; lra|eapply Rle_trans; [apply snd_le_Cabs|]; lra]).
  split; (split; [split; [assumption|reflexivity]|]); change (bp 1) with 2; assumption.
Qed.

(** The radix-2 transform multiplies the bound by eight in every stage. *)
Lemma radix2_rep kd w N : (forall i r, (r < 2 ^ i < N)%nat -> crep (w (2 ^ i)%nat r) (value (w (2 ^ i)%nat r)) 1) ->
  forall m x y e, (2 ^ m <= N)%nat -> (0 <= e)%Z -> (e + 3 * Z.of_nat m <= 1023)%Z -> (forall j, (j < 2 ^ m)%nat -> crep (x j) (y j) e) ->
  forall k, (k < 2 ^ m)%nat -> crep (k_radix2 kd w m x k) (radix2_with binary64 (rmul_of binary64 kd) (fun h r => value (w h r)) m y k) (e + 3 * Z.of_nat m).
Proof.
  intros Hw m. induction m as [|m IH]; intros x y e HN He Hm Hx k Hk.
  - cbn [k_radix2 radix2_with]. replace (e + 3 * Z.of_nat 0)%Z with e by lia. apply Hx. cbn. lia.
  - cbn [k_radix2 radix2_with]. cbv zeta. assert (2 ^ m <> 0)%nat as Hnz by (apply Nat.pow_nonzero; lia). cbn [Nat.pow] in Hk, HN, Hx.
    pose proof (Nat.mod_upper_bound k (2 ^ m) Hnz) as Hr.
    assert (crep (k_radix2 kd w m (fun j => x (2 * j)%nat) (k mod 2 ^ m)) (radix2_with binary64 (rmul_of binary64 kd) (fun h r => value (w h r)) m (fun j => y (2 * j)%nat) (k mod 2 ^ m)) (e + 3 * Z.of_nat m)) as Ev.
    { apply IH; try lia. intros j Hj. apply Hx. lia. }
    assert (crep (k_radix2 kd w m (fun j => x (2 * j + 1)%nat) (k mod 2 ^ m)) (radix2_with binary64 (rmul_of binary64 kd) (fun h r => value (w h r)) m (fun j => y (2 * j + 1)%nat) (k mod 2 ^ m)) (e + 3 * Z.of_nat m)) as Od.
    { apply IH; try lia. intros j Hj. apply Hx. lia. }
    assert (crep (w (2 ^ m)%nat (k mod 2 ^ m)%nat) (value (w (2 ^ m)%nat (k mod 2 ^ m)%nat)) 1) as Rw by (apply Hw; lia).
    pose proof (c_mul_of_rep kd _ _ _ _ 1 (e + 3 * Z.of_nat m) ltac:(lia) Rw Od) as Pr.
    apply (crep_mono _ _ _ (e + 3 * Z.of_nat m + 2)) in Ev; [|lia]. apply (crep_mono _ _ _ (e + 3 * Z.of_nat m + 2)) in Pr; [|lia].
    replace (e + 3 * Z.of_nat (S m))%Z with (e + 3 * Z.of_nat m + 2 + 1)%Z by lia.
    destruct (k <? 2 ^ m)%nat; [apply c_add_rep|apply c_sub_rep]; auto; lia.
Qed.

(** *** The whole computation. *)
Section Fft.
Context (kd : mul_kind) (T : tables) (m : nat) (w : R) (HT : close_tables T (2 * 2 ^ m) w) (Hw1 : w <= 1).
Notation n := (2 * 2 ^ m)%nat.
Lemma f_integer_rep x : is_word x -> rep (f_integer x) (conv_integer (valued_machine kd T) x) 63.
Proof. intros H. exact (PfIeee.f_integer_rep x H). Qed.
Lemma f_torus_rep x : is_word x -> rep (f_torus x) (conv_torus (valued_machine kd T) x) 0.
Proof. intros H. exact (PfIeee.f_torus_rep x H). Qed.
Lemma cis_close z t : finite z /\ Cabs (Csub (value z) (cis t)) <= w -> crep z (value z) 1.
Proof. intros [F H]. apply (close_rep z (cis t) w); auto. rewrite Cabs_cis. lra. Qed.
Lemma forward_rep conv rconv e p : (forall x, is_word x -> rep (conv x) (rconv x) e) -> Forall is_word p -> (0 <= e)%Z -> (e + 2 + 3 * Z.of_nat m <= 1023)%Z ->
  forall k, (k < 2 ^ m)%nat -> crep (k_forward kd T n conv p k) (fl_forward (valued_machine kd T) (n / 2) (fold_twist (valued_machine kd T) n rconv p) k) (e + 2 + 3 * Z.of_nat m).
Proof.
  intros Hc Hp He Hb k Hk. unfold k_forward. cbn [valued_machine machine_with fl_forward]. rewrite (log_half m).
  apply (radix2_rep kd (t_forward T) n); [|lia|lia|lia| |exact Hk].
  - intros i r Hr. destruct HT as (_ & _ & H & _). eapply cis_close, H, Hr.
  - intros j Hj. unfold fold_twist. cbn [valued_machine machine_with fl_mul fl_twist]. replace (e + 2)%Z with (e + 1 + 1)%Z by lia.
    assert (forall i, is_word (nth i p 0%Z)) as Hword.
    { intros i. destruct (Nat.lt_ge_cases i (length p)); [rewrite Forall_forall in Hp; apply Hp, nth_In; assumption|]. rewrite nth_overflow by assumption. split; [lia|reflexivity]. }
    apply c_mul_of_rep; [lia|split; cbn [fst snd]; apply Hc, Hword|]. eapply cis_close. apply HT. rewrite (half m). exact Hj.
Qed.
Lemma accumulate_rep t : forall ts k, Forall (fun ab => Forall is_word (fst ab) /\ Forall is_word (snd ab)) ts -> (k < 2 ^ m)%nat ->
  (68 + 6 * Z.of_nat m + Z.of_nat (sum_depth t) <= 1023)%Z ->
  crep (fst (k_accumulate kd T n t ts k)) (fst (accumulate (valued_machine kd T) n t ts k)) (68 + 6 * Z.of_nat m + Z.of_nat (sum_depth t)) /\
  snd (k_accumulate kd T n t ts k) = snd (accumulate (valued_machine kd T) n t ts k) /\ Forall (fun ab => Forall is_word (fst ab) /\ Forall is_word (snd ab)) (snd (accumulate (valued_machine kd T) n t ts k)).
Proof.
  induction t as [| | |l IHl r IHr]; intros ts k Hts Hk Hd; cbn [sum_depth] in Hd |- *.
  - cbn. split; [apply c_zero_rep|auto].
  - destruct ts as [|[a b] ts]; [cbn; split; [apply c_zero_rep|auto]|]. inversion Hts as [|? ? [Ha Hb] Hts']; subst. cbn [k_accumulate accumulate fst snd] in *. split; [|auto].
    eapply crep_mono; [apply c_mul_of_rep; [|apply (forward_rep f_torus (conv_torus (valued_machine kd T)) 0); auto using f_torus_rep; lia|apply (forward_rep f_integer (conv_integer (valued_machine kd T)) 63); auto using f_integer_rep; lia]|]; lia.
  - destruct ts as [|[a b] ts]; [cbn; split; [apply c_zero_rep|auto]|]. inversion Hts as [|? ? [Ha Hb] Hts']; subst. cbn [k_accumulate accumulate fst snd] in *. split; [|auto].
    eapply crep_mono; [apply (forward_rep f_torus (conv_torus (valued_machine kd T)) 0); auto using f_torus_rep; lia|]; lia.
  - cbn [k_accumulate accumulate]. destruct (IHl ts k Hts Hk) as (L1 & L2 & L3); [lia|].
    destruct (k_accumulate kd T n l ts k) as [x ts1]. destruct (accumulate (valued_machine kd T) n l ts k) as [x' ts1']. cbn [fst snd] in L1, L2, L3. subst ts1'.
    destruct (IHr ts1 k L3 Hk) as (R1 & R2 & R3); [lia|].
    destruct (k_accumulate kd T n r ts1 k) as [y ts2]. destruct (accumulate (valued_machine kd T) n r ts1 k) as [y' ts2']. cbn [fst snd] in R1, R2, R3 |- *. subst ts2'.
    split; [|auto]. replace (68 + 6 * Z.of_nat m + Z.of_nat (S (Nat.max (sum_depth l) (sum_depth r))))%Z with (68 + 6 * Z.of_nat m + Z.of_nat (Nat.max (sum_depth l) (sum_depth r)) + 1)%Z by lia.
    apply c_add_rep; [lia|eapply crep_mono; [exact L1|lia]|eapply crep_mono; [exact R1|lia]].
Qed.
Lemma from_torus_rep x r e : (0 <= e <= 1022)%Z -> rep x r e -> f_from_torus x = from_torus (valued_machine kd T) r.
Proof. intros He H. exact (PfIeee.from_torus_rep x r e He H). Qed.
Lemma untwist_rep j : (j < 2 ^ m)%nat -> crep (t_untwist T n j) (fl_untwist (valued_machine kd T) n j) 1.
Proof.
  intros Hj. destruct HT as (_ & H & _). specialize (H j ltac:(rewrite (half m); exact Hj)) as [F H].
  assert (1 <= INR (n / 2)) as H1 by (rewrite (half m); apply (le_INR 1), Nat.neq_0_lt_0, Nat.pow_nonzero; lia).
  assert (0 < / INR (n / 2) <= 1) as Hi by (split; [apply Rinv_0_lt_compat; lra|]; rewrite <- Rinv_1; apply Rinv_le_contravar; lra).
  eapply close_rep; [exact F|exact H| |].
  - rewrite Cabs_mul, Cabs_cis. change (/ INR (n / 2), 0) with (RC (/ INR (n / 2))). rewrite Cabs_RC, Rabs_pos_eq; lra.
  - unfold Rdiv. destruct (Rle_lt_dec w 0); [|nra]. assert (w * / INR (n / 2) <= 0) by nra. lra.
Qed.
Lemma inverse_rep v y e : (0 <= e)%Z -> (e + 3 * Z.of_nat m + 2 <= 1022)%Z -> (forall k, (k < 2 ^ m)%nat -> crep (v k) (y k) e) ->
  forall j, (j < 2 ^ m)%nat -> crep (k_inverse kd T n v j) (fl_mul (valued_machine kd T) (fl_backward (valued_machine kd T) (n / 2) y j) (fl_untwist (valued_machine kd T) n j)) (e + 3 * Z.of_nat m + 2).
Proof.
  intros He Hb Hv j Hj. unfold k_inverse. cbn [valued_machine machine_with fl_backward fl_mul]. rewrite (log_half m).
  replace (e + 3 * Z.of_nat m + 2)%Z with (e + 3 * Z.of_nat m + 1 + 1)%Z by lia. apply c_mul_of_rep; [lia| |apply untwist_rep, Hj].
  apply (radix2_rep kd (t_backward T) n); [|lia|lia|lia|exact Hv|exact Hj].
  intros h r Hr. destruct HT as (_ & _ & _ & H). eapply cis_close, H, Hr.
Qed.
Lemma ieee_fft_real shape ts : Forall (fun ab => Forall is_word (fst ab) /\ Forall is_word (snd ab)) ts ->
  (70 + 9 * Z.of_nat m + Z.of_nat (sum_depth (shape ts)) <= 1022)%Z ->
  (forall j, (j < 2 ^ m)%nat -> let z := k_inverse kd T n (fun k => fst (k_accumulate kd T n (shape ts) ts k)) j in is_finite (fst z) = true /\ is_finite (snd z) = true) /\
  ieee_fft_of kd T shape n ts = float_fft (valued_machine kd T) shape n ts.
Proof.
  intros Hts Hd.
  assert (forall j, (j < 2 ^ m)%nat -> crep (k_inverse kd T n (fun k => fst (k_accumulate kd T n (shape ts) ts k)) j)
    (fl_mul (valued_machine kd T) (fl_backward (valued_machine kd T) (n / 2) (fun k => fst (accumulate (valued_machine kd T) n (shape ts) ts k)) j) (fl_untwist (valued_machine kd T) n j))
    (68 + 6 * Z.of_nat m + Z.of_nat (sum_depth (shape ts)) + 3 * Z.of_nat m + 2)) as H.
  { intros j Hj. apply inverse_rep; [lia|lia| |exact Hj]. intros k Hk. apply accumulate_rep; [exact Hts|exact Hk|lia]. }
  split; [intros j Hj; destruct (H j Hj) as [[[A _] _] [[B _] _]]; split; assumption|].
  unfold ieee_fft_of, float_fft, k_backward, backward_as_torus. f_equal; apply map_ext_in; intros j Hj; apply in_seq in Hj; rewrite (half m) in Hj; destruct (H j ltac:(lia)) as [A B]; eapply from_torus_rep; try eassumption; lia.
Qed.
End Fft.
