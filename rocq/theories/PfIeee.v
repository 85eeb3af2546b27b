(** * IEEE arithmetic without overflow is arithmetic on reals with rounding. *)
From Coq Require Import Reals ZArith Lra Lia.
From Flocq Require Import Core IEEE754.BinarySingleNaN.
From Verif Require Import MBase MPoly MFft MIeee SpecFft SpecDouble SpecIeee.
Local Open Scope R_scope.

Notation bp := (bpow Flocq.Core.Zaux.radix2).
#[local] Instance valid64 : Valid_exp (FLT_exp (-1074) 53).
Proof. apply FLT_exp_valid. reflexivity. Qed.

(** [x] is the number [r], of absolute value at most 2^e. *)
Definition rep (x : f64) (r : R) (e : Z) : Prop := number x r /\ Rabs r <= bp e.
Lemma rep_mono x r e e' : rep x r e -> (e <= e')%Z -> rep x r e'.
Proof. intros [H B] L. split; [exact H|]. eapply Rle_trans; [exact B|]. apply bpow_le, L. Qed.
Lemma format_pow e : (-1074 <= e)%Z -> generic_format Flocq.Core.Zaux.radix2 (FLT_exp (-1074) 53) (bp e).
Proof. intros H. apply generic_format_bpow. unfold FLT_exp. lia. Qed.
Lemma binary64_le x e : (-1074 <= e)%Z -> Rabs x <= bp e -> Rabs (binary64 x) <= bp e.
Proof. intros He H. unfold binary64. apply abs_round_le_generic; [apply valid64|typeclasses eauto|apply format_pow, He|exact H]. Qed.
Lemma no_overflow x e : (-1074 <= e <= 1023)%Z -> Rabs x <= bp e -> Rlt_bool (Rabs (round Flocq.Core.Zaux.radix2 (SpecFloat.fexp 53 1024) (round_mode mode_NE) x)) (bp 1024) = true.
Proof.
  intros [H1 H2] H. apply Rlt_bool_true. change (Rabs (binary64 x) < bp 1024). eapply Rle_lt_trans; [apply binary64_le; [exact H1|exact H]|]. apply bpow_lt. lia.
Qed.
Lemma bp_add_le a b e : Rabs a <= bp e -> Rabs b <= bp e -> Rabs (a + b) <= bp (e + 1).
Proof.
  intros H1 H2. eapply Rle_trans; [apply Rabs_triang|]. rewrite Z.add_comm, bpow_plus. change (bp 1) with 2. lra.
Qed.
Lemma f_add_rep x y r s e : (-1075 <= e <= 1022)%Z -> rep x r e -> rep y s e -> rep (f_add x y) (binary64 (r + s)) (e + 1).
Proof.
  intros He [[Fx <-] Bx] [[Fy <-] By]. pose proof (bp_add_le _ _ _ Bx By) as B. pose proof (Bplus_correct 53 1024 _ _ mode_NE x y Fx Fy) as H.
  rewrite (no_overflow _ (e + 1)) in H by (try exact B; lia). destruct H as (H1 & H2 & _). split; [split; [exact H2|exact H1]|]. apply binary64_le; [lia|exact B].
Qed.
Lemma f_sub_rep x y r s e : (-1075 <= e <= 1022)%Z -> rep x r e -> rep y s e -> rep (f_sub x y) (binary64 (r - s)) (e + 1).
Proof.
  intros He [[Fx <-] Bx] [[Fy <-] By]. assert (Rabs (B2R x - B2R y) <= bp (e + 1)) as B by (apply bp_add_le; [exact Bx|rewrite Rabs_Ropp; exact By]).
  pose proof (Bminus_correct 53 1024 _ _ mode_NE x y Fx Fy) as H.
  rewrite (no_overflow _ (e + 1)) in H by (try exact B; lia). destruct H as (H1 & H2 & _). split; [split; [exact H2|exact H1]|]. apply binary64_le; [lia|exact B].
Qed.
Lemma f_mul_rep x y r s e e' : (-1074 <= e + e' <= 1023)%Z -> rep x r e -> rep y s e' -> rep (f_mul x y) (binary64 (r * s)) (e + e').
Proof.
  intros He [[Fx <-] Bx] [[Fy <-] By].
  assert (Rabs (B2R x * B2R y) <= bp (e + e')) as B by (rewrite Rabs_mult, bpow_plus; apply Rmult_le_compat; auto using Rabs_pos).
  pose proof (Bmult_correct 53 1024 _ _ mode_NE x y) as H.
  rewrite (no_overflow _ (e + e')) in H by (try exact B; lia). destruct H as (H1 & H2 & _). rewrite Fx, Fy in H2. split; [split; [exact H2|exact H1]|]. apply binary64_le; [lia|exact B].
Qed.
Lemma normalize_rep mx ex e : (-1074 <= e <= 1023)%Z -> Rabs (F2R (Float Flocq.Core.Zaux.radix2 mx ex)) <= bp e ->
  rep (binary_normalize 53 1024 _ _ mode_NE mx ex false) (binary64 (F2R (Float Flocq.Core.Zaux.radix2 mx ex))) e.
Proof.
  intros He B. pose proof (binary_normalize_correct 53 1024 _ _ mode_NE mx ex false) as H. cbv zeta in H.
  rewrite (no_overflow _ e) in H by assumption. destruct H as (H1 & H2 & _). split; [split; [exact H2|exact H1]|]. apply binary64_le; [lia|exact B].
Qed.
Lemma f_of_int_rep x e : (0 <= e <= 1023)%Z -> (Z.abs x <= 2 ^ e)%Z -> rep (f_of_int x) (binary64 (IZR x)) e.
Proof.
  intros He B. replace (IZR x) with (F2R (Float Flocq.Core.Zaux.radix2 x 0)) by (unfold F2R; cbn [Fnum Fexp bpow]; ring). apply normalize_rep; [lia|].
  replace (F2R (Float Flocq.Core.Zaux.radix2 x 0)) with (IZR x) by (unfold F2R; cbn [Fnum Fexp bpow]; ring). rewrite <- abs_IZR, <- IZR_Zpower by lia. apply IZR_le, B.
Qed.
Lemma f_pow2_rep e : (-1074 <= e <= 1023)%Z -> rep (f_pow2 e) (bp e) e.
Proof.
  intros He. assert (F2R (Float Flocq.Core.Zaux.radix2 1 e) = bp e) as E by (unfold F2R; cbn [Fnum Fexp]; ring).
  assert (binary64 (bp e) = bp e) as R by (apply round_generic; [typeclasses eauto|apply format_pow; lia]).
  rewrite <- R at 1. rewrite <- E. apply normalize_rep; [exact He|]. rewrite E, Rabs_pos_eq by apply bpow_ge_0. lra.
Qed.
Lemma f_zero_rep e : rep f_zero 0 e.
Proof. split; [split; reflexivity|]. rewrite Rabs_R0. apply bpow_ge_0. Qed.
Lemma f_round_rep x r e : (0 <= e)%Z -> rep x r e -> rep (f_round x) (IZR (ZnearestA r)) e.
Proof.
  intros He [[Fx <-] B]. destruct (Bnearbyint_correct 53 1024 _ mode_NA x) as (H1 & H2 & _). rewrite Fx in H2. cbn [round_mode] in H1.
  assert (round Flocq.Core.Zaux.radix2 (FIX_exp 0) ZnearestA (B2R x) = IZR (ZnearestA (B2R x))) as E by apply round_FIX_IZR. rewrite E in H1.
  split; [split; [exact H2|exact H1]|]. rewrite <- E. apply abs_round_le_generic; [typeclasses eauto|typeclasses eauto| |exact B].
  apply generic_format_bpow. unfold FIX_exp. exact He.
Qed.
Lemma f_as_i64_rep x k e : rep x (IZR k) e -> f_as_i64 x = saturate k.
Proof.
  intros [[Fx E] _]. assert (Btrunc x = k) as T.
  { apply eq_IZR. rewrite (Btrunc_correct 53 1024 _), E, round_FIX_IZR, Ztrunc_IZR. reflexivity. }
  destruct x as [s|s| |s m ex B]; try discriminate Fx; unfold f_as_i64; [|rewrite T; reflexivity].
  cbn in T. subst k. reflexivity.
Qed.

(** Complex numbers. *)
Definition crep (z : c64) (w : cplx) (e : Z) : Prop := rep (fst z) (fst w) e /\ rep (snd z) (snd w) e.
Lemma crep_mono z w e e' : crep z w e -> (e <= e')%Z -> crep z w e'.
Proof. intros [A B] L. split; eapply rep_mono; eassumption. Qed.
Lemma c_add_rep x y r s e : (0 <= e <= 1022)%Z -> crep x r e -> crep y s e -> crep (c_add x y) (rpair binary64 (Cadd r s)) (e + 1).
Proof. intros He [A1 A2] [B1 B2]. split; cbn; apply f_add_rep; auto; lia. Qed.
Lemma c_sub_rep x y r s e : (0 <= e <= 1022)%Z -> crep x r e -> crep y s e -> crep (c_sub x y) (rpair binary64 (Csub r s)) (e + 1).
Proof. intros He [A1 A2] [B1 B2]. split; cbn; apply f_sub_rep; auto; lia. Qed.
Lemma c_mul_rep x y r s e e' : (0 <= e + e' <= 1022)%Z -> crep x r e -> crep y s e' -> crep (c_mul x y) (rmul binary64 r s) (e + e' + 1).
Proof.
  intros He [A1 A2] [B1 B2]. unfold c_mul, rmul. split; cbn [fst snd]; [apply f_sub_rep|apply f_add_rep]; try lia; apply f_mul_rep; auto; lia.
Qed.
Lemma c_zero_rep e : crep c_zero C0 e.
Proof. split; apply f_zero_rep. Qed.

Lemma cis_rep z t : rounds z (cis t) -> crep z (rpair binary64 (cis t)) 0.
Proof.
  intros [H1 H2]. split; (split; [assumption|]); cbn [fst snd rpair cis]; apply binary64_le; try lia; change (bp 0) with 1; apply Rabs_le; [pose proof (COS_bound t)|pose proof (SIN_bound t)]; lra.
Qed.

(** The radix-2 transform multiplies the bound by four in every stage. *)
Lemma radix2_rep w s N : (forall h r, (r < h < N)%nat -> rounds (w h r) (cis (s * (2 * PI * INR r / INR (2 * h))))) ->
  forall m x y e, (2 ^ m <= N)%nat -> (0 <= e)%Z -> (e + 2 * Z.of_nat m <= 1023)%Z -> (forall j, (j < 2 ^ m)%nat -> crep (x j) (y j) e) ->
  forall k, (k < 2 ^ m)%nat -> crep (c_radix2 w m x k) (SpecFft.radix2 binary64 s m y k) (e + 2 * Z.of_nat m).
Proof.
  intros Hw m. induction m as [|m IH]; intros x y e HN He Hm Hx k Hk.
  - cbn [c_radix2 SpecFft.radix2]. replace (e + 2 * Z.of_nat 0)%Z with e by lia. apply Hx. cbn. lia.
  - cbn [c_radix2 SpecFft.radix2]. cbv zeta. assert (2 ^ m <> 0)%nat as Hnz by (apply Nat.pow_nonzero; lia). cbn [Nat.pow] in Hk, HN, Hx.
    pose proof (Nat.mod_upper_bound k (2 ^ m) Hnz) as Hr.
    assert (crep (c_radix2 w m (fun j => x (2 * j)%nat) (k mod 2 ^ m)) (SpecFft.radix2 binary64 s m (fun j => y (2 * j)%nat) (k mod 2 ^ m)) (e + 2 * Z.of_nat m)) as Ev.
    { apply IH; try lia. intros j Hj. apply Hx. lia. }
    assert (crep (c_radix2 w m (fun j => x (2 * j + 1)%nat) (k mod 2 ^ m)) (SpecFft.radix2 binary64 s m (fun j => y (2 * j + 1)%nat) (k mod 2 ^ m)) (e + 2 * Z.of_nat m)) as Od.
    { apply IH; try lia. intros j Hj. apply Hx. lia. }
    assert (rounds (w (2 ^ m)%nat (k mod 2 ^ m)%nat) (cis (s * (2 * PI * INR (k mod 2 ^ m) / INR (2 * 2 ^ m))))) as Rw by (apply Hw; lia).
    pose proof (c_mul_rep _ _ _ _ 0 (e + 2 * Z.of_nat m) ltac:(lia) (cis_rep _ _ Rw) Od) as Pr.
    apply (crep_mono _ _ _ (e + 2 * Z.of_nat m + 1)) in Ev; [|lia]. apply (crep_mono _ _ _ (e + 2 * Z.of_nat m + 1)) in Pr; [|lia].
    replace (e + 2 * Z.of_nat (S m))%Z with (e + 2 * Z.of_nat m + 1 + 1)%Z by lia.
    destruct (k <? 2 ^ m)%nat; [apply c_add_rep|apply c_sub_rep]; auto; lia.
Qed.

(** *** The whole computation. *)
Section Fft.
Context (T : tables) (m : nat) (HT : rounded_tables T (2 * 2 ^ m)).
Notation n := (2 * 2 ^ m)%nat.
Lemma half : (n / 2 = 2 ^ m)%nat.
Proof. rewrite Nat.mul_comm. apply Nat.div_mul. lia. Qed.
Lemma log_half : Nat.log2 (n / 2) = m.
Proof. rewrite half. apply Nat.log2_pow2. lia. Qed.

Lemma signed_bound x : is_word x -> (Z.abs (to_signed x) <= 2 ^ 63)%Z.
Proof. unfold is_word, to_signed, q. intros H. destruct (Z.ltb_spec x (2 ^ 63)); lia. Qed.
Lemma f_integer_rep x : is_word x -> rep (f_integer x) (conv_integer real_machine x) 63.
Proof. intros H. apply f_of_int_rep; [lia|apply signed_bound, H]. Qed.
Lemma f_torus_rep x : is_word x -> rep (f_torus x) (conv_torus real_machine x) 0.
Proof.
  intros H. unfold f_torus, conv_torus, real_machine. cbn [fl_round machine]. replace (/ 2 ^ 64) with (bp (-64)).
  - apply (rep_mono _ _ (63 + -64)); [|lia]. apply f_mul_rep; [lia|apply f_of_int_rep; [lia|apply signed_bound, H]|apply f_pow2_rep; lia].
  - change (bp (-64)) with (/ IZR (Z.pow_pos 2 64)). f_equal. rewrite pow_IZR. reflexivity.
Qed.
Lemma forward_rep conv rconv e p : (forall x, is_word x -> rep (conv x) (rconv x) e) -> Forall is_word p -> (0 <= e)%Z -> (e + 1 + 2 * Z.of_nat m <= 1023)%Z ->
  forall k, (k < 2 ^ m)%nat -> crep (c_forward T n conv p k) (fl_forward real_machine (n / 2) (fold_twist real_machine n rconv p) k) (e + 1 + 2 * Z.of_nat m).
Proof.
  intros Hc Hp He Hb k Hk. unfold c_forward. cbn [real_machine fl_forward machine]. rewrite log_half.
  apply (radix2_rep (t_forward T) (-1) n); [|lia|lia|lia| |exact Hk].
  - intros h r Hr. destruct HT as (_ & _ & H & _). specialize (H h r Hr). replace (-1 * (2 * PI * INR r / INR (2 * h))) with (- (2 * PI * INR r / INR (2 * h))) by ring. exact H.
  - intros j Hj. unfold fold_twist. cbn [real_machine fl_mul machine fl_twist]. replace (e + 1)%Z with (e + 0 + 1)%Z by lia.
    assert (forall i, is_word (nth i p 0%Z)) as Hw.
    { intros i. destruct (Nat.lt_ge_cases i (length p)); [rewrite Forall_forall in Hp; apply Hp, nth_In; assumption|]. rewrite nth_overflow by assumption. split; [lia|reflexivity]. }
    apply c_mul_rep; [lia|split; cbn [fst snd]; apply Hc, Hw|]. apply cis_rep. apply HT. rewrite half. exact Hj.
Qed.
Lemma accumulate_rep t : forall ts k, Forall (fun ab => Forall is_word (fst ab) /\ Forall is_word (snd ab)) ts -> (k < 2 ^ m)%nat ->
  (66 + 4 * Z.of_nat m + Z.of_nat (sum_depth t) <= 1023)%Z ->
  crep (fst (c_accumulate T n t ts k)) (fst (accumulate real_machine n t ts k)) (66 + 4 * Z.of_nat m + Z.of_nat (sum_depth t)) /\
  snd (c_accumulate T n t ts k) = snd (accumulate real_machine n t ts k) /\ Forall (fun ab => Forall is_word (fst ab) /\ Forall is_word (snd ab)) (snd (accumulate real_machine n t ts k)).
Proof.
  induction t as [| | |l IHl r IHr]; intros ts k Hts Hk Hd; cbn [sum_depth] in Hd |- *.
  - cbn. split; [apply c_zero_rep|auto].
  - destruct ts as [|[a b] ts]; [cbn; split; [apply c_zero_rep|auto]|]. inversion Hts as [|? ? [Ha Hb] Hts']; subst. cbn [c_accumulate accumulate fst snd] in *. split; [|auto].
    eapply crep_mono; [apply c_mul_rep; [|apply (forward_rep f_torus (conv_torus real_machine) 0); auto using f_torus_rep; lia|apply (forward_rep f_integer (conv_integer real_machine) 63); auto using f_integer_rep; lia]|]; lia.
  - destruct ts as [|[a b] ts]; [cbn; split; [apply c_zero_rep|auto]|]. inversion Hts as [|? ? [Ha Hb] Hts']; subst. cbn [c_accumulate accumulate fst snd] in *. split; [|auto].
    eapply crep_mono; [apply (forward_rep f_torus (conv_torus real_machine) 0); auto using f_torus_rep; lia|]; lia.
  - cbn [c_accumulate accumulate]. destruct (IHl ts k Hts Hk) as (L1 & L2 & L3); [lia|].
    destruct (c_accumulate T n l ts k) as [x ts1]. destruct (accumulate real_machine n l ts k) as [x' ts1']. cbn [fst snd] in L1, L2, L3. subst ts1'.
    destruct (IHr ts1 k L3 Hk) as (R1 & R2 & R3); [lia|].
    destruct (c_accumulate T n r ts1 k) as [y ts2]. destruct (accumulate real_machine n r ts1 k) as [y' ts2']. cbn [fst snd] in R1, R2, R3 |- *. subst ts2'.
    split; [|auto]. replace (66 + 4 * Z.of_nat m + Z.of_nat (S (Nat.max (sum_depth l) (sum_depth r))))%Z with (66 + 4 * Z.of_nat m + Z.of_nat (Nat.max (sum_depth l) (sum_depth r)) + 1)%Z by lia.
    apply c_add_rep; [lia|eapply crep_mono; [exact L1|lia]|eapply crep_mono; [exact R1|lia]].
Qed.
Lemma from_torus_rep x r e : (0 <= e <= 1022)%Z -> rep x r e -> f_from_torus x = from_torus real_machine r.
Proof.
  intros He H. unfold f_from_torus, from_torus. cbn [real_machine fl_round fl_rint machine]. f_equal.
  assert (0 <= e)%Z as He0 by lia. assert (-1075 <= e <= 1022)%Z as He1 by lia. pose proof (f_sub_rep _ _ _ _ _ He1 H (f_round_rep _ _ _ He0 H)) as [N _].
  assert (rep (f_sub x (f_round x)) (binary64 (r - IZR (ZnearestA r))) 0) as Hf.
  { split; [exact N|]. apply binary64_le; [lia|]. eapply Rle_trans; [apply Znearest_half|]. change (bp 0) with 1. lra. }
  pose proof (f_mul_rep _ _ _ _ 0 64 ltac:(lia) Hf (f_pow2_rep 64 ltac:(lia))) as Hm.
  replace (2 ^ 64) with (bp 64) by (change (bp 64) with (IZR (Z.pow_pos 2 64)); rewrite pow_IZR; reflexivity).
  eapply f_as_i64_rep, f_round_rep; [|exact Hm]. lia.
Qed.
Lemma untwist_rep j : (j < 2 ^ m)%nat -> crep (t_untwist T n j) (fl_untwist real_machine n j) 0.
Proof.
  intros Hj. destruct HT as (_ & H & _). specialize (H j ltac:(rewrite half; exact Hj)) as [H1 H2]. cbn [real_machine fl_untwist machine].
  assert (0 < / INR (n / 2) <= 1) as Hi.
  { rewrite half. assert (1 <= INR (2 ^ m)) as H1' by (apply (le_INR 1), Nat.neq_0_lt_0, Nat.pow_nonzero; lia). split; [apply Rinv_0_lt_compat; lra|]. rewrite <- Rinv_1. apply Rinv_le_contravar; lra. }
  assert (forall c, -1 <= c <= 1 -> Rabs (/ INR (n / 2) * c) <= bp 0) as Hc.
  { intros c Hc. change (bp 0) with 1. rewrite Rabs_mult, (Rabs_pos_eq (/ INR (n / 2))) by lra. assert (Rabs c <= 1) by (apply Rabs_le; lra). pose proof (Rabs_pos c). nra. }
  split; (split; [assumption|]); apply binary64_le; try lia; cbn [fst snd Cmul cis]; rewrite Rmult_0_l; [rewrite Rminus_0_r|rewrite Rplus_0_r]; apply Hc; [apply COS_bound|apply SIN_bound].
Qed.
Lemma inverse_rep v w e : (0 <= e)%Z -> (e + 2 * Z.of_nat m + 1 <= 1022)%Z -> (forall k, (k < 2 ^ m)%nat -> crep (v k) (w k) e) ->
  forall j, (j < 2 ^ m)%nat -> crep (c_inverse T n v j) (fl_mul real_machine (fl_backward real_machine (n / 2) w j) (fl_untwist real_machine n j)) (e + 2 * Z.of_nat m + 1).
Proof.
  intros He Hb Hv j Hj. unfold c_inverse. cbn [real_machine fl_backward fl_mul machine]. rewrite log_half.
  replace (e + 2 * Z.of_nat m + 1)%Z with (e + 2 * Z.of_nat m + 0 + 1)%Z by lia. apply c_mul_rep; [lia| |apply untwist_rep, Hj].
  apply (radix2_rep (t_backward T) 1 n); [|lia|lia|lia|exact Hv|exact Hj].
  intros h r Hr. destruct HT as (_ & _ & _ & H). rewrite Rmult_1_l. apply H, Hr.
Qed.
Lemma ieee_fft_real shape ts : Forall (fun ab => Forall is_word (fst ab) /\ Forall is_word (snd ab)) ts ->
  (68 + 6 * Z.of_nat m + Z.of_nat (sum_depth (shape ts)) <= 1023)%Z ->
  (forall j, (j < 2 ^ m)%nat -> let z := c_inverse T n (fun k => fst (c_accumulate T n (shape ts) ts k)) j in is_finite (fst z) = true /\ is_finite (snd z) = true) /\
  ieee_fft T shape n ts = float_fft real_machine shape n ts.
Proof.
  intros Hts Hd.
  assert (forall j, (j < 2 ^ m)%nat -> crep (c_inverse T n (fun k => fst (c_accumulate T n (shape ts) ts k)) j)
    (fl_mul real_machine (fl_backward real_machine (n / 2) (fun k => fst (accumulate real_machine n (shape ts) ts k)) j) (fl_untwist real_machine n j))
    (66 + 4 * Z.of_nat m + Z.of_nat (sum_depth (shape ts)) + 2 * Z.of_nat m + 1)) as H.
  { intros j Hj. apply inverse_rep; [lia|lia| |exact Hj]. intros k Hk. apply accumulate_rep; [exact Hts|exact Hk|lia]. }
  split; [intros j Hj; destruct (H j Hj) as [[[A _] _] [[B _] _]]; split; assumption|].
  unfold ieee_fft, float_fft, c_backward, backward_as_torus. f_equal; apply map_ext_in; intros j Hj; apply in_seq in Hj; rewrite half in Hj; destruct (H j ltac:(lia)) as [A B]; eapply from_torus_rep; try eassumption; lia.
Qed.
End Fft.
