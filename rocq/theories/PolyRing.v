(** * Algebra and norms in Z_q[X]/(X^n+1) (definitions in SpecRing.v). *)
From Coq Require Import Setoid Morphisms Ring.
From Verif Require Import MBase.
From Verif Require Export SpecRing.
Local Open Scope Z_scope.

(** ** Congruence modulo 2^64 *)

Global Instance eqm_equiv : Equivalence eqm.
Proof. split; unfold eqm; red; intros; congruence. Qed.

Lemma eqm_alt a b : eqm a b <-> exists t, a = b + t * q.
Proof.
  unfold eqm. split.
  - intros H. exists (a / q - b / q).
    pose proof (Z.div_mod a q ltac:(discriminate)). pose proof (Z.div_mod b q ltac:(discriminate)). nia.
  - intros (t & ->). rewrite Z.mod_add by discriminate. reflexivity.
Qed.

Global Instance Zadd_eqm : Proper (eqm ==> eqm ==> eqm) Z.add.
Proof.
  intros a a' Ha b b' Hb. apply eqm_alt in Ha as (t & ->), Hb as (u & ->).
  apply eqm_alt. exists (t + u). ring.
Qed.
Global Instance Zsub_eqm : Proper (eqm ==> eqm ==> eqm) Z.sub.
Proof.
  intros a a' Ha b b' Hb. apply eqm_alt in Ha as (t & ->), Hb as (u & ->).
  apply eqm_alt. exists (t - u). ring.
Qed.
Global Instance Zopp_eqm : Proper (eqm ==> eqm) Z.opp.
Proof.
  intros a a' Ha. apply eqm_alt in Ha as (t & ->).
  apply eqm_alt. exists (- t). ring.
Qed.
Global Instance Zmul_eqm : Proper (eqm ==> eqm ==> eqm) Z.mul.
Proof.
  intros a a' Ha b b' Hb. apply eqm_alt in Ha as (t & ->), Hb as (u & ->).
  apply eqm_alt. exists (t * b' + a' * u + t * u * q). ring.
Qed.

Lemma eq_eqm a b : a = b -> eqm a b.
Proof. intros ->. reflexivity. Qed.

Lemma wrap_eqm x : eqm (wrap x) x.
Proof. unfold eqm, wrap. apply Z.mod_mod. discriminate. Qed.

Lemma eqm_word a b : is_word a -> is_word b -> eqm a b -> a = b.
Proof. unfold is_word, eqm. intros Ha Hb. rewrite !Z.mod_small by assumption. auto. Qed.

(** ** Distance to 0 on the circle Z_q *)

Lemma nrm_nonneg x : 0 <= nrm x.
Proof. unfold nrm. pose proof (Z.mod_pos_bound x q q_pos). lia. Qed.

Lemma nrm_rep x : exists z, eqm x z /\ nrm x = Z.abs z.
Proof.
  unfold nrm. pose proof (Z.mod_pos_bound x q q_pos) as H.
  destruct (Z.le_gt_cases (x mod q) (q - x mod q)).
  - exists (x mod q). split; [symmetry; apply wrap_eqm | lia].
  - exists (x mod q - q). split; [|lia].
    apply eqm_alt. exists (x / q + 1). pose proof (Z.div_mod x q ltac:(discriminate)). lia.
Qed.

Lemma nrm_le x z : eqm x z -> nrm x <= Z.abs z.
Proof.
  unfold nrm, eqm. intros ->. pose proof (Z.mod_pos_bound z q q_pos) as H.
  pose proof (Z.div_mod z q ltac:(discriminate)) as E.
  assert (z / q <= -1 \/ z / q = 0 \/ 1 <= z / q) as [K|[K|K]] by lia; nia.
Qed.

Global Instance nrm_eqm : Proper (eqm ==> eq) nrm.
Proof. intros a b H. unfold nrm. rewrite H. reflexivity. Qed.

Lemma nrm_add x y : nrm (x + y) <= nrm x + nrm y.
Proof.
  destruct (nrm_rep x) as (a & Ha & ->), (nrm_rep y) as (b & Hb & ->).
  etransitivity; [apply (nrm_le _ (a + b)); rewrite Ha, Hb; reflexivity | lia].
Qed.
Lemma nrm_opp x : nrm (- x) = nrm x.
Proof.
  assert (forall x, nrm (- x) <= nrm x) as L.
  { intros y. destruct (nrm_rep y) as (a & Ha & ->).
    etransitivity; [apply (nrm_le _ (- a)); rewrite Ha; reflexivity | lia]. }
  pose proof (L x). pose proof (L (- x)). rewrite Z.opp_involutive in *. lia.
Qed.
Lemma nrm_sub x y : nrm (x - y) <= nrm x + nrm y.
Proof. unfold Z.sub. etransitivity; [apply nrm_add|]. rewrite nrm_opp. lia. Qed.
Lemma nrm_mul x y : nrm (x * y) <= nrm x * nrm y.
Proof.
  destruct (nrm_rep x) as (a & Ha & ->), (nrm_rep y) as (b & Hb & ->).
  etransitivity; [apply (nrm_le _ (a * b)); rewrite Ha, Hb; reflexivity | rewrite Z.abs_mul; lia].
Qed.
Lemma nrm_abs x : nrm x <= Z.abs x.
Proof. apply nrm_le. reflexivity. Qed.
Lemma nrm_0 : nrm 0 = 0. Proof. reflexivity. Qed.

(** ** Finite sums *)
Lemma sumf_ext m f g : (forall i, (i < m)%nat -> f i = g i) -> sumf m f = sumf m g.
Proof. induction m; cbn; intros H; [reflexivity|]. rewrite IHm, H by auto. reflexivity. Qed.
Lemma sumf_eqm m f g : (forall i, (i < m)%nat -> eqm (f i) (g i)) -> eqm (sumf m f) (sumf m g).
Proof. induction m; cbn; intros H; [reflexivity|]. rewrite IHm, (H m) by auto. reflexivity. Qed.
Lemma sumf_0 m f : (forall i, (i < m)%nat -> f i = 0) -> sumf m f = 0.
Proof. induction m; cbn; intros H; [reflexivity|]. rewrite IHm, H by auto. reflexivity. Qed.
Lemma sumf_add m f g : sumf m (fun i => f i + g i) = sumf m f + sumf m g.
Proof. induction m; cbn; [reflexivity|]. rewrite IHm. ring. Qed.
Lemma sumf_sub m f g : sumf m (fun i => f i - g i) = sumf m f - sumf m g.
Proof. induction m; cbn; [reflexivity|]. rewrite IHm. ring. Qed.
Lemma sumf_opp m f : sumf m (fun i => - f i) = - sumf m f.
Proof. induction m; cbn; [reflexivity|]. rewrite IHm. ring. Qed.
Lemma sumf_scal m c f : sumf m (fun i => c * f i) = c * sumf m f.
Proof. induction m; cbn; [ring|]. rewrite IHm. ring. Qed.
Lemma sumf_scal_r m c f : sumf m (fun i => f i * c) = sumf m f * c.
Proof. induction m; cbn; [ring|]. rewrite IHm. ring. Qed.
Lemma sumf_swap m p f : sumf m (fun i => sumf p (fun j => f i j)) = sumf p (fun j => sumf m (fun i => f i j)).
Proof.
  induction m; cbn; [symmetry; apply sumf_0; reflexivity|].
  rewrite IHm, <- sumf_add. reflexivity.
Qed.
Lemma sumf_single m f a : (a < m)%nat -> (forall i, (i < m)%nat -> i <> a -> f i = 0) -> sumf m f = f a.
Proof.
  induction m; intros Ha H; [lia|]. cbn. destruct (Nat.eq_dec a m) as [->|N].
  - rewrite sumf_0; [ring|]. intros i Hi. apply H; lia.
  - rewrite IHm; [|lia|]. 2:{ intros; apply H; lia. } rewrite (H m); [ring|lia|lia].
Qed.
Lemma sumf_le m f g : (forall i, (i < m)%nat -> f i <= g i) -> sumf m f <= sumf m g.
Proof. induction m; cbn; intros H; [lia|]. assert (f m <= g m) by auto. assert (sumf m f <= sumf m g) by auto. lia. Qed.
Lemma sumf_nonneg m f : (forall i, (i < m)%nat -> 0 <= f i) -> 0 <= sumf m f.
Proof. intros H. rewrite <- (sumf_0 m (fun _ => 0)) by reflexivity. apply sumf_le. exact H. Qed.
Lemma sumf_nrm m f : nrm (sumf m f) <= sumf m (fun i => nrm (f i)).
Proof. induction m; cbn; [reflexivity|]. etransitivity; [apply nrm_add|]. lia. Qed.
Lemma sumf_const m c : sumf m (fun _ => c) = Z.of_nat m * c.
Proof. induction m; cbn [sumf]; [ring|]. rewrite IHm, Nat2Z.inj_succ. ring. Qed.
Lemma sumf_le_const m f c : (forall i, (i < m)%nat -> f i <= c) -> sumf m f <= Z.of_nat m * c.
Proof. intros H. rewrite <- sumf_const. apply sumf_le. exact H. Qed.
Lemma sumf_split m p f : sumf (m + p) f = sumf m f + sumf p (fun i => f (m + i)%nat).
Proof. induction p; cbn; [rewrite Nat.add_0_r; ring|]. rewrite Nat.add_succ_r. cbn. rewrite IHp. ring. Qed.

(** ** Polynomials *)
Lemma sg_S t : sg (S t) = - sg t.
Proof. unfold sg. rewrite Nat.even_succ, <- Nat.negb_even. destruct (Nat.even t); reflexivity. Qed.
Lemma sg_add s t : sg (s + t) = sg s * sg t.
Proof. induction s; [cbn; destruct (sg t); reflexivity|]. rewrite Nat.add_succ_l, !sg_S, IHs. ring. Qed.
Lemma sg_sq t : sg t * sg t = 1.
Proof. unfold sg. destruct (Nat.even t); reflexivity. Qed.
Lemma sg_abs t : Z.abs (sg t) = 1.
Proof. unfold sg. destruct (Nat.even t); reflexivity. Qed.
Lemma sg_odd t k : Nat.odd k = true -> sg (t * k) = sg t.
Proof.
  intros H. unfold sg. rewrite Nat.even_mul, <- (Nat.negb_odd k), H. rewrite orb_false_r. reflexivity.
Qed.
Lemma nrm_sg t x : nrm (sg t * x) = nrm x.
Proof. unfold sg. destruct (Nat.even t); [f_equal; ring|]. rewrite <- nrm_opp. f_equal. ring. Qed.

Section R.
Variable n : nat.
Hypothesis Hn : (0 < n)%nat.

Global Instance peq_equiv : Equivalence (peq n).
Proof.
  split.
  - intros f k _. reflexivity.
  - intros f g H k Hk. symmetry. auto.
  - intros f g h H1 H2 k Hk. transitivity (g k); auto.
Qed.
Global Instance padd_proper : Proper (peq n ==> peq n ==> peq n) padd.
Proof. intros f f' Hf g g' Hg k Hk. unfold padd. rewrite (Hf k Hk), (Hg k Hk). reflexivity. Qed.
Global Instance psub_proper : Proper (peq n ==> peq n ==> peq n) psub.
Proof. intros f f' Hf g g' Hg k Hk. unfold psub. rewrite (Hf k Hk), (Hg k Hk). reflexivity. Qed.
Global Instance popp_proper : Proper (peq n ==> peq n) popp.
Proof. intros f f' Hf k Hk. unfold popp. rewrite (Hf k Hk). reflexivity. Qed.
Global Instance pmul_proper : Proper (peq n ==> peq n ==> peq n) (pmul n).
Proof.
  intros f f' Hf g g' Hg k Hk. unfold pmul.
  apply sumf_eqm; intros i Hi. apply sumf_eqm; intros j Hj. rewrite (Hf i Hi), (Hg j Hj). reflexivity.
Qed.
Global Instance psubst_proper k : Proper (peq n ==> peq n) (psubst n k).
Proof. intros f f' Hf j Hj. unfold psubst. apply sumf_eqm; intros i Hi. rewrite (Hf i Hi). reflexivity. Qed.

Lemma mono_addn x t k : mono n (x + t * n) k = sg t * mono n x k.
Proof.
  unfold mono. rewrite Nat.mod_add, Nat.div_add by lia.
  destruct (x mod n =? k)%nat; [rewrite Nat.add_comm; apply sg_add | ring].
Qed.
Lemma mono_small m k : (m < n)%nat -> mono n m k = if (m =? k)%nat then 1 else 0.
Proof. intros H. unfold mono. rewrite Nat.mod_small, Nat.div_small by lia. reflexivity. Qed.
Lemma mono_mod m k : mono n m k = sg (m / n) * mono n (m mod n) k.
Proof.
  rewrite (Nat.div_mod m n) at 1 by lia. rewrite Nat.add_comm, (Nat.mul_comm n). apply mono_addn.
Qed.
Lemma mono_same m : mono n m (m mod n)%nat = sg (m / n).
Proof. unfold mono. rewrite Nat.eqb_refl. reflexivity. Qed.

(** Expanding X^m in the basis. *)
Lemma mono_sum m (F : nat -> Z) : sumf n (fun a => mono n m a * F a) = sg (m / n) * F (m mod n)%nat.
Proof.
  rewrite (sumf_single _ _ (m mod n)%nat).
  - rewrite mono_same. reflexivity.
  - apply Nat.mod_upper_bound. lia.
  - intros i Hi Hne. unfold mono. destruct (Nat.eqb_spec (m mod n) i); [congruence | ring].
Qed.
Lemma mono_mono m c k : sumf n (fun a => mono n m a * mono n (a + c) k) = mono n (m + c) k.
Proof.
  rewrite mono_sum. rewrite (Nat.div_mod m n) at 3 by lia.
  replace (n * (m / n) + m mod n + c)%nat with ((m mod n + c) + (m / n) * n)%nat by lia.
  symmetry. apply mono_addn.
Qed.
Lemma mono_monok m k j : Nat.odd k = true -> sumf n (fun a => mono n m a * mono n (a * k) j) = mono n (m * k) j.
Proof.
  intros Hk. rewrite mono_sum. rewrite (Nat.div_mod m n) at 3 by lia.
  replace ((n * (m / n) + m mod n) * k)%nat with ((m mod n) * k + (m / n) * k * n)%nat by lia.
  rewrite mono_addn, sg_odd by exact Hk. reflexivity.
Qed.

Lemma pmul_comm f g : peq n (pmul n f g) (pmul n g f).
Proof.
  intros k _. unfold pmul. rewrite sumf_swap. apply eq_eqm. apply sumf_ext; intros i _. apply sumf_ext; intros j _.
  rewrite Nat.add_comm. ring.
Qed.
Lemma pmul_assoc3 f g h k : pmul n (pmul n f g) h k =
  sumf n (fun i => sumf n (fun j => sumf n (fun c => f i * g j * h c * mono n (i + j + c) k))).
Proof.
  unfold pmul at 1.
  transitivity (sumf n (fun a => sumf n (fun c => sumf n (fun i => sumf n (fun j =>
     f i * g j * h c * (mono n (i + j) a * mono n (a + c) k)))))).
  { apply sumf_ext; intros a _. apply sumf_ext; intros c _. unfold pmul.
    rewrite <- !sumf_scal_r. apply sumf_ext; intros i _. rewrite <- !sumf_scal_r. apply sumf_ext; intros j _. ring. }
  transitivity (sumf n (fun c => sumf n (fun i => sumf n (fun j => sumf n (fun a =>
     f i * g j * h c * (mono n (i + j) a * mono n (a + c) k)))))).
  { rewrite sumf_swap. apply sumf_ext; intros c _. rewrite sumf_swap. apply sumf_ext; intros i _.
    rewrite sumf_swap. reflexivity. }
  rewrite sumf_swap. apply sumf_ext; intros i _. rewrite sumf_swap. apply sumf_ext; intros j _.
  apply sumf_ext; intros c _. rewrite sumf_scal, mono_mono. reflexivity.
Qed.
Lemma pmul_assoc f g h : peq n (pmul n f (pmul n g h)) (pmul n (pmul n f g) h).
Proof.
  intros k Hk. rewrite (pmul_comm f (pmul n g h) k Hk). rewrite !pmul_assoc3.
  apply eq_eqm.
  transitivity (sumf n (fun j => sumf n (fun i => sumf n (fun c => f i * g j * h c * mono n (i + j + c) k)))).
  2:{ apply sumf_swap. }
  apply sumf_ext; intros j _. rewrite sumf_swap. apply sumf_ext; intros i _. apply sumf_ext; intros c _.
  replace (j + c + i)%nat with (i + j + c)%nat by lia. ring.
Qed.
Lemma pmul_distr_l f g h : peq n (pmul n (padd f g) h) (padd (pmul n f h) (pmul n g h)).
Proof.
  intros k _. unfold padd, pmul. apply eq_eqm. rewrite <- sumf_add. apply sumf_ext; intros i _.
  rewrite <- sumf_add. apply sumf_ext; intros j _. ring.
Qed.
Lemma pcst_mono c k : (k < n)%nat -> pcst c k = c * mono n 0 k.
Proof. intros Hk. rewrite mono_small by lia. destruct k; cbn; ring. Qed.
Lemma pmul_pcst_exact c f k : (k < n)%nat -> pmul n (pcst c) f k = c * f k.
Proof.
  intros Hk. unfold pmul. rewrite (sumf_single _ _ 0%nat); [|lia|].
  2:{ intros i Hi Hne. apply sumf_0; intros j _. destruct i; [lia|]. cbn [pcst]. ring. }
  cbn [pcst]. rewrite (sumf_single _ _ k); [|lia|].
  - cbn [Nat.add]. rewrite mono_small by lia. rewrite Nat.eqb_refl. ring.
  - intros j Hj Hne. cbn [Nat.add]. rewrite mono_small by lia. destruct (Nat.eqb_spec j k); [lia|]. ring.
Qed.
Lemma pmul_pcst c f : peq n (pmul n (pcst c) f) (fun k => c * f k).
Proof. intros k Hk. rewrite pmul_pcst_exact by exact Hk. reflexivity. Qed.

Lemma P_ring : ring_theory pzero (pcst 1) padd (pmul n) psub popp (peq n).
Proof.
  constructor.
  - intros f k _; unfold padd, pzero; apply eq_eqm; ring.
  - intros f g k _; unfold padd; apply eq_eqm; ring.
  - intros f g h k _; unfold padd; apply eq_eqm; ring.
  - intros f. rewrite pmul_pcst. intros k _. apply eq_eqm; ring.
  - intros; apply pmul_comm.
  - intros; apply pmul_assoc.
  - intros; apply pmul_distr_l.
  - intros f g k _; unfold padd, psub, popp; apply eq_eqm; ring.
  - intros f k _; unfold padd, popp, pzero; apply eq_eqm; ring.
Qed.
Lemma P_ext : ring_eq_ext padd (pmul n) popp (peq n).
Proof. constructor; typeclasses eauto. Qed.

(** *** Substitution *)
Lemma psubst_add k f g : peq n (psubst n k (padd f g)) (padd (psubst n k f) (psubst n k g)).
Proof. intros j _. unfold psubst, padd. apply eq_eqm. rewrite <- sumf_add. apply sumf_ext; intros. ring. Qed.
Lemma psubst_sub k f g : peq n (psubst n k (psub f g)) (psub (psubst n k f) (psubst n k g)).
Proof. intros j _. unfold psubst, psub. apply eq_eqm. rewrite <- sumf_sub. apply sumf_ext; intros. ring. Qed.
Lemma psubst_pcst k c : peq n (psubst n k (pcst c)) (pcst c).
Proof.
  intros j Hj. unfold psubst. apply eq_eqm. rewrite (sumf_single _ _ 0%nat); [|lia|].
  - cbn [pcst Nat.mul]. rewrite mono_small by lia. destruct j; cbn; ring.
  - intros [|i] _ Hi; [lia|]. cbn [pcst]. ring.
Qed.
Lemma psubst_mul k f g : Nat.odd k = true ->
  peq n (psubst n k (pmul n f g)) (pmul n (psubst n k f) (psubst n k g)).
Proof.
  intros Hk j Hj. apply eq_eqm.
  transitivity (sumf n (fun i => sumf n (fun i' => f i * g i' * mono n ((i + i') * k) j))).
  - unfold psubst, pmul.
    transitivity (sumf n (fun a => sumf n (fun i => sumf n (fun i' => f i * g i' * (mono n (i + i') a * mono n (a * k) j))))).
    { apply sumf_ext; intros a _. rewrite <- sumf_scal_r. apply sumf_ext; intros i _.
      rewrite <- sumf_scal_r. apply sumf_ext; intros i' _. ring. }
    rewrite sumf_swap. apply sumf_ext; intros i _. rewrite sumf_swap. apply sumf_ext; intros i' _.
    rewrite sumf_scal, mono_monok by exact Hk. reflexivity.
  - unfold psubst, pmul. symmetry.
    transitivity (sumf n (fun a => sumf n (fun b => sumf n (fun i => sumf n (fun i' =>
       f i * g i' * (mono n (i * k) a * (mono n (i' * k) b * mono n (a + b) j))))))).
    { apply sumf_ext; intros a _. apply sumf_ext; intros b _. rewrite <- !sumf_scal_r.
      apply sumf_ext; intros i _. rewrite <- sumf_scal, <- sumf_scal_r. apply sumf_ext; intros i' _. ring. }
    transitivity (sumf n (fun i => sumf n (fun i' => sumf n (fun a => sumf n (fun b =>
       f i * g i' * (mono n (i * k) a * (mono n (i' * k) b * mono n (a + b) j))))))).
    { transitivity (sumf n (fun a => sumf n (fun i => sumf n (fun b => sumf n (fun i' =>
       f i * g i' * (mono n (i * k) a * (mono n (i' * k) b * mono n (a + b) j))))))).
      { apply sumf_ext; intros a _. apply sumf_swap. }
      rewrite sumf_swap. apply sumf_ext; intros i _.
      transitivity (sumf n (fun a => sumf n (fun i' => sumf n (fun b =>
       f i * g i' * (mono n (i * k) a * (mono n (i' * k) b * mono n (a + b) j)))))).
      { apply sumf_ext; intros a _. apply sumf_swap. }
      apply sumf_swap. }
    apply sumf_ext; intros i _. apply sumf_ext; intros i' _.
    transitivity (f i * g i' * sumf n (fun a => mono n (i * k) a * sumf n (fun b => mono n (i' * k) b * mono n (b + a) j))).
    { rewrite <- sumf_scal. apply sumf_ext; intros a _. rewrite <- !sumf_scal. apply sumf_ext; intros b _.
      rewrite (Nat.add_comm b a). ring. }
    f_equal. transitivity (sumf n (fun a => mono n (i * k) a * mono n (a + i' * k) j)).
    { apply sumf_ext; intros a _. rewrite mono_mono. f_equal. f_equal. lia. }
    rewrite mono_mono. f_equal. lia.
Qed.
Lemma psubst_psubst k k' f : Nat.odd k' = true ->
  peq n (psubst n k' (psubst n k f)) (psubst n (k * k') f).
Proof.
  intros Hk j Hj. apply eq_eqm. unfold psubst.
  transitivity (sumf n (fun i => f i * sumf n (fun a => mono n (i * k) a * mono n (a * k') j))).
  { transitivity (sumf n (fun a => sumf n (fun i => f i * (mono n (i * k) a * mono n (a * k') j)))).
    { apply sumf_ext; intros a _. rewrite <- sumf_scal_r. apply sumf_ext; intros i _. ring. }
    rewrite sumf_swap. apply sumf_ext; intros i _. rewrite sumf_scal. reflexivity. }
  apply sumf_ext; intros i _. rewrite mono_monok by exact Hk. rewrite Nat.mul_assoc. reflexivity.
Qed.

(** *** Norms *)
Global Instance bd_proper : Proper (peq n ==> eq ==> iff) (bd n).
Proof.
  intros f g H B B' <-. unfold bd. split; intros K k Hk; specialize (K k Hk);
    rewrite (H k Hk) in * || rewrite <- (H k Hk) in *; assumption.
Qed.
Lemma bd_weaken f B B' : bd n f B -> B <= B' -> bd n f B'.
Proof. clear Hn. intros H L k Hk. specialize (H k Hk). lia. Qed.
Lemma bd_nonneg f B : bd n f B -> 0 <= B.
Proof. intros H. pose proof (H 0%nat Hn). pose proof (nrm_nonneg (f 0%nat)). lia. Qed.
Lemma bd_add f g A B : bd n f A -> bd n g B -> bd n (padd f g) (A + B).
Proof. clear Hn. intros H K k Hk. specialize (H k Hk). specialize (K k Hk). unfold padd. pose proof (nrm_add (f k) (g k)). lia. Qed.
Lemma bd_sub f g A B : bd n f A -> bd n g B -> bd n (psub f g) (A + B).
Proof. clear Hn. intros H K k Hk. specialize (H k Hk). specialize (K k Hk). unfold psub. pose proof (nrm_sub (f k) (g k)). lia. Qed.
Lemma bd_opp f A : bd n f A -> bd n (popp f) A.
Proof. clear Hn. intros H k Hk. specialize (H k Hk). unfold popp. rewrite nrm_opp. lia. Qed.
Lemma bd_zero : bd n pzero 0.
Proof. clear Hn. intros k _. unfold pzero. rewrite nrm_0. lia. Qed.
Lemma l1_nonneg f S : l1 n f S -> 0 <= S.
Proof. clear Hn. unfold l1. intros H. etransitivity; [|exact H]. apply sumf_nonneg. intros; apply nrm_nonneg. Qed.
Lemma l1_pcst c : l1 n (pcst c) (Z.abs c).
Proof.
  unfold l1. rewrite (sumf_single _ _ 0%nat); [apply nrm_abs | lia |].
  intros [|i] _ Hi; [lia|]. reflexivity.
Qed.
Lemma l1_bd f B : bd n f B -> l1 n f (Z.of_nat n * B).
Proof. clear Hn. intros H. unfold l1. apply sumf_le_const. exact H. Qed.
Lemma bd_l1 f S : l1 n f S -> bd n f S.
Proof. clear Hn.
  unfold l1. intros H k Hk. etransitivity; [|exact H].
  clear H. revert Hk. generalize n. intros m. induction m; intros Hk; [lia|]. cbn.
  destruct (Nat.eq_dec k m) as [->|].
  - pose proof (sumf_nonneg m (fun k => nrm (f k)) ltac:(intros; apply nrm_nonneg)). lia.
  - pose proof (nrm_nonneg (f m)). assert (k < m)%nat by lia. specialize (IHm H0). lia.
Qed.

(** For fixed i, the exponents j with i+j = k mod n: exactly one. *)
Lemma mono_inj_sum (h : nat -> nat) k :
  (forall i j, (i < n)%nat -> (j < n)%nat -> (h i mod n = h j mod n)%nat -> i = j) ->
  sumf n (fun i => Z.abs (mono n (h i) k)) <= 1.
Proof.
  intros H. destruct (Nat.lt_ge_cases k n) as [Hk|Hk].
  - assert (forall m, (m <= n)%nat ->
      sumf m (fun i => Z.abs (mono n (h i) k)) = 0 \/
      (exists a, (a < m)%nat /\ (h a mod n)%nat = k /\ sumf m (fun i => Z.abs (mono n (h i) k)) = 1)) as G.
    { induction m; intros Hm; [left; reflexivity|]. cbn.
      unfold mono at 2 4. destruct (Nat.eqb_spec (h m mod n) k) as [E|E].
      - right. exists m. split; [lia|]. split; [exact E|]. rewrite sg_abs.
        destruct IHm as [->|(a & Ha & Ea & _)]; [lia|reflexivity|].
        exfalso. assert (a = m); [|lia]. apply H; [lia|lia|congruence].
      - destruct IHm as [->|(a & Ha & Ea & ->)]; [lia|left; reflexivity|].
        right. exists a. split; [lia|]. split; [exact Ea|reflexivity]. }
    destruct (G n (le_n _)) as [->|(a & _ & _ & ->)]; lia.
  - rewrite sumf_0; [lia|]. intros i _. unfold mono.
    destruct (Nat.eqb_spec (h i mod n) k) as [E|E]; [|reflexivity].
    pose proof (Nat.mod_upper_bound (h i) n ltac:(lia)). lia.
Qed.

Lemma shift_inj c i j : (i < n)%nat -> (j < n)%nat -> ((c + i) mod n = (c + j) mod n)%nat -> i = j.
Proof.
  intros Hi Hj E.
  assert (forall i j, (i < n)%nat -> (j < n)%nat -> (i <= j)%nat -> ((c + i) mod n = (c + j) mod n)%nat -> i = j) as L.
  { clear. intros i j Hi Hj Hij E.
    pose proof (Nat.div_mod (c + i) n ltac:(lia)). pose proof (Nat.div_mod (c + j) n ltac:(lia)).
    rewrite E in H.
    assert ((c + j) / n = (c + i) / n \/ (c + j) / n >= S ((c + i) / n))%nat as [K|K].
    { pose proof (Nat.div_le_mono (c + i) (c + j) n ltac:(lia) ltac:(lia)). lia. }
    - rewrite K in H0. lia.
    - nia. }
  destruct (Nat.le_ge_cases i j); [apply L; auto | symmetry; apply L; auto].
Qed.

Lemma bd_mul_l1 f g A S : l1 n f S -> bd n g A -> bd n (pmul n f g) (S * A).
Proof.
  intros Hf Hg k Hk. pose proof (bd_nonneg _ _ Hg) as HA. unfold pmul.
  etransitivity; [apply sumf_nrm|].
  transitivity (sumf n (fun i => nrm (f i) * A)).
  - apply sumf_le; intros i Hi. etransitivity; [apply sumf_nrm|].
    transitivity (sumf n (fun j => nrm (f i) * A * Z.abs (mono n (i + j) k))).
    + apply sumf_le; intros j Hj. etransitivity; [apply nrm_mul|].
      pose proof (nrm_mul (f i) (g j)). specialize (Hg j Hj). pose proof (nrm_nonneg (f i)).
      pose proof (nrm_nonneg (g j)). pose proof (nrm_abs (mono n (i + j) k)).
      pose proof (nrm_nonneg (mono n (i + j) k)). pose proof (nrm_nonneg (f i * g j)).
      apply Z.mul_le_mono_nonneg; nia.
    + rewrite sumf_scal. pose proof (mono_inj_sum (fun j => i + j)%nat k (shift_inj i)).
      pose proof (nrm_nonneg (f i)). nia.
  - rewrite sumf_scal_r. unfold l1 in Hf. nia.
Qed.
Lemma bd_mul_l1_r f g A S : bd n f A -> l1 n g S -> bd n (pmul n f g) (S * A).
Proof. intros Hf Hg. rewrite pmul_comm. apply bd_mul_l1; assumption. Qed.
Lemma bd_mul f g A B : bd n f A -> bd n g B -> bd n (pmul n f g) (Z.of_nat n * A * B).
Proof. intros Hf Hg. apply bd_mul_l1; [apply l1_bd|]; assumption. Qed.
Lemma bd_pcst_mul c f A : bd n f A -> bd n (pmul n (pcst c) f) (Z.abs c * A).
Proof. apply bd_mul_l1, l1_pcst. Qed.

Lemma bd_psubst k f A : (forall i j, (i < n)%nat -> (j < n)%nat -> ((i * k) mod n = (j * k) mod n)%nat -> i = j) ->
  bd n f A -> bd n (psubst n k f) A.
Proof.
  intros Hinj Hf j Hj. pose proof (bd_nonneg _ _ Hf) as HA. unfold psubst. etransitivity; [apply sumf_nrm|].
  transitivity (sumf n (fun i => A * Z.abs (mono n (i * k) j))).
  - apply sumf_le; intros i Hi. etransitivity; [apply nrm_mul|]. specialize (Hf i Hi).
    pose proof (nrm_nonneg (f i)). pose proof (nrm_abs (mono n (i * k) j)).
    pose proof (nrm_nonneg (mono n (i * k) j)). apply Z.mul_le_mono_nonneg; lia.
  - rewrite sumf_scal. pose proof (mono_inj_sum (fun i => i * k)%nat j Hinj). nia.
Qed.
End R.

(** Odd multipliers permute the residues modulo a power of two. *)
Lemma odd_mul_inj m k i j : Nat.odd k = true ->
  (i < 2 ^ m)%nat -> (j < 2 ^ m)%nat -> ((i * k) mod 2 ^ m = (j * k) mod 2 ^ m)%nat -> i = j.
Proof.
  intros Hk.
  assert (forall i j, (j < 2 ^ m)%nat -> (i <= j)%nat -> ((i * k) mod 2 ^ m = (j * k) mod 2 ^ m)%nat -> i = j) as L.
  { clear i j. intros i j Hj Hij E.
    assert (2 ^ m <> 0)%nat as NZ by (apply Nat.pow_nonzero; lia).
    assert (Nat.divide (2 ^ m) ((j - i) * k)) as D.
    { pose proof (Nat.div_mod (i * k) (2 ^ m) NZ). pose proof (Nat.div_mod (j * k) (2 ^ m) NZ).
      rewrite E in H. exists ((j * k) / 2 ^ m - (i * k) / 2 ^ m)%nat.
      rewrite Nat.mul_sub_distr_r. rewrite Nat.mul_sub_distr_r.
      assert ((i * k) / 2 ^ m <= (j * k) / 2 ^ m)%nat by (apply Nat.div_le_mono; nia). nia. }
    rewrite Nat.mul_comm in D.
    assert (Nat.gcd (2 ^ m) k = 1)%nat as G.
    { clear - Hk. induction m as [|m IH]; [apply Nat.gcd_1_l|].
      assert (Nat.gcd 2 k = 1)%nat as G2.
      { apply Nat.odd_spec in Hk as (t & ->). rewrite Nat.add_comm, (Nat.mul_comm 2 t), Nat.gcd_add_mult_diag_r.
        reflexivity. }
      rewrite Nat.pow_succ_r'. clear - IH G2.
      assert (Nat.gcd (2 * 2 ^ m) k = 1)%nat as E.
      { pose proof (Nat.gcd_divide_l (2 * 2 ^ m) k) as D1. pose proof (Nat.gcd_divide_r (2 * 2 ^ m) k) as D2.
        set (d := Nat.gcd (2 * 2 ^ m) k) in *.
        assert (Nat.gcd d (2 ^ m) = 1)%nat as Gd.
        { apply Nat.divide_1_r. transitivity (Nat.gcd (2 ^ m) k); [|rewrite IH; reflexivity].
          apply Nat.gcd_greatest; [apply Nat.gcd_divide_r|].
          etransitivity; [apply Nat.gcd_divide_l | exact D2]. }
        rewrite Nat.mul_comm in D1. apply Nat.gauss in D1; [|exact Gd].
        apply Nat.divide_1_r. transitivity (Nat.gcd 2 k); [apply Nat.gcd_greatest; assumption|rewrite G2; reflexivity]. }
      exact E. }
    apply (Nat.gauss _ k) in D; [|exact G].
    destruct D as (t & Ht). destruct t; nia. }
  intros Hi Hj E. destruct (Nat.le_ge_cases i j); [apply L; auto | symmetry; apply L; auto].
Qed.
