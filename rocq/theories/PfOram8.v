(** * process_batch: consistency correction *)
From Coq Require Import Setoid Morphisms Ring Permutation.
From Verif Require Import MBase MUtils MCodec MPoly MRlwe MHash MTree MEncTree MSched MOram SpecOram PolyRing PfPoly PfNear PfRlwe PfRlwe2 PfRlwe3
  PfRlwe5 PfCodec LRlwe LKeys PfEnc PfEnc2 PfEnc3 PfEnc4 LEnc PfHash PfSched PfOram1 PfOram2 PfOram3 PfOram4 PfOram5.
Local Open Scope Z_scope.

Section Or.
Variable cx : ctx.
Variables (lg : nat) (k : Z).
Hypothesis Hp : params_ok cx lg k.
Notation n := (c_n cx).
Let Hn : (0 < n)%nat := params_n cx lg k Hp.
Add Ring Pring : (P_ring n Hn) (setoid (peq_equiv n) (P_ext n)).
Variable fft : fftT.
Variable eps : Z.
Hypothesis Hf : fft_for cx fft eps.
Variable s : poly.
Variables S E : Z.
Hypothesis HS : l1 n (tof s) S.
Variable neg_s : rgsw.
Hypothesis Hneg : rgsw_encrypts n s neg_s (popp (tof s)) E.
Hypothesis Hnegb : g_base neg_s = c_base cx.
Hypothesis Hnegl : g_level neg_s = c_negs_level cx.
Variable a : nat.
Hypothesis Ha : (1 <= a)%nat.
Notation EPB := (ep_fresh cx S E eps).
Notation EL := (sel_noise cx a S E eps).
Notation EPL := (ep_sel cx a S E eps).
Notation G := (growth cx a S E eps).
Notation cct := (const_ct n s (c_base cx) (c_level cx)).
Notation selects := (selects cx s E a).
Notation cnear := (cnear cx s).
Notation sel_list := (sel_list cx eps s S E a).
Notation answer := (answer cx eps s S E a).
Notation request_ct := (request_ct cx s E a).
Lemma G_nonneg : 0 <= G.
Proof.
  unfold growth. pose proof (EPB_nonneg cx lg k Hp fft eps Hf s S E HS neg_s Hneg Hnegb Hnegl a Ha).
  pose proof (EPL_nonneg cx lg k Hp fft eps Hf s S E HS neg_s Hneg Hnegb Hnegl a Ha). lia.
Qed.

(** Sums over lists. *)
Definition lsum (l : list P) : P := fold_right padd pzero l.
Lemma fold_sub l : forall c, wfc n c -> Forall (wfc n) l ->
  wfc n (fold_left rlwe_sub l c) /\ peq n (phase n s (fold_left rlwe_sub l c)) (psub (phase n s c) (lsum (map (phase n s) l))).
Proof.
  induction l as [|x l IH]; intros c Wc Wl; cbn [fold_left map lsum fold_right].
  - split; [exact Wc|]. ring.
  - apply Forall_cons_iff in Wl as [Wx Wl]. destruct (IH (rlwe_sub c x) (wfc_sub n _ _ Wc Wx) Wl) as [W E1]. split; [exact W|].
    rewrite E1. rewrite (phase_sub n Hn s) by assumption. fold (lsum (map (phase n s) l)). ring.
Qed.
Lemma near_lsum {A} (R : A -> rlwe -> Prop) (h : A -> P) l cs (N : Z) : Forall2 (fun x c => near n (phase n s c) (h x) N) l cs ->
  near n (lsum (map (phase n s) cs)) (lsum (map h l)) (Z.of_nat (length l) * N).
Proof.
  induction 1 as [|x c l cs Hx HF IH]; cbn [map lsum fold_right length].
  - apply near_refl. reflexivity.
  - eapply near_weaken; [apply near_add; [exact Hn|exact Hx|exact IH]|]. lia.
Qed.

(** The state after the updates: cells [V], selections and flags. *)
Definition prod_dec {A B} (da : forall x y : A, {x = y} + {x <> y}) (db : forall x y : B, {x = y} + {x <> y}) : forall p p' : A * B, {p = p'} + {p <> p'}.
Proof. decide equality. Defined.
Section Cons.
Variable rows : nat.
Variables (sl : nat -> nat) (o : nat -> bool).
Variable ls : list (list rgsw).
Variable flags : list rgsw.
Hypothesis Hls : forall r, (r < rows)%nat -> exists l, nth_error ls r = Some l /\ sel_list (sl r) l.
Hypothesis Hfl : forall r, (r < rows)%nat -> exists g, nth_error flags r = Some g /\ cct E (b2z (o r)) g.
Notation inr pos := (fst pos < rows /\ snd pos < 2 ^ a)%nat.
(** The update wrote to this position. *)
Definition hit (pos : nat * nat) : bool := ((snd pos =? sl (fst pos))%nat && o (fst pos)).

Variable mm : mem.
Variable V : nat * nat -> rlwe.
Notation cell_ok p := (mget mm (fst p) (snd p) = Some (V p) /\ wfc n (V p)).

Lemma masked_ok pos cell : inr pos -> cell_ok cell ->
  exists c, run (masked fft cx ls flags pos cell) mm = (Ok c, mm) /\ wfc n c /\
    near n (phase n s c) (if hit pos then phase n s (V cell) else pzero) G.
Proof.
  intros [Hr Hc] [Ev Wv]. unfold masked. rewrite (run_bind_ok _ _ _ _ _ (run_cell_buf _ _ mm _ Ev)).
  destruct (Hfl _ Hr) as (g & Eg & Hg). assert (index flags (fst pos) = Ok g) as Ei by (unfold index; rewrite Eg; reflexivity).
  rewrite (run_lift_bind _ _ _ _ Ei). cbv zeta. rewrite (run_bind_ok _ _ _ _ _ (run_buf_only mm)).
  destruct (Hls _ Hr) as (l & El & Ll & Hl). destruct (nth_error l (snd pos)) as [x|] eqn:Ex; [|apply nth_error_None in Ex; lia].
  assert ((row <- index ls (fst pos) ;; index row (snd pos)) = Ok x) as Ej by (unfold index; rewrite El; cbn [bind]; rewrite Ex; reflexivity).
  rewrite (run_lift_bind _ _ _ _ Ej). eexists; split; [reflexivity|].
  destruct (ep_bit cx lg k Hp fft eps Hf s S HS E g (o (fst pos)) (rlwe_allocate n) (V cell) Hg (wfc_allocate n) Wv) as [W1 N1].
  destruct (ep_bit cx lg k Hp fft eps Hf s S HS EL x (snd pos =? sl (fst pos))%nat (rlwe_allocate n) _ (Hl _ _ Ex) (wfc_allocate n) W1) as [W2 N2].
  split; [exact W2|]. pose proof (EPB_nonneg cx lg k Hp fft eps Hf s S E HS neg_s Hneg Hnegb Hnegl a Ha) as H1.
  fold EPL in N2. fold EPB in N1. unfold hit. destruct (snd pos =? sl (fst pos))%nat; cbn [andb].
  - eapply near_trans'; [exact Hn|exact N2| |].
    + eapply near_eq_l; [|eapply near_eq_r; [|exact N1]].
      * rewrite (phase_allocate n Hn). ring.
      * rewrite (phase_allocate n Hn). destruct (o (fst pos)); ring.
    + unfold growth, ep_sel, ep_fresh. lia.
  - eapply near_weaken; [eapply near_eq_r; [|exact N2]; rewrite (phase_allocate n Hn); ring|]. unfold growth, ep_sel. lia.
Qed.

Notation ph p := (phase n s (V p)).
Lemma correct_ok first rest : inr first -> Forall (fun p => inr p) rest -> cell_ok first -> Forall (fun p => cell_ok p) rest ->
  exists c, run (correct_consistency fft cx (first :: rest) ls flags) mm = (Ok c, mm) /\ wfc n c /\
    near n (phase n s c) (padd (ph first) (lsum (map (fun p => if hit p then psub (ph p) (ph first) else pzero) rest))) (2 * Z.of_nat (length rest) * G).
Proof.
  intros H1 H2 C1 C2. unfold correct_consistency. cbn [index nth_error plift pbind].
  destruct (run_pmapM_ro (fun pos => masked fft cx ls flags pos first)
     (fun p c => wfc n c /\ near n (phase n s c) (if hit p then ph first else pzero) G) (first :: rest) mm) as (v1s & Ev & HF).
  { intros p Hin. assert (inr p) as Hr by (destruct Hin as [<-|Hin]; [exact H1|]; rewrite Forall_forall in H2; apply H2; exact Hin).
    destruct (masked_ok p first Hr C1) as (c & Ec & Wc & Nc). eauto. }
  rewrite (run_bind_ok _ _ _ _ _ Ev). inversion HF as [|? v0 ? vs [W0 N0] HF']; subst. clear HF Ev.
  destruct C1 as [Ef Wf]. rewrite (run_bind_ok _ _ _ _ _ (run_cell_only _ _ mm _ Ef)). cbn [index nth_error plift pbind skipn].
  assert (forall rest0 acc, Forall (fun p => inr p) rest0 -> Forall (fun p => cell_ok p) rest0 -> wfc n acc ->
    exists c, run (pfoldM (fun acc pos => term <-- masked fft cx ls flags pos pos ;;; PRet (rlwe_add acc term)) rest0 acc) mm = (Ok c, mm) /\ wfc n c /\
      near n (phase n s c) (padd (phase n s acc) (lsum (map (fun p => if hit p then ph p else pzero) rest0))) (Z.of_nat (length rest0) * G)) as Fold.
  { induction rest0 as [|p rest0 IH]; intros acc R1 R2 Wa; cbn [pfoldM map lsum fold_right length].
    - exists acc. split; [reflexivity|]. split; [exact Wa|]. apply near_refl. ring.
    - apply Forall_cons_iff in R1 as [Hr1 R1], R2 as [Hc1 R2]. destruct (masked_ok p p Hr1 Hc1) as (t & Et & Wt & Nt).
      rewrite run_bind, run_bind, Et. cbn [run]. destruct (IH (rlwe_add acc t) R1 R2 (wfc_add n _ _ Wa Wt)) as (c & Ec & Wc & Nc).
      exists c. split; [exact Ec|]. split; [exact Wc|]. fold (lsum (map (fun p => if hit p then ph p else pzero) rest0)) in *.
      eapply near_trans'; [exact Hn|exact Nc| |].
      + rewrite (phase_add n Hn s) by assumption. eapply near_eq_l; [|eapply near_eq_r; [|eapply near_add; [exact Hn|exact Nt|eapply (near_refl n (padd (phase n s acc) (lsum (map (fun p => if hit p then ph p else pzero) rest0)))); reflexivity]]]; ring.
      + lia. }
  destruct (Fold rest v0 H2 C2 W0) as (c2 & Ec2 & Wc2 & Nc2). rewrite (run_bind_ok _ _ _ _ _ Ec2). cbn [run].
  assert (Forall (wfc n) (v0 :: vs)) as Wvs.
  { constructor; [exact W0|]. clear - HF'. induction HF' as [|p v rest vs [W _] HF IH]; constructor; assumption. }
  destruct (fold_sub (v0 :: vs) (V first) Wf Wvs) as [W1 E1]. set (ft := fold_left rlwe_sub (v0 :: vs) (V first)) in *.
  exists (rlwe_add c2 ft). split; [reflexivity|]. split; [apply wfc_add; assumption|].
  rewrite (phase_add n Hn s) by assumption. cbn [map lsum fold_right] in E1. fold (lsum (map (phase n s) vs)) in E1.
  assert (near n (lsum (map (phase n s) vs)) (lsum (map (fun p => if hit p then ph first else pzero) rest)) (Z.of_nat (length rest) * G)) as Nvs.
  { apply (near_lsum (fun _ _ => True)). clear - HF'. induction HF' as [|p v rest vs [_ N] HF IH]; constructor; assumption. }
  assert (peq n (lsum (map (fun p => if hit p then psub (ph p) (ph first) else pzero) rest))
     (psub (lsum (map (fun p => if hit p then ph p else pzero) rest)) (lsum (map (fun p => if hit p then ph first else pzero) rest)))) as Es.
  { generalize rest. clear rest H2 C2 HF' Nc2 Ec2 Nvs Wvs W1 E1 ft. intros rest. induction rest as [|p rest IH]; cbn [map lsum fold_right]; [ring|].
    fold (lsum (map (fun p => if hit p then psub (ph p) (ph first) else pzero) rest)) (lsum (map (fun p => if hit p then ph p else pzero) rest))
      (lsum (map (fun p => if hit p then ph first else pzero) rest)). rewrite IH. destruct (hit p); ring. }
  rewrite Es. eapply near_weaken; [eapply near_eq_l; [|eapply near_eq_r; [|eapply near_add; [exact Hn|exact Nc2|eapply near_sub; [exact Hn|eapply (near_refl n (psub (ph first) (phase n s v0))); reflexivity|exact Nvs]]]]|].
  - rewrite E1. ring.
  - ring.
  - lia.
Qed.
End Cons.

(** Storing one value at several positions. *)
Lemma run_puts v : forall ps mm, (forall p, In p ps -> mget mm (fst p) (snd p) <> None) ->
  exists us m', run (pmapM (fun rc => put (fst rc) (snd rc) v) ps) mm = (Ok us, m') /\ shape m' = shape mm /\
    (forall p, In p ps -> mget m' (fst p) (snd p) = Some v) /\
    forall r c, ~ In (r, c) ps -> mget m' r c = mget mm r c.
Proof.
  induction ps as [|p ps IH]; intros mm Hin; cbn [pmapM].
  - exists [], mm. repeat split; auto. intros ? [].
  - destruct (mget mm (fst p) (snd p)) as [v0|] eqn:Ev; [|exfalso; exact (Hin p (or_introl eq_refl) Ev)].
    rewrite (run_bind_ok _ _ _ _ _ (run_put _ _ v mm v0 Ev)).
    assert (forall r c, mget (mset mm (fst p) (snd p) v) r c = if ((r =? fst p) && (c =? snd p))%nat then Some v else mget mm r c) as Hget.
    { intros r c. rewrite mget_mset, (Nat.eqb_sym (fst p)), (Nat.eqb_sym (snd p)). destruct (Nat.eqb_spec r (fst p)) as [->|], (Nat.eqb_spec c (snd p)) as [->|]; cbn; try reflexivity. rewrite Ev. reflexivity. }
    destruct (IH (mset mm (fst p) (snd p) v)) as (us & m' & Em & Hs & Hp' & Hu).
    { intros p' Hp'. rewrite Hget. destruct ((fst p' =? fst p) && (snd p' =? snd p))%nat; [discriminate|]. apply Hin. right; exact Hp'. }
    rewrite (run_bind_ok _ _ _ _ _ Em). exists (tt :: us), m'. split; [reflexivity|]. split; [rewrite Hs; apply mset_shape|]. split.
    + intros p' Hin'. destruct (in_dec (prod_dec Nat.eq_dec Nat.eq_dec) p' ps) as [Hi|Hni]; [apply Hp'; exact Hi|].
      destruct Hin' as [<-|Hi]; [|contradiction]. rewrite Hu by (rewrite <- surjective_pairing; exact Hni). rewrite Hget, !Nat.eqb_refl. reflexivity.
    + intros r c Hni. rewrite Hu by (intros H; apply Hni; right; exact H). rewrite Hget.
      destruct (Nat.eqb_spec r (fst p)) as [->|], (Nat.eqb_spec c (snd p)) as [->|]; cbn; try reflexivity. exfalso. apply Hni. left. apply surjective_pairing.
Qed.
End Or.
