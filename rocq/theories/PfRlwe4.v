(** * RGSW key switching, comparisons, NOT, in-place products, decoding, noise *)
From Coq Require Import Setoid Morphisms Ring.
From Verif Require Import MBase MUtils MCodec MPoly MRlwe SpecLwe PolyRing PfPoly PfDecomp PfNear PfRlwe PfRlwe2 PfRlwe3 PfCodec.
Local Open Scope Z_scope.

Section Rl.
Variable n : nat.
Hypothesis Hn : (0 < n)%nat.
Add Ring Pring : (P_ring n Hn) (setoid (peq_equiv n) (P_ext n)).
Notation nil_ct := {| mask := []; body := [] |}.

(** ** External product with rows -g*u and g*v *)
Lemma external_product_general fft eps g out d s u v E S U V :
  fft_ok n fft (Dg g) (2 * g_level g) eps -> wfg n g ->
  (forall i, (i < g_level g)%nat ->
    near n (phase n s (row0 g i)) (popp (pmul n (pcst (gadget (g_base g) (i + 1))) u)) E /\
    near n (phase n s (row1 g i)) (pmul n (pcst (gadget (g_base g) (i + 1))) v) E) ->
  wfc n out -> wfc n d -> l1 n (tof s) S -> l1 n u U -> l1 n v V ->
  near n (phase n s (external_product fft g out d))
         (padd (phase n s out) (psub (pmul n v (tof (body d))) (pmul n u (tof (mask d)))))
         (Z.of_nat (g_level g) * (2 * (Z.of_nat n * 2 ^ (Z.of_nat (g_base g) - 1) * E))
          + (V + U) * 2 ^ (63 - Z.of_nat (g_base g * g_level g)) + (1 + S) * eps).
Proof.
  intros Hf Hg HE Ho Hd HS HU HV.
  pose proof Hg as ((Hb & Hl & Hbl) & L & F).
  set (b := g_base g) in *. set (l := g_level g) in *.
  assert (Hfm := fft_near n fft _ _ _ (ep_terms mask g d) Hf ltac:(rewrite (ep_terms_length n Hn); unfold l; lia)
                   (ep_terms_wf n Hn mask g d ltac:(intros c Hc; apply Hc) Hg Hd)).
  assert (Hfb := fft_near n fft _ _ _ (ep_terms body g d) Hf ltac:(rewrite (ep_terms_length n Hn); unfold l; lia)
                   (ep_terms_wf n Hn body g d ltac:(intros c Hc; apply Hc) Hg Hd)).
  assert (Hwm := fft_wf n fft _ _ _ (ep_terms mask g d) Hf ltac:(rewrite (ep_terms_length n Hn); unfold l; lia)
                   (ep_terms_wf n Hn mask g d ltac:(intros c Hc; apply Hc) Hg Hd)).
  assert (Hwb := fft_wf n fft _ _ _ (ep_terms body g d) Hf ltac:(rewrite (ep_terms_length n Hn); unfold l; lia)
                   (ep_terms_wf n Hn body g d ltac:(intros c Hc; apply Hc) Hg Hd)).
  set (dm := fun i => tof (nth i (decompose_poly b l (mask d)) [])).
  set (db := fun i => tof (nth i (decompose_poly b l (body d)) [])).
  set (G := fun i => pcst (gadget b (l - i))).
  assert (peq n (phase n s (external_product fft g out d))
    (padd (phase n s out) (psub (tof (fft (ep_terms body g d))) (pmul n (tof s) (tof (fft (ep_terms mask g d))))))) as ->.
  { unfold phase, external_product, add_backward. cbn [mask body].
    rewrite !(tof_add n) by (auto using wfc_mask, wfc_body; apply wfp_len; assumption). ring. }
  rewrite <- Z.add_0_l. apply near_add; [exact Hn|apply near_refl; reflexivity|].
  rewrite Z.add_comm.
  eapply near_trans; [exact Hn|..].
  { replace ((1 + S) * eps) with (eps + S * eps) by ring.
    apply near_sub; [exact Hn|exact Hfb|]. apply near_mul_l1; [exact Hn|exact HS|exact Hfm]. }
  rewrite !(ep_terms_exact n Hn). fold b l.
  eapply (near_eq_l n (psumf l (fun i => padd (pmul n (phase n s (row0 g (l - 1 - i))) (dm i)) (pmul n (phase n s (row1 g (l - 1 - i))) (db i))))).
  { rewrite <- (psumf_mul_l n Hn), <- (psumf_sub n Hn). apply psumf_ext. intros i Hi. unfold phase, dm, db. ring. }
  eapply near_trans; [exact Hn|..].
  { apply near_psumf with (B := 2 * (Z.of_nat n * 2 ^ (Z.of_nat b - 1) * E))
      (G := fun i => padd (pmul n (popp (pmul n (G i) u)) (dm i)) (pmul n (pmul n (G i) v) (db i))); [exact Hn| |].
    { destruct (HE 0%nat ltac:(lia)) as [K _]. pose proof (near_nonneg n Hn _ _ _ K).
      assert (0 < 2 ^ (Z.of_nat b - 1)) by (apply Z.pow_pos_nonneg; lia). nia. }
    intros i Hi. destruct (HE (l - 1 - i)%nat ltac:(lia)) as [K0 K1].
    replace (l - 1 - i + 1)%nat with (l - i)%nat in K0, K1 by lia.
    destruct (digits_wf n b l (mask d) i Hb Hl Hbl (proj1 Hd) Hi) as [W0 B0].
    destruct (digits_wf n b l (body d) i Hb Hl Hbl (proj2 Hd) Hi) as [W1 B1].
    replace (2 * (Z.of_nat n * 2 ^ (Z.of_nat b - 1) * E)) with
      (Z.of_nat n * 2 ^ (Z.of_nat b - 1) * E + Z.of_nat n * 2 ^ (Z.of_nat b - 1) * E) by ring.
    apply near_add; [exact Hn|..]; apply near_mul_bd; try exact Hn; try assumption;
      apply sbound_bd; assumption. }
  apply (near_eq_l n (psub (pmul n v (tof (closest_poly b l (body d)))) (pmul n u (tof (closest_poly b l (mask d)))))).
  { rewrite <- !(decompose_poly_sum n b l _ Hn Hb Hl Hbl) by apply Hd. fold dm db.
    rewrite <- !(psumf_mul_l n Hn), <- (psumf_sub n Hn). apply psumf_ext. intros i Hi.
    unfold G. fold (dm i) (db i). ring. }
  rewrite Z.mul_add_distr_r. assert (1 <= b * l < 64)%nat by nia.
  apply near_sub; [exact Hn|..].
  - apply near_mul_l1; [exact Hn|exact HV|apply closest_poly_near; [assumption|apply Hd]].
  - apply near_mul_l1; [exact Hn|exact HU|apply closest_poly_near; [assumption|apply Hd]].
Qed.

Lemma from_keyswitch_key_ok (before : P) after key E :
  ksk_switches n before after key E ->
  exists g, from_keyswitch_key key = Ok g /\ g_base g = k_base key /\ g_level g = k_level key /\ wfg n g /\
  (forall i, (i < g_level g)%nat ->
    near n (phase n after (row0 g i)) (popp (pmul n (pcst (gadget (g_base g) (i + 1))) before)) E /\
    near n (phase n after (row1 g i)) (pmul n (pcst (gadget (g_base g) (i + 1))) (pcst 1)) E).
Proof.
  intros HK. pose proof (ksk_E n Hn _ _ _ _ HK) as HE. destruct HK as (En & (Hb & Hl & Hbl) & HL & HF & HK).
  unfold from_keyswitch_key. rewrite HL, Nat.eqb_refl. cbn [rassert bind]. rewrite En. cbv zeta.
  set (h := fun i => if Nat.even i
     then update_body_with_sub (update_mask_with_sub (rlwe_allocate n) (mask (nth (i / 2) (k_ksks key) nil_ct))) (body (nth (i / 2) (k_ksks key) nil_ct))
     else {| mask := mask (rlwe_allocate n); body := upd (body (rlwe_allocate n)) 0 (gadget (k_base key) (i / 2 + 1)) |}).
  rewrite (mapM_ok _ h).
  2:{ intros i Hi. apply in_seq in Hi. rewrite (index_ok (k_ksks key) (i / 2) nil_ct); [|rewrite HL; apply Nat.div_lt_upper_bound; lia].
      cbn [bind]. unfold h. destruct (Nat.even i); reflexivity. }
  cbn [bind]. eexists; split; [reflexivity|]. cbn [g_base g_level]. split; [reflexivity|]. split; [reflexivity|].
  rewrite Forall_forall in HF.
  assert (forall i, (i < k_level key)%nat -> wfc n (nth i (k_ksks key) nil_ct)) as Wk by (intros i Hi; apply HF, nth_In; lia).
  assert (forall i, (i < k_level key)%nat -> wfp n (upd (poly_zero n) 0 (gadget (k_base key) (i + 1)))
           /\ peq n (tof (upd (poly_zero n) 0 (gadget (k_base key) (i + 1)))) (pcst (gadget (k_base key) (i + 1)))) as Wu.
  { intros i Hi. split.
    - split; [rewrite upd_length; apply repeat_length|]. apply Forall_forall. intros x Hx.
      apply In_nth with (d := 0) in Hx as (j & _ & <-). rewrite nth_upd by (unfold poly_zero; rewrite repeat_length; exact Hn).
      destruct (0 =? j)%nat; [apply gadget_word; nia|]. unfold poly_zero. rewrite nth_repeat. split; [lia|reflexivity].
    - intros k Hk. unfold tof. rewrite nth_upd by (unfold poly_zero; rewrite repeat_length; exact Hn).
      destruct k; cbn [Nat.eqb pcst]; [reflexivity|]. unfold poly_zero. rewrite nth_repeat. reflexivity. }
  assert (forall i, (i < 2 * k_level key)%nat -> wfc n (h i)) as Wh.
  { intros i Hi. assert (i / 2 < k_level key)%nat as Hi2 by (apply Nat.div_lt_upper_bound; lia).
    unfold h. destruct (Nat.even i).
    - split; cbn; (apply wfp_sub; [apply repeat_length|]); [apply wfc_mask|apply wfc_body]; auto.
    - split; cbn; [apply wfp_zero|]. apply (Wu (i / 2)%nat Hi2). }
  split.
  - split; [repeat split; assumption|]. cbn [g_rows g_level]. split; [rewrite map_length, seq_length; reflexivity|].
    apply Forall_forall. intros c Hc. apply in_map_iff in Hc as (i & <- & Hi). apply in_seq in Hi. apply Wh. lia.
  - intros i Hi. unfold row0, row1. cbn [g_rows]. rewrite !nth_map_seq by lia. unfold h.
    rewrite even_double, even_double1, div_double, div_double1. split.
    + apply (near_eq_l n (popp (phase n after (nth i (k_ksks key) nil_ct)))).
      { unfold phase. cbn [update_body_with_sub update_mask_with_sub rlwe_allocate mask body].
        pose proof (Wk i Hi) as Wki.
        rewrite (tof_sub n (poly_zero n) (mask (nth i (k_ksks key) nil_ct))) by (try apply repeat_length; apply wfc_mask, Wki).
        rewrite (tof_sub n (poly_zero n) (body (nth i (k_ksks key) nil_ct))) by (try apply repeat_length; apply wfc_body, Wki).
        rewrite tof_zero. ring. }
      apply near_opp; [exact Hn|]. apply HK. exact Hi.
    + apply near_eq; [exact HE|]. unfold phase. cbn [mask body rlwe_allocate].
      rewrite (proj2 (Wu i Hi)). rewrite tof_zero. ring.
Qed.
End Rl.
