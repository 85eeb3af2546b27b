(** * Property C66: fresh and cleared ciphertexts are exact encryptions of zero under every key. *)
From Verif Require Import MBase MUtils MCodec MPoly MRlwe MLwe SpecRing SpecLwe PolyRing PfPoly PfNear PfRlwe PfDet1 PfLwe PfRlwe5 LRlwe Demo.
Local Open Scope Z_scope.

Lemma dot_zero n s : dot (repeat 0 n) s = 0.
Proof.
  unfold dot. replace (sum_list (map2 Z.mul (repeat 0 n) s)) with 0; [reflexivity|].
  revert s. induction n as [|n IH]; intros [|x s]; cbn [repeat map2]; try reflexivity. unfold sum_list in *. cbn [fold_right]. rewrite <- IH. reflexivity.
Qed.

Theorem C66_rlwe : forall n s c, (0 < n)%nat -> wfc n c ->
  wfc n (rlwe_allocate n) /\ decrypt_rlwe n s (rlwe_allocate n) = repeat 0 n /\
  rlwe_clear c = rlwe_allocate n /\
  rlwe_add (rlwe_allocate n) c = c /\ rlwe_add c (rlwe_allocate n) = c /\ rlwe_sub c (rlwe_allocate n) = c.
Proof.
  intros n s c Hn Hc. assert (rlwe_clear c = rlwe_allocate n) as Ec.
  { destruct Hc as [[Lm _] [Lb _]]. unfold rlwe_clear, rlwe_allocate. rewrite Lm, Lb. reflexivity. }
  split; [apply wfc_allocate|]. split.
  { rewrite <- Ec. apply (clear_C13 n s c c Hn Hc). }
  split; [exact Ec|]. split; [apply rlwe_add_0_l, Hc|]. split; [apply rlwe_add_0_r, Hc|].
  destruct (homomorphic_C13 n s c (rlwe_allocate n) Hn Hc (wfc_allocate n)) as (_ & _ & H & _).
  rewrite (rlwe_add_0_r n c Hc) in H. exact H.
Qed.
Print Assumptions C66_rlwe.

Theorem C66_rgsw : forall n s base level, (0 < n)%nat -> decomp_ok base level -> rgsw_encrypts n s (rgsw_allocate n base level) (pcst 0) 0.
Proof.
  intros n s base level Hn Hd.
  assert (forall i, (i < 2 * level)%nat -> nth i (g_rows (rgsw_allocate n base level)) {| mask := []; body := [] |} = rlwe_allocate n) as Hrow.
  { intros i Hi. cbn [rgsw_allocate g_rows]. rewrite (nth_indep _ _ (rlwe_allocate n)) by (rewrite repeat_length; exact Hi). apply nth_repeat. }
  split.
  - split; [exact Hd|]. split; [cbn; apply repeat_length|]. apply Forall_forall. intros c Hc. apply repeat_spec in Hc. subst c. apply wfc_allocate.
  - intros i Hi. cbn [rgsw_allocate g_level g_base] in *. unfold row0, row1. rewrite !Hrow by lia.
    pose proof (phase_allocate n Hn s) as Hp.
    split; apply near_refl; intros j Hj; (eapply eqm_trans; [apply (Hp j Hj)|]); unfold pzero, popp; apply eq_eqm.
    + rewrite pmul_pcst_exact by assumption. rewrite pmul_pcst_exact by assumption. ring.
    + rewrite pmul_pcst_exact by assumption. unfold pcst. destruct j; ring.
Qed.
Print Assumptions C66_rgsw.

Theorem C66_lwe : forall s c c' size,
  decrypt_lwe s (lwe_allocate size) = 0 /\ length (l_mask (lwe_allocate size)) = (size - 1)%nat /\
  decrypt_lwe s (lwe_clear c) = 0 /\ length (l_mask (lwe_clear c)) = length (l_mask c) /\
  lwe_fill_with_tensor c c' = c'.
Proof.
  intros s c c' size. unfold decrypt_lwe, lwe_allocate, lwe_clear. cbn [l_mask l_body]. rewrite !dot_zero, !repeat_length. repeat split.
Qed.
Print Assumptions C66_lwe.

(** Decoding: the zero plaintext. *)
Theorem C66_decodes : forall cx k s c, (0 < c_n cx)%nat -> 1 <= k <= 63 -> codec_new (c_mode cx) (2 ^ k) = Ok (c_codec cx) -> wfc (c_n cx) c ->
  decrypt_decode_rlwe cx s (rlwe_clear c) = Ok (repeat 0 (c_n cx)).
Proof.
  intros cx k s c Hn Hk Hcd Hc. pose proof (C66_rlwe (c_n cx) s c Hn Hc) as (Hw & Hd & -> & _).
  assert (forall i, nth i (repeat 0 (c_n cx)) 0 = 0) as Hz.
  { intros i. destruct (Nat.ltb_spec i (c_n cx)); [apply nth_repeat|apply nth_overflow; rewrite repeat_length; assumption]. }
  apply (decrypt_decode_near (c_n cx) Hn cx s (rlwe_allocate (c_n cx)) k (repeat 0 (c_n cx)) 0); try assumption; try reflexivity.
  - split; [apply repeat_length|]. apply Forall_forall. intros x Hx. apply repeat_spec in Hx. subst x. split; [lia|]. apply Z.pow_pos_nonneg; lia.
  - apply near_refl. intros j Hj. eapply eqm_trans; [apply (phase_allocate (c_n cx) Hn s j Hj)|]. apply eq_eqm. unfold pzero, scaled. rewrite Hz. ring.
  - rewrite Z.mul_0_r. apply Z.pow_pos_nonneg; lia.
Qed.
Print Assumptions C66_decodes.

(** *** Instances. *)
Example C66_applies : rgsw_encrypts 4 demo_s (rgsw_allocate 4 5 11) (pcst 0) 0 /\
  decrypt_decode_rlwe demo_cx demo_s (rlwe_clear (encrypt_rlwe 4 demo_s [10; 20; 30; 40] (demo_draw 3))) = Ok [0; 0; 0; 0] /\
  decrypt_lwe demo_s (lwe_clear {| l_mask := [5; 6; 7; 8]; l_body := 9 |}) = 0.
Proof.
  split; [apply C66_rgsw; [lia|exact demo_decomp]|]. split; [|apply (C66_lwe demo_s _ (lwe_allocate 0) 0)].
  apply (C66_decodes demo_cx 1); [cbn; lia|lia|reflexivity|]. eapply wfc_encrypt; [reflexivity|apply demo_draw_ok].
Qed.
