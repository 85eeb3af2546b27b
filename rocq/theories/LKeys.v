(** * Lemmas in the form of the theorems of PKeys.v (second part) *)
From Coq Require Import Setoid Morphisms Ring.
From Verif Require Import MBase MUtils MCodec MPoly MRlwe SpecLwe PolyRing PfPoly PfDecomp PfNear PfCodec
  PfRlwe PfRlwe2 PfRlwe3 PfRlwe4 PfRlwe5 LRlwe.
Local Open Scope Z_scope.

Lemma nrm_coef_encrypt n s pt E d k : (0 < n)%nat -> length pt = n -> draw_ok n E d -> (k < n)%nat ->
  nrm (phase n s (encrypt_rlwe n s pt d) k - nth k pt 0) <= E.
Proof.
  intros Hn Hp Hd Hk. rewrite (nrm_eqm _ (tof (d_noise d) k)); [apply Hd; exact Hk|].
  rewrite (phase_encrypt n Hn s pt E d Hp Hd k Hk). unfold padd, tof. apply eq_eqm. ring.
Qed.

Lemma make_decomposed_gen_ok n lg check cx s b tern t E :
  (0 < n)%nat -> c_n cx = n -> b = 0 \/ b = 1 -> (1 <= c_base cx)%nat -> (c_base cx * c_level cx + lg <= 64)%nat ->
  tape_ok n E t -> (forall i, length (tern i) = n) ->
  exists cs, make_decomposed_gen cx s b lg check tern t = Ok cs /\ expand_inputs n lg cx s b E cs.
Proof.
  intros Hn En Hb Hb1 Hbl Ht Hte. unfold make_decomposed_gen. rewrite En.
  assert ((b =? 1) || (b =? 0) = true) as -> by (destruct Hb as [->| ->]; reflexivity). cbn [rassert bind].
  set (f := fun i => encrypt_rlwe n s (upd (tern i) 0 (wrap (b * 2 ^ (64 - Z.of_nat (c_base cx * (i + 1)) - Z.of_nat lg)))) (t i)).
  assert (forall i, (i < c_level cx)%nat -> (1 <= c_base cx * (i + 1) /\ c_base cx * (i + 1) + lg <= 64)%nat) as Hi.
  { intros i Hi. split; [nia|]. transitivity (c_base cx * c_level cx + lg)%nat; [|exact Hbl]. apply Nat.add_le_mono_r, Nat.mul_le_mono_l. lia. }
  rewrite (mapM_ok _ f).
  2:{ intros i H. apply in_seq in H. destruct (Hi i ltac:(lia)) as [H1 H2].
      rewrite (proj2 (Nat.leb_le _ _) H2). rewrite orb_true_r. cbn [rassert bind].
      rewrite usub_ok by lia. cbn [bind]. rewrite usub_ok by lia. cbn [bind]. rewrite ushl_ok by lia. reflexivity. }
  eexists; split; [reflexivity|]. split; [rewrite map_length, seq_length; reflexivity|]. split.
  - apply Forall_forall. intros c Hc. apply in_map_iff in Hc as (i & <- & _). eapply wfc_encrypt; [|apply Ht].
    rewrite upd_length. apply Hte.
  - intros i H. destruct (Hi i H) as [H1 H2]. rewrite nth_map_seq by exact H. unfold f.
    set (v := b * 2 ^ (64 - Z.of_nat (c_base cx * (i + 1)) - Z.of_nat lg)).
    assert (wrap v = v) as ->.
    { apply wrap_id. unfold v. assert (2 ^ (64 - Z.of_nat (c_base cx * (i + 1)) - Z.of_nat lg) < q) by (apply Z.pow_lt_mono_r; lia).
      assert (0 <= 2 ^ (64 - Z.of_nat (c_base cx * (i + 1)) - Z.of_nat lg)) by (apply Z.pow_nonneg; lia).
      unfold is_word. destruct Hb as [->| ->]; lia. }
    assert (v = nth 0 (upd (tern i) 0 v) 0) as Ev by (rewrite nth_upd by (rewrite Hte; exact Hn); reflexivity).
    rewrite Ev at 2. apply nrm_coef_encrypt; [exact Hn|rewrite upd_length; apply Hte|apply Ht|exact Hn].
Qed.

Lemma make_decomposed_C24 lg cx s b tern t E :
  c_n cx = (2 ^ lg)%nat -> b = 0 \/ b = 1 -> (1 <= c_base cx)%nat -> (c_base cx * c_level cx + lg <= 64)%nat ->
  tape_ok (c_n cx) E t -> (forall i, length (tern i) = c_n cx) ->
  exists cs, make_decomposed_rlwe_ct cx s b tern t = Ok cs /\ expand_inputs (c_n cx) lg cx s b E cs.
Proof.
  intros Hlg Hb Hb1 Hbl Ht Hte. unfold make_decomposed_rlwe_ct. rewrite Hlg, Nat.log2_pow2 by lia. rewrite <- Hlg.
  apply make_decomposed_gen_ok; auto. rewrite Hlg. apply pow2_pos.
Qed.

(** The bound of expand with keys generated by the library from a binary key. *)
Lemma expand_C24 lg cx fft eps s tk tn Ek En b E cs :
  c_n cx = (2 ^ lg)%nat -> (1 <= lg)%nat -> binary_key (c_n cx) s ->
  decomp_ok (c_base cx) (c_level cx) -> (c_base cx * c_level cx + lg <= 64)%nat ->
  decomp_ok (c_ks_base cx) (c_ks_level cx) ->
  c_negs_base cx = c_base cx -> decomp_ok (c_base cx) (c_negs_level cx) ->
  tape_ok (c_n cx) Ek tk -> tape_ok (c_n cx) En tn ->
  fft_ok (c_n cx) fft (2 ^ (Z.of_nat (c_ks_base cx) - 1)) (c_ks_level cx + 1) eps ->
  fft_ok (c_n cx) fft (2 ^ (Z.of_nat (c_base cx) - 1)) (2 * c_negs_level cx) eps ->
  expand_inputs (c_n cx) lg cx s b E cs ->
  let N := Z.of_nat (c_n cx) in
  let n := c_n cx in
  exists ksks neg_s, gen_all_subs_ksk cx s tk = Ok ksks /\ neg_gsw cx s tn = Ok neg_s /\
  (exists g, expand fft cx ksks neg_s cs = Ok g /\ g_base g = c_base cx /\ g_level g = c_level cx /\
     rgsw_encrypts n s g (pcst b)
       (expand_bound n N E (ks_bound n (c_ks_base cx) (c_ks_level cx) N N Ek (Z.of_nat (c_ks_level cx) * eps))
                     (ep_bound n (c_base cx) (c_negs_level cx) N N En eps))) /\
  (exists g, expand_fourier fft cx ksks neg_s cs = Ok g /\ g_base g = c_base cx /\ g_level g = c_level cx /\
     rgsw_encrypts n s g (pcst b)
       (expand_bound n N E (ks_bound n (c_ks_base cx) (c_ks_level cx) N N Ek eps)
                     (ep_bound n (c_base cx) (c_negs_level cx) N N En eps))).
Proof.
  intros Hlg Hlg1 Hs Hd Hbl Hdk Hnb Hdn Htk Htn Hf1 Hf2 Hin N n.
  assert (0 < c_n cx)%nat as Hn by (rewrite Hlg; apply pow2_pos).
  pose proof (binary_key_wf _ s Hs) as Ws. pose proof (binary_key_l1 _ s Hs) as HS.
  destruct (gen_all_subs_ksk_ok (c_n cx) Hn lg Hlg cx s tk Ek eq_refl Ws Hdk Htk) as (m & Em & Hm).
  destruct (neg_gsw_encrypts (c_n cx) Hn cx s tn En eq_refl Hs Hnb Hdn Htn) as (g & Eg & Gb & Gl & Rg).
  exists m, g. split; [exact Em|]. split; [exact Eg|].
  assert (fft_ok (c_n cx) fft (Dgb (g_base g)) (2 * g_level g) eps) as Hf2' by (rewrite Gb, Gl; exact Hf2).
  split.
  - destruct (expand_ok (c_n cx) Hn lg Hlg fft eps cx m s cs g b E Ek En N) as (g' & Eg' & Gb' & Gl' & R'); try assumption; try reflexivity.
    { eapply fft_ok_weaken; [| |exact Hf1]; [apply Z.le_refl|lia]. }
    exists g'. rewrite Gb, Gl in R'. auto.
  - destruct (expand_fourier_ok (c_n cx) Hn lg Hlg fft eps cx m s cs g b E Ek En N) as (g' & Eg' & Gb' & Gl' & R'); try assumption; try reflexivity.
    exists g'. rewrite Gb, Gl in R'. auto.
Qed.

Section Radd.
Variable n : nat.
Hypothesis Hn : (0 < n)%nat.
Add Ring Pring : (P_ring n Hn) (setoid (peq_equiv n) (P_ext n)).
Lemma rgsw_add_C18 s g g' m m' E E' :
  rgsw_encrypts n s g m E -> rgsw_encrypts n s g' m' E' -> g_base g = g_base g' -> g_level g = g_level g' ->
  rgsw_encrypts n s (rgsw_add g g') (padd m m') (E + E').
Proof.
  intros [(Wd & Wl & Wf) R] [(Wd' & Wl' & Wf') R'] Eb El. set (z := {| mask := []; body := [] |}).
  assert (forall i, (i < 2 * g_level g)%nat -> nth i (g_rows (rgsw_add g g')) z = rlwe_add (nth i (g_rows g) z) (nth i (g_rows g') z)) as HN.
  { intros i Hi. cbn [rgsw_add g_rows]. apply map2_nth; lia. }
  assert (forall i, (i < 2 * g_level g)%nat -> wfc n (nth i (g_rows g) z) /\ wfc n (nth i (g_rows g') z)) as HW.
  { intros i Hi. rewrite Forall_forall in Wf, Wf'. split; [apply Wf|apply Wf']; apply nth_In; lia. }
  split.
  - split; [exact Wd|]. cbn [rgsw_add g_level]. split; [cbn [rgsw_add g_rows]; rewrite map2_length by lia; exact Wl|].
    apply Forall_forall. intros c Hc. apply In_nth with (d := z) in Hc as (i & Hi & <-).
    cbn [rgsw_add g_rows] in Hi. rewrite map2_length in Hi by lia.
    rewrite HN by lia. apply wfc_add; apply HW; lia.
  - cbn [rgsw_add g_level g_base]. intros i Hi. destruct (R i Hi) as [R0 R1]. destruct (R' i ltac:(lia)) as [R0' R1'].
    rewrite <- Eb in R0', R1'. unfold row0, row1 in *. fold z in R0, R1, R0', R1' |- *.
    split.
    + rewrite HN by lia. eapply near_eq_l; [apply (phase_add n Hn); apply HW; lia|].
      eapply near_eq_r; [|apply near_add; [exact Hn|exact R0|exact R0']]. ring.
    + rewrite HN by lia. eapply near_eq_l; [apply (phase_add n Hn); apply HW; lia|].
      eapply near_eq_r; [|apply near_add; [exact Hn|exact R1|exact R1']]. ring.
Qed.
End Radd.
(** Empty input panics. *)
Lemma expand_empty fft cx m g : expand fft cx m g [] = Panic PIndex /\ expand_fourier fft cx m g [] = Panic PIndex.
Proof. split; reflexivity. Qed.
