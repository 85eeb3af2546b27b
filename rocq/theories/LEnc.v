(** * Lemmas in the form used by PEnc *)
From Verif Require Import MBase MUtils MCodec MPoly MRlwe MTree MEncTree SpecLwe SpecTree SpecEnc PfNear PfRlwe PfRlwe3 PfRlwe5 PfTree LRlwe PfEnc PfEnc2 PfEnc3 PfEnc4.
Local Open Scope Z_scope.

Lemma mapM_Forall2 {A B C} (f : B -> res C) (R : A -> B -> Prop) (Q : A -> C -> Prop) l l' :
  Forall2 R l l' -> (forall x y, In x l -> R x y -> exists z, f y = Ok z /\ Q x z) ->
  exists r, mapM f l' = Ok r /\ Forall2 Q l r.
Proof.
  induction 1 as [|x y l l' HR HF IH]; intros H; cbn [mapM]; [eexists; split; [reflexivity|constructor]|].
  destruct (H x y (or_introl eq_refl) HR) as (z & -> & Qz). cbn [bind].
  destruct IH as (r & -> & Hr); [intros; eapply H; [right; eassumption|assumption]|]. cbn [bind].
  eexists; split; [reflexivity|]. constructor; assumption.
Qed.
Lemma mapM_combine_F2 {A B C} (f : B * A -> res C) (R : A -> B -> Prop) (Q : A -> C -> Prop) l l' :
  Forall2 R l l' -> (forall x y, In x l -> R x y -> exists z, f (y, x) = Ok z /\ Q x z) ->
  exists r, mapM f (combine l' l) = Ok r /\ Forall2 Q l r.
Proof.
  induction 1 as [|x y l l' HR HF IH]; intros H; cbn [combine mapM]; [eexists; split; [reflexivity|constructor]|].
  destruct (H x y (or_introl eq_refl) HR) as (z & -> & Qz). cbn [bind].
  destruct IH as (r & -> & Hr); [intros; eapply H; [right; eassumption|assumption]|]. cbn [bind].
  eexists; split; [reflexivity|]. constructor; assumption.
Qed.

Lemma simulate_C39 lg k cx fft eps s S E model features t :
  params_ok cx lg k -> fft_for cx fft eps -> binary_key (c_n cx) s -> l1 (c_n cx) (tof s) S -> tape_ok (c_n cx) E t ->
  (exists th f ix op l r, model = Internal th f ix op l r) ->
  (forall th f ix op l r, sub (Internal th f ix op l r) model -> (th < c_n cx)%nat) ->
  Forall (fun x => Z.of_nat x < 2 ^ 48) (labels model) -> (exists y, In y (labels model) /\ y <> 0%nat) ->
  Forall (fun fs => evaluable model fs /\ Forall (fun v => (v < c_n cx)%nat) fs) features ->
  2 * (Z.of_nat (list_sum (leaf_depths model)) *
       ep_bound (c_n cx) (c_base cx) (c_level cx) S 1 (decision_noise cx S E eps) eps) < 2 ^ (64 - k) ->
  exists preds, simulate fft cx s model features t = Ok preds /\
    Forall2 (fun fs p => exists x, predicts model fs x /\ p = Z.of_nat x) features preds.
Proof.
  intros Hp Hf Hs HS Ht Hi Hth Hlab Hnz Hfs HB. unfold simulate.
  pose proof (params_n cx lg k Hp) as Hn. pose proof Hp as (Hlg & _ & _ & _ & Hdk & Hdn & Hnb & _).
  destruct (neg_gsw_encrypts (c_n cx) Hn cx s (split t 0) E eq_refl Hs Hnb Hdn (tape_split _ _ _ _ Ht)) as (neg & -> & Gb & Gl & Rg).
  cbn [bind].
  destruct (gen_all_subs_ksk_ok (c_n cx) Hn lg Hlg cx s (split t 1) E eq_refl (binary_key_wf _ _ Hs) Hdk (tape_split _ _ _ _ Ht)) as (m & -> & Hm).
  cbn [bind].
  rewrite Forall_forall in Hfs.
  destruct (mapM_combine_ok (fun jf => encrypt_feature_vector cx s (snd jf) (split t (2 + fst jf)))
      (fun fs css => Forall2 (feature_cts cx lg s E) fs css) features 0) as (css & Ecss & Fcss).
  { intros j fs Hin. cbn [fst snd]. apply (feature_vector_ok cx lg k Hp); [apply Hfs; exact Hin|apply tape_split; exact Ht]. }
  rewrite Ecss. cbn [bind].
  destruct (mapM_Forall2 (server_f fft cx model neg m) _
     (fun fs outs => exists x, predicts model fs x /\ decrypt_and_recompose cx s outs = Ok (Z.of_nat x)) _ _ Fcss) as (outs & Eo & Fo).
  { intros fs cs Hin Hcs. destruct (Hfs fs Hin) as [He Hv].
    destruct (server_ok cx lg k Hp fft eps Hf s S E HS m neg Hm Rg Gb Gl model fs cs Hi He Hv Hth Hcs Hlab)
      as (x & o & Px & Eo & _ & _ & _ & Do).
    exists o. split; [exact Eo|]. exists x. split; [exact Px|]. apply Do; assumption. }
  rewrite Eo. cbn [bind].
  apply (mapM_combine_F2 _ _ _ _ _ Fo). intros fs o Hin (x & Px & Ex). unfold check_prediction. cbn [fst snd]. rewrite Ex. cbn [bind].
  destruct (Hfs fs Hin) as [He Hv].
  assert (eval model fs = Ok x) as -> by (apply eval_iff; split; assumption). cbn [bind]. rewrite Z.eqb_refl. cbn [rassert bind].
  eauto.
Qed.

(** When all labels are 0 no ciphertext is returned and the recomposition panics. *)
Lemma all_zero_C36 cx fft s k t e cts :
  1 <= k <= 63 -> codec_new (c_mode cx) (2 ^ k) = Ok (c_codec cx) -> (0 < c_n cx)%nat ->
  enc_matches e t cts -> (forall y, In y (labels t) -> y = 0%nat) ->
  enc_eval fft cx e = Ok [] /\ decrypt_and_recompose cx s [] = Panic PExplicit.
Proof.
  intros Hk Hc Hn Hm Hz. split; [|reflexivity].
  destruct (trivial_one_ok cx k Hk Hc Hn) as (c & Ec & _). unfold enc_eval. rewrite Ec. cbn [bind].
  assert (list_max (labels t) = 0)%nat as Hmax.
  { assert (list_max (labels t) <= 0)%nat; [|lia]. apply list_max_le. apply Forall_forall. intros y Hy. rewrite (Hz y Hy). lia. }
  unfold max_leaf_bits. rewrite (max_leaf_labels t e cts Hm), Hmax. cbn [Nat.add]. change (Nat.log2_up 1) with 0%nat. cbn [repeat].
  f_equal. assert (forall (e' : enc_node rgsw) b, eval_enc_node fft (c_n cx) [] e' b = []) as G; [|apply G].
  clear. induction e' as [x|ct l r IHl IHr] using (@enc_node_ind' rgsw); intros b; [reflexivity|].
  cbn [eval_enc_node]. destruct l as [a|]; [rewrite (IHl a eq_refl)|]; (destruct r as [a'|]; [apply (IHr a' eq_refl)|reflexivity]).
Qed.

(** ** C37, C38 *)
Lemma demux_C37 cx fft eps base level s S E gs xs b :
  (0 < c_n cx)%nat -> fft_ok (c_n cx) fft (2 ^ (Z.of_nat base - 1)) (2 * level) eps -> l1 (c_n cx) (tof s) S ->
  Forall2 (fun g x => const_ct (c_n cx) s base level E (b2z x) g) gs xs -> gs <> [] -> wfc (c_n cx) b ->
  exists outs, demux_with fft cx b gs = Ok outs /\ length outs = (2 ^ length gs)%nat /\
    forall j c, nth_error outs j = Some c -> wfc (c_n cx) c /\
      near (c_n cx) (phase (c_n cx) s c) (if (j =? msb_value (map negb xs))%nat then phase (c_n cx) s b else pzero)
           (Z.of_nat (length gs) * ep_bound (c_n cx) base level S 1 E eps).
Proof.
  intros Hn Hf HS HF Hne Wb.
  destruct (demux_rec_ok (c_n cx) Hn fft base level eps Hf s S E HS gs xs b HF Hne Wb) as (outs & Eo & Lo & Wo & No).
  exists outs. split; [exact Eo|]. split; [exact Lo|]. intros j c Hj.
  assert (j < 2 ^ length gs)%nat as Hlt by (rewrite <- Lo; apply nth_error_Some; congruence).
  rewrite <- (nth_error_nth _ _ nilc Hj). split; [apply nth_wfc; [exact Wo|lia]|]. apply No. exact Hlt.
Qed.

Lemma demux_unit_C37 cx fft eps base level s S E gs xs k :
  (0 < c_n cx)%nat -> 1 <= k <= 63 -> codec_new (c_mode cx) (2 ^ k) = Ok (c_codec cx) ->
  fft_ok (c_n cx) fft (2 ^ (Z.of_nat base - 1)) (2 * level) eps -> l1 (c_n cx) (tof s) S ->
  Forall2 (fun g x => const_ct (c_n cx) s base level E (b2z x) g) gs xs -> gs <> [] ->
  exists outs, demux fft cx gs = Ok outs /\ length outs = (2 ^ length gs)%nat /\
    forall j c, nth_error outs j = Some c -> wfc (c_n cx) c /\
      near (c_n cx) (phase (c_n cx) s c) (if (j =? msb_value (map negb xs))%nat then pcst (2 ^ (64 - k)) else pzero)
           (Z.of_nat (length gs) * ep_bound (c_n cx) base level S 1 E eps).
Proof.
  intros Hn Hk Hc Hf HS HF Hne. destruct (trivial_one_ok cx k Hk Hc Hn) as (b & Eb & Wb & Nb).
  unfold demux. rewrite Eb. cbn [bind].
  destruct (demux_C37 cx fft eps base level s S E gs xs b Hn Hf HS HF Hne Wb) as (outs & Eo & Lo & No).
  exists outs. split; [exact Eo|]. split; [exact Lo|]. intros j c Hj. destruct (No j c Hj) as [Wc Nc]. split; [exact Wc|].
  destruct (j =? _)%nat; [|exact Nc].
  eapply near_trans'; [exact Hn|exact Nc|apply Nb|lia].
Qed.

Lemma select_C38 cx fft eps s S E i m t b :
  (0 < c_n cx)%nat -> (2 <= m)%nat -> Z.of_nat m < 2 ^ 64 -> wfp (c_n cx) s -> decomp_ok (c_base cx) (c_level cx) -> tape_ok (c_n cx) E t ->
  fft_ok (c_n cx) fft (2 ^ (Z.of_nat (c_base cx) - 1)) (2 * c_level cx) eps -> l1 (c_n cx) (tof s) S -> wfc (c_n cx) b ->
  exists gs outs, bit_decomposed_rgsw cx s i m t = Ok gs /\ length gs = Nat.log2 m /\ demux_with fft cx b gs = Ok outs /\
    length outs = (2 ^ Nat.log2 m)%nat /\
    forall j c, nth_error outs j = Some c -> wfc (c_n cx) c /\
      near (c_n cx) (phase (c_n cx) s c) (if (j =? i mod 2 ^ Nat.log2 m)%nat then phase (c_n cx) s b else pzero)
           (Z.of_nat (Nat.log2 m) * ep_bound (c_n cx) (c_base cx) (c_level cx) S 1 E eps).
Proof.
  intros Hn Hm Hq Ws Hd Ht Hf HS Wb.
  destruct (bit_decomposed_ok cx s i m t E Hn ltac:(lia) Hq Ws Hd Ht) as (gs & xs & Eg & Lg & Fg & Vg).
  destruct (demux_C37 cx fft eps (c_base cx) (c_level cx) s S E gs xs b Hn Hf HS Fg) as (outs & Eo & Lo & No); [|exact Wb|].
  { intros ->. cbn in Lg. assert (1 <= Nat.log2 m)%nat by (change 1%nat with (Nat.log2 2); apply Nat.log2_le_mono; exact Hm). lia. }
  exists gs, outs. rewrite Vg, Lg in *. repeat split; try assumption; apply (No j c); assumption.
Qed.
(** A power of two: the selected slot is [i] itself. *)
Lemma pow2_mod_id a i : (i < 2 ^ a)%nat -> (i mod 2 ^ Nat.log2 (2 ^ a))%nat = i.
Proof. intros H. rewrite Nat.log2_pow2 by lia. apply Nat.mod_small. exact H. Qed.
Lemma demux_empty_C37 fft cx b : demux_with fft cx b [] = Panic PAssert.
Proof. reflexivity. Qed.
