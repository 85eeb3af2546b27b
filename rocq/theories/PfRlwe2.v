(** * Key switching, substitution, trace and expansion *)
From Coq Require Import Setoid Morphisms Ring.
From Verif Require Import MBase MUtils MCodec MPoly MRlwe SpecLwe PolyRing PfPoly PfDecomp PfNear PfRlwe.
Local Open Scope Z_scope.

Section Rl.
Variable n : nat.
Hypothesis Hn : (0 < n)%nat.
Add Ring Pring : (P_ring n Hn) (setoid (peq_equiv n) (P_ext n)).

Lemma phase_phaseP s c : phase n s c = phaseP n (tof s) c.
Proof. reflexivity. Qed.

(** ** cmux *)
Lemma cmux_phase fft eps g ct0 ct1 s m E S M :
  fft_ok n fft (Dg g) (2 * g_level g) eps -> rgsw_encrypts n s g m E -> wfc n ct0 -> wfc n ct1 ->
  l1 n (tof s) S -> l1 n m M ->
  exists c, cmux fft g ct0 ct1 = Ok c /\ wfc n c /\
  near n (phase n s c) (padd (phase n s ct0) (pmul n m (psub (phase n s ct1) (phase n s ct0))))
         (ep_bound n (g_base g) (g_level g) S M E eps).
Proof.
  intros Hf Hg H0 H1 HS HM. unfold cmux. rewrite (wfc_body n _ H0), (wfc_body n _ H1), Nat.eqb_refl. cbn [rassert bind].
  eexists; split; [reflexivity|]. pose proof (wfc_sub n _ _ H1 H0) as Hs. split.
  - eapply wfc_external_product; try eassumption. apply Hg.
  - rewrite <- (phase_sub n Hn s ct1 ct0 H1 H0). eapply external_product_phase; eassumption.
Qed.

(** ** Key switching *)
Definition lsum {A B} (F : A -> B -> P) (a : list A) (b : list B) : P := fold_right padd pzero (map2 F a b).
Lemma lsum_psumf {A B} (F : A -> B -> P) a b da db : length a = length b ->
  peq n (lsum F a b) (psumf (length a) (fun i => F (nth i a da) (nth i b db))).
Proof.
  revert b; induction a as [|x a IH]; intros [|y b] H; cbn in H; try lia; [intros k _; reflexivity|].
  unfold lsum. cbn [map2 fold_right]. fold (lsum F a b). rewrite IH by lia.
  intros k Hk. unfold padd, psumf. cbn [length]. change (S (length a)) with (1 + length a)%nat. rewrite sumf_split.
  cbn [sumf nth Nat.add]. apply eq_eqm. ring.
Qed.

Lemma sub_fft_wf p q0 : length p = n -> wfp n q0 -> wfp n (poly_sub p q0).
Proof. intros Hp Hq. apply wfp_sub; [exact Hp|apply Hq]. Qed.

Lemma keyswitch_loop fft eps D (s : poly) S (ks : list rlwe) (ts : list poly) acc :
  fft_ok n fft D 1 eps -> l1 n (tof s) S -> length ks = length ts ->
  Forall (wfc n) ks -> Forall (fun t => wfp n t /\ sbound D t) ts -> wfc n acc ->
  exists c, foldM (keyswitch_step fft n) ks (acc, ts) = Ok (c, []) /\ wfc n c /\
    near n (phase n s c) (psub (phase n s acc) (lsum (fun k t => pmul n (phase n s k) (tof t)) ks ts))
         ((1 + S) * (Z.of_nat (length ks) * eps)).
Proof.
  intros Hf HS. revert ts acc; induction ks as [|k ks IH]; intros [|t ts] acc HL Hk Ht Ha; cbn in HL; try lia.
  - exists acc. cbn. split; [reflexivity|]. split; [exact Ha|]. rewrite Z.mul_0_r.
    apply near_refl. unfold lsum. cbn. ring.
  - inversion Hk as [|? ? Hk1 Hk']; subst. inversion Ht as [|? ? [Ht1 Hb1] Ht']; subst.
    cbn [foldM keyswitch_step snd fst bind].
    unfold fourier_update_with_mul_acc, add_backward.
    set (fm := fft [(mask k, t)]). set (fb := fft [(body k, t)]).
    assert (Forall (fun ab => wfp n (fst ab) /\ wfp n (snd ab) /\ sbound D (snd ab)) [(mask k, t)]) as Fm
      by (constructor; [cbn [fst snd]; split; [apply Hk1|split; assumption]|constructor]).
    assert (Forall (fun ab => wfp n (fst ab) /\ wfp n (snd ab) /\ sbound D (snd ab)) [(body k, t)]) as Fb
      by (constructor; [cbn [fst snd]; split; [apply Hk1|split; assumption]|constructor]).
    destruct (Hf [(mask k, t)] (le_n 1) Fm) as [Wm Nm]. destruct (Hf [(body k, t)] (le_n 1) Fb) as [Wb Nb]. fold fm in Wm, Nm. fold fb in Wb, Nb.
    assert (forall f, wfp n f -> wfp n (poly_add (poly_zero n) f) /\ peq n (tof (poly_add (poly_zero n) f)) (tof f)) as Z0.
    { intros f Wf. split; [apply wfp_add; [apply repeat_length|apply Wf]|].
      rewrite (tof_add n) by (try apply repeat_length; apply Wf). rewrite tof_zero. ring. }
    destruct (Z0 fm Wm) as [Wm' Em]. destruct (Z0 fb Wb) as [Wb' Eb].
    set (acc' := update_body_with_sub (update_mask_with_sub acc (poly_add (poly_zero n) fm)) (poly_add (poly_zero n) fb)).
    assert (wfc n acc') as Ha'.
    { split; cbn; apply sub_fft_wf; auto using wfc_mask, wfc_body. }
    destruct (IH ts acc' ltac:(lia) Hk' Ht' Ha') as (c & Ec & Wc & Nc).
    exists c. split; [exact Ec|]. split; [exact Wc|].
    eapply near_trans'; [exact Hn|exact Nc| |].
    + apply (near_eq_r n (psub (psub (phase n s acc) (pmul n (phase n s k) (tof t)))
                               (lsum (fun k t => pmul n (phase n s k) (tof t)) ks ts))).
      { unfold lsum. cbn [map2 fold_right]. ring. }
      apply (near_sub n Hn) with (A := (1 + S) * eps) (B := 0); [|apply near_refl; reflexivity].
      apply (near_eq_l n (psub (phase n s acc) (psub (tof fb) (pmul n (tof s) (tof fm))))).
      { unfold phase, acc'. cbn [update_body_with_sub update_mask_with_sub mask body].
        rewrite !(tof_sub n) by (auto using wfc_mask, wfc_body; apply wfp_len; assumption). rewrite Em, Eb. ring. }
      apply (near_eq_r n (psub (phase n s acc) (psub (pmul n (tof (body k)) (tof t)) (pmul n (tof s) (pmul n (tof (mask k)) (tof t)))))).
      { unfold phase. ring. }
      replace ((1 + S) * eps) with (0 + (eps + S * eps)) by ring.
      apply near_sub; [exact Hn|apply near_refl; reflexivity|].
      apply near_sub; [exact Hn|..].
      * eapply near_eq_r; [|exact Nb]. rewrite fexact_cons, fexact_nil. ring.
      * apply near_mul_l1; [exact Hn|exact HS|]. eapply near_eq_r; [|exact Nm]. rewrite fexact_cons, fexact_nil. ring.
    + cbn [length]. rewrite Nat2Z.inj_succ. lia.
Qed.

(** What switching does to the exact digits. *)
Lemma keyswitch_exact (before : P) after key E c Sb :
  ksk_switches n before after key E -> wfc n c -> l1 n before Sb -> 0 <= E ->
  near n (psub (tof (body c)) (psumf (k_level key) (fun i =>
            pmul n (phase n after (nth (k_level key - 1 - i) (k_ksks key) {| mask := []; body := [] |}))
                   (tof (nth i (decompose_poly (k_base key) (k_level key) (mask c)) [])))))
         (phaseP n before c)
         (Z.of_nat (k_level key) * (Z.of_nat n * 2 ^ (Z.of_nat (k_base key) - 1) * E)
          + Sb * 2 ^ (63 - Z.of_nat (k_base key * k_level key))).
Proof.
  intros (_ & (Hb & Hl & Hbl) & HL & HF & HK) Hc HSb HE.
  set (b := k_base key) in *. set (l := k_level key) in *.
  assert (0 < 2 ^ (Z.of_nat b - 1)) as PD by (apply Z.pow_pos_nonneg; lia).
  set (dm := fun i => tof (nth i (decompose_poly b l (mask c)) [])).
  unfold phaseP.
  eapply near_trans'; [exact Hn| | |].
  { apply near_sub; [exact Hn|apply near_refl; reflexivity|].
    apply near_psumf with (B := Z.of_nat n * 2 ^ (Z.of_nat b - 1) * E)
      (G := fun i => pmul n (pmul n (pcst (gadget b (l - i))) before) (dm i)); [exact Hn|nia|].
    intros i Hi. apply near_mul_bd; [exact Hn|..].
    - destruct (digits_wf n b l (mask c) i Hb Hl Hbl (proj1 Hc) Hi) as [W0 B0]. apply sbound_bd; assumption.
    - specialize (HK (l - 1 - i)%nat ltac:(lia)). replace (l - 1 - i + 1)%nat with (l - i)%nat in HK by lia. exact HK. }
  { instantiate (1 := 0 + Sb * 2 ^ (63 - Z.of_nat (b * l))). apply near_sub; [exact Hn|apply near_refl; reflexivity|].
    apply (near_eq_l n (pmul n before (tof (closest_poly b l (mask c))))).
    { rewrite <- (decompose_poly_sum n b l _ Hn Hb Hl Hbl) by apply Hc.
      rewrite <- (psumf_mul_l n Hn). apply psumf_ext. intros i Hi. unfold dm. ring. }
    rewrite (pmul_comm n (tof (mask c)) before).
    apply near_mul_l1; [exact Hn|exact HSb|]. apply closest_poly_near; [nia|apply Hc]. }
  lia.
Qed.

Lemma terms_wf key E before after c : ksk_switches n before after key E -> wfc n c ->
  Forall (fun t => wfp n t /\ sbound (2 ^ (Z.of_nat (k_base key) - 1)) t)
         (decompose_poly (k_base key) (k_level key) (mask c)).
Proof.
  intros (_ & (Hb & Hl & Hbl) & _) Hc. apply Forall_forall. intros t Ht.
  apply In_nth with (d := []) in Ht as (i & Hi & <-). rewrite decompose_poly_len in Hi.
  apply digits_wf; auto. apply Hc.
Qed.

Lemma ksk_E key E before after : ksk_switches n before after key E -> 0 <= E.
Proof.
  intros (_ & (Hb & Hl & _) & _ & _ & H). specialize (H 0%nat ltac:(lia)). eapply near_nonneg; [exact Hn|exact H].
Qed.

Lemma keyswitch_ok fft eps (before : P) after key E c Sb Sa :
  fft_ok n fft (2 ^ (Z.of_nat (k_base key) - 1)) 1 eps ->
  ksk_switches n before after key E -> wfc n c -> l1 n before Sb -> l1 n (tof after) Sa ->
  exists c', keyswitch_ciphertext fft key c = Ok c' /\ wfc n c' /\
    near n (phase n after c') (phaseP n before c)
      (ks_bound n (k_base key) (k_level key) Sb Sa E (Z.of_nat (k_level key) * eps)).
Proof.
  intros Hf HK Hc HSb HSa. pose proof (ksk_E _ _ _ _ HK) as HE. pose proof HK as (En & (Hb & Hl & Hbl) & HL & HF & _).
  unfold keyswitch_ciphertext. rewrite En. cbv zeta.
  set (after0 := update_body_with_add (rlwe_allocate n) (body c)).
  assert (wfc n after0) as Wa.
  { split; cbn; [apply wfp_zero|apply wfp_add; [apply repeat_length|apply Hc]]. }
  assert (peq n (phase n after after0) (tof (body c))) as Pa.
  { unfold phase, after0. cbn [update_body_with_add rlwe_allocate mask body].
    rewrite (tof_add n) by (try apply repeat_length; apply Hc). rewrite tof_zero. ring. }
  destruct (keyswitch_loop fft eps (2 ^ (Z.of_nat (k_base key) - 1)) after Sa (rev (k_ksks key)) (decompose_poly (k_base key) (k_level key) (mask c)) after0)
    as (c' & E' & W' & N'); try assumption.
  { rewrite rev_length, decompose_poly_len. exact HL. }
  { apply Forall_rev. exact HF. }
  { eapply terms_wf; eassumption. }
  rewrite E'. cbn [bind fst]. exists c'. split; [reflexivity|]. split; [exact W'|].
  unfold ks_bound. rewrite Z.add_comm. eapply near_trans; [exact Hn| |apply keyswitch_exact; eassumption].
  rewrite rev_length, HL in N'. eapply near_eq_r; [|exact N'].
  rewrite Pa. rewrite (lsum_psumf _ _ _ {| mask := []; body := [] |} []) by (rewrite rev_length, decompose_poly_len; exact HL).
  rewrite rev_length, HL.
  assert (peq n (psumf (k_level key) (fun i => pmul n (phase n after (nth (k_level key - 1 - i) (k_ksks key) {| mask := []; body := [] |}))
                   (tof (nth i (decompose_poly (k_base key) (k_level key) (mask c)) []))))
     (psumf (k_level key) (fun i => pmul n (phase n after (nth i (rev (k_ksks key)) {| mask := []; body := [] |}))
                   (tof (nth i (decompose_poly (k_base key) (k_level key) (mask c)) []))))) as ->; [|reflexivity].
  apply psumf_ext. intros i Hi. rewrite rev_nth by lia. rewrite HL. replace (k_level key - S i)%nat with (k_level key - 1 - i)%nat by lia. reflexivity.
Qed.

(** ** Fourier key switching *)
Fixpoint zip {A B} (a : list A) (b : list B) : list (A * B) :=
  match a, b with x :: a', y :: b' => (x, y) :: zip a' b' | _, _ => [] end.

Lemma fourier_loop_ok ks ts acc : length ks = length ts ->
  fourier_loop ks ts acc = Ok {| f_mask := f_mask acc ++ zip (map mask ks) ts; f_body := f_body acc ++ zip (map body ks) ts |}.
Proof.
  intros H. remember (length ks) as N eqn:EN. revert ks ts acc EN H.
  induction N as [N IH] using lt_wf_ind. intros ks ts acc EN H.
  destruct ks as [|k1 [|k2 ks]]; destruct ts as [|t1 [|t2 ts]]; cbn in EN, H; try lia.
  - cbn. rewrite !app_nil_r. destruct acc; reflexivity.
  - cbn. reflexivity.
  - cbn [fourier_loop]. rewrite (IH (length ks)) by lia. cbn [f_mask f_body map zip].
    rewrite <- !app_assoc. reflexivity.
Qed.
Lemma fexact_zip (sel : rlwe -> poly) ks ts :
  peq n (fexact n (zip (map sel ks) ts)) (lsum (fun k t => pmul n (tof (sel k)) (tof t)) ks ts).
Proof.
  revert ts; induction ks as [|k ks IH]; intros [|t ts]; try (cbn; intros ? _; reflexivity).
  cbn [map zip]. rewrite fexact_cons, IH. unfold lsum. reflexivity.
Qed.
Lemma zip_wf D (sel : rlwe -> poly) ks ts : (forall c, wfc n c -> wfp n (sel c)) -> Forall (wfc n) ks ->
  Forall (fun t => wfp n t /\ sbound D t) ts ->
  Forall (fun ab => wfp n (fst ab) /\ wfp n (snd ab) /\ sbound D (snd ab)) (zip (map sel ks) ts).
Proof.
  intros Hs Hk. revert ts; induction Hk as [|k ks Hk1 Hk IH]; intros [|t ts] Ht; cbn; try constructor.
  - inversion Ht as [|? ? [H1 H2] Ht']; subst. cbn. auto.
  - inversion Ht; subst. apply IH. assumption.
Qed.
Lemma zip_length {A B} (a : list A) (b : list B) : length a = length b -> length (zip a b) = length a.
Proof. revert b; induction a; intros [|y b]; cbn; intros; try lia. rewrite IHa; lia. Qed.

Lemma to_signed_neg x D : is_word x -> - D <= to_signed x <= D -> D < 2 ^ 63 -> - D <= to_signed (wsub 0 x) <= D.
Proof.
  intros Hx H HD. unfold is_word in Hx. assert (q = 2 * 2 ^ 63) as Hq by reflexivity.
  unfold wsub. destruct (Z.eq_dec x 0) as [->|N]; [change (wrap (0 - 0)) with 0; exact H|].
  assert (wrap (0 - x) = q - x) as ->.
  { unfold wrap. symmetry. apply Z.mod_unique_pos with (q := -1); lia. }
  unfold to_signed in *. destruct (Z.ltb_spec x (2 ^ 63)); destruct (Z.ltb_spec (q - x) (2 ^ 63)); lia.
Qed.
Lemma neg_terms_wf D ts : D < 2 ^ 63 -> Forall (fun t => wfp n t /\ sbound D t) ts ->
  Forall (fun t => wfp n t /\ sbound D t) (map poly_neg ts).
Proof.
  intros HD H. apply Forall_forall. intros t Ht. apply in_map_iff in Ht as (u & <- & Hu).
  rewrite Forall_forall in H. destruct (H u Hu) as [[L W] B]. split; [apply wfp_neg; exact L|].
  apply Forall_forall. intros x Hx. apply in_map_iff in Hx as (y & <- & Hy).
  unfold sbound in B. rewrite Forall_forall in W, B. apply to_signed_neg; auto.
Qed.

(** The Fourier keyswitch yields terms whose exact value is the exact keyswitch. *)
Lemma keyswitch_fourier_ok fft eps (before : P) after key E c Sb Sa out :
  fft_ok n fft (2 ^ (Z.of_nat (k_base key) - 1)) (k_level key + 1) eps ->
  ksk_switches n before after key E -> wfc n c -> l1 n before Sb -> l1 n (tof after) Sa -> wfc n out ->
  exists f, keyswitch_fourier key c = Ok f /\
    let c' := {| mask := add_backward fft (mask out) (f_mask f); body := add_backward fft (body out) (f_body f) |} in
    wfc n c' /\
    near n (phase n after c') (padd (phase n after out) (phaseP n before c))
      (ks_bound n (k_base key) (k_level key) Sb Sa E eps).
Proof.
  intros Hf HK Hc HSb HSa Hout. pose proof (ksk_E _ _ _ _ HK) as HE. pose proof HK as (En & (Hb & Hl & Hbl) & HL & HF & _).
  assert (2 ^ (Z.of_nat (k_base key) - 1) < 2 ^ 63) as HD by (apply Z.pow_lt_mono_r; nia).
  assert (1 <= 2 ^ (Z.of_nat (k_base key) - 1)) as HD1 by (assert (0 < 2 ^ (Z.of_nat (k_base key) - 1)) by (apply Z.pow_pos_nonneg; lia); lia).
  set (D := 2 ^ (Z.of_nat (k_base key) - 1)) in *.
  set (ts := decompose_poly (k_base key) (k_level key) (mask c)).
  assert (Forall (fun t => wfp n t /\ sbound D t) ts) as Wts by (eapply terms_wf; eassumption).
  assert (Forall (fun t => wfp n t /\ sbound D t) (map poly_neg ts)) as Wneg by (apply neg_terms_wf; assumption).
  assert (length (rev (k_ksks key)) = length (map poly_neg ts)) as LL.
  { rewrite rev_length, map_length. unfold ts. rewrite decompose_poly_len. exact HL. }
  unfold keyswitch_fourier. fold ts. rewrite fourier_loop_ok by exact LL. cbn [f_mask f_body app]. rewrite En.
  eexists; split; [reflexivity|]. cbn [f_mask f_body].
  set (fm := zip (map mask (rev (k_ksks key))) (map poly_neg ts)).
  set (fb := torus_term n (body c) :: zip (map body (rev (k_ksks key))) (map poly_neg ts)).
  assert (Forall (wfc n) (rev (k_ksks key))) as Wk by (apply Forall_rev; exact HF).
  assert (Forall (fun ab => wfp n (fst ab) /\ wfp n (snd ab) /\ sbound D (snd ab)) fm) as Fm.
  { apply zip_wf; auto. intros x Hx; apply Hx. }
  assert (Forall (fun ab => wfp n (fst ab) /\ wfp n (snd ab) /\ sbound D (snd ab)) fb) as Fb.
  { constructor; [|apply zip_wf; auto; intros x Hx; apply Hx].
    unfold torus_term. cbn [fst snd]. split; [apply Hc|]. split; [apply wfp_mono; split; [lia|reflexivity]|].
    unfold sbound, poly_mono. apply Forall_forall. intros x Hx. apply in_map_iff in Hx as (y & <- & _).
    destruct (y =? 0)%nat; [change (to_signed 1) with 1|change (to_signed 0) with 0]; lia. }
  assert (length fm <= k_level key + 1)%nat as Lm.
  { unfold fm. rewrite zip_length by (rewrite map_length; exact LL). rewrite map_length, rev_length. lia. }
  assert (length fb <= k_level key + 1)%nat as Lb.
  { unfold fb. cbn [length]. rewrite zip_length by (rewrite map_length; exact LL). rewrite map_length, rev_length. lia. }
  destruct (Hf _ Lm Fm) as [Wm Nm]. destruct (Hf _ Lb Fb) as [Wb Nb].
  split.
  { split; cbn; apply wfp_add; auto using wfc_mask, wfc_body; apply wfp_len; assumption. }
  apply (near_eq_l n (padd (phase n after out) (psub (tof (fft fb)) (pmul n (tof after) (tof (fft fm)))))).
  { unfold phase, add_backward. cbn [mask body].
    rewrite !(tof_add n) by (auto using wfc_mask, wfc_body; apply wfp_len; assumption). ring. }
  rewrite <- (Z.add_0_l (ks_bound _ _ _ _ _ _ _)). apply near_add; [exact Hn|apply near_refl; reflexivity|].
  unfold ks_bound. rewrite Z.add_comm. eapply near_trans; [exact Hn| |apply keyswitch_exact; eassumption].
  replace ((1 + Sa) * eps) with (eps + Sa * eps) by ring.
  apply (near_eq_r n (psub (fexact n fb) (pmul n (tof after) (fexact n fm)))).
  2:{ apply near_sub; [exact Hn|exact Nb|]. apply near_mul_l1; [exact Hn|exact HSa|exact Nm]. }
  unfold fb, fm, torus_term. rewrite fexact_cons, !fexact_zip.
  rewrite !(lsum_psumf _ _ _ {| mask := []; body := [] |} []) by exact LL.
  rewrite rev_length, HL. rewrite tof_pcst. rewrite <- (psumf_mul_l n Hn).
  assert (forall f g h, peq n f (popp (psub g h)) -> peq n (psub (tof (body c)) f) (psub (padd (pmul n (tof (body c)) (pcst 1)) g) h)) as T.
  { intros f g h ->. ring. }
  apply T. rewrite <- (psumf_sub n Hn).
  transitivity (pmul n (popp (pcst 1)) (psumf (k_level key) (fun i =>
     psub (pmul n (tof (body (nth i (rev (k_ksks key)) {| mask := []; body := [] |}))) (tof (nth i (map poly_neg ts) [])))
          (pmul n (tof after) (pmul n (tof (mask (nth i (rev (k_ksks key)) {| mask := []; body := [] |}))) (tof (nth i (map poly_neg ts) []))))))).
  2:{ assert (forall X Y, peq n X Y -> peq n (pmul n (popp (pcst 1)) X) (popp Y)) as T2; [intros X Y ->; ring|].
      apply T2. reflexivity. }
  rewrite <- (psumf_mul_l n Hn).
  apply psumf_ext. intros i Hi. rewrite rev_nth by lia. rewrite HL.
  replace (k_level key - S i)%nat with (k_level key - 1 - i)%nat by lia.
  assert (peq n (tof (nth i (map poly_neg ts) [])) (popp (tof (nth i ts [])))) as EN.
  { rewrite (nth_map_in poly_neg ts i [] []) by (unfold ts; rewrite decompose_poly_len; exact Hi).
    apply tof_neg. rewrite Forall_forall in Wts. apply (Wts (nth i ts [])). apply nth_In. unfold ts; rewrite decompose_poly_len; exact Hi. }
  fold ts. unfold phase.
  match type of EN with peq n ?x ?y => set (X := x) in *; set (Y := nth i ts []) in * end.
  change (nth i (map poly_neg ts) []) with X. 
  rewrite EN. ring.
Qed.

(** ** Substitution *)
Variable lg : nat.
Hypothesis Hlg : n = (2 ^ lg)%nat.

Lemma subst_inj k : Nat.odd k = true ->
  forall i j, (i < n)%nat -> (j < n)%nat -> ((i * k) mod n = (j * k) mod n)%nat -> i = j.
Proof. intros Hk i j. rewrite Hlg. apply odd_mul_inj. exact Hk. Qed.
Lemma phaseP_subst k s c c' : Nat.odd k = true -> peq n (tof (mask c')) (psubst n k (tof (mask c))) ->
  peq n (tof (body c')) (psubst n k (tof (body c))) ->
  peq n (phaseP n (psubst n k s) c') (psubst n k (phaseP n s c)).
Proof.
  intros Hk Hm Hb. unfold phaseP. rewrite Hm, Hb, psubst_sub, (psubst_mul n Hn) by exact Hk. reflexivity.
Qed.
Lemma l1_psubst k f S : Nat.odd k = true -> l1 n f S -> l1 n (psubst n k f) S.
Proof.
  intros Hk Hf. unfold l1 in *. etransitivity; [|exact Hf].
  transitivity (sumf n (fun j => sumf n (fun i => nrm (f i) * Z.abs (mono n (i * k) j)))).
  { apply sumf_le; intros j Hj. unfold psubst. etransitivity; [apply sumf_nrm|]. apply sumf_le; intros i Hi.
    etransitivity; [apply nrm_mul|]. pose proof (nrm_nonneg (f i)). pose proof (nrm_abs (mono n (i * k) j)). nia. }
  rewrite sumf_swap. apply sumf_le; intros i Hi. rewrite sumf_scal.
  assert (sumf n (fun j => Z.abs (mono n (i * k) j)) = 1) as ->; [|lia].
  rewrite (sumf_single _ _ ((i * k) mod n)%nat).
  - rewrite mono_same. apply sg_abs.
  - apply Nat.mod_upper_bound. lia.
  - intros j Hj Hne. unfold mono. destruct (Nat.eqb_spec ((i * k) mod n) j); [congruence|reflexivity].
Qed.

Lemma subs_ok fft eps s key E c S k :
  fft_ok n fft (2 ^ (Z.of_nat (k_base key) - 1)) 1 eps -> Nat.odd k = true -> k_subs key = k ->
  ksk_switches n (psubst n k (tof s)) s key E -> wfc n c -> l1 n (tof s) S ->
  exists c', subs fft key c = Ok c' /\ wfc n c' /\
    near n (phase n s c') (psubst n k (phase n s c))
      (ks_bound n (k_base key) (k_level key) S S E (Z.of_nat (k_level key) * eps)).
Proof.
  intros Hf Hk Ek HK Hc HS. unfold subs. rewrite Ek.
  destruct (eval_x_k_ok lg n k (mask c) Hlg (proj1 Hc) Hk) as (m' & -> & Wm & Pm).
  destruct (eval_x_k_ok lg n k (body c) Hlg (proj2 Hc) Hk) as (b' & -> & Wb & Pb). cbn [bind].
  destruct (keyswitch_ok fft eps _ s key E {| mask := m'; body := b' |} S S Hf HK) as (c' & E' & W' & N');
    [split; assumption | apply l1_psubst; assumption | exact HS |].
  exists c'. split; [exact E'|]. split; [exact W'|].
  eapply near_eq_r; [|exact N']. rewrite phase_phaseP. symmetry. apply phaseP_subst; assumption.
Qed.

Lemma subs_fourier_ok fft eps s key E c S k out :
  fft_ok n fft (2 ^ (Z.of_nat (k_base key) - 1)) (k_level key + 1) eps -> Nat.odd k = true -> k_subs key = k ->
  ksk_switches n (psubst n k (tof s)) s key E -> wfc n c -> l1 n (tof s) S -> wfc n out ->
  exists f, subs_fourier key c = Ok f /\
    let c' := {| mask := add_backward fft (mask out) (f_mask f); body := add_backward fft (body out) (f_body f) |} in
    wfc n c' /\
    near n (phase n s c') (padd (phase n s out) (psubst n k (phase n s c)))
      (ks_bound n (k_base key) (k_level key) S S E eps).
Proof.
  intros Hf Hk Ek HK Hc HS Ho. unfold subs_fourier. rewrite Ek.
  destruct (eval_x_k_ok lg n k (mask c) Hlg (proj1 Hc) Hk) as (m' & -> & Wm & Pm).
  destruct (eval_x_k_ok lg n k (body c) Hlg (proj2 Hc) Hk) as (b' & -> & Wb & Pb). cbn [bind].
  destruct (keyswitch_fourier_ok fft eps _ s key E {| mask := m'; body := b' |} S S out Hf HK) as (f & E' & W' & N');
    [split; assumption | apply l1_psubst; assumption | exact HS | exact Ho|].
  exists f. split; [exact E'|]. split; [exact W'|].
  eapply near_eq_r; [|exact N']. apply padd_proper; [reflexivity|].
  rewrite phase_phaseP. symmetry. apply phaseP_subst; assumption.
Qed.

(** ** Trace *)
Definition trf (i : nat) (f : P) : P := fun k => if (k mod 2 ^ i =? 0)%nat then 2 ^ Z.of_nat i * f k else 0.

Lemma pow2_div i : (i <= lg)%nat -> (n / 2 ^ i = 2 ^ (lg - i))%nat.
Proof.
  intros H. rewrite Hlg. replace lg with (lg - i + i)%nat at 1 by lia. rewrite Nat.pow_add_r.
  apply Nat.div_mul. apply Nat.pow_nonzero. lia.
Qed.
Lemma trace_k_odd i : (1 <= i <= lg)%nat -> Nat.odd (trace_k n i) = true.
Proof.
  intros H. unfold trace_k. rewrite pow2_div by lia.
  replace (lg - (i - 1))%nat with (S (lg - i)) by lia. rewrite Nat.pow_succ_r'.
  apply Nat.odd_spec. exists (2 ^ (lg - i))%nat. reflexivity.
Qed.
Lemma trf_subst i f j : (i < lg)%nat -> (j < n)%nat ->
  psubst n (trace_k n (S i)) (trf i f) j = sg (j / 2 ^ i) * trf i f j.
Proof.
  intros Hi Hj. assert (2 ^ i <> 0)%nat as NZ by (apply Nat.pow_nonzero; lia).
  unfold psubst. rewrite (sumf_single _ _ j); [| exact Hj |].
  - unfold trf. destruct (Nat.eqb_spec (j mod 2 ^ i) 0) as [E|E]; [|ring].
    replace (j * trace_k n (S i))%nat with (j + (j / 2 ^ i) * n)%nat.
    + rewrite mono_addn by exact Hn. rewrite mono_small, Nat.eqb_refl by assumption. ring.
    + unfold trace_k. replace (S i - 1)%nat with i by lia.
      assert (n = 2 ^ i * (n / 2 ^ i))%nat as En.
      { rewrite pow2_div by lia. rewrite <- Nat.pow_add_r. rewrite Hlg. f_equal. lia. }
      assert (j = 2 ^ i * (j / 2 ^ i))%nat as Ej by (apply Nat.div_exact; [exact NZ|exact E]).
      revert Ej En. generalize (j / 2 ^ i)%nat (n / 2 ^ i)%nat (2 ^ i)%nat. intros u v w Eu Ev.
      clear - Eu Ev. nia.
  - intros a Ha Hne. unfold trf. destruct (Nat.eqb_spec (a mod 2 ^ i) 0) as [E|E]; [|ring].
    replace (a * trace_k n (S i))%nat with (a + (a / 2 ^ i) * n)%nat.
    + rewrite mono_addn by exact Hn. rewrite mono_small by assumption.
      destruct (Nat.eqb_spec a j); [congruence|]. ring.
    + unfold trace_k. replace (S i - 1)%nat with i by lia.
      assert (n = 2 ^ i * (n / 2 ^ i))%nat as En.
      { rewrite pow2_div by lia. rewrite <- Nat.pow_add_r. rewrite Hlg. f_equal. lia. }
      assert (a = 2 ^ i * (a / 2 ^ i))%nat as Ej by (apply Nat.div_exact; [exact NZ|exact E]).
      revert Ej En. generalize (a / 2 ^ i)%nat (n / 2 ^ i)%nat (2 ^ i)%nat. intros u v w Eu Ev.
      clear - Eu Ev. nia.
Qed.
Lemma trf_step i f : (i < lg)%nat ->
  peq n (padd (trf i f) (psubst n (trace_k n (S i)) (trf i f))) (trf (S i) f).
Proof.
  intros Hi j Hj. unfold padd. rewrite trf_subst by assumption.
  assert (2 ^ i <> 0)%nat as NZ by (apply Nat.pow_nonzero; lia).
  assert (2 ^ S i = 2 ^ i * 2)%nat as E2 by (rewrite Nat.pow_succ_r'; lia).
  apply eq_eqm. unfold trf. rewrite E2.
  pose proof (Nat.mod_mul_r j (2 ^ i) 2 NZ ltac:(lia)) as M. rewrite M.
  destruct (Nat.eqb_spec (j mod 2 ^ i) 0) as [E|E].
  - rewrite E. cbn [Nat.add].
    pose proof (Nat.mod_upper_bound (j / 2 ^ i) 2 ltac:(lia)).
    destruct (Nat.eq_dec ((j / 2 ^ i) mod 2) 0) as [Z0|Z1].
    + rewrite Z0, Nat.mul_0_r. cbn [Nat.eqb]. unfold sg.
      rewrite (proj2 (Nat.even_spec _)) by (apply Nat.mod_divides in Z0 as (t & ->); [exists t; lia|lia]).
      rewrite Nat2Z.inj_succ, Z.pow_succ_r by lia. ring.
    + assert ((j / 2 ^ i) mod 2 = 1)%nat as Z2 by lia. rewrite Z2, Nat.mul_1_r.
      destruct (Nat.eqb_spec (2 ^ i) 0); [lia|]. unfold sg.
      assert (Nat.even (j / 2 ^ i) = false) as ->.
      { rewrite <- Nat.negb_odd, <- odd_mod2, Z2. reflexivity. }
      ring.
  - destruct (Nat.eqb_spec (j mod 2 ^ i + 2 ^ i * ((j / 2 ^ i) mod 2)) 0); [lia|]. ring.
Qed.
Lemma trf_0 f : peq n (trf 0 f) f.
Proof. intros k Hk. unfold trf. cbn [Nat.pow]. rewrite Nat.mod_1_r. cbn [Nat.eqb Z.of_nat]. apply eq_eqm. ring. Qed.
Lemma trf_lg f : peq n (trf lg f) (pcst (Z.of_nat n * f 0%nat)).
Proof.
  intros k Hk. unfold trf. rewrite <- Hlg. rewrite Nat.mod_small by exact Hk.
  destruct k; cbn [Nat.eqb pcst]; [|reflexivity]. rewrite Hlg, Nat2Z.inj_pow. reflexivity.
Qed.
Lemma near_psubst k f g B : Nat.odd k = true -> near n f g B -> near n (psubst n k f) (psubst n k g) B.
Proof.
  intros Hk H. unfold near. rewrite <- psubst_sub. apply bd_psubst; [exact Hn|apply subst_inj; exact Hk|exact H].
Qed.

(** A step function that adds the substituted phase up to [K]. *)
Lemma trace_fold (step : rlwe -> nat -> res rlwe) s K c :
  0 <= K -> wfc n c ->
  (forall out i, (1 <= i <= lg)%nat -> wfc n out -> exists c', step out i = Ok c' /\ wfc n c' /\
      near n (phase n s c') (padd (phase n s out) (psubst n (trace_k n i) (phase n s out))) K) ->
  exists c', foldM step (seq 1 lg) c = Ok c' /\ wfc n c' /\
    near n (phase n s c') (pcst (Z.of_nat n * phase n s c 0%nat)) ((Z.of_nat n - 1) * K).
Proof.
  intros HK Hc Hstep.
  assert (forall m i out, (i + m = lg)%nat -> wfc n out ->
     near n (phase n s out) (trf i (phase n s c)) ((2 ^ Z.of_nat i - 1) * K) ->
     exists c', foldM step (seq (S i) m) out = Ok c' /\ wfc n c' /\
       near n (phase n s c') (trf lg (phase n s c)) ((2 ^ Z.of_nat lg - 1) * K)) as G.
  { induction m as [|m IH]; intros i out Him Ho HN.
    - exists out. cbn. replace lg with i by lia. auto.
    - cbn [seq foldM]. destruct (Hstep out (S i) ltac:(lia) Ho) as (c' & -> & W' & N'). cbn [bind].
      apply (IH (S i)); [lia|exact W'|].
      assert (Nat.odd (trace_k n (S i)) = true) as Ho' by (apply trace_k_odd; lia).
      eapply near_trans'; [exact Hn|exact N'| |].
      + eapply near_eq_r; [symmetry; apply trf_step; lia|].
        apply near_add; [exact Hn|exact HN|apply near_psubst; [exact Ho'|exact HN]].
      + rewrite Nat2Z.inj_succ, Z.pow_succ_r by lia. nia. }
  destruct (G lg 0%nat c ltac:(lia) Hc) as (c' & E' & W' & N').
  { cbn [Z.of_nat]. change ((2 ^ 0 - 1) * K) with 0. apply near_refl. rewrite trf_0. reflexivity. }
  exists c'. split; [exact E'|]. split; [exact W'|].
  eapply near_eq_r; [symmetry; apply trf_lg|]. eapply near_weaken; [exact N'|].
  rewrite Hlg, Nat2Z.inj_pow. lia.
Qed.

Lemma log2_n : Nat.log2 n = lg.
Proof. rewrite Hlg. apply Nat.log2_pow2. lia. Qed.

Lemma ks_bound_nonneg b l Sb Sa E F : 0 <= Sb -> 0 <= Sa -> 0 <= E -> 0 <= F -> (1 <= b)%nat -> (b * l < 64)%nat ->
  0 <= ks_bound n b l Sb Sa E F.
Proof.
  intros. unfold ks_bound. assert (0 < 2 ^ (Z.of_nat b - 1)) by (apply Z.pow_pos_nonneg; lia).
  assert (0 < 2 ^ (63 - Z.of_nat (b * l))) by (apply Z.pow_pos_nonneg; lia).
  assert (0 <= Z.of_nat n * 2 ^ (Z.of_nat b - 1) * E) by nia. nia.
Qed.

Lemma trace1_ok fft eps s m c S E b l : (1 <= lg)%nat ->
  fft_ok n fft (2 ^ (Z.of_nat b - 1)) 1 eps -> subs_map_ok n s m b l E -> wfc n c -> l1 n (tof s) S ->
  exists c', trace1 fft m c = Ok c' /\ wfc n c' /\
    near n (phase n s c') (pcst (Z.of_nat n * phase n s c 0%nat))
         ((Z.of_nat n - 1) * ks_bound n b l S S E (Z.of_nat l * eps)).
Proof.
  intros Hlg1 Hf Hm Hc HS. unfold trace1. rewrite (wfc_body n c Hc), log2_n.
  apply trace_fold; [|exact Hc|].
  - destruct (Hm 1%nat ltac:(rewrite log2_n; lia)) as (key & _ & _ & <- & <- & HK). pose proof (ksk_E _ _ _ _ HK).
    destruct HK as (_ & (? & ? & ?) & _). pose proof (l1_nonneg n _ _ HS). pose proof (fft_eps_nonneg n Hn _ _ _ _ Hf).
    apply ks_bound_nonneg; try lia.
  - intros out i Hi Ho. destruct (Hm i ltac:(rewrite log2_n; lia)) as (key & Eg & Es & <- & <- & HK).
    unfold trace1_step. rewrite Eg, Es, Nat.eqb_refl. cbn [rassert bind].
    destruct (subs_ok fft eps s key E out S (trace_k n i) Hf) as (buf & -> & Wb & Nb); auto.
    { apply trace_k_odd. exact Hi. }
    cbn [bind]. eexists; split; [reflexivity|]. split; [apply wfc_add; assumption|].
    rewrite (phase_add n Hn s _ _ Ho Wb). rewrite <- (Z.add_0_l (ks_bound _ _ _ _ _ _ _)).
    apply near_add; [exact Hn|apply near_refl; reflexivity|exact Nb].
Qed.
Lemma trace1_fourier_ok fft eps s m c S E b l : (1 <= lg)%nat ->
  fft_ok n fft (2 ^ (Z.of_nat b - 1)) (l + 1) eps -> subs_map_ok n s m b l E -> wfc n c -> l1 n (tof s) S ->
  exists c', trace1_fourier fft m c = Ok c' /\ wfc n c' /\
    near n (phase n s c') (pcst (Z.of_nat n * phase n s c 0%nat))
         ((Z.of_nat n - 1) * ks_bound n b l S S E eps).
Proof.
  intros Hlg1 Hf Hm Hc HS. unfold trace1_fourier. rewrite (wfc_body n c Hc), log2_n.
  apply trace_fold; [|exact Hc|].
  - destruct (Hm 1%nat ltac:(rewrite log2_n; lia)) as (key & _ & _ & <- & <- & HK). pose proof (ksk_E _ _ _ _ HK).
    destruct HK as (_ & (? & ? & ?) & _). pose proof (l1_nonneg n _ _ HS). pose proof (fft_eps_nonneg n Hn _ _ _ _ Hf).
    apply ks_bound_nonneg; try lia.
  - intros out i Hi Ho. destruct (Hm i ltac:(rewrite log2_n; lia)) as (key & Eg & Es & <- & <- & HK).
    unfold trace1_fourier_step. rewrite Eg, Es, Nat.eqb_refl. cbn [rassert bind].
    destruct (subs_fourier_ok fft eps s key E out S (trace_k n i) out Hf) as (buf & -> & Wb & Nb); auto.
    { apply trace_k_odd. exact Hi. }
    cbn [bind]. eexists; split; [reflexivity|]. split; [exact Wb|exact Nb].
Qed.
End Rl.
