(** * Phases of the RLWE and RGSW operations *)
From Coq Require Import Setoid Morphisms Ring.
From Verif Require Import MBase MUtils MCodec MPoly MRlwe SpecLwe PolyRing PfPoly PfDecomp PfNear.
Local Open Scope Z_scope.

Section Rl.
Variable n : nat.
Hypothesis Hn : (0 < n)%nat.
Add Ring Pring : (P_ring n Hn) (setoid (peq_equiv n) (P_ext n)).

Lemma wfc_mask c : wfc n c -> length (mask c) = n. Proof. intros [H _]. apply H. Qed.
Lemma wfc_body c : wfc n c -> length (body c) = n. Proof. intros [_ H]. apply H. Qed.
Lemma wfc_allocate : wfc n (rlwe_allocate n). Proof. split; apply wfp_zero. Qed.
Lemma wfc_add c d : wfc n c -> wfc n d -> wfc n (rlwe_add c d).
Proof. intros Hc Hd. split; cbn; apply wfp_add; auto using wfc_mask, wfc_body. Qed.
Lemma wfc_sub c d : wfc n c -> wfc n d -> wfc n (rlwe_sub c d).
Proof. intros Hc Hd. split; cbn; apply wfp_sub; auto using wfc_mask, wfc_body. Qed.

Lemma decrypt_wf s c : wfc n c -> wfp n (decrypt_rlwe n s c).
Proof. intros H. apply wfp_sub; [apply wfc_body, H | apply wfp_mul]. Qed.
Lemma decrypt_phase s c : wfc n c -> peq n (tof (decrypt_rlwe n s c)) (phase n s c).
Proof.
  intros H. unfold decrypt_rlwe, phase. rewrite (tof_sub n); [|apply wfc_body, H|apply wfp_mul].
  rewrite tof_mul. reflexivity.
Qed.

Lemma phase_allocate s : peq n (phase n s (rlwe_allocate n)) pzero.
Proof. unfold phase. cbn [rlwe_allocate mask body]. rewrite tof_zero. ring. Qed.
Lemma phase_add s c d : wfc n c -> wfc n d -> peq n (phase n s (rlwe_add c d)) (padd (phase n s c) (phase n s d)).
Proof.
  intros Hc Hd. unfold phase, rlwe_add, update_body_with_add, update_mask_with_add. cbn [mask body].
  rewrite !(tof_add n) by auto using wfc_mask, wfc_body. ring.
Qed.
Lemma phase_sub s c d : wfc n c -> wfc n d -> peq n (phase n s (rlwe_sub c d)) (psub (phase n s c) (phase n s d)).
Proof.
  intros Hc Hd. unfold phase, rlwe_sub, update_body_with_sub, update_mask_with_sub. cbn [mask body].
  rewrite !(tof_sub n) by auto using wfc_mask, wfc_body. ring.
Qed.

Lemma wfc_encrypt s pt E d : length pt = n -> draw_ok n E d -> wfc n (encrypt_rlwe n s pt d).
Proof.
  intros Hp (Hm & He & _). split; cbn; [exact Hm|]. apply wfp_add; [|exact Hp].
  apply wfp_len, wfp_add; [apply He|apply wfp_mul].
Qed.
Lemma phase_encrypt s pt E d : length pt = n -> draw_ok n E d ->
  peq n (phase n s (encrypt_rlwe n s pt d)) (padd (tof pt) (tof (d_noise d))).
Proof.
  intros Hp (Hm & He & _). unfold phase, encrypt_rlwe. cbn [mask body].
  rewrite !(tof_add n); [|apply He|apply wfp_mul|apply wfp_len, wfp_add; [apply He|apply wfp_mul]|exact Hp].
  rewrite tof_mul. ring.
Qed.
Lemma near_encrypt s pt E d : length pt = n -> draw_ok n E d ->
  near n (phase n s (encrypt_rlwe n s pt d)) (tof pt) E.
Proof.
  intros Hp Hd. rewrite (phase_encrypt s pt E d Hp Hd). unfold near.
  assert (peq n (psub (padd (tof pt) (tof (d_noise d))) (tof pt)) (tof (d_noise d))) as -> by ring.
  apply Hd.
Qed.

(** ** RGSW encryption *)
Lemma nth_map_seq {A} (f : nat -> A) m i d : (i < m)%nat -> nth i (map f (seq 0 m)) d = f i.
Proof. intros H. rewrite (nth_map_in _ _ _ 0%nat) by (rewrite seq_length; exact H). rewrite seq_nth by exact H. reflexivity. Qed.
Lemma even_double i : Nat.even (2 * i) = true.
Proof. clear. apply Nat.even_spec. exists i; lia. Qed.
Lemma even_double1 i : Nat.even (2 * i + 1) = false.
Proof. clear. rewrite Nat.even_add, even_double. reflexivity. Qed.
Lemma div_double i : (2 * i / 2 = i)%nat.
Proof. clear. rewrite Nat.mul_comm. apply Nat.div_mul. lia. Qed.
Lemma div_double1 i : ((2 * i + 1) / 2 = i)%nat.
Proof. clear. rewrite Nat.add_comm, Nat.mul_comm, Nat.div_add by lia. reflexivity. Qed.

Lemma pcst_eqm a b : eqm a b -> peq n (pcst a) (pcst b).
Proof. intros H [|k] Hk; cbn; [exact H|reflexivity]. Qed.
Lemma pcst_mul a b : peq n (pcst (a * b)) (pmul n (pcst a) (pcst b)).
Proof. rewrite (pmul_pcst n Hn). intros [|k] Hk; cbn; [reflexivity|]. apply eq_eqm; ring. Qed.
Lemma pcst_opp a : peq n (pcst (- a)) (popp (pcst a)).
Proof. intros [|k] Hk; reflexivity. Qed.
Lemma pcst_add a b : peq n (pcst (a + b)) (padd (pcst a) (pcst b)).
Proof. intros [|k] Hk; reflexivity. Qed.

Lemma encrypt_constant_rgsw_ok s base level m t E :
  wfp n s -> decomp_ok base level -> tape_ok n E t ->
  rgsw_encrypts n s (encrypt_constant_rgsw n s base level m t) (pcst m) E.
Proof.
  intros Hs Hd Ht.
  assert (forall i, (i < 2 * level)%nat -> wfc n (nth i (g_rows (encrypt_constant_rgsw n s base level m t)) {| mask := []; body := [] |})) as Hw.
  { intros i Hi. cbn [g_rows encrypt_constant_rgsw]. rewrite nth_map_seq by exact Hi. cbv zeta.
    destruct (Nat.even i); eapply wfc_encrypt; try apply Ht.
    - apply wfp_mul_const, Hs.
    - apply wfp_mono, wrap_word. }
  split.
  { split; [exact Hd|]. assert (length (g_rows (encrypt_constant_rgsw n s base level m t)) = 2 * level)%nat as L.
    { cbn [g_rows encrypt_constant_rgsw]. rewrite map_length, seq_length. reflexivity. }
    split; [exact L|]. apply Forall_forall. intros c Hc.
    apply In_nth with (d := {| mask := []; body := [] |}) in Hc as (i & Hi & <-). apply Hw. rewrite L in Hi. exact Hi. }
  cbn [g_level g_base encrypt_constant_rgsw]. intros i Hi. unfold row0, row1. cbn [g_rows encrypt_constant_rgsw].
  rewrite !nth_map_seq by lia. cbv zeta. rewrite even_double, even_double1, div_double, div_double1. split.
  - eapply near_weaken with (B := E); [|lia].
    assert (peq n (popp (pmul n (pcst (gadget base (i + 1))) (pmul n (pcst m) (tof s)))) (tof (mul_const s (wsub 0 (wmul m (gadget base (i + 1))))))) as ->.
    { rewrite (tof_mul_const n _ _ Hn) by apply Hs.
      rewrite (pcst_eqm (wsub 0 _) (- (m * gadget base (i + 1)))).
      - rewrite pcst_opp, pcst_mul. ring.
      - unfold wsub, wmul. rewrite !wrap_eqm. reflexivity. }
    apply near_encrypt; [apply wfp_mul_const, Hs | apply Ht].
  - assert (peq n (pmul n (pcst (gadget base (i + 1))) (pcst m)) (tof (poly_mono n 0 (wmul m (gadget base (i + 1)))))) as ->.
    { rewrite tof_pcst. unfold wmul. rewrite (pcst_eqm _ _ (wrap_eqm _)), pcst_mul. ring. }
    apply near_encrypt; [apply wfp_mono, wrap_word | apply Ht].
Qed.

(** ** External product *)
Lemma rows_wfc g i : wfg n g -> (i < 2 * g_level g)%nat -> wfc n (nth i (g_rows g) {| mask := []; body := [] |}).
Proof. clear Hn. intros (_ & L & F) Hi. rewrite Forall_forall in F. apply F, nth_In. lia. Qed.

Lemma flat_map_pair_length {A B} (f h : A -> B) l : length (flat_map (fun i => [f i; h i]) l) = (2 * length l)%nat.
Proof. induction l as [|x l IH]; [reflexivity|]. cbn [flat_map app length]. rewrite IH. lia. Qed.
Lemma ep_terms_length sel g d : length (ep_terms sel g d) = (2 * g_level g)%nat.
Proof. unfold ep_terms. cbv zeta. rewrite flat_map_pair_length, seq_length. reflexivity. Qed.
Lemma ep_terms_wf sel g d : (forall c, wfc n c -> wfp n (sel c)) -> wfg n g -> wfc n d ->
  Forall (fun ab => wfp n (fst ab) /\ wfp n (snd ab) /\ sbound (2 ^ (Z.of_nat (g_base g) - 1)) (snd ab)) (ep_terms sel g d).
Proof.
  intros Hsel Hg Hd. destruct Hg as ((Hb & Hl & Hbl) & L & F).
  unfold ep_terms. cbv zeta. apply Forall_flat_map. apply Forall_forall. intros i Hi. apply in_seq in Hi.
  assert (i < g_level g)%nat as Hi' by lia.
  destruct (digits_wf n (g_base g) (g_level g) (mask d) i Hb Hl Hbl (proj1 Hd) Hi').
  destruct (digits_wf n (g_base g) (g_level g) (body d) i Hb Hl Hbl (proj2 Hd) Hi').
  constructor; [|constructor; [|constructor]]; cbn [fst snd]; (split; [|split; assumption]);
    apply Hsel, rows_wfc; try lia; (split; [repeat split; assumption|split; assumption]).
Qed.
Lemma ep_terms_exact sel g d : peq n (fexact n (ep_terms sel g d))
  (psumf (g_level g) (fun i =>
     padd (pmul n (tof (sel (row0 g (g_level g - 1 - i)))) (tof (nth i (decompose_poly (g_base g) (g_level g) (mask d)) [])))
          (pmul n (tof (sel (row1 g (g_level g - 1 - i)))) (tof (nth i (decompose_poly (g_base g) (g_level g) (body d)) []))))).
Proof.
  unfold ep_terms. cbv zeta. rewrite (fexact_flat n Hn). apply psumf_ext. intros i Hi.
  cbn [Nat.add]. rewrite !fexact_cons, fexact_nil. unfold row0, row1. ring.
Qed.

Definition Dg (g : rgsw) : Z := 2 ^ (Z.of_nat (g_base g) - 1).

Lemma wfc_external_product fft eps g out d : fft_ok n fft (Dg g) (2 * g_level g) eps ->
  wfg n g -> wfc n out -> wfc n d -> wfc n (external_product fft g out d).
Proof.
  intros Hf Hg Ho Hd. split; cbn; apply wfp_add; auto using wfc_mask, wfc_body; apply wfp_len;
    (eapply fft_wf; [exact Hf | rewrite ep_terms_length; lia | apply ep_terms_wf; auto; intros c Hc; apply Hc]).
Qed.

Lemma external_product_phase fft eps g out d s m E S M :
  fft_ok n fft (Dg g) (2 * g_level g) eps -> rgsw_encrypts n s g m E -> wfc n out -> wfc n d ->
  l1 n (tof s) S -> l1 n m M ->
  near n (phase n s (external_product fft g out d))
         (padd (phase n s out) (pmul n m (phase n s d)))
         (ep_bound n (g_base g) (g_level g) S M E eps).
Proof.
  intros Hf (Hg & HE) Ho Hd HS HM.
  pose proof Hg as ((Hb & Hl & Hbl) & L & F).
  set (b := g_base g) in *. set (l := g_level g) in *.
  assert (Hfm := fft_near n fft _ _ _ (ep_terms mask g d) Hf ltac:(rewrite ep_terms_length; unfold l; lia)
                   (ep_terms_wf mask g d ltac:(intros c Hc; apply Hc) Hg Hd)).
  assert (Hfb := fft_near n fft _ _ _ (ep_terms body g d) Hf ltac:(rewrite ep_terms_length; unfold l; lia)
                   (ep_terms_wf body g d ltac:(intros c Hc; apply Hc) Hg Hd)).
  assert (Hwm := fft_wf n fft _ _ _ (ep_terms mask g d) Hf ltac:(rewrite ep_terms_length; unfold l; lia)
                   (ep_terms_wf mask g d ltac:(intros c Hc; apply Hc) Hg Hd)).
  assert (Hwb := fft_wf n fft _ _ _ (ep_terms body g d) Hf ltac:(rewrite ep_terms_length; unfold l; lia)
                   (ep_terms_wf body g d ltac:(intros c Hc; apply Hc) Hg Hd)).
  (* the exact part *)
  set (dm := fun i => tof (nth i (decompose_poly b l (mask d)) [])).
  set (db := fun i => tof (nth i (decompose_poly b l (body d)) [])).
  set (G := fun i => pcst (gadget b (l - i))).
  assert (peq n (phase n s (external_product fft g out d))
    (padd (phase n s out) (psub (tof (fft (ep_terms body g d))) (pmul n (tof s) (tof (fft (ep_terms mask g d))))))) as ->.
  { unfold phase, external_product, add_backward. cbn [mask body].
    rewrite !(tof_add n) by (auto using wfc_mask, wfc_body; apply wfp_len; assumption). ring. }
  unfold ep_bound. fold b l.
  rewrite <- Z.add_0_l. apply near_add; [exact Hn|apply near_refl; reflexivity|].
  rewrite Z.add_comm.
  eapply near_trans; [exact Hn|..].
  { replace ((1 + S) * eps) with (eps + S * eps) by ring.
    apply near_sub; [exact Hn|exact Hfb|]. apply near_mul_l1; [exact Hn|exact HS|exact Hfm]. }
  rewrite !ep_terms_exact. fold b l.
  eapply (near_eq_l n (psumf l (fun i => padd (pmul n (phase n s (row0 g (l - 1 - i))) (dm i)) (pmul n (phase n s (row1 g (l - 1 - i))) (db i))))).
  { rewrite <- (psumf_mul_l n Hn), <- (psumf_sub n Hn). apply psumf_ext. intros i Hi. unfold phase, dm, db. ring. }
  eapply near_trans; [exact Hn|..].
  { apply near_psumf with (B := 2 * (Z.of_nat n * 2 ^ (Z.of_nat b - 1) * E))
      (G := fun i => padd (pmul n (popp (pmul n (G i) (pmul n m (tof s)))) (dm i)) (pmul n (pmul n (G i) m) (db i))); [exact Hn| |].
    { destruct (HE 0%nat ltac:(lia)) as [K _]. pose proof (near_nonneg n Hn _ _ _ K).
      assert (0 < 2 ^ (Z.of_nat b - 1)) by (apply Z.pow_pos_nonneg; lia). nia. }
    intros i Hi. destruct (HE (l - 1 - i)%nat ltac:(lia)) as [K0 K1]. fold b in K0, K1.
    replace (l - 1 - i + 1)%nat with (l - i)%nat in K0, K1 by lia.
    destruct (digits_wf n b l (mask d) i Hb Hl Hbl (proj1 Hd) Hi) as [W0 B0].
    destruct (digits_wf n b l (body d) i Hb Hl Hbl (proj2 Hd) Hi) as [W1 B1].
    replace (2 * (Z.of_nat n * 2 ^ (Z.of_nat b - 1) * E)) with
      (Z.of_nat n * 2 ^ (Z.of_nat b - 1) * E + Z.of_nat n * 2 ^ (Z.of_nat b - 1) * E) by ring.
    apply near_add; [exact Hn|..]; apply near_mul_bd; try exact Hn; try assumption;
      apply sbound_bd; assumption. }
  apply (near_eq_l n (pmul n m (psub (tof (closest_poly b l (body d))) (pmul n (tof s) (tof (closest_poly b l (mask d))))))).
  { rewrite <- !(decompose_poly_sum n b l _ Hn Hb Hl Hbl) by apply Hd. fold dm db.
    rewrite <- (psumf_mul_l n Hn), <- (psumf_sub n Hn), <- (psumf_mul_l n Hn). apply psumf_ext. intros i Hi.
    unfold G. fold (dm i) (db i). ring. }
  apply near_mul_l1; [exact Hn|exact HM|]. unfold phase.
  rewrite (pmul_comm n (tof (mask d)) (tof s)).
  replace ((1 + S) * 2 ^ (63 - Z.of_nat (b * l))) with (2 ^ (63 - Z.of_nat (b * l)) + S * 2 ^ (63 - Z.of_nat (b * l))) by ring.
  assert (1 <= b * l < 64)%nat by nia.
  apply near_sub; [exact Hn|apply closest_poly_near; [assumption|apply Hd]|].
  apply near_mul_l1; [exact Hn|exact HS|apply closest_poly_near; [assumption|apply Hd]].
Qed.
End Rl.
