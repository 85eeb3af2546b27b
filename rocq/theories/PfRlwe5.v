(** * Comparisons, NOT, in-place products, decoding, noise measurement *)
From Coq Require Import Setoid Morphisms Ring.
From Verif Require Import MBase MUtils MCodec MPoly MRlwe SpecLwe PolyRing PfPoly PfDecomp PfNear PfRlwe PfCodec.
Local Open Scope Z_scope.

Section Rl.
Variable n : nat.
Hypothesis Hn : (0 < n)%nat.
Add Ring Pring : (P_ring n Hn) (setoid (peq_equiv n) (P_ext n)).

(** ** Products with an integer polynomial *)
Definition mul_both (fft : fftT) (c : rlwe) (t : poly) : rlwe :=
  update_mask_with_mul_with_buf fft (update_body_with_mul_with_buf fft c t) t.
Lemma mul_with_buf_near fft eps D p t : fft_ok n fft D 1 eps -> wfp n p -> wfp n t -> sbound D t ->
  wfp n (fft [(p, t)]) /\ near n (tof (fft [(p, t)])) (pmul n (tof p) (tof t)) eps.
Proof.
  intros Hf Hp Ht Hb.
  destruct (Hf [(p, t)] (le_n 1)) as [W N]; [constructor; [cbn [fst snd]; auto|constructor]|].
  split; [exact W|]. eapply near_eq_r; [|exact N]. rewrite fexact_cons, fexact_nil. ring.
Qed.
Lemma mul_both_ok fft eps D c t s S : fft_ok n fft D 1 eps -> wfc n c -> wfp n t -> sbound D t -> l1 n (tof s) S ->
  wfc n (mul_both fft c t) /\ near n (phase n s (mul_both fft c t)) (pmul n (tof t) (phase n s c)) ((1 + S) * eps).
Proof.
  intros Hf Hc Ht Hb HS. unfold mul_both, update_mask_with_mul_with_buf, update_body_with_mul_with_buf, fourier_update_with_mul.
  cbn [mask body].
  destruct (mul_with_buf_near fft eps D (mask c) t Hf (proj1 Hc) Ht Hb) as [Wm Nm].
  destruct (mul_with_buf_near fft eps D (body c) t Hf (proj2 Hc) Ht Hb) as [Wb Nb].
  change (fft [(body c, t)]) with (fft [(body c, t)] : poly) in *.
  set (fb := fft [(body c, t)]) in *. set (fm := fft [(mask c, t)]) in *. change (fft [(mask c, t)]) with fm. change (fft [(body c, t)]) with fb.
  split; [split; assumption|]. unfold phase at 1. cbn [mask body].
  apply (near_eq_l n (psub (tof fb) (pmul n (tof s) (tof fm)))); [ring|].
  apply (near_eq_r n (psub (pmul n (tof (body c)) (tof t)) (pmul n (tof s) (pmul n (tof (mask c)) (tof t))))); [unfold phase; ring|].
  replace ((1 + S) * eps) with (eps + S * eps) by ring.
  apply near_sub; [exact Hn|exact Nb|]. apply near_mul_l1; [exact Hn|exact HS|exact Nm].
Qed.

(** ** The comparison polynomials *)
Lemma less_eq_nth d k : (k < n)%nat -> tof (less_eq_poly n d) k = if (n - d <=? k)%nat then MAXW else if (k =? 0)%nat then 1 else 0.
Proof. intros Hk. unfold tof, less_eq_poly. rewrite nth_map_seq by exact Hk. reflexivity. Qed.
Lemma less_eq_wf d : wfp n (less_eq_poly n d) /\ sbound 1 (less_eq_poly n d).
Proof.
  clear Hn. split; [split|].
  - unfold less_eq_poly. rewrite map_length, seq_length. reflexivity.
  - apply Forall_forall. intros x Hx. apply in_map_iff in Hx as (k & <- & _).
    destruct (n - d <=? k)%nat; [|destruct (k =? 0)%nat]; split; vm_compute; congruence.
  - apply Forall_forall. intros x Hx. apply in_map_iff in Hx as (k & <- & _).
    destruct (n - d <=? k)%nat; [|destruct (k =? 0)%nat]; split; vm_compute; congruence.
Qed.
Lemma sumf_const1 m : sumf m (fun _ => 1) = Z.of_nat m.
Proof. clear. induction m; [reflexivity|]. cbn [sumf]. rewrite IHm. lia. Qed.
Lemma less_eq_l1 d : (d < n)%nat -> l1 n (tof (less_eq_poly n d)) (Z.of_nat d + 1).
Proof.
  intros Hd. unfold l1.
  transitivity (sumf n (fun k => (if (n - d <=? k)%nat then 1 else 0) + (if (k =? 0)%nat then 1 else 0))).
  { apply sumf_le. intros k Hk. rewrite less_eq_nth by exact Hk.
    destruct (n - d <=? k)%nat; [|destruct (k =? 0)%nat]; try (destruct (k =? 0)%nat); vm_compute; congruence. }
  rewrite sumf_add. rewrite (sumf_single n (fun k => if (k =? 0)%nat then 1 else 0) 0%nat); [|exact Hn|intros [|i] _ Hi; [congruence|reflexivity]].
  cbn [Nat.eqb]. assert (sumf n (fun k => if (n - d <=? k)%nat then 1 else 0) = Z.of_nat d) as ->; [|lia].
  replace n with ((n - d) + d)%nat at 1 by lia. rewrite sumf_split.
  rewrite sumf_0 by (intros i Hi; destruct (Nat.leb_spec (n - d) i); [lia|reflexivity]).
  rewrite <- sumf_const1. rewrite Z.add_0_l. apply sumf_ext. intros i Hi. destruct (Nat.leb_spec (n - d) (n - d + i)); [reflexivity|lia].
Qed.
Lemma eq_nth d k : (k < n)%nat -> (d < n)%nat -> tof (eq_poly n d) k = if (d =? 0)%nat then (if (k =? 0)%nat then 1 else 0) else (if (k =? n - d)%nat then MAXW else 0).
Proof. intros Hk Hd. unfold eq_poly. destruct (d =? 0)%nat; rewrite tof_mono_nth by exact Hk; reflexivity. Qed.
Lemma eq_wf d : wfp n (eq_poly n d) /\ sbound 1 (eq_poly n d).
Proof.
  clear Hn. unfold eq_poly. split.
  - destruct (d =? 0)%nat; apply wfp_mono; split; vm_compute; congruence.
  - destruct (d =? 0)%nat; apply Forall_forall; intros x Hx; apply in_map_iff in Hx as (k & <- & _);
      match goal with |- context [if ?b then _ else _] => destruct b end; split; vm_compute; congruence.
Qed.
Lemma eq_l1 d : (d < n)%nat -> l1 n (tof (eq_poly n d)) 1.
Proof.
  intros Hd. unfold l1. rewrite (sumf_single n _ (if d =? 0 then 0 else n - d)%nat).
  - rewrite eq_nth; [|destruct (Nat.eqb_spec d 0); lia|exact Hd].
    destruct (Nat.eqb_spec d 0); rewrite Nat.eqb_refl; vm_compute; congruence.
  - destruct (Nat.eqb_spec d 0); lia.
  - intros i Hi Hne. rewrite eq_nth by assumption. destruct (d =? 0)%nat; destruct (Nat.eqb_spec i 0); destruct (Nat.eqb_spec i (n - d)); subst; try congruence; reflexivity.
Qed.

(** Constant coefficient of t * a * X^m. *)
Lemma mono_const_coef t a m : (m < n)%nat ->
  eqm (pmul n t (pmul n (pcst a) (mono n m)) 0%nat) (a * (if (m =? 0)%nat then t 0%nat else - t (n - m)%nat)).
Proof.
  intros Hm.
  assert (peq n (pmul n t (pmul n (pcst a) (mono n m))) (pmul n (pcst a) (pmul n (mono n m) t))) as E by ring.
  unfold eqm. rewrite (E 0%nat Hn). apply eq_eqm. rewrite (pmul_pcst_exact n Hn) by exact Hn. f_equal.
  rewrite pmul_mono_coef by exact Hn. destruct (Nat.eqb_spec m 0) as [->|Nz].
  - rewrite (sumf_single n _ 0%nat); [|exact Hn|].
    + rewrite (mono_small n Hn) by exact Hn. cbn. ring.
    + intros j Hj Hne. rewrite (mono_small n Hn) by exact Hj. destruct (Nat.eqb_spec (0 + j) 0); [lia|ring].
  - rewrite (sumf_single n _ (n - m)%nat); [| lia |].
    + replace (m + (n - m))%nat with (0 + 1 * n)%nat by lia. rewrite mono_addn by exact Hn.
      rewrite (mono_small n Hn) by exact Hn. cbn. ring.
    + intros j Hj Hne. destruct (Nat.lt_ge_cases (m + j) n).
      * rewrite (mono_small n Hn) by assumption. destruct (Nat.eqb_spec (m + j) 0); [lia|ring].
      * replace (m + j)%nat with ((m + j - n) + 1 * n)%nat by lia. rewrite mono_addn by exact Hn.
        rewrite (mono_small n Hn) by lia. destruct (Nat.eqb_spec (m + j - n) 0); [lia|ring].
Qed.

Lemma compare_core fft eps c t s S L N a m (r : Z) :
  fft_ok n fft 1 1 eps -> wfc n c -> wfp n t -> sbound 1 t -> l1 n (tof s) S -> l1 n (tof t) L ->
  (m < n)%nat -> near n (phase n s c) (pmul n (pcst a) (mono n m)) N ->
  eqm (a * (if (m =? 0)%nat then tof t 0%nat else - tof t (n - m)%nat)) r ->
  wfc n (mul_both fft c t) /\ nrm (phase n s (mul_both fft c t) 0%nat - r) <= L * N + (1 + S) * eps.
Proof.
  intros Hf Hc Ht Hb HS HL Hm HN Hr.
  destruct (mul_both_ok fft eps 1 c t s S Hf Hc Ht Hb HS) as [W M]. split; [exact W|].
  assert (near n (phase n s (mul_both fft c t)) (pmul n (tof t) (pmul n (pcst a) (mono n m))) (L * N + (1 + S) * eps)) as K.
  { eapply near_trans'; [exact Hn|exact M|apply near_mul_l1; [exact Hn|exact HL|exact HN]|lia]. }
  specialize (K 0%nat Hn). unfold psub in K. rewrite (mono_const_coef (tof t) a m Hm), Hr in K. exact K.
Qed.

Lemma less_eq_than_ok fft eps c s S N a m d :
  fft_ok n fft 1 1 eps -> wfc n c -> l1 n (tof s) S -> (m < n)%nat -> (d < n)%nat ->
  near n (phase n s c) (pmul n (pcst a) (mono n m)) N ->
  exists c', less_eq_than n fft c d = Ok c' /\ wfc n c' /\
    nrm (phase n s c' 0%nat - (if (m <=? d)%nat then a else 0)) <= (Z.of_nat d + 1) * N + (1 + S) * eps.
Proof.
  intros Hf Hc HS Hm Hd HN. unfold less_eq_than. rewrite (proj2 (Nat.ltb_lt d n) Hd). cbn [rassert bind].
  eexists; split; [reflexivity|]. destruct (less_eq_wf d) as [W B].
  apply (compare_core fft eps c (less_eq_poly n d) s S (Z.of_nat d + 1) N a m); try assumption; [apply less_eq_l1; exact Hd|].
  destruct (Nat.eqb_spec m 0) as [->|Nz].
  - rewrite less_eq_nth by exact Hn. destruct (Nat.leb_spec (n - d) 0); [lia|]. cbn [Nat.eqb Nat.leb]. apply eq_eqm; ring.
  - rewrite less_eq_nth by lia. destruct (Nat.leb_spec (n - d) (n - m)); destruct (Nat.leb_spec m d); try lia.
    + apply eqm_alt. exists (- a). unfold MAXW. ring.
    + destruct (Nat.eqb_spec (n - m) 0); [lia|]. apply eq_eqm; ring.
Qed.
Lemma eq_to_ok fft eps c s S N a m d :
  fft_ok n fft 1 1 eps -> wfc n c -> l1 n (tof s) S -> (m < n)%nat -> (d < n)%nat ->
  near n (phase n s c) (pmul n (pcst a) (mono n m)) N ->
  exists c', eq_to n fft c d = Ok c' /\ wfc n c' /\
    nrm (phase n s c' 0%nat - (if (m =? d)%nat then a else 0)) <= N + (1 + S) * eps.
Proof.
  intros Hf Hc HS Hm Hd HN. unfold eq_to. rewrite (proj2 (Nat.ltb_lt d n) Hd). cbn [rassert bind].
  eexists; split; [reflexivity|]. destruct (eq_wf d) as [W B].
  rewrite <- (Z.mul_1_l N).
  apply (compare_core fft eps c (eq_poly n d) s S 1 N a m); try assumption; [apply eq_l1; exact Hd|].
  destruct (Nat.eqb_spec m 0) as [->|Nz].
  - rewrite eq_nth by assumption.
    repeat match goal with |- context [Nat.eqb ?u ?v] => destruct (Nat.eqb_spec u v); try lia end; apply eq_eqm; ring.
  - rewrite eq_nth by lia.
    repeat match goal with |- context [Nat.eqb ?u ?v] => destruct (Nat.eqb_spec u v); try lia end;
      solve [apply eq_eqm; ring | apply eqm_alt; exists (- a); unfold MAXW; ring].
Qed.
Lemma compare_panics fft c d : (n <= d)%nat -> less_eq_than n fft c d = Panic PAssert /\ eq_to n fft c d = Panic PAssert.
Proof. clear Hn. intros H. unfold less_eq_than, eq_to. destruct (Nat.ltb_spec d n); [lia|]. split; reflexivity. Qed.

(** ** NOT *)
Lemma wfp_add_first p x : wfp n p -> wfp n (add_first p x).
Proof. clear. intros [L F]. destruct p; [split; assumption|]. inversion F; subst. split; [reflexivity|]. constructor; [apply wrap_word|assumption]. Qed.
Lemma tof_add_first p x : length p = n -> peq n (tof (add_first p x)) (padd (tof p) (pcst x)).
Proof.
  intros L k Hk. destruct p as [|y p]; [cbn in L; lia|]. unfold tof, padd. cbn [add_first].
  destruct k; cbn [nth pcst]; [apply wrap_eqm|apply eq_eqm; ring].
Qed.
Lemma sub_zero_neg p : length p = n -> poly_sub (poly_zero n) p = poly_neg p.
Proof. clear. intros <-. induction p as [|x p IH]; [reflexivity|]. cbn. f_equal. exact IH. Qed.
Lemma not_agree c : wfc n c -> rlwe_not n c = rlwe_not_in_place c.
Proof.
  intros Hc. unfold rlwe_not, rlwe_not_in_place. cbn [rlwe_allocate mask body].
  rewrite !sub_zero_neg by auto using wfc_mask, wfc_body. reflexivity.
Qed.
Lemma wfc_not c : wfc n c -> wfc n (rlwe_not_in_place c).
Proof. intros Hc. split; cbn; [apply wfp_neg, Hc|apply wfp_add_first, wfp_neg, Hc]. Qed.
Lemma not_phase s c : wfc n c -> peq n (phase n s (rlwe_not_in_place c)) (psub (pcst (2 ^ 63)) (phase n s c)).
Proof.
  intros Hc. unfold phase, rlwe_not_in_place. cbn [mask body].
  rewrite (tof_add_first (poly_neg (body c)) (2 ^ 63)) by (apply wfp_len, wfp_neg, Hc).
  rewrite !(tof_neg n) by (apply Hc). ring.
Qed.
Lemma not_involutive c : wfc n c -> rlwe_not_in_place (rlwe_not_in_place c) = c.
Proof.
  intros Hc. pose proof (wfc_not c Hc) as H1. pose proof (wfc_not _ H1) as H2.
  destruct c as [m b]. unfold rlwe_not_in_place in *. cbn [mask body] in *. f_equal.
  - apply (tof_inj n); [apply H2|apply Hc|]. rewrite !(tof_neg n); [ring|apply Hc|apply wfp_len, wfp_neg, Hc].
  - apply (tof_inj n); [apply H2|apply Hc|].
    rewrite (tof_add_first _ _) by apply (wfp_len _ _ (wfp_neg _ _ (wfp_len _ _ (proj2 H1)))).
    rewrite (tof_neg n) by (apply (proj2 H1)). rewrite (tof_add_first _ _) by (apply wfp_len, wfp_neg, Hc).
    rewrite (tof_neg n) by apply Hc. 
    intros k Hk. unfold padd, popp. destruct k; cbn [pcst]; apply eqm_alt; [exists 0; ring|exists 0; ring].
Qed.

(** ** Decoding *)
Lemma codec_new_inv md k c : 1 <= k <= 63 -> codec_new md (2 ^ k) = Ok c -> c = {| cd_base_log := k; cd_delta := 2 ^ (64 - k) |}.
Proof. clear. intros Hk H. rewrite codec_new_ok in H by exact Hk. congruence. Qed.

Lemma near_decode md k c p pt B : 1 <= k <= 63 -> codec_new md (2 ^ k) = Ok c -> wfp n p -> plaintext n k pt ->
  near n (tof p) (scaled k pt) B -> 2 * B < 2 ^ (64 - k) -> poly_decode md c p = Ok pt.
Proof.
  intros Hk Hc Hp [Lpt Fpt] HN HB. rewrite (codec_new_inv md k c Hk Hc).
  apply mapM_pointwise; [rewrite Lpt; symmetry; apply Hp|].
  intros i x Hi. assert (i < n)%nat as Hin by (rewrite <- (wfp_len _ _ Hp); apply nth_error_Some; congruence).
  exists (nth i pt 0). split; [apply nth_error_nth'; lia|].
  assert (x = nth i p 0) as Ex by (symmetry; apply nth_error_nth; exact Hi).
  specialize (HN i Hin). unfold psub, tof, scaled in HN. rewrite <- Ex in HN.
  destruct (nrm_rep (x - nth i pt 0 * 2 ^ (64 - k))) as (z & Hz & Az). rewrite Az in HN.
  rewrite Forall_forall in Fpt. assert (0 <= nth i pt 0 < 2 ^ k) as Hx by (apply Fpt, nth_In; lia).
  assert (2 ^ (64 - k) = 2 * 2 ^ (63 - k)) as D by (replace (64 - k) with (1 + (63 - k)) by lia; rewrite pow2_split by lia; reflexivity).
  rewrite (decode_window md k (nth i pt 0) z).
  - f_equal. apply Z.mod_small. exact Hx.
  - exact Hk.
  - rewrite Ex. apply (wfp_word n p i Hp).
  - change (eqm x (nth i pt 0 * 2 ^ (64 - k) + z)). rewrite <- Hz. apply eq_eqm. ring.
  - lia.
Qed.

Lemma decrypt_decode_near cx s c k pt B : c_n cx = n -> 1 <= k <= 63 -> codec_new (c_mode cx) (2 ^ k) = Ok (c_codec cx) ->
  wfc n c -> plaintext n k pt -> near n (phase n s c) (scaled k pt) B -> 2 * B < 2 ^ (64 - k) ->
  decrypt_decode_rlwe cx s c = Ok pt.
Proof.
  intros En Hk Hc Wc Hpt HN HB. unfold decrypt_decode_rlwe. rewrite En.
  eapply near_decode; try eassumption; [apply decrypt_wf; auto|].
  eapply near_eq_l; [apply decrypt_phase; auto|exact HN].
Qed.

Lemma encode_scaled md k c pt : 1 <= k <= 63 -> codec_new md (2 ^ k) = Ok c -> plaintext n k pt ->
  exists e, poly_encode md c pt = Ok e /\ wfp n e /\ forall i, tof e i = scaled k pt i.
Proof.
  clear Hn. intros Hk Hc [Lpt Fpt]. rewrite (codec_new_inv md k c Hk Hc). exists (map (fun x => x * 2 ^ (64 - k)) pt).
  rewrite Forall_forall in Fpt. split; [|split; [split|]].
  - apply mapM_ok. intros x Hx. apply encode_ok; auto.
  - rewrite map_length. exact Lpt.
  - apply Forall_forall. intros y Hy. apply in_map_iff in Hy as (x & <- & Hx). specialize (Fpt x Hx).
    assert (0 < 2 ^ (64 - k)) by (apply Z.pow_pos_nonneg; lia). split; [nia|]. rewrite <- (pow2_q k) by lia. nia.
  - intros i. unfold tof, scaled. destruct (Nat.lt_ge_cases i (length pt)).
    + rewrite (nth_map_in _ _ _ 0) by assumption. reflexivity.
    + rewrite !nth_overflow by (rewrite ?map_length; assumption). reflexivity.
Qed.

(** ** Homomorphic equalities on the level of lists *)
Lemma decrypt_add s c d : wfc n c -> wfc n d -> decrypt_rlwe n s (rlwe_add c d) = poly_add (decrypt_rlwe n s c) (decrypt_rlwe n s d).
Proof.
  intros Hc Hd. pose proof (decrypt_wf n s c Hc). pose proof (decrypt_wf n s d Hd).
  apply (tof_inj n); [apply decrypt_wf; auto using wfc_add|apply wfp_add; apply wfp_len; assumption|].
  rewrite (tof_add n) by (apply wfp_len; assumption). rewrite !(decrypt_phase n) by auto using wfc_add. apply phase_add; assumption.
Qed.
Lemma decrypt_sub s c d : wfc n c -> wfc n d -> decrypt_rlwe n s (rlwe_sub c d) = poly_sub (decrypt_rlwe n s c) (decrypt_rlwe n s d).
Proof.
  intros Hc Hd. pose proof (decrypt_wf n s c Hc). pose proof (decrypt_wf n s d Hd).
  apply (tof_inj n); [apply decrypt_wf; auto using wfc_sub|apply wfp_sub; apply wfp_len; assumption|].
  rewrite (tof_sub n) by (apply wfp_len; assumption). rewrite !(decrypt_phase n) by auto using wfc_sub. apply phase_sub; assumption.
Qed.
Lemma add_sub_cancel c d : wfc n c -> wfc n d -> rlwe_sub (rlwe_add c d) d = c /\ rlwe_add (rlwe_sub c d) d = c.
Proof.
  intros Hc Hd. pose proof (wfc_add n _ _ Hc Hd) as Ha. pose proof (wfc_sub n _ _ Hc Hd) as Hs.
  pose proof (wfc_sub n _ _ Ha Hd) as H1. pose proof (wfc_add n _ _ Hs Hd) as H2.
  destruct c as [m b]. destruct d as [m' b']. unfold rlwe_add, rlwe_sub, update_mask_with_add, update_body_with_add, update_mask_with_sub, update_body_with_sub in *.
  cbn [mask body] in *. destruct Hc, Hd, Ha, Hs, H1, H2. cbn [mask body] in *. split; f_equal; apply (tof_inj n); try assumption.
  all: first [rewrite (tof_sub n) by (apply wfp_len; assumption); rewrite (tof_add n) by (apply wfp_len; assumption)
             |rewrite (tof_add n) by (apply wfp_len; assumption); rewrite (tof_sub n) by (apply wfp_len; assumption)]; ring.
Qed.
Lemma decrypt_encrypt s pt d : wfp n s -> wfp n pt -> wfp n (d_mask d) -> wfp n (d_noise d) ->
  decrypt_rlwe n s (encrypt_rlwe n s pt d) = poly_add pt (d_noise d).
Proof.
  intros Hs Hp Hm He. unfold decrypt_rlwe, encrypt_rlwe. cbn [mask body].
  assert (wfp n (poly_add (d_noise d) (poly_mul n (d_mask d) s))) as W1 by (apply wfp_add; [apply He|apply wfp_mul]).
  assert (wfp n (poly_add (poly_add (d_noise d) (poly_mul n (d_mask d) s)) pt)) as W2 by (apply wfp_add; [apply W1|apply Hp]).
  apply (tof_inj n); [apply wfp_sub; [apply W2|apply wfp_mul]|apply wfp_add; [apply Hp|apply He]|].
  rewrite (tof_sub n); [|apply W2|apply wfp_mul]. rewrite (tof_add n _ pt); [|apply W1|apply Hp].
  rewrite (tof_add n); [|apply He|apply wfp_mul]. rewrite (tof_add n); [|apply Hp|apply He]. ring.
Qed.
Lemma monomial_div_phase s c m : wfc n c ->
  wfc n (rlwe_monomial_div c m) /\
  peq n (pmul n (mono n m) (phase n s (rlwe_monomial_div c m))) (phase n s c).
Proof.
  intros [Hm Hb]. split; [split; apply wfp_monomial_div; assumption|].
  unfold phase, rlwe_monomial_div. cbn [mask body].
  transitivity (psub (pmul n (mono n m) (tof (monomial_div (body c) m))) (pmul n (pmul n (mono n m) (tof (monomial_div (mask c) m))) (tof s))); [ring|].
  rewrite !monomial_div_spec by assumption. reflexivity.
Qed.

(** ** In-place products *)
Lemma mask_mul_ok c p : wfc n c -> wfp n p ->
  mask (update_mask_with_mul n c p) = poly_mul n (mask c) p /\ body (update_mask_with_mul n c p) = body c /\
  peq n (tof (mask (update_mask_with_mul n c p))) (pmul n (tof (mask c)) (tof p)).
Proof.
  intros Hc Hp. assert (mask (update_mask_with_mul n c p) = poly_mul n (mask c) p) as E.
  { unfold update_mask_with_mul, naive_update_with_mul_acc. cbn [mask]. rewrite (wfc_mask n c Hc).
    apply (tof_inj n); [apply wfp_add; [apply repeat_length|apply wfp_mul]|apply wfp_mul|].
    rewrite (tof_add n); [|apply repeat_length|apply wfp_mul]. rewrite tof_zero. ring. }
  split; [exact E|]. split; [reflexivity|]. rewrite E. apply tof_mul.
Qed.
Lemma body_mul_zero c p : length (body c) = n -> body (update_body_with_mul n c p) = poly_zero n.
Proof.
  intros Hc. unfold update_body_with_mul, naive_update_with_mul. cbn [body]. rewrite Hc.
  apply (tof_inj n); [apply wfp_mul|apply wfp_zero|]. rewrite tof_mul, tof_zero. ring.
Qed.

(** ** Noise measurement *)
Lemma nrm_to_signed x : is_word x -> nrm x = Z.abs (to_signed x).
Proof.
  clear. intros Hx. unfold is_word in Hx. assert (q = 2 * 2 ^ 63) as Hq by reflexivity.
  unfold nrm, to_signed. rewrite Z.mod_small by exact Hx. destruct (Z.ltb_spec x (2 ^ 63)); lia.
Qed.
Lemma nrm_max x : nrm x <= 2 ^ 63.
Proof. clear. unfold nrm. pose proof (Z.mod_pos_bound x q q_pos). assert (q = 2 * 2 ^ 63) by reflexivity. lia. Qed.

Definition noise_step (md : mode) := fun (max_e x : Z) => z <- iabs md x ;; Ok (if max_e <? z then z else max_e).
Lemma iabs_ok md x : is_word x -> nrm x < 2 ^ 63 -> iabs md x = Ok (nrm x).
Proof.
  clear. intros Hx H. unfold iabs. rewrite nrm_to_signed in * by exact Hx.
  destruct (Z.eqb_spec (to_signed x) (- 2 ^ 63)) as [E|_]; [rewrite E in H; vm_compute in H; discriminate|reflexivity].
Qed.
Lemma iabs_min md x : is_word x -> nrm x = 2 ^ 63 -> iabs md x = match md with Checked => Panic POverflow | Wrapping => Ok (- 2 ^ 63) end.
Proof.
  clear. intros Hx H. unfold is_word in Hx. assert (q = 2 * 2 ^ 63) as Hq by reflexivity.
  unfold nrm in H. rewrite Z.mod_small in H by exact Hx. assert (x = 2 ^ 63) as -> by lia. destruct md; reflexivity.
Qed.
Lemma noise_fold md l a : Forall is_word l -> 0 <= a -> (md = Wrapping \/ Forall (fun x => nrm x < 2 ^ 63) l) ->
  exists e, foldM (noise_step md) l a = Ok e /\ a <= e /\
    (forall x, In x l -> nrm x < 2 ^ 63 -> nrm x <= e) /\ (e = a \/ exists x, In x l /\ nrm x < 2 ^ 63 /\ nrm x = e).
Proof.
  clear. intros Hw. revert a; induction Hw as [|x l Hx Hl IH]; intros a Ha Hmd; cbn [foldM].
  - exists a. split; [reflexivity|]. split; [lia|]. split; [intros x []|auto].
  - assert (md = Wrapping \/ Forall (fun x => nrm x < 2 ^ 63) l) as Hmd' by (destruct Hmd as [?|F]; [auto|inversion F; auto]).
    unfold noise_step at 1. destruct (Z.eq_dec (nrm x) (2 ^ 63)) as [Emax|Ne].
    + rewrite iabs_min by assumption. destruct md; [destruct Hmd as [?|F]; [discriminate|inversion F; lia]|].
      cbn [bind]. destruct (Z.ltb_spec a (- 2 ^ 63)); [lia|].
      destruct (IH a Ha Hmd') as (e & Ee & H1 & H2 & H3). exists e. split; [exact Ee|]. split; [exact H1|]. split.
      * intros y [<-|Hy] Hlt; [lia|auto].
      * destruct H3 as [->|(y & Hy & Hlt & Ey)]; [auto|right; exists y; cbn; auto].
    + pose proof (nrm_max x). pose proof (nrm_nonneg x). rewrite iabs_ok by (try assumption; lia). cbn [bind].
      destruct (IH (if a <? nrm x then nrm x else a) ltac:(destruct (a <? nrm x); lia) Hmd') as (e & Ee & H1 & H2 & H3).
      exists e. split; [exact Ee|]. split; [destruct (Z.ltb_spec a (nrm x)); lia|]. split.
      * intros y [<-|Hy] Hlt; [destruct (Z.ltb_spec a (nrm x)); lia|auto].
      * destruct H3 as [->|(y & Hy & Hlt & Ey)]; [|right; exists y; cbn; auto].
        destruct (Z.ltb_spec a (nrm x)); [right; exists x; cbn; split; [auto|split; [lia|reflexivity]]|auto].
Qed.
Lemma noise_fold_panic l a : Forall is_word l -> Exists (fun x => nrm x = 2 ^ 63) l -> foldM (noise_step Checked) l a = Panic POverflow.
Proof.
  clear. intros Hw HE. revert a; induction Hw as [|x l Hx Hl IH]; intros a; [inversion HE|].
  cbn [foldM]. unfold noise_step at 1. destruct (Z.eq_dec (nrm x) (2 ^ 63)) as [Emax|Ne]; [rewrite iabs_min by assumption; reflexivity|].
  pose proof (nrm_max x). rewrite iabs_ok by (try assumption; lia). cbn [bind]. apply IH. inversion HE; [contradiction|assumption].
Qed.

Lemma diff_nth s c e k : wfc n c -> wfp n e -> (k < n)%nat ->
  nrm (nth k (poly_sub (decrypt_rlwe n s c) e) 0) = nrm (phase n s c k - tof e k).
Proof.
  intros Hc He Hk. pose proof (tof_sub n (decrypt_rlwe n s c) e (wfp_len _ _ (decrypt_wf n s c Hc)) (wfp_len _ _ He) k Hk) as E.
  unfold tof at 1 in E. rewrite E. unfold psub. pose proof (decrypt_phase n s c Hc k Hk) as E2. rewrite E2. reflexivity.
Qed.
Lemma compute_noise_ok md s c e : wfc n c -> wfp n e ->
  (md = Wrapping \/ forall k, (k < n)%nat -> nrm (phase n s c k - tof e k) < 2 ^ 63) ->
  exists v, compute_noise md n s c e = Ok v /\ 0 <= v /\
    (forall k, (k < n)%nat -> nrm (phase n s c k - tof e k) < 2 ^ 63 -> nrm (phase n s c k - tof e k) <= v) /\
    (v = 0 \/ exists k, (k < n)%nat /\ nrm (phase n s c k - tof e k) = v).
Proof.
  intros Hc He Hmd. pose proof (decrypt_wf n s c Hc) as Wd.
  assert (wfp n (poly_sub (decrypt_rlwe n s c) e)) as [Ld Fd] by (apply wfp_sub; [apply Wd|apply He]).
  destruct (noise_fold md (poly_sub (decrypt_rlwe n s c) e) 0 Fd ltac:(lia)) as (v & Ev & V0 & V1 & V2).
  { destruct Hmd as [?|H]; [auto|right]. apply Forall_forall. intros x Hx. apply In_nth with (d := 0) in Hx as (k & Hk & <-).
    rewrite diff_nth by (try assumption; lia). apply H. lia. }
  exists v. split; [exact Ev|]. split; [exact V0|]. split.
  - intros k Hk Hlt. rewrite <- diff_nth in * by assumption. apply V1; [apply nth_In; lia|exact Hlt].
  - destruct V2 as [->|(x & Hx & _ & Ex)]; [auto|right]. apply In_nth with (d := 0) in Hx as (k & Hk & <-).
    exists k. split; [lia|]. rewrite <- diff_nth by (try assumption; lia). exact Ex.
Qed.
Lemma compute_noise_panic s c e : wfc n c -> wfp n e ->
  (exists k, (k < n)%nat /\ nrm (phase n s c k - tof e k) = 2 ^ 63) -> compute_noise Checked n s c e = Panic POverflow.
Proof.
  intros Hc He (k & Hk & E). pose proof (decrypt_wf n s c Hc) as Wd.
  assert (wfp n (poly_sub (decrypt_rlwe n s c) e)) as [Ld Fd] by (apply wfp_sub; [apply Wd|apply He]).
  apply noise_fold_panic; [exact Fd|]. apply Exists_exists. exists (nth k (poly_sub (decrypt_rlwe n s c) e) 0).
  split; [apply nth_In; lia|]. rewrite diff_nth by assumption. exact E.
Qed.
Lemma ternary_decode_plain x : x = 0 \/ x = 1 \/ x = MAXW -> ternary_decode x = 0.
Proof. clear. intros [->|[->| ->]]; vm_compute; reflexivity. Qed.
Lemma noise_ternary_is_phase md s c pt : length pt = n -> Forall (fun x => x = 0 \/ x = 1 \/ x = MAXW) pt ->
  compute_noise_ternary md n s c pt = compute_noise md n s c (poly_zero n).
Proof.
  clear Hn. intros <- F. unfold compute_noise_ternary. f_equal. unfold poly_ternary_decode, poly_zero.
  induction F as [|x l Hx F IH]; [reflexivity|]. cbn [map length repeat]. rewrite ternary_decode_plain by exact Hx. f_equal. exact IH.
Qed.
End Rl.
