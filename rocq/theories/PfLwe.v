(** * LWE ciphertexts: encryption, sample extraction, conversion to RLWE *)
From Coq Require Import Setoid Morphisms Ring.
From Verif Require Import MBase MUtils MCodec MPoly MRlwe MLwe SpecLwe PolyRing PfPoly PfDecomp PfNear PfRlwe PfRlwe2 PfRlwe3 PfCodec PfRlwe5 LRlwe LKeys PfUtils.
Local Open Scope Z_scope.

Lemma decrypt_encrypt_lwe s pt d : is_word pt -> decrypt_lwe s (encrypt_lwe s pt d) = wadd pt (ld_noise d).
Proof.
  intros Hp. unfold decrypt_lwe, encrypt_lwe. cbn [l_mask l_body].
  apply eqm_word; [apply wrap_word..|]. unfold wadd, wsub. rewrite !wrap_eqm. apply eq_eqm. ring.
Qed.
Lemma lwe_roundtrip cx k s x d : 1 <= k <= 63 -> codec_new (c_mode cx) (2 ^ k) = Ok (c_codec cx) -> 0 <= x < 2 ^ k ->
  is_word (ld_noise d) -> - 2 ^ (64 - k) <= 2 * to_signed (ld_noise d) < 2 ^ (64 - k) ->
  exists c, encode_encrypt_lwe cx s x d = Ok c /\ decode_decrypt_lwe cx s c = Ok x.
Proof.
  intros Hk Hc Hx Hw He. unfold encode_encrypt_lwe, decode_decrypt_lwe. rewrite (codec_new_inv _ _ _ Hk Hc).
  assert (0 <= x * 2 ^ (64 - k) < q) as Hq.
  { assert (0 < 2 ^ (64 - k)) by (apply Z.pow_pos_nonneg; lia).
    assert (2 ^ k * 2 ^ (64 - k) = q) by (rewrite <- Z.pow_add_r by lia; unfold q; f_equal; lia). nia. }
  rewrite encode_ok by lia. cbn [bind]. eexists; split; [reflexivity|].
  rewrite decrypt_encrypt_lwe by exact Hq.
  assert (2 ^ (64 - k) = 2 * 2 ^ (63 - k)) as D by (replace (64 - k) with (1 + (63 - k)) by lia; rewrite pow2_split by lia; reflexivity).
  assert (wadd (x * 2 ^ (64 - k)) (ld_noise d) = wrap (x * 2 ^ (64 - k) + to_signed (ld_noise d))) as ->.
  { apply eqm_word; [apply wrap_word..|]. unfold wadd. rewrite !wrap_eqm, to_signed_eqm. reflexivity. }
  unfold wrap. apply codec_roundtrip; lia.
Qed.

Lemma nth_skipn {A} (l : list A) k i d : nth i (skipn k l) d = nth (k + i) l d.
Proof. revert l; induction k as [|k IH]; intros l; [reflexivity|]. destruct l as [|x l]; cbn [skipn Nat.add nth]; [destruct i; reflexivity|apply IH]. Qed.
Lemma skipn_S {A} (l : list A) k x r : x :: r = skipn k l -> r = skipn (S k) l.
Proof. revert l; induction k as [|k IH]; intros [|y l] H; cbn [skipn] in *; try discriminate; [congruence|]. apply (IH l H). Qed.
Lemma mapM_rel {A B} (f : A -> res B) (R : A -> B -> Prop) l :
  (forall x, In x l -> exists y, f x = Ok y /\ R x y) -> exists r, mapM f l = Ok r /\ Forall2 R l r.
Proof.
  induction l as [|a l IH]; intros H; [exists []; split; [reflexivity|constructor]|].
  destruct (H a (or_introl eq_refl)) as (y & Ey & Ry). destruct IH as (r & Er & Fr); [intros x Hx; apply H; right; exact Hx|].
  exists (y :: r). split; [cbn; rewrite Ey; cbn; rewrite Er; reflexivity|constructor; assumption].
Qed.
Lemma Forall2_nth_error {A B} (R : A -> B -> Prop) l r i x : Forall2 R l r -> nth_error l i = Some x -> exists y, nth_error r i = Some y /\ R x y.
Proof. intros H. revert i; induction H as [|a b l r Hab H IH]; intros [|i] E; cbn in *; try discriminate; [injection E as <-; eauto|eauto]. Qed.

Section Rl.
Variable n : nat.
Hypothesis Hn : (0 < n)%nat.
Add Ring Pring : (P_ring n Hn) (setoid (peq_equiv n) (P_ext n)).
Notation nil_ct := {| mask := []; body := [] |}.

(** ** Sample extraction *)
Lemma sum_map2_seq a b : length a = length b -> sum_list (map2 Z.mul a b) = sumf (length a) (fun i => nth i a 0 * nth i b 0).
Proof.
  clear. revert b; induction a as [|x a IH]; intros [|y b] L; cbn in L; try discriminate; [reflexivity|].
  cbn [map2 sum_list fold_right length]. fold (sum_list (map2 Z.mul a b)). rewrite IH by lia.
  change (S (length a)) with (1 + length a)%nat. rewrite sumf_split. cbn. ring.
Qed.
Lemma extract_nth (p : poly) d j : length p = n -> (d < n)%nat -> (j < n)%nat ->
  let k := (n - d - 1)%nat in
  let r := rev p in
  let r' := poly_neg (firstn k r) ++ skipn k r in
  eqm (nth j (skipn k r' ++ firstn k r') 0) (if (j <=? d)%nat then nth (d - j) p 0 else - nth (n + d - j) p 0).
Proof.
  intros L Hd Hj k r r'.
  assert (length r = n) as Lr by (unfold r; rewrite rev_length; exact L).
  assert (length (poly_neg (firstn k r)) = k) as Lk by (unfold poly_neg; rewrite map_length, firstn_length; lia).
  assert (skipn k r' = skipn k r) as ->.
  { unfold r'. rewrite skipn_app, Lk, Nat.sub_diag. rewrite skipn_all2 by lia. reflexivity. }
  assert (firstn k r' = poly_neg (firstn k r)) as ->.
  { unfold r'. rewrite firstn_app, Lk, Nat.sub_diag. rewrite firstn_all2 by lia. cbn. apply app_nil_r. }
  assert (length (skipn k r) = (d + 1)%nat) as Ls by (rewrite skipn_length; lia).
  destruct (Nat.leb_spec j d) as [H|H].
  - rewrite app_nth1 by lia. rewrite nth_skipn. unfold r. rewrite rev_nth by lia. apply eq_eqm. f_equal. lia.
  - rewrite app_nth2 by lia. rewrite Ls. unfold poly_neg. rewrite (nth_map_in _ _ _ 0) by (rewrite firstn_length; lia).
    unfold wsub. rewrite wrap_eqm. rewrite nth_firstn by lia.
    unfold r. rewrite rev_nth by lia. apply eq_eqm. rewrite Z.sub_0_l. f_equal. f_equal. lia.
Qed.
Lemma extract_ok c s d : wfc n c -> length s = n -> (d < n)%nat ->
  exists l, sample_extract c d = Ok l /\ length (l_mask l) = n /\ Forall is_word (l_mask l) /\ is_word (l_body l) /\
    decrypt_lwe s l = nth d (decrypt_rlwe n s c) 0.
Proof.
  intros [[Lm Wm] [Lb Wb]] Ls Hd. unfold sample_extract.
  rewrite (index_ok (body c) d 0) by lia. cbn [bind]. rewrite Lm. eexists; split; [reflexivity|]. cbn [l_mask l_body].
  set (k := (n - d - 1)%nat). set (r := rev (mask c)).
  assert (length r = n) as Lr by (unfold r; rewrite rev_length; exact Lm).
  assert (length (poly_neg (firstn k r) ++ skipn k r) = n) as Lr'.
  { rewrite app_length. unfold poly_neg. rewrite map_length, firstn_length, skipn_length. lia. }
  assert (length (skipn k (poly_neg (firstn k r) ++ skipn k r) ++ firstn k (poly_neg (firstn k r) ++ skipn k r)) = n) as LL.
  { rewrite app_length, skipn_length, firstn_length, Lr'. lia. }
  split; [exact LL|]. split.
  - assert (Forall is_word r) as Wr by (apply Forall_rev; exact Wm).
    assert (Forall is_word (poly_neg (firstn k r) ++ skipn k r)) as W1.
    { apply Forall_app. split.
      - apply Forall_forall. intros x Hx. apply in_map_iff in Hx as (y & <- & _). apply wrap_word.
      - rewrite <- (firstn_skipn k r), Forall_app in Wr. apply Wr. }
    rewrite <- (firstn_skipn k (poly_neg (firstn k r) ++ skipn k r)), Forall_app in W1.
    apply Forall_app. tauto.
  - split; [apply (wfp_word n); split; assumption|].
    assert (is_word (nth d (decrypt_rlwe n s c) 0)) as Wd by (apply (wfp_word n), decrypt_wf; repeat split; assumption).
    apply eqm_word; [apply wrap_word|exact Wd|].
    pose proof (decrypt_phase n s c) as DP. specialize (DP ltac:(repeat split; assumption) d Hd). unfold tof in DP. rewrite DP. clear DP.
    unfold decrypt_lwe, wsub, dot. cbn [l_mask l_body]. rewrite !wrap_eqm.
    rewrite sum_map2_seq by (rewrite Ls; exact LL). rewrite LL. unfold phase, psub. cbn [mask body].
    assert (eqm (sumf n (fun i => nth i (skipn k (poly_neg (firstn k r) ++ skipn k r) ++ firstn k (poly_neg (firstn k r) ++ skipn k r)) 0 * nth i s 0))
              (pmul n (tof (mask c)) (tof s) d)) as ->; [|reflexivity].
    rewrite (pmul_comm n (tof (mask c)) (tof s) d Hd). rewrite (pmul_coef n) by exact Hd.
    apply sumf_eqm. intros i Hi. unfold k, r. rewrite (extract_nth (mask c) d i Lm Hd Hi). unfold tof.
    destruct (i <=? d)%nat; apply eq_eqm; ring.
Qed.
Lemma extract_panics c d : (length (body c) <= d)%nat -> sample_extract c d = Panic PIndex.
Proof. clear. intros H. unfold sample_extract, index. rewrite (proj2 (nth_error_None (body c) d) H). reflexivity. Qed.

(** ** Conversion *)
Lemma closest_idem b l x : (1 <= b * l < 64)%nat -> is_word x -> closest b l (closest b l x) = closest b l x.
Proof.
  clear. intros Hb Hx. destruct (closest_state b l x Hb Hx) as [H1 H2]. pose proof (closest_word b l x) as W.
  set (c := closest b l x) in *. set (nr := 64 - Z.of_nat (b * l)) in *. set (st := c / 2 ^ nr) in *.
  unfold closest. fold nr. fold st. assert (1 <= nr < 64) by lia.
  assert ((c / 2 ^ (nr - 1)) mod 2 = 0) as ->.
  { rewrite H2. assert (2 ^ nr = 2 ^ (nr - 1) * 2) as -> by (replace nr with (nr - 1 + 1) at 1 by lia; rewrite Z.pow_add_r by lia; reflexivity).
    rewrite (Z.mul_comm (2 ^ (nr - 1))), Z.mul_assoc. rewrite Z.div_mul by (apply Z.pow_nonzero; lia). apply Z.mod_mul. lia. }
  rewrite Z.add_0_r, <- H2. apply wrap_id. exact W.
Qed.

Lemma conv_inner_ok s D E l vs out :
  0 <= D -> 0 <= E -> wfc n out ->
  Forall2 (fun cd v => wfc n (fst cd) /\ nrm (snd cd) <= D /\ near n (phase n s (fst cd)) (pcst v) E) l vs ->
  wfc n (fold_left conv_inner l out) /\
  near n (phase n s (fold_left conv_inner l out))
         (psub (phase n s out) (pcst (sum_list (map2 (fun cd v => snd cd * v) l vs))))
         (Z.of_nat (length l) * (D * E)).
Proof.
  intros HD HE Ho HF. revert out Ho. induction HF as [|[ct d] v l vs (Wc & Bd & Nr) HF IH]; intros out Ho.
  - cbn. split; [exact Ho|]. apply near_refl. intros k Hk. unfold psub, pcst. destruct k; apply eq_eqm; ring.
  - cbn [fst snd] in *. cbn [fold_left]. set (out' := conv_inner out (ct, d)).
    assert (wfc n out') as Wo'.
    { unfold out', conv_inner. split; cbn [mask body]; apply wfp_sub; try (apply wfp_len; apply Ho);
        apply wfp_len, wfp_mul_const, wfp_len; apply Wc. }
    assert (peq n (phase n s out') (psub (phase n s out) (pmul n (pcst d) (phase n s ct)))) as Ph.
    { unfold phase, out', conv_inner. cbn [mask body].
      rewrite !(tof_sub n); try (apply wfp_len; apply Ho); try (apply wfp_len, wfp_mul_const, wfp_len; apply Wc).
      rewrite !(tof_mul_const n) by (try exact Hn; apply wfp_len; apply Wc). ring. }
    destruct (IH out' Wo') as [W N]. split; [exact W|].
    replace (Z.of_nat (length ((ct, d) :: l)) * (D * E)) with (Z.of_nat (length l) * (D * E) + D * E) by (cbn [length]; lia).
    eapply near_trans; [exact Hn|exact N|].
    set (rest := sum_list (map2 (fun cd v => snd cd * v) l vs)).
    assert (sum_list (map2 (fun cd v0 => snd cd * v0) ((ct, d) :: l) (v :: vs)) = d * v + rest) as -> by reflexivity.
    apply (near_eq_l n (psub (psub (phase n s out) (pmul n (pcst d) (phase n s ct))) (pcst rest))); [rewrite Ph; reflexivity|].
    apply (near_eq_r n (psub (psub (phase n s out) (pmul n (pcst d) (pcst v))) (pcst rest))).
    { intros k Hk. unfold psub. rewrite (pmul_pcst_exact n Hn) by exact Hk. destruct k; cbn [pcst]; apply eq_eqm; ring. }
    replace (D * E) with (0 + D * E + 0) by ring. apply near_sub; [exact Hn| |apply near_refl; reflexivity].
    apply near_sub; [exact Hn|apply near_refl; reflexivity|].
    intros k Hk. unfold psub. rewrite !(pmul_pcst_exact n Hn) by exact Hk. rewrite <- Z.mul_sub_distr_l.
    etransitivity; [apply nrm_mul|]. apply Z.mul_le_mono_nonneg; try apply nrm_nonneg; [exact Bd|]. apply (Nr k Hk).
Qed.

Lemma rows_copy r : wfc n r -> update_body_with_add (update_mask_with_add (rlwe_allocate n) (mask r)) (body r) = r.
Proof.
  clear Hn. intros [Hm Hb]. destruct r as [m b]. cbn in *. unfold update_body_with_add, update_mask_with_add, rlwe_allocate. cbn.
  assert (forall p, wfp n p -> poly_add (poly_zero n) p = p) as G.
  { clear. intros p [L F]. subst n. unfold poly_add, poly_zero. induction F as [|x p Hx F IH]; [reflexivity|]. cbn [length repeat map2]. f_equal; [|exact IH].
    unfold wadd. rewrite Z.add_0_l. apply wrap_id. exact Hx. }
  rewrite !G by assumption. reflexivity.
Qed.

Definition conv_term_bound (base level : nat) (sj E : Z) : Z :=
  Z.of_nat level * (2 ^ (Z.of_nat base - 1) * E) + nrm sj * 2 ^ (63 - Z.of_nat (base * level)).

Lemma sum_list_map2_seq {A B} (F : A -> B -> Z) (a : list A) (b : list B) da db : length a = length b ->
  sum_list (map2 F a b) = sumf (length a) (fun i => F (nth i a da) (nth i b db)).
Proof.
  clear. revert b; induction a as [|x a IH]; intros [|y b] L; cbn in L; try discriminate; [reflexivity|].
  cbn [map2 sum_list fold_right length]. fold (sum_list (map2 F a b)). rewrite IH by lia.
  change (S (length a)) with (1 + length a)%nat. rewrite sumf_split. cbn. ring.
Qed.

Lemma conv_outer_ok cx s g a sj E out : c_n cx = n ->
  rgsw_encrypts n s g (pcst sj) E -> g_base g = c_ks_base cx -> g_level g = c_ks_level cx -> is_word a -> wfc n out ->
  wfc n (conv_outer cx out (g, a)) /\
  near n (phase n s (conv_outer cx out (g, a))) (psub (phase n s out) (pcst (a * sj)))
       (conv_term_bound (c_ks_base cx) (c_ks_level cx) sj E).
Proof.
  intros En [Wg Rg] Gb Gl Ha Ho. unfold conv_outer. rewrite En.
  destruct Wg as (Hd & Lg & Fg). rewrite Gb, Gl in Hd. destruct Hd as (D1 & D2 & D3).
  set (b := c_ks_base cx) in *. set (l := c_ks_level cx) in *.
  set (ca := closest b l a). assert (is_word ca) as Wca by apply closest_word.
  destruct (decompose_spec b l ca D1 D2 D3 Wca) as (Ld & Fd & Sd).
  assert (1 <= b * l < 64)%nat as Hbl by nia.
  assert (closest b l ca = ca) as Eca by (apply closest_idem; [exact Hbl|exact Ha]). rewrite Eca in Sd.
  set (ds := decompose b l ca) in *.
  assert (body_rows_rev n g = map (fun i => row1 g (l - 1 - i)) (seq 0 l)) as Er.
  { unfold body_rows_rev. rewrite Gl. apply map_ext_in. intros i Hi. apply in_seq in Hi. cbv zeta. unfold row1.
    apply rows_copy. rewrite Forall_forall in Fg. apply Fg, nth_In. lia. }
  rewrite Er.
  assert (length (combine (map (fun i => row1 g (l - 1 - i)) (seq 0 l)) ds) = l) as Lc by (rewrite combine_length, map_length, seq_length; lia).
  set (vs := map (fun i => gadget b (l - i) * sj) (seq 0 l)).
  assert (0 <= E) as HE.
  { destruct (Rg 0%nat ltac:(lia)) as [_ H]. eapply near_nonneg; [exact Hn|exact H]. }
  destruct (conv_inner_ok s (2 ^ (Z.of_nat b - 1)) E (combine (map (fun i => row1 g (l - 1 - i)) (seq 0 l)) ds) vs out) as [W N].
  - apply Z.pow_nonneg. lia.
  - exact HE.
  - exact Ho.
  - assert (forall m ds0 k0, length ds0 = m -> Forall (fun d => is_word d /\ - 2 ^ (Z.of_nat b - 1) <= to_signed d <= 2 ^ (Z.of_nat b - 1)) ds0 ->
        (k0 + m = l)%nat ->
        Forall2 (fun cd v => wfc n (fst cd) /\ nrm (snd cd) <= 2 ^ (Z.of_nat b - 1) /\ near n (phase n s (fst cd)) (pcst v) E)
          (combine (map (fun i => row1 g (l - 1 - i)) (seq k0 m)) ds0) (map (fun i => gadget b (l - i) * sj) (seq k0 m))) as G.
    { induction m as [|m IH]; intros [|d ds0] k0 L0 F0 K0; cbn in L0; try discriminate; [constructor|].
      apply Forall_cons_iff in F0 as [[Wd Bd] F0']. cbn [seq map combine]. constructor; [|apply IH; [lia|exact F0'|lia]].
      cbn [fst snd]. split; [unfold row1; rewrite Forall_forall in Fg; apply Fg, nth_In; lia|].
      split; [apply nrm_signed; exact Bd|]. destruct (Rg (l - 1 - k0)%nat ltac:(lia)) as [_ R]. rewrite Gb in R.
      replace (l - 1 - k0 + 1)%nat with (l - k0)%nat in R by lia.
      eapply near_eq_r; [|exact R]. intros k Hk. rewrite (pmul_pcst_exact n Hn) by exact Hk.
      destruct k; cbn [pcst]; apply eq_eqm; ring. }
    apply G; [exact Ld|exact Fd|lia].
  - rewrite Lc in N. split; [exact W|]. eapply near_trans; [exact Hn|exact N|].
    apply (near_eq_r n (psub (phase n s out) (pcst (a * sj)))); [reflexivity|].
    rewrite (sum_list_map2_seq _ _ _ (nil_ct, 0) 0) by (rewrite Lc; unfold vs; rewrite map_length, seq_length; reflexivity).
    rewrite Lc.
    assert (eqm (sumf l (fun i => snd (nth i (combine (map (fun i0 => row1 g (l - 1 - i0)) (seq 0 l)) ds) (nil_ct, 0)) * nth i vs 0)) (ca * sj)) as Es.
    { rewrite <- Sd. rewrite <- sumf_scal_r. apply sumf_eqm. intros i Hi. unfold vs. rewrite nth_map_seq by exact Hi.
      rewrite combine_nth by (rewrite map_length, seq_length; lia). cbn [snd]. apply eq_eqm. ring. }
    set (X := sumf l _) in *. clearbody X.
    intros k Hk. unfold psub.
    rewrite (nrm_eqm _ (pcst ((a - ca) * sj) k)).
    2:{ destruct k; cbn [pcst]; [|apply eq_eqm; ring]. rewrite Es. apply eq_eqm. ring. }
    destruct k; cbn [pcst].
    + etransitivity; [apply nrm_mul|]. rewrite Z.mul_comm. apply Z.mul_le_mono_nonneg_l; [apply nrm_nonneg|].
      replace (a - ca) with (- (ca - a)) by ring. rewrite nrm_opp. apply closest_near; assumption.
    + rewrite nrm_0. apply Z.mul_nonneg_nonneg; [apply nrm_nonneg|apply Z.pow_nonneg; lia].
Qed.

Definition is_conv_key (cx : ctx) (s : poly) (ksks : list rgsw) (E : Z) : Prop :=
  Forall2 (fun g sj => rgsw_encrypts n s g (pcst sj) E /\ g_base g = c_ks_base cx /\ g_level g = c_ks_level cx) ksks s.

Lemma conv_fold_ok cx s E ksks ss ms out : c_n cx = n -> wfc n out -> Forall is_word ms -> length ms = length ss ->
  Forall2 (fun g sj => rgsw_encrypts n s g (pcst sj) E /\ g_base g = c_ks_base cx /\ g_level g = c_ks_level cx) ksks ss ->
  wfc n (fold_left (conv_outer cx) (combine ksks ms) out) /\
  near n (phase n s (fold_left (conv_outer cx) (combine ksks ms) out))
         (psub (phase n s out) (pcst (sum_list (map2 Z.mul ms ss))))
         (sum_list (map (fun sj => conv_term_bound (c_ks_base cx) (c_ks_level cx) sj E) ss)).
Proof.
  intros En Ho Wm Lm HF. revert ms out Ho Wm Lm. induction HF as [|g sj ksks ss (R & Gb & Gl) HF IH]; intros [|a ms] out Ho Wm Lm;
    cbn in Lm; try discriminate.
  - cbn. split; [exact Ho|]. apply near_refl. intros k Hk. unfold psub, pcst. destruct k; apply eq_eqm; ring.
  - apply Forall_cons_iff in Wm as [Wa Wm']. cbn [combine fold_left].
    destruct (conv_outer_ok cx s g a sj E out En R Gb Gl Wa Ho) as [W1 N1].
    destruct (IH ms (conv_outer cx out (g, a)) W1 Wm' ltac:(lia)) as [W2 N2]. split; [exact W2|].
    cbn [map sum_list fold_right map2].
    fold (sum_list (map (fun sj0 => conv_term_bound (c_ks_base cx) (c_ks_level cx) sj0 E) ss)). fold (sum_list (map2 Z.mul ms ss)).
    rewrite (Z.add_comm (conv_term_bound _ _ _ _)). eapply near_trans; [exact Hn|exact N2|].
    apply (near_eq_r _ (psub (psub (phase n s out) (pcst (a * sj))) (pcst (sum_list (map2 Z.mul ms ss))))).
    { intros k Hk. unfold psub. destruct k; cbn [pcst]; apply eq_eqm; ring. }
    rewrite <- (Z.add_0_r (conv_term_bound _ _ _ _)). apply near_sub; [exact Hn|exact N1|apply near_refl; reflexivity].
Qed.

Lemma conv_sum_bound base level E s S : l1 n (tof s) S -> length s = n ->
  sum_list (map (fun sj => conv_term_bound base level sj E) s) <= conv_bound n base level S E.
Proof.
  clear Hn. intros HS L. unfold conv_bound.
  assert (sum_list (map (fun sj => conv_term_bound base level sj E) s) =
    Z.of_nat (length s) * (Z.of_nat level * (2 ^ (Z.of_nat base - 1) * E)) + sumf (length s) (fun k => nrm (tof s k)) * 2 ^ (63 - Z.of_nat (base * level))) as ->.
  { clear. unfold tof. induction s as [|x s IH]; [reflexivity|]. cbn [map sum_list fold_right].
    fold (sum_list (map (fun sj => conv_term_bound base level sj E) s)). rewrite IH.
    change (length (x :: s)) with (1 + length s)%nat. rewrite sumf_split. cbn [sumf nth Nat.add]. unfold conv_term_bound. rewrite Nat2Z.inj_succ. ring. }
  rewrite L. apply Z.add_le_mono_l. apply Z.mul_le_mono_nonneg_r; [|exact HS].
  destruct (Z.le_gt_cases 0 (63 - Z.of_nat (base * level))); [apply Z.pow_nonneg; lia|rewrite Z.pow_neg_r by lia; lia].
Qed.

Lemma conv_ok cx s ksks l E S : c_n cx = n -> length s = n -> is_conv_key cx s ksks E ->
  length (l_mask l) = n -> Forall is_word (l_mask l) -> is_word (l_body l) -> l1 n (tof s) S ->
  wfc n (conv_lwe_to_rlwe cx ksks l) /\
  near n (phase n s (conv_lwe_to_rlwe cx ksks l)) (pcst (decrypt_lwe s l)) (conv_bound n (c_ks_base cx) (c_ks_level cx) S E).
Proof.
  intros En Ls HK Lm Wm Wb HS. unfold conv_lwe_to_rlwe. rewrite En.
  destruct (conv_fold_ok cx s E ksks s (l_mask l) (rlwe_allocate n) En (wfc_allocate n) Wm ltac:(congruence) HK) as [W N].
  set (out := fold_left _ _ _) in *.
  assert (wfp n (poly_mono n 0 (l_body l))) as Wmo by (apply wfp_mono; exact Wb).
  split.
  - split; [apply W|]. cbn [update_body_with_add body]. apply wfp_add; [apply wfp_len, W|apply wfp_len, Wmo].
  - apply (near_eq_l n (padd (phase n s out) (pcst (l_body l)))).
    { unfold phase, update_body_with_add. cbn [mask body]. rewrite (tof_add n _ _ (wfp_len _ _ (proj2 W)) (wfp_len _ _ Wmo)).
      rewrite tof_pcst. ring. }
    apply (near_eq_r n (padd (psub (phase n s (rlwe_allocate n)) (pcst (sum_list (map2 Z.mul (l_mask l) s)))) (pcst (l_body l)))).
    { intros k Hk. unfold padd, psub. rewrite (phase_allocate n Hn s k Hk). unfold pzero.
      destruct k; cbn [pcst]; [|reflexivity]. unfold decrypt_lwe, wsub, dot. rewrite !wrap_eqm. apply eq_eqm. ring. }
    eapply near_weaken; [|apply conv_sum_bound with (s := s); [exact HS|exact Ls]].
    rewrite <- (Z.add_0_r (sum_list (map _ s))). apply near_add; [exact Hn|exact N|apply near_refl; reflexivity].
Qed.

Lemma fill_conv_key_ok cx s t E : c_n cx = n -> wfp n s -> decomp_ok (c_ks_base cx) (c_ks_level cx) -> tape_ok n E t ->
  exists ksks, fill_with_keyswitching_key cx s t = Ok ksks /\ length ksks = n /\ is_conv_key cx s ksks E.
Proof.
  intros En Hs Hd Ht. unfold fill_with_keyswitching_key, to_rlwe_sk. rewrite En, (wfp_len _ _ Hs), Nat.eqb_refl. cbn [rassert bind].
  eexists; split; [reflexivity|]. split; [rewrite map_length, seq_length; reflexivity|]. unfold is_conv_key.
  assert (forall m ss k0, ss = skipn k0 s -> length ss = m ->
    Forall2 (fun g sj => rgsw_encrypts n s g (pcst sj) E /\ g_base g = c_ks_base cx /\ g_level g = c_ks_level cx)
      (map (fun i => encrypt_constant_rgsw n s (c_ks_base cx) (c_ks_level cx) (nth i s 0) (split t i)) (seq k0 m)) ss) as G.
  { induction m as [|m IH]; intros [|x ss] k0 Es Lm; cbn in Lm; try discriminate; [constructor|].
    cbn [seq map]. constructor.
    - split; [|split; reflexivity].
      assert (x = nth k0 s 0) as ->.
      { transitivity (nth 0 (skipn k0 s) 0); [rewrite <- Es; reflexivity|]. rewrite nth_skipn. f_equal. lia. }
      apply encrypt_constant_rgsw_ok; try assumption. apply tape_split; assumption.
    - apply IH; [|lia]. eapply skipn_S; exact Es. }
  apply (G n s 0%nat); [reflexivity|apply Hs].
Qed.

Lemma expand_slow_ok fft eps cx ksks s cs neg_s b E Ek En S :
  c_n cx = n -> length s = n -> decomp_ok (c_base cx) (c_level cx) ->
  rgsw_encrypts n s neg_s (popp (tof s)) En -> fft_ok n fft (Dgb (g_base neg_s)) (2 * g_level neg_s) eps ->
  length ksks = n -> is_conv_key cx s ksks Ek -> l1 n (tof s) S -> expand_inputs n 0 cx s b E cs ->
  exists g, expand_slow fft cx ksks neg_s cs = Ok g /\ g_base g = c_base cx /\ g_level g = c_level cx /\
    rgsw_encrypts n s g (pcst b)
      ((1 + S) * (E + conv_bound n (c_ks_base cx) (c_ks_level cx) S Ek) + ep_bound n (g_base neg_s) (g_level neg_s) S S En eps).
Proof.
  intros Ecx Ls Hd Hneg Hf Lk HK HS (Lc & Wc & Hc). unfold expand_slow. rewrite Ecx, Lk, Lc, !Nat.eqb_refl. cbn [rassert bind].
  assert (1 <= c_level cx)%nat by apply Hd.
  rewrite (index_ok cs 0 nil_ct) by lia. cbn [bind].
  assert (forall c, In c cs -> exists c', (l <- const_sample_extract c ;; Ok (conv_lwe_to_rlwe cx ksks l)) = Ok c' /\ wfc n c' /\
      near n (phase n s c') (pcst (phase n s c 0%nat)) (conv_bound n (c_ks_base cx) (c_ks_level cx) S Ek)) as HT.
  { intros c Hin. rewrite Forall_forall in Wc. specialize (Wc c Hin).
    destruct (extract_ok c s 0%nat Wc Ls Hn) as (l & El & L1 & L2 & L3 & L4). unfold const_sample_extract. rewrite El. cbn [bind].
    eexists; split; [reflexivity|]. destruct (conv_ok cx s ksks l Ek S Ecx Ls HK L1 L2 L3 HS) as [W N]. split; [exact W|].
    eapply near_eq_r; [|exact N]. rewrite L4. pose proof (decrypt_phase n s c Wc 0%nat Hn) as DP. unfold tof in DP.
    intros k Hk. destruct k; cbn [pcst]; [symmetry; exact DP|reflexivity]. }
  destruct (mapM_rel _ _ cs HT) as (cts & Em & Hct). rewrite Em. cbn [bind].
  pose proof (mapM_length _ _ _ Em) as Lct.
  apply (decomposed_ok n Hn fft eps cx s cts neg_s (pcst b)); try assumption; [lia|].
  intros i Hi. destruct (nth_error cs i) as [c|] eqn:Ei; [|apply nth_error_None in Ei; lia].
  destruct (Forall2_nth_error _ _ _ _ _ Hct Ei) as (c' & Ec' & W & N). rewrite (nth_error_nth _ _ nil_ct Ec').
  split; [exact W|]. rewrite Z.add_comm. eapply near_trans; [exact Hn|exact N|].
  specialize (Hc i Hi). rewrite (nth_error_nth _ _ nil_ct Ei) in Hc.
  intros k Hk. unfold psub. rewrite (pmul_pcst_exact n Hn) by exact Hk. destruct k; cbn [pcst].
  - rewrite (nrm_eqm _ (phase n s c 0%nat - b * 2 ^ (64 - Z.of_nat (c_base cx * (i + 1)) - Z.of_nat 0))); [exact Hc|].
    apply eq_eqm. unfold gadget. cbn [Z.of_nat]. rewrite Z.sub_0_r. ring.
  - rewrite Z.mul_0_r, Z.sub_0_r, nrm_0. etransitivity; [|exact Hc]. apply nrm_nonneg.
Qed.
End Rl.
